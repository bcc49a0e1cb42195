(** * The PCS formats: src/ConfigSpace/read_and_write/pcs_new.py and pcs.py

    Characters are those of [string]: bytes.  The grammars are written with pyparsing; its
    combinators are modelled as functions from the rest of the line to the tokens and the new rest.
    pyparsing skips blanks, tabs and line ends before each token, and there is no backtracking: a
    sequence that fails after its first element fails as a whole, an alternative that succeeds is
    not revised.  parseString ignores what follows the part that was parsed. *)
From Coq Require Import String Ascii List ZArith QArith Bool Lia.
From Verif Require Import Base Numeric HP Cond Forb Dag Space Serial Fix.
Import ListNotations.
Open Scope string_scope.
Open Scope list_scope.

(** ** Strings of Python *)

Definition code (c : ascii) : nat := nat_of_ascii c.
Definition between (a b : ascii) (c : ascii) : bool := (Nat.leb (code a) (code c) && Nat.leb (code c) (code b))%bool.

(** str.isspace on ASCII characters: what strip() and split() remove *)
Definition is_space (c : ascii) : bool :=
  ((Nat.leb 9 (code c) && Nat.leb (code c) 13) || (Nat.leb 28 (code c) && Nat.leb (code c) 32))%bool.

(** all characters satisfy [p] *)
Fixpoint all_chars (p : ascii -> bool) (s : string) : bool :=
  match s with EmptyString => true | String c s' => (p c && all_chars p s')%bool end.
Definition has_char (c : ascii) (s : string) : bool := negb (all_chars (fun d => negb (Ascii.eqb c d)) s).

Fixpoint drop_while (p : ascii -> bool) (s : string) : string :=
  match s with String c s' => if p c then drop_while p s' else s | EmptyString => s end.
Fixpoint filter_chars (p : ascii -> bool) (s : string) : string :=
  match s with
  | EmptyString => s
  | String c s' => if p c then String c (filter_chars p s') else filter_chars p s'
  end.
(** without the trailing characters that satisfy [p] *)
Fixpoint rdrop_while (p : ascii -> bool) (s : string) : string :=
  match s with
  | EmptyString => s
  | String c s' => match rdrop_while p s' with
                   | EmptyString => if p c then EmptyString else String c EmptyString
                   | t => String c t
                   end
  end.
(** str.strip() *)
Definition strip (s : string) : string := rdrop_while is_space (drop_while is_space s).

(** the longest prefix of characters satisfying [p], and the rest *)
Fixpoint span (p : ascii -> bool) (s : string) : string * string :=
  match s with
  | EmptyString => (EmptyString, EmptyString)
  | String c s' => if p c then let (a, b) := span p s' in (String c a, b) else (EmptyString, s)
  end.

(** [s] without the prefix [t] *)
Fixpoint strip_prefix (t s : string) : option string :=
  match t, s with
  | EmptyString, _ => Some s
  | String c t', String d s' => if Ascii.eqb c d then strip_prefix t' s' else None
  | String _ _, EmptyString => None
  end.
(** s.startswith(t) *)
Definition starts_with (t s : string) : bool := match strip_prefix t s with Some _ => true | None => false end.
(** t in s *)
Fixpoint is_infix (t s : string) : bool :=
  (starts_with t s || match s with EmptyString => false | String _ s' => is_infix t s' end)%bool.
(** the last character *)
Fixpoint last_char (s : string) : option ascii :=
  match s with EmptyString => None | String c EmptyString => Some c | String _ s' => last_char s' end.

(** s.split(t) for a separator [t] that is not empty.  The first argument is the number of characters of
    a separator still to be skipped. *)
Fixpoint split_from (t : string) (skip : nat) (cur : string) (s : string) : list string :=
  match s with
  | EmptyString => [cur]
  | String c s' =>
      match skip with
      | S k => split_from t k cur s'
      | O => if starts_with t s then cur :: split_from t (String.length t - 1) EmptyString s'
             else split_from t 0 (cur ++ String c EmptyString)%string s'
      end
  end.
Definition split_on (t s : string) : list string := split_from t 0 EmptyString s.
(** s.split(): the words between blanks *)
Fixpoint words_from (cur : string) (s : string) : list string :=
  match s with
  | EmptyString => if String.eqb cur "" then [] else [cur]
  | String c s' =>
      if is_space c then (if String.eqb cur "" then words_from EmptyString s' else cur :: words_from EmptyString s')
      else words_from (cur ++ String c EmptyString)%string s'
  end.
Definition words (s : string) : list string := words_from EmptyString s.

(** ** pyparsing *)
Definition parser := string -> option (list string * string).

(** ParserElement.DEFAULT_WHITE_CHARS *)
Definition is_white (c : ascii) : bool := Nat.eqb (code c) 32 || Nat.eqb (code c) 9 || Nat.eqb (code c) 10 || Nat.eqb (code c) 13.
Definition skip_white (s : string) : string := drop_while is_white s.

(** Word(chars) *)
Definition word (p : ascii -> bool) : parser := fun s =>
  match span p (skip_white s) with
  | (EmptyString, _) => None
  | (w, r) => Some ([w], r)
  end.
(** Literal(t) *)
Definition literal (t : string) : parser := fun s =>
  match strip_prefix t (skip_white s) with Some r => Some ([t], r) | None => None end.
(** And *)
Definition andThen (p q : parser) : parser := fun s =>
  match p s with
  | Some (a, r) => match q r with Some (b, r') => Some (a ++ b, r') | None => None end
  | None => None
  end.
(** MatchFirst *)
Definition orElse (p q : parser) : parser := fun s => match p s with Some x => Some x | None => q s end.
(** Optional *)
Definition optional (p : parser) : parser := fun s => match p s with Some x => Some x | None => Some ([], s) end.
(** Optional(OneOrMore(p)); each repetition consumes a character, so the length bounds their number *)
Fixpoint many_ (fuel : nat) (p : parser) (s : string) : list string * string :=
  match fuel with
  | O => ([], s)
  | S f => match p s with
           | Some (a, r) => let (b, r') := many_ f p r in (a ++ b, r')
           | None => ([], s)
           end
  end.
Definition many (p : parser) : parser := fun s => Some (many_ (String.length s) p s).

Notation "p >> q" := (andThen p q) (at level 60, right associativity).
Notation "p <|> q" := (orElse p q) (at level 59, right associativity).

(** *** Numbers: pcs_new.py:95-116.  Combine: no blanks inside. *)
Definition is_digit (c : ascii) : bool := between "0" "9" c.
Definition scan := string -> option (string * string).
(** Optional(pp_plusorminus) *)
Definition scan_sign (s : string) : string * string :=
  match s with
  | String c s' => if (Ascii.eqb c "+" || Ascii.eqb c "-")%bool then (String c EmptyString, s') else (EmptyString, s)
  | EmptyString => (EmptyString, s)
  end.
Definition scan_int : scan := fun s =>
  let (g, r) := scan_sign s in
  match span is_digit r with (EmptyString, _) => None | (d, r') => Some ((g ++ d)%string, r') end.
Definition scan_float : scan := fun s =>
  let (g, r) := scan_sign s in
  let (i, r1) := match scan_int r with Some x => x | None => (EmptyString, r) end in
  match strip_prefix "." r1 with
  | Some r2 => match scan_int r2 with Some (f, r3) => Some ((g ++ i ++ "." ++ f)%string, r3) | None => None end
  | None => None
  end.
Definition scan_e : scan := fun s =>
  match match scan_float s with Some x => Some x | None => scan_int s end with
  | Some (m, String c r) =>
      if (Ascii.eqb c "e" || Ascii.eqb c "E")%bool
      then match scan_int r with Some (e, r') => Some ((m ++ String c e)%string, r') | None => None end
      else None
  | _ => None
  end.
(** pp_number *)
Definition scan_number : scan := fun s =>
  match scan_e s with
  | Some x => Some x
  | None => match scan_float s with Some x => Some x | None => scan_int s end
  end.
Definition number : parser := fun s =>
  match scan_number (skip_white s) with Some (t, r) => Some ([t], r) | None => None end.

(** *** pcs_new.py:74-177, pcs.py:56-113 *)

(** pp_param_name *)
Definition name_char (c : ascii) : bool :=
  (between "a" "z" c || between "A" "Z" c || is_digit c ||
   existsb (Ascii.eqb c) ["_"; "-"; "@"; "."; ":"; ";"; "\"; "/"; "?"; "!"; "$"; "%"; "&"; "*"; "+"; "<"; ">"]%char)%bool.
Definition p_name : parser := word name_char.
(** pp_param_operation *)
Definition op_char (c : ascii) : bool := existsb (Ascii.eqb c) ["i"; "n"; "!"; "="; ">"; "<"]%char.
Definition p_op : parser := word op_char.
(** pp_param_val, pp_choices, pp_sequence *)
Definition p_values : parser := p_name >> many (literal "," >> p_name).
(** pp_param_type *)
Definition p_type : parser := literal "integer" <|> literal "real" <|> literal "categorical" <|> literal "ordinal".
(** pp_numberorname *)
Definition p_value : parser := number <|> p_name.

(** pp_ord_param and pp_cat_param are the same *)
Definition p_cat : parser :=
  p_name >> p_type >> literal "{" >> p_values >> literal "}" >> literal "[" >> p_name >> literal "]".
Definition p_cont : parser :=
  p_name >> p_type >> literal "[" >> number >> literal "," >> number >> literal "]" >>
  literal "[" >> number >> literal "]" >> optional (literal "log").
Definition p_test : parser := p_name >> p_op >> optional (literal "{") >> p_values >> optional (literal "}").
Definition p_cond : parser :=
  p_name >> literal "|" >> p_test >> many ((literal "&&" <|> literal "||") >> p_test).
Definition p_forb : parser :=
  literal "{" >> p_name >> literal "=" >> p_value >> many (literal "," >> p_name >> literal "=" >> p_value) >> literal "}".

(** p.parseString(s) *)
Definition parse (p : parser) (s : string) : option (list string) := option_map fst (p s).

(** *** Slices of lists of tokens *)
Fixpoint every_other {A} (l : list A) : list A :=
  match l with [] => [] | [x] => [x] | x :: _ :: l' => x :: every_other l' end.
(** l[a:-b] *)
Definition slice {A} (a b : nat) (l : list A) : list A := firstn (length l - b - a) (skipn a l).
(** l[a:-b:2] *)
Definition slice2 {A} (a b : nat) (l : list A) : list A := every_other (slice a b l).
Definition tok (l : list string) (i : nat) : res string :=
  match nth_error l i with Some t => Ok t | None => Err IndexError end.
(** l[-2] *)
Definition tok_last2 (l : list string) : res string := tok (rev l) 1.

(** itertools.product *)
Fixpoint product {A} (ls : list (list A)) : list (list A) :=
  match ls with [] => [[]] | l :: ls' => concat (map (fun x => map (cons x) (product ls')) l) end.

Section Pcs.
  Context {E : Env}.
  (** str(), int() and float() of numbers *)
  Variable T : text.

  (** str(v): a string is its own text *)
  Definition py_str (v : value) : string := match v with VStr s => s | _ => tx_str T v end.

  (** ** pcs_new.write *)

  (** pcs_new.py:180-191 *)
  Definition new_categorical (n : string) (choices : list value) (w : option (list Q)) (d : value) : res string :=
    match w with
    | Some _ => Err ValueError
    | None => Ok (n ++ " categorical {" ++ String.concat ", " (map py_str choices) ++ "} [" ++ py_str d ++ "]")%string
    end.
  (** pcs_new.py:194-200 *)
  Definition new_ordinal (n : string) (sq : list value) (d : value) : string :=
    (n ++ " ordinal {" ++ String.concat ", " (map py_str sq) ++ "} [" ++ py_str d ++ "]")%string.
  (** pcs_new.py:203-205 *)
  Definition new_constant (n : string) (v : value) : string :=
    (n ++ " categorical {" ++ py_str v ++ "} [" ++ py_str v ++ "]")%string.
  (** pcs_new.py:208-237; a uniform hyperparameter that is not an integer is a float *)
  Definition new_continuous (h : hp) : res string :=
    u <- to_uniform h ;;
    match hp_kind u with
    | KInt lo hi log _ =>
        d <- to_int T (hp_default u) ;;
        Ok (hp_name u ++ " integer [" ++ py_str (VInt lo) ++ ", " ++ py_str (VInt hi) ++ "] [" ++ py_str d ++ "]"
            ++ (if log then "log" else ""))%string
    | KFloat lo hi log _ =>
        Ok (hp_name u ++ " real [" ++ py_str (VFloat lo) ++ ", " ++ py_str (VFloat hi) ++ "] [" ++ py_str (hp_default u) ++ "]"
            ++ (if log then "log" else ""))%string
    | _ => Err TypeError
    end.

  (** pcs_new.py:760-784: the check of the name parses a prefix of it *)
  Definition new_param (h : hp) : res string :=
    check match parse p_name (hp_name h) with Some _ => true | None => false end or ValueError ;;
    match hp_kind h with
    | KInt _ _ _ _ | KFloat _ _ _ _ => new_continuous h
    | KCat c w => new_categorical (hp_name h) c w (hp_default h)
    | KOrd sq => Ok (new_ordinal (hp_name h) sq (hp_default h))
    | KConst v => Ok (new_constant (hp_name h) v)
    end.

  (** pcs_new.py:240-296 *)
  Definition new_condition (l : lit) : string :=
    match l_test l with
    | TBin o v _ => (hp_name (l_child l) ++ " | " ++ parent_name l ++ " " ++ op_str o ++ " " ++ py_str v)%string
    | TIn vs _ => (hp_name (l_child l) ++ " | " ++ parent_name l ++ " in {" ++ String.concat ", " (map py_str vs) ++ "}")%string
    end.
  (** pcs_new.py:306-319, one component: tmp.split("|")[1].strip() *)
  Definition new_component (c : cond) : res string :=
    match c with
    | CLit l => t <- tok (split_on "|" (new_condition l)) 1 ;; Ok (strip t)
    | _ => Err NotImplementedError
    end.
  (** pcs_new.py:299-326; a conjunction has a child *)
  Definition new_conjunction (c : cond) (sep : string) (cs : list cond) : res string :=
    match cond_child c with
    | None => Err IndexError
    | Some ch => ts <- mapM new_component cs ;; Ok (hp_name ch ++ " | " ++ String.concat sep ts)%string
    end.
  (** pcs_new.py:786-794 *)
  Definition new_cond_line (c : cond) : res string :=
    match c with
    | CLit l => Ok (new_condition l)
    | CAnd cs => new_conjunction c " && " cs
    | COr cs => new_conjunction c " || " cs
    end.

  (** pcs_new.py:346-367, one literal clause; no membership gets here *)
  Definition new_literal (f : fclause) : res string :=
    match f with
    | FEq h v _ => Ok (hp_name h ++ "=" ++ py_str v)%string
    | FIn _ _ _ => Err Unmodelled
    | _ => Err NotImplementedError
    end.
  (** pcs_new.py:329-371, given the literal clauses *)
  Definition new_forbidden (fs : list fclause) : res string :=
    ts <- mapM new_literal fs ;; Ok ("{" ++ String.concat ", " ts ++ "}")%string.
  Definition is_in (f : fclause) : bool := match f with FIn _ _ _ => true | _ => false end.
  Definition equals_of (f : fclause) : res (list fclause) :=
    match f with FIn h vs _ => mapM (mk_feq h) vs | _ => Ok [] end.
  (** pcs_new.py:796-830, the lines of one clause *)
  Definition new_forb_lines (f : fclause) : res (list string) :=
    let ls := fdlcs f in
    ins <- mapM equals_of (filter is_in ls) ;;
    let others := filter (fun g => negb (is_in g)) ls in
    match ins with
    | [] => check match f with FRel _ _ _ => false | _ => true end or TypeError ;;
            t <- new_forbidden ls ;; Ok [t]
    | _ => mapM (fun p => new_forbidden (p ++ others)) (product ins)
    end.

  Definition nl : string := newline.

  (** pcs_new.py:726-845 *)
  Definition new_write (x : cspace) : res string :=
    ps <- mapM new_param (hps (c_space x)) ;;
    cs <- mapM new_cond_line (conditions (c_space x)) ;;
    fs <- mapM new_forb_lines (forbidden_clauses (c_space x)) ;;
    Ok (String.concat nl ps
        ++ match cs with [] => "" | _ => nl ++ nl ++ String.concat nl cs end
        ++ match concat fs with
           | [] => ""
           | ls => nl ++ nl ++ String.concat "" (map (fun l => l ++ nl) (py_sorted String.ltb ls))
           end)%string.

  (** ** pcs_new.read *)

  (** pcs_new.py:467-478: the line without comment, quotes and blanks at its ends *)
  Definition clean (line : string) : string :=
    strip (filter_chars (fun c => negb (Ascii.eqb c """" || Ascii.eqb c "'"))%char
             (fst (span (fun c => negb (Ascii.eqb c "#")) line))).

  Definition as_int (t : string) : res Z := match tx_int T t with Some z => Ok z | None => Err ValueError end.
  Definition as_float (t : string) : res Q := match tx_float T t with Some q => Ok q | None => Err ValueError end.

  (** pcs_new.py:506-541: None when the line is no numerical hyperparameter *)
  Definition new_read_cont (line : string) : res (option hp) :=
    match parse p_cont line with
    | None => Ok None
    | Some ts =>
        n <- tok ts 0 ;; ty <- tok ts 1 ;;
        let log := existsb (String.eqb "log") (firstn 1 (skipn 10 ts)) in
        if String.eqb ty "integer" then
          a <- tok ts 3 ;; lo <- as_int a ;; b <- tok ts 5 ;; hi <- as_int b ;; c <- tok ts 8 ;; d <- as_int c ;;
          h <- mk_uniform_int n (inject_Z lo) (inject_Z hi) (Some (inject_Z d)) log None ;; Ok (Some h)
        else if String.eqb ty "real" then
          a <- tok ts 3 ;; lo <- as_float a ;; b <- tok ts 5 ;; hi <- as_float b ;; c <- tok ts 8 ;; d <- as_float c ;;
          h <- mk_uniform_float n lo hi (Some d) log None ;; Ok (Some h)
        else Ok None
    end.
  (** pcs_new.py:543-571; [p] is what was read before *)
  Definition new_read_cat (line : string) (p : option hp) : res (option hp) :=
    let go (mk : string -> list value -> option value -> res hp) :=
      match parse p_cat line with
      | None => Ok p
      | Some ts =>
          n <- tok ts 0 ;; d <- tok_last2 ts ;;
          h <- mk n (map VStr (slice2 3 4 ts)) (Some (VStr d)) ;; Ok (Some h)
      end in
    if is_infix "categorical" line then go (fun n c d => mk_categorical n c d None None)
    else if is_infix "ordinal" line then go (fun n c d => mk_ordinal n c d None)
    else Ok p.

  (** the state of the loop over the lines: the space, the tokens of the conditions, the clauses *)
  Record rstate := mk_rstate { r_space : cspace; r_conds : list (list string); r_forbs : list string }.

  (** add, raising what it raises *)
  Definition add_or_raise (x : cspace) (hs : list hp) (cs : list cond) (fs : list fclause) : res cspace :=
    let (x', r) := c_add x hs cs fs in _ <- r ;; Ok x'.

  (** pcs_new.py:464-576, one line *)
  Definition new_read_line (st : rstate) (raw : string) : res rstate :=
    let line := clean raw in
    if has_char "|" line then
      match parse p_cond line with
      | Some ts => Ok (mk_rstate (r_space st) (r_conds st ++ [ts]) (r_forbs st))
      | None => Err NotImplementedError
      end
    else if (negb (has_char "}" line) && negb (has_char "]" line))%bool then Ok st
    else if (starts_with "{" line && match last_char line with Some c => Ascii.eqb c "}" | None => false end)%bool then
      Ok (mk_rstate (r_space st) (r_conds st) (r_forbs st ++ [line]))
    else
      p <- new_read_cont line ;; q <- new_read_cat line p ;;
      match q with
      | None => Err NotImplementedError
      | Some h => x' <- add_or_raise (r_space st) [h] [] [] ;; Ok (mk_rstate x' (r_conds st) (r_forbs st))
      end.
  Fixpoint new_read_lines (lines : list string) (st : rstate) : res rstate :=
    match lines with [] => Ok st | l :: lines' => st' <- new_read_line st l ;; new_read_lines lines' st' end.

  (** configuration_space[name] *)
  Definition hp_named (x : cspace) (n : string) : res hp :=
    match get_hp (c_space x) n with Some h => Ok h | None => Err KeyError end.

  (** pcs_new.py:584-630: the clause for the tokens name, "=", value *)
  Definition new_read_equals (x : cspace) (n v : string) : res fclause :=
    h <- hp_named x n ;;
    match hp_kind h with
    | KInt lo hi _ _ =>
        z <- as_int v ;;
        check (Z.leb lo z && Z.leb z hi)%bool or ValueError ;; mk_feq h (VInt z)
    | KFloat lo hi _ _ =>
        q <- as_float v ;;
        check (Qle_bool lo q && Qle_bool q hi)%bool or ValueError ;; mk_feq h (VFloat q)
    | KCat c _ => check py_in (VStr v) c or ValueError ;; mk_feq h (VStr v)
    | KOrd c => check py_in (VStr v) c or ValueError ;; mk_feq h (VStr v)
    | KConst _ => Err ValueError
    end.
  (** pcs_new.py:579-637, the tokens after "{": groups of four *)
  Fixpoint new_read_clauses (x : cspace) (ts : list string) : res (list fclause) :=
    match ts with
    | n :: _ :: v :: _ :: ts' => f <- new_read_equals x n v ;; fs <- new_read_clauses x ts' ;; Ok (f :: fs)
    | _ => Ok []
    end.
  (** pcs_new.py:578-638 *)
  Definition new_read_forb (x : cspace) (line : string) : res fclause :=
    match parse p_forb line with
    | None => Err ParseException
    | Some ts => fs <- new_read_clauses x (skipn 1 ts) ;; mk_fand fs
    end.

  (** the type of a value of a condition, pcs_new.py:383-390, 397-402 *)
  Definition cast_for (p : hp) (t : string) : res value :=
    match hp_kind p with
    | KFloat _ _ _ _ => q <- as_float t ;; Ok (VFloat q)
    | KInt _ _ _ _ => z <- as_int t ;; Ok (VInt z)
    | _ => Ok (VStr t)
    end.
  (** pcs_new.py:374-424 condition_specification *)
  Definition new_specification (x : cspace) (child : string) (ts : list string) : res cond :=
    ch <- hp_named x child ;;
    pn <- tok ts 0 ;; p <- hp_named x pn ;; o <- tok ts 1 ;;
    if String.eqb o "in" then
      vs <- mapM (cast_for p) (slice2 3 1 ts) ;;
      match vs with [v] => mk_bin OpEq ch p v | _ => mk_in ch p vs end
    else
      t <- tok ts 2 ;; v <- cast_for p t ;;
      if String.eqb o "==" then mk_bin OpEq ch p v
      else if String.eqb o "!=" then mk_bin OpNe ch p v
      else
        check match hp_kind p with KCat _ _ | KConst _ => false | _ => true end or ValueError ;;
        if String.eqb o "<" then mk_bin OpLt ch p v
        else if String.eqb o ">" then mk_bin OpGt ch p v
        else Err NotImplementedError.

  (** pcs_new.py:661-685: one part of a line with both connectives; the words of a part are repeated
      as often as there are parts *)
  Definition new_read_mixed (x : cspace) (child : string) (part : string) : res cond :=
    let ands := split_on "&&" part in
    match ands with
    | [t] => new_specification x child (words t)
    | _ => cs <- mapM (fun t => new_specification x child (concat (repeat (words t) (length ands)))) ands ;; mk_and cs
    end.
  (** pcs_new.py:650-718, one condition *)
  Definition new_read_cond (x : cspace) (ts : list string) : res cond :=
    child <- tok ts 0 ;;
    let c := String.concat " " (skipn 2 ts) in
    if is_infix "||" c then
      if is_infix "&&" c then
        cs <- mapM (new_read_mixed x child) (split_on "||" c) ;; mk_or cs
      else
        cs <- mapM (fun t => new_specification x child (words t)) (split_on "||" c) ;; mk_or cs
    else if is_infix "&&" c then
      cs <- mapM (fun t => new_specification x child (words t)) (split_on "&&" c) ;; mk_and cs
    else new_specification x child (words c).

  (** pcs_new.py:642-648: grouped by child, children in the order of their first condition *)
  Definition by_child (cs : list (list string)) : list (list string) :=
    concat (map (fun n => filter (fun ts => String.eqb (hd "" ts) n) cs) (nub (map (hd "") cs))).

  (** pcs_new.py:431-723 *)
  Definition new_read (lines : list string) : res cspace :=
    st <- new_read_lines lines (mk_rstate (new_space None None) [] []) ;;
    fs <- mapM (new_read_forb (r_space st)) (r_forbs st) ;;
    x <- add_or_raise (r_space st) [] [] fs ;;
    cs <- mapM (new_read_cond x) (by_child (r_conds st)) ;;
    add_or_raise x [] cs [].

  (** the lines of a text: text.split("\n") *)
  Definition lines_of (t : string) : list string := split_on nl t.
  (** iterating over a string yields its characters *)
  Fixpoint chars_of (t : string) : list string :=
    match t with EmptyString => [] | String c t' => String c EmptyString :: chars_of t' end.
End Pcs.
