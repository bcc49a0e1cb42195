(** * The older PCS format: src/ConfigSpace/read_and_write/pcs.py

    Strings, pyparsing, names, numbers and clauses are those of Pcs.v: pcs.py repeats their
    definitions (pcs.py:57-118). *)
From Coq Require Import String Ascii List ZArith QArith Bool.
From Verif Require Import Base Numeric HP Cond Forb Dag Space Serial Fix Pcs.
Import ListNotations.
Open Scope string_scope.
Open Scope list_scope.

(** *** pcs.py:90-108 *)
(** pp_il *)
Definition p_il : parser := word (fun c => (Ascii.eqb c "i" || Ascii.eqb c "l")%bool).
Definition po_cont : parser :=
  p_name >> literal "[" >> number >> literal "," >> number >> literal "]" >>
  literal "[" >> number >> literal "]" >> optional p_il.
Definition po_cat : parser :=
  p_name >> literal "{" >> p_values >> literal "}" >> literal "[" >> p_name >> literal "]".
Definition po_cond : parser :=
  p_name >> literal "|" >> p_name >> literal "in" >> literal "{" >> p_values >> literal "}".

Section PcsOld.
  Context {E : Env}.
  Variable T : text.

  (** ** pcs.write *)

  (** pcs.py:121-132 *)
  Definition old_categorical (n : string) (choices : list value) (w : option (list Q)) (d : value) : res string :=
    match w with
    | Some _ => Err ValueError
    | None => Ok (n ++ " {" ++ String.concat ", " (map (py_str T) choices) ++ "} [" ++ py_str T d ++ "]")%string
    end.
  (** pcs.py:135-137 *)
  Definition old_constant (n : string) (v : value) : string :=
    (n ++ " {" ++ py_str T v ++ "} [" ++ py_str T v ++ "]")%string.
  (** pcs.py:140-168 *)
  Definition old_continuous (h : hp) : res string :=
    u <- to_uniform h ;;
    match hp_kind u with
    | KInt lo hi log _ =>
        d <- to_int T (hp_default u) ;;
        Ok (hp_name u ++ " [" ++ py_str T (VInt lo) ++ ", " ++ py_str T (VInt hi) ++ "] [" ++ py_str T d ++ "]i"
            ++ (if log then "l" else ""))%string
    | KFloat lo hi log _ =>
        Ok (hp_name u ++ " [" ++ py_str T (VFloat lo) ++ ", " ++ py_str T (VFloat hi) ++ "] [" ++ py_str T (hp_default u) ++ "]"
            ++ (if log then "l" else ""))%string
    | _ => Err TypeError
    end.
  (** pcs.py:464-483: ordinal hyperparameters have no case *)
  Definition old_param (h : hp) : res string :=
    check match parse p_name (hp_name h) with Some _ => true | None => false end or ValueError ;;
    match hp_kind h with
    | KInt _ _ _ _ | KFloat _ _ _ _ => old_continuous h
    | KCat c w => old_categorical (hp_name h) c w (hp_default h)
    | KOrd _ => Err TypeError
    | KConst v => Ok (old_constant (hp_name h) v)
    end.

  (** ", ".join(values): all of them strings *)
  Definition as_str (v : value) : res string := match v with VStr s => Ok s | _ => Err TypeError end.
  (** pcs.py:171-203, the lines of a condition *)
  Fixpoint old_condition (c : cond) : res (list string) :=
    match c with
    | COr _ => Err NotImplementedError
    | CAnd cs => ls <- (fix go (cs : list cond) : res (list (list string)) :=
                          match cs with [] => Ok [] | c :: cs' => l <- old_condition c ;; ls <- go cs' ;; Ok (l :: ls) end) cs ;;
                 Ok (concat ls)
    | CLit l =>
        match l_test l with
        | TIn vs _ => ts <- mapM as_str vs ;;
                      Ok [(hp_name (l_child l) ++ " | " ++ parent_name l ++ " in {" ++ String.concat ", " ts ++ "}")%string]
        | TBin OpEq v _ => Ok [(hp_name (l_child l) ++ " | " ++ parent_name l ++ " in {" ++ py_str T v ++ "}")%string]
        | TBin _ _ _ => Err NotImplementedError
        end
    end.

  (** pcs.py:224-232, one literal clause: the clause must have a value *)
  Definition old_literal (f : fclause) : res string :=
    match f with
    | FEq h v _ => Ok (hp_name h ++ "=" ++ py_str T v)%string
    | _ => Err AssertionError
    end.
  Definition old_forbidden (fs : list fclause) : res string :=
    ts <- mapM old_literal fs ;; Ok ("{" ++ String.concat ", " ts ++ "}")%string.
  (** pcs.py:206-234 and 490-520, the lines of one clause *)
  Definition old_forb_lines (f : fclause) : res (list string) :=
    let ls := fdlcs f in
    ins <- mapM equals_of (filter is_in ls) ;;
    let others := filter (fun g => negb (is_in g)) ls in
    match ins with
    | [] => check match f with FEq _ _ _ | FAnd _ => true | _ => false end or NotImplementedError ;;
            t <- old_forbidden ls ;; Ok [t]
    | _ => mapM (fun p => old_forbidden (p ++ others)) (product ins)
    end.

  (** pcs.py:433-537 *)
  Definition old_write (x : cspace) : res string :=
    ps <- mapM old_param (hps (c_space x)) ;;
    cs <- mapM old_condition (conditions (c_space x)) ;;
    fs <- mapM old_forb_lines (forbidden_clauses (c_space x)) ;;
    Ok (String.concat nl ps
        ++ match concat cs with [] => "" | _ => nl ++ nl ++ String.concat nl (concat cs) end
        ++ match concat fs with
           | [] => ""
           | ls => nl ++ nl ++ String.concat "" (map (fun l => l ++ nl) (py_sorted String.ltb ls))
           end)%string.

  (** ** pcs.read *)

  (** pcs.py:319-340 *)
  Definition old_read_cont (line : string) : res (option hp) :=
    match parse po_cont line with
    | None => Ok None
    | Some ts =>
        n <- tok ts 0 ;;
        let il := match skipn 9 ts with [] => "" | t :: _ => t end in
        a <- tok ts 2 ;; lo <- as_float T a ;; b <- tok ts 4 ;; hi <- as_float T b ;;
        c <- tok ts 7 ;; d <- as_float T c ;;
        h <- (if has_char "i" il then mk_uniform_int n lo hi (Some d) (has_char "l" il) None
              else mk_uniform_float n lo hi (Some d) (has_char "l" il) None) ;;
        Ok (Some h)
    end.
  (** pcs.py:342-354 *)
  Definition old_read_cat (line : string) (p : option hp) : res (option hp) :=
    match parse po_cat line with
    | None => Ok p
    | Some ts =>
        n <- tok ts 0 ;; d <- tok_last2 ts ;;
        h <- mk_categorical n (map VStr (slice2 2 4 ts)) (Some (VStr d)) None None ;; Ok (Some h)
    end.

  (** the state of the loop over the lines: hyperparameters, tokens of conditions, clauses *)
  Record ostate := mk_ostate { o_hps : list hp; o_conds : list (list string); o_forbs : list string }.
  (** pcs.py:281-359, one line *)
  Definition old_read_line (st : ostate) (raw : string) : res ostate :=
    let line := clean raw in
    if has_char "|" line then
      match parse po_cond line with
      | Some ts => Ok (mk_ostate (o_hps st) (o_conds st ++ [ts]) (o_forbs st))
      | None => Err NotImplementedError
      end
    else if (negb (has_char "}" line) && negb (has_char "]" line))%bool then Ok st
    else if (starts_with "{" line && match last_char line with Some c => Ascii.eqb c "}" | None => false end)%bool then
      Ok (mk_ostate (o_hps st) (o_conds st) (o_forbs st ++ [line]))
    else
      p <- old_read_cont line ;; q <- old_read_cat line p ;;
      match q with
      | None => Err NotImplementedError
      | Some h => Ok (mk_ostate (o_hps st ++ [h]) (o_conds st) (o_forbs st))
      end.
  Fixpoint old_read_lines (lines : list string) (st : ostate) : res ostate :=
    match lines with [] => Ok st | l :: lines' => st' <- old_read_line st l ;; old_read_lines lines' st' end.

  (** pcs.py:363-388: the value stays a string *)
  Fixpoint old_read_clauses (x : cspace) (ts : list string) : res (list fclause) :=
    match ts with
    | n :: _ :: v :: _ :: ts' =>
        h <- hp_named x n ;; f <- mk_feq h (VStr v) ;; fs <- old_read_clauses x ts' ;; Ok (f :: fs)
    | _ => Ok []
    end.
  Definition old_read_forb (x : cspace) (line : string) : res fclause :=
    match parse p_forb line with
    | None => Err ParseException
    | Some ts => fs <- old_read_clauses x (skipn 1 ts) ;; mk_fand fs
    end.

  (** pcs.py:402-414, one condition of the child; its values stay strings *)
  Definition old_read_cond (x : cspace) (child : string) (ts : list string) : res cond :=
    ch <- hp_named x child ;; pn <- tok ts 2 ;; p <- hp_named x pn ;;
    match slice2 5 1 ts with
    | [v] => mk_bin OpEq ch p (VStr v)
    | vs => mk_in ch p (map VStr vs)
    end.
  (** pcs.py:390-423, the condition of a child *)
  Definition old_read_child (x : cspace) (cs : list (list string)) (child : string) : res cond :=
    cs' <- mapM (old_read_cond x child) (filter (fun ts => String.eqb (hd "" ts) child) cs) ;;
    match cs' with [c] => Ok c | _ => mk_and cs' end.

  (** pcs.py:241-426, given the lines *)
  Definition old_read (lines : list string) : res cspace :=
    st <- old_read_lines lines (mk_ostate [] [] []) ;;
    x <- add_or_raise (new_space None None) (o_hps st) [] [] ;;
    fs <- mapM (old_read_forb x) (o_forbs st) ;;
    cs <- mapM (old_read_child x (o_conds st)) (nub (map (hd "") (o_conds st))) ;;
    add_or_raise x [] cs fs.
  (** pcs.py:264-265: a string is split into its lines *)
  Definition old_read_string (t : string) : res cspace := old_read (lines_of t).
End PcsOld.
