(** * to_json and from_json: a space as a JSON text

    json.dump and json.load of the standard library, as far as to_json and from_json use them with no
    keyword but indent, are modelled by hand from Lib/json/encoder.py, decoder.py and scanner.py of
    CPython.  A character is a code point below 256.  NaN and the infinities, numbers float() reads as
    one of them, escapes of code points from 256 on give [Unmodelled]; the limits of Python on the depth
    of a text and on the digits of an integer are left out.  JSONDecodeError is a ValueError. *)
From Coq Require Import String Ascii List ZArith QArith Bool Lia.
From Coq Require DecimalString.
From Verif Require Import Base Numeric HP Fix Space Serial.
Import ListNotations.
Open Scope string_scope.
Open Scope nat_scope.

(** ** Writing *)
Definition code (c : ascii) : nat := nat_of_ascii c.
Definition dq : ascii := ascii_of_nat 34.
Definition bs : ascii := ascii_of_nat 92.

Definition hex_digit (n : nat) : ascii := ascii_of_nat (if n <? 10 then 48 + n else 87 + n).
(** encoder.py ESCAPE_DCT, py_encode_basestring_ascii *)
Definition esc_char (c : ascii) : string :=
  let n := code c in
  if n =? 34 then String bs (String dq "")
  else if n =? 92 then String bs (String bs "")
  else if n =? 8 then String bs "b"
  else if n =? 12 then String bs "f"
  else if n =? 10 then String bs "n"
  else if n =? 13 then String bs "r"
  else if n =? 9 then String bs "t"
  else if ((32 <=? n) && (n <=? 126))%bool then String c ""
  else String bs (String "u" (String "0" (String "0" (String (hex_digit (n / 16)) (String (hex_digit (n mod 16)) ""))))).
Fixpoint esc (s : string) : string :=
  match s with EmptyString => "" | String c s' => (esc_char c ++ esc s')%string end.
Definition quote (s : string) : string := String dq (esc s ++ String dq "")%string.

Fixpoint spaces (n : nat) : string := match n with O => "" | S k => String " " (spaces k) end.
Definition nl (n : nat) : string := String (ascii_of_nat 10) (spaces n).

Section Json.
  Context {E : Env}.
  Variable T : text.

  Definition put_value (v : value) : string :=
    match v with
    | VStr s => quote s
    | VInt z => z_str z
    | VFloat q => tx_str T (VFloat q)
    | VBool b => if b then "true" else "false"
    | VNone => "null"
    end.

  (** encoder.py _make_iterencode, keys being strings; [i] the indent, [l] the current level *)
  Definition open_sep (i : option nat) (l : nat) : string := match i with Some k => nl (k * S l) | None => "" end.
  Definition item_sep (i : option nat) (l : nat) : string :=
    match i with Some k => String "," (nl (k * S l)) | None => ", " end.
  Definition close_sep (i : option nat) (l : nat) : string := match i with Some k => nl (k * l) | None => "" end.
  Fixpoint joined (sep : string) (l : list string) : string :=
    match l with [] => "" | [x] => x | x :: l' => (x ++ sep ++ joined sep l')%string end.

  Fixpoint dump (i : option nat) (l : nat) (d : data) : string :=
    match d with
    | DVal v => put_value v
    | DList [] => "[]"
    | DList ds => ("[" ++ open_sep i l ++ joined (item_sep i l) (map (dump i (S l)) ds) ++ close_sep i l ++ "]")%string
    | DDict [] => "{}"
    | DDict ps => ("{" ++ open_sep i l ++
        joined (item_sep i l) (map (fun p => quote (fst p) ++ ": " ++ dump i (S l) (snd p))%string ps) ++ close_sep i l ++ "}")%string
    end.

  (** ** Reading *)
  (** decoder.py WHITESPACE *)
  Definition is_ws (c : ascii) : bool := let n := code c in (n =? 32) || (n =? 9) || (n =? 10) || (n =? 13).
  Fixpoint skip_ws (s : string) : string :=
    match s with String c s' => if is_ws c then skip_ws s' else s | EmptyString => s end.

  Definition hex_val (c : ascii) : option nat :=
    let n := code c in
    if ((48 <=? n) && (n <=? 57))%bool then Some (n - 48)
    else if ((97 <=? n) && (n <=? 102))%bool then Some (n - 87)
    else if ((65 <=? n) && (n <=? 70))%bool then Some (n - 55)
    else None.
  (** decoder.py BACKSLASH *)
  Definition back_char (c : ascii) : option ascii :=
    let n := code c in
    if n =? 34 then Some dq
    else if n =? 92 then Some bs
    else if n =? 47 then Some c
    else if n =? 98 then Some (ascii_of_nat 8)
    else if n =? 102 then Some (ascii_of_nat 12)
    else if n =? 110 then Some (ascii_of_nat 10)
    else if n =? 114 then Some (ascii_of_nat 13)
    else if n =? 116 then Some (ascii_of_nat 9)
    else None.
  (** decoder.py py_scanstring, strict, after the opening quote *)
  Fixpoint scan_str (s : string) : res (string * string) :=
    match s with
    | EmptyString => Err ValueError
    | String c s' =>
        if code c =? 34 then Ok ("", s')
        else if code c =? 92 then
          match s' with
          | EmptyString => Err ValueError
          | String e s2 =>
              if code e =? 117 then
                match s2 with
                | String a (String b (String x (String y s3))) =>
                    match hex_val a, hex_val b, hex_val x, hex_val y with
                    | Some a, Some b, Some x, Some y =>
                        if ((a =? 0) && (b =? 0))%bool then
                          p <- scan_str s3 ;; Ok (String (ascii_of_nat (16 * x + y)) (fst p), snd p)
                        else Err Unmodelled
                    | _, _, _, _ => Err ValueError
                    end
                | _ => Err ValueError
                end
              else
                match back_char e with
                | Some x => p <- scan_str s2 ;; Ok (String x (fst p), snd p)
                | None => Err ValueError
                end
          end
        else if code c <? 32 then Err ValueError
        else p <- scan_str s' ;; Ok (String c (fst p), snd p)
    end.

  (** scanner.py NUMBER_RE: (-?(?:0|[1-9]\d* ))(\.\d+)?([eE][-+]?\d+)? *)
  Definition is_digit (c : ascii) : bool := let n := code c in (48 <=? n) && (n <=? 57).
  Fixpoint digits (s : string) : string * string :=
    match s with
    | String c s' => if is_digit c then let (d, r) := digits s' in (String c d, r) else ("", s)
    | EmptyString => ("", s)
    end.
  Definition scan_nat (s : string) : option (string * string) :=
    match s with
    | String c s' => if code c =? 48 then Some (String c "", s')
                     else if is_digit c then Some (digits s) else None
    | EmptyString => None
    end.
  Definition scan_int (s : string) : option (string * string) :=
    match s with
    | String c s' => if code c =? 45 then match scan_nat s' with Some (d, r) => Some (String c d, r) | None => None end
                     else scan_nat s
    | EmptyString => None
    end.
  Definition scan_frac (s : string) : string * string :=
    match s with
    | String c s' => if code c =? 46 then match digits s' with ("", _) => ("", s) | (d, r) => (String c d, r) end else ("", s)
    | EmptyString => ("", s)
    end.
  Definition scan_exp (s : string) : string * string :=
    match s with
    | String c s' =>
        if ((code c =? 69) || (code c =? 101))%bool then
          match s' with
          | String g s2 =>
              if ((code g =? 43) || (code g =? 45))%bool
              then match digits s2 with ("", _) => ("", s) | (d, r) => (String c (String g d), r) end
              else match digits s' with ("", _) => ("", s) | (d, r) => (String c d, r) end
          | EmptyString => ("", s)
          end
        else ("", s)
    | EmptyString => ("", s)
    end.
  (** int() of such a text *)
  Definition int_of (t : string) : option Z := option_map Z.of_int (DecimalString.NilZero.int_of_string t).
  Definition scan_num (s : string) : option (res (data * string)) :=
    match scan_int s with
    | None => None
    | Some (i, r1) =>
        let (f, r2) := scan_frac r1 in
        let (e, r3) := scan_exp r2 in
        Some match f, e with
        | "", "" => match int_of i with Some z => Ok (DVal (VInt z), r3) | None => Err Unmodelled end
        | _, _ => match tx_float T (i ++ f ++ e)%string with Some q => Ok (DVal (VFloat q), r3) | None => Err Unmodelled end
        end
    end.

  Fixpoint strip (p s : string) : option string :=
    match p, s with
    | EmptyString, _ => Some s
    | String a p', String b s' => if Ascii.eqb a b then strip p' s' else None
    | _, _ => None
    end.

  (** scanner.py py_make_scanner without the brackets *)
  Definition scan_flat (s : string) : res (data * string) :=
    match strip "null" s with
    | Some r => Ok (DVal VNone, r)
    | None =>
    match strip "true" s with
    | Some r => Ok (DVal (VBool true), r)
    | None =>
    match strip "false" s with
    | Some r => Ok (DVal (VBool false), r)
    | None =>
    match scan_num s with
    | Some r => r
    | None =>
        match strip "NaN" s, strip "Infinity" s, strip "-Infinity" s with
        | None, None, None => Err ValueError
        | _, _, _ => Err Unmodelled
        end
    end end end end.

  (** dict(pairs) *)
  Definition dict_of (ps : list (string * data)) : dict_t := fold_left (fun m p => assoc_set (fst p) (snd p) m) ps [].

  (** decoder.py JSONArray, JSONObject, scanner.py _scan_once *)
  Fixpoint scan (n : nat) (s : string) {struct n} : res (data * string) :=
    match n with
    | O => Err OutOfFuel
    | S n =>
        match s with
        | EmptyString => Err ValueError
        | String c s' =>
            if code c =? 34 then p <- scan_str s' ;; Ok (DVal (VStr (fst p)), snd p)
            else if code c =? 91 then
              match skip_ws s' with
              | EmptyString => Err ValueError
              | String b r => if code b =? 93 then Ok (DList [], r)
                              else p <- items n (String b r) ;; Ok (DList (fst p), snd p)
              end
            else if code c =? 123 then
              match skip_ws s' with
              | EmptyString => Err ValueError
              | String b r => if code b =? 125 then Ok (DDict [], r)
                              else p <- pairs n (String b r) ;; Ok (DDict (dict_of (fst p)), snd p)
              end
            else scan_flat s
        end
    end
  with items (n : nat) (s : string) {struct n} : res (list data * string) :=
    match n with
    | O => Err OutOfFuel
    | S n =>
        p <- scan n s ;;
        match skip_ws (snd p) with
        | EmptyString => Err ValueError
        | String b r =>
            if code b =? 93 then Ok ([fst p], r)
            else if code b =? 44 then q <- items n (skip_ws r) ;; Ok (fst p :: fst q, snd q)
            else Err ValueError
        end
    end
  with pairs (n : nat) (s : string) {struct n} : res (list (string * data) * string) :=
    match n with
    | O => Err OutOfFuel
    | S n =>
        match s with
        | EmptyString => Err ValueError
        | String c s' =>
            if code c =? 34 then
              k <- scan_str s' ;;
              match skip_ws (snd k) with
              | EmptyString => Err ValueError
              | String g r =>
                  if code g =? 58 then
                    p <- scan n (skip_ws r) ;;
                    match skip_ws (snd p) with
                    | EmptyString => Err ValueError
                    | String b r =>
                        if code b =? 125 then Ok ([(fst k, fst p)], r)
                        else if code b =? 44 then q <- pairs n (skip_ws r) ;; Ok ((fst k, fst p) :: fst q, snd q)
                        else Err ValueError
                    end
                  else Err ValueError
              end
            else Err ValueError
        end
    end.

  (** decoder.py JSONDecoder.decode *)
  Definition load (t : string) : res data :=
    p <- scan (2 * String.length t + 2) (skip_ws t) ;;
    match skip_ws (snd p) with EmptyString => Ok (fst p) | _ => Err ValueError end.

  (** ** configuration_space.py:1081-1143 *)
  Definition to_json (indent : option nat) (x : cspace) : string := dump indent 0 (DDict (to_serialized x)).
  (** a text of something else than a dictionary fails inside from_serialized_dict *)
  Definition from_json (t : string) : res cspace :=
    d <- load t ;; match d with DDict d => snd (from_serialized d) | _ => Err Unmodelled end.
End Json.
