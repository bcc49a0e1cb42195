(** * Decimal texts of numbers: an instance of [text] for the examples on the PCS formats

    Integers print as Python prints them.  A rational with a finite decimal expansion of at most 30
    places prints as Python prints a float of moderate size; the others print without a dot and are
    not read back. *)
From Coq Require Import String Ascii List ZArith QArith Qreduction Bool Decimal DecimalString.
From Verif Require Import Base Numeric HP Fix Pcs.
Import ListNotations.
Open Scope string_scope.

Definition int_str (z : Z) : string := NilZero.string_of_int (Z.to_int z).
Definition int_read (t : string) : option Z :=
  option_map Z.of_int (NilZero.int_of_string (match t with String c t' => if Ascii.eqb c "+" then t' else t | _ => t end)).

Fixpoint zeros (n : nat) : string := match n with O => "" | S k => String "0" (zeros k) end.
Fixpoint take_chars (n : nat) (s : string) : string :=
  match n, s with S k, String c s' => String c (take_chars k s') | _, _ => "" end.
Fixpoint drop_chars (n : nat) (s : string) : string :=
  match n, s with S k, String _ s' => drop_chars k s' | _, _ => s end.
(** the least number of places from [k] on, for numerator [n] and denominator [d] *)
Fixpoint places (fuel k : nat) (n d : Z) : nat :=
  match fuel with
  | O => k
  | S f => if Z.eqb (Z.modulo (n * 10 ^ Z.of_nat k) d) 0 then k else places f (S k) n d
  end.
Definition dec_str (q : Q) : string :=
  let r := Qred q in
  let n := Qnum r in let d := Zpos (Qden r) in
  let k := places 30 1 n d in
  if Z.eqb (Z.modulo (n * 10 ^ Z.of_nat k) d) 0 then
    let s := int_str (Z.abs (n * 10 ^ Z.of_nat k / d)) in
    let s := (zeros (k + 1 - String.length s) ++ s)%string in
    let i := String.length s - k in
    ((if Z.ltb n 0 then "-" else "") ++ take_chars i s ++ "." ++ drop_chars i s)%string
  else (int_str n ++ "over" ++ int_str d)%string.
Definition dec_read (t : string) : option Q :=
  match split_on "." t with
  | [a] => option_map inject_Z (int_read a)
  | [a; b] => option_map (fun z => Qred (Qmake z 1 / inject_Z (10 ^ Z.of_nat (String.length b)))) (int_read (a ++ b))
  | _ => None
  end.

Definition dec_text : text := {|
  tx_str := fun v => match v with
                     | VStr s => s
                     | VInt z => int_str z
                     | VFloat q => dec_str q
                     | VBool b => if b then "True" else "False"
                     | VNone => "None"
                     end;
  tx_int := int_read;
  tx_float := dec_read
|}.
