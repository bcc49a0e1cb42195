(** * to_dict of conditions and forbidden clauses *)
From Coq Require Import String List ZArith QArith.
From Verif Require Import Base Numeric HP Cond Forb Dag Serial.
Import ListNotations.
Open Scope string_scope.
Open Scope list_scope.

Section ToDict.
  Context {E : Env}.

  (** conditions.py:179-184 and 367-372; unlike the encoders of dictionary.py it leaves out the type *)
  Definition lit_to_dict (l : lit) : data :=
    DDict [("child", dstr (hp_name (l_child l))); ("parent", dstr (hp_name (l_parent l)));
           match l_test l with TBin _ v _ => ("value", DVal v) | TIn vs _ => ("values", DList (map DVal vs)) end].
  (** conditions.py:552-556 and 614-618 *)
  Fixpoint cond_to_dict (c : cond) : data :=
    match c with
    | CLit l => lit_to_dict l
    | CAnd cs => DDict [("child", dstr (conj_child c)); ("conditions", DList (map cond_to_dict cs))]
    | COr cs => DDict [("child", dstr (conj_child c)); ("conditions", DList (map cond_to_dict cs))]
    end.

  (** forbidden.py:585, 666, 737 _RELATION_STR *)
  Definition relation_str (r : rel) : string :=
    match r with RLess => "LESS" | REquals => "EQUALS" | RGreater => "GREATER" end.
  (** forbidden.py:380-385, 470-475, 552-556 and 197-204 *)
  Fixpoint forb_to_dict (f : fclause) : data :=
    DDict match f with
    | FEq h v _ => [("name", dstr (hp_name h)); ("type", dstr "EQUALS"); ("value", DVal v)]
    | FIn h vs _ => [("name", dstr (hp_name h)); ("type", dstr "IN"); ("values", DList (map DVal vs))]
    | FAnd cs => [("type", dstr "AND"); ("clauses", DList (map forb_to_dict cs))]
    | FRel r a b => [("left", dstr (hp_name a)); ("right", dstr (hp_name b)); ("type", dstr "RELATION"); ("lambda", dstr (relation_str r))]
    end.
End ToDict.
