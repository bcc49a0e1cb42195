(** * Conditions: src/ConfigSpace/conditions.py

    A condition object is represented by its description.  The child and parent are full
    hyperparameter descriptions, as the Python object holds references to hyperparameter objects.
    The vector ids set by set_vector_idx (conditions.py:66-74, 424-431) are not stored: evaluation
    takes the [index_of] dictionary of the space as argument, i.e. the ids set when the space was
    committed last (two spaces sharing one condition object: Alias.v). *)
From Coq Require Import String List ZArith QArith Bool Lia.
From Verif Require Import Base Numeric HP.
Import ListNotations.
Open Scope Z_scope.

Inductive op := OpEq | OpNe | OpLt | OpGt.

(** What a literal condition tests: BinaryOpCondition (value, vector_value) or
    InCondition (values, vector_values). *)
Inductive test :=
| TBin (o : op) (v : value) (vv : fval)
| TIn (vs : list value) (vvs : list fval).

Record lit := mk_lit { l_child : hp; l_parent : hp; l_test : test }.

Inductive cond :=
| CLit (l : lit)
| CAnd (cs : list cond)
| COr (cs : list cond).

(** conditions.py:388-399 dlcs, without the removal of repeated references to one object *)
Fixpoint dlcs (c : cond) : list lit :=
  match c with
  | CLit l => [l]
  | CAnd cs | COr cs => concat (map dlcs cs)
  end.

Definition parent_name (l : lit) : string := hp_name (l_parent l).

(** parent names of a condition: _condition_tree.py:109-113, 689-693, configuration_space.py:895-898 *)
Definition cond_parents (c : cond) : list string := map parent_name (dlcs c).

(** condition.child; conditions.py:406 takes the child of the first literal *)
Definition cond_child (c : cond) : option hp := option_map l_child (hd_error (dlcs c)).

Definition op_eqb (a b : op) : bool :=
  match a, b with OpEq, OpEq | OpNe, OpNe | OpLt, OpLt | OpGt, OpGt => true | _, _ => false end.

(** _REQUIRES_ORDERABLE_PARENT, conditions.py:207-295 *)
Definition needs_order (o : op) : bool := match o with OpLt | OpGt => true | _ => false end.

(** isinstance(parent, OrdinalHyperparameter), conditions.py:140-147 *)
Definition is_ordinal (h : hp) : bool := match hp_kind h with KOrd _ => true | _ => false end.

(** more_itertools.all_equal *)
Definition all_equal (l : list hp) : bool :=
  match l with [] => true | h :: l' => forallb (fun k => hp_eqb h k) l' end.

Section Cond.
  Context {E : Env}.

  (** ** Constructors *)

  (** conditions.py:47-64, 116-147 *)
  Definition mk_bin (o : op) (child parent : hp) (v : value) : res cond :=
    check negb (hp_eqb child parent) or ValueError ;;
    check (negb (needs_order o) || orderable parent)%bool or ValueError ;;
    check legal_value parent v or ValueError ;;
    vv <- to_vector parent v ;;
    Ok (CLit (mk_lit child parent (TBin o v vv))).

  (** conditions.py:322-340 *)
  Definition mk_in (child parent : hp) (vs : list value) : res cond :=
    check negb (hp_eqb child parent) or ValueError ;;
    check forallb (legal_value parent) vs or ValueError ;;
    vvs <- mapM (to_vector parent) vs ;;
    Ok (CLit (mk_lit child parent (TIn vs vvs))).

  (** conditions.py:376-407, 520-522 *)
  Definition mk_and (cs : list cond) : res cond :=
    check Nat.leb 2 (length cs) or ValueError ;;
    check all_equal (map l_child (dlcs (CAnd cs))) or ValueError ;;
    Ok (CAnd cs).

  (** conditions.py:376-407, 583-591 *)
  Definition mk_or (cs : list cond) : res cond :=
    check Nat.leb 2 (length cs) or ValueError ;;
    check all_equal (map l_child (dlcs (COr cs))) or ValueError ;;
    Ok (COr cs).

  (** A condition object that the constructors returned, on constructed hyperparameters. *)
  Inductive cond_built : cond -> Prop :=
  | CB_bin o ch p v c : constructed ch -> constructed p -> mk_bin o ch p v = Ok c -> cond_built c
  | CB_in ch p vs c : constructed ch -> constructed p -> mk_in ch p vs = Ok c -> cond_built c
  | CB_and cs c : (forall x, In x cs -> cond_built x) -> mk_and cs = Ok c -> cond_built c
  | CB_or cs c : (forall x, In x cs -> cond_built x) -> mk_or cs = Ok c -> cond_built c.

  (** ** Evaluation on a vector *)

  (** vector[vector_id] with the id the space assigned to the name.  Callers pass vectors of the
      length of the space and names of the space; for others the entry counts as NaN. *)
  Definition vget (io : list (string * nat)) (v : list fval) (n : string) : fval :=
    match assoc n io with Some i => nth i v NaN | None => NaN end.

  (** _OP / _VECTOR_OP on vector entries *)
  Definition op_vec (o : op) (x y : fval) : bool :=
    match o with
    | OpEq => feqb x y
    | OpNe => fneqb x y
    | OpLt => fltb x y
    | OpGt => fgtb x y
    end.

  (** conditions.py:159-161, 352-353 satisfied_by_vector *)
  Definition test_vec (t : test) (x : fval) : bool :=
    match t with
    | TBin o _ vv => op_vec o x vv
    | TIn _ vvs => existsb (feqb x) vvs
    end.
  Definition lit_vec (io : list (string * nat)) (v : list fval) (l : lit) : bool :=
    test_vec (l_test l) (vget io v (parent_name l)).

  (** conditions.py:545-550, 604-605 *)
  Fixpoint sat_vec (io : list (string * nat)) (v : list fval) (c : cond) : bool :=
    match c with
    | CLit l => lit_vec io v l
    | CAnd cs => forallb (sat_vec io v) cs
    | COr cs => existsb (sat_vec io v) cs
    end.

  (** ** Evaluation on a matrix (one row per hyperparameter, one column per configuration)

      [n] is arr.shape[1]. *)
  Definition arow (io : list (string * nat)) (arr : list (list fval)) (name : string) : list fval :=
    match assoc name io with Some i => nth i arr [] | None => [] end.

  (** numpy [a &= b], [a |= b] on boolean arrays of one length *)
  Fixpoint zip_with {A B C} (f : A -> B -> C) (l : list A) (m : list B) : list C :=
    match l, m with x :: l', y :: m' => f x y :: zip_with f l' m' | _, _ => [] end.

  (** conditions.py:163-165, 355-357, 552-557, 607-612 satisfied_by_vector_array *)
  Fixpoint sat_arr (io : list (string * nat)) (n : nat) (arr : list (list fval)) (c : cond)
    : list bool :=
    match c with
    | CLit l => map (test_vec (l_test l)) (arow io arr (parent_name l))
    | CAnd cs => fold_left (fun acc c => zip_with andb acc (sat_arr io n arr c)) cs (repeat true n)
    | COr cs => fold_left (fun acc c => zip_with orb acc (sat_arr io n arr c)) cs (repeat false n)
    end.

  (** ** Evaluation on values: a dictionary whose entries may be NotSet ([None]) *)
  Definition op_val (o : op) (v w : value) : res bool :=
    match o with
    | OpEq => Ok (py_eqb v w)
    | OpNe => Ok (negb (py_eqb v w))
    | OpLt => match py_ltb v w with Some b => Ok b | None => Err TypeError end
    | OpGt => match py_ltb w v with Some b => Ok b | None => Err TypeError end
    end.

  (** conditions.py:167-176, 359-363 satisfied_by_value *)
  Definition lit_value (d : list (string * option value)) (l : lit) : res bool :=
    match assoc (parent_name l) d with
    | None => Err KeyError
    | Some None => Ok false
    | Some (Some v) =>
        match l_test l with
        | TBin o w vv =>
            if is_ordinal (l_parent l)
            then (x <- to_vector (l_parent l) v ;; Ok (op_vec o x vv))
            else op_val o v w
        | TIn vs _ => Ok (py_in v vs)
        end
    end.

  (** conditions.py:542-543, 601-602: all(...) / any(...), short-circuiting *)
  Fixpoint sat_value (d : list (string * option value)) (c : cond) : res bool :=
    match c with
    | CLit l => lit_value d l
    | CAnd cs => allM (sat_value d) cs
    | COr cs => anyM (sat_value d) cs
    end.

  (** ** Strings: __repr__ (conditions.py:149, 342, 523-531, 593-600) *)
  Definition op_str (o : op) : string :=
    match o with OpEq => "==" | OpNe => "!=" | OpLt => "<" | OpGt => ">" end%string.

  Definition lit_str (l : lit) : string :=
    match l_test l with
    | TBin o v _ => hp_name (l_child l) ++ " | " ++ parent_name l ++ " " ++ op_str o ++ " " ++ frepr v
    | TIn vs _ => hp_name (l_child l) ++ " | " ++ parent_name l ++ " in {" ++
                  String.concat ", " (map frepr vs) ++ "}"
    end%string.

  Fixpoint cond_str (c : cond) : string :=
    match c with
    | CLit l => lit_str l
    | CAnd cs => "(" ++ String.concat " && " (map cond_str cs) ++ ")"
    | COr cs => "(" ++ String.concat " || " (map cond_str cs) ++ ")"
    end%string.
End Cond.

(** ** Equality and equivalence *)

(** same class and equal value(s); the values of InCondition are compared as lists *)
Definition test_eqb (s t : test) : bool :=
  match s, t with
  | TBin o v _, TBin o' v' _ => op_eqb o o' && py_eqb v v'
  | TIn vs _, TIn vs' _ => list_eqb py_eqb vs vs'
  | _, _ => false
  end%bool.

(** conditions.py:76-83 *)
Definition lit_eqb (a b : lit) : bool :=
  (hp_eqb (l_child a) (l_child b) && hp_eqb (l_parent a) (l_parent b)
   && test_eqb (l_test a) (l_test b))%bool.

(** conditions.py:76-83, 409-421; objects of different classes are not equal *)
Fixpoint cond_eqb (a b : cond) {struct a} : bool :=
  match a, b with
  | CLit l, CLit m => lit_eqb l m
  | CAnd cs, CAnd ds | COr cs, COr ds =>
      (Nat.eqb (length cs) (length ds)
       && forallb (fun c => existsb (fun d => cond_eqb c d) ds) cs
       && forallb (fun d => existsb (fun c => cond_eqb c d) cs) ds)%bool
  | _, _ => false
  end.

(** conditions.py:85-89 *)
Definition lit_equiv (a b : lit) : bool :=
  (hp_eqb (l_parent a) (l_parent b) && test_eqb (l_test a) (l_test b))%bool.

(** conditions.py:85-89, 460-473 equivalent_condition_on_parent: a conjunction is compared with any
    conjunction, And or Or, and only in one direction *)
Fixpoint cond_equiv (a b : cond) {struct a} : bool :=
  match a, b with
  | CLit l, CLit m => lit_equiv l m
  | CAnd cs, CAnd ds | CAnd cs, COr ds | COr cs, CAnd ds | COr cs, COr ds =>
      (Nat.eqb (length cs) (length ds)
       && forallb (fun c => existsb (fun d => cond_equiv c d) ds) cs)%bool
  | _, _ => false
  end.

(** Induction over nested conditions *)
Lemma cond_ind' (P : cond -> Prop) :
  (forall l, P (CLit l)) ->
  (forall cs, Forall P cs -> P (CAnd cs)) ->
  (forall cs, Forall P cs -> P (COr cs)) ->
  forall c, P c.
Proof.
  intros HL HA HO. fix IH 1. intros [l|cs|cs].
  - apply HL.
  - apply HA. induction cs; constructor; auto.
  - apply HO. induction cs; constructor; auto.
Qed.
