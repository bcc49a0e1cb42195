(** * Conditions and forbidden clauses about numbers in float64

    The tests of conditions.py and forbidden.py on the value of a numerical hyperparameter and on its entry
    in the vector, as in Float.v. Ordinals, categoricals and constants have small integers as entries and
    are treated exactly in Cond.v and Forb.v. *)
From Coq Require Import ZArith List Bool.
From Flocq Require Import Core IEEE754.BinarySingleNaN.
From Verif Require Import Base Numeric Float FloatLog.
Import ListNotations.
Open Scope Z_scope.

(** operator.eq, ne, lt, gt: conditions.py:208-211, 237-240, 266-269, 294-297 *)
Inductive cmp := CEq | CNe | CLt | CGt.
(** on Python integers *)
Definition cmpZ (o : cmp) (x y : Z) : bool :=
  match o with CEq => x =? y | CNe => negb (x =? y) | CLt => x <? y | CGt => y <? x end.
(** on float64 *)
Definition cmpF (o : cmp) (x y : f64) : bool :=
  match o with CEq => feq x y | CNe => negb (feq x y) | CLt => flt x y | CGt => flt y x end.

(** conditions.py:166-177 satisfied_by_value, 158-160 satisfied_by_vector with 139 vector_value;
    ForbiddenEqualsClause (forbidden.py:366-374) is the test CEq *)
Definition int_test_value (o : cmp) (v c : Z) : bool := cmpZ o v c.
Definition int_test_vector (o : cmp) (lo hi : Z) (x : f64) (c : Z) : bool := cmpF o x (int_to_vector lo hi c).
Definition float_test_value (o : cmp) (v c : f64) : bool := cmpF o v c.
Definition float_test_vector (o : cmp) (lo hi x c : f64) : bool := cmpF o x (float_to_vector lo hi c).
(** conditions.py:361-365, 354-355 of InCondition; forbidden.py:458-464 of ForbiddenInClause *)
Definition int_in_value (v : Z) (cs : list Z) : bool := existsb (Z.eqb v) cs.
Definition int_in_vector (lo hi : Z) (x : f64) (cs : list Z) : bool := existsb (fun c => feq x (int_to_vector lo hi c)) cs.
Definition float_in_value (v : f64) (cs : list f64) : bool := existsb (feq v) cs.
Definition float_in_vector (lo hi x : f64) (cs : list f64) : bool := existsb (fun c => feq x (float_to_vector lo hi c)) cs.
(** with log *)
Definition log_int_test_vector {L : Libm} (o : cmp) (lo hi : Z) (x : f64) (c : Z) : bool := cmpF o x (log_to_vector (of_Z lo) (of_Z hi) (of_Z c)).
Definition log_float_test_vector {L : Libm} (o : cmp) (lo hi x c : f64) : bool := cmpF o x (log_to_vector lo hi c).

(** forbidden.py:600-619, 672-690, 743-761: the relations compare the values, or what the entries decode to *)
Definition int_relation_value (o : cmp) (v w : Z) : bool := cmpZ o v w.
Definition int_relation_vector (o : cmp) (lo hi lo' hi' : Z) (x y : f64) : res bool :=
  v <- int_to_value lo hi x ;; w <- int_to_value lo' hi' y ;; Ok (cmpZ o v w).
Definition float_relation_value (o : cmp) (v w : f64) : bool := cmpF o v w.
Definition float_relation_vector (o : cmp) (lo hi lo' hi' x y : f64) : bool := cmpF o (float_to_value lo hi x) (float_to_value lo' hi' y).
(** an integer and a float: Python and NumPy compare them as float64, exactly for integers within 2^53 *)
Definition mixed_relation_value (o : cmp) (v : Z) (w : f64) : bool := cmpF o (of_Z v) w.
Definition mixed_relation_vector (o : cmp) (lo hi : Z) (lo' hi' x y : f64) : res bool :=
  v <- int_to_value lo hi x ;; Ok (cmpF o (of_Z v) (float_to_value lo' hi' y)).
