(** * Logarithmic scales in float64

    UnitScaler with log=True (hp_components.py:238-417) as in Float.v. np.log and np.exp are parameters: what
    they return is not fixed by IEEE 754. *)
From Coq Require Import ZArith Reals List Bool.
From Flocq Require Import Core IEEE754.BinarySingleNaN.
From Verif Require Import Base Numeric Float FloatProofs.
Open Scope Z_scope.

Class Libm := { flog : f64 -> f64; fexp : f64 -> f64 }.

Section Log.
  Context {L : Libm}.
  (** 337-344 to_vector *)
  Definition log_to_vector (lo hi v : f64) : f64 := fnormalize (flog v) (flog lo) (flog hi).
  (** 313-334 _unsafe_to_value and _unsafe_to_value_single *)
  Definition log_unsafe (lo hi x : f64) : f64 := fexp (fscale x (flog lo) (flog hi)).
  (** 300-311 to_value: integers and floats *)
  Definition log_int_value (lo hi : Z) (x : f64) : res Z := to_i64 (frint (log_unsafe (of_Z lo) (of_Z hi) x)).
  Definition log_float_value (lo hi x : f64) : f64 := fclip (log_unsafe lo hi x) lo hi.
  (** 376-389 legal_vector and 404-416 legal_vector_single of integers *)
  Definition log_int_legal (lo hi : Z) (x : f64) : bool := int_legal lo hi (log_unsafe (of_Z lo) (of_Z hi) x).
  (** functional.py:298-324 rescale *)
  Definition frescale (x a b c d : f64) : f64 := if (feq a c && feq b d)%bool then x else fscale (fnormalize x a b) c d.
  (** functional.py:148-196 quantize_log with bounds (0, 1) *)
  Definition fquantize_log (x lo hi : f64) (bins : Z) : f64 :=
    let a := flog lo in let b := flog hi in
    frescale (flog (fquantize (fexp (frescale x f0 f1 a b)) lo hi bins)) a b f0 f1.
  (** uniform_integer.py:115-130 with distributions.py:400-422, 521-541: the vectorized ends are decoded to get the scale, and the
      number drawn by scipy.stats.uniform() is quantized on it *)
  Definition log_int_sample (lo hi : Z) (x : f64) : res f64 :=
    l <- log_int_value lo hi f0 ;; h <- log_int_value lo hi f1 ;; Ok (fquantize_log x (of_Z l) (of_Z h) (hi - lo + 1)).
End Log.

(** ** What is assumed of np.log and np.exp: a relative error of at most 2^-51 (two units in the last place)
    on the arguments that occur, and the order of the arguments *)
Open Scope R_scope.
Definition accurate (f : f64 -> f64) (g : R -> R) (dom : R -> Prop) : Prop :=
  forall x r, is x r -> dom r -> exists t, is (f x) t /\ Rabs (t - g r) <= pw (-51) * Rabs (g r).
Definition monotone (f : f64 -> f64) (dom : R -> Prop) : Prop :=
  forall x y r s t u, is x r -> is y s -> dom r -> dom s -> r <= s -> is (f x) t -> is (f y) u -> t <= u.
Definition log_dom (r : R) : Prop := pw (-1000) <= r <= pw 1000.
Definition exp_dom (r : R) : Prop := -700 <= r <= 700.
