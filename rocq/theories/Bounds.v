(** * Bounds of the vector entries of a hyperparameter, and the normal distribution in vector space *)
From Coq Require Import String List ZArith QArith Qabs Bool.
From Verif Require Import Base Numeric HP.
Import ListNotations.
Open Scope Z_scope.

(** hyperparameter.py:140-143 lower_vectorized, with the distributions' attribute: UniformInteger
    distributions.py:935, WeightedIntegerDiscrete 1123, ConstantVector 1263 (the vector value 1,
    constant.py), UniformIntegerNormalized 790, UnitUniformContinuous 864; uniform_integer.py:124,
    normal_integer.py:150, beta_integer.py:146, normal_float.py:137, beta_float.py:137 *)
Definition lower_vectorized (h : hp) : Q :=
  match hp_kind h with KConst _ => 1 | _ => 0 end.

(** hyperparameter.py:145-148 upper_vectorized, with the same lines of the distributions plus one *)
Definition upper_vectorized (h : hp) : Q :=
  match hp_kind h with
  | KCat c _ | KOrd c => inject_Z (Z.of_nat (length c) - 1)
  | _ => 1
  end.

Section Normal.
  Context {E : Env}.

  (** hp_components.py:346-358 UnitScaler.vectorize_size; on a logarithmic scale for
      lower + size > 0 *)
  Definition vectorize_size (lo hi : Q) (log : bool) (size : Q) : Q :=
    if log then Qabs (flog (lo + size) / (flog hi - flog lo)) else (size / (hi - lo))%Q.

  (** normal_float.py:123-131, normal_integer.py:137-145: location, scale and the two limits (in
      units of the scale) of the truncated normal distribution over the vector entries *)
  Record truncnorm := { tn_loc : Q; tn_scale : Q; tn_a : Q; tn_b : Q }.
  Definition normal_dist (lo hi mu sigma : Q) (log : bool) : res truncnorm :=
    match unit_to_vector lo hi log mu with
    | Fin m =>
        let s := vectorize_size lo hi log sigma in
        Ok {| tn_loc := m; tn_scale := s; tn_a := ((0 - m) / s)%Q; tn_b := ((1 - m) / s)%Q |}
    | _ => Err Unmodelled
    end.
End Normal.
