(** * Deprecated methods: hyperparameters/hyperparameter.py, configuration_space.py, c_util.py

    The deprecated methods that compute something.  The others (is_legal, get_size, sample,
    _transform, get_hyperparameter, add_hyperparameter, get_conditions, ...: hyperparameter.py:570-573,
    608-632, 671-692, configuration_space.py:1217-1373, configuration.py:276-290, categorical.py:402-410,
    ordinal.py:247-251, conditions.py:425-458, forbidden.py:272-282) return one call or attribute
    that is modelled under its own name. *)
From Coq Require Import String List ZArith QArith Bool.
From Verif Require Import Base Numeric HP Cond Forb Dag Space Dist.
Import ListNotations.
Open Scope Z_scope.

Section Old.
  Context {E : Env}.

  (** hyperparameter.py:564-567 has_neighbors: get_num_neighbors() > 0; [None] is np.inf *)
  Definition has_neighbors (h : hp) : res bool :=
    n <- get_num_neighbors h None ;;
    Ok (match n with Some k => 0 <? k | None => true end).

  (** hyperparameter.py:634-669 get_neighbors; [number = None] and [transform] as passed *)
  Definition get_neighbors (h : hp) (x : fval) (r : nrng) (number : option nat) (std : option Q)
      (transform : bool) : res (list fval) :=
    check (negb transform) or RuntimeError ;;
    neighbors_vectorized h x (match number with None => 4%nat | Some n => n end) std r.

  (** configuration_space.py:475-482 ConfigurationSpace.check_configuration *)
  Definition space_check_configuration (s : space) (c : config) : res unit :=
    check_configuration s (c_vector c) false.

  (** configuration_space.py:484-490 check_configuration_vector_representation *)
  Definition check_vector_representation (s : space) (v : list fval) : res unit :=
    check_configuration s v false.

  (** c_util.py:13-21 check_forbidden: any(...) over the clauses, each with the indices of its space *)
  Definition check_forbidden (io : list (string * nat)) (fs : list fclause) (v : list fval) : res bool :=
    anyM (forb_vec io v) fs.
End Old.
