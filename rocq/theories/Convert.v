(** * to_float of integer hyperparameters, and the order of an ordinal *)
From Coq Require Import String List ZArith QArith Bool.
From Verif Require Import Base Numeric HP.
Import ListNotations.
Open Scope nat_scope.

Section Convert.
  Context {E : Env}.

  (** uniform_integer.py:148-163, normal_integer.py:165-177, beta_integer.py:162-184; the other classes
      have no to_float *)
  Definition to_float_hp (h : hp) : res hp :=
    match hp_kind h, num_of (hp_default h) with
    | KInt lo hi log d, Some x =>
        match d with
        | DUniform => mk_uniform_float (hp_name h) (inject_Z lo) (inject_Z hi) (Some x) log (hp_meta h)
        | DNormal mu sigma => mk_normal_float (hp_name h) mu sigma (inject_Z lo) (inject_Z hi) (Some x) log None
        | DBeta alpha beta => mk_beta_float (hp_name h) alpha beta (inject_Z lo) (inject_Z hi) (Some x) log None
        end
    | _, _ => Err Unmodelled
    end.

  (** ordinal.py:156-158 get_order: tuple.index *)
  Definition get_order (s : list value) (v : value) : res nat :=
    match py_index v s with Some i => Ok i | None => Err ValueError end.
  (** ordinal.py:152-154 *)
  Definition check_order (s : list value) (v w : value) : res bool :=
    i <- get_order s v ;; j <- get_order s w ;; Ok (Nat.ltb i j).
  (** ordinal.py:160-162 *)
  Definition get_value (s : list value) (i : Q) : res value := np_index s (py_int i).
  (** ordinal.py:164-166 *)
  Definition get_seq_order (s : list value) : list nat := seq 0 (length s).
End Convert.
