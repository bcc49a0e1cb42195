(** * Hyperparameter objects with cached densities, and Hyperparameter.copy *)
From Coq Require Import String List ZArith QArith Bool.
From Verif Require Import Base Numeric HP Dist.
Import ListNotations.
Open Scope Z_scope.

Section Cache.
  Context {E : Env}.

  (** Normal and beta integers have a DiscretizedContinuousScipyDistribution whose fields _max_density
      and _pdf_norm are None until the first use, distributions.py:379-389 and normal_integer.py:144-149,
      beta_integer.py:141-146.  Those of a uniform integer on a log scale are preset and never change. *)
  Definition discretized (h : hp) : option Z :=
    match hp_kind h with
    | KInt lo hi _ (DNormal _ _ | DBeta _ _) => Some (hi - lo + 1)
    | _ => None
    end.

  Record live := mk_live { lv_hp : hp; lv_cache : option (Q * Q) }.
  (** an object as its constructor returns it *)
  Definition fresh (h : hp) : live := mk_live h None.

  (** distributions.py:437-453 max_density and _pdf_normalization_constant: both fill both fields *)
  Definition max_and_norm_of (f : Q -> Q) (steps : Z) (x : live) : live * res (Q * Q) :=
    match lv_cache x with
    | Some mn => (x, Ok mn)
    | None => match max_and_norm f steps with
              | Ok mn => (mk_live (lv_hp x) (Some mn), Ok mn)
              | Err e => (x, Err e)
              end
    end.

  (** hyperparameter.py:446-448 get_max_density *)
  Definition live_max_density (f : Q -> Q) (x : live) : live * res Q :=
    match discretized (lv_hp x) with
    | None => (x, max_density (lv_hp x) f)
    | Some steps =>
        let (x', r) := max_and_norm_of f steps x in
        (x', mn <- r ;; Ok (fst mn))
    end.

  (** hyperparameter.py:493-505 pdf_vector, distributions.py:543-561, one element *)
  Definition live_pdf_vector (f : Q -> Q) (v : fval) (x : live) : live * res Q :=
    match discretized (lv_hp x) with
    | None => (x, pdf_vector (lv_hp x) f v)
    | Some steps =>
        let (x', r) := max_and_norm_of f steps x in
        (x', mn <- r ;;
             Ok ((match v with
                  | Fin q => if (Qle_bool 0 q && Qle_bool q 1)%bool then f q / snd mn else 0
                  | _ => 0
                  end) * (if legal_vector_array (lv_hp x) v then 1 else 0))%Q)
    end.

  (** hyperparameter.py:507-525 pdf_values, one element *)
  Definition live_pdf_value (f : Q -> Q) (v : value) (x : live) : live * res Q :=
    match to_vector (lv_hp x) v with
    | Ok u => live_pdf_vector f u x
    | Err e => (x, Err e)
    end.

  (** dataclass equality compares _vector_dist, whose __eq__ compares all fields,
      distributions.py:424-435 *)
  Definition cache_eqb (a b : option (Q * Q)) : bool :=
    opt_eqb (fun p q => Qeq_bool (fst p) (fst q) && Qeq_bool (snd p) (snd q))%bool a b.
  Definition live_eqb (x y : live) : bool :=
    (hp_eqb (lv_hp x) (lv_hp y) && cache_eqb (lv_cache x) (lv_cache y))%bool.

  (** a program that reads densities *)
  Inductive read := RMax | RVector (v : fval) | RValue (v : value).
  Definition do_read (f : Q -> Q) (r : read) (x : live) : live * res Q :=
    match r with
    | RMax => live_max_density f x
    | RVector v => live_pdf_vector f v x
    | RValue v => live_pdf_value f v x
    end.
  Fixpoint do_reads (f : Q -> Q) (rs : list read) (x : live) : live :=
    match rs with [] => x | r :: rs' => do_reads f rs' (fst (do_read f r x)) end.
End Cache.

(** ** Hyperparameter.copy, hyperparameter.py:527-540: dataclasses.replace *)

(** dataclass fields that are arguments of the generated constructor (init=True): those of
    hyperparameter.py:47-75 and 714-719 and of the classes, in any order *)
Definition base_fields : list string :=
  ["name"; "default_value"; "meta"; "_vector_dist"; "_normalized_default_value"; "_transformer"; "_neighborhood"; "_value_cast";
   "_neighborhood_size"]%string.
Definition class_fields (h : hp) : list string :=
  match hp_kind h with
  | KCat _ _ => ["choices"; "weights"; "size"; "probabilities"; "_contains_sequence_as_value"]
  | KOrd _ => ["sequence"; "_contains_sequence_as_value"]
  | KConst _ => ["value"; "size"; "_contains_sequence_as_value"]
  | KInt _ _ _ DUniform | KFloat _ _ _ DUniform => ["lower"; "upper"; "log"]
  | KInt _ _ _ (DNormal _ _) | KFloat _ _ _ (DNormal _ _) => ["lower"; "upper"; "log"; "mu"; "sigma"]
  | KInt _ _ _ (DBeta _ _) => ["lower"; "upper"; "log"; "alpha"; "beta"; "size"]
  | KFloat _ _ _ (DBeta _ _) => ["lower"; "upper"; "log"; "alpha"; "beta"]
  end%string.
(** fields with init=False *)
Definition derived_fields (h : hp) : list string :=
  match hp_kind h with
  | KCat _ _ | KConst _ | KInt _ _ _ (DBeta _ _) => []
  | _ => ["size"]
  end%string.
(** parameters of __init__ *)
Definition init_params (h : hp) : list string :=
  match hp_kind h with
  | KCat _ _ => ["name"; "choices"; "weights"; "default_value"; "meta"]
  | KOrd _ => ["name"; "sequence"; "default_value"; "meta"]
  | KConst _ => ["name"; "value"; "meta"]
  | KInt _ _ _ DUniform | KFloat _ _ _ DUniform => ["name"; "lower"; "upper"; "default_value"; "log"; "meta"]
  | KInt _ _ _ (DNormal _ _) | KFloat _ _ _ (DNormal _ _) =>
      ["name"; "mu"; "sigma"; "lower"; "upper"; "default_value"; "log"; "meta"]
  | KInt _ _ _ (DBeta _ _) | KFloat _ _ _ (DBeta _ _) =>
      ["name"; "alpha"; "beta"; "lower"; "upper"; "default_value"; "log"; "meta"]
  end%string.

Definition str_in (n : string) (l : list string) : bool := existsb (String.eqb n) l.

(** [kwargs]: the names of the keyword arguments.  Fields that are not among them are passed to the
    constructor with their present values. *)
Definition hp_copy (h : hp) (kwargs : list string) : res hp :=
  check (negb (existsb (fun k => str_in k (derived_fields h)) kwargs)) or ValueError ;;
  check (forallb (fun k => str_in k (init_params h)) (kwargs ++ base_fields ++ class_fields h)) or TypeError ;;
  Err Unmodelled.
