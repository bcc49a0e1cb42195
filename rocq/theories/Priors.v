(** * Removing priors: configuration_space.py:647-674, 702-818

    Simplification: a conjunction given one condition object twice lists it once in dlcs
    (conditions.py:397-399); the model has no object identities, so there it counts twice. *)
From Coq Require Import String List ZArith QArith Bool.
From Verif Require Import Base Numeric HP Cond Forb Dag Space.
Import ListNotations.

Section Priors.
  Context {E : Env}.

  (** new_configspace[name] *)
  Definition hp_at (s : space) (n : string) : res hp :=
    match get_hp s n with Some h => Ok h | None => Err KeyError end.

  (** configuration_space.py:733-743 *)
  Definition sub_lit (s : space) (l : lit) : res cond :=
    p <- hp_at s (hp_name (l_parent l)) ;; ch <- hp_at s (hp_name (l_child l)) ;;
    match l_test l with
    | TBin o v _ => mk_bin o ch p v
    | TIn vs _ => mk_in ch p vs
    end.

  (** configuration_space.py:702-750 substitute_hyperparameters_in_conditions, one condition: a
      conjunction is built anew from its literals (line 725), whatever its components are *)
  Definition sub_cond (s : space) (c : cond) : res cond :=
    match c with
    | CLit l => sub_lit s l
    | CAnd _ => xs <- mapM (sub_lit s) (dlcs c) ;; mk_and xs
    | COr _ => xs <- mapM (sub_lit s) (dlcs c) ;; mk_or xs
    end.

  (** configuration_space.py:753-818 substitute_hyperparameters_in_forbiddens, one clause *)
  Fixpoint sub_forb (s : space) (f : fclause) : res fclause :=
    match f with
    | FEq h v _ => h' <- hp_at s (hp_name h) ;; mk_feq h' v
    | FIn h vs _ => h' <- hp_at s (hp_name h) ;; mk_fin h' vs
    | FRel r a b => a' <- hp_at s (hp_name a) ;; b' <- hp_at s (hp_name b) ;; mk_frel r a' b'
    | FAnd fs => xs <- mapM (sub_forb s) fs ;; mk_fand xs
    end.

  (** configuration_space.py:647-674; the space returned has neither name nor meta data *)
  Definition remove_priors (s : space) : res space :=
    hs <- mapM to_uniform (hps s) ;;
    let (s1, r1) := add empty_space hs [] [] in
    _ <- r1 ;;
    cs <- mapM (sub_cond s1) (conditions s) ;;
    fs <- mapM (sub_forb s1) (forbidden_clauses s) ;;
    let (s2, r2) := add s1 [] cs fs in
    _ <- r2 ;;
    Ok s2.
End Priors.
