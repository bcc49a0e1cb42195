(** * Spaces from dictionaries, the functions Integer, Float and Categorical, and to_integer *)
From Coq Require Import String List ZArith QArith Qround Bool.
From Verif Require Import Base Numeric HP Cond Forb Dag Space Serial.
Import ListNotations.
Open Scope nat_scope.

(** configuration_space.py:85-113: what the values of the dictionary may be. Nested sequences, NaN and
    infinities are not modelled. *)
Inductive entry :=
| EHp (h : hp)
| ETuple (l : list value)
| EList (l : list value)
| EOther (v : value).

Section Api.
  Context {E : Env}.

  (** one turn of the loop of _parse_hyperparameters_from_dict, configuration_space.py:85-113; bounds
      that are not numbers make numpy raise, not modelled *)
  Definition parse_entry (name : string) (e : entry) : res hp :=
    match e with
    | EHp h => Ok h
    | ETuple [a; b] =>
        match num_of a, num_of b with
        | Some lower, Some upper =>
            match a with
            | VFloat _ => mk_uniform_float name lower upper None false None
            | _ => mk_uniform_int name lower upper None false None
            end
        | _, _ => Err Unmodelled
        end
    | ETuple _ => Err ValueError
    | EList [] => Err ValueError
    | EList l => mk_categorical name l None None None
    | EOther v => mk_constant name v None
    end.

  (** configuration_space.py:185-204 ConfigurationSpace(name, meta=..., space=dict) *)
  Definition space_of_dict (name meta : option string) (items : list (string * entry)) : res cspace :=
    hs <- mapM (fun e => parse_entry (fst e) (snd e)) items ;;
    match c_add (new_space name meta) hs [] [] with
    | (x, Ok _) => Ok x
    | (_, Err e) => Err e
    end.
  (** ... with a sequence of hyperparameters, line 202 *)
  Definition space_of_list (name meta : option string) (hs : list hp) : res cspace :=
    match c_add (new_space name meta) hs [] [] with
    | (x, Ok _) => Ok x
    | (_, Err e) => Err e
    end.

  (** api/types/integer.py:52-157, api/distributions.py; other distribution objects raise ValueError.
      [None] for [d] is distribution=None; without bounds "lower, upper = bounds" raises TypeError. *)
  Definition api_integer (name : string) (bounds : option (Q * Q)) (d : option dist) (default : option Q) (log : bool)
      (meta : option string) : res hp :=
    match d, bounds with
    | (None | Some DUniform), None => Err ValueError
    | _, None => Err TypeError
    | (None | Some DUniform), Some (lower, upper) => mk_uniform_int name lower upper default log meta
    | Some (DNormal mu sigma), Some (lower, upper) => mk_normal_int name mu sigma lower upper default log meta
    | Some (DBeta alpha beta), Some (lower, upper) => mk_beta_int name alpha beta lower upper default log meta
    end.
  (** api/types/float.py:52-150 *)
  Definition api_float (name : string) (bounds : option (Q * Q)) (d : option dist) (default : option Q) (log : bool)
      (meta : option string) : res hp :=
    match d, bounds with
    | _, None => Err TypeError
    | (None | Some DUniform), Some (lower, upper) => mk_uniform_float name lower upper default log meta
    | Some (DNormal mu sigma), Some (lower, upper) => mk_normal_float name mu sigma lower upper default log meta
    | Some (DBeta alpha beta), Some (lower, upper) => mk_beta_float name alpha beta lower upper default log meta
    end.
  (** api/types/categorical.py:52-131 *)
  Definition api_categorical (name : string) (items : list value) (default : option value) (weights : option (list Q))
      (ordered : bool) (meta : option string) : res hp :=
    check (negb (ordered && match weights with Some _ => true | None => false end)) or ValueError ;;
    if ordered then mk_ordinal name items default meta
    else mk_categorical name items default weights meta.

  (** uniform_float.py:124-144, normal_float.py:153-174, beta_float.py:154-182; the other classes have no
      to_integer *)
  Definition to_integer (h : hp) : res hp :=
    match hp_kind h, num_of (hp_default h) with
    | KFloat lo hi log d, Some x =>
        let lower := inject_Z (Qceiling lo) in
        let upper := inject_Z (Qfloor hi) in
        let default := Some (inject_Z (rint x)) in
        match d with
        | DUniform => mk_uniform_int (hp_name h) lower upper default log None
        | DNormal mu sigma => mk_normal_int (hp_name h) mu sigma lower upper default log None
        | DBeta alpha beta => mk_beta_int (hp_name h) alpha beta lower upper default log None
        end
    | _, _ => Err Unmodelled
    end.
End Api.
