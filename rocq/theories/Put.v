(** * Arguments of ConfigurationSpace.add, and spaces of bounded floats *)
From Coq Require Import String List ZArith QArith Bool.
From Verif Require Import Base Numeric HP Cond Forb Dag Space Serial.
Import ListNotations.
Open Scope string_scope.
Open Scope list_scope.

(** what add() may be given, configuration_space.py:291-296 and 322-335: [AIter] is anything else that
    can be iterated over, [AStr] a string, [ARaise] stands for an exception that the iteration raises at
    this place, [AOther] for an object that cannot be iterated over *)
Inductive item :=
| AHp (h : hp)
| ACond (c : cond)
| AForb (f : fclause)
| AIter (l : list item)
| AStr (s : string)
| ARaise (e : err)
| AOther.

Section Put.
  Context {E : Env}.

  (** the lists of configuration_space.py:312-314 *)
  Record lists := mk_lists { p_hps : list hp; p_conds : list cond; p_forbs : list fclause }.

  (** configuration_space.py:316-335 _put_to_list. The items of a string are strings, so that one with
      a character recurses for ever: RecursionError, a RuntimeError. *)
  Fixpoint put (a : item) (st : lists) : res lists :=
    match a with
    | AHp h => Ok (mk_lists (p_hps st ++ [h]) (p_conds st) (p_forbs st))
    | ACond c => Ok (mk_lists (p_hps st) (p_conds st ++ [c]) (p_forbs st))
    | AForb f => Ok (mk_lists (p_hps st) (p_conds st) (p_forbs st ++ [f]))
    | AIter l => (fix go (l : list item) (st : lists) : res lists :=
                    match l with [] => Ok st | a :: l' => st' <- put a st ;; go l' st' end) l st
    | AStr s => match s with EmptyString => Ok st | _ => Err RuntimeError end
    | ARaise e => Err e
    | AOther => Err TypeError
    end.
  (** configuration_space.py:289-351 add( *args ) *)
  Definition add_args (x : cspace) (args : list item) : cspace * res unit :=
    match put (AIter args) (mk_lists [] [] []) with
    | Ok st => c_add x (p_hps st) (p_conds st) (p_forbs st)
    | Err e => (x, Err e)
    end.

  (** f"x{i}" *)
  Definition x_name (i : nat) : string := ("x" ++ z_str (Z.of_nat i))%string.
  (** configuration_space.py:450-464 generate_all_continuous_from_bounds *)
  Definition bound_items (bounds : list (Q * Q)) : list item :=
    map (fun ib => match mk_uniform_float (x_name (fst ib)) (fst (snd ib)) (snd (snd ib)) None false None with
                   | Ok h => AHp h
                   | Err e => ARaise e
                   end) (combine (seq 0 (length bounds)) bounds).
  Definition from_bounds (x : cspace) (bounds : list (Q * Q)) : cspace * res unit :=
    add_args x [AIter (bound_items bounds)].
End Put.
