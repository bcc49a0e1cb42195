(** * src/ConfigSpace/util.py: get_random_neighbor *)
From Coq Require Import String List ZArith QArith Bool Lia.
From Verif Require Import Base Numeric HP Cond Forb Dag Space Dist Util.
Import ListNotations.
Open Scope nat_scope.

Section Random.
  Context {E : Env}.

  (** [except ValueError]: exceptions.py and the built-in class *)
  Definition is_value_error (e : err) : bool :=
    match e with
    | KeyError | TypeError | IndexError | AssertionError | RuntimeError | ZeroDivisionError | OutOfFuel | Unmodelled => false
    | _ => true
    end.

  (** util.py:391-416: choose an active hyperparameter with more than one value. The check
      [iteration > 10000] comes last in an iteration, so that success in the first 10000 counts.
      The result is the index and the number of indices drawn. *)
  Fixpoint choose_active (tries : nat) (s : space) (c : config) (o : oracle) (t : nat) : res (nat * nat) :=
    match tries with
    | O => Err ValueError
    | S n =>
        let i := if Nat.ltb 1 (config_len s c) then o_pick o t else 0 in
        match nth_error (c_vector c) i with
        | None => Err IndexError
        | Some x =>
            if isfinite x then
              match hp_at s i with
              | None => Err IndexError
              | Some h =>
                  if match hp_size h with Some z => (z <=? 1)%Z | None => false end
                  then choose_active n s c o (S t)
                  else Ok (i, S t)
              end
            else choose_active n s c o (S t)
        end
    end.

  Definition max_tries : nat := 100 * 100.

  Definition some_values (vals : list (string * value)) : list (string * option value) :=
    map (fun kv => (fst kv, Some (snd kv))) vals.

  (** util.py:388-428: the loop [while rejected]; a rejected value is put back. [g] counts calls of
      neighbourhoods. *)
  Fixpoint random_loop (fuel : nat) (s : space) (c : config) (o : oracle) (vals : list (string * value)) (t g : nat)
      : res config :=
    match fuel with
    | O => Err OutOfFuel
    | S f =>
        it <- choose_active max_tries s c o t ;;
        match hp_at s (fst it) with
        | None => Err IndexError
        | Some h =>
            l <- neighbors_vectorized h (nth (fst it) (c_vector c) NaN) 1 None (o_rng o g) ;;
            ws <- mapM (to_value h) l ;;
            match ws with
            | [] => Err IndexError
            | w :: _ =>
                check assoc_mem (hp_name h) vals or KeyError ;;
                match config_of_values s (some_values (assoc_set (hp_name h) w vals)) false with
                | Ok c' => Ok c'
                | Err e => if is_value_error e then random_loop f s c o vals (snd it) (S g) else Err e
                end
            end
        end
    end.

  (** util.py:354-430 *)
  Definition get_random_neighbor (fuel : nat) (s : space) (c : config) (o : oracle) : res config :=
    vals <- dict_of s c ;;
    check match estimate_size s with Some z => negb (z <=? 1)%Z | None => true end or NoPossibleNeighborsError ;;
    random_loop fuel s c o vals 0 0.
End Random.
