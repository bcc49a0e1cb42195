(** * src/ConfigSpace/util.py: neighbourhoods of configurations, grids, repairing values *)
From Coq Require Import String List ZArith QArith Qround Bool Lia.
From Verif Require Import Base Numeric HP Cond Forb Dag Space Dist.
Import ListNotations.
Open Scope nat_scope.

Section Util.
  Context {E : Env}.

  (** ** get_one_exchange_neighbourhood: util.py:108-351 *)

  (** One entry of neighbors_to_generate (hp, hp_idx, n_to_gen, neighbours) together with its entry
      of sample_strategy. The standard deviation only influences the random numbers; the heuristic
      of lines 223-225 only influences how many random integers are drawn at once. *)
  Record slot := mk_slot {
    sl_hp : hp;
    sl_idx : nat;
    sl_left : nat;
    sl_nb : list Q;
    sl_sample : nat;
    sl_iter : nat;
    sl_shuffle : bool;
    sl_generated : bool;
    sl_regen : bool
  }.

  (** The random numbers of one call: the indices drawn (lines 247, 257), the numbers behind the
      i-th call of a neighbourhood, and the effect of shuffling its result (line 303). *)
  Record oracle := { o_pick : nat -> nat; o_rng : nat -> nrng; o_shuf : nat -> list Q -> list Q }.

  (** lines 170-236: the entry for one hyperparameter, [None] if it is skipped *)
  Definition slot_of (s : space) (c : config) (num : nat) (i : nat) (name : string) (h : hp) : res (option slot) :=
    if (match hp_size h with Some 1%Z => true | _ => false end || isnan (nth i (c_vector c) NaN))%bool
    then Ok None
    else
      match hp_kind h, hp_size h with
      | KCat _ _, Some size =>
          let m := Z.to_nat (size - 1) in
          Ok (Some (mk_slot h i m [] m m true false false))
      | KOrd _, _ =>
          w <- getitem s c name ;;
          k <- get_num_neighbors h (Some w) ;;
          match k with
          | Some z => let m := Z.to_nat z in Ok (Some (mk_slot h i m [] m m true false false))
          | None => Err Unmodelled
          end
      | _, None =>
          Ok (Some (mk_slot h i num [] (num * 5) (Nat.max (num * 5) 100) false false true))
      | _, Some size =>
          let possible := Z.to_nat (size - 1) in
          let m := Nat.min num possible in
          Ok (Some (mk_slot h i num [] m m true false (Nat.leb num possible)))
      end.

  Fixpoint slots_of (s : space) (c : config) (num : nat) (i : nat) (ns : nodes_t) : res (list slot) :=
    match ns with
    | [] => Ok []
    | (name, n) :: ns' =>
        o <- slot_of s c num i name (n_hp n) ;;
        l <- slots_of s c num (S i) ns' ;;
        Ok (match o with Some x => x :: l | None => l end)
    end.

  (** [Yields x v]: the neighbour [x] was accepted, [v] is the changed vector *)
  Inductive outcome := Yields (x : Q) (v : list fval) | Exhausted | Failed.

  (** neighbors.pop() *)
  Definition pop (l : list Q) : option (list Q * Q) := split_last l.

  (** lines 280-351: the retry loop for the chosen hyperparameter. [nb] is the list of neighbours
      still to be tried, [g] counts calls of neighbourhoods, [generated] is the flag as it was when
      the hyperparameter was chosen. *)
  Fixpoint try_hp (iters : nat) (s : space) (arr : list fval) (o : oracle) (sl : slot) (nb : list Q)
      (g : nat) : res (outcome * list Q * nat) :=
    match iters with
    | O => Ok (Failed, nb, g)
    | S it =>
        let name := hp_name (sl_hp sl) in
        if (match nb with [] => true | _ => false end && (sl_generated sl && negb (sl_regen sl)))%bool
        then Ok (Exhausted, nb, g)
        else
          ng <- match nb with
                | _ :: _ => Ok (nb, g)
                | [] =>
                    match nth (sl_idx sl) arr NaN with
                    | Fin q =>
                        l <- neighborhood (sl_hp sl) q (sl_sample sl) (o_rng o g) ;;
                        Ok (if sl_shuffle sl then o_shuf o g l else l, S g)
                    | _ => Err Unmodelled
                    end
                end ;;
          match pop (fst ng) with
          | None => Err IndexError
          | Some (rest, x) =>
              let new := change_hp_value s arr name (Fin x) (sl_idx sl) in
              bad <- anyM (forb_vec (index_of s) new)
                       (match assoc name (d_flookup (s_dag s)) with Some l => l | None => [] end) ;;
              if bad : bool then try_hp it s arr o sl rest (snd ng)
              else Ok (Yields x new, rest, snd ng)
          end
    end.

  (** the entry after its turn; [g' <> g] iff neighbours were generated *)
  Definition slot_after (sl : slot) (left : nat) (nb : list Q) (gen : bool) : slot :=
    mk_slot (sl_hp sl) (sl_idx sl) left nb (sl_sample sl) (sl_iter sl) (sl_shuffle sl)
      (sl_generated sl || gen)%bool (sl_regen sl).

  (** lines 250-351. The result is the list of configurations yielded so far and how the
      generator ended; [OutOfFuel] means that it was not run to its end. *)
  Fixpoint exchange_loop (fuel : nat) (s : space) (arr : list fval) (o : oracle) (sls : list slot)
      (left t g : nat) : list config * res unit :=
    match fuel with
    | O => ([], Err OutOfFuel)
    | S f =>
        if Nat.eqb left 0 then ([], Ok tt)
        else
          match nth_error sls (o_pick o t) with
          | None => ([], Err IndexError)
          | Some sl =>
              if Nat.eqb (sl_left sl) 0 then exchange_loop f s arr o sls left (S t) g
              else
                match try_hp (sl_iter sl) s arr o sl (sl_nb sl) g with
                | Err e => ([], Err e)
                | Ok (out, nb, g') =>
                    let gen := negb (Nat.eqb g' g) in
                    match out with
                    | Yields _ v =>
                        match config_of_vector s v false with
                        | Err e => ([], Err e)
                        | Ok c =>
                            let n := sl_left sl - 1 in
                            let (cs, r) := exchange_loop f s arr o
                              (set_nth (o_pick o t) (slot_after sl n nb gen) sls)
                              (if Nat.eqb n 0 then left - 1 else left) (S t) g' in
                            (c :: cs, r)
                        end
                    | _ =>
                        exchange_loop f s arr o
                          (set_nth (o_pick o t) (slot_after sl 0 nb gen) sls) (left - 1) (S t) g'
                    end
                end
          end
    end.

  Definition get_one_exchange_neighbourhood (fuel : nat) (s : space) (c : config) (num : nat) (o : oracle)
      : list config * res unit :=
    match slots_of s c num 0 (d_nodes (s_dag s)) with
    | Err e => ([], Err e)
    | Ok sls =>
        if forallb (fun sl => negb (Nat.eqb (sl_left sl) 0)) sls
        then exchange_loop fuel s (c_vector c) o sls (length sls) 0 0
        else ([], Err AssertionError)
    end.
End Util.
