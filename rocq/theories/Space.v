(** * Configuration spaces and configurations:
      src/ConfigSpace/configuration_space.py, configuration.py and parts of util.py *)
From Coq Require Import String List ZArith QArith Qround Bool Lia.
From Verif Require Import Base Numeric HP Cond Forb Dag.
Import ListNotations.
Open Scope nat_scope.

(** configuration_space.py:117-208: the graph and the cached length; name and meta take no part in
    the modelled behaviour, the random state is an argument of the functions that draw *)
Record space := mk_space { s_dag : dag; s_len : nat }.

Definition empty_space : space := mk_space empty_dag 0.

(** ** Views: configuration_space.py:211-287, 868-887 *)
Definition keys (s : space) : list string := map fst (d_nodes (s_dag s)).
Definition index_of (s : space) : list (string * nat) := d_index_of (s_dag s).
Definition at_ (s : space) : list string := d_at (s_dag s).
Definition conditions (s : space) : list cond := d_conds (s_dag s).
Definition forbidden_clauses (s : space) : list fclause := d_forbs (s_dag s).
Definition conditional_hyperparameters (s : space) : list string := d_nonroots (s_dag s).
Definition unconditional_hyperparameters (s : space) : list string := d_roots (s_dag s).
Definition children_of (s : space) : list (string * list hp) := d_children_of (s_dag s).
Definition parents_of (s : space) : list (string * list hp) := d_parents_of (s_dag s).
Definition child_conditions_of (s : space) : list (string * list cond) := d_child_conds_of (s_dag s).
Definition parent_conditions_of (s : space) : list (string * list cond) := d_parent_conds_of (s_dag s).
(** space[key] *)
Definition get_hp (s : space) (n : string) : option hp := option_map n_hp (assoc n (d_nodes (s_dag s))).
(** space.items() *)
Definition items (s : space) : list (string * hp) :=
  map (fun e => (fst e, n_hp (snd e))) (d_nodes (s_dag s)).
(** space.values() *)
Definition hps (s : space) : list hp := map snd (items s).

(** conditions attached to one hyperparameter, parent_conditions_of[name] *)
Definition conds_of (s : space) (n : string) : list cond :=
  match assoc n (parent_conditions_of s) with Some l => l | None => [] end.

(** ** Configurations: configuration.py:44-150 *)
Record config := mk_config {
  c_vector : list fval;
  c_values : option (list (string * value));   (* the cache _values *)
  c_allow : bool                               (* allow_inactive_with_values *)
}.

Section Space.
  Context {E : Env}.

  (** hp at an index: space[space.at[idx]] / unique_children[idx].hp *)
  Definition hp_at (s : space) (i : nat) : option hp := nth_error (d_hps (s_dag s)) i.

  (** util.py:580-606, one condition node *)
  Definition check_cnode (s : space) (v : list fval) (allow : bool) (cn : cnode) : res unit :=
    let activated i := isfinite (nth i v NaN) in
    if sat_vec (index_of s) v (cn_cond cn) then
      check forallb activated (cn_children cn) or ActiveHyperparameterNotSetError ;;
      check forallb (fun i => match hp_at s i with Some h => legal_vector h (nth i v NaN) | None => false end)
              (cn_children cn) or IllegalVectorizedValueError ;;
      Ok tt
    else if allow then Ok tt
    else
      match find activated (cn_children cn) with
      | None => Ok tt
      | Some i => match hp_at s i with
                  | None => Err IndexError
                  | Some h => _ <- to_value h (nth i v NaN) ;; Err InactiveHyperparameterSetError
                  end
      end.

  (** util.py:608-614 / configuration_space.py:945-950: raise at the first clause that holds *)
  Definition check_forb (io : list (string * nat)) (v : list fval) (fs : list fclause) : res unit :=
    b <- anyM (forb_vec io v) fs ;;
    if b : bool then Err ForbiddenValueError else Ok tt.

  (** util.py:570-614 check_configuration; [v] has the length of the space (a shorter array raises
      IndexError, configuration.py:138-147 and 189-205 only pass arrays of that length) *)
  Definition check_configuration (s : space) (v : list fval) (allow : bool) : res unit :=
    check forallb (fun n => match assoc n (index_of s) with
                            | Some i => isfinite (nth i v NaN)
                            | None => false
                            end) (d_roots (s_dag s)) or ActiveHyperparameterNotSetError ;;
    _ <- mapM (check_cnode s v allow) (d_min (s_dag s)) ;;
    check_forb (index_of s) v (d_fast (s_dag s)).

  (** FloatHyperparameter values are rounded to 13 places: configuration.py:125-127, 233-235 *)
  Definition round_value (h : hp) (v : value) : value :=
    match hp_kind h, num_of v with
    | KFloat _ _ _ _, Some q => VFloat (round13 q)
    | _, _ => v
    end.

  (** configuration.py:114-131, the loop over the hyperparameters of the space *)
  Fixpoint fill (s : space) (vals : list (string * option value)) (its : list (string * hp))
      (vec : list fval) (cache : list (string * value)) : res (list fval * list (string * value)) :=
    match its with
    | [] => Ok (vec, cache)
    | (key, h) :: its' =>
        match assoc key (index_of s) with
        | None => Err KeyError
        | Some i =>
            match assoc key vals with
            | None | Some None =>
                check Nat.ltb i (length vec) or IndexError ;;
                fill s vals its' (set_nth i NaN vec) cache
            | Some (Some v) =>
                check legal_value h v or IllegalValueError ;;
                let v' := round_value h v in
                x <- to_vector h v' ;;
                check Nat.ltb i (length vec) or IndexError ;;
                fill s vals its' (set_nth i x vec) (assoc_set key v' cache)
            end
        end
    end.

  (** configuration.py:44-131 Configuration(space, values=...); a value may be NotSet ([None]).
      np.empty is modelled by NaN entries. [any(unknown_keys)] is false when the only unknown key is
      the empty string. *)
  Definition config_of_values (s : space) (vals : list (string * option value)) (allow : bool)
    : res config :=
    check negb (existsb (fun k => (negb (str_in k (keys s)) && negb (String.eqb k ""))%bool)
                        (map fst vals)) or ValueError ;;
    r <- fill s vals (items s) (repeat NaN (s_len s)) [] ;;
    _ <- check_configuration s (fst r) allow ;;
    Ok (mk_config (fst r) (Some (snd r)) allow).

  (** configuration.py:133-150 Configuration(space, vector=...): no check besides the length *)
  Definition config_of_vector (s : space) (v : list fval) (allow : bool) : res config :=
    check Nat.eqb (length v) (s_len s) or ValueError ;;
    Ok (mk_config v None allow).

  (** configuration.py:152-164 *)
  Definition check_valid_configuration (s : space) (c : config) : res unit :=
    check_configuration s (c_vector c) (c_allow c).

  (** configuration_space.py:889-915: the default values, parents before children *)
  Fixpoint default_values (s : space) (its : list (string * hp)) (vals : list (string * option value))
    : res (list (string * option value)) :=
    match its with
    | [] => Ok vals
    | (n, h) :: its' =>
        bs <- mapM (fun c =>
                (* values[parent_name] for each parent, then satisfied_by_value *)
                check forallb (fun p => assoc_mem p vals) (cond_parents c) or KeyError ;;
                sat_value vals c)
              (conds_of s n) ;;
        default_values s its'
          (assoc_set n (if forallb (fun b => b) bs then Some (hp_default h) else None) vals)
    end.

  Definition check_default_configuration (s : space) : res config :=
    vals <- default_values s (items s) [] ;;
    config_of_values s vals false.

  (** configuration_space.py:466-472 *)
  Definition get_default_configuration (s : space) : res config := check_default_configuration s.

  (** configuration_space.py:289-351 add; the state is returned also when an exception is raised.
      The arguments are given sorted into the three kinds (lines 311-338). *)
  Definition add (s : space) (hs : list hp) (cs : list cond) (fs : list fclause) : space * res unit :=
    let (d, r) := dag_update (s_dag s) hs cs fs in
    match r with
    | Err e => (mk_space d (s_len s), Err e)
    | Ok _ =>
        let s' := mk_space d (length (d_nodes d)) in
        match check_default_configuration s' with
        | Err e => (s', Err e)
        | Ok _ => (s', Ok tt)
        end
    end.

  (** ** Reading a configuration: configuration.py:176-184, 212-240, 263-270.
      Reading fills the cache _values with what the read returned; a later read returns the same, so
      the update is left out (Life.v has it, C120 shows that it makes no difference). *)
  Definition getitem (s : space) (c : config) (key : string) : res value :=
    match match c_values c with Some d => assoc key d | None => None end with
    | Some v => Ok v
    | None =>
        match get_hp s key with
        | None => Err KeyError
        | Some h =>
            match assoc key (index_of s) with
            | None => Err KeyError
            | Some i =>
                match nth i (c_vector c) NaN with
                | NaN => Err KeyError
                | x => v <- to_value h x ;; Ok (round_value h v)
                end
            end
        end
    end.

  (** configuration.py:176-184: only KeyError is caught *)
  Definition contains (s : space) (c : config) (key : string) : res bool :=
    match getitem s c key with
    | Ok _ => Ok true
    | Err KeyError => Ok false
    | Err e => Err e
    end.

  (** configuration.py:263-267 *)
  Definition iter (s : space) (c : config) : list string :=
    filter (fun k => match assoc k (index_of s) with
                     | Some i => negb (isnan (nth i (c_vector c) NaN))
                     | None => false
                     end) (keys s).

  (** configuration.py:269-270 *)
  Definition config_len (s : space) (c : config) : nat := s_len s.

  (** dict(config) *)
  Definition dict_of (s : space) (c : config) : res (list (string * value)) :=
    mapM (fun k => v <- getitem s c k ;; Ok (k, v)) (iter s c).

  (** ** change_hp_value: util.py:617-644 *)
  Definition change_cnode (s : space) (arr : list fval) (cn : cnode) : list fval :=
    if sat_vec (index_of s) arr (cn_cond cn) then
      fold_left (fun a i => set_nth i (nth i (d_defaults (s_dag s)) NaN) a)
                (filter (fun i => isnan (nth i arr NaN)) (cn_children cn)) arr
    else fold_left (fun a i => set_nth i NaN a) (cn_children cn) arr.

  Definition change_hp_value (s : space) (arr : list fval) (name : string) (x : fval) (i : nat)
    : list fval :=
    fold_left (change_cnode s)
      (match assoc name (d_lookup (s_dag s)) with Some l => l | None => [] end)
      (set_nth i x arr).

  (** configuration.py:186-210 __setitem__; returns the configuration also when it raises *)
  Definition setitem (s : space) (c : config) (key : string) (v : value) : config * res unit :=
    match get_hp s key with
    | None => (c, Err KeyError)
    | Some h =>
        if legal_value h v then
          match assoc key (index_of s) with
          | None => (c, Err KeyError)
          | Some i =>
              match to_vector h v with
              | Err e => (c, Err e)
              | Ok x =>
                  let arr := change_hp_value s (c_vector c) key x i in
                  match check_configuration s arr false with
                  | Err e => (c, Err e)
                  | Ok _ => (mk_config arr None (c_allow c), Ok tt)
                  end
              end
          end
        else (c, Err IllegalValueError)
    end.

  (** ** configuration_space.py:492-533 get_active_hyperparameters, in the order of the space *)
  Definition cond_active (s : space) (v : list fval) (c : cond) : bool :=
    (negb (existsb (fun p => isnan (vget (index_of s) v p)) (cond_parents c))
     && sat_vec (index_of s) v c)%bool.
  Definition get_active (s : space) (v : list fval) : list string :=
    filter (fun n => forallb (cond_active s v) (conds_of s n)) (keys s).

  (** configuration_space.py:917-943 *)
  Definition check_configuration_rigorous (s : space) (v : list fval) (allow : bool) : res unit :=
    let active := get_active s v in
    _ <- mapM (fun e =>
           let '(n, h) := e in
           let x := vget (index_of s) v n in
           let a := str_in n active in
           check (isnan x || legal_vector h x)%bool or IllegalVectorizedValueError ;;
           check negb (a && isnan x) or ActiveHyperparameterNotSetError ;;
           check negb (negb allow && negb a && negb (isnan x)) or InactiveHyperparameterSetError ;;
           Ok tt) (items s) ;;
    check_forb (index_of s) v (forbidden_clauses s).

  (** ** Sampling: configuration_space.py:545-637

      [draw round i j] is entry [j] of what hyperparameter [i] drew in a round of the loop; the
      entries of a distribution are specified in Dist.v.  [fuel] bounds the number of rounds. *)

  (** arr[:, mask]: keep the columns where the mask is true *)
  Definition select {A} (mask : list bool) (row : list A) : list A :=
    map snd (filter fst (combine mask row)).

  (** column j of a matrix *)
  Definition column (arr : list (list fval)) (j : nat) : list fval := map (fun row => nth j row NaN) arr.

  (** arr[np.ix_(rows, mask)] = nan *)
  Definition nan_rows (rows : list nat) (mask : list bool) (arr : list (list fval)) : list (list fval) :=
    fold_left (fun a i => set_nth i
                 (map (fun bx => if fst bx : bool then NaN else snd bx) (combine mask (nth i a []))) a)
              rows arr.

  (** mask |= clause.is_forbidden_vector_array(arr) for each clause *)
  Definition forb_mask (io : list (string * nat)) (n : nat) (arr : list (list fval)) (fs : list fclause)
    : res (list bool) :=
    foldM (fun acc f => m <- forb_arr io n arr f ;; Ok (zip_with orb acc m)) fs (repeat false n).

  (** configuration_space.py:596-633, one round *)
  Definition sample_round (s : space) (n : nat) (mat : list (list fval)) : res (list (list fval)) :=
    let io := index_of s in
    uf <- forb_mask io n mat (d_uforb (s_dag s)) ;;
    let valid := map (select (map negb uf)) mat in
    let n1 := length (filter negb uf) in
    let valid := fold_left (fun a cn => nan_rows (cn_children cn)
                                          (map negb (sat_arr io n1 a (cn_cond cn))) a)
                           (d_min (s_dag s)) valid in
    cf <- forb_mask io n1 valid (d_cforb (s_dag s)) ;;
    let valid := map (select (map negb cf)) valid in
    let n2 := length (filter negb cf) in
    Ok (map (column valid) (seq 0 n2)).

  (** configuration_space.py:585-590, 594 *)
  Definition mult (s : space) : Q :=
    inject_Z (Z.of_nat (length (forbidden_clauses s) + length (conditional_hyperparameters s)))
    / inject_Z (Z.of_nat (s_len s)).
  Definition next_size (s : space) (k : nat) : nat :=
    Nat.max (Z.to_nat (Qfloor (mult s * mult s * inject_Z (Z.of_nat k)))) 5.

  Fixpoint sample_loop (fuel : nat) (s : space) (draw : nat -> nat -> nat -> fval) (round : nat)
      (size sample_size : nat) (accepted : list (list fval)) : res (list (list fval)) :=
    if Nat.leb size (length accepted) then Ok accepted
    else
      match fuel with
      | O => Err OutOfFuel
      | S f =>
          let n := next_size s sample_size in
          let mat := map (fun i => map (draw round i) (seq 0 n)) (seq 0 (s_len s)) in
          new <- sample_round s n mat ;;
          let accepted' := accepted ++ new in
          sample_loop f s draw (S round) size (size - length accepted') accepted'
      end.

  (** configuration_space.py:545-637.  [size = None] returns one configuration; for uniformity the
      result is the list of what is returned (size 1 returns the first configuration, not a list). *)
  Definition sample_configuration (fuel : nat) (s : space) (draw : nat -> nat -> nat -> fval)
      (size : option Z) : res (list config) :=
    if Nat.eqb (s_len s) 0 then
      mapM (fun _ => config_of_vector s [] false)
           (repeat tt (match size with None => 1 | Some k => Z.to_nat k end))
    else
      let k := match size with None => 1%Z | Some k => k end in
      if (k <? 1)%Z then Ok []
      else
        vs <- sample_loop fuel s draw 0 (Z.to_nat k) (Z.to_nat k) [] ;;
        cs <- mapM (fun v => config_of_vector s v false) vs ;;
        Ok (firstn (Z.to_nat k) cs).

  (** ** configuration_space.py:676-699; [None] is np.inf, the empty space gives 0.0 *)
  Definition estimate_size (s : space) : option Z :=
    match hps s with
    | [] => Some 0%Z
    | _ => fold_left (fun acc h => match acc, hp_size h with
                                   | Some a, Some b => Some (a * b)%Z
                                   | _, _ => None
                                   end) (hps s) (Some 1%Z)
    end.

  (** ** util.py:60-105 impute_inactive_values; strategy "default" or a float *)
  Inductive strategy := SDefault | SFloat (q : Q).

  Definition impute (s : space) (c : config) (st : strategy) : res config :=
    vals <- mapM (fun e =>
              match getitem s c (fst e) with
              | Ok v => Ok (fst e, Some v)
              | Err KeyError =>
                  match st with
                  | SDefault => Ok (fst e, Some (hp_default (snd e)))
                  | SFloat q => Ok (fst e, Some (VFloat q))
                  end
              | Err e => Err e
              end) (items s) ;;
    config_of_values s vals true.
End Space.
