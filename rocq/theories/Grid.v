(** * src/ConfigSpace/util.py: generate_grid *)
From Coq Require Import String List ZArith QArith Bool Lia.
From Verif Require Import Base Numeric HP Cond Forb Dag Space Dist Util Random.
Import ListNotations.
Open Scope nat_scope.

Section Grid.
  Context {E : Env}.

  (** a point of the grid: a dictionary of values *)
  Definition point := list (string * value).

  (** util.py:704-708, 732-736: the first and the last entry are moved to the bounds *)
  Definition clamp_ends {A} (low high : A -> bool) (lo hi : A) (l : list A) : res (list A) :=
    match l with
    | [] => Err IndexError
    | x :: l' =>
        let l1 := (if low x then lo else x) :: l' in
        match split_last l1 with
        | None => Err IndexError
        | Some (front, y) => Ok (front ++ [if high y then hi else y])
        end
    end.

  (** util.py:686-702, 713-730: np.linspace over the bounds or their logarithms *)
  Definition grid_points (lo hi : Q) (log : bool) (num : Z) : list Q :=
    if log then map fexp (linspace (flog lo) (flog hi) num true) else linspace lo hi num true.

  (** util.py:674-740 _get_value_set; other distributions are other classes *)
  Definition value_set (s : space) (steps : list (string * Z)) (n : string) : res (list value) :=
    match get_hp s n with
    | None => Err KeyError
    | Some h =>
        match hp_kind h with
        | KCat ch _ => Ok ch
        | KOrd sq => Ok sq
        | KConst v => Ok [v]
        | KFloat lo hi log DUniform =>
            match assoc (hp_name h) steps with
            | None => Err ValueError
            | Some num =>
                check (0 <=? num)%Z or ValueError ;;
                l <- clamp_ends (fun x => Qltb x lo) (fun x => Qltb hi x) lo hi (grid_points lo hi log num) ;;
                Ok (map VFloat l)
            end
        | KInt lo hi log DUniform =>
            match assoc (hp_name h) steps with
            | None => Err ValueError
            | Some num =>
                check (0 <=? num)%Z or ValueError ;;
                l <- clamp_ends (fun x => Z.ltb x lo) (fun x => Z.ltb hi x) lo hi
                       (map rint (grid_points (inject_Z lo) (inject_Z hi) log num)) ;;
                Ok (map VInt l)
            end
        | _ => Err TypeError
        end
    end.

  (** itertools.product: the last set varies fastest *)
  Fixpoint product {A} (sets : list (list A)) : list (list A) :=
    match sets with
    | [] => [[]]
    | s :: sets' => concat (map (fun v => map (cons v) (product sets')) s)
    end.

  (** util.py:742-757 _get_cartesian_product *)
  Definition cartesian (sets : list (list value)) (names : list string) : list point :=
    match sets with
    | [] => []
    | _ => map (combine names) (product sets)
    end.

  (** util.py:802-814: one child of a hyperparameter of the point *)
  Definition try_child (s : space) (p : point) (new : list string) (n : string) : res (list string) :=
    if (str_in n new || assoc_mem n p)%bool then Ok new
    else
      match assoc n (parent_conditions_of s) with
      | None => Err KeyError
      | Some ks =>
          bs <- mapM (sat_value (some_values p)) ks ;;
          Ok (if forallb (fun b => b) bs then new ++ [n] else new)
      end.

  (** util.py:796-814: the newly active hyperparameters *)
  Definition new_active (s : space) (p : point) : res (list string) :=
    foldM (fun new n =>
             match assoc n (d_nodes (s_dag s)) with
             | None => Err KeyError
             | Some _ => foldM (try_child s p) (children_names (d_nodes (s_dag s)) n) new
             end) (map fst p) [].

  (** util.py:789-830: the points one level deeper *)
  Definition expand (s : space) (steps : list (string * Z)) (p : point) : res (list point) :=
    new <- new_active s p ;;
    sets <- mapM (value_set s steps) new ;;
    check negb (Nat.eqb (length new) 0) or RuntimeError ;;
    Ok (cartesian (map (fun e => [snd e]) p ++ sets) (map fst p ++ new)).

  (** util.py:774-832: the loop over the unchecked points *)
  Fixpoint grid_loop (fuel : nat) (s : space) (steps : list (string * Z)) (todo : list point) (done : list config) : res (list config) :=
    match todo with
    | [] => Ok done
    | p :: todo' =>
        match fuel with
        | O => Err OutOfFuel
        | S f =>
            match config_of_values s (some_values p) false with
            | Ok c => grid_loop f s steps todo' (done ++ [c])
            | Err ForbiddenValueError => grid_loop f s steps todo' done
            | Err ActiveHyperparameterNotSetError =>
                more <- expand s steps p ;;
                grid_loop f s steps (todo' ++ more) done
            | Err e => Err e
            end
        end
    end.

  (** util.py:647-834 *)
  Definition generate_grid (fuel : nat) (s : space) (steps : list (string * Z)) : res (list config) :=
    sets <- mapM (value_set s steps) (unconditional_hyperparameters s) ;;
    grid_loop fuel s steps (cartesian sets (unconditional_hyperparameters s)) [].
End Grid.
