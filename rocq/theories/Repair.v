(** * src/ConfigSpace/util.py: deactivate_inactive_hyperparameters *)
From Coq Require Import String List ZArith QArith Bool Lia.
From Verif Require Import Base Numeric HP Cond Forb Dag Space Dist Util Random.
Import ListNotations.
Open Scope nat_scope.

Section Repair.
  Context {E : Env}.

  (** [del dic[name]] *)
  Definition del {A} (name : string) (vals : list (string * A)) : list (string * A) :=
    filter (fun kv => negb (String.eqb name (fst kv))) vals.

  (** util.py:484-494, 502-507: [dic = dict(config)], [del dic[name]] and the new Configuration;
      [None] if the deletion raises KeyError *)
  Definition drop (s : space) (c : config) (name : string) : res (option config) :=
    vals <- dict_of s c ;;
    if assoc_mem name vals
    then c' <- config_of_values s (some_values (del name vals)) true ;; Ok (Some c')
    else Ok None.

  (** util.py:481-497: the conditions of one child. [q] is the queue, its head is next to be popped
      (deque: appendleft and pop); [gone] is the set [inactive]. *)
  Fixpoint visit_conditions (s : space) (name : string) (l : list cond) (c : config) (gone q : list string)
      : res (config * list string * list string) :=
    match l with
    | [] => Ok (c, gone, q)
    | k :: l' =>
        if sat_vec (index_of s) (c_vector c) k then visit_conditions s name l' c gone (q ++ [name])
        else
          r <- drop s c name ;;
          match r with
          | None => visit_conditions s name l' c gone q
          | Some c' => visit_conditions s name l' c' (name :: gone) (q ++ [name])
          end
    end.

  (** util.py:480-497: the children of a hyperparameter *)
  Fixpoint visit_children (s : space) (l : list hp) (c : config) (gone q : list string)
      : res (config * list string * list string) :=
    match l with
    | [] => Ok (c, gone, q)
    | h :: l' =>
        match assoc (hp_name h) (parent_conditions_of s) with
        | None => Err KeyError
        | Some ks =>
            r <- visit_conditions s (hp_name h) ks c gone q ;;
            let '(c', gone', q') := r in visit_children s l' c' gone' q'
        end
    end.

  (** util.py:478-497: the loop [while len(hps) > 0] *)
  Fixpoint repair_loop (fuel : nat) (s : space) (c : config) (gone q : list string) : res (config * list string) :=
    match q with
    | [] => Ok (c, gone)
    | n :: q' =>
        match fuel with
        | O => Err OutOfFuel
        | S f =>
            match assoc n (children_of s) with
            | None => Err KeyError
            | Some l =>
                r <- visit_children s l c gone q' ;;
                let '(c', gone', q'') := r in repair_loop f s c' gone' q''
            end
        end
    end.

  (** util.py:468-474: [extendleft] reverses, [pop] takes from the right: first in, first out *)
  Definition repair_start (s : space) : list string :=
    filter (fun n => match assoc n (children_of s) with Some (_ :: _) => true | _ => false end) (unconditional_hyperparameters s).

  (** util.py:499-508 *)
  Fixpoint drop_again (s : space) (l : list (string * hp)) (c : config) (gone : list string) : res config :=
    match l with
    | [] => Ok c
    | (n, _) :: l' =>
        if str_in n gone then
          r <- drop s c n ;;
          match r with
          | None => drop_again s l' c gone
          | Some c' => drop_again s l' c' gone
          end
        else drop_again s l' c gone
    end.

  (** util.py:466-510, after the first Configuration was made *)
  Definition repair (fuel : nat) (s : space) (c : config) : res config :=
    r <- repair_loop fuel s c [] (repair_start s) ;;
    c' <- drop_again s (items s) (fst r) (snd r) ;;
    vals <- dict_of s c' ;;
    config_of_values s (some_values vals) false.

  (** util.py:433-510: one of a dictionary and a vector is given (configuration.py:78-86) *)
  Definition deactivate_inactive (fuel : nat) (s : space) (vals : option (list (string * option value))) (vec : option (list fval))
      : res config :=
    match vals, vec with
    | Some d, None => c <- config_of_values s d true ;; repair fuel s c
    | None, Some v => c <- config_of_vector s v true ;; repair fuel s c
    | _, _ => Err ValueError
    end.
End Repair.
