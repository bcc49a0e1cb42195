(** * Configurations as objects: src/ConfigSpace/configuration.py:44-270

    Space.v describes a configuration by its vector and the values it was made from.  Here it is an
    object: it refers to an array that others may hold, too, it remembers the values it has read, and
    its space may get further hyperparameters afterwards. *)
From Coq Require Import String List ZArith QArith Bool Lia.
From Verif Require Import Base Numeric HP Cond Forb Dag Space.
Import ListNotations.
Open Scope nat_scope.

(** the arrays that exist, by their addresses *)
Definition heap := list (list fval).

(** configuration.py:87-98: the address of _vector, _values (None: nothing was read yet) and
    allow_inactive_with_values *)
Record obj := mk_obj { ob_arr : nat; ob_cache : option (list (string * value)); ob_allow : bool }.

(** [_vector] *)
Definition array (m : heap) (o : obj) : list fval := nth (ob_arr o) m [].
(** the configuration of Space.v *)
Definition view (m : heap) (o : obj) : config := mk_config (array m o) (ob_cache o) (ob_allow o).

Section Life.
  Context {E : Env}.

  (** array[i] *)
  Definition entry (v : list fval) (i : nat) : res fval :=
    match nth_error v i with Some x => Ok x | None => Err IndexError end.

  (** configuration.py:97-126 Configuration(space, values=...): a new array *)
  Definition o_of_values (s : space) (m : heap) (vals : list (string * option value)) (allow : bool) : heap * res obj :=
    match config_of_values s vals allow with
    | Ok c => (m ++ [c_vector c], Ok (mk_obj (length m) (c_values c) allow))
    | Err e => (m, Err e)
    end.
  (** configuration.py:128-150 Configuration(space, vector=...) with an array of one dimension: the
      array is not copied *)
  Definition o_of_array (s : space) (m : heap) (a : nat) (allow : bool) : res obj :=
    check Nat.eqb (length (nth a m [])) (s_len s) or ValueError ;;
    Ok (mk_obj a None allow).
  (** configuration.py:128-150 with a list (np.asarray) or a column (flatten): a new array *)
  Definition o_of_list (s : space) (m : heap) (v : list fval) (allow : bool) : heap * res obj :=
    (m ++ [v], o_of_array s (m ++ [v]) (length m) allow).

  (** configuration.py:212-240 __getitem__; the object is returned with what it remembers *)
  Definition o_read (s : space) (m : heap) (o : obj) (key : string) : obj * res value :=
    match match ob_cache o with Some d => assoc key d | None => None end with
    | Some v => (o, Ok v)
    | None =>
        match get_hp s key with
        | None => (o, Err KeyError)
        | Some h =>
            match assoc key (index_of s) with
            | None => (o, Err KeyError)
            | Some i =>
                match entry (array m o) i with
                | Err e => (o, Err e)
                | Ok NaN => (o, Err KeyError)
                | Ok x =>
                    match to_value h x with
                    | Err e => (o, Err e)
                    | Ok v => (mk_obj (ob_arr o)
                                 (Some (assoc_set key (round_value h v)
                                          (match ob_cache o with Some d => d | None => [] end))) (ob_allow o),
                               Ok (round_value h v))
                    end
                end
            end
        end
    end.

  (** configuration.py:176-184 __contains__ *)
  Definition o_contains (s : space) (m : heap) (o : obj) (key : string) : obj * res bool :=
    match o_read s m o key with
    | (o', Ok _) => (o', Ok true)
    | (o', Err KeyError) => (o', Ok false)
    | (o', Err e) => (o', Err e)
    end.

  (** configuration.py:263-267 __iter__ *)
  Definition o_iter (s : space) (m : heap) (o : obj) : res (list string) :=
    l <- mapM (fun k => match assoc k (index_of s) with
                        | None => Err KeyError
                        | Some i => x <- entry (array m o) i ;; Ok (if isnan x then [] else [k])
                        end) (keys s) ;;
    Ok (concat l).

  (** dict(config): the keys are collected first, then read *)
  Fixpoint o_reads (s : space) (m : heap) (o : obj) (ks : list string) : obj * res (list (string * value)) :=
    match ks with
    | [] => (o, Ok [])
    | k :: ks' =>
        match o_read s m o k with
        | (o', Err e) => (o', Err e)
        | (o', Ok v) => match o_reads s m o' ks' with
                        | (o'', Ok l) => (o'', Ok ((k, v) :: l))
                        | (o'', Err e) => (o'', Err e)
                        end
        end
    end.
  Definition o_dict (s : space) (m : heap) (o : obj) : obj * res (list (string * value)) :=
    match o_iter s m o with
    | Err e => (o, Err e)
    | Ok ks => o_reads s m o ks
    end.

  (** configuration.py:186-210 __setitem__, for an array of the length of the space; the vector is
      copied before it is changed *)
  Definition o_set (s : space) (m : heap) (o : obj) (key : string) (v : value) : heap * obj * res unit :=
    match setitem s (view m o) key v with
    | (c, Ok _) => (m ++ [c_vector c], mk_obj (length m) None (ob_allow o), Ok tt)
    | (_, Err e) => (m, o, Err e)
    end.

  (** the holder of an array writes array[i] = x *)
  Definition poke (m : heap) (a i : nat) (x : fval) : heap := set_nth a (set_nth i x (nth a m [])) m.

  (** what may be done with a configuration without changing it *)
  Inductive look := LRead (k : string) | LContains (k : string) | LIter | LDict.
  Inductive answer := AValue (r : res value) | ABool (r : res bool) | AKeys (r : res (list string))
                    | ADict (r : res (list (string * value))).
  Definition do_look (s : space) (m : heap) (o : obj) (l : look) : obj * answer :=
    match l with
    | LRead k => let (o', r) := o_read s m o k in (o', AValue r)
    | LContains k => let (o', r) := o_contains s m o k in (o', ABool r)
    | LIter => (o, AKeys (o_iter s m o))
    | LDict => let (o', r) := o_dict s m o in (o', ADict r)
    end.
  (** [looks] one after the other *)
  Fixpoint looks (s : space) (m : heap) (o : obj) (ls : list look) : obj * list answer :=
    match ls with
    | [] => (o, [])
    | l :: ls' => let (o', a) := do_look s m o l in let (o'', l') := looks s m o' ls' in (o'', a :: l')
    end.

  (** looks and assignments; several configurations are told apart by their numbers *)
  Inductive deed := DLook (l : look) | DSet (k : string) (v : value).
  Inductive reply := RLook (a : answer) | RSet (r : res unit).
  Definition do_deed (s : space) (m : heap) (o : obj) (d : deed) : heap * obj * reply :=
    match d with
    | DLook l => let (o', a) := do_look s m o l in (m, o', RLook a)
    | DSet k v => let '(m', o', r) := o_set s m o k v in (m', o', RSet r)
    end.
  Fixpoint deeds (s : space) (m : heap) (os : list obj) (ds : list (nat * deed)) : heap * list obj * list (nat * reply) :=
    match ds with
    | [] => (m, os, [])
    | (i, d) :: ds' =>
        match nth_error os i with
        | None => deeds s m os ds'
        | Some o => let '(m', o', r) := do_deed s m o d in
                    let '(m'', os'', rs) := deeds s m' (set_nth i o' os) ds' in
                    (m'', os'', (i, r) :: rs)
        end
    end.
End Life.
