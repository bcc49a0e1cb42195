(** * Adding a configuration space to another: configuration_space.py:353-448

    copy.copy of a condition or of a relation copies the hyperparameters it holds
    (conditions.py:152-157, 347-352, forbidden.py:171-172), but the copy of an equality or membership
    clause holds the same hyperparameter object as the original (forbidden.py:362-363, 454-455).
    Renaming it therefore renames the hyperparameter of the source, and that of every clause made
    from the source before.

    Simplifications.  The conditions and clauses of the source hold the hyperparameter objects of the
    source, so that a hyperparameter renamed there is renamed everywhere in the source ([touch_dag]);
    a table indexed by names keeps its keys.  Which clauses of the target hold objects of the source
    is an argument of the model: [lk] are the names these objects have.  Clauses evaluate by
    positions stored when they were added, here by names (Forb.v), so the model of the source is not
    used for evaluating after its hyperparameters were renamed.  The target is not the source. *)
From Coq Require Import String List ZArith QArith Bool.
From Verif Require Import Base Numeric HP Cond Forb Dag Space.
Import ListNotations.

(** configuration_space.py:383-390 _new_name *)
Definition new_name (prefix delim n : string) : string :=
  if (String.eqb n "" || String.eqb n prefix)%bool then prefix
  else if String.prefix (prefix ++ delim) n then n
  else (prefix ++ delim ++ n)%string.

(** hp.name = g(hp.name) *)
Definition rename_hp (g : string -> string) (h : hp) : hp :=
  mk_hp (g (hp_name h)) (hp_kind h) (hp_default h) (hp_meta h).
Definition rename_lit (g : string -> string) (l : lit) : lit :=
  mk_lit (rename_hp g (l_child l)) (rename_hp g (l_parent l)) (l_test l).
Fixpoint rename_cond (g : string -> string) (c : cond) : cond :=
  match c with
  | CLit l => CLit (rename_lit g l)
  | CAnd cs => CAnd (map (rename_cond g) cs)
  | COr cs => COr (map (rename_cond g) cs)
  end.
Fixpoint rename_forb (g : string -> string) (f : fclause) : fclause :=
  match f with
  | FEq h v vv => FEq (rename_hp g h) v vv
  | FIn h vs vvs => FIn (rename_hp g h) vs vvs
  | FRel r a b => FRel r (rename_hp g a) (rename_hp g b)
  | FAnd fs => FAnd (map (rename_forb g) fs)
  end.

(** names of the hyperparameter objects that a clause and its copy have in common *)
Fixpoint held_names (f : fclause) : list string :=
  match f with
  | FEq h _ _ | FIn h _ _ => [hp_name h]
  | FRel _ _ _ => []
  | FAnd fs => concat (map held_names fs)
  end.
(** renaming only these *)
Fixpoint rename_held (g : string -> string) (f : fclause) : fclause :=
  match f with
  | FEq h v vv => FEq (rename_hp g h) v vv
  | FIn h vs vvs => FIn (rename_hp g h) vs vvs
  | FRel r a b => FRel r a b
  | FAnd fs => FAnd (map (rename_held g) fs)
  end.

(** the renaming of the objects named in [l] *)
Definition only (l : list string) (g : string -> string) (n : string) : string :=
  if str_in n l then g n else n.

(** the tables of a space whose hyperparameter objects are renamed in place *)
Definition touch_node (g : string -> string) (n : node) : node :=
  mk_node (rename_hp g (n_hp n)) (n_depth n)
    (map (fun e => (fst e, rename_cond g (snd e))) (n_children n))
    (map (fun e => (fst e, rename_cond g (snd e))) (n_parents n))
    (option_map (rename_cond g) (n_cond n)).
Definition touch_cnode (g : string -> string) (n : cnode) : cnode := mk_cnode (rename_cond g (cn_cond n)) (cn_children n).
Definition touch_dag (g : string -> string) (d : dag) : dag :=
  mk_dag (map (fun e => (fst e, touch_node g (snd e))) (d_nodes d))
    (map (rename_forb g) (d_uforb d)) (map (rename_forb g) (d_cforb d))
    (d_roots d) (d_nonroots d) (map (rename_cond g) (d_conds d))
    (map (touch_cnode g) (d_min d)) (map (fun e => (fst e, map (touch_cnode g) (snd e))) (d_lookup d))
    (d_defaults d) (map (rename_forb g) (d_fast d))
    (map (fun e => (fst e, map (rename_forb g) (snd e))) (d_flookup d))
    (d_index_of d) (d_at d)
    (map (fun e => (fst e, map (rename_hp g) (snd e))) (d_children_of d))
    (map (fun e => (fst e, map (rename_hp g) (snd e))) (d_parents_of d))
    (map (fun e => (fst e, map (rename_cond g) (snd e))) (d_child_conds_of d))
    (map (fun e => (fst e, map (rename_cond g) (snd e))) (d_parent_conds_of d))
    (map (rename_hp g) (d_hps d)).
(** ... and of a space whose equality and membership clauses hold renamed objects *)
Definition touch_clauses (g : string -> string) (d : dag) : dag :=
  mk_dag (d_nodes d) (map (rename_held g) (d_uforb d)) (map (rename_held g) (d_cforb d))
    (d_roots d) (d_nonroots d) (d_conds d) (d_min d) (d_lookup d) (d_defaults d)
    (map (rename_held g) (d_fast d)) (map (fun e => (fst e, map (rename_held g) (snd e))) (d_flookup d))
    (d_index_of d) (d_at d) (d_children_of d) (d_parents_of d) (d_child_conds_of d) (d_parent_conds_of d) (d_hps d).
Definition on_dag (f : dag -> dag) (s : space) : space := mk_space (f (s_dag s)) (s_len s).

Section Subspace.
  Context {E : Env}.

  (** conditions.py:152-157, 347-352, 422-423: copies are made by the constructors *)
  Definition copy_lit (l : lit) : res cond :=
    match l_test l with
    | TBin o v _ => mk_bin o (l_child l) (l_parent l) v
    | TIn vs _ => mk_in (l_child l) (l_parent l) vs
    end.
  Fixpoint copy_cond (c : cond) : res cond :=
    match c with
    | CLit l => copy_lit l
    | CAnd cs => xs <- mapM copy_cond cs ;; mk_and xs
    | COr cs => xs <- mapM copy_cond cs ;; mk_or xs
    end.
  (** forbidden.py:171-172, 253-254, 362-363, 454-455 *)
  Fixpoint copy_forb (f : fclause) : res fclause :=
    match f with
    | FEq h v _ => mk_feq h v
    | FIn h vs _ => mk_fin h vs
    | FRel r a b => mk_frel r a b
    | FAnd fs => xs <- mapM copy_forb fs ;; mk_fand xs
    end.

  (** configuration_space.py:433-439: hyperparameters among [hs] without parents in [t] *)
  Definition root_params (t : space) (hs : list hp) : list hp :=
    filter (fun h => match assoc (hp_name h) (parents_of t) with Some [] => true | _ => false end) hs.

  (** What a call leaves behind: the target, the source, the names in the target of the objects of
      the source that its clauses hold, and the exception raised, if any. *)
  Record outcome := mk_outcome { o_target : space; o_source : space; o_held : list string; o_res : res unit }.

  (** configuration_space.py:353-448; [parent] is the pair of "parent" and "value".  [_new_name] is
      idempotent (new_name_idem below), so that objects reached repeatedly get the same name. *)
  Definition add_sub (lk : list string) (t s : space) (prefix delim : string) (parent : option (hp * value)) : outcome :=
    let nn := new_name prefix delim in
    let hs := map (rename_hp nn) (hps s) in
    match mapM copy_cond (conditions s) with
    | Err e => mk_outcome t s lk (Err e)
    | Ok cs0 =>
    match mapM copy_forb (forbidden_clauses s) with
    | Err e => mk_outcome t s lk (Err e)
    | Ok fs0 =>
        let cs := map (rename_cond nn) cs0 in
        let fs := map (rename_forb nn) fs0 in
        let held := concat (map held_names (forbidden_clauses s)) in
        let s1 := on_dag (touch_dag (only held nn)) s in
        let t1 := on_dag (touch_clauses (only lk (only held nn))) t in
        let lk1 := map nn held ++ map (only held nn) lk in
        let (t2, r) := add t1 hs cs fs in
        match r, parent with
        | Err e, _ => mk_outcome t2 s1 lk1 (Err e)
        | Ok _, None => mk_outcome t2 s1 lk1 (Ok tt)
        | Ok _, Some (p, v) =>
            match mapM (fun h => mk_bin OpEq h p v) (root_params t2 hs) with
            | Err e => mk_outcome t2 s1 lk1 (Err e)
            | Ok [] => mk_outcome t2 s1 lk1 (Ok tt)
            | Ok cs2 => let (t3, r3) := add t2 [] cs2 [] in mk_outcome t3 s1 lk1 r3
            end
        end
    end
    end.
End Subspace.
