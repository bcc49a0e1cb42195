(** * Condition and clause objects with the positions they store

    A condition or a forbidden clause does not look its hyperparameters up by name when it is
    evaluated on a vector: it reads the entries at positions that it stores
    (conditions.py:62-74, 159-165, 352-358; forbidden.py:64-68, 164-177, 368-374).  The positions are
    written by set_vector_idx when a space is updated (_condition_tree.py:563-568), into the object
    itself, so an object that was added to two spaces stores the positions of the space that was
    updated last.  Cond.v and Forb.v evaluate by name; here the objects and what they store are
    modelled, and Properties_Alias.v relates the two.

    Every leaf (a comparison, a membership test, a relation) is an object with a number; a conjunction
    stores nothing that evaluation reads.  The child_vector_id and parent_vector_ids are left out:
    checking a configuration does not read them.  The hyperparameters that an object refers to keep
    their names (Subspace.v models the renaming). *)
From Coq Require Import String List Bool Arith.
From Verif Require Import Base Numeric HP Cond Forb Dag Space.
Import ListNotations.

(** ** Objects *)
Inductive lcond :=
| LLit (id : nat) (l : lit)
| LAnd (cs : list lcond)
| LOr (cs : list lcond).

(** [LLeaf] is an equality, membership or relation clause; [LOwn] is the membership clause that a
    space makes for itself (_condition_tree.py:867-870), with the positions that it stores: no one else
    can reach it *)
Inductive lforb :=
| LLeaf (id : nat) (f : fclause)
| LConj (cs : list lforb)
| LOwn (ps : list (string * nat)) (f : fclause).

(** the condition or clause without the identity of its objects *)
Fixpoint lerase (c : lcond) : cond :=
  match c with
  | LLit _ l => CLit l
  | LAnd cs => CAnd (map lerase cs)
  | LOr cs => COr (map lerase cs)
  end.
Fixpoint ferase (f : lforb) : fclause :=
  match f with
  | LLeaf _ f => f
  | LConj cs => FAnd (map ferase cs)
  | LOwn _ f => f
  end.

(** the leaf objects with the names of the hyperparameters whose positions they store *)
Fixpoint cleaves (c : lcond) : list (nat * list string) :=
  match c with
  | LLit i l => [(i, [parent_name l])]
  | LAnd cs => concat (map cleaves cs)
  | LOr cs => concat (map cleaves cs)
  end.
Fixpoint fleaves (f : lforb) : list (nat * list string) :=
  match f with
  | LLeaf i f => [(i, forb_names f)]
  | LConj cs => concat (map fleaves cs)
  | LOwn _ _ => []
  end.

(** what the objects store: the position of each of their hyperparameters; nothing before the first
    set_vector_idx *)
Definition heap := nat -> option (list (string * nat)).

(** hyperparameter_to_idx[name] for the names of the object; every name is in the space *)
Definition positions (io : list (string * nat)) (ns : list string) : list (string * nat) :=
  map (fun n => (n, idx_of io n)) ns.

(** set_vector_idx on a list of leaf objects: conditions.py:67-74, 424-431; forbidden.py:66-68,
    174-179, 267-270 *)
Definition place (io : list (string * nat)) (ls : list (nat * list string)) (H : heap) : heap :=
  fold_left (fun H e i => if Nat.eqb i (fst e) then Some (positions io (snd e)) else H i) ls H.

(** an equals clause object *)
Notation leqc := (nat * eqc)%type.

Section Alias.
  Context {E : Env}.

  (** ** Evaluation at the stored positions *)

  (** vector[None] is a matrix with one row; comparing it and asking for the truth value raises
      ValueError.  A membership test on it is not modelled. *)
  Definition unset (t : test) : err := match t with TBin _ _ _ => ValueError | TIn _ _ => Unmodelled end.

  (** conditions.py:159-161, 352-353, 545-550, 604-605 *)
  Fixpoint osat (H : heap) (v : list fval) (c : lcond) : res bool :=
    match c with
    | LLit i l => match H i with
                  | Some ps => Ok (lit_vec ps v l)
                  | None => Err (unset (l_test l))
                  end
    | LAnd cs => allM (osat H v) cs
    | LOr cs => anyM (osat H v) cs
    end.

  (** forbidden.py:368-370, 459-461, 527-531, 615-622, 686-693, 758-765; a clause that belongs to a
      space stores positions *)
  Fixpoint oforb (H : heap) (v : list fval) (f : lforb) : res bool :=
    match f with
    | LLeaf i f => match H i with
                   | Some ps => forb_vec ps v f
                   | None => Err Unmodelled
                   end
    | LConj cs => allM (oforb H v) cs
    | LOwn ps f => forb_vec ps v f
    end.

  (** ** A space with its objects: the condition object in force for each child, the unconditional and
      the conditional clauses, and the clauses that are checked (fast_forbidden_checks) *)
  Record ospace := mk_ospace {
    o_space : space;
    o_conds : list (string * lcond);
    o_uf : list lforb;
    o_cf : list lforb;
    o_fast : list lforb }.
  Definition empty_o : ospace := mk_ospace empty_space [] [] [] [].

  (** the conditions of the space that are listed, in the order of the hyperparameters; set_vector_idx
      is called on these only: _condition_tree.py:557-568 *)
  Definition olisted (s : space) (m : list (string * lcond)) : list lcond :=
    unique_by (fun c => cond_str (lerase c)) []
      (concat (map (fun n => match assoc n m with Some c => [c] | None => [] end) (keys s))).

  (** the leaf objects that updating the space writes to: _condition_tree.py:563-568 *)
  Definition touched (o : ospace) : list (nat * list string) :=
    concat (map fleaves (o_uf o ++ o_cf o)) ++
    concat (map cleaves (olisted (o_space o) (o_conds o))).

  (** every leaf object that the space holds *)
  Definition held (o : ospace) : list (nat * list string) :=
    concat (map fleaves (o_uf o ++ o_cf o)) ++
    concat (map (fun e => cleaves (snd e)) (o_conds o)).

  (** ** Merging the clauses, as [optimized] in Dag.v: _condition_tree.py:821-876 *)
  Definition leqc_clause (c : leqc) : lforb := LLeaf (fst c) (eqc_clause (snd c)).
  Fixpoint lall_eqc (cs : list lforb) : option (list leqc) :=
    match cs with
    | [] => Some []
    | LLeaf i (FEq h v vv) :: cs' => option_map (cons (i, (h, v, vv))) (lall_eqc cs')
    | _ :: _ => None
    end.
  Definition land_parts (f : lforb) : option (list leqc) :=
    match f with LConj cs => lall_eqc cs | _ => None end.
  Definition lgroup := (list leqc * list leqc)%type.
  Definition gerase (g : lgroup) : group := (map snd (fst g), map snd (snd g)).
  Fixpoint ladd_group (firsts : list leqc) (last : leqc) (gs : list lgroup) : list lgroup :=
    match gs with
    | [] => [(firsts, [last])]
    | g :: gs' => if group_matches (map snd firsts) (snd last) (gerase g) then (fst g, snd g ++ [last]) :: gs'
                  else g :: ladd_group firsts last gs'
    end.
  Definition lgroup_clause (io : list (string * nat)) (g : lgroup) : res lforb :=
    match snd g with
    | [] => Err IndexError
    | [l] => Ok (LConj (map leqc_clause (fst g) ++ [leqc_clause l]))
    | l :: _ => f <- mk_fin (fst (fst (snd l))) (map (fun c => snd (fst (snd c))) (snd g)) ;;
                Ok (LConj (map leqc_clause (fst g) ++ [LOwn (positions io (forb_names f)) f]))
    end.
  Definition loptimized (io : list (string * nat)) (fs : list lforb) : res (list lforb) :=
    let rest := filter (fun f => match land_parts f with Some _ => false | None => true end) fs in
    let parts := concat (map (fun f => match land_parts f with Some p => [p] | None => [] end) fs) in
    let sorted := map (py_sorted (fun a b => Nat.ltb (idx_of io (eqc_name (snd a))) (idx_of io (eqc_name (snd b)))))
                      parts in
    gs <- foldM (fun gs p => match split_last p with
                             | None => Err ValueError
                             | Some (firsts, last) => Ok (ladd_group firsts last gs)
                             end) sorted [] ;;
    merged <- mapM (lgroup_clause io) gs ;;
    Ok (rest ++ merged).

  (** ** Checking a configuration: util.py:570-614, as [check_configuration] in Space.v *)
  Definition cnode_check (s : space) (v : list fval) (allow : bool) (cn : cnode) (b : bool) : res unit :=
    let activated i := isfinite (nth i v NaN) in
    if b then
      check forallb activated (cn_children cn) or ActiveHyperparameterNotSetError ;;
      check forallb (fun i => match hp_at s i with Some h => legal_vector h (nth i v NaN) | None => false end)
              (cn_children cn) or IllegalVectorizedValueError ;;
      Ok tt
    else if allow then Ok tt
    else
      match find activated (cn_children cn) with
      | None => Ok tt
      | Some i => match hp_at s i with
                  | None => Err IndexError
                  | Some h => _ <- to_value h (nth i v NaN) ;; Err InactiveHyperparameterSetError
                  end
      end.

  (** a condition node holds the condition object of its first child (_condition_tree.py:790-803) *)
  Definition cnode_object (o : ospace) (cn : cnode) : option lcond :=
    match cond_child (cn_cond cn) with
    | Some h => assoc (hp_name h) (o_conds o)
    | None => None
    end.
  Definition ocheck_cnode (H : heap) (o : ospace) (v : list fval) (allow : bool) (cn : cnode) : res unit :=
    match cnode_object o cn with
    | None => Err KeyError
    | Some c => b <- osat H v c ;; cnode_check (o_space o) v allow cn b
    end.
  Definition ocheck (H : heap) (o : ospace) (v : list fval) (allow : bool) : res unit :=
    let s := o_space o in
    check forallb (fun n => match assoc n (index_of s) with
                            | Some i => isfinite (nth i v NaN)
                            | None => false
                            end) (d_roots (s_dag s)) or ActiveHyperparameterNotSetError ;;
    _ <- mapM (ocheck_cnode H o v allow) (d_min (s_dag s)) ;;
    b <- anyM (oforb H v) (o_fast o) ;;
    if b : bool then Err ForbiddenValueError else Ok tt.

  (** configuration.py:44-131 and configuration_space.py:889-915, as in Space.v *)
  Definition oconfig_of_values (H : heap) (o : ospace) (vals : list (string * option value)) (allow : bool)
    : res config :=
    let s := o_space o in
    check negb (existsb (fun k => (negb (str_in k (keys s)) && negb (String.eqb k ""))%bool)
                        (map fst vals)) or ValueError ;;
    r <- fill s vals (items s) (repeat NaN (s_len s)) [] ;;
    _ <- ocheck H o (fst r) allow ;;
    Ok (mk_config (fst r) (Some (snd r)) allow).
  Definition odefault (H : heap) (o : ospace) : res config :=
    vals <- default_values (o_space o) (items (o_space o)) [] ;;
    oconfig_of_values H o vals false.

  (** ** Adding: configuration_space.py:289-351 *)

  (** child.parent_condition = condition: _condition_tree.py:661-727 *)
  Definition put_cond (m : list (string * lcond)) (c : lcond) : list (string * lcond) :=
    match cond_child (lerase c) with Some h => assoc_set (hp_name h) c m | None => m end.

  (** _condition_tree.py:729-763 *)
  Definition put_forb (roots : list string) (uc : list lforb * list lforb) (f : lforb) : list lforb * list lforb :=
    if is_unconditional roots (ferase f) then (fst uc ++ [f], snd uc) else (fst uc, snd uc ++ [f]).

  (** The objects after a successful update, before the default configuration is checked.  [None] when
      the merging of the clauses raises, and then [dag_update] raises. *)
  Definition oupdate (o : ospace) (d : dag) (hs : list hp) (cs : list lcond) (fs : list lforb) : res ospace :=
    let roots := d_roots (s_dag (o_space o)) ++ map hp_name hs in
    let uc := fold_left (put_forb roots) fs (o_uf o, o_cf o) in
    let l := py_sorted (fun f g => forb_ltb (ferase f) (ferase g)) (fst uc ++ snd uc) in
    let uf := filter (fun f => is_unconditional (d_roots d) (ferase f)) l in
    let cf := filter (fun f => negb (is_unconditional (d_roots d) (ferase f))) l in
    fast <- loptimized (d_index_of d) (uf ++ cf) ;;
    Ok (mk_ospace (mk_space d (length (d_nodes d))) (fold_left put_cond cs (o_conds o)) uf cf fast).

  (** When the update raises, nothing is written to the objects; an update that raises while it
      computes the tables may have written to some of them, which is not modelled.  The positions are
      written before the default configuration is checked. *)
  Definition oadd (H : heap) (o : ospace) (hs : list hp) (cs : list lcond) (fs : list lforb)
    : heap * ospace * res unit :=
    let (d, r) := dag_update (s_dag (o_space o)) hs (map lerase cs) (map ferase fs) in
    let failed e := (H, mk_ospace (mk_space d (s_len (o_space o))) (o_conds o) (o_uf o) (o_cf o) (o_fast o), Err e) in
    match r with
    | Err e => failed e
    | Ok _ =>
        match oupdate o d hs cs fs with
        | Err e => failed e
        | Ok o' =>
            let H' := place (d_index_of d) (touched o') H in
            match odefault H' o' with
            | Err e => (H', o', Err e)
            | Ok _ => (H', o', Ok tt)
            end
        end
    end.
End Alias.
