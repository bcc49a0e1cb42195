(** * The graph of hyperparameters: src/ConfigSpace/_condition_tree.py

    HPNode objects reference each other; here a node stores the names of its children and parents
    and the objects are found through the dictionary of nodes.  The list [forbiddens] of a node
    (_condition_tree.py:182, 505-526) is never read by the library and is left out. *)
From Coq Require Import String List ZArith QArith Bool Lia.
From Verif Require Import Base Numeric HP Cond Forb.
Import ListNotations.
Open Scope nat_scope.

(** _condition_tree.py:154-201 HPNode; [idx] is the position in the committed order *)
Record node := mk_node {
  n_hp : hp;
  n_depth : nat;
  n_children : list (string * cond);
  n_parents : list (string * cond);
  n_cond : option cond
}.

Definition nodes_t := list (string * node).

Definition set_depth (d : nat) (n : node) : node :=
  mk_node (n_hp n) d (n_children n) (n_parents n) (n_cond n).
Definition set_children (c : list (string * cond)) (n : node) : node :=
  mk_node (n_hp n) (n_depth n) c (n_parents n) (n_cond n).
Definition set_parents (p : list (string * cond)) (n : node) : node :=
  mk_node (n_hp n) (n_depth n) (n_children n) p (n_cond n).
Definition set_cond (c : cond) (n : node) : node :=
  mk_node (n_hp n) (n_depth n) (n_children n) (n_parents n) (Some c).

(** apply a change to the node with a name (an attribute assignment on the node object) *)
Definition upd_node (name : string) (f : node -> node) (ns : nodes_t) : nodes_t :=
  map (fun e => if String.eqb name (fst e) then (fst e, f (snd e)) else e) ns.

(** maximum_depth of the node with this name *)
Definition depth_of (ns : nodes_t) (name : string) : nat :=
  match assoc name ns with Some n => n_depth n | None => 0 end.

(** names of the children of a node, in dictionary order *)
Definition children_names (ns : nodes_t) (name : string) : list string :=
  match assoc name ns with Some n => map fst (n_children n) | None => [] end.

(** _condition_tree.py:203-237 ordering of nodes: (maximum_depth, name) *)
Definition key_ltb (a b : nat * string) : bool :=
  (Nat.ltb (fst a) (fst b) || (Nat.eqb (fst a) (fst b) && String.ltb (snd a) (snd b)))%bool.
Definition entry_ltb (a b : string * node) : bool :=
  key_ltb (n_depth (snd a), fst a) (n_depth (snd b), fst b).

Section FoldM.
  Context {A B : Type}.
  Definition foldM (f : B -> A -> res B) : list A -> B -> res B :=
    fix go l acc := match l with
                    | [] => Ok acc
                    | x :: l' => acc' <- f acc x ;; go l' acc'
                    end.
End FoldM.

(** _condition_tree.py:256-265 propogate_new_depth; fuel bounds the recursion depth (Python's
    RecursionError) *)
Fixpoint propagate (fuel : nat) (ns : nodes_t) (name : string) (d : nat) : res nodes_t :=
  match fuel with
  | O => Err OutOfFuel
  | S fuel' =>
      match assoc name ns with
      | None => Err KeyError
      | Some n =>
          if Nat.leb d (n_depth n) then Ok ns
          else foldM (fun ns' c => propagate fuel' ns' (fst c) (S d)) (n_children n)
                     (upd_node name (set_depth d) ns)
      end
  end.

(** _condition_tree.py:885-906, the while loop; the fringe is kept with its last element first *)
Fixpoint cyc_loop (fuel : nat) (ns : nodes_t) (seen explored fringe : list string)
  : res (list string * list string) :=
  match fringe with
  | [] => Ok (seen, explored)
  | w :: rest =>
      match fuel with
      | O => Err OutOfFuel
      | S fuel' =>
          if str_in w explored then cyc_loop fuel' ns seen explored rest
          else
            let seen' := w :: seen in
            let cs := children_names ns w in
            if existsb (fun c => negb (str_in c explored) && str_in c seen')%bool cs
            then Err CyclicDependancyError
            else
              match filter (fun c => negb (str_in c explored)) cs with
              | [] => cyc_loop fuel' ns seen' (w :: explored) rest
              | new => cyc_loop fuel' ns seen' explored (rev new ++ fringe)
              end
      end
  end.

(** number of nodes plus number of edges, plus one *)
Definition cyc_fuel (ns : nodes_t) : nat :=
  S (length ns + list_sum (map (fun e => length (n_children (snd e))) ns)).

(** _condition_tree.py:878-906 *)
Definition check_cyclic (ns : nodes_t) : res unit :=
  r <- foldM (fun se name =>
         if str_in name (snd se) then Ok se
         else cyc_loop (cyc_fuel ns) ns (fst se) (snd se) [name])
       (assoc_keys ns) ([], []) ;;
  Ok tt.

(** dict rebuilt in the order of the nodes: _condition_tree.py:722-727 *)
Definition sort_links (ns : nodes_t) (l : list (string * cond)) : list (string * cond) :=
  py_sorted (fun a b => key_ltb (depth_of ns (fst a), fst a) (depth_of ns (fst b), fst b)) l.

(** _condition_tree.py:694-727, the loop over the parents. The state reached is returned also when
    an exception is raised. *)
Fixpoint add_edges (c : cond) (child : string) (ps : list string) (ns : nodes_t)
  : nodes_t * res unit :=
  match ps with
  | [] => (ns, Ok tt)
  | p :: ps' =>
      match assoc p ns with
      | None => (ns, Err ParentNotFoundError)
      | Some pn =>
          if match assoc child (n_children pn) with
             | Some c' => negb (cond_eqb c c')
             | None => false
             end
          then (ns, Err AmbiguousConditionError)
          else
            let ns1 := upd_node p (fun n => set_children (assoc_set child c (n_children n)) n) ns in
            let ns2 := upd_node child
                         (fun n => set_cond c (set_parents (assoc_set p c (n_parents n)) n)) ns1 in
            match check_cyclic ns2 with
            | Err e => (ns2, Err e)
            | Ok _ =>
                match propagate (S (length ns2)) ns2 child (S (depth_of ns2 p)) with
                | Err e => (ns2, Err e)
                | Ok ns3 =>
                    let ns4 := upd_node p (fun n => set_children (sort_links ns3 (n_children n)) n) ns3 in
                    let ns5 := upd_node child
                                 (fun n => set_parents (sort_links ns3 (n_parents n)) n) ns4 in
                    add_edges c child ps' ns5
                end
            end
      end
  end.

(** _condition_tree.py:661-727 add_condition *)
Definition add_condition (ns : nodes_t) (c : cond) : nodes_t * res unit :=
  match cond_child c with
  | None => (ns, Err IndexError)   (* a conjunction without literals cannot be constructed *)
  | Some ch =>
      match assoc (hp_name ch) ns with
      | None => (ns, Err ChildNotFoundError)
      | Some cn =>
          if match n_cond cn with Some c' => negb (cond_eqb c c') | None => false end
          then (ns, Err AmbiguousConditionError)
          else add_edges c (hp_name ch) (cond_parents c) ns
      end
  end.

(** _condition_tree.py:70-107 ConditionNode: its condition and the vector indices of the
    hyperparameters it activates *)
Record cnode := mk_cnode { cn_cond : cond; cn_children : list nat }.

(** _condition_tree.py:269-438 DAG *)
Record dag := mk_dag {
  d_nodes : nodes_t;
  d_uforb : list fclause;
  d_cforb : list fclause;
  d_roots : list string;
  d_nonroots : list string;
  d_conds : list cond;
  d_min : list cnode;
  d_lookup : list (string * list cnode);
  d_defaults : list fval;
  d_fast : list fclause;
  d_flookup : list (string * list fclause);
  d_index_of : list (string * nat);
  d_at : list string;
  d_children_of : list (string * list hp);
  d_parents_of : list (string * list hp);
  d_child_conds_of : list (string * list cond);
  d_parent_conds_of : list (string * list cond);
  d_hps : list hp
}.

Definition empty_dag : dag :=
  mk_dag [] [] [] [] [] [] [] [] [] [] [] [] [] [] [] [] [] [].

Definition set_nodes (ns : nodes_t) (d : dag) : dag :=
  mk_dag ns (d_uforb d) (d_cforb d) (d_roots d) (d_nonroots d) (d_conds d) (d_min d) (d_lookup d)
    (d_defaults d) (d_fast d) (d_flookup d) (d_index_of d) (d_at d) (d_children_of d) (d_parents_of d)
    (d_child_conds_of d) (d_parent_conds_of d) (d_hps d).
Definition set_roots (r : list string) (d : dag) : dag :=
  mk_dag (d_nodes d) (d_uforb d) (d_cforb d) r (d_nonroots d) (d_conds d) (d_min d) (d_lookup d)
    (d_defaults d) (d_fast d) (d_flookup d) (d_index_of d) (d_at d) (d_children_of d) (d_parents_of d)
    (d_child_conds_of d) (d_parent_conds_of d) (d_hps d).
Definition set_forbs (u c : list fclause) (d : dag) : dag :=
  mk_dag (d_nodes d) u c (d_roots d) (d_nonroots d) (d_conds d) (d_min d) (d_lookup d)
    (d_defaults d) (d_fast d) (d_flookup d) (d_index_of d) (d_at d) (d_children_of d) (d_parents_of d)
    (d_child_conds_of d) (d_parent_conds_of d) (d_hps d).

(** _condition_tree.py:635-638 *)
Definition d_forbs (d : dag) : list fclause := d_uforb d ++ d_cforb d.

(** _condition_tree.py:640-659 add *)
Definition dag_add (d : dag) (h : hp) : dag * res unit :=
  if assoc_mem (hp_name h) (d_nodes d) then (d, Err HyperparameterAlreadyExistsError)
  else (set_roots (d_roots d ++ [hp_name h])
          (set_nodes (d_nodes d ++ [(hp_name h, mk_node h 1 [] [] None)]) d), Ok tt).

Definition dag_add_condition (d : dag) (c : cond) : dag * res unit :=
  let (ns, r) := add_condition (d_nodes d) c in (set_nodes ns d, r).

(** _condition_tree.py:765-778 *)
Definition is_unconditional (roots : list string) (f : fclause) : bool :=
  forallb (fun n => str_in n roots) (forb_names f).

(** _condition_tree.py:729-763 add_forbidden *)
Definition dag_add_forbidden (d : dag) (f : fclause) : dag * res unit :=
  if forallb (fun n => assoc_mem n (d_nodes d)) (forb_names f) then
    if is_unconditional (d_roots d) f
    then (set_forbs (d_uforb d ++ [f]) (d_cforb d) d, Ok tt)
    else (set_forbs (d_uforb d) (d_cforb d ++ [f]) d, Ok tt)
  else (d, Err HyperparameterNotFoundError).

(** ** Commit: _condition_tree.py:461-633, the end of update() *)

(** unique_everseen(..., key=str) *)
Fixpoint unique_by {A} (key : A -> string) (seen : list string) (l : list A) : list A :=
  match l with
  | [] => []
  | x :: l' => if str_in (key x) seen then unique_by key seen l'
               else x :: unique_by key (key x :: seen) l'
  end.

(** an equals clause of a forbidden conjunction: hyperparameter, value, vector value *)
Definition eqc := (hp * value * fval)%type.
Definition eqc_name (c : eqc) : string := hp_name (fst (fst c)).
Definition eqc_clause (c : eqc) : fclause := FEq (fst (fst c)) (snd (fst c)) (snd c).

(** isinstance(f, ForbiddenAndConjunction) and all(isinstance(c, ForbiddenEqualsClause) ...) *)
Fixpoint all_eqc (cs : list fclause) : option (list eqc) :=
  match cs with
  | [] => Some []
  | FEq h v vv :: cs' => option_map (cons (h, v, vv)) (all_eqc cs')
  | _ :: _ => None
  end.
Definition and_parts (f : fclause) : option (list eqc) :=
  match f with FAnd cs => all_eqc cs | _ => None end.

Definition idx_of (io : list (string * nat)) (n : string) : nat :=
  match assoc n io with Some i => i | None => 0 end.

(** [*firsts, last = l] *)
Fixpoint split_last {A} (l : list A) : option (list A * A) :=
  match l with
  | [] => None
  | [x] => Some ([], x)
  | x :: l' => option_map (fun p => (x :: fst p, snd p)) (split_last l')
  end.

(** joint_key equality: name of the last, and (name, vector_value) of the firsts *)
Definition key_part_eqb (a b : eqc) : bool :=
  (String.eqb (eqc_name a) (eqc_name b) && feqb (snd a) (snd b))%bool.
Definition group := (list eqc * list eqc)%type.   (* firsts, lasts *)
Definition group_matches (firsts : list eqc) (last : eqc) (g : group) : bool :=
  (match snd g with l :: _ => String.eqb (eqc_name last) (eqc_name l) | [] => false end
   && list_eqb key_part_eqb firsts (fst g))%bool.

(** _condition_tree.py:848-858 *)
Fixpoint add_group (firsts : list eqc) (last : eqc) (gs : list group) : list group :=
  match gs with
  | [] => [(firsts, [last])]
  | g :: gs' => if group_matches firsts last g then (fst g, snd g ++ [last]) :: gs'
                else g :: add_group firsts last gs'
  end.

Section Commit.
  Context {E : Env}.

  (** _condition_tree.py:860-874; values merged into one ForbiddenInClause *)
  Definition group_clause (g : group) : res fclause :=
    match snd g with
    | [] => Err IndexError   (* groups are never empty *)
    | [l] => Ok (FAnd (map eqc_clause (fst g) ++ [eqc_clause l]))
    | l :: _ => f <- mk_fin (fst (fst l)) (map (fun c => snd (fst c)) (snd g)) ;;
                Ok (FAnd (map eqc_clause (fst g) ++ [f]))
    end.

  (** _condition_tree.py:821-876 *)
  Definition optimized (io : list (string * nat)) (fs : list fclause) : res (list fclause) :=
    let rest := filter (fun f => match and_parts f with Some _ => false | None => true end) fs in
    let parts := concat (map (fun f => match and_parts f with Some p => [p] | None => [] end) fs) in
    let sorted := map (py_sorted (fun a b => Nat.ltb (idx_of io (eqc_name a)) (idx_of io (eqc_name b))))
                      parts in
    gs <- foldM (fun gs p => match split_last p with
                             | None => Err ValueError   (* empty conjunction: cannot unpack *)
                             | Some (firsts, last) => Ok (add_group firsts last gs)
                             end) sorted [] ;;
    merged <- mapM group_clause gs ;;
    Ok (rest ++ merged).

  (** _condition_tree.py:537-545 _parents *)
  Definition lookup_names (f : fclause) : list string :=
    match f with FAnd _ => nub (forb_names f) | _ => forb_names f end.

  (** d.setdefault(k, []).append(x) *)
  Definition assoc_append {A} (k : string) (x : A) (d : list (string * list A)) : list (string * list A) :=
    match assoc k d with
    | Some l => assoc_set k (l ++ [x]) d
    | None => d ++ [(k, [x])]
    end.

  (** _condition_tree.py:547-555 *)
  Definition forbidden_lookup (fast : list fclause) : list (string * list fclause) :=
    fold_left (fun d f => fold_left (fun d n => assoc_append n f d) (lookup_names f) d) fast [].

  (** _condition_tree.py:790-800: add the node to the first equivalent condition node *)
  Fixpoint add_cnode (c : cond) (i : nat) (cs : list cnode) : list cnode :=
    match cs with
    | [] => [mk_cnode c [i]]
    | a :: cs' => if cond_equiv (cn_cond a) c then mk_cnode (cn_cond a) (cn_children a ++ [i]) :: cs'
                  else a :: add_cnode c i cs'
    end.

  (** _condition_tree.py:780-819 _minimum_conditions, over the nodes with their indices *)
  Fixpoint min_conds (roots : list string) (i : nat) (ns : nodes_t) (acc : list cnode) : res (list cnode) :=
    match ns with
    | [] => Ok acc
    | (name, n) :: ns' =>
        match n_cond n with
        | None => if str_in name roots then min_conds roots (S i) ns' acc else Err AssertionError
        | Some c => min_conds roots (S i) ns' (add_cnode c i acc)
        end
    end.

  (** min(...) over a non-empty list *)
  Definition list_min (l : list nat) : nat :=
    match l with [] => 0 | x :: l' => fold_left Nat.min l' x end.

  (** _condition_tree.py:592-593 shallowest_parent *)
  Definition shallowest (ns : nodes_t) (c : cnode) : nat :=
    list_min (map (depth_of ns) (cond_parents (cn_cond c))).
  Definition sort_cnodes (ns : nodes_t) (l : list cnode) : list cnode :=
    py_sorted (fun a b => Nat.ltb (shallowest ns a) (shallowest ns b)) l.

  (** ** change_hp_lookup: _condition_tree.py:597-633. Condition nodes are identified by their
      position in minimum_conditions; [deps] is the table of their dependants. *)
  Definition cn_at (cns : list cnode) (i : nat) : cnode := nth i cns (mk_cnode (CAnd []) []).

  (** _condition_tree.py:119-124; fuel bounds the recursion depth *)
  Fixpoint dep_names (fuel : nat) (atl : list string) (cns : list cnode) (deps : list (list nat)) (i : nat)
    : list string :=
    match fuel with
    | O => []
    | S f => map (fun k => nth k atl ""%string) (cn_children (cn_at cns i))
             ++ concat (map (dep_names f atl cns deps) (nth i deps []))
    end.

  (** _condition_tree.py:115-117 *)
  Definition depends_on (atl : list string) (cns : list cnode) (deps : list (list nat)) (b a : nat) : bool :=
    existsb (fun p => str_in p (dep_names (S (length cns)) atl cns deps a))
            (cond_parents (cn_cond (cn_at cns b))).

  Definition sort_ids (ns : nodes_t) (cns : list cnode) (l : list nat) : list nat :=
    py_sorted (fun a b => Nat.ltb (shallowest ns (cn_at cns a)) (shallowest ns (cn_at cns b))) l.

  (** one pass over product(values, values): _condition_tree.py:602-611 *)
  Definition dep_pass (ns : nodes_t) (atl : list string) (cns : list cnode) (values : list nat)
      (deps : list (list nat)) (trees : list nat) : list (list nat) * list nat * bool :=
    fold_left (fun st ab =>
      let '(deps, trees, upd) := st in
      let '(a, b) := ab in
      if Nat.eqb a b then st
      else if depends_on atl cns deps b a
      then (set_nth a (sort_ids ns cns (nth a deps [] ++ [b])) deps,
            filter (fun t => negb (Nat.eqb t b)) trees, true)
      else st) (list_prod values values) (deps, trees, false).

  Fixpoint dep_loop (fuel : nat) (ns : nodes_t) (atl : list string) (cns : list cnode)
      (deps : list (list nat)) (trees : list nat) : res (list (list nat) * list nat) :=
    match fuel with
    | O => Err OutOfFuel
    | S f => let '(deps', trees', upd) := dep_pass ns atl cns trees deps trees in
             if upd then dep_loop f ns atl cns deps' trees' else Ok (deps', trees')
    end.

  (** _condition_tree.py:623-631 *)
  Definition lookup_add (ns : nodes_t) (cns : list cnode) (deps : list (list nat)) (t : nat)
      (lk : list (string * list nat)) : list (string * list nat) :=
    fold_left (fun lk p =>
      let new := t :: nth t deps [] in
      match assoc p lk with
      | None => lk ++ [(p, new)]
      | Some l => assoc_set p (sort_ids ns cns (l ++ new)) lk
      end) (cond_parents (cn_cond (cn_at cns t))) lk.

  (** the queue, level by level: _condition_tree.py:619-633 *)
  Fixpoint lookup_levels (fuel : nat) (ns : nodes_t) (cns : list cnode) (deps : list (list nat))
      (level : list nat) (lk : list (string * list nat)) : res (list (string * list nat)) :=
    match level with
    | [] => Ok lk
    | _ => match fuel with
           | O => Err OutOfFuel
           | S f => lookup_levels f ns cns deps (concat (map (fun t => nth t deps []) level))
                      (fold_left (fun lk t => lookup_add ns cns deps t lk) level lk)
           end
    end.

  Definition change_lookup (ns : nodes_t) (atl : list string) (cns : list cnode)
    : res (list (string * list cnode)) :=
    let n := length cns in
    r <- dep_loop (S n) ns atl cns (repeat [] n) (seq 0 n) ;;
    let '(deps, trees) := r in
    lk <- lookup_levels (S n) ns cns deps (sort_ids ns cns trees) [] ;;
    Ok (map (fun e => (fst e, map (cn_at cns) (snd e))) lk).

  (** nodes in the order (depth, name) *)
  Definition sort_nodes (ns : nodes_t) : nodes_t := py_sorted entry_ltb ns.

  Definition forb_ltb (f g : fclause) : bool := String.ltb (forb_str f) (forb_str g).

  Definition hp_named (ns : nodes_t) (n : string) : list hp :=
    match assoc n ns with Some m => [n_hp m] | None => [] end.

  (** hp._normalized_default_value; the constructor has computed it *)
  Definition default_entry (h : hp) : fval :=
    match default_vector h with Ok x => x | Err _ => NaN end.

  (** _condition_tree.py:461-633.  When the merging of forbidden clauses, the assertion in
      _minimum_conditions or the lookup fails, the caches set so far stay. *)
  Definition commit (d : dag) : dag * res unit :=
    let ns := sort_nodes (d_nodes d) in
    let atl := map fst ns in
    let roots := map fst (filter (fun e => Nat.eqb (n_depth (snd e)) 1) ns) in
    let nonroots := map fst (filter (fun e => negb (Nat.eqb (n_depth (snd e)) 1)) ns) in
    let io := combine atl (seq 0 (length atl)) in
    let hps := map (fun e => n_hp (snd e)) ns in
    let fs := py_sorted forb_ltb (d_forbs d) in
    let uf := filter (is_unconditional roots) fs in
    let cf := filter (fun f => negb (is_unconditional roots f)) fs in
    let d1 := mk_dag ns uf cf roots nonroots (d_conds d) (d_min d) (d_lookup d)
                (map default_entry hps) (d_fast d) (d_flookup d) io atl (d_children_of d)
                (d_parents_of d) (d_child_conds_of d) (d_parent_conds_of d) hps in
    match optimized io (uf ++ cf) with
    | Err e => (d1, Err e)
    | Ok fast =>
        let conds := unique_by cond_str []
                       (concat (map (fun e => match n_cond (snd e) with Some c => [c] | None => [] end) ns)) in
        let d2 := mk_dag ns uf cf roots nonroots conds (d_min d) (d_lookup d)
                    (map default_entry hps) fast (forbidden_lookup fast) io atl
                    (map (fun e => (fst e, concat (map (fun c => hp_named ns (fst c)) (n_children (snd e))))) ns)
                    (map (fun e => (fst e, concat (map (fun c => hp_named ns (fst c)) (n_parents (snd e))))) ns)
                    (map (fun e => (fst e, map snd (n_children (snd e)))) ns)
                    (map (fun e => (fst e, match n_cond (snd e) with Some c => [c] | None => [] end)) ns)
                    hps in
        match min_conds roots 0 ns [] with
        | Err e => (d2, Err e)
        | Ok mc =>
            let cns := sort_cnodes ns mc in
            let d3 := mk_dag (d_nodes d2) (d_uforb d2) (d_cforb d2) (d_roots d2) (d_nonroots d2) (d_conds d2)
                        cns (d_lookup d2) (d_defaults d2) (d_fast d2) (d_flookup d2) (d_index_of d2) (d_at d2)
                        (d_children_of d2) (d_parents_of d2) (d_child_conds_of d2) (d_parent_conds_of d2)
                        (d_hps d2) in
            match change_lookup ns atl cns with
            | Err e => (d3, Err e)
            | Ok lk =>
                (mk_dag (d_nodes d3) (d_uforb d3) (d_cforb d3) (d_roots d3) (d_nonroots d3) (d_conds d3)
                   (d_min d3) lk (d_defaults d3) (d_fast d3) (d_flookup d3) (d_index_of d3) (d_at d3)
                   (d_children_of d3) (d_parents_of d3) (d_child_conds_of d3) (d_parent_conds_of d3)
                   (d_hps d3), Ok tt)
            end
        end
    end.

  (** run a list of operations until one raises *)
  Fixpoint run {A} (f : dag -> A -> dag * res unit) (l : list A) (d : dag) : dag * res unit :=
    match l with
    | [] => (d, Ok tt)
    | x :: l' => let (d', r) := f d x in
                 match r with Ok _ => run f l' d' | Err e => (d', Err e) end
    end.

  (** the body and the end of [with self._dag.update()]: configuration_space.py:340-348.
      An exception in the body leaves the with statement before the commit. *)
  Definition dag_update (d : dag) (hps : list hp) (cs : list cond) (fs : list fclause) : dag * res unit :=
    let (d1, r1) := run dag_add hps d in
    match r1 with
    | Err e => (d1, Err e)
    | Ok _ =>
        let (d2, r2) := run dag_add_condition cs d1 in
        match r2 with
        | Err e => (d2, Err e)
        | Ok _ =>
            let (d3, r3) := run dag_add_forbidden fs d2 in
            match r3 with
            | Err e => (d3, Err e)
            | Ok _ => commit d3
            end
        end
    end.
End Commit.
