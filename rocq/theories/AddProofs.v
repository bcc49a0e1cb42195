(** * Outcomes of add() *)
From Coq Require Import String List ZArith QArith Bool Lia Permutation Relations Sorting.Sorted.
From Verif Require Import Base ListFacts Numeric HP HPProofs Cond Forb EqFacts Dag DagCycle DagProofs Space
  CommitProofs Spec SpaceProofs CnodeProofs ForbProofs.
Import ListNotations.
Open Scope nat_scope.

Section Clean.
  Context {E : Env} {L : EnvLaws E}.

  Lemma clean_ok {A} (a : A) : clean (Ok a).
  Proof. intros e H. discriminate. Qed.
  Lemma clean_err {A} e : decl_err e = false -> clean (@Err A e).
  Proof. intros H e' [= <-]. exact H. Qed.
  Lemma clean_bind {A B} (r : res A) (f : A -> res B) : clean r -> (forall a, r = Ok a -> clean (f a)) -> clean (bind r f).
  Proof. intros H1 H2. destruct r; simpl; [apply H2; reflexivity|]. intros e' [= <-]. apply H1. reflexivity. Qed.
  Lemma clean_if {A} (b : bool) (r r' : res A) : clean r -> clean r' -> clean (if b then r else r').
  Proof. destruct b; auto. Qed.
  Lemma clean_mapM {A B} (f : A -> res B) l : (forall x, In x l -> clean (f x)) -> clean (mapM f l).
  Proof.
    induction l as [|x l IH]; simpl; intros H; [apply clean_ok|]. apply clean_bind; [apply H; auto|]. intros y _.
    apply clean_bind; [apply IH; auto|]. intros. apply clean_ok.
  Qed.
  Lemma clean_allM {A} (f : A -> res bool) l : (forall x, In x l -> clean (f x)) -> clean (allM f l).
  Proof.
    induction l as [|x l IH]; simpl; intros H; [apply clean_ok|]. apply clean_bind; [apply H; auto|]. intros y _.
    apply clean_if; [apply IH; auto|apply clean_ok].
  Qed.
  Lemma clean_anyM {A} (f : A -> res bool) l : (forall x, In x l -> clean (f x)) -> clean (anyM f l).
  Proof.
    induction l as [|x l IH]; simpl; intros H; [apply clean_ok|]. apply clean_bind; [apply H; auto|]. intros y _.
    apply clean_if; [apply clean_ok|apply IH; auto].
  Qed.
  Lemma clean_foldM {A B} (f : B -> A -> res B) l : (forall b x, clean (f b x)) -> forall b, clean (foldM f l b).
  Proof.
    intros H. induction l as [|x l IH]; intros b; simpl; [apply clean_ok|]. apply clean_bind; [apply H|]. intros b' _. apply IH.
  Qed.

  Ltac cl := repeat match goal with
    | |- clean (Ok _) => apply clean_ok
    | |- clean (Err _) => apply clean_err; reflexivity
    | |- clean (bind _ _) => apply clean_bind; [|intros]
    | |- clean (match ?x with _ => _ end) => destruct x
    end.

  Lemma clean_to_value h x : clean (to_value h x).
  Proof. unfold to_value, np_index. cl. Qed.
  Lemma clean_to_vector h x : clean (to_vector h x).
  Proof. unfold to_vector. cl. Qed.
  Lemma clean_mk_fin h vs : clean (mk_fin h vs).
  Proof. unfold mk_fin. cl. apply clean_mapM. intros. apply clean_to_vector. Qed.
  Lemma clean_group_clause g : clean (group_clause g).
  Proof. unfold group_clause. cl. apply clean_mk_fin. Qed.
  Lemma clean_optimized io fs : clean (optimized io fs).
  Proof.
    rewrite optimized_unfold. cl.
    - apply clean_foldM. intros. unfold group_step. cl.
    - apply clean_mapM. intros. apply clean_group_clause.
  Qed.
  Lemma clean_min_conds roots ns : forall i acc, clean (min_conds roots i ns acc).
  Proof. induction ns as [|[n nd] ns IH]; intros i acc; simpl; cl; apply IH. Qed.
  Lemma clean_dep_loop f ns atl cns : forall deps trees, clean (dep_loop f ns atl cns deps trees).
  Proof.
    induction f as [|f IH]; intros deps trees; [apply clean_err; reflexivity|]. cbn [dep_loop].
    destruct (dep_pass ns atl cns trees deps trees) as [[d t] u]. cl. apply IH.
  Qed.
  Lemma clean_lookup_levels f ns cns deps : forall level lk, clean (lookup_levels f ns cns deps level lk).
  Proof. induction f as [|f IH]; intros [|x level] lk; simpl; cl. apply IH. Qed.
  Lemma clean_change_lookup ns atl cns : clean (change_lookup ns atl cns).
  Proof.
    unfold change_lookup. cl.
    - apply clean_dep_loop.
    - apply clean_lookup_levels.
  Qed.
  Lemma clean_commit d : clean (snd (commit d)).
  Proof.
    unfold commit. cbv zeta. destruct (optimized _ _) as [fast|e] eqn:Eo.
    2: { apply clean_err. apply (clean_optimized _ _ _ Eo). }
    destruct (min_conds _ _ _ _) as [mc|e] eqn:Em.
    2: { apply clean_err. apply (clean_min_conds _ _ _ _ _ Em). }
    destruct (change_lookup _ _ _) as [lk|e] eqn:El.
    2: { apply clean_err. apply (clean_change_lookup _ _ _ _ El). }
    apply clean_ok.
  Qed.

  Lemma clean_rel_val r a b : clean (rel_val r a b).
  Proof. unfold rel_val. cl. Qed.
  Lemma clean_forb_vec io v f : clean (forb_vec io v f).
  Proof.
    induction f as [h w vv|h vs vvs|r a b|cs IH] using fclause_ind'; simpl; cl.
    - unfold rel_vec. cl; [apply clean_to_value|apply clean_to_value|apply clean_rel_val].
    - apply clean_allM. rewrite Forall_forall in IH. exact IH.
  Qed.
  Lemma clean_check_forb io v fs : clean (check_forb io v fs).
  Proof. unfold check_forb. cl. apply clean_anyM. intros. apply clean_forb_vec. Qed.
  Lemma clean_check_cnode s v allow cn : clean (check_cnode s v allow cn).
  Proof. unfold check_cnode. cl. apply clean_to_value. Qed.
  Lemma clean_check_configuration s v allow : clean (check_configuration s v allow).
  Proof.
    unfold check_configuration. cl.
    - apply clean_mapM. intros. apply clean_check_cnode.
    - apply clean_check_forb.
  Qed.
  Lemma clean_fill s vals its : forall vec cache, clean (fill s vals its vec cache).
  Proof.
    induction its as [|[k h] its IH]; intros vec cache; simpl; cl; first [apply IH|apply clean_to_vector].
  Qed.
  Lemma clean_config_of_values s vals allow : clean (config_of_values s vals allow).
  Proof. unfold config_of_values. cl; [apply clean_fill|apply clean_check_configuration]. Qed.
  Lemma clean_sat_value d c : clean (sat_value d c).
  Proof.
    induction c as [l|cs IH|cs IH] using cond_ind'; simpl.
    - unfold lit_value. cl; first [apply clean_to_vector|unfold op_val; cl].
    - apply clean_allM. rewrite Forall_forall in IH. exact IH.
    - apply clean_anyM. rewrite Forall_forall in IH. exact IH.
  Qed.
  Lemma clean_default_values s its : forall vals, clean (default_values s its vals).
  Proof.
    induction its as [|[n h] its IH]; intros vals; simpl; cl; [|apply IH].
    apply clean_mapM. intros. cl. apply clean_sat_value.
  Qed.
  Lemma clean_default s : clean (check_default_configuration s).
  Proof. unfold check_default_configuration. cl; [apply clean_default_values|apply clean_config_of_values]. Qed.
End Clean.

Section Add.
  Context {E : Env} {L : EnvLaws E}.

  (** ** The commit cannot fail when the clauses refer to the hyperparameters of the space *)
  Lemma Forall_perm {A} (P : A -> Prop) l m : Permutation l m -> Forall P l -> Forall P m.
  Proof. intros H F. rewrite Forall_forall in *. intros x Hx. apply F. eapply Permutation_in; [symmetry; exact H|exact Hx]. Qed.

  Lemma commit_total d hs cs fs : dag_inv d hs cs fs ->
    (forall f, In f fs -> forb_refs hs f) -> ~ In (FAnd []) fs -> exists d', commit d = (d', Ok tt).
  Proof.
    intros I HR HN. unfold commit. cbv zeta. set (ns := sort_nodes (d_nodes d)).
    set (roots := map fst (filter (fun e => Nat.eqb (n_depth (snd e)) 1) ns)).
    set (srt := py_sorted forb_ltb (d_forbs d)).
    assert (G : graph_ok (d_nodes d)) by apply I.
    assert (P : Permutation (d_nodes d) ns) by (symmetry; apply sort_nodes_perm).
    assert (G' : graph_ok ns) by (eapply graph_ok_perm; eauto).
    assert (Pf : Permutation (filter (is_unconditional roots) srt ++ filter (fun f => negb (is_unconditional roots f)) srt) fs).
    { rewrite filter_split_perm. unfold srt. rewrite py_sorted_perm. apply I. }
    assert (ND : NoDup (map hp_name hs)).
    { eapply Permutation_NoDup; [apply Permutation_map; apply I|]. rewrite <- node_keys_hps by exact G. apply (co_nodup _ (g_core _ G)). }
    destruct (optimized_spec (combine (map fst ns) (seq 0 (length (map fst ns)))) _ hs ND (Forall_perm _ _ _ (Permutation_sym Pf)
      (proj2 (proj2 (di_built _ _ _ _ I))))) as (fast & -> & _).
    { intros f Hf. apply HR. eapply Permutation_in; [exact Pf|exact Hf]. }
    { intros Hf. apply HN. eapply Permutation_in; [exact Pf|exact Hf]. }
    destruct (min_conds_spec roots ns) as (mc & -> & Fm & _).
    - intros i c. apply graph_cond_wf. exact G'.
    - intros [x nd] Hin Hc. simpl in *. unfold roots. apply in_map_iff. exists (x, nd). split; [reflexivity|].
      apply filter_In. split; [exact Hin|]. simpl. apply Nat.eqb_eq.
      apply (graph_depth_root ns x nd G'); [|exact Hc]. apply In_assoc; [apply (co_nodup _ (g_core _ G'))|exact Hin].
    - destruct (change_lookup_total ns (sort_cnodes ns mc) G') as (lk & ->).
      + eapply Forall_perm; [symmetry; apply py_sorted_perm|exact Fm].
      + eexists. reflexivity.
  Qed.

  (** ** add() of one condition *)
  Lemma add_eq s hs' cs' fs' : add s hs' cs' fs' =
    let (d, r) := dag_update (s_dag s) hs' cs' fs' in
    match r with
    | Err e => (mk_space d (s_len s), Err e)
    | Ok _ => let s' := mk_space d (length (d_nodes d)) in
              match check_default_configuration s' with Err e => (s', Err e) | Ok _ => (s', Ok tt) end
    end.
  Proof. reflexivity. Qed.

  (** outcome of adding one condition to a built space *)
  Inductive add1_outcome (s : space) (cs : list cond) (c : cond) (child : string) : res unit -> Prop :=
  | A1_child : ~ In child (keys s) -> add1_outcome s cs c child (Err ChildNotFoundError)
  | A1_ambiguous c' : In child (keys s) -> In c' cs -> activates c' child -> cond_eqb c c' = false ->
      add1_outcome s cs c child (Err AmbiguousConditionError)
  | A1_parent p : In child (keys s) -> (forall c', In c' cs -> activates c' child -> cond_eqb c c' = true) ->
      In p (cond_parents c) -> ~ In p (keys s) -> add1_outcome s cs c child (Err ParentNotFoundError)
  | A1_cyclic : In child (keys s) -> (forall c', In c' cs -> activates c' child -> cond_eqb c c' = true) ->
      ~ no_cycle (cs ++ [c]) -> add1_outcome s cs c child (Err CyclicDependancyError)
  | A1_other r : clean r -> In child (keys s) ->
      (forall c', In c' cs -> activates c' child -> cond_eqb c c' = true) ->
      (forall p, In p (cond_parents c) -> In p (keys s)) -> no_cycle (cs ++ [c]) -> add1_outcome s cs c child r.

  Lemma add1_spec s hs cs fs c child : space_ok s hs cs fs -> cond_built c -> activates c child ->
    add1_outcome s cs c child (snd (add s [] [c] [])).
  Proof.
    intros O C A. assert (G := so_graph O).
    assert (AC := add_condition_spec (d_nodes (s_dag s)) c child G (cond_built_wf c C) A).
    assert (Hcomp : (forall c', condof (d_nodes (s_dag s)) child = Some c' -> cond_eqb c c' = true) ->
      forall c', In c' cs -> activates c' child -> cond_eqb c c' = true).
    { intros H c' Hc Ha. destruct (so_declared O child c' Hc Ha) as (c0 & H0 & H1). specialize (H c0 H0).
      destruct (so_condof_in O _ _ H0) as [Hin0 _].
      eapply cond_eqb_trans; [| | |exact H|exact H1]; apply cond_built_wf; auto; eapply so_cond_built; eauto. }
    assert (Hr : forall x y, plus_edges (edge (d_nodes (s_dag s))) (cond_parents c) child x y <-> reads (cs ++ [c]) x y).
    { intros x y. unfold plus_edges. rewrite (so_edge O). split.
      - intros [(c0 & H1 & H2 & H3)|[H1 ->]]; [exists c0|exists c]; rewrite in_app_iff; simpl; auto.
      - intros (c0 & H1 & H2 & H3). apply in_app_iff in H1. destruct H1 as [H1|[<-|[]]]; [left; exists c0; auto|].
        right. split; [exact H3|]. unfold activates in *. congruence. }
    assert (Hac : acyclic (plus_edges (edge (d_nodes (s_dag s))) (cond_parents c) child) <-> no_cycle (cs ++ [c])).
    { apply (acyclic_iff _ _ Hr). }
    rewrite add_eq. unfold dag_update. cbn [run]. unfold dag_add_condition.
    inversion AC as [Hn He|c' Hin Hc Hq He|ns' p Hin Hc Hp Hn He|ns' Hin Hc Hn He|ns' Hin Hc Hp Ha G' Hk Hh Hcd Hed He];
      cbn [snd fst].
    - apply A1_child. exact Hn.
    - destruct (so_condof_in O _ _ Hc) as [H1 H2]. eapply A1_ambiguous; eauto.
    - eapply A1_parent; eauto.
    - apply A1_cyclic; auto. rewrite <- Hac. exact Hn.
    - apply A1_other; auto; [|rewrite <- Hac; exact Ha].
      pose proof (clean_commit (set_nodes ns' (s_dag s))) as Cl.
      destruct (commit (set_nodes ns' (s_dag s))) as [d [[]|e]]; cbn [snd] in *; [|exact Cl].
      cbv zeta. pose proof (clean_default (mk_space d (length (d_nodes d)))) as Cd.
      destruct (check_default_configuration _) as [x|e]; cbn [snd]; [apply clean_ok|].
      apply clean_err. apply Cd. reflexivity.
  Qed.
End Add.
