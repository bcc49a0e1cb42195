(** * Invariant of built spaces and the tables of a built space *)
From Coq Require Import String List ZArith Bool Lia Permutation Relations Sorting.Sorted.
From Verif Require Import Base ListFacts Numeric HP HPProofs Cond Forb EqFacts Dag DagCycle DagProofs Space
  CommitProofs Spec.
Import ListNotations.
Open Scope nat_scope.

Section SpaceProofs.
  Context {E : Env} {L : EnvLaws E}.

  Record space_ok (s : space) (hs : list hp) (cs : list cond) (fs : list fclause) : Prop := {
    so_inv : dag_inv (s_dag s) hs cs fs;
    so_com : committed (s_dag s);
    so_len : s_len s = length (d_nodes (s_dag s))
  }.

  Lemma committed_empty : committed empty_dag.
  Proof. constructor; simpl; try reflexivity; try tauto; [constructor|]. exists []. auto. Qed.

  (** ** Calls that raise keep the invariant *)
  Lemma run_app {A} (f : dag -> A -> dag * res unit) l m d :
    run f (l ++ m) d = match run f l d with (d', Ok _) => run f m d' | (d', Err e) => (d', Err e) end.
  Proof. revert d. induction l as [|x l IH]; intros d; simpl; [destruct (run f m d); reflexivity|]. destruct (f d x) as [d1 [u|e]]; [apply IH|reflexivity]. Qed.
  Lemma run_add_err hs : forall d d' e, run dag_add hs d = (d', Err e) -> decl_err e = true.
  Proof.
    induction hs as [|h hs IH]; intros d d' e H; simpl in H; [discriminate|]. unfold dag_add in H at 1.
    destruct (assoc_mem (hp_name h) (d_nodes d)); [inversion H; reflexivity|eapply IH; eauto].
  Qed.
  Lemma run_cond_err cs : Forall cond_built cs -> forall d hs cs0 fs d' e, dag_inv d hs cs0 fs -> run dag_add_condition cs d = (d', Err e) -> decl_err e = true.
  Proof.
    induction 1 as [|c cs C F IH]; intros d hs cs0 fs d' e I H; simpl in H; [discriminate|].
    destruct (dag_add_condition d c) as [d1 [[]|e1]] eqn:E1; [eapply IH; [eapply dag_add_condition_inv; eauto|exact H]|].
    inversion H; subst. unfold dag_add_condition in E1. destruct (cond_built_child c C) as (child & Hch).
    pose proof (add_condition_spec (d_nodes d) c child (di_graph _ _ _ _ I) (cond_built_wf c C) Hch) as O.
    destruct (add_condition (d_nodes d) c) as [ns r]. inversion E1; subst. inversion O; subst; reflexivity.
  Qed.
  Lemma run_forb_err fs : forall d d' e, run dag_add_forbidden fs d = (d', Err e) -> decl_err e = true.
  Proof.
    induction fs as [|f fs IH]; intros d d' e H; simpl in H; [discriminate|]. unfold dag_add_forbidden in H at 1.
    destruct (forallb _ _); [|inversion H; reflexivity]. destruct (is_unconditional (d_roots d) f); eapply IH; eauto.
  Qed.
  Lemma commit_inv d d' e hs cs fs : dag_inv d hs cs fs -> commit d = (d', Err e) -> dag_inv d' hs cs fs.
  Proof.
    intros I H. assert (K : d_nodes d' = sort_nodes (d_nodes d) /\ Permutation (d_forbs d') (d_forbs d)).
    { unfold commit in H. cbv zeta in H. destruct (optimized _ _) as [fast|e1]; [|inversion H; subst; split; [reflexivity|unfold d_forbs at 1; simpl; rewrite filter_split_perm; apply py_sorted_perm]].
      destruct (min_conds _ _ _ _) as [mc|e1]; [|inversion H; subst; split; [reflexivity|unfold d_forbs at 1; simpl; rewrite filter_split_perm; apply py_sorted_perm]].
      destruct (change_lookup _ _ _) as [lk|e1]; [discriminate|inversion H; subst; split; [reflexivity|unfold d_forbs at 1; simpl; rewrite filter_split_perm; apply py_sorted_perm]]. }
    destruct K as [Hn Hp]. destruct I. assert (P : Permutation (d_nodes d) (d_nodes d')) by (rewrite Hn; symmetry; apply sort_nodes_perm).
    assert (ND := co_nodup _ (g_core _ di_graph)).
    assert (Ha : forall x, assoc x (d_nodes d') = assoc x (d_nodes d)) by (intros x; symmetry; apply assoc_perm; assumption).
    constructor; auto.
    - eapply graph_ok_perm; eauto.
    - rewrite <- di_hps. apply Permutation_map. symmetry. exact P.
    - intros p c. rewrite <- di_edges. unfold edge, children_names. rewrite Ha. tauto.
    - intros c cnd. unfold condof. rewrite Ha. apply di_cond.
    - intros c cnd. unfold condof. rewrite Ha. apply di_decl.
    - rewrite Hp. exact di_forb.
    - intros f n Hf Hnf. eapply Permutation_in; [apply Permutation_map; exact P|]. eauto.
  Qed.
  Lemma inv_keys d hs cs fs n : dag_inv d hs cs fs -> (In n (map fst (d_nodes d)) <-> In n (map hp_name hs)).
  Proof.
    intros I. rewrite (node_keys_hps _ (di_graph _ _ _ _ I)). assert (P := Permutation_map hp_name (di_hps _ _ _ _ I)).
    split; intros H; [eapply Permutation_in; [exact P|exact H]|eapply Permutation_in; [symmetry; exact P|exact H]].
  Qed.
  Section Refused.
    Context {s : space} {hs : list hp} {cs : list cond} {fs : list fclause} (I : dag_inv (s_dag s) hs cs fs).
    Lemma add_dag hs' cs' fs' : s_dag (fst (add s hs' cs' fs')) = fst (dag_update (s_dag s) hs' cs' fs').
    Proof. unfold add. destruct (dag_update (s_dag s) hs' cs' fs') as [d [[]|e]]; [|reflexivity]. cbv zeta. destruct (check_default_configuration _); reflexivity. Qed.
    Lemma clean_update hs' cs' fs' : clean (snd (add s hs' cs' fs')) -> clean (snd (dag_update (s_dag s) hs' cs' fs')).
    Proof. unfold add. destruct (dag_update (s_dag s) hs' cs' fs') as [d [[]|e]]; simpl; [intros _ e H; discriminate|exact (fun H => H)]. Qed.
    Lemma clean_hps hs' cs' fs' : Forall constructed hs' -> clean (snd (add s hs' cs' fs')) ->
      exists d, run dag_add hs' (s_dag s) = (d, Ok tt) /\ dag_inv d (hs ++ hs') cs fs.
    Proof.
      intros C H. apply clean_update in H. unfold dag_update in H. destruct (run dag_add hs' (s_dag s)) as [d [[]|e]] eqn:E1.
      - exists d. split; [reflexivity|]. eapply (run_inv dag_add (fun d l => dag_inv d l cs fs)) in E1; [exact E1|intros; eapply dag_add_inv; eassumption|exact I|exact C].
      - specialize (H e eq_refl). apply run_add_err in E1. congruence.
    Qed.
    Lemma clean_conds hs' cs' fs' : Forall constructed hs' -> Forall cond_built cs' -> clean (snd (add s hs' cs' fs')) ->
      exists d d2, run dag_add hs' (s_dag s) = (d, Ok tt) /\ run dag_add_condition cs' d = (d2, Ok tt) /\ dag_inv d2 (hs ++ hs') (cs ++ cs') fs.
    Proof.
      intros C C2 H. destruct (clean_hps hs' cs' fs' C H) as (d & E1 & I1). exists d. apply clean_update in H. unfold dag_update in H. rewrite E1 in H.
      destruct (run dag_add_condition cs' d) as [d2 [[]|e]] eqn:E2.
      - exists d2. split; [exact E1|]. split; [reflexivity|].
        eapply (run_inv dag_add_condition (fun d l => dag_inv d (hs ++ hs') l fs)) in E2; [exact E2|intros; eapply dag_add_condition_inv; eassumption|exact I1|exact C2].
      - specialize (H e eq_refl). pose proof (run_cond_err cs' C2 _ _ _ _ _ _ I1 E2). congruence.
    Qed.
    Lemma clean_forbs hs' cs' fs' : Forall constructed hs' -> Forall cond_built cs' -> Forall forb_built fs' -> clean (snd (add s hs' cs' fs')) ->
      exists d d2 d3, run dag_add hs' (s_dag s) = (d, Ok tt) /\ run dag_add_condition cs' d = (d2, Ok tt) /\ run dag_add_forbidden fs' d2 = (d3, Ok tt) /\
        dag_inv d3 (hs ++ hs') (cs ++ cs') (fs ++ fs').
    Proof.
      intros C C2 C3 H. destruct (clean_conds hs' cs' fs' C C2 H) as (d & d2 & E1 & E2 & I2). exists d, d2. apply clean_update in H. unfold dag_update in H. rewrite E1, E2 in H.
      destruct (run dag_add_forbidden fs' d2) as [d3 [[]|e]] eqn:E3.
      - exists d3. split; [exact E1|]. split; [exact E2|]. split; [reflexivity|].
        eapply (run_inv dag_add_forbidden (fun d l => dag_inv d (hs ++ hs') (cs ++ cs') l)) in E3; [exact E3|intros; eapply dag_add_forbidden_inv; eassumption|exact I2|exact C3].
      - specialize (H e eq_refl). apply run_forb_err in E3. congruence.
    Qed.
    Lemma refused_inv hs' cs' fs' hs2 cs2 fs2 : Forall constructed hs' -> Forall cond_built cs' -> Forall forb_built fs' ->
      refused s hs cs hs' cs' fs' hs2 cs2 fs2 ->
      dag_inv (s_dag (fst (add s hs' cs' fs'))) (hs ++ hs2) (cs ++ cs2) (fs ++ fs2) /\ exists e, snd (add s hs' cs' fs') = Err e.
    Proof.
      intros C1 C2 C3 R.
      assert (G : forall d e, dag_update (s_dag s) hs' cs' fs' = (d, Err e) -> dag_inv d (hs ++ hs2) (cs ++ cs2) (fs ++ fs2) ->
        dag_inv (s_dag (fst (add s hs' cs' fs'))) (hs ++ hs2) (cs ++ cs2) (fs ++ fs2) /\ exists e, snd (add s hs' cs' fs') = Err e).
      { intros d e Hd Hi. rewrite add_dag, Hd. split; [exact Hi|]. unfold add. rewrite Hd. exists e. reflexivity. }
      assert (GC : forall cs1 c rest, cs' = cs1 ++ c :: rest -> clean (snd (add s hs' cs1 [])) ->
        (forall d, dag_inv d (hs ++ hs') (cs ++ cs1) fs -> exists e, dag_add_condition d c = (d, Err e)) ->
        dag_inv (s_dag (fst (add s hs' cs' fs'))) (hs ++ hs') (cs ++ cs1) fs /\ exists e, snd (add s hs' cs' fs') = Err e).
      { intros cs1 c rest Hcs K Hc. assert (C4 : Forall cond_built cs1) by (rewrite Hcs in C2; apply Forall_app in C2; apply C2).
        destruct (clean_conds hs' cs1 [] C1 C4 K) as (d & d2 & E1 & E2 & I2). destruct (Hc d2 I2) as (e & He).
        assert (U : dag_update (s_dag s) hs' cs' fs' = (d2, Err e)).
        { unfold dag_update. rewrite E1, Hcs, run_app, E2. simpl. rewrite He. reflexivity. }
        rewrite add_dag, U. split; [exact I2|]. unfold add. rewrite U. exists e. reflexivity. }
      assert (AC : forall c, In c cs' -> exists n, child_name c = Some n) by (intros c Hc; apply cond_built_child; rewrite Forall_forall in C2; auto).
      destruct R as [hs1 h rest Hhs K Hn|cs1 c rest n Hcs K Hch Hn|cs1 c rest c0 Hcs K Hc0 Hch Hq|cs1 c rest Hcs K Hp|fs1 f rest n Hfs K Hf Hn|e He Hd];
        rewrite ?app_nil_r in *.
      - assert (C4 : Forall constructed hs1) by (rewrite Hhs in C1; apply Forall_app in C1; apply C1).
        destruct (clean_hps hs1 [] [] C4 K) as (d & E1 & I1). eapply G; [|exact I1].
        unfold dag_update. rewrite Hhs, run_app, E1. simpl. unfold dag_add. apply (inv_keys _ _ _ _ _ I1) in Hn. apply assoc_mem_iff in Hn. rewrite Hn. reflexivity.
      - apply (GC cs1 c rest Hcs K). intros d I2. exists ChildNotFoundError. unfold dag_add_condition, add_condition. destruct (cond_child c) as [ch|]; [|discriminate].
        simpl in Hch. injection Hch as Hch. rewrite Hch. replace (assoc n (d_nodes d)) with (@None node); [destruct d; reflexivity|].
        symmetry. apply assoc_None. rewrite (inv_keys _ _ _ _ _ I2). exact Hn.
      - apply (GC cs1 c rest Hcs K). intros d I2. exists AmbiguousConditionError.
        assert (Bc : cond_built c) by (rewrite Forall_forall in C2; apply C2; rewrite Hcs; apply in_or_app; right; left; reflexivity).
        destruct (AC c) as (n & Hcn); [rewrite Hcs; apply in_or_app; right; left; reflexivity|].
        pose proof (add_condition_spec (d_nodes d) c n (di_graph _ _ _ _ I2) (cond_built_wf c Bc) Hcn) as O.
        assert (Hc0n : child_name c0 = Some n) by (unfold child_name in *; congruence).
        destruct (di_decl _ _ _ _ I2 n c0 Hc0 Hc0n) as (c' & Hc' & Hq').
        assert (B2 := proj1 (proj2 (di_built _ _ _ _ I2))). rewrite Forall_forall in B2.
        assert (NE : cond_eqb c c' = false).
        { destruct (cond_eqb c c') eqn:Ee; [|reflexivity]. rewrite <- Hq. symmetry. eapply cond_eqb_trans; [| | |exact Ee|exact Hq']; apply cond_built_wf; auto.
          apply B2. eapply di_cond; eauto. }
        unfold dag_add_condition. inversion O as [Hx Ho|c1 Hx Hc1 Hq1 Ho|ns' p Hx Hcomp _ _ Ho|ns' Hx Hcomp _ Ho|ns' Hx Hcomp _ _ _ _ _ _ _ Ho]; try (specialize (Hcomp c' Hc'); congruence).
        + exfalso. apply Hx. unfold condof in Hc'. apply assoc_Some_key. destruct (assoc n (d_nodes d)) as [nd|]; [exists nd; reflexivity|discriminate].
        + destruct d; reflexivity.
      - apply (GC cs1 c rest Hcs K). intros d I2.
        destruct (AC c) as (n & Hcn); [rewrite Hcs; apply in_or_app; right; left; reflexivity|]. unfold child_name in Hcn.
        unfold dag_add_condition, add_condition. destruct (cond_child c) as [ch|] eqn:Ec; [|discriminate].
        destruct (assoc (hp_name ch) (d_nodes d)) as [nd|]; [|exists ChildNotFoundError; destruct d; reflexivity].
        destruct (match n_cond nd with Some c' => negb (cond_eqb c c') | None => false end); [exists AmbiguousConditionError; destruct d; reflexivity|].
        assert (Hne : cond_parents c <> []). { unfold cond_parents, cond_child in *. destruct (dlcs c); [discriminate|]. discriminate. }
        destruct (cond_parents c) as [|p ps]; [congruence|]. simpl. exists ParentNotFoundError.
        replace (assoc p (d_nodes d)) with (@None node); [destruct d; reflexivity|]. symmetry. apply assoc_None. rewrite (inv_keys _ _ _ _ _ I2). apply Hp. left. reflexivity.
      - assert (C4 : Forall forb_built fs1) by (rewrite Hfs in C3; apply Forall_app in C3; apply C3).
        destruct (clean_forbs hs' cs' fs1 C1 C2 C4 K) as (d & d2 & d3 & E1 & E2 & E3 & I3). eapply G; [|exact I3].
        unfold dag_update. rewrite E1, E2, Hfs, run_app, E3. simpl. unfold dag_add_forbidden.
        replace (forallb (fun n0 => assoc_mem n0 (d_nodes d3)) (forb_names f)) with false; [reflexivity|]. symmetry.
        apply not_true_is_false. intros T. rewrite forallb_forall in T. specialize (T n Hf). apply assoc_mem_iff in T. apply Hn. apply (inv_keys _ _ _ _ _ I3). exact T.
      - assert (K : clean (snd (add s hs' cs' fs'))) by (rewrite He; intros e' H; injection H as <-; exact Hd).
        destruct (clean_forbs hs' cs' fs' C1 C2 C3 K) as (d & d2 & d3 & E1 & E2 & E3 & I3).
        split; [|exists e; exact He]. rewrite add_dag. unfold dag_update. rewrite E1, E2, E3.
        destruct (commit d3) as [d4 [[]|e4]] eqn:E4; simpl; [eapply dag_inv_commit; eauto|eapply commit_inv; eauto].
    Qed.
  End Refused.
  Lemma tried_inv s hs cs fs s1 hs1 cs1 fs1 : tried s hs cs fs s1 hs1 cs1 fs1 -> dag_inv (s_dag s) hs cs fs -> dag_inv (s_dag s1) hs1 cs1 fs1.
  Proof. induction 1 as [|s hs cs fs s1 hs1 cs1 fs1 hs' cs' fs' hs2 cs2 fs2 T IH C1 C2 C3 R]; intros I; [exact I|]. eapply refused_inv; eauto. Qed.

  Lemma update_ok s hs cs fs hs' cs' fs' s' : dag_inv (s_dag s) hs cs fs -> Forall constructed hs' -> Forall cond_built cs' -> Forall forb_built fs' ->
    add s hs' cs' fs' = (s', Ok tt) -> space_ok s' (hs ++ hs') (cs ++ cs') (fs ++ fs').
  Proof.
    intros I A1 A2 A3 H. unfold add in H. destruct (dag_update (s_dag s) hs' cs' fs') as [d [[]|e]] eqn:Eu; [|discriminate].
    destruct (check_default_configuration _) as [c|e]; [|discriminate]. inversion H; subst; clear H.
    eapply dag_update_inv in Eu; eauto. destruct Eu as [I' C']. constructor; simpl; auto.
  Qed.
  Lemma built_ok s hs cs fs : built s hs cs fs -> space_ok s hs cs fs.
  Proof.
    induction 1 as [|s hs cs fs s' hs' cs' fs' B IH A1 A2 A3 H|s hs cs fs s1 hs1 cs1 fs1 s' hs' cs' fs' B IH T A1 A2 A3 H].
    - constructor; [apply dag_inv_empty|apply committed_empty|reflexivity].
    - eapply update_ok; eauto. apply IH.
    - eapply update_ok; eauto. eapply tried_inv; [exact T|apply IH].
  Qed.

  Section One.
    Context {s : space} {hs : list hp} {cs : list cond} {fs : list fclause} (O : space_ok s hs cs fs).
    Notation ns := (d_nodes (s_dag s)).

    Lemma so_graph : graph_ok ns.
    Proof. apply (di_graph _ _ _ _ (so_inv _ _ _ _ O)). Qed.
    Lemma so_nodup : NoDup (keys s).
    Proof. apply (co_nodup _ (g_core _ so_graph)). Qed.

    Lemma so_keys : Permutation (keys s) (map hp_name hs).
    Proof.
      unfold keys. rewrite (node_keys_hps _ so_graph). apply Permutation_map. apply (so_inv _ _ _ _ O).
    Qed.

    Lemma so_keys_len : length (keys s) = s_len s.
    Proof. unfold keys. rewrite map_length. symmetry. apply O. Qed.

    Lemma so_edge p c : edge ns p c <-> reads cs p c.
    Proof. apply (di_edges _ _ _ _ (so_inv _ _ _ _ O)). Qed.

    Lemma so_key n : In n (keys s) <-> exists nd, assoc n ns = Some nd.
    Proof. apply assoc_Some_key. Qed.

    Lemma so_chain n k : chain cs n k <-> chain_to (edge ns) n k.
    Proof.
      split; induction 1 as [|p n k _ IH H]; try constructor; (econstructor; [exact IH|apply so_edge; exact H]).
    Qed.

    (** depths of the nodes: longest chains *)
    Lemma chain_to_depth n k : chain_to (edge ns) n k -> In n (keys s) -> k <= depth_of ns n.
    Proof.
      induction 1 as [|p n k H IH He]; intros Hn.
      - apply chain_to_pos with (R := edge ns) (x := x). apply (co_wit _ (g_core _ so_graph)). exact Hn.
      - pose proof (co_sat _ (g_core _ so_graph) _ _ He). specialize (IH (edge_source _ _ _ He)). lia.
    Qed.
    Lemma so_longest n : In n (keys s) -> longest cs n (depth_of ns n).
    Proof.
      intros Hn. split.
      - apply so_chain. apply (co_wit _ (g_core _ so_graph)). exact Hn.
      - intros k Hk. apply chain_to_depth; [apply so_chain; exact Hk|exact Hn].
    Qed.
    Lemma longest_unique n i j : longest cs n i -> longest cs n j -> i = j.
    Proof. intros [A B] [C D]. apply B in C. apply D in A. lia. Qed.

    Lemma so_reads_keys p c : reads cs p c -> In p (keys s) /\ In c (keys s).
    Proof.
      intros H. apply so_edge in H. split; [eapply edge_source; eauto|].
      eapply core_closed; [apply so_graph|exact H].
    Qed.

    Lemma so_no_cycle : no_cycle cs.
    Proof.
      intros n Hn. apply (co_acyclic _ (g_core _ so_graph) n).
      assert (G : forall a b, clos_trans _ (reads cs) a b -> clos_trans _ (edge ns) a b).
      { induction 1; [apply t_step, so_edge; assumption|eapply t_trans; eauto]. }
      auto.
    Qed.

    (** the layout *)
    Lemma so_sorted : StronglySorted (fun a b => key_ltb (depth_of ns b, b) (depth_of ns a, a) = false) (keys s).
    Proof.
      assert (S := cm_sorted _ (so_com _ _ _ _ O)). assert (ND := so_nodup). unfold keys in *.
      assert (Hd : forall e, In e ns -> n_depth (snd e) = depth_of ns (fst e)).
      { intros [x n] H. unfold depth_of. simpl. rewrite (In_assoc _ _ _ ND H). reflexivity. }
      revert Hd S. generalize (depth_of ns). intros dp Hd S. clear ND.
      induction S as [|e l S IH F]; simpl; [constructor|]. constructor.
      - apply IH. intros x Hx. apply Hd. right. exact Hx.
      - rewrite Forall_forall in *. intros b Hb. apply in_map_iff in Hb. destruct Hb as (e' & <- & He').
        specialize (F e' He'). unfold leR, entry_ltb in F. rewrite !Hd in F by (simpl; auto). exact F.
    Qed.

    Lemma strongly_nth {A} (R : A -> A -> Prop) l i j a b : StronglySorted R l -> i < j ->
      nth_error l i = Some a -> nth_error l j = Some b -> R a b.
    Proof.
      intros S. revert i j. induction S as [|x l S IH F]; intros i j Hij Hi Hj.
      - destruct i; discriminate.
      - destruct j as [|j]; [lia|]. destruct i as [|i]; simpl in *.
        + inversion Hi; subst. rewrite Forall_forall in F. apply F. eapply nth_error_In; eauto.
        + eapply IH; [|eauto..]. lia.
    Qed.

    Lemma so_order i j a b : i < j -> nth_error (keys s) i = Some a -> nth_error (keys s) j = Some b ->
      key_ltb (depth_of ns a, a) (depth_of ns b, b) = true.
    Proof.
      intros Hij Hi Hj. pose proof (strongly_nth _ _ _ _ _ _ so_sorted Hij Hi Hj) as H. simpl in H.
      destruct (key_ltb (depth_of ns a, a) (depth_of ns b, b)) eqn:El; [reflexivity|].
      pose proof (key_ltb_total _ _ El H) as Q. inversion Q; subst.
      assert (i = j); [|lia]. eapply NoDup_nth_error; [apply so_nodup| |congruence].
      apply nth_error_Some. congruence.
    Qed.

    (** index_of *)
    Lemma so_index n i : assoc n (index_of s) = Some i <-> nth_error (keys s) i = Some n.
    Proof.
      unfold index_of. rewrite (cm_index _ (so_com _ _ _ _ O)).
      replace (length ns) with (length (map fst ns)) by apply map_length.
      apply assoc_combine_nth. apply so_nodup.
    Qed.
    Lemma so_index_keys : map fst (index_of s) = keys s.
    Proof.
      unfold index_of. rewrite (cm_index _ (so_com _ _ _ _ O)). apply combine_fst.
      unfold keys. rewrite seq_length, map_length. reflexivity.
    Qed.
    Lemma so_index_lt n i : assoc n (index_of s) = Some i -> i < s_len s.
    Proof.
      intros H. apply so_index in H. rewrite <- so_keys_len. apply nth_error_Some. congruence.
    Qed.
    Lemma so_index_ex n : In n (keys s) -> exists i, assoc n (index_of s) = Some i.
    Proof. rewrite <- so_index_keys. apply assoc_Some_key. Qed.
    Lemma so_at : at_ s = keys s.
    Proof. apply (cm_at _ (so_com _ _ _ _ O)). Qed.

    Lemma so_parent_before p c i j : reads cs p c -> assoc p (index_of s) = Some i ->
      assoc c (index_of s) = Some j -> i < j.
    Proof.
      intros Hr Hi Hj. apply so_index in Hi. apply so_index in Hj.
      assert (Hd : S (depth_of ns p) <= depth_of ns c)
        by (apply (co_sat _ (g_core _ so_graph)); apply so_edge; exact Hr).
      destruct (lt_eq_lt_dec i j) as [[H|H]|H]; [exact H| |].
      - subst. rewrite Hi in Hj. inversion Hj; subst. lia.
      - pose proof (so_order _ _ _ _ H Hj Hi) as K. apply key_ltb_iff in K. simpl in K. lia.
    Qed.

    (** the hyperparameters *)
    Lemma so_hps : Permutation (Space.hps s) hs.
    Proof.
      assert (H : Space.hps s = node_hps ns)
        by (unfold Space.hps, items, node_hps; rewrite map_map; reflexivity).
      rewrite H. apply (so_inv _ _ _ _ O).
    Qed.
    Lemma so_names_nodup : NoDup (map hp_name hs).
    Proof. eapply Permutation_NoDup; [apply so_keys|apply so_nodup]. Qed.
    Lemma so_get_hp n h : get_hp s n = Some h <-> In h hs /\ hp_name h = n.
    Proof.
      unfold get_hp. split.
      - destruct (assoc n ns) as [nd|] eqn:En; [|discriminate]. simpl. intros H. inversion H; subst. split.
        + eapply Permutation_in; [apply (di_hps _ _ _ _ (so_inv _ _ _ _ O))|].
          apply in_map_iff. exists (n, nd). split; [reflexivity|apply assoc_In; exact En].
        + eapply co_name; [apply so_graph|exact En].
      - intros [Hh Hn]. subst n. apply (Permutation_in h (Permutation_sym (di_hps _ _ _ _ (so_inv _ _ _ _ O)))) in Hh.
        apply in_map_iff in Hh. destruct Hh as ([x nd] & <- & Hx). simpl.
        apply In_assoc in Hx; [|apply so_nodup]. rewrite (co_name _ (g_core _ so_graph) _ _ Hx), Hx. reflexivity.
    Qed.
    Lemma so_hp_at i : hp_at s i = option_map (fun e => n_hp (snd e)) (nth_error ns i).
    Proof. unfold hp_at. rewrite (cm_hps _ (so_com _ _ _ _ O)). unfold node_hps. apply nth_error_map. Qed.
    Lemma so_hp_at_name i n : nth_error (keys s) i = Some n -> hp_at s i = get_hp s n.
    Proof.
      rewrite so_hp_at. unfold keys, get_hp. rewrite nth_error_map.
      destruct (nth_error ns i) as [[x nd]|] eqn:Ei; [|discriminate]. simpl. intros H. inversion H; subst.
      apply nth_error_In in Ei. rewrite (In_assoc _ _ _ so_nodup Ei). reflexivity.
    Qed.
    Lemma so_constructed h : In h hs -> constructed h.
    Proof. destruct (di_built _ _ _ _ (so_inv _ _ _ _ O)) as (A & _). rewrite Forall_forall in A. auto. Qed.
    Lemma so_cond_built c : In c cs -> cond_built c.
    Proof. destruct (di_built _ _ _ _ (so_inv _ _ _ _ O)) as (_ & A & _). rewrite Forall_forall in A. auto. Qed.
    Lemma so_forb_built c : In c fs -> forb_built c.
    Proof. destruct (di_built _ _ _ _ (so_inv _ _ _ _ O)) as (_ & _ & A). rewrite Forall_forall in A. auto. Qed.

    (** conditions *)
    Lemma so_conds_of n : conds_of s n = match condof ns n with Some c => [c] | None => [] end.
    Proof.
      unfold conds_of, parent_conditions_of. rewrite (cm_parent_conds _ (so_com _ _ _ _ O)).
      rewrite (assoc_map own_conds). unfold condof, own_conds. destruct (assoc n ns) as [nd|]; reflexivity.
    Qed.
    Lemma so_condof_in n c : condof ns n = Some c -> In c cs /\ activates c n.
    Proof.
      intros H. split; [apply (di_cond _ _ _ _ (so_inv _ _ _ _ O) _ _ H)|]. apply (g_child _ so_graph _ _ H).
    Qed.
    Lemma so_declared n c : In c cs -> activates c n -> exists c', condof ns n = Some c' /\ cond_eqb c' c = true.
    Proof. apply (di_decl _ _ _ _ (so_inv _ _ _ _ O)). Qed.
    Lemma so_conditional n : conditional cs n <-> exists c, condof ns n = Some c.
    Proof.
      split.
      - intros (c & H1 & H2). destruct (so_declared n c H1 H2) as (c' & H & _). eauto.
      - intros (c & H). apply so_condof_in in H. exists c. exact H.
    Qed.
    Lemma so_condof_key n c : condof ns n = Some c -> In n (keys s).
    Proof. unfold condof. intros H. apply so_key. destruct (assoc n ns); [eauto|discriminate]. Qed.

    (** roots *)
    Lemma so_root n : In n (unconditional_hyperparameters s) <-> In n (keys s) /\ condof ns n = None.
    Proof.
      unfold unconditional_hyperparameters. rewrite (cm_roots _ (so_com _ _ _ _ O)). unfold condof. split.
      - intros H. apply in_map_iff in H. destruct H as ([x nd] & Hx & H). simpl in Hx. subst x.
        apply filter_In in H. destruct H as [Hin Hd]. simpl in Hd. apply Nat.eqb_eq in Hd.
        assert (Ha := In_assoc _ _ _ so_nodup Hin). rewrite Ha. split; [apply so_key; eauto|].
        apply (graph_depth_root _ _ _ so_graph Ha). exact Hd.
      - intros [Hk Hc]. apply so_key in Hk. destruct Hk as (nd & Ha). rewrite Ha in Hc.
        apply in_map_iff. exists (n, nd). split; [reflexivity|]. apply filter_In. split; [apply assoc_In; exact Ha|].
        simpl. apply Nat.eqb_eq. apply (graph_depth_root _ _ _ so_graph Ha). exact Hc.
    Qed.
    Lemma so_nonroot n : In n (conditional_hyperparameters s) <-> exists c, condof ns n = Some c.
    Proof.
      unfold conditional_hyperparameters. rewrite (cm_nonroots _ (so_com _ _ _ _ O)). unfold condof. split.
      - intros H. apply in_map_iff in H. destruct H as ([x nd] & Hx & H). simpl in Hx. subst x.
        apply filter_In in H. destruct H as [Hin Hd]. simpl in Hd. apply negb_true_iff, Nat.eqb_neq in Hd.
        assert (Ha := In_assoc _ _ _ so_nodup Hin). rewrite Ha.
        destruct (n_cond nd) as [c|] eqn:Ec; [eauto|]. exfalso. apply Hd.
        apply (graph_depth_root _ _ _ so_graph Ha). exact Ec.
      - intros (c & Hc). destruct (assoc n ns) as [nd|] eqn:Ha; [|discriminate].
        apply in_map_iff. exists (n, nd). split; [reflexivity|]. apply filter_In. split; [apply assoc_In; exact Ha|].
        simpl. apply negb_true_iff, Nat.eqb_neq. intros Hd. apply (graph_depth_root _ _ _ so_graph Ha) in Hd. congruence.
    Qed.
    Lemma so_partition : Permutation (unconditional_hyperparameters s ++ conditional_hyperparameters s) (keys s).
    Proof.
      unfold unconditional_hyperparameters, conditional_hyperparameters.
      rewrite (cm_roots _ (so_com _ _ _ _ O)), (cm_nonroots _ (so_com _ _ _ _ O)). rewrite <- map_app.
      apply Permutation_map. apply filter_split_perm.
    Qed.

    (** links *)
    Lemma so_hp_named n h : In h (hp_named ns n) <-> get_hp s n = Some h.
    Proof.
      unfold hp_named, get_hp. destruct (assoc n ns); simpl; split; try tauto; try discriminate.
      - intros [->|[]]. reflexivity.
      - intros H. inversion H. auto.
    Qed.
    Lemma so_children p l : assoc p (children_of s) = Some l ->
      forall h, In h l <-> In h hs /\ reads cs p (hp_name h).
    Proof.
      unfold children_of. rewrite (cm_children _ (so_com _ _ _ _ O)).
      rewrite (assoc_map (fun nd => concat (map (fun c => hp_named ns (fst c)) (n_children nd)))).
      destruct (assoc p ns) as [nd|] eqn:Ep; [|discriminate]. simpl. intros H. inversion H; subst; clear H.
      intros h. rewrite in_concat. split.
      - intros (x & Hx & Hh). apply in_map_iff in Hx. destruct Hx as ([c cnd] & <- & Hc). simpl in Hh.
        apply so_hp_named in Hh. apply so_get_hp in Hh. destruct Hh as [Hh <-]. split; [exact Hh|].
        apply so_edge. unfold edge, children_names. rewrite Ep. apply (in_map fst) in Hc. exact Hc.
      - intros [Hh Hr]. apply so_edge in Hr. unfold edge, children_names in Hr. rewrite Ep in Hr.
        apply in_map_iff in Hr. destruct Hr as ([c cnd] & Hc & Hin). simpl in Hc.
        exists (hp_named ns c). split; [apply in_map_iff; exists (c, cnd); auto|].
        apply so_hp_named. apply so_get_hp. auto.
    Qed.
    Lemma so_parents c l : assoc c (parents_of s) = Some l ->
      forall h, In h l <-> In h hs /\ reads cs (hp_name h) c.
    Proof.
      unfold parents_of. rewrite (cm_parents _ (so_com _ _ _ _ O)).
      rewrite (assoc_map (fun nd => concat (map (fun c => hp_named ns (fst c)) (n_parents nd)))).
      destruct (assoc c ns) as [nd|] eqn:Ep; [|discriminate]. simpl. intros H. inversion H; subst; clear H.
      assert (Q : forall p, edge ns p c <-> In p (map fst (n_parents nd))).
      { intros p. rewrite edge_clook, (co_link _ (g_core _ so_graph) p c). 
        unfold plook. rewrite Ep. symmetry. apply assoc_Some_key. }
      intros h. rewrite in_concat. split.
      - intros (x & Hx & Hh). apply in_map_iff in Hx. destruct Hx as ([p cnd] & <- & Hc). simpl in Hh.
        apply so_hp_named in Hh. apply so_get_hp in Hh. destruct Hh as [Hh <-]. split; [exact Hh|].
        apply so_edge, Q. apply (in_map fst) in Hc. exact Hc.
      - intros [Hh Hr]. apply so_edge, Q in Hr.
        apply in_map_iff in Hr. destruct Hr as ([p cnd] & Hc & Hin). simpl in Hc.
        exists (hp_named ns p). split; [apply in_map_iff; exists (p, cnd); auto|].
        apply so_hp_named. apply so_get_hp. auto.
    Qed.
    Lemma so_child_conds p l : assoc p (child_conditions_of s) = Some l ->
      forall c, In c l <-> exists n, condof ns n = Some c /\ reads cs p n.
    Proof.
      unfold child_conditions_of. rewrite (cm_child_conds _ (so_com _ _ _ _ O)).
      rewrite (assoc_map (fun nd => map snd (n_children nd))).
      destruct (assoc p ns) as [nd|] eqn:Ep; [|discriminate]. simpl. intros H. inversion H; subst; clear H.
      intros c. rewrite in_map_iff. split.
      - intros ([n cnd] & Hc & Hin). simpl in Hc. subst cnd. exists n.
        assert (Hl : clook ns p n = Some c).
        { unfold clook. rewrite Ep. apply In_assoc; [apply (co_keys _ (g_core _ so_graph) _ _ Ep)|exact Hin]. }
        split; [|apply so_edge, edge_clook; eauto]. rewrite (co_link _ (g_core _ so_graph)) in Hl.
        apply (g_label _ so_graph _ _ _ Hl).
      - intros (n & Hc & Hr). apply so_edge, edge_clook in Hr. destruct Hr as (c' & Hl).
        assert (Hl' := Hl). rewrite (co_link _ (g_core _ so_graph)) in Hl'. apply (g_label _ so_graph) in Hl'.
        assert (c' = c) by congruence. subst c'. unfold clook in Hl. rewrite Ep in Hl.
        exists (n, c). split; [reflexivity|]. apply assoc_In. exact Hl.
    Qed.
  End One.

  (** ** The layout is determined by the declarations *)
  Lemma layout_unique s hs cs fs s' hs' cs' fs' :
    space_ok s hs cs fs -> space_ok s' hs' cs' fs' ->
    Permutation (map hp_name hs) (map hp_name hs') -> (forall p c, reads cs p c <-> reads cs' p c) ->
    keys s = keys s'.
  Proof.
    intros O O' Ph Hr.
    assert (Hc : forall n k, chain cs n k <-> chain cs' n k).
    { intros n k. split; induction 1 as [|p n k _ IH H]; try constructor; (econstructor; [exact IH|apply Hr; exact H]). }
    assert (Pk : Permutation (keys s) (keys s')).
    { rewrite (so_keys O), (so_keys O'). exact Ph. }
    assert (Hd : forall n, In n (keys s) -> depth_of (d_nodes (s_dag s)) n = depth_of (d_nodes (s_dag s')) n).
    { intros n Hn. apply (longest_unique (cs := cs) n); [apply (so_longest O); exact Hn|].
      assert (Hl := so_longest O' n (Permutation_in _ Pk Hn)). destruct Hl as [A B]. split; [apply Hc; exact A|].
      intros k Hk. apply B, Hc, Hk. }
    set (dp := depth_of (d_nodes (s_dag s))).
    apply (sorted_unique (fun a b => key_ltb (dp a, a) (dp b, b))).
    - intros a b _ _ H1 H2. pose proof (key_ltb_total _ _ H1 H2) as Q. inversion Q. auto.
    - exact (so_sorted O).
    - assert (S := so_sorted O').
      assert (G : forall l, (forall n, In n l -> In n (keys s)) ->
        StronglySorted (fun a b => key_ltb (depth_of (d_nodes (s_dag s')) b, b) (depth_of (d_nodes (s_dag s')) a, a) = false) l ->
        StronglySorted (leR (fun a b => key_ltb (dp a, a) (dp b, b))) l).
      { induction l as [|x l IH]; intros Hin Sl; [constructor|]. inversion Sl as [|? ? S1 F]; subst. constructor.
        - apply IH; [intros n Hn; apply Hin; right; exact Hn|exact S1].
        - rewrite Forall_forall in *. intros y Hy. unfold leR, dp.
          rewrite (Hd x), (Hd y) by (apply Hin; simpl; auto). apply F. exact Hy. }
      apply G; [|exact S]. intros n Hn. eapply Permutation_in; [symmetry; exact Pk|exact Hn].
    - exact Pk.
  Qed.
End SpaceProofs.
