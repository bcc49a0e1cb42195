(** * Properties C01 - C10: the graph of hyperparameters and the vector layout

    [built s hs cs fs]: [s] was reached from the empty space by add() calls, some of which may have
    raised (Properties_Tried.v), and [hs],
    [cs], [fs] are all hyperparameters, conditions and clauses that were added (Spec.v).
    [longest], [before], [reads], [no_cycle], [conditional] speak about these declarations only. *)
From Coq Require Import String List ZArith QArith Bool Lia Permutation Relations.
From Verif Require Import Base ListFacts Numeric HP HPProofs Cond Forb EqFacts Dag DagCycle DagProofs Space
  CommitProofs Spec SpaceProofs CnodeProofs ForbProofs AddProofs Ex.
Import ListNotations.
Open Scope nat_scope.

Section Graph.
  Context {E : Env} {L : EnvLaws E}.

  (** ** C01 *)
  Theorem C01_order s hs cs fs i j a b : built s hs cs fs -> i < j ->
    nth_error (keys s) i = Some a -> nth_error (keys s) j = Some b -> before cs a b.
  Proof.
    intros B Hij Hi Hj. apply built_ok in B.
    exists (depth_of (d_nodes (s_dag s)) a), (depth_of (d_nodes (s_dag s)) b).
    split; [apply (so_longest B); eapply nth_error_In; eauto|].
    split; [apply (so_longest B); eapply nth_error_In; eauto|].
    apply (proj1 (key_ltb_iff (_, a) (_, b))). apply (so_order B i j a b Hij Hi Hj).
  Qed.

  Theorem C01_parents_first s hs cs fs c p n : built s hs cs fs ->
    In c cs -> activates c n -> In p (cond_parents c) ->
    exists i j, assoc p (index_of s) = Some i /\ assoc n (index_of s) = Some j /\ i < j.
  Proof.
    intros B Hc Ha Hp. apply built_ok in B.
    assert (R : reads cs p n) by (exists c; auto).
    destruct (so_reads_keys B _ _ R) as [Kp Kn].
    destruct (so_index_ex B p Kp) as (i & Hi). destruct (so_index_ex B n Kn) as (j & Hj).
    exists i, j. split; [exact Hi|]. split; [exact Hj|]. eapply (so_parent_before B); eauto.
  Qed.

  (** ** C02 *)
  Lemma ok_insertion_order s hs cs fs s' hs' cs' fs' :
    space_ok s hs cs fs -> space_ok s' hs' cs' fs' -> Permutation hs hs' -> Permutation cs cs' ->
    at_ s = at_ s' /\ index_of s = index_of s' /\ keys s = keys s' /\ Space.hps s = Space.hps s'.
  Proof.
    intros B B' Ph Pc.
    assert (K : keys s = keys s').
    { eapply layout_unique; [exact B|exact B'|apply Permutation_map; exact Ph|].
      intros p c. unfold reads. split; intros (x & Hx & H); exists x; (split; [|exact H]).
      - eapply Permutation_in; [exact Pc|exact Hx].
      - eapply Permutation_in; [symmetry; exact Pc|exact Hx]. }
    split; [rewrite (so_at B), (so_at B'); exact K|]. split.
    { unfold index_of. rewrite (cm_index _ (so_com _ _ _ _ B)), (cm_index _ (so_com _ _ _ _ B')).
      unfold keys in K. rewrite <- (map_length fst (d_nodes (s_dag s))), <- (map_length fst (d_nodes (s_dag s'))), K. reflexivity. }
    split; [exact K|].
    assert (Q : forall t ht ct ft, space_ok t ht ct ft -> map Some (Space.hps t) = map (get_hp t) (keys t)).
    { intros t ht ct ft O. unfold Space.hps, items, keys. rewrite !map_map. apply map_ext_in. intros [x n] H. simpl.
      unfold get_hp. rewrite (In_assoc _ _ _ (so_nodup O) H). reflexivity. }
    assert (M : map Some (Space.hps s) = map Some (Space.hps s')).
    { rewrite (Q _ _ _ _ B), (Q _ _ _ _ B'), <- K. apply map_ext. intros n.
      destruct (get_hp s n) as [h|] eqn:Eh; destruct (get_hp s' n) as [h'|] eqn:Eh'; [| | |reflexivity].
      - apply (so_get_hp B) in Eh. apply (so_get_hp B') in Eh'. destruct Eh as [H1 H2], Eh' as [H3 H4].
        assert (G : get_hp s' n = Some h) by (apply (so_get_hp B'); split; [eapply Permutation_in; eauto|exact H2]).
        assert (G' : get_hp s' n = Some h') by (apply (so_get_hp B'); auto). congruence.
      - apply (so_get_hp B) in Eh. destruct Eh as [H1 H2]. rewrite (proj2 (so_get_hp B' n h)) in Eh'; [discriminate|].
        split; [eapply Permutation_in; eauto|exact H2].
      - apply (so_get_hp B') in Eh'. destruct Eh' as [H1 H2]. rewrite (proj2 (so_get_hp B n h')) in Eh; [discriminate|].
        split; [eapply Permutation_in; [symmetry; exact Ph|exact H1]|exact H2]. }
    clear -M. revert M. generalize (Space.hps s), (Space.hps s'). induction l as [|x l IH]; intros [|y m]; simpl; try discriminate; [reflexivity|].
    intros [= -> H]. f_equal. auto.
  Qed.
  Theorem C02_insertion_order s hs cs fs s' hs' cs' fs' :
    built s hs cs fs -> built s' hs' cs' fs' -> Permutation hs hs' -> Permutation cs cs' ->
    at_ s = at_ s' /\ index_of s = index_of s' /\ keys s = keys s' /\ Space.hps s = Space.hps s'.
  Proof. intros B B'. exact (ok_insertion_order _ _ _ _ _ _ _ _ (built_ok _ _ _ _ B) (built_ok _ _ _ _ B')). Qed.

  (** ** C03 *)
  Theorem C03_bijection s hs cs fs : built s hs cs fs ->
    (forall n, In n (keys s) -> exists i, assoc n (index_of s) = Some i /\ i < s_len s /\ nth_error (at_ s) i = Some n) /\
    (forall i, i < s_len s -> exists n, nth_error (at_ s) i = Some n /\ assoc n (index_of s) = Some i) /\
    (forall n, ~ In n (keys s) -> assoc n (index_of s) = None).
  Proof.
    intros B. apply built_ok in B. rewrite (so_at B). split; [|split].
    - intros n Hn. destruct (so_index_ex B n Hn) as (i & Hi). exists i. split; [exact Hi|].
      split; [eapply (so_index_lt B); eauto|apply (so_index B); exact Hi].
    - intros i Hi. rewrite <- (so_keys_len B) in Hi. apply nth_error_Some in Hi.
      destruct (nth_error (keys s) i) as [n|] eqn:Ei; [|congruence]. exists n. split; [reflexivity|]. apply (so_index B). exact Ei.
    - intros n Hn. apply assoc_None. rewrite (so_index_keys B). exact Hn.
  Qed.

  Theorem C03_keys s hs cs fs : built s hs cs fs ->
    NoDup (keys s) /\ Permutation (keys s) (map hp_name hs) /\ s_len s = length hs /\
    keys s = map hp_name (Space.hps s) /\ Permutation (Space.hps s) hs.
  Proof.
    intros B. apply built_ok in B. split; [apply (so_nodup B)|]. split; [apply (so_keys B)|].
    split; [|split; [|apply (so_hps B)]].
    - rewrite <- (so_keys_len B), (Permutation_length (so_keys B)), map_length. reflexivity.
    - unfold Space.hps, items, keys. rewrite !map_map. apply map_ext_in. intros [x n] H. simpl.
      symmetry. apply (co_name _ (g_core _ (so_graph B))). apply In_assoc; [apply (so_nodup B)|exact H].
  Qed.

  (** ** C04 *)
  Theorem C04_depth s hs cs fs n : built s hs cs fs -> In n (keys s) ->
    longest cs n (depth_of (d_nodes (s_dag s)) n) /\
    (depth_of (d_nodes (s_dag s)) n = 1 <-> ~ conditional cs n).
  Proof.
    intros B Hn. apply built_ok in B. split; [apply (so_longest B); exact Hn|].
    rewrite (so_conditional B). apply assoc_Some_key in Hn. destruct Hn as (nd & Hnd).
    unfold depth_of, condof. rewrite Hnd. rewrite <- (graph_depth_root _ _ _ (so_graph B) Hnd).
    destruct (n_cond nd) as [c|]; split; intros H.
    - discriminate.
    - exfalso. apply H. eauto.
    - intros (c & Hc). discriminate.
    - reflexivity.
  Qed.

  (** the longest chain is unique, so the depth is determined by the declared conditions *)
  Theorem C04_unique cs n i j : longest cs n i -> longest cs n j -> i = j.
  Proof. apply longest_unique. Qed.

  (** ** C05 *)
  Theorem C05_acyclic s hs cs fs : built s hs cs fs -> no_cycle cs.
  Proof. intros B. apply built_ok in B. apply (so_no_cycle B). Qed.

  Theorem C05_cyclic_iff s hs cs fs c n : built s hs cs fs -> cond_built c -> activates c n ->
    In n (keys s) -> (forall p, In p (cond_parents c) -> In p (keys s)) ->
    (forall c', In c' cs -> activates c' n -> cond_eqb c c' = true) ->
    (snd (add s [] [c] []) = Err CyclicDependancyError <-> ~ no_cycle (cs ++ [c])).
  Proof.
    intros B C A Hn Hp Hq. apply built_ok in B. pose proof (add1_spec s hs cs fs c n B C A) as O. split.
    - intros H. rewrite H in O. inversion O as [| | |? ? ?|? Cl]; subst; [assumption|].
      specialize (Cl _ eq_refl). discriminate.
    - intros H. inversion O as [H1|c' H1 H2 H3 H4|p H1 H2 H3 H4|H1 H2 H3|r H1 H2 H3 H4 H5]; subst; try contradiction.
      + rewrite (Hq c' H2 H3) in H4. discriminate.
      + exfalso. apply H4, Hp, H3.
      + reflexivity.
  Qed.

  (** ** Outcomes of a whole add() call: an exception about the declarations has its reason in them *)
  Lemma run_err {A} (f : dag -> A -> dag * res unit) l : forall d d' e, run f l d = (d', Err e) ->
    exists l1 x l2 d1, l = l1 ++ x :: l2 /\ run f l1 d = (d1, Ok tt) /\ f d1 x = (d', Err e).
  Proof.
    induction l as [|x l IH]; intros d d' e; simpl; [discriminate|].
    destruct (f d x) as [d1 [[]|e1]] eqn:Ef.
    - intros H. apply IH in H. destruct H as (l1 & y & l2 & d2 & -> & H1 & H2). exists (x :: l1), y, l2, d2.
      split; [reflexivity|]. split; [|exact H2]. simpl. rewrite Ef. exact H1.
    - intros H. inversion H; subst. exists [], x, l, d. split; [reflexivity|]. split; [reflexivity|exact Ef].
  Qed.

  (** what each exception says about the declarations, old and new together *)
  Definition reason (hs : list hp) (cs : list cond) (fs : list fclause) (e : err) : Prop :=
    match e with
    | HyperparameterAlreadyExistsError => ~ NoDup (map hp_name hs)
    | ChildNotFoundError => exists c n, In c cs /\ activates c n /\ ~ In n (map hp_name hs)
    | ParentNotFoundError => exists c p, In c cs /\ In p (cond_parents c) /\ ~ In p (map hp_name hs)
    | AmbiguousConditionError => exists c c' n, In c cs /\ In c' cs /\ activates c n /\ activates c' n /\ cond_eqb c c' = false
    | CyclicDependancyError => ~ no_cycle cs
    | HyperparameterNotFoundError => exists f n, In f fs /\ In n (forb_names f) /\ ~ In n (map hp_name hs)
    | _ => True
    end.

  Lemma inv_reason s hs cs fs hs' cs' fs' s' e : dag_inv (s_dag s) hs cs fs ->
    Forall constructed hs' -> Forall cond_built cs' -> Forall forb_built fs' ->
    add s hs' cs' fs' = (s', Err e) -> decl_err e = true ->
    reason (hs ++ hs') (cs ++ cs') (fs ++ fs') e.
  Proof.
    intros I0 A1 A2 A3 H De. rewrite add_eq in H. unfold dag_update in H.
    assert (Names : forall d h c f, dag_inv d h c f -> forall n, In n (map fst (d_nodes d)) <-> In n (map hp_name h)).
    { intros d h c f I n. rewrite (node_keys_hps _ (di_graph _ _ _ _ I)). split; apply Permutation_in; [|symmetry]; apply Permutation_map, I. }
    destruct (run dag_add hs' (s_dag s)) as [d1 [[]|e1]] eqn:E1.
    2: { assert (e1 = e) by (inversion H; reflexivity). subst e1. clear H.
      destruct (run_err _ _ _ _ _ E1) as (l1 & x & l2 & d2 & -> & R1 & R2).
      apply Forall_app in A1. destruct A1 as [A1 A1'].
      eapply (run_inv dag_add (fun d l => dag_inv d l cs fs)) in R1;
        [|intros; eapply dag_add_inv; eassumption|exact I0|exact A1].
      unfold dag_add in R2. destruct (assoc_mem (hp_name x) (d_nodes d2)) eqn:Em; [|discriminate].
      inversion R2; subst. simpl. apply assoc_mem_iff in Em. apply (Names _ _ _ _ R1) in Em.
      rewrite app_assoc, map_app. simpl. intros ND. apply NoDup_remove_2 in ND. apply ND. apply in_or_app. left. exact Em. }
    eapply (run_inv dag_add (fun d l => dag_inv d l cs fs)) in E1; [|intros; eapply dag_add_inv; eassumption|exact I0|exact A1].
    destruct (run dag_add_condition cs' d1) as [d2 [[]|e1]] eqn:E2.
    2: { assert (e1 = e) by (inversion H; reflexivity). subst e1. clear H.
      destruct (run_err _ _ _ _ _ E2) as (l1 & x & l2 & d3 & -> & R1 & R2).
      apply Forall_app in A2. destruct A2 as [A2 A2']. inversion A2' as [|? ? Hx _]; subst.
      eapply (run_inv dag_add_condition (fun d l => dag_inv d (hs ++ hs') l fs)) in R1;
        [|intros; eapply dag_add_condition_inv; eassumption|exact E1|exact A2].
      assert (I := R1). specialize (Names _ _ _ _ I).
      unfold dag_add_condition in R2. destruct (cond_built_child x Hx) as (ch & Hch).
      pose proof (add_condition_spec (d_nodes d3) x ch (di_graph _ _ _ _ I) (cond_built_wf x Hx) Hch) as AC.
      destruct (add_condition (d_nodes d3) x) as [ns r]. inversion R2; subst; clear R2.
      assert (Hxin : In x (cs ++ l1 ++ x :: l2)) by (apply in_or_app; right; apply in_or_app; right; left; reflexivity).
      assert (Hsub : forall c, In c (cs ++ l1) -> In c (cs ++ l1 ++ x :: l2)).
      { intros c Hc. rewrite app_assoc. apply in_or_app. left. exact Hc. }
      inversion AC as [Hn|c' Hin Hc Hq|ns' p Hin Hc Hp Hn|ns' Hin Hc Hn|]; subst; simpl.
      - exists x, ch. split; [exact Hxin|]. split; [exact Hch|]. rewrite <- Names. exact Hn.
      - exists x, c', ch. split; [exact Hxin|]. split; [apply Hsub; apply (di_cond _ _ _ _ I _ _ Hc)|].
        split; [exact Hch|]. split; [apply (g_child _ (di_graph _ _ _ _ I) _ _ Hc)|exact Hq].
      - exists x, p. split; [exact Hxin|]. split; [exact Hp|]. rewrite <- Names. exact Hn.
      - intros NC. apply Hn. intros y Hy. apply (NC y).
        assert (T : forall a b, clos_trans _ (plus_edges (edge (d_nodes d3)) (cond_parents x) ch) a b ->
                      clos_trans _ (reads (cs ++ l1 ++ x :: l2)) a b); [|apply T, Hy].
        intros a b. induction 1 as [a b Hab|]; [|eapply t_trans; eauto]. apply t_step.
        destruct Hab as [Hab|[Hab ->]].
        + apply (di_edges _ _ _ _ I) in Hab. destruct Hab as (c & H1 & H2 & H3). exists c.
          split; [apply Hsub; exact H1|]. split; assumption.
        + exists x. split; [exact Hxin|]. split; assumption. }
    eapply (run_inv dag_add_condition (fun d l => dag_inv d (hs ++ hs') l fs)) in E2;
      [|intros; eapply dag_add_condition_inv; eassumption|exact E1|exact A2].
    destruct (run dag_add_forbidden fs' d2) as [d3 [[]|e1]] eqn:E3.
    2: { assert (e1 = e) by (inversion H; reflexivity). subst e1. clear H.
      destruct (run_err _ _ _ _ _ E3) as (l1 & x & l2 & d4 & -> & R1 & R2).
      apply Forall_app in A3. destruct A3 as [A3 A3'].
      eapply (run_inv dag_add_forbidden (fun d l => dag_inv d (hs ++ hs') (cs ++ cs') l)) in R1;
        [|intros; eapply dag_add_forbidden_inv; eassumption|exact E2|exact A3].
      unfold dag_add_forbidden in R2.
      destruct (forallb (fun n => assoc_mem n (d_nodes d4)) (forb_names x)) eqn:Ef.
      - destruct (is_unconditional _ _); discriminate.
      - assert (e = HyperparameterNotFoundError) by congruence. subst e. simpl.
        assert (Q : exists n, In n (forb_names x) /\ assoc_mem n (d_nodes d4) = false).
        { clear -Ef. induction (forb_names x) as [|n l IH]; simpl in Ef; [discriminate|].
          destruct (assoc_mem n (d_nodes d4)) eqn:Em; [|exists n; simpl; auto]. destruct (IH Ef) as (m & H1 & H2).
          exists m. simpl. auto. }
        destruct Q as (n & Hn & Hm). exists x, n. split; [apply in_or_app; right; apply in_or_app; right; left; reflexivity|].
        split; [exact Hn|]. rewrite <- (Names _ _ _ _ R1). intros Hin. apply assoc_mem_iff in Hin. congruence. }
    pose proof (clean_commit d3) as Cl. destruct (commit d3) as [d4 [[]|e1]]; cbn [snd] in Cl.
    - cbv zeta in H. pose proof (clean_default (mk_space d4 (length (d_nodes d4)))) as Cd.
      destruct (check_default_configuration _) as [x|e1]; [discriminate|].
      assert (e1 = e) by (inversion H; reflexivity). subst e1. rewrite (Cd e eq_refl) in De. discriminate.
    - assert (e1 = e) by (inversion H; reflexivity). subst e1. rewrite (Cl e eq_refl) in De. discriminate.
  Qed.
  Lemma add_reason s hs cs fs hs' cs' fs' s' e : built s hs cs fs ->
    Forall constructed hs' -> Forall cond_built cs' -> Forall forb_built fs' ->
    add s hs' cs' fs' = (s', Err e) -> decl_err e = true ->
    reason (hs ++ hs') (cs ++ cs') (fs ++ fs') e.
  Proof. intros B. apply inv_reason. exact (so_inv _ _ _ _ (built_ok _ _ _ _ B)). Qed.

  Theorem C05_reason s hs cs fs hs' cs' fs' s' : built s hs cs fs ->
    Forall constructed hs' -> Forall cond_built cs' -> Forall forb_built fs' ->
    add s hs' cs' fs' = (s', Err CyclicDependancyError) -> ~ no_cycle (cs ++ cs').
  Proof. intros B A1 A2 A3 H. apply (add_reason _ _ _ _ _ _ _ _ _ B A1 A2 A3 H eq_refl). Qed.

  (** ** C06 *)
  Theorem C06_one_condition s hs cs fs c c' n : built s hs cs fs ->
    In c cs -> In c' cs -> activates c n -> activates c' n -> cond_eqb c c' = true.
  Proof.
    intros B H1 H2 A1 A2. apply built_ok in B.
    destruct (so_declared B n c H1 A1) as (d & D1 & D2). destruct (so_declared B n c' H2 A2) as (d' & D3 & D4).
    assert (d' = d) by congruence. subst d'. destruct (so_condof_in B _ _ D1) as [Hd _].
    assert (W : forall x, In x cs -> cond_wf x) by (intros x Hx; apply cond_built_wf, (so_cond_built B), Hx).
    apply (cond_eqb_trans c d c'); auto. rewrite cond_eqb_sym; auto.
  Qed.

  Lemma space_eta (s : space) : mk_space (s_dag s) (s_len s) = s.
  Proof. destruct s; reflexivity. Qed.
  Lemma set_nodes_eta d : set_nodes (d_nodes d) d = d.
  Proof. destruct d; reflexivity. Qed.

  (** a different condition for a child that has one: refused, and nothing changes *)
  Theorem C06_ambiguous s hs cs fs c c' n : built s hs cs fs -> cond_built c -> activates c n ->
    In c' cs -> activates c' n -> cond_eqb c c' = false ->
    add s [] [c] [] = (s, Err AmbiguousConditionError).
  Proof.
    intros B C A Hc Ac Hq. apply built_ok in B.
    assert (AC := add_condition_spec (d_nodes (s_dag s)) c n (so_graph B) (cond_built_wf c C) A).
    destruct (so_declared B n c' Hc Ac) as (d & D1 & D2). destruct (so_condof_in B _ _ D1) as [Hd _].
    assert (Hk : In n (keys s)) by (eapply so_condof_key; eauto).
    assert (Hqd : cond_eqb c d = false).
    { destruct (cond_eqb c d) eqn:Ecd; [|reflexivity]. rewrite <- Hq. symmetry.
      apply (cond_eqb_trans c d c'); auto using cond_built_wf; apply cond_built_wf, (so_cond_built B); assumption. }
    rewrite add_eq. unfold dag_update. cbn [run]. unfold dag_add_condition.
    inversion AC as [Hn|c0 Hin Hc0 Hq0|ns' p Hin Hc0 Hp Hn|ns' Hin Hc0 Hn|ns' Hin Hc0]; cbn [fst snd];
      try (exfalso; rewrite (Hc0 d D1) in Hqd; discriminate).
    - contradiction.
    - rewrite set_nodes_eta, space_eta. reflexivity.
  Qed.

  (** an equal condition once more: not refused; depths and layout stay *)
  Theorem C06_equal s hs cs fs c c' n : built s hs cs fs -> cond_built c -> activates c n ->
    In c' cs -> activates c' n -> cond_eqb c c' = true ->
    (forall e, snd (add s [] [c] []) = Err e -> decl_err e = false) /\
    (forall s', add s [] [c] [] = (s', Ok tt) ->
       keys s' = keys s /\ at_ s' = at_ s /\ index_of s' = index_of s /\ Space.hps s' = Space.hps s /\
       forall m, In m (keys s) -> depth_of (d_nodes (s_dag s')) m = depth_of (d_nodes (s_dag s)) m).
  Proof.
    intros B C A Hc Ac Hq. assert (B0 := B). apply built_ok in B.
    assert (W : forall x, In x cs -> cond_wf x) by (intros x Hx; apply cond_built_wf, (so_cond_built B), Hx).
    assert (Wc := cond_built_wf c C).
    assert (Hr : forall p y, reads (cs ++ [c]) p y <-> reads cs p y).
    { intros p y. split; intros (x & H1 & H2 & H3).
      - apply in_app_iff in H1. destruct H1 as [H1|[<-|[]]]; [exists x; auto|].
        exists c'. split; [exact Hc|]. split; [unfold activates in *; congruence|].
        apply (cond_eqb_parents c c' Wc (W c' Hc) Hq). exact H3.
      - exists x. rewrite in_app_iff. auto. }
    assert (Hk : In n (keys s)).
    { destruct (so_declared B n c' Hc Ac) as (d & D1 & D2). eapply so_condof_key; eauto. }
    split.
    - intros e He. pose proof (add1_spec s hs cs fs c n B C A) as O. rewrite He in O.
      inversion O as [H1|c0 H1 H2 H3 H4|p H1 H2 H3 H4|H1 H2 H3|r H1 H2 H3 H4 H5]; subst.
      + contradiction.
      + assert (Q : cond_eqb c' c0 = true) by (apply (C06_one_condition s hs cs fs c' c0 n B0); assumption).
        rewrite (cond_eqb_trans c c' c0) in H4; auto.
      + exfalso. apply H4. apply (so_reads_keys B p n). exists c'. split; [exact Hc|]. split; [exact Ac|].
        apply (cond_eqb_parents c c' Wc (W c' Hc) Hq). exact H3.
      + exfalso. apply H3. intros y Hy. apply (so_no_cycle B y).
        assert (T : forall a b, clos_trans _ (reads (cs ++ [c])) a b -> clos_trans _ (reads cs) a b); [|apply T, Hy].
        induction 1; [apply t_step, Hr; assumption|eapply t_trans; eauto].
      + apply (H1 e eq_refl).
    - intros s' H.
      assert (B' : built s' (hs ++ []) (cs ++ [c]) (fs ++ [])) by (eapply built_add; eauto).
      apply built_ok in B'.
      assert (K : keys s' = keys s).
      { eapply layout_unique; [exact B'|exact B| |exact Hr]. rewrite app_nil_r. reflexivity. }
      split; [exact K|]. split; [rewrite (so_at B), (so_at B'); exact K|]. split.
      { unfold index_of. rewrite (cm_index _ (so_com _ _ _ _ B)), (cm_index _ (so_com _ _ _ _ B')).
        unfold keys in K. rewrite <- (map_length fst (d_nodes (s_dag s))), <- (map_length fst (d_nodes (s_dag s'))), K. reflexivity. }
      split.
      { change (Space.hps s') with (map snd (items s')). change (Space.hps s) with (map snd (items s)).
        unfold items. rewrite !map_map. simpl. change (node_hps (d_nodes (s_dag s')) = node_hps (d_nodes (s_dag s))).
        apply node_hps_ext; [apply (so_nodup B)|exact K|]. intros y. change (get_hp s' y = get_hp s y).
        destruct (get_hp s y) as [h|] eqn:Eh.
        - apply (so_get_hp B'). rewrite app_nil_r. apply (so_get_hp B). exact Eh.
        - destruct (get_hp s' y) as [h|] eqn:Eh'; [|reflexivity]. apply (so_get_hp B') in Eh'. rewrite app_nil_r in Eh'.
          apply (so_get_hp B) in Eh'. congruence. }
      intros m Hm. apply (longest_unique (cs := cs) m); [|apply (so_longest B); exact Hm].
      assert (Lg := so_longest B' m). rewrite K in Lg. specialize (Lg Hm).
      assert (T : forall x k, chain (cs ++ [c]) x k <-> chain cs x k).
      { intros x k. split; induction 1 as [|p x k _ IH Hp]; try constructor; (econstructor; [exact IH|apply Hr; exact Hp]). }
      destruct Lg as [L1 L2]. split; [apply T; exact L1|]. intros k Hk'. apply L2, T, Hk'.
  Qed.

  Theorem C06_reason s hs cs fs hs' cs' fs' s' : built s hs cs fs ->
    Forall constructed hs' -> Forall cond_built cs' -> Forall forb_built fs' ->
    add s hs' cs' fs' = (s', Err AmbiguousConditionError) ->
    exists c c' n, In c (cs ++ cs') /\ In c' (cs ++ cs') /\ activates c n /\ activates c' n /\ cond_eqb c c' = false.
  Proof. intros B A1 A2 A3 H. apply (add_reason _ _ _ _ _ _ _ _ _ B A1 A2 A3 H eq_refl). Qed.

  (** ** C07 *)
  Theorem C07_known_names s hs cs fs : built s hs cs fs ->
    (forall c n, In c cs -> activates c n -> In n (keys s)) /\
    (forall c p, In c cs -> In p (cond_parents c) -> In p (keys s)) /\
    (forall f n, In f fs -> In n (forb_names f) -> In n (keys s)).
  Proof.
    intros B. apply built_ok in B. split; [|split].
    - intros c n Hc Ha. destruct (so_declared B n c Hc Ha) as (d & D & _). eapply so_condof_key; eauto.
    - intros c p Hc Hp. destruct (cond_built_child c (so_cond_built B c Hc)) as (n & Hn).
      apply (so_reads_keys B p n). exists c. auto.
    - intros f n Hf Hn. apply (di_fnames _ _ _ _ (so_inv _ _ _ _ B) f n Hf Hn).
  Qed.

  Theorem C07_unknown_child s hs cs fs c n : built s hs cs fs -> cond_built c -> activates c n ->
    ~ In n (keys s) -> add s [] [c] [] = (s, Err ChildNotFoundError).
  Proof.
    intros B C A Hn. apply built_ok in B.
    rewrite add_eq. unfold dag_update. cbn [run]. unfold dag_add_condition, add_condition.
    unfold activates in A. destruct (cond_child c) as [ch|]; [|discriminate]. simpl in A. inversion A; subst.
    rewrite (proj2 (assoc_None (hp_name ch) (d_nodes (s_dag s))) Hn). cbn [fst snd].
    rewrite set_nodes_eta, space_eta. reflexivity.
  Qed.

  Theorem C07_unknown_parent s hs cs fs c n p : built s hs cs fs -> cond_built c -> activates c n ->
    In n (keys s) -> (forall c', In c' cs -> activates c' n -> cond_eqb c c' = true) ->
    In p (cond_parents c) -> ~ In p (keys s) ->
    snd (add s [] [c] []) = Err ParentNotFoundError \/
    (snd (add s [] [c] []) = Err CyclicDependancyError /\ ~ no_cycle (cs ++ [c])).
  Proof.
    intros B C A Hn Hq Hp Hnp. apply built_ok in B. pose proof (add1_spec s hs cs fs c n B C A) as O.
    inversion O as [H1|c' H1 H2 H3 H4|p' H1 H2 H3 H4|H1 H2 H3|r H1 H2 H3 H4 H5]; subst.
    - contradiction.
    - rewrite (Hq c' H2 H3) in H4. discriminate.
    - left. reflexivity.
    - right. auto.
    - exfalso. apply Hnp, H4, Hp.
  Qed.

  Theorem C07_unknown_in_clause s hs cs fs f n : built s hs cs fs -> In n (forb_names f) -> ~ In n (keys s) ->
    add s [] [] [f] = (s, Err HyperparameterNotFoundError).
  Proof.
    intros B Hn Hk. rewrite add_eq. unfold dag_update. cbn [run]. unfold dag_add_forbidden.
    destruct (forallb (fun n => assoc_mem n (d_nodes (s_dag s))) (forb_names f)) eqn:Ef.
    - rewrite forallb_forall in Ef. exfalso. apply Hk. apply assoc_mem_iff. apply Ef, Hn.
    - rewrite space_eta. reflexivity.
  Qed.

  Theorem C07_reason s hs cs fs hs' cs' fs' s' e : built s hs cs fs ->
    Forall constructed hs' -> Forall cond_built cs' -> Forall forb_built fs' ->
    add s hs' cs' fs' = (s', Err e) ->
    (e = ChildNotFoundError -> exists c n, In c (cs ++ cs') /\ activates c n /\ ~ In n (map hp_name (hs ++ hs'))) /\
    (e = ParentNotFoundError -> exists c p, In c (cs ++ cs') /\ In p (cond_parents c) /\ ~ In p (map hp_name (hs ++ hs'))) /\
    (e = HyperparameterNotFoundError -> exists f n, In f (fs ++ fs') /\ In n (forb_names f) /\ ~ In n (map hp_name (hs ++ hs'))) /\
    (e = HyperparameterAlreadyExistsError -> ~ NoDup (map hp_name (hs ++ hs'))).
  Proof.
    intros B A1 A2 A3 H. pose proof (add_reason _ _ _ _ _ _ _ _ _ B A1 A2 A3 H) as R.
    split; [|split; [|split]]; intros ->; exact (R eq_refl).
  Qed.

  (** ** C08, the part that holds: a hyperparameter, condition or clause added alone and refused with
      one of these exceptions leaves the space as it was. What is missing: calls with several arguments,
      ParentNotFoundError, CyclicDependancyError, and a default configuration that turns out invalid. *)
  Theorem C08_single_partial s hs cs fs : built s hs cs fs ->
    (forall h, In (hp_name h) (keys s) -> add s [h] [] [] = (s, Err HyperparameterAlreadyExistsError)) /\
    (forall c s', cond_built c -> add s [] [c] [] = (s', Err ChildNotFoundError) -> s' = s) /\
    (forall c s', cond_built c -> add s [] [c] [] = (s', Err AmbiguousConditionError) -> s' = s) /\
    (forall f s', add s [] [] [f] = (s', Err HyperparameterNotFoundError) -> s' = s).
  Proof.
    intros B. assert (O := built_ok _ _ _ _ B).
    assert (C1 : forall c n e s', cond_built c -> activates c n -> add s [] [c] [] = (s', Err e) ->
      e = ChildNotFoundError \/ e = AmbiguousConditionError -> s' = s).
    { intros c n e s' C A H He.
      pose proof (add1_spec s hs cs fs c n O C A) as OC. rewrite H in OC. cbn [snd] in OC.
      inversion OC as [H1|c0 H1 H2 H3 H4|p H1 H2 H3 H4|H1 H2 H3|r H1 H2 H3 H4 H5]; subst.
      - rewrite (C07_unknown_child s hs cs fs c n B C A H0) in H || rewrite (C07_unknown_child s hs cs fs c n B C A H1) in H. congruence.
      - rewrite (C06_ambiguous s hs cs fs c c0 n B C A H2 H3 H4) in H. congruence.
      - destruct He; discriminate.
      - destruct He; discriminate.
      - specialize (H1 e eq_refl). destruct He; subst; discriminate. }
    split; [|split; [|split]].
    - intros h Hh. rewrite add_eq. unfold dag_update. cbn [run]. unfold dag_add.
      rewrite (proj2 (assoc_mem_iff (hp_name h) (d_nodes (s_dag s))) Hh). rewrite space_eta. reflexivity.
    - intros c s' C H. destruct (cond_built_child c C) as (n & Hn). eapply C1; eauto.
    - intros c s' C H. destruct (cond_built_child c C) as (n & Hn). eapply C1; eauto.
    - intros f s' H. rewrite add_eq in H. unfold dag_update in H. cbn [run] in H. unfold dag_add_forbidden in H.
      destruct (forallb (fun n => assoc_mem n (d_nodes (s_dag s))) (forb_names f)) eqn:Ef.
      + exfalso.
        assert (Q : forall d, let (d0, r) := commit d in
             match r with Ok _ => clean (check_default_configuration (mk_space d0 (length (d_nodes d0)))) | Err e => decl_err e = false end).
        { intros d. pose proof (clean_commit d) as Cl. destruct (commit d) as [d0 [[]|e]]; cbn [snd] in Cl.
          - apply clean_default.
          - apply Cl. reflexivity. }
        destruct (is_unconditional _ _); cbn [fst snd] in H;
        match type of H with context [commit ?d] => specialize (Q d); destruct (commit d) as [d0 [[]|e]] end;
        try (destruct (check_default_configuration (mk_space d0 (length (d_nodes d0)))) as [x|e]; [discriminate|specialize (Q e eq_refl)]);
        assert (e = HyperparameterNotFoundError) by congruence; subst e; discriminate.
      + cbn [fst snd] in H. rewrite space_eta in H. congruence.
  Qed.

  (** ** C09 *)
  Theorem C09_partition s hs cs fs : built s hs cs fs ->
    (forall n, In n (unconditional_hyperparameters s) <-> In n (keys s) /\ ~ conditional cs n) /\
    (forall n, In n (conditional_hyperparameters s) <-> In n (keys s) /\ conditional cs n) /\
    Permutation (unconditional_hyperparameters s ++ conditional_hyperparameters s) (keys s) /\
    NoDup (unconditional_hyperparameters s ++ conditional_hyperparameters s).
  Proof.
    intros B. apply built_ok in B. split; [|split; [|split]].
    - intros n. rewrite (so_root B), (so_conditional B). split; intros [H1 H2]; (split; [exact H1|]).
      + intros (c & Hc). congruence.
      + destruct (condof (d_nodes (s_dag s)) n) as [c|]; [|reflexivity]. exfalso. apply H2. eauto.
    - intros n. rewrite (so_nonroot B), (so_conditional B). split; [|tauto]. intros (c & Hc). split; [|eauto].
      eapply so_condof_key; eauto.
    - apply (so_partition B).
    - eapply Permutation_NoDup; [symmetry; apply (so_partition B)|apply (so_nodup B)].
  Qed.

  (** ** C10 *)
  Theorem C10_inverse s hs cs fs p c lp lc : built s hs cs fs ->
    In p hs -> In c hs ->
    assoc (hp_name p) (children_of s) = Some lp -> assoc (hp_name c) (parents_of s) = Some lc ->
    (In c lp <-> In p lc) /\ (In c lp <-> reads cs (hp_name p) (hp_name c)).
  Proof.
    intros B Hp Hc H1 H2. apply built_ok in B.
    rewrite (so_children B _ _ H1), (so_parents B _ _ H2). tauto.
  Qed.

  (** every name has its entries, and they list hyperparameters of the space *)
  Theorem C10_total s hs cs fs n : built s hs cs fs -> In n (keys s) ->
    exists lp lc, assoc n (children_of s) = Some lp /\ assoc n (parents_of s) = Some lc /\ incl lp hs /\ incl lc hs.
  Proof.
    intros B Hn. apply built_ok in B. apply assoc_Some_key in Hn. destruct Hn as (nd & Hnd).
    unfold children_of, parents_of. rewrite (cm_children _ (so_com _ _ _ _ B)), (cm_parents _ (so_com _ _ _ _ B)).
    rewrite (assoc_map (fun nd => concat (map (fun c => hp_named (d_nodes (s_dag s)) (fst c)) (n_children nd)))).
    rewrite (assoc_map (fun nd => concat (map (fun c => hp_named (d_nodes (s_dag s)) (fst c)) (n_parents nd)))).
    rewrite Hnd. simpl. eexists. eexists. split; [reflexivity|]. split; [reflexivity|].
    assert (Q : forall l : list (string * cond), incl (concat (map (fun c => hp_named (d_nodes (s_dag s)) (fst c)) l)) hs).
    { intros l h Hh. apply in_concat in Hh. destruct Hh as (x & Hx & Hh). apply in_map_iff in Hx. destruct Hx as (e & <- & _).
      apply so_hp_named in Hh. apply (so_get_hp B) in Hh. apply Hh. }
    split; apply Q.
  Qed.

  (** parent_conditions_of holds the declared condition and nothing else *)
  Theorem C10_parent_conditions s hs cs fs n : built s hs cs fs -> In n (keys s) ->
    (conditional cs n -> exists c, assoc n (parent_conditions_of s) = Some [c] /\ In c cs /\ activates c n /\
       forall p, In p (cond_parents c) <-> reads cs p n) /\
    (~ conditional cs n -> assoc n (parent_conditions_of s) = Some []).
  Proof.
    intros B Hn. apply built_ok in B. apply assoc_Some_key in Hn. destruct Hn as (nd & Hnd).
    assert (Q : assoc n (parent_conditions_of s) = Some (own_conds nd)).
    { unfold parent_conditions_of. rewrite (cm_parent_conds _ (so_com _ _ _ _ B)).
      rewrite (assoc_map own_conds), Hnd. reflexivity. }
    rewrite Q. unfold own_conds. rewrite (so_conditional B). unfold condof. rewrite Hnd.
    destruct (n_cond nd) as [c|] eqn:Ec.
    - assert (Hc : condof (d_nodes (s_dag s)) n = Some c) by (unfold condof; rewrite Hnd; exact Ec). split.
      + intros _. exists c. split; [reflexivity|]. destruct (so_condof_in B _ _ Hc) as [H1 H2].
        split; [exact H1|]. split; [exact H2|]. intros p. split.
        * intros Hp. exists c. auto.
        * intros (c' & K1 & K2 & K3). destruct (so_declared B n c' K1 K2) as (c0 & D1 & D2).
          assert (c0 = c) by congruence. subst c0.
          apply (cond_eqb_parents c c'); [apply cond_built_wf, (so_cond_built B), H1|apply cond_built_wf, (so_cond_built B), K1|exact D2|exact K3].
      + intros H. exfalso. apply H. eauto.
    - split; [|reflexivity]. intros (c & Hc). discriminate.
  Qed.

  (** child_conditions_of[p] holds exactly the conditions in force that read p *)
  Theorem C10_child_conditions s hs cs fs p l : built s hs cs fs ->
    assoc p (child_conditions_of s) = Some l ->
    forall c, In c l <-> exists n, assoc n (parent_conditions_of s) = Some [c] /\ reads cs p n.
  Proof.
    intros B H c. apply built_ok in B. rewrite (so_child_conds B p l H).
    assert (Q : forall n, assoc n (parent_conditions_of s) = Some [c] <-> condof (d_nodes (s_dag s)) n = Some c).
    { intros n. unfold parent_conditions_of. rewrite (cm_parent_conds _ (so_com _ _ _ _ B)), (assoc_map own_conds).
      unfold condof, own_conds. destruct (assoc n (d_nodes (s_dag s))) as [nd|]; simpl; [|split; discriminate].
      destruct (n_cond nd); split; congruence. }
    split; intros (n & H1 & H2); exists n; (split; [apply Q; exact H1|exact H2]).
  Qed.
End Graph.

(** ** C08 is false as stated: a rejected add can leave traces *)
Section Refute.
  #[local] Existing Instance rat_env.

  Definition hZ := get_or dummy_hp (mk_constant "z" (VInt 1) None).
  Lemma hZ_c : constructed hZ. Proof. apply (CtorConst "z" (VInt 1) None hZ); vm_compute; reflexivity. Qed.

  (** add([z, a]) where a exists: rejected, but z stays, and the cached views do not know it *)
  Theorem C08_atomic_refuted :
    ~ (forall s hs cs fs hs' cs' fs' s' e, built s hs cs fs ->
         Forall constructed hs' -> Forall cond_built cs' -> Forall forb_built fs' ->
         add s hs' cs' fs' = (s', Err e) -> keys s' = keys s).
  Proof.
    intros H.
    assert (K : add ex_space [hZ; hA] [] [] = (fst (add ex_space [hZ; hA] [] []), Err HyperparameterAlreadyExistsError)).
    { assert (Q : snd (add ex_space [hZ; hA] [] []) = Err HyperparameterAlreadyExistsError) by (vm_compute; reflexivity).
      destruct (add ex_space [hZ; hA] [] []) as [s r]. simpl in *. congruence. }
    specialize (H _ _ _ _ _ _ _ _ _ ex_built (Forall_cons _ hZ_c (Forall_cons _ hA_c (Forall_nil _))) (Forall_nil _) (Forall_nil _) K).
    clear -H. vm_compute in H. discriminate H.
  Qed.

  (** a rejected cyclic condition makes a later, legitimate condition fail *)
  Definition cA := get_or dummy_cond (mk_bin OpEq hA hG (VStr "q")).
  Definition cK := get_or dummy_cond (mk_bin OpEq hK hA (VStr "x")).
  Lemma cA_c : cond_built cA. Proof. apply (CB_bin OpEq hA hG (VStr "q") cA hA_c hG_c); vm_compute; reflexivity. Qed.
  Lemma cK_c : cond_built cK. Proof. apply (CB_bin OpEq hK hA (VStr "x") cK hK_c hA_c); vm_compute; reflexivity. Qed.

  Theorem C08_poisoned_refuted :
    ~ (forall s hs cs fs c c' s1 e, built s hs cs fs -> cond_built c -> cond_built c' ->
         add s [] [c] [] = (s1, Err e) -> snd (add s [] [c'] []) = Ok tt -> snd (add s1 [] [c'] []) = Ok tt).
  Proof.
    intros H.
    assert (K : add ex_space [] [cA] [] = (fst (add ex_space [] [cA] []), Err CyclicDependancyError)).
    { assert (Q : snd (add ex_space [] [cA] []) = Err CyclicDependancyError) by (vm_compute; reflexivity).
      destruct (add ex_space [] [cA] []) as [s r]. simpl in *. congruence. }
    assert (L : snd (add ex_space [] [cK] []) = Ok tt) by (vm_compute; reflexivity).
    specialize (H _ _ _ _ cA cK _ _ ex_built cA_c cK_c K L).
    clear -H. vm_compute in H. discriminate H.
  Qed.

  (** ** The hypotheses can be met *)
  Example C01_ex : keys ex_space = ["a"; "k"; "l"; "n"; "o"; "b"; "e"; "g"; "c"]%string.
  Proof. vm_compute. reflexivity. Qed.

  (** the declaration order differs, the space does not *)
  Definition ex_space' := fst (add (fst (add (fst (add empty_space (rev ex_hps) [] [])) [] [cG; cE] [fG])) [] [cB; cC] [fAnd3; fAnd2; fRel; fAnd1]).
  Example C02_ex_built : built ex_space' (rev ex_hps) [cG; cE; cB; cC] [fG; fAnd3; fAnd2; fRel; fAnd1].
  Proof.
    assert (B1 := built_step empty_space [] [] [] (rev ex_hps) [] [] built_empty
      (Forall_rev ex_hps_c) (Forall_nil _) (Forall_nil _) ltac:(vm_compute; reflexivity)).
    assert (B2 := built_step _ _ _ _ [] [cG; cE] [fG] B1 (Forall_nil _)
      (Forall_cons _ cG_c (Forall_cons _ cE_c (Forall_nil _))) (Forall_cons _ fG_c (Forall_nil _))
      ltac:(vm_compute; reflexivity)).
    assert (B3 := built_step _ _ _ _ [] [cB; cC] [fAnd3; fAnd2; fRel; fAnd1] B2 (Forall_nil _)
      (Forall_cons _ cB_c (Forall_cons _ cC_c (Forall_nil _)))
      (Forall_cons _ fAnd3_c (Forall_cons _ fAnd2_c (Forall_cons _ fRel_c (Forall_cons _ fAnd1_c (Forall_nil _)))))
      ltac:(vm_compute; reflexivity)).
    exact B3.
  Qed.
  Example C02_ex : keys ex_space = keys ex_space'.
  Proof. vm_compute. reflexivity. Qed.

  Example C03_ex : assoc "g"%string (index_of ex_space) = Some 7 /\ nth_error (at_ ex_space) 7 = Some "g"%string.
  Proof. split; vm_compute; reflexivity. Qed.
  Example C04_ex : depth_of (d_nodes (s_dag ex_space)) "c"%string = 3.
  Proof. vm_compute. reflexivity. Qed.
  Example C05_ex : snd (add ex_space [] [cA] []) = Err CyclicDependancyError.
  Proof. vm_compute. reflexivity. Qed.

  Definition cG' := get_or dummy_cond (mk_bin OpEq hG hA (VStr "z")).
  Example C06_ex : snd (add ex_space [] [cG'] []) = Err AmbiguousConditionError /\ snd (add ex_space [] [cG] []) = Ok tt.
  Proof. split; vm_compute; reflexivity. Qed.

  Definition cZ := get_or dummy_cond (mk_bin OpEq hZ hA (VStr "z")).
  Definition cKZ := get_or dummy_cond (mk_bin OpEq hK hZ (VInt 1)).
  Definition fZ := get_or dummy_forb (mk_feq hZ (VInt 1)).
  Example C07_ex : snd (add ex_space [] [cZ] []) = Err ChildNotFoundError /\
    snd (add ex_space [] [cKZ] []) = Err ParentNotFoundError /\
    snd (add ex_space [] [] [fZ]) = Err HyperparameterNotFoundError.
  Proof. repeat split; vm_compute; reflexivity. Qed.
  Example C08_ex : snd (add ex_space [hB] [] []) = Err HyperparameterAlreadyExistsError.
  Proof. vm_compute. reflexivity. Qed.
  Example C09_ex : unconditional_hyperparameters ex_space = ["a"; "k"; "l"; "n"; "o"]%string /\
    conditional_hyperparameters ex_space = ["b"; "e"; "g"; "c"]%string.
  Proof. split; vm_compute; reflexivity. Qed.
  Example C10_ex : option_map (map hp_name) (assoc "a"%string (children_of ex_space)) = Some ["b"; "e"; "g"]%string /\
    option_map (map hp_name) (assoc "c"%string (parents_of ex_space)) = Some ["n"; "b"]%string.
  Proof. split; vm_compute; reflexivity. Qed.
End Refute.
