(** * Adding a configuration space under a parent (C54) *)
From Coq Require Import String List ZArith QArith Bool Lia Permutation Relations.
From Verif Require Import Base ListFacts Numeric NumericProofs HP HPProofs Properties_HP Cond Forb EqFacts Dag DagCycle DagProofs
  Space CommitProofs Spec SpaceProofs CnodeProofs ForbProofs AddProofs EvalProofs ForbEval MergeProofs ValidProofs ConfigProofs
  ChangeProofs ReadProofs Ex DistProofs Properties_Graph Properties_Eval Properties_Config Properties_Repair Properties_Raise
  Properties_Add Serial Properties_Serial Priors Properties_Priors Subspace RenameProofs Properties_Sub.
Import ListNotations.
Open Scope string_scope.
Open Scope nat_scope.
Open Scope list_scope.

Section Gate.
  Context {E : Env} {L : EnvLaws E}.

  (** a condition that holds reads a hyperparameter with a value *)
  Lemma holds_some d c : cond_good c -> holds d c -> exists n, In n (cond_parents c) /\ d n <> None.
  Proof.
    unfold cond_parents. induction c as [l|cs IH|cs IH] using cond_ind'; intros G H; simpl in *.
    - destruct H as (w & Hw & _). exists (parent_name l). split; [left; reflexivity|]. unfold parent_name. congruence.
    - inversion G as [|? Gc Len|]; subst. destruct cs as [|c cs]; [simpl in Len; lia|]. simpl in H. destruct H as [H _].
      inversion IH as [|? ? I1 _]; subst. destruct (I1 (Gc c (or_introl eq_refl)) H) as (n & Hn & Dn). exists n. split; [|exact Dn].
      simpl. rewrite map_app. apply in_or_app. left. exact Hn.
    - inversion G as [| |? Gc Len]; subst. clear Len G. induction cs as [|c cs IHc]; [destruct H|]. simpl in H. inversion IH as [|? ? I1 I2]; subst.
      destruct H as [H|H].
      + destruct (I1 (Gc c (or_introl eq_refl)) H) as (n & Hn & Dn). exists n. split; [|exact Dn]. simpl. rewrite map_app. apply in_or_app. left. exact Hn.
      + destruct (IHc I2 H) as (n & Hn & Dn). { intros x Hx. apply Gc. right. exact Hx. }
        exists n. split; [|exact Dn]. simpl. rewrite map_app. apply in_or_app. right. exact Hn.
  Qed.
  (** a clause violated without any values is violated by everything *)
  Lemma violated_none d f : (forall n, In n (forb_names f) -> d n = None) -> violated d f -> forall d', violated d' f.
  Proof.
    induction f as [h v vv|h vs vvs|r a b|fs IH] using fclause_ind'; intros H V d'; simpl in *.
    - destruct V as (w & Hw & _). rewrite (H (hp_name h)) in Hw; [discriminate|left; reflexivity].
    - destruct V as (w & x & Hw & _). rewrite (H (hp_name h)) in Hw; [discriminate|left; reflexivity].
    - destruct V as (w & x & Hw & _). rewrite (H (hp_name a)) in Hw; [discriminate|left; reflexivity].
    - induction IH as [|f fs Hf _ IH]; [exact I|]. simpl in *. destruct V as [V1 V2]. split.
      + apply Hf; [|exact V1]. intros n Hn. apply H. unfold forb_names, forb_hps in *. simpl. rewrite map_app, concat_app, map_app. apply in_or_app. left. exact Hn.
      + apply IH; [|exact V2]. intros n Hn. apply H. unfold forb_names, forb_hps in *. simpl. rewrite map_app, concat_app, map_app. apply in_or_app. right. exact Hn.
  Qed.

  Lemma good_parent c : cond_good c -> exists n, In n (cond_parents c).
  Proof.
    unfold cond_parents. induction c as [l|cs IH|cs IH] using cond_ind'; intros G; simpl.
    - exists (parent_name l). left. reflexivity.
    - inversion G as [|? Gc Len|]; subst. destruct cs as [|c cs]; [simpl in Len; lia|]. inversion IH as [|? ? I1 _]; subst.
      destruct (I1 (Gc c (or_introl eq_refl))) as (n & Hn). exists n. simpl. rewrite map_app. apply in_or_app. left. exact Hn.
    - inversion G as [| |? Gc Len]; subst. destruct cs as [|c cs]; [simpl in Len; lia|]. inversion IH as [|? ? I1 _]; subst.
      destruct (I1 (Gc c (or_introl eq_refl))) as (n & Hn). exists n. simpl. rewrite map_app. apply in_or_app. left. exact Hn.
  Qed.

  (** merging is sound for every order of the hyperparameters *)
  Lemma tame_merge t ht ct ft io : tame t ht ct ft -> merge_sound io ct.
  Proof.
    intros Tt. assert (Ot := built_ok _ _ _ _ (tm_built _ _ _ _ Tt)). intros c d v Hc Hd Eq.
    set (v' := map (vget io v) (keys t)).
    assert (G : forall x, In x ct -> sat_vec io v x = sat_vec (index_of t) v' x).
    { intros x Hx. assert (Q := sat_rename (fun n => n) io (index_of t) v v' x).
      assert (I : rename_cond (fun n => n) x = x).
      { clear. induction x as [l|xs IH|xs IH] using cond_ind'; simpl.
        - destruct l as [[] [] t]. reflexivity.
        - f_equal. induction IH as [|x xs Hx _ IH]; [reflexivity|]. simpl. rewrite Hx, IH. reflexivity.
        - f_equal. induction IH as [|x xs Hx _ IH]; [reflexivity|]. simpl. rewrite Hx, IH. reflexivity. }
      rewrite I in Q. apply Q. intros n Hn. symmetry. apply (reorder t ht ct ft); [exact Ot|].
      apply (refs_parent ht x n (proj1 (tm_refs _ _ _ _ Tt) x Hx) Hn). }
    rewrite (G c Hc), (G d Hd). apply (tm_merge _ _ _ _ Tt); assumption.
  Qed.

  Context {t : space} {ht : list hp} {ct : list cond} {ft : list fclause}.
  Context {s : space} {hs : list hp} {cs : list cond} {fs : list fclause}.
  Variables p dl : string.
  Hypothesis Tt : tame t ht ct ft.
  Hypothesis Ts : tame s hs cs fs.
  Hypothesis U : distinct_strings s.
  Hypothesis ND : NoDup (map hp_name ht ++ map (new_name p dl) (map hp_name hs)).
  Let g := new_name p dl.
  Let hs2 := map (rename_hp g) (Space.hps s).
  Let cs2 := map (rename_cond g) (conditions s).
  Let fs2 := map (rename_forb g) (forbidden_clauses s).
  Let Os : space_ok s hs cs fs := built_ok _ _ _ _ (tm_built _ _ _ _ Ts).
  Let Ot : space_ok t ht ct ft := built_ok _ _ _ _ (tm_built _ _ _ _ Tt).
  Let Inj : forall n m, In n (map hp_name hs) -> In m (map hp_name hs) -> g n = g m -> n = m := sub_inj p dl ND.
  Let Apart : forall n, In n (map hp_name hs) -> ~ In (g n) (map hp_name ht) := sub_apart p dl ND.
  Let Ph : Permutation (Space.hps s) hs := so_hps Os.
  Let Rs : refs hs cs fs := tm_refs _ _ _ _ Ts.
  Let Bs : built s hs cs fs := tm_built _ _ _ _ Ts.

  Let JT d n : In n (map hp_name ht) -> (active (ct ++ cs2) d n <-> active ct d n) := jn_active_t g Ts U Apart d n.
  Let JS d n : In n (map hp_name hs) -> (active (ct ++ cs2) d (g n) <-> active (conditions s) (fun m => d (g m)) n) :=
    jn_active_s g Tt Ts U Inj Apart d n.

  Variables (q : hp) (v : value) (vv : fval).
  Hypothesis Hq : In q ht.
  Hypothesis Hv : legal_value q v = true.
  Hypothesis Hvv : to_vector q v = Ok vv.
  Hypothesis NoNe : forall c l w x, In c cs -> In l (dlcs c) -> l_test l <> TBin OpNe w x.

  Definition gate (h : hp) : cond := CLit (mk_lit h q (TBin OpEq v vv)).
  Definition opened (d : assignment) : Prop := exists w, d (hp_name q) = Some w /\ py_eqb w v = true.
  Lemma opened_dec d : opened d \/ ~ opened d.
  Proof.
    unfold opened. destruct (d (hp_name q)) as [w|]; [|right; intros (w & ? & _); discriminate].
    destruct (py_eqb w v) eqn:Ew; [left; eauto|right]. intros (x & Hx & Q). congruence.
  Qed.
  Lemma gate_holds d h : holds d (gate h) <-> opened d.
  Proof. reflexivity. Qed.
  Lemma gate_activates h n : activates (gate h) n <-> n = hp_name h.
  Proof. unfold activates, gate. simpl. split; congruence. Qed.

  Lemma q_name : In (hp_name q) (map hp_name ht).
  Proof. apply in_map, Hq. Qed.
  Lemma q_apart m : In m (map hp_name hs) -> g m <> hp_name q.
  Proof. intros Hm Q. apply (Apart m Hm). rewrite Q. apply q_name. Qed.

  Section Second.
    Variable t2 : space.
    Hypothesis T2 : tame t2 (ht ++ hs2) (ct ++ cs2) (ft ++ fs2).
    Let O2 : space_ok t2 (ht ++ hs2) (ct ++ cs2) (ft ++ fs2) := built_ok _ _ _ _ (tm_built _ _ _ _ T2).
    Let rs := root_params t2 hs2.
    Let cs3 := map gate rs.

    Lemma rs_spec h : In h rs <-> In h hs2 /\ ~ conditional (ct ++ cs2) (hp_name h).
    Proof.
      unfold rs, root_params. rewrite filter_In. split; intros [H1 H2]; (split; [exact H1|]).
      - destruct (assoc (hp_name h) (parents_of t2)) as [[|x l]|] eqn:Ea; try discriminate. intros (c & Hc & A).
        assert (Gc := cond_built_good c (so_cond_built O2 c Hc)).
        destruct (good_parent c Gc) as (n & Hn).
        assert (Hp := refs_parent _ c n (proj1 (tm_refs _ _ _ _ T2) c Hc) Hn). apply in_map_iff in Hp. destruct Hp as (k & <- & Hk).
        apply (so_parents O2 _ _ Ea k). split; [exact Hk|]. exists c. auto.
      - assert (Hk : In (hp_name h) (keys t2)) by (apply (keys_hs O2); exists h; split; [apply in_or_app; right; exact H1|reflexivity]).
        destruct (C10_total t2 _ _ _ (hp_name h) (tm_built _ _ _ _ T2) Hk) as (_ & lc & _ & Hl & _). rewrite Hl.
        destruct lc as [|k lc]; [reflexivity|]. exfalso. apply H2.
        destruct (proj1 (so_parents O2 _ _ Hl k) (or_introl eq_refl)) as [_ (c & Hc & A & _)]. exists c. auto.
    Qed.
    Lemma rs_made : mapM (fun h => mk_bin OpEq h q v) rs = Ok cs3.
    Proof.
      apply mapM_map. intros h Hh. apply rs_spec in Hh. destruct Hh as [Hh _]. unfold mk_bin.
      assert (hp_eqb h q = false).
      { destruct (hp_eqb h q) eqn:Eh; [|reflexivity]. exfalso. apply hp_eqb_name in Eh. apply in_map_iff in Hh. destruct Hh as (k & <- & Hk).
        apply (q_apart (hp_name k)); [apply in_map, (Permutation_in _ Ph Hk)|exact Eh]. }
      rewrite H. simpl. rewrite Hv, Hvv. reflexivity.
    Qed.
    Lemma rs_name h : In h rs -> exists m, In m (map hp_name hs) /\ hp_name h = g m.
    Proof.
      intros Hh. apply rs_spec in Hh. destruct Hh as [Hh _]. apply in_map_iff in Hh. destruct Hh as (k & <- & Hk).
      exists (hp_name k). split; [apply in_map, (Permutation_in _ Ph Hk)|reflexivity].
    Qed.
    Lemma cs3_in c : In c cs3 <-> exists h, In h rs /\ c = gate h.
    Proof. unfold cs3. rewrite in_map_iff. split; intros (h & ? & ?); eauto. Qed.
    Lemma cs3_built : Forall cond_built cs3.
    Proof.
      apply Forall_forall. intros c Hc. apply cs3_in in Hc. destruct Hc as (h & Hh & ->).
      assert (M := rs_made).
      apply (CB_bin OpEq h q v).
      - apply (so_constructed O2). apply in_or_app. right. apply rs_spec, Hh.
      - apply (so_constructed Ot), Hq.
      - unfold mk_bin. destruct (rs_name h Hh) as (m & Hm & Q).
        assert (hp_eqb h q = false).
        { destruct (hp_eqb h q) eqn:Eh; [|reflexivity]. exfalso. apply hp_eqb_name in Eh. apply (q_apart m Hm). congruence. }
        rewrite H. simpl. rewrite Hv, Hvv. reflexivity.
    Qed.
    Lemma cs3_refs : refs (ht ++ hs2) ((ct ++ cs2) ++ cs3) (ft ++ fs2).
    Proof.
      split; [|apply T2]. intros c Hc. apply in_app_or in Hc. destruct Hc as [Hc|Hc]; [apply (proj1 (tm_refs _ _ _ _ T2)), Hc|].
      apply cs3_in in Hc. destruct Hc as (h & Hh & ->). intros l [<-|[]]. simpl. split; apply in_or_app; [right; apply rs_spec, Hh|left; exact Hq].
    Qed.
    Lemma cs3_one : one_condition ((ct ++ cs2) ++ cs3).
    Proof.
      intros c c' n Hc Hc' A A'. apply in_app_or in Hc, Hc'. destruct Hc as [Hc|Hc], Hc' as [Hc'|Hc'].
      - apply (C06_one_condition t2 _ _ _ c c' n (tm_built _ _ _ _ T2) Hc Hc' A A').
      - exfalso. apply cs3_in in Hc'. destruct Hc' as (h & Hh & ->). apply gate_activates in A'. subst n. apply rs_spec in Hh. apply (proj2 Hh). exists c. auto.
      - exfalso. apply cs3_in in Hc. destruct Hc as (h & Hh & ->). apply gate_activates in A. subst n. apply rs_spec in Hh. apply (proj2 Hh). exists c'. auto.
      - assert (Q := proj1 (Forall_forall _ _) cs3_built c Hc). apply cs3_in in Hc, Hc'. destruct Hc as (h & Hh & ->), Hc' as (k & Hk & ->).
        apply gate_activates in A, A'. assert (h = k).
        { apply (nodup_map_inj hp_name (ht ++ hs2) (so_names_nodup O2)); [| |congruence]; apply in_or_app; right; apply rs_spec; assumption. }
        subst k. apply cond_eqb_refl, cond_built_wf, Q.
    Qed.
    Lemma cs3_reads a b : reads ((ct ++ cs2) ++ cs3) a b <-> reads (ct ++ cs2) a b \/ (a = hp_name q /\ exists h, In h rs /\ b = hp_name h).
    Proof.
      split.
      - intros (c & Hc & A & P). apply in_app_or in Hc. destruct Hc as [Hc|Hc]; [left; exists c; auto|right].
        apply cs3_in in Hc. destruct Hc as (h & Hh & ->). apply gate_activates in A. destruct P as [<-|[]]. split; [reflexivity|eauto].
      - intros [(c & Hc & A & P)|(-> & h & Hh & ->)].
        + exists c. split; [apply in_or_app; left; exact Hc|auto].
        + exists (gate h). split; [apply in_or_app; right; apply cs3_in; eauto|]. split; [apply gate_activates; reflexivity|left; reflexivity].
    Qed.
    Let sub n := exists m, In m (map hp_name hs) /\ n = g m.
    Lemma sub_step a b : reads ((ct ++ cs2) ++ cs3) a b -> sub a -> sub b.
    Proof.
      intros H (m & Hm & ->). apply cs3_reads in H. destruct H as [H|(Q & _)]; [|destruct (q_apart m Hm Q)].
      apply (jn_reads g Ts U) in H. destruct H as [(c & Hc & A & P)|(p0 & c0 & Q & -> & (c & Hc & A & P))].
      - exfalso. apply (Apart m Hm). apply (refs_parent ht c (g m) (proj1 (tm_refs _ _ _ _ Tt) c Hc) P).
      - exists c0. split; [|reflexivity]. apply (refs_child hs c c0 (proj1 Rs c Hc) A).
    Qed.
    Lemma sub_path a b : clos_trans _ (reads ((ct ++ cs2) ++ cs3)) a b -> sub a -> sub b.
    Proof. induction 1 as [a b H|a b c _ IH1 _ IH2]; intros Sa; [apply (sub_step _ _ H Sa)|auto]. Qed.
    Lemma cs3_path a b : clos_trans _ (reads ((ct ++ cs2) ++ cs3)) a b ->
      clos_trans _ (reads (ct ++ cs2)) a b \/ (~ sub a /\ sub b).
    Proof.
      induction 1 as [a b H|a b c H1 IH1 H2 IH2].
      - apply cs3_reads in H. destruct H as [H|(-> & h & Hh & ->)]; [left; apply t_step, H|right].
        destruct (rs_name h Hh) as (m & Hm & Q). split; [|exists m; auto]. intros (m' & Hm' & Q'). apply (q_apart m' Hm'). symmetry. exact Q'.
      - destruct IH1 as [I1|[N1 S1]], IH2 as [I2|[N2 S2]].
        + left. eapply t_trans; eauto.
        + right. split; [|exact S2]. intros Sa. apply N2. apply (sub_path a b H1 Sa).
        + right. split; [exact N1|apply (sub_path b c H2 S1)].
        + contradiction.
    Qed.
    Lemma cs3_cycle : no_cycle ((ct ++ cs2) ++ cs3).
    Proof. intros n H. apply cs3_path in H. destruct H as [H|[N S']]; [apply (C05_acyclic _ _ _ _ (tm_built _ _ _ _ T2) n H)|contradiction]. Qed.
    Lemma cs3_merge io : merge_sound io ((ct ++ cs2) ++ cs3).
    Proof.
      intros c d w Hc Hd Eq.
      assert (Bc : forall x, In x ((ct ++ cs2) ++ cs3) -> cond_built x).
      { intros x Hx. apply in_app_or in Hx. destruct Hx as [Hx|Hx]; [apply (so_cond_built O2), Hx|apply (proj1 (Forall_forall _ _) cs3_built), Hx]. }
      assert (R := proj1 cs3_refs).
      assert (Lit : forall l m, In (CLit l) ((ct ++ cs2) ++ cs3) -> In (CLit m) ((ct ++ cs2) ++ cs3) -> cond_equiv (CLit l) (CLit m) = true ->
        sat_vec io w (CLit l) = sat_vec io w (CLit m)).
      { intros l m Hl Hm Q. apply (equiv_sat_and (ht ++ hs2) io w _ _ (so_names_nodup O2)); auto; try exact I; try (apply cond_built_good, Bc; assumption). }
      destruct (in_app_or _ _ _ Hc) as [Hc1|Hc1], (in_app_or _ _ _ Hd) as [Hd1|Hd1].
      - apply (tame_merge t2 _ _ _ io T2 c d w Hc1 Hd1 Eq).
      - apply cs3_in in Hd1. destruct Hd1 as (k & Hk & ->). destruct c as [l|cc|cc]; [|discriminate|discriminate]. apply Lit; assumption.
      - apply cs3_in in Hc1. destruct Hc1 as (k & Hk & ->). destruct d as [l|cc|cc]; [|discriminate|discriminate]. apply Lit; assumption.
      - apply cs3_in in Hc1, Hd1. destruct Hc1 as (k & Hk & ->), Hd1 as (k' & Hk' & ->). apply Lit; assumption.
    Qed.
    Lemma cs3_ne : ne_safe ((ct ++ cs2) ++ cs3).
    Proof.
      intros c l w x Hc Hl Hx (c' & Hc' & A). apply in_app_or in Hc. destruct Hc as [Hc|Hc].
      2: { apply cs3_in in Hc. destruct Hc as (h & Hh & ->). destruct Hl as [<-|[]]. discriminate Hx. }
      apply in_app_or in Hc'. destruct Hc' as [Hc'|Hc'].
      - apply (tm_ne _ _ _ _ T2 c l w x Hc Hl Hx). exists c'. auto.
      - apply cs3_in in Hc'. destruct Hc' as (h & Hh & ->). apply gate_activates in A. destruct (rs_name h Hh) as (m & Hm & Q).
        apply in_app_or in Hc. destruct Hc as [Hc|Hc].
        + apply (Apart m Hm). rewrite <- Q, <- A. apply (refs_parent ht c _ (proj1 (tm_refs _ _ _ _ Tt) c Hc)). apply (in_map parent_name), Hl.
        + apply in_map_iff in Hc. destruct Hc as (y & <- & Hy). rewrite dlcs_rename in Hl. apply in_map_iff in Hl. destruct Hl as (z & <- & Hz).
          apply (NoNe y z w x (jn_sub Ts U y Hy) Hz Hx).
    Qed.

    (** what is active *)
    Lemma act_t d n : In n (map hp_name ht) -> (active ((ct ++ cs2) ++ cs3) d n <-> active ct d n).
    Proof.
      intros Hn. rewrite <- (JT d n Hn). split; intros H c Hc A.
      - apply H; [apply in_or_app; left; exact Hc|exact A].
      - apply in_app_or in Hc. destruct Hc as [Hc|Hc]; [apply H; assumption|]. exfalso.
        apply cs3_in in Hc. destruct Hc as (h & Hh & ->). apply gate_activates in A. destruct (rs_name h Hh) as (m & Hm & Q). apply (Apart m Hm). congruence.
    Qed.
    Lemma sub_conditional m : In m (map hp_name hs) -> (conditional (ct ++ cs2) (g m) <-> conditional (conditions s) m).
    Proof.
      intros Hm. split; intros (c & Hc & A).
      - destruct (jn_act_s g Tt Ts U Inj Apart c m Hm Hc A) as (x & _ & Hx & Ax). exists x. auto.
      - exists (rename_cond g c). split; [apply in_or_app; right; apply in_map, Hc|apply activates_rename; eauto].
    Qed.
    Lemma act_root d m : In m (map hp_name hs) -> ~ conditional (conditions s) m -> (active ((ct ++ cs2) ++ cs3) d (g m) <-> opened d).
    Proof.
      intros Hm N. assert (Hm' := Hm). apply in_map_iff in Hm'. destruct Hm' as (k & Qk & Hk).
      assert (Hr : In (rename_hp g k) rs).
      { apply rs_spec. split; [apply in_map, (Permutation_in _ (Permutation_sym Ph) Hk)|]. simpl. rewrite Qk, (sub_conditional m Hm). exact N. }
      split.
      - intros H. change (holds d (gate (rename_hp g k))). apply H; [apply in_or_app; right; apply cs3_in; eauto|apply gate_activates; simpl; congruence].
      - intros H c Hc A. apply in_app_or in Hc. destruct Hc as [Hc|Hc].
        + exfalso. apply N, (sub_conditional m Hm). exists c. auto.
        + apply cs3_in in Hc. destruct Hc as (h & _ & ->). exact H.
    Qed.
    Lemma act_sub d m : In m (map hp_name hs) -> conditional (conditions s) m ->
      (active ((ct ++ cs2) ++ cs3) d (g m) <-> active (conditions s) (fun n => d (g n)) m).
    Proof.
      intros Hm C. rewrite <- (JS d m Hm). split; intros H c Hc A.
      - apply H; [apply in_or_app; left; exact Hc|exact A].
      - apply in_app_or in Hc. destruct Hc as [Hc|Hc]; [apply H; assumption|]. exfalso.
        apply cs3_in in Hc. destruct Hc as (h & Hh & ->). apply gate_activates in A. apply rs_spec in Hh. apply (proj2 Hh). rewrite <- A. apply sub_conditional; assumption.
    Qed.
    Lemma cond_dec m : In m (map hp_name hs) -> conditional (conditions s) m \/ ~ conditional (conditions s) m.
    Proof.
      intros Hm. destruct (condof (d_nodes (s_dag s)) m) as [c|] eqn:Ec.
      - left. exists c. split; [apply (listed _ _ _ _ Bs U); eauto|apply (so_condof_in Os _ _ Ec)].
      - right. intros (c & Hc & A). destruct (so_declared Os m c (jn_sub Ts U c Hc) A) as (y & Hy & _). congruence.
    Qed.
    (** a closed gate leaves nothing active *)
    Lemma closed_none d : ~ opened d ->
      (forall m, In m (map hp_name hs) -> (d (g m) <> None <-> active ((ct ++ cs2) ++ cs3) d (g m))) ->
      forall m, In m (map hp_name hs) -> d (g m) = None.
    Proof.
      intros NO H. assert (Hk : forall m, In m (map hp_name hs) -> In m (keys s)).
      { intros m Hm. apply in_map_iff in Hm. destruct Hm as (h & <- & Hh). apply (keys_hs Os). eauto. }
      assert (G : forall k m, In m (map hp_name hs) -> depth_of (d_nodes (s_dag s)) m < k -> d (g m) = None).
      { induction k as [|k IH]; intros m Hm Hd; [lia|]. destruct (d (g m)) as [w|] eqn:Ed; [|reflexivity]. exfalso.
        assert (A : active ((ct ++ cs2) ++ cs3) d (g m)) by (apply (H m Hm); congruence).
        destruct (cond_dec m Hm) as [C|C]; [|apply NO, (act_root d m Hm C), A].
        apply (act_sub d m Hm C) in A. destruct C as (c & Hc & Ac). assert (Ic := jn_sub Ts U c Hc). specialize (A c Hc Ac).
        destruct (holds_some _ c (cond_built_good c (so_cond_built Os c Ic)) A) as (n & Hn & Dn). apply Dn.
        assert (Hn' := refs_parent hs c n (proj1 Rs c Ic) Hn). apply IH; [exact Hn'|].
        destruct (C04_depth s _ _ _ n Bs (Hk n Hn')) as [[Ch _] _]. destruct (C04_depth s _ _ _ m Bs (Hk m Hm)) as [[_ Mx] _].
        assert (Q := Mx _ (chain_more cs n m _ Ch (ex_intro _ c (conj Ic (conj Ac Hn))))). lia. }
      intros m Hm. apply (G (S (depth_of (d_nodes (s_dag s)) m)) m Hm). lia.
    Qed.

    Lemma clause_closed d f : In f (forbidden_clauses s) -> (forall m, In m (map hp_name hs) -> d (g m) = None) -> ~ violated (fun n => d (g n)) f.
    Proof.
      intros Hf N V.
      assert (If := Permutation_in _ (di_forb _ _ _ _ (so_inv _ _ _ _ Os)) Hf).
      destruct (C21_exists _ _ _ _ Bs) as (cfg & Hcfg).
      destruct (default_sound s hs cs fs cfg Os Rs (tm_merge _ _ _ _ Ts) (tm_ne _ _ _ _ Ts) Hcfg) as (d0 & _ & V0).
      apply (V0 f If). apply (violated_none (fun n => d (g n))); [|exact V].
      intros n Hn. apply N. apply in_map_iff in Hn. destruct Hn as (h & <- & Hh). apply in_map, (proj2 Rs f If h Hh).
    Qed.

    Lemma gate_valid d : valid (ht ++ hs2) ((ct ++ cs2) ++ cs3) (ft ++ fs2) d <->
      valid ht ct ft d /\ ((opened d /\ valid hs cs fs (fun n => d (g n))) \/
                           (~ opened d /\ forall m, In m (map hp_name hs) -> d (g m) = None)).
    Proof.
      rewrite (listed_valid s hs cs fs _ Bs Rs U). split.
      - intros [V1 V2 V3]. split.
        { constructor.
          - intros h w Hh. apply V1, in_or_app. left. exact Hh.
          - intros h Hh. rewrite <- (act_t d (hp_name h)) by (apply in_map, Hh). apply V2, in_or_app. left. exact Hh.
          - intros f Hf. apply V3, in_or_app. left. exact Hf. }
        assert (V2' : forall m, In m (map hp_name hs) -> (d (g m) <> None <-> active ((ct ++ cs2) ++ cs3) d (g m))).
        { intros m Hm. apply in_map_iff in Hm. destruct Hm as (k & <- & Hk). apply (V2 (rename_hp g k)).
          apply in_or_app. right. apply in_map, (Permutation_in _ (Permutation_sym Ph) Hk). }
        destruct (opened_dec d) as [O|NO]; [left; split; [exact O|]|right; split; [exact NO|apply (closed_none d NO V2')]].
        constructor.
        + intros h w Hh Hw. apply (V1 (rename_hp g h) w); [apply in_or_app; right; apply in_map, Hh|exact Hw].
        + intros h Hh. assert (Hm := in_map hp_name _ _ (Permutation_in _ Ph Hh)). rewrite (V2' _ Hm).
          destruct (cond_dec _ Hm) as [C|C]; [apply (act_sub d _ Hm C)|]. rewrite (act_root d _ Hm C).
          split; [intros _ c Hc A; exfalso; apply C; exists c; auto|intros _; exact O].
        + intros f Hf. rewrite <- violated_rename. apply V3, in_or_app. right. apply in_map, Hf.
      - intros [[V1 V2 V3] Hs]. constructor.
        + intros h w Hh Hw. apply in_app_or in Hh. destruct Hh as [Hh|Hh]; [apply (V1 h w Hh Hw)|]. apply in_map_iff in Hh. destruct Hh as (k & <- & Hk).
          destruct Hs as [[_ [W1 _ _]]|[_ N]]; [apply (W1 k w Hk Hw)|]. simpl in Hw. rewrite N in Hw; [discriminate|]. apply in_map, (Permutation_in _ Ph Hk).
        + intros h Hh. apply in_app_or in Hh. destruct Hh as [Hh|Hh].
          * rewrite (act_t d) by (apply in_map, Hh). apply V2, Hh.
          * apply in_map_iff in Hh. destruct Hh as (k & <- & Hk). simpl. assert (Hm := in_map hp_name _ _ (Permutation_in _ Ph Hk)).
            destruct Hs as [[O [_ W2 _]]|[NO N]].
            -- rewrite (W2 k Hk). destruct (cond_dec _ Hm) as [C|C]; [symmetry; apply (act_sub d _ Hm C)|]. rewrite (act_root d _ Hm C).
               split; [intros _; exact O|intros _ c Hc A; exfalso; apply C; exists c; auto].
            -- rewrite (N _ Hm). split; [congruence|]. intros A. exfalso. destruct (cond_dec _ Hm) as [C|C].
               ++ apply (act_sub d _ Hm C) in A. destruct C as (c & Hc & Ac). assert (Ic := jn_sub Ts U c Hc). specialize (A c Hc Ac).
                  destruct (holds_some _ c (cond_built_good c (so_cond_built Os c Ic)) A) as (n & Hn & Dn). apply Dn, N.
                  apply (refs_parent hs c n (proj1 Rs c Ic) Hn).
               ++ apply NO, (act_root d _ Hm C), A.
        + intros f Hf. apply in_app_or in Hf. destruct Hf as [Hf|Hf]; [apply V3, Hf|]. apply in_map_iff in Hf. destruct Hf as (x & <- & Hx).
          rewrite violated_rename. destruct Hs as [[_ [_ _ W3]]|[_ N]]; [apply W3, Hx|apply clause_closed; assumption].
    Qed.

    Lemma gate_default : exists d, default_assignment (ht ++ hs2) ((ct ++ cs2) ++ cs3) d /\ forall f, In f (ft ++ fs2) -> ~ violated d f.
    Proof.
      destruct (jn_default g Tt Ts U Inj Apart) as (d & D & V). fold hs2 cs2 fs2 in D, V.
      destruct (opened_dec d) as [O|NO].
      - exists d. split; [|exact V]. intros h Hh. destruct (in_app_or _ _ _ Hh) as [Ht|Ht].
        + assert (Hn := in_map hp_name _ _ Ht). rewrite (act_t d _ Hn), <- (JT d _ Hn). apply D, Hh.
        + apply in_map_iff in Ht. destruct Ht as (k & <- & Hk). assert (Hm := in_map hp_name _ _ (Permutation_in _ Ph Hk)).
          assert (Q : active ((ct ++ cs2) ++ cs3) d (g (hp_name k)) <-> active (ct ++ cs2) d (g (hp_name k))).
          { rewrite (JS d _ Hm). destruct (cond_dec _ Hm) as [C|C]; [apply (act_sub d _ Hm C)|]. rewrite (act_root d _ Hm C).
            split; [intros _ c Hc A; exfalso; apply C; exists c; auto|intros _; exact O]. }
          cbn [rename_hp hp_name]. rewrite Q. apply (D _ Hh).
      - set (e := fun n => if str_in n (map g (map hp_name hs)) then None else d n).
        assert (E1 : forall n, In n (map hp_name ht) -> e n = d n).
        { intros n Hn. unfold e. destruct (str_in n _) eqn:Es; [|reflexivity]. exfalso. apply str_in_iff, in_map_iff in Es. destruct Es as (m & <- & Hm). apply (Apart m Hm Hn). }
        assert (E2 : forall m, In m (map hp_name hs) -> e (g m) = None).
        { intros m Hm. unfold e. rewrite (proj2 (str_in_iff _ _)); [reflexivity|]. apply in_map, Hm. }
        assert (NO' : ~ opened e) by (unfold opened; rewrite (E1 _ q_name); exact NO).
        exists e. split.
        + intros h Hh. destruct (in_app_or _ _ _ Hh) as [Ht|Ht].
          * assert (Hn := in_map hp_name _ _ Ht). rewrite (act_t e _ Hn), (E1 _ Hn).
            assert (Q : active ct e (hp_name h) <-> active (ct ++ cs2) d (hp_name h)).
            { rewrite (JT d _ Hn). assert (Rt := proj1 (tm_refs _ _ _ _ Tt)).
              split; intros H c Hc A; [apply (holds_on ht c (Rt c Hc) e d)|apply (holds_on ht c (Rt c Hc) d e)]; auto. intros n Hx. symmetry. apply E1, Hx. }
            rewrite Q. apply D, Hh.
          * apply in_map_iff in Ht. destruct Ht as (k & <- & Hk). assert (Hm := in_map hp_name _ _ (Permutation_in _ Ph Hk)). cbn [rename_hp hp_name].
            right. split; [|apply E2, Hm]. intros A. destruct (cond_dec _ Hm) as [C|C]; [|apply NO', (act_root e _ Hm C), A].
            apply (act_sub e _ Hm C) in A. destruct C as (c & Hc & Ac). assert (Ic := jn_sub Ts U c Hc). specialize (A c Hc Ac).
            destruct (holds_some _ c (cond_built_good c (so_cond_built Os c Ic)) A) as (n & Hn & Dn). apply Dn, E2.
            apply (refs_parent hs c n (proj1 Rs c Ic) Hn).
        + intros f Hf. apply in_app_or in Hf. destruct Hf as [Hf|Hf].
          * intros Vf. apply (V f (in_or_app _ _ _ (or_introl Hf))). apply (violated_on ht f (proj2 (tm_refs _ _ _ _ Tt) f Hf) e d E1 Vf).
          * apply in_map_iff in Hf. destruct Hf as (x & <- & Hx). rewrite violated_rename. apply clause_closed; assumption.
    Qed.

    Lemma gate_add : exists t3, add t2 [] cs3 [] = (t3, Ok tt) /\ tame t3 (ht ++ hs2) ((ct ++ cs2) ++ cs3) (ft ++ fs2).
    Proof.
      destruct gate_default as (d & D & V).
      assert (N1 := app_nil_r (ht ++ hs2)). assert (N2 := app_nil_r (ft ++ fs2)).
      assert (A : exists t3, add t2 [] cs3 [] = (t3, Ok tt)).
      { apply (add_total t2 (ht ++ hs2) (ct ++ cs2) (ft ++ fs2) [] cs3 [] d (tm_built _ _ _ _ T2) (Forall_nil _) cs3_built (Forall_nil _)).
        - rewrite N1, N2. exact cs3_refs.
        - rewrite N2. apply (jn_empty_clause g Tt Ts).
        - rewrite N1. apply (so_names_nodup O2).
        - exact cs3_one.
        - exact cs3_cycle.
        - intros s' _. apply cs3_merge.
        - exact cs3_ne.
        - rewrite N2. apply (tm_cmp _ _ _ _ T2).
        - rewrite N1. exact D.
        - rewrite N2. exact V. }
      destruct A as (t3 & A). exists t3. split; [exact A|].
      assert (B := built_add _ _ _ _ _ _ _ _ (tm_built _ _ _ _ T2) (Forall_nil _) cs3_built (Forall_nil _) A). rewrite N1, N2 in B.
      constructor; [exact B|exact cs3_refs|apply cs3_merge|exact cs3_ne|apply (tm_cmp _ _ _ _ T2)].
    Qed.
  End Second.

  Lemma gate_sub : let o := add_sub [] t s p dl (Some (q, v)) in o_res o = Ok tt /\
    exists cs3, tame (o_target o) (ht ++ hs2) ((ct ++ cs2) ++ cs3) (ft ++ fs2) /\
      forall d, valid (ht ++ hs2) ((ct ++ cs2) ++ cs3) (ft ++ fs2) d <->
        valid ht ct ft d /\ ((opened d /\ valid hs cs fs (fun n => d (g n))) \/
                             (~ opened d /\ forall m, In m (map hp_name hs) -> d (g m) = None)).
  Proof.
    intros o. destruct (sub_added p dl Tt Ts U ND) as (t2 & A & T2). fold g hs2 cs2 fs2 in A, T2.
    assert (M := rs_made t2 T2). assert (GA := gate_add t2 T2). assert (GV := gate_valid t2 T2).
    set (rs := root_params t2 hs2) in *.
    assert (Eo : exists t3, o = mk_outcome t3 (o_source o) (o_held o) (Ok tt) /\ tame t3 (ht ++ hs2) ((ct ++ cs2) ++ map gate rs) (ft ++ fs2)).
    { unfold o. rewrite (add_sub_eq t s hs cs fs p dl (Some (q, v)) Ts U). cbv zeta. fold g hs2 cs2 fs2. rewrite A. fold rs. rewrite M.
      destruct rs as [|r rs']; simpl map in *.
      - exists t2. split; [reflexivity|]. rewrite app_nil_r. exact T2.
      - destruct GA as (t3 & A3 & T3). rewrite A3. exists t3. split; [reflexivity|exact T3]. }
    destruct Eo as (t3 & -> & T3). cbn [o_res o_target]. split; [reflexivity|]. exists (map gate rs). split; [exact T3|exact GV].
  Qed.
End Gate.

Section Main.
  Context {E : Env} {L : EnvLaws E}.

  (** C54: with parent_hyperparameter, the source becomes active exactly when the parent has the given
      value: the valid configurations combine a valid configuration of the target with one of the
      source if the parent has this value, and with no values for the source otherwise.

      Missing: sources with != conditions (C54_parent_refuted), and the cases in C54_partial. *)
  Theorem C54_parent_partial t ht ct ft s hs cs fs p dl q v : tame t ht ct ft -> tame s hs cs fs -> distinct_strings s ->
    NoDup (map hp_name ht ++ map (new_name p dl) (map hp_name hs)) ->
    In q ht -> legal_value q v = true -> (forall c l w x, In c cs -> In l (dlcs c) -> l_test l <> TBin OpNe w x) ->
    let o := add_sub [] t s p dl (Some (q, v)) in o_res o = Ok tt /\
    (forall n, In n (keys (o_target o)) <-> In n (keys t) \/ exists m, In m (keys s) /\ n = new_name p dl m) /\
    (forall n h, get_hp t n = Some h -> get_hp (o_target o) n = Some h) /\
    (forall n h, get_hp s n = Some h -> exists h', get_hp (o_target o) (new_name p dl n) = Some h' /\ called (new_name p dl n) h h') /\
    exists ht' ct' ft', tame (o_target o) ht' ct' ft' /\
      forall d, valid ht' ct' ft' d <-> valid ht ct ft d /\
        (((exists w, d (hp_name q) = Some w /\ py_eqb w v = true) /\ valid hs cs fs (fun n => d (new_name p dl n))) \/
         (~ (exists w, d (hp_name q) = Some w /\ py_eqb w v = true) /\ forall n, In n (keys s) -> d (new_name p dl n) = None)).
  Proof.
    intros Tt Ts U ND Hq Hv Ne o.
    assert (Os := built_ok _ _ _ _ (tm_built _ _ _ _ Ts)). assert (Ot := built_ok _ _ _ _ (tm_built _ _ _ _ Tt)).
    destruct (legal_finite q v (so_constructed Ot q Hq) Hv) as (x & Hx).
    destruct (gate_sub p dl Tt Ts U ND q v (Fin x) Hq Hv Hx Ne) as (R & cs3 & T & V). fold o in R, T. split; [exact R|].
    set (g := new_name p dl) in *. set (hs2 := map (rename_hp g) (Space.hps s)) in *.
    assert (O' := built_ok _ _ _ _ (tm_built _ _ _ _ T)). assert (Ph := so_hps Os).
    assert (Kt : forall n, In n (keys t) <-> In n (map hp_name ht)).
    { intros n. rewrite (keys_hs Ot), in_map_iff. split; intros (h & ? & ?); eauto. }
    assert (Ks : forall n, In n (keys s) <-> In n (map hp_name hs)).
    { intros n. rewrite (keys_hs Os), in_map_iff. split; intros (h & ? & ?); eauto. }
    split. { intros n. rewrite (keys_hs O'), Kt. split.
      - intros (h & Hh & <-). apply in_app_or in Hh. destruct Hh as [Hh|Hh]; [left; apply in_map, Hh|right].
        apply in_map_iff in Hh. destruct Hh as (k & <- & Hk). exists (hp_name k). split; [apply Ks, in_map, (Permutation_in _ Ph Hk)|reflexivity].
      - intros [Hn|(m & Hm & ->)].
        + apply in_map_iff in Hn. destruct Hn as (h & <- & Hh). exists h. split; [apply in_or_app; left; exact Hh|reflexivity].
        + apply Ks, in_map_iff in Hm. destruct Hm as (h & <- & Hh). exists (rename_hp g h). split; [|reflexivity].
          apply in_or_app. right. apply in_map, (Permutation_in _ (Permutation_sym Ph) Hh). }
    split. { intros n h Hh. apply (so_get_hp Ot) in Hh. destruct Hh as [Hh <-]. apply (so_get_hp O'). split; [apply in_or_app; left; exact Hh|reflexivity]. }
    split. { intros n h Hh. apply (so_get_hp Os) in Hh. destruct Hh as [Hh <-]. exists (rename_hp g h). split; [|apply rename_called].
      apply (so_get_hp O'). split; [|reflexivity]. apply in_or_app. right. apply in_map, (Permutation_in _ (Permutation_sym Ph) Hh). }
    eexists. eexists. eexists. split; [exact T|]. intros d. rewrite (V d). unfold opened.
    assert (Q : (forall m, In m (map hp_name hs) -> d (g m) = None) <-> (forall n, In n (keys s) -> d (g n) = None)).
    { split; intros H n Hn; apply H, Ks, Hn. }
    rewrite Q. reflexivity.
  Qed.
End Main.

Section Witness.
  #[local] Existing Instance rat_env.

  (** a space without != conditions under a value of the example space *)
  Definition cPX := get_or dummy_cond (mk_bin OpGt hPX hX (VInt 4)).
  Lemma cPX_c : cond_built cPX.
  Proof. apply (CB_bin OpGt hPX hX (VInt 4) cPX hPX_c hX_c). vm_compute. reflexivity. Qed.
  Definition sub_space := fst (add empty_space [hX; hPX] [cPX] [fX]).
  Lemma sub_built : built sub_space [hX; hPX] [cPX] [fX].
  Proof.
    apply (built_step empty_space [] [] [] [hX; hPX] [cPX] [fX] built_empty); [| | |vm_compute; reflexivity].
    - repeat (constructor; [first [apply hX_c|apply hPX_c]|]). constructor.
    - constructor; [apply cPX_c|constructor].
    - constructor; [|constructor]. apply (FB_eq hX (VInt 7) fX hX_c). vm_compute. reflexivity.
  Qed.
  Lemma sub_tame : tame sub_space [hX; hPX] [cPX] [fX].
  Proof.
    apply one_tame; [exact sub_built| | |].
    - split.
      + intros c [<-|[]] l Hl. vm_compute in Hl. destruct Hl as [<-|[]]. split; vm_compute; tauto.
      + intros f [<-|[]] h Hh. vm_compute in Hh. destruct Hh as [<-|[]]. vm_compute. tauto.
    - intros l Hl. vm_compute in Hl. destruct Hl as [<-|[]]. exact I.
    - intros f [<-|[]] r a b Hr Hne. vm_compute in Hr. destruct Hr as [Hr|[]]. discriminate Hr.
  Qed.
  Example C54_parent_case : exists t ht ct ft s hs cs fs q v, tame t ht ct ft /\ tame s hs cs fs /\ distinct_strings s /\
    NoDup (map hp_name ht ++ map (new_name "s" "/") (map hp_name hs)) /\ In q ht /\ legal_value q v = true /\
    (forall c l w x, In c cs -> In l (dlcs c) -> l_test l <> TBin OpNe w x) /\
    let o := add_sub [] t s "s" "/" (Some (q, v)) in
    unconditional_hyperparameters (o_target o) = unconditional_hyperparameters t /\
    In "s/x"%string (conditional_hyperparameters (o_target o)) /\ In "s/p:x"%string (conditional_hyperparameters (o_target o)).
  Proof.
    exists ex_space, ex_hps, ex_conds, ex_forbs, sub_space, [hX; hPX], [cPX], [fX], hA, (VStr "x").
    split; [exact ex_tame|]. split; [exact sub_tame|].
    split; [apply (strings_distinct _ _ _ _ sub_built); apply nodup_strings; vm_compute; reflexivity|].
    split; [apply nodup_strings; vm_compute; reflexivity|]. split; [unfold ex_hps; simpl; tauto|]. split; [vm_compute; reflexivity|].
    split; [|vm_compute; tauto]. intros c l w x [<-|[]] Hl. vm_compute in Hl. destruct Hl as [<-|[]]. discriminate.
  Qed.

  (** a != condition of the source: the hyperparameter stays active when the parent has another value *)
  Definition cNe := get_or dummy_cond (mk_bin OpNe hPX hX (VInt 4)).
  Lemma cNe_c : cond_built cNe.
  Proof. apply (CB_bin OpNe hPX hX (VInt 4) cNe hPX_c hX_c). vm_compute. reflexivity. Qed.
  Definition ne_space := fst (add empty_space [hX; hPX] [cNe] []).
  Definition hSw := get_or dummy_hp (mk_categorical "sw" [VStr "on"; VStr "off"] None None None).
  Lemma hSw_c : constructed hSw.
  Proof. apply (CtorCat "sw" [VStr "on"; VStr "off"] None None None). vm_compute. reflexivity. Qed.
  Definition sw_space := fst (add empty_space [hSw] [] []).
  Theorem C54_parent_refuted : exists t ht s hs cs q v, tame t ht [] [] /\ tame s hs cs [] /\ distinct_strings s /\
    NoDup (map hp_name ht ++ map (new_name "s" "/") (map hp_name hs)) /\ In q ht /\ legal_value q v = true /\
    let o := add_sub [] t s "s" "/" (Some (q, v)) in o_res o = Ok tt /\
    keys (o_target o) = ["sw"; "s/x"; "s/p:x"]%string /\
    config_of_values (o_target o) [("sw", Some (VStr "off"))] false = Err ActiveHyperparameterNotSetError /\
    exists c, config_of_values (o_target o) [("sw", Some (VStr "off")); ("s/p:x", Some (VInt 1))] false = Ok c.
  Proof.
    exists sw_space, [hSw], ne_space, [hX; hPX], [cNe], hSw, (VStr "on").
    assert (B1 : built sw_space [hSw] [] []).
    { apply (built_step empty_space [] [] [] [hSw] [] [] built_empty); [|constructor|constructor|vm_compute; reflexivity].
      constructor; [apply hSw_c|constructor]. }
    assert (B2 : built ne_space [hX; hPX] [cNe] []).
    { apply (built_step empty_space [] [] [] [hX; hPX] [cNe] [] built_empty); [| |constructor|vm_compute; reflexivity].
      - repeat (constructor; [first [apply hX_c|apply hPX_c]|]). constructor.
      - constructor; [apply cNe_c|constructor]. }
    split; [apply flat_tame; [exact B1| |intros f []]; split; [intros c []|intros f []]|].
    split.
    { constructor; [exact B2| | | |intros f []].
      - split; [|intros f []]. intros c [<-|[]] l Hl. vm_compute in Hl. destruct Hl as [<-|[]]. split; vm_compute; tauto.
      - intros c d w [<-|[]] [<-|[]] _. reflexivity.
      - intros c l w x [<-|[]] Hl _ (c' & [<-|[]] & A). vm_compute in Hl. destruct Hl as [<-|[]]. vm_compute in A. discriminate A. }
    split; [apply (strings_distinct _ _ _ _ B2); apply nodup_strings; vm_compute; reflexivity|].
    split; [apply nodup_strings; vm_compute; reflexivity|]. split; [left; reflexivity|]. split; [vm_compute; reflexivity|].
    cbv zeta. split; [vm_compute; reflexivity|]. split; [vm_compute; reflexivity|]. split; [vm_compute; reflexivity|].
    eexists. vm_compute. reflexivity.
  Qed.
End Witness.

