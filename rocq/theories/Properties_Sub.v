(** * Adding a configuration space to another (C54) *)
From Coq Require Import String List ZArith QArith Bool Lia Permutation Relations.
From Verif Require Import Base ListFacts Numeric NumericProofs HP HPProofs Properties_HP Cond Forb EqFacts Dag DagCycle DagProofs
  Space CommitProofs Spec SpaceProofs CnodeProofs ForbProofs AddProofs EvalProofs ForbEval MergeProofs ValidProofs ConfigProofs
  ChangeProofs ReadProofs Ex DistProofs Properties_Graph Properties_Eval Properties_Config Properties_Repair Properties_Raise
  Properties_Add Serial Properties_Serial Priors Properties_Priors Subspace RenameProofs.
Import ListNotations.
Open Scope string_scope.
Open Scope nat_scope.
Open Scope list_scope.

Lemma nodup_both {A} (l m : list A) : NoDup l -> NoDup m -> (forall x, In x l -> ~ In x m) -> NoDup (l ++ m).
Proof.
  intros N M D. induction N as [|x l Hx _ IH]; [exact M|]. simpl. constructor.
  - intros H. apply in_app_or in H. destruct H as [H|H]; [contradiction|]. apply (D x (or_introl eq_refl) H).
  - apply IH. intros y Hy. apply D. right. exact Hy.
Qed.

Section Sub.
  Context {E : Env} {L : EnvLaws E}.

  (** the entries of a vector in the order of another space *)
  Lemma reorder s hs cs fs (e : string -> fval) : space_ok s hs cs fs ->
    forall n, In n (map hp_name hs) -> vget (index_of s) (map e (keys s)) n = e n.
  Proof.
    intros O n Hn. apply in_map_iff in Hn. destruct Hn as (h & <- & Hh).
    assert (K : In (hp_name h) (keys s)) by (apply (keys_hs O); eauto). apply In_nth_error in K. destruct K as (i & K).
    assert (Q := proj2 (so_index O (hp_name h) i) K). unfold vget. rewrite Q.
    apply nth_error_nth, map_nth_error, K.
  Qed.

  Lemma holds_on hs c : cond_refs hs c -> forall d d', (forall n, In n (map hp_name hs) -> d n = d' n) -> holds d c -> holds d' c.
  Proof.
    intros R d d' Eq. induction c as [l|cs IH|cs IH] using cond_ind'.
    - simpl. rewrite Eq; [auto|]. apply in_map, (R l (or_introl eq_refl)).
    - simpl. rewrite !fold_and_iff. rewrite Forall_forall in IH. intros H x Hx. apply (IH x Hx); [|apply H, Hx].
      intros l Hl. apply R. eapply dlcs_in_and; eauto.
    - simpl. rewrite !fold_or_iff. rewrite Forall_forall in IH. intros (x & Hx & H). exists x. split; [exact Hx|]. apply (IH x Hx); [|exact H].
      intros l Hl. apply R. eapply dlcs_in_and; eauto.
  Qed.
  Lemma violated_on hs f : forb_refs hs f -> forall d d', (forall n, In n (map hp_name hs) -> d n = d' n) -> violated d f -> violated d' f.
  Proof.
    intros R d d' Eq. induction f as [h v vv|h vs vvs|r a b|fs IH] using fclause_ind'.
    - simpl. rewrite Eq; [auto|]. apply in_map, R. left. reflexivity.
    - simpl. rewrite Eq; [auto|]. apply in_map, R. left. reflexivity.
    - simpl. rewrite !Eq; [auto|apply in_map, R; right; left; reflexivity|apply in_map, R; left; reflexivity].
    - simpl. rewrite !fold_and_iff. rewrite Forall_forall in IH. intros H x Hx. apply (IH x Hx); [|apply H, Hx]. apply (forb_refs_and hs fs x R Hx).
  Qed.

  (** ** Two spaces side by side: the second with its hyperparameters renamed by [g] *)
  Section Join.
    Context {t : space} {ht : list hp} {ct : list cond} {ft : list fclause}.
    Context {s : space} {hs : list hp} {cs : list cond} {fs : list fclause}.
    Variable g : string -> string.
    Hypothesis Tt : tame t ht ct ft.
    Hypothesis Ts : tame s hs cs fs.
    Hypothesis U : distinct_strings s.
    Hypothesis Inj : forall n m, In n (map hp_name hs) -> In m (map hp_name hs) -> g n = g m -> n = m.
    Hypothesis Apart : forall n, In n (map hp_name hs) -> ~ In (g n) (map hp_name ht).
    Let hs2 := map (rename_hp g) (Space.hps s).
    Let cs2 := map (rename_cond g) (conditions s).
    Let fs2 := map (rename_forb g) (forbidden_clauses s).
    Let Bt : built t ht ct ft := tm_built _ _ _ _ Tt.
    Let Ot : space_ok t ht ct ft := built_ok _ _ _ _ Bt.
    Let Rt : refs ht ct ft := tm_refs _ _ _ _ Tt.
    Let Bs : built s hs cs fs := tm_built _ _ _ _ Ts.
    Let Os : space_ok s hs cs fs := built_ok _ _ _ _ Bs.
    Let Rs : refs hs cs fs := tm_refs _ _ _ _ Ts.
    Let Ph : Permutation (Space.hps s) hs := so_hps Os.
    Let Pf : Permutation (forbidden_clauses s) fs := di_forb _ _ _ _ (so_inv _ _ _ _ Os).
    Let ND : NoDup (map hp_name hs) := so_names_nodup Os.

    Lemma jn_inj h k : In h hs -> In k hs -> g (hp_name h) = g (hp_name k) -> hp_name h = hp_name k.
    Proof. intros Hh Hk. apply Inj; apply in_map; assumption. Qed.
    Lemma jn_sub c : In c (conditions s) -> In c cs.
    Proof. intros Hc. apply (listed _ _ _ _ Bs U) in Hc. destruct Hc as (n & Hc). apply (so_condof_in Os _ _ Hc). Qed.
    Lemma jn_names : map hp_name hs2 = map g (map hp_name (Space.hps s)).
    Proof. unfold hs2. rewrite !map_map. reflexivity. Qed.
    Lemma jn_name n : In n (map hp_name hs2) <-> exists m, In m (map hp_name hs) /\ n = g m.
    Proof.
      rewrite jn_names, in_map_iff. assert (Q := Permutation_map hp_name Ph). split; intros (m & H1 & H2); exists m.
      - split; [apply (Permutation_in _ Q), H2|auto].
      - split; [auto|apply (Permutation_in _ (Permutation_sym Q)), H1].
    Qed.
    Lemma jn_nodup : NoDup (map hp_name (ht ++ hs2)).
    Proof.
      rewrite map_app. apply nodup_both; [apply (so_names_nodup Ot)| |].
      - rewrite jn_names. assert (Q := Permutation_map hp_name Ph). apply (Permutation_NoDup (Permutation_map g (Permutation_sym Q))).
        assert (G : forall l, incl l (map hp_name hs) -> NoDup l -> NoDup (map g l)).
        { induction l as [|x l IH]; intros I N; [constructor|]. inversion N; subst. simpl. constructor.
          - intros Hx. apply in_map_iff in Hx. destruct Hx as (y & Hy & Hi). apply Inj in Hy; [subst; contradiction|apply I; right; exact Hi|apply I; left; reflexivity].
          - apply IH; [intros y Hy; apply I; right; exact Hy|assumption]. }
        apply G; [apply incl_refl|exact ND].
      - intros n H1 H2. apply jn_name in H2. destruct H2 as (m & Hm & ->). apply (Apart m Hm H1).
    Qed.
    Lemma jn_hs : Forall constructed hs2.
    Proof.
      rewrite Forall_forall. intros h Hh. apply in_map_iff in Hh. destruct Hh as (k & <- & Hk).
      apply constructed_rename, (so_constructed Os), (Permutation_in _ Ph Hk).
    Qed.
    Lemma jn_cs : Forall cond_built cs2.
    Proof.
      rewrite Forall_forall. intros c Hc. apply in_map_iff in Hc. destruct Hc as (x & <- & Hx). assert (Ix := jn_sub x Hx).
      apply (cond_rename g ND jn_inj); [apply (so_cond_built Os), Ix|apply Rs, Ix].
    Qed.
    Lemma jn_fs : Forall forb_built fs2.
    Proof.
      rewrite Forall_forall. intros f Hf. apply in_map_iff in Hf. destruct Hf as (x & <- & Hx).
      apply forb_rename, (so_forb_built Os), (Permutation_in _ Pf Hx).
    Qed.
    Lemma jn_refs : refs (ht ++ hs2) (ct ++ cs2) (ft ++ fs2).
    Proof.
      assert (G : forall h, In h hs -> In (rename_hp g h) (ht ++ hs2)).
      { intros h Hh. apply in_or_app. right. apply in_map, (Permutation_in _ (Permutation_sym Ph) Hh). }
      split.
      - intros c Hc l Hl. apply in_app_or in Hc. destruct Hc as [Hc|Hc].
        + destruct (proj1 Rt c Hc l Hl). split; apply in_or_app; left; assumption.
        + apply in_map_iff in Hc. destruct Hc as (x & <- & Hx). rewrite dlcs_rename in Hl. apply in_map_iff in Hl.
          destruct Hl as (m & <- & Hm). destruct (proj1 Rs x (jn_sub x Hx) m Hm). split; apply G; assumption.
      - intros f Hf h Hh. apply in_app_or in Hf. destruct Hf as [Hf|Hf].
        + apply in_or_app. left. apply (proj2 Rt f Hf h Hh).
        + apply in_map_iff in Hf. destruct Hf as (x & <- & Hx). rewrite hps_rename in Hh. apply in_map_iff in Hh.
          destruct Hh as (k & <- & Hk). apply G, (proj2 Rs x (Permutation_in _ Pf Hx) k Hk).
    Qed.

    (** names in the conditions of either space *)
    Lemma jn_tchild c n : In c ct -> activates c n -> In n (map hp_name ht).
    Proof. intros Hc. apply refs_child, (proj1 Rt c Hc). Qed.
    Lemma jn_tparent c n : In c ct -> In n (cond_parents c) -> In n (map hp_name ht).
    Proof. intros Hc. apply refs_parent, (proj1 Rt c Hc). Qed.
    Lemma jn_schild c n : In c (conditions s) -> activates c n -> In n (map hp_name hs).
    Proof. intros Hc. apply refs_child, (proj1 Rs c (jn_sub c Hc)). Qed.
    Lemma jn_sparent c n : In c (conditions s) -> In n (cond_parents c) -> In n (map hp_name hs).
    Proof. intros Hc. apply refs_parent, (proj1 Rs c (jn_sub c Hc)). Qed.

    Lemma jn_act_t c n : In n (map hp_name ht) -> In c (ct ++ cs2) -> activates c n -> In c ct.
    Proof.
      intros Hn Hc A. apply in_app_or in Hc. destruct Hc as [Hc|Hc]; [exact Hc|]. exfalso.
      apply in_map_iff in Hc. destruct Hc as (x & <- & Hx). apply activates_rename in A. destruct A as (m & -> & A).
      apply (Apart m); [apply (jn_schild x m Hx A)|exact Hn].
    Qed.
    Lemma jn_act_s c m : In m (map hp_name hs) -> In c (ct ++ cs2) -> activates c (g m) ->
      exists x, c = rename_cond g x /\ In x (conditions s) /\ activates x m.
    Proof.
      intros Hm Hc A. apply in_app_or in Hc. destruct Hc as [Hc|Hc].
      - exfalso. apply (Apart m Hm), (jn_tchild c _ Hc A).
      - apply in_map_iff in Hc. destruct Hc as (x & <- & Hx). exists x. split; [reflexivity|]. split; [exact Hx|].
        apply activates_rename in A. destruct A as (m' & Q & A). rewrite (Inj m m' Hm (jn_schild x m' Hx A) Q). exact A.
    Qed.

    Lemma jn_one : one_condition (ct ++ cs2).
    Proof.
      assert (G1 : forall n, In n (map hp_name ht) \/ ~ In n (map hp_name ht)).
      { intros n. destruct (in_dec string_dec n (map hp_name ht)); auto. }
      intros c c' n Hc Hc' A A'. destruct (G1 n) as [Hn|Hn].
      - apply (C06_one_condition _ _ _ _ c c' n Bt); auto; apply (jn_act_t _ n); auto.
      - apply in_app_or in Hc. destruct Hc as [Hc|Hc]; [exfalso; apply Hn, (jn_tchild c n Hc A)|].
        apply in_map_iff in Hc. destruct Hc as (x & <- & Hx). assert (A0 := A). apply activates_rename in A. destruct A as (m & -> & A).
        assert (Hm := jn_schild x m Hx A). destruct (jn_act_s c' m Hm Hc' A') as (y & -> & Hy & Ay).
        assert (x = y).
        { apply (listed _ _ _ _ Bs U) in Hx, Hy. destruct Hx as (n1 & Hx), Hy as (n2 & Hy).
          assert (Q1 := proj2 (so_condof_in Os _ _ Hx)). assert (Q2 := proj2 (so_condof_in Os _ _ Hy)). unfold activates in *.
          assert (n1 = m) by congruence. assert (n2 = m) by congruence. congruence. }
        subst y. apply cond_eqb_refl, cond_built_wf. assert (Q := jn_cs). rewrite Forall_forall in Q. apply Q, in_map, Hx.
    Qed.

    Lemma jn_reads p c : reads (ct ++ cs2) p c <-> reads ct p c \/ exists p0 c0, p = g p0 /\ c = g c0 /\ reads cs p0 c0.
    Proof.
      split.
      - intros (x & Hx & A & P). apply in_app_or in Hx. destruct Hx as [Hx|Hx]; [left; exists x; auto|right].
        apply in_map_iff in Hx. destruct Hx as (y & <- & Hy). apply activates_rename in A. destruct A as (c0 & -> & A).
        rewrite parents_rename in P. apply in_map_iff in P. destruct P as (p0 & <- & P). exists p0, c0. split; [reflexivity|]. split; [reflexivity|].
        exists y. split; [apply jn_sub, Hy|auto].
      - intros [(x & Hx & A & P)|(p0 & c0 & -> & -> & H)]; [exists x; split; [apply in_or_app; left; exact Hx|auto]|].
        apply (listed_reads _ _ _ _ Bs U) in H. destruct H as (x & Hx & A & P). exists (rename_cond g x).
        split; [apply in_or_app; right; apply in_map, Hx|]. split; [apply activates_rename; eauto|rewrite parents_rename; apply in_map, P].
    Qed.
    Lemma jn_cycle : no_cycle (ct ++ cs2).
    Proof.
      assert (Nt : forall p c, reads ct p c -> In p (map hp_name ht) /\ In c (map hp_name ht)).
      { intros p c (x & Hx & A & P). split; [apply (jn_tparent x p Hx P)|apply (jn_tchild x c Hx A)]. }
      assert (Ns : forall p c, reads cs p c -> In p (map hp_name hs) /\ In c (map hp_name hs)).
      { intros p c H. apply (listed_reads _ _ _ _ Bs U) in H. destruct H as (x & Hx & A & P). split; [apply (jn_sparent x p Hx P)|apply (jn_schild x c Hx A)]. }
      assert (Nts : forall p c, clos_trans _ (reads ct) p c -> In p (map hp_name ht) /\ In c (map hp_name ht)).
      { induction 1 as [p c H|a b c _ IH1 _ IH2]; [apply Nt, H|tauto]. }
      assert (Nss : forall p c, clos_trans _ (reads cs) p c -> In p (map hp_name hs) /\ In c (map hp_name hs)).
      { induction 1 as [p c H|a b c _ IH1 _ IH2]; [apply Ns, H|tauto]. }
      assert (G : forall p c, clos_trans _ (reads (ct ++ cs2)) p c ->
        clos_trans _ (reads ct) p c \/ exists p0 c0, p = g p0 /\ c = g c0 /\ clos_trans _ (reads cs) p0 c0).
      { induction 1 as [p c H|a b c _ IH1 _ IH2].
        - apply jn_reads in H. destruct H as [H|(p0 & c0 & -> & -> & H)]; [left; apply t_step, H|right; exists p0, c0; auto using t_step].
        - destruct IH1 as [H1|(a0 & b0 & -> & -> & H1)], IH2 as [H2|(b1 & c1 & Q & -> & H2)].
          + left. eapply t_trans; eauto.
          + exfalso. subst b. apply (Apart b1); [apply (Nss _ _ H2)|apply (Nts _ _ H1)].
          + exfalso. apply (Apart b0); [apply (Nss _ _ H1)|apply (Nts _ _ H2)].
          + right. apply Inj in Q; [|apply (Nss _ _ H1)|apply (Nss _ _ H2)]. subst b1. exists a0, c1. split; [reflexivity|]. split; [reflexivity|].
            eapply t_trans; eauto. }
      intros n H. apply G in H. destruct H as [H|(p0 & c0 & -> & Q & H)]; [apply (C05_acyclic _ _ _ _ Bt n H)|].
      destruct (Nss _ _ H) as [H1 H2]. apply Inj in Q; [|exact H1|exact H2]. subst c0. apply (C05_acyclic _ _ _ _ Bs p0 H).
    Qed.

    Lemma jn_merge io : merge_sound io (ct ++ cs2).
    Proof.
      assert (Cr : forall c x, In c ct -> In x (conditions s) -> forall n, In n (cond_parents c) -> ~ In n (cond_parents (rename_cond g x))).
      { intros c x Hc Hx n H1 H2. rewrite parents_rename in H2. apply in_map_iff in H2. destruct H2 as (m & <- & H2).
        apply (Apart m); [apply (jn_sparent x m Hx H2)|apply (jn_tparent c _ Hc H1)]. }
      intros c d v Hc Hd Eq. apply in_app_or in Hc, Hd. destruct Hc as [Hc|Hc], Hd as [Hd|Hd].
      - set (v' := map (vget io v) (keys t)).
        assert (G : forall x, In x ct -> sat_vec io v x = sat_vec (index_of t) v' x).
        { intros x Hx. assert (Q := sat_rename (fun n => n) io (index_of t) v v' x).
          assert (I : rename_cond (fun n => n) x = x).
          { clear. induction x as [l|xs IH|xs IH] using cond_ind'; simpl.
            - destruct l as [[] [] t]. reflexivity.
            - f_equal. induction IH as [|x xs Hx _ IH]; [reflexivity|]. simpl. rewrite Hx, IH. reflexivity.
            - f_equal. induction IH as [|x xs Hx _ IH]; [reflexivity|]. simpl. rewrite Hx, IH. reflexivity. }
          rewrite I in Q. apply Q. intros n Hn. symmetry. apply (reorder t ht ct ft); [exact Ot|apply (jn_tparent x n Hx Hn)]. }
        rewrite (G c Hc), (G d Hd). apply (tm_merge _ _ _ _ Tt); assumption.
      - exfalso. apply in_map_iff in Hd. destruct Hd as (y & <- & Hy). destruct (equiv_common c _ (so_cond_built Ot c Hc) Eq) as (n & H1 & H2).
        apply (Cr c y Hc Hy n H1 H2).
      - exfalso. assert (Bc : cond_built c) by (assert (Q := jn_cs); rewrite Forall_forall in Q; apply Q, Hc).
        apply in_map_iff in Hc. destruct Hc as (x & <- & Hx). destruct (equiv_common _ _ Bc Eq) as (n & H1 & H2).
        apply (Cr d x Hd Hx n H2 H1).
      - apply in_map_iff in Hc. destruct Hc as (x & <- & Hx). apply in_map_iff in Hd. destruct Hd as (y & <- & Hy).
        assert (Ix := jn_sub x Hx). assert (Iy := jn_sub y Hy).
        apply (equiv_rename g ND jn_inj) in Eq; [|apply Rs, Ix|apply Rs, Iy|apply (so_cond_built Os), Iy].
        set (v' := map (fun n => vget io v (g n)) (keys s)).
        assert (G : forall x, In x (conditions s) -> sat_vec io v (rename_cond g x) = sat_vec (index_of s) v' x).
        { intros z Hz. apply sat_rename. intros n Hn. symmetry. apply (reorder s hs cs fs (fun n => vget io v (g n))); [exact Os|apply (jn_sparent z n Hz Hn)]. }
        rewrite (G x Hx), (G y Hy). apply (tm_merge _ _ _ _ Ts); assumption.
    Qed.

    Lemma jn_ne : ne_safe (ct ++ cs2).
    Proof.
      intros c l w vv Hc Hl Ht (c' & Hc' & Ha). apply in_app_or in Hc. destruct Hc as [Hc|Hc].
      - assert (Hp : In (parent_name l) (map hp_name ht)) by (apply (jn_tparent c _ Hc); apply (in_map parent_name), Hl).
        apply (tm_ne _ _ _ _ Tt c l w vv Hc Hl Ht). exists c'. split; [apply (jn_act_t c' _ Hp Hc' Ha)|exact Ha].
      - apply in_map_iff in Hc. destruct Hc as (x & <- & Hx). rewrite dlcs_rename in Hl. apply in_map_iff in Hl. destruct Hl as (m & <- & Hm).
        assert (Hp : In (parent_name m) (map hp_name hs)) by (apply (jn_sparent x _ Hx); apply (in_map parent_name), Hm).
        destruct (jn_act_s c' (parent_name m) Hp Hc' Ha) as (y & -> & Hy & Ay).
        apply (tm_ne _ _ _ _ Ts x m w vv (jn_sub x Hx) Hm Ht). exists y. split; [apply jn_sub, Hy|exact Ay].
    Qed.
    Lemma jn_cmp f : In f (ft ++ fs2) -> comparable f.
    Proof.
      intros Hf. apply in_app_or in Hf. destruct Hf as [Hf|Hf]; [apply (tm_cmp _ _ _ _ Tt), Hf|].
      apply in_map_iff in Hf. destruct Hf as (x & <- & Hx). apply comparable_rename, (tm_cmp _ _ _ _ Ts), (Permutation_in _ Pf Hx).
    Qed.

    Lemma jn_active_t d n : In n (map hp_name ht) -> (active (ct ++ cs2) d n <-> active ct d n).
    Proof.
      intros Hn. split; intros H c Hc A.
      - apply H; [apply in_or_app; left; exact Hc|exact A].
      - apply H; [apply (jn_act_t c n Hn Hc A)|exact A].
    Qed.
    Lemma jn_active_s d n : In n (map hp_name hs) -> (active (ct ++ cs2) d (g n) <-> active (conditions s) (fun m => d (g m)) n).
    Proof.
      intros Hn. split; intros H c Hc A.
      - apply holds_rename. apply H; [apply in_or_app; right; apply in_map, Hc|apply activates_rename; eauto].
      - destruct (jn_act_s c n Hn Hc A) as (x & -> & Hx & Ax). apply holds_rename. apply H; assumption.
    Qed.
    Lemma jn_valid d : valid (ht ++ hs2) (ct ++ cs2) (ft ++ fs2) d <-> valid ht ct ft d /\ valid hs cs fs (fun n => d (g n)).
    Proof.
      rewrite (listed_valid s hs cs fs _ Bs Rs U). split.
      - intros [V1 V2 V3]. split; constructor.
        + intros h w Hh. apply V1, in_or_app. left. exact Hh.
        + intros h Hh. rewrite <- (jn_active_t d (hp_name h)) by (apply in_map, Hh). apply V2, in_or_app. left. exact Hh.
        + intros f Hf. apply V3, in_or_app. left. exact Hf.
        + intros h w Hh Hw. apply (V1 (rename_hp g h) w); [apply in_or_app; right; apply in_map, Hh|exact Hw].
        + intros h Hh. rewrite <- (jn_active_s d (hp_name h)) by (apply in_map, (Permutation_in _ Ph Hh)).
          apply (V2 (rename_hp g h)). apply in_or_app. right. apply in_map, Hh.
        + intros f Hf. rewrite <- violated_rename. apply V3, in_or_app. right. apply in_map, Hf.
      - intros [[V1 V2 V3] [W1 W2 W3]]. constructor.
        + intros h w Hh. apply in_app_or in Hh. destruct Hh as [Hh|Hh]; [apply V1, Hh|]. apply in_map_iff in Hh. destruct Hh as (k & <- & Hk). apply (W1 k w Hk).
        + intros h Hh. apply in_app_or in Hh. destruct Hh as [Hh|Hh].
          * rewrite jn_active_t by (apply in_map, Hh). apply V2, Hh.
          * apply in_map_iff in Hh. destruct Hh as (k & <- & Hk). simpl. rewrite jn_active_s by (apply in_map, (Permutation_in _ Ph Hk)). apply (W2 k Hk).
        + intros f Hf. apply in_app_or in Hf. destruct Hf as [Hf|Hf]; [apply V3, Hf|]. apply in_map_iff in Hf. destruct Hf as (x & <- & Hx).
          rewrite violated_rename. apply W3, Hx.
    Qed.

    (** the default values of both *)
    Lemma jn_default : exists d, default_assignment (ht ++ hs2) (ct ++ cs2) d /\ forall f, In f (ft ++ fs2) -> ~ violated d f.
    Proof.
      destruct (C21_exists _ _ _ _ Bt) as (cft & Hct).
      destruct (default_sound t ht ct ft cft Ot Rt (tm_merge _ _ _ _ Tt) (tm_ne _ _ _ _ Tt) Hct) as (dt & Dt & Vt).
      destruct (C21_exists _ _ _ _ Bs) as (cfs & Hcs).
      destruct (default_sound s hs cs fs cfs Os Rs (tm_merge _ _ _ _ Ts) (tm_ne _ _ _ _ Ts) Hcs) as (ds & Ds & Vs).
      assert (AL : all_legal hs ds).
      { intros h w Hh Hw. destruct (Ds h Hh) as [[_ Q]|[_ Q]]; rewrite Q in Hw; [|discriminate]. injection Hw as <-.
        apply default_legal, (so_constructed Os), Hh. }
      set (d := fun n => match find (fun m => String.eqb (g m) n) (map hp_name hs) with Some m => ds m | None => dt n end).
      assert (G1 : forall n, In n (map hp_name ht) -> d n = dt n).
      { intros n Hn. unfold d. destruct (find _ _) as [m|] eqn:Fm; [|reflexivity]. exfalso. apply find_some in Fm. destruct Fm as [Hm Q].
        apply String.eqb_eq in Q. subst n. apply (Apart m Hm Hn). }
      assert (G2 : forall m, In m (map hp_name hs) -> d (g m) = ds m).
      { intros m Hm. unfold d. destruct (find _ _) as [m'|] eqn:Fm.
        - apply find_some in Fm. destruct Fm as [Hm' Q]. apply String.eqb_eq in Q. rewrite (Inj m' m Hm' Hm Q). reflexivity.
        - exfalso. apply (find_none _ _ Fm) in Hm. rewrite String.eqb_refl in Hm. discriminate. }
      exists d. split.
      - intros h Hh. apply in_app_or in Hh. destruct Hh as [Hh|Hh].
        + assert (Hn := in_map hp_name _ _ Hh). rewrite (jn_active_t d _ Hn), (G1 _ Hn).
          assert (Q : active ct d (hp_name h) <-> active ct dt (hp_name h)).
          { split; intros H c Hc A; [apply (holds_on ht c (proj1 Rt c Hc) d dt)|apply (holds_on ht c (proj1 Rt c Hc) dt d)]; auto.
            intros n Hk. symmetry. apply G1, Hk. }
          rewrite Q. apply Dt, Hh.
        + apply in_map_iff in Hh. destruct Hh as (k & <- & Hk). assert (Hk' := Permutation_in _ Ph Hk). assert (Hn := in_map hp_name _ _ Hk'). simpl.
          rewrite (jn_active_s d _ Hn), (G2 _ Hn).
          assert (Q : active (conditions s) (fun m => d (g m)) (hp_name k) <-> active (conditions s) ds (hp_name k)).
          { split; intros H c Hc A; [apply (holds_on hs c (proj1 Rs c (jn_sub c Hc)) (fun m => d (g m)) ds)|apply (holds_on hs c (proj1 Rs c (jn_sub c Hc)) ds (fun m => d (g m)))]; auto.
            intros n Hx. symmetry. apply G2, Hx. }
          rewrite Q, <- (listed_active s hs cs fs ds Bs Rs U AL). apply Ds, Hk'.
      - intros f Hf V. apply in_app_or in Hf. destruct Hf as [Hf|Hf].
        + apply (Vt f Hf). apply (violated_on ht f (proj2 Rt f Hf) d dt); [|exact V]. exact G1.
        + apply in_map_iff in Hf. destruct Hf as (x & <- & Hx). apply (violated_rename g d x) in V. assert (Hx' := Permutation_in _ Pf Hx).
          apply (Vs x Hx'). apply (violated_on hs x (proj2 Rs x Hx') (fun m => d (g m)) ds); [|exact V]. exact G2.
    Qed.

    Lemma jn_empty_clause : ~ In (FAnd []) (ft ++ fs2).
    Proof.
      intros H. apply in_app_or in H. destruct H as [H|H].
      - apply (Permutation_in _ (Permutation_sym (di_forb _ _ _ _ (so_inv _ _ _ _ Ot)))) in H. revert H. eapply optimized_nil. apply (cm_fast _ (so_com _ _ _ _ Ot)).
      - apply in_map_iff in H. destruct H as (f & Hf & Hi). destruct f as [| | |l]; try discriminate. destruct l; [|discriminate].
        revert Hi. eapply optimized_nil. apply (cm_fast _ (so_com _ _ _ _ Os)).
    Qed.
    Lemma jn_add : exists t', add t hs2 cs2 fs2 = (t', Ok tt) /\ tame t' (ht ++ hs2) (ct ++ cs2) (ft ++ fs2).
    Proof.
      destruct jn_default as (d & D & V).
      destruct (add_total t ht ct ft hs2 cs2 fs2 d Bt jn_hs jn_cs jn_fs jn_refs jn_empty_clause jn_nodup jn_one jn_cycle
                  (fun s' _ => jn_merge (index_of s')) jn_ne jn_cmp D V) as (t' & A).
      exists t'. split; [exact A|]. constructor; [|exact jn_refs|apply jn_merge|exact jn_ne|exact jn_cmp].
      apply (built_add _ _ _ _ _ _ _ _ Bt jn_hs jn_cs jn_fs A).
    Qed.
  End Join.

  (** ** The names of the new hyperparameters *)
  Lemma append_assoc' (a b c : string) : ((a ++ b) ++ c = a ++ (b ++ c))%string.
  Proof. induction a as [|x a IH]; [reflexivity|]. simpl. rewrite IH. reflexivity. Qed.
  Lemma append_inj (a b c : string) : (a ++ b = a ++ c)%string -> b = c.
  Proof. induction a as [|x a IH]; simpl; [auto|]. intros H. injection H as H. auto. Qed.
  Lemma append_nil (a b : string) : (a ++ b = a)%string -> b = ""%string.
  Proof. induction a as [|x a IH]; simpl; [auto|]. intros H. injection H as H. auto. Qed.
  Lemma prefix_append (a b : string) : String.prefix a (a ++ b) = true.
  Proof. induction a as [|x a IH]; [destruct b; reflexivity|]. simpl. destruct (Ascii.ascii_dec x x); [exact IH|contradiction]. Qed.
  Lemma prefix_split (a b : string) : String.prefix a b = true -> exists c, b = (a ++ c)%string.
  Proof.
    revert b. induction a as [|x a IH]; intros b H; [exists b; reflexivity|]. destruct b as [|y b]; [discriminate|]. simpl in H.
    destruct (Ascii.ascii_dec x y) as [->|]; [|discriminate]. destruct (IH b H) as (c & ->). exists c. reflexivity.
  Qed.

  Lemma new_name_idem p dl n : new_name p dl (new_name p dl n) = new_name p dl n.
  Proof.
    unfold new_name at 2 3. destruct (String.eqb n "" || String.eqb n p)%bool eqn:En.
    - unfold new_name. rewrite String.eqb_refl, orb_true_r. reflexivity.
    - apply orb_false_iff in En. destruct En as [E1 E2]. destruct (String.prefix (p ++ dl) n) eqn:Ep.
      + unfold new_name. rewrite E1, E2, Ep. reflexivity.
      + unfold new_name. rewrite <- append_assoc', prefix_append.
        destruct (String.eqb ((p ++ dl) ++ n) "" || String.eqb ((p ++ dl) ++ n) p)%bool eqn:Eq; [|reflexivity].
        exfalso. rewrite append_assoc' in Eq. apply orb_true_iff in Eq. destruct Eq as [Eq|Eq]; apply String.eqb_eq in Eq.
        * destruct p; [|discriminate]. destruct dl; [|discriminate]. simpl in Eq. subst n. discriminate.
        * apply append_nil in Eq. destruct dl; [|discriminate]. simpl in Eq. subst n. discriminate.
  Qed.
End Sub.

(** a name that gets the prefix *)
Definition plain_name (prefix delim n : string) : Prop := n <> ""%string /\ n <> prefix /\ forall r, n <> (prefix ++ delim ++ r)%string.

Section Main.
  Context {E : Env} {L : EnvLaws E}.

  (** C54: what the names are, whatever the source *)
  Theorem C54_names_partial p dl n : new_name p dl n = p \/ exists r, new_name p dl n = (p ++ dl ++ r)%string.
  Proof.
    unfold new_name. destruct (_ || _)%bool; [left; reflexivity|]. destruct (String.prefix (p ++ dl) n) eqn:Ep; [|eauto].
    right. apply prefix_split in Ep. destruct Ep as (c & ->). exists c. apply append_assoc'.
  Qed.
  Theorem C54_plain_names_partial p dl ns : (forall n, In n ns -> plain_name p dl n) ->
    (forall n, In n ns -> new_name p dl n = (p ++ dl ++ n)%string) /\
    (NoDup ns -> NoDup (map (new_name p dl) ns)).
  Proof.
    intros H. assert (G : forall n, In n ns -> new_name p dl n = (p ++ dl ++ n)%string).
    { intros n Hn. destruct (H n Hn) as (H1 & H2 & H3). unfold new_name. apply String.eqb_neq in H1, H2. rewrite H1, H2. simpl.
      destruct (String.prefix (p ++ dl) n) eqn:Ep; [|reflexivity]. apply prefix_split in Ep. destruct Ep as (c & ->). exfalso. apply (H3 c), append_assoc'. }
    split; [exact G|]. clear H. intros N. induction N as [|x l Hx N IH]; [constructor|]. simpl. constructor.
    - intros Hi. apply in_map_iff in Hi. destruct Hi as (y & Q & Hy). rewrite (G y (or_intror Hy)), (G x (or_introl eq_refl)) in Q.
      apply append_inj, append_inj in Q. subst y. contradiction.
    - apply IH. intros n Hn. apply G. right. exact Hn.
  Qed.

  (** the same hyperparameter with another name *)
  Definition called (n : string) (h h' : hp) : Prop :=
    hp_name h' = n /\ hp_kind h' = hp_kind h /\ hp_default h' = hp_default h /\ hp_meta h' = hp_meta h.

  Lemma rename_called g h : called (g (hp_name h)) h (rename_hp g h).
  Proof. repeat split. Qed.

  Lemma rename_same g h : g (hp_name h) = hp_name h -> rename_hp g h = h.
  Proof. destruct h. unfold rename_hp. simpl. intros ->. reflexivity. Qed.
  Lemma held_same g f : (forall n, In n (held_names f) -> g n = n) -> rename_held g f = f.
  Proof.
    induction f as [h v vv|h vs vvs|r a b|fs IH] using fclause_ind'; intros H; simpl.
    - rewrite rename_same; [reflexivity|apply H; left; reflexivity].
    - rewrite rename_same; [reflexivity|apply H; left; reflexivity].
    - reflexivity.
    - f_equal. simpl in H. induction IH as [|f fs Hf _ IH]; [reflexivity|]. simpl. rewrite Hf, IH; [reflexivity| |].
      + intros n Hn. apply H. simpl. apply in_or_app. right. exact Hn.
      + intros n Hn. apply H. simpl. apply in_or_app. left. exact Hn.
  Qed.
  Lemma map_same {A} (f : A -> A) l : (forall x, In x l -> f x = x) -> map f l = l.
  Proof. induction l as [|x l IH]; intros H; [reflexivity|]. simpl. rewrite (H x (or_introl eq_refl)), IH; [reflexivity|]. intros y Hy. apply H. right. exact Hy. Qed.
  Lemma untouched g t : on_dag (touch_clauses (only [] g)) t = t.
  Proof.
    assert (G : forall l, map (rename_held (only [] g)) l = l).
    { intros l. apply map_same. intros f _. apply held_same. reflexivity. }
    destruct t as [[] len]. unfold on_dag, touch_clauses. simpl. rewrite !G. f_equal. f_equal.
    apply map_same. intros [k l] _. simpl. rewrite G. reflexivity.
  Qed.

  (** the call reduced to the calls of add *)
  Lemma add_sub_eq t s hs cs fs p dl parent : tame s hs cs fs -> distinct_strings s ->
    let nn := new_name p dl in
    let hs2 := map (rename_hp nn) (Space.hps s) in
    let held := concat (map held_names (forbidden_clauses s)) in
    let s1 := on_dag (touch_dag (only held nn)) s in
    add_sub [] t s p dl parent =
      let (t2, r) := add t hs2 (map (rename_cond nn) (conditions s)) (map (rename_forb nn) (forbidden_clauses s)) in
      match r, parent with
      | Err e, _ => mk_outcome t2 s1 (map nn held ++ []) (Err e)
      | Ok _, None => mk_outcome t2 s1 (map nn held ++ []) (Ok tt)
      | Ok _, Some (q, v) =>
          match mapM (fun h => mk_bin OpEq h q v) (root_params t2 hs2) with
          | Err e => mk_outcome t2 s1 (map nn held ++ []) (Err e)
          | Ok [] => mk_outcome t2 s1 (map nn held ++ []) (Ok tt)
          | Ok cs2 => let (t3, r3) := add t2 [] cs2 [] in mk_outcome t3 s1 (map nn held ++ []) r3
          end
      end.
  Proof.
    intros T U nn hs2 held s1. assert (B := tm_built _ _ _ _ T). assert (O := built_ok _ _ _ _ B). unfold add_sub.
    rewrite (mapM_map copy_cond (fun c => c)).
    2: { intros c Hc. apply copy_cond_ok, (so_cond_built O). apply (listed _ _ _ _ B U) in Hc. destruct Hc as (n & Hc). apply (so_condof_in O _ _ Hc). }
    rewrite (mapM_map copy_forb (fun c => c)).
    2: { intros f Hf. apply copy_forb_ok, (so_forb_built O), (Permutation_in _ (di_forb _ _ _ _ (so_inv _ _ _ _ O)) Hf). }
    rewrite !map_id, untouched. reflexivity.
  Qed.

  (** the same condition, or clause, about renamed hyperparameters *)
  Definition condition_called (g : string -> string) (c c' : cond) : Prop :=
    cond_parents c' = map g (cond_parents c) /\ (forall n, activates c n -> activates c' (g n)) /\
    (forall d, holds d c' <-> holds (fun n => d (g n)) c).
  Definition clause_called (g : string -> string) (f f' : fclause) : Prop :=
    forb_names f' = map g (forb_names f) /\ (forall d, violated d f' <-> violated (fun n => d (g n)) f).

  Lemma rename_cond_called g c : condition_called g c (rename_cond g c).
  Proof.
    split; [apply parents_rename|]. split; [intros n A; apply activates_rename; eauto|intros d; apply holds_rename].
  Qed.
  Lemma rename_forb_called g f : clause_called g f (rename_forb g f).
  Proof. split; [unfold forb_names; rewrite hps_rename, !map_map; reflexivity|intros d; apply violated_rename]. Qed.

  Section Result.
    Context {t : space} {ht : list hp} {ct : list cond} {ft : list fclause}.
    Context {s : space} {hs : list hp} {cs : list cond} {fs : list fclause}.
    Variables p dl : string.
    Hypothesis Tt : tame t ht ct ft.
    Hypothesis Ts : tame s hs cs fs.
    Hypothesis U : distinct_strings s.
    Hypothesis ND : NoDup (map hp_name ht ++ map (new_name p dl) (map hp_name hs)).
    Let g := new_name p dl.

    Lemma nodup_map_inj {A B} (f : A -> B) l : NoDup (map f l) -> forall x y, In x l -> In y l -> f x = f y -> x = y.
    Proof.
      induction l as [|a l IH]; intros N x y Hx Hy Q; [destruct Hx|]. inversion N as [|? ? N1 N2]; subst.
      destruct Hx as [<-|Hx], Hy as [<-|Hy]; auto.
      - exfalso. apply N1. rewrite Q. apply in_map, Hy.
      - exfalso. apply N1. rewrite <- Q. apply in_map, Hx.
    Qed.
    Lemma sub_inj n m : In n (map hp_name hs) -> In m (map hp_name hs) -> g n = g m -> n = m.
    Proof. apply nodup_map_inj. clear - ND. unfold g. induction (map hp_name ht) as [|x l IH]; [exact ND|]. apply IH. inversion ND. assumption. Qed.
    Lemma sub_apart n : In n (map hp_name hs) -> ~ In (g n) (map hp_name ht).
    Proof.
      intros Hn Ht. apply (in_map g) in Hn. revert Ht Hn. generalize (g n). clear - ND. unfold g.
      induction (map hp_name ht) as [|x l IH]; intros y; simpl; [tauto|]. simpl in ND. inversion ND as [|? ? N1 N2]; subst.
      intros [<-|Hy] Hn; [apply N1, in_or_app; right; exact Hn|apply (IH N2 y Hy Hn)].
    Qed.
    Let hs2 := map (rename_hp g) (Space.hps s).
    Let cs2 := map (rename_cond g) (conditions s).
    Let fs2 := map (rename_forb g) (forbidden_clauses s).
    Let Os : space_ok s hs cs fs := built_ok _ _ _ _ (tm_built _ _ _ _ Ts).
    Let Ot : space_ok t ht ct ft := built_ok _ _ _ _ (tm_built _ _ _ _ Tt).

    Lemma sub_added : exists t', add t hs2 cs2 fs2 = (t', Ok tt) /\ tame t' (ht ++ hs2) (ct ++ cs2) (ft ++ fs2).
    Proof. apply (jn_add g Tt Ts U sub_inj sub_apart). Qed.

    (** C54: when the new names are pairwise different and not in use, the call returns; the target
        then has its own hyperparameters, conditions and clauses and those of the source under the
        new names, and its valid configurations are those that combine a valid configuration of the
        target with one of the source.

        Missing: sources in which two names become one (C54_names_refuted), which fail with the
        exception in C54_clash; the source afterwards (C54_source_refuted); conditions the source
        does not list (C58); the spaces outside [tame]. *)
    Theorem C54_partial : let o := add_sub [] t s p dl None in o_res o = Ok tt /\
      (forall n, In n (keys (o_target o)) <-> In n (keys t) \/ exists m, In m (keys s) /\ n = g m) /\
      (forall n h, get_hp t n = Some h -> get_hp (o_target o) n = Some h) /\
      (forall n h, get_hp s n = Some h -> exists h', get_hp (o_target o) (g n) = Some h' /\ called (g n) h h') /\
      (forall n, In n (keys t) -> Forall2 (fun c c' => cond_eqb c c' = true) (conds_of t n) (conds_of (o_target o) n)) /\
      (forall n, In n (keys s) -> Forall2 (condition_called g) (conds_of s n) (conds_of (o_target o) (g n))) /\
      (exists l, Permutation (forbidden_clauses (o_target o)) (ft ++ l) /\ Forall2 (clause_called g) (forbidden_clauses s) l) /\
      exists ht' ct' ft', tame (o_target o) ht' ct' ft' /\
        forall d, valid ht' ct' ft' d <-> valid ht ct ft d /\ valid hs cs fs (fun n => d (g n)).
    Proof.
      intros o. destruct sub_added as (t' & A & T').
      assert (Eo : o = mk_outcome t' (o_source o) (o_held o) (Ok tt)).
      { unfold o. rewrite (add_sub_eq t s hs cs fs p dl None Ts U). cbv zeta. fold g hs2 cs2 fs2. rewrite A. reflexivity. }
      rewrite Eo. cbn [o_res o_target]. clear Eo o. split; [reflexivity|].
      assert (O' := built_ok _ _ _ _ (tm_built _ _ _ _ T')). assert (Ph := so_hps Os).
      assert (Kt : forall n, In n (keys t) <-> In n (map hp_name ht)).
      { intros n. rewrite (keys_hs Ot), in_map_iff. split; intros (h & ? & ?); eauto. }
      assert (Ks : forall n, In n (keys s) <-> In n (map hp_name hs)).
      { intros n. rewrite (keys_hs Os), in_map_iff. split; intros (h & ? & ?); eauto. }
      split. { intros n. rewrite (keys_hs O'), Kt. split.
        - intros (h & Hh & <-). apply in_app_or in Hh. destruct Hh as [Hh|Hh]; [left; apply in_map, Hh|right].
          apply in_map_iff in Hh. destruct Hh as (k & <- & Hk). exists (hp_name k). split; [apply Ks, in_map, (Permutation_in _ Ph Hk)|reflexivity].
        - intros [Hn|(m & Hm & ->)].
          + apply in_map_iff in Hn. destruct Hn as (h & <- & Hh). exists h. split; [apply in_or_app; left; exact Hh|reflexivity].
          + apply Ks, in_map_iff in Hm. destruct Hm as (h & <- & Hh). exists (rename_hp g h). split; [|reflexivity].
            apply in_or_app. right. apply in_map, (Permutation_in _ (Permutation_sym Ph) Hh). }
      split. { intros n h Hh. apply (so_get_hp Ot) in Hh. destruct Hh as [Hh <-]. apply (so_get_hp O'). split; [apply in_or_app; left; exact Hh|reflexivity]. }
      split. { intros n h Hh. apply (so_get_hp Os) in Hh. destruct Hh as [Hh <-]. exists (rename_hp g h). split; [|apply rename_called].
        apply (so_get_hp O'). split; [|reflexivity]. apply in_or_app. right. apply in_map, (Permutation_in _ (Permutation_sym Ph) Hh). }
      assert (W : forall x, In x (ct ++ cs2) -> cond_wf x) by (intros x Hx; apply cond_built_wf, (so_cond_built O'), Hx).
      split. { intros n Hn. apply Kt in Hn. rewrite (so_conds_of Ot), (so_conds_of O').
        destruct (condof (d_nodes (s_dag t)) n) as [c|] eqn:E1.
        - destruct (so_condof_in Ot _ _ E1) as [Ic Ac]. assert (Ic' : In c (ct ++ cs2)) by (apply in_or_app; left; exact Ic).
          destruct (so_declared O' n c Ic' Ac) as (c' & Hc' & Q). rewrite Hc'. constructor; [|constructor].
          rewrite cond_eqb_sym; [exact Q|apply W, Ic'|apply W, (so_condof_in O' _ _ Hc')].
        - destruct (condof (d_nodes (s_dag t')) n) as [c'|] eqn:E2; [|constructor]. exfalso.
          destruct (so_condof_in O' _ _ E2) as [I' A'].
          assert (I2 := jn_act_t g Ts U sub_apart c' n Hn I' A').
          destruct (so_declared Ot n c' I2 A') as (y & Hy & _). congruence. }
      split. { intros n Hn. apply Ks in Hn. rewrite (so_conds_of Os), (so_conds_of O').
        destruct (condof (d_nodes (s_dag s)) n) as [c|] eqn:E1.
        - assert (Hc : In c (conditions s)) by (apply (listed _ _ _ _ (tm_built _ _ _ _ Ts) U); eauto). assert (Ac := proj2 (so_condof_in Os _ _ E1)).
          destruct (so_declared O' (g n) (rename_cond g c)) as (c' & Hc' & _).
          { apply in_or_app. right. apply in_map, Hc. } { apply activates_rename. eauto. }
          rewrite Hc'. constructor; [|constructor]. destruct (so_condof_in O' _ _ Hc') as [I' A'].
          destruct (jn_act_s g Tt Ts U sub_inj sub_apart c' n Hn I' A') as (x & -> & Hx & Ax).
          assert (x = c).
          { apply (listed _ _ _ _ (tm_built _ _ _ _ Ts) U) in Hx. destruct Hx as (m & Hx). assert (Q := proj2 (so_condof_in Os _ _ Hx)). unfold activates in *.
            assert (m = n) by congruence. congruence. }
          subst x. apply rename_cond_called.
        - destruct (condof (d_nodes (s_dag t')) (g n)) as [c'|] eqn:E2; [|constructor]. exfalso.
          destruct (so_condof_in O' _ _ E2) as [I' A']. destruct (jn_act_s g Tt Ts U sub_inj sub_apart c' n Hn I' A') as (x & -> & Hx & Ax).
          destruct (so_declared Os n x (jn_sub Ts U x Hx) Ax) as (y & Hy & _). congruence. }
      split. { exists fs2. split; [apply (di_forb _ _ _ _ (so_inv _ _ _ _ O'))|]. unfold fs2. generalize (forbidden_clauses s).
        induction l as [|f l IH]; constructor; [apply rename_forb_called|exact IH]. }
      exists (ht ++ hs2), (ct ++ cs2), (ft ++ fs2). split; [exact T'|].
      intros d. apply (jn_valid g Tt Ts U sub_inj sub_apart).
    Qed.

    (** ... and it accepts the values that both accept *)
    Definition strip_names (vals : list (string * option value)) : list (string * option value) :=
      map (fun h => (hp_name h, given vals (g (hp_name h)))) hs.
    Definition own_names (vals : list (string * option value)) : list (string * option value) :=
      map (fun h => (hp_name h, given vals (hp_name h))) ht.

    Lemma given_map (l : list hp) (e : string -> option value) : NoDup (map hp_name l) ->
      forall h, In h l -> given (map (fun h => (hp_name h, e (hp_name h))) l) (hp_name h) = e (hp_name h).
    Proof.
      intros N h Hh. unfold given. erewrite In_assoc with (a := e (hp_name h)); [reflexivity| |].
      - rewrite map_map. exact N.
      - apply (in_map (fun h => (hp_name h, e (hp_name h)))), Hh.
    Qed.

    Theorem C54_accepts_partial vals d :
      (forall k, In k (map fst vals) -> In k (map hp_name ht) \/ exists h, In h hs /\ k = g (hp_name h)) ->
      (forall h w, In h ht -> given vals (hp_name h) = Some w -> exact_value h w) ->
      (forall h w, In h hs -> given vals (g (hp_name h)) = Some w -> exact_value h w) ->
      (forall h, In h ht -> d (hp_name h) = option_map (round_value h) (given vals (hp_name h))) ->
      (forall h, In h hs -> d (g (hp_name h)) = option_map (round_value h) (given vals (g (hp_name h)))) ->
      ((exists c, config_of_values (o_target (add_sub [] t s p dl None)) vals false = Ok c) <->
       (exists c, config_of_values t (own_names vals) false = Ok c) /\ (exists c, config_of_values s (strip_names vals) false = Ok c)).
    Proof.
      intros Kn X1 X2 S1 S2. destruct sub_added as (t' & A & T').
      assert (Eo : o_target (add_sub [] t s p dl None) = t').
      { rewrite (add_sub_eq t s hs cs fs p dl None Ts U). cbv zeta. fold g hs2 cs2 fs2. rewrite A. reflexivity. }
      rewrite Eo. clear Eo. assert (Ph := so_hps Os).
      assert (Nt := so_names_nodup Ot). assert (Ns := so_names_nodup Os).
      assert (Gt : forall h, In h ht -> given (own_names vals) (hp_name h) = given vals (hp_name h)) by exact (given_map ht (given vals) Nt).
      assert (Gs : forall h, In h hs -> given (strip_names vals) (hp_name h) = given vals (g (hp_name h)))
        by exact (given_map hs (fun n => given vals (g n)) Ns).
      rewrite (C17_accepts_valid_partial t' _ _ _ vals d T').
      2: { intros h Hh. apply in_app_or in Hh. destruct Hh as [Hh|Hh]; [apply S1, Hh|]. apply in_map_iff in Hh. destruct Hh as (k & <- & Hk).
           apply (S2 k (Permutation_in _ Ph Hk)). }
      2: { intros h w Hh. apply in_app_or in Hh. destruct Hh as [Hh|Hh]; [apply X1, Hh|]. apply in_map_iff in Hh. destruct Hh as (k & <- & Hk).
           apply (X2 k w (Permutation_in _ Ph Hk)). }
      rewrite (C17_accepts_valid_partial t ht ct ft (own_names vals) d Tt).
      2: { intros h Hh. rewrite (Gt h Hh). apply S1, Hh. }
      2: { intros h w Hh. rewrite (Gt h Hh). apply X1, Hh. }
      rewrite (C17_accepts_valid_partial s hs cs fs (strip_names vals) (fun n => d (g n)) Ts).
      2: { intros h Hh. rewrite (Gs h Hh). apply S2, Hh. }
      2: { intros h w Hh. rewrite (Gs h Hh). apply X2, Hh. }
      assert (JV : valid (ht ++ hs2) (ct ++ cs2) (ft ++ fs2) d <-> valid ht ct ft d /\ valid hs cs fs (fun n => d (g n)))
        by exact (jn_valid g Tt Ts U sub_inj sub_apart d).
      rewrite JV. split.
      - intros (H1 & H2 & H3 & H4). split; (split; [|split; [|assumption]]).
        + intros k Hk. right. unfold own_names in Hk. rewrite map_map in Hk. exact Hk.
        + intros h w Hh. rewrite (Gt h Hh). apply H2, in_or_app. left. exact Hh.
        + intros k Hk. right. unfold strip_names in Hk. rewrite map_map in Hk. exact Hk.
        + intros h w Hh Hw. rewrite (Gs h Hh) in Hw. apply (H2 (rename_hp g h) w); [|exact Hw]. apply in_or_app. right. apply in_map, (Permutation_in _ (Permutation_sym Ph) Hh).
      - intros [(_ & H2 & H3) (_ & H2' & H4)]. split; [|split; [|auto]].
        + intros k Hk. right. rewrite map_app. apply in_or_app. destruct (Kn k Hk) as [K|(h & Hh & ->)]; [left; exact K|right].
          apply in_map_iff. exists (rename_hp g h). split; [reflexivity|apply in_map, (Permutation_in _ (Permutation_sym Ph) Hh)].
        + intros h w Hh Hw. apply in_app_or in Hh. destruct Hh as [Hh|Hh].
          * apply (H2 h w Hh). rewrite (Gt h Hh). exact Hw.
          * apply in_map_iff in Hh. destruct Hh as (k & <- & Hk). assert (Hk' := Permutation_in _ Ph Hk). apply (H2' k w Hk'). rewrite (Gs k Hk'). exact Hw.
    Qed.
  End Result.

  (** ** Names that clash *)
  Lemma run_add_names hs : forall d d' , run dag_add hs d = (d', Ok tt) -> NoDup (map fst (d_nodes d)) ->
    NoDup (map fst (d_nodes d) ++ map hp_name hs).
  Proof.
    induction hs as [|h hs IH]; intros d d' H N; simpl in H; [simpl; rewrite app_nil_r; exact N|].
    unfold dag_add in H at 1. destruct (assoc_mem (hp_name h) (d_nodes d)) eqn:Em; [discriminate|].
    apply IH in H.
    - cbn [d_nodes set_roots set_nodes] in H. rewrite map_app in H. cbn [map fst] in H. rewrite <- app_assoc in H. exact H.
    - cbn [d_nodes set_roots set_nodes]. rewrite map_app. cbn [map fst]. apply nodup_both; [exact N|constructor; [tauto|constructor]|].
      intros x Hx [<-|[]]. rewrite (proj2 (assoc_mem_iff _ _) Hx) in Em. discriminate.
  Qed.

  (** C54: otherwise the call raises HyperparameterAlreadyExistsError, whatever else it is given *)
  Theorem C54_clash lk t ht ct ft s hs cs fs p dl parent : built t ht ct ft -> tame s hs cs fs -> distinct_strings s ->
    ~ NoDup (map hp_name ht ++ map (new_name p dl) (map hp_name hs)) ->
    o_res (add_sub lk t s p dl parent) = Err HyperparameterAlreadyExistsError.
  Proof.
    intros Bt Ts U ND. assert (Ot := built_ok _ _ _ _ Bt). assert (B := tm_built _ _ _ _ Ts). assert (O := built_ok _ _ _ _ B).
    assert (Cc : mapM copy_cond (conditions s) = Ok (conditions s)).
    { rewrite (mapM_map copy_cond (fun c => c)); [rewrite map_id; reflexivity|].
      intros c Hc. apply copy_cond_ok, (so_cond_built O). apply (listed _ _ _ _ B U) in Hc. destruct Hc as (n & Hc). apply (so_condof_in O _ _ Hc). }
    assert (Cf : mapM copy_forb (forbidden_clauses s) = Ok (forbidden_clauses s)).
    { rewrite (mapM_map copy_forb (fun c => c)); [rewrite map_id; reflexivity|].
      intros f Hf. apply copy_forb_ok, (so_forb_built O), (Permutation_in _ (di_forb _ _ _ _ (so_inv _ _ _ _ O)) Hf). }
    unfold add_sub. rewrite Cc, Cf. cbv zeta.
    set (g := new_name p dl) in *. set (held := concat (map held_names (forbidden_clauses s))). set (hs2 := map (rename_hp g) (Space.hps s)).
    set (t1 := on_dag (touch_clauses (only lk (only held g))) t).
    assert (A : exists t2, add t1 hs2 (map (rename_cond g) (conditions s)) (map (rename_forb g) (forbidden_clauses s)) = (t2, Err HyperparameterAlreadyExistsError)).
    { rewrite add_eq. unfold dag_update. destruct (run dag_add hs2 (s_dag t1)) as [d1 [[]|e]] eqn:R.
      - exfalso. apply run_add_names in R.
        + apply ND. change (map fst (d_nodes (s_dag t1))) with (keys t) in R.
          assert (P1 : Permutation (keys t) (map hp_name ht)) by (rewrite (so_keys Ot); reflexivity).
          assert (P2 : Permutation (map hp_name hs2) (map g (map hp_name hs))).
          { unfold hs2. rewrite map_map, map_map. apply Permutation_map, (so_hps O). }
          eapply Permutation_NoDup; [apply Permutation_app; [exact P1|exact P2]|exact R].
        + change (map fst (d_nodes (s_dag t1))) with (keys t). eapply Permutation_NoDup; [symmetry; apply (so_keys Ot)|apply (so_names_nodup Ot)].
      - destruct (run_err _ _ _ _ _ R) as (l1 & x & l2 & d2 & _ & _ & R2). unfold dag_add in R2.
        destruct (assoc_mem _ _); [|discriminate]. injection R2 as _ <-. eexists. reflexivity. }
    destruct A as (t2 & ->). reflexivity.
  Qed.

  (** ** The source *)
  (** the clause compares hyperparameter [n] with a value *)
  Inductive tests (n : string) : fclause -> Prop :=
  | tests_eq h v vv : hp_name h = n -> tests n (FEq h v vv)
  | tests_in h vs vvs : hp_name h = n -> tests n (FIn h vs vvs)
  | tests_and fs f : In f fs -> tests n f -> tests n (FAnd fs).

  Lemma held_tests n f : In n (held_names f) <-> tests n f.
  Proof.
    split.
    - induction f as [h v vv|h vs vvs|r a b|fs IH] using fclause_ind'; intros H; simpl in H.
      + destruct H as [<-|[]]. constructor. reflexivity.
      + destruct H as [<-|[]]. constructor. reflexivity.
      + destruct H.
      + apply in_concat in H. destruct H as (l & Hl & Hn). apply in_map_iff in Hl. destruct Hl as (f & <- & Hf).
        rewrite Forall_forall in IH. apply (tests_and n fs f Hf), IH; assumption.
    - induction 1 as [h v vv <-|h vs vvs <-|fs f Hf T IH]; simpl; auto. apply in_concat. exists (held_names f). split; [apply in_map, Hf|exact IH].
  Qed.

  Lemma rename_none_hp g h : rename_hp (only [] g) h = h.
  Proof. apply rename_same. reflexivity. Qed.
  Lemma rename_none_cond g c : rename_cond (only [] g) c = c.
  Proof.
    induction c as [l|cs IH|cs IH] using cond_ind'; simpl.
    - unfold rename_lit. rewrite !rename_none_hp. destruct l. reflexivity.
    - f_equal. apply map_same. rewrite Forall_forall in IH. exact IH.
    - f_equal. apply map_same. rewrite Forall_forall in IH. exact IH.
  Qed.
  Lemma rename_none_forb g f : rename_forb (only [] g) f = f.
  Proof.
    induction f as [h v vv|h vs vvs|r a b|fs IH] using fclause_ind'; simpl; rewrite ?rename_none_hp; try reflexivity.
    f_equal. apply map_same. rewrite Forall_forall in IH. exact IH.
  Qed.
  Lemma untouched_source g s : on_dag (touch_dag (only [] g)) s = s.
  Proof.
    set (k := only [] g).
    assert (Hc : forall l, map (rename_cond k) l = l) by (intros l; apply map_same; intros; apply rename_none_cond).
    assert (Hf : forall l, map (rename_forb k) l = l) by (intros l; apply map_same; intros; apply rename_none_forb).
    assert (Hh : forall l, map (rename_hp k) l = l) by (intros l; apply map_same; intros; apply rename_none_hp).
    assert (Hn : forall l, map (touch_cnode k) l = l).
    { intros l. apply map_same. intros [c ch] _. unfold touch_cnode. simpl. unfold k. rewrite rename_none_cond. reflexivity. }
    assert (He : forall l : list (string * cond), map (fun e => (fst e, rename_cond k (snd e))) l = l).
    { intros l. apply map_same. intros [a c] _. simpl. unfold k. rewrite rename_none_cond. reflexivity. }
    destruct s as [[] len]. unfold on_dag, touch_dag. simpl. rewrite !Hc, !Hf, !Hh, !Hn. f_equal.
    assert (Hnode : forall nd, touch_node k nd = nd).
    { intros [h dp ch ps c]. unfold touch_node. simpl. rewrite !He. unfold k. rewrite rename_none_hp. destruct c; simpl; rewrite ?rename_none_cond; reflexivity. }
    f_equal; apply map_same; intros [a x] _; simpl; rewrite ?Hnode, ?Hc, ?Hf, ?Hh, ?Hn; reflexivity.
  Qed.

  (** C54: in the source, only the names of hyperparameters that a clause compares with values change,
      and nothing changes if there are none; whether the call raises or not. *)
  Theorem C54_source_partial lk t s hs cs fs p dl parent : tame s hs cs fs -> distinct_strings s ->
    let s' := o_source (add_sub lk t s p dl parent) in
    keys s' = keys s /\
    (forall n h, get_hp s n = Some h -> (exists f, In f (forbidden_clauses s) /\ tests n f) ->
       exists h', get_hp s' n = Some h' /\ called (new_name p dl n) h h') /\
    (forall n h, get_hp s n = Some h -> (forall f, In f (forbidden_clauses s) -> ~ tests n f) -> get_hp s' n = Some h) /\
    ((forall f n, In f (forbidden_clauses s) -> ~ tests n f) -> s' = s).
  Proof.
    intros Ts U s'. assert (B := tm_built _ _ _ _ Ts). assert (O := built_ok _ _ _ _ B).
    set (g := new_name p dl). set (held := concat (map held_names (forbidden_clauses s))).
    assert (Es : s' = on_dag (touch_dag (only held g)) s).
    { unfold s', add_sub.
      rewrite (mapM_map copy_cond (fun c => c)).
      2: { intros c Hc. apply copy_cond_ok, (so_cond_built O). apply (listed _ _ _ _ B U) in Hc. destruct Hc as (n & Hc). apply (so_condof_in O _ _ Hc). }
      rewrite (mapM_map copy_forb (fun c => c)).
      2: { intros f Hf. apply copy_forb_ok, (so_forb_built O), (Permutation_in _ (di_forb _ _ _ _ (so_inv _ _ _ _ O)) Hf). }
      cbv zeta. destruct (add _ _ _ _) as [t2 [[]|e]]; [|reflexivity]. destruct parent as [[q v]|]; [|reflexivity].
      destruct (mapM _ _) as [[|c l]|e]; try reflexivity. destruct (add _ _ _ _) as [t3 r3]. reflexivity. }
    assert (Hd : forall n, In n held <-> exists f, In f (forbidden_clauses s) /\ tests n f).
    { intros n. unfold held. rewrite in_concat. split.
      - intros (l & Hl & Hn). apply in_map_iff in Hl. destruct Hl as (f & <- & Hf). exists f. split; [exact Hf|apply held_tests, Hn].
      - intros (f & Hf & T). exists (held_names f). split; [apply in_map, Hf|apply held_tests, T]. }
    assert (Gs : forall n h, get_hp s n = Some h -> get_hp s' n = Some (rename_hp (only held g) h)).
    { intros n h H. rewrite Es. unfold get_hp, on_dag, touch_dag in *. cbn [s_dag d_nodes]. rewrite assoc_map.
      destruct (assoc n (d_nodes (s_dag s))) as [nd|]; [|discriminate]. cbn in *. injection H as <-. reflexivity. }
    split. { rewrite Es. unfold keys. simpl. rewrite map_map. reflexivity. }
    split. { intros n h H T. rewrite (Gs n h H). eexists. split; [reflexivity|]. apply Hd in T. apply (so_get_hp O) in H. destruct H as [_ <-].
      unfold called, rename_hp, only. simpl. apply str_in_iff in T. rewrite T. auto. }
    split. { intros n h H T. rewrite (Gs n h H). f_equal. apply rename_same. apply (so_get_hp O) in H. destruct H as [_ <-]. unfold only.
      destruct (str_in (hp_name h) held) eqn:Em; [|reflexivity]. apply str_in_iff, Hd in Em. destruct Em as (f & Hf & Q). destruct (T f Hf Q). }
    intros T. rewrite Es. assert (held = []).
    { destruct held as [|n l] eqn:Eh; [reflexivity|]. destruct (proj1 (Hd n) (or_introl eq_refl)) as (f & Hf & Q). destruct (T f n Hf Q). }
    rewrite H. apply untouched_source.
  Qed.
End Main.

Section Witness.
  #[local] Existing Instance rat_env.

  (** the example space, twice *)
  Example C54_case : exists t ht ct ft s hs cs fs, tame t ht ct ft /\ tame s hs cs fs /\ distinct_strings s /\
    NoDup (map hp_name ht ++ map (new_name "p" ":") (map hp_name hs)) /\ length cs = 4 /\ length fs = 5 /\
    keys (o_target (add_sub [] t s "p" ":" None)) =
      ["a"; "k"; "l"; "n"; "o"; "p:a"; "p:k"; "p:l"; "p:n"; "p:o"; "b"; "e"; "g"; "p:b"; "p:e"; "p:g"; "c"; "p:c"]%string.
  Proof.
    exists ex_space, ex_hps, ex_conds, ex_forbs, ex_space, ex_hps, ex_conds, ex_forbs.
    split; [exact ex_tame|]. split; [exact ex_tame|]. split; [exact ex_distinct_strings|].
    split; [apply nodup_strings; vm_compute; reflexivity|]. split; [reflexivity|]. split; [reflexivity|]. vm_compute. reflexivity.
  Qed.

  (** a space of hyperparameters and clauses only *)
  Lemma flat_tame s hs fs : built s hs [] fs -> refs hs [] fs -> (forall f, In f fs -> comparable f) -> tame s hs [] fs.
  Proof. intros B R C. constructor; auto; [intros ? ? ? []|intros ? ? ? ? []]. Qed.
  Lemma flat_distinct s hs fs : built s hs [] fs -> distinct_strings s.
  Proof.
    intros B n n' c c' H. assert (O := built_ok _ _ _ _ B). exfalso. unfold in_force in H. rewrite (so_conds_of O) in H.
    destruct (condof (d_nodes (s_dag s)) n) as [x|] eqn:Ex; [|destruct H]. destruct (so_condof_in O n x Ex) as [K _]. destruct K.
  Qed.

  Definition hX := get_or dummy_hp (mk_uniform_int "x" 0 9 None false None).
  Definition hPX := get_or dummy_hp (mk_uniform_int "p:x" 0 9 None false None).
  Lemma hX_c : constructed hX.
  Proof. apply (CtorUInt "x" 0 9 None false None). vm_compute. reflexivity. Qed.
  Lemma hPX_c : constructed hPX.
  Proof. apply (CtorUInt "p:x" 0 9 None false None). vm_compute. reflexivity. Qed.

  (** "x" and "p:x" both become "p:x", so that a space with both cannot be added to an empty one *)
  Definition two_names := fst (add empty_space [hX; hPX] [] []).
  Theorem C54_names_refuted : exists s hs p dl, tame s hs [] [] /\ distinct_strings s /\
    o_res (add_sub [] empty_space s p dl None) = Err HyperparameterAlreadyExistsError.
  Proof.
    exists two_names, [hX; hPX], "p"%string, ":"%string.
    assert (B : built two_names [hX; hPX] [] []).
    { apply (built_step empty_space [] [] [] [hX; hPX] [] [] built_empty); [|constructor|constructor|vm_compute; reflexivity].
      repeat (constructor; [first [apply hX_c|apply hPX_c]|]). constructor. }
    split; [apply flat_tame; [exact B| |intros f []]; split; [intros c []|intros f []]|].
    split; [apply (flat_distinct _ _ _ B)|]. vm_compute. reflexivity.
  Qed.

  (** adding a space with an equality clause renames a hyperparameter of the space that was added *)
  Definition fX := get_or dummy_forb (mk_feq hX (VInt 7)).
  Definition x_space := fst (add empty_space [hX] [] [fX]).
  Lemma x_built : built x_space [hX] [] [fX].
  Proof.
    apply (built_step empty_space [] [] [] [hX] [] [fX] built_empty); [|constructor| |vm_compute; reflexivity].
    - constructor; [apply hX_c|constructor].
    - constructor; [|constructor]. apply (FB_eq hX (VInt 7) fX hX_c). vm_compute. reflexivity.
  Qed.
  Lemma x_tame : tame x_space [hX] [] [fX].
  Proof.
    apply flat_tame; [exact x_built| |].
    - split; [intros c []|]. intros f [<-|[]] h Hh. vm_compute in Hh. destruct Hh as [<-|[]]. vm_compute. tauto.
    - intros f [<-|[]] r a b Hr Hne. vm_compute in Hr. destruct Hr as [Hr|[]]. discriminate Hr.
  Qed.
  Theorem C54_source_refuted : exists s hs fs p dl, tame s hs [] fs /\ distinct_strings s /\
    let o := add_sub [] empty_space s p dl None in o_res o = Ok tt /\
    keys (o_source o) = ["x"]%string /\ option_map hp_name (get_hp s "x") = Some "x"%string /\
    option_map hp_name (get_hp (o_source o) "x") = Some "p:x"%string.
  Proof.
    exists x_space, [hX], [fX], "p"%string, ":"%string. split; [exact x_tame|]. split; [apply (flat_distinct _ _ _ x_built)|].
    vm_compute. auto.
  Qed.

  (** a second call with the same source and another prefix: the new hyperparameter is called "b:a:x",
      not "b:x", and "a:x" loses its clause *)
  Theorem C54_twice_refuted : exists s hs fs, tame s hs [] fs /\ distinct_strings s /\
    let o1 := add_sub [] empty_space s "a" ":" None in
    let o2 := add_sub (o_held o1) (o_target o1) (o_source o1) "b" ":" None in
    o_res o1 = Ok tt /\ o_res o2 = Ok tt /\
    config_of_values (o_target o1) [("a:x", Some (VInt 7))] false = Err ForbiddenValueError /\
    keys (o_target o2) = ["a:x"; "b:a:x"]%string /\
    map forb_names (forbidden_clauses (o_target o2)) = [["b:a:x"]; ["b:a:x"]]%string /\
    exists c, config_of_values (o_target o2) [("a:x", Some (VInt 7)); ("b:a:x", Some (VInt 1))] false = Ok c.
  Proof.
    exists x_space, [hX], [fX]. split; [exact x_tame|]. split; [apply (flat_distinct _ _ _ x_built)|]. cbv zeta.
    split; [vm_compute; reflexivity|]. split; [vm_compute; reflexivity|]. split; [vm_compute; reflexivity|].
    split; [vm_compute; reflexivity|]. split; [vm_compute; reflexivity|]. eexists. vm_compute. reflexivity.
  Qed.
End Witness.
