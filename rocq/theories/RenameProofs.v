(** * Renaming the hyperparameters of conditions and clauses *)
From Coq Require Import String List ZArith QArith Bool Lia Permutation Relations.
From Verif Require Import Base ListFacts Numeric NumericProofs HP HPProofs Properties_HP Cond Forb EqFacts Dag DagCycle DagProofs
  Space CommitProofs Spec SpaceProofs CnodeProofs ForbProofs AddProofs EvalProofs ForbEval MergeProofs ValidProofs ConfigProofs
  ChangeProofs ReadProofs Ex DistProofs Properties_Graph Properties_Eval Properties_Config Properties_Repair Properties_Raise
  Properties_Add Serial Properties_Serial Priors Properties_Priors Subspace.
Import ListNotations.
Open Scope string_scope.
Open Scope nat_scope.
Open Scope list_scope.

Lemma forallb_mapped {A B} (f : B -> bool) (h : A -> B) l : forallb f (map h l) = forallb (fun x => f (h x)) l.
Proof. induction l as [|x l IH]; [reflexivity|]. simpl. rewrite IH. reflexivity. Qed.
Lemma existsb_mapped {A B} (f : B -> bool) (h : A -> B) l : existsb f (map h l) = existsb (fun x => f (h x)) l.
Proof. induction l as [|x l IH]; [reflexivity|]. simpl. rewrite IH. reflexivity. Qed.

Section Names.
  Variable g : string -> string.

  Lemma dlcs_rename c : dlcs (rename_cond g c) = map (rename_lit g) (dlcs c).
  Proof.
    induction c as [l|cs IH|cs IH] using cond_ind'; [reflexivity| |]; simpl;
      (induction IH as [|c cs Hc _ IH]; [reflexivity|]; simpl; rewrite map_app, Hc, IH; reflexivity).
  Qed.
  Lemma parents_rename c : cond_parents (rename_cond g c) = map g (cond_parents c).
  Proof. unfold cond_parents. rewrite dlcs_rename, !map_map. reflexivity. Qed.
  Lemma child_rename c : cond_child (rename_cond g c) = option_map (rename_hp g) (cond_child c).
  Proof. unfold cond_child. rewrite dlcs_rename. destruct (dlcs c); reflexivity. Qed.
  Lemma activates_rename c n : activates (rename_cond g c) n <-> exists m, n = g m /\ activates c m.
  Proof.
    unfold activates. rewrite child_rename. destruct (cond_child c) as [h|]; simpl.
    - split; [intros H; injection H as <-; eauto|intros (m & -> & H); injection H as <-; reflexivity].
    - split; [discriminate|intros (m & _ & H); discriminate H].
  Qed.
  Lemma holds_rename d c : holds d (rename_cond g c) <-> holds (fun n => d (g n)) c.
  Proof.
    induction c as [l|cs IH|cs IH] using cond_ind'; [reflexivity| |]; simpl; rewrite map_map.
    - rewrite !fold_and_iff. rewrite Forall_forall in IH. split; intros H x Hx; apply (IH x Hx), H, Hx.
    - rewrite !fold_or_iff. rewrite Forall_forall in IH. split; intros (x & Hx & H); exists x; (split; [exact Hx|apply (IH x Hx), H]).
  Qed.
  Lemma violated_rename d f : violated d (rename_forb g f) <-> violated (fun n => d (g n)) f.
  Proof.
    induction f as [h v vv|h vs vvs|r a b|fs IH] using fclause_ind'; try reflexivity. simpl.
    rewrite map_map, !fold_and_iff. rewrite Forall_forall in IH. split; intros H x Hx; apply (IH x Hx), H, Hx.
  Qed.
  Lemma fdlcs_rename f : fdlcs (rename_forb g f) = map (rename_forb g) (fdlcs f).
  Proof.
    induction f as [h v vv|h vs vvs|r a b|fs IH] using fclause_ind'; try reflexivity. simpl.
    induction IH as [|f fs Hf _ IH]; [reflexivity|]. simpl. rewrite map_app, Hf, IH. reflexivity.
  Qed.
  Lemma hps_rename f : forb_hps (rename_forb g f) = map (rename_hp g) (forb_hps f).
  Proof.
    unfold forb_hps. rewrite fdlcs_rename. assert (G := fdlcs_leaf f). induction (fdlcs f) as [|x l IH]; [reflexivity|].
    simpl. rewrite map_app, IH by (intros y Hy; apply G; right; exact Hy). f_equal.
    assert (Q := G x (or_introl eq_refl)). destruct x; try reflexivity; contradiction.
  Qed.
  Lemma comparable_rename f : comparable f -> comparable (rename_forb g f).
  Proof.
    intros C r a b H Hr. rewrite fdlcs_rename in H. apply in_map_iff in H. destruct H as (x & Hx & Hi).
    destruct x as [| |r' a' b'|]; try discriminate. injection Hx as -> <- <-. apply (C r a' b' Hi Hr).
  Qed.
  Lemma sat_rename io io' v v' c : (forall n, In n (cond_parents c) -> vget io v (g n) = vget io' v' n) ->
    sat_vec io v (rename_cond g c) = sat_vec io' v' c.
  Proof.
    induction c as [l|cs IH|cs IH] using cond_ind'; intros H.
    - simpl. unfold lit_vec. simpl. f_equal. apply H. left. reflexivity.
    - cbn [rename_cond sat_vec]. rewrite forallb_mapped. apply forallb_ext_in. intros x Hx. rewrite Forall_forall in IH. apply (IH x Hx).
      intros n Hn. apply H. unfold cond_parents in *. apply in_map_iff in Hn. destruct Hn as (l & <- & Hl). apply in_map. eapply dlcs_in_and; eauto.
    - cbn [rename_cond sat_vec]. rewrite existsb_mapped. apply existsb_ext_in. intros x Hx. rewrite Forall_forall in IH. apply (IH x Hx).
      intros n Hn. apply H. unfold cond_parents in *. apply in_map_iff in Hn. destruct Hn as (l & <- & Hl). apply in_map. eapply dlcs_in_and; eauto.
  Qed.
End Names.

Section Built.
  Context {E : Env} {L : EnvLaws E}.
  Ltac kill := repeat match goal with
    | H : (if ?b then _ else Err _) = Ok _ |- _ => destruct b eqn:?; [|discriminate H]
    end.

  Lemma finish_rename n n' k d m h : finish (mk_hp n k d m) = Ok h -> finish (mk_hp n' k d m) = Ok (mk_hp n' (hp_kind h) (hp_default h) (hp_meta h)).
  Proof. intros H. apply finish_ok in H. destruct H as [-> H]. apply finish_legal. exact H. Qed.
  Lemma constructed_rename g h : constructed h -> constructed (rename_hp g h).
  Proof.
    intros C. destruct C as [n c d w m h H|n s d m h H|n v m h H|n lo hi d l m h H|n mu s lo hi d l m h H|n a b lo hi d l m h H
                              |n lo hi d l m h H|n mu s lo hi d l m h H|n a b lo hi d l m h H].
    - apply (CtorCat (g (hp_name h)) c d w m). unfold mk_categorical in *. kill. destruct c as [|c0 c]; [destruct w; discriminate|].
      eapply finish_rename. exact H.
    - apply (CtorOrd (g (hp_name h)) s d m). unfold mk_ordinal in *. kill. destruct d as [d|]; [kill|destruct s; [discriminate|]]; eapply finish_rename; exact H.
    - apply (CtorConst (g (hp_name h)) v m). unfold mk_constant in *. kill. eapply finish_rename; exact H.
    - apply (CtorUInt (g (hp_name h)) lo hi d l m). unfold mk_uniform_int in *. kill. eapply finish_rename; exact H.
    - apply (CtorNInt (g (hp_name h)) mu s lo hi d l m). unfold mk_normal_int in *. kill. eapply finish_rename; exact H.
    - apply (CtorBInt (g (hp_name h)) a b lo hi d l m). unfold mk_beta_int in *. kill. eapply finish_rename; exact H.
    - apply (CtorUFloat (g (hp_name h)) lo hi d l m). unfold mk_uniform_float in *. kill. eapply finish_rename; exact H.
    - apply (CtorNFloat (g (hp_name h)) mu s lo hi d l m). unfold mk_normal_float in *. kill. eapply finish_rename; exact H.
    - apply (CtorBFloat (g (hp_name h)) a b lo hi d l m). unfold mk_beta_float in *. kill. eapply finish_rename; exact H.
  Qed.

  (** copies of objects that constructors made *)
  Lemma copy_cond_ok c : cond_built c -> copy_cond c = Ok c.
  Proof.
    induction 1 as [o ch p v c C1 C2 H|ch p vs c C1 C2 H|cs c _ IH H|cs c _ IH H].
    - assert (H0 := H). unfold mk_bin in H. kill. destruct (to_vector p v); [|discriminate]. injection H as <-. exact H0.
    - assert (H0 := H). unfold mk_in in H. kill. destruct (mapM (to_vector p) vs); [|discriminate]. injection H as <-. exact H0.
    - assert (H0 := H). unfold mk_and in H. kill. injection H as <-. simpl. rewrite (mapM_map copy_cond (fun x => x)) by exact IH. rewrite map_id. exact H0.
    - assert (H0 := H). unfold mk_or in H. kill. injection H as <-. simpl. rewrite (mapM_map copy_cond (fun x => x)) by exact IH. rewrite map_id. exact H0.
  Qed.
  Lemma copy_forb_ok f : forb_built f -> copy_forb f = Ok f.
  Proof.
    induction 1 as [h v f C H|h vs f C H|r a b f C1 C2 H|cs f _ IH H].
    - assert (H0 := H). unfold mk_feq in H. kill. destruct (to_vector h v); [|discriminate]. injection H as <-. exact H0.
    - assert (H0 := H). unfold mk_fin in H. kill. destruct (mapM (to_vector h) vs); [|discriminate]. injection H as <-. exact H0.
    - assert (H0 := H). unfold mk_frel in H. injection H as <-. exact H0.
    - assert (H0 := H). unfold mk_fand in H. injection H as <-. simpl. rewrite (mapM_map copy_forb (fun x => x)) by exact IH. rewrite map_id. exact H0.
  Qed.

  (** ** A renaming that keeps names apart *)
  Section Inj.
    Variable g : string -> string.
    Context {hs : list hp}.
    Hypothesis ND : NoDup (map hp_name hs).
    Hypothesis Inj : forall h k, In h hs -> In k hs -> g (hp_name h) = g (hp_name k) -> hp_name h = hp_name k.

    Lemma same_rename h k : In h hs -> In k hs -> hp_eqb (rename_hp g h) (rename_hp g k) = true -> h = k.
    Proof. intros Hh Hk H. apply hp_eqb_name in H. apply (same_hp hs); auto. Qed.

    Lemma lit_rename l : cond_built (CLit l) -> In (l_child l) hs -> In (l_parent l) hs -> cond_built (CLit (rename_lit g l)).
    Proof.
      intros B Hc Hp. destruct (built_lit_inv l B) as (C1 & C2 & Ne & H).
      assert (N : hp_eqb (rename_hp g (l_child l)) (rename_hp g (l_parent l)) = false).
      { destruct (hp_eqb (rename_hp g _) _) eqn:Eq; [|reflexivity]. apply same_rename in Eq; auto. rewrite Eq in Ne.
        rewrite (hp_eqb_refl _ (constructed_wf _ C2)) in Ne. discriminate. }
      destruct l as [ch p t]. cbn [l_child l_parent l_test] in *. destruct t as [o v vv|vs vvs].
      - apply (CB_bin o (rename_hp g ch) (rename_hp g p) v); auto using constructed_rename.
        unfold mk_bin in *. kill. rewrite N. cbn [negb]. change (orderable (rename_hp g p)) with (orderable p).
        change (legal_value (rename_hp g p) v) with (legal_value p v). change (to_vector (rename_hp g p) v) with (to_vector p v).
        rewrite Heqb0, Heqb1. destruct (to_vector p v); [|discriminate]. injection H as ->. reflexivity.
      - apply (CB_in (rename_hp g ch) (rename_hp g p) vs); auto using constructed_rename.
        unfold mk_in in *. kill. rewrite N. cbn [negb]. change (legal_value (rename_hp g p)) with (legal_value p).
        change (to_vector (rename_hp g p)) with (to_vector p). rewrite Heqb0. destruct (mapM (to_vector p) vs); [|discriminate]. injection H as ->. reflexivity.
    Qed.

    Lemma children_rename ls : (forall l, In l ls -> In (l_child l) hs /\ constructed (l_child l)) ->
      all_equal (map l_child ls) = true -> all_equal (map l_child (map (rename_lit g) ls)) = true.
    Proof.
      intros Hin. destruct ls as [|l ls]; [reflexivity|]. simpl. rewrite !forallb_forall. intros H k Hk.
      rewrite map_map in Hk. apply in_map_iff in Hk. destruct Hk as (m & <- & Hm). simpl.
      destruct (Hin l (or_introl eq_refl)) as [I1 C1]. destruct (Hin m (or_intror Hm)) as [I2 C2].
      assert (Q : l_child l = l_child m) by (apply (same_hp hs); auto; apply hp_eqb_name, H, in_map, Hm).
      rewrite Q. apply hp_eqb_refl, constructed_wf, constructed_rename, C2.
    Qed.

    Lemma cond_rename c : cond_built c -> cond_refs hs c -> cond_built (rename_cond g c).
    Proof.
      induction c as [l|cs IH|cs IH] using cond_ind'; intros B R.
      - destruct (R l (or_introl eq_refl)). apply (lit_rename l); auto.
      - assert (Ch : forall l, In l (dlcs (CAnd cs)) -> In (l_child l) hs /\ constructed (l_child l)).
        { intros l Hl. split; [apply R, Hl|]. apply (built_lit_inv l (built_lits _ B l Hl)). }
        inversion B as [o ch p v c0 C1 C2 H|ch p vs c0 C1 C2 H|cs0 c0 Bs H|cs0 c0 Bs H]; subst.
        + unfold mk_bin in H. kill. destruct (to_vector p v); discriminate H.
        + unfold mk_in in H. kill. destruct (mapM (to_vector p) vs); discriminate H.
        + unfold mk_and in H. kill. injection H as ->. simpl. apply (CB_and (map (rename_cond g) cs)).
          * intros x Hx. apply in_map_iff in Hx. destruct Hx as (y & <- & Hy). rewrite Forall_forall in IH. apply (IH y Hy (Bs y Hy)).
            intros l Hl. apply R. eapply dlcs_in_and; eauto.
          * unfold mk_and. rewrite map_length, Heqb. change (CAnd (map (rename_cond g) cs)) with (rename_cond g (CAnd cs)).
            rewrite dlcs_rename, (children_rename _ Ch Heqb0). reflexivity.
        + unfold mk_or in H. kill. discriminate.
      - assert (Ch : forall l, In l (dlcs (COr cs)) -> In (l_child l) hs /\ constructed (l_child l)).
        { intros l Hl. split; [apply R, Hl|]. apply (built_lit_inv l (built_lits _ B l Hl)). }
        inversion B as [o ch p v c0 C1 C2 H|ch p vs c0 C1 C2 H|cs0 c0 Bs H|cs0 c0 Bs H]; subst.
        + unfold mk_bin in H. kill. destruct (to_vector p v); discriminate H.
        + unfold mk_in in H. kill. destruct (mapM (to_vector p) vs); discriminate H.
        + unfold mk_and in H. kill. discriminate.
        + unfold mk_or in H. kill. injection H as ->. simpl. apply (CB_or (map (rename_cond g) cs)).
          * intros x Hx. apply in_map_iff in Hx. destruct Hx as (y & <- & Hy). rewrite Forall_forall in IH. apply (IH y Hy (Bs y Hy)).
            intros l Hl. apply R. eapply dlcs_in_and; eauto.
          * unfold mk_or. rewrite map_length, Heqb. change (COr (map (rename_cond g) cs)) with (rename_cond g (COr cs)).
            rewrite dlcs_rename, (children_rename _ Ch Heqb0). reflexivity.
    Qed.

    Lemma equiv_rename c : forall d, cond_refs hs c -> cond_refs hs d -> cond_built d ->
      cond_equiv (rename_cond g c) (rename_cond g d) = true -> cond_equiv c d = true.
    Proof.
      assert (Sub : forall cs x (k : list cond -> cond), (k = CAnd \/ k = COr) -> cond_refs hs (k cs) -> In x cs -> cond_refs hs x).
      { intros cs x k Hk R Hx l Hl. apply R. destruct Hk as [-> | ->]; eapply dlcs_in_and; eauto. }
      assert (Sbb : forall cs x (k : list cond -> cond), (k = CAnd \/ k = COr) -> cond_built (k cs) -> In x cs -> cond_built x).
      { intros cs x k Hk B Hx. destruct Hk as [-> | ->]; inversion B as [o ch p v c0 C1 C2 H|ch p vs c0 C1 C2 H|cs0 c0 Bs H|cs0 c0 Bs H]; subst;
          try (unfold mk_bin in H; kill; destruct (to_vector p v); discriminate H); try (unfold mk_in in H; kill; destruct (mapM (to_vector p) vs); discriminate H);
          unfold mk_and, mk_or in H; kill; try discriminate; injection H as ->; auto. }
      assert (K : forall cs ds, (forall x, In x cs -> cond_refs hs x) -> (forall y, In y ds -> cond_refs hs y /\ cond_built y) ->
        Forall (fun c => forall d, cond_refs hs c -> cond_refs hs d -> cond_built d -> cond_equiv (rename_cond g c) (rename_cond g d) = true -> cond_equiv c d = true) cs ->
        (Nat.eqb (length (map (rename_cond g) cs)) (length (map (rename_cond g) ds))
         && forallb (fun c => existsb (fun d => cond_equiv c d) (map (rename_cond g) ds)) (map (rename_cond g) cs))%bool = true ->
        (Nat.eqb (length cs) (length ds) && forallb (fun c => existsb (fun d => cond_equiv c d) ds) cs)%bool = true).
      { intros cs ds Rc Rd IH H. rewrite Forall_forall in IH. apply andb_true_iff in H. destruct H as [H1 H2]. rewrite !map_length in H1. rewrite H1. simpl.
        rewrite forallb_forall in *. intros x Hx. specialize (H2 _ (in_map (rename_cond g) _ _ Hx)). apply existsb_exists in H2.
        destruct H2 as (y' & Hy & H2). apply in_map_iff in Hy. destruct Hy as (y & <- & Hy). apply existsb_exists. exists y. split; [exact Hy|].
        destruct (Rd y Hy). apply IH; auto. }
      induction c as [l|cs IH|cs IH] using cond_ind'; intros d Rc Rd Bd H; destruct d as [m|ds|ds]; try discriminate.
      - simpl in *. unfold lit_equiv in *. apply andb_true_iff in H. destruct H as [H1 H2]. simpl in *. rewrite H2.
        destruct (Rc l (or_introl eq_refl)) as [_ Ra]. destruct (Rd m (or_introl eq_refl)) as [_ Rb].
        rewrite (same_rename _ _ Ra Rb H1), hp_eqb_refl; [reflexivity|]. apply constructed_wf, (built_lit_inv m Bd).
      - apply (K cs ds); [intros x Hx; apply (Sub cs x CAnd); auto|intros y Hy; split; [apply (Sub ds y CAnd)|apply (Sbb ds y CAnd)]; auto|exact IH|exact H].
      - apply (K cs ds); [intros x Hx; apply (Sub cs x CAnd); auto|intros y Hy; split; [apply (Sub ds y COr)|apply (Sbb ds y COr)]; auto|exact IH|exact H].
      - apply (K cs ds); [intros x Hx; apply (Sub cs x COr); auto|intros y Hy; split; [apply (Sub ds y CAnd)|apply (Sbb ds y CAnd)]; auto|exact IH|exact H].
      - apply (K cs ds); [intros x Hx; apply (Sub cs x COr); auto|intros y Hy; split; [apply (Sub ds y COr)|apply (Sbb ds y COr)]; auto|exact IH|exact H].
    Qed.
  End Inj.

  Lemma forb_rename g f : forb_built f -> forb_built (rename_forb g f).
  Proof.
    induction 1 as [h v f C H|h vs f C H|r a b f C1 C2 H|cs f _ IH H].
    - apply (FB_eq (rename_hp g h) v); [apply constructed_rename, C|]. unfold mk_feq in *. kill.
      change (legal_value (rename_hp g h) v) with (legal_value h v). change (to_vector (rename_hp g h) v) with (to_vector h v).
      rewrite Heqb. destruct (to_vector h v); [|discriminate]. injection H as <-. reflexivity.
    - apply (FB_in (rename_hp g h) vs); [apply constructed_rename, C|]. unfold mk_fin in *. kill.
      change (legal_value (rename_hp g h)) with (legal_value h). change (to_vector (rename_hp g h)) with (to_vector h).
      rewrite Heqb. destruct (mapM (to_vector h) vs); [|discriminate]. injection H as <-. reflexivity.
    - injection H as <-. apply (FB_rel r (rename_hp g a) (rename_hp g b)); auto using constructed_rename.
    - injection H as <-. apply (FB_and (map (rename_forb g) cs)); [|reflexivity]. intros x Hx. apply in_map_iff in Hx. destruct Hx as (y & <- & Hy). auto.
  Qed.

  (** conditions treated as equivalent read a hyperparameter of the same name *)
  Lemma equiv_common c : forall d, cond_built c -> cond_equiv c d = true -> exists n, In n (cond_parents c) /\ In n (cond_parents d).
  Proof.
    assert (K : forall cs ds (k k' : list cond -> cond), (k = CAnd \/ k = COr) -> (k' = CAnd \/ k' = COr) -> cond_built (k cs) ->
      Forall (fun c => forall d, cond_built c -> cond_equiv c d = true -> exists n, In n (cond_parents c) /\ In n (cond_parents d)) cs ->
      (Nat.eqb (length cs) (length ds) && forallb (fun c => existsb (fun d => cond_equiv c d) ds) cs)%bool = true ->
      exists n, In n (cond_parents (k cs)) /\ In n (cond_parents (k' ds))).
    { intros cs ds k k' Hk Hk' B IH H. rewrite Forall_forall in IH. apply andb_true_iff in H. destruct H as [_ H]. rewrite forallb_forall in H.
      assert (N := built_ne _ B). destruct cs as [|x cs]; [destruct Hk as [-> | ->]; contradiction|]. specialize (H x (or_introl eq_refl)).
      apply existsb_exists in H. destruct H as (y & Hy & H).
      assert (Bx : cond_built x).
      { destruct Hk as [-> | ->]; inversion B as [o ch p v c0 C1 C2 H0|ch p vs c0 C1 C2 H0|cs0 c0 Bs H0|cs0 c0 Bs H0]; subst;
          try (unfold mk_bin in H0; kill; destruct (to_vector p v); discriminate H0); try (unfold mk_in in H0; kill; destruct (mapM (to_vector p) vs); discriminate H0);
          unfold mk_and, mk_or in H0; kill; try discriminate; injection H0 as ->; apply Bs; left; reflexivity. }
      destruct (IH x (or_introl eq_refl) y Bx H) as (n & H1 & H2). exists n. unfold cond_parents in *.
      apply in_map_iff in H1, H2. destruct H1 as (l & <- & H1). destruct H2 as (m & Hm & H2). split.
      - apply in_map. destruct Hk as [-> | ->]; eapply dlcs_in_and; eauto; left; reflexivity.
      - rewrite <- Hm. apply in_map. destruct Hk' as [-> | ->]; eapply dlcs_in_and; eauto. }
    induction c as [l|cs IH|cs IH] using cond_ind'; intros d B H; destruct d as [m|ds|ds]; try discriminate.
    - simpl in H. unfold lit_equiv in H. apply andb_true_iff in H. destruct H as [H _]. apply hp_eqb_name in H.
      exists (parent_name l). split; left; [reflexivity|]. unfold parent_name. auto.
    - apply (K cs ds CAnd CAnd); auto.
    - apply (K cs ds CAnd COr); auto.
    - apply (K cs ds COr CAnd); auto.
    - apply (K cs ds COr COr); auto.
  Qed.
End Built.
