(** * Lemmas about configurations: construction, reading, the rigorous check, defaults *)
From Coq Require Import String List ZArith QArith Qround Bool Lia Permutation.
From Verif Require Import Base ListFacts Numeric NumericProofs HP HPProofs Properties_HP Cond Forb EqFacts Dag DagProofs
  Space CommitProofs Spec SpaceProofs CnodeProofs ForbProofs EvalProofs ForbEval MergeProofs ValidProofs.
Import ListNotations.
Open Scope nat_scope.

Section Config.
  Context {E : Env} {L : EnvLaws E}.

  Section One.
    Context {s : space} {hs : list hp} {cs : list cond} {fs : list fclause} (O : space_ok s hs cs fs).
    Notation io := (index_of s).

    Lemma keys_hs n : In n (keys s) <-> exists h, In h hs /\ hp_name h = n.
    Proof.
      split; [apply (so_name_hp O)|]. intros (h & Hh & <-). eapply Permutation_in; [symmetry; apply (so_keys O)|].
      apply in_map. exact Hh.
    Qed.

    Definition known (vals : list (string * option value)) : Prop :=
      forall k, In k (map fst vals) -> k = ""%string \/ exists h, In h hs /\ hp_name h = k.

    Lemma known_iff vals : negb (existsb (fun k => (negb (str_in k (keys s)) && negb (String.eqb k ""))%bool) (map fst vals)) = true
      <-> known vals.
    Proof.
      rewrite negb_true_iff, <- not_true_iff_false, existsb_exists. unfold known. split.
      - intros H k Hk. destruct (String.eqb k "") eqn:Ek; [left; apply String.eqb_eq; exact Ek|]. right.
        apply keys_hs. destruct (str_in k (keys s)) eqn:Es; [apply str_in_iff; exact Es|].
        exfalso. apply H. exists k. rewrite Es, Ek. auto.
      - intros H (k & Hk & Hb). apply andb_true_iff in Hb. destruct Hb as [H1 H2]. apply negb_true_iff in H1, H2.
        destruct (H k Hk) as [->|Hh]; [discriminate|]. apply keys_hs in Hh. apply str_in_iff in Hh. congruence.
    Qed.

    Lemma config_of_values_ok vals allow c : config_of_values s vals allow = Ok c <->
      known vals /\ all_legal hs (given vals) /\
      exists vec cache, fill s vals (items s) (repeat NaN (s_len s)) [] = Ok (vec, cache) /\
        filled (s := s) (hs := hs) vals vec cache /\ check_configuration s vec allow = Ok tt /\ c = mk_config vec (Some cache) allow.
    Proof.
      unfold config_of_values. pose proof (fill_items O vals) as F.
      destruct (negb (existsb (fun k => (negb (str_in k (keys s)) && negb (String.eqb k ""))%bool) (map fst vals))) eqn:Ek.
      - apply known_iff in Ek. destruct (fill s vals (items s) (repeat NaN (s_len s)) []) as [[vec cache]|e]; simpl.
        + destruct F as [AL F]. destruct (check_configuration s vec allow) as [[]|e] eqn:Ec; simpl.
          * split.
            -- intros H. inversion H; subst. split; [exact Ek|]. split; [exact AL|]. exists vec, cache. auto.
            -- intros (_ & _ & vec' & cache' & H & _ & _ & ->). inversion H; subst. reflexivity.
          * split; [discriminate|]. intros (_ & _ & vec' & cache' & H & _ & Hc & _). inversion H; subst. congruence.
        + split; [discriminate|]. intros (_ & _ & vec' & cache' & H & _). discriminate.
      - split; [discriminate|]. intros (K & _). apply known_iff in K. congruence.
    Qed.

    (** ** Reading *)
    Lemma getitem_unknown c k : match c_values c with Some d => assoc k d | None => None end = None ->
      ~ In k (map hp_name hs) -> getitem s c k = Err KeyError.
    Proof.
      intros H1 H2. unfold getitem. rewrite H1. destruct (get_hp s k) as [h|] eqn:Eh; [|reflexivity].
      exfalso. apply (so_get_hp O) in Eh. destruct Eh as [Hh <-]. apply H2. apply in_map. exact Hh.
    Qed.

    Lemma getitem_vec c h : In h hs -> match c_values c with Some d => assoc (hp_name h) d | None => None end = None ->
      getitem s c (hp_name h) =
      match vget io (c_vector c) (hp_name h) with
      | NaN => Err KeyError
      | x => v <- to_value h x ;; Ok (round_value h v)
      end.
    Proof.
      intros Hh H1. unfold getitem. rewrite H1. assert (G : get_hp s (hp_name h) = Some h) by (apply (so_get_hp O); auto).
      rewrite G. destruct (so_hp_index O h Hh) as (i & Hi & _). unfold vget. rewrite Hi. reflexivity.
    Qed.

    (** reading a configuration made from values *)
    Lemma filled_read vals vec cache allow h : filled (s := s) (hs := hs) vals vec cache -> In h hs ->
      getitem s (mk_config vec (Some cache) allow) (hp_name h) =
      match given vals (hp_name h) with Some w => Ok (round_value h w) | None => Err KeyError end.
    Proof.
      intros (Hl & F & _) Hh. specialize (F h Hh). destruct (given vals (hp_name h)) as [w|].
      - unfold getitem. simpl. destruct F as [_ ->]. reflexivity.
      - destruct F as [Fv Fc]. rewrite getitem_vec; simpl; auto. rewrite Fv. reflexivity.
    Qed.
    Lemma filled_unknown vals vec cache allow k : filled (s := s) (hs := hs) vals vec cache -> ~ In k (map hp_name hs) ->
      getitem s (mk_config vec (Some cache) allow) k = Err KeyError.
    Proof. intros (_ & _ & F) Hk. apply getitem_unknown; simpl; auto. Qed.

    Lemma iter_in c k : In k (iter s c) <-> exists h, In h hs /\ hp_name h = k /\ vget io (c_vector c) k <> NaN.
    Proof.
      unfold iter. rewrite filter_In, keys_hs. split.
      - intros [(h & Hh & <-) H]. exists h. split; [exact Hh|]. split; [reflexivity|]. unfold vget.
        destruct (assoc (hp_name h) io); [|discriminate]. intros Hn. rewrite Hn in H. discriminate.
      - intros (h & Hh & <- & H). split; [eauto|]. unfold vget in H. destruct (assoc (hp_name h) io); [|congruence].
        destruct (nth n (c_vector c) NaN); try reflexivity. congruence.
    Qed.
    Lemma iter_nodup c : NoDup (iter s c).
    Proof. apply NoDup_filter, (so_nodup O). Qed.

    Lemma filled_iter vals vec cache allow k : all_legal hs (given vals) -> filled (s := s) (hs := hs) vals vec cache ->
      (In k (iter s (mk_config vec (Some cache) allow)) <-> exists h w, In h hs /\ hp_name h = k /\ given vals k = Some w).
    Proof.
      intros AL (_ & F & _). rewrite iter_in. simpl. split.
      - intros (h & Hh & <- & H). specialize (F h Hh). destruct (given vals (hp_name h)) as [w|] eqn:Ew; [eauto|].
        destruct F as [F _]. congruence.
      - intros (h & w & Hh & <- & Hw). exists h. split; [exact Hh|]. split; [reflexivity|]. specialize (F h Hh). rewrite Hw in F.
        destruct F as [F _]. destruct (legal_finite h (round_value h w)) as (q & Hq).
        + apply (so_constructed O); exact Hh.
        + apply round_legal; [apply (so_constructed O); exact Hh|]. apply (AL h w Hh Hw).
        + rewrite Hq in F. congruence.
    Qed.

    Lemma config_len_vec v allow c : config_of_vector s v allow = Ok c <-> length v = s_len s /\ c = mk_config v None allow.
    Proof.
      unfold config_of_vector. destruct (Nat.eqb (length v) (s_len s)) eqn:El.
      - apply Nat.eqb_eq in El. split; [intros H; inversion H; auto|]. intros [_ ->]. reflexivity.
      - apply Nat.eqb_neq in El. split; [discriminate|]. intros [H _]. congruence.
    Qed.

    (** ** get_active and the rigorous check *)
    Lemma get_active_in v n : In n (get_active s v) <-> In n (keys s) /\
      forall c, condof (d_nodes (s_dag s)) n = Some c -> cond_active s v c = true.
    Proof.
      unfold get_active. rewrite filter_In, forallb_forall, (so_conds_of O). split; intros [H1 H2]; split; auto.
      - intros c Hc. apply H2. rewrite Hc. left. reflexivity.
      - intros c Hc. apply H2. destruct (condof (d_nodes (s_dag s)) n); [|destruct Hc]. destruct Hc as [->|[]]. reflexivity.
    Qed.

    Lemma legal_vector_finite h x : legal_vector h x = true -> isfinite x = true.
    Proof. unfold legal_vector. destruct (hp_kind h), x; simpl; try discriminate; reflexivity. Qed.

    Lemma rigorous_ok v allow : (check_configuration_rigorous s v allow = Ok tt <->
      (forall h, In h hs -> let x := vget io v (hp_name h) in
         (isnan x = true \/ legal_vector h x = true) /\
         (In (hp_name h) (get_active s v) -> isnan x = false) /\
         (allow = false -> isnan x = false -> In (hp_name h) (get_active s v))) /\
      forall f, In f fs -> forb_vec io v f = Ok false).
    Proof.
      unfold check_configuration_rigorous.
      set (f := fun e : string * hp => _).
      assert (Hf : forall h, In h hs -> (exists y, f (hp_name h, h) = Ok y) <-> let x := vget io v (hp_name h) in
         (isnan x = true \/ legal_vector h x = true) /\
         (In (hp_name h) (get_active s v) -> isnan x = false) /\
         (allow = false -> isnan x = false -> In (hp_name h) (get_active s v))).
      { intros h Hh. cbv zeta. unfold f. rewrite <- str_in_iff.
        destruct (isnan (vget io v (hp_name h))), (legal_vector h (vget io v (hp_name h))), (str_in (hp_name h) (get_active s v)), allow;
          simpl; (split; [intros (y & Hy); try discriminate; repeat split; auto|intros (A & B & C);
            try (destruct A; discriminate); try (specialize (B eq_refl); discriminate); try (specialize (C eq_refl eq_refl); discriminate); eauto]). }
      assert (Hm : (exists u, mapM f (items s) = Ok u) <-> forall h, In h hs -> exists y, f (hp_name h, h) = Ok y).
      { rewrite mapM_unit. split.
        - intros H h Hh. apply H. apply (so_items O). auto.
        - intros H [k h] Hin. apply (so_items O) in Hin. destruct Hin as [Hh <-]. apply H. exact Hh. }
      assert (Hfb : check_forb io v (forbidden_clauses s) = Ok tt <-> forall f, In f fs -> forb_vec io v f = Ok false).
      { rewrite check_forb_ok. split; intros H g Hg; apply H; (eapply Permutation_in; [|exact Hg]);
          [symmetry|]; apply (so_forbs O). }
      destruct (mapM f (items s)) as [u|e]; simpl.
      - rewrite Hfb. split; [|tauto]. intros H. split; [|exact H]. intros h Hh. apply (Hf h Hh). apply (proj1 Hm); eauto.
      - split; [discriminate|]. intros [H _]. exfalso.
        destruct (proj2 Hm) as (u & Hu); [|discriminate]. intros h Hh. apply (Hf h Hh). apply H. exact Hh.
    Qed.

    (** conjunctions only: a satisfied condition has all parents set, apart from != *)
    Lemma only_and_parents v c : only_and c -> sat_vec io v c = true ->
      forall l, In l (dlcs c) -> is_ne (l_test l) = false -> vget io v (parent_name l) <> NaN.
    Proof.
      induction c as [l0|ds IH|ds IH] using cond_ind'; simpl; intros OA Hs l Hl Ne.
      - destruct Hl as [<-|[]]. intros Hn. unfold lit_vec in Hs. rewrite Hn, (test_vec_nan _ Ne) in Hs. discriminate.
      - apply in_concat in Hl. destruct Hl as (x & Hx & Hl). apply in_map_iff in Hx. destruct Hx as (d & <- & Hd).
        rewrite Forall_forall in IH. rewrite forallb_forall in Hs. apply (IH d Hd); auto.
        apply (proj1 (fold_and_in only_and ds) OA d Hd).
      - contradiction.
    Qed.
  End One.

  (** ** Conditions on assignments *)
  Lemma lit_means l w : lit_built l -> legal_value (l_parent l) w = true ->
    exists x, to_vector (l_parent l) w = Ok x /\ (test_vec (l_test l) x = true <-> test_means (l_parent l) (l_test l) w).
  Proof.
    intros B Hw. assert (C : constructed (l_parent l)) by apply B.
    destruct (legal_finite (l_parent l) w C Hw) as (q & Hq). exists (Fin q). split; [exact Hq|].
    assert (K := lit_holds [(hp_name (l_parent l), 0)] [Fin q] (fun _ => Some w) l B).
    unfold encodes, lit_vec, parent_name, vget in K. simpl in K. rewrite String.eqb_refl in K. simpl in K.
    rewrite K.
    - split; [intros (w' & Hw' & H); inversion Hw'; subst; exact H|eauto].
    - split; [exact Hw|]. exists (Fin q). split; [exact Hq|apply Qeq_refl].
    - discriminate.
  Qed.

  Lemma cond_eqb_holds hs d c : NoDup (map hp_name hs) -> all_legal hs d -> forall c', cond_good c -> cond_good c' ->
    cond_refs hs c -> cond_refs hs c' -> cond_eqb c c' = true -> (holds d c <-> holds d c').
  Proof.
    intros ND AL.
    assert (G : forall cs ds (Hc : Forall (fun c => forall d0, cond_good c -> cond_good d0 -> cond_refs hs c -> cond_refs hs d0 ->
                   cond_eqb c d0 = true -> (holds d c <-> holds d d0)) cs),
      (forall x, In x cs -> cond_good x) -> (forall x, In x ds -> cond_good x) ->
      (forall l, In l (concat (map dlcs cs)) -> In (l_child l) hs /\ In (l_parent l) hs) ->
      (forall l, In l (concat (map dlcs ds)) -> In (l_child l) hs /\ In (l_parent l) hs) ->
      comps_eqb cond_eqb cs ds = true ->
      (forall x, In x cs -> exists y, In y ds /\ (holds d x <-> holds d y)) /\
      (forall y, In y ds -> exists x, In x cs /\ (holds d x <-> holds d y))).
    { intros cs ds IH G1 G2 R1 R2 H. unfold comps_eqb in H. rewrite !andb_true_iff, !forallb_forall in H.
      destruct H as [[_ H1] H2]. rewrite Forall_forall in IH.
      assert (RR : forall x y, In x cs -> In y ds -> cond_eqb x y = true -> (holds d x <-> holds d y)).
      { intros x y Hx Hy Hq. apply IH; auto.
        - intros l Hl. apply R1. eapply dlcs_in_and; eauto.
        - intros l Hl. apply R2. eapply dlcs_in_and; eauto. }
      split.
      - intros x Hx. specialize (H1 x Hx). apply existsb_exists in H1. destruct H1 as (y & Hy & Hq). exists y. auto.
      - intros y Hy. specialize (H2 y Hy). apply existsb_exists in H2. destruct H2 as (x & Hx & Hq). exists x. auto. }
    induction c as [l|cs IH|cs IH] using cond_ind'; intros [m|ds|ds] Gc Gd Rc Rd; try discriminate.
    - simpl. unfold lit_eqb. rewrite !andb_true_iff. intros [[_ H1] H2].
      assert (Bl := cond_good_lit_in _ Gc l (or_introl eq_refl)). assert (Bm := cond_good_lit_in _ Gd m (or_introl eq_refl)).
      assert (Hl : In (l_parent l) hs) by (apply (Rc l); left; reflexivity).
      assert (Hm : In (l_parent m) hs) by (apply (Rd m); left; reflexivity).
      assert (Hp : l_parent l = l_parent m) by (apply (same_hp hs); auto; apply hp_eqb_name; exact H1).
      rewrite Hp. split; intros (w & Hw & T); exists w; (split; [exact Hw|]);
        assert (Lw := AL (l_parent m) w Hm Hw).
      + destruct (lit_means m w Bm Lw) as (x & Hx & Q). apply Q. destruct (lit_means l w Bl) as (x' & Hx' & Q'); [rewrite Hp; exact Lw|].
        rewrite Hp in Hx', Q'. assert (x' = x) by congruence. subst x'. apply Q' in T.
        assert (Tl := lit_built_test l Bl). rewrite Hp in Tl. rewrite <- (test_same (l_parent m) _ _ (proj1 (proj2 Bm)) Tl (lit_built_test m Bm) H2 x). exact T.
      + destruct (lit_means m w Bm Lw) as (x & Hx & Q). apply Q in T. destruct (lit_means l w Bl) as (x' & Hx' & Q'); [rewrite Hp; exact Lw|].
        rewrite Hp in Hx', Q'. assert (x' = x) by congruence. subst x'. apply Q'.
        assert (Tl := lit_built_test l Bl). rewrite Hp in Tl. rewrite (test_same (l_parent m) _ _ (proj1 (proj2 Bm)) Tl (lit_built_test m Bm) H2 x). exact T.
    - rewrite cond_eqb_and. intros H. inversion Gc; inversion Gd; subst. simpl. rewrite !fold_and_in.
      destruct (G cs ds IH) as [G1 G2]; auto. split.
      + intros K y Hy. destruct (G2 y Hy) as (x & Hx & Q). apply Q. auto.
      + intros K x Hx. destruct (G1 x Hx) as (y & Hy & Q). apply Q. auto.
    - rewrite cond_eqb_or. intros H. inversion Gc; inversion Gd; subst. simpl. rewrite !fold_or_in.
      destruct (G cs ds IH) as [G1 G2]; auto. split.
      + intros (x & Hx & K). destruct (G1 x Hx) as (y & Hy & Q). exists y. tauto.
      + intros (y & Hy & K). destruct (G2 y Hy) as (x & Hx & Q). exists x. tauto.
  Qed.

  (** evaluation on values means what it should; inactive parents included *)
  Lemma sat_value_holds vals c : cond_good c ->
    (forall l, In l (dlcs c) -> exists o, assoc (parent_name l) vals = Some o /\
       forall w, o = Some w -> legal_value (l_parent l) w = true) ->
    exists b, sat_value vals c = Ok b /\ (b = true <-> holds (given vals) c).
  Proof.
    intros G H.
    set (g := fun l => match given vals (parent_name l) with
                       | Some w => match to_vector (l_parent l) w with Ok x => test_vec (l_test l) x | Err _ => false end
                       | None => false end).
    set (ev := fix ev (c : cond) : bool := match c with CLit l => g l | CAnd cs => forallb ev cs | COr cs => existsb ev cs end).
    exists (ev c). split.
    - apply (sat_value_lits vals g c); [|reflexivity|reflexivity|reflexivity].
      intros l Hl. destruct (H l Hl) as (o & Ho & Hw). unfold g, given. rewrite Ho. destruct o as [w|].
      + specialize (Hw w eq_refl). assert (B := cond_good_lit_in c G l Hl).
        destruct (lit_means l w B Hw) as (x & Hx & _). rewrite Hx.
        rewrite (lit_agree [(hp_name (l_parent l), 0)] [x] vals l w B).
        * unfold lit_vec, vget, parent_name. simpl. rewrite String.eqb_refl. reflexivity.
        * unfold encodes. unfold parent_name in Ho. rewrite Ho. split; [exact Hw|]. exists x. split; [exact Hx|].
          unfold vget. simpl. rewrite String.eqb_refl. apply fsame_refl.
        * exact Ho.
      + unfold lit_value. rewrite Ho. reflexivity.
    - induction c as [l|cs IH|cs IH] using cond_ind'.
      + destruct (H l (or_introl eq_refl)) as (o & Ho & Hw). simpl. unfold g. unfold parent_name.
        assert (B := cond_good_lit_in _ G l (or_introl eq_refl)). unfold given, parent_name in *. rewrite Ho. destruct o as [w|].
        * destruct (lit_means l w B (Hw w eq_refl)) as (x & Hx & Q). rewrite Hx, Q. split; [eauto|].
          intros (w' & Hw' & K). inversion Hw'; subst. exact K.
        * split; [discriminate|]. intros (w & K & _). discriminate.
      + simpl. inversion G as [|? Gx|]; subst. rewrite Forall_forall in IH. apply fold_and_iff. intros x Hx. apply IH; auto.
        intros l Hl. apply H. simpl. eapply dlcs_in_and; eauto.
      + simpl. inversion G as [| |? Gx]; subst. rewrite Forall_forall in IH. apply fold_or_iff. intros x Hx. apply IH; auto.
        intros l Hl. apply H. simpl. eapply dlcs_in_and; eauto.
  Qed.

  Lemma holds_ext d d' c : (forall l, In l (dlcs c) -> d (parent_name l) = d' (parent_name l)) -> (holds d c <-> holds d' c).
  Proof.
    induction c as [l|cs IH|cs IH] using cond_ind'; intros H.
    - specialize (H l (or_introl eq_refl)). unfold parent_name in H. simpl. rewrite H. tauto.
    - simpl. rewrite Forall_forall in IH. rewrite !fold_and_in. split; intros K x Hx.
      + apply (IH x Hx); auto. intros l Hl. apply H. eapply dlcs_in_and; eauto.
      + apply (IH x Hx); auto. intros l Hl. apply H. eapply dlcs_in_and; eauto.
    - simpl. rewrite Forall_forall in IH. rewrite !fold_or_in. split; intros (x & Hx & K); exists x; (split; [exact Hx|]).
      + apply (IH x Hx); auto. intros l Hl. apply H. eapply dlcs_in_and; eauto.
      + apply (IH x Hx); auto. intros l Hl. apply H. eapply dlcs_in_and; eauto.
  Qed.

  (** ** The default values *)
  Section Default.
    Context {s : space} {hs : list hp} {cs : list cond} {fs : list fclause} (O : space_ok s hs cs fs).
    Hypothesis R : forall c, In c cs -> cond_refs hs c.

    Lemma default_legal h : constructed h -> legal_value h (hp_default h) = true.
    Proof. apply C37_default_legal. Qed.

    (** entries computed so far: a prefix of the hyperparameters *)
    Definition dv_ok (done : list (string * hp)) (vals : list (string * option value)) : Prop :=
      map fst vals = map fst done /\
      forall k h, In (k, h) done -> exists o, assoc k vals = Some o /\ (o = None \/ o = Some (hp_default h)) /\
        (o <> None <-> forall c, condof (d_nodes (s_dag s)) k = Some c -> holds (given vals) c).

    Lemma default_values_ok : forall todo done vals, items s = done ++ todo -> dv_ok done vals ->
      exists vals', default_values s todo vals = Ok vals' /\ dv_ok (items s) vals'.
    Proof.
      induction todo as [|[n h] todo IH]; intros done vals Hit D.
      - rewrite app_nil_r in Hit. exists vals. rewrite Hit. auto.
      - assert (Hkeys : keys s = map fst done ++ n :: map fst todo).
        { rewrite <- (items_keys (s := s)), Hit, map_app. reflexivity. }
        assert (ND : NoDup (map fst done ++ n :: map fst todo)) by (rewrite <- Hkeys; apply (so_nodup O)).
        assert (Hn : ~ In n (map fst done)).
        { intros Hin. apply NoDup_remove_2 in ND. apply ND. apply in_app_iff. auto. }
        destruct D as [Dk Dv].
        (* the parents of a condition of n have been computed *)
        assert (Par : forall c, condof (d_nodes (s_dag s)) n = Some c -> forall l, In l (dlcs c) ->
          exists o, assoc (parent_name l) vals = Some o /\ forall w, o = Some w -> legal_value (l_parent l) w = true).
        { intros c Hc l Hl. destruct (so_condof_in O n c Hc) as [Ic Ac].
          assert (Rd : reads cs (parent_name l) n).
          { exists c. split; [exact Ic|]. split; [exact Ac|]. unfold cond_parents. apply in_map. exact Hl. }
          destruct (so_reads_keys O _ _ Rd) as [Kp Kn].
          destruct (so_index_ex O _ Kp) as (i & Hi). destruct (so_index_ex O _ Kn) as (j & Hj).
          assert (Hlt := so_parent_before O _ _ i j Rd Hi Hj).
          apply (so_index O) in Hi. apply (so_index O) in Hj.
          assert (j = length (map fst done)).
          { assert (Hn' : nth_error (keys s) (length (map fst done)) = Some n).
            { rewrite Hkeys, nth_error_app2, Nat.sub_diag by lia. reflexivity. }
            assert (j < length (keys s)) by (apply nth_error_Some; congruence).
            apply (proj1 (NoDup_nth_error (keys s)) (so_nodup O)); [assumption|congruence]. }
          assert (Hpd : In (parent_name l) (map fst done)).
          { rewrite Hkeys, nth_error_app1 in Hi by lia. eapply nth_error_In; eauto. }
          apply in_map_iff in Hpd. destruct Hpd as ([k h'] & Hk & Hin). simpl in Hk. subst k.
          destruct (Dv _ _ Hin) as (o & Ho & Hd & _). exists o. split; [exact Ho|].
          assert (Hh' : In h' hs /\ hp_name h' = parent_name l).
          { apply (so_items O). rewrite Hit. apply in_app_iff. auto. }
          destruct Hh' as [Hh' Hnm]. assert (l_parent l = h').
          { apply (same_hp hs); auto; [apply (so_names_nodup O)|]. apply (R c Ic l Hl). }
          intros w Hw. subst o h'. destruct Hd as [Hd|Hd]; [discriminate|]. inversion Hd; subst w. apply default_legal. apply (so_constructed O). exact Hh'. }
        simpl. rewrite (so_conds_of O).
        assert (Bs : exists b, (bs <- mapM (fun c => check forallb (fun p => assoc_mem p vals) (cond_parents c) or KeyError ;; sat_value vals c)
                        (match condof (d_nodes (s_dag s)) n with Some c => [c] | None => [] end) ;;
                      Ok (forallb (fun b => b) bs)) = Ok b /\
                    (b = true <-> forall c, condof (d_nodes (s_dag s)) n = Some c -> holds (given vals) c)).
        { destruct (condof (d_nodes (s_dag s)) n) as [c|] eqn:Ec.
          - specialize (Par c eq_refl). destruct (so_condof_in O n c Ec) as [Ic _].
            destruct (sat_value_holds vals c (cond_built_good c (so_cond_built O c Ic)) Par) as (b & Hb & Q).
            exists b. simpl. replace (forallb (fun p => assoc_mem p vals) (cond_parents c)) with true.
            + rewrite Hb. simpl. rewrite andb_true_r. split; [reflexivity|]. rewrite Q. split; [intros H c' Hc'; congruence|auto].
            + symmetry. apply forallb_forall. intros p Hp. unfold cond_parents in Hp. apply in_map_iff in Hp.
              destruct Hp as (l & <- & Hl). destruct (Par l Hl) as (o & Ho & _). unfold assoc_mem. rewrite Ho. reflexivity.
          - exists true. simpl. split; [reflexivity|]. split; [discriminate|reflexivity]. }
        destruct Bs as (b & Hb & Q).
        destruct (mapM (fun c => check forallb (fun p => assoc_mem p vals) (cond_parents c) or KeyError ;; sat_value vals c)
                        (match condof (d_nodes (s_dag s)) n with Some c => [c] | None => [] end)) as [bs|e]; [|discriminate].
        simpl in Hb |- *. inversion Hb as [Hbb]. rewrite Hbb.
        set (vals2 := assoc_set n (if b then Some (hp_default h) else None) vals).
        assert (Hfresh : assoc n vals = None) by (apply assoc_None; rewrite Dk; exact Hn).
        assert (Oth : forall k, k <> n -> assoc k vals2 = assoc k vals) by (intros k Hk; apply assoc_set_other; exact Hk).
        (* nothing computed before, nor the condition of n, reads n *)
        assert (Stable : forall k c, In k (map fst done) \/ k = n -> condof (d_nodes (s_dag s)) k = Some c ->
          (holds (given vals2) c <-> holds (given vals) c)).
        { intros k c Hk Hc. apply holds_ext. intros l Hl. unfold given. rewrite Oth; [reflexivity|]. intros Heq.
          destruct (so_condof_in O k c Hc) as [Ic Ac].
          assert (Rd : reads cs n k).
          { exists c. split; [exact Ic|]. split; [exact Ac|]. rewrite <- Heq. unfold cond_parents. apply in_map. exact Hl. }
          destruct (so_reads_keys O _ _ Rd) as [Kp Kn].
          destruct (so_index_ex O _ Kp) as (i & Hi). destruct (so_index_ex O _ Kn) as (j & Hj).
          assert (Hlt := so_parent_before O _ _ i j Rd Hi Hj). apply (so_index O) in Hi. apply (so_index O) in Hj.
          destruct Hk as [Hk|Hk].
          - assert (Hik : i = length (map fst done)).
            { assert (Hn' : nth_error (keys s) (length (map fst done)) = Some n).
              { rewrite Hkeys, nth_error_app2, Nat.sub_diag by lia. reflexivity. }
              assert (i < length (keys s)) by (apply nth_error_Some; congruence).
              apply (proj1 (NoDup_nth_error (keys s)) (so_nodup O)); [assumption|congruence]. }
            apply In_nth_error in Hk. destruct Hk as (m & Hm).
            assert (m < length (map fst done)) by (apply nth_error_Some; congruence).
            assert (Hm' : nth_error (keys s) m = Some k) by (rewrite Hkeys, nth_error_app1 by lia; exact Hm).
            assert (m = j).
            { assert (j < length (keys s)) by (apply nth_error_Some; congruence).
              assert (m < length (keys s)) by (apply nth_error_Some; congruence).
              apply (proj1 (NoDup_nth_error (keys s)) (so_nodup O)); [assumption|congruence]. }
            lia.
          - subst k. assert (i = j); [|lia]. assert (i < length (keys s)) by (apply nth_error_Some; congruence).
            apply (proj1 (NoDup_nth_error (keys s)) (so_nodup O)); [assumption|congruence]. }
        apply (IH (done ++ [(n, h)])).
        + rewrite Hit, <- app_assoc. reflexivity.
        + split.
          * rewrite map_app. simpl. rewrite <- Dk. unfold vals2. clear -Hfresh. induction vals as [|[m o] vals IHv]; [reflexivity|].
            simpl in *. destruct (String.eqb n m) eqn:Em; [discriminate|]. simpl. rewrite IHv by exact Hfresh. reflexivity.
          * intros k h' Hin. apply in_app_iff in Hin. destruct Hin as [Hin|[Heq|[]]].
            -- assert (Hkd : In k (map fst done)) by (apply in_map_iff; exists (k, h'); auto).
               assert (Hne : k <> n) by (intros ->; contradiction).
               destruct (Dv k h' Hin) as (o & Ho & Hd & Ha). exists o. rewrite (Oth k Hne). split; [exact Ho|]. split; [exact Hd|].
               rewrite Ha. split; intros H c Hc; apply (Stable k c (or_introl Hkd) Hc); auto.
            -- inversion Heq; subst k h'. exists (if b then Some (hp_default h) else None). split; [apply assoc_set_same|]. split; [destruct b; auto|].
               transitivity (b = true); [destruct b; split; congruence|]. rewrite Q.
               split; intros H c Hc; apply (Stable n c (or_intror eq_refl) Hc); auto.
    Qed.

    (** exactly the active hyperparameters get their default *)
    Lemma default_values_spec : exists vals, default_values s (items s) [] = Ok vals /\ map fst vals = keys s /\
      all_legal hs (given vals) /\
      forall h, In h hs ->
        (given vals (hp_name h) = Some (hp_default h) /\ active cs (given vals) (hp_name h)) \/
        (given vals (hp_name h) = None /\ ~ active cs (given vals) (hp_name h)).
    Proof.
      destruct (default_values_ok (items s) [] []) as (vals & Hv & Dk & Dv); [reflexivity|split; [reflexivity|intros k h []]|].
      exists vals. split; [exact Hv|]. split; [rewrite Dk; apply items_keys|].
      assert (AL : all_legal hs (given vals)).
      { intros h w Hh Hw. destruct (Dv (hp_name h) h) as (o & Ho & Hd & _); [apply (so_items O); auto|].
        unfold given in Hw. rewrite Ho in Hw. subst o. destruct Hd as [Hd|Hd]; [discriminate|]. inversion Hd; subst.
        apply default_legal, (so_constructed O). exact Hh. }
      split; [exact AL|].
      intros h Hh. destruct (Dv (hp_name h) h) as (o & Ho & Hd & Ha); [apply (so_items O); auto|].
      unfold given at 1 3. rewrite Ho.
      assert (Act : active cs (given vals) (hp_name h) <-> forall c, condof (d_nodes (s_dag s)) (hp_name h) = Some c -> holds (given vals) c).
      { split.
        - intros H c Hc. destruct (so_condof_in O _ c Hc) as [Ic Ac]. apply H; assumption.
        - intros H c Hc Hac. destruct (so_declared O _ c Hc Hac) as (c' & Hc' & Hq). specialize (H c' Hc').
          destruct (so_condof_in O _ c' Hc') as [Ic' _].
          apply (cond_eqb_holds hs (given vals) c' (so_names_nodup O) AL c); auto; apply cond_built_good, (so_cond_built O); assumption. }
      rewrite Act, <- Ha. destruct Hd as [->| ->].
      - right. split; [reflexivity|]. tauto.
      - left. split; [reflexivity|]. discriminate.
    Qed.
  End Default.
End Config.
