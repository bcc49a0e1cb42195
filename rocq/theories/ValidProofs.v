(** * Lemmas about the validity check and the construction of configurations *)
From Coq Require Import String List ZArith QArith Qround Bool Lia Lqa Permutation.
From Verif Require Import Base ListFacts Numeric NumericProofs HP HPProofs Properties_HP Cond Forb EqFacts Dag DagProofs
  Space CommitProofs Spec SpaceProofs CnodeProofs ForbProofs EvalProofs ForbEval MergeProofs.
Import ListNotations.
Open Scope nat_scope.

Section Valid.
  Context {E : Env} {L : EnvLaws E}.

  (** ** Rounding *)
  Lemma float_bounds_rounded h lo hi log d : constructed h -> hp_kind h = KFloat lo hi log d ->
    (round13 lo == lo)%Q /\ (round13 hi == hi)%Q.
  Proof.
    intros C K. destruct C as
      [n c e w m h H|n s e m h H|n v m h H|n l u e b m h H|n mu s l u e b m h H
      |n a b l u e b' m h H|n l u e b m h H|n mu s l u e b m h H|n a b l u e b' m h H].
    - unfold mk_categorical in H. repeat (apply if_check in H; destruct H as [_ H]).
      destruct c; [destruct w; discriminate|]. apply finish_ok in H. destruct H as [-> _]. discriminate.
    - unfold mk_ordinal in H. repeat (apply if_check in H; destruct H as [_ H]).
      destruct e; [|destruct s; [discriminate|]]; repeat (apply if_check in H; destruct H as [_ H]);
        inversion H; subst; discriminate.
    - unfold mk_constant in H. repeat (apply if_check in H; destruct H as [_ H]). inversion H; subst; discriminate.
    - unfold mk_uniform_int in H. repeat (apply if_check in H; destruct H as [_ H]). inversion H; subst; discriminate.
    - unfold mk_normal_int in H. repeat (apply if_check in H; destruct H as [_ H]). inversion H; subst; discriminate.
    - unfold mk_beta_int in H. repeat (apply if_check in H; destruct H as [_ H]). inversion H; subst; discriminate.
    - unfold mk_uniform_float in H. repeat (apply if_check in H; destruct H as [_ H]).
      inversion H; subst. inversion K; subst. split; apply round13_idem.
    - unfold mk_normal_float in H. repeat (apply if_check in H; destruct H as [_ H]).
      inversion H; subst. inversion K; subst. split; apply round13_idem.
    - unfold mk_beta_float in H. repeat (apply if_check in H; destruct H as [_ H]).
      inversion H; subst. inversion K; subst. split; apply round13_idem.
  Qed.

  Lemma round_legal h w : constructed h -> legal_value h w = true -> legal_value h (round_value h w) = true.
  Proof.
    intros C. unfold legal_value, round_value. destruct (hp_kind h) as [c u|s|u|lo hi log d|lo hi log d] eqn:K; auto.
    destruct (num_of w) as [q|] eqn:Eq; [|discriminate]. simpl. destruct (float_bounds_rounded h lo hi log d C K) as [R1 R2].
    rewrite !andb_true_iff, !Qle_bool_iff. intros [H1 H2]. split.
    - rewrite <- R1. apply round13_mono. exact H1.
    - rewrite <- R2. apply round13_mono. exact H2.
  Qed.
  Lemma round_exact h w : exact_value h (round_value h w) <-> exact_value h w.
  Proof. unfold exact_value, round_value. destruct (hp_kind h); tauto. Qed.
  Lemma round_idem h w : py_eqb (round_value h (round_value h w)) (round_value h w) = true.
  Proof.
    unfold round_value. destruct (hp_kind h); try (destruct (num_of w); apply py_eqb_refl).
    destruct (num_of w) as [q|] eqn:Eq.
    - simpl. apply Qeq_bool_iff. apply round13_idem.
    - rewrite Eq. apply py_eqb_refl.
  Qed.

  (** to_vector respects Python equality of legal values *)
  Lemma to_vector_same h v w x y : constructed h -> legal_value h v = true -> legal_value h w = true ->
    to_vector h v = Ok x -> to_vector h w = Ok y -> py_eqb v w = true -> fsame x y.
  Proof. intros C Hv Hw Tv Tw Q. apply feqb_fsame. rewrite (vec_eq h v w x y C Hv Hw Tv Tw). exact Q. Qed.

  Lemma legal_int_proper lo hi a b : (a == b)%Q -> legal_int lo hi a = legal_int lo hi b.
  Proof. intros H. unfold legal_int. rewrite (rint_proper _ _ H), (is_close_to_integer_proper _ _ H). reflexivity. Qed.

  Lemma legal_vector_same h x y : fsame x y -> legal_vector h x = legal_vector h y.
  Proof.
    intros F. unfold legal_vector. destruct (hp_kind h) as [c u|s|u|lo hi log d|lo hi log d].
    - destruct x, y; simpl in F; try contradiction; try reflexivity. unfold legal_seq.
      rewrite (is_close_to_integer_proper _ _ F), (Qltb_congr _ _ _ _ F (Qeq_refl _)), (Qle_bool_congr _ _ _ _ (Qeq_refl 0) F). reflexivity.
    - destruct x, y; simpl in F; try contradiction; try reflexivity. unfold legal_seq.
      rewrite (is_close_to_integer_proper _ _ F), (Qltb_congr _ _ _ _ F (Qeq_refl _)), (Qle_bool_congr _ _ _ _ (Qeq_refl 0) F). reflexivity.
    - apply feqb_congr; [exact F|apply fsame_refl].
    - destruct x, y; simpl in F; try contradiction; try reflexivity. destruct log.
      + apply legal_int_proper. apply unit_raw_proper. exact F.
      + rewrite (Qle_bool_congr _ _ _ _ (Qeq_refl 0) F), (Qle_bool_congr _ _ _ _ F (Qeq_refl 1)). f_equal.
        apply is_close_to_integer_proper. rewrite F. reflexivity.
    - destruct x, y; simpl in F; try contradiction; try reflexivity.
      rewrite (Qle_bool_congr _ _ _ _ (Qeq_refl 0) F), (Qle_bool_congr _ _ _ _ F (Qeq_refl 1)). reflexivity.
  Qed.

  Lemma exact_legal_vector h w x : constructed h -> legal_value h w = true -> exact_value h w -> to_vector h w = Ok x ->
    legal_vector h x = true.
  Proof.
    intros C Hl He Hx. unfold exact_value in He. destruct (hp_kind h) as [c u|s|u|lo hi log d|lo hi log d] eqn:K.
    - destruct (C34_values_roundtrip h c w C (LV_cat _ _ _ K) Hl) as (i & w' & _ & _ & T & LV & _). congruence.
    - destruct (C34_values_roundtrip h s w C (LV_ord _ _ K) Hl) as (i & w' & _ & _ & T & LV & _). congruence.
    - destruct (C34_constant h u w x K) as (A1 & A2 & A3 & _). specialize (A2 Hl). apply A3. rewrite A2 in Hx. inversion Hx. reflexivity.
    - destruct He as (a & z & Na & Qz).
      assert (Hz : legal_value h (VInt z) = true).
      { unfold legal_value in *. rewrite K in *. rewrite Na in Hl. simpl. rewrite <- (legal_int_proper lo hi _ _ Qz). exact Hl. }
      assert (Rz : (lo <= z <= hi)%Z) by (apply (C39_integers_legal h lo hi log z (ex_intro _ d K)); exact Hz).
      destruct (C35_int_roundtrip h lo hi log z C (ex_intro _ d K) Rz) as (q & Tq & _ & _ & LV & _).
      assert (F : fsame x (Fin q)).
      { apply (to_vector_same h w (VInt z)); auto. unfold py_eqb. rewrite Na. simpl. apply Qeq_bool_iff. exact Qz. }
      rewrite <- LV. apply legal_vector_same. exact F.
    - assert (exists a, num_of w = Some a) as (a & Na) by (apply (legal_num h); [rewrite K; exact I|exact Hl]).
      destruct (C36_float_roundtrip h lo hi log w a C (ex_intro _ d K) Na Hl) as (q & y & T & _ & _ & LV & _). congruence.
  Qed.

  (** ** The validity check *)
  Lemma check_cnode_ok s v allow cn :
    check_cnode s v allow cn = Ok tt <->
    (if sat_vec (index_of s) v (cn_cond cn)
     then (forall i, In i (cn_children cn) -> isfinite (nth i v NaN) = true) /\
          (forall i, In i (cn_children cn) -> exists h, hp_at s i = Some h /\ legal_vector h (nth i v NaN) = true)
     else allow = true \/ forall i, In i (cn_children cn) -> isfinite (nth i v NaN) = false).
  Proof.
    unfold check_cnode. destruct (sat_vec (index_of s) v (cn_cond cn)).
    - destruct (forallb (fun i => isfinite (nth i v NaN)) (cn_children cn)) eqn:E1.
      + rewrite forallb_forall in E1.
        destruct (forallb (fun i => match hp_at s i with Some h => legal_vector h (nth i v NaN) | None => false end) (cn_children cn)) eqn:E2.
        * rewrite forallb_forall in E2. split; [intros _|reflexivity]. split; [exact E1|].
          intros i Hi. specialize (E2 i Hi). destruct (hp_at s i); [eauto|discriminate].
        * split; [discriminate|]. intros [_ H]. exfalso.
          assert (K : forallb (fun i => match hp_at s i with Some h => legal_vector h (nth i v NaN) | None => false end) (cn_children cn) = true).
          { apply forallb_forall. intros i Hi. destruct (H i Hi) as (h & -> & Hl). exact Hl. }
          congruence.
      + split; [discriminate|]. intros [H _]. exfalso.
        assert (K : forallb (fun i => isfinite (nth i v NaN)) (cn_children cn) = true) by (apply forallb_forall; exact H).
        congruence.
    - destruct allow; [split; auto|].
      destruct (find (fun i => isfinite (nth i v NaN)) (cn_children cn)) as [i|] eqn:Ef.
      + apply find_some in Ef. destruct Ef as [Hi Hf]. split.
        * destruct (hp_at s i) as [h|]; [|discriminate]. destruct (to_value h (nth i v NaN)); discriminate.
        * intros [H|H]; [discriminate|]. rewrite (H i Hi) in Hf. discriminate.
      + split; [intros _|reflexivity]. right. intros i Hi. apply (find_none _ _ Ef i Hi).
  Qed.

  Lemma mapM_unit {A B} (f : A -> res B) l : (exists ys, mapM f l = Ok ys) <-> forall x, In x l -> exists y, f x = Ok y.
  Proof.
    split.
    - intros (ys & H). revert ys H. induction l as [|x l IH]; simpl; intros ys H; [tauto|].
      destruct (f x) as [y|] eqn:Ex; [|discriminate]. simpl in H. destruct (mapM f l) as [zs|]; [|discriminate].
      intros z [<-|Hz]; [eauto|]. eapply IH; eauto.
    - induction l as [|x l IH]; intros H; [exists []; reflexivity|]. simpl.
      destruct (H x (or_introl eq_refl)) as (y & ->). simpl. destruct IH as (ys & ->); [intros; apply H; right; assumption|].
      eexists. reflexivity.
  Qed.

  Section One.
    Context {s : space} {hs : list hp} {cs : list cond} {fs : list fclause} (O : space_ok s hs cs fs).

    Lemma so_hp_index h : In h hs -> exists i, assoc (hp_name h) (index_of s) = Some i /\ i < s_len s /\
      nth_error (keys s) i = Some (hp_name h) /\ hp_at s i = Some h.
    Proof.
      intros H. assert (K : In (hp_name h) (keys s)).
      { eapply Permutation_in; [symmetry; apply (so_keys O)|]. apply in_map. exact H. }
      destruct (so_index_ex O _ K) as (i & Hi). exists i. split; [exact Hi|]. split; [eapply so_index_lt; eauto|].
      assert (Hn := Hi). apply (so_index O) in Hn. split; [exact Hn|]. rewrite (so_hp_at_name O i _ Hn).
      apply (so_get_hp O). auto.
    Qed.

    Lemma so_name_hp n : In n (keys s) -> exists h, In h hs /\ hp_name h = n.
    Proof.
      intros H. assert (K : In n (map hp_name hs)) by (eapply Permutation_in; [apply (so_keys O)|exact H]).
      apply in_map_iff in K. destruct K as (h & <- & Hh). eauto.
    Qed.

    (** when do the checks on a vector pass *)
    Lemma roots_ok v : forallb (fun n => match assoc n (index_of s) with Some i => isfinite (nth i v NaN) | None => false end)
        (d_roots (s_dag s)) = true <->
      forall h, In h hs -> ~ conditional cs (hp_name h) -> isfinite (vget (index_of s) v (hp_name h)) = true.
    Proof.
      rewrite forallb_forall. split.
        - intros H h Hh Hc. destruct (so_hp_index h Hh) as (i & Hi & _ & Hn & _).
          assert (Hr : In (hp_name h) (d_roots (s_dag s))).
          { apply (so_root O). split; [eapply nth_error_In; eauto|].
            destruct (condof (d_nodes (s_dag s)) (hp_name h)) as [c|] eqn:Ec; [|reflexivity].
            exfalso. apply Hc. apply (so_conditional O). eauto. }
          specialize (H _ Hr). unfold vget. rewrite Hi in *. exact H.
        - intros H n Hn. apply (so_root O) in Hn. destruct Hn as [Hk Hc]. destruct (so_name_hp n Hk) as (h & Hh & <-).
          destruct (so_hp_index h Hh) as (i & Hi & _). rewrite Hi.
          specialize (H h Hh). unfold vget in H. rewrite Hi in H. apply H. intros C. apply (so_conditional O) in C.
          destruct C as (c & C). congruence.
    Qed.

    Lemma cnodes_ok v allow : refs hs cs fs -> merge_sound (index_of s) cs ->
      ((exists u, mapM (check_cnode s v allow) (d_min (s_dag s)) = Ok u) <->
       forall h c, In h hs -> In c cs -> activates c (hp_name h) ->
          let x := vget (index_of s) v (hp_name h) in
          if sat_vec (index_of s) v c then isfinite x = true /\ legal_vector h x = true
          else allow = true \/ isfinite x = false).
    Proof.
      intros [R1 R2] M. rewrite mapM_unit. split.
        - intros H h c Hh Hc Ha. cbv zeta. set (x := vget (index_of s) v (hp_name h)). destruct (so_hp_index h Hh) as (i & Hi & _ & Hn & Hat).
          assert (Hh2 : In i (handled (d_min (s_dag s)))).
          { apply (so_handled O). destruct (proj1 (so_conditional O (hp_name h))) as (c' & Hc'); [exists c; auto|]. eauto. }
          unfold handled in Hh2. apply in_concat in Hh2. destruct Hh2 as (l & Hl & Hin). apply in_map_iff in Hl.
          destruct Hl as (cn & <- & Hcn). destruct (H cn Hcn) as ([] & Hok). apply check_cnode_ok in Hok.
          destruct (so_cnode_sat s hs cs fs O R1 cn i M Hcn Hin) as (n' & Hn' & _ & Hsat).
          assert (n' = hp_name h) by congruence. subst n'. rewrite (Hsat c Hc Ha v) in Hok.
          assert (Ex : x = nth i v NaN) by (unfold x, vget; rewrite Hi; reflexivity). rewrite Ex.
          destruct (sat_vec (index_of s) v c).
          + destruct Hok as [K1 K2]. split; [apply K1; exact Hin|]. destruct (K2 i Hin) as (h' & Hh' & K). congruence.
          + destruct Hok as [K|K]; [left; exact K|right; apply K; exact Hin].
        - intros H cn Hcn. exists tt. apply check_cnode_ok.
          assert (Q : forall i, In i (cn_children cn) -> exists h, hp_at s i = Some h /\
             if sat_vec (index_of s) v (cn_cond cn) then isfinite (nth i v NaN) = true /\ legal_vector h (nth i v NaN) = true
             else allow = true \/ isfinite (nth i v NaN) = false).
          { intros i Hi. destruct (so_cnode_sat s hs cs fs O R1 cn i M Hcn Hi) as (n & Hn & (c & Hc & Ha) & Hsat).
            destruct (so_name_hp n) as (h & Hh & <-); [eapply nth_error_In; eauto|].
            destruct (so_hp_index h Hh) as (i' & Hi' & _ & Hn' & Hat).
            assert (i' = i). { apply (so_index O) in Hn. congruence. } subst i'.
            exists h. split; [exact Hat|]. rewrite (Hsat c Hc Ha v). specialize (H h c Hh Hc Ha). cbv zeta in H.
            unfold vget in H. rewrite Hi' in H. exact H. }
          destruct (sat_vec (index_of s) v (cn_cond cn)).
          + split; intros i Hi; destruct (Q i Hi) as (h & Hh & K1 & K2); eauto.
          + destruct allow; [left; reflexivity|]. right. intros i Hi. destruct (Q i Hi) as (h & Hh & [K|K]); congruence.
    Qed.

    Lemma check_ok v allow : refs hs cs fs -> merge_sound (index_of s) cs ->
      (check_configuration s v allow = Ok tt <->
       (forall h, In h hs -> ~ conditional cs (hp_name h) -> isfinite (vget (index_of s) v (hp_name h)) = true) /\
       (forall h c, In h hs -> In c cs -> activates c (hp_name h) ->
          let x := vget (index_of s) v (hp_name h) in
          if sat_vec (index_of s) v c then isfinite x = true /\ legal_vector h x = true
          else allow = true \/ isfinite x = false) /\
       (forall f, In f fs -> forb_vec (index_of s) v f = Ok false)).
    Proof.
      intros R M. assert (R2 := proj2 R). unfold check_configuration.
      assert (Hrt := roots_ok v). assert (Hcr := cnodes_ok v allow R M).
      set (rt := forallb _ (d_roots (s_dag s))) in *. set (cr := mapM (check_cnode s v allow) (d_min (s_dag s))) in *.
      destruct rt.
      - destruct cr as [u|e].
        + simpl. rewrite (check_fast O (index_of s) v R2). split.
          * intros H. split; [apply Hrt; reflexivity|]. split; [apply Hcr; eauto|exact H].
          * intros (_ & _ & H). exact H.
        + simpl. split; [discriminate|]. intros (_ & H & _). apply Hcr in H. destruct H; discriminate.
      - split; [discriminate|]. intros (H & _). apply Hrt in H. discriminate.
    Qed.

    (** ** Filling the vector *)
    Notation io := (index_of s).

    Lemma fill_spec vals : forall its vec cache,
      NoDup (map fst its) -> (forall k h, In (k, h) its -> constructed h /\ exists i, assoc k io = Some i /\ i < length vec) ->
      (forall k k' i, assoc k io = Some i -> assoc k' io = Some i -> k = k') ->
      match fill s vals its vec cache with
      | Err e => e = IllegalValueError /\ exists k h w, In (k, h) its /\ given vals k = Some w /\ legal_value h w = false
      | Ok (vec', cache') =>
          length vec' = length vec /\
          (forall k h, In (k, h) its ->
             match given vals k with
             | Some w => legal_value h w = true /\ to_vector h (round_value h w) = Ok (vget io vec' k) /\
                         assoc k cache' = Some (round_value h w)
             | None => vget io vec' k = NaN /\ assoc k cache' = assoc k cache
             end) /\
          (forall k, ~ In k (map fst its) -> (forall i, assoc k io = Some i -> i < length vec) -> vget io vec' k = vget io vec k) /\
          (forall k, ~ In k (map fst its) -> assoc k cache' = assoc k cache)
      end.
    Proof.
      induction its as [|[k h] its IH]; intros vec cache ND Hin Inj.
      - simpl. repeat split; auto; intros; contradiction.
      - simpl. inversion ND as [|? ? Hk ND']; subst. destruct (Hin k h (or_introl eq_refl)) as (Ch & i & Hi & Hlt).
        rewrite Hi. assert (Hlb : Nat.ltb i (length vec) = true) by (apply Nat.ltb_lt; exact Hlt).
        assert (Oth : forall k' x, k' <> k -> vget io (set_nth i x vec) k' = vget io vec k').
        { intros k' x Hne. unfold vget. destruct (assoc k' io) as [j|] eqn:Ej; [|reflexivity].
          apply nth_set_nth_ne. intros ->. apply Hne. eapply Inj; eauto. }
        assert (Here : forall x, vget io (set_nth i x vec) k = x).
        { intros x. unfold vget. rewrite Hi. apply nth_set_nth_eq. exact Hlt. }
        assert (In' : forall x k' h', In (k', h') its -> constructed h' /\ exists i', assoc k' io = Some i' /\ i' < length (set_nth i x vec)).
        { intros x k' h' H. destruct (Hin k' h' (or_intror H)) as (C' & i' & Hi' & Hl'). split; [exact C'|]. exists i'.
          rewrite set_nth_length. auto. }
        unfold given. destruct (assoc k vals) as [[w|]|] eqn:Ek.
        + destruct (legal_value h w) eqn:El.
          * destruct (legal_finite h (round_value h w) Ch (round_legal h w Ch El)) as (q & Hq). rewrite Hq. simpl. rewrite Hlb.
            specialize (IH (set_nth i (Fin q) vec) (assoc_set k (round_value h w) cache) ND' (In' (Fin q)) Inj).
            destruct (fill s vals its (set_nth i (Fin q) vec) (assoc_set k (round_value h w) cache)) as [[vec' cache']|e].
            -- rewrite set_nth_length in IH. destruct IH as (L1 & A & B & C). split; [exact L1|]. split; [|split].
               ++ intros k' h' [Heq|H].
                  ** inversion Heq; subst k' h'. rewrite Ek. split; [exact El|]. split.
                     { rewrite (B k Hk); [rewrite Here; exact Hq|]. intros j Hj. congruence. }
                     { rewrite (C k Hk). apply assoc_set_same. }
                  ** specialize (A k' h' H). assert (Hne : k' <> k) by (intros ->; apply Hk; apply in_map_iff; exists (k, h'); auto).
                     unfold given in A. destruct (assoc k' vals) as [[w'|]|]; [exact A| |];
                       (rewrite assoc_set_other in A by exact Hne; exact A).
               ++ intros k' Hk' Hl'. simpl in Hk'. rewrite B; [|tauto|exact Hl']. apply Oth. intros e. apply Hk'. left. congruence.
               ++ intros k' Hk'. simpl in Hk'. rewrite C by tauto. apply assoc_set_other. intros e. apply Hk'. left. congruence.
            -- destruct IH as (-> & k' & h' & w' & H1 & H2 & H3). split; [reflexivity|]. exists k', h', w'. auto.
          * split; [reflexivity|]. exists k, h, w. split; [left; reflexivity|]. unfold given. rewrite Ek. auto.
        + rewrite Hlb. specialize (IH (set_nth i NaN vec) cache ND' (In' NaN) Inj).
          destruct (fill s vals its (set_nth i NaN vec) cache) as [[vec' cache']|e].
          -- rewrite set_nth_length in IH. destruct IH as (L1 & A & B & C). split; [exact L1|]. split; [|split].
             ++ intros k' h' [Heq|H].
                ** inversion Heq; subst k' h'. rewrite Ek. split.
                   { rewrite (B k Hk); [apply Here|]. intros j Hj. congruence. }
                   { apply C. exact Hk. }
                ** apply A. exact H.
             ++ intros k' Hk' Hl'. simpl in Hk'. rewrite B; [|tauto|exact Hl']. apply Oth. intros e. apply Hk'. left. congruence.
             ++ intros k' Hk'. simpl in Hk'. apply C. tauto.
          -- destruct IH as (-> & k' & h' & w' & H1 & H2 & H3). split; [reflexivity|]. exists k', h', w'. auto.
        + rewrite Hlb. specialize (IH (set_nth i NaN vec) cache ND' (In' NaN) Inj).
          destruct (fill s vals its (set_nth i NaN vec) cache) as [[vec' cache']|e].
          -- rewrite set_nth_length in IH. destruct IH as (L1 & A & B & C). split; [exact L1|]. split; [|split].
             ++ intros k' h' [Heq|H].
                ** inversion Heq; subst k' h'. rewrite Ek. split.
                   { rewrite (B k Hk); [apply Here|]. intros j Hj. congruence. }
                   { apply C. exact Hk. }
                ** apply A. exact H.
             ++ intros k' Hk' Hl'. simpl in Hk'. rewrite B; [|tauto|exact Hl']. apply Oth. intros e. apply Hk'. left. congruence.
             ++ intros k' Hk'. simpl in Hk'. apply C. tauto.
          -- destruct IH as (-> & k' & h' & w' & H1 & H2 & H3). split; [reflexivity|]. exists k', h', w'. auto.
    Qed.

    Lemma so_items k h : In (k, h) (items s) <-> In h hs /\ hp_name h = k.
    Proof.
      rewrite <- (so_get_hp O). unfold items, get_hp. rewrite in_map_iff. split.
      - intros ([k' nd] & Heq & Hin). simpl in Heq. inversion Heq; subst. rewrite (In_assoc _ _ _ (so_nodup O) Hin). reflexivity.
      - destruct (assoc k (d_nodes (s_dag s))) as [nd|] eqn:En; [|discriminate]. simpl. intros H. inversion H; subst.
        exists (k, nd). split; [reflexivity|]. apply assoc_In. exact En.
    Qed.
    Lemma items_keys : map fst (items s) = keys s.
    Proof. unfold items, keys. rewrite map_map. reflexivity. Qed.

    Lemma so_index_inj k k' i : assoc k io = Some i -> assoc k' io = Some i -> k = k'.
    Proof. intros A B. apply (so_index O) in A. apply (so_index O) in B. congruence. Qed.

    (** the vector and the cache of a configuration made from values *)
    Definition filled (vals : list (string * option value)) (vec : list fval) (cache : list (string * value)) : Prop :=
      length vec = s_len s /\
      (forall h, In h hs -> match given vals (hp_name h) with
                            | Some w => to_vector h (round_value h w) = Ok (vget io vec (hp_name h)) /\
                                        assoc (hp_name h) cache = Some (round_value h w)
                            | None => vget io vec (hp_name h) = NaN /\ assoc (hp_name h) cache = None
                            end) /\
      (forall k, ~ In k (map hp_name hs) -> assoc k cache = None).

    Lemma fill_items vals :
      match fill s vals (items s) (repeat NaN (s_len s)) [] with
      | Err e => e = IllegalValueError /\ ~ all_legal hs (given vals)
      | Ok (vec, cache) => all_legal hs (given vals) /\ filled vals vec cache
      end.
    Proof.
      assert (K := fill_spec vals (items s) (repeat NaN (s_len s)) []).
      rewrite items_keys, repeat_length in K.
      assert (H1 : forall k h, In (k, h) (items s) -> constructed h /\ exists i, assoc k io = Some i /\ i < s_len s).
      { intros k h H. apply so_items in H. destruct H as [Hh <-]. split; [apply (so_constructed O); exact Hh|].
        destruct (so_hp_index h Hh) as (i & Hi & Hl & _). eauto. }
      specialize (K (so_nodup O) H1 so_index_inj).
      destruct (fill s vals (items s) (repeat NaN (s_len s)) []) as [[vec cache]|e].
      - destruct K as (L1 & A & B & C). split; [|split; [exact L1|split]].
        + intros h w Hh Hw. specialize (A (hp_name h) h (proj2 (so_items _ _) (conj Hh eq_refl))). rewrite Hw in A. tauto.
        + intros h Hh. specialize (A (hp_name h) h (proj2 (so_items _ _) (conj Hh eq_refl))).
          destruct (given vals (hp_name h)); tauto.
        + intros k Hk. apply C. intros Hin. apply Hk. eapply Permutation_in; [apply (so_keys O)|exact Hin].
      - destruct K as (-> & k & h & w & Hin & Hw & Hl). split; [reflexivity|]. intros AL. apply so_items in Hin.
        destruct Hin as [Hh <-]. rewrite (AL h w Hh Hw) in Hl. discriminate.
    Qed.

    Lemma filled_encodes vals vec cache d : all_legal hs (given vals) -> filled vals vec cache -> stored hs (given vals) d ->
      forall h, In h hs -> encodes io vec d h.
    Proof.
      intros AL (_ & F & _) St h Hh. unfold encodes. rewrite (St h Hh). specialize (F h Hh).
      destruct (given vals (hp_name h)) as [w|] eqn:Ew; simpl.
      - split; [apply round_legal; [apply (so_constructed O); exact Hh|apply (AL h w Hh Ew)]|].
        eexists. split; [apply F|]. apply fsame_refl.
      - apply F.
    Qed.

    (** vectors that encode an assignment *)
    Section Encoded.
      Context (v : list fval) (d : assignment) (En : forall h, In h hs -> encodes io v d h).

      Lemma enc_fin h : In h hs -> (isfinite (vget io v (hp_name h)) = true <-> d (hp_name h) <> None).
      Proof.
        intros Hh. destruct (d (hp_name h)) as [w|] eqn:Ed.
        - destruct (encodes_fin io v d h w (so_constructed O h Hh) (En h Hh) Ed) as (q & ->). split; [discriminate|reflexivity].
        - specialize (En h Hh). unfold encodes in En. rewrite Ed in En. rewrite En. split; [discriminate|congruence].
      Qed.

      Lemma enc_legal h : exact_all hs d -> In h hs -> d (hp_name h) <> None -> legal_vector h (vget io v (hp_name h)) = true.
      Proof.
        intros Ex Hh Hd. destruct (d (hp_name h)) as [w|] eqn:Ed; [|congruence]. specialize (En h Hh). unfold encodes in En.
        rewrite Ed in En. destruct En as (Hl & x & Hx & F). rewrite (legal_vector_same h _ _ F).
        apply (exact_legal_vector h w x (so_constructed O h Hh) Hl (Ex h w Hh Ed) Hx).
      Qed.

      (** once unconditional hyperparameters have values, conditions mean what they should *)
      Lemma enc_sat : refs hs cs fs -> ne_safe cs ->
        (forall h, In h hs -> ~ conditional cs (hp_name h) -> d (hp_name h) <> None) ->
        forall c, In c cs -> (sat_vec io v c = true <-> holds d c).
      Proof.
        intros R NS Rt c Hc. destruct R as [R1 R2]. apply sat_vec_holds.
        - apply cond_built_good, (so_cond_built O), Hc.
        - intros l Hl. apply En. apply (R1 c Hc l Hl).
        - intros l Hl Hn. destruct (is_ne (l_test l)) eqn:Ne; [|reflexivity]. exfalso.
          destruct (l_test l) as [[] w vv|] eqn:Et; try discriminate.
          refine (Rt (l_parent l) _ _ Hn); [apply (R1 c Hc l Hl)|]. apply (NS c l w vv Hc Hl Et).
      Qed.

      Lemma enc_act : refs hs cs fs -> ne_safe cs ->
        (forall h, In h hs -> ~ conditional cs (hp_name h) -> d (hp_name h) <> None) ->
        forall n c, In c cs -> activates c n -> (sat_vec io v c = true <-> active cs d n).
      Proof.
        intros R NS Rt n c Hc Ha. assert (Sat := enc_sat R NS). destruct R as [R1 R2]. split.
        - intros Hs c' Hc' Ha'. apply (Sat Rt c' Hc').
          destruct (so_declared_vec s hs cs fs O R1 n c Hc Ha) as (c1 & E1 & _ & _ & S1).
          destruct (so_declared_vec s hs cs fs O R1 n c' Hc' Ha') as (c2 & E2 & _ & _ & S2).
          assert (c1 = c2) by congruence. subst c2. rewrite <- S2, S1. exact Hs.
        - intros A. apply (Sat Rt c Hc). apply A; assumption.
      Qed.
    End Encoded.

    (** the check on a vector that encodes an assignment *)
    Lemma encodes_check v d allow : refs hs cs fs -> merge_sound io cs -> ne_safe cs ->
      (forall h, In h hs -> encodes io v d h) -> exact_all hs d ->
      (check_configuration s v allow = Ok tt ->
         (forall h, In h hs -> active cs d (hp_name h) -> d (hp_name h) <> None) /\
         (allow = false -> forall h, In h hs -> d (hp_name h) <> None -> active cs d (hp_name h)) /\
         forall f, In f fs -> ~ violated d f) /\
      ((forall f, In f fs -> comparable f) ->
       (forall h, In h hs -> active cs d (hp_name h) -> d (hp_name h) <> None) ->
       (allow = false -> forall h, In h hs -> d (hp_name h) <> None -> active cs d (hp_name h)) ->
       (forall f, In f fs -> ~ violated d f) ->
       check_configuration s v allow = Ok tt).
    Proof.
      intros R M NS En Ex. assert (Fin := enc_fin v d En). assert (Sat := enc_sat v d En R NS).
      assert (Leg := fun h => enc_legal v d En h Ex). assert (Act := enc_act v d En R NS). destruct R as [R1 R2].
      split.
      - intros H. apply (check_ok v allow (conj R1 R2) M) in H. destruct H as (H1 & H2 & H3).
        assert (Rt : forall h, In h hs -> ~ conditional cs (hp_name h) -> d (hp_name h) <> None)
          by (intros h Hh Hc; apply Fin; auto).
        assert (Hcond : forall n, conditional cs n \/ ~ conditional cs n).
        { intros n. destruct (condof (d_nodes (s_dag s)) n) as [c|] eqn:Ec.
          - left. apply (so_conditional O). eauto.
          - right. intros Hc. apply (so_conditional O) in Hc. destruct Hc; congruence. }
        split; [|split].
        + intros h Hh Ac. destruct (Hcond (hp_name h)) as [(c & Hc & Ha)|Hn]; [|apply Rt; assumption].
          apply Fin; [exact Hh|]. specialize (H2 h c Hh Hc Ha). cbv zeta in H2.
          rewrite (proj2 (Act Rt _ c Hc Ha) Ac) in H2. apply H2.
        + intros -> h Hh Hd c Hc Ha. specialize (H2 h c Hh Hc Ha). cbv zeta in H2.
          destruct (sat_vec io v c) eqn:Es.
          * apply (Sat Rt c Hc). exact Es.
          * destruct H2 as [H2|H2]; [discriminate|]. apply (Fin h Hh) in Hd. congruence.
        + intros f Hf Vf. assert (Q : forb_vec io v f = Ok true).
          { apply (forb_vec_means io v d f).
            - apply forb_built_good, (so_forb_built O), Hf.
            - intros h Hh. apply En. apply (R2 f Hf h Hh).
            - intros r a b h w Hr Hab Hd. apply (Ex h w); [|exact Hd]. apply (R2 f Hf).
              unfold forb_hps. apply in_concat. exists [a; b]. split; [apply in_map_iff; exists (FRel r a b); auto|].
              simpl. destruct Hab; subst; auto.
            - exact Vf. }
          rewrite (H3 f Hf) in Q. discriminate.
      - intros Cmp H1 H2 H3. apply (check_ok v allow (conj R1 R2) M).
        assert (Rt : forall h, In h hs -> ~ conditional cs (hp_name h) -> d (hp_name h) <> None).
        { intros h Hh Hn. apply H1; [exact Hh|]. intros c Hc Ha. exfalso. apply Hn. exists c. auto. }
        split; [|split].
        + intros h Hh Hn. apply Fin; auto.
        + intros h c Hh Hc Ha. cbv zeta. destruct (sat_vec io v c) eqn:Es.
          * assert (Hd : d (hp_name h) <> None) by (apply H1; [exact Hh|]; apply (Act Rt _ c Hc Ha); exact Es).
            split; [apply Fin; assumption|apply Leg; assumption].
          * destruct allow; [left; reflexivity|]. right. destruct (isfinite (vget io v (hp_name h))) eqn:Ef; [|reflexivity].
            exfalso. apply (Fin h Hh) in Ef. specialize (H2 eq_refl h Hh Ef). apply (Act Rt _ c Hc Ha) in H2. congruence.
        + intros f Hf.
          assert (Rel : forall r a b h, In (FRel r a b) (fdlcs f) -> h = a \/ h = b -> In h hs).
          { intros r a b h Hr Hab. apply (R2 f Hf). unfold forb_hps. apply in_concat. exists [a; b].
            split; [apply in_map_iff; exists (FRel r a b); auto|]. simpl. destruct Hab; subst; auto. }
          assert (T : exists b, forb_vec io v f = Ok b).
          { apply forb_vec_total; [apply Cmp; exact Hf| |].
            - intros r a b h Hr Hab. assert (Hh := Rel r a b h Hr Hab). assert (Eh := En h Hh). unfold encodes in Eh.
              destruct (d (hp_name h)) as [w|] eqn:Ed; [|left; exact Eh]. right. destruct Eh as (Hl & x & Hx & F).
              destruct (value_roundtrip h w x (so_constructed O h Hh) Hl (Ex h w Hh Ed) Hx) as (w' & T & _).
              destruct (to_value_same h _ _ w' (fsame_sym _ _ F) T) as (u & Hu & _). eauto.
            - intros r a b h Hr Hab _. assert (Hh := Rel r a b h Hr Hab). destruct (d (hp_name h)) as [w|] eqn:Ed.
              + right. apply Fin; [exact Hh|congruence].
              + left. assert (Eh := En h Hh). unfold encodes in Eh. rewrite Ed in Eh. exact Eh. }
          destruct T as ([] & T); [|exact T]. exfalso. apply (H3 f Hf).
          apply (forb_vec_means io v d f).
          * apply forb_built_good, (so_forb_built O), Hf.
          * intros h Hh. apply En. apply (R2 f Hf h Hh).
          * intros r a b h w Hr Hab Hd. apply (Ex h w); [|exact Hd]. eapply Rel; eauto.
          * exact T.
    Qed.
  End One.
End Valid.
