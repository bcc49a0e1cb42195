(** * Lemmas about reading configurations, their entries, and default values *)
From Coq Require Import String List ZArith QArith Qround Bool Lia Permutation.
From Verif Require Import Base ListFacts Numeric NumericProofs HP HPProofs Properties_HP Cond Forb EqFacts Dag DagProofs
  Space CommitProofs Spec SpaceProofs CnodeProofs ForbProofs EvalProofs ForbEval MergeProofs ValidProofs ConfigProofs ChangeProofs.
Import ListNotations.
Open Scope nat_scope.

Section Read.
  Context {E : Env} {L : EnvLaws E}.

  (** the encoding of a legal value can be decoded *)
  Lemma legal_decodes h w x : constructed h -> legal_value h w = true -> to_vector h w = Ok x ->
    exists w', to_value h x = Ok w'.
  Proof.
    intros C Hl Hx. assert (W := constructed_wf _ C). unfold wf_hp in W.
    destruct (legal_finite h w C Hl) as (q & Hq). assert (x = Fin q) by congruence. subst x.
    unfold to_value. destruct (hp_kind h) as [c u|c|c|lo hi log d|lo hi log d] eqn:K; eauto.
    - destruct (seq_roundtrip h c w) as (i & w' & _ & _ & T & _ & V & _); [right; eauto|tauto|exact Hl|].
      rewrite T in Hq. inversion Hq; subst q. unfold to_value in V. rewrite K in V. eauto.
    - destruct (seq_roundtrip h c w) as (i & w' & _ & _ & T & _ & V & _); [left; exact K|tauto|exact Hl|].
      rewrite T in Hq. inversion Hq; subst q. unfold to_value in V. rewrite K in V. eauto.
  Qed.

  (** default values survive rounding *)
  Lemma default_rounded h : constructed h -> py_eqb (round_value h (hp_default h)) (hp_default h) = true.
  Proof.
    intros C. unfold round_value. destruct (hp_kind h) as [c u|s|u|lo hi log d|lo hi log d] eqn:K; try apply py_eqb_refl.
    destruct C as
      [n c e w m h H|n s e m h H|n v m h H|n l u e b m h H|n mu s l u e b m h H
      |n a b l u e b' m h H|n l u e b m h H|n mu s l u e b m h H|n a b l u e b' m h H].
    - unfold mk_categorical in H. repeat (apply if_check in H; destruct H as [_ H]).
      destruct c; [destruct w; discriminate|]. apply finish_ok in H. destruct H as [-> _]. discriminate.
    - unfold mk_ordinal in H. repeat (apply if_check in H; destruct H as [_ H]).
      destruct e; [|destruct s; [discriminate|]]; repeat (apply if_check in H; destruct H as [_ H]);
        inversion H; subst; discriminate.
    - unfold mk_constant in H. repeat (apply if_check in H; destruct H as [_ H]). inversion H; subst; discriminate.
    - unfold mk_uniform_int in H. repeat (apply if_check in H; destruct H as [_ H]). inversion H; subst; discriminate.
    - unfold mk_normal_int in H. repeat (apply if_check in H; destruct H as [_ H]). inversion H; subst; discriminate.
    - unfold mk_beta_int in H. repeat (apply if_check in H; destruct H as [_ H]). inversion H; subst; discriminate.
    - unfold mk_uniform_float in H. repeat (apply if_check in H; destruct H as [_ H]).
      inversion H; subst. simpl. apply Qeq_bool_iff, round13_idem.
    - unfold mk_normal_float in H. repeat (apply if_check in H; destruct H as [_ H]).
      inversion H; subst. simpl. apply Qeq_bool_iff, round13_idem.
    - unfold mk_beta_float in H. repeat (apply if_check in H; destruct H as [_ H]).
      inversion H; subst. simpl. apply Qeq_bool_iff, round13_idem.
  Qed.
  Lemma default_exact h : constructed h -> exact_value h (hp_default h).
  Proof.
    intros C. assert (W := constructed_wf _ C). unfold wf_hp in W. unfold exact_value.
    destruct (hp_kind h); auto. destruct W as (_ & _ & z & -> & _). exists (inject_Z z), z. split; [reflexivity|apply Qeq_refl].
  Qed.

  (** ** Assignments that agree up to Python equality *)
  Definition agree (d d' : assignment) (h : hp) : Prop :=
    match d (hp_name h), d' (hp_name h) with
    | None, None => True
    | Some w, Some w' => py_eqb w w' = true /\ legal_value h w = true /\ legal_value h w' = true
    | _, _ => False
    end.

  Lemma agree_sym d d' h : agree d d' h -> agree d' d h.
  Proof. unfold agree. destruct (d (hp_name h)), (d' (hp_name h)); auto. rewrite py_eqb_sym. tauto. Qed.

  Lemma holds_agree1 d d' c : cond_good c -> (forall l, In l (dlcs c) -> agree d d' (l_parent l)) -> holds d c -> holds d' c.
  Proof.
    induction c as [l|cs IH|cs IH] using cond_ind'; intros G H.
    - specialize (H l (or_introl eq_refl)). unfold agree in H. simpl. intros (w & Hw & T). rewrite Hw in H.
      destruct (d' (hp_name (l_parent l))) as [w'|]; [|contradiction]. exists w'. split; [reflexivity|].
      destruct H as (Q & L1 & L2). assert (B := cond_good_lit_in _ G l (or_introl eq_refl)).
      destruct (lit_means l w B L1) as (x & Hx & Q1). destruct (lit_means l w' B L2) as (y & Hy & Q2).
      apply Q2. apply Q1 in T. rewrite <- T. apply test_vec_congr.
      apply (to_vector_same (l_parent l) w' w); auto; [apply B|]. rewrite py_eqb_sym. exact Q.
    - simpl. inversion G as [|? Gx|]; subst. rewrite !fold_and_in. rewrite Forall_forall in IH. intros K x Hx. apply IH; auto.
      intros l Hl. apply H. simpl. eapply dlcs_in_and; eauto.
    - simpl. inversion G as [| |? Gx]; subst. rewrite !fold_or_in. rewrite Forall_forall in IH. intros (x & Hx & K). exists x.
      split; [exact Hx|]. apply IH; auto. intros l Hl. apply H. simpl. eapply dlcs_in_and; eauto.
  Qed.
  Lemma holds_agree d d' c : cond_good c -> (forall l, In l (dlcs c) -> agree d d' (l_parent l)) -> (holds d c <-> holds d' c).
  Proof.
    intros G H. split; apply holds_agree1; auto. intros l Hl. apply agree_sym. auto.
  Qed.

  Section One.
    Context {s : space} {hs : list hp} {cs : list cond} {fs : list fclause} (O : space_ok s hs cs fs).
    Notation io := (index_of s).

    Lemma active_agree d d' n : (forall c, In c cs -> cond_refs hs c) -> (forall h, In h hs -> agree d d' h) ->
      (active cs d n <-> active cs d' n).
    Proof.
      intros R H. unfold active. split; intros A c Hc Ha; specialize (A c Hc Ha); revert A; apply holds_agree1.
      - apply cond_built_good, (so_cond_built O), Hc.
      - intros l Hl. apply H. apply (R c Hc l Hl).
      - apply cond_built_good, (so_cond_built O), Hc.
      - intros l Hl. apply agree_sym. apply H. apply (R c Hc l Hl).
    Qed.

    Lemma encodes_agree v d d' h : constructed h -> agree d d' h -> encodes io v d h -> encodes io v d' h.
    Proof.
      intros C A En. unfold encodes, agree in *. destruct (d (hp_name h)) as [w|], (d' (hp_name h)) as [w'|]; try contradiction; auto.
      destruct A as (Q & L1 & L2). split; [exact L2|]. destruct En as (_ & x & Hx & F).
      destruct (legal_finite h w' C L2) as (q & Hq). exists (Fin q). split; [exact Hq|].
      eapply fsame_trans; [exact F|]. apply (to_vector_same h w w'); auto.
    Qed.


    (** ** Configurations handed out by the API *)
    Lemma default_entry_ok h : constructed h -> to_vector h (hp_default h) = Ok (default_entry h).
    Proof.
      intros C. destruct (legal_finite h (hp_default h) C (C37_default_legal h C)) as (q & Hq).
      unfold default_entry, default_vector. rewrite Hq. reflexivity.
    Qed.

    Lemma made_inv c : made s hs c ->
      length (c_vector c) = s_len s /\ decodes s hs (c_vector c) /\
      match c_values c with
      | None => True
      | Some d => forall k w, assoc k d = Some w ->
          exists h, In h hs /\ hp_name h = k /\ vget io (c_vector c) k <> NaN /\ py_eqb (round_value h w) w = true
      end.
    Proof.
      induction 1 as [vals allow c H|v allow c D H|c k w c' M IH H].
      - apply (config_of_values_ok O) in H. destruct H as (_ & AL & vec & cache & _ & F & _ & ->). simpl.
        assert (F0 := F). destruct F as (F1 & F2 & F3). split; [exact F1|]. split.
        + intros h Hh. specialize (F2 h Hh). destruct (given vals (hp_name h)) as [w|] eqn:Ew; [|left; apply F2].
          right. destruct F2 as [F2 _]. apply (legal_decodes h (round_value h w)); auto; [apply (so_constructed O); exact Hh|].
          apply round_legal; [apply (so_constructed O); exact Hh|]. apply (AL h w Hh Ew).
        + intros k w Hk. destruct (in_dec string_dec k (map hp_name hs)) as [Hin|Hout]; [|rewrite (F3 k Hout) in Hk; discriminate].
          apply in_map_iff in Hin. destruct Hin as (h & <- & Hh). exists h. split; [exact Hh|]. split; [reflexivity|].
          specialize (F2 h Hh). destruct (given vals (hp_name h)) as [w'|] eqn:Ew; [|destruct F2; congruence].
          destruct F2 as [F2 F2']. assert (w = round_value h w') by congruence. subst w. split; [|apply round_idem].
          destruct (legal_finite h (round_value h w')) as (q & Hq).
          * apply (so_constructed O); exact Hh.
          * apply round_legal; [apply (so_constructed O); exact Hh|]. apply (AL h w' Hh Ew).
          * congruence.
      - apply config_len_vec in H. destruct H as [Hl ->]. simpl. auto.
      - destruct IH as (I1 & I2 & _). unfold setitem in H. destruct (get_hp s k) as [h|] eqn:Eh; [|inversion H].
        destruct (legal_value h w) eqn:Ew; [|inversion H]. destruct (assoc k io) as [i|] eqn:Ei; [|inversion H].
        destruct (to_vector h w) as [x|e] eqn:Ex; [|inversion H].
        destruct (check_configuration s (change_hp_value s (c_vector c) k x i) false) eqn:Ec; [|inversion H].
        inversion H; subst; clear H. simpl.
        assert (Hi := so_index_lt O k i Ei). destruct (change_entries O (c_vector c) k x i I1 Hi) as [C1 C2].
        split; [exact C1|]. split; [|exact I].
        apply (so_get_hp O) in Eh. destruct Eh as [Hh Hk].
        intros g Hg. destruct (so_hp_index O g Hg) as (j & Hj & _ & Hn & Hat). specialize (C2 j).
        assert (I2g := I2 g Hg). unfold vget in I2g |- *. rewrite Hj in I2g |- *.
        destruct C2 as [[_ K]|[K|[[Hji K]|(g' & Hg' & K)]]]; rewrite K; auto.
        + right. subst j. assert (g = h). { apply (same_hp hs); auto using (so_names_nodup O). rewrite Hk. apply (so_index_inj O _ _ i); assumption. }
          subst g. apply (legal_decodes h w); auto. apply (so_constructed O); exact Hh.
        + right. assert (g' = g) by congruence. subst g'. apply (legal_decodes g (hp_default g)).
          * apply (so_constructed O); exact Hg.
          * apply C37_default_legal, (so_constructed O); exact Hg.
          * apply default_entry_ok, (so_constructed O); exact Hg.
    Qed.

    Lemma made_read c k : made s hs c ->
      (In k (iter s c) -> exists h w, In h hs /\ hp_name h = k /\ getitem s c k = Ok w /\ py_eqb (round_value h w) w = true) /\
      (~ In k (iter s c) -> getitem s c k = Err KeyError).
    Proof.
      intros M. destruct (made_inv c M) as (I1 & I2 & I3). rewrite (iter_in O). split.
      - intros (h & Hh & <- & Hn). destruct (match c_values c with Some d => assoc (hp_name h) d | None => None end) as [w|] eqn:Ev.
        + exists h, w. split; [exact Hh|]. split; [reflexivity|]. split; [unfold getitem; rewrite Ev; reflexivity|].
          destruct (c_values c) as [d|]; [|discriminate]. destruct (I3 _ _ Ev) as (h' & Hh' & Hk & _ & Q).
          assert (h' = h) by (apply (same_hp hs); auto using (so_names_nodup O)). subst h'. exact Q.
        + rewrite (getitem_vec O c h Hh Ev). destruct (I2 h Hh) as [K|(w & Hw)]; [contradiction|].
          exists h, (round_value h w). split; [exact Hh|]. split; [reflexivity|]. split; [|apply round_idem].
          destruct (vget io (c_vector c) (hp_name h)); try (rewrite Hw; reflexivity). congruence.
      - intros Hn. assert (Ev : match c_values c with Some d => assoc k d | None => None end = None).
        { destruct (match c_values c with Some d => assoc k d | None => None end) as [w|] eqn:Ev; [|reflexivity]. exfalso.
          destruct (c_values c) as [d|]; [|discriminate]. destruct (I3 _ _ Ev) as (h & Hh & Hk & Hv & _). apply Hn. exists h. auto. }
        destruct (in_dec string_dec k (map hp_name hs)) as [Hin|Hout]; [|apply (getitem_unknown O); assumption].
        apply in_map_iff in Hin. destruct Hin as (h & <- & Hh). rewrite (getitem_vec O c h Hh Ev).
        assert (Ex : vget io (c_vector c) (hp_name h) = NaN).
        { destruct (vget io (c_vector c) (hp_name h)) eqn:Ex; try reflexivity; exfalso; apply Hn; exists h;
            (split; [exact Hh|split; [reflexivity|congruence]]). }
        rewrite Ex. reflexivity.
    Qed.
  End One.
End Read.
