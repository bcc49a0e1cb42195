(** * Property C109: every valid configuration can be sampled *)
From Coq Require Import String List ZArith QArith Bool Lia Lqa Permutation Relations.
From Verif Require Import Base ListFacts Numeric NumericProofs HP HPProofs Properties_HP Cond Forb EqFacts Dag DagProofs
  Space CommitProofs Spec SpaceProofs CnodeProofs ForbProofs EvalProofs ForbEval MergeProofs ValidProofs ConfigProofs
  ChangeProofs PassProofs ReadProofs SampleProofs Ex Properties_Graph Properties_Eval Properties_Config Properties_Change Properties_Sample
  Dist DistProofs Properties_Dist Properties_Raise.
Import ListNotations.
Open Scope nat_scope.

(** the value is not a choice of weight zero *)
Definition has_weight (h : hp) (w : value) : Prop :=
  forall c ws i v, hp_kind h = KCat c (Some ws) -> nth_error c i = Some v -> py_eqb w v = true -> (0 < nth i ws 0)%Q.

Section Reach.
  Context {E : Env} {L : EnvLaws E}.

  (** ** One hyperparameter *)
  Lemma Qsum_firstn_S (l : list Q) : forall j, j < length l -> (Qsum (firstn (S j) l) == Qsum (firstn j l) + nth j l 0)%Q.
  Proof.
    induction l as [|x l IH]; intros j Hj; [simpl in Hj; lia|]. destruct j as [|j]; [simpl; ring|].
    change (Qsum (firstn (S (S j)) (x :: l))) with (x + Qsum (firstn (S j) l))%Q.
    change (Qsum (firstn (S j) (x :: l))) with (x + Qsum (firstn j l))%Q.
    rewrite IH by (simpl in Hj; lia). simpl. ring.
  Qed.
  Lemma Qsum_firstn_mono (l : list Q) : Forall (fun x => (0 <= x)%Q) l -> forall i j, i <= j -> (Qsum (firstn i l) <= Qsum (firstn j l))%Q.
  Proof.
    intros F. induction F as [|x l Hx F IH]; intros i j Hij; [rewrite !firstn_nil; lra|].
    destruct i as [|i], j as [|j]; [simpl; lra| |lia|].
    - change (Qsum (firstn 0 (x :: l))) with 0%Q. change (Qsum (firstn (S j) (x :: l))) with (x + Qsum (firstn j l))%Q.
      assert (K := IH 0 j ltac:(lia)). change (Qsum (firstn 0 l)) with 0%Q in K. lra.
    - change (Qsum (firstn (S i) (x :: l))) with (x + Qsum (firstn i l))%Q. change (Qsum (firstn (S j) (x :: l))) with (x + Qsum (firstn j l))%Q.
      assert (K := IH i j ltac:(lia)). lra.
  Qed.

  (** every legal value can be drawn.
      Missing: normal and beta integers on a logarithmic scale (see C41_refuted). *)
  Theorem C109_value_partial h w x : constructed h -> ~ mismatched h -> legal_value h w = true -> exact_value h w -> has_weight h w ->
    to_vector h w = Ok x -> exists r, raw_ok h r /\ fsame (sample_vector h r) x.
  Proof.
    intros C M Lg Ex Pw T. assert (W := constructed_wf h C). unfold wf_hp in W.
    destruct (hp_kind h) as [c [ws|]|c|v|lo hi log d|lo hi log d] eqn:K.
    - destruct W as (W1 & W2 & W3 & W4 & W5 & W6). destruct (C34_values_roundtrip h c w C (LV_cat _ _ _ K) Lg) as (i & v & Ni & Qi & Vi & _).
      rewrite Vi in T. injection T as <-. assert (Li : i < length c) by (apply nth_error_Some; congruence).
      assert (Wi : (0 < nth i ws 0)%Q) by (apply (Pw c ws i v K Ni); rewrite py_eqb_sym; exact Qi).
      destruct (probabilities_facts c ws W4 W5 W6) as (P1 & P2 & P3). set (p := probabilities c (Some ws)) in *.
      assert (Pi : (0 < nth i p 0)%Q).
      { unfold p, probabilities. rewrite (nth_indep _ 0%Q (0 / Qsum ws)%Q) by (rewrite map_length; lia).
        rewrite (map_nth (fun x => x / Qsum ws)%Q). apply Qlt_shift_div_l; [exact W6|]. rewrite Qmult_0_l. exact Wi. }
      assert (Si := Qsum_firstn_S p i ltac:(lia)).
      assert (S1 : (Qsum (firstn (S i) p) <= 1)%Q).
      { rewrite <- P3. rewrite <- (firstn_all p) at 2. apply Qsum_firstn_mono; [exact P2|lia]. }
      assert (S0 : (0 <= Qsum (firstn i p))%Q) by (apply (Qsum_firstn_mono p P2 0 i); lia).
      set (r := {| raw_int := 0; raw_real := Qsum (firstn i p) |}).
      assert (Ok : raw_ok h r).
      { split; [|simpl; repeat split; intros; lra]. intros k Hk. unfold hp_size in Hk. rewrite K in Hk. injection Hk as <-. simpl. lia. }
      exists r. split; [exact Ok|]. destruct (C41_weighted h c ws r C K Ok) as (j & u & Sj & Nj & A1 & A2 & _). fold p in A1, A2. simpl raw_real in A1, A2.
      rewrite Sj. assert (j = i) as ->; [|apply fsame_refl]. destruct (Nat.lt_trichotomy j i) as [Q|[Q|Q]]; [exfalso|exact Q|exfalso].
      + assert (G := Qsum_firstn_mono p P2 (S j) i ltac:(lia)). lra.
      + assert (G := Qsum_firstn_mono p P2 (S i) j ltac:(lia)). lra.
    - destruct (C34_values_roundtrip h c w C (LV_cat _ _ _ K) Lg) as (i & v & Ni & Qi & Vi & _). rewrite Vi in T. injection T as <-.
      assert (Li : i < length c) by (apply nth_error_Some; congruence).
      exists {| raw_int := Z.of_nat i; raw_real := 0 |}. split; [|unfold sample_vector; rewrite K; apply fsame_refl].
      split; [|simpl; repeat split; intros; try lra; congruence]. intros k Hk. unfold hp_size in Hk. rewrite K in Hk. injection Hk as <-. simpl. lia.
    - destruct (C34_values_roundtrip h c w C (LV_ord _ _ K) Lg) as (i & v & Ni & Qi & Vi & _). rewrite Vi in T. injection T as <-.
      assert (Li : i < length c) by (apply nth_error_Some; congruence).
      exists {| raw_int := Z.of_nat i; raw_real := 0 |}. split; [|unfold sample_vector; rewrite K; apply fsame_refl].
      split; [|simpl; repeat split; intros; try lra; congruence]. intros k Hk. unfold hp_size in Hk. rewrite K in Hk. injection Hk as <-. simpl. lia.
    - destruct (C34_constant h v w x K) as (_ & T1 & _). rewrite (T1 Lg) in T. injection T as <-.
      exists {| raw_int := 0; raw_real := 0 |}. split; [|unfold sample_vector; rewrite K; apply fsame_refl].
      split; [|simpl; repeat split; intros; try lra; congruence]. intros k Hk. unfold hp_size in Hk. rewrite K in Hk. injection Hk as <-. simpl. lia.
    - destruct W as (W1 & W2 & _). unfold exact_value in Ex. rewrite K in Ex. destruct Ex as (a & z & Na & Qa).
      unfold legal_value in Lg. rewrite K, Na in Lg. rewrite (legal_int_Z lo hi z a Qa) in Lg. apply andb_true_iff in Lg. rewrite !Z.leb_le in Lg.
      unfold to_vector in T. rewrite K, Na in T.
      rewrite unit_to_vector_fin in T by (intro l; rewrite Qa; apply inject_Z_pos; specialize (W2 l); lia). injection T as <-.
      assert (Qe : (unit_norm (inject_Z lo) (inject_Z hi) log a == enc lo hi log z)%Q) by (apply unit_norm_proper; exact Qa).
      assert (Rg : (0 <= enc lo hi log z)%Q /\ (enc lo hi log z <= 1)%Q).
      { apply unit_norm_range; [apply bounds_int; auto|intro l; apply inject_Z_pos; specialize (W2 l); lia|]. rewrite <- !Zle_Qle. exact Lg. }
      exists {| raw_int := z - lo; raw_real := enc lo hi log z |}. split.
      + split; [|simpl; repeat split; try apply Rg; intros; congruence]. intros k Hk. unfold hp_size in Hk. rewrite K in Hk. injection Hk as <-. simpl. lia.
      + unfold sample_vector. rewrite K. simpl raw_int. simpl raw_real.
        assert (D : forall l, (l = true -> (0 < lo)%Z) -> log = l -> fsame (Fin (disc_quantize lo hi l (enc lo hi log z))) (Fin (unit_norm (inject_Z lo) (inject_Z hi) log a))).
        { intros l _ <-. simpl. rewrite Qe. apply disc_fixes; auto. reflexivity. }
        destruct log.
        * destruct d; try (exfalso; apply M; exists lo, hi; eexists; split; [exact K|discriminate]). apply (D true); auto.
        * destruct d; try (apply (D false); auto; discriminate). simpl. rewrite Qe, enc_linear by auto. replace (hi - lo + 1 - 1)%Z with (hi - lo)%Z by lia. reflexivity.
    - destruct W as (W1 & _). unfold legal_value in Lg. rewrite K in Lg. unfold to_vector in T. rewrite K in T.
      destruct (num_of w) as [a|]; [|discriminate]. apply andb_true_iff in Lg. rewrite !Qle_bool_iff in Lg.
      assert (Pa : log = true -> (0 < a)%Q) by (intro l; destruct W1 as [_ W1]; specialize (W1 l); lra).
      rewrite unit_to_vector_fin in T by exact Pa. injection T as <-.
      assert (Rg := proj2 (unit_norm_range lo hi log a W1 Pa) Lg).
      exists {| raw_int := 0; raw_real := unit_norm lo hi log a |}. split; [|unfold sample_vector; rewrite K; apply fsame_refl].
      split; [|simpl; repeat split; try apply Rg; intros; congruence]. intros k Hk. unfold hp_size in Hk. rewrite K in Hk. discriminate.
  Qed.

  (** a choice of weight zero is never drawn *)
  Theorem C109_weightless h c ws i r : constructed h -> hp_kind h = KCat c (Some ws) -> i < length c -> (nth i ws 0 == 0)%Q ->
    raw_ok h r -> ~ fsame (sample_vector h r) (Fin (inject_Z (Z.of_nat i))).
  Proof.
    intros C K Li Zi Ok F. destruct (C41_weighted h c ws r C K Ok) as (j & u & Sj & Nj & _ & _ & Pj). rewrite Sj in F.
    assert (G := proj1 (inject_Z_injective _ _) F). apply Nat2Z.inj in G. subst j. clear F. assert (W := constructed_wf h C). unfold wf_hp in W. rewrite K in W.
    destruct W as (_ & _ & _ & W4 & _ & W6). unfold probabilities in Pj.
    rewrite (nth_indep _ 0%Q (0 / Qsum ws)%Q) in Pj by (rewrite map_length; lia). rewrite (map_nth (fun x => x / Qsum ws)%Q) in Pj.
    rewrite Zi in Pj. assert (0 / Qsum ws == 0)%Q by (field; lra). lra.
  Qed.

  (** some random numbers exist *)
  Lemma raw_some h : constructed h -> raw_ok h {| raw_int := 0; raw_real := 0 |}.
  Proof.
    intros C. split; [|simpl; repeat split; intros; lra]. intros k Hk. simpl. assert (W := constructed_wf h C). unfold wf_hp in W.
    unfold hp_size in Hk. destruct (hp_kind h) as [c w|c|v|lo hi log d|lo hi log d]; try discriminate; injection Hk as <-.
    - destruct c; [|simpl; lia]. exfalso. destruct W as (W & _). simpl in W. try discriminate; try lia; try congruence.
    - destruct c; [|simpl; lia]. exfalso. destruct W as (W & _). simpl in W. try discriminate; try lia; try congruence.
    - lia.
    - destruct W as (W & _). lia.
  Qed.

  Section One.
    Context {s : space} {hs : list hp} {cs : list cond} {fs : list fclause} (T : tame s hs cs fs).
    Notation io := (index_of s).
    Let O : space_ok s hs cs fs := built_ok _ _ _ _ (tm_built _ _ _ _ T).

    (** ** Switching off *)

    (** the entries of the hyperparameters that have a value are the encodings *)
    Definition covers (v : list fval) (d : assignment) : Prop :=
      forall h w, In h hs -> d (hp_name h) = Some w -> exists x, to_vector h w = Ok x /\ fsame (vget io v (hp_name h)) x.

    Lemma valid_root d h : valid hs cs fs d -> In h hs -> ~ conditional cs (hp_name h) -> d (hp_name h) <> None.
    Proof. intros V Hh Nc. apply (va_active _ _ _ _ V h Hh). intros c Hc Ha. destruct Nc. exists c. auto. Qed.

    Lemma prune_encodes v d : orderly cs -> valid hs cs fs d -> length v = s_len s -> covers v d ->
      forall h, In h hs -> encodes io (prune (s := s) v) d h.
    Proof.
      intros Or V Lv Cv. destruct T as [B R M NS Cmp].
      assert (G : forall n h i, In h hs -> assoc (hp_name h) io = Some i -> i < n -> encodes io (prune (s := s) v) d h).
      { induction n as [|n IH]; [intros; lia|]. intros h i Hh Hi Hn.
        destruct (so_hp_index O h Hh) as (i' & Hi' & Hlt & Hne & _). assert (i' = i) by congruence. subst i'.
        destruct (Properties_Change.conditional_dec O (hp_name h)) as [(c & Hc & Ha)|Nc].
        - assert (Sat : forall c, In c cs -> activates c (hp_name h) -> (sat_vec io (prune (s := s) v) c = true <-> holds d c)).
          { clear c Hc Ha. intros c Hc Ha. apply sat_vec_holds.
            - apply cond_built_good, (so_cond_built O), Hc.
            - intros l Hl. assert (Hp : In (parent_name l) (cond_parents c)) by (unfold cond_parents; apply in_map; exact Hl).
              destruct (C01_parents_first s hs cs fs c (parent_name l) (hp_name h) B Hc Ha Hp) as (i1 & j1 & I1 & J1 & Lt).
              apply (IH (l_parent l) i1); [apply (proj1 R c Hc l Hl)|exact I1|]. assert (j1 = i) by congruence. lia.
            - intros l Hl Hd. destruct (is_ne (l_test l)) eqn:Ne; [|reflexivity]. exfalso.
              destruct (l_test l) as [[] w vv|] eqn:Et; try discriminate.
              apply (valid_root d (l_parent l) V); [apply (proj1 R c Hc l Hl)|apply (NS c l w vv Hc Hl Et)|exact Hd]. }
          assert (Act : sat_vec io (prune (s := s) v) c = true <-> active cs d (hp_name h)).
          { split; [|intros A; apply (Sat c Hc Ha), (A c Hc Ha)]. intros Hs c' Hc' Ha'. apply (Sat c' Hc' Ha').
            destruct (so_declared_vec s hs cs fs O (proj1 R) (hp_name h) c Hc Ha) as (c1 & E1 & _ & _ & S1).
            destruct (so_declared_vec s hs cs fs O (proj1 R) (hp_name h) c' Hc' Ha') as (c2 & E2 & _ & _ & S2).
            assert (c1 = c2) by congruence. subst c2. rewrite <- S2, S1. exact Hs. }
          assert (P := prune_cond O v (hp_name h) c i Or (proj1 R) M Lv Hne Hc Ha).
          assert (Va := va_active _ _ _ _ V h Hh). unfold encodes. destruct (d (hp_name h)) as [w|] eqn:Ed.
          + split; [apply (va_legal _ _ _ _ V h w Hh Ed)|]. destruct (Cv h w Hh Ed) as (x & Hx & F). exists x. split; [exact Hx|].
            replace (sat_vec io (prune (s := s) v) c) with true in P by (symmetry; apply Act, Va; discriminate).
            unfold vget in *. rewrite Hi in *. rewrite P. exact F.
          + destruct (sat_vec io (prune (s := s) v) c) eqn:Es; [exfalso; apply Va; [apply Act|]; reflexivity|].
            unfold vget. rewrite Hi. exact P.
        - assert (P := prune_root O v (hp_name h) Lv Nc). assert (Nd := valid_root d h V Hh Nc). unfold encodes.
          destruct (d (hp_name h)) as [w|] eqn:Ed; [|congruence]. split; [apply (va_legal _ _ _ _ V h w Hh Ed)|].
          rewrite P. apply Cv; assumption. }
      intros h Hh. destruct (so_hp_index O h Hh) as (i & Hi & _). apply (G (S i) h i); auto.
    Qed.

    (** ... so that no clause is violated *)
    Lemma prune_allowed v d : orderly cs -> valid hs cs fs d -> exact_all hs d -> length v = s_len s -> covers v d ->
      forall f, In f fs -> forb_vec io (prune (s := s) v) f = Ok false.
    Proof.
      intros Or V Ex Lv Cv f Hf. assert (En := prune_encodes v d Or V Lv Cv). destruct T as [B R M NS Cmp].
      destruct (clause_total_ok s hs cs fs _ d f O R Cmp En Ex Hf) as [([|] & K) I]; [|exact K].
      exfalso. apply (va_forb _ _ _ _ V f Hf). apply I. exact K.
    Qed.

    (** ** A round never raises *)

    (** every entry is missing or encodes a value *)
    Definition drawn (v : list fval) : Prop :=
      forall h, In h hs -> vget io v (hp_name h) = NaN \/ exists w, entry_of h w (vget io v (hp_name h)).

    Lemma fdlcs_leaf f g : In g (fdlcs f) -> fdlcs g = [g].
    Proof.
      induction f as [h w ww|h ws wws|r a b|l IH] using fclause_ind'; simpl; try (intros [<-|[]]; reflexivity).
      rewrite Forall_forall in IH. intros H. apply in_concat in H. destruct H as (k & Hk & Hg). apply in_map_iff in Hk.
      destruct Hk as (f & <- & Hf). apply (IH f Hf Hg).
    Qed.

    Lemma drawn_total v f g : drawn v -> In f fs -> In g (fdlcs f) -> exists b, forb_vec io v g = Ok b.
    Proof.
      intros D Hf Hg. destruct T as [B R M NS Cmp]. assert (Lf := fdlcs_leaf f g Hg).
      assert (Rel : forall r a b h, In (FRel r a b) (fdlcs g) -> h = a \/ h = b -> In h hs).
      { intros r a b h Hr Hab. rewrite Lf in Hr. destruct Hr as [->|[]]. apply (proj2 R f Hf). unfold forb_hps. apply in_concat. exists [a; b].
        split; [apply in_map_iff; exists (FRel r a b); auto|]. simpl. destruct Hab; subst; auto. }
      apply forb_vec_total.
      - intros r a b Hr. rewrite Lf in Hr. destruct Hr as [->|[]]. apply (Cmp f Hf r a b Hg).
      - intros r a b h Hr Hab. assert (Hh := Rel r a b h Hr Hab). destruct (D h Hh) as [K|(w & Hl & Ex & x & Hx & F)]; [auto|]. right.
        destruct (value_roundtrip h w x (so_constructed O h Hh) Hl Ex Hx) as (w' & Tv & _).
        destruct (to_value_same h _ _ w' (fsame_sym _ _ F) Tv) as (u & Hu & _). eauto.
      - intros r a b h Hr Hab _. assert (Hh := Rel r a b h Hr Hab). destruct (D h Hh) as [K|(w & En)]; [auto|]. right.
        apply legal_vector_finite with (h := h). apply (entry_legal h w _ (so_constructed O h Hh) En).
    Qed.

    Lemma forb_mask_total n arr l : rect n arr -> length arr = s_len s -> (forall f, In f l -> In f fs) ->
      (forall j, j < n -> drawn (column arr j)) -> exists m, forb_mask io n arr l = Ok m.
    Proof.
      intros Rc La Hl D. unfold forb_mask. generalize (repeat false n). induction l as [|f l IH]; intros acc; simpl; [eauto|].
      destruct (forb_arr_total io n arr f Rc) as (m & ->).
      - intros g Hg j Hj. apply (drawn_total _ f g (D j Hj)); [apply Hl; left; reflexivity|exact Hg].
      - intros p Hp. destruct (so_index_ex O p) as (i & Hi).
        + apply (di_fnames _ _ _ _ (so_inv _ _ _ _ O) f p); [apply Hl; left; reflexivity|exact Hp].
        + exists i. split; [exact Hi|]. rewrite La. apply (so_index_lt O p i Hi).
      - cbn [bind]. apply IH. intros g Hg. apply Hl. right. exact Hg.
    Qed.

    Lemma drawn_prune v : length v = s_len s -> drawn v -> drawn (prune (s := s) v).
    Proof.
      intros Lv D h Hh. destruct (so_hp_index O h Hh) as (i & Hi & _). specialize (D h Hh). unfold vget in *. rewrite Hi in *.
      destruct (prune_or O v i Lv) as [->| ->]; auto.
    Qed.

    Lemma round_total n mat : rect n mat -> length mat = s_len s -> (forall j, j < n -> drawn (column mat j)) ->
      exists new, sample_round s n mat = Ok new.
    Proof.
      intros Rc Lm D. unfold sample_round.
      assert (Sub : forall f, In f (d_uforb (s_dag s)) \/ In f (d_cforb (s_dag s)) -> In f fs).
      { intros f Hf. eapply Permutation_in; [apply (so_forbs O)|]. unfold forbidden_clauses, d_forbs. apply in_or_app. exact Hf. }
      destruct (forb_mask_total n mat (d_uforb (s_dag s)) Rc Lm ltac:(auto) D) as (uf & Eu). rewrite Eu. cbn [bind].
      destruct (forb_mask_spec O n mat (d_uforb (s_dag s)) uf Rc Lm) as [U1 U2]; [|exact Eu|].
      { intros f p Hf. apply (forbs_keys O). unfold forbidden_clauses, d_forbs. apply in_or_app. left. exact Hf. }
      set (v0 := map (select (map negb uf)) mat). set (n1 := length (filter negb uf)).
      assert (Hn1 : n1 = length (kept (map negb uf))) by apply filter_negb_kept.
      assert (Lnu : length (map negb uf) = n) by (rewrite map_length; exact U1).
      assert (R0 : rect n1 v0) by (rewrite Hn1; apply (select_rect _ n); assumption).
      assert (L0 : length v0 = s_len s) by (unfold v0; rewrite map_length; exact Lm).
      destruct (prune_columns O n1 (d_min (s_dag s)) v0 (fun _ H => H) R0 L0) as (P1 & P2 & P3). cbv zeta in *.
      set (v1 := fold_left _ (d_min (s_dag s)) v0) in *.
      destruct (forb_mask_total n1 v1 (d_cforb (s_dag s)) P1 P2 ltac:(auto)) as (cf & ->).
      - intros j Hj. rewrite (P3 j Hj). apply drawn_prune.
        + rewrite column_length. exact L0.
        + unfold v0. rewrite (select_column _ n) by (auto; lia). apply D. rewrite <- Lnu. apply nth_kept_lt. lia.
      - cbn [bind]. eauto.
    Qed.

    (** ** Sampling *)

    Lemma matrix_drawn draw r n j : value_draws s hs draw -> j < n -> drawn (column (matrix (s := s) draw r n) j).
    Proof.
      intros VD Hj h Hh. right. destruct (so_hp_index O h Hh) as (i & Hi & Hlt & _). destruct (VD h i Hh Hi r j) as (w & x & Hl & Ex & Hx & F).
      exists w. split; [exact Hl|]. split; [exact Ex|]. exists x. split; [exact Hx|]. unfold vget. rewrite Hi, matrix_column by assumption. exact F.
    Qed.
    Lemma matrix_round draw r n : value_draws s hs draw -> exists new, sample_round s n (matrix (s := s) draw r n) = Ok new.
    Proof.
      intros VD. destruct (matrix_rect (s := s) draw r n) as [R1 R2]. apply round_total; auto. intros j Hj. apply matrix_drawn; assumption.
    Qed.

    Lemma loop_total draw : value_draws s hs draw -> forall fuel r size ss acc,
      (exists vs, sample_loop fuel s draw r size ss acc = Ok vs) \/ sample_loop fuel s draw r size ss acc = Err OutOfFuel.
    Proof.
      intros VD. induction fuel as [|fuel IH]; intros r size ss acc; cbn [sample_loop]; destruct (Nat.leb size (length acc)); eauto.
      fold (matrix (s := s) draw r (next_size s ss)). destruct (matrix_round draw r (next_size s ss) VD) as (new & ->). cbn [bind]. apply IH.
    Qed.
    Lemma configs_ok draw vs : (forall v, In v vs -> sampled (s := s) (fs := fs) draw v) ->
      exists cl, mapM (fun v => config_of_vector s v false) vs = Ok cl.
    Proof.
      induction vs as [|v vs IH]; intros Sv; simpl; [eauto|].
      destruct (Sv v (or_introl eq_refl)) as (r & n & j & _ & -> & _).
      unfold config_of_vector at 1. rewrite prune_len, column_length. destruct (matrix_rect (s := s) draw r n) as [_ ->].
      rewrite Nat.eqb_refl. cbn [bind]. destruct IH as (cl & ->); [intros v Hv; apply Sv; right; exact Hv|]. simpl. eauto.
    Qed.

    (** sampling raises nothing, whatever the draws *)
    Theorem C109_no_exception fuel draw size : value_draws s hs draw ->
      (exists l, sample_configuration fuel s draw size = Ok l) \/ sample_configuration fuel s draw size = Err OutOfFuel.
    Proof.
      intros VD. unfold sample_configuration. destruct (Nat.eqb_spec (s_len s) 0) as [Z0|Z0].
      - left. assert (G : forall n, exists l, mapM (fun _ : unit => config_of_vector s [] false) (repeat tt n) = Ok l); [|apply G].
        induction n as [|n (l & IH)]; simpl; [eauto|]. unfold config_of_vector at 1. simpl. rewrite Z0. simpl. rewrite IH. simpl. eauto.
      - cbv zeta. set (k := match size with None => 1%Z | Some k => k end). destruct (Z.ltb_spec k 1) as [K|K]; [eauto|].
        destruct (loop_total draw VD fuel 0 (Z.to_nat k) (Z.to_nat k) []) as [(vs & Hs)|Hs]; rewrite Hs; cbn [bind]; [|auto]. left.
        destruct (loop_spec O _ draw _ _ _ _ vs (fun v (F : In v []) => match F with end) Hs) as [Sv _].
        destruct (configs_ok draw vs Sv) as (cl & ->). cbn [bind]. eauto.
    Qed.

    (** a column that covers a valid assignment is accepted *)
    Lemma round_accepts draw r n j d : orderly cs -> value_draws s hs draw -> valid hs cs fs d -> exact_all hs d -> j < n ->
      covers (column (matrix (s := s) draw r n) j) d -> exists new, sample_round s n (matrix (s := s) draw r n) = Ok new /\
        In (prune (s := s) (column (matrix (s := s) draw r n) j)) new.
    Proof.
      intros Or VD V Ex Hj Cv. destruct (matrix_round draw r n VD) as (new & Hn). exists new. split; [exact Hn|].
      destruct (matrix_rect (s := s) draw r n) as [R1 R2]. rewrite (round_spec O n _ new R1 R2 Hn).
      assert (Lv : length (column (matrix (s := s) draw r n) j) = s_len s) by (rewrite column_length; exact R2).
      assert (Al := prune_allowed _ d Or V Ex Lv Cv).
      assert (Sub : forall f, In f (d_uforb (s_dag s)) \/ In f (d_cforb (s_dag s)) -> In f fs).
      { intros f Hf. eapply Permutation_in; [apply (so_forbs O)|]. unfold forbidden_clauses, d_forbs. apply in_or_app. exact Hf. }
      apply filter_In. split; [|apply okf_iff; auto]. apply in_map. apply filter_In. split.
      - apply in_map. apply in_seq. lia.
      - rewrite <- (okf_prune O _ Lv). apply okf_iff. auto.
    Qed.

    (** the draws of some column in this round give a valid configuration *)
    Definition lucky (draw : nat -> nat -> nat -> fval) (r : nat) : Prop :=
      exists j d, j < 5 /\ valid hs cs fs d /\ exact_all hs d /\
        forall h i w, In h hs -> assoc (hp_name h) io = Some i -> d (hp_name h) = Some w -> exists x, to_vector h w = Ok x /\ fsame (draw r i j) x.

    Lemma lucky_round draw r n : orderly cs -> value_draws s hs draw -> lucky draw r -> 5 <= n ->
      exists new, sample_round s n (matrix (s := s) draw r n) = Ok new /\ new <> [].
    Proof.
      intros Or VD (j & d & Hj & V & Ex & Cv) Hn. destruct (round_accepts draw r n j d Or VD V Ex ltac:(lia)) as (new & Hs & Hi).
      - intros h w Hh Hd. destruct (so_hp_index O h Hh) as (i & Hi & Hlt & _). destruct (Cv h i w Hh Hi Hd) as (x & Hx & F).
        exists x. split; [exact Hx|]. unfold vget. rewrite Hi, matrix_column by (auto; lia). exact F.
      - exists new. split; [exact Hs|]. intros ->. destruct Hi.
    Qed.

    Lemma loop_stops draw : orderly cs -> value_draws s hs draw -> (forall r, exists r', r <= r' /\ lucky draw r') ->
      forall k r size ss acc, size <= k + length acc -> exists fuel vs, sample_loop fuel s draw r size ss acc = Ok vs.
    Proof.
      intros Or VD F. induction k as [|k IH]; intros r size ss acc Hk.
      - exists 0. cbn [sample_loop]. replace (Nat.leb size (length acc)) with true by (symmetry; apply Nat.leb_le; lia). eauto.
      - destruct (F r) as (r' & Hr & Lk). remember (r' - r) as m eqn:Em. revert r ss acc Hk Hr Em. induction m as [|m IHm]; intros r ss acc Hk Hr Em.
        + assert (r' = r) by lia. subst r'. destruct (Nat.leb size (length acc)) eqn:El; [exists 0; cbn [sample_loop]; rewrite El; eauto|].
          destruct (lucky_round draw r (next_size s ss) Or VD Lk) as (new & Hn & Nn); [unfold next_size; lia|].
          destruct (IH (S r) size (size - length (acc ++ new)) (acc ++ new)) as (fuel & vs & Hv).
          { rewrite app_length. destruct new; [congruence|]. simpl. lia. }
          exists (S fuel), vs. cbn [sample_loop]. rewrite El. fold (matrix (s := s) draw r (next_size s ss)). rewrite Hn. cbn [bind]. exact Hv.
        + destruct (Nat.leb size (length acc)) eqn:El; [exists 0; cbn [sample_loop]; rewrite El; eauto|].
          destruct (matrix_round draw r (next_size s ss) VD) as (new & Hn).
          destruct (IHm (S r) (size - length (acc ++ new)) (acc ++ new)) as (fuel & vs & Hv); [rewrite app_length; lia|lia|lia|].
          exists (S fuel), vs. cbn [sample_loop]. rewrite El. fold (matrix (s := s) draw r (next_size s ss)). rewrite Hn. cbn [bind]. exact Hv.
    Qed.
  End One.

  (** With forbidden clauses, sampling stops if again and again the draws for some column give a
      valid configuration.  Missing: spaces that are not tame or not orderly. *)
  Theorem C109_stops_partial s hs cs fs draw size : tame s hs cs fs -> orderly cs -> value_draws s hs draw ->
    (forall r, exists r', r <= r' /\ lucky (s := s) (hs := hs) (cs := cs) (fs := fs) draw r') ->
    exists fuel l, sample_configuration fuel s draw size = Ok l.
  Proof.
    intros T Or VD F. assert (O := built_ok _ _ _ _ (tm_built _ _ _ _ T)). unfold sample_configuration. destruct (Nat.eqb_spec (s_len s) 0) as [Z0|Z0].
    - exists 0. assert (G : forall n, exists l, mapM (fun _ : unit => config_of_vector s [] false) (repeat tt n) = Ok l); [|apply G].
      induction n as [|n (l & IH)]; simpl; [eauto|]. unfold config_of_vector at 1. simpl. rewrite Z0. simpl. rewrite IH. simpl. eauto.
    - cbv zeta. set (k := match size with None => 1%Z | Some k => k end). destruct (Z.ltb_spec k 1) as [K|K]; [exists 0; eauto|].
      destruct (loop_stops T draw Or VD F (Z.to_nat k) 0 (Z.to_nat k) (Z.to_nat k) []) as (fuel & vs & Hs); [simpl; lia|].
      exists fuel. rewrite Hs. cbn [bind]. destruct (loop_spec O _ draw _ _ _ _ vs (fun v (F : In v []) => match F with end) Hs) as [Sv _].
      destruct (configs_ok draw vs Sv) as (cl & ->). cbn [bind]. eauto.
  Qed.

  (** ** Every valid assignment is sampled for some random numbers.

      Missing: spaces that are not tame or not orderly, and normal or beta integers on a
      logarithmic scale.  Values of weight zero are never drawn (C109_weightless). *)
  Definition draws_of (s : space) (raws : nat -> nat -> nat -> raw) (r i j : nat) : fval :=
    match hp_at s i with Some h => sample_vector h (raws r i j) | None => NaN end.

  Theorem C109_reached_partial s hs cs fs d : tame s hs cs fs -> orderly cs -> hs <> [] -> (forall h, In h hs -> ~ mismatched h) ->
    valid hs cs fs d -> exact_all hs d -> (forall h w, In h hs -> d (hp_name h) = Some w -> has_weight h w) ->
    exists raws c, (forall h i r j, In h hs -> assoc (hp_name h) (index_of s) = Some i -> raw_ok h (raws r i j)) /\
      sample_configuration 1 s (draws_of s raws) None = Ok [c] /\ represents s hs c d.
  Proof.
    intros T Or Nh Mm V Ex Hw. assert (O := built_ok _ _ _ _ (tm_built _ _ _ _ T)).
    assert (G : exists g : nat -> raw, forall h i, In h hs -> assoc (hp_name h) (index_of s) = Some i ->
      raw_ok h (g i) /\ forall w, d (hp_name h) = Some w -> exists x, to_vector h w = Ok x /\ fsame (sample_vector h (g i)) x).
    { assert (One : forall h, In h hs -> exists r, raw_ok h r /\ forall w, d (hp_name h) = Some w -> exists x, to_vector h w = Ok x /\ fsame (sample_vector h r) x).
      { intros h Hh. assert (C := so_constructed O h Hh). destruct (d (hp_name h)) as [w|] eqn:Ed.
        - assert (Lg := va_legal _ _ _ _ V h w Hh Ed). destruct (legal_finite h w C Lg) as (q & Hq).
          destruct (C109_value_partial h w (Fin q) C (Mm h Hh) Lg (Ex h w Hh Ed) (Hw h w Hh Ed) Hq) as (r & R1 & R2).
          exists r. split; [exact R1|]. intros w' Q. injection Q as <-. eauto.
        - exists {| raw_int := 0; raw_real := 0 |}. split; [apply raw_some; exact C|]. discriminate. }
      assert (Nth : forall n, exists g : nat -> raw, forall h i, In h hs -> assoc (hp_name h) (index_of s) = Some i -> i < n ->
        raw_ok h (g i) /\ forall w, d (hp_name h) = Some w -> exists x, to_vector h w = Ok x /\ fsame (sample_vector h (g i)) x).
      { induction n as [|n (g & IH)]; [exists (fun _ => {| raw_int := 0; raw_real := 0 |}); intros; lia|].
        destruct (nth_error (keys s) n) as [m|] eqn:En.
        - destruct (so_name_hp O m) as (h & Hh & <-); [eapply nth_error_In; eauto|]. destruct (One h Hh) as (r & Hr).
          exists (fun i => if Nat.eqb i n then r else g i). intros h' i Hh' Hi Lt. destruct (Nat.eqb_spec i n) as [->|Ne]; [|apply IH; auto; lia].
          apply (so_index O) in En. assert (h' = h) as ->; [|exact Hr].
          apply (so_index O) in En. apply (so_index O) in Hi. apply (same_hp hs); auto using (so_names_nodup O). congruence.
        - exists g. intros h i Hh Hi Lt. apply IH; auto. apply (so_index O) in Hi. assert (i <> n) by congruence. lia. }
      destruct (Nth (s_len s)) as (g & Hg). exists g. intros h i Hh Hi. apply Hg; auto. apply (so_index_lt O _ _ Hi). }
    destruct G as (g & Hg). set (raws := fun r i j : nat => g i).
    assert (Dr : forall h i, In h hs -> assoc (hp_name h) (index_of s) = Some i -> forall r j, raw_ok h (raws r i j) /\ draws_of s raws r i j = sample_vector h (raws r i j)).
    { intros h i Hh Hi r j. split; [apply (Hg h i Hh Hi)|]. unfold draws_of. destruct (so_hp_index O h Hh) as (i' & Hi' & _ & _ & Hat).
      assert (i' = i) by congruence. subst i'. rewrite Hat. reflexivity. }
    assert (VD : value_draws s hs (draws_of s raws)).
    { apply (C41_draws_partial s hs raws); auto. apply Forall_forall. intros h Hh. apply (so_constructed O h Hh). }
    assert (Cv : forall r n j, j < n -> covers (s := s) (hs := hs) (column (matrix (s := s) (draws_of s raws) r n) j) d).
    { intros r n j Hj h w Hh Hd. destruct (so_hp_index O h Hh) as (i & Hi & Hlt & _). destruct (proj2 (Hg h i Hh Hi) w Hd) as (x & Hx & F).
      exists x. split; [exact Hx|]. unfold vget. rewrite Hi, matrix_column by assumption. rewrite (proj2 (Dr h i Hh Hi r j)). exact F. }
    assert (Z0 : s_len s <> 0). { destruct hs as [|h0 hs0]; [congruence|]. destruct (so_hp_index O h0 (or_introl eq_refl)) as (i & _ & K & _). lia. }
    destruct (round_accepts T (draws_of s raws) 0 (next_size s 1) 0 d Or VD V Ex) as (new & Hn & Hi); [unfold next_size; lia|apply Cv; unfold next_size; lia|].
    assert (Sl : sample_loop 1 s (draws_of s raws) 0 1 1 [] = Ok new).
    { cbn [sample_loop length]. fold (matrix (s := s) (draws_of s raws) 0 (next_size s 1)). cbn [Nat.leb]. rewrite Hn. cbn [bind app].
      destruct new as [|v0 new]; [destruct Hi|]. reflexivity. }
    destruct (loop_spec O _ _ _ _ _ _ new (fun v (F : In v []) => match F with end) Sl) as [Sv Ln].
    destruct (configs_ok (draws_of s raws) new Sv) as (cl & Hc).
    destruct new as [|v0 new]; [destruct Hi|]. simpl in Hc.
    destruct (config_of_vector s v0 false) as [c0|] eqn:E0; [|discriminate]. cbn [bind] in Hc.
    destruct (mapM (fun v => config_of_vector s v false) new) as [cl0|] eqn:E1; [|discriminate]. cbn [bind] in Hc. injection Hc as <-.
    exists raws, c0. split; [|split].
    - intros h i r j Hh Hi0. apply (Hg h i Hh Hi0).
    - unfold sample_configuration. destruct (Nat.eqb_spec (s_len s) 0); [contradiction|]. change (Z.to_nat 1) with 1. cbn [Z.ltb Z.compare].
      change (1 <? 1)%Z with false. cbv iota. rewrite Sl. cbn [bind mapM]. rewrite E0. cbn [bind]. rewrite E1. reflexivity.
    - destruct (Sv v0 (or_introl eq_refl)) as (r & n & j & Hj & -> & _). unfold config_of_vector in E0.
      rewrite prune_len, column_length in E0. destruct (matrix_rect (s := s) (draws_of s raws) r n) as [_ R2]. rewrite R2, Nat.eqb_refl in E0.
      injection E0 as <-. assert (Lv : length (column (matrix (s := s) (draws_of s raws) r n) j) = s_len s) by (rewrite column_length; exact R2).
      split; [simpl; rewrite prune_len; exact Lv|]. simpl. intros h Hh. apply (prune_encodes T _ d Or V Lv (Cv r n j Hj) h Hh).
  Qed.

  (** ** ... and only those: the sampled configurations are exactly the valid assignments without
      values of weight zero *)
  Theorem C109_exactly_partial s hs cs fs d : tame s hs cs fs -> orderly cs -> hs <> [] -> (forall h, In h hs -> ~ mismatched h) ->
    exact_all hs d ->
    ((exists raws c, (forall h i r j, In h hs -> assoc (hp_name h) (index_of s) = Some i -> raw_ok h (raws r i j)) /\
        sample_configuration 1 s (draws_of s raws) None = Ok [c] /\ represents s hs c d) <->
     valid hs cs fs d /\ forall h w, In h hs -> d (hp_name h) = Some w -> has_weight h w).
  Proof.
    intros T Or Nh Mm Ex. split; [|intros [V Hw]; apply (C109_reached_partial s hs cs fs d T Or Nh Mm V Ex Hw)].
    intros (raws & c & Rok & Hs & Rp). assert (T' := T). destruct T' as [B R M NS Cmp]. assert (O := built_ok _ _ _ _ B).
    assert (Dr : forall h i, In h hs -> assoc (hp_name h) (index_of s) = Some i -> forall r j, raw_ok h (raws r i j) /\ draws_of s raws r i j = sample_vector h (raws r i j)).
    { intros h i Hh Hi r j. split; [apply (Rok h i r j Hh Hi)|]. unfold draws_of. destruct (so_hp_index O h Hh) as (i' & Hi' & _ & _ & Hat).
      assert (i' = i) by congruence. subst i'. rewrite Hat. reflexivity. }
    assert (VD : value_draws s hs (draws_of s raws)).
    { apply (C41_draws_partial s hs raws); auto. apply Forall_forall. intros h Hh. apply (so_constructed O h Hh). }
    assert (LD : legal_draws s hs (draws_of s raws)).
    { intros h i Hh Hi r j. destruct (VD h i Hh Hi r j) as (w & x & Lw & Ew & Hx & F). rewrite (legal_vector_same h _ _ F).
      apply (exact_legal_vector h w x (so_constructed O h Hh) Lw Ew Hx). }
    destruct (C23_accepted_partial s hs cs fs _ _ _ _ c B R M Or LD Hs (or_introl eq_refl)) as [Ck _].
    assert (En := represents_encodes c d Rp).
    destruct (proj1 (encodes_check O (c_vector c) d false R M NS En Ex) Ck) as (V1 & V2 & V3). split.
    - constructor; [|split; [apply V2; auto|apply V1; assumption]|exact V3].
      intros h w Hh Hd. specialize (En h Hh). unfold encodes in En. rewrite Hd in En. apply En.
    - intros h w Hh Hd c0 ws i v K Ni Qi. destruct (Qlt_le_dec 0%Q (nth i ws 0%Q)) as [P|P]; [exact P|exfalso].
      assert (C := so_constructed O h Hh). assert (W := constructed_wf h C). unfold wf_hp in W. rewrite K in W.
      destruct W as (W1 & W2 & W3 & W4 & W5 & W6). assert (Li : i < length c0) by (apply nth_error_Some; congruence).
      assert (Z0 : (nth i ws 0 == 0)%Q). { rewrite Forall_forall in W5. assert (Lw : i < length ws) by lia. assert (N := W5 (nth i ws 0%Q) (nth_In ws 0%Q Lw)). lra. }
      specialize (En h Hh). unfold encodes in En. rewrite Hd in En. destruct En as (Lw & x & Hx & F).
      destruct (C34_values_roundtrip h c0 w C (LV_cat _ _ _ K) Lw) as (i' & v' & Ni' & Qi' & Tv & _).
      assert (i' = i) by (apply (has_dup_nth c0 i' i v' v W2 Ni' Ni), (py_eqb_trans _ w); assumption). subst i'.
      rewrite Tv in Hx. injection Hx as <-. destruct (so_hp_index O h Hh) as (k & Hk & _). unfold vget in F. rewrite Hk in F.
      destruct (C23_entries s hs cs fs _ _ _ _ c h k B Hs (or_introl eq_refl) Hh Hk) as [(r & j & Q)|[_ Q]].
      + rewrite Q, (proj2 (Dr h k Hh Hk r j)) in F. exact (C109_weightless h c0 ws i _ C K Li Z0 (Rok h k r j Hh Hk) F).
      + rewrite Q in F. exact F.
  Qed.
End Reach.

Section ReachCases.
  #[local] Existing Instance rat_env.

  (** the hypotheses of C109 and their conclusion for a configuration of the three-level space *)
  Example C109_ex : tame lev_space ex_hps lev_conds ex_forbs /\ orderly lev_conds /\ ex_hps <> [] /\ (forall h, In h ex_hps -> ~ mismatched h) /\
    exists d, valid ex_hps lev_conds ex_forbs d /\ exact_all ex_hps d /\ d "g"%string = Some (VStr "p") /\ d "c"%string = Some (VInt 3) /\
      d "k"%string <> None /\ forall h w, In h ex_hps -> d (hp_name h) = Some w -> has_weight h w.
  Proof.
    destruct C20_ex as (C1 & C2 & _ & C4 & C5 & _). split; [exact C1|]. split; [exact C2|]. split; [discriminate|]. split.
    - intros h Hh (lo & hi & d & K & D). repeat (destruct Hh as [<-|Hh]; [vm_compute in K; try discriminate K; injection K as <- <- <-; apply D; reflexivity|]). destruct Hh.
    - exists (store ex_hps (given ex_vals)). split; [exact C4|]. split; [exact C5|]. split; [vm_compute; reflexivity|]. split; [vm_compute; reflexivity|].
      split; [vm_compute; discriminate|]. intros h w Hh Hw c ws i v K Ni Qi.
      do 6 (destruct Hh as [<-|Hh]; [vm_compute in K; discriminate K|]).
      destruct Hh as [<-|Hh]; [|do 2 (destruct Hh as [<-|Hh]; [vm_compute in K; discriminate K|]); destruct Hh].
      vm_compute in K. injection K as <- <-. destruct i as [|[|i]]; [vm_compute; reflexivity|vm_compute; reflexivity|destruct i; discriminate Ni].
  Qed.

  (** the last choice of g, of probability 1/4, is drawn for the number 3/4; a weightless choice is not *)
  Example C109_value_ex : raw_ok hG {| raw_int := 0; raw_real := 3#4 |} /\ sample_vector hG {| raw_int := 0; raw_real := 3#4 |} = Fin 1 /\
    sample_vector hG {| raw_int := 0; raw_real := 74#100 |} = Fin 0.
  Proof.
    split; [|split; vm_compute; reflexivity]. split; [|simpl; repeat split; try discriminate; reflexivity].
    intros k Hk. vm_compute in Hk. injection Hk as <-. simpl. lia.
  Qed.

  (** sampling stops for these draws although a clause forbids some of them *)
  Example C109_lucky_ex : forall r, exists r', r <= r' /\ lucky (s := lev_space) (hs := ex_hps) (cs := lev_conds) (fs := ex_forbs)
    (fun r i j => if Nat.even r then ex_draw lev_space 0 i 1 else nth i (c_vector lev_config) NaN) r'.
  Proof.
    intros r. exists (S (2 * r)). split; [lia|]. destruct C20_ex as (C1 & C2 & C3 & C4 & C5 & _). assert (LA := rat_env_laws).
    exists 0, (store ex_hps (given ex_vals)). split; [lia|]. split; [exact C4|]. split; [exact C5|].
    intros h i w Hh Hi Hw. rewrite Nat.even_succ, Nat.odd_mul. cbn [Nat.odd Nat.even negb andb].
    assert (En := represents_encodes lev_config _ C3 h Hh). unfold encodes in En. rewrite Hw in En. destruct En as (_ & x & Hx & F).
    exists x. split; [exact Hx|]. unfold vget in F. rewrite Hi in F. exact F.
  Qed.

  (** ** The full statement is false: a choice of weight zero is valid but never sampled *)
  Definition zero_hp := get_or dummy_hp (mk_categorical "w" (xs ["p"; "q"]%string) None (Some [1%Q; 0%Q]) None).
  Definition zero_space := fst (add empty_space [zero_hp] [] []).
  Lemma zero_c : constructed zero_hp.
  Proof. apply (CtorCat "w" (xs ["p"; "q"]%string) None (Some [1%Q; 0%Q]) None zero_hp); vm_compute; reflexivity. Qed.
  Lemma zero_tame : tame zero_space [zero_hp] [] [].
  Proof.
    constructor; [|split; [intros c []|intros f []]|intros c d v []|intros c l w vv []|intros f []].
    apply (built_step empty_space [] [] [] [zero_hp] [] [] built_empty); [constructor; [exact zero_c|constructor]|constructor|constructor|vm_compute; reflexivity].
  Qed.
  Theorem C109_refuted : exists s hs cs fs d, tame s hs cs fs /\ orderly cs /\ valid hs cs fs d /\ exact_all hs d /\
    ~ exists raws c, (forall h i r j, In h hs -> assoc (hp_name h) (index_of s) = Some i -> raw_ok h (raws r i j)) /\
        sample_configuration 1 s (draws_of s raws) None = Ok [c] /\ represents s hs c d.
  Proof.
    assert (LA := rat_env_laws). assert (Or : orderly []) by (apply (C20_guard_single _ _ _ _ (tm_built _ _ _ _ zero_tame) (tm_refs _ _ _ _ zero_tame)); intros c p p' []).
    exists zero_space, [zero_hp], [], [], (given [("w"%string, Some (VStr "q"))]).
    assert (Ex : exact_all [zero_hp] (given [("w"%string, Some (VStr "q"))])) by (intros h w [<-|[]] _; exact I).
    split; [exact zero_tame|]. split; [exact Or|]. split; [|split; [exact Ex|]].
    - constructor; [| |intros f []].
      + intros h w [<-|[]] Hw. vm_compute in Hw. injection Hw as <-. vm_compute. reflexivity.
      + intros h [<-|[]]. vm_compute. split; [intros _ c []|discriminate].
    - intros H. apply (C109_exactly_partial zero_space [zero_hp] [] [] _ zero_tame Or) in H; [|discriminate| |exact Ex].
      + destruct H as [_ H]. specialize (H zero_hp (VStr "q") (or_introl eq_refl) eq_refl (xs ["p"; "q"]%string) [1%Q; 0%Q] 1 (VStr "q") eq_refl eq_refl eq_refl).
        vm_compute in H. discriminate H.
      + intros h [<-|[]] (lo & hi & d & K & _). vm_compute in K. discriminate K.
  Qed.
End ReachCases.
