(** * Property C110: the density of a value is the probability with which it is sampled *)
From Coq Require Import String List ZArith QArith Qround Bool Lia Lqa.
From Verif Require Import Base ListFacts Numeric NumericProofs HP HPProofs Properties_HP Properties_Size Spec Ex
  Dist DistProofs Properties_Dist Array Properties_Array Properties_Reach.
Import ListNotations.
Open Scope Z_scope.

(** The random numbers are uniform: [raw_int] over the integers below the size, [raw_real] over the
    unit interval (except for normal and beta hyperparameters).  So the probability of a value is
    the number of integers that give it, divided by the size, or the length of the interval of
    real numbers that give it. *)
Section Mass.
  Context {E : Env} {L : EnvLaws E}.

  (** one integer of [k] draws the value, whose density is 1/k *)
  Theorem C110_counted_partial h f k v : constructed h -> hp_size h = Some k ->
    (forall c w, hp_kind h <> KCat c (Some w)) -> (forall u, hp_kind h <> KConst u) -> (forall lo hi log d, hp_kind h = KInt lo hi log d -> log = false /\ d = DUniform) ->
    In v (options h) -> exists n x p, 0 <= n < k /\ to_vector h v = Ok x /\ pdf_value h f v = Ok p /\ (p == 1 / inject_Z k)%Q /\
      forall r, raw_ok h r -> (fsame (sample_vector h r) x <-> raw_int r = n).
  Proof.
    intros C S NW NC NI Hv. assert (W := constructed_wf h C). unfold wf_hp in W. unfold options in Hv.
    assert (G : forall s, lists_values h s -> In v s -> (forall r, sample_vector h r = Fin (inject_Z (raw_int r))) -> k = Z.of_nat (length s) ->
      exists n x p, 0 <= n < k /\ to_vector h v = Ok x /\ pdf_value h f v = Ok p /\ (p == 1 / inject_Z k)%Q /\
        forall r, raw_ok h r -> (fsame (sample_vector h r) x <-> raw_int r = n)).
    { intros s LV Hs Sv ->. apply In_nth_error in Hs. destruct Hs as (i & Ni). assert (Li : (i < length s)%nat) by (apply nth_error_Some; congruence).
      destruct (C34_vectors_roundtrip h s i C LV Li) as (w & _ & N' & _ & T). assert (w = v) by congruence. subst w.
      destruct (seq_pdf h s f i v C LV Ni) as (p & P & Q). exists (Z.of_nat i), (Fin (inject_Z (Z.of_nat i))), p.
      split; [lia|]. split; [exact T|]. split; [exact P|]. split.
      - destruct (hp_kind h) as [c [w|]| | | |] eqn:K; try exact Q. destruct (NW c w eq_refl).
      - intros r _. rewrite Sv. simpl fsame. rewrite inject_Z_injective. tauto. }
    unfold hp_size in S. destruct (hp_kind h) as [c [ws|]|c|u|lo hi log d|] eqn:K; try discriminate; try (injection S as <-).
    - destruct (NW c ws eq_refl).
    - apply (G c); [apply (LV_cat _ _ _ K)|exact Hv|intro r; unfold sample_vector; rewrite K; reflexivity|reflexivity].
    - apply (G c); [apply (LV_ord _ _ K)|exact Hv|intro r; unfold sample_vector; rewrite K; reflexivity|reflexivity].
    - destruct (NC u eq_refl).
    - destruct (NI lo hi log d eq_refl) as [-> ->]. destruct W as (W1 & _). apply in_map_iff in Hv. destruct Hv as (z & <- & Hz). clear G.
      assert (Rz : lo <= z <= hi). { apply zseq_in in Hz. lia. }
      destruct (C47_uniform_partial h (fun _ => 1%Q) (hi - lo + 1) (VInt z) C) as (p & P & Q).
      + unfold hp_size. rewrite K. reflexivity.
      + intros (lo' & hi' & log' & d' & K' & D'). congruence.
      + intros q _ _. reflexivity.
      + intros c w. congruence.
      + unfold options. rewrite K. apply in_map_iff. eauto.
      + exists (z - lo), (Fin (unit_norm (inject_Z lo) (inject_Z hi) false (inject_Z z))), p.
        assert (Tv : to_vector h (VInt z) = Ok (Fin (unit_norm (inject_Z lo) (inject_Z hi) false (inject_Z z)))).
        { unfold to_vector. rewrite K. simpl num_of. cbv iota. rewrite unit_to_vector_fin by discriminate. reflexivity. }
        split; [lia|]. split; [exact Tv|]. split; [|split; [exact Q|]].
        * unfold pdf_value in *. rewrite Tv in *. cbn [bind] in *. unfold pdf_vector, dist_pdf in *. rewrite K in *. exact P.
        * intros r _. unfold sample_vector. rewrite K. unfold fsame. fold (enc lo hi false z). rewrite enc_linear by auto.
          replace (hi - lo + 1 - 1) with (hi - lo) by lia. assert (Ps := size_pos lo hi W1).
          split.
          -- intros Q0. apply inject_Z_injective. assert (Q1 : (inject_Z (raw_int r) / inject_Z (hi - lo) * inject_Z (hi - lo) == inject_Z (z - lo) / inject_Z (hi - lo) * inject_Z (hi - lo))%Q) by (rewrite Q0; reflexivity).
             assert (R1 : (inject_Z (raw_int r) / inject_Z (hi - lo) * inject_Z (hi - lo) == inject_Z (raw_int r))%Q) by (field; lra).
             assert (R2 : (inject_Z (z - lo) / inject_Z (hi - lo) * inject_Z (hi - lo) == inject_Z (z - lo))%Q) by (field; lra). lra.
          -- intros ->. reflexivity.
  Qed.

  (** the numbers that draw a choice with a weight form an interval of length its density *)
  Theorem C110_weighted h c ws f i v : constructed h -> hp_kind h = KCat c (Some ws) -> nth_error c i = Some v ->
    exists p a x, to_vector h v = Ok x /\ pdf_value h f v = Ok p /\ (0 <= a)%Q /\ (0 <= p)%Q /\ (a + p <= 1)%Q /\
      forall r, raw_ok h r -> (fsame (sample_vector h r) x <-> (a <= raw_real r)%Q /\ (raw_real r < a + p)%Q).
  Proof.
    intros C K Ni. assert (W := constructed_wf h C). unfold wf_hp in W. rewrite K in W. destruct W as (W1 & W2 & W3 & W4 & W5 & W6).
    assert (Li : (i < length c)%nat) by (apply nth_error_Some; congruence).
    destruct (seq_pdf h c f i v C (LV_cat _ _ _ K) Ni) as (p & P & Q). rewrite K in Q.
    destruct (C34_vectors_roundtrip h c i C (LV_cat _ _ _ K) Li) as (w & _ & N' & _ & T). assert (w = v) by congruence. subst w.
    destruct (probabilities_facts c ws W4 W5 W6) as (P1 & P2 & P3). set (pr := probabilities c (Some ws)) in *.
    assert (Si := Qsum_firstn_S pr i ltac:(lia)).
    assert (S1 : (Qsum (firstn (S i) pr) <= 1)%Q). { rewrite <- P3. rewrite <- (firstn_all pr) at 2. apply Qsum_firstn_mono; [exact P2|lia]. }
    assert (S0 : (0 <= Qsum (firstn i pr))%Q) by (apply (Qsum_firstn_mono pr P2 0 i); lia).
    assert (Pp : (0 <= p)%Q). { rewrite Q. rewrite Forall_forall in P2. apply P2, nth_In. lia. }
    exists p, (Qsum (firstn i pr)), (Fin (inject_Z (Z.of_nat i))). split; [exact T|]. split; [exact P|]. split; [exact S0|]. split; [exact Pp|].
    split; [lra|]. intros r R. destruct (C41_weighted h c ws r C K R) as (j & u & Sj & Nj & A1 & A2 & _). fold pr in A1, A2. rewrite Sj.
    unfold fsame. rewrite inject_Z_injective, Nat2Z.inj_iff. split; [intros ->; lra|]. intros [B1 B2].
    destruct (Nat.lt_trichotomy j i) as [D|[D|D]]; [exfalso|exact D|exfalso].
    - assert (G := Qsum_firstn_mono pr P2 (S j) i ltac:(lia)). lra.
    - assert (G := Qsum_firstn_mono pr P2 (S i) j ltac:(lia)). lra.
  Qed.

  (** a constant is always drawn *)
  Theorem C110_constant h f v : constructed h -> hp_kind h = KConst v -> exists x, to_vector h v = Ok x /\ pdf_value h f v = Ok 1%Q /\
    forall r, fsame (sample_vector h r) x.
  Proof.
    intros C K. destruct (C34_constant h v v (Fin 1) K) as (T0 & T & _). specialize (T (proj2 T0 (py_eqb_refl v))).
    exists (Fin 1). split; [exact T|]. split; [|intros r; unfold sample_vector; rewrite K; simpl; reflexivity].
    unfold pdf_value. rewrite T. cbn [bind]. unfold pdf_vector, dist_pdf, legal_vector_array. rewrite K. reflexivity.
  Qed.

  (** uniform floats: the numbers that draw a value between [c] and [d] form an interval of length
      density times d - c *)
  Theorem C110_float_partial h f lo hi c d : constructed h -> hp_kind h = KFloat lo hi false DUniform ->
    (lo <= c)%Q -> (c <= d)%Q -> (d <= hi)%Q ->
    exists a b p, (0 <= a)%Q /\ (a <= b)%Q /\ (b <= 1)%Q /\ (forall e, (c <= e)%Q -> (e <= d)%Q -> exists pe, pdf_value h f (VFloat e) = Ok pe /\ (pe == p)%Q) /\ (b - a == p * (d - c))%Q /\
      forall r q, sample_vector h r = Fin q -> ((c <= lo + q * (hi - lo))%Q /\ (lo + q * (hi - lo) <= d)%Q <-> (a <= raw_real r)%Q /\ (raw_real r <= b)%Q).
  Proof.
    intros C K H1 H2 H3. assert (W := constructed_wf h C). unfold wf_hp in W. rewrite K in W. destruct W as ((W1 & _) & _).
    exists ((c - lo) / (hi - lo))%Q, ((d - lo) / (hi - lo))%Q, (1 / (hi - lo))%Q.
    assert (Ps : (0 < hi - lo)%Q) by lra.
    assert (Pdf : forall e, (c <= e)%Q -> (e <= d)%Q -> exists pe, pdf_value h f (VFloat e) = Ok pe /\ (pe == 1 / (hi - lo))%Q).
    { intros e E1 E2. destruct (C96_uniform h f lo hi false (VFloat e) e C K eq_refl) as (p & P & Q). exists p. split; [exact P|].
      replace (legal_value h (VFloat e)) with true in Q; [exact Q|]. symmetry. unfold legal_value. rewrite K. simpl.
      apply andb_true_iff. rewrite !Qle_bool_iff. lra. }
    split; [apply Qle_shift_div_l; lra|]. split; [apply Qle_shift_div_l; [lra|]; assert (Q : ((c - lo) / (hi - lo) * (hi - lo) == c - lo)%Q) by (field; lra); lra|].
    split; [apply Qle_shift_div_r; lra|]. split; [exact Pdf|]. split; [field; lra|].
    intros r q Hq. unfold sample_vector in Hq. rewrite K in Hq. injection Hq as <-.
    assert (X : forall u v : Q, ((v - lo) / (hi - lo) <= u)%Q <-> (v <= lo + u * (hi - lo))%Q).
    { intros u v. split; intros Q.
      - assert (Q1 : ((v - lo) / (hi - lo) * (hi - lo) <= u * (hi - lo))%Q) by (apply Qmult_le_r; assumption).
        assert (Q2 : ((v - lo) / (hi - lo) * (hi - lo) == v - lo)%Q) by (field; lra). lra.
      - apply Qle_shift_div_r; lra. }
    assert (Y : forall u v : Q, (u <= (v - lo) / (hi - lo))%Q <-> (lo + u * (hi - lo) <= v)%Q).
    { intros u v. split; intros Q.
      - assert (Q1 : (u * (hi - lo) <= (v - lo) / (hi - lo) * (hi - lo))%Q) by (apply Qmult_le_r; assumption).
        assert (Q2 : ((v - lo) / (hi - lo) * (hi - lo) == v - lo)%Q) by (field; lra). lra.
      - apply Qle_shift_div_l; lra. }
    rewrite X, Y. tauto.
  Qed.
End Mass.


(** ** Integers drawn through a real number

    The range is cut into k parts of equal length, one for each integer: on a logarithmic scale
    the parts have equal length in the values, not in the numbers drawn. *)
Section Parts.
  Context {E : Env} {L : EnvLaws E}.

  Lemma qlevel_spec x l u bins j : (l < u)%Q -> 2 <= bins -> (l <= x)%Q -> 0 <= j <= bins - 1 ->
    (qlevel x l u bins = j <-> (l + inject_Z j * (u - l) / inject_Z bins <= x)%Q /\
      (j = bins - 1 \/ (x < l + inject_Z (j + 1) * (u - l) / inject_Z bins)%Q)).
  Proof.
    intros H B Lx J. unfold qlevel. set (y := (normalize x l u * inject_Z bins)%Q).
    assert (Pb : (0 < inject_Z bins)%Q) by (change 0%Q with (inject_Z 0); rewrite <- Zlt_Qlt; lia).
    assert (Y : (y == (x - l) / (u - l) * inject_Z bins)%Q) by (unfold y; rewrite normalize_eq; reflexivity).
    assert (Y2 : (y * ((u - l) / inject_Z bins) == x - l)%Q) by (rewrite Y; field; split; lra).
    assert (Pd : (0 < (u - l) / inject_Z bins)%Q) by (apply Qlt_shift_div_l; lra).
    assert (A : forall n, (inject_Z n <= y)%Q <-> (l + inject_Z n * (u - l) / inject_Z bins <= x)%Q).
    { intros n. assert (D : (inject_Z n * (u - l) / inject_Z bins == inject_Z n * ((u - l) / inject_Z bins))%Q) by (field; lra).
      rewrite D. split; intros K.
      - assert (inject_Z n * ((u - l) / inject_Z bins) <= y * ((u - l) / inject_Z bins))%Q by (apply Qmult_le_r; assumption). lra.
      - apply (Qmult_le_r _ _ ((u - l) / inject_Z bins)); [assumption|lra]. }
    assert (F1 := Qfloor_le y). assert (F2 := Qlt_floor y).
    assert (F0 : 0 <= Qfloor y).
    { assert (Z0 : (inject_Z 0 <= y)%Q). { apply A. assert (D : (l + inject_Z 0 * (u - l) / inject_Z bins == l)%Q) by (change (inject_Z 0) with 0%Q; field; lra). lra. }
      rewrite <- (Qfloor_Z 0). apply Qfloor_resp_le. exact Z0. }
    assert (Bd : forall n, n <= Qfloor y <-> (inject_Z n <= y)%Q).
    { intros n. split; intros K.
      - apply Qle_trans with (inject_Z (Qfloor y)); [apply inject_Z_le; exact K|exact F1].
      - rewrite <- (Qfloor_Z n). apply Qfloor_resp_le. exact K. }
    rewrite <- (A j). assert (N : (x < l + inject_Z (j + 1) * (u - l) / inject_Z bins)%Q <-> ~ (inject_Z (j + 1) <= y)%Q).
    { rewrite A. split; [intros K G; lra|intros K; apply Qnot_le_lt; exact K]. }
    rewrite N, <- !Bd. unfold zclip. lia.
  Qed.

  (** the lower end of the part of the integer lo + j *)
  Definition part (lo hi j : Z) : Q := (inject_Z lo + inject_Z j * (inject_Z hi - inject_Z lo) / inject_Z (hi - lo + 1))%Q.

  Lemma quantize_int x lo hi : lo < hi ->
    (quantize x (inject_Z lo) (inject_Z hi) (hi - lo + 1) == inject_Z (lo + qlevel x (inject_Z lo) (inject_Z hi) (hi - lo + 1)))%Q.
  Proof.
    intros H. assert (P := size_pos lo hi H). assert (H' : (inject_Z lo < inject_Z hi)%Q) by (rewrite <- Zlt_Qlt; lia).
    rewrite quantize_level by (auto; lia). unfold scale. replace (hi - lo + 1 - 1) with (hi - lo) by lia.
    rewrite inject_Z_plus, <- inject_Z_sub. field. lra.
  Qed.

  (** normal and beta integers that are not on a logarithmic scale: equal parts of the unit interval *)
  Theorem C110_shaped h lo hi d z : constructed h -> hp_kind h = KInt lo hi false d -> d <> DUniform -> lo <= z <= hi ->
    exists x, to_vector h (VInt z) = Ok x /\ forall r, (0 <= raw_real r)%Q ->
      (fsame (sample_vector h r) x <-> (inject_Z (z - lo) / inject_Z (hi - lo + 1) <= raw_real r)%Q /\
        (z = hi \/ (raw_real r < inject_Z (z - lo + 1) / inject_Z (hi - lo + 1))%Q)).
  Proof.
    intros C K D Z. assert (W := constructed_wf h C). unfold wf_hp in W. rewrite K in W. destruct W as (W1 & _).
    exists (Fin (unit_norm (inject_Z lo) (inject_Z hi) false (inject_Z z))). split.
    { unfold to_vector. rewrite K. simpl num_of. cbv iota. rewrite unit_to_vector_fin by discriminate. reflexivity. }
    intros r R0. assert (Sv : sample_vector h r = Fin (quantize (raw_real r) 0 1 (hi - lo + 1))).
    { unfold sample_vector. rewrite K. destruct d; [congruence|reflexivity|reflexivity]. }
    rewrite Sv. unfold fsame. fold (enc lo hi false z). rewrite enc_linear by auto. assert (P := size_pos lo hi W1).
    rewrite quantize_level by (lra || lia). unfold scale. replace (hi - lo + 1 - 1) with (hi - lo) by lia.
    assert (S := qlevel_spec (raw_real r) 0 1 (hi - lo + 1) (z - lo) ltac:(lra) ltac:(lia) R0 ltac:(lia)).
    assert (Pb : (0 < inject_Z (hi - lo + 1))%Q) by (change 0%Q with (inject_Z 0); rewrite <- Zlt_Qlt; lia).
    assert (X : forall n, (0 + inject_Z n * (1 - 0) / inject_Z (hi - lo + 1) == inject_Z n / inject_Z (hi - lo + 1))%Q) by (intros; field; lra).
    rewrite !X in S. rewrite <- (Z.sub_cancel_r z hi lo). replace (hi - lo + 1 - 1) with (hi - lo) in S by lia. rewrite <- S.
    set (q := qlevel (raw_real r) 0 1 (hi - lo + 1)). split.
    - intros Q. apply inject_Z_injective.
      assert (Q1 : (inject_Z q == (inject_Z q / inject_Z (hi - lo) * (1 - 0) + 0) * inject_Z (hi - lo))%Q) by (field; lra).
      rewrite Q1, Q. field. lra.
    - intros ->. field. lra.
  Qed.

  (** integers on a logarithmic scale *)
  Theorem C110_log h lo hi z : constructed h -> hp_kind h = KInt lo hi true DUniform -> lo <= z <= hi ->
    exists x, to_vector h (VInt z) = Ok x /\ forall r, (0 <= raw_real r)%Q ->
      let pos y := ((flog y - flog (inject_Z lo)) / (flog (inject_Z hi) - flog (inject_Z lo)))%Q in
      (fsame (sample_vector h r) x <-> (pos (part lo hi (z - lo)) <= raw_real r)%Q /\ (z = hi \/ (raw_real r < pos (part lo hi (z - lo + 1)))%Q)).
  Proof.
    intros C K Z. assert (W := constructed_wf h C). unfold wf_hp in W. rewrite K in W. destruct W as (W1 & W2 & _). specialize (W2 eq_refl).
    exists (Fin (unit_norm (inject_Z lo) (inject_Z hi) true (inject_Z z))). split.
    { unfold to_vector. rewrite K. simpl num_of. cbv iota. rewrite unit_to_vector_fin by (intros _; apply inject_Z_pos; lia). reflexivity. }
    intros r R0 pos. unfold sample_vector. rewrite K. unfold log_scale, disc_quantize, quantize_log, fsame. fold (enc lo hi true z).
    assert (Pl : (0 < inject_Z lo)%Q) by (apply inject_Z_pos; lia).
    assert (H' : (inject_Z lo < inject_Z hi)%Q) by (rewrite <- Zlt_Qlt; lia).
    assert (LL := flog_lt _ _ Pl H'). set (x := fexp (rescale (raw_real r) 0 1 (flog (inject_Z lo)) (flog (inject_Z hi)))).
    assert (X : (flog x == raw_real r * (flog (inject_Z hi) - flog (inject_Z lo)) + flog (inject_Z lo))%Q) by (unfold x; rewrite flog_fexp, unit_rescale by auto; reflexivity).
    assert (Px : (0 < x)%Q) by apply fexp_pos.
    assert (Mn : forall y, (0 < y)%Q -> ((y <= x)%Q <-> (flog y <= flog x)%Q)).
    { intros y Y. split; intros G.
      - destruct (Qlt_le_dec y x) as [G1|G1]; [apply Qlt_le_weak, flog_lt; auto|]. assert (G2 : (y == x)%Q) by lra. rewrite (flog_comp _ _ G2). lra.
      - destruct (Qlt_le_dec x y) as [G1|G1]; [|exact G1]. assert (G2 := flog_lt _ _ Px G1). lra. }
    assert (Lx : (inject_Z lo <= x)%Q).
    { apply Mn; [exact Pl|]. rewrite X. assert (0 <= raw_real r * (flog (inject_Z hi) - flog (inject_Z lo)))%Q by (apply Qmult_le_0_compat; lra). lra. }
    assert (Pb : (0 < inject_Z (hi - lo + 1))%Q) by (apply inject_Z_pos; lia).
    assert (Pp : forall j, 0 <= j -> (0 < part lo hi j)%Q).
    { intros j J. unfold part. assert (0 <= inject_Z j * (inject_Z hi - inject_Z lo) / inject_Z (hi - lo + 1))%Q; [|lra].
      apply Qle_shift_div_l; [exact Pb|]. assert (0 <= inject_Z j)%Q by (change 0%Q with (inject_Z 0); apply inject_Z_le; exact J).
      assert (0 <= inject_Z j * (inject_Z hi - inject_Z lo))%Q by (apply Qmult_le_0_compat; lra). lra. }
    assert (T : forall j, 0 <= j -> ((part lo hi j <= x)%Q <-> (pos (part lo hi j) <= raw_real r)%Q)).
    { intros j J. rewrite (Mn _ (Pp j J)), X. unfold pos. set (a := flog (part lo hi j)). split; intros G.
      - apply Qle_shift_div_r; lra.
      - assert (G1 : ((a - flog (inject_Z lo)) / (flog (inject_Z hi) - flog (inject_Z lo)) * (flog (inject_Z hi) - flog (inject_Z lo)) <= raw_real r * (flog (inject_Z hi) - flog (inject_Z lo)))%Q) by (apply Qmult_le_r; lra).
        assert (G2 : ((a - flog (inject_Z lo)) / (flog (inject_Z hi) - flog (inject_Z lo)) * (flog (inject_Z hi) - flog (inject_Z lo)) == a - flog (inject_Z lo))%Q) by (field; lra). lra. }
    assert (S := qlevel_spec x (inject_Z lo) (inject_Z hi) (hi - lo + 1) (z - lo) H' ltac:(lia) Lx ltac:(lia)).
    fold (part lo hi (z - lo)) in S. fold (part lo hi (z - lo + 1)) in S.
    assert (T' : (x < part lo hi (z - lo + 1))%Q <-> (raw_real r < pos (part lo hi (z - lo + 1)))%Q).
    { assert (T1 := T (z - lo + 1) ltac:(lia)). split; intros G; apply Qnot_le_lt; intros G1; apply T1 in G1; lra. }
    rewrite T, T' in S by lia. replace (hi - lo + 1 - 1) with (hi - lo) in S by lia. rewrite <- (Z.sub_cancel_r z hi lo), <- S.
    set (q := qlevel x (inject_Z lo) (inject_Z hi) (hi - lo + 1)). assert (Rq : 0 <= q <= hi - lo + 1 - 1) by (apply qlevel_range; lia).
    assert (En : (rescale (flog (quantize x (inject_Z lo) (inject_Z hi) (hi - lo + 1))) (flog (inject_Z lo)) (flog (inject_Z hi)) 0 1 == enc lo hi true (lo + q))%Q).
    { rewrite rescale_unit, enc_log by auto. rewrite (flog_comp _ _ (quantize_int x lo hi W1)). reflexivity. }
    rewrite En. split.
    - intros Q. apply enc_inj in Q; auto; lia.
    - intros ->. replace (lo + (z - lo)) with z by lia. reflexivity.
  Qed.
End Parts.

(** ** Logarithmic scales: the density ignores the scale

    Stated for every logarithm for which the cube root of 3 (its value is 1.44...), which is a third
    of the way from 1 to 3 on a logarithmic scale, is below 5/3. *)
Section LogMass.
  Context {E : Env} {L : EnvLaws E}.
  Definition third_way : Q := fexp ((2 * flog 1 + flog 3) / 3).
  Definition three_log : hp := mk_hp "t" (KInt 1 3 true DUniform) (VInt 1) None.

  (** of the three integers the first has density 1/3, but is drawn for more than a third of the numbers *)
  Theorem C110_log_refuted : constructed three_log -> (third_way < 5#3)%Q -> legal_value three_log (VInt 1) = true /\
    (forall f, flat f -> exists p, pdf_value three_log f (VInt 1) = Ok p /\ (p == 1#3)%Q) /\
    exists a x, to_vector three_log (VInt 1) = Ok x /\ (1#3 < a)%Q /\
      forall r, raw_ok three_log r -> (fsame (sample_vector three_log r) x <-> (raw_real r < a)%Q).
  Proof.
    intros C G. split; [reflexivity|]. assert (L12 : (flog 1 < flog 3)%Q) by (apply flog_lt; reflexivity).
    assert (Lh : ((2 * flog 1 + flog 3) / 3 < flog (5#3))%Q).
    { rewrite <- (flog_fexp ((2 * flog 1 + flog 3) / 3)). apply flog_lt; [apply fexp_pos|exact G]. }
    split.
    - intros f Fl. apply (C47_uniform_partial three_log f 3 (VInt 1) C eq_refl); [|exact Fl|discriminate|left; reflexivity].
      intros (lo & hi & lg & d & K & D). injection K as <- <- <- <-. congruence.
    - destruct (C110_log three_log 1 3 1 C eq_refl ltac:(lia)) as (x & T & S). cbv zeta in S.
      exists ((flog (5#3) - flog 1) / (flog 3 - flog 1))%Q, x. split; [exact T|]. split.
      { apply Qlt_shift_div_l; [lra|]. assert (X : ((2 * flog 1 + flog 3) / 3 == (2#3) * flog 1 + (1#3) * flog 3)%Q) by field. lra. }
      intros r (_ & R0 & _). rewrite (S r R0).
      assert (P0 : (part 1 3 (1 - 1) == 1)%Q) by reflexivity. assert (P1 : (part 1 3 (1 - 1 + 1) == 5#3)%Q) by reflexivity.
      rewrite (flog_comp _ _ P0), (flog_comp _ _ P1). change (inject_Z 1) with 1%Q. change (inject_Z 3) with 3%Q.
      assert (Z0 : ((flog 1 - flog 1) / (flog 3 - flog 1) == 0)%Q) by (field; lra). rewrite Z0. split; [intros (_ & [B|B]); [discriminate|exact B]|auto].
  Qed.
End LogMass.

Section MassCases.
  #[local] Existing Instance rat_env.
  #[local] Existing Instance rat_env_laws.

  (** ** Normal and beta integers: the beta distribution with alpha = 2, beta = 1 has density 2 x.
      The lowest of three integers has density 0, but is drawn for every number below 1/3. *)
  Theorem C110_shaped_refuted : exists h p x, constructed h /\ hp_kind h = KInt 0 2 false (DBeta 2 1) /\
    pdf_value h (fun x => 2 * x)%Q (VInt 0) = Ok p /\ (p == 0)%Q /\ to_vector h (VInt 0) = Ok x /\
    forall r, raw_ok h r -> (fsame (sample_vector h r) x <-> (raw_real r < 1#3)%Q).
  Proof.
    destruct (C110_shaped w_beta 0 2 (DBeta 2 1) 0 w_beta_c eq_refl ltac:(discriminate) ltac:(lia)) as (x & T & S).
    exists w_beta. eexists. exists x. split; [apply w_beta_c|]. split; [reflexivity|]. split; [vm_compute; reflexivity|]. split; [reflexivity|].
    split; [exact T|]. intros r (_ & R0 & _). rewrite (S r R0).
    assert (A : (inject_Z (0 - 0) / inject_Z (2 - 0 + 1) == 0)%Q) by reflexivity.
    assert (B : (inject_Z (0 - 0 + 1) / inject_Z (2 - 0 + 1) == 1#3)%Q) by reflexivity. rewrite A, B.
    split; [intros (_ & [D|D]); [discriminate|exact D]|auto].
  Qed.

  (** ** Floats: the beta distribution with alpha = beta = 1 is uniform.  The two hyperparameters
      draw the same values for the same numbers, but their densities differ. *)
  Theorem C110_units_refuted : exists h g p q, constructed h /\ constructed g /\
    (exists lo hi a b, (lo == 0)%Q /\ (hi == 10)%Q /\ (a == 1)%Q /\ (b == 1)%Q /\ hp_kind h = KFloat lo hi false DUniform /\ hp_kind g = KFloat lo hi false (DBeta a b)) /\
    (forall r, sample_vector h r = sample_vector g r /\ sample_value h r = sample_value g r) /\
    pdf_value h (fun _ => 1%Q) (VFloat 5) = Ok p /\ pdf_value g (fun _ => 1%Q) (VFloat 5) = Ok q /\ (p == 1#10)%Q /\ (q == 1)%Q.
  Proof.
    exists (get_or dummy_hp (mk_uniform_float "u" 0 10 None false None)), (get_or dummy_hp (mk_beta_float "u" 1 1 0 10 None false None)).
    eexists. eexists. split; [apply (CtorUFloat "u" 0 10 None false None); vm_compute; reflexivity|].
    split; [apply (CtorBFloat "u" 1 1 0 10 None false None); vm_compute; reflexivity|].
    split; [do 4 eexists; split; [|split; [|split; [|split; [|split]]]]; [| | | |vm_compute; reflexivity|vm_compute; reflexivity]; reflexivity|]. split; [intros r; split; reflexivity|].
    split; [vm_compute; reflexivity|]. split; [vm_compute; reflexivity|]. split; reflexivity.
  Qed.

  Example C110_ex : constructed hK /\ In (VInt 4) (options hK) /\ hp_size hK = Some 10 /\ (exists lo hi, hp_kind hK = KInt lo hi false DUniform) /\
    exists p, pdf_value hK (fun _ => 1%Q) (VInt 4) = Ok p /\ (p == 1#10)%Q.
  Proof. split; [apply hK_c|]. split; [vm_compute; tauto|]. split; [reflexivity|]. split; [eexists; eexists; vm_compute; reflexivity|]. eexists. split; [vm_compute; reflexivity|reflexivity]. Qed.
  (** weights 3 and 1: the second choice is drawn for the last quarter of the numbers *)
  Example C110_weighted_ex : constructed hG /\ (exists c, hp_kind hG = KCat c (Some [3; 1]%Q) /\ nth_error c 1 = Some (VStr "q")) /\
    exists p, pdf_value hG (fun _ => 0%Q) (VStr "q") = Ok p /\ (p == 1#4)%Q.
  Proof. split; [apply hG_c|]. split; [eexists; split; vm_compute; reflexivity|]. eexists. split; [vm_compute; reflexivity|reflexivity]. Qed.
  Example C110_constant_ex : constructed hE /\ hp_kind hE = KConst (VStr "on").
  Proof. split; [apply hE_c|reflexivity]. Qed.
  Example C110_float_ex : constructed hB /\ exists lo hi, hp_kind hB = KFloat lo hi false DUniform /\ (lo <= 1#4)%Q /\ (1#4 <= 1#2)%Q /\ (1#2 <= hi)%Q.
  Proof. split; [apply hB_c|]. eexists; eexists. split; [vm_compute; reflexivity|]. repeat split; discriminate. Qed.
  Example C110_shaped_ex : constructed w_beta /\ hp_kind w_beta = KInt 0 2 false (DBeta 2 1) /\ DBeta 2 1 <> DUniform /\ 0 <= 1 <= 2.
  Proof. split; [apply w_beta_c|]. split; [reflexivity|]. split; [discriminate|lia]. Qed.
  Example C110_log_ex : constructed hL /\ hp_kind hL = KInt 1 16 true DUniform /\ 1 <= 5 <= 16.
  Proof. split; [apply hL_c|]. split; [reflexivity|lia]. Qed.
End MassCases.

(** the hypotheses of [C110_log_refuted] can be met *)
Example C110_log_refuted_ex : @constructed bent_env three_log /\ (@third_way bent_env < 5#3)%Q.
Proof.
  split; [|vm_compute; reflexivity].
  eapply (@CtorUInt bent_env "t" 1 3 (Some 1%Q) true None). vm_compute. reflexivity.
Qed.
