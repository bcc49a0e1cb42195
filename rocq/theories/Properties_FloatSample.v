(** * Sampling integers in float64 (C134, C101)

    uniform_integer.py:115-130, distributions.py:521-541 and quantize_log (functional.py:148-196). np.log and np.exp are as in FloatLog.v. *)
From Coq Require Import ZArith Reals Lra Lia Bool List QArith Qreals.
From Flocq Require Import Core IEEE754.BinarySingleNaN Relative Plus_error.
From Verif Require Import Base Numeric Float FloatProofs FloatRound FloatLog Properties_Float Properties_Round Properties_FloatLog FloatCond Properties_FloatCond.
Import ListNotations.
Open Scope R_scope.

Lemma unit_scale x r : is x r -> 0 <= r <= 1 -> is (fscale x f0 f1) r.
Proof.
  intros X B. unfold fscale. assert (F := is_fmt _ _ X). assert (F1 : fmt 1) by (apply (fmt_IZR 1); lia).
  assert (D : is (fsub f1 f0) 1).
  { replace 1 with (rnd (1 - 0)) by (rewrite Rminus_0_r; apply rnd_fmt; auto). apply (fsub_is _ _ _ _ 0); [apply f1_is|apply f0_is|lia|]. change (pw 0) with 1. rewrite Rabs_pos_eq; lra. }
  assert (M : is (fmul x (fsub f1 f0)) r).
  { replace r with (rnd (r * 1)) by (rewrite Rmult_1_r; apply rnd_fmt; auto). apply (fmul_is _ _ _ _ 0); auto; [lia|]. change (pw 0) with 1. rewrite Rabs_pos_eq; lra. }
  replace r with (rnd (r + 0)) by (rewrite Rplus_0_r; apply rnd_fmt; auto). apply (fadd_is _ _ _ _ 0); [auto|apply f0_is|lia|]. change (pw 0) with 1. rewrite Rabs_pos_eq; lra.
Qed.
Lemma unit_norm x : fnormalize x f0 f1 = x.
Proof. unfold fnormalize. rewrite (feq_is _ _ _ _ f0_is f0_is), (feq_is _ _ _ _ f1_is f1_is), !Req_bool_true by reflexivity. reflexivity. Qed.

Section Rescale.
  Variables (e : Z) (lo hi : f64) (a b : R).
  Hypotheses (Rg : range e lo hi a b) (E : (0 <= e <= 975)%Z).
  Lemma into_is x r : is x r -> 0 <= r <= 1 -> is (frescale x f0 f1 lo hi) (raw a b r).
  Proof.
    intros X B. unfold frescale. destruct (feq f0 lo && feq f1 hi)%bool eqn:U; [|rewrite unit_norm; exact (raw_is _ _ _ _ _ Rg E x r X B)].
    apply andb_true_iff in U. destruct U as [U1 U2]. apply (feq_iff _ _ _ _ f0_is (r_lo _ _ _ _ _ Rg)) in U1. apply (feq_iff _ _ _ _ f1_is (r_hi _ _ _ _ _ Rg)) in U2.
    assert (F := is_fmt _ _ X). replace (raw a b r) with r; [exact X|]. unfold raw. rewrite <- U1, <- U2, Rminus_0_r, Rplus_0_r.
    rewrite (rnd_fmt 1) by (apply (fmt_IZR 1); lia). rewrite Rmult_1_r, !(rnd_fmt r); auto.
  Qed.
  Lemma back_is x r : is x r -> a <= r <= b -> is (frescale x lo hi f0 f1) (entry a b r).
  Proof.
    intros X B. unfold frescale. assert (N := entry_is _ _ _ _ _ Rg E x r X B). unfold float_to_vector in N.
    destruct (feq lo f0 && feq hi f1)%bool eqn:U.
    - unfold fnormalize in N. rewrite U in N. exact N.
    - apply unit_scale; [exact N|]. exact (entry_bound _ _ _ _ _ Rg E r B).
  Qed.
End Rescale.

(** quantization between integers *)
Definition level (lo hi : Z) (r : R) : Z := Z.max 0 (Z.min (Zfloor (rnd (rnd (rnd (r - IZR lo) / IZR (hi - lo)) * IZR (hi - lo + 1)))) (hi - lo)).
Definition quantized (lo hi i : Z) : R := rnd (rnd (rnd (IZR i / IZR (hi - lo)) * IZR (hi - lo)) + IZR lo).
Lemma level_bound lo hi r : (lo < hi)%Z -> (0 <= level lo hi r <= hi - lo)%Z.
Proof. unfold level. lia. Qed.
Lemma quantized_near lo hi i : log_range lo hi -> (0 <= i <= hi - lo)%Z ->
  IZR lo <= quantized lo hi i <= IZR hi /\ Rabs (quantized lo hi i - IZR (lo + i)) <= pw (-51) * IZR (lo + i).
Proof.
  intros [R1 R2] I. set (s := (hi - lo)%Z) in *. assert (P := IZR_lt_pos s ltac:(lia)).
  assert (Q : 0 <= rnd (IZR i / IZR s) <= 1) by (apply (rnd_int _ 0 1); try lia; apply frac_unit; lia).
  assert (M : 0 <= rnd (rnd (IZR i / IZR s) * IZR s) <= IZR s).
  { apply (rnd_int _ 0 s); try lia. split; [apply Rmult_le_pos; lra|]. apply Rle_trans with (1 * IZR s); [apply Rmult_le_compat_r; lra|lra]. }
  assert (E1 := product_rel i s ltac:(lia) ltac:(lia)). unfold quantized. fold s. set (p := rnd (rnd (IZR i / IZR s) * IZR s)) in *.
  assert (Ps : IZR s = IZR hi - IZR lo) by (unfold s; apply minus_IZR). assert (L1 : 1 <= IZR lo) by (apply (IZR_le 1); lia).
  split; [apply (rnd_int _ lo hi); try lia; lra|].
  assert (I0 : 0 <= IZR i) by (apply (IZR_le 0); lia). rewrite plus_IZR.
  assert (E2 : Rabs (rnd (p + IZR lo) - (p + IZR lo)) <= pw (-53) * (p + IZR lo)).
  { rewrite <- (Rabs_pos_eq (p + IZR lo)) at 3 by lra. apply rel. rewrite Rabs_pos_eq by lra. apply Rle_trans with (pw 0); [apply bpow_le; lia|]. change (pw 0) with 1. lra. }
  change (pw (-52)) with (/ IZR (2 ^ 52)) in *. change (pw (-105)) with (/ IZR (2 ^ 105)) in *. change (pw (-53)) with (/ IZR (2 ^ 53)) in *. change (pw (-51)) with (/ IZR (2 ^ 51)) in *.
  simpl Z.pow in *. apply Rabs_le_inv in E1, E2. apply Rabs_le. lra.
Qed.
Lemma quantize_int lo hi z r : log_range lo hi -> is z r -> Rabs r <= pw 44 ->
  is (fquantize z (of_Z lo) (of_Z hi) (hi - lo + 1)) (quantized lo hi (level lo hi r)).
Proof.
  intros R Z B. assert (R' := R). destruct R as [R1 R2]. set (s := (hi - lo)%Z) in *. assert (P := IZR_lt_pos s ltac:(lia)).
  assert (Il := of_Z_is lo ltac:(lia)). assert (Ih := of_Z_is hi ltac:(lia)). assert (Is := of_Z_is s ltac:(lia)). assert (Ib := of_Z_is (s + 1) ltac:(lia)).
  assert (L1 : 1 <= IZR lo <= pw 42) by (split; [apply (IZR_le 1); lia|rewrite pw_IZR by lia; apply IZR_le; lia]).
  assert (S1 : 1 <= IZR s <= pw 42) by (split; [apply (IZR_le 1); lia|rewrite pw_IZR by lia; apply IZR_le; lia]).
  assert (D : is (fsub (of_Z hi) (of_Z lo)) (IZR s)).
  { replace (IZR s) with (rnd (IZR hi - IZR lo)) by (rewrite <- minus_IZR; apply rnd_fmt; apply fmt_IZR; lia). apply (fsub_is _ _ _ _ 42); auto; [lia|].
    rewrite <- minus_IZR. fold s. rewrite Rabs_pos_eq; lra. }
  unfold fquantize. rewrite (feq_is _ _ _ _ Il f0_is), Req_bool_false by lra. simpl andb. cbv iota zeta. fold s. replace (s + 1 - 1)%Z with s by lia.
  assert (N1 : is (fsub z (of_Z lo)) (rnd (r - IZR lo))).
  { apply (fsub_is _ _ _ _ 45); auto; [lia|]. replace (pw 45) with (pw 44 + pw 44) by (change 45%Z with (44 + 1)%Z; rewrite bpow_plus; change (pw 1) with 2; ring).
    assert (pw 42 <= pw 44) by (apply bpow_le; lia). apply Rabs_le_inv in B. apply Rabs_le. lra. }
  assert (B1 : Rabs (rnd (r - IZR lo)) <= pw 45).
  { apply rnd_bound; [lia|]. replace (pw 45) with (pw 44 + pw 44) by (change 45%Z with (44 + 1)%Z; rewrite bpow_plus; change (pw 1) with 2; ring).
    assert (pw 42 <= pw 44) by (apply bpow_le; lia). apply Rabs_le_inv in B. apply Rabs_le. lra. }
  set (g1 := rnd (r - IZR lo)) in *.
  assert (B2 : Rabs (g1 / IZR s) <= pw 45).
  { unfold Rdiv. rewrite Rabs_mult, (Rabs_pos_eq (/ IZR s)) by (left; apply Rinv_0_lt_compat; lra). apply Rle_trans with (Rabs g1 * 1); [|lra].
    apply Rmult_le_compat_l; [apply Rabs_pos|]. rewrite <- Rinv_1. apply Rinv_le_contravar; lra. }
  assert (N2 := fdiv_is _ _ _ _ 45 N1 D ltac:(lra) ltac:(lia) B2). assert (B2' := rnd_bound _ 45 ltac:(lia) B2). set (g2 := rnd (g1 / IZR s)) in *.
  assert (B3 : Rabs (g2 * IZR (s + 1)) <= pw 88).
  { rewrite Rabs_mult. replace (pw 88) with (pw 45 * pw 43) by (rewrite <- bpow_plus; reflexivity). apply Rmult_le_compat; try apply Rabs_pos; auto.
    rewrite <- abs_IZR, pw_IZR by lia. apply IZR_le. lia. }
  assert (N3 := fmul_is _ _ _ _ 88 N2 Ib ltac:(lia) B3). set (g3 := rnd (g2 * IZR (s + 1))) in *.
  assert (C := fclip_is _ _ _ _ _ _ (ffloor_is _ _ N3) f0_is Is).
  set (i := level lo hi r). assert (Bi := level_bound lo hi r ltac:(lia)). fold i s in Bi.
  assert (Ci : Rmin (Rmax (IZR (Zfloor g3)) 0) (IZR s) = IZR i).
  { unfold i, level. fold s g1 g2 g3. destruct (Z_le_gt_dec (Zfloor g3) 0) as [H|H].
    - rewrite Rmax_right by (apply (IZR_le _ 0); lia). rewrite Rmin_left by lra. f_equal. lia.
    - rewrite Rmax_left by (apply (IZR_le 0); lia). destruct (Z_le_gt_dec (Zfloor g3) s) as [K|K].
      + rewrite Rmin_left by (apply IZR_le; lia). f_equal. lia.
      + rewrite Rmin_right by (apply IZR_le; lia). f_equal. lia. }
  rewrite Ci in C. assert (Q := frac_unit i s ltac:(lia) ltac:(lia)).
  assert (N4 : is (fdiv (fclip (ffloor (fmul (fdiv (fsub z (of_Z lo)) (fsub (of_Z hi) (of_Z lo))) (of_Z (s + 1)))) f0 (of_Z s)) (of_Z s)) (rnd (IZR i / IZR s))).
  { apply (fdiv_is _ _ _ _ 0); auto; [lra|lia|]. rewrite Rabs_pos_eq by lra. change (pw 0) with 1. lra. }
  assert (Q' : 0 <= rnd (IZR i / IZR s) <= 1) by (apply (rnd_int _ 0 1); try lia; auto).
  assert (M : 0 <= rnd (IZR i / IZR s) * IZR s <= IZR s).
  { split; [apply Rmult_le_pos; lra|]. apply Rle_trans with (1 * IZR s); [apply Rmult_le_compat_r; lra|lra]. }
  assert (M' : 0 <= rnd (rnd (IZR i / IZR s) * IZR s) <= IZR s) by (apply (rnd_int _ 0 s); try lia; auto).
  unfold quantized. fold s. apply (fadd_is _ _ _ _ 43); auto; [|lia|].
  - apply (fmul_is _ _ _ _ 42); auto; [lia|]. rewrite Rabs_pos_eq; lra.
  - replace (pw 43) with (pw 42 + pw 42) by (change 43%Z with (42 + 1)%Z; rewrite bpow_plus; change (pw 1) with 2; ring). rewrite Rabs_pos_eq; lra.
Qed.

Section Sample.
  Context {L : Libm}.
  Hypotheses (HL : accurate flog ln log_dom) (ML : monotone flog log_dom) (HE : accurate fexp exp exp_dom).

  Lemma log_near lo hi a b w i : log_range lo hi -> range 5 (flog (of_Z lo)) (flog (of_Z hi)) a b -> (0 <= i <= hi - lo)%Z -> is w (quantized lo hi i) ->
    exists t, is (flog w) t /\ a <= t <= b /\ Rabs (t - ln (IZR (lo + i))) <= 9 / 2 * pw (5 - 53).
  Proof.
    intros R Rg I W. destruct (quantized_near lo hi i R I) as [B E]. destruct R as [R1 R2]. set (q := quantized lo hi i) in *. set (v := (lo + i)%Z) in *.
    assert (L1 : 1 <= IZR lo) by (apply (IZR_le 1); lia). assert (H1 : IZR hi <= pw 42) by (rewrite pw_IZR by lia; apply IZR_le; lia).
    assert (V1 : 1 <= IZR v <= pw 42) by (split; [apply (IZR_le 1); lia|rewrite pw_IZR by lia; apply IZR_le; lia]).
    assert (Dom : forall r, 1 <= r <= pw 42 -> log_dom r).
    { intros r Hr. assert (pw (-1000) <= pw 0) by (apply bpow_le; lia). change (pw 0) with 1 in *. assert (pw 42 <= pw 1000) by (apply bpow_le; lia). split; lra. }
    destruct (HL w q W (Dom q ltac:(lra))) as (t & T & Et). exists t. split; [exact T|].
    assert (Lh : IZR lo <= IZR hi) by (apply IZR_le; lia).
    split.
    - split.
      + apply (ML (of_Z lo) w (IZR lo) q a t (of_Z_is lo ltac:(lia)) W); [apply Dom; lra|apply Dom; lra|lra|apply (r_lo _ _ _ _ _ Rg)|exact T].
      + apply (ML w (of_Z hi) q (IZR hi) t b W (of_Z_is hi ltac:(lia))); [apply Dom; lra|apply Dom; lra|lra|exact T|apply (r_hi _ _ _ _ _ Rg)].
    - assert (Q := ln_int v ltac:(lia)).
      assert (U : Rabs (ln q - ln (IZR v)) <= 3 / 2 * pw (-51)).
      { rewrite pw51 in *. simpl Z.pow in *. apply Rabs_le_inv in E. assert (K1 := ln_sub1 (q / IZR v)). assert (K2 := ln_sub1 (IZR v / q)).
        assert (Pq : 0 < q) by lra. assert (Iv : 0 < / IZR v) by (apply Rinv_0_lt_compat; lra). assert (Iq : 0 < / q) by (apply Rinv_0_lt_compat; lra).
        unfold Rdiv in *. rewrite !ln_mult, !ln_Rinv in K1, K2 by lra.
        specialize (K1 ltac:(apply Rmult_lt_0_compat; lra)). specialize (K2 ltac:(apply Rmult_lt_0_compat; lra)).
        assert (A1 : q * / IZR v <= 1 + / 2251799813685248) by (apply Rmult_le_reg_r with (IZR v); [lra|]; rewrite Rmult_assoc, Rinv_l by lra; lra).
        assert (A2 : IZR v * / q <= 1 + 3 / 2 * / 2251799813685248).
        { apply Rmult_le_reg_r with q; [lra|]; rewrite Rmult_assoc, Rinv_l by lra. lra. }
        apply Rabs_le. lra. }
      rewrite pw51 in *. rewrite pw48. simpl Z.pow in *. apply Rabs_le_inv in U. 
      assert (Lq : Rabs (ln q) <= 32) by (apply Rabs_le; lra). apply Rabs_le_inv in Et.
      assert (Rabs (ln q) <= 63 / 2 + / 1000000000000) by (apply Rabs_le; lra). apply Rabs_le. lra.
  Qed.
  Lemma exp_near10 x s n : is x s -> (1 <= n <= 2 ^ 42)%Z -> Rabs (s - ln (IZR n)) <= 10 * pw (5 - 53) ->
    exists t, is (fexp x) t /\ Rabs (t - IZR n) <= 22 * pw (5 - 53) * IZR n.
  Proof.
    intros X N S. assert (Q := ln_int n N). assert (P : 1 <= IZR n) by (apply (IZR_le 1); lia). rewrite pw48 in *. simpl Z.pow in *.
    destruct (HE x s X) as (t & It & Et); [apply Rabs_le_inv in S; split; lra|]. exists t. split; auto.
    assert (C := exp_change _ _ S ltac:(lra)). assert (F : exp s = IZR n * exp (s - ln (IZR n))).
    { replace s with (ln (IZR n) + (s - ln (IZR n))) at 1 by ring. rewrite exp_plus, exp_ln by lra. reflexivity. }
    set (q := exp (s - ln (IZR n))) in *. rewrite F in Et. rewrite Rabs_mult, (Rabs_pos_eq (IZR n)), (Rabs_pos_eq q) in Et by (try apply Rlt_le, exp_pos; lra).
    rewrite pw51 in Et. simpl Z.pow in Et. apply Rabs_le_inv in C, Et. apply Rabs_le. nra.
  Qed.
  (** decoding an entry near that of an integer *)
  Lemma near_decode lo hi a b v x t : log_range lo hi -> (lo <= v <= hi)%Z -> range 5 (flog (of_Z lo)) (flog (of_Z hi)) a b -> a <= t <= b ->
    Rabs (t - ln (IZR v)) <= 9 / 2 * pw (5 - 53) -> is x (entry a b t) -> log_int_value lo hi x = Ok v /\ log_int_legal lo hi x = true.
  Proof.
    intros [R1 R2] V Rg B Ew X. assert (E : (0 <= 5 <= 975)%Z) by lia.
    assert (S := raw_is _ _ _ _ _ Rg E x _ X (entry_bound _ _ _ _ _ Rg E t B)). assert (Es := raw_error _ _ _ _ _ Rg E t B).
    destruct (exp_near10 _ _ v S ltac:(lia)) as (u & T & Et); [apply Rabs_le_inv in Es, Ew; apply Rabs_le; lra|].
    rewrite pw48 in Et. simpl Z.pow in Et. assert (Vb : 1 <= IZR v <= IZR (2 ^ 42)) by (split; [apply (IZR_le 1)|apply IZR_le]; lia). simpl Z.pow in Vb.
    assert (Ne : Rabs (u - IZR v) < / 2) by (eapply Rle_lt_trans; [exact Et|]; lra).
    assert (T' := frint_is _ _ T). rewrite (near u v Ne) in T'. split.
    - apply to_i64_is; auto. lia.
    - unfold log_int_legal, int_legal, log_unsafe. rewrite (fle_is _ _ _ _ (of_Z_is lo ltac:(lia)) T'), (fle_is _ _ _ _ T' (of_Z_is hi ltac:(lia))).
      rewrite !Rle_bool_true by (apply IZR_le; lia). simpl. apply (fclose_true _ u v); auto; [lia|]. rewrite (Rabs_pos_eq (IZR v)) by lra. lra.
  Qed.
  (** the ends of the unit interval decode to the bounds *)
  Theorem C134_scale lo hi : log_range lo hi -> log_int_value lo hi f0 = Ok lo /\ log_int_value lo hi f1 = Ok hi.
  Proof.
    intros R. assert (R' := R). destruct R as [R1 R2]. split.
    - destruct (C104_unit HL lo hi lo lo R' ltac:(lia) ltac:(lia)) as (_ & _ & H & _). apply (log_decode HL HE lo hi lo f0 R'); [lia|].
      intros r X. specialize (H eq_refl). apply (feq_iff _ _ _ _ X f0_is) in H. rewrite H. apply f0_is.
    - destruct (C104_unit HL lo hi hi hi R' ltac:(lia) ltac:(lia)) as (_ & _ & _ & H). apply (log_decode HL HE lo hi hi f1 R'); [lia|].
      intros r X. specialize (H eq_refl). apply (feq_iff _ _ _ _ X f1_is) in H. rewrite H. apply f1_is.
  Qed.
  (** what is lifted to the scale of the values *)
  Lemma lift_is lo hi a b x r : log_range lo hi -> range 5 (flog (of_Z lo)) (flog (of_Z hi)) a b -> Rabs (a - ln (IZR lo)) <= 4 * pw (5 - 53) -> Rabs (b - ln (IZR hi)) <= 4 * pw (5 - 53) ->
    is x r -> 0 <= r <= 1 -> exists t, is (fexp (frescale x f0 f1 (flog (of_Z lo)) (flog (of_Z hi)))) t /\ Rabs t <= pw 44.
  Proof.
    intros [R1 R2] Rg Ea Eb Xr Ur. assert (E : (0 <= 5 <= 975)%Z) by lia. assert (S := into_is _ _ _ _ _ Rg E x r Xr Ur).
    assert (Lo : raw a b 0 <= raw a b r) by (apply (raw_le _ _ _ _ _ Rg E); lra). rewrite (raw_0 _ _ _ _ _ Rg) in Lo.
    assert (Hi : raw a b r <= raw a b 1) by (apply (raw_le _ _ _ _ _ Rg E); lra). assert (H1 := raw_1 _ _ _ _ _ Rg E).
    set (s := raw a b r) in *. assert (Ql := ln_int lo ltac:(lia)). assert (Qh := ln_int hi ltac:(lia)).
    rewrite pw48 in *. simpl Z.pow in *. apply Rabs_le_inv in Ea, Eb, H1.
    destruct (HE _ s S) as (t & T & Et); [split; lra|]. exists t. split; [exact T|].
    rewrite pw51 in Et. simpl Z.pow in Et. assert (Ps := exp_pos s). rewrite (Rabs_pos_eq (exp s)) in Et by lra.
    assert (Vh : 1 <= IZR hi <= IZR (2 ^ 42)) by (split; [apply (IZR_le 1)|apply IZR_le]; lia). simpl Z.pow in *.
    set (d := 9 * / 281474976710656) in *.
    assert (Ch : exp s <= IZR hi * (1 + 2 * d)).
    { apply Rle_trans with (exp (ln (IZR hi) + d)); [apply exp_le; unfold d; lra|]. rewrite exp_plus, exp_ln by lra. apply Rmult_le_compat_l; [lra|].
      assert (C := exp_change d d). rewrite Rabs_pos_eq in C by (unfold d; lra). specialize (C ltac:(lra) ltac:(unfold d; lra)). apply Rabs_le_inv in C. lra. }
    apply Rabs_le_inv in Et. unfold d in *. change (pw 44) with (IZR (2 ^ 44)). simpl Z.pow. apply Rabs_le. lra.
  Qed.
  Lemma sample_is lo hi a b x r : log_range lo hi -> range 5 (flog (of_Z lo)) (flog (of_Z hi)) a b -> Rabs (a - ln (IZR lo)) <= 4 * pw (5 - 53) -> Rabs (b - ln (IZR hi)) <= 4 * pw (5 - 53) ->
    is x r -> 0 <= r <= 1 -> exists y z i t, log_int_sample lo hi x = Ok y /\ is (fexp (frescale x f0 f1 (flog (of_Z lo)) (flog (of_Z hi)))) z /\ i = level lo hi z /\
      (0 <= i <= hi - lo)%Z /\ is (flog (fquantize (fexp (frescale x f0 f1 (flog (of_Z lo)) (flog (of_Z hi)))) (of_Z lo) (of_Z hi) (hi - lo + 1))) t /\
      a <= t <= b /\ Rabs (t - ln (IZR (lo + i))) <= 9 / 2 * pw (5 - 53) /\ is y (entry a b t) /\
      is (fquantize (fexp (frescale x f0 f1 (flog (of_Z lo)) (flog (of_Z hi)))) (of_Z lo) (of_Z hi) (hi - lo + 1)) (quantized lo hi i).
  Proof.
    intros R Rg Ea Eb X U. destruct (C134_scale lo hi R) as [S0 S1]. destruct (lift_is lo hi a b x r R Rg Ea Eb X U) as (z & Z & Bz).
    assert (Q := quantize_int lo hi _ z R Z Bz). assert (Bi := level_bound lo hi z ltac:(apply R)).
    destruct (log_near lo hi a b _ (level lo hi z) R Rg Bi Q) as (t & T & Bt & Et).
    exists (fquantize_log x (of_Z lo) (of_Z hi) (hi - lo + 1)), z, (level lo hi z), t.
    split; [unfold log_int_sample; rewrite S0, S1; reflexivity|]. repeat (split; [auto; fail|]). split; [|exact Q].
    unfold fquantize_log. apply (back_is _ _ _ _ _ Rg ltac:(lia) _ t T Bt).
  Qed.
  (** every number of the unit interval gives an entry that is legal and decodes into the range *)
  Theorem C134_sample lo hi x : log_range lo hi -> float_legal_vector x = true ->
    exists y v, log_int_sample lo hi x = Ok y /\ float_legal_vector y = true /\ (lo <= v <= hi)%Z /\ log_int_value lo hi y = Ok v /\ log_int_legal lo hi y = true.
  Proof.
    intros R X. destruct (unit_finite x X) as (r & Xr & Ur). destruct (log_bounds HL lo hi R) as (a & b & Rg & Ea & Eb).
    destruct (sample_is lo hi a b x r R Rg Ea Eb Xr Ur) as (y & z & i & t & Y & _ & _ & Bi & _ & Bt & Et & Iy & _).
    exists y, (lo + i)%Z. split; [exact Y|]. split; [exact (legal_true f0 y f1 _ _ _ f0_is Iy f1_is (entry_bound _ _ _ _ _ Rg ltac:(lia) t Bt))|]. split; [lia|].
    apply (near_decode lo hi a b (lo + i) y t); auto. lia.
  Qed.
End Sample.
(** ** quantization keeps the integers of ranges up to 2^20 *)
Lemma level_near lo hi v z : (1 <= lo < hi)%Z -> (hi <= 2 ^ 20)%Z -> (lo <= v <= hi)%Z -> Rabs (z - IZR v) <= 22 * pw (5 - 53) * IZR v -> level lo hi z = (v - lo)%Z.
Proof.
  intros R1 R2 V Z. set (i := (v - lo)%Z). set (s := (hi - lo)%Z). assert (Bi : (0 <= i <= s)%Z) by lia.
  assert (S1 : 1 <= IZR s <= 1048576) by (split; [apply (IZR_le 1)|apply IZR_le]; lia). assert (V1 : 1 <= IZR v <= 1048576) by (split; [apply (IZR_le 1)|apply IZR_le]; lia).
  assert (I1 : 0 <= IZR i <= IZR s) by (split; [apply (IZR_le 0)|apply IZR_le]; lia). assert (Ev : IZR v - IZR lo = IZR i) by (unfold i; rewrite minus_IZR; ring).
  assert (Sb : IZR (s + 1) = IZR s + 1) by apply plus_IZR. rewrite pw48 in Z. simpl Z.pow in Z. apply Rabs_le_inv in Z.
  unfold level. fold s. set (g1 := rnd (z - IZR lo)).
  assert (E1 : Rabs (g1 - (z - IZR lo)) <= pw (21 - 54)) by (apply err_le; [lia|]; change (pw 21) with 2097152; apply Rabs_le; lra).
  change (pw (21 - 54)) with (/ IZR (2 ^ 33)) in E1. simpl Z.pow in E1. apply Rabs_le_inv in E1.
  set (d := 9 / 100000000). assert (D1 : IZR i - d <= g1 <= IZR i + d) by (unfold d; lra).
  assert (Is : 0 < / IZR s <= 1) by (split; [apply Rinv_0_lt_compat; lra|rewrite <- Rinv_1; apply Rinv_le_contravar; lra]).
  assert (Is' : / 1048576 <= / IZR s) by (apply Rinv_le_contravar; lra).
  set (t := IZR i / IZR s). assert (T1 : 0 <= t <= 1) by (apply frac_unit; lia).
  assert (G1 : t - d * / IZR s <= g1 / IZR s <= t + d * / IZR s) by (unfold t, Rdiv; split; nra).
  set (g2 := rnd (g1 / IZR s)).
  assert (E2 : Rabs (g2 - g1 / IZR s) <= pw (1 - 54)) by (apply err_le; [lia|]; change (pw 1) with 2; unfold d in *; apply Rabs_le; nra).
  change (pw (1 - 54)) with (/ IZR (2 ^ 53)) in E2. simpl Z.pow in E2. apply Rabs_le_inv in E2.
  assert (Q : t * IZR (s + 1) = IZR i + t) by (rewrite Sb; unfold t; field; lra).
  assert (Ds : d * / IZR s * IZR (s + 1) <= 2 * d) by (rewrite Sb; replace (d * / IZR s * (IZR s + 1)) with (d + d * / IZR s) by (field; lra); unfold d in *; nra).
  assert (G2 : IZR i + t - 3 * d <= g2 * IZR (s + 1) <= IZR i + t + 3 * d).
  { assert (t - d * / IZR s - / 9007199254740992 <= g2 <= t + d * / IZR s + / 9007199254740992) as [A B] by lra.
    assert (Pb : 0 <= IZR (s + 1)) by lra. apply Rmult_le_compat_r with (r := IZR (s + 1)) in A; [|exact Pb]. apply Rmult_le_compat_r with (r := IZR (s + 1)) in B; [|exact Pb].
    rewrite !Rmult_minus_distr_r in A. rewrite !Rmult_plus_distr_r in B. assert (Eb : / 9007199254740992 * IZR (s + 1) <= d) by (unfold d; lra). lra. }
  set (g3 := rnd (g2 * IZR (s + 1))).
  assert (E3 : Rabs (g3 - g2 * IZR (s + 1)) <= pw (21 - 54)) by (apply err_le; [lia|]; change (pw 21) with 2097152; unfold d in *; apply Rabs_le; lra).
  change (pw (21 - 54)) with (/ IZR (2 ^ 33)) in E3. simpl Z.pow in E3. apply Rabs_le_inv in E3.
  assert (G3 : IZR i + t - 4 * d <= g3 <= IZR i + t + 4 * d) by (unfold d in *; lra).
  assert (Lw : (i <> 0)%Z -> (i <= Zfloor g3)%Z).
  { intro N. apply Zfloor_lub. assert (1 <= IZR i) by (apply (IZR_le 1); lia). assert (/ IZR s <= t) by (unfold t, Rdiv; rewrite <- (Rmult_1_l (/ IZR s)) at 1; apply Rmult_le_compat_r; lra). unfold d in *. lra. }
  assert (Up : (i <> s)%Z -> (Zfloor g3 <= i)%Z).
  { intro N. assert (H : IZR i + 1 <= IZR s) by (rewrite <- plus_IZR; apply IZR_le; lia). assert (t <= 1 - / IZR s).
    { unfold t. replace (1 - / IZR s) with ((IZR s - 1) * / IZR s) by (field; lra). apply Rmult_le_compat_r; lra. }
    assert (Zfloor g3 < i + 1)%Z; [|lia]. apply lt_IZR. apply Rle_lt_trans with g3; [apply Zfloor_lb|]. rewrite plus_IZR. unfold d in *. lra. }
  destruct (Z.eq_dec i 0), (Z.eq_dec i s); try lia; try (specialize (Lw ltac:(lia))); try (specialize (Up ltac:(lia))); lia.
Qed.
Section Keeps.
  Context {L : Libm}.
  Hypotheses (HL : accurate flog ln log_dom) (ML : monotone flog log_dom) (HE : accurate fexp exp exp_dom).
  Lemma keeps_is lo hi v a b : log_range lo hi -> (hi <= 2 ^ 20)%Z -> (lo <= v <= hi)%Z -> range 5 (flog (of_Z lo)) (flog (of_Z hi)) a b ->
    Rabs (a - ln (IZR lo)) <= 4 * pw (5 - 53) -> Rabs (b - ln (IZR hi)) <= 4 * pw (5 - 53) ->
    exists y w t, log_int_sample lo hi (log_to_vector (of_Z lo) (of_Z hi) (of_Z v)) = Ok y /\ is w (quantized lo hi (v - lo)) /\ is (flog w) t /\ is y (entry a b t) /\
      a <= t <= b /\ Rabs (t - ln (IZR v)) <= 9 / 2 * pw (5 - 53).
  Proof.
    intros R H20 V Rg Ea Eb. assert (R' := R). destruct R as [R1 R2]. assert (E : (0 <= 5 <= 975)%Z) by lia.
    destruct (log_int HL v ltac:(lia)) as (w & W & Ew & Bw).
    assert (B : a <= w <= b) by (split; [apply (log_le HL lo v a w); try lia; auto; apply (r_lo _ _ _ _ _ Rg)|apply (log_le HL v hi w b); try lia; auto; apply (r_hi _ _ _ _ _ Rg)]).
    assert (X := entry_is _ _ _ _ _ Rg E _ _ W B). change (float_to_vector (flog (of_Z lo)) (flog (of_Z hi)) (flog (of_Z v))) with (log_to_vector (of_Z lo) (of_Z hi) (of_Z v)) in X.
    set (x := log_to_vector (of_Z lo) (of_Z hi) (of_Z v)) in *. assert (Ux := entry_bound _ _ _ _ _ Rg E w B).
    destruct (sample_is HL ML HE lo hi a b x _ R' Rg Ea Eb X Ux) as (y & z & i & t & Y & Iz & Li & Bi & T & Bt & Et & Iy & Iq).
    assert (S := into_is _ _ _ _ _ Rg E x _ X Ux). assert (Es := raw_error _ _ _ _ _ Rg E w B).
    destruct (exp_near10 HE _ _ v S ltac:(lia)) as (z' & Z' & Ez); [apply Rabs_le_inv in Es, Ew; apply Rabs_le; lra|].
    assert (z' = z) by (destruct Z', Iz; congruence). subst z'. rewrite (level_near lo hi v z R1 H20 V Ez) in Li. subst i. replace (lo + (v - lo))%Z with v in Et by lia.
    exists y, (fquantize (fexp (frescale x f0 f1 (flog (of_Z lo)) (flog (of_Z hi)))) (of_Z lo) (of_Z hi) (hi - lo + 1)), t. repeat split; auto; apply Bt || apply Iq || apply T || apply Iy.
  Qed.
  Theorem C134_keeps_partial lo hi v : log_range lo hi -> (hi <= 2 ^ 20)%Z -> (lo <= v <= hi)%Z ->
    exists y, log_int_sample lo hi (log_to_vector (of_Z lo) (of_Z hi) (of_Z v)) = Ok y /\ log_int_value lo hi y = Ok v /\ log_int_legal lo hi y = true.
  Proof.
    intros R H20 V. destruct (log_bounds HL lo hi R) as (a & b & Rg & Ea & Eb). destruct (keeps_is lo hi v a b R H20 V Rg Ea Eb) as (y & w & t & Y & _ & _ & Iy & Bt & Et).
    exists y. split; [exact Y|]. apply (near_decode HE lo hi a b v y t); auto.
  Qed.
End Keeps.
(** ** bounds of the exponential function by partial sums *)
Definition eterm (x : R) (i : nat) : R := / INR (fact i) * x ^ i.
Lemma eterm_S x i : eterm x (S i) = eterm x i * x * / INR (S i).
Proof. unfold eterm. rewrite fact_simpl, mult_INR. simpl pow. assert (A := INR_fact_neq_0 i). assert (B : INR (S i) <> 0) by (apply not_0_INR; lia). field. auto. Qed.
Lemma eterm_pos x i : 0 <= x -> 0 <= eterm x i.
Proof. intro H. apply Rmult_le_pos; [left; apply Rinv_0_lt_compat, INR_fact_lt_0|apply pow_le, H]. Qed.
Lemma exp_cv x : Un_cv (sum_f_R0 (eterm x)) (exp x).
Proof. unfold exp. destruct (exist_exp x) as [l H]. exact H. Qed.
Lemma exp_low x n : 0 <= x -> sum_f_R0 (eterm x) n <= exp x.
Proof. intro H. apply sum_incr; [apply exp_cv|]. intro i. apply eterm_pos, H. Qed.
Lemma exp_up x n : 0 <= x <= 1 -> exp x <= sum_f_R0 (eterm x) (S n) + eterm x (S n).
Proof.
  intro H. set (B := sum_f_R0 (eterm x) (S n) + eterm x (S n)).
  assert (D : forall k, sum_f_R0 (eterm x) (S n + k) + eterm x (S n + k) <= B).
  { induction k as [|k IH]; [rewrite Nat.add_0_r; apply Rle_refl|]. eapply Rle_trans; [|exact IH]. rewrite Nat.add_succ_r. change (sum_f_R0 (eterm x) (S (S n + k))) with (sum_f_R0 (eterm x) (S n + k) + eterm x (S (S n + k))).
    rewrite eterm_S. assert (P := eterm_pos x (S n + k) (proj1 H)). set (e := eterm x (S n + k)) in *.
    assert (I : 0 <= / INR (S (S n + k)) <= / 2).
    { split; [left; apply Rinv_0_lt_compat, lt_0_INR; lia|]. apply Rinv_le_contravar; [lra|]. apply (le_INR 2). lia. }
    assert (x * / INR (S (S n + k)) <= / 2) by nra. assert (0 <= x * / INR (S (S n + k))) by nra. nra. }
  apply Rle_cv_lim with (Un := sum_f_R0 (eterm x)) (Vn := fun _ => B).
  - intro k. apply Rle_trans with (sum_f_R0 (eterm x) (S n + k)).
    + clear - H. induction n as [|n IH]; [|eapply Rle_trans; [exact IH|]].
      * simpl Nat.add. change (sum_f_R0 (eterm x) (S k)) with (sum_f_R0 (eterm x) k + eterm x (S k)). assert (P := eterm_pos x (S k) (proj1 H)). lra.
      * change (S (S n) + k)%nat with (S (S n + k)). change (sum_f_R0 (eterm x) (S (S n + k))) with (sum_f_R0 (eterm x) (S n + k) + eterm x (S (S n + k))). assert (P := eterm_pos x (S (S n + k)) (proj1 H)). lra.
    + specialize (D k). assert (P := eterm_pos x (S n + k) (proj1 H)). lra.
  - apply exp_cv.
  - intros eps He. exists 0%nat. intros k _. unfold R_dist. rewrite Rminus_diag_eq, Rabs_R0 by reflexivity. exact He.
Qed.
(** the same with rational numbers *)
Fixpoint qterm (x : Q) (n : nat) : Q := match n with O => 1%Q | S k => Qred (qterm x k * x * (1 # Pos.of_nat (S k))) end.
Fixpoint qsum (x : Q) (n : nat) : Q := match n with O => 1%Q | S k => Qred (qsum x k + qterm x (S k)) end.
Lemma qterm_R x n : Q2R (qterm x n) = eterm (Q2R x) n.
Proof.
  induction n as [|n IH]; [unfold eterm; simpl; unfold Q2R; simpl; field|]. cbn [qterm]. rewrite (Qeq_eqR _ _ (Qred_correct _)), !Q2R_mult, IH, eterm_S. f_equal.
  unfold Q2R. cbn [Qnum Qden]. rewrite Rmult_1_l, INR_IZR_INZ. f_equal. f_equal. lia.
Qed.
Lemma qsum_R x n : Q2R (qsum x n) = sum_f_R0 (eterm (Q2R x)) n.
Proof.
  induction n as [|n IH]; [unfold eterm; simpl; unfold Q2R; simpl; field|]. cbn [qsum]. rewrite (Qeq_eqR _ _ (Qred_correct _)), Q2R_plus, IH, qterm_R. reflexivity.
Qed.
Definition qpow8 (x : Q) : Q := let y := Qred (x * x) in let z := Qred (y * y) in Qred (z * z).
Lemma qpow8_R x : Q2R (qpow8 x) = Q2R x ^ 8.
Proof. unfold qpow8. rewrite !(Qeq_eqR _ _ (Qred_correct _)), !Q2R_mult, !(Qeq_eqR _ _ (Qred_correct _)), !Q2R_mult, !(Qeq_eqR _ _ (Qred_correct _)), !Q2R_mult. ring. Qed.
Lemma exp8 c : exp c = exp (c / 8) ^ 8.
Proof. rewrite <- exp_pow. f_equal. simpl. field. Qed.
Definition low_test (c r : Q) : bool := Qle_bool 0 c && negb (Qle_bool (qpow8 (qsum (c * (1 # 8)) 24)) r).
Definition up_test (c r : Q) : bool := Qle_bool 0 c && Qle_bool c 8 && negb (Qle_bool r (qpow8 (qsum (c * (1 # 8)) 24 + qterm (c * (1 # 8)) 24))).
Lemma Q8 c : Q2R (c * (1 # 8)) = Q2R c / 8.
Proof. rewrite Q2R_mult. unfold Q2R at 2. simpl. field. Qed.
Lemma low_test_ok c r : low_test c r = true -> Q2R r < exp (Q2R c).
Proof.
  unfold low_test. rewrite andb_true_iff, negb_true_iff. intros [C T]. apply Qle_bool_iff, Qle_Rle in C. rewrite RMicromega.Q2R_0 in C.
  assert (T' : (r < qpow8 (qsum (c * (1 # 8)) 24))%Q) by (apply Qnot_le_lt; intro H; apply Qle_bool_iff in H; congruence).
  apply Qlt_Rlt in T'. rewrite qpow8_R, qsum_R, Q8 in T'. rewrite exp8. eapply Rlt_le_trans; [exact T'|]. apply pow_incr. split; [|apply exp_low; lra].
  apply cond_pos_sum. intro i. apply eterm_pos. lra.
Qed.
Lemma up_test_ok c r : up_test c r = true -> exp (Q2R c) < Q2R r.
Proof.
  unfold up_test. rewrite !andb_true_iff, negb_true_iff. intros [[C C8] T]. apply Qle_bool_iff, Qle_Rle in C, C8. rewrite RMicromega.Q2R_0 in C.
  replace (Q2R 8) with 8 in C8 by (unfold Q2R; simpl; field).
  assert (T' : (qpow8 (qsum (c * (1 # 8)) 24 + qterm (c * (1 # 8)) 24) < r)%Q) by (apply Qnot_le_lt; intro H; apply Qle_bool_iff in H; congruence).
  apply Qlt_Rlt in T'. rewrite qpow8_R, Q2R_plus, qsum_R, qterm_R, Q8 in T'. rewrite exp8. eapply Rle_lt_trans; [|exact T']. apply pow_incr. split; [left; apply exp_pos|apply (exp_up _ 23); lra].
Qed.
(** rounding a logarithm between 2 and 8 *)
Lemma rnd_ln r m e : (0 <= e <= 2)%Z -> (2 ^ 52 < m < 2 ^ 53)%Z -> (0 < r)%Q ->
  let d := Z.to_pos (2 ^ (53 - e)) in
  up_test (2 * m - 1 # d) r = true -> low_test (2 * m + 1 # d) r = true -> rnd (ln (Q2R r)) = IZR m * pw (e - 52).
Proof.
  intros E M Pr d U Lw. apply up_test_ok in U. apply low_test_ok in Lw. apply Qlt_Rlt in Pr. rewrite RMicromega.Q2R_0 in Pr.
  assert (Dp : IZR (Zpos d) = pw (53 - e)) by (unfold d; rewrite Z2Pos.id by (apply Z.pow_pos_nonneg; lia); rewrite pw_IZR by lia; reflexivity).
  assert (D0 : 0 < pw (53 - e)) by apply bpow_gt_0.
  apply ln_increasing in U; [|apply exp_pos]. rewrite ln_exp in U. apply ln_increasing in Lw; [|exact Pr]. rewrite ln_exp in Lw.
  unfold Q2R in U, Lw. cbn [Qnum Qden] in U, Lw. fold (Q2R r) in U, Lw. rewrite Dp in U, Lw.
  replace (IZR (Qnum r) * / IZR (Zpos (Qden r))) with (Q2R r) in U, Lw by reflexivity. set (l := ln (Q2R r)) in *.
  rewrite minus_IZR, mult_IZR in U. rewrite plus_IZR, mult_IZR in Lw.
  assert (Half : pw (53 - e) = 2 * pw (52 - e)) by (replace (53 - e)%Z with (1 + (52 - e))%Z by lia; rewrite bpow_plus; reflexivity).
  assert (P2 : 0 < pw (52 - e)) by apply bpow_gt_0.
  assert (U' : IZR m - / 2 < l * pw (52 - e)).
  { apply Rmult_lt_compat_r with (r := pw (52 - e)) in U; [|exact P2]. rewrite Half, Rinv_mult in U by lra. replace ((2 * IZR m - 1) * (/ 2 * / pw (52 - e)) * pw (52 - e)) with (IZR m - / 2) in U by (field; lra). exact U. }
  assert (L' : l * pw (52 - e) < IZR m + / 2).
  { apply Rmult_lt_compat_r with (r := pw (52 - e)) in Lw; [|exact P2]. rewrite Half, Rinv_mult in Lw by lra. replace ((2 * IZR m + 1) * (/ 2 * / pw (52 - e)) * pw (52 - e)) with (IZR m + / 2) in Lw by (field; lra). exact Lw. }
  assert (Mr : IZR (2 ^ 52) + 1 <= IZR m <= IZR (2 ^ 53) - 1) by (split; [rewrite <- plus_IZR; apply IZR_le; lia|rewrite <- minus_IZR; apply IZR_le; lia]).
  assert (W : rnd l = IZR m * pw (e - 52)).
  { destruct (Rlt_le_dec l (pw e)) as [Small|Big].
    - exfalso. apply Rmult_lt_compat_r with (r := pw (52 - e)) in Small; [|exact P2]. rewrite <- bpow_plus in Small. replace (e + (52 - e))%Z with 52%Z in Small by lia. rewrite (pw_IZR 52) in Small by lia. set (y := l * pw (52 - e)) in *. clearbody y. clear - Small U' Mr. simpl Z.pow in *. lra.
    - rewrite (rnd_binade l e); [|lia|split; [exact Big|]].
      + rewrite (near (l * pw (52 - e)) m) by (apply Rabs_lt; lra). reflexivity.
      + apply Rmult_lt_reg_r with (pw (52 - e)); [exact P2|]. rewrite <- bpow_plus. replace (e + 1 + (52 - e))%Z with 53%Z by lia. rewrite (pw_IZR 53) by lia. set (y := l * pw (52 - e)) in *. clearbody y. clear - L' Mr. simpl Z.pow in *. lra. }
  exact W.
Qed.
(** ** with a correctly rounded logarithm *)
Definition log_rounded {L : Libm} : Prop := forall x r, is x r -> log_dom r -> is (flog x) (rnd (ln r)).
Section Rounded.
  Context {L : Libm}.
  Hypotheses (RL : log_rounded) (HE : accurate fexp exp exp_dom).
  Lemma correct_accurate : accurate flog ln log_dom.
  Proof.
    intros x r X D. exists (rnd (ln r)). split; [apply RL; assumption|]. apply rounded_rel.
    destruct (ln_away r (is_fmt _ _ X)) as [-> | Q]; [apply Rlt_le_trans with (pw (-1000)); [apply bpow_gt_0|apply D]|left; apply ln_1|].
    right. eapply Rle_trans; [|exact Q]. apply bpow_le. lia.
  Qed.
  Lemma correct_monotone : monotone flog log_dom.
  Proof.
    intros x y r s t u X Y Dr Ds H T U. assert (T' := RL x r X Dr). assert (U' := RL y s Y Ds).
    assert (t = rnd (ln r)) as -> by (destruct T, T'; congruence). assert (u = rnd (ln s)) as -> by (destruct U, U'; congruence).
    apply rnd_le, ln_mono; [|exact H]. apply Rlt_le_trans with (pw (-1000)); [apply bpow_gt_0|apply Dr].
  Qed.
  Lemma log_is x r z m e d : is x z -> z = Q2R r -> 1 <= z <= 1024 -> d = Z.to_pos (2 ^ (53 - e)) -> (0 <= e <= 2)%Z -> (2 ^ 52 < m < 2 ^ 53)%Z ->
    up_test (2 * m - 1 # d) r = true -> low_test (2 * m + 1 # d) r = true -> is (flog x) (IZR m * pw (e - 52)).
  Proof.
    intros X -> B -> E M U Lw. rewrite <- (rnd_ln r m e E M).
    - apply RL; [exact X|]. assert (pw (-1000) <= pw 0) by (apply bpow_le; lia). change (pw 0) with 1 in *. assert (pw 10 <= pw 1000) by (apply bpow_le; lia). change (pw 10) with 1024 in *. split; lra.
    - apply Rlt_Qlt. rewrite RMicromega.Q2R_0. lra.
    - exact U.
    - exact Lw.
  Qed.
  Lemma is_dyadic m k : (Z.abs m <= 2 ^ 53)%Z -> (0 <= k <= 53)%Z -> is (fdiv (of_Z m) (of_Z (2 ^ k))) (IZR m * pw (- k)).
  Proof.
    intros M K. assert (Z.abs (2 ^ k) <= 2 ^ 53)%Z by (rewrite Z.abs_eq by (apply Z.pow_nonneg; lia); apply Z.pow_le_mono_r; lia).
    assert (F : fmt (IZR m * pw (- k))) by (replace (- k)%Z with ((52 - k) - 52)%Z by lia; apply multiple_fmt; lia).
    assert (B : Rabs (IZR m * pw (- k)) <= pw 53).
    { rewrite Rabs_mult, (Rabs_pos_eq (pw _)) by apply bpow_ge_0. rewrite <- (Rmult_1_r (pw 53)). apply Rmult_le_compat; [apply Rabs_pos|apply bpow_ge_0| |].
      - rewrite <- abs_IZR. change (pw 53) with (IZR (2 ^ 53)). apply IZR_le. exact M.
      - apply (bpow_le radix2 _ 0). lia. }
    assert (Ek : IZR m / IZR (2 ^ k) = IZR m * pw (- k)) by (unfold Rdiv; rewrite bpow_opp, (pw_IZR k) by lia; reflexivity).
    rewrite <- (rnd_fmt _ F), <- Ek. apply (fdiv_is _ _ _ _ 53); [apply of_Z_is; exact M|apply of_Z_is; assumption| |lia|rewrite Ek; exact B].
    apply not_0_IZR. assert (0 < 2 ^ k)%Z by (apply Z.pow_pos_nonneg; lia). lia.
  Qed.
  (** n in 1..100 on a logarithmic scale: an entry that is sampled for 14 is never the entry of 14 *)
  Lemma never_14 x y : float_legal_vector x = true -> log_int_sample 1 100 x = Ok y -> log_int_value 1 100 y = Ok 14%Z ->
    feq y (log_to_vector (of_Z 1) (of_Z 100) (of_Z 14)) = false /\ flt (log_to_vector (of_Z 1) (of_Z 100) (of_Z 14)) y = true.
  Proof.
    assert (HL := correct_accurate). assert (ML := correct_monotone). assert (R : log_range 1 100) by (split; lia). intros X Y V.
    destruct (log_bounds HL 1 100 R) as (a & b & Rg & Ea & Eb). destruct (unit_finite x X) as (r & Xr & Ur).
    destruct (sample_is HL ML HE 1 100 a b x r R Rg Ea Eb Xr Ur) as (y' & z & i & t & Y' & _ & _ & Bi & T & Bt & Et & Iy & W).
    assert (y' = y) by congruence. subst y'. destruct (near_decode HE 1 100 a b (1 + i) y t R ltac:(lia) Rg Bt Et Iy) as [V' _].
    assert (V2 : (14 = 1 + i)%Z) by congruence. assert (i = 13)%Z by lia. subst i. clear V2.
    set (w := fquantize _ _ _ _) in *. clearbody w. clear Y' V V' Et Bi Y Xr Ur X.
    (* the logarithms *)
    assert (A0 : a = 0).
    { assert (X := r_lo _ _ _ _ _ Rg). assert (X' := RL (of_Z 1) 1 (of_Z_is 1 ltac:(lia))). rewrite ln_1, round_0 in X' by auto with typeclass_instances.
      destruct X as [_ <-]. apply X'. split; [apply (bpow_le radix2 (-1000) 0); lia|apply (bpow_le radix2 0 1000); lia]. }
    assert (Xb : is (flog (of_Z 100)) (IZR 5184960683398422 * pw (2 - 52))).
    { apply (log_is _ (100 # 1) _ 5184960683398422 2 2251799813685248 (of_Z_is 100 ltac:(lia))); [unfold Q2R; simpl; field|lra|reflexivity|lia|lia|vm_compute; reflexivity|vm_compute; reflexivity]. }
    assert (X14 : is (flog (of_Z 14)) (IZR 5942628803132327 * pw (1 - 52))).
    { apply (log_is _ (14 # 1) _ 5942628803132327 1 4503599627370496 (of_Z_is 14 ltac:(lia))); [unfold Q2R; simpl; field|lra|reflexivity|lia|lia|vm_compute; reflexivity|vm_compute; reflexivity]. }
    assert (Wq : quantized 1 100 13 = IZR 7881299347898369 * pw (- 49)).
    { assert (F1 := quotient_is 13 99 ltac:(lia) ltac:(lia)). set (q := rnd (IZR 13 / IZR 99)) in *.
      assert (Q1 : 0 <= q <= 1) by (apply (rnd_int _ 0 1); try lia; apply frac_unit; lia).
      assert (F2 := fmul_is _ _ _ _ 7 F1 (of_Z_is 99 ltac:(lia)) ltac:(lia) ltac:(change (pw 7) with 128; apply Rabs_le; lra)).
      assert (Q2 : 0 <= rnd (q * IZR 99) <= 99) by (apply (rnd_int _ 0 99); try lia; lra).
      assert (F3 := fadd_is _ _ _ _ 7 F2 (of_Z_is 1 ltac:(lia)) ltac:(lia) ltac:(change (pw 7) with 128; apply Rabs_le; lra)).
      assert (D : is (fdiv (of_Z 7881299347898369) (of_Z (2 ^ 49))) (IZR 7881299347898369 * pw (- 49))).
      { apply is_dyadic; lia. }
      apply (feq_iff _ _ _ _ F3 D). vm_compute. reflexivity. }
    assert (Xw : is (flog w) (IZR 5942628803132328 * pw (1 - 52))).
    { apply (log_is w (7881299347898369 # 562949953421312) _ 5942628803132328 1 4503599627370496 W); [| |reflexivity|lia|lia|vm_compute; reflexivity|vm_compute; reflexivity].
      - rewrite Wq. unfold Q2R. cbn [Qnum Qden]. change (pw (-49)) with (/ IZR (2 ^ 49)). reflexivity.
      - rewrite Wq. change (pw (-49)) with (/ IZR (2 ^ 49)). simpl Z.pow. lra. }
    assert (t = IZR 5942628803132328 * pw (1 - 52)) by (destruct T, Xw; congruence). subst t.
    assert (b = IZR 5184960683398422 * pw (2 - 52)) by (destruct (r_hi _ _ _ _ _ Rg), Xb; congruence). subst b a.
    assert (B14 : 0 <= IZR 5942628803132327 * pw (1 - 52) <= IZR 5184960683398422 * pw (2 - 52)).
    { change (pw (1 - 52)) with (/ IZR (2 ^ 51)). change (pw (2 - 52)) with (/ IZR (2 ^ 50)). simpl Z.pow. lra. }
    assert (E : (0 <= 5 <= 975)%Z) by lia. assert (I14 := entry_is _ _ _ _ _ Rg E _ _ X14 B14).
    change (float_to_vector (flog (of_Z 1)) (flog (of_Z 100)) (flog (of_Z 14))) with (log_to_vector (of_Z 1) (of_Z 100) (of_Z 14)) in I14.
    (* the same with known numbers *)
    assert (Db : is (fdiv (of_Z 5184960683398422) (of_Z (2 ^ 50))) (IZR 5184960683398422 * pw (2 - 52))).
    { apply (is_dyadic 5184960683398422 50); lia. }
    assert (D1 : is (fdiv (of_Z 5942628803132327) (of_Z (2 ^ 51))) (IZR 5942628803132327 * pw (1 - 52))).
    { apply (is_dyadic 5942628803132327 51); lia. }
    assert (D2 : is (fdiv (of_Z 5942628803132328) (of_Z (2 ^ 51))) (IZR 5942628803132328 * pw (1 - 52))).
    { apply (is_dyadic 5942628803132328 51); lia. }
    assert (Rg' : range 5 f0 (fdiv (of_Z 5184960683398422) (of_Z (2 ^ 50))) 0 (IZR 5184960683398422 * pw (2 - 52))).
    { destruct Rg as [_ _ G1 G2 G3]. constructor; auto. apply f0_is. }
    assert (J1 := entry_is _ _ _ _ _ Rg' E _ _ D1 B14). assert (J2 := entry_is _ _ _ _ _ Rg' E _ _ D2 Bt).
    rewrite (feq_is _ _ _ _ Iy I14), <- (feq_is _ _ _ _ J2 J1), (flt_is _ _ _ _ I14 Iy), <- (flt_is _ _ _ _ J1 J2). split; vm_compute; reflexivity.
  Qed.
  (** so the condition n == 14 never holds of a sampled vector whose value of n is 14, and a clause that forbids n = 14 never rejects one; the condition n > 14 holds of it *)
  Theorem C134_never_refuted x y : float_legal_vector x = true -> log_int_sample 1 100 x = Ok y -> log_int_value 1 100 y = Ok 14%Z ->
    forall o, o <> CLt -> log_int_test_vector o 1 100 y 14 = negb (int_test_value o 14 14).
  Proof. intros X Y V o O. destruct (never_14 x y X Y V) as [N G]. unfold log_int_test_vector. destruct o; unfold cmpF; rewrite ?N, ?G; try reflexivity. destruct (O eq_refl). Qed.
  Theorem C134_exact_refuted : exists x y, float_legal_vector x = true /\ log_int_sample 1 100 x = Ok y /\ log_int_value 1 100 y = Ok 14%Z /\
    feq y (log_to_vector (of_Z 1) (of_Z 100) (of_Z 14)) = false.
  Proof.
    assert (HL := correct_accurate). assert (ML := correct_monotone). assert (R : log_range 1 100) by (split; lia).
    destruct (C104_unit HL 1 100 14 14 R ltac:(lia) ltac:(lia)) as (Lx & _). destruct (C134_keeps_partial HL ML HE 1 100 14 R ltac:(lia) ltac:(lia)) as (y & Y & V & _).
    exists (log_to_vector (of_Z 1) (of_Z 100) (of_Z 14)), y. repeat split; auto. apply (never_14 _ y Lx Y V).
  Qed.
End Rounded.
(** the functions rounded correctly meet all this *)
Lemma rounded_correct : @log_rounded rounded.
Proof. intros x r [F <-] D. apply (fl_is _ 10); [lia|now apply ln_size]. Qed.
(** UniformIntegerHyperparameter("n", 1, 100, log=True) *)
Example C134_ex : (forall x, float_legal_vector x = true -> exists y v, @log_int_sample rounded 1 100 x = Ok y /\ (1 <= v <= 100)%Z /\ @log_int_value rounded 1 100 y = Ok v) /\
  (exists x y, float_legal_vector x = true /\ @log_int_sample rounded 1 100 x = Ok y /\ @log_int_value rounded 1 100 y = Ok 14%Z /\ @log_int_test_vector rounded CEq 1 100 y 14 = false).
Proof.
  split.
  - intros x X. destruct (@C134_sample rounded rounded_log rounded_monotone rounded_exp 1 100 x ltac:(split; lia) X) as (y & v & Y & _ & B & V & _). exists y, v. auto.
  - destruct (@C134_exact_refuted rounded rounded_correct rounded_exp) as (x & y & X & Y & V & N). exists x, y. auto.
Qed.
(** ** integers on a linear scale: NormalInteger and BetaInteger (distributions.py:521-541 with 536-537).
    Whatever the distribution draws in the unit interval becomes exactly the entry of an integer *)
Theorem C101_discretized lo hi x : range_ok 49 lo hi -> float_legal_vector x = true ->
  exists v, (lo <= v <= hi)%Z /\ feq (fquantize x f0 f1 (hi - lo + 1)) (int_to_vector lo hi v) = true /\
    int_to_value lo hi (fquantize x f0 f1 (hi - lo + 1)) = Ok v.
Proof.
  intros R X. destruct (unit_finite x X) as (r & Xr & Ur). assert (R' : range_ok 52 lo hi) by (destruct R as (R1 & R2 & R3); repeat split; lia).
  assert (Q := quantize_is (hi - lo + 1) x r ltac:(destruct R as (R1 & R2 & R3); lia) Xr Ur). cbv zeta in Q. set (i := Z.min _ _) in Q. destruct Q as [Bi Q].
  assert (V : (lo <= lo + i <= hi)%Z) by lia. assert (E := int_entry lo hi (lo + i) R' V).
  replace (hi - lo + 1 - 1)%Z with (hi - lo)%Z in Q by lia. replace (lo + i - lo)%Z with i in E by lia.
  exists (lo + i)%Z. split; [exact V|]. split; [apply (feq_iff _ _ _ _ Q E); reflexivity|].
  destruct (int_error 49 lo hi (lo + i) ltac:(lia) R V) as (q & Iq & Eq & _).
  assert (R0 := proj1 R). assert (U : 0 <= rnd (IZR i / IZR (hi - lo)) <= 1) by (apply (rnd_int _ 0 1); try lia; apply frac_unit; lia).
  destruct (unsafe_is lo hi _ _ R' Q U) as (Q1 & _). destruct (unsafe_is lo hi _ _ R' E U) as (Q2 & _).
  assert (q = rnd (rnd (rnd (IZR i / IZR (hi - lo)) * IZR (hi - lo)) + IZR lo)) by (destruct Iq, Q2; congruence). subst q.
  apply frint_is in Q1. rewrite (near _ (lo + i)) in Q1.
  - destruct R as (R1 & R2 & R3). apply to_i64_is; auto. lia.
  - eapply Rle_lt_trans; [exact Eq|]. change (pw (49 - 53)) with (/ 16). lra.
Qed.
(** NormalIntegerHyperparameter("n", mu, sigma, lower=-5, upper=1000): a number that is drawn *)
Example C101_discretized_ex : float_legal_vector (fdiv f1 (of_Z 3)) = true /\ range_ok 49 (-5) 1000 /\
  int_to_value (-5) 1000 (fquantize (fdiv f1 (of_Z 3)) f0 f1 1006) = Ok 330%Z.
Proof. split; [vm_compute; reflexivity|]. split; [repeat split; lia|vm_compute; reflexivity]. Qed.
(** ** tests against another value are right on what is sampled *)
Section Differ.
  Context {L : Libm}.
  Hypotheses (HL : accurate flog ln log_dom) (ML : monotone flog log_dom) (HE : accurate fexp exp exp_dom).
  Lemma ln_apart v c : (1 <= v < c)%Z -> (c <= 2 ^ 42)%Z -> 64 * pw (5 - 53) <= ln (IZR c) - ln (IZR v).
  Proof.
    intros V C. assert (Pv : 1 <= IZR v) by (apply (IZR_le 1); lia). assert (Pc : IZR v + 1 <= IZR c <= 4398046511104) by (split; [rewrite <- plus_IZR|]; apply IZR_le; lia).
    assert (H := ln_sub1 (IZR v / IZR c)). assert (Ic : 0 < / IZR c) by (apply Rinv_0_lt_compat; lra). specialize (H ltac:(apply Rmult_lt_0_compat; lra)).
    unfold Rdiv in H. rewrite ln_mult, ln_Rinv in H by lra. assert (Q : / 4398046511104 <= / IZR c) by (apply Rinv_le_contravar; lra).
    assert (R : IZR v * / IZR c <= (IZR c - 1) * / IZR c) by (apply Rmult_le_compat_r; lra). rewrite Rmult_minus_distr_r, Rinv_r in R by lra.
    rewrite pw48. simpl Z.pow. lra.
  Qed.
  Lemma entry_apart a b A B t u v c : range 5 A B a b -> a <= t <= b -> a <= u <= b -> (1 <= v < c)%Z -> (c <= 2 ^ 42)%Z ->
    Rabs (t - ln (IZR v)) <= 9 / 2 * pw (5 - 53) -> Rabs (u - ln (IZR c)) <= 9 / 2 * pw (5 - 53) -> entry a b t < entry a b u.
  Proof.
    intros Rg T U V C Et Eu. assert (E : (0 <= 5 <= 975)%Z) by lia. assert (G := ln_apart v c V C).
    assert (E1 := raw_error _ _ _ _ _ Rg E t T). assert (E2 := raw_error _ _ _ _ _ Rg E u U). rewrite pw48 in *. simpl Z.pow in *.
    apply Rabs_le_inv in Et, Eu, E1, E2. destruct (Rlt_le_dec (entry a b t) (entry a b u)) as [|H]; [assumption|exfalso].
    apply (raw_le _ _ _ _ _ Rg E) in H. lra.
  Qed.
  Theorem C134_differ o lo hi x y v c : log_range lo hi -> float_legal_vector x = true -> log_int_sample lo hi x = Ok y -> log_int_value lo hi y = Ok v ->
    (lo <= c <= hi)%Z -> c <> v -> log_int_test_vector o lo hi y c = int_test_value o v c.
  Proof.
    intros R X Y V C N. destruct (unit_finite x X) as (r & Xr & Ur). destruct (log_bounds HL lo hi R) as (a & b & Rg & Ea & Eb).
    destruct (sample_is HL ML HE lo hi a b x r R Rg Ea Eb Xr Ur) as (y' & z & i & t & Y' & _ & _ & Bi & _ & Bt & Et & Iy & _).
    assert (y' = y) by congruence. subst y'. destruct (near_decode HE lo hi a b (lo + i) y t R ltac:(lia) Rg Bt Et Iy) as [V' _].
    assert (v = lo + i)%Z by congruence. subst v. destruct R as [R1 R2].
    destruct (log_int HL c ltac:(lia)) as (u & U & Eu & _).
    assert (Bu : a <= u <= b) by (split; [apply (log_le HL lo c a u); try lia; auto; apply (r_lo _ _ _ _ _ Rg)|apply (log_le HL c hi u b); try lia; auto; apply (r_hi _ _ _ _ _ Rg)]).
    assert (Ic := entry_is _ _ _ _ _ Rg ltac:(lia) _ _ U Bu). change (float_to_vector (flog (of_Z lo)) (flog (of_Z hi)) (flog (of_Z c))) with (log_to_vector (of_Z lo) (of_Z hi) (of_Z c)) in Ic.
    assert (Eu' : Rabs (u - ln (IZR c)) <= 9 / 2 * pw (5 - 53)) by (assert (P := bpow_gt_0 radix2 (5 - 53)); lra).
    unfold log_int_test_vector, int_test_value. set (k := log_to_vector _ _ _) in *.
    destruct (Z_lt_le_dec (lo + i) c) as [H|H].
    - assert (K := entry_apart a b _ _ t u (lo + i) c Rg Bt Bu ltac:(lia) ltac:(lia) Et Eu').
      destruct o; simpl; rewrite ?(feq_is _ _ _ _ Iy Ic), ?(flt_is _ _ _ _ Iy Ic), ?(flt_is _ _ _ _ Ic Iy), ?Req_bool_false, ?Rlt_bool_true, ?Rlt_bool_false by lra; symmetry;
        [apply Z.eqb_neq|apply negb_true_iff, Z.eqb_neq|apply Z.ltb_lt|apply Z.ltb_ge]; lia.
    - assert (K := entry_apart a b _ _ u t c (lo + i) Rg Bu Bt ltac:(lia) ltac:(lia) Eu' Et).
      destruct o; simpl; rewrite ?(feq_is _ _ _ _ Iy Ic), ?(flt_is _ _ _ _ Iy Ic), ?(flt_is _ _ _ _ Ic Iy), ?Req_bool_false, ?Rlt_bool_true, ?Rlt_bool_false by lra; symmetry;
        [apply Z.eqb_neq|apply negb_true_iff, Z.eqb_neq|apply Z.ltb_ge|apply Z.ltb_lt]; lia.
  Qed.
End Differ.
(** on a linear scale all tests are right *)
Theorem C134_linear o lo hi x c : range_ok 49 lo hi -> float_legal_vector x = true -> (lo <= c <= hi)%Z ->
  exists v, (lo <= v <= hi)%Z /\ int_to_value lo hi (fquantize x f0 f1 (hi - lo + 1)) = Ok v /\ int_test_vector o lo hi (fquantize x f0 f1 (hi - lo + 1)) c = int_test_value o v c.
Proof.
  intros R X C. destruct (C101_discretized lo hi x R X) as (v & V & F & D). exists v. split; [exact V|]. split; [exact D|]. rewrite <- (C106_int o lo hi v c R V C).
  assert (R' : range_ok 52 lo hi) by (destruct R as (R1 & R2 & R3); repeat split; lia).
  assert (Iv := int_entry lo hi v R' V). assert (Ic := int_entry lo hi c R' C). destruct (unit_finite x X) as (r & Xr & Ur).
  assert (Q := quantize_is (hi - lo + 1) x r ltac:(destruct R as (R1 & R2 & R3); lia) Xr Ur). cbv zeta in Q. destruct Q as [_ Q].
  rewrite (feq_iff _ _ _ _ Q Iv) in F. rewrite F in Q.
  unfold int_test_vector. destruct o; simpl; rewrite ?(feq_is _ _ _ _ Q Ic), ?(feq_is _ _ _ _ Iv Ic), ?(flt_is _ _ _ _ Q Ic), ?(flt_is _ _ _ _ Iv Ic), ?(flt_is _ _ _ _ Ic Q), ?(flt_is _ _ _ _ Ic Iv); reflexivity.
Qed.
(** ** conditions about floats on a logarithmic scale *)
Section LogFloat.
  Context {L : Libm}.
  Hypotheses (HL : accurate flog ln log_dom) (ML : monotone flog log_dom).
  (** as on a linear scale (C106_float_order): equal values have equal entries, and what is less by entries is less by values *)
  Theorem C106_log_float_order lo hi v c : log_bounded lo hi -> float_legal lo hi v = true -> float_legal lo hi c = true ->
    let x := log_to_vector lo hi v in
    (float_test_value CEq v c = true -> log_float_test_vector CEq lo hi x c = true) /\
    (log_float_test_vector CLt lo hi x c = true -> float_test_value CLt v c = true) /\
    (log_float_test_vector CGt lo hi x c = true -> float_test_value CGt v c = true).
  Proof.
    intros B V C x. destruct (C105_entries HL ML lo hi v B V) as (Lv & _ & _ & Mv). destruct (C105_entries HL ML lo hi c B C) as (Lc & _ & _ & Mc).
    fold x in Lv, Mv, Mc. set (y := log_to_vector lo hi c) in *. specialize (Mv c C). specialize (Mc v V). fold y in Mv. fold x in Mc.
    destruct (unit_finite x Lv) as (p & P & _). destruct (unit_finite y Lc) as (q & Q & _). destruct B as (l & h & S & _).
    destruct (between_finite _ _ _ _ _ (s_lo _ _ _ _ _ S) (s_hi _ _ _ _ _ S) V) as (r & R & _).
    destruct (between_finite _ _ _ _ _ (s_lo _ _ _ _ _ S) (s_hi _ _ _ _ _ S) C) as (s & Sc & _).
    rewrite (fle_iff _ _ _ _ R Sc), (fle_iff _ _ _ _ P Q) in Mv. rewrite (fle_iff _ _ _ _ Sc R), (fle_iff _ _ _ _ Q P) in Mc.
    unfold log_float_test_vector, float_test_value. fold y. rewrite !(cmpF_iff _ _ _ _ _ R Sc), !(cmpF_iff _ _ _ _ _ P Q). simpl.
    split; [intros ->; specialize (Mv (Rle_refl _)); specialize (Mc (Rle_refl _)); lra|]. split; intro H.
    - destruct (Rlt_le_dec r s) as [|G]; [assumption|]. specialize (Mc G). lra.
    - destruct (Rlt_le_dec s r) as [|G]; [assumption|]. specialize (Mv G). lra.
  Qed.
  (** on [256, 512] a condition x == c holds of the vector of another value *)
  Theorem C106_log_refuted : let lo := fround13 (of_Z 256) in let hi := fround13 (of_Z 512) in
    exists v c, float_legal lo hi v = true /\ float_legal lo hi c = true /\ feq (float_stored v) v = true /\ feq (float_stored c) c = true /\
      float_test_value CEq v c = false /\ log_float_test_vector CEq lo hi (log_to_vector lo hi v) c = true.
  Proof.
    intros lo hi. destruct (C105_refuted HL ML) as (_ & B & (v & w & V & W & Sv & Sw & N & Q) & _). exists v, w. repeat (split; [assumption|]).
    unfold log_float_test_vector. fold lo hi in Q. rewrite Q. destruct (C105_entries HL ML lo hi w B W) as (Lw & _). destruct (unit_finite _ Lw) as (q & I & _).
    apply (feq_iff _ _ _ _ I I). reflexivity.
  Qed.
End LogFloat.
