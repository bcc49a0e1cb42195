(** * C104, C105: logarithmic scales in float64 *)
From Coq Require Import ZArith Reals Lra Lia Bool List.
From Flocq Require Import Core IEEE754.BinarySingleNaN Relative Plus_error.
From Verif Require Import Base Numeric Float FloatProofs FloatRound FloatLog Properties_Float Properties_Round.
Import ListNotations.
Open Scope R_scope.

(** ** Logarithms *)
Lemma exp_ge x : 1 + x <= exp x.
Proof. destruct (Req_dec x 0) as [->|N]; [rewrite exp_0; lra|]. left. apply exp_ineq1. auto. Qed.
Lemma ln_sub1 x : 0 < x -> ln x <= x - 1.
Proof. intro H. assert (E := exp_ge (ln x)). rewrite exp_ln in E by auto. lra. Qed.
Lemma exp_le x y : x <= y -> exp x <= exp y.
Proof. intros [H| ->]; [left; now apply exp_increasing|lra]. Qed.
Lemma ln_mono x y : 0 < x -> x <= y -> ln x <= ln y.
Proof. intros P [H| ->]; [left; now apply ln_increasing|lra]. Qed.
Lemma exp_pow n x : exp (INR n * x) = exp x ^ n.
Proof. induction n as [|n IH]; [simpl; rewrite Rmult_0_l; apply exp_0|]. rewrite S_INR, Rmult_plus_distr_r, exp_plus, IH, Rmult_1_l. simpl. ring. Qed.
Lemma ln2_le : ln 2 <= 3 / 4.
Proof.
  rewrite <- (ln_exp (3 / 4)). apply ln_mono; [lra|].
  assert (H := exp_ge (3 / 32)). replace (3 / 4) with (INR 8 * (3 / 32)) by (simpl; field). rewrite exp_pow.
  apply Rle_trans with ((1 + 3 / 32) ^ 8); [simpl; lra|]. apply pow_incr. lra.
Qed.
Lemma ln_pw e : ln (pw e) = IZR e * ln 2.
Proof. rewrite bpow_powerRZ, powerRZ_Rpower by (simpl; lra). unfold Rpower. rewrite ln_exp. reflexivity. Qed.
(** relative change of the exponential *)
Lemma exp_change d x : Rabs x <= d -> d <= / 2 -> Rabs (exp x - 1) <= 2 * d.
Proof.
  intros X D. assert (A := exp_ge x). assert (B := exp_ge (- x)). rewrite exp_Ropp in B. assert (P := exp_pos x). apply Rabs_le_inv in X.
  assert (C : exp x * (1 - x) <= 1).
  { apply Rle_trans with (exp x * / exp x); [apply Rmult_le_compat_l; lra|]. rewrite Rinv_r; lra. }
  apply Rabs_le. split; [lra|]. destruct (Rle_lt_dec x 0); nra.
Qed.

(** ** The scale between the logarithms, before clipping *)
Section Raw.
  Variables (e : Z) (lo hi : f64) (a b : R).
  Hypotheses (Rg : range e lo hi a b) (E : (0 <= e <= 975)%Z).
  Definition raw (x : R) : R := rnd (rnd (x * rnd (b - a)) + a).
  Lemma raw_is x r : is x r -> 0 <= r <= 1 -> is (fscale x lo hi) (raw r).
  Proof.
    intros X B. unfold fscale. apply (fadd_is _ _ _ _ (e + 2)); [|apply (r_lo _ _ _ _ _ Rg)|lia|exact (sum_bound _ _ _ _ _ Rg E r B)].
    apply (fmul_is _ _ _ _ (e + 1)); [auto|exact (d_is _ _ _ _ _ Rg E)|lia|].
    assert (P := prod_bound _ _ _ _ _ Rg E r B). assert (D := d_pos _ _ _ _ _ Rg E). rewrite Rabs_pos_eq; lra.
  Qed.
  Lemma raw_error v : a <= v <= b -> Rabs (raw (entry a b v) - v) <= 5 * pw (e - 53).
  Proof.
    intro V. assert (Q := entry_bound _ _ _ _ _ Rg E v V). assert (D := d_pos _ _ _ _ _ Rg E). set (d := rnd (b - a)) in *.
    assert (E1 : Rabs (rnd (v - a) - (v - a)) <= pw (e - 53)).
    { replace (e - 53)%Z with (e + 1 - 54)%Z by lia. apply err_le; [lia|]. eapply Rle_trans; [|exact (size_bound _ _ _ _ _ Rg)]. assert (L := r_lt _ _ _ _ _ Rg). rewrite !Rabs_pos_eq; lra. }
    assert (E2 : Rabs (entry a b v * d - rnd (v - a)) <= pw (e - 53)).
    { replace (rnd (v - a)) with (rnd (v - a) / d * d) by (field; lra). rewrite <- Rmult_minus_distr_r, Rabs_mult, (Rabs_pos_eq d) by lra.
      replace (pw (e - 53)) with (pw (0 - 54) * pw (e + 1)) by (rewrite <- bpow_plus; f_equal; lia).
      assert (Qb := quot_bound _ _ _ _ _ Rg E v V). apply Rmult_le_compat; [apply Rabs_pos|lra| |lra]. apply err_le; [lia|]. rewrite Rabs_pos_eq; apply Qb. }
    assert (E3 : Rabs (rnd (entry a b v * d) - entry a b v * d) <= pw (e - 53)).
    { replace (e - 53)%Z with (e + 1 - 54)%Z by lia. apply err_le; [lia|]. assert (P := prod_bound _ _ _ _ _ Rg E _ Q). fold d in P. rewrite Rabs_pos_eq; lra. }
    assert (E4 : Rabs (raw (entry a b v) - (rnd (entry a b v * d) + a)) <= 2 * pw (e - 53)).
    { replace (2 * pw (e - 53)) with (pw (e + 2 - 54)) by (replace (e + 2 - 54)%Z with (1 + (e - 53))%Z by lia; rewrite bpow_plus; reflexivity).
      apply err_le; [lia|]. exact (sum_bound _ _ _ _ _ Rg E _ Q). }
    revert E1 E2 E3 E4. unfold Rabs. repeat destruct Rcase_abs; lra.
  Qed.
  Lemma raw_le x y : x <= y -> raw x <= raw y.
  Proof.
    intro H. assert (D := d_pos _ _ _ _ _ Rg E). apply rnd_le. apply Rplus_le_compat_r. apply rnd_le. apply Rmult_le_compat_r; lra.
  Qed.
  Lemma raw_0 : raw 0 = a.
  Proof. unfold raw. rewrite Rmult_0_l, round_0, Rplus_0_l by auto with typeclass_instances. apply rnd_fmt. exact (is_fmt _ _ (r_lo _ _ _ _ _ Rg)). Qed.
  Lemma raw_1 : Rabs (raw 1 - b) <= 5 * pw (e - 53).
  Proof. assert (L := r_lt _ _ _ _ _ Rg). rewrite <- (entry_hi _ _ _ _ _ Rg E). apply raw_error. lra. Qed.
End Raw.

(** ** C104: integers on logarithmic scales *)
Definition log_range (lo hi : Z) : Prop := (1 <= lo < hi)%Z /\ (hi <= 2 ^ 42)%Z.
Lemma pw51 : pw (-51) = / IZR (2 ^ 51). Proof. reflexivity. Qed.
Lemma pw48 : pw (5 - 53) = / IZR (2 ^ 48). Proof. reflexivity. Qed.
Section Ints.
  Context {L : Libm}.
  Hypotheses (HL : accurate flog ln log_dom) (HE : accurate fexp exp exp_dom).

  Lemma ln_int n : (1 <= n <= 2 ^ 42)%Z -> 0 <= ln (IZR n) <= 63 / 2.
  Proof.
    intro N. assert (1 <= IZR n) by (apply (IZR_le 1); lia). assert (IZR n <= pw 42) by (change (pw 42) with (IZR (2 ^ 42)); apply IZR_le; lia).
    split; [rewrite <- ln_1; apply ln_mono; lra|]. apply Rle_trans with (ln (pw 42)); [apply ln_mono; lra|]. rewrite ln_pw. assert (Q := ln2_le). lra.
  Qed.
  Lemma log_int n : (1 <= n <= 2 ^ 42)%Z -> exists t, is (flog (of_Z n)) t /\ Rabs (t - ln (IZR n)) <= 4 * pw (5 - 53) /\ 0 <= t <= 32.
  Proof.
    intro N. assert (Q := ln_int n N). destruct (HL (of_Z n) (IZR n)) as (t & It & Et); [apply of_Z_is; lia| |].
    - split; [apply Rle_trans with (pw 0); [apply bpow_le; lia|apply (IZR_le 1); lia]|]. apply Rle_trans with (pw 42); [change (pw 42) with (IZR (2 ^ 42)); apply IZR_le; lia|apply bpow_le; lia].
    - exists t. split; [auto|]. rewrite (Rabs_pos_eq (ln (IZR n))) in Et by lra. rewrite pw51 in Et. rewrite pw48. simpl Z.pow in *.
      apply Rabs_le_inv in Et. split; [apply Rabs_le|]; lra.
  Qed.
  Lemma ln_gap m n : (1 <= m < n)%Z -> / IZR n <= ln (IZR n) - ln (IZR m).
  Proof.
    intro N. assert (1 <= IZR m) by (apply (IZR_le 1); lia). assert (IZR m + 1 <= IZR n) by (rewrite <- plus_IZR; apply IZR_le; lia).
    assert (Q : ln (IZR m / IZR n) <= IZR m / IZR n - 1) by (apply ln_sub1; apply Rmult_lt_0_compat; [lra|apply Rinv_0_lt_compat; lra]).
    unfold Rdiv in Q. rewrite ln_mult, ln_Rinv in Q by (try apply Rinv_0_lt_compat; lra). assert (P : 0 < / IZR n) by (apply Rinv_0_lt_compat; lra).
    assert (S : (IZR m + 1) * / IZR n <= 1) by (apply Rmult_le_reg_r with (IZR n); [lra|]; rewrite Rmult_assoc, Rinv_l by lra; lra). lra.
  Qed.
  Lemma log_le m n t u : (1 <= m <= n)%Z -> (n <= 2 ^ 42)%Z -> is (flog (of_Z m)) t -> is (flog (of_Z n)) u -> t <= u /\ ((m < n)%Z -> t < u).
  Proof.
    intros M N T U. destruct (Z.eq_dec m n) as [->|D].
    { assert (t = u) by (destruct T, U; congruence). split; [lra|lia]. }
    destruct (log_int m ltac:(lia)) as (t' & T' & Et & _). destruct (log_int n ltac:(lia)) as (u' & U' & Eu & _).
    assert (t' = t) as -> by (destruct T, T'; congruence). assert (u' = u) as -> by (destruct U, U'; congruence).
    assert (G := ln_gap m n ltac:(lia)). assert (Nn : IZR n <= IZR (2 ^ 42)) by (apply IZR_le; lia). assert (1 <= IZR n) by (apply (IZR_le 1); lia).
    assert (Iv : / IZR (2 ^ 42) <= / IZR n) by (apply Rinv_le; lra). rewrite pw48 in *. simpl Z.pow in *. apply Rabs_le_inv in Et, Eu. split; [|intros _]; lra.
  Qed.
  Lemma log_bounds lo hi : log_range lo hi -> exists a b, range 5 (flog (of_Z lo)) (flog (of_Z hi)) a b /\ Rabs (a - ln (IZR lo)) <= 4 * pw (5 - 53) /\ Rabs (b - ln (IZR hi)) <= 4 * pw (5 - 53).
  Proof.
    intros [H K]. destruct (log_int lo ltac:(lia)) as (a & A & Ea & Ba). destruct (log_int hi ltac:(lia)) as (b & B & Eb & Bb). exists a, b. split; auto.
    destruct (log_le lo hi a b ltac:(lia) K A B) as [_ S]. change (pw 5) with 32. constructor; auto; try (apply S; lia); change (pw 5) with 32; rewrite Rabs_pos_eq; lra.
  Qed.
  (** decoding a number near the logarithm of an integer *)
  Lemma exp_near x s n : is x s -> (1 <= n <= 2 ^ 42)%Z -> Rabs (s - ln (IZR n)) <= 9 * pw (5 - 53) ->
    exists t, is (fexp x) t /\ Rabs (t - IZR n) <= 20 * pw (5 - 53) * IZR n.
  Proof.
    intros X N S. assert (Q := ln_int n N). assert (P : 1 <= IZR n) by (apply (IZR_le 1); lia). rewrite pw48 in *. simpl Z.pow in *.
    destruct (HE x s X) as (t & It & Et); [apply Rabs_le_inv in S; split; lra|]. exists t. split; auto.
    assert (C := exp_change _ _ S ltac:(lra)). assert (F : exp s = IZR n * exp (s - ln (IZR n))).
    { replace s with (ln (IZR n) + (s - ln (IZR n))) at 1 by ring. rewrite exp_plus, exp_ln by lra. reflexivity. }
    set (q := exp (s - ln (IZR n))) in *. rewrite F in Et. rewrite Rabs_mult, (Rabs_pos_eq (IZR n)), (Rabs_pos_eq q) in Et by (try apply Rlt_le, exp_pos; lra).
    rewrite pw51 in Et. simpl Z.pow in Et. apply Rabs_le_inv in C, Et. apply Rabs_le. nra.
  Qed.
  Lemma log_decode lo hi v x : log_range lo hi -> (lo <= v <= hi)%Z -> (forall r, is (log_to_vector (of_Z lo) (of_Z hi) (of_Z v)) r -> is x r) ->
    log_int_value lo hi x = Ok v /\ log_int_legal lo hi x = true.
  Proof.
    intros R V Hx. destruct (log_bounds lo hi R) as (a & b & Rg & Ea & Eb). destruct R as [R1 R2]. assert (E : (0 <= 5 <= 975)%Z) by lia.
    destruct (log_int v ltac:(lia)) as (w & W & Ew & Bw).
    assert (B : a <= w <= b) by (split; [apply (log_le lo v a w); try lia; auto; apply (r_lo _ _ _ _ _ Rg)|apply (log_le v hi w b); try lia; auto; apply (r_hi _ _ _ _ _ Rg)]).
    assert (X := entry_is _ _ _ _ _ Rg E _ _ W B). change (float_to_vector (flog (of_Z lo)) (flog (of_Z hi)) (flog (of_Z v))) with (log_to_vector (of_Z lo) (of_Z hi) (of_Z v)) in X. apply Hx in X.
    assert (S := raw_is _ _ _ _ _ Rg E x _ X (entry_bound _ _ _ _ _ Rg E w B)). assert (Es := raw_error _ _ _ _ _ Rg E w B).
    destruct (exp_near _ _ v S ltac:(lia)) as (t & T & Et); [apply Rabs_le_inv in Es, Ew; apply Rabs_le; lra|].
    rewrite pw48 in Et. simpl Z.pow in Et. assert (Vb : 1 <= IZR v <= IZR (2 ^ 42)) by (split; [apply (IZR_le 1)|apply IZR_le]; lia). simpl Z.pow in Vb.
    assert (Ne : Rabs (t - IZR v) < / 2) by (eapply Rle_lt_trans; [exact Et|]; lra).
    assert (T' := frint_is _ _ T). rewrite (near t v Ne) in T'. split.
    - apply to_i64_is; auto. lia.
    - unfold log_int_legal, int_legal, log_unsafe. rewrite (fle_is _ _ _ _ (of_Z_is lo ltac:(lia)) T'), (fle_is _ _ _ _ T' (of_Z_is hi ltac:(lia))).
      rewrite !Rle_bool_true by (apply IZR_le; lia). simpl. apply (fclose_true _ t v); auto; [lia|]. rewrite (Rabs_pos_eq (IZR v)) by lra. lra.
  Qed.
  Theorem C104_values lo hi v : log_range lo hi -> (lo <= v <= hi)%Z ->
    log_int_value lo hi (log_to_vector (of_Z lo) (of_Z hi) (of_Z v)) = Ok v /\ log_int_legal lo hi (log_to_vector (of_Z lo) (of_Z hi) (of_Z v)) = true.
  Proof. intros R V. apply (log_decode lo hi v); auto. Qed.
  Theorem C104_unit lo hi v w : log_range lo hi -> (lo <= v <= hi)%Z -> (v <= w <= hi)%Z ->
    let x := log_to_vector (of_Z lo) (of_Z hi) (of_Z v) in
    float_legal_vector x = true /\ fle x (log_to_vector (of_Z lo) (of_Z hi) (of_Z w)) = true /\ (v = lo -> feq x f0 = true) /\ (v = hi -> feq x f1 = true).
  Proof.
    intros R V W x. destruct (log_bounds lo hi R) as (a & b & Rg & Ea & Eb). destruct R as [R1 R2]. assert (E : (0 <= 5 <= 975)%Z) by lia.
    assert (G : forall v, (lo <= v <= hi)%Z -> exists t, is (flog (of_Z v)) t /\ a <= t <= b).
    { intros u U. destruct (log_int u ltac:(lia)) as (t & T & _). exists t. split; auto.
      split; [apply (log_le lo u a t); try lia; auto; apply (r_lo _ _ _ _ _ Rg)|apply (log_le u hi t b); try lia; auto; apply (r_hi _ _ _ _ _ Rg)]. }
    destruct (G v V) as (t & T & B). destruct (G w ltac:(lia)) as (u & U & B').
    assert (X := entry_is _ _ _ _ _ Rg E _ _ T B). assert (Y := entry_is _ _ _ _ _ Rg E _ _ U B').
    change (float_to_vector (flog (of_Z lo)) (flog (of_Z hi)) (flog (of_Z v))) with x in X. split; [|split; [|split]].
    - exact (legal_true f0 x f1 _ _ _ f0_is X f1_is (entry_bound _ _ _ _ _ Rg E t B)).
    - apply (fle_iff _ _ _ _ X Y). apply (entry_le _ _ _ _ _ Rg E). apply (log_le v w t u); auto; lia.
    - intros ->. rewrite (feq_iff _ _ _ _ X f0_is). assert (t = a) as -> by (destruct T, (r_lo _ _ _ _ _ Rg); congruence). apply entry_lo.
    - intros ->. rewrite (feq_iff _ _ _ _ X f1_is). assert (t = b) as -> by (destruct T, (r_hi _ _ _ _ _ Rg); congruence). exact (entry_hi _ _ _ _ _ Rg E).
  Qed.
  (** every number of the unit interval decodes into the range *)
  Theorem C104_range lo hi x : log_range lo hi -> float_legal_vector x = true -> exists v, log_int_value lo hi x = Ok v /\ (lo <= v <= hi)%Z.
  Proof.
    intros R X. destruct (log_bounds lo hi R) as (a & b & Rg & Ea & Eb). destruct R as [R1 R2]. assert (E : (0 <= 5 <= 975)%Z) by lia.
    destruct (unit_finite x X) as (r & Xr & Ur). assert (S := raw_is _ _ _ _ _ Rg E x r Xr Ur).
    assert (Lo : raw a b 0 <= raw a b r) by (apply (raw_le _ _ _ _ _ Rg E); lra). rewrite (raw_0 _ _ _ _ _ Rg) in Lo.
    assert (Hi : raw a b r <= raw a b 1) by (apply (raw_le _ _ _ _ _ Rg E); lra). assert (H1 := raw_1 _ _ _ _ _ Rg E).
    set (s := raw a b r) in *. assert (Ql := ln_int lo ltac:(lia)). assert (Qh := ln_int hi ltac:(lia)).
    rewrite pw48 in *. simpl Z.pow in *. apply Rabs_le_inv in Ea, Eb, H1.
    destruct (HE _ s S) as (t & T & Et); [split; lra|]. rewrite pw51 in Et. simpl Z.pow in Et. assert (Ps := exp_pos s). rewrite (Rabs_pos_eq (exp s)) in Et by lra.
    assert (Vl : 1 <= IZR lo <= IZR (2 ^ 42)) by (split; [apply (IZR_le 1)|apply IZR_le]; lia).
    assert (Vh : 1 <= IZR hi <= IZR (2 ^ 42)) by (split; [apply (IZR_le 1)|apply IZR_le]; lia). simpl Z.pow in *.
    set (d := 9 * / 281474976710656) in *.
    assert (Cl : IZR lo * (1 - d) <= exp s).
    { apply Rle_trans with (exp (ln (IZR lo) + - d)); [|apply exp_le; unfold d; lra]. rewrite exp_plus, exp_ln by lra. apply Rmult_le_compat_l; [lra|]. apply (exp_ge (- d)). }
    assert (Ch : exp s <= IZR hi * (1 + 2 * d)).
    { apply Rle_trans with (exp (ln (IZR hi) + d)); [apply exp_le; unfold d; lra|]. rewrite exp_plus, exp_ln by lra. apply Rmult_le_compat_l; [lra|].
      assert (C := exp_change d d). rewrite Rabs_pos_eq in C by (unfold d; lra). specialize (C ltac:(lra) ltac:(unfold d; lra)). apply Rabs_le_inv in C. lra. }
    apply Rabs_le_inv in Et. unfold d in *.
    assert (Tl : IZR lo - 1 / 4 <= t) by nra. assert (Th : t <= IZR hi + 7 / 20) by nra.
    assert (Zl : (lo <= ZnearestE t)%Z) by (rewrite <- (near (IZR lo - 1 / 4) lo) by (apply Rabs_lt; lra); apply Zrnd_le; auto with typeclass_instances).
    assert (Zh : (ZnearestE t <= hi)%Z) by (rewrite <- (near (IZR hi + 7 / 20) hi) by (apply Rabs_lt; lra); apply Zrnd_le; auto with typeclass_instances).
    exists (ZnearestE t). split; auto. apply to_i64_is; [apply frint_is; exact T|lia].
  Qed.
End Ints.

(** ** C105: floats on logarithmic scales *)
Lemma ln2_le7 : ln 2 <= 7 / 10.
Proof.
  rewrite <- (ln_exp (7 / 10)). apply ln_mono; [lra|].
  assert (H := exp_ge (7 / 640)). replace (7 / 10) with (INR 8 * (INR 8 * (7 / 640))) by (simpl; field). rewrite !exp_pow.
  assert (A : 1.0909 <= exp (7 / 640) ^ 8) by (apply Rle_trans with ((1 + 7 / 640) ^ 8); [simpl; lra|apply pow_incr; lra]).
  apply Rle_trans with (1.0909 ^ 8); [simpl; lra|]. apply pow_incr. lra.
Qed.
Section Floats.
  Context {L : Libm}.
  Hypotheses (HL : accurate flog ln log_dom) (ML : monotone flog log_dom) (HE : accurate fexp exp exp_dom).
  (** bounds between 2^-k and 2^k *)
  Record scale (k : Z) (lo hi : f64) (p q : R) : Prop :=
    { s_lo : is lo p; s_hi : is hi q; s_p : pw (- k) <= p; s_q : q <= pw k; s_lt : p < q }.

  Lemma ln_scale k v : (0 <= k)%Z -> pw (- k) <= v <= pw k -> Rabs (ln v) <= IZR k * (7 / 10).
  Proof.
    intros K [A B]. assert (P := bpow_gt_0 radix2 (- k)). assert (Q := ln2_le7). assert (L2 : 0 < ln 2) by (rewrite <- ln_1; apply ln_increasing; lra).
    apply ln_mono in B; [|lra]. apply ln_mono in A; auto. rewrite ln_pw in A, B. rewrite opp_IZR in A. assert (0 <= IZR k) by (apply (IZR_le 0); auto).
    apply Rabs_le. nra.
  Qed.
  Lemma log_scale k x v : (0 <= k <= 800)%Z -> is x v -> pw (- k) <= v <= pw k -> exists t, is (flog x) t /\ Rabs (t - ln v) <= pw (-51) * Rabs (ln v).
  Proof. intros K X B. apply HL; auto. split; eapply Rle_trans; [|apply B|apply B|]; apply bpow_le; lia. Qed.
  Lemma log_ranges k e lo hi p q : scale k lo hi p q -> (0 <= k <= 800)%Z -> (0 <= e <= 975)%Z -> IZR k * (71 / 100) <= pw e -> flt (flog lo) (flog hi) = true ->
    exists a b, range e (flog lo) (flog hi) a b /\ Rabs (a - ln p) <= pw (-51) * Rabs (ln p) /\ Rabs (b - ln q) <= pw (-51) * Rabs (ln q).
  Proof.
    intros [Lo Hi P Q Lt] K E Ke F. destruct (log_scale k lo p K Lo ltac:(lra)) as (a & A & Ea). destruct (log_scale k hi q K Hi ltac:(lra)) as (b & B & Eb).
    exists a, b. split; auto. assert (Kr : 0 <= IZR k) by (apply (IZR_le 0); lia).
    assert (Np := ln_scale k p ltac:(lia) ltac:(lra)). assert (Nq := ln_scale k q ltac:(lia) ltac:(lra)). rewrite pw51 in *. simpl Z.pow in *.
    constructor; auto.
    - rewrite (flt_is _ _ _ _ A B) in F. destruct (Rlt_bool_spec a b); [auto|discriminate].
    - revert Ea Np. unfold Rabs. repeat destruct Rcase_abs; lra.
    - revert Eb Nq. unfold Rabs. repeat destruct Rcase_abs; lra.
  Qed.
  Lemma log_between k lo hi p q a b v r : scale k lo hi p q -> (0 <= k <= 800)%Z -> is (flog lo) a -> is (flog hi) b -> is v r -> p <= r <= q ->
    exists t, is (flog v) t /\ Rabs (t - ln r) <= pw (-51) * Rabs (ln r) /\ a <= t <= b.
  Proof.
    intros [Lo Hi P Q Lt] K A B V R. destruct (log_scale k v r K V ltac:(lra)) as (t & T & Et). exists t. split; [auto|]. split; [auto|].
    assert (D : forall z, pw (- k) <= z <= pw k -> log_dom z) by (intros z [Z1 Z2]; split; eapply Rle_trans; [|exact Z1|exact Z2|]; apply bpow_le; lia).
    split; [apply (ML lo v p r)|apply (ML v hi r q)]; auto; try (apply D; lra); lra.
  Qed.
  (** [lo, hi] with different logarithms *)
  Definition log_bounded (lo hi : f64) : Prop := exists p q, scale 800 lo hi p q /\ flt (flog lo) (flog hi) = true.

  Theorem C105_entries lo hi v : log_bounded lo hi -> float_legal lo hi v = true ->
    let x := log_to_vector lo hi v in
    float_legal_vector x = true /\ (feq v lo = true -> feq x f0 = true) /\ (feq v hi = true -> feq x f1 = true) /\
    (forall w, float_legal lo hi w = true -> fle v w = true -> fle x (log_to_vector lo hi w) = true).
  Proof.
    intros (p & q & S & F) V x. assert (E : (0 <= 10 <= 975)%Z) by lia. assert (K : (0 <= 800 <= 800)%Z) by lia.
    destruct (log_ranges 800 10 lo hi p q S K E ltac:(change (pw 10) with 1024; lra) F) as (a & b & Rg & _).
    destruct (between_finite _ _ _ _ _ (s_lo _ _ _ _ _ S) (s_hi _ _ _ _ _ S) V) as (r & Vr & Br).
    destruct (log_between _ _ _ _ _ _ _ _ _ S K (r_lo _ _ _ _ _ Rg) (r_hi _ _ _ _ _ Rg) Vr Br) as (t & T & _ & Bt).
    assert (X := entry_is _ _ _ _ _ Rg E _ _ T Bt). change (float_to_vector (flog lo) (flog hi) (flog v)) with x in X.
    assert (D : forall z, p <= z <= q -> log_dom z).
    { intros z Z. split; [apply Rle_trans with (pw (Z.opp 800)); [apply bpow_le; lia|assert (A := s_p _ _ _ _ _ S); lra]|apply Rle_trans with (pw 800); [assert (A := s_q _ _ _ _ _ S); lra|apply bpow_le; lia]]. }
    assert (Lt := s_lt _ _ _ _ _ S). split; [|split; [|split]].
    - exact (legal_true f0 x f1 _ _ _ f0_is X f1_is (entry_bound _ _ _ _ _ Rg E t Bt)).
    - rewrite (feq_iff _ _ _ _ Vr (s_lo _ _ _ _ _ S)), (feq_iff _ _ _ _ X f0_is). intros ->.
      assert (t <= a) by (apply (ML v lo p p); auto; try (apply D); try lra; [apply (s_lo _ _ _ _ _ S)|apply (r_lo _ _ _ _ _ Rg)]).
      replace t with a by lra. apply entry_lo.
    - rewrite (feq_iff _ _ _ _ Vr (s_hi _ _ _ _ _ S)), (feq_iff _ _ _ _ X f1_is). intros ->.
      assert (b <= t) by (apply (ML hi v q q); auto; try (apply D); try lra; [apply (s_hi _ _ _ _ _ S)|apply (r_hi _ _ _ _ _ Rg)]).
      replace t with b by lra. exact (entry_hi _ _ _ _ _ Rg E).
    - intros w W H. destruct (between_finite _ _ _ _ _ (s_lo _ _ _ _ _ S) (s_hi _ _ _ _ _ S) W) as (s & Ws & Bs).
      destruct (log_between _ _ _ _ _ _ _ _ _ S K (r_lo _ _ _ _ _ Rg) (r_hi _ _ _ _ _ Rg) Ws Bs) as (u & U & _ & Bu).
      assert (Y := entry_is _ _ _ _ _ Rg E _ _ U Bu). apply (fle_iff _ _ _ _ X Y). apply (entry_le _ _ _ _ _ Rg E).
      apply (fle_iff _ _ _ _ Vr Ws) in H. apply (ML v w r s); auto.
  Qed.
  Theorem C105_values lo hi x : log_bounded lo hi -> float_legal_vector x = true -> float_legal lo hi (log_float_value lo hi x) = true.
  Proof.
    intros (p & q & S & F) X. assert (E : (0 <= 10 <= 975)%Z) by lia. assert (K : (0 <= 800 <= 800)%Z) by lia.
    destruct (log_ranges 800 10 lo hi p q S K E ltac:(change (pw 10) with 1024; lra) F) as (a & b & Rg & Ea & Eb).
    destruct (unit_finite x X) as (r & Xr & Ur). assert (Sx := raw_is _ _ _ _ _ Rg E x r Xr Ur).
    assert (Np := ln_scale 800 p ltac:(lia)). assert (Nq := ln_scale 800 q ltac:(lia)).
    assert (P1 := s_p _ _ _ _ _ S). assert (P2 := s_q _ _ _ _ _ S). assert (P3 := s_lt _ _ _ _ _ S). specialize (Np ltac:(lra)). specialize (Nq ltac:(lra)).
    assert (Lo : raw a b 0 <= raw a b r) by (apply (raw_le _ _ _ _ _ Rg E); lra). rewrite (raw_0 _ _ _ _ _ Rg) in Lo.
    assert (Hi : raw a b r <= raw a b 1) by (apply (raw_le _ _ _ _ _ Rg E); lra). assert (H1 := raw_1 _ _ _ _ _ Rg E). change (pw (10 - 53)) with (/ IZR (2 ^ 43)) in H1.
    rewrite pw51 in *. simpl Z.pow in *. destruct (HE _ _ Sx) as (t & T & _).
    { revert Ea Eb Np Nq H1. unfold exp_dom, Rabs. repeat destruct Rcase_abs; lra. }
    assert (C := fclip_is _ _ _ _ _ _ T (s_lo _ _ _ _ _ S) (s_hi _ _ _ _ _ S)).
    apply (legal_true _ _ _ _ _ _ (s_lo _ _ _ _ _ S) C (s_hi _ _ _ _ _ S)). unfold Rmin, Rmax. repeat destruct Rle_dec; lra.
  Qed.
  (** the relative error of the way into the unit interval and back; [e] bounds the logarithms of the range *)
  Lemma log_error k e lo hi p q v r : scale k lo hi p q -> (0 <= k <= 800)%Z -> (3 <= e <= 10)%Z -> IZR k * (71 / 100) <= pw e -> flt (flog lo) (flog hi) = true ->
    is v r -> p <= r <= q ->
    exists t, is (log_float_value lo hi (log_to_vector lo hi v)) t /\ Rabs (t - r) <= 19 * pw (e - 53) * r /\ p <= t <= q.
  Proof.
    intros S K E Ke F V B. assert (E' : (0 <= e <= 975)%Z) by lia. destruct (log_ranges k e lo hi p q S K E' Ke F) as (a & b & Rg & Ea & Eb).
    destruct (log_between _ _ _ _ _ _ _ _ _ S K (r_lo _ _ _ _ _ Rg) (r_hi _ _ _ _ _ Rg) V B) as (w & W & Ew & Bw).
    assert (X := entry_is _ _ _ _ _ Rg E' _ _ W Bw). change (float_to_vector (flog lo) (flog hi) (flog v)) with (log_to_vector lo hi v) in X.
    assert (Sx := raw_is _ _ _ _ _ Rg E' _ _ X (entry_bound _ _ _ _ _ Rg E' w Bw)). assert (Es := raw_error _ _ _ _ _ Rg E' w Bw).
    assert (P1 := s_p _ _ _ _ _ S). assert (P2 := s_q _ _ _ _ _ S). assert (P3 := s_lt _ _ _ _ _ S). assert (P4 := bpow_gt_0 radix2 (- k)).
    assert (Nr := ln_scale k r ltac:(lia) ltac:(lra)). set (g := pw (e - 53)) in *. assert (G0 : 0 < g) by apply bpow_gt_0.
    assert (Gk : pw (-51) * Rabs (ln r) <= 4 * g).
    { replace (4 * g) with (pw (-51) * pw e); [apply Rmult_le_compat_l; [apply bpow_ge_0|]; assert (0 <= IZR k) by (apply (IZR_le 0); lia); lra|].
      unfold g. change 4 with (pw 2). rewrite <- !bpow_plus. f_equal. lia. }
    assert (Gs : g <= / IZR (2 ^ 43)) by (unfold g; apply Rle_trans with (pw (-43)); [apply bpow_le; lia|right; reflexivity]). simpl Z.pow in Gs.
    set (s := raw a b (entry a b w)) in *. assert (D : Rabs (s - ln r) <= 9 * g) by (apply Rabs_le_inv in Es, Ew; apply Rabs_le; lra).
    assert (Kb : IZR k <= 800) by (apply (IZR_le k 800); lia).
    destruct (HE _ _ Sx) as (t & T & Et). { apply Rabs_le_inv in D, Nr. split; lra. }
    assert (C := exp_change _ _ D ltac:(lra)). assert (Fe : exp s = r * exp (s - ln r)).
    { replace s with (ln r + (s - ln r)) at 1 by ring. rewrite exp_plus, exp_ln by lra. reflexivity. }
    set (z := exp (s - ln r)) in *. assert (Zp : 0 < z) by apply exp_pos. rewrite Fe in Et. rewrite Rabs_mult, (Rabs_pos_eq r), (Rabs_pos_eq z) in Et by lra.
    assert (G51 : pw (-51) <= g / 2) by (unfold g, Rdiv; change (/ 2) with (pw (-1)); rewrite <- bpow_plus; apply bpow_le; lia).
    exists (Rmin (Rmax t p) q). split; [apply fclip_is; [exact T|apply (s_lo _ _ _ _ _ S)|apply (s_hi _ _ _ _ _ S)]|].
    assert (R0 : Rabs (t - r) <= 19 * g * r); [|split; [eapply Rle_trans; [|exact R0]|]; unfold Rmin, Rmax; repeat destruct Rle_dec; unfold Rabs; repeat destruct Rcase_abs; lra].
    apply Rabs_le_inv in C, Et. assert (M : pw (-51) * (r * z) <= g * r * (3 / 4)).
    { replace (g * r * (3 / 4)) with (g / 2 * (r * (3 / 2))) by field. apply Rmult_le_compat; [apply bpow_ge_0|apply Rmult_le_pos; lra|lra|apply Rmult_le_compat_l; lra]. }
    assert (N : - (r * (18 * g)) <= r * (z - 1) <= r * (18 * g)) by (split; [rewrite Ropp_mult_distr_r|]; apply Rmult_le_compat_l; lra).
    assert (0 < g * r) by (apply Rmult_lt_0_compat; lra). apply Rabs_le. replace (t - r) with (t - r * z + r * (z - 1)) by ring.
    replace (19 * g * r) with (19 * (g * r)) by ring. replace (r * (18 * g)) with (18 * (g * r)) in N by ring. lra.
  Qed.
  Theorem C105_error lo hi v r : log_bounded lo hi -> float_legal lo hi v = true -> is v r ->
    exists t, is (log_float_value lo hi (log_to_vector lo hi v)) t /\ Rabs (t - r) <= pw (-38) * r.
  Proof.
    intros (p & q & S & F) V Vr. destruct (between_finite _ _ _ _ _ (s_lo _ _ _ _ _ S) (s_hi _ _ _ _ _ S) V) as (r' & Vr' & B).
    assert (r' = r) as -> by (destruct Vr, Vr'; congruence).
    destruct (log_error 800 10 lo hi p q v r S ltac:(lia) ltac:(lia) ltac:(change (pw 10) with 1024; lra) F Vr B) as (t & T & Et & _). exists t. split; [auto|].
    eapply Rle_trans; [exact Et|]. apply Rmult_le_compat_r; [assert (P := s_p _ _ _ _ _ S); assert (Q := bpow_gt_0 radix2 (Z.opp 800)); lra|].
    change (pw (10 - 53)) with (/ IZR (2 ^ 43)). change (pw (-38)) with (/ IZR (2 ^ 38)). simpl Z.pow. lra.
  Qed.

  (** floats with 13 decimals in (0, 1/2]: every stored value comes back *)
  Lemma decimals r : 0 < r <= / 2 -> round13 r = r -> exists n, (1 <= n)%Z /\ r = rnd (IZR n / T) /\ Rabs (r - IZR n / T) <= pw (-54) /\ IZR n / T <= 1.
  Proof.
    intros B F. assert (PT := T_pos). exists (ZnearestE (rnd (r * T))). set (n := ZnearestE (rnd (r * T))).
    assert (G : r = rnd (IZR n / T)) by (rewrite <- F at 1; reflexivity).
    assert (N : (1 <= n)%Z).
    { destruct (Z_le_gt_dec 1 n) as [|N]; auto. assert (H : IZR n <= 0) by (apply IZR_le; lia). assert (H' : IZR n / T <= 0) by (apply Rmult_le_reg_r with T; auto; unfold Rdiv; rewrite Rmult_assoc, Rinv_l by lra; lra).
      apply rnd_le in H'. rewrite round_0 in H' by auto with typeclass_instances. lra. }
    assert (U : IZR n / T <= 1).
    { destruct (Rle_lt_dec (IZR n / T) 1) as [|H]; auto. assert (H' : 1 <= IZR n / T) by lra. apply rnd_le in H'. rewrite (rnd_fmt 1) in H' by (apply (fmt_IZR 1); lia). lra. }
    split; [auto|]. split; [auto|]. split; auto. rewrite G. change (-54)%Z with (0 - 54)%Z. apply err_le; [lia|]. change (pw 0) with 1.
    assert (0 <= IZR n) by (apply (IZR_le 0); lia). rewrite Rabs_pos_eq; auto. apply Rmult_le_pos; [auto|left; apply Rinv_0_lt_compat; auto].
  Qed.
  Lemma decimals_scale a b lo hi : bounds a b lo hi -> flt f0 lo = true -> fle hi (fdiv f1 (of_Z 2)) = true ->
    exists p q, scale 44 lo hi p q /\ q <= / 2 /\ round13 p = p /\ round13 q = q.
  Proof.
    intros B Po Hh. destruct (bounds_range _ _ _ _ B) as (p & q & [R1 R2 R3 R4 R5] & P & Q). exists p, q.
    assert (Hf : is (fdiv f1 (of_Z 2)) (/ 2)).
    { replace (/ 2) with (rnd (1 / 2)); [apply (fdiv_is _ _ _ _ 0); [exact f1_is|apply of_Z_is; lia|lra|lia|rewrite Rabs_pos_eq; change (pw 0) with 1; lra]|].
      replace (1 / 2) with (pw (-1)) by (change (pw (-1)) with (/ 2); lra). rewrite rnd_fmt by (apply fmt_pw; lia). reflexivity. }
    apply (fle_iff _ _ _ _ R2 Hf) in Hh. rewrite (flt_is _ _ _ _ f0_is R1) in Po. destruct (Rlt_bool_spec 0 p) as [Pp|]; [|discriminate].
    split; [|auto]. constructor; auto; [|apply Rle_trans with (pw 0); [change (pw 0) with 1; lra|apply bpow_le; lia]].
    destruct (decimals p ltac:(lra) P) as (n & N & -> & _). rewrite <- (rnd_fmt (pw (- (44)))) by (apply fmt_pw; lia). apply rnd_le.
    assert (PT := T_pos). assert (T4 := T_pw). apply Rle_trans with (1 / T); [|apply Rmult_le_compat_r; [left; apply Rinv_0_lt_compat; auto|apply (IZR_le 1); auto]].
    rewrite bpow_opp. unfold Rdiv. rewrite Rmult_1_l. apply Rinv_le; lra.
  Qed.
  Lemma decimals_log lo hi p q : scale 44 lo hi p q -> q <= / 2 -> round13 p = p -> round13 q = q -> flt (flog lo) (flog hi) = true.
  Proof.
    intros S H P Q. destruct S as [Lo Hi S1 S2 Lt]. assert (Pp : 0 < p) by (assert (X := bpow_gt_0 radix2 (- (44))); lra).
    destruct (decimals p ltac:(lra) P) as (m & M & Pm & Em & Um). destruct (decimals q ltac:(lra) Q) as (n & N & Qn & En & Un).
    assert (PT := T_pos). assert (MN : (m < n)%Z).
    { destruct (Z_lt_le_dec m n) as [|X]; auto. assert (q <= p); [|lra]. rewrite Qn, Pm. apply rnd_le. apply Rmult_le_compat_r; [left; apply Rinv_0_lt_compat; auto|apply IZR_le; auto]. }
    assert (G : IZR m / T + / T <= IZR n / T).
    { replace (IZR m / T + / T) with ((IZR m + 1) / T) by (unfold Rdiv; ring). apply Rmult_le_compat_r; [left; apply Rinv_0_lt_compat; auto|]. rewrite <- plus_IZR. apply IZR_le. lia. }
    assert (G' : p + / T / 2 <= q). { change (pw (-54)) with (/ IZR (2 ^ 54)) in *. simpl Z.pow in *. apply Rabs_le_inv in Em, En.  lra. }
    assert (K : (0 <= 44 <= 800)%Z) by lia. destruct (log_scale 44 lo p K Lo ltac:(lra)) as (a & A & Ea). destruct (log_scale 44 hi q K Hi ltac:(lra)) as (b & B & Eb).
    assert (Np := ln_scale 44 p ltac:(lia) ltac:(lra)). assert (Nq := ln_scale 44 q ltac:(lia) ltac:(lra)).
    assert (Lg : / T <= ln q - ln p).
    { assert (X : ln (p / q) <= p / q - 1) by (apply ln_sub1; apply Rmult_lt_0_compat; [lra|apply Rinv_0_lt_compat; lra]).
      unfold Rdiv in X. rewrite ln_mult, ln_Rinv in X by (try apply Rinv_0_lt_compat; lra). assert (I : 2 <= / q) by (rewrite <- (Rinv_inv 2); apply Rinv_le; lra).
      assert (Y : p * / q <= 1 - / T / 2 * 2); [|lra]. replace (p * / q) with (1 - (q - p) * / q) by (field; lra).
      assert (/ T / 2 * 2 <= (q - p) * / q) by (apply Rmult_le_compat; lra || (assert (0 < / T) by (apply Rinv_0_lt_compat; auto); lra)). lra. }
    rewrite (flt_is _ _ _ _ A B). apply Rlt_bool_true. change (pw (-51)) with (/ IZR (2 ^ 51)) in *. simpl Z.pow in *. 
    revert Ea Eb Np Nq Lg. unfold Rabs. repeat destruct Rcase_abs; lra.
  Qed.
  Theorem C105_decimals_partial a b lo hi v : bounds a b lo hi -> flt f0 lo = true -> fle hi (fdiv f1 (of_Z 2)) = true -> float_legal lo hi v = true ->
    feq (fround13 (log_float_value lo hi (log_to_vector lo hi (float_stored v)))) (float_stored v) = true.
  Proof.
    intros B Po Hh V. destruct (decimals_scale _ _ _ _ B Po Hh) as (p & q & S & Q2 & P & Q). assert (Fl := decimals_log _ _ _ _ S Q2 P Q).
    destruct (bounds_range _ _ _ _ B) as (p' & q' & Rg & P' & Q'). destruct (legal_round _ _ _ _ _ _ Rg ltac:(lia) P' Q' V) as (r & Vr & F & G & _).
    assert (p' = p) as -> by (destruct (r_lo _ _ _ _ _ Rg), (s_lo _ _ _ _ _ S); congruence). assert (q' = q) as -> by (destruct (r_hi _ _ _ _ _ Rg), (s_hi _ _ _ _ _ S); congruence).
    assert (P4 : 0 < p) by (assert (X := bpow_gt_0 radix2 (- (44))); assert (Y := s_p _ _ _ _ _ S); lra).
    destruct (log_error 44 5 lo hi p q _ _ S ltac:(lia) ltac:(lia) ltac:(change (pw 5) with 32; lra) Fl F G) as (s & Ss & Es & Bs). unfold float_stored.
    destruct (fround13_is _ _ 0 Ss ltac:(lia) ltac:(change (pw 0) with 1; rewrite Rabs_pos_eq; lra)) as [C _]. rewrite (feq_iff _ _ _ _ C F).
    destruct (decimals (round13 r) ltac:(lra) (round13_twice _ (is_fmt _ _ Vr))) as (n & N & Rn & En & Un). set (w := round13 r) in *. rewrite Rn. unfold round13, to_int, rint. do 3 f_equal.
    assert (PT := T_pos). assert (W : 19 * pw (5 - 53) * w <= 19 / IZR (2 ^ 48) / 2).
    { change (pw (5 - 53)) with (/ IZR (2 ^ 48)). unfold Rdiv. apply Rmult_le_compat_l; [simpl Z.pow|]; lra. }
    assert (D : Rabs (s * T - IZR n) <= 4 / 10).
    { replace (s * T - IZR n) with ((s - IZR n / T) * T) by (field; lra). rewrite Rabs_mult, (Rabs_pos_eq T) by lra.
      assert (X : Rabs (s - IZR n / T) <= 35 / 10 ^ 15).
      { change (pw (-54)) with (/ IZR (2 ^ 54)) in *. simpl Z.pow in *. apply Rabs_le_inv in Es, En. apply Rabs_le. lra. }
       lra. }
    assert (E : Rabs (rnd (s * T) - s * T) <= pw (44 - 54)).
    { apply err_le; [lia|]. assert (T4 := T_pw). rewrite Rabs_pos_eq; [|apply Rmult_le_pos; lra]. apply Rle_trans with (1 * T); [apply Rmult_le_compat_r; lra|lra]. }
    change (pw (44 - 54)) with (/ IZR (2 ^ 10)) in E. simpl Z.pow in E. apply Znearest_imp. apply Rabs_le_inv in D, E. apply Rabs_def1; lra.
  Qed.
End Floats.

(** ** Beyond: neighbouring integers with the same logarithm *)
Lemma ln2_ge : 685 / 1000 <= ln 2.
Proof.
  rewrite <- (ln_exp (685 / 1000)). apply ln_mono; [apply exp_pos|]. apply Rmult_le_reg_r with (exp (- (685 / 1000))); [apply exp_pos|].
  rewrite <- exp_plus, Rplus_opp_r, exp_0. assert (H := exp_ge (- (685 / 64000))). replace (- (685 / 1000)) with (INR 8 * (INR 8 * - (685 / 64000))) by (simpl; field). rewrite !exp_pow.
  assert (A : 0.9175 <= exp (- (685 / 64000)) ^ 8) by (apply Rle_trans with ((1 - 685 / 64000) ^ 8); [simpl; lra|apply pow_incr; lra]).
  assert (B : / 2 <= (exp (- (685 / 64000)) ^ 8) ^ 8); [|lra]. apply Rle_trans with (0.9175 ^ 8); [simpl; lra|]. apply pow_incr. lra.
Qed.
Section Beyond.
  Context {L : Libm}.
  Hypotheses (HL : accurate flog ln log_dom) (ML : monotone flog log_dom).
  Lemma big_log n : (2 ^ 52 <= n <= 2 ^ 53)%Z -> log_dom (IZR n) /\ is (of_Z n) (IZR n) /\ exists t, is (flog (of_Z n)) t /\ 35 <= t <= 38.
  Proof.
    intro N. assert (D : pw 52 <= IZR n <= pw 53) by (change (pw 52) with (IZR (2 ^ 52)); change (pw 53) with (IZR (2 ^ 53)); split; apply IZR_le; lia).
    assert (P := bpow_gt_0 radix2 52). assert (Dm : log_dom (IZR n)) by (split; eapply Rle_trans; [|apply D|apply D|]; apply bpow_le; lia).
    assert (I : is (of_Z n) (IZR n)) by (apply of_Z_is; lia). split; [auto|]. split; [auto|]. destruct (HL _ _ I Dm) as (t & T & E). exists t. split; [auto|].
    destruct D as [D1 D2]. apply ln_mono in D2; [|lra]. apply ln_mono in D1; [|auto]. rewrite ln_pw in D1, D2. assert (A := ln2_ge). assert (B := ln2_le7).
    rewrite (Rabs_pos_eq (ln (IZR n))) in E by lra. rewrite pw51 in E. simpl Z.pow in E. apply Rabs_le_inv in E. lra.
  Qed.
  (** two neighbouring integers between 2^52 and 2^53 have the same logarithm: the entry of the lower one is not a number *)
  Theorem C104_refuted : exists lo, (2 ^ 52 <= lo < 2 ^ 53)%Z /\ log_to_vector (of_Z lo) (of_Z (lo + 1)) (of_Z lo) = B754_nan /\
    float_legal_vector (log_to_vector (of_Z lo) (of_Z (lo + 1)) (of_Z lo)) = false.
  Proof.
    assert (H : exists lo t u, (2 ^ 52 <= lo < 2 ^ 53)%Z /\ is (flog (of_Z lo)) t /\ is (flog (of_Z (lo + 1))) u /\ t = u).
    { destruct (Classical_Prop.classic (exists lo t u, (2 ^ 52 <= lo < 2 ^ 53)%Z /\ is (flog (of_Z lo)) t /\ is (flog (of_Z (lo + 1))) u /\ t = u)) as [|N]; auto. exfalso.
      destruct (big_log (2 ^ 52) ltac:(lia)) as (_ & _ & t0 & T0 & B0).
      assert (G : forall k, (0 <= k)%Z -> (k <= 2 ^ 52)%Z -> exists t, is (flog (of_Z (2 ^ 52 + k))) t /\ t0 + IZR k * pw (-47) <= t).
      { apply (natlike_ind (fun k => (k <= 2 ^ 52)%Z -> exists t, is (flog (of_Z (2 ^ 52 + k))) t /\ t0 + IZR k * pw (-47) <= t)).
        - intros _. exists t0. rewrite Z.add_0_r. split; [auto|lra].
        - intros k K IH Kb. destruct IH as (t & T & Et); [lia|]. destruct (big_log (2 ^ 52 + k) ltac:(lia)) as (D1 & I1 & t' & T' & B1). assert (t' = t) as -> by (destruct T, T'; congruence).
          destruct (big_log (2 ^ 52 + Z.succ k) ltac:(lia)) as (D2 & I2 & u & U & B2). exists u. split; [auto|].
          assert (t <= u) by (apply (ML _ _ _ _ _ _ I1 I2); auto; apply IZR_le; lia).
          assert (t <> u). { intro Q. apply N. exists (2 ^ 52 + k)%Z, t, u. split; [lia|]. split; [auto|]. split; [|auto]. replace (2 ^ 52 + k + 1)%Z with (2 ^ 52 + Z.succ k)%Z by lia. auto. }
          assert (M : forall x r, is x r -> 35 <= r <= 38 -> exists j, r = IZR j * pw (-47)).
          { intros x r X R. apply (binade_multiple r 5 ltac:(lia) (is_fmt _ _ X)). change (pw 5) with 32. change (pw (5 + 1)) with 64. lra. }
          destruct (M _ _ T B1) as (i & Ei). destruct (M _ _ U B2) as (j & Ej). assert (P := bpow_gt_0 radix2 (-47)).
          assert (IJ : (i + 1 <= j)%Z). { destruct (Z_le_gt_dec (i + 1) j) as [|X]; auto. assert (j <= i)%Z as X' by lia. apply IZR_le in X'. assert (u <= t) by (rewrite Ei, Ej; apply Rmult_le_compat_r; lra). lra. }
          apply IZR_le in IJ. rewrite plus_IZR in IJ. apply Rmult_le_compat_r with (r := pw (-47)) in IJ; [|lra]. unfold Z.succ. rewrite plus_IZR. lra. }
      destruct (G (2 ^ 52)%Z ltac:(lia) ltac:(lia)) as (t & T & Et). destruct (big_log (2 ^ 52 + 2 ^ 52) ltac:(lia)) as (_ & _ & t' & T' & B1). assert (t' = t) as -> by (destruct T, T'; congruence).
      change (IZR (2 ^ 52)) with (pw 52) in Et. rewrite <- bpow_plus in Et. change (pw (52 + -47)) with 32 in Et. lra. }
    destruct H as (lo & t & u & N & T & U & <-). exists lo. split; [auto|].
    assert (Q : log_to_vector (of_Z lo) (of_Z (lo + 1)) (of_Z lo) = B754_nan).
    { unfold log_to_vector, fnormalize. assert (Tb : 35 <= t <= 38) by (destruct (big_log lo ltac:(lia)) as (_ & _ & t' & T' & B1); assert (t' = t) as -> by (destruct T, T'; congruence); auto).
      assert (A := fsub_is _ _ _ _ 0 T T ltac:(lia)). assert (B := fsub_is _ _ _ _ 0 U T ltac:(lia)). rewrite Rminus_diag_eq, Rabs_R0, round_0 in A, B by auto with typeclass_instances.
      specialize (A (bpow_ge_0 _ _)). specialize (B (bpow_ge_0 _ _)). destruct A as [A1 A2], B as [B1 B2].
      assert (Z0 : forall x : f64, is_finite x = true -> B2R x = 0 -> exists s, x = B754_zero s).
      { intros x F X. destruct x as [s|s| |s m e bd]; try discriminate; [eauto|]. exfalso. simpl in X. apply eq_0_F2R in X. destruct s; discriminate. }
      destruct (Z0 _ A1 A2) as (s1 & ->). destruct (Z0 _ B1 B2) as (s2 & ->).
      destruct (feq (flog (of_Z lo)) f0) eqn:Fe; [|reflexivity]. apply (feq_iff _ _ _ _ T f0_is) in Fe. lra. }
    split; [auto|]. rewrite Q. reflexivity.
  Qed.
  (** ** More values with 13 decimals than logarithms between 256 and 512 *)
  Definition step (n : Z) : f64 := fround13 (fdiv (of_Z n) (of_Z (2 ^ 42))).
  Lemma round13_IZR z : (Z.abs z <= 512)%Z -> round13 (IZR z) = IZR z.
  Proof.
    intro Z0. unfold round13. rewrite <- mult_IZR. rewrite to_int_IZR by (apply fmt_IZR; lia). replace (IZR (z * 10000000000000) / T) with (IZR z) by (rewrite mult_IZR; field). apply rnd_fmt.
    apply fmt_IZR. lia.
  Qed.
  Lemma step_is n : (2 ^ 50 <= n <= 2 ^ 51)%Z -> is (fdiv (of_Z n) (of_Z (2 ^ 42))) (IZR n * pw (-42)) /\ is (step n) (round13 (IZR n * pw (-42))) /\ 256 <= IZR n * pw (-42) <= 512 /\ 256 <= round13 (IZR n * pw (-42)) <= 512.
  Proof.
    intro N. assert (B : 256 <= IZR n * pw (-42) <= 512).
    { change 256 with (pw (50 + -42)). change 512 with (pw (51 + -42)). rewrite !bpow_plus. assert (P := bpow_ge_0 radix2 (-42)).
      split; apply Rmult_le_compat_r; auto; [change (pw 50) with (IZR (2 ^ 50))|change (pw 51) with (IZR (2 ^ 51))]; apply IZR_le; lia. }
    assert (I : is (fdiv (of_Z n) (of_Z (2 ^ 42))) (IZR n * pw (-42))).
    { replace (IZR n * pw (-42)) with (rnd (IZR n / IZR (2 ^ 42))).
      - apply (fdiv_is _ _ _ _ 9); [apply of_Z_is; lia|apply of_Z_is; lia|apply not_0_IZR; lia|lia|]. change (/ IZR (2 ^ 42)) with (pw (-42)). unfold Rdiv. change (/ IZR (2 ^ 42)) with (pw (-42)). change (pw 9) with 512. rewrite Rabs_pos_eq; lra.
      - unfold Rdiv. change (/ IZR (2 ^ 42)) with (pw (-42)). apply rnd_fmt. change (-42)%Z with (10 - 52)%Z. apply multiple_fmt; lia. }
    split; [auto|]. destruct (fround13_is _ _ 9 I ltac:(lia) ltac:(change (pw 9) with 512; rewrite Rabs_pos_eq; lra)) as [F _]. split; [auto|]. split; [auto|].
    rewrite <- (round13_IZR 256), <- (round13_IZR 512) by lia. split; apply round13_le; lra.
  Qed.
  Lemma step_lt n : (2 ^ 50 <= n < 2 ^ 51)%Z -> round13 (IZR n * pw (-42)) < round13 (IZR (n + 1) * pw (-42)).
  Proof.
    intro N. destruct (step_is n ltac:(lia)) as (_ & _ & B & D). destruct (step_is (n + 1) ltac:(lia)) as (_ & _ & B' & D'). set (r := IZR n * pw (-42)) in *. set (s := IZR (n + 1) * pw (-42)) in *.
    assert (S : s = r + / IZR (2 ^ 42)) by (unfold r, s; rewrite plus_IZR; change (/ IZR (2 ^ 42)) with (pw (-42)); ring).
    assert (Er : forall z, 256 <= z <= 512 -> Rabs (rnd (z * T) - z * T) <= / 2).
    { intros z Z0. change (/ 2) with (pw (53 - 54)). apply err_le; [lia|]. change (pw 53) with (IZR (2 ^ 53)). simpl Z.pow. rewrite Rabs_pos_eq; lra. }
    assert (E1 := Er r B). assert (E2 := Er s B'). assert (N1 := nearest_within _ _ (eq_refl (ZnearestE (rnd (r * T))))). assert (N2 := nearest_within _ _ (eq_refl (ZnearestE (rnd (s * T))))).
    set (j := ZnearestE (rnd (r * T))) in *. set (k := ZnearestE (rnd (s * T))) in *. simpl Z.pow in S. apply Rabs_le_inv in E1, E2, N1, N2.
    assert (J : (j + 1 <= k)%Z). { apply Z.le_succ_l, lt_IZR. lra. } apply IZR_le in J. rewrite plus_IZR in J.
    unfold round13, to_int, rint. fold j k.
    assert (Q : forall z, 256 <= z <= 512 -> Rabs (rnd (IZR (ZnearestE (rnd (z * T))) / T) - IZR (ZnearestE (rnd (z * T))) / T) <= pw (9 - 54)).
    { intros z Z0. assert (M : forall y, (256 <= y <= 512)%Z -> IZR (ZnearestE (rnd (IZR y * T))) = IZR (y * 10000000000000)).
      { intros y Y. rewrite <- mult_IZR, rnd_fmt by (apply fmt_IZR; lia). apply rint_IZR. }
      assert (U : IZR (ZnearestE (rnd (z * T))) <= IZR (512 * 10000000000000)) by (rewrite <- M by lia; apply rint_le, rnd_le; lra).
      assert (V : IZR (256 * 10000000000000) <= IZR (ZnearestE (rnd (z * T)))) by (rewrite <- M by lia; apply rint_le, rnd_le; lra).
      rewrite mult_IZR in U, V. apply err_le; [lia|]. change (pw 9) with 512. rewrite Rabs_pos_eq; lra. }
    assert (Q1 := Q r B). assert (Q2 := Q s B'). fold j in Q1. fold k in Q2.
    change (pw (9 - 54)) with (/ IZR (2 ^ 45)) in *. simpl Z.pow in *. apply Rabs_le_inv in Q1, Q2. lra.
  Qed.
  Lemma step_log n : (2 ^ 50 <= n <= 2 ^ 51)%Z -> exists t, is (flog (step n)) t /\ 5479 / 1000 <= t <= 6301 / 1000.
  Proof.
    intro N. destruct (step_is n N) as (_ & I & _ & B). set (r := round13 (IZR n * pw (-42))) in *.
    assert (Dm : log_dom r) by (split; [apply Rle_trans with (pw 8)|apply Rle_trans with (pw 9)]; [apply bpow_le; lia|exact (proj1 B)|exact (proj2 B)|apply bpow_le; lia]).
    destruct (HL _ _ I Dm) as (t & Tt & E). exists t. split; [auto|]. destruct B as [B1 B2]. apply ln_mono in B2; [|lra]. apply ln_mono in B1; [|lra].
    change 256 with (pw 8) in B1. change 512 with (pw 9) in B2. rewrite ln_pw in B1, B2. assert (A := ln2_ge). assert (B := ln2_le7).
    rewrite (Rabs_pos_eq (ln r)) in E by lra. rewrite pw51 in E. simpl Z.pow in E. apply Rabs_le_inv in E. lra.
  Qed.
  Lemma step_same : exists n, (2 ^ 50 <= n < 2 ^ 51)%Z /\ flog (step n) = flog (step (n + 1)).
  Proof.
    assert (H : exists n t u, (2 ^ 50 <= n < 2 ^ 51)%Z /\ is (flog (step n)) t /\ is (flog (step (n + 1))) u /\ t = u).
    { destruct (Classical_Prop.classic (exists n t u, (2 ^ 50 <= n < 2 ^ 51)%Z /\ is (flog (step n)) t /\ is (flog (step (n + 1))) u /\ t = u)) as [|N]; auto. exfalso.
      destruct (step_log (2 ^ 50) ltac:(lia)) as (t0 & T0 & B0).
      assert (G : forall k, (0 <= k)%Z -> (k <= 2 ^ 50)%Z -> exists t, is (flog (step (2 ^ 50 + k))) t /\ t0 + IZR k * pw (-50) <= t).
      { apply (natlike_ind (fun k => (k <= 2 ^ 50)%Z -> exists t, is (flog (step (2 ^ 50 + k))) t /\ t0 + IZR k * pw (-50) <= t)).
        - intros _. exists t0. rewrite Z.add_0_r. split; [auto|lra].
        - intros k K IH Kb. destruct IH as (t & T & Et); [lia|]. destruct (step_log (2 ^ 50 + k) ltac:(lia)) as (t' & T' & B1). assert (t' = t) as -> by (destruct T, T'; congruence).
          destruct (step_log (2 ^ 50 + Z.succ k) ltac:(lia)) as (u & U & B2). exists u. split; [auto|].
          destruct (step_is (2 ^ 50 + k) ltac:(lia)) as (_ & I1 & _ & D1). destruct (step_is (2 ^ 50 + Z.succ k) ltac:(lia)) as (_ & I2 & _ & D2).
          assert (Dm : forall r, 256 <= r <= 512 -> log_dom r) by (intros r [R1 R2]; split; [apply Rle_trans with (pw 8)|apply Rle_trans with (pw 9)]; [apply bpow_le; lia|exact R1|exact R2|apply bpow_le; lia]).
          assert (t <= u). { apply (ML _ _ _ _ _ _ I1 I2); auto. apply round13_le, Rmult_le_compat_r; [apply bpow_ge_0|apply IZR_le; lia]. }
          assert (t <> u). { intro Q. apply N. exists (2 ^ 50 + k)%Z, t, u. split; [lia|]. split; [auto|]. split; [|auto]. replace (2 ^ 50 + k + 1)%Z with (2 ^ 50 + Z.succ k)%Z by lia. auto. }
          assert (M : forall x r, is x r -> 5479 / 1000 <= r <= 6301 / 1000 -> exists j, r = IZR j * pw (-50)).
          { intros x r X R. apply (binade_multiple r 2 ltac:(lia) (is_fmt _ _ X)). change (pw 2) with 4. change (pw (2 + 1)) with 8. lra. }
          destruct (M _ _ T B1) as (i & Ei). destruct (M _ _ U B2) as (j & Ej). assert (P := bpow_gt_0 radix2 (-50)).
          assert (IJ : (i + 1 <= j)%Z). { destruct (Z_le_gt_dec (i + 1) j) as [|X]; auto. assert (j <= i)%Z as X' by lia. apply IZR_le in X'. assert (u <= t) by (rewrite Ei, Ej; apply Rmult_le_compat_r; lra). lra. }
          apply IZR_le in IJ. rewrite plus_IZR in IJ. apply Rmult_le_compat_r with (r := pw (-50)) in IJ; [|lra]. unfold Z.succ. rewrite plus_IZR. lra. }
      destruct (G (2 ^ 50)%Z ltac:(lia) ltac:(lia)) as (t & T & Et). destruct (step_log (2 ^ 50 + 2 ^ 50) ltac:(lia)) as (t' & T' & B1). assert (t' = t) as -> by (destruct T, T'; congruence).
      change (IZR (2 ^ 50)) with (pw 50) in Et. rewrite <- bpow_plus in Et. change (pw (50 + -50)) with 1 in Et. lra. }
    destruct H as (n & t & u & N & T & U & <-). exists n. split; [auto|]. destruct (step_log n ltac:(lia)) as (t' & T' & B). assert (t' = t) as -> by (destruct T, T'; congruence).
    destruct T as [T1 T2], U as [U1 U2]. apply B2R_inj.
    - destruct (flog (step n)) as [s|s| |s m e bd]; try discriminate; auto. exfalso. simpl in T2. lra.
    - destruct (flog (step (n + 1))) as [s|s| |s m e bd]; try discriminate; auto. exfalso. simpl in U2. lra.
    - congruence.
  Qed.
  (** with the bounds 256 and 512 two stored values have the same entry, so one of them does not come back *)
  Theorem C105_refuted : let lo := fround13 (of_Z 256) in let hi := fround13 (of_Z 512) in
    bounds (of_Z 256) (of_Z 512) lo hi /\ log_bounded lo hi /\
    (exists v w, float_legal lo hi v = true /\ float_legal lo hi w = true /\ feq (float_stored v) v = true /\ feq (float_stored w) w = true /\ feq v w = false /\
       log_to_vector lo hi v = log_to_vector lo hi w) /\
    exists v, float_legal lo hi v = true /\ feq (float_stored v) v = true /\ feq (fround13 (log_float_value lo hi (log_to_vector lo hi v))) v = false.
  Proof.
    intros lo hi.
    assert (Lo : is lo 256).
    { rewrite <- (round13_IZR 256) by lia. apply (fround13_is _ _ 9 (of_Z_is 256 ltac:(lia)) ltac:(lia)). change (pw 9) with 512. rewrite Rabs_pos_eq; lra. }
    assert (Hi : is hi 512).
    { rewrite <- (round13_IZR 512) by lia. apply (fround13_is _ _ 9 (of_Z_is 512 ltac:(lia)) ltac:(lia)). change (pw 9) with 512. rewrite Rabs_pos_eq; lra. }
    split; [repeat split; vm_compute; reflexivity|]. split.
    { exists 256, 512. split.
      - constructor; auto; [apply Rle_trans with (pw 8)|apply Rle_trans with (pw 9)|lra]; try (apply bpow_le; lia); right; reflexivity.
      - destruct (log_scale HL 9 lo 256 ltac:(lia) Lo) as (a & A & Ea); [change (pw 9) with 512; split; [apply Rle_trans with (pw 0); [apply bpow_le; lia|change (pw 0) with 1]|]; lra|].
        destruct (log_scale HL 9 hi 512 ltac:(lia) Hi) as (b & B & Eb); [change (pw 9) with 512; split; [apply Rle_trans with (pw 0); [apply bpow_le; lia|change (pw 0) with 1]|]; lra|].
        rewrite (flt_is _ _ _ _ A B). apply Rlt_bool_true. change 256 with (pw 8) in Ea. change 512 with (pw 9) in Eb. rewrite ln_pw in Ea, Eb. assert (L1 := ln2_ge). assert (L2 := ln2_le7).
        rewrite (Rabs_pos_eq (8 * ln 2)) in Ea by lra. rewrite (Rabs_pos_eq (9 * ln 2)) in Eb by lra. rewrite pw51 in *. simpl Z.pow in *. apply Rabs_le_inv in Ea, Eb. lra. }
    destruct step_same as (n & N & Sm). assert (E : exists v w, float_legal lo hi v = true /\ float_legal lo hi w = true /\ feq (float_stored v) v = true /\ feq (float_stored w) w = true /\ feq v w = false /\
       log_to_vector lo hi v = log_to_vector lo hi w).
    { exists (step n), (step (n + 1)). destruct (step_is n ltac:(lia)) as (F1 & I1 & D1 & B1). destruct (step_is (n + 1) ltac:(lia)) as (F2 & I2 & D2 & B2). assert (Lt := step_lt n N).
      split; [apply (legal_true _ _ _ _ _ _ Lo I1 Hi B1)|]. split; [apply (legal_true _ _ _ _ _ _ Lo I2 Hi B2)|].
      assert (G : forall i, (2 ^ 50 <= i <= 2 ^ 51)%Z -> feq (float_stored (step i)) (step i) = true).
      { intros i Bi. destruct (step_is i Bi) as (F & I & D & B). unfold float_stored. destruct (fround13_is _ _ 9 I ltac:(lia)) as [C _]; [change (pw 9) with 512; rewrite Rabs_pos_eq; lra|].
        rewrite (feq_iff _ _ _ _ C I). apply round13_twice. exact (is_fmt _ _ F). }
      split; [apply G; lia|]. split; [apply G; lia|]. split; [|unfold log_to_vector; rewrite Sm; reflexivity].
      destruct (feq (step n) (step (n + 1))) eqn:Q; auto. apply (feq_iff _ _ _ _ I1 I2) in Q. lra. }
    split; [exact E|]. destruct E as (v & w & V & W & Sv & Sw & Ne & Eq).
    destruct (feq (fround13 (log_float_value lo hi (log_to_vector lo hi v))) v) eqn:Q1; [|eauto].
    destruct (feq (fround13 (log_float_value lo hi (log_to_vector lo hi w))) w) eqn:Q2; [|eauto]. exfalso. rewrite Eq in Q1.
    destruct (between_finite _ _ _ _ _ Lo Hi V) as (r & Vr & _). destruct (between_finite _ _ _ _ _ Lo Hi W) as (s & Ws & _).
    set (z := fround13 (log_float_value lo hi (log_to_vector lo hi w))) in *.
    assert (Fz : is_finite z = true).
    { destruct Vr as [Fv _]. destruct z as [?|[|]| |? ? ? ?]; auto; destruct v as [?|?| |[|] ? ? ?]; try discriminate. }
    apply is_R in Fz. apply (feq_iff _ _ _ _ Fz Vr) in Q1. apply (feq_iff _ _ _ _ Fz Ws) in Q2. assert (feq v w = true) by (apply (feq_iff _ _ _ _ Vr Ws); lra). congruence.
  Qed.
End Beyond.

(** ** The assumptions hold of correctly rounded functions *)
Definition fl (r : R) : f64 := binary_normalize 53 1024 prec53 emax1024 mode_NE
  (Ztrunc (scaled_mantissa radix2 (FLT_exp (-1074) 53) (rnd r))) (cexp radix2 (FLT_exp (-1074) 53) (rnd r)) false.
Lemma fl_is r e : (-1074 <= e < 1024)%Z -> Rabs r <= pw e -> is (fl r) (rnd r).
Proof.
  intros E H. generalize (binary_normalize_correct 53 1024 prec53 emax1024 mode_NE
    (Ztrunc (scaled_mantissa radix2 (FLT_exp (-1074) 53) (rnd r))) (cexp radix2 (FLT_exp (-1074) 53) (rnd r)) false).
  change (round radix2 (SpecFloat.fexp 53 1024) (round_mode mode_NE)) with rnd. fold (fl r).
  assert (Q : rnd r = F2R (Float radix2 (Ztrunc (scaled_mantissa radix2 (FLT_exp (-1074) 53) (rnd r))) (cexp radix2 (FLT_exp (-1074) 53) (rnd r)))) by (apply fmt_rnd).
  cbv zeta. rewrite <- Q, (rnd_fmt (rnd r)) by apply fmt_rnd. rewrite (small r e E H). intros (A & B & _). split; auto.
Qed.
Definition rounded : Libm := {| flog x := fl (ln (B2R x)); FloatLog.fexp x := fl (exp (B2R x)) |}.
Lemma ln_away x : fmt x -> 0 < x -> x = 1 \/ pw (-54) <= Rabs (ln x).
Proof.
  intros F P. assert (M53 : pw (-53) = / IZR (2 ^ 53)) by reflexivity. assert (M52 : pw (-52) = / IZR (2 ^ 52)) by reflexivity. assert (M54 : pw (-54) = / IZR (2 ^ 54)) by reflexivity. simpl Z.pow in *.
  destruct (Rtotal_order x 1) as [H|[H|H]]; [right|left; auto|right].
  - assert (X : x <= 1 - pw (-53)).
    { destruct (Rlt_le_dec x (/ 2)) as [|G]; [lra|]. destruct (binade_multiple x (-1) ltac:(lia) F) as (j & ->); [change (pw (-1)) with (/ 2); change (pw (-1 + 1)) with 1; lra|].
      change (-1 - 52)%Z with (-53)%Z in *. assert (J : (j <= 2 ^ 53 - 1)%Z).
      { apply Z.lt_le_pred. apply lt_IZR. change (IZR (2 ^ 53)) with (pw 53). apply Rmult_lt_reg_r with (pw (-53)); [apply bpow_gt_0|]. rewrite <- bpow_plus. exact H. }
      apply IZR_le in J. rewrite minus_IZR in J. change (IZR (2 ^ 53)) with (pw 53) in J. apply Rmult_le_compat_r with (r := pw (-53)) in J; [|apply bpow_ge_0].
      rewrite Rmult_minus_distr_r, <- bpow_plus in J. change (pw (53 + -53)) with 1 in J. lra. }
    assert (Q := ln_sub1 x P). rewrite Rabs_left; lra.
  - assert (X : 1 + pw (-52) <= x).
    { destruct (Rlt_le_dec x 2) as [G|]; [|lra]. destruct (binade_multiple x 0 ltac:(lia) F) as (j & ->); [change (pw 0) with 1; change (pw (0 + 1)) with 2; lra|].
      change (0 - 52)%Z with (-52)%Z in *. assert (J : (2 ^ 52 + 1 <= j)%Z).
      { apply Z.le_succ_l. apply lt_IZR. change (IZR (2 ^ 52)) with (pw 52). apply Rmult_lt_reg_r with (pw (-52)); [apply bpow_gt_0|]. rewrite <- bpow_plus. exact H. }
      apply IZR_le in J. rewrite plus_IZR in J. change (IZR (2 ^ 52)) with (pw 52) in J. apply Rmult_le_compat_r with (r := pw (-52)) in J; [|apply bpow_ge_0].
      rewrite Rmult_plus_distr_r, <- bpow_plus in J. change (pw (52 + -52)) with 1 in J. lra. }
    assert (Q := ln_sub1 (/ x) ltac:(apply Rinv_0_lt_compat; lra)). rewrite ln_Rinv in Q by lra.
    assert (Y : / x <= / (1 + pw (-52))) by (apply Rinv_le; lra). assert (Z1 : / (1 + pw (-52)) <= 1 - pw (-53)).
    { apply Rmult_le_reg_r with (1 + pw (-52)); [lra|]. rewrite Rinv_l by lra. rewrite M53, M52. lra. }
    rewrite Rabs_pos_eq; lra.
Qed.
Lemma rounded_rel r : r = 0 \/ pw (-1022) <= Rabs r -> Rabs (rnd r - r) <= pw (-51) * Rabs r.
Proof.
  intros [->|H]; [rewrite round_0, Rminus_0_r, Rabs_R0 by auto with typeclass_instances; lra|]. eapply Rle_trans; [apply rel; auto|].
  apply Rmult_le_compat_r; [apply Rabs_pos|apply bpow_le; lia].
Qed.
Lemma ln_size r : log_dom r -> Rabs (ln r) <= pw 10.
Proof.
  intros [A B]. assert (P := bpow_gt_0 radix2 (-1000)). apply ln_mono in B; [|lra]. apply ln_mono in A; [|auto]. rewrite ln_pw in A, B. assert (Q := ln2_le). assert (Q' := ln2_ge).
  change (pw 10) with 1024. apply Rabs_le. lra.
Qed.
Lemma exp_size r : exp_dom r -> pw (-1022) <= exp r <= pw 1022.
Proof.
  intros [A B]. assert (Q := ln2_ge). rewrite <- (exp_ln (pw (-1022))), <- (exp_ln (pw 1022)) by apply bpow_gt_0. rewrite !ln_pw. split; apply exp_le; lra.
Qed.
Lemma rounded_log : accurate (@flog rounded) ln log_dom.
Proof.
  intros x r [F <-] D. exists (rnd (ln (B2R x))). split; [apply (fl_is _ 10); [lia|now apply ln_size]|]. apply rounded_rel.
  destruct (ln_away (B2R x)) as [Q|Q].
  - apply (generic_format_B2R 53 1024).
  - destruct D as [A _]. assert (P := bpow_gt_0 radix2 (-1000)). lra.
  - left. rewrite Q. apply ln_1.
  - right. eapply Rle_trans; [|exact Q]. apply bpow_le. lia.
Qed.
Lemma rounded_exp : accurate (@FloatLog.fexp rounded) exp exp_dom.
Proof.
  intros x r [F <-] D. assert (S := exp_size _ D). exists (rnd (exp (B2R x))). assert (P := exp_pos (B2R x)).
  split; [apply (fl_is _ 1022); [lia|rewrite Rabs_pos_eq; lra]|]. apply rounded_rel. right. rewrite Rabs_pos_eq; lra.
Qed.
Lemma rounded_monotone : monotone (@flog rounded) log_dom.
Proof.
  intros x y r s t u [Fx <-] [Fy <-] Dx Dy H T U.
  assert (T' := fl_is (ln (B2R x)) 10 ltac:(lia) (ln_size _ Dx)). assert (U' := fl_is (ln (B2R y)) 10 ltac:(lia) (ln_size _ Dy)).
  assert (t = rnd (ln (B2R x))) as -> by (destruct T, T'; simpl in *; congruence). assert (u = rnd (ln (B2R y))) as -> by (destruct U, U'; simpl in *; congruence).
  apply rnd_le. apply ln_mono; auto. destruct Dx as [A _]. assert (P := bpow_gt_0 radix2 (-1000)). lra.
Qed.
Example log_range_case : log_range 1 1000. Proof. split; lia. Qed.
(** UniformIntegerHyperparameter("x", 1, 1000, log=True): every value, with the correctly rounded functions *)
Example log_int_case v : (1 <= v <= 1000)%Z -> @log_int_value rounded 1 1000 (@log_to_vector rounded (of_Z 1) (of_Z 1000) (of_Z v)) = Ok v.
Proof. intro V. destruct (@C104_values rounded rounded_log rounded_exp 1 1000 v log_range_case V) as [H _]. exact H. Qed.
(** UniformFloatHyperparameter("lr", 1e-6, 1e-1, log=True) *)
Example log_float_case : let a := fdiv f1 (of_Z 1000000) in let b := fdiv f1 (of_Z 10) in
  bounds a b (fround13 a) (fround13 b) /\ flt f0 (fround13 a) = true /\ fle (fround13 b) (fdiv f1 (of_Z 2)) = true /\ float_legal (fround13 a) (fround13 b) (fdiv f1 (of_Z 1001)) = true.
Proof. repeat split; vm_compute; reflexivity. Qed.
Example log_float_trip : let lo := fround13 (fdiv f1 (of_Z 1000000)) in let hi := fround13 (fdiv f1 (of_Z 10)) in let v := fround13 (fdiv f1 (of_Z 1001)) in
  feq (fround13 (@log_float_value rounded lo hi (@log_to_vector rounded lo hi v))) v = true.
Proof.
  intros lo hi v. destruct log_float_case as (B & P & H & V).
  exact (@C105_decimals_partial rounded rounded_log rounded_monotone rounded_exp _ _ _ _ _ B P H V).
Qed.
