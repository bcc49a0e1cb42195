(** * Properties of the float64 arithmetic (C98-)

    Statements are about binary64 numbers; [is x r] (FloatProofs.v) says that the float [x] is finite and
    has the real value [r]. *)
From Coq Require Import ZArith Reals Lra Lia Bool List Psatz.
From Flocq Require Import Core IEEE754.BinarySingleNaN.
From Coq Require Import Sorted.
From Verif Require Import Base Numeric NumericProofs DistProofs Float FloatProofs.
Import ListNotations.
Open Scope R_scope.

(** integer bounds that are small enough *)
Definition range_ok (k lo hi : Z) : Prop := (lo < hi)%Z /\ (- 2 ^ k <= lo)%Z /\ (hi <= 2 ^ k)%Z.

Lemma pw_IZR k : (0 <= k)%Z -> pw k = IZR (2 ^ k).
Proof. intro H. rewrite <- (IZR_Zpower radix2 k H). reflexivity. Qed.
Lemma IZR_lt_pos z : (0 < z)%Z -> 0 < IZR z.
Proof. apply (IZR_lt 0). Qed.

(** the entry of an integer is the correctly rounded quotient *)
Lemma frac_unit a s : (0 <= a <= s)%Z -> (0 < s)%Z -> 0 <= IZR a / IZR s <= 1.
Proof.
  intros A S. assert (P := IZR_lt_pos s S). assert (0 <= IZR a <= IZR s) by (split; apply IZR_le; lia).
  split; [apply Rmult_le_pos; [lra|left; apply Rinv_0_lt_compat; auto]|]. apply Rmult_le_reg_r with (IZR s); auto. field_simplify; lra.
Qed.
Lemma quotient_is a s : (0 <= a <= s)%Z -> (0 < s <= 2 ^ 53)%Z -> is (fdiv (of_Z a) (of_Z s)) (rnd (IZR a / IZR s)).
Proof.
  intros A S. assert (P := IZR_lt_pos s (proj1 S)).
  apply (fdiv_is _ _ _ _ 0); try (apply of_Z_is; lia); try lia; [lra|].
  destruct (frac_unit a s A (proj1 S)). rewrite Rabs_pos_eq by lra. change (pw 0) with 1. lra.
Qed.
Lemma sub_is a b : (Z.abs a <= 2 ^ 52)%Z -> (Z.abs b <= 2 ^ 52)%Z -> is (fsub (of_Z a) (of_Z b)) (IZR (a - b)).
Proof.
  intros A B. rewrite <- (rnd_fmt (IZR (a - b))) by (apply fmt_IZR; lia). rewrite minus_IZR.
  apply (fsub_is _ _ _ _ 53); try (apply of_Z_is; lia); [lia|].
  rewrite <- minus_IZR, <- abs_IZR, pw_IZR by lia. apply IZR_le. lia.
Qed.
Lemma int_entry lo hi v : range_ok 52 lo hi -> (lo <= v <= hi)%Z ->
  is (int_to_vector lo hi v) (rnd (IZR (v - lo) / IZR (hi - lo))).
Proof.
  intros (R & L & H) V. unfold int_to_vector, fnormalize.
  assert (Il : is (of_Z lo) (IZR lo)) by (apply of_Z_is; lia). assert (Ih : is (of_Z hi) (IZR hi)) by (apply of_Z_is; lia).
  assert (G : is (fdiv (fsub (of_Z v) (of_Z lo)) (fsub (of_Z hi) (of_Z lo))) (rnd (IZR (v - lo) / IZR (hi - lo)))).
  { assert (P := IZR_lt_pos (hi - lo) ltac:(lia)). apply (fdiv_is _ _ _ _ 0); try (apply sub_is; lia); [lra|lia|].
    destruct (frac_unit (v - lo) (hi - lo)); try lia. rewrite Rabs_pos_eq by lra. change (pw 0) with 1. lra. }
  rewrite (feq_is _ _ _ _ Il f0_is), (feq_is _ _ _ _ Ih f1_is).
  destruct (Req_bool_spec (IZR lo) 0) as [Q|Q]; simpl; auto. destruct (Req_bool_spec (IZR hi) 1) as [Q'|Q']; auto.
  apply (eq_IZR lo 0) in Q. apply (eq_IZR hi 1) in Q'. subst. replace (IZR (v - 0) / IZR (1 - 0)) with (IZR v) by (rewrite Z.sub_0_r; simpl; field).
  rewrite rnd_fmt by (apply fmt_IZR; lia). apply of_Z_is. lia.
Qed.

Lemma rnd_between r a b : fmt a -> fmt b -> a <= r <= b -> a <= rnd r <= b.
Proof. intros A B [H K]. apply rnd_le in H, K. rewrite (rnd_fmt a A) in H. rewrite (rnd_fmt b B) in K. lra. Qed.
Lemma rnd_int r a b : (Z.abs a <= 2 ^ 53)%Z -> (Z.abs b <= 2 ^ 53)%Z -> IZR a <= r <= IZR b -> IZR a <= rnd r <= IZR b.
Proof. intros A B. apply rnd_between; apply fmt_IZR; auto. Qed.

(** decoding a number of the unit interval *)
Lemma unsafe_is lo hi x r : range_ok 52 lo hi -> is x r -> 0 <= r <= 1 ->
  let p := rnd (r * IZR (hi - lo)) in let q := rnd (p + IZR lo) in
  is (int_unsafe lo hi x) q /\ 0 <= p <= IZR (hi - lo) /\ IZR lo <= q <= IZR hi.
Proof.
  intros (R & L & H) X Rr p q. assert (P := IZR_lt_pos (hi - lo) ltac:(lia)).
  assert (Bp : 0 <= p <= IZR (hi - lo)).
  { apply (rnd_int _ 0 (hi - lo)); try lia. split; [apply Rmult_le_pos; lra|]. rewrite <- (Rmult_1_l (IZR (hi - lo))) at 2. apply Rmult_le_compat_r; lra. }
  assert (Bs : IZR lo <= p + IZR lo <= IZR hi) by (rewrite minus_IZR in Bp; lra).
  assert (Bq : IZR lo <= q <= IZR hi) by (apply rnd_int; auto; lia).
  split; auto. unfold int_unsafe, fscale. apply (fadd_is _ _ _ _ 53); [|apply of_Z_is; lia|lia|].
  - apply (fmul_is _ _ _ _ 53); auto; [apply sub_is; lia|lia|].
    rewrite Rabs_pos_eq by (apply Rmult_le_pos; lra). rewrite pw_IZR by lia.
    apply Rle_trans with (1 * IZR (hi - lo)); [apply Rmult_le_compat_r; lra|]. rewrite Rmult_1_l. apply IZR_le. lia.
  - rewrite pw_IZR by lia. apply Rabs_le. rewrite <- opp_IZR.
    assert (IZR (- 2 ^ 53) <= IZR lo) by (apply IZR_le; lia). assert (IZR hi <= IZR (2 ^ 53)) by (apply IZR_le; lia). lra.
Qed.

(** ** C99: values stay in the range *)
Theorem C99_int lo hi x : range_ok 52 lo hi -> fle f0 x = true -> fle x f1 = true ->
  exists v, int_to_value lo hi x = Ok v /\ (lo <= v <= hi)%Z.
Proof.
  intros R A B. assert (F : is_finite x = true) by (destruct x as [s|[|]| |s m e]; auto; discriminate).
  apply is_R in F. rewrite (fle_iff _ _ _ _ f0_is F) in A. rewrite (fle_iff _ _ _ _ F f1_is) in B.
  destruct (unsafe_is lo hi x _ R F (conj A B)) as (U & _ & L & H). apply frint_is in U.
  set (q := rnd _) in *. destruct R as (R1 & R2 & R3).
  assert (lo <= ZnearestE q <= hi)%Z.
  { split.
    - rewrite <- (Zrnd_IZR ZnearestE lo). apply Zrnd_le; auto with typeclass_instances.
    - rewrite <- (Zrnd_IZR ZnearestE hi). apply Zrnd_le; auto with typeclass_instances. }
  exists (ZnearestE q). split; auto. apply to_i64_is; auto. lia.
Qed.

(** the error of a round trip *)
Lemma int_error k lo hi v : (0 <= k <= 51)%Z -> range_ok k lo hi -> (lo <= v <= hi)%Z ->
  exists q, is (int_unsafe lo hi (int_to_vector lo hi v)) q /\ Rabs (q - IZR v) <= 5 * pw (k - 53) /\ IZR lo <= q <= IZR hi.
Proof.
  intros K R V. assert (R' : range_ok 52 lo hi).
  { destruct R as (R1 & R2 & R3). assert (2 ^ k <= 2 ^ 52)%Z by (apply Z.pow_le_mono_r; lia). repeat split; lia. }
  assert (I := int_entry lo hi v R' V). destruct R as (R1 & R2 & R3).
  set (a := IZR (v - lo)) in *. set (s := IZR (hi - lo)) in *.
  assert (P : 0 < s) by (apply IZR_lt_pos; lia).
  assert (U := frac_unit (v - lo) (hi - lo) ltac:(lia) ltac:(lia)). fold a s in U.
  set (r := rnd (a / s)) in *.
  assert (Br : 0 <= r <= 1) by (apply (rnd_int _ 0 1); auto; lia).
  destruct (unsafe_is lo hi _ _ R' I Br) as (J & Bp & Bq). fold s in J, Bp, Bq.
  set (p := rnd (r * s)) in *. set (q := rnd (p + IZR lo)) in *. exists q. split; [|split]; auto.
  assert (S : s <= pw (k + 1)) by (rewrite pw_IZR by lia; apply IZR_le; rewrite Z.pow_add_r by lia; lia).
  assert (E1 : Rabs (r - a / s) <= pw (0 - 53)) by (apply err; [lia|]; rewrite Rabs_pos_eq by lra; change (pw 0) with 1; lra).
  assert (E2 : Rabs (p - r * s) <= pw (k + 1 - 53)).
  { apply err; [lia|]. rewrite Rabs_pos_eq by (apply Rmult_le_pos; lra). apply Rle_trans with (1 * s); [apply Rmult_le_compat_r; lra|lra]. }
  assert (Bs : IZR lo <= p + IZR lo <= IZR hi) by (unfold s in Bp; rewrite minus_IZR in Bp; lra).
  assert (E3 : Rabs (q - (p + IZR lo)) <= pw (k - 53)).
  { apply err; [lia|]. rewrite pw_IZR by lia. apply Rabs_le. rewrite <- opp_IZR.
    assert (IZR (- 2 ^ k) <= IZR lo) by (apply IZR_le; lia). assert (IZR hi <= IZR (2 ^ k)) by (apply IZR_le; lia). lra. }
  assert (E1' : Rabs (r * s - a) <= pw (k + 1 - 53)).
  { replace (r * s - a) with ((r - a / s) * s) by (field; lra). rewrite Rabs_mult, (Rabs_pos_eq s) by lra.
    apply Rle_trans with (pw (0 - 53) * pw (k + 1)); [apply Rmult_le_compat; try lra; apply Rabs_pos|].
    rewrite <- bpow_plus. apply Req_le. f_equal. lia. }
  assert (T : pw (k + 1 - 53) = 2 * pw (k - 53)) by (replace (k + 1 - 53)%Z with (1 + (k - 53))%Z by lia; rewrite bpow_plus; reflexivity).
  assert (Va : IZR v = a + IZR lo) by (unfold a; rewrite minus_IZR; ring).
  rewrite T in *.
  replace (q - IZR v) with ((q - (p + IZR lo)) + (p - r * s) + (r * s - a)) by (rewrite Va; ring).
  eapply Rle_trans; [apply Rabs_triang|]. assert (W := Rabs_triang (q - (p + IZR lo)) (p - r * s)). lra.
Qed.

(** ** C98: integers survive the encoding *)
Theorem C98_values lo hi v : range_ok 49 lo hi -> (lo <= v <= hi)%Z ->
  int_to_value lo hi (int_to_vector lo hi v) = Ok v.
Proof.
  intros R V. destruct (int_error 49 lo hi v ltac:(lia) R V) as (q & Q & E & _). destruct R as (R1 & R2 & R3).
  apply frint_is in Q. rewrite (near q v) in Q.
  - apply to_i64_is; auto. lia.
  - eapply Rle_lt_trans; [exact E|]. change (pw (49 - 53)) with (/ 16). lra.
Qed.

(** distinct integers have distinct entries *)
Theorem C98_injective lo hi v w : range_ok 49 lo hi -> (lo <= v <= hi)%Z -> (lo <= w <= hi)%Z ->
  feq (int_to_vector lo hi v) (int_to_vector lo hi w) = true -> v = w.
Proof.
  intros R V W Q. assert (R' : range_ok 52 lo hi) by (destruct R as (R1 & R2 & R3); repeat split; lia).
  assert (Iv := int_entry lo hi v R' V). assert (Iw := int_entry lo hi w R' W).
  rewrite (feq_iff _ _ _ _ Iv Iw) in Q.
  destruct (int_error 49 lo hi v ltac:(lia) R V) as (q & Qv & Ev & _). destruct (int_error 49 lo hi w ltac:(lia) R W) as (q' & Qw & Ew & _).
  assert (U : forall z, (lo <= z <= hi)%Z -> 0 <= rnd (IZR (z - lo) / IZR (hi - lo)) <= 1).
  { intros z Z. apply (rnd_int _ 0 1); try lia. destruct R as (R1 & _). apply frac_unit; lia. }
  destruct (unsafe_is lo hi _ _ R' Iv (U v V)) as ((_ & Jv) & _). destruct (unsafe_is lo hi _ _ R' Iw (U w W)) as ((_ & Jw) & _).
  rewrite Q in Jv. rewrite <- Jw in Jv. destruct Qv as [_ <-]. destruct Qw as [_ <-].
  assert (T : 5 * pw (49 - 53) < / 2) by (change (pw (49 - 53)) with (/ 16); lra).
  apply (fun H => Rle_lt_trans _ _ _ H T), near in Ev, Ew. congruence.
Qed.

(** the order is kept *)
Theorem C98_monotone lo hi v w : range_ok 52 lo hi -> (lo <= v <= hi)%Z -> (lo <= w <= hi)%Z -> (v <= w)%Z ->
  fle (int_to_vector lo hi v) (int_to_vector lo hi w) = true.
Proof.
  intros R V W H. rewrite (fle_iff _ _ _ _ (int_entry lo hi v R V) (int_entry lo hi w R W)). apply rnd_le.
  destruct R as (R1 & _). apply Rmult_le_compat_r; [left; apply Rinv_0_lt_compat, IZR_lt_pos; lia|]. apply IZR_le. lia.
Qed.
(** the bounds have the entries 0 and 1, all others lie between *)
Theorem C98_unit lo hi v : range_ok 52 lo hi -> (lo <= v <= hi)%Z ->
  fle f0 (int_to_vector lo hi v) = true /\ fle (int_to_vector lo hi v) f1 = true /\
  (v = lo -> feq (int_to_vector lo hi v) f0 = true) /\ (v = hi -> feq (int_to_vector lo hi v) f1 = true).
Proof.
  intros R V. assert (I := int_entry lo hi v R V). assert (R1 := proj1 R).
  assert (U : 0 <= rnd (IZR (v - lo) / IZR (hi - lo)) <= 1) by (apply (rnd_int _ 0 1); try lia; apply frac_unit; lia).
  rewrite (fle_iff _ _ _ _ f0_is I), (fle_iff _ _ _ _ I f1_is), (feq_iff _ _ _ _ I f0_is), (feq_iff _ _ _ _ I f1_is).
  assert (P := IZR_lt_pos (hi - lo) ltac:(lia)). repeat split; try lra.
  - intros ->. rewrite Z.sub_diag. unfold Rdiv. rewrite Rmult_0_l. apply round_0. auto with typeclass_instances.
  - intros ->. replace (IZR (hi - lo) / IZR (hi - lo)) with 1 by (field; lra). apply rnd_fmt. apply (fmt_IZR 1). lia.
Qed.

(** ** Legality *)
Lemma pw_neg k : (0 <= k)%Z -> pw (- k) = / IZR (2 ^ k).
Proof. intro H. rewrite bpow_opp, pw_IZR by auto. reflexivity. Qed.
Lemma fatol_is : exists t, is fatol t /\ 99 / 100 * / IZR 10000000000000 <= t <= 101 / 100 * / IZR 10000000000000.
Proof.
  exists (rnd (1 / IZR 10000000000000)). split.
  - apply (fdiv_is _ _ _ _ 0); [apply f1_is|apply of_Z_is; lia|lra|lia|]. rewrite Rabs_pos_eq by lra. change (pw 0) with 1. lra.
  - assert (E := rel (1 / IZR 10000000000000)). rewrite Rabs_pos_eq in E by lra. change (pw (-53)) with (/ IZR (2 ^ 53)) in E.
    assert (pw (-1022) <= 1 / 10000000000000).
    { apply Rle_trans with (pw (-50)); [apply bpow_le; lia|]. change (pw (-50)) with (/ IZR (2 ^ 50)). simpl Z.pow. lra. }
    specialize (E H). simpl Z.pow in E. apply Rabs_le_inv in E. lra.
Qed.
Lemma frtol_is : exists t, is frtol t /\ 99 / 100 * / IZR 100000 <= t <= 101 / 100 * / IZR 100000.
Proof.
  exists (rnd (1 / IZR 100000)). split.
  - apply (fdiv_is _ _ _ _ 0); [apply f1_is|apply of_Z_is; lia|lra|lia|]. rewrite Rabs_pos_eq by lra. change (pw 0) with 1. lra.
  - assert (E := rel (1 / IZR 100000)). rewrite Rabs_pos_eq in E by lra. change (pw (-53)) with (/ IZR (2 ^ 53)) in E.
    assert (pw (-1022) <= 1 / 100000).
    { apply Rle_trans with (pw (-50)); [apply bpow_le; lia|]. change (pw (-50)) with (/ IZR (2 ^ 50)). simpl Z.pow. lra. }
    specialize (E H). simpl Z.pow in E. apply Rabs_le_inv in E. lra.
Qed.
Lemma rnd_abs r : rnd (Rabs r) = Rabs (rnd r).
Proof. apply round_NE_abs. auto with typeclass_instances. Qed.

(** numbers well within the tolerance pass the test *)
Lemma fclose_true x r z : is x r -> (Z.abs z <= 2 ^ 53)%Z -> Rabs (r - IZR z) < / 2 ->
  Rabs (r - IZR z) <= 99 / 100 * / IZR 10000000000000 + 98 / 100 * / IZR 100000 * Rabs (IZR z) -> fclose x = true.
Proof.
  intros X Z H T. unfold fclose. assert (B := frint_is _ _ X). rewrite (near r z H) in B.
  destruct fatol_is as (t & It & Bt). destruct frtol_is as (u & Iu & Bu).
  assert (Az : Rabs (IZR z) <= IZR (2 ^ 53)) by (rewrite <- abs_IZR; apply IZR_le; auto). assert (Az' := Rabs_pos (IZR z)).
  assert (M : is (fmul frtol (fabs (frint x))) (rnd (u * Rabs (IZR z)))).
  { apply (fmul_is _ _ _ _ 53); auto; [apply fabs_is; auto|lia|]. rewrite Rabs_pos_eq by (apply Rmult_le_pos; lra).
    rewrite pw_IZR by lia. apply Rle_trans with (1 * IZR (2 ^ 53)); [apply Rmult_le_compat; lra|lra]. }
  set (m := rnd (u * Rabs (IZR z))) in *.
  assert (Bm : 98 / 100 * / IZR 100000 * Rabs (IZR z) <= m <= IZR (2 ^ 53)).
  { split.
    - destruct (Z.eq_dec z 0) as [->|N]; [unfold m; rewrite Rabs_R0, !Rmult_0_r, round_0 by auto with typeclass_instances; lra|].
      assert (1 <= Rabs (IZR z)) by (rewrite <- abs_IZR; apply (IZR_le 1); lia).
      assert (L : / 1000000 <= u * Rabs (IZR z)) by (apply Rle_trans with (u * 1); [lra|apply Rmult_le_compat_l; lra]).
      assert (E := rel (u * Rabs (IZR z))). rewrite (Rabs_pos_eq (u * _)) in E by lra. change (pw (-53)) with (/ IZR (2 ^ 53)) in E.
      assert (L' : pw (-1022) <= u * Rabs (IZR z)).
      { apply Rle_trans with (pw (-50)); [apply bpow_le; lia|]. change (pw (-50)) with (/ IZR (2 ^ 50)). simpl Z.pow. lra. }
      specialize (E L'). fold m in E. apply Rabs_le_inv in E. simpl Z.pow in E.
      assert (99 / 100 * / 100000 * Rabs (IZR z) <= u * Rabs (IZR z)) by (apply Rmult_le_compat_r; lra). lra.
    - apply (rnd_int _ 0 (2 ^ 53)); try lia. split; [apply Rmult_le_pos; lra|]. apply Rle_trans with (1 * IZR (2 ^ 53)); [apply Rmult_le_compat; lra|lra]. }
  assert (A : is (fadd fatol (fmul frtol (fabs (frint x)))) (rnd (t + m))).
  { apply (fadd_is _ _ _ _ 54); auto; [lia|]. rewrite Rabs_pos_eq by lra. change (pw 54) with (IZR (2 ^ 54)). simpl Z.pow in *. lra. }
  assert (S : is (fabs (fsub x (frint x))) (Rabs (rnd (r - IZR z)))).
  { apply fabs_is. apply (fsub_is _ _ _ _ 0); auto; [lia|]. change (pw 0) with 1. lra. }
  rewrite (fle_iff _ _ _ _ S A), <- rnd_abs. apply rnd_le. lra.
Qed.

Lemma in_unit_true x r : is x r -> 0 <= r <= 1 -> (fle f0 x && fle x f1)%bool = true.
Proof. intros X H. apply andb_true_iff. rewrite (fle_iff _ _ _ _ f0_is X), (fle_iff _ _ _ _ X f1_is). exact H. Qed.
Lemma entry_unit lo hi v : (lo < hi)%Z -> (lo <= v <= hi)%Z -> 0 <= rnd (IZR (v - lo) / IZR (hi - lo)) <= 1.
Proof. intros R V. apply (rnd_int _ 0 1); try lia. apply frac_unit; lia. Qed.

(** the entry times the size of the range is close to the position *)
Lemma product_rel a s : (0 <= a <= s)%Z -> (0 < s <= 2 ^ 53)%Z ->
  Rabs (rnd (rnd (IZR a / IZR s) * IZR s) - IZR a) <= (pw (-52) + pw (-105)) * IZR a.
Proof.
  intros A S. assert (P : 0 < IZR s) by (apply IZR_lt_pos; lia).
  destruct (Z.eq_dec a 0) as [->|N].
  { unfold Rdiv. rewrite Rmult_0_l, round_0, Rmult_0_l, round_0, Rminus_0_r, Rabs_R0, Rmult_0_r by auto with typeclass_instances. lra. }
  assert (A1 : 1 <= IZR a) by (apply (IZR_le 1); lia). assert (S1 : IZR s <= IZR (2 ^ 53)) by (apply IZR_le; lia).
  assert (U := frac_unit a s A (proj1 S)).
  assert (Lq : pw (-53) <= IZR a / IZR s).
  { change (pw (-53)) with (/ IZR (2 ^ 53)). apply Rle_trans with (1 * / IZR s).
    - rewrite Rmult_1_l. apply Rinv_le_contravar; auto.
    - apply Rmult_le_compat_r; auto. left. apply Rinv_0_lt_compat; auto. }
  assert (E1 : Rabs (rnd (IZR a / IZR s) - IZR a / IZR s) <= pw (-53) * (IZR a / IZR s)).
  { rewrite <- (Rabs_pos_eq (IZR a / IZR s)) at 3 by lra. apply rel. rewrite Rabs_pos_eq by lra. apply Rle_trans with (2 := Lq). apply bpow_le. lia. }
  set (r := rnd (IZR a / IZR s)) in *.
  assert (Br : pw (-53) <= r <= 1) by (apply rnd_between; [apply fmt_pw; lia|apply (fmt_IZR 1); lia|lra]).
  assert (P53 : 0 < pw (-53)) by apply bpow_gt_0.
  assert (E1' : Rabs (r * IZR s - IZR a) <= pw (-53) * IZR a).
  { replace (r * IZR s - IZR a) with ((r - IZR a / IZR s) * IZR s) by (field; lra). rewrite Rabs_mult, (Rabs_pos_eq (IZR s)) by lra.
    apply Rle_trans with (pw (-53) * (IZR a / IZR s) * IZR s); [apply Rmult_le_compat_r; lra|]. apply Req_le. field. lra. }
  assert (E2 : Rabs (rnd (r * IZR s) - r * IZR s) <= pw (-53) * (r * IZR s)).
  { rewrite <- (Rabs_pos_eq (r * IZR s)) at 3 by (apply Rmult_le_pos; lra). apply rel.
    rewrite Rabs_pos_eq by (apply Rmult_le_pos; lra). apply Rle_trans with (pw (-53) * 1); [rewrite Rmult_1_r; apply bpow_le; lia|].
    apply Rmult_le_compat; try lra. apply (IZR_le 1). lia. }
  assert (pw (-52) = 2 * pw (-53)) by (change (-52)%Z with (1 + -53)%Z; rewrite bpow_plus; reflexivity).
  assert (pw (-105) >= pw (-53) * pw (-53)) by (rewrite <- bpow_plus; apply Rle_ge, bpow_le; lia).
  assert (T := Rabs_triang (rnd (r * IZR s) - r * IZR s) (r * IZR s - IZR a)).
  replace (rnd (r * IZR s) - r * IZR s + (r * IZR s - IZR a)) with (rnd (r * IZR s) - IZR a) in T by ring.
  apply Rabs_le_inv in E1'. assert (r * IZR s <= IZR a + pw (-53) * IZR a) by lra.
  assert (pw (-53) * (r * IZR s) <= pw (-53) * (IZR a + pw (-53) * IZR a)) by (apply Rmult_le_compat_l; lra).
  assert (E1'' : Rabs (r * IZR s - IZR a) <= pw (-53) * IZR a) by (apply Rabs_le; lra).
  assert (pw (-53) * pw (-53) * IZR a <= pw (-105) * IZR a) by (apply Rmult_le_compat_r; lra). nra.
Qed.

(** legal_vector of one number accepts the entries of the values *)
Theorem C100_single lo hi v : range_ok 49 lo hi -> (lo <= v <= hi)%Z ->
  int_legal_vector_single lo hi (int_to_vector lo hi v) = true.
Proof.
  intros R V. assert (R' : range_ok 52 lo hi) by (destruct R as (R1 & R2 & R3); repeat split; lia).
  assert (I := int_entry lo hi v R' V). destruct R as (R1 & R2 & R3).
  assert (U := entry_unit lo hi v R1 V). unfold int_legal_vector_single. rewrite (in_unit_true _ _ I U). simpl.
  assert (M : is (fmul (int_to_vector lo hi v) (fsub (of_Z hi) (of_Z lo))) (rnd (rnd (IZR (v - lo) / IZR (hi - lo)) * IZR (hi - lo)))).
  { assert (0 < IZR (hi - lo)) by (apply IZR_lt_pos; lia). apply (fmul_is _ _ _ _ 53); auto; [apply sub_is; lia|lia|].
    rewrite Rabs_pos_eq by (apply Rmult_le_pos; lra). rewrite pw_IZR by lia. assert (IZR (hi - lo) <= IZR (2 ^ 53)) by (apply IZR_le; lia).
    apply Rle_trans with (1 * IZR (hi - lo)); [apply Rmult_le_compat_r; lra|lra]. }
  assert (E := product_rel (v - lo) (hi - lo) ltac:(lia) ltac:(lia)).
  assert (A : 0 <= IZR (v - lo) <= IZR (2 ^ 50)) by (split; [apply (IZR_le 0)|apply IZR_le]; lia).
  assert (C : pw (-52) + pw (-105) <= 101 / 100 * / IZR (2 ^ 52)).
  { change (pw (-52)) with (/ IZR (2 ^ 52)). assert (pw (-105) <= pw (-60)) by (apply bpow_le; lia).
    change (pw (-60)) with (/ IZR (2 ^ 60)) in H. simpl Z.pow in *. lra. }
  assert (T : (pw (-52) + pw (-105)) * IZR (v - lo) <= 101 / 100 * / IZR (2 ^ 52) * IZR (v - lo)) by (apply Rmult_le_compat_r; lra).
  simpl Z.pow in *. apply (fclose_true _ _ (v - lo) M); [lia|lra|]. rewrite (Rabs_pos_eq (IZR (v - lo))) by lra. lra.
Qed.

Lemma grid e p : (-1073 <= e - 52)%Z -> fmt p -> pw e <= p < pw (e + 1) -> exists m, p = IZR m * pw (e - 52).
Proof.
  intros E F B. exists (Ztrunc (scaled_mantissa radix2 (FLT_exp (-1074) 53) p)).
  assert (M : mag radix2 p = (e + 1)%Z :> Z) by (apply mag_unique_pos; replace (e + 1 - 1)%Z with e by lia; auto).
  assert (C : cexp radix2 (FLT_exp (-1074) 53) p = (e - 52)%Z) by (unfold cexp; rewrite M; unfold FLT_exp; lia).
  rewrite <- C. exact F.
Qed.
(** the decoded entry of the value 0 is close to 0, if fewer than 512 values are smaller *)
Lemma zero_error lo hi : range_ok 49 lo hi -> (-511 <= lo <= 0)%Z -> (0 <= hi)%Z ->
  Rabs (rnd (rnd (IZR (0 - lo) / IZR (hi - lo)) * IZR (hi - lo)) - IZR (0 - lo)) <= 3 / 2 * pw (-44).
Proof.
  intros (R1 & R2 & R3) L H. set (a := (0 - lo)%Z). set (s := (hi - lo)%Z).
  assert (E := product_rel a s ltac:(lia) ltac:(lia)). assert (F := fmt_rnd (rnd (IZR a / IZR s) * IZR s)). set (p := rnd _) in *.
  assert (C : pw (-52) + pw (-105) <= 10001 / 10000 * / IZR (2 ^ 52)).
  { change (pw (-52)) with (/ IZR (2 ^ 52)). assert (Q : pw (-105) <= pw (-80)) by (apply bpow_le; lia).
    change (pw (-80)) with (/ IZR (2 ^ 80)) in Q. simpl Z.pow in *. lra. }
  assert (A : 0 <= IZR a) by (apply (IZR_le 0); lia).
  assert (T : (pw (-52) + pw (-105)) * IZR a <= 10001 / 10000 * / IZR (2 ^ 52) * IZR a) by (apply Rmult_le_compat_r; lra).
  change (pw (-44)) with (/ IZR (2 ^ 44)). simpl Z.pow in *.
  destruct (Z_le_gt_dec a 383) as [B|B].
  - assert (IZR a <= IZR 383) by (apply IZR_le; lia). lra.
  - assert (B1 : IZR 384 <= IZR a <= IZR 511) by (split; apply IZR_le; lia).
    assert (E' := E). apply Rabs_le_inv in E'.
    destruct (grid 8 p ltac:(lia) F) as (m & Q).
    { change (pw 8) with 256. change (pw (8 + 1)) with 512. lra. }
    change (pw (8 - 52)) with (/ IZR (2 ^ 44)) in Q. simpl Z.pow in Q.
    assert (D : (Z.abs (m - a * 17592186044416) <= 1)%Z).
    { apply Z.lt_succ_r, lt_IZR. rewrite abs_IZR, minus_IZR, mult_IZR. simpl Z.succ.
      replace (IZR m - IZR a * 17592186044416) with ((p - IZR a) * 17592186044416) by lra.
      rewrite Rabs_mult, (Rabs_pos_eq 17592186044416) by lra. apply Rmult_lt_reg_r with (/ 17592186044416); [lra|].
      rewrite Rmult_assoc, Rinv_r, Rmult_1_r by lra. lra. }
    apply IZR_le in D. rewrite abs_IZR, minus_IZR, mult_IZR in D.
    replace (p - IZR a) with ((IZR m - IZR a * 17592186044416) * / 17592186044416) by lra.
    rewrite Rabs_mult, (Rabs_pos_eq (/ 17592186044416)) by lra. lra.
Qed.

(** legal_vector of an array accepts them, if the decoded number is close to an integer: not so for the value
    0 when 512 or more values are smaller *)
Definition decodes_close (lo hi v : Z) : Prop := v <> 0%Z \/ (-511 <= lo)%Z \/ hi = 0%Z.
Theorem C100_array_partial lo hi v : range_ok 34 lo hi -> (lo <= v <= hi)%Z -> decodes_close lo hi v ->
  int_legal_vector lo hi (int_to_vector lo hi v) = true.
Proof.
  intros R V D. assert (R' : range_ok 52 lo hi) by (destruct R as (R1 & R2 & R3); repeat split; lia).
  assert (R'' : range_ok 49 lo hi) by (destruct R as (R1 & R2 & R3); repeat split; lia).
  destruct (int_error 34 lo hi v ltac:(lia) R V) as (q & Q & E & B). unfold int_legal_vector, int_legal.
  change (pw (34 - 53)) with (/ IZR (2 ^ 19)) in E. simpl Z.pow in E.
  assert (N : ZnearestE q = v) by (apply near; lra). assert (Qr := frint_is _ _ Q). rewrite N in Qr.
  destruct R as (R1 & R2 & R3).
  rewrite (fle_is _ _ _ _ (of_Z_is lo ltac:(lia)) Qr), (fle_is _ _ _ _ Qr (of_Z_is hi ltac:(lia))).
  rewrite !Rle_bool_true by (apply IZR_le; lia). simpl.
  destruct (Z.eq_dec v 0) as [->|NZ].
  - assert (I := int_entry lo hi 0 R' V). destruct (unsafe_is lo hi _ _ R' I (entry_unit _ _ _ R1 V)) as ((_ & J) & _).
    destruct Q as [F Q]. rewrite Q in J.
    assert (Z : Rabs (rnd (rnd (IZR (0 - lo) / IZR (hi - lo)) * IZR (hi - lo)) - IZR (0 - lo)) <= 3 / 2 * pw (-44)).
    { destruct D as [D|[D|D]]; [lia|apply zero_error; auto; lia|]. subst hi.
      assert (P := IZR_lt_pos (0 - lo) ltac:(lia)). replace (IZR (0 - lo) / IZR (0 - lo)) with 1 by (field; lra).
      rewrite (rnd_fmt 1), Rmult_1_l by (apply (fmt_IZR 1); lia). rewrite rnd_fmt by (apply fmt_IZR; lia).
      rewrite Rminus_diag_eq, Rabs_R0 by reflexivity. assert (0 < pw (-44)) by apply bpow_gt_0. lra. }
    apply (fclose_true _ q 0); [split; auto|lia|lra|]. rewrite Rabs_R0, Rminus_0_r.
    assert (G : Rabs q <= pw (-43)).
    { rewrite J. apply rnd_bound; [lia|].
      replace (rnd (rnd (IZR (0 - lo) / IZR (hi - lo)) * IZR (hi - lo)) + IZR lo)
        with (rnd (rnd (IZR (0 - lo) / IZR (hi - lo)) * IZR (hi - lo)) - IZR (0 - lo)) by (rewrite (minus_IZR 0 lo); ring).
      replace (pw (-43)) with (2 * pw (-44)) by (change (-43)%Z with (1 + -44)%Z; rewrite bpow_plus; reflexivity).
      assert (0 < pw (-44)) by apply bpow_gt_0. lra. }
    assert (G' : Rabs q <= 3 / 2 * pw (-44)).
    { rewrite J.
      replace (rnd (rnd (IZR (0 - lo) / IZR (hi - lo)) * IZR (hi - lo)) + IZR lo)
        with (rnd (rnd (IZR (0 - lo) / IZR (hi - lo)) * IZR (hi - lo)) - IZR (0 - lo)) by (rewrite (minus_IZR 0 lo); ring).
      rewrite <- rnd_abs.
      assert (Fm : fmt (3 / 2 * pw (-44))).
      { replace (3 / 2 * pw (-44)) with (IZR 3 * pw (-45)) by (change (-44)%Z with (1 + -45)%Z; rewrite bpow_plus; change (pw 1) with 2; field).
        apply generic_format_FLT. exists (Float radix2 3 (-45)); [reflexivity|simpl; lia|simpl; lia]. }
      rewrite <- (rnd_fmt _ Fm). apply rnd_le. exact Z. }
    change (pw (-44)) with (/ IZR (2 ^ 44)) in G'. simpl Z.pow in G'. lra.
  - apply (fclose_true _ q v); auto; [lia|lra|].
    assert (1 <= Rabs (IZR v)) by (rewrite <- abs_IZR; apply (IZR_le 1); lia). lra.
Qed.

(** ... and their density is the inverse of the number of values *)
Theorem C100_density_partial lo hi v : range_ok 34 lo hi -> (lo <= v <= hi)%Z -> decodes_close lo hi v ->
  is (int_pdf lo hi (int_to_vector lo hi v)) (rnd (1 / IZR (hi - lo + 1))).
Proof.
  intros R V D. assert (A := C100_array_partial lo hi v R V D). unfold int_pdf. rewrite A.
  assert (R' : range_ok 49 lo hi) by (destruct R as (R1 & R2 & R3); repeat split; lia).
  assert (S := C100_single lo hi v R' V). unfold int_legal_vector_single in S.
  destruct R as (R1 & R2 & R3). replace (hi - lo + 1 - 1)%Z with (hi - lo)%Z by lia.
  assert (Sz := sub_is hi lo ltac:(lia) ltac:(lia)).
  assert (I := int_entry lo hi v ltac:(repeat split; lia) V). assert (U := entry_unit lo hi v R1 V).
  assert (P := IZR_lt_pos (hi - lo) ltac:(lia)). assert (P' := IZR_lt_pos (hi - lo + 1) ltac:(lia)).
  assert (T : forall y, is y (IZR (hi - lo)) ->
    is (fmul (int_to_vector lo hi v) y) (rnd (rnd (IZR (v - lo) / IZR (hi - lo)) * IZR (hi - lo)))).
  { intros y Y. apply (fmul_is _ _ _ _ 53); auto; [lia|]. rewrite Rabs_pos_eq by (apply Rmult_le_pos; lra).
    rewrite pw_IZR by lia. assert (IZR (hi - lo) <= IZR (2 ^ 53)) by (apply IZR_le; lia).
    apply Rle_trans with (1 * IZR (hi - lo)); [apply Rmult_le_compat_r; lra|lra]. }
  assert (Y := of_Z_is (hi - lo) ltac:(lia)).
  assert (Q : fclose (fmul (int_to_vector lo hi v) (of_Z (hi - lo))) = true).
  { assert (E := product_rel (v - lo) (hi - lo) ltac:(lia) ltac:(lia)).
    assert (B : 0 <= IZR (v - lo) <= IZR (2 ^ 50)) by (split; [apply (IZR_le 0)|apply IZR_le]; lia).
    assert (C : pw (-52) + pw (-105) <= 101 / 100 * / IZR (2 ^ 52)).
    { change (pw (-52)) with (/ IZR (2 ^ 52)). assert (W : pw (-105) <= pw (-60)) by (apply bpow_le; lia).
      change (pw (-60)) with (/ IZR (2 ^ 60)) in W. simpl Z.pow in *. lra. }
    assert (W : (pw (-52) + pw (-105)) * IZR (v - lo) <= 101 / 100 * / IZR (2 ^ 52) * IZR (v - lo)) by (apply Rmult_le_compat_r; lra).
    simpl Z.pow in *. apply (fclose_true _ _ (v - lo) (T _ Y)); [lia|lra|]. rewrite (Rabs_pos_eq (IZR (v - lo))) by lra. lra. }
  rewrite (in_unit_true _ _ I U), Q. simpl.
  assert (B : 0 <= 1 / IZR (hi - lo + 1) <= 1) by (apply (frac_unit 1 (hi - lo + 1)); lia).
  assert (Dv : is (fdiv f1 (of_Z (hi - lo + 1))) (rnd (1 / IZR (hi - lo + 1)))).
  { apply (fdiv_is _ _ _ _ 0); [apply f1_is|apply of_Z_is; lia|lra|lia|]. rewrite Rabs_pos_eq by lra. change (pw 0) with 1. lra. }
  assert (Bd : 0 <= rnd (1 / IZR (hi - lo + 1)) <= 1) by (apply (rnd_int _ 0 1); auto; lia).
  replace (rnd (1 / IZR (hi - lo + 1))) with (rnd (rnd (1 / IZR (hi - lo + 1)) * 1)) by (rewrite Rmult_1_r; apply rnd_fmt, fmt_rnd).
  apply (fmul_is _ _ _ _ 0); auto; [apply f1_is|lia|]. rewrite Rmult_1_r, Rabs_pos_eq by lra. change (pw 0) with 1. lra.
Qed.

(** Without the guard: of the integers from -526 to 525 the value 0 is legal and so is its entry, taken alone, but
    not in an array, and its density is zero. *)
Theorem C100_refuted : exists lo hi v, range_ok 34 lo hi /\ (lo <= v <= hi)%Z /\
  let x := int_to_vector lo hi v in
  int_to_value lo hi x = Ok v /\ int_legal_vector_single lo hi x = true /\
  int_legal_vector lo hi x = false /\ feq (int_pdf lo hi x) f0 = true.
Proof. exists (-526)%Z, 525%Z, 0%Z. split; [repeat split; lia|]. split; [lia|]. vm_compute. repeat split. Qed.
(** Without a bound on the range the integer itself is lost. *)
Theorem C98_refuted : exists lo hi v, (lo < hi < 2 ^ 63)%Z /\ (lo <= v <= hi)%Z /\
  int_to_value lo hi (int_to_vector lo hi v) <> Ok v.
Proof. exists 0%Z, (2 ^ 60)%Z, (2 ^ 53 + 1)%Z. split; [lia|]. split; [lia|]. vm_compute. discriminate. Qed.

(** ** C101: uniform integers *)
(** what is drawn is the entry of the value with the drawn position *)
Theorem C101_sample lo hi i : range_ok 52 lo hi -> (0 <= i <= hi - lo)%Z ->
  feq (int_sample (hi - lo + 1) i) (int_to_vector lo hi (lo + i)) = true.
Proof.
  intros R I. assert (E := int_entry lo hi (lo + i) R ltac:(lia)). destruct R as (R1 & R2 & R3).
  unfold int_sample. replace (hi - lo + 1 - 1)%Z with (hi - lo)%Z by lia.
  assert (Q := quotient_is i (hi - lo) ltac:(lia) ltac:(lia)). rewrite (feq_iff _ _ _ _ Q E). do 3 f_equal. lia.
Qed.

(** the entry number [i] of [bins] *)
Definition bin (bins i : Z) (x : f64) : Prop := (0 <= i < bins)%Z /\ is x (rnd (IZR i / IZR (bins - 1))).

Lemma quantize_is bins x r : (2 <= bins <= 2 ^ 52)%Z -> is x r -> 0 <= r <= 1 ->
  let i := Z.min (Zfloor (rnd (r * IZR bins))) (bins - 1) in bin bins i (fquantize x f0 f1 bins).
Proof.
  intros B X U i.
  assert (Rb : 0 <= r * IZR bins <= IZR bins).
  { assert (P := IZR_lt_pos bins ltac:(lia)). split; [apply Rmult_le_pos; lra|]. rewrite <- (Rmult_1_l (IZR bins)) at 2. apply Rmult_le_compat_r; lra. }
  assert (Bb : 0 <= rnd (r * IZR bins) <= IZR bins) by (apply (rnd_int _ 0 bins); auto; lia).
  assert (F : (0 <= Zfloor (rnd (r * IZR bins)) <= bins)%Z).
  { split; [apply Zfloor_lub; lra|]. apply le_IZR. apply Rle_trans with (2 := proj2 Bb). apply Zfloor_lb. }
  assert (Bi : (0 <= i < bins)%Z) by (unfold i; lia). split; auto.
  unfold fquantize. rewrite (feq_is _ _ _ _ f0_is f0_is), (feq_is _ _ _ _ f1_is f1_is), !Req_bool_true by reflexivity. simpl andb. cbv iota zeta.
  assert (M : is (fmul x (of_Z bins)) (rnd (r * IZR bins))).
  { apply (fmul_is _ _ _ _ 53); auto; [apply of_Z_is; lia|lia|]. rewrite Rabs_pos_eq by lra. rewrite pw_IZR by lia.
    apply Rle_trans with (IZR bins); [lra|]. apply IZR_le. lia. }
  assert (C := fclip_is _ _ _ _ _ _ (ffloor_is _ _ M) f0_is (of_Z_is (bins - 1) ltac:(lia))).
  assert (Ci : Rmin (Rmax (IZR (Zfloor (rnd (r * IZR bins)))) 0) (IZR (bins - 1)) = IZR i).
  { rewrite Rmax_left by (apply (IZR_le 0); lia). unfold i. destruct (Z_le_gt_dec (Zfloor (rnd (r * IZR bins))) (bins - 1)).
    - rewrite Rmin_left, Z.min_l by (try apply IZR_le; lia). reflexivity.
    - rewrite Rmin_right, Z.min_r by (try apply IZR_le; lia). reflexivity. }
  rewrite Ci in C. assert (P := IZR_lt_pos (bins - 1) ltac:(lia)).
  apply (fdiv_is _ _ _ _ 0); auto; [apply of_Z_is; lia|lra|lia|].
  destruct (frac_unit i (bins - 1)); try lia. rewrite Rabs_pos_eq by lra. change (pw 0) with 1. lra.
Qed.

(** quantization leaves the entries of up to 2^26 + 1 bins alone *)
Lemma quantize_level bins i : (2 <= bins <= 2 ^ 26 + 1)%Z -> (0 <= i < bins)%Z ->
  Z.min (Zfloor (rnd (rnd (IZR i / IZR (bins - 1)) * IZR bins))) (bins - 1) = i.
Proof.
  intros B I. set (s := (bins - 1)%Z). assert (P := IZR_lt_pos s ltac:(lia)). assert (Pb := IZR_lt_pos bins ltac:(lia)).
  assert (Sb : IZR bins = IZR s + 1) by (unfold s; rewrite minus_IZR; ring).
  destruct (Z.eq_dec i s) as [->|N].
  { replace (IZR s / IZR s) with 1 by (field; lra). rewrite (rnd_fmt 1), Rmult_1_l by (apply (fmt_IZR 1); lia).
    rewrite rnd_fmt by (apply fmt_IZR; lia). rewrite Zfloor_IZR. lia. }
  assert (U := frac_unit i s ltac:(lia) ltac:(lia)).
  assert (E : Rabs (rnd (IZR i / IZR s) - IZR i / IZR s) <= pw (-53) * (IZR i / IZR s)).
  { destruct (Z.eq_dec i 0) as [->|NZ].
    - unfold Rdiv. rewrite Rmult_0_l, round_0, Rminus_0_r, Rabs_R0, Rmult_0_r by auto with typeclass_instances. lra.
    - rewrite <- (Rabs_pos_eq (IZR i / IZR s)) at 3 by lra. apply rel. rewrite Rabs_pos_eq by lra.
      apply Rle_trans with (pw (-53)); [apply bpow_le; lia|]. change (pw (-53)) with (/ IZR (2 ^ 53)).
      apply Rle_trans with (1 * / IZR s); [rewrite Rmult_1_l; apply Rinv_le_contravar; auto; apply IZR_le; lia|].
      apply Rmult_le_compat_r; [left; apply Rinv_0_lt_compat; auto|]. apply (IZR_le 1). lia. }
  change (pw (-53)) with (/ IZR (2 ^ 53)) in E. simpl Z.pow in E. set (r := rnd (IZR i / IZR s)) in *. apply Rabs_le_inv in E.
  set (t := IZR i / IZR s) in *. assert (Q : t * IZR bins = IZR i + t) by (unfold t; rewrite Sb; field; lra).
  assert (Ip : 0 <= IZR i) by (apply (IZR_le 0); lia).
  assert (Is : IZR i + 1 <= IZR s) by (rewrite <- plus_IZR; apply IZR_le; lia).
  assert (S26 : IZR s <= 67108864) by (apply IZR_le; lia).
  assert (T1 : t <= 1 - / IZR s).
  { unfold t. replace (1 - / IZR s) with ((IZR s - 1) * / IZR s) by (field; lra). apply Rmult_le_compat_r; [left; apply Rinv_0_lt_compat; auto|lra]. }
  assert (Is' : / 67108864 <= / IZR s) by (apply Rinv_le_contravar; lra).
  assert (Di : t * IZR s = IZR i) by (unfold t; field; lra).
  assert (L : IZR i <= r * IZR bins).
  { assert ((t - / 9007199254740992 * t) * IZR bins <= r * IZR bins) by (apply Rmult_le_compat_r; lra).
    assert (IZR bins * t <= 9007199254740992 * t) by (apply Rmult_le_compat_r; lra). nra. }
  assert (H : r * IZR bins <= IZR i + 1 - / 134217728).
  { assert (r * IZR bins <= (t + / 9007199254740992 * t) * IZR bins) by (apply Rmult_le_compat_r; lra).
    replace ((t + / 9007199254740992 * t) * IZR bins) with ((1 + / 9007199254740992) * (IZR i + t)) in H by (rewrite <- Q; ring). lra. }
  assert (K : IZR i <= rnd (r * IZR bins) <= IZR i + 1 - / 134217728).
  { apply rnd_between; auto; [apply fmt_IZR; lia|].
    replace (IZR i + 1 - / 134217728) with (F2R (Float radix2 ((i + 1) * 134217728 - 1) (-27))).
    - apply generic_format_FLT. exists (Float radix2 ((i + 1) * 134217728 - 1) (-27)); [reflexivity|simpl; lia|simpl; lia].
    - unfold F2R. cbn [Fnum Fexp]. change (pw (-27)) with (/ 134217728). rewrite minus_IZR, mult_IZR, plus_IZR. field. }
  assert (Zfloor (rnd (r * IZR bins)) = i) by (apply Zfloor_imp; rewrite plus_IZR; lra). lia.
Qed.
Theorem C101_quantize_partial bins i x : (2 <= bins <= 2 ^ 26 + 1)%Z -> bin bins i x -> bin bins i (fquantize x f0 f1 bins).
Proof.
  intros B [I X]. assert (U := frac_unit i (bins - 1) ltac:(lia) ltac:(lia)).
  assert (Q := quantize_is bins x _ ltac:(lia) X ltac:(apply (rnd_int _ 0 1); auto; lia)). simpl in Q. rewrite quantize_level in Q; auto.
Qed.

Lemma frac_inj s i j : (0 < s <= 2 ^ 49)%Z -> (0 <= i <= s)%Z -> (0 <= j <= s)%Z -> rnd (IZR i / IZR s) = rnd (IZR j / IZR s) -> i = j.
Proof.
  intros S I J Q. assert (R : range_ok 49 0 s) by (repeat split; lia). assert (R' : range_ok 52 0 s) by (repeat split; lia).
  apply (C98_injective 0 s); auto. assert (A := int_entry 0 s i R' I). assert (B := int_entry 0 s j R' J).
  rewrite !Z.sub_0_r in *. rewrite (feq_iff _ _ _ _ A B). exact Q.
Qed.
Lemma bin_eq b i j x y : (2 <= b <= 2 ^ 49)%Z -> bin b i x -> bin b j y -> (feq x y = true <-> i = j).
Proof.
  intros B [I X] [J Y]. rewrite (feq_iff _ _ _ _ X Y). split; [|intros ->; reflexivity].
  apply frac_inj; lia.
Qed.
Lemma bin_lt b i j x y : (2 <= b <= 2 ^ 49)%Z -> bin b i x -> bin b j y -> (flt x y = true <-> (i < j)%Z).
Proof.
  intros B [I X] [J Y]. rewrite (flt_is _ _ _ _ X Y). assert (P := IZR_lt_pos (b - 1) ltac:(lia)).
  assert (M : forall u w, (u <= w)%Z -> rnd (IZR u / IZR (b - 1)) <= rnd (IZR w / IZR (b - 1))).
  { intros u w H. apply rnd_le. apply Rmult_le_compat_r; [left; apply Rinv_0_lt_compat; auto|]. apply IZR_le; auto. }
  destruct (Rlt_bool_spec (rnd (IZR i / IZR (b - 1))) (rnd (IZR j / IZR (b - 1)))) as [H|H].
  - split; auto. intros _. destruct (Z_lt_le_dec i j); auto. specialize (M j i ltac:(lia)). lra.
  - split; [discriminate|]. intro K. specialize (M i j ltac:(lia)).
    assert (Q : rnd (IZR i / IZR (b - 1)) = rnd (IZR j / IZR (b - 1))) by lra. apply frac_inj in Q; lia.
Qed.

(** the sampling loop: [bins] of the buffer and of what is found *)
Section Loop.
  Variable b : Z.
  Hypothesis Hb : (2 <= b <= 2 ^ 26 + 1)%Z.
  Local Lemma Hb49 : (2 <= b <= 2 ^ 49)%Z.
  Proof. lia. Qed.

  Lemma finsert_bins j x l js : bin b j x -> Forall2 (bin b) js l -> StronglySorted Z.lt js ->
    exists js', Forall2 (bin b) js' (finsert x l) /\ StronglySorted Z.lt js' /\ forall k, In k js' -> k = j \/ In k js.
  Proof.
    intros X F. induction F as [|k y js l Y F IH]; intros S.
    - exists [j]. simpl. split; [auto|]. split; [repeat constructor|]. intros k [->|[]]; auto.
    - apply StronglySorted_inv in S. destruct S as [S H]. simpl.
      destruct (flt x y) eqn:L; [|destruct (feq x y) eqn:Q].
      + apply (bin_lt b j k x y Hb49 X Y) in L. exists (j :: k :: js). split; [auto|]. split.
        * constructor; [constructor; auto|]. constructor; auto. eapply Forall_impl; [|exact H]. simpl. intros; lia.
        * simpl. intros k' [->|H']; auto.
      + exists (k :: js). split; [auto|]. split; [constructor; auto|]. simpl. auto.
      + destruct (IH S) as (js' & F' & S' & In'). exists (k :: js'). split; [auto|]. split.
        * constructor; auto. rewrite Forall_forall in *. intros k' K'. destruct (In' k' K') as [->|K'']; auto.
          destruct (Z_lt_le_dec k j) as [|G]; auto. exfalso.
          destruct (Z.eq_dec j k) as [E|E]; [apply (bin_eq b j k x y Hb49 X Y) in E; congruence|].
          assert (j < k)%Z as E' by lia. apply (bin_lt b j k x y Hb49 X Y) in E'. congruence.
        * simpl. intros k' [->|K']; auto. destruct (In' _ K'); auto.
  Qed.
  Lemma funique_bins l : Forall (fun x => exists j, bin b j x) l ->
    exists js, Forall2 (bin b) js (funique l) /\ NoDup js.
  Proof.
    intro F. assert (G : exists js, Forall2 (bin b) js (funique l) /\ StronglySorted Z.lt js).
    { induction F as [|x l (j & X) F (js & A & B)]; [exists []; simpl; repeat constructor|].
      destruct (finsert_bins j x (funique l) js X A B) as (js' & A' & B' & _). exists js'. auto. }
    destruct G as (js & A & B). exists js. split; auto. clear - B. induction B; constructor; auto.
    intro K. rewrite Forall_forall in H. specialize (H _ K). lia.
  Qed.
  Lemma fmem_bins j x bs buf : bin b j x -> Forall2 (bin b) bs buf -> (fmem x buf = true <-> In j bs).
  Proof.
    intros X F. unfold fmem. induction F as [|k y bs buf Y F IH]; simpl; [split; [discriminate|tauto]|].
    rewrite orb_true_iff, IH, (bin_eq b j k x y Hb49 X Y). intuition.
  Qed.
  Lemma filter_bins bs buf js l : Forall2 (bin b) bs buf -> Forall2 (bin b) js l -> NoDup js ->
    exists ns, Forall2 (bin b) ns (filter (fun x => negb (fmem x buf)) l) /\ NoDup ns /\ (forall k, In k ns -> In k js /\ ~ In k bs).
  Proof.
    intros B F. induction F as [|j x js l X F IH]; intros D; simpl; [exists []; repeat constructor; contradiction|].
    apply NoDup_cons_iff in D. destruct D as [D1 D2]. destruct (IH D2) as (ns & A1 & A2 & A3).
    destruct (fmem x buf) eqn:M; simpl.
    - exists ns. repeat split; auto; apply A3 in H; tauto.
    - exists (j :: ns). split; [auto|]. split.
      + constructor; auto. intro K. apply A3 in K. tauto.
      + simpl. intros k [<-|K]; [|apply A3 in K; tauto]. split; auto. intro K. apply (fmem_bins j x bs buf X B) in K. congruence.
  Qed.
  Lemma loop_bins n cands : forall bs buf l, Forall2 (bin b) bs buf -> NoDup bs -> bs <> [] -> fnb_loop b n buf cands = Ok l ->
    exists js, Forall2 (bin b) js l /\ NoDup (hd 0%Z bs :: js) /\ length l = n.
  Proof.
    induction cands as [|c cands IH]; intros bs buf l B D Ne H; [discriminate|]. cbn [fnb_loop] in H.
    set (ok := filter (fun x => fle f0 x && fle x f1)%bool c) in *.
    assert (O : Forall (fun x => exists j, bin b j x) (map (fun x => fquantize x f0 f1 b) ok)).
    { apply Forall_forall. intros y Y. apply in_map_iff in Y. destruct Y as (x & <- & X). apply filter_In in X. destruct X as [_ X].
      apply andb_true_iff in X. destruct X as [X1 X2]. assert (F : is_finite x = true) by (destruct x as [s|[|]| |s m e]; auto; discriminate).
      apply is_R in F. rewrite (fle_iff _ _ _ _ f0_is F) in X1. rewrite (fle_iff _ _ _ _ F f1_is) in X2.
      eexists. apply quantize_is; eauto. lia. }
    destruct (funique_bins _ O) as (js & J1 & J2). destruct (filter_bins bs buf js _ B J1 J2) as (ns & N1 & N2 & N3).
    match type of N1 with Forall2 _ _ ?t => set (new := t) in * end. destruct (Nat.leb _ (5 * n + 1)); [|discriminate]. cbn iota beta zeta in H.
    assert (B' : Forall2 (bin b) (bs ++ ns) (buf ++ new)) by (apply Forall2_app; auto).
    assert (D' : NoDup (bs ++ ns)).
    { clear - D N2 N3. induction bs as [|k bs IHb]; simpl; auto. apply NoDup_cons_iff in D. destruct D as [D1 D2]. constructor.
      - rewrite in_app_iff. intros [K|K]; auto. apply N3 in K. simpl in K. tauto.
      - apply IHb; auto. intros k' K'. apply N3 in K'. simpl in K'. tauto. }
    destruct (Nat.leb n (length (buf ++ new) - 1)) eqn:Len.
    - injection H as <-. apply Nat.leb_le in Len. destruct bs as [|k bs]; [congruence|]. inversion B as [|? y ? buf' Y BF]; subst. clear B.
      simpl in *. exists (firstn n (bs ++ ns)). split; [|split].
      + inversion B'; subst. clear - H4. revert n. induction H4; intros [|n]; simpl; auto.
      + apply NoDup_cons_iff in D'. destruct D' as [D1 D2]. constructor.
        * intro K. apply D1. rewrite <- (firstn_skipn n). apply in_or_app. auto.
        * rewrite <- (firstn_skipn n) in D2. clear - D2. induction (firstn n (bs ++ ns)) as [|k' l' IHl]; [constructor|]. simpl in D2. apply NoDup_cons_iff in D2. destruct D2. constructor; [rewrite in_app_iff in *; tauto|auto].
      + rewrite firstn_length. lia.
    - apply (IH (bs ++ ns)) in H; auto; [|destruct bs; simpl; congruence]. destruct H as (js' & H1 & H2 & H3). exists js'. repeat split; auto.
      destruct bs; [congruence|]. simpl in *. exact H2.
  Qed.
End Loop.

(** the entries of the positions *)
Lemma fover_bins b l : (2 <= b <= 2 ^ 52)%Z -> (forall j, In j l -> (0 <= j < b)%Z) -> Forall2 (bin b) l (fover b l).
Proof.
  intros B. induction l as [|j l IH]; intro H; simpl; [constructor|]. constructor.
  - assert (J := H j (or_introl eq_refl)). split; auto. apply quotient_is; lia.
  - apply IH. intros k K. apply H. right. exact K.
Qed.
Lemma arange_in a b x : In x (arange a b 1) <-> (a <= x < b)%Z.
Proof. rewrite in_arange by lia. split; [intros (i & H); lia|intro H; exists (x - a)%Z; lia]. Qed.

(** Neighbours of an entry: entries of positions, all different, none its own, as many as asked or as there are *)
Theorem C101_neighbors_partial b i x n cands l : (2 <= b <= 2 ^ 26 + 1)%Z -> bin b i x -> int_neighborhood b x n cands = Ok l ->
  exists js, Forall2 (bin b) js l /\ NoDup js /\ ~ In i js /\ length l = Nat.min n (Z.to_nat (b - 1)).
Proof.
  intros B X H. unfold int_neighborhood in H. destruct (Z.of_nat n <? 1000000)%Z; [|discriminate]. cbn iota beta zeta in H.
  assert (Q := C101_quantize_partial b i x B X).
  destruct (b - 1 <=? Z.of_nat n)%Z eqn:All.
  - apply Z.leb_le in All.
    assert (G : exists js, l = fover b js /\ NoDup js /\ length js = Z.to_nat (b - 1) /\ forall j, In j js <-> (0 <= j < b /\ j <> i)%Z).
    { destruct (feq (fquantize x f0 f1 b) f0) eqn:Z0; [|destruct (feq (fquantize x f0 f1 b) (of_Z (b - 1))) eqn:Z1].
      - injection H as <-. assert (i = 0)%Z as ->.
        { apply (bin_eq b i 0 _ f0 ltac:(lia) Q); auto. split; [lia|]. unfold Rdiv. rewrite Rmult_0_l, round_0 by auto with typeclass_instances. apply f0_is. }
        eexists. split; [reflexivity|]. split; [apply NoDup_arange; lia|]. split; [rewrite arange_length; reflexivity|]. intro j. rewrite arange_in. lia.
      - injection H as <-. assert (S := of_Z_is (b - 1) ltac:(lia)). destruct Q as [I Q]. rewrite (feq_iff _ _ _ _ Q S) in Z1.
        assert (U := frac_unit i (b - 1) ltac:(lia) ltac:(lia)). apply (rnd_int _ 0 1) in U; try lia. rewrite Z1 in U. destruct U as [_ U]. apply le_IZR in U.
        assert (b = 2)%Z as -> by lia. change (2 - 1)%Z with 1%Z in *. unfold Rdiv in Z1. rewrite Rinv_1, Rmult_1_r, rnd_fmt in Z1 by (apply fmt_IZR; lia).
        apply eq_IZR in Z1. subst i. exists [0%Z]. repeat split; auto; try (repeat constructor; simpl; tauto); simpl in *; lia.
      - destruct X as [I X]. assert (S := of_Z_is (b - 1) ltac:(lia)). assert (PR := product_rel i (b - 1) ltac:(lia) ltac:(lia)).
        assert (U := frac_unit i (b - 1) ltac:(lia) ltac:(lia)). apply (rnd_int _ 0 1) in U; try lia.
        assert (Pb := IZR_lt_pos (b - 1) ltac:(lia)).
        assert (M : is (fmul x (of_Z (b - 1))) (rnd (rnd (IZR i / IZR (b - 1)) * IZR (b - 1)))).
        { eapply (fmul_is _ _ _ _ 27); eauto; [lia|]. rewrite Rabs_pos_eq by (apply Rmult_le_pos; lra).
          apply Rle_trans with (1 * IZR (b - 1)); [apply Rmult_le_compat_r; lra|]. rewrite Rmult_1_l. change (pw 27) with (IZR (2 ^ 27)). apply IZR_le. lia. }
        assert (N : ZnearestE (rnd (rnd (IZR i / IZR (b - 1)) * IZR (b - 1))) = i).
        { apply Znearest_imp. eapply Rle_lt_trans; [exact PR|]. assert (IZR i <= IZR (2 ^ 26)) by (apply IZR_le; lia). assert (0 <= IZR i) by (apply (IZR_le 0); lia).
          change (pw (-52)) with (/ IZR (2 ^ 52)). change (pw (-105)) with (/ IZR (2 ^ 105)). simpl Z.pow in *. nra. }
        apply frint_is in M. rewrite N in M. rewrite (to_i64_is _ _ M) in H by lia. cbn [bind] in H. injection H as <-.
        eexists. split; [reflexivity|]. split; [apply skip_nodup|]. split; [rewrite skip_length by lia; f_equal; lia|]. intro j. rewrite skip_in. lia. }
    destruct G as (js & -> & N & Len & In'). exists js. split; [apply fover_bins; [lia|intros j J; apply In' in J; lia]|]. split; auto. split; [intro K; apply In' in K; lia|].
    unfold fover. rewrite map_length. lia.
  - apply Z.leb_gt in All. assert (D1 : Forall2 (bin b) [i] [fquantize x f0 f1 b]) by auto.
    destruct (loop_bins b B n cands [i] _ l D1) as (js & A1 & A2 & A3); auto; [repeat constructor; simpl; tauto|congruence|].
    simpl in A2. apply NoDup_cons_iff in A2. exists js. repeat split; try tauto. lia.
Qed.

(** the entry of a position decodes to the value at this position *)
Lemma is_fun x a b : is x a -> is x b -> a = b.
Proof. intros [_ <-] [_ <-]. reflexivity. Qed.
Lemma bin_value lo hi j e : range_ok 49 lo hi -> bin (hi - lo + 1) j e -> int_to_value lo hi e = Ok (lo + j)%Z.
Proof.
  intros R [J X]. replace (hi - lo + 1 - 1)%Z with (hi - lo)%Z in X by lia.
  assert (R' : range_ok 52 lo hi) by (destruct R as (R1 & R2 & R3); repeat split; lia).
  assert (R1 := proj1 R). assert (V : (lo <= lo + j <= hi)%Z) by lia.
  assert (I := int_entry lo hi (lo + j) R' V). replace (lo + j - lo)%Z with j in I by lia.
  assert (U := frac_unit j (hi - lo) ltac:(lia) ltac:(lia)). apply (rnd_int _ 0 1) in U; try lia.
  destruct (int_error 49 lo hi (lo + j) ltac:(lia) R V) as (q & Q & E & _).
  destruct (unsafe_is lo hi _ _ R' I U) as (A & _). destruct (unsafe_is lo hi _ _ R' X U) as (B & _).
  rewrite <- (is_fun _ _ _ Q A) in B. apply frint_is in B. rewrite (near q (lo + j)) in B.
  - destruct R as (_ & R2 & R3). apply to_i64_is; auto. lia.
  - eapply Rle_lt_trans; [exact E|]. change (pw (49 - 53)) with (/ 16). lra.
Qed.

Theorem C101_neighbor_values_partial lo hi v n cands l : range_ok 49 lo hi -> (hi - lo <= 2 ^ 26)%Z -> (lo <= v <= hi)%Z ->
  int_neighborhood (hi - lo + 1) (int_to_vector lo hi v) n cands = Ok l ->
  exists vs, Forall2 (fun e w => int_to_value lo hi e = Ok w) l vs /\ NoDup vs /\ ~ In v vs /\
    Forall (fun w => (lo <= w <= hi)%Z) vs /\ length vs = Nat.min n (Z.to_nat (hi - lo)).
Proof.
  intros R S V H. assert (R' : range_ok 52 lo hi) by (destruct R as (R1 & R2 & R3); repeat split; lia). assert (R1 := proj1 R).
  apply C101_neighbors_partial with (i := (v - lo)%Z) in H; [|lia|].
  2:{ split; [lia|]. replace (hi - lo + 1 - 1)%Z with (hi - lo)%Z by lia. apply int_entry; auto. }
  destruct H as (js & F & N & I & Len). exists (map (Z.add lo) js). split; [|split; [|split; [|split]]].
  - clear - F R. induction F; simpl; constructor; auto. apply bin_value; auto.
  - clear - N. induction N; simpl; constructor; auto. rewrite in_map_iff. intros (k & K & K'). assert (k = x) by lia. subst. auto.
  - rewrite in_map_iff. intros (k & K & K'). apply I. replace (v - lo)%Z with k by lia. auto.
  - clear - F. induction F as [|j e js l [J _] F IH]; simpl; constructor; auto. lia.
  - rewrite map_length. replace (length js) with (length l); [rewrite Len; f_equal; f_equal; lia|]. clear - F. induction F; simpl; auto.
Qed.
Definition decoded (lo hi : Z) (r : res (list f64)) : list (res Z) := match r with Ok l => map (int_to_value lo hi) l | Err _ => [] end.
Example neighbors_case : decoded 1 10 (int_neighborhood 10 (int_to_vector 1 10 4) 2
  [[fdiv (of_Z 1) (of_Z 3); fdiv (of_Z 3) (of_Z 10); of_Z 2]; [fdiv (of_Z 9) (of_Z 10); f0]]) = [Ok 1; Ok 10]%Z.
Proof. vm_compute. reflexivity. Qed.
(** Without the bound on the number of values an integer can be its own neighbour. *)
Theorem C101_refuted : exists lo hi v n cands l, range_ok 49 lo hi /\ (lo <= v <= hi)%Z /\
  int_neighborhood (hi - lo + 1) (int_to_vector lo hi v) n cands = Ok l /\
  exists e, In e l /\ int_to_value lo hi e = Ok v.
Proof.
  set (c := [[fdiv (of_Z 4294967293) (of_Z 4294967296)]]).
  assert (D : decoded 0 2147483647 (int_neighborhood (2147483647 - 0 + 1) (int_to_vector 0 2147483647 2147483646) 1 c) = [Ok 2147483646%Z]) by (vm_compute; reflexivity).
  exists 0%Z, 2147483647%Z, 2147483646%Z, 1%nat, c.
  destruct (int_neighborhood (2147483647 - 0 + 1) (int_to_vector 0 2147483647 2147483646) 1 c) as [l|] eqn:E; [|discriminate].
  exists l. split; [repeat split; lia|]. split; [lia|]. split; [reflexivity|]. destruct l as [|e l]; [discriminate|].
  simpl decoded in D. exists e. split; [left; reflexivity|]. congruence.
Qed.

(** ** Cases *)
Example range_case : range_ok 34 (-5) 100 /\ int_to_value (-5) 100 (int_to_vector (-5) 100 42) = Ok 42%Z /\
  feq (int_unsafe (-5) 100 (int_to_vector (-5) 100 22)) (of_Z 22) = false /\ int_to_value (-5) 100 (int_to_vector (-5) 100 22) = Ok 22%Z.
Proof. split; [repeat split; lia|]. repeat split; vm_compute; reflexivity. Qed.
Example density_case : decodes_close (-5) 100 0 /\ int_legal_vector (-5) 100 (int_to_vector (-5) 100 0) = true /\
  feq (int_pdf (-5) 100 (int_to_vector (-5) 100 0)) (fdiv f1 (of_Z 106)) = true.
Proof. split; [right; left; lia|]. split; vm_compute; reflexivity. Qed.
Example sample_case : int_to_value (-5) 100 (int_sample 106 47) = Ok 42%Z.
Proof. vm_compute. reflexivity. Qed.
Example bin_case : bin 10 3 (int_to_vector 1 10 4).
Proof. split; [lia|]. exact (int_entry 1 10 4 ltac:(repeat split; lia) ltac:(lia)). Qed.
