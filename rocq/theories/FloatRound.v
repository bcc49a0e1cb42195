(** * Rounding to 13 decimals in float64 happens once: np.round(., 13) of its own result changes nothing *)
From Coq Require Import ZArith Reals Lra Lia Bool List.
From Flocq Require Import Core IEEE754.BinarySingleNaN Relative.
From Verif Require Import Base Numeric Float FloatProofs.
Open Scope R_scope.

(** multiplication by 10 ** 13 and np.rint, on the reals *)
Notation T := (IZR 10000000000000).
Definition rint (r : R) : R := IZR (ZnearestE r).
Definition to_int (r : R) : R := rint (rnd r).
Definition round13 (r : R) : R := rnd (to_int (r * T) / T).

Lemma rint_le a b : a <= b -> rint a <= rint b.
Proof. intro H. apply IZR_le. apply Zrnd_le; auto with typeclass_instances. Qed.
Lemma rint_IZR z : rint (IZR z) = IZR z.
Proof. unfold rint. f_equal. apply Zrnd_IZR; auto with typeclass_instances. Qed.
Lemma to_int_le a b : a <= b -> to_int a <= to_int b.
Proof. intro H. apply rint_le, rnd_le, H. Qed.
Lemma to_int_IZR z : fmt (IZR z) -> to_int (IZR z) = IZR z.
Proof. intro H. unfold to_int. rewrite rnd_fmt by auto. apply rint_IZR. Qed.
Lemma fmt_rint r : fmt r -> fmt (rint r).
Proof.
  intro H. unfold rint. rewrite <- (round_FIX ZnearestE r) by auto with typeclass_instances.
  apply generic_round_generic; auto with typeclass_instances.
Qed.
Lemma fmt_to_int r : fmt (to_int r).
Proof. apply fmt_rint, fmt_rnd. Qed.
Lemma closest r g : fmt g -> Rabs (rnd r - r) <= Rabs (g - r).
Proof.
  intro H. destruct (round_N_pt radix2 (FLT_exp (-1074) 53) (fun x => negb (Z.even x)) r) as [_ K].
  apply K. exact H.
Qed.
Lemma err_lt r e : (-1021 <= e)%Z -> Rabs r < pw e -> Rabs (rnd r - r) <= pw (e - 54).
Proof.
  intros E H. destruct (Req_dec r 0) as [->|N].
  { rewrite round_0, Rminus_0_r, Rabs_R0 by auto with typeclass_instances. apply bpow_ge_0. }
  eapply Rle_trans; [apply error_le_half_ulp; auto with typeclass_instances|].
  rewrite ulp_neq_0 by auto. unfold cexp. assert (M := mag_le_bpow radix2 r e N H).
  apply Rle_trans with (/ 2 * pw (e - 53)).
  - apply Rmult_le_compat_l; [lra|]. apply bpow_le. unfold FLT_exp. lia.
  - replace (e - 53)%Z with (1 + (e - 54))%Z by lia. rewrite bpow_plus. change (pw 1) with 2. lra.
Qed.

(** ** Symmetry of rounding about a number that is no power of two *)
Lemma half_even j : Z.even j = true -> ZnearestE (IZR j + / 2) = j /\ ZnearestE (IZR j - / 2) = j.
Proof.
  intro E. split.
  - unfold Znearest. rewrite Zfloor_imp with (n := j) by (rewrite plus_IZR; lra).
    replace (IZR j + / 2 - IZR j) with (/ 2) by lra. rewrite Rcompare_Eq by auto. rewrite E. reflexivity.
  - unfold Znearest. rewrite Zfloor_imp with (n := (j - 1)%Z) by (rewrite minus_IZR, plus_IZR, minus_IZR; lra).
    replace (IZR j - / 2 - IZR (j - 1)) with (/ 2) by (rewrite minus_IZR; lra). rewrite Rcompare_Eq by auto.
    replace (Z.even (j - 1)) with false. 2:{ rewrite Z.even_sub, E. reflexivity. }
    simpl. rewrite Zceil_imp with (n := j); auto. rewrite minus_IZR. lra.
Qed.
Lemma half_odd j : Z.even j = false -> ZnearestE (IZR j + / 2) = (j + 1)%Z /\ ZnearestE (IZR j - / 2) = (j - 1)%Z.
Proof.
  intro E. assert (E1 : Z.even (j + 1) = true) by (rewrite Z.even_add, E; reflexivity).
  assert (E2 : Z.even (j - 1) = true) by (rewrite Z.even_sub, E; reflexivity).
  destruct (half_even _ E1) as [_ A]. destruct (half_even _ E2) as [B _].
  rewrite plus_IZR in A. rewrite minus_IZR in B. split; [rewrite <- A|rewrite <- B]; f_equal; lra.
Qed.
Lemma nearest_within t j : ZnearestE t = j -> Rabs (t - IZR j) <= / 2.
Proof. intros <-. apply Znearest_half. Qed.
Lemma nearest_symmetric t j : ZnearestE (IZR j + t) = j -> ZnearestE (IZR j - t) = j.
Proof.
  intro H. assert (W := nearest_within _ _ H). replace (IZR j + t - IZR j) with t in W by ring.
  destruct (Rle_lt_or_eq_dec _ _ W) as [L|Q].
  - apply Znearest_imp. replace (IZR j - t - IZR j) with (- t) by ring. now rewrite Rabs_Ropp.
  - destruct (Z.even j) eqn:E.
    + destruct (half_even j E) as [A B]. unfold Rabs in Q. destruct (Rcase_abs t); [replace t with (- / 2) by lra|replace t with (/ 2) by lra]; auto.
      etransitivity; [|exact A]. f_equal. lra.
    + destruct (half_odd j E) as [A B]. unfold Rabs in Q. exfalso. destruct (Rcase_abs t).
      * replace (IZR j + t) with (IZR j - / 2) in H by lra. lia.
      * replace (IZR j + t) with (IZR j + / 2) in H by lra. lia.
Qed.

(** rounding between two powers of two *)
Lemma rnd_binade r m : (-1021 <= m)%Z -> pw m <= r < pw (m + 1) -> rnd r = IZR (ZnearestE (r * pw (52 - m))) * pw (m - 52).
Proof.
  intros M B. assert (Q : mag radix2 r = (m + 1)%Z :> Z) by (apply mag_unique_pos; replace (m + 1 - 1)%Z with m by lia; auto).
  assert (C : cexp radix2 (FLT_exp (-1074) 53) r = (m - 52)%Z) by (unfold cexp; rewrite Q; unfold FLT_exp; lia).
  unfold round, F2R, scaled_mantissa. rewrite C. cbn [Fnum Fexp]. replace (- (m - 52))%Z with (52 - m)%Z by lia. reflexivity.
Qed.
Lemma binade_multiple k m : (-1021 <= m)%Z -> fmt k -> pw m <= k < pw (m + 1) -> exists j, k = IZR j * pw (m - 52).
Proof. intros M F B. eexists. rewrite <- (rnd_fmt k F) at 1. apply rnd_binade; eauto. Qed.
Lemma multiple_fmt j m : (-1021 <= m)%Z -> (Z.abs j <= 2 ^ 53)%Z -> fmt (IZR j * pw (m - 52)).
Proof.
  intros M J. destruct (Z.eq_dec (Z.abs j) (2 ^ 53)) as [Q|Q].
  - assert (G : fmt (pw (m + 1))) by (apply fmt_pw; lia).
    replace (m + 1)%Z with (53 + (m - 52))%Z in G by lia. rewrite bpow_plus in G. change (pw 53) with (IZR (2 ^ 53)) in G.
    destruct (Z.abs_eq_or_opp j) as [P|P]; [replace j with (2 ^ 53)%Z by lia; auto|]. replace j with (- 2 ^ 53)%Z by lia.
    rewrite opp_IZR, Ropp_mult_distr_l_reverse. now apply generic_format_opp.
  - apply generic_format_FLT. exists (Float radix2 j (m - 52)); [reflexivity|simpl; change (Z.pow_pos 2 53) with (2 ^ 53)%Z; lia|simpl; lia].
Qed.
Lemma pw_cancel a : pw a * pw (- a) = 1.
Proof. rewrite <- bpow_plus. replace (a + - a)%Z with 0%Z by lia. reflexivity. Qed.

Lemma rnd_symmetric k z m : (-1021 <= m)%Z -> fmt k -> pw m < k < pw (m + 1) -> rnd (k + z) = k -> rnd (k - z) = k.
Proof.
  intros M F B H. set (u := pw (m - 52)). assert (U : 0 < u) by apply bpow_gt_0.
  destruct (binade_multiple k m M F ltac:(lra)) as (j & J). fold u in J.
  assert (Lo : pw m = IZR (2 ^ 52) * u) by (unfold u; change (IZR (2 ^ 52)) with (pw 52); rewrite <- bpow_plus; f_equal; lia).
  assert (Hi : pw (m + 1) = IZR (2 ^ 53) * u) by (unfold u; change (IZR (2 ^ 53)) with (pw 53); rewrite <- bpow_plus; f_equal; lia).
  assert (Jl : (2 ^ 52 < j)%Z) by (apply lt_IZR; apply Rmult_lt_reg_r with u; lra).
  assert (Jh : (j < 2 ^ 53)%Z) by (apply lt_IZR; apply Rmult_lt_reg_r with u; lra).
  assert (Ju : IZR (2 ^ 52) + 1 <= IZR j <= IZR (2 ^ 53) - 1) by (rewrite <- plus_IZR, <- minus_IZR; split; apply IZR_le; lia).
  assert (Kl : pw m + u <= k <= pw (m + 1) - u) by (rewrite Lo, Hi, J; split; nra).
  assert (Z2 : Rabs z <= u / 2).
  { assert (P1 := closest (k + z) (IZR (j + 1) * u) (multiple_fmt (j + 1) m M ltac:(lia))).
    assert (P2 := closest (k + z) (IZR (j - 1) * u) (multiple_fmt (j - 1) m M ltac:(lia))).
    rewrite H in P1, P2. rewrite plus_IZR in P1. rewrite minus_IZR in P2.
    replace ((IZR j + 1) * u - (k + z)) with (u - z) in P1 by (rewrite J; ring).
    replace ((IZR j - 1) * u - (k + z)) with (- u - z) in P2 by (rewrite J; ring).
    replace (k - (k + z)) with (- z) in P1, P2 by ring. rewrite Rabs_Ropp in P1, P2.
    revert P1 P2. unfold Rabs. repeat destruct Rcase_abs; lra. }
  assert (Zb : - (u / 2) <= z <= u / 2) by (revert Z2; unfold Rabs; destruct Rcase_abs; lra).
  rewrite (rnd_binade (k + z) m) in H by (auto; lra). rewrite (rnd_binade (k - z) m) by (auto; lra). fold u in H |- *.
  assert (C : u * pw (52 - m) = 1) by (unfold u; rewrite <- bpow_plus; replace (m - 52 + (52 - m))%Z with 0%Z by lia; reflexivity).
  assert (K : k * pw (52 - m) = IZR j) by (rewrite J, Rmult_assoc, C; ring).
  rewrite Rmult_plus_distr_r, K in H. rewrite Rmult_minus_distr_r, K.
  assert (N : ZnearestE (IZR j + z * pw (52 - m)) = j) by (apply eq_IZR; apply Rmult_eq_reg_r with u; lra).
  apply nearest_symmetric in N. rewrite N. lra.
Qed.

(** ** Rounding twice *)
Lemma binade_of w : 0 < w -> pw (mag radix2 w - 1) <= w < pw (mag radix2 w - 1 + 1).
Proof.
  intro W. replace (mag radix2 w - 1 + 1)%Z with (mag radix2 w : Z) by lia. destruct (mag radix2 w) as [e H]. simpl.
  specialize (H ltac:(lra)). rewrite Rabs_pos_eq in H by lra. exact H.
Qed.
Lemma big_int w : fmt w -> pw 52 <= w -> rint w = w.
Proof.
  intros F B. assert (P := bpow_gt_0 radix2 52). assert (W : w <> 0) by lra.
  set (m := (mag radix2 w - 1)%Z). assert (Bd : pw m <= w < pw (m + 1)) by (apply binade_of; lra).
  assert (M : (52 <= m)%Z) by (assert (52 < m + 1)%Z; [apply (lt_bpow radix2); lra|lia]).
  destruct (binade_multiple w m ltac:(lia) F Bd) as (j & J). rewrite J.
  replace (pw (m - 52)) with (IZR (2 ^ (m - 52))) by (rewrite <- (IZR_Zpower radix2 (m - 52)) by lia; reflexivity).
  rewrite <- mult_IZR. apply rint_IZR.
Qed.
Lemma sandwich k a b : to_int a = k -> to_int (2 * k - a) = k -> Rabs (b - k) <= Rabs (a - k) -> to_int b = k.
Proof.
  intros A B H. assert (G : (a <= b <= 2 * k - a) \/ (2 * k - a <= b <= a)).
  { revert H. unfold Rabs. repeat destruct Rcase_abs; intros; solve [left; lra|right; lra]. }
  destruct G as [[G1 G2]|[G1 G2]]; apply to_int_le in G1, G2; lra.
Qed.
Lemma T_pos : 0 < T.
Proof. lra. Qed.

Lemma round_twice_pos x n : fmt x -> to_int (x * T) = IZR n -> (0 < n)%Z ->
  rnd (to_int (rnd (IZR n / T) * T) / T) = rnd (IZR n / T).
Proof.
  intros F X N. set (k := IZR n) in *. set (y := rnd (k / T)). assert (P := T_pos).
  assert (K1 : 1 <= k) by (apply (IZR_le 1); lia). assert (Fk : fmt k) by (rewrite <- X; apply fmt_to_int).
  assert (Kt : 0 < k / T) by (apply Rmult_lt_0_compat; [lra|apply Rinv_0_lt_compat; lra]).
  assert (KT : k / T * T = k) by (field; lra).
  assert (YT : forall e, Rabs (y - k / T) <= e -> Rabs (y * T - k) <= e * T).
  { intros e E. replace (y * T - k) with ((y - k / T) * T) by (rewrite <- KT at 2; ring). rewrite Rabs_mult, (Rabs_pos_eq T) by lra.
    apply Rmult_le_compat_r; lra. }
  assert (D : Rabs (y * T - k) <= Rabs (x * T - k)).
  { eapply Rle_trans; [apply YT; apply (closest (k / T) x F)|]. replace (x * T - k) with ((x - k / T) * T) by (rewrite <- KT at 2; ring).
    rewrite Rabs_mult, (Rabs_pos_eq T) by lra. lra. }
  (* it suffices that the integer comes back *)
  cut (to_int (y * T) = k \/ rnd (to_int (y * T) / T) = y); [intros [->|H]; auto; fold y; auto|].
  set (m := (mag radix2 k - 1)%Z). assert (Bd : pw m <= k < pw (m + 1)) by (apply binade_of; lra).
  assert (M0 : (0 <= m)%Z) by (assert (0 < m + 1)%Z; [apply (lt_bpow radix2); change (pw 0) with 1; lra|lia]).
  destruct (Z_lt_le_dec n (2 ^ 51)) as [S|S].
  { (* small *)
    left. assert (K2 : k <= IZR (2 ^ 51) - 1) by (rewrite <- minus_IZR; apply IZR_le; lia).
    assert (E := rel (k / T)). rewrite (Rabs_pos_eq (k / T)) in E by lra.
    assert (U : pw (-1022) <= k / T).
    { apply Rle_trans with (pw (-44)); [apply bpow_le; lia|]. apply Rmult_le_reg_r with T; auto. rewrite KT. change (pw (-44)) with (/ IZR (2 ^ 44)). simpl Z.pow. lra. }
    specialize (E U). fold y in E. apply YT in E. rewrite Rmult_assoc, KT in E.
    assert (E2 : Rabs (y * T - k) < / 4) by (eapply Rle_lt_trans; [exact E|]; change (pw (-53)) with (/ IZR (2 ^ 53)); simpl Z.pow in *; lra).
    assert (E3 : - / 4 < y * T - k < / 4) by (revert E2; unfold Rabs; destruct Rcase_abs; lra).
    assert (E4 := err_lt (y * T) 51 ltac:(lia)). change (pw (51 - 54)) with (/ 8) in E4. change (pw 51) with (IZR (2 ^ 51)) in E4.
    unfold to_int, rint. unfold k. f_equal. apply near. fold k.
    assert (E5 : Rabs (rnd (y * T) - y * T) <= / 8) by (apply E4; rewrite Rabs_pos_eq; lra).
    revert E5 E2. unfold Rabs. repeat destruct Rcase_abs; lra. }
  assert (K2 : IZR (2 ^ 51) <= k) by (apply IZR_le; lia).
  destruct (Z_lt_le_dec n (2 ^ 52)) as [S2|S2].
  { (* halves are floats *)
    left. assert (K3 : k <= IZR (2 ^ 52) - 1) by (rewrite <- minus_IZR; apply IZR_le; lia).
    destruct (Z.even n) eqn:Ev.
    - assert (E : Rabs (y - k / T) <= pw (9 - 54)).
      { apply err_lt; [lia|]. rewrite Rabs_pos_eq by lra. apply Rmult_lt_reg_r with T; auto. rewrite KT. change (pw 9) with 512. simpl Z.pow in *. lra. }
      apply YT in E. change (pw (9 - 54)) with (/ IZR (2 ^ 45)) in E. assert (E2 : Rabs (y * T - k) <= / 2) by (simpl Z.pow in *; lra).
      assert (E3 : k - / 2 <= y * T <= k + / 2) by (revert E2; unfold Rabs; destruct Rcase_abs; lra). destruct E3 as [L H].
      apply to_int_le in L, H. destruct (half_even n Ev) as [A B]. fold k in A, B.
      assert (G : forall j, (Z.abs j <= 2 ^ 53)%Z -> fmt (IZR j * / 2)) by (intros j Hj; apply (multiple_fmt j 51); [lia|auto]).
      unfold to_int in L at 1. rewrite (rnd_fmt (k - / 2)) in L.
      2:{ replace (k - / 2) with (IZR (2 * n - 1) * / 2) by (rewrite minus_IZR, mult_IZR; fold k; field). apply G. lia. }
      unfold to_int in H at 2. rewrite (rnd_fmt (k + / 2)) in H.
      2:{ replace (k + / 2) with (IZR (2 * n + 1) * / 2) by (rewrite plus_IZR, mult_IZR; fold k; field). apply G. lia. }
      unfold rint in L, H. rewrite A in H. rewrite B in L. fold k in L, H. lra.
    - set (w := rnd (x * T)). assert (W : rint w = k) by exact X. assert (Fw : fmt w) by apply fmt_rnd.
      assert (Nw : ZnearestE w = n) by (apply eq_IZR; exact W). assert (Wi := nearest_within _ _ Nw). fold k in Wi.
      assert (Ws : Rabs (w - k) < / 2).
      { destruct (Rle_lt_or_eq_dec _ _ Wi) as [L|Q]; auto. exfalso. destruct (half_odd n Ev) as [A B]. fold k in A, B. unfold Rabs in Q. destruct Rcase_abs.
        - replace (k - / 2) with w in B by lra. lia.
        - replace (k + / 2) with w in A by lra. lia. }
      assert (K4 : IZR (2 ^ 51) + 1 <= k).
      { rewrite <- plus_IZR. apply IZR_le. destruct (Z.eq_dec n (2 ^ 51)) as [->|]; [discriminate|lia]. }
      assert (Wb : k - / 2 < w < k + / 2) by (revert Ws; unfold Rabs; destruct Rcase_abs; lra).
      destruct (binade_multiple w 51 ltac:(lia) Fw) as (j & J). { change (pw 51) with (IZR (2 ^ 51)). change (pw (51 + 1)) with (IZR (2 ^ 52)). lra. }
      change (pw (51 - 52)) with (/ 2) in J.
      assert (j = 2 * n)%Z as ->.
      { assert (IZR (2 * n - 1) < IZR j < IZR (2 * n + 1)) as [A B] by (rewrite minus_IZR, plus_IZR, mult_IZR; fold k; lra). apply lt_IZR in A, B. lia. }
      assert (Wk : w = k) by (rewrite J, mult_IZR; fold k; field).
      apply (sandwich k (x * T) (y * T) X); auto.
      assert (Sy : rnd (k - (x * T - k)) = k).
      { apply (rnd_symmetric k (x * T - k) 51); auto; [lia| |].
        - change (pw 51) with (IZR (2 ^ 51)). change (pw (51 + 1)) with (IZR (2 ^ 52)). lra.
        - replace (k + (x * T - k)) with (x * T) by ring. exact Wk. }
      replace (2 * k - x * T) with (k - (x * T - k)) by ring. unfold to_int. rewrite Sy. apply rint_IZR. }
  assert (K3 : IZR (2 ^ 52) <= k) by (apply IZR_le; lia). change (IZR (2 ^ 52)) with (pw 52) in K3.
  assert (M : (52 <= m)%Z) by (assert (52 < m + 1)%Z; [apply (lt_bpow radix2); lra|lia]).
  destruct (Rle_lt_or_eq_dec _ _ (proj1 Bd)) as [L|Q].
  { (* no power of two *)
    left. set (w := rnd (x * T)). assert (W : rint w = k) by exact X. assert (Fw : fmt w) by apply fmt_rnd.
    assert (Wb : pw 52 <= w).
    { destruct (Rle_lt_dec (pw 52) w) as [|C]; auto. exfalso.
      assert (Kb : pw 52 < k) by (apply Rle_lt_trans with (pw m); [apply bpow_le; lia|auto]).
      assert (rint w <= rint (pw 52)) by (apply rint_le; lra). change (pw 52) with (IZR (2 ^ 52)) in *. rewrite rint_IZR in H. lra. }
    assert (Wk : w = k) by (rewrite <- W; symmetry; apply big_int; auto).
    apply (sandwich k (x * T) (y * T) X); auto.
    assert (Sy : rnd (k - (x * T - k)) = k).
    { apply (rnd_symmetric k (x * T - k) m); auto; [lia|lra|]. replace (k + (x * T - k)) with (x * T) by ring. exact Wk. }
    replace (2 * k - x * T) with (k - (x * T - k)) by ring. unfold to_int. rewrite Sy. apply rint_IZR. }
  (* a power of two *)
  set (v := pw (m - 53)). assert (V : 0 < v) by apply bpow_gt_0.
  assert (Kv : k = IZR (2 ^ 53) * v) by (unfold v; rewrite <- Q; change (IZR (2 ^ 53)) with (pw 53); rewrite <- bpow_plus; f_equal; lia).
  assert (E : Rabs (y * T - k) <= 57 / 100 * v).
  { assert (E : Rabs (y - k / T) <= pw (m - 43 - 54)).
    { apply err_lt; [lia|]. rewrite Rabs_pos_eq by lra. apply Rmult_lt_reg_r with T; auto. rewrite KT, <- Q. replace (pw m) with (pw (m - 43) * IZR (2 ^ 43)).
      - apply Rmult_lt_compat_l; [apply bpow_gt_0|]. simpl Z.pow. lra.
      - change (IZR (2 ^ 43)) with (pw 43). rewrite <- bpow_plus. f_equal. lia. }
    apply YT in E. eapply Rle_trans; [exact E|]. replace (m - 43 - 54)%Z with (m - 53 + -44)%Z by lia. rewrite bpow_plus. fold v.
    change (pw (-44)) with (/ IZR (2 ^ 44)). rewrite (Rmult_comm v), Rmult_assoc, (Rmult_comm v), <- Rmult_assoc. apply Rmult_le_compat_r; [lra|]. simpl Z.pow. lra. }
  assert (Eb : k - 57 / 100 * v <= y * T <= k + 57 / 100 * v) by (revert E; unfold Rabs; destruct Rcase_abs; lra).
  destruct (Rle_lt_dec k (y * T)) as [A|A].
  { left. unfold to_int. rewrite (rnd_binade (y * T) m) by first [lia | split; [lra|]; rewrite bpow_plus; change (pw 1) with 2; rewrite Q; simpl Z.pow in *; lra].
    replace (ZnearestE (y * T * pw (52 - m))) with (2 ^ 52)%Z.
    - replace (IZR (2 ^ 52) * pw (m - 52)) with k; [apply rint_IZR|]. rewrite <- Q. change (IZR (2 ^ 52)) with (pw 52). rewrite <- bpow_plus. f_equal. lia.
    - symmetry. apply near. assert (C : v * pw (52 - m) = / 2) by (unfold v; rewrite <- bpow_plus; replace (m - 53 + (52 - m))%Z with (-1)%Z by lia; reflexivity).
      assert (C2 : k * pw (52 - m) = IZR (2 ^ 52)) by (rewrite Kv, Rmult_assoc, C; simpl Z.pow; lra).
      replace (y * T * pw (52 - m) - IZR (2 ^ 52)) with ((y * T - k) * pw (52 - m)) by (rewrite <- C2; ring).
      rewrite Rabs_pos_eq by (apply Rmult_le_pos; [lra|apply bpow_ge_0]). apply Rle_lt_trans with (57 / 100 * v * pw (52 - m)); [apply Rmult_le_compat_r; [apply bpow_ge_0|lra]|].
      rewrite Rmult_assoc, C. lra. }
  assert (Fv : fmt (k - v)).
  { replace (k - v) with (IZR (2 ^ 53 - 1) * pw (m - 1 - 52)); [apply multiple_fmt; lia|]. replace (m - 1 - 52)%Z with (m - 53)%Z by lia. fold v. rewrite minus_IZR, Kv. ring. }
  assert (Hk : to_int (y * T) <= k) by (eapply Rle_trans; [apply (to_int_le _ k); lra|]; unfold k at 1; rewrite (to_int_IZR n Fk); apply Rle_refl).
  destruct (Z.eq_dec m 52) as [->|M'].
  { left. apply Rle_antisym; auto. change v with (/ 2) in *. assert (n = 2 ^ 52)%Z by (apply eq_IZR; fold k; rewrite <- Q; reflexivity).
    assert (G : to_int (k - / 2) <= to_int (y * T)) by (apply to_int_le; lra). unfold to_int in G at 1. rewrite (rnd_fmt (k - / 2)) in G by auto.
    unfold rint in G at 1. assert (Ev : Z.even n = true) by (rewrite H; reflexivity). destruct (half_even n Ev) as [_ B]. fold k in B. rewrite B in G. exact G. }
  set (k' := rnd (y * T)). assert (Fk' : fmt k') by apply fmt_rnd.
  assert (Bk : k - v <= k') by (rewrite <- (rnd_fmt (k - v)) by auto; apply rnd_le; lra).
  assert (V2 : pw (m - 1) = IZR (2 ^ 52) * v) by (unfold v; change (IZR (2 ^ 52)) with (pw 52); rewrite <- bpow_plus; f_equal; lia).
  assert (Big : pw 52 <= pw (m - 1)) by (apply bpow_le; lia).
  assert (Kp : to_int (y * T) = k') by (apply big_int; auto; simpl Z.pow in *; lra).
  rewrite Kp in *. destruct (Rle_lt_or_eq_dec _ _ Hk) as [Hk'|Hk']; [|left; auto].
  right. assert (Kq : k' = k - v).
  { destruct (binade_multiple k' (m - 1) ltac:(lia) Fk') as (j & J).
    - replace (m - 1 + 1)%Z with m by lia. rewrite Q. split; [simpl Z.pow in *; lra|lra].
    - replace (m - 1 - 52)%Z with (m - 53)%Z in J by lia. fold v in J.
      assert (j < 2 ^ 53)%Z by (apply lt_IZR; apply Rmult_lt_reg_r with v; lra).
      assert (2 ^ 53 - 1 <= j)%Z by (apply le_IZR; apply Rmult_le_reg_r with v; auto; rewrite minus_IZR; lra).
      assert (j = 2 ^ 53 - 1)%Z as -> by lia. rewrite J, minus_IZR, Kv. ring. }
  assert (C := closest (y * T) k Fk). fold k' in C.
  assert (C2 : y * T <= k - v / 2) by (revert C; rewrite Kq; unfold Rabs; repeat destruct Rcase_abs; lra). clear C.
  set (w := rnd (k' / T)). set (g := pw (m - 96)). assert (Gp : 0 < g) by apply bpow_gt_0.
  assert (Gv : v = g * IZR (2 ^ 43)) by (unfold v, g; change (IZR (2 ^ 43)) with (pw 43); rewrite <- bpow_plus; f_equal; lia).
  assert (D1 : 0 < y - k' / T < g / 2).
  { assert (Kt' : k' / T * T = k') by (field; lra). split; apply Rmult_lt_reg_r with T; auto; rewrite ?Rmult_0_l, Rmult_minus_distr_r, Kt'; [lra|].
    apply Rle_lt_trans with (v / 2); [lra|]. rewrite Gv. simpl Z.pow. lra. }
  assert (Fy : fmt y) by apply fmt_rnd. assert (C := closest (k' / T) y Fy). fold w in C.
  assert (C3 : Rabs (w - y) < g) by (revert C; unfold Rabs; repeat destruct Rcase_abs; lra).
  assert (B1 : pw (m - 44) = IZR (2 ^ 52) * g) by (unfold g; change (IZR (2 ^ 52)) with (pw 52); rewrite <- bpow_plus; f_equal; lia).
  assert (B2 : pw (m - 44 + 1) = IZR (2 ^ 53) * g) by (unfold g; change (IZR (2 ^ 53)) with (pw 53); rewrite <- bpow_plus; f_equal; lia).
  assert (Y1 : IZR (2 ^ 52) * g + g <= y <= IZR (2 ^ 53) * g - g).
  { split; apply Rmult_le_reg_r with T; auto; rewrite Gv in *; simpl Z.pow in *; lra. }
  assert (Wy : y - g < w < y + g) by (revert C3; unfold Rabs; destruct Rcase_abs; lra).
  destruct (binade_multiple y (m - 44) ltac:(lia) Fy) as (a & Ya); [rewrite B1, B2; lra|].
  destruct (binade_multiple w (m - 44) ltac:(lia) (fmt_rnd _)) as (b & Yb); [rewrite B1, B2; lra|].
  replace (m - 44 - 52)%Z with (m - 96)%Z in * by lia. fold g in Ya, Yb.
  assert (a - 1 < b)%Z by (apply lt_IZR; apply Rmult_lt_reg_r with g; auto; rewrite minus_IZR; lra).
  assert (b < a + 1)%Z by (apply lt_IZR; apply Rmult_lt_reg_r with g; auto; rewrite plus_IZR; lra).
  assert (a = b) by lia. subst b. rewrite Yb, <- Ya. reflexivity.
Qed.

(** negative numbers *)
Lemma rint_opp r : rint (- r) = - rint r.
Proof. unfold rint. rewrite <- !(round_FIX ZnearestE) by auto with typeclass_instances. apply round_NE_opp. Qed.
Lemma to_int_opp r : to_int (- r) = - to_int r.
Proof. unfold to_int. rewrite round_NE_opp. apply rint_opp. Qed.
Lemma round13_opp r : round13 (- r) = - round13 r.
Proof.
  unfold round13. replace (- r * T) with (- (r * T)) by ring. rewrite to_int_opp. replace (- to_int (r * T) / T) with (- (to_int (r * T) / T)) by (field; lra).
  apply round_NE_opp.
Qed.
Lemma round13_le a b : a <= b -> round13 a <= round13 b.
Proof.
  intro H. apply rnd_le. apply Rmult_le_compat_r; [left; apply Rinv_0_lt_compat, T_pos|]. apply to_int_le. apply Rmult_le_compat_r; [left; apply T_pos|auto].
Qed.
Lemma round13_twice x : fmt x -> round13 (round13 x) = round13 x.
Proof.
  assert (G : forall x, fmt x -> 0 <= x -> round13 (round13 x) = round13 x).
  { clear x. intros x F P. assert (Q : to_int (x * T) = IZR (ZnearestE (rnd (x * T)))) by reflexivity. set (n := ZnearestE (rnd (x * T))) in *.
    assert (N : (0 <= n)%Z).
    { apply le_IZR. rewrite <- Q. rewrite <- (to_int_IZR 0) by apply generic_format_0. apply to_int_le. apply Rmult_le_pos; [auto|left; apply T_pos]. }
    unfold round13 at 2 3. rewrite Q. destruct (Z.eq_dec n 0) as [->|N0].
    - replace (0 / T) with 0 by (field; lra). rewrite round_0 by auto with typeclass_instances. unfold round13. rewrite Rmult_0_l.
      rewrite (to_int_IZR 0) by apply generic_format_0. replace (0 / T) with 0 by (field; lra). apply round_0; auto with typeclass_instances.
    - unfold round13. apply (round_twice_pos x n F Q). lia. }
  intro F. destruct (Rle_lt_dec 0 x) as [P|P]; [auto|].
  assert (H := G (- x) (generic_format_opp _ _ _ F) ltac:(lra)). rewrite !round13_opp in H. lra.
Qed.

(** ** The operation *)
Lemma err_le r e : (-1021 <= e)%Z -> Rabs r <= pw e -> Rabs (rnd r - r) <= pw (e - 54).
Proof.
  intros E H. destruct (Rle_lt_or_eq_dec _ _ H) as [L|Q]; [apply err_lt; auto|].
  rewrite rnd_fmt; [rewrite Rminus_diag_eq, Rabs_R0 by auto; apply bpow_ge_0|]. apply generic_format_abs_inv. rewrite Q. apply fmt_pw. lia.
Qed.
Lemma T_is : is (of_Z 10000000000000) T.
Proof. apply of_Z_is. lia. Qed.
Lemma T_pw : IZR (2 ^ 43) < T < pw 44.
Proof. change (pw 44) with (IZR (2 ^ 44)). simpl Z.pow. lra. Qed.
Lemma fround13_is x r e : is x r -> (0 <= e <= 975)%Z -> Rabs r <= pw e -> is (fround13 x) (round13 r) /\ Rabs (round13 r) <= pw (e + 1).
Proof.
  intros X E B. assert (T1 := T_pw). assert (T2 := T_pos).
  assert (B1 : Rabs (r * T) <= pw (e + 44)).
  { rewrite Rabs_mult, (Rabs_pos_eq T), bpow_plus by lra. apply Rmult_le_compat; try lra. apply Rabs_pos. }
  assert (M : is (fmul x (of_Z 10000000000000)) (rnd (r * T))) by (apply (fmul_is _ _ _ _ (e + 44)); auto; [apply T_is|lia]).
  apply frint_is in M. fold (rint (rnd (r * T))) in M. fold (to_int (r * T)) in M.
  assert (B2 : Rabs (to_int (r * T)) <= pw (e + 44)).
  { assert (Fp : fmt (pw (e + 44))) by (apply fmt_pw; lia). assert (Z : pw (e + 44) = IZR (2 ^ (e + 44))) by (rewrite <- (IZR_Zpower radix2) by lia; reflexivity).
    assert (U : to_int (pw (e + 44)) = pw (e + 44)) by (rewrite Z in *; apply to_int_IZR; auto).
    apply Rabs_le. apply Rabs_le_inv in B1. destruct B1 as [L H]. apply to_int_le in L, H. rewrite to_int_opp in L. lra. }
  assert (B3 : Rabs (to_int (r * T) / T) <= pw (e + 1)).
  { unfold Rdiv. rewrite Rabs_mult, (Rabs_pos_eq (/ T)) by (left; apply Rinv_0_lt_compat; auto). apply Rmult_le_reg_r with T; auto.
    rewrite Rmult_assoc, Rinv_l, Rmult_1_r by lra. eapply Rle_trans; [exact B2|]. replace (e + 44)%Z with (e + 1 + 43)%Z by lia. rewrite bpow_plus.
    apply Rmult_le_compat_l; [apply bpow_ge_0|]. change (pw 43) with (IZR (2 ^ 43)). lra. }
  split; [|apply rnd_bound; auto; lia]. apply (fdiv_is _ _ _ _ (e + 1)); auto; [apply T_is|lia].
Qed.
