(** * Lemmas about Numeric.v *)
From Coq Require Import List ZArith QArith Qround Qabs Bool Lia Lqa Setoid Morphisms.
From Coq Require Import Sorting.Permutation.
From Verif Require Import Base Numeric.
Import ListNotations.
Open Scope Z_scope.

(** ** Comparisons *)
Lemma Qltb_lt a b : Qltb a b = true <-> (a < b)%Q.
Proof.
  unfold Qltb. rewrite negb_true_iff.
  split; intro H.
  - destruct (Qlt_le_dec a b) as [h|h]; auto.
    apply Qle_bool_iff in h. congruence.
  - destruct (Qle_bool b a) eqn:E; auto.
    apply Qle_bool_iff in E. lra.
Qed.

Lemma Qltb_ge a b : Qltb a b = false <-> (b <= a)%Q.
Proof.
  unfold Qltb. rewrite negb_false_iff. apply Qle_bool_iff.
Qed.

Lemma Qle_bool_false a b : Qle_bool a b = false <-> (b < a)%Q.
Proof.
  rewrite <- Qltb_lt. unfold Qltb. rewrite negb_true_iff. tauto.
Qed.

Lemma Qeq_bool_false a b : Qeq_bool a b = false <-> ~ (a == b)%Q.
Proof.
  split; intro H.
  - apply Qeq_bool_neq; auto.
  - destruct (Qeq_bool a b) eqn:E; auto. apply Qeq_bool_iff in E. contradiction.
Qed.

Global Instance Qltb_proper : Proper (Qeq ==> Qeq ==> eq) Qltb.
Proof.
  intros a a' Ha b b' Hb. unfold Qltb. f_equal.
  destruct (Qle_bool b a) eqn:E; symmetry.
  - apply Qle_bool_iff in E. apply Qle_bool_iff. lra.
  - apply Qle_bool_false in E. apply Qle_bool_false. lra.
Qed.

Lemma inject_Z_lt a b : (inject_Z a < inject_Z b)%Q <-> a < b.
Proof. rewrite <- Zlt_Qlt. tauto. Qed.
Lemma inject_Z_le a b : (inject_Z a <= inject_Z b)%Q <-> a <= b.
Proof. rewrite <- Zle_Qle. tauto. Qed.
Lemma inject_Z_eq a b : (inject_Z a == inject_Z b)%Q <-> a = b.
Proof. split; [apply inject_Z_injective | intros ->; reflexivity]. Qed.

(** ** rint *)
Lemma Qfloor_lt1 q : (q < inject_Z (Qfloor q) + 1)%Q.
Proof.
  pose proof (Qlt_floor q). rewrite inject_Z_plus in H. exact H.
Qed.

Lemma rint_near q : (inject_Z (rint q) - (1#2) <= q)%Q /\ (q <= inject_Z (rint q) + (1#2))%Q.
Proof.
  unfold rint. pose proof (Qfloor_le q) as H1. pose proof (Qfloor_lt1 q) as H2.
  set (f := Qfloor q) in *.
  destruct (Qltb (q - inject_Z f) (1#2)) eqn:E1.
  - apply Qltb_lt in E1. lra.
  - apply Qltb_ge in E1.
    destruct (Qltb (1#2) (q - inject_Z f)) eqn:E2.
    + rewrite inject_Z_plus. change (inject_Z 1) with 1%Q. lra.
    + apply Qltb_ge in E2. destruct (Z.even f).
      * lra.
      * rewrite inject_Z_plus. change (inject_Z 1) with 1%Q. lra.
Qed.

Lemma rint_unique q z : (inject_Z z - (1#2) < q)%Q -> (q < inject_Z z + (1#2))%Q -> rint q = z.
Proof.
  intros H1 H2. destruct (rint_near q) as [H3 H4].
  assert (A : (inject_Z z < inject_Z (rint q + 1))%Q) by (rewrite inject_Z_plus; change (inject_Z 1) with 1%Q; lra).
  assert (B : (inject_Z (rint q) < inject_Z (z + 1))%Q) by (rewrite inject_Z_plus; change (inject_Z 1) with 1%Q; lra).
  rewrite inject_Z_lt in A, B. lia.
Qed.

Global Instance rint_proper : Proper (Qeq ==> eq) rint.
Proof.
  intros a b H. unfold rint. rewrite (Qfloor_comp _ _ H).
  assert (E : (a - inject_Z (Qfloor b) == b - inject_Z (Qfloor b))%Q) by lra.
  rewrite (Qltb_proper _ _ E _ _ (Qeq_refl _)), (Qltb_proper _ _ (Qeq_refl (1#2)) _ _ E). reflexivity.
Qed.

Lemma rint_Z z : rint (inject_Z z) = z.
Proof. apply rint_unique; lra. Qed.

Lemma Qfloor_plus_Z q z : Qfloor (q + inject_Z z) = Qfloor q + z.
Proof.
  pose proof (Qfloor_le q) as H1. pose proof (Qfloor_lt1 q) as H2.
  pose proof (Qfloor_le (q + inject_Z z)) as H3. pose proof (Qfloor_lt1 (q + inject_Z z)) as H4.
  assert (A : (inject_Z (Qfloor q + z) < inject_Z (Qfloor (q + inject_Z z) + 1))%Q)
    by (rewrite !inject_Z_plus; change (inject_Z 1) with 1%Q; lra).
  assert (B : (inject_Z (Qfloor (q + inject_Z z)) < inject_Z (Qfloor q + z + 1))%Q)
    by (rewrite !inject_Z_plus; change (inject_Z 1) with 1%Q; lra).
  rewrite inject_Z_lt in A, B. lia.
Qed.

Lemma Qfloor_unique q z : (inject_Z z <= q)%Q -> (q < inject_Z z + 1)%Q -> Qfloor q = z.
Proof.
  intros H3 H4.
  pose proof (Qfloor_le q) as H1. pose proof (Qfloor_lt1 q) as H2.
  assert (A : (inject_Z z < inject_Z (Qfloor q + 1))%Q)
    by (rewrite !inject_Z_plus; change (inject_Z 1) with 1%Q; lra).
  assert (B : (inject_Z (Qfloor q) < inject_Z (z + 1))%Q)
    by (rewrite !inject_Z_plus; change (inject_Z 1) with 1%Q; lra).
  rewrite inject_Z_lt in A, B. lia.
Qed.

Lemma rint_mono a b : (a <= b)%Q -> rint a <= rint b.
Proof.
  intro H. destruct (rint_near a) as [A1 A2]. destruct (rint_near b) as [B1 B2].
  destruct (Z_le_gt_dec (rint a) (rint b)) as [|G]; auto. exfalso.
  (* rint a >= rint b + 1: both are on the same tie *)
  assert (G' : (inject_Z (rint b + 1) <= inject_Z (rint a))%Q) by (apply inject_Z_le; lia).
  rewrite inject_Z_plus in G'. change (inject_Z 1) with 1%Q in G'.
  assert (E : (a == b)%Q) by lra.
  rewrite E in G. lia.
Qed.

Lemma rint_bounds lo hi q : (inject_Z lo <= q)%Q -> (q <= inject_Z hi)%Q -> lo <= rint q <= hi.
Proof.
  intros H1 H2. split.
  - rewrite <- (rint_Z lo). apply rint_mono; auto.
  - rewrite <- (rint_Z hi). apply rint_mono; auto.
Qed.

Lemma is_close_to_integer_Z z : is_close_to_integer (inject_Z z) = true.
Proof.
  unfold is_close_to_integer. rewrite rint_Z. apply Qle_bool_iff.
  assert (E : (inject_Z z - inject_Z z == 0)%Q) by lra.
  rewrite E. change (Qabs 0) with 0%Q.
  pose proof (Qabs_nonneg (inject_Z z)). unfold atol, rtol. lra.
Qed.

Global Instance Qle_bool_proper : Proper (Qeq ==> Qeq ==> eq) Qle_bool.
Proof.
  intros a a' Ha b b' Hb. destruct (Qle_bool a' b') eqn:E.
  - apply Qle_bool_iff in E. apply Qle_bool_iff. lra.
  - apply Qle_bool_false in E. apply Qle_bool_false. lra.
Qed.

Global Instance Qeq_bool_proper : Proper (Qeq ==> Qeq ==> eq) Qeq_bool.
Proof.
  intros a a' Ha b b' Hb. destruct (Qeq_bool a' b') eqn:E.
  - apply Qeq_bool_iff in E. apply Qeq_bool_iff. lra.
  - apply Qeq_bool_false in E. apply Qeq_bool_false. lra.
Qed.

Global Instance is_close_to_integer_proper : Proper (Qeq ==> eq) is_close_to_integer.
Proof.
  intros a b H. unfold is_close_to_integer. cbv zeta. rewrite (rint_proper _ _ H).
  apply Qle_bool_proper; [|reflexivity]. apply Qabs_wd. lra.
Qed.

Lemma is_close_near a : is_close_to_integer a = true ->
  (Qabs (a - inject_Z (rint a)) <= atol + rtol * Qabs (inject_Z (rint a)))%Q.
Proof. intro H. apply Qle_bool_iff in H. exact H. Qed.

(** ** round13 *)
Global Instance round13_proper : Proper (Qeq ==> Qeq) round13.
Proof. intros a b H. unfold round13. rewrite H. reflexivity. Qed.

Lemma ten13_pos : (0 < inject_Z ten13)%Q.
Proof. reflexivity. Qed.

Lemma round13_mono a b : (a <= b)%Q -> (round13 a <= round13 b)%Q.
Proof.
  intro H. unfold round13. unfold Qdiv. pose proof ten13_pos.
  apply Qmult_le_compat_r.
  - apply inject_Z_le. apply rint_mono. apply Qmult_le_compat_r; auto. lra.
  - apply Qinv_le_0_compat. lra.
Qed.

Lemma round13_idem a : (round13 (round13 a) == round13 a)%Q.
Proof.
  unfold round13 at 1. pose proof ten13_pos.
  assert (E : (round13 a * inject_Z ten13 == inject_Z (rint (a * inject_Z ten13)))%Q).
  { unfold round13. field. lra. }
  rewrite E, rint_Z. reflexivity.
Qed.

Lemma round13_error a : (Qabs (round13 a - a) <= (1#2) * (1 # 10000000000000))%Q.
Proof.
  unfold round13. pose proof ten13_pos as P.
  destruct (rint_near (a * inject_Z ten13)) as [H1 H2].
  set (r := rint (a * inject_Z ten13)) in *.
  assert (E : (inject_Z r / inject_Z ten13 == inject_Z r * (1#10000000000000))%Q).
  { unfold Qdiv. change (/ inject_Z ten13)%Q with (1#10000000000000). reflexivity. }
  rewrite E. apply Qabs_Qle_condition.
  change (inject_Z ten13) with (10000000000000 # 1) in *.
  split; lra.
Qed.

(** ** scale / normalize *)
Global Instance scale_proper : Proper (Qeq ==> Qeq ==> Qeq ==> Qeq) scale.
Proof. intros a a' Ha b b' Hb c c' Hc. unfold scale. rewrite Ha, Hb, Hc. reflexivity. Qed.

Lemma normalize_eq x lo hi : (normalize x lo hi == (x - lo) / (hi - lo))%Q.
Proof.
  unfold normalize. destruct (Qeq_bool lo 0) eqn:A; simpl.
  - destruct (Qeq_bool hi 1) eqn:B.
    + apply Qeq_bool_iff in A, B. rewrite A, B. field. 
    + reflexivity.
  - reflexivity.
Qed.

Global Instance normalize_proper : Proper (Qeq ==> Qeq ==> Qeq ==> Qeq) normalize.
Proof.
  intros a a' Ha b b' Hb c c' Hc. rewrite !normalize_eq, Ha, Hb, Hc. reflexivity.
Qed.

Lemma scale_normalize x lo hi : (lo < hi)%Q -> (scale (normalize x lo hi) lo hi == x)%Q.
Proof.
  intro H. rewrite normalize_eq. unfold scale. field. lra.
Qed.

Lemma normalize_scale x lo hi : (lo < hi)%Q -> (normalize (scale x lo hi) lo hi == x)%Q.
Proof.
  intro H. rewrite normalize_eq. unfold scale. field. lra.
Qed.

Lemma Qdiv_le_iff a b c : (0 < c)%Q -> (a / c <= b)%Q <-> (a <= b * c)%Q.
Proof.
  intro H. split; intro K.
  - apply Qmult_le_compat_r with (z := c) in K; [|lra].
    assert (E : (a / c * c == a)%Q) by (field; lra). rewrite E in K. exact K.
  - apply Qle_shift_div_r; auto.
Qed.

Lemma Qle_div_iff a b c : (0 < c)%Q -> (b <= a / c)%Q <-> (b * c <= a)%Q.
Proof.
  intro H. split; intro K.
  - apply Qmult_le_compat_r with (z := c) in K; [|lra].
    assert (E : (a / c * c == a)%Q) by (field; lra). rewrite E in K. exact K.
  - apply Qle_shift_div_l; auto.
Qed.

Lemma normalize_range x lo hi : (lo < hi)%Q ->
  ((0 <= normalize x lo hi)%Q /\ (normalize x lo hi <= 1)%Q <-> (lo <= x)%Q /\ (x <= hi)%Q).
Proof.
  intro H. rewrite normalize_eq.
  rewrite Qdiv_le_iff, Qle_div_iff by lra. split; intros [A B]; split; lra.
Qed.

Lemma normalize_mono x y lo hi : (lo < hi)%Q -> (x < y)%Q ->
  (normalize x lo hi < normalize y lo hi)%Q.
Proof.
  intros H K. rewrite !normalize_eq. unfold Qdiv.
  apply Qmult_lt_compat_r; [|lra]. apply Qinv_lt_0_compat. lra.
Qed.

Lemma normalize_inj x y lo hi : (lo < hi)%Q ->
  (normalize x lo hi == normalize y lo hi)%Q -> (x == y)%Q.
Proof.
  intros H K. rewrite <- (scale_normalize x lo hi), <- (scale_normalize y lo hi) by auto.
  rewrite K. reflexivity.
Qed.

Lemma scale_range x lo hi : (lo < hi)%Q -> (0 <= x)%Q -> (x <= 1)%Q ->
  (lo <= scale x lo hi)%Q /\ (scale x lo hi <= hi)%Q.
Proof.
  intros H A B. apply (normalize_range _ lo hi H). rewrite normalize_scale by auto. auto.
Qed.

Lemma scale_mono x y lo hi : (lo < hi)%Q -> (x < y)%Q -> (scale x lo hi < scale y lo hi)%Q.
Proof.
  intros H K. unfold scale.
  assert ((x * (hi - lo) < y * (hi - lo))%Q) by (apply Qmult_lt_compat_r; lra). lra.
Qed.

(** ** qclip *)
Lemma qclip_range x lo hi : (lo <= hi)%Q -> (lo <= qclip x lo hi)%Q /\ (qclip x lo hi <= hi)%Q.
Proof.
  intro H. unfold qclip.
  destruct (Qle_bool x lo) eqn:A.
  - destruct (Qle_bool hi lo) eqn:B; [apply Qle_bool_iff in B|]; split; lra.
  - apply Qle_bool_false in A.
    destruct (Qle_bool hi x) eqn:B; [apply Qle_bool_iff in B|apply Qle_bool_false in B]; split; lra.
Qed.

Lemma qclip_id x lo hi : (lo <= x)%Q -> (x <= hi)%Q -> (qclip x lo hi == x)%Q.
Proof.
  intros H K. unfold qclip.
  destruct (Qle_bool x lo) eqn:A.
  - apply Qle_bool_iff in A.
    destruct (Qle_bool hi lo) eqn:B; [apply Qle_bool_iff in B|]; lra.
  - destruct (Qle_bool hi x) eqn:B; [apply Qle_bool_iff in B|]; lra.
Qed.

Global Instance qclip_proper : Proper (Qeq ==> Qeq ==> Qeq ==> Qeq) qclip.
Proof.
  intros a a' Ha b b' Hb c c' Hc. unfold qclip.
  assert (E1 : Qle_bool a b = Qle_bool a' b').
  { destruct (Qle_bool a' b') eqn:E.
    - apply Qle_bool_iff. apply Qle_bool_iff in E. lra.
    - apply Qle_bool_false. apply Qle_bool_false in E. lra. }
  rewrite E1. destruct (Qle_bool a' b').
  - destruct (Qle_bool c b) eqn:E2, (Qle_bool c' b') eqn:E3;
    try (apply Qle_bool_iff in E2); try (apply Qle_bool_iff in E3);
    try (apply Qle_bool_false in E2); try (apply Qle_bool_false in E3); lra.
  - destruct (Qle_bool c a) eqn:E2, (Qle_bool c' a') eqn:E3;
    try (apply Qle_bool_iff in E2); try (apply Qle_bool_iff in E3);
    try (apply Qle_bool_false in E2); try (apply Qle_bool_false in E3); lra.
Qed.

(** ** quantize *)
Definition qlevel (x l u : Q) (bins : Z) : Z :=
  zclip (Qfloor (normalize x l u * inject_Z bins)) 0 (bins - 1).

Lemma quantize_level x l u bins : (l < u)%Q -> 2 <= bins ->
  (quantize x l u bins == scale (inject_Z (qlevel x l u bins) / inject_Z (bins - 1)) l u)%Q.
Proof.
  intros H B. unfold quantize, qlevel, normalize, scale.
  destruct (Qeq_bool l 0 && Qeq_bool u 1)%bool eqn:E.
  - apply andb_true_iff in E. destruct E as [E1 E2].
    apply Qeq_bool_iff in E1, E2. rewrite E1, E2. lra.
  - reflexivity.
Qed.

Lemma qlevel_range x l u bins : 2 <= bins -> 0 <= qlevel x l u bins <= bins - 1.
Proof. intro. unfold qlevel, zclip. lia. Qed.

Lemma qlevel_mono x y l u bins : (l < u)%Q -> 2 <= bins -> (x <= y)%Q ->
  qlevel x l u bins <= qlevel y l u bins.
Proof.
  intros H B K. unfold qlevel, zclip.
  assert (Qfloor (normalize x l u * inject_Z bins) <= Qfloor (normalize y l u * inject_Z bins)).
  { apply Qfloor_resp_le. apply Qmult_le_compat_r.
    - destruct (Qlt_le_dec x y) as [L|L].
      + apply Qlt_le_weak, normalize_mono; auto.
      + assert (E : (x == y)%Q) by lra. rewrite E. lra.
    - change 0%Q with (inject_Z 0). apply inject_Z_le. lia. }
  lia.
Qed.

(** the k-th of [bins] equally spaced points of [l, u] *)
Definition bin_point (l u : Q) (bins k : Z) : Q :=
  scale (inject_Z k / inject_Z (bins - 1)) l u.

Lemma qlevel_bin_point l u bins k : (l < u)%Q -> 2 <= bins -> 0 <= k <= bins - 1 ->
  qlevel (bin_point l u bins k) l u bins = k.
Proof.
  intros H B K. unfold qlevel, bin_point.
  assert (E : Qfloor (normalize (scale (inject_Z k / inject_Z (bins - 1)) l u) l u * inject_Z bins)
          = Qfloor (inject_Z k / inject_Z (bins - 1) * inject_Z bins)).
  { apply Qfloor_comp. rewrite normalize_scale by auto. reflexivity. }
  rewrite E.
  assert (P : (0 < inject_Z (bins - 1))%Q) by (change 0%Q with (inject_Z 0); apply inject_Z_lt; lia).
  assert (E2 : (inject_Z k / inject_Z (bins - 1) * inject_Z bins ==
                inject_Z k + inject_Z k / inject_Z (bins - 1))%Q).
  { assert (Hb : (inject_Z bins == inject_Z (bins - 1) + 1)%Q).
    { change 1%Q with (inject_Z 1). rewrite <- inject_Z_plus. apply inject_Z_eq. lia. }
    rewrite Hb. field. lra. }
  assert (N : (0 <= inject_Z k / inject_Z (bins - 1))%Q).
  { apply Qle_div_iff; auto. assert ((0 <= inject_Z k)%Q) by (change 0%Q with (inject_Z 0); apply inject_Z_le; lia). lra. }
  rewrite (Qfloor_comp _ _ E2).
  destruct (Z.eq_dec k (bins - 1)) as [->|Ne].
  - assert (E3 : (inject_Z (bins-1) + inject_Z (bins - 1) / inject_Z (bins - 1) == inject_Z bins)%Q).
    { assert (inject_Z (bins - 1) / inject_Z (bins - 1) == 1)%Q by (field; lra).
      rewrite H0. change 1%Q with (inject_Z 1). rewrite <- inject_Z_plus. apply inject_Z_eq. lia. }
    rewrite (Qfloor_comp _ _ E3), Qfloor_Z. unfold zclip. lia.
  - rewrite (Qfloor_unique _ k).
    + unfold zclip. lia.
    + lra.
    + assert (inject_Z k / inject_Z (bins - 1) < 1)%Q.
      { apply Qlt_shift_div_r; auto. rewrite Qmult_1_l. apply inject_Z_lt. lia. }
      lra.
Qed.

Lemma quantize_proper_x x y l u bins : (l < u)%Q -> 2 <= bins -> (x == y)%Q ->
  (quantize x l u bins == quantize y l u bins)%Q.
Proof.
  intros H B E. rewrite !quantize_level by auto.
  assert (qlevel x l u bins = qlevel y l u bins).
  { unfold qlevel. f_equal. apply Qfloor_comp. rewrite E. reflexivity. }
  rewrite H0. reflexivity.
Qed.

Lemma inject_Z_nonneg z : 0 <= z -> (0 <= inject_Z z)%Q.
Proof. intro. change 0%Q with (inject_Z 0). apply inject_Z_le. auto. Qed.
Lemma inject_Z_pos z : 0 < z -> (0 < inject_Z z)%Q.
Proof. intro. change 0%Q with (inject_Z 0). apply inject_Z_lt. auto. Qed.

Lemma scale_le_mono x y lo hi : (lo < hi)%Q -> (x <= y)%Q -> (scale x lo hi <= scale y lo hi)%Q.
Proof.
  intros H K. unfold scale.
  assert ((x * (hi - lo) <= y * (hi - lo))%Q) by (apply Qmult_le_compat_r; lra). lra.
Qed.

Lemma Qdiv_le_mono a b c : (0 < c)%Q -> (a <= b)%Q -> (a / c <= b / c)%Q.
Proof.
  intros H K. unfold Qdiv. apply Qmult_le_compat_r; auto. apply Qlt_le_weak, Qinv_lt_0_compat; auto.
Qed.

(** moving by less than one bin *)
Lemma quantize_error x l u bins : (l < u)%Q -> 2 <= bins -> (l <= x)%Q -> (x <= u)%Q ->
  (Qabs (quantize x l u bins - x) <= (u - l) / inject_Z (bins - 1))%Q.
Proof.
  intros H B L U. rewrite quantize_level by auto.
  set (t := normalize x l u).
  assert (T : (0 <= t)%Q /\ (t <= 1)%Q) by (apply normalize_range; auto).
  assert (Ex : (x == scale t l u)%Q) by (unfold t; rewrite scale_normalize by auto; reflexivity).
  set (k := qlevel x l u bins).
  assert (P : (0 < inject_Z (bins - 1))%Q) by (apply inject_Z_pos; lia).
  assert (Hb : (inject_Z bins == inject_Z (bins - 1) + 1)%Q).
  { change 1%Q with (inject_Z 1). rewrite <- inject_Z_plus. apply inject_Z_eq. lia. }
  (* k <= t*bins <= k+1 *)
  assert (Kl : (inject_Z k <= t * inject_Z bins)%Q /\ (t * inject_Z bins <= inject_Z k + 1)%Q).
  { unfold k, qlevel. fold t.
    pose proof (Qfloor_le (t * inject_Z bins)) as F1.
    pose proof (Qfloor_lt1 (t * inject_Z bins)) as F2.
    assert (F0 : 0 <= Qfloor (t * inject_Z bins)).
    { change 0 with (Qfloor 0). apply Qfloor_resp_le.
      apply Qmult_le_0_compat; lra. }
    assert (F3 : Qfloor (t * inject_Z bins) <= bins).
    { rewrite <- (Qfloor_Z bins) at 2. apply Qfloor_resp_le.
      assert ((t * inject_Z bins <= 1 * inject_Z bins)%Q) by (apply Qmult_le_compat_r; [lra | apply inject_Z_nonneg; lia]).
      lra. }
    unfold zclip.
    destruct (Z.eq_dec (Qfloor (t * inject_Z bins)) bins) as [E|NE].
    - replace (Z.min (Z.max (Qfloor (t * inject_Z bins)) 0) (bins - 1)) with (bins - 1) by lia.
      rewrite E in F1.
      assert ((t * inject_Z bins <= 1 * inject_Z bins)%Q) by (apply Qmult_le_compat_r; [lra | apply inject_Z_nonneg; lia]).
      split; lra.
    - replace (Z.min (Z.max (Qfloor (t * inject_Z bins)) 0) (bins - 1)) with (Qfloor (t * inject_Z bins)) by lia.
      lra. }
  assert (D : (scale (inject_Z k / inject_Z (bins - 1)) l u - x ==
              (inject_Z k - t * inject_Z (bins - 1)) * ((u - l) / inject_Z (bins - 1)))%Q).
  { rewrite Ex. unfold scale. field. lra. }
  rewrite D. rewrite Qabs_Qmult.
  assert (W : (0 < (u - l) / inject_Z (bins - 1))%Q).
  { apply Qlt_shift_div_l; auto. lra. }
  rewrite (Qabs_pos ((u - l) / inject_Z (bins - 1))) by lra.
  assert (A : (Qabs (inject_Z k - t * inject_Z (bins - 1)) <= 1)%Q).
  { apply Qabs_Qle_condition. destruct Kl as [K1 K2]. rewrite Hb in K1, K2.
    split; lra. }
  apply Qmult_le_compat_r with (z := ((u - l) / inject_Z (bins - 1))%Q) in A; lra.
Qed.

(** ** ranges *)
Lemma range_len_spec start stop step n : 0 < step ->
  (n < range_len start stop step)%nat <-> start + Z.of_nat n * step < stop.
Proof.
  intro H. unfold range_len, zceil_div.
  assert (D := Z.div_mod (- (stop - start)) step ltac:(lia)).
  assert (M := Z.mod_pos_bound (- (stop - start)) step H).
  set (q := - (stop - start) / step) in *. set (r := - (stop - start) mod step) in *.
  split; intro K.
  - assert (Z.of_nat n < - q) by lia. nia.
  - assert (Z.of_nat n < - q) by nia. lia.
Qed.

Lemma in_arange x start stop step : 0 < step ->
  In x (arange start stop step) <-> (exists i, 0 <= i /\ x = start + i * step /\ x < stop).
Proof.
  intro H. unfold arange. rewrite in_map_iff. split.
  - intros (n & <- & I). apply in_seq in I. exists (Z.of_nat n). split; [lia|]. split; [reflexivity|].
    apply range_len_spec; [exact H|]. lia.
  - intros (i & P & -> & L). exists (Z.to_nat i). split.
    + rewrite Z2Nat.id by auto. auto.
    + apply in_seq. split; [lia|]. simpl. apply range_len_spec; auto. rewrite Z2Nat.id by auto. auto.
Qed.

Lemma in_range_down x start stop step : 0 < step ->
  In x (range_down start stop step) <-> (exists i, 0 <= i /\ x = start - i * step /\ stop < x).
Proof.
  intro H. unfold range_down. rewrite in_map_iff. split.
  - intros (n & <- & I). apply in_seq in I. exists (Z.of_nat n). split; [lia|]. split; auto.
    assert ((n < range_len stop start step)%nat) by lia.
    apply range_len_spec in H0; auto. lia.
  - intros (i & P & -> & L). exists (Z.to_nat i). split.
    + rewrite Z2Nat.id by auto. auto.
    + apply in_seq. split; [lia|]. simpl. apply range_len_spec; auto. rewrite Z2Nat.id by auto. lia.
Qed.

Lemma NoDup_map_inj {A B} (f : A -> B) l :
  (forall x y, In x l -> In y l -> f x = f y -> x = y) -> NoDup l -> NoDup (map f l).
Proof.
  intros H N. induction N as [|a l Ha N IH]; simpl; constructor.
  - rewrite in_map_iff. intros (y & E & I). apply H in E; simpl; auto. congruence.
  - apply IH. intros; apply H; simpl; auto.
Qed.

Lemma NoDup_arange start stop step : 0 < step -> NoDup (arange start stop step).
Proof.
  intro H. apply NoDup_map_inj; [|apply seq_NoDup]. intros x y _ _ E.
  assert (Z.of_nat x = Z.of_nat y) by nia. lia.
Qed.
Lemma NoDup_range_down start stop step : 0 < step -> NoDup (range_down start stop step).
Proof.
  intro H. apply NoDup_map_inj; [|apply seq_NoDup]. intros x y _ _ E.
  assert (Z.of_nat x = Z.of_nat y) by nia. lia.
Qed.

Lemma roundrobin_perm {A} (l m : list A) : Permutation (roundrobin l m) (l ++ m).
Proof.
  revert m. induction l as [|x l IH]; intros m; simpl; auto.
  destruct m as [|y m]; simpl.
  - rewrite app_nil_r. auto.
  - apply perm_skip. rewrite IH. apply Permutation_middle.
Qed.

(** consecutive ranges concatenate *)
Lemma arange_app a b c : a <= b -> b <= c -> arange a b 1 ++ arange b c 1 = arange a c 1.
Proof.
  intros H K. unfold arange.
  assert (R : forall u v, range_len u v 1 = Z.to_nat (v - u)).
  { intros. unfold range_len, zceil_div. rewrite Z.div_1_r. f_equal. lia. }
  rewrite !R. replace (Z.to_nat (c - a)) with (Z.to_nat (b - a) + Z.to_nat (c - b))%nat by lia.
  rewrite seq_app, map_app. f_equal. rewrite <- (map_map (fun i => i) (fun i => b + Z.of_nat i * 1)).
  rewrite map_id.
  replace (0 + Z.to_nat (b - a))%nat with (Z.to_nat (b - a) + 0)%nat by lia.
  generalize 0%nat as s. generalize (Z.to_nat (c - b)) as n.
  induction n as [|n IH]; intros s; simpl; auto. f_equal.
  - lia.
  - rewrite (IH (S s)). f_equal. f_equal. lia.
Qed.

Lemma arange_empty a b : b <= a -> arange a b 1 = [].
Proof.
  intro. unfold arange, range_len, zceil_div. rewrite Z.div_1_r.
  replace (Z.to_nat _) with 0%nat by lia. reflexivity.
Qed.

(** chunks of a step 1 range *)
Lemma chunks_concat start stop cs n : 0 < cs ->
  concat (map (fun chunk =>
        let chunk_start := start + Z.of_nat chunk * cs in
        let chunk_stop := Z.min (chunk_start + cs) stop in
        arange chunk_start chunk_stop 1) (seq 0 n)) =
  arange start (Z.min (start + Z.of_nat n * cs) stop) 1.
Proof.
  intro H. induction n as [|n IH].
  - simpl. symmetry. apply arange_empty. lia.
  - rewrite seq_S, map_app, concat_app, IH. cbn [map concat plus]. rewrite app_nil_r, Nat2Z.inj_succ, Z.mul_succ_l. cbv zeta.
    destruct (Z_le_gt_dec stop (start + Z.of_nat n * cs)) as [L|G].
    + rewrite (arange_empty (start + Z.of_nat n * cs)) by lia. rewrite app_nil_r.
      f_equal. lia.
    + replace (Z.min (start + Z.of_nat n * cs) stop) with (start + Z.of_nat n * cs) by lia.
      rewrite arange_app by lia. f_equal. lia.
Qed.

Lemma arange_chunked_concat start stop cs l :
  arange_chunked start stop 1 cs = Ok l -> concat l = arange start stop 1.
Proof.
  unfold arange_chunked.
  destruct (0 <? 1) eqn:A; [|discriminate].
  destruct (0 <? cs) eqn:B; [|discriminate].
  destruct (start <? stop) eqn:C; [|discriminate].
  intro E. injection E as <-.
  apply Z.ltb_lt in B, C. rewrite chunks_concat by auto. f_equal.
  unfold zceil_div. rewrite Z.div_1_r. 
  pose proof (Z.div_mod (- - - (stop - start)) cs ltac:(lia)).
  pose proof (Z.mod_pos_bound (- - - (stop - start)) cs B).
  set (q := - - - (stop - start) / cs) in *. 
  assert (0 <= - q) by nia. rewrite Z2Nat.id by lia. nia.
Qed.

Lemma arange_chunked_sizes start stop step cs l :
  arange_chunked start stop step cs = Ok l ->
  Forall (fun c => Z.of_nat (length c) <= cs) l.
Proof.
  unfold arange_chunked.
  destruct (0 <? step) eqn:A; [|discriminate].
  destruct (0 <? cs) eqn:B; [|discriminate].
  destruct (start <? stop) eqn:C; [|discriminate].
  intro E. injection E as <-. apply Z.ltb_lt in A, B, C.
  apply Forall_forall. intros c I. apply in_map_iff in I. destruct I as (n & <- & _).
  cbv zeta. unfold arange. rewrite map_length, seq_length. unfold range_len, zceil_div.
  set (s := start + Z.of_nat n * cs).
  pose proof (Z.div_mod (- (Z.min (s + cs) stop - s)) step ltac:(lia)).
  pose proof (Z.mod_pos_bound (- (Z.min (s + cs) stop - s)) step A).
  set (q := - (Z.min (s + cs) stop - s) / step) in *. nia.
Qed.

Lemma concat_map_map {A B} (f : A -> B) l : concat (map (map f) l) = map f (concat l).
Proof.
  induction l as [|a l IH]; simpl; auto. rewrite map_app, IH. auto.
Qed.
