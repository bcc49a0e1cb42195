(** * C106, C107: conditions and clauses about numbers in float64 *)
From Coq Require Import ZArith Reals Lra Lia Bool List.
From Flocq Require Import Core IEEE754.BinarySingleNaN Relative.
From Verif Require Import Base Numeric Float FloatProofs FloatRound FloatLog FloatCond Properties_Float Properties_Round Properties_FloatLog.
Import ListNotations.
Open Scope R_scope.

(** ** Comparison of finite floats *)
Definition cmpR (o : cmp) (a b : R) : Prop := match o with CEq => a = b | CNe => a <> b | CLt => a < b | CGt => b < a end.
Lemma flt_iff x y a b : is x a -> is y b -> flt x y = true <-> a < b.
Proof. intros X Y. rewrite (flt_is _ _ _ _ X Y). destruct (Rlt_bool_spec a b); split; intro; auto; [discriminate|lra]. Qed.
Lemma cmpF_iff o x y a b : is x a -> is y b -> cmpF o x y = true <-> cmpR o a b.
Proof.
  intros X Y. destruct o; simpl.
  - apply feq_iff; auto.
  - rewrite negb_true_iff. rewrite <- (feq_iff x y a b X Y). destruct (feq x y); split; intro H; auto; try discriminate; try congruence.
  - apply flt_iff; auto.
  - apply flt_iff; auto.
Qed.
Lemma bool_same (a b : bool) : (a = true <-> b = true) -> a = b.
Proof. destruct a, b; intros [H1 H2]; auto. symmetry. auto. Qed.
(** a strictly monotone map keeps every comparison *)
Lemma cmp_same o a b c d : (a < b -> c < d) -> (b < a -> d < c) -> (a = b -> c = d) -> cmpR o c d <-> cmpR o a b.
Proof. intros H1 H2 H3. destruct (Rtotal_order a b) as [H|[H|H]]; [apply H1 in H as H'|apply H3 in H as H'|apply H2 in H as H']; destruct o; simpl; split; intro; lra. Qed.

(** ** C106: integers *)
Lemma cmpZ_iff o v w : cmpZ o v w = true <-> cmpR o (IZR v) (IZR w).
Proof.
  destruct o; simpl.
  - rewrite Z.eqb_eq. split; [intros ->; auto|apply eq_IZR].
  - rewrite negb_true_iff, Z.eqb_neq. split; intros H Q; apply H; [apply eq_IZR; auto|subst; auto].
  - rewrite Z.ltb_lt. split; [apply IZR_lt|apply lt_IZR].
  - rewrite Z.ltb_lt. split; [apply IZR_lt|apply lt_IZR].
Qed.
Theorem C106_int o lo hi v c : range_ok 49 lo hi -> (lo <= v <= hi)%Z -> (lo <= c <= hi)%Z ->
  int_test_vector o lo hi (int_to_vector lo hi v) c = int_test_value o v c.
Proof.
  intros R V C. assert (R' : range_ok 52 lo hi) by (destruct R as (R1 & R2 & R3); repeat split; lia).
  assert (Iv := int_entry lo hi v R' V). assert (Ic := int_entry lo hi c R' C). apply bool_same. unfold int_test_vector, int_test_value.
  rewrite (cmpF_iff _ _ _ _ _ Iv Ic), cmpZ_iff.
  assert (M : forall x y, (lo <= x <= hi)%Z -> (lo <= y <= hi)%Z -> IZR x < IZR y -> rnd (IZR (x - lo) / IZR (hi - lo)) < rnd (IZR (y - lo) / IZR (hi - lo))).
  { intros x y X Y H. apply lt_IZR in H. assert (Ix := int_entry lo hi x R' X). assert (Iy := int_entry lo hi y R' Y).
    assert (Le := C98_monotone lo hi x y R' X Y ltac:(lia)). rewrite (fle_iff _ _ _ _ Ix Iy) in Le. destruct Le as [|Q]; auto.
    rewrite <- (feq_iff _ _ _ _ Ix Iy) in Q. apply C98_injective in Q; auto. lia. }
  apply cmp_same; auto. intro H. apply eq_IZR in H. subst. auto.
Qed.
Theorem C106_int_in lo hi v cs : range_ok 49 lo hi -> (lo <= v <= hi)%Z -> Forall (fun c => (lo <= c <= hi)%Z) cs ->
  int_in_vector lo hi (int_to_vector lo hi v) cs = int_in_value v cs.
Proof.
  intros R V C. unfold int_in_vector, int_in_value. induction C as [|c cs H C IH]; [reflexivity|]. simpl. rewrite IH. f_equal. exact (C106_int CEq lo hi v c R V H).
Qed.
Section Log.
  Context {L : Libm}.
  Hypotheses (HL : accurate flog ln log_dom) (HE : accurate FloatLog.fexp exp exp_dom).
  Theorem C106_log_int o lo hi v c : log_range lo hi -> (lo <= v <= hi)%Z -> (lo <= c <= hi)%Z ->
    log_int_test_vector o lo hi (log_to_vector (of_Z lo) (of_Z hi) (of_Z v)) c = int_test_value o v c.
  Proof.
    intros R V C. assert (I : forall x, (lo <= x <= hi)%Z -> exists r, is (log_to_vector (of_Z lo) (of_Z hi) (of_Z x)) r).
    { intros x X. destruct (C104_unit HL lo hi x x R X ltac:(lia)) as (U & _). destruct (unit_finite _ U) as (r & Hr & _). eauto. }
    destruct (I v V) as (r & Ir). destruct (I c C) as (s & Is). apply bool_same. unfold log_int_test_vector, int_test_value.
    rewrite (cmpF_iff _ _ _ _ _ Ir Is), cmpZ_iff.
    assert (M : forall x y a b, (lo <= x <= hi)%Z -> (lo <= y <= hi)%Z -> is (log_to_vector (of_Z lo) (of_Z hi) (of_Z x)) a -> is (log_to_vector (of_Z lo) (of_Z hi) (of_Z y)) b -> IZR x < IZR y -> a < b).
    { intros x y a b X Y A B H. apply lt_IZR in H. destruct (C104_unit HL lo hi x y R X ltac:(lia)) as (_ & Le & _).
      apply (fle_iff _ _ _ _ A B) in Le. destruct Le as [|Q]; auto. exfalso. destruct (C104_values HL HE lo hi x R X) as [D1 _].
      destruct (log_decode HL HE lo hi y (log_to_vector (of_Z lo) (of_Z hi) (of_Z x)) R Y) as [D2 _].
      - intros t T. assert (t = b) as -> by (destruct T, B; congruence). rewrite <- Q. exact A.
      - assert (x = y) by congruence. lia. }
    apply cmp_same; [eauto|eauto|]. intro H. apply eq_IZR in H. subst c. destruct Ir, Is. congruence.
  Qed.
End Log.

(** ** C106: floats *)
(** whatever the bounds: equal values have equal entries, and what is less by entries is less by values *)
Theorem C106_float_order a b lo hi v c : bounds a b lo hi -> float_legal lo hi v = true -> float_legal lo hi c = true ->
  let x := float_to_vector lo hi v in
  (float_test_value CEq v c = true -> float_test_vector CEq lo hi x c = true) /\
  (float_test_vector CLt lo hi x c = true -> float_test_value CLt v c = true) /\
  (float_test_vector CGt lo hi x c = true -> float_test_value CGt v c = true).
Proof.
  intros B V C x. destruct (bounds_range _ _ _ _ B) as (p & q & Rg & _). assert (E : (0 <= 971 <= 975)%Z) by lia.
  destruct (between_finite _ _ _ _ _ (r_lo _ _ _ _ _ Rg) (r_hi _ _ _ _ _ Rg) V) as (r & Vr & Br).
  destruct (between_finite _ _ _ _ _ (r_lo _ _ _ _ _ Rg) (r_hi _ _ _ _ _ Rg) C) as (s & Cs & Bs).
  assert (X := entry_is _ _ _ _ _ Rg E v r Vr Br). assert (Y := entry_is _ _ _ _ _ Rg E c s Cs Bs). fold x in X.
  unfold float_test_vector, float_test_value. rewrite !(cmpF_iff _ _ _ _ _ Vr Cs), !(cmpF_iff _ _ _ _ _ X Y). simpl.
  split; [intros ->; auto|]. split; intro H.
  - destruct (Rlt_le_dec r s) as [|G]; auto. apply (entry_le _ _ _ _ _ Rg E) in G. lra.
  - destruct (Rlt_le_dec s r) as [|G]; auto. apply (entry_le _ _ _ _ _ Rg E) in G. lra.
Qed.
Lemma range64 a b lo hi : within64 a -> within64 b -> bounds a b lo hi -> exists p q, range 6 lo hi p q /\ round13 p = p /\ round13 q = q.
Proof.
  intros Wa Wb B. destruct (bounds_range _ _ _ _ B) as (p & q & [R1 R2 R3 _ _] & P & Q). exists p, q. split; [|auto]. destruct B as (_ & _ & -> & -> & _).
  assert (G : forall x t, within64 x -> is (fround13 x) t -> Rabs t <= pw 6).
  { intros x t X I. apply within64_is in X. destruct X as (r & X & Br). destruct (fround13_is _ _ 6 X ltac:(lia) Br) as [I' _].
    assert (t = round13 r) as -> by (destruct I, I'; congruence). change (pw 6) with 64 in *. apply Rabs_le_inv in Br. destruct Br as [Lo Hi].
    apply round13_le in Lo, Hi. rewrite round13_opp, round13_64 in Lo. rewrite round13_64 in Hi. apply Rabs_le. lra. }
  constructor; eauto.
Qed.
(** different numbers with 13 decimals up to 64 have a distance *)
Lemma decimals64 r : Rabs r <= 64 -> round13 r = r -> exists n, r = rnd (IZR n / T) /\ Rabs (r - IZR n / T) <= / IZR (2 ^ 47).
Proof.
  intros B F. exists (ZnearestE (rnd (r * T))). set (n := ZnearestE (rnd (r * T))). assert (G : r = rnd (IZR n / T)) by (rewrite <- F at 1; reflexivity). split; [auto|].
  apply Rabs_le_inv in B. assert (U : Rabs (IZR n / T) <= 128).
  { apply Rabs_le. split.
    - destruct (Rle_lt_dec (-128) (IZR n / T)) as [|H]; auto. assert (H' : IZR n / T <= -128) by lra. apply rnd_le in H'. rewrite (rnd_fmt (-128)) in H' by (apply (fmt_IZR (-128)); lia). lra.
    - destruct (Rle_lt_dec (IZR n / T) 128) as [|H]; auto. assert (H' : 128 <= IZR n / T) by lra. apply rnd_le in H'. rewrite (rnd_fmt 128) in H' by (apply (fmt_IZR 128); lia). lra. }
  rewrite G. change (/ IZR (2 ^ 47)) with (pw (7 - 54)). apply err_le; [lia|]. exact U.
Qed.
Lemma apart64 r s : Rabs r <= 64 -> Rabs s <= 64 -> round13 r = r -> round13 s = s -> r < s -> r + 8 / IZR (10 ^ 14) <= s.
Proof.
  intros Br Bs Fr Fs Lt. destruct (decimals64 r Br Fr) as (m & Em & Dm). destruct (decimals64 s Bs Fs) as (n & En & Dn).
  assert (MN : (m + 1 <= n)%Z).
  { destruct (Z_le_gt_dec (m + 1) n) as [|X]; auto. assert (s <= r); [|lra]. rewrite Em, En. apply rnd_le. apply Rmult_le_compat_r; [left; apply Rinv_0_lt_compat, T_pos|apply IZR_le; lia]. }
  apply IZR_le in MN. rewrite plus_IZR in MN. simpl Z.pow in *. apply Rabs_le_inv in Dm, Dn. lra.
Qed.
(** the way into the vector and back of a stored value *)
Lemma trip64 a b lo hi v : within64 a -> within64 b -> bounds a b lo hi -> float_legal lo hi v = true ->
  exists r x s, is (float_stored v) r /\ is (float_to_vector lo hi (float_stored v)) x /\ is (float_to_value lo hi (float_to_vector lo hi (float_stored v))) s /\
    Rabs r <= 64 /\ round13 r = r /\ Rabs (s - r) <= 5 / IZR (2 ^ 47) /\ round13 s = r.
Proof.
  intros Wa Wb B V. destruct (range64 _ _ _ _ Wa Wb B) as (p & q & Rg & P & Q). assert (E : (0 <= 6 <= 975)%Z) by lia.
  destruct (legal_round _ _ _ _ _ _ Rg E P Q V) as (r & Vr & F & G & A). exists (round13 r), (entry p q (round13 r)), (value p q (entry p q (round13 r))).
  assert (X := entry_is _ _ _ _ _ Rg E _ _ F G). assert (S := value_is _ _ _ _ _ Rg E _ _ X (entry_bound _ _ _ _ _ Rg E _ G)). split; [auto|]. split; [auto|]. split; [auto|].
  split; [exact A|]. split; [apply round13_twice; exact (is_fmt _ _ Vr)|]. assert (T := trip_error _ _ _ _ _ Rg E _ G). split; [exact T|].
  assert (C := C103_values_partial a b lo hi v Wa Wb B V). unfold float_read in C.
  destruct (fround13_is _ _ 7 S ltac:(lia)) as [D _].
  - change (pw 7) with 128. change (pw 6) with 64 in A. change (pw (6 - 53)) with (/ IZR (2 ^ 47)) in T. simpl Z.pow in T. revert A T. unfold Rabs. repeat destruct Rcase_abs; lra.
  - rewrite (feq_iff _ _ _ _ D F) in C. exact C.
Qed.
(** up to 64, with the value of the condition given with 13 decimals, all tests agree *)
Theorem C106_float_partial o a b lo hi v c : within64 a -> within64 b -> bounds a b lo hi -> float_legal lo hi v = true -> float_legal lo hi c = true ->
  feq (float_stored c) c = true ->
  float_test_vector o lo hi (float_to_vector lo hi (float_stored v)) c = float_test_value o (float_stored v) c.
Proof.
  intros Wa Wb B V C S. destruct (range64 _ _ _ _ Wa Wb B) as (p & q & Rg & P & Q). assert (E : (0 <= 6 <= 975)%Z) by lia.
  destruct (legal_round _ _ _ _ _ _ Rg E P Q V) as (r & Vr & F & G & A). destruct (legal_round _ _ _ _ _ _ Rg E P Q C) as (s & Cs & F' & G' & A').
  unfold float_stored in *. apply (feq_iff _ _ _ _ F' Cs) in S. assert (G2 := G'). rewrite S in G'.
  assert (X := entry_is _ _ _ _ _ Rg E _ _ F G). assert (Y := entry_is _ _ _ _ _ Rg E _ _ Cs G').
  apply bool_same. unfold float_test_vector, float_test_value. rewrite (cmpF_iff _ _ _ _ _ X Y), (cmpF_iff _ _ _ _ _ F Cs).
  assert (I : entry p q (round13 r) = entry p q s -> round13 r = s).
  { intro H. destruct (trip64 _ _ _ _ v Wa Wb B V) as (r1 & x1 & s1 & I1 & X1 & S1 & _ & _ & _ & E1). destruct (trip64 _ _ _ _ c Wa Wb B C) as (r2 & x2 & s2 & I2 & X2 & S2 & _ & _ & _ & E2).
    unfold float_stored in *. assert (r1 = round13 r) as -> by (destruct I1, F; congruence). assert (r2 = s) as -> by (destruct I2, F'; congruence).
    assert (Y' := entry_is _ _ _ _ _ Rg E _ _ F' G2). assert (V1 := value_is _ _ _ _ _ Rg E _ _ X (entry_bound _ _ _ _ _ Rg E _ G)).
    assert (V2 := value_is _ _ _ _ _ Rg E _ _ Y' (entry_bound _ _ _ _ _ Rg E _ G2)). rewrite S in V2. rewrite <- H in V2.
    assert (s1 = s2) by (destruct V1, V2, S1, S2; congruence). congruence. }
  apply cmp_same; [| |intros ->; reflexivity].
  - intro H. assert (Le := entry_le _ _ _ _ _ Rg E _ _ (Rlt_le _ _ H)). destruct Le as [|Eq]; auto. apply I in Eq. lra.
  - intro H. assert (Le := entry_le _ _ _ _ _ Rg E _ _ (Rlt_le _ _ H)). destruct Le as [|Eq]; auto. symmetry in Eq. apply I in Eq. lra.
Qed.
Theorem C106_float_in_partial a b lo hi v cs : within64 a -> within64 b -> bounds a b lo hi -> float_legal lo hi v = true ->
  Forall (fun c => float_legal lo hi c = true /\ feq (float_stored c) c = true) cs ->
  float_in_vector lo hi (float_to_vector lo hi (float_stored v)) cs = float_in_value (float_stored v) cs.
Proof.
  intros Wa Wb B V C. unfold float_in_vector, float_in_value. induction C as [|c cs [H1 H2] C IH]; [reflexivity|]. simpl. rewrite IH. f_equal. exact (C106_float_partial CEq a b lo hi v c Wa Wb B V H1 H2).
Qed.
(** on [0, 1000] the condition "greater than 510.0291812470384" holds of the stored value 510.0291812470385 but not of its entry *)
Theorem C106_refuted : exists a b lo hi v c, bounds a b lo hi /\ float_legal lo hi v = true /\ float_legal lo hi c = true /\
  feq (float_stored v) v = true /\ feq (float_stored c) c = true /\
  float_test_value CGt v c = true /\ float_test_vector CGt lo hi (float_to_vector lo hi v) c = false /\
  float_test_value CEq v c = false /\ float_test_vector CEq lo hi (float_to_vector lo hi v) c = true.
Proof.
  exists f0, (of_Z 1000), (fround13 f0), (fround13 (of_Z 1000)), (fdiv (of_Z 5100291812470385) (of_Z 10000000000000)), (fdiv (of_Z 5100291812470384) (of_Z 10000000000000)).
  split; [repeat split; vm_compute; reflexivity|]. repeat split; vm_compute; reflexivity.
Qed.
(** a condition may name a value that no configuration has: "equal to 1/3" does not hold when 1/3 is assigned *)
Theorem C106_named_refuted : exists a b lo hi c, within64 a /\ within64 b /\ bounds a b lo hi /\ float_legal lo hi c = true /\
  float_test_value CEq (float_stored c) c = false /\ float_test_vector CEq lo hi (float_to_vector lo hi (float_stored c)) c = false.
Proof.
  exists f0, f1, (fround13 f0), (fround13 f1), (fdiv f1 (of_Z 3)). repeat split; vm_compute; reflexivity.
Qed.

(** ** C107: relations *)
Theorem C107_int o lo hi lo' hi' v w : range_ok 49 lo hi -> range_ok 49 lo' hi' -> (lo <= v <= hi)%Z -> (lo' <= w <= hi')%Z ->
  int_relation_vector o lo hi lo' hi' (int_to_vector lo hi v) (int_to_vector lo' hi' w) = Ok (int_relation_value o v w).
Proof. intros R R' V W. unfold int_relation_vector. rewrite (C98_values lo hi v R V), (C98_values lo' hi' w R' W). reflexivity. Qed.
(** up to 64, values that differ are compared alike *)
Theorem C107_differ_partial o a b lo hi a' b' lo' hi' v w : within64 a -> within64 b -> bounds a b lo hi -> within64 a' -> within64 b' -> bounds a' b' lo' hi' ->
  float_legal lo hi v = true -> float_legal lo' hi' w = true -> feq (float_stored v) (float_stored w) = false ->
  float_relation_vector o lo hi lo' hi' (float_to_vector lo hi (float_stored v)) (float_to_vector lo' hi' (float_stored w)) = float_relation_value o (float_stored v) (float_stored w).
Proof.
  intros Wa Wb B Wa' Wb' B' V W N. destruct (trip64 _ _ _ _ v Wa Wb B V) as (r & x & s & Ir & Ix & Is & Br & Fr & Es & _).
  destruct (trip64 _ _ _ _ w Wa' Wb' B' W) as (r' & x' & s' & Ir' & Ix' & Is' & Br' & Fr' & Es' & _).
  apply bool_same. unfold float_relation_vector, float_relation_value. rewrite (cmpF_iff _ _ _ _ _ Is Is'), (cmpF_iff _ _ _ _ _ Ir Ir').
  assert (Ne : r <> r') by (intro H; apply (feq_iff _ _ _ _ Ir Ir') in H; congruence). simpl Z.pow in *. apply Rabs_le_inv in Es, Es'.
  apply cmp_same; [| |contradiction].
  - intro H. assert (G := apart64 r r' Br Br' Fr Fr' H). simpl Z.pow in G. lra.
  - intro H. assert (G := apart64 r' r Br' Br Fr' Fr H). simpl Z.pow in G. lra.
Qed.
(** with the same bounds all values are *)
Theorem C107_same_partial o a b lo hi v w : within64 a -> within64 b -> bounds a b lo hi -> float_legal lo hi v = true -> float_legal lo hi w = true ->
  float_relation_vector o lo hi lo hi (float_to_vector lo hi (float_stored v)) (float_to_vector lo hi (float_stored w)) = float_relation_value o (float_stored v) (float_stored w).
Proof.
  intros Wa Wb B V W. destruct (feq (float_stored v) (float_stored w)) eqn:N; [|apply (C107_differ_partial o a b lo hi a b lo hi); auto].
  destruct (range64 _ _ _ _ Wa Wb B) as (p & q & Rg & P & Q). assert (E : (0 <= 6 <= 975)%Z) by lia.
  destruct (legal_round _ _ _ _ _ _ Rg E P Q V) as (r & Vr & F & G & A). destruct (legal_round _ _ _ _ _ _ Rg E P Q W) as (s & Ws & F' & G' & A'). unfold float_stored in *.
  apply (feq_iff _ _ _ _ F F') in N. assert (X := entry_is _ _ _ _ _ Rg E _ _ F G). assert (Y := entry_is _ _ _ _ _ Rg E _ _ F' G').
  assert (X' := value_is _ _ _ _ _ Rg E _ _ X (entry_bound _ _ _ _ _ Rg E _ G)). assert (Y' := value_is _ _ _ _ _ Rg E _ _ Y (entry_bound _ _ _ _ _ Rg E _ G')).
  apply bool_same. unfold float_relation_vector, float_relation_value. rewrite (cmpF_iff _ _ _ _ _ X' Y'), (cmpF_iff _ _ _ _ _ F F'). rewrite N. destruct o; simpl; split; intro H; auto; lra || congruence.
Qed.
(** x in [0, 1] and y in [-5, 5], both 0.3: the values are equal, the vector says x < y *)
Theorem C107_refuted : exists a b lo hi a' b' lo' hi' v, within64 a /\ within64 b /\ bounds a b lo hi /\ within64 a' /\ within64 b' /\ bounds a' b' lo' hi' /\
  float_legal lo hi v = true /\ float_legal lo' hi' v = true /\ feq (float_stored v) v = true /\
  float_relation_value CEq v v = true /\ float_relation_vector CEq lo hi lo' hi' (float_to_vector lo hi v) (float_to_vector lo' hi' v) = false /\
  float_relation_value CLt v v = false /\ float_relation_vector CLt lo hi lo' hi' (float_to_vector lo hi v) (float_to_vector lo' hi' v) = true.
Proof.
  exists f0, f1, (fround13 f0), (fround13 f1), (of_Z (-5)), (of_Z 5), (fround13 (of_Z (-5))), (fround13 (of_Z 5)), (fdiv (of_Z 3) (of_Z 10)).
  repeat split; vm_compute; reflexivity.
Qed.

(** *** an integer and a float *)
Lemma round13_IZR v : (Z.abs v <= 64)%Z -> round13 (IZR v) = IZR v.
Proof.
  intro H. unfold round13. change T with (IZR (10 ^ 13)). rewrite <- mult_IZR. rewrite to_int_IZR by (apply fmt_IZR; lia).
  replace (IZR (v * 10 ^ 13) / IZR (10 ^ 13)) with (IZR v) by (rewrite mult_IZR; field; apply not_0_IZR; lia). apply rnd_fmt. apply fmt_IZR. lia.
Qed.
(** an integer and a stored value that differ are compared alike, whatever the size of the integer *)
Theorem C107_mixed_partial o lo hi a b lo' hi' v w : range_ok 49 lo hi -> (lo <= v <= hi)%Z -> within64 a -> within64 b -> bounds a b lo' hi' ->
  float_legal lo' hi' w = true -> feq (of_Z v) (float_stored w) = false ->
  mixed_relation_vector o lo hi lo' hi' (int_to_vector lo hi v) (float_to_vector lo' hi' (float_stored w)) = Ok (mixed_relation_value o v (float_stored w)).
Proof.
  intros R V Wa Wb B W N. unfold mixed_relation_vector, mixed_relation_value. rewrite (C98_values lo hi v R V). simpl. f_equal.
  destruct (trip64 _ _ _ _ w Wa Wb B W) as (r & x & s & Ir & Ix & Is & Br & Fr & Es & _).
  assert (Iv : is (of_Z v) (IZR v)). { apply of_Z_is. destruct R as (_ & R1 & R2). lia. }
  apply bool_same. rewrite (cmpF_iff _ _ _ _ _ Iv Is), (cmpF_iff _ _ _ _ _ Iv Ir).
  assert (Ne : IZR v <> r) by (intro H; apply (feq_iff _ _ _ _ Iv Ir) in H; congruence). simpl Z.pow in *. apply Rabs_le_inv in Es. assert (Br' := Rabs_le_inv _ _ Br).
  destruct (Z_le_gt_dec (Z.abs v) 64) as [S|S].
  - assert (Bv : Rabs (IZR v) <= 64) by (rewrite <- abs_IZR; apply IZR_le; exact S). assert (Fv := round13_IZR v S).
    apply cmp_same; [| |contradiction].
    + intro H. assert (G := apart64 _ _ Bv Br Fv Fr H). simpl Z.pow in G. lra.
    + intro H. assert (G := apart64 _ _ Br Bv Fr Fv H). simpl Z.pow in G. lra.
  - assert (D : IZR v <= -65 \/ 65 <= IZR v). { destruct (Z_le_gt_dec v (-65)) as [Q|Q]; [left|right]; apply IZR_le; lia. }
    apply cmp_same; [| |contradiction]; intro H; lra.
Qed.
(** n in 0..10 and y in [0, 49], both 1: the values are equal, the vector says n > y *)
Theorem C107_mixed_refuted : exists lo hi a b lo' hi' v w, range_ok 49 lo hi /\ (lo <= v <= hi)%Z /\ within64 a /\ within64 b /\ bounds a b lo' hi' /\
  float_legal lo' hi' w = true /\ feq (float_stored w) w = true /\
  mixed_relation_value CEq v w = true /\ mixed_relation_vector CEq lo hi lo' hi' (int_to_vector lo hi v) (float_to_vector lo' hi' w) = Ok false /\
  mixed_relation_value CGt v w = false /\ mixed_relation_vector CGt lo hi lo' hi' (int_to_vector lo hi v) (float_to_vector lo' hi' w) = Ok true.
Proof.
  exists 0%Z, 10%Z, f0, (of_Z 49), (fround13 f0), (fround13 (of_Z 49)), 1%Z, f1.
  split; [unfold range_ok; lia|]. split; [lia|]. repeat split; vm_compute; reflexivity.
Qed.

(** ** Cases *)
Example int_test_case : int_test_vector CLt (-3) 7 (int_to_vector (-3) 7 2) 3 = true /\ int_test_value CLt 2 3 = true.
Proof. split; vm_compute; reflexivity. Qed.
Example float_test_case : let lo := fround13 f0 in let hi := fround13 (of_Z 10) in let v := fdiv f1 (of_Z 3) in let c := fdiv (of_Z 5) (of_Z 2) in
  within64 f0 /\ within64 (of_Z 10) /\ bounds f0 (of_Z 10) lo hi /\ float_legal lo hi v = true /\ float_legal lo hi c = true /\ feq (float_stored c) c = true /\
  float_test_value CLt (float_stored v) c = true.
Proof. repeat split; vm_compute; reflexivity. Qed.
Example relation_case : let v := fdiv f1 (of_Z 3) in let w := fdiv f1 (of_Z 4) in
  float_legal (fround13 f0) (fround13 f1) v = true /\ float_legal (fround13 (of_Z (-5))) (fround13 (of_Z 5)) w = true /\
  feq (float_stored v) (float_stored w) = false /\ float_relation_value CGt (float_stored v) (float_stored w) = true.
Proof. repeat split; vm_compute; reflexivity. Qed.
Example mixed_case : let w := fdiv (of_Z 5) (of_Z 2) in range_ok 49 0 1000 /\ within64 f0 /\ within64 (of_Z 49) /\ bounds f0 (of_Z 49) (fround13 f0) (fround13 (of_Z 49)) /\
  float_legal (fround13 f0) (fround13 (of_Z 49)) w = true /\ feq (of_Z 3) (float_stored w) = false /\ feq (of_Z 700) (float_stored w) = false /\
  mixed_relation_value CGt 3 (float_stored w) = true /\ mixed_relation_value CLt 700 (float_stored w) = false.
Proof. split; [unfold range_ok; lia|]. repeat split; vm_compute; reflexivity. Qed.
