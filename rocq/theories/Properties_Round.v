(** * C99, C102, C103: float hyperparameters without log in float64 *)
From Coq Require Import ZArith Reals Lra Lia Bool List.
From Flocq Require Import Core IEEE754.BinarySingleNaN Relative Plus_error.
From Verif Require Import Base Numeric Float FloatProofs FloatRound.
Import ListNotations.
Open Scope R_scope.

(** a finite float of at most 2^970 in absolute value *)
Definition moderate (x : f64) : Prop := fle (fabs x) (of_Z (2 ^ 970)) = true.
(** the bounds of a float hyperparameter given the bounds [a], [b]: uniform_float.py:93-94, normal_float.py:105-106, beta_float.py:113-114 *)
Definition bounds (a b lo hi : f64) : Prop := moderate a /\ moderate b /\ lo = fround13 a /\ hi = fround13 b /\ flt lo hi = true.

Lemma pow970 : is (of_Z (2 ^ 970)) (pw 970).
Proof.
  assert (H := of_Z_rnd (2 ^ 970)). change (IZR (2 ^ 970)) with (pw 970) in H. rewrite (rnd_fmt (pw 970)) in H by (apply fmt_pw; lia). apply H.
  rewrite Z.abs_eq by (apply Z.pow_nonneg; lia). apply Z.pow_le_mono_r; lia.
Qed.
Lemma fle_finite x y r : is y r -> fle (fabs x) y = true -> exists a, is x a /\ Rabs a <= r.
Proof.
  intros Y H. assert (F : is_finite x = true).
  { destruct x as [s|s| |s m e]; auto; try discriminate. destruct Y as [Y _]. destruct y as [[|]|[|]| |[|] ? ?]; discriminate. }
  exists (B2R x). split; [apply is_R; auto|]. apply (fle_iff _ _ _ _ (fabs_is _ _ (is_R _ F)) Y). exact H.
Qed.
Lemma moderate_is x : moderate x -> exists r, is x r /\ Rabs r <= pw 970.
Proof. apply fle_finite, pow970. Qed.
Lemma between_finite lo v hi a b : is lo a -> is hi b -> float_legal lo hi v = true -> exists r, is v r /\ a <= r <= b.
Proof.
  intros A B H. unfold float_legal in H. apply andb_true_iff in H. destruct H as [H1 H2].
  assert (F : is_finite v = true).
  { destruct v as [s|[|]| |s m e]; auto; destruct A as [A _], B as [B _]; destruct lo as [?|[|]| |[|] ? ?]; try discriminate; destruct hi as [?|[|]| |[|] ? ?]; discriminate. }
  exists (B2R v). split; [apply is_R; auto|]. apply is_R in F. rewrite (fle_iff _ _ _ _ A F) in H1. rewrite (fle_iff _ _ _ _ F B) in H2. auto.
Qed.
Lemma legal_true lo v hi a r b : is lo a -> is v r -> is hi b -> a <= r <= b -> float_legal lo hi v = true.
Proof. intros A V B H. unfold float_legal. apply andb_true_iff. rewrite (fle_iff _ _ _ _ A V), (fle_iff _ _ _ _ V B). exact H. Qed.

(** what the bounds are *)
Record range (e : Z) (lo hi : f64) (a b : R) : Prop := { r_lo : is lo a; r_hi : is hi b; r_lt : a < b; r_a : Rabs a <= pw e; r_b : Rabs b <= pw e }.
Lemma bounds_range a b lo hi : bounds a b lo hi -> exists p q, range 971 lo hi p q /\ round13 p = p /\ round13 q = q.
Proof.
  intros (A & B & -> & -> & L). apply moderate_is in A, B. destruct A as (r & A & Ar). destruct B as (s & B & Bs).
  assert (A' := is_fmt _ _ A). assert (B' := is_fmt _ _ B).
  destruct (fround13_is _ _ 970 A ltac:(lia) Ar) as [A1 A2]. destruct (fround13_is _ _ 970 B ltac:(lia) Bs) as [B1 B2].
  exists (round13 r), (round13 s). split; [|split; apply round13_twice; auto]. constructor; auto.
  rewrite (flt_is _ _ _ _ A1 B1) in L. destruct (Rlt_bool_spec (round13 r) (round13 s)); [auto|discriminate].
Qed.

(** ** C102: rounding to 13 decimals *)
Theorem C102_once x : moderate x -> feq (fround13 (fround13 x)) (fround13 x) = true.
Proof.
  intro M. apply moderate_is in M. destruct M as (r & X & B). destruct (fround13_is _ _ 970 X ltac:(lia) B) as [A1 A2].
  destruct (fround13_is _ _ 971 A1 ltac:(lia) A2) as [C1 C2]. rewrite (feq_iff _ _ _ _ C1 A1). apply round13_twice. exact (is_fmt _ _ X).
Qed.
Lemma legal_round e lo hi a b v : range e lo hi a b -> (0 <= e <= 975)%Z -> round13 a = a -> round13 b = b -> float_legal lo hi v = true ->
  exists r, is v r /\ is (fround13 v) (round13 r) /\ a <= round13 r <= b /\ Rabs (round13 r) <= pw e.
Proof.
  intros R E A B V. destruct (between_finite _ _ _ _ _ (r_lo _ _ _ _ _ R) (r_hi _ _ _ _ _ R) V) as (r & Vr & Br).
  assert (Q : Rabs r <= pw e) by (assert (Ra := r_a _ _ _ _ _ R); assert (Rb := r_b _ _ _ _ _ R); revert Ra Rb; unfold Rabs; repeat destruct Rcase_abs; lra).
  destruct (fround13_is _ _ e Vr ltac:(lia) Q) as [F _]. exists r. split; [auto|]. split; [auto|].
  assert (G : a <= round13 r <= b) by (destruct Br as [L H]; apply round13_le in L, H; lra). split; auto.
  assert (Ra := r_a _ _ _ _ _ R); assert (Rb := r_b _ _ _ _ _ R); revert Ra Rb; unfold Rabs; repeat destruct Rcase_abs; lra.
Qed.
(** a legal value is legal as it is stored *)
Theorem C102_stored a b lo hi v : bounds a b lo hi -> float_legal lo hi v = true -> float_legal lo hi (float_stored v) = true.
Proof.
  intros B V. destruct (bounds_range _ _ _ _ B) as (p & q & R & P & Q).
  destruct (legal_round _ _ _ _ _ _ R ltac:(lia) P Q V) as (r & _ & F & G & _).
  exact (legal_true _ _ _ _ _ _ (r_lo _ _ _ _ _ R) F (r_hi _ _ _ _ _ R) G).
Qed.

(** ** C99: entries and values of floats *)
Section Range.
  Variables (e : Z) (lo hi : f64) (a b : R).
  Hypotheses (Rg : range e lo hi a b) (E : (0 <= e <= 975)%Z).
  Let d := rnd (b - a).
  Lemma a_lt_b : a < b.
  Proof. apply (r_lt _ _ _ _ _ Rg). Qed.
  Lemma size_bound : Rabs (b - a) <= pw (e + 1).
  Proof.
    rewrite bpow_plus. change (pw 1) with 2. assert (Ra := r_a _ _ _ _ _ Rg); assert (Rb := r_b _ _ _ _ _ Rg); revert Ra Rb; unfold Rabs; repeat destruct Rcase_abs; lra.
  Qed.
  Lemma d_is : is (fsub hi lo) d.
  Proof. apply (fsub_is _ _ _ _ (e + 1)); [apply (r_hi _ _ _ _ _ Rg)|apply (r_lo _ _ _ _ _ Rg)|lia|apply size_bound]. Qed.
  Lemma d_pos : 0 < d <= pw (e + 1).
  Proof.
    assert (L := a_lt_b). split.
    - assert (N : d <> 0).
      { unfold d, Rminus. apply round_plus_neq_0; auto with typeclass_instances; [exact (is_fmt _ _ (r_hi _ _ _ _ _ Rg))| |lra].
        apply generic_format_opp. exact (is_fmt _ _ (r_lo _ _ _ _ _ Rg)). }
      assert (0 <= d) by (rewrite <- (rnd_fmt 0) by apply generic_format_0; apply rnd_le; lra). lra.
    - assert (S := rnd_bound _ (e + 1) ltac:(lia) size_bound). fold d in S. revert S. unfold Rabs. destruct Rcase_abs; lra.
  Qed.
  Definition entry (v : R) : R := rnd (rnd (v - a) / d).
  Lemma num_bound v : a <= v <= b -> 0 <= rnd (v - a) <= d.
  Proof.
    intro V. split; [rewrite <- (rnd_fmt 0) by apply generic_format_0; apply rnd_le; lra|]. apply rnd_le. lra.
  Qed.
  Lemma quot_bound v : a <= v <= b -> 0 <= rnd (v - a) / d <= 1.
  Proof.
    intro V. assert (N := num_bound v V). assert (D := d_pos). split; [apply Rmult_le_pos; [lra|left; apply Rinv_0_lt_compat; lra]|].
    apply Rmult_le_reg_r with d; [lra|]. unfold Rdiv. rewrite Rmult_assoc, Rinv_l by lra. lra.
  Qed.
  Lemma entry_bound v : a <= v <= b -> 0 <= entry v <= 1.
  Proof.
    intro V. destruct (quot_bound v V) as [L H]. apply rnd_le in L, H. rewrite (rnd_fmt 0) in L by apply generic_format_0.
    rewrite (rnd_fmt 1) in H by (apply (fmt_IZR 1); lia). split; auto.
  Qed.
  Lemma entry_le v w : v <= w -> entry v <= entry w.
  Proof. intro H. apply rnd_le. apply Rmult_le_compat_r; [left; apply Rinv_0_lt_compat, d_pos|]. apply rnd_le. lra. Qed.
  Lemma entry_lo : entry a = 0.
  Proof. unfold entry. replace (a - a) with 0 by ring. rewrite round_0 by auto with typeclass_instances. unfold Rdiv. rewrite Rmult_0_l. apply round_0; auto with typeclass_instances. Qed.
  Lemma entry_hi : entry b = 1.
  Proof. unfold entry. fold d. assert (D := d_pos). replace (d / d) with 1 by (field; lra). apply rnd_fmt. apply (fmt_IZR 1). lia. Qed.
  Lemma entry_is v r : is v r -> a <= r <= b -> is (float_to_vector lo hi v) (entry r).
  Proof.
    intros V B. unfold float_to_vector, fnormalize. destruct (feq lo f0 && feq hi f1)%bool eqn:U.
    - apply andb_true_iff in U. destruct U as [U1 U2]. apply (feq_iff _ _ _ _ (r_lo _ _ _ _ _ Rg) f0_is) in U1. apply (feq_iff _ _ _ _ (r_hi _ _ _ _ _ Rg) f1_is) in U2.
      assert (Q : entry r = r); [|rewrite Q; auto]. unfold entry, d. rewrite U1, U2. rewrite !Rminus_0_r. rewrite (rnd_fmt 1) by (apply (fmt_IZR 1); lia).
      assert (F := is_fmt _ _ V). rewrite (rnd_fmt r F). unfold Rdiv. rewrite Rinv_1, Rmult_1_r. apply rnd_fmt; auto.
    - assert (D := d_pos). apply (fdiv_is _ _ _ _ 0); [|apply d_is|lra|lia|rewrite Rabs_pos_eq; apply quot_bound; auto].
      apply (fsub_is _ _ _ _ (e + 1)); [auto|apply (r_lo _ _ _ _ _ Rg)|lia|]. eapply Rle_trans; [|apply size_bound]. rewrite !Rabs_pos_eq; lra.
  Qed.
  (** decoding *)
  Definition value (x : R) : R := Rmin (Rmax (rnd (rnd (x * d) + a)) a) b.
  Lemma prod_bound x : 0 <= x <= 1 -> 0 <= x * d <= d.
  Proof. intro X. assert (D := d_pos). split; [apply Rmult_le_pos; lra|]. rewrite <- (Rmult_1_l d) at 2. apply Rmult_le_compat_r; lra. Qed.
  Lemma fmt_d : fmt d.
  Proof. apply fmt_rnd. Qed.
  Lemma rprod_bound x : 0 <= x <= 1 -> 0 <= rnd (x * d) <= d.
  Proof.
    intro X. destruct (prod_bound x X) as [L H]. apply rnd_le in L, H. rewrite (rnd_fmt 0) in L by apply generic_format_0. rewrite (rnd_fmt d fmt_d) in H. auto.
  Qed.
  Lemma sum_bound x : 0 <= x <= 1 -> Rabs (rnd (x * d) + a) <= pw (e + 2).
  Proof.
    intro X. assert (P := rprod_bound x X). assert (D := d_pos). assert (Ra := r_a _ _ _ _ _ Rg).
    replace (e + 2)%Z with (e + 1 + 1)%Z by lia. rewrite (bpow_plus _ (e + 1) 1). change (pw 1) with 2.
    assert (pw e <= pw (e + 1)) by (apply bpow_le; lia). revert Ra. unfold Rabs. repeat destruct Rcase_abs; lra.
  Qed.
  Lemma value_is x r : is x r -> 0 <= r <= 1 -> is (float_to_value lo hi x) (value r).
  Proof.
    intros X B. unfold float_to_value, fscale. apply fclip_is; [|apply (r_lo _ _ _ _ _ Rg)|apply (r_hi _ _ _ _ _ Rg)].
    apply (fadd_is _ _ _ _ (e + 2)); [|apply (r_lo _ _ _ _ _ Rg)|lia|apply sum_bound; auto].
    apply (fmul_is _ _ _ _ (e + 1)); [auto|apply d_is|lia|]. assert (P := prod_bound r B). assert (D := d_pos). rewrite Rabs_pos_eq; lra.
  Qed.
  Lemma value_bound x : a <= value x <= b.
  Proof. assert (L := a_lt_b). unfold value, Rmin, Rmax. repeat destruct Rle_dec; lra. Qed.
  Lemma value_le x y : x <= y -> value x <= value y.
  Proof.
    intro H. assert (D := d_pos). assert (G : rnd (rnd (x * d) + a) <= rnd (rnd (y * d) + a)).
    { apply rnd_le. apply Rplus_le_compat_r. apply rnd_le. apply Rmult_le_compat_r; lra. }
    unfold value, Rmin, Rmax. repeat destruct Rle_dec; lra.
  Qed.
  Lemma value_lo : value 0 = a.
  Proof.
    assert (L := a_lt_b). unfold value. rewrite Rmult_0_l, round_0, Rplus_0_l, rnd_fmt by (auto with typeclass_instances; exact (is_fmt _ _ (r_lo _ _ _ _ _ Rg))).
    unfold Rmin, Rmax. repeat destruct Rle_dec; lra.
  Qed.
  (** the error of the way into the unit interval and back *)
  Lemma trip_error v : a <= v <= b -> Rabs (value (entry v) - v) <= 5 * pw (e - 53).
  Proof.
    intro V. assert (Q := entry_bound v V). assert (D := d_pos).
    assert (E1 : Rabs (rnd (v - a) - (v - a)) <= pw (e - 53)).
    { replace (e - 53)%Z with (e + 1 - 54)%Z by lia. apply err_le; [lia|]. eapply Rle_trans; [|apply size_bound]. rewrite !Rabs_pos_eq; lra. }
    assert (E2 : Rabs (entry v * d - rnd (v - a)) <= pw (e - 53)).
    { replace (rnd (v - a)) with (rnd (v - a) / d * d) by (field; lra). rewrite <- Rmult_minus_distr_r, Rabs_mult, (Rabs_pos_eq d) by lra.
      replace (pw (e - 53)) with (pw (0 - 54) * pw (e + 1)) by (rewrite <- bpow_plus; f_equal; lia).
      apply Rmult_le_compat; [apply Rabs_pos|lra| |lra]. apply err_le; [lia|]. rewrite Rabs_pos_eq; apply quot_bound; auto. }
    assert (E3 : Rabs (rnd (entry v * d) - entry v * d) <= pw (e - 53)).
    { replace (e - 53)%Z with (e + 1 - 54)%Z by lia. apply err_le; [lia|]. assert (P := prod_bound _ Q). rewrite Rabs_pos_eq; lra. }
    assert (E4 : Rabs (rnd (rnd (entry v * d) + a) - (rnd (entry v * d) + a)) <= 2 * pw (e - 53)).
    { replace (2 * pw (e - 53)) with (pw (e + 2 - 54)) by (replace (e + 2 - 54)%Z with (1 + (e - 53))%Z by lia; rewrite bpow_plus; reflexivity).
      apply err_le; [lia|]. apply sum_bound; auto. }
    assert (Er : Rabs (rnd (rnd (entry v * d) + a) - v) <= 5 * pw (e - 53)) by (revert E1 E2 E3 E4; unfold Rabs; repeat destruct Rcase_abs; lra).
    eapply Rle_trans; [|exact Er]. unfold value, Rmin, Rmax. repeat destruct Rle_dec; unfold Rabs; repeat destruct Rcase_abs; lra.
  Qed.
End Range.

Lemma unit_finite x : float_legal_vector x = true -> exists r, is x r /\ 0 <= r <= 1.
Proof. intro H. apply (between_finite f0 x f1); [apply f0_is|apply f1_is|exact H]. Qed.

(** entries of legal values lie in the unit interval, those of the bounds are its ends *)
Theorem C99_float_entries a b lo hi v : bounds a b lo hi -> float_legal lo hi v = true ->
  let x := float_to_vector lo hi v in
  float_legal_vector x = true /\ (feq v lo = true -> feq x f0 = true) /\ (feq v hi = true -> feq x f1 = true).
Proof.
  intros B V x. destruct (bounds_range _ _ _ _ B) as (p & q & R & _). assert (E : (0 <= 971 <= 975)%Z) by lia.
  destruct (between_finite _ _ _ _ _ (r_lo _ _ _ _ _ R) (r_hi _ _ _ _ _ R) V) as (r & Vr & Br).
  assert (X := entry_is _ _ _ _ _ R E v r Vr Br). fold x in X. split; [|split].
  - exact (legal_true f0 x f1 _ _ _ f0_is X f1_is (entry_bound _ _ _ _ _ R E r Br)).
  - rewrite (feq_iff _ _ _ _ Vr (r_lo _ _ _ _ _ R)), (feq_iff _ _ _ _ X f0_is). intros ->. apply entry_lo.
  - rewrite (feq_iff _ _ _ _ Vr (r_hi _ _ _ _ _ R)), (feq_iff _ _ _ _ X f1_is). intros ->. exact (entry_hi _ _ _ _ _ R E).
Qed.
Theorem C99_float_monotone a b lo hi v w : bounds a b lo hi -> float_legal lo hi v = true -> float_legal lo hi w = true -> fle v w = true ->
  fle (float_to_vector lo hi v) (float_to_vector lo hi w) = true.
Proof.
  intros B V W H. destruct (bounds_range _ _ _ _ B) as (p & q & R & _). assert (E : (0 <= 971 <= 975)%Z) by lia.
  destruct (between_finite _ _ _ _ _ (r_lo _ _ _ _ _ R) (r_hi _ _ _ _ _ R) V) as (r & Vr & Br).
  destruct (between_finite _ _ _ _ _ (r_lo _ _ _ _ _ R) (r_hi _ _ _ _ _ R) W) as (s & Ws & Bs).
  rewrite (fle_iff _ _ _ _ Vr Ws) in H. rewrite (fle_iff _ _ _ _ (entry_is _ _ _ _ _ R E v r Vr Br) (entry_is _ _ _ _ _ R E w s Ws Bs)).
  exact (entry_le _ _ _ _ _ R E r s H).
Qed.
(** every number of the unit interval decodes to a legal value, in the same order, and 0 to the lower bound *)
Theorem C99_float_values a b lo hi x : bounds a b lo hi -> float_legal_vector x = true ->
  float_legal lo hi (float_to_value lo hi x) = true /\
  (feq x f0 = true -> feq (float_to_value lo hi x) lo = true) /\
  (forall y, float_legal_vector y = true -> fle x y = true -> fle (float_to_value lo hi x) (float_to_value lo hi y) = true).
Proof.
  intros B X. destruct (bounds_range _ _ _ _ B) as (p & q & R & _). assert (E : (0 <= 971 <= 975)%Z) by lia.
  destruct (unit_finite x X) as (r & Xr & Ur). assert (V := value_is _ _ _ _ _ R E x r Xr Ur). split; [|split].
  - exact (legal_true _ _ _ _ _ _ (r_lo _ _ _ _ _ R) V (r_hi _ _ _ _ _ R) (value_bound _ _ _ _ _ R r)).
  - rewrite (feq_iff _ _ _ _ Xr f0_is), (feq_iff _ _ _ _ V (r_lo _ _ _ _ _ R)). intros ->. exact (value_lo _ _ _ _ _ R).
  - intros y Y H. destruct (unit_finite y Y) as (s & Ys & Us). rewrite (fle_iff _ _ _ _ Xr Ys) in H.
    rewrite (fle_iff _ _ _ _ V (value_is _ _ _ _ _ R E y s Ys Us)). exact (value_le _ _ _ _ _ R E r s H).
Qed.
(** what is read of an entry is legal and stored without a change *)
Theorem C102_read a b lo hi x : bounds a b lo hi -> float_legal_vector x = true ->
  float_legal lo hi (float_read lo hi x) = true /\ feq (float_stored (float_read lo hi x)) (float_read lo hi x) = true.
Proof.
  intros B X. destruct (C99_float_values a b lo hi x B X) as (L & _). destruct (bounds_range _ _ _ _ B) as (p & q & R & P & Q).
  split; [exact (C102_stored a b lo hi _ B L)|].
  destruct (legal_round _ _ _ _ _ _ R ltac:(lia) P Q L) as (r & V & F & G & A). unfold float_stored, float_read.
  destruct (fround13_is _ _ 971 F ltac:(lia) A) as [C _]. rewrite (feq_iff _ _ _ _ C F). apply round13_twice. exact (is_fmt _ _ V).
Qed.

(** ** C103: a float on its way into the vector and back *)
(** in general the value comes back with a small error *)
Theorem C103_error e lo hi p q v r : range e lo hi p q -> (0 <= e <= 975)%Z -> is v r -> p <= r <= q ->
  exists s, is (float_to_value lo hi (float_to_vector lo hi v)) s /\ Rabs (s - r) <= 5 * pw (e - 53).
Proof.
  intros R E V B. exists (value p q (entry p q r)). split.
  - apply (value_is _ _ _ _ _ R E); [exact (entry_is _ _ _ _ _ R E v r V B)|exact (entry_bound _ _ _ _ _ R E r B)].
  - exact (trip_error _ _ _ _ _ R E r B).
Qed.
Definition within64 (x : f64) : Prop := fle (fabs x) (of_Z 64) = true.
Lemma within64_is x : within64 x -> exists r, is x r /\ Rabs r <= pw 6.
Proof. apply fle_finite. exact (of_Z_is 64 ltac:(lia)). Qed.
Lemma round13_64 : round13 64 = 64.
Proof.
  unfold round13. rewrite <- mult_IZR. rewrite to_int_IZR by (apply fmt_IZR; lia). replace (IZR (64 * 10000000000000) / T) with 64 by (rewrite mult_IZR; field). apply rnd_fmt.
  apply (fmt_IZR 64). lia.
Qed.
(** with bounds of at most 64 in absolute value the stored value comes back *)
Theorem C103_values_partial a b lo hi v : within64 a -> within64 b -> bounds a b lo hi -> float_legal lo hi v = true ->
  feq (float_read lo hi (float_to_vector lo hi (float_stored v))) (float_stored v) = true.
Proof.
  intros Wa Wb B V. destruct (bounds_range _ _ _ _ B) as (p & q & R & P & Q).
  assert (R6 : range 6 lo hi p q).
  { destruct R as [R1 R2 R3 _ _]. destruct B as (_ & _ & -> & -> & _).
    assert (G : forall x t, within64 x -> is (fround13 x) t -> Rabs t <= pw 6).
    { intros x t X I. apply within64_is in X. destruct X as (r & X & Br). destruct (fround13_is _ _ 6 X ltac:(lia) Br) as [I' _].
      assert (t = round13 r) as -> by (destruct I, I'; congruence). change (pw 6) with 64 in *. apply Rabs_le_inv in Br. destruct Br as [L H].
      apply round13_le in L, H. rewrite round13_opp, round13_64 in L. rewrite round13_64 in H. apply Rabs_le. lra. }
    constructor; eauto. }
  assert (E : (0 <= 6 <= 975)%Z) by lia. destruct (legal_round _ _ _ _ _ _ R6 E P Q V) as (r & Vr & F & G & A).
  unfold float_stored. destruct (C103_error _ _ _ _ _ _ _ R6 E F G) as (s & S & Es). unfold float_read.
  assert (Sb : Rabs s <= pw 7).
  { change (pw 7) with 128. change (pw 6) with 64 in A. change (pw (6 - 53)) with (/ IZR (2 ^ 47)) in Es. simpl Z.pow in Es.
    revert A Es. unfold Rabs. repeat destruct Rcase_abs; lra. }
  destruct (fround13_is _ _ 7 S ltac:(lia) Sb) as [C _]. rewrite (feq_iff _ _ _ _ C F).
  unfold round13 at 1. unfold round13. do 2 f_equal. set (k := to_int (r * T)) in *.
  assert (K : k = IZR (ZnearestE (rnd (r * T)))) by reflexivity. set (n := ZnearestE (rnd (r * T))) in *.
  change (round13 r) with (rnd (k / T)) in *. clearbody n. rewrite K in *. clear K k. set (k := IZR n) in *.
  assert (PT := T_pos).
  assert (Kb : Rabs (k / T) <= 65).
  { destruct (Rle_lt_dec (Rabs (k / T)) 65) as [|H]; auto. exfalso. unfold Rabs in H. destruct Rcase_abs.
    - assert (H' : k / T <= -65) by lra. apply rnd_le in H'. rewrite (rnd_fmt (-65)) in H' by (apply (fmt_IZR (-65)); lia). change (pw 6) with 64 in A. revert A. unfold Rabs. destruct Rcase_abs; lra.
    - assert (H' : 65 <= k / T) by lra. apply rnd_le in H'. rewrite (rnd_fmt 65) in H' by (apply (fmt_IZR 65); lia). change (pw 6) with 64 in A. revert A. unfold Rabs. destruct Rcase_abs; lra. }
  assert (E1 : Rabs (rnd (k / T) - k / T) <= pw (7 - 54)) by (apply err_le; [lia|]; change (pw 7) with 128; lra).
  assert (E2 : Rabs (s - k / T) <= 6 * pw (6 - 53)) by (revert E1 Es; change (pw (7 - 54)) with (pw (6 - 53)); unfold Rabs; repeat destruct Rcase_abs; lra).
  assert (E3 : Rabs (s * T - k) <= 6 * pw (6 - 53) * T).
  { replace (s * T - k) with ((s - k / T) * T) by (field; lra). rewrite Rabs_mult, (Rabs_pos_eq T) by lra. apply Rmult_le_compat_r; lra. }
  change (pw (6 - 53)) with (/ IZR (2 ^ 47)) in *. simpl Z.pow in *.
  assert (E4 : Rabs (rnd (s * T) - s * T) <= pw (50 - 54)).
  { apply err_le; [lia|]. change (pw 50) with (IZR (2 ^ 50)). simpl Z.pow. apply Rabs_le. apply Rabs_le_inv in E2, Kb.
    assert (-66 <= s <= 66) by lra. split; lra. }
  change (pw (50 - 54)) with (/ 16) in E4. unfold to_int, rint. unfold k. f_equal. apply near. fold k.
  apply Rabs_le_inv in E3, E4. apply Rabs_lt. split; lra.
Qed.
(** with the lower bound 0 up to 128 *)
Lemma zero_error e lo hi b v : range e lo hi 0 b -> (0 <= e <= 975)%Z -> fmt v -> 0 <= v <= b -> Rabs (value 0 b (entry 0 b v) - v) <= pw (e - 53).
Proof.
  intros R E F V. assert (Q := entry_bound _ _ _ _ _ R E v V). assert (D := d_pos _ _ _ _ _ R E). assert (P := prod_bound _ _ _ _ _ R E _ Q).
  assert (Qb := quot_bound _ _ _ _ _ R E v V). assert (L := r_lt _ _ _ _ _ R). assert (Fb := is_fmt _ _ (r_hi _ _ _ _ _ R)).
  assert (Db : rnd (b - 0) = b) by (rewrite Rminus_0_r; apply rnd_fmt; auto).
  assert (Be : b <= pw e) by (assert (B := r_b _ _ _ _ _ R); rewrite Rabs_pos_eq in B; lra).
  assert (E2 : Rabs (entry 0 b v * b - v) <= pw (e - 54)).
  { unfold entry in *. rewrite Db in *. rewrite Rminus_0_r, (rnd_fmt v F) in *. replace (rnd (v / b) * b - v) with ((rnd (v / b) - v / b) * b) by (field; lra).
    rewrite Rabs_mult, (Rabs_pos_eq b) by lra. replace (pw (e - 54)) with (pw (0 - 54) * pw e) by (rewrite <- bpow_plus; f_equal; lia).
    apply Rmult_le_compat; [apply Rabs_pos|lra| |lra]. apply err_le; [lia|]. rewrite Rabs_pos_eq; apply Qb. }
  rewrite Db in P. assert (E3 : Rabs (rnd (entry 0 b v * b) - entry 0 b v * b) <= pw (e - 54)) by (apply err_le; [lia|]; rewrite Rabs_pos_eq; lra).
  assert (Er : Rabs (rnd (entry 0 b v * b) - v) <= pw (e - 53)).
  { replace (e - 53)%Z with (1 + (e - 54))%Z by lia. rewrite bpow_plus. change (pw 1) with 2. revert E2 E3. unfold Rabs. repeat destruct Rcase_abs; lra. }
  eapply Rle_trans; [|exact Er]. unfold value. rewrite Db, Rplus_0_r, (rnd_fmt _ (fmt_rnd _)).
  unfold Rmin, Rmax. repeat destruct Rle_dec; unfold Rabs; repeat destruct Rcase_abs; lra.
Qed.
Theorem C103_zero_partial b lo hi v : fle (fabs b) (of_Z 128) = true -> bounds f0 b lo hi -> float_legal lo hi v = true ->
  feq (float_read lo hi (float_to_vector lo hi (float_stored v))) (float_stored v) = true.
Proof.
  intros Wb B V. destruct (bounds_range _ _ _ _ B) as (p & q & R & P & Q).
  assert (p = 0) as ->.
  { destruct (fround13_is _ _ 0 f0_is ltac:(lia)) as [I _]; [rewrite Rabs_R0; apply bpow_ge_0|]. destruct R as [R1 _ _ _ _]. destruct B as (_ & _ & -> & _).
    assert (p = round13 0) as -> by (destruct I, R1; congruence). unfold round13. rewrite Rmult_0_l, (to_int_IZR 0) by apply generic_format_0.
    unfold Rdiv. rewrite Rmult_0_l. apply round_0; auto with typeclass_instances. }
  assert (R7 : range 7 lo hi 0 q).
  { destruct R as [R1 R2 R3 _ _]. destruct B as (_ & _ & -> & -> & _). constructor; auto; [rewrite Rabs_R0; apply bpow_ge_0|].
    destruct (fle_finite _ _ _ (of_Z_is 128 ltac:(lia)) Wb) as (r & X & Br). destruct (fround13_is _ _ 7 X ltac:(lia) Br) as [I' _].
    assert (q = round13 r) as -> by (destruct R2, I'; congruence). change (pw 7) with 128. apply Rabs_le_inv in Br. destruct Br as [_ H].
    apply round13_le in H. rewrite Rabs_pos_eq by lra. assert (G : round13 128 = 128); [|lra]. unfold round13. rewrite <- mult_IZR. rewrite to_int_IZR by (apply fmt_IZR; lia).
    replace (IZR (128 * 10000000000000) / T) with 128 by (rewrite mult_IZR; field). apply rnd_fmt. apply (fmt_IZR 128). lia. }
  assert (E : (0 <= 7 <= 975)%Z) by lia. destruct (legal_round _ _ _ _ _ _ R7 E P Q V) as (r & Vr & F & G & A).
  unfold float_stored, float_read. assert (S := value_is _ _ _ _ _ R7 E _ _ (entry_is _ _ _ _ _ R7 E _ _ F G) (entry_bound _ _ _ _ _ R7 E _ G)).
  assert (Es := zero_error _ _ _ _ _ R7 E (is_fmt _ _ F) G). assert (Sv := value_bound _ _ _ _ _ R7 (entry 0 q (round13 r))). set (s := value 0 q _) in *.
  assert (Sb : Rabs s <= pw 7) by (assert (B7 := r_b _ _ _ _ _ R7); assert (L7 := r_lt _ _ _ _ _ R7); rewrite Rabs_pos_eq in B7 by lra; rewrite Rabs_pos_eq; lra).
  destruct (fround13_is _ _ 7 S ltac:(lia) Sb) as [C _]. rewrite (feq_iff _ _ _ _ C F). clearbody s.
  unfold round13 at 1. unfold round13. do 2 f_equal. set (k := to_int (r * T)) in *.
  assert (K : k = IZR (ZnearestE (rnd (r * T)))) by reflexivity. set (n := ZnearestE (rnd (r * T))) in *.
  change (round13 r) with (rnd (k / T)) in *. clearbody n. rewrite K in *. clear K k. set (k := IZR n) in *.
  assert (PT := T_pos). change (pw 7) with 128 in *.
  assert (Kb : 0 <= k / T <= 129).
  { rewrite Rabs_pos_eq in A by lra. split.
    - destruct (Rle_lt_dec 0 k) as [H|H]; [apply Rmult_le_pos; [auto|left; apply Rinv_0_lt_compat; auto]|]. exfalso.
      assert (H' : (n <= -1)%Z) by (assert (n < 0)%Z by (apply lt_IZR; exact H); lia). apply IZR_le in H'. fold k in H'.
      assert (U : rnd (k / T) <= rnd (- pw (-44))).
      { apply rnd_le. apply Rmult_le_reg_r with T; auto. replace (k / T * T) with k by (field; lra). change (pw (-44)) with (/ IZR (2 ^ 44)). simpl Z.pow. lra. }
      rewrite (rnd_fmt (- pw (-44))) in U by (apply generic_format_opp, fmt_pw; lia). assert (0 < pw (-44)) by apply bpow_gt_0. lra.
    - destruct (Rle_lt_dec (k / T) 129) as [|H]; auto. exfalso. assert (H' : 129 <= k / T) by lra. apply rnd_le in H'. rewrite (rnd_fmt 129) in H' by (apply (fmt_IZR 129); lia). lra. }
  assert (E1 : Rabs (rnd (k / T) - k / T) <= pw (7 - 54)).
  { destruct (Rle_lt_dec (k / T) 128) as [H|H]; [apply err_le; [lia|]; change (pw 7) with 128; rewrite Rabs_pos_eq; lra|].
    assert (H' : 128 <= k / T) by lra. apply rnd_le in H'. rewrite (rnd_fmt 128) in H' by (apply (fmt_IZR 128); lia).
    rewrite Rabs_pos_eq in A by lra. assert (Q1 : rnd (k / T) = 128) by lra. assert (C8 := closest (k / T) (128 + pw (-45))).
    rewrite Q1 in *. assert (U : 1 <= Rabs (128 + pw (-45) - 128) * IZR (2 ^ 45)). { replace (128 + pw (-45) - 128) with (pw (-45)) by ring. rewrite Rabs_pos_eq by apply bpow_ge_0. change (pw (-45)) with (/ IZR (2 ^ 45)). rewrite Rinv_l; [lra|apply Rgt_not_eq; simpl Z.pow; lra]. }
    assert (F8 : fmt (128 + pw (-45))).
    { replace (128 + pw (-45)) with (IZR (2 ^ 52 + 1) * pw (7 - 52)); [apply multiple_fmt; lia|]. rewrite plus_IZR. change (pw (7 - 52)) with (/ IZR (2 ^ 45)). change (pw (-45)) with (/ IZR (2 ^ 45)). simpl Z.pow. lra. }
    specialize (C8 F8). exfalso. revert C8. assert (Kz : k >= 128 * T + 1).
    { assert (Hk : 128 * T < k) by (apply Rmult_lt_reg_r with (/ T); [apply Rinv_0_lt_compat; auto|]; replace (128 * T * / T) with 128 by (field; lra); exact H).
      rewrite <- mult_IZR in Hk |- *. apply lt_IZR in Hk. rewrite <- plus_IZR. apply Rle_ge, IZR_le. lia. }
    assert (Kq : k / T >= 128 + / T) by (apply Rle_ge; apply Rmult_le_reg_r with T; auto; replace ((128 + / T) * T) with (128 * T + 1) by (field; lra); replace (k / T * T) with k by (field; lra); lra).
    change (pw (-45)) with (/ IZR (2 ^ 45)). simpl Z.pow. set (z := k / T) in *. unfold Rabs. repeat destruct Rcase_abs; lra. }
  assert (E2 : Rabs (s - k / T) <= pw (7 - 53) + pw (7 - 54)) by (revert E1 Es; unfold Rabs; repeat destruct Rcase_abs; lra).
  assert (E3 : Rabs (s * T - k) <= (pw (7 - 53) + pw (7 - 54)) * T).
  { replace (s * T - k) with ((s - k / T) * T) by (field; lra). rewrite Rabs_mult, (Rabs_pos_eq T) by lra. apply Rmult_le_compat_r; lra. }
  change (pw (7 - 53)) with (/ IZR (2 ^ 46)) in *. change (pw (7 - 54)) with (/ IZR (2 ^ 47)) in *. simpl Z.pow in *.
  assert (E4 : Rabs (rnd (s * T) - s * T) <= pw (51 - 54)).
  { apply err_le; [lia|]. change (pw 51) with (IZR (2 ^ 51)). simpl Z.pow. apply Rabs_le. apply Rabs_le_inv in E2.
    assert (-130 <= s <= 130) by lra. split; lra. }
  change (pw (51 - 54)) with (/ 8) in E4. unfold to_int, rint. unfold k. f_equal. apply near. fold k.
  apply Rabs_le_inv in E3, E4. apply Rabs_lt. split; lra.
Qed.

(** on [0, 1000] the value read from the vector of a configuration is another than the one stored *)
Theorem C103_refuted : exists a b lo hi v, bounds a b lo hi /\ float_legal lo hi v = true /\
  feq (float_read lo hi (float_to_vector lo hi (float_stored v))) (float_stored v) = false.
Proof.
  set (v := fdiv (of_Z 5102595439561874) (of_Z 10000000000000)).
  exists f0, (of_Z 1000), (fround13 f0), (fround13 (of_Z 1000)), v. split; [repeat split; vm_compute; reflexivity|]. split; vm_compute; reflexivity.
Qed.

(** Bounds whose product with 10 ** 13 exceeds the range of float64 become infinite, and legal values get no entry. *)
Theorem C99_float_refuted : exists a b v, is_finite a = true /\ is_finite b = true /\ is_finite v = true /\
  let lo := fround13 a in let hi := fround13 b in
  flt lo hi = true /\ float_legal lo hi v = true /\ float_legal_vector (float_to_vector lo hi v) = false.
Proof. exists (of_Z (- 2 ^ 1000)), (of_Z (2 ^ 1000)), f0. vm_compute. repeat split. Qed.
Theorem C102_refuted : exists x, is_finite x = true /\ is_finite (fround13 x) = false.
Proof. exists (of_Z (2 ^ 1000)). vm_compute. auto. Qed.

(** ** Cases *)
Example bounds_case : bounds (fdiv f1 (of_Z 1000)) (fdiv (of_Z 5) (of_Z 2)) (fround13 (fdiv f1 (of_Z 1000))) (fround13 (fdiv (of_Z 5) (of_Z 2))).
Proof. repeat split; vm_compute; reflexivity. Qed.
(** np.round(1/3, 13) = 0.3333333333333 *)
Example round_case : feq (fround13 (fdiv f1 (of_Z 3))) (fdiv (of_Z 3333333333333) (of_Z 10000000000000)) = true /\
  feq (fround13 (fdiv f1 (of_Z 3))) (fdiv f1 (of_Z 3)) = false.
Proof. split; vm_compute; reflexivity. Qed.
Example trip_case : within64 (of_Z (-5)) /\ within64 (of_Z 5) /\ bounds (of_Z (-5)) (of_Z 5) (fround13 (of_Z (-5))) (fround13 (of_Z 5)) /\
  float_legal (fround13 (of_Z (-5))) (fround13 (of_Z 5)) (fdiv f1 (of_Z 3)) = true /\
  feq (float_to_value (fround13 (of_Z (-5))) (fround13 (of_Z 5)) (float_to_vector (fround13 (of_Z (-5))) (fround13 (of_Z 5)) (float_stored (fdiv f1 (of_Z 3))))) (float_stored (fdiv f1 (of_Z 3))) = false.
Proof. repeat split; vm_compute; reflexivity. Qed.
