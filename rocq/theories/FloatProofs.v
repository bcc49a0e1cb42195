(** * Facts about float64 arithmetic: rounding of the operations, errors, integers *)
From Coq Require Import ZArith Reals Lra Lia Bool List.
From Flocq Require Import Core IEEE754.BinarySingleNaN Relative.
From Verif Require Import Base Numeric Float.
Open Scope R_scope.

Notation fmt := (generic_format radix2 (FLT_exp (-1074) 53)).
Notation rnd := (round radix2 (FLT_exp (-1074) 53) ZnearestE).
Notation pw e := (bpow radix2 e).
(** [x] is the finite float with the real value [r] *)
Definition is (x : f64) (r : R) : Prop := is_finite x = true /\ B2R x = r.

Lemma is_R x : is_finite x = true -> is x (B2R x).
Proof. split; auto. Qed.
Lemma is_fmt x r : is x r -> fmt r.
Proof. intros [_ <-]. apply (generic_format_B2R 53 1024). Qed.
Lemma rnd_fmt r : fmt r -> rnd r = r.
Proof. intro H. apply round_generic; auto with typeclass_instances. Qed.
Lemma fmt_rnd r : fmt (rnd r).
Proof. apply generic_format_round; auto with typeclass_instances. Qed.
Lemma rnd_le x y : x <= y -> rnd x <= rnd y.
Proof. apply round_le; auto with typeclass_instances. Qed.
Lemma fmt_pw e : (-1074 <= e)%Z -> fmt (pw e).
Proof. intro H. apply generic_format_FLT_bpow; auto. exact prec53. Qed.
Lemma fmt_IZR z : (Z.abs z <= 2 ^ 53)%Z -> fmt (IZR z).
Proof.
  intro H. destruct (Z.eq_dec (Z.abs z) (2 ^ 53)) as [Q|Q].
  - destruct (Z.abs_eq_or_opp z) as [P|P].
    + replace z with (2 ^ 53)%Z by lia. change (IZR (2 ^ 53)) with (pw 53). apply fmt_pw; lia.
    + replace z with (- 2 ^ 53)%Z by lia. rewrite opp_IZR. apply generic_format_opp. change (IZR (2 ^ 53)) with (pw 53). apply fmt_pw; lia.
  - apply generic_format_FLT. exists (Float radix2 z 0).
    + unfold F2R. simpl. ring.
    + simpl. change (Z.pow_pos 2 53) with (2 ^ 53)%Z. lia.
    + simpl. lia.
Qed.
Lemma rnd_bound r e : (-1074 <= e)%Z -> Rabs r <= pw e -> Rabs (rnd r) <= pw e.
Proof. intros E H. apply abs_round_le_generic; auto with typeclass_instances. now apply fmt_pw. Qed.

(** ** The operations *)
Lemma small r e : (-1074 <= e < 1024)%Z -> Rabs r <= pw e -> Rlt_bool (Rabs (rnd r)) (pw 1024) = true.
Proof.
  intros E H. apply Rlt_bool_true. apply Rle_lt_trans with (pw e); [apply rnd_bound; auto; lia|]. apply bpow_lt. lia.
Qed.
Lemma fadd_is x y a b e : is x a -> is y b -> (-1074 <= e < 1024)%Z -> Rabs (a + b) <= pw e -> is (fadd x y) (rnd (a + b)).
Proof.
  intros [Fx <-] [Fy <-] E H. generalize (Bplus_correct 53 1024 prec53 emax1024 mode_NE x y Fx Fy).
  change (round radix2 (SpecFloat.fexp 53 1024) (round_mode mode_NE)) with rnd.
  rewrite (small _ e E H). intros (A & B & _). split; auto.
Qed.
Lemma fsub_is x y a b e : is x a -> is y b -> (-1074 <= e < 1024)%Z -> Rabs (a - b) <= pw e -> is (fsub x y) (rnd (a - b)).
Proof.
  intros [Fx <-] [Fy <-] E H. generalize (Bminus_correct 53 1024 prec53 emax1024 mode_NE x y Fx Fy).
  change (round radix2 (SpecFloat.fexp 53 1024) (round_mode mode_NE)) with rnd.
  rewrite (small _ e E H). intros (A & B & _). split; auto.
Qed.
Lemma fmul_is x y a b e : is x a -> is y b -> (-1074 <= e < 1024)%Z -> Rabs (a * b) <= pw e -> is (fmul x y) (rnd (a * b)).
Proof.
  intros [Fx <-] [Fy <-] E H. generalize (Bmult_correct 53 1024 prec53 emax1024 mode_NE x y).
  change (round radix2 (SpecFloat.fexp 53 1024) (round_mode mode_NE)) with rnd.
  rewrite (small _ e E H). intros (A & B & _). split; auto. unfold fmul. rewrite B, Fx, Fy. reflexivity.
Qed.
Lemma fdiv_is x y a b e : is x a -> is y b -> b <> 0 -> (-1074 <= e < 1024)%Z -> Rabs (a / b) <= pw e -> is (fdiv x y) (rnd (a / b)).
Proof.
  intros [Fx <-] [Fy <-] N E H. generalize (Bdiv_correct 53 1024 prec53 emax1024 mode_NE x y N).
  change (round radix2 (SpecFloat.fexp 53 1024) (round_mode mode_NE)) with rnd.
  rewrite (small _ e E H). intros (A & B & _). split; auto. unfold fdiv. rewrite B, Fx. reflexivity.
Qed.
Lemma fabs_is x a : is x a -> is (fabs x) (Rabs a).
Proof. intros [F <-]. split; [unfold fabs; rewrite is_finite_Babs; auto|apply B2R_Babs]. Qed.
Lemma round_FIX rn r : Valid_rnd rn -> round radix2 (FIX_exp 0) rn r = IZR (rn r).
Proof. intros V. unfold round, F2R, scaled_mantissa, cexp, FIX_exp. simpl. rewrite !Rmult_1_r. reflexivity. Qed.
Lemma frint_is x a : is x a -> is (frint x) (IZR (ZnearestE a)).
Proof.
  intros [F <-]. destruct (Bnearbyint_correct 53 1024 emax1024 mode_NE x) as (A & B & _).
  split; [unfold frint; rewrite B; auto|]. unfold frint. rewrite A. simpl round_mode. apply round_FIX. auto with typeclass_instances.
Qed.
Lemma ffloor_is x a : is x a -> is (ffloor x) (IZR (Zfloor a)).
Proof.
  intros [F <-]. destruct (Bnearbyint_correct 53 1024 emax1024 mode_DN x) as (A & B & _).
  split; [unfold ffloor; rewrite B; auto|]. unfold ffloor. rewrite A. simpl round_mode. apply round_FIX. auto with typeclass_instances.
Qed.
Lemma of_Z_rnd z : (Z.abs z <= 2 ^ 1000)%Z -> is (of_Z z) (rnd (IZR z)).
Proof.
  intro H. generalize (binary_normalize_correct 53 1024 prec53 emax1024 mode_NE z 0 false).
  assert (Q : F2R (Float radix2 z 0) = IZR z) by (unfold F2R; simpl; ring). cbv zeta. rewrite Q.
  change (round radix2 (SpecFloat.fexp 53 1024) (round_mode mode_NE)) with rnd.
  rewrite (small (IZR z) 1000); [|lia|].
  - intros (A & B & _). split; auto.
  - rewrite <- abs_IZR. change (pw 1000) with (IZR (2 ^ 1000)). apply IZR_le. exact H.
Qed.
Lemma of_Z_is z : (Z.abs z <= 2 ^ 53)%Z -> is (of_Z z) (IZR z).
Proof.
  intro H. rewrite <- (rnd_fmt (IZR z)) by (apply fmt_IZR; auto). apply of_Z_rnd.
  apply Z.le_trans with (1 := H). apply Z.pow_le_mono_r; lia.
Qed.
Lemma f0_is : is f0 0.
Proof. apply (of_Z_is 0). lia. Qed.
Lemma f1_is : is f1 1.
Proof. apply (of_Z_is 1). lia. Qed.
Lemma fle_is x y a b : is x a -> is y b -> fle x y = Rle_bool a b.
Proof. intros [Fx <-] [Fy <-]. apply Bleb_correct; auto. Qed.
Lemma flt_is x y a b : is x a -> is y b -> flt x y = Rlt_bool a b.
Proof. intros [Fx <-] [Fy <-]. apply Bltb_correct; auto. Qed.
Lemma feq_is x y a b : is x a -> is y b -> feq x y = Req_bool a b.
Proof. intros [Fx <-] [Fy <-]. apply Beqb_correct; auto. Qed.
Lemma fle_iff x y a b : is x a -> is y b -> (fle x y = true <-> a <= b).
Proof. intros A B. rewrite (fle_is _ _ _ _ A B). destruct (Rle_bool_spec a b); split; auto; try discriminate; lra. Qed.
Lemma feq_iff x y a b : is x a -> is y b -> (feq x y = true <-> a = b).
Proof. intros A B. rewrite (feq_is _ _ _ _ A B). destruct (Req_bool_spec a b); split; auto; try discriminate; lra. Qed.
Lemma is_not_nan x a : is x a -> is_nan x = false.
Proof. intros [F _]. destruct x; auto; discriminate. Qed.
Lemma fmax_is x y a b : is x a -> is y b -> is (fmax x y) (Rmax a b).
Proof.
  intros A B. unfold fmax. rewrite (is_not_nan _ _ A), (is_not_nan _ _ B), (fle_is _ _ _ _ A B).
  destruct (Rle_bool_spec a b); [rewrite Rmax_right by lra; auto|rewrite Rmax_left by lra; auto].
Qed.
Lemma fmin_is x y a b : is x a -> is y b -> is (fmin x y) (Rmin a b).
Proof.
  intros A B. unfold fmin. rewrite (is_not_nan _ _ A), (is_not_nan _ _ B), (fle_is _ _ _ _ A B).
  destruct (Rle_bool_spec a b); [rewrite Rmin_left by lra; auto|rewrite Rmin_right by lra; auto].
Qed.
Lemma fclip_is x y z a b c : is x a -> is y b -> is z c -> is (fclip x y z) (Rmin (Rmax a b) c).
Proof. intros. apply fmin_is; auto. apply fmax_is; auto. Qed.
Lemma to_i64_is x z : is x (IZR z) -> (- 2 ^ 63 <= z < 2 ^ 63)%Z -> to_i64 x = Ok z.
Proof.
  intros [F Q] B. unfold to_i64. rewrite F.
  assert (T : Btrunc x = z).
  { apply eq_IZR. rewrite Btrunc_correct by exact emax1024. rewrite round_FIX by auto with typeclass_instances. rewrite Q, Ztrunc_IZR. reflexivity. }
  rewrite T. replace ((- 2 ^ 63 <=? z) && (z <? 2 ^ 63))%Z%bool with true; auto. symmetry. apply andb_true_iff. split; [apply Z.leb_le|apply Z.ltb_lt]; lia.
Qed.

(** ** Errors *)
Lemma err r e : (-1022 <= e)%Z -> Rabs r <= pw e -> Rabs (rnd r - r) <= pw (e - 53).
Proof.
  intros E H. eapply Rle_trans; [apply error_le_half_ulp; auto with typeclass_instances|].
  apply Rle_trans with (/ 2 * ulp radix2 (FLT_exp (-1074) 53) (pw e)).
  - apply Rmult_le_compat_l; [lra|]. apply ulp_le; auto with typeclass_instances.
    rewrite (Rabs_pos_eq (pw e)) by apply bpow_ge_0. exact H.
  - rewrite ulp_bpow. unfold FLT_exp. rewrite Z.max_l by lia.
    replace (e + 1 - 53)%Z with (1 + (e - 53))%Z by lia. rewrite bpow_plus. change (pw 1) with 2. lra.
Qed.
Lemma rel r : pw (-1022) <= Rabs r -> Rabs (rnd r - r) <= pw (-53) * Rabs r.
Proof.
  intros H. assert (Q : pw (-53 + 1) = 2 * pw (-53)) by (rewrite (bpow_plus radix2 (-53) 1); change (pw 1) with 2; ring).
  assert (K : pw (-53) * Rabs r = / 2 * pw (-53 + 1) * Rabs r) by (rewrite Q; field). rewrite K.
  apply (relative_error_N_FLT radix2 (-1074) 53 prec53 (fun x => negb (Z.even x))). exact H.
Qed.
Lemma near r z : Rabs (r - IZR z) < / 2 -> ZnearestE r = z.
Proof. intro H. apply Znearest_imp. exact H. Qed.
