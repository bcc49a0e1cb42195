(** * Property C130: in float64 the probabilities of weights add up to one and only positive weights are chosen *)
From Coq Require Import ZArith Reals Lra Lia Bool List Psatz Permutation.
From Flocq Require Import Core IEEE754.BinarySingleNaN Relative Plus_error.
From Verif Require Import Base Numeric Float FloatProofs FloatWeights.
Import ListNotations.
Open Scope R_scope.

(** the exact sum of floats *)
Fixpoint rsum (l : list f64) : R := match l with [] => 0 | x :: l' => B2R x + rsum l' end.
(** finite and not negative *)
Definition nonneg (x : f64) : Prop := is_finite x = true /\ 0 <= B2R x.

Lemma rsum_app l m : rsum (l ++ m) = rsum l + rsum m.
Proof. induction l as [|x l IH]; simpl; [ring|]. rewrite IH. ring. Qed.
Lemma rsum_perm l m : Permutation l m -> rsum l = rsum m.
Proof. induction 1; simpl; lra. Qed.
Lemma rsum_ge l : Forall nonneg l -> 0 <= rsum l /\ forall x, In x l -> B2R x <= rsum l.
Proof.
  induction 1 as [|x l [_ Hx] _ [IH1 IH2]]; simpl; [split; [lra|tauto]|]. split; [lra|]. intros y [->|Hy]; [lra|]. specialize (IH2 y Hy). lra.
Qed.

(** ** Sums *)
Lemma fadd_finite x y : is_finite (fadd x y) = true -> is_finite x = true /\ is_finite y = true.
Proof. destruct x as [s|s| |s m e B], y as [s'|s'| |s' m' e' B']; try (split; reflexivity); cbn; try discriminate; destruct (Bool.eqb s s'); discriminate. Qed.
Lemma fadd_sum x y : is_finite (fadd x y) = true -> is (fadd x y) (rnd (B2R x + B2R y)).
Proof.
  intros F. split; [exact F|]. destruct (fadd_finite x y F) as [Fx Fy]. generalize (Bplus_correct 53 1024 prec53 emax1024 mode_NE x y Fx Fy).
  change (round radix2 (SpecFloat.fexp 53 1024) (round_mode mode_NE)) with rnd. destruct (Rlt_bool _ _); [intros (A & _); exact A|].
  intros (A & _). exfalso. unfold fadd in F. rewrite <- is_finite_SF_B2SF, A in F. cbn in F. discriminate F.
Qed.
Lemma rnd_nonneg r : 0 <= r -> 0 <= rnd r.
Proof. intros H. rewrite <- (round_0 radix2 (FLT_exp (-1074) 53) ZnearestE). apply rnd_le, H. Qed.
(** the error of a sum of floats is relative, even for the smallest numbers *)
Lemma plus_rel a b : fmt a -> fmt b -> 0 <= a + b -> Rabs (rnd (a + b) - (a + b)) <= pw (-53) * (a + b).
Proof.
  intros Fa Fb P. destruct (FLT_plus_error_N_ex radix2 (-1074) 53 (fun x => negb (Z.even x)) a b Fa Fb) as (e & He & ->).
  replace ((a + b) * (1 + e) - (a + b)) with (e * (a + b)) by ring. rewrite Rabs_mult, (Rabs_pos_eq (a + b)) by exact P. apply Rmult_le_compat_r; [exact P|].
  eapply Rle_trans; [exact He|]. unfold u_ro. change (- (53) + 1)%Z with (-52)%Z. assert (Q : pw (-52) = 2 * pw (-53)) by (change (-52)%Z with (1 + -53)%Z; rewrite bpow_plus; reflexivity).
  rewrite Q. assert (0 < pw (-53)) by apply bpow_gt_0. replace (/ 2 * (2 * pw (-53))) with (pw (-53)) by field.
  apply (Rmult_le_reg_r (1 + pw (-53))); [lra|]. unfold Rdiv. rewrite Rmult_assoc, Rinv_l by lra. nra.
Qed.

Definition count (t : additions) : R := INR (length (leaves t)).
Lemma count_ge t : 1 <= count t.
Proof. unfold count. change 1 with (INR 1). apply le_INR. induction t as [x|a IHa b IHb]; simpl; [lia|]. rewrite app_length. lia. Qed.
Lemma count_add a b : count (Add a b) = count a + count b.
Proof. unfold count. simpl. rewrite app_length, plus_INR. reflexivity. Qed.

(** the sum in any order is close to the exact sum and at least as large as each number *)
Lemma total_close t : Forall nonneg (leaves t) -> is_finite (total t) = true -> count t <= pw 51 ->
  Rabs (B2R (total t) - rsum (leaves t)) <= count t * pw (-52) * rsum (leaves t) /\ forall x, In x (leaves t) -> B2R x <= B2R (total t).
Proof.
  assert (E52 : pw (-52) = 2 * pw (-53)) by (change (-52)%Z with (1 + -53)%Z; rewrite bpow_plus; reflexivity).
  assert (P53 : 0 < pw (-53)) by apply bpow_gt_0. assert (M : pw 51 * pw (-52) = / 2) by (rewrite <- bpow_plus; reflexivity).
  induction t as [x|a IHa b IHb]; intros N F C.
  - cbn [total leaves rsum]. split; [|intros y [->|[]]; lra]. replace (B2R x - (B2R x + 0)) with 0 by ring. rewrite Rabs_R0.
    inversion N as [|? ? [_ Hx] _]; subst. assert (K := count_ge (Num x)). apply Rmult_le_pos; [|lra]. apply Rmult_le_pos; lra.
  - cbn [total leaves] in *. apply Forall_app in N. destruct N as [Na Nb]. destruct (fadd_finite _ _ F) as [Fa Fb]. rewrite count_add in *.
    assert (Ca := count_ge a). assert (Cb := count_ge b). destruct (IHa Na Fa ltac:(lra)) as (Ha & La). destruct (IHb Nb Fb ltac:(lra)) as (Hb & Lb). clear IHa IHb.
    destruct (rsum_ge _ Na) as (Ra & _). destruct (rsum_ge _ Nb) as (Rb & _). rewrite rsum_app.
    set (A := B2R (total a)) in *. set (B := B2R (total b)) in *. set (ra := rsum (leaves a)) in *. set (rb := rsum (leaves b)) in *. set (ca := count a) in *. set (cb := count b) in *.
    assert (ea : 0 <= ca * pw (-52) <= / 2) by (split; [apply Rmult_le_pos; lra|rewrite <- M; apply Rmult_le_compat_r; lra]).
    assert (eb : 0 <= cb * pw (-52) <= / 2) by (split; [apply Rmult_le_pos; lra|rewrite <- M; apply Rmult_le_compat_r; lra]).
    assert (PA : 0 <= A). { apply Rabs_le_inv in Ha. nra. }
    assert (PB : 0 <= B). { apply Rabs_le_inv in Hb. nra. }
    destruct (fadd_sum _ _ F) as [_ Q]. fold A B in Q. rewrite Q. split.
    + assert (W := plus_rel A B (is_fmt _ _ (is_R _ Fa)) (is_fmt _ _ (is_R _ Fb)) ltac:(lra)). apply Rabs_le_inv in Ha, Hb, W. apply Rabs_le.
      assert (U : A + B <= 2 * (ra + rb)) by nra.
      assert (Ua : ca * pw (-52) * ra + pw (-52) * ra <= (ca + cb) * pw (-52) * ra).
      { replace ((ca + cb) * pw (-52) * ra) with (ca * pw (-52) * ra + cb * (pw (-52) * ra)) by ring. assert (0 <= pw (-52) * ra) by (apply Rmult_le_pos; lra). nra. }
      assert (Ub : cb * pw (-52) * rb + pw (-52) * rb <= (ca + cb) * pw (-52) * rb).
      { replace ((ca + cb) * pw (-52) * rb) with (cb * pw (-52) * rb + ca * (pw (-52) * rb)) by ring. assert (0 <= pw (-52) * rb) by (apply Rmult_le_pos; lra). nra. }
      assert (UU : pw (-53) * (A + B) <= pw (-52) * (ra + rb)) by (rewrite E52; nra). lra.
    + intros x Hx. apply in_app_or in Hx. destruct Hx as [Hx|Hx].
      * specialize (La x Hx). apply Rle_trans with A; [exact La|]. rewrite <- (rnd_fmt A (is_fmt _ _ (is_R _ Fa))) at 1. apply rnd_le. lra.
      * specialize (Lb x Hx). apply Rle_trans with B; [exact Lb|]. rewrite <- (rnd_fmt B (is_fmt _ _ (is_R _ Fb))) at 1. apply rnd_le. lra.
Qed.

(** ** The probabilities *)

(** weights that the constructor accepts, all of them numbers, whose sum does not overflow; up to a million of them *)
Definition proper (ws : list f64) (s : f64) : Prop :=
  weights_ok ws = true /\ Forall (fun w => is_finite w = true) ws /\ sum_of ws s /\ is_finite s = true /\ (Z.of_nat (length ws) < 2 ^ 20)%Z.

Lemma proper_facts ws s : proper ws s -> Forall nonneg ws /\ 0 < B2R s /\ 0 < rsum ws /\ Rabs (B2R s - rsum ws) <= pw (-32) * rsum ws /\
  (forall w, In w ws -> B2R w <= B2R s) /\ exists w, In w ws /\ 0 < B2R w.
Proof.
  intros (W & F & (t & T & P) & Fs & Len). apply andb_true_iff in W. destruct W as [W1 W2]. apply negb_true_iff in W1, W2.
  rewrite Forall_forall in F. assert (N : Forall nonneg ws).
  { apply Forall_forall. intros w Hw. split; [apply F, Hw|]. destruct (Rle_lt_dec 0 (B2R w)) as [H|H]; [exact H|exfalso].
    assert (Q : existsb (fun w => flt w f0) ws = true); [|congruence]. apply existsb_exists. exists w. split; [exact Hw|]. rewrite (flt_is w f0 _ 0 (is_R w (F w Hw)) f0_is). apply Rlt_bool_true, H. }
  assert (Pos : exists w, In w ws /\ 0 < B2R w).
  { rewrite Forall_forall in N. clear - W2 N F. induction ws as [|w ws IH]; [discriminate|]. cbn [forallb] in W2. apply andb_false_iff in W2. destruct W2 as [W|W].
    - exists w. split; [left; reflexivity|]. destruct (N w (or_introl eq_refl)) as [Fw Pw]. rewrite (feq_is w f0 _ 0 (is_R w Fw) f0_is) in W. destruct (Req_dec (B2R w) 0) as [Z|Z]; [rewrite Req_bool_true in W by exact Z; discriminate|lra].
    - destruct IH as (v & Hv & Pv); [exact W|intros; apply F; right; assumption|intros; apply N; right; assumption|]. exists v. split; [right; exact Hv|exact Pv]. }
  assert (G : exists zs, Permutation (zs ++ ws) (leaves t) /\ (length zs <= 1)%nat /\ Forall nonneg zs /\ rsum zs = 0).
  { destruct P as [P|(z & Z & P)]; [exists []; repeat split; auto; simpl; lia|]. exists [z].
    assert (Fz : is_finite z = true /\ B2R z = 0). { destruct z as [[]|[]| |[] m e B]; first [split; reflexivity|discriminate Z]. }
    repeat split; auto. - constructor; [|constructor]. split; [apply Fz|destruct Fz; lra]. - simpl. destruct Fz; lra. }
  destruct G as (zs & Pm & Lz & Nz & Rz). assert (Nl : Forall nonneg (leaves t)).
  { apply Forall_forall. intros x Hx. apply (Permutation_in _ (Permutation_sym Pm)), in_app_or in Hx. destruct Hx as [Hx|Hx]; [rewrite Forall_forall in Nz; auto|rewrite Forall_forall in N; auto]. }
  assert (Ct : count t <= pw 20).
  { unfold count. rewrite <- (Permutation_length Pm), app_length, INR_IZR_INZ. change (pw 20) with (IZR (2 ^ 20)). apply IZR_le. lia. }
  assert (Rs : rsum (leaves t) = rsum ws) by (rewrite <- (rsum_perm _ _ Pm), rsum_app; lra).
  rewrite <- T in Fs. destruct (total_close t Nl Fs) as (Cl & Le); [apply Rle_trans with (pw 20); [exact Ct|apply bpow_le; lia]|]. rewrite T, Rs in Cl. rewrite T in Le.
  assert (Lw : forall w, In w ws -> B2R w <= B2R s) by (intros w Hw; apply Le, (Permutation_in _ Pm), in_or_app; right; exact Hw).
  destruct Pos as (w & Hw & Pw). destruct (rsum_ge ws N) as (R0 & R1). specialize (R1 w Hw). split; [exact N|]. split; [specialize (Lw w Hw); lra|]. split; [lra|].
  split; [|split; [exact Lw|exists w; auto]]. eapply Rle_trans; [exact Cl|]. apply Rmult_le_compat_r; [exact R0|].
  change (-32)%Z with (20 + -52)%Z. rewrite bpow_plus. apply Rmult_le_compat_r; [apply bpow_ge_0|exact Ct].
Qed.

Lemma prob_is ws s w : proper ws s -> In w ws -> is (fdiv w s) (rnd (B2R w / B2R s)) /\ 0 <= B2R w / B2R s <= 1.
Proof.
  intros P Hw. assert (Q := P). destruct P as (_ & F & _ & Fs & _). destruct (proper_facts ws s Q) as (N & S & _ & _ & Le & _).
  rewrite Forall_forall in N, F. destruct (N w Hw) as [_ W]. specialize (Le w Hw).
  assert (B : 0 <= B2R w / B2R s <= 1). { split; [apply Rmult_le_pos; [exact W|left; apply Rinv_0_lt_compat, S]|]. apply (Rmult_le_reg_r (B2R s)); [exact S|]. unfold Rdiv. rewrite Rmult_assoc, Rinv_l by lra. lra. }
  split; [|exact B]. apply (fdiv_is _ _ _ _ 0 (is_R w (F w Hw)) (is_R s Fs)); [lra|lia|]. rewrite Rabs_pos_eq by lra. change (pw 0) with 1. lra.
Qed.
(** C130: each probability is a number of the unit interval, zero for the weight zero, and larger weights have no smaller ones *)
Theorem C130_probability ws s : proper ws s -> forall w, In w ws ->
  is_finite (fdiv w s) = true /\ 0 <= B2R (fdiv w s) <= 1 /\ (B2R w = 0 -> B2R (fdiv w s) = 0) /\
  forall v, In v ws -> B2R w <= B2R v -> B2R (fdiv w s) <= B2R (fdiv v s).
Proof.
  intros P w Hw. destruct (prob_is ws s w P Hw) as [[F Q] B]. split; [exact F|]. rewrite Q. split; [split|split].
  - apply rnd_nonneg, B.
  - rewrite <- (rnd_fmt 1) at 1; [apply rnd_le, B|apply (fmt_IZR 1); lia].
  - intros ->. unfold Rdiv. rewrite Rmult_0_l. apply round_0; auto with typeclass_instances.
  - intros v Hv Le. destruct (prob_is ws s v P Hv) as [[_ Qv] _]. rewrite Qv. apply rnd_le. destruct (proper_facts ws s P) as (_ & S & _).
    apply Rmult_le_compat_r; [left; apply Rinv_0_lt_compat, S|exact Le].
Qed.

Lemma rnd_near q : 0 <= q -> Rabs (rnd q - q) <= pw (-53) * q + pw (-1075).
Proof.
  intros P. destruct (Rle_lt_dec (pw (-1022)) q) as [H|H].
  - assert (A := rel q). rewrite (Rabs_pos_eq q P) in A. specialize (A H). assert (0 < pw (-1075)) by apply bpow_gt_0. lra.
  - assert (A := err q (-1022) ltac:(lia)). rewrite (Rabs_pos_eq q P) in A. specialize (A ltac:(lra)). change (-1022 - 53)%Z with (-1075)%Z in A.
    assert (0 <= pw (-53) * q) by (apply Rmult_le_pos; [apply bpow_ge_0|exact P]). lra.
Qed.
(** the probabilities of some of the weights add up to their share of the sum *)
Lemma part_sum ws s l : proper ws s -> (forall w, In w l -> In w ws) -> Rabs (rsum (probs l s) - rsum l / B2R s) <= pw (-53) * (rsum l / B2R s) + INR (length l) * pw (-1075).
Proof.
  intros P. set (D := B2R s). induction l as [|w l IH]; intros Hl.
  - simpl. unfold Rdiv. rewrite Rmult_0_l, Rminus_0_r, Rabs_R0. lra.
  - cbn [probs map rsum]. fold (probs l s). specialize (IH (fun v Hv => Hl v (or_intror Hv))). destruct (prob_is ws s w P (Hl w (or_introl eq_refl))) as [[_ Qw] [Bw _]]. fold D in Qw, Bw. rewrite Qw.
    assert (A := rnd_near _ Bw). cbn [length]. rewrite S_INR. replace ((B2R w + rsum l) / D) with (B2R w / D + rsum l / D) by (unfold Rdiv; ring).
    apply Rabs_le_inv in A, IH. apply Rabs_le. lra.
Qed.
Lemma few n : (Z.of_nat n < 2 ^ 20)%Z -> INR n * pw (-1075) <= pw (-53).
Proof.
  intros Len. apply Rle_trans with (pw 20 * pw (-1075)); [|rewrite <- bpow_plus; apply bpow_le; lia]. apply Rmult_le_compat_r; [apply bpow_ge_0|].
  rewrite INR_IZR_INZ. change (pw 20) with (IZR (2 ^ 20)). apply IZR_le. lia.
Qed.
Lemma sum_ratio ws s : proper ws s -> Rabs (rsum ws / B2R s - 1) <= 2 * pw (-32).
Proof.
  intros P. destruct (proper_facts ws s P) as (N & S & R0 & Cl & _ & _). set (D := B2R s) in *. set (r := rsum ws) in *.
  assert (P32 : 0 < pw (-32) <= / 4) by (split; [apply bpow_gt_0|change (/ 4) with (pw (-2)); apply bpow_le; lia]).
  assert (Iv : r / D * D = r) by (unfold Rdiv; rewrite Rmult_assoc, Rinv_l by lra; ring). assert (Pq : 0 < r / D) by (apply Rdiv_lt_0_compat; lra).
  apply Rabs_le_inv in Cl. set (q := r / D) in *. apply Rabs_le. split.
  - assert (D <= (1 + pw (-32)) * r) by lra. assert (1 <= (1 + pw (-32)) * q) by (apply (Rmult_le_reg_r D); [exact S|]; replace ((1 + pw (-32)) * q * D) with ((1 + pw (-32)) * (q * D)) by ring; rewrite Iv; lra). nra.
  - assert ((1 - pw (-32)) * r <= D) by lra. assert ((1 - pw (-32)) * q <= 1) by (apply (Rmult_le_reg_r D); [exact S|]; replace ((1 - pw (-32)) * q * D) with ((1 - pw (-32)) * (q * D)) by ring; rewrite Iv; lra). nra.
Qed.
Lemma sum_near ws s : proper ws s -> Rabs (rsum (probs ws s) - 1) <= 3 * pw (-32).
Proof.
  intros P. assert (Q := P). destruct Q as (_ & _ & _ & _ & Len). assert (G := part_sum ws s ws P (fun w Hw => Hw)). assert (Ln := few _ Len). assert (Rd := sum_ratio ws s P).
  set (r := rsum ws) in *. set (D := B2R s) in *.
  assert (E2 : 8 * pw (-53) <= pw (-32)) by (change 8 with (pw 3); rewrite <- bpow_plus; apply bpow_le; lia).
  assert (P53 : 0 < pw (-53)) by apply bpow_gt_0. assert (P32 : pw (-32) <= / 4) by (change (/ 4) with (pw (-2)); apply bpow_le; lia).
  apply Rabs_le_inv in G, Rd. apply Rabs_le. assert (pw (-53) * (r / D) <= 2 * pw (-53)) by nra. lra.
Qed.
(** the probabilities add up to one, up to 2^-30; numpy's choice raises when the sum is off by more than 2^-26 *)
Theorem C130_sum ws s : proper ws s -> Rabs (rsum (probs ws s) - 1) <= pw (-30).
Proof.
  intros P. eapply Rle_trans; [apply sum_near, P|]. assert (E1 : pw (-30) = 4 * pw (-32)) by (change (-30)%Z with (2 + -32)%Z; rewrite bpow_plus; reflexivity).
  assert (0 < pw (-32)) by apply bpow_gt_0. lra.
Qed.

(** ** The choice *)
Lemma firstn_In_ {A} k (l : list A) x : In x (firstn k l) -> In x l.
Proof. intros H. rewrite <- (firstn_skipn k l). apply in_or_app. left. exact H. Qed.
Lemma in_last {A} (d : A) c : c <> [] -> In (last c d) c.
Proof. induction c as [|x c IH]; [congruence|]. intros _. destruct c as [|y c]; [left; reflexivity|]. right. apply IH. discriminate. Qed.
Definition unit (p : f64) : Prop := is_finite p = true /\ 0 <= B2R p <= 1.
Lemma cum_step acc p k : is_finite acc = true -> 0 <= B2R acc <= IZR k -> unit p -> (0 <= k < 2 ^ 53)%Z ->
  is (fadd acc p) (rnd (B2R acc + B2R p)) /\ B2R acc <= B2R (fadd acc p) /\ B2R p <= B2R (fadd acc p) /\ B2R (fadd acc p) <= IZR (k + 1).
Proof.
  intros Fa Ba [Fp Bp] K. assert (A : is (fadd acc p) (rnd (B2R acc + B2R p))).
  { apply (fadd_is acc p _ _ 54 (is_R _ Fa) (is_R _ Fp)); [lia|]. rewrite Rabs_pos_eq by lra. apply Rle_trans with (IZR (k + 1)); [rewrite plus_IZR; lra|].
    change (pw 54) with (IZR (2 ^ 54)). apply IZR_le. lia. }
  split; [exact A|]. destruct A as [_ A]. rewrite A. split; [|split].
  - rewrite <- (rnd_fmt (B2R acc) (is_fmt _ _ (is_R _ Fa))) at 1. apply rnd_le. lra.
  - rewrite <- (rnd_fmt (B2R p) (is_fmt _ _ (is_R _ Fp))) at 1. apply rnd_le. lra.
  - rewrite <- (rnd_fmt (IZR (k + 1))); [|apply fmt_IZR; lia]. apply rnd_le. rewrite plus_IZR. lra.
Qed.
(** the sums grow and reach their last one *)
Lemma cum_last d : forall l acc k, is_finite acc = true -> 0 <= B2R acc <= IZR k -> Forall unit l -> (0 <= k)%Z -> (k + Z.of_nat (length l) <= 2 ^ 53)%Z ->
  let c := acc :: cumulated acc l in is_finite (last c d) = true /\ Forall (fun x => is_finite x = true /\ B2R acc <= B2R x <= B2R (last c d)) c /\
  forall p, In p l -> B2R p <= B2R (last c d).
Proof.
  induction l as [|p l IH]; intros acc k Fa Ba U K Ln c.
  - subst c. cbn. split; [exact Fa|]. split; [constructor; [split; [exact Fa|lra]|constructor]|tauto].
  - inversion U as [|? ? Up Ul]; subst. cbn [length] in Ln. destruct (cum_step acc p k Fa Ba Up ltac:(lia)) as ([Fs _] & S1 & S2 & S3).
    destruct (IH (fadd acc p) (k + 1)%Z Fs ltac:(lra) Ul ltac:(lia) ltac:(lia)) as (A & B & C).
    assert (Q : last c d = last (fadd acc p :: cumulated (fadd acc p) l) d) by reflexivity. rewrite Q. split; [exact A|].
    assert (B0 : B2R (fadd acc p) <= B2R (last (fadd acc p :: cumulated (fadd acc p) l) d)) by (exact (proj2 (proj2 (Forall_inv B)))). split.
    + constructor; [split; [exact Fa|split; [apply Rle_refl|exact (Rle_trans _ _ _ S1 B0)]]|]. eapply Forall_impl; [|exact B]. intros x (X1 & X2 & X3). cbv beta. split; [exact X1|].
      split; [exact (Rle_trans _ _ _ S1 X2)|exact X3].
    + intros q [<-|Hq]; [exact (Rle_trans _ _ _ S2 B0)|apply C, Hq].
Qed.
(** nothing is found at a probability of zero *)
Lemma pick_positive u r T : is u r -> is_finite T = true -> 0 < B2R T -> forall l acc k i, is_finite acc = true -> 0 <= B2R acc <= IZR k -> Forall unit l -> (0 <= k)%Z -> (k + Z.of_nat (length l) <= 2 ^ 53)%Z ->
  Forall (fun x => B2R x <= B2R T) (acc :: cumulated acc l) -> flt u (fdiv acc T) = false ->
  (exists j, first_above u (map (fun x => fdiv x T) (cumulated acc l)) i = (i + j)%nat /\ (j < length l)%nat /\ 0 < B2R (nth j l f0)) \/
  forall x, In x (cumulated acc l) -> flt u (fdiv x T) = false.
Proof.
  intros Hu FT PT. assert (Dv : forall x, is_finite x = true -> 0 <= B2R x <= B2R T -> is (fdiv x T) (rnd (B2R x / B2R T))).
  { intros x Fx Bx. apply (fdiv_is _ _ _ _ 0 (is_R x Fx) (is_R T FT)); [lra|lia|]. change (pw 0) with 1. assert (0 <= B2R x / B2R T) by (apply Rmult_le_pos; [lra|left; apply Rinv_0_lt_compat, PT]).
    rewrite Rabs_pos_eq by assumption. apply (Rmult_le_reg_r (B2R T)); [exact PT|]. unfold Rdiv. rewrite Rmult_assoc, Rinv_l by lra. lra. }
  induction l as [|p l IH]; intros acc k i Fa Ba U K Ln Le Na; [right; intros x []|].
  inversion U as [|? ? Up Ul]; subst. cbn [length] in Ln. destruct (cum_step acc p k Fa Ba Up ltac:(lia)) as ([Fs Qs] & S1 & S2 & S3).
  cbn [cumulated] in Le |- *. inversion Le as [|? ? La Ls]; subst. cbn [map first_above]. destruct (flt u (fdiv (fadd acc p) T)) eqn:Q.
  - left. exists 0%nat. split; [lia|]. split; [simpl; lia|]. cbn [nth]. destruct Up as [Fp Bp]. destruct (Req_dec (B2R p) 0) as [Z|Z]; [exfalso|lra].
    assert (X : B2R (fadd acc p) = B2R acc) by (rewrite Qs, Z, Rplus_0_r; apply rnd_fmt, (is_fmt _ _ (is_R _ Fa))).
    inversion Ls as [|? ? Lh _]; subst. rewrite (flt_is _ _ _ _ Hu (Dv _ Fs ltac:(lra))), X in Q. rewrite (flt_is _ _ _ _ Hu (Dv _ Fa ltac:(lra))) in Na. congruence.
  - destruct (IH (fadd acc p) (k + 1)%Z (S i) Fs ltac:(lra) Ul ltac:(lia) ltac:(lia) Ls Q) as [(j & J1 & J2 & J3)|J].
    + left. exists (S j). split; [rewrite J1; lia|]. split; [cbn [length]; lia|exact J3].
    + right. intros x [<-|Hx]; [exact Q|apply J, Hx].
Qed.
Lemma probs_unit ws s : proper ws s -> Forall unit (probs ws s) /\ exists p, In p (probs ws s) /\ 0 < B2R p.
Proof.
  intros P. split.
  - apply Forall_forall. intros p Hp. apply in_map_iff in Hp. destruct Hp as (w & <- & Hw). destruct (C130_probability ws s P w Hw) as (A & B & _). split; assumption.
  - assert (Sm := C130_sum ws s P). apply Rabs_le_inv in Sm. assert (pw (-30) <= / 4) by (change (/ 4) with (pw (-2)); apply bpow_le; lia).
    assert (G : forall l, (forall p, In p l -> B2R p <= 0) -> rsum l <= 0). { induction l as [|x l IH]; intros H0; simpl; [lra|]. assert (X1 := H0 x (or_introl eq_refl)). assert (X2 := IH (fun p Hp => H0 p (or_intror Hp))). lra. }
    assert (D : forall l : list f64, (exists p, In p l /\ 0 < B2R p) \/ forall p, In p l -> B2R p <= 0).
    { induction l as [|x l [(p & Hp & Pp)|IH]]; [right; intros p []|left; exists p; split; [right|]; assumption|]. destruct (Rlt_le_dec 0 (B2R x)) as [X|X]; [left; exists x; split; [left; reflexivity|exact X]|].
      right. intros p [<-|Hp]; auto. }
    destruct (D (probs ws s)) as [X|X]; [exact X|]. specialize (G _ X). lra.
Qed.

(** C130: whatever number of [0, 1) is drawn, the chosen index exists and its weight is positive *)
Theorem C130_choice ws s u r : proper ws s -> is u r -> 0 <= r < 1 ->
  (choose (probs ws s) u < length ws)%nat /\ 0 < B2R (nth (choose (probs ws s) u) ws f0).
Proof.
  intros P Hu Br. destruct (probs_unit ws s P) as (U & p & Hp & Pp).
  assert (Ln : (Z.of_nat (length (probs ws s)) < 2 ^ 20)%Z) by (unfold probs; rewrite map_length; destruct P as (_ & _ & _ & _ & L); exact L).
  assert (G : (choose (probs ws s) u < length (probs ws s))%nat /\ 0 < B2R (nth (choose (probs ws s) u) (probs ws s) f0)).
  { unfold choose, cdf. destruct (probs ws s) as [|q l] eqn:Q; [destruct Hp|]. inversion U as [|? ? [Fq Bq] Ul]; subst. cbn [length] in Ln.
    destruct (cum_last q l q 1 Fq Bq Ul ltac:(lia) ltac:(lia)) as (A & B & C). set (c := q :: cumulated q l) in *. set (T := last c q) in *.
    assert (PT : 0 < B2R T). { destruct Hp as [->|Hp]; [exact (Rlt_le_trans _ _ _ Pp (proj2 (proj2 (Forall_inv B))))|]. exact (Rlt_le_trans _ _ _ Pp (C p Hp)). }
    assert (Dv : forall x, is_finite x = true -> 0 <= B2R x <= B2R T -> is (fdiv x T) (rnd (B2R x / B2R T))).
    { intros x Fx Bx. apply (fdiv_is _ _ _ _ 0 (is_R x Fx) (is_R T A)); [lra|lia|]. change (pw 0) with 1. assert (0 <= B2R x / B2R T) by (apply Rmult_le_pos; [lra|left; apply Rinv_0_lt_compat, PT]).
      rewrite Rabs_pos_eq by assumption. apply (Rmult_le_reg_r (B2R T)); [exact PT|]. unfold Rdiv. rewrite Rmult_assoc, Rinv_l by lra. lra. }
    unfold c at 1 2. cbn [map first_above]. inversion B as [|? ? Bh Bt]; subst. destruct (flt u (fdiv q T)) eqn:E.
    - split; [cbn [length]; lia|]. cbn [nth]. destruct (Req_dec (B2R q) 0) as [Z|Z]; [exfalso|lra]. rewrite (flt_is _ _ _ _ Hu (Dv q Fq ltac:(lra))), Z in E.
      unfold Rdiv in E. rewrite Rmult_0_l, round_0 in E by auto with typeclass_instances. rewrite Rlt_bool_false in E by lra. discriminate.
    - assert (Lc : Forall (fun x => B2R x <= B2R T) c) by (eapply Forall_impl; [|exact B]; cbv beta; intros x (_ & _ & X); exact X).
      destruct (pick_positive u r T Hu A PT l q 1 1%nat Fq Bq Ul ltac:(lia) ltac:(lia) Lc E) as [(j & J1 & J2 & J3)|J].
      + rewrite J1. split; [cbn [length]; lia|]. exact J3.
      + exfalso. assert (I1 : flt u (fdiv T T) = true).
        { rewrite (flt_is _ _ _ _ Hu (Dv T A ltac:(lra))). apply Rlt_bool_true. unfold Rdiv. rewrite Rinv_r by lra. rewrite (rnd_fmt 1) by (apply (fmt_IZR 1); lia). lra. }
        assert (I2 : In T c) by (unfold T; apply in_last; discriminate). destruct I2 as [I2|I2]; [rewrite <- I2 in I1 at 1; congruence|rewrite (J T I2) in I1; discriminate]. }
  destruct G as (G1 & G2). unfold probs in G1 at 2. rewrite map_length in G1. split; [exact G1|]. set (i := choose (probs ws s) u) in *.
  unfold probs in G2. rewrite (nth_indep _ f0 (fdiv f0 s)) in G2 by (rewrite map_length; exact G1). rewrite (map_nth (fun w => fdiv w s)) in G2.
  assert (Hw : In (nth i ws f0) ws) by (apply nth_In, G1). destruct (C130_probability ws s P _ Hw) as (_ & _ & Z & _). destruct (proper_facts ws s P) as (N & _). rewrite Forall_forall in N. destruct (N _ Hw) as [_ X].
  destruct (Req_dec (B2R (nth i ws f0)) 0) as [Y|Y]; [rewrite (Z Y) in G2; lra|lra].
Qed.

(** ** How often a choice is made *)
Lemma cum_tree : forall l acc t j, total t = acc -> (j <= length l)%nat -> exists t', leaves t' = leaves t ++ firstn j l /\ total t' = nth j (acc :: cumulated acc l) f0.
Proof.
  induction l as [|p l IH]; intros acc t j T J.
  - replace j with 0%nat by (simpl in J; lia). exists t. cbn [firstn]. rewrite app_nil_r. split; [reflexivity|exact T].
  - destruct j as [|j]; [exists t; cbn [firstn]; rewrite app_nil_r; split; [reflexivity|exact T]|].
    destruct (IH (fadd acc p) (Add t (Num p)) j) as (t' & L & Q); [cbn [total]; rewrite T; reflexivity|simpl in J; lia|].
    exists t'. split; [rewrite L; cbn [leaves firstn]; rewrite <- app_assoc; reflexivity|exact Q].
Qed.
Lemma cum_length l : forall acc, length (cumulated acc l) = length l.
Proof. induction l as [|p l IH]; intros acc; simpl; [reflexivity|]. rewrite IH. reflexivity. Qed.
Lemma rsum_firstn l k : Forall nonneg l -> 0 <= rsum (firstn k l) <= rsum l.
Proof.
  intros N. rewrite <- (firstn_skipn k l) in N. apply Forall_app in N. destruct N as [N1 N2]. destruct (rsum_ge _ N1) as (A & _). destruct (rsum_ge _ N2) as (B & _).
  assert (C := rsum_app (firstn k l) (skipn k l)). rewrite firstn_skipn in C. lra.
Qed.
Lemma last_nth {A} (d e : A) l : forall x, last (x :: l) d = nth (length l) (x :: l) e.
Proof. induction l as [|y l IH]; intros x; [reflexivity|]. change (last (x :: y :: l) d) with (last (y :: l) d). rewrite IH. reflexivity. Qed.

(** each sum of probabilities is close to the share of the weights so far *)
Lemma cdf_near ws s j : proper ws s -> (j < length ws)%nat ->
  length (cdf (probs ws s)) = length ws /\ is_finite (nth j (cdf (probs ws s)) f0) = true /\ Rabs (B2R (nth j (cdf (probs ws s)) f0) - rsum (firstn (S j) ws) / rsum ws) <= pw (-28).
Proof.
  intros P J. destruct (probs_unit ws s P) as (U & p & Hp & Pp). assert (Len : length (probs ws s) = length ws) by apply map_length.
  assert (Lw : (Z.of_nat (length ws) < 2 ^ 20)%Z) by (destruct P as (_ & _ & _ & _ & L); exact L).
  assert (Sum := sum_near ws s P). assert (Rat := sum_ratio ws s P). destruct (proper_facts ws s P) as (N & S & R0 & _).
  assert (Np : Forall nonneg (probs ws s)) by (eapply Forall_impl; [|exact U]; intros x [X Y]; split; [exact X|lra]).
  assert (E28 : pw (-28) = 16 * pw (-32)) by (change (-28)%Z with (4 + -32)%Z; rewrite bpow_plus; reflexivity).
  assert (E53 : 16 * pw (-53) <= pw (-32)) by (change 16 with (pw 4); rewrite <- bpow_plus; apply bpow_le; lia).
  assert (P53 : 0 < pw (-53)) by apply bpow_gt_0. assert (P32 : 0 < pw (-32) <= / 64) by (split; [apply bpow_gt_0|change (/ 64) with (pw (-6)); apply bpow_le; lia]).
  assert (Share : Rabs (rsum (firstn (Datatypes.S j) (probs ws s)) - rsum (firstn (Datatypes.S j) ws) / rsum ws) <= 3 * pw (-32)).
  { assert (G := part_sum ws s (firstn (Datatypes.S j) ws) P (fun w Hw => firstn_In_ _ _ w Hw)). unfold probs in G. rewrite <- firstn_map in G. fold (probs ws s) in G.
    assert (Lf := few (length (firstn (Datatypes.S j) ws)) ltac:(rewrite firstn_length; lia)). destruct (rsum_firstn ws (Datatypes.S j) N) as (F1 & F2).
    set (f := rsum (firstn (Datatypes.S j) ws)) in *. set (r := rsum ws) in *. set (D := B2R s) in *.
    assert (X : f / D = f / r * (r / D)) by (field; lra). assert (B : 0 <= f / r <= 1).
    { split; [apply Rmult_le_pos; [exact F1|left; apply Rinv_0_lt_compat, R0]|]. apply (Rmult_le_reg_r r); [exact R0|]. unfold Rdiv. rewrite Rmult_assoc, Rinv_l by lra. lra. }
    rewrite X in G. set (h := f / r) in *. set (q := r / D) in *. apply Rabs_le_inv in G, Rat. apply Rabs_le. assert (H1 : - (2 * pw (-32)) <= h * q - h <= 2 * pw (-32)).
    { replace (h * q - h) with (h * (q - 1)) by ring. assert (0 <= h * (q - 1 + 2 * pw (-32))) by (apply Rmult_le_pos; lra). assert (0 <= h * (2 * pw (-32) - (q - 1))) by (apply Rmult_le_pos; lra).
      assert (h * (2 * pw (-32)) <= 1 * (2 * pw (-32))) by (apply Rmult_le_compat_r; lra). split; lra. }
    assert (H2 : pw (-53) * (h * q) <= pw (-53) * 2) by (apply Rmult_le_compat_l; lra). lra. }
  unfold cdf. destruct (probs ws s) as [|q l] eqn:Q; [destruct Hp|]. inversion U as [|? ? [Fq Bq] Ul]; subst. cbn [length] in Len.
  destruct (cum_last q l q 1 Fq Bq Ul ltac:(lia) ltac:(lia)) as (A & B & C). rewrite (last_nth q f0) in *. set (c := q :: cumulated q l) in *.
  assert (Lc : length c = length ws) by (unfold c; cbn [length]; rewrite cum_length; exact Len). rewrite cum_length in *.
  split; [rewrite map_length; exact Lc|]. set (T := nth (length l) c f0) in *.
  assert (Near : forall k, (k <= length l)%nat -> is_finite (nth k c f0) = true /\ 0 <= B2R (nth k c f0) <= B2R T /\ Rabs (B2R (nth k c f0) - rsum (firstn (Datatypes.S k) (q :: l))) <= 2 * pw (-32)).
  { intros k K. rewrite Forall_forall in B. assert (K' : (k < length c)%nat) by (rewrite Lc; lia). destruct (B (nth k c f0)) as (B1 & B2 & B3); [exact (nth_In c f0 K')|]. split; [exact B1|]. split; [split; [exact (Rle_trans _ _ _ (proj1 Bq) B2)|exact B3]|].
    destruct (cum_tree l q (Num q) k eq_refl K) as (t & L & E). cbn [leaves app] in L. change (q :: firstn k l) with (firstn (Datatypes.S k) (q :: l)) in L. fold c in E. rewrite <- E in B1 |- *.
    assert (Nt : Forall nonneg (leaves t)). { rewrite L. apply Forall_forall. intros x Hx. rewrite Forall_forall in Np. apply Np. exact (firstn_In_ _ _ x Hx). }
    assert (Ct : count t <= pw 20). { unfold count. rewrite L, firstn_length, INR_IZR_INZ. change (pw 20) with (IZR (2 ^ 20)). apply IZR_le. cbn [length]. lia. }
    destruct (total_close t Nt B1) as (Cl & _); [apply Rle_trans with (pw 20); [exact Ct|apply bpow_le; lia]|]. rewrite L in Cl. eapply Rle_trans; [exact Cl|].
    destruct (rsum_firstn (q :: l) (Datatypes.S k) Np) as (F1 & F2). set (f := rsum (firstn (Datatypes.S k) (q :: l))) in *. apply Rabs_le_inv in Sum.
    assert (X : count t * pw (-52) <= pw (-32)) by (change (-32)%Z with (20 + -52)%Z; rewrite bpow_plus; apply Rmult_le_compat_r; [apply bpow_ge_0|exact Ct]).
    assert (0 <= count t * pw (-52)) by (apply Rmult_le_pos; [assert (Y := count_ge t); lra|apply bpow_ge_0]). nra. }
  destruct (Near (length l) (le_n _)) as (_ & _ & NT). fold T in NT. replace (firstn (Datatypes.S (length l)) (q :: l)) with (q :: l) in NT by (symmetry; apply (firstn_all (q :: l))).
  destruct (Near j ltac:(lia)) as (Fx & Bx & Nx). rewrite (nth_indep _ f0 (fdiv f0 T)) by (rewrite map_length; lia). rewrite (map_nth (fun x => fdiv x T)). set (x := nth j c f0) in *.
  apply Rabs_le_inv in NT, Sum, Nx, Share. set (tt := B2R T) in *. assert (PT : 1 - 5 * pw (-32) <= tt <= 1 + 5 * pw (-32)) by lra. assert (PT' : 0 < tt) by lra.
  set (xx := B2R x) in *. assert (B' : 0 <= xx / tt <= 1).
  { split; [apply Rmult_le_pos; [lra|left; apply Rinv_0_lt_compat, PT']|]. apply (Rmult_le_reg_r tt); [exact PT'|]. unfold Rdiv. rewrite Rmult_assoc, Rinv_l by lra. lra. }
  assert (Dv : is (fdiv x T) (rnd (xx / tt))). { apply (fdiv_is _ _ _ _ 0 (is_R x Fx) (is_R T A)); [exact (Rgt_not_eq _ _ PT')|lia|]. change (pw 0) with 1. fold xx tt. rewrite Rabs_pos_eq by exact (proj1 B'). exact (proj2 B'). }
  destruct Dv as [Fd Qd]. split; [exact Fd|]. rewrite Qd. assert (Rn := rnd_near (xx / tt) (proj1 B')). apply Rabs_le_inv in Rn.
  assert (M : pw (-1075) <= pw (-53)) by (apply bpow_le; lia). assert (Iv : xx / tt * tt = xx) by (unfold Rdiv; rewrite Rmult_assoc, Rinv_l by lra; ring).
  set (z := xx / tt) in *. assert (- (5 * pw (-32)) <= z - xx <= 5 * pw (-32)) by (rewrite <- Iv; nra). assert (pw (-53) * z <= pw (-53)) by nra. apply Rabs_le. lra.
Qed.
Lemma above_spec u : forall l k, (first_above u l k < k + length l)%nat -> exists i, first_above u l k = (k + i)%nat /\ (i < length l)%nat /\ flt u (nth i l f0) = true /\ forall j, (j < i)%nat -> flt u (nth j l f0) = false.
Proof.
  induction l as [|x l IH]; intros k H; cbn [first_above length] in *; [lia|]. destruct (flt u x) eqn:E.
  - exists 0%nat. repeat split; try lia. exact E.
  - destruct (IH (S k)) as (i & I1 & I2 & I3 & I4); [lia|]. exists (S i). repeat split; try lia; [exact I3|]. intros [|j] Hj; [exact E|apply I4; lia].
Qed.
(** C130: the drawn number lies in the share of [0, 1) of the chosen weight, up to 2^-28: a choice is made as often as its weight says *)
Theorem C130_frequency ws s u r : proper ws s -> is u r -> 0 <= r < 1 -> let i := choose (probs ws s) u in
  rsum (firstn i ws) / rsum ws - pw (-28) <= r < rsum (firstn (S i) ws) / rsum ws + pw (-28).
Proof.
  intros P Hu Br i. destruct (C130_choice ws s u r P Hu Br) as (I1 & _). fold i in I1. destruct (cdf_near ws s i P I1) as (Lc & Fi & Ni).
  unfold choose in i. destruct (above_spec u (cdf (probs ws s)) 0) as (k & K1 & K2 & K3 & K4); [fold i; lia|]. fold i in K1. cbn [plus] in K1. subst k.
  rewrite (flt_is _ _ _ _ Hu (is_R _ Fi)) in K3. destruct (Rlt_bool_spec r (B2R (nth i (cdf (probs ws s)) f0))) as [C|C]; [|discriminate]. apply Rabs_le_inv in Ni. split; [|lra].
  destruct i as [|i'] eqn:Ei.
  - cbn [firstn rsum]. unfold Rdiv. rewrite Rmult_0_l. assert (0 < pw (-28)) by apply bpow_gt_0. lra.
  - destruct (cdf_near ws s i' P ltac:(lia)) as (_ & Fj & Nj). specialize (K4 i' ltac:(lia)). rewrite (flt_is _ _ _ _ Hu (is_R _ Fj)) in K4.
    destruct (Rlt_bool_spec r (B2R (nth i' (cdf (probs ws s)) f0))) as [C'|C']; [discriminate|]. apply Rabs_le_inv in Nj. lra.
Qed.

(** ** The default value *)
Lemma argmax_spec : forall l i best x pre, length pre = i -> (best < i)%nat -> nth best pre f0 = x -> Forall (fun y => is_finite y = true) (pre ++ l) ->
  (forall j, (j < i)%nat -> B2R (nth j pre f0) <= B2R x /\ ((j < best)%nat -> B2R (nth j pre f0) < B2R x)) ->
  let r := argmax_from i best x l in (r < length (pre ++ l))%nat /\
  forall j, (j < length (pre ++ l))%nat -> B2R (nth j (pre ++ l) f0) <= B2R (nth r (pre ++ l) f0) /\ ((j < r)%nat -> B2R (nth j (pre ++ l) f0) < B2R (nth r (pre ++ l) f0)).
Proof.
  induction l as [|y l IH]; intros i best x pre Li Lb Nx F H r.
  - subst r. cbn [argmax_from]. rewrite app_nil_r. rewrite Nx, Li. split; [exact Lb|exact H].
  - rewrite Forall_forall in F. assert (Fx : is_finite x = true) by (apply F; rewrite <- Nx; apply in_or_app; left; apply nth_In; lia).
    assert (Fy : is_finite y = true) by (apply F, in_or_app; right; left; reflexivity).
    subst r. cbn [argmax_from]. rewrite (is_not_nan _ _ (is_R _ Fx)), (is_not_nan _ _ (is_R _ Fy)). cbn [orb]. rewrite (flt_is _ _ _ _ (is_R _ Fx) (is_R _ Fy)).
    replace (pre ++ y :: l) with ((pre ++ [y]) ++ l) in * by (rewrite <- app_assoc; reflexivity). rewrite <- Forall_forall in F.
    assert (L1 : length (pre ++ [y]) = S i) by (rewrite app_length; simpl; lia).
    destruct (Rlt_bool_spec (B2R x) (B2R y)) as [C|C].
    + apply (IH (S i) i y (pre ++ [y]) L1); [lia| |exact F|].
      * rewrite app_nth2 by lia. rewrite Li, Nat.sub_diag. reflexivity.
      * intros j Hj. destruct (Nat.eq_dec j i) as [->|Nj].
        -- rewrite app_nth2 by lia. rewrite Li, Nat.sub_diag. cbn [nth]. split; [apply Rle_refl|lia].
        -- rewrite app_nth1 by lia. destruct (H j ltac:(lia)) as (H1 & _). split; [|intros _]; lra.
    + apply (IH (S i) best x (pre ++ [y]) L1); [lia| |exact F|].
      * rewrite app_nth1 by lia. exact Nx.
      * intros j Hj. destruct (Nat.eq_dec j i) as [->|Nj].
        -- rewrite app_nth2 by lia. rewrite Li, Nat.sub_diag. cbn [nth]. split; [exact C|lia].
        -- rewrite app_nth1 by lia. apply H. lia.
Qed.
(** C130: without a default value the first choice of the highest probability is taken; its weight is positive, and a larger weight
    has the same probability after rounding.  That it has the highest weight is false, C130_default_refuted. *)
Theorem C130_default_partial ws s : proper ws s -> let i := fargmax (probs ws s) in let p j := B2R (nth j (probs ws s) f0) in
  (i < length ws)%nat /\ 0 < B2R (nth i ws f0) /\
  (forall j, (j < length ws)%nat -> p j <= p i /\ ((j < i)%nat -> p j < p i)) /\
  (forall j, (j < length ws)%nat -> B2R (nth i ws f0) < B2R (nth j ws f0) -> p j = p i).
Proof.
  intros P i p. destruct (probs_unit ws s P) as (U & q & Hq & Pq).
  assert (Len : length (probs ws s) = length ws) by apply map_length.
  assert (G : (i < length (probs ws s))%nat /\ forall j, (j < length (probs ws s))%nat -> p j <= p i /\ ((j < i)%nat -> p j < p i)).
  { subst p i. unfold fargmax. destruct (probs ws s) as [|x l]; [destruct Hq|]. apply (argmax_spec l 1 0 x [x]); [reflexivity|lia|reflexivity| |].
    - eapply Forall_impl; [|exact U]. intros y [Y _]. exact Y.
    - intros j Hj. replace j with 0%nat by lia. cbn [nth]. split; [apply Rle_refl|lia]. }
  rewrite Len in G. destruct G as (G1 & G2). split; [exact G1|].
  assert (Np : forall j, (j < length ws)%nat -> p j = B2R (fdiv (nth j ws f0) s)).
  { intros j Hj. subst p. cbv beta. unfold probs. rewrite (nth_indep _ f0 (fdiv f0 s)) by (rewrite map_length; exact Hj). rewrite (map_nth (fun w => fdiv w s)). reflexivity. }
  split; [|split; [exact G2|]].
  - destruct (In_nth _ _ f0 Hq) as (j & Hj & Qj). rewrite Len in Hj. destruct (G2 j Hj) as (G3 & _). assert (Pi : 0 < p i) by (apply Rlt_le_trans with (p j); [|exact G3]; subst p; cbv beta; rewrite Qj; exact Pq).
    rewrite (Np i G1) in Pi. assert (Hw : In (nth i ws f0) ws) by (apply nth_In, G1). destruct (C130_probability ws s P _ Hw) as (_ & _ & Z & _).
    destruct (proper_facts ws s P) as (N & _). rewrite Forall_forall in N. destruct (N _ Hw) as [_ X]. destruct (Req_dec (B2R (nth i ws f0)) 0) as [Y|Y]; [rewrite (Z Y) in Pi; lra|lra].
  - intros j Hj W. apply Rle_antisym; [apply G2, Hj|]. rewrite (Np i G1), (Np j Hj). destruct (C130_probability ws s P _ (nth_In _ f0 G1)) as (_ & _ & _ & M). apply M; [apply nth_In, Hj|lra].
Qed.

(** ** Cases *)
Definition tiny (k : Z) : f64 := fdiv f1 (of_Z (2 ^ k)).
Definition close_weights : list f64 := [fsub (of_Z 2) (tiny 51); fsub (of_Z 2) (tiny 52); fdiv (of_Z 3) (of_Z 2); fdiv (of_Z 3) (of_Z 2)].
Theorem C130_default_refuted : exists s, proper close_weights s /\ fargmax (probs close_weights s) = 0%nat /\ flt (nth 0 close_weights f0) (nth 1 close_weights f0) = true.
Proof.
  exists (fadd (fadd (nth 0 close_weights f0) (nth 1 close_weights f0)) (fadd (nth 2 close_weights f0) (nth 3 close_weights f0))). split; [|split; vm_compute; reflexivity].
  split; [vm_compute; reflexivity|]. split; [repeat (constructor; [vm_compute; reflexivity|]); constructor|].
  split; [exists (Add (Add (Num (nth 0 close_weights f0)) (Num (nth 1 close_weights f0))) (Add (Num (nth 2 close_weights f0)) (Num (nth 3 close_weights f0)))); split; [reflexivity|left; apply Permutation_refl]|]. split; [vm_compute; reflexivity|]. simpl. lia.
Qed.
(** weights whose sum overflows are accepted, and all probabilities are zero *)
Definition huge_weights : list f64 := [of_Z (10 ^ 308); of_Z (10 ^ 308)].
Theorem C130_overflow_refuted : exists s, weights_ok huge_weights = true /\ forallb is_finite huge_weights = true /\ sum_of huge_weights s /\ forallb (fun p => feq p f0) (probs huge_weights s) = true.
Proof.
  exists (fadd (nth 0 huge_weights f0) (nth 1 huge_weights f0)). split; [vm_compute; reflexivity|]. split; [vm_compute; reflexivity|].
  split; [exists (Add (Num (nth 0 huge_weights f0)) (Num (nth 1 huge_weights f0))); split; [reflexivity|left; apply Permutation_refl]|]. vm_compute. reflexivity.
Qed.
(** so are weights that are infinite or no numbers, and then probabilities are no numbers *)
Theorem C130_nan_refuted : exists s s', weights_ok [fdiv f1 f0; f1] = true /\ sum_of [fdiv f1 f0; f1] s /\ map is_nan (probs [fdiv f1 f0; f1] s) = [true; false] /\
  weights_ok [fdiv f0 f0; f1] = true /\ sum_of [fdiv f0 f0; f1] s' /\ map is_nan (probs [fdiv f0 f0; f1] s') = [true; true].
Proof.
  exists (fadd (fdiv f1 f0) f1), (fadd (fdiv f0 f0) f1). split; [vm_compute; reflexivity|].
  split; [exists (Add (Num (fdiv f1 f0)) (Num f1)); split; [reflexivity|left; apply Permutation_refl]|]. split; [vm_compute; reflexivity|]. split; [vm_compute; reflexivity|].
  split; [exists (Add (Num (fdiv f0 f0)) (Num f1)); split; [reflexivity|left; apply Permutation_refl]|]. vm_compute. reflexivity.
Qed.
(** three weights, one of them zero; drawing 0.5 chooses the third *)
Definition some_weights : list f64 := [fdiv f1 (of_Z 10); f0; fdiv (of_Z 7) (of_Z 10)].
Example C130_ex : exists s, proper some_weights s /\ choose (probs some_weights s) (fdiv f1 (of_Z 2)) = 2%nat /\ choose (probs some_weights s) f0 = 0%nat /\
  fargmax (probs some_weights s) = 2%nat.
Proof.
  exists (fadd (fadd f0 (fadd (nth 0 some_weights f0) f0)) (nth 2 some_weights f0)). split; [|repeat split; vm_compute; reflexivity].
  split; [vm_compute; reflexivity|]. split; [repeat (constructor; [vm_compute; reflexivity|]); constructor|].
  split; [exists (Add (Add (Num f0) (Add (Num (nth 0 some_weights f0)) (Num f0))) (Num (nth 2 some_weights f0))); split; [reflexivity|right; exists f0; split; [vm_compute; reflexivity|apply Permutation_refl]]|].
  split; [vm_compute; reflexivity|]. simpl. lia.
Qed.
