(** * Property C61: a hyperparameter object has what its constructor was given

    One theorem per constructor.  Real-valued arguments are compared with tolerances stated here:
    bounds and defaults of float hyperparameters are stored up to half a unit of the 13th decimal,
    bounds of integer hyperparameters are the nearest integers. *)
From Coq Require Import String List ZArith QArith Qround Qabs Bool Lia Lqa.
From Verif Require Import Base Numeric NumericProofs HP HPProofs Properties_HP.
Import ListNotations.
Open Scope Z_scope.

(** [z] is an integer nearest to [x]. *)
Definition nearest (x : Q) (z : Z) : Prop := (Qabs (x - inject_Z z) <= 1#2)%Q.
(** [y] is [x] up to half a unit in the 13th decimal. *)
Definition near13 (x y : Q) : Prop := (Qabs (y - x) <= (1#2) * (1 # 10000000000000))%Q.

Definition labelled (h : hp) (name : string) (meta : option string) : Prop :=
  hp_name h = name /\ hp_meta h = meta.

(** If a default is given, the stored default is related to it by [R]. *)
Definition default_from {A B} (given : option A) (R : A -> B -> Prop) (stored : B) : Prop :=
  forall d, given = Some d -> R d stored.

Lemma nearest_rint x : nearest x (rint x).
Proof.
  unfold nearest. destruct (rint_near x) as [A B]. apply Qabs_case; intros _; lra.
Qed.

Lemma nearest_Z x z : nearest (inject_Z x) z -> z = x.
Proof.
  unfold nearest. intro H. assert (A := Qle_trans _ _ _ (Qle_Qabs _) H).
  rewrite Qabs_Qminus in H. assert (B := Qle_trans _ _ _ (Qle_Qabs _) H).
  destruct (Z_lt_ge_dec z x) as [L|G].
  - assert (M : z + 1 <= x) by lia. apply (proj2 (inject_Z_le _ _)) in M.
    rewrite inject_Z_plus in M. change (inject_Z 1) with 1%Q in M. lra.
  - destruct (Z.eq_dec z x) as [|N]; auto. assert (M : x + 1 <= z) by lia.
    apply (proj2 (inject_Z_le _ _)) in M. rewrite inject_Z_plus in M.
    change (inject_Z 1) with 1%Q in M. lra.
Qed.

Lemma near13_round x : near13 x (round13 x).
Proof. apply round13_error. Qed.

(** np.argmax returns the position of a maximum *)
Lemma argmax_aux_spec l : forall (full : list Q) best bv i,
  (best < length full)%nat -> nth best full 0%Q = bv -> (i + length l = length full)%nat ->
  (forall j, (j < length l)%nat -> nth (i + j) full 0%Q = nth j l 0%Q) ->
  (forall j, (j < i)%nat -> (nth j full 0 <= bv)%Q) ->
  let k := argmax_aux best bv i l in
  (k < length full)%nat /\ forall j, (j < length full)%nat -> (nth j full 0 <= nth k full 0)%Q.
Proof.
  induction l as [|x l IH]; intros full best bv i Lb Eb Len Rest Max; simpl.
  - split; auto. intros j Lj. rewrite Eb. apply Max. simpl in Len. lia.
  - assert (X : nth i full 0%Q = x).
    { specialize (Rest O). simpl in Rest. rewrite Nat.add_0_r in Rest. apply Rest. lia. }
    simpl in Len.
    assert (R' : forall j, (j < length l)%nat -> nth (S i + j) full 0%Q = nth j l 0%Q).
    { intros j Lj. specialize (Rest (S j)). simpl in Rest. rewrite Nat.add_succ_r in Rest.
      simpl. apply Rest. lia. }
    destruct (Qltb bv x) eqn:T.
    + apply IH; auto; try lia. intros j Lj.
      destruct (Nat.eq_dec j i) as [->|]; [rewrite X; apply Qle_refl|].
      apply Qltb_lt in T. assert (M := Max j ltac:(lia)). lra.
    + apply IH; auto; try lia. intros j Lj.
      destruct (Nat.eq_dec j i) as [->|]; [rewrite X|apply Max; lia].
      apply Qnot_lt_le. intro F. apply Qltb_lt in F. congruence.
Qed.

Lemma argmax_spec l : l <> [] ->
  (argmax l < length l)%nat /\ forall j, (j < length l)%nat -> (nth j l 0 <= nth (argmax l) l 0)%Q.
Proof.
  destruct l as [|x l]; intro N; [easy|]. unfold argmax.
  apply argmax_aux_spec; simpl; auto; try lia.
  intros j Lj. destruct j; [apply Qle_refl|lia].
Qed.

Section Ctor.
  Context {E : Env}.

  Theorem C61_categorical n c d w m h : mk_categorical n c d w m = Ok h ->
    labelled h n m /\ hp_kind h = KCat c w /\ default_from d eq (hp_default h) /\
    (d = None -> w = None -> nth_error c 0 = Some (hp_default h)) /\
    (d = None -> forall ws, w = Some ws -> exists i,
       nth_error c i = Some (hp_default h) /\ forall j, (j < length ws)%nat -> (nth j ws 0 <= nth i ws 0)%Q).
  Proof.
    unfold mk_categorical. intro H. apply if_check in H. destruct H as [D H].
    apply if_check in H. destruct H as [W H]. apply if_check in H. destruct H as [P H].
    destruct c as [|c0 c]; [destruct w; discriminate|].
    apply finish_ok in H. destruct H as [-> H]. cbn [hp_name hp_meta hp_kind hp_default].
    split; [split; reflexivity|]. split; [reflexivity|]. split; [intros x ->; reflexivity|].
    split; [intros -> ->; reflexivity|]. intros -> ws ->.
    apply andb_true_iff in W. destruct W as [W W3]. apply andb_true_iff in W. destruct W as [W1 W2].
    apply Nat.eqb_eq in W1. apply negb_true_iff in W2. apply negb_true_iff in W3.
    assert (NN : Forall (fun x => (0 <= x)%Q) ws).
    { apply Forall_forall. intros x I. apply Qnot_lt_le. intro F. apply Qltb_lt in F.
      assert (G : existsb (fun x => Qltb x 0) ws = true) by (apply existsb_exists; exists x; auto).
      congruence. }
    assert (SP : (0 < Qsum ws)%Q).
    { assert (S0 := Qsum_nonneg _ NN). apply Qle_lteq in S0. destruct S0 as [|S0]; auto. exfalso.
      assert (Z0 : forallb (fun x => Qeq_bool x 0) ws = true); [|congruence].
      clear -NN S0. induction NN as [|x ws N NN IH]; auto. simpl in *.
      assert (S1 := Qsum_nonneg _ NN). unfold Qsum in *. simpl in S0.
      apply andb_true_iff. split; [apply Qeq_bool_iff; lra|apply IH; lra]. }
    set (ps := probabilities (c0 :: c) (Some ws)).
    assert (PL : length ps = length ws) by (unfold ps; simpl; apply map_length).
    assert (PN : ps <> []).
    { intro Z. rewrite Z in PL. simpl in PL. simpl in W1. lia. }
    destruct (argmax_spec ps PN) as [A1 A2]. exists (argmax ps).
    split.
    - apply nth_error_nth'. rewrite <- W1, <- PL. exact A1.
    - intros j Lj. assert (Q := A2 j ltac:(lia)).
      assert (PE : forall k, (k < length ws)%nat -> nth k ps 0%Q = (nth k ws 0 / Qsum ws)%Q).
      { intros k Lk. unfold ps. simpl.
        rewrite (nth_indep _ 0%Q (0 / Qsum ws)%Q) by (rewrite map_length; auto).
        apply (map_nth (fun x => (x / Qsum ws)%Q)). }
      rewrite !PE in Q by lia. unfold Qdiv in Q. apply Qmult_le_r in Q; auto.
      apply Qinv_lt_0_compat; auto.
  Qed.

  Theorem C61_ordinal n s d m h : mk_ordinal n s d m = Ok h ->
    labelled h n m /\ hp_kind h = KOrd s /\ default_from d eq (hp_default h) /\
    (d = None -> nth_error s 0 = Some (hp_default h)).
  Proof.
    unfold mk_ordinal. intro H. apply if_check in H. destruct H as [D H]. destruct d as [d|].
    - apply if_check in H. destruct H as [P H]. apply finish_ok in H. destruct H as [-> H].
      split; [split; reflexivity|]. split; [reflexivity|]. split; [|discriminate].
      intros x X. injection X as ->. reflexivity.
    - destruct s as [|d s]; [discriminate|]. apply finish_ok in H. destruct H as [-> H].
      split; [split; reflexivity|]. split; [reflexivity|]. split; [discriminate|reflexivity].
  Qed.

  Theorem C61_constant n v m h : mk_constant n v m = Ok h ->
    labelled h n m /\ hp_kind h = KConst v /\ hp_default h = v.
  Proof.
    unfold mk_constant. intro H. apply finish_ok in H. destruct H as [-> H].
    split; [split; reflexivity|]. split; reflexivity.
  Qed.

  (** Uniform integers truncate a given default instead of rounding it, see
      [C61_uniform_int_default_refuted]; integral defaults are kept. *)
  Theorem C61_uniform_int_partial n lower upper d log m h : mk_uniform_int n lower upper d log m = Ok h ->
    labelled h n m /\ exists lo hi z, hp_kind h = KInt lo hi log DUniform /\ hp_default h = VInt z /\
      nearest lower lo /\ nearest upper hi /\
      default_from d (fun x z => (inject_Z (Qfloor x) == x)%Q -> (inject_Z z == x)%Q) z /\
      default_from d (fun x z => (Qabs (x - inject_Z z) < 1)%Q) z /\
      (d = None -> log = false -> nearest ((inject_Z lo + inject_Z hi) / 2) z).
  Proof.
    unfold mk_uniform_int. cbv zeta. intro H. apply if_check in H. destruct H as [_ H].
    apply if_check in H. destruct H as [S H]. apply finish_ok in H. destruct H as [-> H].
    split; [split; reflexivity|]. do 3 eexists. split; [reflexivity|]. split; [reflexivity|].
    split; [apply nearest_rint|]. split; [apply nearest_rint|].
    split; [|split].
    - intros x ->. intro I. unfold py_int. destruct (Qle_bool 0 x); auto.
      assert (C : Qceiling x = Qfloor x).
      { rewrite <- I at 1. apply Qceiling_Z. }
      rewrite C. exact I.
    - intros x ->. unfold py_int. destruct (Qle_bool 0 x).
      + assert (A := Qfloor_le x). assert (B := Qlt_floor x). rewrite inject_Z_plus in B.
        change (inject_Z 1) with 1%Q in B. rewrite Qabs_pos; lra.
      + assert (A := Qle_ceiling x). assert (B := Qceiling_lt x). unfold Zminus in B.
        rewrite inject_Z_plus in B. change (inject_Z (Z.opp 1)) with (-1 # 1)%Q in B.
        apply Qabs_case; intros _; lra.
    - intros -> ->. set (x := unit_raw _ _ _ _).
      assert (X : (x == (inject_Z (rint lower) + inject_Z (rint upper)) / 2)%Q).
      { unfold x, unit_raw, scale. field. }
      unfold nearest. rewrite <- X. apply nearest_rint.
  Qed.

  Theorem C61_normal_int n mu sigma lower upper d log m h : mk_normal_int n mu sigma lower upper d log m = Ok h ->
    labelled h n m /\ exists lo hi z, hp_kind h = KInt lo hi log (DNormal mu sigma) /\ hp_default h = VInt z /\
      nearest lower lo /\ nearest upper hi /\ default_from d nearest z /\
      (d = None -> (inject_Z lo <= mu <= inject_Z hi)%Q -> nearest mu z).
  Proof.
    unfold mk_normal_int. cbv zeta. intro H. apply if_check in H. destruct H as [_ H].
    apply if_check in H. destruct H as [S H]. apply if_check in H. destruct H as [_ H].
    apply finish_ok in H. destruct H as [-> H].
    split; [split; reflexivity|]. do 3 eexists. split; [reflexivity|]. split; [reflexivity|].
    split; [apply nearest_rint|]. split; [apply nearest_rint|].
    split; [intros x ->; apply nearest_rint|].
    intros -> [A B]. rewrite (rint_proper _ _ (qclip_id _ _ _ A B)). apply nearest_rint.
  Qed.

  Theorem C61_beta_int n a b lower upper d log m h : mk_beta_int n a b lower upper d log m = Ok h ->
    labelled h n m /\ exists lo hi z, hp_kind h = KInt lo hi log (DBeta a b) /\ hp_default h = VInt z /\
      nearest lower lo /\ nearest upper hi /\ default_from d nearest z.
  Proof.
    unfold mk_beta_int. cbv zeta. intro H. apply if_check in H. destruct H as [_ H].
    apply if_check in H. destruct H as [S H]. apply if_check in H. destruct H as [_ H].
    apply finish_ok in H. destruct H as [-> H].
    split; [split; reflexivity|]. do 3 eexists. split; [reflexivity|]. split; [reflexivity|].
    split; [apply nearest_rint|]. split; [apply nearest_rint|].
    intros x ->; apply nearest_rint.
  Qed.

  Theorem C61_uniform_float n lower upper d log m h : mk_uniform_float n lower upper d log m = Ok h ->
    labelled h n m /\ exists lo hi x, hp_kind h = KFloat lo hi log DUniform /\ hp_default h = VFloat x /\
      near13 lower lo /\ near13 upper hi /\ default_from d near13 x /\
      (d = None -> log = false -> near13 ((lo + hi) / 2) x).
  Proof.
    unfold mk_uniform_float. cbv zeta. intro H. apply if_check in H. destruct H as [S H].
    apply finish_ok in H. destruct H as [-> H].
    split; [split; reflexivity|]. do 3 eexists. split; [reflexivity|]. split; [reflexivity|].
    split; [apply near13_round|]. split; [apply near13_round|].
    split; [intros x ->; apply near13_round|].
    intros -> ->. set (lo := round13 lower) in *. set (hi := round13 upper) in *.
    apply (proj1 (scaler_ok_iff _ _ _)) in S. destruct S as [S _].
    set (x := unit_raw lo hi false (1#2)).
    assert (X : (x == (lo + hi) / 2)%Q) by (unfold x, unit_raw, scale; field).
    assert (Y : (qclip x lo hi == x)%Q) by (clear -S X; apply qclip_id; rewrite X; [apply Qle_shift_div_l|apply Qle_shift_div_r]; try reflexivity; lra).
    unfold near13. rewrite <- X. rewrite (round13_proper _ _ Y). apply near13_round.
  Qed.

  Theorem C61_normal_float n mu sigma lower upper d log m h :
    mk_normal_float n mu sigma lower upper d log m = Ok h ->
    labelled h n m /\ exists lo hi x mu' sigma', hp_kind h = KFloat lo hi log (DNormal mu' sigma') /\
      hp_default h = VFloat x /\ near13 mu mu' /\ near13 sigma sigma' /\
      near13 lower lo /\ near13 upper hi /\ default_from d near13 x.
  Proof.
    unfold mk_normal_float. cbv zeta. intro H. apply if_check in H. destruct H as [_ H].
    apply if_check in H. destruct H as [S H]. apply finish_ok in H. destruct H as [-> H].
    split; [split; reflexivity|]. do 5 eexists. split; [reflexivity|]. split; [reflexivity|].
    split; [apply near13_round|]. split; [apply near13_round|].
    split; [apply near13_round|]. split; [apply near13_round|].
    intros x ->; apply near13_round.
  Qed.

  Theorem C61_beta_float n a b lower upper d log m h :
    mk_beta_float n a b lower upper d log m = Ok h ->
    labelled h n m /\ exists lo hi x a' b', hp_kind h = KFloat lo hi log (DBeta a' b') /\
      hp_default h = VFloat x /\ near13 a a' /\ near13 b b' /\
      near13 lower lo /\ near13 upper hi /\ default_from d near13 x.
  Proof.
    unfold mk_beta_float. cbv zeta. intro H. apply if_check in H. destruct H as [_ H].
    apply if_check in H. destruct H as [S H]. apply finish_ok in H. destruct H as [-> H].
    split; [split; reflexivity|]. do 5 eexists. split; [reflexivity|]. split; [reflexivity|].
    split; [apply near13_round|]. split; [apply near13_round|].
    split; [apply near13_round|]. split; [apply near13_round|].
    intros x ->; apply near13_round.
  Qed.
End Ctor.

Section Examples.
  #[local] Existing Instance rat_env.

  (** UniformIntegerHyperparameter("i", 99990, 100010, default_value=100000.9).default_value is
      100000; the normal and beta variants return 100001. *)
  Theorem C61_uniform_int_default_refuted : exists n lower upper d log m h z,
    mk_uniform_int n lower upper (Some d) log m = Ok h /\ hp_default h = VInt z /\ ~ nearest d z.
  Proof.
    exists "i"%string, (99990#1), (100010#1), (1000009#10), false, None. do 2 eexists.
    split; [vm_compute; reflexivity|]. split; [reflexivity|].
    unfold nearest. intro H. vm_compute in H. apply H. reflexivity.
  Qed.

  (** weights 1, 3, 3: the first of the heaviest choices is the default *)
  Example ex_weighted : exists h, mk_categorical "c" [VStr "x"; VStr "y"; VStr "z"] None
      (Some [1%Q; 3%Q; 3%Q]) (Some "m"%string) = Ok h /\ hp_default h = VStr "y" /\ labelled h "c" (Some "m"%string).
  Proof. eexists. split; [vm_compute; reflexivity|]. split; [reflexivity|]. split; reflexivity. Qed.

  Example ex_given : exists h, mk_uniform_float "f" (1#3) 2 (Some (5#4)) false None = Ok h /\
    exists x, hp_default h = VFloat x /\ (x == 5#4)%Q.
  Proof. eexists. split; [vm_compute; reflexivity|]. eexists. split; reflexivity. Qed.
  Example ex_middle : exists h, mk_uniform_int "i" 2 9 None false None = Ok h /\ hp_default h = VInt 6.
  Proof. eexists. split; vm_compute; reflexivity. Qed.
  Example ex_mu : exists h, mk_normal_int "i" (7#2) 1 0 9 None false None = Ok h /\ hp_default h = VInt 4.
  Proof. eexists. split; vm_compute; reflexivity. Qed.
  Example ex_beta : exists h, mk_beta_float "i" 3 2 0 9 None false None = Ok h /\
    exists x, hp_default h = VFloat x /\ (x == 6)%Q.
  Proof. eexists. split; [vm_compute; reflexivity|]. eexists. split; reflexivity. Qed.
End Examples.
