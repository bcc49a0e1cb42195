(** * Lemmas about hyperparameters *)
From Coq Require Import String List ZArith QArith Qround Qabs Bool Lia Lqa Setoid Morphisms.
From Verif Require Import Base Numeric NumericProofs HP.
Import ListNotations.
Open Scope Z_scope.

(** ** Python equality *)
Lemma py_eqb_refl v : py_eqb v v = true.
Proof.
  unfold py_eqb. destruct v; simpl; try apply Qeq_bool_refl; auto.
  apply String.eqb_refl.
Qed.

Lemma Qeq_bool_comm' a b : Qeq_bool a b = Qeq_bool b a.
Proof.
  destruct (Qeq_bool b a) eqn:E.
  - apply Qeq_bool_iff in E. apply Qeq_bool_iff. symmetry. auto.
  - apply Qeq_bool_false in E. apply Qeq_bool_false. intro. apply E. symmetry. auto.
Qed.

Lemma py_eqb_sym v w : py_eqb v w = py_eqb w v.
Proof.
  unfold py_eqb. destruct (num_of v) as [a|] eqn:A, (num_of w) as [b|] eqn:B; auto.
  - apply Qeq_bool_comm'.
  - destruct v, w; auto; try discriminate. apply String.eqb_sym.
Qed.

Lemma py_eqb_trans u v w : py_eqb u v = true -> py_eqb v w = true -> py_eqb u w = true.
Proof.
  unfold py_eqb. destruct (num_of u) as [a|] eqn:A, (num_of v) as [b|] eqn:B, (num_of w) as [c|] eqn:C;
    try discriminate; auto.
  - rewrite !Qeq_bool_iff. intros. rewrite H. auto.
  - destruct u, v, w; try discriminate; auto.
    rewrite !String.eqb_eq. congruence.
Qed.

Lemma py_eqb_congr_l u v w : py_eqb u v = true -> py_eqb u w = py_eqb v w.
Proof.
  intro H. destruct (py_eqb v w) eqn:E.
  - eapply py_eqb_trans; eauto.
  - destruct (py_eqb u w) eqn:F; auto.
    rewrite py_eqb_sym in H. rewrite (py_eqb_trans _ _ _ H F) in E. discriminate.
Qed.

Lemma py_eqb_num u v a : num_of u = Some a -> py_eqb u v = true ->
  exists b, num_of v = Some b /\ (a == b)%Q.
Proof.
  unfold py_eqb. intros ->. destruct (num_of v) as [b|]; [|discriminate].
  intro H. apply Qeq_bool_iff in H. eauto.
Qed.

Lemma py_eqb_num_none u v : num_of u = None -> py_eqb u v = true -> num_of v = None.
Proof. unfold py_eqb. intros ->. destruct (num_of v); [discriminate|auto]. Qed.

(** ** py_index / py_in *)
Lemma py_in_iff v l : py_in v l = true <-> exists w, In w l /\ py_eqb v w = true.
Proof. unfold py_in. rewrite existsb_exists. firstorder. Qed.

Lemma py_index_some v l i : py_index v l = Some i ->
  exists w, nth_error l i = Some w /\ py_eqb w v = true /\
    (forall j w', (j < i)%nat -> nth_error l j = Some w' -> py_eqb w' v = false).
Proof.
  revert i. induction l as [|a l IH]; intros i; simpl; [discriminate|].
  destruct (py_eqb a v) eqn:E.
  - intro H. injection H as <-. exists a. simpl. split; auto. split; auto. intros; lia.
  - destruct (py_index v l) as [k|] eqn:K; simpl; [|discriminate].
    intro H. injection H as <-. destruct (IH k eq_refl) as (w & N & Q & F).
    exists w. simpl. split; auto. split; auto.
    intros [|j] w' L N'; simpl in N'. { injection N' as <-. auto. }
    apply (F j w'); auto. lia.
Qed.

Lemma py_index_none v l : py_index v l = None <-> py_in v l = false.
Proof.
  induction l as [|a l IH]; simpl; [tauto|].
  unfold py_in. simpl. rewrite (py_eqb_sym v a).
  destruct (py_eqb a v); simpl; [split; discriminate|].
  destruct (py_index v l) eqn:E; simpl.
  - split; [discriminate|]. intro H. apply IH in H. discriminate.
  - split; auto. intros _. apply IH. auto.
Qed.

Lemma py_in_index v l : py_in v l = true -> exists i, py_index v l = Some i.
Proof.
  intro H. destruct (py_index v l) eqn:E; eauto. apply py_index_none in E. congruence.
Qed.

Lemma py_index_lt v l i : py_index v l = Some i -> (i < length l)%nat.
Proof.
  intro H. apply py_index_some in H. destruct H as (w & N & _). apply nth_error_Some. congruence.
Qed.

Lemma has_dup_nth l i j v w : has_dup l = false -> nth_error l i = Some v -> nth_error l j = Some w ->
  py_eqb v w = true -> i = j.
Proof.
  revert i j. induction l as [|a l IH]; intros i j; simpl.
  - intros _ H. destruct i; discriminate.
  - intro D. apply orb_false_iff in D. destruct D as [D1 D2].
    destruct i as [|i], j as [|j]; simpl; intros N M Q; eauto.
    + injection N as <-. apply nth_error_In in M.
      assert (py_in a l = true) by (apply py_in_iff; eauto). congruence.
    + injection M as <-. apply nth_error_In in N.
      assert (py_in a l = true) by (apply py_in_iff; rewrite py_eqb_sym in Q; eauto). congruence.
Qed.

Lemma py_index_nth l i v : has_dup l = false -> nth_error l i = Some v -> py_index v l = Some i.
Proof.
  intros D N. destruct (py_index v l) as [j|] eqn:E.
  - destruct (py_index_some _ _ _ E) as (w & M & Q & _).
    f_equal. apply (has_dup_nth l j i w v); auto.
  - apply py_index_none in E. apply nth_error_In in N.
    assert (py_in v l = true) by (apply py_in_iff; exists v; split; auto; apply py_eqb_refl).
    congruence.
Qed.

Lemma py_index_congr v w l : py_eqb v w = true -> py_index v l = py_index w l.
Proof.
  intro H. induction l as [|a l IH]; simpl; auto. rewrite IH.
  rewrite (py_eqb_sym a v), (py_eqb_sym a w), (py_eqb_congr_l v w a H). reflexivity.
Qed.

Lemma np_index_nat l i : (i < length l)%nat ->
  exists v, nth_error l i = Some v /\ np_index l (Z.of_nat i) = Ok v.
Proof.
  intro H. destruct (nth_error l i) as [v|] eqn:E.
  - exists v. split; auto. unfold np_index.
    replace (Z.of_nat i <? 0) with false by (symmetry; apply Z.ltb_ge; lia).
    replace ((0 <=? Z.of_nat i) && (Z.of_nat i <? Z.of_nat (length l)))%bool with true.
    + rewrite Nat2Z.id, E. auto.
    + symmetry. apply andb_true_iff. split; [apply Z.leb_le | apply Z.ltb_lt]; lia.
  - apply nth_error_None in E. lia.
Qed.

Lemma legal_seq_nat n i : (i < n)%nat -> legal_seq n (inject_Z (Z.of_nat i)) = true.
Proof.
  intro H. unfold legal_seq. rewrite is_close_to_integer_Z.
  replace (Qle_bool 0 (inject_Z (Z.of_nat i))) with true.
  replace (Qltb (inject_Z (Z.of_nat i)) (inject_Z (Z.of_nat n))) with true; auto.
  - symmetry. apply Qltb_lt. apply inject_Z_lt. lia.
  - symmetry. apply Qle_bool_iff. apply inject_Z_nonneg. lia.
Qed.

(** ** The instance of log/exp *)
Lemma rat_env_laws : EnvLaws rat_env.
Proof.
  assert (Lc : forall x y, (x == y)%Q -> (rat_log x == rat_log y)%Q).
  { intros x y H. unfold rat_log. rewrite (Qle_bool_proper _ _ (Qeq_refl 1) _ _ H).
    destruct (Qle_bool 1 y); rewrite H; reflexivity. }
  assert (Ec : forall x y, (x == y)%Q -> (rat_exp x == rat_exp y)%Q).
  { intros x y H. unfold rat_exp. rewrite (Qle_bool_proper _ _ (Qeq_refl 0) _ _ H).
    destruct (Qle_bool 0 y); rewrite H; reflexivity. }
  split; cbn [flog fexp rat_env]; auto.
  - intro y. unfold rat_exp. destruct (Qle_bool 0 y) eqn:E.
    + apply Qle_bool_iff in E. lra.
    + apply Qle_bool_false in E. apply Qinv_lt_0_compat. lra.
  - intros x H. unfold rat_log. destruct (Qle_bool 1 x) eqn:E.
    + apply Qle_bool_iff in E. unfold rat_exp.
      destruct (Qle_bool 0 (x - 1)) eqn:F; [lra|]. apply Qle_bool_false in F. lra.
    + apply Qle_bool_false in E. unfold rat_exp.
      assert (1 < / x)%Q. { rewrite <- (Qmult_1_l (/ x)). apply (Qlt_shift_div_l 1 1 x); auto. lra. }
      destruct (Qle_bool 0 (1 - / x)) eqn:F; [apply Qle_bool_iff in F; lra|].
      assert (G : (1 - (1 - / x) == / x)%Q) by lra. rewrite G. field. lra.
  - intro y. unfold rat_exp. destruct (Qle_bool 0 y) eqn:E.
    + apply Qle_bool_iff in E. unfold rat_log.
      destruct (Qle_bool 1 (y + 1)) eqn:F; [lra|]. apply Qle_bool_false in F. lra.
    + apply Qle_bool_false in E. unfold rat_log.
      assert (/ (1 - y) < 1)%Q.
      { rewrite <- (Qmult_1_l (/ (1 - y))). apply (Qlt_shift_div_r 1 (1-y) 1); lra. }
      destruct (Qle_bool 1 (/ (1 - y))) eqn:F; [apply Qle_bool_iff in F; lra|].
      field. lra.
  - intros x y H K. unfold rat_log.
    destruct (Qle_bool 1 x) eqn:E, (Qle_bool 1 y) eqn:F;
      try (apply Qle_bool_iff in E); try (apply Qle_bool_iff in F);
      try (apply Qle_bool_false in E); try (apply Qle_bool_false in F); try lra.
    + assert (1 < / x)%Q. { rewrite <- (Qmult_1_l (/ x)). apply (Qlt_shift_div_l 1 1 x); auto. lra. }
      lra.
    + assert (/ y < / x)%Q.
      { rewrite <- (Qmult_1_l (/ x)). apply (Qlt_shift_div_l _ 1 x); auto.
        rewrite Qmult_comm. apply (Qlt_shift_div_r x y 1); lra. }
      lra.
Qed.

(** ** The unit scaler *)
Section Laws.
  Context {E : Env} {L : EnvLaws E}.

  Global Instance flog_proper : Proper (Qeq ==> Qeq) flog.
  Proof. intros x y H. apply flog_comp. auto. Qed.
  Global Instance fexp_proper : Proper (Qeq ==> Qeq) fexp.
  Proof. intros x y H. apply fexp_comp. auto. Qed.

  (** admissible bounds *)
  Definition bounds_ok (lo hi : Q) (log : bool) : Prop :=
    (lo < hi)%Q /\ (log = true -> (0 < lo)%Q).

  Lemma scaler_ok_iff lo hi log : scaler_ok lo hi log = true <-> bounds_ok lo hi log.
  Proof.
    unfold scaler_ok, bounds_ok. rewrite andb_true_iff, !negb_true_iff, Qle_bool_false.
    destruct log; simpl.
    - rewrite Qle_bool_false. tauto.
    - split; intros [A B]; split; auto. discriminate.
  Qed.

  Lemma fexp_lt x y : (x < y)%Q -> (fexp x < fexp y)%Q.
  Proof.
    intro H. destruct (Qlt_le_dec (fexp x) (fexp y)) as [|G]; auto. exfalso.
    destruct (Qlt_le_dec (fexp y) (fexp x)) as [G'|G'].
    - apply flog_lt in G'; [|apply fexp_pos]. rewrite !flog_fexp in G'. lra.
    - assert (EQ : (fexp x == fexp y)%Q) by lra. apply flog_comp in EQ. rewrite !flog_fexp in EQ. lra.
  Qed.

  Lemma flog_le x y : (0 < x)%Q -> (x <= y)%Q -> (flog x <= flog y)%Q.
  Proof.
    intros P H. destruct (Qlt_le_dec x y) as [G|G].
    - apply Qlt_le_weak, flog_lt; auto.
    - assert (EQ : (x == y)%Q) by lra. rewrite EQ. lra.
  Qed.
  Lemma fexp_le x y : (x <= y)%Q -> (fexp x <= fexp y)%Q.
  Proof.
    intros H. destruct (Qlt_le_dec x y) as [G|G].
    - apply Qlt_le_weak, fexp_lt; auto.
    - assert (EQ : (x == y)%Q) by lra. rewrite EQ. lra.
  Qed.

  Global Instance unit_raw_proper lo hi log : Proper (Qeq ==> Qeq) (unit_raw lo hi log).
  Proof. intros x y H. unfold unit_raw. destruct log; rewrite H; reflexivity. Qed.

  (** the finite part of unit_to_vector *)
  Definition unit_norm (lo hi : Q) (log : bool) (x : Q) : Q :=
    if log then normalize (flog x) (flog lo) (flog hi) else normalize x lo hi.

  Lemma unit_to_vector_fin lo hi log x : (log = true -> (0 < x)%Q) ->
    unit_to_vector lo hi log x = Fin (unit_norm lo hi log x).
  Proof.
    intro H. unfold unit_to_vector, unit_norm. destruct log; auto.
    replace (Qltb 0 x) with true; auto. symmetry. apply Qltb_lt. auto.
  Qed.

  Lemma log_bounds lo hi : (lo < hi)%Q -> (0 < lo)%Q -> (flog lo < flog hi)%Q.
  Proof. intros. apply flog_lt; auto. Qed.

  Lemma unit_raw_norm lo hi log x : bounds_ok lo hi log -> (log = true -> (0 < x)%Q) ->
    (unit_raw lo hi log (unit_norm lo hi log x) == x)%Q.
  Proof.
    intros [A B] P. unfold unit_raw, unit_norm. destruct log.
    - rewrite scale_normalize by (apply log_bounds; auto). apply fexp_flog. auto.
    - apply scale_normalize. auto.
  Qed.

  Lemma unit_norm_raw lo hi log q : bounds_ok lo hi log ->
    (unit_norm lo hi log (unit_raw lo hi log q) == q)%Q.
  Proof.
    intros [A B]. unfold unit_raw, unit_norm. destruct log.
    - rewrite flog_fexp. apply normalize_scale. apply log_bounds; auto.
    - apply normalize_scale. auto.
  Qed.

  Lemma unit_norm_range lo hi log x : bounds_ok lo hi log -> (log = true -> (0 < x)%Q) ->
    ((0 <= unit_norm lo hi log x)%Q /\ (unit_norm lo hi log x <= 1)%Q <-> (lo <= x)%Q /\ (x <= hi)%Q).
  Proof.
    intros [A B] P. unfold unit_norm. destruct log; [|apply normalize_range; auto].
    rewrite normalize_range by (apply log_bounds; auto).
    specialize (B eq_refl). specialize (P eq_refl). split; intros [H1 H2].
    - split.
      + apply fexp_le in H1. rewrite !fexp_flog in H1 by auto. auto.
      + apply fexp_le in H2. rewrite !fexp_flog in H2 by lra. auto.
    - split; apply flog_le; lra.
  Qed.

  Lemma unit_norm_lt lo hi log x y : bounds_ok lo hi log -> (log = true -> (0 < x)%Q) ->
    (x < y)%Q -> (unit_norm lo hi log x < unit_norm lo hi log y)%Q.
  Proof.
    intros [A B] P H. unfold unit_norm. destruct log.
    - apply normalize_mono; [apply log_bounds; auto|]. apply flog_lt; auto.
    - apply normalize_mono; auto.
  Qed.

  Lemma unit_raw_range lo hi log q : bounds_ok lo hi log -> (0 <= q)%Q -> (q <= 1)%Q ->
    (lo <= unit_raw lo hi log q)%Q /\ (unit_raw lo hi log q <= hi)%Q.
  Proof.
    intros H A B. apply (unit_norm_range lo hi log); auto.
    - intros ->. simpl. apply fexp_pos.
    - rewrite unit_norm_raw by auto. auto.
  Qed.

  Lemma unit_raw_lt lo hi log p q : bounds_ok lo hi log -> (p < q)%Q ->
    (unit_raw lo hi log p < unit_raw lo hi log q)%Q.
  Proof.
    intros [A B] H. unfold unit_raw. destruct log.
    - apply fexp_lt. apply scale_mono; auto. apply log_bounds; auto.
    - apply scale_mono; auto.
  Qed.

  Lemma unit_norm_proper lo hi log x y : (x == y)%Q -> (unit_norm lo hi log x == unit_norm lo hi log y)%Q.
  Proof. intro H. unfold unit_norm. destruct log; rewrite H; reflexivity. Qed.

  Lemma legal_int_Z lo hi z x : (x == inject_Z z)%Q -> legal_int lo hi x = (lo <=? z) && (z <=? hi).
  Proof.
    intro H. unfold legal_int. rewrite (rint_proper _ _ H), rint_Z.
    rewrite (is_close_to_integer_proper _ _ H), is_close_to_integer_Z.
    apply andb_true_r.
  Qed.

  Lemma bounds_int lo hi log : bounds_ok (inject_Z lo) (inject_Z hi) log <->
    lo < hi /\ (log = true -> 0 < lo).
  Proof.
    unfold bounds_ok. rewrite inject_Z_lt. change 0%Q with (inject_Z 0). rewrite inject_Z_lt. tauto.
  Qed.

  (** ** Well-formed hyperparameters: what a successful constructor guarantees *)
  Definition wf_hp (h : hp) : Prop :=
    match hp_kind h with
    | KCat c w =>
        c <> [] /\ has_dup c = false /\ py_in (hp_default h) c = true /\
        match w with
        | None => True
        | Some w => length w = length c /\ Forall (fun x => (0 <= x)%Q) w /\ (0 < Qsum w)%Q
        end
    | KOrd s => s <> [] /\ has_dup s = false /\ py_in (hp_default h) s = true
    | KConst v => py_eqb (hp_default h) v = true
    | KInt lo hi log _ =>
        lo < hi /\ (log = true -> 0 < lo) /\
        exists d, hp_default h = VInt d /\ lo <= d <= hi
    | KFloat lo hi log _ =>
        bounds_ok lo hi log /\
        exists d, hp_default h = VFloat d /\ (lo <= d)%Q /\ (d <= hi)%Q
    end.

  Lemma finish_ok h h' : finish h = Ok h' -> h' = h /\ legal_value h (hp_default h) = true.
  Proof. unfold finish. destruct (legal_value _ _); [|discriminate]. intro H. injection H as <-. auto. Qed.

  Lemma Qsum_nonneg w : Forall (fun x => (0 <= x)%Q) w -> (0 <= Qsum w)%Q.
  Proof. induction 1; simpl; lra. Qed.

  Lemma Qsum_pos w : Forall (fun x => (0 <= x)%Q) w -> forallb (fun x => Qeq_bool x 0) w = false ->
    (0 < Qsum w)%Q.
  Proof.
    induction 1 as [|x w Hx Hw IH]; simpl; [discriminate|].
    intro H. apply andb_false_iff in H. pose proof (Qsum_nonneg w Hw).
    destruct H as [H|H].
    - apply Qeq_bool_false in H. destruct (Qlt_le_dec 0 x); [lra|].
      exfalso. apply H. lra.
    - apply IH in H. lra.
  Qed.

  Lemma existsb_neg w : existsb (fun x => Qltb x 0) w = false -> Forall (fun x => (0 <= x)%Q) w.
  Proof.
    induction w as [|x w IH]; simpl; constructor.
    - apply orb_false_iff in H. destruct H as [H _]. apply Qltb_ge in H. auto.
    - apply IH. apply orb_false_iff in H. tauto.
  Qed.

  Lemma if_check {A} (b : bool) (e : err) (r : res A) a :
    (if b then r else Err e) = Ok a -> b = true /\ r = Ok a.
  Proof. destruct b; [auto|discriminate]. Qed.

  Lemma wf_int_finish n lo hi log di z m h :
    scaler_ok (inject_Z lo) (inject_Z hi) log = true ->
    finish (mk_hp n (KInt lo hi log di) (VInt z) m) = Ok h -> wf_hp h.
  Proof.
    intros S F. apply finish_ok in F. destruct F as [-> F].
    apply (proj1 (scaler_ok_iff _ _ _)) in S. apply (proj1 (bounds_int _ _ _)) in S. destruct S as [S1 S2].
    unfold wf_hp. simpl. split; auto. split; auto. exists z. split; auto.
    unfold legal_value in F. simpl in F.
    rewrite (legal_int_Z lo hi z) in F by reflexivity.
    apply andb_true_iff in F. destruct F as [F1 F2]. apply Z.leb_le in F1, F2. lia.
  Qed.

  Lemma wf_float_finish n lo hi log di d m h :
    scaler_ok lo hi log = true ->
    finish (mk_hp n (KFloat lo hi log di) (VFloat d) m) = Ok h -> wf_hp h.
  Proof.
    intros S F. apply finish_ok in F. destruct F as [-> F].
    apply (proj1 (scaler_ok_iff _ _ _)) in S.
    unfold wf_hp. simpl. split; auto. exists d. split; auto.
    unfold legal_value in F. simpl in F.
    apply andb_true_iff in F. destruct F as [F1 F2]. apply Qle_bool_iff in F1, F2. auto.
  Qed.

  Lemma constructed_wf h : constructed h -> wf_hp h.
  Proof.
    intro C. destruct C as
      [n c d w m h H|n s d m h H|n v m h H|n lo hi d l m h H|n mu s lo hi d l m h H
      |n a b lo hi d l m h H|n lo hi d l m h H|n mu s lo hi d l m h H|n a b lo hi d l m h H].
    - unfold mk_categorical in H.
      apply if_check in H. destruct H as [D H]. apply if_check in H. destruct H as [W H].
      apply if_check in H. destruct H as [P H].
      destruct c as [|c0 c]; [destruct w; discriminate|].
      apply finish_ok in H. destruct H as [-> H]. unfold legal_value in H. simpl in H.
      unfold wf_hp. simpl. split; [discriminate|]. split; [apply negb_true_iff in D; exact D|].
      split; [exact H|]. destruct w as [w|]; auto.
      apply andb_true_iff in W. destruct W as [W W3]. apply andb_true_iff in W. destruct W as [W1 W2].
      apply negb_true_iff in W2, W3. apply existsb_neg in W2.
      apply Nat.eqb_eq in W1. split; auto. split; auto. apply Qsum_pos; auto.
    - unfold mk_ordinal in H. apply if_check in H. destruct H as [D H]. apply negb_true_iff in D.
      destruct d as [d|].
      + apply if_check in H. destruct H as [P H].
        apply finish_ok in H. destruct H as [-> H]. unfold wf_hp. simpl.
        split; [intros ->; discriminate|]. auto.
      + destruct s as [|d s]; [discriminate|].
        apply finish_ok in H. destruct H as [-> H]. unfold wf_hp. simpl.
        split; [discriminate|]. split; auto.
    - unfold mk_constant in H. apply finish_ok in H. destruct H as [-> H]. exact H.
    - unfold mk_uniform_int in H. cbv zeta in H.
      apply if_check in H. destruct H as [_ H]. apply if_check in H. destruct H as [S H].
      eapply wf_int_finish; eauto.
    - unfold mk_normal_int in H. cbv zeta in H.
      apply if_check in H. destruct H as [_ H]. apply if_check in H. destruct H as [S H].
      apply if_check in H. destruct H as [_ H].
      eapply wf_int_finish; eauto.
    - unfold mk_beta_int in H. cbv zeta in H.
      apply if_check in H. destruct H as [_ H]. apply if_check in H. destruct H as [S H].
      apply if_check in H. destruct H as [_ H].
      eapply wf_int_finish; eauto.
    - unfold mk_uniform_float in H. cbv zeta in H.
      apply if_check in H. destruct H as [S H].
      eapply wf_float_finish; eauto.
    - unfold mk_normal_float in H. cbv zeta in H.
      apply if_check in H. destruct H as [_ H]. apply if_check in H. destruct H as [S H].
      eapply wf_float_finish; eauto.
    - unfold mk_beta_float in H. cbv zeta in H.
      apply if_check in H. destruct H as [_ H]. apply if_check in H. destruct H as [S H].
      eapply wf_float_finish; eauto.
  Qed.

  (** ** Round trips *)

  Lemma seq_roundtrip h s v :
    (hp_kind h = KOrd s \/ exists w, hp_kind h = KCat s w) ->
    has_dup s = false -> legal_value h v = true ->
    exists i w, py_index v s = Some i /\ (i < length s)%nat /\
      to_vector h v = Ok (Fin (inject_Z (Z.of_nat i))) /\
      legal_vector h (Fin (inject_Z (Z.of_nat i))) = true /\
      to_value h (Fin (inject_Z (Z.of_nat i))) = Ok w /\ py_eqb w v = true.
  Proof.
    intros K D H.
    assert (G : py_in v s = true).
    { unfold legal_value in H. destruct K as [->|(w & ->)] in H; auto. }
    destruct (py_in_index _ _ G) as (i & I). assert (Lt := py_index_lt _ _ _ I).
    destruct (np_index_nat s i Lt) as (w & N & NI).
    exists i, w. split; auto. split; auto.
    assert (Q : py_eqb w v = true).
    { destruct (py_index_some _ _ _ I) as (w' & N' & Q & _). congruence. }
    unfold to_vector, legal_vector, to_value.
    destruct K as [->|(wt & ->)]; rewrite I, is_close_to_integer_Z, rint_Z, NI;
      rewrite legal_seq_nat by auto; auto.
  Qed.

  Lemma seq_roundtrip_back h s i :
    (hp_kind h = KOrd s \/ exists w, hp_kind h = KCat s w) ->
    has_dup s = false -> (i < length s)%nat ->
    exists w, to_value h (Fin (inject_Z (Z.of_nat i))) = Ok w /\
      nth_error s i = Some w /\
      legal_value h w = true /\ to_vector h w = Ok (Fin (inject_Z (Z.of_nat i))).
  Proof.
    intros K D Lt. destruct (np_index_nat s i Lt) as (w & N & NI).
    exists w. unfold to_vector, legal_value, to_value.
    assert (I : py_index w s = Some i) by (apply py_index_nth; auto).
    assert (P : py_in w s = true).
    { destruct (py_in w s) eqn:F; auto. apply py_index_none in F. congruence. }
    destruct K as [->|(wt & ->)]; rewrite is_close_to_integer_Z, rint_Z, NI, I; auto.
  Qed.

  Lemma int_roundtrip h lo hi log d z :
    hp_kind h = KInt lo hi log d -> lo < hi -> (log = true -> 0 < lo) -> lo <= z <= hi ->
    exists q, to_vector h (VInt z) = Ok (Fin q) /\ (0 <= q)%Q /\ (q <= 1)%Q /\
      (unit_raw (inject_Z lo) (inject_Z hi) log q == inject_Z z)%Q /\
      legal_vector h (Fin q) = true /\ legal_vector_array h (Fin q) = true /\
      to_value h (Fin q) = Ok (VInt z).
  Proof.
    intros K B P Z. assert (BO : bounds_ok (inject_Z lo) (inject_Z hi) log) by (apply bounds_int; auto).
    assert (Pz : log = true -> (0 < inject_Z z)%Q).
    { intro l. apply inject_Z_pos. specialize (P l). lia. }
    exists (unit_norm (inject_Z lo) (inject_Z hi) log (inject_Z z)).
    unfold to_vector. rewrite K. simpl num_of. cbv iota beta.
    rewrite unit_to_vector_fin by auto. split; auto.
    assert (R : (0 <= unit_norm (inject_Z lo) (inject_Z hi) log (inject_Z z))%Q /\
                (unit_norm (inject_Z lo) (inject_Z hi) log (inject_Z z) <= 1)%Q).
    { apply unit_norm_range; auto. rewrite !inject_Z_le. lia. }
    destruct R as [R1 R2]. split; auto. split; auto.
    assert (U := unit_raw_norm _ _ log (inject_Z z) BO Pz). split; auto.
    assert (LI : legal_int lo hi (unit_raw (inject_Z lo) (inject_Z hi) log
                 (unit_norm (inject_Z lo) (inject_Z hi) log (inject_Z z))) = true).
    { rewrite (legal_int_Z _ _ z) by auto. apply andb_true_iff. rewrite !Z.leb_le. auto. }
    split; [|split].
    - unfold legal_vector. rewrite K. destruct log; auto.
      assert (M : (unit_norm (inject_Z lo) (inject_Z hi) false (inject_Z z) * (inject_Z hi - inject_Z lo)
               == inject_Z (z - lo))%Q).
      { unfold unit_norm. rewrite normalize_eq. unfold Z.sub. rewrite inject_Z_plus, inject_Z_opp. field.
        apply inject_Z_lt in B. lra. }
      rewrite (is_close_to_integer_proper _ _ M), is_close_to_integer_Z.
      apply andb_true_iff. split; auto. apply andb_true_iff. rewrite !Qle_bool_iff. auto.
    - unfold legal_vector_array. rewrite K. auto.
    - unfold to_value. rewrite K. rewrite (rint_proper _ _ U), rint_Z. auto.
  Qed.

  Lemma float_roundtrip h lo hi log d v x :
    hp_kind h = KFloat lo hi log d -> bounds_ok lo hi log -> num_of v = Some x ->
    (lo <= x)%Q -> (x <= hi)%Q ->
    exists q y, to_vector h v = Ok (Fin q) /\ (0 <= q)%Q /\ (q <= 1)%Q /\
      legal_vector h (Fin q) = true /\
      to_value h (Fin q) = Ok (VFloat y) /\ (y == x)%Q.
  Proof.
    intros K B V X1 X2.
    assert (P : log = true -> (0 < x)%Q) by (intro l; destruct B as [_ B]; specialize (B l); lra).
    exists (unit_norm lo hi log x), (qclip (unit_raw lo hi log (unit_norm lo hi log x)) lo hi).
    unfold to_vector. rewrite K, V, unit_to_vector_fin by auto. split; auto.
    assert (R : (0 <= unit_norm lo hi log x)%Q /\ (unit_norm lo hi log x <= 1)%Q)
      by (apply unit_norm_range; auto).
    destruct R as [R1 R2]. split; auto. split; auto. split; [|split].
    - unfold legal_vector. rewrite K. apply andb_true_iff. rewrite !Qle_bool_iff. auto.
    - unfold to_value. rewrite K. auto.
    - rewrite unit_raw_norm by auto. apply qclip_id; auto.
  Qed.

  Lemma float_roundtrip_back h lo hi log d q :
    hp_kind h = KFloat lo hi log d -> bounds_ok lo hi log -> (0 <= q)%Q -> (q <= 1)%Q ->
    exists y q', to_value h (Fin q) = Ok (VFloat y) /\ (lo <= y)%Q /\ (y <= hi)%Q /\
      to_vector h (VFloat y) = Ok (Fin q') /\ (q' == q)%Q.
  Proof.
    intros K B Q1 Q2. assert (R := unit_raw_range lo hi log q B Q1 Q2). destruct R as [R1 R2].
    assert (C := qclip_id _ _ _ R1 R2).
    assert (P : log = true -> (0 < qclip (unit_raw lo hi log q) lo hi)%Q).
    { intro l. rewrite C. destruct B as [_ B]. specialize (B l). lra. }
    exists (qclip (unit_raw lo hi log q) lo hi), (unit_norm lo hi log (qclip (unit_raw lo hi log q) lo hi)).
    unfold to_value, to_vector. rewrite K. simpl num_of. cbv iota beta.
    rewrite unit_to_vector_fin by auto. split; auto.
    split; [rewrite C; auto|]. split; [rewrite C; auto|]. split; auto.
    rewrite (unit_norm_proper _ _ _ _ _ C). apply unit_norm_raw. auto.
  Qed.
End Laws.
