(** * Lemmas about Dist.v *)
From Coq Require Import String List ZArith QArith Qround Qabs Bool Lia Lqa Permutation.
From Verif Require Import Base Numeric NumericProofs HP HPProofs Dist.
Import ListNotations.
Open Scope Z_scope.

(** no two entries are numerically equal *)
Fixpoint apart (l : list Q) : Prop :=
  match l with [] => True | x :: l' => (forall y, In y l' -> ~ (x == y)%Q) /\ apart l' end.

Lemma memq_iff x l : memq x l = true <-> exists y, In y l /\ (x == y)%Q.
Proof.
  unfold memq. rewrite existsb_exists. split; intros (y & H & K); exists y; split; auto; apply Qeq_bool_iff; auto.
Qed.

Lemma memq_false x l : memq x l = false <-> forall y, In y l -> ~ (x == y)%Q.
Proof.
  rewrite <- not_true_iff_false, memq_iff. split; [intros H y I Q; apply H; eauto|intros H (y & I & Q); apply (H y I Q)].
Qed.

Lemma apart_app l m : apart (l ++ m) <-> apart l /\ apart m /\ forall x y, In x l -> In y m -> ~ (x == y)%Q.
Proof.
  induction l as [|a l IH]; simpl; [intuition|]. rewrite IH. split.
  - intros (H & A & B & C). split; [split; auto; intros y I; apply H, in_or_app; auto|]. split; auto.
    intros x y [<-|I] J; [apply H, in_or_app; auto|apply C; auto].
  - intros ((H & A) & B & C). split; [|split; [auto|split; auto]].
    intros y I. apply in_app_or in I. destruct I; [auto|apply C; auto].
Qed.

Lemma apart_filter f l : apart l -> apart (filter f l).
Proof.
  induction l as [|a l IH]; simpl; auto. intros [H A]. destruct (f a); simpl; auto. split; auto.
  intros y I. apply filter_In in I. apply H. tauto.
Qed.

Lemma uinsert_in x y l : In y (uinsert x l) -> y = x \/ In y l.
Proof.
  induction l as [|a l IH]; simpl; [intuition|].
  destruct (Qltb x a); simpl; [intuition|]. destruct (Qeq_bool x a); simpl; intuition.
Qed.

Lemma uinsert_has x y l : (y == x)%Q \/ (exists z, In z l /\ (y == z)%Q) -> exists z, In z (uinsert x l) /\ (y == z)%Q.
Proof.
  induction l as [|a l IH]; simpl.
  - intros [H|(z & [] & _)]. exists x. auto.
  - destruct (Qltb x a) eqn:L.
    + intros [H|(z & H & K)]; [exists x; simpl; auto|exists z; simpl in *; intuition].
    + destruct (Qeq_bool x a) eqn:Q.
      * apply Qeq_bool_iff in Q. intros [H|(z & H & K)]; [exists a; simpl; split; auto; rewrite H; auto|exists z; auto].
      * intros [H|(z & [<-|H] & K)].
        -- destruct (IH (or_introl H)) as (z & I & K). exists z. simpl. auto.
        -- exists a. simpl. auto.
        -- destruct (IH (or_intror (ex_intro _ z (conj H K)))) as (z' & I & K'). exists z'. simpl. auto.
Qed.

(** strictly increasing *)
Fixpoint incr (l : list Q) : Prop :=
  match l with [] => True | x :: l' => (forall y, In y l' -> (x < y)%Q) /\ incr l' end.

Lemma uinsert_incr x l : incr l -> incr (uinsert x l).
Proof.
  induction l as [|a l IH]; simpl; [intuition|]. intros [H A].
  destruct (Qltb x a) eqn:L; simpl.
  - apply Qltb_lt in L. split; auto. intros y [<-|I]; auto. specialize (H y I). lra.
  - destruct (Qeq_bool x a) eqn:Q; simpl; auto. split; auto.
    intros y I. apply uinsert_in in I. destruct I as [->|I]; auto.
    apply Qltb_ge in L. apply Qeq_bool_false in Q. lra.
Qed.

Lemma incr_apart l : incr l -> apart l.
Proof.
  induction l as [|a l IH]; simpl; auto. intros [H A]. split; auto. intros y I Q. specialize (H y I). lra.
Qed.

Lemma unique_apart l : apart (np_unique l).
Proof.
  apply incr_apart. unfold np_unique. induction l as [|a l IH]; simpl; auto. apply uinsert_incr; auto.
Qed.
Lemma unique_in y l : In y (np_unique l) -> In y l.
Proof.
  unfold np_unique. induction l as [|a l IH]; simpl; auto. intro H. apply uinsert_in in H. intuition.
Qed.
Lemma unique_has y l : In y l -> exists z, In z (np_unique l) /\ (y == z)%Q.
Proof.
  unfold np_unique. induction l as [|a l IH]; simpl; [tauto|]. intros [<-|H]; apply uinsert_has.
  - left. reflexivity.
  - right. auto.
Qed.
Lemma uinsert_length x l : (length (uinsert x l) <= S (length l))%nat.
Proof.
  induction l as [|a l IH]; simpl; auto. destruct (Qltb x a); simpl; auto. destruct (Qeq_bool x a); simpl; lia.
Qed.
Lemma unique_length l : (length (np_unique l) <= length l)%nat.
Proof.
  unfold np_unique. induction l as [|a l IH]; simpl; auto. assert (K := uinsert_length a (fold_right uinsert [] l)). lia.
Qed.

Lemma within_in lower upper x l : In x (within lower upper l) <-> In x l /\ (lower <= x)%Q /\ (x <= upper)%Q.
Proof. unfold within. rewrite filter_In, andb_true_iff, !Qle_bool_iff. tauto. Qed.
Lemma filter_len {A} (f : A -> bool) l : (length (filter f l) <= length l)%nat.
Proof. induction l as [|a l IH]; simpl; auto. destruct (f a); simpl; lia. Qed.

Lemma firstn_in {A} n (l : list A) x : In x (firstn n l) -> In x l.
Proof.
  revert l. induction n as [|n IH]; intros [|a l]; simpl; auto; try tauto. intros [<-|H]; auto.
Qed.
Lemma firstn_apart n l : apart l -> apart (firstn n l).
Proof.
  revert l. induction n as [|n IH]; intros [|a l]; simpl; auto. intros [H A]. split; auto.
  intros y I. apply H. eapply firstn_in; eauto.
Qed.

(** what the sampling loop returns *)
Lemma nb_loop_ok quant lower upper n (P : Q -> Prop) qv cands : forall buf l,
  (forall x, (lower <= x)%Q -> (x <= upper)%Q -> P (quant x)) ->
  apart (qv :: buf) -> Forall P buf ->
  nb_loop quant lower upper n (qv :: buf) cands = Ok l ->
  length l = n /\ apart (qv :: l) /\ Forall P l.
Proof.
  induction cands as [|c cands IH]; intros buf l HP A F H; [discriminate|].
  cbn [nb_loop] in H. apply if_check in H. destruct H as [_ H].
  set (new := filter (fun x => negb (memq x (qv :: buf))) (np_unique (map quant (within lower upper c)))) in *.
  assert (A' : apart ((qv :: buf) ++ new)).
  { apply apart_app. split; auto. split; [apply apart_filter, unique_apart|].
    intros x y I J. apply filter_In in J. destruct J as [_ J]. apply negb_true_iff in J.
    rewrite memq_false in J. intro Q. apply (J x I). symmetry. auto. }
  assert (F' : Forall P (buf ++ new)).
  { apply Forall_app. split; auto. apply Forall_forall. intros x I. apply filter_In in I. destruct I as [I _].
    apply unique_in, in_map_iff in I. destruct I as (y & <- & I). apply within_in in I. apply HP; tauto. }
  destruct (Nat.leb n (length ((qv :: buf) ++ new) - 1)) eqn:N.
  - apply Nat.leb_le in N. injection H as <-. simpl in N. rewrite Nat.sub_0_r in N. simpl.
    split; [apply firstn_length_le; auto|]. simpl in A'. destruct A' as [A1 A2]. split; [split|].
    + intros y I. apply A1. eapply firstn_in; eauto.
    + apply firstn_apart; auto.
    + apply Forall_forall. intros x I. apply firstn_in in I. revert x I. apply Forall_forall. auto.
  - change ((qv :: buf) ++ new) with (qv :: (buf ++ new)) in H. apply (IH (buf ++ new)); auto.
Qed.

(** when it returns: enough different values among the candidates *)
Definition hits (quant : Q -> Q) (lower upper : Q) (cands : list (list Q)) (y : Q) : Prop :=
  exists c x, In c cands /\ In x c /\ (lower <= x)%Q /\ (x <= upper)%Q /\ (y == quant x)%Q.

Lemma apart_pigeon l m : apart l -> (forall x, In x l -> exists y, In y m /\ (x == y)%Q) -> (length l <= length m)%nat.
Proof.
  revert m. induction l as [|a l IH]; intros m A H; simpl; [lia|].
  destruct (H a (or_introl eq_refl)) as (y & I & Q). apply in_split in I. destruct I as (m1 & m2 & ->).
  rewrite app_length. simpl. assert (K : (length l <= length (m1 ++ m2))%nat).
  { apply IH; [apply A|]. intros x J. destruct (H x (or_intror J)) as (z & I & Q').
    exists z. split; auto. apply in_app_or in I. apply in_or_app. destruct I as [I|[<-|I]]; auto.
    exfalso. destruct A as [A _]. apply (A x J). rewrite Q, Q'. reflexivity. }
  rewrite app_length in K. lia.
Qed.

Lemma nb_loop_total quant lower upper n ys qv cands : forall buf,
  Forall (fun c => length c <= 4 * n)%nat cands -> (length buf <= n)%nat ->
  length ys = n -> apart (qv :: ys) ->
  (forall y, In y ys -> (exists b, In b buf /\ (y == b)%Q) \/ hits quant lower upper cands y) ->
  cands <> [] ->
  exists l, nb_loop quant lower upper n (qv :: buf) cands = Ok l.
Proof.
  induction cands as [|c cands IH]; intros buf F B Ly A H N; [congruence|].
  cbn [nb_loop]. inversion F as [|? ? F1 F2]; subst.
  set (new := filter (fun x => negb (memq x (qv :: buf))) (np_unique (map quant (within lower upper c)))).
  assert (Ln : (length new <= 4 * length ys)%nat).
  { unfold new. eapply Nat.le_trans; [apply filter_len|]. eapply Nat.le_trans; [apply unique_length|].
    rewrite map_length. eapply Nat.le_trans; [apply filter_len|]. auto. }
  replace (Nat.leb (length (qv :: buf) + length new) (5 * length ys + 1)) with true
    by (symmetry; apply Nat.leb_le; simpl length; lia).
  assert (Hn : forall y, In y ys -> (exists b, In b (buf ++ new) /\ (y == b)%Q) \/ hits quant lower upper cands y).
  { intros y I. destruct (H y I) as [(b & J & Q)|(c' & x & [<-|J] & X & X1 & X2 & Q)].
    - left. exists b. split; auto. apply in_or_app; auto.
    - left. destruct (unique_has (quant x) (map quant (within lower upper c))) as (z & Z & Qz).
      { apply in_map, within_in. auto. }
      destruct (memq z (qv :: buf)) eqn:M.
      + apply memq_iff in M. destruct M as (b & [<-|J] & Qb).
        * exfalso. destruct A as [A _]. apply (A y I). rewrite Q, Qz, Qb. reflexivity.
        * exists b. split; [apply in_or_app; auto|]. rewrite Q, Qz. auto.
      + exists z. split; [|rewrite Q; auto]. apply in_or_app. right. apply filter_In. rewrite M. auto.
    - right. exists c', x. auto. }
  destruct (Nat.leb (length ys) (length ((qv :: buf) ++ new) - 1)) eqn:T; [eauto|].
  apply Nat.leb_gt in T. simpl in T. rewrite Nat.sub_0_r in T.
  change ((qv :: buf) ++ new) with (qv :: (buf ++ new)).
  destruct cands as [|c' cands].
  - exfalso. assert (K : (length ys <= length (buf ++ new))%nat).
    { apply apart_pigeon; [apply A|]. intros y I. destruct (Hn y I) as [K|(c' & x & [] & _)]. exact K. }
    lia.
  - apply IH; auto; [lia|discriminate].
Qed.

(** values behind the entries *)
Lemma choose_ws (P : Z -> Q -> Prop) (l : list Q) : Forall (fun e => exists w, P w e) l ->
  exists ws, Forall2 P ws l.
Proof.
  induction 1 as [|e l (w & H) F (ws & IH)]; [exists []; constructor|]. exists (w :: ws). constructor; auto.
Qed.

Lemma apart_ws (enc : Z -> Q) ws l : Forall2 (fun w e => (e == enc w)%Q) ws l -> apart l -> NoDup ws.
Proof.
  induction 1 as [|w e ws l H F IH]; simpl; [constructor|]. intros [A B]. constructor; auto.
  intro I. clear IH B. revert A I. induction F as [|w' e' ws l H' F IH]; simpl; [tauto|].
  intros A [->|I].
  - apply (A e' (or_introl eq_refl)). rewrite H, H'. reflexivity.
  - apply IH; auto.
Qed.

(** the whole range without one element *)
Lemma skip_in lo hi z x : In x (arange lo z 1 ++ arange (z + 1) hi 1) <-> (lo <= x < z \/ z < x < hi).
Proof.
  rewrite in_app_iff, !in_arange by lia. split.
  - intros [(i & H)|(i & H)]; lia.
  - intros [H|H]; [left; exists (x - lo)|right; exists (x - z - 1)]; lia.
Qed.
Lemma skip_nodup lo hi z : NoDup (arange lo z 1 ++ arange (z + 1) hi 1).
Proof.
  assert (G : forall l m : list Z, NoDup l -> NoDup m -> (forall x, In x l -> ~ In x m) -> NoDup (l ++ m)).
  { induction 1 as [|a l A N IH]; simpl; auto. intros M D. constructor.
    - intro I. apply in_app_or in I. destruct I as [I|I]; [auto|apply (D a); auto].
    - apply IH; auto. }
  apply G; try (apply NoDup_arange; lia). intros x. rewrite !in_arange by lia. intros (i & H) (j & K). lia.
Qed.
Lemma arange_length a b : length (arange a b 1) = Z.to_nat (b - a).
Proof.
  unfold arange, range_len, zceil_div. rewrite map_length, seq_length, Z.div_1_r. f_equal. lia.
Qed.
Lemma skip_length lo hi z : lo <= z < hi -> length (arange lo z 1 ++ arange (z + 1) hi 1) = Z.to_nat (hi - lo - 1).
Proof. intro H. rewrite app_length, !arange_length. lia. Qed.

(** Python's int() *)
Lemma py_int_Z q z : (q == inject_Z z)%Q -> py_int q = z.
Proof.
  intro H. unfold py_int. assert (F : Qfloor q = z) by (rewrite H; apply Qfloor_Z).
  assert (C : Qceiling q = z) by (rewrite H; apply Qceiling_Z). destruct (Qle_bool 0 q); auto.
Qed.

Lemma inject_Z_sub a b : (inject_Z (a - b) == inject_Z a - inject_Z b)%Q.
Proof. unfold Z.sub. rewrite inject_Z_plus, inject_Z_opp. reflexivity. Qed.

(** equally spaced points *)
Lemma linspace_int a b num (endp : bool) : (b - a = (if endp then num - 1 else num)) -> 0 <= num ->
  Forall2 (fun z q => (q == inject_Z z)%Q) (arange a (a + num) 1) (linspace (inject_Z a) (inject_Z b) num endp).
Proof.
  intros H N. unfold arange, linspace, range_len, zceil_div. rewrite Z.div_1_r.
  replace (- - (a + num - a)) with num by lia.
  assert (G : forall l, (forall i, In i l -> (i < Z.to_nat num)%nat) ->
    Forall2 (fun z q => (q == inject_Z z)%Q) (map (fun i => a + Z.of_nat i * 1) l)
    (map (fun i => (inject_Z a + inject_Z (Z.of_nat i) * ((inject_Z b - inject_Z a) / inject_Z (if endp then num - 1 else num)))%Q) l)).
  { induction l as [|i l IH]; simpl; intro I; constructor; [|apply IH; auto].
    replace (Z.of_nat i * 1) with (Z.of_nat i) by lia. rewrite inject_Z_plus, <- H.
    assert (Bi : (i < Z.to_nat num)%nat) by (apply I; auto).
    destruct (Z.eq_dec (b - a) 0) as [K|K].
    - assert (i = O) as ->. { destruct endp; lia. } change (inject_Z (Z.of_nat 0)) with 0%Q. ring.
    - rewrite inject_Z_sub. field. rewrite <- inject_Z_sub. intro Q.
      apply K, (proj1 (inject_Z_eq _ _)). exact Q. }
  apply G. intros i I. apply in_seq in I. lia.
Qed.

(** ** Integer hyperparameters *)
Section Ints.
  Context {E : Env} {L : EnvLaws E}.
  Variables (lo hi : Z) (log : bool).
  Hypothesis (LH : lo < hi) (LP : log = true -> 0 < lo).

  Definition enc (w : Z) : Q := unit_norm (inject_Z lo) (inject_Z hi) log (inject_Z w).

  Lemma BO : bounds_ok (inject_Z lo) (inject_Z hi) log.
  Proof using LH LP. apply bounds_int. auto. Qed.

  Lemma pos_w w : lo <= w -> log = true -> (0 < inject_Z w)%Q.
  Proof using LP. intros H l. apply inject_Z_pos. specialize (LP l). lia. Qed.

  Lemma enc_lt w w' : lo <= w -> w < w' -> (enc w < enc w')%Q.
  Proof using L LH LP. intros. apply unit_norm_lt; [apply BO|apply pos_w; auto|apply inject_Z_lt; auto]. Qed.

  Lemma enc_inj w w' : lo <= w -> lo <= w' -> (enc w == enc w')%Q -> w = w'.
  Proof using L LH LP.
    intros A B H. destruct (Z.lt_trichotomy w w') as [K|[K|K]]; auto;
    apply enc_lt in K; auto; lra.
  Qed.

  Lemma enc_range w : lo <= w <= hi -> (0 <= enc w)%Q /\ (enc w <= 1)%Q.
  Proof using L LH LP.
    intro H. apply unit_norm_range; [apply BO|apply pos_w; lia|]. rewrite !inject_Z_le. auto.
  Qed.

  Lemma raw_enc w : lo <= w -> (unit_raw (inject_Z lo) (inject_Z hi) log (enc w) == inject_Z w)%Q.
  Proof using L LH LP. intro H. apply unit_raw_norm; [apply BO|apply pos_w; auto]. Qed.

  Lemma vec_of_enc w x : lo <= w -> (x == inject_Z w)%Q -> (vec_of lo hi log x == enc w)%Q.
  Proof using L LP.
    intros H X. unfold vec_of. rewrite unit_to_vector_fin.
    - apply unit_norm_proper. auto.
    - intro l. rewrite X. apply pos_w; auto.
  Qed.

  Lemma size_pos : (0 < inject_Z (hi - lo))%Q.
  Proof using LH. apply inject_Z_pos. lia. Qed.

  Lemma enc_linear w : log = false -> (enc w == inject_Z (w - lo) / inject_Z (hi - lo))%Q.
  Proof using L.
    intro l. unfold enc, unit_norm. rewrite l, normalize_eq, !inject_Z_sub. reflexivity.
  Qed.

  Lemma enc_log w : log = true -> (enc w == (flog (inject_Z w) - flog (inject_Z lo)) / (flog (inject_Z hi) - flog (inject_Z lo)))%Q.
  Proof using L. intro l. unfold enc, unit_norm. rewrite l. apply normalize_eq. Qed.
End Ints.

Section Grid.
  Context {E : Env} {L : EnvLaws E}.

  Lemma rescale_unit y a b : (a < b)%Q -> (rescale y a b 0 1 == (y - a) / (b - a))%Q.
  Proof.
    intro H. unfold rescale. destruct (Qeq_bool a 0 && Qeq_bool b 1)%bool eqn:K.
    - apply andb_true_iff in K. rewrite !Qeq_bool_iff in K. destruct K as [Ka Kb]. rewrite Ka, Kb. field.
    - unfold scale. rewrite normalize_eq. field. lra.
  Qed.
  Lemma unit_rescale q a b : (a < b)%Q -> (rescale q 0 1 a b == q * (b - a) + a)%Q.
  Proof.
    intro H. unfold rescale. destruct (Qeq_bool 0 a && Qeq_bool 1 b)%bool eqn:K.
    - apply andb_true_iff in K. rewrite !Qeq_bool_iff in K. destruct K as [Ka Kb]. rewrite <- Ka, <- Kb. ring.
    - unfold scale. rewrite normalize_eq. field.
  Qed.

  Lemma quantize_range_int x lo hi : lo < hi ->
    exists w, lo <= w <= hi /\ (quantize x (inject_Z lo) (inject_Z hi) (hi - lo + 1) == inject_Z w)%Q.
  Proof.
    intro H. assert (B : 2 <= hi - lo + 1) by lia.
    assert (H' : (inject_Z lo < inject_Z hi)%Q) by (apply inject_Z_lt; auto).
    exists (lo + qlevel x (inject_Z lo) (inject_Z hi) (hi - lo + 1)).
    assert (R := qlevel_range x (inject_Z lo) (inject_Z hi) (hi - lo + 1) B). split; [lia|].
    rewrite quantize_level by auto. unfold scale. replace (hi - lo + 1 - 1) with (hi - lo) by lia.
    rewrite inject_Z_plus, inject_Z_sub. field. rewrite <- inject_Z_sub. assert (K := size_pos lo hi H). lra.
  Qed.

  Lemma quantize_fixes_int x lo hi w : lo < hi -> lo <= w <= hi -> (x == inject_Z w)%Q ->
    (quantize x (inject_Z lo) (inject_Z hi) (hi - lo + 1) == inject_Z w)%Q.
  Proof.
    intros H W X. assert (B : 2 <= hi - lo + 1) by lia.
    assert (H' : (inject_Z lo < inject_Z hi)%Q) by (apply inject_Z_lt; auto).
    assert (K := size_pos lo hi H).
    assert (Q : (x == bin_point (inject_Z lo) (inject_Z hi) (hi - lo + 1) (w - lo))%Q).
    { rewrite X. unfold bin_point, scale. replace (hi - lo + 1 - 1) with (hi - lo) by lia.
      rewrite !inject_Z_sub. field. rewrite <- inject_Z_sub. lra. }
    rewrite (quantize_proper_x _ _ _ _ _ H' B Q), quantize_level, qlevel_bin_point by (auto; lia).
    fold (bin_point (inject_Z lo) (inject_Z hi) (hi - lo + 1) (w - lo)).
    unfold bin_point in Q. rewrite <- Q. auto.
  Qed.

  Lemma quantize_unit_grid x lo hi : lo < hi ->
    exists w, lo <= w <= hi /\ (quantize x 0 1 (hi - lo + 1) == enc lo hi false w)%Q.
  Proof.
    intro H. assert (B : 2 <= hi - lo + 1) by lia. exists (lo + qlevel x 0 1 (hi - lo + 1)).
    assert (R := qlevel_range x 0 1 (hi - lo + 1) B). split; [lia|].
    assert (K := size_pos lo hi H).
    rewrite enc_linear, quantize_level by (auto; lra). unfold scale.
    replace (hi - lo + 1 - 1) with (hi - lo) by lia.
    replace (lo + qlevel x 0 1 (hi - lo + 1) - lo) with (qlevel x 0 1 (hi - lo + 1)) by lia. field. lra.
  Qed.

  Lemma quantize_unit_fixes q lo hi w : lo < hi -> lo <= w <= hi -> (q == enc lo hi false w)%Q ->
    (quantize q 0 1 (hi - lo + 1) == enc lo hi false w)%Q.
  Proof.
    intros H W X. assert (B : 2 <= hi - lo + 1) by lia. assert (K := size_pos lo hi H).
    assert (Q : (q == bin_point 0 1 (hi - lo + 1) (w - lo))%Q).
    { rewrite X, enc_linear by auto. unfold bin_point, scale. replace (hi - lo + 1 - 1) with (hi - lo) by lia.
      field. lra. }
    assert (U : (0 < 1)%Q) by lra.
    rewrite (quantize_proper_x _ _ _ _ _ U B Q), quantize_level, qlevel_bin_point by (auto; lia).
    unfold bin_point in Q. rewrite <- Q. auto.
  Qed.

  Lemma disc_grid lo hi log x : lo < hi -> (log = true -> 0 < lo) ->
    exists w, lo <= w <= hi /\ (disc_quantize lo hi log x == enc lo hi log w)%Q.
  Proof.
    intros H P. unfold disc_quantize. destruct log; [|apply quantize_unit_grid; auto].
    unfold quantize_log.
    destruct (quantize_range_int (fexp (rescale x 0 1 (flog (inject_Z lo)) (flog (inject_Z hi)))) lo hi H) as (w & W & Q).
    assert (LL : (flog (inject_Z lo) < flog (inject_Z hi))%Q).
    { apply flog_lt; [apply inject_Z_pos; auto|apply inject_Z_lt; auto]. }
    exists w. split; auto. rewrite rescale_unit, enc_log, Q by auto. reflexivity.
  Qed.

  Lemma disc_fixes lo hi log q w : lo < hi -> (log = true -> 0 < lo) -> lo <= w <= hi -> (q == enc lo hi log w)%Q ->
    (disc_quantize lo hi log q == enc lo hi log w)%Q.
  Proof.
    intros H P W X. unfold disc_quantize. destruct log; [|apply quantize_unit_fixes; auto].
    unfold quantize_log. assert (0 < lo) by auto.
    assert (LL : (flog (inject_Z lo) < flog (inject_Z hi))%Q).
    { apply flog_lt; [apply inject_Z_pos; auto|apply inject_Z_lt; auto]. }
    assert (F : (fexp (rescale q 0 1 (flog (inject_Z lo)) (flog (inject_Z hi))) == inject_Z w)%Q).
    { rewrite unit_rescale by auto. rewrite X, enc_log by auto. rewrite <- (fexp_flog (inject_Z w)) at 2 by (apply inject_Z_pos; lia).
      apply fexp_comp. field. lra. }
    rewrite rescale_unit, enc_log by auto. rewrite (quantize_fixes_int _ lo hi w H W F). reflexivity.
  Qed.

  (** the values behind a list of different entries *)
  Lemma entries_ws lo hi log z qv l : lo < hi -> (log = true -> 0 < lo) -> lo <= z <= hi -> (qv == enc lo hi log z)%Q ->
    apart (qv :: l) -> Forall (fun e => exists w, lo <= w <= hi /\ (e == enc lo hi log w)%Q) l ->
    exists ws, Forall2 (fun w e => lo <= w <= hi /\ (e == enc lo hi log w)%Q) ws l /\ NoDup ws /\ ~ In z ws.
  Proof.
    intros H P Z Q [A1 A2] F. destruct (choose_ws _ _ F) as (ws & W). exists ws. split; auto.
    assert (W' : Forall2 (fun w e => (e == enc lo hi log w)%Q) ws l).
    { clear -W. induction W; constructor; tauto. }
    split; [eapply apart_ws; eauto|]. intro I. clear -W' Q A1 I.
    induction W' as [|w e ws l K W' IH]; [destruct I|]. destruct I as [->|I].
    - apply (A1 e (or_introl eq_refl)). rewrite Q, K. reflexivity.
    - apply IH; auto. intros y J. apply A1. right. auto.
  Qed.

  Lemma over_enc lo hi zs : lo < hi ->
    Forall2 (fun w e => (e == enc lo hi false w)%Q) (map (fun i => lo + i) zs) (over (hi - lo) zs).
  Proof.
    intro H. unfold over. induction zs as [|i zs IH]; cbn [map]; constructor; [|exact IH].
    rewrite enc_linear by auto. replace (lo + i - lo) with i by lia. reflexivity.
  Qed.

  Lemma arange_shift lo a b : map (fun i => lo + i) (arange a b 1) = arange (lo + a) (lo + b) 1.
  Proof.
    unfold arange, range_len. replace (lo + b - (lo + a)) with (b - a) by lia. rewrite map_map. apply map_ext. intro. lia.
  Qed.

  (** all other values, as returned by quantized_neighborhood *)
  Lemma quantized_all lo hi q z n cands : lo < hi -> lo <= z <= hi -> (q == enc lo hi false z)%Q ->
    n_ok n = true -> hi - lo <= Z.of_nat n ->
    exists l, quantized_neighborhood q n (hi - lo + 1) cands = Ok l /\
      Forall2 (fun w e => (e == enc lo hi false w)%Q) (arange lo z 1 ++ arange (z + 1) (hi + 1) 1) l.
  Proof.
    intros H Z Q N B. unfold quantized_neighborhood. rewrite N. replace (hi - lo + 1 - 1) with (hi - lo) by lia.
    replace (hi - lo <=? Z.of_nat n) with true by (symmetry; apply Z.leb_le; auto). cbv zeta.
    assert (K := size_pos lo hi H). assert (F := quantize_unit_fixes q lo hi z H Z Q).
    assert (EL := enc_linear lo hi false z eq_refl).
    destruct (Qeq_bool (quantize q 0 1 (hi - lo + 1)) 0) eqn:C1; [|destruct (Qeq_bool _ (inject_Z (hi - lo))) eqn:C2].
    - apply Qeq_bool_iff in C1. rewrite F, EL in C1.
      assert (z = lo) as ->.
      { assert (inject_Z (z - lo) == 0)%Q. { rewrite <- (Qmult_0_l (inject_Z (hi - lo))), <- C1. field. lra. }
        change 0%Q with (inject_Z 0) in H0. apply (proj1 (inject_Z_eq _ _)) in H0. lia. }
      eexists. split; [reflexivity|]. rewrite (arange_empty lo lo) by lia. simpl.
      replace (arange (lo + 1) (hi + 1) 1) with (map (fun i => lo + i) (arange 1 (hi - lo + 1) 1)); [apply over_enc; auto|].
      rewrite arange_shift. f_equal; lia.
    - apply Qeq_bool_iff in C2. rewrite F, EL in C2.
      assert (z - lo = (hi - lo) * (hi - lo)).
      { apply inject_Z_eq. rewrite inject_Z_mult, <- C2 at 1. field. lra. }
      assert (z = hi) as -> by nia.
      eexists. split; [reflexivity|]. rewrite (arange_empty (hi + 1) (hi + 1)) by lia. rewrite app_nil_r.
      replace (arange lo hi 1) with (map (fun i => lo + i) (arange 0 (hi - lo) 1)); [apply over_enc; auto|].
      rewrite arange_shift. f_equal; lia.
    - eexists. split; [reflexivity|].
      assert (R : rint (q * inject_Z (hi - lo)) = z - lo).
      { rewrite <- (rint_Z (z - lo)). apply rint_proper. rewrite Q, EL. field. lra. }
      rewrite R.
      replace (arange lo z 1 ++ arange (z + 1) (hi + 1) 1) with
        (map (fun i => lo + i) (arange 0 (z - lo) 1 ++ arange (z - lo + 1) (hi - lo + 1) 1)); [apply over_enc; auto|].
      rewrite map_app, !arange_shift. f_equal; f_equal; lia.
  Qed.

  Lemma Forall2_map_r {A B C} (P : A -> C -> Prop) (f : B -> C) l m :
    Forall2 (fun a b => P a (f b)) l m -> Forall2 P l (map f m).
  Proof. induction 1; simpl; constructor; auto. Qed.

  (** ... and by the log-scale branch of the discretised distribution *)
  Lemma log_all lo hi q z n cands : lo < hi -> 0 < lo -> lo <= z <= hi -> (q == enc lo hi true z)%Q ->
    n_ok n = true -> hi - lo <= Z.of_nat n ->
    exists l, discretized_neighborhood lo hi true q n cands = Ok l /\
      Forall2 (fun w e => (e == enc lo hi true w)%Q) (arange lo z 1 ++ arange (z + 1) (hi + 1) 1) l.
  Proof.
    intros H P Z Q N B. unfold discretized_neighborhood. rewrite N. cbv zeta. replace (hi - lo + 1 - 1) with (hi - lo) by lia.
    replace (hi - lo <=? Z.of_nat n) with true by (symmetry; apply Z.leb_le; auto).
    eexists. split; [reflexivity|].
    assert (K := size_pos lo hi H). assert (P' : true = true -> 0 < lo) by auto.
    assert (F := disc_fixes lo hi true q z H P' Z Q).
    assert (R : rint (unit_raw (inject_Z lo) (inject_Z hi) true (disc_quantize lo hi true q)) = z).
    { transitivity (rint (inject_Z z)); [|apply rint_Z]. apply rint_proper.
      transitivity (unit_raw (inject_Z lo) (inject_Z hi) true (enc lo hi true z)); [|apply raw_enc; auto; lia].
      unfold unit_raw, scale. rewrite F. reflexivity. }
    rewrite R.
    assert (S1 : (inject_Z (hi - lo) / inject_Z (hi - lo) == 1)%Q) by (field; lra).
    assert (T : py_int ((inject_Z z - inject_Z lo) / (inject_Z (hi - lo) / inject_Z (hi - lo))) = z - lo).
    { apply py_int_Z. rewrite S1, inject_Z_sub. field. }
    rewrite T. apply Forall2_app.
    - apply Forall2_map_r. destruct (z - lo + 1 =? 1) eqn:C.
      + apply Z.eqb_eq in C. rewrite arange_empty by lia. constructor.
      + replace (z - lo + 1 - 1) with (z - lo) by lia. assert (G := linspace_int lo z (z - lo) false).
        replace (lo + (z - lo)) with z in G by lia. specialize (G eq_refl).
        assert (G' : Forall2 (fun w q => lo <= w /\ (q == inject_Z w)%Q) (arange lo z 1) (linspace (inject_Z lo) (inject_Z z) (z - lo) false)).
        { assert (I : Forall (fun w => lo <= w) (arange lo z 1)).
          { apply Forall_forall. intros w I. apply in_arange in I; [|lia]. destruct I as (i & I). lia. }
          revert I. clear -G Z. destruct Z as [Z _]. assert (D : 0 <= z - lo) by lia. specialize (G D). clear D.
          induction G; intro I; constructor; inversion I; auto. }
        revert G'. generalize (linspace (inject_Z lo) (inject_Z z) (z - lo) false) (arange lo z 1). clear -L H P'.
        intros l m G. induction G as [|w e m l [W X] G IH]; constructor; auto. apply vec_of_enc; auto.
    - apply Forall2_map_r. replace (hi - lo + 1 - (z - lo + 1)) with (hi - z) by lia.
      assert (G := linspace_int (z + 1) hi (hi - z) true). cbv iota in G.
      assert (G1 : hi - (z + 1) = hi - z - 1) by lia. assert (G2 : 0 <= hi - z) by lia. specialize (G G1 G2).
      replace (z + 1 + (hi - z)) with (hi + 1) in G by lia.
      assert (G' : Forall2 (fun w q => lo <= w /\ (q == inject_Z w)%Q) (arange (z + 1) (hi + 1) 1) (linspace (inject_Z (z + 1)) (inject_Z hi) (hi - z) true)).
      { assert (I : Forall (fun w => lo <= w) (arange (z + 1) (hi + 1) 1)).
        { apply Forall_forall. intros w I. apply in_arange in I; [|lia]. destruct I as (i & I). lia. }
        revert I. clear -G. induction G; intro I; constructor; inversion I; auto. }
      revert G'. generalize (arange (z + 1) (hi + 1) 1). unfold linspace.
      generalize (seq 0 (Z.to_nat (hi - z))). clear -L H P' S1. intros s m G. revert m G.
      induction s as [|i s IH]; cbn [map]; intros m G; inversion G as [|w e m' l' WX G']; subst; constructor.
      + destruct WX as [W X]. apply vec_of_enc; auto. rewrite <- X, S1, inject_Z_plus. reflexivity.
      + apply IH. auto.
  Qed.
End Grid.

(** ** The linear branch of the discretised distribution *)
Section Linear.
  Context {E : Env} {L : EnvLaws E}.

  Lemma lin_take lo hi q z : lo < hi -> lo <= z <= hi -> (q == enc lo hi false z)%Q ->
    py_int ((disc_quantize lo hi false q - 0) / ((1 - 0) / inject_Z (hi - lo))) = z - lo.
  Proof.
    intros H Z Q. assert (K := size_pos lo hi H). apply py_int_Z.
    rewrite (disc_fixes lo hi false q z), enc_linear; auto; [|discriminate]. field. lra.
  Qed.

  Lemma lin_length lo hi q z n cands : lo < hi -> lo < z <= hi -> (q == enc lo hi false z)%Q ->
    n_ok n = true -> hi - lo <= Z.of_nat n ->
    exists l, discretized_neighborhood lo hi false q n cands = Ok l /\ Z.of_nat (length l) = hi - lo + 1.
  Proof.
    intros H Z Q N B. unfold discretized_neighborhood. rewrite N. cbv zeta. replace (hi - lo + 1 - 1) with (hi - lo) by lia.
    replace (hi - lo <=? Z.of_nat n) with true by (symmetry; apply Z.leb_le; auto).
    eexists. split; [reflexivity|]. rewrite (lin_take lo hi q z) by (auto; lia).
    replace (z - lo + 1 =? 1) with false by (symmetry; apply Z.eqb_neq; lia).
    rewrite app_length. unfold linspace. rewrite !map_length, !seq_length. lia.
  Qed.

  Lemma lin_lowest lo hi q n cands : lo < hi -> (q == enc lo hi false lo)%Q ->
    n_ok n = true -> hi - lo <= Z.of_nat n ->
    exists l, discretized_neighborhood lo hi false q n cands = Ok l /\
      Forall2 (fun w e => (e == enc lo hi false w)%Q) (arange (lo + 1) (hi + 1) 1) l.
  Proof.
    intros H Q N B. unfold discretized_neighborhood. rewrite N. cbv zeta. replace (hi - lo + 1 - 1) with (hi - lo) by lia.
    replace (hi - lo <=? Z.of_nat n) with true by (symmetry; apply Z.leb_le; auto).
    eexists. split; [reflexivity|]. rewrite (lin_take lo hi q lo) by (auto; lia).
    replace (lo - lo + 1 =? 1) with true by (symmetry; apply Z.eqb_eq; lia). simpl app.
    replace (hi - lo + 1 - (lo - lo + 1)) with (hi - lo) by lia.
    assert (K := size_pos lo hi H).
    assert (F : (disc_quantize lo hi false q == 0)%Q).
    { rewrite (disc_fixes lo hi false q lo), enc_linear by (auto; try discriminate; lia). replace (lo - lo) with 0 by lia.
      change (inject_Z 0) with 0%Q. field. lra. }
    unfold linspace, arange, range_len, zceil_div. rewrite Z.div_1_r.
    replace (- - (hi + 1 - (lo + 1))) with (hi - lo) by lia.
    assert (G : forall l, (forall i, In i l -> (i < Z.to_nat (hi - lo))%nat) ->
      Forall2 (fun w e => (e == enc lo hi false w)%Q) (map (fun i => lo + 1 + Z.of_nat i * 1) l)
        (map (fun i => (disc_quantize lo hi false q + (1 - 0) / inject_Z (hi - lo) +
          inject_Z (Z.of_nat i) * ((1 - (disc_quantize lo hi false q + (1 - 0) / inject_Z (hi - lo))) / inject_Z (hi - lo - 1)))%Q) l)).
    { induction l as [|i l IH]; cbn [map]; intro I; constructor; [|apply IH; intros j J; apply I; right; auto].
      rewrite F, enc_linear by auto. assert (Bi : (i < Z.to_nat (hi - lo))%nat) by (apply I; left; auto).
      replace (lo + 1 + Z.of_nat i * 1 - lo) with (1 + Z.of_nat i) by lia. rewrite inject_Z_plus. change (inject_Z 1) with 1%Q.
      destruct (Z.eq_dec (hi - lo) 1) as [U|U].
      - assert (i = O) as -> by lia. change (inject_Z (Z.of_nat 0)) with 0%Q. rewrite Qmult_0_l, U. reflexivity.
      - assert (K' : (0 < inject_Z (hi - lo - 1))%Q) by (apply inject_Z_pos; lia).
        assert (X : (inject_Z (hi - lo) == inject_Z (hi - lo - 1) + 1)%Q).
        { rewrite <- (inject_Z_plus _ 1). f_equiv. lia. }
        rewrite X. field. lra. }
    apply G. intros i I. apply in_seq in I. lia.
  Qed.
End Linear.
