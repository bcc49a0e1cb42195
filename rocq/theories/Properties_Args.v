(** * Property C77: which arguments the constructors of hyperparameters accept

    One theorem per constructor says for which arguments it returns; one says which exception the
    others raise. *)
From Coq Require Import String List ZArith QArith Qround Qabs Bool Lia Lqa.
From Verif Require Import Base Numeric NumericProofs HP HPProofs Properties_HP Properties_Ctor.
Import ListNotations.
Open Scope Z_scope.

(** ** Specification *)

(** If an optional argument is given, it satisfies [P]. *)
Definition if_given {A} (d : option A) (P : A -> Prop) : Prop := forall x, d = Some x -> P x.
(** No two elements of a sequence are equal for Python. *)
Definition all_differ (l : list value) : Prop :=
  forall i j v w, nth_error l i = Some v -> nth_error l j = Some w -> py_eqb v w = true -> i = j.
(** [v] is equal to an element of [l]. *)
Definition among (v : value) (l : list value) : Prop := exists w, In w l /\ py_eqb v w = true.
(** Weights for the choices: one each, none negative, not all zero. *)
Definition proper_weights (c : list value) (w : list Q) : Prop :=
  length w = length c /\ (forall x, In x w -> (0 <= x)%Q) /\ exists x, In x w /\ ~ (x == 0)%Q.
(** The bounds, after rounding, enclose more than one value, all positive on a log scale. *)
Definition int_range (lower upper : Q) (log : bool) : Prop :=
  rint lower < rint upper /\ (log = true -> 0 < rint lower).
Definition float_range (lower upper : Q) (log : bool) : Prop :=
  (round13 lower < round13 upper)%Q /\ (log = true -> (0 < round13 lower)%Q).
(** numpy considers [x] close to an integer: the tolerance grows with its size. *)
Definition integral (x : Q) : Prop :=
  (Qabs (x - inject_Z (rint x)) <= (1 # 10000000000000) + (1 # 100000) * Qabs (inject_Z (rint x)))%Q.

(** ** Lemmas *)
Lemma integral_iff x : is_close_to_integer x = true <-> integral x.
Proof. unfold is_close_to_integer, integral. rewrite Qle_bool_iff. reflexivity. Qed.

Lemma all_differ_iff l : has_dup l = false <-> all_differ l.
Proof.
  split; [intros D i j v w; apply has_dup_nth; exact D|].
  induction l as [|a l IH]; intro D; [reflexivity|]. simpl. apply orb_false_iff. split.
  - destruct (py_in a l) eqn:K; [|reflexivity]. apply py_in_iff in K. destruct K as (w & I & Q).
    apply In_nth_error in I. destruct I as (n & N). specialize (D O (S n) a w eq_refl N Q). discriminate.
  - apply IH. intros i j v w A B Q. specialize (D (S i) (S j) v w A B Q). congruence.
Qed.

Lemma weights_iff c w :
  (Nat.eqb (length w) (length c) && negb (existsb (fun x => Qltb x 0) w) && negb (forallb (fun x => Qeq_bool x 0) w))%bool = true
  <-> proper_weights c w.
Proof.
  unfold proper_weights. rewrite !andb_true_iff, !negb_true_iff, Nat.eqb_eq. split.
  - intros [[A B] C]. split; [exact A|]. split.
    + intros x I. apply Qnot_lt_le. intro F. apply Qltb_lt in F.
      assert (G : existsb (fun x => Qltb x 0) w = true) by (apply existsb_exists; eauto). congruence.
    + clear A B. induction w as [|x w IH]; [discriminate|]. simpl in C. apply andb_false_iff in C. destruct C as [C|C].
      * exists x. split; [left; reflexivity|]. intro Z. apply Qeq_bool_iff in Z. congruence.
      * destruct (IH C) as (y & I & N). exists y. split; [right|]; assumption.
  - intros (A & B & x & I & N). split; [split; [exact A|]|].
    + destruct (existsb _ w) eqn:K; [|reflexivity]. apply existsb_exists in K. destruct K as (y & Iy & L).
      apply Qltb_lt in L. assert (G := B y Iy). exfalso. apply (Qlt_not_le _ _ L G).
    + destruct (forallb _ w) eqn:K; [|reflexivity]. rewrite forallb_forall in K. exfalso. apply N. apply Qeq_bool_iff. apply K, I.
Qed.

Section Args.
  Context {E : Env} {L : EnvLaws E}.

  Lemma finish_iff h : (exists h', finish h = Ok h') <-> legal_value h (hp_default h) = true.
  Proof. unfold finish. destruct (legal_value _ _); split; eauto; [intros (h' & H)|]; discriminate. Qed.
  Lemma finish_err h e : finish h = Err e -> e = ValueError /\ legal_value h (hp_default h) = false.
  Proof. unfold finish. destruct (legal_value _ _); [discriminate|]. intros [= <-]. auto. Qed.
  Lemma check_iff {A} (b : bool) (e : err) (r : res A) :
    (exists a, (if b then r else Err e) = Ok a) <-> b = true /\ exists a, r = Ok a.
  Proof. destruct b; split; [auto|intros [_ H]; exact H|intros (a & H); discriminate|intros [H _]; discriminate]. Qed.
  Lemma check_err {A} (b : bool) (e e' : err) (r : res A) :
    (if b then r else Err e) = Err e' -> (b = false /\ e' = e) \/ (b = true /\ r = Err e').
  Proof. destruct b; intro H; [right|left]; split; auto. congruence. Qed.

  Lemma legal_z n lo hi log di m z : legal_value (mk_hp n (KInt lo hi log di) (VInt z) m) (VInt z) = true <-> lo <= z <= hi.
  Proof.
    unfold legal_value. simpl. rewrite (legal_int_Z lo hi z (inject_Z z)) by reflexivity.
    rewrite andb_true_iff, !Z.leb_le. tauto.
  Qed.
  Lemma legal_q n lo hi log di m x : legal_value (mk_hp n (KFloat lo hi log di) (VFloat x) m) (VFloat x) = true <-> (lo <= x <= hi)%Q.
  Proof. unfold legal_value. simpl. rewrite andb_true_iff, !Qle_bool_iff. tauto. Qed.
  Lemma range_int lower upper log :
    scaler_ok (inject_Z (rint lower)) (inject_Z (rint upper)) log = true <-> int_range lower upper log.
  Proof. rewrite scaler_ok_iff. apply bounds_int. Qed.
  Lemma range_float lower upper log : scaler_ok (round13 lower) (round13 upper) log = true <-> float_range lower upper log.
  Proof. apply scaler_ok_iff. Qed.
  Lemma close_iff d : (match d with None => true | Some d => is_close_to_integer d end) = true <-> if_given d integral.
  Proof.
    unfold if_given. destruct d as [d|]; split; try reflexivity; try (intros _ x H; discriminate).
    - intros H x [= <-]. apply integral_iff, H.
    - intro H. apply integral_iff, H. reflexivity.
  Qed.
  Lemma not_true (b : bool) (P : Prop) : (b = true <-> P) -> b = false -> ~ P.
  Proof. intros [_ H] F K. rewrite (H K) in F. discriminate. Qed.
  Lemma mean_ok mu log : negb (Qle_bool mu 0 && log) = true <-> (log = true -> (0 < mu)%Q).
  Proof.
    rewrite negb_true_iff, andb_false_iff, Qle_bool_false. split.
    - intros [H|H]; [auto|congruence].
    - intro H. destruct log; [left; auto|right; reflexivity].
  Qed.
  Lemma shape_ok a b : negb (Qltb a 1 || Qltb b 1) = true <-> (1 <= a)%Q /\ (1 <= b)%Q.
  Proof.
    assert (G : forall x, Qltb x 1 = false <-> (1 <= x)%Q).
    { intro x. split; intro H.
      - apply Qnot_lt_le. intro K. apply Qltb_lt in K. congruence.
      - destruct (Qltb x 1) eqn:K; [|reflexivity]. apply Qltb_lt in K. exfalso. apply (Qlt_not_le _ _ K H). }
    rewrite negb_true_iff, orb_false_iff, !G. reflexivity.
  Qed.

  Lemma mode_range a b : (1 <= a)%Q -> (1 <= b)%Q -> (0 <= beta_mode a b <= 1)%Q.
  Proof.
    intros A B. unfold beta_mode. destruct (Qltb 1 a || Qltb 1 b)%bool eqn:K; [|split; compute; discriminate].
    apply orb_true_iff in K. rewrite !Qltb_lt in K.
    assert (P : (0 < a + b - 2)%Q) by (destruct K; lra).
    split; [apply Qle_shift_div_l|apply Qle_shift_div_r]; lra.
  Qed.

  Lemma round13_one : (round13 1 == 1)%Q.
  Proof. vm_compute. reflexivity. Qed.
  Lemma round13_ge1 a : (1 <= a)%Q -> (1 <= round13 a)%Q.
  Proof. intro H. apply round13_mono in H. rewrite round13_one in H. exact H. Qed.
  Lemma clip_stays x lower upper : (round13 lower < round13 upper)%Q ->
    (round13 lower <= round13 (qclip x (round13 lower) (round13 upper)) <= round13 upper)%Q.
  Proof.
    intro H. destruct (qclip_range x (round13 lower) (round13 upper)) as [A B]; [lra|].
    apply round13_mono in A, B. rewrite !round13_idem in A, B. auto.
  Qed.

  (** ** C77: accepted arguments *)

  Theorem C77_categorical n c d w m : (exists h, mk_categorical n c d w m = Ok h) <->
    c <> [] /\ all_differ c /\ if_given w (proper_weights c) /\ if_given d (fun v => among v c).
  Proof.
    unfold mk_categorical. rewrite !check_iff, negb_true_iff, all_differ_iff.
    assert (W : (match w with None => true | Some w => (Nat.eqb (length w) (length c) && negb (existsb (fun x => Qltb x 0) w)
      && negb (forallb (fun x => Qeq_bool x 0) w))%bool end) = true <-> if_given w (proper_weights c)).
    { unfold if_given. destruct w as [w|]; [rewrite weights_iff; split; [intros H x [= <-]; exact H|intro H; apply H; reflexivity]|].
      split; [discriminate|reflexivity]. }
    assert (D : (match d with None => true | Some d => py_in d c end) = true <-> if_given d (fun v => among v c)).
    { unfold if_given. destruct d as [d|]; [rewrite py_in_iff; split; [intros H x [= <-]; exact H|intro H; apply H; reflexivity]|].
      split; [discriminate|reflexivity]. }
    rewrite W, D. destruct c as [|c0 c'].
    - split; [intros (_ & _ & _ & h & H); destruct w; discriminate|intros [H _]; congruence].
    - rewrite finish_iff. split; [intros (A & B & C & _); split; [discriminate|auto]|].
      intros (_ & A & B & C). split; [exact A|]. split; [exact B|]. split; [exact C|].
      cbn [hp_default]. unfold legal_value. cbn [hp_kind]. apply py_in_iff. destruct d as [d|].
      + destruct (C d eq_refl) as (v & H). exists v. exact H.
      + destruct w as [w|]; [|exists c0; split; [left; reflexivity|apply py_eqb_refl]].
        eexists. split; [|apply py_eqb_refl]. apply nth_In.
        destruct (argmax_spec (probabilities (c0 :: c') (Some w))) as [Am _].
        { destruct (B w eq_refl) as (Len & _). simpl. intro K. apply map_eq_nil in K. subst w. discriminate. }
        destruct (B w eq_refl) as (Len & _). rewrite <- Len. simpl probabilities in Am. rewrite map_length in Am. exact Am.
  Qed.

  Theorem C77_categorical_raises n c d w m e : mk_categorical n c d w m = Err e ->
    (e = ValueError /\ (~ all_differ c \/ ~ if_given w (proper_weights c) \/ ~ if_given d (fun v => among v c))) \/
    (e = ZeroDivisionError /\ c = []).
  Proof.
    intro H. assert (N : ~ exists h, mk_categorical n c d w m = Ok h) by (intros (h & K); congruence).
    revert H. unfold mk_categorical. intro H. apply check_err in H. destruct H as [[D ->]|[D H]].
    { left. split; [reflexivity|]. left. intro K. apply all_differ_iff in K. rewrite K in D. discriminate. }
    apply check_err in H. destruct H as [[W ->]|[W H]].
    { left. split; [reflexivity|]. right. left. intro K. destruct w as [w|]; [|discriminate].
      specialize (K w eq_refl). apply weights_iff in K. congruence. }
    apply check_err in H. destruct H as [[G ->]|[G H]].
    { left. split; [reflexivity|]. right. right. intro K. destruct d as [d|]; [|discriminate].
      specialize (K d eq_refl). apply py_in_iff in K. congruence. }
    destruct c as [|c0 c'].
    - destruct w as [w|]; [|injection H as <-; right; auto]. apply weights_iff in W. destruct W as (W1 & _ & x & I & _).
      destruct w; [destruct I|discriminate].
    - exfalso. apply N. apply C77_categorical. split; [discriminate|].
      apply negb_true_iff, all_differ_iff in D. split; [exact D|]. split.
      + intros x ->. apply weights_iff, W.
      + intros x ->. apply py_in_iff, G.
  Qed.

  Theorem C77_ordinal n s d m : (exists h, mk_ordinal n s d m = Ok h) <->
    s <> [] /\ all_differ s /\ if_given d (fun v => among v s).
  Proof.
    unfold mk_ordinal. rewrite check_iff, negb_true_iff, all_differ_iff. unfold if_given. destruct d as [d|].
    - rewrite check_iff, finish_iff, py_in_iff. cbn [hp_default]. unfold legal_value. cbn [hp_kind]. rewrite py_in_iff. split.
      + intros (A & B & _). split; [destruct B as (w & I & _); intros ->; exact I|]. split; [exact A|]. intros x [= <-]. exact B.
      + intros (_ & A & B). split; [exact A|]. split; apply B; reflexivity.
    - destruct s as [|v s]; [split; [intros (_ & h & K); discriminate|intros [K _]; congruence]|]. rewrite finish_iff.
      cbn [hp_default]. unfold legal_value. cbn [hp_kind]. rewrite py_in_iff. split.
      + intros (A & _). split; [discriminate|]. split; [exact A|]. intros x K. discriminate.
      + intros (_ & A & _). split; [exact A|]. exists v. split; [left; reflexivity|apply py_eqb_refl].
  Qed.

  Theorem C77_ordinal_raises n s d m e : mk_ordinal n s d m = Err e ->
    (e = ValueError /\ (~ all_differ s \/ ~ if_given d (fun v => among v s))) \/ (e = IndexError /\ s = [] /\ d = None).
  Proof.
    intro H. assert (N : ~ exists h, mk_ordinal n s d m = Ok h) by (intros (h & K); congruence).
    revert H. unfold mk_ordinal. intro H. apply check_err in H. destruct H as [[D ->]|[D H]].
    { left. split; [reflexivity|]. left. intro K. apply all_differ_iff in K. rewrite K in D. discriminate. }
    apply negb_true_iff, all_differ_iff in D. destruct d as [d|].
    - apply check_err in H. destruct H as [[G ->]|[G H]].
      + left. split; [reflexivity|]. right. intro K. specialize (K d eq_refl). apply py_in_iff in K. congruence.
      + exfalso. apply N. apply C77_ordinal. apply py_in_iff in G. split; [destruct G as (w & I & _); intros ->; exact I|].
        split; [exact D|]. intros x [= <-]. exact G.
    - destruct s as [|v s]; [injection H as <-; right; auto|]. exfalso. apply N. apply C77_ordinal.
      split; [discriminate|]. split; [exact D|]. intros x K. discriminate.
  Qed.

  Theorem C77_constant n v m : exists h, mk_constant n v m = Ok h.
  Proof. unfold mk_constant. apply finish_iff. unfold legal_value. simpl. apply py_eqb_refl. Qed.

  (** a uniform integer cuts off the fraction of its default, the others round it *)
  Definition int_default (d : option Q) (to_z : Q -> Z) (lower upper : Q) : Prop :=
    if_given d (fun x => rint lower <= to_z x <= rint upper).

  Theorem C77_uniform_int n lower upper d log m : (exists h, mk_uniform_int n lower upper d log m = Ok h) <->
    int_range lower upper log /\ if_given d integral /\ int_default d py_int lower upper.
  Proof.
    unfold mk_uniform_int. cbv zeta. rewrite !check_iff, finish_iff, close_iff, range_int. cbn [hp_default]. rewrite legal_z.
    unfold int_default, if_given. destruct d as [d|]; split.
    - intros (A & B & C). split; [exact B|]. split; [exact A|]. intros x [= <-]. exact C.
    - intros (B & A & C). split; [exact A|]. split; [exact B|]. apply C. reflexivity.
    - intros (A & B & C). split; [exact B|]. split; [exact A|]. intros x K. discriminate.
    - intros (B & A & C). split; [exact A|]. split; [exact B|]. apply (proj2 (bounds_int _ _ _)) in B.
      destruct (unit_raw_range _ _ log (1#2) B) as [R1 R2]; [compute; discriminate|compute; discriminate|]. apply rint_bounds; assumption.
  Qed.

  Theorem C77_uniform_int_raises n lower upper d log m e : mk_uniform_int n lower upper d log m = Err e ->
    (e = TypeError /\ ~ if_given d integral) \/
    (e = ValueError /\ if_given d integral /\ (~ int_range lower upper log \/ ~ int_default d py_int lower upper)).
  Proof.
    intro H. assert (N : ~ exists h, mk_uniform_int n lower upper d log m = Ok h) by (intros (h & K); congruence).
    revert H. unfold mk_uniform_int. cbv zeta. intro H. apply check_err in H. destruct H as [[D ->]|[D H]].
    { left. split; [reflexivity|]. apply (not_true _ _ (close_iff d) D). }
    apply close_iff in D. apply check_err in H. destruct H as [[G ->]|[G H]].
    { right. split; [reflexivity|]. split; [exact D|]. left. apply (not_true _ _ (range_int _ _ _) G). }
    apply range_int in G. apply finish_err in H. destruct H as [-> _]. right. split; [reflexivity|]. split; [exact D|]. right.
    intro K. apply N, C77_uniform_int. auto.
  Qed.

  Theorem C77_normal_int n mu sigma lower upper d log m : (exists h, mk_normal_int n mu sigma lower upper d log m = Ok h) <->
    (log = true -> (0 < mu)%Q) /\ int_range lower upper log /\ if_given d integral /\ int_default d rint lower upper.
  Proof.
    unfold mk_normal_int. cbv zeta. rewrite !check_iff, finish_iff, mean_ok, close_iff, range_int. cbn [hp_default]. rewrite legal_z.
    unfold int_default, if_given. destruct d as [d|]; split.
    - intros (M & B & A & C). do 3 (split; [assumption|]). intros x [= <-]. exact C.
    - intros (M & B & A & C). do 3 (split; [assumption|]). apply C. reflexivity.
    - intros (M & B & A & C). do 3 (split; [assumption|]). intros x K. discriminate.
    - intros (M & B & A & C). do 3 (split; [assumption|]). destruct B as [B _].
      destruct (qclip_range mu (inject_Z (rint lower)) (inject_Z (rint upper))) as [R1 R2]; [apply inject_Z_le; lia|].
      apply rint_bounds; assumption.
  Qed.

  Theorem C77_normal_int_raises n mu sigma lower upper d log m e : mk_normal_int n mu sigma lower upper d log m = Err e ->
    (e = TypeError /\ ~ if_given d integral) \/
    (e = ValueError /\ (~ (log = true -> (0 < mu)%Q) \/ ~ int_range lower upper log \/ ~ int_default d rint lower upper)).
  Proof.
    intro H. assert (N : ~ exists h, mk_normal_int n mu sigma lower upper d log m = Ok h) by (intros (h & K); congruence).
    revert H. unfold mk_normal_int. cbv zeta. intro H. apply check_err in H. destruct H as [[M ->]|[M H]].
    { right. split; [reflexivity|]. left. apply (not_true _ _ (mean_ok mu log) M). }
    apply check_err in H. destruct H as [[G ->]|[G H]].
    { right. split; [reflexivity|]. right. left. apply (not_true _ _ (range_int _ _ _) G). }
    apply check_err in H. destruct H as [[D ->]|[D H]].
    { left. split; [reflexivity|]. apply (not_true _ _ (close_iff d) D). }
    rewrite mean_ok in M. apply range_int in G. apply close_iff in D.
    apply finish_err in H. destruct H as [-> _]. right. split; [reflexivity|]. right. right.
    intro K. apply N, (proj2 (C77_normal_int _ _ _ _ _ _ _ _)). repeat (split; [assumption|]). assumption.
  Qed.

  Theorem C77_beta_int n a b lower upper d log m : (exists h, mk_beta_int n a b lower upper d log m = Ok h) <->
    ((1 <= a)%Q /\ (1 <= b)%Q) /\ int_range lower upper log /\ if_given d integral /\ int_default d rint lower upper.
  Proof.
    unfold mk_beta_int. cbv zeta. rewrite !check_iff, finish_iff, shape_ok, close_iff, range_int. cbn [hp_default]. rewrite legal_z.
    unfold int_default, if_given. destruct d as [d|]; split.
    - intros (M & B & A & C). do 3 (split; [assumption|]). intros x [= <-]. exact C.
    - intros (M & B & A & C). do 3 (split; [assumption|]). apply C. reflexivity.
    - intros (M & B & A & C). do 3 (split; [assumption|]). intros x K. discriminate.
    - intros (M & B & A & C). do 3 (split; [assumption|]). apply (proj2 (bounds_int _ _ _)) in B.
      destruct (mode_range a b (proj1 M) (proj2 M)) as [M1 M2].
      destruct (unit_raw_range _ _ log (beta_mode a b) B M1 M2) as [R1 R2]. apply rint_bounds; assumption.
  Qed.

  Theorem C77_beta_int_raises n a b lower upper d log m e : mk_beta_int n a b lower upper d log m = Err e ->
    (e = TypeError /\ ~ if_given d integral) \/
    (e = ValueError /\ (~ ((1 <= a)%Q /\ (1 <= b)%Q) \/ ~ int_range lower upper log \/ ~ int_default d rint lower upper)).
  Proof.
    intro H. assert (N : ~ exists h, mk_beta_int n a b lower upper d log m = Ok h) by (intros (h & K); congruence).
    revert H. unfold mk_beta_int. cbv zeta. intro H. apply check_err in H. destruct H as [[M ->]|[M H]].
    { right. split; [reflexivity|]. left. apply (not_true _ _ (shape_ok a b) M). }
    apply check_err in H. destruct H as [[G ->]|[G H]].
    { right. split; [reflexivity|]. right. left. apply (not_true _ _ (range_int _ _ _) G). }
    apply check_err in H. destruct H as [[D ->]|[D H]].
    { left. split; [reflexivity|]. apply (not_true _ _ (close_iff d) D). }
    apply shape_ok in M. apply range_int in G. apply close_iff in D.
    apply finish_err in H. destruct H as [-> _]. right. split; [reflexivity|]. right. right.
    intro K. apply N, (proj2 (C77_beta_int _ _ _ _ _ _ _ _)). repeat (split; [assumption|]). assumption.
  Qed.

  (** a default is rounded to 13 decimals before it is checked *)
  Definition float_default (d : option Q) (lower upper : Q) : Prop :=
    if_given d (fun x => (round13 lower <= round13 x <= round13 upper)%Q).

  Theorem C77_uniform_float n lower upper d log m : (exists h, mk_uniform_float n lower upper d log m = Ok h) <->
    float_range lower upper log /\ float_default d lower upper.
  Proof.
    unfold mk_uniform_float. cbv zeta. rewrite !check_iff, finish_iff, range_float. cbn [hp_default]. rewrite legal_q.
    unfold float_default, if_given. destruct d as [d|]; split; intros (A & B); (split; [exact A|]).
    - intros x [= <-]. exact B.
    - apply B. reflexivity.
    - intros x K. discriminate.
    - apply clip_stays, A.
  Qed.
  Theorem C77_uniform_float_raises n lower upper d log m e : mk_uniform_float n lower upper d log m = Err e ->
    e = ValueError /\ (~ float_range lower upper log \/ ~ float_default d lower upper).
  Proof.
    intro H. assert (N : ~ exists h, mk_uniform_float n lower upper d log m = Ok h) by (intros (h & K); congruence).
    revert H. unfold mk_uniform_float. cbv zeta. intro H. apply check_err in H. destruct H as [[G ->]|[G H]].
    { split; [reflexivity|]. left. apply (not_true _ _ (range_float _ _ _) G). }
    apply range_float in G. apply finish_err in H. destruct H as [-> _]. split; [reflexivity|]. right.
    intro K. apply N, C77_uniform_float. auto.
  Qed.

  Theorem C77_normal_float n mu sigma lower upper d log m : (exists h, mk_normal_float n mu sigma lower upper d log m = Ok h) <->
    (log = true -> (0 < mu)%Q) /\ float_range lower upper log /\ float_default d lower upper.
  Proof.
    unfold mk_normal_float. cbv zeta. rewrite !check_iff, finish_iff, mean_ok, range_float. cbn [hp_default]. rewrite legal_q.
    unfold float_default, if_given. destruct d as [d|]; split; intros (M & A & B); (split; [exact M|]; split; [exact A|]).
    - intros x [= <-]. exact B.
    - apply B. reflexivity.
    - intros x K. discriminate.
    - apply clip_stays, A.
  Qed.
  Theorem C77_normal_float_raises n mu sigma lower upper d log m e : mk_normal_float n mu sigma lower upper d log m = Err e ->
    e = ValueError /\ (~ (log = true -> (0 < mu)%Q) \/ ~ float_range lower upper log \/ ~ float_default d lower upper).
  Proof.
    intro H. assert (N : ~ exists h, mk_normal_float n mu sigma lower upper d log m = Ok h) by (intros (h & K); congruence).
    revert H. unfold mk_normal_float. cbv zeta. intro H. apply check_err in H. destruct H as [[M ->]|[M H]].
    { split; [reflexivity|]. left. apply (not_true _ _ (mean_ok mu log) M). }
    apply check_err in H. destruct H as [[G ->]|[G H]].
    { split; [reflexivity|]. right. left. apply (not_true _ _ (range_float _ _ _) G). }
    rewrite mean_ok in M. apply range_float in G. apply finish_err in H. destruct H as [-> _]. split; [reflexivity|]. right. right.
    intro K. apply N, (proj2 (C77_normal_float _ _ _ _ _ _ _ _)). repeat (split; [assumption|]). assumption.
  Qed.

  Theorem C77_beta_float n a b lower upper d log m : (exists h, mk_beta_float n a b lower upper d log m = Ok h) <->
    ((1 <= a)%Q /\ (1 <= b)%Q) /\ float_range lower upper log /\ float_default d lower upper.
  Proof.
    unfold mk_beta_float. cbv zeta. rewrite !check_iff, finish_iff, shape_ok, range_float. cbn [hp_default]. rewrite legal_q.
    unfold float_default, if_given. destruct d as [d|]; split; intros (M & A & B); (split; [exact M|]; split; [exact A|]).
    - intros x [= <-]. exact B.
    - apply B. reflexivity.
    - intros x K. discriminate.
    - apply clip_stays, A.
  Qed.
  Theorem C77_beta_float_raises n a b lower upper d log m e : mk_beta_float n a b lower upper d log m = Err e ->
    e = ValueError /\ (~ ((1 <= a)%Q /\ (1 <= b)%Q) \/ ~ float_range lower upper log \/ ~ float_default d lower upper).
  Proof.
    intro H. assert (N : ~ exists h, mk_beta_float n a b lower upper d log m = Ok h) by (intros (h & K); congruence).
    revert H. unfold mk_beta_float. cbv zeta. intro H. apply check_err in H. destruct H as [[M ->]|[M H]].
    { split; [reflexivity|]. left. apply (not_true _ _ (shape_ok a b) M). }
    apply check_err in H. destruct H as [[G ->]|[G H]].
    { split; [reflexivity|]. right. left. apply (not_true _ _ (range_float _ _ _) G). }
    apply shape_ok in M. apply range_float in G. apply finish_err in H. destruct H as [-> _]. split; [reflexivity|]. right. right.
    intro K. apply N, (proj2 (C77_beta_float _ _ _ _ _ _ _ _)). repeat (split; [assumption|]). assumption.
  Qed.
End Args.

Section Examples.
  #[local] Existing Instance rat_env.

  (** weights (1, 0, 2) and a default given as True where the choice is 1 *)
  Example ex_args : exists h, mk_categorical "c" [VInt 1; VStr "b"; VFloat (1#2)] (Some (VBool true)) (Some [1; 0; 2]%Q) None = Ok h.
  Proof.
    apply C77_categorical. split; [discriminate|]. split; [apply all_differ_iff; reflexivity|]. split.
    - intros w [= <-]. apply weights_iff. reflexivity.
    - intros v [= <-]. exists (VInt 1). split; [left; reflexivity|reflexivity].
  Qed.

  (** bounds that are fine in writing but the same integer after rounding *)
  Example ex_args_int : mk_uniform_int "i" (3#2) (5#2) None false None = Err ValueError /\ ~ int_range (3#2) (5#2) false.
  Proof. split; [reflexivity|]. intros [H _]. vm_compute in H. discriminate. Qed.

  (** a mean that a log scale cannot represent *)
  Example ex_args_mean : mk_normal_float "f" 0 1 1 10 None true None = Err ValueError /\ exists h, mk_normal_float "f" 0 1 1 10 None false None = Ok h.
  Proof. split; [reflexivity|]. eexists. vm_compute. reflexivity. Qed.

  (** the strict reading "a default is accepted only if it lies between the bounds" is false: a uniform
      integer accepts 100000.9 for the bounds 99990 and 100000 *)
  Theorem C77_default_refuted : exists n lower upper d h,
    mk_uniform_int n lower upper (Some d) false None = Ok h /\ (upper < d)%Q.
  Proof. exists "i"%string, (99990#1), (100000#1), (1000009#10). eexists. split; [vm_compute; reflexivity|reflexivity]. Qed.
End Examples.
