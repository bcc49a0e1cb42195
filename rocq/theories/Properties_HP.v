(** * Properties C34 - C40: values, vectors and legality of a single hyperparameter

    [constructed h] says that some constructor of the library returned [h].  The theorems hold for
    every log/exp pair satisfying the laws [EnvLaws]; [rat_env] is one such pair. *)
From Coq Require Import String List ZArith QArith Qround Qabs Bool Lia Lqa.
From Verif Require Import Base Numeric NumericProofs HP HPProofs.
Import ListNotations.
Open Scope Z_scope.

(** The listed values of a categorical or ordinal hyperparameter. *)
Inductive lists_values (h : hp) (s : list value) : Prop :=
| LV_ord : hp_kind h = KOrd s -> lists_values h s
| LV_cat w : hp_kind h = KCat s w -> lists_values h s.

(** Bounds and scale of an integer / float hyperparameter *)
Definition int_range (h : hp) (lo hi : Z) (log : bool) : Prop := exists d, hp_kind h = KInt lo hi log d.
Definition float_range (h : hp) (lo hi : Q) (log : bool) : Prop := exists d, hp_kind h = KFloat lo hi log d.

Lemma lists_values_or h s : lists_values h s -> hp_kind h = KOrd s \/ exists w, hp_kind h = KCat s w.
Proof. intros [|w]; eauto. Qed.

Section HP.
  Context {E : Env} {L : EnvLaws E}.

  Lemma lists_values_nodup h s : constructed h -> lists_values h s -> has_dup s = false.
  Proof.
    intros C K. apply constructed_wf in C. unfold wf_hp in C.
    destruct K as [K|w K]; rewrite K in C; tauto.
  Qed.

  (** ** C34 *)

  (** value -> vector -> value; the vector entry is the position in the sequence *)
  Theorem C34_values_roundtrip h s v :
    constructed h -> lists_values h s -> legal_value h v = true ->
    exists i w, nth_error s i = Some w /\ py_eqb w v = true /\
      to_vector h v = Ok (Fin (inject_Z (Z.of_nat i))) /\
      legal_vector h (Fin (inject_Z (Z.of_nat i))) = true /\
      to_value h (Fin (inject_Z (Z.of_nat i))) = Ok w.
  Proof.
    intros C K H. assert (D := lists_values_nodup _ _ C K).
    destruct (seq_roundtrip h s v (lists_values_or _ _ K) D H) as (i & w & I & Lt & V & LV & TV & Q).
    exists i, w. destruct (py_index_some _ _ _ I) as (w' & N & Q' & _).
    destruct (seq_roundtrip_back h s i (lists_values_or _ _ K) D Lt) as (w2 & T2 & N2 & _).
    rewrite TV in T2. injection T2 as <-. auto.
  Qed.

  (** vector -> value -> vector *)
  Theorem C34_vectors_roundtrip h s i :
    constructed h -> lists_values h s -> (i < length s)%nat ->
    exists w, to_value h (Fin (inject_Z (Z.of_nat i))) = Ok w /\ nth_error s i = Some w /\
      legal_value h w = true /\ to_vector h w = Ok (Fin (inject_Z (Z.of_nat i))).
  Proof.
    intros C K H. apply (seq_roundtrip_back h s i (lists_values_or _ _ K)); auto.
    apply (lists_values_nodup h); auto.
  Qed.

  (** different values have different vectors *)
  Theorem C34_injective h s v w x y :
    constructed h -> lists_values h s -> legal_value h v = true -> legal_value h w = true ->
    to_vector h v = Ok x -> to_vector h w = Ok y ->
    feqb x y = py_eqb v w.
  Proof.
    intros C K Hv Hw Tv Tw. assert (D := lists_values_nodup _ _ C K).
    destruct (C34_values_roundtrip h s v C K Hv) as (i & v' & Ni & Qi & Vi & _).
    destruct (C34_values_roundtrip h s w C K Hw) as (j & w' & Nj & Qj & Vj & _).
    rewrite Tv in Vi. rewrite Tw in Vj. injection Vi as ->. injection Vj as ->. simpl.
    destruct (py_eqb v w) eqn:Q.
    - assert (i = j); [|subst; apply Qeq_bool_refl].
      apply (has_dup_nth s i j v' w'); auto.
      rewrite (py_eqb_congr_l _ _ _ Qi), (py_eqb_congr_l _ _ _ Q), py_eqb_sym. auto.
    - apply Qeq_bool_false. intro F. apply inject_Z_injective, Nat2Z.inj in F. subst j.
      rewrite Ni in Nj. injection Nj as <-.
      rewrite py_eqb_sym in Qi. rewrite (py_eqb_trans _ _ _ Qi Qj) in Q. discriminate.
  Qed.

  (** ordinals: earlier in the sequence iff smaller vector *)
  Theorem C34_ordinal_order h s i j v w x y :
    constructed h -> hp_kind h = KOrd s ->
    nth_error s i = Some v -> nth_error s j = Some w ->
    to_vector h v = Ok x -> to_vector h w = Ok y ->
    fltb x y = true <-> (i < j)%nat.
  Proof.
    intros C K Ni Nj Tv Tw. assert (D := lists_values_nodup _ _ C (LV_ord _ _ K)).
    unfold to_vector in Tv, Tw. rewrite K in Tv, Tw.
    rewrite (py_index_nth s i v D Ni) in Tv. rewrite (py_index_nth s j w D Nj) in Tw.
    injection Tv as <-. injection Tw as <-. simpl.
    rewrite Qltb_lt, inject_Z_lt. lia.
  Qed.

  (** constants: one vector entry, 1, which means the value; nothing else is legal *)
  Theorem C34_constant h c v x :
    hp_kind h = KConst c ->
    (legal_value h v = true <-> py_eqb v c = true) /\
    (legal_value h v = true -> to_vector h v = Ok (Fin 1%Q)) /\
    (legal_vector h x = true <-> feqb x (Fin 1%Q) = true) /\
    (legal_vector h x = true -> to_value h x = Ok c) /\
    (legal_value h v = false -> exists y, to_vector h v = Ok y /\ legal_vector h y = false).
  Proof.
    intro K. unfold legal_value, to_vector, legal_vector, to_value. rewrite K.
    split; [tauto|]. split; [intros ->; auto|]. split; [tauto|]. split; auto.
    intros ->. eexists. split; eauto.
  Qed.

  (** ** C35 *)
  Theorem C35_int_roundtrip h lo hi log z :
    constructed h -> int_range h lo hi log -> lo <= z <= hi ->
    exists q, to_vector h (VInt z) = Ok (Fin q) /\ (0 <= q)%Q /\ (q <= 1)%Q /\
      legal_vector h (Fin q) = true /\ to_value h (Fin q) = Ok (VInt z).
  Proof.
    intros C [d K] Z. apply constructed_wf in C. unfold wf_hp in C. rewrite K in C.
    destruct C as (C1 & C2 & _).
    destruct (int_roundtrip h lo hi log d z K C1 C2 Z) as (q & T & Q1 & Q2 & _ & LV & _ & TV).
    eauto 10.
  Qed.

  Theorem C35_int_increasing h lo hi log y z p q :
    constructed h -> int_range h lo hi log -> lo <= y -> y < z -> z <= hi ->
    to_vector h (VInt y) = Ok (Fin p) -> to_vector h (VInt z) = Ok (Fin q) -> (p < q)%Q.
  Proof.
    intros C [d K] A B D Tp Tq. apply constructed_wf in C. unfold wf_hp in C. rewrite K in C.
    destruct C as (C1 & C2 & _).
    assert (BO : bounds_ok (inject_Z lo) (inject_Z hi) log) by (apply bounds_int; auto).
    assert (P : forall z, lo <= z -> log = true -> (0 < inject_Z z)%Q).
    { intros t G l. apply inject_Z_pos. specialize (C2 l). lia. }
    unfold to_vector in Tp, Tq. rewrite K in Tp, Tq. simpl num_of in Tp, Tq. cbv iota in Tp, Tq.
    rewrite unit_to_vector_fin in Tp, Tq by (apply P; lia).
    injection Tp as <-. injection Tq as <-.
    apply unit_norm_lt; auto. apply inject_Z_lt. auto.
  Qed.

  (** every legal vector entry means an integer within the bounds *)
  Theorem C35_int_legal_vector h lo hi log x :
    constructed h -> int_range h lo hi log -> legal_vector h x = true ->
    exists z, to_value h x = Ok (VInt z) /\ lo <= z <= hi.
  Proof.
    intros C [d K] H. apply constructed_wf in C. unfold wf_hp in C. rewrite K in C.
    destruct C as (C1 & C2 & _). unfold legal_vector in H. rewrite K in H.
    destruct x as [q| | |]; try discriminate.
    assert (BO : bounds_ok (inject_Z lo) (inject_Z hi) log) by (apply bounds_int; auto).
    exists (rint (unit_raw (inject_Z lo) (inject_Z hi) log q)).
    unfold to_value. rewrite K. split; auto. destruct log.
    - unfold legal_int in H. apply andb_true_iff in H. destruct H as [H _].
      apply andb_true_iff in H. rewrite !Z.leb_le in H. auto.
    - apply andb_true_iff in H. destruct H as [_ H]. apply andb_true_iff in H.
      rewrite !Qle_bool_iff in H. destruct H as [H1 H2].
      destruct (unit_raw_range _ _ false q BO H1 H2). apply rint_bounds; auto.
  Qed.

  (** ** C36 *)
  Theorem C36_float_roundtrip h lo hi log v x :
    constructed h -> float_range h lo hi log -> num_of v = Some x -> legal_value h v = true ->
    exists q y, to_vector h v = Ok (Fin q) /\ (0 <= q)%Q /\ (q <= 1)%Q /\
      legal_vector h (Fin q) = true /\ to_value h (Fin q) = Ok (VFloat y) /\ (y == x)%Q.
  Proof.
    intros C [d K] V H. apply constructed_wf in C. unfold wf_hp in C. rewrite K in C.
    destruct C as (C1 & _). unfold legal_value in H. rewrite K, V in H.
    apply andb_true_iff in H. rewrite !Qle_bool_iff in H. destruct H.
    eapply float_roundtrip; eauto.
  Qed.

  (** onto [0,1] *)
  Theorem C36_float_onto h lo hi log q :
    constructed h -> float_range h lo hi log -> (0 <= q)%Q -> (q <= 1)%Q ->
    exists y q', to_value h (Fin q) = Ok (VFloat y) /\ legal_value h (VFloat y) = true /\
      to_vector h (VFloat y) = Ok (Fin q') /\ (q' == q)%Q.
  Proof.
    intros C [d K] A B. apply constructed_wf in C. unfold wf_hp in C. rewrite K in C.
    destruct C as (C1 & _).
    destruct (float_roundtrip_back h lo hi log d q K C1 A B) as (y & q' & T & Y1 & Y2 & T' & Q).
    exists y, q'. split; auto. split; auto. unfold legal_value. rewrite K. simpl.
    apply andb_true_iff. rewrite !Qle_bool_iff. auto.
  Qed.

  Theorem C36_float_increasing h lo hi log x y p q :
    constructed h -> float_range h lo hi log -> (lo <= x)%Q -> (x < y)%Q -> (y <= hi)%Q ->
    to_vector h (VFloat x) = Ok (Fin p) -> to_vector h (VFloat y) = Ok (Fin q) -> (p < q)%Q.
  Proof.
    intros C [d K] A B D Tp Tq. apply constructed_wf in C. unfold wf_hp in C. rewrite K in C.
    destruct C as (C1 & _).
    assert (P : log = true -> (0 < lo)%Q) by apply C1.
    unfold to_vector in Tp, Tq. rewrite K in Tp, Tq. simpl num_of in Tp, Tq. cbv iota in Tp, Tq.
    rewrite unit_to_vector_fin in Tp, Tq by (intro l; specialize (P l); lra).
    injection Tp as <-. injection Tq as <-.
    apply unit_norm_lt; auto. intro l. specialize (P l). lra.
  Qed.

  (** ** C37 *)
  Theorem C37_default_legal h : constructed h -> legal_value h (hp_default h) = true.
  Proof.
    intro C. apply constructed_wf in C. unfold wf_hp in C. unfold legal_value.
    destruct (hp_kind h) as [c w|s|v|lo hi log d|lo hi log d]; try tauto.
    - destruct C as (A & B & z & -> & Z). simpl. rewrite (legal_int_Z lo hi z) by reflexivity.
      apply andb_true_iff. rewrite !Z.leb_le. auto.
    - destruct C as (A & q & -> & Q1 & Q2). simpl.
      apply andb_true_iff. rewrite !Qle_bool_iff. auto.
  Qed.

  Theorem C37_domain_nonempty h : constructed h ->
    match hp_kind h with
    | KCat s w =>
        s <> [] /\
        (forall i j v v', nth_error s i = Some v -> nth_error s j = Some v' ->
          py_eqb v v' = true -> i = j) /\
        (forall w', w = Some w' ->
          length w' = length s /\ Forall (fun x => (0 <= x)%Q) w' /\ (0 < Qsum w')%Q)
    | KOrd s =>
        s <> [] /\
        (forall i j v v', nth_error s i = Some v -> nth_error s j = Some v' ->
          py_eqb v v' = true -> i = j)
    | KConst v => True
    | KInt lo hi log _ =>
        lo < hi /\ (log = true -> 0 < lo) /\
        exists z, hp_default h = VInt z /\ lo <= z <= hi
    | KFloat lo hi log _ =>
        (lo < hi)%Q /\ (log = true -> (0 < lo)%Q) /\
        exists x, hp_default h = VFloat x /\ (lo <= x)%Q /\ (x <= hi)%Q
    end.
  Proof.
    intro C. apply constructed_wf in C. unfold wf_hp in C.
    destruct (hp_kind h) as [c w|s|v|lo hi log d|lo hi log d]; auto.
    - destruct C as (A & B & _ & W). split; auto. split.
      + intros. eapply has_dup_nth; eauto.
      + intros w' ->. auto.
    - destruct C as (A & B & _). split; auto. intros. eapply has_dup_nth; eauto.
    - destruct C as ((A & B) & C). auto.
  Qed.

  (** without an explicit default the uniform constructors accept exactly the proper bounds *)
  Theorem C37_uniform_int_accepts n lower upper log m :
    is_ok (mk_uniform_int n lower upper None log m) = true <->
    rint lower < rint upper /\ (log = true -> 0 < rint lower).
  Proof.
    split.
    - intro H. destruct (mk_uniform_int n lower upper None log m) as [h|] eqn:M; [|discriminate].
      assert (C : constructed h) by (eapply CtorUInt; eauto).
      unfold mk_uniform_int in M. cbv zeta in M.
      destruct (scaler_ok _ _ log) eqn:S in M; [|discriminate].
      apply (proj1 (scaler_ok_iff _ _ _)) in S. apply (proj1 (bounds_int _ _ _)) in S. auto.
    - intros B. unfold mk_uniform_int. cbv zeta. apply (proj2 (bounds_int _ _ _)) in B.
      assert (S := proj2 (scaler_ok_iff _ _ _) B). rewrite S. unfold finish, legal_value. simpl.
      assert (H0 : (0 <= 1#2)%Q) by (compute; discriminate).
      assert (H1 : (1#2 <= 1)%Q) by (compute; discriminate).
      destruct (unit_raw_range _ _ log (1#2) B H0 H1) as [R1 R2].
      assert (R := rint_bounds _ _ _ R1 R2).
      rewrite (legal_int_Z (rint lower) (rint upper)
        (rint (unit_raw (inject_Z (rint lower)) (inject_Z (rint upper)) log (1#2)))) by reflexivity.
      replace ((_ <=? _) && (_ <=? _)) with true; auto.
      symmetry. apply andb_true_iff. rewrite !Z.leb_le. auto.
  Qed.

  Theorem C37_uniform_float_accepts n lower upper log m :
    is_ok (mk_uniform_float n lower upper None log m) = true <->
    (round13 lower < round13 upper)%Q /\ (log = true -> (0 < round13 lower)%Q).
  Proof.
    unfold mk_uniform_float. cbv zeta. set (lo := round13 lower). set (hi := round13 upper).
    destruct (scaler_ok lo hi log) eqn:S.
    - apply (proj1 (scaler_ok_iff _ _ _)) in S. split; [intros _; exact S|]. intros _.
      unfold finish, legal_value. simpl.
      assert (lo <= hi)%Q by (destruct S; lra).
      destruct (qclip_range (unit_raw lo hi log (1#2)) lo hi H) as [R1 R2].
      apply round13_mono in R1, R2. unfold lo, hi in R1, R2. rewrite !round13_idem in R1, R2.
      fold lo in R1, R2. fold hi in R1, R2.
      replace (Qle_bool lo _) with true by (symmetry; apply Qle_bool_iff; exact R1).
      replace (Qle_bool _ hi) with true by (symmetry; apply Qle_bool_iff; exact R2). auto.
    - split; [discriminate|]. intro B. apply (proj2 (scaler_ok_iff lo hi log)) in B. congruence.
  Qed.

  (** ** C38 *)

  (** full statement, first half: legal value -> legal vector.  False of the code, see
      [C38_value_to_vector_refuted]; proved with "the value is an exact integer" added for integer
      hyperparameters (a legal integer value need not be one, see C39). *)
  Theorem C38_value_to_vector_partial h v :
    constructed h -> legal_value h v = true ->
    (forall lo hi log, int_range h lo hi log -> exists z, num_of v = Some (inject_Z z)) ->
    exists x, to_vector h v = Ok x /\ legal_vector h x = true.
  Proof.
    intros C H I. destruct (hp_kind h) as [c w|s|k|lo hi log d|lo hi log d] eqn:K.
    - destruct (C34_values_roundtrip h c v C (LV_cat _ _ _ K) H) as (i & w' & _ & _ & T & LV & _). eauto.
    - destruct (C34_values_roundtrip h s v C (LV_ord _ _ K) H) as (i & w' & _ & _ & T & LV & _). eauto.
    - exists (Fin 1%Q). unfold legal_value in H. unfold to_vector, legal_vector. rewrite K in *.
      rewrite H. auto.
    - destruct (I lo hi log) as [z Z]; [exists d; auto|].
      assert (R : lo <= z <= hi).
      { unfold legal_value in H. rewrite K, Z, (legal_int_Z lo hi z) in H by reflexivity.
        apply andb_true_iff in H. rewrite !Z.leb_le in H. auto. }
      destruct (C35_int_roundtrip h lo hi log z C (ex_intro _ d K) R) as (q & T & _ & _ & LV & _).
      exists (Fin q). split; auto. unfold to_vector in *. rewrite K in *. rewrite Z. auto.
    - assert (exists x, num_of v = Some x) as [x X].
      { unfold legal_value in H. rewrite K in H. destruct (num_of v); [eauto|discriminate]. }
      destruct (C36_float_roundtrip h lo hi log v x C (ex_intro _ d K) X H)
        as (q & y & T & _ & _ & LV & _). eauto.
  Qed.

  (** full statement, second half: legal vector -> legal value. False of the code for categorical
      and ordinal hyperparameters, see [C38_vector_to_value_refuted]; proved for numerical and
      constant ones, and for lists of values when the entry is an exact integer. *)
  Theorem C38_vector_to_value_partial h x :
    constructed h -> legal_vector h x = true ->
    (forall s, lists_values h s -> exists i, x = Fin (inject_Z i)) ->
    exists v, to_value h x = Ok v /\ legal_value h v = true.
  Proof.
    assert (G : forall s, constructed h -> lists_values h s -> legal_vector h x = true ->
      (exists i, x = Fin (inject_Z i)) -> exists v, to_value h x = Ok v /\ legal_value h v = true).
    { intros s C K H [i ->].
      assert (LS : legal_seq (length s) (inject_Z i) = true).
      { unfold legal_vector in H. destruct K as [K|w K]; rewrite K in H; auto. }
      unfold legal_seq in LS. apply andb_true_iff in LS. destruct LS as [LS _].
      apply andb_true_iff in LS. rewrite Qle_bool_iff, Qltb_lt, inject_Z_lt in LS.
      change 0%Q with (inject_Z 0) in LS. rewrite inject_Z_le in LS.
      destruct (C34_vectors_roundtrip h s (Z.to_nat i) C K) as (w & T & _ & LV & _); [lia|].
      rewrite Z2Nat.id in T by lia. eauto. }
    intros C H I. destruct (hp_kind h) as [c w|s|k|lo hi log d|lo hi log d] eqn:K.
    - apply (G c); auto. + eapply LV_cat; eauto. + apply (I c). eapply LV_cat; eauto.
    - apply (G s); auto. + eapply LV_ord; eauto. + apply (I s). eapply LV_ord; eauto.
    - exists k. unfold to_value, legal_value. rewrite K. split; auto. apply py_eqb_refl.
    - destruct (C35_int_legal_vector h lo hi log x C (ex_intro _ d K) H) as (z & T & Z).
      exists (VInt z). split; auto. unfold legal_value. rewrite K. simpl.
      rewrite (legal_int_Z lo hi z) by reflexivity. apply andb_true_iff. rewrite !Z.leb_le. auto.
    - assert (exists q, x = Fin q /\ (0 <= q)%Q /\ (q <= 1)%Q) as (q & -> & Q1 & Q2).
      { unfold legal_vector in H. rewrite K in H. destruct x; try discriminate.
        apply andb_true_iff in H. rewrite !Qle_bool_iff in H. destruct H. eauto. }
      destruct (C36_float_onto h lo hi log q C (ex_intro _ d K) Q1 Q2) as (y & _ & T & LV & _). eauto.
  Qed.

  (** ** C39: exactly what [legal_value] accepts for an integer hyperparameter: the absolute
      tolerance is 1e-13 only around 0, elsewhere it grows as 1e-5 times the integer. *)
  Theorem C39_legal_integers_partial h lo hi log v :
    int_range h lo hi log ->
    legal_value h v = true <->
    exists x z, num_of v = Some x /\ z = rint x /\ lo <= z <= hi /\
      (Qabs (x - inject_Z z) <= (1 # 10000000000000) + (1 # 100000) * Qabs (inject_Z z))%Q.
  Proof.
    intros [d K]. unfold legal_value. rewrite K. destruct (num_of v) as [x|]; split.
    - intro H. unfold legal_int in H. apply andb_true_iff in H. destruct H as [H1 H2].
      apply andb_true_iff in H1. rewrite !Z.leb_le in H1. apply is_close_near in H2.
      exists x, (rint x). auto.
    - intros (y & z & Y & -> & R & A). injection Y as <-. unfold legal_int.
      apply andb_true_iff. split; [apply andb_true_iff; rewrite !Z.leb_le; auto|].
      apply Qle_bool_iff. auto.
    - discriminate.
    - intros (y & z & Y & _). discriminate.
  Qed.

  (** integers in range are always legal, non-numbers never *)
  Theorem C39_integers_legal h lo hi log z :
    int_range h lo hi log -> legal_value h (VInt z) = true <-> lo <= z <= hi.
  Proof.
    intros [d K]. unfold legal_value. rewrite K. simpl.
    rewrite (legal_int_Z lo hi z) by reflexivity. rewrite andb_true_iff, !Z.leb_le. tauto.
  Qed.

  (** ** C40 *)

  (** full statement: legal_vector h x = legal_vector_array h x. False of the code for linear
      integers ([C40_scalar_array_refuted]); proved for everything else, and for linear integers at
      every entry that is the vector of an integer. *)
  Theorem C40_scalar_array_partial h x :
    constructed h ->
    (forall lo hi, int_range h lo hi false ->
       (exists z, x = Fin ((inject_Z z - inject_Z lo) / (inject_Z hi - inject_Z lo))) \/
       isfinite x = false) ->
    legal_vector h x = legal_vector_array h x.
  Proof.
    intros C H. unfold legal_vector, legal_vector_array.
    destruct (hp_kind h) as [c w|s|k|lo hi log d|lo hi log d] eqn:K; auto.
    destruct x as [q| | |]; auto. destruct log; auto.
    destruct (H lo hi (ex_intro _ d K)) as [[z Z]|Z]; [|discriminate].
    apply constructed_wf in C. unfold wf_hp in C. rewrite K in C. destruct C as (B & _).
    injection Z as ->. assert (B' := proj2 (inject_Z_lt lo hi) B).
    set (q := ((inject_Z z - inject_Z lo) / (inject_Z hi - inject_Z lo))%Q).
    assert (M : (q * (inject_Z hi - inject_Z lo) == inject_Z (z - lo))%Q).
    { unfold q, Z.sub. rewrite inject_Z_plus, inject_Z_opp. field. lra. }
    rewrite (is_close_to_integer_proper _ _ M), is_close_to_integer_Z. simpl.
    rewrite (legal_int_Z lo hi z).
    2:{ unfold unit_raw, scale. rewrite M. unfold Z.sub. rewrite inject_Z_plus, inject_Z_opp. ring. }
    assert (M' : (q * (inject_Z hi - inject_Z lo) == inject_Z z - inject_Z lo)%Q).
    { unfold q. field. lra. }
    f_equal.
    - destruct (lo <=? z) eqn:A.
      + apply Z.leb_le in A. apply (proj2 (inject_Z_le _ _)) in A. apply Qle_bool_iff. nra.
      + apply Z.leb_gt in A. apply (proj2 (inject_Z_lt _ _)) in A. apply Qle_bool_false. nra.
    - destruct (z <=? hi) eqn:A.
      + apply Z.leb_le in A. apply (proj2 (inject_Z_le _ _)) in A. apply Qle_bool_iff. nra.
      + apply Z.leb_gt in A. apply (proj2 (inject_Z_lt _ _)) in A. apply Qle_bool_false. nra.
  Qed.
End HP.

(** ** Refutations and concrete cases *)
Section Examples.
  Local Existing Instance rat_env.

  Definition ex_cat := mk_hp "c" (KCat [VStr "x"; VInt 1; VStr "z"] None) (VStr "x") None.
  Definition ex_int := mk_hp "i" (KInt 99990 100010 false DUniform) (VInt 100000) None.
  Definition ex_int2 := mk_hp "i" (KInt 100000 100010 false DUniform) (VInt 100005) None.
  Definition ex_logint := mk_hp "l" (KInt 1 8 true DUniform) (VInt 4) None.
  Definition ex_float := mk_hp "f" (KFloat (round13 (1#2)) (round13 4) true DUniform) (VFloat (round13 2)) None.

  Example ex_cat_constructed : constructed ex_cat.
  Proof. apply (CtorCat "c" [VStr "x"; VInt 1; VStr "z"] None None None). reflexivity. Qed.
  Example ex_int_constructed : constructed ex_int.
  Proof. apply (CtorUInt "i" (99990#1) (100010#1) (Some (100000#1)) false None). vm_compute. reflexivity. Qed.
  Example ex_int2_constructed : constructed ex_int2.
  Proof. apply (CtorUInt "i" (100000#1) (100010#1) (Some (100005#1)) false None). vm_compute. reflexivity. Qed.
  Example ex_logint_constructed : constructed ex_logint.
  Proof. apply (CtorUInt "l" 1 8 (Some 4%Q) true None). vm_compute. reflexivity. Qed.
  Example ex_float_constructed : constructed ex_float.
  Proof. apply (CtorUFloat "f" (1#2) 4 (Some 2%Q) true None). vm_compute. reflexivity. Qed.

  Example ex_cat_roundtrip : to_vector ex_cat (VFloat 1) = Ok (Fin (inject_Z 1)) /\
    to_value ex_cat (Fin (inject_Z 1)) = Ok (VInt 1).
  Proof. split; reflexivity. Qed.
  Example ex_logint_vector : exists q, to_vector ex_logint (VInt 3) = Ok (Fin q) /\ (q == 2#7)%Q /\
    to_value ex_logint (Fin q) = Ok (VInt 3).
  Proof. eexists. split; [vm_compute; reflexivity|]. split; reflexivity. Qed.
  Example ex_float_legal : legal_value ex_float (VInt 3) = true.
  Proof. reflexivity. Qed.

  (** 100000.4 is a legal value of the integer hyperparameter [99990, 100010], but the
      vector it is converted to is not legal. *)
  Theorem C38_value_to_vector_refuted : exists h v x,
    constructed h /\ legal_value h v = true /\ to_vector h v = Ok x /\ legal_vector h x = false.
  Proof.
    exists ex_int, (VFloat (1000004#10)). eexists. split; [apply ex_int_constructed|].
    split; [reflexivity|]. split; reflexivity.
  Qed.

  (** 2.99998 is a legal vector entry for three choices, but reading it raises IndexError. *)
  Theorem C38_vector_to_value_refuted : exists h x,
    constructed h /\ legal_vector h x = true /\ to_value h x = Err IndexError.
  Proof.
    exists ex_cat, (Fin (299998#100000)). split; [apply ex_cat_constructed|]. split; reflexivity.
  Qed.

  (** 100000.4, four tenths away from any integer, is legal. *)
  Theorem C39_only_integers_refuted : exists h lo hi v x,
    constructed h /\ int_range h lo hi false /\ num_of v = Some x /\ legal_value h v = true /\
    forall z, (1#10 < Qabs (x - inject_Z z))%Q.
  Proof.
    exists ex_int, 99990, 100010, (VFloat (1000004#10)), (1000004#10).
    split; [apply ex_int_constructed|]. split; [exists DUniform; reflexivity|].
    split; [reflexivity|]. split; [reflexivity|].
    intro z. destruct (Z_le_gt_dec z 100000) as [A|A].
    - apply (proj2 (inject_Z_le _ _)) in A. change (inject_Z 100000) with (100000#1) in A.
      rewrite Qabs_pos; lra.
    - assert (B : 100001 <= z) by lia. apply (proj2 (inject_Z_le _ _)) in B.
      change (inject_Z 100001) with (100001#1) in B. rewrite Qabs_neg; lra.
  Qed.

  (** lower = 100000, upper = 100010, x = 0.55: legal in an array, illegal as a scalar. *)
  Theorem C40_scalar_array_refuted : exists h x,
    constructed h /\ legal_vector h x = false /\ legal_vector_array h x = true.
  Proof.
    exists ex_int2, (Fin (55#100)). split; [apply ex_int2_constructed|]. split; reflexivity.
  Qed.
End Examples.

Print Assumptions C34_values_roundtrip.
Print Assumptions C34_vectors_roundtrip.
Print Assumptions C34_injective.
Print Assumptions C34_ordinal_order.
Print Assumptions C34_constant.
Print Assumptions C35_int_roundtrip.
Print Assumptions C35_int_increasing.
Print Assumptions C35_int_legal_vector.
Print Assumptions C36_float_roundtrip.
Print Assumptions C36_float_onto.
Print Assumptions C36_float_increasing.
Print Assumptions C37_default_legal.
Print Assumptions C37_domain_nonempty.
Print Assumptions C37_uniform_int_accepts.
Print Assumptions C37_uniform_float_accepts.
Print Assumptions C38_value_to_vector_partial.
Print Assumptions C38_vector_to_value_partial.
Print Assumptions C38_value_to_vector_refuted.
Print Assumptions C38_vector_to_value_refuted.
Print Assumptions C39_legal_integers_partial.
Print Assumptions C39_integers_legal.
Print Assumptions C39_only_integers_refuted.
Print Assumptions C40_scalar_array_partial.
Print Assumptions C40_scalar_array_refuted.
