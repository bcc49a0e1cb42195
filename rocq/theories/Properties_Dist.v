(** * Properties C41, C43 - C47, C62, C63: sampling, neighbours and densities of one hyperparameter *)
From Coq Require Import String List ZArith QArith Qround Qabs Bool Lia Lqa Permutation.
From Verif Require Import Base ListFacts Numeric NumericProofs HP HPProofs Properties_HP Cond Forb Dag Space Spec
  EvalProofs Dist DistProofs Properties_Sample Properties_Size.
Import ListNotations.
Open Scope Z_scope.

(** What numpy and scipy guarantee about the random numbers: randint(0, size) is in range, the
    real numbers are in the unit interval, and the uniform number inside choice() is below 1. *)
Definition raw_ok (h : hp) (r : raw) : Prop :=
  (forall k, hp_size h = Some k -> 0 <= raw_int r < k) /\ (0 <= raw_real r)%Q /\ (raw_real r <= 1)%Q /\
  (forall c w, hp_kind h = KCat c (Some w) -> (raw_real r < 1)%Q).

(** normal or beta integers on a logarithmic scale, whose distribution ignores the scale *)
Definition mismatched (h : hp) : Prop :=
  exists lo hi d, hp_kind h = KInt lo hi true d /\ d <> DUniform.

(** shuffling permutes *)
Definition shuffles (r : nrng) : Prop := forall l, Permutation l (nr_shuffle r l).

(** position [j] is next to position [i] *)
Definition adjacent (i j : nat) : Prop := j = S i \/ i = S j.

Section Dist.
  Context {E : Env} {L : EnvLaws E}.

  Lemma legal_vector_congr h x y : fsame x y -> legal_vector h x = legal_vector h y.
  Proof.
    intro F. destruct x as [p| | |], y as [q| | |]; simpl in F; try contradiction; auto.
    unfold legal_vector. destruct (hp_kind h) as [c w|c|v|lo hi log d|lo hi log d].
    - unfold legal_seq. rewrite (Qle_bool_proper _ _ (Qeq_refl 0) _ _ F), (is_close_to_integer_proper _ _ F).
      unfold Qltb. rewrite (Qle_bool_proper _ _ (Qeq_refl _) _ _ F). auto.
    - unfold legal_seq. rewrite (Qle_bool_proper _ _ (Qeq_refl 0) _ _ F), (is_close_to_integer_proper _ _ F).
      unfold Qltb. rewrite (Qle_bool_proper _ _ (Qeq_refl _) _ _ F). auto.
    - apply feqb_congr; simpl; auto. reflexivity.
    - destruct log.
      + assert (U : (unit_raw (inject_Z lo) (inject_Z hi) true p == unit_raw (inject_Z lo) (inject_Z hi) true q)%Q).
        { unfold unit_raw, scale. rewrite F. reflexivity. }
        unfold legal_int. rewrite (rint_proper _ _ U), (is_close_to_integer_proper _ _ U). auto.
      + assert (U : (p * (inject_Z hi - inject_Z lo) == q * (inject_Z hi - inject_Z lo))%Q) by (rewrite F; reflexivity).
        rewrite (is_close_to_integer_proper _ _ U), (Qle_bool_proper _ _ (Qeq_refl 0) _ _ F), (Qle_bool_proper _ _ F _ _ (Qeq_refl 1)). auto.
    - rewrite (Qle_bool_proper _ _ (Qeq_refl 0) _ _ F), (Qle_bool_proper _ _ F _ _ (Qeq_refl 1)). auto.
  Qed.

  (** the entry of a legal value is a legal entry *)
  Lemma entry_legal h w e : constructed h -> entry_of h w e -> legal_vector h e = true.
  Proof.
    intros C (Lg & Ex & x & T & F). rewrite (legal_vector_congr h e x F).
    destruct (hp_kind h) as [c ws|c|v|lo hi log d|lo hi log d] eqn:K.
    4:{ unfold exact_value in Ex. rewrite K in Ex. destruct Ex as (a & z & N & Q).
      unfold legal_value in Lg. rewrite K, N, (legal_int_Z lo hi z a Q) in Lg.
      apply andb_true_iff in Lg. rewrite !Z.leb_le in Lg.
      assert (W := constructed_wf h C). unfold wf_hp in W. rewrite K in W. destruct W as (W1 & W2 & _).
      destruct (int_roundtrip h lo hi log d z K W1 W2 Lg) as (q & T' & _ & _ & _ & LV & _).
      rewrite <- LV. apply legal_vector_congr. unfold to_vector in T, T'. rewrite K in T, T'. rewrite N in T. simpl num_of in T'.
      cbv iota in T'. rewrite unit_to_vector_fin in T, T'.
      - injection T as <-. injection T' as <-. simpl. apply unit_norm_proper. auto.
      - intro l. apply inject_Z_pos. specialize (W2 l). lia.
      - intro l. rewrite Q. apply inject_Z_pos. specialize (W2 l). lia. }
    all: destruct (C38_value_to_vector_partial h w C Lg) as (y & T' & LV);
      [intros lo' hi' log' (d' & K'); congruence|congruence].
  Qed.

  Lemma entry_seq h s i : constructed h -> lists_values h s -> (i < length s)%nat ->
    exists w, nth_error s i = Some w /\ entry_of h w (Fin (inject_Z (Z.of_nat i))).
  Proof.
    intros C K H. destruct (C34_vectors_roundtrip h s i C K H) as (w & T & N & Lg & V).
    exists w. split; auto. split; auto. split.
    - unfold exact_value. destruct K as [K|ws K]; rewrite K; auto.
    - eexists. split; [eauto|]. simpl. reflexivity.
  Qed.

  Lemma entry_int h lo hi log d w e : hp_kind h = KInt lo hi log d -> lo < hi -> (log = true -> 0 < lo) ->
    lo <= w <= hi -> (e == enc lo hi log w)%Q -> entry_of h (VInt w) (Fin e).
  Proof.
    intros K H P W Q. split; [|split].
    - unfold legal_value. rewrite K. simpl. rewrite (legal_int_Z lo hi w) by reflexivity.
      apply andb_true_iff. rewrite !Z.leb_le. auto.
    - unfold exact_value. rewrite K. exists (inject_Z w), w. split; reflexivity.
    - exists (Fin (enc lo hi log w)). split; [|exact Q]. unfold to_vector. rewrite K. simpl num_of. cbv iota.
      rewrite unit_to_vector_fin; auto. apply (pos_w lo log P). lia.
  Qed.

  Lemma entry_int_inv h lo hi log d z x : hp_kind h = KInt lo hi log d -> lo < hi -> (log = true -> 0 < lo) ->
    entry_of h (VInt z) x -> lo <= z <= hi /\ exists q, x = Fin q /\ (q == enc lo hi log z)%Q.
  Proof.
    intros K H P (Lg & _ & y & T & F). unfold legal_value in Lg. rewrite K in Lg. simpl in Lg.
    rewrite (legal_int_Z lo hi z) in Lg by reflexivity. apply andb_true_iff in Lg. rewrite !Z.leb_le in Lg.
    split; auto. unfold to_vector in T. rewrite K in T. simpl num_of in T. cbv iota in T.
    rewrite unit_to_vector_fin in T by (apply (pos_w lo log P); lia). injection T as <-.
    destruct x as [q| | |]; simpl in F; try contradiction. exists q. auto.
  Qed.

  (** ** C41 *)

  Lemma Qsum_firstn_all (l : list Q) : Qsum (firstn (length l) l) = Qsum l.
  Proof. rewrite firstn_all. auto. Qed.

  Lemma cumsum_ge p : forall acc, Forall (fun x => (0 <= x)%Q) p -> Forall (fun c => (acc <= c)%Q) (cumsum acc p).
  Proof.
    induction p as [|x p IH]; simpl; intros acc F; constructor; inversion F; subst; [lra|].
    eapply Forall_impl; [|apply IH; auto]. simpl. intros. lra.
  Qed.

  Lemma choice_spec p u : forall acc, Forall (fun x => (0 <= x)%Q) p ->
    let i := length (filter (fun c => Qle_bool c u) (cumsum acc p)) in
    (i <= length p)%nat /\ ((i < length p)%nat -> (u < acc + Qsum (firstn (S i) p))%Q) /\
    ((0 < i)%nat -> (acc + Qsum (firstn i p) <= u)%Q).
  Proof.
    induction p as [|x p IH]; intros acc F; [simpl; repeat split; lia|].
    inversion F as [|? ? F1 F2]; subst. specialize (IH (acc + x)%Q F2). cbv zeta in *. cbn [cumsum filter].
    destruct (Qle_bool (acc + x) u) eqn:C.
    - apply Qle_bool_iff in C. cbn [length firstn]. destruct IH as (I1 & I2 & I3).
      set (i := length (filter (fun c => Qle_bool c u) (cumsum (acc + x) p))) in *.
      split; [lia|]. split.
      + intro K. specialize (I2 ltac:(lia)). change (u < acc + (x + Qsum (firstn (S i) p)))%Q. lra.
      + intros _. change (acc + (x + Qsum (firstn i p)) <= u)%Q. clearbody i. destruct i as [|i].
        * simpl. lra.
        * specialize (I3 ltac:(lia)). lra.
    - apply Qle_bool_false in C.
      assert (N : filter (fun c => Qle_bool c u) (cumsum (acc + x) p) = []).
      { clear IH. assert (G := cumsum_ge p (acc + x)%Q F2). induction G as [|c l Hc G IHG]; auto. simpl.
        replace (Qle_bool c u) with false; auto. symmetry. apply Qle_bool_false. lra. }
      rewrite N. cbn [length firstn]. split; [lia|]. split; [|lia]. intros _. simpl. lra.
  Qed.

  Lemma probabilities_facts c w : length w = length c -> Forall (fun x => (0 <= x)%Q) w -> (0 < Qsum w)%Q ->
    length (probabilities c (Some w)) = length c /\ Forall (fun x => (0 <= x)%Q) (probabilities c (Some w)) /\
    (Qsum (probabilities c (Some w)) == 1)%Q.
  Proof.
    intros Le F P. simpl. split; [rewrite map_length; auto|]. split.
    - apply Forall_map. eapply Forall_impl; [|exact F]. intros x X. apply Qle_shift_div_l; [auto|rewrite Qmult_0_l; auto].
    - assert (G : forall v, (Qsum (map (fun x => x / Qsum w) v) == Qsum v / Qsum w)%Q).
      { induction v as [|x v IH]; simpl; [field; lra|]. rewrite IH. field. lra. }
      rewrite G. field. lra.
  Qed.

  (** a weighted categorical draws choice [i] exactly for the random numbers in an interval of
      length equal to its probability: the probabilities before it add up to at most the number,
      together with its own to more *)
  Theorem C41_weighted h c w r : constructed h -> hp_kind h = KCat c (Some w) -> raw_ok h r ->
    exists i v, sample_vector h r = Fin (inject_Z (Z.of_nat i)) /\ nth_error c i = Some v /\
      let p := probabilities c (Some w) in
      (Qsum (firstn i p) <= raw_real r)%Q /\ (raw_real r < Qsum (firstn (S i) p))%Q /\ (0 < nth i p 0)%Q.
  Proof.
    intros C K (_ & R1 & _ & R2). specialize (R2 c w K). assert (W := constructed_wf h C). unfold wf_hp in W.
    rewrite K in W. destruct W as (W1 & W2 & W3 & W4 & W5 & W6).
    destruct (probabilities_facts c w W4 W5 W6) as (P1 & P2 & P3). set (p := probabilities c (Some w)) in *.
    assert (S := choice_spec p (raw_real r) 0%Q P2). cbv zeta in S. destruct S as (S1 & S2 & S3).
    change (length (filter (fun c0 => Qle_bool c0 (raw_real r)) (cumsum 0 p))) with (choice_index p (raw_real r)) in *.
    set (i := choice_index p (raw_real r)) in *.
    assert (Li : (i < length p)%nat).
    { destruct (Nat.eq_dec i (length p)) as [Q|Q]; [|lia]. exfalso.
      assert (0 < i)%nat. { rewrite Q, P1. destruct c; [congruence|simpl; lia]. }
      specialize (S3 H). rewrite Q, Qsum_firstn_all, P3 in S3. lra. }
    destruct (nth_error c i) as [v|] eqn:Nv; [|apply nth_error_None in Nv; lia].
    exists i, v. split; [unfold sample_vector; rewrite K; auto|]. split; auto. cbv zeta.
    assert (A : (Qsum (firstn i p) <= raw_real r)%Q).
    { destruct i as [|j]; [simpl; auto|]. specialize (S3 ltac:(lia)). lra. }
    specialize (S2 Li). split; auto. split; [lra|].
    assert (G : forall (l : list Q) j, (j < length l)%nat -> (Qsum (firstn (S j) l) == Qsum (firstn j l) + nth j l 0)%Q).
    { clear. induction l as [|x l IH]; intros j Hj; [simpl in Hj; lia|]. destruct j as [|j]; [simpl; ring|].
      change (Qsum (firstn (S (S j)) (x :: l))) with (x + Qsum (firstn (S j) l))%Q.
      change (Qsum (firstn (S j) (x :: l))) with (x + Qsum (firstn j l))%Q.
      rewrite IH by (simpl in Hj; lia). simpl. ring. }
    specialize (G p i Li). lra.
  Qed.

  (** Full statement: for every constructed hyperparameter.  False for normal and beta integers
      on a logarithmic scale, see [C41_refuted]. *)
  Theorem C41_sampled_partial h r : constructed h -> ~ mismatched h -> raw_ok h r ->
    exists w, entry_of h w (sample_vector h r).
  Proof.
    intros C M R. assert (W := constructed_wf h C). unfold wf_hp in W. assert (R' := R). destruct R as (R1 & R2 & R3 & R4).
    assert (GI : forall s, lists_values h s -> hp_size h = Some (Z.of_nat (length s)) ->
      exists w, entry_of h w (Fin (inject_Z (raw_int r)))).
    { intros s K Sz. specialize (R1 _ Sz). destruct (entry_seq h s (Z.to_nat (raw_int r)) C K) as (w & _ & H); [lia|].
      rewrite Z2Nat.id in H by lia. eauto. }
    destruct (hp_kind h) as [c [ws|]|c|v|lo hi log d|lo hi log d] eqn:K.
    - destruct (C41_weighted h c ws r C K R') as (i & v & Sv & N & _).
      destruct (entry_seq h c i C (LV_cat _ _ _ K)) as (w & _ & H); [apply nth_error_Some; congruence|].
      exists w. rewrite Sv. auto.
    - unfold sample_vector. rewrite K. apply (GI c); [eapply LV_cat; eauto|unfold hp_size; rewrite K; auto].
    - unfold sample_vector. rewrite K. apply (GI c); [eapply LV_ord; eauto|unfold hp_size; rewrite K; auto].
    - exists v. unfold sample_vector, entry_of, legal_value, exact_value, to_vector. rewrite K.
      split; [apply py_eqb_refl|]. split; auto. rewrite py_eqb_refl. exists (Fin 1). split; auto. simpl. reflexivity.
    - destruct W as (W1 & W2 & _).
      assert (G : forall l, (l = true -> 0 < lo) -> log = l -> exists w, entry_of h w (Fin (disc_quantize lo hi l (raw_real r)))).
      { intros l P <-. destruct (disc_grid lo hi log (raw_real r) W1 W2) as (w & Hw & Q).
        exists (VInt w). eapply entry_int; eauto. }
      unfold sample_vector. rewrite K. destruct log.
      + destruct d; try (exfalso; apply M; exists lo, hi; eexists; split; [exact K|discriminate]).
        apply (G true); auto.
      + destruct d; try (apply (G false); auto; discriminate).
        assert (Ri : 0 <= raw_int r < hi - lo + 1) by (apply R1; unfold hp_size; rewrite K; auto).
        exists (VInt (lo + raw_int r)). eapply entry_int; eauto; [lia|]. rewrite enc_linear by auto.
        replace (hi - lo + 1 - 1) with (hi - lo) by lia. replace (lo + raw_int r - lo) with (raw_int r) by lia. reflexivity.
    - unfold sample_vector. rewrite K.
      destruct (C36_float_onto h lo hi log (raw_real r) C (ex_intro _ d K) R2 R3) as (y & q' & _ & Lg & T & Q).
      exists (VFloat y). split; auto. split; [unfold exact_value; rewrite K; auto|]. exists (Fin q'). split; auto. simpl. rewrite Q. reflexivity.
  Qed.

  Theorem C41_legal_partial h r : constructed h -> ~ mismatched h -> raw_ok h r ->
    legal_vector h (sample_vector h r) = true /\
    exists v, sample_value h r = Ok v /\ legal_value h v = true.
  Proof.
    intros C M R. destruct (C41_sampled_partial h r C M R) as (w & H). assert (Lg := entry_legal h w _ C H). split; auto.
    unfold sample_value. apply C38_vector_to_value_partial; auto.
    intros s K. unfold sample_vector. destruct K as [K|ws K]; rewrite K; eauto. destruct ws; eauto.
  Qed.

  (** the draws of sample_configuration are of this kind (connects to C23) *)
  Theorem C41_draws_partial s hs (raws : nat -> nat -> nat -> raw) draw : Forall constructed hs ->
    (forall h, In h hs -> ~ mismatched h) ->
    (forall h i, In h hs -> assoc (hp_name h) (index_of s) = Some i -> forall r j,
       raw_ok h (raws r i j) /\ draw r i j = sample_vector h (raws r i j)) ->
    value_draws s hs draw.
  Proof.
    intros C M H h i Hh Hi r j. destruct (H h i Hh Hi r j) as [R ->].
    destruct (C41_sampled_partial h (raws r i j)) as (w & Lg & Ex & x & T & F); auto.
    - rewrite Forall_forall in C. auto.
    - exists w, x. auto.
  Qed.

  (** ** C43 *)

  Lemma nb_unfold h x n std r l : neighbors_vectorized h x n std r = Ok l ->
    exists q m, x = Fin q /\ l = map Fin m /\ legal_vector h x = true /\
      match hp_kind h with
      | KCat c _ => Ok (cat_neighborhood (Z.of_nat (length c)) q n r)
      | KOrd s => ordinal_neighborhood (Z.of_nat (length s)) q n r
      | KConst _ => Ok []
      | KInt lo hi false DUniform => quantized_neighborhood q n (hi - lo + 1) (nr_cands r)
      | KInt lo hi log d => discretized_neighborhood lo hi (log_scale log d) q n (nr_cands r)
      | KFloat _ _ _ _ => continuous_neighborhood n (nr_cands r)
      end = Ok m.
  Proof.
    unfold neighbors_vectorized. destruct (match std with None => true | _ => _ end); [|discriminate]. simpl.
    destruct (legal_vector h x) eqn:Lg; [|discriminate]. simpl. destruct x as [q| | |]; try discriminate.
    match goal with |- context [bind ?t _] => destruct t as [m|e] eqn:T end; [|discriminate]. simpl.
    intro H. injection H as <-. exists q, m. auto.
  Qed.

  Definition std_ok (std : option Q) : Prop := match std with None => True | Some s => (0 <= s)%Q /\ (s <= 1)%Q end.

  Lemma nb_fold h q n std r m : std_ok std -> legal_vector h (Fin q) = true ->
      match hp_kind h with
      | KCat c _ => Ok (cat_neighborhood (Z.of_nat (length c)) q n r)
      | KOrd s => ordinal_neighborhood (Z.of_nat (length s)) q n r
      | KConst _ => Ok []
      | KInt lo hi false DUniform => quantized_neighborhood q n (hi - lo + 1) (nr_cands r)
      | KInt lo hi log d => discretized_neighborhood lo hi (log_scale log d) q n (nr_cands r)
      | KFloat _ _ _ _ => continuous_neighborhood n (nr_cands r)
      end = Ok m ->
    neighbors_vectorized h (Fin q) n std r = Ok (map Fin m).
  Proof.
    intros St Lg T. unfold neighbors_vectorized, neighborhood.
    replace (match std with None => true | Some s => (Qle_bool 0 s && Qle_bool s 1)%bool end) with true
      by (destruct std; auto; symmetry; apply andb_true_iff; rewrite !Qle_bool_iff; apply St).
    simpl. rewrite Lg. simpl. rewrite T. auto.
  Qed.

  Lemma ws_entries h lo hi log d ws l : hp_kind h = KInt lo hi log d -> lo < hi -> (log = true -> 0 < lo) ->
    Forall2 (fun w e => lo <= w <= hi /\ (e == enc lo hi log w)%Q) ws l ->
    Forall2 (fun w e => entry_of h (VInt w) e) ws (map Fin l).
  Proof.
    intros K H P F. induction F as [|w e ws l [A B] F IH]; cbn [map]; constructor; auto. eapply entry_int; eauto.
  Qed.

  Lemma others_in lo hi z x : lo <= z <= hi -> In x (arange lo z 1 ++ arange (z + 1) (hi + 1) 1) <-> lo <= x <= hi /\ x <> z.
  Proof. intro H. rewrite skip_in. lia. Qed.

  Lemma others_entries lo hi log z l : lo <= z <= hi ->
    Forall2 (fun w e => (e == enc lo hi log w)%Q) (arange lo z 1 ++ arange (z + 1) (hi + 1) 1) l ->
    Forall2 (fun w e => lo <= w <= hi /\ (e == enc lo hi log w)%Q) (arange lo z 1 ++ arange (z + 1) (hi + 1) 1) l.
  Proof.
    intros H F. assert (G : forall w, In w (arange lo z 1 ++ arange (z + 1) (hi + 1) 1) -> lo <= w <= hi).
    { intros w I. apply others_in in I; tauto. }
    revert G. induction F as [|w e ws l A F IH]; intro G; constructor.
    - split; auto. apply G. left. auto.
    - apply IH. intros w' I. apply G. right. auto.
  Qed.


  Lemma sampled_branch quant lo hi log z q n cands l : lo < hi -> (log = true -> 0 < lo) -> lo <= z <= hi ->
    (q == enc lo hi log z)%Q ->
    (forall x, exists w, lo <= w <= hi /\ (quant x == enc lo hi log w)%Q) ->
    (quant q == enc lo hi log z)%Q ->
    nb_loop quant 0 1 n [quant q] cands = Ok l ->
    exists ws, Forall2 (fun w e => lo <= w <= hi /\ (e == enc lo hi log w)%Q) ws l /\ NoDup ws /\ ~ In z ws /\ length l = n.
  Proof.
    intros H P Z Q G Fx N.
    apply (nb_loop_ok quant 0 1 n (fun e => exists w, lo <= w <= hi /\ (e == enc lo hi log w)%Q)) in N.
    - destruct N as (N1 & N2 & N3). destruct (entries_ws lo hi log z _ l H P Z Fx N2 N3) as (ws & A & B & C). exists ws. auto.
    - intros x _ _. apply G.
    - simpl. auto.
    - constructor.
  Qed.

  Lemma all_branch lo hi log z l : lo < hi -> lo <= z <= hi ->
    Forall2 (fun w e => (e == enc lo hi log w)%Q) (arange lo z 1 ++ arange (z + 1) (hi + 1) 1) l ->
    exists ws, Forall2 (fun w e => lo <= w <= hi /\ (e == enc lo hi log w)%Q) ws l /\ NoDup ws /\ ~ In z ws /\
      Z.of_nat (length l) = hi - lo /\ forall w, lo <= w <= hi -> w <> z -> In w ws.
  Proof.
    intros H Z F. eexists. split; [apply others_entries; eauto|]. split; [apply skip_nodup|]. split; [|split].
    - rewrite others_in by auto. tauto.
    - rewrite <- (Forall2_length' _ _ _ F), skip_length by lia. lia.
    - intros w W N. apply others_in; auto.
  Qed.

  (** For every uniform integer, every value [z] of it, every requested number [n] and every
      stream of random numbers: the returned entries represent pairwise different values of the
      range other than [z], and there are min(n, size - 1) of them.  Full statement: also if the
      centre is a legal entry that represents no value exactly; see [C43_refuted]. *)
  Theorem C43_int_partial h lo hi log z x n std r l : constructed h -> hp_kind h = KInt lo hi log DUniform ->
    entry_of h (VInt z) x -> neighbors_vectorized h x n std r = Ok l ->
    exists ws, Forall2 (fun w e => entry_of h (VInt w) e) ws l /\ NoDup ws /\ ~ In z ws /\
      Z.of_nat (length l) = Z.min (Z.of_nat n) (hi - lo) /\ Forall (fun e => legal_vector h e = true) l.
  Proof.
    intros C K X N. assert (W := constructed_wf h C). unfold wf_hp in W. rewrite K in W. destruct W as (W1 & W2 & _).
    destruct (entry_int_inv h lo hi log _ z x K W1 W2 X) as (Z & q & -> & Q).
    destruct (nb_unfold _ _ _ _ _ _ N) as (q' & m & Hq & -> & _ & T). injection Hq as <-. rewrite K in T.
    assert (G : exists ws, Forall2 (fun w e => lo <= w <= hi /\ (e == enc lo hi log w)%Q) ws m /\ NoDup ws /\ ~ In z ws /\
      Z.of_nat (length m) = Z.min (Z.of_nat n) (hi - lo)).
    { destruct log.
      - simpl log_scale in T. assert (T' := T). unfold discretized_neighborhood in T. destruct (n_ok n) eqn:NO; [|discriminate]. simpl in T.
        destruct (hi - lo + 1 - 1 <=? Z.of_nat n) eqn:B.
        + apply Z.leb_le in B. destruct (log_all lo hi q z n (nr_cands r) W1 (W2 eq_refl) Z Q NO ltac:(lia)) as (m' & T2 & F).
          rewrite T2 in T'. injection T' as <-. destruct (all_branch lo hi true z m' W1 Z F) as (ws & A1 & A2 & A3 & A4 & _).
          exists ws. repeat (split; auto). lia.
        + apply Z.leb_gt in B. apply (sampled_branch (disc_quantize lo hi true) lo hi true z) in T; auto.
          * destruct T as (ws & A1 & A2 & A3 & A4). exists ws. repeat (split; auto). lia.
          * intro y. apply disc_grid; auto.
          * apply disc_fixes; auto.
      - assert (T' := T). unfold quantized_neighborhood in T. destruct (n_ok n) eqn:NO; [|discriminate]. simpl in T.
        destruct (hi - lo + 1 - 1 <=? Z.of_nat n) eqn:B.
        + apply Z.leb_le in B. destruct (quantized_all lo hi q z n (nr_cands r) W1 Z Q NO ltac:(lia)) as (m' & T2 & F).
          rewrite T2 in T'. injection T' as <-. destruct (all_branch lo hi false z m' W1 Z F) as (ws & A1 & A2 & A3 & A4 & _).
          exists ws. repeat (split; auto). lia.
        + apply Z.leb_gt in B. apply (sampled_branch (fun x => quantize x 0 1 (hi - lo + 1)) lo hi false z) in T; auto.
          * destruct T as (ws & A1 & A2 & A3 & A4). exists ws. repeat (split; auto). lia.
          * intro y. apply quantize_unit_grid; auto.
          * apply quantize_unit_fixes; auto. }
    destruct G as (ws & A1 & A2 & A3 & A4). exists ws. assert (A5 := ws_entries h lo hi log _ ws m K W1 W2 A1).
    split; auto. split; auto. split; auto. split; [rewrite map_length; auto|].
    clear -A5 C L. induction A5; constructor; auto. eapply entry_legal; eauto.
  Qed.

  (** if at least size - 1 neighbours are requested the call succeeds and every other value occurs *)
  Theorem C43_all h lo hi log z x n std r : constructed h -> hp_kind h = KInt lo hi log DUniform ->
    entry_of h (VInt z) x -> std_ok std -> hi - lo <= Z.of_nat n < 1000000 ->
    exists l ws, neighbors_vectorized h x n std r = Ok l /\ Forall2 (fun w e => entry_of h (VInt w) e) ws l /\
      NoDup ws /\ forall w, In w ws <-> lo <= w <= hi /\ w <> z.
  Proof.
    intros C K X St N. assert (W := constructed_wf h C). unfold wf_hp in W. rewrite K in W. destruct W as (W1 & W2 & _).
    assert (Lg := entry_legal _ _ _ C X).
    destruct (entry_int_inv h lo hi log _ z x K W1 W2 X) as (Z & q & -> & Q).
    assert (NO : n_ok n = true) by (apply Z.ltb_lt; lia).
    assert (G : exists m, match hp_kind h with
      | KCat c _ => Ok (cat_neighborhood (Z.of_nat (length c)) q n r)
      | KOrd s => ordinal_neighborhood (Z.of_nat (length s)) q n r
      | KConst _ => Ok []
      | KInt lo hi false DUniform => quantized_neighborhood q n (hi - lo + 1) (nr_cands r)
      | KInt lo hi log d => discretized_neighborhood lo hi (log_scale log d) q n (nr_cands r)
      | KFloat _ _ _ _ => continuous_neighborhood n (nr_cands r)
      end = Ok m /\ Forall2 (fun w e => (e == enc lo hi log w)%Q) (arange lo z 1 ++ arange (z + 1) (hi + 1) 1) m).
    { rewrite K. destruct log; simpl log_scale.
      - apply log_all; auto; lia.
      - apply quantized_all; auto; lia. }
    destruct G as (m & T & F). exists (map Fin m), (arange lo z 1 ++ arange (z + 1) (hi + 1) 1).
    split; [apply nb_fold; auto|]. split; [|split].
    - eapply ws_entries; eauto. apply others_entries; auto.
    - apply skip_nodup.
    - intro w. apply others_in; auto.
  Qed.

  (** if fewer are requested it succeeds as soon as the random numbers, quantised, contain [n]
      different values of the range other than [z] *)
  Theorem C43_returns h lo hi log z x n std r vs : constructed h -> hp_kind h = KInt lo hi log DUniform ->
    entry_of h (VInt z) x -> std_ok std -> Z.of_nat n < hi - lo -> Z.of_nat n < 1000000 ->
    nr_cands r <> [] -> Forall (fun c => length c <= 4 * n)%nat (nr_cands r) ->
    length vs = n -> NoDup vs -> ~ In z vs ->
    (forall w, In w vs -> lo <= w <= hi /\ exists c e, In c (nr_cands r) /\ In e c /\ entry_of h (VInt w) (Fin e)) ->
    exists l, neighbors_vectorized h x n std r = Ok l.
  Proof.
    intros C K X St N NO CN CL VL VD VZ V. assert (W := constructed_wf h C). unfold wf_hp in W. rewrite K in W. destruct W as (W1 & W2 & _).
    assert (Lg := entry_legal _ _ _ C X).
    destruct (entry_int_inv h lo hi log _ z x K W1 W2 X) as (Z & q & -> & Q).
    assert (NO' : n_ok n = true) by (apply Z.ltb_lt; lia).
    assert (G : forall quant, (forall y w, lo <= w <= hi -> (y == enc lo hi log w)%Q -> (quant y == enc lo hi log w)%Q) ->
      exists m, nb_loop quant 0 1 n [quant q] (nr_cands r) = Ok m).
    { intros quant Fx. apply (nb_loop_total quant 0 1 n (map (enc lo hi log) vs)); auto.
      - simpl. lia.
      - rewrite map_length. auto.
      - split.
        + intros y I E1. apply in_map_iff in I. destruct I as (w & <- & I). rewrite (Fx q z Z Q) in E1.
          apply enc_inj in E1; auto; [subst; auto|lia|]. destruct (V w I) as [? _]. lia.
        + clear -V VD L W1 W2. induction VD as [|w vs NI ND IH]; cbn [map apart]; auto. split.
          * intros y I E1. apply in_map_iff in I. destruct I as (w' & <- & I).
            apply enc_inj in E1; auto; [subst; auto|..]; [destruct (V w (or_introl eq_refl)) as [? _]|destruct (V w' (or_intror I)) as [? _]]; lia.
          * apply IH. intros w' I. apply V. right. auto.
      - intros y I. right. apply in_map_iff in I. destruct I as (w & <- & I). destruct (V w I) as (R & c & e & I1 & I2 & En).
        destruct (entry_int_inv h lo hi log _ w _ K W1 W2 En) as (_ & e' & Ee & Q'). injection Ee as <-.
        destruct (enc_range lo hi log W1 W2 w R) as [E0 E1].
        exists c, e. split; auto. split; auto. split; [rewrite Q'; auto|]. split; [rewrite Q'; auto|]. rewrite (Fx e w R Q'). reflexivity. }
    destruct log.
    - destruct (G (disc_quantize lo hi true)) as (m & T); [intros; apply disc_fixes; auto|].
      exists (map Fin m). apply nb_fold; auto. rewrite K. simpl log_scale. unfold discretized_neighborhood. rewrite NO'. cbn iota beta zeta.
      replace (hi - lo + 1 - 1 <=? Z.of_nat n) with false by (symmetry; apply Z.leb_gt; lia). auto.
    - destruct (G (fun y => quantize y 0 1 (hi - lo + 1))) as (m & T); [intros; apply quantize_unit_fixes; auto|].
      exists (map Fin m). apply nb_fold; auto. rewrite K. unfold quantized_neighborhood. rewrite NO'. cbn iota beta zeta.
      replace (hi - lo + 1 - 1 <=? Z.of_nat n) with false by (symmetry; apply Z.leb_gt; lia). auto.
  Qed.

  (** ** C44 *)

  (** Full statement: for n >= size - 1 exactly the other values are returned.  True when the
      centre is the lowest value; otherwise false, see [C44_refuted]. *)
  Theorem C44_lowest_partial h lo hi d x n std r : constructed h -> hp_kind h = KInt lo hi false d -> d <> DUniform ->
    entry_of h (VInt lo) x -> std_ok std -> hi - lo <= Z.of_nat n < 1000000 ->
    exists l ws, neighbors_vectorized h x n std r = Ok l /\ Forall2 (fun w e => entry_of h (VInt w) e) ws l /\
      NoDup ws /\ forall w, In w ws <-> lo <= w <= hi /\ w <> lo.
  Proof.
    intros C K D X St N. assert (W := constructed_wf h C). unfold wf_hp in W. rewrite K in W. destruct W as (W1 & W2 & _).
    assert (Lg := entry_legal _ _ _ C X).
    destruct (entry_int_inv h lo hi false _ lo x K W1 W2 X) as (Z & q & -> & Q).
    assert (NO : n_ok n = true) by (apply Z.ltb_lt; lia).
    destruct (lin_lowest lo hi q n (nr_cands r) W1 Q NO ltac:(lia)) as (m & T & F).
    assert (Em : arange lo lo 1 = []). { unfold arange, range_len, zceil_div. replace (lo - lo) with 0 by lia. reflexivity. }
    assert (F' : Forall2 (fun w e => (e == enc lo hi false w)%Q) (arange lo lo 1 ++ arange (lo + 1) (hi + 1) 1) m) by (rewrite Em; auto).
    exists (map Fin m), (arange lo lo 1 ++ arange (lo + 1) (hi + 1) 1). split; [|split; [|split]].
    - apply nb_fold; auto. rewrite K. destruct d; try contradiction; simpl log_scale; auto.
    - eapply ws_entries; eauto. apply others_entries; auto.
    - apply skip_nodup.
    - intro w. apply others_in; auto.
  Qed.

  (** when fewer neighbours are requested the entries are legal, different and as many as asked for *)
  Theorem C44_fewer_partial h lo hi d z x n std r l : constructed h -> hp_kind h = KInt lo hi false d -> d <> DUniform ->
    entry_of h (VInt z) x -> Z.of_nat n < hi - lo -> neighbors_vectorized h x n std r = Ok l ->
    exists ws, Forall2 (fun w e => entry_of h (VInt w) e) ws l /\ NoDup ws /\ ~ In z ws /\
      length l = n /\ Forall (fun e => legal_vector h e = true) l.
  Proof.
    intros C K D X Nn N. assert (W := constructed_wf h C). unfold wf_hp in W. rewrite K in W. destruct W as (W1 & W2 & _).
    destruct (entry_int_inv h lo hi false _ z x K W1 W2 X) as (Z & q & -> & Q).
    destruct (nb_unfold _ _ _ _ _ _ N) as (q' & m & Hq & -> & _ & T). injection Hq as <-. rewrite K in T.
    assert (T' : discretized_neighborhood lo hi false q n (nr_cands r) = Ok m) by (destruct d; try contradiction; exact T).
    unfold discretized_neighborhood in T'. destruct (n_ok n); [|discriminate]. cbn iota beta zeta in T'.
    replace (hi - lo + 1 - 1 <=? Z.of_nat n) with false in T' by (symmetry; apply Z.leb_gt; lia).
    apply (sampled_branch (disc_quantize lo hi false) lo hi false z) in T'; auto.
    - destruct T' as (ws & A1 & A2 & A3 & A4). assert (A5 := ws_entries h lo hi false _ ws m K W1 W2 A1).
      exists ws. repeat (split; auto); [rewrite map_length; auto|]. clear -A5 C L. induction A5; constructor; auto. eapply entry_legal; eauto.
    - intro y. apply disc_grid; auto.
    - apply disc_fixes; auto.
  Qed.

  (** for every centre above the lowest value, the result has one entry too many: size entries
      although only size - 1 other values exist, so it cannot be the list of the other values *)
  Theorem C44_refuted h lo hi d z x n std r : constructed h -> hp_kind h = KInt lo hi false d -> d <> DUniform ->
    entry_of h (VInt z) x -> lo < z -> std_ok std -> hi - lo <= Z.of_nat n < 1000000 ->
    exists l, neighbors_vectorized h x n std r = Ok l /\ Z.of_nat (length l) = hi - lo + 1 /\
      ~ exists ws, Forall2 (fun w e => entry_of h (VInt w) e) ws l /\ NoDup ws /\ ~ In z ws.
  Proof.
    intros C K D X Lz St N. assert (W := constructed_wf h C). unfold wf_hp in W. rewrite K in W. destruct W as (W1 & W2 & _).
    assert (Lg := entry_legal _ _ _ C X).
    destruct (entry_int_inv h lo hi false _ z x K W1 W2 X) as (Z & q & -> & Q).
    assert (NO : n_ok n = true) by (apply Z.ltb_lt; lia).
    destruct (lin_length lo hi q z n (nr_cands r) W1 ltac:(lia) Q NO ltac:(lia)) as (m & T & F).
    exists (map Fin m). split; [|split].
    - apply nb_fold; auto. rewrite K. destruct d; try contradiction; simpl log_scale; auto.
    - rewrite map_length. auto.
    - intros (ws & A1 & A2 & A3).
      assert (I : incl ws (arange lo z 1 ++ arange (z + 1) (hi + 1) 1)).
      { intros w Iw. apply others_in; auto. split; [|congruence].
        clear -A1 Iw K W1 W2 L. induction A1 as [|w' e ws l H F IH]; [destruct Iw|]. destruct Iw as [<-|Iw]; auto.
        destruct (entry_int_inv h lo hi false _ _ _ K W1 W2 H); auto. }
      apply (NoDup_incl_length A2) in I. rewrite skip_length in I by lia. apply Forall2_length' in A1. rewrite map_length in A1. lia.
  Qed.

  (** ** C45 *)

  (** The centre is the entry of the [i]-th element.  The call succeeds for every [n]; the entries
      returned are those of positions next to [i], without repetition; for n >= 2 all of them, and
      their number is what get_num_neighbors reports; for n < 2 exactly one (none if there is only
      one element).  Full statement: also for legal entries that are integers only up to the
      tolerance; see [C45_refuted_low], [C45_refuted_high]. *)
  Theorem C45_ordinal_partial h s i x n std r v : constructed h -> hp_kind h = KOrd s -> nth_error s i = Some v ->
    fsame x (Fin (inject_Z (Z.of_nat i))) -> std_ok std ->
    exists l js, neighbors_vectorized h x n std r = Ok l /\
      Forall2 (fun j e => (j < length s)%nat /\ adjacent i j /\ fsame e (Fin (inject_Z (Z.of_nat j)))) js l /\ NoDup js /\
      ((2 <= n)%nat -> (forall j, (j < length s)%nat -> adjacent i j -> In j js) /\
         get_num_neighbors h (Some v) = Ok (Some (Z.of_nat (length l)))) /\
      ((n < 2)%nat -> length l = Nat.min 1 (length s - 1)).
  Proof.
    intros C K Nv X St. assert (Li : (i < length s)%nat) by (apply nth_error_Some; congruence).
    destruct x as [q| | |]; simpl in X; try contradiction.
    assert (Lg : legal_vector h (Fin q) = true).
    { rewrite (legal_vector_congr h _ (Fin (inject_Z (Z.of_nat i)))) by exact X. unfold legal_vector. rewrite K. apply legal_seq_nat; auto. }
    assert (GN : get_num_neighbors h (Some v) = Ok (Some (if Z.of_nat (length s) =? 1 then 0 else
       if ((Z.of_nat i =? 0) || (Z.of_nat i =? Z.of_nat (length s) - 1))%bool then 1 else 2))).
    { unfold get_num_neighbors. rewrite K. destruct (Z.of_nat (length s) =? 1); auto.
      assert (D := constructed_wf h C). unfold wf_hp in D. rewrite K in D. destruct D as (_ & D & _).
      rewrite (py_index_nth s i v D Nv). auto. }
    assert (O : ordinal_neighborhood (Z.of_nat (length s)) q n r =
      if Z.of_nat (length s) =? 1 then Ok []
      else if Z.of_nat i =? 0 then Ok [1%Q]
      else if Z.of_nat i =? Z.of_nat (length s) - 1 then Ok [inject_Z (Z.of_nat (length s) - 1 - 1)]
      else if Nat.leb 2 n then Ok [inject_Z (Z.of_nat i - 1); inject_Z (Z.of_nat i + 1)]
      else Ok [if nr_second r then inject_Z (Z.of_nat i + 1) else inject_Z (Z.of_nat i - 1)]).
    { unfold ordinal_neighborhood. rewrite (Qle_bool_proper _ _ (Qeq_refl 0) _ _ X), (Qle_bool_proper _ _ X _ _ (Qeq_refl _)).
      rewrite (rint_proper _ _ X), rint_Z, (Qeq_bool_proper _ _ X _ _ (Qeq_refl 0)).
      assert (Xa : (q - 1 == inject_Z (Z.of_nat i - 1))%Q) by (rewrite inject_Z_sub, X; reflexivity).
      assert (Xb : (q + 1 == inject_Z (Z.of_nat i + 1))%Q) by (rewrite inject_Z_plus, X; reflexivity).
      rewrite (rint_proper _ _ Xa), (rint_proper _ _ Xb), !rint_Z.
      replace (Qle_bool 0 (inject_Z (Z.of_nat i))) with true by (symmetry; apply Qle_bool_iff; change 0%Q with (inject_Z 0); rewrite <- Zle_Qle; lia).
      replace (Qle_bool (inject_Z (Z.of_nat i)) (inject_Z (Z.of_nat (length s) - 1))) with true by (symmetry; apply Qle_bool_iff; rewrite <- Zle_Qle; lia).
      replace (Qeq_bool (inject_Z (Z.of_nat i)) 0) with (Z.of_nat i =? 0).
      2:{ apply eq_true_iff_eq. rewrite Z.eqb_eq, Qeq_bool_iff. change 0%Q with (inject_Z 0). rewrite inject_Z_injective. tauto. }
      reflexivity. }
    assert (R : exists m js, ordinal_neighborhood (Z.of_nat (length s)) q n r = Ok m /\
      Forall2 (fun j e => (j < length s)%nat /\ adjacent i j /\ e = inject_Z (Z.of_nat j)) js m /\ NoDup js /\
      ((2 <= n)%nat -> (forall j, (j < length s)%nat -> adjacent i j -> In j js) /\
         get_num_neighbors h (Some v) = Ok (Some (Z.of_nat (length m)))) /\
      ((n < 2)%nat -> length m = Nat.min 1 (length s - 1))).
    { rewrite O, GN. clear O GN. unfold adjacent. destruct (Z.of_nat (length s) =? 1) eqn:E1.
      - apply Z.eqb_eq in E1. exists [], []. split; auto. split; [constructor|]. split; [constructor|].
        split; [intros _; split; auto; intros; lia|intros _; cbn [length]; lia].
      - apply Z.eqb_neq in E1. destruct (Z.of_nat i =? 0) eqn:E2.
        + apply Z.eqb_eq in E2. exists [1%Q], [1%nat]. split; auto. split; [repeat constructor; lia|]. split; [repeat constructor; auto|].
          split; [intros _; split; [|simpl; auto]|intros _; cbn [length]; lia]. intros j H1 H2. left. lia.
        + apply Z.eqb_neq in E2. destruct (Z.of_nat i =? Z.of_nat (length s) - 1) eqn:E3.
          * apply Z.eqb_eq in E3. exists [inject_Z (Z.of_nat (length s) - 1 - 1)], [(i - 1)%nat]. split; auto.
            split; [constructor; [|constructor]; (split; [lia|split; [lia|f_equal; lia]])|]. split; [repeat constructor; auto|].
            split; [intros _; split; [|simpl; auto]|intros _; cbn [length]; lia]. intros j H1 H2. left. lia.
          * apply Z.eqb_neq in E3. destruct (Nat.leb 2 n) eqn:E4.
            -- apply Nat.leb_le in E4. exists [inject_Z (Z.of_nat i - 1); inject_Z (Z.of_nat i + 1)], [(i - 1)%nat; S i]. split; auto.
               split; [constructor; [|constructor; [|constructor]]; (split; [lia|split; [lia|f_equal; lia]])|].
               split; [constructor; [simpl; lia|repeat constructor; auto]|].
               split; [intros _; split; [|simpl; auto]|intros; lia]. intros j H1 H2. simpl. lia.
            -- apply Nat.leb_gt in E4. destruct (nr_second r).
               ++ exists [inject_Z (Z.of_nat i + 1)], [S i]. split; auto.
                  split; [constructor; [|constructor]; (split; [lia|split; [lia|f_equal; lia]])|].
                  split; [repeat constructor; auto|]. split; [intros; lia|intros _; cbn [length]; lia].
               ++ exists [inject_Z (Z.of_nat i - 1)], [(i - 1)%nat]. split; auto.
                  split; [constructor; [|constructor]; (split; [lia|split; [lia|f_equal; lia]])|].
                  split; [repeat constructor; auto|]. split; [intros; lia|intros _; cbn [length]; lia]. }
    destruct R as (m & js & R1 & R2 & R3 & R4 & R5). exists (map Fin m), js.
    split; [apply nb_fold; auto; rewrite K; auto|]. split; [|rewrite map_length; auto].
    clear -R2. induction R2 as [|j e js m (A & B & C) F IH]; cbn [map]; constructor; auto. subst. split; auto. split; auto. simpl. reflexivity.
  Qed.

  (** ** C46 *)

  Lemma Forall2_inject_nat (is : list Z) : Forall (fun z => 0 <= z) is ->
    Forall2 (fun j e => e = inject_Z (Z.of_nat j)) (map Z.to_nat is) (map inject_Z is).
  Proof. induction 1; simpl; constructor; auto. rewrite Z2Nat.id; auto. Qed.

  (** The centre is the entry of the [i]-th choice.  The entries returned are those of pairwise
      different other choices; all of them if n >= size - 1 or the size is at most 5; exactly
      min(n, size - 1) if the size is larger.  Full statement: never more than [n]; false for
      sizes up to 5, see [C46_refuted]; and for legal entries that are integers only up to the
      tolerance, see [C46_refuted_inexact]. *)
  Theorem C46_categorical_partial h c ws i x n std r v : constructed h -> hp_kind h = KCat c ws -> nth_error c i = Some v ->
    fsame x (Fin (inject_Z (Z.of_nat i))) -> std_ok std -> shuffles r ->
    exists l js, neighbors_vectorized h x n std r = Ok l /\
      Forall2 (fun j e => (j < length c)%nat /\ j <> i /\ fsame e (Fin (inject_Z (Z.of_nat j)))) js l /\ NoDup js /\
      ((length c <= 5 \/ length c - 1 <= n)%nat -> forall j, (j < length c)%nat -> j <> i -> In j js) /\
      ((5 < length c)%nat -> length l = Nat.min n (length c - 1)) /\
      get_num_neighbors h (Some v) = Ok (Some (Z.of_nat (length c - 1))).
  Proof.
    intros C K Nv X St Sh. assert (Li : (i < length c)%nat) by (apply nth_error_Some; congruence).
    destruct x as [q| | |]; simpl in X; try contradiction.
    assert (Lg : legal_vector h (Fin q) = true).
    { rewrite (legal_vector_congr h _ (Fin (inject_Z (Z.of_nat i)))) by exact X. unfold legal_vector. rewrite K. apply legal_seq_nat; auto. }
    set (others := arange 0 (Z.of_nat i) 1 ++ arange (Z.of_nat i + 1) (Z.of_nat (length c)) 1).
    assert (P := Sh others). set (m := nr_shuffle r others) in *.
    assert (PL : length m = (length c - 1)%nat).
    { rewrite <- (Permutation_length P). unfold others. rewrite skip_length by lia. lia. }
    assert (PI : forall z, In z m <-> 0 <= z < Z.of_nat (length c) /\ z <> Z.of_nat i).
    { intro z. transitivity (In z others); [split; apply Permutation_in; auto; symmetry; auto|]. unfold others. rewrite skip_in. lia. }
    assert (PD : NoDup m) by (eapply Permutation_NoDup; [exact P|apply skip_nodup]).
    set (sel := if Z.of_nat (length c) <=? 5 then m else firstn n m).
    assert (CN : cat_neighborhood (Z.of_nat (length c)) q n r = map inject_Z sel).
    { unfold cat_neighborhood. rewrite (py_int_Z q _ X). reflexivity. }
    assert (SI : incl sel m). { unfold sel. destruct (_ <=? 5); [apply incl_refl|]. intros z. apply firstn_in. }
    assert (SD : NoDup sel).
    { unfold sel. destruct (_ <=? 5); auto. clear -PD. revert n. induction PD as [|z m NI ND IH]; intros [|n]; simpl; constructor; auto.
      intro I. apply NI. eapply firstn_in; eauto. }
    exists (map Fin (map inject_Z sel)), (map Z.to_nat sel). split; [apply nb_fold; auto; rewrite K, CN; auto|]. split; [|split; [|split; [|split]]].
    - clear -SI PI. induction sel as [|z sel IH]; cbn [map]; constructor; [|apply IH; intros y Iy; apply SI; right; auto].
      assert (Z := proj1 (PI z) (SI z (or_introl eq_refl))). split; [lia|]. split; [lia|]. simpl. rewrite Z2Nat.id by lia. reflexivity.
    - clear -SI PI SD. induction SD as [|z sel NI ND IH]; cbn [map]; constructor; [|apply IH; intros y Iy; apply SI; right; auto].
      intro I. apply in_map_iff in I. destruct I as (y & Q & I). assert (y = z); [|subst; auto].
      assert (Z := proj1 (PI z) (SI z (or_introl eq_refl))). assert (Y := proj1 (PI y) (SI y (or_intror I))). lia.
    - intros H j J1 J2. apply in_map_iff. exists (Z.of_nat j). split; [lia|].
      assert (In (Z.of_nat j) m) by (apply PI; lia). unfold sel. destruct (Z.of_nat (length c) <=? 5) eqn:E5; auto.
      apply Z.leb_gt in E5. rewrite firstn_all2 by lia. auto.
    - intro H. rewrite !map_length. unfold sel. replace (Z.of_nat (length c) <=? 5) with false by (symmetry; apply Z.leb_gt; lia).
      rewrite firstn_length. lia.
    - unfold get_num_neighbors. rewrite K. replace (py_in v c) with true; [do 2 f_equal; lia|].
      symmetry. apply py_in_iff. exists v. split; [eapply nth_error_In; eauto|apply py_eqb_refl].
  Qed.

  (** ** C62 *)

  Lemma cont_loop_ok n cands : forall buf l, Forall (fun q => (0 <= q)%Q /\ (q <= 1)%Q) buf -> cont_loop n buf cands = Ok l ->
    length l = n /\ Forall (fun q => (0 <= q)%Q /\ (q <= 1)%Q) l.
  Proof.
    induction cands as [|c cands IH]; intros buf l F; cbn [cont_loop]; [discriminate|]. cbv zeta.
    destruct (Nat.leb _ (5 * n)); [|discriminate]. cbn iota.
    assert (F' : Forall (fun q => (0 <= q)%Q /\ (q <= 1)%Q) (buf ++ within 0 1 c)).
    { apply Forall_app. split; auto. apply Forall_forall. intros q I. apply within_in in I. tauto. }
    destruct (Nat.leb n (length (buf ++ within 0 1 c))) eqn:E1; [|apply IH; auto].
    intro H. injection H as <-. apply Nat.leb_le in E1. split; [rewrite firstn_length; lia|].
    apply Forall_forall. intros q I. apply firstn_in in I. rewrite Forall_forall in F'. auto.
  Qed.

  (** neighbours of a float: exactly [n] legal entries, each representing a legal value *)
  Theorem C62_float h lo hi log d x n std r l : constructed h -> hp_kind h = KFloat lo hi log d ->
    neighbors_vectorized h x n std r = Ok l ->
    length l = n /\ Forall (fun e => legal_vector h e = true /\ exists w, entry_of h w e) l.
  Proof.
    intros C K N. destruct (nb_unfold _ _ _ _ _ _ N) as (q & m & -> & -> & _ & T). rewrite K in T.
    destruct (cont_loop_ok n _ [] m ltac:(constructor) T) as [A B]. split; [rewrite map_length; auto|].
    apply Forall_map. eapply Forall_impl; [|exact B]. intros e [E0 E1].
    assert (G : exists w, entry_of h w (Fin e)).
    { destruct (C36_float_onto h lo hi log e C (ex_intro _ d K) E0 E1) as (y & q' & _ & Lg & T' & Q).
      exists (VFloat y). split; auto. split; [unfold exact_value; rewrite K; auto|]. exists (Fin q'). split; auto. simpl. rewrite Q. reflexivity. }
    split; auto. destruct G as [w G]. eapply entry_legal; eauto.
  Qed.

  Lemma cont_loop_total n cands : forall buf, Forall (fun c => length c <= 4 * n)%nat cands -> (length buf <= n)%nat -> cands <> [] ->
    (n <= length buf + length (concat (map (within 0 1) cands)))%nat -> exists l, cont_loop n buf cands = Ok l.
  Proof.
    induction cands as [|c cands IH]; intros buf F B NE T; [congruence|]. cbn [cont_loop]. cbv zeta.
    inversion F as [|? ? F1 F2]; subst. assert (W : (length (within 0 1 c) <= length c)%nat) by apply filter_len.
    replace (Nat.leb (length buf + length (within 0 1 c)) (5 * n)) with true by (symmetry; apply Nat.leb_le; lia).
    cbn iota. destruct (Nat.leb n (length (buf ++ within 0 1 c))) eqn:E1; [eauto|]. apply Nat.leb_gt in E1.
    cbn [map concat] in T. rewrite app_length in *. apply IH; auto.
    - rewrite app_length. lia.
    - intro; subst cands. simpl in T. lia.
    - rewrite app_length. lia.
  Qed.

  (** ... and the call succeeds as soon as [n] of the random numbers are in the unit interval *)
  Theorem C62_returns h lo hi log d x n std r : constructed h -> hp_kind h = KFloat lo hi log d ->
    legal_vector h x = true -> std_ok std -> nr_cands r <> [] -> Forall (fun c => length c <= 4 * n)%nat (nr_cands r) ->
    (n <= length (filter (fun q => Qle_bool 0 q && Qle_bool q 1)%bool (concat (nr_cands r))))%nat ->
    exists l, neighbors_vectorized h x n std r = Ok l.
  Proof.
    intros C K Lg St NE F T. assert (X : exists q, x = Fin q).
    { unfold legal_vector in Lg. rewrite K in Lg. destruct x; try discriminate. eauto. }
    destruct X as [q ->]. destruct (cont_loop_total n (nr_cands r) [] F ltac:(simpl; lia) NE) as (m & Hm).
    - simpl. eapply Nat.le_trans; [exact T|]. clear. induction (nr_cands r) as [|c l IH]; simpl; auto.
      rewrite filter_app, !app_length. unfold within at 1. lia.
    - exists (map Fin m). apply nb_fold; auto. rewrite K. exact Hm.
  Qed.

  (** ** C47 *)

  (** normal and beta integers *)
  Definition shaped (h : hp) : Prop := exists lo hi log d, hp_kind h = KInt lo hi log d /\ d <> DUniform.
  (** [f] is the density of scipy.stats.uniform(), which uniform integers on a log scale use *)
  Definition flat (f : Q -> Q) : Prop := forall q, (0 <= q)%Q -> (q <= 1)%Q -> (f q == 1)%Q.

  Lemma density_max_spec l : (forall m0, (0 <= m0)%Q -> let m := fold_left (fun m x => if Qltb m x then x else m) l m0 in
    (m0 <= m)%Q /\ Forall (fun x => (x <= m)%Q) l /\ (m = m0 \/ In m l)).
  Proof.
    induction l as [|x l IH]; intros m0 M0; cbn [fold_left]; cbv zeta; [split; [lra|auto]|].
    destruct (Qltb m0 x) eqn:C.
    - apply Qltb_lt in C. destruct (IH x ltac:(lra)) as (A & B & D). split; [lra|]. split; [constructor; auto|].
      destruct D as [D|D]; [right; left; auto|right; right; auto].
    - apply Qltb_ge in C. destruct (IH m0 M0) as (A & B & D). split; auto. split; [constructor; auto; lra|].
      destruct D as [D|D]; [auto|right; right; auto].
  Qed.

  Lemma Qsum_const l p : Forall (fun x => (x == p)%Q) l -> (Qsum l == inject_Z (Z.of_nat (length l)) * p)%Q.
  Proof.
    induction 1 as [|x l H F IH]; [simpl; ring|]. change (Qsum (x :: l)) with (x + Qsum l)%Q. cbn [length].
    rewrite IH, H, Nat2Z.inj_succ, <- Z.add_1_l, inject_Z_plus. ring.
  Qed.

  Lemma Qsum_eq l m : Forall2 Qeq l m -> (Qsum l == Qsum m)%Q.
  Proof. induction 1; simpl; [reflexivity|]. rewrite H, IHForall2. reflexivity. Qed.

  Lemma inv_pos k : 0 < k -> (0 < 1 / inject_Z k)%Q.
  Proof. intro H. apply inject_Z_pos in H. apply Qlt_shift_div_l; lra. Qed.

  (** the density of one listed value *)
  Lemma seq_pdf h s f i v : constructed h -> lists_values h s -> nth_error s i = Some v ->
    exists p, pdf_value h f v = Ok p /\
      match hp_kind h with KCat c (Some w) => (p == nth i (probabilities c (Some w)) 0)%Q | _ => (p == 1 / inject_Z (Z.of_nat (length s)))%Q end.
  Proof.
    intros C K N. assert (Li : (i < length s)%nat) by (apply nth_error_Some; congruence).
    destruct (C34_vectors_roundtrip h s i C K Li) as (w & _ & N' & _ & T).
    assert (w = v) by congruence. subst w. unfold pdf_value. rewrite T. cbn [bind].
    assert (B1 : Qle_bool 0 (inject_Z (Z.of_nat i)) = true) by (apply Qle_bool_iff; change 0%Q with (inject_Z 0); rewrite <- Zle_Qle; lia).
    assert (B2 : Qle_bool (inject_Z (Z.of_nat i)) (inject_Z (Z.of_nat (length s) - 1)) = true) by (apply Qle_bool_iff; rewrite <- Zle_Qle; lia).
    assert (LS := legal_seq_nat (length s) i Li).
    unfold pdf_vector, dist_pdf, legal_vector_array.
    destruct K as [K|[ws|] K]; rewrite K; cbn [bind]; rewrite B1, B2, is_close_to_integer_Z, LS; cbn [andb]; eexists; (split; [reflexivity|]); try ring.
    assert (Cl : (qclip (inject_Z (Z.of_nat i)) 0 (inject_Z (Z.of_nat (length s) - 1)) == inject_Z (Z.of_nat i))%Q).
    { apply Qle_bool_iff in B1. apply Qle_bool_iff in B2. apply qclip_id; auto. }
    rewrite (py_int_Z _ _ Cl), Nat2Z.id. ring.
  Qed.

  Lemma int_pdf h lo hi log f z : constructed h -> hp_kind h = KInt lo hi log DUniform -> flat f -> lo <= z <= hi ->
    exists p, pdf_value h f (VInt z) = Ok p /\ (p == 1 / inject_Z (hi - lo + 1))%Q.
  Proof.
    intros C K Fl Z. assert (W := constructed_wf h C). unfold wf_hp in W. rewrite K in W. destruct W as (W1 & W2 & _).
    unfold pdf_value, to_vector. rewrite K. simpl num_of. cbv iota.
    rewrite unit_to_vector_fin by (apply (pos_w lo log W2); lia). cbn [bind].
    change (unit_norm (inject_Z lo) (inject_Z hi) log (inject_Z z)) with (enc lo hi log z).
    destruct (enc_range lo hi log W1 W2 z Z) as [R0 R1].
    assert (A : legal_vector_array h (Fin (enc lo hi log z)) = true).
    { unfold legal_vector_array. rewrite K, (legal_int_Z lo hi z) by (apply raw_enc; auto; lia). apply andb_true_iff. rewrite !Z.leb_le. auto. }
    unfold pdf_vector. rewrite A. unfold dist_pdf. rewrite K. apply Qle_bool_iff in R0 as B0. apply Qle_bool_iff in R1 as B1.
    rewrite B0, B1. destruct log; cbn [bind andb].
    - eexists. split; [reflexivity|]. rewrite (Fl _ R0 R1). ring.
    - assert (Cz : (enc lo hi false z * inject_Z (hi - lo + 1 - 1) == inject_Z (z - lo))%Q).
      { rewrite enc_linear by auto. replace (hi - lo + 1 - 1) with (hi - lo) by lia. assert (P := size_pos lo hi W1). field. lra. }
      rewrite (is_close_to_integer_proper _ _ Cz), is_close_to_integer_Z. eexists. split; [reflexivity|]. ring.
  Qed.

  (** a density is zero outside the legal entries *)
  Theorem C47_illegal h f x p : pdf_vector h f x = Ok p -> legal_vector_array h x = false -> (p == 0)%Q.
  Proof.
    unfold pdf_vector. intros H A. rewrite A in H. destruct (dist_pdf h f x) as [q|]; [|discriminate]. simpl in H. injection H as <-. ring.
  Qed.

  (** a density is never negative and never above the maximum.  Full statement: also for normal
      and beta integers, see [C47_refuted]. *)
  Theorem C47_bounded_partial h f k x p m : constructed h -> hp_size h = Some k -> ~ shaped h -> flat f ->
    pdf_vector h f x = Ok p -> max_density h f = Ok m -> (0 <= p)%Q /\ (p <= m)%Q.
  Proof.
    intros C S D Fl P M. assert (W := constructed_wf h C). unfold wf_hp in W.
    assert (G : forall y b, (0 <= y)%Q -> (y <= m)%Q -> p = (y * (if b : bool then 1 else 0))%Q -> (0 <= p)%Q /\ (p <= m)%Q).
    { intros y b Y0 Y1 ->. destruct b; lra. }
    unfold pdf_vector in P. destruct (dist_pdf h f x) as [y|] eqn:T; [|discriminate]. cbn [bind] in P. injection P as <-.
    cut ((0 <= y)%Q /\ (y <= m)%Q); [intros [Y0 Y1]; eapply G; eauto|]. clear G.
    unfold dist_pdf in T. unfold max_density in M. destruct (hp_kind h) as [c [ws|]|c|v|lo hi log d|] eqn:K.
    - injection M as <-. destruct W as (W1 & W2 & W3 & W4 & W5 & W6).
      destruct (probabilities_facts c ws W4 W5 W6) as (P1 & P2 & P3). set (p := probabilities c (Some ws)) in *.
      destruct (density_max_spec p 0%Q ltac:(lra)) as (D1 & D2 & _). fold (density_max p) in D1, D2. cbv zeta in *.
      assert (R : (0 <= density_max p)%Q) by exact D1.
      injection T as <-. destruct x as [q| | |]; try (split; [apply Qle_refl|exact R]). destruct (_ && _)%bool; [|split; [apply Qle_refl|exact R]].
      set (j := Z.to_nat _). destruct (Nat.lt_ge_cases j (length p)) as [J|J].
      + assert (I := nth_In p 0%Q J). rewrite Forall_forall in P2, D2. split; [apply P2; auto|apply D2; auto].
      + rewrite nth_overflow by auto. split; [apply Qle_refl|exact R].
    - injection M as <-. assert (0 < Z.of_nat (length c)) by (destruct W as [W _]; destruct c; [congruence|simpl; lia]).
      assert (R := inv_pos _ H). injection T as <-. destruct x as [q| | |]; try lra. destruct (_ && _)%bool; lra.
    - injection M as <-. assert (0 < Z.of_nat (length c)) by (destruct W as [W _]; destruct c; [congruence|simpl; lia]).
      assert (R := inv_pos _ H). injection T as <-. destruct x as [q| | |]; try lra. destruct (_ && _)%bool; lra.
    - injection M as <-. injection T as <-. destruct (feqb x (Fin 1)); lra.
    - destruct d; try (exfalso; apply D; repeat eexists; [exact K|discriminate]).
      injection M as <-. destruct W as [W _]. assert (R := inv_pos (hi - lo + 1) ltac:(lia)).
      destruct log; injection T as <-; destruct x as [q| | |]; try lra.
      + destruct (_ && _)%bool eqn:B; [|lra]. apply andb_true_iff in B. rewrite !Qle_bool_iff in B. destruct B as [B0 B1].
        rewrite (Fl q B0 B1). lra.
      + destruct (_ && _)%bool; lra.
    - unfold hp_size in S. rewrite K in S. discriminate.
  Qed.

  (** the densities of all values exist, sum to one and reach the maximum *)
  Theorem C47_sum_partial h f k : constructed h -> hp_size h = Some k -> ~ shaped h -> flat f ->
    exists ps m, mapM (pdf_value h f) (options h) = Ok ps /\ (Qsum ps == 1)%Q /\ max_density h f = Ok m /\
      Forall (fun p => (p <= m)%Q) ps /\ Exists (fun p => (p == m)%Q) ps.
  Proof.
    intros C S D Fl. assert (W := constructed_wf h C). unfold wf_hp in W. assert (OS := options_size h k C S).
    assert (U : 0 < k -> (forall v, In v (options h) -> exists p, pdf_value h f v = Ok p /\ (p == 1 / inject_Z k)%Q) ->
      max_density h f = Ok (1 / inject_Z k)%Q -> exists ps m, mapM (pdf_value h f) (options h) = Ok ps /\ (Qsum ps == 1)%Q /\ max_density h f = Ok m /\
      Forall (fun p => (p <= m)%Q) ps /\ Exists (fun p => (p == m)%Q) ps).
    { intros Kp H M. destruct (mapM_total (pdf_value h f) (options h)) as (ps & P).
      { intros v I. destruct (H v I) as (p & Hp & _). eauto. }
      assert (F : Forall (fun p => (p == 1 / inject_Z k)%Q) ps).
      { apply mapM_ok in P. clear -P H. induction P as [|v p vs ps A B IH]; constructor.
        - destruct (H v (or_introl eq_refl)) as (p' & Hp & Q). assert (p' = p) by congruence. subst; auto.
        - apply IH. intros v' I. apply H. right. auto. }
      exists ps, (1 / inject_Z k)%Q. split; auto. assert (PL := mapM_length _ _ _ P). destruct OS as (OS & _). split; [|split; [auto|split]].
      - rewrite (Qsum_const ps _ F), PL, OS. apply inject_Z_pos in Kp. field. lra.
      - eapply Forall_impl; [|exact F]. simpl. intros a ->. lra.
      - destruct ps as [|p ps]; [simpl in PL; lia|]. left. inversion F; auto. }
    destruct (hp_kind h) as [c [ws|]|c|v|lo hi log d|] eqn:K.
    - destruct W as (W1 & W2 & W3 & W4 & W5 & W6). destruct (probabilities_facts c ws W4 W5 W6) as (P1 & P2 & P3).
      assert (O : options h = c) by (unfold options; rewrite K; auto). rewrite O.
      assert (LV : lists_values h c) by (eapply LV_cat; eauto).
      destruct (mapM_total (pdf_value h f) c) as (ps & P).
      { intros v I. apply In_nth_error in I. destruct I as [i I]. destruct (seq_pdf h c f i v C LV I) as (p & Hp & _). eauto. }
      set (pr := probabilities c (Some ws)) in *.
      assert (F : Forall2 Qeq ps pr).
      { assert (PL := mapM_length _ _ _ P). apply mapM_ok in P.
        assert (N : forall i p, nth_error ps i = Some p -> (p == nth i pr 0)%Q).
        { intros i p Hi. assert (exists v, nth_error c i = Some v /\ pdf_value h f v = Ok p).
          { clear -P Hi. revert i Hi. induction P as [|v p' vs ps A B IH]; intros [|i] Hi; simpl in *; try discriminate.
            - injection Hi as <-. eauto.
            - apply IH; auto. }
          destruct H as (v & Nv & Pv). destruct (seq_pdf h c f i v C LV Nv) as (p' & Pv' & Q). rewrite K in Q.
          assert (p' = p) by congruence. subst; auto. }
        assert (LL : length ps = length pr) by congruence. clear -N LL. revert N LL. generalize pr. induction ps as [|p ps IH]; intros [|x l] N LL; simpl in LL; try lia; constructor.
        - apply (N O). auto.
        - apply IH; [|lia]. intros i q Hi. apply (N (Datatypes.S i)). auto. }
      exists ps, (density_max pr). split; auto. split; [rewrite (Qsum_eq _ _ F); auto|]. split; [unfold max_density; rewrite K; auto|].
      destruct (density_max_spec pr 0%Q ltac:(lra)) as (D1 & D2 & D3). fold (density_max pr) in D1, D2, D3. cbv zeta in *.
      assert (D1' : (0 <= density_max pr)%Q) by exact D1. assert (D2' : Forall (fun x => (x <= density_max pr)%Q) pr) by exact D2.
      assert (D3' : density_max pr = 0%Q \/ In (density_max pr) pr) by exact D3. clear D1 D2 D3. split.
      + apply Forall_forall. intros p I. destruct (Forall2_in_l _ _ _ _ F I) as (x & Ix & Q). rewrite Q.
        rewrite Forall_forall in D2'. auto.
      + apply Exists_exists. assert (IM : exists x, In x pr /\ (x == density_max pr)%Q).
        { destruct D3' as [D0|I]; [|exists (density_max pr); split; [auto|reflexivity]].
          rewrite D0 in *. destruct pr as [|x pr]; [destruct c; [congruence|simpl in P1; lia]|]. exists x. split; [left; auto|].
          inversion P2; inversion D2'; subst. lra. }
        destruct IM as (x & Ix & Q). destruct (Forall2_in_r _ _ _ _ F Ix) as (p & Ip & Q'). exists p. split; auto. rewrite Q', Q. reflexivity.
    - apply U; [apply OS| |].
      + intros v I. unfold options in I. rewrite K in I. apply In_nth_error in I. destruct I as [i I].
        destruct (seq_pdf h c f i v C ltac:(eapply LV_cat; eauto) I) as (p & Hp & Q). rewrite K in Q.
        exists p. split; auto. unfold hp_size in S. rewrite K in S. injection S as <-. auto.
      + unfold max_density. rewrite K. unfold hp_size in S. rewrite K in S. injection S as <-. auto.
    - apply U; [apply OS| |].
      + intros v I. unfold options in I. rewrite K in I. apply In_nth_error in I. destruct I as [i I].
        destruct (seq_pdf h c f i v C ltac:(eapply LV_ord; eauto) I) as (p & Hp & Q). rewrite K in Q.
        exists p. split; auto. unfold hp_size in S. rewrite K in S. injection S as <-. auto.
      + unfold max_density. rewrite K. unfold hp_size in S. rewrite K in S. injection S as <-. auto.
    - exists [1 * 1]%Q, 1%Q. unfold options, max_density. rewrite K. cbn [mapM]. unfold pdf_value, to_vector, pdf_vector, dist_pdf, legal_vector_array.
      rewrite K, py_eqb_refl. cbn. split; auto. split; [reflexivity|]. split; auto. split; [constructor; [lra|auto]|left; reflexivity].
    - destruct d; try (exfalso; apply D; repeat eexists; [exact K|discriminate]). destruct W as [W _].
      unfold hp_size in S. rewrite K in S. injection S as <-. apply U; [lia| |].
      + intros v I. unfold options in I. rewrite K in I. apply in_map_iff in I. destruct I as (z & <- & I). apply zseq_in in I.
        apply (int_pdf h lo hi log f z C K Fl). lia.
      + unfold max_density. rewrite K. auto.
    - unfold hp_size in S. rewrite K in S. discriminate.
  Qed.

  (** a weighted choice has its own weight divided by the sum, any other finite value 1 / size *)
  Theorem C47_weights h c w f i v x : constructed h -> hp_kind h = KCat c (Some w) ->
    nth_error c i = Some v -> nth_error w i = Some x ->
    exists p, pdf_value h f v = Ok p /\ (p == x / fold_right Qplus 0 w)%Q.
  Proof.
    intros C K N X. destruct (seq_pdf h c f i v C (LV_cat _ _ _ K) N) as (p & P & Q). rewrite K in Q.
    exists p. split; auto. rewrite Q. unfold probabilities.
    assert (M := map_nth_error (fun x => x / Qsum w)%Q i w X). rewrite (nth_error_nth _ _ _ M). reflexivity.
  Qed.

  Theorem C47_uniform_partial h f k v : constructed h -> hp_size h = Some k -> ~ shaped h -> flat f ->
    (forall c w, hp_kind h <> KCat c (Some w)) -> In v (options h) ->
    exists p, pdf_value h f v = Ok p /\ (p == 1 / inject_Z k)%Q.
  Proof.
    intros C S D Fl NW I. unfold options in I. unfold hp_size in S. destruct (hp_kind h) as [c [ws|]|c|u|lo hi log d|] eqn:K.
    - exfalso. eapply NW; eauto.
    - injection S as <-. apply In_nth_error in I. destruct I as [i I].
      destruct (seq_pdf h c f i v C ltac:(eapply LV_cat; eauto) I) as (p & Hp & Q). rewrite K in Q. eauto.
    - injection S as <-. apply In_nth_error in I. destruct I as [i I].
      destruct (seq_pdf h c f i v C ltac:(eapply LV_ord; eauto) I) as (p & Hp & Q). rewrite K in Q. eauto.
    - injection S as <-. destruct I as [<-|[]]. exists (1 * 1)%Q. split; [|reflexivity].
      unfold pdf_value, to_vector, pdf_vector, dist_pdf, legal_vector_array. rewrite K, py_eqb_refl. reflexivity.
    - destruct d; try (exfalso; apply D; repeat eexists; [exact K|discriminate]). injection S as <-.
      apply in_map_iff in I. destruct I as (z & <- & I). apply zseq_in in I. apply (int_pdf h lo hi log f z C K Fl).
      assert (W := constructed_wf h C). unfold wf_hp in W. rewrite K in W. destruct W as [W _]. lia.
    - discriminate.
  Qed.

  (** ** C63 *)

  (** get_num_neighbors: for integers, categoricals and constants the number of other values;
      infinity for floats; without a value the size.  (Ordinals: C45.) *)
  Theorem C63_finite h k v : constructed h -> hp_size h = Some k -> (forall s, hp_kind h <> KOrd s) ->
    legal_value h v = true -> exact_value h v -> get_num_neighbors h (Some v) = Ok (Some (k - 1)).
  Proof.
    intros C S NO Lg Ex. unfold get_num_neighbors. unfold hp_size in S. unfold legal_value in Lg. unfold exact_value in Ex.
    destruct (hp_kind h) as [c w|c|u|lo hi log d|] eqn:K.
    - injection S as <-. rewrite Lg. auto.
    - exfalso. eapply NO; eauto.
    - injection S as <-. auto.
    - injection S as <-. destruct Ex as (a & z & Na & Q). rewrite Na in *. rewrite (legal_int_Z lo hi z a Q) in Lg.
      apply andb_true_iff in Lg. rewrite !Z.leb_le in Lg.
      rewrite (Qle_bool_proper _ _ (Qeq_refl _) _ _ Q), (Qle_bool_proper _ _ Q _ _ (Qeq_refl _)).
      replace (Qle_bool (inject_Z lo) (inject_Z z)) with true by (symmetry; apply Qle_bool_iff; rewrite <- Zle_Qle; lia).
      replace (Qle_bool (inject_Z z) (inject_Z hi)) with true by (symmetry; apply Qle_bool_iff; rewrite <- Zle_Qle; lia).
      auto.
    - discriminate.
  Qed.

  Theorem C63_notset h : get_num_neighbors h None = Ok (match hp_kind h with KConst _ => Some 0 | _ => hp_size h end).
  Proof. unfold get_num_neighbors, hp_size. destruct (hp_kind h); auto. Qed.

  Theorem C63_float h lo hi log d v : hp_kind h = KFloat lo hi log d -> get_num_neighbors h v = Ok None.
  Proof. intro K. unfold get_num_neighbors. rewrite K. auto. Qed.

  (** the number agrees with what neighbors_vectorized returns when that many are requested *)
  Theorem C63_agrees h lo hi log z x n std r : constructed h -> hp_kind h = KInt lo hi log DUniform ->
    entry_of h (VInt z) x -> std_ok std -> hi - lo <= Z.of_nat n < 1000000 ->
    exists l, neighbors_vectorized h x n std r = Ok l /\
      get_num_neighbors h (Some (VInt z)) = Ok (Some (Z.of_nat (length l))).
  Proof.
    intros C K X St N. destruct (C43_all h lo hi log z x n std r C K X St N) as (l & ws & Hl & _).
    exists l. split; auto. destruct (C43_int_partial h lo hi log z x n std r l C K X Hl) as (_ & _ & _ & _ & Le & _).
    destruct X as (Lg & Ex & _). rewrite (C63_finite h (hi - lo + 1) (VInt z)); auto.
    - do 2 f_equal. lia.
    - unfold hp_size. rewrite K. auto.
    - rewrite K. discriminate.
  Qed.
End Dist.

(** ** C41 is false of normal and beta integers on a log scale

    Stated for every logarithm: it is enough that the geometric mean of 1 and 3 (its value is
    1.73...) is not within the tolerance of 2. *)
Section Log.
  Context {E : Env} {L : EnvLaws E}.
  Definition geo_mean : Q := fexp ((flog 1 + flog 3) / 2).

  Definition skewed : hp := mk_hp "s" (KInt 1 3 true (DNormal 2 1)) (VInt 2) None.
  Definition half_raw : raw := {| raw_int := 0; raw_real := 1#2 |}.

  Theorem C41_refuted : (3#2 < geo_mean)%Q -> (geo_mean < 19#10)%Q ->
    mk_normal_int "s" 2 1 1 3 None true None = Ok skewed /\
    raw_ok skewed half_raw /\ legal_vector skewed (sample_vector skewed half_raw) = false.
  Proof.
    intros G1 G2. split; [vm_compute; reflexivity|]. split.
    - unfold raw_ok. simpl. split; [intros k H; injection H as <-; lia|]. split; [lra|]. split; [lra|]. intros; discriminate.
    - assert (R : (unit_raw (inject_Z 1) (inject_Z 3) true (1#2) == geo_mean)%Q).
      { unfold unit_raw, geo_mean, scale. apply fexp_comp. change (inject_Z 1) with 1%Q. change (inject_Z 3) with 3%Q. field. }
      change (sample_vector skewed half_raw) with (Fin (1#2)). unfold legal_vector. simpl hp_kind. cbv iota.
      unfold legal_int. rewrite (rint_proper _ _ R), (is_close_to_integer_proper _ _ R).
      assert (RI : rint geo_mean = 2) by (apply rint_unique; change (inject_Z 2) with 2%Q; lra).
      apply andb_false_iff. right. unfold is_close_to_integer. rewrite RI. change (inject_Z 2) with 2%Q.
      apply Qle_bool_false. assert (A : (Qabs (geo_mean - 2) == - (geo_mean - 2))%Q) by (apply Qabs_neg; lra). rewrite A.
      unfold atol, rtol. change (Qabs 2) with 2%Q. lra.
  Qed.
End Log.

(** A logarithm with that property: increasing, onto, but not linear above 1. *)
Definition bent_log (x : Q) : Q :=
  if Qle_bool 2 x then x else if Qle_bool 1 x then (2 * (x - 1))%Q else (1 - / x)%Q.
Definition bent_exp (y : Q) : Q :=
  if Qle_bool 2 y then y else if Qle_bool 0 y then (y / 2 + 1)%Q else (/ (1 - y))%Q.
Definition bent_env : Env := {| flog := bent_log; fexp := bent_exp; frepr := rat_repr |}.

Lemma bent_env_laws : EnvLaws bent_env.
Proof.
  assert (D : forall a b, {(a <= b)%Q /\ Qle_bool a b = true} + {(b < a)%Q /\ Qle_bool a b = false}).
  { intros a b. destruct (Qle_bool a b) eqn:C; [left; apply Qle_bool_iff in C|right; apply Qle_bool_false in C]; auto. }
  assert (Inv : forall x, (0 < x)%Q -> (x < 1)%Q -> (1 < / x)%Q).
  { intros x H K. rewrite <- (Qmult_1_l (/ x)). apply (Qlt_shift_div_l 1 1 x); auto. lra. }
  split; cbn [flog fexp bent_env].
  - intros x y H. unfold bent_log. rewrite (Qle_bool_proper _ _ (Qeq_refl 1) _ _ H), (Qle_bool_proper _ _ (Qeq_refl 2) _ _ H).
    destruct (Qle_bool 2 y); auto. destruct (Qle_bool 1 y); rewrite H; reflexivity.
  - intros x y H. unfold bent_exp. rewrite (Qle_bool_proper _ _ (Qeq_refl 0) _ _ H), (Qle_bool_proper _ _ (Qeq_refl 2) _ _ H).
    destruct (Qle_bool 2 y); auto. destruct (Qle_bool 0 y); rewrite H; reflexivity.
  - intro y. unfold bent_exp. destruct (D 2%Q y) as [[A ->]|[A ->]]; [lra|]. destruct (D 0%Q y) as [[B ->]|[B ->]].
    + assert (0 <= y / 2)%Q by (apply Qle_shift_div_l; lra). lra.
    + apply Qinv_lt_0_compat. lra.
  - intros x H. unfold bent_log. destruct (D 2%Q x) as [[A ->]|[A ->]].
    + unfold bent_exp. destruct (D 2%Q x) as [[_ ->]|[B _]]; [reflexivity|lra].
    + destruct (D 1%Q x) as [[B ->]|[B ->]]; unfold bent_exp.
      * destruct (D 2%Q (2 * (x - 1))%Q) as [[C _]|[C ->]]; [lra|]. destruct (D 0%Q (2 * (x - 1))%Q) as [[F ->]|[F _]]; [field|lra].
      * assert (I := Inv x H B). destruct (D 2%Q (1 - / x)%Q) as [[C _]|[C ->]]; [lra|]. destruct (D 0%Q (1 - / x)%Q) as [[F _]|[F ->]]; [lra|].
        assert (G : (1 - (1 - / x) == / x)%Q) by lra. rewrite G. field. lra.
  - intro y. unfold bent_exp. destruct (D 2%Q y) as [[A ->]|[A ->]].
    + unfold bent_log. destruct (D 2%Q y) as [[_ ->]|[B _]]; [reflexivity|lra].
    + destruct (D 0%Q y) as [[B ->]|[B ->]]; unfold bent_log.
      * assert (Y : (y / 2 == y * (1#2))%Q) by field.
        destruct (D 2%Q (y / 2 + 1)%Q) as [[C _]|[C ->]]; [lra|]. destruct (D 1%Q (y / 2 + 1)%Q) as [[F ->]|[F _]]; [field|lra].
      * assert (I : (/ (1 - y) < 1)%Q) by (rewrite <- (Qmult_1_l (/ (1 - y))); apply (Qlt_shift_div_r 1 (1 - y) 1); lra).
        destruct (D 2%Q (/ (1 - y))%Q) as [[C _]|[C ->]]; [lra|]. destruct (D 1%Q (/ (1 - y))%Q) as [[F _]|[F ->]]; [lra|]. field. lra.
  - intros x y H K. unfold bent_log.
    destruct (D 2%Q x) as [[A ->]|[A ->]], (D 2%Q y) as [[B ->]|[B ->]]; try lra.
    + destruct (D 1%Q x) as [[C ->]|[C ->]]; [lra|]. assert (I := Inv x H C). lra.
    + destruct (D 1%Q x) as [[C ->]|[C ->]], (D 1%Q y) as [[F ->]|[F ->]]; try lra.
      * assert (I := Inv x H C). lra.
      * assert (/ y < / x)%Q; [|lra]. rewrite <- (Qmult_1_l (/ x)). apply (Qlt_shift_div_l _ 1 x); auto.
        rewrite Qmult_comm. apply (Qlt_shift_div_r x y 1); lra.
Qed.

Example C41_refuted_case :
  (3#2 < @geo_mean bent_env)%Q /\ (@geo_mean bent_env < 19#10)%Q /\
  mk_normal_int "s" 2 1 1 3 None true None = Ok skewed /\
  @legal_vector bent_env skewed (@sample_vector bent_env skewed half_raw) = false.
Proof. repeat split; vm_compute; reflexivity. Qed.

(** ** Concrete cases and refutations *)
Section Witness.
  #[local] Existing Instance rat_env.

  Definition no_rng : nrng := {| nr_cands := []; nr_shuffle := fun l => l; nr_second := false |}.
  Definition rng_of (l : list (list Q)) : nrng := {| nr_cands := l; nr_shuffle := @rev Z; nr_second := true |}.

  Lemma rng_shuffles l : shuffles (rng_of l).
  Proof. intro m. apply Permutation_rev. Qed.

  Definition w_int : hp := mk_hp "i" (KInt 2 6 false DUniform) (VInt 4) None.
  Definition w_log : hp := mk_hp "l" (KInt 2 6 true DUniform) (VInt 4) None.
  Definition w_norm : hp := mk_hp "n" (KInt 0 4 false (DNormal 2 1)) (VInt 2) None.
  Definition w_beta : hp := mk_hp "b" (KInt 0 2 false (DBeta 2 1)) (VInt 2) None.
  Definition w_wide : hp := mk_hp "w" (KInt 0 200000 false DUniform) (VInt 100000) None.
  Definition w_ord : hp := mk_hp "o" (KOrd [VInt 1; VInt 10; VInt 100]) (VInt 10) None.
  Definition w_cat : hp := mk_hp "c" (KCat [VStr "x"; VStr "y"; VStr "z"] (Some [1; 2; 1]%Q)) (VStr "y") None.
  Definition w_six : hp := mk_hp "s" (KCat (map VInt [1; 2; 3; 4; 5; 6]) None) (VInt 1) None.
  Definition w_flt : hp := mk_hp "f" (KFloat (round13 1) (round13 2) false DUniform) (VFloat (round13 (3#2))) None.

  Lemma w_int_c : constructed w_int. Proof. apply (CtorUInt "i" 2 6 (Some 4%Q) false None). vm_compute. reflexivity. Qed.
  Lemma w_log_c : constructed w_log. Proof. apply (CtorUInt "l" 2 6 (Some 4%Q) true None). vm_compute. reflexivity. Qed.
  Lemma w_norm_c : constructed w_norm. Proof. apply (CtorNInt "n" 2 1 0 4 None false None). vm_compute. reflexivity. Qed.
  Lemma w_beta_c : constructed w_beta. Proof. apply (CtorBInt "b" 2 1 0 2 None false None). vm_compute. reflexivity. Qed.
  Lemma w_wide_c : constructed w_wide. Proof. apply (CtorUInt "w" 0 200000 None false None). vm_compute. reflexivity. Qed.
  Lemma w_ord_c : constructed w_ord. Proof. apply (CtorOrd "o" [VInt 1; VInt 10; VInt 100] (Some (VInt 10)) None). reflexivity. Qed.
  Lemma w_cat_c : constructed w_cat. Proof. apply (CtorCat "c" [VStr "x"; VStr "y"; VStr "z"] (Some (VStr "y")) (Some [1; 2; 1]%Q) None). vm_compute. reflexivity. Qed.
  Lemma w_six_c : constructed w_six. Proof. apply (CtorCat "s" (map VInt [1; 2; 3; 4; 5; 6]) None None None). vm_compute. reflexivity. Qed.
  Lemma w_flt_c : constructed w_flt. Proof. apply (CtorUFloat "f" 1 2 None false None). vm_compute. reflexivity. Qed.

  (** C41: weights 1, 2, 1; the number 0.6 falls into the interval [1/4, 3/4) of the second choice *)
  Example C41_case : raw_ok w_cat {| raw_int := 1; raw_real := 6#10 |} /\ ~ mismatched w_cat /\
    sample_vector w_cat {| raw_int := 1; raw_real := 6#10 |} = Fin (inject_Z 1) /\
    sample_value w_cat {| raw_int := 1; raw_real := 6#10 |} = Ok (VStr "y").
  Proof.
    split; [|split; [|split; vm_compute; reflexivity]].
    - unfold raw_ok. split; [intros k H; vm_compute in H; injection H as <-; simpl; lia|]. simpl. split; [lra|]. split; [lra|]. intros. lra.
    - intros (lo & hi & d & K & _). discriminate.
  Qed.
  Example C41_case_log : raw_ok w_log {| raw_int := 1; raw_real := 6#10 |} /\ ~ mismatched w_log /\
    sample_value w_log {| raw_int := 1; raw_real := 6#10 |} = Ok (VInt 5).
  Proof.
    split; [|split; [|vm_compute; reflexivity]].
    - unfold raw_ok. split; [intros k H; vm_compute in H; injection H as <-; simpl; lia|]. simpl. split; [lra|]. split; [lra|]. intros. discriminate.
    - intros (lo & hi & d & K & D). injection K as <- <- <-. auto.
  Qed.

  (** C43: two of the four other values, from numbers that also hit the centre and repeat *)
  Example C43_case : entry_of w_int (VInt 4) (Fin (1#2)) /\ std_ok None /\
    (l <- neighbors_vectorized w_int (Fin (1#2)) 2 None (rng_of [[1#2; 3#4; 3#4]; [2; 1#10]]%Q) ;;
     mapM (to_value w_int) l) = Ok [VInt 5; VInt 2].
  Proof.
    split; [|split; [exact I|vm_compute; reflexivity]]. split; [reflexivity|]. split.
    - exists (inject_Z 4), 4. split; reflexivity.
    - eexists. split; [vm_compute; reflexivity|]. simpl. reflexivity.
  Qed.
  Example C43_all_case : entry_of w_log (VInt 3) (Fin (1#4)) /\
    neighbors_values w_log (VInt 3) 4 (Some (1#5)) no_rng = Ok [VInt 2; VInt 4; VInt 5; VInt 6].
  Proof.
    split; [|vm_compute; reflexivity]. split; [reflexivity|]. split.
    - exists (inject_Z 3), 3. split; reflexivity.
    - eexists. split; [vm_compute; reflexivity|]. simpl. reflexivity.
  Qed.

  (** the entry 0.99999 / 200000 is legal and represents 1, but 1 is among its neighbours *)
  Theorem C43_refuted : exists h lo hi x r l e, constructed h /\ hp_kind h = KInt lo hi false DUniform /\
    legal_vector h x = true /\ neighbors_vectorized h x 1 None r = Ok l /\ In e l /\ to_value h e = to_value h x.
  Proof.
    exists w_wide, 0, 200000, (Fin (99999 # 20000000000)), (rng_of [[1#200000]]%Q). eexists. eexists.
    split; [apply w_wide_c|]. split; [reflexivity|]. split; [vm_compute; reflexivity|]. split; [vm_compute; reflexivity|].
    split; [left; reflexivity|]. vm_compute. reflexivity.
  Qed.

  (** C44: all four others of the lowest value; for the middle value an illegal entry occurs *)
  Example C44_lowest_case : entry_of w_norm (VInt 0) (Fin 0) /\
    neighbors_values w_norm (VInt 0) 4 None no_rng = Ok [VInt 1; VInt 2; VInt 3; VInt 4].
  Proof.
    split; [|vm_compute; reflexivity]. split; [reflexivity|]. split.
    - exists (inject_Z 0), 0. split; reflexivity.
    - eexists. split; [vm_compute; reflexivity|]. simpl. reflexivity.
  Qed.
  Example C44_fewer_case :
    neighbors_values w_norm (VInt 2) 2 None (rng_of [[1#2; 3#4; 3#4]; [2; 1#10]]%Q) = Ok [VInt 3; VInt 0].
  Proof. vm_compute. reflexivity. Qed.
  Example C44_refuted_case : entry_of w_norm (VInt 2) (Fin (1#2)) /\
    exists l e, neighbors_vectorized w_norm (Fin (1#2)) 4 None no_rng = Ok l /\ length l = 5%nat /\
      In e l /\ legal_vector w_norm e = false.
  Proof.
    split.
    - split; [reflexivity|]. split.
      + exists (inject_Z 2), 2. split; reflexivity.
      + eexists. split; [vm_compute; reflexivity|]. simpl. reflexivity.
    - eexists. eexists. split; [vm_compute; reflexivity|]. split; [reflexivity|]. split; [right; left; reflexivity|]. vm_compute. reflexivity.
  Qed.

  (** C45 *)
  Example C45_case : neighbors_vectorized w_ord (Fin (inject_Z 1)) 4 None no_rng = Ok [Fin (inject_Z 0); Fin (inject_Z 2)] /\
    get_num_neighbors w_ord (Some (VInt 10)) = Ok (Some 2) /\
    neighbors_vectorized w_ord (Fin (inject_Z 1)) 1 None (rng_of []) = Ok [Fin (inject_Z 2)] /\
    neighbors_values w_ord (VInt 100) 4 None no_rng = Ok [VInt 10].
  Proof. repeat split; vm_compute; reflexivity. Qed.

  (** the legal entry 1e-14 has the neighbour -1 *)
  Theorem C45_refuted_low : exists h s x r l e, constructed h /\ hp_kind h = KOrd s /\ legal_vector h x = true /\
    neighbors_vectorized h x 2 None r = Ok l /\ In e l /\ legal_vector h e = false.
  Proof.
    exists w_ord, [VInt 1; VInt 10; VInt 100], (Fin (1 # 100000000000000)), no_rng. eexists. eexists.
    split; [apply w_ord_c|]. split; [reflexivity|]. split; [vm_compute; reflexivity|]. split; [vm_compute; reflexivity|].
    split; [left; reflexivity|]. vm_compute. reflexivity.
  Qed.
  (** for the legal entry 2 + 1e-14 the call fails *)
  Theorem C45_refuted_high : exists h s x r, constructed h /\ hp_kind h = KOrd s /\ legal_vector h x = true /\
    neighbors_vectorized h x 2 None r = Err AssertionError.
  Proof.
    exists w_ord, [VInt 1; VInt 10; VInt 100], (Fin (2 + (1 # 100000000000000))), no_rng.
    split; [apply w_ord_c|]. split; [reflexivity|]. split; vm_compute; reflexivity.
  Qed.

  (** C46 *)
  Example C46_case : neighbors_values w_six (VInt 2) 3 None (rng_of []) = Ok [VInt 6; VInt 5; VInt 4] /\
    neighbors_values w_six (VInt 2) 7 None (rng_of []) = Ok [VInt 6; VInt 5; VInt 4; VInt 3; VInt 1] /\
    get_num_neighbors w_six (Some (VInt 2)) = Ok (Some 5).
  Proof. repeat split; vm_compute; reflexivity. Qed.

  (** one neighbour is requested, two are returned *)
  Theorem C46_refuted : exists h c ws r l, constructed h /\ hp_kind h = KCat c ws /\ shuffles r /\
    neighbors_vectorized h (Fin 0) 1 None r = Ok l /\ length l = 2%nat.
  Proof.
    exists w_cat. eexists. eexists. exists (rng_of []). eexists. split; [apply w_cat_c|]. split; [reflexivity|].
    split; [apply rng_shuffles|]. split; [vm_compute; reflexivity|reflexivity].
  Qed.
  (** the legal entry 1.99999 represents the third choice, which is among its neighbours *)
  Theorem C46_refuted_inexact : exists h c ws x r l e, constructed h /\ hp_kind h = KCat c ws /\ shuffles r /\
    legal_vector h x = true /\ neighbors_vectorized h x 1 None r = Ok l /\ In e l /\ to_value h e = to_value h x.
  Proof.
    exists w_cat. eexists. eexists. exists (Fin (199999#100000)), (rng_of []). eexists. eexists. split; [apply w_cat_c|]. split; [reflexivity|].
    split; [apply rng_shuffles|]. split; [vm_compute; reflexivity|]. split; [vm_compute; reflexivity|]. split; [left; reflexivity|]. vm_compute. reflexivity.
  Qed.

  (** C47: weights 1, 2, 1 *)
  Example C47_case : ~ shaped w_cat /\ flat (fun _ => 1%Q) /\
    (exists ps, mapM (pdf_value w_cat (fun _ => 1%Q)) (options w_cat) = Ok ps /\ Forall2 Qeq ps [1#4; 1#2; 1#4]) /\
    (exists m, max_density w_cat (fun _ => 1%Q) = Ok m /\ (m == 1#2)%Q) /\
    legal_vector_array w_cat (Fin (1#2)) = false /\
    (exists p, pdf_vector w_cat (fun _ => 1%Q) (Fin (1#2)) = Ok p /\ (p == 0)%Q).
  Proof.
    split; [intros (lo & hi & l & d & K & _); discriminate|]. split; [intros q _ _; reflexivity|].
    split; [eexists; split; [vm_compute; reflexivity|]; repeat constructor|].
    split; [eexists; split; [vm_compute; reflexivity|reflexivity]|]. split; [reflexivity|].
    eexists; split; [vm_compute; reflexivity|reflexivity].
  Qed.

  (** The beta distribution with alpha = 2, beta = 1 has density 2 x.  On the integers 0..2 the
      densities 0, 1/2, 1 sum to 3/2, and the reported maximum 4/3 is not reached. *)
  Theorem C47_refuted : exists h f ps m, constructed h /\ hp_size h = Some 3 /\
    mapM (pdf_value h f) (options h) = Ok ps /\ (Qsum ps == 3#2)%Q /\ max_density h f = Ok m /\
    Forall (fun p => (p < m)%Q) ps.
  Proof.
    exists w_beta, (fun x => 2 * x)%Q. eexists. eexists. split; [apply w_beta_c|]. split; [reflexivity|].
    split; [vm_compute; reflexivity|]. split; [reflexivity|]. split; [vm_compute; reflexivity|]. repeat constructor.
  Qed.

  (** C63 *)
  Example C63_case : hp_size w_int = Some 5 /\ get_num_neighbors w_int (Some (VInt 3)) = Ok (Some 4) /\
    get_num_neighbors w_int (Some (VInt 7)) = Ok (Some 5) /\ get_num_neighbors w_cat (Some (VStr "y")) = Ok (Some 2) /\
    get_num_neighbors w_flt (Some (VFloat 1)) = Ok None /\ get_num_neighbors w_ord None = Ok (Some 3).
  Proof. repeat split; vm_compute; reflexivity. Qed.

  (** C62 *)
  Example C62_case : exists a b, neighbors_values w_flt (VFloat (3#2)) 2 (Some (1#5)) (rng_of [[1#4; 2; -1]; [1; 0]]%Q) =
    Ok [VFloat a; VFloat b] /\ (a == 5#4)%Q /\ (b == 2)%Q.
  Proof. eexists. eexists. split; [vm_compute; reflexivity|]. split; reflexivity. Qed.
End Witness.
