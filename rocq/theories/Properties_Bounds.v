(** * Properties C111: the vector bounds of a hyperparameter, C112: the spread of normal hyperparameters *)
From Coq Require Import String List ZArith QArith Qround Qabs Bool Lia Lqa.
From Verif Require Import Base ListFacts Numeric NumericProofs HP HPProofs Properties_HP Properties_Size Spec Ex
  Dist DistProofs Properties_Dist Bounds.
Import ListNotations.
Open Scope Z_scope.

Definition within (h : hp) (x : fval) : Prop :=
  exists q, x = Fin q /\ (lower_vectorized h <= q)%Q /\ (q <= upper_vectorized h)%Q.

Section Bounds.
  Context {E : Env} {L : EnvLaws E}.

  Lemma seq_within n i : (i < n)%nat -> (0 <= inject_Z (Z.of_nat i))%Q /\ (inject_Z (Z.of_nat i) <= inject_Z (Z.of_nat n - 1))%Q.
  Proof. intros H. split; [change 0%Q with (inject_Z 0)|]; apply inject_Z_le; lia. Qed.

  (** Full statement: for every legal value.  False of floats that are only close to an integer,
      see [C111_value_refuted]. *)
  Theorem C111_value_partial h v x : constructed h -> legal_value h v = true -> exact_value h v -> to_vector h v = Ok x -> within h x.
  Proof.
    intros C Lv Ex T. assert (W := constructed_wf h C). unfold wf_hp in W. unfold legal_value in Lv. unfold exact_value in Ex. unfold to_vector in T.
    unfold within, lower_vectorized, upper_vectorized.
    assert (G : forall s, py_index v s <> None -> match py_index v s with Some i => Ok (Fin (inject_Z (Z.of_nat i))) | None => Err KeyError end = Ok x ->
      exists q, x = Fin q /\ (0 <= q)%Q /\ (q <= inject_Z (Z.of_nat (length s) - 1))%Q).
    { intros s _ H. destruct (py_index v s) as [i|] eqn:I; [|discriminate]. injection H as <-. eexists. split; [reflexivity|].
      apply seq_within. apply py_index_lt in I. exact I. }
    assert (N : forall lo hi log a, bounds_ok lo hi log -> (lo <= a)%Q -> (a <= hi)%Q -> Ok (unit_to_vector lo hi log a) = Ok x ->
      exists q, x = Fin q /\ (0 <= q)%Q /\ (q <= 1)%Q).
    { intros lo hi log a B A1 A2 H. assert (Pa : log = true -> (0 < a)%Q) by (intros e; destruct B as [_ B]; specialize (B e); lra).
      rewrite unit_to_vector_fin in H by exact Pa. injection H as <-. eexists. split; [reflexivity|]. apply unit_norm_range; auto. }
    destruct (hp_kind h) as [c w|c|u|lo hi log d|lo hi log d] eqn:K.
    - apply (G c); [destruct (py_index v c); congruence|exact T].
    - apply (G c); [destruct (py_index v c); congruence|exact T].
    - rewrite Lv in T. injection T as <-. eexists. split; [reflexivity|]. split; lra.
    - destruct Ex as (a & z & Na & Az). rewrite Na in *. rewrite (legal_int_Z lo hi z a Az) in Lv. apply andb_true_iff in Lv. destruct Lv as [L1 L2].
      destruct W as (W1 & W2 & _). apply (N (inject_Z lo) (inject_Z hi) log a); [apply bounds_int; auto| | |exact T]; rewrite Az; apply inject_Z_le; lia.
    - destruct (num_of v) as [a|]; [|discriminate]. apply andb_true_iff in Lv. rewrite !Qle_bool_iff in Lv. destruct W as (W & _). apply (N lo hi log a); tauto.
  Qed.

  (** Full statement: for every legal vector entry.  False of categorical and ordinal
      hyperparameters, see [C111_vector_refuted], and of integers on a logarithmic scale. *)
  Theorem C111_vector_partial h x : (forall s, ~ lists_values h s) -> (forall lo hi d, hp_kind h <> KInt lo hi true d) ->
    legal_vector h x = true -> exists q, fsame x (Fin q) /\ (lower_vectorized h <= q)%Q /\ (q <= upper_vectorized h)%Q.
  Proof.
    intros Ns Nl Lx. unfold legal_vector in Lx. unfold lower_vectorized, upper_vectorized. destruct (hp_kind h) as [c w|c|u|lo hi log d|lo hi log d] eqn:K.
    - destruct (Ns c (LV_cat _ _ _ K)).
    - destruct (Ns c (LV_ord _ _ K)).
    - exists 1%Q. split; [|split; lra]. destruct x; simpl in *; try discriminate. apply Qeq_bool_iff. exact Lx.
    - destruct x as [q| | |]; try discriminate. exists q. destruct log; [destruct (Nl lo hi d eq_refl)|]. apply andb_true_iff in Lx. destruct Lx as [_ Lx].
      apply andb_true_iff in Lx. rewrite !Qle_bool_iff in Lx. split; [simpl; reflexivity|exact Lx].
    - destruct x as [q| | |]; try discriminate. exists q. apply andb_true_iff in Lx. rewrite !Qle_bool_iff in Lx. split; [simpl; reflexivity|exact Lx].
  Qed.

  (** entries outside of the bounds are never drawn *)
  Theorem C111_sampled h r : constructed h -> raw_ok h r -> within h (sample_vector h r).
  Proof.
    intros C R. assert (W := constructed_wf h C). unfold wf_hp in W. assert (R' := R). destruct R as (R1 & R2 & R3 & _). unfold within, lower_vectorized, upper_vectorized.
    assert (G : forall lo hi lg x, lo < hi -> (lg = true -> 0 < lo) -> exists q, Fin (disc_quantize lo hi lg x) = Fin q /\ (0 <= q)%Q /\ (q <= 1)%Q).
    { intros lo hi lg x H1 H2. eexists. split; [reflexivity|]. destruct (disc_grid lo hi lg x H1 H2) as (w & Hw & Q). rewrite Q. unfold enc.
      apply unit_norm_range; [apply bounds_int; auto|intros e; apply inject_Z_pos; specialize (H2 e); lia|]. split; apply inject_Z_le; lia. }
    destruct (hp_kind h) as [c [ws|]|c|u|lo hi log d|lo hi log d] eqn:K.
    - destruct (C41_weighted h c ws r C K R') as (i & v & -> & N & _). eexists. split; [reflexivity|]. apply seq_within. apply nth_error_Some. congruence.
    - unfold sample_vector. rewrite K. eexists. split; [reflexivity|]. specialize (R1 (Z.of_nat (length c))). unfold hp_size in R1. rewrite K in R1. specialize (R1 eq_refl).
      split; [change 0%Q with (inject_Z 0)|]; apply inject_Z_le; lia.
    - unfold sample_vector. rewrite K. eexists. split; [reflexivity|]. specialize (R1 (Z.of_nat (length c))). unfold hp_size in R1. rewrite K in R1. specialize (R1 eq_refl).
      split; [change 0%Q with (inject_Z 0)|]; apply inject_Z_le; lia.
    - unfold sample_vector. rewrite K. eexists. split; [reflexivity|]. split; lra.
    - destruct W as (W1 & W2 & _). unfold sample_vector. rewrite K. destruct log; [apply G; [exact W1|intros _; auto]|].
      destruct d; try (apply G; [exact W1|discriminate]). eexists. split; [reflexivity|].
      specialize (R1 (hi - lo + 1)). unfold hp_size in R1. rewrite K in R1. specialize (R1 eq_refl). replace (hi - lo + 1 - 1) with (hi - lo) by lia.
      assert (P := size_pos lo hi W1). assert (A : (0 <= inject_Z (raw_int r))%Q) by (change 0%Q with (inject_Z 0); apply inject_Z_le; lia).
      assert (B : (inject_Z (raw_int r) <= inject_Z (hi - lo))%Q) by (apply inject_Z_le; lia).
      split; [apply Qle_shift_div_l; lra|apply Qle_shift_div_r; lra].
    - unfold sample_vector. rewrite K. eexists. split; [reflexivity|]. split; assumption.
  Qed.

  (** both bounds are entries of legal values, and convert back to them *)
  Theorem C111_reached h : constructed h ->
    (exists v x, legal_value h v = true /\ exact_value h v /\ to_vector h v = Ok x /\ fsame x (Fin (lower_vectorized h))) /\
    (exists v x, legal_value h v = true /\ exact_value h v /\ to_vector h v = Ok x /\ fsame x (Fin (upper_vectorized h))).
  Proof.
    intros C. assert (W := constructed_wf h C). unfold wf_hp in W. unfold lower_vectorized, upper_vectorized.
    assert (G : forall s, lists_values h s -> s <> [] -> forall i, (i < length s)%nat ->
      exists v x, legal_value h v = true /\ exact_value h v /\ to_vector h v = Ok x /\ fsame x (Fin (inject_Z (Z.of_nat i)))).
    { intros s LV _ i Hi. destruct (C34_vectors_roundtrip h s i C LV Hi) as (w & _ & Ni & Lg & T). exists w. eexists. split; [|split; [|split; [exact T|simpl; reflexivity]]].
      - unfold legal_value. destruct LV as [K|ws K]; rewrite K; apply py_in_iff; exists w; (split; [exact (nth_error_In _ _ Ni)|apply py_eqb_refl]).
      - unfold exact_value. destruct LV as [K|ws K]; rewrite K; exact Logic.I. }
    assert (N : forall lo hi log, bounds_ok lo hi log -> (unit_norm lo hi log lo == 0)%Q /\ (unit_norm lo hi log hi == 1)%Q).
    { intros lo hi log [B1 B2]. unfold unit_norm. destruct log; rewrite !normalize_eq; [|split; field; lra].
      assert (X := flog_lt lo hi (B2 eq_refl) B1). split; field; lra. }
    destruct (hp_kind h) as [c w|c|u|lo hi log d|lo hi log d] eqn:K.
    - destruct W as (W & _). split; [apply (G c (LV_cat _ _ _ K) W 0%nat)|]; [destruct c; [congruence|simpl; lia]|].
      assert (Lc : (0 < length c)%nat) by (destruct c; [congruence|simpl; lia]). replace (Z.of_nat (length c) - 1) with (Z.of_nat (length c - 1)) by lia.
      apply (G c (LV_cat _ _ _ K) W). destruct c; [congruence|simpl; lia].
    - destruct W as (W & _). split; [apply (G c (LV_ord _ _ K) W 0%nat)|]; [destruct c; [congruence|simpl; lia]|].
      assert (Lc : (0 < length c)%nat) by (destruct c; [congruence|simpl; lia]). replace (Z.of_nat (length c) - 1) with (Z.of_nat (length c - 1)) by lia.
      apply (G c (LV_ord _ _ K) W). destruct c; [congruence|simpl; lia].
    - split; exists u, (Fin 1); unfold legal_value, exact_value, to_vector; rewrite K, py_eqb_refl; (split; [reflexivity|split; [exact I|split; [reflexivity|simpl; reflexivity]]]).
    - destruct W as (W1 & W2 & _). destruct (N (inject_Z lo) (inject_Z hi) log (proj2 (bounds_int lo hi log) (conj W1 W2))) as [N1 N2].
      assert (M : forall z, lo <= z <= hi -> legal_value h (VInt z) = true /\ exact_value h (VInt z) /\ to_vector h (VInt z) = Ok (Fin (unit_norm (inject_Z lo) (inject_Z hi) log (inject_Z z)))).
      { intros z Hz. unfold legal_value, exact_value, to_vector. rewrite K. simpl num_of. cbv iota. split; [|split].
        - rewrite (legal_int_Z lo hi z _ (Qeq_refl _)). apply andb_true_iff. lia.
        - exists (inject_Z z), z. split; reflexivity.
        - rewrite unit_to_vector_fin by (intros e; apply inject_Z_pos; specialize (W2 e); lia). reflexivity. }
      split; [destruct (M lo) as (M1 & M2 & M3); [lia|]|destruct (M hi) as (M1 & M2 & M3); [lia|]]; eexists; eexists; (split; [exact M1|]); (split; [exact M2|]); (split; [exact M3|]); assumption.
    - destruct W as (W & _). destruct (N lo hi log W) as [N1 N2]. destruct W as [B1 B2].
      split; [exists (VFloat lo)|exists (VFloat hi)]; eexists; unfold legal_value, exact_value, to_vector; rewrite K; simpl num_of; cbv iota;
      (split; [apply andb_true_iff; rewrite !Qle_bool_iff; lra|]); (split; [exact I|]); rewrite unit_to_vector_fin by (intros e; specialize (B2 e); lra);
      (split; [reflexivity|]); assumption.
  Qed.
End Bounds.

(** ** C112 *)
Section Spread.
  Context {E : Env} {L : EnvLaws E}.

  (** the limits of the truncated distribution are the bounds of the vector entries *)
  Theorem C112_support lo hi mu sigma log t : normal_dist lo hi mu sigma log = Ok t -> ~ (tn_scale t == 0)%Q ->
    (tn_loc t + tn_scale t * tn_a t == 0)%Q /\ (tn_loc t + tn_scale t * tn_b t == 1)%Q.
  Proof.
    unfold normal_dist. intros H. destruct (unit_to_vector lo hi log mu); try discriminate. injection H as <-. cbn [tn_scale tn_loc tn_a tn_b].
    intros S. split; field; exact S.
  Qed.

  (** Full statement: on every scale.  On a linear scale the distance of any two values that
      differ by sigma is the scale of the distribution. *)
  Theorem C112_spread_partial h lo hi mu sigma v : constructed h -> hp_kind h = KFloat lo hi false (DNormal mu sigma) ->
    exists t x y, normal_dist lo hi mu sigma false = Ok t /\ to_vector h (VFloat v) = Ok (Fin x) /\ to_vector h (VFloat (v + sigma)) = Ok (Fin y) /\
      (y - x == tn_scale t)%Q /\ to_vector h (VFloat mu) = Ok (Fin (tn_loc t)).
  Proof.
    intros C K. assert (W := constructed_wf h C). unfold wf_hp in W. rewrite K in W. destruct W as ((W & _) & _).
    unfold normal_dist, to_vector. rewrite K. simpl num_of. cbn [unit_to_vector]. eexists. eexists. eexists. split; [reflexivity|]. split; [reflexivity|]. split; [reflexivity|].
    split; [|reflexivity]. cbn [tn_scale vectorize_size]. rewrite !normalize_eq. field. lra.
  Qed.

  (** ... and on a logarithmic scale the distance of the lower bound and the value sigma above it,
      if the logarithm of the lower bound is zero *)
  Theorem C112_log_partial h lo hi mu sigma : constructed h -> hp_kind h = KFloat lo hi true (DNormal mu sigma) -> (0 <= sigma)%Q -> (flog lo == 0)%Q -> (0 < mu)%Q ->
    exists t x y, normal_dist lo hi mu sigma true = Ok t /\ to_vector h (VFloat lo) = Ok (Fin x) /\ to_vector h (VFloat (lo + sigma)) = Ok (Fin y) /\
      (y - x == tn_scale t)%Q /\ to_vector h (VFloat mu) = Ok (Fin (tn_loc t)).
  Proof.
    intros C K S Z M. assert (W := constructed_wf h C). unfold wf_hp in W. rewrite K in W. destruct W as ((W & P) & _). specialize (P eq_refl).
    unfold normal_dist, to_vector. rewrite K. simpl num_of. cbv iota. rewrite !unit_to_vector_fin by (intros _; lra).
    eexists. eexists. eexists. split; [reflexivity|]. split; [reflexivity|]. split; [reflexivity|]. split; [|reflexivity].
    cbn [tn_scale vectorize_size]. unfold unit_norm. rewrite !normalize_eq. assert (X := flog_lt lo hi P W).
    assert (Y : (0 <= flog (lo + sigma))%Q).
    { destruct (Qlt_le_dec lo (lo + sigma)) as [G|G]; [assert (F := flog_lt lo (lo + sigma) P G); lra|]. assert (G2 : (lo + sigma == lo)%Q) by lra. rewrite (flog_comp _ _ G2). lra. }
    rewrite Qabs_pos; [rewrite Z; field; lra|]. apply Qle_shift_div_l; lra.
  Qed.

  (** in other units (all four numbers multiplied) the distribution over the vector entries is the same *)
  Theorem C112_units_partial lo hi mu sigma c t : (lo < hi)%Q -> (0 < c)%Q -> normal_dist lo hi mu sigma false = Ok t ->
    exists t', normal_dist (c * lo) (c * hi) (c * mu) (c * sigma) false = Ok t' /\ (tn_loc t' == tn_loc t)%Q /\ (tn_scale t' == tn_scale t)%Q.
  Proof.
    unfold normal_dist. cbn [unit_to_vector vectorize_size]. intros H P T. injection T as <-. eexists. split; [reflexivity|]. cbn [tn_loc tn_scale]. rewrite !normalize_eq.
    assert (~ (c * hi - c * lo == 0)%Q). { assert (Q : (c * hi - c * lo == c * (hi - lo))%Q) by ring. rewrite Q. assert (0 < c * (hi - lo))%Q; [|lra]. rewrite <- (Qmult_0_r c). apply Qmult_lt_l; lra. }
    split; field; split; lra.
  Qed.

  (** The code divides log(lower + sigma) instead of log(lower + sigma) - log(lower).  For every
      logarithm with log(1) = 0 a normal hyperparameter from 0.5 to 2 with sigma 0.5 is accepted, but has a
      distribution of scale 0, although the values 0.5 and 1 have different entries. *)
  Definition flat_normal : hp := mk_hp "x" (KFloat (round13 (1#2)) (round13 2) true (DNormal (round13 1) (round13 (1#2)))) (VFloat (round13 (round13 1))) None.
  Theorem C112_log_refuted : (flog 1 == 0)%Q ->
    exists h lo hi mu sigma t x y, mk_normal_float "x" 1 (1#2) (1#2) 2 None true None = Ok h /\ constructed h /\ hp_kind h = KFloat lo hi true (DNormal mu sigma) /\
      (lo == 1#2)%Q /\ (hi == 2)%Q /\ (sigma == 1#2)%Q /\
      normal_dist lo hi mu sigma true = Ok t /\ (tn_scale t == 0)%Q /\
      to_vector h (VFloat lo) = Ok (Fin x) /\ to_vector h (VFloat (lo + sigma)) = Ok (Fin y) /\ (x < y)%Q.
  Proof.
    intros F. assert (M : mk_normal_float "x" 1 (1#2) (1#2) 2 None true None = Ok flat_normal) by (vm_compute; reflexivity).
    exists flat_normal, (round13 (1#2)), (round13 2), (round13 1), (round13 (1#2)).
    assert (A : (round13 (1#2) == 1#2)%Q) by (vm_compute; reflexivity). assert (B : (round13 2 == 2)%Q) by (vm_compute; reflexivity). assert (D : (round13 1 == 1)%Q) by (vm_compute; reflexivity).
    set (lo := round13 (1#2)) in *. set (hi := round13 2) in *. set (mu := round13 1) in *.
    unfold normal_dist, to_vector. change (hp_kind flat_normal) with (KFloat lo hi true (DNormal mu lo)). cbv iota. cbn [num_of]. cbv iota. rewrite !unit_to_vector_fin by (intros _; lra).
    eexists. eexists. eexists. split; [exact M|]. split; [apply (CtorNFloat _ _ _ _ _ _ _ _ _ M)|]. split; [reflexivity|]. split; [exact A|]. split; [exact B|]. split; [exact A|].
    split; [reflexivity|]. assert (X : (flog lo < flog hi)%Q) by (apply flog_lt; lra). split; [|split; [reflexivity|split; [reflexivity|]]].
    - cbn [tn_scale vectorize_size]. assert (Q : (lo + lo == 1)%Q) by lra. rewrite (flog_comp _ _ Q), F. assert (Z0 : (0 / (flog hi - flog lo) == 0)%Q) by (field; lra). rewrite Z0. reflexivity.
    - apply unit_norm_lt; [split; [lra|intros _; lra]|intros _; lra|lra].
  Qed.
End Spread.

Section BoundCases.
  #[local] Existing Instance rat_env.
  #[local] Existing Instance rat_env_laws.

  (** a legal value above the upper bound of an integer *)
  Theorem C111_value_refuted : exists h v x q, constructed h /\ legal_value h v = true /\ to_vector h v = Ok x /\ x = Fin q /\ (upper_vectorized h < q)%Q.
  Proof. exists hK, (VFloat (10 + (1#100000000000))). do 2 eexists. split; [apply hK_c|]. split; [vm_compute; reflexivity|]. split; [vm_compute; reflexivity|]. split; [reflexivity|]. vm_compute. reflexivity. Qed.
  (** a legal entry of a categorical hyperparameter above the upper bound *)
  Theorem C111_vector_refuted : exists h q, constructed h /\ legal_vector h (Fin q) = true /\ (upper_vectorized h < q)%Q.
  Proof. exists hA, (2 + (1#100000000000))%Q. split; [apply hA_c|]. split; [vm_compute; reflexivity|]. vm_compute. reflexivity. Qed.
  (** the constructors accept a negative sigma, and the scale of the distribution is negative *)
  Theorem C112_sigma_refuted : exists h lo hi mu sigma t, mk_normal_float "x" 1 (-1) 0 2 None false None = Ok h /\ constructed h /\
    hp_kind h = KFloat lo hi false (DNormal mu sigma) /\ normal_dist lo hi mu sigma false = Ok t /\ (tn_scale t < 0)%Q.
  Proof.
    do 6 eexists. split; [vm_compute; reflexivity|]. split; [apply (CtorNFloat "x" 1 (-1) 0 2 None false None); vm_compute; reflexivity|].
    split; [reflexivity|]. split; [vm_compute; reflexivity|]. vm_compute. reflexivity.
  Qed.

  Example C111_ex : constructed hO /\ (upper_vectorized hO == 2)%Q /\ constructed hE /\ (lower_vectorized hE == 1)%Q /\
    legal_value hK (VInt 10) = true /\ exact_value hK (VInt 10) /\ legal_vector hK (Fin (4#9)) = true.
  Proof.
    split; [apply hO_c|]. split; [reflexivity|]. split; [apply hE_c|]. split; [reflexivity|]. split; [reflexivity|].
    split; [exists 10%Q, 10; split; reflexivity|vm_compute; reflexivity].
  Qed.
  Definition w_normal := get_or dummy_hp (mk_normal_float "x" 1 (1#2) 0 2 None false None).
  Example C112_ex : constructed w_normal /\ exists lo hi mu sigma t, hp_kind w_normal = KFloat lo hi false (DNormal mu sigma) /\
    normal_dist lo hi mu sigma false = Ok t /\ (tn_loc t == 1#2)%Q /\ (tn_scale t == 1#4)%Q /\ (tn_a t == -2)%Q /\ (tn_b t == 2)%Q.
  Proof.
    split; [apply (CtorNFloat "x" 1 (1#2) 0 2 None false None); vm_compute; reflexivity|].
    do 5 eexists. split; [vm_compute; reflexivity|]. split; [vm_compute; reflexivity|]. repeat split; reflexivity.
  Qed.
End BoundCases.

(** the hypotheses about the logarithm can be met *)
Example C112_log_ex : (@flog bent_env 1 == 0)%Q /\ EnvLaws bent_env.
Proof. split; [reflexivity|apply bent_env_laws]. Qed.
