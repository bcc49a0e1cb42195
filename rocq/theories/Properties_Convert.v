(** * Properties C92, C93: to_float of integer hyperparameters, and the order of an ordinal *)
From Coq Require Import String List ZArith QArith Qround Qabs Bool Lia Lqa.
From Verif Require Import Base ListFacts Numeric NumericProofs HP HPProofs EqFacts Properties_HP Properties_Ctor Properties_Args Api Properties_Exchange Properties_Api Properties_Serial Convert.
Import ListNotations.
Open Scope nat_scope.

Section ToFloat.
  Context {E : Env} {L : EnvLaws E}.
  Open Scope Z_scope.

  Lemma round13_Z z : (round13 (inject_Z z) == inject_Z z)%Q.
  Proof.
    unfold round13. rewrite <- inject_Z_mult, rint_Z, inject_Z_mult. field. assert (P := ten13_pos). lra.
  Qed.
  Lemma float_range_Z lo hi log : lo < hi -> (log = true -> 0 < lo) -> float_range (inject_Z lo) (inject_Z hi) log.
  Proof.
    intros H P. unfold float_range. rewrite !round13_Z. split; [rewrite <- Zlt_Qlt; exact H|]. intros K. change 0%Q with (inject_Z 0). rewrite <- Zlt_Qlt. auto.
  Qed.
  Lemma float_default_Z lo hi z : lo <= z <= hi -> float_default (Some (inject_Z z)) (inject_Z lo) (inject_Z hi).
  Proof. intros [H1 H2] x Q. injection Q as <-. rewrite !round13_Z, <- !Zle_Qle. auto. Qed.

  Lemma int_facts h lo hi log d : constructed h -> hp_kind h = KInt lo hi log d ->
    lo < hi /\ (log = true -> 0 < lo) /\ (exists z, hp_default h = VInt z /\ lo <= z <= hi) /\
    match d with DUniform => True | DNormal mu _ => log = true -> (0 < mu)%Q | DBeta a b => (1 <= a)%Q /\ (1 <= b)%Q end.
  Proof.
    intros C K. assert (W := C37_domain_nonempty h C). rewrite K in W. destruct W as (W0 & W1 & W2).
    split; [exact W0|]. split; [exact W1|]. split; [exact W2|]. destruct d as [|mu s|a b]; auto.
    - destruct C as [n c d w m h H|n c d m h H|n v m h H|n l u d g m h H|n mu' s' l u d g m h H|n a' b' l u d g m h H|n l u d g m h H
        |n mu' s' l u d g m h H|n a' b' l u d g m h H].
      + apply C61_categorical in H. destruct H as (_ & H & _). congruence.
      + apply C61_ordinal in H. destruct H as (_ & H & _). congruence.
      + apply C61_constant in H. destruct H as (_ & H & _). congruence.
      + apply C61_uniform_int_partial in H. destruct H as (_ & ? & ? & ? & H & _). congruence.
      + assert (H' := ex_intro (fun h => mk_normal_int n mu' s' l u d g m = Ok h) _ H). apply C77_normal_int in H'. apply C61_normal_int in H.
        destruct H as (_ & ? & ? & ? & H & _). rewrite K in H. injection H as _ _ -> -> _. apply H'.
      + apply C61_beta_int in H. destruct H as (_ & ? & ? & ? & H & _). congruence.
      + apply C61_uniform_float in H. destruct H as (_ & ? & ? & ? & H & _). congruence.
      + apply C61_normal_float in H. destruct H as (_ & ? & ? & ? & ? & ? & H & _). congruence.
      + apply C61_beta_float in H. destruct H as (_ & ? & ? & ? & ? & ? & H & _). congruence.
    - destruct C as [n c d w m h H|n c d m h H|n v m h H|n l u d g m h H|n mu' s' l u d g m h H|n a' b' l u d g m h H|n l u d g m h H
        |n mu' s' l u d g m h H|n a' b' l u d g m h H].
      + apply C61_categorical in H. destruct H as (_ & H & _). congruence.
      + apply C61_ordinal in H. destruct H as (_ & H & _). congruence.
      + apply C61_constant in H. destruct H as (_ & H & _). congruence.
      + apply C61_uniform_int_partial in H. destruct H as (_ & ? & ? & ? & H & _). congruence.
      + apply C61_normal_int in H. destruct H as (_ & ? & ? & ? & H & _). congruence.
      + assert (H' := ex_intro (fun h => mk_beta_int n a' b' l u d g m = Ok h) _ H). apply C77_beta_int in H'. apply C61_beta_int in H.
        destruct H as (_ & ? & ? & ? & H & _). rewrite K in H. injection H as _ _ -> -> ->. apply H'.
      + apply C61_uniform_float in H. destruct H as (_ & ? & ? & ? & H & _). congruence.
      + apply C61_normal_float in H. destruct H as (_ & ? & ? & ? & ? & ? & H & _). congruence.
      + apply C61_beta_float in H. destruct H as (_ & ? & ? & ? & ? & ? & H & _). congruence.
  Qed.

  (** the distribution, its parameters up to half a unit in the 13th decimal *)
  Definition same_dist (d d' : dist) : Prop :=
    match d, d' with
    | DUniform, DUniform => True
    | DNormal mu s, DNormal mu' s' => near13 mu mu' /\ near13 s s'
    | DBeta a b, DBeta a' b' => near13 a a' /\ near13 b b'
    | _, _ => False
    end.

  Lemma legal_float_Z k lo hi a b log d z : hp_kind k = KFloat a b log d -> (a == inject_Z lo)%Q -> (b == inject_Z hi)%Q ->
    (legal_value k (VInt z) = true <-> lo <= z <= hi) /\ forall q, legal_value k (VFloat q) = true <-> (inject_Z lo <= q <= inject_Z hi)%Q.
  Proof.
    intros K A B. unfold legal_value. rewrite K. simpl. split; [|intros q]; rewrite andb_true_iff, !Qle_bool_iff, A, B; [rewrite <- !Zle_Qle|]; tauto.
  Qed.

  (** every integer hyperparameter can be converted; name, bounds, scale, default and distribution stay,
      and the integers that are values are the same *)
  Theorem C92_to_float h lo hi log d : constructed h -> hp_kind h = KInt lo hi log d -> exists k a b d' x z,
    to_float_hp h = Ok k /\ hp_name k = hp_name h /\ hp_kind k = KFloat a b log d' /\ (a == inject_Z lo)%Q /\ (b == inject_Z hi)%Q /\ same_dist d d' /\
    hp_default k = VFloat x /\ hp_default h = VInt z /\ (x == inject_Z z)%Q /\
    (forall i, legal_value k (VInt i) = legal_value h (VInt i)) /\
    (forall q, legal_value k (VFloat q) = true <-> (inject_Z lo <= q <= inject_Z hi)%Q).
  Proof.
    intros C K. destruct (int_facts h lo hi log d C K) as (R & P & (z & D & Rz) & S).
    assert (FR := float_range_Z lo hi log R P). assert (FD := float_default_Z lo hi z Rz).
    assert (G : exists k a b d' x, to_float_hp h = Ok k /\ hp_name k = hp_name h /\ hp_kind k = KFloat a b log d' /\ (a == inject_Z lo)%Q /\ (b == inject_Z hi)%Q /\
      same_dist d d' /\ hp_default k = VFloat x /\ (x == inject_Z z)%Q).
    { unfold to_float_hp. rewrite K, D. cbn [num_of]. destruct d as [|mu s|al be].
      - destruct (proj2 (C77_uniform_float (hp_name h) (inject_Z lo) (inject_Z hi) (Some (inject_Z z)) log (hp_meta h)) (conj FR FD)) as (k & Hk). exists k.
        revert Hk. unfold mk_uniform_float. cbv zeta. intro H. assert (H0 := H). apply if_check in H. destruct H as [_ H]. apply finish_ok in H. destruct H as [-> _].
        do 4 eexists. split; [exact H0|]. split; [reflexivity|]. split; [reflexivity|]. split; [apply round13_Z|]. split; [apply round13_Z|]. split; [exact I|]. split; [reflexivity|apply round13_Z].
      - destruct (proj2 (C77_normal_float (hp_name h) mu s (inject_Z lo) (inject_Z hi) (Some (inject_Z z)) log None) (conj S (conj FR FD))) as (k & Hk). exists k.
        revert Hk. unfold mk_normal_float. cbv zeta. intro H. assert (H0 := H). apply if_check in H. destruct H as [_ H]. apply if_check in H. destruct H as [_ H]. apply finish_ok in H. destruct H as [-> _].
        do 4 eexists. split; [exact H0|]. split; [reflexivity|]. split; [reflexivity|]. do 2 (split; [apply round13_Z|]).
        split; [split; apply near13_round|]. split; [reflexivity|apply round13_Z].
      - destruct (proj2 (C77_beta_float (hp_name h) al be (inject_Z lo) (inject_Z hi) (Some (inject_Z z)) log None) (conj S (conj FR FD))) as (k & Hk). exists k.
        revert Hk. unfold mk_beta_float. cbv zeta. intro H. assert (H0 := H). apply if_check in H. destruct H as [_ H]. apply if_check in H. destruct H as [_ H]. apply finish_ok in H. destruct H as [-> _].
        do 4 eexists. split; [exact H0|]. split; [reflexivity|]. split; [reflexivity|]. do 2 (split; [apply round13_Z|]).
        split; [split; apply near13_round|]. split; [reflexivity|apply round13_Z]. }
    destruct G as (k & a & b & d' & x & G1 & G2 & G3 & G4 & G5 & G6 & G7 & G8). exists k, a, b, d', x, z.
    repeat (split; [assumption|]). destruct (legal_float_Z k lo hi a b log d' 0 G3 G4 G5) as [_ Lq]. split; [|exact Lq].
    intros i. destruct (legal_float_Z k lo hi a b log d' i G3 G4 G5) as [Li _]. assert (Lh := int_legal h lo hi log d i K).
    destruct (legal_value k (VInt i)), (legal_value h (VInt i)); try reflexivity; [symmetry; apply Lh, Li; reflexivity|apply Li, Lh; reflexivity].
  Qed.
  (** meta data: only the uniform ones hand theirs on *)
  Theorem C92_meta h lo hi log d k : hp_kind h = KInt lo hi log d -> to_float_hp h = Ok k ->
    hp_meta k = match d with DUniform => hp_meta h | _ => None end.
  Proof.
    intros K. unfold to_float_hp. rewrite K. destruct (num_of (hp_default h)) as [x|]; [|discriminate]. destruct d as [|mu s|a b]; intros H.
    - apply C61_uniform_float in H. apply H.
    - apply C61_normal_float in H. apply H.
    - apply C61_beta_float in H. apply H.
  Qed.

  (** there and back: only the meta data are lost. Missing: parameters of the distribution with more
      than 13 decimals, see C92_back_refuted *)
  Definition exact13 (d : dist) : Prop :=
    match d with DUniform => True | DNormal a b | DBeta a b => (round13 a == a)%Q /\ (round13 b == b)%Q end.
  Definition dist_same (d d' : dist) : Prop :=
    match d, d' with
    | DUniform, DUniform => True
    | DNormal mu s, DNormal mu' s' => (mu' == mu)%Q /\ (s' == s)%Q
    | DBeta a b, DBeta a' b' => (a' == a)%Q /\ (b' == b)%Q
    | _, _ => False
    end.
  Theorem C92_back_partial h lo hi log d : constructed h -> hp_kind h = KInt lo hi log d -> exact13 d -> exists k h' d',
    to_float_hp h = Ok k /\ to_integer k = Ok h' /\ hp_name h' = hp_name h /\ hp_kind h' = KInt lo hi log d' /\ dist_same d d' /\
    hp_default h' = hp_default h /\ hp_meta h' = None.
  Proof.
    intros C K Ex. destruct (int_facts h lo hi log d C K) as (R & P & (z0 & D0 & Rz) & S).
    destruct (C92_to_float h lo hi log d C K) as (k & a & b & d' & x & z & G1 & G2 & G3 & G4 & G5 & G6 & G7 & G8 & G9 & _).
    rewrite D0 in G8. injection G8 as <-.
    assert (Ck : constructed k).
    { unfold to_float_hp in G1. rewrite K, D0 in G1. cbn [num_of] in G1. destruct d; [eapply CtorUFloat|eapply CtorNFloat|eapply CtorBFloat]; exact G1. }
    assert (Dd : dist_same d d').
    { unfold to_float_hp in G1. rewrite K, D0 in G1. cbn [num_of] in G1. destruct d as [|mu s|al be].
      - apply C61_uniform_float in G1. destruct G1 as (_ & ? & ? & ? & H & _). rewrite G3 in H. injection H as _ _ ->. exact I.
      - unfold mk_normal_float in G1. cbv zeta in G1. apply if_check in G1. destruct G1 as [_ G1]. apply if_check in G1. destruct G1 as [_ G1]. apply finish_ok in G1. destruct G1 as [-> _].
        cbn in G3. injection G3 as _ _ <-. exact Ex.
      - unfold mk_beta_float in G1. cbv zeta in G1. apply if_check in G1. destruct G1 as [_ G1]. apply if_check in G1. destruct G1 as [_ G1]. apply finish_ok in G1. destruct G1 as [-> _].
        cbn in G3. injection G3 as _ _ <-. exact Ex. }
    assert (Rx : rint x = z0) by (rewrite (rint_proper _ _ G9); apply rint_Z).
    assert (Ac : exists h', to_integer k = Ok h').
    { apply (C79_accepts k a b log d' x Ck G3 G7). split; [exists lo, hi; rewrite G4, G5; split; [exact R|split; apply Qle_refl]|].
      split; [rewrite Rx, G4, G5, <- !Zle_Qle; exact Rz|]. unfold proper_mean. destruct d as [|mu s|al be], d' as [|mu' s'|al' be']; cbn [dist_same] in Dd; try destruct Dd; auto.
      intros Hl. rewrite H. apply S, Hl. }
    destruct Ac as (h' & Hh). exists k, h', d'. split; [exact G1|]. split; [exact Hh|].
    destruct (C79_result k a b log d' x h' G3 G7 Hh) as (N & M & _). split; [congruence|].
    rewrite (to_integer_eq k a b log d' x G3 G7), Rx in Hh.
    assert (Ca : Qceiling a = lo) by (rewrite G4; apply Qceiling_Z). assert (Cb : Qfloor b = hi) by (rewrite G5; apply Qfloor_Z). rewrite Ca, Cb in Hh.
    assert (F : hp_kind h' = KInt lo hi log d' /\ hp_default h' = VInt z0).
    { destruct d' as [|mu s|al be].
      - apply C61_uniform_int_partial in Hh. destruct Hh as (_ & l & u & z & A1 & A2 & A3 & A4 & A5 & _). apply nearest_Z in A3, A4. subst.
        split; [exact A1|]. rewrite A2. f_equal. apply inject_Z_injective. apply A5; [reflexivity|]. rewrite Qfloor_Z. reflexivity.
      - apply C61_normal_int in Hh. destruct Hh as (_ & l & u & z & A1 & A2 & A3 & A4 & A5 & _). apply nearest_Z in A3, A4. subst.
        split; [exact A1|]. rewrite A2. f_equal. apply nearest_Z, A5. reflexivity.
      - apply C61_beta_int in Hh. destruct Hh as (_ & l & u & z & A1 & A2 & A3 & A4 & A5). apply nearest_Z in A3, A4. subst.
        split; [exact A1|]. rewrite A2. f_equal. apply nearest_Z, A5. reflexivity. }
    destruct F as [F1 F2]. rewrite D0. auto.
  Qed.
End ToFloat.

(** ** C93: the order of an ordinal *)
Section Order.
  Context {E : Env} {L : EnvLaws E}.
  Open Scope nat_scope.

  Lemma ord_nodup h s : constructed h -> hp_kind h = KOrd s -> has_dup s = false.
  Proof. intros C K. apply constructed_wf in C. unfold wf_hp in C. rewrite K in C. apply C. Qed.

  (** get_order is the position of the value; ValueError for others *)
  Theorem C93_get_order h s v i : constructed h -> hp_kind h = KOrd s ->
    (get_order s v = Ok i <-> exists w, nth_error s i = Some w /\ py_eqb w v = true) /\
    ((exists i, get_order s v = Ok i) <-> legal_value h v = true) /\
    (forall e, get_order s v = Err e -> e = ValueError) /\
    (legal_value h v = true -> exists j, get_order s v = Ok j /\ to_vector h v = Ok (Fin (inject_Z (Z.of_nat j)))).
  Proof.
    intros C K. assert (Nd := ord_nodup h s C K). unfold get_order. split; [|split; [|split]].
    - split.
      + destruct (py_index v s) as [j|] eqn:Q; [|discriminate]. intros H. injection H as <-. apply py_index_some in Q. destruct Q as (w & Q1 & Q2 & _). eauto.
      + intros (w & Q1 & Q2). rewrite <- (py_index_congr w v s Q2), (py_index_nth s i w Nd Q1). reflexivity.
    - unfold legal_value. rewrite K. destruct (py_index v s) as [j|] eqn:Q.
      + split; [|eauto]. intros _. destruct (py_in v s) eqn:P; [reflexivity|]. apply py_index_none in P. congruence.
      + apply py_index_none in Q. rewrite Q. split; [intros (j & H)|intros H]; discriminate.
    - intros e. destruct (py_index v s); congruence.
    - unfold legal_value, to_vector. rewrite K. intros H. destruct (py_index v s) as [j|] eqn:Q; [eauto|]. apply py_index_none in Q. congruence.
  Qed.
  (** get_value is its inverse *)
  Theorem C93_inverse h s v i : constructed h -> hp_kind h = KOrd s -> get_order s v = Ok i ->
    exists w, get_value s (inject_Z (Z.of_nat i)) = Ok w /\ py_eqb w v = true.
  Proof.
    intros C K H. destruct (proj1 (proj1 (C93_get_order h s v i C K)) H) as (w & Q1 & Q2). exists w. split; [|exact Q2].
    unfold get_value. rewrite py_int_inject. assert (Hi : i < length s) by (apply nth_error_Some; congruence). destruct (np_index_nat s i Hi) as (u & U1 & U2). congruence.
  Qed.
  Theorem C93_position h s i : constructed h -> hp_kind h = KOrd s -> In i (get_seq_order s) ->
    exists v, get_value s (inject_Z (Z.of_nat i)) = Ok v /\ get_order s v = Ok i /\ legal_value h v = true.
  Proof.
    intros C K H. apply in_seq in H. destruct H as [_ H]. change (0 + length s) with (length s) in H. destruct (np_index_nat s i H) as (v & V1 & V2). exists v. unfold get_value. rewrite py_int_inject. split; [exact V2|].
    assert (G : get_order s v = Ok i) by (apply (proj1 (C93_get_order h s v i C K)); exists v; split; [exact V1|apply py_eqb_refl]).
    split; [exact G|]. apply (proj1 (proj2 (C93_get_order h s v i C K))). eauto.
  Qed.
  (** check_order is the strict order of the positions *)
  Theorem C93_check_order h s v w b : constructed h -> hp_kind h = KOrd s ->
    (check_order s v w = Ok b <-> exists i j, get_order s v = Ok i /\ get_order s w = Ok j /\ (b = true <-> i < j)).
  Proof.
    intros C K. unfold check_order. destruct (get_order s v) as [i|e]; cbn [bind].
    - destruct (get_order s w) as [j|e]; cbn [bind].
      + split.
        * intros H. injection H as <-. exists i, j. split; [reflexivity|]. split; [reflexivity|]. apply Nat.ltb_lt.
        * intros (i' & j' & Hi & Hj & H). injection Hi as <-. injection Hj as <-. f_equal. rewrite <- Nat.ltb_lt in H. destruct (i <? j), b; try reflexivity; [symmetry; apply H; reflexivity|apply H; reflexivity].
      + split; [discriminate|]. intros (i' & j' & _ & Hj & _). discriminate.
    - split; [discriminate|]. intros (i' & j' & Hi & _). discriminate.
  Qed.
  Theorem C93_total h s v w : constructed h -> hp_kind h = KOrd s -> legal_value h v = true -> legal_value h w = true ->
    check_order s v v = Ok false /\
    ((check_order s v w = Ok true /\ check_order s w v = Ok false) \/ (check_order s w v = Ok true /\ check_order s v w = Ok false) \/
     (py_eqb v w = true /\ check_order s v w = Ok false /\ check_order s w v = Ok false)).
  Proof.
    intros C K Lv Lw. apply (proj1 (proj2 (C93_get_order h s v 0 C K))) in Lv. apply (proj1 (proj2 (C93_get_order h s w 0 C K))) in Lw.
    destruct Lv as (i & Hi), Lw as (j & Hj). unfold check_order. rewrite Hi, Hj. cbn [bind]. rewrite Nat.ltb_irrefl. split; [reflexivity|].
    destruct (Nat.ltb_spec i j) as [H|H], (Nat.ltb_spec j i) as [H'|H']; [lia|auto|auto|]. right. right. split; [|auto].
    assert (i = j) by lia. subst j. apply (C93_get_order h s v i C K) in Hi. apply (C93_get_order h s w i C K) in Hj.
    destruct Hi as (u & U1 & U2), Hj as (u' & U1' & U2'). assert (u' = u) by congruence. subst u'.
    rewrite <- (py_eqb_congr_l u v w U2). exact U2'.
  Qed.
  (** get_value truncates its argument to an integer and takes the positions [-n, n); IndexError otherwise *)
  Theorem C93_get_value s i :
    (forall v, get_value s (inject_Z i) = Ok v <-> exists p, nth_error s p = Some v /\ (i = Z.of_nat p \/ i = Z.of_nat p - Z.of_nat (length s))%Z) /\
    (forall e, get_value s (inject_Z i) = Err e <-> e = IndexError /\ ~ (- Z.of_nat (length s) <= i < Z.of_nat (length s))%Z).
  Proof.
    unfold get_value. rewrite py_int_inject. unfold np_index. cbv zeta.
    assert (B : forall p v, nth_error s p = Some v -> (p < length s)%nat) by (intros p v H; apply nth_error_Some; congruence).
    set (n := Z.of_nat (length s)) in *. set (j := if (i <? 0)%Z then (i + n)%Z else i).
    assert (J : (i < 0 /\ j = i + n \/ 0 <= i /\ j = i)%Z) by (unfold j; destruct (Z.ltb_spec i 0); auto).
    clearbody j. destruct (Z.leb_spec 0 j) as [H0|H0]; cbn [andb].
    - destruct (Z.ltb_spec j n) as [H1|H1].
      + destruct (nth_error s (Z.to_nat j)) as [w|] eqn:Q.
        * split.
          -- intros v. split.
             ++ intros H. injection H as <-. exists (Z.to_nat j). split; [exact Q|]. lia.
             ++ intros (p & P1 & P2). assert (Bp := B _ _ P1). assert (Z.to_nat j = p) by lia. subst p. congruence.
          -- intros e. split; [discriminate|]. intros [_ H]. lia.
        * apply nth_error_None in Q. lia.
      + split.
        * intros v. split; [discriminate|]. intros (p & P1 & P2). assert (Bp := B _ _ P1). lia.
        * intros e. split; [intros H; injection H as <-; split; [reflexivity|lia]|intros [-> _]; reflexivity].
    - split.
      + intros v. split; [discriminate|]. intros (p & P1 & P2). assert (Bp := B _ _ P1). lia.
      + intros e. split; [intros H; injection H as <-; split; [reflexivity|lia]|intros [-> _]; reflexivity].
  Qed.
  (** a negative index counts from the end *)
  Theorem C93_negative_refuted : exists s i v j, get_value s (inject_Z i) = Ok v /\ get_order s v = Ok j /\ Z.of_nat j <> i.
  Proof. exists [VStr "a"; VStr "b"], (-1)%Z, (VStr "b"), 1. repeat split. discriminate. Qed.
End Order.

Section Cases.
  #[local] Existing Instance rat_env.
  #[local] Existing Instance rat_env_laws.

  (** a log normal integer hyperparameter whose mean is below half a unit of the 13th decimal: the float
      one has mean 0, which no integer one on a log scale may have *)
  Theorem C92_back_refuted : exists h k, constructed h /\ to_float_hp h = Ok k /\ to_integer k = Err ValueError.
  Proof.
    exists (mk_hp "n" (KInt 1 9 true (DNormal (1 # 100000000000000) 1)) (VInt 3) None). eexists. split; [|split].
    - apply (CtorNInt "n" (1 # 100000000000000) 1 1 9 (Some 3%Q) true None). vm_compute. reflexivity.
    - vm_compute. reflexivity.
    - vm_compute. reflexivity.
  Qed.
  Theorem C92_meta_refuted : exists h k, constructed h /\ to_float_hp h = Ok k /\ hp_meta k <> hp_meta h.
  Proof.
    exists (mk_hp "n" (KInt 1 9 false (DNormal 4 1)) (VInt 3) (Some "m"%string)). eexists. split; [|split].
    - apply (CtorNInt "n" 4 1 1 9 (Some 3%Q) false (Some "m"%string)). vm_compute. reflexivity.
    - vm_compute. reflexivity.
    - discriminate.
  Qed.
  Example C92_case : exists h k, constructed h /\ hp_kind h = KInt (-2) 9 false (DBeta (3 # 2) 2) /\ exact13 (DBeta (3 # 2) 2) /\
    to_float_hp h = Ok k /\ legal_value k (VFloat (7 # 2)) = true /\ legal_value h (VFloat (7 # 2)) = false.
  Proof.
    exists (mk_hp "b" (KInt (-2) 9 false (DBeta (3 # 2) 2)) (VInt 3) None). eexists. split; [|split; [|split; [|split; [|split]]]].
    - apply (CtorBInt "b" (3 # 2) 2 (-2) 9 (Some 3%Q) false None). vm_compute. reflexivity.
    - reflexivity.
    - split; vm_compute; reflexivity.
    - vm_compute. reflexivity.
    - vm_compute. reflexivity.
    - vm_compute. reflexivity.
  Qed.
  Example C93_case : exists h, constructed h /\ hp_kind h = KOrd [VStr "low"; VInt 2; VStr "high"] /\
    get_order [VStr "low"; VInt 2; VStr "high"] (VFloat 2) = Ok 1 /\ check_order [VStr "low"; VInt 2; VStr "high"] (VStr "low") (VStr "high") = Ok true /\
    get_order [VStr "low"; VInt 2; VStr "high"] (VInt 3) = Err ValueError /\ get_value [VStr "low"; VInt 2; VStr "high"] (-3) = Ok (VStr "low") /\
    get_value [VStr "low"; VInt 2; VStr "high"] 3 = Err IndexError.
  Proof.
    exists (mk_hp "o" (KOrd [VStr "low"; VInt 2; VStr "high"]) (VStr "low") None). split; [|repeat split; vm_compute; reflexivity].
    apply (CtorOrd "o" [VStr "low"; VInt 2; VStr "high"] None None). vm_compute. reflexivity.
  Qed.
End Cases.
