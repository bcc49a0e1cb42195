(** * Properties C42, C48, C49: functional.py *)
From Coq Require Import List ZArith QArith Qround Qabs Bool Lia Lqa Sorting.Sorted.
From Verif Require Import Base Numeric NumericProofs.
Import ListNotations.
Open Scope Z_scope.

(** ** C42: quantize *)

(** The quantised value is one of [bins] equally spaced points of [l, u]. *)
Theorem C42_quantize_on_bins : forall x l u bins,
  (l < u)%Q -> 2 <= bins ->
  exists k, 0 <= k <= bins - 1 /\
    (quantize x l u bins == l + inject_Z k * ((u - l) / inject_Z (bins - 1)))%Q.
Proof.
  intros x l u bins H B. exists (qlevel x l u bins). split.
  - apply qlevel_range; auto.
  - rewrite quantize_level by auto. unfold scale. field.
    assert (P : (0 < inject_Z (bins - 1))%Q) by (apply inject_Z_pos; lia). lra.
Qed.

(** Each of these points is mapped to itself (so quantize is idempotent and onto). *)
Theorem C42_quantize_fixes_bins : forall l u bins k,
  (l < u)%Q -> 2 <= bins -> 0 <= k <= bins - 1 ->
  let p := (l + inject_Z k * ((u - l) / inject_Z (bins - 1)))%Q in
  (quantize p l u bins == p)%Q.
Proof.
  intros l u bins k H B K p.
  assert (P : (0 < inject_Z (bins - 1))%Q) by (apply inject_Z_pos; lia).
  assert (E : (p == bin_point l u bins k)%Q) by (unfold p, bin_point, scale; field; lra).
  rewrite (quantize_proper_x _ _ _ _ _ H B E), quantize_level by auto.
  rewrite qlevel_bin_point by auto. rewrite E. reflexivity.
Qed.

Theorem C42_quantize_idempotent : forall x l u bins,
  (l < u)%Q -> 2 <= bins ->
  (quantize (quantize x l u bins) l u bins == quantize x l u bins)%Q.
Proof.
  intros x l u bins H B. destruct (C42_quantize_on_bins x l u bins H B) as (k & K & E).
  rewrite (quantize_proper_x _ _ _ _ _ H B E), C42_quantize_fixes_bins by auto.
  rewrite E. reflexivity.
Qed.

Theorem C42_quantize_monotone : forall x y l u bins,
  (l < u)%Q -> 2 <= bins -> (x <= y)%Q ->
  (quantize x l u bins <= quantize y l u bins)%Q.
Proof.
  intros x y l u bins H B K. rewrite !quantize_level by auto.
  apply scale_le_mono; auto. apply Qdiv_le_mono.
  - apply inject_Z_pos. lia.
  - apply inject_Z_le. apply qlevel_mono; auto.
Qed.

(** Both ends are kept, and a number of the range moves by at most one bin width. *)
Theorem C42_quantize_ends : forall l u bins,
  (l < u)%Q -> 2 <= bins -> (quantize l l u bins == l)%Q /\ (quantize u l u bins == u)%Q.
Proof.
  intros l u bins H B.
  assert (P : (0 < inject_Z (bins - 1))%Q) by (apply inject_Z_pos; lia).
  assert (E0 : (l == l + inject_Z 0 * ((u - l) / inject_Z (bins - 1)))%Q)
    by (change (inject_Z 0) with 0%Q; field; lra).
  assert (E1 : (u == l + inject_Z (bins - 1) * ((u - l) / inject_Z (bins - 1)))%Q)
    by (field; lra).
  split.
  - rewrite (quantize_proper_x _ _ _ _ _ H B E0), C42_quantize_fixes_bins by (auto; lia).
    symmetry. exact E0.
  - rewrite (quantize_proper_x _ _ _ _ _ H B E1), C42_quantize_fixes_bins by (auto; lia).
    symmetry. exact E1.
Qed.

Theorem C42_quantize_error : forall x l u bins,
  (l < u)%Q -> 2 <= bins -> (l <= x)%Q -> (x <= u)%Q ->
  (Qabs (quantize x l u bins - x) <= (u - l) / inject_Z (bins - 1))%Q.
Proof. exact quantize_error. Qed.

(** Non-trivial instances: three bins of [0,1] and six bins of [5,10]. *)
Example C42_example :
  (quantize (34#100) 0 1 3 == 1#2)%Q /\ (quantize (32#100) 0 1 3 == 0)%Q /\
  (quantize (67#100) 0 1 3 == 1)%Q /\ (quantize 7 5 10 6 == 7)%Q.
Proof. repeat split; reflexivity. Qed.

(** The docstring says "to their closest bin", which is not what the code computes: 0.3 in 3 bins is 0.2 away from 1/2 and 0.3
    away from 0, but goes to 0. *)
Theorem C42_quantize_closest_refuted : exists x l u bins k,
  (l < u)%Q /\ 2 <= bins /\ (l <= x)%Q /\ (x <= u)%Q /\ 0 <= k <= bins - 1 /\
  (Qabs (l + inject_Z k * ((u - l) / inject_Z (bins - 1)) - x) < Qabs (quantize x l u bins - x))%Q.
Proof.
  exists (3#10), 0%Q, 1%Q, 3, 1. repeat split; try lia; try reflexivity; discriminate.
Qed.

(** ** C48: center_range *)

Lemma range_down_seq1 c lo step :
  range_down (c - step) (lo - 1) step =
  map (fun i => c - Z.of_nat i * step) (seq 1 (range_len (lo - 1) (c - step) step)).
Proof.
  unfold range_down. rewrite <- seq_shift, map_map. apply map_ext. intros. lia.
Qed.

Lemma arange_seq1 c hi step :
  arange (c + step) (hi + 1) step =
  map (fun i => c + Z.of_nat i * step) (seq 1 (range_len (c + step) (hi + 1) step)).
Proof.
  unfold arange. rewrite <- seq_shift, map_map. apply map_ext. intros. lia.
Qed.

Lemma roundrobin_sorted c step m n s : 0 < step ->
  StronglySorted (fun x y => Z.abs (x - c) <= Z.abs (y - c))
    (roundrobin (map (fun i => c - Z.of_nat i * step) (seq s m))
                (map (fun i => c + Z.of_nat i * step) (seq s n))).
Proof.
  intro H. revert n s. induction m as [|m IH]; intros n s; simpl.
  - revert s. induction n as [|n IHn]; intros s; simpl; constructor; auto.
    apply Forall_forall. intros x I. apply in_map_iff in I. destruct I as (i & <- & I).
    apply in_seq in I. nia.
  - destruct n as [|n]; simpl.
    + assert (G : forall k s, StronglySorted (fun x y => Z.abs (x - c) <= Z.abs (y - c))
        (map (fun i => c - Z.of_nat i * step) (seq s k))).
      { induction k as [|k IHk]; intros s'; simpl; constructor; auto.
        apply Forall_forall. intros x I. apply in_map_iff in I. destruct I as (i & <- & I).
        apply in_seq in I. nia. }
      apply (G (S m) s).
    + assert (F : Forall (fun y => Z.of_nat s * step <= Z.abs (y - c))
         (roundrobin (map (fun i => c - Z.of_nat i * step) (seq (S s) m))
                (map (fun i => c + Z.of_nat i * step) (seq (S s) n)))).
      { apply Forall_forall. intros x I.
        apply (Permutation.Permutation_in _ (roundrobin_perm _ _)) in I.
        apply in_app_or in I. destruct I as [I|I]; apply in_map_iff in I;
        destruct I as (i & <- & I); apply in_seq in I; nia. }
      constructor; [constructor|].
      * apply IH.
      * eapply Forall_impl; [|exact F]. cbv beta. intros. nia.
      * constructor; [nia|]. eapply Forall_impl; [|exact F]. cbv beta. intros. nia.
Qed.

Theorem C48_center_range : forall c lo hi step, 0 < step -> lo <= c <= hi ->
  exists l, center_range c lo hi step = Ok l /\
    NoDup l /\
    (forall x, In x l <-> lo <= x <= hi /\ x <> c /\ (step | x - c)) /\
    StronglySorted (fun x y => Z.abs (x - c) <= Z.abs (y - c)) l.
Proof.
  intros c lo hi step H B. unfold center_range.
  destruct ((lo <=? c) && (c <=? hi))%bool eqn:E.
  2:{ apply andb_false_iff in E. destruct E as [E|E]; apply Z.leb_gt in E; lia. }
  eexists. split; [reflexivity|].
  set (be := range_down (c - step) (lo - 1) step). set (ab := arange (c + step) (hi + 1) step).
  assert (P := roundrobin_perm be ab).
  assert (Ibe : forall x, In x be <-> exists i, 0 <= i /\ x = c - step - i * step /\ lo - 1 < x)
    by (intro; apply in_range_down; auto).
  assert (Iab : forall x, In x ab <-> exists i, 0 <= i /\ x = c + step + i * step /\ x < hi + 1)
    by (intro; apply in_arange; auto).
  split; [|split].
  - apply (Permutation.Permutation_NoDup (Permutation.Permutation_sym P)).
    apply NoDup_app_remove_l with (l := []) || idtac.
    assert (D : forall x, In x be -> ~ In x ab).
    { intros x I J. apply Ibe in I. apply Iab in J. destruct I as (i & ? & ? & ?), J as (j & ? & ? & ?). nia. }
    assert (N1 : NoDup be) by (apply NoDup_range_down; auto).
    assert (N2 : NoDup ab) by (apply NoDup_arange; auto).
    clear -D N1 N2. induction N1 as [|a l Ha N IH]; simpl; auto. constructor.
    + rewrite in_app_iff. intros [?|?]; [contradiction|]. apply (D a); simpl; auto.
    + apply IH. intros x I. apply D. simpl; auto.
  - intro x. split.
    + intro I. apply (Permutation.Permutation_in _ P) in I. apply in_app_or in I. destruct I as [I|I].
      * apply Ibe in I. destruct I as (i & ? & ? & ?). split; [nia|]. split; [nia|].
        exists (- (1 + i)). lia.
      * apply Iab in I. destruct I as (i & ? & ? & ?). split; [nia|]. split; [nia|].
        exists (1 + i). lia.
    + intros (R & N & (k & D)).
      apply (Permutation.Permutation_in _ (Permutation.Permutation_sym P)). apply in_or_app.
      destruct (Z_lt_ge_dec k 0).
      * left. apply Ibe. exists (- k - 1). split; [lia|]. split; lia.
      * right. apply Iab. assert (k <> 0) by (intros ->; lia). exists (k - 1). split; [lia|]. split; lia.
  - unfold be, ab. rewrite range_down_seq1, arange_seq1. apply roundrobin_sorted. auto.
Qed.

Theorem C48_center_range_outside : forall c lo hi step,
  ~ (lo <= c <= hi) -> center_range c lo hi step = Err AssertionError.
Proof.
  intros c lo hi step H. unfold center_range.
  destruct ((lo <=? c) && (c <=? hi))%bool eqn:E; auto.
  apply andb_true_iff in E. destruct E as [E F]. apply Z.leb_le in E, F. lia.
Qed.

Example C48_example : center_range 5 0 10 1 = Ok [4; 6; 3; 7; 2; 8; 1; 9; 0; 10] /\
  center_range 2 0 9 3 = Ok [5; 8].
Proof. split; reflexivity. Qed.

(** ** C49: chunked ranges *)

(** Full statement (any step): concat (arange_chunked start stop step cs) = arange start stop step.
    False for step > 1: *)
Theorem C49_arange_chunked_refuted : exists start stop step cs l,
  arange_chunked start stop step cs = Ok l /\ concat l <> arange start stop step.
Proof.
  exists 0, 10, 2, 3. eexists. split; [reflexivity|]. vm_compute. discriminate.
Qed.

(** Proved for step 1 (the only step the library itself uses). *)
Theorem C49_arange_chunked_partial : forall start stop cs,
  0 < cs -> start < stop ->
  exists l, arange_chunked start stop 1 cs = Ok l /\
    concat l = arange start stop 1 /\ Forall (fun c => Z.of_nat (length c) <= cs) l.
Proof.
  intros start stop cs C S.
  destruct (arange_chunked start stop 1 cs) as [l|e] eqn:E.
  - exists l. split; auto. split; [eapply arange_chunked_concat; eauto | eapply arange_chunked_sizes; eauto].
  - unfold arange_chunked in E. apply Z.ltb_lt in C, S. rewrite C, S in E. discriminate.
Qed.

Lemma map_seq_Forall2 {A B} (R : A -> B -> Prop) f g s n :
  (forall i, R (f i) (g i)) -> Forall2 R (map f (seq s n)) (map g (seq s n)).
Proof.
  intro H. revert s. induction n; intros; simpl; constructor; auto.
Qed.

Theorem C49_linspace_chunked : forall start stop num cs endpoint,
  0 < num -> 0 < cs -> (start < stop)%Q ->
  exists l, linspace_chunked start stop num cs endpoint = Ok l /\
    Forall2 Qeq (concat l) (linspace start stop num endpoint) /\
    Forall (fun c => Z.of_nat (length c) <= cs) l.
Proof.
  intros start stop num cs endpoint N C S. unfold linspace_chunked.
  assert (N' := N). assert (C' := C). apply Z.ltb_lt in N', C'. rewrite N', C'.
  assert (S' := S). apply Qltb_lt in S'. rewrite S'.
  destruct (num <=? cs) eqn:L.
  - eexists. split; [reflexivity|]. simpl. rewrite app_nil_r. split.
    + induction (linspace start stop num endpoint); constructor; auto. reflexivity.
    + constructor; auto. unfold linspace. rewrite map_length, seq_length. apply Z.leb_le in L. lia.
  - destruct (C49_arange_chunked_partial 0 num cs C N) as (l & E & K & F).
    rewrite E. simpl. eexists. split; [reflexivity|]. split.
    + rewrite concat_map_map, K. unfold arange, linspace. rewrite map_map.
      assert (R : range_len 0 num 1 = Z.to_nat num).
      { unfold range_len, zceil_div. rewrite Z.div_1_r. f_equal. lia. }
      rewrite R. apply map_seq_Forall2. intro i.
      assert (EQ : (inject_Z (0 + Z.of_nat i * 1) == inject_Z (Z.of_nat i))%Q) by (apply inject_Z_eq; lia).
      rewrite EQ. unfold Qdiv. ring.
    + clear -F. induction F; simpl; constructor; auto. rewrite map_length. auto.
Qed.

Theorem C49_split_arange : forall frm to pivot, frm <= pivot < to ->
  split_arange frm to pivot = filter (fun x => negb (x =? pivot)) (arange frm to 1).
Proof.
  intros frm to pivot H. unfold split_arange.
  rewrite <- (arange_app frm pivot to) by lia. rewrite <- (arange_app pivot (pivot + 1) to) by lia.
  rewrite !filter_app.
  assert (K : forall l, (forall x, In x l -> x <> pivot) -> filter (fun x => negb (x =? pivot)) l = l).
  { induction l as [|a l IH]; intro Q; simpl; auto.
    assert (a <> pivot) by (apply Q; simpl; auto). apply Z.eqb_neq in H0. rewrite H0. simpl.
    f_equal. apply IH. intros; apply Q; simpl; auto. }
  rewrite (K (arange frm pivot 1)).
  2:{ intros x I. apply in_arange in I; [|lia]. destruct I as (? & ? & ? & ?). lia. }
  rewrite (K (arange (pivot + 1) to 1)).
  2:{ intros x I. apply in_arange in I; [|lia]. destruct I as (? & ? & ? & ?). lia. }
  f_equal.
  assert (E : arange pivot (pivot + 1) 1 = [pivot]).
  { unfold arange, range_len, zceil_div. rewrite Z.div_1_r.
    replace (Z.to_nat _) with 1%nat by lia. simpl. f_equal. lia. }
  rewrite E. simpl. rewrite Z.eqb_refl. reflexivity.
Qed.

Example C49_example :
  arange_chunked 0 10 1 3 = Ok [[0;1;2];[3;4;5];[6;7;8];[9]] /\
  split_arange 0 6 2 = [0;1;3;4;5] /\
  arange_chunked 0 10 2 3 = Ok [[0;2];[3;5]].
Proof. repeat split; reflexivity. Qed.

Print Assumptions C42_quantize_on_bins.
Print Assumptions C42_quantize_fixes_bins.
Print Assumptions C42_quantize_idempotent.
Print Assumptions C42_quantize_monotone.
Print Assumptions C42_quantize_ends.
Print Assumptions C42_quantize_error.
Print Assumptions C42_quantize_closest_refuted.
Print Assumptions C48_center_range.
Print Assumptions C48_center_range_outside.
Print Assumptions C49_arange_chunked_refuted.
Print Assumptions C49_arange_chunked_partial.
Print Assumptions C49_linspace_chunked.
Print Assumptions C49_split_arange.
