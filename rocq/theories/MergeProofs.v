(** * Lemmas about the merging of equivalent conditions *)
From Coq Require Import String List ZArith QArith Bool Lia Permutation.
From Verif Require Import Base ListFacts Numeric HP HPProofs Cond Forb EqFacts Dag DagProofs
  Space CommitProofs Spec SpaceProofs CnodeProofs ForbProofs EvalProofs.
Import ListNotations.
Open Scope nat_scope.

Lemma fold_and_in {A} (P : A -> Prop) l : fold_right and True (map P l) <-> forall x, In x l -> P x.
Proof.
  induction l as [|y l IH]; simpl; [tauto|]. rewrite IH. split.
  - intros [H1 H2] x [->|Hx]; auto.
  - intros H. split; auto.
Qed.

Lemma fold_or_in {A} (P : A -> Prop) l : fold_right Logic.or False (map P l) <-> exists x, In x l /\ P x.
Proof.
  induction l as [|y l IH]; simpl; [split; [tauto|intros (x & [] & _)]|]. rewrite IH. split.
  - intros [H|(x & Hx & H)]; eauto.
  - intros (x & [->|Hx] & H); eauto.
Qed.

(** each position of one list mapped to a different position of a list of the same length *)
Lemma positions_onto {A} (R : A -> A -> Prop) (cs ds : list A) : length cs = length ds ->
  (forall c, In c cs -> exists d, In d ds /\ R c d) ->
  (forall i j a b d, i < j -> nth_error cs i = Some a -> nth_error cs j = Some b -> R a d -> R b d -> False) ->
  forall d, In d ds -> exists c, In c cs /\ R c d.
Proof.
  intros Hl Hex Hinj.
  assert (K : exists ks, length ks = length cs /\ forall i k, nth_error ks i = Some k ->
                exists c d, nth_error cs i = Some c /\ nth_error ds k = Some d /\ R c d).
  { clear Hinj Hl. induction cs as [|c cs IH].
    - exists []. split; [reflexivity|]. intros i k. destruct i; discriminate.
    - destruct IH as (ks & Hlk & Hk); [intros; apply Hex; right; assumption|].
      destruct (Hex c (or_introl eq_refl)) as (d & Hd & Hr). apply In_nth_error in Hd. destruct Hd as (k & Hd).
      exists (k :: ks). split; [simpl; congruence|]. intros [|i] k' Hi; simpl in *.
      + inversion Hi; subst. eauto.
      + destruct (Hk i k' Hi) as (c' & d' & H1 & H2 & H3). eauto. }
  destruct K as (ks & Hlk & Hk).
  assert (ND : NoDup ks).
  { rewrite NoDup_nth_error. intros i j Hi Hij. destruct (nth_error ks i) as [k|] eqn:Ei; [|apply nth_error_None in Ei; lia].
    symmetry in Hij. destruct (Hk i k Ei) as (a & d & A1 & A2 & A3). destruct (Hk j k Hij) as (b & d' & B1 & B2 & B3).
    assert (d' = d) by congruence. subst d'.
    destruct (lt_eq_lt_dec i j) as [[H|H]|H]; [exfalso; eauto|exact H|exfalso; eauto]. }
  assert (I : incl ks (seq 0 (length ds))).
  { intros k Hin. apply In_nth_error in Hin. destruct Hin as (i & Hi). destruct (Hk i k Hi) as (c & d & _ & Hd & _).
    apply in_seq. split; [lia|]. simpl. apply nth_error_Some. congruence. }
  assert (J : incl (seq 0 (length ds)) ks).
  { apply NoDup_length_incl; auto. rewrite seq_length. lia. }
  intros d Hd. apply In_nth_error in Hd. destruct Hd as (k & Hd).
  assert (Hin : In k ks). { apply J, in_seq. split; [lia|]. simpl. apply nth_error_Some. congruence. }
  apply In_nth_error in Hin. destruct Hin as (i & Hi). destruct (Hk i k Hi) as (c & d' & H1 & H2 & H3).
  exists c. split; [eapply nth_error_In; eauto|]. congruence.
Qed.

Section Merge.
  Context {E : Env} {L : EnvLaws E}.

  Definition comps (c : cond) : list cond := match c with CLit _ => [] | CAnd cs | COr cs => cs end.
  Definition is_conj (c : cond) : bool := match c with CLit _ => false | _ => true end.

  Lemma equiv_conj a b : is_conj a = true -> is_conj b = true ->
    (cond_equiv a b = true <-> length (comps a) = length (comps b) /\
       forall c, In c (comps a) -> exists d, In d (comps b) /\ cond_equiv c d = true).
  Proof.
    destruct a as [l|cs|cs]; try discriminate; destruct b as [m|ds|ds]; try discriminate; intros _ _; simpl;
      rewrite andb_true_iff, Nat.eqb_eq, forallb_forall;
      (split; intros [H1 H2]; (split; [exact H1|]); intros c Hc; [apply existsb_exists|apply existsb_exists]; auto).
  Qed.
  Lemma equiv_shape a b : cond_equiv a b = true -> is_conj a = is_conj b.
  Proof. destruct a, b; simpl; congruence. Qed.

  Lemma lit_equiv_sym a b : lit_wf a -> lit_wf b -> lit_equiv a b = true -> lit_equiv b a = true.
  Proof.
    intros [_ Wa] [_ Wb]. unfold lit_equiv. rewrite (hp_eqb_sym (l_parent b)), (test_eqb_sym (l_test b)) by assumption. auto.
  Qed.
  Lemma lit_equiv_trans a b c : lit_wf a -> lit_wf b -> lit_wf c -> lit_equiv a b = true -> lit_equiv b c = true -> lit_equiv a c = true.
  Proof.
    intros [_ Wa] [_ Wb] [_ Wc]. unfold lit_equiv. rewrite !andb_true_iff. intros [H1 H2] [H3 H4]. split.
    - exact (hp_eqb_trans _ _ _ Wa Wb Wc H1 H3).
    - exact (test_eqb_trans _ _ _ H2 H4).
  Qed.

  Lemma cond_wf_comp c x : cond_wf c -> In x (comps c) -> cond_wf x.
  Proof. destruct c as [l|cs|cs]; intros W Hx; [destruct Hx| |]; exact (cond_wf_in x cs W Hx). Qed.

  Lemma comps_ind (P : cond -> Prop) : (forall l, P (CLit l)) ->
    (forall c, is_conj c = true -> (forall x, In x (comps c) -> P x) -> P c) -> forall c, P c.
  Proof.
    intros HL HC. induction c as [l|cs IH|cs IH] using cond_ind'; [apply HL| |];
      apply HC; try reflexivity; rewrite Forall_forall in IH; exact IH.
  Qed.

  Lemma cond_equiv_trans a : forall b c, cond_wf a -> cond_wf b -> cond_wf c ->
    cond_equiv a b = true -> cond_equiv b c = true -> cond_equiv a c = true.
  Proof.
    induction a as [l|a Ca IH] using comps_ind; intros b c Wa Wb Wc H1 H2.
    - destruct b as [m|ds|ds]; try discriminate. destruct c as [o|es|es]; try discriminate. simpl in *.
      apply (lit_equiv_trans l m o); auto using cond_wf_lit.
    - assert (Cb : is_conj b = true) by (rewrite <- (equiv_shape a b H1); exact Ca).
      assert (Cc : is_conj c = true) by (rewrite <- (equiv_shape b c H2); exact Cb).
      rewrite equiv_conj in * by assumption. destruct H1 as [A1 A2], H2 as [B1 B2]. split; [congruence|].
      intros x Hx. destruct (A2 x Hx) as (y & Hy & Hxy). destruct (B2 y Hy) as (z & Hz & Hyz). exists z. split; [exact Hz|].
      eapply (IH x Hx y z); eauto using cond_wf_comp.
  Qed.

  Lemma distinct_conj a : is_conj a = true -> distinct a -> pairwise_distinct (comps a) /\ forall x, In x (comps a) -> distinct x.
  Proof. destruct a as [l|cs|cs]; try discriminate; intros _ [H1 H2]; (split; [exact H1|]); apply fold_and_in; exact H2. Qed.

  Lemma comps_onto a b : is_conj a = true -> is_conj b = true -> distinct a -> cond_wf a -> cond_wf b ->
    (forall x, In x (comps a) -> forall y, distinct x -> cond_wf x -> cond_wf y -> cond_equiv x y = true -> cond_equiv y x = true) ->
    cond_equiv a b = true -> forall y, In y (comps b) -> exists x, In x (comps a) /\ cond_equiv x y = true.
  Proof.
    intros Ca Cb D Wa Wb S H. rewrite equiv_conj in H by assumption. destruct H as [H1 H2]. destruct (distinct_conj a Ca D) as [D1 D2].
    assert (P := positions_onto (fun x y => In y (comps b) /\ cond_equiv x y = true) (comps a) (comps b) H1).
    intros y Hy. destruct P with (d := y) as (x & Hx & _ & Hq); [| |exact Hy|eauto].
    - intros c Hc. destruct (H2 c Hc) as (d & Hd & Hq). eauto.
    - intros i j x x' d Hij Hi Hj [Hd Q1] [_ Q2]. apply nth_error_In in Hi as Ii. apply nth_error_In in Hj as Ij.
      assert (Q3 : cond_equiv d x' = true) by (apply (S x' Ij); eauto using cond_wf_comp).
      assert (Q4 : cond_equiv x x' = true) by (apply (cond_equiv_trans x d x'); eauto using cond_wf_comp).
      rewrite (D1 i j x x' Hij Hi Hj) in Q4. discriminate.
  Qed.

  Lemma cond_equiv_sym a : forall b, distinct a -> cond_wf a -> cond_wf b -> cond_equiv a b = true -> cond_equiv b a = true.
  Proof.
    induction a as [l|a Ca IH] using comps_ind; intros b D Wa Wb H.
    - destruct b as [m|ds|ds]; try discriminate. simpl in *. apply lit_equiv_sym; auto using cond_wf_lit.
    - assert (Cb : is_conj b = true) by (rewrite <- (equiv_shape a b H); exact Ca).
      assert (On := comps_onto a b Ca Cb D Wa Wb IH H). destruct (distinct_conj a Ca D) as [_ D2].
      rewrite equiv_conj in * by assumption. destruct H as [H1 H2]. split; [congruence|].
      intros y Hy. destruct (On y Hy) as (x & Hx & Hq). exists x. split; [exact Hx|]. apply (IH x Hx); eauto using cond_wf_comp.
  Qed.

  (** ** Truth values *)
  Lemma cond_good_comp c x : cond_good c -> In x (comps c) -> cond_good x.
  Proof. destruct c as [l|cs|cs]; intros G Hx; [destruct Hx| |]; inversion G; subst; auto. Qed.
  Lemma cond_refs_comp hs c x : cond_refs hs c -> In x (comps c) -> cond_refs hs x.
  Proof.
    destruct c as [l|cs|cs]; intros R Hx; [destruct Hx| |]; intros m Hm; apply R; simpl; eapply dlcs_in_and; eauto.
  Qed.
  Lemma cond_good_wf c : cond_good c -> cond_wf c.
  Proof.
    intros G. unfold cond_wf. apply cond_good_lits in G. destruct G as [F _]. rewrite Forall_forall in *. intros l Hl.
    destruct (F l Hl) as (C1 & C2 & _). split; apply constructed_wf; assumption.
  Qed.

  Lemma equiv_sat (P : cond -> Prop) hs io v :
    (forall c x, P c -> In x (comps c) -> P x) ->
    (forall a b, P a -> P b -> is_conj a = true -> is_conj b = true ->
       (forall w, sat_vec io w a = forallb (sat_vec io w) (comps a) /\ sat_vec io w b = forallb (sat_vec io w) (comps b)) \/
       (forall w, sat_vec io w a = existsb (sat_vec io w) (comps a) /\ sat_vec io w b = existsb (sat_vec io w) (comps b))) ->
    NoDup (map hp_name hs) ->
    forall a b, P a -> P b -> distinct a -> cond_good a -> cond_good b -> cond_refs hs a -> cond_refs hs b ->
    cond_equiv a b = true -> sat_vec io v a = sat_vec io v b.
  Proof.
    intros Hp Hk ND. induction a as [l|a Ca IH] using comps_ind; intros b Pa Pb D Ga Gb Ra Rb H.
    - destruct b as [m|ds|ds]; try discriminate. simpl in *. unfold lit_equiv in H. apply andb_true_iff in H. destruct H as [H1 H2].
      inversion Ga; inversion Gb; subst. apply lit_equiv_vec; auto.
      destruct (Ra l (or_introl eq_refl)) as [_ R1]. destruct (Rb m (or_introl eq_refl)) as [_ R2].
      apply (same_hp hs); auto. unfold hp_eqb in H1. rewrite !andb_true_iff in H1. apply String.eqb_eq. tauto.
    - assert (Cb : is_conj b = true) by (rewrite <- (equiv_shape a b H); exact Ca).
      assert (On := comps_onto a b Ca Cb D (cond_good_wf a Ga) (cond_good_wf b Gb) (fun x _ => cond_equiv_sym x) H).
      destruct (distinct_conj a Ca D) as [_ D2]. rewrite equiv_conj in H by assumption. destruct H as [_ H2].
      assert (S : forall x y, In x (comps a) -> In y (comps b) -> cond_equiv x y = true -> sat_vec io v x = sat_vec io v y).
      { intros x y Hx Hy Hq. apply (IH x Hx); eauto using cond_good_comp, cond_refs_comp. }
      destruct (Hk a b Pa Pb Ca Cb) as [K|K]; destruct (K v) as [-> ->]; [apply forallb_same|apply existsb_same].
      + intros x Hx. destruct (H2 x Hx) as (y & Hy & Hq). eauto.
      + intros y Hy. destruct (On y Hy) as (x & Hx & Hq). eauto.
      + intros x Hx. destruct (H2 x Hx) as (y & Hy & Hq). eauto.
      + intros y Hy. destruct (On y Hy) as (x & Hx & Hq). eauto.
  Qed.

  Lemma equiv_sat_and hs io v a b : NoDup (map hp_name hs) -> only_and a -> only_and b -> distinct a ->
    cond_good a -> cond_good b -> cond_refs hs a -> cond_refs hs b ->
    cond_equiv a b = true -> sat_vec io v a = sat_vec io v b.
  Proof.
    intros ND. apply (equiv_sat only_and hs io v); auto.
    - intros [l|cs|cs] x H Hx; [destruct Hx| |destruct H]. simpl in H. rewrite fold_and_in in H. auto.
    - intros [l|cs|cs] [m|ds|ds] Pa Pb Ca Cb; try discriminate; try contradiction. left. intros w. split; reflexivity.
  Qed.
  Lemma equiv_sat_or hs io v a b : NoDup (map hp_name hs) -> only_or a -> only_or b -> distinct a ->
    cond_good a -> cond_good b -> cond_refs hs a -> cond_refs hs b ->
    cond_equiv a b = true -> sat_vec io v a = sat_vec io v b.
  Proof.
    intros ND. apply (equiv_sat only_or hs io v); auto.
    - intros [l|cs|cs] x H Hx; [destruct Hx|destruct H|]. simpl in H. rewrite fold_and_in in H. auto.
    - intros [l|cs|cs] [m|ds|ds] Pa Pb Ca Cb; try discriminate; try contradiction. right. intros w. split; reflexivity.
  Qed.

  Section One.
    Variables (s : space) (hs : list hp) (cs : list cond) (fs : list fclause).
    Hypothesis O : space_ok s hs cs fs.
    Hypothesis R : forall c, In c cs -> cond_refs hs c.

    (** every declared condition of a hyperparameter has the truth value of the stored one *)
    Lemma so_declared_vec n c : In c cs -> activates c n ->
      exists c', condof (d_nodes (s_dag s)) n = Some c' /\ In c' cs /\ activates c' n /\
        forall io v, sat_vec io v c' = sat_vec io v c.
    Proof.
      intros Hc Ha. destruct (so_declared O n c Hc Ha) as (c' & Hn & Hq). destruct (so_condof_in O n c' Hn) as [Hc' Ha'].
      exists c'. repeat split; auto. intros io v. apply (cond_eqb_vec hs io v c' (so_names_nodup O)); auto.
      - apply cond_built_good, (so_cond_built O), Hc'.
      - apply cond_built_good, (so_cond_built O), Hc.
    Qed.

    (** the condition of a node decides for each of its hyperparameters *)
    Lemma so_cnode_sat cn i : merge_sound (index_of s) cs -> In cn (d_min (s_dag s)) -> In i (cn_children cn) ->
      exists n, nth_error (keys s) i = Some n /\ conditional cs n /\
        forall c, In c cs -> activates c n -> forall v, sat_vec (index_of s) v (cn_cond cn) = sat_vec (index_of s) v c.
    Proof.
      intros M Hcn Hi. destruct (so_cnode O cn i Hcn Hi) as (n & c' & Hn & Hc' & Hq).
      destruct (so_cnode_cond O cn Hcn) as (i0 & n0 & rest & _ & _ & Hc0).
      destruct (so_condof_in O n0 _ Hc0) as [Ic0 _]. destruct (so_condof_in O n _ Hc') as [Ic' Ac'].
      exists n. split; [exact Hn|]. split; [apply (so_conditional O); eauto|].
      intros c Hc Ha v. destruct (so_declared_vec n c Hc Ha) as (c2 & H2 & _ & _ & <-).
      assert (c2 = c') by congruence. subst. apply M; auto.
    Qed.

    Lemma so_merge_and : (forall c, In c cs -> only_and c /\ distinct c) -> merge_sound (index_of s) cs.
    Proof.
      intros H c d v Hc Hd Hq. destruct (H c Hc), (H d Hd).
      apply (equiv_sat_and hs); auto using (so_names_nodup O); apply cond_built_good, (so_cond_built O); assumption.
    Qed.
    Lemma so_merge_or : (forall c, In c cs -> only_or c /\ distinct c) -> merge_sound (index_of s) cs.
    Proof.
      intros H c d v Hc Hd Hq. destruct (H c Hc), (H d Hd).
      apply (equiv_sat_or hs); auto using (so_names_nodup O); apply cond_built_good, (so_cond_built O); assumption.
    Qed.
  End One.
End Merge.

(** ** unique_everseen *)
Lemma unique_by_incl {A} (key : A -> string) l : forall seen x, In x (unique_by key seen l) -> In x l /\ ~ In (key x) seen.
Proof.
  induction l as [|y l IH]; simpl; intros seen x H; [contradiction|]. destruct (str_in (key y) seen) eqn:Es.
  - apply IH in H. tauto.
  - destruct H as [->|H]; [split; [auto|]|].
    + intros K. apply str_in_iff in K. congruence.
    + apply IH in H. simpl in H. tauto.
Qed.
Lemma unique_by_nodup {A} (key : A -> string) l : forall seen, NoDup (map key (unique_by key seen l)).
Proof.
  induction l as [|y l IH]; simpl; intros seen; [constructor|]. destruct (str_in (key y) seen); [apply IH|].
  simpl. constructor; [|apply IH]. intros H. apply in_map_iff in H. destruct H as (x & Hx & H).
  apply unique_by_incl in H. simpl in H. rewrite Hx in H. tauto.
Qed.
Lemma unique_by_covers {A} (key : A -> string) l : forall seen x, In x l -> In (key x) seen \/
  exists y, In y (unique_by key seen l) /\ key y = key x.
Proof.
  induction l as [|y l IH]; simpl; intros seen x H; [contradiction|]. destruct (str_in (key y) seen) eqn:Es.
  - destruct H as [->|H]; [left; apply str_in_iff; exact Es|apply IH; exact H].
  - destruct H as [->|H]; [right; exists x; simpl; auto|].
    destruct (IH (key y :: seen) x H) as [[K|K]|(z & Hz & K)]; [right; exists y; simpl; auto|auto|right; exists z; simpl; auto].
Qed.
