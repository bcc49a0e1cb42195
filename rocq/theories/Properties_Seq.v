(** * Properties C113: choices that are tuples or lists, C114: a list in place of a value, C115: such
      choices in JSON *)
From Coq Require Import String List ZArith QArith Bool Lia Lqa.
From Verif Require Import Base ListFacts Numeric NumericProofs HP HPProofs Spec Ex Dist EvalProofs Fix Array PcsText Seq Properties_Array.
Import ListNotations.
Open Scope bool_scope.

(** ** Equality of objects *)
Lemma obj_ind' (P : obj -> Prop) (Hv : forall v, P (OVal v)) (Ht : forall l, Forall P l -> P (OTup l)) (Hl : forall l, Forall P l -> P (OList l)) :
  forall o, P o.
Proof.
  fix rec 1. intros [v|l|l]; [apply Hv| |].
  - apply Ht. induction l; constructor; [apply rec|assumption].
  - apply Hl. induction l; constructor; [apply rec|assumption].
Qed.

Fixpoint all2 (l m : list obj) : bool :=
  match l, m with [], [] => true | x :: l', y :: m' => oeq x y && all2 l' m' | _, _ => false end.
Lemma oeq_tup l m : oeq (OTup l) (OTup m) = all2 l m.
Proof. revert m. induction l as [|x l IH]; intros [|y m]; reflexivity. Qed.
Lemma oeq_list l m : oeq (OList l) (OList m) = all2 l m.
Proof. revert m. induction l as [|x l IH]; intros [|y m]; reflexivity. Qed.

Lemma oeq_refl o : oeq o o = true.
Proof.
  induction o as [v|l IH|l IH] using obj_ind'; [apply py_eqb_refl|rewrite oeq_tup|rewrite oeq_list];
  (induction IH as [|x l Hx _ IHl]; [reflexivity|simpl; rewrite Hx; exact IHl]).
Qed.

Lemma all2_sym l m : Forall (fun x => forall y, oeq x y = oeq y x) l -> all2 l m = all2 m l.
Proof.
  intros H. revert m. induction H as [|x l Hx _ IH]; intros [|y m]; try reflexivity. simpl. rewrite Hx, IH. reflexivity.
Qed.
Lemma oeq_sym a b : oeq a b = oeq b a.
Proof.
  revert b. induction a as [v|l IH|l IH] using obj_ind'; intros [w|m|m]; try reflexivity.
  - apply py_eqb_sym.
  - rewrite !oeq_tup. apply all2_sym, IH.
  - rewrite !oeq_list. apply all2_sym, IH.
Qed.

Lemma all2_trans l : Forall (fun x => forall y z, oeq x y = true -> oeq y z = true -> oeq x z = true) l ->
  forall m n, all2 l m = true -> all2 m n = true -> all2 l n = true.
Proof.
  induction 1 as [|x l Hx _ IH]; intros [|y m] [|z n]; simpl; try congruence; intros A B.
  apply andb_true_iff in A, B. destruct A as [A1 A2], B as [B1 B2]. rewrite (Hx y z A1 B1). apply (IH m n A2 B2).
Qed.
Lemma oeq_trans a b c : oeq a b = true -> oeq b c = true -> oeq a c = true.
Proof.
  revert b c. induction a as [v|l IH|l IH] using obj_ind'; intros [w|m|m] [u|n|n]; try (intros; discriminate).
  - apply py_eqb_trans.
  - rewrite !oeq_tup. apply all2_trans, IH.
  - rewrite !oeq_list. apply all2_trans, IH.
Qed.

Lemma oeq_seq a b : oeq a b = true -> is_seq a = is_seq b.
Proof. destruct a, b; simpl; congruence. Qed.

Lemma oeq_hash a b : oeq a b = true -> hashable a = hashable b.
Proof.
  revert b. induction a as [v|l IH|l IH] using obj_ind'; intros [w|m|m] H; try discriminate; try reflexivity.
  rewrite oeq_tup in H. simpl. revert m H. induction IH as [|x l Hx _ IHl]; intros [|y m] H; simpl in *; try congruence.
  apply andb_true_iff in H. destruct H as [H1 H2]. rewrite (Hx y H1), (IHl m H2). reflexivity.
Qed.

(** ** Specification: the choice that a value is *)
Definition is_choice (cs : list obj) (o : obj) (i : nat) : Prop := exists c, nth_error cs i = Some c /\ oeq c o = true.
Definition different (cs : list obj) : Prop := forall i j o, is_choice cs o i -> is_choice cs o j -> i = j.

Lemma oin_iff o cs : oin o cs = true <-> exists i, is_choice cs o i.
Proof.
  unfold oin, is_choice. rewrite existsb_exists. split.
  - intros (c & Hc & Q). apply In_nth_error in Hc. destruct Hc as [i Hi]. exists i, c. auto.
  - intros (i & c & Hi & Q). exists c. split; [exact (nth_error_In _ _ Hi)|exact Q].
Qed.
Lemma oindex_some o cs i : oindex o cs = Some i -> is_choice cs o i /\ forall j, is_choice cs o j -> (i <= j)%nat.
Proof.
  revert i. induction cs as [|c cs IH]; intros i H; [discriminate|]. simpl in H. destruct (oeq c o) eqn:Q.
  - injection H as <-. split; [exists c; auto|intros; lia].
  - destruct (oindex o cs) as [k|] eqn:K; [|discriminate]. injection H as <-. destruct (IH k eq_refl) as [(d & D1 & D2) Min].
    split; [exists d; auto|]. intros [|j] (d' & D3 & D4); [simpl in D3; congruence|]. specialize (Min j). simpl in D3. enough (k <= j)%nat by lia. apply Min. exists d'. auto.
Qed.
Lemma oindex_none o cs : oindex o cs = None -> forall i, ~ is_choice cs o i.
Proof.
  induction cs as [|c cs IH]; intros H i (d & D1 & D2); [destruct i; discriminate|]. simpl in H. destruct (oeq c o) eqn:Q; [discriminate|].
  destruct (oindex o cs); [discriminate|]. destruct i as [|i]; [simpl in D1; congruence|]. apply (IH eq_refl i). exists d. auto.
Qed.
Lemma oindex_choice o cs i : different cs -> is_choice cs o i -> oindex o cs = Some i.
Proof.
  intros D H. destruct (oindex o cs) as [j|] eqn:K; [|destruct (oindex_none _ _ K i H)]. destruct (oindex_some _ _ _ K) as [Hj _]. f_equal. apply (D j i o); assumption.
Qed.

(** a value that is no number, or a hyperparameter whose choices are all hashable *)
Definition sound_value (h : ocat) (o : obj) : Prop := has_lookup (oc_choices h) = true \/ (forall v, o = OVal v -> num_of v = None).

Lemma scan_plain v cs : num_of v = None -> scan v cs = Ok (oindex (OVal v) cs).
Proof.
  intros N. induction cs as [|c cs IH]; [reflexivity|]. simpl. replace (eq_elem c v) with (Ok (oeq c (OVal v))).
  - simpl. destruct (oeq c (OVal v)); [reflexivity|]. rewrite IH. reflexivity.
  - destruct c as [w|l|l]; simpl; [|rewrite N|rewrite N]; reflexivity.
Qed.

Section Choices.
  Variable h : ocat.

  (** Full statement: for every choice.  False of numbers beside choices that are lists, see
      [C113_number_refuted] and [C113_wrong_refuted]. *)
  Theorem C113_roundtrip_partial i c : different (oc_choices h) -> nth_error (oc_choices h) i = Some c -> sound_value h c ->
    o_to_vector h c = Ok i /\ o_legal_value h c = Ok true /\ o_to_value h i = Ok c.
  Proof.
    intros D Hi S. assert (Ch : is_choice (oc_choices h) c i) by (exists c; split; [exact Hi|apply oeq_refl]).
    assert (Ix := oindex_choice _ _ _ D Ch). assert (In := proj2 (oin_iff c (oc_choices h)) (ex_intro _ i Ch)).
    split; [|split].
    - unfold o_to_vector. destruct (has_lookup (oc_choices h)) eqn:Lk.
      + unfold has_lookup in Lk. rewrite forallb_forall in Lk. rewrite (Lk c (nth_error_In _ _ Hi)), Ix. reflexivity.
      + destruct S as [S|S]; [congruence|]. destruct c as [v|l|l]; [rewrite (scan_plain v _ (S v eq_refl))| |]; rewrite Ix; reflexivity.
    - unfold o_legal_value. destruct (has_lookup (oc_choices h)) eqn:Lk.
      + unfold has_lookup in Lk. rewrite forallb_forall in Lk. rewrite (Lk c (nth_error_In _ _ Hi)), In. reflexivity.
      + destruct S as [S|S]; [congruence|]. destruct c as [v|l|l]; [rewrite (scan_plain v _ (S v eq_refl)), Ix| |]; try (rewrite In); reflexivity.
    - unfold o_to_value. rewrite Hi. reflexivity.
  Qed.

  (** Full statement: legal_value always answers, True exactly for the choices.  False of lists if all
      choices are hashable, see [C113_legal_refuted]. *)
  Theorem C113_legal_partial o : sound_value h o -> (has_lookup (oc_choices h) = true -> hashable o = true) ->
    exists b, o_legal_value h o = Ok b /\ (b = true <-> exists i, is_choice (oc_choices h) o i).
  Proof.
    intros S Hs. unfold o_legal_value. destruct (has_lookup (oc_choices h)) eqn:Lk.
    - rewrite (Hs eq_refl). eexists. split; [reflexivity|apply oin_iff].
    - destruct S as [S|S]; [congruence|]. destruct o as [v|l|l]; try (eexists; split; [reflexivity|apply oin_iff]).
      rewrite (scan_plain v _ (S v eq_refl)). simpl. destruct (oindex (OVal v) (oc_choices h)) as [i|] eqn:K.
      + eexists. split; [reflexivity|]. split; [intros _; exists i; apply (oindex_some _ _ _ K)|reflexivity].
      + eexists. split; [reflexivity|]. split; [discriminate|intros (i & Hi); destruct (oindex_none _ _ K i Hi)].
  Qed.

  (** what is no choice is not converted; the exception tells whether all choices are hashable *)
  Theorem C113_unknown_partial o : sound_value h o -> (has_lookup (oc_choices h) = true -> hashable o = true) ->
    (forall i, ~ is_choice (oc_choices h) o i) ->
    o_to_vector h o = Err (if has_lookup (oc_choices h) then KeyError else ValueError).
  Proof.
    intros S Hs N. assert (K : oindex o (oc_choices h) = None).
    { destruct (oindex o (oc_choices h)) as [i|] eqn:K; [|reflexivity]. destruct (N i). apply (oindex_some _ _ _ K). }
    unfold o_to_vector. destruct (has_lookup (oc_choices h)) eqn:Lk.
    - rewrite (Hs eq_refl), K. reflexivity.
    - destruct S as [S|S]; [congruence|]. destruct o as [v|l|l]; [rewrite (scan_plain v _ (S v eq_refl))| |]; rewrite K; reflexivity.
  Qed.

  (** the entry of a legal value decodes into that value *)
  Theorem C113_decode_partial o i : sound_value h o -> o_to_vector h o = Ok i -> exists c, o_to_value h i = Ok c /\ oeq c o = true.
  Proof.
    intros S H. assert (K : oindex o (oc_choices h) = Some i).
    { unfold o_to_vector in H. destruct (has_lookup (oc_choices h)) eqn:Lk.
      - destruct (hashable o); [|discriminate]. destruct (oindex o (oc_choices h)); [congruence|discriminate].
      - destruct S as [S|S]; [congruence|]. destruct o as [v|l|l]; [rewrite (scan_plain v _ (S v eq_refl)) in H| |]; cbn [bind] in H;
        match type of H with context [oindex ?o ?l] => destruct (oindex o l) end; congruence. }
    destruct (oindex_some _ _ _ K) as [(c & C1 & C2) _]. exists c. unfold o_to_value. rewrite C1. auto.
  Qed.

  (** pdf_values of a list of values looks up each of them *)
  Theorem C113_densities l is : different (oc_choices h) -> Forall2 (is_choice (oc_choices h)) l is -> o_to_vectors h l = Ok is.
  Proof.
    intros D F. unfold o_to_vectors. induction F as [|o i l is Hi F IH]; [reflexivity|]. cbn [mapM].
    assert (Ix := oindex_choice _ _ _ D Hi).
    assert (Q : (if has_lookup (oc_choices h) then o_to_vector h o else match oindex o (oc_choices h) with Some i => Ok i | None => Err ValueError end) = Ok i).
    { destruct (has_lookup (oc_choices h)) eqn:Lk; [|rewrite Ix; reflexivity]. unfold o_to_vector. rewrite Lk, Ix. destruct Hi as (c & C1 & C2).
      unfold has_lookup in Lk. rewrite forallb_forall in Lk. rewrite <- (oeq_hash _ _ C2), (Lk c (nth_error_In _ _ C1)). reflexivity. }
    rewrite Q. cbn [bind]. rewrite IH. reflexivity.
  Qed.
End Choices.

(** ** What the constructors accept *)
Lemma finish_inv h h' : o_finish h = Ok h' -> h' = h /\ o_legal_value h (oc_default h) = Ok true.
Proof.
  unfold o_finish. destruct (o_legal_value h (oc_default h)) as [[|]|]; cbn [bind]; try discriminate. destruct (o_to_vector h (oc_default h)); [|discriminate].
  cbn [bind]. intros H. injection H as <-. auto.
Qed.

Lemma pairs_in n i j : (i < n)%nat -> (j < n)%nat -> In (i, j) (pairs n).
Proof. intros. apply in_prod; apply in_seq; lia. Qed.

(** Full statement: accepted choices are different.  False of one object given twice beside a
    list, see [C113_twice_refuted]. *)
Theorem C113_different_partial same cs d h : mk_ocat same cs d = Ok h -> (has_lookup cs = true \/ forall i j, same i j = true -> i = j) ->
  oc_choices h = cs /\ different cs.
Proof.
  unfold mk_ocat. intros H S. destruct (contains_seq cs); [|discriminate]. cbn [bind negb] in H. destruct (repeats same cs) eqn:R; [discriminate|]. cbn [negb] in H.
  destruct (match d with Some d' => oin d' cs | None => true end); [|discriminate]. destruct cs as [|c cs']; [discriminate|].
  apply finish_inv in H. destruct H as [-> _]. split; [reflexivity|]. set (cs := c :: cs') in *. clearbody cs.
  intros i j o (a & A1 & A2) (b & B1 & B2). destruct (Nat.eq_dec i j) as [|Ne]; [assumption|]. exfalso.
  assert (Q : oeq a b = true) by (apply (oeq_trans a o b); [exact A2|rewrite oeq_sym; exact B2]).
  unfold repeats in R. rewrite <- not_true_iff_false in R. apply R. apply existsb_exists. exists (i, j).
  split; [apply pairs_in; apply nth_error_Some; congruence|]. cbn [fst snd]. rewrite A1, B1, Q, andb_true_r.
  destruct (has_lookup cs) eqn:Lk.
  - apply negb_true_iff, Nat.eqb_neq. exact Ne.
  - destruct S as [S|S]; [discriminate|]. destruct (same i j) eqn:Sm; [destruct (Ne (S i j Sm))|reflexivity].
Qed.

(** ordinal hyperparameters find every repetition *)
Theorem C113_ordinal_different s d h : mk_oord s d = Ok h -> oc_choices h = s /\ different s.
Proof.
  unfold mk_oord. intros H. destruct (contains_seq s); [|discriminate]. cbn [bind] in H.
  destruct (forallb _ (seq 0 (length s))) eqn:F; [|discriminate]. destruct s as [|c s']; [discriminate|].
  destruct (match d with Some d' => oin d' (c :: s') | None => true end); [|discriminate]. apply finish_inv in H. destruct H as [-> _].
  split; [reflexivity|]. set (s := c :: s') in *. clearbody s. rewrite forallb_forall in F.
  assert (Fst : forall i x, nth_error s i = Some x -> oindex x s = Some i).
  { intros i x Hx. assert (Li : (i < length s)%nat) by (apply nth_error_Some; congruence). specialize (F i ltac:(apply in_seq; lia)). rewrite Hx in F.
    destruct (oindex x s) as [j|]; [|discriminate]. apply Nat.eqb_eq in F. congruence. }
  assert (W : forall i j o, (i < j)%nat -> is_choice s o i -> is_choice s o j -> False).
  { intros i j o Lt (a & A1 & A2) (b & B1 & B2). destruct (oindex_some _ _ _ (Fst j b B1)) as [_ M]. specialize (M i).
    assert (j <= i)%nat; [|lia]. apply M. exists a. split; [exact A1|]. apply (oeq_trans a o b); [exact A2|rewrite oeq_sym; exact B2]. }
  intros i j o Hi Hj. destruct (Nat.lt_trichotomy i j) as [Lt|[E|Lt]]; [destruct (W i j o Lt Hi Hj)|exact E|destruct (W j i o Lt Hj Hi)].
Qed.

(** a constructed hyperparameter has a legal default, one of the choices unless it is a number *)
Theorem C113_default_partial same cs d h : mk_ocat same cs d = Ok h -> (forall v, oc_default h = OVal v -> num_of v = None) \/ has_lookup cs = true ->
  o_legal_value h (oc_default h) = Ok true /\ exists i, is_choice cs (oc_default h) i.
Proof.
  unfold mk_ocat. intros H S. destruct (contains_seq cs); [|discriminate]. cbn [bind] in H. destruct (negb (repeats same cs)); [|discriminate].
  destruct (match d with Some d' => oin d' cs | None => true end) eqn:M; [|discriminate]. destruct cs as [|c cs']; [discriminate|].
  apply finish_inv in H. destruct H as [-> Lg]. split; [exact Lg|]. cbn [oc_default]. destruct d as [d'|]; [apply oin_iff; exact M|].
  exists 0%nat, c. split; [reflexivity|apply oeq_refl].
Qed.

(** the default is the given one, or the first choice *)
Theorem C113_given_default same cs d h : mk_ocat same cs d = Ok h \/ mk_oord cs d = Ok h ->
  match d with Some d' => oc_default h = d' | None => nth_error cs 0 = Some (oc_default h) end.
Proof.
  intros [H|H]; [unfold mk_ocat in H|unfold mk_oord in H].
  - destruct (contains_seq cs); [|discriminate]. cbn [bind] in H. destruct (negb (repeats same cs)); [|discriminate].
    destruct (match d with Some d' => oin d' cs | None => true end) eqn:M; [|discriminate]. destruct cs as [|c cs']; [discriminate|].
    apply finish_inv in H. destruct H as [-> _]. destruct d; reflexivity.
  - destruct (contains_seq cs); [|discriminate]. cbn [bind] in H. destruct (forallb _ (seq 0 (length cs))); [|discriminate]. destruct cs as [|c cs']; [discriminate|].
    destruct (match d with Some d' => oin d' (c :: cs') | None => true end); [|discriminate]. apply finish_inv in H. destruct H as [-> _]. destruct d; reflexivity.
Qed.

(** ** Constants *)
Theorem C113_constant_partial w : is_seq w = true -> const_legal w w = Ok (One true) /\
  (forall o, is_seq o = true -> const_legal w o = Ok (One (oeq o w))) /\
  (forall v, num_of v = None -> const_legal w (OVal v) = Ok (One false)).
Proof.
  intros S. assert (G : forall o, is_seq o = true -> const_legal w o = Ok (One (oeq o w))) by (intros o So; destruct w, o; try discriminate; reflexivity).
  split; [rewrite (G w S), oeq_refl; reflexivity|]. split; [exact G|]. intros v N. destruct w; try discriminate; simpl; rewrite N; reflexivity.
Qed.

(** ** C115 *)
Fixpoint no_tuple (o : obj) : bool :=
  match o with OVal _ => true | OTup _ => false | OList l => forallb no_tuple l end.
Lemma json_id o : no_tuple o = true -> json_obj o = o.
Proof.
  induction o as [v|l IH|l IH] using obj_ind'; intros H; try reflexivity; [discriminate|]. simpl in *. f_equal.
  induction IH as [|x l Hx _ IHl]; [reflexivity|]. simpl in *. apply andb_true_iff in H. rewrite (Hx (proj1 H)), (IHl (proj2 H)). reflexivity.
Qed.

(** Full statement: for every hyperparameter.  False of tuples, see [C115_refuted], [C115_error_refuted]. *)
Theorem C115_partial same same' cs d h : mk_ocat same cs d = Ok h -> forallb no_tuple cs = true -> no_tuple (oc_default h) = true ->
  different cs -> (forall i, same' i i = true) ->
  json_ocat same' h = Ok h.
Proof.
  intros H N Nd D Rf. assert (Hc : oc_choices h = cs /\ contains_seq cs = true /\ oin (oc_default h) cs = true /\ o_finish h = Ok h).
  { unfold mk_ocat in H. destruct (contains_seq cs); [|discriminate]. cbn [bind] in H. destruct (negb (repeats same cs)); [|discriminate].
    destruct (match d with Some d' => oin d' cs | None => true end) eqn:M; [|discriminate]. destruct cs as [|c cs']; [discriminate|].
    assert (H' := H). apply finish_inv in H. destruct H as [-> _]. split; [reflexivity|]. split; [reflexivity|]. split; [|exact H'].
    cbn [oc_default]. destruct d; [exact M|]. simpl. rewrite oeq_refl. reflexivity. }
  destruct Hc as (Hc & Cs & Di & Fi). unfold json_ocat, mk_ocat. rewrite Hc.
  assert (Mp : map json_obj cs = cs).
  { clear -N. induction cs as [|c cs IH]; [reflexivity|]. simpl in *. apply andb_true_iff in N. rewrite (json_id c (proj1 N)), (IH (proj2 N)). reflexivity. }
  rewrite Mp, (json_id _ Nd), Cs, Di. cbn [bind].
  assert (R : repeats same' cs = false).
  { apply not_true_iff_false. intros R. unfold repeats in R. apply existsb_exists in R. destruct R as ((i & j) & _ & R). cbn [fst snd] in R.
    destruct (nth_error cs i) as [a|] eqn:A; [|discriminate]. destruct (nth_error cs j) as [b|] eqn:B; [|discriminate].
    apply andb_true_iff in R. destruct R as [R1 R2]. assert (i = j).
    { apply (D i j b); [exists a; auto|exists b; split; [exact B|apply oeq_refl]]. }
    subst j. rewrite Nat.eqb_refl, Rf in R1. destruct (has_lookup cs); discriminate. }
  rewrite R. cbn [negb]. destruct cs as [|c cs']; [discriminate|]. rewrite <- Hc. destruct h as [hc hd]. exact Fi.
Qed.

(** ** C114 *)
Definition is_float (h : hp) : Prop := match hp_kind h with KFloat _ _ _ _ => True | _ => False end.
Section ListValues.
  Context {E : Env}.
  Variable T : text.

  (** Full statement: no list is accepted.  False of lists of one legal value, see [C114_refuted]. *)
  Theorem C114_partial h l : length l <> 1%nat -> exists e, set_list T h l = Err e /\ (e = ValueError \/ e = IllegalValueError).
  Proof.
    intros N. unfold set_list. assert (Ln : length (legal_values T h l) = length l) by (unfold legal_values, asarray; rewrite !map_length; reflexivity).
    destruct (legal_values T h l) as [|b [|b' m]]; simpl in Ln; [|lia|]; simpl; eexists; split; try reflexivity; auto.
  Qed.
  Context {L : EnvLaws E}.
  (** the lists that are accepted, and what becomes of them; a float hyperparameter keeps the number *)
  Theorem C114_exact h l : constructed h ->
    ((exists r, set_list T h l = Ok r) <-> exists v, l = [v] /\ legal_value h v = true /\ (numeric h -> forall b, v <> VBool b)).
  Proof.
    intros C. split.
    - intros (r & H). destruct l as [|v [|v' l]].
      + discriminate.
      + exists v. split; [reflexivity|]. unfold set_list in H. unfold legal_values, asarray in H. cbn [map truth bind] in H.
        destruct (legal_elem h (dtype_of [v]) (cast T (dtype_of [v]) v)) eqn:Le; [|discriminate]. clear H.
        assert (Nb : numeric h -> forall b, v <> VBool b).
        { intros N b ->. unfold numeric in N. unfold legal_elem in Le. simpl in Le. destruct (hp_kind h); try contradiction; discriminate. }
        split; [|exact Nb]. assert (Q : [legal_elem h (dtype_of [v]) (cast T (dtype_of [v]) v)] = map (legal_value h) [v]).
        { change (legal_values T h [v] = map (legal_value h) [v]). apply C95_legal_partial; [apply not_mixed_one|].
          intros N (_ & B). destruct (B v (or_introl eq_refl)) as (b & Eb). exact (Nb N b Eb). }
        injection Q as Q. congruence.
      + destruct (C114_partial h (v :: v' :: l)) as (e & He & _); [simpl; lia|]. congruence.
    - intros (v & -> & Lv & Nb). unfold set_list. rewrite C95_legal_partial; [|apply not_mixed_one|intros N (_ & B); destruct (B v (or_introl eq_refl)) as (b & Eb); exact (Nb N b Eb)].
      cbn [map truth bind]. rewrite Lv. assert (V : to_vectors T h [v] = mapM (to_vector h) [v]).
      { apply C95_vector_partial; [apply not_mixed_one|]. intros N s [->|[]]. unfold numeric in N. unfold legal_value in Lv. simpl in Lv. destruct (hp_kind h); try contradiction; discriminate. }
      destruct (legal_finite h v C Lv) as (q & Q). rewrite V. cbn [mapM]. rewrite Q. cbn [bind].
      destruct (hp_kind h) eqn:K; try (eexists; reflexivity). unfold legal_value in Lv. rewrite K in Lv. destruct (num_of v) as [x|] eqn:N; [|discriminate].
      unfold to_vector. rewrite K. simpl. eexists. reflexivity.
  Qed.
  (** an accepted list has the entry of its element, which is kept as a list *)
  Theorem C114_entry h v s x : constructed h -> ~ is_float h -> set_list T h [v] = Ok (s, x) -> s = SList [v] /\ to_vector h v = Ok x.
  Proof.
    intros C Nf H. destruct (proj1 (C114_exact h [v] C) (ex_intro _ _ H)) as (v' & E' & Lv & Nb). injection E' as <-.
    unfold set_list in H. destruct (truth _) as [b|]; [|discriminate]. cbn [bind] in H. destruct b; [|discriminate].
    rewrite C95_vector_partial in H; [|apply not_mixed_one|]; cycle 1.
    { intros N t [->|[]]. unfold numeric in N. unfold legal_value in Lv. simpl in Lv. destruct (hp_kind h); try contradiction; discriminate. }
    unfold is_float in Nf. destruct (hp_kind h) eqn:K; try contradiction; cbn [mapM] in H; destruct (to_vector h v); try discriminate; cbn [bind] in H; injection H as <- <-; auto.
  Qed.
End ListValues.

(** ** Cases *)
Definition on (z : Z) : obj := OVal (VInt z).
Definition never (i j : nat) : bool := Nat.eqb i j.
Definition tup12 := OTup [on 1; on 2].
Definition list12 := OList [on 1; on 2].

Lemma differ cs d h : mk_ocat never cs d = Ok h -> different (oc_choices h).
Proof.
  intros H. destruct (C113_different_partial never cs d h H) as [-> D]; [|exact D]. right. intros i j. apply Nat.eqb_eq.
Qed.

(** beside a list of two numbers, the choice 5 is not legal but raises ... *)
Theorem C113_number_refuted : exists h, mk_ocat never [list12; on 5] None = Ok h /\ different (oc_choices h) /\
  o_legal_value h (on 5) = Err ValueError /\ o_to_vector h (on 5) = Err ValueError /\
  (** ... so that it cannot be the default *)
  mk_ocat never [list12; on 5] (Some (on 5)) = Err ValueError.
Proof.
  eexists. split; [vm_compute; reflexivity|]. split; [|vm_compute; auto].
  apply (differ [list12; on 5] None). vm_compute. reflexivity.
Qed.
(** beside the list [5], the choice 5 is taken for that list *)
Theorem C113_wrong_refuted : exists h, mk_ocat never [OList [on 5]; on 5] None = Ok h /\ different (oc_choices h) /\
  nth_error (oc_choices h) 1 = Some (on 5) /\ o_to_vector h (on 5) = Ok 0%nat /\ o_to_value h 0 = Ok (OList [on 5]).
Proof.
  eexists. split; [vm_compute; reflexivity|]. split; [|vm_compute; auto].
  apply (differ [OList [on 5]; on 5] None). vm_compute. reflexivity.
Qed.
(** ... so that the number 7, which is no choice, is legal if the list [7] is one *)
Theorem C113_illegal_refuted : exists h, mk_ocat never [OList [on 7]; on 5] None = Ok h /\ oin (on 7) (oc_choices h) = false /\ o_legal_value h (on 7) = Ok true.
Proof. eexists. split; [vm_compute; reflexivity|]. vm_compute. auto. Qed.
(** one object given twice beside a list *)
Theorem C113_twice_refuted : exists same h, (forall i, same i i = true) /\ mk_ocat same [OList [on 1]; OVal (VStr "a"); OVal (VStr "a")] None = Ok h /\ ~ different (oc_choices h).
Proof.
  exists (fun i j => Nat.eqb i j || (Nat.leb 1 i && Nat.leb 1 j)). eexists. split; [intros i; rewrite Nat.eqb_refl; reflexivity|]. split; [vm_compute; reflexivity|].
  intros D. assert (X : (1 = 2)%nat); [|discriminate]. apply (D 1%nat 2%nat (OVal (VStr "a"))); eexists; split; reflexivity.
Qed.
(** if all choices are hashable, asking for a list raises *)
Theorem C113_legal_refuted : exists h, mk_ocat never [tup12; on 5] None = Ok h /\ o_legal_value h list12 = Err TypeError /\ oin list12 (oc_choices h) = false.
Proof. eexists. split; [vm_compute; reflexivity|]. vm_compute. auto. Qed.
(** a list of choices is one value, not several (C95) *)
Theorem C113_list_refuted : exists h, mk_ocat never [tup12; on 5] None = Ok h /\ o_to_vectors h [tup12; on 5] = Ok [0%nat; 1%nat] /\
  o_to_vector h (OTup [tup12; on 5]) = Err KeyError /\ o_legal_value h (OTup [tup12; on 5]) = Ok false.
Proof. eexists. split; [vm_compute; reflexivity|]. vm_compute. auto. Qed.
(** a number is compared with each element of a constant that is a tuple; the answer has no truth *)
Theorem C113_constant_refuted : const_legal tup12 (on 1) = Ok (Mask [true; false]) /\ truth (Mask [true; false]) = Err ValueError /\
  const_legal (OTup [on 1]) (on 1) = Ok (Mask [true]) /\ truth (Mask [true]) = Ok true.
Proof. vm_compute. auto. Qed.

Example C113_ex : exists h, mk_ocat never [tup12; OTup [tup12; OVal (VStr "a")]; OVal (VStr "b"); on 5] (Some (on 5)) = Ok h /\ different (oc_choices h) /\
  sound_value h (on 5) /\ o_to_vector h (OTup [tup12; OVal (VStr "a")]) = Ok 1%nat /\ o_legal_value h (on 6) = Ok false /\ o_to_vector h (on 6) = Err KeyError.
Proof.
  eexists. split; [vm_compute; reflexivity|]. split; [|split; [left; reflexivity|vm_compute; auto]].
  apply (differ [tup12; OTup [tup12; OVal (VStr "a")]; OVal (VStr "b"); on 5] (Some (on 5))). vm_compute. reflexivity.
Qed.
(** lists and strings *)
Example C113_lists_ex : exists h, mk_ocat never [list12; OVal (VStr "b"); OList []] None = Ok h /\ sound_value h list12 /\ sound_value h (OVal (VStr "c")) /\
  o_to_vector h (OList []) = Ok 2%nat /\ o_to_vector h (OVal (VStr "c")) = Err ValueError.
Proof.
  eexists. split; [vm_compute; reflexivity|]. split; [right; intros v H; discriminate|]. split; [right; intros v H; injection H as <-; reflexivity|]. vm_compute. auto.
Qed.
Example C113_ordinal_ex : exists h, mk_oord [OTup [on 1]; tup12] (Some tup12) = Ok h /\ mk_oord [tup12; tup12] None = Err ValueError.
Proof. eexists. vm_compute. auto. Qed.

(** tuples come back from JSON as lists: the old choices are not legal, the hyperparameters differ *)
Theorem C115_refuted : exists h h', mk_ocat never [tup12; OTup [on 3; on 4]] None = Ok h /\ json_ocat never h = Ok h' /\
  o_legal_value h tup12 = Ok true /\ o_legal_value h' tup12 = Ok false /\ ocat_eqb h h' = false.
Proof. do 2 eexists. split; [vm_compute; reflexivity|]. split; [vm_compute; reflexivity|]. vm_compute. auto. Qed.
(** ... and a tuple and a list of the same numbers cannot be told apart: reading raises *)
Theorem C115_error_refuted : exists h, mk_ocat never [tup12; list12] None = Ok h /\ json_ocat never h = Err ValueError.
Proof. eexists. split; vm_compute; reflexivity. Qed.
Example C115_ex : exists h, mk_ocat never [list12; OVal (VStr "b")] None = Ok h /\ forallb no_tuple [list12; OVal (VStr "b")] = true /\ no_tuple (oc_default h) = true /\
  json_ocat never h = Ok h.
Proof. eexists. split; [vm_compute; reflexivity|]. vm_compute. auto. Qed.

Section ListCases.
  #[local] Existing Instance rat_env.
  (** the list ["y"] is accepted as the value of a categorical hyperparameter and kept as it is, [4] for an integer *)
  Theorem C114_refuted : exists h x g y, constructed h /\ set_list dec_text h [VStr "y"] = Ok (SList [VStr "y"], x) /\ fsame x (Fin 1) /\
    constructed g /\ set_list dec_text g [VInt 4] = Ok (SList [VInt 4], y) /\ fsame y (Fin (1#3)).
  Proof.
    exists hA. eexists. exists hK. eexists. split; [apply hA_c|]. split; [vm_compute; reflexivity|]. split; [reflexivity|]. split; [apply hK_c|].
    split; [vm_compute; reflexivity|]. reflexivity.
  Qed.
  Example C114_ex : constructed hK /\ set_list dec_text hK [VInt 4; VInt 5] = Err ValueError /\ set_list dec_text hK [] = Err IllegalValueError /\
    set_list dec_text hK [VInt 11] = Err IllegalValueError.
  Proof. split; [apply hK_c|]. vm_compute. auto. Qed.
End ListCases.
