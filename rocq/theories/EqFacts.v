(** * Equality of hyperparameters, conditions and forbidden clauses *)
From Coq Require Import String List ZArith QArith Bool Lia.
From Verif Require Import Base ListFacts Numeric HP HPProofs Cond Forb.
Import ListNotations.
Open Scope nat_scope.

Lemma Qeq_bool_refl' q : Qeq_bool q q = true.
Proof. apply Qeq_bool_iff. reflexivity. Qed.
Lemma Qeq_bool_trans' a b c : Qeq_bool a b = true -> Qeq_bool b c = true -> Qeq_bool a c = true.
Proof. rewrite !Qeq_bool_iff. intros -> ->. reflexivity. Qed.

Lemma list_eqb_refl {A} (f : A -> A -> bool) l : (forall x, In x l -> f x x = true) -> list_eqb f l l = true.
Proof.
  induction l as [|x l IH]; simpl; intros H; [reflexivity|]. rewrite H by auto. simpl. auto.
Qed.
Lemma list_eqb_sym {A} (f : A -> A -> bool) l : forall m,
  (forall x y, f x y = f y x) -> list_eqb f l m = list_eqb f m l.
Proof.
  induction l as [|x l IH]; intros [|y m] H; simpl; try reflexivity. rewrite (H x y), IH; auto.
Qed.
Lemma list_eqb_trans {A} (f : A -> A -> bool) l : forall m k,
  (forall x y z, f x y = true -> f y z = true -> f x z = true) ->
  list_eqb f l m = true -> list_eqb f m k = true -> list_eqb f l k = true.
Proof.
  induction l as [|x l IH]; intros [|y m] [|z k] H; simpl; try discriminate; try reflexivity.
  rewrite !andb_true_iff. intros [H1 H2] [H3 H4]. split; eauto.
Qed.
Lemma list_eqb_Forall2 {A} (f : A -> A -> bool) l m :
  list_eqb f l m = true <-> Forall2 (fun x y => f x y = true) l m.
Proof.
  revert m. induction l as [|x l IH]; intros [|y m]; simpl; split; intros H; try discriminate;
    try constructor; try (inversion H; fail); try reflexivity.
  - apply andb_true_iff in H. apply H.
  - apply andb_true_iff in H. apply IH, H.
  - inversion H; subst. apply andb_true_iff. split; [assumption|]. apply IH. assumption.
Qed.

Lemma opt_eqb_refl {A} (f : A -> A -> bool) x : (forall a, f a a = true) -> opt_eqb f x x = true.
Proof. intros H. destruct x; simpl; auto. Qed.
Lemma opt_eqb_sym {A} (f : A -> A -> bool) x y : (forall a b, f a b = f b a) -> opt_eqb f x y = opt_eqb f y x.
Proof. intros H. destruct x, y; simpl; auto. Qed.
Lemma opt_eqb_trans {A} (f : A -> A -> bool) x y z :
  (forall a b c, f a b = true -> f b c = true -> f a c = true) ->
  opt_eqb f x y = true -> opt_eqb f y z = true -> opt_eqb f x z = true.
Proof. intros H. destruct x, y, z; simpl; eauto; discriminate. Qed.

Lemma str_eqb_trans a b c : String.eqb a b = true -> String.eqb b c = true -> String.eqb a c = true.
Proof. rewrite !String.eqb_eq. congruence. Qed.

Lemma dist_eqb_refl d : dist_eqb d d = true.
Proof. destruct d; simpl; rewrite ?Qeq_bool_refl'; reflexivity. Qed.
Lemma dist_eqb_sym d e : dist_eqb d e = dist_eqb e d.
Proof. destruct d, e; simpl; try reflexivity; rewrite (Qeq_bool_comm' mu), (Qeq_bool_comm' sigma) ||
  rewrite (Qeq_bool_comm' alpha), (Qeq_bool_comm' beta); reflexivity. Qed.
Lemma dist_eqb_trans d e g : dist_eqb d e = true -> dist_eqb e g = true -> dist_eqb d g = true.
Proof.
  destruct d, e, g; simpl; try discriminate; try reflexivity; rewrite !andb_true_iff; intros [] [];
  split; eapply Qeq_bool_trans'; eauto.
Qed.

(** ** Categorical equality *)
Section Cat.
  (** the choices with their probabilities, for well-formed parameters *)
  Definition cat_wf (c : list value) (w : option (list Q)) : Prop :=
    has_dup c = false /\ match w with None => True | Some w => length w = length c end.

  Lemma probabilities_length c w : cat_wf c w -> length (probabilities c w) = length c.
  Proof. intros [_ H]. destruct w; simpl; rewrite map_length; auto. Qed.

  (** what cat_eqb says, position by position *)
  Lemma cat_eqb_iff c w c' w' : cat_wf c w -> cat_wf c' w' ->
    (cat_eqb c w c' w' = true <->
     length c = length c' /\
     forall i v, nth_error c i = Some v ->
       exists j, py_index v c' = Some j /\
         (nth i (probabilities c w) 0 == nth j (probabilities c' w') 0)%Q).
  Proof.
    intros W W'. unfold cat_eqb. rewrite andb_true_iff, Nat.eqb_eq, forallb_forall.
    assert (L := probabilities_length _ _ W). assert (L' := probabilities_length _ _ W').
    split; intros [Hl H]; (split; [exact Hl|]).
    - intros i v Hi.
      assert (Hlt : i < length c) by (apply nth_error_Some; congruence).
      specialize (H (nth i (combine c (probabilities c w)) (VNone, 0%Q))).
      rewrite combine_nth in H by (symmetry; exact L). simpl in H.
      assert (Hin : In (nth i c VNone, nth i (probabilities c w) 0%Q) (combine c (probabilities c w))).
      { rewrite <- (combine_nth _ _ _ VNone 0%Q) by (symmetry; exact L).
        apply nth_In. rewrite combine_length, L, Nat.min_id. exact Hlt. }
      specialize (H Hin). rewrite (nth_error_nth _ _ VNone Hi) in H.
      destruct (py_index v c') as [j|] eqn:E; [|discriminate]. exists j. split; [reflexivity|].
      apply Qeq_bool_iff in H. rewrite H. apply py_index_lt in E.
      rewrite (nth_indep _ _ 0%Q) by (rewrite L'; exact E). reflexivity.
    - intros [v p] Hin. destruct (In_nth _ _ (VNone, 0%Q) Hin) as (i & Hi & Hn).
      rewrite combine_length, L, Nat.min_id in Hi. rewrite combine_nth in Hn by (symmetry; exact L).
      injection Hn as <- <-. simpl.
      destruct (H i (nth i c VNone)) as (j & Hj & Hq); [apply nth_error_nth'; exact Hi|].
      rewrite Hj. apply Qeq_bool_iff. rewrite Hq. apply py_index_lt in Hj.
      rewrite (nth_indep _ (-1)%Q 0%Q); [reflexivity|]. rewrite L'. exact Hj.
  Qed.

  Lemma cat_eqb_refl c w : cat_wf c w -> cat_eqb c w c w = true.
  Proof.
    intros W. apply cat_eqb_iff; [exact W|exact W|]. split; [reflexivity|].
    intros i v Hi. exists i. split; [|reflexivity]. apply py_index_nth; [apply W|exact Hi].
  Qed.

  Lemma cat_eqb_sym_imp c w c' w' : cat_wf c w -> cat_wf c' w' ->
    cat_eqb c w c' w' = true -> cat_eqb c' w' c w = true.
  Proof.
    intros W W' H. apply cat_eqb_iff in H; [|exact W|exact W']. destruct H as [Hl H].
    apply cat_eqb_iff; [exact W'|exact W|]. split; [symmetry; exact Hl|].
    set (f := fun i => match py_index (nth i c VNone) c' with Some j => j | None => 0 end).
    assert (Hf : forall i, i < length c -> py_index (nth i c VNone) c' = Some (f i)).
    { intros i Hi. destruct (H i (nth i c VNone)) as (j & Hj & _); [apply nth_error_nth'; exact Hi|].
      unfold f. rewrite Hj. reflexivity. }
    assert (Hinj : NoDup (map f (seq 0 (length c)))).
    { apply (proj2 (NoDup_nth _ 0)). rewrite map_length, seq_length. intros i j Hi Hj.
      assert (E : forall k, k < length c -> nth k (map f (seq 0 (length c))) 0 = f k).
      { intros k Hk. rewrite (nth_indep _ 0 (f 0)) by (rewrite map_length, seq_length; exact Hk).
        rewrite map_nth, seq_nth by exact Hk. reflexivity. }
      rewrite !E by assumption. intros Hij.
      pose proof (Hf i Hi) as Hi'. pose proof (Hf j Hj) as Hj'. rewrite Hij in Hi'.
      apply py_index_some in Hi', Hj'. destruct Hi' as (vi & Hvi & Hvi' & _). destruct Hj' as (vj & Hvj & Hvj' & _).
      rewrite Hvi in Hvj. injection Hvj as ->.
      eapply (has_dup_nth c i j); [apply W|apply nth_error_nth'; exact Hi|apply nth_error_nth'; exact Hj|].
      eapply py_eqb_trans; [rewrite py_eqb_sym; exact Hvi'|exact Hvj']. }
    assert (Hsurj : incl (seq 0 (length c)) (map f (seq 0 (length c)))).
    { apply NoDup_length_incl; [exact Hinj|rewrite map_length; lia|].
      intros j Hj. apply in_map_iff in Hj. destruct Hj as (i & <- & Hi). apply in_seq in Hi.
      apply in_seq. split; [lia|]. simpl. rewrite Hl. eapply py_index_lt. apply Hf. lia. }
    intros j v Hj.
    assert (Hjl : j < length c) by (rewrite Hl; apply nth_error_Some; congruence).
    assert (Hin : In j (map f (seq 0 (length c)))) by (apply Hsurj, in_seq; lia).
    apply in_map_iff in Hin. destruct Hin as (i & Hij & Hi). apply in_seq in Hi.
    assert (Hil : i < length c) by lia. clear Hi.
    pose proof (Hf i Hil) as Hfi. rewrite Hij in Hfi.
    destruct (H i (nth i c VNone)) as (j' & Hj' & Hq); [apply nth_error_nth'; exact Hil|].
    rewrite Hfi in Hj'. injection Hj' as <-.
    exists i. split; [|symmetry; exact Hq].
    apply py_index_some in Hfi. destruct Hfi as (v' & Hv' & He & _). rewrite Hj in Hv'. injection Hv' as <-.
    rewrite (py_index_congr v (nth i c VNone)) by exact He.
    apply py_index_nth; [apply W|apply nth_error_nth'; exact Hil].
  Qed.

  Lemma cat_eqb_trans c w c' w' c'' w'' : cat_wf c w -> cat_wf c' w' -> cat_wf c'' w'' ->
    cat_eqb c w c' w' = true -> cat_eqb c' w' c'' w'' = true -> cat_eqb c w c'' w'' = true.
  Proof.
    intros W W' W'' H H'. apply cat_eqb_iff in H; [|assumption|assumption].
    apply cat_eqb_iff in H'; [|assumption|assumption]. destruct H as [L H]. destruct H' as [L' H'].
    apply cat_eqb_iff; [assumption|assumption|]. split; [congruence|].
    intros i v Hi. destruct (H i v Hi) as (j & Hj & Hq).
    pose proof Hj as Hj2. apply py_index_some in Hj2. destruct Hj2 as (v' & Hv' & He & _).
    destruct (H' j v' Hv') as (k & Hk & Hq'). exists k. split.
    - rewrite <- (py_index_congr v' v) by exact He. exact Hk.
    - rewrite Hq. exact Hq'.
  Qed.
End Cat.

Section HpEq.
  Context {E : Env}.

  Lemma wf_cat h c w : wf_hp h -> hp_kind h = KCat c w -> cat_wf c w.
  Proof.
    unfold wf_hp. intros W K. rewrite K in W. destruct W as (_ & D & _ & Hw). split; [exact D|].
    destruct w; [apply Hw|exact I].
  Qed.

  Lemma meta_refl h : opt_eqb String.eqb (hp_meta h) (hp_meta h) = true.
  Proof. apply opt_eqb_refl, String.eqb_refl. Qed.

  Lemma hp_eqb_refl h : wf_hp h -> hp_eqb h h = true.
  Proof.
    intros W. unfold hp_eqb. rewrite String.eqb_refl, py_eqb_refl. simpl.
    destruct (hp_kind h) eqn:K.
    - apply cat_eqb_refl. eapply wf_cat; eauto.
    - rewrite list_eqb_refl by (intros; apply py_eqb_refl). apply meta_refl.
    - rewrite py_eqb_refl. apply meta_refl.
    - rewrite !Z.eqb_refl, eqb_reflx, dist_eqb_refl. apply meta_refl.
    - rewrite !Qeq_bool_refl', eqb_reflx, dist_eqb_refl. apply meta_refl.
  Qed.

  Lemma cat_eqb_sym c w c' w' : cat_wf c w -> cat_wf c' w' -> cat_eqb c w c' w' = cat_eqb c' w' c w.
  Proof.
    intros W W'. apply eq_true_iff_eq. split; apply cat_eqb_sym_imp; assumption.
  Qed.

  Lemma hp_eqb_sym h k : wf_hp h -> wf_hp k -> hp_eqb h k = hp_eqb k h.
  Proof.
    intros W W'. unfold hp_eqb. rewrite (String.eqb_sym (hp_name h)), (py_eqb_sym (hp_default h)).
    rewrite (opt_eqb_sym _ (hp_meta h)) by apply String.eqb_sym.
    apply (f_equal2 andb); [reflexivity|].
    destruct (hp_kind h) eqn:K, (hp_kind k) eqn:K'; try reflexivity.
    - apply cat_eqb_sym; (eapply wf_cat; [|eassumption]; assumption).
    - rewrite list_eqb_sym by apply py_eqb_sym. reflexivity.
    - rewrite py_eqb_sym. reflexivity.
    - rewrite (Z.eqb_sym lower), (Z.eqb_sym upper), (dist_eqb_sym d).
      destruct log, log0; reflexivity.
    - rewrite (Qeq_bool_comm' lower), (Qeq_bool_comm' upper), (dist_eqb_sym d).
      destruct log, log0; reflexivity.
  Qed.

  Lemma bool_eqb_trans a b c : Bool.eqb a b = true -> Bool.eqb b c = true -> Bool.eqb a c = true.
  Proof. destruct a, b, c; simpl; auto. Qed.
  Lemma Zeqb_trans a b c : Z.eqb a b = true -> Z.eqb b c = true -> Z.eqb a c = true.
  Proof. rewrite !Z.eqb_eq. congruence. Qed.

  Lemma hp_eqb_trans h k l : wf_hp h -> wf_hp k -> wf_hp l ->
    hp_eqb h k = true -> hp_eqb k l = true -> hp_eqb h l = true.
  Proof.
    intros W1 W2 W3. unfold hp_eqb. rewrite !andb_true_iff. intros [[A1 A2] A3] [[B1 B2] B3].
    split; [split|].
    - eapply str_eqb_trans; eauto.
    - eapply py_eqb_trans; eauto.
    - destruct (hp_kind h) eqn:K1, (hp_kind k) eqn:K2; try discriminate A3;
      destruct (hp_kind l) eqn:K3; try discriminate B3.
      + eapply cat_eqb_trans; [| | |exact A3|exact B3]; (eapply wf_cat; [|eassumption]; assumption).
      + rewrite andb_true_iff in *. destruct A3, B3. split.
        * eapply list_eqb_trans; eauto using py_eqb_trans.
        * eapply opt_eqb_trans; eauto using str_eqb_trans.
      + rewrite andb_true_iff in *. destruct A3, B3. split.
        * eapply py_eqb_trans; eauto.
        * eapply opt_eqb_trans; eauto using str_eqb_trans.
      + rewrite !andb_true_iff in *. decompose [and] A3. decompose [and] B3.
        repeat split; eauto using Zeqb_trans, bool_eqb_trans, dist_eqb_trans.
        eapply opt_eqb_trans; eauto using str_eqb_trans.
      + rewrite !andb_true_iff in *. decompose [and] A3. decompose [and] B3.
        repeat split; eauto using Qeq_bool_trans', bool_eqb_trans, dist_eqb_trans.
        eapply opt_eqb_trans; eauto using str_eqb_trans.
  Qed.

  Lemma hp_eqb_name h k : hp_eqb h k = true -> hp_name h = hp_name k.
  Proof. unfold hp_eqb. rewrite !andb_true_iff. intros [[H _] _]. apply String.eqb_eq. exact H. Qed.

  (** ** Conditions *)
  Definition lit_wf (l : lit) : Prop := wf_hp (l_child l) /\ wf_hp (l_parent l).
  Definition cond_wf (c : cond) : Prop := Forall lit_wf (dlcs c).

  Lemma cond_wf_in c cs : Forall lit_wf (concat (map dlcs cs)) -> In c cs -> cond_wf c.
  Proof.
    intros H Hc. unfold cond_wf. rewrite Forall_forall in *. intros l Hl. apply H.
    apply in_concat. exists (dlcs c). split; [apply in_map; exact Hc|exact Hl].
  Qed.

  Lemma cond_wf_lit l : cond_wf (CLit l) -> lit_wf l.
  Proof. intros H. inversion H. assumption. Qed.

  Lemma test_eqb_refl t : test_eqb t t = true.
  Proof.
    destruct t; simpl.
    - rewrite py_eqb_refl. destruct o; reflexivity.
    - apply list_eqb_refl. intros. apply py_eqb_refl.
  Qed.
  Lemma test_eqb_sym s t : test_eqb s t = test_eqb t s.
  Proof.
    destruct s, t; simpl; try reflexivity.
    - rewrite py_eqb_sym. destruct o, o0; reflexivity.
    - apply list_eqb_sym, py_eqb_sym.
  Qed.
  Lemma test_eqb_trans s t u : test_eqb s t = true -> test_eqb t u = true -> test_eqb s u = true.
  Proof.
    destruct s, t, u; simpl; try discriminate.
    - rewrite !andb_true_iff. intros [A B] [C D]. split; [destruct o, o0, o1; auto|eapply py_eqb_trans; eauto].
    - intros A B. eapply list_eqb_trans; eauto using py_eqb_trans.
  Qed.

  Lemma lit_eqb_refl l : lit_wf l -> lit_eqb l l = true.
  Proof. intros [A B]. unfold lit_eqb. rewrite !hp_eqb_refl, test_eqb_refl by assumption. reflexivity. Qed.
  Lemma lit_eqb_sym a b : lit_wf a -> lit_wf b -> lit_eqb a b = lit_eqb b a.
  Proof.
    intros [A B] [C D]. unfold lit_eqb.
    rewrite (hp_eqb_sym (l_child a)), (hp_eqb_sym (l_parent a)), test_eqb_sym by assumption. reflexivity.
  Qed.
  Lemma lit_eqb_trans a b c : lit_wf a -> lit_wf b -> lit_wf c ->
    lit_eqb a b = true -> lit_eqb b c = true -> lit_eqb a c = true.
  Proof.
    intros [A1 A2] [B1 B2] [C1 C2]. unfold lit_eqb. rewrite !andb_true_iff. intros [[H1 H2] H3] [[G1 G2] G3].
    split; [split|].
    - apply (hp_eqb_trans _ (l_child b)); assumption.
    - apply (hp_eqb_trans _ (l_parent b)); assumption.
    - eapply test_eqb_trans; eauto.
  Qed.

  (** equality of two lists of components: same length and each occurs in the other *)
  Definition comps_eqb {A} (f : A -> A -> bool) (cs ds : list A) : bool :=
    (Nat.eqb (length cs) (length ds)
     && forallb (fun c => existsb (fun d => f c d) ds) cs
     && forallb (fun d => existsb (fun c => f c d) cs) ds)%bool.

  Lemma comps_eqb_refl {A} (f : A -> A -> bool) cs :
    (forall c, In c cs -> f c c = true) -> comps_eqb f cs cs = true.
  Proof.
    intros H. unfold comps_eqb. rewrite Nat.eqb_refl, !andb_true_iff, !forallb_forall.
    split; [split; [reflexivity|]|]; intros c Hc; apply existsb_exists; exists c; auto.
  Qed.
  Lemma comps_eqb_sym {A} (f : A -> A -> bool) cs ds :
    (forall c d, In c cs -> In d ds -> f c d = f d c) -> comps_eqb f cs ds = comps_eqb f ds cs.
  Proof.
    intros H. unfold comps_eqb. rewrite (Nat.eqb_sym (length cs)), <- !andb_assoc. f_equal.
    rewrite andb_comm. f_equal; apply forallb_ext_in; intros x Hx; apply existsb_ext_in; intros y Hy; auto.
  Qed.
  Lemma comps_eqb_trans {A} (f : A -> A -> bool) cs ds es :
    (forall c d e, In c cs -> In d ds -> In e es -> f c d = true -> f d e = true -> f c e = true) ->
    comps_eqb f cs ds = true -> comps_eqb f ds es = true -> comps_eqb f cs es = true.
  Proof.
    intros H. unfold comps_eqb. rewrite !andb_true_iff, !Nat.eqb_eq, !forallb_forall.
    intros [[L1 A1] A2] [[L2 B1] B2]. split; [split|]; [congruence| |].
    - intros c Hc. specialize (A1 c Hc). apply existsb_exists in A1. destruct A1 as (d & Hd & Hcd).
      specialize (B1 d Hd). apply existsb_exists in B1. destruct B1 as (e & He & Hde).
      apply existsb_exists. exists e. eauto.
    - intros e He. specialize (B2 e He). apply existsb_exists in B2. destruct B2 as (d & Hd & Hde).
      specialize (A2 d Hd). apply existsb_exists in A2. destruct A2 as (c & Hc & Hcd).
      apply existsb_exists. exists c. eauto.
  Qed.

  Lemma cond_eqb_and cs ds : cond_eqb (CAnd cs) (CAnd ds) = comps_eqb cond_eqb cs ds.
  Proof. reflexivity. Qed.
  Lemma cond_eqb_or cs ds : cond_eqb (COr cs) (COr ds) = comps_eqb cond_eqb cs ds.
  Proof. reflexivity. Qed.

  Lemma cond_eqb_refl c : cond_wf c -> cond_eqb c c = true.
  Proof.
    induction c as [l|cs IH|cs IH] using cond_ind'; intros W.
    - simpl. apply lit_eqb_refl, cond_wf_lit, W.
    - rewrite cond_eqb_and. apply comps_eqb_refl. rewrite Forall_forall in IH.
      intros c Hc. apply IH; [exact Hc|]. eapply cond_wf_in; eauto.
    - rewrite cond_eqb_or. apply comps_eqb_refl. rewrite Forall_forall in IH.
      intros c Hc. apply IH; [exact Hc|]. eapply cond_wf_in; eauto.
  Qed.

  Lemma cond_eqb_sym c : forall d, cond_wf c -> cond_wf d -> cond_eqb c d = cond_eqb d c.
  Proof.
    induction c as [l|cs IH|cs IH] using cond_ind'; intros [m|ds|ds] W W'; try reflexivity.
    - simpl. apply lit_eqb_sym; apply cond_wf_lit; assumption.
    - rewrite !cond_eqb_and. apply comps_eqb_sym. rewrite Forall_forall in IH.
      intros c d Hc Hd. apply IH; [exact Hc|exact (cond_wf_in c cs W Hc)|exact (cond_wf_in d ds W' Hd)].
    - rewrite !cond_eqb_or. apply comps_eqb_sym. rewrite Forall_forall in IH.
      intros c d Hc Hd. apply IH; [exact Hc|exact (cond_wf_in c cs W Hc)|exact (cond_wf_in d ds W' Hd)].
  Qed.

  Lemma cond_eqb_trans c : forall d e, cond_wf c -> cond_wf d -> cond_wf e ->
    cond_eqb c d = true -> cond_eqb d e = true -> cond_eqb c e = true.
  Proof.
    induction c as [l|cs IH|cs IH] using cond_ind'; intros [m|ds|ds] [k|es|es] W W' W''; try discriminate.
    - simpl. apply lit_eqb_trans; apply cond_wf_lit; assumption.
    - rewrite !cond_eqb_and. apply comps_eqb_trans. rewrite Forall_forall in IH.
      intros c d e Hc Hd He. apply IH; [exact Hc|exact (cond_wf_in c cs W Hc)|exact (cond_wf_in d ds W' Hd)|exact (cond_wf_in e es W'' He)].
    - rewrite !cond_eqb_or. apply comps_eqb_trans. rewrite Forall_forall in IH.
      intros c d e Hc Hd He. apply IH; [exact Hc|exact (cond_wf_in c cs W Hc)|exact (cond_wf_in d ds W' Hd)|exact (cond_wf_in e es W'' He)].
  Qed.

  Lemma comps_incl {A B} (f : A -> A -> bool) (g : A -> list B) cs ds :
    (forall c d, In c cs -> f c d = true -> incl (g c) (g d)) ->
    forallb (fun c => existsb (fun d => f c d) ds) cs = true ->
    incl (concat (map g cs)) (concat (map g ds)).
  Proof.
    intros H Hf x Hx. apply in_concat in Hx. destruct Hx as (y & Hy & Hx).
    apply in_map_iff in Hy. destruct Hy as (c & <- & Hc).
    rewrite forallb_forall in Hf. specialize (Hf c Hc). apply existsb_exists in Hf.
    destruct Hf as (d & Hd & Hcd). apply in_concat. exists (g d). split; [apply in_map; exact Hd|].
    eapply H; eauto.
  Qed.

  Lemma cond_parents_concat cs : map parent_name (concat (map dlcs cs)) = concat (map cond_parents cs).
  Proof. rewrite concat_map, map_map. reflexivity. Qed.

  (** equal conditions have the same parents *)
  Lemma cond_eqb_parents_incl c : forall d, cond_eqb c d = true -> incl (cond_parents c) (cond_parents d).
  Proof.
    induction c as [l|cs IH|cs IH] using cond_ind'; intros [m|ds|ds]; try discriminate.
    - simpl. unfold lit_eqb. rewrite !andb_true_iff. intros [[_ H] _]. apply hp_eqb_name in H.
      unfold cond_parents, parent_name. simpl. rewrite H. apply incl_refl.
    - rewrite cond_eqb_and. unfold comps_eqb. rewrite !andb_true_iff. intros [[_ H] _].
      unfold cond_parents. simpl. rewrite !cond_parents_concat.
      eapply comps_incl; [|exact H]. rewrite Forall_forall in IH. intros c d Hc. apply IH. exact Hc.
    - rewrite cond_eqb_or. unfold comps_eqb. rewrite !andb_true_iff. intros [[_ H] _].
      unfold cond_parents. simpl. rewrite !cond_parents_concat.
      eapply comps_incl; [|exact H]. rewrite Forall_forall in IH. intros c d Hc. apply IH. exact Hc.
  Qed.

  Lemma cond_eqb_parents c d : cond_wf c -> cond_wf d -> cond_eqb c d = true ->
    forall p, In p (cond_parents c) <-> In p (cond_parents d).
  Proof.
    intros W W' H p. split; apply cond_eqb_parents_incl; [exact H|]. rewrite cond_eqb_sym; assumption.
  Qed.

  (** merged conditions: the parents of the first occur among those of the second *)
  Lemma cond_equiv_parents c : forall d, cond_equiv c d = true -> incl (cond_parents c) (cond_parents d).
  Proof.
    assert (G : forall cs ds, Forall (fun c => forall d, cond_equiv c d = true -> incl (cond_parents c) (cond_parents d)) cs ->
      (Nat.eqb (length cs) (length ds) && forallb (fun c => existsb (fun d => cond_equiv c d) ds) cs)%bool = true ->
      incl (map parent_name (concat (map dlcs cs))) (map parent_name (concat (map dlcs ds)))).
    { intros cs ds IH. rewrite andb_true_iff. intros [_ H]. rewrite !cond_parents_concat.
      eapply comps_incl; [|exact H]. rewrite Forall_forall in IH. intros c' d Hc. apply IH. exact Hc. }
    induction c as [l|cs IH|cs IH] using cond_ind'; intros [m|ds|ds]; try discriminate; try (apply G; exact IH).
    simpl. unfold lit_equiv. rewrite !andb_true_iff. intros [H _]. apply hp_eqb_name in H.
    unfold cond_parents, parent_name. simpl. rewrite H. apply incl_refl.
  Qed.
End HpEq.
