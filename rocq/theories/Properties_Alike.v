(** * Property C126: equality of hyperparameters *)
From Coq Require Import String List ZArith QArith Bool Lia Lqa Morphisms.
From Verif Require Import Base ListFacts Numeric NumericProofs HP HPProofs Properties_HP Cond EqFacts Dist DistProofs Properties_Dist
  Forb Dag Space Spec Ex Properties_Eval Properties_Equal.
Import ListNotations.
Open Scope nat_scope.

(** ** What equality should mean *)

(** the probability that a categorical hyperparameter with these choices and weights gives to its
    choice number [i]: its share of the weights, the same for all when there are none *)
Definition share (c : list value) (w : option (list Q)) (i : nat) (p : Q) : Prop :=
  match w with
  | None => i < length c /\ (p * inject_Z (Z.of_nat (length c)) == 1)%Q
  | Some l => exists x, nth_error l i = Some x /\ (p * fold_right Qplus 0 l == x)%Q
  end.
(** the value [v] is a choice with probability [p] *)
Definition chance (c : list value) (w : option (list Q)) (v : value) (p : Q) : Prop :=
  exists i u, nth_error c i = Some u /\ py_eqb v u = true /\ share c w i p.

Definition dist_alike (d e : dist) : Prop :=
  match d, e with
  | DUniform, DUniform => True
  | DNormal m s, DNormal m' s' => (m == m')%Q /\ (s == s')%Q
  | DBeta a b, DBeta a' b' => (a == a')%Q /\ (b == b')%Q
  | _, _ => False
  end.

(** Two hyperparameters with the same name, an equal default and the same domain.  The order of the
    choices and the meta data of a categorical hyperparameter do not count. *)
Definition alike (h k : hp) : Prop :=
  hp_name h = hp_name k /\ py_eqb (hp_default h) (hp_default k) = true /\
  match hp_kind h, hp_kind k with
  | KCat c w, KCat c' w' => forall v p, chance c w v p <-> chance c' w' v p
  | KOrd s, KOrd s' => Forall2 (fun v w => py_eqb v w = true) s s' /\ hp_meta h = hp_meta k
  | KConst v, KConst v' => py_eqb v v' = true /\ hp_meta h = hp_meta k
  | KInt lo hi l d, KInt lo' hi' l' d' => lo = lo' /\ hi = hi' /\ l = l' /\ dist_alike d d' /\ hp_meta h = hp_meta k
  | KFloat lo hi l d, KFloat lo' hi' l' d' =>
      (lo == lo')%Q /\ (hi == hi')%Q /\ l = l' /\ dist_alike d d' /\ hp_meta h = hp_meta k
  | _, _ => False
  end.

(** the same outcome: results that are related or the same exception *)
Definition outcome {A} (R : A -> A -> Prop) (x y : res A) : Prop :=
  match x, y with Ok a, Ok b => R a b | Err e, Err e' => e = e' | _, _ => False end.
Definition same_entry (x y : fval) : Prop :=
  match x, y with
  | Fin p, Fin q => (p == q)%Q
  | PInf, PInf | NInf, NInf | NaN, NaN => True
  | _, _ => False
  end.
Definition same_value (v w : value) : Prop := py_eqb v w = true.

Lemma Forall2_len {A B} (P : A -> B -> Prop) l m : Forall2 P l m -> length l = length m.
Proof. induction 1; simpl; congruence. Qed.

Section Alike.
  Context {E : Env}.

  Theorem C126_refl h : constructed h -> hp_eqb h h = true.
  Proof. intros C. apply hp_eqb_refl, constructed_wf, C. Qed.
  Theorem C126_sym h k : constructed h -> constructed k -> hp_eqb h k = hp_eqb k h.
  Proof. intros C D. apply hp_eqb_sym; apply constructed_wf; assumption. Qed.
  Theorem C126_trans h k l : constructed h -> constructed k -> constructed l ->
    hp_eqb h k = true -> hp_eqb k l = true -> hp_eqb h l = true.
  Proof. intros C D F. apply hp_eqb_trans; apply constructed_wf; assumption. Qed.

  (** ** Equality is [alike] *)
  Lemma share_nth h c w i p : wf_hp h -> hp_kind h = KCat c w -> i < length c ->
    (share c w i p <-> (p == nth i (probabilities c w) 0)%Q).
  Proof.
    intros W K L. unfold wf_hp in W. rewrite K in W. destruct W as (W1 & W2 & W3 & W4). unfold share, probabilities. destruct w as [l|].
    - destruct W4 as (W4 & W5 & W6). fold (Qsum l). destruct (nth_error l i) as [x|] eqn:N; [|apply nth_error_None in N; lia].
      assert (Nt : nth i (map (fun x => (x / Qsum l)%Q) l) 0%Q = (x / Qsum l)%Q).
      { apply nth_error_nth. rewrite nth_error_map, N. reflexivity. }
      rewrite Nt. split.
      + intros (y & Hy & Q). injection Hy as <-. rewrite <- Q. field. lra.
      + intros Q. exists x. split; [reflexivity|]. rewrite Q. field. lra.
    - rewrite (nth_indep _ 0%Q (1 / inject_Z (Z.of_nat (length c)))%Q) by (rewrite map_length; exact L).
      rewrite (map_nth (fun _ => (1 / inject_Z (Z.of_nat (length c)))%Q) c VNone i).
      assert (P : (0 < inject_Z (Z.of_nat (length c)))%Q) by (change 0%Q with (inject_Z 0); rewrite <- Zlt_Qlt; lia). split.
      + intros [_ Q]. apply (Qmult_inj_r _ _ (inject_Z (Z.of_nat (length c)))); [lra|]. rewrite Q. field. lra.
      + intros Q. split; [exact L|]. rewrite Q. field. lra.
  Qed.

  (** the choice that a value is, with its probability *)
  Lemma chance_index h c w v p : wf_hp h -> hp_kind h = KCat c w ->
    (chance c w v p <-> exists i, py_index v c = Some i /\ (p == nth i (probabilities c w) 0)%Q).
  Proof.
    intros W K. assert (D : has_dup c = false) by apply (wf_cat h c w W K). split.
    - intros (i & u & Hi & Q & S). exists i. split.
      + rewrite (py_index_congr v u c Q). apply py_index_nth; assumption.
      + apply (share_nth h c w i p W K); [apply nth_error_Some; congruence|exact S].
    - intros (i & Hi & Q). destruct (py_index_some _ _ _ Hi) as (u & Hu & Qu & _). exists i, u. split; [exact Hu|]. split; [first [exact Qu|rewrite py_eqb_sym; exact Qu]|].
      apply (share_nth h c w i p W K); [apply nth_error_Some; congruence|exact Q].
  Qed.

  Lemma chances_length h k c w c' w' : wf_hp h -> wf_hp k -> hp_kind h = KCat c w -> hp_kind k = KCat c' w' ->
    (forall v p, chance c w v p -> chance c' w' v p) -> length c <= length c'.
  Proof.
    intros W W' K K' H. assert (D : has_dup c = false) by apply (wf_cat h c w W K).
    set (f := fun i => match py_index (nth i c VNone) c' with Some j => j | None => 0 end).
    assert (Hf : forall i, i < length c -> py_index (nth i c VNone) c' = Some (f i)).
    { intros i Hi. assert (N : nth_error c i = Some (nth i c VNone)) by (apply nth_error_nth'; exact Hi).
      assert (G : chance c' w' (nth i c VNone) (nth i (probabilities c w) 0%Q)).
      { apply H. apply (chance_index h c w _ _ W K). exists i. split; [apply py_index_nth; assumption|reflexivity]. }
      apply (chance_index k c' w' _ _ W' K') in G. destruct G as (j & Hj & _). unfold f. rewrite Hj. reflexivity. }
    rewrite <- (seq_length (length c) 0), <- (map_length f), <- (seq_length (length c') 0). apply NoDup_incl_length.
    - apply (proj2 (NoDup_nth _ 0)). rewrite map_length, seq_length. intros i j Hi Hj.
      assert (Ef : forall a, a < length c -> nth a (map f (seq 0 (length c))) 0 = f a).
      { intros a Ha. rewrite (nth_indep _ 0 (f 0)) by (rewrite map_length, seq_length; exact Ha). rewrite map_nth, seq_nth by exact Ha. reflexivity. }
      rewrite !Ef by assumption. intros Hij. pose proof (Hf i Hi) as Fi. pose proof (Hf j Hj) as Fj. rewrite Hij in Fi.
      apply py_index_some in Fi, Fj. destruct Fi as (vi & Ni & Qi & _). destruct Fj as (vj & Nj & Qj & _). rewrite Ni in Nj. injection Nj as <-.
      eapply (has_dup_nth c i j); [exact D|apply nth_error_nth'; exact Hi|apply nth_error_nth'; exact Hj|].
      eapply py_eqb_trans; [rewrite py_eqb_sym; exact Qi|exact Qj].
    - intros j Hj. apply in_map_iff in Hj. destruct Hj as (i & <- & Hi). apply in_seq in Hi. apply in_seq. split; [lia|]. simpl.
      eapply py_index_lt. apply Hf. lia.
  Qed.

  Lemma cat_alike h k c w c' w' : wf_hp h -> wf_hp k -> hp_kind h = KCat c w -> hp_kind k = KCat c' w' ->
    (cat_eqb c w c' w' = true <-> forall v p, chance c w v p <-> chance c' w' v p).
  Proof.
    intros W W' K K'. assert (Cw := wf_cat h c w W K). assert (Cw' := wf_cat k c' w' W' K').
    assert (G : forall h k c w c' w', wf_hp h -> wf_hp k -> hp_kind h = KCat c w -> hp_kind k = KCat c' w' ->
      cat_eqb c w c' w' = true -> forall v p, chance c w v p -> chance c' w' v p).
    { clear. intros h k c w c' w' W W' K K' H v p C. apply (cat_eqb_iff _ _ _ _ (wf_cat h c w W K) (wf_cat k c' w' W' K')) in H. destruct H as [L H].
      destruct C as (i & u & Hi & Q & S). destruct (H i u Hi) as (j & Hj & Qj).
      apply (chance_index k c' w' v p W' K'). exists j. split; [rewrite (py_index_congr v u c' Q); exact Hj|].
      rewrite <- Qj. apply (share_nth h c w i p W K); [apply nth_error_Some; congruence|exact S]. }
    split.
    - intros H v p. split; [apply (G h k); assumption|]. apply (G k h); try assumption. apply cat_eqb_sym_imp; assumption.
    - intros H. apply cat_eqb_iff; [exact Cw|exact Cw'|]. split.
      + apply Nat.le_antisymm; [apply (chances_length h k c w c' w')|apply (chances_length k h c' w' c w)]; try assumption; intros v p; apply H.
      + intros i v Hi. assert (C : chance c w v (nth i (probabilities c w) 0%Q)).
        { apply (chance_index h c w _ _ W K). exists i. split; [apply py_index_nth; [apply Cw|exact Hi]|reflexivity]. }
        apply H, (chance_index k c' w' _ _ W' K') in C. exact C.
  Qed.

  Lemma dist_alike_iff d e : dist_eqb d e = true <-> dist_alike d e.
  Proof. destruct d, e; simpl; rewrite ?andb_true_iff, ?Qeq_bool_iff; split; try discriminate; tauto. Qed.
  Lemma meta_iff h k : opt_eqb String.eqb (hp_meta h) (hp_meta k) = true <-> hp_meta h = hp_meta k.
  Proof.
    destruct (hp_meta h) as [a|], (hp_meta k) as [b|]; simpl; rewrite ?String.eqb_eq; split; intros H; try discriminate; try reflexivity; congruence.
  Qed.

  Theorem C126_iff h k : constructed h -> constructed k -> (hp_eqb h k = true <-> alike h k).
  Proof.
    intros Ch Ck. assert (Wh := constructed_wf h Ch). assert (Wk := constructed_wf k Ck). unfold hp_eqb, alike.
    rewrite !andb_true_iff, String.eqb_eq. rewrite and_assoc. do 2 (apply and_iff_compat_l).
    destruct (hp_kind h) as [c w|s|v|lo hi l d|lo hi l d] eqn:Kh, (hp_kind k) as [c' w'|s'|v'|lo' hi' l' d'|lo' hi' l' d'] eqn:Kk;
      try (split; [discriminate|intros []]).
    - apply (cat_alike h k); assumption.
    - rewrite andb_true_iff, list_eqb_Forall2, meta_iff. reflexivity.
    - rewrite andb_true_iff, meta_iff. reflexivity.
    - rewrite !andb_true_iff, !Z.eqb_eq, Bool.eqb_true_iff, dist_alike_iff, meta_iff. tauto.
    - rewrite !andb_true_iff, !Qeq_bool_iff, Bool.eqb_true_iff, dist_alike_iff, meta_iff. tauto.
  Qed.

  (** ** What equal hyperparameters share *)

  (** the same values are legal *)
  Theorem C126_legal h k v : constructed h -> constructed k -> hp_eqb h k = true -> legal_value h v = legal_value k v.
  Proof. intros C D. apply alike_legal; apply constructed_wf; assumption. Qed.

  (** the same vector entries are legal *)
  Lemma unit_raw_congr (L : EnvLaws E) lo hi lo' hi' l q : (lo == lo')%Q -> (hi == hi')%Q -> (unit_raw lo hi l q == unit_raw lo' hi' l q)%Q.
  Proof.
    intros A B. unfold unit_raw. destruct l.
    - apply fexp_comp. rewrite (flog_comp _ _ A), (flog_comp _ _ B). reflexivity.
    - rewrite A, B. reflexivity.
  Qed.
  Theorem C126_legal_vector h k x : constructed h -> constructed k -> hp_eqb h k = true ->
    legal_vector h x = legal_vector k x /\ legal_vector_array h x = legal_vector_array k x.
  Proof.
    intros Ch Ck H. assert (Wh := constructed_wf h Ch). assert (Wk := constructed_wf k Ck). unfold hp_eqb in H. rewrite !andb_true_iff in H. destruct H as [_ H].
    unfold legal_vector, legal_vector_array.
    destruct (hp_kind h) as [c w|s|v|lo hi l d|lo hi l d] eqn:Kh, (hp_kind k) as [c' w'|s'|v'|lo' hi' l' d'|lo' hi' l' d'] eqn:Kk;
      try discriminate H.
    - apply cat_eqb_iff in H; [|apply (wf_cat h c w Wh Kh)|apply (wf_cat k c' w' Wk Kk)]. destruct H as [-> _]. split; reflexivity.
    - rewrite andb_true_iff, list_eqb_Forall2 in H. destruct H as [H _]. rewrite (Forall2_len _ _ _ H). split; reflexivity.
    - split; reflexivity.
    - rewrite !andb_true_iff, !Z.eqb_eq, Bool.eqb_true_iff in H. destruct H as [[[[-> ->] ->] _] _]. split; reflexivity.
    - split; reflexivity.
  Qed.

  (** the same value becomes the same entry and the same entry the same value.  Missing: categorical
      hyperparameters, whose choices may be in another order (C126_vector_refuted). *)
  Theorem C126_vector_partial (L : EnvLaws E) h k : constructed h -> constructed k -> hp_eqb h k = true ->
    (forall c w, hp_kind h <> KCat c w) ->
    (forall v, outcome same_entry (to_vector h v) (to_vector k v)) /\
    (forall x, outcome same_value (to_value h x) (to_value k x)).
  Proof.
    intros Ch Ck H N. assert (Wh := constructed_wf h Ch). assert (Wk := constructed_wf k Ck). unfold hp_eqb in H. rewrite !andb_true_iff in H. destruct H as [_ H].
    unfold to_vector, to_value. assert (Oe : forall x, same_entry x x) by (intros [q| | |]; simpl; auto; reflexivity).
    destruct (hp_kind h) as [c w|s|v|lo hi l d|lo hi l d] eqn:Kh, (hp_kind k) as [c' w'|s'|v'|lo' hi' l' d'|lo' hi' l' d'] eqn:Kk;
      try discriminate H.
    - destruct (N c w eq_refl).
    - rewrite andb_true_iff in H. destruct H as [H _]. assert (F := proj1 (list_eqb_Forall2 _ _ _) H). assert (Ln := Forall2_len _ _ _ F).
      unfold wf_hp in Wh, Wk. rewrite Kh in Wh. rewrite Kk in Wk. destruct Wh as (_ & D & _). destruct Wk as (_ & D' & _). split.
      + intros v. destruct (py_index v s) as [i|] eqn:I.
        * destruct (py_index_some _ _ _ I) as (u & Hu & Qu & _). destruct (list_eqb_nth _ _ _ _ H Hu) as (u' & Hu' & Qu').
          assert (I' : py_index v s' = Some i).
          { assert (Q : py_eqb v u' = true) by (apply (py_eqb_trans v u u'); [first [exact Qu|rewrite py_eqb_sym; exact Qu]|exact Qu']).
            rewrite (py_index_congr v u' s' Q). apply py_index_nth; assumption. }
          rewrite I'. simpl. reflexivity.
        * assert (P : py_in v s' = false).
          { rewrite <- (list_eqb_in _ _ v H). destruct (py_in v s) eqn:P; [|reflexivity]. destruct (py_in_index _ _ P) as (i & Hi). congruence. }
          destruct (py_index v s') as [j|] eqn:J; [|reflexivity]. destruct (py_index_some _ _ _ J) as (u & Hu & Qu & _).
          assert (py_in v s' = true); [|congruence]. apply py_in_iff. exists u. split; [eapply nth_error_In; exact Hu|first [exact Qu|rewrite py_eqb_sym; exact Qu]].
      + intros [q| | |]; try reflexivity. destruct (is_close_to_integer q); [|reflexivity]. unfold np_index. rewrite Ln.
        destruct (_ && _)%bool; [|reflexivity].
        match goal with |- context [nth_error s ?j] => set (a := j) end. destruct (nth_error s a) as [u|] eqn:Nu.
        * destruct (list_eqb_nth _ _ _ _ H Nu) as (u' & -> & Q). exact Q.
        * apply nth_error_None in Nu. rewrite Ln in Nu. apply nth_error_None in Nu. rewrite Nu. reflexivity.
    - rewrite andb_true_iff in H. destruct H as [H _]. split.
      + intros u. rewrite (py_eqb_sym u v), (py_eqb_sym u v'), (py_eqb_congr_l v v' u H). simpl. reflexivity.
      + intros x. exact H.
    - rewrite !andb_true_iff, !Z.eqb_eq, Bool.eqb_true_iff in H. destruct H as [[[[-> ->] ->] _] _]. split.
      + intros v. destruct (num_of v); simpl; auto.
      + intros [q| | |]; simpl; auto. apply py_eqb_refl.
    - rewrite !andb_true_iff, !Qeq_bool_iff, Bool.eqb_true_iff in H. destruct H as [[[[A B] ->] _] _]. split.
      + intros v. destruct (num_of v) as [y|]; [|reflexivity]. simpl. unfold unit_to_vector. destruct l'.
        * destruct (Qltb 0 y); [|destruct (Qeq_bool y 0); exact Logic.I]. simpl. rewrite (flog_comp _ _ A), (flog_comp _ _ B). reflexivity.
        * simpl. rewrite A, B. reflexivity.
      + assert (Qv : forall a b, (a == b)%Q -> same_value (VFloat a) (VFloat b)) by (intros a b Q; unfold same_value, py_eqb; simpl; apply Qeq_bool_iff, Q).
        intros [q| | |]; simpl; auto. apply Qv. rewrite (unit_raw_congr L _ _ _ _ l' q A B), A, B. reflexivity.
  Qed.

  (** a legal value has the same density under both, whatever the order of the choices; [f] is the
      density of the common distribution *)
  Lemma py_eqb_num v w : py_eqb v w = true -> forall x, num_of v = Some x -> exists y, num_of w = Some y /\ (x == y)%Q.
  Proof. unfold py_eqb. intros H x Hx. rewrite Hx in H. destruct (num_of w) as [y|]; [|discriminate]. exists y. split; [reflexivity|apply Qeq_bool_iff, H]. Qed.

  Theorem C126_density (L : EnvLaws E) h k f v : constructed h -> constructed k -> hp_eqb h k = true ->
    (forall p q, (p == q)%Q -> (f p == f q)%Q) -> legal_value h v = true ->
    outcome Qeq (pdf_value h f v) (pdf_value k f v).
  Proof.
    intros Ch Ck H Fc Lv. assert (Wh := constructed_wf h Ch). assert (Wk := constructed_wf k Ck).
    destruct (hp_kind h) as [c w|s|u|lo hi l d|lo hi l d] eqn:Kh.
    - assert (Al := proj1 (C126_iff h k Ch Ck) H). destruct Al as (_ & _ & Al). rewrite Kh in Al.
      destruct (hp_kind k) as [c' w'| | | |] eqn:Kk; try contradiction.
      assert (G : forall h c w, constructed h -> hp_kind h = KCat c w -> legal_value h v = true ->
        exists p, pdf_value h f v = Ok p /\ chance c w v p).
      { clear - L. intros h c w C K Lv. assert (W := constructed_wf h C). unfold legal_value in Lv. rewrite K in Lv.
        destruct (py_in_index _ _ Lv) as (i & Hi). destruct (py_index_some _ _ _ Hi) as (u & Hu & Qu & _).
        assert (Qv : py_eqb v u = true) by (first [exact Qu|rewrite py_eqb_sym; exact Qu]).
        destruct (seq_pdf h c f i u C (LV_cat h c w K) Hu) as (p & Hp & Qp). exists p. split.
        - rewrite <- Hp. unfold pdf_value, to_vector. rewrite K, (py_index_congr v u c Qv). reflexivity.
        - exists i, u. split; [exact Hu|]. split; [exact Qv|]. rewrite K in Qp.
          assert (Li : i < length c) by (apply nth_error_Some; congruence).
          apply (share_nth h c w i p W K Li). destruct w as [ws|]; [exact Qp|]. rewrite Qp. unfold probabilities.
          rewrite (nth_indep _ 0%Q (1 / inject_Z (Z.of_nat (length c)))%Q) by (rewrite map_length; exact Li).
          rewrite (map_nth (fun _ => (1 / inject_Z (Z.of_nat (length c)))%Q) c VNone i). reflexivity. }
      destruct (G h c w Ch Kh Lv) as (p & Hp & Cp).
      destruct (G k c' w' Ck Kk) as (q & Hq & Cq); [rewrite <- (C126_legal h k v Ch Ck H); exact Lv|].
      rewrite Hp, Hq. simpl. apply Al in Cp. apply (chance_index k c' w' v _ Wk Kk) in Cp, Cq.
      destruct Cp as (i & Hi & Qi). destruct Cq as (j & Hj & Qj). rewrite Hi in Hj. injection Hj as <-. rewrite Qi, Qj. reflexivity.
    - destruct (C126_vector_partial L h k Ch Ck H) as [T _]; [intros c w; rewrite Kh; discriminate|]. specialize (T v).
      unfold pdf_value. destruct (to_vector h v) as [x|e], (to_vector k v) as [y|e']; simpl in T; try contradiction; simpl; [|exact T].
      assert (Al := proj1 (C126_iff h k Ch Ck) H). destruct Al as (_ & _ & Al). rewrite Kh in Al.
      destruct (hp_kind k) as [|s'| | |] eqn:Kk; try contradiction. destruct Al as [F _]. assert (Ln := Forall2_len _ _ _ F).
      destruct x as [x| | |], y as [y| | |]; simpl in T; try contradiction; unfold pdf_vector, dist_pdf, legal_vector_array; rewrite Kh, Kk; cbn [bind outcome]; rewrite ?Ln;
        try reflexivity. unfold legal_seq. rewrite T. reflexivity.
    - destruct (C126_vector_partial L h k Ch Ck H) as [T _]; [intros c w; rewrite Kh; discriminate|]. specialize (T v).
      unfold pdf_value. destruct (to_vector h v) as [x|e], (to_vector k v) as [y|e']; simpl in T; try contradiction; simpl; [|exact T].
      assert (Al := proj1 (C126_iff h k Ch Ck) H). destruct Al as (_ & _ & Al). rewrite Kh in Al.
      destruct (hp_kind k) as [| |u'| |] eqn:Kk; try contradiction. clear Al.
      destruct x as [x| | |], y as [y| | |]; simpl in T; try contradiction; unfold pdf_vector, dist_pdf, legal_vector_array; rewrite Kh, Kk; simpl;
        try reflexivity. rewrite T. reflexivity.
    - assert (Al := proj1 (C126_iff h k Ch Ck) H). destruct Al as (_ & _ & Al). rewrite Kh in Al.
      destruct (hp_kind k) as [| | |lo' hi' l' d'|] eqn:Kk; try contradiction. destruct Al as (-> & -> & -> & Ad & _).
      assert (Tv : to_vector h v = to_vector k v) by (unfold to_vector; rewrite Kh, Kk; reflexivity).
      unfold pdf_value. rewrite Tv. destruct (to_vector k v) as [x|e]; simpl; [|reflexivity].
      assert (Pd : pdf_vector h f x = pdf_vector k f x).
      { unfold pdf_vector, dist_pdf, legal_vector_array. rewrite Kh, Kk. destruct d, d'; simpl in Ad; try contradiction; reflexivity. }
      rewrite Pd. destruct (pdf_vector k f x); simpl; reflexivity.
    - destruct (C126_vector_partial L h k Ch Ck H) as [T _]; [intros c w; rewrite Kh; discriminate|]. specialize (T v).
      unfold pdf_value. destruct (to_vector h v) as [x|e], (to_vector k v) as [y|e']; simpl in T; try contradiction; simpl; [|exact T].
      assert (Al := proj1 (C126_iff h k Ch Ck) H). destruct Al as (_ & _ & Al). rewrite Kh in Al.
      destruct (hp_kind k) as [| | | |lo' hi' l' d'] eqn:Kk; try contradiction. destruct Al as (A & B & -> & Ad & _).
      destruct x as [x| | |], y as [y| | |]; simpl in T; try contradiction; unfold pdf_vector, dist_pdf, legal_vector_array; rewrite Kh, Kk;
        destruct d, d'; simpl in Ad; try contradiction; simpl; try reflexivity.
      + rewrite T. destruct (_ && _)%bool; [|reflexivity]. rewrite A, B. reflexivity.
      + rewrite (Fc _ _ T), T. reflexivity.
      + rewrite (Fc _ _ T), T. reflexivity.
  Qed.

  (** the same random numbers give the same value.  Missing: categorical hyperparameters
      (C126_vector_refuted). *)
  Theorem C126_sample_partial (L : EnvLaws E) h k r : constructed h -> constructed k -> hp_eqb h k = true ->
    (forall c w, hp_kind h <> KCat c w) ->
    same_entry (sample_vector h r) (sample_vector k r) /\ outcome same_value (sample_value h r) (sample_value k r).
  Proof.
    intros Ch Ck H N. assert (Q : sample_vector h r = sample_vector k r).
    { assert (Al := proj1 (C126_iff h k Ch Ck) H). destruct Al as (_ & _ & Al). unfold sample_vector.
      destruct (hp_kind h) as [c w|s|v|lo hi l d|lo hi l d], (hp_kind k) as [c' w'|s'|v'|lo' hi' l' d'|lo' hi' l' d']; try contradiction; try reflexivity.
      - destruct (N c w eq_refl).
      - destruct Al as (-> & -> & -> & Ad & _). destruct d, d'; simpl in Ad; try contradiction; reflexivity. }
    unfold sample_value. rewrite Q. split.
    - destruct (sample_vector k r); simpl; auto. reflexivity.
    - apply (C126_vector_partial L h k Ch Ck H N).
  Qed.
End Alike.

Section C126_witness.
  #[local] Existing Instance rat_env.

  (** the same choices with weights in proportion, in another order *)
  Definition hW1 := get_or dummy_hp (mk_categorical "p" (xs ["x"; "y"; "z"]%string) (Some (VStr "x")) (Some [1; 2; 1]%Q) (Some "one"%string)).
  Definition hW2 := get_or dummy_hp (mk_categorical "p" (xs ["y"; "x"; "z"]%string) (Some (VStr "x")) (Some [6; 3; 3]%Q) None).
  Lemma hW1_c : constructed hW1.
  Proof. apply (CtorCat "p" (xs ["x"; "y"; "z"]%string) (Some (VStr "x")) (Some [1; 2; 1]%Q) (Some "one"%string) hW1); vm_compute; reflexivity. Qed.
  Lemma hW2_c : constructed hW2.
  Proof. apply (CtorCat "p" (xs ["y"; "x"; "z"]%string) (Some (VStr "x")) (Some [6; 3; 3]%Q) None hW2); vm_compute; reflexivity. Qed.

  Example C126_ex : constructed hW1 /\ constructed hW2 /\ hp_eqb hW1 hW2 = true /\ alike hW1 hW2 /\
    hp_eqb hW1 hP1 = false /\ ~ alike hW1 hP1 /\ legal_value hW1 (VStr "z") = true /\
    outcome Qeq (pdf_value hW1 (fun _ => 0%Q) (VStr "y")) (Ok (1#2)%Q) /\ outcome Qeq (pdf_value hW2 (fun _ => 0%Q) (VStr "y")) (Ok (1#2)%Q) /\
    hp_eqb hN hN = true /\ (forall c w, hp_kind hN <> KCat c w).
  Proof.
    assert (Q : hp_eqb hW1 hW2 = true) by (vm_compute; reflexivity). assert (Q' : hp_eqb hW1 hP1 = false) by (vm_compute; reflexivity).
    split; [exact hW1_c|]. split; [exact hW2_c|]. split; [exact Q|]. split; [apply (C126_iff _ _ hW1_c hW2_c), Q|]. split; [exact Q'|].
    split; [intros A; apply (C126_iff _ _ hW1_c hP1_c) in A; congruence|]. split; [vm_compute; reflexivity|]. split; [vm_compute; reflexivity|].
    split; [vm_compute; reflexivity|]. split; [vm_compute; reflexivity|]. intros c w. discriminate.
  Qed.

  (** equal hyperparameters, the entry 0 of one is another value for the other; the same random number
      gives another value *)
  Theorem C126_vector_refuted : exists h k x v w r a b, constructed h /\ constructed k /\ hp_eqb h k = true /\
    to_value h x = Ok v /\ to_value k x = Ok w /\ py_eqb v w = false /\
    sample_value h r = Ok a /\ sample_value k r = Ok b /\ py_eqb a b = false.
  Proof.
    exists hP1, hP2, (Fin 0%Q), (VStr "x"), (VStr "y"), {| raw_int := 0%Z; raw_real := 0%Q |}, (VStr "x"), (VStr "y").
    split; [exact hP1_c|]. split; [exact hP2_c|]. repeat split; vm_compute; reflexivity.
  Qed.

  (** equal although the meta data differ, which for every other kind of hyperparameter counts *)
  Theorem C126_meta_refuted : exists h k, constructed h /\ constructed k /\ hp_eqb h k = true /\ hp_meta h <> hp_meta k.
  Proof. exists hW1, hW2. split; [exact hW1_c|]. split; [exact hW2_c|]. split; [vm_compute; reflexivity|]. vm_compute. discriminate. Qed.
End C126_witness.
