(** * Lemmas about evaluating forbidden clauses *)
From Coq Require Import String List ZArith QArith Qround Qabs Bool Lia Lqa Permutation.
From Verif Require Import Base ListFacts Numeric NumericProofs HP HPProofs Properties_HP Cond Forb EqFacts Dag DagProofs
  Space CommitProofs Spec SpaceProofs CnodeProofs ForbProofs EvalProofs.
Import ListNotations.
Open Scope nat_scope.

Lemma anyM_false {A} (f : A -> res bool) l : anyM f l = Ok false <-> forall x, In x l -> f x = Ok false.
Proof.
  induction l as [|x l IH]; simpl.
  - split; auto. intros _ x [].
  - destruct (f x) as [[]|e] eqn:Ef; cbn [bind].
    + split; [discriminate|]. intros H. specialize (H x (or_introl eq_refl)). congruence.
    + rewrite IH. split; intros H; [intros y [<-|Hy]; auto|auto].
    + split; [discriminate|]. intros H. specialize (H x (or_introl eq_refl)). congruence.
Qed.
Lemma anyM_true {A} (f : A -> res bool) l : anyM f l = Ok true -> exists x, In x l /\ f x = Ok true.
Proof.
  induction l as [|x l IH]; simpl; [discriminate|]. destruct (f x) as [[]|e] eqn:Ef; cbn [bind]; try discriminate.
  - intros _. exists x. auto.
  - intros H. destruct (IH H) as (y & Hy & H'). exists y. auto.
Qed.
Lemma anyM_holds {A} (f : A -> res bool) l x : In x l -> f x = Ok true -> anyM f l <> Ok false.
Proof. intros Hx Hf H. rewrite anyM_false in H. specialize (H x Hx). congruence. Qed.
Lemma allM_true {A} (f : A -> res bool) l : allM f l = Ok true <-> forall x, In x l -> f x = Ok true.
Proof.
  induction l as [|x l IH]; simpl.
  - split; auto. intros _ x [].
  - destruct (f x) as [[]|e] eqn:Ef; cbn [bind].
    + rewrite IH. split; intros H; [intros y [<-|Hy]; auto|auto].
    + split; [discriminate|]. intros H. specialize (H x (or_introl eq_refl)). congruence.
    + split; [discriminate|]. intros H. specialize (H x (or_introl eq_refl)). congruence.
Qed.
Lemma allM_ext {A} (f g : A -> res bool) l : (forall x, In x l -> f x = g x) -> allM f l = allM g l.
Proof.
  induction l as [|x l IH]; simpl; intros H; [reflexivity|]. rewrite (H x) by auto. rewrite IH by auto. reflexivity.
Qed.

Lemma py_ltb_congr a b c d : py_eqb a c = true -> py_eqb b d = true -> py_ltb a b = py_ltb c d.
Proof.
  intros H K. unfold py_ltb. destruct (num_of a) as [x|] eqn:Ea.
  - destruct (py_eqb_num _ _ _ Ea H) as (y & -> & Hq). destruct (num_of b) as [z|] eqn:Eb.
    + destruct (py_eqb_num _ _ _ Eb K) as (w & -> & Hw). f_equal. apply Qltb_congr; assumption.
    + rewrite (py_eqb_num_none _ _ Eb K). reflexivity.
  - rewrite (py_eqb_num_none _ _ Ea H). destruct (num_of b) as [z|] eqn:Eb.
    + destruct (py_eqb_num _ _ _ Eb K) as (w & -> & Hw). reflexivity.
    + assert (Ec := py_eqb_num_none _ _ Ea H). assert (Ed := py_eqb_num_none _ _ Eb K). rewrite Ed.
      unfold py_eqb in H, K. rewrite Ea, Ec in H. rewrite Eb, Ed in K.
      destruct a, c; try discriminate; destruct b, d; try discriminate; try reflexivity.
      apply String.eqb_eq in H. apply String.eqb_eq in K. subst. reflexivity.
Qed.

Section ForbEval.
  Context {E : Env} {L : EnvLaws E}.

  Lemma rel_val_congr r a b c d : py_eqb a c = true -> py_eqb b d = true -> rel_val r a b = rel_val r c d.
  Proof.
    intros H K. destruct r; simpl.
    - rewrite (py_ltb_congr a b c d H K). reflexivity.
    - f_equal. rewrite (py_eqb_congr_l a c b H), (py_eqb_sym c b), (py_eqb_congr_l b d c K). apply py_eqb_sym.
    - rewrite (py_ltb_congr b a d c K H). reflexivity.
  Qed.

  (** ** Declared clauses and merged clauses *)
  Section One.
    Context {s : space} {hs : list hp} {cs : list cond} {fs : list fclause} (O : space_ok s hs cs fs).

    Lemma so_forbs : Permutation (forbidden_clauses s) fs.
    Proof. apply (so_inv _ _ _ _ O). Qed.

    Lemma so_fast : (forall f, In f fs -> forb_refs hs f) ->
      (forall io v, (exists f, In f (d_fast (s_dag s)) /\ fholds io v f) <-> (exists f, In f fs /\ fholds io v f)) /\
      (forall f, In f (d_fast (s_dag s)) -> In f fs \/ exists cs, f = FAnd cs /\ forall io v, exists b, forb_vec io v f = Ok b) /\
      (forall f, In f fs -> In f (d_fast (s_dag s)) \/ forall io v, exists b, forb_vec io v f = Ok b).
    Proof.
      intros R. assert (P := so_forbs). unfold forbidden_clauses in P.
      assert (HF := cm_fast _ (so_com _ _ _ _ O)).
      destruct (optimized_spec (d_index_of (s_dag s)) (d_forbs (s_dag s)) hs (so_names_nodup O)) as (fast & H1 & H2 & H3 & H4).
      - eapply Permutation_Forall; [symmetry; exact P|]. apply (di_built _ _ _ _ (so_inv _ _ _ _ O)).
      - intros f Hf. apply R. eapply Permutation_in; [exact P|exact Hf].
      - eapply optimized_nil. exact HF.
      - rewrite HF in H1. inversion H1; subst fast. split; [|split].
        + intros io v. rewrite H2. split; intros (f & Hf & Hh); exists f; (split; [|exact Hh]).
          * eapply Permutation_in; [exact P|exact Hf].
          * eapply Permutation_in; [symmetry; exact P|exact Hf].
        + intros f Hf. destruct (H3 f Hf) as [H|H]; [left|right; exact H]. eapply Permutation_in; [exact P|exact H].
        + intros f Hf. apply H4. eapply Permutation_in; [symmetry; exact P|exact Hf].
    Qed.

    Lemma check_forb_ok io v l : check_forb io v l = Ok tt <-> forall f, In f l -> forb_vec io v f = Ok false.
    Proof.
      unfold check_forb. rewrite <- anyM_false. destruct (anyM (forb_vec io v) l) as [[]|e]; cbn [bind];
        split; congruence.
    Qed.

    Lemma check_fast io v : (forall f, In f fs -> forb_refs hs f) ->
      (check_forb io v (d_fast (s_dag s)) = Ok tt <-> forall f, In f fs -> forb_vec io v f = Ok false).
    Proof.
      intros R. destruct (so_fast R) as (H1 & H2 & H3). rewrite check_forb_ok. split; intros H f Hf.
      - destruct (H3 f Hf) as [Hf'|Hb]; [auto|]. destruct (Hb io v) as ([] & Hv); [|exact Hv]. exfalso.
        destruct (proj2 (H1 io v)) as (g & Hg & Hh); [exists f; split; assumption|]. unfold fholds in Hh.
        rewrite (H g Hg) in Hh. discriminate.
      - destruct (H2 f Hf) as [Hf'|(gs & -> & Hb)]; [auto|]. destruct (Hb io v) as ([] & Hv); [|exact Hv]. exfalso.
        destruct (proj1 (H1 io v)) as (g & Hg & Hh); [exists (FAnd gs); split; assumption|]. unfold fholds in Hh.
        rewrite (H g Hg) in Hh. discriminate.
    Qed.

    Lemma check_fast_forbidden io v : (forall f, In f fs -> forb_refs hs f) ->
      check_forb io v (d_fast (s_dag s)) = Err ForbiddenValueError ->
      (forall f, In f fs -> exists b, forb_vec io v f = Ok b) ->
      exists f, In f fs /\ forb_vec io v f = Ok true.
    Proof.
      intros R H T. destruct (so_fast R) as (H1 & H2 & _). apply (H1 io v).
      unfold check_forb in H. destruct (anyM (forb_vec io v) (d_fast (s_dag s))) as [[]|e] eqn:Ea; cbn [bind] in H.
      - apply anyM_true in Ea. exact Ea.
      - discriminate.
      - exfalso. assert (G : forall l, (forall f, In f l -> exists b, forb_vec io v f = Ok b) -> exists b, anyM (forb_vec io v) l = Ok b).
        { induction l as [|f l IH]; intros Hl; simpl; [eauto|]. destruct (Hl f (or_introl eq_refl)) as ([] & ->); cbn [bind]; [eauto|].
          apply IH. intros; apply Hl; right; assumption. }
        destruct (G (d_fast (s_dag s))) as (b & Hb); [|congruence].
        intros f Hf. destruct (H2 f Hf) as [Hf'|(gs & -> & Hb)]; auto.
    Qed.
  End One.

  (** ** Values and vectors *)

  Lemma value_roundtrip h w x : constructed h -> legal_value h w = true -> exact_value h w -> to_vector h w = Ok x ->
    exists w', to_value h x = Ok w' /\ py_eqb w' w = true.
  Proof.
    intros C Hl He Hx. assert (W := constructed_wf _ C). unfold wf_hp in W. unfold exact_value in He.
    destruct (hp_kind h) as [c u|c|c|lo hi log d|lo hi log d] eqn:K.
    - destruct (seq_roundtrip h c w) as (i & w' & _ & _ & T & _ & V & Q); [right; eauto|tauto|exact Hl|].
      rewrite T in Hx. inversion Hx; subst. eauto.
    - destruct (seq_roundtrip h c w) as (i & w' & _ & _ & T & _ & V & Q); [left; exact K|tauto|exact Hl|].
      rewrite T in Hx. inversion Hx; subst. eauto.
    - unfold to_value. rewrite K. exists c. split; [reflexivity|]. rewrite py_eqb_sym. unfold legal_value in Hl. rewrite K in Hl. exact Hl.
    - destruct He as (a & z & Na & Ha).
      assert (B : num_bounds h = Some (inject_Z lo, inject_Z hi, log)) by (unfold num_bounds; rewrite K; reflexivity).
      rewrite (num_to_vector h _ _ _ w a B Na) in Hx by (intros; eapply legal_pos; eauto). inversion Hx; subst.
      unfold to_value. rewrite K. eexists. split; [reflexivity|]. unfold py_eqb. simpl num_of. rewrite Na.
      apply Qeq_bool_iff. rewrite (rint_proper _ (inject_Z z)); [rewrite rint_Z; symmetry; exact Ha|].
      rewrite unit_raw_norm; [exact Ha|eapply num_bounds_ok; eauto|intros; eapply legal_pos; eauto].
    - unfold legal_value in Hl. rewrite K in Hl. destruct (num_of w) as [a|] eqn:Na; [|discriminate].
      apply andb_true_iff in Hl. rewrite !Qle_bool_iff in Hl. destruct Hl as [H1 H2].
      assert (B : num_bounds h = Some (lo, hi, log)) by (unfold num_bounds; rewrite K; reflexivity).
      destruct (float_roundtrip h lo hi log d w a K (num_bounds_ok _ _ _ _ C B) Na H1 H2) as (q & y & T & _ & _ & _ & V & Q).
      rewrite T in Hx. inversion Hx; subst. exists (VFloat y). split; [exact V|]. unfold py_eqb. simpl num_of. rewrite Na.
      apply Qeq_bool_iff. exact Q.
  Qed.

  Lemma to_value_same h x y u : fsame x y -> to_value h x = Ok u -> exists w, to_value h y = Ok w /\ py_eqb u w = true.
  Proof.
    unfold to_value. intros F. destruct (hp_kind h) as [c wt|c|c|lo hi log d|lo hi log d].
    - destruct x, y; simpl in F; try contradiction; try discriminate.
      rewrite (is_close_to_integer_proper _ _ F), (rint_proper _ _ F). destruct (is_close_to_integer q0); [|discriminate].
      intros ->. exists u. split; [reflexivity|apply py_eqb_refl].
    - destruct x, y; simpl in F; try contradiction; try discriminate.
      rewrite (is_close_to_integer_proper _ _ F), (rint_proper _ _ F). destruct (is_close_to_integer q0); [|discriminate].
      intros ->. exists u. split; [reflexivity|apply py_eqb_refl].
    - intros ->. exists u. split; [reflexivity|apply py_eqb_refl].
    - destruct x, y; simpl in F; try contradiction; try discriminate.
      intros H. inversion H; subst. eexists. split; [reflexivity|].
      rewrite (rint_proper _ _ (unit_raw_proper (inject_Z lo) (inject_Z hi) log _ _ F)). apply py_eqb_refl.
    - destruct x, y; simpl in F; try contradiction; try discriminate; intros H; inversion H; subst;
        eexists; (split; [reflexivity|]); try apply py_eqb_refl.
      unfold py_eqb. simpl. apply Qeq_bool_iff. apply qclip_proper; [|reflexivity|reflexivity].
      apply unit_raw_proper. exact F.
  Qed.

  Lemma forb_hps_and (c : fclause) cs h : In c cs -> In h (forb_hps c) -> In h (forb_hps (FAnd cs)).
  Proof.
    intros Hc Hh. unfold forb_hps in *. apply in_concat in Hh. destruct Hh as (x & Hx & Hh). apply in_map_iff in Hx.
    destruct Hx as (l & <- & Hl). apply in_concat. exists (leaf_hps l). split; [|exact Hh]. apply in_map.
    simpl. apply in_concat. exists (fdlcs c). split; [apply in_map; exact Hc|exact Hl].
  Qed.

  Lemma encodes_fin io v d h w : constructed h -> encodes io v d h -> d (hp_name h) = Some w ->
    exists q, vget io v (hp_name h) = Fin q.
  Proof.
    unfold encodes. intros C H Hd. rewrite Hd in H. destruct H as (Hl & x & Hx & F). destruct (legal_finite h w C Hl) as (q & Hq).
    rewrite Hq in Hx. inversion Hx; subst. destruct (vget io v (hp_name h)); try contradiction. eauto.
  Qed.

  (** the two entries of a relation *)
  Lemma rel_agree io v d r a b : constructed a -> constructed b -> encodes io v d a -> encodes io v d b ->
    exact_rels d (FRel r a b) ->
    rel_vec r a b (vget io v (hp_name a)) (vget io v (hp_name b)) =
    match d (hp_name a), d (hp_name b) with Some x, Some y => rel_val r x y | _, _ => Ok false end.
  Proof.
    intros Ca Cb Ha Hb He. unfold rel_vec. unfold encodes in Ha, Hb.
    assert (Ea := fun w => He r a b a w (or_introl eq_refl) (or_introl eq_refl)).
    assert (Eb := fun w => He r a b b w (or_introl eq_refl) (or_intror eq_refl)).
    assert (Fa := encodes_fin io v d a). assert (Fb := encodes_fin io v d b). unfold encodes in Fa, Fb.
    destruct (d (hp_name a)) as [u|]; [|rewrite Ha; reflexivity].
    destruct (Fa u Ca Ha eq_refl) as (qa & Qa). rewrite Qa in *. cbn [isnan orb].
    destruct (d (hp_name b)) as [u'|]; [|rewrite Hb; reflexivity].
    destruct (Fb u' Cb Hb eq_refl) as (qb & Qb). rewrite Qb in *. cbn [isnan].
    destruct Ha as (Hl & x & Hx & F). destruct Hb as (Hl' & x' & Hx' & F').
    destruct (value_roundtrip a u x Ca Hl (Ea u eq_refl) Hx) as (w & Hw & Qw).
    destruct (to_value_same a x (Fin qa) w (fsame_sym _ _ F) Hw) as (w2 & -> & Qw2). cbn [bind].
    destruct (value_roundtrip b u' x' Cb Hl' (Eb u' eq_refl) Hx') as (w' & Hw' & Qw').
    destruct (to_value_same b x' (Fin qb) w' (fsame_sym _ _ F') Hw') as (w2' & -> & Qw2'). cbn [bind].
    symmetry. apply rel_val_congr.
    - rewrite py_eqb_sym in Qw. exact (py_eqb_trans _ _ _ Qw Qw2).
    - rewrite py_eqb_sym in Qw'. exact (py_eqb_trans _ _ _ Qw' Qw2').
  Qed.

  Lemma exact_rels_and d (c : fclause) fs : In c fs -> exact_rels d (FAnd fs) -> exact_rels d c.
  Proof.
    intros Hc H r a b h w Hr. apply (H r a b h w). simpl. apply in_concat. exists (fdlcs c).
    split; [apply in_map; exact Hc|exact Hr].
  Qed.

  Lemma forb_agree io v d f : forb_good f -> (forall h, In h (forb_hps f) -> encodes io v (fun n => assoc n d) h) ->
    exact_rels (fun n => assoc n d) f -> forb_value d f = forb_vec io v f.
  Proof.
    induction f as [h w ww|h ws wws|r a b|fs IH] using fclause_ind'; intros G H X.
    - inversion G; subst. simpl. f_equal. specialize (H h (or_introl eq_refl)). unfold encodes in H.
      destruct (assoc (hp_name h) d) as [u|].
      + destruct H as (Hl & x & Hx & F). rewrite (feqb_congr _ ww x ww F (fsame_refl ww)). symmetry. apply (vec_eq h); assumption.
      + rewrite H. reflexivity.
    - inversion G; subst. simpl. f_equal. specialize (H h (or_introl eq_refl)). unfold encodes in H.
      destruct (assoc (hp_name h) d) as [u|].
      + destruct H as (Hl & x & Hx & F). rewrite (existsb_feqb_congr _ x wws F). symmetry. eapply vec_in; eauto.
      + rewrite H. symmetry. apply not_true_iff_false. rewrite existsb_exists. intros (y & _ & Hy). discriminate.
    - inversion G as [| |? ? ? Ca Cb|]; subst. cbn [forb_value forb_vec].
      rewrite (rel_agree io v (fun n => assoc n d)); auto.
      + apply H. left. reflexivity.
      + apply H. right. left. reflexivity.
    - inversion G; subst. simpl. apply allM_ext. rewrite Forall_forall in IH. intros c Hc. apply IH; auto.
      + intros h Hh. apply H. eapply forb_hps_and; eauto.
      + eapply exact_rels_and; eauto.
  Qed.

  Lemma allM_and {A} (f : A -> res bool) (P : A -> Prop) l : (forall x, In x l -> f x = Ok true <-> P x) ->
    (allM f l = Ok true <-> fold_right and True (map P l)).
  Proof.
    induction l as [|x l IH]; intros H; simpl; [tauto|]. rewrite <- (H x) by (left; reflexivity).
    rewrite <- IH by (intros; apply H; right; assumption).
    destruct (f x) as [[]|e]; cbn [bind]; split; try discriminate; try tauto; intros [? ?]; discriminate.
  Qed.

  Lemma rel_val_means r a b : rel_val r a b = Ok true <-> rel_means r a b.
  Proof.
    destruct r; simpl.
    - destruct (py_ltb a b) as [[]|]; split; congruence.
    - split; congruence.
    - destruct (py_ltb b a) as [[]|]; split; congruence.
  Qed.

  (** the vector evaluation of a clause means what it should *)
  Lemma forb_vec_means io v d f : forb_good f -> (forall h, In h (forb_hps f) -> encodes io v d h) -> exact_rels d f ->
    (forb_vec io v f = Ok true <-> violated d f).
  Proof.
    induction f as [h w ww|h ws wws|r a b|fs IH] using fclause_ind'; intros G H X.
    - inversion G; subst. simpl. specialize (H h (or_introl eq_refl)). unfold encodes in H.
      destruct (d (hp_name h)) as [u|].
      + destruct H as (Hl & x & Hx & F). rewrite (feqb_congr _ ww x ww F (fsame_refl ww)), (vec_eq h u w x ww) by assumption.
        split; [intros K; inversion K; eauto|]. intros (w' & Hw & Hq). congruence.
      + rewrite H. simpl. split; [discriminate|]. intros (w' & Hw & _). discriminate.
    - inversion G; subst. simpl. specialize (H h (or_introl eq_refl)). unfold encodes in H.
      destruct (d (hp_name h)) as [u|].
      + destruct H as (Hl & x & Hx & F). rewrite (existsb_feqb_congr _ x wws F), (vec_in h ws wws u x) by assumption.
        split.
        * intros K. assert (K' : py_in u ws = true) by congruence. apply py_in_iff in K'. destruct K' as (y & Hy & Hq). exists u, y. auto.
        * intros (w' & y & Hw & Hy & Hq). inversion Hw; subst. f_equal. apply py_in_iff. eauto.
      + rewrite H. split; [|intros (w' & y & Hw & _); discriminate].
        intros K. inversion K as [K']. apply existsb_exists in K'. destruct K' as (y & _ & Hy). discriminate.
    - inversion G as [| |? ? ? Ca Cb|]; subst. cbn [forb_vec violated].
      rewrite (rel_agree io v d); auto; [|apply H; left; reflexivity|apply H; right; left; reflexivity].
      destruct (d (hp_name a)) as [u|]; [destruct (d (hp_name b)) as [u'|]|].
      + rewrite rel_val_means. split; [eauto|]. intros (x & y & Hx & Hy & Hr). congruence.
      + split; [discriminate|]. intros (x & y & _ & Hy & _). discriminate.
      + split; [discriminate|]. intros (x & y & Hx & _). discriminate.
    - inversion G; subst. cbn [violated]. rewrite forb_vec_and. apply allM_and. rewrite Forall_forall in IH. intros c Hc. apply IH; auto.
      + intros h Hh. apply H. eapply forb_hps_and; eauto.
      + eapply exact_rels_and; eauto.
  Qed.

  Lemma comparable_and (c : fclause) fs : In c fs -> comparable (FAnd fs) -> comparable c.
  Proof.
    intros Hc H r a b Hr. apply H. simpl. apply in_concat. exists (fdlcs c).
    split; [apply in_map; exact Hc|exact Hr].
  Qed.

  Lemma allM_total {A} (f : A -> res bool) l : (forall x, In x l -> exists b, f x = Ok b) -> exists b, allM f l = Ok b.
  Proof.
    induction l as [|x l IH]; intros H; simpl; [eauto|]. destruct (H x (or_introl eq_refl)) as ([] & ->); cbn [bind]; [|eauto].
    apply IH. intros; apply H; right; assumption.
  Qed.

  Lemma to_value_num h x : numeric h -> isfinite x = true -> exists u a, to_value h x = Ok u /\ num_of u = Some a.
  Proof.
    unfold numeric, to_value. destruct (hp_kind h); try contradiction; intros _; destruct x; try discriminate; intros _; do 2 eexists; split; reflexivity.
  Qed.

  (** no exception when relations compare numbers and entries are numbers or missing *)
  Lemma forb_vec_total io v f : comparable f ->
    (forall r a b h, In (FRel r a b) (fdlcs f) -> h = a \/ h = b ->
       vget io v (hp_name h) = NaN \/ exists u, to_value h (vget io v (hp_name h)) = Ok u) ->
    (forall r a b h, In (FRel r a b) (fdlcs f) -> h = a \/ h = b -> numeric h ->
       vget io v (hp_name h) = NaN \/ isfinite (vget io v (hp_name h)) = true) ->
    exists b, forb_vec io v f = Ok b.
  Proof.
    induction f as [h w ww|h ws wws|r a b|fs IH] using fclause_ind'; intros C V N; [simpl; eauto|simpl; eauto| |].
    - cbn [forb_vec]. unfold rel_vec.
      assert (Va := V r a b a (or_introl eq_refl) (or_introl eq_refl)).
      assert (Vb := V r a b b (or_introl eq_refl) (or_intror eq_refl)).
      assert (Na := N r a b a (or_introl eq_refl) (or_introl eq_refl)).
      assert (Nb := N r a b b (or_introl eq_refl) (or_intror eq_refl)).
      destruct Va as [->|(u & Hu)]; [simpl; eauto|].
      destruct Vb as [->|(u' & Hu')]; [rewrite orb_true_r; eauto|].
      destruct (isnan (vget io v (hp_name a)) || isnan (vget io v (hp_name b)))%bool eqn:En; [eauto|].
      apply orb_false_iff in En. destruct En as [E1 E2]. rewrite Hu, Hu'. cbn [bind].
      assert (Q : r <> REquals -> exists p q, num_of u = Some p /\ num_of u' = Some q).
      { intros Hr. destruct (C r a b (or_introl eq_refl) Hr) as [Ca Cb].
        destruct (Na Ca) as [Hx|Fa]; [rewrite Hx in E1; discriminate|].
        destruct (Nb Cb) as [Hx|Fb]; [rewrite Hx in E2; discriminate|].
        destruct (to_value_num a _ Ca Fa) as (w & p & Hw & Hp). destruct (to_value_num b _ Cb Fb) as (w' & q & Hw' & Hq).
        assert (w = u) by congruence. assert (w' = u') by congruence. subst. eauto. }
      destruct r; simpl; [|eauto|]; destruct Q as (p & q & Hp & Hq); try discriminate; unfold py_ltb; rewrite Hp, Hq; eauto.
    - rewrite forb_vec_and. apply allM_total. rewrite Forall_forall in IH. intros c Hc.
      assert (S : forall g, In g (fdlcs c) -> In g (fdlcs (FAnd fs))).
      { intros g Hg. simpl. apply in_concat. exists (fdlcs c). split; [apply in_map; exact Hc|exact Hg]. }
      apply IH; auto.
      + eapply comparable_and; eauto.
      + intros r a b h Hr. apply (V r a b h). auto.
      + intros r a b h Hr. apply (N r a b h). auto.
  Qed.

  (** ** Batches *)
  Lemma forb_arr_and io n arr cs : forb_arr io n arr (FAnd cs) =
    foldM (fun acc c => m <- forb_arr io n arr c ;; Ok (zip_with andb acc m)) cs (repeat true n).
  Proof.
    simpl. generalize (repeat true n). induction cs as [|c cs IH]; intros acc; simpl; [reflexivity|].
    destruct (forb_arr io n arr c); cbn [bind]; auto.
  Qed.

  Lemma fold_res_and {A} (g : A -> res (list bool)) (h : nat -> A -> res bool) n l : forall acc (f0 : nat -> bool) m,
    (forall x m, In x l -> g x = Ok m -> length m = n /\ forall j, j < n -> h j x = Ok (nth j m false)) ->
    length acc = n -> (forall j, j < n -> nth j acc false = f0 j) ->
    foldM (fun acc c => m <- g c ;; Ok (zip_with andb acc m)) l acc = Ok m ->
    length m = n /\ forall j, j < n -> (if f0 j then allM (h j) l else Ok false) = Ok (nth j m false).
  Proof.
    induction l as [|x l IH]; intros acc f0 m H Hl Ha; simpl.
    - intros Hm. inversion Hm; subst. split; [reflexivity|]. intros j Hj. rewrite Ha by exact Hj. destruct (f0 j); reflexivity.
    - destruct (g x) as [mx|] eqn:Ex; cbn [bind]; [|discriminate]. intros Hm.
      destruct (H x mx (or_introl eq_refl) Ex) as [Hx1 Hx2].
      destruct (IH (zip_with andb acc mx) (fun j => f0 j && nth j mx false)%bool m) as [R1 R2].
      + intros y my Hy. apply H. right. exact Hy.
      + rewrite zip_with_length, Hl, Hx1. lia.
      + intros j Hj. rewrite (zip_with_nth andb false false) by lia. rewrite Ha by exact Hj. reflexivity.
      + exact Hm.
      + split; [exact R1|]. intros j Hj. rewrite <- (R2 j Hj), (Hx2 j Hj). cbn [bind].
        destruct (f0 j), (nth j mx false); reflexivity.
  Qed.

  Lemma fold_res_total {A} (g : A -> res (list bool)) (op2 : bool -> bool -> bool) l : forall acc,
    (forall x, In x l -> exists m, g x = Ok m) ->
    exists m, foldM (fun acc c => m <- g c ;; Ok (zip_with op2 acc m)) l acc = Ok m.
  Proof.
    induction l as [|x l IH]; intros acc H; simpl; [eauto|]. destruct (H x (or_introl eq_refl)) as (m & ->). cbn [bind].
    apply IH. intros; apply H; right; assumption.
  Qed.

  Lemma forb_arr_spec io n arr f : rect n arr ->
    (forall p, In p (forb_names f) -> exists i, assoc p io = Some i /\ i < length arr) ->
    forall m, forb_arr io n arr f = Ok m ->
    length m = n /\ forall j, j < n -> forb_vec io (column arr j) f = Ok (nth j m false).
  Proof.
    intros R. induction f as [h w ww|h ws wws|r a b|fs IH] using fclause_ind'; intros H m Hm.
    - simpl in Hm. inversion Hm; subst; clear Hm. destruct (H (hp_name h)) as (i & Hi & Hl); [left; reflexivity|].
      assert (Len := arow_length io arr n _ i R Hi Hl). split; [rewrite map_length; exact Len|].
      intros j Hj. simpl. f_equal. rewrite (nth_indep _ false ((fun x => feqb x ww) NaN)) by (rewrite map_length; lia).
      rewrite (map_nth (fun x => feqb x ww)), arow_col. reflexivity.
    - simpl in Hm. inversion Hm; subst; clear Hm. destruct (H (hp_name h)) as (i & Hi & Hl); [left; reflexivity|].
      assert (Len := arow_length io arr n _ i R Hi Hl). split; [rewrite map_length; exact Len|].
      intros j Hj. simpl. f_equal. rewrite (nth_indep _ false ((fun x => existsb (feqb x) wws) NaN)) by (rewrite map_length; lia).
      rewrite (map_nth (fun x => existsb (feqb x) wws)), arow_col. reflexivity.
    - cbn [forb_arr] in Hm. destruct (H (hp_name a)) as (i & Hi & Hl); [left; reflexivity|].
      destruct (H (hp_name b)) as (i' & Hi' & Hl'); [right; left; reflexivity|].
      assert (Len := arow_length io arr n _ i R Hi Hl). assert (Len' := arow_length io arr n _ i' R Hi' Hl').
      assert (Lm := mapM_length _ _ _ Hm). rewrite combine_length, Len, Len', Nat.min_id in Lm. split; [exact Lm|].
      intros j Hj. cbn [forb_vec]. rewrite <- !arow_col.
      apply mapM_ok in Hm.
      assert (Q : forall l k, Forall2 (fun xy y => rel_vec r a b (fst xy) (snd xy) = Ok y) l k -> j < length l ->
        rel_vec r a b (fst (nth j l (NaN, NaN))) (snd (nth j l (NaN, NaN))) = Ok (nth j k false)).
      { clear. intros l k F. revert j. induction F as [|xy y l k Hxy F IH]; intros [|j]; simpl; try lia; auto.
        intros Hj. apply IH. lia. }
      specialize (Q _ _ Hm). rewrite combine_length, Len, Len', Nat.min_id in Q. specialize (Q Hj).
      rewrite combine_nth in Q by congruence. exact Q.
    - rewrite forb_arr_and in Hm. rewrite Forall_forall in IH.
      destruct (fold_res_and (forb_arr io n arr) (fun j f => forb_vec io (column arr j) f) n fs (repeat true n) (fun _ => true) m) as [R1 R2].
      + intros x mx Hx Hmx. apply (IH x Hx); [|exact Hmx]. intros p Hp. apply H. unfold forb_names in *.
        apply in_map_iff in Hp. destruct Hp as (h & <- & Hh). apply in_map. eapply forb_hps_and; eauto.
      + apply repeat_length.
      + intros j Hj. apply nth_repeat'. exact Hj.
      + exact Hm.
      + split; [exact R1|]. intros j Hj. rewrite forb_vec_and. exact (R2 j Hj).
  Qed.

  (** the batch evaluation raises only if a column on its own raises for some part *)
  Lemma forb_arr_total io n arr f : rect n arr ->
    (forall g, In g (fdlcs f) -> forall j, j < n -> exists b, forb_vec io (column arr j) g = Ok b) ->
    (forall p, In p (forb_names f) -> exists i, assoc p io = Some i /\ i < length arr) ->
    exists m, forb_arr io n arr f = Ok m.
  Proof.
    intros R. induction f as [h w ww|h ws wws|r a b|fs IH] using fclause_ind'; intros H Hn; [simpl; eauto|simpl; eauto| |].
    - cbn [forb_arr]. destruct (Hn (hp_name a)) as (i & Hi & Hl); [left; reflexivity|].
      destruct (Hn (hp_name b)) as (i' & Hi' & Hl'); [right; left; reflexivity|].
      assert (Len := arow_length io arr n _ i R Hi Hl). assert (Len' := arow_length io arr n _ i' R Hi' Hl').
      apply mapM_total. intros [x y] Hxy. apply (In_nth _ _ (NaN, NaN)) in Hxy. destruct Hxy as (j & Hj & Hxy).
      rewrite combine_nth in Hxy by congruence. rewrite combine_length, Len, Len', Nat.min_id in Hj.
      inversion Hxy; subst; clear Hxy. simpl fst. simpl snd. rewrite !arow_col.
      exact (H (FRel r a b) (or_introl eq_refl) j Hj).
    - rewrite forb_arr_and. apply fold_res_total. rewrite Forall_forall in IH. intros x Hx. apply IH; [exact Hx| |].
      + intros g Hg. apply H. simpl. apply in_concat. exists (fdlcs x). split; [apply in_map; exact Hx|exact Hg].
      + intros p Hp. apply Hn. unfold forb_names in *. apply in_map_iff in Hp. destruct Hp as (h & <- & Hh).
        apply in_map. eapply forb_hps_and; eauto.
  Qed.

  (** ** Inactive hyperparameters *)
  Lemma leaf_inactive io v f h : In h (leaf_hps f) -> vget io v (hp_name h) = NaN -> forb_vec io v f = Ok false.
  Proof.
    destruct f as [k w ww|k ws wws|r a b|fs]; simpl; intros Hh Hn.
    - destruct Hh as [->|[]]. rewrite Hn. reflexivity.
    - destruct Hh as [->|[]]. rewrite Hn. f_equal. apply not_true_iff_false. rewrite existsb_exists.
      intros (y & _ & Hy). discriminate.
    - unfold rel_vec. destruct Hh as [->|[->|[]]]; rewrite Hn; [reflexivity|].
      destruct (vget io v (hp_name a)); reflexivity.
    - contradiction.
  Qed.
  Lemma leaf_inactive_value d f h : In h (leaf_hps f) -> assoc (hp_name h) d = None -> forb_value d f = Ok false.
  Proof.
    destruct f as [k w ww|k ws wws|r a b|fs]; simpl; intros Hh Hn.
    - destruct Hh as [->|[]]. rewrite Hn. reflexivity.
    - destruct Hh as [->|[]]. rewrite Hn. reflexivity.
    - destruct Hh as [->|[->|[]]]; rewrite Hn; [reflexivity|]. destruct (assoc (hp_name a) d); reflexivity.
    - contradiction.
  Qed.
  Lemma forb_inactive_gen (ev : fclause -> res bool) f : (forall cs, ev (FAnd cs) = allM ev cs) ->
    forall g, In g (fdlcs f) -> ev g = Ok false -> ev f <> Ok true.
  Proof.
    intros HA. induction f as [h w ww|h ws wws|r a b|fs IH] using fclause_ind'; intros g Hg Hf.
    - destruct Hg as [<-|[]]. congruence.
    - destruct Hg as [<-|[]]. congruence.
    - destruct Hg as [<-|[]]. congruence.
    - rewrite HA, allM_true. intros H. simpl in Hg. apply in_concat in Hg. destruct Hg as (x & Hx & Hg).
      apply in_map_iff in Hx. destruct Hx as (c & <- & Hc). rewrite Forall_forall in IH.
      exact (IH c Hc g Hg Hf (H c Hc)).
  Qed.
End ForbEval.
