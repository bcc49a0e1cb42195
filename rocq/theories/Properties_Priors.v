(** * Removing priors (C55) *)
From Coq Require Import String List ZArith QArith Bool Lia Permutation Relations Lqa.
From Verif Require Import Base ListFacts Numeric NumericProofs HP HPProofs Properties_HP Cond Forb EqFacts Dag DagCycle DagProofs
  Space CommitProofs Spec SpaceProofs CnodeProofs ForbProofs AddProofs EvalProofs ForbEval MergeProofs ValidProofs ConfigProofs
  ChangeProofs ReadProofs Ex DistProofs Properties_Graph Properties_Eval Properties_Config Properties_Repair Properties_Raise
  Properties_Add Serial Properties_Serial Priors.
Import ListNotations.
Open Scope string_scope.
Open Scope nat_scope.
Open Scope list_scope.

(** ** Specification: the same hyperparameter without prior *)
Definition no_prior_kind (k k' : kind) : Prop :=
  match k, k' with
  | KCat c _, KCat c' None => c' = c
  | KOrd s, KOrd s' => s' = s
  | KConst v, KConst v' => v' = v
  | KInt lo hi lg _, KInt lo' hi' lg' DUniform => lo' = lo /\ hi' = hi /\ lg' = lg
  | KFloat lo hi lg _, KFloat lo' hi' lg' DUniform => lo' = lo /\ hi' = hi /\ lg' = lg
  | _, _ => False
  end.
Definition no_prior (h u : hp) : Prop :=
  hp_name u = hp_name h /\ hp_default u = hp_default h /\ hp_meta u = hp_meta h /\ no_prior_kind (hp_kind h) (hp_kind u).

(** conditions without conjunctions inside conjunctions *)
Definition is_lit (c : cond) : Prop := match c with CLit _ => True | _ => False end.
Definition plain (c : cond) : Prop :=
  match c with CLit _ => True | CAnd cs | COr cs => forall x, In x cs -> is_lit x end.

(** ** The parts of the result *)
Definition strip (k : kind) : kind :=
  match k with
  | KCat c _ => KCat c None
  | KInt lo hi lg _ => KInt lo hi lg DUniform
  | KFloat lo hi lg _ => KFloat lo hi lg DUniform
  | k => k
  end.
Definition uni (h : hp) : hp := mk_hp (hp_name h) (strip (hp_kind h)) (hp_default h) (hp_meta h).
Definition ulit (l : lit) : lit := mk_lit (uni (l_child l)) (uni (l_parent l)) (l_test l).
Definition ucond (c : cond) : cond :=
  match c with
  | CLit l => CLit (ulit l)
  | CAnd _ => CAnd (map (fun l => CLit (ulit l)) (dlcs c))
  | COr _ => COr (map (fun l => CLit (ulit l)) (dlcs c))
  end.
Fixpoint uforb (f : fclause) : fclause :=
  match f with
  | FEq h v vv => FEq (uni h) v vv
  | FIn h vs vvs => FIn (uni h) vs vvs
  | FRel r a b => FRel r (uni a) (uni b)
  | FAnd fs => FAnd (map uforb fs)
  end.

Lemma no_prior_uni h : no_prior h (uni h).
Proof. repeat split. unfold uni; simpl. destruct (hp_kind h); simpl; auto. Qed.

Lemma concat_lits {X} (g : X -> lit) l : concat (map dlcs (map (fun x => CLit (g x)) l)) = map g l.
Proof. induction l as [|x l IH]; [reflexivity|]. simpl. rewrite IH. reflexivity. Qed.
Lemma dlcs_ucond c : dlcs (ucond c) = map ulit (dlcs c).
Proof. destruct c as [l|cs|cs]; [reflexivity| |]; unfold ucond; cbn [dlcs]; apply concat_lits. Qed.
Lemma parents_ucond c : cond_parents (ucond c) = cond_parents c.
Proof. unfold cond_parents. rewrite dlcs_ucond, map_map. reflexivity. Qed.
Lemma activates_ucond c n : activates (ucond c) n <-> activates c n.
Proof. unfold activates, cond_child. rewrite dlcs_ucond. destruct (dlcs c); reflexivity. Qed.

Section Priors.
  Context {E : Env} {L : EnvLaws E}.

  Lemma legal_uni h v : legal_value (uni h) v = legal_value h v.
  Proof. unfold legal_value, uni. simpl. destruct (hp_kind h); reflexivity. Qed.
  Lemma vector_uni h v : to_vector (uni h) v = to_vector h v.
  Proof. unfold to_vector, uni. simpl. destruct (hp_kind h); reflexivity. Qed.
  Lemma value_uni h v : to_value (uni h) v = to_value h v.
  Proof. unfold to_value, uni. simpl. destruct (hp_kind h); reflexivity. Qed.
  Lemma orderable_uni h : orderable (uni h) = orderable h.
  Proof. unfold orderable, uni. simpl. destruct (hp_kind h); reflexivity. Qed.
  Lemma less_uni h a b : less_in (uni h) a b <-> less_in h a b.
  Proof. unfold less_in, uni. simpl. destruct (hp_kind h); reflexivity. Qed.
  Lemma test_uni h t w : test_means (uni h) t w <-> test_means h t w.
  Proof. destruct t as [[]|]; simpl; try reflexivity; apply less_uni. Qed.
  Lemma exact_uni h w : exact_value (uni h) w <-> exact_value h w.
  Proof. unfold exact_value, uni. simpl. destruct (hp_kind h); reflexivity. Qed.
  Lemma numeric_uni h : numeric (uni h) <-> numeric h.
  Proof. unfold numeric, uni. simpl. destruct (hp_kind h); reflexivity. Qed.
  Lemma round_uni h w : round_value (uni h) w = round_value h w.
  Proof. unfold round_value, uni. simpl. destruct (hp_kind h); reflexivity. Qed.

  Ltac kill := repeat match goal with
    | H : (if ?b then _ else Err _) = Ok _ |- _ => destruct b eqn:?; [|discriminate H]
    end.
  Ltac dflt H := cbn [hp_default] in H;
    match type of H with
    | legal_value (mk_hp _ _ (VInt ?x) _) _ = _ => set (d0 := x) in *; clearbody d0
    | legal_value (mk_hp _ _ (VFloat (round13 ?x)) _) _ = _ => set (d0 := x) in *; clearbody d0
    | legal_value (mk_hp _ _ ?x _) _ = _ => set (d0 := x) in *; clearbody d0
    end.

  (** to_uniform does not raise and only drops the prior *)
  Lemma to_uniform_uni h : constructed h -> to_uniform h = Ok (uni h).
  Proof.
    intros C. assert (G : legal_value (uni h) (hp_default (uni h)) = true).
    { rewrite legal_uni. change (hp_default (uni h)) with (hp_default h). apply default_legal, C. }
    destruct C as [n c d w m h H|n s d m h H|n v m h H|n lo hi d l m h H|n mu s lo hi d l m h H|n a b lo hi d l m h H
                              |n lo hi d l m h H|n mu s lo hi d l m h H|n a b lo hi d l m h H].
    - unfold mk_categorical in H. kill. destruct c as [|c0 c]; [destruct w; discriminate|].
      apply finish_ok in H. destruct H as [-> H]. dflt H. unfold to_uniform. cbn [hp_kind hp_name hp_default hp_meta].
      unfold mk_categorical. rewrite Heqb. unfold legal_value in H. cbn [hp_kind] in H. rewrite H. apply finish_legal. exact H.
    - unfold mk_ordinal in H. kill. destruct d as [d|]; [kill|destruct s; [discriminate|]]; apply finish_ok in H; destruct H as [-> H]; reflexivity.
    - unfold mk_constant in H. apply finish_ok in H. destruct H as [-> H]. reflexivity.
    - unfold mk_uniform_int in H. kill. apply finish_ok in H. destruct H as [-> H]. dflt H. unfold to_uniform. cbn [hp_kind hp_name hp_default hp_meta num_of].
      unfold mk_uniform_int. rewrite !rint_Z, is_close_to_integer_Z, Heqb0, py_int_inject. apply finish_legal. exact H.
    - unfold mk_normal_int in H. kill. apply finish_ok in H. destruct H as [-> H]. dflt H. unfold to_uniform. cbn [hp_kind hp_name hp_default hp_meta num_of].
      unfold mk_uniform_int. rewrite !rint_Z, is_close_to_integer_Z, Heqb0, py_int_inject. apply finish_legal. exact H.
    - unfold mk_beta_int in H. kill. apply finish_ok in H. destruct H as [-> H]. dflt H. unfold to_uniform. cbn [hp_kind hp_name hp_default hp_meta num_of].
      unfold mk_uniform_int. rewrite !rint_Z, is_close_to_integer_Z, Heqb1, py_int_inject. apply finish_legal. exact H.
    - unfold mk_uniform_float in H. kill. apply finish_ok in H. destruct H as [-> H]. dflt H. unfold to_uniform. cbn [hp_kind hp_name hp_default hp_meta num_of].
      unfold mk_uniform_float. rewrite !round13_same, Heqb. apply finish_legal. exact H.
    - unfold mk_normal_float in H. kill. apply finish_ok in H. destruct H as [-> H]. dflt H. unfold to_uniform. cbn [hp_kind hp_name hp_default hp_meta num_of].
      unfold mk_uniform_float. rewrite !round13_same, Heqb0. apply finish_legal. exact H.
    - unfold mk_beta_float in H. kill. apply finish_ok in H. destruct H as [-> H]. dflt H. unfold to_uniform. cbn [hp_kind hp_name hp_default hp_meta num_of].
      unfold mk_uniform_float. rewrite !round13_same, Heqb1. apply finish_legal. exact H.
  Qed.

  Lemma constructed_uni h : constructed h -> constructed (uni h).
  Proof.
    intros C. assert (H := to_uniform_uni h C). unfold to_uniform in H. destruct (hp_kind h).
    - eapply CtorCat, H.
    - injection H as H. rewrite <- H. exact C.
    - injection H as H. rewrite <- H. exact C.
    - eapply CtorUInt, H.
    - eapply CtorUFloat, H.
  Qed.

  (** ** Conditions *)
  Lemma built_lits c : cond_built c -> forall l, In l (dlcs c) -> cond_built (CLit l).
  Proof.
    induction 1 as [o ch p v c C1 C2 H|ch p vs c C1 C2 H|cs c _ IH H|cs c _ IH H]; intros l Hl.
    - assert (B : cond_built c) by exact (CB_bin o ch p v c C1 C2 H). unfold mk_bin in H. kill. destruct (to_vector p v); [|discriminate].
      injection H as <-. destruct Hl as [<-|[]]. exact B.
    - assert (B : cond_built c) by exact (CB_in ch p vs c C1 C2 H). unfold mk_in in H. kill. destruct (mapM (to_vector p) vs); [|discriminate].
      injection H as <-. destruct Hl as [<-|[]]. exact B.
    - unfold mk_and in H. kill. injection H as <-. simpl in Hl. rewrite in_concat in Hl. destruct Hl as (ls & Hls & Hl).
      apply in_map_iff in Hls. destruct Hls as (x & <- & Hx). eauto.
    - unfold mk_or in H. kill. injection H as <-. simpl in Hl. rewrite in_concat in Hl. destruct Hl as (ls & Hls & Hl).
      apply in_map_iff in Hls. destruct Hls as (x & <- & Hx). eauto.
  Qed.

  Lemma built_lit_inv l : cond_built (CLit l) -> constructed (l_child l) /\ constructed (l_parent l) /\
    hp_eqb (l_child l) (l_parent l) = false /\
    match l_test l with
    | TBin o v vv => mk_bin o (l_child l) (l_parent l) v = Ok (CLit l)
    | TIn vs vvs => mk_in (l_child l) (l_parent l) vs = Ok (CLit l)
    end.
  Proof.
    intros B. inversion B as [o ch p v c C1 C2 H|ch p vs c C1 C2 H|cs c _ H|cs c _ H]; subst.
    - assert (H0 := H). unfold mk_bin in H. kill. destruct (to_vector p v); [|discriminate]. injection H as <-. simpl.
      apply negb_true_iff in Heqb. auto.
    - assert (H0 := H). unfold mk_in in H. kill. destruct (mapM (to_vector p) vs); [|discriminate]. injection H as <-. simpl.
      apply negb_true_iff in Heqb. auto.
    - unfold mk_and in H. kill. discriminate.
    - unfold mk_or in H. kill. discriminate.
  Qed.

  Lemma sub_lit_ulit s hs l : finds s (map uni hs) -> NoDup (map hp_name hs) -> cond_built (CLit l) -> In (l_child l) hs -> In (l_parent l) hs ->
    sub_lit s l = Ok (CLit (ulit l)) /\ cond_built (CLit (ulit l)).
  Proof.
    intros F ND B Hc Hp. destruct (built_lit_inv l B) as (C1 & C2 & Ne & H).
    assert (G1 := F (uni (l_parent l)) (in_map uni _ _ Hp)). assert (G2 := F (uni (l_child l)) (in_map uni _ _ Hc)). simpl in G1, G2.
    unfold sub_lit, hp_at. rewrite G1, G2. cbn [bind].
    assert (N : hp_eqb (uni (l_child l)) (uni (l_parent l)) = false).
    { destruct (hp_eqb (uni _) _) eqn:Eq; [|reflexivity]. apply hp_eqb_name in Eq. simpl in Eq.
      assert (Q : l_child l = l_parent l) by (apply (same_hp hs); auto). rewrite Q in Ne.
      rewrite (hp_eqb_refl _ (constructed_wf _ C2)) in Ne. discriminate. }
    assert (G : match l_test l with
                | TBin o v _ => mk_bin o (uni (l_child l)) (uni (l_parent l)) v
                | TIn vs _ => mk_in (uni (l_child l)) (uni (l_parent l)) vs
                end = Ok (CLit (ulit l))).
    { destruct l as [ch p t]. unfold ulit. cbn [l_child l_parent l_test] in *. destruct t as [o v vv|vs vvs].
      - unfold mk_bin in *. kill. rewrite N, orderable_uni, Heqb0, legal_uni, Heqb1, vector_uni. cbn [negb].
        destruct (to_vector p v); [|discriminate]. injection H as ->. reflexivity.
      - unfold mk_in in *. kill. rewrite N. cbn [negb].
        replace (forallb (legal_value (uni p)) vs) with true.
        2: { symmetry. rewrite forallb_forall in *. intros v Hv. rewrite legal_uni. auto. }
        rewrite (mapM_ext (to_vector (uni p)) (to_vector p)) by (intros; apply vector_uni).
        destruct (mapM (to_vector p) vs); [|discriminate]. injection H as ->. reflexivity. }
    split; [exact G|]. destruct (l_test l) as [o v vv|vs vvs].
    - apply (CB_bin o (uni (l_child l)) (uni (l_parent l)) v); auto using constructed_uni.
    - apply (CB_in (uni (l_child l)) (uni (l_parent l)) vs); auto using constructed_uni.
  Qed.

  Lemma built_ne c : cond_built c -> dlcs c <> [].
  Proof.
    induction 1 as [o ch p v c C1 C2 H|ch p vs c C1 C2 H|cs c _ IH H|cs c _ IH H].
    - unfold mk_bin in H. kill. destruct (to_vector p v); [|discriminate]. injection H as <-. discriminate.
    - unfold mk_in in H. kill. destruct (mapM (to_vector p) vs); [|discriminate]. injection H as <-. discriminate.
    - unfold mk_and in H. kill. injection H as <-. destruct cs as [|c cs]; [discriminate|]. simpl.
      intros Q. apply app_eq_nil in Q. apply (IH c (or_introl eq_refl)), Q.
    - unfold mk_or in H. kill. injection H as <-. destruct cs as [|c cs]; [discriminate|]. simpl.
      intros Q. apply app_eq_nil in Q. apply (IH c (or_introl eq_refl)), Q.
  Qed.
  Lemma concat_length cs : (forall x, In x cs -> dlcs x <> []) -> length cs <= length (concat (map dlcs cs)).
  Proof.
    induction cs as [|c cs IH]; intros H; [reflexivity|]. simpl. rewrite app_length.
    assert (Q := H c (or_introl eq_refl)). assert (Q2 := IH (fun x Hx => H x (or_intror Hx))). destruct (dlcs c); [contradiction|]. simpl. lia.
  Qed.

  Lemma mapM_map {A B} (f : A -> res B) g l : (forall x, In x l -> f x = Ok (g x)) -> mapM f l = Ok (map g l).
  Proof.
    induction l as [|x l IH]; intros H; [reflexivity|]. simpl. rewrite (H x (or_introl eq_refl)). simpl.
    rewrite IH; [reflexivity|]. intros y Hy. apply H. right. exact Hy.
  Qed.

  Lemma children_equal hs ls : NoDup (map hp_name hs) -> (forall l, In l ls -> In (l_child l) hs /\ constructed (l_child l)) ->
    all_equal (map l_child ls) = true -> all_equal (map l_child (map ulit ls)) = true.
  Proof.
    intros ND Hin. destruct ls as [|l ls]; [reflexivity|]. simpl. rewrite !forallb_forall. intros H k Hk.
    rewrite map_map in Hk. apply in_map_iff in Hk. destruct Hk as (m & <- & Hm). simpl.
    destruct (Hin l (or_introl eq_refl)) as [I1 C1]. destruct (Hin m (or_intror Hm)) as [I2 C2].
    assert (Q : l_child l = l_child m).
    { apply (same_hp hs); auto. apply hp_eqb_name, H, in_map, Hm. }
    rewrite Q. apply hp_eqb_refl, constructed_wf, constructed_uni, C2.
  Qed.

  Lemma sub_cond_ucond s hs c : finds s (map uni hs) -> NoDup (map hp_name hs) -> cond_built c -> cond_refs hs c ->
    sub_cond s c = Ok (ucond c) /\ cond_built (ucond c).
  Proof.
    intros F ND B R. assert (G : forall l, In l (dlcs c) -> sub_lit s l = Ok (CLit (ulit l)) /\ cond_built (CLit (ulit l))).
    { intros l Hl. destruct (R l Hl) as [R1 R2]. apply (sub_lit_ulit s hs); auto. apply (built_lits c B l Hl). }
    assert (Ch : forall l, In l (dlcs c) -> In (l_child l) hs /\ constructed (l_child l)).
    { intros l Hl. split; [apply R, Hl|]. apply (built_lit_inv l (built_lits c B l Hl)). }
    destruct c as [l|cs|cs].
    - apply G. left. reflexivity.
    - assert (M : mapM (sub_lit s) (dlcs (CAnd cs)) = Ok (map (fun l => CLit (ulit l)) (dlcs (CAnd cs)))) by (apply mapM_map; intros l Hl; apply G, Hl).
      assert (K : mk_and (map (fun l => CLit (ulit l)) (dlcs (CAnd cs))) = Ok (ucond (CAnd cs))).
      { inversion B as [o ch p v c0 C1 C2 H|ch p vs c0 C1 C2 H|cs0 c0 IH H|cs0 c0 IH H]; subst.
        - unfold mk_bin in H. kill. destruct (to_vector p v); discriminate H.
        - unfold mk_in in H. kill. destruct (mapM (to_vector p) vs); discriminate H.
        - unfold mk_and in *. kill. injection H as ->. rewrite map_length.
          assert (Q := concat_length cs (fun x Hx => built_ne x (IH x Hx))). apply Nat.leb_le in Heqb.
          replace (2 <=? length (dlcs (CAnd cs))) with true by (symmetry; apply Nat.leb_le; simpl; lia).
          assert (Q2 : dlcs (CAnd (map (fun l => CLit (ulit l)) (dlcs (CAnd cs)))) = map ulit (dlcs (CAnd cs))) by (cbn [dlcs]; apply concat_lits).
          rewrite Q2, (children_equal hs _ ND Ch Heqb0). reflexivity.
        - unfold mk_or in H. kill. discriminate. }
      split; [unfold sub_cond; rewrite M; exact K|]. eapply CB_and; [|exact K]. intros x Hx. apply in_map_iff in Hx. destruct Hx as (l & <- & Hl). apply G, Hl.
    - assert (M : mapM (sub_lit s) (dlcs (COr cs)) = Ok (map (fun l => CLit (ulit l)) (dlcs (COr cs)))) by (apply mapM_map; intros l Hl; apply G, Hl).
      assert (K : mk_or (map (fun l => CLit (ulit l)) (dlcs (COr cs))) = Ok (ucond (COr cs))).
      { inversion B as [o ch p v c0 C1 C2 H|ch p vs c0 C1 C2 H|cs0 c0 IH H|cs0 c0 IH H]; subst.
        - unfold mk_bin in H. kill. destruct (to_vector p v); discriminate H.
        - unfold mk_in in H. kill. destruct (mapM (to_vector p) vs); discriminate H.
        - unfold mk_and in H. kill. discriminate.
        - unfold mk_or in *. kill. injection H as ->. rewrite map_length.
          assert (Q := concat_length cs (fun x Hx => built_ne x (IH x Hx))). apply Nat.leb_le in Heqb.
          replace (2 <=? length (dlcs (COr cs))) with true by (symmetry; apply Nat.leb_le; simpl; lia).
          assert (Q2 : dlcs (COr (map (fun l => CLit (ulit l)) (dlcs (COr cs)))) = map ulit (dlcs (COr cs))) by (cbn [dlcs]; apply concat_lits).
          rewrite Q2, (children_equal hs _ ND Ch Heqb0). reflexivity. }
      split; [unfold sub_cond; rewrite M; exact K|]. eapply CB_or; [|exact K]. intros x Hx. apply in_map_iff in Hx. destruct Hx as (l & <- & Hl). apply G, Hl.
  Qed.

  Lemma holds_ulit d l : holds d (CLit (ulit l)) <-> holds d (CLit l).
  Proof. simpl. split; intros (w & H1 & H2); exists w; (split; [exact H1|apply test_uni, H2]). Qed.

  Lemma fold_and_iff {A} (P : A -> Prop) l : fold_right and True (map P l) <-> forall x, In x l -> P x.
  Proof.
    induction l as [|x l IH]; simpl; [tauto|]. rewrite IH. split.
    - intros [H1 H2] y [<-|Hy]; auto.
    - intros H. split; auto.
  Qed.
  Lemma fold_or_iff {A} (P : A -> Prop) l : fold_right Logic.or False (map P l) <-> exists x, In x l /\ P x.
  Proof.
    induction l as [|x l IH]; simpl; [split; [tauto|intros (x & [] & _)]|]. rewrite IH. split.
    - intros [H|(y & H1 & H2)]; eauto.
    - intros (y & [<-|Hy] & H2); eauto.
  Qed.

  Lemma holds_and_lits d c : only_and c -> (holds d c <-> forall l, In l (dlcs c) -> holds d (CLit l)).
  Proof.
    induction c as [l|cs IH|cs IH] using cond_ind'; intros O; simpl in O; [| |contradiction].
    - simpl. split; [intros H m [<-|[]]; exact H|intros H; apply H; left; reflexivity].
    - rewrite fold_and_iff in O. cbn [holds dlcs]. rewrite fold_and_iff. rewrite Forall_forall in IH. split.
      + intros H l Hl. rewrite in_concat in Hl. destruct Hl as (ls & Hls & Hl). apply in_map_iff in Hls. destruct Hls as (x & <- & Hx).
        apply (IH x Hx (O x Hx)); auto.
      + intros H x Hx. apply (IH x Hx (O x Hx)). intros l Hl. apply H, in_concat. exists (dlcs x). split; [apply in_map, Hx|exact Hl].
  Qed.
  Lemma holds_or_lits d c : only_or c -> (holds d c <-> exists l, In l (dlcs c) /\ holds d (CLit l)).
  Proof.
    induction c as [l|cs IH|cs IH] using cond_ind'; intros O; simpl in O; [|contradiction|].
    - simpl. split; [intros H; exists l; auto|intros (m & [<-|[]] & H); exact H].
    - rewrite fold_and_iff in O. cbn [holds dlcs]. rewrite fold_or_iff. rewrite Forall_forall in IH. split.
      + intros (x & Hx & H). apply (IH x Hx (O x Hx)) in H. destruct H as (l & Hl & H). exists l. split; [|exact H].
        apply in_concat. exists (dlcs x). split; [apply in_map, Hx|exact Hl].
      + intros (l & Hl & H). rewrite in_concat in Hl. destruct Hl as (ls & Hls & Hl). apply in_map_iff in Hls. destruct Hls as (x & <- & Hx).
        exists x. split; [exact Hx|]. apply (IH x Hx (O x Hx)). eauto.
  Qed.

  (** conjunctions of one kind keep their meaning *)
  Lemma holds_ucond d c : only_and c \/ only_or c -> (holds d (ucond c) <-> holds d c).
  Proof.
    intros [O|O].
    - rewrite (holds_and_lits d c O). destruct c as [l|cs|cs]; [| |destruct O].
      + unfold ucond. rewrite holds_ulit. simpl. split; [intros H m [<-|[]]; exact H|intros H; apply (H l); auto].
      + unfold ucond. cbn [holds]. rewrite map_map. rewrite fold_and_iff. split; intros H l Hl; apply holds_ulit, H, Hl.
    - rewrite (holds_or_lits d c O). destruct c as [l|cs|cs]; [|destruct O|].
      + unfold ucond. rewrite holds_ulit. simpl. split; [intros H; eauto|intros (m & [<-|[]] & H); exact H].
      + unfold ucond. cbn [holds]. rewrite map_map, fold_or_iff. split; intros (l & Hl & H); exists l; (split; [exact Hl|apply holds_ulit, H]).
  Qed.
  Lemma plain_kind c : plain c -> only_and c \/ only_or c.
  Proof.
    destruct c as [l|cs|cs]; simpl; [auto| |]; intros H; [left|right]; rewrite fold_and_iff; intros x Hx; apply H in Hx; destruct x; simpl in *; tauto.
  Qed.

  Lemma plain_shape cs : (forall x, In x cs -> is_lit x) -> exists ls, cs = map CLit ls.
  Proof.
    induction cs as [|c cs IH]; intros H; [exists []; reflexivity|]. destruct IH as (ls & ->). { intros x Hx. apply H. right. exact Hx. }
    assert (Q := H c (or_introl eq_refl)). destruct c as [l| |]; try contradiction. exists (l :: ls). reflexivity.
  Qed.
  Lemma concat_clit ls : concat (map dlcs (map CLit ls)) = ls.
  Proof. rewrite <- (map_id ls) at 2. apply (concat_lits (fun l => l)). Qed.

  Lemma sat_ucond io v c : plain c -> sat_vec io v (ucond c) = sat_vec io v c.
  Proof.
    destruct c as [l|cs|cs]; intros P; [reflexivity| |]; destruct (plain_shape cs P) as (ls & ->);
      unfold ucond; cbn [dlcs sat_vec]; rewrite concat_clit.
    - induction ls as [|l ls IH]; [reflexivity|]. simpl. f_equal. apply IH. intros x Hx. apply P. right. exact Hx.
    - induction ls as [|l ls IH]; [reflexivity|]. simpl. f_equal. apply IH. intros x Hx. apply P. right. exact Hx.
  Qed.

  Lemma equiv_ulit hs a b : NoDup (map hp_name hs) -> In (l_parent a) hs -> In (l_parent b) hs -> constructed (l_parent b) ->
    lit_equiv (ulit a) (ulit b) = true -> lit_equiv a b = true.
  Proof.
    intros ND Ha Hb C H. unfold lit_equiv in *. apply andb_true_iff in H. destruct H as [H1 H2]. simpl in *. rewrite H2.
    apply hp_eqb_name in H1. simpl in H1. rewrite (same_hp hs _ _ ND Ha Hb H1), (hp_eqb_refl _ (constructed_wf _ C)). reflexivity.
  Qed.
  Lemma equiv_conj_lits (xs ys : list lit) :
    (Nat.eqb (length (map CLit xs)) (length (map CLit ys))
       && forallb (fun c => existsb (fun d => cond_equiv c d) (map CLit ys)) (map CLit xs))%bool = true <->
    length xs = length ys /\ forall l, In l xs -> exists m, In m ys /\ lit_equiv l m = true.
  Proof.
    rewrite andb_true_iff, Nat.eqb_eq, !map_length. apply and_iff_compat_l. rewrite forallb_forall. split.
    - intros H l Hl. specialize (H (CLit l) (in_map CLit _ _ Hl)). rewrite existsb_exists in H. destruct H as (c & Hc & H).
      apply in_map_iff in Hc. destruct Hc as (m & <- & Hm). eauto.
    - intros H c Hc. apply in_map_iff in Hc. destruct Hc as (l & <- & Hl). destruct (H l Hl) as (m & Hm & Q).
      apply existsb_exists. exists (CLit m). split; [apply in_map, Hm|exact Q].
  Qed.
  Lemma equiv_ucond hs c d : NoDup (map hp_name hs) -> cond_refs hs c -> cond_refs hs d -> cond_built c -> cond_built d -> plain c -> plain d ->
    cond_equiv (ucond c) (ucond d) = true -> cond_equiv c d = true.
  Proof.
    intros ND Rc Rd Bc Bd Pc Pd.
    assert (G : forall a b, In a (dlcs c) -> In b (dlcs d) -> lit_equiv (ulit a) (ulit b) = true -> lit_equiv a b = true).
    { intros a b Ha Hb. apply (equiv_ulit hs); [exact ND|apply Rc, Ha|apply Rd, Hb|apply (built_lit_inv b (built_lits d Bd b Hb))]. }
    assert (K : forall xs ys, (forall a b, In a xs -> In b ys -> lit_equiv (ulit a) (ulit b) = true -> lit_equiv a b = true) ->
      (Nat.eqb (length (map (fun l => CLit (ulit l)) xs)) (length (map (fun l => CLit (ulit l)) ys))
       && forallb (fun c => existsb (fun d => cond_equiv c d) (map (fun l => CLit (ulit l)) ys)) (map (fun l => CLit (ulit l)) xs))%bool = true ->
      (Nat.eqb (length (map CLit xs)) (length (map CLit ys))
       && forallb (fun c => existsb (fun d => cond_equiv c d) (map CLit ys)) (map CLit xs))%bool = true).
    { intros xs ys Hg. rewrite <- !(map_map ulit CLit), !equiv_conj_lits, !map_length. intros [H1 H2]. split; [exact H1|].
      intros l Hl. destruct (H2 (ulit l) (in_map ulit _ _ Hl)) as (m & Hm & Q). apply in_map_iff in Hm. destruct Hm as (m' & <- & Hm). eauto. }
    destruct c as [l|cs|cs], d as [m|ds|ds]; try discriminate.
    - simpl. apply G; left; reflexivity.
    - destruct (plain_shape cs Pc) as (xs & ->). destruct (plain_shape ds Pd) as (ys & ->). cbn [dlcs] in G. rewrite !concat_clit in G.
      unfold ucond. cbn [dlcs]. rewrite !concat_clit. apply K, G.
    - destruct (plain_shape cs Pc) as (xs & ->). destruct (plain_shape ds Pd) as (ys & ->). cbn [dlcs] in G. rewrite !concat_clit in G.
      unfold ucond. cbn [dlcs]. rewrite !concat_clit. apply K, G.
    - destruct (plain_shape cs Pc) as (xs & ->). destruct (plain_shape ds Pd) as (ys & ->). cbn [dlcs] in G. rewrite !concat_clit in G.
      unfold ucond. cbn [dlcs]. rewrite !concat_clit. apply K, G.
    - destruct (plain_shape cs Pc) as (xs & ->). destruct (plain_shape ds Pd) as (ys & ->). cbn [dlcs] in G. rewrite !concat_clit in G.
      unfold ucond. cbn [dlcs]. rewrite !concat_clit. apply K, G.
  Qed.

  (** ** Clauses *)
  Lemma fdlcs_uforb f : fdlcs (uforb f) = map uforb (fdlcs f).
  Proof.
    induction f as [h v vv|h vs vvs|r a b|fs IH] using fclause_ind'; try reflexivity. simpl.
    induction IH as [|f fs Hf _ IH]; [reflexivity|]. simpl. rewrite map_app, Hf, IH. reflexivity.
  Qed.
  Lemma fdlcs_leaf f g : In g (fdlcs f) -> match g with FAnd _ => False | _ => True end.
  Proof.
    induction f as [h v vv|h vs vvs|r a b|fs IH] using fclause_ind'; try (intros [<-|[]]; exact I). simpl. intros H.
    rewrite in_concat in H. destruct H as (l & Hl & Hg). apply in_map_iff in Hl. destruct Hl as (x & <- & Hx).
    rewrite Forall_forall in IH. apply (IH x Hx Hg).
  Qed.
  Lemma hps_uforb f : forb_hps (uforb f) = map uni (forb_hps f).
  Proof.
    unfold forb_hps. rewrite fdlcs_uforb. assert (G := fdlcs_leaf f). induction (fdlcs f) as [|g l IH]; [reflexivity|].
    simpl. rewrite map_app, IH by (intros x Hx; apply G; right; exact Hx). f_equal.
    assert (Q := G g (or_introl eq_refl)). destruct g; reflexivity.
  Qed.
  Lemma comparable_uforb f : comparable f -> comparable (uforb f).
  Proof.
    intros C r a b H Hr. rewrite fdlcs_uforb in H. apply in_map_iff in H. destruct H as (g & Hg & Hi).
    destruct g as [| |r' a' b'|]; try discriminate. injection Hg as -> <- <-. rewrite !numeric_uni. apply (C r a' b' Hi Hr).
  Qed.
  Lemma violated_uforb d f : violated d (uforb f) <-> violated d f.
  Proof.
    induction f as [h v vv|h vs vvs|r a b|fs IH] using fclause_ind'; try reflexivity. simpl.
    rewrite map_map, !fold_and_iff. rewrite Forall_forall in IH. split; intros H x Hx; apply (IH x Hx), H, Hx.
  Qed.
  Lemma built_and_inv fs : forb_built (FAnd fs) -> forall x, In x fs -> forb_built x.
  Proof.
    intros H. inversion H as [h v f C H1|h vs f C H1|r a b f C1 C2 H1|cs f IH H1]; subst.
    - unfold mk_feq in H1. kill. destruct (to_vector h v); discriminate H1.
    - unfold mk_fin in H1. kill. destruct (mapM (to_vector h) vs); discriminate H1.
    - discriminate H1.
    - injection H1 as ->. exact IH.
  Qed.
  Lemma forb_refs_and hs fs x : forb_refs hs (FAnd fs) -> In x fs -> forb_refs hs x.
  Proof.
    intros R Hx h Hh. apply R. unfold forb_hps in *. simpl. rewrite in_concat in *. destruct Hh as (l & Hl & Hh). exists l. split; [|exact Hh].
    apply in_map_iff in Hl. destruct Hl as (g & <- & Hg). apply in_map_iff. exists g. split; [reflexivity|]. apply in_concat.
    exists (fdlcs x). split; [apply in_map, Hx|exact Hg].
  Qed.
  Lemma sub_forb_uforb s hs f : finds s (map uni hs) -> forb_built f -> forb_refs hs f ->
    sub_forb s f = Ok (uforb f) /\ forb_built (uforb f).
  Proof.
    intros F. assert (At : forall h, In h hs -> hp_at s (hp_name h) = Ok (uni h)).
    { intros h Hh. unfold hp_at. assert (Q := F (uni h) (in_map uni _ _ Hh)). simpl in Q. rewrite Q. reflexivity. }
    induction f as [h v vv|h vs vvs|r a b|fs IH] using fclause_ind'; intros B R.
    - assert (Hh : In h hs) by (apply R; left; reflexivity).
      assert (G : constructed h /\ mk_feq h v = Ok (FEq h v vv)).
      { inversion B as [h0 v0 f C H1|h0 vs0 f C H1|r0 a0 b0 f C1 C2 H1|cs f IH H1]; subst.
        - assert (H2 := H1). unfold mk_feq in H1. kill. destruct (to_vector h0 v0); [|discriminate]. injection H1 as -> -> ->. auto.
        - unfold mk_fin in H1. kill. destruct (mapM (to_vector h0) vs0); discriminate H1.
        - discriminate H1.
        - discriminate H1. }
      destruct G as [C H]. simpl. rewrite (At h Hh). cbn [bind].
      assert (G : mk_feq (uni h) v = Ok (FEq (uni h) v vv)).
      { unfold mk_feq in *. kill. rewrite legal_uni, Heqb, vector_uni. destruct (to_vector h v); [|discriminate]. injection H as ->. reflexivity. }
      split; [exact G|]. apply (FB_eq (uni h) v); auto using constructed_uni.
    - assert (Hh : In h hs) by (apply R; left; reflexivity).
      assert (G : constructed h /\ mk_fin h vs = Ok (FIn h vs vvs)).
      { inversion B as [h0 v0 f C H1|h0 vs0 f C H1|r0 a0 b0 f C1 C2 H1|cs f IH H1]; subst.
        - unfold mk_feq in H1. kill. destruct (to_vector h0 v0); discriminate H1.
        - assert (H2 := H1). unfold mk_fin in H1. kill. destruct (mapM (to_vector h0) vs0); [|discriminate]. injection H1 as -> -> ->. auto.
        - discriminate H1.
        - discriminate H1. }
      destruct G as [C H]. simpl. rewrite (At h Hh). cbn [bind].
      assert (G : mk_fin (uni h) vs = Ok (FIn (uni h) vs vvs)).
      { unfold mk_fin in *. kill. replace (forallb (legal_value (uni h)) vs) with true.
        2: { symmetry. rewrite forallb_forall in *. intros v Hv. rewrite legal_uni. auto. }
        rewrite (mapM_ext (to_vector (uni h)) (to_vector h)) by (intros; apply vector_uni).
        destruct (mapM (to_vector h) vs); [|discriminate]. injection H as ->. reflexivity. }
      split; [exact G|]. apply (FB_in (uni h) vs); auto using constructed_uni.
    - assert (Ha : In a hs) by (apply R; left; reflexivity). assert (Hb : In b hs) by (apply R; right; left; reflexivity).
      assert (G : constructed a /\ constructed b).
      { inversion B as [h0 v0 f C H1|h0 vs0 f C H1|r0 a0 b0 f C1 C2 H1|cs f IH H1]; subst.
        - unfold mk_feq in H1. kill. destruct (to_vector h0 v0); discriminate H1.
        - unfold mk_fin in H1. kill. destruct (mapM (to_vector h0) vs0); discriminate H1.
        - injection H1 as -> -> ->. auto.
        - discriminate H1. }
      simpl. rewrite (At a Ha), (At b Hb). split; [reflexivity|]. apply (FB_rel r (uni a) (uni b)); [apply constructed_uni, G|apply constructed_uni, G|reflexivity].
    - rewrite Forall_forall in IH. assert (G : forall x, In x fs -> sub_forb s x = Ok (uforb x) /\ forb_built (uforb x)).
      { intros x Hx. apply (IH x Hx); [apply (built_and_inv fs B x Hx)|apply (forb_refs_and hs fs x R Hx)]. }
      simpl. rewrite (mapM_map (sub_forb s) uforb) by (intros x Hx; apply G, Hx). split; [reflexivity|].
      apply (FB_and (map uforb fs)); [|reflexivity]. intros y Hy. apply in_map_iff in Hy. destruct Hy as (x & <- & Hx). apply G, Hx.
  Qed.

  (** ** Spaces *)
  Section Result.
    Context {s : space} {hs : list hp} {cs : list cond} {fs : list fclause}.
    Hypothesis T : tame s hs cs fs.
    Hypothesis U : distinct_strings s.
    Hypothesis Pl : forall c, In c cs -> plain c.
    Let hs2 := map uni (Space.hps s).
    Let cs2 := map ucond (conditions s).
    Let fs2 := map uforb (forbidden_clauses s).
    Let B : built s hs cs fs := tm_built _ _ _ _ T.
    Let O : space_ok s hs cs fs := built_ok _ _ _ _ B.
    Let R : refs hs cs fs := tm_refs _ _ _ _ T.
    Let Ph : Permutation (Space.hps s) hs := so_hps O.
    Let Pf : Permutation (forbidden_clauses s) fs := di_forb _ _ _ _ (so_inv _ _ _ _ O).
    Let ND : NoDup (map hp_name hs) := so_names_nodup O.

    Lemma pr_sub c : In c (conditions s) -> In c cs.
    Proof. intros Hc. apply (listed _ _ _ _ B U) in Hc. destruct Hc as (n & Hc). apply (so_condof_in O _ _ Hc). Qed.
    Lemma pr_names : map hp_name hs2 = map hp_name (Space.hps s).
    Proof. unfold hs2. rewrite map_map. reflexivity. Qed.
    Lemma pr_nodup : NoDup (map hp_name hs2).
    Proof. rewrite pr_names. eapply Permutation_NoDup; [apply Permutation_map, Permutation_sym, Ph|exact ND]. Qed.
    Lemma pr_hs : Forall constructed hs2.
    Proof.
      rewrite Forall_forall. intros h Hh. apply in_map_iff in Hh. destruct Hh as (k & <- & Hk).
      apply constructed_uni, (so_constructed O), (Permutation_in _ Ph Hk).
    Qed.
    Lemma pr_reads p c : reads cs p c <-> reads cs2 p c.
    Proof.
      rewrite (listed_reads _ _ _ _ B U p c). split.
      - intros (x & Hx & A & P). exists (ucond x). split; [apply in_map, Hx|]. rewrite activates_ucond, parents_ucond. auto.
      - intros (y & Hy & A & P). apply in_map_iff in Hy. destruct Hy as (x & <- & Hx). rewrite activates_ucond in A. rewrite parents_ucond in P.
        exists x. auto.
    Qed.
    Lemma pr_refs : refs hs2 cs2 fs2.
    Proof.
      assert (G : forall h, In h hs -> In (uni h) hs2) by (intros h Hh; apply in_map, (Permutation_in _ (Permutation_sym Ph) Hh)).
      split.
      - intros c Hc l Hl. apply in_map_iff in Hc. destruct Hc as (x & <- & Hx). rewrite dlcs_ucond in Hl. apply in_map_iff in Hl.
        destruct Hl as (m & <- & Hm). destruct (proj1 R x (pr_sub x Hx) m Hm). split; apply G; assumption.
      - intros f Hf h Hh. apply in_map_iff in Hf. destruct Hf as (g & <- & Hg). rewrite hps_uforb in Hh. apply in_map_iff in Hh.
        destruct Hh as (k & <- & Hk). apply G, (proj2 R g (Permutation_in _ Pf Hg) k Hk).
    Qed.
    Lemma pr_keys s' hs' fs' : space_ok s' hs' cs2 fs' -> map hp_name hs' = map hp_name hs2 -> keys s' = keys s.
    Proof.
      intros O' N. symmetry. apply (layout_unique s hs cs fs s' _ _ _ O O').
      - rewrite N, pr_names. symmetry. apply Permutation_map, Ph.
      - apply pr_reads.
    Qed.
    Lemma pr_index s' hs' fs' : space_ok s' hs' cs2 fs' -> map hp_name hs' = map hp_name hs2 -> index_of s' = index_of s.
    Proof.
      intros O' N. assert (K := pr_keys s' hs' fs' O' N). unfold index_of.
      rewrite (cm_index _ (so_com _ _ _ _ O)), (cm_index _ (so_com _ _ _ _ O')). unfold keys in K. rewrite K. f_equal. f_equal.
      rewrite <- (map_length fst (d_nodes (s_dag s'))), <- (map_length fst (d_nodes (s_dag s))), K. reflexivity.
    Qed.
    Lemma pr_merge s' : space_ok s' hs2 cs2 fs2 -> merge_sound (index_of s') cs2.
    Proof.
      intros O'. rewrite (pr_index s' hs2 fs2 O' eq_refl). intros c d v Hc Hd Eq.
      apply in_map_iff in Hc. destruct Hc as (x & <- & Hx). apply in_map_iff in Hd. destruct Hd as (y & <- & Hy).
      assert (Ix := pr_sub x Hx). assert (Iy := pr_sub y Hy). rewrite !sat_ucond by (apply Pl; assumption).
      apply (tm_merge _ _ _ _ T x y v Ix Iy). apply (equiv_ucond hs x y ND); auto; try (apply R; assumption); apply (so_cond_built O); assumption.
    Qed.
    Lemma pr_ne : ne_safe cs2.
    Proof.
      intros c l w vv Hc Hl Ht (c' & Hc' & Ha). apply in_map_iff in Hc. destruct Hc as (x & <- & Hx). apply in_map_iff in Hc'. destruct Hc' as (y & <- & Hy).
      rewrite dlcs_ucond in Hl. apply in_map_iff in Hl. destruct Hl as (m & <- & Hm). rewrite activates_ucond in Ha.
      apply (tm_ne _ _ _ _ T x m w vv (pr_sub x Hx) Hm Ht). exists y. split; [apply pr_sub, Hy|exact Ha].
    Qed.
    Lemma pr_cmp f : In f fs2 -> comparable f.
    Proof.
      intros Hf. apply in_map_iff in Hf. destruct Hf as (g & <- & Hg). apply comparable_uforb, (tm_cmp _ _ _ _ T), (Permutation_in _ Pf Hg).
    Qed.
    Lemma pr_active d n : active (conditions s) d n <-> active cs2 d n.
    Proof.
      split.
      - intros H c Hc A. apply in_map_iff in Hc. destruct Hc as (x & <- & Hx). rewrite activates_ucond in A.
        apply holds_ucond; [apply plain_kind, Pl, pr_sub, Hx|]. apply H; assumption.
      - intros H c Hc A. apply (holds_ucond d c); [apply plain_kind, Pl, pr_sub, Hc|]. apply H; [apply in_map, Hc|apply activates_ucond, A].
    Qed.
    Lemma pr_valid d : valid hs cs fs d <-> valid hs2 cs2 fs2 d.
    Proof.
      rewrite (listed_valid s hs cs fs d B R U). split; intros [V1 V2 V3].
      - constructor.
        + intros u w Hu Hw. apply in_map_iff in Hu. destruct Hu as (h & <- & Hh). rewrite legal_uni. apply (V1 h w Hh Hw).
        + intros u Hu. apply in_map_iff in Hu. destruct Hu as (h & <- & Hh). rewrite <- pr_active. apply (V2 h Hh).
        + intros f Hf. apply in_map_iff in Hf. destruct Hf as (g & <- & Hg). rewrite violated_uforb. apply (V3 g Hg).
      - constructor.
        + intros h w Hh Hw. rewrite <- legal_uni. apply (V1 (uni h) w (in_map uni _ _ Hh) Hw).
        + intros h Hh. rewrite pr_active. apply (V2 (uni h) (in_map uni _ _ Hh)).
        + intros f Hf. rewrite <- violated_uforb. apply V3, in_map, Hf.
    Qed.

    Lemma pr_returns : exists s', remove_priors s = Ok s' /\ built s' hs2 cs2 fs2.
    Proof.
      unfold remove_priors. rewrite (mapM_map to_uniform uni).
      2: { intros h Hh. apply to_uniform_uni, (so_constructed O), (Permutation_in _ Ph Hh). }
      cbn [bind]. fold hs2.
      destruct (add_total empty_space [] [] [] hs2 [] [] (fun n => option_map hp_default (get_hp s n)) built_empty pr_hs (Forall_nil _) (Forall_nil _))
        as (s1 & A1).
      { split; [intros c []|intros f []]. } { intros []. } { exact pr_nodup. } { intros c c' n []. }
      { intros n Hn. assert (G : forall a b, clos_trans string (reads []) a b -> False) by (induction 1 as [a b (c & [] & _)|]; auto). eauto. }
      { intros s' _ c d v []. } { intros c l w vv []. } { intros f []. }
      { intros u Hu. apply in_map_iff in Hu. destruct Hu as (h & <- & Hh). left. split; [intros c []|].
        cbn [uni hp_name hp_default]. rewrite (proj2 (so_get_hp O (hp_name h) h)); [reflexivity|]. split; [apply (Permutation_in _ Ph Hh)|reflexivity]. }
      { intros f []. }
      rewrite A1. cbn [bind].
      assert (B1 : built s1 hs2 [] []).
      { apply (built_add empty_space [] [] [] s1 _ [] [] built_empty pr_hs (Forall_nil _) (Forall_nil _) A1). }
      assert (O1 := built_ok _ _ _ _ B1).
      assert (F : finds s1 (map uni hs)).
      { intros u Hu. apply in_map_iff in Hu. destruct Hu as (h & <- & Hh). apply (so_get_hp O1). split; [|reflexivity].
        apply in_map, (Permutation_in _ (Permutation_sym Ph) Hh). }
      assert (Gc : forall c, In c (conditions s) -> sub_cond s1 c = Ok (ucond c) /\ cond_built (ucond c)).
      { intros c Hc. assert (Ic := pr_sub c Hc). apply (sub_cond_ucond s1 hs c F ND); [apply (so_cond_built O), Ic|apply R, Ic]. }
      assert (Gf : forall f, In f (forbidden_clauses s) -> sub_forb s1 f = Ok (uforb f) /\ forb_built (uforb f)).
      { intros f Hf. assert (If := Permutation_in _ Pf Hf). apply (sub_forb_uforb s1 hs f F); [apply (so_forb_built O), If|apply R, If]. }
      rewrite (mapM_map (sub_cond s1) ucond) by (intros c Hc; apply Gc, Hc). cbn [bind]. fold cs2.
      rewrite (mapM_map (sub_forb s1) uforb) by (intros f Hf; apply Gf, Hf). cbn [bind]. fold fs2.
      assert (F2 : Forall cond_built cs2).
      { rewrite Forall_forall. intros c Hc. apply in_map_iff in Hc. destruct Hc as (x & <- & Hx). apply Gc, Hx. }
      assert (F3 : Forall forb_built fs2).
      { rewrite Forall_forall. intros c Hc. apply in_map_iff in Hc. destruct Hc as (x & <- & Hx). apply Gf, Hx. }
      destruct (C21_exists _ _ _ _ B) as (cf & Hcf).
      destruct (default_sound s hs cs fs cf O R (tm_merge _ _ _ _ T) (tm_ne _ _ _ _ T) Hcf) as (d & D & V).
      assert (AL : all_legal hs d).
      { intros h w Hh Hw. destruct (D h Hh) as [[_ Q]|[_ Q]]; rewrite Q in Hw; [|discriminate]. injection Hw as <-.
        apply default_legal, (so_constructed O), Hh. }
      destruct (add_total s1 hs2 [] [] [] cs2 fs2 d B1 (Forall_nil _) F2 F3) as (s2 & A2); rewrite ?app_nil_r; simpl.
      { exact pr_refs. }
      { intros Hn. apply in_map_iff in Hn. destruct Hn as (f & Hf & Hi). destruct f as [| | |l]; try discriminate. destruct l; [|discriminate].
        revert Hi. eapply optimized_nil. apply (cm_fast _ (so_com _ _ _ _ O)). }
      { exact pr_nodup. }
      { intros c c' n Hc Hc' A A'. apply in_map_iff in Hc. destruct Hc as (x & <- & Hx). apply in_map_iff in Hc'. destruct Hc' as (y & <- & Hy).
        rewrite activates_ucond in A, A'. assert (x = y).
        { apply (listed _ _ _ _ B U) in Hx, Hy. destruct Hx as (n1 & Hx), Hy as (n2 & Hy).
          assert (Q1 := proj2 (so_condof_in O _ _ Hx)). assert (Q2 := proj2 (so_condof_in O _ _ Hy)). unfold activates in *.
          assert (n1 = n) by congruence. assert (n2 = n) by congruence. congruence. }
        subst y. apply cond_eqb_refl, cond_built_wf, Gc, Hx. }
      { intros n Hn. apply (C05_acyclic _ _ _ _ B n). revert Hn. generalize n at 2 4. intros m Hn.
        induction Hn as [a b Hab|a b c _ IH1 _ IH2]; [apply t_step, pr_reads, Hab|eapply t_trans; eauto]. }
      { exact pr_merge. }
      { exact pr_ne. }
      { exact pr_cmp. }
      { intros u Hu. apply in_map_iff in Hu. destruct Hu as (h & <- & Hh). cbn [uni hp_name hp_default].
        rewrite <- pr_active, <- (listed_active s hs cs fs d B R U AL). apply D, (Permutation_in _ Ph Hh). }
      { intros f Hf. apply in_map_iff in Hf. destruct Hf as (g & <- & Hg). rewrite violated_uforb. apply V, (Permutation_in _ Pf Hg). }
      rewrite A2. exists s2. split; [reflexivity|].
      assert (H := built_add _ _ _ _ _ _ _ _ B1 (Forall_nil _) F2 F3 A2). rewrite app_nil_r in H. exact H.
    Qed.
    (** two conditions, or two clauses, that say the same *)
    Definition same_condition (c c' : cond) : Prop :=
      cond_parents c' = cond_parents c /\ (forall n, activates c' n <-> activates c n) /\
      (forall d, holds d c' <-> holds d c) /\ (forall io v, sat_vec io v c' = sat_vec io v c).
    Definition same_clause (f f' : fclause) : Prop := forall d, violated d f' <-> violated d f.

    (** C55: the result has the same names in the same order, ranges, defaults, conditions and
        clauses, and the same valid configurations.

        Missing: conjunctions within conjunctions, which are flattened (C55_refuted), conditions
        that the space no longer lists because of their strings (C58), and the spaces outside
        [tame]. *)
    Theorem C55_partial : exists s', remove_priors s = Ok s' /\ keys s' = keys s /\ index_of s' = index_of s /\
      (forall n h, get_hp s n = Some h -> exists u, get_hp s' n = Some u /\ no_prior h u) /\
      (forall n, Forall2 same_condition (conds_of s n) (conds_of s' n)) /\
      (exists l, Permutation (forbidden_clauses s') l /\ Forall2 same_clause (forbidden_clauses s) l) /\
      exists hs' cs' fs', tame s' hs' cs' fs' /\ forall d, valid hs cs fs d <-> valid hs' cs' fs' d.
    Proof.
      destruct pr_returns as (s' & H & B'). assert (O' := built_ok _ _ _ _ B'). exists s'. split; [exact H|].
      assert (Ix := pr_index s' hs2 fs2 O' eq_refl). split; [apply (pr_keys s' hs2 fs2 O' eq_refl)|]. split; [exact Ix|].
      split. { intros n h Hh. apply (so_get_hp O) in Hh. destruct Hh as [Hh <-]. exists (uni h). split; [|apply no_prior_uni].
        apply (so_get_hp O'). split; [|reflexivity]. apply in_map, (Permutation_in _ (Permutation_sym Ph) Hh). }
      split. { intros n. rewrite (so_conds_of O), (so_conds_of O').
        destruct (condof (d_nodes (s_dag s)) n) as [c|] eqn:E1.
        - assert (Hc : In c (conditions s)) by (apply (listed _ _ _ _ B U); eauto). assert (A := proj2 (so_condof_in O _ _ E1)).
          destruct (so_declared O' n (ucond c) (in_map ucond _ _ Hc) (proj2 (activates_ucond c n) A)) as (c' & Hc' & _). rewrite Hc'.
          constructor; [|constructor]. destruct (so_condof_in O' _ _ Hc') as [I' A']. apply in_map_iff in I'. destruct I' as (x & <- & Hx).
          rewrite activates_ucond in A'. assert (x = c).
          { apply (listed _ _ _ _ B U) in Hx. destruct Hx as (m & Hx). assert (Q := proj2 (so_condof_in O _ _ Hx)). unfold activates in *.
            assert (m = n) by congruence. congruence. }
          subst x. assert (P := Pl c (pr_sub c Hc)). split; [apply parents_ucond|]. split; [intros; apply activates_ucond|].
          split; [intros; apply holds_ucond, plain_kind, P|intros; apply sat_ucond, P].
        - destruct (condof (d_nodes (s_dag s')) n) as [c'|] eqn:E2; [|constructor]. exfalso.
          destruct (so_condof_in O' _ _ E2) as [I' A']. apply in_map_iff in I'. destruct I' as (x & <- & Hx). rewrite activates_ucond in A'.
          destruct (so_declared O n x (pr_sub x Hx) A') as (y & Hy & _). congruence. }
      split. { exists fs2. split; [apply (di_forb _ _ _ _ (so_inv _ _ _ _ O'))|]. unfold fs2. generalize (forbidden_clauses s).
        induction l as [|f l IH]; constructor; [intros d; apply violated_uforb|exact IH]. }
      exists hs2, cs2, fs2. split; [|exact pr_valid].
      constructor; [exact B'|exact pr_refs|apply pr_merge, O'|exact pr_ne|exact pr_cmp].
    Qed.

    (** ... and it accepts the same values *)
    Theorem C55_accepts_partial s' vals d : remove_priors s = Ok s' -> stored hs (given vals) d -> exact_all hs (given vals) ->
      ((exists c, config_of_values s' vals false = Ok c) <-> (exists c, config_of_values s vals false = Ok c)).
    Proof.
      intros H St Ex. destruct pr_returns as (s2 & H2 & B'). rewrite H in H2. injection H2 as <-. assert (O' := built_ok _ _ _ _ B').
      assert (T' : tame s' hs2 cs2 fs2) by (constructor; [exact B'|exact pr_refs|apply pr_merge, O'|exact pr_ne|exact pr_cmp]).
      assert (G : forall u, In u hs2 -> exists h, In h hs /\ u = uni h).
      { intros u Hu. apply in_map_iff in Hu. destruct Hu as (h & <- & Hh). exists h. split; [apply (Permutation_in _ Ph Hh)|reflexivity]. }
      assert (G' : forall h, In h hs -> In (uni h) hs2) by (intros h Hh; apply in_map, (Permutation_in _ (Permutation_sym Ph) Hh)).
      rewrite (C17_accepts_valid_partial s hs cs fs vals d T St Ex).
      rewrite (C17_accepts_valid_partial s' hs2 cs2 fs2 vals d T').
      2: { intros u Hu. destruct (G u Hu) as (h & Hh & ->). cbn [uni hp_name]. rewrite (St h Hh).
           destruct (given vals (hp_name h)) as [w|]; [|reflexivity]. simpl. rewrite <- (round_uni h w). reflexivity. }
      2: { intros u w Hu Hw. destruct (G u Hu) as (h & Hh & ->). apply exact_uni. apply (Ex h w Hh Hw). }
      rewrite <- pr_valid.
      assert (Q : forall k, In k (map hp_name hs2) <-> In k (map hp_name hs)).
      { intros k. rewrite pr_names. split; apply Permutation_in; [|apply Permutation_sym]; apply Permutation_map, Ph. }
      split; intros (G1 & G2 & G3); (split; [intros k Hk; destruct (G1 k Hk) as [K|K]; [left; exact K|right; apply Q, K]|split; [|exact G3]]).
      - intros h w Hh Hw. rewrite <- legal_uni. apply (G2 (uni h) w (G' h Hh) Hw).
      - intros u w Hu Hw. destruct (G u Hu) as (h & Hh & ->). rewrite legal_uni. apply (G2 h w Hh Hw).
    Qed.
  End Result.

  (** one condition of one kind of conjunction, nested or not, keeps its meaning *)
  Theorem C55_condition_partial s' hs c : finds s' (map uni hs) -> NoDup (map hp_name hs) -> cond_built c -> cond_refs hs c ->
    only_and c \/ only_or c -> exists c', sub_cond s' c = Ok c' /\ cond_parents c' = cond_parents c /\ (forall d, holds d c' <-> holds d c).
  Proof.
    intros F ND B R K. exists (ucond c). split; [apply (sub_cond_ucond s' hs c F ND B R)|]. split; [apply parents_ucond|].
    intros d. apply holds_ucond, K.
  Qed.

  (** ... and a clause, whatever its structure *)
  Theorem C55_clause s' hs f : finds s' (map uni hs) -> forb_built f -> forb_refs hs f ->
    exists f', sub_forb s' f = Ok f' /\ forall d, violated d f' <-> violated d f.
  Proof.
    intros F B R. exists (uforb f). split; [apply (sub_forb_uforb s' hs f F B R)|]. intros d. apply violated_uforb.
  Qed.
End Priors.

Section Witness.
  #[local] Existing Instance rat_env.

  Lemma ex_plain c : In c ex_conds -> plain c.
  Proof.
    intros H. destruct H as [<-|[<-|[<-|[<-|[]]]]]; vm_compute; try exact I; intros x Hx;
      repeat (destruct Hx as [<-|Hx]; [exact I|]); destruct Hx.
  Qed.
  Lemma ex_distinct_strings : distinct_strings ex_space.
  Proof. apply (strings_distinct _ _ _ _ ex_built). apply nodup_strings. vm_compute. reflexivity. Qed.
  Example C55_case : exists s hs cs fs s', tame s hs cs fs /\ distinct_strings s /\ (forall c, In c cs -> plain c) /\
    length cs = 4 /\ remove_priors s = Ok s' /\ option_map hp_kind (get_hp s "g") = Some (KCat (xs ["p"; "q"]) (Some [3%Q; 1%Q])) /\
    option_map hp_kind (get_hp s' "g") = Some (KCat (xs ["p"; "q"]) None).
  Proof.
    exists ex_space, ex_hps, ex_conds, ex_forbs, (get_or ex_space (remove_priors ex_space)).
    split; [exact ex_tame|]. split; [exact ex_distinct_strings|]. split; [exact ex_plain|]. split; [reflexivity|].
    split; [vm_compute; reflexivity|]. split; vm_compute; reflexivity.
  Qed.

  (** a = x and (n = 1 or n = 4) becomes a = x and n = 1 and n = 4 *)
  Definition cBx := get_or dummy_cond (mk_bin OpEq hB hA (VStr "x")).
  Definition cBy := get_or dummy_cond (mk_bin OpEq hB hA (VStr "y")).
  Definition cBn1 := get_or dummy_cond (mk_bin OpEq hB hN (VInt 1)).
  Definition cBn4 := get_or dummy_cond (mk_bin OpEq hB hN (VInt 4)).
  Definition cBor := get_or dummy_cond (mk_or [cBn1; cBn4]).
  Definition cBnest := get_or dummy_cond (mk_and [cBx; cBor]).
  Lemma cBx_c : cond_built cBx. Proof. apply (CB_bin OpEq hB hA (VStr "x") cBx hB_c hA_c). vm_compute. reflexivity. Qed.
  Lemma cBy_c : cond_built cBy. Proof. apply (CB_bin OpEq hB hA (VStr "y") cBy hB_c hA_c). vm_compute. reflexivity. Qed.
  Lemma cBn1_c : cond_built cBn1. Proof. apply (CB_bin OpEq hB hN (VInt 1) cBn1 hB_c hN_c). vm_compute. reflexivity. Qed.
  Lemma cBn4_c : cond_built cBn4. Proof. apply (CB_bin OpEq hB hN (VInt 4) cBn4 hB_c hN_c). vm_compute. reflexivity. Qed.
  Lemma cBnest_c : cond_built cBnest.
  Proof.
    apply (CB_and [cBx; cBor]); [|vm_compute; reflexivity]. intros x [<-|[<-|[]]]; [apply cBx_c|].
    apply (CB_or [cBn1; cBn4]); [|vm_compute; reflexivity]. intros x [<-|[<-|[]]]; [apply cBn1_c|apply cBn4_c].
  Qed.
  Definition nest_hps := [hA; hN; hB].
  Definition nest_space := fst (add empty_space nest_hps [cBnest] []).

  Lemma one_tame s hs c fs : built s hs [c] fs -> refs hs [c] fs -> (forall l, In l (dlcs c) -> match l_test l with TBin OpNe _ _ => False | _ => True end) ->
    (forall f, In f fs -> comparable f) -> tame s hs [c] fs.
  Proof.
    intros B R N C. constructor; auto.
    - intros x y v [<-|[]] [<-|[]] _. reflexivity.
    - intros x l w vv [<-|[]] Hl Ht. exfalso. specialize (N l Hl). rewrite Ht in N. exact N.
  Qed.

  Theorem C55_refuted : exists s hs cs s' vals, tame s hs cs [] /\ distinct_strings s /\ remove_priors s = Ok s' /\
    (exists c, config_of_values s vals false = Ok c) /\ config_of_values s' vals false = Err InactiveHyperparameterSetError.
  Proof.
    exists nest_space, nest_hps, [cBnest], (get_or nest_space (remove_priors nest_space)),
      [("a", Some (VStr "x")); ("n", Some (VInt 1)); ("b", Some (VFloat (1#2)))]%string.
    assert (B : built nest_space nest_hps [cBnest] []).
    { apply (built_step empty_space [] [] [] nest_hps [cBnest] [] built_empty).
      - repeat (constructor; [first [apply hA_c|apply hN_c|apply hB_c]|]). constructor.
      - constructor; [apply cBnest_c|constructor].
      - constructor.
      - vm_compute. reflexivity. }
    split. { apply one_tame; [exact B| | |intros f []].
      - split; [|intros f []]. intros c [<-|[]] l Hl. vm_compute in Hl.
        repeat (destruct Hl as [<-|Hl]; [split; vm_compute; tauto|]). destruct Hl.
      - intros l Hl. vm_compute in Hl. repeat (destruct Hl as [<-|Hl]; [exact I|]). destruct Hl. }
    split; [apply (strings_distinct _ _ _ _ B); apply nodup_strings; vm_compute; reflexivity|].
    split; [vm_compute; reflexivity|]. split; [eexists; vm_compute; reflexivity|vm_compute; reflexivity].
  Qed.

  (** a = y or (a = x and n = 1) becomes a = y or a = x or n = 1, which holds by default *)
  Definition cBand := get_or dummy_cond (mk_and [cBx; cBn1]).
  Definition cBnest2 := get_or dummy_cond (mk_or [cBy; cBand]).
  Lemma cBnest2_c : cond_built cBnest2.
  Proof.
    apply (CB_or [cBy; cBand]); [|vm_compute; reflexivity]. intros x [<-|[<-|[]]]; [apply cBy_c|].
    apply (CB_and [cBx; cBn1]); [|vm_compute; reflexivity]. intros x [<-|[<-|[]]]; [apply cBx_c|apply cBn1_c].
  Qed.
  Definition fBd := get_or dummy_forb (mk_feq hB (VFloat (1#2))).
  Definition nest_space2 := fst (add empty_space nest_hps [cBnest2] [fBd]).
  Theorem C55_raises_refuted : exists s hs cs fs, tame s hs cs fs /\ distinct_strings s /\ remove_priors s = Err ForbiddenValueError.
  Proof.
    exists nest_space2, nest_hps, [cBnest2], [fBd].
    assert (B : built nest_space2 nest_hps [cBnest2] [fBd]).
    { apply (built_step empty_space [] [] [] nest_hps [cBnest2] [fBd] built_empty).
      - repeat (constructor; [first [apply hA_c|apply hN_c|apply hB_c]|]). constructor.
      - constructor; [apply cBnest2_c|constructor].
      - constructor; [|constructor]. apply (FB_eq hB (VFloat (1#2)) fBd hB_c). vm_compute. reflexivity.
      - vm_compute. reflexivity. }
    split. { apply one_tame; [exact B| | |].
      - split.
        + intros c [<-|[]] l Hl. vm_compute in Hl. repeat (destruct Hl as [<-|Hl]; [split; vm_compute; tauto|]). destruct Hl.
        + intros f [<-|[]] h Hh. vm_compute in Hh. destruct Hh as [<-|[]]. vm_compute. tauto.
      - intros l Hl. vm_compute in Hl. repeat (destruct Hl as [<-|Hl]; [exact I|]). destruct Hl.
      - intros f [<-|[]] r a b Hr Hne. vm_compute in Hr. destruct Hr as [Hr|[]]. discriminate Hr. }
    split; [apply (strings_distinct _ _ _ _ B); apply nodup_strings; vm_compute; reflexivity|]. vm_compute. reflexivity.
  Qed.
End Witness.
