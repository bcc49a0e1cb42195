(** * Properties C74 to C76: equality of clauses, spaces and configurations *)
From Coq Require Import String List ZArith QArith Bool Lia Permutation.
From Verif Require Import Base ListFacts Numeric NumericProofs HP HPProofs Properties_HP Cond Forb EqFacts Dag DagCycle DagProofs
  Space CommitProofs Spec SpaceProofs CnodeProofs ForbProofs AddProofs EvalProofs ForbEval MergeProofs ValidProofs ConfigProofs
  ChangeProofs ReadProofs Ex Properties_Graph Properties_Eval Properties_Config Properties_Repair Serial Properties_Serial.
Import ListNotations.
Open Scope nat_scope.

(** ** C74: clauses *)

(** a membership clause does not repeat a value *)
Definition no_repeats (f : fclause) : Prop := forall h vs vvs, In (FIn h vs vvs) (fdlcs f) -> has_dup vs = false.

Lemma no_repeats_part cs c : no_repeats (FAnd cs) -> In c cs -> no_repeats c.
Proof.
  intros N Hc h vs vvs H. apply (N h vs vvs). simpl. apply in_concat. exists (fdlcs c). split; [apply in_map, Hc|exact H].
Qed.

(** without repetitions, a list inside a list of the same length is all of it *)
Lemma pigeon vs ws : has_dup vs = false -> length vs = length ws -> forallb (fun v => py_in v ws) vs = true ->
  forallb (fun w => py_in w vs) ws = true.
Proof.
  intros D Hl H. rewrite forallb_forall in *.
  set (ix := fun v => match py_index v ws with Some i => i | None => 0 end).
  assert (Hx : forall v, In v vs -> exists w, nth_error ws (ix v) = Some w /\ py_eqb v w = true).
  { intros v Hv. destruct (py_in_index v ws (H v Hv)) as (i & Hi). unfold ix. rewrite Hi.
    destruct (py_index_some _ _ _ Hi) as (w & N & Q & _). exists w. split; [exact N|]. rewrite py_eqb_sym. exact Q. }
  assert (ND : NoDup (map ix vs)).
  { apply (NoDup_nth _ 0). intros i j Hi Hj Hij. rewrite map_length in Hi, Hj.
    rewrite (nth_indep _ 0 (ix VNone)), (nth_indep _ 0 (ix VNone)) in Hij by (rewrite map_length; lia).
    rewrite !map_nth in Hij.
    destruct (Hx (nth i vs VNone) (nth_In _ _ Hi)) as (w & N1 & Q1).
    destruct (Hx (nth j vs VNone) (nth_In _ _ Hj)) as (w' & N2 & Q2).
    rewrite Hij in N1. rewrite N1 in N2. injection N2 as <-.
    apply (has_dup_nth vs i j (nth i vs VNone) (nth j vs VNone) D); try (apply nth_error_nth'; assumption).
    apply (py_eqb_trans _ w); [exact Q1|]. rewrite py_eqb_sym. exact Q2. }
  assert (In_seq : incl (map ix vs) (seq 0 (length ws))).
  { intros i Hi. apply in_map_iff in Hi. destruct Hi as (v & <- & Hv). destruct (Hx v Hv) as (w & N & _).
    apply in_seq. split; [lia|]. simpl. apply nth_error_Some. congruence. }
  assert (All : incl (seq 0 (length ws)) (map ix vs)).
  { apply NoDup_length_incl; [exact ND| |exact In_seq]. rewrite seq_length, map_length. lia. }
  intros w Hw. apply In_nth_error in Hw. destruct Hw as (i & Hi).
  assert (K : In i (map ix vs)).
  { apply All, in_seq. split; [lia|]. simpl. apply nth_error_Some. congruence. }
  apply in_map_iff in K. destruct K as (v & Hv & Hin). destruct (Hx v Hin) as (w' & N & Q).
  rewrite Hv in N. rewrite N in Hi. injection Hi as ->. apply py_in_iff. exists v. split; [exact Hin|].
  rewrite py_eqb_sym. exact Q.
Qed.

Section Clauses.
  Context {E : Env} {L : EnvLaws E}.

  Definition forb_wf (f : fclause) : Prop := forall h, In h (forb_hps f) -> wf_hp h.
  Lemma forb_wf_part cs c : forb_wf (FAnd cs) -> In c cs -> forb_wf c.
  Proof.
    intros W Hc h Hh. apply W. unfold forb_hps in *. apply in_concat in Hh. destruct Hh as (l & Hl & Hh).
    apply in_map_iff in Hl. destruct Hl as (g & <- & Hg). apply in_concat. exists (leaf_hps g).
    split; [|exact Hh]. apply in_map. simpl. apply in_concat. exists (fdlcs c). split; [apply in_map, Hc|exact Hg].
  Qed.
  Lemma good_wf f : forb_good f -> forb_wf f.
  Proof.
    induction f as [h v vv|h vs vvs|r a b|cs IH] using fclause_ind'; intros G k Hk; inversion G; subst; simpl in Hk.
    - destruct Hk as [<-|[]]. apply constructed_wf. assumption.
    - destruct Hk as [<-|[]]. apply constructed_wf. assumption.
    - destruct Hk as [<-|[<-|[]]]; apply constructed_wf; assumption.
    - rewrite Forall_forall in IH. unfold forb_hps in Hk. simpl in Hk. rewrite concat_map, concat_concat in Hk || idtac.
      apply in_concat in Hk. destruct Hk as (l & Hl & Hh). apply in_map_iff in Hl. destruct Hl as (g & <- & Hg).
      apply in_concat in Hg. destruct Hg as (m & Hm & Hg). apply in_map_iff in Hm. destruct Hm as (c & <- & Hc).
      apply (IH c Hc); auto. unfold forb_hps. apply in_concat. exists (leaf_hps g). split; [apply in_map, Hg|exact Hh].
  Qed.

  (** [forb_cmp true f g] is [forb_cmp false g f] *)
  Lemma forb_cmp_back f : forall g, forb_cmp true f g = forb_cmp false g f /\ forb_cmp true g f = forb_cmp false f g.
  Proof.
    induction f as [h v vv|h vs vvs|r a b|cs IH] using fclause_ind'; intros [k w ww|k ws wws|r' a' b'|ds]; simpl;
      try (split; reflexivity).
    - rewrite (py_eqb_sym v w). split; reflexivity.
    - assert (R : rel_eqb r r' = rel_eqb r' r) by (destruct r, r'; reflexivity). rewrite R. split; reflexivity.
    - rewrite Forall_forall in IH. rewrite (Nat.eqb_sym (length cs)).
      assert (A1 : forallb (fun c => existsb (fun d => forb_cmp true c d) ds) cs = forallb (fun c => existsb (fun d => forb_cmp false d c) ds) cs).
      { apply forallb_ext_in. intros c Hc. apply existsb_ext_in. intros d Hd. apply (IH c Hc d). }
      assert (A2 : forallb (fun d => existsb (fun c => forb_cmp false c d) cs) ds = forallb (fun d => existsb (fun c => forb_cmp true d c) cs) ds).
      { apply forallb_ext_in. intros d Hd. apply existsb_ext_in. intros c Hc. symmetry. apply (IH c Hc d). }
      rewrite A1, A2, <- !andb_assoc. split; f_equal; apply andb_comm.
  Qed.
  Lemma forb_eqb_and cs ds : forb_eqb (FAnd cs) (FAnd ds) = true <->
    length cs = length ds /\ (forall c, In c cs -> exists d, In d ds /\ forb_eqb d c = true) /\
    (forall d, In d ds -> exists c, In c cs /\ forb_eqb c d = true).
  Proof.
    unfold forb_eqb. simpl. rewrite !andb_true_iff, Nat.eqb_eq, !forallb_forall. split.
    - intros [[H1 H2] H3]. split; [exact H1|]. split.
      + intros c Hc. specialize (H2 c Hc). apply existsb_exists in H2. destruct H2 as (d & Hd & H). exists d. split; [exact Hd|].
        rewrite (proj1 (forb_cmp_back c d)) in H. exact H.
      + intros d Hd. specialize (H3 d Hd). apply existsb_exists in H3. exact H3.
    - intros (H1 & H2 & H3). split; [split; [exact H1|]|].
      + intros c Hc. destruct (H2 c Hc) as (d & Hd & H). apply existsb_exists. exists d. split; [exact Hd|].
        rewrite (proj1 (forb_cmp_back c d)). exact H.
      + intros d Hd. apply existsb_exists. apply H3, Hd.
  Qed.

  Theorem C74_refl f : forb_built f -> forb_eqb f f = true.
  Proof. apply forb_eqb_refl. Qed.

  Lemma in_trans us vs ws : forallb (fun v => py_in v vs) us = true -> forallb (fun v => py_in v ws) vs = true ->
    forallb (fun v => py_in v ws) us = true.
  Proof.
    rewrite !forallb_forall. intros H K u Hu. specialize (H u Hu). apply py_in_iff in H. destruct H as (v & Hv & Q).
    specialize (K v Hv). apply py_in_iff in K. destruct K as (w & Hw & Q'). apply py_in_iff. exists w. split; [exact Hw|].
    exact (py_eqb_trans _ _ _ Q Q').
  Qed.

  Lemma forb_trans2 f : forall g k, forb_wf f -> forb_wf g -> forb_wf k ->
    (forb_eqb f g = true -> forb_eqb g k = true -> forb_eqb f k = true) /\
    (forb_eqb k g = true -> forb_eqb g f = true -> forb_eqb k f = true).
  Proof.
    induction f as [h v vv|h vs vvs|r a b|cs IH] using fclause_ind'; intros g k Wf Wg Wk.
    - assert (Wh : wf_hp h) by (apply Wf; left; reflexivity).
      split; destruct g as [h' v' vv'| | |]; try discriminate; destruct k as [h'' v'' vv''| | |]; try discriminate;
        assert (Wh' : wf_hp h') by (apply Wg; left; reflexivity); assert (Wh'' : wf_hp h'') by (apply Wk; left; reflexivity);
        unfold forb_eqb; simpl; rewrite !andb_true_iff; intros [A1 A2] [B1 B2]; split;
        first [eapply hp_eqb_trans; [| | |exact A1|exact B1]; assumption | exact (py_eqb_trans _ _ _ A2 B2)].
    - assert (Wh : wf_hp h) by (apply Wf; left; reflexivity).
      split; destruct g as [|h' vs' vvs'| |]; try discriminate; destruct k as [|h'' vs'' vvs''| |]; try discriminate;
        assert (Wh' : wf_hp h') by (apply Wg; left; reflexivity); assert (Wh'' : wf_hp h'') by (apply Wk; left; reflexivity);
        unfold forb_eqb; simpl; rewrite !andb_true_iff, !Nat.eqb_eq; intros [[A1 A2] A3] [[B1 B2] B3]; (split; [split|]);
        first [eapply hp_eqb_trans; [| | |exact A1|exact B1]; assumption | congruence | exact (in_trans _ _ _ A3 B3)].
    - assert (Wa : wf_hp a) by (apply Wf; left; reflexivity). assert (Wb : wf_hp b) by (apply Wf; right; left; reflexivity).
      split; destruct g as [| |r' a' b'|]; try discriminate; destruct k as [| |r'' a'' b''|]; try discriminate;
        assert (Wa' : wf_hp a') by (apply Wg; left; reflexivity); assert (Wb' : wf_hp b') by (apply Wg; right; left; reflexivity);
        assert (Wa'' : wf_hp a'') by (apply Wk; left; reflexivity); assert (Wb'' : wf_hp b'') by (apply Wk; right; left; reflexivity);
        unfold forb_eqb; simpl; rewrite !andb_true_iff; intros [A1 [A2 A3]] [B1 [B2 B3]]; (split; [|split]);
        first [destruct r, r', r''; try discriminate; reflexivity
              |eapply hp_eqb_trans; [| | |exact A2|exact B2]; assumption
              |eapply hp_eqb_trans; [| | |exact A3|exact B3]; assumption].
    - rewrite Forall_forall in IH.
      split; destruct g as [| | |ds]; try discriminate; destruct k as [| | |es]; try discriminate; rewrite !forb_eqb_and;
        intros (A1 & A2 & A3) (B1 & B2 & B3); (split; [congruence|]); split.
      + intros c Hc. destruct (A2 c Hc) as (d & Hd & Q). destruct (B2 d Hd) as (e & He & Q'). exists e. split; [exact He|].
        apply (IH c Hc d e); eauto using forb_wf_part.
      + intros e He. destruct (B3 e He) as (d & Hd & Q). destruct (A3 d Hd) as (c & Hc & Q'). exists c. split; [exact Hc|].
        apply (IH c Hc d e); eauto using forb_wf_part.
      + intros e He. destruct (A2 e He) as (d & Hd & Q). destruct (B2 d Hd) as (c & Hc & Q'). exists c. split; [exact Hc|].
        apply (IH c Hc d e); eauto using forb_wf_part.
      + intros c Hc. destruct (B3 c Hc) as (d & Hd & Q). destruct (A3 d Hd) as (e & He & Q'). exists e. split; [exact He|].
        apply (IH c Hc d e); eauto using forb_wf_part.
  Qed.
  Theorem C74_trans f g k : forb_built f -> forb_built g -> forb_built k ->
    forb_eqb f g = true -> forb_eqb g k = true -> forb_eqb f k = true.
  Proof. intros Bf Bg Bk. apply forb_trans2; apply good_wf, forb_built_good; assumption. Qed.

  (** missing: a membership clause that repeats a value (C74_refuted).  Conjunctions may contain such
      clauses. *)
  Theorem C74_sym_partial f g : forb_built f -> forb_built g ->
    (forall h vs vvs, f = FIn h vs vvs \/ g = FIn h vs vvs -> has_dup vs = false) ->
    forb_eqb f g = forb_eqb g f.
  Proof.
    intros Bf Bg N. assert (Wf := good_wf _ (forb_built_good _ Bf)). assert (Wg := good_wf _ (forb_built_good _ Bg)).
    apply eq_true_iff_eq. destruct f as [h v vv|h vs vvs|r a b|cs], g as [k w ww|k ws wws|r' a' b'|ds]; try (split; discriminate).
    - unfold forb_eqb. simpl. rewrite (hp_eqb_sym h k), (py_eqb_sym v w) by (first [apply Wf; left; reflexivity|apply Wg; left; reflexivity]). reflexivity.
    - unfold forb_eqb. simpl. rewrite (hp_eqb_sym h k), (Nat.eqb_sym (length vs)) by (first [apply Wf; left; reflexivity|apply Wg; left; reflexivity]).
      rewrite !andb_true_iff, !Nat.eqb_eq. split; intros [[A B] C]; (split; [split; assumption|]); apply pigeon; auto;
        (eapply N; first [left; reflexivity|right; reflexivity]).
    - unfold forb_eqb. simpl. rewrite (hp_eqb_sym a a'), (hp_eqb_sym b b')
        by (first [apply Wf; left; reflexivity|apply Wf; right; left; reflexivity|apply Wg; left; reflexivity|apply Wg; right; left; reflexivity]).
      assert (R : rel_eqb r r' = rel_eqb r' r) by (destruct r, r'; reflexivity). rewrite R. reflexivity.
    - rewrite !forb_eqb_and. split; intros (A & B & C); (split; [congruence|]); split; assumption.
  Qed.
  Corollary C74_sym_conjunction cs ds : forb_built (FAnd cs) -> forb_built (FAnd ds) ->
    forb_eqb (FAnd cs) (FAnd ds) = forb_eqb (FAnd ds) (FAnd cs).
  Proof. intros B1 B2. apply C74_sym_partial; try assumption. intros h vs vvs [H|H]; discriminate. Qed.

  Lemma in_both vs ws w : forallb (fun v => py_in v ws) vs = true -> py_in w vs = true -> py_in w ws = true.
  Proof.
    rewrite forallb_forall. intros H K. apply py_in_iff in K. destruct K as (v & Hv & Q). specialize (H v Hv).
    apply py_in_iff in H. destruct H as (x & Hx & Q'). apply py_in_iff. exists x. split; [exact Hx|exact (py_eqb_trans _ _ _ Q Q')].
  Qed.


  (** equal clauses forbid the same values: no repeated values, any objects *)
  Lemma equal_value d f : forall g, forb_wf f -> forb_wf g -> no_repeats f -> no_repeats g ->
    forb_eqb f g = true \/ forb_eqb g f = true -> (forb_value d f = Ok true <-> forb_value d g = Ok true).
  Proof.
    induction f as [h v vv|h vs vvs|r a b|cs IH] using fclause_ind'; intros [k w ww|k ws wws|r' a' b'|ds] Wf Wg Nf Ng;
      try (intros [H|H]; discriminate H).
    - assert (G : forb_eqb (FEq h v vv) (FEq k w ww) = true \/ forb_eqb (FEq k w ww) (FEq h v vv) = true -> hp_name h = hp_name k /\ py_eqb v w = true).
      { unfold forb_eqb. simpl. rewrite !andb_true_iff. intros [[A B]|[A B]]; apply hp_eqb_name in A;
          (split; [congruence|]); [exact B|rewrite py_eqb_sym; exact B]. }
      intros H. destruct (G H) as [Qn Q]. simpl. rewrite Qn. destruct (assoc (hp_name k) d) as [u|]; [|reflexivity].
      rewrite (py_eqb_sym u v), (py_eqb_sym u w), (py_eqb_congr_l v w u Q). reflexivity.
    - assert (Dv : has_dup vs = false) by (eapply Nf; left; reflexivity).
      assert (Dw : has_dup ws = false) by (eapply Ng; left; reflexivity).
      assert (G : forb_eqb (FIn h vs vvs) (FIn k ws wws) = true \/ forb_eqb (FIn k ws wws) (FIn h vs vvs) = true ->
        hp_name h = hp_name k /\ forallb (fun v => py_in v ws) vs = true /\ forallb (fun v => py_in v vs) ws = true).
      { unfold forb_eqb. simpl. rewrite !andb_true_iff, !Nat.eqb_eq. intros [[[A B] C]|[[A B] C]]; apply hp_eqb_name in A;
          (split; [congruence|]); split; auto; apply pigeon; auto. }
      intros H. destruct (G H) as (Qn & Q1 & Q2). simpl. rewrite Qn. destruct (assoc (hp_name k) d) as [u|]; [|reflexivity].
      split; intros K; injection K as K; f_equal; eauto using in_both.
    - assert (G : forb_eqb (FRel r a b) (FRel r' a' b') = true \/ forb_eqb (FRel r' a' b') (FRel r a b) = true ->
        r = r' /\ hp_name a = hp_name a' /\ hp_name b = hp_name b').
      { unfold forb_eqb. simpl. rewrite !andb_true_iff. intros [[A [B C]]|[A [B C]]]; apply hp_eqb_name in B; apply hp_eqb_name in C;
          (split; [destruct r, r'; try discriminate A; reflexivity|]); split; congruence. }
      intros H. destruct (G H) as (-> & Q1 & Q2). simpl. rewrite Q1, Q2. reflexivity.
    - rewrite Forall_forall in IH. intros H. assert (K : forb_eqb (FAnd cs) (FAnd ds) = true).
      { destruct H as [H|H]; [exact H|]. rewrite forb_eqb_and in *. destruct H as (A & B & C). auto. }
      apply forb_eqb_and in K. destruct K as (_ & A & B). simpl. rewrite !allM_true. split; intros T.
      + intros x Hx. destruct (B x Hx) as (c & Hc & Q). apply (IH c Hc x); eauto using forb_wf_part, no_repeats_part.
      + intros x Hx. destruct (A x Hx) as (c & Hc & Q). apply (IH x Hx c); eauto using forb_wf_part, no_repeats_part.
  Qed.

  (** missing: membership clauses that repeat a value (C74_refuted) *)
  Theorem C74_truth_partial f g d : forb_built f -> forb_built g -> no_repeats f -> no_repeats g ->
    forb_eqb f g = true -> (forb_value d f = Ok true <-> forb_value d g = Ok true).
  Proof.
    intros Bf Bg Nf Ng H. apply equal_value; auto; apply good_wf, forb_built_good; assumption.
  Qed.

  (** ... and the same vectors, when they are about the same objects *)
  Lemma equal_vector hs io v f : NoDup (map hp_name hs) -> forall g, forb_good f -> forb_good g -> no_repeats f -> no_repeats g ->
    forb_refs hs f -> forb_refs hs g ->
    forb_eqb f g = true \/ forb_eqb g f = true -> (forb_vec io v f = Ok true <-> forb_vec io v g = Ok true).
  Proof.
    intros ND. assert (Sm : forall a b, In a hs -> In b hs -> hp_name a = hp_name b -> a = b) by (intros; apply (same_hp hs); assumption).
    induction f as [h w ww|h vs vvs|r a b|cs IH] using fclause_ind'; intros [k x xx|k ws wws|r' a' b'|ds] Gf Gg Nf Ng Rf Rg;
      try (intros [H|H]; discriminate H).
    - assert (G : forb_eqb (FEq h w ww) (FEq k x xx) = true \/ forb_eqb (FEq k x xx) (FEq h w ww) = true -> h = k /\ py_eqb w x = true).
      { unfold forb_eqb. simpl. rewrite !andb_true_iff. intros [[A B]|[A B]]; apply hp_eqb_name in A;
          (split; [apply Sm; [apply Rf; left; reflexivity|apply Rg; left; reflexivity|congruence]|]); [exact B|rewrite py_eqb_sym; exact B]. }
      intros H. destruct (G H) as [<- Q]. simpl. inversion Gf; inversion Gg; subst.
      rewrite (feqb_congr (vget io v (hp_name h)) ww (vget io v (hp_name h)) xx); [reflexivity|apply fsame_refl|].
      apply feqb_fsame. rewrite (vec_eq h w x ww xx); assumption.
    - assert (Dv : has_dup vs = false) by (eapply Nf; left; reflexivity).
      assert (Dw : has_dup ws = false) by (eapply Ng; left; reflexivity).
      assert (G : forb_eqb (FIn h vs vvs) (FIn k ws wws) = true \/ forb_eqb (FIn k ws wws) (FIn h vs vvs) = true ->
        h = k /\ forallb (fun v => py_in v ws) vs = true /\ forallb (fun v => py_in v vs) ws = true).
      { unfold forb_eqb. simpl. rewrite !andb_true_iff, !Nat.eqb_eq. intros [[[A B] C]|[[A B] C]]; apply hp_eqb_name in A;
          (split; [apply Sm; [apply Rf; left; reflexivity|apply Rg; left; reflexivity|congruence]|]); split; auto; apply pigeon; auto. }
      intros H. destruct (G H) as (<- & Q1 & Q2). inversion Gf as [|? ? ? Cf Lf Tf| |]; inversion Gg as [|? ? ? Cg Lg Tg| |]; subst.
      assert (One : forall us uus xs xxs e, forallb (legal_value h) us = true -> mapM (to_vector h) us = Ok uus ->
                forallb (legal_value h) xs = true -> mapM (to_vector h) xs = Ok xxs -> forallb (fun v => py_in v xs) us = true ->
                existsb (feqb e) uus = true -> existsb (feqb e) xxs = true).
      { intros us uus xs xxs e Lu Tu Lx Tx I Hx. apply mapM_ok in Tu. apply mapM_ok in Tx. rewrite forallb_forall in *.
        apply existsb_exists in Hx. destruct Hx as (y & Hy & Qy).
        assert (Hu : exists u, In u us /\ to_vector h u = Ok y).
        { clear -Tu Hy. induction Tu as [|u z us uus Hz Tu IH]; [destruct Hy|].
          destruct Hy as [->|Hy]; [exists u; split; [left; reflexivity|exact Hz]|].
          destruct (IH Hy) as (u' & Hu' & T). exists u'. split; [right; exact Hu'|exact T]. }
        destruct Hu as (u & Hu & Tuy). specialize (I u Hu). apply py_in_iff in I. destruct I as (x & Hxx & Qx).
        assert (Hz : exists z, In z xxs /\ to_vector h x = Ok z).
        { clear -Tx Hxx. induction Tx as [|u z us uus Hz Tu IH]; [destruct Hxx|].
          destruct Hxx as [->|Hxx]; [exists z; split; [left; reflexivity|exact Hz]|].
          destruct (IH Hxx) as (u' & Hu' & T). exists u'. split; [right; exact Hu'|exact T]. }
        destruct Hz as (z & Hz & Tz). apply existsb_exists. exists z. split; [exact Hz|].
        rewrite <- (feqb_congr e y e z); [exact Qy|apply fsame_refl|]. apply feqb_fsame. rewrite (vec_eq h u x y z); auto. }
      simpl. split; intros K; injection K as K; f_equal; [apply (One vs vvs ws wws)|apply (One ws wws vs vvs)]; assumption.
    - assert (G : forb_eqb (FRel r a b) (FRel r' a' b') = true \/ forb_eqb (FRel r' a' b') (FRel r a b) = true ->
        r = r' /\ a = a' /\ b = b').
      { unfold forb_eqb. simpl. rewrite !andb_true_iff. intros [[A [B C]]|[A [B C]]]; apply hp_eqb_name in B; apply hp_eqb_name in C;
          (split; [destruct r, r'; try discriminate A; reflexivity|]); split;
          (apply Sm; [apply Rf; simpl; auto|apply Rg; simpl; auto|congruence]). }
      intros H. destruct (G H) as (-> & -> & ->). reflexivity.
    - rewrite Forall_forall in IH. intros H. assert (K : forb_eqb (FAnd cs) (FAnd ds) = true).
      { destruct H as [H|H]; [exact H|]. rewrite forb_eqb_and in *. destruct H as (A & B & C). auto. }
      assert (Rp : forall es c, forb_refs hs (FAnd es) -> In c es -> forb_refs hs c).
      { intros es c R Hc h Hh. apply R. unfold forb_hps in *. apply in_concat in Hh. destruct Hh as (l & Hl & Hh).
        apply in_map_iff in Hl. destruct Hl as (g & <- & Hg). apply in_concat. exists (leaf_hps g).
        split; [|exact Hh]. apply in_map. simpl. apply in_concat. exists (fdlcs c). split; [apply in_map, Hc|exact Hg]. }
      inversion Gf; inversion Gg; subst.
      apply forb_eqb_and in K. destruct K as (_ & A & B). simpl. rewrite !allM_true. split; intros T.
      + intros x Hx. destruct (B x Hx) as (c & Hc & Q). apply (IH c Hc x); eauto using no_repeats_part.
      + intros x Hx. destruct (A x Hx) as (c & Hc & Q). apply (IH x Hx c); eauto using no_repeats_part.
  Qed.
  Theorem C74_vector_partial hs f g io v : NoDup (map hp_name hs) -> forb_built f -> forb_built g -> no_repeats f -> no_repeats g ->
    forb_refs hs f -> forb_refs hs g ->
    forb_eqb f g = true -> (forb_vec io v f = Ok true <-> forb_vec io v g = Ok true).
  Proof. intros ND Bf Bg Nf Ng Rf Rg H. apply (equal_vector hs); auto; apply forb_built_good; assumption. Qed.
End Clauses.

Section C74_witness.
  #[local] Existing Instance rat_env.

  (** n in (2, 2) and n in (2, 3) *)
  Definition fN22 := get_or dummy_forb (mk_fin hN [VInt 2; VInt 2]).
  Lemma fN22_c : forb_built fN22.
  Proof. apply (FB_in hN [VInt 2; VInt 2] fN22 hN_c). vm_compute. reflexivity. Qed.
  Lemma fN23_c : forb_built fN2.
  Proof. apply (FB_in hN [VInt 2; VInt 3] fN2 hN_c). vm_compute. reflexivity. Qed.

  (** the first equals the second, not the other way round, and they do not forbid the same *)
  Theorem C74_refuted : exists f g d, forb_built f /\ forb_built g /\ forb_eqb f g = true /\ forb_eqb g f = false /\
    forb_value d f = Ok false /\ forb_value d g = Ok true.
  Proof.
    exists fN22, fN2, [("n"%string, VInt 3)]. split; [exact fN22_c|]. split; [exact fN23_c|].
    repeat split; vm_compute; reflexivity.
  Qed.
  (** equal clauses on categorical objects whose choices are ordered differently forbid the same values
      but not the same vectors *)
  Definition fP1 := get_or dummy_forb (mk_feq hP1 (VStr "x")).
  Definition fP2 := get_or dummy_forb (mk_feq hP2 (VStr "x")).
  Theorem C74_vector_refuted : exists f g io v, forb_built f /\ forb_built g /\ no_repeats f /\ no_repeats g /\ forb_eqb f g = true /\
    forb_vec io v f = Ok true /\ forb_vec io v g = Ok false.
  Proof.
    exists fP1, fP2, [("p"%string, 0)], [Fin 0].
    split; [apply (FB_eq hP1 (VStr "x") fP1 hP1_c); vm_compute; reflexivity|].
    split; [apply (FB_eq hP2 (VStr "x") fP2 hP2_c); vm_compute; reflexivity|].
    split; [intros h vs vvs [H|[]]; discriminate H|]. split; [intros h vs vvs [H|[]]; discriminate H|].
    repeat split; vm_compute; reflexivity.
  Qed.

  (** two conjunctions with their parts in another order *)
  Definition fAnd1' := get_or dummy_forb (mk_fand [fN1; fA]).
  Example C74_case : forb_eqb fAnd1 fAnd1' = true /\ fAnd1 <> fAnd1' /\
    forb_value [("a"%string, VStr "y"); ("n"%string, VInt 1)] fAnd1' = Ok true.
  Proof. split; [vm_compute; reflexivity|]. split; [intros H; discriminate H|vm_compute; reflexivity]. Qed.
  Example C74_case_hyp : forb_built fAnd1 /\ forb_built fAnd1' /\ no_repeats fAnd1 /\ no_repeats fAnd1'.
  Proof.
    assert (B1 : forb_built fN1) by (apply (FB_eq hN (VInt 1) fN1 hN_c); vm_compute; reflexivity).
    assert (B2 : forb_built fA) by (apply (FB_eq hA (VStr "y") fA hA_c); vm_compute; reflexivity).
    split; [apply (FB_and [fA; fN1]); [intros x [<-|[<-|[]]]; assumption|reflexivity]|].
    split; [apply (FB_and [fN1; fA]); [intros x [<-|[<-|[]]]; assumption|reflexivity]|].
    split; intros h vs vvs [H|[H|[]]]; discriminate H.
  Qed.
End C74_witness.

(** ** C75: spaces *)

(** equality of dictionaries *)
Definition dict_eq {X} (R : string -> X -> X -> Prop) (a b : list (string * X)) : Prop :=
  length a = length b /\ forall n x, In (n, x) a -> exists y, assoc n b = Some y /\ R n x y.

Lemma dict_eq_back {X} (R : string -> X -> X -> Prop) a b : NoDup (map fst a) -> NoDup (map fst b) -> dict_eq R a b ->
  forall n y, In (n, y) b -> exists x, assoc n a = Some x /\ R n x y.
Proof.
  intros Na Nb [Hl H] n y Hy.
  assert (I : incl (map fst a) (map fst b)).
  { intros k Hk. apply in_map_iff in Hk. destruct Hk as ([k' x] & <- & Hk). destruct (H _ _ Hk) as (z & Hz & _).
    apply assoc_Some_key. eauto. }
  assert (J : incl (map fst b) (map fst a)) by (apply NoDup_length_incl; [exact Na|rewrite !map_length; lia|exact I]).
  assert (Hn : In n (map fst a)) by (apply J, in_map_iff; exists (n, y); auto).
  apply assoc_Some_key in Hn. destruct Hn as (x & Hx). exists x. split; [exact Hx|].
  destruct (H n x (assoc_In _ _ _ Hx)) as (z & Hz & Q). rewrite (In_assoc _ _ _ Nb Hy) in Hz. injection Hz as ->. exact Q.
Qed.
Lemma dict_eq_sym {X} (R S : string -> X -> X -> Prop) a b : NoDup (map fst a) -> NoDup (map fst b) ->
  (forall n x y, In (n, x) a -> In (n, y) b -> R n x y -> S n y x) -> dict_eq R a b -> dict_eq S b a.
Proof.
  intros Na Nb C H. split; [symmetry; apply H|]. intros n y Hy. destruct (dict_eq_back R a b Na Nb H n y Hy) as (x & Hx & Q).
  exists x. split; [exact Hx|]. apply C; auto. apply assoc_In, Hx.
Qed.
Lemma dict_eq_trans {X} (R S T : string -> X -> X -> Prop) a b c :
  (forall n x y z, In (n, x) a -> In (n, y) b -> In (n, z) c -> R n x y -> S n y z -> T n x z) ->
  dict_eq R a b -> dict_eq S b c -> dict_eq T a c.
Proof.
  intros H [L1 A] [L2 B]. split; [congruence|]. intros n x Hx. destruct (A n x Hx) as (y & Hy & Q1). apply assoc_In in Hy.
  destruct (B n y Hy) as (z & Hz & Q2). exists z. split; [exact Hz|]. apply (H n x y z Hx Hy (assoc_In _ _ _ Hz) Q1 Q2).
Qed.
Lemma dict_eq_refl {X} (R : string -> X -> X -> Prop) a : NoDup (map fst a) -> (forall n x, In (n, x) a -> R n x x) -> dict_eq R a a.
Proof. intros N H. split; [reflexivity|]. intros n x Hx. exists x. split; [apply In_assoc; assumption|apply H, Hx]. Qed.

(** equal objects behave alike on values *)
Section Alike.
  Context {E : Env}.

  Lemma list_eqb_in l : forall m v, list_eqb py_eqb l m = true -> py_in v l = py_in v m.
  Proof.
    induction l as [|x l IH]; intros [|y m] v; simpl; try discriminate; [reflexivity|].
    rewrite andb_true_iff. intros [H K]. unfold py_in in *. simpl.
    rewrite (py_eqb_sym v x), (py_eqb_sym v y), (py_eqb_congr_l x y v H), (IH m v K). reflexivity.
  Qed.

  Lemma alike_legal h k v : wf_hp h -> wf_hp k -> hp_eqb h k = true -> legal_value h v = legal_value k v.
  Proof.
    intros Wh Wk. unfold hp_eqb. rewrite !andb_true_iff. intros [_ H]. unfold legal_value.
    destruct (hp_kind h) as [c w|s|w|lo hi l ds|lo hi l ds] eqn:Kh, (hp_kind k) as [c' w'|s'|w'|lo' hi' l' ds'|lo' hi' l' ds'] eqn:Kk;
      try discriminate H.
    - assert (G : forall h k c w c' w', wf_hp h -> wf_hp k -> hp_kind h = KCat c w -> hp_kind k = KCat c' w' ->
                cat_eqb c w c' w' = true -> py_in v c = true -> py_in v c' = true).
      { clear. intros h k c w c' w' Wh Wk Kh Kk H Hv. destruct (proj1 (cat_eqb_iff c w c' w' (wf_cat h c w Wh Kh) (wf_cat k c' w' Wk Kk)) H) as [_ H'].
        apply py_in_iff in Hv. destruct Hv as (u & Hu & Q). apply In_nth_error in Hu. destruct Hu as (i & Hi).
        destruct (H' i u Hi) as (j & Hj & _). apply py_index_some in Hj. destruct Hj as (z & Hz & Qz & _). apply nth_error_In in Hz.
        apply py_in_iff. exists z. split; [exact Hz|]. apply (py_eqb_trans v u z Q). rewrite py_eqb_sym. exact Qz. }
      apply eq_true_iff_eq. split; [apply (G h k c w c' w')|apply (G k h c' w' c w)]; auto.
      exact (cat_eqb_sym_imp c w c' w' (wf_cat h c w Wh Kh) (wf_cat k c' w' Wk Kk) H).
    - rewrite !andb_true_iff in H. apply list_eqb_in, H.
    - rewrite !andb_true_iff in H. rewrite (py_eqb_sym v w), (py_eqb_sym v w'). apply py_eqb_congr_l, H.
    - rewrite !andb_true_iff in H. destruct H as [[[[A B] _] _] _]. apply Z.eqb_eq in A. apply Z.eqb_eq in B. subst. reflexivity.
    - rewrite !andb_true_iff in H. destruct H as [[[[A B] _] _] _]. apply Qeq_bool_iff in A. apply Qeq_bool_iff in B.
      destruct (num_of v) as [x|]; [|reflexivity]. rewrite (Qle_bool_congr lo x lo' x A (Qeq_refl x)), (Qle_bool_congr x hi x hi' (Qeq_refl x) B).
      reflexivity.
  Qed.

  Lemma list_eqb_nth l : forall m i v, list_eqb py_eqb l m = true -> nth_error l i = Some v ->
    exists w, nth_error m i = Some w /\ py_eqb v w = true.
  Proof.
    induction l as [|x l IH]; intros [|y m] [|i] v; simpl; try discriminate; rewrite andb_true_iff; intros [H K] Hi.
    - injection Hi as <-. eauto.
    - eauto.
  Qed.
  Lemma alike_less h k a b a' b' : hp_eqb h k = true -> py_eqb a a' = true -> py_eqb b b' = true -> less_in h a b -> less_in k a' b'.
  Proof.
    unfold hp_eqb. rewrite !andb_true_iff. intros [_ H] Ha Hb. unfold less_in.
    assert (Num : (exists x y, num_of a = Some x /\ num_of b = Some y /\ (x < y)%Q) ->
                  exists x y, num_of a' = Some x /\ num_of b' = Some y /\ (x < y)%Q).
    { intros (x & y & Hx & Hy & Hl). unfold py_eqb in Ha, Hb. rewrite Hx in Ha. rewrite Hy in Hb.
      destruct (num_of a') as [x'|]; [|discriminate]. destruct (num_of b') as [y'|]; [|discriminate].
      apply Qeq_bool_iff in Ha. apply Qeq_bool_iff in Hb. exists x', y'. split; [reflexivity|]. split; [reflexivity|].
      apply Qle_lt_trans with x; [rewrite Ha; apply Qle_refl|]. apply Qlt_le_trans with y; [exact Hl|rewrite Hb; apply Qle_refl]. }
    destruct (hp_kind h) as [c w|s|w|lo hi l ds|lo hi l ds] eqn:Kh, (hp_kind k) as [c' w'|s'|w'|lo' hi' l' ds'|lo' hi' l' ds'] eqn:Kk;
      try discriminate H; try exact Num.
    rewrite andb_true_iff in H. destruct H as [H _]. intros (i & j & x & y & Hi & Hj & Qx & Qy & Hl).
    destruct (list_eqb_nth _ _ _ _ H Hi) as (x' & Hi' & Rx). destruct (list_eqb_nth _ _ _ _ H Hj) as (y' & Hj' & Ry).
    exists i, j, x', y'. repeat split; auto.
    - apply (py_eqb_trans x' x a'); [rewrite py_eqb_sym; exact Rx|]. apply (py_eqb_trans x a a' Qx Ha).
    - apply (py_eqb_trans y' y b'); [rewrite py_eqb_sym; exact Ry|]. apply (py_eqb_trans y b b' Qy Hb).
  Qed.
  Lemma alike_test h k s t w : wf_hp h -> wf_hp k -> hp_eqb h k = true -> test_eqb s t = true -> (test_means h s w <-> test_means k t w).
  Proof.
    intros Wh Wk H. assert (H' : hp_eqb k h = true) by (rewrite hp_eqb_sym; assumption).
    destruct s as [o v vv|vs vvs], t as [o' v' vv'|ws wws]; simpl; try discriminate.
    - rewrite andb_true_iff. intros [Ho Hv]. assert (Hv' : py_eqb v' v = true) by (rewrite py_eqb_sym; exact Hv).
      assert (Hw := py_eqb_refl w). destruct o, o'; try discriminate Ho.
      + rewrite (py_eqb_sym w v), (py_eqb_sym w v'), (py_eqb_congr_l v v' w Hv). reflexivity.
      + rewrite (py_eqb_sym w v), (py_eqb_sym w v'), (py_eqb_congr_l v v' w Hv). reflexivity.
      + split; apply alike_less; assumption.
      + split; apply alike_less; assumption.
    - intros Hq. assert (K := list_eqb_in vs ws w Hq). rewrite <- !py_in_iff, K. reflexivity.
  Qed.
  Lemma alike_holds d c : forall c', cond_wf c -> cond_wf c' -> cond_eqb c c' = true -> (holds d c <-> holds d c').
  Proof.
    assert (G : forall cs ds (Hc : Forall (fun c => forall d0, cond_wf c -> cond_wf d0 -> cond_eqb c d0 = true -> (holds d c <-> holds d d0)) cs),
      Forall lit_wf (concat (map dlcs cs)) -> Forall lit_wf (concat (map dlcs ds)) -> comps_eqb cond_eqb cs ds = true ->
      (forall x, In x cs -> exists y, In y ds /\ (holds d x <-> holds d y)) /\
      (forall y, In y ds -> exists x, In x cs /\ (holds d x <-> holds d y))).
    { intros cs ds IH W1 W2 H. unfold comps_eqb in H. rewrite !andb_true_iff, !forallb_forall in H.
      destruct H as [[_ H1] H2]. rewrite Forall_forall in IH.
      assert (RR : forall x y, In x cs -> In y ds -> cond_eqb x y = true -> (holds d x <-> holds d y)).
      { intros x y Hx Hy Hq. exact (IH x Hx y (cond_wf_in x cs W1 Hx) (cond_wf_in y ds W2 Hy) Hq). }
      split.
      - intros x Hx. specialize (H1 x Hx). apply existsb_exists in H1. destruct H1 as (y & Hy & Hq). exists y. auto.
      - intros y Hy. specialize (H2 y Hy). apply existsb_exists in H2. destruct H2 as (x & Hx & Hq). exists x. auto. }
    induction c as [l|cs IH|cs IH] using cond_ind'; intros [m|ds|ds] Wc Wd; try discriminate.
    - simpl. unfold lit_eqb. rewrite !andb_true_iff. intros [[_ H1] H2]. apply cond_wf_lit in Wc. apply cond_wf_lit in Wd.
      rewrite (hp_eqb_name _ _ H1).
      split; intros (w & Hw & T); exists w; (split; [exact Hw|]); apply (alike_test _ _ _ _ w (proj2 Wc) (proj2 Wd) H1 H2); exact T.
    - rewrite cond_eqb_and. intros H. simpl. rewrite !fold_and_in. destruct (G cs ds IH Wc Wd H) as [G1 G2]. split.
      + intros K y Hy. destruct (G2 y Hy) as (x & Hx & Q). apply Q. auto.
      + intros K x Hx. destruct (G1 x Hx) as (y & Hy & Q). apply Q. auto.
    - rewrite cond_eqb_or. intros H. simpl. rewrite !fold_or_in. destruct (G cs ds IH Wc Wd H) as [G1 G2]. split.
      + intros (x & Hx & K). destruct (G1 x Hx) as (y & Hy & Q). exists y. split; [exact Hy|]. apply Q, K.
      + intros (y & Hy & K). destruct (G2 y Hy) as (x & Hx & Q). exists x. split; [exact Hx|]. apply Q, K.
  Qed.
  Lemma alike_violated d f : forall g, no_repeats f -> no_repeats g -> forb_eqb f g = true \/ forb_eqb g f = true -> (violated d f <-> violated d g).
  Proof.
    induction f as [h v vv|h vs vvs|r a b|cs IH] using fclause_ind'; intros [k w ww|k ws wws|r' a' b'|ds] Nf Ng;
      try (intros [H|H]; discriminate H).
    - assert (G : forb_eqb (FEq h v vv) (FEq k w ww) = true \/ forb_eqb (FEq k w ww) (FEq h v vv) = true -> hp_name h = hp_name k /\ py_eqb v w = true).
      { unfold forb_eqb. simpl. rewrite !andb_true_iff. intros [[A B]|[A B]]; apply hp_eqb_name in A;
          (split; [congruence|]); [exact B|rewrite py_eqb_sym; exact B]. }
      intros H. destruct (G H) as [Qn Q]. simpl. rewrite Qn. split; intros (u & Hu & K); exists u; (split; [exact Hu|]).
      + exact (py_eqb_trans u v w K Q).
      + rewrite py_eqb_sym in Q. exact (py_eqb_trans u w v K Q).
    - assert (Dv : has_dup vs = false) by (eapply Nf; left; reflexivity).
      assert (Dw : has_dup ws = false) by (eapply Ng; left; reflexivity).
      assert (G : forb_eqb (FIn h vs vvs) (FIn k ws wws) = true \/ forb_eqb (FIn k ws wws) (FIn h vs vvs) = true ->
        hp_name h = hp_name k /\ forallb (fun v => py_in v ws) vs = true /\ forallb (fun v => py_in v vs) ws = true).
      { unfold forb_eqb. simpl. rewrite !andb_true_iff, !Nat.eqb_eq. intros [[[A B] C]|[[A B] C]]; apply hp_eqb_name in A;
          (split; [congruence|]); split; auto; apply pigeon; auto. }
      intros H. destruct (G H) as (Qn & Q1 & Q2). simpl. rewrite Qn.
      assert (In2 : forall l, (exists w0 v0, d (hp_name k) = Some w0 /\ In v0 l /\ py_eqb w0 v0 = true) <->
                              exists w0, d (hp_name k) = Some w0 /\ py_in w0 l = true).
      { intros l. split.
        - intros (u & z & A & B & C). exists u. split; [exact A|]. apply py_in_iff. eauto.
        - intros (u & A & B). apply py_in_iff in B. destruct B as (z & B & C). eauto. }
      rewrite !In2. split; intros (u & A & B); exists u; (split; [exact A|]); eauto using in_both.
    - assert (G : forb_eqb (FRel r a b) (FRel r' a' b') = true \/ forb_eqb (FRel r' a' b') (FRel r a b) = true ->
        r = r' /\ hp_name a = hp_name a' /\ hp_name b = hp_name b').
      { unfold forb_eqb. simpl. rewrite !andb_true_iff. intros [[A [B C]]|[A [B C]]]; apply hp_eqb_name in B; apply hp_eqb_name in C;
          (split; [destruct r, r'; try discriminate A; reflexivity|]); split; congruence. }
      intros H. destruct (G H) as (-> & Q1 & Q2). simpl. rewrite Q1, Q2. reflexivity.
    - rewrite Forall_forall in IH. intros H. assert (K : forb_eqb (FAnd cs) (FAnd ds) = true).
      { destruct H as [H|H]; [exact H|]. rewrite forb_eqb_and in *. destruct H as (A & B & C). auto. }
      apply forb_eqb_and in K. destruct K as (_ & A & B). simpl. rewrite !fold_and_in. split; intros T.
      + intros x Hx. destruct (B x Hx) as (c & Hc & Q). apply (IH c Hc x); eauto using no_repeats_part.
      + intros x Hx. destruct (A x Hx) as (c & Hc & Q). apply (IH x Hx c); eauto using no_repeats_part.
  Qed.
End Alike.

Lemma list_on_sym {A} (f : A -> A -> bool) l : forall m, (forall x y, In x l -> In y m -> f x y = true -> f y x = true) ->
  list_eqb f l m = true -> list_eqb f m l = true.
Proof.
  induction l as [|x l IH]; intros [|y m] H; simpl; try discriminate; [reflexivity|]. rewrite !andb_true_iff. intros [A1 A2].
  split; [apply H; simpl; auto|]. apply IH; [|exact A2]. intros a b Ha Hb. apply H; right; assumption.
Qed.
Lemma list_on_trans {A} (f : A -> A -> bool) l : forall m k,
  (forall x y z, In x l -> In y m -> In z k -> f x y = true -> f y z = true -> f x z = true) ->
  list_eqb f l m = true -> list_eqb f m k = true -> list_eqb f l k = true.
Proof.
  induction l as [|x l IH]; intros [|y m] [|z k] H; simpl; try discriminate; [reflexivity|]. rewrite !andb_true_iff. intros [A1 A2] [B1 B2].
  split; [apply (H x y z); simpl; auto|]. apply (IH m k); auto. intros a b c Ha Hb Hc. apply H; right; assumption.
Qed.
Lemma dict_eqb_iff {X} (R : string -> X -> X -> bool) (a b : list (string * X)) :
  (Nat.eqb (length a) (length b) && forallb (fun e => match assoc (fst e) b with Some c => R (fst e) (snd e) c | None => false end) a)%bool = true <->
  dict_eq (fun n x y => R n x y = true) a b.
Proof.
  unfold dict_eq. rewrite andb_true_iff, Nat.eqb_eq, forallb_forall. split; intros [Hl H]; (split; [exact Hl|]).
  - intros n x Hx. specialize (H (n, x) Hx). simpl in H. destruct (assoc n b) as [y|]; [eauto|discriminate].
  - intros [n x] Hx. simpl. destruct (H n x Hx) as (y & Hy & Q). rewrite Hy. exact Q.
Qed.

Section Spaces.
  Context {E : Env} {L : EnvLaws E}.

  Lemma commit_clauses d d' r : commit d = (d', r) -> Permutation (d_forbs d') (d_forbs d).
  Proof.
    intros H. unfold commit in H. cbv zeta in H.
    destruct (optimized _ _) as [fast|e1]; [|inversion H; subst; unfold d_forbs at 1; simpl; rewrite filter_split_perm; apply py_sorted_perm].
    destruct (min_conds _ _ _ _) as [mc|e1]; [|inversion H; subst; unfold d_forbs at 1; simpl; rewrite filter_split_perm; apply py_sorted_perm].
    destruct (change_lookup _ _ _) as [lk|e1]; inversion H; subst; unfold d_forbs at 1; simpl; rewrite filter_split_perm; apply py_sorted_perm.
  Qed.
  Lemma body_clauses s hs cs fs d : body (s_dag s) hs cs fs = Some d -> Permutation (d_forbs (s_dag (fst (add s hs cs fs)))) (d_forbs d).
  Proof.
    intros H. rewrite add_dag. unfold body, dag_update in *. destruct (run dag_add hs (s_dag s)) as [d1 [[]|e]]; [|discriminate].
    destruct (run dag_add_condition cs d1) as [d2 [[]|e]]; [|discriminate].
    destruct (run dag_add_forbidden fs d2) as [d3 [[]|e]]; [|discriminate]. injection H as ->.
    destruct (commit d) as [d4 r] eqn:Ec. apply commit_clauses in Ec. destruct r; exact Ec.
  Qed.
  Definition from_clauses (x : cspace) (fs : list fclause) : Prop := forall n f, In f (node_list n (c_forbs x)) -> exists g, In g fs /\ In f (fdlcs g).
  Lemma c_add_clauses x fs hs' cs' fs' fs2 hs3 cs3 : from_clauses x fs ->
    dag_inv (s_dag (fst (add (c_space x) hs' cs' fs'))) hs3 cs3 (fs ++ fs2) -> from_clauses (fst (c_add x hs' cs' fs')) (fs ++ fs2).
  Proof.
    intros IH I n f Hf. unfold c_add in Hf. destruct (body (s_dag (c_space x)) hs' cs' fs') as [d|] eqn:Hb.
    - apply body_clauses in Hb. assert (P := di_forb _ _ _ _ I). destruct (add (c_space x) hs' cs' fs') as [s' r]. simpl in *. rewrite node_forbs_list in Hf.
      apply unique_by_incl in Hf. destruct Hf as [Hf _]. apply in_app_or in Hf. destruct Hf as [Hf|Hf].
      + destruct (IH n f Hf) as (g & Hg & Q). exists g. split; [apply in_or_app; left; exact Hg|exact Q].
      + apply in_concat in Hf. destruct Hf as (l & Hl & Hf). apply in_map_iff in Hl. destruct Hl as (g & <- & Hg).
        exists g. split; [|exact (part_leaf n g f Hf)]. apply py_sorted_In in Hg. apply (Permutation_in g P), (Permutation_in g (Permutation_sym Hb)), Hg.
    - destruct (add (c_space x) hs' cs' fs') as [s' r]. simpl in Hf.
      destruct (IH n f Hf) as (g & Hg & Q). exists g. split; [apply in_or_app; left; exact Hg|exact Q].
  Qed.
  Lemma ctried_clauses x hs cs fs x1 hs1 cs1 fs1 : ctried x hs cs fs x1 hs1 cs1 fs1 -> dag_inv (s_dag (c_space x)) hs cs fs ->
    from_clauses x fs -> from_clauses x1 fs1.
  Proof.
    induction 1 as [|x hs cs fs x1 hs1 cs1 fs1 hs' cs' fs' hs2 cs2 fs2 T IH C1 C2 C3 R]; intros I F; [exact F|].
    assert (I1 := tried_inv _ _ _ _ _ _ _ _ (ctried_tried _ _ _ _ _ _ _ _ T) I).
    eapply c_add_clauses; [exact (IH I F)|]. eapply (refused_inv I1); eauto.
  Qed.
  Lemma node_clauses x hs cs fs : cbuilt x hs cs fs -> forall n f, In f (node_list n (c_forbs x)) -> exists g, In g fs /\ In f (fdlcs g).
  Proof.
    change (cbuilt x hs cs fs -> from_clauses x fs).
    induction 1 as [nm m|x hs cs fs x' hs' cs' fs' CB IH A1 A2 A3 H|x hs cs fs x1 hs1 cs1 fs1 x' hs' cs' fs' CB IH T A1 A2 A3 H];
      [intros n f Hf; destruct Hf| |].
    - assert (A := proj1 (c_add_add _ _ _ _ _ _ H)). assert (B := built_add _ _ _ _ _ _ _ _ (cbuilt_built _ _ _ _ CB) A1 A2 A3 A).
      replace x' with (fst (c_add x hs' cs' fs')) by (rewrite H; reflexivity). eapply c_add_clauses; [exact IH|]. rewrite A.
      exact (so_inv _ _ _ _ (built_ok _ _ _ _ B)).
    - assert (A := proj1 (c_add_add _ _ _ _ _ _ H)).
      assert (B := built_after _ _ _ _ _ _ _ _ _ _ _ _ (cbuilt_built _ _ _ _ CB) (ctried_tried _ _ _ _ _ _ _ _ T) A1 A2 A3 A).
      replace x' with (fst (c_add x1 hs' cs' fs')) by (rewrite H; reflexivity).
      eapply c_add_clauses; [eapply ctried_clauses; [exact T|exact (so_inv _ _ _ _ (built_ok _ _ _ _ (cbuilt_built _ _ _ _ CB)))|exact IH]|]. rewrite A.
      exact (so_inv _ _ _ _ (built_ok _ _ _ _ B)).
  Qed.

  Section One.
    Context {x : cspace} {hs : list hp} {cs : list cond} {fs : list fclause} (CB : cbuilt x hs cs fs).
    Let O : space_ok (c_space x) hs cs fs := built_ok _ _ _ _ (cbuilt_built _ _ _ _ CB).
    Let ns := d_nodes (s_dag (c_space x)).

    Lemma sp_nodup : NoDup (map fst ns).
    Proof. apply (so_nodup O). Qed.
    Lemma sp_hp n nd : In (n, nd) ns -> In (n_hp nd) hs /\ hp_name (n_hp nd) = n.
    Proof.
      intros H. apply (so_get_hp O). unfold get_hp. fold ns. rewrite (In_assoc n nd _ sp_nodup H). reflexivity.
    Qed.
    Lemma sp_wf n nd : In (n, nd) ns -> wf_hp (n_hp nd).
    Proof. intros H. apply constructed_wf, (so_constructed O). apply (sp_hp n nd H). Qed.
    Lemma sp_cond n nd c : In (n, nd) ns -> n_cond nd = Some c -> cond_wf c /\ condof ns n = Some c.
    Proof.
      intros H Hc. assert (K : condof ns n = Some c) by (unfold condof; rewrite (In_assoc n nd _ sp_nodup H); exact Hc).
      split; [exact (g_wf _ (so_graph O) n c K)|exact K].
    Qed.
    Lemma sp_children n nd : In (n, nd) ns -> NoDup (map fst (n_children nd)) /\ forall k c, In (k, c) (n_children nd) -> cond_wf c.
    Proof.
      intros H. assert (A := In_assoc n nd _ sp_nodup H). assert (Co := g_core _ (so_graph O)).
      destruct (co_keys _ Co n nd A) as [K _]. split; [exact K|]. intros k c Hc.
      assert (Hk : clook ns n k = Some c) by (unfold clook; rewrite A; apply In_assoc; assumption).
      rewrite (co_link _ Co) in Hk. apply (g_label _ (so_graph O)) in Hk. exact (g_wf _ (so_graph O) k c Hk).
    Qed.
    Lemma sp_forb f : In f (d_uforb (s_dag (c_space x))) \/ In f (d_cforb (s_dag (c_space x))) -> In f fs.
    Proof.
      intros H. apply (Permutation_in f (so_forbs O)). unfold forbidden_clauses, d_forbs. apply in_or_app. tauto.
    Qed.
    Lemma sp_built f : (In f (d_uforb (s_dag (c_space x))) \/ In f (d_cforb (s_dag (c_space x)))) \/ (exists n, In f (node_list n (c_forbs x))) ->
      forb_built f.
    Proof.
      intros [H|[n H]]; [apply (so_forb_built O), sp_forb, H|]. destruct (node_clauses x hs cs fs CB n f H) as (g & Hg & Hf).
      exact (leaves_built g (so_forb_built O g Hg) f Hf).
    Qed.
    Lemma leaf_leaf (g : fclause) : forall f, In f (fdlcs g) -> fdlcs f = [f].
    Proof.
      induction g as [h v vv|h vs vvs|r a b|gs IH] using fclause_ind'; intros f Hf; try (destruct Hf as [<-|[]]; reflexivity).
      simpl in Hf. apply in_concat in Hf. destruct Hf as (l & Hl & Hf). apply in_map_iff in Hl. destruct Hl as (k & <- & Hk).
      rewrite Forall_forall in IH. exact (IH k Hk f Hf).
    Qed.
    Lemma sp_repeats f : (forall g, In g fs -> no_repeats g) ->
      (In f (d_uforb (s_dag (c_space x))) \/ In f (d_cforb (s_dag (c_space x)))) \/ (exists n, In f (node_list n (c_forbs x))) -> no_repeats f.
    Proof.
      intros N [H|[n H]]; [apply N, sp_forb, H|]. destruct (node_clauses x hs cs fs CB n f H) as (g & Hg & Hf).
      intros h vs vvs K. rewrite (leaf_leaf g f Hf) in K. destruct K as [->|[]]. exact (N g Hg h vs vvs Hf).
    Qed.
  End One.

  Lemma node_eqb_iff x y n a b : node_eqb x y n a b = true <->
    hp_eqb (n_hp a) (n_hp b) = true /\ assoc n (index_of (c_space x)) = assoc n (index_of (c_space y)) /\ n_depth a = n_depth b /\
    dict_eq (fun _ c d => cond_eqb c d = true) (n_children a) (n_children b) /\
    list_eqb forb_eqb (node_list n (c_forbs x)) (node_list n (c_forbs y)) = true /\ opt_eqb cond_eqb (n_cond a) (n_cond b) = true.
  Proof.
    unfold node_eqb, links_eqb. rewrite !andb_true_iff, <- (andb_true_iff (Nat.eqb _ _) (forallb _ _)).
    rewrite (dict_eqb_iff (fun _ => cond_eqb)), Nat.eqb_eq.
    assert (G : forall u v, opt_eqb Nat.eqb u v = true <-> u = v).
    { intros [u|] [v|]; simpl; try rewrite Nat.eqb_eq; split; congruence. }
    rewrite G. unfold index_of. tauto.
  Qed.
  Lemma cspace_eqb_iff x y : cspace_eqb x y = true <->
    c_name x = c_name y /\ c_meta x = c_meta y /\ s_len (c_space x) = s_len (c_space y) /\
    dict_eq (fun n a b => node_eqb x y n a b = true) (d_nodes (s_dag (c_space x))) (d_nodes (s_dag (c_space y))) /\
    list_eqb forb_eqb (d_uforb (s_dag (c_space x))) (d_uforb (s_dag (c_space y))) = true /\
    list_eqb forb_eqb (d_cforb (s_dag (c_space x))) (d_cforb (s_dag (c_space y))) = true.
  Proof.
    unfold cspace_eqb. rewrite !andb_true_iff, <- (andb_true_iff (Nat.eqb (length _) _) (forallb _ _)).
    rewrite (dict_eqb_iff (fun n a b => node_eqb x y n a b)), Nat.eqb_eq.
    assert (G : forall u v, opt_eqb String.eqb u v = true <-> u = v).
    { intros [u|] [v|]; simpl; try rewrite String.eqb_eq; split; congruence. }
    rewrite !G. tauto.
  Qed.

  (** C75: == on spaces is reflexive *)
  Theorem C75_refl x hs cs fs : cbuilt x hs cs fs -> cspace_eqb x x = true.
  Proof.
    intros CB. apply cspace_eqb_iff. do 3 (split; [reflexivity|]). split; [|split].
    - apply dict_eq_refl; [apply (sp_nodup CB)|]. intros n nd H. apply node_eqb_iff. split; [apply hp_eqb_refl, (sp_wf CB n nd H)|].
      split; [reflexivity|]. split; [reflexivity|]. destruct (sp_children CB n nd H) as [K W]. split; [|split].
      + apply dict_eq_refl; [exact K|]. intros k c Hc. apply cond_eqb_refl, (W k c Hc).
      + apply list_eqb_refl. intros f Hf. apply C74_refl, (sp_built CB). right. exists n. exact Hf.
      + destruct (n_cond nd) as [c|] eqn:Ec; [|reflexivity]. apply cond_eqb_refl. apply (sp_cond CB n nd c H Ec).
    - apply list_eqb_refl. intros f Hf. apply C74_refl, (sp_built CB). auto.
    - apply list_eqb_refl. intros f Hf. apply C74_refl, (sp_built CB). auto.
  Qed.

  (** ... and transitive *)
  Theorem C75_trans x y z hs cs fs hs' cs' fs' hs'' cs'' fs'' :
    cbuilt x hs cs fs -> cbuilt y hs' cs' fs' -> cbuilt z hs'' cs'' fs'' ->
    cspace_eqb x y = true -> cspace_eqb y z = true -> cspace_eqb x z = true.
  Proof.
    intros BX BY BZ. rewrite !cspace_eqb_iff. intros (N1 & M1 & L1 & D1 & U1 & C1) (N2 & M2 & L2 & D2 & U2 & C2).
    do 3 (split; [congruence|]). split; [|split].
    - apply (dict_eq_trans _ _ _ _ _ _) with (2 := D1) (3 := D2). intros n a b c Ha Hb Hc. rewrite !node_eqb_iff.
      intros (P1 & I1 & Q1 & K1 & F1 & O1) (P2 & I2 & Q2 & K2 & F2 & O2).
      split; [exact (hp_eqb_trans _ _ _ (sp_wf BX n a Ha) (sp_wf BY n b Hb) (sp_wf BZ n c Hc) P1 P2)|].
      split; [congruence|]. split; [congruence|]. split; [|split].
      + apply (dict_eq_trans _ _ _ _ _ _) with (2 := K1) (3 := K2). intros k u v w Hu Hv Hw.
        apply cond_eqb_trans; [exact (proj2 (sp_children BX n a Ha) k u Hu)|exact (proj2 (sp_children BY n b Hb) k v Hv)|exact (proj2 (sp_children BZ n c Hc) k w Hw)].
      + apply (list_on_trans _ _ (node_list n (c_forbs y))) with (2 := F1) (3 := F2). intros f g k Hf Hg Hk.
        apply C74_trans; [apply (sp_built BX)|apply (sp_built BY)|apply (sp_built BZ)]; right; exists n; assumption.
      + destruct (n_cond a) as [u|] eqn:Eu, (n_cond b) as [v|] eqn:Ev, (n_cond c) as [w|] eqn:Ew; simpl in *; try discriminate; try reflexivity.
        apply (cond_eqb_trans u v w); auto; [apply (sp_cond BX n a u Ha Eu)|apply (sp_cond BY n b v Hb Ev)|apply (sp_cond BZ n c w Hc Ew)].
    - apply (list_on_trans _ _ (d_uforb (s_dag (c_space y)))) with (2 := U1) (3 := U2). intros f g k Hf Hg Hk.
      apply C74_trans; [apply (sp_built BX)|apply (sp_built BY)|apply (sp_built BZ)]; auto.
    - apply (list_on_trans _ _ (d_cforb (s_dag (c_space y)))) with (2 := C1) (3 := C2). intros f g k Hf Hg Hk.
      apply C74_trans; [apply (sp_built BX)|apply (sp_built BY)|apply (sp_built BZ)]; auto.
  Qed.

  (** ... and symmetric; missing: membership clauses that repeat a value *)
  Theorem C75_sym_partial x y hs cs fs hs' cs' fs' : cbuilt x hs cs fs -> cbuilt y hs' cs' fs' ->
    (forall f, In f fs -> no_repeats f) -> (forall f, In f fs' -> no_repeats f) ->
    cspace_eqb x y = true -> cspace_eqb y x = true.
  Proof.
    intros BX BY RX RY. rewrite !cspace_eqb_iff. intros (N1 & M1 & L1 & D1 & U1 & C1).
    assert (FS : forall f g, forb_built f -> forb_built g -> no_repeats f -> no_repeats g -> forb_eqb f g = true -> forb_eqb g f = true).
    { intros f g Bf Bg Nf Ng H. rewrite <- (C74_sym_partial f g Bf Bg); [exact H|]. intros h vs vvs [->| ->].
      - apply (Nf h vs vvs). left. reflexivity.
      - apply (Ng h vs vvs). left. reflexivity. }
    do 3 (split; [congruence|]). split; [|split].
    - apply (dict_eq_sym _ _ _ _ (sp_nodup BX) (sp_nodup BY)) with (2 := D1). intros n a b Ha Hb. rewrite !node_eqb_iff.
      intros (P1 & I1 & Q1 & K1 & F1 & O1). split; [rewrite hp_eqb_sym; [exact P1|exact (sp_wf BY n b Hb)|exact (sp_wf BX n a Ha)]|].
      split; [congruence|]. split; [congruence|].
      destruct (sp_children BX n a Ha) as [Nx Wx]. destruct (sp_children BY n b Hb) as [Ny Wy]. split; [|split].
      + apply (dict_eq_sym _ _ _ _ Nx Ny) with (2 := K1). intros k u v Hu Hv Q. rewrite cond_eqb_sym; [exact Q|exact (Wy k v Hv)|exact (Wx k u Hu)].
      + apply list_on_sym; [|exact F1]. intros f g Hf Hg. apply FS;
          [apply (sp_built BX)|apply (sp_built BY)|apply (sp_repeats BX f RX)|apply (sp_repeats BY g RY)]; right; exists n; assumption.
      + destruct (n_cond a) as [u|] eqn:Eu, (n_cond b) as [v|] eqn:Ev; simpl in *; try discriminate; try reflexivity.
        rewrite cond_eqb_sym; [exact O1|apply (sp_cond BY n b v Hb Ev)|apply (sp_cond BX n a u Ha Eu)].
    - apply list_on_sym; [|exact U1]. intros f g Hf Hg. apply FS;
        [apply (sp_built BX)|apply (sp_built BY)|apply (sp_repeats BX f RX)|apply (sp_repeats BY g RY)]; auto.
    - apply list_on_sym; [|exact C1]. intros f g Hf Hg. apply FS;
        [apply (sp_built BX)|apply (sp_built BY)|apply (sp_repeats BX f RX)|apply (sp_repeats BY g RY)]; auto.
  Qed.

  Lemma aligned {X} (R : string -> X -> X -> Prop) a : forall b, NoDup (map fst b) -> map fst a = map fst b -> dict_eq R a b ->
    Forall2 (fun e e' => fst e = fst e' /\ R (fst e) (snd e) (snd e')) a b.
  Proof.
    intros b Nb Hk [_ H]. assert (G : forall i e, nth_error a i = Some e -> exists e', nth_error b i = Some e' /\ fst e = fst e' /\ R (fst e) (snd e) (snd e')).
    { intros i [n x] Hi. destruct (H n x (nth_error_In _ _ Hi)) as (y & Hy & Q). apply (map_nth_error fst) in Hi. rewrite Hk in Hi. simpl in Hi.
      destruct (nth_error b i) as [[m z]|] eqn:Ez; [|rewrite nth_error_map, Ez in Hi; discriminate].
      rewrite nth_error_map, Ez in Hi. simpl in Hi. injection Hi as ->. exists (n, z). split; [reflexivity|]. simpl. split; [reflexivity|].
      rewrite (In_assoc n z b Nb (nth_error_In _ _ Ez)) in Hy. injection Hy as ->. exact Q. }
    clear H Nb. revert b Hk G. induction a as [|e a IH]; intros [|e' b] Hk G; try discriminate Hk; [constructor|].
    simpl in Hk. injection Hk as _ Hk. constructor.
    - destruct (G 0 e eq_refl) as (z & Hz & Q). injection Hz as <-. exact Q.
    - apply IH; [exact Hk|]. intros i x Hi. exact (G (S i) x Hi).
  Qed.
  Lemma aligned_filter {X} (P Q : string * X -> bool) a : forall b,
    Forall2 (fun e e' => fst e = fst e' /\ P e = Q e') a b -> map fst (filter P a) = map fst (filter Q b).
  Proof.
    induction a as [|e a IH]; intros b F; inversion F as [|x y l m [H1 H2] F' Hx Hy]; subst; [reflexivity|]. simpl. rewrite H2.
    destruct (Q y); simpl; [rewrite H1; f_equal|]; auto.
  Qed.

  Lemma weaken2 {A B} (R S : A -> B -> Prop) l m : (forall a b, R a b -> S a b) -> Forall2 R l m -> Forall2 S l m.
  Proof. intros H. induction 1; constructor; auto. Qed.

  Section Two.
    Context {x y : cspace} {hs hs' : list hp} {cs cs' : list cond} {fs fs' : list fclause}.
    Context (BX : cbuilt x hs cs fs) (BY : cbuilt y hs' cs' fs') (EQ : cspace_eqb x y = true).
    Let OX : space_ok (c_space x) hs cs fs := built_ok _ _ _ _ (cbuilt_built _ _ _ _ BX).
    Let OY : space_ok (c_space y) hs' cs' fs' := built_ok _ _ _ _ (cbuilt_built _ _ _ _ BY).
    Let nx := d_nodes (s_dag (c_space x)).
    Let ny := d_nodes (s_dag (c_space y)).

    Lemma two_keys : keys (c_space x) = keys (c_space y).
    Proof.
      destruct (proj1 (cspace_eqb_iff x y) EQ) as (_ & _ & Hl & D & _). apply nth_ext with (d := ""%string) (d' := ""%string).
      - rewrite (so_keys_len OX), (so_keys_len OY). exact Hl.
      - intros i Hi. destruct (nth_error (keys (c_space x)) i) as [n|] eqn:Ei; [|apply nth_error_None in Ei; lia].
        rewrite (nth_error_nth _ _ _ Ei). symmetry. apply nth_error_nth.
        assert (Hn := nth_error_In _ _ Ei). apply (so_index OX) in Ei. apply (so_index OY). unfold keys in Hn. apply in_map_iff in Hn.
        destruct Hn as ([m nd] & Hm & Hn). simpl in Hm. subst m. destruct (proj2 D n nd Hn) as (nd' & _ & Q). apply node_eqb_iff in Q.
        destruct Q as (_ & Q & _). congruence.
    Qed.
    Lemma two_nodes : Forall2 (fun e e' => fst e = fst e' /\ node_eqb x y (fst e) (snd e) (snd e') = true) nx ny.
    Proof.
      destruct (proj1 (cspace_eqb_iff x y) EQ) as (_ & _ & Hl & D & _).
      exact (aligned (fun n a b => node_eqb x y n a b = true) nx ny (sp_nodup BY) two_keys D).
    Qed.
    Lemma two_node n a : assoc n nx = Some a -> exists b, assoc n ny = Some b /\ node_eqb x y n a b = true.
    Proof.
      destruct (proj1 (cspace_eqb_iff x y) EQ) as (_ & _ & Hl & D & _). intros H. apply (proj2 D n a). apply assoc_In, H.
    Qed.
    Lemma two_back n b : assoc n ny = Some b -> exists a, assoc n nx = Some a /\ node_eqb x y n a b = true.
    Proof.
      destruct (proj1 (cspace_eqb_iff x y) EQ) as (_ & _ & Hl & D & _). intros H.
      apply (dict_eq_back _ _ _ (sp_nodup BX) (sp_nodup BY) D n b). apply assoc_In, H.
    Qed.
    Lemma two_cond n : opt_eqb cond_eqb (condof nx n) (condof ny n) = true.
    Proof.
      unfold condof. destruct (assoc n nx) as [a|] eqn:Ea.
      - destruct (two_node n a Ea) as (b & Hb & Q). rewrite Hb. apply node_eqb_iff in Q. apply Q.
      - destruct (assoc n ny) as [b|] eqn:Eb; [|reflexivity]. destruct (two_back n b Eb) as (a & Ha & _). congruence.
    Qed.

    (** C75: what equal spaces show *)
    Theorem C75_same :
      keys (c_space x) = keys (c_space y) /\ index_of (c_space x) = index_of (c_space y) /\
      (forall n h, get_hp (c_space x) n = Some h -> exists k, get_hp (c_space y) n = Some k /\ hp_eqb h k = true) /\
      unconditional_hyperparameters (c_space x) = unconditional_hyperparameters (c_space y) /\
      conditional_hyperparameters (c_space x) = conditional_hyperparameters (c_space y) /\
      (forall n, Forall2 (fun c d => cond_eqb c d = true) (conds_of (c_space x) n) (conds_of (c_space y) n)) /\
      Forall2 (fun f g => forb_eqb f g = true) (forbidden_clauses (c_space x)) (forbidden_clauses (c_space y)).
    Proof.
      assert (TN := two_nodes). split; [exact two_keys|]. split; [|split; [|split; [|split; [|split]]]].
      - unfold index_of. rewrite (cm_index _ (so_com _ _ _ _ OX)), (cm_index _ (so_com _ _ _ _ OY)).
        rewrite <- (map_length fst (d_nodes (s_dag (c_space x)))), <- (map_length fst (d_nodes (s_dag (c_space y)))).
        assert (K := two_keys). unfold keys in K. rewrite K. reflexivity.
      - intros n h. unfold get_hp. fold nx ny. destruct (assoc n nx) as [a|] eqn:Ea; [|discriminate]. simpl. intros [= <-].
        destruct (two_node n a Ea) as (b & Hb & Q). rewrite Hb. exists (n_hp b). split; [reflexivity|]. apply node_eqb_iff in Q. apply Q.
      - unfold unconditional_hyperparameters. rewrite (cm_roots _ (so_com _ _ _ _ OX)), (cm_roots _ (so_com _ _ _ _ OY)).
        apply aligned_filter. apply weaken2 with (2 := TN). intros e e' [H1 H2]. apply node_eqb_iff in H2.
        destruct H2 as (_ & _ & H2 & _). rewrite H2. auto.
      - unfold conditional_hyperparameters. rewrite (cm_nonroots _ (so_com _ _ _ _ OX)), (cm_nonroots _ (so_com _ _ _ _ OY)).
        apply aligned_filter. apply weaken2 with (2 := TN). intros e e' [H1 H2]. apply node_eqb_iff in H2.
        destruct H2 as (_ & _ & H2 & _). rewrite H2. auto.
      - intros n. rewrite (so_conds_of OX), (so_conds_of OY). assert (K := two_cond n). unfold nx, ny in K.
        destruct (condof (d_nodes (s_dag (c_space x))) n), (condof (d_nodes (s_dag (c_space y))) n); try discriminate K; repeat constructor. exact K.
      - destruct (proj1 (cspace_eqb_iff x y) EQ) as (_ & _ & _ & _ & U & C). apply list_eqb_Forall2 in U. apply list_eqb_Forall2 in C.
        unfold forbidden_clauses, d_forbs. apply Forall2_app; assumption.
    Qed.

    Lemma two_active d n : In n (keys (c_space x)) -> (active cs d n <-> active cs' d n).
    Proof.
      intros Hn. assert (K := two_cond n).
      assert (G : forall z hs0 cs0 fs0 (B : cbuilt z hs0 cs0 fs0), active cs0 d n <->
                match condof (d_nodes (s_dag (c_space z))) n with Some c => holds d c | None => True end).
      { intros z hs0 cs0 fs0 B. assert (O := built_ok _ _ _ _ (cbuilt_built _ _ _ _ B)). split.
        - intros A. destruct (condof (d_nodes (s_dag (c_space z))) n) as [c|] eqn:Ec; [|exact I].
          destruct (so_condof_in O n c Ec) as [Hc Ha]. exact (A c Hc Ha).
        - intros A c Hc Ha. destruct (so_declared O n c Hc Ha) as (c' & Hc' & Q). rewrite Hc' in A.
          refine (proj1 (alike_holds d c' c _ _ Q) A).
          + exact (g_wf _ (so_graph O) n c' Hc').
          + apply cond_built_wf, (so_cond_built O), Hc. }
      rewrite (G x hs cs fs BX), (G y hs' cs' fs' BY). fold nx ny.
      destruct (condof nx n) as [c|] eqn:Ex, (condof ny n) as [c'|] eqn:Ey; simpl in K; try discriminate K; [|reflexivity].
      apply alike_holds; [exact (g_wf _ (so_graph OX) n c Ex)|exact (g_wf _ (so_graph OY) n c' Ey)|exact K].
    Qed.

    (** ... and the configurations they allow; missing: clauses that repeat a value (C75_refuted) *)
    Theorem C75_valid_partial d : (forall f, In f fs -> no_repeats f) -> (forall f, In f fs' -> no_repeats f) ->
      (valid hs cs fs d <-> valid hs' cs' fs' d).
    Proof.
      intros RX RY.
      assert (H1 : forall h, In h hs -> exists k, In k hs' /\ hp_name k = hp_name h /\ hp_eqb h k = true).
      { intros h Hh. destruct (proj1 (proj2 (proj2 C75_same)) (hp_name h) h) as (k & Hk & Q); [apply (so_get_hp OX); auto|].
        apply (so_get_hp OY) in Hk. exists k. tauto. }
      assert (H2 : forall k, In k hs' -> exists h, In h hs /\ hp_name h = hp_name k /\ hp_eqb h k = true).
      { intros k Hk. assert (Hy : get_hp (c_space y) (hp_name k) = Some k) by (apply (so_get_hp OY); auto).
        unfold get_hp in Hy. destruct (assoc (hp_name k) (d_nodes (s_dag (c_space y)))) as [b|] eqn:Eb; [|discriminate].
        destruct (two_back (hp_name k) b Eb) as (a & Ha & Q). simpl in Hy. injection Hy as <-.
        destruct (sp_hp BX _ a (assoc_In _ _ _ Ha)) as [A1 A2]. exists (n_hp a). split; [exact A1|]. split; [exact A2|]. apply node_eqb_iff in Q. apply Q. }
      assert (W : forall h k, In h hs -> In k hs' -> hp_eqb h k = true -> forall w, legal_value h w = legal_value k w).
      { intros h k Hh Hk Q w. apply alike_legal; [apply constructed_wf, (so_constructed OX), Hh|apply constructed_wf, (so_constructed OY), Hk|exact Q]. }
      assert (Key : forall h, In h hs -> In (hp_name h) (keys (c_space x))).
      { intros h Hh. apply (Permutation_in _ (Permutation_sym (so_keys OX))). apply in_map, Hh. }
      assert (F : Forall2 (fun f g => forb_eqb f g = true) (forbidden_clauses (c_space x)) (forbidden_clauses (c_space y))) by apply C75_same.
      assert (FF : forall f g, In f fs -> In g fs' -> forb_eqb f g = true -> (violated d f <-> violated d g)).
      { intros f g Hf Hg Q. apply alike_violated; auto. }
      assert (PX := so_forbs OX). assert (PY := so_forbs OY).
      assert (F1 : forall f, In f fs -> exists g, In g fs' /\ forb_eqb f g = true).
      { intros f Hf. apply (Permutation_in _ (Permutation_sym PX)) in Hf. destruct (Forall2_in_l _ _ _ _ F Hf) as (g & Hg & Q).
        exists g. split; [|exact Q]. apply (Permutation_in _ PY), Hg. }
      assert (F2 : forall g, In g fs' -> exists f, In f fs /\ forb_eqb f g = true).
      { intros g Hg. apply (Permutation_in _ (Permutation_sym PY)) in Hg. destruct (Forall2_in_r _ _ _ _ F Hg) as (f & Hf & Q).
        exists f. split; [|exact Q]. apply (Permutation_in _ PX), Hf. }
      split; intros [V1 V2 V3]; constructor.
      - intros k w Hk Hw. destruct (H2 k Hk) as (h & Hh & Qn & Q). rewrite <- (W h k Hh Hk Q). apply V1; [exact Hh|]. rewrite Qn. exact Hw.
      - intros k Hk. destruct (H2 k Hk) as (h & Hh & Qn & Q). rewrite <- Qn. rewrite <- (two_active d _ (Key h Hh)). apply V2, Hh.
      - intros g Hg K. destruct (F2 g Hg) as (f & Hf & Q). apply (V3 f Hf). apply (FF f g Hf Hg Q), K.
      - intros h w Hh Hw. destruct (H1 h Hh) as (k & Hk & Qn & Q). rewrite (W h k Hh Hk Q). apply V1; [exact Hk|]. rewrite Qn. exact Hw.
      - intros h Hh. destruct (H1 h Hh) as (k & Hk & Qn & Q). rewrite (two_active d _ (Key h Hh)). rewrite <- Qn. apply V2, Hk.
      - intros f Hf K. destruct (F1 f Hf) as (g & Hg & Q). apply (V3 g Hg). apply (FF f g Hf Hg Q), K.
    Qed.
  End Two.
End Spaces.

Section C75_witness.
  #[local] Existing Instance rat_env.

  Definition sN22 := fst (c_add (new_space None None) [hN] [] [fN22]).
  Definition sN23 := fst (c_add (new_space None None) [hN] [] [fN2]).
  Lemma sN22_b : cbuilt sN22 [hN] [] [fN22].
  Proof.
    apply (cb_add (new_space None None) [] [] [] sN22 [hN] [] [fN22] (cb_new _ _)).
    - constructor; [apply hN_c|constructor].
    - constructor.
    - constructor; [exact fN22_c|constructor].
    - apply c_add_ok. vm_compute. reflexivity.
  Qed.
  Lemma sN23_b : cbuilt sN23 [hN] [] [fN2].
  Proof.
    apply (cb_add (new_space None None) [] [] [] sN23 [hN] [] [fN2] (cb_new _ _)).
    - constructor; [apply hN_c|constructor].
    - constructor.
    - constructor; [exact fN23_c|constructor].
    - apply c_add_ok. vm_compute. reflexivity.
  Qed.
  (** one space equals another, not the other way round, and accepts what the other forbids *)
  Theorem C75_refuted : exists x y fs fs' vals c, cbuilt x [hN] [] fs /\ cbuilt y [hN] [] fs' /\
    cspace_eqb x y = true /\ cspace_eqb y x = false /\
    config_of_values (c_space x) vals false = Ok c /\ config_of_values (c_space y) vals false = Err ForbiddenValueError.
  Proof.
    exists sN22, sN23, [fN22], [fN2], [("n"%string, Some (VInt 3))],
      (get_or (mk_config [] None false) (config_of_values (c_space sN22) [("n"%string, Some (VInt 3))] false)).
    split; [exact sN22_b|]. split; [exact sN23_b|]. repeat split; vm_compute; reflexivity.
  Qed.

  (** equal spaces read the same vector differently *)
  Definition sP1 := fst (c_add (new_space None None) [hP1] [] []).
  Definition sP2 := fst (c_add (new_space None None) [hP2] [] []).
  Theorem C75_vector_refuted : exists x y hs hs' v c c', cbuilt x hs [] [] /\ cbuilt y hs' [] [] /\
    cspace_eqb x y = true /\ cspace_eqb y x = true /\
    config_of_vector (c_space x) v false = Ok c /\ config_of_vector (c_space y) v false = Ok c' /\
    getitem (c_space x) c "p"%string = Ok (VStr "x") /\ getitem (c_space y) c' "p"%string = Ok (VStr "y").
  Proof.
    exists sP1, sP2, [hP1], [hP2], [Fin 0], (get_or (mk_config [] None false) (config_of_vector (c_space sP1) [Fin 0] false)),
      (get_or (mk_config [] None false) (config_of_vector (c_space sP2) [Fin 0] false)).
    split; [|split].
    - apply (cb_add (new_space None None) [] [] [] sP1 [hP1] [] [] (cb_new _ _));
        [constructor; [exact hP1_c|constructor]|constructor|constructor|apply c_add_ok; vm_compute; reflexivity].
    - apply (cb_add (new_space None None) [] [] [] sP2 [hP2] [] [] (cb_new _ _));
        [constructor; [exact hP2_c|constructor]|constructor|constructor|apply c_add_ok; vm_compute; reflexivity].
    - repeat split; vm_compute; reflexivity.
  Qed.

  (** two different spaces that are equal: one condition, and a conjunction written in two orders *)
  Definition sE1 := fst (c_add (new_space (Some "s") None) [hA; hB; hN] [cB] [fAnd1]).
  Definition sE2 := fst (c_add (new_space (Some "s") None) [hN; hA; hB] [cB] [fAnd1']).
  Example C75_case : cbuilt sE1 [hA; hB; hN] [cB] [fAnd1] /\ cbuilt sE2 [hN; hA; hB] [cB] [fAnd1'] /\
    cspace_eqb sE1 sE2 = true /\ cspace_eqb sE2 sE1 = true /\ sE1 <> sE2 /\
    (forall f, In f [fAnd1] -> no_repeats f) /\ (forall f, In f [fAnd1'] -> no_repeats f).
  Proof.
    destruct C74_case_hyp as (F1 & F2 & R1 & R2).
    split; [|split].
    - apply (cb_add (new_space (Some "s") None) [] [] [] sE1 [hA; hB; hN] [cB] [fAnd1] (cb_new _ _)).
      + repeat (constructor; [first [exact hA_c|exact hB_c|exact hN_c]|]). constructor.
      + constructor; [exact cB_c|constructor].
      + constructor; [exact F1|constructor].
      + apply c_add_ok. vm_compute. reflexivity.
    - apply (cb_add (new_space (Some "s") None) [] [] [] sE2 [hN; hA; hB] [cB] [fAnd1'] (cb_new _ _)).
      + repeat (constructor; [first [exact hA_c|exact hB_c|exact hN_c]|]). constructor.
      + constructor; [exact cB_c|constructor].
      + constructor; [exact F2|constructor].
      + apply c_add_ok. vm_compute. reflexivity.
    - split; [vm_compute; reflexivity|]. split; [vm_compute; reflexivity|]. split; [|split; intros f [<-|[]]; assumption].
      intros H. assert (K : forbidden_clauses (c_space sE1) = forbidden_clauses (c_space sE2)) by (rewrite H; reflexivity).
      vm_compute in K. discriminate K.
  Qed.
End C75_witness.

(** ** C76: configurations *)

(** two optional values are equal *)
Definition same_value (u v : option value) : Prop :=
  match u, v with Some a, Some b => py_eqb a b = true | None, None => True | _, _ => False end.
(** the value is of the type that decoding gives: one of the choices itself, an int, a float *)
Definition native (h : hp) (w : value) : Prop :=
  match hp_kind h with
  | KCat c _ | KOrd c => In w c
  | KConst v => w = v
  | KInt _ _ _ _ => exists z, w = VInt z
  | KFloat _ _ _ _ => exists q, w = VFloat q
  end.
(** equal floats print alike *)
Definition floats_alike {E : Env} : Prop := forall p q, (p == q)%Q -> frepr (VFloat p) = frepr (VFloat q).

Section Configurations.
  Context {E : Env} {L : EnvLaws E}.

  Lemma dict_reading s hs cs fs c : space_ok s hs cs fs -> made s hs c ->
    exists D, dict_of s c = Ok D /\ map fst D = iter s c /\ forall n, assoc n D = reading s c n.
  Proof.
    intros O M. destruct (mapM_total (fun k => v <- getitem s c k ;; Ok (k, v)) (iter s c)) as (D & HD).
    { intros k Hk. destruct (proj1 (made_read O c k M) Hk) as (h & w & _ & _ & Hw & _). rewrite Hw. simpl. eauto. }
    exists D. split; [exact HD|]. apply mapM_ok in HD.
    assert (K : map fst D = iter s c /\ forall k v, In (k, v) D -> getitem s c k = Ok v).
    { induction HD as [|k e l D' H F IH]; [split; [reflexivity|intros k v []]|]. destruct IH as [I1 I2].
      destruct (getitem s c k) as [v|] eqn:Ev; [|discriminate]. simpl in H. injection H as <-. split; [simpl; congruence|].
      intros k' v' [H|H]; [congruence|auto]. }
    destruct K as [K1 K2]. split; [exact K1|]. intros n. unfold reading. assert (ND : NoDup (map fst D)) by (rewrite K1; apply (iter_nodup O)).
    destruct (assoc n D) as [v|] eqn:Ea.
    - rewrite (K2 n v (assoc_In _ _ _ Ea)). reflexivity.
    - rewrite (proj2 (made_read O c n M)); [reflexivity|]. intros Hn. rewrite <- K1 in Hn. apply assoc_Some_key in Hn. destruct Hn as (v & Hv). congruence.
  Qed.

  Section Pair.
    Context {x y : cspace} {hs hs' : list hp} {cs cs' : list cond} {fs fs' : list fclause}.
    Context (BX : cbuilt x hs cs fs) (BY : cbuilt y hs' cs' fs').

    (** C76: two configurations are equal iff they show equal values and their spaces are equal *)
    Theorem C76_equal c d : made (c_space x) hs c -> made (c_space y) hs' d ->
      exists b, config_eqb x c y d = Ok b /\
        (b = true <-> cspace_eqb x y = true /\ forall n, same_value (reading (c_space x) c n) (reading (c_space y) d n)).
    Proof.
      intros Mc Md. assert (OX := built_ok _ _ _ _ (cbuilt_built _ _ _ _ BX)). assert (OY := built_ok _ _ _ _ (cbuilt_built _ _ _ _ BY)).
      destruct (dict_reading _ _ _ _ c OX Mc) as (A & HA & KA & RA). destruct (dict_reading _ _ _ _ d OY Md) as (B & HB & KB & RB).
      unfold config_eqb. rewrite HA, HB. simpl. eexists. split; [reflexivity|]. rewrite andb_true_iff.
      unfold dict_eqb. rewrite (dict_eqb_iff (fun _ => py_eqb)).
      assert (NA : NoDup (map fst A)) by (rewrite KA; apply (iter_nodup OX)). assert (NB : NoDup (map fst B)) by (rewrite KB; apply (iter_nodup OY)).
      assert (G : dict_eq (fun _ u v => py_eqb u v = true) A B <-> forall n, same_value (reading (c_space x) c n) (reading (c_space y) d n)).
      { split.
        - intros H n. rewrite <- RA, <- RB. destruct (assoc n A) as [u|] eqn:Ea.
          + destruct (proj2 H n u (assoc_In _ _ _ Ea)) as (v & Hv & Q). rewrite Hv. exact Q.
          + destruct (assoc n B) as [v|] eqn:Eb; [|exact I]. destruct (dict_eq_back _ _ _ NA NB H n v (assoc_In _ _ _ Eb)) as (u & Hu & _). congruence.
        - intros H. assert (I1 : incl (map fst A) (map fst B)).
          { intros n Hn. apply assoc_Some_key in Hn. destruct Hn as (u & Hu). specialize (H n). rewrite <- RA, <- RB, Hu in H.
            destruct (assoc n B) as [v|] eqn:Eb; [|destruct H]. apply assoc_Some_key. eauto. }
          assert (I2 : incl (map fst B) (map fst A)).
          { intros n Hn. apply assoc_Some_key in Hn. destruct Hn as (u & Hu). specialize (H n). rewrite <- RA, <- RB, Hu in H.
            destruct (assoc n A) as [v|] eqn:Eb; [|destruct H]. apply assoc_Some_key. eauto. }
          split.
          + rewrite <- (map_length fst A), <- (map_length fst B). apply Nat.le_antisymm; apply NoDup_incl_length; assumption.
          + intros n u Hu. apply In_assoc in Hu; [|exact NA]. specialize (H n). rewrite <- RA, <- RB, Hu in H.
            destruct (assoc n B) as [v|]; [eauto|destruct H]. }
      rewrite G. tauto.
    Qed.

    (** the text is determined by the texts of the values *)
    Lemma same_text c d : made (c_space x) hs c -> made (c_space y) hs' d ->
      keys (c_space x) = keys (c_space y) -> index_of (c_space x) = index_of (c_space y) ->
      (forall n, option_map frepr (reading (c_space x) c n) = option_map frepr (reading (c_space y) d n)) ->
      exists t, config_str (c_space x) c = Ok t /\ config_str (c_space y) d = Ok t.
    Proof.
      intros Mc Md HK HI H. assert (OX := built_ok _ _ _ _ (cbuilt_built _ _ _ _ BX)). assert (OY := built_ok _ _ _ _ (cbuilt_built _ _ _ _ BY)).
      destruct (dict_reading _ _ _ _ c OX Mc) as (A & HA & KA & RA). destruct (dict_reading _ _ _ _ d OY Md) as (B & HB & KB & RB).
      unfold config_str. rewrite HA, HB. cbv beta iota delta [bind].
      assert (K : map fst A = map fst B).
      { assert (G : forall k, In k (map fst A) <-> In k (map fst B)).
        { intros k. rewrite !assoc_Some_key, RA, RB. specialize (H k). destruct (reading (c_space x) c k), (reading (c_space y) d k); try discriminate H;
            split; intros (w & Hw); eauto; discriminate. }
        rewrite KA, KB in *. unfold iter in *. rewrite <- HK, <- HI in *. apply filter_ext_in. intros k Hk.
        specialize (G k). rewrite !filter_In in G. apply eq_true_iff_eq. tauto. }
      rewrite K. assert (S : py_sorted (index_ltb (c_space y)) (map fst B) = py_sorted (index_ltb (c_space x)) (map fst B)).
      { unfold index_ltb. rewrite HI. reflexivity. }
      assert (T : map (config_line A) (py_sorted (index_ltb (c_space x)) (map fst B)) = map (config_line B) (py_sorted (index_ltb (c_space x)) (map fst B))).
      2: { eexists. split; [reflexivity|]. rewrite S, T. reflexivity. }
      apply map_ext. intros k. unfold config_line. rewrite RA, RB. specialize (H k).
      destruct (reading (c_space x) c k), (reading (c_space y) d k); try discriminate H; [|reflexivity]. simpl in H. injection H as ->. reflexivity.
    Qed.
  End Pair.

  (** == is reflexive, transitive and, up to repeated values in clauses, symmetric *)
  Theorem C76_refl x hs cs fs c : cbuilt x hs cs fs -> made (c_space x) hs c -> config_eqb x c x c = Ok true.
  Proof.
    intros B M. destruct (C76_equal B B c c M M) as (b & -> & H). f_equal. apply H. split; [exact (C75_refl x hs cs fs B)|].
    intros n. destruct (reading (c_space x) c n); simpl; [apply py_eqb_refl|exact I].
  Qed.
  Theorem C76_trans x y z hs cs fs hs' cs' fs' hs'' cs'' fs'' c d e :
    cbuilt x hs cs fs -> cbuilt y hs' cs' fs' -> cbuilt z hs'' cs'' fs'' ->
    made (c_space x) hs c -> made (c_space y) hs' d -> made (c_space z) hs'' e ->
    config_eqb x c y d = Ok true -> config_eqb y d z e = Ok true -> config_eqb x c z e = Ok true.
  Proof.
    intros BX BY BZ Mc Md Me H1 H2. destruct (C76_equal BX BY c d Mc Md) as (b1 & E1 & G1). destruct (C76_equal BY BZ d e Md Me) as (b2 & E2 & G2).
    destruct (C76_equal BX BZ c e Mc Me) as (b3 & -> & G3). rewrite H1 in E1. injection E1 as <-. rewrite H2 in E2. injection E2 as <-.
    destruct (proj1 G1 eq_refl) as [A1 V1]. destruct (proj1 G2 eq_refl) as [A2 V2]. f_equal. apply G3.
    split; [exact (C75_trans x y z _ _ _ _ _ _ _ _ _ BX BY BZ A1 A2)|]. intros n. specialize (V1 n). specialize (V2 n).
    destruct (reading (c_space x) c n), (reading (c_space y) d n), (reading (c_space z) e n); simpl in *; try tauto. eapply py_eqb_trans; eauto.
  Qed.
  Lemma same_value_sym u v : same_value u v -> same_value v u.
  Proof. destruct u, v; simpl; auto. rewrite py_eqb_sym. auto. Qed.
  (** missing: spaces that are equal in one direction only (C75_refuted) *)
  Theorem C76_sym_partial x y hs cs fs hs' cs' fs' c d : cbuilt x hs cs fs -> cbuilt y hs' cs' fs' ->
    (forall f, In f fs -> no_repeats f) -> (forall f, In f fs' -> no_repeats f) ->
    made (c_space x) hs c -> made (c_space y) hs' d ->
    config_eqb x c y d = config_eqb y d x c.
  Proof.
    intros BX BY RX RY Mc Md. destruct (C76_equal BX BY c d Mc Md) as (b1 & -> & G1). destruct (C76_equal BY BX d c Md Mc) as (b2 & -> & G2).
    f_equal. apply eq_true_iff_eq. rewrite G1, G2.
    assert (S : cspace_eqb x y = true <-> cspace_eqb y x = true).
    { split; [exact (C75_sym_partial x y _ _ _ _ _ _ BX BY RX RY)|exact (C75_sym_partial y x _ _ _ _ _ _ BY BX RY RX)]. }
    rewrite S. split; intros [A V]; (split; [exact A|]); intros n; apply same_value_sym, V.
  Qed.
  (** within one space it is symmetric without reservation *)
  Theorem C76_sym x hs cs fs c d : cbuilt x hs cs fs -> made (c_space x) hs c -> made (c_space x) hs d ->
    config_eqb x c x d = config_eqb x d x c.
  Proof.
    intros B Mc Md. destruct (C76_equal B B c d Mc Md) as (b1 & -> & G1). destruct (C76_equal B B d c Md Mc) as (b2 & -> & G2).
    f_equal. apply eq_true_iff_eq. rewrite G1, G2. split; intros [A V]; (split; [exact A|]); intros n; apply same_value_sym, V.
  Qed.

  Lemma native_alike h u v : floats_alike -> wf_hp h -> native h u -> native h v -> py_eqb u v = true -> frepr u = frepr v.
  Proof.
    intros FA W. unfold native, wf_hp in *.
    assert (G : forall c, has_dup c = false -> In u c -> In v c -> py_eqb u v = true -> frepr u = frepr v).
    { intros c D Hu Hv Q. apply In_nth_error in Hu. destruct Hu as (i & Hi). apply In_nth_error in Hv. destruct Hv as (j & Hj).
      assert (i = j) by (apply (has_dup_nth c i j u v); auto). subst j. congruence. }
    destruct (hp_kind h) as [c w|c|w|lo hi l ds|lo hi l ds].
    - apply G, W.
    - apply G, W.
    - intros -> -> _. reflexivity.
    - intros (a & ->) (b & ->). unfold py_eqb. simpl. rewrite Qeq_bool_iff. unfold Qeq. simpl. intros H. f_equal. f_equal. lia.
    - intros (a & ->) (b & ->). unfold py_eqb. simpl. rewrite Qeq_bool_iff. apply FA.
  Qed.

  (** equal configurations of a space have one text, hence one hash, when their values are of the types
      that decoding gives; missing: values equal to such values but of another type *)
  Theorem C76_hash_partial x hs cs fs c d : floats_alike -> cbuilt x hs cs fs -> made (c_space x) hs c -> made (c_space x) hs d ->
    (forall h w, In h hs -> reading (c_space x) c (hp_name h) = Some w -> native h w) ->
    (forall h w, In h hs -> reading (c_space x) d (hp_name h) = Some w -> native h w) ->
    config_eqb x c x d = Ok true -> exists t, config_str (c_space x) c = Ok t /\ config_str (c_space x) d = Ok t.
  Proof.
    intros FA B Mc Md Nc Nd H. assert (O := built_ok _ _ _ _ (cbuilt_built _ _ _ _ B)).
    destruct (C76_equal B B c d Mc Md) as (b & Hb & G). rewrite H in Hb. injection Hb as <-. destruct (proj1 G eq_refl) as [_ V].
    apply (same_text B B c d Mc Md eq_refl eq_refl). intros n. specialize (V n).
    destruct (reading (c_space x) c n) as [u|] eqn:Eu, (reading (c_space x) d n) as [v|] eqn:Ev; simpl in V; try contradiction; [|reflexivity].
    simpl. f_equal. assert (Hn : In n (iter (c_space x) c)).
    { destruct (in_dec string_dec n (iter (c_space x) c)) as [Hn|Hn]; [exact Hn|]. unfold reading in Eu. rewrite (proj2 (made_read O c n Mc) Hn) in Eu. discriminate. }
    destruct (proj1 (made_read O c n Mc) Hn) as (h & w & Hh & Hk & _). subst n.
    apply (native_alike h u v FA); [apply constructed_wf, (so_constructed O), Hh|exact (Nc h u Hh Eu)|exact (Nd h v Hh Ev)|exact V].
  Qed.

  (** the values of configurations made from vectors are of these types, *)
  Lemma to_value_native h e w : to_value h e = Ok w -> native h (round_value h w).
  Proof.
    unfold to_value, native, round_value. destruct (hp_kind h) as [c ws|c|v|lo hi l ds|lo hi l ds].
    - destruct e as [q| | |]; try discriminate. destruct (is_close_to_integer q); [|discriminate]. unfold np_index.
      destruct (_ && _)%bool; [|discriminate]. destruct (nth_error c _) as [v|] eqn:En; [|discriminate]. intros [= <-]. apply nth_error_In in En. exact En.
    - destruct e as [q| | |]; try discriminate. destruct (is_close_to_integer q); [|discriminate]. unfold np_index.
      destruct (_ && _)%bool; [|discriminate]. destruct (nth_error c _) as [v|] eqn:En; [|discriminate]. intros [= <-]. apply nth_error_In in En. exact En.
    - intros [= <-]. reflexivity.
    - destruct e as [q| | |]; try discriminate. intros [= <-]. eauto.
    - destruct e as [q| | |]; try discriminate; intros [= <-]; simpl; eauto.
  Qed.
  Theorem C76_native_vector s hs cs fs c h w : built s hs cs fs -> c_values c = None -> In h hs -> reading s c (hp_name h) = Some w -> native h w.
  Proof.
    intros B N Hh. assert (O := built_ok _ _ _ _ B). unfold reading. rewrite (getitem_vec O c h Hh) by (rewrite N; reflexivity).
    set (e := vget (index_of s) (c_vector c) (hp_name h)). clearbody e.
    destruct e as [q| | |]; try discriminate;
      match goal with |- context [to_value h ?e] => destruct (to_value h e) as [v|] eqn:Ev; [|discriminate]; simpl; intros [= <-]; exact (to_value_native h e v Ev) end.
  Qed.
  (** and those of configurations made from values, if the given values are *)
  Theorem C76_native_values s hs cs fs vals allow c h w : built s hs cs fs -> config_of_values s vals allow = Ok c ->
    (forall h u, In h hs -> given vals (hp_name h) = Some u -> native h u \/ exists lo hi l ds, hp_kind h = KFloat lo hi l ds) ->
    In h hs -> reading s c (hp_name h) = Some w -> native h w.
  Proof.
    intros B H N1 Hh Hw. assert (O := built_ok _ _ _ _ B). destruct (C18_reads s hs cs fs vals allow c B H) as (R1 & R2 & _).
    assert (AL := proj1 (proj2 (C17_accepted s hs cs fs vals allow c B H))).
    unfold reading in Hw. destruct (given vals (hp_name h)) as [u|] eqn:Eu.
    - rewrite (R1 h u Hh Eu) in Hw. injection Hw as <-. specialize (N1 h u Hh Eu). specialize (AL h u Hh Eu).
      unfold native, numeric, round_value, legal_value in *. destruct (hp_kind h) as [cc ws|cc|v|lo hi l ds|lo hi l ds].
      1,2,3,4: destruct N1 as [N1|(? & ? & ? & ? & N1)]; [exact N1|discriminate N1].
      destruct (num_of u) as [q|]; [eauto|discriminate].
    - rewrite R2 in Hw; [discriminate|]. intros (g & u & Hg & Hn & Hu). congruence.
  Qed.
End Configurations.

Section C76_witness.
  #[local] Existing Instance rat_env.

  Lemma rat_floats_alike : floats_alike.
  Proof. intros p q H. simpl. rewrite (Qred_complete p q H). reflexivity. Qed.

  (** n = 1 and n = True are equal configurations with different texts, hence hashes *)
  Definition sN := fst (c_add (new_space None None) [hN] [] []).
  Definition config_with (v : value) := get_or (mk_config [] None false) (config_of_values (c_space sN) [("n"%string, Some v)] false).
  Theorem C76_refuted : exists x hs c d t u, cbuilt x hs [] [] /\ made (c_space x) hs c /\ made (c_space x) hs d /\
    config_eqb x c x d = Ok true /\ config_str (c_space x) c = Ok t /\ config_str (c_space x) d = Ok u /\ t <> u.
  Proof.
    exists sN, [hN], (config_with (VInt 1)), (config_with (VBool true)),
      (get_or ""%string (config_str (c_space sN) (config_with (VInt 1)))), (get_or ""%string (config_str (c_space sN) (config_with (VBool true)))).
    split. { apply (cb_add (new_space None None) [] [] [] sN [hN] [] [] (cb_new _ _));
        [constructor; [exact hN_c|constructor]|constructor|constructor|apply c_add_ok; vm_compute; reflexivity]. }
    split. { apply (made_values (c_space sN) [hN] [("n"%string, Some (VInt 1))] false). vm_compute. reflexivity. }
    split. { apply (made_values (c_space sN) [hN] [("n"%string, Some (VBool true))] false). vm_compute. reflexivity. }
    split; [vm_compute; reflexivity|]. split; [vm_compute; reflexivity|]. split; [vm_compute; reflexivity|]. vm_compute. discriminate.
  Qed.

  (** a configuration made from values equals the one made from its vector, and has its text *)
  Definition some_values : list (string * option value) :=
    [("a"%string, Some (VStr "x")); ("b"%string, Some (VFloat (1 # 4))); ("n"%string, Some (VInt 3))].
  Example C76_case : exists c d, config_of_values (c_space sE1) some_values false = Ok c /\
    config_of_vector (c_space sE1) (c_vector c) false = Ok d /\ c <> d /\ config_eqb sE1 c sE1 d = Ok true /\
    config_str (c_space sE1) c = config_str (c_space sE1) d.
  Proof.
    set (c := get_or (mk_config [] None false) (config_of_values (c_space sE1) some_values false)).
    exists c, (mk_config (c_vector c) None false). split; [vm_compute; reflexivity|]. split; [vm_compute; reflexivity|].
    split; [vm_compute; discriminate|]. split; vm_compute; reflexivity.
  Qed.
End C76_witness.
