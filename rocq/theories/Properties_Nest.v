(** * Property C142: a space added under a parent value is sampled as by itself *)
From Coq Require Import String List ZArith QArith Bool Lia Lqa Permutation Relations.
From Verif Require Import Base ListFacts Numeric NumericProofs HP HPProofs Properties_HP Cond Forb EqFacts Dag DagCycle DagProofs
  Space CommitProofs Spec SpaceProofs CnodeProofs ForbProofs AddProofs EvalProofs ForbEval MergeProofs ValidProofs ConfigProofs
  ChangeProofs ReadProofs Ex DistProofs Properties_Eval Properties_Config Properties_Change Properties_Add Serial Properties_Serial
  Properties_Priors Subspace RenameProofs Properties_Sub Properties_SubParent SampleProofs Properties_Sample Dist Properties_Dist
  Properties_Size Properties_Reach Properties_Mass Properties_Chance Properties_Parts.
Import ListNotations.
Open Scope nat_scope.
Open Scope list_scope.

Section Orderly.
  Context {E : Env} {L : EnvLaws E}.

  (** ** The order condition *)
  Lemma chain_reads cs cs' n k : (forall a b, reads cs a b -> reads cs' a b) -> chain cs n k -> chain cs' n k.
  Proof. intros H. induction 1 as [n|p n k _ IH R]; [constructor|apply (chain_more _ p); [exact IH|apply H, R]]. Qed.
  Lemma longest_reads cs cs' n k : (forall a b, reads cs a b <-> reads cs' a b) -> longest cs n k -> longest cs' n k.
  Proof. intros H [C M]. split; [apply (chain_reads cs); [apply H|exact C]|]. intros k' C'. apply M. apply (chain_reads cs'); [apply H|exact C']. Qed.
  Lemma orderly_sub cs cs' : (forall c, In c cs' -> In c cs) -> (forall a b, reads cs a b <-> reads cs' a b) -> orderly cs -> orderly cs'.
  Proof.
    intros I R [S G]. constructor; [intros c c' p Hc Hc'; apply S; auto|]. intros c c' p Hc Hc' Hp A. destruct (G c c' p (I c Hc) (I c' Hc') Hp A) as (q & i & Hq & Hl & M).
    exists q, i. split; [exact Hq|]. split; [apply (longest_reads cs cs' _ _ R Hl)|]. intros q' i' Hq' Hl'. apply (M q' i' Hq'). apply (longest_reads cs' cs); [intros a b; symmetry; apply R|exact Hl'].
  Qed.

  Section Renamed.
    Variables (g : string -> string) (hs : list hp) (l : list cond).
    Hypothesis Inj : forall n m, In n (map hp_name hs) -> In m (map hp_name hs) -> g n = g m -> n = m.
    Hypothesis Nd : NoDup (map hp_name hs).
    Hypothesis Rf : forall c, In c l -> cond_refs hs c.
    Hypothesis Bl : forall c, In c l -> cond_built c.
    Hypothesis EqR : forall c d, In c l -> In d l -> cond_equiv (rename_cond g c) (rename_cond g d) = true -> cond_equiv c d = true.
    Lemma ren_par c n : In c l -> In n (cond_parents c) -> In n (map hp_name hs).
    Proof. intros Hc Hn. apply in_map_iff in Hn. destruct Hn as (x & <- & Hx). unfold parent_name. apply in_map. apply (Rf c Hc x Hx). Qed.
    Lemma ren_act c n : In c l -> activates c n -> In n (map hp_name hs).
    Proof.
      intros Hc A. unfold activates in A. destruct (dlcs c) as [|x xs] eqn:Ed; [exfalso; exact (proj2 (cond_good_lits c (cond_built_good c (Bl c Hc))) Ed)|].
      unfold cond_child in A. rewrite Ed in A. cbn in A. injection A as <-. apply in_map. apply (Rf c Hc x). rewrite Ed. left. reflexivity.
    Qed.
    Lemma ren_reads a n : In n (map hp_name hs) -> reads (map (rename_cond g) l) a (g n) -> exists p, a = g p /\ reads l p n.
    Proof.
      intros Hn (c & Hc & A & Hp). apply in_map_iff in Hc. destruct Hc as (x & <- & Hx). apply activates_rename in A. destruct A as (m & Em & A).
      rewrite parents_rename in Hp. apply in_map_iff in Hp. destruct Hp as (p & <- & Hp). exists p. split; [reflexivity|]. exists x.
      assert (n = m) by (apply (Inj n m Hn (ren_act x m Hx A) Em)). subst m. auto.
    Qed.
    Lemma ren_chain n k : In n (map hp_name hs) -> (chain (map (rename_cond g) l) (g n) k <-> chain l n k).
    Proof.
      intros Hn. split.
      - remember (g n) as x eqn:Ex. intros C. revert n Hn Ex. induction C as [x|p x k C IH R]; intros n Hn ->; [constructor|].
        destruct (ren_reads p n Hn R) as (r & -> & Rr). apply (chain_more _ r); [|exact Rr]. apply IH; [|reflexivity].
        destruct Rr as (c & Hc & _ & Hp). apply (ren_par c); assumption.
      - intros C. revert Hn. induction C as [n|p n k C IH (c & Hc & A & Hp)]; intros Hn; [constructor|]. apply (chain_more _ (g p)); [apply IH, (ren_par c); assumption|].
        exists (rename_cond g c). split; [apply in_map, Hc|]. split; [apply activates_rename; eauto|]. rewrite parents_rename. apply in_map, Hp.
    Qed.
    Lemma ren_longest n k : In n (map hp_name hs) -> (longest (map (rename_cond g) l) (g n) k <-> longest l n k).
    Proof. intros Hn. split; intros [C M]; (split; [apply (ren_chain n k Hn), C|]); intros k' C'; apply M, (ren_chain n k' Hn), C'. Qed.
    Lemma ren_orderly : orderly l -> orderly (map (rename_cond g) l).
    Proof.
      intros [S G]. constructor; intros c c' p Hc Hc'; apply in_map_iff in Hc, Hc'; destruct Hc as (x & <- & Hx), Hc' as (x' & <- & Hx'); rewrite ?parents_rename.
      - intros Q Hp. apply in_map_iff in Hp. destruct Hp as (r & <- & Hr). apply in_map. apply (S x x' r Hx Hx' (EqR x x' Hx Hx' Q) Hr).
      - intros Hp A. apply in_map_iff in Hp. destruct Hp as (r & <- & Hr). apply activates_rename in A. destruct A as (m & Em & A).
        assert (r = m) by (apply (Inj r m (ren_par x r Hx Hr) (ren_act x' m Hx' A) Em)). subst m.
        destruct (G x x' r Hx Hx' Hr A) as (q & i & Hq & Hl & M). exists (g q), i. split; [apply in_map, Hq|]. split; [apply ren_longest; [apply (ren_par x'); assumption|exact Hl]|].
        intros q' i' Hq' Hl'. apply in_map_iff in Hq'. destruct Hq' as (y & <- & Hy). apply (M y i' Hy). apply ren_longest in Hl'; [exact Hl'|apply (ren_par x); assumption].
    Qed.
  End Renamed.

  Section Gated.
    Variables (ct cs2 G : list cond) (tn sn : string -> Prop) (q : string).
    Hypothesis Ht : forall c n, In c ct -> In n (cond_parents c) \/ activates c n -> tn n.
    Hypothesis Hs : forall c n, In c cs2 -> In n (cond_parents c) \/ activates c n -> sn n.
    Hypothesis Ap : forall n, tn n -> sn n -> False.
    Hypothesis Hq : tn q.
    Hypothesis Gp : forall c, In c (ct ++ cs2) -> exists n, In n (cond_parents c).
    Hypothesis G1 : forall c, In c G -> (exists l, c = CLit l) /\ cond_parents c = [q] /\ exists r, sn r /\ ~ conditional (ct ++ cs2) r /\ forall n, activates c n <-> n = r.
    Hypothesis G2 : forall r, sn r -> ~ conditional (ct ++ cs2) r -> exists c, In c G /\ activates c r.
    Hypothesis Lg : forall n, tn n \/ sn n -> exists k, longest (ct ++ cs2) n k.
    Let B := ct ++ cs2.
    Let C := B ++ G.
    Lemma gt_reads a b : reads C a b <-> reads B a b \/ (a = q /\ sn b /\ ~ conditional B b).
    Proof.
      split.
      - intros (c & Hc & A & P). apply in_app_or in Hc. destruct Hc as [Hc|Hc]; [left; exists c; auto|right].
        destruct (G1 c Hc) as (_ & Ep & r & Hr & Nc & Ar). rewrite Ep in P. destruct P as [<-|[]]. apply Ar in A. subst b. auto.
      - intros [(c & Hc & R)|(-> & Hb & Nc)]; [exists c; split; [apply in_or_app; left; exact Hc|exact R]|].
        destruct (G2 b Hb Nc) as (c & Hc & A). exists c. split; [apply in_or_app; right; exact Hc|]. split; [exact A|]. rewrite (proj1 (proj2 (G1 c Hc))). left. reflexivity.
    Qed.
    Lemma gt_side a b : reads B a b -> (tn a /\ tn b) \/ (sn a /\ sn b).
    Proof. intros (c & Hc & A & P). apply in_app_or in Hc. destruct Hc as [Hc|Hc]; [left|right]; split; eauto. Qed.
    Lemma gt_chain_t n k : tn n -> (chain C n k <-> chain B n k).
    Proof.
      intros Hn. split; [|apply chain_reads; intros a b R; apply gt_reads; left; exact R].
      intros Ch. revert Hn. induction Ch as [n|p n k Ch IH R]; intros Hn; [constructor|]. apply gt_reads in R. destruct R as [R|(_ & Sn & _)]; [|exfalso; exact (Ap n Hn Sn)].
      apply (chain_more _ p); [|exact R]. apply IH. destruct (gt_side _ _ R) as [(? & _)|(_ & Sn)]; [assumption|exfalso; exact (Ap n Hn Sn)].
    Qed.
    Lemma gt_longest_t n k : tn n -> (longest C n k <-> longest B n k).
    Proof. intros Hn. split; intros [A M]; (split; [apply (gt_chain_t n k Hn), A|]); intros k' A'; apply M, (gt_chain_t n k' Hn), A'. Qed.
    Section Level.
      Variable iq : nat.
      Hypothesis Lq : longest B q iq.
      Lemma gt_chain_s n k : sn n -> chain C n k -> exists j, chain B n j /\ k <= j + iq.
      Proof.
        intros Hn Ch. revert Hn. induction Ch as [n|p n k Ch IH R]; intros Hn; [exists 1; split; [constructor|lia]|]. apply gt_reads in R. destruct R as [R|(-> & _ & _)].
        - destruct (gt_side _ _ R) as [(_ & Tn)|(Sp & _)]; [exfalso; exact (Ap n Tn Hn)|]. destruct (IH Sp) as (j & Cj & Le). exists (S j). split; [apply (chain_more _ p); assumption|lia].
        - exists 1. split; [constructor|]. assert (k <= iq) by (apply (proj2 Lq), (gt_chain_t q k Hq), Ch). lia.
      Qed.
      Lemma gt_deep j : forall n, sn n -> longest B n j -> chain C n (j + iq).
      Proof.
        induction j as [|j IH]; intros n Hn [Cj M]; [inversion Cj|]. inversion Cj as [x|p x k Ck R]; subst.
        - cbn [plus]. assert (Nc : ~ conditional B n).
          { intros (c & Hc & A). destruct (Gp c Hc) as (r & Hr). assert (2 <= 1); [|lia]. apply M. apply (chain_more _ r); [constructor|exists c; auto]. }
          apply (chain_more _ q); [apply (gt_chain_t q iq Hq), (proj1 Lq)|]. apply gt_reads. right. auto.
        - destruct (gt_side _ _ R) as [(_ & Tn)|(Sp & _)]; [exfalso; exact (Ap n Tn Hn)|]. cbn [plus]. apply (chain_more _ p); [|apply gt_reads; left; exact R].
          apply IH; [exact Sp|]. split; [exact Ck|]. intros k' Ck'. assert (S k' <= S j); [|lia]. apply M. apply (chain_more _ p); assumption.
      Qed.
      Lemma gt_longest_s n i : sn n -> (longest C n i <-> exists j, longest B n j /\ i = j + iq).
      Proof.
        intros Hn. destruct (Lg n (or_intror Hn)) as (j & Lj).
        assert (Lc : longest C n (j + iq)).
        { split; [apply gt_deep; assumption|]. intros k' Ck. destruct (gt_chain_s n k' Hn Ck) as (m & Cm & Le). assert (m <= j) by (apply (proj2 Lj), Cm). lia. }
        split.
        - intros Li. exists j. split; [exact Lj|]. exact (longest_unique _ _ _ Li Lc).
        - intros (m & Lm & ->). assert (m = j) by exact (longest_unique _ _ _ Lm Lj). subst m. exact Lc.
      Qed.
    End Level.
    Lemma lit_equiv_parents l c p : cond_equiv (CLit l) c = true \/ cond_equiv c (CLit l) = true -> (In p (cond_parents c) <-> p = parent_name l).
    Proof.
      intros [Q|Q]; destruct c as [m|cs|cs]; try discriminate Q; simpl in Q; unfold lit_equiv in Q; apply andb_true_iff in Q; destruct Q as [Q _]; apply hp_eqb_name in Q;
        unfold cond_parents; simpl; unfold parent_name; rewrite Q; split; [intros [<-|[]]; reflexivity|intros ->; left; reflexivity|intros [<-|[]]; reflexivity|intros ->; left; reflexivity].
    Qed.
    Lemma gated_orderly : orderly B -> orderly C.
    Proof.
      intros [S Gr]. destruct (Lg q (or_introl Hq)) as (iq & Lq). constructor; intros c c' p Hc Hc'.
      - intros Q Hp. apply in_app_or in Hc, Hc'. destruct Hc as [Hc|Hc].
        + destruct Hc' as [Hc'|Hc']; [apply (S c c' p Hc Hc' Q Hp)|]. destruct (G1 c' Hc') as ((l & ->) & _). apply (lit_equiv_parents l c p (or_intror Q)).
          unfold cond_parents in Hp. simpl in Hp. destruct Hp as [<-|[]]. reflexivity.
        + destruct (G1 c Hc) as ((l & ->) & _). apply (lit_equiv_parents l c' p (or_introl Q)) in Hp. subst p. unfold cond_parents. simpl. left. reflexivity.
      - intros Hp A. apply in_app_or in Hc, Hc'. destruct Hc' as [Hc'|Hc'].
        + destruct Hc as [Hc|Hc].
          * destruct (Gr c c' p Hc Hc' Hp A) as (q0 & i & Hq0 & Hl & M).
            apply in_app_or in Hc, Hc'. destruct Hc as [Hc|Hc], Hc' as [Hc'|Hc'].
            -- exists q0, i. split; [exact Hq0|]. split; [apply gt_longest_t; eauto|]. intros q' i' Hq' Hl'. apply (M q' i' Hq'). apply gt_longest_t in Hl'; eauto.
            -- exfalso. apply (Ap p); eauto.
            -- exfalso. apply (Ap p); eauto.
            -- exists q0, (i + iq). split; [exact Hq0|]. split; [apply (gt_longest_s iq Lq); eauto|]. intros q' i' Hq' Hl'.
               apply (gt_longest_s iq Lq) in Hl'; [|eauto]. destruct Hl' as (j & Lj & ->). assert (i < j) by (apply (M q' j Hq' Lj)). lia.
          * destruct (G1 c Hc) as (_ & Ep & _). rewrite Ep in *. destruct Hp as [<-|[]]. destruct (Gp c' Hc') as (q0 & Hq0).
            assert (Rq : reads B q0 q) by (exists c'; auto). assert (Tq : tn q0) by (destruct (gt_side _ _ Rq) as [(? & _)|(_ & Sn)]; [assumption|exfalso; exact (Ap q Hq Sn)]).
            destruct (Lg q0 (or_introl Tq)) as (i & Li). exists q0, i. split; [exact Hq0|]. split; [apply gt_longest_t; assumption|].
            intros q' i' [<-|[]] Hl'. apply (gt_longest_t q i' Hq) in Hl'. apply (proj2 Hl'). apply (chain_more _ q0); [apply Li|exact Rq].
        + destruct (G1 c' Hc') as (_ & Ep & r & Hr & Nc & Ar). apply Ar in A. subst p. exists q, iq. rewrite Ep. split; [left; reflexivity|]. split; [apply gt_longest_t; assumption|].
          assert (Hc2 : In c cs2).
          { destruct Hc as [Hc|Hc]; [apply in_app_or in Hc; destruct Hc as [Hc|Hc]; [exfalso; apply (Ap r); eauto|exact Hc]|]. exfalso. destruct (G1 c Hc) as (_ & Ec & _). rewrite Ec in Hp.
            destruct Hp as [<-|[]]. exact (Ap q Hq Hr). }
          intros q' i' Hq' Hl'. apply (gt_longest_s iq Lq) in Hl'; [|eauto]. destruct Hl' as (j & (Cj & _) & ->). assert (1 <= j) by (inversion Cj; lia). lia.
    Qed.
  End Gated.
End Orderly.

(** the parent has the value *)
Definition under (q : hp) (v : value) (d : assignment) : Prop := exists w, d (hp_name q) = Some w /\ py_eqb w v = true.

Section Result.
  Context {E : Env} {L : EnvLaws E}.
  Variables (t s : space) (ht hs : list hp) (ct cs : list cond) (ft fs : list fclause) (p dl : string) (q : hp) (v : value).
  Hypotheses (Tt : tame t ht ct ft) (Ts : tame s hs cs fs) (U : distinct_strings s)
    (ND : NoDup (map hp_name ht ++ map (new_name p dl) (map hp_name hs))) (Hq : In q ht) (Hv : legal_value q v = true)
    (Ne : forall c l w x, In c cs -> In l (dlcs c) -> l_test l <> TBin OpNe w x).
  Let g := new_name p dl.
  Let hs2 := map (rename_hp g) (Space.hps s).
  Let cs2 := map (rename_cond g) (conditions s).
  Let fs2 := map (rename_forb g) (forbidden_clauses s).
  Let Os : space_ok s hs cs fs := built_ok _ _ _ _ (tm_built _ _ _ _ Ts).
  Let Ko : space_ok t ht ct ft := built_ok _ _ _ _ (tm_built _ _ _ _ Tt).

  (** the result meets the order condition if the target and the source do *)
  Lemma sub_refs : refs hs2 cs2 fs2.
  Proof.
    assert (G : forall h, In h hs -> In (rename_hp g h) hs2) by (intros h Hh; apply in_map, (Permutation_in _ (Permutation_sym (so_hps Os)) Hh)).
    split.
    - intros c Hc l Hl. apply in_map_iff in Hc. destruct Hc as (x & <- & Hx). rewrite dlcs_rename in Hl. apply in_map_iff in Hl. destruct Hl as (l0 & <- & Hl0).
      destruct (proj1 (tm_refs _ _ _ _ Ts) x (jn_sub Ts U x Hx) l0 Hl0) as [A B]. split; [exact (G _ A)|exact (G _ B)].
    - intros f Hf h Hh. apply in_map_iff in Hf. destruct Hf as (x & <- & Hx). rewrite hps_rename in Hh. apply in_map_iff in Hh. destruct Hh as (k & <- & Hk).
      apply G. apply (proj2 (tm_refs _ _ _ _ Ts) x); [|exact Hk]. apply (Permutation_in _ (di_forb _ _ _ _ (so_inv _ _ _ _ Os)) Hx).
  Qed.
  (** the declarations of the result, and what is active in it *)
  Lemma nest_active : exists C, tame (o_target (add_sub [] t s p dl (Some (q, v)))) (ht ++ hs2) C (ft ++ fs2) /\
    (orderly ct -> orderly cs -> orderly C) /\
    (forall d, valid (ht ++ hs2) C (ft ++ fs2) d <-> valid ht ct ft d /\
      ((under q v d /\ valid hs cs fs (fun n => d (g n))) \/ (~ under q v d /\ forall n, In n (map hp_name hs) -> d (g n) = None))) /\
    (forall d n, In n (map hp_name ht) -> (active C d n <-> active ct d n)) /\
    (forall d m, In m (map hp_name hs) -> under q v d -> (active C d (g m) <-> active (conditions s) (fun n => d (g n)) m)) /\
    (forall d, ~ under q v d -> (forall m, In m (map hp_name hs) -> (d (g m) <> None <-> active C d (g m))) -> forall m, In m (map hp_name hs) -> d (g m) = None) /\
    (forall d, ~ under q v d -> (forall m, In m (map hp_name hs) -> d (g m) = None) -> forall m, In m (map hp_name hs) -> ~ active C d (g m)).
  Proof.
    destruct (legal_finite q v (so_constructed Ko q Hq) Hv) as (x & Hvv).
    destruct (sub_added p dl Tt Ts U ND) as (t2 & A & T2). fold g hs2 cs2 fs2 in A, T2. assert (O2 := built_ok _ _ _ _ (tm_built _ _ _ _ T2)).
    assert (M := rs_made p dl Ts ND q v (Fin x) Hq Hv Hvv t2 T2). assert (GA := gate_add p dl Tt Ts U ND q v (Fin x) Hq Hv Hvv Ne t2 T2). fold g hs2 cs2 fs2 in M, GA.
    assert (GV := gate_valid p dl Tt Ts U ND q v (Fin x) Hv t2 T2). fold g hs2 cs2 fs2 in GV.
    assert (At := act_t p dl Ts U ND q v (Fin x) t2 T2). assert (Ar := act_root p dl Tt Ts U ND q v (Fin x) t2 T2).
    assert (As := act_sub p dl Tt Ts U ND q v (Fin x) t2 T2). assert (Cl := closed_none p dl Tt Ts U ND q v (Fin x) t2 T2). fold g hs2 cs2 in At, Ar, As, Cl.
    assert (Rs := fun h => rs_spec p dl t2 T2 h). fold g hs2 cs2 in Rs. set (rs := root_params t2 hs2) in *.
    assert (Inj := sub_inj p dl ND). fold g in Inj.
    exists ((ct ++ cs2) ++ map (gate q v (Fin x)) rs). split.
    { rewrite (add_sub_eq t s hs cs fs p dl (Some (q, v)) Ts U). cbv zeta. fold g hs2 cs2 fs2. rewrite A. fold rs. rewrite M.
      destruct rs as [|r rs']; simpl map in *; [simpl; rewrite (app_nil_r (ct ++ cs2)); exact T2|]. destruct GA as (t3 & A3 & T3). rewrite A3. exact T3. }
    split; [|split; [exact GV|split; [exact At|split; [|split; [exact Cl|]]]]].
    3: { intros d No N m Hm K. destruct (cond_dec Ts U m Hm) as [C|C]; [|apply No, (Ar d m Hm C), K]. apply (As d m Hm C) in K. destruct C as (c & Hc & Ac).
         assert (Ic := jn_sub Ts U c Hc). destruct (holds_some _ c (cond_built_good c (so_cond_built Os c Ic)) (K c Hc Ac)) as (n & Hn & Dn). apply Dn, N.
         apply (refs_parent hs c n (proj1 (tm_refs _ _ _ _ Ts) c Ic) Hn). }
    2: { intros d m Hm Op. destruct (cond_dec Ts U m Hm) as [C|C]; [apply As; assumption|]. rewrite (Ar d m Hm C).
         split; [intros _ c Hc Ac; exfalso; apply C; exists c; auto|intros _; exact Op]. }
    intros Ot Or.
    assert (P : parts ht hs2 ct cs2 ft fs2).
    { constructor; [apply (tm_refs _ _ _ _ Tt)|exact sub_refs|exact (so_names_nodup O2)]. }
    assert (Bl : forall c, In c (ct ++ cs2) -> cond_built c) by (intros c; apply (so_cond_built O2)).
    assert (O3 : orderly (conditions s)).
    { apply (orderly_sub cs); [apply (jn_sub Ts U)|apply (listed_reads _ _ _ _ (tm_built _ _ _ _ Ts) U)|exact Or]. }
    assert (Or2 : orderly cs2).
    { apply (ren_orderly g hs); [exact Inj| | | |exact O3].
      - intros c Hc. apply (proj1 (tm_refs _ _ _ _ Ts) c (jn_sub Ts U c Hc)).
      - intros c Hc. apply (so_cond_built Os), (jn_sub Ts U c Hc).
      - intros c d Hc Hd. apply (equiv_rename g (so_names_nodup Os)).
        + intros h k Hh Hk. apply Inj; apply in_map; assumption.
        + apply (proj1 (tm_refs _ _ _ _ Ts) c (jn_sub Ts U c Hc)).
        + apply (proj1 (tm_refs _ _ _ _ Ts) d (jn_sub Ts U d Hd)).
        + apply (so_cond_built Os), (jn_sub Ts U d Hd). }
    assert (Side : forall hz cz fz c n, refs hz cz fz -> In c cz -> In n (cond_parents c) \/ activates c n -> In n (map hp_name hz)).
    { intros hz cz fz c n R Hc [Hn|Hn]; [apply (parents_in hz cz fz c n R Hc Hn)|]. destruct (child_in _ _ _ _ _ R Hc Hn) as (h & Hh & En). apply in_map_iff. exists h. auto. }
    apply (gated_orderly ct cs2 _ (fun n => In n (map hp_name ht)) (fun n => In n (map hp_name hs2)) (hp_name q)).
    - intros c n. apply (Side ht ct ft c n (tm_refs _ _ _ _ Tt)).
    - intros c n. apply (Side hs2 cs2 fs2 c n sub_refs).
    - intros n H1 H2. exact (apart_names _ _ _ _ _ _ n P H1 H2).
    - apply in_map, Hq.
    - intros c Hc. apply (good_parent c (cond_built_good c (Bl c Hc))).
    - intros c Hc. apply in_map_iff in Hc. destruct Hc as (h & <- & Hh). apply Rs in Hh. destruct Hh as [Hh Nc]. split; [eexists; reflexivity|]. split; [reflexivity|].
      exists (hp_name h). split; [apply in_map, Hh|]. split; [exact Nc|]. intros n. apply gate_activates.
    - intros r Hr Nc. apply in_map_iff in Hr. destruct Hr as (h & <- & Hh). exists (gate q v (Fin x) h). split; [apply in_map, Rs; split; assumption|]. apply gate_activates. reflexivity.
    - intros n Hn. eexists. apply (so_longest O2). apply (keys_hs O2). assert (Hi : In n (map hp_name (ht ++ hs2))) by (rewrite map_app; apply in_or_app; exact Hn).
      apply in_map_iff in Hi. destruct Hi as (h & En & Hh). exists h. auto.
    - apply (C136_orderly ht hs2 ct cs2 ft fs2 P Bl). split; assumption.
  Qed.
  Theorem C142_orderly_partial : orderly ct -> orderly cs ->
    exists ht' ct' ft', tame (o_target (add_sub [] t s p dl (Some (q, v)))) ht' ct' ft' /\ orderly ct'.
  Proof. intros Ot Or. destruct nest_active as (C & T3 & Od & _). eexists; eexists; eexists. split; [exact T3|exact (Od Ot Or)]. Qed.
End Result.

Section Nest.
  Context {E : Env} {L : EnvLaws E}.

  Lemma density_app f d l m : (density f d (l ++ m) == density f d l * density f d m)%Q.
  Proof. unfold density. induction l as [|h l IH]; cbn [app fold_right]; [ring|]. rewrite IH. ring. Qed.
  Lemma density_rename f d g l : density f d (map (rename_hp g) l) = density f (fun n => d (g n)) l.
  Proof. unfold density. induction l as [|h l IH]; cbn [map fold_right]; [reflexivity|]. rewrite IH. reflexivity. Qed.
  Lemma density_none f d l : (forall h, In h l -> d (hp_name h) = None) -> (density f d l == 1)%Q.
  Proof.
    unfold density. induction l as [|h l IH]; intros H; cbn [fold_right]; [reflexivity|]. rewrite (H h (or_introl eq_refl)), IH; [ring|].
    intros k Hk. apply H. right. exact Hk.
  Qed.
  Lemma density_same f d d' l : (forall h, In h l -> d (hp_name h) = d' (hp_name h)) -> density f d l = density f d' l.
  Proof.
    unfold density. induction l as [|h l IH]; intros H; cbn [fold_right]; [reflexivity|]. rewrite (H h (or_introl eq_refl)), IH; [reflexivity|].
    intros k Hk. apply H. right. exact Hk.
  Qed.

  (** two descriptions of one space agree on what is valid *)
  Lemma described s hs cs fs hs' cs' fs' d : tame s hs cs fs -> tame s hs' cs' fs' -> (forall h, In h hs -> evenly h) -> exact_all hs d ->
    valid hs cs fs d -> valid hs' cs' fs' d.
  Proof.
    intros T T' Ev Ex V. assert (O := built_ok _ _ _ _ (tm_built _ _ _ _ T)). assert (O' := built_ok _ _ _ _ (tm_built _ _ _ _ T')).
    assert (P : Permutation hs hs') by (rewrite <- (so_hps O); exact (so_hps O')).
    set (vals := map (fun h => (hp_name h, d (hp_name h))) hs).
    assert (G : forall h, In h hs -> given vals (hp_name h) = d (hp_name h)) by (exact (given_map hs d (so_names_nodup O))).
    assert (S1 : forall h, In h hs -> d (hp_name h) = option_map (round_value h) (given vals (hp_name h))).
    { intros h Hh. rewrite (G h Hh). assert (Eh := Ev h Hh). unfold evenly in Eh. unfold round_value. destruct (d (hp_name h)) as [w|]; [|reflexivity]. simpl.
      destruct (hp_kind h); try reflexivity. destruct Eh. }
    assert (I' : forall h, In h hs' -> In h hs) by (intros h Hh; apply (Permutation_in _ (Permutation_sym P) Hh)).
    destruct (C17_accepts_valid_partial s hs cs fs vals d T S1) as [_ H].
    { intros h w Hh. rewrite (G h Hh). apply Ex, Hh. }
    destruct (C17_accepts_valid_partial s hs' cs' fs' vals d T' (fun h Hh => S1 h (I' h Hh))) as [H' _].
    { intros h w Hh. rewrite (G h (I' h Hh)). apply Ex, I', Hh. }
    apply H'. apply H. split; [|split; [|exact V]].
    - intros k Hk. right. unfold vals in Hk. rewrite map_map in Hk. exact Hk.
    - intros h w Hh. rewrite (G h Hh). apply (va_legal _ _ _ _ V), Hh.
  Qed.

  (** every value is one of the values of its hyperparameter *)
  Definition optional (hs : list hp) (d : assignment) : Prop := forall h w, In h hs -> d (hp_name h) = Some w -> In w (options h).

  Section Sampled.
    Variables (t s : space) (ht hs : list hp) (ct cs : list cond) (ft fs : list fclause) (p dl : string) (q : hp) (v : value).
    Hypotheses (Tt : tame t ht ct ft) (Ts : tame s hs cs fs) (U : distinct_strings s)
      (ND : NoDup (map hp_name ht ++ map (new_name p dl) (map hp_name hs))) (Hq : In q ht) (Hv : legal_value q v = true)
      (Ne : forall c l w x, In c cs -> In l (dlcs c) -> l_test l <> TBin OpNe w x)
      (Et : forall h, In h ht -> evenly h) (Es : forall h, In h hs -> evenly h) (Ot : orderly ct) (Or : orderly cs).
    Let g := new_name p dl.
    Let T := o_target (add_sub [] t s p dl (Some (q, v))).
    Let hs2 := map (rename_hp g) (Space.hps s).
    Let Os : space_ok s hs cs fs := built_ok _ _ _ _ (tm_built _ _ _ _ Ts).
    Let Ko : space_ok t ht ct ft := built_ok _ _ _ _ (tm_built _ _ _ _ Tt).
    Variables (ht' : list hp) (ct' : list cond) (ft' : list fclause).
    Hypothesis TT : tame T ht' ct' ft'.

    Lemma nest_hps : Permutation ht' (ht ++ hs2).
    Proof.
      destruct (legal_finite q v (so_constructed Ko q Hq) Hv) as (x & Hx).
      destruct (gate_sub p dl Tt Ts U ND q v (Fin x) Hq Hv Hx Ne) as (_ & cs3 & T3 & _). fold T in T3.
      rewrite <- (so_hps (built_ok _ _ _ _ (tm_built _ _ _ _ TT))). exact (so_hps (built_ok _ _ _ _ (tm_built _ _ _ _ T3))).
    Qed.
    Lemma nest_even h : In h ht' -> evenly h.
    Proof.
      intros Hh. apply (Permutation_in _ nest_hps) in Hh. apply in_app_or in Hh. destruct Hh as [Hh|Hh]; [apply Et, Hh|].
      apply in_map_iff in Hh. destruct Hh as (k & <- & Hk). exact (Es k (Permutation_in _ (so_hps Os) Hk)).
    Qed.
    Lemma nest_optional d : optional ht' d -> optional ht d /\ optional hs (fun n => d (g n)).
    Proof.
      intros H. split; intros h w Hh Hw.
      - apply (H h w); [apply (Permutation_in _ (Permutation_sym nest_hps)), in_or_app; left; exact Hh|exact Hw].
      - apply (H (rename_hp g h) w); [|exact Hw]. apply (Permutation_in _ (Permutation_sym nest_hps)), in_or_app. right. apply in_map.
        apply (Permutation_in _ (Permutation_sym (so_hps Os)) Hh).
    Qed.
    Lemma nest_density f d : (density f d ht' == density f d ht * density f (fun n => d (g n)) hs)%Q.
    Proof.
      rewrite (density_perm f d _ _ nest_hps), density_app. unfold hs2. rewrite density_rename, (density_perm f _ _ _ (so_hps Os)). reflexivity.
    Qed.
    Lemma nest_some : ht' <> [] /\ ht <> [].
    Proof.
      split; [|intros ->; destruct Hq]. intros Q. assert (P := nest_hps). rewrite Q in P. apply Permutation_nil, app_eq_nil in P.
      destruct P as [P _]. rewrite P in Hq. destruct Hq.
    Qed.
    Lemma nest_valid d : valid ht' ct' ft' d -> optional ht' d -> valid ht ct ft d /\
      ((under q v d /\ valid hs cs fs (fun n => d (g n))) \/ (~ under q v d /\ forall n, In n (keys s) -> d (g n) = None)).
    Proof.
      intros V Op. destruct (C54_parent_partial t ht ct ft s hs cs fs p dl q v Tt Ts U ND Hq Hv Ne) as (_ & _ & _ & _ & h3 & c3 & f3 & T3 & V3).
      fold T in T3. apply V3. apply (described T ht' ct' ft' h3 c3 f3 d TT T3 nest_even); [|exact V].
      intros h w Hh Hw. apply options_exact, (Op h w Hh Hw).
    Qed.

    (** C132 for the result, whichever description of it is taken *)
    Lemma nest_column c d fuel : valid ht' ct' ft' d -> optional ht' d -> represents T ht' c d ->
      let a := chance (independent (laws T)) (accepted T) in
      (chance (independent (laws T)) (yields T (c_vector c)) == density (fun x => x) d ht')%Q /\
      (a * chance (independent (repeat (independent (laws T)) (fuel * next_size T 1))) (returns T fuel (c_vector c))
       == density (fun x => x) d ht' * (1 - qpow (1 - a) (fuel * next_size T 1)))%Q.
    Proof.
      intros V Op Rp. destruct (C142_orderly_partial t s ht hs ct cs ft fs p dl q v Tt Ts U ND Hq Hv Ne Ot Or) as (h3 & c3 & f3 & T3 & O3). fold T in T3.
      assert (Pm : Permutation ht' h3) by (rewrite <- (so_hps (built_ok _ _ _ _ (tm_built _ _ _ _ TT))); exact (so_hps (built_ok _ _ _ _ (tm_built _ _ _ _ T3)))).
      assert (I : forall h, In h h3 -> In h ht') by (intros h; apply (Permutation_in _ (Permutation_sym Pm))).
      assert (V3 : valid h3 c3 f3 d) by (apply (described T ht' ct' ft' h3 c3 f3 d TT T3 nest_even); [intros h w Hh Hw; apply options_exact, (Op h w Hh Hw)|exact V]).
      cbv zeta. rewrite (density_perm _ d _ _ Pm). apply (C132_density_partial T h3 c3 f3 (fun x => x) c d fuel T3 O3); [| | |intros h w Hh; apply (Op h w (I h Hh))|exact V3].
      - intros Q. rewrite Q in Pm. apply Permutation_sym, Permutation_nil in Pm. exact (proj1 nest_some Pm).
      - intros h Hh. apply nest_even, I, Hh.
      - split; [exact (proj1 Rp)|]. intros h Hh. exact (proj2 Rp h (I h Hh)).
    Qed.

    (** a column gives a configuration with the chance that the target gives its part, times the chance that the source gives its part *)
    Theorem C142_open_partial d c c1 c2 : valid ht' ct' ft' d -> optional ht' d -> under q v d ->
      represents T ht' c d -> represents t ht c1 d -> represents s hs c2 (fun n => d (g n)) -> hs <> [] ->
      (chance (independent (laws T)) (yields T (c_vector c))
       == chance (independent (laws t)) (yields t (c_vector c1)) * chance (independent (laws s)) (yields s (c_vector c2)))%Q.
    Proof.
      intros V Op Un Rp Rp1 Rp2 Nh. destruct (nest_valid d V Op) as (V1 & [(_ & V2)|(N & _)]); [|contradiction].
      destruct (nest_optional d Op) as (Op1 & Op2). destruct nest_some as (N1 & N2).
      rewrite (proj1 (nest_column c d 0 V Op Rp)).
      rewrite (proj1 (C132_density_partial t ht ct ft (fun x => x) c1 d 0 Tt Ot N2 Et Rp1 Op1 V1)).
      rewrite (proj1 (C132_density_partial s hs cs fs (fun x => x) c2 _ 0 Ts Or Nh Es Rp2 Op2 V2)). apply nest_density.
    Qed.
    (** ... and without the parent value with the chance that the target gives it *)
    Theorem C142_closed_partial d c c1 : valid ht' ct' ft' d -> optional ht' d -> ~ under q v d ->
      represents T ht' c d -> represents t ht c1 d ->
      (chance (independent (laws T)) (yields T (c_vector c)) == chance (independent (laws t)) (yields t (c_vector c1)))%Q.
    Proof.
      intros V Op Un Rp Rp1. destruct (nest_valid d V Op) as (V1 & [(N & _)|(_ & N)]); [contradiction|].
      destruct (nest_optional d Op) as (Op1 & Op2). destruct nest_some as (N1 & N2).
      rewrite (proj1 (nest_column c d 0 V Op Rp)).
      rewrite (proj1 (C132_density_partial t ht ct ft (fun x => x) c1 d 0 Tt Ot N2 Et Rp1 Op1 V1)).
      rewrite nest_density, (density_none _ _ hs); [ring|]. intros h Hh. apply N. apply (keys_hs Os). exists h. split; [exact Hh|reflexivity].
    Qed.

    (** sample_configuration() of the result returns configurations that differ in the part of the source only in the proportion in
        which sample_configuration() of the source returns these parts *)
    Theorem C142_sample_partial d d' c c' c2 c2' fuel fuel2 :
      valid ht' ct' ft' d -> optional ht' d -> under q v d -> valid ht' ct' ft' d' -> optional ht' d' ->
      (forall h, In h ht -> d' (hp_name h) = d (hp_name h)) ->
      represents T ht' c d -> represents T ht' c' d' -> represents s hs c2 (fun n => d (g n)) -> represents s hs c2' (fun n => d' (g n)) -> hs <> [] ->
      (0 < chance (independent (laws T)) (accepted T) -> 0 < chance (independent (laws s)) (accepted s) ->
       chance (independent (repeat (independent (laws T)) (fuel * next_size T 1))) (returns T fuel (c_vector c))
       * chance (independent (repeat (independent (laws s)) (fuel2 * next_size s 1))) (returns s fuel2 (c_vector c2'))
       == chance (independent (repeat (independent (laws T)) (fuel * next_size T 1))) (returns T fuel (c_vector c'))
          * chance (independent (repeat (independent (laws s)) (fuel2 * next_size s 1))) (returns s fuel2 (c_vector c2)))%Q.
    Proof.
      intros V Op Un V' Op' Sm Rp Rp' Rp2 Rp2' Nh P1 P2.
      assert (Un' : under q v d') by (destruct Un as (w & Hw & Q); exists w; split; [rewrite (Sm q Hq); exact Hw|exact Q]).
      destruct (nest_valid d V Op) as (_ & [(_ & V2)|(N & _)]); [|contradiction]. destruct (nest_valid d' V' Op') as (_ & [(_ & V2')|(N & _)]); [|contradiction].
      destruct (nest_optional d Op) as (_ & Op2). destruct (nest_optional d' Op') as (_ & Op2'). destruct nest_some as (N1 & _).
      assert (A := proj2 (nest_column c d fuel V Op Rp)).
      assert (A' := proj2 (nest_column c' d' fuel V' Op' Rp')).
      assert (B := proj2 (C132_density_partial s hs cs fs (fun x => x) c2 _ fuel2 Ts Or Nh Es Rp2 Op2 V2)).
      assert (B' := proj2 (C132_density_partial s hs cs fs (fun x => x) c2' _ fuel2 Ts Or Nh Es Rp2' Op2' V2')).
      rewrite nest_density in A, A'. rewrite (density_same _ d' d ht Sm) in A'.
      set (a := chance (independent (laws T)) (accepted T)) in *. set (b := chance (independent (laws s)) (accepted s)) in *.
      set (x := chance _ (returns T fuel (c_vector c))) in *. set (x' := chance _ (returns T fuel (c_vector c'))) in *.
      set (y := chance _ (returns s fuel2 (c_vector c2))) in *. set (y' := chance _ (returns s fuel2 (c_vector c2'))) in *.
      set (k := (1 - qpow (1 - a) _)%Q) in *. set (k2 := (1 - qpow (1 - b) _)%Q) in *.
      set (w := density _ d ht) in *. set (z := density _ (fun n => d (g n)) hs) in *. set (z' := density _ (fun n => d' (g n)) hs) in *.
      clearbody a b x x' y y' k k2 w z z'. apply (Qmult_inj_l _ _ (a * b)); [intros Q; apply Qmult_integral in Q; destruct Q; lra|].
      transitivity ((a * x) * (b * y'))%Q; [ring|]. rewrite A, B'. transitivity ((a * x') * (b * y))%Q; [rewrite A', B; ring|ring].
    Qed.
  End Sampled.
End Nest.

(** ** Example: x, and y that is active when x is 1 and must not be 0, under q = 1 *)
Section Witness.
  Local Existing Instance rat_env.
  Local Existing Instance rat_env_laws.
  Definition not0 (n : string) := get_or dummy_forb (mk_feq (bin n) (VStr "0")).
  Lemma not0_c n : forb_built (not0 n).
  Proof. apply (FB_eq (bin n) (VStr "0") _ (bin_c n)). vm_compute. reflexivity. Qed.

  Definition out_space := fst (add empty_space [bin "q"] [] []).
  Definition in_space := fst (add empty_space [bin "x"; bin "y"] [on "1" "y" "x"] [not0 "y"]).
  Lemma out_built : built out_space [bin "q"] [] [].
  Proof. apply (built_step empty_space [] [] [] [bin "q"] [] [] built_empty); [constructor; [apply bin_c|constructor]|constructor|constructor|vm_compute; reflexivity]. Qed.
  Lemma in_built : built in_space [bin "x"; bin "y"] [on "1" "y" "x"] [not0 "y"].
  Proof.
    apply (built_step empty_space [] [] [] [bin "x"; bin "y"] [on "1" "y" "x"] [not0 "y"] built_empty); [| | |vm_compute; reflexivity].
    - repeat (constructor; [apply bin_c|]). constructor.
    - constructor; [|constructor]. apply (CB_bin OpEq (bin "y") (bin "x") (VStr "1") _ (bin_c _) (bin_c _)). vm_compute. reflexivity.
    - constructor; [apply not0_c|constructor].
  Qed.
  Definition both_space := o_target (add_sub [] out_space in_space "s" ":" (Some (bin "q", VStr "1"))).
  Definition both_hps := [bin "q"; bin "s:x"; bin "s:y"].
  Definition both_conds := [on "1" "s:y" "s:x"; on "1" "s:x" "q"].
  Lemma both_built : built both_space both_hps both_conds [not0 "s:y"].
  Proof.
    assert (B : built (fst (add out_space [bin "s:x"; bin "s:y"] [on "1" "s:y" "s:x"] [not0 "s:y"])) both_hps [on "1" "s:y" "s:x"] [not0 "s:y"]).
    { apply (built_step out_space [bin "q"] [] [] [bin "s:x"; bin "s:y"] [on "1" "s:y" "s:x"] [not0 "s:y"] out_built); [| | |vm_compute; reflexivity].
      - repeat (constructor; [apply bin_c|]). constructor.
      - constructor; [|constructor]. apply (CB_bin OpEq (bin "s:y") (bin "s:x") (VStr "1") _ (bin_c _) (bin_c _)). vm_compute. reflexivity.
      - constructor; [apply not0_c|constructor]. }
    assert (B' := built_step _ _ _ _ [] [on "1" "s:x" "q"] [] B).
    assert (Q : both_space = fst (add (fst (add out_space [bin "s:x"; bin "s:y"] [on "1" "s:y" "s:x"] [not0 "s:y"])) [] [on "1" "s:x" "q"] [])) by (vm_compute; reflexivity).
    rewrite Q. apply B'; [constructor| |constructor|vm_compute; reflexivity].
    constructor; [|constructor]. apply (CB_bin OpEq (bin "s:x") (bin "q") (VStr "1") _ (bin_c _) (bin_c _)). vm_compute. reflexivity.
  Qed.
  Ltac tamed B := constructor; [exact B| | | |];
    [split;
      [intros c Hc l Hl; repeat (destruct Hc as [<-|Hc]; [vm_compute in Hl; repeat (destruct Hl as [<-|Hl]; [split; vm_compute; tauto|]); tauto|]); destruct Hc
      |intros g Hg h Hh; repeat (destruct Hg as [<-|Hg]; [vm_compute in Hh; repeat (destruct Hh as [<-|Hh]; [vm_compute; tauto|]); destruct Hh|]); destruct Hg]
    |intros c d v Hc Hd H; repeat (destruct Hc as [<-|Hc]; [repeat (destruct Hd as [<-|Hd]; [first [reflexivity|vm_compute in H; discriminate H]|]); destruct Hd|]); destruct Hc
    |intros c l w vv Hc Hl Ht; repeat (destruct Hc as [<-|Hc]; [vm_compute in Hl; repeat (destruct Hl as [<-|Hl]; [exfalso; clear -Ht; vm_compute in Ht; discriminate Ht|]); destruct Hl|]); destruct Hc
    |intros g Hg r a b Hr; exfalso; repeat (destruct Hg as [<-|Hg]; [vm_compute in Hr; repeat (destruct Hr as [Hr|Hr]; [discriminate Hr|]); destruct Hr|]); destruct Hg].
  Lemma out_tame : tame out_space [bin "q"] [] [].
  Proof. tamed out_built. Qed.
  Lemma in_tame : tame in_space [bin "x"; bin "y"] [on "1" "y" "x"] [not0 "y"].
  Proof. tamed in_built. Qed.
  Lemma both_tame : tame both_space both_hps both_conds [not0 "s:y"].
  Proof. tamed both_built. Qed.
  Definition both_lev (n : string) : nat := if String.eqb n "s:y" then 3 else if String.eqb n "s:x" then 2 else 1.
  Lemma both_orderly : orderly both_conds.
  Proof.
    apply (C20_guard_levels both_space both_hps both_conds [not0 "s:y"] both_lev both_built).
    - intros c [<-|[<-|[]]]; exact I.
    - intros n. unfold both_lev. destruct (String.eqb n "s:y"); [lia|]. destruct (String.eqb n "s:x"); lia.
    - intros p n (c & [<-|[<-|[]]] & Ha & Hp); vm_compute in Ha; inversion Ha; subst; vm_compute in Hp; destruct Hp as [<-|[]]; reflexivity.
    - intros n H. destruct (string_dec n "s:y") as [->|Hn]; [exists "s:x"%string, (on "1" "s:y" "s:x"); split; [left; reflexivity|split; vm_compute; tauto]|].
      destruct (string_dec n "s:x") as [->|Hm]; [exists "q"%string, (on "1" "s:x" "q"); split; [right; left; reflexivity|split; vm_compute; tauto]|].
      apply String.eqb_neq in Hn, Hm. unfold both_lev in H. rewrite Hn, Hm in H. lia.
  Qed.
  Lemma in_orderly : orderly [on "1" "y" "x"].
  Proof.
    apply (C20_guard_levels in_space [bin "x"; bin "y"] [on "1" "y" "x"] [not0 "y"] (fun n => if String.eqb n "y" then 2 else 1) in_built).
    - intros c [<-|[]]. exact I.
    - intros n. destruct (String.eqb n "y"); lia.
    - intros p n (c & [<-|[]] & Ha & Hp). vm_compute in Ha. inversion Ha; subst. vm_compute in Hp. destruct Hp as [<-|[]]. reflexivity.
    - intros n H. destruct (string_dec n "y") as [->|Hn]; [|apply String.eqb_neq in Hn; rewrite Hn in H; lia]. exists "x"%string, (on "1" "y" "x").
      split; [left; reflexivity|]. split; vm_compute; tauto.
  Qed.
  Definition up_vals : list (string * option value) := [("q", Some (VStr "1")); ("s:x", Some (VStr "0"))]%string.
  Definition deep_vals' : list (string * option value) := [("q", Some (VStr "1")); ("s:x", Some (VStr "1")); ("s:y", Some (VStr "1"))]%string.
  Definition down_vals : list (string * option value) := [("q", Some (VStr "0"))]%string.
  Definition made (s : space) vals := get_or (mk_config [] None false) (config_of_values s vals false).
  Lemma both_case vals c : config_of_values both_space vals false = Ok c ->
    represents both_space both_hps c (store both_hps (given vals)) /\ valid both_hps both_conds [not0 "s:y"] (store both_hps (given vals)).
  Proof.
    intros Hc. assert (O := built_ok _ _ _ _ both_built).
    assert (St := store_stored both_hps (given vals) (so_names_nodup O)).
    assert (Ex : forall d, exact_all both_hps d).
    { intros d h w Hh _. repeat (destruct Hh as [<-|Hh]; [exact I|]). destruct Hh. }
    split; [exact (C20_start _ _ _ _ _ _ _ _ both_built St Hc)|].
    apply (C17_accepts_valid_partial both_space both_hps both_conds [not0 "s:y"] vals _ both_tame St (Ex _)). exists c. exact Hc.
  Qed.

  (** with q = 1, x = 0 has half the probability of q = 1, and x = 1, y = 1 a quarter; in the source they have 1/2 and 1/4; q = 0 has 1/2 *)
  Example C142_ex : tame out_space [bin "q"] [] [] /\ tame in_space [bin "x"; bin "y"] [on "1" "y" "x"] [not0 "y"] /\ distinct_strings in_space /\
    NoDup (map hp_name [bin "q"] ++ map (new_name "s" ":") (map hp_name [bin "x"; bin "y"])) /\ legal_value (bin "q") (VStr "1") = true /\
    orderly [on "1" "y" "x"] /\ tame both_space both_hps both_conds [not0 "s:y"] /\ orderly both_conds /\
    (let d := store both_hps (given deep_vals') in represents both_space both_hps (made both_space deep_vals') d /\
       valid both_hps both_conds [not0 "s:y"] d /\ optional both_hps d /\ under (bin "q") (VStr "1") d) /\
    (let d := store both_hps (given up_vals) in represents both_space both_hps (made both_space up_vals) d /\
       valid both_hps both_conds [not0 "s:y"] d /\ optional both_hps d /\ under (bin "q") (VStr "1") d) /\
    (chance (independent (laws both_space)) (yields both_space (c_vector (made both_space up_vals))) == 1#4)%Q /\
    (chance (independent (laws both_space)) (yields both_space (c_vector (made both_space deep_vals'))) == 1#8)%Q /\
    (chance (independent (laws both_space)) (yields both_space (c_vector (made both_space down_vals))) == 1#2)%Q /\
    (chance (independent (laws in_space)) (yields in_space (c_vector (made in_space [("x", Some (VStr "0"))]%string))) == 1#2)%Q /\
    (chance (independent (laws in_space)) (yields in_space (c_vector (made in_space [("x", Some (VStr "1")); ("y", Some (VStr "1"))]%string))) == 1#4)%Q /\
    (chance (independent (laws both_space)) (accepted both_space) == 7#8)%Q /\ (chance (independent (laws in_space)) (accepted in_space) == 3#4)%Q.
  Proof.
    destruct (both_case deep_vals' (made both_space deep_vals') ltac:(vm_compute; reflexivity)) as (A1 & A2).
    destruct (both_case up_vals (made both_space up_vals) ltac:(vm_compute; reflexivity)) as (B1 & B2).
    split; [exact out_tame|]. split; [exact in_tame|].
    split; [apply (strings_distinct _ _ _ _ in_built); apply nodup_strings; vm_compute; reflexivity|].
    split; [apply nodup_strings; vm_compute; reflexivity|]. split; [vm_compute; reflexivity|].
    split; [exact in_orderly|]. split; [exact both_tame|]. split; [exact both_orderly|].
    assert (Op : forall vals, (forall n w, given vals n = Some w -> w = VStr "0" \/ w = VStr "1") -> optional both_hps (store both_hps (given vals))).
    { intros vals H h w Hh Hw. assert (In w [VStr "0"; VStr "1"]).
      { repeat (destruct Hh as [<-|Hh]; [unfold store in Hw; cbn -[given] in Hw; destruct (given vals _) as [u|] eqn:G; [|discriminate Hw]; injection Hw as <-; destruct (H _ _ G) as [->| ->]; vm_compute; tauto|]). destruct Hh. }
      repeat (destruct Hh as [<-|Hh]; [exact H0|]). destruct Hh. }
    assert (Gv : forall l, forallb (fun e : string * option value => match snd e with Some (VStr "0") | Some (VStr "1") | None => true | _ => false end) l = true ->
      forall n w, given l n = Some w -> w = VStr "0" \/ w = VStr "1").
    { induction l as [|[k o] l IH]; intros H n w; [discriminate|]. cbn [forallb snd] in H. apply andb_prop in H. destruct H as [H1 H2].
      unfold given. cbn [assoc]. destruct (String.eqb n k); [|apply (IH H2 n w)]. intros ->. 
      destruct w as [z| | | |]; try discriminate. destruct (string_dec z "0") as [->|N0]; [left; reflexivity|]. destruct (string_dec z "1") as [->|N1]; [right; reflexivity|].
      exfalso. clear - H1 N0 N1. destruct z as [|[[] [] [] [] [] [] [] []] [|]]; try discriminate; congruence. }
    split. { split; [exact A1|]. split; [exact A2|]. split; [apply Op, Gv; reflexivity|]. exists (VStr "1"). split; vm_compute; reflexivity. }
    split. { split; [exact B1|]. split; [exact B2|]. split; [apply Op, Gv; reflexivity|]. exists (VStr "1"). split; vm_compute; reflexivity. }
    repeat split; vm_compute; reflexivity.
  Qed.
End Witness.
