(** * Properties C11 - C16, C57, C58: evaluating conditions and forbidden clauses *)
From Coq Require Import String List ZArith QArith Bool Lia Permutation.
From Verif Require Import Base ListFacts Numeric HP HPProofs Cond Forb EqFacts Dag DagProofs Space
  CommitProofs Spec SpaceProofs CnodeProofs ForbProofs EvalProofs ForbEval MergeProofs Ex.
Import ListNotations.
Open Scope nat_scope.

Section Eval.
  Context {E : Env} {L : EnvLaws E}.

  (** ** C11 *)
  Theorem C11_value_vector io v d c : cond_built c ->
    (forall l, In l (dlcs c) -> exists w x, assoc (parent_name l) d = Some (Some w) /\
       legal_value (l_parent l) w = true /\ to_vector (l_parent l) w = Ok x /\ fsame (vget io v (parent_name l)) x) ->
    sat_value d c = Ok (sat_vec io v c).
  Proof.
    intros C H. apply cond_built_good in C.
    apply (sat_value_lits d (lit_vec io v) c); [|reflexivity|reflexivity|reflexivity].
    intros l Hl. destruct (H l Hl) as (w & x & Hd & Hw & Hx & F). apply (lit_agree io v d l w); auto.
    - apply (cond_good_lit_in c C l Hl).
    - unfold encodes, parent_name in *. rewrite Hd. eauto.
  Qed.

  (** batches: one column per configuration *)
  Theorem C11_batch io n arr c : (forall row, In row arr -> length row = n) ->
    (forall p, In p (cond_parents c) -> exists i, assoc p io = Some i /\ i < length arr) ->
    length (sat_arr io n arr c) = n /\
    forall j, j < n -> nth j (sat_arr io n arr c) false = sat_vec io (column arr j) c.
  Proof. intros R. apply sat_arr_spec. exact R. Qed.

  (** the common answer is the meaning of the condition: [d] gives every parent the value that the
      vector encodes *)
  Theorem C11_meaning io v d c : cond_built c ->
    (forall l, In l (dlcs c) -> exists w x, d (parent_name l) = Some w /\
       legal_value (l_parent l) w = true /\ to_vector (l_parent l) w = Ok x /\ fsame (vget io v (parent_name l)) x) ->
    (sat_vec io v c = true <-> holds d c).
  Proof.
    intros C H. apply cond_built_good in C. apply sat_vec_holds; [exact C| |].
    - intros l Hl. destruct (H l Hl) as (w & x & Hd & Hw & Hx & F). unfold encodes, parent_name in *. rewrite Hd. eauto.
    - intros l Hl Hn. destruct (H l Hl) as (w & x & Hd & _). unfold parent_name in Hd. congruence.
  Qed.

  (** ** C12 *)
  Theorem C12_value d l : assoc (parent_name l) d = Some None -> sat_value d (CLit l) = Ok false.
  Proof. intros H. simpl. unfold lit_value. rewrite H. reflexivity. Qed.

  (** missing: the operator != (see C12_refuted) *)
  Theorem C12_vector_partial io v l : (forall w vv, l_test l <> TBin OpNe w vv) ->
    vget io v (parent_name l) = NaN -> sat_vec io v (CLit l) = false.
  Proof.
    intros N H. simpl. unfold lit_vec. rewrite H. apply test_vec_nan.
    destruct (l_test l) as [[] w vv|]; try reflexivity. exfalso. eapply N; eauto.
  Qed.
  Theorem C12_batch_partial io n arr l i j : (forall row, In row arr -> length row = n) ->
    assoc (parent_name l) io = Some i -> i < length arr -> j < n ->
    (forall w vv, l_test l <> TBin OpNe w vv) -> nth j (nth i arr []) NaN = NaN ->
    nth j (sat_arr io n arr (CLit l)) false = false.
  Proof.
    intros R Hi Hl Hj N H. destruct (sat_arr_spec io n arr (CLit l) R) as [_ S].
    - intros p [<-|[]]. eauto.
    - rewrite (S j Hj). apply C12_vector_partial; [exact N|]. unfold vget. rewrite Hi, column_nth. exact H.
  Qed.
  (** trees: with some parents inactive and no != on those, the vector answer is still the meaning *)
  Theorem C12_meaning_partial io v d c : cond_built c ->
    (forall l, In l (dlcs c) ->
       match d (parent_name l) with
       | Some w => legal_value (l_parent l) w = true /\ exists x, to_vector (l_parent l) w = Ok x /\ fsame (vget io v (parent_name l)) x
       | None => vget io v (parent_name l) = NaN /\ forall w vv, l_test l <> TBin OpNe w vv
       end) ->
    (sat_vec io v c = true <-> holds d c).
  Proof.
    intros C H. apply cond_built_good in C. apply sat_vec_holds; [exact C| |].
    - intros l Hl. specialize (H l Hl). unfold encodes, parent_name in *. destruct (d (hp_name (l_parent l))); tauto.
    - intros l Hl Hn. specialize (H l Hl). unfold parent_name in H. rewrite Hn in H. destruct H as [_ N].
      destruct (l_test l) as [[] w vv|]; try reflexivity. exfalso. eapply N; eauto.
  Qed.

  (** ** C13 *)
  Theorem C13_once s hs cs fs : built s hs cs fs ->
    NoDup (concat (map cn_children (d_min (s_dag s)))) /\
    (forall n i, assoc n (index_of s) = Some i ->
       (conditional cs n <-> exists cn, In cn (d_min (s_dag s)) /\ In i (cn_children cn))) /\
    (forall cn i, In cn (d_min (s_dag s)) -> In i (cn_children cn) -> exists n, assoc n (index_of s) = Some i).
  Proof.
    intros B. apply built_ok in B. split; [apply (so_handled_nodup B)|]. split.
    - intros n i Hi. rewrite (so_conditional B). apply (so_index B) in Hi. split.
      + intros (c & Hc). assert (Hh : In i (handled (d_min (s_dag s)))) by (apply (so_handled B); eauto).
        unfold handled in Hh. apply in_concat in Hh. destruct Hh as (x & Hx & Hin). apply in_map_iff in Hx.
        destruct Hx as (cn & <- & Hcn). eauto.
      + intros (cn & Hcn & Hin). destruct (so_cnode B cn i Hcn Hin) as (n' & c & Hn' & Hc & _).
        assert (n' = n) by congruence. subst. eauto.
    - intros cn i Hcn Hin. destruct (so_cnode B cn i Hcn Hin) as (n & c & Hn & _). exists n. apply (so_index B). exact Hn.
  Qed.

  (** missing: spaces that mix And and Or conditions, and conjunctions with two equivalent
      components (see C13_refuted) *)
  Theorem C13_merge_partial s hs cs fs : built s hs cs fs -> refs hs cs fs ->
    (forall c, In c cs -> only_and c /\ distinct c) \/ (forall c, In c cs -> only_or c /\ distinct c) ->
    forall cn i n c v, In cn (d_min (s_dag s)) -> In i (cn_children cn) -> assoc n (index_of s) = Some i ->
      In c cs -> activates c n -> sat_vec (index_of s) v (cn_cond cn) = sat_vec (index_of s) v c.
  Proof.
    intros B [R _] G cn i n c v Hcn Hi Hn Hc Ha. apply built_ok in B.
    assert (M : merge_sound (index_of s) cs).
    { destruct G as [G|G]; [apply (so_merge_and s hs cs fs B R G)|apply (so_merge_or s hs cs fs B R G)]. }
    destruct (so_cnode_sat s hs cs fs B R cn i M Hcn Hi) as (n' & Hn' & _ & H).
    apply (so_index B) in Hn. assert (n' = n) by congruence. subst. apply H; assumption.
  Qed.

  (** whatever the conditions: the answer is right as soon as conditions that the library treats as
      equivalent have the same truth value *)
  Theorem C13_merge_sound_partial s hs cs fs : built s hs cs fs -> refs hs cs fs -> merge_sound (index_of s) cs ->
    forall cn i n c v, In cn (d_min (s_dag s)) -> In i (cn_children cn) -> assoc n (index_of s) = Some i ->
      In c cs -> activates c n -> sat_vec (index_of s) v (cn_cond cn) = sat_vec (index_of s) v c.
  Proof.
    intros B [R _] M cn i n c v Hcn Hi Hn Hc Ha. apply built_ok in B.
    destruct (so_cnode_sat s hs cs fs B R cn i M Hcn Hi) as (n' & Hn' & _ & H).
    apply (so_index B) in Hn. assert (n' = n) by congruence. subst. apply H; assumption.
  Qed.

  (** ** C14 *)
  Theorem C14_accepts_iff s hs cs fs v : built s hs cs fs -> refs hs cs fs ->
    (check_forb (index_of s) v (d_fast (s_dag s)) = Ok tt <->
     forall f, In f fs -> forb_vec (index_of s) v f = Ok false).
  Proof. intros B [_ R]. apply built_ok in B. apply (check_fast B (index_of s) v R). Qed.

  Theorem C14_rejects_iff s hs cs fs v : built s hs cs fs -> refs hs cs fs ->
    (forall f, In f fs -> exists b, forb_vec (index_of s) v f = Ok b) ->
    (check_forb (index_of s) v (d_fast (s_dag s)) = Err ForbiddenValueError <->
     exists f, In f fs /\ forb_vec (index_of s) v f = Ok true).
  Proof.
    intros B [_ R] T. apply built_ok in B. split.
    - intros H. apply (check_fast_forbidden B (index_of s) v R H T).
    - intros (f & Hf & Hv).
      destruct (so_fast B R) as (H1 & H2 & H3).
      assert (Tf : forall g, In g (d_fast (s_dag s)) -> exists b, forb_vec (index_of s) v g = Ok b).
      { intros g Hg. destruct (H2 g Hg) as [Hg'|(gs & _ & Hb)]; auto. }
      unfold check_forb. destruct (proj2 (H1 (index_of s) v)) as (g & Hg & Hgv); [exists f; auto|].
      clear -Tf Hg Hgv. induction (d_fast (s_dag s)) as [|x l IH]; [destruct Hg|]. simpl.
      destruct (Tf x (or_introl eq_refl)) as (b & Hb). rewrite Hb. cbn [bind]. destruct b; [reflexivity|].
      destruct Hg as [->|Hg]; [unfold fholds in Hgv; congruence|]. apply IH; auto. intros; apply Tf; right; assumption.
  Qed.

  (** ** C15 *)
  Theorem C15_value_vector_partial io v d f : forb_built f ->
    (forall h, In h (forb_hps f) ->
       match assoc (hp_name h) d with
       | Some w => legal_value h w = true /\ exists x, to_vector h w = Ok x /\ fsame (vget io v (hp_name h)) x
       | None => vget io v (hp_name h) = NaN
       end) ->
    exact_rels (fun n => assoc n d) f ->
    forb_value d f = forb_vec io v f.
  Proof. intros G H X. apply forb_built_good in G. apply forb_agree; assumption. Qed.

  Theorem C15_meaning_partial io v d f : forb_built f ->
    (forall h, In h (forb_hps f) ->
       match d (hp_name h) with
       | Some w => legal_value h w = true /\ exists x, to_vector h w = Ok x /\ fsame (vget io v (hp_name h)) x
       | None => vget io v (hp_name h) = NaN
       end) ->
    exact_rels d f ->
    (forb_vec io v f = Ok true <-> violated d f).
  Proof. intros G H X. apply forb_built_good in G. apply forb_vec_means; assumption. Qed.

  (** batches: the answer for each column; an exception in a batch is one for some column *)
  Theorem C15_batch io n arr f : (forall row, In row arr -> length row = n) ->
    (forall p, In p (forb_names f) -> exists i, assoc p io = Some i /\ i < length arr) ->
    (forall m, forb_arr io n arr f = Ok m ->
       length m = n /\ forall j, j < n -> forb_vec io (column arr j) f = Ok (nth j m false)) /\
    ((forall g, In g (fdlcs f) -> forall j, j < n -> exists b, forb_vec io (column arr j) g = Ok b) ->
     exists m, forb_arr io n arr f = Ok m).
  Proof.
    intros R H. split.
    - intros m. apply forb_arr_spec; assumption.
    - intros T. apply forb_arr_total; assumption.
  Qed.

  (** ** C16 *)
  Theorem C16_vector io v f g h : In g (fdlcs f) -> In h (leaf_hps g) -> vget io v (hp_name h) = NaN ->
    forb_vec io v g = Ok false /\ forb_vec io v f <> Ok true.
  Proof.
    intros Hg Hh Hn. assert (K := leaf_inactive io v g h Hh Hn). split; [exact K|].
    apply (forb_inactive_gen (forb_vec io v) f (forb_vec_and io v) g Hg K).
  Qed.
  Theorem C16_value d f g h : In g (fdlcs f) -> In h (leaf_hps g) -> assoc (hp_name h) d = None ->
    forb_value d g = Ok false /\ forb_value d f <> Ok true.
  Proof.
    intros Hg Hh Hn. assert (K := leaf_inactive_value d g h Hh Hn). split; [exact K|].
    apply (forb_inactive_gen (forb_value d) f (fun cs => eq_refl) g Hg K).
  Qed.
  (** in a batch, and without exceptions the answer is "not violated" *)
  Theorem C16_batch io n arr f g h m j : (forall row, In row arr -> length row = n) ->
    (forall p, In p (forb_names f) -> exists i, assoc p io = Some i /\ i < length arr) ->
    In g (fdlcs f) -> In h (leaf_hps g) -> j < n -> vget io (column arr j) (hp_name h) = NaN ->
    forb_arr io n arr f = Ok m -> nth j m false = false.
  Proof.
    intros R Hp Hg Hh Hj Hn Hm. destruct (forb_arr_spec io n arr f R Hp m Hm) as [_ S].
    destruct (C16_vector io (column arr j) f g h Hg Hh Hn) as [_ K]. rewrite (S j Hj) in K.
    destruct (nth j m false); [exfalso; apply K; reflexivity|reflexivity].
  Qed.

  (** ** C57 *)
  Theorem C57_refl c : cond_built c -> cond_eqb c c = true.
  Proof. intros C. apply cond_eqb_refl, cond_good_wf, cond_built_good, C. Qed.
  Theorem C57_sym c d : cond_built c -> cond_built d -> cond_eqb c d = cond_eqb d c.
  Proof. intros C D. apply cond_eqb_sym; apply cond_good_wf, cond_built_good; assumption. Qed.
  Theorem C57_trans c d e : cond_built c -> cond_built d -> cond_built e ->
    cond_eqb c d = true -> cond_eqb d e = true -> cond_eqb c e = true.
  Proof. intros C D F. apply cond_eqb_trans; apply cond_good_wf, cond_built_good; assumption. Qed.

  (** missing: conditions referring to different but equal hyperparameter objects (see C57_refuted) *)
  Theorem C57_truth_partial hs c d io v : NoDup (map hp_name hs) -> cond_built c -> cond_built d ->
    cond_refs hs c -> cond_refs hs d -> cond_eqb c d = true -> sat_vec io v c = sat_vec io v d.
  Proof. intros ND C D. apply (cond_eqb_vec hs io v c ND d); apply cond_built_good; assumption. Qed.

  (** ** C58 *)

  (** the condition in force for a hyperparameter is one of the declared ones *)
  Definition in_force (s : space) (n : string) (c : cond) : Prop := In c (conds_of s n).

  Lemma so_conditions s hs cs fs (O : space_ok s hs cs fs) x :
    In x (concat (map (fun e => own_conds (snd e)) (d_nodes (s_dag s)))) <-> exists n, in_force s n x.
  Proof.
    unfold in_force. rewrite in_concat. split.
    - intros (l & Hl & Hx). apply in_map_iff in Hl. destruct Hl as ([n nd] & <- & Hin). exists n.
      rewrite (so_conds_of O). unfold condof. rewrite (In_assoc _ _ _ (so_nodup O) Hin). simpl in Hx.
      unfold own_conds in Hx. destruct (n_cond nd); exact Hx.
    - intros (n & Hx). rewrite (so_conds_of O) in Hx. unfold condof in Hx.
      destruct (assoc n (d_nodes (s_dag s))) as [nd|] eqn:En; [|destruct Hx]. apply assoc_In in En.
      exists (own_conds nd). split; [apply in_map_iff; exists (n, nd); auto|]. unfold own_conds. destruct (n_cond nd); exact Hx.
  Qed.

  (** missing: conditions of different hyperparameters with one string representation (see
      C58_refuted); without those, every condition in force is listed *)
  Theorem C58_partial s hs cs fs : built s hs cs fs ->
    (forall c, In c (conditions s) -> exists n, in_force s n c /\ conditional cs n) /\
    NoDup (map cond_str (conditions s)) /\
    (forall n, conditional cs n -> exists c, in_force s n c) /\
    (forall n c, in_force s n c -> exists c', In c' (conditions s) /\ cond_str c' = cond_str c) /\
    ((forall n n' c c', in_force s n c -> in_force s n' c' -> cond_str c = cond_str c' -> c = c') ->
     forall n c, in_force s n c -> In c (conditions s)).
  Proof.
    intros B. apply built_ok in B. unfold conditions. rewrite (cm_conds _ (so_com _ _ _ _ B)).
    assert (Q : forall n c, in_force s n c -> exists c',
       In c' (unique_by cond_str [] (concat (map (fun e => own_conds (snd e)) (d_nodes (s_dag s))))) /\ cond_str c' = cond_str c).
    { intros n c H. destruct (unique_by_covers cond_str (concat (map (fun e => own_conds (snd e)) (d_nodes (s_dag s)))) [] c)
        as [[]|(y & Hy & Hs)]; [apply (so_conditions s hs cs fs B); eauto|]. eauto. }
    split; [|split; [apply unique_by_nodup|split; [|split; [exact Q|]]]].
    - intros c Hc. apply unique_by_incl in Hc. destruct Hc as [Hc _]. apply (so_conditions s hs cs fs B) in Hc.
      destruct Hc as (n & Hn). exists n. split; [exact Hn|]. apply (so_conditional B). unfold in_force in Hn.
      rewrite (so_conds_of B) in Hn. destruct (condof (d_nodes (s_dag s)) n); [eauto|destruct Hn].
    - intros n Hn. apply (so_conditional B) in Hn. destruct Hn as (c & Hc). exists c. unfold in_force.
      rewrite (so_conds_of B), Hc. left. reflexivity.
    - intros U n c Hc. destruct (Q n c Hc) as (c' & Hc' & Hs).
      assert (Hc2 := Hc'). apply unique_by_incl in Hc2. destruct Hc2 as [Hc2 _].
      apply (so_conditions s hs cs fs B) in Hc2. destruct Hc2 as (n' & Hn'). rewrite (U n n' c c' Hc Hn' (eq_sym Hs)). exact Hc'.
  Qed.
End Eval.

Section Witness.
  #[local] Existing Instance rat_env.

  (** ** Refutations *)

  (** b is inactive (its parent a is "y"); the condition b != 1/4 of c holds on the vector *)
  Definition cNe := get_or dummy_cond (mk_bin OpNe hC hB (VFloat (1#4))).
  Lemma cNe_c : cond_built cNe.
  Proof. apply (CB_bin OpNe hC hB (VFloat (1#4)) cNe hC_c hB_c); vm_compute; reflexivity. Qed.
  Definition ne_space := fst (add empty_space [hA; hB; hC] [cB; cNe] []).
  Lemma ne_built : built ne_space [hA; hB; hC] [cB; cNe] [].
  Proof.
    apply (built_step empty_space [] [] [] [hA; hB; hC] [cB; cNe] [] built_empty).
    - repeat (constructor; [first [apply hA_c|apply hB_c|apply hC_c]|]). constructor.
    - constructor; [apply cB_c|constructor; [apply cNe_c|constructor]].
    - constructor.
    - vm_compute. reflexivity.
  Qed.

  Theorem C12_refuted : exists l io v d, cond_built (CLit l) /\ vget io v (parent_name l) = NaN /\
    assoc (parent_name l) d = Some None /\
    sat_vec io v (CLit l) = true /\ sat_value d (CLit l) = Ok false.
  Proof.
    exists (match cNe with CLit l => l | _ => mk_lit dummy_hp dummy_hp (TIn [] []) end), [("b"%string, 0)], [NaN], [("b"%string, None)].
    split; [exact cNe_c|]. repeat split; vm_compute; reflexivity.
  Qed.
  (** what a user sees: a is "y", so b is inactive; c may not be left out and may be given *)
  Theorem C12_refuted_observable : exists s hs cs, built s hs cs [] /\
    (exists c, config_of_values s [("a"%string, Some (VStr "y")); ("c"%string, Some (VInt 1))] false = Ok c) /\
    config_of_values s [("a"%string, Some (VStr "y"))] false = Err ActiveHyperparameterNotSetError.
  Proof.
    exists ne_space, [hA; hB; hC], [cB; cNe]. split; [exact ne_built|]. split; [|vm_compute; reflexivity].
    eexists. vm_compute. reflexivity.
  Qed.

  (** b | a == x and k == 4;  g | a == x or k == 4: one node for both *)
  Definition cB1 := get_or dummy_cond (mk_bin OpEq hB hA (VStr "x")).
  Definition cB2 := get_or dummy_cond (mk_bin OpEq hB hK (VInt 4)).
  Definition cBand := get_or dummy_cond (mk_and [cB1; cB2]).
  Definition cG2 := get_or dummy_cond (mk_bin OpEq hG hK (VInt 4)).
  Definition cGor := get_or dummy_cond (mk_or [cG; cG2]).
  Lemma cBand_c : cond_built cBand.
  Proof.
    apply (CB_and [cB1; cB2] cBand); [|vm_compute; reflexivity]. intros x [<-|[<-|[]]].
    - apply (CB_bin OpEq hB hA (VStr "x") cB1 hB_c hA_c); vm_compute; reflexivity.
    - apply (CB_bin OpEq hB hK (VInt 4) cB2 hB_c hK_c); vm_compute; reflexivity.
  Qed.
  Lemma cGor_c : cond_built cGor.
  Proof.
    apply (CB_or [cG; cG2] cGor); [|vm_compute; reflexivity]. intros x [<-|[<-|[]]].
    - apply cG_c.
    - apply (CB_bin OpEq hG hK (VInt 4) cG2 hG_c hK_c); vm_compute; reflexivity.
  Qed.
  Definition mix_hps := [hA; hK; hB; hG].
  Definition mix_space := fst (add empty_space mix_hps [cBand; cGor] []).
  Lemma mix_built : built mix_space mix_hps [cBand; cGor] [].
  Proof.
    apply (built_step empty_space [] [] [] mix_hps [cBand; cGor] [] built_empty).
    - repeat (constructor; [first [apply hA_c|apply hK_c|apply hB_c|apply hG_c]|]). constructor.
    - constructor; [apply cBand_c|constructor; [apply cGor_c|constructor]].
    - constructor.
    - vm_compute. reflexivity.
  Qed.
  Lemma mix_refs : refs mix_hps [cBand; cGor] [].
  Proof.
    split; [|intros f []]. intros c Hc l Hl. vm_compute in Hc.
    repeat (destruct Hc as [<-|Hc]; [vm_compute in Hl; repeat (destruct Hl as [<-|Hl]; [split; vm_compute; tauto|]); tauto|]).
    tauto.
  Qed.
  Theorem C13_refuted : ~ (forall s hs cs fs cn i n c v, built s hs cs fs -> refs hs cs fs ->
    In cn (d_min (s_dag s)) -> In i (cn_children cn) -> assoc n (index_of s) = Some i ->
    In c cs -> activates c n -> sat_vec (index_of s) v (cn_cond cn) = sat_vec (index_of s) v c).
  Proof.
    intros H.
    specialize (H mix_space mix_hps [cBand; cGor] [] (hd (mk_cnode dummy_cond []) (d_min (s_dag mix_space))) 3 "g"%string cGor
      [Fin 0; Fin 1; NaN; Fin 0] mix_built mix_refs).
    assert (Q : sat_vec (index_of mix_space) [Fin 0; Fin 1; NaN; Fin 0] (cn_cond (hd (mk_cnode dummy_cond []) (d_min (s_dag mix_space)))) =
                sat_vec (index_of mix_space) [Fin 0; Fin 1; NaN; Fin 0] cGor).
    { apply H; try (vm_compute; reflexivity); vm_compute; auto. }
    clear -Q. vm_compute in Q. discriminate Q.
  Qed.
  (** what a user sees: a is "x" and k is not 4, so g is active and b is not; the space refuses this
      configuration and accepts the one without g *)
  Theorem C13_refuted_observable : exists s hs cs, built s hs cs [] /\
    config_of_values s [("a"%string, Some (VStr "x")); ("k"%string, Some (VInt 5)); ("g"%string, Some (VStr "p"))] false
      = Err InactiveHyperparameterSetError /\
    exists c, config_of_values s [("a"%string, Some (VStr "x")); ("k"%string, Some (VInt 5))] false = Ok c.
  Proof.
    exists mix_space, mix_hps, [cBand; cGor]. split; [exact mix_built|]. split; [vm_compute; reflexivity|].
    eexists. vm_compute. reflexivity.
  Qed.

  (** 4.00001 is accepted for an integer hyperparameter, and its vector entry decodes to 4 *)
  Theorem C15_refuted : exists f io v d, forb_built f /\
    (forall h, In h (forb_hps f) -> exists w x, assoc (hp_name h) d = Some w /\ legal_value h w = true /\
       to_vector h w = Ok x /\ fsame (vget io v (hp_name h)) x) /\
    forb_value d f = Ok false /\ forb_vec io v f = Ok true.
  Proof.
    exists (FRel REquals hN hK), [("n"%string, 0); ("k"%string, 1)],
      [get_or NaN (to_vector hN (VFloat (400001#100000))); get_or NaN (to_vector hK (VInt 4))],
      [("n"%string, VFloat (400001#100000)); ("k"%string, VInt 4)].
    split; [apply (FB_rel REquals hN hK _ hN_c hK_c); reflexivity|]. split.
    - intros h [<-|[<-|[]]].
      + exists (VFloat (400001#100000)), (get_or NaN (to_vector hN (VFloat (400001#100000)))). repeat split; vm_compute; reflexivity.
      + exists (VInt 4), (get_or NaN (to_vector hK (VInt 4))). repeat split; vm_compute; reflexivity.
    - split; vm_compute; reflexivity.
  Qed.

  (** categoricals are equal when their sets of choices are; the vector entry of a choice is its
      position *)
  Definition hP1 := get_or dummy_hp (mk_categorical "p" (xs ["x"; "y"]%string) (Some (VStr "x")) None None).
  Definition hP2 := get_or dummy_hp (mk_categorical "p" (xs ["y"; "x"]%string) (Some (VStr "x")) None None).
  Lemma hP1_c : constructed hP1.
  Proof. apply (CtorCat "p" (xs ["x"; "y"]%string) (Some (VStr "x")) None None hP1); vm_compute; reflexivity. Qed.
  Lemma hP2_c : constructed hP2.
  Proof. apply (CtorCat "p" (xs ["y"; "x"]%string) (Some (VStr "x")) None None hP2); vm_compute; reflexivity. Qed.
  Definition cP1 := get_or dummy_cond (mk_bin OpEq hK hP1 (VStr "x")).
  Definition cP2 := get_or dummy_cond (mk_bin OpEq hK hP2 (VStr "x")).
  Lemma cP1_c : cond_built cP1.
  Proof. apply (CB_bin OpEq hK hP1 (VStr "x") cP1 hK_c hP1_c); vm_compute; reflexivity. Qed.
  Lemma cP2_c : cond_built cP2.
  Proof. apply (CB_bin OpEq hK hP2 (VStr "x") cP2 hK_c hP2_c); vm_compute; reflexivity. Qed.

  Theorem C57_refuted : ~ (forall c d io v, cond_built c -> cond_built d -> cond_eqb c d = true ->
    sat_vec io v c = sat_vec io v d).
  Proof.
    intros H. assert (Q := H cP1 cP2 [("p"%string, 0)] [Fin 0] cP1_c cP2_c).
    assert (K : cond_eqb cP1 cP2 = true) by (vm_compute; reflexivity). specialize (Q K).
    clear -Q. vm_compute in Q. discriminate Q.
  Qed.

  (** "m" conditional on "b | c" and "m | b" conditional on "c" read the same.  The second is added
      first, so that it already holds its position in the vector when the text of the other hides it
      (Alias.v); every position stays the same in the second step. *)
  Definition hU n := get_or dummy_hp (mk_uniform_int n 1 3 (Some 1%Q) false None).
  Definition hUa := hU "m"%string. Definition hUbc := hU "b | c"%string.
  Definition hUab := hU "m | b"%string. Definition hUc := hU "c"%string.
  Definition cU1 := get_or dummy_cond (mk_bin OpEq hUa hUbc (VInt 1)).
  Definition cU2 := get_or dummy_cond (mk_bin OpEq hUab hUc (VInt 1)).
  Lemma hU_c n : n = "m"%string \/ n = "b | c"%string \/ n = "m | b"%string \/ n = "c"%string -> constructed (hU n).
  Proof. intros [->|[->|[->| ->]]]; (eapply (CtorUInt _ 1 3 (Some 1%Q) false None); vm_compute; reflexivity). Qed.
  Lemma cU1_c : cond_built cU1.
  Proof. apply (CB_bin OpEq hUa hUbc (VInt 1) cU1); [apply hU_c; tauto|apply hU_c; tauto|vm_compute; reflexivity]. Qed.
  Lemma cU2_c : cond_built cU2.
  Proof. apply (CB_bin OpEq hUab hUc (VInt 1) cU2); [apply hU_c; tauto|apply hU_c; tauto|vm_compute; reflexivity]. Qed.
  Definition u_first := fst (add empty_space [hUa; hUbc; hUab; hUc] [cU2] []).
  Definition u_space := fst (add u_first [] [cU1] []).
  Lemma u_built : built u_space [hUa; hUbc; hUab; hUc] [cU2; cU1] [].
  Proof.
    apply (built_step u_first [hUa; hUbc; hUab; hUc] [cU2] [] [] [cU1] []).
    - apply (built_step empty_space [] [] [] [hUa; hUbc; hUab; hUc] [cU2] [] built_empty).
      + repeat (constructor; [apply hU_c; tauto|]). constructor.
      + constructor; [apply cU2_c|constructor].
      + constructor.
      + vm_compute. reflexivity.
    - constructor.
    - constructor; [apply cU1_c|constructor].
    - constructor.
    - vm_compute. reflexivity.
  Qed.
  Theorem C58_refuted : exists s hs cs, built s hs cs [] /\ length cs = 2 /\
    (forall c, In c cs -> exists n, in_force s n c) /\ length (conditions s) = 1.
  Proof.
    exists u_space, [hUa; hUbc; hUab; hUc], [cU2; cU1]. split; [exact u_built|]. split; [reflexivity|].
    split; [|vm_compute; reflexivity]. intros c [<-|[<-|[]]].
    - exists "m | b"%string. vm_compute. left. reflexivity.
    - exists "m"%string. vm_compute. left. reflexivity.
  Qed.

  (** ** The hypotheses can be met *)
  Definition ex_vals : list (string * option value) :=
    [("a"%string, Some (VStr "x")); ("k"%string, Some (VInt 4)); ("l"%string, Some (VInt 2)); ("n"%string, Some (VInt 6));
     ("o"%string, Some (VStr "hi")); ("b"%string, Some (VFloat (1#2))); ("e"%string, Some (VStr "on"));
     ("g"%string, Some (VStr "p")); ("c"%string, Some (VInt 3))].
  Definition ex_vec : list fval := get_or [] (mapM (fun e => match get_hp ex_space (fst e), snd e with
    | Some h, Some w => to_vector h w | _, _ => Ok NaN end) ex_vals).

  Example C11_ex : sat_value ex_vals cC = Ok true /\ sat_vec (index_of ex_space) ex_vec cC = true.
  Proof.
    assert (H : sat_value ex_vals cC = Ok (sat_vec (index_of ex_space) ex_vec cC)).
    { assert (LA := rat_env_laws). apply C11_value_vector; [exact cC_c|]. intros l Hl. vm_compute in Hl.
      destruct Hl as [<-|[<-|[]]].
      - exists (VFloat (1#2)), (get_or NaN (to_vector hB (VFloat (1#2)))).
        split; [|split; [|split]]; vm_compute; reflexivity.
      - exists (VInt 6), (get_or NaN (to_vector hN (VInt 6))).
        split; [|split; [|split]]; vm_compute; reflexivity. }
    split; [rewrite H|]; vm_compute; reflexivity.
  Qed.
  Example C12_ex : sat_vec [("b"%string, 0)] [NaN] cC1 = false.
  Proof. vm_compute. reflexivity. Qed.
  (** b and g share one node *)
  Example C13_ex : map cn_children (d_min (s_dag ex_space)) = [[5; 7]; [6]; [8]].
  Proof. vm_compute. reflexivity. Qed.
  Example C13_ex_guard : forall c, In c [cB; cC; cG] -> only_and c /\ distinct c.
  Proof.
    intros c Hc. vm_compute in Hc. destruct Hc as [<-|[<-|[<-|[]]]]; (split; [vm_compute; tauto|]); [exact I| |exact I].
    split; [|vm_compute; tauto]. intros i j a b Hij Hi Hj.
    destruct i as [|[|i]]; destruct j as [|[|j]]; simpl in *; try lia; try (destruct i; discriminate); try (destruct j; discriminate).
    inversion Hi; inversion Hj; subst. vm_compute. reflexivity.
  Qed.
  (** the clauses (a == y and n == 1), (a == y and n == 4) are merged *)
  Example C14_ex : length (forbidden_clauses ex_space) = 5 /\ length (d_fast (s_dag ex_space)) = 4 /\
    check_forb (index_of ex_space) ex_vec (d_fast (s_dag ex_space)) = Ok tt /\
    check_forb (index_of ex_space) (set_nth 3 (Fin 0) (set_nth 0 (Fin 1) ex_vec)) (d_fast (s_dag ex_space)) = Err ForbiddenValueError.
  Proof. repeat split; vm_compute; reflexivity. Qed.
  Example C15_ex : forb_value [("n"%string, VInt 3); ("k"%string, VInt 9)] fRel = Ok true /\
    forb_vec (index_of ex_space) (set_nth 3 (get_or NaN (to_vector hN (VInt 3))) (set_nth 1 (get_or NaN (to_vector hK (VInt 9))) ex_vec)) fRel = Ok true /\
    exact_rels (fun n => assoc n [("n"%string, VInt 3); ("k"%string, VInt 9)]) fRel.
  Proof.
    split; [vm_compute; reflexivity|]. split; [vm_compute; reflexivity|].
    intros r a b h w Hr Hh Hw. destruct Hr as [Hr|[]]. inversion Hr; subst. destruct Hh as [->| ->]; vm_compute in Hw; inversion Hw; subst.
    - exists 3%Q, 3%Z. split; reflexivity.
    - exists 9%Q, 9%Z. split; reflexivity.
  Qed.
  Example C16_ex : forb_vec (index_of ex_space) (set_nth 7 NaN ex_vec) fG = Ok false.
  Proof. vm_compute. reflexivity. Qed.
  Example C57_ex : cond_eqb (CAnd [cC1; cC2]) (CAnd [cC2; cC1]) = true.
  Proof. vm_compute. reflexivity. Qed.
  Example C58_ex : length (conditions ex_space) = 4.
  Proof. vm_compute. reflexivity. Qed.
End Witness.
