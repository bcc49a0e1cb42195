(** * Reachable spaces: the invariant kept by successful add() calls *)
From Coq Require Import String List ZArith Bool Lia Permutation Relations Sorting.Sorted.
From Verif Require Import Base ListFacts Numeric HP HPProofs Cond Forb EqFacts Dag DagCycle DagProofs Space.
Import ListNotations.
Open Scope nat_scope.

(** ** Order of the nodes *)
Lemma key_ltb_iff a b : key_ltb a b = true <->
  fst a < fst b \/ (fst a = fst b /\ String.ltb (snd a) (snd b) = true).
Proof. unfold key_ltb. rewrite orb_true_iff, andb_true_iff, Nat.ltb_lt, Nat.eqb_eq. tauto. Qed.
Lemma key_ltb_false a b : key_ltb a b = false <->
  fst b < fst a \/ (fst a = fst b /\ String.ltb (snd a) (snd b) = false).
Proof.
  split.
  - intros H. destruct (lt_eq_lt_dec (fst a) (fst b)) as [[L|L]|L]; [|right|left; exact L].
    + rewrite (proj2 (key_ltb_iff a b) (or_introl L)) in H. discriminate.
    + split; [exact L|]. destruct (String.ltb (snd a) (snd b)) eqn:E; [|reflexivity].
      rewrite (proj2 (key_ltb_iff a b) (or_intror (conj L E))) in H. discriminate.
  - intros H. destruct (key_ltb a b) eqn:E; [|reflexivity]. apply key_ltb_iff in E.
    destruct H as [H|[H1 H2]], E as [E|[E1 E2]]; try lia. congruence.
Qed.
Lemma key_ltb_asym a b : key_ltb a b = true -> key_ltb b a = false.
Proof.
  rewrite key_ltb_iff, key_ltb_false. intros [H|[H1 H2]]; [left; exact H|right].
  split; [lia|apply str_ltb_asym; exact H2].
Qed.
Lemma str_ltb_ntrans a b c : String.ltb b a = false -> String.ltb c b = false -> String.ltb c a = false.
Proof.
  intros H1 H2. destruct (String.ltb c a) eqn:E; [|reflexivity].
  destruct (String.ltb a b) eqn:E1.
  - rewrite (str_ltb_trans _ _ _ E E1) in H2. discriminate.
  - rewrite (str_ltb_total _ _ E1 H1) in E. congruence.
Qed.
Lemma key_ltb_ntrans a b c : key_ltb b a = false -> key_ltb c b = false -> key_ltb c a = false.
Proof.
  rewrite !key_ltb_false. intros [H|[H1 H2]] [G|[G1 G2]]; try (left; lia).
  right. split; [lia|eapply str_ltb_ntrans; eauto].
Qed.
Lemma key_ltb_total a b : key_ltb a b = false -> key_ltb b a = false -> a = b.
Proof.
  rewrite !key_ltb_false. destruct a as [x s], b as [y t]. simpl.
  intros [H|[H1 H2]] [G|[G1 G2]]; try lia. subst. f_equal. apply str_ltb_total; assumption.
Qed.

Lemma sort_nodes_perm ns : Permutation (sort_nodes ns) ns.
Proof. apply py_sorted_perm. Qed.
Lemma sort_nodes_sorted ns : StronglySorted (leR entry_ltb) (sort_nodes ns).
Proof.
  apply py_sorted_sorted.
  - intros a b. apply key_ltb_asym.
  - intros a b c. apply key_ltb_ntrans.
Qed.

(** ** What the constructors of conditions and clauses guarantee *)
Section Built.
  Context {E : Env} {L : EnvLaws E}.

  Lemma mk_and_ok cs c : mk_and cs = Ok c ->
    c = CAnd cs /\ 2 <= length cs /\ all_equal (map l_child (dlcs (CAnd cs))) = true.
  Proof.
    unfold mk_and. intros H. apply if_check in H. destruct H as [H1 H]. apply if_check in H. destruct H as [H2 H].
    apply Nat.leb_le in H1. inversion H. auto.
  Qed.
  Lemma mk_or_ok cs c : mk_or cs = Ok c ->
    c = COr cs /\ 2 <= length cs /\ all_equal (map l_child (dlcs (COr cs))) = true.
  Proof.
    unfold mk_or. intros H. apply if_check in H. destruct H as [H1 H]. apply if_check in H. destruct H as [H2 H].
    apply Nat.leb_le in H1. inversion H. auto.
  Qed.

  (** a literal made by its constructor *)
  Definition lit_built (l : lit) : Prop :=
    constructed (l_child l) /\ constructed (l_parent l) /\ hp_eqb (l_child l) (l_parent l) = false /\
    match l_test l with
    | TBin o v vv => (needs_order o = true -> orderable (l_parent l) = true) /\
                     legal_value (l_parent l) v = true /\ to_vector (l_parent l) v = Ok vv
    | TIn vs vvs => forallb (legal_value (l_parent l)) vs = true /\ mapM (to_vector (l_parent l)) vs = Ok vvs
    end.

  Lemma mk_bin_ok o ch p v c : mk_bin o ch p v = Ok c ->
    exists vv, c = CLit (mk_lit ch p (TBin o v vv)) /\ hp_eqb ch p = false /\
      (needs_order o = true -> orderable p = true) /\ legal_value p v = true /\ to_vector p v = Ok vv.
  Proof.
    unfold mk_bin. intros H. apply if_check in H. destruct H as [H1 H]. apply if_check in H. destruct H as [H2 H].
    apply if_check in H. destruct H as [H3 H]. destruct (to_vector p v) as [vv|]; [|discriminate].
    inversion H. exists vv. split; [reflexivity|]. apply negb_true_iff in H1. split; [exact H1|].
    split; [|auto]. intros Hn. rewrite Hn in H2. exact H2.
  Qed.
  Lemma mk_in_ok ch p vs c : mk_in ch p vs = Ok c ->
    exists vvs, c = CLit (mk_lit ch p (TIn vs vvs)) /\ hp_eqb ch p = false /\
      forallb (legal_value p) vs = true /\ mapM (to_vector p) vs = Ok vvs.
  Proof.
    unfold mk_in. intros H. apply if_check in H. destruct H as [H1 H]. apply if_check in H. destruct H as [H2 H].
    destruct (mapM (to_vector p) vs) as [vvs|]; [|discriminate].
    inversion H. exists vvs. apply negb_true_iff in H1. auto.
  Qed.

  (** the shape of a constructed condition *)
  Inductive cond_good : cond -> Prop :=
  | CG_lit l : lit_built l -> cond_good (CLit l)
  | CG_and cs : (forall x, In x cs -> cond_good x) -> 2 <= length cs -> cond_good (CAnd cs)
  | CG_or cs : (forall x, In x cs -> cond_good x) -> 2 <= length cs -> cond_good (COr cs).

  Lemma cond_built_good c : cond_built c -> cond_good c.
  Proof.
    induction 1 as [o ch p v c Hc Hp H|ch p vs c Hc Hp H|cs c _ IH H|cs c _ IH H].
    - apply mk_bin_ok in H. destruct H as (vv & -> & ? & ? & ? & ?). constructor. unfold lit_built. simpl. auto 10.
    - apply mk_in_ok in H. destruct H as (vv & -> & ? & ? & ?). constructor. unfold lit_built. simpl. auto 10.
    - apply mk_and_ok in H. destruct H as (-> & ? & _). constructor; assumption.
    - apply mk_or_ok in H. destruct H as (-> & ? & _). constructor; assumption.
  Qed.

  Lemma cond_good_lits c : cond_good c -> Forall lit_built (dlcs c) /\ dlcs c <> [].
  Proof.
    assert (G : forall cs, (forall x, In x cs -> Forall lit_built (dlcs x) /\ dlcs x <> []) -> 2 <= length cs ->
                  Forall lit_built (concat (map dlcs cs)) /\ concat (map dlcs cs) <> []).
    { intros cs H Hl. split.
      - apply Forall_forall. intros l Hl'. apply in_concat in Hl'. destruct Hl' as (d & Hd & Hl').
        apply in_map_iff in Hd. destruct Hd as (x & <- & Hx). destruct (H x Hx) as [F _].
        rewrite Forall_forall in F. auto.
      - destruct cs as [|a cs]; [simpl in Hl; lia|]. destruct (H a (or_introl eq_refl)) as [_ Ha].
        simpl. destruct (dlcs a); [congruence|discriminate]. }
    induction 1 as [l Hl|cs _ IH Hl|cs _ IH Hl]; [|apply G; assumption|apply G; assumption].
    simpl. split; [constructor; [exact Hl|constructor]|discriminate].
  Qed.

  Lemma lit_built_wf l : lit_built l -> lit_wf l.
  Proof. intros (A & B & _). split; apply constructed_wf; assumption. Qed.

  Lemma cond_built_wf c : cond_built c -> cond_wf c.
  Proof.
    intros H. apply cond_built_good, cond_good_lits in H. destruct H as [H _]. unfold cond_wf.
    eapply Forall_impl; [|exact H]. apply lit_built_wf.
  Qed.

  Lemma cond_built_child c : cond_built c -> exists n, child_name c = Some n.
  Proof.
    intros H. apply cond_built_good, cond_good_lits in H. destruct H as [_ H].
    apply dlcs_child in H. destruct H as (ch & H). unfold child_name. rewrite H. simpl. eauto.
  Qed.

  (** all literals of a condition have the child of the first one *)
  Lemma cond_built_children c l : cond_built c -> In l (dlcs c) -> child_name c = Some (hp_name (l_child l)).
  Proof.
    intros H Hl. assert (A : forall cs, all_equal (map l_child (concat (map dlcs cs))) = true ->
      In l (concat (map dlcs cs)) -> option_map hp_name (option_map l_child (hd_error (concat (map dlcs cs)))) = Some (hp_name (l_child l))).
    { intros cs. destruct (concat (map dlcs cs)) as [|l0 ls]; [simpl; tauto|]. simpl. intros Ha [->|Hin]; [reflexivity|].
      rewrite forallb_forall in Ha. specialize (Ha (l_child l) (in_map _ _ _ Hin)). apply hp_eqb_name in Ha.
      congruence. }
    destruct H as [o ch p v c Hc Hp H|ch p vs c Hc Hp H|cs c _ H|cs c _ H].
    - apply mk_bin_ok in H. destruct H as (vv & -> & _). destruct Hl as [<-|[]]. reflexivity.
    - apply mk_in_ok in H. destruct H as (vv & -> & _). destruct Hl as [<-|[]]. reflexivity.
    - apply mk_and_ok in H. destruct H as (-> & _ & H). apply A; assumption.
    - apply mk_or_ok in H. destruct H as (-> & _ & H). apply A; assumption.
  Qed.

  (** ** The invariant between operations *)
  Definition node_hps (ns : nodes_t) : list hp := map (fun e => n_hp (snd e)) ns.

  Record dag_inv (d : dag) (hs : list hp) (cs : list cond) (fs : list fclause) : Prop := {
    di_graph : graph_ok (d_nodes d);
    di_hps : Permutation (node_hps (d_nodes d)) hs;
    di_edges : forall p c, edge (d_nodes d) p c <->
        exists cnd, In cnd cs /\ child_name cnd = Some c /\ In p (cond_parents cnd);
    di_cond : forall c cnd, condof (d_nodes d) c = Some cnd -> In cnd cs;
    di_decl : forall c cnd, In cnd cs -> child_name cnd = Some c ->
        exists cnd', condof (d_nodes d) c = Some cnd' /\ cond_eqb cnd' cnd = true;
    di_forb : Permutation (d_forbs d) fs;
    di_fnames : forall f n, In f fs -> In n (forb_names f) -> In n (map fst (d_nodes d));
    di_built : Forall constructed hs /\ Forall cond_built cs /\ Forall forb_built fs
  }.

  Lemma node_keys_hps ns : graph_ok ns -> map fst ns = map hp_name (node_hps ns).
  Proof.
    intros G. unfold node_hps. rewrite map_map. apply map_ext_in. intros [x n] H. simpl.
    symmetry. apply (co_name _ (g_core _ G)). apply In_assoc; [apply G|exact H].
  Qed.

  Lemma node_hps_ext ns ns' : NoDup (map fst ns) -> map fst ns' = map fst ns ->
    (forall y, hpof ns' y = hpof ns y) -> node_hps ns' = node_hps ns.
  Proof.
    intros ND Hk Hh.
    assert (A : forall l, NoDup (map fst l) -> map Some (node_hps l) = map (fun x => hpof l x) (map fst l)).
    { intros l NDl. unfold node_hps. rewrite !map_map. apply map_ext_in. intros [x n] H. simpl.
      unfold hpof. rewrite (In_assoc _ _ _ NDl H). reflexivity. }
    assert (B : map Some (node_hps ns') = map Some (node_hps ns)).
    { rewrite !A by congruence. rewrite Hk. apply map_ext. exact Hh. }
    clear -B. revert B. generalize (node_hps ns'), (node_hps ns). induction l as [|a l IH]; intros [|b m]; simpl; try discriminate; [reflexivity|].
    intros [= -> H]. f_equal. auto.
  Qed.

  Lemma dag_inv_empty : dag_inv empty_dag [] [] [].
  Proof.
    constructor; simpl; try tauto; try discriminate.
    - apply graph_ok_empty.
    - constructor.
    - intros p c. split; [intros []|]. intros (x & [] & _).
    - constructor.
    - auto.
  Qed.

  Lemma dag_add_inv d hs cs fs h d' : dag_inv d hs cs fs -> constructed h ->
    dag_add d h = (d', Ok tt) -> dag_inv d' (hs ++ [h]) cs fs.
  Proof.
    intros I C H. unfold dag_add in H. destruct (assoc_mem (hp_name h) (d_nodes d)) eqn:Em; [discriminate|].
    inversion H; subst; clear H. destruct I. simpl.
    assert (Hn : ~ In (hp_name h) (map fst (d_nodes d))).
    { intros Hn. apply assoc_mem_iff in Hn. congruence. }
    set (ns' := d_nodes d ++ [(hp_name h, mk_node h 1 [] [] None)]).
    assert (Ha : forall x, assoc x ns' = match assoc x (d_nodes d) with Some n => Some n | None =>
                   if String.eqb x (hp_name h) then Some (mk_node h 1 [] [] None) else None end).
    { intros x. unfold ns'. rewrite assoc_app. destruct (assoc x (d_nodes d)); reflexivity. }
    assert (Hcd : forall c, condof ns' c = condof (d_nodes d) c).
    { intros c. unfold condof. rewrite Ha. destruct (assoc c (d_nodes d)); [reflexivity|].
      destruct (String.eqb c (hp_name h)); reflexivity. }
    assert (He : forall x y, edge ns' x y <-> edge (d_nodes d) x y).
    { intros x y. unfold edge, children_names. rewrite Ha. destruct (assoc x (d_nodes d)); [tauto|].
      destruct (String.eqb x (hp_name h)); simpl; tauto. }
    constructor; simpl; fold ns'.
    - apply graph_ok_add; assumption.
    - unfold node_hps, ns'. rewrite map_app. simpl. apply Permutation_app; [exact di_hps0|constructor; constructor].
    - intros p c. rewrite He. apply di_edges0.
    - intros c cnd. rewrite Hcd. apply di_cond0.
    - intros c cnd. rewrite Hcd. apply di_decl0.
    - exact di_forb0.
    - intros f n Hf Hnf. unfold ns'. rewrite map_app, in_app_iff. left. eauto.
    - destruct di_built0 as (A & B & D). split; [apply Forall_app; auto|auto].
  Qed.

  Lemma dag_add_condition_inv d hs cs fs c d' : dag_inv d hs cs fs -> cond_built c ->
    dag_add_condition d c = (d', Ok tt) -> dag_inv d' hs (cs ++ [c]) fs.
  Proof.
    intros I C H. unfold dag_add_condition in H.
    destruct (cond_built_child c C) as (child & Hch).
    pose proof (add_condition_spec (d_nodes d) c child (di_graph _ _ _ _ I) (cond_built_wf c C) Hch) as O.
    destruct (add_condition (d_nodes d) c) as [ns' r]. inversion H; subst; clear H.
    inversion O as [| | | |ns'' Hc Hcompat Hps Hac G Hk Hh Hcd He]; subst. destruct I. simpl in *.
    constructor; simpl.
    - exact G.
    - rewrite (node_hps_ext (d_nodes d) ns'); auto. apply di_graph0.
    - intros p y. rewrite He. unfold plus_edges. rewrite di_edges0. split.
      + intros [(x & Hx & H1 & H2)|[Hp ->]].
        * exists x. rewrite in_app_iff. auto.
        * exists c. rewrite in_app_iff. simpl. auto.
      + intros (x & Hx & H1 & H2). rewrite in_app_iff in Hx. destruct Hx as [Hx|[<-|[]]]; [left; eauto|].
        right. split; [exact H2|congruence].
    - intros y cnd. rewrite Hcd, in_app_iff. destruct (String.eqb y child); [intros [= <-]; simpl; auto|].
      intros Hy. left. eauto.
    - intros y cnd Hin Hy. rewrite Hcd. rewrite in_app_iff in Hin. destruct (String.eqb_spec y child) as [->|Hne].
      + exists c. split; [reflexivity|]. destruct Hin as [Hin|[<-|[]]].
        * destruct (di_decl0 _ _ Hin Hy) as (c' & Hc' & Hq). 
          assert (Hcc := Hcompat c' Hc'). destruct di_built0 as (_ & B & _). rewrite Forall_forall in B.
          eapply cond_eqb_trans; [| | |exact Hcc|exact Hq]; apply cond_built_wf; auto. 
          apply B. eauto.
        * apply cond_eqb_refl, cond_built_wf, C.
      + destruct Hin as [Hin|[<-|[]]]; [eauto|]. congruence.
    - exact di_forb0.
    - intros f n Hf Hn. rewrite Hk. eauto.
    - destruct di_built0 as (A & B & D). split; [exact A|]. split; [apply Forall_app; auto|exact D].
  Qed.

  Lemma dag_add_forbidden_inv d hs cs fs f d' : dag_inv d hs cs fs -> forb_built f ->
    dag_add_forbidden d f = (d', Ok tt) -> dag_inv d' hs cs (fs ++ [f]).
  Proof.
    intros I C H. unfold dag_add_forbidden in H.
    destruct (forallb (fun n => assoc_mem n (d_nodes d)) (forb_names f)) eqn:Ef; [|discriminate].
    assert (P : d_nodes d' = d_nodes d /\ Permutation (d_forbs d') (d_forbs d ++ [f])).
    { destruct (is_unconditional (d_roots d) f); inversion H; subst; unfold d_forbs; simpl; split; try reflexivity.
      - rewrite <- !app_assoc. apply Permutation_app_head. apply Permutation_app_comm.
      - rewrite app_assoc. reflexivity. }
    destruct P as [Hn P]. destruct I. constructor; rewrite ?Hn; auto.
    - rewrite P. apply Permutation_app_tail. exact di_forb0.
    - intros g n Hg Hng. rewrite in_app_iff in Hg. destruct Hg as [Hg|[<-|[]]]; [eauto|].
      rewrite forallb_forall in Ef. apply assoc_mem_iff. auto.
    - destruct di_built0 as (A & B & D). split; [exact A|]. split; [exact B|apply Forall_app; auto].
  Qed.

  Lemma run_inv {A} (f : dag -> A -> dag * res unit) (P : dag -> list A -> Prop) (Q : A -> Prop) :
    (forall d l x d', P d l -> Q x -> f d x = (d', Ok tt) -> P d' (l ++ [x])) ->
    forall l d acc d', P d acc -> Forall Q l -> run f l d = (d', Ok tt) -> P d' (acc ++ l).
  Proof.
    intros Hstep. induction l as [|x l IH]; intros d acc d' HP HQ H; simpl in H.
    - inversion H; subst. rewrite app_nil_r. exact HP.
    - inversion HQ; subst. destruct (f d x) as [d1 [[]|e]] eqn:Ef; [|discriminate].
      replace (acc ++ x :: l) with ((acc ++ [x]) ++ l) by (rewrite <- app_assoc; reflexivity).
      eapply IH; eauto.
  Qed.

  (** ** The caches after a commit, as functions of the nodes and clauses *)
  Definition own_conds (n : node) : list cond := match n_cond n with Some c => [c] | None => [] end.

  Record committed (d : dag) : Prop := {
    cm_sorted : StronglySorted (leR entry_ltb) (d_nodes d);
    cm_at : d_at d = map fst (d_nodes d);
    cm_index : d_index_of d = combine (map fst (d_nodes d)) (seq 0 (length (d_nodes d)));
    cm_hps : d_hps d = node_hps (d_nodes d);
    cm_roots : d_roots d = map fst (filter (fun e => Nat.eqb (n_depth (snd e)) 1) (d_nodes d));
    cm_nonroots : d_nonroots d = map fst (filter (fun e => negb (Nat.eqb (n_depth (snd e)) 1)) (d_nodes d));
    cm_uforb : forall f, In f (d_uforb d) -> is_unconditional (d_roots d) f = true;
    cm_cforb : forall f, In f (d_cforb d) -> is_unconditional (d_roots d) f = false;
    cm_fast : optimized (d_index_of d) (d_forbs d) = Ok (d_fast d);
    cm_flookup : d_flookup d = forbidden_lookup (d_fast d);
    cm_conds : d_conds d = unique_by cond_str [] (concat (map (fun e => own_conds (snd e)) (d_nodes d)));
    cm_children : d_children_of d = map (fun e => (fst e, concat (map (fun c => hp_named (d_nodes d) (fst c))
                                             (n_children (snd e))))) (d_nodes d);
    cm_parents : d_parents_of d = map (fun e => (fst e, concat (map (fun c => hp_named (d_nodes d) (fst c))
                                             (n_parents (snd e))))) (d_nodes d);
    cm_child_conds : d_child_conds_of d = map (fun e => (fst e, map snd (n_children (snd e)))) (d_nodes d);
    cm_parent_conds : d_parent_conds_of d = map (fun e => (fst e, own_conds (snd e))) (d_nodes d);
    cm_min : exists mc, min_conds (d_roots d) 0 (d_nodes d) [] = Ok mc /\ d_min d = sort_cnodes (d_nodes d) mc;
    cm_lookup : change_lookup (d_nodes d) (d_at d) (d_min d) = Ok (d_lookup d);
    cm_defaults : d_defaults d = map default_entry (d_hps d)
  }.

  Lemma filter_split_perm {A} (f : A -> bool) l : Permutation (filter f l ++ filter (fun x => negb (f x)) l) l.
  Proof.
    induction l as [|x l IH]; simpl; [constructor|]. destruct (f x); simpl; [constructor; exact IH|].
    rewrite <- Permutation_middle. constructor. exact IH.
  Qed.

  Lemma commit_spec d d' : commit d = (d', Ok tt) ->
    committed d' /\ d_nodes d' = sort_nodes (d_nodes d) /\ Permutation (d_forbs d') (d_forbs d).
  Proof.
    unfold commit. cbv zeta.
    destruct (optimized _ _) as [fast|e] eqn:Eo; [|discriminate].
    destruct (min_conds _ _ _ _) as [mc|e] eqn:Em; [|discriminate].
    destruct (change_lookup _ _ _) as [lk|e] eqn:El; [|discriminate].
    intros H. inversion H; subst; clear H. simpl.
    split; [constructor; simpl|split; [reflexivity|]].
    - apply sort_nodes_sorted.
    - reflexivity.
    - rewrite map_length. reflexivity.
    - reflexivity.
    - reflexivity.
    - reflexivity.
    - intros f Hf. apply filter_In in Hf. apply Hf.
    - intros f Hf. apply filter_In in Hf. apply negb_true_iff, Hf.
    - unfold d_forbs. simpl. exact Eo.
    - reflexivity.
    - reflexivity.
    - reflexivity.
    - reflexivity.
    - reflexivity.
    - reflexivity.
    - exists mc. auto.
    - exact El.
    - reflexivity.
    - unfold d_forbs at 1. simpl. rewrite filter_split_perm. apply py_sorted_perm.
  Qed.

  Lemma dag_inv_commit d d' hs cs fs : dag_inv d hs cs fs -> commit d = (d', Ok tt) ->
    dag_inv d' hs cs fs /\ committed d'.
  Proof.
    intros I H. apply commit_spec in H. destruct H as (Hc & Hn & Hp). split; [|exact Hc].
    destruct I. assert (P : Permutation (d_nodes d) (d_nodes d')) by (rewrite Hn; symmetry; apply sort_nodes_perm).
    assert (ND := co_nodup _ (g_core _ di_graph0)).
    assert (Ha : forall x, assoc x (d_nodes d') = assoc x (d_nodes d)) by (intros x; symmetry; apply assoc_perm; assumption).
    constructor; auto.
    - eapply graph_ok_perm; eauto.
    - rewrite <- di_hps0. apply Permutation_map. symmetry. exact P.
    - intros p c. rewrite <- di_edges0. unfold edge, children_names. rewrite Ha. tauto.
    - intros c cnd. unfold condof. rewrite Ha. apply di_cond0.
    - intros c cnd. unfold condof. rewrite Ha. apply di_decl0.
    - rewrite Hp. exact di_forb0.
    - intros f n Hf Hnf. eapply Permutation_in; [apply Permutation_map; exact P|]. eauto.
  Qed.

  Lemma dag_update_inv d hs cs fs hs' cs' fs' d' :
    dag_inv d hs cs fs -> Forall constructed hs' -> Forall cond_built cs' -> Forall forb_built fs' ->
    dag_update d hs' cs' fs' = (d', Ok tt) ->
    dag_inv d' (hs ++ hs') (cs ++ cs') (fs ++ fs') /\ committed d'.
  Proof.
    intros I A B C H. unfold dag_update in H.
    destruct (run dag_add hs' d) as [d1 [[]|e]] eqn:E1; [|discriminate].
    destruct (run dag_add_condition cs' d1) as [d2 [[]|e]] eqn:E2; [|discriminate].
    destruct (run dag_add_forbidden fs' d2) as [d3 [[]|e]] eqn:E3; [|discriminate].
    eapply (run_inv dag_add (fun d l => dag_inv d l cs fs)) in E1; [|intros; eapply dag_add_inv; eassumption|exact I|exact A].
    eapply (run_inv dag_add_condition (fun d l => dag_inv d (hs ++ hs') l fs)) in E2;
      [|intros; eapply dag_add_condition_inv; eassumption|exact E1|exact B].
    eapply (run_inv dag_add_forbidden (fun d l => dag_inv d (hs ++ hs') (cs ++ cs') l)) in E3;
      [|intros; eapply dag_add_forbidden_inv; eassumption|exact E2|exact C].
    eapply dag_inv_commit; eauto.
  Qed.
End Built.
