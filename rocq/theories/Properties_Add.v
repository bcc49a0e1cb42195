(** * Property C73: which declarations add() accepts *)
From Coq Require Import String List ZArith QArith Bool Lia Permutation Relations Wf_nat.
From Verif Require Import Base ListFacts Numeric NumericProofs HP HPProofs Properties_HP Cond Forb EqFacts Dag DagCycle DagProofs
  Space CommitProofs Spec SpaceProofs CnodeProofs ForbProofs AddProofs EvalProofs ForbEval MergeProofs ValidProofs ConfigProofs
  ChangeProofs ReadProofs Ex Properties_Graph Properties_Eval Properties_Config Properties_Repair Properties_Raise.
Import ListNotations.
Open Scope nat_scope.

(** every active hyperparameter has its default value, the others have none *)
Definition default_assignment (hs : list hp) (cs : list cond) (d : assignment) : Prop :=
  forall h, In h hs -> (active cs d (hp_name h) /\ d (hp_name h) = Some (hp_default h)) \/
                       (~ active cs d (hp_name h) /\ d (hp_name h) = None).

(** at most one condition for each child *)
Definition one_condition {E : Env} (cs : list cond) : Prop :=
  forall c c' n, In c cs -> In c' cs -> activates c n -> activates c' n -> cond_eqb c c' = true.

Section Add.
  Context {E : Env} {L : EnvLaws E}.

  Lemma refs_child hs c n : cond_refs hs c -> activates c n -> In n (map hp_name hs).
  Proof.
    unfold activates, cond_child. intros R H. destruct (dlcs c) as [|l ls] eqn:El; [discriminate|]. simpl in H. injection H as <-.
    apply in_map. apply (R l). rewrite El. left. reflexivity.
  Qed.
  Lemma refs_parent hs c p : cond_refs hs c -> In p (cond_parents c) -> In p (map hp_name hs).
  Proof. unfold cond_parents. intros R H. apply in_map_iff in H. destruct H as (l & <- & Hl). unfold parent_name. apply in_map. apply (R l Hl). Qed.
  Lemma refs_forb hs f n : forb_refs hs f -> In n (forb_names f) -> In n (map hp_name hs).
  Proof.
    intros R H. unfold forb_names in H. apply in_map_iff in H. destruct H as (h & <- & Hh). apply in_map. apply (R h Hh).
  Qed.

  (** an exception of the update is about the declarations, or it is raised by the commit *)
  Lemma update_err d hs cs fs hs' cs' fs' d' e : dag_inv d hs cs fs ->
    Forall constructed hs' -> Forall cond_built cs' -> Forall forb_built fs' ->
    dag_update d hs' cs' fs' = (d', Err e) ->
    decl_err e = true \/ exists d3, dag_inv d3 (hs ++ hs') (cs ++ cs') (fs ++ fs') /\ commit d3 = (d', Err e).
  Proof.
    intros I0 A1 A2 A3 H. unfold dag_update in H.
    destruct (run dag_add hs' d) as [d1 [[]|e1]] eqn:E1.
    2: { injection H as -> ->. left. destruct (run_err _ _ _ _ _ E1) as (l1 & x & l2 & d2 & -> & R1 & R2).
      unfold dag_add in R2. destruct (assoc_mem _ _); [|discriminate]. injection R2 as _ <-. reflexivity. }
    eapply (run_inv dag_add (fun d l => dag_inv d l cs fs)) in E1; [|intros; eapply dag_add_inv; eassumption|exact I0|exact A1].
    destruct (run dag_add_condition cs' d1) as [d2 [[]|e1]] eqn:E2.
    2: { injection H as -> ->. left. destruct (run_err _ _ _ _ _ E2) as (l1 & x & l2 & d3 & -> & R1 & R2).
      apply Forall_app in A2. destruct A2 as [A2 A2']. inversion A2' as [|? ? Hx _]; subst.
      eapply (run_inv dag_add_condition (fun d l => dag_inv d (hs ++ hs') l fs)) in R1;
        [|intros; eapply dag_add_condition_inv; eassumption|exact E1|exact A2].
      unfold dag_add_condition in R2. destruct (cond_built_child x Hx) as (ch & Hch).
      pose proof (add_condition_spec (d_nodes d3) x ch (di_graph _ _ _ _ R1) (cond_built_wf x Hx) Hch) as AC.
      destruct (add_condition (d_nodes d3) x) as [ns r]. inversion R2; subst; clear R2. inversion AC; subst; reflexivity. }
    eapply (run_inv dag_add_condition (fun d l => dag_inv d (hs ++ hs') l fs)) in E2;
      [|intros; eapply dag_add_condition_inv; eassumption|exact E1|exact A2].
    destruct (run dag_add_forbidden fs' d2) as [d3 [[]|e1]] eqn:E3.
    2: { injection H as -> ->. left. destruct (run_err _ _ _ _ _ E3) as (l1 & x & l2 & d4 & -> & R1 & R2).
      unfold dag_add_forbidden in R2. destruct (forallb _ _); [destruct (is_unconditional _ _); discriminate|].
      injection R2 as _ <-. reflexivity. }
    eapply (run_inv dag_add_forbidden (fun d l => dag_inv d (hs ++ hs') (cs ++ cs') l)) in E3;
      [|intros; eapply dag_add_forbidden_inv; eassumption|exact E2|exact A3].
    right. exists d3. split; [exact E3|exact H].
  Qed.

  (** the declarations are accepted by the DAG *)
  Lemma inv_total s hs cs fs hs' cs' fs' : dag_inv (s_dag s) hs cs fs ->
    Forall constructed hs' -> Forall cond_built cs' -> Forall forb_built fs' ->
    refs (hs ++ hs') (cs ++ cs') (fs ++ fs') -> ~ In (FAnd []) (fs ++ fs') ->
    NoDup (map hp_name (hs ++ hs')) -> one_condition (cs ++ cs') -> no_cycle (cs ++ cs') ->
    exists d, dag_update (s_dag s) hs' cs' fs' = (d, Ok tt).
  Proof.
    intros B A1 A2 A3 [R1 R2] NE ND OC NC.
    destruct (dag_update (s_dag s) hs' cs' fs') as [d [[]|e]] eqn:Eu; [eauto|]. exfalso.
    destruct (update_err _ _ _ _ _ _ _ _ _ B A1 A2 A3 Eu) as [De|(d3 & I & Hc)].
    - assert (Ha : add s hs' cs' fs' = (mk_space d (s_len s), Err e)) by (rewrite add_eq, Eu; reflexivity).
      pose proof (inv_reason _ _ _ _ _ _ _ _ _ B A1 A2 A3 Ha De) as Rs.
      destruct e; try discriminate De; simpl in Rs.
      + contradiction.
      + destruct Rs as (f & n & Hf & Hn & K). apply K. apply (refs_forb _ f n (R2 f Hf) Hn).
      + destruct Rs as (c & n & Hc & Hn & K). apply K. apply (refs_child _ c n (R1 c Hc) Hn).
      + destruct Rs as (c & p & Hc & Hp & K). apply K. apply (refs_parent _ c p (R1 c Hc) Hp).
      + destruct Rs as (c & c' & n & H1 & H2 & H3 & H4 & H5). rewrite (OC c c' n H1 H2 H3 H4) in H5. discriminate.
      + contradiction.
    - destruct (commit_total d3 _ _ _ I R2 NE) as (d' & Hd). congruence.
  Qed.
  Lemma update_total s hs cs fs hs' cs' fs' : built s hs cs fs ->
    Forall constructed hs' -> Forall cond_built cs' -> Forall forb_built fs' ->
    refs (hs ++ hs') (cs ++ cs') (fs ++ fs') -> ~ In (FAnd []) (fs ++ fs') ->
    NoDup (map hp_name (hs ++ hs')) -> one_condition (cs ++ cs') -> no_cycle (cs ++ cs') ->
    exists d, dag_update (s_dag s) hs' cs' fs' = (d, Ok tt).
  Proof. intros B. apply inv_total. exact (so_inv _ _ _ _ (built_ok _ _ _ _ B)). Qed.

  (** there is at most one default assignment *)
  Lemma default_unique s hs cs fs d1 d2 : space_ok s hs cs fs -> (forall c, In c cs -> cond_refs hs c) ->
    default_assignment hs cs d1 -> default_assignment hs cs d2 ->
    forall h, In h hs -> d1 (hp_name h) = d2 (hp_name h).
  Proof.
    intros O R1 P1 P2.
    assert (G : forall k n h, longest cs n k -> In h hs -> hp_name h = n -> d1 n = d2 n).
    { induction k as [k IH] using (well_founded_induction lt_wf). intros n h Lo Hh En.
      assert (Same : active cs d1 n <-> active cs d2 n).
      { assert (Q : forall c, In c cs -> activates c n -> forall l, In l (dlcs c) -> d1 (parent_name l) = d2 (parent_name l)).
        { intros c Hc Ha l Hl. assert (Hp : In (l_parent l) hs) by apply (R1 c Hc l Hl). assert (Rd : reads cs (parent_name l) n).
          { exists c. split; [exact Hc|]. split; [exact Ha|]. unfold cond_parents. apply in_map. exact Hl. }
          assert (Kp : In (parent_name l) (keys s)) by apply (so_reads_keys O _ _ Rd). assert (Lp := so_longest O (parent_name l) Kp).
          apply (IH (depth_of (d_nodes (s_dag s)) (parent_name l))) with (h := l_parent l); [|exact Lp|exact Hp|reflexivity].
          assert (Ch : chain cs n (S (depth_of (d_nodes (s_dag s)) (parent_name l)))) by (apply (chain_more cs (parent_name l)); [apply Lp|exact Rd]).
          apply (proj2 Lo) in Ch. lia. }
        split; intros A c Hc Ha; apply (holds_mono) with (2 := A c Hc Ha); intros l Hl w Hw; exists w; (split; [|apply py_eqb_refl]).
        - rewrite <- (Q c Hc Ha l Hl). exact Hw.
        - rewrite (Q c Hc Ha l Hl). exact Hw. }
      subst n. destruct (P1 h Hh) as [[A ->]|[A ->]], (P2 h Hh) as [[A' ->]|[A' ->]]; tauto. }
    intros h Hh. assert (Kh : In (hp_name h) (keys s)) by (apply (keys_hs O); eauto). apply (G _ _ h (so_longest O _ Kh) Hh eq_refl).
  Qed.

  Lemma default_total s hs cs fs d : space_ok s hs cs fs -> refs hs cs fs -> merge_sound (index_of s) cs -> ne_safe cs ->
    (forall f, In f fs -> comparable f) -> default_assignment hs cs d -> (forall f, In f fs -> ~ violated d f) ->
    exists c, check_default_configuration s = Ok c.
  Proof.
    intros O R M NS Cmp D V. unfold check_default_configuration.
    destruct (default_values_spec O (proj1 R)) as (vals & Hv & Hk & AL & Sp). rewrite Hv. simpl.
    assert (Dd : default_assignment hs cs (given vals)).
    { intros h Hh. destruct (Sp h Hh) as [[A B]|[A B]]; auto. }
    assert (Eq := default_unique s hs cs fs (given vals) d O (proj1 R) Dd D).
    set (d' := store hs (given vals)). assert (St := store_stored hs (given vals) (so_names_nodup O)). fold d' in St.
    assert (Dv : forall h w, In h hs -> given vals (hp_name h) = Some w -> w = hp_default h).
    { intros h w Hh Hw. destruct (Sp h Hh) as [[K _]|[K _]]; congruence. }
    assert (Ex : exact_all hs (given vals)).
    { intros h w Hh Hw. rewrite (Dv h w Hh Hw). apply default_exact, (so_constructed O), Hh. }
    assert (Exd : exact_all hs d').
    { intros h w Hh Hw. rewrite (St h Hh) in Hw. destruct (given vals (hp_name h)) as [w'|] eqn:Ew; [|discriminate].
      inversion Hw; subst. apply round_exact. apply (Ex h w' Hh Ew). }
    assert (Ag : forall h, In h hs -> agree (given vals) d' h).
    { intros h Hh. unfold agree. rewrite (St h Hh). destruct (given vals (hp_name h)) as [w|] eqn:Eg; simpl; [|exact I].
      assert (C := so_constructed O h Hh). split; [|split; [apply (AL h w Hh Eg)|apply round_legal; [exact C|apply (AL h w Hh Eg)]]].
      rewrite (Dv h w Hh Eg). rewrite py_eqb_sym. apply default_rounded. exact C. }
    assert (Act : forall n, active cs (given vals) n <-> active cs d' n) by (intros n; apply (active_agree O); [apply R|exact Ag]).
    assert (F := fill_items O vals).
    destruct (fill s vals (items s) (repeat NaN (s_len s)) []) as [[vec cache]|e] eqn:Ef.
    2: { destruct F as [_ F]. apply F in AL. contradiction. }
    destruct F as [_ F]. assert (En := filled_encodes O vals vec cache d' AL F St).
    destruct (encodes_check O vec d' false R M NS En Exd) as [_ H2].
    exists (mk_config vec (Some cache) false). apply (config_of_values_ok O).
    split; [intros k Kk; right; apply (keys_hs O); rewrite <- Hk; exact Kk|]. split; [exact AL|].
    exists vec, cache. split; [exact Ef|]. split; [exact F|]. split; [|reflexivity].
    assert (Some_iff : forall h, In h hs -> (d' (hp_name h) <> None <-> active cs d' (hp_name h))).
    { intros h Hh. rewrite <- Act. rewrite (St h Hh). destruct (Sp h Hh) as [[-> A]|[-> A]]; simpl; split; auto; congruence || tauto. }
    apply H2; clear H2; [exact Cmp| | |].
    - intros h Hh Ha. apply (Some_iff h Hh). exact Ha.
    - intros _ h Hh Ha. apply (Some_iff h Hh). exact Ha.
    - intros f Hf Hx. apply (V f Hf). revert Hx. apply violated_mono. intros n Hn w Hw.
      assert (Hi := refs_forb hs f n (proj2 R f Hf) Hn). apply in_map_iff in Hi. destruct Hi as (h & <- & Hh).
      rewrite (St h Hh) in Hw. rewrite <- (Eq h Hh). destruct (given vals (hp_name h)) as [u|] eqn:Eu; [|discriminate]. simpl in Hw.
      injection Hw as <-. exists u. split; [reflexivity|]. rewrite (Dv h u Hh Eu). apply default_rounded, (so_constructed O), Hh.
  Qed.

  (** conditions for which merging is harmless, stated on the declarations *)
  Definition mergeable (cs : list cond) : Prop :=
    (forall c, In c cs -> only_and c /\ distinct c) \/ (forall c, In c cs -> only_or c /\ distinct c).

  Lemma mergeable_sound s hs cs fs : space_ok s hs cs fs -> refs hs cs fs -> mergeable cs -> merge_sound (index_of s) cs.
  Proof.
    intros O R [H|H]; [apply (so_merge_and s hs cs fs O); [apply R|exact H]|apply (so_merge_or s hs cs fs O); [apply R|exact H]].
  Qed.

  Lemma default_sound s hs cs fs c : space_ok s hs cs fs -> refs hs cs fs -> merge_sound (index_of s) cs -> ne_safe cs ->
    check_default_configuration s = Ok c ->
    exists d, default_assignment hs cs d /\ forall f, In f fs -> ~ violated d f.
  Proof.
    intros O R M NS H. unfold check_default_configuration in H.
    destruct (default_values_spec O (proj1 R)) as (vals & Hv & Hk & AL & Sp). rewrite Hv in H. simpl in H.
    exists (given vals). split.
    { intros h Hh. destruct (Sp h Hh) as [[A B]|[A B]]; auto. }
    set (d' := store hs (given vals)). assert (St := store_stored hs (given vals) (so_names_nodup O)). fold d' in St.
    assert (Dv : forall h w, In h hs -> given vals (hp_name h) = Some w -> w = hp_default h).
    { intros h w Hh Hw. destruct (Sp h Hh) as [[K _]|[K _]]; congruence. }
    assert (Exd : exact_all hs d').
    { intros h w Hh Hw. rewrite (St h Hh) in Hw. destruct (given vals (hp_name h)) as [w'|] eqn:Ew; [|discriminate].
      inversion Hw; subst. apply round_exact. rewrite (Dv h w' Hh Ew). apply default_exact, (so_constructed O), Hh. }
    apply (config_of_values_ok O) in H. destruct H as (_ & _ & vec & cache & _ & F & Hc & _).
    assert (En := filled_encodes O vals vec cache d' AL F St).
    destruct (encodes_check O vec d' false R M NS En Exd) as [H1 _]. destruct (H1 Hc) as (_ & _ & A3).
    intros f Hf Hx. apply (A3 f Hf). revert Hx. apply violated_mono. intros n Hn w Hw.
    assert (Hi := refs_forb hs f n (proj2 R f Hf) Hn). apply in_map_iff in Hi. destruct Hi as (h & <- & Hh).
    exists (round_value h w). split; [rewrite (St h Hh), Hw; reflexivity|].
    rewrite (Dv h w Hh Hw), py_eqb_sym. apply default_rounded, (so_constructed O), Hh.
  Qed.

  (** ** C73: add() accepts exactly the declarations with different names, one condition per child,
      no cycle, and a default assignment that violates no clause.

      Missing: declarations whose objects are not those of the space (then add() checks names only),
      empty conjunctions of clauses (C73_empty_refuted), and the spaces outside [tame]. *)
  Theorem C73_add_iff_partial s hs cs fs hs' cs' fs' : built s hs cs fs ->
    Forall constructed hs' -> Forall cond_built cs' -> Forall forb_built fs' ->
    refs (hs ++ hs') (cs ++ cs') (fs ++ fs') -> ~ In (FAnd []) (fs ++ fs') ->
    mergeable (cs ++ cs') -> ne_safe (cs ++ cs') -> (forall f, In f (fs ++ fs') -> comparable f) ->
    ((exists s', add s hs' cs' fs' = (s', Ok tt)) <->
     NoDup (map hp_name (hs ++ hs')) /\ one_condition (cs ++ cs') /\ no_cycle (cs ++ cs') /\
     exists d, default_assignment (hs ++ hs') (cs ++ cs') d /\ forall f, In f (fs ++ fs') -> ~ violated d f).
  Proof.
    intros B A1 A2 A3 R NE Mg NS Cmp. split.
    - intros (s' & H). assert (B' := built_add _ _ _ _ _ _ _ _ B A1 A2 A3 H). assert (O := built_ok _ _ _ _ B').
      split; [apply (so_names_nodup O)|]. split; [intros c c' n; apply (C06_one_condition _ _ _ _ c c' n B')|].
      split; [apply (C05_acyclic _ _ _ _ B')|]. destruct (C21_exists _ _ _ _ B') as (c & Hc).
      apply (default_sound s' _ _ _ c O R (mergeable_sound _ _ _ _ O R Mg) NS Hc).
    - intros (ND & OC & NC & d & D & V). destruct (update_total s hs cs fs hs' cs' fs' B A1 A2 A3 R NE ND OC NC) as (d' & Hd).
      assert (O : space_ok (mk_space d' (length (d_nodes d'))) (hs ++ hs') (cs ++ cs') (fs ++ fs')).
      { destruct (dag_update_inv _ _ _ _ _ _ _ _ (so_inv _ _ _ _ (built_ok _ _ _ _ B)) A1 A2 A3 Hd) as [I C]. constructor; auto. }
      rewrite add_eq, Hd. cbv zeta.
      destruct (default_total _ _ _ _ d O R (mergeable_sound _ _ _ _ O R Mg) NS Cmp D V) as (c & ->). eauto.
  Qed.

  (** the same in terms of [merge_sound], for a space that is not built yet *)
  Lemma add_total s hs cs fs hs' cs' fs' d : built s hs cs fs ->
    Forall constructed hs' -> Forall cond_built cs' -> Forall forb_built fs' ->
    refs (hs ++ hs') (cs ++ cs') (fs ++ fs') -> ~ In (FAnd []) (fs ++ fs') ->
    NoDup (map hp_name (hs ++ hs')) -> one_condition (cs ++ cs') -> no_cycle (cs ++ cs') ->
    (forall s', space_ok s' (hs ++ hs') (cs ++ cs') (fs ++ fs') -> merge_sound (index_of s') (cs ++ cs')) ->
    ne_safe (cs ++ cs') -> (forall f, In f (fs ++ fs') -> comparable f) ->
    default_assignment (hs ++ hs') (cs ++ cs') d -> (forall f, In f (fs ++ fs') -> ~ violated d f) ->
    exists s', add s hs' cs' fs' = (s', Ok tt).
  Proof.
    intros B A1 A2 A3 R NE ND OC NC M NS Cmp D V.
    destruct (update_total s hs cs fs hs' cs' fs' B A1 A2 A3 R NE ND OC NC) as (d' & Hd).
    assert (O : space_ok (mk_space d' (length (d_nodes d'))) (hs ++ hs') (cs ++ cs') (fs ++ fs')).
    { destruct (dag_update_inv _ _ _ _ _ _ _ _ (so_inv _ _ _ _ (built_ok _ _ _ _ B)) A1 A2 A3 Hd) as [I C]. constructor; auto. }
    rewrite add_eq, Hd. cbv zeta.
    destruct (default_total _ _ _ _ d O R (M _ O) NS Cmp D V) as (c & ->). eauto.
  Qed.

  (** ... and what it raises otherwise: an exception about the declarations has its reason there; the
      only other one says that the default configuration violates a clause *)
  Theorem C73_raises_partial s hs cs fs hs' cs' fs' s' e : built s hs cs fs ->
    Forall constructed hs' -> Forall cond_built cs' -> Forall forb_built fs' ->
    refs (hs ++ hs') (cs ++ cs') (fs ++ fs') -> ~ In (FAnd []) (fs ++ fs') ->
    mergeable (cs ++ cs') -> ne_safe (cs ++ cs') -> (forall f, In f (fs ++ fs') -> comparable f) ->
    add s hs' cs' fs' = (s', Err e) ->
    (e = HyperparameterAlreadyExistsError /\ ~ NoDup (map hp_name (hs ++ hs'))) \/
    (e = AmbiguousConditionError /\ ~ one_condition (cs ++ cs')) \/
    (e = CyclicDependancyError /\ ~ no_cycle (cs ++ cs')) \/
    (e = ForbiddenValueError /\ NoDup (map hp_name (hs ++ hs')) /\ one_condition (cs ++ cs') /\ no_cycle (cs ++ cs') /\
     exists d f, default_assignment (hs ++ hs') (cs ++ cs') d /\ In f (fs ++ fs') /\ violated d f).
  Proof.
    intros B A1 A2 A3 R NE Mg NS Cmp H. assert (H' := H). rewrite add_eq in H'.
    destruct (dag_update (s_dag s) hs' cs' fs') as [d [[]|e1]] eqn:Eu.
    2: { assert (e1 = e) by congruence. subst e1.
      destruct (update_err _ _ _ _ _ _ _ _ _ (so_inv _ _ _ _ (built_ok _ _ _ _ B)) A1 A2 A3 Eu) as [De|(d3 & I & Hc)].
      - pose proof (add_reason _ _ _ _ _ _ _ _ _ B A1 A2 A3 H De) as Rs. destruct R as [R1 R2].
        destruct e; try discriminate De; simpl in Rs.
        + auto.
        + destruct Rs as (f & n & Hf & Hn & K). exfalso. apply K. apply (refs_forb _ f n (R2 f Hf) Hn).
        + destruct Rs as (c & n & Hc & Hn & K). exfalso. apply K. apply (refs_child _ c n (R1 c Hc) Hn).
        + destruct Rs as (c & p & Hc & Hp & K). exfalso. apply K. apply (refs_parent _ c p (R1 c Hc) Hp).
        + destruct Rs as (c & c' & n & H1 & H2 & H3 & H4 & H5). right. left. split; [reflexivity|]. intros OC.
          rewrite (OC c c' n H1 H2 H3 H4) in H5. discriminate.
        + auto.
      - destruct (commit_total d3 _ _ _ I (proj2 R) NE) as (d' & Hd). congruence. }
    right. right. right. cbv zeta in H'. set (s2 := mk_space d (length (d_nodes d))) in *.
    assert (O : space_ok s2 (hs ++ hs') (cs ++ cs') (fs ++ fs')).
    { destruct (dag_update_inv _ _ _ _ _ _ _ _ (so_inv _ _ _ _ (built_ok _ _ _ _ B)) A1 A2 A3 Eu) as [I C]. constructor; auto. }
    assert (M := mergeable_sound _ _ _ _ O R Mg).
    destruct (check_default_configuration s2) as [c|e1] eqn:Hc; [congruence|]. assert (e1 = e) by congruence. subst e1. clear H'.
    unfold check_default_configuration in Hc.
    destruct (default_values_spec O (proj1 R)) as (vals & Hv & Hk & AL & Sp). rewrite Hv in Hc. simpl in Hc.
    set (d' := store (hs ++ hs') (given vals)). assert (St := store_stored (hs ++ hs') (given vals) (so_names_nodup O)). fold d' in St.
    assert (Dv : forall h w, In h (hs ++ hs') -> given vals (hp_name h) = Some w -> w = hp_default h).
    { intros h w Hh Hw. destruct (Sp h Hh) as [[K _]|[K _]]; congruence. }
    assert (Exd : exact_all (hs ++ hs') d').
    { intros h w Hh Hw. rewrite (St h Hh) in Hw. destruct (given vals (hp_name h)) as [w'|] eqn:Ew; [|discriminate].
      inversion Hw; subst. apply round_exact. rewrite (Dv h w' Hh Ew). apply default_exact, (so_constructed O), Hh. }
    assert (Ag : forall h, In h (hs ++ hs') -> agree (given vals) d' h).
    { intros h Hh. unfold agree. rewrite (St h Hh). destruct (given vals (hp_name h)) as [w|] eqn:Eg; simpl; [|exact I].
      assert (C := so_constructed O h Hh). split; [|split; [apply (AL h w Hh Eg)|apply round_legal; [exact C|apply (AL h w Hh Eg)]]].
      rewrite (Dv h w Hh Eg). rewrite py_eqb_sym. apply default_rounded. exact C. }
    assert (Act : forall n, active (cs ++ cs') (given vals) n <-> active (cs ++ cs') d' n) by (intros n; apply (active_agree O); [apply R|exact Ag]).
    assert (Some_iff : forall h, In h (hs ++ hs') -> (d' (hp_name h) <> None <-> active (cs ++ cs') d' (hp_name h))).
    { intros h Hh. rewrite <- Act. rewrite (St h Hh). destruct (Sp h Hh) as [[-> A]|[-> A]]; simpl; split; auto; congruence || tauto. }
    unfold config_of_values in Hc. assert (Kn := proj2 (known_iff O vals)). rewrite Kn in Hc by
      (intros k Kk; right; apply (keys_hs O); rewrite <- Hk; exact Kk).
    assert (F := fill_items O vals). destruct (fill s2 vals (items s2) (repeat NaN (s_len s2)) []) as [[vec cache]|e1] eqn:Ef.
    2: { destruct F as [_ F]. apply F in AL. contradiction. }
    cbn [bind fst] in Hc. destruct F as [_ F]. assert (En := filled_encodes O vals vec cache d' AL F St).
    destruct (check_configuration s2 vec false) as [[]|e1] eqn:Ec; [discriminate|]. assert (e1 = e) by (cbn [bind] in Hc; congruence). subst e1.
    destruct (check_fault s2 _ _ _ vec d' false e O R M NS Cmp En Exd Ec) as [h Hh Ha Hd|h _ Hh Ha Hd|f _ _ Hf Hx].
    - exfalso. apply (Some_iff h Hh) in Ha. contradiction.
    - exfalso. apply Ha, (Some_iff h Hh). exact Hd.
    - split; [reflexivity|]. split; [apply (so_names_nodup O)|].
      split. { intros c c' n H1 H2 H3 H4. destruct (so_declared O n c H1 H3) as (k & D1 & D2). destruct (so_declared O n c' H2 H4) as (k' & D3 & D4).
        assert (k' = k) by congruence. subst k'. destruct (so_condof_in O _ _ D1) as [Hk' _].
        assert (W : forall x, In x (cs ++ cs') -> cond_wf x) by (intros x Hx'; apply cond_built_wf, (so_cond_built O), Hx').
        apply (cond_eqb_trans c k c'); auto. rewrite cond_eqb_sym; auto. }
      split; [apply (so_no_cycle O)|]. exists (given vals), f. split; [intros g Hg; destruct (Sp g Hg) as [[A Bb]|[A Bb]]; auto|].
      split; [exact Hf|]. revert Hx. apply violated_mono. intros n Hn w Hw.
      assert (Hi := refs_forb _ f n (proj2 R f Hf) Hn). apply in_map_iff in Hi. destruct Hi as (h & <- & Hh).
      rewrite (St h Hh) in Hw. destruct (given vals (hp_name h)) as [u|] eqn:Eu'; [|discriminate]. simpl in Hw.
      injection Hw as <-. exists u. split; [reflexivity|]. rewrite (Dv h u Hh Eu'). apply default_rounded, (so_constructed O), Hh.
  Qed.
End Add.

(** ** Witnesses *)
Section Witness.
  #[local] Existing Instance rat_env.

  (** a conjunction without components: an undocumented exception, although it forbids everything *)
  Theorem C73_empty_refuted : exists hs fs, Forall constructed hs /\ Forall forb_built fs /\ refs hs [] fs /\
    snd (add empty_space hs [] fs) = Err ValueError.
  Proof.
    exists [hA], [FAnd []]. split; [constructor; [apply hA_c|constructor]|]. split.
    { constructor; [|constructor]. apply (FB_and [] (FAnd [])); [intros x []|reflexivity]. }
    split; [|vm_compute; reflexivity]. split; [intros c []|]. intros f [<-|[]] h [].
  Qed.

  Definition and_conds : list cond := [cB; cC; cG].
  Lemma and_conds_c : Forall cond_built and_conds.
  Proof. repeat (constructor; [first [apply cB_c|apply cC_c|apply cG_c]|]). constructor. Qed.
  Lemma and_sub c : In c and_conds -> In c ex_conds.
  Proof. intros [<-|[<-|[<-|[]]]]; simpl; auto. Qed.

  (** the guards of the theorems hold of a space with conditions and clauses *)
  Example C73_case :
    Forall constructed ex_hps /\ Forall cond_built and_conds /\ Forall forb_built ex_forbs /\
    refs ([] ++ ex_hps) ([] ++ and_conds) ([] ++ ex_forbs) /\ ~ In (FAnd []) ([] ++ ex_forbs) /\ mergeable ([] ++ and_conds) /\
    ne_safe ([] ++ and_conds) /\ (forall f, In f ([] ++ ex_forbs) -> comparable f) /\
    snd (add empty_space ex_hps and_conds ex_forbs) = Ok tt.
  Proof.
    split; [exact ex_hps_c|]. split; [exact and_conds_c|]. split; [exact ex_forbs_c|].
    split; [split; [intros c Hc; apply (proj1 ex_refs), and_sub, Hc|apply ex_refs]|].
    split; [intros H; simpl in H; repeat (destruct H as [H|H]; [vm_compute in H; discriminate|]); exact H|].
    split; [left; exact C13_ex_guard|].
    split. { intros c l w vv Hc Hl Ht (c' & Hc' & Ha). apply (ex_ne c l w vv (and_sub c Hc) Hl Ht). exists c'. split; [apply and_sub; exact Hc'|exact Ha]. }
    split; [exact ex_cmp|]. vm_compute. reflexivity.
  Qed.
  (** with a clause that the defaults violate *)
  Definition fDef := get_or dummy_forb (mk_feq hA (VStr "x")).
  Example C73_case_forbidden : snd (add empty_space ex_hps and_conds [fDef]) = Err ForbiddenValueError.
  Proof. vm_compute. reflexivity. Qed.
End Witness.
