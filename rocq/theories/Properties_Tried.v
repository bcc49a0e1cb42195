(** * Property C123: calls of add() that raise, and what follows them

    [built] (Spec.v) lets any number of calls that raise lie between those that succeed, so every
    theorem about a built space is also about a space that was built in spite of some errors.  Here:
    which calls this covers, what they leave, and that the result is that of a space to which just
    the accepted items were added. *)
From Coq Require Import String List ZArith QArith Bool Lia Permutation Sorted Relations.
From Verif Require Import Base ListFacts Numeric HP HPProofs Cond Forb EqFacts Dag DagCycle DagProofs Space
  CommitProofs Spec SpaceProofs CnodeProofs AddProofs Serial Ex Properties_Graph Properties_Config Properties_Serial Properties_Add Properties_Change Properties_Order.
From Verif Require Import Space.
Import ListNotations.
Open Scope nat_scope.

Section Tried.
  Context {E : Env} {L : EnvLaws E}.

  Section State.
    Context {s : space} {hs : list hp} {cs : list cond} {fs : list fclause} (I : dag_inv (s_dag s) hs cs fs).

    Lemma clean_add hs' cs' fs' d : body (s_dag s) hs' cs' fs' = Some d -> clean (snd (add s hs' cs' fs')).
    Proof.
      intros H. rewrite add_eq. unfold body, dag_update in *. destruct (run dag_add hs' (s_dag s)) as [d1 [[]|e]]; [|discriminate].
      destruct (run dag_add_condition cs' d1) as [d2 [[]|e]]; [|discriminate].
      destruct (run dag_add_forbidden fs' d2) as [d3 [[]|e]]; [|discriminate].
      pose proof (clean_commit d3) as C. destruct (commit d3) as [d4 [[]|e]]; [|exact C]. cbv zeta.
      pose proof (clean_default (mk_space d4 (length (d_nodes d4)))) as D. destruct (check_default_configuration _); [apply clean_ok|].
      intros e' [= <-]. apply D. reflexivity.
    Qed.
    (** a condition whose parents are all known or all unknown *)
    Definition whole (hs : list hp) (c : cond) : Prop :=
      (forall p, In p (cond_parents c) -> In p (map hp_name hs)) \/ (forall p, In p (cond_parents c) -> ~ In p (map hp_name hs)).

    Lemma refused_total hs' cs' fs' s' e : Forall constructed hs' -> Forall cond_built cs' -> Forall forb_built fs' ->
      add s hs' cs' fs' = (s', Err e) -> e <> CyclicDependancyError ->
      (e = ParentNotFoundError -> forall c, In c cs' -> whole (hs ++ hs') c) ->
      exists hs2 cs2 fs2, refused s hs cs hs' cs' fs' hs2 cs2 fs2.
    Proof.
      intros A1 A2 A3 H NC NP. destruct (decl_err e) eqn:De.
      2: { exists hs', cs', fs'. apply (R_late s hs cs hs' cs' fs' e); [rewrite H; reflexivity|exact De]. }
      destruct (run dag_add hs' (s_dag s)) as [d1 [[]|e1]] eqn:E1.
      2: { destruct (run_err _ _ _ _ _ E1) as (l1 & x & l2 & d2 & El & R1 & R2). exists l1, [], [].
        rewrite El in A1. apply Forall_app in A1. destruct A1 as [A1 A1'].
        apply (R_name s hs cs hs' cs' fs' l1 x l2); [exact El|apply (clean_add l1 [] [] d2); unfold body; rewrite R1; reflexivity|].
        eapply (run_inv dag_add (fun d l => dag_inv d l cs fs)) in R1; [|intros; eapply dag_add_inv; eassumption|exact I|exact A1].
        unfold dag_add in R2. destruct (assoc_mem (hp_name x) (d_nodes d2)) eqn:Em; [|discriminate].
        apply (inv_keys _ _ _ _ _ R1). apply assoc_mem_iff. exact Em. }
      assert (I1 := E1). eapply (run_inv dag_add (fun d l => dag_inv d l cs fs)) in I1; [|intros; eapply dag_add_inv; eassumption|exact I|exact A1].
      destruct (run dag_add_condition cs' d1) as [d2 [[]|e1]] eqn:E2.
      2: { assert (e1 = e) by (rewrite add_eq in H; unfold dag_update in H; rewrite E1, E2 in H; congruence). subst e1.
        destruct (run_err _ _ _ _ _ E2) as (l1 & x & l2 & d3 & El & R1 & R2). exists hs', l1, [].
        assert (K : clean (snd (add s hs' l1 []))) by (apply (clean_add hs' l1 [] d3); unfold body; rewrite E1, R1; reflexivity).
        assert (A2' := A2). rewrite El in A2'. apply Forall_app in A2'. destruct A2' as [A4 A5]. inversion A5 as [|? ? Hx _]; subst x l.
        eapply (run_inv dag_add_condition (fun d l => dag_inv d (hs ++ hs') l fs)) in R1;
          [|intros; eapply dag_add_condition_inv; eassumption|exact I1|exact A4].
        unfold dag_add_condition in R2. destruct (cond_built_child x0 Hx) as (ch & Hch).
        pose proof (add_condition_spec (d_nodes d3) x0 ch (di_graph _ _ _ _ R1) (cond_built_wf x0 Hx) Hch) as AC.
        destruct (add_condition (d_nodes d3) x0) as [ns r]. assert (r = Err e) by congruence. subst r. clear R2.
        inversion AC as [Hn|c' Hin Hc Hq|ns' p Hin Hc Hp Hn|ns' Hin Hc Hn|]; subst; try congruence.
        - apply (R_child s hs cs hs' _ fs' l1 x0 l2 ch); [reflexivity|exact K|exact Hch|]. rewrite <- (inv_keys _ _ _ _ ch R1). exact Hn.
        - apply (R_ambiguous s hs cs hs' _ fs' l1 x0 l2 c'); [reflexivity|exact K|apply (di_cond _ _ _ _ R1 _ _ Hc)| |exact Hq].
          transitivity (Some ch); [exact Hch|]. symmetry. apply (g_child _ (di_graph _ _ _ _ R1) _ _ Hc).
        - apply (R_parents s hs cs hs' _ fs' l1 x0 l2); [reflexivity|exact K|].
          destruct (NP eq_refl x0) as [W|W]; [apply in_or_app; right; left; reflexivity| |exact W].
          exfalso. apply Hn. apply (inv_keys _ _ _ _ p R1). apply W. exact Hp. }
      assert (I2 := E2). eapply (run_inv dag_add_condition (fun d l => dag_inv d (hs ++ hs') l fs)) in I2;
        [|intros; eapply dag_add_condition_inv; eassumption|exact I1|exact A2].
      destruct (run dag_add_forbidden fs' d2) as [d3 [[]|e1]] eqn:E3.
      2: { destruct (run_err _ _ _ _ _ E3) as (l1 & x & l2 & d4 & El & R1 & R2). exists hs', cs', l1.
        assert (K : clean (snd (add s hs' cs' l1))) by (apply (clean_add hs' cs' l1 d4); unfold body; rewrite E1, E2, R1; reflexivity).
        rewrite El in A3. apply Forall_app in A3. destruct A3 as [A3 _].
        eapply (run_inv dag_add_forbidden (fun d l => dag_inv d (hs ++ hs') (cs ++ cs') l)) in R1;
          [|intros; eapply dag_add_forbidden_inv; eassumption|exact I2|exact A3].
        unfold dag_add_forbidden in R2.
        destruct (forallb (fun n => assoc_mem n (d_nodes d4)) (forb_names x)) eqn:Ef; [destruct (is_unconditional _ _); discriminate|].
        assert (Q : exists n, In n (forb_names x) /\ assoc_mem n (d_nodes d4) = false).
        { clear -Ef. induction (forb_names x) as [|n l IH]; [discriminate|]. simpl in Ef. apply andb_false_iff in Ef. destruct Ef as [Ef|Ef].
          - exists n. split; [left; reflexivity|exact Ef].
          - destruct (IH Ef) as (m & Hm & Hf). exists m. split; [right; exact Hm|exact Hf]. }
        destruct Q as (n & Hn & Hf). apply (R_clause s hs cs hs' cs' fs' l1 x l2 n); [exact El|exact K|exact Hn|].
        rewrite <- (inv_keys _ _ _ _ n R1). intros Hk. apply assoc_mem_iff in Hk. congruence. }
      exfalso. assert (K : clean (snd (add s hs' cs' fs'))) by (apply (clean_add hs' cs' fs' d3); unfold body; rewrite E1, E2, E3; reflexivity).
      rewrite H in K. specialize (K e eq_refl). congruence.
    Qed.
  End State.

  (** ** C123 *)

  (** what is called refused raises *)
  Theorem C123_raises s hs cs fs s1 hs1 cs1 fs1 hs' cs' fs' hs2 cs2 fs2 : built s hs cs fs -> tried s hs cs fs s1 hs1 cs1 fs1 ->
    Forall constructed hs' -> Forall cond_built cs' -> Forall forb_built fs' ->
    refused s1 hs1 cs1 hs' cs' fs' hs2 cs2 fs2 -> exists e, snd (add s1 hs' cs' fs') = Err e.
  Proof. intros B T A1 A2 A3 R. apply (refused_inv (tried_inv _ _ _ _ _ _ _ _ T (so_inv _ _ _ _ (built_ok _ _ _ _ B))) _ _ _ _ _ _ A1 A2 A3 R). Qed.

  (** every call that raises is, unless it raises because of a cycle, or because some but not all
      parents of a condition are unknown *)
  Theorem C123_covers s hs cs fs s1 hs1 cs1 fs1 hs' cs' fs' s' e : built s hs cs fs -> tried s hs cs fs s1 hs1 cs1 fs1 ->
    Forall constructed hs' -> Forall cond_built cs' -> Forall forb_built fs' ->
    add s1 hs' cs' fs' = (s', Err e) -> e <> CyclicDependancyError ->
    (e = ParentNotFoundError -> forall c, In c cs' -> whole (hs1 ++ hs') c) ->
    exists hs2 cs2 fs2, tried s hs cs fs s' (hs1 ++ hs2) (cs1 ++ cs2) (fs1 ++ fs2).
  Proof.
    intros B T A1 A2 A3 H NC NP.
    destruct (refused_total (tried_inv _ _ _ _ _ _ _ _ T (so_inv _ _ _ _ (built_ok _ _ _ _ B))) hs' cs' fs' s' e A1 A2 A3 H NC NP) as (hs2 & cs2 & fs2 & R).
    exists hs2, cs2, fs2. replace s' with (fst (add s1 hs' cs' fs')) by (rewrite H; reflexivity). econstructor; eauto.
  Qed.

  (** the hyperparameters and clauses that such calls leave in the space *)
  Theorem C123_stays s hs cs fs s1 hs1 cs1 fs1 : built s hs cs fs -> tried s hs cs fs s1 hs1 cs1 fs1 ->
    (forall n, In n (keys s1) <-> In n (map hp_name hs1)) /\ (forall h, In h hs1 -> get_hp s1 (hp_name h) = Some h) /\
    Permutation (forbidden_clauses s1) fs1.
  Proof.
    intros B T. assert (I := tried_inv _ _ _ _ _ _ _ _ T (so_inv _ _ _ _ (built_ok _ _ _ _ B))).
    split; [intros n; exact (inv_keys _ _ _ _ n I)|]. split; [|exact (di_forb _ _ _ _ I)].
    intros h Hh. assert (Hi : In h (map (fun e => n_hp (snd e)) (d_nodes (s_dag s1)))).
    { eapply Permutation_in; [symmetry; exact (di_hps _ _ _ _ I)|exact Hh]. }
    apply in_map_iff in Hi. destruct Hi as ([n nd] & Hn & Hi). simpl in Hn.
    assert (A := In_assoc _ _ _ (co_nodup _ (g_core _ (di_graph _ _ _ _ I))) Hi).
    assert (K : hp_name (n_hp nd) = n) by (eapply co_name; [exact (g_core _ (di_graph _ _ _ _ I))|exact A]).
    unfold get_hp. rewrite <- Hn, K, A. reflexivity.
  Qed.

  (** what the next call of add() accepts: the same as if the accepted items had been added without
      the others (see C73) *)
  Theorem C123_next_partial s hs cs fs s1 hs1 cs1 fs1 hs' cs' fs' : built s hs cs fs -> tried s hs cs fs s1 hs1 cs1 fs1 ->
    Forall constructed hs' -> Forall cond_built cs' -> Forall forb_built fs' ->
    refs (hs1 ++ hs') (cs1 ++ cs') (fs1 ++ fs') -> ~ In (FAnd []) (fs1 ++ fs') ->
    mergeable (cs1 ++ cs') -> ne_safe (cs1 ++ cs') -> (forall f, In f (fs1 ++ fs') -> comparable f) ->
    ((exists s', add s1 hs' cs' fs' = (s', Ok tt)) <->
     NoDup (map hp_name (hs1 ++ hs')) /\ Properties_Add.one_condition (cs1 ++ cs') /\ no_cycle (cs1 ++ cs') /\
     exists d, default_assignment (hs1 ++ hs') (cs1 ++ cs') d /\ forall f, In f (fs1 ++ fs') -> ~ violated d f).
  Proof.
    intros B T A1 A2 A3 R NE Mg NS Cmp. assert (I := tried_inv _ _ _ _ _ _ _ _ T (so_inv _ _ _ _ (built_ok _ _ _ _ B))). split.
    - intros (s' & H). assert (B' := built_after _ _ _ _ _ _ _ _ _ _ _ _ B T A1 A2 A3 H). assert (O := built_ok _ _ _ _ B').
      split; [apply (so_names_nodup O)|]. split; [intros c c' n; apply (C06_one_condition _ _ _ _ c c' n B')|].
      split; [apply (C05_acyclic _ _ _ _ B')|]. destruct (C21_exists _ _ _ _ B') as (c & Hc).
      apply (default_sound s' _ _ _ c O R (mergeable_sound _ _ _ _ O R Mg) NS Hc).
    - intros (ND & OC & NC & d & D & V). destruct (inv_total s1 hs1 cs1 fs1 hs' cs' fs' I A1 A2 A3 R NE ND OC NC) as (d' & Hd).
      assert (O : space_ok (mk_space d' (length (d_nodes d'))) (hs1 ++ hs') (cs1 ++ cs') (fs1 ++ fs')).
      { destruct (dag_update_inv _ _ _ _ _ _ _ _ I A1 A2 A3 Hd) as [I' C]. constructor; auto. }
      rewrite add_eq, Hd. cbv zeta.
      destruct (default_total _ _ _ _ d O R (mergeable_sound _ _ _ _ O R Mg) NS Cmp D V) as (c & ->). eauto.
  Qed.

  (** after the next call that succeeds, all results are those of a space to which the accepted items
      were added at once *)
  Theorem C123_same_partial s hs cs fs s1 hs1 cs1 fs1 hs' cs' fs' s2 : built s hs cs fs -> tried s hs cs fs s1 hs1 cs1 fs1 ->
    Forall constructed hs' -> Forall cond_built cs' -> Forall forb_built fs' -> add s1 hs' cs' fs' = (s2, Ok tt) ->
    refs (hs1 ++ hs') (cs1 ++ cs') (fs1 ++ fs') -> ~ In (FAnd []) (fs1 ++ fs') ->
    one_condition (cs1 ++ cs') -> told_apart (fs1 ++ fs') ->
    exists t, add empty_space (hs1 ++ hs') (cs1 ++ cs') (fs1 ++ fs') = (t, Ok tt) /\ same_results s2 t.
  Proof.
    intros B T A1 A2 A3 H R NE One Ta. assert (B2 := built_after _ _ _ _ _ _ _ _ _ _ _ _ B T A1 A2 A3 H).
    assert (O := built_ok _ _ _ _ B2). destruct (di_built _ _ _ _ (so_inv _ _ _ _ O)) as (K1 & K2 & K3).
    assert (I0 := dag_inv_empty). change empty_dag with (s_dag empty_space) in I0.
    destruct (inv_total empty_space [] [] [] (hs1 ++ hs') (cs1 ++ cs') (fs1 ++ fs') I0 K1 K2 K3 R NE) as (d & Hd).
    - apply (so_names_nodup O).
    - intros c c' n. apply (C06_one_condition _ _ _ _ c c' n B2).
    - apply (C05_acyclic _ _ _ _ B2).
    - set (t := mk_space d (length (d_nodes d))).
      assert (Ot : space_ok t (hs1 ++ hs') (cs1 ++ cs') (fs1 ++ fs')).
      { destruct (dag_update_inv _ _ _ _ _ _ _ _ I0 K1 K2 K3 Hd) as [I' C]. constructor; auto. }
      assert (St : settled t (hs1 ++ hs') (cs1 ++ cs') (fs1 ++ fs')).
      { split; [exact Ot|]. apply update_body in Hd. destruct Hd as (d3 & _ & Hc). apply commit_forbs in Hc. unfold t. simpl. destruct Hc as [-> ->].
        split; apply py_sorted_sorted; (exact forb_ltb_asym || exact forb_ltb_ntrans). }
      assert (Q : same_results s2 t).
      { apply bare_results. apply (bare_alike _ _ _ _ _ _ _ _ (built_settled _ _ _ _ B2) St); auto. }
      exists t. split; [|exact Q]. rewrite add_eq, Hd. cbv zeta. fold t. destruct (C21_exists _ _ _ _ B2) as (c & Hc).
      assert (Dt := sr_default _ _ Q). unfold get_default_configuration in *. rewrite Hc in Dt. rewrite <- Dt. reflexivity.
  Qed.
End Tried.

(** ** Witnesses *)
Section Witness.
  #[local] Existing Instance rat_env.
  #[local] Existing Instance rat_env_laws.

  Definition forbid (n w : string) : fclause := get_or dummy_forb (mk_feq (bin n) (VStr w)).
  Lemma forbid_c n w : mk_feq (bin n) (VStr w) = Ok (forbid n w) -> forb_built (forbid n w).
  Proof. intros H. exact (FB_eq (bin n) (VStr w) (forbid n w) (bin_c n) H). Qed.

  Definition start := fst (add empty_space [bin "p"; bin "q"] [] []).
  Lemma start_b : built start [bin "p"; bin "q"] [] [].
  Proof.
    exact (built_step empty_space [] [] [] [bin "p"; bin "q"] [] [] built_empty
      (Forall_cons _ (bin_c "p") (Forall_cons _ (bin_c "q") (Forall_nil _))) (Forall_nil _) (Forall_nil _) ltac:(vm_compute; reflexivity)).
  Qed.

  Lemma try_step s hs cs fs s1 hs1 cs1 fs1 hs' cs' fs' hs2 cs2 fs2 s2 hs3 cs3 fs3 : tried s hs cs fs s1 hs1 cs1 fs1 ->
    s2 = fst (add s1 hs' cs' fs') -> hs3 = hs1 ++ hs2 -> cs3 = cs1 ++ cs2 -> fs3 = fs1 ++ fs2 ->
    Forall constructed hs' -> Forall cond_built cs' -> Forall forb_built fs' -> refused s1 hs1 cs1 hs' cs' fs' hs2 cs2 fs2 ->
    tried s hs cs fs s2 hs3 cs3 fs3.
  Proof. intros T -> -> -> -> A1 A2 A3 R. econstructor; eauto. Qed.

  (** Five calls: an existing name after a new one, an unknown child after a good condition, an unknown
      name after a good clause, a clause that forbids the default configuration, and one that succeeds.
      (Its condition makes the forbidden default inactive.) *)
  Definition try1 := fst (add start [bin "b"; bin "p"] [] []).
  Definition try2 := fst (add try1 [] [on "1" "b" "p"; on "1" "z" "p"] []).
  Definition try3 := fst (add try2 [] [] [forbid "q" "0"; forbid "z" "0"]).
  Definition try4 := fst (add try3 [] [] [forbid "p" "1"]).
  Definition final := fst (add try4 [] [on "0" "p" "q"] []).
  Example C123_ex :
    snd (add start [bin "b"; bin "p"] [] []) = Err HyperparameterAlreadyExistsError /\
    snd (add try1 [] [on "1" "b" "p"; on "1" "z" "p"] []) = Err ChildNotFoundError /\
    snd (add try2 [] [] [forbid "q" "0"; forbid "z" "0"]) = Err HyperparameterNotFoundError /\
    snd (add try3 [] [] [forbid "p" "1"]) = Err ForbiddenValueError /\
    tried start [bin "p"; bin "q"] [] [] try4 [bin "p"; bin "q"; bin "b"] [on "1" "b" "p"] [forbid "q" "0"; forbid "p" "1"] /\
    built final [bin "p"; bin "q"; bin "b"] [on "1" "b" "p"; on "0" "p" "q"] [forbid "q" "0"; forbid "p" "1"] /\
    keys final = ["q"; "p"; "b"]%string /\
    exists t, add empty_space [bin "p"; bin "q"; bin "b"] [on "1" "b" "p"; on "0" "p" "q"] [forbid "q" "0"; forbid "p" "1"] = (t, Ok tt) /\
      same_results final t.
  Proof.
    assert (E1 : snd (add start [bin "b"; bin "p"] [] []) = Err HyperparameterAlreadyExistsError) by (vm_compute; reflexivity).
    assert (E2 : snd (add try1 [] [on "1" "b" "p"; on "1" "z" "p"] []) = Err ChildNotFoundError) by (vm_compute; reflexivity).
    assert (E3 : snd (add try2 [] [] [forbid "q" "0"; forbid "z" "0"]) = Err HyperparameterNotFoundError) by (vm_compute; reflexivity).
    assert (E4 : snd (add try3 [] [] [forbid "p" "1"]) = Err ForbiddenValueError) by (vm_compute; reflexivity).
    assert (E5 : snd (add try4 [] [on "0" "p" "q"] []) = Ok tt) by (vm_compute; reflexivity).
    assert (C : forall w c p, mk_bin OpEq (bin c) (bin p) (VStr w) = Ok (on w c p) -> cond_built (on w c p)).
    { intros w c p H. exact (CB_bin OpEq (bin c) (bin p) (VStr w) (on w c p) (bin_c c) (bin_c p) H). }
    assert (K : forall s hs cs fs, add s hs cs fs = (fst (add s hs cs fs), snd (add s hs cs fs))) by (intros; apply surjective_pairing).
    assert (T1 : tried start [bin "p"; bin "q"] [] [] try1 [bin "p"; bin "q"; bin "b"] [] []).
    { apply (try_step _ _ _ _ start [bin "p"; bin "q"] [] [] [bin "b"; bin "p"] [] [] [bin "b"] [] []); [apply tried_none|reflexivity|reflexivity|reflexivity|reflexivity| | | |].
      - exact (Forall_cons _ (bin_c "b") (Forall_cons _ (bin_c "p") (Forall_nil _))).
      - exact (Forall_nil _).
      - exact (Forall_nil _).
      - apply (R_name _ _ _ _ _ _ [bin "b"] (bin "p") []); [reflexivity| |left; reflexivity].
        assert (Q : snd (add start [bin "b"] [] []) = Ok tt) by (vm_compute; reflexivity). rewrite Q. intros e H. discriminate H. }
    assert (T2 : tried start [bin "p"; bin "q"] [] [] try2 [bin "p"; bin "q"; bin "b"] [on "1" "b" "p"] []).
    { apply (try_step _ _ _ _ try1 [bin "p"; bin "q"; bin "b"] [] [] [] [on "1" "b" "p"; on "1" "z" "p"] [] [] [on "1" "b" "p"] []); [exact T1|reflexivity|reflexivity|reflexivity|reflexivity| | | |].
      - exact (Forall_nil _).
      - apply Forall_cons; [apply C; vm_compute; reflexivity|]. apply Forall_cons; [apply C; vm_compute; reflexivity|apply Forall_nil].
      - exact (Forall_nil _).
      - apply (R_child _ _ _ _ _ _ [on "1" "b" "p"] (on "1" "z" "p") [] "z"%string); [reflexivity| |vm_compute; reflexivity|].
        + assert (Q : snd (add try1 [] [on "1" "b" "p"] []) = Ok tt) by (vm_compute; reflexivity). rewrite Q. intros e H. discriminate H.
        + intros H. vm_compute in H. destruct H as [H|[H|[H|[]]]]; discriminate H. }
    assert (T3 : tried start [bin "p"; bin "q"] [] [] try3 [bin "p"; bin "q"; bin "b"] [on "1" "b" "p"] [forbid "q" "0"]).
    { apply (try_step _ _ _ _ try2 [bin "p"; bin "q"; bin "b"] [on "1" "b" "p"] [] [] [] [forbid "q" "0"; forbid "z" "0"] [] [] [forbid "q" "0"]); [exact T2|reflexivity|reflexivity|reflexivity|reflexivity| | | |].
      - exact (Forall_nil _).
      - exact (Forall_nil _).
      - apply Forall_cons; [apply forbid_c; vm_compute; reflexivity|]. apply Forall_cons; [apply forbid_c; vm_compute; reflexivity|apply Forall_nil].
      - apply (R_clause _ _ _ _ _ _ [forbid "q" "0"] (forbid "z" "0") [] "z"%string); [reflexivity| |left; reflexivity|].
        + assert (Q : snd (add try2 [] [] [forbid "q" "0"]) = Ok tt) by (vm_compute; reflexivity). rewrite Q. intros e H. discriminate H.
        + intros H. vm_compute in H. destruct H as [H|[H|[H|[]]]]; discriminate H. }
    assert (T4 : tried start [bin "p"; bin "q"] [] [] try4 [bin "p"; bin "q"; bin "b"] [on "1" "b" "p"] [forbid "q" "0"; forbid "p" "1"]).
    { apply (try_step _ _ _ _ try3 [bin "p"; bin "q"; bin "b"] [on "1" "b" "p"] [forbid "q" "0"] [] [] [forbid "p" "1"] [] [] [forbid "p" "1"]); [exact T3|reflexivity|reflexivity|reflexivity|reflexivity| | | |].
      - exact (Forall_nil _).
      - exact (Forall_nil _).
      - apply Forall_cons; [apply forbid_c; vm_compute; reflexivity|apply Forall_nil].
      - apply (R_late _ _ _ _ _ _ ForbiddenValueError); [exact E4|reflexivity]. }
    assert (CC : Forall cond_built [on "0" "p" "q"]) by (apply Forall_cons; [apply C; vm_compute; reflexivity|apply Forall_nil]).
    assert (A : add try4 [] [on "0" "p" "q"] [] = (final, Ok tt)) by (rewrite K; unfold final; rewrite E5; reflexivity).
    split; [exact E1|]. split; [exact E2|]. split; [exact E3|]. split; [exact E4|]. split; [exact T4|].
    split; [exact (built_after _ _ _ _ _ _ _ _ _ _ _ _ start_b T4 (Forall_nil _) CC (Forall_nil _) A)|].
    split; [vm_compute; reflexivity|].
    apply (C123_same_partial _ _ _ _ _ _ _ _ _ _ _ _ start_b T4 (Forall_nil _) CC (Forall_nil _) A).
    - split.
      + intros c [<-|[<-|[]]] l Hl; vm_compute in Hl; destruct Hl as [<-|[]]; vm_compute; tauto.
      + intros f [<-|[<-|[]]] h Hh; vm_compute in Hh; destruct Hh as [<-|[]]; vm_compute; tauto.
    - intros [H|[H|[]]]; vm_compute in H; discriminate.
    - intros c c' n [<-|[<-|[]]] [<-|[<-|[]]] H1 H2; try reflexivity; vm_compute in H1, H2; congruence.
    - intros f g [<-|[<-|[]]] [<-|[<-|[]]] H; try reflexivity; vm_compute in H; discriminate H.
  Qed.

  (** a condition of which only the second parent is unknown: the link to the first one stays, and a
      later condition in the other direction is taken for a cycle *)
  Definition half := get_or dummy_cond (mk_and [on "1" "b" "p"; on "1" "b" "z"]).
  Lemma on_c w c p : mk_bin OpEq (bin c) (bin p) (VStr w) = Ok (on w c p) -> cond_built (on w c p).
  Proof. intros H. exact (CB_bin OpEq (bin c) (bin p) (VStr w) (on w c p) (bin_c c) (bin_c p) H). Qed.
  Definition s0 := fst (add start [bin "b"] [] []).
  Theorem C123_half_refuted :
    ~ (forall s hs cs fs c c' s1, built s hs cs fs -> cond_built c -> cond_built c' ->
         add s [] [c] [] = (s1, Err ParentNotFoundError) -> snd (add s [] [c'] []) = Ok tt -> snd (add s1 [] [c'] []) = Ok tt).
  Proof.
    intros H.
    assert (B : built s0 [bin "p"; bin "q"; bin "b"] [] []).
    { exact (built_step start _ _ _ [bin "b"] [] [] start_b (Forall_cons _ (bin_c "b") (Forall_nil _)) (Forall_nil _) (Forall_nil _) ltac:(vm_compute; reflexivity)). }
    assert (K : add s0 [] [half] [] = (fst (add s0 [] [half] []), Err ParentNotFoundError)).
    { assert (Q : snd (add s0 [] [half] []) = Err ParentNotFoundError) by (vm_compute; reflexivity).
      rewrite <- Q. apply surjective_pairing. }
    assert (L : snd (add s0 [] [on "1" "p" "b"] []) = Ok tt) by (vm_compute; reflexivity).
    assert (Ch : cond_built half).
    { apply (CB_and [on "1" "b" "p"; on "1" "b" "z"] half); [|vm_compute; reflexivity].
      intros x [<-|[<-|[]]]; apply on_c; vm_compute; reflexivity. }
    specialize (H _ _ _ _ half (on "1" "p" "b") _ B Ch (on_c "1" "p" "b" ltac:(vm_compute; reflexivity)) K L).
    clear -H. vm_compute in H. discriminate H.
  Qed.
End Witness.
