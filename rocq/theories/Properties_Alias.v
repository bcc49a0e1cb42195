(** * Property C59: condition and clause objects that belong to several spaces *)
From Coq Require Import String List ZArith QArith Bool Lia Permutation.
From Verif Require Import Base ListFacts Numeric NumericProofs HP HPProofs Cond Forb EqFacts Dag DagCycle DagProofs
  Space CommitProofs Spec SpaceProofs CnodeProofs ForbProofs AddProofs EvalProofs ForbEval MergeProofs PassProofs
  Ex Properties_Eval Properties_Serial Alias AliasProofs.
Import ListNotations.
Open Scope string_scope.
Open Scope nat_scope.
Open Scope list_scope.

Section Shared.
  Context {E : Env} {L : EnvLaws E}.
  (** which hyperparameters each object refers to *)
  Context (objs : nat -> list string).

  (** the objects that the update of [p] writes to and that [o] holds lie at the same positions in both *)
  Definition same_places (p o : ospace) : Prop := forall i, In i (map fst (touched p)) -> In i (map fst (held o)) ->
    forall n, In n (objs i) -> assoc n (index_of (o_space p)) = assoc n (index_of (o_space o)).

  (** A history seen from one space [o]: successful additions to it, and between them additions to other
      spaces [p], successful or not, that share objects with it only at the same positions.  The texts
      of its conditions differ (see C59_text_refuted). *)
  Inductive story : heap -> ospace -> list hp -> list cond -> list fclause -> Prop :=
  | st_new H : story H empty_o [] [] []
  | st_own H o hs cs fs hs' lcs lfs H' o' : story H o hs cs fs ->
      Forall constructed hs' -> Forall cond_built (map lerase lcs) -> Forall forb_built (map ferase lfs) ->
      (forall c, In c lcs -> cfits objs c) -> (forall f, In f lfs -> ffits objs f) ->
      oadd H o hs' lcs lfs = (H', o', Ok tt) -> distinct_strings (o_space o') ->
      story H' o' (hs ++ hs') (cs ++ map lerase lcs) (fs ++ map ferase lfs)
  | st_other H o hs cs fs p hs' lcs lfs H' p' r : story H o hs cs fs ->
      oadd H p hs' lcs lfs = (H', p', r) -> (forall e, In e (touched p') -> snd e = objs (fst e)) ->
      same_places p' o -> story H' o hs cs fs.

  Lemma odefault_eq H o : (forall v allow, ocheck H o v allow = check_configuration (o_space o) v allow) ->
    odefault H o = check_default_configuration (o_space o).
  Proof.
    intros Q. unfold odefault, check_default_configuration. destruct (default_values _ _ _) as [vals|e]; cbn [bind]; [|reflexivity].
    unfold oconfig_of_values, config_of_values. destruct (negb _); [|reflexivity]. destruct (fill _ _ _ _ _) as [r|e]; cbn [bind]; [|reflexivity].
    rewrite Q. reflexivity.
  Qed.

  (** Adding to a space with its objects returns and raises what the model by name does, when the texts of
      the conditions differ, and the objects then store the positions of the space. *)
  Lemma oadd_agrees H o hs cs fs hs' lcs lfs H' o' r : orep objs o hs cs fs ->
    Forall constructed hs' -> Forall cond_built (map lerase lcs) -> Forall forb_built (map ferase lfs) ->
    (forall c, In c lcs -> cfits objs c) -> (forall f, In f lfs -> ffits objs f) ->
    oadd H o hs' lcs lfs = (H', o', r) -> distinct_strings (o_space o') ->
    add (o_space o) hs' (map lerase lcs) (map ferase lfs) = (o_space o', r) /\
    (r = Ok tt -> orep objs o' (hs ++ hs') (cs ++ map lerase lcs) (fs ++ map ferase lfs) /\ placed H' o').
  Proof.
    intros R A B C Fc Ff Ha D. unfold oadd in Ha. unfold add.
    destruct (dag_update (s_dag (o_space o)) hs' (map lerase lcs) (map ferase lfs)) as [d [[]|e]] eqn:Eu.
    - destruct (oupdate_rep objs o hs cs fs hs' lcs lfs d R A B C Fc Ff Eu) as (o1 & E1 & S1 & R1). rewrite E1 in Ha.
      set (H1 := place (d_index_of d) (touched o1) H) in *.
      assert (K : o_space o' = o_space o1 -> placed H1 o1).
      { intros Q. rewrite Q in D. assert (P := place_placed objs o1 _ _ _ H R1 D). rewrite S1 in P. exact P. }
      assert (Q : o_space o' = o_space o1) by (destruct (odefault H1 o1); inversion Ha; reflexivity). specialize (K Q).
      rewrite (odefault_eq H1 o1 (fun v allow => ocheck_placed objs H1 o1 _ _ _ v allow R1 K)), S1 in Ha.
      destruct (check_default_configuration _) as [c|e]; inversion Ha; subst; rewrite S1; (split; [reflexivity|]); [auto|discriminate].
    - inversion Ha; subst. cbn [o_space]. split; [reflexivity|discriminate].
  Qed.

  Lemma orep_empty : orep objs empty_o [] [] [].
  Proof.
    constructor; cbn; try reflexivity; try (intros ? []).
    - constructor; [apply dag_inv_empty|apply committed_empty|reflexivity].
    - constructor.
  Qed.

  Lemma story_ok H o hs cs fs : story H o hs cs fs -> built (o_space o) hs cs fs /\ orep objs o hs cs fs /\ placed H o.
  Proof.
    induction 1 as [H|H o hs cs fs hs' lcs lfs H' o' _ (Bu & R & P) A B C Fc Ff Ha D|H o hs cs fs p hs' lcs lfs H' p' r _ (Bu & R & P) Ha Fp Sp].
    - split; [constructor|]. split; [apply orep_empty|]. intros e [].
    - destruct (oadd_agrees H o hs cs fs hs' lcs lfs H' o' (Ok tt) R A B C Fc Ff Ha D) as [Q1 Q2]. destruct (Q2 eq_refl) as [R' P'].
      split; [|split; assumption]. exact (built_add _ _ _ _ _ _ _ _ Bu A B C Q1).
    - split; [exact Bu|]. split; [exact R|].
      assert (K : H' = H \/ H' = place (index_of (o_space p')) (touched p') H).
      { unfold oadd in Ha. destruct (dag_update _ _ _ _) as [d [[]|e]]; [|inversion Ha; auto].
        destruct (oupdate p d hs' lcs lfs) as [o1|e] eqn:E1; [|inversion Ha; auto].
        assert (S1 : index_of (o_space o1) = d_index_of d).
        { unfold oupdate in E1. destruct (loptimized _ _); cbn [bind] in E1; [|discriminate]. inversion E1; reflexivity. }
        destruct (odefault _ o1); inversion Ha; subst; rewrite S1; auto. }
      destruct K as [-> | ->]; [exact P|]. intros e He. destruct (P e He) as [Hs Hn]. split; [|exact Hn].
      destruct (place_spec objs (index_of (o_space p')) (touched p') Fp H (fst e)) as [K1 K2].
      destruct (in_dec Nat.eq_dec (fst e) (map fst (touched p'))) as [Hi|Hi]; [|rewrite (K2 Hi); exact Hs].
      rewrite (K1 Hi). f_equal. rewrite (or_fits _ _ _ _ _ R e He). unfold positions. apply map_ext_in. intros n Hin. f_equal.
      unfold idx_of. rewrite (Sp (fst e) Hi (in_map fst _ _ He) n Hin). reflexivity.
  Qed.

  (** In such a history the space accepts and rejects exactly what it does by name, with every object it
      holds.
      Missing: objects shared with a space where their hyperparameters lie at other positions
      (C59_refuted), and spaces with conditions that have the same text (C59_text_refuted). *)
  Theorem C59_partial H o hs cs fs : story H o hs cs fs ->
    built (o_space o) hs cs fs /\
    (forall v allow, ocheck H o v allow = check_configuration (o_space o) v allow) /\
    (forall n c, conds_of (o_space o) n = [c] <-> exists x, assoc n (o_conds o) = Some x /\ lerase x = c) /\
    (forall n x v, assoc n (o_conds o) = Some x -> osat H v x = Ok (sat_vec (index_of (o_space o)) v (lerase x))) /\
    map ferase (o_uf o ++ o_cf o) = forbidden_clauses (o_space o) /\
    (forall x v, In x (o_uf o ++ o_cf o) -> oforb H v x = forb_vec (index_of (o_space o)) v (ferase x)).
  Proof.
    intros S. destruct (story_ok _ _ _ _ _ S) as (Bu & R & P). assert (O := or_ok _ _ _ _ _ R).
    split; [exact Bu|]. split; [intros v allow; eapply ocheck_placed; eauto|]. split; [|split; [|split]].
    - intros n c. rewrite (so_conds_of O), <- (or_cond _ _ _ _ _ R). destruct (assoc n (o_conds o)) as [x|]; cbn [option_map]; split.
      + intros Q. inversion Q. eauto.
      + intros (y & Hy & <-). inversion Hy. reflexivity.
      + discriminate.
      + intros (y & Hy & _). discriminate.
    - intros n x v Hx. apply osat_stored. intros e He. apply P. apply in_held. right. exists n, x. split; [apply assoc_In; exact Hx|exact He].
    - rewrite map_app, (or_uf _ _ _ _ _ R), (or_cf _ _ _ _ _ R). reflexivity.
    - intros x v Hx. apply oforb_stored. apply fstored_leaves; [apply (or_plain _ _ _ _ _ R x Hx)|]. intros e He. apply P. apply in_held. left. eauto.
  Qed.

  (** adding to another space, successfully or not, does not change what the space accepts when the two
      share no object *)
  Theorem C59_apart H o hs cs fs p hs' lcs lfs H' p' r : story H o hs cs fs ->
    oadd H p hs' lcs lfs = (H', p', r) -> (forall e, In e (touched p') -> snd e = objs (fst e)) ->
    (forall i, In i (map fst (touched p')) -> ~ In i (map fst (held o))) ->
    story H' o hs cs fs /\ forall v allow, ocheck H' o v allow = ocheck H o v allow.
  Proof.
    intros S Ha F N. assert (S' : story H' o hs cs fs).
    { eapply st_other; eauto. intros i Hi Hj. destruct (N i Hi Hj). }
    split; [exact S'|]. intros v allow. destruct (C59_partial _ _ _ _ _ S) as (_ & Q & _). destruct (C59_partial _ _ _ _ _ S') as (_ & Q' & _).
    rewrite Q, Q'. reflexivity.
  Qed.
End Shared.
Arguments story {E} objs.

Section Witness.
  #[local] Existing Instance rat_env.

  Definition hS n := get_or dummy_hp (mk_categorical n [VStr "x"; VStr "y"] None None None).
  Definition sa := hS "a". Definition sb := hS "b". Definition sc := hS "c".
  Lemma hS_c n : n = "a" \/ n = "b" \/ n = "c" -> constructed (hS n).
  Proof. intros [->|[->| ->]]; (eapply (CtorCat _ [VStr "x"; VStr "y"] None None None); vm_compute; reflexivity). Qed.
  Lemma hS_all l : (forall h, In h l -> h = sa \/ h = sb \/ h = sc) -> Forall constructed l.
  Proof. intros H. apply Forall_forall. intros h Hh. destruct (H h Hh) as [->|[->| ->]]; apply hS_c; tauto. Qed.
  Definition fy := get_or dummy_forb (mk_feq sb (VStr "y")).
  Lemma fy_c : forb_built fy.
  Proof. apply (FB_eq sb (VStr "y") fy); [apply hS_c; tauto|vm_compute; reflexivity]. Qed.
  Definition ly := mk_lit sc sb (TBin OpEq (VStr "y") (Fin 1)).
  Lemma ly_c : cond_built (CLit ly).
  Proof. apply (CB_bin OpEq sc sb (VStr "y") (CLit ly)); [apply hS_c; tauto|apply hS_c; tauto|vm_compute; reflexivity]. Qed.

  Definition h0 : heap := fun _ => None.
  Definition onames (i : nat) : list string := ["b"].

  Lemma triple {A B C} (x : A * B * C) : x = (fst (fst x), snd (fst x), snd x).
  Proof. destruct x as [[a b] c]. reflexivity. Qed.
  Lemma triple_ok {A B C} (x : A * B * C) c : snd x = c -> x = (fst (fst x), snd (fst x), c).
  Proof. intros <-. apply triple. Qed.

  (** the first addition to a space *)
  Lemma first_story objs H hs lcs lfs : Forall constructed hs -> Forall cond_built (map lerase lcs) -> Forall forb_built (map ferase lfs) ->
    (forall c, In c lcs -> cfits objs c) -> (forall f, In f lfs -> ffits objs f) ->
    let w := oadd H empty_o hs lcs lfs in
    snd w = Ok tt -> add empty_space hs (map lerase lcs) (map ferase lfs) = (o_space (snd (fst w)), Ok tt) ->
    NoDup (map cond_str (concat (map (fun e => own_conds (snd e)) (d_nodes (s_dag (o_space (snd (fst w)))))))) ->
    story objs (fst (fst w)) (snd (fst w)) hs (map lerase lcs) (map ferase lfs).
  Proof.
    intros A B C Fc Ff w Hw Ha ND. assert (Ho := triple_ok w (Ok tt) Hw).
    exact (st_own objs H empty_o [] [] [] hs lcs lfs (fst (fst w)) (snd (fst w)) (st_new objs H) A B C Fc Ff Ho
      (strings_distinct _ _ _ _ (built_add _ _ _ _ _ _ _ _ built_empty A B C Ha) ND)).
  Qed.
  (** ** The clause b == "y", object 0, in a space with a and b and then in a space with b alone: the
      first space now tests a *)
  Definition w1 := oadd h0 empty_o [sa; sb] [] [LLeaf 0 fy].
  Definition w2 := oadd (fst (fst w1)) empty_o [sb] [] [LLeaf 0 fy].
  Lemma fy_fits : forall f, In f [LLeaf 0 fy] -> ffits onames f.
  Proof. intros f [<-|[]]. split; [vm_compute; exact I|]. intros e He. vm_compute in He. destruct He as [<-|[]]. reflexivity. Qed.
  Lemma w1_story : story onames (fst (fst w1)) (snd (fst w1)) [sa; sb] [] [fy].
  Proof.
    apply (first_story onames h0 [sa; sb] [] [LLeaf 0 fy]).
    - apply hS_all. simpl. intuition congruence.
    - constructor.
    - constructor; [exact fy_c|constructor].
    - intros c [].
    - exact fy_fits.
    - vm_compute. reflexivity.
    - vm_compute. reflexivity.
    - apply nodup_strings. vm_compute. reflexivity.
  Qed.
  Lemma w2_story : story onames (fst (fst w2)) (snd (fst w2)) [sb] [] [fy].
  Proof.
    apply (first_story onames (fst (fst w1)) [sb] [] [LLeaf 0 fy]).
    - apply hS_all. simpl. intuition congruence.
    - constructor.
    - constructor; [exact fy_c|constructor].
    - intros c [].
    - exact fy_fits.
    - vm_compute. reflexivity.
    - vm_compute. reflexivity.
    - apply nodup_strings. vm_compute. reflexivity.
  Qed.

  (** Two spaces hold one clause; after the second was built the first rejects a configuration that it
      accepted, and accepts one that it rejected. *)
  Theorem C59_refuted : exists H o hs fs H' p hs' x good bad,
    story onames H o hs [] fs /\ In x (o_uf o ++ o_cf o) /\
    oadd H empty_o hs' [] [x] = (H', p, Ok tt) /\ story onames H' p hs' [] [ferase x] /\
    ocheck H o good false = Ok tt /\ ocheck H' o good false = Err ForbiddenValueError /\
    ocheck H o bad false = Err ForbiddenValueError /\ ocheck H' o bad false = Ok tt.
  Proof.
    exists (fst (fst w1)), (snd (fst w1)), [sa; sb], [fy], (fst (fst w2)), (snd (fst w2)), [sb], (LLeaf 0 fy), [Fin 1; Fin 0], [Fin 0; Fin 1].
    split; [exact w1_story|]. split; [vm_compute; left; reflexivity|].
    split; [unfold w2; apply triple_ok; vm_compute; reflexivity|]. split; [exact w2_story|].
    repeat split; vm_compute; reflexivity.
  Qed.

  (** ** The same with the condition c | b == "y" *)
  Definition c1 := oadd h0 empty_o [sa; sb; sc] [LLit 0 ly] [].
  Definition c2 := oadd (fst (fst c1)) empty_o [sb; sc] [LLit 0 ly] [].
  Lemma ly_fits : forall c, In c [LLit 0 ly] -> cfits onames c.
  Proof. intros c [<-|[]] e He. vm_compute in He. destruct He as [<-|[]]. reflexivity. Qed.
  Lemma c1_story : story onames (fst (fst c1)) (snd (fst c1)) [sa; sb; sc] [CLit ly] [].
  Proof.
    apply (first_story onames h0 [sa; sb; sc] [LLit 0 ly] []).
    - apply hS_all. simpl. intuition congruence.
    - constructor; [exact ly_c|constructor].
    - constructor.
    - exact ly_fits.
    - intros f [].
    - vm_compute. reflexivity.
    - vm_compute. reflexivity.
    - apply nodup_strings. vm_compute. reflexivity.
  Qed.
  Theorem C59_condition_refuted : exists H o hs H' p hs' n x good,
    story onames H o hs [lerase x] [] /\ assoc n (o_conds o) = Some x /\
    oadd H empty_o hs' [x] [] = (H', p, Ok tt) /\
    ocheck H o good false = Ok tt /\ ocheck H' o good false = Err ActiveHyperparameterNotSetError.
  Proof.
    exists (fst (fst c1)), (snd (fst c1)), [sa; sb; sc], (fst (fst c2)), (snd (fst c2)), [sb; sc], "c", (LLit 0 ly), [Fin 1; Fin 0; NaN].
    split; [exact c1_story|]. split; [vm_compute; reflexivity|].
    split; [unfold c2; apply triple_ok; vm_compute; reflexivity|].
    split; vm_compute; reflexivity.
  Qed.

  (** ** Two conditions with one text, added together: only one of them gets positions, and checking the
      default configuration with the other raises, although the space is sound by name *)
  Definition lit_of (c : cond) : lit := match c with CLit l => l | _ => ly end.
  Definition lU1 := lit_of cU1. Definition lU2 := lit_of cU2.
  Theorem C59_text_refuted : exists hs x y s, Forall constructed hs /\ cond_built (lerase x) /\ cond_built (lerase y) /\
    cond_str (lerase x) = cond_str (lerase y) /\
    add empty_space hs [lerase x; lerase y] [] = (s, Ok tt) /\ snd (oadd h0 empty_o hs [x; y] []) = Err ValueError.
  Proof.
    exists [hUa; hUbc; hUab; hUc], (LLit 0 lU1), (LLit 1 lU2), (fst (add empty_space [hUa; hUbc; hUab; hUc] [CLit lU1; CLit lU2] [])).
    assert (Q1 : CLit lU1 = cU1) by (vm_compute; reflexivity). assert (Q2 : CLit lU2 = cU2) by (vm_compute; reflexivity).
    cbn [lerase]. rewrite Q1, Q2.
    split; [repeat (constructor; [apply hU_c; tauto|]); constructor|]. split; [exact cU1_c|]. split; [exact cU2_c|].
    split; [vm_compute; reflexivity|]. split; vm_compute; reflexivity.
  Qed.

  (** ** The hypotheses can be met: a second space with the same layout takes the clause and the condition of
      the first *)
  Definition e1 := oadd h0 empty_o [sa; sb; sc] [LLit 0 ly] [LLeaf 1 fy; LConj [LLeaf 2 fy; LLeaf 3 fy]].
  Definition e2 := oadd (fst (fst e1)) empty_o [sc; sb; sa] [LLit 0 ly] [LLeaf 1 fy].
  Example C59_case : exists H o p, story onames H o [sa; sb; sc] [CLit ly] [fy; FAnd [fy; fy]] /\
    H = fst (fst e2) /\ In (0, ["b"]) (touched p) /\ In (0, ["b"]) (held o) /\ In (1, ["b"]) (touched p) /\ In (1, ["b"]) (held o) /\
    ocheck H o [Fin 1; Fin 0; NaN] false = Ok tt /\ ocheck H o [Fin 0; Fin 1; Fin 0] false = Err ForbiddenValueError.
  Proof.
    exists (fst (fst e2)), (snd (fst e1)), (snd (fst e2)).
    assert (S1 : story onames (fst (fst e1)) (snd (fst e1)) [sa; sb; sc] [CLit ly] [fy; FAnd [fy; fy]]).
    { apply (first_story onames h0 [sa; sb; sc] [LLit 0 ly] [LLeaf 1 fy; LConj [LLeaf 2 fy; LLeaf 3 fy]]).
      - apply hS_all. simpl. intuition congruence.
      - constructor; [exact ly_c|constructor].
      - constructor; [exact fy_c|]. constructor; [|constructor]. apply (FB_and [fy; fy] (FAnd [fy; fy])); [|reflexivity]. intros x [<-|[<-|[]]]; exact fy_c.
      - exact ly_fits.
      - intros f [<-|[<-|[]]]; (split; [vm_compute; auto|]); intros e He; vm_compute in He; repeat (destruct He as [<-|He]; [reflexivity|]); destruct He.
      - vm_compute. reflexivity.
      - vm_compute. reflexivity.
      - apply nodup_strings. vm_compute. reflexivity. }
    assert (P : forall i n, In n (onames i) -> assoc n (index_of (o_space (snd (fst e2)))) = assoc n (index_of (o_space (snd (fst e1))))).
    { intros i n [<-|[]]. vm_compute. reflexivity. }
    split.
    - apply (st_other onames (fst (fst e1)) (snd (fst e1)) _ _ _ empty_o [sc; sb; sa] [LLit 0 ly] [LLeaf 1 fy] (fst (fst e2)) (snd (fst e2)) (snd e2) S1).
      + unfold e2. apply triple.
      + assert (T : touched (snd (fst e2)) = [(1, ["b"]); (0, ["b"])]) by (vm_compute; reflexivity). rewrite T.
        intros e [<-|[<-|[]]]; reflexivity.
      + intros i _ _ n Hn. apply (P i n Hn).
    - split; [reflexivity|]. split; [vm_compute; tauto|]. split; [vm_compute; tauto|]. split; [vm_compute; tauto|]. split; [vm_compute; tauto|].
      split; vm_compute; reflexivity.
  Qed.
End Witness.
