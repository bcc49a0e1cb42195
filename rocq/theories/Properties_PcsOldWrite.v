(** * Properties C88, C89: when the older PCS format can be written; which lines reading depends on *)
From Coq Require Import String Ascii List ZArith QArith Qround Qabs Bool Lia Lqa Relations Permutation.
From Verif Require Import Base ListFacts Numeric NumericProofs HP HPProofs EqFacts EvalProofs Properties_HP Cond Forb Dag DagCycle DagProofs Space
  CommitProofs Spec SpaceProofs ConfigProofs ValidProofs Fix Serial ForbProofs PassProofs Properties_Graph Properties_Eval Properties_Exchange Properties_Api Properties_Config Properties_Add Properties_Serial
  Properties_Priors Ex Pcs PcsProofs PcsText Properties_PcsWords Properties_Pcs Properties_PcsWrite PcsOld Properties_PcsOld.
Import ListNotations.
Open Scope string_scope.
Open Scope nat_scope.
Open Scope list_scope.

Section Write.
  Context {E : Env} {L : EnvLaws E}.
  Variable T : text.

  (** ** Specification *)
  Definition unweighted (h : hp) : Prop := match hp_kind h with KCat _ (Some _) => False | _ => True end.
  Definition unordered (h : hp) : Prop := match hp_kind h with KOrd _ => False | _ => True end.
  Definition old_writable_hp (h : hp) : Prop := begins_name (hp_name h) /\ unweighted h /\ unordered h.
  (** no disjunction, at any depth *)
  Fixpoint or_free (c : cond) : Prop :=
    match c with
    | CLit _ => True
    | COr _ => False
    | CAnd cs => (fix all (cs : list cond) : Prop := match cs with [] => True | c :: cs' => or_free c /\ all cs' end) cs
    end.
  Definition equalities (c : cond) : Prop := forall l o v vv, In l (dlcs c) -> l_test l = TBin o v vv -> o = OpEq.
  Definition of_words (c : cond) : Prop := forall l vs vvs v, In l (dlcs c) -> l_test l = TIn vs vvs -> In v vs -> exists w, v = VStr w.
  Definition old_writable_cond (c : cond) : Prop := or_free c /\ equalities c /\ of_words c.

  (** ** Hyperparameters *)
  Lemma old_param_ok h : constructed h -> ((exists l, old_param T h = Ok l) <-> old_writable_hp h) /\
    forall e, old_param T h = Err e -> (e = ValueError /\ ~ (begins_name (hp_name h) /\ unweighted h)) \/ (e = TypeError /\ ~ unordered h).
  Proof.
    intros C. unfold old_param, old_writable_hp, unweighted, unordered. assert (Nb := name_begins (hp_name h)). revert Nb. generalize (begins_name (hp_name h)). intros bn Nb.
    destruct (match parse p_name (hp_name h) with Some _ => true | None => false end).
    2: { split; [split; [intros (l & H); discriminate|intros [H _]; apply Nb in H; discriminate]|]. intros e H. left. split; [congruence|]. intros [K _]. apply Nb in K. discriminate. }
    assert (Nb' : bn) by (apply Nb; reflexivity).
    assert (G : match hp_kind h with KInt _ _ _ _ | KFloat _ _ _ _ => True | _ => False end -> exists l, old_continuous T h = Ok l).
    { intros K. unfold old_continuous. rewrite (to_uniform_uni h C). cbn [bind]. assert (Lg := default_legal h C).
      unfold uni, legal_value in *. cbn [hp_kind hp_default hp_name]. destruct (hp_kind h); try destruct K; cbv beta iota; [|eexists; reflexivity].
      unfold to_int. destruct (hp_default h); cbn [num_of] in *; cbv beta iota in *; first [discriminate Lg|cbn [bind]; eexists; reflexivity]. }
    destruct (hp_kind h) as [c [w|]|sq|v|lo hi lg d|lo hi lg d]; cbn [old_categorical].
    - split; [split; [intros (l & H); discriminate|intros (_ & [] & _)]|]. intros e H. left. split; [congruence|]. intros [_ []].
    - split; [split; [auto|intros _; eexists; reflexivity]|intros e H; discriminate].
    - split; [split; [intros (l & H); discriminate|intros (_ & _ & [])]|]. intros e H. right. split; [congruence|]. intros [].
    - split; [split; [auto|intros _; eexists; reflexivity]|intros e H; discriminate].
    - destruct (G I) as (l & ->). split; [split; [auto|intros _; eexists; reflexivity]|intros e H; discriminate].
    - destruct (G I) as (l & ->). split; [split; [auto|intros _; eexists; reflexivity]|intros e H; discriminate].
  Qed.

  (** ** Conditions *)
  Lemma words_ok vs : ((exists ts, mapM as_str vs = Ok ts) <-> forall v, In v vs -> exists w, v = VStr w) /\
    forall e, mapM as_str vs = Err e -> e = TypeError /\ ~ forall v, In v vs -> exists w, v = VStr w.
  Proof.
    induction vs as [|v vs [I1 I2]]; [split; [split; [intros _ v []|intros _; eexists; reflexivity]|intros e H; discriminate]|].
    cbn [mapM]. assert (D : (exists w, v = VStr w) \/ (as_str v = Err TypeError /\ ~ exists w, v = VStr w)).
    { destruct v; [left; eauto|right|right|right|right]; (split; [reflexivity|intros (w & K); discriminate]). }
    destruct D as [(w & ->)|[Q N]].
    - cbn [as_str bind]. destruct (mapM as_str vs) as [ts|e0]; cbn [bind].
      + split; [|intros e H; discriminate]. split; [|intros _; eexists; reflexivity]. intros _ v [<-|Hv]; [eauto|]. apply I1; [eauto|exact Hv].
      + destruct (I2 e0 eq_refl) as [-> N]. split.
        * split; [intros (ts & K); discriminate|]. intros K. exfalso. apply N. intros v Hv. apply K. right. exact Hv.
        * intros e K. injection K as <-. split; [reflexivity|]. intros K. apply N. intros v Hv. apply K. right. exact Hv.
    - rewrite Q. cbn [bind]. split.
      + split; [intros (ts & K); discriminate|]. intros K. exfalso. apply N, K. left. reflexivity.
      + intros e K. injection K as <-. split; [reflexivity|]. intros K. apply N, K. left. reflexivity.
  Qed.
  Lemma lit_ok l : ((exists ls, old_condition T (CLit l) = Ok ls) <-> old_writable_cond (CLit l)) /\
    forall e, old_condition T (CLit l) = Err e -> (e = TypeError /\ ~ of_words (CLit l)) \/ (e = NotImplementedError /\ ~ equalities (CLit l)).
  Proof.
    unfold old_writable_cond, equalities, of_words. cbn [old_condition or_free dlcs]. destruct (l_test l) as [o v vv|vs vvs] eqn:Q.
    - assert (D : o = OpEq \/ (o <> OpEq /\ (match o with OpEq => Ok [(hp_name (l_child l) ++ " | " ++ parent_name l ++ " in {" ++ py_str T v ++ "}")%string]
                                             | _ => Err NotImplementedError end) = Err NotImplementedError)).
      { destruct o; [left; reflexivity|right|right|right]; (split; [discriminate|reflexivity]). }
      destruct D as [->|[N ->]].
      + split; [|intros e K; discriminate]. split; [|intros _; eexists; reflexivity]. intros _. split; [exact I|]. split.
        * intros l0 o v0 vv0 [<-|[]] K. congruence.
        * intros l0 vs vvs v0 [<-|[]] K. congruence.
      + assert (Ne : ~ forall l0 o0 v0 vv0, In l0 [l] -> l_test l0 = TBin o0 v0 vv0 -> o0 = OpEq).
        { intros K. apply N. apply (K l o v vv (or_introl eq_refl) Q). }
        split; [split; [intros (ls & K); discriminate|intros (_ & K & _); exfalso; apply Ne, K]|]. intros e K. injection K as <-. right. split; [reflexivity|exact Ne].
    - destruct (words_ok vs) as [W1 W2].
      assert (Ow : (forall l0 vs0 vvs0 v, In l0 [l] -> l_test l0 = TIn vs0 vvs0 -> In v vs0 -> exists w, v = VStr w) <-> forall v, In v vs -> exists w, v = VStr w).
      { split; [intros K v Hv; apply (K l vs vvs v (or_introl eq_refl) Q Hv)|]. intros K l0 vs0 vvs0 v [<-|[]] Q'. rewrite Q in Q'. injection Q' as <- <-. apply K. }
      destruct (mapM as_str vs) as [ts|e0]; cbn [bind].
      + split; [|intros e K; discriminate]. split; [|intros _; eexists; reflexivity]. intros _. split; [exact I|]. split; [|apply Ow, W1; eauto].
        intros l0 o v0 vv0 [<-|[]] K. congruence.
      + destruct (W2 e0 eq_refl) as [-> N]. split; [split; [intros (ls & K); discriminate|intros (_ & _ & K); exfalso; apply N, Ow, K]|].
        intros e K. injection K as <-. left. split; [reflexivity|]. rewrite Ow. exact N.
  Qed.
  Lemma old_cond_ok c : ((exists ls, old_condition T c = Ok ls) <-> old_writable_cond c) /\
    forall e, old_condition T c = Err e -> (e = TypeError /\ ~ of_words c) \/ (e = NotImplementedError /\ ~ (or_free c /\ equalities c)).
  Proof.
    induction c as [l|cs IH|cs IH] using cond_ind'.
    - destruct (lit_ok l) as [H1 H2]. split; [exact H1|]. intros e He. destruct (H2 e He) as [K|[-> K]]; [left; exact K|]. right. split; [reflexivity|]. intros [_ K']. apply K, K'.
    - cbn [old_condition]. set (go := fix go (cs : list cond) : res (list (list string)) := _).
      assert (G : ((exists ls, go cs = Ok ls) <-> old_writable_cond (CAnd cs)) /\
        forall e, go cs = Err e -> (e = TypeError /\ ~ of_words (CAnd cs)) \/ (e = NotImplementedError /\ ~ (or_free (CAnd cs) /\ equalities (CAnd cs)))).
      { induction cs as [|c cs IHcs].
        - split; [|intros e K; discriminate]. split; [|intros _; eexists; reflexivity]. intros _. split; [exact I|]. split; [intros l o v vv []|intros l vs vvs v []].
        - inversion IH as [|? ? [J1 J2] IH']; subst. destruct (IHcs IH') as [K1 K2]. clear IHcs IH IH'.
          assert (S1 : or_free (CAnd (c :: cs)) <-> or_free c /\ or_free (CAnd cs)) by reflexivity.
          assert (In1 : forall l, In l (dlcs (CAnd (c :: cs))) <-> In l (dlcs c) \/ In l (dlcs (CAnd cs))).
          { intros l. cbn [dlcs map concat]. apply in_app_iff. }
          assert (S2 : equalities (CAnd (c :: cs)) <-> equalities c /\ equalities (CAnd cs)).
          { split; [intros K; split; intros l o v vv Hl; apply (K l o v vv), In1; auto|]. intros [Ka Kb] l o v vv Hl. apply In1 in Hl. destruct Hl; [eapply Ka|eapply Kb]; eauto. }
          assert (S3 : of_words (CAnd (c :: cs)) <-> of_words c /\ of_words (CAnd cs)).
          { split; [intros K; split; intros l vs vvs v Hl; apply (K l vs vvs v), In1; auto|]. intros [Ka Kb] l vs vvs v Hl. apply In1 in Hl. destruct Hl; [eapply Ka|eapply Kb]; eauto. }
          assert (W : old_writable_cond (CAnd (c :: cs)) <-> old_writable_cond c /\ old_writable_cond (CAnd cs)) by (unfold old_writable_cond; rewrite S1, S2, S3; tauto).
          change (go (c :: cs)) with (l <- old_condition T c ;; ls <- go cs ;; Ok (l :: ls)). rewrite W, <- J1, <- K1.
          destruct (old_condition T c) as [l|e0]; cbn [bind].
          + destruct (go cs) as [ls|e1]; cbn [bind].
            * split; [|intros e K; discriminate]. split; [intros _; split; eexists; reflexivity|intros _; eexists; reflexivity].
            * split; [split; [intros (ls & K); discriminate|intros [_ (ls & K)]; discriminate]|]. intros e K. injection K as <-. destruct (K2 e1 eq_refl) as [[-> N]|[-> N]]; tauto.
          + split; [split; [intros (ls & K); discriminate|intros [(ls & K) _]; discriminate]|]. intros e K. injection K as <-. destruct (J2 e0 eq_refl) as [[-> N]|[-> N]]; tauto. }
      destruct G as [G1 G2]. rewrite <- G1. destruct (go cs) as [ls|e0]; cbn [bind].
      + split; [split; intros _; eexists; reflexivity|intros e K; discriminate].
      + split; [split; intros (ls & K); discriminate|]. intros e K. injection K as <-. apply G2. reflexivity.
    - cbn [old_condition]. split; [split; [intros (ls & K); discriminate|intros [[] _]]|]. intros e K. injection K as <-. right. split; [reflexivity|]. intros [[] _].
  Qed.

  (** ** Clauses *)
  Lemma old_forbidden_new fs : old_forbidden T fs = match new_forbidden T fs with Ok t => Ok t | Err _ => Err AssertionError end.
  Proof.
    unfold old_forbidden, new_forbidden.
    assert (G : mapM (old_literal T) fs = match mapM (new_literal T) fs with Ok t => Ok t | Err _ => Err AssertionError end).
    { induction fs as [|f fs IH]; [reflexivity|]. cbn [mapM]. rewrite IH. destruct f; cbn [old_literal new_literal bind]; try reflexivity.
      destruct (mapM (new_literal T) fs); reflexivity. }
    rewrite G. destruct (mapM (new_literal T) fs); reflexivity.
  Qed.
  Lemma old_forb_ok f : forb_built f -> ((exists ls, old_forb_lines T f = Ok ls) <-> writable_forb f) /\
    forall e, old_forb_lines T f = Err e -> (e = NotImplementedError /\ exists r a b, f = FRel r a b) \/
      (e = AssertionError /\ ~ writable_forb f /\ forall r a b, f <> FRel r a b).
  Proof.
    intros B. destruct (forb_lines_ok T f B) as [N1 N2]. rewrite <- N1.
    assert (Fi : exists ins, mapM equals_of (filter is_in (fdlcs f)) = Ok ins).
    { destruct (mapM_rel equals_of (fun _ _ => True) (filter is_in (fdlcs f))) as (ins & Q & _); [|eauto].
      intros g Hg. apply filter_In in Hg. destruct Hg as [H1 H2]. destruct g as [h v vv|h vs vvs|r a b|cs]; try discriminate.
      destruct (leaf_fin h vs vvs (leaf_built f _ B H1)) as (es & E1 & _). eauto. }
    assert (G : old_forb_lines T f = match new_forb_lines T f with Ok ls => Ok ls | Err _ => match f with FRel _ _ _ => Err NotImplementedError | _ => Err AssertionError end end).
    { destruct Fi as (ins & Q). unfold old_forb_lines, new_forb_lines. cbv zeta. rewrite Q. cbn [bind]. destruct ins as [|i ins].
      - rewrite old_forbidden_new. destruct f as [h v vv|h vs vvs|r a b|cs]; try reflexivity; try (destruct (new_forbidden T _); reflexivity).
        exfalso. cbn in Q. destruct (mapM (mk_feq h) vs); discriminate.
      - assert (Nr : match f with FRel _ _ _ => Err NotImplementedError | _ => Err AssertionError end = @Err (list string) AssertionError).
        { destruct f; try reflexivity. cbn in Q. discriminate. }
        rewrite Nr. generalize (product (i :: ins)), (filter (fun g => negb (is_in g)) (fdlcs f)). intros ps others. induction ps as [|p ps IH]; [reflexivity|].
        cbn [mapM]. rewrite old_forbidden_new. destruct (new_forbidden T (p ++ others)) as [t|]; [|reflexivity]. cbn [bind]. rewrite IH.
        destruct (mapM (fun p => new_forbidden T (p ++ others)) ps); reflexivity. }
    rewrite G. destruct (new_forb_lines T f) as [ls|e0].
    - split; [split; intros _; eexists; reflexivity|intros e K; discriminate].
    - assert (D : (exists r a b, f = FRel r a b) \/ (forall r a b, f <> FRel r a b)) by (destruct f; eauto; right; intros; discriminate).
      assert (Nw : ~ exists ls, @Err (list string) e0 = Ok ls) by (intros (ls & K); discriminate).
      destruct D as [(r & a & b & ->)|D].
      + split; [split; intros (ls & K); discriminate|]. intros e K. injection K as <-. left. eauto.
      + assert (Q : match f with FRel _ _ _ => Err NotImplementedError | _ => Err AssertionError end = @Err (list string) AssertionError).
        { destruct f; try reflexivity. exfalso. apply (D r left right). reflexivity. }
        rewrite Q. split; [split; intros (ls & K); discriminate|]. intros e K. injection K as <-. right. split; [reflexivity|]. split; [|exact D].
        intros K. apply N1 in K. exact (Nw K).
  Qed.

  (** C88: the text can be written exactly when names begin well, categorical hyperparameters have no
      weights, no hyperparameter is ordinal, conditions are conjunctions of equalities and memberships
      in words, and clauses have no relations; and what write() raises otherwise. *)
  Theorem C88_write_iff x hs cs fs : built (c_space x) hs cs fs ->
    ((exists t, old_write T x = Ok t) <->
     (forall h, In h hs -> old_writable_hp h) /\ (forall c, In c (conditions (c_space x)) -> old_writable_cond c) /\ (forall f, In f fs -> writable_forb f)) /\
    forall e, old_write T x = Err e ->
      (e = ValueError /\ exists h, In h hs /\ ~ (begins_name (hp_name h) /\ unweighted h)) \/
      (e = TypeError /\ ((exists h, In h hs /\ ~ unordered h) \/ (exists c, In c (conditions (c_space x)) /\ ~ of_words c))) \/
      (e = NotImplementedError /\ (forall h, In h hs -> old_writable_hp h) /\
       ((exists c, In c (conditions (c_space x)) /\ ~ (or_free c /\ equalities c)) \/ (exists r a b, In (FRel r a b) fs))) \/
      (e = AssertionError /\ (forall h, In h hs -> old_writable_hp h) /\ (forall c, In c (conditions (c_space x)) -> old_writable_cond c) /\
       exists f, In f fs /\ ~ writable_forb f /\ forall r a b, f <> FRel r a b).
  Proof.
    intros B. assert (O := built_ok _ _ _ _ B). assert (Ph := so_hps O). assert (Pf := di_forb _ _ _ _ (so_inv _ _ _ _ O)).
    set (s := c_space x) in *.
    assert (Ch : forall h, In h (Space.hps s) -> constructed h) by (intros h Hh; apply (so_constructed O), (Permutation_in _ Ph Hh)).
    assert (Cf : forall f, In f (forbidden_clauses s) -> forb_built f) by (intros f Hf; apply (so_forb_built O), (Permutation_in _ Pf Hf)).
    assert (M1 := mapM_iff (old_param T) old_writable_hp (Space.hps s) (fun h Hh => proj1 (old_param_ok h (Ch h Hh)))).
    assert (M2 := mapM_iff (old_condition T) old_writable_cond (conditions s) (fun c _ => proj1 (old_cond_ok c))).
    assert (M3 := mapM_iff (old_forb_lines T) writable_forb (forbidden_clauses s) (fun f Hf => proj1 (old_forb_ok f (Cf f Hf)))).
    assert (Hh : (forall h, In h hs -> old_writable_hp h) <-> forall h, In h (Space.hps s) -> old_writable_hp h).
    { split; intros H h Hh; apply H; [apply (Permutation_in _ Ph Hh)|apply (Permutation_in _ (Permutation_sym Ph) Hh)]. }
    assert (Hf : (forall f, In f fs -> writable_forb f) <-> forall f, In f (forbidden_clauses s) -> writable_forb f).
    { split; intros H f Hff; apply H; [apply (Permutation_in _ Pf Hff)|apply (Permutation_in _ (Permutation_sym Pf) Hff)]. }
    rewrite Hf. rewrite Hh. rewrite <- M1, <- M2, <- M3. unfold old_write. fold s.
    destruct (mapM (old_param T) (Space.hps s)) as [ps|e1] eqn:E1; cbn [bind].
    2: { split; [split; [intros (t & K); discriminate|intros ((ps & K) & _); discriminate]|]. intros e K. injection K as <-.
      destruct (mapM_err _ _ _ E1) as (h & Hi & Q). assert (Hi' := Permutation_in _ Ph Hi). destruct (proj2 (old_param_ok h (Ch h Hi)) _ Q) as [[-> N]|[-> N]].
      - left. eauto.
      - right. left. split; [reflexivity|]. left. eauto. }
    destruct (mapM (old_condition T) (conditions s)) as [cl|e2] eqn:E2; cbn [bind].
    2: { split; [split; [intros (t & K); discriminate|intros (_ & (cl & K) & _); discriminate]|]. intros e K. injection K as <-. right.
      destruct (mapM_err _ _ _ E2) as (c & Hc & Q). destruct (proj2 (old_cond_ok c) _ Q) as [[-> N]|[-> N]].
      - left. split; [reflexivity|]. right. eauto.
      - right. left. split; [reflexivity|]. split; [apply Hh, M1; eexists; reflexivity|]. left. eauto. }
    destruct (mapM (old_forb_lines T) (forbidden_clauses s)) as [fl|e3] eqn:E3; cbn [bind].
    2: { split; [split; [intros (t & K); discriminate|intros (_ & _ & (fl & K)); discriminate]|]. intros e K. injection K as <-. right. right.
      destruct (mapM_err _ _ _ E3) as (f & Hi & Q). assert (Hi' := Permutation_in _ Pf Hi).
      destruct (proj2 (old_forb_ok f (Cf f Hi)) _ Q) as [[-> (r & a & b & ->)]|(-> & N & Nr)].
      - left. split; [reflexivity|]. split; [apply Hh, M1; eexists; reflexivity|]. right. eauto.
      - right. split; [reflexivity|]. split; [apply Hh, M1; eexists; reflexivity|]. split; [apply M2; eexists; reflexivity|]. eauto. }
    split; [|intros e K; discriminate]. split; [intros _; repeat split; eexists; reflexivity|intros _; eexists; reflexivity].
  Qed.

  (** ** C89: what reading depends on *)
  Lemma old_clean_only st l l' : clean l = clean l' -> old_read_line T st l = old_read_line T st l'.
  Proof. intros H. unfold old_read_line. rewrite H. reflexivity. Qed.
  Lemma old_map_clean f ls : (forall l, clean (f l) = clean l) -> forall st, old_read_lines T (map f ls) st = old_read_lines T ls st.
  Proof.
    intros U. induction ls as [|l ls IH]; intros st; [reflexivity|]. cbn [map old_read_lines]. rewrite (old_clean_only st _ l (U l)).
    destruct (old_read_line T st l) as [st'|e]; [apply IH|reflexivity].
  Qed.
  (** a file is read as the string of its contents *)
  Theorem C89_file t : old_read T (file_lines (lines_of t)) = old_read_string T t.
  Proof.
    unfold old_read_string, old_read. assert (G : forall ls st, old_read_lines T (file_lines ls) st = old_read_lines T ls st).
    { induction ls as [|l ls IH]; intros st; [reflexivity|]. destruct ls as [|k ls].
      - cbn [file_lines]. destruct (String.eqb l "") eqn:Q; [|reflexivity]. apply String.eqb_eq in Q. subst. cbn [old_read_lines]. rewrite old_blank. reflexivity.
      - change (file_lines (l :: k :: ls)) with ((l ++ nl)%string :: file_lines (k :: ls)). cbn [old_read_lines].
        rewrite (old_clean_only st (l ++ nl)%string l (clean_nl l)). destruct (old_read_line T st l) as [st'|e]; [apply IH|reflexivity]. }
    rewrite G. reflexivity.
  Qed.
  (** everything after a "#" is ignored *)
  Lemma clean_uncomment l : clean (uncomment l) = clean l.
  Proof.
    unfold clean. f_equal. f_equal. induction l as [|c l IH]; [reflexivity|]. cbn [uncomment span].
    destruct (Ascii.eqb c "#") eqn:Q; cbn [negb].
    - reflexivity.
    - cbn [span]. rewrite Q. cbn [negb]. destruct (span _ (uncomment l)), (span _ l). cbn [fst] in *. rewrite IH. reflexivity.
  Qed.
  Theorem C89_comments ls : old_read T (map uncomment ls) = old_read T ls.
  Proof. unfold old_read. rewrite (old_map_clean uncomment ls clean_uncomment). reflexivity. Qed.

  (** *** The order of lines of different kinds *)
  Inductive kind := CondLine | ForbLine | HpLine | NoLine.
  Definition kind_eqb (a b : kind) : bool := match a, b with CondLine, CondLine | ForbLine, ForbLine | HpLine, HpLine | NoLine, NoLine => true | _, _ => false end.
  (** without its comment, its quotes and its margins, a line with a bar is a condition, a line in
      braces a clause, and another line with a bracket or brace a hyperparameter *)
  Definition kind_of (raw : string) : kind :=
    let l := clean raw in
    if has_char "|" l then CondLine
    else if (has_char "}" l || has_char "]" l)%bool then
      if (starts_with "{" l && match last_char l with Some c => Ascii.eqb c "}" | None => false end)%bool then ForbLine else HpLine
    else NoLine.
  Definition of_kind (k : kind) (ls : list string) : list string := filter (fun l => kind_eqb (kind_of l) k) ls.
  Definition same_kinds (ls ls' : list string) : Prop := forall k, k <> NoLine -> of_kind k ls = of_kind k ls'.

  Definition old_hp_of (raw : string) : res hp :=
    p <- old_read_cont T (clean raw) ;; q <- old_read_cat (clean raw) p ;; match q with None => Err NotImplementedError | Some h => Ok h end.
  Definition old_cond_of (raw : string) : res (list string) := match parse po_cond (clean raw) with Some ts => Ok ts | None => Err NotImplementedError end.
  Lemma old_line_kind st l : old_read_line T st l =
    match kind_of l with
    | CondLine => ts <- old_cond_of l ;; Ok (mk_ostate (o_hps st) (o_conds st ++ [ts]) (o_forbs st))
    | ForbLine => Ok (mk_ostate (o_hps st) (o_conds st) (o_forbs st ++ [clean l]))
    | HpLine => h <- old_hp_of l ;; Ok (mk_ostate (o_hps st ++ [h]) (o_conds st) (o_forbs st))
    | NoLine => Ok st
    end.
  Proof.
    unfold old_read_line, kind_of, old_cond_of, old_hp_of. cbv zeta. set (c := clean l).
    destruct (has_char "|" c); [destruct (parse po_cond c); reflexivity|].
    destruct (has_char "}" c), (has_char "]" c); cbn [negb andb orb]; try reflexivity;
      (destruct (starts_with "{" c && match last_char c with Some c0 => Ascii.eqb c0 "}" | None => false end)%bool; [reflexivity|]);
      (destruct (old_read_cont T c) as [p|]; [|reflexivity]); cbn [bind]; (destruct (old_read_cat c p) as [[h|]|]; reflexivity).
  Qed.
  Lemma old_lines_kinds ls : forall st st', old_read_lines T ls st = Ok st' <->
    exists hs cs, mapM old_hp_of (of_kind HpLine ls) = Ok hs /\ mapM old_cond_of (of_kind CondLine ls) = Ok cs /\
      st' = mk_ostate (o_hps st ++ hs) (o_conds st ++ cs) (o_forbs st ++ map clean (of_kind ForbLine ls)).
  Proof.
    induction ls as [|l ls IH]; intros st st'.
    - cbn. split.
      + intros H. injection H as <-. exists [], []. destruct st as [a b c]. cbn. rewrite !app_nil_r. auto.
      + intros (hs & cs & H1 & H2 & ->). injection H1 as <-. injection H2 as <-. destruct st as [a b c]. cbn. rewrite !app_nil_r. reflexivity.
    - cbn [old_read_lines]. rewrite old_line_kind. unfold of_kind in *. cbn [filter]. destruct (kind_of l); cbn [kind_eqb]; cbv iota.
      + cbn [mapM]. destruct (old_cond_of l) as [ts|]; cbn [bind].
        * rewrite IH. cbn [o_hps o_conds o_forbs]. split.
          -- intros (hs & cs & H1 & H2 & ->). exists hs, (ts :: cs). rewrite H2. rewrite <- app_assoc. auto.
          -- intros (hs & cs & H1 & H2 & ->). destruct (mapM old_cond_of _) as [cs'|]; [|discriminate]. cbn [bind] in H2. injection H2 as <-. exists hs, cs'. rewrite <- app_assoc. auto.
        * split; [discriminate|]. intros (hs & cs & _ & K & _). discriminate.
      + cbn [bind]. rewrite IH. cbn [o_hps o_conds o_forbs bind map]. split; intros (hs & cs & H1 & H2 & ->); exists hs, cs; rewrite <- app_assoc; auto.
      + cbn [mapM]. destruct (old_hp_of l) as [h|]; cbn [bind].
        * rewrite IH. cbn [o_hps o_conds o_forbs]. split.
          -- intros (hs & cs & H1 & H2 & ->). exists (h :: hs), cs. rewrite H1. rewrite <- app_assoc. auto.
          -- intros (hs & cs & H1 & H2 & ->). destruct (mapM old_hp_of _) as [hs'|]; [|discriminate]. cbn [bind] in H1. injection H1 as <-. exists hs', cs. rewrite <- app_assoc. auto.
        * split; [discriminate|]. intros (hs & cs & K & _). discriminate.
      + apply IH.
  Qed.
  Theorem C89_order ls ls' y : same_kinds ls ls' -> old_read T ls = Ok y -> old_read T ls' = Ok y.
  Proof.
    intros S H. unfold old_read in *. destruct (old_read_lines T ls (mk_ostate [] [] [])) as [st|] eqn:Q; [|discriminate].
    assert (Q' : old_read_lines T ls' (mk_ostate [] [] []) = Ok st).
    { apply old_lines_kinds. apply old_lines_kinds in Q. rewrite <- !S by discriminate. exact Q. }
    rewrite Q'. exact H.
  Qed.

  (** the newer format likewise *)
  Definition new_hp_of (raw : string) : res hp :=
    p <- new_read_cont T (clean raw) ;; q <- new_read_cat (clean raw) p ;; match q with None => Err NotImplementedError | Some h => Ok h end.
  Definition new_cond_of (raw : string) : res (list string) := match parse p_cond (clean raw) with Some ts => Ok ts | None => Err NotImplementedError end.
  Fixpoint add_each (x : cspace) (hs : list hp) : res cspace := match hs with [] => Ok x | h :: hs' => x' <- add_or_raise x [h] [] [] ;; add_each x' hs' end.
  Lemma new_line_kind st l : new_read_line T st l =
    match kind_of l with
    | CondLine => ts <- new_cond_of l ;; Ok (mk_rstate (r_space st) (r_conds st ++ [ts]) (r_forbs st))
    | ForbLine => Ok (mk_rstate (r_space st) (r_conds st) (r_forbs st ++ [clean l]))
    | HpLine => h <- new_hp_of l ;; x' <- add_or_raise (r_space st) [h] [] [] ;; Ok (mk_rstate x' (r_conds st) (r_forbs st))
    | NoLine => Ok st
    end.
  Proof.
    unfold new_read_line, kind_of, new_cond_of, new_hp_of. cbv zeta. set (c := clean l).
    destruct (has_char "|" c); [destruct (parse p_cond c); reflexivity|].
    destruct (has_char "}" c), (has_char "]" c); cbn [negb andb orb]; try reflexivity;
      (destruct (starts_with "{" c && match last_char c with Some c0 => Ascii.eqb c0 "}" | None => false end)%bool; [reflexivity|]);
      (destruct (new_read_cont T c) as [p|]; [|reflexivity]); cbn [bind]; (destruct (new_read_cat c p) as [[h|]|]; reflexivity).
  Qed.
  Lemma new_lines_kinds ls : forall st st', new_read_lines T ls st = Ok st' <->
    exists hs cs x, mapM new_hp_of (of_kind HpLine ls) = Ok hs /\ mapM new_cond_of (of_kind CondLine ls) = Ok cs /\ add_each (r_space st) hs = Ok x /\
      st' = mk_rstate x (r_conds st ++ cs) (r_forbs st ++ map clean (of_kind ForbLine ls)).
  Proof.
    induction ls as [|l ls IH]; intros st st'.
    - cbn. split.
      + intros H. injection H as <-. exists [], [], (r_space st). destruct st as [a b c]. cbn. rewrite !app_nil_r. auto.
      + intros (hs & cs & x & H1 & H2 & H3 & ->). injection H1 as <-. injection H2 as <-. injection H3 as <-. destruct st as [a b c]. cbn. rewrite !app_nil_r. reflexivity.
    - cbn [new_read_lines]. rewrite new_line_kind. unfold of_kind in *. cbn [filter]. destruct (kind_of l); cbn [kind_eqb]; cbv iota.
      + cbn [mapM]. destruct (new_cond_of l) as [ts|]; cbn [bind].
        * rewrite IH. cbn [r_space r_conds r_forbs]. split.
          -- intros (hs & cs & x & H1 & H2 & H3 & ->). exists hs, (ts :: cs), x. rewrite H2. rewrite <- app_assoc. auto.
          -- intros (hs & cs & x & H1 & H2 & H3 & ->). destruct (mapM new_cond_of _) as [cs'|]; [|discriminate]. cbn [bind] in H2. injection H2 as <-. exists hs, cs', x. rewrite <- app_assoc. auto.
        * split; [discriminate|]. intros (hs & cs & x & _ & K & _). discriminate.
      + cbn [bind]. rewrite IH. cbn [r_space r_conds r_forbs bind map]. split; intros (hs & cs & x & H1 & H2 & H3 & ->); exists hs, cs, x; rewrite <- app_assoc; auto.
      + cbn [mapM]. destruct (new_hp_of l) as [h|]; cbn [bind].
        * destruct (add_or_raise (r_space st) [h] [] []) as [x1|e1] eqn:A; cbn [bind].
          -- rewrite IH. cbn [r_space r_conds r_forbs]. split.
             ++ intros (hs & cs & x & H1 & H2 & H3 & ->). exists (h :: hs), cs, x. rewrite H1. cbn [add_each]. rewrite A. auto.
             ++ intros (hs & cs & x & H1 & H2 & H3 & ->). destruct (mapM new_hp_of _) as [hs'|]; [|discriminate]. cbn [bind] in H1. injection H1 as <-.
                cbn [add_each] in H3. rewrite A in H3. cbn [bind] in H3. exists hs', cs, x. auto.
          -- split; [discriminate|]. intros (hs & cs & x & H1 & _ & H3 & _). destruct (mapM new_hp_of _) as [hs'|]; [|discriminate]. cbn [bind] in H1. injection H1 as <-.
             cbn [add_each] in H3. rewrite A in H3. discriminate.
        * split; [discriminate|]. intros (hs & cs & x & K & _). discriminate.
      + apply IH.
  Qed.
  Theorem C89_order_new ls ls' y : same_kinds ls ls' -> new_read T ls = Ok y -> new_read T ls' = Ok y.
  Proof.
    intros S H. unfold new_read in *. destruct (new_read_lines T ls (mk_rstate (new_space None None) [] [])) as [st|] eqn:Q; [|discriminate].
    assert (Q' : new_read_lines T ls' (mk_rstate (new_space None None) [] []) = Ok st).
    { apply new_lines_kinds. apply new_lines_kinds in Q. rewrite <- !S by discriminate. exact Q. }
    rewrite Q'. exact H.
  Qed.
End Write.

Section Witness.
  #[local] Existing Instance rat_env.
  #[local] Existing Instance rat_env_laws.

  Definition ord_space := one_hp hO.
  Definition or_space := fst (c_add (new_space None None) [hA; hE] [get_or dummy_cond (mk_or [cE1; cE1])] []).
  Definition int_in := get_or dummy_cond (mk_in hE hN [VInt 1; VInt 2]).
  Definition in_space := fst (c_add (new_space None None) [hN; hE] [int_in] []).
  Definition relf := get_or dummy_forb (mk_fand [fRel; get_or dummy_forb (mk_feq hN (VInt 2))]).
  Definition relf_space := fst (c_add (new_space None None) [hN; hK] [] [relf]).

  Example C88_case : built (c_space old_space) old_hps old_conds old_forbs /\ (exists t, old_write dec_text old_space = Ok t) /\
    (forall h, In h old_hps -> old_writable_hp h) /\
    old_write dec_text (one_hp hG) = Err ValueError /\ ~ unweighted hG /\
    old_write dec_text ord_space = Err TypeError /\ ~ unordered hO /\
    snd (c_add (new_space None None) [hN; hE] [int_in] []) = Ok tt /\ old_write dec_text in_space = Err TypeError /\
    old_write dec_text or_space = Err NotImplementedError /\ old_write dec_text rel_space = Err NotImplementedError /\
    snd (c_add (new_space None None) [hN; hK] [] [relf]) = Ok tt /\ old_write dec_text relf_space = Err AssertionError.
  Proof.
    assert (B := cbuilt_built _ _ _ _ old_cbuilt). assert (W : old_write dec_text old_space = Ok old_text) by (vm_compute; reflexivity).
    split; [exact B|]. split; [eauto|]. split; [apply (proj1 (C88_write_iff dec_text old_space _ _ _ B)); eauto|].
    split; [vm_compute; reflexivity|]. split; [intros []|]. split; [vm_compute; reflexivity|]. split; [intros []|].
    repeat split; vm_compute; reflexivity.
  Qed.

  Definition mixed := ["h | a in {x} # when a is x"; "{a=y, h=q}"; "k [1, 10] [4]i"; "# hyperparameters"; "h {p, q} [p]"; "'a' {x, y} [x]"].
  Definition sorted_ := ["k [1, 10] [4]i"; "h {p, q} [p]"; "'a' {x, y} [x]"; ""; "h | a in {x} # when a is x"; ""; "{a=y, h=q}"].
  Example C89_case : mixed <> sorted_ /\ same_kinds mixed sorted_ /\
    (exists y, old_read dec_text mixed = Ok y /\ length (Space.hps (c_space y)) = 3 /\ length (conditions (c_space y)) = 1 /\ length (forbidden_clauses (c_space y)) = 1) /\
    (exists y, old_read dec_text (map uncomment mixed) = Ok y /\ length (Space.hps (c_space y)) = 3) /\
    (exists y, old_read dec_text (file_lines (lines_of (String.concat nl sorted_))) = Ok y /\ length (Space.hps (c_space y)) = 3).
  Proof.
    split; [discriminate|]. split; [intros [] K; try (exfalso; apply K; reflexivity); vm_compute; reflexivity|].
    split; [eexists; vm_compute; repeat split|]. split; eexists; vm_compute; repeat split.
  Qed.
  Definition mixed_new := ["h | a in {x} # when a is x"; "{a=y, k=3}"; "k integer [1, 10] [4]"; "# hyperparameters"; "h categorical {p, q} [p]"; "'a' categorical {x, y} [x]"].
  Definition sorted_new := ["k integer [1, 10] [4]"; "h categorical {p, q} [p]"; "'a' categorical {x, y} [x]"; ""; "h | a in {x} # when a is x"; ""; "{a=y, k=3}"].
  Example C89_case_new : same_kinds mixed_new sorted_new /\
    (exists y, new_read dec_text mixed_new = Ok y /\ length (Space.hps (c_space y)) = 3 /\ length (conditions (c_space y)) = 1 /\ length (forbidden_clauses (c_space y)) = 1).
  Proof.
    split; [intros [] K; try (exfalso; apply K; reflexivity); vm_compute; reflexivity|]. eexists; vm_compute; repeat split.
  Qed.
End Witness.
