(** * Properties C84 and following: when the newer PCS format can be written, and what reading raises *)
From Coq Require Import String Ascii List ZArith QArith Qround Qabs Bool Lia Lqa Relations Permutation.
From Verif Require Import Base ListFacts Numeric NumericProofs HP HPProofs EqFacts EvalProofs Properties_HP Cond Forb Dag DagCycle DagProofs Space
  CommitProofs Spec SpaceProofs ConfigProofs ValidProofs Fix Serial ForbProofs PassProofs Properties_Graph Properties_Eval Properties_Exchange Properties_Api Properties_Config Properties_Add Properties_Serial
  Properties_Priors Ex Pcs PcsProofs PcsText Properties_PcsWords Properties_Pcs.
Import ListNotations.
Open Scope string_scope.
Open Scope nat_scope.
Open Scope list_scope.

Section Write.
  Context {E : Env} {L : EnvLaws E}.
  Variable T : text.

  (** ** Specification *)

  (** the name begins, after blanks, tabs and line ends, with a letter, a digit or one of some signs *)
  Fixpoint begins_name (n : string) : Prop :=
    match n with
    | EmptyString => False
    | String c n' => In c (chars alphabet) \/ (In c [" "; "009"; "010"; "013"]%char /\ begins_name n')
    end.
  Definition writable_hp (h : hp) : Prop :=
    begins_name (hp_name h) /\ match hp_kind h with KCat _ (Some _) => False | _ => True end.
  (** no conjunction within a conjunction *)
  Definition flat (c : cond) : Prop :=
    match c with CLit _ => True | CAnd cs | COr cs => forall c', In c' cs -> exists l, c' = CLit l end.
  (** no relation, unless the clause has a membership in no values at all *)
  Definition writable_forb (f : fclause) : Prop :=
    (forall r a b, ~ In (FRel r a b) (fdlcs f)) \/ exists h vvs, In (FIn h [] vvs) (fdlcs f).

  (** ** Hyperparameters *)
  Lemma name_begins n : (match parse p_name n with Some _ => true | None => false end) = true <-> begins_name n.
  Proof.
    unfold parse, p_name, word, skip_white. induction n as [|c n IH]; [simpl; split; [discriminate|tauto]|].
    cbn [drop_while begins_name]. rewrite <- name_char_iff, <- is_white_iff. destruct (is_white c) eqn:W.
    - rewrite IH. split; [auto|]. intros [H|[_ H]]; [|exact H]. exfalso. destruct (name_char_blank c H) as [K _]. congruence.
    - cbn [span]. destruct (name_char c) eqn:Nc.
      + destruct (span name_char n) as [a b]. simpl. tauto.
      + simpl. split; [discriminate|]. intros [H|[H _]]; discriminate.
  Qed.

  Lemma param_ok h : constructed h -> ((exists l, new_param T h = Ok l) <-> writable_hp h) /\ forall e, new_param T h = Err e -> e = ValueError.
  Proof.
    intros C. unfold new_param, writable_hp. rewrite <- name_begins.
    destruct (match parse p_name (hp_name h) with Some _ => true | None => false end).
    2: { split; [split; [intros (l & H); discriminate|intros [H _]; discriminate]|intros e H; congruence]. }
    assert (G : match hp_kind h with KInt _ _ _ _ | KFloat _ _ _ _ => True | _ => False end -> exists l, new_continuous T h = Ok l).
    { intros K. unfold new_continuous. rewrite (to_uniform_uni h C). cbn [bind]. assert (Lg := default_legal h C).
      unfold uni, legal_value in *. cbn [hp_kind hp_default hp_name]. destruct (hp_kind h); try destruct K; cbv beta iota; [|eexists; reflexivity].
      unfold to_int. destruct (hp_default h); cbn [num_of] in *; cbv beta iota in *; first [discriminate Lg|cbn [bind]; eexists; reflexivity]. }
    destruct (hp_kind h) as [c [w|]|sq|v|lo hi lg d|lo hi lg d]; cbn [new_categorical].
    - split; [split; [intros (l & H); discriminate|intros [_ []]]|intros e H; congruence].
    - split; [split; [auto|intros _; eexists; reflexivity]|intros e H; discriminate].
    - split; [split; [auto|intros _; eexists; reflexivity]|intros e H; discriminate].
    - split; [split; [auto|intros _; eexists; reflexivity]|intros e H; discriminate].
    - destruct (G I) as (l & ->). split; [split; [auto|intros _; eexists; reflexivity]|intros e H; discriminate].
    - destruct (G I) as (l & ->). split; [split; [auto|intros _; eexists; reflexivity]|intros e H; discriminate].
  Qed.

  (** ** Conditions *)
  Lemma split_twice a b : forall cur, nth_error (split_from "|" 0 cur (a ++ ("|" ++ b))%string) 1 <> None.
  Proof.
    assert (H : forall s cur, nth_error (split_from "|" 0 cur s) 0 <> None).
    { clear. induction s as [|c s IH]; intros cur; cbn [split_from nth_error]; [discriminate|]. destruct (starts_with "|" _); [discriminate|apply IH]. }
    induction a as [|c a IH]; intros cur.
    - apply (H b "").
    - change (String c a ++ ("|" ++ b))%string with (String c (a ++ ("|" ++ b))). cbn [split_from]. destruct (starts_with "|" _); [|apply IH].
      cbn [nth_error]. apply H.
  Qed.
  Lemma component_ok l : exists t, new_component T (CLit l) = Ok t.
  Proof.
    unfold new_component, tok, split_on.
    assert (G : exists b, new_condition T l = ((hp_name (l_child l) ++ " ") ++ ("|" ++ b))%string).
    { unfold new_condition. destruct (l_test l); eexists; rewrite app_assoc_s; reflexivity. }
    destruct G as (b & ->). assert (H := split_twice (hp_name (l_child l) ++ " ") b "").
    destruct (nth_error _ 1) as [t|]; [cbn [bind]; eexists; reflexivity|congruence].
  Qed.
  Lemma components_ok cs : ((exists ts, mapM (new_component T) cs = Ok ts) <-> forall c', In c' cs -> exists l, c' = CLit l) /\
    forall e, mapM (new_component T) cs = Err e -> e = NotImplementedError.
  Proof.
    induction cs as [|c cs [I1 I2]]; [split; [split; [intros _ c []|intros _; eexists; reflexivity]|intros e H; discriminate]|].
    cbn [mapM]. destruct c as [l|cs'|cs'].
    - destruct (component_ok l) as (t & ->). cbn [bind]. destruct (mapM (new_component T) cs) as [ts|e0].
      + split; [|intros e H; discriminate]. split; [|intros _; eexists; reflexivity].
        intros _ c' [<-|Hc]; [eexists; reflexivity|]. apply I1; [eexists; reflexivity|exact Hc].
      + split; [|intros e H; cbn in H; injection H as <-; apply I2; reflexivity]. split; [intros (ts & H); discriminate|].
        intros H. destruct (proj2 I1) as (ts & K); [intros c' Hc; apply H; right; exact Hc|discriminate].
    - cbn. split; [|intros e H; congruence]. split; [intros (ts & H); discriminate|]. intros H. destruct (H _ (or_introl eq_refl)) as (l & K). discriminate.
    - cbn. split; [|intros e H; congruence]. split; [intros (ts & H); discriminate|]. intros H. destruct (H _ (or_introl eq_refl)) as (l & K). discriminate.
  Qed.
  Lemma cond_line_ok c : (exists n, activates c n) -> ((exists l, new_cond_line T c = Ok l) <-> flat c) /\ forall e, new_cond_line T c = Err e -> e = NotImplementedError.
  Proof.
    intros (n & A). destruct c as [l|cs|cs]; cbn [new_cond_line flat].
    - split; [split; [auto|intros _; eexists; reflexivity]|intros e H; discriminate].
    - unfold activates in A. unfold new_conjunction. destruct (cond_child (CAnd cs)) as [ch|]; [|discriminate]. destruct (components_ok cs) as [I1 I2]. rewrite <- I1.
      destruct (mapM (new_component T) cs) as [ts|e0]; cbn [bind].
      + split; [split; intros _; eexists; reflexivity|intros e H; discriminate].
      + split; [split; intros (l & H); discriminate|]. intros e H. injection H as <-. apply I2. reflexivity.
    - unfold activates in A. unfold new_conjunction. destruct (cond_child (COr cs)) as [ch|]; [|discriminate]. destruct (components_ok cs) as [I1 I2]. rewrite <- I1.
      destruct (mapM (new_component T) cs) as [ts|e0]; cbn [bind].
      + split; [split; intros _; eexists; reflexivity|intros e H; discriminate].
      + split; [split; intros (l & H); discriminate|]. intros e H. injection H as <-. apply I2. reflexivity.
  Qed.

  (** ** Clauses *)
  Lemma leaf_kind f g : In g (fdlcs f) -> match g with FAnd _ => False | _ => True end.
  Proof.
    induction f as [h v vv|h vs vvs|r a b|cs IH] using fclause_ind'; intros Hg; try (destruct Hg as [<-|[]]; exact I).
    cbn [fdlcs] in Hg. apply in_concat in Hg. destruct Hg as (l & Hl & Hg). apply in_map_iff in Hl. destruct Hl as (c & <- & Hc).
    rewrite Forall_forall in IH. apply (IH c Hc Hg).
  Qed.
  Definition simple (f : fclause) : Prop := match f with FEq _ _ _ | FRel _ _ _ => True | _ => False end.
  Definition rel_free (fs : list fclause) : Prop := forall r a b, ~ In (FRel r a b) fs.

  Lemma literals_ok fs : (forall f, In f fs -> simple f) ->
    ((exists t, new_forbidden T fs = Ok t) <-> rel_free fs) /\ forall e, new_forbidden T fs = Err e -> e = NotImplementedError /\ ~ rel_free fs.
  Proof.
    intros H. unfold new_forbidden.
    assert (G : ((exists ts, mapM (new_literal T) fs = Ok ts) <-> rel_free fs) /\ forall e, mapM (new_literal T) fs = Err e -> e = NotImplementedError /\ ~ rel_free fs).
    { induction fs as [|f fs IH]; [split; [split; [intros _ r a b []|intros _; eexists; reflexivity]|intros e K; discriminate]|].
      destruct IH as [I1 I2]; [intros; apply H; right; assumption|]. assert (Hf := H f (or_introl eq_refl)). cbn [mapM].
      destruct f as [h v vv|h vs vvs|r a b|cs]; try destruct Hf; cbn [new_literal bind].
      - destruct (mapM (new_literal T) fs) as [ts|e0]; cbn [bind].
        + split; [|intros e K; discriminate]. split; [|intros _; eexists; reflexivity]. intros _ r a b [K|K]; [discriminate|].
          apply (proj1 I1 ltac:(eexists; reflexivity) r a b K).
        + destruct (I2 e0 eq_refl) as [-> N]. split.
          * split; [intros (ts & K); discriminate|]. intros K. exfalso. apply N. intros r a b Hr. apply (K r a b). right. exact Hr.
          * intros e K. injection K as <-. split; [reflexivity|]. intros R. apply N. intros r a b Hr. apply (R r a b). right. exact Hr.
      - assert (N : ~ rel_free (FRel r a b :: fs)) by (intros R; apply (R r a b); left; reflexivity).
        split; [split; [intros (ts & K); discriminate|intros R; exfalso; apply N, R]|]. intros e K. injection K as <-. auto. }
    destruct G as [G1 G2]. rewrite <- G1. destruct (mapM (new_literal T) fs) as [ts|e0]; cbn [bind].
    - split; [split; intros _; eexists; reflexivity|intros e K; discriminate].
    - split; [split; intros (t & K); discriminate|]. intros e K. injection K as <-. destruct (G2 e0 eq_refl) as [-> N]. split; [reflexivity|exact N].
  Qed.

  Lemma product_nil {A} (ls : list (list A)) : product ls = [] <-> In [] ls.
  Proof.
    induction ls as [|l ls IH]; [split; [discriminate|intros []]|]. cbn [product]. split.
    - intros H. destruct l as [|x l]; [left; reflexivity|]. right. apply IH. cbn [map concat] in H. apply app_eq_nil in H. destruct H as [H _].
      destruct (product ls); [reflexivity|discriminate].
    - intros [->|H]; [reflexivity|]. apply IH in H. rewrite H. clear. induction l as [|x l IHl]; [reflexivity|exact IHl].
  Qed.

  Lemma forb_lines_ok f : forb_built f -> ((exists ls, new_forb_lines T f = Ok ls) <-> writable_forb f) /\
    forall e, new_forb_lines T f = Err e -> (e = TypeError /\ exists r a b, f = FRel r a b) \/
      (e = NotImplementedError /\ ~ writable_forb f /\ forall r a b, f <> FRel r a b).
  Proof.
    intros B. unfold new_forb_lines. set (ls := fdlcs f). cbv zeta. set (others := filter (fun g => negb (is_in g)) ls).
    assert (Ins : exists ins, mapM equals_of (filter is_in ls) = Ok ins /\
      Forall2 (fun g es => exists h vs vvs, g = FIn h vs vvs /\ length vs = length es /\ forall e, In e es -> exists v vv, e = FEq h v vv) (filter is_in ls) ins).
    { apply mapM_rel. intros g Hg. apply filter_In in Hg. destruct Hg as [H1 H2]. destruct g as [h v vv|h vs vvs|r a b|cs]; try discriminate.
      destruct (leaf_fin h vs vvs (leaf_built f _ B H1)) as (es & E1 & E2). exists es. split; [exact E1|]. exists h, vs, vvs. split; [reflexivity|].
      clear -E2. induction E2 as [|v e vs es (vv & -> & _) H [IH1 IH2]]; [split; [reflexivity|intros e []]|]. split; [simpl; congruence|].
      intros e [<-|He]; [eauto|apply IH2, He]. }
    destruct Ins as (ins & I1 & I2). rewrite I1. cbn [bind].
    assert (So : forall g, In g others -> simple g).
    { intros g Hg. apply filter_In in Hg. destruct Hg as [H1 H2]. assert (K := leaf_kind f g H1). destruct g; try exact I; [discriminate|destruct K]. }
    assert (Ro : rel_free others <-> rel_free ls).
    { split; intros H r a b Hr; apply (H r a b); [apply filter_In; split; [exact Hr|reflexivity]|apply filter_In in Hr; apply Hr]. }
    assert (Sp : forall p, In p (product ins) -> forall g, In g p -> exists h v vv, g = FEq h v vv).
    { intros p Hp g Hg. apply product_spec in Hp. clear I1. revert I2. generalize (filter is_in ls). induction Hp as [|a l p ins Ha Hp IH]; intros gs I2; [destruct Hg|].
      inversion I2 as [|g0 l0 gs' ins' (h & vs & vvs & _ & _ & K) I2']; subst. destruct Hg as [<-|Hg]; [destruct (K a Ha) as (v & vv & ->); eauto|apply (IH Hg gs' I2')]. }
    assert (Nil : In [] ins <-> exists h vvs, In (FIn h [] vvs) ls).
    { assert (G : In [] ins <-> exists h vvs, In (FIn h [] vvs) (filter is_in ls)).
      { clear -I2. induction I2 as [|g es gs ins (h & vs & vvs & -> & Ln & _) I2 IH]; [split; [intros []|intros (h & vvs & [])]|]. split.
        - intros [->|H]; [exists h, vvs; left; destruct vs; [reflexivity|discriminate]|]. apply IH in H. destruct H as (h' & vvs' & H). exists h', vvs'. right. exact H.
        - intros (h' & vvs' & [H|H]).
          + injection H as <- -> <-. left. destruct es; [reflexivity|discriminate].
          + right. apply IH. eauto. }
      rewrite G. split; intros (h & vvs & H); exists h, vvs; [apply filter_In in H; apply H|apply filter_In; split; [exact H|reflexivity]]. }
    destruct ins as [|i ins].
    - assert (Eo : others = ls).
      { inversion I2 as [Ef|]. unfold others. clear -Ef. induction ls as [|g ls' IH]; [reflexivity|]. cbn [filter] in *.
        destruct (is_in g); [discriminate|]. cbn [negb]. f_equal. apply IH. exact Ef. }
      rewrite Eo in *. destruct (literals_ok ls So) as [L1 L2].
      assert (W : writable_forb f <-> rel_free ls).
      { unfold writable_forb. fold ls. split; [|intros H; left; exact H]. intros [H|H]; [exact H|]. apply Nil in H. destruct H. }
      assert (Fr : match f with FRel _ _ _ => false | _ => true end = true \/ exists r a b, f = FRel r a b) by (destruct f; eauto).
      destruct Fr as [Fr|(r & a & b & Ef)].
      + rewrite Fr, W, <- L1. destruct (new_forbidden T ls) as [t|e0]; cbn [bind].
        * split; [split; intros _; eexists; reflexivity|intros e K; discriminate].
        * split; [split; intros (l & K); discriminate|]. intros e K. injection K as <-. right. destruct (L2 e0 eq_refl) as [-> N]. split; [reflexivity|].
          split; [rewrite W; exact N|]. intros r a b ->. discriminate.
      + assert (N : ~ rel_free ls) by (intros K; apply (K r a b); unfold ls; rewrite Ef; left; reflexivity).
        rewrite W. rewrite Ef. split; [split; [intros (l & K); discriminate|intros K; exfalso; apply N, K]|].
        intros e K. injection K as <-. left. split; [reflexivity|eauto].
    - assert (Nr : forall r a b, f <> FRel r a b).
      { intros r a b Ef. assert (Q : filter is_in ls = []) by (unfold ls; rewrite Ef; reflexivity). rewrite Q in I2. inversion I2. }
      assert (Sall : forall p, In p (product (i :: ins)) -> forall g, In g (p ++ others) -> simple g).
      { intros p Hp g Hg. apply in_app_iff in Hg. destruct Hg as [Hg|Hg]; [|apply So, Hg]. destruct (Sp p Hp g Hg) as (h & v & vv & ->). exact I. }
      assert (Rall : forall p, In p (product (i :: ins)) -> rel_free (p ++ others) <-> rel_free ls).
      { intros p Hp. rewrite <- Ro. split; intros H r a b Hr; apply (H r a b); [apply in_app_iff; right; exact Hr|].
        apply in_app_iff in Hr. destruct Hr as [Hr|Hr]; [|exact Hr]. destruct (Sp p Hp _ Hr) as (h & v & vv & K). discriminate. }
      assert (W : writable_forb f <-> rel_free ls \/ product (i :: ins) = []).
      { unfold writable_forb. fold ls. rewrite product_nil, Nil. reflexivity. }
      rewrite W. revert W Sall Rall. generalize (product (i :: ins)). intros ps W Sall Rall.
      assert (G : ((exists l, mapM (fun p => new_forbidden T (p ++ others)) ps = Ok l) <-> rel_free ls \/ ps = []) /\
        forall e, mapM (fun p => new_forbidden T (p ++ others)) ps = Err e -> e = NotImplementedError /\ ~ (rel_free ls \/ ps = [])).
      { clear -Sall Rall. induction ps as [|p ps IH].
        - split; [split; [intros _; right; reflexivity|intros _; eexists; reflexivity]|intros e K; discriminate].
        - destruct IH as [J1 J2]; [intros q Hq; apply Sall; right; exact Hq|intros q Hq; apply Rall; right; exact Hq|]. cbn [mapM].
          destruct (literals_ok (p ++ others) (Sall p (or_introl eq_refl))) as [L1 L2]. rewrite (Rall p (or_introl eq_refl)) in L1.
          destruct (new_forbidden T (p ++ others)) as [t|e0]; cbn [bind].
          + assert (F : rel_free ls) by (apply L1; eexists; reflexivity). destruct (mapM _ ps) as [ts|e1]; cbn [bind].
            * split; [split; [intros _; left; exact F|intros _; eexists; reflexivity]|intros e K; discriminate].
            * exfalso. apply (J2 e1 eq_refl). left. exact F.
          + destruct (L2 e0 eq_refl) as [-> N]. rewrite (Rall p (or_introl eq_refl)) in N. split.
            * split; [intros (l & K); discriminate|intros [K|K]; [exfalso; apply N, K|discriminate]].
            * intros e K. injection K as <-. split; [reflexivity|]. intros [K|K]; [apply N, K|discriminate]. }
      destruct G as [G1 G2]. split; [exact G1|]. intros e K. right. destruct (G2 e K) as [-> N]. split; [reflexivity|]. split; [|exact Nr]. rewrite W. exact N.
  Qed.

  (** ** C84: the text can be written exactly when ...; and what write() raises otherwise *)
  Lemma mapM_iff {A B} (f : A -> res B) (P : A -> Prop) l : (forall a, In a l -> (exists b, f a = Ok b) <-> P a) ->
    (exists bs, mapM f l = Ok bs) <-> forall a, In a l -> P a.
  Proof.
    intros H. split.
    - intros (bs & K) a Ha. apply (H a Ha). clear H. revert bs K. induction l as [|c l IH]; intros bs K; [destruct Ha|]. cbn [mapM] in K.
      destruct (f c) as [b|] eqn:Q; [|discriminate]. cbn [bind] in K. destruct (mapM f l) as [bs'|]; [|discriminate]. destruct Ha as [<-|Ha]; [eauto|apply (IH Ha bs' eq_refl)].
    - intros K. destruct (mapM_rel f (fun _ _ => True) l) as (bs & Q & _); [|eauto]. intros a Ha. destruct (proj2 (H a Ha) (K a Ha)) as (b & Q). eauto.
  Qed.
  Lemma mapM_err {A B} (f : A -> res B) l e : mapM f l = Err e -> exists a, In a l /\ f a = Err e.
  Proof.
    induction l as [|a l IH]; [discriminate|]. cbn [mapM]. destruct (f a) as [b|e0] eqn:Q; cbn [bind].
    - destruct (mapM f l) as [bs|e1]; cbn [bind]; [discriminate|]. intros K. injection K as ->. destruct (IH eq_refl) as (c & Hc & K). exists c. split; [right; exact Hc|exact K].
    - intros K. injection K as ->. exists a. split; [left; reflexivity|exact Q].
  Qed.

  Theorem C84_write_iff x hs cs fs : built (c_space x) hs cs fs ->
    ((exists t, new_write T x = Ok t) <->
     (forall h, In h hs -> writable_hp h) /\ (forall c, In c (conditions (c_space x)) -> flat c) /\ (forall f, In f fs -> writable_forb f)) /\
    forall e, new_write T x = Err e ->
      (e = ValueError /\ exists h, In h hs /\ ~ writable_hp h) \/
      (e = NotImplementedError /\ (forall h, In h hs -> writable_hp h) /\
       ((exists c, In c (conditions (c_space x)) /\ ~ flat c) \/ (exists f, In f fs /\ ~ writable_forb f /\ forall r a b, f <> FRel r a b))) \/
      (e = TypeError /\ (forall h, In h hs -> writable_hp h) /\ (forall c, In c (conditions (c_space x)) -> flat c) /\ exists r a b, In (FRel r a b) fs).
  Proof.
    intros B. assert (O := built_ok _ _ _ _ B). assert (Ph := so_hps O). assert (Pf := di_forb _ _ _ _ (so_inv _ _ _ _ O)).
    set (s := c_space x) in *.
    assert (Ch : forall h, In h (Space.hps s) -> constructed h) by (intros h Hh; apply (so_constructed O), (Permutation_in _ Ph Hh)).
    assert (Ca : forall c, In c (conditions s) -> exists n, activates c n).
    { intros c Hc. destruct (C58_partial s hs cs fs B) as (P1 & _). destruct (P1 c Hc) as (n & Hi & _). exists n.
      unfold in_force in Hi. rewrite (so_conds_of O) in Hi. destruct (condof (d_nodes (s_dag s)) n) as [c0|] eqn:Q; [|destruct Hi]. destruct Hi as [<-|[]].
      apply (so_condof_in O _ _ Q). }
    assert (Cf : forall f, In f (forbidden_clauses s) -> forb_built f) by (intros f Hf; apply (so_forb_built O), (Permutation_in _ Pf Hf)).
    assert (M1 := mapM_iff (new_param T) writable_hp (Space.hps s) (fun h Hh => proj1 (param_ok h (Ch h Hh)))).
    assert (M2 := mapM_iff (new_cond_line T) flat (conditions s) (fun c Hc => proj1 (cond_line_ok c (Ca c Hc)))).
    assert (M3 := mapM_iff (new_forb_lines T) writable_forb (forbidden_clauses s) (fun f Hf => proj1 (forb_lines_ok f (Cf f Hf)))).
    assert (Hh : (forall h, In h hs -> writable_hp h) <-> forall h, In h (Space.hps s) -> writable_hp h).
    { split; intros H h Hh; apply H; [apply (Permutation_in _ Ph Hh)|apply (Permutation_in _ (Permutation_sym Ph) Hh)]. }
    assert (Hf : (forall f, In f fs -> writable_forb f) <-> forall f, In f (forbidden_clauses s) -> writable_forb f).
    { split; intros H f Hff; apply H; [apply (Permutation_in _ Pf Hff)|apply (Permutation_in _ (Permutation_sym Pf) Hff)]. }
    rewrite Hf. rewrite Hh. rewrite <- M1, <- M2, <- M3. unfold new_write. fold s.
    destruct (mapM (new_param T) (Space.hps s)) as [ps|e1] eqn:E1; cbn [bind].
    2: { split; [split; [intros (t & K); discriminate|intros ((ps & K) & _); discriminate]|]. intros e K. injection K as <-. left.
      destruct (mapM_err _ _ _ E1) as (h & Hi & Q). destruct (param_ok h (Ch h Hi)) as [P1 P2]. split; [apply P2, Q|]. exists h.
      split; [apply (Permutation_in _ Ph Hi)|]. rewrite <- P1. intros (l & K). congruence. }
    destruct (mapM (new_cond_line T) (conditions s)) as [cl|e2] eqn:E2; cbn [bind].
    2: { split; [split; [intros (t & K); discriminate|intros (_ & (cl & K) & _); discriminate]|]. intros e K. injection K as <-. right. left.
      destruct (mapM_err _ _ _ E2) as (c & Hc & Q). destruct (cond_line_ok c (Ca c Hc)) as [P1 P2]. split; [apply P2, Q|]. split; [apply Hh, M1; eexists; reflexivity|].
      left. exists c. split; [exact Hc|]. rewrite <- P1. intros (l & K). congruence. }
    destruct (mapM (new_forb_lines T) (forbidden_clauses s)) as [fl|e3] eqn:E3; cbn [bind].
    2: { split; [split; [intros (t & K); discriminate|intros (_ & _ & (fl & K)); discriminate]|]. intros e K. injection K as <-. right.
      destruct (mapM_err _ _ _ E3) as (f & Hi & Q). destruct (forb_lines_ok f (Cf f Hi)) as [P1 P2]. assert (Hi' := Permutation_in _ Pf Hi).
      destruct (P2 _ Q) as [[-> (r & a & b & ->)]|(-> & N & Nr)].
      - right. split; [reflexivity|]. split; [apply Hh, M1; eexists; reflexivity|]. split; [apply M2; eexists; reflexivity|]. eauto.
      - left. split; [reflexivity|]. split; [apply Hh, M1; eexists; reflexivity|]. right. eauto. }
    split; [|intros e K; discriminate]. split; [intros _; repeat split; eexists; reflexivity|intros _; eexists; reflexivity].
  Qed.

  (** ** C85: what a line means does not depend on a newline at its end, nor on comments and quotes *)
  Lemma rdrop_nil a : rdrop_while is_space (a ++ nl)%string = rdrop_while is_space a.
  Proof. induction a as [|c a IH]; [reflexivity|]. cbn [append rdrop_while]. rewrite IH. reflexivity. Qed.
  Lemma strip_nl a : strip (a ++ nl)%string = strip a.
  Proof.
    unfold strip. induction a as [|c a IH]; [reflexivity|]. cbn [append drop_while]. destruct (is_space c); [exact IH|].
    change (String c (a ++ nl))%string with (String c a ++ nl)%string. apply rdrop_nil.
  Qed.
  Lemma filter_app_s p a b : filter_chars p (a ++ b)%string = (filter_chars p a ++ filter_chars p b)%string.
  Proof. induction a as [|c a IH]; [reflexivity|]. cbn [append filter_chars]. rewrite IH. destruct (p c); reflexivity. Qed.
  Lemma span_app p a b : fst (span p (a ++ b)%string) = if all_chars p a then (a ++ fst (span p b))%string else fst (span p a).
  Proof.
    induction a as [|c a IH]; [reflexivity|]. cbn [append span all_chars]. destruct (p c); [|reflexivity]. cbn [andb].
    destruct (span p (a ++ b)%string) as [u v]. destruct (span p a) as [u' v']. cbn [fst] in *. rewrite IH. destruct (all_chars p a); reflexivity.
  Qed.
  Lemma span_all p a : all_chars p a = true -> fst (span p a) = a.
  Proof.
    induction a as [|c a IH]; intros H; [reflexivity|]. cbn [all_chars span] in *. apply andb_true_iff in H. destruct H as [H1 H2]. rewrite H1.
    destruct (span p a). cbn [fst] in *. rewrite (IH H2). reflexivity.
  Qed.
  Lemma clean_nl l : clean (l ++ nl)%string = clean l.
  Proof.
    unfold clean. rewrite span_app. destruct (all_chars _ l) eqn:Q; [|reflexivity]. rewrite (span_all _ l Q), filter_app_s. apply strip_nl.
  Qed.
  (** a comment *)
  Lemma clean_comment a b : clean (a ++ String "#" b)%string = clean a.
  Proof.
    unfold clean. rewrite span_app. destruct (all_chars _ a) eqn:Q; [|reflexivity]. rewrite (span_all _ a Q). cbn [span fst]. change (negb (Ascii.eqb "#" "#")) with false. cbv iota.
    cbn [fst]. rewrite app_nil_s. reflexivity.
  Qed.

  Lemma line_clean_only st l l' : clean l = clean l' -> new_read_line T st l = new_read_line T st l'.
  Proof. intros H. unfold new_read_line. rewrite H. reflexivity. Qed.

  (** the lines of an open file: all but the last one end with a newline; an empty last one is missing *)
  Fixpoint file_lines (ls : list string) : list string :=
    match ls with
    | [] => []
    | [l] => if String.eqb l "" then [] else [l]
    | l :: ls' => (l ++ nl)%string :: file_lines ls'
    end.
  Theorem C85_file t : new_read T (file_lines (lines_of t)) = new_read T (lines_of t).
  Proof.
    unfold new_read. assert (G : forall ls st, new_read_lines T (file_lines ls) st = new_read_lines T ls st).
    { induction ls as [|l ls IH]; intros st; [reflexivity|]. destruct ls as [|k ls].
      - cbn [file_lines]. destruct (String.eqb l "") eqn:Q; [|reflexivity]. apply String.eqb_eq in Q. subst. cbn [new_read_lines]. rewrite read_blank. reflexivity.
      - change (file_lines (l :: k :: ls)) with ((l ++ nl)%string :: file_lines (k :: ls)). cbn [new_read_lines].
        rewrite (line_clean_only st (l ++ nl)%string l (clean_nl l)). destruct (new_read_line T st l) as [st'|e]; [apply IH|reflexivity]. }
    rewrite G. reflexivity.
  Qed.

  (** everything after a "#" is ignored *)
  Fixpoint uncomment (l : string) : string :=
    match l with EmptyString => l | String c l' => if Ascii.eqb c "#" then EmptyString else String c (uncomment l') end.
  Theorem C85_comments ls : new_read T (map uncomment ls) = new_read T ls.
  Proof.
    unfold new_read.
    assert (U : forall l, clean (uncomment l) = clean l).
    { intros l. unfold clean. f_equal. f_equal. induction l as [|c l IH]; [reflexivity|]. cbn [uncomment span].
      destruct (Ascii.eqb c "#") eqn:Q; cbn [negb].
      - reflexivity.
      - cbn [span]. rewrite Q. cbn [negb]. destruct (span _ (uncomment l)), (span _ l). cbn [fst] in *. rewrite IH. reflexivity. }
    assert (G : forall ls st, new_read_lines T (map uncomment ls) st = new_read_lines T ls st).
    { induction ls0 as [|l ls0 IH]; intros st; [reflexivity|]. cbn [map new_read_lines]. rewrite (line_clean_only st _ l (U l)).
      destruct (new_read_line T st l) as [st'|e]; [apply IH|reflexivity]. }
    rewrite G. reflexivity.
  Qed.

  (** ** C86: reading a string instead of lines raises, unless it contains nothing to read *)
  Definition telling (c : ascii) : bool := (Ascii.eqb c "|" || Ascii.eqb c "}" || Ascii.eqb c "]")%char%bool.
  Lemma read_char st c : new_read_line T st (String c "") = if telling c then Err NotImplementedError else Ok st.
  Proof. destruct c as [[] [] [] [] [] [] [] []]; reflexivity. Qed.
  Theorem C86_string t : new_read T (chars_of t) = if all_chars (fun c => negb (telling c)) t then new_read T [] else Err NotImplementedError.
  Proof.
    unfold new_read at 1.
    assert (G : forall st, new_read_lines T (chars_of t) st = if all_chars (fun c => negb (telling c)) t then Ok st else Err NotImplementedError).
    { induction t as [|c t IH]; intros st; [reflexivity|]. cbn [chars_of new_read_lines all_chars]. rewrite read_char. destruct (telling c); cbn [bind negb andb]; [reflexivity|apply IH]. }
    rewrite G. destruct (all_chars _ t); [|reflexivity]. unfold new_read. cbn [new_read_lines]. reflexivity.
  Qed.
  Theorem C86_nothing : exists y, new_read T [] = Ok y /\ Space.hps (c_space y) = [].
  Proof.
    assert (G : match new_read T [] with Ok y => Space.hps (c_space y) = [] | Err _ => False end) by (vm_compute; reflexivity).
    destruct (new_read T []) as [y|]; [eauto|destruct G].
  Qed.
End Write.

Section Witness.
  #[local] Existing Instance rat_env.
  #[local] Existing Instance rat_env_laws.

  Definition rel_space := fst (c_add (new_space None None) [hN; hK] [] [fRel]).
  Definition cNest1 := get_or dummy_cond (mk_or [cE1; cE2]).
  Definition cNest2 := get_or dummy_cond (mk_bin OpGt hE hO (VStr "lo")).
  Definition cNest := get_or dummy_cond (mk_and [cNest1; cNest2]).
  Definition nest_space := fst (c_add (new_space None None) [hA; hO; hE] [cNest] []).

  Example C84_case : built (c_space pcs_space) pcs_hps pcs_conds pcs_forbs /\ new_write dec_text pcs_space = Ok pcs_text /\
    (forall h, In h pcs_hps -> writable_hp h) /\
    built (c_space (one_hp hG)) [hG] [] [] /\ ~ writable_hp hG /\ new_write dec_text (one_hp hG) = Err ValueError /\
    snd (c_add (new_space None None) [hN; hK] [] [fRel]) = Ok tt /\ new_write dec_text rel_space = Err TypeError /\
    snd (c_add (new_space None None) [hA; hO; hE] [cNest] []) = Ok tt /\ ~ flat cNest /\ new_write dec_text nest_space = Err NotImplementedError.
  Proof.
    assert (Bp := cbuilt_built _ _ _ _ pcs_cbuilt).
    split; [exact Bp|]. split; [vm_compute; reflexivity|].
    split. { apply (proj1 (C84_write_iff dec_text pcs_space _ _ _ Bp)). exists pcs_text. vm_compute. reflexivity. }
    split; [apply cbuilt_built, (one_cbuilt hG hG_c); vm_compute; reflexivity|].
    split; [intros [_ []]|]. split; [vm_compute; reflexivity|]. split; [vm_compute; reflexivity|]. split; [vm_compute; reflexivity|]. split; [vm_compute; reflexivity|].
    split; [|vm_compute; reflexivity].
    intros H. change cNest with (CAnd [cNest1; cNest2]) in H. destruct (H cNest1 (or_introl eq_refl)) as (l & K). vm_compute in K. discriminate.
  Qed.

  Example C85_case : new_read dec_text ["'k' integer [1, 10] [4] # a comment | }"; "  # another"] = new_read dec_text ["k integer [1, 10] [4]"; ""] /\
    exists y h, new_read dec_text (file_lines (lines_of ("k integer [1, 10] [4]" ++ nl))) = Ok y /\ Space.hps (c_space y) = [h] /\ hp_name h = "k".
  Proof. split; [vm_compute; reflexivity|]. eexists. eexists. vm_compute. repeat split. Qed.

  Example C86_case : new_read dec_text (chars_of "k integer [1, 10] [4]") = Err NotImplementedError /\
    (exists y, new_read dec_text (lines_of "k integer [1, 10] [4]") = Ok y /\ length (Space.hps (c_space y)) = 1).
  Proof. split; [vm_compute; reflexivity|]. eexists. vm_compute. repeat split. Qed.
End Witness.
