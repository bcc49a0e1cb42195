(** * Property C87: writing and reading the older PCS format *)
From Coq Require Import String Ascii List ZArith QArith Qround Qabs Bool Lia Lqa Relations Permutation.
From Verif Require Import Base ListFacts Numeric NumericProofs HP HPProofs EqFacts EvalProofs Properties_HP Cond Forb Dag DagCycle DagProofs Space
  CommitProofs Spec SpaceProofs ConfigProofs ValidProofs Fix Serial ForbProofs PassProofs Properties_Graph Properties_Eval Properties_Exchange Properties_Api Properties_Config Properties_Add Properties_Serial
  Properties_Priors Ex Pcs PcsProofs PcsText Properties_PcsWords Properties_Pcs PcsOld.
Import ListNotations.
Open Scope string_scope.
Open Scope nat_scope.
Open Scope list_scope.

(** ** Lines and their tokens *)
Lemma po_cat_ok n ws d : plain n -> ws <> [] -> (forall w, In w ws -> plain w) -> plain d ->
  parse po_cat (n ++ (" {" ++ (String.concat ", " ws ++ ("} [" ++ (d ++ "]")))))%string = Some ([n; "{"] ++ listed_tokens ws ++ ["}"; "["; d; "]"]).
Proof.
  intros Pn Hws Pws Pd. unfold parse, po_cat.
  rewrite (then_ok _ _ _ [n] (" {" ++ (String.concat ", " ws ++ ("} [" ++ (d ++ "]"))))%string) by (apply name_ok; [exact Pn|reflexivity]).
  rewrite (then_ok (literal "{") _ _ ["{"] (String.concat ", " ws ++ ("} [" ++ (d ++ "]")))%string) by reflexivity.
  rewrite (then_ok p_values _ _ (listed_tokens ws) ("} [" ++ (d ++ "]"))%string) by (apply values_ok; [exact Hws|exact Pws|reflexivity|reflexivity]).
  rewrite (then_ok (literal "}") _ _ ["}"] (" [" ++ (d ++ "]"))%string) by reflexivity.
  rewrite (then_ok (literal "[") _ _ ["["] (d ++ "]")%string) by reflexivity.
  rewrite (then_ok p_name _ _ [d] "]") by (apply name_ok; [exact Pd|reflexivity]).
  change (literal "]" "]") with (Some (["]"], "")). cbn. rewrite ?app_assoc. reflexivity.
Qed.
Lemma po_cont_not_cat n r : plain n -> parse po_cont (n ++ (" {" ++ r))%string = None.
Proof.
  intros Pn. unfold parse, po_cont. rewrite (then_ok _ _ _ [n] (" {" ++ r)%string) by (apply name_ok; [exact Pn|reflexivity]).
  rewrite then_fails by reflexivity. reflexivity.
Qed.
Lemma po_cat_not_cont n r : plain n -> parse po_cat (n ++ (" [" ++ r))%string = None.
Proof.
  intros Pn. unfold parse, po_cat. rewrite (then_ok _ _ _ [n] (" [" ++ r)%string) by (apply name_ok; [exact Pn|reflexivity]).
  rewrite then_fails by reflexivity. reflexivity.
Qed.
Definition suffix (int log : bool) : string := ((if int then "i" else "") ++ (if log then "l" else ""))%string.
Lemma po_cont_ok n a b d (int log : bool) : plain n -> number_text a -> number_text b -> number_text d ->
  parse po_cont (n ++ (" [" ++ (a ++ (", " ++ (b ++ ("] [" ++ (d ++ ("]" ++ suffix int log))))))))%string =
  Some ([n; "["; a; ","; b; "]"; "["; d; "]"] ++ (if (int || log)%bool then [suffix int log] else [])).
Proof.
  intros Pn Na Nb Nd. unfold parse, po_cont. set (l := suffix int log).
  rewrite (then_ok _ _ _ [n] (" [" ++ (a ++ (", " ++ (b ++ ("] [" ++ (d ++ ("]" ++ l)))))))%string) by (apply name_ok; [exact Pn|reflexivity]).
  rewrite (then_ok (literal "[") _ _ ["["] (a ++ (", " ++ (b ++ ("] [" ++ (d ++ ("]" ++ l))))))%string) by reflexivity.
  rewrite (then_ok number _ _ [a] (", " ++ (b ++ ("] [" ++ (d ++ ("]" ++ l)))))%string) by (apply (number_ok a); [exact Na|reflexivity]).
  rewrite (then_ok (literal ",") _ _ [","] (" " ++ (b ++ ("] [" ++ (d ++ ("]" ++ l)))))%string) by reflexivity.
  rewrite (then_ok number _ _ [b] ("] [" ++ (d ++ ("]" ++ l)))%string) by (apply (number_ok b); [exact Nb|reflexivity]).
  rewrite (then_ok (literal "]") _ _ ["]"] (" [" ++ (d ++ ("]" ++ l)))%string) by reflexivity.
  rewrite (then_ok (literal "[") _ _ ["["] (d ++ ("]" ++ l))%string) by reflexivity.
  rewrite (then_ok number _ _ [d] ("]" ++ l)%string) by (apply (number_ok d); [exact Nd|reflexivity]).
  rewrite (then_ok (literal "]") _ _ ["]"] l) by reflexivity.
  subst l. destruct int, log; reflexivity.
Qed.
Lemma po_cond_ok ch p ws : plain ch -> plain p -> ws <> [] -> (forall w, In w ws -> plain w) ->
  parse po_cond (ch ++ (" | " ++ (p ++ (" in {" ++ (String.concat ", " ws ++ "}")))))%string = Some ([ch; "|"; p; "in"; "{"] ++ listed_tokens ws ++ ["}"]).
Proof.
  intros Pc Pp Hws Pws. unfold parse, po_cond.
  rewrite (then_ok _ _ _ [ch] (" | " ++ (p ++ (" in {" ++ (String.concat ", " ws ++ "}"))))%string) by (apply name_ok; [exact Pc|reflexivity]).
  rewrite (then_ok (literal "|") _ _ ["|"] (" " ++ (p ++ (" in {" ++ (String.concat ", " ws ++ "}"))))%string) by reflexivity.
  rewrite (then_ok p_name _ _ [p] (" in {" ++ (String.concat ", " ws ++ "}"))%string) by (rewrite name_blank; apply name_ok; [exact Pp|reflexivity]).
  rewrite (then_ok (literal "in") _ _ ["in"] (" {" ++ (String.concat ", " ws ++ "}"))%string) by reflexivity.
  rewrite (then_ok (literal "{") _ _ ["{"] (String.concat ", " ws ++ "}")%string) by reflexivity.
  rewrite (then_ok p_values _ _ (listed_tokens ws) "}") by (apply values_ok; [exact Hws|exact Pws|reflexivity|reflexivity]).
  reflexivity.
Qed.

Section Old.
  Context {E : Env} {L : EnvLaws E}.
  Variable T : text.

  (** ** Specification: what the format can express *)

  (** float() reads the text of an integer back *)
  Definition int_as_float (z : Z) : Prop :=
    number_text (tx_str T (VInt z)) /\ exists q, tx_float T (tx_str T (VInt z)) = Some q /\ (q == inject_Z z)%Q.
  Definition old_portable_hp (h : hp) : Prop :=
    plain (hp_name h) /\ hp_meta h = None /\
    match hp_kind h with
    | KCat c w => w = None /\ forall v, In v c -> word_value v
    | KOrd _ | KConst _ => False
    | KInt lo hi _ d => d = DUniform /\ int_as_float lo /\ int_as_float hi /\ forall z, hp_default h = VInt z -> int_as_float z
    | KFloat lo hi _ d => d = DUniform /\ float_text T lo /\ float_text T hi /\ forall q, hp_default h = VFloat q -> float_text T q
    end.
  (** tests for words: equality, or membership in at least two of them *)
  Definition old_portable_lit (l : lit) : Prop :=
    match l_test l with
    | TBin OpEq v _ => word_value v
    | TBin _ _ _ => False
    | TIn vs _ => 2 <= length vs /\ forall v, In v vs -> word_value v
    end.
  Definition old_portable_cond (c : cond) : Prop :=
    match c with
    | CLit l => old_portable_lit l
    | CAnd cs => forall c', In c' cs -> exists l, c' = CLit l /\ old_portable_lit l
    | COr _ => False
    end.
  (** clauses on words *)
  Definition old_portable_leaf (f : fclause) : Prop :=
    match f with
    | FEq h v _ => word_value v /\ one_value (py_str T v)
    | FIn h vs _ => vs <> [] /\ forall v, In v vs -> word_value v /\ one_value (py_str T v)
    | _ => False
    end.
  Definition old_portable_forb (f : fclause) : Prop := fdlcs f <> [] /\ forall g, In g (fdlcs f) -> old_portable_leaf g.

  (** ** Hyperparameters *)
  Ltac kill := repeat match goal with
    | H : (if ?b then _ else Err _) = Ok _ |- _ => destruct b eqn:?; [|discriminate H]
    end.
  Ltac dflt H := cbn [hp_default] in H;
    match type of H with
    | legal_value (mk_hp _ _ (VInt ?x) _) _ = _ => set (d0 := x) in *; clearbody d0
    | legal_value (mk_hp _ _ (VFloat (round13 ?x)) _) _ = _ => set (d0 := x) in *; clearbody d0
    | legal_value (mk_hp _ _ ?x _) _ = _ => set (d0 := x) in *; clearbody d0
    end.

  Definition old_reads_hp (line : string) (h : hp) : Prop :=
    forall st, old_read_line T st line = Ok (mk_ostate (o_hps st ++ [h]) (o_conds st) (o_forbs st)).
  Lemma old_reads_line line h p : clean line = line -> has_char "|" line = false -> starts_with "{" line = false -> has_char "]" line = true ->
    old_read_cont T line = Ok p -> old_read_cat line p = Ok (Some h) -> old_reads_hp line h.
  Proof.
    intros C B S D H1 H2 st. unfold old_read_line. rewrite C. cbv zeta. rewrite B, D, S. cbn [negb andb]. rewrite andb_false_r.
    rewrite H1. cbn [bind]. rewrite H2. reflexivity.
  Qed.

  Lemma old_cat_param n c d : plain n -> has_dup c = false -> c <> [] -> (forall v, In v c -> word_value v) -> py_in d c = true ->
    let line := (n ++ (" {" ++ (String.concat ", " (map (py_str T) c) ++ ("} [" ++ (py_str T d ++ "]")))))%string in
    old_param T (mk_hp n (KCat c None) d None) = Ok line /\ one_line line /\ old_reads_hp line (mk_hp n (KCat c None) d None).
  Proof.
    intros Pn Hd Hc Hw Hin line. assert (Di := word_in d c Hw Hin). destruct (Hw d Di) as (wd & -> & Pd).
    set (ws := map (py_str T) c) in *. assert (Pws : forall w, In w ws -> plain w) by apply (words_plain T c Hw).
    assert (Hws : ws <> []) by (unfold ws; destruct c; [congruence|discriminate]).
    assert (El : line = (n ++ ((" {" ++ (String.concat ", " ws ++ ("} [" ++ wd))) ++ String "]" ""))%string).
    { unfold line. cbn [py_str]. rewrite !app_assoc_s. reflexivity. }
    assert (Lc : clean line = line /\ has_char "|" line = false /\ starts_with "{" line = false /\ one_line line).
    { rewrite El. apply line_clean; [exact Pn| |reflexivity|reflexivity].
      rewrite !all_chars_app, (words_line ", " ws eq_refl Pws), (plain_line wd Pd). reflexivity. }
    destruct Lc as (L1 & L2 & L3 & L4). split; [|split; [exact L4|]].
    - unfold old_param. cbn [hp_name hp_kind hp_default]. rewrite (name_check n Pn). reflexivity.
    - apply (old_reads_line _ _ None); auto.
      + unfold line. rewrite !has_char_app. replace (has_char "]" "]") with true by reflexivity. rewrite !orb_true_r. reflexivity.
      + unfold old_read_cont, line. rewrite (po_cont_not_cat n _ Pn). reflexivity.
      + unfold old_read_cat, line. cbn [py_str]. rewrite (po_cat_ok n ws wd Pn Hws Pws Pd).
        set (ts := [n; "{"] ++ listed_tokens ws ++ ["}"; "["; wd; "]"]).
        assert (P2 : tok_last2 ts = Ok wd) by (unfold ts, tok_last2; rewrite !rev_app_distr; reflexivity).
        assert (P3 : slice2 2 4 ts = ws) by apply (slice2_values [n; "{"] ["}"; "["; wd; "]"] ws).
        change (tok ts 0) with (Ok n). cbn [bind]. rewrite P2. cbn [bind]. rewrite P3. unfold ws. rewrite words_back by exact Hw.
        unfold mk_categorical. rewrite Hd, Hin. cbn [negb]. destruct c as [|c0 c]; [congruence|].
        unfold finish, legal_value. cbn [hp_kind hp_default]. rewrite Hin. reflexivity.
  Qed.

  Definition old_cont_line (n a b d : string) (int log : bool) : string :=
    (n ++ (" [" ++ (a ++ (", " ++ (b ++ ("] [" ++ (d ++ ("]" ++ suffix int log))))))))%string.
  Lemma old_cont_ok n a b d (int log : bool) h : plain n -> number_text a -> number_text b -> number_text d ->
    (exists x y z, tx_float T a = Some x /\ tx_float T b = Some y /\ tx_float T d = Some z /\
      (if int then mk_uniform_int n x y (Some z) log None else mk_uniform_float n x y (Some z) log None) = Ok h) ->
    one_line (old_cont_line n a b d int log) /\ old_reads_hp (old_cont_line n a b d int log) h.
  Proof.
    intros Pn Na Nb Nd (x & y & z & Fa & Fb & Fd & M). set (line := old_cont_line n a b d int log).
    assert (Aa := plain_line a (number_text_plain a Na)). assert (Ab := plain_line b (number_text_plain b Nb)). assert (Ad := plain_line d (number_text_plain d Nd)).
    assert (Lc : clean line = line /\ has_char "|" line = false /\ starts_with "{" line = false /\ one_line line).
    { assert (G : exists r c, line = (n ++ (r ++ String c ""))%string /\ all_chars line_char r = true /\ line_char c = true /\ is_space c = false).
      { assert (A0 : forall u, all_chars line_char u = true -> all_chars line_char (" [" ++ (a ++ (", " ++ (b ++ ("] [" ++ (d ++ u))))))%string = true).
        { intros u Hu. rewrite !all_chars_app, Aa, Ab, Ad, Hu. reflexivity. }
        unfold line, old_cont_line. destruct int, log; cbn [suffix append].
        - exists (" [" ++ (a ++ (", " ++ (b ++ ("] [" ++ (d ++ "]i"))))))%string, "l"%char. rewrite !app_assoc_s. repeat split. apply A0. reflexivity.
        - exists (" [" ++ (a ++ (", " ++ (b ++ ("] [" ++ (d ++ "]"))))))%string, "i"%char. rewrite !app_assoc_s. repeat split. apply A0. reflexivity.
        - exists (" [" ++ (a ++ (", " ++ (b ++ ("] [" ++ (d ++ "]"))))))%string, "l"%char. rewrite !app_assoc_s. repeat split. apply A0. reflexivity.
        - exists (" [" ++ (a ++ (", " ++ (b ++ ("] [" ++ (d ++ ""))))))%string, "]"%char. rewrite !app_assoc_s. repeat split. apply A0. reflexivity. }
      destruct G as (r & c & -> & H1 & H2 & H3). apply line_clean; assumption. }
    destruct Lc as (L1 & L2 & L3 & L4). split; [exact L4|]. apply (old_reads_line _ _ (Some h)); auto.
    - unfold line, old_cont_line. rewrite !has_char_app. replace (has_char "]" "] [") with true by reflexivity. rewrite !orb_true_r. reflexivity.
    - unfold old_read_cont, line, old_cont_line. rewrite (po_cont_ok n a b d int log Pn Na Nb Nd).
      set (ts := [n; "["; a; ","; b; "]"; "["; d; "]"] ++ (if (int || log)%bool then [suffix int log] else [])).
      change (tok ts 0) with (Ok n). change (tok ts 2) with (Ok a). change (tok ts 4) with (Ok b). change (tok ts 7) with (Ok d). cbn [bind].
      unfold as_float. rewrite Fa. cbn [bind]. rewrite Fb. cbn [bind]. rewrite Fd. cbn [bind].
      assert (Ei : has_char "i" (match skipn 9 ts with [] => "" | t :: _ => t end) = int) by (unfold ts; destruct int, log; reflexivity).
      assert (Ll : has_char "l" (match skipn 9 ts with [] => "" | t :: _ => t end) = log) by (unfold ts; destruct int, log; reflexivity).
      cbv zeta. rewrite Ei, Ll. rewrite M. reflexivity.
    - unfold old_read_cat, line, old_cont_line. rewrite (po_cat_not_cont n _ Pn). reflexivity.
  Qed.

  (** The line of a hyperparameter that the format can express is read as that hyperparameter. *)
  Theorem C87_hp_partial h : constructed h -> old_portable_hp h -> exists line, old_param T h = Ok line /\ one_line line /\ old_reads_hp line h.
  Proof.
    intros C (Pn & Mn & K).
    destruct C as [n c d w m h H|n s d m h H|n v m h H|n lo hi d l m h H|n mu s lo hi d l m h H|n a b lo hi d l m h H
                  |n lo hi d l m h H|n mu s lo hi d l m h H|n a b lo hi d l m h H].
    - unfold mk_categorical in H. kill. destruct c as [|c0 c]; [destruct w; discriminate|].
      apply finish_ok in H. destruct H as [-> H]. dflt H. cbn [hp_name hp_meta hp_kind] in *. destruct K as [-> K]. subst m.
      eexists. apply old_cat_param; auto; [apply negb_true_iff; assumption|discriminate].
    - unfold mk_ordinal in H. kill. destruct d as [d|]; [kill|destruct s; [discriminate|]]; apply finish_ok in H; destruct H as [-> H]; contradiction.
    - unfold mk_constant in H. apply finish_ok in H. destruct H as [-> H]. contradiction.
    - unfold mk_uniform_int in H. kill. apply finish_ok in H. destruct H as [-> H]. dflt H. cbn [hp_name hp_meta hp_kind hp_default] in *. subst m.
      destruct K as (_ & (N1 & q1 & F1 & Q1) & (N2 & q2 & F2 & Q2) & K3). destruct (K3 d0 eq_refl) as (N3 & q3 & F3 & Q3).
      set (zl := rint lo) in *. set (zh := rint hi) in *. clearbody zl zh.
      assert (Mk : forall x y z, (x == inject_Z zl)%Q -> (y == inject_Z zh)%Q -> (z == inject_Z d0)%Q ->
        mk_uniform_int n x y (Some z) l None = Ok (mk_hp n (KInt zl zh l DUniform) (VInt d0) None)).
      { intros x y z Hx Hy Hz. unfold mk_uniform_int.
        assert (Rx : rint x = zl) by (rewrite Hx; apply rint_Z). assert (Ry : rint y = zh) by (rewrite Hy; apply rint_Z).
        assert (Cz : is_close_to_integer z = true) by (rewrite (is_close_to_integer_proper _ _ Hz); apply is_close_to_integer_Z).
        assert (Iz : py_int z = d0) by (apply DistProofs.py_int_Z, Hz).
        rewrite Rx, Ry, Cz, Iz, Heqb0. apply finish_legal. exact H. }
      eexists. split; [|apply (old_cont_ok n _ _ _ true l _ Pn N1 N2 N3)].
      + unfold old_param. cbn [hp_name hp_kind]. rewrite (name_check n Pn). unfold old_continuous, to_uniform. cbn [hp_name hp_kind hp_default hp_meta num_of].
        rewrite Mk by reflexivity. cbn [bind hp_kind hp_default hp_name]. unfold to_int. cbn [num_of]. rewrite py_int_inject. cbn [bind py_str].
        unfold old_cont_line, suffix. rewrite ?app_assoc_s. reflexivity.
      + exists q1, q2, q3. repeat split; auto.
    - unfold mk_normal_int in H. kill. apply finish_ok in H. destruct H as [-> H]. destruct K as (K & _). discriminate.
    - unfold mk_beta_int in H. kill. apply finish_ok in H. destruct H as [-> H]. destruct K as (K & _). discriminate.
    - unfold mk_uniform_float in H. kill. apply finish_ok in H. destruct H as [-> H]. dflt H. cbn [hp_name hp_meta hp_kind hp_default] in *. subst m.
      destruct K as (_ & (N1 & q1 & F1 & Q1) & (N2 & q2 & F2 & Q2) & K3). destruct (K3 _ eq_refl) as (N3 & q3 & F3 & Q3).
      assert (Mk : forall x y z, (x == round13 lo)%Q -> (y == round13 hi)%Q -> (z == round13 d0)%Q ->
        mk_uniform_float n x y (Some z) l None = Ok (mk_hp n (KFloat (round13 lo) (round13 hi) l DUniform) (VFloat (round13 d0)) None)).
      { intros x y z Hx Hy Hz. unfold mk_uniform_float. rewrite (round13_eq _ _ Hx), (round13_eq _ _ Hy), (round13_eq _ _ Hz), !round13_same.
        match goal with Q : scaler_ok _ _ _ = true |- _ => rewrite Q end. apply finish_legal. exact H. }
      eexists. split; [|apply (old_cont_ok n _ _ _ false l _ Pn N1 N2 N3)].
      + unfold old_param. cbn [hp_name hp_kind]. rewrite (name_check n Pn). unfold old_continuous, to_uniform. cbn [hp_name hp_kind hp_default hp_meta num_of].
        rewrite Mk by reflexivity. cbn [bind hp_kind hp_default hp_name py_str]. unfold old_cont_line, suffix. rewrite ?app_assoc_s. reflexivity.
      + exists q1, q2, q3. repeat split; auto.
    - unfold mk_normal_float in H. kill. apply finish_ok in H. destruct H as [-> H]. destruct K as (K & _). discriminate.
    - unfold mk_beta_float in H. kill. apply finish_ok in H. destruct H as [-> H]. destruct K as (K & _). discriminate.
  Qed.

  (** ** Conditions: one line for each literal *)
  Definition lit_words (l : lit) : list string :=
    match l_test l with TBin _ v _ => [py_str T v] | TIn vs _ => map (py_str T) vs end.
  Definition lit_line (l : lit) : string :=
    (hp_name (l_child l) ++ (" | " ++ (parent_name l ++ (" in {" ++ (String.concat ", " (lit_words l) ++ "}")))))%string.
  Definition lit_tokens (l : lit) : list string := [hp_name (l_child l); "|"; parent_name l; "in"; "{"] ++ listed_tokens (lit_words l) ++ ["}"].

  Lemma lit_words_plain l : old_portable_lit l -> lit_words l <> [] /\ forall w, In w (lit_words l) -> plain w.
  Proof.
    unfold old_portable_lit, lit_words. destruct (l_test l) as [[] v vv|vs vvs]; try contradiction.
    - intros (w & -> & P). split; [discriminate|]. intros t [<-|[]]. exact P.
    - intros [H1 H2]. split; [destruct vs; [simpl in H1; lia|discriminate]|]. apply words_plain, H2.
  Qed.
  Lemma lit_writes l : old_portable_lit l -> old_condition T (CLit l) = Ok [lit_line l].
  Proof.
    unfold old_portable_lit, lit_line, lit_words. cbn [old_condition]. destruct (l_test l) as [[] v vv|vs vvs]; try contradiction.
    - intros _. reflexivity.
    - intros [_ H]. assert (E1 : mapM as_str vs = Ok (map (py_str T) vs)).
      { clear -H. induction vs as [|v vs IH]; [reflexivity|]. cbn [mapM map]. destruct (H v (or_introl eq_refl)) as (w & -> & _). cbn [as_str bind].
        rewrite IH by (intros; apply H; right; assumption). reflexivity. }
      rewrite E1. reflexivity.
  Qed.
  Lemma lit_reads_old l : old_portable_lit l -> plain (parent_name l) -> plain (hp_name (l_child l)) ->
    one_line (lit_line l) /\ forall st, old_read_line T st (lit_line l) = Ok (mk_ostate (o_hps st) (o_conds st ++ [lit_tokens l]) (o_forbs st)).
  Proof.
    intros P Pp Pc. destruct (lit_words_plain l P) as [Hn Hw].
    assert (A : all_chars bar_char (lit_line l) = true).
    { unfold lit_line. rewrite !all_chars_app, (line_bar _ (plain_line _ Pc)), (line_bar _ (plain_line _ Pp)), (line_bar _ (words_line ", " _ eq_refl Hw)). reflexivity. }
    destruct (plain_first (hp_name (l_child l)) (" | " ++ (parent_name l ++ (" in {" ++ (String.concat ", " (lit_words l) ++ "}"))))%string Pc) as (d & t & Ed & Hd).
    fold (lit_line l) in Ed. split.
    - split; [|rewrite Ed; discriminate]. apply has_char_false. eapply all_chars_impl; [|exact A]. intros e He. unfold bar_char in He. apply andb_true_iff in He. apply He.
    - intros st. unfold old_read_line.
      assert (Cl : clean (lit_line l) = lit_line l).
      { assert (El : lit_line l = ((hp_name (l_child l) ++ (" | " ++ (parent_name l ++ (" in {" ++ String.concat ", " (lit_words l))))) ++ String "}" "")%string).
        { unfold lit_line. rewrite !app_assoc_s. reflexivity. }
        rewrite El. apply (clean_id _ "}"%char d t); [|rewrite <- El; exact Ed|reflexivity|apply (name_char_blank d Hd)].
        rewrite <- El. eapply all_chars_impl; [|exact A]. intros e He. unfold bar_char in He. apply andb_true_iff in He. apply He. }
      rewrite Cl. cbv zeta.
      assert (Hb : has_char "|" (lit_line l) = true).
      { unfold lit_line. rewrite !has_char_app. replace (has_char "|" " | ") with true by reflexivity. rewrite orb_true_r. reflexivity. }
      rewrite Hb. unfold lit_line. rewrite (po_cond_ok _ _ _ Pc Pp Hn Hw). reflexivity.
  Qed.
  Lemma lit_back x l : old_portable_lit l -> cond_built (CLit l) ->
    get_hp (c_space x) (hp_name (l_child l)) = Some (l_child l) -> get_hp (c_space x) (parent_name l) = Some (l_parent l) ->
    old_read_cond x (hp_name (l_child l)) (lit_tokens l) = Ok (CLit l).
  Proof.
    intros P B G1 G2. unfold old_read_cond, hp_named. rewrite G1. cbn [bind].
    change (tok (lit_tokens l) 2) with (Ok (parent_name l)). cbn [bind]. rewrite G2. cbn [bind].
    assert (Sl : slice2 5 1 (lit_tokens l) = lit_words l) by apply (slice2_values [hp_name (l_child l); "|"; parent_name l; "in"; "{"] ["}"]).
    rewrite Sl. unfold old_portable_lit, lit_words in *. clear Sl.
    inversion B as [o ch p v c C1 C2 M|ch p vs c C1 C2 M|cs c _ M|cs c _ M]; subst c.
    - assert (M' := M). unfold mk_bin in M. kill. destruct (to_vector p v) as [vv|] eqn:Ev; [|discriminate]. cbn [bind] in M.
      injection M as <-. cbn [l_test l_parent l_child] in *. destruct o; try contradiction. destruct P as (w & -> & _). exact M'.
    - assert (M' := M). unfold mk_in in M. kill. destruct (mapM (to_vector p) vs) as [vvs|] eqn:Ev; [|discriminate]. cbn [bind] in M.
      injection M as <-. cbn [l_test l_parent l_child] in *. destruct P as [Hn Hw].
      rewrite <- (words_back T vs Hw) in M' at 1. destruct vs as [|v [|v' vs]]; simpl in Hn; try lia. exact M'.
    - unfold mk_and in M. kill. discriminate.
    - unfold mk_or in M. kill. discriminate.
  Qed.

  Lemma lits_eq_old cs : (forall c', In c' cs -> exists l, c' = CLit l /\ old_portable_lit l) ->
    exists ls, cs = map CLit ls /\ forall l, In l ls -> old_portable_lit l.
  Proof.
    induction cs as [|c cs IH]; intros H; [exists []; split; [reflexivity|intros l []]|].
    destruct IH as (ls & -> & Hl); [intros; apply H; right; assumption|]. destruct (H c (or_introl eq_refl)) as (l & -> & P).
    exists (l :: ls). split; [reflexivity|]. intros l0 [<-|Hl0]; auto.
  Qed.
  Lemma and_writes ls : (forall l, In l ls -> old_portable_lit l) -> old_condition T (CAnd (map CLit ls)) = Ok (map lit_line ls).
  Proof.
    intros H. cbn [old_condition].
    assert (G : (fix go (cs : list cond) : res (list (list string)) :=
                          match cs with [] => Ok [] | c :: cs' => l <- old_condition T c ;; ls <- go cs' ;; Ok (l :: ls) end) (map CLit ls) = Ok (map (fun l => [lit_line l]) ls)).
    { induction ls as [|l ls IH]; [reflexivity|]. cbn [map]. rewrite (lit_writes l (H l (or_introl eq_refl))). cbn [bind].
      rewrite IH by (intros; apply H; right; assumption). reflexivity. }
    rewrite G. cbn [bind]. f_equal. clear. induction ls as [|l ls IH]; [reflexivity|]. cbn [map concat app]. f_equal. exact IH.
  Qed.

  (** The lines of a condition that the format can express are read as that condition. *)
  Definition old_cond_reads (hs : list hp) (c : cond) (ls : list string) : Prop :=
    exists ch k ks, activates c ch /\ ls = map lit_line (k :: ks) /\
      (forall l, In l (k :: ks) -> hp_name (l_child l) = ch /\ one_line (lit_line l) /\
         forall st, old_read_line T st (lit_line l) = Ok (mk_ostate (o_hps st) (o_conds st ++ [lit_tokens l]) (o_forbs st))) /\
      forall x, finds (c_space x) hs -> (cs' <- mapM (old_read_cond x ch) (map lit_tokens (k :: ks)) ;; match cs' with [c'] => Ok c' | _ => mk_and cs' end) = Ok c.
  Lemma old_cond_trip hs c : NoDup (map hp_name hs) -> (forall h, In h hs -> plain (hp_name h)) -> cond_built c -> old_portable_cond c -> cond_refs hs c ->
    exists ls, old_condition T c = Ok ls /\ old_cond_reads hs c ls.
  Proof.
    intros ND Pl B P R.
    assert (Par : forall l, In l (dlcs c) -> plain (parent_name l) /\ plain (hp_name (l_child l))).
    { intros l Hl. destruct (R l Hl) as [R1 R2]. split; apply Pl; assumption. }
    destruct c as [l|cs|cs]; [| |contradiction].
    - destruct (R l (or_introl eq_refl)) as [R1 R2]. destruct (Par l (or_introl eq_refl)) as [P1 P2].
      exists [lit_line l]. split; [apply lit_writes, P|]. exists (hp_name (l_child l)), l, []. split; [reflexivity|]. split; [reflexivity|]. split.
      + intros l0 [<-|[]]. split; [reflexivity|]. apply lit_reads_old; assumption.
      + intros x F. cbn [map mapM]. rewrite (lit_back x l P B (F _ R1) (F _ R2)). reflexivity.
    - destruct (lits_eq_old cs P) as (ls & -> & Hp). clear P.
      assert (D : dlcs (CAnd (map CLit ls)) = ls) by (cbn [dlcs]; apply dlcs_lits). rewrite D in Par.
      assert (M : mk_and (map CLit ls) = Ok (CAnd (map CLit ls)) /\ forall c, In c (map CLit ls) -> cond_built c).
      { inversion B as [o ch p v c C1 C2 M|ch p vs c C1 C2 M|cs c Hc M|cs c Hc M]; subst.
        - unfold mk_bin in M. kill. destruct (to_vector p v); discriminate.
        - unfold mk_in in M. kill. destruct (mapM (to_vector p) vs); discriminate.
        - assert (M' := M). unfold mk_and in M. kill. injection M as ->. auto.
        - unfold mk_or in M. kill. discriminate. }
      destruct M as [M Bl]. assert (M' := M). unfold mk_and in M'. kill. rewrite D in Heqb0.
      destruct ls as [|l ls]; [discriminate|].
      assert (Same : forall k, In k (l :: ls) -> l_child k = l_child l).
      { intros k [<-|Hk]; [reflexivity|]. cbn [map all_equal] in Heqb0. rewrite forallb_forall in Heqb0.
        assert (Q := Heqb0 (l_child k) (in_map l_child _ _ Hk)). apply hp_eqb_name in Q. symmetry.
        apply (same_hp hs); [exact ND| | |exact Q].
        - apply (R l). rewrite D. left. reflexivity.
        - apply (R k). rewrite D. right. exact Hk. }
      exists (map lit_line (l :: ls)). split; [apply and_writes, Hp|]. exists (hp_name (l_child l)), l, ls.
      split; [unfold activates, cond_child; rewrite D; reflexivity|]. split; [reflexivity|]. split.
      + intros k Hk. split; [rewrite (Same k Hk); reflexivity|]. apply lit_reads_old; [apply Hp, Hk|apply Par, Hk|apply Par, Hk].
      + intros x F.
        assert (Ms : mapM (old_read_cond x (hp_name (l_child l))) (map lit_tokens (l :: ls)) = Ok (map CLit (l :: ls))).
        { assert (G : forall k, In k (l :: ls) -> old_read_cond x (hp_name (l_child l)) (lit_tokens k) = Ok (CLit k)).
          { intros k Hk. rewrite <- (Same k Hk). assert (Rk := R k). rewrite D in Rk. destruct (Rk Hk) as [R1 R2].
            apply lit_back; [apply Hp, Hk|apply Bl, in_map, Hk|apply F, R1|apply (F (l_parent k)), R2]. }
          clear -G. revert G. generalize (l :: ls). intros ks G. induction ks as [|k ks IH]; [reflexivity|]. cbn [map mapM].
          rewrite (G k (or_introl eq_refl)). cbn [bind]. rewrite IH by (intros; apply G; right; assumption). reflexivity. }
        rewrite Ms. cbn [bind]. destruct ls; [discriminate|]. exact M.
  Qed.

  (** ** Clauses *)
  Lemma mapM_mono {A B} (f g : A -> res B) l m : (forall a b, f a = Ok b -> g a = Ok b) -> mapM f l = Ok m -> mapM g l = Ok m.
  Proof.
    intros H. revert m. induction l as [|a l IH]; intros m; [auto|]. cbn [mapM]. destruct (f a) as [b|] eqn:Q; [|discriminate].
    rewrite (H _ _ Q). cbn [bind]. destruct (mapM f l) as [bs|]; [|discriminate]. rewrite (IH bs eq_refl). auto.
  Qed.
  Lemma old_forb_same f ls : new_forb_lines T f = Ok ls -> old_forb_lines T f = Ok ls.
  Proof.
    assert (F : forall es t, new_forbidden T es = Ok t -> old_forbidden T es = Ok t).
    { intros es t. unfold new_forbidden, old_forbidden. destruct (mapM (new_literal T) es) as [ts|] eqn:Q; [|discriminate].
      rewrite (mapM_mono (new_literal T) (old_literal T) es ts); auto. intros [] b; simpl; congruence. }
    unfold new_forb_lines, old_forb_lines. cbv zeta. destruct (mapM equals_of (filter is_in (fdlcs f))) as [ins|] eqn:Q; [|discriminate]. cbn [bind].
    destruct ins as [|i ins]; [|apply mapM_mono; intros p t; apply F].
    intros H. destruct f as [h v vv|h vs vvs|r a b|cs].
    - destruct (new_forbidden T (fdlcs (FEq h v vv))) as [t|] eqn:Q'; [|discriminate]. rewrite (F _ _ Q'). exact H.
    - exfalso. cbn in Q. destruct (mapM (mk_feq h) vs); discriminate.
    - discriminate.
    - destruct (new_forbidden T (fdlcs (FAnd cs))) as [t|] eqn:Q'; [|discriminate]. rewrite (F _ _ Q'). exact H.
  Qed.

  (** the hyperparameters clauses can be about *)
  Definition is_cat (h : hp) : bool := match hp_kind h with KCat _ _ => true | _ => false end.
  Lemma cat_portable hs : (forall h, In h hs -> old_portable_hp h) -> forall h, In h (filter is_cat hs) -> portable_hp T h.
  Proof.
    intros H h Hh. apply filter_In in Hh. destruct Hh as [Hh K]. destruct (H h Hh) as (H1 & H2 & H3). split; [exact H1|]. split; [exact H2|].
    unfold is_cat in K. destruct (hp_kind h); try discriminate. exact H3.
  Qed.
  Lemma clause_portable hs f : (forall h, In h hs -> old_portable_hp h) -> forb_built f -> old_portable_forb f -> forb_refs hs f ->
    portable_forb T f /\ forb_refs (filter is_cat hs) f.
  Proof.
    intros Ph B [Hn P] R.
    assert (Bl : forall g, In g (fdlcs f) -> forb_built g) by (intros g Hg; apply (leaf_built f g B Hg)).
    assert (Rl : forall g h, In g (fdlcs f) -> In h (leaf_hps g) -> In h hs).
    { intros g h Hg Hh. apply R. unfold forb_hps. apply in_concat. exists (leaf_hps g). split; [apply in_map, Hg|exact Hh]. }
    assert (W : forall h v, In h hs -> word_value v -> legal_value h v = true -> is_cat h = true).
    { intros h v Hh (w & -> & _) Lg. destruct (Ph h Hh) as (_ & _ & K). unfold legal_value in Lg. unfold is_cat. destruct (hp_kind h); try contradiction; auto. }
    assert (G : forall g, In g (fdlcs f) -> portable_leaf T g /\ forall h, In h (leaf_hps g) -> In h (filter is_cat hs)).
    { intros g Hg. assert (Pg := P g Hg). destruct g as [h v vv|h vs vvs|r a b|cs]; try contradiction.
      - assert (M := leaf_feq _ _ _ (Bl _ Hg)). unfold mk_feq in M. destruct (legal_value h v) eqn:Lg; [|discriminate].
        assert (Hh := Rl _ h Hg (or_introl eq_refl)). assert (C := W h v Hh (proj1 Pg) Lg). split.
        + split; [|apply Pg]. unfold portable_value. unfold is_cat in C. destruct (hp_kind h); try discriminate. apply Pg.
        + intros h' [<-|[]]. apply filter_In. auto.
      - assert (Hh := Rl _ h Hg (or_introl eq_refl)). destruct (leaf_fin _ _ _ (Bl _ Hg)) as (es & _ & E2).
        assert (Lv : forall v, In v vs -> legal_value h v = true).
        { clear -E2. intros v Hv. induction E2 as [|v' e vs es Hm E2 IH]; [destruct Hv|]. destruct Hm as (vv & _ & M). destruct Hv as [->|Hv]; [|auto].
          unfold mk_feq in M. destruct (legal_value h v); [reflexivity|discriminate]. }
        destruct Pg as [Pn Pg]. split.
        + intros v Hv. destruct (Pg v Hv) as [P1 P2]. split; [|exact P2]. assert (C := W h v Hh P1 (Lv v Hv)).
          unfold portable_value. unfold is_cat in C. destruct (hp_kind h); try discriminate. exact P1.
        + intros h' [<-|[]]. destruct vs as [|v vs]; [congruence|]. apply filter_In. split; [exact Hh|].
          apply (W h v Hh (proj1 (Pg v (or_introl eq_refl))) (Lv v (or_introl eq_refl))). }
    split; [split; [exact Hn|intros g Hg; apply (G g Hg)]|].
    intros h Hh. unfold forb_hps in Hh. apply in_concat in Hh. destruct Hh as (l & Hl & Hh). apply in_map_iff in Hl. destruct Hl as (g & <- & Hg).
    apply (proj2 (G g Hg) h Hh).
  Qed.

  Lemma old_read_equals hs es x : finds (c_space x) (filter is_cat hs) -> (forall f, In f es -> leaf_ok T (filter is_cat hs) f) ->
    forall f, leaf_ok T (filter is_cat hs) f ->
    old_read_clauses x (fst (eq_pair T f) :: "=" :: snd (eq_pair T f) :: equations (map (eq_pair T) es) ++ ["}"]) = Ok (f :: es).
  Proof.
    intros F.
    assert (One : forall h v vv rest, In h (filter is_cat hs) -> mk_feq h v = Ok (FEq h v vv) -> portable_value T h v ->
      (h0 <- hp_named x (hp_name h) ;; f <- mk_feq h0 (VStr (py_str T v)) ;; fs <- old_read_clauses x rest ;; Ok (f :: fs)) = (fs <- old_read_clauses x rest ;; Ok (FEq h v vv :: fs))).
    { intros h v vv rest Hh M P. unfold hp_named. rewrite (F h Hh). cbn [bind].
      apply filter_In in Hh. destruct Hh as [_ K]. unfold is_cat in K. unfold portable_value in P. destruct (hp_kind h); try discriminate.
      destruct P as (w & -> & _). cbn [py_str]. rewrite M. reflexivity. }
    induction es as [|g es IH]; intros H f Hf.
    - destruct Hf as (h & v & vv & -> & M & Hh & P & _). cbn [map equations app eq_pair fst snd].
      change (old_read_clauses x [hp_name h; "="; py_str T v; "}"])
        with (h0 <- hp_named x (hp_name h) ;; f <- mk_feq h0 (VStr (py_str T v)) ;; fs <- old_read_clauses x [] ;; Ok (f :: fs)).
      rewrite (One h v vv [] Hh M P). reflexivity.
    - assert (IH' := IH ltac:(intros; apply H; right; assumption) g (H g (or_introl eq_refl))).
      assert (Eq : equations (map (eq_pair T) (g :: es)) ++ ["}"] = "," :: fst (eq_pair T g) :: "=" :: snd (eq_pair T g) :: equations (map (eq_pair T) es) ++ ["}"]).
      { cbn [map equations]. destruct (eq_pair T g). reflexivity. }
      rewrite Eq. destruct Hf as (h & v & vv & -> & M & Hh & P & _). cbn [eq_pair fst snd].
      change (old_read_clauses x (hp_name h :: "=" :: py_str T v :: "," :: fst (eq_pair T g) :: "=" :: snd (eq_pair T g) :: equations (map (eq_pair T) es) ++ ["}"]))
        with (h0 <- hp_named x (hp_name h) ;; f <- mk_feq h0 (VStr (py_str T v)) ;;
              fs <- old_read_clauses x (fst (eq_pair T g) :: "=" :: snd (eq_pair T g) :: equations (map (eq_pair T) es) ++ ["}"]) ;; Ok (f :: fs)).
      rewrite (One h v vv _ Hh M P), IH'. reflexivity.
  Qed.
  Lemma old_forb_trip hs es : (forall h, In h hs -> old_portable_hp h) -> es <> [] -> (forall f, In f es -> leaf_ok T (filter is_cat hs) f) ->
    one_line (forb_line T es) /\
    (forall st, old_read_line T st (forb_line T es) = Ok (mk_ostate (o_hps st) (o_conds st) (o_forbs st ++ [forb_line T es]))) /\
    forall x, finds (c_space x) (filter is_cat hs) -> old_read_forb x (forb_line T es) = Ok (FAnd es).
  Proof.
    intros Ph Hn H. assert (Pc := cat_portable hs Ph). assert (A := forb_line_chars T (filter is_cat hs) es Pc H).
    assert (El : forb_line T es = (("{" ++ String.concat ", " (map equation (map (eq_pair T) es))) ++ String "}" "")%string).
    { unfold forb_line. rewrite app_assoc_s. reflexivity. }
    split; [|split].
    - apply (forb_trip T (filter is_cat hs) es Pc Hn H).
    - intros st. unfold old_read_line.
      assert (Cl : clean (forb_line T es) = forb_line T es).
      { rewrite El. eapply clean_id; [|reflexivity|reflexivity|reflexivity]. rewrite <- El. eapply all_chars_impl; [|exact A].
        intros e He. unfold line_char in He. rewrite !andb_true_iff in He. apply He. }
      rewrite Cl. cbv zeta. rewrite (no_bar _ A).
      assert (Hc : has_char "}" (forb_line T es) = true).
      { unfold forb_line. rewrite !has_char_app. replace (has_char "}" "}") with true by reflexivity. rewrite !orb_true_r. reflexivity. }
      rewrite Hc. cbn [negb andb].
      assert (Hl : last_char (forb_line T es) = Some "}"%char) by (rewrite El; apply last_char_app).
      rewrite Hl. reflexivity.
    - intros x F. destruct es as [|f es]; [congruence|]. unfold old_read_forb.
      assert (P : parse p_forb (forb_line T (f :: es)) = Some ("{" :: fst (eq_pair T f) :: "=" :: snd (eq_pair T f) :: equations (map (eq_pair T) es) ++ ["}"])).
      { apply (forb_ok (eq_pair T f) (map (eq_pair T) es)). intros e He.
        change (eq_pair T f :: map (eq_pair T) es) with (map (eq_pair T) (f :: es)) in He. apply in_map_iff in He. destruct He as (g & <- & Hg).
        apply (pair_ok T (filter is_cat hs) g Pc (H g Hg)). }
      rewrite P. cbn [skipn]. rewrite (old_read_equals hs es x F ltac:(intros; apply H; right; assumption) f (H f (or_introl eq_refl))). reflexivity.
  Qed.

  (** ** The lines of a file *)
  Lemma old_lines_app a b st : old_read_lines T (a ++ b) st = (st' <- old_read_lines T a st ;; old_read_lines T b st').
  Proof.
    revert st. induction a as [|l a IH]; intros st; [reflexivity|]. cbn [app old_read_lines]. destruct (old_read_line T st l) as [st'|e]; [apply IH|reflexivity].
  Qed.
  Lemma old_blank st : old_read_line T st "" = Ok st.
  Proof. reflexivity. Qed.
  Lemma old_read_hps hs ls : Forall2 (fun h l => one_line l /\ old_reads_hp l h) hs ls -> forall st,
    old_read_lines T ls st = Ok (mk_ostate (o_hps st ++ hs) (o_conds st) (o_forbs st)).
  Proof.
    induction 1 as [|h l hs ls [_ Hl] H IH]; intros st.
    - destruct st as [sa sb sc]. cbn [o_hps o_conds o_forbs]. rewrite app_nil_r. reflexivity.
    - cbn [old_read_lines]. rewrite (Hl st). cbn [bind]. rewrite IH. cbn [o_hps o_conds o_forbs]. rewrite <- app_assoc. reflexivity.
  Qed.
  Lemma old_read_lits ks : (forall l st, In l ks -> old_read_line T st (lit_line l) = Ok (mk_ostate (o_hps st) (o_conds st ++ [lit_tokens l]) (o_forbs st))) ->
    forall st, old_read_lines T (map lit_line ks) st = Ok (mk_ostate (o_hps st) (o_conds st ++ map lit_tokens ks) (o_forbs st)).
  Proof.
    induction ks as [|k ks IH]; intros H st.
    - destruct st as [sa sb sc]. cbn [map o_hps o_conds o_forbs]. rewrite app_nil_r. reflexivity.
    - cbn [map old_read_lines]. rewrite (H k st (or_introl eq_refl)). cbn [bind]. rewrite IH by (intros; apply H; right; assumption).
      cbn [o_hps o_conds o_forbs]. rewrite <- app_assoc. reflexivity.
  Qed.
  Lemma old_read_forbs ls : (forall l, In l ls -> forall st, old_read_line T st l = Ok (mk_ostate (o_hps st) (o_conds st) (o_forbs st ++ [l]))) ->
    forall st, old_read_lines T ls st = Ok (mk_ostate (o_hps st) (o_conds st) (o_forbs st ++ ls)).
  Proof.
    induction ls as [|l ls IH]; intros H st.
    - destruct st as [sa sb sc]. cbn [o_hps o_conds o_forbs]. rewrite app_nil_r. reflexivity.
    - cbn [old_read_lines]. rewrite (H l (or_introl eq_refl)). cbn [bind]. rewrite IH by (intros; apply H; right; assumption).
      cbn [o_hps o_conds o_forbs]. rewrite <- app_assoc. reflexivity.
  Qed.
  Lemma old_read_conds hs cs lss : Forall2 (old_cond_reads hs) cs lss -> exists gs : list (list (list string)),
    Forall2 (fun c g => exists ch, activates c ch /\ g <> [] /\ (forall ts, In ts g -> hd "" ts = ch) /\
      forall x, finds (c_space x) hs -> (cs' <- mapM (old_read_cond x ch) g ;; match cs' with [c'] => Ok c' | _ => mk_and cs' end) = Ok c) cs gs /\
    (forall l, In l (concat lss) -> one_line l) /\
    forall st, old_read_lines T (concat lss) st = Ok (mk_ostate (o_hps st) (o_conds st ++ concat gs) (o_forbs st)).
  Proof.
    induction 1 as [|c ls cs lss (ch & k & ks & H1 & -> & H2 & H3) H IH].
    - exists []. split; [constructor|]. split; [intros l []|]. intros st. destruct st as [sa sb sc]. cbn. rewrite app_nil_r. reflexivity.
    - destruct IH as (gs & I1 & I2 & I3). exists (map lit_tokens (k :: ks) :: gs). split; [|split].
      + constructor; [|exact I1]. exists ch. split; [exact H1|]. split; [discriminate|]. split; [|exact H3].
        intros ts Ht. apply in_map_iff in Ht. destruct Ht as (l & <- & Hl). apply (H2 l Hl).
      + intros l Hl. cbn [concat] in Hl. apply in_app_iff in Hl. destruct Hl as [Hl|Hl]; [|apply I2, Hl].
        apply in_map_iff in Hl. destruct Hl as (l0 & <- & Hl). apply (H2 l0 Hl).
      + intros st. cbn [concat]. rewrite old_lines_app, old_read_lits by (intros l st' Hl; apply (H2 l Hl)). cbn [bind]. rewrite I3.
        cbn [o_hps o_conds o_forbs]. rewrite <- app_assoc. reflexivity.
  Qed.

  (** the conditions of a child stand together *)
  Lemma nub_prefix g : forall ch rest seen, g <> [] -> (forall ts : list string, In ts g -> hd "" ts = ch) -> ~ In ch seen ->
    nub_aux seen (map (hd "") g ++ rest) = ch :: nub_aux (ch :: seen) rest.
  Proof.
    assert (K : forall g ch rest seen, (forall ts : list string, In ts g -> hd "" ts = ch) -> In ch seen -> nub_aux seen (map (hd "") g ++ rest) = nub_aux seen rest).
    { induction g0 as [|t g0 IH]; intros ch rest seen H Hs; [reflexivity|]. cbn [map app nub_aux]. rewrite (H t (or_introl eq_refl)).
      rewrite (proj2 (str_in_iff ch seen) Hs). apply (IH ch); [intros; apply H; right; assumption|exact Hs]. }
    intros ch rest seen Hn H Hs. destruct g as [|t g]; [congruence|]. cbn [map app nub_aux]. rewrite (H t (or_introl eq_refl)).
    destruct (str_in ch seen) eqn:Q; [apply str_in_iff in Q; contradiction|]. f_equal. apply (K g ch); [intros; apply H; right; assumption|left; reflexivity].
  Qed.
  Lemma nub_groups (gs : list (list (list string))) chs : Forall2 (fun ch g => g <> [] /\ forall ts, In ts g -> hd "" ts = ch) chs gs ->
    NoDup chs -> forall seen, (forall ch, In ch chs -> ~ In ch seen) -> nub_aux seen (map (hd "") (concat gs)) = chs.
  Proof.
    induction 1 as [|ch g chs gs [Hn Hg] H IH]; intros N seen Hs; [reflexivity|]. inversion N; subst. cbn [concat]. rewrite map_app.
    rewrite (nub_prefix g ch) by (auto; apply Hs; left; reflexivity). f_equal. apply IH; [assumption|].
    intros c Hc [<-|K]; [contradiction|]. apply (Hs c (or_intror Hc) K).
  Qed.
  Lemma filter_groups (gs : list (list (list string))) chs : Forall2 (fun ch g => g <> [] /\ forall ts, In ts g -> hd "" ts = ch) chs gs ->
    NoDup chs -> Forall2 (fun ch g => filter (fun ts => String.eqb (hd "" ts) ch) (concat gs) = g) chs gs.
  Proof.
    intros H N.
    assert (Out : forall chs gs ch, Forall2 (fun ch (g : list (list string)) => g <> [] /\ forall ts, In ts g -> hd "" ts = ch) chs gs -> ~ In ch chs ->
      filter (fun ts => String.eqb (hd "" ts) ch) (concat gs) = []).
    { intros chs' gs' ch F Hc. apply none_filter. intros ts Ht. apply String.eqb_neq. intros Q. apply Hc. rewrite <- Q. clear -F Ht.
      induction F as [|c g chs gs [_ Hg] F IH]; [destruct Ht|]. cbn [concat] in Ht. apply in_app_iff in Ht. destruct Ht as [Ht|Ht].
      - left. symmetry. apply Hg, Ht.
      - right. apply IH, Ht. }
    assert (All : forall g ch, (forall ts : list string, In ts g -> hd "" ts = ch) -> filter (fun ts => String.eqb (hd "" ts) ch) g = g).
    { induction g as [|t g IH]; intros ch Hg; [reflexivity|]. cbn [filter]. rewrite (Hg t (or_introl eq_refl)), String.eqb_refl. f_equal. apply IH. intros; apply Hg; right; assumption. }
    induction H as [|ch g chs gs [Hn Hg] H IH]; [constructor|]. inversion N; subst. cbn [concat]. constructor.
    - rewrite filter_app, (All g ch Hg), (Out chs gs ch H) by assumption. apply app_nil_r.
    - assert (G : forall ch' g', In ch' chs -> filter (fun ts => String.eqb (hd "" ts) ch') (concat gs) = g' -> filter (fun ts => String.eqb (hd "" ts) ch') (g ++ concat gs) = g').
      { intros ch' g' Hc Q. rewrite filter_app, Q, none_filter; [reflexivity|]. intros ts Ht. rewrite (Hg ts Ht). apply String.eqb_neq. intros ->. contradiction. }
      assert (IH' := IH H3). clear IH. revert G IH'. generalize (g ++ concat gs), (concat gs). intros all part G IH'. clear -G IH'.
      induction IH' as [|c g' chs gs Hc IH' J]; [constructor|]. constructor; [apply G; [left; reflexivity|exact Hc]|]. apply J. intros ch' g0 Hi. apply G. right. exact Hi.
  Qed.
  Lemma old_children hs cs gs x : finds (c_space x) hs ->
    Forall2 (fun c g => exists ch, activates c ch /\ g <> [] /\ (forall ts, In ts g -> hd "" ts = ch) /\
      forall x, finds (c_space x) hs -> (cs' <- mapM (old_read_cond x ch) g ;; match cs' with [c'] => Ok c' | _ => mk_and cs' end) = Ok c) cs gs ->
    (forall tss, Forall2 (fun c (ts : list string) => activates c (hd "" ts)) cs tss -> NoDup (map (hd "") tss)) ->
    mapM (old_read_child x (concat gs)) (nub (map (hd "") (concat gs))) = Ok cs.
  Proof.
    intros F H N.
    assert (G : exists chs, Forall2 (fun ch g => g <> [] /\ forall ts, In ts g -> hd "" ts = ch) chs gs /\ Forall2 (fun c ch => activates c ch) cs chs /\
      Forall2 (fun c p => (cs' <- mapM (old_read_cond x (fst p)) (snd p) ;; match cs' with [c'] => Ok c' | _ => mk_and cs' end) = Ok c) cs (combine chs gs)).
    { clear N. induction H as [|c g cs gs (ch & H1 & H2 & H3 & H4) H IH]; [exists []; repeat split; constructor|].
      destruct IH as (chs & I1 & I2 & I3). exists (ch :: chs). split; [constructor; auto|]. split; [constructor; auto|]. constructor; [apply (H4 x F)|exact I3]. }
    destruct G as (chs & G1 & G2 & G3).
    assert (ND : NoDup chs).
    { assert (Q := N (map (fun ch => [ch]) chs)). rewrite map_map in Q. cbn [hd] in Q. rewrite map_id in Q. apply Q. clear -G2. induction G2; cbn [map]; constructor; auto. }
    unfold nub. rewrite (nub_groups gs chs G1 ND []) by (intros ch _ []).
    assert (G4 := filter_groups gs chs G1 ND). clear -G3 G4. revert G3 G4. generalize (concat gs). intros all G3 G4. revert cs G3.
    induction G4 as [|ch g chs gs Hf G4 IH]; intros cs G3.
    - inversion G3. reflexivity.
    - cbn [combine] in G3. inversion G3 as [|c p cs' ps Hc G3']; subst. cbn [mapM]. unfold old_read_child at 1. cbn [fst snd] in Hc. rewrite Hc. cbn [bind].
      rewrite (IH cs' G3'). reflexivity.
  Qed.

  (** C87: a space within the older format comes back from its own text, with the same hyperparameters
      at the same places, the same conditions and the same accepted values.  Clauses and conditions are
      added together here, so the text of such a space can always be read.

      Missing: what [old_portable_hp], [old_portable_cond] and [old_portable_forb] leave out. *)
  Theorem C87_round_trip_partial x hs cs fs : cbuilt x hs cs fs -> tame (c_space x) hs cs fs -> distinct_strings (c_space x) ->
    (forall h, In h hs -> old_portable_hp h) -> (forall c, In c cs -> old_portable_cond c) -> (forall f, In f fs -> old_portable_forb f) ->
    exists t y, old_write T x = Ok t /\ old_read_string T t = Ok y /\
      items (c_space y) = items (c_space x) /\ index_of (c_space y) = index_of (c_space x) /\
      conditions (c_space y) = conditions (c_space x) /\
      unconditional_hyperparameters (c_space y) = unconditional_hyperparameters (c_space x) /\
      conditional_hyperparameters (c_space y) = conditional_hyperparameters (c_space x) /\
      (forall n, conds_of (c_space y) n = conds_of (c_space x) n) /\
      (forall d, (exists f, In f (forbidden_clauses (c_space y)) /\ violated d f) <-> (exists f, In f (forbidden_clauses (c_space x)) /\ violated d f)) /\
      (forall vals d, stored hs (given vals) d -> exact_all hs (given vals) ->
        ((exists c, config_of_values (c_space y) vals false = Ok c) <-> (exists c, config_of_values (c_space x) vals false = Ok c))).
  Proof.
    intros CB TM U Ph0 Pc0 Pf0. assert (TM' := TM). destruct TM' as [B R M NS Cmp].
    assert (O := built_ok _ _ _ _ B). assert (Ph := so_hps O). assert (Pf := di_forb _ _ _ _ (so_inv _ _ _ _ O)).
    set (s := c_space x) in *. set (hs2 := Space.hps s) in *. set (hc := filter is_cat hs2).
    assert (F1 : Forall constructed hs2).
    { rewrite Forall_forall. intros h Hh. apply (so_constructed O), (Permutation_in _ Ph Hh). }
    assert (Sub : forall c, In c (conditions s) -> In c cs).
    { intros c Hc. apply (listed _ _ _ _ B U) in Hc. destruct Hc as (n & Hc). apply (so_condof_in O _ _ Hc). }
    assert (F2 : Forall cond_built (conditions s)).
    { rewrite Forall_forall. intros c Hc. apply (so_cond_built O), Sub, Hc. }
    assert (ND : NoDup (map hp_name hs2)).
    { eapply Permutation_NoDup; [apply Permutation_map, Permutation_sym, Ph|apply (so_names_nodup O)]. }
    assert (Pp : forall h, In h hs2 -> old_portable_hp h) by (intros h Hh; apply Ph0, (Permutation_in _ Ph Hh)).
    assert (RC0 : forall c, In c (conditions s) -> cond_refs hs2 c).
    { intros c Hc l Hl. destruct (proj1 R c (Sub c Hc) l Hl) as [Q1 Q2]. split; apply (Permutation_in _ (Permutation_sym Ph)); assumption. }
    assert (RF0 : forall f, In f (forbidden_clauses s) -> forb_refs hs2 f).
    { intros f Hf h Hh. apply (Permutation_in _ (Permutation_sym Ph)). apply (proj2 R f (Permutation_in _ Pf Hf) h Hh). }
    (* the lines *)
    destruct (mapM_rel (old_param T) (fun h l => one_line l /\ old_reads_hp l h) hs2) as (ps & W1 & P1).
    { intros h Hh. rewrite Forall_forall in F1. destruct (C87_hp_partial h (F1 h Hh) (Pp h Hh)) as (l & H1 & H2 & H3). eauto. }
    destruct (mapM_rel (old_condition T) (old_cond_reads hs2) (conditions s)) as (lss & W2 & P2).
    { intros c Hc. apply (old_cond_trip hs2 c ND (fun h Hh => proj1 (Pp h Hh)) (so_cond_built O c (Sub c Hc)) (Pc0 c (Sub c Hc)) (RC0 c Hc)). }
    destruct (mapM_rel (old_forb_lines T) (fun f ls => exists ess, ls = map (forb_line T) ess /\
        (forall es, In es ess -> es <> [] /\ forall e, In e es -> leaf_ok T hc e) /\
        forall d, violated d f <-> exists es, In es ess /\ violated d (FAnd es)) (forbidden_clauses s)) as (fl & W3 & P3).
    { intros f Hf. assert (Hf' := Permutation_in _ Pf Hf).
      destruct (clause_portable hs2 f Pp (so_forb_built O f Hf') (Pf0 f Hf') (RF0 f Hf)) as [Q1 Q2].
      destruct (forb_lines T hc f (so_forb_built O f Hf') Q1 Q2) as (ess & H1 & H2 & H3).
      exists (map (forb_line T) ess). split; [apply old_forb_same, H1|]. exists ess. auto. }
    assert (G3 : exists ess0, concat fl = map (forb_line T) ess0 /\ (forall es, In es ess0 -> es <> [] /\ forall e, In e es -> leaf_ok T hc e) /\
      forall d, (exists es, In es ess0 /\ violated d (FAnd es)) <-> (exists f, In f (forbidden_clauses s) /\ violated d f)).
    { clear -P3. induction P3 as [|f ls fs fl (ess & -> & H2 & H3) H IH].
      - exists []. split; [reflexivity|]. split; [intros es []|]. intros d. split; intros (y & [] & _).
      - destruct IH as (ess0 & I1 & I2 & I3). exists (ess ++ ess0). cbn [concat]. rewrite I1, map_app. split; [reflexivity|].
        split; [intros es Hes; apply in_app_or in Hes; destruct Hes; auto|]. intros d. split.
        + intros (es & Hes & V). apply in_app_or in Hes. destruct Hes as [Hes|Hes].
          * exists f. split; [left; reflexivity|]. apply H3. eauto.
          * destruct (proj1 (I3 d)) as (g & Hg & Vg); [eauto|]. exists g. split; [right; exact Hg|exact Vg].
        + intros (g & [<-|Hg] & V).
          * apply H3 in V. destruct V as (es & Hes & V). exists es. split; [apply in_or_app; left; exact Hes|exact V].
          * destruct (proj2 (I3 d)) as (es & Hes & V'); [eauto|]. exists es. split; [apply in_or_app; right; exact Hes|exact V']. }
    destruct G3 as (ess0 & C1 & C2 & C3).
    assert (PS : Permutation (py_sorted String.ltb (concat fl)) (map (forb_line T) ess0)) by (rewrite C1; apply py_sorted_perm).
    destruct (Permutation_map_inv _ _ PS) as (ess & Es & Pe).
    assert (Hes : forall es, In es ess -> es <> [] /\ forall e, In e es -> leaf_ok T hc e) by (intros es Hes; apply C2, (Permutation_in _ (Permutation_sym Pe) Hes)).
    assert (Hv : forall d, (exists es, In es ess /\ violated d (FAnd es)) <-> (exists f, In f (forbidden_clauses s) /\ violated d f)).
    { intros d. rewrite <- C3. split; intros (es & He & V); exists es; (split; [|exact V]); [apply (Permutation_in _ (Permutation_sym Pe) He)|apply (Permutation_in _ Pe He)]. }
    assert (FT : forall l, In l (map (forb_line T) ess) -> one_line l /\ forall st, old_read_line T st l = Ok (mk_ostate (o_hps st) (o_conds st) (o_forbs st ++ [l]))).
    { intros l Hl. apply in_map_iff in Hl. destruct Hl as (es & <- & He). destruct (Hes es He) as [Hn Ho].
      destruct (old_forb_trip hs2 es Pp Hn Ho) as (Q1 & Q2 & _). split; assumption. }
    assert (Hcs : incl hc hs2) by (intros h Hh; apply filter_In in Hh; apply Hh).
    assert (Fc : Forall constructed hc) by (rewrite Forall_forall in *; intros h Hh; apply F1, Hcs, Hh).
    assert (F3 := clauses_built T hc ess Fc Hes). assert (RFc := clauses_refs T hc ess Hes).
    assert (RF : forall f, In f (map FAnd ess) -> forb_refs hs2 f) by (intros f Hf h Hh; apply Hcs, (RFc f Hf h Hh)).
    assert (CF := clauses_comparable T hc ess Hes). assert (NE := clauses_ne T hc ess Hes).
    assert (Vf : forall d, (exists f, In f (map FAnd ess) /\ violated d f) <-> exists f, In f fs /\ violated d f).
    { intros d. split.
      - intros (f & Hf & V). apply in_map_iff in Hf. destruct Hf as (es & <- & He). destruct (proj1 (Hv d)) as (g & Hg & Vg); [eauto|].
        exists g. split; [apply (Permutation_in _ Pf Hg)|exact Vg].
      - intros (f & Hf & V). destruct (proj2 (Hv d)) as (es & He & Ve); [exists f; split; [apply (Permutation_in _ (Permutation_sym Pf) Hf)|exact V]|].
        exists (FAnd es). split; [apply in_map, He|exact Ve]. }
    (* the hyperparameters *)
    set (dd := fun n => option_map hp_default (find (fun h => String.eqb (hp_name h) n) hs2)).
    assert (Dd : forall k, In k hs2 -> dd (hp_name k) = Some (hp_default k)).
    { intros k Hk. unfold dd. clear -ND Hk. revert Hk ND. generalize hs2. intros l. induction l as [|j l IHl]; intros Hk N; [destruct Hk|].
      simpl in *. inversion N; subst. destruct Hk as [->|Hk]; [rewrite String.eqb_refl; reflexivity|].
      destruct (String.eqb (hp_name j) (hp_name k)) eqn:Q; [|apply IHl; assumption].
      apply String.eqb_eq in Q. exfalso. apply H1. rewrite Q. apply in_map, Hk. }
    destruct (add_total (c_space (new_space None None)) [] [] [] hs2 [] [] dd built_empty F1 (Forall_nil _) (Forall_nil _)) as (s1 & A0); cbn [app].
    { split; [intros c []|intros f []]. } { intros []. } { exact ND. } { intros c c' n []. } { exact plain_cycle. }
    { intros s' _ c d' v []. } { exact plain_ne. } { intros f []. }
    { apply plain_default. exact Dd. } { intros f []. }
    destruct (add_ok _ _ _ _ _ A0) as (x1 & Ax1 & Ex1).
    assert (B1 : built (c_space x1) hs2 [] []).
    { rewrite Ex1. apply (built_add _ _ _ _ _ _ _ _ built_empty F1 (Forall_nil _) (Forall_nil _) A0). }
    assert (F : finds (c_space x1) hs2) by (intros h Hh; apply (so_get_hp (built_ok _ _ _ _ B1)); auto).
    assert (Fcat : finds (c_space x1) hc) by (intros h Hh; apply F, Hcs, Hh).
    (* the conditions and clauses *)
    destruct (C21_exists _ _ _ _ B) as (cf & Hcf).
    destruct (default_sound s hs cs fs cf O R M NS Hcf) as (d & D & V).
    assert (AL : all_legal hs d).
    { intros h w Hh Hw. destruct (D h Hh) as [[_ Q]|[_ Q]]; rewrite Q in Hw; [|discriminate]. injection Hw as <-.
      apply default_legal, (so_constructed O), Hh. }
    assert (Act := listed_active s hs cs fs d B R U AL).
    assert (RC : refs hs2 (conditions s) (map FAnd ess)) by (split; [exact RC0|exact RF]).
    assert (NS2 : ne_safe (conditions s)).
    { intros c l w vv Hc Hl Ht (c' & Hc' & Ha). apply (NS c l w vv (Sub c Hc) Hl Ht). exists c'. split; [apply Sub, Hc'|exact Ha]. }
    assert (M2 : forall s', space_ok s' hs2 (conditions s) (map FAnd ess) -> merge_sound (index_of s') (conditions s)).
    { intros s' O'. rewrite (same_index B U O'). intros c c' v Hc Hc'. apply M; apply Sub; assumption. }
    destruct (add_total (c_space x1) hs2 [] [] [] (conditions s) (map FAnd ess) d B1 (Forall_nil _) F2 F3) as (s3 & A2); rewrite ?app_nil_r; cbn [app].
    { exact RC. } { exact NE. } { exact ND. }
    { intros c c' n Hc Hc'. apply (C06_one_condition _ _ _ _ c c' n B); apply Sub; assumption. }
    { intros n Hn. apply (C05_acyclic _ _ _ _ B n). revert Hn. generalize n at 2 4. intros m Hn.
      induction Hn as [a b Hab|a b c _ IH1 _ IH2]; [apply t_step, (listed_reads _ _ _ _ B U), Hab|eapply t_trans; eauto]. }
    { exact M2. } { exact NS2. } { exact CF. }
    { intros h Hh. rewrite <- Act. apply D, (Permutation_in _ Ph Hh). }
    { intros f Hf Vd. destruct (proj1 (Vf d)) as (g & Hg & Vg); [eauto|]. apply (V g Hg Vg). }
    destruct (add_ok _ _ _ _ _ A2) as (y & Ay & Ey).
    assert (B3 : built (c_space y) hs2 (conditions s) (map FAnd ess)).
    { rewrite Ey. assert (Q := built_add _ _ _ _ _ _ _ _ B1 (Forall_nil _) F2 F3 A2). rewrite !app_nil_r in Q. exact Q. }
    assert (O3 := built_ok _ _ _ _ B3). assert (Pf3 := di_forb _ _ _ _ (so_inv _ _ _ _ O3)).
    destruct (old_read_conds hs2 (conditions s) lss P2) as (gs & P4 & OneC & R2).
    assert (R1 := old_read_hps hs2 ps P1). assert (R3 := old_read_forbs (map (forb_line T) ess) (fun l Hl => proj2 (FT l Hl))).
    eexists. exists y. split; [|split].
    { unfold old_write. fold s. fold hs2. rewrite W1. cbn [bind]. rewrite W2. cbn [bind]. rewrite W3. cbn [bind]. reflexivity. }
    { assert (Et : (match concat fl with [] => "" | ls => nl ++ nl ++ String.concat "" (map (fun l => l ++ nl) (py_sorted String.ltb ls)) end)%string =
                   (match map (forb_line T) ess with [] => "" | _ => nl ++ nl ++ String.concat "" (map (fun l => l ++ nl) (map (forb_line T) ess)) end)%string).
      { rewrite <- Es. destruct (concat fl) as [|l ls]; [reflexivity|].
        destruct (py_sorted String.ltb (l :: ls)) eqn:Q; [|reflexivity]. exfalso. assert (Hp := py_sorted_perm String.ltb (l :: ls)). rewrite Q in Hp. apply Permutation_nil in Hp. discriminate. }
      unfold old_read_string. rewrite Et, (text_lines ps (concat lss) (map (forb_line T) ess)); cycle 1.
      { apply (Forall2_right _ one_line _ _ P1). intros a b [Q _]. exact Q. }
      { exact OneC. }
      { intros l Hl. apply (proj1 (FT l Hl)). }
      unfold old_read.
      assert (Bl : forall st, old_read_lines T [""] st = Ok st) by reflexivity.
      assert (R1' : old_read_lines T (match ps with [] => [""] | _ => ps end) (mk_ostate [] [] []) = Ok (mk_ostate hs2 [] [])).
      { assert (R1' := R1 (mk_ostate [] [] [])). destruct ps; [|exact R1']. rewrite Bl. exact R1'. }
      assert (R2' : forall st, old_read_lines T (match concat lss with [] => [] | _ => "" :: concat lss end) st = Ok (mk_ostate (o_hps st) (o_conds st ++ concat gs) (o_forbs st))).
      { intros st. rewrite <- R2. destruct (concat lss) as [|l ls]; [reflexivity|]. change ("" :: l :: ls) with ([""] ++ (l :: ls)). rewrite old_lines_app, Bl. reflexivity. }
      assert (R3' : forall st, old_read_lines T (match map (forb_line T) ess with [] => [] | _ => "" :: map (forb_line T) ess ++ [""] end) st =
                               Ok (mk_ostate (o_hps st) (o_conds st) (o_forbs st ++ map (forb_line T) ess))).
      { intros st. rewrite <- R3. destruct (map (forb_line T) ess) as [|l ls] eqn:Q; [reflexivity|].
        change ("" :: (l :: ls) ++ [""]) with ([""] ++ ((l :: ls) ++ [""])).
        rewrite old_lines_app, Bl. cbn [bind]. rewrite old_lines_app, R3. apply Bl. }
      rewrite old_lines_app, R1'. cbn [bind]. rewrite old_lines_app, R2'. cbn [bind]. rewrite R3'. cbn [bind o_hps o_conds o_forbs app].
      rewrite Ax1. cbn [bind].
      assert (Rf : mapM (old_read_forb x1) (map (forb_line T) ess) = Ok (map FAnd ess)).
      { clear -Hes Pp Fcat L. induction ess as [|es ess IH]; [reflexivity|]. cbn [map mapM]. destruct (Hes es (or_introl eq_refl)) as [Hn Ho].
        destruct (old_forb_trip hs2 es Pp Hn Ho) as (_ & _ & Q). rewrite (Q x1 Fcat). cbn [bind]. rewrite IH; [reflexivity|]. intros e He. apply Hes. right. exact He. }
      rewrite Rf. cbn [bind].
      rewrite (old_children hs2 (conditions s) gs x1 F P4); [exact Ay|]. intros tss. apply (children_distinct s hs cs fs tss B U). }
    split; [apply (same_items B U O3)|]. split; [apply (same_index B U O3)|]. split; [apply (same_conditions B U O3)|].
    split; [apply (same_roots B U O3)|]. split; [apply (same_nonroots B U O3)|].
    split; [intros n; rewrite (so_conds_of O), (so_conds_of O3), (same_condof B U O3); reflexivity|].
    assert (V3 : forall d, (exists f, In f (forbidden_clauses (c_space y)) /\ violated d f) <-> (exists f, In f fs /\ violated d f)).
    { intros d1. rewrite <- Vf. split; intros (f & Hf & Q); exists f; (split; [|exact Q]); [apply (Permutation_in _ Pf3 Hf)|apply (Permutation_in _ (Permutation_sym Pf3) Hf)]. }
    split.
    { intros d1. rewrite V3. split; intros (f & Hf & Q); exists f; (split; [|exact Q]); [apply (Permutation_in _ (Permutation_sym Pf) Hf)|apply (Permutation_in _ Pf Hf)]. }
    intros vals dv St Exa.
    assert (T3 : tame (c_space y) hs2 (conditions s) (map FAnd ess)).
    { constructor; [exact B3|exact RC|apply M2, O3|exact NS2|exact CF]. }
    rewrite (C17_accepts_valid_partial s hs cs fs vals dv TM St Exa).
    rewrite (C17_accepts_valid_partial (c_space y) _ _ _ vals dv T3).
    2: { intros h Hh. apply St, (Permutation_in _ Ph Hh). }
    2: { intros h w Hh. apply Exa, (Permutation_in _ Ph Hh). }
    assert (Vd : valid hs2 (conditions s) (map FAnd ess) dv <-> valid hs cs fs dv).
    { rewrite (listed_valid s hs cs fs dv B R U). split; intros [V1 V2 V4]; (constructor; [exact V1|exact V2|]); intros f Hf Q.
      - destruct (proj2 (Vf dv)) as (g & Hg & Vg); [exists f; split; [apply (Permutation_in _ Pf Hf)|exact Q]|]. apply (V4 g Hg Vg).
      - destruct (proj1 (Vf dv)) as (g & Hg & Vg); [eauto|]. apply (V4 g (Permutation_in _ (Permutation_sym Pf) Hg) Vg). }
    rewrite Vd.
    assert (Q : forall k, In k (map hp_name hs2) <-> In k (map hp_name hs)).
    { intros k. split; apply Permutation_in; [|apply Permutation_sym]; apply Permutation_map, Ph. }
    split; intros (G1 & G2 & G3); (split; [intros k Hk; destruct (G1 k Hk) as [G|G]; [left; exact G|right; apply Q, G]|split; [|exact G3]]).
    - intros h w Hh. apply G2, (Permutation_in _ (Permutation_sym Ph) Hh).
    - intros h w Hh. apply G2, (Permutation_in _ Ph Hh).
  Qed.
End Old.

Section Witness.
  #[local] Existing Instance rat_env.
  #[local] Existing Instance rat_env_laws.
  Ltac rf := vm_compute; reflexivity.
  Ltac plain_word := split; [vm_compute; discriminate|rf].
  Ltac word := eexists; split; [rf|plain_word].
  Ltac number := split; [rf|eexists; split; rf].
  Ltac shown l := let l' := eval vm_compute in l in replace l with l' by (vm_compute; reflexivity).

  (** all kinds of hyperparameters of the format, a condition, a conjunction, clauses with several values *)
  Definition hH := get_or dummy_hp (mk_categorical "h" (xs ["p"; "q"]) None None None).
  Lemma hH_c : constructed hH. Proof. apply (CtorCat "h" (xs ["p"; "q"]) None None None hH). vm_compute. reflexivity. Qed.
  Definition oQ1 := get_or dummy_cond (mk_in hQ hA (xs ["x"; "z"])).
  Definition oQ2 := get_or dummy_cond (mk_bin OpEq hQ hH (VStr "p")).
  Definition oQ := get_or dummy_cond (mk_and [oQ1; oQ2]).
  Lemma oQ_c : cond_built oQ.
  Proof.
    apply (CB_and [oQ1; oQ2] oQ); [|vm_compute; reflexivity]. intros c [<-|[<-|[]]].
    - apply (CB_in hQ hA (xs ["x"; "z"]) oQ1 hQ_c hA_c); vm_compute; reflexivity.
    - apply (CB_bin OpEq hQ hH (VStr "p") oQ2 hQ_c hH_c); vm_compute; reflexivity.
  Qed.
  Definition oF1 := get_or dummy_forb (mk_fin hA (xs ["y"; "z"])).
  Definition oF2 := get_or dummy_forb (mk_feq hH (VStr "q")).
  Definition oF := get_or dummy_forb (mk_fand [oF1; oF2]).
  Lemma oF_c : forb_built oF.
  Proof.
    apply (FB_and [oF1; oF2] oF); [|vm_compute; reflexivity]. intros c [<-|[<-|[]]].
    - apply (FB_in hA (xs ["y"; "z"]) oF1 hA_c); vm_compute; reflexivity.
    - apply (FB_eq hH (VStr "q") oF2 hH_c); vm_compute; reflexivity.
  Qed.
  Definition old_hps := [hB; hA; hN; hH; hQ].
  Definition old_conds := [cB; oQ].
  Definition old_forbs := [oF].
  Definition old_space := fst (c_add (new_space (Some "s") None) old_hps old_conds old_forbs).
  Lemma old_hps_c : Forall constructed old_hps.
  Proof. repeat (constructor; [first [apply hA_c|apply hN_c|apply hB_c|apply hH_c|apply hQ_c]|]). constructor. Qed.
  Lemma old_conds_c : Forall cond_built old_conds.
  Proof. repeat (constructor; [first [apply cB_c|apply oQ_c]|]). constructor. Qed.
  Lemma old_forbs_c : Forall forb_built old_forbs.
  Proof. constructor; [apply oF_c|constructor]. Qed.
  Lemma old_cbuilt : cbuilt old_space old_hps old_conds old_forbs.
  Proof.
    apply (cb_add (new_space (Some "s") None) [] [] [] old_space old_hps old_conds old_forbs (cb_new _ _) old_hps_c old_conds_c old_forbs_c).
    apply c_add_ok. vm_compute. reflexivity.
  Qed.
  Lemma old_tame : tame (c_space old_space) old_hps old_conds old_forbs.
  Proof.
    constructor.
    - apply cbuilt_built, old_cbuilt.
    - split.
      + intros c Hc l Hl. destruct Hc as [<-|[<-|[]]]; vm_compute in Hl; (repeat (destruct Hl as [<-|Hl]; [vm_compute; tauto|])); destruct Hl.
      + intros f Hf h Hh. destruct Hf as [<-|[]]; vm_compute in Hh; (repeat (destruct Hh as [<-|Hh]; [vm_compute; tauto|])); destruct Hh.
    - intros c d v Hc Hd H. destruct Hc as [<-|[<-|[]]]; destruct Hd as [<-|[<-|[]]]; first [reflexivity | exfalso; revert H; vm_compute; discriminate].
    - intros c l w vv Hc Hl Ht. destruct Hc as [<-|[<-|[]]]; vm_compute in Hl;
        repeat (destruct Hl as [<-|Hl]; [exfalso; clear -Ht; vm_compute in Ht; discriminate Ht|]); destruct Hl.
    - intros f Hf r a b Hr. destruct Hf as [<-|[]]; vm_compute in Hr; (repeat (destruct Hr as [Hr|Hr]; [discriminate Hr|])); destruct Hr.
  Qed.
  Lemma old_distinct : distinct_strings (c_space old_space).
  Proof. apply (strings_distinct _ _ _ _ (tm_built _ _ _ _ old_tame)). apply nodup_strings. vm_compute. reflexivity. Qed.
  Lemma int_old n lo hi lg d : plain n -> int_as_float dec_text lo -> int_as_float dec_text hi -> int_as_float dec_text d ->
    old_portable_hp dec_text (mk_hp n (KInt lo hi lg DUniform) (VInt d) None).
  Proof.
    intros Pn Tl Th Td. split; [exact Pn|]. split; [reflexivity|]. cbn [hp_kind hp_default]. split; [reflexivity|]. split; [exact Tl|]. split; [exact Th|].
    intros z Hz. injection Hz as <-. exact Td.
  Qed.
  Lemma old_portable_hps : forall h, In h old_hps -> old_portable_hp dec_text h.
  Proof.
    intros h [<-|[<-|[<-|[<-|[<-|[]]]]]].
    - shown hB. split; [plain_word|]. split; [rf|]. cbn [hp_kind hp_default]. split; [rf|]. split; [number|]. split; [number|]. intros q Hq. injection Hq as <-. number.
    - shown hA. split; [plain_word|]. split; [rf|]. cbn [hp_kind]. split; [rf|]. intros v [<-|[<-|[<-|[]]]]; word.
    - shown hN. apply int_old; [plain_word|number|number|number].
    - shown hH. split; [plain_word|]. split; [rf|]. cbn [hp_kind]. split; [rf|]. intros v [<-|[<-|[]]]; word.
    - shown hQ. apply int_old; [plain_word|number|number|number].
  Qed.
  Lemma old_portable_conds : forall c, In c old_conds -> old_portable_cond c.
  Proof.
    intros c [<-|[<-|[]]].
    - shown cB. unfold old_portable_cond, old_portable_lit. cbn [l_test]. word.
    - shown oQ. intros c' [<-|[<-|[]]]; (eexists; split; [reflexivity|]); unfold old_portable_lit; cbn [l_test].
      + split; [simpl; lia|]. intros v [<-|[<-|[]]]; word.
      + word.
  Qed.
  Lemma old_portable_forbs : forall f, In f old_forbs -> old_portable_forb dec_text f.
  Proof.
    intros f [<-|[]]. shown oF. split; [discriminate|]. intros g [<-|[<-|[]]]; cbn [old_portable_leaf].
    - split; [discriminate|]. intros v [<-|[<-|[]]]; (split; [word|right; split; [plain_word|rf]]).
    - split; [word|right; split; [plain_word|rf]].
  Qed.
  Definition old_text : string := get_or "" (old_write dec_text old_space).
  Example C87_case : cbuilt old_space old_hps old_conds old_forbs /\ tame (c_space old_space) old_hps old_conds old_forbs /\
    distinct_strings (c_space old_space) /\ (forall h, In h old_hps -> old_portable_hp dec_text h) /\ (forall c, In c old_conds -> old_portable_cond c) /\
    (forall f, In f old_forbs -> old_portable_forb dec_text f) /\ old_write dec_text old_space = Ok old_text /\
    lines_of old_text = ["a {x, y, z} [x]"; "h {p, q} [p]"; "n [1, 10] [5]i"; "b [0.0, 1.0] [0.5]"; "q [1, 16] [8]il"; "";
                         "b | a in {x}"; "q | a in {x, z}"; "q | h in {p}"; ""; "{a=y, h=q}"; "{a=z, h=q}"; ""] /\
    exists y, old_read_string dec_text old_text = Ok y /\ items (c_space y) = items (c_space old_space) /\ length (forbidden_clauses (c_space y)) = 2.
  Proof.
    split; [exact old_cbuilt|]. split; [exact old_tame|]. split; [exact old_distinct|]. split; [exact old_portable_hps|]. split; [exact old_portable_conds|].
    split; [exact old_portable_forbs|]. split; [vm_compute; reflexivity|]. split; [vm_compute; reflexivity|].
    exists (get_or old_space (old_read_string dec_text old_text)). vm_compute. repeat split.
  Qed.

  (** *** What does not come back *)
  Definition old_back (x : cspace) : res cspace := t <- old_write dec_text x ;; old_read_string dec_text t.
  Definition two_space (hs : list hp) (cs : list cond) (fs : list fclause) : cspace := fst (c_add (new_space None None) hs cs fs).
  Lemma two_cbuilt hs cs fs : Forall constructed hs -> Forall cond_built cs -> Forall forb_built fs -> snd (c_add (new_space None None) hs cs fs) = Ok tt ->
    cbuilt (two_space hs cs fs) hs cs fs.
  Proof.
    intros H1 H2 H3 H4. apply (cb_add (new_space None None) [] [] [] (two_space hs cs fs) hs cs fs (cb_new _ _) H1 H2 H3).
    apply c_add_ok, H4.
  Qed.

  (** a constant comes back as a categorical hyperparameter *)
  Theorem C87_constant_refuted : exists x h y h', cbuilt x [h] [] [] /\ old_back x = Ok y /\ Space.hps (c_space y) = [h'] /\
    (exists v, hp_kind h = KConst v) /\ (exists c, hp_kind h' = KCat c None).
  Proof.
    exists (one_hp hE), hE. eexists. eexists. split; [apply (one_cbuilt hE hE_c); vm_compute; reflexivity|].
    vm_compute. do 2 (split; [reflexivity|]). split; eexists; reflexivity.
  Qed.
  (** so does the prior: it comes back uniform *)
  Theorem C87_prior_refuted : exists x h y h', cbuilt x [h] [] [] /\ old_back x = Ok y /\ Space.hps (c_space y) = [h'] /\
    (exists mu sigma, hp_kind h = KInt 1 9 false (DNormal mu sigma)) /\ hp_kind h' = KInt 1 9 false DUniform.
  Proof.
    exists (one_hp hNormal), hNormal. eexists. eexists. split.
    - apply one_cbuilt; [|vm_compute; reflexivity]. apply (CtorNInt "m" 5 2 1 9 (Some 5%Q) false None hNormal); vm_compute; reflexivity.
    - vm_compute. do 2 (split; [reflexivity|]). split; [do 2 eexists; reflexivity|reflexivity].
  Qed.
  (** a clause on an integer is written, but the text cannot be read *)
  Definition fInt := get_or dummy_forb (mk_feq hN (VInt 1)).
  Lemma fInt_c : forb_built fInt. Proof. apply (FB_eq hN (VInt 1) fInt hN_c). vm_compute. reflexivity. Qed.
  Theorem C87_clause_refuted : exists x h f t, cbuilt x [h] [] [f] /\ old_portable_hp dec_text h /\ old_write dec_text x = Ok t /\
    lines_of t = ["n [1, 10] [5]i"; ""; "{n=1}"; ""] /\ old_read_string dec_text t = Err ValueError.
  Proof.
    exists (two_space [hN] [] [fInt]), hN, fInt, (get_or "" (old_write dec_text (two_space [hN] [] [fInt]))). split.
    - apply two_cbuilt; [constructor; [apply hN_c|constructor]|constructor|constructor; [apply fInt_c|constructor]|vm_compute; reflexivity].
    - split; [apply old_portable_hps; vm_compute; tauto|]. vm_compute. repeat split.
  Qed.
  (** a condition on an integer likewise *)
  Definition cInt := get_or dummy_cond (mk_bin OpEq hB hN (VInt 5)).
  Lemma cInt_c : cond_built cInt. Proof. apply (CB_bin OpEq hB hN (VInt 5) cInt hB_c hN_c). vm_compute. reflexivity. Qed.
  Theorem C87_condition_refuted : exists x c t, cbuilt x [hN; hB] [c] [] /\ (forall h, In h [hN; hB] -> old_portable_hp dec_text h) /\ old_write dec_text x = Ok t /\
    lines_of t = ["n [1, 10] [5]i"; "b [0.0, 1.0] [0.5]"; ""; "b | n in {5}"] /\ old_read_string dec_text t = Err ValueError.
  Proof.
    exists (two_space [hN; hB] [cInt] []), cInt, (get_or "" (old_write dec_text (two_space [hN; hB] [cInt] []))). split.
    - apply two_cbuilt; [repeat (constructor; [first [apply hN_c|apply hB_c]|]); constructor|constructor; [apply cInt_c|constructor]|constructor|vm_compute; reflexivity].
    - split; [intros h [<-|[<-|[]]]; apply old_portable_hps; vm_compute; tauto|]. vm_compute. repeat split.
  Qed.
  (** an in-condition with one value comes back as an equality, which is no equal condition *)
  Theorem C87_in_refuted : exists x c y c', cbuilt x [hA; hB] [c] [] /\ conditions (c_space x) = [c] /\ old_back x = Ok y /\ conditions (c_space y) = [c'] /\
    (exists l vs vvs, c = CLit l /\ l_test l = TIn vs vvs) /\ (exists l v vv, c' = CLit l /\ l_test l = TBin OpEq v vv) /\ cond_eqb c c' = false.
  Proof.
    exists (two_space [hA; hB] [cIn] []), cIn. eexists. eexists. split.
    - apply two_cbuilt; [repeat (constructor; [first [apply hA_c|apply hB_c]|]); constructor|constructor; [apply cIn_c|constructor]|constructor|vm_compute; reflexivity].
    - vm_compute. do 3 (split; [reflexivity|]). split; [do 3 eexists; split; reflexivity|]. split; [do 3 eexists; split; reflexivity|reflexivity].
  Qed.
  (** a conjunction within a conjunction comes back without the inner one *)
  Definition oQ3 := get_or dummy_cond (mk_in hQ hA (xs ["x"; "y"])).
  Definition oNest := get_or dummy_cond (mk_and [oQ; oQ3]).
  Lemma oNest_c : cond_built oNest.
  Proof.
    apply (CB_and [oQ; oQ3] oNest); [|vm_compute; reflexivity]. intros c [<-|[<-|[]]]; [apply oQ_c|].
    apply (CB_in hQ hA (xs ["x"; "y"]) oQ3 hQ_c hA_c); vm_compute; reflexivity.
  Qed.
  Theorem C87_nested_refuted : exists x c y c', cbuilt x [hA; hH; hQ] [c] [] /\ conditions (c_space x) = [c] /\ old_back x = Ok y /\ conditions (c_space y) = [c'] /\
    dlcs c' = dlcs c /\ cond_eqb c c' = false.
  Proof.
    exists (two_space [hA; hH; hQ] [oNest] []), oNest. eexists. eexists. split.
    - apply two_cbuilt; [repeat (constructor; [first [apply hA_c|apply hH_c|apply hQ_c]|]); constructor|constructor; [apply oNest_c|constructor]|constructor|vm_compute; reflexivity].
    - vm_compute. repeat split.
  Qed.
End Witness.
