(** * Properties C83 and following: writing and reading the newer PCS format *)
From Coq Require Import String Ascii List ZArith QArith Qround Qabs Bool Lia Lqa Relations Permutation.
From Verif Require Import Base ListFacts Numeric NumericProofs HP HPProofs EqFacts EvalProofs Properties_HP Cond Forb Dag DagCycle DagProofs Space
  CommitProofs Spec SpaceProofs ConfigProofs ValidProofs Fix Serial ForbProofs PassProofs Properties_Graph Properties_Eval Properties_Exchange Properties_Api Properties_Config Properties_Add Properties_Serial
  Properties_Priors Ex Pcs PcsProofs PcsText.
Import ListNotations.
Open Scope string_scope.
Open Scope nat_scope.
Open Scope list_scope.

Section Pcs.
  Context {E : Env} {L : EnvLaws E}.
  Variable T : text.

  (** ** Specification: what the format can express *)

  (** Numbers whose text the grammar accepts and int()/float() reads back. *)
  Definition int_text (z : Z) : Prop := number_text (tx_str T (VInt z)) /\ tx_int T (tx_str T (VInt z)) = Some z.
  Definition float_text (q : Q) : Prop :=
    number_text (tx_str T (VFloat q)) /\ exists q', tx_float T (tx_str T (VFloat q)) = Some q' /\ (q' == q)%Q.
  (** A word of the format. *)
  Definition word_value (v : value) : Prop := exists w, v = VStr w /\ plain w.
  Definition lacks (t : string) (v : value) : Prop := is_infix t (py_str T v) = false.

  (** A hyperparameter the format can express. *)
  Definition portable_hp (h : hp) : Prop :=
    plain (hp_name h) /\ hp_meta h = None /\
    match hp_kind h with
    | KCat c w => w = None /\ forall v, In v c -> word_value v
    | KOrd s => (forall v, In v s -> word_value v) /\ is_infix "categorical" (hp_name h) = false /\ forall v, In v s -> lacks "categorical" v
    | KConst _ => False
    | KInt lo hi _ d => d = DUniform /\ int_text lo /\ int_text hi /\ forall z, hp_default h = VInt z -> int_text z
    | KFloat lo hi _ d => d = DUniform /\ float_text lo /\ float_text hi /\ forall q, hp_default h = VFloat q -> float_text q
    end.

  (** ** Lines of hyperparameters *)
  Ltac kill := repeat match goal with
    | H : (if ?b then _ else Err _) = Ok _ |- _ => destruct b eqn:?; [|discriminate H]
    end.
  Ltac dflt H := cbn [hp_default] in H;
    match type of H with
    | legal_value (mk_hp _ _ (VInt ?x) _) _ = _ => set (d0 := x) in *; clearbody d0
    | legal_value (mk_hp _ _ (VFloat (round13 ?x)) _) _ = _ => set (d0 := x) in *; clearbody d0
    | legal_value (mk_hp _ _ ?x _) _ = _ => set (d0 := x) in *; clearbody d0
    end.

  Lemma words_back c : (forall v, In v c -> word_value v) -> map VStr (map (py_str T) c) = c.
  Proof.
    induction c as [|v c IH]; intros H; [reflexivity|]. simpl. rewrite IH by (intros; apply H; right; assumption).
    destruct (H v (or_introl eq_refl)) as (w & -> & _). reflexivity.
  Qed.
  Lemma words_plain c : (forall v, In v c -> word_value v) -> forall w, In w (map (py_str T) c) -> plain w.
  Proof. intros H w Hw. apply in_map_iff in Hw. destruct Hw as (v & <- & Hv). destruct (H v Hv) as (u & -> & P). exact P. Qed.
  Lemma word_in d c : (forall v, In v c -> word_value v) -> py_in d c = true -> In d c.
  Proof.
    intros H Hd. unfold py_in in Hd. apply existsb_exists in Hd. destruct Hd as (v & Hv & Q).
    destruct (H v Hv) as (w & -> & _). destruct d; simpl in Q; try discriminate. apply String.eqb_eq in Q. subst. exact Hv.
  Qed.

  (** characters of the lines that are no conditions *)
  Definition line_char (c : ascii) : bool := (kept_char c && negb (Ascii.eqb "|" c) && negb (Ascii.eqb (ascii_of_nat 10) c))%char%bool.
  Lemma name_line c : name_char c = true -> line_char c = true.
  Proof. intros H. destruct c as [[] [] [] [] [] [] [] []]; first [discriminate H|reflexivity]. Qed.
  Lemma plain_line w : plain w -> all_chars line_char w = true.
  Proof. intros [_ H]. eapply all_chars_impl; [apply name_line|exact H]. Qed.
  Lemma words_line sep ws : all_chars line_char sep = true -> (forall w, In w ws -> plain w) -> all_chars line_char (String.concat sep ws) = true.
  Proof. intros Hs H. apply all_chars_concat; [exact Hs|]. intros w Hw. apply plain_line, H, Hw. Qed.

  (** a line of a hyperparameter: a name, something, and a last character *)
  Definition one_line (line : string) : Prop := has_char (ascii_of_nat 10) line = false /\ line <> "".
  Lemma line_clean n r c : plain n -> all_chars line_char r = true -> line_char c = true -> is_space c = false ->
    let line := (n ++ (r ++ String c ""))%string in
    clean line = line /\ has_char "|" line = false /\ starts_with "{" line = false /\ one_line line.
  Proof.
    intros Pn Hr Hc Hs line.
    assert (A : all_chars line_char line = true).
    { unfold line. rewrite !all_chars_app, (plain_line n Pn), Hr. simpl. rewrite Hc. reflexivity. }
    destruct (plain_first n (r ++ String c "")%string Pn) as (d & t & Ed & Hd). fold line in Ed.
    split; [|split; [|split; [|split]]].
    - unfold line. rewrite <- app_assoc_s. apply (clean_id (n ++ r) c d t).
      + rewrite app_assoc_s. fold line. eapply all_chars_impl; [|exact A]. intros e He. unfold line_char in He.
        rewrite !andb_true_iff in He. apply He.
      + rewrite app_assoc_s. exact Ed.
      + exact Hs.
      + apply (name_char_blank d Hd).
    - apply has_char_false. eapply all_chars_impl; [|exact A]. intros e He. unfold line_char in He. rewrite !andb_true_iff in He. apply He.
    - rewrite Ed. unfold starts_with. cbn [strip_prefix]. rewrite (proj2 (name_char_not d Hd "{"%char eq_refl)). reflexivity.
    - apply has_char_false. eapply all_chars_impl; [|exact A]. intros e He. unfold line_char in He. rewrite !andb_true_iff in He. apply He.
    - rewrite Ed. discriminate.
  Qed.

  Definition reads_hp (line : string) (h : hp) : Prop :=
    forall st, new_read_line T st line = (x' <- add_or_raise (r_space st) [h] [] [] ;; Ok (mk_rstate x' (r_conds st) (r_forbs st))).
  Lemma reads_line line h p : clean line = line -> has_char "|" line = false -> starts_with "{" line = false -> has_char "]" line = true ->
    new_read_cont T line = Ok p -> new_read_cat line p = Ok (Some h) -> reads_hp line h.
  Proof.
    intros C B S D H1 H2 st. unfold new_read_line. rewrite C. cbv zeta. rewrite B, D, S. cbn [negb andb]. rewrite andb_false_r.
    rewrite H1. cbn [bind]. rewrite H2. reflexivity.
  Qed.

  Lemma name_check n : plain n -> parse p_name n = Some [n].
  Proof. intros P. unfold parse. rewrite <- (app_nil_s n) at 1. rewrite (name_ok n "" P eq_refl). reflexivity. Qed.

  (** the line of a categorical or ordinal hyperparameter *)
  Definition cat_line (n ty : string) (ws : list string) (d : string) : string :=
    (n ++ (" " ++ (ty ++ (" {" ++ (String.concat ", " ws ++ ("} [" ++ (d ++ "]")))))))%string.
  Lemma cat_line_ok n ty ws d : plain n -> ty = "categorical" \/ ty = "ordinal" -> ws <> [] -> (forall w, In w ws -> plain w) -> plain d ->
    let line := cat_line n ty ws d in
    (clean line = line /\ has_char "|" line = false /\ starts_with "{" line = false /\ one_line line) /\ has_char "]" line = true /\
    new_read_cont T line = Ok None /\
    exists ts, parse p_cat line = Some ts /\ tok ts 0 = Ok n /\ tok_last2 ts = Ok d /\ slice2 3 4 ts = ws.
  Proof.
    intros Pn Hty Hws Pws Pd line.
    assert (Ty : type_name ty) by (unfold type_name; tauto).
    split; [|split; [|split]].
    - assert (El : line = (n ++ ((" " ++ (ty ++ (" {" ++ (String.concat ", " ws ++ ("} [" ++ d))))) ++ String "]" ""))%string).
      { unfold line, cat_line. rewrite !app_assoc_s. reflexivity. }
      rewrite El. apply line_clean; [exact Pn| |reflexivity|reflexivity].
      rewrite !all_chars_app, (words_line ", " ws eq_refl Pws), (plain_line d Pd).
      destruct Hty as [->| ->]; reflexivity.
    - unfold line, cat_line. rewrite !has_char_app. cbn -[has_char String.concat]. rewrite !orb_true_r. reflexivity.
    - unfold new_read_cont, line, cat_line. rewrite (cont_not_cat n ty _ Pn Ty). reflexivity.
    - exists ([n; ty; "{"] ++ listed_tokens ws ++ ["}"; "["; d; "]"]).
      split; [apply (cat_ok n ty ws d Pn Ty Hws Pws Pd)|]. split; [reflexivity|]. split.
      + unfold tok_last2. rewrite !rev_app_distr. reflexivity.
      + apply (slice2_values [n; ty; "{"] ["}"; "["; d; "]"] ws).
  Qed.

  Lemma infix_words t ws : t <> "" -> has_char " " t = false -> has_char "," t = false -> (forall w, In w ws -> is_infix t w = false) ->
    is_infix t (String.concat ", " ws) = false.
  Proof.
    intros Ht H1 H2. induction ws as [|w ws IH]; intros H.
    - simpl. destruct t; [congruence|reflexivity].
    - destruct ws as [|v ws]; [apply H; left; reflexivity|].
      change (String.concat ", " (w :: v :: ws)) with (w ++ String "," ("" ++ String " " (String.concat ", " (v :: ws))))%string.
      rewrite !infix_sep, IH, (H w (or_introl eq_refl)) by (auto; intros; apply H; right; assumption).
      destruct t; [congruence|reflexivity].
  Qed.

  Lemma cat_param n c d m : plain n -> has_dup c = false -> c <> [] -> (forall v, In v c -> word_value v) -> py_in d c = true ->
    m = None -> let line := cat_line n "categorical" (map (py_str T) c) (py_str T d) in
    new_param T (mk_hp n (KCat c None) d m) = Ok line /\ one_line line /\ reads_hp line (mk_hp n (KCat c None) d m).
  Proof.
    intros Pn Hd Hc Hw Hin -> line. assert (Di := word_in d c Hw Hin). destruct (Hw d Di) as (wd & -> & Pd).
    destruct (cat_line_ok n "categorical" (map (py_str T) c) wd Pn (or_introl eq_refl)) as ((L1 & L2 & L3 & L4) & L5 & L6 & ts & P1 & P2 & P3 & P4).
    { destruct c; [congruence|discriminate]. } { apply words_plain, Hw. } { exact Pd. }
    split; [|split; [exact L4|]].
    - unfold new_param. cbn [hp_name hp_kind hp_default]. rewrite (name_check n Pn). reflexivity.
    - apply (reads_line _ _ None); auto. unfold new_read_cat.
      assert (I : is_infix "categorical" line = true).
      { unfold line, cat_line. apply infix_app. apply (infix_app _ " "). apply infix_here. }
      fold line. rewrite I. unfold line. cbn [py_str]. rewrite P1. cbn [bind]. rewrite P2. cbn [bind]. rewrite P3. cbn [bind]. rewrite P4, words_back by exact Hw.
      unfold mk_categorical. rewrite Hd, Hin. cbn [negb]. destruct c as [|c0 c]; [congruence|].
      unfold finish, legal_value. cbn [hp_kind hp_default]. rewrite Hin. reflexivity.
  Qed.
  Lemma ord_param n c d m : plain n -> has_dup c = false -> (forall v, In v c -> word_value v) -> py_in d c = true ->
    is_infix "categorical" n = false -> (forall v, In v c -> lacks "categorical" v) ->
    m = None -> let line := cat_line n "ordinal" (map (py_str T) c) (py_str T d) in
    new_param T (mk_hp n (KOrd c) d m) = Ok line /\ one_line line /\ reads_hp line (mk_hp n (KOrd c) d m).
  Proof.
    intros Pn Hd Hw Hin In1 In2 -> line. assert (Di := word_in d c Hw Hin). destruct (Hw d Di) as (wd & -> & Pd).
    assert (Hc : c <> []) by (intros ->; discriminate).
    destruct (cat_line_ok n "ordinal" (map (py_str T) c) wd Pn (or_intror eq_refl)) as ((L1 & L2 & L3 & L4) & L5 & L6 & ts & P1 & P2 & P3 & P4).
    { destruct c; [congruence|discriminate]. } { apply words_plain, Hw. } { exact Pd. }
    split; [|split; [exact L4|]].
    - unfold new_param. cbn [hp_name hp_kind hp_default]. rewrite (name_check n Pn). reflexivity.
    - apply (reads_line _ _ None); auto. unfold new_read_cat.
      assert (I : is_infix "ordinal" line = true).
      { unfold line, cat_line. apply infix_app. apply (infix_app _ " "). apply infix_here. }
      assert (J : is_infix "categorical" line = false).
      { unfold line, cat_line. cbn [py_str].
        change (n ++ (" " ++ ("ordinal" ++ (" {" ++ (String.concat ", " (map (py_str T) c) ++ ("} [" ++ (wd ++ "]")))))))%string
          with (n ++ String " " ("ordinal" ++ String " " ("" ++ String "{" (String.concat ", " (map (py_str T) c) ++ String "}" ("" ++ String " " ("" ++ String "[" (wd ++ String "]" "")))))))%string.
        rewrite !infix_sep by (discriminate || reflexivity).
        rewrite In1, (infix_words "categorical" (map (py_str T) c)); try discriminate; try reflexivity.
        - assert (Q := In2 _ Di). unfold lacks in Q. cbn [py_str] in Q. rewrite Q. reflexivity.
        - intros w Hw'. apply in_map_iff in Hw'. destruct Hw' as (v & <- & Hv). apply (In2 v Hv). }
      fold line. rewrite J, I. unfold line. cbn [py_str]. rewrite P1. cbn [bind]. rewrite P2. cbn [bind]. rewrite P3. cbn [bind]. rewrite P4, words_back by exact Hw.
      unfold mk_ordinal. rewrite Hd, Hin. cbn [negb].
      unfold finish, legal_value. cbn [hp_kind hp_default]. rewrite Hin. reflexivity.
  Qed.

  (** the line of a numerical hyperparameter *)
  Definition cont_line (n ty a b d : string) (log : bool) : string :=
    (n ++ (" " ++ (ty ++ (" [" ++ (a ++ (", " ++ (b ++ ("] [" ++ (d ++ ("]" ++ (if log then "log" else "")))))))))))%string.
  Lemma cont_line_ok n ty a b d log : plain n -> ty = "integer" \/ ty = "real" -> number_text a -> number_text b -> number_text d ->
    let line := cont_line n ty a b d log in
    (clean line = line /\ has_char "|" line = false /\ starts_with "{" line = false /\ one_line line) /\ has_char "]" line = true /\
    (forall p, new_read_cat line p = Ok p) /\
    parse p_cont line = Some ([n; ty; "["; a; ","; b; "]"; "["; d; "]"] ++ (if log then ["log"] else [])).
  Proof.
    intros Pn Hty Na Nb Nd line.
    assert (Ty : type_name ty) by (unfold type_name; tauto).
    assert (Aa := plain_line a (number_text_plain a Na)). assert (Ab := plain_line b (number_text_plain b Nb)). assert (Ad := plain_line d (number_text_plain d Nd)).
    split; [|split; [|split]].
    - assert (A0 : forall z, all_chars line_char z = true -> all_chars line_char (" " ++ (ty ++ (" [" ++ (a ++ (", " ++ (b ++ ("] [" ++ (d ++ z))))))))%string = true).
      { intros z Hz. rewrite !all_chars_app, Aa, Ab, Ad, Hz. destruct Hty as [->| ->]; reflexivity. }
      destruct log.
      + assert (El : line = (n ++ ((" " ++ (ty ++ (" [" ++ (a ++ (", " ++ (b ++ ("] [" ++ (d ++ "]lo")))))))) ++ String "g" ""))%string).
        { unfold line, cont_line. rewrite !app_assoc_s. reflexivity. }
        rewrite El. apply line_clean; [exact Pn|apply A0; reflexivity|reflexivity|reflexivity].
      + assert (El : line = (n ++ ((" " ++ (ty ++ (" [" ++ (a ++ (", " ++ (b ++ ("] [" ++ (d ++ "")))))))) ++ String "]" ""))%string).
        { unfold line, cont_line. rewrite !app_assoc_s. reflexivity. }
        rewrite El. apply line_clean; [exact Pn|apply A0; reflexivity|reflexivity|reflexivity].
    - unfold line, cont_line. rewrite !has_char_app. replace (has_char "]" "] [") with true by reflexivity. rewrite !orb_true_r. reflexivity.
    - intros p. unfold new_read_cat. assert (G : parse p_cat line = None) by apply (cat_not_cont n ty _ Pn Ty). rewrite G. destruct (is_infix "categorical" line); [reflexivity|]. destruct (is_infix "ordinal" line); reflexivity.
    - apply (cont_ok n ty a b d log Pn Ty Na Nb Nd).
  Qed.

  Lemma scaler_comp a b a' b' l : (a == a')%Q -> (b == b')%Q -> scaler_ok a b l = scaler_ok a' b' l.
  Proof. intros Ha Hb. unfold scaler_ok. rewrite Ha, Hb. reflexivity. Qed.

  Lemma int_param n lo hi log d0 m : plain n -> m = None -> int_text lo -> int_text hi -> int_text d0 ->
    scaler_ok (inject_Z lo) (inject_Z hi) log = true -> legal_value (mk_hp n (KInt lo hi log DUniform) (VInt d0) m) (VInt d0) = true ->
    let line := cont_line n "integer" (tx_str T (VInt lo)) (tx_str T (VInt hi)) (tx_str T (VInt d0)) log in
    new_param T (mk_hp n (KInt lo hi log DUniform) (VInt d0) m) = Ok line /\ one_line line /\
    reads_hp line (mk_hp n (KInt lo hi log DUniform) (VInt d0) m).
  Proof.
    intros Pn -> [N1 I1] [N2 I2] [N3 I3] Sc Lg line.
    destruct (cont_line_ok n "integer" _ _ _ log Pn (or_introl eq_refl) N1 N2 N3) as ((L1 & L2 & L3 & L4) & L5 & L6 & P).
    assert (Mk : mk_uniform_int n (inject_Z lo) (inject_Z hi) (Some (inject_Z d0)) log None = Ok (mk_hp n (KInt lo hi log DUniform) (VInt d0) None)).
    { unfold mk_uniform_int. rewrite !rint_Z, is_close_to_integer_Z, Sc, py_int_inject. apply finish_legal. exact Lg. }
    split; [|split; [exact L4|]].
    - unfold new_param. cbn [hp_name hp_kind]. rewrite (name_check n Pn). unfold new_continuous, to_uniform. cbn [hp_name hp_kind hp_default hp_meta num_of].
      rewrite Mk. cbn [bind hp_kind hp_default hp_name]. unfold to_int. cbn [num_of]. rewrite py_int_inject. reflexivity.
    - apply (reads_line _ _ (Some (mk_hp n (KInt lo hi log DUniform) (VInt d0) None))); auto.
      unfold new_read_cont. fold line in P. rewrite P.
      set (ts := _ ++ (if log then ["log"] else [])).
      change (tok ts 0) with (Ok n). change (tok ts 1) with (Ok "integer"). change (tok ts 3) with (Ok (tx_str T (VInt lo))).
      change (tok ts 5) with (Ok (tx_str T (VInt hi))). change (tok ts 8) with (Ok (tx_str T (VInt d0))).
      cbn [bind]. change (String.eqb "integer" "integer") with true. cbv iota.
      unfold as_int. rewrite I1. cbn [bind]. rewrite I2. cbn [bind]. rewrite I3. cbn [bind].
      assert (El : existsb (String.eqb "log") (firstn 1 (skipn 10 ts)) = log) by (unfold ts; destruct log; reflexivity).
      rewrite El, Mk. reflexivity.
  Qed.
  Lemma round13_eq a b : (a == b)%Q -> round13 a = round13 b.
  Proof. intros H. unfold round13. assert (G : rint (a * inject_Z ten13) = rint (b * inject_Z ten13)) by (rewrite H; reflexivity). rewrite G. reflexivity. Qed.
  Lemma float_param n lo hi log d0 m : plain n -> m = None -> float_text (round13 lo) -> float_text (round13 hi) -> float_text (round13 d0) ->
    scaler_ok (round13 lo) (round13 hi) log = true ->
    legal_value (mk_hp n (KFloat (round13 lo) (round13 hi) log DUniform) (VFloat (round13 d0)) m) (VFloat (round13 d0)) = true ->
    let line := cont_line n "real" (tx_str T (VFloat (round13 lo))) (tx_str T (VFloat (round13 hi))) (tx_str T (VFloat (round13 d0))) log in
    new_param T (mk_hp n (KFloat (round13 lo) (round13 hi) log DUniform) (VFloat (round13 d0)) m) = Ok line /\ one_line line /\
    reads_hp line (mk_hp n (KFloat (round13 lo) (round13 hi) log DUniform) (VFloat (round13 d0)) m).
  Proof.
    intros Pn -> (N1 & q1 & I1 & Q1) (N2 & q2 & I2 & Q2) (N3 & q3 & I3 & Q3) Sc Lg line.
    destruct (cont_line_ok n "real" _ _ _ log Pn (or_intror eq_refl) N1 N2 N3) as ((L1 & L2 & L3 & L4) & L5 & L6 & P).
    assert (Mk : forall a b d, (a == round13 lo)%Q -> (b == round13 hi)%Q -> (d == round13 d0)%Q ->
      mk_uniform_float n a b (Some d) log None = Ok (mk_hp n (KFloat (round13 lo) (round13 hi) log DUniform) (VFloat (round13 d0)) None)).
    { intros a b d Ha Hb Hd. unfold mk_uniform_float. rewrite (round13_eq _ _ Ha), (round13_eq _ _ Hb), (round13_eq _ _ Hd), !round13_same, Sc.
      apply finish_legal. exact Lg. }
    split; [|split; [exact L4|]].
    - unfold new_param. cbn [hp_name hp_kind]. rewrite (name_check n Pn). unfold new_continuous, to_uniform. cbn [hp_name hp_kind hp_default hp_meta num_of].
      rewrite Mk by reflexivity. cbn [bind hp_kind hp_default hp_name]. reflexivity.
    - apply (reads_line _ _ (Some (mk_hp n (KFloat (round13 lo) (round13 hi) log DUniform) (VFloat (round13 d0)) None))); auto.
      unfold new_read_cont. fold line in P. rewrite P.
      set (ts := _ ++ (if log then ["log"] else [])).
      change (tok ts 0) with (Ok n). change (tok ts 1) with (Ok "real"). change (tok ts 3) with (Ok (tx_str T (VFloat (round13 lo)))).
      change (tok ts 5) with (Ok (tx_str T (VFloat (round13 hi)))). change (tok ts 8) with (Ok (tx_str T (VFloat (round13 d0)))).
      cbn [bind]. change (String.eqb "real" "integer") with false. change (String.eqb "real" "real") with true. cbv iota.
      unfold as_float. rewrite I1. cbn [bind]. rewrite I2. cbn [bind]. rewrite I3. cbn [bind].
      assert (El : existsb (String.eqb "log") (firstn 1 (skipn 10 ts)) = log) by (unfold ts; destruct log; reflexivity).
      rewrite El, Mk by assumption. reflexivity.
  Qed.

  (** The line of a hyperparameter that the format can express is read as that hyperparameter. *)
  Theorem C83_hp_partial h : constructed h -> portable_hp h -> exists line, new_param T h = Ok line /\ one_line line /\ reads_hp line h.
  Proof.
    intros C (Pn & Mn & K).
    destruct C as [n c d w m h H|n s d m h H|n v m h H|n lo hi d l m h H|n mu s lo hi d l m h H|n a b lo hi d l m h H
                  |n lo hi d l m h H|n mu s lo hi d l m h H|n a b lo hi d l m h H].
    - unfold mk_categorical in H. kill. destruct c as [|c0 c]; [destruct w; discriminate|].
      apply finish_ok in H. destruct H as [-> H]. dflt H. cbn [hp_name hp_meta hp_kind] in *. destruct K as [-> K].
      eexists. apply cat_param; auto; [apply negb_true_iff; assumption|discriminate].
    - assert (Hs : exists d0, h = mk_hp n (KOrd s) d0 m /\ has_dup s = false /\ py_in d0 s = true).
      { unfold mk_ordinal in H. kill. apply negb_true_iff in Heqb.
        destruct d as [d|]; [kill|destruct s; [discriminate|]]; apply finish_ok in H; destruct H as [-> H]; eauto. }
      destruct Hs as (d0 & -> & Hd & Hl). cbn [hp_name hp_meta hp_kind] in *. destruct K as (K1 & K2 & K3).
      eexists. apply ord_param; auto.
    - unfold mk_constant in H. apply finish_ok in H. destruct H as [-> H]. contradiction.
    - unfold mk_uniform_int in H. kill. apply finish_ok in H. destruct H as [-> H]. dflt H. cbn [hp_name hp_meta hp_kind hp_default] in *.
      destruct K as (_ & K1 & K2 & K3). eexists. apply int_param; auto.
    - unfold mk_normal_int in H. kill. apply finish_ok in H. destruct H as [-> H]. destruct K as (K & _). discriminate.
    - unfold mk_beta_int in H. kill. apply finish_ok in H. destruct H as [-> H]. destruct K as (K & _). discriminate.
    - unfold mk_uniform_float in H. kill. apply finish_ok in H. destruct H as [-> H]. dflt H. cbn [hp_name hp_meta hp_kind hp_default] in *.
      destruct K as (_ & K1 & K2 & K3). eexists. apply float_param; auto.
    - unfold mk_normal_float in H. kill. apply finish_ok in H. destruct H as [-> H]. destruct K as (K & _). discriminate.
    - unfold mk_beta_float in H. kill. apply finish_ok in H. destruct H as [-> H]. destruct K as (K & _). discriminate.
  Qed.

  (** ** Lines of conditions *)

  (** A value of a test that the format can express; numbers are read back as they were. *)
  Definition portable_value (p : hp) (v : value) : Prop :=
    match hp_kind p with
    | KInt _ _ _ _ => exists z, v = VInt z /\ int_text z
    | KFloat _ _ _ _ => exists q, v = VFloat q /\ number_text (tx_str T (VFloat q)) /\ tx_float T (tx_str T (VFloat q)) = Some q
    | _ => word_value v
    end.
  Definition portable_lit (l : lit) : Prop :=
    is_infix "&&" (parent_name l) = false /\
    match l_test l with
    | TBin _ v _ => portable_value (l_parent l) v /\ lacks "&&" v
    | TIn vs _ => 2 <= length vs /\ forall v, In v vs -> portable_value (l_parent l) v /\ lacks "&&" v
    end.
  (** no conjunctions within conjunctions *)
  Definition portable_cond (c : cond) : Prop :=
    match c with
    | CLit l => portable_lit l
    | CAnd cs | COr cs => forall c', In c' cs -> exists l, c' = CLit l /\ portable_lit l
    end.

  Lemma value_plain p v : portable_value p v -> plain (py_str T v).
  Proof.
    unfold portable_value. destruct (hp_kind p).
    - intros (w & -> & P). exact P.
    - intros (w & -> & P). exact P.
    - intros (w & -> & P). exact P.
    - intros (z & -> & P & _). apply number_text_plain, P.
    - intros (z & -> & P & _). apply number_text_plain, P.
  Qed.
  Lemma value_cast p v : portable_value p v -> cast_for T p (py_str T v) = Ok v.
  Proof.
    unfold portable_value, cast_for. destruct (hp_kind p).
    - intros (w & -> & P). reflexivity.
    - intros (w & -> & P). reflexivity.
    - intros (w & -> & P). reflexivity.
    - intros (z & -> & _ & P). unfold as_int. cbn [py_str]. rewrite P. reflexivity.
    - intros (z & -> & _ & P). unfold as_float. cbn [py_str]. rewrite P. reflexivity.
  Qed.

  Definition test_text (l : lit) : string :=
    match l_test l with
    | TBin o v _ => (parent_name l ++ (" " ++ (op_str o ++ (" " ++ py_str T v))))%string
    | TIn vs _ => (parent_name l ++ (" in {" ++ (String.concat ", " (map (py_str T) vs) ++ "}")))%string
    end.
  Definition test_tokens (l : lit) : list string :=
    match l_test l with
    | TBin o v _ => [parent_name l; op_str o; py_str T v]
    | TIn vs _ => [parent_name l; "in"; "{"] ++ listed_tokens (map (py_str T) vs) ++ ["}"]
    end.
  Lemma condition_text l : new_condition T l = (hp_name (l_child l) ++ (" | " ++ test_text l))%string.
  Proof. unfold new_condition, test_text. destruct (l_test l); reflexivity. Qed.

  Lemma lit_words l : portable_lit l -> plain (parent_name l) ->
    match l_test l with
    | TBin _ v _ => plain (py_str T v)
    | TIn vs _ => map (py_str T) vs <> [] /\ forall w, In w (map (py_str T) vs) -> plain w
    end.
  Proof.
    intros [_ H] _. destruct (l_test l) as [o v vv|vs vvs].
    - apply (value_plain (l_parent l) v), H.
    - destruct H as [H1 H2]. split; [destruct vs; simpl in *; [lia|discriminate]|].
      intros w Hw. apply in_map_iff in Hw. destruct Hw as (v & <- & Hv). apply (value_plain (l_parent l) v), H2, Hv.
  Qed.
  Lemma op_str_text o : op_text (op_str o).
  Proof. unfold op_text. destruct o; simpl; tauto. Qed.
  Lemma lit_reads l : portable_lit l -> plain (parent_name l) -> reads_as (test_text l) (test_tokens l).
  Proof.
    intros H P r Hr. assert (W := lit_words l H P). unfold test_text, test_tokens. destruct (l_test l) as [o v vv|vs vvs].
    - rewrite !app_assoc_s. apply test_bin_ok; auto. apply op_str_text.
    - rewrite !app_assoc_s. destruct W as [W1 W2]. apply test_in_ok; auto.
  Qed.

  Lemma plain_last w : plain w -> exists u c, (w = u ++ String c "")%string /\ name_char c = true.
  Proof.
    intros [H1 H2]. induction w as [|c w IH]; [congruence|]. simpl in H2. apply andb_true_iff in H2. destruct H2 as [Hc H2].
    destruct w as [|d w]; [exists "", c; auto|]. destruct IH as (u & e & E1 & E2); [discriminate|exact H2|].
    exists (String c u), e. simpl. rewrite E1. auto.
  Qed.
  Definition bar_char (c : ascii) : bool := (kept_char c && negb (Ascii.eqb (ascii_of_nat 10) c))%bool.
  Lemma line_bar s : all_chars line_char s = true -> all_chars bar_char s = true.
  Proof.
    intros H. eapply all_chars_impl; [|exact H]. intros c Hc. unfold line_char in Hc. rewrite !andb_true_iff in Hc. unfold bar_char.
    destruct Hc as [[H1 H2] H3]. rewrite H1, H3. reflexivity.
  Qed.
  Lemma text_line l : portable_lit l -> plain (parent_name l) -> all_chars line_char (test_text l) = true.
  Proof.
    intros H P. assert (W := lit_words l H P). unfold test_text. destruct (l_test l) as [o v vv|vs vvs].
    - rewrite !all_chars_app, (plain_line _ P), (plain_line _ W). destruct o; reflexivity.
    - destruct W as [_ W]. rewrite !all_chars_app, (plain_line _ P), (words_line ", " _ eq_refl W). reflexivity.
  Qed.
  Lemma text_last l : portable_lit l -> plain (parent_name l) ->
    exists u c, (test_text l = u ++ String c "")%string /\ is_space c = false /\ bar_char c = true.
  Proof.
    intros H P. assert (W := lit_words l H P). unfold test_text. destruct (l_test l) as [o v vv|vs vvs].
    - destruct (plain_last _ W) as (u & c & -> & Hc).
      exists (parent_name l ++ (" " ++ (op_str o ++ (" " ++ u))))%string, c. rewrite !app_assoc_s. split; [reflexivity|].
      split; [apply (name_char_blank c Hc)|]. assert (Q := name_line c Hc). unfold line_char in Q. rewrite !andb_true_iff in Q.
      unfold bar_char. destruct Q as [[-> _] ->]. reflexivity.
    - exists (parent_name l ++ (" in {" ++ String.concat ", " (map (py_str T) vs)))%string, "}"%char. rewrite !app_assoc_s. auto.
  Qed.
  Lemma no_bar s : all_chars line_char s = true -> has_char "|" s = false.
  Proof.
    intros A. apply has_char_false. eapply all_chars_impl; [|exact A]. intros e He. unfold line_char in He. rewrite !andb_true_iff in He. apply He.
  Qed.
  Lemma no_char_infix c t s : has_char c s = false -> is_infix (String c t) s = false.
  Proof.
    induction s as [|d s IH]; intros H; [reflexivity|]. unfold has_char in *. simpl in *. rewrite negb_andb in H. apply orb_false_iff in H.
    destruct H as [H1 H2]. rewrite (IH H2), orb_false_r. unfold starts_with. simpl. apply negb_false_iff in H1. apply negb_true_iff in H1.
    rewrite H1. reflexivity.
  Qed.

  Lemma component_text l : portable_lit l -> plain (parent_name l) -> plain (hp_name (l_child l)) -> new_component T (CLit l) = Ok (test_text l).
  Proof.
    intros H P Pc. unfold new_component. rewrite condition_text. unfold split_on.
    change (hp_name (l_child l) ++ (" | " ++ test_text l))%string with (hp_name (l_child l) ++ String " " ("|" ++ (" " ++ test_text l)))%string.
    rewrite split_from_skip; [|discriminate|reflexivity|apply no_char_infix, no_bar, plain_line, Pc].
    rewrite split_from_sep by discriminate.
    rewrite split_from_last; [|discriminate|].
    2: { apply no_char_infix, no_bar. rewrite all_chars_app, (text_line l H P). reflexivity. }
    unfold tok. simpl nth_error. cbn [bind]. f_equal.
    destruct (text_last l H P) as (u & c & Eu & Hc & _).
    destruct (plain_first (parent_name l) "" P) as (d & t & Ed & Hd). rewrite app_nil_s in Ed.
    assert (Et : exists t', test_text l = String d t').
    { unfold test_text. rewrite Ed. destruct (l_test l); simpl; eauto. }
    destruct Et as (t' & Et).
    transitivity (strip (test_text l)); [reflexivity|]. rewrite Eu. apply (strip_id u c d t'); [rewrite <- Eu; exact Et|exact Hc|apply (name_char_blank d Hd)].
  Qed.

  Lemma token_solid l s t : connective s -> portable_lit l -> plain (parent_name l) -> In t (test_tokens l) -> solid s t.
  Proof.
    intros Hs H P Ht. assert (W := lit_words l H P). unfold solid.
    assert (Pl : forall w, plain w -> is_infix "&&" w = false -> solid s w).
    { intros w Pw Hw. split; [apply Pw|]. split; [apply plain_no_space, Pw|]. destruct Hs as [->| ->]; [exact Hw|].
      apply no_char_infix, no_bar, plain_line, Pw. }
    assert (Lit : forall w, w = "in" \/ w = "{" \/ w = "}" \/ w = "," \/ w = "==" \/ w = "!=" \/ w = "<" \/ w = ">" -> solid s w).
    { intros w Hw. unfold solid. destruct Hs as [->| ->]; decompose [Logic.or] Hw; subst w; (split; [discriminate|split; reflexivity]). }
    unfold test_tokens in Ht. destruct H as [H0 H]. destruct (l_test l) as [o v vv|vs vvs].
    - destruct Ht as [<-|[<-|[<-|[]]]]; [apply Pl; assumption|apply Lit; destruct o; simpl; tauto|apply Pl; [exact W|apply H]].
    - simpl in Ht. destruct Ht as [<-|[<-|[<-|Ht]]]; [apply Pl; assumption|apply Lit; tauto|apply Lit; tauto|].
      apply in_app_iff in Ht. destruct Ht as [Ht|[<-|[]]]; [|apply Lit; tauto].
      assert (G : forall ws, In t (listed_tokens ws) -> In t ws \/ t = ",").
      { intros ws. destruct ws as [|w ws]; [intros []|]. simpl. revert w. induction ws as [|u ws IH]; intros w Hx; simpl in *; [tauto|].
        destruct Hx as [Hx|[Hx|Hx]]; auto. destruct (IH u Hx) as [[?|?]|?]; auto. }
      destruct (G _ Ht) as [Hi| ->]; [|apply Lit; tauto]. apply Pl; [apply W, Hi|].
      apply in_map_iff in Hi. destruct Hi as (v & <- & Hv). apply H, Hv.
  Qed.
  Lemma tokens_ne l : test_tokens l <> [].
  Proof. unfold test_tokens. destruct (l_test l); discriminate. Qed.

  (** a test is read as it was *)
  Lemma mapM_back p vs : (forall v, In v vs -> portable_value p v) -> mapM (cast_for T p) (map (py_str T) vs) = Ok vs.
  Proof.
    induction vs as [|v vs IH]; intros H; [reflexivity|]. simpl. rewrite (value_cast p v (H v (or_introl eq_refl))). cbn [bind].
    rewrite IH by (intros; apply H; right; assumption). reflexivity.
  Qed.
  Lemma specification x l : portable_lit l -> cond_built (CLit l) ->
    get_hp (c_space x) (hp_name (l_child l)) = Some (l_child l) -> get_hp (c_space x) (parent_name l) = Some (l_parent l) ->
    new_specification T x (hp_name (l_child l)) (test_tokens l) = Ok (CLit l).
  Proof.
    intros [_ H] B G1 G2. unfold new_specification, hp_named. rewrite G1. cbn [bind].
    assert (T0 : tok (test_tokens l) 0 = Ok (parent_name l)) by (unfold test_tokens; destruct (l_test l); reflexivity).
    rewrite T0. cbn [bind]. rewrite G2. cbn [bind].
    inversion B as [o ch p v c C1 C2 M|ch p vs c C1 C2 M|cs c _ M|cs c _ M]; subst c.
    - assert (M' := M). unfold mk_bin in M. kill. destruct (to_vector p v) as [vv|] eqn:Ev; [|discriminate]. cbn [bind] in M.
      injection M as <-. cbn [l_test l_parent l_child] in *. unfold test_tokens. cbn [l_test].
      change (tok [parent_name (mk_lit ch p (TBin o v vv)); op_str o; py_str T v] 1) with (Ok (op_str o)).
      change (tok [parent_name (mk_lit ch p (TBin o v vv)); op_str o; py_str T v] 2) with (Ok (py_str T v)). cbn [bind].
      rewrite (value_cast p v (proj1 H)). cbn [bind].
      destruct o; simpl String.eqb; cbv iota; try exact M'.
      + simpl in Heqb0. unfold orderable in Heqb0. destruct (hp_kind p); try discriminate; exact M'.
      + simpl in Heqb0. unfold orderable in Heqb0. destruct (hp_kind p); try discriminate; exact M'.
    - assert (M' := M). unfold mk_in in M. kill. destruct (mapM (to_vector p) vs) as [vvs|] eqn:Ev; [|discriminate]. cbn [bind] in M.
      injection M as <-. cbn [l_test l_parent l_child] in *. unfold test_tokens. cbn [l_test]. unfold parent_name. cbn [l_parent].
      set (ts := [hp_name p; "in"; "{"] ++ listed_tokens (map (py_str T) vs) ++ ["}"]).
      change (tok ts 1) with (Ok "in"). cbn [bind]. change (String.eqb "in" "in") with true. cbv iota.
      assert (Sl : slice2 3 1 ts = map (py_str T) vs) by apply (slice2_values [hp_name p; "in"; "{"] ["}"]).
      rewrite Sl, mapM_back by (intros v Hv; apply H, Hv). cbn [bind].
      destruct H as [Hn _]. destruct vs as [|v [|v' vs]]; simpl in Hn; try lia. exact M'.
    - unfold mk_and in M. kill. discriminate.
    - unfold mk_or in M. kill. discriminate.
  Qed.

  (** *** Conditions with their literals *)
  Definition cond_line (ch s : string) (ls : list lit) : string :=
    (ch ++ (" | " ++ String.concat (" " ++ (s ++ " ")) (map test_text ls)))%string.
  Definition cond_tokens (ch s : string) (ls : list lit) : list string :=
    [ch; "|"] ++ match ls with [] => [] | l :: ls' => test_tokens l ++ joined s (map test_tokens ls') end.

  Lemma cond_line_reads st ch s ls : plain ch -> connective s -> ls <> [] ->
    (forall l, In l ls -> portable_lit l /\ plain (parent_name l)) ->
    one_line (cond_line ch s ls) /\
    new_read_line T st (cond_line ch s ls) = Ok (mk_rstate (r_space st) (r_conds st ++ [cond_tokens ch s ls]) (r_forbs st)).
  Proof.
    intros Pc Hs Hn H. destruct ls as [|l ls]; [congruence|]. clear Hn.
    assert (A : all_chars bar_char (String.concat (" " ++ (s ++ " ")) (map test_text (l :: ls))) = true).
    { apply all_chars_concat; [destruct Hs as [->| ->]; reflexivity|]. intros t Ht. apply in_map_iff in Ht. destruct Ht as (k & <- & Hk).
      destruct (H k Hk). apply line_bar, text_line; assumption. }
    assert (A' : all_chars bar_char (cond_line ch s (l :: ls)) = true).
    { unfold cond_line. rewrite !all_chars_app, A, (line_bar _ (plain_line _ Pc)). reflexivity. }
    assert (La : exists u c, (String.concat (" " ++ (s ++ " ")) (map test_text (l :: ls)) = u ++ String c "")%string /\ is_space c = false).
    { clear A A'. revert l H. induction ls as [|k ls IH]; intros l H.
      - simpl. destruct (H l (or_introl eq_refl)). destruct (text_last l) as (u & c & E1 & E2 & _); auto. eauto.
      - destruct (IH k) as (u & c & E1 & E2); [intros l0 Hl; apply H; right; exact Hl|].
        exists (test_text l ++ ((" " ++ (s ++ " ")) ++ u))%string, c. split; [|exact E2]. cbn [map].
        change (String.concat (" " ++ (s ++ " ")) (test_text l :: test_text k :: map test_text ls))
          with (test_text l ++ ((" " ++ (s ++ " ")) ++ String.concat (" " ++ (s ++ " ")) (map test_text (k :: ls))))%string.
        rewrite E1. rewrite !app_assoc_s. reflexivity. }
    destruct La as (u & c & Eu & Hc).
    destruct (plain_first ch (" | " ++ String.concat (" " ++ (s ++ " ")) (map test_text (l :: ls)))%string Pc) as (d & t & Ed & Hd).
    fold (cond_line ch s (l :: ls)) in Ed.
    split.
    - split; [|rewrite Ed; discriminate]. apply has_char_false. eapply all_chars_impl; [|exact A']. intros e He. unfold bar_char in He. apply andb_true_iff in He. apply He.
    - unfold new_read_line.
      assert (Cl : clean (cond_line ch s (l :: ls)) = cond_line ch s (l :: ls)).
      { assert (El : cond_line ch s (l :: ls) = ((ch ++ (" | " ++ u)) ++ String c "")%string).
        { unfold cond_line. rewrite Eu, !app_assoc_s. reflexivity. }
        rewrite El. apply (clean_id _ c d t); [|rewrite <- El; exact Ed|exact Hc|apply (name_char_blank d Hd)].
        rewrite <- El. eapply all_chars_impl; [|exact A']. intros e He. unfold bar_char in He. apply andb_true_iff in He. apply He. }
      rewrite Cl. cbv zeta.
      assert (Hb : has_char "|" (cond_line ch s (l :: ls)) = true).
      { unfold cond_line. rewrite !has_char_app. replace (has_char "|" " | ") with true by reflexivity. apply orb_true_r. }
      rewrite Hb. unfold cond_line.
      assert (Ep : map test_text (l :: ls) = map fst (map (fun k => (test_text k, test_tokens k)) (l :: ls))) by (rewrite map_map; reflexivity).
      rewrite Ep. change (map (fun k => (test_text k, test_tokens k)) (l :: ls)) with ((test_text l, test_tokens l) :: map (fun k => (test_text k, test_tokens k)) ls). rewrite (cond_ok ch s (test_text l, test_tokens l) (map (fun k => (test_text k, test_tokens k)) ls) Pc Hs).
      + unfold cond_tokens. rewrite map_map. reflexivity.
      + change ((test_text l, test_tokens l) :: map (fun k => (test_text k, test_tokens k)) ls) with (map (fun k => (test_text k, test_tokens k)) (l :: ls)).
        rewrite Forall_map, Forall_forall. intros k Hk. destruct (H k Hk). apply lit_reads; assumption.
  Qed.

  Lemma mapM_words {B} (f : list string -> res B) ts : mapM (fun t => f (words t)) ts = mapM f (map words ts).
  Proof. induction ts as [|t ts IH]; [reflexivity|]. simpl. rewrite IH. reflexivity. Qed.
  Lemma mapM_lits x ch ls : (forall l, In l ls -> new_specification T x ch (test_tokens l) = Ok (CLit l)) ->
    mapM (new_specification T x ch) (map test_tokens ls) = Ok (map CLit ls).
  Proof.
    induction ls as [|l ls IH]; intros H; [reflexivity|]. simpl. rewrite (H l (or_introl eq_refl)). cbn [bind].
    rewrite IH by (intros; apply H; right; assumption). reflexivity.
  Qed.

  Lemma tokens_read x ch s ls : connective s -> ls <> [] ->
    (forall l, In l ls -> portable_lit l /\ plain (parent_name l) /\ new_specification T x ch (test_tokens l) = Ok (CLit l)) ->
    new_read_cond T x (cond_tokens ch s ls) =
    match ls with [l] => Ok (CLit l) | _ => if String.eqb s "&&" then mk_and (map CLit ls) else mk_or (map CLit ls) end.
  Proof.
    intros Hs Hn H. destruct ls as [|l ls]; [congruence|]. clear Hn. unfold new_read_cond, cond_tokens.
    change (tok ([ch; "|"] ++ test_tokens l ++ joined s (map test_tokens ls)) 0) with (Ok ch). cbn [bind].
    change (skipn 2 ([ch; "|"] ++ test_tokens l ++ joined s (map test_tokens ls))) with (test_tokens l ++ joined s (map test_tokens ls)). cbv zeta.
    assert (Sol : forall s', connective s' -> forall t, In t (test_tokens l) -> solid s' t).
    { intros s' Hs' t Ht. destruct (H l (or_introl eq_refl)) as (H1 & H2 & _). apply (token_solid l); assumption. }
    assert (Sols : forall s', connective s' -> forall us, In us (map test_tokens ls) -> us <> [] /\ forall t, In t us -> solid s' t).
    { intros s' Hs' us Hu. apply in_map_iff in Hu. destruct Hu as (k & <- & Hk). destruct (H k (or_intror Hk)) as (H1 & H2 & _).
      split; [apply tokens_ne|]. intros t Ht. apply (token_solid k); assumption. }
    assert (C1 : connective "&&") by (left; reflexivity). assert (C2 : connective "||") by (right; reflexivity).
    set (c := String.concat " " _).
    destruct ls as [|k ls].
    - assert (I1 : is_infix "||" c = false).
      { unfold c. cbn [map joined]. rewrite app_nil_r. apply part_infix; [exact C2|apply Sol, C2]. }
      assert (I2 : is_infix "&&" c = false).
      { unfold c. cbn [map joined]. rewrite app_nil_r. apply part_infix; [exact C1|apply Sol, C1]. }
      rewrite I1, I2. unfold c. cbn [map joined]. rewrite app_nil_r, words_concat.
      + apply (H l (or_introl eq_refl)).
      + intros w Hw. destruct (Sol _ C1 w Hw) as (W1 & W2 & _). auto.
    - assert (Sp : map words (split_on s c) = test_tokens l :: map test_tokens (k :: ls)).
      { apply split_words; [exact Hs|apply tokens_ne|apply Sol, Hs|apply Sols, Hs]. }
      assert (Yes : is_infix s c = true) by (apply joined_infix; [exact Hs|discriminate|apply tokens_ne]).
      assert (No : forall s', connective s' -> s' <> s -> is_infix s' c = false).
      { intros s' Hs' Hd. apply joined_other; auto.
        - intros t Ht. apply (Sol s' Hs' t Ht).
        - intros us Hu t Ht. apply (proj2 (Sols s' Hs' us Hu) t Ht). }
      assert (Ms : mapM (fun t => new_specification T x ch (words t)) (split_on s c) = Ok (map CLit (l :: k :: ls))).
      { rewrite mapM_words, Sp. apply (mapM_lits x ch (l :: k :: ls)). intros l0 Hl. apply (H l0 Hl). }
      destruct Hs as [->| ->].
      + rewrite (No "||" C2) by discriminate. rewrite Yes, Ms. reflexivity.
      + rewrite Yes, (No "&&" C1) by discriminate. rewrite Ms. reflexivity.
  Qed.

  Lemma lits_eq cs : (forall c', In c' cs -> exists l, c' = CLit l /\ portable_lit l) ->
    exists ls, cs = map CLit ls /\ forall l, In l ls -> portable_lit l.
  Proof.
    induction cs as [|c cs IH]; intros H; [exists []; split; [reflexivity|intros l []]|].
    destruct IH as (ls & -> & Hl); [intros; apply H; right; assumption|]. destruct (H c (or_introl eq_refl)) as (l & -> & P).
    exists (l :: ls). split; [reflexivity|]. intros l0 [<-|Hl0]; auto.
  Qed.
  Lemma dlcs_lits ls : concat (map dlcs (map CLit ls)) = ls.
  Proof. induction ls as [|l ls IH]; [reflexivity|]. simpl. rewrite IH. reflexivity. Qed.
  Lemma mapM_components ls : (forall l, In l ls -> portable_lit l /\ plain (parent_name l) /\ plain (hp_name (l_child l))) ->
    mapM (new_component T) (map CLit ls) = Ok (map test_text ls).
  Proof.
    induction ls as [|l ls IH]; intros H; [reflexivity|]. cbn [map mapM]. destruct (H l (or_introl eq_refl)) as (H1 & H2 & H3).
    rewrite (component_text l H1 H2 H3). cbn [bind]. rewrite IH by (intros; apply H; right; assumption). reflexivity.
  Qed.

  (** The line of a condition that the format can express is read as that condition. *)
  Lemma cond_trip hs c : NoDup (map hp_name hs) -> (forall h, In h hs -> plain (hp_name h)) -> cond_built c -> portable_cond c -> cond_refs hs c ->
    exists ch s ls, activates c ch /\ plain ch /\ connective s /\ ls <> [] /\ (forall l, In l ls -> portable_lit l /\ plain (parent_name l)) /\
      new_cond_line T c = Ok (cond_line ch s ls) /\
      forall x, finds (c_space x) hs -> new_read_cond T x (cond_tokens ch s ls) = Ok c.
  Proof.
    intros ND Pl B P R.
    assert (Par : forall l, In l (dlcs c) -> plain (parent_name l) /\ plain (hp_name (l_child l))).
    { intros l Hl. destruct (R l Hl) as [R1 R2]. split; apply Pl; assumption. }
    destruct c as [l|cs|cs].
    - destruct (R l (or_introl eq_refl)) as [R1 R2]. destruct (Par l (or_introl eq_refl)) as [P1 P2].
      exists (hp_name (l_child l)), "&&", [l]. split; [reflexivity|]. split; [exact P2|]. split; [left; reflexivity|]. split; [discriminate|].
      split; [intros l0 [<-|[]]; auto|]. split.
      + cbn [new_cond_line]. rewrite condition_text. reflexivity.
      + intros x F. rewrite tokens_read; [reflexivity|left; reflexivity|discriminate|].
        intros l0 [<-|[]]. split; [exact P|]. split; [exact P1|]. apply specification; [exact P|exact B|apply F, R1|apply (F (l_parent l)), R2].
    - destruct (lits_eq cs P) as (ls & -> & Hp). clear P.
      assert (D : dlcs (CAnd (map CLit ls)) = ls) by (cbn [dlcs]; apply dlcs_lits). rewrite D in Par.
      assert (M : mk_and (map CLit ls) = Ok (CAnd (map CLit ls)) /\ forall c, In c (map CLit ls) -> cond_built c).
      { inversion B as [o ch p v c C1 C2 M|ch p vs c C1 C2 M|cs c Hc M|cs c Hc M]; subst.
        - unfold mk_bin in M. kill. destruct (to_vector p v); discriminate.
        - unfold mk_in in M. kill. destruct (mapM (to_vector p) vs); discriminate.
        - assert (M' := M). unfold mk_and in M. kill. injection M as ->. auto.
        - unfold mk_or in M. kill. discriminate. }
      destruct M as [M Bl]. assert (M' := M). unfold mk_and in M'. kill. rewrite D in Heqb0.
      destruct ls as [|l ls]; [discriminate|].
      assert (Same : forall k, In k (l :: ls) -> l_child k = l_child l).
      { intros k [<-|Hk]; [reflexivity|]. cbn [map all_equal] in Heqb0. rewrite forallb_forall in Heqb0.
        assert (Q := Heqb0 (l_child k) (in_map l_child _ _ Hk)). apply hp_eqb_name in Q. symmetry.
        apply (same_hp hs); [exact ND| | |exact Q].
        - apply (R l). rewrite D. left. reflexivity.
        - apply (R k). rewrite D. right. exact Hk. }
      exists (hp_name (l_child l)), "&&", (l :: ls). split; [unfold activates, cond_child; rewrite D; reflexivity|].
      split; [apply (Par l (or_introl eq_refl))|]. split; [left; reflexivity|]. split; [discriminate|].
      split; [intros k Hk; split; [apply Hp, Hk|apply Par, Hk]|]. split.
      + cbn [new_cond_line]. unfold new_conjunction, cond_child. rewrite D. cbn [hd_error option_map].
        rewrite mapM_components by (intros k Hk; split; [apply Hp, Hk|apply Par, Hk]). reflexivity.
      + intros x F. rewrite tokens_read; [|left; reflexivity|discriminate|].
        * destruct ls; [discriminate|]. exact M.
        * intros k Hk. split; [apply Hp, Hk|]. split; [apply Par, Hk|]. rewrite <- (Same k Hk).
          assert (Rk := R k). rewrite D in Rk. destruct (Rk Hk) as [R1 R2].
          apply specification; [apply Hp, Hk|apply Bl, in_map, Hk|apply F, R1|apply (F (l_parent k)), R2].
    - destruct (lits_eq cs P) as (ls & -> & Hp). clear P.
      assert (D : dlcs (COr (map CLit ls)) = ls) by (cbn [dlcs]; apply dlcs_lits). rewrite D in Par.
      assert (M : mk_or (map CLit ls) = Ok (COr (map CLit ls)) /\ forall c, In c (map CLit ls) -> cond_built c).
      { inversion B as [o ch p v c C1 C2 M|ch p vs c C1 C2 M|cs c Hc M|cs c Hc M]; subst.
        - unfold mk_bin in M. kill. destruct (to_vector p v); discriminate.
        - unfold mk_in in M. kill. destruct (mapM (to_vector p) vs); discriminate.
        - unfold mk_and in M. kill. discriminate.
        - assert (M' := M). unfold mk_or in M. kill. injection M as ->. auto. }
      destruct M as [M Bl]. assert (M' := M). unfold mk_or in M'. kill. rewrite D in Heqb0.
      destruct ls as [|l ls]; [discriminate|].
      assert (Same : forall k, In k (l :: ls) -> l_child k = l_child l).
      { intros k [<-|Hk]; [reflexivity|]. cbn [map all_equal] in Heqb0. rewrite forallb_forall in Heqb0.
        assert (Q := Heqb0 (l_child k) (in_map l_child _ _ Hk)). apply hp_eqb_name in Q. symmetry.
        apply (same_hp hs); [exact ND| | |exact Q].
        - apply (R l). rewrite D. left. reflexivity.
        - apply (R k). rewrite D. right. exact Hk. }
      exists (hp_name (l_child l)), "||", (l :: ls). split; [unfold activates, cond_child; rewrite D; reflexivity|].
      split; [apply (Par l (or_introl eq_refl))|]. split; [right; reflexivity|]. split; [discriminate|].
      split; [intros k Hk; split; [apply Hp, Hk|apply Par, Hk]|]. split.
      + cbn [new_cond_line]. unfold new_conjunction, cond_child. rewrite D. cbn [hd_error option_map].
        rewrite mapM_components by (intros k Hk; split; [apply Hp, Hk|apply Par, Hk]). reflexivity.
      + intros x F. rewrite tokens_read; [|right; reflexivity|discriminate|].
        * destruct ls; [discriminate|]. exact M.
        * intros k Hk. split; [apply Hp, Hk|]. split; [apply Par, Hk|]. rewrite <- (Same k Hk).
          assert (Rk := R k). rewrite D in Rk. destruct (Rk Hk) as [R1 R2].
          apply specification; [apply Hp, Hk|apply Bl, in_map, Hk|apply F, R1|apply (F (l_parent k)), R2].
  Qed.

  (** ** Lines of clauses *)
  Definition portable_leaf (f : fclause) : Prop :=
    match f with
    | FEq h v _ => portable_value h v /\ one_value (py_str T v)
    | FIn h vs _ => forall v, In v vs -> portable_value h v /\ one_value (py_str T v)
    | _ => False
    end.
  Definition portable_forb (f : fclause) : Prop := fdlcs f <> [] /\ forall g, In g (fdlcs f) -> portable_leaf g.

  (** an equality of the space *)
  Definition leaf_ok (hs : list hp) (f : fclause) : Prop :=
    exists h v vv, f = FEq h v vv /\ mk_feq h v = Ok f /\ In h hs /\ portable_value h v /\ one_value (py_str T v).

  Lemma read_equals hs x h v vv : finds (c_space x) hs -> (forall h, In h hs -> portable_hp h) -> In h hs -> mk_feq h v = Ok (FEq h v vv) -> portable_value h v ->
    new_read_equals T x (hp_name h) (py_str T v) = Ok (FEq h v vv).
  Proof.
    intros F Ph Hh M P. unfold new_read_equals, hp_named. rewrite (F h Hh). cbn [bind].
    assert (Lg : legal_value h v = true).
    { unfold mk_feq in M. destruct (legal_value h v); [reflexivity|discriminate]. }
    unfold legal_value in Lg. unfold portable_value in P. destruct (Ph h Hh) as (_ & _ & K).
    destruct (hp_kind h) as [c w|c|c|lo hi l d|lo hi l d]; try contradiction.
    - destruct P as (t & -> & _). cbn [py_str]. rewrite Lg. exact M.
    - destruct P as (t & -> & _). cbn [py_str]. rewrite Lg. exact M.
    - destruct P as (z & -> & _ & I). cbn [py_str]. unfold as_int. rewrite I. cbn [bind].
      cbn [num_of] in Lg. unfold legal_int in Lg. rewrite rint_Z in Lg. apply andb_true_iff in Lg. destruct Lg as [Lg _].
      rewrite Lg. exact M.
    - destruct P as (q & -> & _ & I). cbn [py_str]. unfold as_float. rewrite I. cbn [bind]. cbn [num_of] in Lg. rewrite Lg. exact M.
  Qed.

  Definition eq_pair (f : fclause) : string * string :=
    match f with FEq h v _ => (hp_name h, py_str T v) | _ => ("", "") end.
  Lemma mapM_literal hs es : (forall f, In f es -> leaf_ok hs f) -> mapM (new_literal T) es = Ok (map equation (map eq_pair es)).
  Proof.
    induction es as [|f es IH]; intros H; [reflexivity|]. cbn [mapM map]. rewrite IH by (intros; apply H; right; assumption).
    destruct (H f (or_introl eq_refl)) as (h & v & vv & -> & _). reflexivity.
  Qed.
  Definition forb_line (es : list fclause) : string := ("{" ++ (String.concat ", " (map equation (map eq_pair es)) ++ "}"))%string.
  Lemma forbidden_text hs es : (forall f, In f es -> leaf_ok hs f) -> new_forbidden T es = Ok (forb_line es).
  Proof. intros H. unfold new_forbidden. rewrite (mapM_literal hs es H). reflexivity. Qed.
  Lemma pair_ok hs f : (forall h, In h hs -> portable_hp h) -> leaf_ok hs f -> plain (fst (eq_pair f)) /\ one_value (snd (eq_pair f)).
  Proof. intros Ph (h & v & vv & -> & _ & Hh & _ & O). split; [apply (Ph h Hh)|exact O]. Qed.

  Lemma read_tokens hs x es : finds (c_space x) hs -> (forall h, In h hs -> portable_hp h) -> (forall f, In f es -> leaf_ok hs f) ->
    forall f, leaf_ok hs f -> new_read_clauses T x (fst (eq_pair f) :: "=" :: snd (eq_pair f) :: equations (map eq_pair es) ++ ["}"]) = Ok (f :: es).
  Proof.
    intros F Ph. induction es as [|g es IH]; intros H f Hf.
    - destruct Hf as (h & v & vv & -> & M & Hh & P & _). cbn [map equations app eq_pair fst snd new_read_clauses].
      rewrite (read_equals hs x h v vv F Ph Hh M P). reflexivity.
    - assert (IH' := IH ltac:(intros; apply H; right; assumption) g (H g (or_introl eq_refl))).
      assert (Eq : equations (map eq_pair (g :: es)) ++ ["}"] = "," :: fst (eq_pair g) :: "=" :: snd (eq_pair g) :: equations (map eq_pair es) ++ ["}"]).
      { cbn [map equations]. destruct (eq_pair g). reflexivity. }
      rewrite Eq. destruct Hf as (h & v & vv & -> & M & Hh & P & _). cbn [eq_pair fst snd].
      change (new_read_clauses T x (hp_name h :: "=" :: py_str T v :: "," :: fst (eq_pair g) :: "=" :: snd (eq_pair g) :: equations (map eq_pair es) ++ ["}"]))
        with (f <- new_read_equals T x (hp_name h) (py_str T v) ;; fs <- new_read_clauses T x (fst (eq_pair g) :: "=" :: snd (eq_pair g) :: equations (map eq_pair es) ++ ["}"]) ;; Ok (f :: fs)).
      rewrite (read_equals hs x h v vv F Ph Hh M P). cbn [bind]. rewrite IH'. reflexivity.
  Qed.
  Lemma forb_line_chars hs es : (forall h, In h hs -> portable_hp h) -> (forall f, In f es -> leaf_ok hs f) ->
    all_chars line_char (forb_line es) = true.
  Proof.
    intros Ph H. unfold forb_line. rewrite !all_chars_app. apply andb_true_iff. split; [reflexivity|]. apply andb_true_iff. split; [|reflexivity].
    apply all_chars_concat; [reflexivity|]. intros t Ht. apply in_map_iff in Ht. destruct Ht as (e & <- & He).
    apply in_map_iff in He. destruct He as (f & <- & Hf). destruct (pair_ok hs f Ph (H f Hf)) as [P1 P2]. apply one_value_plain in P2.
    unfold equation. rewrite !all_chars_app, (plain_line _ P1), (plain_line _ P2). reflexivity.
  Qed.
  Lemma forb_trip hs es : (forall h, In h hs -> portable_hp h) -> es <> [] -> (forall f, In f es -> leaf_ok hs f) ->
    one_line (forb_line es) /\
    (forall st, new_read_line T st (forb_line es) = Ok (mk_rstate (r_space st) (r_conds st) (r_forbs st ++ [forb_line es]))) /\
    forall x, finds (c_space x) hs -> new_read_forb T x (forb_line es) = Ok (FAnd es).
  Proof.
    intros Ph Hn H. assert (A := forb_line_chars hs es Ph H).
    assert (El : forb_line es = (("{" ++ String.concat ", " (map equation (map eq_pair es))) ++ String "}" "")%string).
    { unfold forb_line. rewrite app_assoc_s. reflexivity. }
    split; [split|split].
    - apply has_char_false. eapply all_chars_impl; [|exact A]. intros e He. unfold line_char in He. rewrite !andb_true_iff in He. apply He.
    - discriminate.
    - intros st. unfold new_read_line.
      assert (Cl : clean (forb_line es) = forb_line es).
      { rewrite El. eapply clean_id; [|reflexivity|reflexivity|reflexivity]. rewrite <- El. eapply all_chars_impl; [|exact A].
        intros e He. unfold line_char in He. rewrite !andb_true_iff in He. apply He. }
      rewrite Cl. cbv zeta. rewrite (no_bar _ A).
      assert (Hc : has_char "}" (forb_line es) = true).
      { unfold forb_line. rewrite !has_char_app. replace (has_char "}" "}") with true by reflexivity. rewrite !orb_true_r. reflexivity. }
      rewrite Hc. cbn [negb andb].
      assert (Hl : last_char (forb_line es) = Some "}"%char) by (rewrite El; apply last_char_app).
      rewrite Hl. reflexivity.
    - intros x F. destruct es as [|f es]; [congruence|]. unfold new_read_forb.
      assert (P : parse p_forb (forb_line (f :: es)) = Some ("{" :: fst (eq_pair f) :: "=" :: snd (eq_pair f) :: equations (map eq_pair es) ++ ["}"])).
      { apply (forb_ok (eq_pair f) (map eq_pair es)). intros e He.
        change (eq_pair f :: map eq_pair es) with (map eq_pair (f :: es)) in He. apply in_map_iff in He. destruct He as (g & <- & Hg).
        apply (pair_ok hs g Ph (H g Hg)). }
      rewrite P. cbn [skipn]. rewrite (read_tokens hs x es F Ph ltac:(intros; apply H; right; assumption) f (H f (or_introl eq_refl))). reflexivity.
  Qed.

  (** *** Memberships as equalities *)
  Lemma product_spec {A} (ls : list (list A)) p : In p (product ls) <-> Forall2 (@In A) p ls.
  Proof.
    revert p. induction ls as [|l ls IH]; intros p; simpl.
    - split; [intros [<-|[]]; constructor|intros H; inversion H; auto].
    - rewrite in_concat. split.
      + intros (m & Hm & Hp). apply in_map_iff in Hm. destruct Hm as (a & <- & Ha). apply in_map_iff in Hp. destruct Hp as (q & <- & Hq).
        constructor; [exact Ha|apply IH, Hq].
      + intros H. inversion H as [|a l0 q ls0 Ha Hq]; subst. exists (map (cons a) (product ls)). split.
        * apply in_map_iff. eauto.
        * apply in_map, IH, Hq.
  Qed.
  Lemma violated_all d fs : violated d (FAnd fs) <-> forall f, In f fs -> violated d f.
  Proof.
    cbn [violated]. induction fs as [|f fs IH]; simpl; [tauto|]. rewrite IH. split; [intros [H1 H2] g [<-|Hg]; auto|intros H; split; auto].
  Qed.
  Lemma violated_leaves d f : violated d f <-> forall g, In g (fdlcs f) -> violated d g.
  Proof.
    induction f as [h v vv|h vs vvs|r a b|cs IH] using fclause_ind'.
    - split; [intros H g [<-|[]]; exact H|intros H; apply H; left; reflexivity].
    - split; [intros H g [<-|[]]; exact H|intros H; apply H; left; reflexivity].
    - split; [intros H g [<-|[]]; exact H|intros H; apply H; left; reflexivity].
    - rewrite violated_all. cbn [fdlcs]. split.
      + intros H g Hg. apply in_concat in Hg. destruct Hg as (l & Hl & Hg). apply in_map_iff in Hl. destruct Hl as (c & <- & Hc).
        rewrite Forall_forall in IH. apply (IH c Hc); [apply H, Hc|exact Hg].
      + intros H c Hc. rewrite Forall_forall in IH. apply (IH c Hc). intros g Hg. apply H, in_concat. exists (fdlcs c). split; [apply in_map, Hc|exact Hg].
  Qed.
  Lemma leaf_built f g : forb_built f -> In g (fdlcs f) -> forb_built g.
  Proof.
    revert g. induction f as [h v vv|h vs vvs|r a b|cs IH] using fclause_ind'; intros g B Hg; try (destruct Hg as [<-|[]]; exact B).
    cbn [fdlcs] in Hg. apply in_concat in Hg. destruct Hg as (l & Hl & Hg). apply in_map_iff in Hl. destruct Hl as (c & <- & Hc).
    rewrite Forall_forall in IH. apply (IH c Hc); [|exact Hg].
    inversion B as [h v f C M|h vs f C M|r a b f C1 C2 M|cs' f Hb M]; subst.
    - unfold mk_feq in M. kill. destruct (to_vector h v); discriminate.
    - unfold mk_fin in M. kill. destruct (mapM (to_vector h) vs); discriminate.
    - discriminate.
    - injection M as ->. apply Hb, Hc.
  Qed.
  Lemma leaf_feq h v vv : forb_built (FEq h v vv) -> mk_feq h v = Ok (FEq h v vv).
  Proof.
    intros B. inversion B as [h0 v0 f C M|h0 vs f C M|r a b f C1 C2 M|cs' f Hb M]; subst; try discriminate.
    - assert (M' := M). unfold mk_feq in M. kill. destruct (to_vector h0 v0); [|discriminate]. injection M as -> -> ->. exact M'.
    - unfold mk_fin in M. kill. destruct (mapM (to_vector h0) vs); discriminate.
  Qed.
  Lemma leaf_fin h vs vvs : forb_built (FIn h vs vvs) -> exists es, mapM (mk_feq h) vs = Ok es /\ Forall2 (fun v e => exists vv, e = FEq h v vv /\ mk_feq h v = Ok e) vs es.
  Proof.
    intros B. assert (M : mk_fin h vs = Ok (FIn h vs vvs)).
    { inversion B as [h0 v0 f C M|h0 vs0 f C M|r a b f C1 C2 M|cs' f Hb M]; subst; try discriminate.
      - unfold mk_feq in M. kill. destruct (to_vector h0 v0); discriminate.
      - assert (M' := M). unfold mk_fin in M. kill. destruct (mapM (to_vector h0) vs0); [|discriminate]. injection M as -> -> ->. exact M'. }
    unfold mk_fin in M. kill. destruct (mapM (to_vector h) vs) as [us|] eqn:Em; [|discriminate]. clear M B vvs.
    revert us Heqb Em. induction vs as [|v vs IH]; intros us Lg Em.
    - exists []. split; [reflexivity|constructor].
    - cbn [forallb] in Lg. apply andb_true_iff in Lg. destruct Lg as [L1 L2]. cbn [mapM] in Em.
      destruct (to_vector h v) as [vv|] eqn:Ev; [|discriminate]. cbn [bind] in Em. destruct (mapM (to_vector h) vs) as [us'|] eqn:Em'; [|discriminate].
      destruct (IH us' L2 eq_refl) as (es & E1 & E2). exists (FEq h v vv :: es).
      assert (Mv : mk_feq h v = Ok (FEq h v vv)) by (unfold mk_feq; rewrite L1, Ev; reflexivity).
      split; [cbn [mapM]; rewrite Mv, E1; reflexivity|]. constructor; [eauto|exact E2].
  Qed.

  (** the lines of a clause: one for each choice of values *)
  Lemma forb_lines hs f : forb_built f -> portable_forb f -> forb_refs hs f ->
    exists ess, new_forb_lines T f = Ok (map forb_line ess) /\
      (forall es, In es ess -> es <> [] /\ forall e, In e es -> leaf_ok hs e) /\
      forall d, violated d f <-> exists es, In es ess /\ violated d (FAnd es).
  Proof.
    intros B [Hn P] R.
    set (ls := fdlcs f) in *. set (others := filter (fun g => negb (is_in g)) ls).
    assert (Bl : forall g, In g ls -> forb_built g) by (intros g Hg; apply (leaf_built f g B Hg)).
    assert (Rl : forall g h, In g ls -> In h (leaf_hps g) -> In h hs).
    { intros g h Hg Hh. apply R. unfold forb_hps. apply in_concat. exists (leaf_hps g). split; [apply in_map, Hg|exact Hh]. }
    assert (Oth : forall e, In e others -> leaf_ok hs e).
    { intros e He. apply filter_In in He. destruct He as [He Hi]. assert (Pe := P e He). destruct e as [h v vv|h vs vvs|r a b|cs]; try contradiction; [|discriminate].
      exists h, v, vv. split; [reflexivity|]. split; [apply leaf_feq, Bl, He|]. split; [apply (Rl _ h He); left; reflexivity|exact Pe]. }
    (* the memberships *)
    assert (Ins : exists ins, mapM equals_of (filter is_in ls) = Ok ins /\
      Forall2 (fun g es => exists h vs vvs, g = FIn h vs vvs /\ Forall2 (fun v e => exists vv, e = FEq h v vv /\ mk_feq h v = Ok e) vs es) (filter is_in ls) ins).
    { assert (G : forall gs, (forall g, In g gs -> In g ls /\ is_in g = true) -> exists ins, mapM equals_of gs = Ok ins /\
        Forall2 (fun g es => exists h vs vvs, g = FIn h vs vvs /\ Forall2 (fun v e => exists vv, e = FEq h v vv /\ mk_feq h v = Ok e) vs es) gs ins).
      { induction gs as [|g gs IH]; intros Hg; [exists []; split; [reflexivity|constructor]|].
        destruct IH as (ins & I1 & I2); [intros; apply Hg; right; assumption|]. destruct (Hg g (or_introl eq_refl)) as [H1 H2].
        destruct g as [h v vv|h vs vvs|r a b|cs]; try discriminate. destruct (leaf_fin h vs vvs (Bl _ H1)) as (es & E1 & E2).
        exists (es :: ins). split; [cbn [mapM equals_of]; rewrite E1; cbn [bind]; rewrite I1; reflexivity|]. constructor; [eauto 6|exact I2]. }
      apply G. intros g Hg. apply filter_In in Hg. exact Hg. }
    destruct Ins as (ins & I1 & I2).
    set (ess := map (fun p => p ++ others) (product ins)).
    assert (Good : forall es, In es ess -> es <> [] /\ forall e, In e es -> leaf_ok hs e).
    { intros es Hes. apply in_map_iff in Hes. destruct Hes as (p & <- & Hp). apply product_spec in Hp. split.
      - intros Ee. apply app_eq_nil in Ee. destruct Ee as [-> Eo]. inversion Hp; subst ins. inversion I2 as [Ef|]; subst.
        apply Hn. destruct ls as [|g ls']; [reflexivity|]. exfalso. unfold others in Eo. cbn [filter] in Ef, Eo. destruct (is_in g); discriminate.
      - intros e He. apply in_app_iff in He. destruct He as [He|He]; [|apply Oth, He].
        assert (Sub : forall g, In g (filter is_in ls) -> In g ls) by (intros g Hg; apply filter_In in Hg; apply Hg).
        clear ess I1. revert Sub I2. generalize (filter is_in ls). intros gs Sub I2.
        revert gs Sub I2. induction Hp as [|a l p ins Ha Hp IH]; intros gs Sub I2; [destruct He|].
        inversion I2 as [|g l0 gs' ins' Hg I2']; subst. destruct He as [<-|He].
        + destruct Hg as (h & vs & vvs & -> & Hg). assert (Hi := Sub _ (or_introl eq_refl)). assert (Pi := P _ Hi).
          assert (Q : exists v vv, In v vs /\ a = FEq h v vv /\ mk_feq h v = Ok a).
          { clear -Hg Ha. induction Hg as [|v e vs es Hv Hg IH]; [destruct Ha|]. destruct Ha as [->|Ha].
            - destruct Hv as (vv & E1 & E2). exists v, vv. split; [left; reflexivity|auto].
            - destruct (IH Ha) as (v' & vv & V1 & V2). exists v', vv. split; [right; exact V1|exact V2]. }
          destruct Q as (v & vv & Hv & -> & M). exists h, v, vv. split; [reflexivity|]. split; [exact M|].
          split; [apply (Rl _ h Hi); left; reflexivity|apply Pi, Hv].
        + apply (IH He gs'); [intros; apply Sub; right; assumption|exact I2']. }
    exists ess. split; [|split; [exact Good|]].
    - unfold new_forb_lines. fold ls. cbv zeta. fold others. rewrite I1. cbn [bind].
      assert (Ml : mapM (fun p => new_forbidden T (p ++ others)) (product ins) = Ok (map forb_line ess)).
      { unfold ess. rewrite map_map. apply mapM_map. intros p Hp. apply (forbidden_text hs). apply Good. apply in_map_iff. eauto. }
      destruct ins as [|i ins]; [|exact Ml].
      assert (Eo : others = ls).
      { inversion I2 as [Ef|]. unfold others. clear -Ef. induction ls as [|g ls' IH]; [reflexivity|]. cbn [filter] in *.
        destruct (is_in g); [discriminate|]. cbn [negb]. f_equal. apply IH. exact Ef. }
      assert (Nr : match f with FRel _ _ _ => false | _ => true end = true).
      { destruct f; try reflexivity. exfalso. apply (P (FRel r left right)). left. reflexivity. }
      rewrite Nr. unfold ess. cbn [product map app]. rewrite Eo in *.
      rewrite (forbidden_text hs ls Oth). reflexivity.
    - intros d. rewrite violated_leaves. fold ls. split.
      + intros V.
        assert (Ch : exists p, Forall2 (@In fclause) p ins /\ forall e, In e p -> violated d e).
        { assert (V' : forall g, In g (filter is_in ls) -> violated d g) by (intros g Hg; apply filter_In in Hg; apply V, Hg).
          clear I1 ess Good. induction I2 as [|g es gs ins Hg I2 IH]; [exists []; split; [constructor|intros e []]|].
          destruct IH as (p & P1 & P2); [intros; apply V'; right; assumption|].
          destruct Hg as (h & vs & vvs & -> & Hg). destruct (V' _ (or_introl eq_refl)) as (w & v & Hw & Hv & Q).
          assert (Ex : exists e, In e es /\ violated d e).
          { clear -Hg Hw Hv Q. induction Hg as [|v' e vs es Hv' Hg IH]; [destruct Hv|]. destruct Hv as [->|Hv].
            - destruct Hv' as (vv & -> & _). eexists. split; [left; reflexivity|]. exists w. auto.
            - destruct (IH Hv) as (e' & E1 & E2). exists e'. split; [right; exact E1|exact E2]. }
          destruct Ex as (e & E1 & E2). exists (e :: p). split; [constructor; assumption|]. intros e' [<-|He]; auto. }
        destruct Ch as (p & P1 & P2). exists (p ++ others). split; [apply in_map_iff; exists p; split; [reflexivity|apply product_spec, P1]|].
        apply violated_all. intros e He. apply in_app_iff in He. destruct He as [He|He]; [apply P2, He|]. apply filter_In in He. apply V, He.
      + intros (es & Hes & V) g Hg. apply in_map_iff in Hes. destruct Hes as (p & <- & Hp). apply product_spec in Hp.
        assert (V' := proj1 (violated_all d _) V). destruct (is_in g) eqn:Ig.
        2: { apply V', in_app_iff. right. apply filter_In. rewrite Ig. auto. }
        assert (Hg' : In g (filter is_in ls)) by (apply filter_In; auto).
        assert (Vp : forall e, In e p -> violated d e) by (intros e He; apply V', in_app_iff; left; exact He).
        clear -I2 Hp Hg' Vp. revert p Hp Vp. induction I2 as [|g' es gs ins Hgg I2 IH]; intros p Hp Vp; [destruct Hg'|].
        inversion Hp as [|a l p' ins' Ha Hp']; subst. destruct Hg' as [->|Hg'].
        * destruct Hgg as (h & vs & vvs & -> & Hg). assert (Va := Vp a (or_introl eq_refl)).
          clear -Hg Ha Va. induction Hg as [|v e vs es Hv Hg IH]; [destruct Ha|]. destruct Ha as [->|Ha].
          -- destruct Hv as (vv & -> & _). destruct Va as (w & W1 & W2). exists w, v. split; [exact W1|split; [left; reflexivity|exact W2]].
          -- destruct (IH Ha) as (w & v' & W1 & W2 & W3). exists w, v'. split; [exact W1|split; [right; exact W2|exact W3]].
        * apply (IH Hg' p' Hp'). intros e He. apply Vp. right. exact He.
  Qed.

  (** ** The lines of a text *)
  Lemma split_nl a : forall cur b, split_from nl 0 cur (a ++ (nl ++ b))%string = split_from nl 0 cur a ++ split_from nl 0 "" b.
  Proof.
    induction a as [|c a IH]; intros cur b; [reflexivity|].
    assert (St : forall s, starts_with nl (String c s) = Ascii.eqb (ascii_of_nat 10) c).
    { intros s. unfold starts_with, nl, newline. cbn [strip_prefix]. destruct (Ascii.eqb (ascii_of_nat 10) c); reflexivity. }
    change (String c a ++ (nl ++ b))%string with (String c (a ++ (nl ++ b))). cbn [split_from]. rewrite !St.
    destruct (Ascii.eqb (ascii_of_nat 10) c); rewrite IH; reflexivity.
  Qed.
  Lemma lines_app a b : lines_of (a ++ (nl ++ b))%string = lines_of a ++ lines_of b.
  Proof. apply split_nl. Qed.
  Lemma lines_one l : has_char (ascii_of_nat 10) l = false -> lines_of l = [l].
  Proof. intros H. unfold lines_of, split_on. rewrite split_from_last; [reflexivity|discriminate|apply no_char_infix, H]. Qed.
  Lemma lines_concat ls : ls <> [] -> (forall l, In l ls -> one_line l) -> lines_of (String.concat nl ls) = ls.
  Proof.
    intros Hn H. induction ls as [|l ls IH]; [congruence|]. destruct ls as [|k ls].
    - apply lines_one, (H l (or_introl eq_refl)).
    - change (String.concat nl (l :: k :: ls)) with (l ++ (nl ++ String.concat nl (k :: ls)))%string.
      rewrite lines_app, (lines_one l) by apply (H l (or_introl eq_refl)). rewrite IH; [reflexivity|discriminate|]. intros l0 Hl. apply H. right. exact Hl.
  Qed.
  Lemma lines_ended ls : (forall l, In l ls -> one_line l) -> lines_of (String.concat "" (map (fun l => l ++ nl) ls))%string = ls ++ [""].
  Proof.
    intros H. induction ls as [|l ls IH]; [reflexivity|].
    assert (Ec : String.concat "" (map (fun l => l ++ nl)%string (l :: ls)) = (l ++ (nl ++ String.concat "" (map (fun l => l ++ nl)%string ls)))%string).
    { cbn [map]. destruct ls; cbn [map String.concat]; rewrite ?app_assoc_s, ?app_nil_s; [reflexivity|]. reflexivity. }
    rewrite Ec, lines_app, (lines_one l) by apply (H l (or_introl eq_refl)). rewrite IH by (intros; apply H; right; assumption). reflexivity.
  Qed.

  Lemma text_lines ps cl fl : (forall l, In l ps -> one_line l) -> (forall l, In l cl -> one_line l) -> (forall l, In l fl -> one_line l) ->
    lines_of (String.concat nl ps ++ (match cl with [] => "" | _ => nl ++ nl ++ String.concat nl cl end
                                      ++ match fl with [] => "" | ls => nl ++ nl ++ String.concat "" (map (fun l => l ++ nl) ls) end))%string =
    match ps with [] => [""] | _ => ps end ++ match cl with [] => [] | _ => "" :: cl end ++ match fl with [] => [] | _ => "" :: fl ++ [""] end.
  Proof.
    intros H1 H2 H3.
    assert (G0 : lines_of (String.concat nl ps) = match ps with [] => [""] | _ => ps end).
    { destruct ps as [|p ps]; [reflexivity|]. apply lines_concat; [discriminate|exact H1]. }
    assert (G3 : forall a, lines_of (a ++ match fl with [] => "" | ls => nl ++ nl ++ String.concat "" (map (fun l => l ++ nl) ls) end)%string =
                           lines_of a ++ match fl with [] => [] | _ => "" :: fl ++ [""] end).
    { intros a. destruct fl as [|f fl]; [rewrite app_nil_s, app_nil_r; reflexivity|].
      rewrite lines_app. f_equal. change (nl ++ String.concat "" (map (fun l => l ++ nl) (f :: fl)))%string with ("" ++ (nl ++ String.concat "" (map (fun l => l ++ nl) (f :: fl))))%string.
      rewrite lines_app, (lines_ended (f :: fl) H3). reflexivity. }
    destruct cl as [|c cl].
    - change ("" ++ ?x)%string with x. cbn [app]. rewrite <- G0. apply G3.
    - rewrite <- app_assoc_s, G3, lines_app, G0, <- app_assoc. f_equal. f_equal.
      change (nl ++ String.concat nl (c :: cl))%string with ("" ++ (nl ++ String.concat nl (c :: cl)))%string.
      rewrite lines_app, (lines_concat (c :: cl)); [reflexivity|discriminate|exact H2].
  Qed.

  Lemma read_lines_app a b st : new_read_lines T (a ++ b) st = (st' <- new_read_lines T a st ;; new_read_lines T b st').
  Proof.
    revert st. induction a as [|l a IH]; intros st; [reflexivity|]. cbn [app new_read_lines]. destruct (new_read_line T st l) as [st'|e]; [apply IH|reflexivity].
  Qed.
  Lemma read_blank st : new_read_line T st "" = Ok st.
  Proof. reflexivity. Qed.

  Lemma mapM_rel {A B} (f : A -> res B) (Q : A -> B -> Prop) l : (forall a, In a l -> exists b, f a = Ok b /\ Q a b) ->
    exists bs, mapM f l = Ok bs /\ Forall2 Q l bs.
  Proof.
    induction l as [|a l IH]; intros H; [exists []; split; [reflexivity|constructor]|].
    destruct (H a (or_introl eq_refl)) as (b & H1 & H2). destruct IH as (bs & I1 & I2); [intros; apply H; right; assumption|].
    exists (b :: bs). split; [cbn [mapM]; rewrite H1; cbn [bind]; rewrite I1; reflexivity|constructor; assumption].
  Qed.
  Lemma Forall2_right {A B} (Q : A -> B -> Prop) (P : B -> Prop) l m : Forall2 Q l m -> (forall a b, Q a b -> P b) -> forall b, In b m -> P b.
  Proof. intros H HP. induction H as [|a b l m Hab H IH]; intros b' Hb; [destruct Hb|]. destruct Hb as [<-|Hb]; eauto. Qed.

  Lemma add_ok x hs cs fs s' : add (c_space x) hs cs fs = (s', Ok tt) -> exists x', add_or_raise x hs cs fs = Ok x' /\ c_space x' = s'.
  Proof. intros H. unfold add_or_raise, c_add. rewrite H. eexists. split; reflexivity. Qed.

  (** hyperparameters, one after the other *)
  Lemma read_hps rest ls : Forall2 (fun h l => one_line l /\ reads_hp l h) rest ls -> forall x pre,
    built (c_space x) pre [] [] -> Forall constructed rest -> NoDup (map hp_name (pre ++ rest)) ->
    exists x', new_read_lines T ls (mk_rstate x [] []) = Ok (mk_rstate x' [] []) /\ built (c_space x') (pre ++ rest) [] [].
  Proof.
    induction 1 as [|h l rest ls [_ Hl] H IH]; intros x pre B C ND.
    - exists x. rewrite app_nil_r. auto.
    - inversion C as [|? ? C1 C2]; subst. replace (pre ++ h :: rest) with ((pre ++ [h]) ++ rest) in * by (rewrite <- app_assoc; reflexivity).
      assert (ND' : NoDup (map hp_name (pre ++ [h]))).
      { rewrite map_app in ND. apply NoDup_app_inv in ND. apply ND. }
      set (d := fun n => option_map hp_default (find (fun h => String.eqb (hp_name h) n) (pre ++ [h]))).
      assert (D : forall k, In k (pre ++ [h]) -> d (hp_name k) = Some (hp_default k)).
      { intros k Hk. unfold d. clear -ND' Hk. revert Hk ND'. generalize (pre ++ [h]). intros l. induction l as [|j l IHl]; intros Hk N; [destruct Hk|].
        simpl in *. inversion N; subst. destruct Hk as [->|Hk]; [rewrite String.eqb_refl; reflexivity|].
        destruct (String.eqb (hp_name j) (hp_name k)) eqn:Q; [|apply IHl; assumption].
        apply String.eqb_eq in Q. exfalso. apply H1. rewrite Q. apply in_map, Hk. }
      destruct (add_total (c_space x) pre [] [] [h] [] [] d B) as (s' & A).
      { constructor; [exact C1|constructor]. } { constructor. } { constructor. }
      { split; [intros c []|intros f []]. } { intros []. } { exact ND'. } { intros c c' n []. }
      { intros n Hn. assert (G : forall a b, clos_trans string (reads []) a b -> False) by (induction 1 as [a b (c & [] & _)|]; auto). eauto. }
      { intros s' _ c d' v []. } { intros c l0 w vv []. } { intros f []. }
      { intros k Hk. left. split; [intros c []|]. apply D, Hk. }
      { intros f []. }
      destruct (add_ok _ _ _ _ _ A) as (x' & Ax & Ex).
      assert (B' : built (c_space x') (pre ++ [h]) [] []).
      { rewrite Ex. apply (built_add _ _ _ _ _ _ _ _ B (Forall_cons _ C1 (Forall_nil _)) (Forall_nil _) (Forall_nil _) A). }
      destruct (IH x' (pre ++ [h]) B' C2 ND) as (x'' & R & B''). exists x''. split; [|exact B''].
      cbn [new_read_lines]. rewrite (Hl _). cbn [r_space r_conds r_forbs]. rewrite Ax. exact R.
  Qed.

  Definition cond_reads (hs : list hp) (c : cond) (l : string) : Prop :=
    one_line l /\ exists ts, activates c (hd "" ts) /\
      (forall st, new_read_line T st l = Ok (mk_rstate (r_space st) (r_conds st ++ [ts]) (r_forbs st))) /\
      forall x, finds (c_space x) hs -> new_read_cond T x ts = Ok c.
  Lemma read_conds hs cs ls : Forall2 (cond_reads hs) cs ls -> exists tss, Forall2 (fun c ts => activates c (hd "" ts) /\ forall x, finds (c_space x) hs -> new_read_cond T x ts = Ok c) cs tss /\
    forall st, new_read_lines T ls st = Ok (mk_rstate (r_space st) (r_conds st ++ tss) (r_forbs st)).
  Proof.
    induction 1 as [|c l cs ls (_ & ts & H1 & H2 & H3) H IH].
    - exists []. split; [constructor|]. intros [a b c]. cbn [r_space r_conds r_forbs]. rewrite app_nil_r. reflexivity.
    - destruct IH as (tss & I1 & I2). exists (ts :: tss). split; [constructor; auto|]. intros st. cbn [new_read_lines]. rewrite H2. cbn [bind].
      rewrite I2. cbn [r_space r_conds r_forbs]. rewrite <- app_assoc. reflexivity.
  Qed.
  Lemma read_forbs ls : (forall l, In l ls -> forall st, new_read_line T st l = Ok (mk_rstate (r_space st) (r_conds st) (r_forbs st ++ [l]))) ->
    forall st, new_read_lines T ls st = Ok (mk_rstate (r_space st) (r_conds st) (r_forbs st ++ ls)).
  Proof.
    induction ls as [|l ls IH]; intros H st.
    - destruct st as [a b c]. cbn [r_space r_conds r_forbs]. rewrite app_nil_r. reflexivity.
    - cbn [new_read_lines]. rewrite (H l (or_introl eq_refl)). cbn [bind]. rewrite IH by (intros; apply H; right; assumption).
      cbn [r_space r_conds r_forbs]. rewrite <- app_assoc. reflexivity.
  Qed.

  Lemma none_filter {A} (P : A -> bool) l : (forall x, In x l -> P x = false) -> filter P l = [].
  Proof. induction l as [|x l IH]; intros H; [reflexivity|]. cbn [filter]. rewrite (H x (or_introl eq_refl)). apply IH. intros y Hy. apply H. right. exact Hy. Qed.
  Lemma by_child_same tss : NoDup (map (hd "") tss) -> by_child tss = tss.
  Proof.
    intros ND. unfold by_child.
    assert (N1 : forall l seen, NoDup l -> (forall n, In n l -> ~ In n seen) -> nub_aux seen l = l).
    { induction l as [|n l IH]; intros seen N H; [reflexivity|]. cbn [nub_aux].
      destruct (str_in n seen) eqn:Q; [apply str_in_iff in Q; exfalso; apply (H n (or_introl eq_refl) Q)|]. inversion N; subst. f_equal.
      apply IH; [assumption|]. intros m Hm [<-|K]; [contradiction|]. apply (H m (or_intror Hm) K). }
    unfold nub. rewrite N1 by (auto; intros n Hn []). 
    assert (G : forall l all, NoDup (map (hd "") all) -> incl l all -> NoDup (map (hd "") l) ->
      concat (map (fun n => filter (fun ts => String.eqb (hd "" ts) n) all) (map (hd "") l)) = l).
    { intros l all Na. induction l as [|t l IH]; intros Hi Nl; [reflexivity|]. cbn [map concat]. inversion Nl; subst.
      rewrite IH; [|intros u Hu; apply Hi; right; exact Hu|assumption].
      assert (F : filter (fun ts => String.eqb (hd "" ts) (hd "" t)) all = [t]).
      { assert (Ht := Hi t (or_introl eq_refl)). clear -Na Ht. induction all as [|u all IH]; [destruct Ht|]. cbn [map] in Na. inversion Na; subst. cbn [filter].
        destruct Ht as [->|Ht].
        - rewrite String.eqb_refl. f_equal. apply none_filter. intros v Hv. apply String.eqb_neq. intros Q. apply H1. rewrite <- Q. apply in_map, Hv.
        - destruct (String.eqb (hd "" u) (hd "" t)) eqn:Q; [|apply IH; assumption]. apply String.eqb_eq in Q. exfalso. apply H1. rewrite Q. apply in_map, Ht. }
      rewrite F. reflexivity. }
    apply G; [exact ND|apply incl_refl|exact ND].
  Qed.

  (** ** The whole file *)
  Lemma children_distinct s hs cs fs tss : built s hs cs fs -> distinct_strings s ->
    Forall2 (fun c (ts : list string) => activates c (hd "" ts)) (conditions s) tss -> NoDup (map (hd "") tss).
  Proof.
    intros B U H. assert (O := built_ok _ _ _ _ B). assert (Ls := listed s hs cs fs B U).
    assert (N : NoDup (conditions s)) by (apply (NoDup_map_inv cond_str), (C58_partial s hs cs fs B)).
    assert (Act : forall c c' n, In c (conditions s) -> In c' (conditions s) -> activates c n -> activates c' n -> c = c').
    { intros c c' n Hc Hc' A A'. apply Ls in Hc, Hc'. destruct Hc as (m & Hc). destruct Hc' as (m' & Hc').
      assert (Q := proj2 (so_condof_in O _ _ Hc)). assert (Q' := proj2 (so_condof_in O _ _ Hc')). unfold activates in *. assert (m = n) by congruence. assert (m' = n) by congruence. congruence. }
    clear Ls O B U. revert N Act H. generalize (conditions s). intros l N Act H. induction H as [|c ts l tss Hc H IH]; [constructor|].
    cbn [map]. inversion N; subst. constructor.
    - intros K. apply H2. clear -Hc H Act K. assert (G : exists c', In c' l /\ activates c' (hd "" ts)).
      { clear Act Hc. induction H as [|c' ts' l tss Hc' H IH]; [destruct K|]. cbn [map] in K. destruct K as [K|K].
        - exists c'. split; [left; reflexivity|]. rewrite <- K. exact Hc'.
        - destruct (IH K) as (c0 & H1 & H2). exists c0. split; [right; exact H1|exact H2]. }
      destruct G as (c' & Hc' & A'). rewrite (Act c c' (hd "" ts)); [exact Hc'|left; reflexivity|right; exact Hc'|exact Hc|exact A'].
    - apply IH; [assumption|]. intros c1 c2 n H4 H5. apply Act; right; assumption.
  Qed.

  Lemma mapM_Forall2 {A B} (f : A -> res B) l m : Forall2 (fun b a => f a = Ok b) m l -> mapM f l = Ok m.
  Proof. induction 1 as [|b a m l H1 H IH]; [reflexivity|]. cbn [mapM]. rewrite H1. cbn [bind]. rewrite IH. reflexivity. Qed.

  Lemma Forall2_imp {A B} (P Q : A -> B -> Prop) l m : (forall a b, P a b -> Q a b) -> Forall2 P l m -> Forall2 Q l m.
  Proof. intros H. induction 1; constructor; auto. Qed.

  Lemma trip_prefix x hs cs fs : built (c_space x) hs cs fs -> refs hs cs fs -> distinct_strings (c_space x) ->
    (forall h, In h hs -> portable_hp h) -> (forall c, In c cs -> portable_cond c) -> (forall f, In f fs -> portable_forb f) ->
    exists t x1 ess tss, new_write T x = Ok t /\ built (c_space x1) (Space.hps (c_space x)) [] [] /\
      (forall es, In es ess -> es <> [] /\ forall e, In e es -> leaf_ok (Space.hps (c_space x)) e) /\
      (forall d, (exists es, In es ess /\ violated d (FAnd es)) <-> (exists f, In f (forbidden_clauses (c_space x)) /\ violated d f)) /\
      (forall x2, finds (c_space x2) (Space.hps (c_space x)) -> mapM (new_read_cond T x2) tss = Ok (conditions (c_space x))) /\
      new_read T (lines_of t) = (x2 <- add_or_raise x1 [] [] (map FAnd ess) ;; cs' <- mapM (new_read_cond T x2) tss ;; add_or_raise x2 [] cs' []).
  Proof.
    intros B R U Ph0 Pc0 Pf0. assert (O := built_ok _ _ _ _ B). assert (Ph := so_hps O). assert (Pf := di_forb _ _ _ _ (so_inv _ _ _ _ O)).
    set (s := c_space x) in *. set (hs2 := Space.hps s) in *.
    assert (F1 : Forall constructed hs2).
    { rewrite Forall_forall. intros h Hh. apply (so_constructed O), (Permutation_in _ Ph Hh). }
    assert (Sub : forall c, In c (conditions s) -> In c cs).
    { intros c Hc. apply (listed _ _ _ _ B U) in Hc. destruct Hc as (n & Hc). apply (so_condof_in O _ _ Hc). }
    assert (ND : NoDup (map hp_name hs2)).
    { eapply Permutation_NoDup; [apply Permutation_map, Permutation_sym, Ph|apply (so_names_nodup O)]. }
    assert (Pp : forall h, In h hs2 -> portable_hp h) by (intros h Hh; apply Ph0, (Permutation_in _ Ph Hh)).
    assert (RC : forall c, In c (conditions s) -> cond_refs hs2 c).
    { intros c Hc l Hl. destruct (proj1 R c (Sub c Hc) l Hl) as [Q1 Q2]. split; apply (Permutation_in _ (Permutation_sym Ph)); assumption. }
    assert (RF : forall f, In f (forbidden_clauses s) -> forb_refs hs2 f).
    { intros f Hf h Hh. apply (Permutation_in _ (Permutation_sym Ph)). apply (proj2 R f (Permutation_in _ Pf Hf) h Hh). }
    (* hyperparameters *)
    destruct (mapM_rel (new_param T) (fun h l => one_line l /\ reads_hp l h) hs2) as (ps & W1 & P1).
    { intros h Hh. rewrite Forall_forall in F1. destruct (C83_hp_partial h (F1 h Hh) (Pp h Hh)) as (l & H1 & H2 & H3). eauto. }
    (* conditions *)
    destruct (mapM_rel (new_cond_line T) (cond_reads hs2) (conditions s)) as (cl & W2 & P2).
    { intros c Hc. destruct (cond_trip hs2 c ND (fun h Hh => proj1 (Pp h Hh)) (so_cond_built O c (Sub c Hc)) (Pc0 c (Sub c Hc)) (RC c Hc))
        as (ch & sp & ls & H1 & H2 & H3 & H4 & H5 & H6 & H7).
      exists (cond_line ch sp ls). split; [exact H6|]. split; [apply (cond_line_reads (mk_rstate x [] []) ch sp ls H2 H3 H4 H5)|].
      exists (cond_tokens ch sp ls). split; [exact H1|]. split; [|exact H7]. intros st. apply (cond_line_reads st ch sp ls H2 H3 H4 H5). }
    (* clauses *)
    destruct (mapM_rel (new_forb_lines T) (fun f ls => exists ess, ls = map forb_line ess /\
        (forall es, In es ess -> es <> [] /\ forall e, In e es -> leaf_ok hs2 e) /\
        forall d, violated d f <-> exists es, In es ess /\ violated d (FAnd es)) (forbidden_clauses s)) as (fl & W3 & P3).
    { intros f Hf. assert (Hf' := Permutation_in _ Pf Hf).
      destruct (forb_lines hs2 f (so_forb_built O f Hf') (Pf0 f Hf') (RF f Hf)) as (ess & H1 & H2 & H3).
      exists (map forb_line ess). split; [exact H1|]. exists ess. auto. }
    assert (G3 : exists ess0, concat fl = map forb_line ess0 /\ (forall es, In es ess0 -> es <> [] /\ forall e, In e es -> leaf_ok hs2 e) /\
      forall d, (exists es, In es ess0 /\ violated d (FAnd es)) <-> (exists f, In f (forbidden_clauses s) /\ violated d f)).
    { clear -P3. induction P3 as [|f ls fs fl (ess & -> & H2 & H3) H IH].
      - exists []. split; [reflexivity|]. split; [intros es []|]. intros d. split; intros (y & [] & _).
      - destruct IH as (ess0 & I1 & I2 & I3). exists (ess ++ ess0). cbn [concat]. rewrite I1, map_app. split; [reflexivity|].
        split; [intros es Hes; apply in_app_or in Hes; destruct Hes; auto|]. intros d. split.
        + intros (es & Hes & V). apply in_app_or in Hes. destruct Hes as [Hes|Hes].
          * exists f. split; [left; reflexivity|]. apply H3. eauto.
          * destruct (proj1 (I3 d)) as (g & Hg & Vg); [eauto|]. exists g. split; [right; exact Hg|exact Vg].
        + intros (g & [<-|Hg] & V).
          * apply H3 in V. destruct V as (es & Hes & V). exists es. split; [apply in_or_app; left; exact Hes|exact V].
          * destruct (proj2 (I3 d)) as (es & Hes & V'); [eauto|]. exists es. split; [apply in_or_app; right; exact Hes|exact V']. }
    destruct G3 as (ess0 & C1 & C2 & C3).
    assert (PS : Permutation (py_sorted String.ltb (concat fl)) (map forb_line ess0)) by (rewrite C1; apply py_sorted_perm).
    destruct (Permutation_map_inv _ _ PS) as (ess & Es & Pe).
    assert (C2' : forall es, In es ess -> es <> [] /\ forall e, In e es -> leaf_ok hs2 e) by (intros es Hes; apply C2, (Permutation_in _ (Permutation_sym Pe) Hes)).
    assert (FT : forall l, In l (map forb_line ess) -> one_line l /\ forall st, new_read_line T st l = Ok (mk_rstate (r_space st) (r_conds st) (r_forbs st ++ [l]))).
    { intros l Hl. apply in_map_iff in Hl. destruct Hl as (es & <- & Hes). destruct (C2' es Hes) as [Hn Ho].
      destruct (forb_trip hs2 es Pp Hn Ho) as (Q1 & Q2 & _). split; assumption. }
    (* reading *)
    destruct (read_hps hs2 ps P1 (new_space None None) [] built_empty F1 ND) as (x1 & R1 & B1). cbn [app] in B1.
    destruct (read_conds hs2 (conditions s) cl P2) as (tss & P4 & R2).
    assert (R3 := read_forbs (map forb_line ess) (fun l Hl => proj2 (FT l Hl))).
    assert (F : finds (c_space x1) hs2).
    { intros h Hh. apply (so_get_hp (built_ok _ _ _ _ B1)). auto. }
    eexists. exists x1, ess, tss. split; [|split; [exact B1|split; [exact C2'|split; [|split]]]].
    - unfold new_write. fold s. fold hs2. rewrite W1. cbn [bind]. rewrite W2. cbn [bind]. rewrite W3. cbn [bind]. reflexivity.
    - intros d. rewrite <- C3. split; intros (es & Hes & V); exists es; (split; [|exact V]); [apply (Permutation_in _ (Permutation_sym Pe) Hes)|apply (Permutation_in _ Pe Hes)].
    - intros x2 F2. apply mapM_Forall2. eapply Forall2_imp; [|exact P4]. intros c ts [_ Q]. apply Q, F2.
    - assert (Et : (match concat fl with [] => "" | ls => nl ++ nl ++ String.concat "" (map (fun l => l ++ nl) (py_sorted String.ltb ls)) end)%string =
                   (match map forb_line ess with [] => "" | _ => nl ++ nl ++ String.concat "" (map (fun l => l ++ nl) (map forb_line ess)) end)%string).
      { rewrite <- Es. destruct (concat fl) as [|l ls]; [reflexivity|].
        destruct (py_sorted String.ltb (l :: ls)) eqn:Q; [|reflexivity]. exfalso. assert (Hp := py_sorted_perm String.ltb (l :: ls)). rewrite Q in Hp. apply Permutation_nil in Hp. discriminate. }
      rewrite Et, (text_lines ps cl (map forb_line ess)); cycle 1.
      { apply (Forall2_right _ one_line _ _ P1). intros a b [Q _]. exact Q. }
      { apply (Forall2_right _ one_line _ _ P2). intros a b [Q _]. exact Q. }
      { intros l Hl. apply (proj1 (FT l Hl)). }
      unfold new_read.
      assert (R1' : new_read_lines T (match ps with [] => [""] | _ => ps end) (mk_rstate (new_space None None) [] []) = Ok (mk_rstate x1 [] [])).
      { destruct ps; [|exact R1]. cbn [new_read_lines] in *. rewrite read_blank. exact R1. }
      assert (R2' : forall st, new_read_lines T (match cl with [] => [] | _ => "" :: cl end) st = Ok (mk_rstate (r_space st) (r_conds st ++ tss) (r_forbs st))).
      { intros st. rewrite <- R2. destruct cl; [reflexivity|]. change (?a :: ?b :: ?c) with ([a] ++ (b :: c)). rewrite read_lines_app. cbn [new_read_lines]. rewrite read_blank. reflexivity. }
      assert (R3' : forall st, new_read_lines T (match map forb_line ess with [] => [] | _ => "" :: map forb_line ess ++ [""] end) st =
                               Ok (mk_rstate (r_space st) (r_conds st) (r_forbs st ++ map forb_line ess))).
      { intros st. rewrite <- R3. destruct (map forb_line ess) as [|l ls] eqn:Q; [reflexivity|].
        change ("" :: (l :: ls) ++ [""]) with ([""] ++ ((l :: ls) ++ [""])).
        assert (Bl : forall st, new_read_lines T [""] st = Ok st) by reflexivity.
        rewrite read_lines_app, Bl. cbn [bind]. rewrite read_lines_app, R3. apply Bl. }
      rewrite read_lines_app, R1'. cbn [bind]. rewrite read_lines_app, R2'. cbn [bind]. rewrite R3'. cbn [bind r_space r_conds r_forbs app].
      assert (Rf : mapM (new_read_forb T x1) (map forb_line ess) = Ok (map FAnd ess)).
      { clear -C2' Pp F L. induction ess as [|es ess IH]; [reflexivity|]. cbn [map mapM]. destruct (C2' es (or_introl eq_refl)) as [Hn Ho].
        destruct (forb_trip hs2 es Pp Hn Ho) as (_ & _ & Q). rewrite (Q x1 F). cbn [bind]. rewrite IH; [reflexivity|]. intros e He. apply C2'. right. exact He. }
      rewrite Rf. cbn [bind]. rewrite (by_child_same tss); [reflexivity|].
      apply (children_distinct s hs cs fs tss B U). eapply Forall2_imp; [|exact P4]. intros c ts [Q _]. exact Q.
  Qed.

  (** every hyperparameter has its default value, whatever the conditions say *)
  Definition all_defaults (hs : list hp) (d : assignment) : Prop := forall h, In h hs -> d (hp_name h) = Some (hp_default h).

  Lemma plain_default hs d : default_assignment hs [] d <-> all_defaults hs d.
  Proof.
    split; intros H h Hh.
    - destruct (H h Hh) as [[_ Q]|[Q _]]; [exact Q|]. exfalso. apply Q. intros c [].
    - left. split; [intros c []|apply H, Hh].
  Qed.

  Section Clauses.
    Variable hs : list hp.
    Variable ess : list (list fclause).
    Hypothesis F1 : Forall constructed hs.
    Hypothesis Ok_es : forall es, In es ess -> es <> [] /\ forall e, In e es -> leaf_ok hs e.
    Lemma clauses_built : Forall forb_built (map FAnd ess).
    Proof.
      rewrite Forall_forall. intros f Hf. apply in_map_iff in Hf. destruct Hf as (es & <- & Hes). eapply FB_and; [|reflexivity].
      intros e He. destruct (proj2 (Ok_es es Hes) e He) as (h & v & vv & -> & M & Hh & _). eapply FB_eq; [|exact M]. rewrite Forall_forall in F1. apply F1, Hh.
    Qed.
    Lemma clauses_refs f : In f (map FAnd ess) -> forb_refs hs f.
    Proof.
      intros Hf. apply in_map_iff in Hf. destruct Hf as (es & <- & Hes). intros h Hh. unfold forb_hps in Hh. apply in_concat in Hh.
      destruct Hh as (l & Hl & Hh). apply in_map_iff in Hl. destruct Hl as (g & <- & Hg). cbn [fdlcs] in Hg. apply in_concat in Hg.
      destruct Hg as (l & Hl & Hg). apply in_map_iff in Hl. destruct Hl as (e & <- & He).
      destruct (proj2 (Ok_es es Hes) e He) as (h' & v & vv & -> & M & Hh' & _). cbn [fdlcs] in Hg. destruct Hg as [<-|[]]. destruct Hh as [<-|[]]. exact Hh'.
    Qed.
    Lemma clauses_comparable f : In f (map FAnd ess) -> comparable f.
    Proof.
      intros Hf. apply in_map_iff in Hf. destruct Hf as (es & <- & Hes). intros r a b Hg. cbn [fdlcs] in Hg. apply in_concat in Hg.
      destruct Hg as (l & Hl & Hg). apply in_map_iff in Hl. destruct Hl as (e & <- & He).
      destruct (proj2 (Ok_es es Hes) e He) as (h' & v & vv & -> & _). cbn [fdlcs] in Hg. destruct Hg as [Q|[]]. discriminate.
    Qed.
    Lemma clauses_ne : ~ In (FAnd []) (map FAnd ess).
    Proof. intros H. apply in_map_iff in H. destruct H as (es & Q & Hes). injection Q as ->. apply (proj1 (Ok_es [] Hes)). reflexivity. Qed.
  End Clauses.

  (** C83: a portable space comes back from its own text, with the same hyperparameters at the same
      places, the same conditions and the same accepted values; the clauses are other ones (one
      conjunction per combination of values) with the same meaning.

      The text can be read exactly when no clause is violated with ALL hyperparameters at their
      defaults, also those that are inactive by default: read() adds the clauses before the conditions.

      Missing: what [portable_hp], [portable_cond] and [portable_forb] leave out. *)
  Theorem C83_round_trip_partial x hs cs fs d0 : cbuilt x hs cs fs -> tame (c_space x) hs cs fs -> distinct_strings (c_space x) ->
    (forall h, In h hs -> portable_hp h) -> (forall c, In c cs -> portable_cond c) -> (forall f, In f fs -> portable_forb f) ->
    all_defaults hs d0 ->
    exists t, new_write T x = Ok t /\
      ((forall f, In f fs -> ~ violated d0 f) ->
       exists y, new_read T (lines_of t) = Ok y /\
         items (c_space y) = items (c_space x) /\ index_of (c_space y) = index_of (c_space x) /\
         conditions (c_space y) = conditions (c_space x) /\
         unconditional_hyperparameters (c_space y) = unconditional_hyperparameters (c_space x) /\
         conditional_hyperparameters (c_space y) = conditional_hyperparameters (c_space x) /\
         (forall n, conds_of (c_space y) n = conds_of (c_space x) n) /\
         (forall d, (exists f, In f (forbidden_clauses (c_space y)) /\ violated d f) <-> (exists f, In f (forbidden_clauses (c_space x)) /\ violated d f)) /\
         (forall vals d, stored hs (given vals) d -> exact_all hs (given vals) ->
           ((exists c, config_of_values (c_space y) vals false = Ok c) <-> (exists c, config_of_values (c_space x) vals false = Ok c)))) /\
      ((exists f, In f fs /\ violated d0 f) -> new_read T (lines_of t) = Err ForbiddenValueError).
  Proof.
    intros CB TM U Ph0 Pc0 Pf0 D0. assert (TM' := TM). destruct TM' as [B R M NS Cmp].
    assert (O := built_ok _ _ _ _ B). assert (Ph := so_hps O). assert (Pf := di_forb _ _ _ _ (so_inv _ _ _ _ O)).
    destruct (trip_prefix x hs cs fs B R U Ph0 Pc0 Pf0) as (t & x1 & ess & tss & W & B1 & Hes & Hv & Hcs & Rd).
    exists t. split; [exact W|]. set (s := c_space x) in *. set (hs2 := Space.hps s) in *.
    assert (F1 : Forall constructed hs2).
    { rewrite Forall_forall. intros h Hh. apply (so_constructed O), (Permutation_in _ Ph Hh). }
    assert (Sub : forall c, In c (conditions s) -> In c cs).
    { intros c Hc. apply (listed _ _ _ _ B U) in Hc. destruct Hc as (n & Hc). apply (so_condof_in O _ _ Hc). }
    assert (F2 : Forall cond_built (conditions s)).
    { rewrite Forall_forall. intros c Hc. apply (so_cond_built O), Sub, Hc. }
    assert (F3 := clauses_built hs2 ess F1 Hes).
    assert (RF := clauses_refs hs2 ess Hes). assert (CF := clauses_comparable hs2 ess Hes). assert (NE := clauses_ne hs2 ess Hes).
    assert (ND : NoDup (map hp_name hs2)).
    { eapply Permutation_NoDup; [apply Permutation_map, Permutation_sym, Ph|apply (so_names_nodup O)]. }
    assert (D2 : all_defaults hs2 d0) by (intros h Hh; apply D0, (Permutation_in _ Ph Hh)).
    assert (Vf : forall d, (exists f, In f (map FAnd ess) /\ violated d f) <-> exists f, In f fs /\ violated d f).
    { intros d. split.
      - intros (f & Hf & V). apply in_map_iff in Hf. destruct Hf as (es & <- & He). destruct (proj1 (Hv d)) as (g & Hg & Vg); [eauto|].
        exists g. split; [apply (Permutation_in _ Pf Hg)|exact Vg].
      - intros (f & Hf & V). destruct (proj2 (Hv d)) as (es & He & Ve); [exists f; split; [apply (Permutation_in _ (Permutation_sym Pf) Hf)|exact V]|].
        exists (FAnd es). split; [apply in_map, He|exact Ve]. }
    assert (Nc : no_cycle ([] ++ [])) by exact plain_cycle.
    assert (I1 : (exists s2, add (c_space x1) [] [] (map FAnd ess) = (s2, Ok tt)) <->
                 NoDup (map hp_name (hs2 ++ [])) /\ one_condition ([] ++ []) /\ no_cycle ([] ++ []) /\
                 exists d, default_assignment (hs2 ++ []) ([] ++ []) d /\ forall f, In f ([] ++ map FAnd ess) -> ~ violated d f).
    { apply (C73_add_iff_partial (c_space x1) hs2 [] [] [] [] (map FAnd ess) B1 (Forall_nil _) (Forall_nil _) F3); [|exact NE|exact plain_merge|exact plain_ne|exact CF].
      split; [intros c []|]. rewrite app_nil_r. exact RF. }
    rewrite app_nil_r in I1. cbn [app] in I1. split.
    - intros NV. destruct (proj2 I1) as (s2 & A1).
      { split; [exact ND|]. split; [intros c c' n []|]. split; [exact plain_cycle|]. exists d0. split; [apply plain_default, D2|].
        intros f Hf V. destruct (proj1 (Vf d0)) as (g & Hg & Vg); [eauto|]. apply (NV g Hg Vg). }
      destruct (add_ok _ _ _ _ _ A1) as (x2 & Ax & Ex).
      assert (B2 : built (c_space x2) hs2 [] (map FAnd ess)).
      { rewrite Ex. assert (Q := built_add _ _ _ _ _ _ _ _ B1 (Forall_nil _) (Forall_nil _) F3 A1). rewrite app_nil_r in Q. exact Q. }
      assert (F : finds (c_space x2) hs2) by (intros h Hh; apply (so_get_hp (built_ok _ _ _ _ B2)); auto).
      destruct (C21_exists _ _ _ _ B) as (cf & Hcf).
      destruct (default_sound s hs cs fs cf O R M NS Hcf) as (d & D & V).
      assert (AL : all_legal hs d).
      { intros h w Hh Hw. destruct (D h Hh) as [[_ Q]|[_ Q]]; rewrite Q in Hw; [|discriminate]. injection Hw as <-.
        apply default_legal, (so_constructed O), Hh. }
      assert (Act := listed_active s hs cs fs d B R U AL).
      assert (RC : refs hs2 (conditions s) (map FAnd ess)).
      { split; [|exact RF]. intros c Hc l Hl. destruct (proj1 R c (Sub c Hc) l Hl) as [Q1 Q2].
        split; apply (Permutation_in _ (Permutation_sym Ph)); assumption. }
      assert (NS2 : ne_safe (conditions s)).
      { intros c l w vv Hc Hl Ht (c' & Hc' & Ha). apply (NS c l w vv (Sub c Hc) Hl Ht). exists c'. split; [apply Sub, Hc'|exact Ha]. }
      assert (M2 : forall s', space_ok s' hs2 (conditions s) (map FAnd ess) -> merge_sound (index_of s') (conditions s)).
      { intros s' O'. rewrite (same_index B U O'). intros c c' v Hc Hc'. apply M; apply Sub; assumption. }
      destruct (add_total (c_space x2) hs2 [] (map FAnd ess) [] (conditions s) [] d B2 (Forall_nil _) F2 (Forall_nil _)) as (s3 & A2); rewrite ?app_nil_r; cbn [app].
      { exact RC. } { exact NE. } { exact ND. }
      { intros c c' n Hc Hc'. apply (C06_one_condition _ _ _ _ c c' n B); apply Sub; assumption. }
      { intros n Hn. apply (C05_acyclic _ _ _ _ B n). revert Hn. generalize n at 2 4. intros m Hn.
        induction Hn as [a b Hab|a b c _ IH1 _ IH2]; [apply t_step, (listed_reads _ _ _ _ B U), Hab|eapply t_trans; eauto]. }
      { exact M2. } { exact NS2. } { exact CF. }
      { intros h Hh. rewrite <- Act. apply D, (Permutation_in _ Ph Hh). }
      { intros f Hf Vd. destruct (proj1 (Vf d)) as (g & Hg & Vg); [eauto|]. apply (V g Hg Vg). }
      destruct (add_ok _ _ _ _ _ A2) as (y & Ay & Ey). exists y.
      assert (B3 : built (c_space y) hs2 (conditions s) (map FAnd ess)).
      { rewrite Ey. assert (Q := built_add _ _ _ _ _ _ _ _ B2 (Forall_nil _) F2 (Forall_nil _) A2). rewrite !app_nil_r in Q. exact Q. }
      assert (O3 := built_ok _ _ _ _ B3). assert (Pf3 := di_forb _ _ _ _ (so_inv _ _ _ _ O3)).
      split; [rewrite Rd, Ax; cbn [bind]; rewrite (Hcs x2 F); exact Ay|].
      split; [apply (same_items B U O3)|]. split; [apply (same_index B U O3)|]. split; [apply (same_conditions B U O3)|].
      split; [apply (same_roots B U O3)|]. split; [apply (same_nonroots B U O3)|].
      split; [intros n; rewrite (so_conds_of O), (so_conds_of O3), (same_condof B U O3); reflexivity|].
      assert (V3 : forall d, (exists f, In f (forbidden_clauses (c_space y)) /\ violated d f) <-> (exists f, In f fs /\ violated d f)).
      { intros d1. rewrite <- Vf. split; intros (f & Hf & Q); exists f; (split; [|exact Q]); [apply (Permutation_in _ Pf3 Hf)|apply (Permutation_in _ (Permutation_sym Pf3) Hf)]. }
      split.
      { intros d1. rewrite V3. split; intros (f & Hf & Q); exists f; (split; [|exact Q]); [apply (Permutation_in _ (Permutation_sym Pf) Hf)|apply (Permutation_in _ Pf Hf)]. }
      intros vals dv St Exa.
      assert (T3 : tame (c_space y) hs2 (conditions s) (map FAnd ess)).
      { constructor; [exact B3|exact RC|apply M2, O3|exact NS2|exact CF]. }
      rewrite (C17_accepts_valid_partial s hs cs fs vals dv TM St Exa).
      rewrite (C17_accepts_valid_partial (c_space y) _ _ _ vals dv T3).
      2: { intros h Hh. apply St, (Permutation_in _ Ph Hh). }
      2: { intros h w Hh. apply Exa, (Permutation_in _ Ph Hh). }
      assert (Vd : valid hs2 (conditions s) (map FAnd ess) dv <-> valid hs cs fs dv).
      { rewrite (listed_valid s hs cs fs dv B R U). split; intros [V1 V2 V4]; (constructor; [exact V1|exact V2|]); intros f Hf Q.
        - destruct (proj2 (Vf dv)) as (g & Hg & Vg); [exists f; split; [apply (Permutation_in _ Pf Hf)|exact Q]|]. apply (V4 g Hg Vg).
        - destruct (proj1 (Vf dv)) as (g & Hg & Vg); [eauto|]. apply (V4 g (Permutation_in _ (Permutation_sym Pf) Hg) Vg). }
      rewrite Vd.
      assert (Q : forall k, In k (map hp_name hs2) <-> In k (map hp_name hs)).
      { intros k. split; apply Permutation_in; [|apply Permutation_sym]; apply Permutation_map, Ph. }
      split; intros (G1 & G2 & G3); (split; [intros k Hk; destruct (G1 k Hk) as [G|G]; [left; exact G|right; apply Q, G]|split; [|exact G3]]).
      + intros h w Hh. apply G2, (Permutation_in _ (Permutation_sym Ph) Hh).
      + intros h w Hh. apply G2, (Permutation_in _ Ph Hh).
    - intros Vx. destruct (proj2 (Vf d0) Vx) as (f & Hf & V).
      destruct (add (c_space x1) [] [] (map FAnd ess)) as [s2 [[]|e]] eqn:A1.
      + exfalso. destruct (proj1 I1) as (_ & _ & _ & d & D & ND'); [eauto|]. apply plain_default in D. apply (ND' f Hf).
        apply (violated_ext d0); [|exact V]. intros n Hn. unfold forb_names in Hn. apply in_map_iff in Hn. destruct Hn as (h & <- & Hh).
        assert (Hh' := RF f Hf h Hh). rewrite (D2 h Hh'), (D h Hh'). reflexivity.
      + rewrite Rd. unfold add_or_raise at 1, c_add. rewrite A1. cbn [bind].
        destruct (C73_raises_partial (c_space x1) hs2 [] [] [] [] (map FAnd ess) s2 e B1 (Forall_nil _) (Forall_nil _) F3) as [[_ K]|[[_ K]|[[_ K]|[-> _]]]].
        { split; [intros c []|]. rewrite app_nil_r. exact RF. } { exact NE. } { exact plain_merge. } { exact plain_ne. } { exact CF. } { exact A1. }
        * exfalso. apply K. rewrite app_nil_r. exact ND.
        * exfalso. apply K. intros c c' n [].
        * exfalso. apply K. exact plain_cycle.
        * reflexivity.
  Qed.
End Pcs.

Section Witness.
  #[local] Existing Instance rat_env.
  #[local] Existing Instance rat_env_laws.

  (** a space with every portable kind of hyperparameter, a condition, a conjunction of conditions, and
      clauses one of which has two values *)
  Definition hQ := get_or dummy_hp (mk_uniform_int "q" 1 16 None true None).
  Lemma hQ_c : constructed hQ. Proof. apply (CtorUInt "q" 1 16 None true None hQ); vm_compute; reflexivity. Qed.
  Definition cQ1 := get_or dummy_cond (mk_bin OpGt hQ hB (VFloat (1#4))).
  Definition cQ2 := get_or dummy_cond (mk_in hQ hN [VInt 5; VInt 6]).
  Definition cQ := get_or dummy_cond (mk_and [cQ1; cQ2]).
  Lemma cQ_c : cond_built cQ.
  Proof.
    apply (CB_and [cQ1; cQ2] cQ); [|vm_compute; reflexivity]. intros c [<-|[<-|[]]].
    - apply (CB_bin OpGt hQ hB (VFloat (1#4)) cQ1 hQ_c hB_c); vm_compute; reflexivity.
    - apply (CB_in hQ hN [VInt 5; VInt 6] cQ2 hQ_c hN_c); vm_compute; reflexivity.
  Qed.
  Definition pcs_hps := [hB; hA; hN; hO; hK; hQ].
  Definition pcs_conds := [cB; cQ].
  Definition pcs_forbs := [fAnd1; fAnd3].
  Definition pcs_space := fst (c_add (new_space (Some "s") None) pcs_hps pcs_conds pcs_forbs).

  Lemma pcs_hps_c : Forall constructed pcs_hps.
  Proof. repeat (constructor; [first [apply hA_c|apply hK_c|apply hN_c|apply hO_c|apply hB_c|apply hQ_c]|]). constructor. Qed.
  Lemma pcs_conds_c : Forall cond_built pcs_conds.
  Proof. repeat (constructor; [first [apply cB_c|apply cQ_c]|]). constructor. Qed.
  Lemma pcs_forbs_c : Forall forb_built pcs_forbs.
  Proof. repeat (constructor; [first [apply fAnd1_c|apply fAnd3_c]|]). constructor. Qed.
  Lemma pcs_cbuilt : cbuilt pcs_space pcs_hps pcs_conds pcs_forbs.
  Proof.
    apply (cb_add (new_space (Some "s") None) [] [] [] pcs_space pcs_hps pcs_conds pcs_forbs (cb_new _ _) pcs_hps_c pcs_conds_c pcs_forbs_c).
    apply c_add_ok. vm_compute. reflexivity.
  Qed.
  Lemma pcs_tame : tame (c_space pcs_space) pcs_hps pcs_conds pcs_forbs.
  Proof.
    constructor.
    - apply cbuilt_built, pcs_cbuilt.
    - split.
      + intros c Hc l Hl. destruct Hc as [<-|[<-|[]]]; vm_compute in Hl; (repeat (destruct Hl as [<-|Hl]; [vm_compute; tauto|])); destruct Hl.
      + intros f Hf h Hh. destruct Hf as [<-|[<-|[]]]; vm_compute in Hh; (repeat (destruct Hh as [<-|Hh]; [vm_compute; tauto|])); destruct Hh.
    - intros c d v Hc Hd H. destruct Hc as [<-|[<-|[]]]; destruct Hd as [<-|[<-|[]]]; first [reflexivity | exfalso; revert H; vm_compute; discriminate].
    - intros c l w vv Hc Hl Ht. destruct Hc as [<-|[<-|[]]]; vm_compute in Hl;
        repeat (destruct Hl as [<-|Hl]; [exfalso; clear -Ht; vm_compute in Ht; discriminate Ht|]); destruct Hl.
    - intros f Hf r a b Hr. destruct Hf as [<-|[<-|[]]]; vm_compute in Hr; (repeat (destruct Hr as [Hr|Hr]; [discriminate Hr|])); destruct Hr.
  Qed.
  Lemma pcs_distinct : distinct_strings (c_space pcs_space).
  Proof. apply (strings_distinct _ _ _ _ (tm_built _ _ _ _ pcs_tame)). apply nodup_strings. vm_compute. reflexivity. Qed.

  Ltac rf := vm_compute; reflexivity.
  Ltac plain_word := split; [vm_compute; discriminate|rf].
  Ltac word := eexists; split; [rf|plain_word].
  Ltac number := split; rf.
  Ltac real := split; [rf|eexists; split; [rf|rf]].
  Ltac shown l := let l' := eval vm_compute in l in replace l with l' by (vm_compute; reflexivity).
  Lemma hB_portable : portable_hp dec_text hB.
  Proof.
    shown hB. split; [plain_word|]. split; [rf|]. cbn [hp_kind hp_default]. split; [rf|]. split; [real|]. split; [real|].
    intros q Hq. injection Hq as <-. real.
  Qed.
  Lemma int_portable n lo hi lg d : plain n -> int_text dec_text lo -> int_text dec_text hi -> int_text dec_text d ->
    portable_hp dec_text (mk_hp n (KInt lo hi lg DUniform) (VInt d) None).
  Proof.
    intros Pn Tl Th Td. split; [exact Pn|]. split; [reflexivity|]. cbn [hp_kind hp_default]. split; [reflexivity|]. split; [exact Tl|]. split; [exact Th|].
    intros z Hz. injection Hz as <-. exact Td.
  Qed.
  Lemma hA_portable : portable_hp dec_text hA.
  Proof. shown hA. split; [plain_word|]. split; [rf|]. cbn [hp_kind]. split; [rf|]. intros v [<-|[<-|[<-|[]]]]; word. Qed.
  Lemma hO_portable : portable_hp dec_text hO.
  Proof.
    shown hO. split; [plain_word|]. split; [rf|]. cbn [hp_kind hp_name]. split; [intros v [<-|[<-|[<-|[]]]]; word|]. split; [rf|]. intros v [<-|[<-|[<-|[]]]]; rf.
  Qed.
  Lemma pcs_portable_hps : forall h, In h pcs_hps -> portable_hp dec_text h.
  Proof.
    intros h [<-|[<-|[<-|[<-|[<-|[<-|[]]]]]]].
    - exact hB_portable.
    - exact hA_portable.
    - shown hN. apply int_portable; [plain_word|number|number|number].
    - exact hO_portable.
    - shown hK. apply int_portable; [plain_word|number|number|number].
    - shown hQ. apply int_portable; [plain_word|number|number|number].
  Qed.
  Lemma word_lit h p o v i : is_infix "&&" (hp_name p) = false -> (match hp_kind p with KCat _ _ | KOrd _ | KConst _ => True | _ => False end) ->
    plain v -> is_infix "&&" v = false -> portable_cond dec_text (CLit (mk_lit h p (TBin o (VStr v) i))).
  Proof.
    intros H1 H2 H3 H4. split; [exact H1|]. cbn [l_test l_parent]. split; [|exact H4]. unfold portable_value. destruct (hp_kind p); try destruct H2; exists v; auto.
  Qed.
  Lemma pcs_portable_conds : forall c, In c pcs_conds -> portable_cond dec_text c.
  Proof.
    intros c [<-|[<-|[]]].
    - shown cB. apply word_lit; [rf|exact I|plain_word|rf].
    - shown cQ. intros c' [<-|[<-|[]]]; (eexists; split; [reflexivity|]); (split; [rf|]); cbn [l_test l_parent].
      + split; [|rf]. eexists. split; [reflexivity|]. split; rf.
      + split; [simpl; lia|]. intros v [<-|[<-|[]]]; (split; [|rf]); (eexists; split; [reflexivity|]); number.
  Qed.
  Lemma pcs_portable_forbs : forall f, In f pcs_forbs -> portable_forb dec_text f.
  Proof.
    intros f [<-|[<-|[]]].
    - shown fAnd1. split; [discriminate|]. intros g [<-|[<-|[]]]; (split; [eexists; split; [reflexivity|]|]); first [plain_word|number|left; rf|right; split; [plain_word|rf]].
    - shown fAnd3. split; [discriminate|]. intros g [<-|[<-|[]]]; [intros v [<-|[<-|[]]]|]; (split; [eexists; split; [reflexivity|]; number|left; rf]).
  Qed.
  Definition pcs_defaults : assignment := fun n => option_map hp_default (find (fun h => String.eqb (hp_name h) n) pcs_hps).
  Lemma pcs_all_defaults : all_defaults pcs_hps pcs_defaults.
  Proof. intros h [<-|[<-|[<-|[<-|[<-|[<-|[]]]]]]]; rf. Qed.

  Definition pcs_text : string := get_or "" (new_write dec_text pcs_space).
  Example C83_case : cbuilt pcs_space pcs_hps pcs_conds pcs_forbs /\ tame (c_space pcs_space) pcs_hps pcs_conds pcs_forbs /\
    distinct_strings (c_space pcs_space) /\ (forall h, In h pcs_hps -> portable_hp dec_text h) /\ (forall c, In c pcs_conds -> portable_cond dec_text c) /\
    (forall f, In f pcs_forbs -> portable_forb dec_text f) /\ all_defaults pcs_hps pcs_defaults /\ (forall f, In f pcs_forbs -> ~ violated pcs_defaults f) /\
    new_write dec_text pcs_space = Ok pcs_text /\
    lines_of pcs_text = ["a categorical {x, y, z} [x]"; "k integer [1, 10] [4]"; "n integer [1, 10] [5]"; "o ordinal {lo, mid, hi} [mid]";
                         "b real [0.0, 1.0] [0.5]"; "q integer [1, 16] [8]log"; "";
                         "b | a == x"; "q | b > 0.25 && n in {5, 6}"; "";
                         "{a=y, n=1}"; "{n=2, k=9}"; "{n=3, k=9}"; ""] /\
    exists y, new_read dec_text (lines_of pcs_text) = Ok y /\ items (c_space y) = items (c_space pcs_space) /\ length (forbidden_clauses (c_space y)) = 3.
  Proof.
    split; [exact pcs_cbuilt|]. split; [exact pcs_tame|]. split; [exact pcs_distinct|]. split; [exact pcs_portable_hps|]. split; [exact pcs_portable_conds|].
    split; [exact pcs_portable_forbs|]. split; [exact pcs_all_defaults|]. split.
    { intros f [<-|[<-|[]]] V; vm_compute in V.
      - destruct V as ((w & Hw & Q) & _). injection Hw as <-. discriminate Q.
      - destruct V as ((w & v & Hw & Hv & Q) & _). injection Hw as <-. destruct Hv as [<-|[<-|[]]]; discriminate Q. }
    split; [vm_compute; reflexivity|]. split; [vm_compute; reflexivity|].
    exists (get_or pcs_space (new_read dec_text (lines_of pcs_text))). vm_compute. repeat split.
  Qed.

  (** *** What does not come back *)
  Definition one_hp (h : hp) : cspace := fst (c_add (new_space None None) [h] [] []).
  Lemma one_cbuilt h : constructed h -> snd (c_add (new_space None None) [h] [] []) = Ok tt -> cbuilt (one_hp h) [h] [] [].
  Proof.
    intros C H. apply (cb_add (new_space None None) [] [] [] (one_hp h) [h] [] [] (cb_new _ _) (Forall_cons _ C (Forall_nil _)) (Forall_nil _) (Forall_nil _)).
    apply c_add_ok, H.
  Qed.
  Definition back (x : cspace) : res cspace := t <- new_write dec_text x ;; new_read dec_text (lines_of t).

  (** a constant comes back as a categorical hyperparameter *)
  Theorem C83_constant_refuted : exists x h y h', cbuilt x [h] [] [] /\ back x = Ok y /\ Space.hps (c_space y) = [h'] /\
    hp_kind h = KConst (VStr "on") /\ hp_kind h' = KCat [VStr "on"] None.
  Proof.
    exists (one_hp hE), hE. eexists. eexists. split; [apply (one_cbuilt hE hE_c); vm_compute; reflexivity|]. vm_compute. repeat split.
  Qed.
  (** choices that are numbers come back as strings *)
  Definition hInts := get_or dummy_hp (mk_categorical "i" [VInt 1; VInt 2] None None None).
  Theorem C83_strings_refuted : exists x h y h', cbuilt x [h] [] [] /\ back x = Ok y /\ Space.hps (c_space y) = [h'] /\
    hp_kind h = KCat [VInt 1; VInt 2] None /\ hp_kind h' = KCat [VStr "1"; VStr "2"] None.
  Proof.
    exists (one_hp hInts), hInts. eexists. eexists. split.
    - apply (one_cbuilt hInts); [apply (CtorCat "i" [VInt 1; VInt 2] None None None hInts)|]; vm_compute; reflexivity.
    - vm_compute. repeat split.
  Qed.
  (** a normal prior comes back as a uniform one *)
  Definition hNormal := get_or dummy_hp (mk_normal_int "m" 5 2 1 9 (Some 5%Q) false None).
  Theorem C83_prior_refuted : exists x h y h', cbuilt x [h] [] [] /\ back x = Ok y /\ Space.hps (c_space y) = [h'] /\
    (exists mu sigma, hp_kind h = KInt 1 9 false (DNormal mu sigma)) /\ hp_kind h' = KInt 1 9 false DUniform.
  Proof.
    exists (one_hp hNormal), hNormal. eexists. eexists. split.
    - apply (one_cbuilt hNormal); [apply (CtorNInt "m" 5 2 1 9 (Some 5%Q) false None hNormal)|]; vm_compute; reflexivity.
    - vm_compute. do 2 (split; [reflexivity|]). split; [eexists; eexists; reflexivity|reflexivity].
  Qed.
  (** the meta data are lost *)
  Theorem C83_meta_refuted : exists x h y h', cbuilt x [h] [] [] /\ back x = Ok y /\ Space.hps (c_space y) = [h'] /\ hp_meta h = Some "m" /\ hp_meta h' = None.
  Proof.
    exists (one_hp hC), hC. eexists. eexists. split; [apply (one_cbuilt hC hC_c); vm_compute; reflexivity|]. vm_compute. repeat split.
  Qed.
  (** an ordinal hyperparameter whose name contains "categorical" comes back as a categorical one *)
  Definition hCatOrd := get_or dummy_hp (mk_ordinal "categoricals" (xs ["lo"; "hi"]) None None).
  Theorem C83_ordinal_refuted : exists x h y h', cbuilt x [h] [] [] /\ back x = Ok y /\ Space.hps (c_space y) = [h'] /\
    hp_kind h = KOrd (xs ["lo"; "hi"]) /\ hp_kind h' = KCat (xs ["lo"; "hi"]) None.
  Proof.
    exists (one_hp hCatOrd), hCatOrd. eexists. eexists. split.
    - apply (one_cbuilt hCatOrd); [apply (CtorOrd "categoricals" (xs ["lo"; "hi"]) None None hCatOrd)|]; vm_compute; reflexivity.
    - vm_compute. repeat split.
  Qed.
  (** a name with a blank is written, but the text cannot be read: the writer only asks for a name at the
      start of the name *)
  Definition hBlank := get_or dummy_hp (mk_uniform_int "a b" 1 9 None false None).
  Theorem C83_name_refuted : exists x h t, cbuilt x [h] [] [] /\ hp_name h = "a b" /\ new_write dec_text x = Ok t /\
    new_read dec_text (lines_of t) = Err NotImplementedError.
  Proof.
    exists (one_hp hBlank), hBlank, (get_or "" (new_write dec_text (one_hp hBlank))). split.
    - apply (one_cbuilt hBlank); [apply (CtorUInt "a b" 1 9 None false None hBlank)|]; vm_compute; reflexivity.
    - vm_compute. repeat split.
  Qed.
  (** a clause on a word that starts with a digit is written, but the text cannot be read *)
  Definition hDigit := get_or dummy_hp (mk_categorical "v" (xs ["1abc"; "z"]) (Some (VStr "z")) None None).
  Definition fDigit := get_or dummy_forb (mk_feq hDigit (VStr "1abc")).
  Lemma hDigit_c : constructed hDigit.
  Proof. apply (CtorCat "v" (xs ["1abc"; "z"]) (Some (VStr "z")) None None hDigit); vm_compute; reflexivity. Qed.
  Definition digit_space := fst (c_add (new_space None None) [hDigit] [] [fDigit]).
  Theorem C83_digit_refuted : exists x h f t, cbuilt x [h] [] [f] /\ portable_hp dec_text h /\ new_write dec_text x = Ok t /\
    new_read dec_text (lines_of t) = Err ParseException.
  Proof.
    exists digit_space, hDigit, fDigit, (get_or "" (new_write dec_text digit_space)). split.
    - apply (cb_add (new_space None None) [] [] [] digit_space [hDigit] [] [fDigit] (cb_new _ _)).
      + constructor; [apply hDigit_c|constructor].
      + constructor.
      + constructor; [|constructor]. apply (FB_eq hDigit (VStr "1abc") fDigit hDigit_c). vm_compute. reflexivity.
      + apply c_add_ok. vm_compute. reflexivity.
    - split; [|vm_compute; repeat split].
      shown hDigit. split; [plain_word|]. split; [rf|]. cbn [hp_kind]. split; [rf|]. intros v [<-|[<-|[]]]; word.
  Qed.
  (** an in-condition with one value comes back as an equality, which is no equal condition *)
  Definition cIn := get_or dummy_cond (mk_in hB hA [VStr "x"]).
  Lemma cIn_c : cond_built cIn. Proof. apply (CB_in hB hA [VStr "x"] cIn hB_c hA_c). vm_compute. reflexivity. Qed.
  Definition in_space := fst (c_add (new_space None None) [hA; hB] [cIn] []).
  Theorem C83_in_refuted : exists x c y c', cbuilt x [hA; hB] [c] [] /\ conditions (c_space x) = [c] /\ back x = Ok y /\ conditions (c_space y) = [c'] /\
    (exists l vs vvs, c = CLit l /\ l_test l = TIn vs vvs) /\ (exists l v vv, c' = CLit l /\ l_test l = TBin OpEq v vv) /\ cond_eqb c c' = false.
  Proof.
    exists in_space, cIn. eexists. eexists. split.
    - apply (cb_add (new_space None None) [] [] [] in_space [hA; hB] [cIn] [] (cb_new _ _)).
      + repeat (constructor; [first [apply hA_c|apply hB_c]|]). constructor.
      + constructor; [apply cIn_c|constructor].
      + constructor.
      + apply c_add_ok. vm_compute. reflexivity.
    - vm_compute. do 3 (split; [reflexivity|]). split; [do 3 eexists; split; reflexivity|]. split; [do 3 eexists; split; reflexivity|reflexivity].
  Qed.
  (** a parent whose name contains "&&": the condition is cut inside the name *)
  Definition hAmp := get_or dummy_hp (mk_categorical "R&&D" (xs ["x"; "y"]) None None None).
  Lemma hAmp_c : constructed hAmp. Proof. apply (CtorCat "R&&D" (xs ["x"; "y"]) None None None hAmp). vm_compute. reflexivity. Qed.
  Definition cAmp := get_or dummy_cond (mk_bin OpEq hB hAmp (VStr "x")).
  Lemma cAmp_c : cond_built cAmp. Proof. apply (CB_bin OpEq hB hAmp (VStr "x") cAmp hB_c hAmp_c). vm_compute. reflexivity. Qed.
  Definition amp_space := fst (c_add (new_space None None) [hAmp; hB] [cAmp] []).
  Theorem C83_amp_refuted : exists x c t, cbuilt x [hAmp; hB] [c] [] /\ (forall h, In h [hAmp; hB] -> portable_hp dec_text h) /\ new_write dec_text x = Ok t /\
    new_read dec_text (lines_of t) = Err KeyError.
  Proof.
    exists amp_space, cAmp, (get_or "" (new_write dec_text amp_space)). split.
    - apply (cb_add (new_space None None) [] [] [] amp_space [hAmp; hB] [cAmp] [] (cb_new _ _)).
      + repeat (constructor; [first [apply hAmp_c|apply hB_c]|]). constructor.
      + constructor; [apply cAmp_c|constructor].
      + constructor.
      + apply c_add_ok. vm_compute. reflexivity.
    - split; [|vm_compute; repeat split]. intros h [<-|[<-|[]]]; [|apply pcs_portable_hps; vm_compute; tauto].
      shown hAmp. split; [plain_word|]. split; [rf|]. cbn [hp_kind]. split; [rf|]. intros v [<-|[<-|[]]]; word.
  Qed.
  (** a clause that the default keeps only because a hyperparameter is inactive: the text cannot be read *)
  Definition cBz := get_or dummy_cond (mk_bin OpEq hB hA (VStr "z")).
  Lemma cBz_c : cond_built cBz. Proof. apply (CB_bin OpEq hB hA (VStr "z") cBz hB_c hA_c). vm_compute. reflexivity. Qed.
  Definition fHalf := get_or dummy_forb (mk_feq hB (VFloat (1#2))).
  Lemma fHalf_c : forb_built fHalf. Proof. apply (FB_eq hB (VFloat (1#2)) fHalf hB_c). vm_compute. reflexivity. Qed.
  Definition half_space := fst (c_add (new_space None None) [hA; hB] [cBz] [fHalf]).
  Theorem C83_inactive_refuted : exists x c f t, cbuilt x [hA; hB] [c] [f] /\ (forall h, In h [hA; hB] -> portable_hp dec_text h) /\
    portable_cond dec_text c /\ portable_forb dec_text f /\ new_write dec_text x = Ok t /\ new_read dec_text (lines_of t) = Err ForbiddenValueError.
  Proof.
    exists half_space, cBz, fHalf, (get_or "" (new_write dec_text half_space)). split.
    - apply (cb_add (new_space None None) [] [] [] half_space [hA; hB] [cBz] [fHalf] (cb_new _ _)).
      + repeat (constructor; [first [apply hA_c|apply hB_c]|]). constructor.
      + constructor; [apply cBz_c|constructor].
      + constructor; [apply fHalf_c|constructor].
      + apply c_add_ok. vm_compute. reflexivity.
    - split; [intros h [<-|[<-|[]]]; apply pcs_portable_hps; vm_compute; tauto|].
      split; [shown cBz; apply word_lit; [rf|exact I|plain_word|rf]|].
      split; [|vm_compute; repeat split]. shown fHalf. split; [discriminate|]. intros g [<-|[]]. split; [|left; rf].
      eexists. split; [reflexivity|]. split; rf.
  Qed.
End Witness.
