(** * Lemmas on the strings and grammars of the PCS formats *)
From Coq Require Import String Ascii List ZArith QArith Bool Lia.
From Verif Require Import Base ListFacts Numeric HP Cond Forb Dag Space Serial Fix Pcs.
Import ListNotations.
Open Scope string_scope.
Open Scope list_scope.
Open Scope nat_scope.

(** ** Strings *)
Lemma app_assoc_s (a b c : string) : ((a ++ b) ++ c = a ++ (b ++ c))%string.
Proof. induction a as [|x a IH]; simpl; [reflexivity|rewrite IH; reflexivity]. Qed.
Lemma app_nil_s (a : string) : (a ++ "" = a)%string.
Proof. induction a as [|x a IH]; simpl; [reflexivity|rewrite IH; reflexivity]. Qed.
Lemma length_app_s (a b : string) : String.length (a ++ b)%string = String.length a + String.length b.
Proof. induction a as [|x a IH]; simpl; [reflexivity|rewrite IH; reflexivity]. Qed.

Lemma all_chars_app p a b : all_chars p (a ++ b)%string = (all_chars p a && all_chars p b)%bool.
Proof. induction a as [|x a IH]; simpl; [reflexivity|rewrite IH, andb_assoc; reflexivity]. Qed.
Lemma all_chars_impl p q s : (forall c, p c = true -> q c = true) -> all_chars p s = true -> all_chars q s = true.
Proof.
  intros H. induction s as [|c s IH]; simpl; [reflexivity|]. rewrite !andb_true_iff. intros [H1 H2]. split; auto.
Qed.
Lemma all_chars_concat p sep ls : all_chars p sep = true -> (forall l, In l ls -> all_chars p l = true) ->
  all_chars p (String.concat sep ls) = true.
Proof.
  intros Hs. induction ls as [|l ls IH]; intros H; [reflexivity|]. destruct ls as [|m ls]; [apply H; left; reflexivity|].
  change (String.concat sep (l :: m :: ls)) with (l ++ (sep ++ String.concat sep (m :: ls)))%string.
  rewrite !all_chars_app, Hs, (H l (or_introl eq_refl)). simpl andb. apply IH. intros k Hk. apply H. right. exact Hk.
Qed.
Lemma has_char_false c s : has_char c s = false <-> all_chars (fun d => negb (Ascii.eqb c d)) s = true.
Proof. unfold has_char. rewrite negb_false_iff. reflexivity. Qed.
Lemma has_char_app c a b : has_char c (a ++ b)%string = (has_char c a || has_char c b)%bool.
Proof. unfold has_char. rewrite all_chars_app, negb_andb. reflexivity. Qed.

(** [s] does not start with a character satisfying [p] *)
Definition stops (p : ascii -> bool) (s : string) : bool := match s with EmptyString => true | String c _ => negb (p c) end.

Lemma drop_while_stops p s : stops p s = true -> drop_while p s = s.
Proof. destruct s as [|c s]; simpl; [reflexivity|]. destruct (p c); [discriminate|reflexivity]. Qed.
Lemma span_app p w r : all_chars p w = true -> stops p r = true -> span p (w ++ r)%string = (w, r).
Proof.
  induction w as [|c w IH]; simpl; intros H Hr.
  - destruct r as [|c r]; [reflexivity|]. simpl in *. destruct (p c); [discriminate|reflexivity].
  - apply andb_true_iff in H. destruct H as [-> H]. rewrite (IH H Hr). reflexivity.
Qed.
Lemma span_spec p s a r : span p s = (a, r) -> s = (a ++ r)%string /\ all_chars p a = true.
Proof.
  revert a r. induction s as [|c s IH]; simpl; intros a r H; [injection H as <- <-; auto|].
  destruct (p c) eqn:Pc; [|injection H as <- <-; auto].
  destruct (span p s) as [a' r'] eqn:Es. injection H as <- <-. destruct (IH a' r' eq_refl) as [-> H]. simpl. rewrite Pc, H. auto.
Qed.
Lemma span_grow p s c r : p c = false -> span p (s ++ String c r)%string = (fst (span p s), (snd (span p s) ++ String c r)%string).
Proof.
  intros H. induction s as [|d s IH]; simpl; [rewrite H; reflexivity|]. destruct (p d); [|reflexivity].
  rewrite IH. destruct (span p s). reflexivity.
Qed.

Lemma strip_prefix_app t r : strip_prefix t (t ++ r)%string = Some r.
Proof. induction t as [|c t IH]; simpl; [reflexivity|]. rewrite Ascii.eqb_refl. exact IH. Qed.
Lemma strip_prefix_spec t s r : strip_prefix t s = Some r -> s = (t ++ r)%string.
Proof.
  revert s. induction t as [|c t IH]; simpl; intros s H; [injection H as ->; reflexivity|].
  destruct s as [|d s]; [discriminate|]. destruct (Ascii.eqb c d) eqn:Ec; [|discriminate].
  apply Ascii.eqb_eq in Ec. subst d. rewrite (IH s H). reflexivity.
Qed.
Lemma starts_with_app t r : starts_with t (t ++ r)%string = true.
Proof. unfold starts_with. rewrite strip_prefix_app. reflexivity. Qed.

(** a prefix [t] without the character [c] of [a ++ c ++ b] is a prefix of [a] *)
Lemma starts_with_sep t a c b : has_char c t = false -> starts_with t (a ++ String c b)%string = starts_with t a.
Proof.
  revert a. unfold starts_with. induction t as [|d t IH]; intros a H; [reflexivity|].
  unfold has_char in H. simpl in H. rewrite negb_andb, negb_involutive in H. apply orb_false_iff in H. destruct H as [H1 H2].
  destruct a as [|e a]; simpl.
  - destruct (Ascii.eqb d c) eqn:Ed; [|reflexivity]. apply Ascii.eqb_eq in Ed. subst d. rewrite Ascii.eqb_refl in H1. discriminate.
  - destruct (Ascii.eqb d e); [|reflexivity]. apply IH. exact H2.
Qed.
Lemma infix_sep t a c b : t <> "" -> has_char c t = false -> is_infix t (a ++ String c b)%string = (is_infix t a || is_infix t b)%bool.
Proof.
  intros Ht Hc. induction a as [|d a IH].
  - assert (H := starts_with_sep t "" c b Hc). simpl in H.
    change (("" ++ String c b)%string) with (String c b). simpl is_infix at 1. rewrite H. destruct t; [congruence|]. reflexivity.
  - change ((String d a ++ String c b)%string) with (String d (a ++ String c b)). simpl is_infix. rewrite IH.
    assert (H := starts_with_sep t (String d a) c b Hc). simpl in H. rewrite H, orb_assoc. reflexivity.
Qed.
Lemma infix_here t b : is_infix t (t ++ b)%string = true.
Proof. destruct t; simpl; [destruct b; reflexivity|]. assert (H := starts_with_app (String a t) b). simpl in H. rewrite H. reflexivity. Qed.
Lemma infix_app t a b : is_infix t b = true -> is_infix t (a ++ b)%string = true.
Proof. intros H. induction a as [|c a IH]; [exact H|]. simpl. rewrite IH. apply orb_true_r. Qed.
Lemma infix_concat t sep c ls : t <> "" -> has_char c t = false -> sep = String c "" ->
  is_infix t (String.concat sep ls) = existsb (is_infix t) ls.
Proof.
  intros Ht Hc ->. induction ls as [|l ls IH]; [destruct t; [congruence|reflexivity]|]. destruct ls as [|m ls].
  - simpl. rewrite orb_false_r. reflexivity.
  - change (String.concat (String c "") (l :: m :: ls)) with (l ++ String c (String.concat (String c "") (m :: ls)))%string.
    rewrite infix_sep by assumption. rewrite IH. reflexivity.
Qed.

(** *** split *)
(** no separator in [a], which is followed by a character that is not in the separator *)
Lemma split_from_skip t cur a c b : t <> "" -> has_char c t = false -> is_infix t a = false ->
  split_from t 0 cur (a ++ String c b)%string = split_from t 0 (cur ++ a ++ String c "")%string b.
Proof.
  intros Ht Hc. revert cur. induction a as [|d a IH]; intros cur H.
  - simpl. assert (G := starts_with_sep t "" c b Hc). simpl in G. rewrite G. destruct t; [congruence|]. reflexivity.
  - simpl in H. apply orb_false_iff in H. destruct H as [H1 H2].
    change ((String d a ++ String c b)%string) with (String d (a ++ String c b)). simpl split_from.
    assert (G := starts_with_sep t (String d a) c b Hc). simpl in G. rewrite G, H1, (IH _ H2), !app_assoc_s. reflexivity.
Qed.
Lemma split_from_last t cur a : t <> "" -> is_infix t a = false -> split_from t 0 cur a = [(cur ++ a)%string].
Proof.
  intros Ht. revert cur. induction a as [|d a IH]; intros cur H; [simpl; rewrite app_nil_s; reflexivity|].
  simpl in H. apply orb_false_iff in H. destruct H as [H1 H2]. simpl. rewrite H1, (IH _ H2), app_assoc_s. reflexivity.
Qed.
Lemma split_from_jump t cur s b : split_from t (String.length s) cur (s ++ b)%string = split_from t 0 cur b.
Proof. induction s as [|d s IH]; [reflexivity|]. simpl. exact IH. Qed.
Lemma split_from_sep t cur b : t <> "" -> split_from t 0 cur (t ++ b)%string = cur :: split_from t 0 "" b.
Proof.
  intros Ht. destruct t as [|c t]; [congruence|].
  change ((String c t ++ b)%string) with (String c (t ++ b)). simpl split_from.
  assert (G := starts_with_app (String c t) b). simpl in G. rewrite G, Nat.sub_0_r. f_equal. apply split_from_jump.
Qed.

(** *** words *)
Definition no_space (s : string) : bool := all_chars (fun c => negb (is_space c)) s.
Lemma words_from_app cur w s : no_space w = true -> words_from cur (w ++ s)%string = words_from (cur ++ w)%string s.
Proof.
  revert cur. induction w as [|c w IH]; intros cur H; [simpl; rewrite app_nil_s; reflexivity|].
  unfold no_space in H. simpl in H. apply andb_true_iff in H. destruct H as [H1 H2]. apply negb_true_iff in H1.
  change ((String c w ++ s)%string) with (String c (w ++ s)). simpl. rewrite H1, (IH _ H2), app_assoc_s. reflexivity.
Qed.
Lemma words_blank s : words (String " " s) = words s.
Proof. reflexivity. Qed.
Lemma app_not_empty (a b : string) : a <> "" -> (a ++ b)%string <> "".
Proof. destruct a; simpl; congruence. Qed.
Lemma words_cons w s : w <> "" -> no_space w = true -> words (w ++ String " " s)%string = w :: words s.
Proof.
  intros Hw H. unfold words. rewrite words_from_app by exact H. simpl.
  destruct (String.eqb w "") eqn:Ew; [apply String.eqb_eq in Ew; contradiction|reflexivity].
Qed.
Lemma words_last w : w <> "" -> no_space w = true -> words w = [w].
Proof.
  intros Hw H. unfold words. rewrite <- (app_nil_s w) at 1. rewrite words_from_app by exact H. simpl.
  destruct (String.eqb w "") eqn:Ew; [apply String.eqb_eq in Ew; contradiction|reflexivity].
Qed.
Lemma words_concat ws : (forall w, In w ws -> w <> "" /\ no_space w = true) -> words (String.concat " " ws) = ws.
Proof.
  induction ws as [|w ws IH]; intros H; [reflexivity|]. destruct (H w (or_introl eq_refl)) as [H1 H2]. destruct ws as [|v ws].
  - apply words_last; assumption.
  - change (String.concat " " (w :: v :: ws)) with (w ++ String " " (String.concat " " (v :: ws)))%string.
    rewrite words_cons by assumption. rewrite IH; [reflexivity|]. intros u Hu. apply H. right. exact Hu.
Qed.
Lemma words_from_trail s : forall cur, words_from cur (s ++ " ")%string = words_from cur s.
Proof.
  induction s as [|c s IH]; intros cur; simpl.
  - destruct (String.eqb cur ""); reflexivity.
  - destruct (is_space c); [|apply IH]. destruct (String.eqb cur ""); rewrite IH; reflexivity.
Qed.
Lemma words_trail s : words (s ++ " ")%string = words s.
Proof. apply words_from_trail. Qed.

(** *** strip *)
Lemma rdrop_last p s c : p c = false -> rdrop_while p (s ++ String c "")%string = (s ++ String c "")%string.
Proof.
  intros H. induction s as [|d s IH]; simpl; [rewrite H; reflexivity|]. rewrite IH. destruct s; reflexivity.
Qed.
Lemma strip_id s c d r : (s ++ String c "" = String d r)%string -> is_space c = false -> is_space d = false -> strip (s ++ String c "")%string = (s ++ String c "")%string.
Proof.
  intros Es Hc Hd. unfold strip. rewrite drop_while_stops by (rewrite Es; simpl; rewrite Hd; reflexivity). apply rdrop_last, Hc.
Qed.

(** ** Parsers *)
Lemma word_blank p s : word p (String " " s) = word p s.
Proof. reflexivity. Qed.
Lemma literal_blank t s : literal t (String " " s) = literal t s.
Proof. reflexivity. Qed.
Lemma name_blank s : p_name (" " ++ s)%string = p_name s.
Proof. reflexivity. Qed.
Lemma number_blank s : number (String " " s) = number s.
Proof. reflexivity. Qed.

Definition plain (w : string) : Prop := w <> "" /\ all_chars name_char w = true.

Lemma name_char_not c : name_char c = true -> forall d, name_char d = false -> Ascii.eqb c d = false /\ Ascii.eqb d c = false.
Proof.
  intros H d Hd. split; [destruct (Ascii.eqb c d) eqn:G|destruct (Ascii.eqb d c) eqn:G]; try reflexivity;
    apply Ascii.eqb_eq in G; subst; congruence.
Qed.
Lemma name_char_blank c : name_char c = true -> is_white c = false /\ is_space c = false.
Proof.
  intros H. destruct c as [[] [] [] [] [] [] [] []]; first [discriminate H|split; reflexivity].
Qed.
Lemma plain_skip w r : plain w -> skip_white (w ++ r)%string = (w ++ r)%string.
Proof.
  intros [Hw H]. destruct w as [|c w]; [congruence|]. simpl in H. apply andb_true_iff in H. destruct H as [H _].
  apply drop_while_stops. simpl. rewrite (proj1 (name_char_blank c H)). reflexivity.
Qed.
Lemma plain_no_space w : plain w -> no_space w = true.
Proof. intros [_ H]. eapply all_chars_impl; [|exact H]. intros c Hc. rewrite (proj2 (name_char_blank c Hc)). reflexivity. Qed.
Lemma plain_without w c : plain w -> name_char c = false -> has_char c w = false.
Proof.
  intros [_ H] Hc. apply has_char_false. eapply all_chars_impl; [|exact H]. intros d Hd.
  rewrite (proj2 (name_char_not d Hd c Hc)). reflexivity.
Qed.

Lemma name_ok w r : plain w -> stops name_char r = true -> p_name (w ++ r)%string = Some ([w], r).
Proof.
  intros P Hr. unfold p_name, word. rewrite (plain_skip w r P), (span_app name_char w r (proj2 P) Hr).
  destruct P as [Hw _]. destruct w; [congruence|reflexivity].
Qed.
(** a literal that does not start like a word *)
Lemma literal_not_word c t w r : plain w -> name_char c = false -> literal (String c t) (w ++ r)%string = None.
Proof.
  intros P Hc. unfold literal. rewrite (plain_skip w r P). destruct P as [Hw H]. destruct w as [|d w]; [congruence|].
  simpl in *. apply andb_true_iff in H. destruct H as [H _]. rewrite (proj2 (name_char_not d H c Hc)). reflexivity.
Qed.

(** *** lists of values *)
Fixpoint commas (ws : list string) : list string :=
  match ws with [] => [] | w :: ws' => "," :: w :: commas ws' end.
(** the tokens of a list of words *)
Definition listed_tokens (ws : list string) : list string := match ws with [] => [] | w :: ws' => w :: commas ws' end.

Definition comma_fails (r : string) : bool := match literal "," r with None => true | Some _ => false end.

Lemma many_S f p s : many_ (S f) p s = match p s with Some (a, r) => let (b, r') := many_ f p r in (a ++ b, r') | None => ([], s) end.
Proof. reflexivity. Qed.
Lemma comma_word w r : plain w -> stops name_char r = true -> (literal "," >> p_name) (", " ++ (w ++ r))%string = Some (["," ; w], r).
Proof.
  intros P Hr. unfold andThen. change (literal "," (", " ++ (w ++ r))%string) with (Some ([","], " " ++ (w ++ r))%string).
  cbv iota beta. rewrite name_blank, (name_ok w r P Hr). reflexivity.
Qed.
Lemma many_values ws r fuel : (forall w, In w ws -> plain w) -> stops name_char r = true -> comma_fails r = true ->
  length ws <= fuel ->
  many_ fuel (literal "," >> p_name) (String.concat "" (map (fun w => ", " ++ w) ws) ++ r)%string = (commas ws, r).
Proof.
  intros H Hr Hc. revert fuel. induction ws as [|w ws IH]; intros fuel Hf.
  - simpl. unfold comma_fails in Hc. destruct fuel; [reflexivity|]. simpl. unfold andThen at 1.
    destruct (literal "," r); [discriminate|reflexivity].
  - destruct fuel as [|fuel]; [simpl in Hf; lia|].
    assert (Hs : (String.concat "" (map (fun w => ", " ++ w) (w :: ws)) ++ r = ", " ++ (w ++ (String.concat "" (map (fun w => ", " ++ w) ws) ++ r)))%string).
    { simpl map. destruct ws as [|v ws]; simpl String.concat; [|simpl "++"%string]; rewrite ?app_assoc_s; reflexivity. }
    rewrite Hs, many_S, comma_word.
    + rewrite (IH (fun v Hv => H v (or_intror Hv)) fuel) by (simpl in Hf; lia). reflexivity.
    + apply H. left. reflexivity.
    + destruct ws as [|v ws]; [exact Hr|]. simpl. destruct ws; reflexivity.
Qed.
Lemma concat_commas w ws : String.concat ", " (w :: ws) = (w ++ String.concat "" (map (fun w => ", " ++ w) ws))%string.
Proof.
  revert w. induction ws as [|v ws IH]; intros w; [simpl; rewrite app_nil_s; reflexivity|].
  change (String.concat ", " (w :: v :: ws)) with (w ++ (", " ++ String.concat ", " (v :: ws)))%string. rewrite IH.
  simpl map. destruct ws as [|u ws]; simpl; rewrite ?app_nil_s; [reflexivity|]. rewrite ?app_assoc_s. reflexivity.
Qed.
Lemma length_commas ws : length ws <= String.length (String.concat "" (map (fun w => ", " ++ w)%string ws)).
Proof.
  induction ws as [|w ws IH]; [apply Nat.le_refl|].
  assert (Hs : (String.concat "" (map (fun w => ", " ++ w) (w :: ws)) = ", " ++ (w ++ (String.concat "" (map (fun w => ", " ++ w) ws))))%string).
  { simpl map. destruct ws; simpl; rewrite ?app_nil_s; reflexivity. }
  rewrite Hs, !length_app_s. cbn [length String.length]. lia.
Qed.
Lemma values_ok ws r : ws <> [] -> (forall w, In w ws -> plain w) -> stops name_char r = true -> comma_fails r = true ->
  p_values (String.concat ", " ws ++ r)%string = Some (listed_tokens ws, r).
Proof.
  intros Hw H Hr Hc. destruct ws as [|w ws]; [congruence|]. rewrite concat_commas, app_assoc_s. unfold p_values, andThen at 1.
  rewrite name_ok; [|apply H; left; reflexivity|].
  2: { destruct ws as [|v ws]; [exact Hr|]. simpl. destruct ws; reflexivity. }
  unfold many. rewrite many_values; [reflexivity|intros v Hv; apply H; right; exact Hv|exact Hr|exact Hc|].
  rewrite length_app_s. pose proof (length_commas ws). lia.
Qed.
Lemma values_blank s : p_values (String " " s) = p_values s.
Proof. unfold p_values, andThen, p_name. rewrite word_blank. reflexivity. Qed.

(** *** numbers *)
Definition num_char (c : ascii) : bool := (is_digit c || existsb (Ascii.eqb c) ["+"; "-"; "."; "e"; "E"]%char)%bool.
(** the text is one number of the grammar *)
Definition number_text (t : string) : Prop := scan_number t = Some (t, "").

Definition grown (s : string) (x : option (string * string)) : option (string * string) :=
  match x with Some (a, b) => Some (a, (b ++ s)%string) | None => None end.

Section Grow.
  Variables (c : ascii) (r : string).
  Hypothesis Nc : num_char c = false.
  Lemma nc_digit : is_digit c = false.
  Proof. unfold num_char in Nc. apply orb_false_iff in Nc. apply Nc. Qed.
  Lemma nc_sign : (Ascii.eqb c "+" || Ascii.eqb c "-")%bool = false.
  Proof.
    destruct (Ascii.eqb c "+") eqn:G; [apply Ascii.eqb_eq in G; subst c; discriminate|].
    destruct (Ascii.eqb c "-") eqn:G'; [apply Ascii.eqb_eq in G'; subst c; discriminate|]. reflexivity.
  Qed.
  Lemma nc_dot : Ascii.eqb "." c = false.
  Proof. destruct (Ascii.eqb "." c) eqn:G; [|reflexivity]. apply Ascii.eqb_eq in G. subst c. discriminate. Qed.
  Lemma nc_e : (Ascii.eqb c "e" || Ascii.eqb c "E")%bool = false.
  Proof.
    destruct (Ascii.eqb c "e") eqn:G; [apply Ascii.eqb_eq in G; subst c; discriminate|].
    destruct (Ascii.eqb c "E") eqn:G'; [apply Ascii.eqb_eq in G'; subst c; discriminate|]. reflexivity.
  Qed.
  Lemma sign_grow s : scan_sign (s ++ String c r)%string = (fst (scan_sign s), (snd (scan_sign s) ++ String c r)%string).
  Proof.
    destruct s as [|d s]; simpl; [rewrite nc_sign; reflexivity|]. destruct (_ || _)%bool; reflexivity.
  Qed.
  Lemma int_grow s : scan_int (s ++ String c r)%string = grown (String c r) (scan_int s).
  Proof.
    unfold scan_int. rewrite sign_grow. destruct (scan_sign s) as [g r0]. simpl. rewrite (span_grow _ _ _ _ nc_digit).
    destruct (span is_digit r0) as [d r1]. simpl. destruct d; reflexivity.
  Qed.
  Lemma float_grow s : scan_float (s ++ String c r)%string = grown (String c r) (scan_float s).
  Proof.
    unfold scan_float. rewrite sign_grow. destruct (scan_sign s) as [g r0]. cbn [fst snd]. rewrite int_grow.
    assert (K : forall i r1, match strip_prefix "." (r1 ++ String c r)%string with
                | Some r2 => match scan_int r2 with Some (f, r3) => Some ((g ++ i ++ "." ++ f)%string, r3) | None => None end
                | None => None end =
              grown (String c r) match strip_prefix "." r1 with
                | Some r2 => match scan_int r2 with Some (f, r3) => Some ((g ++ i ++ "." ++ f)%string, r3) | None => None end
                | None => None end).
    { intros i r1. destruct r1 as [|d r1].
      - cbn -[Ascii.eqb]. rewrite nc_dot. reflexivity.
      - cbn -[Ascii.eqb scan_int]. destruct (Ascii.eqb "." d); [|reflexivity]. rewrite int_grow. destruct (scan_int r1) as [[f r3]|]; reflexivity. }
    destruct (scan_int r0) as [[i r1]|]; cbn [grown]; apply K.
  Qed.
  Lemma e_grow s : scan_e (s ++ String c r)%string = grown (String c r) (scan_e s).
  Proof.
    unfold scan_e. rewrite float_grow, int_grow.
    assert (K : forall m r0, match (r0 ++ String c r)%string with
         | String c0 r1 => if (Ascii.eqb c0 "e" || Ascii.eqb c0 "E")%bool
             then match scan_int r1 with Some (e, r') => Some ((m ++ String c0 e)%string, r') | None => None end else None
         | EmptyString => None end =
       grown (String c r) match r0 with
         | String c0 r1 => if (Ascii.eqb c0 "e" || Ascii.eqb c0 "E")%bool
             then match scan_int r1 with Some (e, r') => Some ((m ++ String c0 e)%string, r') | None => None end else None
         | EmptyString => None end).
    { intros m r0. destruct r0 as [|d r0].
      - cbn -[Ascii.eqb scan_int]. rewrite nc_e. reflexivity.
      - cbn -[Ascii.eqb scan_int]. destruct (_ || _)%bool; [|reflexivity]. rewrite int_grow. destruct (scan_int r0) as [[f r3]|]; reflexivity. }
    destruct (scan_float s) as [[m r0]|]; cbn [grown]; [apply K|]. destruct (scan_int s) as [[m r0]|]; cbn [grown]; [apply K|reflexivity].
  Qed.
  Lemma number_grow s : scan_number (s ++ String c r)%string = grown (String c r) (scan_number s).
  Proof.
    unfold scan_number. rewrite e_grow, float_grow, int_grow.
    destruct (scan_e s) as [[? ?]|]; [reflexivity|]. destruct (scan_float s) as [[? ?]|]; reflexivity.
  Qed.
End Grow.

Lemma sign_chars s : all_chars num_char (fst (scan_sign s)) = true /\ s = (fst (scan_sign s) ++ snd (scan_sign s))%string.
Proof.
  destruct s as [|c s]; [auto|]. simpl. destruct (Ascii.eqb c "+" || Ascii.eqb c "-")%bool eqn:G; [|auto]. split; [|reflexivity].
  simpl. rewrite andb_true_r. apply orb_true_iff in G. destruct G as [G|G]; apply Ascii.eqb_eq in G; subst c; reflexivity.
Qed.
Lemma digit_num s : all_chars is_digit s = true -> all_chars num_char s = true.
Proof. apply all_chars_impl. intros c H. unfold num_char. rewrite H. reflexivity. Qed.
Lemma int_chars s a r : scan_int s = Some (a, r) -> s = (a ++ r)%string /\ all_chars num_char a = true /\ a <> "".
Proof.
  unfold scan_int. destruct (sign_chars s) as [G Es]. destruct (scan_sign s) as [g r0]. cbn [fst snd] in *. subst s.
  destruct (span is_digit r0) as [d r1] eqn:Ed. apply span_spec in Ed. destruct Ed as [-> Hd]. destruct d as [|c d]; [discriminate|].
  intros H. injection H as <- <-. rewrite app_assoc_s. split; [reflexivity|]. split.
  - rewrite all_chars_app, G, (digit_num _ Hd). reflexivity.
  - destruct g; discriminate.
Qed.
Lemma float_chars s a r : scan_float s = Some (a, r) -> s = (a ++ r)%string /\ all_chars num_char a = true /\ a <> "".
Proof.
  unfold scan_float. destruct (sign_chars s) as [G Es]. destruct (scan_sign s) as [g r0]. cbn [fst snd] in *. subst s.
  assert (K : exists i r1, match scan_int r0 with Some x => x | None => ("", r0) end = (i, r1) /\ r0 = (i ++ r1)%string /\ all_chars num_char i = true).
  { destruct (scan_int r0) as [[i r1]|] eqn:Ei; [|exists "", r0; auto]. apply int_chars in Ei. exists i, r1. intuition. }
  destruct K as (i & r1 & -> & -> & Hi). destruct (strip_prefix "." r1) as [r2|] eqn:Ep; [|discriminate]. apply strip_prefix_spec in Ep. subst r1.
  destruct (scan_int r2) as [[f r3]|] eqn:Ef; [|discriminate]. apply int_chars in Ef. destruct Ef as (-> & Hf & _).
  intros H. injection H as <- <-. rewrite !app_assoc_s. split; [reflexivity|]. split.
  - rewrite !all_chars_app, G, Hi. simpl. exact Hf.
  - destruct g; [destruct i|]; discriminate.
Qed.
Lemma number_chars s a r : scan_number s = Some (a, r) -> s = (a ++ r)%string /\ all_chars num_char a = true /\ a <> "".
Proof.
  unfold scan_number. intros H. destruct (scan_e s) as [[e r']|] eqn:Ee.
  - injection H as <- <-. unfold scan_e in Ee.
    assert (K : exists m r0, match scan_float s with Some x => Some x | None => scan_int s end = Some (m, r0) /\ s = (m ++ r0)%string /\ all_chars num_char m = true /\ m <> "").
    { destruct (scan_float s) as [[m r0]|] eqn:G; [exists m, r0; apply float_chars in G; intuition|].
      destruct (scan_int s) as [[m r0]|] eqn:G'; [exists m, r0; apply int_chars in G'; intuition|discriminate]. }
    destruct K as (m & r0 & K & -> & Hm & Nm). rewrite K in Ee. destruct r0 as [|c r0]; [discriminate|].
    destruct (Ascii.eqb c "e" || Ascii.eqb c "E")%bool eqn:Ec; [|discriminate].
    destruct (scan_int r0) as [[x r1]|] eqn:Ex; [|discriminate]. injection Ee as <- <-. apply int_chars in Ex. destruct Ex as (-> & Hx & _).
    split; [rewrite app_assoc_s; reflexivity|]. split; [|apply app_not_empty, Nm].
    rewrite all_chars_app, Hm. simpl. rewrite Hx, andb_true_r. apply orb_true_iff in Ec. destruct Ec as [G|G]; apply Ascii.eqb_eq in G; subst c; reflexivity.
  - destruct (scan_float s) as [[m r0]|] eqn:G; [injection H as <- <-; apply float_chars, G|apply int_chars, H].
Qed.
Lemma num_name c : num_char c = true -> name_char c = true.
Proof. intros H. destruct c as [[] [] [] [] [] [] [] []]; first [discriminate H|reflexivity]. Qed.
Lemma number_text_plain t : number_text t -> plain t.
Proof.
  intros H. apply number_chars in H. destruct H as (_ & H & Ht). split; [exact Ht|]. eapply all_chars_impl; [|exact H]. apply num_name.
Qed.
Lemma number_ok t c r : number_text t -> num_char c = false -> number (t ++ String c r)%string = Some ([t], String c r).
Proof.
  intros H Hc. unfold number. rewrite (plain_skip _ _ (number_text_plain _ H)), (number_grow c r Hc t), H. reflexivity.
Qed.
Lemma number_no w c r : plain w -> scan_number w = None -> num_char c = false -> number (w ++ String c r)%string = None.
Proof. intros P H Hc. unfold number. rewrite (plain_skip _ _ P), (number_grow c r Hc w), H. reflexivity. Qed.

(** ** Lines of hyperparameters *)
Lemma then_ok (p q : parser) s a r : p s = Some (a, r) -> (p >> q) s = match q r with Some (b, r') => Some (a ++ b, r') | None => None end.
Proof. intros H. unfold andThen. rewrite H. reflexivity. Qed.
Lemma then_fails (p q : parser) s : p s = None -> (p >> q) s = None.
Proof. intros H. unfold andThen. rewrite H. reflexivity. Qed.

Definition type_name (ty : string) : Prop := ty = "integer" \/ ty = "real" \/ ty = "categorical" \/ ty = "ordinal".
Lemma type_ok ty r : type_name ty -> p_type (" " ++ (ty ++ r))%string = Some ([ty], r).
Proof. intros [->|[->|[->| ->]]]; reflexivity. Qed.

Lemma cat_ok n ty ws d : plain n -> type_name ty -> ws <> [] -> (forall w, In w ws -> plain w) -> plain d ->
  parse p_cat (n ++ (" " ++ (ty ++ (" {" ++ (String.concat ", " ws ++ ("} [" ++ (d ++ "]")))))))%string =
  Some ([n; ty; "{"] ++ listed_tokens ws ++ ["}"; "["; d; "]"]).
Proof.
  intros Pn Ht Hws Pws Pd. unfold parse, p_cat.
  rewrite (then_ok _ _ _ [n] (" " ++ (ty ++ (" {" ++ (String.concat ", " ws ++ ("} [" ++ (d ++ "]"))))))%string) by (apply name_ok; [exact Pn|reflexivity]).
  rewrite (then_ok _ _ _ [ty] (" {" ++ (String.concat ", " ws ++ ("} [" ++ (d ++ "]"))))%string) by (apply type_ok, Ht).
  rewrite (then_ok (literal "{") _ _ ["{"] (String.concat ", " ws ++ ("} [" ++ (d ++ "]")))%string) by reflexivity.
  rewrite (then_ok p_values _ _ (listed_tokens ws) ("} [" ++ (d ++ "]"))%string) by (apply values_ok; [exact Hws|exact Pws|reflexivity|reflexivity]).
  rewrite (then_ok (literal "}") _ _ ["}"] (" [" ++ (d ++ "]"))%string) by reflexivity.
  rewrite (then_ok (literal "[") _ _ ["["] (d ++ "]")%string) by reflexivity.
  rewrite (then_ok p_name _ _ [d] "]") by (apply name_ok; [exact Pd|reflexivity]).
  change (literal "]" "]") with (Some (["]"], "")). cbn. rewrite ?app_assoc. reflexivity.
Qed.
Lemma cont_not_cat n ty r : plain n -> type_name ty -> parse p_cont (n ++ (" " ++ (ty ++ (" {" ++ r))))%string = None.
Proof.
  intros Pn Ht. unfold parse, p_cont.
  rewrite (then_ok _ _ _ [n] (" " ++ (ty ++ (" {" ++ r)))%string) by (apply name_ok; [exact Pn|reflexivity]).
  rewrite (then_ok _ _ _ [ty] (" {" ++ r)%string) by (apply type_ok, Ht).
  rewrite then_fails by reflexivity. reflexivity.
Qed.
Lemma cat_not_cont n ty r : plain n -> type_name ty -> parse p_cat (n ++ (" " ++ (ty ++ (" [" ++ r))))%string = None.
Proof.
  intros Pn Ht. unfold parse, p_cat.
  rewrite (then_ok _ _ _ [n] (" " ++ (ty ++ (" [" ++ r)))%string) by (apply name_ok; [exact Pn|reflexivity]).
  rewrite (then_ok _ _ _ [ty] (" [" ++ r)%string) by (apply type_ok, Ht).
  rewrite then_fails by reflexivity. reflexivity.
Qed.
Lemma cont_ok n ty a b d (log : bool) : plain n -> type_name ty -> number_text a -> number_text b -> number_text d ->
  parse p_cont (n ++ (" " ++ (ty ++ (" [" ++ (a ++ (", " ++ (b ++ ("] [" ++ (d ++ ("]" ++ (if log then "log" else "")))))))))))%string =
  Some ([n; ty; "["; a; ","; b; "]"; "["; d; "]"] ++ (if log then ["log"] else [])).
Proof.
  intros Pn Ht Na Nb Nd. unfold parse, p_cont. set (l := if log then "log" else "").
  rewrite (then_ok _ _ _ [n] (" " ++ (ty ++ (" [" ++ (a ++ (", " ++ (b ++ ("] [" ++ (d ++ ("]" ++ l)))))))))%string) by (apply name_ok; [exact Pn|reflexivity]).
  rewrite (then_ok _ _ _ [ty] (" [" ++ (a ++ (", " ++ (b ++ ("] [" ++ (d ++ ("]" ++ l)))))))%string) by (apply type_ok, Ht).
  rewrite (then_ok (literal "[") _ _ ["["] (a ++ (", " ++ (b ++ ("] [" ++ (d ++ ("]" ++ l))))))%string) by reflexivity.
  rewrite (then_ok number _ _ [a] (", " ++ (b ++ ("] [" ++ (d ++ ("]" ++ l)))))%string) by (apply (number_ok a); [exact Na|reflexivity]).
  rewrite (then_ok (literal ",") _ _ [","] (" " ++ (b ++ ("] [" ++ (d ++ ("]" ++ l)))))%string) by reflexivity.
  rewrite (then_ok number _ _ [b] ("] [" ++ (d ++ ("]" ++ l)))%string) by (apply (number_ok b); [exact Nb|reflexivity]).
  rewrite (then_ok (literal "]") _ _ ["]"] (" [" ++ (d ++ ("]" ++ l)))%string) by reflexivity.
  rewrite (then_ok (literal "[") _ _ ["["] (d ++ ("]" ++ l))%string) by reflexivity.
  rewrite (then_ok number _ _ [d] ("]" ++ l)%string) by (apply (number_ok d); [exact Nd|reflexivity]).
  rewrite (then_ok (literal "]") _ _ ["]"] l) by reflexivity.
  subst l. destruct log; reflexivity.
Qed.

(** the slice of the values *)
Lemma every_other_listed ws : every_other (listed_tokens ws) = ws.
Proof.
  destruct ws as [|w ws]; [reflexivity|]. simpl. revert w. induction ws as [|v ws IH]; intros w; [reflexivity|]. simpl in *. rewrite IH. reflexivity.
Qed.
Lemma slice_app {A} (a b c : list A) : slice (length a) (length c) (a ++ b ++ c) = b.
Proof.
  unfold slice. rewrite !app_length.
  replace (length a + (length b + length c) - length c - length a) with (length b) by lia.
  rewrite skipn_app, skipn_all, Nat.sub_diag. cbn [skipn app]. rewrite firstn_app, firstn_all, Nat.sub_diag. simpl. apply app_nil_r.
Qed.
Lemma slice2_values (a c : list string) ws : slice2 (length a) (length c) (a ++ listed_tokens ws ++ c) = ws.
Proof. unfold slice2. rewrite slice_app. apply every_other_listed. Qed.

(** *** Clean lines *)
Definition kept_char (c : ascii) : bool := (negb (Ascii.eqb c "#") && negb (Ascii.eqb c """" || Ascii.eqb c "'"))%char%bool.
Lemma clean_id s c d r : all_chars kept_char (s ++ String c "")%string = true -> (s ++ String c "" = String d r)%string ->
  is_space c = false -> is_space d = false -> clean (s ++ String c "")%string = (s ++ String c "")%string.
Proof.
  intros H Es Hc Hd. unfold clean. set (t := (s ++ String c "")%string) in *.
  assert (G1 : span (fun c => negb (Ascii.eqb c "#")) t = (t, "")).
  { rewrite <- (app_nil_s t) at 1. apply span_app; [|reflexivity]. eapply all_chars_impl; [|exact H].
    intros e He. unfold kept_char in He. apply andb_true_iff in He. apply He. }
  rewrite G1. cbn [fst].
  assert (G2 : forall p u, all_chars p u = true -> filter_chars p u = u).
  { intros p. induction u as [|e u IH]; simpl; [reflexivity|]. intros K. apply andb_true_iff in K. destruct K as [-> K]. rewrite (IH K). reflexivity. }
  rewrite G2. { apply (strip_id s c d r Es Hc Hd). }
  eapply all_chars_impl; [|exact H]. intros e He. unfold kept_char in He. apply andb_true_iff in He. apply He.
Qed.
Lemma last_char_app s c : last_char (s ++ String c "")%string = Some c.
Proof. induction s as [|d s IH]; [reflexivity|]. simpl. rewrite IH. destruct s; reflexivity. Qed.

Lemma plain_kept w : plain w -> all_chars kept_char w = true.
Proof.
  intros [_ H]. eapply all_chars_impl; [|exact H]. intros c Hc. unfold kept_char.
  rewrite (proj1 (name_char_not c Hc "#"%char eq_refl)), (proj1 (name_char_not c Hc """"%char eq_refl)), (proj1 (name_char_not c Hc "'"%char eq_refl)). reflexivity.
Qed.
Lemma plain_first w r : plain w -> exists d s, (w ++ r = String d s)%string /\ name_char d = true.
Proof. intros [Hw H]. destruct w as [|d w]; [congruence|]. exists d, (w ++ r)%string. simpl in H. apply andb_true_iff in H. split; [reflexivity|apply H]. Qed.

(** ** Conditions *)
(** what may follow a condition *)
Definition follows (r : string) : Prop := r = "" \/ (exists s, r = " && " ++ s)%string \/ (exists s, r = " || " ++ s)%string.
Lemma follows_stops r : follows r -> stops name_char r = true.
Proof. intros [->|[(s & ->)|(s & ->)]]; reflexivity. Qed.
Lemma follows_comma r : follows r -> comma_fails r = true.
Proof. intros [->|[(s & ->)|(s & ->)]]; reflexivity. Qed.
Lemma follows_brace r : follows r -> literal "}" r = None.
Proof. intros [->|[(s & ->)|(s & ->)]]; reflexivity. Qed.

Definition op_text (o : string) : Prop := o = "==" \/ o = "!=" \/ o = "<" \/ o = ">" \/ o = "in".
Lemma op_ok o s : op_text o -> p_op (" " ++ (o ++ String " " s))%string = Some ([o], String " " s).
Proof. intros [->|[->|[->|[->| ->]]]]; reflexivity. Qed.

Lemma test_bin_ok p o v r : plain p -> op_text o -> plain v -> follows r ->
  p_test (p ++ (" " ++ (o ++ (" " ++ (v ++ r)))))%string = Some ([p; o; v], r).
Proof.
  intros Pp Ho Pv Hr. unfold p_test.
  rewrite (then_ok _ _ _ [p] (" " ++ (o ++ String " " (v ++ r)))%string) by (apply name_ok; [exact Pp|reflexivity]).
  rewrite (then_ok _ _ _ [o] (String " " (v ++ r))) by (apply op_ok, Ho).
  rewrite (then_ok (optional (literal "{")) _ _ [] (String " " (v ++ r))).
  2: { unfold optional. rewrite literal_blank, literal_not_word by (auto; reflexivity). reflexivity. }
  rewrite (then_ok p_values _ _ [v] r).
  2: { rewrite values_blank. apply (values_ok [v] r); [discriminate| |apply follows_stops, Hr|apply follows_comma, Hr].
       intros w [<-|[]]. exact Pv. }
  unfold optional. rewrite follows_brace by exact Hr. reflexivity.
Qed.
Lemma test_in_ok p ws r : plain p -> ws <> [] -> (forall w, In w ws -> plain w) ->
  p_test (p ++ (" in {" ++ (String.concat ", " ws ++ ("}" ++ r))))%string = Some ([p; "in"; "{"] ++ listed_tokens ws ++ ["}"], r).
Proof.
  intros Pp Hws Pws. unfold p_test.
  rewrite (then_ok _ _ _ [p] (" in {" ++ (String.concat ", " ws ++ ("}" ++ r)))%string) by (apply name_ok; [exact Pp|reflexivity]).
  rewrite (then_ok _ _ _ ["in"] (" {" ++ (String.concat ", " ws ++ ("}" ++ r)))%string) by reflexivity.
  rewrite (then_ok (optional (literal "{")) _ _ ["{"] (String.concat ", " ws ++ ("}" ++ r))%string) by reflexivity.
  rewrite (then_ok p_values _ _ (listed_tokens ws) ("}" ++ r)%string) by (apply values_ok; auto).
  change (optional (literal "}") ("}" ++ r)%string) with (Some (["}"], r)). reflexivity.
Qed.

(** a text with the tokens it parses to, as part of a condition *)
Definition reads_as (t : string) (ts : list string) : Prop :=
  forall r, follows r -> p_test (t ++ r)%string = Some (ts, r).

Definition connective (s : string) : Prop := s = "&&" \/ s = "||".
Lemma connective_ok s r : connective s -> (literal "&&" <|> literal "||") (" " ++ (s ++ r))%string = Some ([s], r).
Proof. intros [->| ->]; reflexivity. Qed.

Fixpoint joined (s : string) (tss : list (list string)) : list string :=
  match tss with [] => [] | ts :: tss' => s :: ts ++ joined s tss' end.
Lemma test_blank s : p_test (" " ++ s)%string = p_test s.
Proof. unfold p_test, andThen. rewrite name_blank. reflexivity. Qed.
Lemma many_tests s ps fuel : connective s -> Forall (fun p => reads_as (fst p) (snd p)) ps -> length ps <= fuel ->
  many_ fuel ((literal "&&" <|> literal "||") >> p_test) (String.concat "" (map (fun p => " " ++ (s ++ (" " ++ fst p))) ps))%string =
  (joined s (map snd ps), "").
Proof.
  intros Hs. revert fuel. induction ps as [|[t ts] ps IH]; intros fuel H Hf.
  - destruct fuel; [reflexivity|]. reflexivity.
  - destruct fuel as [|fuel]; [simpl in Hf; lia|]. inversion H as [|x y H1 H2]; subst. cbn [fst snd] in H1.
    assert (Es : (String.concat "" (map (fun p => " " ++ (s ++ (" " ++ fst p))) ((t, ts) :: ps)) =
                  " " ++ (s ++ (" " ++ (t ++ String.concat "" (map (fun p => " " ++ (s ++ (" " ++ fst p))) ps)))))%string).
    { simpl map. destruct ps; simpl; rewrite ?app_nil_s, ?app_assoc_s; [reflexivity|]. simpl. rewrite ?app_assoc_s. reflexivity. }
    rewrite Es, many_S.
    rewrite (then_ok _ _ _ [s] (" " ++ (t ++ String.concat "" (map (fun p => " " ++ (s ++ (" " ++ fst p))) ps)))%string) by (apply connective_ok, Hs).
    rewrite test_blank, H1.
    + rewrite IH; [reflexivity|exact H2|simpl in Hf; lia].
    + destruct ps as [|[t' ts'] ps]; [left; reflexivity|]. right.
      assert (G : exists z, (String.concat "" (map (fun p => " " ++ (s ++ (" " ++ fst p))) ((t', ts') :: ps)) = " " ++ (s ++ (" " ++ z)))%string).
      { simpl map. destruct ps; simpl; rewrite ?app_assoc_s; eauto. simpl. rewrite ?app_assoc_s. eauto. }
      destruct G as (z & ->). destruct Hs as [->| ->]; [left|right]; exists z; reflexivity.
Qed.
Lemma concat_sep sep t ts : String.concat sep (t :: ts) = (t ++ String.concat "" (map (fun u => sep ++ u) ts))%string.
Proof.
  revert t. induction ts as [|v ts IH]; intros t; [simpl; rewrite app_nil_s; reflexivity|].
  change (String.concat sep (t :: v :: ts)) with (t ++ (sep ++ String.concat sep (v :: ts)))%string. rewrite IH.
  simpl map. destruct ts as [|u ts]; simpl; rewrite ?app_nil_s; [reflexivity|]. rewrite ?app_assoc_s. reflexivity.
Qed.
Lemma length_seps {A} (f : A -> string) (ps : list A) : (forall p, f p <> "") -> length ps <= String.length (String.concat "" (map f ps)).
Proof.
  intros H. induction ps as [|p ps IH]; [apply Nat.le_refl|].
  assert (Es : String.concat "" (map f (p :: ps)) = (f p ++ String.concat "" (map f ps))%string).
  { simpl map. destruct ps; simpl; rewrite ?app_nil_s; reflexivity. }
  rewrite Es, length_app_s. cbn [length]. specialize (H p). destruct (f p); [congruence|]. cbn [String.length]. lia.
Qed.
Lemma cond_ok ch s p ps : plain ch -> connective s -> Forall (fun p => reads_as (fst p) (snd p)) (p :: ps) ->
  parse p_cond (ch ++ (" | " ++ String.concat (" " ++ (s ++ " ")) (map fst (p :: ps))))%string =
  Some ([ch; "|"] ++ snd p ++ joined s (map snd ps)).
Proof.
  intros Pc Hs H. unfold parse, p_cond. set (body := String.concat _ _).
  rewrite (then_ok _ _ _ [ch] (" | " ++ body)%string) by (apply name_ok; [exact Pc|reflexivity]).
  rewrite (then_ok (literal "|") _ _ ["|"] (" " ++ body)%string) by reflexivity.
  inversion H as [|x y H1 H2]; subst x y.
  assert (Eb : body = (fst p ++ String.concat "" (map (fun p => " " ++ (s ++ (" " ++ fst p))) ps))%string).
  { unfold body. cbn [map]. rewrite concat_sep, map_map. f_equal. f_equal. apply map_ext. intros a. rewrite !app_assoc_s. reflexivity. }
  rewrite Eb.
  rewrite (then_ok p_test _ _ (snd p) (String.concat "" (map (fun p => " " ++ (s ++ (" " ++ fst p))) ps))%string).
  2: { rewrite test_blank. apply H1. destruct ps as [|q ps]; [left; reflexivity|]. right.
      assert (G : exists z, (String.concat "" (map (fun p => " " ++ (s ++ (" " ++ fst p))) (q :: ps)) = " " ++ (s ++ (" " ++ z)))%string).
      { simpl map. destruct ps; simpl; rewrite ?app_assoc_s; eauto. simpl. rewrite ?app_assoc_s. eauto. }
      destruct G as (z & ->). destruct Hs as [->| ->]; [left|right]; exists z; reflexivity. }
  unfold many. rewrite many_tests; [reflexivity|exact Hs|exact H2|]. apply length_seps. intros q. discriminate.
Qed.

(** *** The words of a condition with connectives *)
Definition solid (s : string) (t : string) : Prop := t <> "" /\ no_space t = true /\ is_infix s t = false.

Lemma concat_app_s sep a b : a <> [] -> b <> [] -> String.concat sep (a ++ b) = (String.concat sep a ++ (sep ++ String.concat sep b))%string.
Proof.
  intros Ha Hb. induction a as [|x a IH]; [congruence|]. destruct a as [|y a].
  - simpl. destruct b; [congruence|reflexivity].
  - change (String.concat sep ((x :: y :: a) ++ b)) with (x ++ (sep ++ String.concat sep ((y :: a) ++ b)))%string.
    rewrite IH by discriminate.
    change (String.concat sep (x :: y :: a)) with (x ++ (sep ++ String.concat sep (y :: a)))%string. rewrite !app_assoc_s. reflexivity.
Qed.

Section Split.
  Variable s : string.
  Hypothesis Hs : connective s.
  Lemma con_ne : s <> "". Proof. destruct Hs as [->| ->]; discriminate. Qed.
  Lemma con_blank : has_char " " s = false. Proof. destruct Hs as [->| ->]; reflexivity. Qed.

  (** the text of a part has no connective *)
  Lemma part_infix ts : (forall t, In t ts -> solid s t) -> is_infix s (String.concat " " ts) = false.
  Proof.
    intros H. rewrite (infix_concat s " " " "%char ts con_ne con_blank eq_refl).
    destruct (existsb (is_infix s) ts) eqn:Ex; [|reflexivity]. apply existsb_exists in Ex. destruct Ex as (t & Ht & E).
    destruct (H t Ht) as (_ & _ & E'). congruence.
  Qed.
  Lemma split_joined ts tss : ts <> [] -> (forall t, In t ts -> solid s t) ->
    (forall us, In us tss -> us <> [] /\ forall t, In t us -> solid s t) ->
    forall cur, map words (split_from s 0 cur (String.concat " " (ts ++ joined s tss))) =
    match tss with
    | [] => [words (cur ++ String.concat " " ts)%string]
    | _ => words (cur ++ String.concat " " ts)%string :: map (fun us => us) tss
    end.
  Proof.
    revert ts. induction tss as [|us tss IH]; intros ts Hn H H' cur.
    - simpl. rewrite app_nil_r, split_from_last; [reflexivity|apply con_ne|apply part_infix, H].
    - destruct (H' us (or_introl eq_refl)) as [Nu Hu].
      assert (Es : String.concat " " (ts ++ joined s (us :: tss)) = (String.concat " " ts ++ String " " (s ++ (" " ++ String.concat " " (us ++ joined s tss))))%string).
      { change (joined s (us :: tss)) with ([s] ++ (us ++ joined s tss)).
        rewrite concat_app_s by (assumption || discriminate). rewrite concat_app_s.
        - reflexivity.
        - discriminate.
        - destruct us; [congruence|discriminate]. }
      rewrite Es, split_from_skip; [|apply con_ne|apply con_blank|apply part_infix, H].
      rewrite split_from_sep by apply con_ne. cbn [map].
      assert (Eb : split_from s 0 "" (" " ++ String.concat " " (us ++ joined s tss))%string = split_from s 0 " " (String.concat " " (us ++ joined s tss))).
      { apply (split_from_skip s "" "" " "%char _ con_ne con_blank). destruct Hs as [->| ->]; reflexivity. }
      rewrite Eb, (IH us Nu Hu) by (intros vs Hvs; apply H'; right; exact Hvs).
      rewrite <- app_assoc_s, words_trail. rewrite map_id.
      assert (Ew : words (" " ++ String.concat " " us)%string = us).
      { change (words (" " ++ String.concat " " us)%string) with (words (String.concat " " us)). apply words_concat.
        intros w Hw. destruct (Hu w Hw) as (W1 & W2 & _). auto. }
      destruct tss; rewrite Ew; reflexivity.
  Qed.
  Lemma split_words ts tss : ts <> [] -> (forall t, In t ts -> solid s t) ->
    (forall us, In us tss -> us <> [] /\ forall t, In t us -> solid s t) ->
    map words (split_on s (String.concat " " (ts ++ joined s tss))) = ts :: tss.
  Proof.
    intros Hn H H'. unfold split_on. rewrite split_joined by assumption.
    assert (Ew : words ("" ++ String.concat " " ts)%string = ts).
    { simpl. apply words_concat. intros w Hw. destruct (H w Hw) as (W1 & W2 & _). auto. }
    rewrite Ew, map_id. destruct tss; reflexivity.
  Qed.
  Lemma joined_infix ts tss : tss <> [] -> ts <> [] -> is_infix s (String.concat " " (ts ++ joined s tss)) = true.
  Proof.
    intros Hn Ht. rewrite (infix_concat s " " " "%char _ con_ne con_blank eq_refl). apply existsb_exists. exists s. split.
    - apply in_or_app. right. destruct tss; [congruence|]. left. reflexivity.
    - rewrite <- (app_nil_s s) at 2. apply infix_here.
  Qed.
  (** the other connective does not occur *)
  Lemma joined_other s' ts tss : connective s' -> s' <> s -> (forall t, In t ts -> is_infix s' t = false) ->
    (forall us, In us tss -> forall t, In t us -> is_infix s' t = false) -> is_infix s' (String.concat " " (ts ++ joined s tss)) = false.
  Proof.
    intros Hc Hd H H'.
    assert (Hb : has_char " " s' = false) by (destruct Hc as [->| ->]; reflexivity).
    assert (Hn : s' <> "") by (destruct Hc as [->| ->]; discriminate).
    rewrite (infix_concat s' " " " "%char _ Hn Hb eq_refl).
    destruct (existsb (is_infix s') (ts ++ joined s tss)) eqn:Ex; [|reflexivity]. exfalso.
    apply existsb_exists in Ex. destruct Ex as (t & Ht & E). apply in_app_iff in Ht. destruct Ht as [Ht|Ht]; [rewrite (H t Ht) in E; discriminate|].
    induction tss as [|us tss IH]; [contradiction|]. simpl in Ht. destruct Ht as [<-|Ht].
    - destruct Hs as [->| ->]; destruct Hc as [->| ->]; try congruence; discriminate E.
    - apply in_app_iff in Ht. destruct Ht as [Ht|Ht]; [rewrite (H' us (or_introl eq_refl) t Ht) in E; discriminate|].
      apply IH; [intros vs Hv; apply H'; right; exact Hv|exact Ht].
  Qed.
End Split.

(** ** Clauses *)
Definition one_value (v : string) : Prop := number_text v \/ (plain v /\ scan_number v = None).
Lemma one_value_plain v : one_value v -> plain v.
Proof. intros [H|[H _]]; [apply number_text_plain, H|exact H]. Qed.
Lemma value_ok v c r : one_value v -> num_char c = false -> name_char c = false -> p_value (v ++ String c r)%string = Some ([v], String c r).
Proof.
  intros [H|[P H]] Hc Hn; unfold p_value, orElse.
  - rewrite (number_ok v c r H Hc). reflexivity.
  - rewrite (number_no v c r P H Hc). apply name_ok; [exact P|]. simpl. rewrite Hn. reflexivity.
Qed.
Definition equation (e : string * string) : string := (fst e ++ ("=" ++ snd e))%string.
Lemma equation_ok n v c r : plain n -> one_value v -> num_char c = false -> name_char c = false ->
  (p_name >> literal "=" >> p_value) (equation (n, v) ++ String c r)%string = Some ([n; "="; v], String c r).
Proof.
  intros Pn Pv Hc Hn. unfold equation. cbn [fst snd]. rewrite !app_assoc_s.
  rewrite (then_ok _ _ _ [n] ("=" ++ (v ++ String c r))%string) by (apply name_ok; [exact Pn|reflexivity]).
  rewrite (then_ok (literal "=") _ _ ["="] (v ++ String c r)%string) by reflexivity.
  rewrite value_ok by assumption. reflexivity.
Qed.
Fixpoint equations (es : list (string * string)) : list string :=
  match es with [] => [] | (n, v) :: es' => "," :: n :: "=" :: v :: equations es' end.
Lemma name_eq_blank s : (p_name >> literal "=" >> p_value) (" " ++ s)%string = (p_name >> literal "=" >> p_value) s.
Proof. unfold andThen at 1 3. rewrite name_blank. reflexivity. Qed.
Lemma many_equations es fuel : (forall e, In e es -> plain (fst e) /\ one_value (snd e)) -> length es <= fuel ->
  many_ fuel (literal "," >> p_name >> literal "=" >> p_value) (String.concat "" (map (fun e => ", " ++ equation e) es) ++ "}")%string = (equations es, "}").
Proof.
  revert fuel. induction es as [|[n v] es IH]; intros fuel H Hf.
  - destruct fuel; reflexivity.
  - destruct fuel as [|fuel]; [simpl in Hf; lia|]. destruct (H (n, v) (or_introl eq_refl)) as [H1 H2]. cbn [fst snd] in H1, H2.
    assert (Es : (String.concat "" (map (fun e => ", " ++ equation e) ((n, v) :: es)) ++ "}" =
                  ", " ++ (equation (n, v) ++ (String.concat "" (map (fun e => ", " ++ equation e) es) ++ "}")))%string).
    { simpl map. destruct es; simpl; rewrite ?app_nil_s, ?app_assoc_s; reflexivity. }
    rewrite Es, many_S.
    rewrite (then_ok (literal ",") _ _ [","] (" " ++ (equation (n, v) ++ (String.concat "" (map (fun e => ", " ++ equation e) es) ++ "}")))%string) by reflexivity.
    rewrite name_eq_blank.
    assert (G : exists c z, (String.concat "" (map (fun e => ", " ++ equation e) es) ++ "}" = String c z)%string /\ num_char c = false /\ name_char c = false).
    { destruct es as [|e es]; [exists "}"%char, ""; auto|]. exists ","%char. simpl map. destruct es; simpl; eauto. }
    destruct G as (c & z & Ez & G1 & G2).
    assert (Eq := equation_ok n v c z H1 H2 G1 G2). rewrite <- Ez in Eq. rewrite Eq.
    rewrite IH; [reflexivity|intros e He; apply H; right; exact He|simpl in Hf; lia].
Qed.
Lemma forb_ok e es : (forall x, In x (e :: es) -> plain (fst x) /\ one_value (snd x)) ->
  parse p_forb ("{" ++ (String.concat ", " (map equation (e :: es)) ++ "}"))%string =
  Some ("{" :: fst e :: "=" :: snd e :: equations es ++ ["}"]).
Proof.
  intros H. destruct e as [n v]. destruct (H (n, v) (or_introl eq_refl)) as [H1 H2]. cbn [fst snd] in *. unfold parse.
  cbn [map]. rewrite concat_sep, map_map, app_assoc_s.
  assert (G : exists c z, (String.concat "" (map (fun e => ", " ++ equation e) es) ++ "}" = String c z)%string /\ num_char c = false /\ name_char c = false).
  { destruct es as [|e es]; [exists "}"%char, ""; auto|]. exists ","%char. simpl map. destruct es; simpl; eauto. }
  destruct G as (c & z & Ez & G1 & G2).
  unfold equation at 1. cbn [fst snd]. rewrite !app_assoc_s. unfold p_forb.
  set (rest := (String.concat "" (map (fun e => ", " ++ equation e) es) ++ "}")%string) in *.
  rewrite (then_ok (literal "{") _ _ ["{"] (n ++ ("=" ++ (v ++ rest)))%string) by reflexivity.
  rewrite (then_ok p_name _ _ [n] ("=" ++ (v ++ rest))%string) by (apply name_ok; [exact H1|reflexivity]).
  rewrite (then_ok (literal "=") _ _ ["="] (v ++ rest)%string) by reflexivity.
  rewrite (then_ok p_value _ _ [v] rest) by (rewrite Ez; apply value_ok; assumption).
  rewrite (then_ok (many _) _ _ (equations es) "}").
  2: { unfold many. f_equal. apply many_equations; [intros x Hx; apply H; right; exact Hx|].
       unfold rest. rewrite length_app_s. pose proof (length_seps (fun e => ", " ++ equation e)%string es (fun p => ltac:(discriminate))). lia. }
  reflexivity.
Qed.
