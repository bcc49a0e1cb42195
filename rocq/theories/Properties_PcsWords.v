(** * C83, the vocabulary: which texts are words and numbers of the PCS formats

    The statements of C83 and C88 use [plain], [number_text] and [one_value], which are written with the
    scanners of the model.  Here they are characterised without them. *)
From Coq Require Import String Ascii List ZArith Bool Lia.
From Verif Require Import Base Pcs PcsProofs.
Import ListNotations.
Open Scope string_scope.
Open Scope list_scope.

Definition chars (s : string) : list ascii := list_ascii_of_string s.
(** letters, digits and some signs *)
Definition alphabet : string := "abcdefghijklmnopqrstuvwxyzABCDEFGHIJKLMNOPQRSTUVWXYZ0123456789_-@.:;\/?!$%&*+<>".
Definition digits : string := "0123456789".

Lemma name_char_iff c : name_char c = true <-> In c (chars alphabet).
Proof.
  split.
  - intros H. destruct c as [[] [] [] [] [] [] [] []]; first [discriminate H|vm_compute; tauto].
  - intros H. assert (G : forallb name_char (chars alphabet) = true) by (vm_compute; reflexivity). rewrite forallb_forall in G. apply G, H.
Qed.
Lemma is_digit_iff c : is_digit c = true <-> In c (chars digits).
Proof.
  split.
  - intros H. destruct c as [[] [] [] [] [] [] [] []]; first [discriminate H|vm_compute; tauto].
  - intros H. assert (G : forallb is_digit (chars digits) = true) by (vm_compute; reflexivity). rewrite forallb_forall in G. apply G, H.
Qed.
Lemma is_white_iff c : is_white c = true <-> In c [" "; "009"; "010"; "013"]%char.
Proof.
  split.
  - intros H. destruct c as [[] [] [] [] [] [] [] []]; first [discriminate H|vm_compute; tauto].
  - intros [<-|[<-|[<-|[<-|[]]]]]; reflexivity.
Qed.
Lemma all_chars_iff p s : all_chars p s = true <-> forall c, In c (chars s) -> p c = true.
Proof.
  induction s as [|c s IH]; [split; [intros _ c []|reflexivity]|]. cbn [all_chars chars list_ascii_of_string]. rewrite andb_true_iff, IH. split.
  - intros [H1 H2] d [<-|Hd]; auto.
  - intros H. split; [apply H; left; reflexivity|]. intros d Hd. apply H. right. exact Hd.
Qed.

(** A word is a nonempty string over the alphabet. *)
Theorem C83_words w : plain w <-> w <> "" /\ forall c, In c (chars w) -> In c (chars alphabet).
Proof.
  unfold plain. rewrite all_chars_iff. split; intros [H1 H2]; (split; [exact H1|]); intros c Hc; apply name_char_iff, H2, Hc.
Qed.

(** ** Numbers *)
Definition sign (g : string) : Prop := g = "" \/ g = "+" \/ g = "-".
Definition natural (d : string) : Prop := d <> "" /\ forall c, In c (chars d) -> In c (chars digits).
Definition integer (s : string) : Prop := exists g d, sign g /\ natural d /\ s = (g ++ d)%string.
Definition fraction (s : string) : Prop :=
  exists g i f, sign g /\ (i = "" \/ integer i) /\ integer f /\ s = (g ++ (i ++ ("." ++ f)))%string.
Definition mantissa (s : string) : Prop := fraction s \/ integer s.
Definition exponential (s : string) : Prop :=
  exists m e x, mantissa m /\ (e = "e" \/ e = "E") /\ integer x /\ s = (m ++ (e ++ x))%string.
(** Numbers of the grammar: "5", "-2.5", "+.5", "1e-05", and also "--2.-5". *)
Definition numeral (s : string) : Prop := mantissa s \/ exponential s.

Lemma natural_all d : natural d <-> d <> "" /\ all_chars is_digit d = true.
Proof. unfold natural. rewrite all_chars_iff. split; intros [H1 H2]; (split; [exact H1|]); intros c Hc; apply is_digit_iff, H2, Hc. Qed.

Lemma span_parts p s a b : span p s = (a, b) -> s = (a ++ b)%string /\ all_chars p a = true /\ stops p b = true.
Proof.
  revert a b. induction s as [|c s IH]; intros a b H; cbn [span] in H.
  - injection H as <- <-. repeat split.
  - destruct (p c) eqn:Q.
    + destruct (span p s) as [u v]. injection H as <- <-. destruct (IH u v eq_refl) as (-> & H2 & H3). split; [reflexivity|]. split; [|exact H3].
      cbn [all_chars]. rewrite Q, H2. reflexivity.
    + injection H as <- <-. split; [reflexivity|]. split; [reflexivity|]. simpl. rewrite Q. reflexivity.
Qed.
Lemma span_back p a b : all_chars p a = true -> stops p b = true -> span p (a ++ b)%string = (a, b).
Proof.
  intros Ha Hb. induction a as [|c a IH]; cbn [append span all_chars] in *.
  - destruct b as [|c b]; [reflexivity|]. simpl in *. apply negb_true_iff in Hb. rewrite Hb. reflexivity.
  - apply andb_true_iff in Ha. destruct Ha as [H1 H2]. rewrite H1, (IH H2). reflexivity.
Qed.
Lemma sign_parts s g r : scan_sign s = (g, r) -> sign g /\ s = (g ++ r)%string /\ (g = "" -> forall g' t, sign g' -> s = (g' ++ t)%string -> g' = "").
Proof.
  unfold sign. intros H. destruct s as [|c s]; cbn [scan_sign] in H.
  - injection H as <- <-. repeat split; auto. intros _ g' t [->|[->| ->]] Q; [reflexivity|discriminate|discriminate].
  - destruct (_ || _)%bool eqn:Q; injection H as <- <-.
    + apply orb_true_iff in Q. destruct Q as [Q|Q]; apply Ascii.eqb_eq in Q; subst c; repeat split; auto; discriminate.
    + repeat split; auto. apply orb_false_iff in Q. destruct Q as [Q1 Q2]. intros _ g' t [->|[->| ->]] K; [reflexivity|injection K as -> _; discriminate|injection K as -> _; discriminate].
Qed.
Definition stop_digit (r : string) : Prop := stops is_digit r = true.
Lemma sign_back g r : sign g -> scan_sign r = ("", r) -> scan_sign (g ++ r)%string = (g, r).
Proof. intros [->|[->| ->]] H; [exact H|reflexivity|reflexivity]. Qed.
Lemma digit_no_sign d r : natural d -> scan_sign (d ++ r)%string = ("", (d ++ r)%string).
Proof.
  intros H. apply natural_all in H. destruct H as [H1 H2]. destruct d as [|c d]; [congruence|]. cbn [append all_chars scan_sign] in *.
  apply andb_true_iff in H2. destruct H2 as [H2 _]. destruct c as [[] [] [] [] [] [] [] []]; first [discriminate H2|reflexivity].
Qed.

Lemma scan_int_parts s a b : scan_int s = Some (a, b) -> integer a /\ s = (a ++ b)%string /\ stop_digit b.
Proof.
  unfold scan_int. destruct (scan_sign s) as [g r] eqn:Q. apply sign_parts in Q. destruct Q as (Sg & -> & _).
  destruct (span is_digit r) as [d r'] eqn:Q. apply span_parts in Q. destruct Q as (-> & H1 & H2). destruct d as [|c d]; [discriminate|].
  intros H. injection H as <- <-. split; [|split; [rewrite app_assoc_s; reflexivity|exact H2]].
  exists g, (String c d). split; [exact Sg|]. split; [apply natural_all; split; [discriminate|exact H1]|reflexivity].
Qed.
Lemma scan_int_back a b : integer a -> stop_digit b -> scan_int (a ++ b)%string = Some (a, b).
Proof.
  intros (g & d & Sg & Nd & ->) Hb. unfold scan_int. rewrite app_assoc_s, (sign_back g _ Sg (digit_no_sign d b Nd)).
  apply natural_all in Nd. destruct Nd as [N1 N2]. rewrite (span_back is_digit d b N2 Hb). destruct d; [congruence|reflexivity].
Qed.
(** an integer followed by anything: some integer is scanned *)
Lemma scan_int_some a b : integer a -> exists a' b', scan_int (a ++ b)%string = Some (a', b').
Proof.
  intros (g & d & Sg & Nd & ->). unfold scan_int. rewrite app_assoc_s, (sign_back g _ Sg (digit_no_sign d b Nd)).
  apply natural_all in Nd. destruct Nd as [N1 N2]. destruct (span is_digit (d ++ b)%string) as [u v] eqn:Q. destruct d as [|c d]; [congruence|].
  cbn [append span all_chars] in *. apply andb_true_iff in N2. destruct N2 as [N2 _]. rewrite N2 in Q. destruct (span is_digit (d ++ b)%string).
  injection Q as <- <-. eauto.
Qed.
(** an integer is not followed by more digits, or it can be extended *)
Lemma integer_grow a b : integer a -> exists u v, b = (u ++ v)%string /\ stop_digit v /\ integer (a ++ u)%string.
Proof.
  intros (g & d & Sg & Nd & ->). destruct (span is_digit b) as [u v] eqn:Q. apply span_parts in Q. destruct Q as (-> & H1 & H2).
  exists u, v. split; [reflexivity|]. split; [exact H2|]. exists g, (d ++ u)%string. split; [exact Sg|]. split; [|rewrite app_assoc_s; reflexivity].
  apply natural_all in Nd. apply natural_all. destruct Nd as [N1 N2]. split; [destruct d; [congruence|discriminate]|]. rewrite all_chars_app, N2, H1. reflexivity.
Qed.
Lemma dot_no_int r : scan_int (String "." r) = None.
Proof. reflexivity. Qed.

Lemma scan_float_parts s a b : scan_float s = Some (a, b) -> fraction a /\ s = (a ++ b)%string /\ stop_digit b.
Proof.
  unfold scan_float. destruct (scan_sign s) as [g r] eqn:Q. apply sign_parts in Q. destruct Q as (Sg & -> & _).
  destruct (scan_int r) as [[i r1]|] eqn:Q1.
  - apply scan_int_parts in Q1. destruct Q1 as (Hi & -> & _). destruct (strip_prefix "." r1) as [r2|] eqn:Q2; [|discriminate].
    destruct r1 as [|c r1]; [discriminate|]. cbn [strip_prefix] in Q2. destruct (Ascii.eqb "." c) eqn:Ec; [|discriminate]. apply Ascii.eqb_eq in Ec. subst c. injection Q2 as <-.
    destruct (scan_int r1) as [[f r3]|] eqn:Q3; [|discriminate]. apply scan_int_parts in Q3. destruct Q3 as (Hf & -> & Hs). intros H. injection H as <- <-.
    split; [|split; [rewrite !app_assoc_s; reflexivity|exact Hs]]. exists g, i, f. repeat split; auto.
  - cbv zeta. destruct (strip_prefix "." r) as [r2|] eqn:Q2; [|discriminate].
    destruct r as [|c r]; [discriminate|]. cbn [strip_prefix] in Q2. destruct (Ascii.eqb "." c) eqn:Ec; [|discriminate]. apply Ascii.eqb_eq in Ec. subst c. injection Q2 as <-.
    destruct (scan_int r) as [[f r3]|] eqn:Q3; [|discriminate]. apply scan_int_parts in Q3. destruct Q3 as (Hf & -> & Hs). intros H. injection H as <- <-.
    split; [|split; [rewrite !app_assoc_s; reflexivity|exact Hs]]. exists g, "", f. repeat split; auto.
Qed.
(** the two signs of a fraction can be told apart: the first one is scanned first *)
Lemma fraction_norm s : fraction s -> exists g i f, sign g /\ (i = "" \/ integer i) /\ integer f /\ s = (g ++ (i ++ ("." ++ f)))%string /\
  scan_sign s = (g, (i ++ ("." ++ f))%string).
Proof.
  intros (g & i & f & Sg & [->|Hi] & Hf & ->).
  - exists g, "", f. repeat split; auto. apply sign_back; [exact Sg|reflexivity].
  - destruct Sg as [->|Sg].
    + destruct Hi as (g & d & Sg & Nd & ->). exists g, d, f. split; [exact Sg|]. split; [right; exists "", d; split; [left; reflexivity|split; [exact Nd|reflexivity]]|].
      split; [exact Hf|]. cbn [append]. rewrite app_assoc_s. split; [reflexivity|]. apply sign_back; [exact Sg|]. apply digit_no_sign, Nd.
    + exists g, i, f. split; [right; exact Sg|]. repeat split; auto. destruct Sg as [->| ->]; reflexivity.
Qed.
Lemma sign_app s g r b : s <> "" -> scan_sign s = (g, r) -> scan_sign (s ++ b)%string = (g, (r ++ b)%string).
Proof. intros Hs. destruct s as [|c s]; [congruence|]. cbn [append scan_sign]. destruct (_ || _)%bool; intros H; injection H as <- <-; reflexivity. Qed.
Lemma fraction_ne s : fraction s -> s <> "".
Proof. intros (g & i & f & Sg & _ & _ & ->) H. destruct Sg as [->|[->| ->]]; try discriminate. destruct i; discriminate. Qed.
Lemma scan_float_some s b : fraction s -> exists a' b', scan_float (s ++ b)%string = Some (a', b').
Proof.
  intros H. destruct (fraction_norm s H) as (g & i & f & Sg & Hi & Hf & Es & Q). unfold scan_float.
  rewrite (sign_app s _ _ b (fraction_ne s H) Q). destruct (scan_int_some f b Hf) as (f' & b' & Qf).
  destruct Hi as [->|Hi].
  - cbn [append]. rewrite dot_no_int. cbn [strip_prefix]. change (Ascii.eqb "." ".") with true. cbv iota. rewrite Qf. eauto.
  - rewrite !app_assoc_s. rewrite (scan_int_back i _ Hi) by reflexivity. cbn [append strip_prefix]. change (Ascii.eqb "." ".") with true. cbv iota. rewrite Qf. eauto.
Qed.
Lemma scan_float_back s b : fraction s -> stop_digit b -> scan_float (s ++ b)%string = Some (s, b).
Proof.
  intros H Hb. destruct (fraction_norm s H) as (g & i & f & Sg & Hi & Hf & Es & Q). unfold scan_float.
  rewrite (sign_app s _ _ b (fraction_ne s H) Q). assert (Qf := scan_int_back f b Hf Hb).
  destruct Hi as [->|Hi].
  - cbn [append]. rewrite dot_no_int. cbn [strip_prefix]. change (Ascii.eqb "." ".") with true. cbv iota. rewrite Qf, Es. reflexivity.
  - rewrite !app_assoc_s. rewrite (scan_int_back i _ Hi) by reflexivity. cbn [append strip_prefix]. change (Ascii.eqb "." ".") with true. cbv iota. rewrite Qf, Es. reflexivity.
Qed.
(** after an integer comes no dot: no fraction is scanned *)
Lemma int_no_float a b : integer a -> stop_digit b -> starts_with "." b = false -> scan_float (a ++ b)%string = None.
Proof.
  intros (g & d & Sg & Nd & ->) Hb Hd. unfold scan_float. rewrite app_assoc_s, (sign_back g _ Sg (digit_no_sign d b Nd)).
  assert (Hi : integer d) by (exists "", d; split; [left; reflexivity|split; [exact Nd|reflexivity]]). rewrite (scan_int_back d b Hi Hb).
  unfold starts_with in Hd. destruct (strip_prefix "." b); [discriminate|reflexivity].
Qed.

Lemma scan_e_parts s a b : scan_e s = Some (a, b) -> exponential a /\ s = (a ++ b)%string /\ stop_digit b.
Proof.
  unfold scan_e. intros H.
  assert (G : exists m r, (match scan_float s with Some x => Some x | None => scan_int s end) = Some (m, r) /\ mantissa m /\ s = (m ++ r)%string).
  { destruct (scan_float s) as [[m r]|] eqn:Q.
    - apply scan_float_parts in Q. exists m, r. split; [reflexivity|]. split; [left|]; apply Q.
    - destruct (scan_int s) as [[m r]|] eqn:Q'; [|discriminate]. apply scan_int_parts in Q'. exists m, r. split; [reflexivity|]. split; [right|]; apply Q'. }
  destruct G as (m & r & Q & Hm & ->). rewrite Q in H. destruct r as [|c r]; [discriminate|]. destruct (_ || _)%bool eqn:Qe; [|discriminate].
  destruct (scan_int r) as [[e r']|] eqn:Qi; [|discriminate]. injection H as <- <-. apply scan_int_parts in Qi. destruct Qi as (He & -> & Hs).
  split; [|split; [rewrite app_assoc_s; reflexivity|exact Hs]]. exists m, (String c ""), e. split; [exact Hm|]. split; [|split; [exact He|reflexivity]].
  apply orb_true_iff in Qe. destruct Qe as [Qe|Qe]; apply Ascii.eqb_eq in Qe; subst c; auto.
Qed.
Lemma mantissa_scan m r : mantissa m -> stop_digit r -> starts_with "." r = false ->
  (match scan_float (m ++ r)%string with Some x => Some x | None => scan_int (m ++ r)%string end) = Some (m, r).
Proof.
  intros [H|H] Hr Hd; [rewrite (scan_float_back m r H Hr); reflexivity|]. rewrite (int_no_float m r H Hr Hd). apply scan_int_back; assumption.
Qed.

(** A text is one number of the grammar exactly when it is a numeral. *)
Theorem C83_numbers t : number_text t <-> numeral t.
Proof.
  unfold number_text, scan_number. split.
  - destruct (scan_e t) as [[a b]|] eqn:Q.
    + intros H. injection H as -> ->. right. apply (scan_e_parts _ _ _ Q).
    + intros H. left. destruct (scan_float t) as [[a b]|] eqn:Q1.
      * injection H as -> ->. left. apply (scan_float_parts _ _ _ Q1).
      * right. apply (scan_int_parts _ _ _ H).
  - intros [H|(m & e & x & Hm & He & Hx & ->)].
    + assert (G := mantissa_scan t "" H eq_refl eq_refl). rewrite app_nil_s in G. assert (Qe : scan_e t = None) by (unfold scan_e; rewrite G; reflexivity).
      rewrite Qe. exact G.
    + unfold scan_e. rewrite (mantissa_scan m (e ++ x)%string Hm) by (destruct He as [->| ->]; reflexivity).
      assert (Q : scan_int x = Some (x, "")) by (rewrite <- (app_nil_s x) at 1; apply scan_int_back; [exact Hx|reflexivity]).
      destruct He as [->| ->]; cbn [append]; change ((Ascii.eqb _ _ || Ascii.eqb _ _)%bool) with true; cbv iota; rewrite Q; reflexivity.
Qed.

(** A word can be the value of a clause when no number can be read off its beginning, or when it is a
    number as a whole. *)
Theorem C83_values v : one_value v <-> numeral v \/ (plain v /\ forall a b, v = (a ++ b)%string -> ~ numeral a).
Proof.
  unfold one_value. rewrite C83_numbers.
  assert (G : scan_number v = None <-> forall a b, v = (a ++ b)%string -> ~ numeral a).
  { split.
    - intros H a b -> Hn. unfold scan_number in H. destruct (scan_e _); [discriminate|]. destruct (scan_float (a ++ b)%string) eqn:Qf; [discriminate|].
      assert (M : forall m r, mantissa m -> (a ++ b)%string = (m ++ r)%string -> False).
      { intros m r [Hm|Hm] Q; rewrite Q in *.
        - destruct (scan_float_some m r Hm) as (u & w & K). congruence.
        - destruct (scan_int_some m r Hm) as (u & w & K). congruence. }
      destruct Hn as [Hn|(m & e & x & Hm & _ & _ & Q)]; [apply (M a b Hn eq_refl)|]. apply (M m ((e ++ x) ++ b)%string Hm). rewrite Q, !app_assoc_s. reflexivity.
    - intros H. unfold scan_number. destruct (scan_e v) as [[a b]|] eqn:Q1.
      { exfalso. apply scan_e_parts in Q1. destruct Q1 as (K & Q & _). apply (H a b Q). right. exact K. }
      destruct (scan_float v) as [[a b]|] eqn:Q2.
      { exfalso. apply scan_float_parts in Q2. destruct Q2 as (K & Q & _). apply (H a b Q). left. left. exact K. }
      destruct (scan_int v) as [[a b]|] eqn:Q3; [|reflexivity].
      exfalso. apply scan_int_parts in Q3. destruct Q3 as (K & Q & _). apply (H a b Q). left. right. exact K. }
  rewrite G. reflexivity.
Qed.

Example C83_words_case : plain "some-word_1" /\ ~ plain "two words" /\ numeral "1e-05" /\ numeral "-2.5" /\ ~ numeral "1,5" /\ one_value "mlp" /\ ~ one_value "3rd".
Proof.
  split; [split; [discriminate|reflexivity]|]. split; [intros [_ H]; vm_compute in H; discriminate|].
  split; [apply C83_numbers; reflexivity|]. split; [apply C83_numbers; reflexivity|]. split; [rewrite <- C83_numbers; intros H; vm_compute in H; discriminate|].
  split; [right; split; [split; [discriminate|reflexivity]|reflexivity]|]. intros [H|[_ H]]; vm_compute in H; discriminate.
Qed.
