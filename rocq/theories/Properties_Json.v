(** * Property C94: to_json and from_json *)
From Coq Require Import String Ascii List ZArith QArith Bool Lia Arith.
From Coq Require DecimalString DecimalZ Decimal.
From Verif Require Import Base ListFacts Numeric HP HPProofs Fix Cond Forb Dag Space SpaceProofs AddProofs Serial Properties_Serial PcsText Json.
Import ListNotations.
Open Scope string_scope.
Open Scope nat_scope.

(** ** Specification: the texts of a value, after RFC 8259 *)
Inductive blank : string -> Prop :=
| blank_nil : blank ""
| blank_cons c s : In (nat_of_ascii c) [32; 9; 10; 13] -> blank s -> blank (String c s).

(** the digit with value [n] *)
Definition hex (c : ascii) (n : nat) : Prop :=
  n < 10 /\ nat_of_ascii c = 48 + n \/ 10 <= n < 16 /\ (nat_of_ascii c = 87 + n \/ nat_of_ascii c = 55 + n).
(** letter after the backslash, code of the character *)
Definition escape (e c : nat) : Prop :=
  In (e, c) [(34, 34); (92, 92); (47, 47); (98, 8); (102, 12); (110, 10); (114, 13); (116, 9)].
(** [chars s t]: [t] between quotes is a text of the string [s] *)
Inductive chars : string -> string -> Prop :=
| chars_nil : chars "" ""
| chars_plain c s t : 32 <= nat_of_ascii c -> nat_of_ascii c <> 34 -> nat_of_ascii c <> 92 -> chars s t -> chars (String c s) (String c t)
| chars_esc e c s t : escape (nat_of_ascii e) (nat_of_ascii c) -> chars s t -> chars (String c s) (String bs (String e t))
| chars_hex x y a b c s t : hex x a -> hex y b -> nat_of_ascii c = 16 * a + b -> chars s t ->
    chars (String c s) (String bs (String "u" (String "0" (String "0" (String x (String y t)))))).

Inductive decimals : string -> Prop :=
| dec_one c : 48 <= nat_of_ascii c <= 57 -> decimals (String c "")
| dec_more c s : 48 <= nat_of_ascii c <= 57 -> decimals s -> decimals (String c s).
(** fraction and exponent *)
Inductive fraction : string -> Prop :=
| frac_none : fraction ""
| frac_some s : decimals s -> fraction (String "." s).
Inductive exponent : string -> Prop :=
| exp_none : exponent ""
| exp_some e s : e = "e"%char \/ e = "E"%char -> decimals s -> exponent (String e s)
| exp_sign e g s : e = "e"%char \/ e = "E"%char -> g = "+"%char \/ g = "-"%char -> decimals s -> exponent (String e (String g s)).
(** the texts of integers: what str() gives, and minus zero *)
Inductive integer : string -> Z -> Prop :=
| integer_str z : integer (z_str z) z
| integer_neg0 : integer "-0" 0.
Definition float_literal (t : string) : Prop :=
  exists i z f e, t = (i ++ f ++ e)%string /\ integer i z /\ fraction f /\ exponent e /\ (f ++ e)%string <> "".

Section Spec.
  Variable T : text.
  (** [denotes d t]: [t] is a JSON text of [d] *)
  Inductive denotes : data -> string -> Prop :=
  | den_null : denotes (DVal VNone) "null"
  | den_true : denotes (DVal (VBool true)) "true"
  | den_false : denotes (DVal (VBool false)) "false"
  | den_str s t : chars s t -> denotes (DVal (VStr s)) (String dq (t ++ String dq ""))
  | den_int z t : integer t z -> denotes (DVal (VInt z)) t
  | den_float q t : float_literal t -> tx_float T t = Some q -> denotes (DVal (VFloat q)) t
  | den_empty w : blank w -> denotes (DList []) (String "[" (w ++ "]"))
  | den_list l t : elements l t -> denotes (DList l) (String "[" (t ++ "]"))
  | den_empty_dict w : blank w -> denotes (DDict []) (String "{" (w ++ "}"))
  | den_dict ps t : members ps t -> denotes (DDict (dict_of ps)) (String "{" (t ++ "}"))
  with elements : list data -> string -> Prop :=
  | elem_one d w t w' : blank w -> denotes d t -> blank w' -> elements [d] (w ++ t ++ w')
  | elem_more d l w t w' t' : blank w -> denotes d t -> blank w' -> elements l t' -> elements (d :: l) (w ++ t ++ w' ++ String "," t')
  with members : list (string * data) -> string -> Prop :=
  | memb_one k d w kt w1 w2 t w' : blank w -> chars k kt -> blank w1 -> blank w2 -> denotes d t -> blank w' ->
      members [(k, d)] (w ++ String dq (kt ++ String dq (w1 ++ String ":" (w2 ++ t ++ w'))))
  | memb_more k d l w kt w1 w2 t w' t' : blank w -> chars k kt -> blank w1 -> blank w2 -> denotes d t -> blank w' -> members l t' ->
      members ((k, d) :: l) (w ++ String dq (kt ++ String dq (w1 ++ String ":" (w2 ++ t ++ w' ++ String "," t')))).
End Spec.
(** dict_of, the last entry of a key counts: specification *)
Fixpoint last_entry (k : string) (ps : list (string * data)) : option data :=
  match ps with
  | [] => None
  | (k', d) :: ps' => match last_entry k ps' with Some x => Some x | None => if String.eqb k k' then Some d else None end
  end.

Scheme denotes_mut := Induction for denotes Sort Prop
with elements_mut := Induction for elements Sort Prop
with members_mut := Induction for members Sort Prop.
Combined Scheme denotes_ind3 from denotes_mut, elements_mut, members_mut.

(** ** Strings *)
Lemma app_s_assoc a b c : ((a ++ b) ++ c = a ++ b ++ c)%string.
Proof. induction a; simpl; congruence. Qed.
Lemma app_s_nil a : (a ++ "" = a)%string.
Proof. induction a; simpl; congruence. Qed.
Lemma app_s_len a b : String.length (a ++ b) = String.length a + String.length b.
Proof. induction a; simpl; congruence. Qed.

(** ** Blanks *)
Lemma is_ws_iff c : is_ws c = true <-> In (nat_of_ascii c) [32; 9; 10; 13].
Proof. unfold is_ws, code. cbv zeta. rewrite !orb_true_iff, !Nat.eqb_eq. simpl. intuition lia. Qed.
(** does not start with a blank *)
Definition solid (s : string) : Prop := match s with String c _ => is_ws c = false | EmptyString => True end.
Lemma skip_ws_blank w s : blank w -> skip_ws (w ++ s) = skip_ws s.
Proof. induction 1 as [|c w H B IH]; [reflexivity|]. simpl. rewrite (proj2 (is_ws_iff c) H). exact IH. Qed.
Lemma skip_ws_solid s : solid s -> skip_ws s = s.
Proof. destruct s as [|c s]; simpl; [auto|]. intros ->. reflexivity. Qed.
Lemma skip_ws_split s : exists w, blank w /\ s = (w ++ skip_ws s)%string /\ solid (skip_ws s).
Proof.
  induction s as [|c s IH]; [exists ""; split; [constructor|split; [reflexivity|exact I]]|]. simpl. destruct (is_ws c) eqn:W.
  - destruct IH as (w & B & Q & S). exists (String c w). split; [constructor; [apply is_ws_iff, W|exact B]|]. split; [simpl; congruence|exact S].
  - exists "". split; [constructor|]. split; [reflexivity|exact W].
Qed.
Lemma blank_app a b : blank a -> blank b -> blank (a ++ b).
Proof. induction 1; simpl; [auto|]. intros H1. constructor; auto. Qed.
Lemma skip_ws_len s : String.length (skip_ws s) <= String.length s.
Proof. induction s as [|c s IH]; simpl; [lia|]. destruct (is_ws c); simpl; lia. Qed.

(** ** Strings in quotes *)
Lemma code_inj a b : nat_of_ascii a = nat_of_ascii b -> a = b.
Proof. intros H. rewrite <- (ascii_nat_embedding a), <- (ascii_nat_embedding b), H. reflexivity. Qed.
Lemma code_of n : n < 256 -> nat_of_ascii (ascii_of_nat n) = n.
Proof. apply nat_ascii_embedding. Qed.
Lemma hex_val_iff c n : hex_val c = Some n <-> hex c n.
Proof.
  unfold hex_val, hex, code. cbv zeta. destruct (Nat.leb_spec 48 (nat_of_ascii c)), (Nat.leb_spec (nat_of_ascii c) 57); cbn [andb].
  all: try (split; [intros Q; injection Q as <-|intros Q; f_equal]; lia).
  all: destruct (Nat.leb_spec 97 (nat_of_ascii c)), (Nat.leb_spec (nat_of_ascii c) 102); cbn [andb].
  all: try (split; [intros Q; injection Q as <-|intros Q; f_equal]; lia).
  all: destruct (Nat.leb_spec 65 (nat_of_ascii c)), (Nat.leb_spec (nat_of_ascii c) 70); cbn [andb].
  all: try (split; [intros Q; injection Q as <-|intros Q; f_equal]; lia).
  all: split; [discriminate|intros Q; exfalso; lia].
Qed.
Lemma back_char_iff e c : back_char e = Some c <-> escape (nat_of_ascii e) (nat_of_ascii c).
Proof.
  unfold back_char, escape, code. cbv zeta. split.
  - repeat match goal with |- (if ?a =? ?b then _ else _) = _ -> _ => destruct (Nat.eqb_spec a b) as [He|?] end; intros Q; try discriminate; injection Q as <-; rewrite He; simpl; auto 12.
  - intros H. repeat (destruct H as [H|H]; [injection H as H1 H2; rewrite <- H1; simpl; f_equal; apply code_inj; rewrite <- H2; try reflexivity; congruence|]). destruct H.
Qed.
Lemma if_eqb_false {A} a b (x y : A) : a <> b -> (if a =? b then x else y) = y.
Proof. intros H. apply Nat.eqb_neq in H. rewrite H. reflexivity. Qed.

Lemma scan_str_complete s t rest : chars s t -> scan_str (t ++ String dq rest) = Ok (s, rest).
Proof.
  induction 1 as [|c s t H1 H2 H3 _ IH|e c s t H _ IH|x y a b c s t Hx Hy Hc _ IH].
  - reflexivity.
  - cbn [append scan_str]. unfold code. rewrite !if_eqb_false by assumption. destruct (Nat.ltb_spec (nat_of_ascii c) 32); [lia|]. rewrite IH. reflexivity.
  - cbn [append scan_str]. change (code bs =? 34) with false. change (code bs =? 92) with true. cbn iota.
    assert (K : code e =? 117 = false). { unfold code. apply Nat.eqb_neq. intros Q. rewrite Q in H. unfold escape in H. repeat (destruct H as [H|H]; [discriminate|]). destruct H. }
    rewrite K, (proj2 (back_char_iff e c) H), IH. reflexivity.
  - cbn [append scan_str]. change (code bs =? 34) with false. change (code bs =? 92) with true. change (code "u" =? 117) with true. cbn iota.
    change (hex_val "0") with (Some 0). rewrite (proj2 (hex_val_iff x a) Hx), (proj2 (hex_val_iff y b) Hy). cbn [Nat.eqb andb]. rewrite IH. cbn [bind fst snd].
    do 3 f_equal. apply code_inj. rewrite Hc. apply code_of. destruct Hx as [[? _]|[? _]], Hy as [[? _]|[? _]]; lia.
Qed.
Lemma scan_str_sound n : forall t s rest, String.length t <= n -> scan_str t = Ok (s, rest) -> exists t', t = (t' ++ String dq rest)%string /\ chars s t'.
Proof.
  induction n as [|n IH]; intros [|c t] s rest L H; try discriminate; [simpl in L; lia|]. cbn [scan_str] in H. cbn [String.length] in L.
  destruct (Nat.eqb_spec (code c) 34) as [Q|Q].
  { injection H as <- <-. exists "". split; [|constructor]. simpl. f_equal. apply code_inj, Q. }
  destruct (Nat.eqb_spec (code c) 92) as [Q'|Q'].
  - assert (c = bs) by apply code_inj, Q'. subst c. destruct t as [|e t]; [discriminate|]. cbn [String.length] in L. destruct (Nat.eqb_spec (code e) 117) as [Qe|Qe].
    + assert (e = "u"%char) by apply code_inj, Qe. subst e. destruct t as [|a [|b [|x [|y t]]]]; try discriminate. cbn [String.length] in L.
      destruct (hex_val a) as [na|] eqn:Ha; [|discriminate]. destruct (hex_val b) as [nb|] eqn:Hb; [|discriminate].
      destruct (hex_val x) as [nx|] eqn:Hx; [|discriminate]. destruct (hex_val y) as [ny|] eqn:Hy; [|discriminate].
      destruct (Nat.eqb_spec na 0) as [->|]; cbn [andb] in H; [|discriminate]. destruct (Nat.eqb_spec nb 0) as [->|]; [|discriminate].
      apply hex_val_iff in Ha, Hb, Hx, Hy.
      assert (a = "0"%char) by (apply code_inj; destruct Ha as [[_ ->]|[? _]]; [reflexivity|lia]). subst a.
      assert (b = "0"%char) by (apply code_inj; destruct Hb as [[_ ->]|[? _]]; [reflexivity|lia]). subst b.
      destruct (scan_str t) as [[s1 r1]|] eqn:Hs; [|discriminate]. cbn [bind fst snd] in H. injection H as <- <-.
      apply IH in Hs; [|lia]. destruct Hs as (t' & -> & C). eexists (String bs (String "u" (String "0" (String "0" (String x (String y t')))))). split; [reflexivity|].
      apply (chars_hex x y nx ny); auto. apply code_of. destruct Hx as [[? _]|[? _]], Hy as [[? _]|[? _]]; lia.
    + destruct (back_char e) as [x|] eqn:He; [|discriminate]. apply back_char_iff in He. destruct (scan_str t) as [[s1 r1]|] eqn:Hs; [|discriminate]. cbn [bind fst snd] in H. injection H as <- <-.
      apply IH in Hs; [|lia]. destruct Hs as (t' & -> & C). exists (String bs (String e t')). split; [reflexivity|]. constructor; assumption.
  - destruct (Nat.ltb_spec (code c) 32); [discriminate|]. destruct (scan_str t) as [[s1 r1]|] eqn:Hs; [|discriminate]. cbn [bind fst snd] in H. injection H as <- <-.
    apply IH in Hs; [|lia]. destruct Hs as (t' & -> & C). exists (String c t'). split; [reflexivity|]. constructor; assumption.
Qed.

(** ** Numbers *)
Definition no_digit (s : string) : Prop := match s with String c _ => is_digit c = false | EmptyString => True end.
Lemma is_digit_iff c : is_digit c = true <-> 48 <= nat_of_ascii c <= 57.
Proof. unfold is_digit, code. cbv zeta. rewrite andb_true_iff, !Nat.leb_le. tauto. Qed.
Lemma digits_split s : exists d r, digits s = (d, r) /\ s = (d ++ r)%string /\ (d = "" \/ decimals d) /\ no_digit r.
Proof.
  induction s as [|c s (d & r & Q & S & D & N)]; [exists "", ""; repeat split; auto|]. simpl. destruct (is_digit c) eqn:K.
  - rewrite Q. exists (String c d), r. split; [reflexivity|]. split; [simpl; congruence|]. split; [|exact N]. right. apply is_digit_iff in K.
    destruct D as [->|D]; [apply dec_one, K|apply dec_more; assumption].
  - exists "", (String c s). repeat split; auto.
Qed.
Lemma digits_complete d r : decimals d -> no_digit r -> digits (d ++ r) = (d, r).
Proof.
  intros D N. assert (B : digits r = ("", r)) by (destruct r as [|c r]; simpl in *; [reflexivity|rewrite N; reflexivity]).
  induction D as [c H|c d H D IH]; cbn [append digits]; rewrite (proj2 (is_digit_iff c) H); [rewrite B|rewrite IH]; reflexivity.
Qed.
(** digits without a leading zero *)
Definition canon (d : string) : Prop := d = "0" \/ exists c d', d = String c d' /\ 49 <= nat_of_ascii c <= 57 /\ decimals d.
Lemma scan_nat_complete d r : canon d -> no_digit r -> scan_nat (d ++ r) = Some (d, r).
Proof.
  intros [->|(c & d' & -> & H & D)] N; [reflexivity|]. cbn [append scan_nat]. unfold code. rewrite if_eqb_false by lia. rewrite (proj2 (is_digit_iff c)) by lia.
  change (String c (d' ++ r)) with (String c d' ++ r)%string. rewrite digits_complete by assumption. reflexivity.
Qed.
Lemma scan_nat_sound s d r : scan_nat s = Some (d, r) -> s = (d ++ r)%string /\ canon d.
Proof.
  destruct s as [|c s]; [discriminate|]. unfold scan_nat. destruct (Nat.eqb_spec (code c) 48) as [Q|Q].
  - intros H. injection H as <- <-. split; [reflexivity|]. left. f_equal. apply code_inj, Q.
  - destruct (is_digit c) eqn:K; [|discriminate]. intros H0. assert (H : digits (String c s) = (d, r)) by congruence. clear H0. destruct (digits_split (String c s)) as (d1 & r1 & Q1 & S & D & _).
    rewrite H in Q1. injection Q1 as <- <-. split; [exact S|]. right. destruct D as [->|D].
    + cbn [digits] in H. rewrite K in H. destruct (digits s). discriminate.
    + destruct d as [|c' d']; [inversion D|]. injection S as <- _. apply is_digit_iff in K. unfold code in Q. exists c, d'. split; [reflexivity|]. split; [lia|exact D].
Qed.

Import Decimal DecimalString.
Lemma digit_uint c : 48 <= nat_of_ascii c <= 57 -> exists f : uint -> uint, (forall u, NilEmpty.string_of_uint (f u) = String c (NilEmpty.string_of_uint u)) /\
  (forall u, f u <> Nil) /\ (nat_of_ascii c <> 48 -> forall u, Decimal.nzhead (f u) = f u).
Proof.
  intros H. assert (K : exists k, k < 10 /\ c = ascii_of_nat (48 + k)).
  { exists (nat_of_ascii c - 48). split; [lia|]. apply code_inj. rewrite code_of by lia. lia. }
  destruct K as (k & Hk & ->). destruct k as [|[|[|[|[|[|[|[|[|[|k]]]]]]]]]]; [exists D0|exists D1|exists D2|exists D3|exists D4|exists D5|exists D6|exists D7|exists D8|exists D9|lia].
  all: split; [reflexivity|]; split; [discriminate|]; intros Q; try reflexivity. elim Q. reflexivity.
Qed.
Lemma decimals_uint d : decimals d -> exists u, NilEmpty.string_of_uint u = d /\ u <> Nil.
Proof.
  induction 1 as [c H|c d H _ (u & U & _)]; destruct (digit_uint c H) as (f & F & Nn & _).
  - exists (f Nil). rewrite F. auto.
  - exists (f u). rewrite F, U. auto.
Qed.
Lemma canon_uint d : canon d -> exists u, NilEmpty.string_of_uint u = d /\ u <> Nil /\ unorm u = u.
Proof.
  intros [->|(c & d' & -> & H & D)]; [exists (D0 Nil); repeat split; discriminate|].
  assert (H' : 48 <= nat_of_ascii c <= 57) by lia. destruct (digit_uint c H') as (f & F & Nn & Z).
  assert (U : exists u, NilEmpty.string_of_uint u = d').
  { inversion D as [c0 Hc|c0 s0 Hc Ds]; subst; [exists Nil; reflexivity|]. destruct (decimals_uint _ Ds) as (u & U & _). eauto. }
  destruct U as (u & <-). exists (f u). rewrite F. split; [reflexivity|]. split; [apply Nn|]. unfold unorm. rewrite Z by lia. destruct (f u) eqn:Q; try reflexivity. elim (Nn u Q).
Qed.
Lemma nz_string u : u <> Nil -> NilZero.string_of_uint u = NilEmpty.string_of_uint u.
Proof. destruct u; auto. intros H. elim H. reflexivity. Qed.
Lemma canon_z d : canon d -> exists z, z_str z = d.
Proof.
  intros H. destruct (canon_uint d H) as (u & <- & Nn & Un). exists (Z.of_int (Pos u)). unfold z_str. rewrite DecimalZ.to_of. cbn [norm]. rewrite Un. apply nz_string, Nn.
Qed.
Lemma canon_neg d : canon d -> exists z, integer (String "-" d) z.
Proof.
  intros H. destruct (canon_uint d H) as (u & <- & Nn & Un). destruct (Z.eq_dec (Z.of_int (Pos u)) 0) as [Q|Q].
  - assert (K := DecimalZ.to_of (Pos u)). rewrite Q in K. cbn [norm] in K. rewrite Un in K. injection K as <-. exists 0%Z. apply integer_neg0.
  - assert (K : z_str (Z.of_int (Neg u)) = String "-" (NilEmpty.string_of_uint u)).
    { unfold z_str. rewrite DecimalZ.to_of. cbn [norm]. assert (Hn : nzhead u = u).
      { unfold unorm in Un. destruct (nzhead u) eqn:Z; try exact Un. rewrite <- Un in Q. elim Q. reflexivity. }
      rewrite Hn. destruct u; cbn [NilZero.string_of_int]; try (rewrite nz_string by discriminate; reflexivity). elim Nn. reflexivity. }
    exists (Z.of_int (Neg u)). rewrite <- K. apply integer_str.
Qed.
Lemma unorm_canon u : u <> Nil -> unorm u = u -> canon (NilEmpty.string_of_uint u).
Proof.
  assert (D : forall u, u <> Nil -> decimals (NilEmpty.string_of_uint u)).
  { induction u0; intros Nn; [elim Nn; reflexivity|..]; cbn [NilEmpty.string_of_uint]; (destruct u0; [apply dec_one; vm_compute; lia|..]); apply dec_more; try (vm_compute; lia); apply IHu0; discriminate. }
  intros Nn Un. assert (Du := D u Nn). destruct u; [elim Nn; reflexivity|..].
  1: { unfold unorm in Un. cbn [nzhead] in Un. destruct (nzhead u) eqn:Z; try (injection Un as <-; left; reflexivity); try discriminate. elim (DecimalFacts.nzhead_nonzero _ _ Z). }
  all: right; cbn [NilEmpty.string_of_uint] in *; do 2 eexists; (split; [reflexivity|]); (split; [vm_compute; lia|exact Du]).
Qed.
Lemma z_canon z : canon (z_str z) \/ exists d, z_str z = String "-" d /\ canon d.
Proof.
  assert (N : norm (Z.to_int z) = Z.to_int z) by (rewrite <- DecimalZ.to_of, DecimalZ.of_to; reflexivity).
  unfold z_str. destruct (Z.to_int z) as [u|u]; cbn [norm] in N.
  - left. injection N as N. assert (u <> Nil) by (intros ->; discriminate). cbn [NilZero.string_of_int]. rewrite nz_string by assumption. apply unorm_canon; assumption.
  - right. assert (U : u <> Nil /\ unorm u = u).
    { destruct (nzhead u) eqn:Z; try discriminate; injection N as N; subst u; split; try discriminate; unfold unorm; rewrite Z; reflexivity. }
    destruct U as [Nn Un]. exists (NilEmpty.string_of_uint u). split; [cbn [NilZero.string_of_int]; rewrite nz_string by exact Nn; reflexivity|]. apply unorm_canon; assumption.
Qed.
Lemma int_of_str z : int_of (z_str z) = Some z.
Proof. unfold int_of, z_str. rewrite NilZero.isi. - cbn [option_map]. rewrite DecimalZ.of_to. reflexivity. 
  - destruct z as [|p|p]; cbn; try discriminate; unfold Pos.to_uint; intro Q; injection Q as Q; revert Q; apply DecimalPos.Unsigned.to_uint_nonnil.
  - destruct z as [|p|p]; cbn; try discriminate; unfold Pos.to_uint; intro Q; injection Q as Q; revert Q; apply DecimalPos.Unsigned.to_uint_nonnil.
Qed.
(** [canon] with an optional sign is [integer] *)
Lemma integer_cases t z : integer t z -> canon t \/ exists d, t = String "-" d /\ canon d.
Proof. intros [z'|]; [apply z_canon|]. right. exists "0". split; [reflexivity|left; reflexivity]. Qed.
Lemma canon_head d : canon d -> exists c d', d = String c d' /\ 48 <= nat_of_ascii c <= 57.
Proof. intros [->|(c & d' & -> & H & _)]; [exists "0"%char, ""; split; [reflexivity|vm_compute; lia]|exists c, d'; split; [reflexivity|lia]]. Qed.
Lemma scan_int_complete t z r : integer t z -> no_digit r -> scan_int (t ++ r) = Some (t, r).
Proof.
  intros H N. destruct (integer_cases t z H) as [C|(d & -> & C)].
  - assert (S := scan_nat_complete t r C N). destruct (canon_head t C) as (c & d' & -> & Hc). cbn [append] in *. unfold scan_int, code. rewrite if_eqb_false by lia. exact S.
  - cbn [append]. unfold scan_int. change (code "-" =? 45) with true. cbn iota. rewrite (scan_nat_complete d r C N). reflexivity.
Qed.
Lemma scan_int_sound s i r : scan_int s = Some (i, r) -> s = (i ++ r)%string /\ exists z, integer i z.
Proof.
  destruct s as [|c s]; [discriminate|]. unfold scan_int. destruct (Nat.eqb_spec (code c) 45) as [Q|Q].
  - destruct (scan_nat s) as [[d r']|] eqn:S; [|discriminate]. intros H. injection H as <- <-. apply scan_nat_sound in S. destruct S as [-> C].
    assert (c = "-"%char) by apply code_inj, Q. subst c. split; [reflexivity|]. apply canon_neg, C.
  - intros S. apply scan_nat_sound in S. destruct S as [-> C]. split; [reflexivity|]. destruct (canon_z i C) as (z & <-). exists z. constructor.
Qed.
Lemma int_of_integer t z : integer t z -> int_of t = Some z.
Proof. intros [z'|]; [apply int_of_str|reflexivity]. Qed.

Lemma digits_nil s : no_digit s -> digits s = ("", s).
Proof. destruct s as [|c s]; [reflexivity|]. simpl. intros ->. reflexivity. Qed.
Definition no_frac (s : string) : Prop := match s with String c _ => nat_of_ascii c <> 46 | EmptyString => True end.
Definition no_exp (s : string) : Prop := match s with String c _ => nat_of_ascii c <> 69 /\ nat_of_ascii c <> 101 | EmptyString => True end.
Lemma decimals_cons d : decimals d -> exists c d', d = String c d'.
Proof. intros [c ?|c s ? ?]; eauto. Qed.
Lemma scan_frac_complete f r : fraction f -> no_digit r -> (f = "" -> no_frac r) -> scan_frac (f ++ r) = (f, r).
Proof.
  intros [|d D] N F.
  - specialize (F eq_refl). destruct r as [|c r]; [reflexivity|]. cbn [append scan_frac]. unfold code. rewrite if_eqb_false by exact F. reflexivity.
  - cbn [append scan_frac]. change (code "." =? 46) with true. cbn iota. rewrite digits_complete by assumption. destruct (decimals_cons d D) as (c & d' & ->). reflexivity.
Qed.
Lemma scan_frac_sound s f r : scan_frac s = (f, r) -> s = (f ++ r)%string /\ fraction f.
Proof.
  destruct s as [|c s]; [intros H; injection H as <- <-; split; [reflexivity|constructor]|]. unfold scan_frac. destruct (Nat.eqb_spec (code c) 46) as [Q|Q].
  - assert (c = "."%char) by apply code_inj, Q. subst c. destruct (digits_split s) as (d & r' & -> & -> & D & _). destruct d as [|c d]; intros H; injection H as <- <-; (split; [reflexivity|]); [constructor|].
    destruct D as [D|D]; [discriminate|]. constructor. exact D.
  - intros H. injection H as <- <-. split; [reflexivity|constructor].
Qed.
Lemma scan_exp_complete e r : exponent e -> no_digit r -> (e = "" -> no_exp r) -> scan_exp (e ++ r) = (e, r).
Proof.
  intros [|c d Hc D|c g d Hc Hg D] N F.
  - specialize (F eq_refl). destruct r as [|c r]; [reflexivity|]. cbn [append scan_exp]. unfold code. destruct F as [F1 F2]. apply Nat.eqb_neq in F1, F2. rewrite F1, F2. reflexivity.
  - assert (K : ((code c =? 69) || (code c =? 101))%bool = true) by (destruct Hc as [->| ->]; reflexivity). cbn [append]. assert (S := digits_complete d r D N). destruct (decimals_cons d D) as (x & d' & ->).
    cbn [append] in *. cbn [scan_exp]. rewrite K. assert (Hx : 48 <= nat_of_ascii x <= 57) by (inversion D; assumption).
    assert (K2 : ((code x =? 43) || (code x =? 45))%bool = false) by (unfold code; apply orb_false_iff; rewrite !Nat.eqb_neq; lia). rewrite K2, S. reflexivity.
  - assert (K : ((code c =? 69) || (code c =? 101))%bool = true) by (destruct Hc as [->| ->]; reflexivity).
    assert (K2 : ((code g =? 43) || (code g =? 45))%bool = true) by (destruct Hg as [->| ->]; reflexivity). cbn [append scan_exp]. rewrite K, K2, digits_complete by assumption.
    destruct (decimals_cons d D) as (x & d' & ->). reflexivity.
Qed.
Lemma scan_exp_sound s e r : scan_exp s = (e, r) -> s = (e ++ r)%string /\ exponent e.
Proof.
  destruct s as [|c s]; [intros H; injection H as <- <-; split; [reflexivity|constructor]|]. cbn [scan_exp]. destruct ((code c =? 69) || (code c =? 101))%bool eqn:K.
  2: { intros H. injection H as <- <-. split; [reflexivity|constructor]. }
  assert (Hc : c = "e"%char \/ c = "E"%char).
  { apply orb_true_iff in K. rewrite !Nat.eqb_eq in K. destruct K as [K|K]; [right|left]; apply code_inj, K. }
  destruct s as [|g s]; [intros H; injection H as <- <-; split; [reflexivity|constructor]|]. destruct ((code g =? 43) || (code g =? 45))%bool eqn:K2.
  - assert (Hg : g = "+"%char \/ g = "-"%char).
    { apply orb_true_iff in K2. rewrite !Nat.eqb_eq in K2. destruct K2 as [K2|K2]; [left|right]; apply code_inj, K2. }
    destruct (digits_split s) as (d & r' & -> & -> & D & _). destruct d as [|x d]; intros H; injection H as <- <-; (split; [reflexivity|]); [constructor|].
    destruct D as [D|D]; [discriminate|]. apply exp_sign; assumption.
  - destruct (digits_split (String g s)) as (d & r' & -> & -> & D & _). destruct d as [|x d]; intros H; injection H as <- <-; (split; [reflexivity|]); [constructor|].
    destruct D as [D|D]; [discriminate|]. apply exp_some; assumption.
Qed.

(** what may follow a number *)
Definition after (s : string) : Prop := no_digit s /\ no_frac s /\ no_exp s.
Lemma frac_no_digit f r : fraction f -> no_digit r -> no_digit (f ++ r).
Proof. intros [|d D] N; [exact N|reflexivity]. Qed.
Lemma exp_no_digit e r : exponent e -> no_digit r -> no_digit (e ++ r).
Proof. intros [|c d [->| ->] D|c g d [->| ->] _ D] N; [exact N|reflexivity..]. Qed.
Lemma exp_no_frac e r : exponent e -> no_frac r -> no_frac (e ++ r).
Proof. intros [|c d [->| ->] D|c g d [->| ->] _ D] N; [exact N|simpl; vm_compute; lia..]. Qed.

Section Scan.
  Variable T : text.
  Lemma scan_num_int t z r : integer t z -> after r -> scan_num T (t ++ r) = Some (Ok (DVal (VInt z), r)).
  Proof.
    intros H (A1 & A2 & A3). unfold scan_num. rewrite (scan_int_complete t z r H A1). change r with ("" ++ r)%string at 1. rewrite scan_frac_complete by (auto; constructor).
    change r with ("" ++ r)%string at 1. rewrite scan_exp_complete by (auto; constructor). rewrite (int_of_integer t z H). reflexivity.
  Qed.
  Lemma scan_num_float t q r : float_literal t -> tx_float T t = Some q -> after r -> scan_num T (t ++ r) = Some (Ok (DVal (VFloat q), r)).
  Proof.
    intros (i & z & f & e & -> & Hi & Hf & He & Hn) Q (A1 & A2 & A3). unfold scan_num. rewrite !app_s_assoc.
    rewrite (scan_int_complete i z _ Hi) by (apply frac_no_digit; [exact Hf|apply exp_no_digit; assumption]).
    rewrite scan_frac_complete; [|exact Hf|apply exp_no_digit; assumption|intros _; apply exp_no_frac; assumption].
    rewrite scan_exp_complete by auto. rewrite Q. destruct f, e; try reflexivity. elim Hn. reflexivity.
  Qed.
  Lemma scan_num_sound s d r : scan_num T s = Some (Ok (d, r)) -> exists t, s = (t ++ r)%string /\ denotes T d t.
  Proof.
    unfold scan_num. destruct (scan_int s) as [[i r1]|] eqn:Si; [|discriminate]. destruct (scan_frac r1) as [f r2] eqn:Sf. destruct (scan_exp r2) as [e r3] eqn:Se.
    apply scan_int_sound in Si. destruct Si as (-> & z & Hi). apply scan_frac_sound in Sf. destruct Sf as [-> Hf]. apply scan_exp_sound in Se. destruct Se as [-> He].
    intros H. injection H as H.
    assert (K : f = "" /\ e = "" /\ (match int_of i with Some z => Ok (DVal (VInt z), r3) | None => Err Unmodelled end) = Ok (d, r) \/
                (f ++ e)%string <> "" /\ (match tx_float T (i ++ f ++ e)%string with Some q => Ok (DVal (VFloat q), r3) | None => Err Unmodelled end) = Ok (d, r)).
    { destruct f, e; [left; auto|right; split; [discriminate|exact H]..]. }
    destruct K as [(-> & -> & K)|(Hn & K)].
    - rewrite (int_of_integer i z Hi) in K. injection K as <- <-. exists i. split; [reflexivity|]. constructor. exact Hi.
    - destruct (tx_float T (i ++ f ++ e)) as [q|] eqn:Q; [|discriminate]. injection K as <- <-. exists (i ++ f ++ e)%string. rewrite !app_s_assoc. split; [reflexivity|].
      constructor; [|exact Q]. exists i, z, f, e. auto.
  Qed.
End Scan.

Lemma strip_iff p : forall s r, strip p s = Some r <-> s = (p ++ r)%string.
Proof.
  induction p as [|a p IH]; intros s r; simpl; [split; congruence|]. destruct s as [|b s]; [split; discriminate|].
  destruct (Ascii.eqb_spec a b) as [->|Q]; [rewrite IH; split; congruence|]. split; [discriminate|congruence].
Qed.
Lemma strip_head a p b s : nat_of_ascii a <> nat_of_ascii b -> strip (String a p) (String b s) = None.
Proof. intros H. simpl. destruct (Ascii.eqb_spec a b) as [->|]; [elim H; reflexivity|reflexivity]. Qed.

Section Read.
  Variable T : text.
  Lemma scan_S n s : scan T (S n) s =
        match s with
        | EmptyString => Err ValueError
        | String c s' =>
            if code c =? 34 then p <- scan_str s' ;; Ok (DVal (VStr (fst p)), snd p)
            else if code c =? 91 then
              match skip_ws s' with
              | EmptyString => Err ValueError
              | String b r => if code b =? 93 then Ok (DList [], r)
                              else p <- items T n (String b r) ;; Ok (DList (fst p), snd p)
              end
            else if code c =? 123 then
              match skip_ws s' with
              | EmptyString => Err ValueError
              | String b r => if code b =? 125 then Ok (DDict [], r)
                              else p <- pairs T n (String b r) ;; Ok (DDict (dict_of (fst p)), snd p)
              end
            else scan_flat T s
        end.
  Proof. reflexivity. Qed.
  Lemma items_S n s : items T (S n) s =
        p <- scan T n s ;;
        match skip_ws (snd p) with
        | EmptyString => Err ValueError
        | String b r =>
            if code b =? 93 then Ok ([fst p], r)
            else if code b =? 44 then q <- items T n (skip_ws r) ;; Ok (fst p :: fst q, snd q)
            else Err ValueError
        end.
  Proof. reflexivity. Qed.
  Lemma pairs_S n s : pairs T (S n) s =
        match s with
        | EmptyString => Err ValueError
        | String c s' =>
            if code c =? 34 then
              k <- scan_str s' ;;
              match skip_ws (snd k) with
              | EmptyString => Err ValueError
              | String g r =>
                  if code g =? 58 then
                    p <- scan T n (skip_ws r) ;;
                    match skip_ws (snd p) with
                    | EmptyString => Err ValueError
                    | String b r =>
                        if code b =? 125 then Ok ([(fst k, fst p)], r)
                        else if code b =? 44 then q <- pairs T n (skip_ws r) ;; Ok ((fst k, fst p) :: fst q, snd q)
                        else Err ValueError
                    end
                  else Err ValueError
              end
            else Err ValueError
        end.
  Proof. reflexivity. Qed.

  (** the first character of a text *)
  Definition head_ok (c : ascii) : Prop := is_ws c = false /\ ~ In (nat_of_ascii c) [93; 125; 44; 58].
  Lemma digit_head c : 48 <= nat_of_ascii c <= 57 -> head_ok c.
  Proof.
    intros H. split.
    - destruct (is_ws c) eqn:W; [|reflexivity]. apply is_ws_iff in W. simpl in W. lia.
    - simpl. lia.
  Qed.
  Definition num_head (c : ascii) : Prop := 48 <= nat_of_ascii c <= 57 \/ nat_of_ascii c = 45.
  Lemma integer_head t z : integer t z -> exists c t', t = String c t' /\ num_head c.
  Proof.
    intros H. destruct (integer_cases t z H) as [C|(d & -> & C)]; [|exists "-"%char, d; split; [reflexivity|right; reflexivity]].
    destruct (canon_head t C) as (c & t' & -> & Hc). exists c, t'. split; [reflexivity|left; exact Hc].
  Qed.
  Lemma float_head t : float_literal t -> exists c t', t = String c t' /\ num_head c.
  Proof. intros (i & z & f & e & -> & Hi & _). destruct (integer_head i z Hi) as (c & t' & -> & Hc). exists c, (t' ++ f ++ e)%string. auto. Qed.
  Lemma num_head_ok c : num_head c -> head_ok c.
  Proof. intros [H|H]; [apply digit_head, H|]. assert (c = "-"%char) by apply code_inj, H. subst c. split; [reflexivity|simpl; lia]. Qed.
  Lemma denotes_head d t : denotes T d t -> exists c t', t = String c t' /\ head_ok c.
  Proof.
    destruct 1 as [| | |s t H|z t H|q t H Q|w H|l t H|w H|ps t H].
    5: destruct (integer_head t z H) as (c & t' & -> & Hc); exists c, t'; split; [reflexivity|apply num_head_ok, Hc].
    5: destruct (float_head t H) as (c & t' & -> & Hc); exists c, t'; split; [reflexivity|apply num_head_ok, Hc].
    all: do 2 eexists; split; [reflexivity|split; [reflexivity|intros Q; vm_compute in Q; intuition discriminate]].
  Qed.

  Lemma flat_num c s r : num_head c -> scan_num T (String c s) = Some r -> scan_flat T (String c s) = r.
  Proof.
    intros H Q. unfold scan_flat. assert (K : nat_of_ascii c < 58) by (destruct H as [H|H]; lia).
    rewrite !strip_head by (match goal with |- nat_of_ascii ?a <> _ => let n := eval vm_compute in (nat_of_ascii a) in change (nat_of_ascii a) with n end; lia). rewrite Q. reflexivity.
  Qed.
  Lemma flat_sound s d r : scan_flat T s = Ok (d, r) -> exists t, s = (t ++ r)%string /\ denotes T d t.
  Proof.
    unfold scan_flat. destruct (strip "null" s) as [x|] eqn:Q1.
    { intros H. injection H as <- <-. apply strip_iff in Q1. exists "null". split; [exact Q1|constructor]. }
    destruct (strip "true" s) as [x|] eqn:Q2.
    { intros H. injection H as <- <-. apply strip_iff in Q2. exists "true". split; [exact Q2|constructor]. }
    destruct (strip "false" s) as [x|] eqn:Q3.
    { intros H. injection H as <- <-. apply strip_iff in Q3. exists "false". split; [exact Q3|constructor]. }
    destruct (scan_num T s) as [[[d' r']|e]|] eqn:Q4.
    - intros H. injection H as <- <-. apply (scan_num_sound T s). exact Q4.
    - discriminate.
    - destruct (strip "NaN" s), (strip "Infinity" s), (strip "-Infinity" s); discriminate.
  Qed.

  Lemma after_blank w s : blank w -> after s -> after (w ++ s).
  Proof.
    destruct 1 as [|c w H _]; [auto|]. intros _. simpl in H. unfold after, no_digit, no_frac, no_exp. simpl.
    split; [destruct (is_digit c) eqn:K; [apply is_digit_iff in K; lia|reflexivity]|]. lia.
  Qed.
  Lemma after_char c s : In (nat_of_ascii c) [93; 125; 44] -> after (String c s).
  Proof.
    intros H. simpl in H. unfold after, no_digit, no_frac, no_exp. split; [destruct (is_digit c) eqn:K; [apply is_digit_iff in K; lia|reflexivity]|]. lia.
  Qed.
  Lemma after_nil : after "".
  Proof. repeat split. Qed.
  Lemma skip_blank_char w c s : blank w -> is_ws c = false -> skip_ws (w ++ String c s) = String c s.
  Proof. intros B W. rewrite skip_ws_blank by exact B. apply skip_ws_solid. exact W. Qed.
  Lemma skip_blank_den w d t s : blank w -> denotes T d t -> skip_ws (w ++ t ++ s) = (t ++ s)%string.
  Proof. intros B D. destruct (denotes_head d t D) as (c & t' & -> & W & _). apply skip_blank_char; assumption. Qed.

  Lemma complete3 :
    (forall d t, denotes T d t -> forall n rest, 2 * String.length (t ++ rest) + 1 <= n -> after rest -> scan T n (t ++ rest) = Ok (d, rest)) /\
    (forall l t, elements T l t -> forall n rest, 2 * String.length (t ++ String "]" rest) + 2 <= n ->
       items T n (skip_ws (t ++ String "]" rest)) = Ok (l, rest) /\ exists b r, skip_ws (t ++ String "]" rest) = String b r /\ nat_of_ascii b <> 93) /\
    (forall ps t, members T ps t -> forall n rest, 2 * String.length (t ++ String "}" rest) + 2 <= n ->
       pairs T n (skip_ws (t ++ String "}" rest)) = Ok (ps, rest) /\ exists b r, skip_ws (t ++ String "}" rest) = String b r /\ nat_of_ascii b <> 125).
  Proof.
    apply denotes_ind3.
    - intros [|n] rest L A; [lia|]. reflexivity.
    - intros [|n] rest L A; [lia|]. reflexivity.
    - intros [|n] rest L A; [lia|]. reflexivity.
    - intros s t H [|n] rest L A; [lia|]. rewrite scan_S; cbn [append]. change (code dq =? 34) with true. cbn iota. rewrite app_s_assoc. cbn [append]. rewrite (scan_str_complete s t rest H). reflexivity.
    - intros z t H [|n] rest L A; [lia|]. assert (S := scan_num_int T t z rest H A). destruct (integer_head t z H) as (c & t' & -> & Hc). cbn [append] in *. rewrite scan_S.
      unfold code. assert (K : nat_of_ascii c <> 34 /\ nat_of_ascii c <> 91 /\ nat_of_ascii c <> 123) by (destruct Hc; lia). destruct K as (K1 & K2 & K3).
      rewrite !if_eqb_false by assumption. apply flat_num; assumption.
    - intros q t H Q [|n] rest L A; [lia|]. assert (S := scan_num_float T t q rest H Q A). destruct (float_head t H) as (c & t' & -> & Hc). cbn [append] in *. rewrite scan_S.
      unfold code. assert (K : nat_of_ascii c <> 34 /\ nat_of_ascii c <> 91 /\ nat_of_ascii c <> 123) by (destruct Hc; lia). destruct K as (K1 & K2 & K3).
      rewrite !if_eqb_false by assumption. apply flat_num; assumption.
    - intros w B [|n] rest L A; [lia|]. rewrite scan_S; cbn [append]. change (code "[" =? 34) with false. change (code "[" =? 91) with true. cbn iota. rewrite app_s_assoc. cbn [append].
      rewrite skip_blank_char by (auto; reflexivity). reflexivity.
    - intros l t H IH [|n] rest L A; [lia|]. rewrite scan_S; cbn [append] in *. change (code "[" =? 34) with false. change (code "[" =? 91) with true. cbn iota. rewrite app_s_assoc in *. cbn [append String.length] in *.
      destruct (IH n rest) as (IH1 & b & r & IH2 & IH3); [lia|]. rewrite IH2 in *. unfold code. rewrite if_eqb_false by exact IH3. rewrite IH1. reflexivity.
    - intros w B [|n] rest L A; [lia|]. rewrite scan_S; cbn [append]. change (code "{" =? 34) with false. change (code "{" =? 91) with false. change (code "{" =? 123) with true. cbn iota. rewrite app_s_assoc. cbn [append].
      rewrite skip_blank_char by (auto; reflexivity). reflexivity.
    - intros l t H IH [|n] rest L A; [lia|]. rewrite scan_S; cbn [append] in *. change (code "{" =? 34) with false. change (code "{" =? 91) with false. change (code "{" =? 123) with true. cbn iota. rewrite app_s_assoc in *. cbn [append String.length] in *.
      destruct (IH n rest) as (IH1 & b & r & IH2 & IH3); [lia|]. rewrite IH2 in *. unfold code. rewrite if_eqb_false by exact IH3. rewrite IH1. reflexivity.
    - intros d w t w' B D IH B' [|n] rest L; [lia|]. rewrite !app_s_assoc in *. rewrite (skip_blank_den w d t _ B D). split.
      + rewrite items_S. rewrite app_s_len in L. rewrite IH; [|lia|apply after_blank; [exact B'|apply after_char; simpl; auto]]. cbn [bind fst snd]. rewrite skip_blank_char by (auto; reflexivity). reflexivity.
      + destruct (denotes_head d t D) as (c & t' & -> & _ & N). do 2 eexists. split; [reflexivity|]. intros Q. apply N. rewrite Q. simpl. auto.
    - intros d l w t w' t' B D IH B' E IHl [|n] rest L; [lia|]. rewrite !app_s_assoc in *. cbn [append] in *. rewrite (skip_blank_den w d t _ B D). split.
      + rewrite items_S. rewrite app_s_len in L. rewrite IH; [|lia|apply after_blank; [exact B'|apply after_char; simpl; auto]]. cbn [bind fst snd]. rewrite skip_blank_char by (auto; reflexivity).
        change (code "," =? 93) with false. change (code "," =? 44) with true. cbn iota. rewrite !app_s_len in L. cbn [String.length] in L. destruct (IHl n rest) as (IH1 & _); [lia|]. rewrite IH1. reflexivity.
      + destruct (denotes_head d t D) as (c & t2 & -> & _ & N). do 2 eexists. split; [reflexivity|]. intros Q. apply N. rewrite Q. simpl. auto.
    - intros k d w kt w1 w2 t w' B K B1 B2 D IH B' [|n] rest L; [lia|]. rewrite !app_s_assoc in *. cbn [append] in *. rewrite !app_s_assoc in *. cbn [append] in *. rewrite !app_s_assoc in *. cbn [append] in *. rewrite !app_s_assoc in *.
      rewrite skip_blank_char by (auto; reflexivity). split.
      + rewrite pairs_S. change (code dq =? 34) with true. cbn iota. rewrite (scan_str_complete k kt _ K). cbn [bind fst snd]. rewrite skip_blank_char by (auto; reflexivity).
        change (code ":" =? 58) with true. cbn iota. rewrite (skip_blank_den w2 d t _ B2 D).
        rewrite !app_s_len in L. cbn [String.length] in L. rewrite !app_s_len in L. cbn [String.length] in L. rewrite !app_s_len in L. cbn [String.length] in L. rewrite !app_s_len in L. cbn [String.length] in L.
        rewrite IH; [|rewrite !app_s_len; cbn [String.length]; lia|apply after_blank; [exact B'|apply after_char; simpl; auto]].
        cbn [bind fst snd]. rewrite skip_blank_char by (auto; reflexivity). reflexivity.
      + do 2 eexists. split; [reflexivity|]. vm_compute. discriminate.
    - intros k d l w kt w1 w2 t w' t' B K B1 B2 D IH B' M IHl [|n] rest L; [lia|]. do 5 (rewrite ?app_s_assoc in *; cbn [append] in *).
      rewrite skip_blank_char by (auto; reflexivity). split.
      + rewrite pairs_S. change (code dq =? 34) with true. cbn iota. rewrite (scan_str_complete k kt _ K). cbn [bind fst snd]. rewrite skip_blank_char by (auto; reflexivity).
        change (code ":" =? 58) with true. cbn iota. rewrite (skip_blank_den w2 d t _ B2 D).
        do 6 (rewrite ?app_s_len in L; cbn [String.length] in L).
        rewrite IH; [|do 3 (rewrite ?app_s_len; cbn [String.length]); lia|apply after_blank; [exact B'|apply after_char; simpl; auto]].
        cbn [bind fst snd]. rewrite skip_blank_char by (auto; reflexivity). change (code "," =? 125) with false. change (code "," =? 44) with true. cbn iota.
        destruct (IHl n rest) as (IH1 & _); [rewrite app_s_len; cbn [String.length]; lia|]. rewrite IH1. reflexivity.
      + do 2 eexists. split; [reflexivity|]. vm_compute. discriminate.
  Qed.

  Lemma code_char c n : nat_of_ascii c = n -> n < 256 -> c = ascii_of_nat n.
  Proof. intros H L. apply code_inj. rewrite code_of by exact L. exact H. Qed.

  Lemma sound3 n :
    (forall s d r, scan T n s = Ok (d, r) -> exists t, s = (t ++ r)%string /\ denotes T d t) /\
    (forall s l r, items T n s = Ok (l, r) -> exists t, s = (t ++ String "]" r)%string /\ elements T l t) /\
    (forall s ps r, pairs T n s = Ok (ps, r) -> exists t, s = (t ++ String "}" r)%string /\ members T ps t).
  Proof.
    induction n as [|n (IHs & IHi & IHp)]; [repeat split; intros; discriminate|]. split; [|split]; intros s x r H.
    - rewrite scan_S in H. destruct s as [|c s]; [discriminate|]. destruct (Nat.eqb_spec (code c) 34) as [Q|Q1].
      { apply code_char in Q; [|lia]. destruct (scan_str s) as [[k r']|] eqn:S; [|discriminate]. cbn [bind fst snd] in H. injection H as <- <-.
        destruct (scan_str_sound _ _ _ _ (le_n _) S) as (t & -> & C). exists (String dq (t ++ String dq "")). split; [rewrite Q; simpl; rewrite app_s_assoc; reflexivity|]. constructor. exact C. }
      destruct (Nat.eqb_spec (code c) 91) as [Q|Q2].
      { apply code_char in Q; [|lia]. destruct (skip_ws_split s) as (w & B & S & _). destruct (skip_ws s) as [|b s']; [discriminate|].
        destruct (Nat.eqb_spec (code b) 93) as [Qb|Qb].
        - apply code_char in Qb; [|lia]. injection H as <- <-. exists (String "[" (w ++ "]")). subst. split; [simpl; rewrite app_s_assoc; reflexivity|]. constructor. exact B.
        - destruct (items T n (String b s')) as [[l r']|] eqn:K; [|discriminate]. cbn [bind fst snd] in H. injection H as <- <-.
          destruct (IHi _ _ _ K) as (t & Ht & El). exists (String "[" ((w ++ t) ++ "]")). split; [subst c; rewrite S, Ht; simpl; rewrite !app_s_assoc; reflexivity|].
          constructor. destruct El as [d w0 t0 w' B0 D B'|d l w0 t0 w' t' B0 D B' El]; rewrite <- app_s_assoc; constructor; auto using blank_app. }
      destruct (Nat.eqb_spec (code c) 123) as [Q|Q3].
      { apply code_char in Q; [|lia]. destruct (skip_ws_split s) as (w & B & S & _). destruct (skip_ws s) as [|b s']; [discriminate|].
        destruct (Nat.eqb_spec (code b) 125) as [Qb|Qb].
        - apply code_char in Qb; [|lia]. injection H as <- <-. exists (String "{" (w ++ "}")). subst. split; [simpl; rewrite app_s_assoc; reflexivity|]. constructor. exact B.
        - destruct (pairs T n (String b s')) as [[l r']|] eqn:K; [|discriminate]. cbn [bind fst snd] in H. injection H as <- <-.
          destruct (IHp _ _ _ K) as (t & Ht & El). exists (String "{" ((w ++ t) ++ "}")). split; [subst c; rewrite S, Ht; simpl; rewrite !app_s_assoc; reflexivity|].
          constructor. destruct El as [k d w0 kt w1 w2 t0 w' B0 Ck B1 B2 D B'|k d l w0 kt w1 w2 t0 w' t' B0 Ck B1 B2 D B' El]; rewrite <- app_s_assoc; constructor; auto using blank_app. }
      apply flat_sound in H. exact H.
    - rewrite items_S in H. destruct (scan T n s) as [[d s1]|] eqn:S; [|discriminate]. cbn [bind fst snd] in H. destruct (IHs _ _ _ S) as (t & -> & D).
      destruct (skip_ws_split s1) as (w & B & S1 & _). destruct (skip_ws s1) as [|b s2]; [discriminate|]. destruct (Nat.eqb_spec (code b) 93) as [Qb|Qb].
      + apply code_char in Qb; [|lia]. injection H as <- <-. exists ("" ++ t ++ w)%string. split; [rewrite S1; subst b; simpl; rewrite !app_s_assoc; reflexivity|]. constructor; [constructor|exact D|exact B].
      + destruct (Nat.eqb_spec (code b) 44) as [Qc|Qc]; [|discriminate]. apply code_char in Qc; [|lia].
        destruct (skip_ws_split s2) as (w2 & B2 & S2 & _). destruct (items T n (skip_ws s2)) as [[l r']|] eqn:K; [|discriminate]. cbn [bind fst snd] in H. injection H as <- <-.
        destruct (IHi _ _ _ K) as (t' & Ht & El). exists ("" ++ t ++ w ++ String "," (w2 ++ t'))%string. split.
        * rewrite S1, S2, Ht. subst b. simpl. rewrite !app_s_assoc. simpl. rewrite !app_s_assoc. reflexivity.
        * constructor; [constructor|exact D|exact B|]. destruct El as [d' w0 t0 w' B0 D' B'|d' l w0 t0 w' t' B0 D' B' El]; rewrite <- app_s_assoc; constructor; auto using blank_app.
    - rewrite pairs_S in H. destruct s as [|c s]; [discriminate|]. destruct (Nat.eqb_spec (code c) 34) as [Q|Q1]; [|discriminate]. apply code_char in Q; [|lia].
      destruct (scan_str s) as [[k s1]|] eqn:S; [|discriminate]. cbn [bind fst snd] in H. destruct (scan_str_sound _ _ _ _ (le_n _) S) as (kt & -> & Ck).
      destruct (skip_ws_split s1) as (w1 & B1 & S1 & _). destruct (skip_ws s1) as [|g s2]; [discriminate|]. destruct (Nat.eqb_spec (code g) 58) as [Qg|Qg]; [|discriminate]. apply code_char in Qg; [|lia].
      destruct (skip_ws_split s2) as (w2 & B2 & S2 & _). destruct (scan T n (skip_ws s2)) as [[d s3]|] eqn:Sc; [|discriminate]. cbn [bind fst snd] in H. destruct (IHs _ _ _ Sc) as (t & Ht & D).
      destruct (skip_ws_split s3) as (w3 & B3 & S3 & _). destruct (skip_ws s3) as [|b s4]; [discriminate|]. destruct (Nat.eqb_spec (code b) 125) as [Qb|Qb].
      + apply code_char in Qb; [|lia]. injection H as <- <-. exists ("" ++ String dq (kt ++ String dq (w1 ++ String ":" (w2 ++ t ++ w3))))%string. split.
        * rewrite S1, S2, Ht, S3. subst. do 6 (simpl; rewrite ?app_s_assoc). reflexivity.
        * constructor; auto. constructor.
      + destruct (Nat.eqb_spec (code b) 44) as [Qc|Qc]; [|discriminate]. apply code_char in Qc; [|lia].
        destruct (skip_ws_split s4) as (w4 & B4 & S4 & _). destruct (pairs T n (skip_ws s4)) as [[l r']|] eqn:K; [|discriminate]. cbn [bind fst snd] in H. injection H as <- <-.
        destruct (IHp _ _ _ K) as (t' & Ht' & El). exists ("" ++ String dq (kt ++ String dq (w1 ++ String ":" (w2 ++ t ++ w3 ++ String "," (w4 ++ t')))))%string. split.
        * rewrite S1, S2, Ht, S3, S4, Ht'. subst. do 6 (simpl; rewrite ?app_s_assoc). reflexivity.
        * constructor; auto; [constructor|]. destruct El as [k' d' w0 kt' w1' w2' t0 w' B0 Ck' B1' B2' D' B'|k' d' l w0 kt' w1' w2' t0 w' t' B0 Ck' B1' B2' D' B' El]; rewrite <- app_s_assoc; constructor; auto using blank_app.
  Qed.

  (** reading a text gives the value it is a text of, for every value and every text of it *)
  Theorem C94_load t d : load T t = Ok d <-> exists w t' w', t = (w ++ t' ++ w')%string /\ blank w /\ denotes T d t' /\ blank w'.
  Proof.
    unfold load. split.
    - destruct (scan T (2 * String.length t + 2) (skip_ws t)) as [[d' r]|] eqn:S; [|discriminate]. cbn [bind fst snd]. destruct (proj1 (sound3 _) _ _ _ S) as (t' & Ht & D).
      destruct (skip_ws_split t) as (w & B & St & _). destruct (skip_ws_split r) as (w' & B' & Sr & _). destruct (skip_ws r); [|discriminate]. intros H. injection H as <-.
      exists w, t', w'. rewrite app_s_nil in Sr. subst r. rewrite <- Ht. auto.
    - intros (w & t' & w' & -> & B & D & B'). rewrite (skip_blank_den w d t' w' B D).
      rewrite (proj1 complete3 d t' D); [|rewrite !app_s_len; lia|rewrite <- (app_s_nil w'); apply after_blank; [exact B'|apply after_nil]].
      cbn [bind fst snd]. rewrite <- (app_s_nil w'), skip_ws_blank by exact B'. reflexivity.
  Qed.

  Lemma scan_str_err : forall n t e, String.length t <= n -> scan_str t = Err e -> e = ValueError \/ e = Unmodelled.
  Proof.
    induction n as [|n IH]; intros [|c t] e L H; try (injection H as <-; auto); [simpl in L; lia|]. cbn [scan_str] in H. cbn [String.length] in L.
    destruct (code c =? 34); [discriminate|]. destruct (code c =? 92).
    - destruct t as [|x t]; [injection H as <-; auto|]. cbn [String.length] in L. destruct (code x =? 117).
      + destruct t as [|a [|b [|x' [|y t]]]]; try (injection H as <-; auto). cbn [String.length] in L.
        destruct (hex_val a) as [na|], (hex_val b) as [nb|], (hex_val x') as [nx|], (hex_val y) as [ny|]; try (injection H as <-; auto).
        destruct ((na =? 0) && (nb =? 0))%bool; [|injection H as <-; auto]. destruct (scan_str t) as [p|e'] eqn:S; [discriminate|]. injection H as <-. apply (IH t); [lia|exact S].
      + destruct (back_char x); [|injection H as <-; auto]. destruct (scan_str t) as [p|e'] eqn:S; [discriminate|]. injection H as <-. apply (IH t); [lia|exact S].
    - destruct (code c <? 32); [injection H as <-; auto|]. destruct (scan_str t) as [p|e'] eqn:S; [discriminate|]. injection H as <-. apply (IH t); [lia|exact S].
  Qed.
  Lemma flat_err s e : scan_flat T s = Err e -> e = ValueError \/ e = Unmodelled.
  Proof.
    unfold scan_flat. destruct (strip "null" s); [discriminate|]. destruct (strip "true" s); [discriminate|]. destruct (strip "false" s); [discriminate|].
    unfold scan_num. destruct (scan_int s) as [[i r1]|].
    - destruct (scan_frac r1) as [f r2], (scan_exp r2) as [x r3]. destruct f, x; [destruct (int_of i)|..]; try (destruct (tx_float T _)); intros H; try discriminate; injection H as <-; auto.
    - destruct (strip "NaN" s), (strip "Infinity" s), (strip "-Infinity" s); intros H; injection H as <-; auto.
  Qed.
  Lemma denotes_len d t : denotes T d t -> 1 <= String.length t.
  Proof. intros D. destruct (denotes_head d t D) as (c & t' & -> & _). simpl. lia. Qed.
  Lemma err3 n :
    (forall s e, 2 * String.length s + 1 <= n -> scan T n s = Err e -> e = ValueError \/ e = Unmodelled) /\
    (forall s e, 2 * String.length s + 2 <= n -> items T n s = Err e -> e = ValueError \/ e = Unmodelled) /\
    (forall s e, 2 * String.length s + 2 <= n -> pairs T n s = Err e -> e = ValueError \/ e = Unmodelled).
  Proof.
    induction n as [|n (IHs & IHi & IHp)]; [repeat split; intros; lia|]. split; [|split]; intros s e L H.
    - rewrite scan_S in H. destruct s as [|c s]; [injection H as <-; auto|]. cbn [String.length] in L. assert (Ls := skip_ws_len s).
      destruct (code c =? 34). { destruct (scan_str s) as [p|e'] eqn:S; [discriminate|]. injection H as <-. apply (scan_str_err _ _ _ (le_n _) S). }
      destruct (code c =? 91).
      { destruct (skip_ws s) as [|b r]; [injection H as <-; auto|]. destruct (code b =? 93); [discriminate|]. destruct (items T n (String b r)) as [p|e'] eqn:S; [discriminate|]. injection H as <-. revert S; apply IHi; cbn [String.length] in *; lia. }
      destruct (code c =? 123).
      { destruct (skip_ws s) as [|b r]; [injection H as <-; auto|]. destruct (code b =? 125); [discriminate|]. destruct (pairs T n (String b r)) as [p|e'] eqn:S; [discriminate|]. injection H as <-. revert S; apply IHp; cbn [String.length] in *; lia. }
      apply flat_err in H. exact H.
    - rewrite items_S in H. destruct (scan T n s) as [[d r]|e'] eqn:S; [|injection H as <-; apply (IHs s); [lia|exact S]]. cbn [bind fst snd] in H.
      destruct (proj1 (sound3 n) _ _ _ S) as (t & -> & D). assert (Lt := denotes_len d t D). rewrite app_s_len in L. assert (Lr := skip_ws_len r).
      destruct (skip_ws r) as [|b r']; [injection H as <-; auto|]. cbn [String.length] in Lr. destruct (code b =? 93); [discriminate|]. destruct (code b =? 44); [|injection H as <-; auto]. assert (Lr' := skip_ws_len r').
      destruct (items T n (skip_ws r')) as [p|e'] eqn:K; [discriminate|]. injection H as <-. revert K; apply IHi; cbn [String.length] in *; lia.
    - rewrite pairs_S in H. destruct s as [|c s]; [injection H as <-; auto|]. cbn [String.length] in L. destruct (code c =? 34); [|injection H as <-; auto].
      destruct (scan_str s) as [[k s1]|e'] eqn:Ss; [|injection H as <-; apply (scan_str_err _ _ _ (le_n _) Ss)]. cbn [bind fst snd] in H.
      destruct (scan_str_sound _ _ _ _ (le_n _) Ss) as (kt & -> & _). rewrite app_s_len in L. cbn [String.length] in L. assert (L1 := skip_ws_len s1).
      destruct (skip_ws s1) as [|g s2]; [injection H as <-; auto|]. cbn [String.length] in L1. destruct (code g =? 58); [|injection H as <-; auto]. assert (L2 := skip_ws_len s2).
      destruct (scan T n (skip_ws s2)) as [[d r]|e'] eqn:S; [|injection H as <-; apply (IHs (skip_ws s2)); [lia|exact S]]. cbn [bind fst snd] in H.
      destruct (proj1 (sound3 n) _ _ _ S) as (t & Ht & D). assert (Lt := denotes_len d t D). rewrite Ht, app_s_len in L2. assert (Lr := skip_ws_len r).
      destruct (skip_ws r) as [|b r']; [injection H as <-; auto|]. cbn [String.length] in Lr. destruct (code b =? 125); [discriminate|]. destruct (code b =? 44); [|injection H as <-; auto]. assert (Lr' := skip_ws_len r').
      destruct (pairs T n (skip_ws r')) as [p|e'] eqn:K; [discriminate|]. injection H as <-. revert K; apply IHp; cbn [String.length] in *; lia.
  Qed.
  (** and ValueError for any other *)
  Theorem C94_errors t e : load T t = Err e -> e = ValueError \/ e = Unmodelled.
  Proof.
    unfold load. assert (L := skip_ws_len t). destruct (scan T (2 * String.length t + 2) (skip_ws t)) as [[d r]|e'] eqn:S; cbn [bind fst snd].
    - destruct (skip_ws r); [discriminate|]. intros H. injection H as <-. auto.
    - intros H. injection H as <-. apply (proj1 (err3 _) (skip_ws t)) in S; [exact S|lia].
  Qed.
End Read.

(** ** Writing *)
Lemma hex_digit_ok n : n < 16 -> hex (hex_digit n) n.
Proof.
  intros H. unfold hex, hex_digit. destruct (Nat.ltb_spec n 10) as [K|K]; [left|right]; rewrite code_of by lia; lia.
Qed.
Lemma esc_chars s : chars s (esc s).
Proof.
  induction s as [|c s IH]; [constructor|]. cbn [esc]. unfold esc_char, code. cbv zeta. assert (B := nat_ascii_bounded c).
  repeat match goal with |- context [if ?a =? ?b then _ else _] => destruct (Nat.eqb_spec a b) as [He|?] end;
    try (cbn [append]; apply chars_esc; [rewrite He; vm_compute; tauto|exact IH]).
  destruct ((32 <=? nat_of_ascii c) && (nat_of_ascii c <=? 126))%bool eqn:K.
  - apply andb_true_iff in K. rewrite !Nat.leb_le in K. cbn [append]. apply chars_plain; try assumption. lia.
  - cbn [append]. assert (H16 : nat_of_ascii c / 16 < 16) by (apply Nat.div_lt_upper_bound; lia). assert (M := Nat.mod_upper_bound (nat_of_ascii c) 16).
    apply (chars_hex _ _ (nat_of_ascii c / 16) (nat_of_ascii c mod 16)); [apply hex_digit_ok; lia|apply hex_digit_ok; lia|apply Nat.div_mod; lia|exact IH].
Qed.

Lemma spaces_blank n : blank (spaces n).
Proof. induction n; simpl; constructor; auto. simpl. auto. Qed.
Lemma nl_blank n : blank (nl n).
Proof. unfold nl. constructor; [vm_compute; auto|apply spaces_blank]. Qed.

(** a dictionary built from entries: the last one of a key counts, at the place of the first *)
Lemma dict_of_snoc ps p : dict_of (ps ++ [p]) = assoc_set (fst p) (snd p) (dict_of ps).
Proof. unfold dict_of. rewrite fold_left_app. reflexivity. Qed.
Definition firsts (l : list string) : list string := List.rev (nodup string_dec (List.rev l)).
Lemma last_entry_snoc k ps p : last_entry k (ps ++ [p]) = if String.eqb k (fst p) then Some (snd p) else last_entry k ps.
Proof.
  induction ps as [|[k' d] ps IH]; [destruct p; simpl; destruct (String.eqb k s); reflexivity|]. cbn [List.app last_entry]. rewrite IH.
  destruct (String.eqb k (fst p)); reflexivity.
Qed.
Theorem C94_dict ps : NoDup (map fst (dict_of ps)) /\ map fst (dict_of ps) = firsts (map fst ps) /\ forall k, assoc k (dict_of ps) = last_entry k ps.
Proof.
  induction ps as [|p ps IH] using rev_ind; [repeat split; constructor|]. destruct IH as (I1 & I2 & I3). rewrite dict_of_snoc. split; [apply assoc_set_NoDup, I1|]. split.
  - rewrite assoc_set_keys, map_app. unfold firsts. rewrite rev_app_distr. cbn [map List.rev List.app nodup]. rewrite I2.
    assert (K : assoc_mem (fst p) (dict_of ps) = true <-> In (fst p) (List.rev (map fst ps))).
    { rewrite assoc_mem_iff, I2. unfold firsts. rewrite <- in_rev, nodup_In. tauto. }
    destruct (in_dec string_dec (fst p) (List.rev (map fst ps))) as [i|i], (assoc_mem (fst p) (dict_of ps)); try reflexivity; [apply K in i; discriminate|elim i; apply K; reflexivity].
  - intros k. rewrite last_entry_snoc. destruct (String.eqb_spec k (fst p)) as [->|Q]; [apply assoc_set_same|]. rewrite assoc_set_other by exact Q. apply I3.
Qed.
Lemma assoc_set_new {A} n (a : A) d : ~ In n (map fst d) -> assoc_set n a d = (d ++ [(n, a)])%list.
Proof.
  induction d as [|[m b] d IH]; [reflexivity|]. cbn [map fst In]. intros H. cbn [assoc_set]. destruct (String.eqb_spec n m) as [->|Q]; [elim H; auto|].
  rewrite IH by auto. reflexivity.
Qed.
Lemma dict_of_nodup ps : NoDup (map fst ps) -> dict_of ps = ps.
Proof.
  induction ps as [|p ps IH] using rev_ind; [reflexivity|]. rewrite map_app. cbn [map]. intros N. rewrite dict_of_snoc. assert (N' := NoDup_remove_1 _ _ _ N). rewrite app_nil_r in N'. rewrite (IH N').
  apply NoDup_remove_2 in N. rewrite app_nil_r in N. rewrite assoc_set_new by exact N. destruct p; reflexivity.
Qed.

Section DataInd.
  Variable P : data -> Prop.
  Hypothesis HV : forall v, P (DVal v).
  Hypothesis HL : forall l, Forall P l -> P (DList l).
  Hypothesis HD : forall ps, Forall (fun p => P (snd p)) ps -> P (DDict ps).
  Fixpoint data_ind2 (d : data) : P d :=
    match d with
    | DVal v => HV v
    | DList l => HL l ((fix go (l : list data) : Forall P l := match l with [] => Forall_nil _ | x :: l' => Forall_cons _ (data_ind2 x) (go l') end) l)
    | DDict ps => HD ps ((fix go (ps : list (string * data)) : Forall (fun p => P (snd p)) ps :=
        match ps with [] => Forall_nil _ | x :: l' => Forall_cons x (data_ind2 (snd x)) (go l') end) ps)
    end.
End DataInd.

(** a float somewhere inside *)
Inductive float_in (q : Q) : data -> Prop :=
| fi_val : float_in q (DVal (VFloat q))
| fi_list l d : In d l -> float_in q d -> float_in q (DList l)
| fi_dict ps p : In p ps -> float_in q (snd p) -> float_in q (DDict ps).

Section Write.
  Variable T : text.
  (** the text of a float is a number with a fraction or an exponent which float() reads as this float *)
  Definition float_ok (q : Q) : Prop := float_literal (tx_str T (VFloat q)) /\ tx_float T (tx_str T (VFloat q)) = Some q.
  (** the same with another fraction of the same value *)
  Definition float_reads (q : Q) : Prop := float_literal (tx_str T (VFloat q)) /\ exists q', tx_float T (tx_str T (VFloat q)) = Some q' /\ (q' == q)%Q.
  Definition value_ok (v : value) : Prop := match v with VFloat q => float_reads q | _ => True end.
  (** floats are such, dictionaries have one entry for each key *)
  Inductive json_ok : data -> Prop :=
  | ok_val v : value_ok v -> json_ok (DVal v)
  | ok_list l : Forall json_ok l -> json_ok (DList l)
  | ok_dict ps : NoDup (map fst ps) -> Forall (fun p => json_ok (snd p)) ps -> json_ok (DDict ps).

  Lemma joined_more sep a b l : joined sep (a :: b :: l) = (a ++ sep ++ joined sep (b :: l))%string.
  Proof. reflexivity. Qed.
  Lemma elements_joined w0 w w1 : blank w0 -> blank w -> blank w1 -> forall l ts, Forall2 (denotes T) l ts -> l <> [] ->
    elements T l (w0 ++ joined (String "," w) ts ++ w1).
  Proof.
    intros B0 B B1 l ts F. revert w0 B0. induction F as [|d t l ts D F IH]; intros w0 B0 N; [elim N; reflexivity|].
    destruct F as [|d' t' l ts D' F]; [apply elem_one; assumption|]. rewrite joined_more. do 3 (cbn [append]; rewrite ?app_s_assoc).
    refine (elem_more T d _ w0 t "" _ B0 D blank_nil _). apply IH; [exact B|discriminate].
  Qed.
  Definition member (p : string * data) (t : string) : Prop := exists u, t = (quote (fst p) ++ ": " ++ u)%string /\ denotes T (snd p) u.
  Lemma members_joined w0 w w1 : blank w0 -> blank w -> blank w1 -> forall l ts, Forall2 member l ts -> l <> [] ->
    members T l (w0 ++ joined (String "," w) ts ++ w1).
  Proof.
    intros B0 B B1 l ts F. revert w0 B0. assert (Bs : blank " ") by (constructor; [simpl; auto|constructor]).
    induction F as [|[k d] t l ts (u & -> & D) F IH]; intros w0 B0 N; [elim N; reflexivity|]. cbn [fst snd] in *. unfold quote.
    destruct F as [|d' t' l ts D' F].
    - cbn [joined]. do 4 (cbn [append]; rewrite ?app_s_assoc). exact (memb_one T k d w0 (esc k) "" " " u w1 B0 (esc_chars k) blank_nil Bs D B1).
    - rewrite joined_more. do 4 (cbn [append]; rewrite ?app_s_assoc).
      refine (memb_more T k d _ w0 (esc k) "" " " u "" _ B0 (esc_chars k) blank_nil Bs D blank_nil _). apply IH; [exact B|discriminate].
  Qed.

  (** equal up to the fractions of floats *)
  Inductive same : data -> data -> Prop :=
  | same_val v : same (DVal v) (DVal v)
  | same_float q q' : (q' == q)%Q -> same (DVal (VFloat q)) (DVal (VFloat q'))
  | same_list l l' : Forall2 same l l' -> same (DList l) (DList l')
  | same_dict ps ps' : map fst ps' = map fst ps -> Forall2 (fun p p' => same (snd p) (snd p')) ps ps' -> same (DDict ps) (DDict ps').
  Definition vback (v : value) : value :=
    match v with VFloat q => match tx_float T (tx_str T (VFloat q)) with Some q' => VFloat q' | None => v end | _ => v end.
  Fixpoint back (d : data) : data :=
    match d with
    | DVal v => DVal (vback v)
    | DList l => DList (map back l)
    | DDict ps => DDict (map (fun p => (fst p, back (snd p))) ps)
    end.
  Lemma back_keys (ps : list (string * data)) : map fst (map (fun p => (fst p, back (snd p))) ps) = map fst ps.
  Proof. rewrite map_map. reflexivity. Qed.
  Lemma same_back d : json_ok d -> same d (back d).
  Proof.
    induction d as [v|ds IH|ps IH] using data_ind2; intros H; cbn [back].
    - inversion H as [v' V| |]; subst. destruct v as [s|z|q|b|]; try constructor. destruct V as (_ & q' & V1 & V2). unfold vback. rewrite V1. constructor. exact V2.
    - inversion H as [|ds' F|]; subst. constructor. clear H. induction IH as [|x xs Hx _ IHl]; [constructor|]. inversion F; subst. cbn [map]. constructor; auto.
    - inversion H as [| |ps' ND F]; subst. constructor; [apply back_keys|]. clear H ND. induction IH as [|x xs Hx _ IHl]; [constructor|]. inversion F; subst. cbn [map]. constructor; auto.
  Qed.
  Lemma back_exact d : json_ok d -> (forall q, float_in q d -> float_ok q) -> back d = d.
  Proof.
    induction d as [v|ds IH|ps IH] using data_ind2; intros H G; cbn [back].
    - destruct v as [s|z|q|b|]; try reflexivity. unfold vback. rewrite (proj2 (G q (fi_val q))). reflexivity.
    - inversion H as [|ds' F|]; subst. f_equal. rewrite <- (map_id ds) at 2. apply map_ext_in. intros d Hd. rewrite Forall_forall in *. apply IH; auto. intros q Hq. apply G. apply (fi_list q ds d); assumption.
    - inversion H as [| |ps' ND F]; subst. f_equal. rewrite <- (map_id ps) at 2. apply map_ext_in. intros [k d] Hd. rewrite Forall_forall in *. cbn [fst snd]. f_equal. apply (IH (k, d) Hd); [apply (F (k, d)), Hd|]. intros q Hq. apply G. apply (fi_dict q ps (k, d)); assumption.
  Qed.

  Lemma dump_denotes i d : json_ok d -> forall l, denotes T (back d) (dump T i l d).
  Proof.
    assert (BO : forall l, blank (open_sep i l)) by (intros l; destruct i; [apply nl_blank|constructor]).
    assert (BC : forall l, blank (close_sep i l)) by (intros l; destruct i; [apply nl_blank|constructor]).
    assert (BI : forall l, exists w, item_sep i l = String "," w /\ blank w).
    { intros l. destruct i; [exists (nl (n * S l)); split; [reflexivity|apply nl_blank]|exists " "; split; [reflexivity|constructor; [simpl; auto|constructor]]]. }
    induction d as [v|ds IH|ps IH] using data_ind2; intros H l.
    - inversion H as [v' V| |]; subst. destruct v as [s|z|q|b|]; cbn [dump put_value back vback].
      + apply den_str, esc_chars.
      + apply den_int. constructor.
      + destruct V as (V1 & q' & V2 & _). rewrite V2. apply den_float; assumption.
      + destruct b; constructor.
      + constructor.
    - inversion H as [|ds' F|]; subst. destruct ds as [|d ds]; [apply (den_empty T ""); constructor|].
      cbn [dump back]. destruct (BI l) as (w & -> & B). set (b := joined (String "," w) (map (dump T i (S l)) (d :: ds))). change ("[" ++ ?x)%string with (String "[" x).
      rewrite <- !app_s_assoc. rewrite (app_s_assoc (open_sep i l)). apply den_list. apply elements_joined; auto; [|discriminate].
      clear - IH F. induction IH as [|x xs Hx _ IHl]; [constructor|]. inversion F; subst. cbn [map]. constructor; auto.
    - inversion H as [| |ps' ND F]; subst. destruct ps as [|p ps]; [apply (den_empty_dict T ""); constructor|].
      cbn [back]. rewrite <- (dict_of_nodup (map (fun p => (fst p, back (snd p))) (p :: ps))) by (rewrite back_keys; exact ND).
      cbn [dump]. destruct (BI l) as (w & -> & B). change ("{" ++ ?x)%string with (String "{" x).
      rewrite <- !app_s_assoc. rewrite (app_s_assoc (open_sep i l)). apply den_dict. apply members_joined; auto; [|discriminate].
      clear - IH F. induction IH as [|x xs Hx _ IHl]; [constructor|]. inversion F; subst. cbn [map]. constructor; [|auto]. exists (dump T i (S l) (snd x)). split; [reflexivity|auto].
  Qed.

  (** what json.dump writes, json.load reads back, with any indent *)
  Theorem C94_dump i d : json_ok d -> exists d', load T (dump T i 0 d) = Ok d' /\ same d d'.
  Proof.
    intros H. exists (back d). split; [|apply same_back, H]. apply C94_load. exists "", (dump T i 0 d), "". rewrite app_s_nil. split; [reflexivity|]. split; [constructor|]. split; [apply dump_denotes, H|constructor].
  Qed.
  Theorem C94_dump_exact i d : json_ok d -> (forall q, float_in q d -> float_ok q) -> load T (dump T i 0 d) = Ok d.
  Proof.
    intros H G. rewrite <- (back_exact d H G) at 2. apply C94_load. exists "", (dump T i 0 d), "". rewrite app_s_nil. split; [reflexivity|]. split; [constructor|]. split; [apply dump_denotes, H|constructor].
  Qed.
End Write.

(** ** Spaces *)
Section SpaceJson.
  Context {E : Env}.
  Variable T : text.

  (** one entry for each key, all the way down *)
  Inductive keys_ok : data -> Prop :=
  | ko_val v : keys_ok (DVal v)
  | ko_list l : Forall keys_ok l -> keys_ok (DList l)
  | ko_dict ps : NoDup (map fst ps) -> Forall (fun p => keys_ok (snd p)) ps -> keys_ok (DDict ps).
  Lemma ok_of d : keys_ok d -> (forall q, float_in q d -> float_ok T q) -> json_ok T d.
  Proof.
    induction d as [v|l IH|ps IH] using data_ind2; intros K F.
    - constructor. destruct v; try exact I. destruct (F q) as [F1 F2]; [constructor|]. split; [exact F1|]. exists q. split; [exact F2|reflexivity].
    - inversion K as [|l' K'|]; subst. constructor. rewrite Forall_forall in *. intros d Hd. apply IH; auto. intros q Hq. apply F. apply (fi_list q l d); assumption.
    - inversion K as [| |ps' N K']; subst. constructor; [exact N|]. rewrite Forall_forall in *. intros p Hp. apply IH; auto. intros q Hq. apply F. apply (fi_dict q ps p); assumption.
  Qed.
  Ltac keys := match goal with
    | |- NoDup _ => cbn; repeat (constructor; [cbn; intuition discriminate|]); constructor
    | |- keys_ok (DVal _) => constructor
    | |- keys_ok (dstr _) => constructor
    | |- keys_ok (DDict _) => apply ko_dict
    | |- Forall _ (_ :: _) => apply Forall_cons
    | |- Forall _ [] => apply Forall_nil
    end.
  Lemma vals_ok l : Forall keys_ok (map DVal l).
  Proof. rewrite Forall_forall. intros d Hd. apply in_map_iff in Hd. destruct Hd as (x & <- & _). constructor. Qed.
  Lemma enc_hp_keys h : keys_ok (enc_hp h).
  Proof.
    unfold enc_hp. destruct (hp_kind h) as [c w|s|v|lo hi lg d|lo hi lg d].
    - repeat keys; cbn [snd]; try constructor.
      + apply vals_ok.
      + destruct w as [[|x w]|]; try constructor. apply Forall_forall. intros d Hd. apply (in_map_iff dfloat (x :: w)) in Hd. destruct Hd as (y & <- & _). constructor.
      + destruct (hp_meta h); constructor.
    - repeat keys; cbn [snd]; try constructor; [apply vals_ok|destruct (hp_meta h); constructor].
    - repeat keys; cbn [snd]; try constructor. destruct (hp_meta h); constructor.
    - destruct d; cbn [enc_dist List.app]; repeat keys; cbn [snd]; try constructor; destruct (hp_meta h); constructor.
    - destruct d; cbn [enc_dist List.app]; repeat keys; cbn [snd]; try constructor; destruct (hp_meta h); constructor.
  Qed.
  Lemma enc_cond_keys c : keys_ok (enc_cond c).
  Proof.
    induction c as [l|cs IH|cs IH] using cond_ind'; cbn [enc_cond].
    - unfold enc_lit. destruct (l_test l); repeat keys; cbn [snd]; try constructor. apply vals_ok.
    - repeat keys; cbn [snd]; try constructor. rewrite Forall_forall in *. intros d Hd. apply in_map_iff in Hd. destruct Hd as (x & <- & Hx). auto.
    - repeat keys; cbn [snd]; try constructor. rewrite Forall_forall in *. intros d Hd. apply in_map_iff in Hd. destruct Hd as (x & <- & Hx). auto.
  Qed.
  Lemma enc_forb_keys f : keys_ok (enc_forb f).
  Proof.
    induction f as [h v vv|h vs vvs|r a b|cs IH] using fclause_ind'; cbn [enc_forb]; repeat keys; cbn [snd]; try constructor.
    - apply vals_ok.
    - rewrite Forall_forall in *. intros d Hd. apply in_map_iff in Hd. destruct Hd as (x & <- & Hx). auto.
  Qed.
  Lemma serialized_keys x : keys_ok (DDict (to_serialized x)).
  Proof.
    unfold to_serialized. repeat keys; cbn [snd]; try constructor.
    - destruct (c_name x); constructor.
    - apply Forall_forall. intros d Hd. apply in_map_iff in Hd. destruct Hd as (h & <- & _). apply enc_hp_keys.
    - apply Forall_forall. intros d Hd. apply in_map_iff in Hd. destruct Hd as (h & <- & _). apply enc_cond_keys.
    - apply Forall_forall. intros d Hd. apply in_map_iff in Hd. destruct Hd as (h & <- & _). apply enc_forb_keys.
  Qed.

  (** the JSON text of a space is that of its dictionary and gives the same space *)
  Theorem C94_space i x : (forall q, float_in q (DDict (to_serialized x)) -> float_ok T q) ->
    load T (to_json T i x) = Ok (DDict (to_serialized x)) /\ from_json T (to_json T i x) = round_trip x.
  Proof.
    intros F. assert (L : load T (to_json T i x) = Ok (DDict (to_serialized x))) by (apply C94_dump_exact; [apply ok_of; [apply serialized_keys|exact F]|exact F]).
    split; [exact L|]. unfold from_json. rewrite L. reflexivity.
  Qed.
  (** every text of a dictionary, with any blanks, escapes and order of writing, gives what the dictionary gives *)
  Theorem C94_from_json w t w' d : blank w -> denotes T (DDict d) t -> blank w' -> from_json T (w ++ t ++ w') = snd (from_serialized d).
  Proof.
    intros B D B'. unfold from_json. assert (L : load T (w ++ t ++ w') = Ok (DDict d)) by (apply C94_load; exists w, t, w'; auto). rewrite L. reflexivity.
  Qed.
End SpaceJson.

Section Case.
  #[local] Existing Instance rat_env.
  (** a text for every fraction: numerator, and denominator as an exponent *)
  Definition frac_text : text := {|
    tx_str := fun v => match v with VFloat q => (z_str (Qnum q) ++ "e" ++ z_str (Zpos (Qden q)))%string | _ => "" end;
    tx_int := fun _ => None;
    tx_float := fun t => match scan_int t with
                         | Some (i, r) => match int_of i, int_of (substring 1 (String.length r) r) with Some n, Some (Zpos d) => Some (Qmake n d) | _, _ => None end
                         | None => None
                         end |}.
  Lemma substring_all s : forall m, String.length s <= m -> substring 0 m s = s.
  Proof. induction s as [|c s IH]; intros [|m] H; simpl in *; try reflexivity; [lia|]. rewrite IH by lia. reflexivity. Qed.
  Lemma frac_reads q : float_ok frac_text q.
  Proof.
    destruct q as [n d]. cbn [frac_text tx_str tx_float Qnum Qden]. split.
    - exists (z_str n), n, "", ("e" ++ z_str (Zpos d))%string. split; [reflexivity|]. split; [constructor|]. split; [constructor|]. split; [|discriminate].
      change ("e" ++ z_str (Zpos d))%string with (String "e" (z_str (Zpos d))). apply exp_some; [auto|]. destruct (z_canon (Zpos d)) as [C|(t & Q & C)].
      + destruct C as [C|(c & t & _ & _ & C)]; [rewrite C; apply dec_one; vm_compute; lia|exact C].
      + exfalso. unfold z_str in Q. cbn [Z.to_int NilZero.string_of_int] in Q. assert (Nn : Pos.to_uint d <> Nil) by apply DecimalPos.Unsigned.to_uint_nonnil.
        rewrite nz_string in Q by exact Nn. destruct (Pos.to_uint d); try discriminate.
    - unfold frac_text, tx_float, tx_str. cbn [append Qnum Qden]. rewrite (scan_int_complete (z_str n) n _ (integer_str n)) by reflexivity. rewrite int_of_str. cbn [String.length substring]. rewrite substring_all, int_of_str by lia. reflexivity.
  Qed.
  (** the space of C52_case, with conditions and clauses *)
  Example C94_case : exists x hs cs fs x', clauses_once true x hs cs fs /\ length cs = 4 /\ length fs = 5 /\
    (forall q, float_in q (DDict (to_serialized x)) -> float_ok frac_text q) /\
    from_json frac_text (to_json frac_text (Some 2) x) = Ok x' /\ from_json frac_text (to_json frac_text None x) = Ok x' /\ cspace_eqb x' x = true.
  Proof.
    destruct C52_case as (x & hs & cs & fs & x' & C & _ & _ & _ & _ & _ & Lc & Lf & R & Q). exists x, hs, cs, fs, x'.
    split; [exact C|]. split; [exact Lc|]. split; [exact Lf|]. split; [intros q _; apply frac_reads|].
    destruct (C94_space frac_text (Some 2) x (fun q _ => frac_reads q)) as [_ ->]. destruct (C94_space frac_text None x (fun q _ => frac_reads q)) as [_ ->]. auto.
  Qed.
  (** a text with blanks, escapes and a key that occurs twice *)
  Definition q (s : string) : string := String dq (s ++ String dq "").
  Definition small_text : string :=
    (" { " ++ q "k" ++ ":[ 1,-0 , 2.50, " ++ q (String bs "u0041" ++ String bs "n") ++ " ,null], " ++ q "k" ++ " : true } ")%string.
  Example C94_case_text : load dec_text small_text = Ok (DDict [("k", DVal (VBool true))]) /\
    load dec_text (" [1,-0 , 2.50, " ++ q (String bs "u0041" ++ String bs "n") ++ " ]") =
      Ok (DList [DVal (VInt 1); DVal (VInt 0); DVal (VFloat (5 # 2)); DVal (VStr (String "A" (String (ascii_of_nat 10) "")))]) /\
    load dec_text "[1,]" = Err ValueError /\ load dec_text "01" = Err ValueError /\ load dec_text "1 2" = Err ValueError /\
    dump dec_text None 0 (DList [DVal (VStr (String dq (String (ascii_of_nat 233) ""))); DVal (VFloat (-1 # 4))]) = ("[" ++ q (String bs (String dq "") ++ String bs "u00e9") ++ ", -0.25]")%string.
  Proof. vm_compute. repeat split. Qed.
End Case.
