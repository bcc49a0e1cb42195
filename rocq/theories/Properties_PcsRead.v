(** * Property C128: whatever text is read, in any of the formats, the result is a proper space *)
From Coq Require Import String Ascii List ZArith QArith Bool Lia Lqa Permutation.
From Verif Require Import Base ListFacts Numeric NumericProofs HP HPProofs Properties_HP Properties_Ctor Cond Forb EqFacts Dag DagProofs
  CommitProofs Spec SpaceProofs Ex Properties_Graph Serial Properties_Serial Json Properties_Json Properties_Load Fix Pcs PcsProofs PcsText Properties_PcsWords Properties_Pcs
  Properties_PcsWrite PcsOld Properties_PcsOld Properties_PcsOldWrite Space.
Import ListNotations.
Open Scope nat_scope.
Open Scope string_scope.
Open Scope list_scope.

Section PcsRead.
  Context {E : Env} {L : EnvLaws E}.
  Variable T : text.

  (** ** Specification *)
  Definition texts (c : list value) : Prop := forall v, In v c -> exists t, v = VStr t.
  (** what the lines of the older format can describe: uniform numbers and choices between strings *)
  Definition old_kind (h : hp) : Prop :=
    hp_meta h = None /\ match hp_kind h with
    | KInt _ _ _ DUniform | KFloat _ _ _ DUniform => True
    | KCat c None => texts c
    | _ => False
    end.
  (** the newer format has sequences of strings besides *)
  Definition new_kind (h : hp) : Prop := old_kind h \/ (hp_meta h = None /\ exists c, hp_kind h = KOrd c /\ texts c).
  (** clauses are conjunctions of equalities *)
  Definition equalities (f : fclause) : Prop := exists gs, f = FAnd gs /\ forall g, In g gs -> exists h v e, g = FEq h v e.
  Definition choice (h : hp) : Prop := exists c w, hp_kind h = KCat c w.

  (** ** Proofs *)
  Ltac peel H := repeat match type of H with
    | bind ?r _ = Ok _ => let a := fresh "a" in let Q := fresh "Q" in destruct r as [a|] eqn:Q; [cbn [bind] in H|discriminate H]
    end.

  Lemma add_raise x hs cs fs y : add_or_raise x hs cs fs = Ok y -> c_add x hs cs fs = (y, Ok tt).
  Proof. unfold add_or_raise. destruct (c_add x hs cs fs) as [x' [[]|e]]; [|discriminate]. intros [= <-]. reflexivity. Qed.
  Lemma mapM_from {A B} (f : A -> res B) l ys : mapM f l = Ok ys -> forall y, In y ys -> exists x, In x l /\ f x = Ok y.
  Proof.
    intros H. apply mapM_ok in H. induction H as [|x y l ys Q _ IH]; [intros ? []|]. intros z [<-|Hz]; [exists x; split; [left; reflexivity|exact Q]|].
    destruct (IH z Hz) as (w & Hw & Qw). exists w. split; [right; exact Hw|exact Qw].
  Qed.
  Lemma texts_map l : texts (map VStr l).
  Proof. intros v H. apply in_map_iff in H. destruct H as (t & <- & _). eauto. Qed.

  Lemma uint_old n lo hi d l h : mk_uniform_int n lo hi d l None = Ok h -> constructed h /\ old_kind h.
  Proof. intros H. split; [exact (CtorUInt _ _ _ _ _ _ _ H)|]. destruct (C61_uniform_int_partial _ _ _ _ _ _ _ H) as ((_ & M) & a & b & z & K & _). split; [exact M|]. rewrite K. exact Logic.I. Qed.
  Lemma ufloat_old n lo hi d l h : mk_uniform_float n lo hi d l None = Ok h -> constructed h /\ old_kind h.
  Proof. intros H. split; [exact (CtorUFloat _ _ _ _ _ _ _ H)|]. destruct (C61_uniform_float _ _ _ _ _ _ _ H) as ((_ & M) & a & b & z & K & _). split; [exact M|]. rewrite K. exact Logic.I. Qed.
  Lemma cat_old n c d h : mk_categorical n (map VStr c) d None None = Ok h -> constructed h /\ old_kind h.
  Proof. intros H. split; [exact (CtorCat _ _ _ _ _ _ H)|]. destruct (C61_categorical _ _ _ _ _ _ H) as ((_ & M) & K & _). split; [exact M|]. rewrite K. apply texts_map. Qed.
  Lemma ord_new n c d h : mk_ordinal n (map VStr c) d None = Ok h -> constructed h /\ new_kind h.
  Proof. intros H. split; [exact (CtorOrd _ _ _ _ _ H)|]. destruct (C61_ordinal _ _ _ _ _ H) as ((_ & M) & K & _). right. split; [exact M|]. exists (map VStr c). split; [exact K|apply texts_map]. Qed.

  Lemma old_hp_of_good raw h : old_hp_of T raw = Ok h -> constructed h /\ old_kind h.
  Proof.
    unfold old_hp_of, old_read_cont, old_read_cat. set (l := Pcs.clean raw). intros H.
    assert (G : forall p q, (forall h', p = Some h' -> constructed h' /\ old_kind h') ->
      match parse po_cat l with None => Ok p | Some ts => n <- tok ts 0 ;; d <- tok_last2 ts ;; h <- mk_categorical n (map VStr (slice2 2 4 ts)) (Some (VStr d)) None None ;; Ok (Some h) end = Ok q ->
      forall h', q = Some h' -> constructed h' /\ old_kind h').
    { intros p q Hp. destruct (parse po_cat l) as [ts|]; [|intros [= <-]; exact Hp]. intros K. peel K. injection K as <-. intros h' [= <-]. eapply cat_old. eassumption. }
    destruct (parse po_cont l) as [ts|].
    - peel H. destruct a0 as [h'|]; [|discriminate]. injection H as ->. peel Q. injection Q as <-. refine (G _ _ _ Q0 h eq_refl).
      intros h' [= <-]. destruct (has_char "i" _); [eapply uint_old; eassumption|eapply ufloat_old; eassumption].
    - cbn [bind] in H. peel H. destruct a as [h'|]; [|discriminate]. injection H as ->. refine (G _ _ _ Q h eq_refl). discriminate.
  Qed.
  Lemma new_hp_of_good raw h : new_hp_of T raw = Ok h -> constructed h /\ new_kind h.
  Proof.
    unfold new_hp_of. set (l := Pcs.clean raw). intros H. destruct (new_read_cont T l) as [p|] eqn:Qp; [|discriminate]. cbn [bind] in H.
    assert (Gp : forall h', p = Some h' -> constructed h' /\ new_kind h').
    { intros h' ->. unfold new_read_cont in Qp. destruct (parse p_cont l) as [ts|]; [|discriminate]. cbv zeta in Qp. peel Qp.
      destruct (a0 =? "integer"); [|destruct (a0 =? "real"); [|discriminate]]; peel Qp; injection Qp as <-.
      - edestruct uint_old as [A B]; [eassumption|]. split; [exact A|left; exact B].
      - edestruct ufloat_old as [A B]; [eassumption|]. split; [exact A|left; exact B]. }
    destruct (new_read_cat l p) as [q|] eqn:Qq; [|discriminate]. cbn [bind] in H. destruct q as [h'|]; [|discriminate]. injection H as ->.
    unfold new_read_cat in Qq. cbv zeta in Qq. destruct (is_infix "categorical" l); [|destruct (is_infix "ordinal" l); [|injection Qq as ->; apply Gp; reflexivity]];
      (destruct (parse p_cat l) as [ts|]; [|injection Qq as ->; apply Gp; reflexivity]); peel Qq; injection Qq as <-.
    - edestruct cat_old as [A B]; [eassumption|]. split; [exact A|left; exact B].
    - eapply ord_new. eassumption.
  Qed.

  Lemma named_good x hs n h : knows (c_space x) hs -> hp_named x n = Ok h -> In h hs /\ constructed h.
  Proof. intros K. unfold hp_named. destruct (get_hp (c_space x) n) as [h'|] eqn:G; [|discriminate]. intros [= <-]. exact (K _ _ G). Qed.
  Lemma cbuilt_knows x hs cs fs : cbuilt x hs cs fs -> knows (c_space x) hs.
  Proof.
    intros C n h H. assert (O := built_ok _ _ _ _ (cbuilt_built _ _ _ _ C)). apply (so_get_hp O) in H. destruct H as [H _]. split; [exact H|]. exact (so_constructed O h H).
  Qed.

  Lemma feq_good hs h v f : mk_feq h v = Ok f -> In h hs -> constructed h -> forb_built f /\ forb_refs hs f /\ (exists e, f = FEq h v e).
  Proof.
    intros H Hh Hc. split; [exact (FB_eq _ _ _ Hc H)|]. unfold mk_feq in H. destruct (legal_value _ _); [|discriminate]. destruct (to_vector _ _); [|discriminate].
    injection H as <-. split; [intros k [<-|[]]; exact Hh|eauto].
  Qed.
  Lemma fand_good hs gs f : mk_fand gs = Ok f -> (forall g, In g gs -> forb_built g /\ forb_refs hs g) -> forb_built f /\ forb_refs hs f.
  Proof.
    intros H G. split; [apply (FB_and gs); [intros g Hg; apply G, Hg|exact H]|]. injection H as <-. intros h Hh.
    unfold forb_hps in Hh. cbn [fdlcs] in Hh. apply in_concat in Hh. destruct Hh as (m & Hm & Hh). apply in_map_iff in Hm. destruct Hm as (g & <- & Hg).
    apply in_concat in Hg. destruct Hg as (m & Hm & Hg). apply in_map_iff in Hm. destruct Hm as (b & <- & Hb). apply (proj2 (G b Hb)).
    unfold forb_hps. apply in_concat. exists (leaf_hps g). split; [apply in_map, Hg|exact Hh].
  Qed.

  (** clauses *)
  Lemma old_clauses_good x hs : knows (c_space x) hs -> forall n ts fs, length ts <= n -> old_read_clauses x ts = Ok fs ->
    forall f, In f fs -> forb_built f /\ forb_refs hs f /\ exists h v e, f = FEq h v e /\ (exists t, v = VStr t) /\ legal_value h v = true.
  Proof.
    intros K n. induction n as [|n IH]; intros ts fs Ln H f Hf.
    - destruct ts; [|cbn in Ln; lia]. injection H as <-. destruct Hf.
    - destruct ts as [|a [|b [|v [|c ts]]]]; try (injection H as <-; destruct Hf). cbn [old_read_clauses] in H. peel H. injection H as <-.
      destruct Hf as [<-|Hf]; [|apply (IH ts a2); [cbn in Ln; lia|exact Q1|exact Hf]].
      destruct (named_good _ _ _ _ K Q) as [Hh Hc]. destruct (feq_good _ _ _ _ Q0 Hh Hc) as (B & R & e & ->). split; [exact B|]. split; [exact R|].
      exists a0, (VStr v), e. split; [reflexivity|]. split; [eauto|]. unfold mk_feq in Q0. destruct (legal_value _ _); [reflexivity|discriminate].
  Qed.
  Lemma new_clauses_good x hs : knows (c_space x) hs -> forall n ts fs, length ts <= n -> new_read_clauses T x ts = Ok fs ->
    forall f, In f fs -> forb_built f /\ forb_refs hs f /\ exists h v e, f = FEq h v e.
  Proof.
    intros K n. induction n as [|n IH]; intros ts fs Ln H f Hf.
    - destruct ts; [|cbn in Ln; lia]. injection H as <-. destruct Hf.
    - destruct ts as [|a [|b [|v [|c ts]]]]; try (injection H as <-; destruct Hf). cbn [new_read_clauses] in H. peel H. injection H as <-.
      destruct Hf as [<-|Hf]; [|apply (IH ts a1); [cbn in Ln; lia|exact Q0|exact Hf]].
      unfold new_read_equals in Q. peel Q. destruct (named_good _ _ _ _ K Q1) as [Hh Hc].
      assert (W : exists w, mk_feq a2 w = Ok a0).
      { destruct (hp_kind a2); peel Q; try discriminate Q;
          repeat match type of Q with (if ?b then _ else Err _) = _ => destruct b; [|discriminate Q] end; eauto. }
      destruct W as (w & W). destruct (feq_good _ _ _ _ W Hh Hc) as (B & R & e & ->). split; [exact B|]. split; [exact R|]. eauto.
  Qed.
  Lemma old_forb_good x hs : knows (c_space x) hs -> forall l f, old_read_forb x l = Ok f ->
    forb_built f /\ forb_refs hs f /\ equalities f /\ forall h, In h (forb_hps f) -> exists t, legal_value h (VStr t) = true.
  Proof.
    intros K l f H. unfold old_read_forb in H. destruct (parse p_forb l) as [ts|]; [|discriminate]. peel H.
    assert (G := old_clauses_good x hs K _ _ _ (Nat.le_refl _) Q).
    destruct (fand_good hs a f H (fun g Hg => conj (proj1 (G g Hg)) (proj1 (proj2 (G g Hg))))) as [B R]. split; [exact B|]. split; [exact R|]. injection H as <-. split.
    - exists a. split; [reflexivity|]. intros g Hg. destruct (G g Hg) as (_ & _ & h & v & e & -> & _). eauto.
    - intros h Hh. unfold forb_hps in Hh. cbn [fdlcs] in Hh. apply in_concat in Hh. destruct Hh as (m & Hm & Hh). apply in_map_iff in Hm. destruct Hm as (g & <- & Hg).
      apply in_concat in Hg. destruct Hg as (m & Hm & Hg). apply in_map_iff in Hm. destruct Hm as (b & <- & Hb).
      destruct (G b Hb) as (_ & _ & h' & v & e & -> & (t & ->) & Lv). destruct Hg as [<-|[]]. destruct Hh as [<-|[]]. eauto.
  Qed.
  Lemma new_forb_good x hs : knows (c_space x) hs -> forall l f, new_read_forb T x l = Ok f -> forb_built f /\ forb_refs hs f /\ equalities f.
  Proof.
    intros K l f H. unfold new_read_forb in H. destruct (parse p_forb l) as [ts|]; [|discriminate]. peel H.
    assert (G := new_clauses_good x hs K _ _ _ (Nat.le_refl _) Q).
    destruct (fand_good hs a f H (fun g Hg => conj (proj1 (G g Hg)) (proj1 (proj2 (G g Hg))))) as [B R]. split; [exact B|]. split; [exact R|]. injection H as <-.
    exists a. split; [reflexivity|]. intros g Hg. apply (G g Hg).
  Qed.

  (** conditions *)
  Definition good_cond (hs : list hp) (c : cond) : Prop := cond_built c /\ cond_refs hs c.
  Lemma bin_good hs o ch p v c : In ch hs -> constructed ch -> In p hs -> constructed p -> mk_bin o ch p v = Ok c -> good_cond hs c.
  Proof. intros H1 C1 H2 C2 H. split; [exact (CB_bin _ _ _ _ _ C1 C2 H)|exact (mk_bin_refs _ _ _ _ _ _ H H1 H2)]. Qed.
  Lemma in_good hs ch p v c : In ch hs -> constructed ch -> In p hs -> constructed p -> mk_in ch p v = Ok c -> good_cond hs c.
  Proof. intros H1 C1 H2 C2 H. split; [exact (CB_in _ _ _ _ C1 C2 H)|exact (mk_in_refs _ _ _ _ _ H H1 H2)]. Qed.
  Lemma and_good hs cs c : mk_and cs = Ok c -> (forall b, In b cs -> good_cond hs b) -> good_cond hs c.
  Proof. intros H G. split; [apply (CB_and cs); [intros b Hb; apply G, Hb|exact H]|apply (mk_and_refs hs cs); [exact H|intros b Hb; apply G, Hb]]. Qed.
  Lemma or_good hs cs c : mk_or cs = Ok c -> (forall b, In b cs -> good_cond hs b) -> good_cond hs c.
  Proof. intros H G. split; [apply (CB_or cs); [intros b Hb; apply G, Hb|exact H]|apply (mk_or_refs hs cs); [exact H|intros b Hb; apply G, Hb]]. Qed.

  Lemma spec_good x hs : knows (c_space x) hs -> forall child ts c, new_specification T x child ts = Ok c -> good_cond hs c.
  Proof.
    intros K child ts c H. unfold new_specification in H. peel H. destruct (named_good _ _ _ _ K Q) as [H1 C1]. destruct (named_good _ _ _ _ K Q1) as [H2 C2].
    destruct (a2 =? "in").
    - peel H. destruct a3 as [|v [|v' vs]]; [exact (in_good hs _ _ _ _ H1 C1 H2 C2 H)|exact (bin_good hs _ _ _ _ _ H1 C1 H2 C2 H)|exact (in_good hs _ _ _ _ H1 C1 H2 C2 H)].
    - peel H. repeat match type of H with (if ?b then _ else _) = _ => destruct b end; try discriminate H; exact (bin_good hs _ _ _ _ _ H1 C1 H2 C2 H).
  Qed.
  Lemma new_cond_good x hs : knows (c_space x) hs -> forall ts c, new_read_cond T x ts = Ok c -> good_cond hs c.
  Proof.
    intros K ts c H. unfold new_read_cond in H. peel H. cbv zeta in H. set (w := String.concat " " (skipn 2 ts)) in *.
    destruct (is_infix "||" w); [destruct (is_infix "&&" w)|destruct (is_infix "&&" w)].
    - peel H. apply (or_good _ _ _ H). intros b Hb. destruct (mapM_from _ _ _ Q0 b Hb) as (t & _ & R). unfold new_read_mixed in R. cbv zeta in R.
      assert (M : forall l, (cs <- mapM (fun t0 => new_specification T x a (List.concat (repeat (words t0) (length l)))) l ;; mk_and cs) = Ok b -> good_cond hs b).
      { intros l M. peel M. apply (and_good _ _ _ M). intros d Hd. destruct (mapM_from _ _ _ Q1 d Hd) as (u & _ & S). exact (spec_good x hs K _ _ _ S). }
      destruct (split_on "&&" t) as [|u [|u' us]]; [exact (M _ R)|exact (spec_good x hs K _ _ _ R)|exact (M _ R)].
    - peel H. apply (or_good _ _ _ H). intros b Hb. destruct (mapM_from _ _ _ Q0 b Hb) as (t & _ & R). exact (spec_good x hs K _ _ _ R).
    - peel H. apply (and_good _ _ _ H). intros b Hb. destruct (mapM_from _ _ _ Q0 b Hb) as (t & _ & R). exact (spec_good x hs K _ _ _ R).
    - exact (spec_good x hs K _ _ _ H).
  Qed.
  Definition tests_texts (c : cond) : Prop := forall l, In l (dlcs c) -> exists t, legal_value (l_parent l) (VStr t) = true.
  Lemma old_cond_good x hs : knows (c_space x) hs -> forall child ts c, slice2 5 1 ts <> [] -> old_read_cond x child ts = Ok c -> good_cond hs c /\ tests_texts c.
  Proof.
    intros K child ts c Ne H. unfold old_read_cond in H. peel H. destruct (named_good _ _ _ _ K Q) as [H1 C1]. destruct (named_good _ _ _ _ K Q1) as [H2 C2].
    assert (GI : forall v vs, mk_in a a1 (map VStr (v :: vs)) = Ok c -> tests_texts c).
    { intros v vs M l Hl. unfold mk_in in M. destruct (negb _); [|discriminate]. destruct (forallb _ _) eqn:F; [|discriminate]. destruct (mapM _ _); [|discriminate]. injection M as <-.
      destruct Hl as [<-|[]]. exists v. cbn in F. apply andb_true_iff in F. apply F. }
    destruct (slice2 5 1 ts) as [|v [|v' vs]]; [contradiction Ne; reflexivity| |].
    - split; [exact (bin_good hs _ _ _ _ _ H1 C1 H2 C2 H)|]. intros l Hl. unfold mk_bin in H. destruct (negb (hp_eqb a a1)); [|discriminate]. destruct (_ || _)%bool; [|discriminate].
      destruct (legal_value a1 (VStr v)) eqn:Lv; [|discriminate]. destruct (to_vector _ _); [|discriminate]. injection H as <-. destruct Hl as [<-|[]]. exists v. exact Lv.
    - split; [exact (in_good hs _ _ _ _ H1 C1 H2 C2 H)|]. exact (GI _ _ H).
  Qed.
  (** the grammar demands a value *)
  Definition at_least (n : nat) (p : parser) : Prop := forall s ts r, p s = Some (ts, r) -> n <= length ts.
  Lemma least_word f : at_least 1 (word f).
  Proof. intros s ts r. unfold word. destruct (span f (skip_white s)) as [[|c w] r']; [discriminate|]. intros [= <- <-]. cbn. lia. Qed.
  Lemma least_literal t : at_least 1 (literal t).
  Proof. intros s ts r. unfold literal. destruct (strip_prefix t (skip_white s)); [|discriminate]. intros [= <- <-]. cbn. lia. Qed.
  Lemma least_then m n p q : at_least m p -> at_least n q -> at_least (m + n) (p >> q).
  Proof.
    intros P Q s ts r. unfold andThen. destruct (p s) as [[a r1]|] eqn:Ep; [|discriminate]. destruct (q r1) as [[b r2]|] eqn:Eq; [|discriminate].
    intros [= <- <-]. rewrite app_length. specialize (P _ _ _ Ep). specialize (Q _ _ _ Eq). lia.
  Qed.
  Lemma least_any p : at_least 0 p.
  Proof. intros s ts r _. lia. Qed.
  Lemma old_cond_values raw ts : old_cond_of raw = Ok ts -> slice2 5 1 ts <> [].
  Proof.
    unfold old_cond_of, parse. destruct (po_cond (Pcs.clean raw)) as [[ts' r]|] eqn:P; [|discriminate]. cbn. intros [= <-].
    assert (A : at_least 7 po_cond).
    { unfold po_cond, p_values, p_name. apply (least_then 1 6); [apply least_word|]. apply (least_then 1 5); [apply least_literal|]. apply (least_then 1 4); [apply least_word|].
      apply (least_then 1 3); [apply least_literal|]. apply (least_then 1 2); [apply least_literal|]. apply (least_then 1 1); [|apply least_literal].
      apply (least_then 1 0); [apply least_word|apply least_any]. }
    specialize (A _ _ _ P). do 7 (destruct ts' as [|? ts']; [cbn in A; lia|]). unfold slice2, slice. cbn. destruct ts'; discriminate.
  Qed.
  Lemma old_child_good x hs cs : knows (c_space x) hs -> (forall ts, In ts cs -> slice2 5 1 ts <> []) -> forall n c, old_read_child x cs n = Ok c -> good_cond hs c /\ tests_texts c.
  Proof.
    intros K Ne n c H. unfold old_read_child in H. peel H.
    assert (G : forall b, In b a -> good_cond hs b /\ tests_texts b).
    { intros b Hb. destruct (mapM_from _ _ _ Q b Hb) as (ts & Hts & R). apply filter_In in Hts. apply (old_cond_good x hs K n ts b (Ne ts (proj1 Hts)) R). }
    assert (M : forall l, (forall b, In b l -> good_cond hs b /\ tests_texts b) -> mk_and l = Ok c -> good_cond hs c /\ tests_texts c).
    { intros l Gl M. split; [apply (and_good _ _ _ M); intros b Hb; apply Gl, Hb|]. unfold mk_and in M.
      repeat match type of M with (if ?b then _ else Err _) = _ => destruct b; [|discriminate M] end. injection M as <-. intros d Hd.
      cbn [dlcs] in Hd. apply in_concat in Hd. destruct Hd as (m & Hm & Hd). apply in_map_iff in Hm. destruct Hm as (b & <- & Hb). exact (proj2 (Gl b Hb) d Hd). }
    destruct a as [|c0 [|c1 cs']]; [exact (M _ G H)| |exact (M _ G H)]. injection H as <-. apply G. left. reflexivity.
  Qed.

  (** grouping by child keeps all conditions *)
  Lemma split_filter {A} (f : A -> bool) l : Permutation (filter f l ++ filter (fun x => negb (f x)) l) l.
  Proof.
    induction l as [|x l IH]; [constructor|]. cbn. destruct (f x); cbn; [constructor; exact IH|].
    eapply Permutation_trans; [symmetry; apply Permutation_middle|]. constructor. exact IH.
  Qed.
  Lemma group_perm {A} (f : A -> string) ns : forall l, NoDup ns -> (forall x, In x l -> In (f x) ns) ->
    Permutation (List.concat (map (fun n => filter (fun x => f x =? n) l) ns)) l.
  Proof.
    induction ns as [|n ns IH]; intros l N H.
    - destruct l as [|x l]; [constructor|destruct (H x (or_introl eq_refl))].
    - inversion N as [|? ? Hn N']; subst. cbn [map List.concat]. eapply Permutation_trans; [|apply (split_filter (fun x => f x =? n))]. apply Permutation_app_head.
      eapply Permutation_trans; [|apply (IH (filter (fun x => negb (f x =? n)) l) N')].
      + replace (map (fun m => filter (fun x => f x =? m) (filter (fun x => negb (f x =? n)) l)) ns) with (map (fun m => filter (fun x => f x =? m) l) ns); [reflexivity|].
        apply map_ext_in. intros m Hm. clear - Hm Hn. induction l as [|x l IH]; [reflexivity|]. cbn. destruct (f x =? n) eqn:Qn; cbn; [|rewrite IH; reflexivity].
        apply String.eqb_eq in Qn. destruct (f x =? m) eqn:Qm; [|exact IH]. apply String.eqb_eq in Qm. congruence.
      + intros x Hx. apply filter_In in Hx. destruct Hx as [Hx Q]. cbv beta in Q. destruct (H x Hx) as [Hn'|I]; [rewrite <- Hn', String.eqb_refl in Q; discriminate Q|exact I].
  Qed.
  Lemma by_child_perm cs : Permutation (by_child cs) cs.
  Proof. apply group_perm; [apply nub_NoDup|]. intros x Hx. apply nub_In, in_map, Hx. Qed.

  Lemma add_each_built hs : forall x hs0 y, cbuilt x hs0 [] [] -> Forall constructed hs -> add_each x hs = Ok y -> cbuilt y (hs0 ++ hs) [] [].
  Proof.
    induction hs as [|h hs IH]; intros x hs0 y C F H; cbn [add_each] in H.
    - injection H as <-. rewrite app_nil_r. exact C.
    - inversion F as [|? ? Fh Fs]; subst. peel H. replace (hs0 ++ h :: hs) with ((hs0 ++ [h]) ++ hs) by (rewrite <- app_assoc; reflexivity).
      apply (IH a (hs0 ++ [h]) y); [|exact Fs|exact H]. apply (cb_add x hs0 [] [] a [h] [] []); [exact C|constructor; [exact Fh|constructor]|constructor|constructor|apply add_raise, Q].
  Qed.
  Lemma add_meta x hs cs fs y : c_add x hs cs fs = (y, Ok tt) -> c_name y = c_name x /\ c_meta y = c_meta x.
  Proof. intros H. destruct (c_add_add _ _ _ _ _ _ H) as (_ & A & B). auto. Qed.
  Lemma add_each_meta hs : forall x y, add_each x hs = Ok y -> c_name y = c_name x /\ c_meta y = c_meta x.
  Proof.
    induction hs as [|h hs IH]; intros x y H; cbn [add_each] in H; [injection H as <-; auto|]. peel H.
    destruct (IH _ _ H) as [-> ->]. apply (add_meta _ _ _ _ _ (add_raise _ _ _ _ _ Q)).
  Qed.

  (** ** The newer format: every line of a hyperparameter, a condition and a clause is one in the space *)
  Theorem C128_new ls y : new_read T ls = Ok y -> exists hs cs fs, cbuilt y hs cs fs /\ refs hs cs fs /\
    length hs = length (of_kind HpLine ls) /\ length cs = length (of_kind CondLine ls) /\ length fs = length (of_kind ForbLine ls) /\
    (forall h, In h hs -> new_kind h) /\ (forall f, In f fs -> equalities f) /\ c_name y = None /\ c_meta y = None.
  Proof.
    intros H. unfold new_read in H. destruct (new_read_lines T ls _) as [st|] eqn:Q; [|discriminate]. cbn [bind] in H.
    apply new_lines_kinds in Q. destruct Q as (hs & tss & x0 & Q1 & Q2 & Q3 & ->). cbn [r_space r_conds r_forbs] in *. cbn [app] in H.
    assert (Gh : forall h, In h hs -> constructed h /\ new_kind h).
    { intros h Hh. destruct (mapM_from _ _ _ Q1 h Hh) as (l & _ & R). exact (new_hp_of_good l h R). }
    assert (C0 : cbuilt x0 hs [] []).
    { apply (add_each_built hs (new_space None None) [] x0 (cb_new _ _)); [|exact Q3]. rewrite Forall_forall. intros h Hh. apply Gh, Hh. }
    peel H. rename a into fs, Q into Qf, a0 into x1, Q0 into A1, a1 into cs, Q4 into Qc. apply add_raise in A1. apply add_raise in H.
    assert (Gf : forall f, In f fs -> forb_built f /\ forb_refs hs f /\ equalities f).
    { intros f Hf. destruct (mapM_from _ _ _ Qf f Hf) as (l & _ & R). exact (new_forb_good x0 hs (cbuilt_knows _ _ _ _ C0) l f R). }
    assert (C1 : cbuilt x1 (hs ++ []) ([] ++ []) ([] ++ fs)).
    { apply (cb_add x0 hs [] [] x1 [] [] fs C0); [constructor|constructor| |exact A1]. rewrite Forall_forall. intros f Hf. apply Gf, Hf. }
    rewrite app_nil_r in C1. cbn [app] in C1.
    assert (Gc : forall c, In c cs -> good_cond hs c).
    { intros c Hc. destruct (mapM_from _ _ _ Qc c Hc) as (l & _ & R). exact (new_cond_good x1 hs (cbuilt_knows _ _ _ _ C1) l c R). }
    assert (C2 : cbuilt y (hs ++ []) ([] ++ cs) (fs ++ [])).
    { apply (cb_add x1 hs [] fs y [] cs [] C1); [constructor| |constructor|exact H]. rewrite Forall_forall. intros c Hc. apply Gc, Hc. }
    rewrite !app_nil_r in C2. cbn [app] in C2. exists hs, cs, fs. split; [exact C2|]. split; [split; [intros c Hc; apply Gc, Hc|intros f Hf; apply Gf, Hf]|].
    apply mapM_length in Q1, Q2, Qf, Qc. rewrite (Permutation_length (by_child_perm tss)) in Qc. rewrite map_length in Qf.
    split; [exact Q1|]. split; [congruence|]. split; [exact Qf|]. split; [intros h Hh; apply Gh, Hh|]. split; [intros f Hf; apply Gf, Hf|].
    destruct (add_meta _ _ _ _ _ H) as [-> ->]. destruct (add_meta _ _ _ _ _ A1) as [-> ->]. exact (add_each_meta _ _ _ Q3).
  Qed.

  (** ** The older format: conditions and clauses are about choices only *)
  Lemma choice_of h t : old_kind h -> legal_value h (VStr t) = true -> choice h.
  Proof. intros [_ K] Lv. unfold choice, legal_value in *. destruct (hp_kind h) as [c w| | | |]; try contradiction; try discriminate Lv. eauto. Qed.
  Theorem C128_old ls y : old_read T ls = Ok y -> exists hs cs fs, cbuilt y hs cs fs /\ refs hs cs fs /\
    length hs = length (of_kind HpLine ls) /\ length cs <= length (of_kind CondLine ls) /\ length fs = length (of_kind ForbLine ls) /\
    (forall h, In h hs -> old_kind h) /\ (forall f, In f fs -> equalities f /\ forall h, In h (forb_hps f) -> choice h) /\
    (forall c l, In c cs -> In l (dlcs c) -> choice (l_parent l)) /\ c_name y = None /\ c_meta y = None.
  Proof.
    intros H. unfold old_read in H. destruct (old_read_lines T ls _) as [st|] eqn:Q; [|discriminate]. cbn [bind] in H.
    apply old_lines_kinds in Q. destruct Q as (hs & tss & Q1 & Q2 & ->). cbn [o_hps o_conds o_forbs app] in H.
    assert (Gh : forall h, In h hs -> constructed h /\ old_kind h).
    { intros h Hh. destruct (mapM_from _ _ _ Q1 h Hh) as (l & _ & R). exact (old_hp_of_good l h R). }
    peel H. rename a into x0, Q into A0, a0 into fs, Q0 into Qf, a1 into cs, Q3 into Qc. apply add_raise in A0. apply add_raise in H.
    assert (C0 : cbuilt x0 ([] ++ hs) ([] ++ []) ([] ++ [])).
    { apply (cb_add (new_space None None) [] [] [] x0 hs [] [] (cb_new _ _)); [|constructor|constructor|exact A0]. rewrite Forall_forall. intros h Hh. apply Gh, Hh. }
    cbn [app] in C0. assert (K := cbuilt_knows _ _ _ _ C0).
    assert (Gf : forall f, In f fs -> forb_built f /\ forb_refs hs f /\ equalities f /\ forall h, In h (forb_hps f) -> choice h).
    { intros f Hf. destruct (mapM_from _ _ _ Qf f Hf) as (l & _ & R). destruct (old_forb_good x0 hs K l f R) as (B & Rf & Eq & Ch). split; [exact B|]. split; [exact Rf|]. split; [exact Eq|].
      intros h Hh. destruct (Ch h Hh) as (t & Lv). exact (choice_of h t (proj2 (Gh h (Rf h Hh))) Lv). }
    assert (Ne : forall ts, In ts tss -> slice2 5 1 ts <> []).
    { intros ts Hts. destruct (mapM_from _ _ _ Q2 ts Hts) as (l & _ & R). exact (old_cond_values l ts R). }
    assert (Gc : forall c, In c cs -> good_cond hs c /\ tests_texts c).
    { intros c Hc. destruct (mapM_from _ _ _ Qc c Hc) as (l & _ & R). exact (old_child_good x0 hs tss K Ne l c R). }
    assert (C2 : cbuilt y (hs ++ []) ([] ++ cs) ([] ++ fs)).
    { apply (cb_add x0 hs [] [] y [] cs fs C0); [constructor| | |exact H]; rewrite Forall_forall; [intros c Hc; apply Gc, Hc|intros f Hf; apply Gf, Hf]. }
    rewrite !app_nil_r in C2. cbn [app] in C2. exists hs, cs, fs. split; [exact C2|]. split; [split; [intros c Hc; apply Gc, Hc|intros f Hf; apply Gf, Hf]|].
    apply mapM_length in Q1, Q2, Qf, Qc. rewrite map_length in Qf. split; [exact Q1|]. split.
    { rewrite Qc, <- Q2, <- (map_length (hd "") tss). apply (NoDup_incl_length (nub_NoDup _)). intros n Hn. apply nub_In, Hn. }
    split; [exact Qf|]. split; [intros h Hh; apply Gh, Hh|]. split; [intros f Hf; apply Gf, Hf|]. split.
    - intros c l Hc Hl. destruct (proj2 (Gc c Hc) l Hl) as (t & Lv). destruct (proj2 (proj1 (Gc c Hc)) l Hl) as [_ Hp]. exact (choice_of _ t (proj2 (Gh _ Hp)) Lv).
    - destruct (add_meta _ _ _ _ _ H) as [-> ->]. exact (add_meta _ _ _ _ _ A0).
  Qed.
End PcsRead.

Section JsonRead.
  Context {E : Env} {L : EnvLaws E}.
  (** ** JSON *)
  Theorem C128_json J t x : from_json J t = Ok x -> exists hs cs fs, cbuilt x hs cs fs /\ refs hs cs fs.
  Proof.
    unfold from_json. destruct (load J t) as [[v|l|d]|]; try discriminate. cbn [bind]. destruct (from_serialized d) as [d' r] eqn:Q. cbn [snd]. intros ->.
    exact (C127_built d d' x Q).
  Qed.
End JsonRead.

Section C128_witness.
  #[local] Existing Instance rat_env.
  Definition new_lines : list string :=
    ["# written by hand"; "n integer [1, 10] [5]"; "b | a == x && n > 2 || n < 7"; "{a=y, n=1}"; "a categorical {x,y} ['x'] # the method"; "b real [0.0,1.0] [0.5]"; "nothing"].
  Example C128_new_ex : exists y hs cs fs, new_read dec_text new_lines = Ok y /\ cbuilt y hs cs fs /\ refs hs cs fs /\ length hs = 3 /\ length cs = 1 /\ length fs = 1 /\
    keys (c_space y) = ["a"; "n"; "b"].
  Proof.
    assert (LA := rat_env_laws).
    assert (R : new_read dec_text new_lines = Ok (get_or (new_space None None) (new_read dec_text new_lines))) by (vm_compute; reflexivity).
    destruct (C128_new dec_text _ _ R) as (hs & cs & fs & C & Rf & L1 & L2 & L3 & _). eexists _, hs, cs, fs. split; [exact R|]. split; [exact C|]. split; [exact Rf|].
    split; [rewrite L1; vm_compute; reflexivity|]. split; [rewrite L2; vm_compute; reflexivity|]. split; [rewrite L3; vm_compute; reflexivity|]. vm_compute. reflexivity.
  Qed.
  Definition old_lines : list string :=
    ["n | a in {y}"; "n | c in {x, y}"; "n [1, 10] [5]i"; "a {x, y} [x]"; "{a=y, c=y}"; "c {x, y} [x]"].
  Example C128_old_ex : exists y hs cs fs, old_read dec_text old_lines = Ok y /\ cbuilt y hs cs fs /\ refs hs cs fs /\ length hs = 3 /\ length fs = 1 /\
    length (conditions (c_space y)) = 1 /\ keys (c_space y) = ["a"; "c"; "n"].
  Proof.
    assert (LA := rat_env_laws).
    assert (R : old_read dec_text old_lines = Ok (get_or (new_space None None) (old_read dec_text old_lines))) by (vm_compute; reflexivity).
    destruct (C128_old dec_text _ _ R) as (hs & cs & fs & C & Rf & L1 & _ & L3 & _). eexists _, hs, cs, fs. split; [exact R|]. split; [exact C|]. split; [exact Rf|].
    split; [rewrite L1; vm_compute; reflexivity|]. split; [rewrite L3; vm_compute; reflexivity|]. split; vm_compute; reflexivity.
  Qed.
End C128_witness.
