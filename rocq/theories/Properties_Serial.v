(** * Properties C50 to C53: the dictionary round trip *)
From Coq Require Import String List ZArith QArith Qround Bool Lia Lqa Permutation Relations Wf_nat Sorted.
From Verif Require Import Base ListFacts Numeric NumericProofs HP HPProofs Properties_HP Cond Forb EqFacts Dag DagCycle DagProofs
  Space CommitProofs Spec SpaceProofs CnodeProofs ForbProofs AddProofs EvalProofs ForbEval MergeProofs ValidProofs ConfigProofs
  ChangeProofs ReadProofs Ex DistProofs Properties_Graph Properties_Eval Properties_Config Properties_Repair Properties_Raise
  Properties_Add Serial.
Import ListNotations.
Open Scope nat_scope.

(** ** Stable sorting commutes with filtering, and keeps sorted lists *)
Section Sort.
  Context {A : Type} (ltb : A -> A -> bool).
  Hypothesis asym : forall a b, ltb a b = true -> ltb b a = false.
  Hypothesis ntrans : forall a b c, ltb b a = false -> ltb c b = false -> ltb c a = false.

  Lemma insert_first x l : (forall z, In z l -> ltb x z = true) -> insert_sorted ltb x l = x :: l.
  Proof. destruct l as [|y l]; intros H; [reflexivity|]. simpl. rewrite (H y (or_introl eq_refl)). reflexivity. Qed.
  Lemma insert_last x l : (forall z, In z l -> ltb x z = false) -> insert_sorted ltb x l = l ++ [x].
  Proof.
    induction l as [|y l IH]; intros H; [reflexivity|]. simpl. rewrite (H y (or_introl eq_refl)). f_equal.
    apply IH. intros z Hz. apply H. right. exact Hz.
  Qed.
  Lemma filter_insert P x l : StronglySorted (leR ltb) l ->
    filter P (insert_sorted ltb x l) = if P x then insert_sorted ltb x (filter P l) else filter P l.
  Proof.
    induction l as [|y l IH]; intros S; simpl.
    - destruct (P x); reflexivity.
    - inversion S as [|? ? S' F]; subst. destruct (ltb x y) eqn:Hxy; simpl.
      + destruct (P x); [|reflexivity]. symmetry. apply (insert_first x (if P y then y :: filter P l else filter P l)).
        assert (G : forall z, In z (y :: l) -> ltb x z = true).
        { intros z [<-|Hz]; [exact Hxy|]. rewrite Forall_forall in F. specialize (F z Hz). unfold leR in F.
          destruct (ltb x z) eqn:Hxz; [reflexivity|]. rewrite (ntrans y z x F Hxz) in Hxy. discriminate. }
        intros z Hz. apply G. destruct (P y); [destruct Hz as [<-|Hz]; [left; reflexivity|]|]; right; apply filter_In in Hz; apply Hz.
      + rewrite (IH S'). destruct (P x), (P y); simpl; rewrite ?Hxy; reflexivity.
  Qed.
  Lemma py_sorted_snoc l x : py_sorted ltb (l ++ [x]) = insert_sorted ltb x (py_sorted ltb l).
  Proof. unfold py_sorted. rewrite fold_left_app. reflexivity. Qed.
  Lemma filter_sorted P l : filter P (py_sorted ltb l) = py_sorted ltb (filter P l).
  Proof.
    induction l as [|x l IH] using rev_ind; [reflexivity|].
    rewrite py_sorted_snoc, filter_insert by (apply py_sorted_sorted; assumption). rewrite IH, filter_app. simpl.
    destruct (P x); [rewrite py_sorted_snoc; reflexivity|rewrite app_nil_r; reflexivity].
  Qed.
  Lemma sorted_same l : StronglySorted (leR ltb) l -> py_sorted ltb l = l.
  Proof.
    induction l as [|x l IH] using rev_ind; intros S; [reflexivity|].
    rewrite py_sorted_snoc. assert (S' : StronglySorted (leR ltb) l /\ forall z, In z l -> ltb x z = false).
    { clear IH. induction l as [|y l IH]; [split; [constructor|intros z []]|]. simpl in S. inversion S as [|? ? S1 F]; subst.
      destruct (IH S1) as [S2 G]. rewrite Forall_forall in F. split.
      - constructor; [exact S2|]. rewrite Forall_forall. intros z Hz. apply F, in_or_app. left. exact Hz.
      - intros z [<-|Hz]; [apply F, in_or_app; right; left; reflexivity|auto]. }
    rewrite (IH (proj1 S')). apply insert_last, S'.
  Qed.
  Lemma filter_strong P l : StronglySorted (leR ltb) l -> StronglySorted (leR ltb) (filter P l).
  Proof.
    induction 1 as [|x l S IH F]; [constructor|]. simpl. destruct (P x); [|exact IH]. constructor; [exact IH|].
    rewrite Forall_forall in *. intros z Hz. apply F. apply filter_In in Hz. apply Hz.
  Qed.
End Sort.

(** ** Hyperparameters *)

Lemma round13_same a : round13 (round13 a) = round13 a.
Proof.
  unfold round13 at 1. assert (P := ten13_pos).
  assert (E : (round13 a * inject_Z ten13 == inject_Z (rint (a * inject_Z ten13)))%Q).
  { unfold round13. field. lra. }
  rewrite (rint_proper _ _ E), rint_Z. reflexivity.
Qed.

(** only a normal float with log=True has a parameter that the encoding may lose: the mean is
    rounded to 13 places, and has to stay positive *)
Definition mean_survives (h : hp) : Prop :=
  match hp_kind h with KFloat _ _ true (DNormal mu _) => (0 < mu)%Q | _ => True end.

Lemma round13_ge1 a : Qltb a 1 = false -> Qltb (round13 a) 1 = false.
Proof.
  intros H. unfold Qltb in *. apply negb_false_iff in H. apply negb_false_iff. apply Qle_bool_iff in H. apply Qle_bool_iff.
  apply round13_mono in H. eapply Qle_trans; [|exact H]. vm_compute. discriminate.
Qed.

Section Serial.
  Context {E : Env} {L : EnvLaws E}.

  Lemma elem_values_back l : mapM elem_value (map DVal l) = Ok l.
  Proof. induction l as [|a l IH]; [reflexivity|]. simpl. rewrite IH. reflexivity. Qed.
  Lemma elem_nums_back l : mapM elem_num (map dfloat l) = Ok l.
  Proof. induction l as [|a l IH]; [reflexivity|]. simpl. rewrite IH. reflexivity. Qed.
  Lemma meta_back m : match dmeta m with
                      | DVal VNone => Ok None | DVal (VStr x) => Ok (Some x) | _ => Err Unmodelled end = Ok m.
  Proof. destruct m; reflexivity. Qed.

  Ltac kill := repeat match goal with
    | H : (if ?b then _ else Err _) = Ok _ |- _ => destruct b eqn:?; [|discriminate H]
    end.

  (** the default, as a variable *)
  Ltac dflt H := cbn [hp_default] in H;
    match type of H with
    | legal_value (mk_hp _ _ (VInt ?x) _) _ = _ => set (d0 := x) in *; clearbody d0
    | legal_value (mk_hp _ _ (VFloat (round13 ?x)) _) _ = _ => set (d0 := x) in *; clearbody d0
    | legal_value (mk_hp _ _ ?x _) _ = _ => set (d0 := x) in *; clearbody d0
    end.

  Definition uni_items n (lo hi d : value) (l : bool) m : dict_t :=
    [("name", dstr n); ("lower", DVal lo); ("upper", DVal hi); ("default_value", DVal d); ("log", DVal (VBool l)); ("meta", dmeta m)]%string.
  Definition shaped_items a b n (x y : Q) (lo hi d : value) (l : bool) m : dict_t :=
    [("name", dstr n); (a, dfloat x); (b, dfloat y); ("lower", DVal lo); ("upper", DVal hi); ("default_value", DVal d);
     ("log", DVal (VBool l)); ("meta", dmeta m)]%string.

  Lemma opt_num_back k q d v : assoc k d = Some (DVal v) -> num_of v = Some q -> arg_opt_num k d = Ok (Some q).
  Proof. unfold arg_opt_num. intros -> H. destruct v; simpl in *; congruence. Qed.
  Lemma num_back k q d v : assoc k d = Some (DVal v) -> num_of v = Some q -> arg_num k d = Ok q.
  Proof. unfold arg_num. intros -> H. rewrite H. reflexivity. Qed.

  Lemma dec_uniform_items f n lo hi d l m ql qh qd : num_of lo = Some ql -> num_of hi = Some qh -> num_of d = Some qd ->
    dec_uniform f (uni_items n lo hi d l m) = f n ql qh (Some qd) l m.
  Proof.
    intros A B C. unfold dec_uniform.
    replace (kw_check _ _ _) with (Ok tt) by reflexivity. cbn [bind].
    replace (arg_str _ _) with (Ok n) by reflexivity. cbn [bind].
    rewrite (num_back "lower" ql _ lo) by (try assumption; reflexivity). cbn [bind].
    rewrite (num_back "upper" qh _ hi) by (try assumption; reflexivity). cbn [bind].
    rewrite (opt_num_back "default_value" qd _ d) by (try assumption; reflexivity). cbn [bind].
    replace (arg_bool _ _) with (Ok l) by reflexivity. cbn [bind].
    replace (arg_meta _) with (Ok m) by (destruct m; reflexivity). reflexivity.
  Qed.
  Lemma dec_normal_items f n x y lo hi d l m ql qh qd : num_of lo = Some ql -> num_of hi = Some qh -> num_of d = Some qd ->
    dec_shaped "mu" "sigma" f (shaped_items "mu" "sigma" n x y lo hi d l m) = f n x y ql qh (Some qd) l m.
  Proof.
    intros A B C. unfold dec_shaped.
    replace (kw_check _ _ _) with (Ok tt) by reflexivity. cbn [bind].
    replace (arg_str _ _) with (Ok n) by reflexivity. cbn [bind].
    rewrite (num_back "mu" x _ (VFloat x)) by reflexivity. cbn [bind].
    rewrite (num_back "sigma" y _ (VFloat y)) by reflexivity. cbn [bind].
    rewrite (num_back "lower" ql _ lo) by (try assumption; reflexivity). cbn [bind].
    rewrite (num_back "upper" qh _ hi) by (try assumption; reflexivity). cbn [bind].
    rewrite (opt_num_back "default_value" qd _ d) by (try assumption; reflexivity). cbn [bind].
    replace (arg_bool _ _) with (Ok l) by reflexivity. cbn [bind].
    replace (arg_meta _) with (Ok m) by (destruct m; reflexivity). reflexivity.
  Qed.
  Lemma dec_beta_items f n x y lo hi d l m ql qh qd : num_of lo = Some ql -> num_of hi = Some qh -> num_of d = Some qd ->
    dec_shaped "alpha" "beta" f (shaped_items "alpha" "beta" n x y lo hi d l m) = f n x y ql qh (Some qd) l m.
  Proof.
    intros A B C. unfold dec_shaped.
    replace (kw_check _ _ _) with (Ok tt) by reflexivity. cbn [bind].
    replace (arg_str _ _) with (Ok n) by reflexivity. cbn [bind].
    rewrite (num_back "alpha" x _ (VFloat x)) by reflexivity. cbn [bind].
    rewrite (num_back "beta" y _ (VFloat y)) by reflexivity. cbn [bind].
    rewrite (num_back "lower" ql _ lo) by (try assumption; reflexivity). cbn [bind].
    rewrite (num_back "upper" qh _ hi) by (try assumption; reflexivity). cbn [bind].
    rewrite (opt_num_back "default_value" qd _ d) by (try assumption; reflexivity). cbn [bind].
    replace (arg_bool _ _) with (Ok l) by reflexivity. cbn [bind].
    replace (arg_meta _) with (Ok m) by (destruct m; reflexivity). reflexivity.
  Qed.

  Lemma finish_legal h : legal_value h (hp_default h) = true -> finish h = Ok h.
  Proof. intros H. unfold finish. rewrite H. reflexivity. Qed.
  Lemma py_int_inject z : py_int (inject_Z z) = z.
  Proof. apply py_int_Z. reflexivity. Qed.

  Lemma hp_back h : constructed h -> mean_survives h -> snd (dec_hp (enc_hp h)) = Ok h.
  Proof.
    intros C S. destruct C as [n c d w m h H|n s d m h H|n v m h H|n lo hi d l m h H|n mu s lo hi d l m h H|n a b lo hi d l m h H
                              |n lo hi d l m h H|n mu s lo hi d l m h H|n a b lo hi d l m h H].
    - unfold mk_categorical in H. kill. destruct c as [|c0 c]; [destruct w; discriminate|].
      apply finish_ok in H. destruct H as [-> H]. dflt H.
      assert (W : match w with Some (x :: w') => DList (map dfloat (x :: w')) | _ => DVal VNone end =
                  match w with Some w' => DList (map dfloat w') | None => DVal VNone end).
      { destruct w as [[|]|]; [discriminate|reflexivity|reflexivity]. }
      transitivity (dec_categorical [("name", dstr n); ("choices", DList (map DVal (c0 :: c)));
         ("weights", match w with Some w' => DList (map dfloat w') | None => DVal VNone end);
         ("default_value", DVal d0); ("meta", dmeta m)]%string).
      { rewrite <- W. reflexivity. }
      unfold dec_categorical.
      replace (kw_check _ _ _) with (Ok tt) by reflexivity. cbn [bind].
      replace (arg_str _ _) with (Ok n) by reflexivity. cbn [bind].
      replace (arg_values _ _) with (Ok (c0 :: c)) by (symmetry; apply elem_values_back). cbn [bind].
      replace (arg_opt_value _ _) with (Ok (Some d0)) by reflexivity. cbn [bind].
      replace (arg_weights _) with (Ok w).
      2: { destruct w as [w|]; [|reflexivity]. unfold arg_weights. cbn [assoc String.eqb Ascii.eqb Bool.eqb]. rewrite elem_nums_back. reflexivity. }
      cbn [bind]. replace (arg_meta _) with (Ok m) by (destruct m; reflexivity). cbn [bind].
      unfold mk_categorical. rewrite Heqb, Heqb0. unfold legal_value in H. cbn [hp_kind] in H. rewrite H. cbn [negb].
      apply finish_legal. exact H.
    - assert (Hs : exists d0, h = mk_hp n (KOrd s) d0 m /\ has_dup s = false /\ py_in d0 s = true).
      { unfold mk_ordinal in H. kill. apply negb_true_iff in Heqb.
        destruct d as [d|]; [kill|destruct s; [discriminate|]]; apply finish_ok in H; destruct H as [-> H]; eauto. }
      destruct Hs as (d0 & -> & Hd & Hl).
      transitivity (dec_ordinal [("name", dstr n); ("sequence", DList (map DVal s)); ("default_value", DVal d0); ("meta", dmeta m)]%string).
      { reflexivity. }
      unfold dec_ordinal.
      replace (kw_check _ _ _) with (Ok tt) by reflexivity. cbn [bind].
      replace (arg_str _ _) with (Ok n) by reflexivity. cbn [bind].
      replace (arg_values _ _) with (Ok s) by (symmetry; apply elem_values_back). cbn [bind].
      replace (arg_opt_value _ _) with (Ok (Some d0)) by reflexivity. cbn [bind].
      replace (arg_meta _) with (Ok m) by (destruct m; reflexivity). cbn [bind].
      unfold mk_ordinal. rewrite Hd, Hl. cbn [negb]. apply finish_legal. exact Hl.
    - unfold mk_constant in H. apply finish_ok in H. destruct H as [-> H].
      transitivity (dec_constant [("name", dstr n); ("value", DVal v); ("meta", dmeta m)]%string). { reflexivity. }
      unfold dec_constant.
      replace (kw_check _ _ _) with (Ok tt) by reflexivity. cbn [bind].
      replace (arg_str _ _) with (Ok n) by reflexivity. cbn [bind].
      replace (arg_value _ _) with (Ok v) by reflexivity. cbn [bind].
      replace (arg_meta _) with (Ok m) by (destruct m; reflexivity). cbn [bind].
      apply finish_legal. exact H.
    - unfold mk_uniform_int in H. kill.
      apply finish_ok in H. destruct H as [-> H]. dflt H.
      transitivity (dec_uniform mk_uniform_int (uni_items n (VInt (rint lo)) (VInt (rint hi)) (VInt (py_int (inject_Z d0))) l m)).
      { reflexivity. }
      rewrite py_int_inject, (dec_uniform_items _ _ _ _ _ _ _ (inject_Z (rint lo)) (inject_Z (rint hi)) (inject_Z d0)) by reflexivity.
      unfold mk_uniform_int. rewrite !rint_Z, is_close_to_integer_Z, Heqb0, py_int_inject. apply finish_legal. exact H.
    - unfold mk_normal_int in H. kill.
      apply finish_ok in H. destruct H as [-> H]. dflt H.
      transitivity (dec_shaped "mu" "sigma" mk_normal_int (shaped_items "mu" "sigma" n mu s (VInt (rint lo)) (VInt (rint hi)) (VInt (py_int (inject_Z d0))) l m)).
      { reflexivity. }
      rewrite py_int_inject, (dec_normal_items _ _ _ _ _ _ _ _ _ (inject_Z (rint lo)) (inject_Z (rint hi)) (inject_Z d0)) by reflexivity.
      unfold mk_normal_int. rewrite Heqb, !rint_Z, is_close_to_integer_Z, Heqb0. apply finish_legal. exact H.
    - unfold mk_beta_int in H. kill.
      apply finish_ok in H. destruct H as [-> H]. dflt H.
      transitivity (dec_shaped "alpha" "beta" mk_beta_int (shaped_items "alpha" "beta" n a b (VInt (rint lo)) (VInt (rint hi)) (VInt (py_int (inject_Z d0))) l m)).
      { reflexivity. }
      rewrite py_int_inject, (dec_beta_items _ _ _ _ _ _ _ _ _ (inject_Z (rint lo)) (inject_Z (rint hi)) (inject_Z d0)) by reflexivity.
      unfold mk_beta_int. rewrite Heqb0, !rint_Z, is_close_to_integer_Z, Heqb1. apply finish_legal. exact H.
    - unfold mk_uniform_float in H. kill.
      apply finish_ok in H. destruct H as [-> H]. dflt H.
      transitivity (dec_uniform mk_uniform_float (uni_items n (VFloat (round13 lo)) (VFloat (round13 hi)) (VFloat (round13 d0)) l m)).
      { reflexivity. }
      rewrite (dec_uniform_items _ _ _ _ _ _ _ (round13 lo) (round13 hi) (round13 d0)) by reflexivity.
      unfold mk_uniform_float. rewrite !round13_same, Heqb. apply finish_legal. exact H.
    - unfold mk_normal_float in H. kill.
      apply finish_ok in H. destruct H as [-> H]. dflt H.
      transitivity (dec_shaped "mu" "sigma" mk_normal_float (shaped_items "mu" "sigma" n (round13 mu) (round13 s) (VFloat (round13 lo)) (VFloat (round13 hi)) (VFloat (round13 d0)) l m)).
      { reflexivity. }
      rewrite (dec_normal_items _ _ _ _ _ _ _ _ _ (round13 lo) (round13 hi) (round13 d0)) by reflexivity.
      unfold mk_normal_float. rewrite !round13_same, Heqb0.
      replace (negb (Qle_bool (round13 mu) 0 && l)) with true. { apply finish_legal. exact H. }
      unfold mean_survives in S. cbn [hp_kind] in S. destruct l; [|rewrite andb_false_r; reflexivity].
      destruct (Qle_bool (round13 mu) 0) eqn:Q; [|reflexivity]. apply Qle_bool_iff in Q. lra.
    - unfold mk_beta_float in H. kill.
      apply finish_ok in H. destruct H as [-> H]. dflt H.
      transitivity (dec_shaped "alpha" "beta" mk_beta_float (shaped_items "alpha" "beta" n (round13 a) (round13 b) (VFloat (round13 lo)) (VFloat (round13 hi)) (VFloat (round13 d0)) l m)).
      { reflexivity. }
      rewrite (dec_beta_items _ _ _ _ _ _ _ _ _ (round13 lo) (round13 hi) (round13 d0)) by reflexivity.
      unfold mk_beta_float. rewrite !round13_same.
      apply negb_true_iff, orb_false_iff in Heqb0. destruct Heqb0 as [B1 B2]. rewrite (round13_ge1 _ B1), (round13_ge1 _ B2). cbn [orb negb].
      rewrite Heqb1. apply finish_legal. exact H.
  Qed.
  (** C50.  Missing: normal floats with log=True whose mean is rounded to 0 (C50_refuted). *)
  Theorem C50_partial h : constructed h -> mean_survives h ->
    snd (dec_hp (enc_hp h)) = Ok h /\ hp_eqb h h = true.
  Proof. intros C S. split; [apply hp_back; assumption|apply hp_eqb_refl, constructed_wf, C]. Qed.

  (** ** Conditions and clauses *)
  Lemma collect_ok {X} (dec : data -> data * res X) (enc : X -> data) xs :
    (forall x, In x xs -> snd (dec (enc x)) = Ok x) ->
    snd (collect (map enc xs) (map dec (map enc xs))) = Ok xs.
  Proof.
    induction xs as [|x xs IH]; intros H; [reflexivity|]. simpl.
    specialize (IH (fun y Hy => H y (or_intror Hy))). assert (H0 := H x (or_introl eq_refl)).
    destruct (dec (enc x)) as [x' r]. simpl in H0. subst r.
    destruct (collect (map enc xs) (map dec (map enc xs))) as [l r]. simpl in *. rewrite IH. reflexivity.
  Qed.

  (** the space finds every hyperparameter of [hs] under its name *)
  Definition finds (s : space) (hs : list hp) : Prop := forall h, In h hs -> get_hp s (hp_name h) = Some h.

  Lemma refs_and hs cs c : cond_refs hs (CAnd cs) -> In c cs -> cond_refs hs c.
  Proof. intros R Hc l Hl. apply R. simpl. eapply dlcs_in_and; eauto. Qed.
  Lemma refs_or hs cs c : cond_refs hs (COr cs) -> In c cs -> cond_refs hs c.
  Proof. intros R Hc l Hl. apply R. simpl. eapply dlcs_in_and; eauto. Qed.

  Lemma cond_back s hs : finds s hs -> forall c, cond_built c -> cond_refs hs c -> snd (dec_cond s (enc_cond c)) = Ok c.
  Proof.
    intros F. induction c as [l|cs IH|cs IH] using cond_ind'; intros B R.
    - destruct (R l (or_introl eq_refl)) as [R1 R2]. inversion B as [o ch p v c C1 C2 H|ch p vs c C1 C2 H|cs c _ H|cs c _ H]; subst.
      + assert (H' := H). unfold mk_bin in H. kill. destruct (to_vector p v) as [vv|] eqn:Ev; [|discriminate]. simpl in H.
        injection H as <-. simpl in R1, R2.
        transitivity (dec_bin s o [("child", dstr (hp_name ch)); ("parent", dstr (hp_name p)); ("value", DVal v)]%string).
        { destruct o; reflexivity. }
        unfold dec_bin.
        replace (hp_ref s "child" _) with (Ok ch) by (unfold hp_ref; simpl; rewrite (F _ R1); reflexivity). cbn [bind].
        replace (hp_ref s "parent" _) with (Ok p) by (unfold hp_ref; simpl; rewrite (F _ R2); reflexivity). cbn [bind].
        exact H'.
      + assert (H' := H). unfold mk_in in H. kill. destruct (mapM (to_vector p) vs) as [vvs|] eqn:Ev; [|discriminate]. simpl in H.
        injection H as <-. simpl in R1, R2.
        transitivity (dec_in s [("child", dstr (hp_name ch)); ("parent", dstr (hp_name p)); ("values", DList (map DVal vs))]%string).
        { reflexivity. }
        unfold dec_in.
        replace (hp_ref s "child" _) with (Ok ch) by (unfold hp_ref; simpl; rewrite (F _ R1); reflexivity). cbn [bind].
        replace (hp_ref s "parent" _) with (Ok p) by (unfold hp_ref; simpl; rewrite (F _ R2); reflexivity). cbn [bind].
        replace (item_values "values" _) with (Ok vs) by (symmetry; apply elem_values_back). cbn [bind]. exact H'.
      + unfold mk_and in H. kill. discriminate.
      + unfold mk_or in H. kill. discriminate.
    - assert (B' : mk_and cs = Ok (CAnd cs) /\ forall x, In x cs -> cond_built x).
      { inversion B as [o ch p v c C1 C2 H|ch p vs c C1 C2 H|ds c D H|ds c D H]; subst.
        - unfold mk_bin in H. kill. destruct (to_vector p v); discriminate.
        - unfold mk_in in H. kill. destruct (mapM (to_vector p) vs); discriminate.
        - assert (H' := H). unfold mk_and in H. kill. injection H as ->. auto.
        - unfold mk_or in H. kill. discriminate. }
      destruct B' as [M B']. assert (S := collect_ok (dec_cond s) enc_cond cs).
      cbn. rewrite map_map in S |- *. destruct (collect _ _) as [l r]. simpl in *. rewrite S; [exact M|].
      intros x Hx. rewrite Forall_forall in IH. apply (IH x Hx (B' x Hx)). eapply refs_and; eauto.
    - assert (B' : mk_or cs = Ok (COr cs) /\ forall x, In x cs -> cond_built x).
      { inversion B as [o ch p v c C1 C2 H|ch p vs c C1 C2 H|ds c D H|ds c D H]; subst.
        - unfold mk_bin in H. kill. destruct (to_vector p v); discriminate.
        - unfold mk_in in H. kill. destruct (mapM (to_vector p) vs); discriminate.
        - unfold mk_and in H. kill. discriminate.
        - assert (H' := H). unfold mk_or in H. kill. injection H as ->. auto. }
      destruct B' as [M B']. assert (S := collect_ok (dec_cond s) enc_cond cs).
      cbn. rewrite map_map in S |- *. destruct (collect _ _) as [l r]. simpl in *. rewrite S; [exact M|].
      intros x Hx. rewrite Forall_forall in IH. apply (IH x Hx (B' x Hx)). eapply refs_or; eauto.
  Qed.

  Lemma forb_back s hs : finds s hs -> forall f, forb_built f -> forb_refs hs f -> snd (dec_forb s (enc_forb f)) = Ok f.
  Proof.
    intros F. induction f as [h v vv|h vs vvs|r a b|cs IH] using fclause_ind'; intros B R.
    - assert (M : mk_feq h v = Ok (FEq h v vv)).
      { inversion B as [h0 v0 f C H|h0 v0 f C H|r a b f C1 C2 H|cs f D H]; subst; try discriminate.
        - assert (H' := H). unfold mk_feq in H. kill. destruct (to_vector h0 v0); [|discriminate]. injection H as -> -> ->. exact H'.
        - unfold mk_fin in H. kill. destruct (mapM (to_vector h0) v0); discriminate. }
      unfold dec_forb. cbn. unfold dec_feq.
      replace (hp_ref s "name" _) with (Ok h) by (unfold hp_ref; simpl; rewrite (F h (R h (or_introl eq_refl))); reflexivity).
      exact M.
    - assert (M : mk_fin h vs = Ok (FIn h vs vvs)).
      { inversion B as [h0 v0 f C H|h0 v0 f C H|r a b f C1 C2 H|cs f D H]; subst; try discriminate.
        - unfold mk_feq in H. kill. destruct (to_vector h0 v0); discriminate.
        - assert (H' := H). unfold mk_fin in H. kill. destruct (mapM (to_vector h0) v0); [|discriminate]. injection H as -> -> ->. exact H'. }
      unfold dec_forb. cbn. unfold dec_fin.
      replace (hp_ref s "name" _) with (Ok h) by (unfold hp_ref; simpl; rewrite (F h (R h (or_introl eq_refl))); reflexivity).
      replace (item_values "values" _) with (Ok vs) by (symmetry; apply elem_values_back). exact M.
    - transitivity (dec_frel s r [("left", dstr (hp_name a)); ("right", dstr (hp_name b))]%string).
      { destruct r; reflexivity. }
      unfold dec_frel.
      replace (hp_ref s "left" _) with (Ok a) by (unfold hp_ref; simpl; rewrite (F a (R a (or_introl eq_refl))); reflexivity).
      replace (hp_ref s "right" _) with (Ok b) by (unfold hp_ref; simpl; rewrite (F b (R b (or_intror (or_introl eq_refl)))); reflexivity).
      reflexivity.
    - assert (B' : forall x, In x cs -> forb_built x).
      { inversion B as [h0 v0 f C H|h0 v0 f C H|r a b f C1 C2 H|ds f D H]; subst; try discriminate.
        - unfold mk_feq in H. kill. destruct (to_vector h0 v0); discriminate.
        - unfold mk_fin in H. kill. destruct (mapM (to_vector h0) v0); discriminate.
        - injection H as ->. exact D. }
      assert (S := collect_ok (dec_forb s) enc_forb cs).
      cbn. rewrite map_map in S |- *. destruct (collect _ _) as [l r]. simpl in *. rewrite S; [reflexivity|].
      intros x Hx. rewrite Forall_forall in IH. apply (IH x Hx (B' x Hx)). intros h Hh. apply R. unfold forb_hps in *. apply in_concat in Hh. destruct Hh as (g & Hg & Hh). apply in_map_iff in Hg.
      destruct Hg as (y & <- & Hy). apply in_concat. exists (leaf_hps y). split; [|exact Hh]. apply in_map. simpl.
      apply in_concat. exists (fdlcs x). split; [apply in_map; exact Hx|exact Hy].
  Qed.

  (** C51: a condition or clause of a space, encoded and decoded against a space with the same
      hyperparameters, comes back as it was.

      Missing: conditions and clauses about hyperparameters that are not those of the space
      (C51_refuted). *)
  Theorem C51_condition_partial s hs cs fs s' cs' fs' c : built s hs cs fs -> built s' hs cs' fs' -> In c cs -> cond_refs hs c ->
    snd (dec_cond s' (enc_cond c)) = Ok c /\ cond_eqb c c = true.
  Proof.
    intros B B' Hc R. assert (O := built_ok _ _ _ _ B). assert (O' := built_ok _ _ _ _ B'). assert (Bc := so_cond_built O c Hc). split.
    - apply (cond_back s' hs); [|exact Bc|exact R]. intros h Hh. apply (so_get_hp O'). auto.
    - apply cond_eqb_refl, cond_built_wf, Bc.
  Qed.
  Theorem C51_clause_partial s hs cs fs s' cs' fs' f : built s hs cs fs -> built s' hs cs' fs' -> In f fs -> forb_refs hs f ->
    snd (dec_forb s' (enc_forb f)) = Ok f.
  Proof.
    intros B B' Hf R. assert (O := built_ok _ _ _ _ B). assert (O' := built_ok _ _ _ _ B').
    apply (forb_back s' hs); [|apply (so_forb_built O f Hf)|exact R]. intros h Hh. apply (so_get_hp O'). auto.
  Qed.

  (** ** Clauses in the order of a commit *)
  Lemma forb_ltb_asym f g : forb_ltb f g = true -> forb_ltb g f = false.
  Proof.
    unfold forb_ltb. intros H. destruct (String.ltb (forb_str g) (forb_str f)) eqn:G; [|reflexivity].
    assert (K := key_ltb_asym (0, forb_str f) (0, forb_str g)). unfold key_ltb in K. simpl in K. rewrite H in K. specialize (K eq_refl).
    congruence.
  Qed.
  Lemma forb_ltb_ntrans a b c : forb_ltb b a = false -> forb_ltb c b = false -> forb_ltb c a = false.
  Proof. unfold forb_ltb. apply str_ltb_ntrans. Qed.

  Lemma commit_forbs d d' : commit d = (d', Ok tt) ->
    d_uforb d' = py_sorted forb_ltb (filter (is_unconditional (d_roots d')) (d_forbs d)) /\
    d_cforb d' = py_sorted forb_ltb (filter (fun f => negb (is_unconditional (d_roots d') f)) (d_forbs d)).
  Proof.
    rewrite <- !(filter_sorted forb_ltb forb_ltb_asym forb_ltb_ntrans).
    unfold commit. cbv zeta.
    destruct (optimized _ _) as [fast|e] eqn:Eo; [|discriminate].
    destruct (min_conds _ _ _ _) as [mc|e] eqn:Em; [|discriminate].
    destruct (change_lookup _ _ _) as [lk|e] eqn:El; [|discriminate].
    intros H. inversion H; subst; clear H. simpl. auto.
  Qed.

  (** the DAG before the commit *)
  Lemma update_body d hs cs fs d' : dag_update d hs cs fs = (d', Ok tt) ->
    exists d3, body d hs cs fs = Some d3 /\ commit d3 = (d', Ok tt).
  Proof.
    unfold dag_update, body. destruct (run dag_add hs d) as [d1 [[]|e]]; [|discriminate].
    destruct (run dag_add_condition cs d1) as [d2 [[]|e]]; [|discriminate].
    destruct (run dag_add_forbidden fs d2) as [d3 [[]|e]]; [|discriminate]. eauto.
  Qed.
  Lemma add_update s hs cs fs s' : add s hs cs fs = (s', Ok tt) -> dag_update (s_dag s) hs cs fs = (s_dag s', Ok tt).
  Proof.
    unfold add. destruct (dag_update (s_dag s) hs cs fs) as [d [[]|e]]; [|discriminate].
    destruct (check_default_configuration _); [|discriminate]. intros [= <-]. reflexivity.
  Qed.

  Lemma built_forbs s hs cs fs : built s hs cs fs ->
    StronglySorted (leR forb_ltb) (d_uforb (s_dag s)) /\ StronglySorted (leR forb_ltb) (d_cforb (s_dag s)).
  Proof.
    intros B. inversion B as [|s0 hs0 cs0 fs0 s' hs' cs' fs' B0 _ _ _ H|s0 hs0 cs0 fs0 s1 hs1 cs1 fs1 s' hs' cs' fs' B0 _ _ _ _ H]; subst; [split; constructor| |];
    apply add_update, update_body in H; destruct H as (d3 & _ & H); apply commit_forbs in H; destruct H as [-> ->];
    split; apply py_sorted_sorted; (exact forb_ltb_asym || exact forb_ltb_ntrans).
  Qed.

  Lemma run_cond_forbs cs : forall d d', run dag_add_condition cs d = (d', Ok tt) ->
    d_forbs d' = d_forbs d /\ d_uforb d' = d_uforb d /\ d_cforb d' = d_cforb d /\ d_roots d' = d_roots d.
  Proof.
    induction cs as [|c cs IH]; intros d d' H; simpl in H; [injection H as <-; auto|].
    unfold dag_add_condition in H at 1. destruct (add_condition (d_nodes d) c) as [ns [[]|e]]; [|discriminate].
    apply IH in H. exact H.
  Qed.
  Lemma run_forb_all fs : forall d d', run dag_add_forbidden fs d = (d', Ok tt) ->
    (forall f, In f fs -> is_unconditional (d_roots d) f = true) ->
    d_uforb d' = d_uforb d ++ fs /\ d_cforb d' = d_cforb d.
  Proof.
    induction fs as [|f fs IH]; intros d d' H U; simpl in H; [injection H as <-; rewrite app_nil_r; auto|].
    unfold dag_add_forbidden in H at 1. destruct (forallb _ _); [|discriminate].
    rewrite (U f (or_introl eq_refl)) in H. apply IH in H; [|intros g Hg; apply U; right; exact Hg].
    destruct H as [-> ->]. simpl. rewrite <- app_assoc. auto.
  Qed.
  (** without clauses and conditions so far, all new clauses are recorded as unconditional *)
  Lemma body_fresh s hs cs fs d : space_ok s hs [] [] -> body (s_dag s) [] cs fs = Some d ->
    (forall f n, In f fs -> In n (forb_names f) -> In n (keys s)) -> d_forbs d = fs.
  Proof.
    intros O H N. unfold body in H. simpl in H.
    destruct (run dag_add_condition cs (s_dag s)) as [d2 [[]|e]] eqn:E2; [|discriminate].
    destruct (run dag_add_forbidden fs d2) as [d3 [[]|e]] eqn:E3; [|discriminate]. injection H as <-.
    apply run_cond_forbs in E2. destruct E2 as (_ & U & C & R).
    assert (P := di_forb _ _ _ _ (so_inv _ _ _ _ O)). apply Permutation_sym, Permutation_nil in P. unfold d_forbs in P.
    apply app_eq_nil in P. destruct P as [P1 P2].
    apply run_forb_all in E3.
    - unfold d_forbs. destruct E3 as [-> ->]. rewrite U, C, P1, P2, app_nil_r. reflexivity.
    - intros f Hf. rewrite R. unfold is_unconditional. apply forallb_forall. intros n Hn. apply str_in_iff.
      apply (so_root O). split; [eapply N; eauto|]. destruct (condof _ n) as [c|] eqn:Ec; [|reflexivity].
      apply (so_condof_in O) in Ec. destruct Ec as [[] _].
  Qed.

  Lemma forb_cmp_refl f : forb_built f -> forall back, forb_cmp back f f = true.
  Proof.
    assert (Hh : forall h, constructed h -> hp_eqb h h = true) by (intros h C; apply hp_eqb_refl, constructed_wf, C).
    induction f as [h v vv|h vs vvs|r a b|cs IH] using fclause_ind'; intros B back.
    - assert (C : constructed h).
      { inversion B as [h0 v0 f C H|h0 v0 f C H|r a b f C1 C2 H|cs f D H]; subst; try discriminate.
        - unfold mk_feq in H. kill. destruct (to_vector h0 v0); [|discriminate]. injection H as -> -> ->. exact C.
        - unfold mk_fin in H. kill. destruct (mapM (to_vector h0) v0); discriminate. }
      simpl. rewrite (Hh _ C), py_eqb_refl. destruct back; reflexivity.
    - assert (C : constructed h).
      { inversion B as [h0 v0 f C H|h0 v0 f C H|r a b f C1 C2 H|cs f D H]; subst; try discriminate.
        - unfold mk_feq in H. kill. destruct (to_vector h0 v0); discriminate.
        - unfold mk_fin in H. kill. destruct (mapM (to_vector h0) v0); [|discriminate]. injection H as -> -> ->. exact C. }
      assert (K : forallb (fun v => py_in v vs) vs = true).
      { apply forallb_forall. intros v Hv. apply existsb_exists. exists v. split; [exact Hv|apply py_eqb_refl]. }
      simpl. rewrite (Hh _ C), Nat.eqb_refl, K. destruct back; reflexivity.
    - assert (C : constructed a /\ constructed b).
      { inversion B as [h0 v0 f C H|h0 v0 f C H|r0 a0 b0 f C1 C2 H|cs f D H]; subst; try discriminate.
        - unfold mk_feq in H. kill. destruct (to_vector h0 v0); discriminate.
        - unfold mk_fin in H. kill. destruct (mapM (to_vector h0) v0); discriminate.
        - injection H as -> -> ->. auto. }
      simpl. rewrite (Hh a), (Hh b) by apply C. destruct r, back; reflexivity.
    - assert (B' : forall x, In x cs -> forb_built x).
      { inversion B as [h0 v0 f C H|h0 v0 f C H|r a b f C1 C2 H|ds f D H]; subst; try discriminate.
        - unfold mk_feq in H. kill. destruct (to_vector h0 v0); discriminate.
        - unfold mk_fin in H. kill. destruct (mapM (to_vector h0) v0); discriminate.
        - injection H as ->. exact D. }
      rewrite Forall_forall in IH. simpl. rewrite Nat.eqb_refl. simpl. apply andb_true_iff.
      split; apply forallb_forall; intros x Hx; apply existsb_exists; exists x; (split; [exact Hx|apply IH; auto]).
  Qed.
  Lemma forb_eqb_refl f : forb_built f -> forb_eqb f f = true.
  Proof. intros B. apply forb_cmp_refl, B. Qed.
  Lemma forbs_eqb_refl l : Forall forb_built l -> list_eqb forb_eqb l l = true.
  Proof. induction 1 as [|f l B _ IH]; [reflexivity|]. simpl. rewrite (forb_eqb_refl f B). exact IH. Qed.

  (** ** Spaces *)

  (** calls of add() on a space object that raise, as in Spec *)
  Inductive ctried : cspace -> list hp -> list cond -> list fclause -> cspace -> list hp -> list cond -> list fclause -> Prop :=
  | ct_none x hs cs fs : ctried x hs cs fs x hs cs fs
  | ct_more x hs cs fs x1 hs1 cs1 fs1 hs' cs' fs' hs2 cs2 fs2 :
      ctried x hs cs fs x1 hs1 cs1 fs1 -> Forall constructed hs' -> Forall cond_built cs' -> Forall forb_built fs' ->
      refused (c_space x1) hs1 cs1 hs' cs' fs' hs2 cs2 fs2 ->
      ctried x hs cs fs (fst (c_add x1 hs' cs' fs')) (hs1 ++ hs2) (cs1 ++ cs2) (fs1 ++ fs2).
  (** a space object that add() calls made, the last of which succeeded *)
  Inductive cbuilt : cspace -> list hp -> list cond -> list fclause -> Prop :=
  | cb_new n m : cbuilt (new_space n m) [] [] []
  | cb_add x hs cs fs x' hs' cs' fs' : cbuilt x hs cs fs ->
      Forall constructed hs' -> Forall cond_built cs' -> Forall forb_built fs' ->
      c_add x hs' cs' fs' = (x', Ok tt) -> cbuilt x' (hs ++ hs') (cs ++ cs') (fs ++ fs')
  | cb_after x hs cs fs x1 hs1 cs1 fs1 x' hs' cs' fs' : cbuilt x hs cs fs -> ctried x hs cs fs x1 hs1 cs1 fs1 ->
      Forall constructed hs' -> Forall cond_built cs' -> Forall forb_built fs' ->
      c_add x1 hs' cs' fs' = (x', Ok tt) -> cbuilt x' (hs1 ++ hs') (cs1 ++ cs') (fs1 ++ fs').

  Lemma c_add_add x hs cs fs x' r : c_add x hs cs fs = (x', r) ->
    add (c_space x) hs cs fs = (c_space x', r) /\ c_name x' = c_name x /\ c_meta x' = c_meta x.
  Proof. unfold c_add. destruct (add (c_space x) hs cs fs) as [s r0]. intros [= <- <-]. auto. Qed.
  Lemma ctried_tried x hs cs fs x1 hs1 cs1 fs1 : ctried x hs cs fs x1 hs1 cs1 fs1 -> tried (c_space x) hs cs fs (c_space x1) hs1 cs1 fs1.
  Proof.
    induction 1 as [|x hs cs fs x1 hs1 cs1 fs1 hs' cs' fs' hs2 cs2 fs2 T IH C1 C2 C3 R]; [constructor|].
    replace (c_space (fst (c_add x1 hs' cs' fs'))) with (fst (add (c_space x1) hs' cs' fs')); [econstructor; eauto|].
    unfold c_add. destruct (add (c_space x1) hs' cs' fs'). reflexivity.
  Qed.
  Lemma cbuilt_built x hs cs fs : cbuilt x hs cs fs -> built (c_space x) hs cs fs.
  Proof.
    induction 1 as [n m|x hs cs fs x' hs' cs' fs' B IH A1 A2 A3 H|x hs cs fs x1 hs1 cs1 fs1 x' hs' cs' fs' B IH T A1 A2 A3 H]; [constructor| |].
    - apply c_add_add in H. eapply built_add; eauto. apply H.
    - apply c_add_add in H. eapply built_after; [exact IH|apply ctried_tried; exact T|exact A1|exact A2|exact A3|apply H].
  Qed.

  (** no two conditions in force have the same string representation (see C58) *)
  Definition distinct_strings (s : space) : Prop :=
    forall n n' c c', in_force s n c -> in_force s n' c' -> cond_str c = cond_str c' -> c = c'.

  Definition round_trip (x : cspace) : res cspace := snd (from_serialized (to_serialized x)).

  (** the conditions that a space lists are those in force *)
  Lemma listed s hs cs fs : built s hs cs fs -> distinct_strings s ->
    forall c, In c (conditions s) <-> exists n, condof (d_nodes (s_dag s)) n = Some c.
  Proof.
    intros B U c. assert (O := built_ok _ _ _ _ B). destruct (C58_partial s hs cs fs B) as (P1 & _ & _ & _ & P5).
    assert (G : forall n, in_force s n c <-> condof (d_nodes (s_dag s)) n = Some c).
    { intros n. unfold in_force. rewrite (so_conds_of O). destruct (condof (d_nodes (s_dag s)) n) as [c'|].
      - split; [intros [->|[]]; reflexivity|intros [= ->]; left; reflexivity].
      - split; [intros []|discriminate]. }
    split.
    - intros H. destruct (P1 c H) as (n & Hn & _). exists n. apply G, Hn.
    - intros (n & Hn). apply (P5 U n). apply G, Hn.
  Qed.

  Lemma listed_reads s hs cs fs : built s hs cs fs -> distinct_strings s ->
    forall p c, reads cs p c <-> reads (conditions s) p c.
  Proof.
    intros B U p c. assert (O := built_ok _ _ _ _ B). assert (Ls := listed s hs cs fs B U). split.
    - intros H. apply (so_edge O), edge_clook in H. destruct H as (cnd & H). rewrite (co_link _ (g_core _ (so_graph O))) in H.
      assert (Hc := g_label _ (so_graph O) _ _ _ H). exists cnd. split; [apply Ls; eauto|].
      split; [apply (so_condof_in O _ _ Hc)|]. apply (g_parents _ (so_graph O) _ _ Hc). eauto.
    - intros (cnd & H & A & P). exists cnd. split; [|auto]. apply Ls in H. destruct H as (n & H). apply (so_condof_in O _ _ H).
  Qed.

  (** the round trip is two calls of add() *)
  Lemma round_trip_eq x hs cs fs : cbuilt x hs cs fs -> refs hs cs fs -> (forall h, In h hs -> mean_survives h) ->
    distinct_strings (c_space x) ->
    round_trip x = let (x1, r1) := c_add (new_space (c_name x) None) (Space.hps (c_space x)) [] [] in
                   match r1 with
                   | Err e => Err e
                   | Ok _ => let (x2, r2) := c_add x1 [] (conditions (c_space x)) (forbidden_clauses (c_space x)) in
                             match r2 with Err e => Err e | Ok _ => Ok x2 end
                   end.
  Proof.
    intros CB R MS U. assert (B := cbuilt_built _ _ _ _ CB). assert (O := built_ok _ _ _ _ B).
    assert (Ph := so_hps O). unfold round_trip, from_serialized, to_serialized.
    replace (get_name _) with (Ok (c_name x)) by (destruct (c_name x); reflexivity).
    replace (get_list "hyperparameters" _) with (Ok (map enc_hp (Space.hps (c_space x)))) by reflexivity.
    replace (get_list "conditions" _) with (Ok (map enc_cond (conditions (c_space x)))) by reflexivity.
    replace (get_list "forbiddens" _) with (Ok (map enc_forb (forbidden_clauses (c_space x)))) by reflexivity.
    assert (H1 := collect_ok dec_hp enc_hp (Space.hps (c_space x))).
    destruct (collect (map enc_hp _) _) as [lh rh]. simpl in H1. rewrite H1.
    2: { intros h Hh. assert (Hh' := Permutation_in _ Ph Hh). apply hp_back; [apply (so_constructed O), Hh'|apply MS, Hh']. }
    clear H1. destruct (c_add (new_space (c_name x) None) (Space.hps (c_space x)) [] []) as [x1 [[]|e]] eqn:E1; [|reflexivity].
    assert (B1 : built (c_space x1) ([] ++ Space.hps (c_space x)) ([] ++ []) ([] ++ [])).
    { apply cbuilt_built. eapply cb_add; [constructor| | | |exact E1]; try constructor.
      rewrite Forall_forall. intros h Hh. apply (so_constructed O), (Permutation_in _ Ph Hh). }
    assert (O1 := built_ok _ _ _ _ B1). simpl in O1.
    assert (F : finds (c_space x1) hs).
    { intros h Hh. apply (so_get_hp O1). split; [|reflexivity]. apply (Permutation_in _ (Permutation_sym Ph) Hh). }
    assert (H2 := collect_ok (dec_cond (c_space x1)) enc_cond (conditions (c_space x))).
    destruct (collect (map enc_cond _) _) as [lc rc]. simpl in H2. rewrite H2.
    2: { intros c Hc. apply (listed _ _ _ _ B U) in Hc. destruct Hc as (n & Hc). apply (so_condof_in O) in Hc.
      apply (cond_back _ hs F); [apply (so_cond_built O), Hc|apply R, Hc]. }
    assert (H3 := collect_ok (dec_forb (c_space x1)) enc_forb (forbidden_clauses (c_space x))).
    destruct (collect (map enc_forb _) _) as [lf rf]. simpl in H3. rewrite H3.
    2: { intros f Hf. assert (Hf' := Permutation_in _ (di_forb _ _ _ _ (so_inv _ _ _ _ O)) Hf).
      apply (forb_back _ hs F); [apply (so_forb_built O), Hf'|apply R, Hf']. }
    destruct (c_add x1 [] _ _) as [x2 [[]|e]]; reflexivity.
  Qed.

  Lemma run_add_forbs hs : forall d d', run dag_add hs d = (d', Ok tt) -> d_forbs d' = d_forbs d.
  Proof.
    induction hs as [|h hs IH]; intros d d' H; simpl in H; [injection H as <-; reflexivity|].
    unfold dag_add in H at 1. destruct (assoc_mem _ _); [discriminate|]. apply IH in H. exact H.
  Qed.

  Lemma round_trip_built x hs cs fs x' : cbuilt x hs cs fs -> refs hs cs fs -> (forall h, In h hs -> mean_survives h) ->
    distinct_strings (c_space x) -> round_trip x = Ok x' ->
    built (c_space x') (Space.hps (c_space x)) (conditions (c_space x)) (forbidden_clauses (c_space x)) /\
    c_name x' = c_name x /\ c_meta x' = None /\
    c_forbs x' = node_forbs (py_sorted forb_ltb (forbidden_clauses (c_space x))) [] /\
    exists d, commit d = (s_dag (c_space x'), Ok tt) /\ d_forbs d = forbidden_clauses (c_space x).
  Proof.
    intros CB R MS U. rewrite (round_trip_eq x hs cs fs CB R MS U).
    assert (B := cbuilt_built _ _ _ _ CB). assert (O := built_ok _ _ _ _ B). assert (Ph := so_hps O).
    destruct (c_add (new_space (c_name x) None) (Space.hps (c_space x)) [] []) as [x1 [[]|e]] eqn:E1; [|discriminate].
    destruct (c_add x1 [] _ _) as [x2 [[]|e]] eqn:E2; [|discriminate]. intros [= <-].
    assert (A1 := c_add_add _ _ _ _ _ _ E1). destruct A1 as (A1 & N1 & M1).
    assert (A2 := c_add_add _ _ _ _ _ _ E2). destruct A2 as (A2 & N2 & M2).
    assert (F1 : Forall constructed (Space.hps (c_space x))).
    { rewrite Forall_forall. intros h Hh. apply (so_constructed O), (Permutation_in _ Ph Hh). }
    assert (F2 : Forall cond_built (conditions (c_space x))).
    { rewrite Forall_forall. intros c Hc. apply (listed _ _ _ _ B U) in Hc. destruct Hc as (n & Hc). apply (so_cond_built O), (so_condof_in O _ _ Hc). }
    assert (Pf := di_forb _ _ _ _ (so_inv _ _ _ _ O)).
    assert (F3 : Forall forb_built (forbidden_clauses (c_space x))).
    { rewrite Forall_forall. intros f Hf. apply (so_forb_built O), (Permutation_in _ Pf Hf). }
    assert (B1 : built (c_space x1) (Space.hps (c_space x)) [] []).
    { apply (built_add empty_space [] [] [] (c_space x1) _ [] [] built_empty F1 (Forall_nil _) (Forall_nil _) A1). }
    assert (B2 : built (c_space x2) (Space.hps (c_space x)) (conditions (c_space x)) (forbidden_clauses (c_space x))).
    { assert (H := built_add _ _ _ _ _ _ _ _ B1 (Forall_nil _) F2 F3 A2). rewrite app_nil_r in H. exact H. }
    split; [exact B2|]. split; [rewrite N2, N1; reflexivity|]. split; [rewrite M2, M1; reflexivity|].
    assert (D1 : c_forbs x1 = []).
    { unfold c_add in E1. destruct (add _ _ _ _) as [s1 r1]. injection E1 as <- _. simpl.
      unfold body. destruct (run dag_add _ _) as [d1 [[]|e1]] eqn:R1; [|reflexivity]. simpl.
      rewrite (run_add_forbs _ _ _ R1). reflexivity. }
    assert (A2' := add_update _ _ _ _ _ A2). apply update_body in A2'. destruct A2' as (d3 & Hb & Hc).
    assert (D3 : d_forbs d3 = forbidden_clauses (c_space x)).
    { apply (body_fresh _ _ _ _ _ (built_ok _ _ _ _ B1) Hb). intros f n Hf Hn.
      assert (Q := so_keys (built_ok _ _ _ _ B1)). apply (Permutation_in _ (Permutation_sym Q)).
      rewrite (Permutation_map hp_name Ph). apply (refs_forb hs f); [|exact Hn]. apply R. apply (Permutation_in _ Pf Hf). }
    split; [|eauto].
    unfold c_add in E2. destruct (add (c_space x1) _ _ _) as [s2 r2]. injection E2 as <- _. simpl. rewrite Hb, D3, D1. reflexivity.
  Qed.

  (** the nodes of two spaces with the same keys *)
  Lemma map_nodes {X} (f : node -> X) (ns ns' : nodes_t) : NoDup (map fst ns) -> map fst ns' = map fst ns ->
    (forall n nd nd', assoc n ns = Some nd -> assoc n ns' = Some nd' -> f nd' = f nd) ->
    map (fun e => (fst e, f (snd e))) ns' = map (fun e => (fst e, f (snd e))) ns.
  Proof.
    revert ns'. induction ns as [|[n nd] ns IH]; intros [|[n' nd'] ns'] ND Hk H; try discriminate; [reflexivity|].
    simpl in *. injection Hk as -> Hk. inversion ND as [|? ? Hn ND']; subst. f_equal.
    - f_equal. apply (H n); rewrite String.eqb_refl; reflexivity.
    - apply IH; [exact ND'|exact Hk|]. intros m md md' H1 H2. apply (H m).
      + destruct (String.eqb m n) eqn:Em; [|exact H1]. apply String.eqb_eq in Em. subst. elim Hn. apply assoc_Some_key. eauto.
      + destruct (String.eqb m n) eqn:Em; [|exact H2]. apply String.eqb_eq in Em. subst. elim Hn. apply assoc_Some_key. eauto.
  Qed.

  Section Same.
    Context {s : space} {hs : list hp} {cs : list cond} {fs : list fclause} (B : built s hs cs fs) (U : distinct_strings s)
            {s' : space} {fs' : list fclause} (B' : space_ok s' (Space.hps s) (conditions s) fs').
    Notation ns := (d_nodes (s_dag s)).
    Notation ns' := (d_nodes (s_dag s')).

    Lemma same_keys : keys s' = keys s.
    Proof.
      symmetry. apply (layout_unique s hs cs fs s' _ _ _ (built_ok _ _ _ _ B) B').
      - symmetry. apply Permutation_map, (so_hps (built_ok _ _ _ _ B)).
      - apply (listed_reads _ _ _ _ B U).
    Qed.
    Lemma same_reads p c : edge ns' p c <-> edge ns p c.
    Proof.
      rewrite (so_edge (built_ok _ _ _ _ B)), (so_edge B'). symmetry. apply (listed_reads _ _ _ _ B U).
    Qed.
    Lemma same_get_hp n : get_hp s' n = get_hp s n.
    Proof.
      assert (Ph := so_hps (built_ok _ _ _ _ B)).
      assert (G : forall h, get_hp s' n = Some h <-> get_hp s n = Some h).
      { intros h. rewrite (so_get_hp (built_ok _ _ _ _ B)), (so_get_hp B').
        split; intros [H1 H2]; split; auto; [apply (Permutation_in _ Ph H1)|apply (Permutation_in _ (Permutation_sym Ph) H1)]. }
      destruct (get_hp s' n) as [h|] eqn:E1; [symmetry; apply G; reflexivity|].
      destruct (get_hp s n) as [h|] eqn:E2; [|reflexivity]. apply G. reflexivity.
    Qed.
    Lemma same_depth n : In n (keys s) -> depth_of ns' n = depth_of ns n.
    Proof.
      intros Hn. assert (L1 := so_longest (built_ok _ _ _ _ B) n Hn).
      assert (L2 := so_longest B' n). rewrite same_keys in L2. specialize (L2 Hn).
      apply (longest_unique (cs := conditions s) n); [exact L2|].
      assert (Hc : forall n k, chain cs n k <-> chain (conditions s) n k).
      { intros m k. split; induction 1 as [|p m k _ IH H]; try constructor;
          (econstructor; [exact IH|apply (listed_reads _ _ _ _ B U); exact H]). }
      destruct L1 as [L1 L3]. split; [apply Hc, L1|]. intros k Hk. apply L3, Hc, Hk.
    Qed.
    Lemma same_condof n : condof ns' n = condof ns n.
    Proof.
      assert (O := built_ok _ _ _ _ B). assert (O' := B').
      assert (G : forall c, condof ns' n = Some c -> condof ns n = Some c).
      { intros c Hc. apply (so_condof_in O') in Hc. destruct Hc as [Hc A]. apply (listed _ _ _ _ B U) in Hc. destruct Hc as (m & Hm).
        assert (A' := proj2 (so_condof_in O _ _ Hm)). unfold activates in A, A'. assert (m = n) by congruence. subst m. exact Hm. }
      destruct (condof ns' n) as [c|] eqn:E1; [symmetry; apply G; reflexivity|].
      destruct (condof ns n) as [c|] eqn:E2; [|reflexivity]. exfalso.
      assert (Hc : In c (conditions s)) by (apply (listed _ _ _ _ B U); eauto).
      destruct (so_declared O' n c Hc (proj2 (so_condof_in O _ _ E2))) as (c' & Hc' & _). congruence.
    Qed.
    Lemma same_clook p c : clook ns' p c = clook ns p c.
    Proof.
      assert (O := built_ok _ _ _ _ B). assert (O' := B').
      assert (G : forall x, clook ns' p c = Some x -> clook ns p c = Some x).
      { intros x Hx. assert (Ed : edge ns' p c) by (apply edge_clook; eauto). apply same_reads, edge_clook in Ed. destruct Ed as (y & Hy).
        rewrite Hy. f_equal. rewrite (co_link _ (g_core _ (so_graph O'))) in Hx. rewrite (co_link _ (g_core _ (so_graph O))) in Hy.
        apply (g_label _ (so_graph O')) in Hx. apply (g_label _ (so_graph O)) in Hy. rewrite same_condof in Hx. congruence. }
      destruct (clook ns' p c) as [x|] eqn:E1; [symmetry; apply G; reflexivity|].
      destruct (clook ns p c) as [y|] eqn:E2; [|reflexivity]. exfalso.
      assert (Ed : edge ns p c) by (apply edge_clook; eauto). apply same_reads, edge_clook in Ed. destruct Ed as (z & Hz). congruence.
    Qed.

    Lemma same_index : index_of s' = index_of s.
    Proof.
      unfold index_of. rewrite (cm_index _ (so_com _ _ _ _ (built_ok _ _ _ _ B))), (cm_index _ (so_com _ _ _ _ B')).
      assert (K := same_keys). unfold keys in K. rewrite K. f_equal. f_equal.
      rewrite <- (map_length fst ns'), <- (map_length fst ns), K. reflexivity.
    Qed.
    Lemma same_len : s_len s' = s_len s.
    Proof. rewrite <- (so_keys_len (built_ok _ _ _ _ B)), <- (so_keys_len B'), same_keys. reflexivity. Qed.

    Lemma same_map {X} (f : node -> X) :
      (forall n nd nd', assoc n ns = Some nd -> assoc n ns' = Some nd' -> n_hp nd' = n_hp nd -> n_depth nd' = n_depth nd -> n_cond nd' = n_cond nd -> f nd' = f nd) ->
      map (fun e => (fst e, f (snd e))) ns' = map (fun e => (fst e, f (snd e))) ns.
    Proof.
      intros H. apply map_nodes; [apply (so_nodup (built_ok _ _ _ _ B))|apply same_keys|]. intros n nd nd' H1 H2.
      apply (H n nd nd' H1 H2).
      - assert (G := same_get_hp n). unfold get_hp in G. rewrite H1, H2 in G. simpl in G. congruence.
      - assert (G := same_depth n). unfold depth_of in G. rewrite H1, H2 in G. apply G. apply assoc_Some_key. eauto.
      - assert (G := same_condof n). unfold condof in G. rewrite H1, H2 in G. exact G.
    Qed.
    Lemma same_items : items s' = items s.
    Proof. apply same_map. auto. Qed.
    Lemma same_conditions : conditions s' = conditions s.
    Proof.
      unfold conditions. rewrite (cm_conds _ (so_com _ _ _ _ (built_ok _ _ _ _ B))), (cm_conds _ (so_com _ _ _ _ B')).
      assert (M := same_map own_conds). assert (M' := f_equal (map snd) (M ltac:(intros n nd nd' _ _ _ _ H; unfold own_conds; rewrite H; reflexivity))).
      rewrite !map_map in M'. simpl in M'. rewrite M'. reflexivity.
    Qed.
    Lemma same_roots : d_roots (s_dag s') = d_roots (s_dag s).
    Proof.
      rewrite (cm_roots _ (so_com _ _ _ _ (built_ok _ _ _ _ B))), (cm_roots _ (so_com _ _ _ _ B')).
      assert (M := same_map n_depth ltac:(auto)).
      assert (G : forall l, map fst (filter (fun e => Nat.eqb (n_depth (snd e)) 1) l) =
                            map fst (filter (fun e => Nat.eqb (snd e) 1) (map (fun e : string * node => (fst e, n_depth (snd e))) l))).
      { induction l as [|[n nd] l IH]; [reflexivity|]. simpl. destruct (Nat.eqb (n_depth nd) 1); simpl; rewrite IH; reflexivity. }
      rewrite !G, M. reflexivity.
    Qed.
    Lemma same_nonroots : d_nonroots (s_dag s') = d_nonroots (s_dag s).
    Proof.
      rewrite (cm_nonroots _ (so_com _ _ _ _ (built_ok _ _ _ _ B))), (cm_nonroots _ (so_com _ _ _ _ B')).
      assert (M := same_map n_depth ltac:(auto)).
      assert (G : forall l, map fst (filter (fun e => negb (Nat.eqb (n_depth (snd e)) 1)) l) =
                            map fst (filter (fun e => negb (Nat.eqb (snd e) 1)) (map (fun e : string * node => (fst e, n_depth (snd e))) l))).
      { induction l as [|[n nd] l IH]; [reflexivity|]. simpl. destruct (Nat.eqb (n_depth nd) 1); simpl; rewrite IH; reflexivity. }
      rewrite !G, M. reflexivity.
    Qed.

    Lemma same_links n nd nd' : assoc n ns = Some nd -> assoc n ns' = Some nd' -> links_eqb (n_children nd') (n_children nd) = true.
    Proof.
      intros H1 H2. assert (O := built_ok _ _ _ _ B). assert (O' := B').
      assert (C : forall c, assoc c (n_children nd') = assoc c (n_children nd)).
      { intros c. assert (G := same_clook n c). unfold clook in G. rewrite H1, H2 in G. exact G. }
      assert (N1 := proj1 (co_keys _ (g_core _ (so_graph O)) _ _ H1)). assert (N2 := proj1 (co_keys _ (g_core _ (so_graph O')) _ _ H2)).
      assert (Pm : Permutation (map fst (n_children nd')) (map fst (n_children nd))).
      { apply NoDup_Permutation; auto. intros c. rewrite !assoc_Some_key, C. reflexivity. }
      unfold links_eqb. apply andb_true_iff. split.
      - apply Nat.eqb_eq. rewrite <- (map_length fst (n_children nd')), <- (map_length fst (n_children nd)). apply Permutation_length, Pm.
      - apply forallb_forall. intros [c cnd] Hc. simpl. apply (In_assoc _ _ _ N2) in Hc. rewrite <- C, Hc.
        apply cond_eqb_refl. apply (g_wf _ (so_graph O') c). apply (g_label _ (so_graph O') c n).
        rewrite <- (co_link _ (g_core _ (so_graph O'))). unfold clook. rewrite H2. exact Hc.
    Qed.

    Lemma same_forbs d : commit d = (s_dag s', Ok tt) -> d_forbs d = forbidden_clauses s ->
      d_uforb (s_dag s') = d_uforb (s_dag s) /\ d_cforb (s_dag s') = d_cforb (s_dag s).
    Proof.
      intros Hc Hd. apply commit_forbs in Hc. rewrite Hd, same_roots in Hc. destruct Hc as [-> ->].
      assert (C := so_com _ _ _ _ (built_ok _ _ _ _ B)). destruct (built_forbs _ _ _ _ B) as [S1 S2].
      assert (Fy : forall (P : fclause -> bool) l, (forall x, In x l -> P x = true) -> filter P l = l).
      { induction l as [|x l IH]; intros H; [reflexivity|]. simpl. rewrite (H x (or_introl eq_refl)), IH; [reflexivity|].
        intros y Hy. apply H. right. exact Hy. }
      assert (Fn : forall (P : fclause -> bool) l, (forall x, In x l -> P x = false) -> filter P l = []).
      { induction l as [|x l IH]; intros H; [reflexivity|]. simpl. rewrite (H x (or_introl eq_refl)). apply IH.
        intros y Hy. apply H. right. exact Hy. }
      unfold forbidden_clauses, d_forbs. rewrite !filter_app.
      rewrite (Fy _ _ (cm_uforb _ C)), (Fn _ _ (cm_cforb _ C)), app_nil_r.
      rewrite (Fn _ (d_uforb (s_dag s))), (Fy _ (d_cforb (s_dag s)));
        [|intros f Hf; rewrite (cm_cforb _ C f Hf); reflexivity|intros f Hf; rewrite (cm_uforb _ C f Hf); reflexivity].
      simpl. split; apply sorted_same; assumption.
    Qed.
  End Same.

  Lemma opt_eqb_refl {X} (f : X -> X -> bool) o : (forall x, o = Some x -> f x x = true) -> opt_eqb f o o = true.
  Proof. destruct o as [x|]; intros H; [apply H; reflexivity|reflexivity]. Qed.

  (** C52: the space that comes back has the same name, hyperparameters in the same order, conditions,
      clauses and tables.  It is equal to the original exactly if the original has no meta data and the
      lists of clauses of its nodes are those of a space that gets all clauses at once.

      Missing: hyperparameters that do not survive (C50_refuted), conditions with the same string
      (C52_dropped_refuted), conditions and clauses about other hyperparameters (C51_refuted); and
      equality for the other spaces (C52_refuted, C52_meta_refuted). *)
  Theorem C52_same_partial x hs cs fs x' : cbuilt x hs cs fs -> refs hs cs fs -> (forall h, In h hs -> mean_survives h) ->
    distinct_strings (c_space x) -> round_trip x = Ok x' ->
    c_name x' = c_name x /\ items (c_space x') = items (c_space x) /\ index_of (c_space x') = index_of (c_space x) /\
    conditions (c_space x') = conditions (c_space x) /\ forbidden_clauses (c_space x') = forbidden_clauses (c_space x) /\
    unconditional_hyperparameters (c_space x') = unconditional_hyperparameters (c_space x) /\
    conditional_hyperparameters (c_space x') = conditional_hyperparameters (c_space x) /\
    (forall n, conds_of (c_space x') n = conds_of (c_space x) n) /\
    (cspace_eqb x' x = true <->
     c_meta x = None /\
     forall n, In n (keys (c_space x)) -> list_eqb forb_eqb (node_list n (c_forbs x')) (node_list n (c_forbs x)) = true).
  Proof.
    intros CB R MS U H. assert (B := cbuilt_built _ _ _ _ CB).
    destruct (round_trip_built x hs cs fs x' CB R MS U H) as (B' & N & M & Fn & d & Hc & Hd). apply built_ok in B'.
    assert (O := built_ok _ _ _ _ B). destruct (same_forbs B U B' d Hc Hd) as [Fu Fc].
    split; [exact N|]. split; [apply (same_items B U B')|]. split; [apply (same_index B U B')|]. split; [apply (same_conditions B U B')|].
    split; [unfold forbidden_clauses, d_forbs; rewrite Fu, Fc; reflexivity|]. split; [apply (same_roots B U B')|].
    split; [apply (same_nonroots B U B')|].
    split; [intros n; rewrite (so_conds_of O), (so_conds_of B'), (same_condof B U B'); reflexivity|].
    assert (Fb : forall l, incl l (forbidden_clauses (c_space x)) -> list_eqb forb_eqb l l = true).
    { intros l Hl. apply forbs_eqb_refl. rewrite Forall_forall. intros f Hf. apply (so_forb_built O).
      apply (Permutation_in _ (di_forb _ _ _ _ (so_inv _ _ _ _ O))). apply Hl, Hf. }
    unfold cspace_eqb. rewrite N, M, (same_len B U B'), Nat.eqb_refl, Fu, Fc.
    rewrite (Fb (d_uforb (s_dag (c_space x)))), (Fb (d_cforb (s_dag (c_space x)))).
    2: { intros f Hf. unfold forbidden_clauses, d_forbs. apply in_or_app. right. exact Hf. }
    2: { intros f Hf. unfold forbidden_clauses, d_forbs. apply in_or_app. left. exact Hf. }
    rewrite (opt_eqb_refl String.eqb (c_name x)) by (intros; apply String.eqb_refl).
    rewrite <- (map_length fst (d_nodes (s_dag (c_space x')))), <- (map_length fst (d_nodes (s_dag (c_space x)))).
    assert (K := same_keys B U B'). unfold keys in K. rewrite K, Nat.eqb_refl. simpl. rewrite !andb_true_r, andb_true_iff.
    assert (G1 : opt_eqb String.eqb None (c_meta x) = true <-> c_meta x = None).
    { destruct (c_meta x); simpl; split; intros; congruence. }
    rewrite G1. apply and_iff_compat_l. rewrite forallb_forall. split.
    - intros G n Hn. unfold keys in Hn. rewrite <- K in Hn. apply in_map_iff in Hn. destruct Hn as ([n0 nd'] & <- & Hn).
      specialize (G _ Hn). simpl in *. destruct (assoc n0 (d_nodes (s_dag (c_space x)))) as [nd|]; [|discriminate].
      unfold node_eqb in G. rewrite !andb_true_iff in G. apply G.
    - intros G [n nd'] Hn. simpl. assert (Ha := In_assoc _ _ _ (so_nodup B') Hn).
      assert (Hk : In n (keys (c_space x))).
      { unfold keys. rewrite <- K. apply in_map_iff. exists (n, nd'). auto. }
      destruct (assoc n (d_nodes (s_dag (c_space x)))) as [nd|] eqn:Ea.
      2: { apply assoc_None in Ea. contradiction. }
      unfold node_eqb. rewrite (G n Hk), (same_links B U B' n nd nd' Ea Ha).
      assert (Gi := same_index B U B'). unfold index_of in Gi. rewrite Gi.
      assert (G2 := same_get_hp B B' n). unfold get_hp in G2. rewrite Ea, Ha in G2. simpl in G2. injection G2 as ->.
      assert (G3 := same_depth B U B' n Hk). unfold depth_of in G3. rewrite Ea, Ha in G3. rewrite G3, Nat.eqb_refl.
      assert (G4 := same_condof B U B' n). unfold condof in G4. rewrite Ea, Ha in G4. rewrite G4.
      rewrite (opt_eqb_refl Nat.eqb) by (intros; apply Nat.eqb_refl).
      rewrite (opt_eqb_refl cond_eqb).
      2: { intros c Hx. apply cond_eqb_refl. apply (g_wf _ (so_graph O) n). unfold condof. rewrite Ea. exact Hx. }
      rewrite (hp_eqb_refl (n_hp nd)); [reflexivity|]. apply constructed_wf, (so_constructed O).
      apply (so_get_hp O n). unfold get_hp. rewrite Ea. reflexivity.
  Qed.

  (** the listed conditions mean the same as the declared ones *)
  Lemma listed_active s hs cs fs d : built s hs cs fs -> refs hs cs fs -> distinct_strings s -> all_legal hs d ->
    forall n, active cs d n <-> active (conditions s) d n.
  Proof.
    intros B R U AL n. assert (O := built_ok _ _ _ _ B). split; intros Ha c Hc An.
    - apply Ha; [|exact An]. apply (listed _ _ _ _ B U) in Hc. destruct Hc as (m & Hc). apply (so_condof_in O _ _ Hc).
    - destruct (so_declared O n c Hc An) as (c' & Hc' & Hq). destruct (so_condof_in O _ _ Hc') as [Hi Ai].
      apply (cond_eqb_holds hs d c' (so_names_nodup O) AL c); [apply cond_built_good, (so_cond_built O), Hi|apply cond_built_good, (so_cond_built O), Hc|apply R, Hi|apply R, Hc|exact Hq|].
      apply Ha; [apply (listed _ _ _ _ B U); eauto|exact Ai].
  Qed.
  Lemma listed_valid s hs cs fs d : built s hs cs fs -> refs hs cs fs -> distinct_strings s ->
    (valid hs cs fs d <-> valid (Space.hps s) (conditions s) (forbidden_clauses s) d).
  Proof.
    intros B R U. assert (O := built_ok _ _ _ _ B). assert (Ph := so_hps O). assert (Pf := di_forb _ _ _ _ (so_inv _ _ _ _ O)).
    split; intros [V1 V2 V3].
    - constructor.
      + intros h w Hh. apply V1, (Permutation_in _ Ph Hh).
      + intros h Hh. rewrite <- (listed_active s hs cs fs d B R U V1). apply V2, (Permutation_in _ Ph Hh).
      + intros f Hf. apply V3, (Permutation_in _ Pf Hf).
    - assert (V1' : all_legal hs d) by (intros h w Hh; apply V1, (Permutation_in _ (Permutation_sym Ph) Hh)).
      constructor; [exact V1'| |].
      + intros h Hh. rewrite (listed_active s hs cs fs d B R U V1'). apply V2, (Permutation_in _ (Permutation_sym Ph) Hh).
      + intros f Hf. apply V3, (Permutation_in _ (Permutation_sym Pf) Hf).
  Qed.
  Lemma listed_tame s hs cs fs s' : tame s hs cs fs -> distinct_strings s ->
    built s' (Space.hps s) (conditions s) (forbidden_clauses s) -> tame s' (Space.hps s) (conditions s) (forbidden_clauses s).
  Proof.
    intros [B R M NS Cmp] U B'. assert (O := built_ok _ _ _ _ B). assert (Ph := so_hps O).
    assert (Pf := di_forb _ _ _ _ (so_inv _ _ _ _ O)).
    assert (Sub : forall c, In c (conditions s) -> In c cs).
    { intros c Hc. apply (listed _ _ _ _ B U) in Hc. destruct Hc as (n & Hc). apply (so_condof_in O _ _ Hc). }
    constructor.
    - exact B'.
    - split.
      + intros c Hc l Hl. destruct (proj1 R c (Sub c Hc) l Hl) as [Q1 Q2].
        split; apply (Permutation_in _ (Permutation_sym Ph)); assumption.
      + intros f Hf h Hh. apply (Permutation_in _ (Permutation_sym Ph)). apply (proj2 R f (Permutation_in _ Pf Hf) h Hh).
    - rewrite (same_index B U (built_ok _ _ _ _ B')). intros c c' v Hc Hc'. apply M; apply Sub; assumption.
    - intros c l w vv Hc Hl Ht (c' & Hc' & Ha). apply (NS c l w vv (Sub c Hc) Hl Ht). exists c'. split; [apply Sub, Hc'|exact Ha].
    - intros f Hf. apply Cmp, (Permutation_in _ Pf Hf).
  Qed.

  (** the space that comes back accepts the same values *)
  Theorem C52_accepts_partial x hs cs fs x' vals d : cbuilt x hs cs fs -> tame (c_space x) hs cs fs ->
    (forall h, In h hs -> mean_survives h) -> distinct_strings (c_space x) -> round_trip x = Ok x' ->
    stored hs (given vals) d -> exact_all hs (given vals) ->
    ((exists c, config_of_values (c_space x') vals false = Ok c) <-> (exists c, config_of_values (c_space x) vals false = Ok c)).
  Proof.
    intros CB T MS U H St Ex. assert (R := tm_refs _ _ _ _ T). assert (B := tm_built _ _ _ _ T). assert (Ph := so_hps (built_ok _ _ _ _ B)).
    destruct (round_trip_built x hs cs fs x' CB R MS U H) as (B' & _).
    assert (T' := listed_tame _ _ _ _ _ T U B').
    rewrite (C17_accepts_valid_partial (c_space x) hs cs fs vals d T St Ex).
    rewrite (C17_accepts_valid_partial (c_space x') _ _ _ vals d T').
    2: { intros h Hh. apply St, (Permutation_in _ Ph Hh). }
    2: { intros h w Hh. apply Ex, (Permutation_in _ Ph Hh). }
    rewrite <- (listed_valid (c_space x) hs cs fs d B R U).
    assert (Q : forall k, In k (map hp_name (Space.hps (c_space x))) <-> In k (map hp_name hs)).
    { intros k. split; apply Permutation_in; [|apply Permutation_sym]; apply Permutation_map, Ph. }
    split; intros (G1 & G2 & G3); (split; [intros k Hk; destruct (G1 k Hk) as [G|G]; [left; exact G|right; apply Q, G]|split; [|exact G3]]).
    - intros h w Hh. apply G2, (Permutation_in _ (Permutation_sym Ph) Hh).
    - intros h w Hh. apply G2, (Permutation_in _ Ph Hh).
  Qed.

  (** ... and it does come back *)
  Theorem C52_returns_partial x hs cs fs : cbuilt x hs cs fs -> tame (c_space x) hs cs fs -> (forall h, In h hs -> mean_survives h) ->
    distinct_strings (c_space x) -> exists x', round_trip x = Ok x'.
  Proof.
    intros CB T MS U. destruct T as [B R M NS Cmp]. assert (O := built_ok _ _ _ _ B). assert (Ph := so_hps O).
    rewrite (round_trip_eq x hs cs fs CB R MS U).
    set (s := c_space x) in *. set (hs2 := Space.hps s) in *.
    assert (Pf := di_forb _ _ _ _ (so_inv _ _ _ _ O)).
    assert (F1 : Forall constructed hs2).
    { rewrite Forall_forall. intros h Hh. apply (so_constructed O), (Permutation_in _ Ph Hh). }
    assert (Sub : forall c, In c (conditions s) -> In c cs).
    { intros c Hc. apply (listed _ _ _ _ B U) in Hc. destruct Hc as (n & Hc). apply (so_condof_in O _ _ Hc). }
    assert (F2 : Forall cond_built (conditions s)).
    { rewrite Forall_forall. intros c Hc. apply (so_cond_built O), Sub, Hc. }
    assert (F3 : Forall forb_built (forbidden_clauses s)).
    { rewrite Forall_forall. intros f Hf. apply (so_forb_built O), (Permutation_in _ Pf Hf). }
    assert (ND : NoDup (map hp_name hs2)).
    { eapply Permutation_NoDup; [apply Permutation_map, Permutation_sym, Ph|apply (so_names_nodup O)]. }
    destruct (add_total empty_space [] [] [] hs2 [] [] (fun n => option_map hp_default (get_hp s n)) built_empty F1 (Forall_nil _) (Forall_nil _))
      as (s1 & A1).
    { split; [intros c []|intros f []]. } { intros []. } { exact ND. } { intros c c' n []. }
    { intros n Hn. assert (G : forall a b, clos_trans string (reads []) a b -> False) by (induction 1 as [a b (c & [] & _)|]; auto). eauto. }
    { intros s' _ c d v []. } { intros c l w vv []. } { intros f []. }
    { intros h Hh. left. split; [intros c []|]. rewrite (proj2 (so_get_hp O (hp_name h) h)); [reflexivity|].
      split; [apply (Permutation_in _ Ph Hh)|reflexivity]. }
    { intros f []. }
    unfold c_add at 1. simpl. rewrite A1.
    assert (B1 : built s1 hs2 [] []).
    { apply (built_add empty_space [] [] [] s1 _ [] [] built_empty F1 (Forall_nil _) (Forall_nil _) A1). }
    destruct (C21_exists _ _ _ _ B) as (cf & Hcf).
    destruct (default_sound s hs cs fs cf O R M NS Hcf) as (d & D & V).
    assert (AL : all_legal hs d).
    { intros h w Hh Hw. destruct (D h Hh) as [[_ Q]|[_ Q]]; rewrite Q in Hw; [|discriminate]. injection Hw as <-.
      apply default_legal, (so_constructed O), Hh. }
    assert (Act := listed_active s hs cs fs d B R U AL).
    destruct (add_total s1 hs2 [] [] [] (conditions s) (forbidden_clauses s) d B1 (Forall_nil _) F2 F3) as (s2 & A2); rewrite ?app_nil_r; simpl.
    { split.
      - intros c Hc l Hl. destruct (proj1 R c (Sub c Hc) l Hl) as [Q1 Q2].
        split; apply (Permutation_in _ (Permutation_sym Ph)); assumption.
      - intros f Hf h Hh. apply (Permutation_in _ (Permutation_sym Ph)). apply (proj2 R f (Permutation_in _ Pf Hf) h Hh). }
    { eapply optimized_nil. apply (cm_fast _ (so_com _ _ _ _ O)). }
    { exact ND. }
    { intros c c' n Hc Hc'. apply (C06_one_condition _ _ _ _ c c' n B); apply Sub; assumption. }
    { intros n Hn. apply (C05_acyclic _ _ _ _ B n). revert Hn. generalize n at 2 4. intros m Hn.
      induction Hn as [a b Hab|a b c _ IH1 _ IH2]; [apply t_step, (listed_reads _ _ _ _ B U), Hab|eapply t_trans; eauto]. }
    { intros s' O'. rewrite (same_index B U O'). intros c c' v Hc Hc'. apply M; apply Sub; assumption. }
    { intros c l w vv Hc Hl Ht (c' & Hc' & Ha). apply (NS c l w vv (Sub c Hc) Hl Ht). exists c'. split; [apply Sub, Hc'|exact Ha]. }
    { intros f Hf. apply Cmp, (Permutation_in _ Pf Hf). }
    { intros h Hh. rewrite <- Act. apply D, (Permutation_in _ Ph Hh). }
    { intros f Hf. apply V, (Permutation_in _ Pf Hf). }
    unfold c_add. simpl. rewrite A2. eauto.
  Qed.

  (** ** The lists of clauses of the nodes *)

  (** what a clause adds to the list of the hyperparameter [n] *)
  Definition leaf_part (n : string) (f : fclause) : list fclause :=
    match f with
    | FEq h _ _ | FIn h _ _ => if String.eqb n (hp_name h) then [f] else []
    | FRel _ a b => (if String.eqb n (hp_name a) then [f] else []) ++ (if String.eqb n (hp_name b) then [f] else [])
    | FAnd _ => []
    end.
  Definition part (n : string) (f : fclause) : list fclause :=
    match f with FAnd _ => concat (map (leaf_part n) (py_sorted forb_ltb (fdlcs f))) | _ => leaf_part n f end.

  Lemma node_list_append n k f m : node_list n (node_append k f m) = node_list n m ++ (if String.eqb n k then [f] else []).
  Proof.
    unfold node_append, node_list at 1. destruct (String.eqb n k) eqn:Hk.
    - apply String.eqb_eq in Hk. subst. rewrite assoc_set_same. reflexivity.
    - apply String.eqb_neq in Hk. rewrite assoc_set_other by exact Hk. rewrite app_nil_r. reflexivity.
  Qed.
  Lemma node_list_leaf n m f : node_list n (sort_leaf m f) = node_list n m ++ leaf_part n f.
  Proof.
    destruct f as [h v vv|h vs vvs|r a b|fs]; simpl; rewrite ?node_list_append, ?app_nil_r, <- ?app_assoc; reflexivity.
  Qed.
  Lemma node_list_leaves n l : forall m, node_list n (fold_left sort_leaf l m) = node_list n m ++ concat (map (leaf_part n) l).
  Proof.
    induction l as [|f l IH]; intros m; simpl; [rewrite app_nil_r; reflexivity|]. rewrite IH, node_list_leaf, app_assoc. reflexivity.
  Qed.
  Lemma node_list_forb n m f : node_list n (sort_forb m f) = node_list n m ++ part n f.
  Proof. destruct f as [h v vv|h vs vvs|r a b|fs]; try apply node_list_leaf. apply node_list_leaves. Qed.
  Lemma node_list_forbs n fs : forall m, node_list n (fold_left sort_forb fs m) = node_list n m ++ concat (map (part n) fs).
  Proof.
    induction fs as [|f fs IH]; intros m; simpl; [rewrite app_nil_r; reflexivity|]. rewrite IH, node_list_forb, app_assoc. reflexivity.
  Qed.
  Lemma node_forbs_list n fs m : node_list n (node_forbs fs m) = unique_by forb_str [] (node_list n m ++ concat (map (part n) fs)).
  Proof.
    unfold node_forbs, node_list at 1. rewrite <- node_list_forbs. unfold node_list. generalize (fold_left sort_forb fs m) as l.
    induction l as [|[k l0] l IH]; [reflexivity|]. simpl. destruct (String.eqb n k); [reflexivity|exact IH].
  Qed.

  Lemma unique_app {X} (key : X -> string) l1 : forall seen l2, exists seen', 
    unique_by key seen (l1 ++ l2) = unique_by key seen l1 ++ unique_by key seen' l2 /\
    (forall k, In k seen' <-> In k seen \/ In k (map key l1)).
  Proof.
    induction l1 as [|x l1 IH]; intros seen l2; simpl; [exists seen; split; [reflexivity|tauto]|].
    destruct (str_in (key x) seen) eqn:Hx.
    - destruct (IH seen l2) as (seen' & H1 & H2). exists seen'. split; [exact H1|]. intros k. rewrite H2.
      apply str_in_iff in Hx. split; [tauto|]. intros [H|[<-|H]]; auto.
    - destruct (IH (key x :: seen) l2) as (seen' & H1 & H2). exists seen'. split; [simpl; rewrite H1; reflexivity|].
      intros k. rewrite H2. simpl. tauto.
  Qed.
  Lemma unique_seen {X} (key : X -> string) l : forall seen, (forall x, In x l -> In (key x) seen) -> unique_by key seen l = [].
  Proof.
    induction l as [|x l IH]; intros seen H; [reflexivity|]. simpl. rewrite (proj2 (str_in_iff (key x) seen) (H x (or_introl eq_refl))).
    apply IH. intros y Hy. apply H. right. exact Hy.
  Qed.
  Lemma unique_self {X} (key : X -> string) l : forall seen, NoDup (map key l) -> (forall x, In x l -> ~ In (key x) seen) -> unique_by key seen l = l.
  Proof.
    induction l as [|x l IH]; intros seen ND H; [reflexivity|]. simpl. inversion ND as [|? ? Hn ND']; subst.
    rewrite (proj2 (str_in_false (key x) seen) (H x (or_introl eq_refl))). f_equal. apply IH; [exact ND'|].
    intros y Hy [Q|Q]; [apply Hn; rewrite Q; apply in_map, Hy|apply (H y (or_intror Hy) Q)].
  Qed.
  Lemma unique_again {X} (key : X -> string) l : unique_by key [] (unique_by key [] l ++ l) = unique_by key [] l.
  Proof.
    destruct (unique_app key (unique_by key [] l) [] l) as (seen & H & S). rewrite H.
    rewrite (unique_self key (unique_by key [] l) []) by (try apply unique_by_nodup; intros x _ []).
    rewrite (unique_seen key l seen), app_nil_r; [reflexivity|]. intros x Hx. apply S. right.
    destruct (unique_by_covers key l [] x Hx) as [[]|(y & Hy & Hk)]. rewrite <- Hk. apply in_map, Hy.
  Qed.

  (** histories in which at most one call of add() has clauses; [b]: there was one *)
  Inductive clauses_once : bool -> cspace -> list hp -> list cond -> list fclause -> Prop :=
  | once_new n m : clauses_once false (new_space n m) [] [] []
  | once_plain b x hs cs fs x' hs' cs' : clauses_once b x hs cs fs ->
      Forall constructed hs' -> Forall cond_built cs' -> c_add x hs' cs' [] = (x', Ok tt) ->
      clauses_once b x' (hs ++ hs') (cs ++ cs') fs
  | once_clauses x hs cs x' hs' cs' fs' : clauses_once false x hs cs [] ->
      Forall constructed hs' -> Forall cond_built cs' -> Forall forb_built fs' -> c_add x hs' cs' fs' = (x', Ok tt) ->
      clauses_once true x' (hs ++ hs') (cs ++ cs') fs'.

  Lemma once_cbuilt b x hs cs fs : clauses_once b x hs cs fs -> cbuilt x hs cs fs.
  Proof.
    induction 1 as [n m|b x hs cs fs x' hs' cs' C IH A1 A2 H|x hs cs x' hs' cs' fs' C IH A1 A2 A3 H]; [constructor| |].
    - assert (Q := cb_add _ _ _ _ _ _ _ _ IH A1 A2 (Forall_nil _) H). rewrite app_nil_r in Q. exact Q.
    - exact (cb_add _ _ _ _ _ _ _ _ IH A1 A2 A3 H).
  Qed.

  Lemma keyed_inj {X} (key : X -> string) l : NoDup (map key l) -> forall a b, In a l -> In b l -> key a = key b -> a = b.
  Proof.
    induction l as [|x l IH]; intros ND a b Ha Hb Q; [destruct Ha|]. simpl in ND. inversion ND as [|? ? Hn ND']; subst.
    destruct Ha as [->|Ha], Hb as [->|Hb]; auto.
    - elim Hn. rewrite Q. apply in_map, Hb.
    - elim Hn. rewrite <- Q. apply in_map, Ha.
  Qed.

  (** the clauses of a space in the order of their strings, when these differ *)
  Lemma sorted_clauses l m : NoDup (map forb_str l) -> Permutation l m -> py_sorted forb_ltb l = py_sorted forb_ltb m.
  Proof.
    intros ND P. apply (sorted_unique forb_ltb).
    - intros f g Hf Hg H1 H2. apply (proj1 (py_sorted_In forb_ltb f l)) in Hf. apply (proj1 (py_sorted_In forb_ltb g l)) in Hg.
      apply (keyed_inj forb_str l ND f g Hf Hg).
      unfold forb_ltb in H1, H2. pose proof (key_ltb_total (0, forb_str f) (0, forb_str g)) as K. unfold key_ltb in K. simpl in K.
      specialize (K H1 H2). congruence.
    - apply py_sorted_sorted; [exact forb_ltb_asym|exact forb_ltb_ntrans].
    - apply py_sorted_sorted; [exact forb_ltb_asym|exact forb_ltb_ntrans].
    - rewrite !py_sorted_perm. exact P.
  Qed.

  Lemma body_forbs d hs cs fs hs' cs' fs' d' : dag_inv d hs cs fs -> Forall constructed hs' -> Forall cond_built cs' -> Forall forb_built fs' ->
    body d hs' cs' fs' = Some d' -> Permutation (d_forbs d') (fs ++ fs').
  Proof.
    intros I A B C H. unfold body in H.
    destruct (run dag_add hs' d) as [d1 [[]|e]] eqn:E1; [|discriminate].
    destruct (run dag_add_condition cs' d1) as [d2 [[]|e]] eqn:E2; [|discriminate].
    destruct (run dag_add_forbidden fs' d2) as [d3 [[]|e]] eqn:E3; [|discriminate]. injection H as <-.
    eapply (run_inv dag_add (fun d l => dag_inv d l cs fs)) in E1; [|intros; eapply dag_add_inv; eassumption|exact I|exact A].
    eapply (run_inv dag_add_condition (fun d l => dag_inv d (hs ++ hs') l fs)) in E2;
      [|intros; eapply dag_add_condition_inv; eassumption|exact E1|exact B].
    eapply (run_inv dag_add_forbidden (fun d l => dag_inv d (hs ++ hs') (cs ++ cs') l)) in E3;
      [|intros; eapply dag_add_forbidden_inv; eassumption|exact E2|exact C].
    apply (di_forb _ _ _ _ E3).
  Qed.

  Lemma c_add_lists x hs cs fs hs' cs' fs' x' n : cbuilt x hs cs fs ->
    Forall constructed hs' -> Forall cond_built cs' -> Forall forb_built fs' -> NoDup (map forb_str (fs ++ fs')) ->
    c_add x hs' cs' fs' = (x', Ok tt) ->
    node_list n (c_forbs x') = unique_by forb_str [] (node_list n (c_forbs x) ++ concat (map (part n) (py_sorted forb_ltb (fs ++ fs')))).
  Proof.
    intros CB A1 A2 A3 ND H. assert (A := proj1 (c_add_add _ _ _ _ _ _ H)). apply add_update, update_body in A. destruct A as (d3 & Hb & _).
    unfold c_add in H. destruct (add (c_space x) hs' cs' fs') as [s' r]. injection H as <- _. simpl. rewrite Hb, node_forbs_list.
    assert (P := body_forbs _ _ _ _ _ _ _ _ (so_inv _ _ _ _ (built_ok _ _ _ _ (cbuilt_built _ _ _ _ CB))) A1 A2 A3 Hb).
    rewrite (sorted_clauses (fs ++ fs') (d_forbs d3) ND (Permutation_sym P)). reflexivity.
  Qed.

  Lemma once_lists b x hs cs fs : clauses_once b x hs cs fs -> NoDup (map forb_str fs) ->
    (b = false -> fs = []) /\
    forall n, node_list n (c_forbs x) = unique_by forb_str [] (concat (map (part n) (py_sorted forb_ltb fs))).
  Proof.
    induction 1 as [n m|b x hs cs fs x' hs' cs' C IH A1 A2 H|x hs cs x' hs' cs' fs' C IH A1 A2 A3 H]; intros ND.
    - split; [reflexivity|]. intros k. reflexivity.
    - destruct (IH ND) as [E1 E2]. split; [exact E1|]. intros n.
      rewrite (c_add_lists x hs cs fs hs' cs' [] x' n (once_cbuilt _ _ _ _ _ C) A1 A2 (Forall_nil _)); [|rewrite app_nil_r; exact ND|exact H].
      rewrite app_nil_r, E2. apply unique_again.
    - destruct (IH (NoDup_nil _)) as [_ E2]. split; [discriminate|]. intros n.
      rewrite (c_add_lists x hs cs [] hs' cs' fs' x' n (once_cbuilt _ _ _ _ _ C) A1 A2 A3 ND H). rewrite E2. reflexivity.
  Qed.

  Lemma part_leaf n f g : In g (part n f) -> In g (fdlcs f).
  Proof.
    assert (Lf : forall f g, In g (leaf_part n f) -> g = f).
    { intros f0 g0. destruct f0 as [h v vv|h vs vvs|r a b|fs]; simpl.
      1,2: destruct (String.eqb _ _); intros H; [destruct H as [<-|[]]; reflexivity|destruct H].
      - intros H. apply in_app_or in H. destruct H as [H|H]; destruct (String.eqb _ _); try destruct H as [<-|[]]; try destruct H; reflexivity.
      - intros []. }
    destruct f as [h v vv|h vs vvs|r a b|fs]; intros H.
    1,2,3: unfold part in H; apply Lf in H; left; symmetry; exact H.
    unfold part in H. apply in_concat in H. destruct H as (l & Hl & H). apply in_map_iff in Hl. destruct Hl as (f & <- & Hf).
    apply Lf in H. subst g. apply py_sorted_In in Hf. exact Hf.
  Qed.
  Lemma leaves_built f : forb_built f -> forall g, In g (fdlcs f) -> forb_built g.
  Proof.
    induction f as [h v vv|h vs vvs|r a b|cs IH] using fclause_ind'; intros B g Hg; try (destruct Hg as [<-|[]]; exact B).
    assert (B' : forall x, In x cs -> forb_built x).
    { inversion B as [h0 v0 f C H|h0 v0 f C H|r a b f C1 C2 H|ds f D H]; subst; try discriminate.
      - unfold mk_feq in H. kill. destruct (to_vector h0 v0); discriminate.
      - unfold mk_fin in H. kill. destruct (mapM (to_vector h0) v0); discriminate.
      - injection H as ->. exact D. }
    simpl in Hg. apply in_concat in Hg. destruct Hg as (l & Hl & Hg). apply in_map_iff in Hl. destruct Hl as (f & <- & Hf).
    rewrite Forall_forall in IH. apply (IH f Hf (B' f Hf) g Hg).
  Qed.

  (** C52 for spaces without meta data that got all their clauses in one call: equality. *)
  Theorem C52_equal_partial b x hs cs fs x' : clauses_once b x hs cs fs -> refs hs cs fs -> (forall h, In h hs -> mean_survives h) ->
    distinct_strings (c_space x) -> NoDup (map forb_str fs) -> c_meta x = None ->
    round_trip x = Ok x' -> cspace_eqb x' x = true.
  Proof.
    intros C R MS U ND Mt H. assert (CB := once_cbuilt _ _ _ _ _ C).
    assert (O := built_ok _ _ _ _ (cbuilt_built _ _ _ _ CB)).
    destruct (C52_same_partial x hs cs fs x' CB R MS U H) as (_ & _ & _ & _ & _ & _ & _ & _ & Q). apply Q. split; [exact Mt|].
    intros n _. destruct (round_trip_built x hs cs fs x' CB R MS U H) as (_ & _ & _ & -> & _).
    rewrite node_forbs_list. simpl. rewrite (proj2 (once_lists _ _ _ _ _ C ND) n).
    assert (P := di_forb _ _ _ _ (so_inv _ _ _ _ O)). fold (forbidden_clauses (c_space x)) in P.
    rewrite (sorted_clauses fs (forbidden_clauses (c_space x)) ND (Permutation_sym P)).
    apply forbs_eqb_refl. rewrite Forall_forall. intros g Hg. apply unique_by_incl in Hg. destruct Hg as [Hg _].
    apply in_concat in Hg. destruct Hg as (l & Hl & Hg). apply in_map_iff in Hl. destruct Hl as (f & <- & Hf). apply py_sorted_In in Hf.
    apply part_leaf in Hg. eapply leaves_built; [|exact Hg]. apply (so_forb_built O), (Permutation_in _ P Hf).
  Qed.

  (** ** C53: decoding takes the types out of the dictionary it is given *)
  Lemma dremove_other k j d : j <> k -> assoc j (dremove k d) = assoc j d.
  Proof.
    intros H. unfold dremove. induction d as [|[m x] d IH]; [reflexivity|]. simpl. destruct (String.eqb m k) eqn:Hm; simpl.
    - apply String.eqb_eq in Hm. subst m. destruct (String.eqb j k) eqn:Hj; [apply String.eqb_eq in Hj; contradiction|exact IH].
    - rewrite IH. reflexivity.
  Qed.
  Lemma dremove_same k d : assoc k (dremove k d) = None.
  Proof.
    unfold dremove. induction d as [|[m x] d IH]; [reflexivity|]. simpl. destruct (String.eqb m k) eqn:Hm; simpl; [exact IH|].
    rewrite String.eqb_sym, Hm. exact IH.
  Qed.
  Lemma dec_hp_type x x' h : dec_hp x = (x', Ok h) -> exists d, x' = DDict d /\ assoc "type" d = None.
  Proof.
    unfold dec_hp. destruct x as [v|l|d]; try discriminate. destruct (assoc "type" d) as [[v|l|d']|]; try discriminate.
    destruct v as [ty| | | |]; try discriminate. destruct (hp_decoder ty) as [f|]; [|discriminate].
    intros [= <- _]. eexists. split; [reflexivity|]. unfold hp_compat.
    assert (G : assoc "type" (backwards_compat (dremove "type" d)) = None).
    { unfold backwards_compat. destruct (assoc "default" _) as [y|].
      - destruct (is_none y); [|rewrite assoc_set_other by discriminate]; rewrite !dremove_other by discriminate; apply dremove_same.
      - rewrite dremove_other by discriminate. apply dremove_same. }
    destruct (String.eqb ty "categorical"); [rewrite dremove_other by discriminate|]; exact G.
  Qed.

  Lemma put_list_same k l l0 d : get_list k d = Ok l0 -> l0 <> [] -> get_list k (put_list k l d) = Ok l.
  Proof.
    intros H N. unfold put_list. destruct (assoc_mem k d) eqn:Hm; [unfold get_list; rewrite assoc_set_same; reflexivity|].
    exfalso. apply N. unfold get_list in H. destruct (assoc k d) eqn:Ha; [|congruence].
    unfold assoc_mem in Hm. rewrite Ha in Hm. discriminate.
  Qed.
  Lemma put_list_other k j l d : j <> k -> assoc j (put_list k l d) = assoc j d.
  Proof. intros H. unfold put_list. destruct (assoc_mem k d); [apply assoc_set_other, H|reflexivity]. Qed.
  Lemma put_list_ok k l l0 d : get_list k d = Ok l0 -> exists l', get_list k (put_list k l d) = Ok l'.
  Proof.
    intros H. unfold put_list. destruct (assoc_mem k d); [|eauto]. unfold get_list. rewrite assoc_set_same. eauto.
  Qed.
  Lemma put_list_keys k l d : map fst (put_list k l d) = map fst d.
  Proof. unfold put_list. destruct (assoc_mem k d) eqn:Hm; [rewrite assoc_set_keys, Hm; reflexivity|reflexivity]. Qed.

  (** decoding a dictionary with hyperparameters a second time raises KeyError *)
  Theorem C53_twice d d' x l : from_serialized d = (d', Ok x) -> assoc "hyperparameters" d = Some (DList l) -> l <> [] ->
    d' <> d /\ snd (from_serialized d') = Err KeyError.
  Proof.
    intros H Hl N. assert (G : snd (from_serialized d') = Err KeyError).
    2: { split; [|exact G]. intros ->. rewrite H in G. discriminate. }
    unfold from_serialized in H. destruct (get_name d) as [name|e] eqn:En; [|discriminate].
    destruct (get_list "hyperparameters" d) as [lh|e] eqn:Eh; [|discriminate].
    destruct (get_list "conditions" d) as [lc|e] eqn:Ec; [|discriminate].
    destruct (get_list "forbiddens" d) as [lf|e] eqn:Ef; [|discriminate].
    destruct (collect lh (map dec_hp lh)) as [lh' rh] eqn:E1. destruct rh as [hs|e]; [|discriminate].
    destruct (c_add (new_space name None) hs [] []) as [x1 [[]|e]]; [|discriminate].
    destruct (collect lc (map (dec_cond (c_space x1)) lc)) as [lc' rc] eqn:E2. destruct rc as [cs|e]; [|discriminate].
    destruct (collect lf (map (dec_forb (c_space x1)) lf)) as [lf' rf] eqn:E3. destruct rf as [fs|e]; [|discriminate].
    destruct (c_add x1 [] cs fs) as [x2 r2]. injection H as <- _.
    set (d1 := put_list "hyperparameters" lh' d). set (d2 := put_list "conditions" lc' d1).
    assert (Kn : get_name (put_list "forbiddens" lf' d2) = get_name d).
    { unfold get_name, d2, d1. rewrite !put_list_other by discriminate. reflexivity. }
    assert (lh = l) by (unfold get_list in Eh; rewrite Hl in Eh; congruence). subst lh.
    assert (Kh : get_list "hyperparameters" (put_list "forbiddens" lf' d2) = Ok lh').
    { unfold d2. transitivity (get_list "hyperparameters" d1); [unfold get_list; rewrite !put_list_other by discriminate; reflexivity|].
      apply (put_list_same _ _ l); [exact Eh|exact N]. }
    assert (Kc : exists l', get_list "conditions" (put_list "forbiddens" lf' d2) = Ok l').
    { assert (Q : get_list "conditions" d1 = Ok lc) by (unfold d1, get_list; rewrite put_list_other by discriminate; exact Ec).
      destruct (put_list_ok _ lc' _ _ Q) as (l' & Hl'). exists l'. fold d2 in Hl'. rewrite <- Hl'. unfold get_list.
      rewrite put_list_other by discriminate. reflexivity. }
    assert (Kf : exists l', get_list "forbiddens" (put_list "forbiddens" lf' d2) = Ok l').
    { apply (put_list_ok _ lf' lf). unfold d2, d1, get_list. rewrite !put_list_other by discriminate. exact Ef. }
    destruct Kc as (l1 & Kc), Kf as (l2 & Kf). unfold from_serialized. rewrite Kn, En, Kh, Kc, Kf.
    destruct l as [|h0 l]; [contradiction|]. simpl in E1. destruct (dec_hp h0) as [h0' [h|e]] eqn:Eh0; [|discriminate].
    destruct (collect l (map dec_hp l)) as [l3 r3]. injection E1 as <- _.
    apply dec_hp_type in Eh0. destruct Eh0 as (dd & -> & Ht).
    assert (Hd : dec_hp (DDict dd) = (DDict (dremove "type" dd), Err KeyError)) by (unfold dec_hp; rewrite Ht; reflexivity).
    cbn [map collect]. rewrite Hd. reflexivity.
  Qed.

  (** what is left alone: the keys, and all entries but the three lists *)
  Theorem C53_partial d : map fst (fst (from_serialized d)) = map fst d /\
    forall k, k <> "hyperparameters"%string -> k <> "conditions"%string -> k <> "forbiddens"%string ->
      assoc k (fst (from_serialized d)) = assoc k d.
  Proof.
    unfold from_serialized. destruct (get_name d); [|auto]. destruct (get_list "hyperparameters" d) as [lh|]; [|auto].
    destruct (get_list "conditions" d) as [lc|]; [|auto]. destruct (get_list "forbiddens" d) as [lf|]; [|auto].
    destruct (collect lh _) as [lh' [hs|e]]; [|simpl; rewrite put_list_keys; split; [reflexivity|]; intros; apply put_list_other; assumption].
    destruct (c_add _ hs [] []) as [x1 [[]|e]]; [|simpl; rewrite put_list_keys; split; [reflexivity|]; intros; apply put_list_other; assumption].
    destruct (collect lc _) as [lc' [cs|e]].
    2: { simpl. rewrite !put_list_keys. split; [reflexivity|]. intros. rewrite !put_list_other by assumption. reflexivity. }
    destruct (collect lf _) as [lf' [fs|e]].
    2: { simpl. rewrite !put_list_keys. split; [reflexivity|]. intros. rewrite !put_list_other by assumption. reflexivity. }
    destruct (c_add x1 [] cs fs) as [x2 r2]. simpl. rewrite !put_list_keys. split; [reflexivity|]. intros.
    rewrite !put_list_other by assumption. reflexivity.
  Qed.
End Serial.

Section Witness.
  #[local] Existing Instance rat_env.
  Open Scope string_scope.
  Open Scope list_scope.

  (** a hyperparameter that does not come back: its mean is rounded to 0 *)
  Definition hTiny := get_or dummy_hp (mk_normal_float "t" (1 # 100000000000000) 1 1 2 None true None).
  Theorem C50_refuted : exists h, constructed h /\ snd (dec_hp (enc_hp h)) = Err ValueError.
  Proof.
    exists hTiny. split; [|vm_compute; reflexivity].
    apply (CtorNFloat "t" (1 # 100000000000000) 1 1 2 None true None hTiny). vm_compute. reflexivity.
  Qed.
  Example C50_case : Forall constructed ex_hps /\ (forall h, In h ex_hps -> mean_survives h) /\
    forall h, In h ex_hps -> snd (dec_hp (enc_hp h)) = Ok h.
  Proof.
    assert (M : forall h, In h ex_hps -> mean_survives h).
    { intros h Hh. repeat (destruct Hh as [<-|Hh]; [vm_compute; exact I|]). destruct Hh. }
    split; [exact ex_hps_c|]. split; [exact M|]. intros h Hh. assert (LA := rat_env_laws). apply hp_back; [|apply M, Hh].
    apply (proj1 (Forall_forall _ _) ex_hps_c h Hh).
  Qed.

  Example C51_case : exists s hs cs fs, built s hs cs fs /\ refs hs cs fs /\ length cs = 4 /\ length fs = 5 /\
    (forall c, In c cs -> snd (dec_cond s (enc_cond c)) = Ok c) /\ (forall f, In f fs -> snd (dec_forb s (enc_forb f)) = Ok f).
  Proof.
    assert (LA := rat_env_laws). exists ex_space, ex_hps, ex_conds, ex_forbs.
    split; [exact ex_built|]. split; [exact ex_refs|]. split; [reflexivity|]. split; [reflexivity|]. split.
    - intros c Hc. apply (C51_condition_partial _ _ _ _ _ _ _ c ex_built ex_built Hc (proj1 ex_refs c Hc)).
    - intros f Hf. apply (C51_clause_partial _ _ _ _ _ _ _ f ex_built ex_built Hf (proj2 ex_refs f Hf)).
  Qed.

  (** a condition about another hyperparameter of the same name *)
  Definition hA' := get_or dummy_hp (mk_categorical "a" (xs ["x"; "w"]) None None None).
  Lemma hA'_c : constructed hA'.
  Proof. apply (CtorCat "a" (xs ["x"; "w"]) None None None hA'). vm_compute. reflexivity. Qed.
  Definition cBw := get_or dummy_cond (mk_bin OpEq hB hA' (VStr "w")).
  Definition other_space := fst (add empty_space [hA; hB] [cBw] []).
  Theorem C51_refuted : exists s hs cs c, built s hs cs [] /\ In c (conditions s) /\ snd (dec_cond s (enc_cond c)) = Err ValueError.
  Proof.
    exists other_space, [hA; hB], [cBw], cBw. split.
    - apply (built_step empty_space [] [] [] [hA; hB] [cBw] [] built_empty).
      + constructor; [apply hA_c|]. constructor; [apply hB_c|]. constructor.
      + constructor; [|constructor]. apply (CB_bin OpEq hB hA' (VStr "w") cBw hB_c hA'_c). vm_compute. reflexivity.
      + constructor.
      + vm_compute. reflexivity.
    - split; [vm_compute; left; reflexivity|vm_compute; reflexivity].
  Qed.

  (** conditions in force have different strings *)
  Lemma strings_distinct s hs cs fs : built s hs cs fs ->
    NoDup (map cond_str (concat (map (fun e => own_conds (snd e)) (d_nodes (s_dag s))))) -> distinct_strings s.
  Proof.
    intros B ND n n' c c' H H' Hs. assert (LA := rat_env_laws). assert (O := built_ok _ _ _ _ B).
    apply (keyed_inj cond_str _ ND); [apply (so_conditions s hs cs fs O); eauto|apply (so_conditions s hs cs fs O); eauto|exact Hs].
  Qed.
  Lemma nodup_strings (l : list string) : (fix go (l : list string) := match l with [] => true | x :: l' => (negb (str_in x l') && go l')%bool end) l = true -> NoDup l.
  Proof.
    induction l as [|x l IH]; intros H; [constructor|]. apply andb_true_iff in H. destruct H as [H1 H2]. constructor; [|apply IH, H2].
    apply str_in_false. apply negb_true_iff, H1.
  Qed.

  (** a space in one call, with conditions and clauses *)
  Definition one_space := fst (c_add (new_space (Some "s") None) ex_hps ex_conds ex_forbs).
  Lemma c_add_ok x hs cs fs : snd (c_add x hs cs fs) = Ok tt -> c_add x hs cs fs = (fst (c_add x hs cs fs), Ok tt).
  Proof. intros H. destruct (c_add x hs cs fs) as [x' r]. simpl in *. congruence. Qed.
  Lemma one_once : clauses_once true one_space ex_hps ex_conds ex_forbs.
  Proof.
    apply (once_clauses (new_space (Some "s") None) [] [] one_space ex_hps ex_conds ex_forbs (once_new _ _) ex_hps_c ex_conds_c ex_forbs_c).
    apply c_add_ok. vm_compute. reflexivity.
  Qed.
  Example C52_case : exists x hs cs fs x', clauses_once true x hs cs fs /\ tame (c_space x) hs cs fs /\ (forall h, In h hs -> mean_survives h) /\
    distinct_strings (c_space x) /\ NoDup (map forb_str fs) /\ c_meta x = None /\ length cs = 4 /\ length fs = 5 /\
    round_trip x = Ok x' /\ cspace_eqb x' x = true.
  Proof.
    assert (LA := rat_env_laws). exists one_space, ex_hps, ex_conds, ex_forbs. assert (C := one_once).
    assert (Q : c_space one_space = ex_space) by (vm_compute; reflexivity).
    assert (T : tame (c_space one_space) ex_hps ex_conds ex_forbs) by (rewrite Q; exact ex_tame).
    assert (U : distinct_strings (c_space one_space)).
    { apply (strings_distinct _ _ _ _ (tm_built _ _ _ _ T)). apply nodup_strings. vm_compute. reflexivity. }
    assert (M := proj1 (proj2 C50_case)).
    assert (ND : NoDup (map forb_str ex_forbs)) by (apply nodup_strings; vm_compute; reflexivity).
    destruct (C52_returns_partial one_space _ _ _ (once_cbuilt _ _ _ _ _ C) T M U) as (x' & H). exists x'.
    split; [exact C|]. split; [exact T|]. split; [exact M|]. split; [exact U|]. split; [exact ND|].
    assert (Mn : c_meta one_space = None) by (vm_compute; reflexivity).
    split; [exact Mn|]. split; [reflexivity|]. split; [reflexivity|]. split; [exact H|].
    apply (C52_equal_partial true one_space ex_hps ex_conds ex_forbs x' C (tm_refs _ _ _ _ T) M U ND Mn H).
  Qed.

  (** clauses in two calls, the later one with the smaller string *)
  Definition two_space1 := fst (c_add (new_space None None) [hN] [] [fN4]).
  Definition two_space := fst (c_add two_space1 [] [] [fN1]).
  Lemma two_built : cbuilt two_space [hN] [] [fN4; fN1].
  Proof.
    apply (cb_add two_space1 [hN] [] [fN4] two_space [] [] [fN1]).
    - apply (cb_add (new_space None None) [] [] [] two_space1 [hN] [] [fN4] (cb_new _ _)).
      + constructor; [apply hN_c|constructor].
      + constructor.
      + constructor; [apply fN4_c|constructor].
      + apply c_add_ok. vm_compute. reflexivity.
    - constructor.
    - constructor.
    - constructor; [apply fN1_c|constructor].
    - apply c_add_ok. vm_compute. reflexivity.
  Qed.
  Theorem C52_refuted : exists x hs cs fs x', cbuilt x hs cs fs /\ refs hs cs fs /\ (forall h, In h hs -> mean_survives h) /\
    distinct_strings (c_space x) /\ c_meta x = None /\ round_trip x = Ok x' /\ cspace_eqb x' x = false.
  Proof.
    assert (LA := rat_env_laws).
    exists two_space, [hN], [], [fN4; fN1], (get_or two_space (round_trip two_space)). split; [exact two_built|].
    split. { split; [intros c []|]. intros f Hf h Hh. destruct Hf as [<-|[<-|[]]]; vm_compute in Hh; (destruct Hh as [<-|[]]; left; reflexivity). }
    split; [intros h [<-|[]]; vm_compute; exact I|].
    split; [apply (strings_distinct _ _ _ _ (cbuilt_built _ _ _ _ two_built)); apply nodup_strings; vm_compute; reflexivity|].
    split; [reflexivity|]. split; vm_compute; reflexivity.
  Qed.

  (** the meta data are not part of the dictionary *)
  Definition meta_space := fst (c_add (new_space (Some "s") (Some "m")) [hN] [] []).
  Theorem C52_meta_refuted : exists x hs x', cbuilt x hs [] [] /\ round_trip x = Ok x' /\ c_meta x' <> c_meta x /\ cspace_eqb x' x = false.
  Proof.
    exists meta_space, [hN], (get_or meta_space (round_trip meta_space)). split.
    - apply (cb_add (new_space (Some "s") (Some "m")) [] [] [] meta_space [hN] [] [] (cb_new _ _)).
      + constructor; [apply hN_c|constructor].
      + constructor.
      + constructor.
      + apply c_add_ok. vm_compute. reflexivity.
    - split; [vm_compute; reflexivity|]. split; [vm_compute; discriminate|vm_compute; reflexivity].
  Qed.

  (** two conditions with one string: a hyperparameter comes back without its condition *)
  Definition u_cfirst := fst (c_add (new_space None None) [hUa; hUbc; hUab; hUc] [cU2] []).
  Definition u_cspace := fst (c_add u_cfirst [] [cU1] []).
  Theorem C52_dropped_refuted : exists x hs cs x' n, cbuilt x hs cs [] /\ refs hs cs [] /\ round_trip x = Ok x' /\
    conds_of (c_space x) n <> [] /\ conds_of (c_space x') n = [].
  Proof.
    exists u_cspace, [hUa; hUbc; hUab; hUc], [cU2; cU1], (get_or u_cspace (round_trip u_cspace)), "m | b". split.
    - apply (cb_add u_cfirst [hUa; hUbc; hUab; hUc] [cU2] [] u_cspace [] [cU1] []).
      + apply (cb_add (new_space None None) [] [] [] u_cfirst [hUa; hUbc; hUab; hUc] [cU2] [] (cb_new _ _)).
        * repeat (constructor; [apply hU_c; tauto|]). constructor.
        * constructor; [apply cU2_c|constructor].
        * constructor.
        * apply c_add_ok. vm_compute. reflexivity.
      + constructor.
      + constructor; [apply cU1_c|constructor].
      + constructor.
      + apply c_add_ok. vm_compute. reflexivity.
    - split. { split; [|intros f []]. intros c Hc l Hl. destruct Hc as [<-|[<-|[]]]; vm_compute in Hl; (destruct Hl as [<-|[]]; vm_compute; tauto). }
      split; [vm_compute; reflexivity|]. split; [vm_compute; discriminate|vm_compute; reflexivity].
  Qed.

  Theorem C53_refuted : exists d d' x, from_serialized d = (d', Ok x) /\ d' <> d /\ snd (from_serialized d') = Err KeyError.
  Proof.
    set (d := to_serialized one_space). exists d, (fst (from_serialized d)), (get_or one_space (snd (from_serialized d))).
    assert (H : from_serialized d = (fst (from_serialized d), Ok (get_or one_space (snd (from_serialized d))))).
    { vm_compute. reflexivity. }
    split; [exact H|]. apply (C53_twice _ _ _ (map enc_hp (Space.hps (c_space one_space))) H); [reflexivity|vm_compute; discriminate].
  Qed.
End Witness.
