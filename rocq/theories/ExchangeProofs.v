(** * Running get_one_exchange_neighbourhood *)
From Coq Require Import String List ZArith QArith Bool Lia Permutation.
From Verif Require Import Base ListFacts Numeric HP Cond Forb Dag Space CommitProofs Spec SpaceProofs ForbProofs ValidProofs
  ChangeProofs Dist Util LookupProofs.
Import ListNotations.
Open Scope nat_scope.

Section Exchange.
  Context {E : Env}.

  (** two entries for the same hyperparameter *)
  Definition same_slot (a b : slot) : Prop :=
    sl_hp a = sl_hp b /\ sl_idx a = sl_idx b /\ sl_sample a = sl_sample b /\ sl_iter a = sl_iter b /\
    sl_shuffle a = sl_shuffle b /\ sl_regen a = sl_regen b.

  Lemma same_slot_refl a : same_slot a a.
  Proof. repeat split. Qed.
  Lemma same_slot_trans a b c : same_slot a b -> same_slot b c -> same_slot a c.
  Proof. unfold same_slot. intuition congruence. Qed.
  Lemma slot_after_same a n nb g : same_slot a (slot_after a n nb g).
  Proof. repeat split. Qed.

  Lemma Forall2_weaken {A B} (P R : A -> B -> Prop) l m : (forall a b, P a b -> R a b) -> Forall2 P l m -> Forall2 R l m.
  Proof. intros H F. induction F; constructor; auto. Qed.

  (** shuffling permutes *)
  Definition shuffled (o : oracle) : Prop := forall g l, Permutation l (o_shuf o g l).

  (** ** No loop other than the outermost one can be cut off *)
  Definition ends {A} (r : res A) : Prop := r <> Err OutOfFuel.

  Lemma ends_bind {A B} (x : res A) (f : A -> res B) : ends x -> (forall a, ends (f a)) -> ends (bind x f).
  Proof. unfold ends. intros H K. destruct x; simpl; [apply K|congruence]. Qed.
  Lemma ends_ok {A} (a : A) : ends (Ok a).
  Proof. discriminate. Qed.
  Lemma ends_if {A} (b : bool) (x y : res A) : ends x -> ends y -> ends (if b then x else y).
  Proof. destruct b; auto. Qed.

  Lemma to_value_ends h x : ends (to_value h x).
  Proof.
    unfold to_value, np_index. destruct (hp_kind h), x; try discriminate; try (apply ends_if; try discriminate);
      repeat match goal with |- ends (match ?a with _ => _ end) => destruct a end; discriminate.
  Qed.
  Lemma forb_vec_ends io v f : ends (forb_vec io v f).
  Proof.
    induction f as [h w ww|h ws wws|r a b|fs IH] using fclause_ind'; try discriminate.
    - cbn [forb_vec]. unfold rel_vec. apply ends_if; [discriminate|]. apply ends_bind; [apply to_value_ends|]. intros x.
      apply ends_bind; [apply to_value_ends|]. intros y. unfold rel_val.
      repeat match goal with |- ends (match ?a with _ => _ end) => destruct a end; discriminate.
    - cbn [forb_vec]. induction IH as [|f fs Hf _ IH]; [discriminate|]. cbn [allM]. apply ends_bind; [exact Hf|].
      intros b. apply ends_if; [exact IH|discriminate].
  Qed.
  Lemma anyM_ends io v fs : ends (anyM (forb_vec io v) fs).
  Proof.
    induction fs as [|f fs IH]; [discriminate|]. cbn [anyM]. apply ends_bind; [apply forb_vec_ends|].
    intros b. apply ends_if; [discriminate|exact IH].
  Qed.
  Lemma nb_loop_ends quant lower upper n cands : forall buf, ends (nb_loop quant lower upper n buf cands).
  Proof.
    induction cands as [|c cands IH]; intros buf; [discriminate|]. cbn [nb_loop]. apply ends_if; [|discriminate].
    apply ends_if; [discriminate|apply IH].
  Qed.
  Lemma cont_loop_ends n cands : forall buf, ends (cont_loop n buf cands).
  Proof.
    induction cands as [|c cands IH]; intros buf; [discriminate|]. cbn [cont_loop]. apply ends_if; [|discriminate].
    apply ends_if; [discriminate|apply IH].
  Qed.
  Lemma neighborhood_ends h q n r : ends (neighborhood h q n r).
  Proof.
    assert (D : forall lo hi log, ends (discretized_neighborhood lo hi log q n (nr_cands r))).
    { intros lo hi log. unfold discretized_neighborhood. repeat (apply ends_if; try discriminate). apply nb_loop_ends. }
    unfold neighborhood. destruct (hp_kind h) as [c w|sq|v|lo hi log d|lo hi log d]; try discriminate.
    - unfold ordinal_neighborhood. repeat (apply ends_if; try discriminate).
    - destruct log, d; try apply D. unfold quantized_neighborhood. repeat (apply ends_if; try discriminate). apply nb_loop_ends.
    - apply cont_loop_ends.
  Qed.
  Lemma try_ends it s arr o sl : forall nb g, ends (try_hp it s arr o sl nb g).
  Proof.
    induction it as [|it IH]; intros nb g; [discriminate|]. cbn [try_hp]. apply ends_if; [discriminate|].
    apply ends_bind.
    - destruct nb; [|discriminate]. destruct (nth (sl_idx sl) arr NaN); try discriminate.
      apply ends_bind; [apply neighborhood_ends|discriminate].
    - intros [nb1 g1]. cbn [fst snd]. destruct (pop nb1) as [[rest x]|]; [|discriminate].
      apply ends_bind; [apply anyM_ends|]. intros b. apply ends_if; [apply IH|discriminate].
  Qed.

  Section Run.
    Context (s : space) (arr : list fval) (o : oracle) (SH : shuffled o).

    (** [x] is a neighbour proposed for the entry *)
    Definition proposed (sl : slot) (x : Q) : Prop :=
      exists g q l, nth (sl_idx sl) arr NaN = Fin q /\
        neighborhood (sl_hp sl) q (sl_sample sl) (o_rng o g) = Ok l /\ In x l.
    Definition moved (sl : slot) (x : Q) : list fval := change_hp_value s arr (hp_name (sl_hp sl)) (Fin x) (sl_idx sl).
    (** the clauses that mention the hyperparameter, on the changed vector *)
    Definition verdict (sl : slot) (x : Q) : res bool :=
      anyM (forb_vec (index_of s) (moved sl x)) (looked_up (hp_name (sl_hp sl)) (d_flookup (s_dag s))).

    Lemma proposed_same a b x : same_slot a b -> proposed a x -> proposed b x.
    Proof.
      intros (H1 & H2 & H3 & _) (g & q & l & P1 & P2 & P3). exists g, q, l. rewrite <- H1, <- H2, <- H3. auto.
    Qed.
    Lemma moved_same a b x : same_slot a b -> moved a x = moved b x.
    Proof. intros (H1 & H2 & _). unfold moved. rewrite H1, H2. reflexivity. Qed.
    Lemma verdict_same a b x : same_slot a b -> verdict a x = verdict b x.
    Proof. intros H. unfold verdict. rewrite (moved_same a b x H). destruct H as (-> & _). reflexivity. Qed.

    Lemma pop_spec nb rest x : pop nb = Some (rest, x) -> nb = rest ++ [x].
    Proof. unfold pop. intros H. assert (K := split_last_spec nb). rewrite H in K. exact K. Qed.
    Lemma pop_snoc rest x : pop (rest ++ [x]) = Some (rest, x).
    Proof.
      unfold pop. assert (K := split_last_spec (rest ++ [x])). destruct (split_last (rest ++ [x])) as [[a b]|].
      - apply app_inj_tail in K. destruct K as [-> ->]. reflexivity.
      - destruct rest; discriminate.
    Qed.

    (** one turn *)
    Lemma try_spec it : forall sl nb g out nb' g', (forall x, In x nb -> proposed sl x) ->
      try_hp it s arr o sl nb g = Ok (out, nb', g') ->
      (forall x, In x nb' -> proposed sl x) /\ g <= g' /\
      forall x v, out = Yields x v -> proposed sl x /\ v = moved sl x /\ verdict sl x = Ok false.
    Proof.
      induction it as [|it IH]; intros sl nb g out nb' g' P H; cbn [try_hp] in H.
      - injection H as <- <- <-. split; [exact P|]. split; [lia|]. discriminate.
      - destruct (match nb with [] => true | _ => false end && (sl_generated sl && negb (sl_regen sl)))%bool eqn:Eg.
        + injection H as <- <- <-. split; [exact P|]. split; [lia|]. discriminate.
        + match type of H with bind ?t _ = _ => destruct t as [[nb1 g1]|] eqn:En; [|discriminate] end. cbn [bind fst snd] in H.
          assert (P1 : (forall x, In x nb1 -> proposed sl x) /\ g <= g1).
          { destruct nb as [|y nb]; [|injection En as <- <-; auto].
            destruct (nth (sl_idx sl) arr NaN) as [q| | |] eqn:Eq; try discriminate.
            destruct (neighborhood (sl_hp sl) q (sl_sample sl) (o_rng o g)) as [l|] eqn:El; [|discriminate]. cbn [bind] in En.
            injection En as <- <-. split; [|lia]. intros x Hx. exists g, q, l. split; [exact Eq|]. split; [exact El|].
            destruct (sl_shuffle sl); [|exact Hx]. eapply Permutation_in; [symmetry; apply SH|exact Hx]. }
          destruct P1 as [P1 G1]. destruct (pop nb1) as [[rest x]|] eqn:Ep; [|discriminate].
          apply pop_spec in Ep. subst nb1.
          match type of H with bind ?t _ = _ => change t with (verdict sl x) in H; destruct (verdict sl x) as [b|] eqn:Ev; [|discriminate] end.
          cbn [bind] in H. destruct b.
          * destruct (IH _ _ _ _ _ _ (fun y Hy => P1 y (in_or_app _ _ _ (or_introl Hy))) H) as (I1 & I2 & I3). split; [exact I1|]. split; [lia|exact I3].
          * injection H as <- <- <-. split; [intros y Hy; apply P1, in_or_app; auto|]. split; [exact G1|].
            intros y v Hv. injection Hv as <- <-. split; [apply P1, in_or_app; simpl; auto|]. auto.
    Qed.

    (** ** The whole run *)
    Definition kept (a b : list slot) : Prop := Forall2 same_slot a b.

    Lemma kept_set sls p sl n nb g : nth_error sls p = Some sl -> kept sls (set_nth p (slot_after sl n nb g) sls).
    Proof.
      revert p. induction sls as [|x sls IH]; intros [|p] H; simpl in *; try discriminate.
      - injection H as <-. constructor; [apply slot_after_same|]. clear. induction sls; constructor; auto using same_slot_refl.
      - constructor; [apply same_slot_refl|apply IH; exact H].
    Qed.

    (** the slots that can still yield *)
    Definition open_slots (sls : list slot) : nat := length (filter (fun sl => negb (Nat.eqb (sl_left sl) 0)) sls).
    Definition total_left (sls : list slot) : nat := fold_right (fun sl n => sl_left sl + n) 0 sls.

    Lemma open_set sls p sl sl' : nth_error sls p = Some sl -> sl_left sl <> 0 ->
      open_slots (set_nth p sl' sls) = if Nat.eqb (sl_left sl') 0 then open_slots sls - 1 else open_slots sls.
    Proof.
      intros H Hn. assert (G : open_slots (set_nth p sl' sls) + 1 = open_slots sls + (if Nat.eqb (sl_left sl') 0 then 0 else 1)).
      { revert p H. induction sls as [|x sls IH]; intros [|p] H; simpl in *; try discriminate; unfold open_slots in *; simpl.
        - injection H as ->. apply Nat.eqb_neq in Hn. rewrite Hn. simpl. destruct (Nat.eqb (sl_left sl') 0); simpl; lia.
        - specialize (IH p H). destruct (negb (Nat.eqb (sl_left x) 0)); simpl; lia. }
      destruct (Nat.eqb (sl_left sl') 0); lia.
    Qed.
    Lemma total_set sls p sl sl' : nth_error sls p = Some sl ->
      total_left (set_nth p sl' sls) + sl_left sl = total_left sls + sl_left sl'.
    Proof.
      revert p. induction sls as [|x sls IH]; intros [|p] H; simpl in *; try discriminate.
      - injection H as ->. lia.
      - specialize (IH p H). lia.
    Qed.

    (** entries with finitely many neighbours that are tried once each *)
    Record exact_slot (N : list Q) (sl : slot) : Prop := {
      ex_regen : sl_regen sl = false;
      ex_iter : sl_iter sl = length N;
      ex_some : N <> [];
      ex_nodup : NoDup N;
      ex_gen : forall g q l, nth (sl_idx sl) arr NaN = Fin q ->
        neighborhood (sl_hp sl) q (sl_sample sl) (o_rng o g) = Ok l -> Permutation l N
    }.
    Lemma exact_same N a b : same_slot a b -> exact_slot N a -> exact_slot N b.
    Proof.
      intros (H1 & H2 & H3 & H4 & H5 & H6) [A B C D F]. constructor; try congruence. intros g q l P Q. apply (F g q l).
      - congruence.
      - rewrite H1, H3. exact Q.
    Qed.

    (** what is still to be tried *)
    Definition todo (N : list Q) (sl : slot) : list Q := if sl_generated sl then sl_nb sl else N.
    Record phase (N : list Q) (sl : slot) : Prop := {
      ph_fresh : sl_generated sl = false -> sl_nb sl = [] /\ length N <= sl_left sl;
      ph_part : sl_generated sl = true -> length (sl_nb sl) < length N /\ NoDup (sl_nb sl);
      ph_left : length (sl_nb sl) <= sl_left sl
    }.

    (** popping without generating again *)
    Lemma try_pop it : forall sl nb g out nb' g', sl_generated sl = true \/ it <= length nb -> sl_regen sl = false ->
      try_hp it s arr o sl nb g = Ok (out, nb', g') ->
      g' = g /\ exists bads, (forall x, In x bads -> verdict sl x = Ok true) /\
        ((exists x, out = Yields x (moved sl x) /\ verdict sl x = Ok false /\ nb = nb' ++ [x] ++ bads) \/
         (out = Exhausted /\ nb' = [] /\ nb = bads) \/
         (out = Failed /\ nb = nb' ++ bads /\ length bads = it)).
    Proof.
      induction it as [|it IH]; intros sl nb g out nb' g' G R H; cbn [try_hp] in H.
      - injection H as <- <- <-. split; [reflexivity|]. exists []. split; [intros x []|]. right. right. rewrite app_nil_r. auto.
      - destruct (match nb with [] => true | _ => false end && (sl_generated sl && negb (sl_regen sl)))%bool eqn:Eg.
        + injection H as <- <- <-. split; [reflexivity|]. destruct nb; [|discriminate]. exists []. split; [intros x []|]. right. left. auto.
        + destruct nb as [|y nb].
          { exfalso. rewrite R in Eg. destruct G as [G|G]; [rewrite G in Eg; discriminate|simpl in G; lia]. }
          cbn [bind fst snd] in H. destruct (pop (y :: nb)) as [[rest x]|] eqn:Ep; [|discriminate]. apply pop_spec in Ep. rewrite Ep in G |- *.
          match type of H with bind ?t _ = _ => change t with (verdict sl x) in H; destruct (verdict sl x) as [b|] eqn:Ev; [|discriminate] end.
          cbn [bind] in H. destruct b.
          * assert (G' : sl_generated sl = true \/ it <= length rest).
            { destruct G as [G|G]; [auto|right]. rewrite app_length in G. simpl in G. lia. }
            destruct (IH _ _ _ _ _ _ G' R H) as (-> & bads & B1 & B2). split; [reflexivity|]. exists (bads ++ [x]). split.
            { intros z Hz. rewrite in_app_iff in Hz. destruct Hz as [Hz|[<-|[]]]; auto. }
            destruct B2 as [(z & Z1 & Z2 & Z3)|[(Z1 & Z2 & Z3)|(Z1 & Z2 & Z3)]].
            -- left. exists z. split; [exact Z1|]. split; [exact Z2|]. rewrite Z3, <- !app_assoc. reflexivity.
            -- right. left. split; [exact Z1|]. split; [exact Z2|]. rewrite Z3. reflexivity.
            -- right. right. split; [exact Z1|]. split; [rewrite Z2, app_assoc; reflexivity|]. rewrite app_length. simpl. lia.
          * injection H as <- <- <-. split; [reflexivity|]. exists []. split; [intros z []|]. left. exists x. auto.
    Qed.

    (** one turn of an entry with finitely many neighbours *)
    Lemma try_exact N sl g out nb' g' : exact_slot N sl -> phase N sl -> sl_left sl <> 0 ->
      try_hp (sl_iter sl) s arr o sl (sl_nb sl) g = Ok (out, nb', g') ->
      let left' := match out with Yields _ _ => sl_left sl - 1 | _ => 0 end in
      let sl' := slot_after sl left' nb' (negb (Nat.eqb g' g)) in
      phase N sl' /\ sl_generated sl' = true /\
      exists bads, (forall x, In x bads -> verdict sl x = Ok true) /\
        ((exists x, out = Yields x (moved sl x) /\ verdict sl x = Ok false /\ Permutation (todo N sl) (x :: nb' ++ bads)) \/
         ((forall x v, out <> Yields x v) /\ nb' = [] /\ Permutation (todo N sl) bads)).
    Proof.
      intros [X1 X2 X3 X4 X5] [F1 F2 F3] Hl H. cbv zeta. unfold todo. destruct (sl_generated sl) eqn:Eg.
      - clear F1. specialize (F2 eq_refl). destruct F2 as [F2 F2'].
        destruct (try_pop (sl_iter sl) sl (sl_nb sl) g out nb' g' (or_introl Eg) X1 H) as (-> & bads & B1 & B2).
        rewrite Nat.eqb_refl. simpl negb.
        destruct B2 as [(x & -> & Ev & Hn)|[(-> & -> & Hn)|(-> & Hn & Hb)]].
        + split; [|split].
          * constructor; simpl; rewrite ?Eg; simpl; try discriminate.
            -- intros _. rewrite Hn in F2, F2'. rewrite !app_length in F2. split; [lia|].
               clear -F2'. induction nb' as [|y l IH]; [constructor|]. simpl in F2'. inversion F2' as [|? ? K1 K2]; subst. constructor; [|auto].
               intros K. apply K1. apply in_or_app. auto.
            -- rewrite Hn in F3. rewrite !app_length in F3. simpl in F3. lia.
          * simpl. rewrite Eg. reflexivity.
          * exists bads. split; [exact B1|]. left. exists x. split; [reflexivity|]. split; [exact Ev|]. rewrite Hn. simpl. symmetry. apply Permutation_middle.
        + split; [|split].
          * constructor; simpl; rewrite ?Eg; simpl; try discriminate; auto. intros _. split; [|constructor].
            destruct N; [contradiction|simpl; lia].
          * simpl. rewrite Eg. reflexivity.
          * exists bads. split; [exact B1|]. right. split; [discriminate|]. split; [reflexivity|]. rewrite Hn. reflexivity.
        + exfalso. rewrite Hn, app_length in F2. lia.
      - specialize (F1 eq_refl). destruct F1 as [F1 F1']. rewrite F1 in H. rewrite X2 in H.
        assert (Ln : exists m, length N = S m) by (destruct N; [contradiction|simpl; eauto]). destruct Ln as (m & Lm). rewrite Lm in H.
        cbn [try_hp] in H. rewrite Eg in H. cbn [andb] in H.
        destruct (nth (sl_idx sl) arr NaN) as [q| | |] eqn:Eq; try discriminate.
        destruct (neighborhood (sl_hp sl) q (sl_sample sl) (o_rng o g)) as [l|] eqn:El; [|discriminate]. cbn [bind fst snd] in H.
        assert (Pl := X5 g q l eq_refl El).
        set (nb1 := if sl_shuffle sl then o_shuf o g l else l) in H.
        assert (P1 : Permutation nb1 N).
        { unfold nb1. destruct (sl_shuffle sl); [|exact Pl]. transitivity l; [symmetry; apply SH|exact Pl]. }
        clearbody nb1.
        destruct (pop nb1) as [[rest x]|] eqn:Ep; [|discriminate]. apply pop_spec in Ep. subst nb1.
        assert (Lr : length rest = m) by (apply Permutation_length in P1; rewrite app_length in P1; simpl in P1; lia).
        match type of H with bind ?t _ = _ => change t with (verdict sl x) in H; destruct (verdict sl x) as [b|] eqn:Ev; [|discriminate] end.
        cbn [bind] in H.
        assert (ND : NoDup (rest ++ [x])) by (eapply Permutation_NoDup; [symmetry; exact P1|exact X4]).
        assert (NDp : forall a b, NoDup (a ++ b) -> NoDup (a : list Q)).
        { clear. induction a as [|y l IH]; intros b H; [constructor|]. simpl in H. inversion H as [|? ? K1 K2]; subst.
          constructor; [|eauto]. intros K. apply K1. apply in_or_app. auto. }
        destruct b.
        + assert (Lr' : m <= length rest) by lia.
          destruct (try_pop m sl rest (S g) out nb' g' (or_intror Lr') X1 H) as (-> & bads & B1 & B2).
          assert (Egg : Nat.eqb (S g) g = false) by (apply Nat.eqb_neq; lia). rewrite Egg. simpl negb.
          assert (B1' : forall y, In y (bads ++ [x]) -> verdict sl y = Ok true).
          { intros z Hz. rewrite in_app_iff in Hz. destruct Hz as [Hz|[<-|[]]]; auto. }
          destruct B2 as [(z & -> & Ev' & Hn)|[(-> & -> & Hn)|(-> & Hn & Hb)]].
          * split; [|split].
            -- constructor; simpl; rewrite ?Eg; simpl; try discriminate.
               ++ intros _. rewrite Hn in Lr. rewrite !app_length in Lr. simpl in Lr. split; [lia|].
                  rewrite Hn in ND. rewrite <- !app_assoc in ND. apply (NDp _ _ ND).
               ++ rewrite Hn in Lr. rewrite !app_length in Lr. simpl in Lr. lia.
            -- simpl. rewrite Eg. reflexivity.
            -- exists (bads ++ [x]). split; [exact B1'|]. left. exists z. split; [reflexivity|]. split; [exact Ev'|].
               rewrite <- P1, Hn. rewrite <- !app_assoc. simpl. symmetry. apply Permutation_middle.
          * split; [|split].
            -- constructor; simpl; rewrite ?Eg; simpl; try discriminate; auto. intros _. split; [lia|constructor].
            -- simpl. rewrite Eg. reflexivity.
            -- exists (bads ++ [x]). split; [exact B1'|]. right. split; [discriminate|]. split; [reflexivity|]. rewrite <- P1, Hn. reflexivity.
          * assert (nb' = []) by (rewrite Hn, app_length in Lr; destruct nb'; [reflexivity|simpl in Lr; lia]). subst nb'. simpl in Hn. subst rest.
            split; [|split].
            -- constructor; simpl; rewrite ?Eg; simpl; try discriminate; auto. intros _. split; [lia|constructor].
            -- simpl. rewrite Eg. reflexivity.
            -- exists (bads ++ [x]). split; [exact B1'|]. right. split; [discriminate|]. split; [reflexivity|]. rewrite <- P1. reflexivity.
        + injection H as <- <- <-. assert (Egg : Nat.eqb (S g) g = false) by (apply Nat.eqb_neq; lia). rewrite Egg. simpl negb. split; [|split].
          * constructor; simpl; rewrite ?Eg; simpl; try discriminate.
            -- intros _. split; [lia|]. apply (NDp _ _ ND).
            -- lia.
          * simpl. rewrite Eg. reflexivity.
          * exists []. split; [intros y []|]. left. exists x. split; [reflexivity|]. split; [exact Ev|].
            rewrite <- P1, app_nil_r. symmetry. apply Permutation_cons_append.
    Qed.
    Lemma nth_set_slot sls p sl n nb g j sl' : nth_error sls p = Some sl ->
      nth_error (set_nth p (slot_after sl n nb g) sls) j = Some sl' ->
      (j = p /\ sl' = slot_after sl n nb g) \/ (j <> p /\ nth_error sls j = Some sl').
    Proof.
      intros Hp H. destruct (Nat.eq_dec j p) as [->|Hj].
      - left. split; [reflexivity|]. assert (Hl : p < length sls) by (apply nth_error_Some; congruence).
        rewrite (nth_error_nth' _ sl) in H by (rewrite set_nth_length; exact Hl). rewrite nth_set_nth_eq in H by exact Hl. congruence.
      - right. split; [exact Hj|]. rewrite nth_error_set_nth_ne in H by exact Hj. exact H.
    Qed.
    Lemma nth_set_slot_eq sls p sl n nb g : nth_error sls p = Some sl ->
      nth_error (set_nth p (slot_after sl n nb g) sls) p = Some (slot_after sl n nb g).
    Proof.
      intros Hp. assert (Hl : p < length sls) by (apply nth_error_Some; congruence).
      rewrite (nth_error_nth' _ sl) by (rewrite set_nth_length; exact Hl). rewrite nth_set_nth_eq by exact Hl. reflexivity.
    Qed.

    (** how one yielded configuration came about: the position of the hyperparameter among the
        entries and its new vector entry *)
    Definition made_by (sls : list slot) (c : config) (px : nat * Q) : Prop :=
      exists sl, nth_error sls (fst px) = Some sl /\ proposed sl (snd px) /\ verdict sl (snd px) = Ok false /\
        config_of_vector s (moved sl (snd px)) false = Ok c.
    Definition of_slot (p : nat) (tags : list (nat * Q)) : list Q := map snd (filter (fun px => Nat.eqb (fst px) p) tags).

    Lemma made_by_set sls p sl n nb g c px : nth_error sls p = Some sl ->
      made_by (set_nth p (slot_after sl n nb g) sls) c px -> made_by sls c px.
    Proof.
      intros Hp (sl' & H1 & H2 & H3 & H4). destruct (nth_set_slot _ _ _ _ _ _ _ _ Hp H1) as [[Hj ->]|[Hj Hn]].
      - exists sl. rewrite Hj. split; [exact Hp|]. assert (Sm := slot_after_same sl n nb g).
        assert (Sm' : same_slot (slot_after sl n nb g) sl) by (repeat split).
        split; [apply (proposed_same _ _ _ Sm' H2)|]. rewrite (verdict_same _ _ _ Sm), (moved_same _ _ _ Sm). auto.
      - exists sl'. auto.
    Qed.

    Lemma todo_nodup N sl : exact_slot N sl -> phase N sl -> NoDup (todo N sl).
    Proof.
      intros X P. unfold todo. destruct (sl_generated sl) eqn:Eg; [apply (ph_part _ _ P Eg)|apply (ex_nodup _ _ X)].
    Qed.

    Lemma open_zero sls p sl : open_slots sls = 0 -> nth_error sls p = Some sl -> sl_left sl = 0.
    Proof.
      intros H Hp. apply nth_error_In in Hp. unfold open_slots in H. apply length_zero_iff_nil in H.
      destruct (Nat.eq_dec (sl_left sl) 0) as [K|K]; [exact K|]. exfalso.
      assert (I : In sl (filter (fun sl => negb (Nat.eqb (sl_left sl) 0)) sls)).
      { apply filter_In. split; [exact Hp|]. apply Nat.eqb_neq in K. rewrite K. reflexivity. }
      rewrite H in I. destruct I.
    Qed.

    Lemma loop_trace fuel : forall sls left t g cs r,
      exchange_loop fuel s arr o sls left t g = (cs, r) ->
      (forall sl x, In sl sls -> In x (sl_nb sl) -> proposed sl x) -> left = open_slots sls ->
      exists tags, Forall2 (made_by sls) cs tags /\
        forall p sl, nth_error sls p = Some sl -> length (of_slot p tags) <= sl_left sl /\
          forall N, exact_slot N sl -> phase N sl ->
            NoDup (of_slot p tags) /\ incl (of_slot p tags) (todo N sl) /\
            (r = Ok tt -> forall x, In x (todo N sl) -> verdict sl x = Ok false -> In x (of_slot p tags)).
    Proof.
      induction fuel as [|fuel IH]; intros sls left t g cs r H P Hl; cbn [exchange_loop] in H.
      { injection H as <- <-. exists []. split; [constructor|]. intros p sl Hp. split; [simpl; lia|]. intros N X Ph.
        split; [constructor|]. split; [intros x []|discriminate]. }
      destruct (Nat.eqb left 0) eqn:El.
      { injection H as <- <-. apply Nat.eqb_eq in El. exists []. split; [constructor|]. intros p sl Hp. split; [simpl; lia|]. intros N X Ph.
        split; [constructor|]. split; [intros x []|]. intros _ x Hx _. exfalso.
        assert (Z : sl_left sl = 0) by (apply (open_zero sls p); congruence). unfold todo in Hx.
        destruct (sl_generated sl) eqn:Eg.
        - assert (K := ph_left _ _ Ph). rewrite Z in K. destruct (sl_nb sl); [destruct Hx|simpl in K; lia].
        - destruct (ph_fresh _ _ Ph Eg) as [_ K]. rewrite Z in K. destruct N; [destruct Hx|simpl in K; lia]. }
      assert (Stop : forall e, ([], Err e) = (cs, r) -> exists tags, Forall2 (made_by sls) cs tags /\
        forall p sl, nth_error sls p = Some sl -> length (of_slot p tags) <= sl_left sl /\
          forall N, exact_slot N sl -> phase N sl ->
            NoDup (of_slot p tags) /\ incl (of_slot p tags) (todo N sl) /\
            (r = Ok tt -> forall x, In x (todo N sl) -> verdict sl x = Ok false -> In x (of_slot p tags))).
      { intros e He. injection He as <- <-. exists []. split; [constructor|]. intros p sl Hp. split; [simpl; lia|]. intros N X Ph.
        split; [constructor|]. split; [intros x []|discriminate]. }
      destruct (nth_error sls (o_pick o t)) as [sl|] eqn:Hp; [|eapply Stop; exact H].
      set (p := o_pick o t) in *.
      destruct (Nat.eqb (sl_left sl) 0) eqn:Es; [apply (IH _ _ _ _ _ _ H P Hl)|]. apply Nat.eqb_neq in Es.
      destruct (try_hp (sl_iter sl) s arr o sl (sl_nb sl) g) as [[[out nb'] g']|e] eqn:Et; [|eapply Stop; exact H].
      assert (Psl : forall x, In x (sl_nb sl) -> proposed sl x) by (intros x Hx; apply (P sl x (nth_error_In _ _ Hp) Hx)).
      destruct (try_spec _ _ _ _ _ _ _ Psl Et) as (T1 & T2 & T3).
      assert (Pnew : forall n gen sl' x, In sl' (set_nth p (slot_after sl n nb' gen) sls) -> In x (sl_nb sl') -> proposed sl' x).
      { intros n gen sl' x Hi Hx. apply In_nth_error in Hi. destruct Hi as (j & Hj).
        destruct (nth_set_slot _ _ _ _ _ _ _ _ Hp Hj) as [[-> ->]|[Hne Hn]].
        - apply (proposed_same sl); [apply slot_after_same|]. apply T1. exact Hx.
        - apply P; [apply (nth_error_In _ _ Hn)|exact Hx]. }
      assert (Other : forall n gen j slj, j <> p -> nth_error sls j = Some slj -> nth_error (set_nth p (slot_after sl n nb' gen) sls) j = Some slj).
      { intros n gen j slj Hne Hj. rewrite nth_error_set_nth_ne; assumption. }
      assert (Fail : (forall x v, out <> Yields x v) ->
        exchange_loop fuel s arr o (set_nth p (slot_after sl 0 nb' (negb (Nat.eqb g' g))) sls) (left - 1) (S t) g' = (cs, r) ->
        exists tags, Forall2 (made_by sls) cs tags /\
        forall p sl, nth_error sls p = Some sl -> length (of_slot p tags) <= sl_left sl /\
          forall N, exact_slot N sl -> phase N sl ->
            NoDup (of_slot p tags) /\ incl (of_slot p tags) (todo N sl) /\
            (r = Ok tt -> forall x, In x (todo N sl) -> verdict sl x = Ok false -> In x (of_slot p tags))).
      { intros Ho Hr. set (gen := negb (Nat.eqb g' g)) in *.
        destruct (IH _ _ _ _ _ _ Hr (Pnew 0 gen)) as (tags & F & G).
        { rewrite (open_set sls p sl _ Hp Es). simpl. lia. }
        exists tags. split.
        { eapply Forall2_weaken; [|exact F]. intros c px. apply (made_by_set _ _ _ _ _ _ _ _ Hp). }
        intros j slj Hj. destruct (Nat.eq_dec j p) as [->|Hne]; [|apply (G j slj (Other 0 gen j slj Hne Hj))].
        assert (slj = sl) by congruence. subst slj. destruct (G p _ (nth_set_slot_eq _ _ _ 0 nb' gen Hp)) as [G1 G2].
        simpl in G1. split; [lia|]. intros N X Ph.
        destruct (try_exact N sl g out nb' g' X Ph Es Et) as (Ph' & Hg & bads & B1 & B2).
        assert (Eo : match out with Yields _ _ => sl_left sl - 1 | _ => 0 end = 0) by (destruct out; [exfalso; eapply Ho; reflexivity|reflexivity..]).
        rewrite Eo in Ph', Hg. assert (X' := exact_same N sl _ (slot_after_same sl 0 nb' gen) X).
        destruct (G2 N X' Ph') as (Q1 & Q2 & Q3).
        assert (Z : of_slot p tags = []) by (destruct (of_slot p tags); [reflexivity|simpl in G1; lia]).
        rewrite Z. split; [constructor|]. split; [intros x []|]. intros _ x Hx Hv. exfalso.
        destruct B2 as [(y & Hy & _)|(_ & _ & Pm)]; [eapply Ho; exact Hy|].
        apply (Permutation_in _ Pm) in Hx. rewrite (B1 x Hx) in Hv. discriminate. }
      destruct out as [x v| |].
      2: { apply Fail; [discriminate|exact H]. }
      2: { apply Fail; [discriminate|exact H]. }
      clear Fail.
      destruct (config_of_vector s v false) as [c|e] eqn:Ec; [|eapply Stop; exact H]. cbv zeta in H.
      set (gen := negb (Nat.eqb g' g)) in *. set (n := sl_left sl - 1) in *.
      destruct (exchange_loop fuel s arr o (set_nth p (slot_after sl n nb' gen) sls) (if Nat.eqb n 0 then left - 1 else left) (S t) g') as [cs' r'] eqn:Er.
      injection H as <- <-. destruct (IH _ _ _ _ _ _ Er (Pnew n gen)) as (tags & F & G).
      { rewrite (open_set sls p sl _ Hp Es). simpl. rewrite Hl. reflexivity. }
      destruct (T3 x v eq_refl) as (X1 & -> & X3). exists ((p, x) :: tags). split.
      { constructor.
        - exists sl. auto.
        - eapply Forall2_weaken; [|exact F]. intros c' px. apply (made_by_set _ _ _ _ _ _ _ _ Hp). }
      intros j slj Hj. unfold of_slot. cbn [filter fst]. destruct (Nat.eq_dec j p) as [->|Hne].
      2: { assert (Ej : Nat.eqb p j = false) by (apply Nat.eqb_neq; congruence). rewrite Ej. apply (G j slj (Other n gen j slj Hne Hj)). }
      rewrite Nat.eqb_refl. cbn [map snd length]. fold (of_slot p tags).
      assert (slj = sl) by congruence. subst slj. destruct (G p _ (nth_set_slot_eq _ _ _ n nb' gen Hp)) as [G1 G2].
      simpl in G1. split; [unfold n in G1; lia|]. intros N X Ph.
      destruct (try_exact N sl g (Yields x (moved sl x)) nb' g' X Ph Es Et) as (Ph' & Hg & bads & B1 & B2).
      assert (X' := exact_same N sl _ (slot_after_same sl n nb' gen) X). fold gen n in Ph', Hg.
      destruct (G2 N X' Ph') as (Q1 & Q2 & Q3). unfold todo in Q2, Q3 at 1. rewrite Hg in Q2, Q3. simpl in Q2, Q3.
      destruct B2 as [(y & Hy & Hv & Pm)|(K & _)]; [|exfalso; eapply K; reflexivity]. injection Hy as <- _.
      assert (ND := Permutation_NoDup Pm (todo_nodup N sl X Ph)). inversion ND as [|? ? N1 N2]; subst.
      split; [|split].
      - constructor; [|exact Q1]. intros K. apply N1. apply in_or_app. left. apply Q2. exact K.
      - intros y [<-|Hy]; eapply Permutation_in; try (symmetry; exact Pm); [left; reflexivity|]. right. apply in_or_app. left. apply Q2. exact Hy.
      - intros Hr y Hy Hvy. apply (Permutation_in _ Pm) in Hy. destruct Hy as [<-|Hy]; [left; reflexivity|right].
        apply in_app_or in Hy. destruct Hy as [Hy|Hy]; [|rewrite (B1 y Hy) in Hvy; discriminate]. apply (Q3 Hr y Hy).
        rewrite <- (verdict_same _ _ _ (slot_after_same sl n nb' gen)). exact Hvy.
    Qed.
    (** ** The run ends if every entry is picked again and again *)
    Definition fair (n : nat) : Prop :=
      (forall t, o_pick o t < n) /\ forall p t, p < n -> exists t', t <= t' /\ o_pick o t' = p.

    Lemma loop_skip k : forall sls left t g, (forall j, j < k -> exists sl, nth_error sls (o_pick o (t + j)) = Some sl /\ sl_left sl = 0) ->
      left <> 0 -> forall fuel, exchange_loop (k + fuel) s arr o sls left t g = exchange_loop fuel s arr o sls left (t + k) g.
    Proof.
      induction k as [|k IH]; intros sls left t g H Hl fuel; [rewrite Nat.add_0_r; reflexivity|].
      cbn [Nat.add exchange_loop]. assert (El : Nat.eqb left 0 = false) by (apply Nat.eqb_neq; exact Hl). rewrite El.
      destruct (H 0 ltac:(lia)) as (sl & Hs & Hz). rewrite Nat.add_0_r in Hs. rewrite Hs, Hz. cbn [Nat.eqb].
      rewrite IH.
      - f_equal. lia.
      - intros j Hj. destruct (H (S j) ltac:(lia)) as (sl' & Hs' & Hz'). exists sl'. replace (S t + j) with (t + S j) by lia. auto.
      - exact Hl.
    Qed.

    Lemma loop_ends : forall m sls left t g, total_left sls = m -> fair (length sls) -> left = open_slots sls ->
      exists fuel, ends (snd (exchange_loop fuel s arr o sls left t g)).
    Proof.
      induction m as [m IH] using lt_wf_ind. intros sls left t g Hm Fr Hl.
      destruct (Nat.eq_dec left 0) as [->|Hz]; [exists 1; discriminate|].
      (* some entry can still yield *)
      assert (Ex : exists p sl, nth_error sls p = Some sl /\ sl_left sl <> 0).
      { rewrite Hl in Hz. unfold open_slots in Hz. destruct (filter (fun sl => negb (Nat.eqb (sl_left sl) 0)) sls) as [|sl l] eqn:Ef; [simpl in Hz; lia|].
        assert (I : In sl (filter (fun sl => negb (Nat.eqb (sl_left sl) 0)) sls)) by (rewrite Ef; left; reflexivity).
        apply filter_In in I. destruct I as [I1 I2]. apply In_nth_error in I1. destruct I1 as (p & Hp). exists p, sl. split; [exact Hp|].
        apply Nat.eqb_neq. apply negb_true_iff. exact I2. }
      destruct Ex as (p & sl0 & Hp0 & Hn0).
      destruct (proj2 Fr p t (proj1 (nth_error_Some sls p) ltac:(congruence))) as (t' & Ht & Hpk).
      (* the first such pick *)
      assert (Fst : exists k sl, (forall j, j < k -> exists sl, nth_error sls (o_pick o (t + j)) = Some sl /\ sl_left sl = 0) /\
                nth_error sls (o_pick o (t + k)) = Some sl /\ sl_left sl <> 0).
      { assert (G : forall d u, u + d = t' -> exists k sl, (forall j, j < k -> exists sl, nth_error sls (o_pick o (u + j)) = Some sl /\ sl_left sl = 0) /\
                nth_error sls (o_pick o (u + k)) = Some sl /\ sl_left sl <> 0).
        { induction d as [|d IHd]; intros u Hu.
          - exists 0, sl0. rewrite Nat.add_0_r in *. subst u. rewrite Hpk. split; [intros j Hj; lia|]. auto.
          - destruct (nth_error sls (o_pick o u)) as [sl|] eqn:Eu; [|apply nth_error_None in Eu; assert (K := proj1 Fr u); lia].
            destruct (Nat.eq_dec (sl_left sl) 0) as [Z|Z].
            + destruct (IHd (S u) ltac:(lia)) as (k & sl' & K1 & K2 & K3). exists (S k), sl'. split; [|split].
              * intros [|j] Hj; [exists sl; rewrite Nat.add_0_r; auto|]. replace (u + S j) with (S u + j) by lia. apply K1. lia.
              * replace (u + S k) with (S u + k) by lia. exact K2.
              * exact K3.
            + exists 0, sl. rewrite Nat.add_0_r. split; [intros j Hj; lia|]. auto. }
        apply (G (t' - t) t). lia. }
      destruct Fst as (k & sl & K1 & K2 & K3).
      assert (Step : exists fuel, ends (snd (exchange_loop (S fuel) s arr o sls left (t + k) g))).
      { cbn [exchange_loop]. assert (El : Nat.eqb left 0 = false) by (apply Nat.eqb_neq; exact Hz). rewrite El, K2.
        assert (Es : Nat.eqb (sl_left sl) 0 = false) by (apply Nat.eqb_neq; exact K3). rewrite Es.
        assert (Te := try_ends (sl_iter sl) s arr o sl (sl_nb sl) g).
        destruct (try_hp (sl_iter sl) s arr o sl (sl_nb sl) g) as [[[out nb'] g']|e]; [|exists 0; simpl; unfold ends in *; congruence].
        set (gen := negb (Nat.eqb g' g)).
        assert (Rec : forall n lf, n < sl_left sl -> lf = open_slots (set_nth (o_pick o (t + k)) (slot_after sl n nb' gen) sls) ->
          exists fuel, ends (snd (exchange_loop fuel s arr o (set_nth (o_pick o (t + k)) (slot_after sl n nb' gen) sls) lf (S (t + k)) g'))).
        { intros n lf Hn Hlf. eapply IH; [|reflexivity| |exact Hlf].
          - assert (Tt := total_set sls _ sl (slot_after sl n nb' gen) K2). simpl in Tt. lia.
          - rewrite set_nth_length. exact Fr. }
        destruct out as [x v| |].
        - destruct (config_of_vector s v false) as [c|e] eqn:Ec.
          + destruct (Rec (sl_left sl - 1) (if Nat.eqb (sl_left sl - 1) 0 then left - 1 else left)) as (fuel & Hf); [lia| |].
            { rewrite (open_set sls _ sl _ K2 K3). simpl. rewrite Hl. reflexivity. }
            exists fuel. fold gen.
            destruct (exchange_loop fuel s arr o (set_nth (o_pick o (t + k)) (slot_after sl (sl_left sl - 1) nb' gen) sls)
              (if Nat.eqb (sl_left sl - 1) 0 then left - 1 else left) (S (t + k)) g'); exact Hf.
          + exists 0. simpl. unfold config_of_vector in Ec. destruct (Nat.eqb (length v) (s_len s)); [discriminate|].
            injection Ec as <-. discriminate.
        - apply (Rec 0 (left - 1)); [lia|]. rewrite (open_set sls _ sl _ K2 K3). simpl. lia.
        - apply (Rec 0 (left - 1)); [lia|]. rewrite (open_set sls _ sl _ K2 K3). simpl. lia. }
      destruct Step as (fuel & Hf). exists (k + S fuel). rewrite loop_skip by assumption. exact Hf.
    Qed.

    (** more fuel changes nothing once the run has ended *)
    Lemma loop_mono fuel : forall sls left t g, ends (snd (exchange_loop fuel s arr o sls left t g)) ->
      forall k, exchange_loop (fuel + k) s arr o sls left t g = exchange_loop fuel s arr o sls left t g.
    Proof.
      induction fuel as [|fuel IH]; intros sls left t g H k; [exfalso; apply H; reflexivity|].
      cbn [Nat.add exchange_loop] in *. destruct (Nat.eqb left 0); [reflexivity|].
      destruct (nth_error sls (o_pick o t)) as [sl|]; [|reflexivity].
      destruct (Nat.eqb (sl_left sl) 0); [apply IH; exact H|].
      destruct (try_hp (sl_iter sl) s arr o sl (sl_nb sl) g) as [[[out nb'] g']|e]; [|reflexivity].
      destruct out as [x v| |]; [|apply IH; exact H|apply IH; exact H].
      destruct (config_of_vector s v false) as [c|e]; [|reflexivity].
      rewrite IH; [reflexivity|].
      destruct (exchange_loop fuel s arr o (set_nth (o_pick o t) (slot_after sl (sl_left sl - 1) nb' (negb (Nat.eqb g' g))) sls)
              (if Nat.eqb (sl_left sl - 1) 0 then left - 1 else left) (S t) g'); exact H.
    Qed.
    (** ** The run raises no exception if the parts do not *)
    Definition answering (sl : slot) : Prop := forall g, exists q l, nth (sl_idx sl) arr NaN = Fin q /\
      neighborhood (sl_hp sl) q (sl_sample sl) (o_rng o g) = Ok l /\ l <> [].
    Definition clean_slot (sl : slot) : Prop := forall x, proposed sl x ->
      (exists b, verdict sl x = Ok b) /\ exists c, config_of_vector s (moved sl x) false = Ok c.

    Lemma try_normal it : forall sl nb g, answering sl -> clean_slot sl -> (forall x, In x nb -> proposed sl x) ->
      exists out nb' g', try_hp it s arr o sl nb g = Ok (out, nb', g').
    Proof.
      induction it as [|it IH]; intros sl nb g A C P; cbn [try_hp]; [eauto|].
      destruct (match nb with [] => true | _ => false end && (sl_generated sl && negb (sl_regen sl)))%bool; [eauto|].
      assert (G : exists nb1 g1, match nb with
                | _ :: _ => Ok (nb, g)
                | [] => match nth (sl_idx sl) arr NaN with
                        | Fin q => l <- neighborhood (sl_hp sl) q (sl_sample sl) (o_rng o g) ;;
                                   Ok (if sl_shuffle sl then o_shuf o g l else l, S g)
                        | _ => Err Unmodelled
                        end
                end = Ok (nb1, g1) /\ nb1 <> [] /\ forall x, In x nb1 -> proposed sl x).
      { destruct nb as [|y nb].
        - destruct (A g) as (q & l & A1 & A2 & A3). rewrite A1, A2. cbn [bind]. eexists. eexists. split; [reflexivity|].
          assert (Pm : Permutation l (if sl_shuffle sl then o_shuf o g l else l)) by (destruct (sl_shuffle sl); [apply SH|reflexivity]).
          split; [intros K; rewrite K in Pm; apply Permutation_sym, Permutation_nil in Pm; contradiction|].
          intros x Hx. exists g, q, l. split; [exact A1|]. split; [exact A2|]. eapply Permutation_in; [symmetry; exact Pm|exact Hx].
        - exists (y :: nb), g. split; [reflexivity|]. split; [discriminate|exact P]. }
      destruct G as (nb1 & g1 & -> & Hn & P1). cbn [bind fst snd].
      destruct (pop nb1) as [[rest x]|] eqn:Ep.
      2: { exfalso. unfold pop in Ep. assert (K := split_last_spec nb1). rewrite Ep in K. contradiction. }
      apply pop_spec in Ep. subst nb1. destruct (C x) as [(b & Hb) _]; [apply P1, in_or_app; simpl; auto|].
      match goal with |- context [bind ?t _] => change t with (verdict sl x) end. rewrite Hb. cbn [bind]. destruct b; [|eauto].
      apply IH; [exact A|exact C|]. intros y Hy. apply P1, in_or_app. auto.
    Qed.

    Lemma loop_normal fuel : forall sls left t g, (forall u, o_pick o u < length sls) ->
      (forall sl, In sl sls -> answering sl /\ clean_slot sl) -> (forall sl x, In sl sls -> In x (sl_nb sl) -> proposed sl x) ->
      forall cs r, exchange_loop fuel s arr o sls left t g = (cs, r) -> r = Ok tt \/ r = Err OutOfFuel.
    Proof.
      induction fuel as [|fuel IH]; intros sls left t g Pk AC P cs r H; cbn [exchange_loop] in H; [injection H as <- <-; auto|].
      destruct (Nat.eqb left 0); [injection H as <- <-; auto|].
      destruct (nth_error sls (o_pick o t)) as [sl|] eqn:Hp; [|apply nth_error_None in Hp; specialize (Pk t); lia].
      destruct (Nat.eqb (sl_left sl) 0); [apply (IH _ _ _ _ Pk AC P _ _ H)|].
      destruct (AC sl (nth_error_In _ _ Hp)) as [A C].
      assert (Psl : forall x, In x (sl_nb sl) -> proposed sl x) by (intros x Hx; apply (P sl x (nth_error_In _ _ Hp) Hx)).
      destruct (try_normal (sl_iter sl) sl (sl_nb sl) g A C Psl) as (out & nb' & g' & Et). rewrite Et in H.
      destruct (try_spec _ _ _ _ _ _ _ Psl Et) as (T1 & T2 & T3).
      assert (Inv : forall n gen sl', In sl' (set_nth (o_pick o t) (slot_after sl n nb' gen) sls) ->
        (answering sl' /\ clean_slot sl') /\ forall x, In x (sl_nb sl') -> proposed sl' x).
      { intros n gen sl' Hi. apply In_nth_error in Hi. destruct Hi as (j & Hj).
        destruct (nth_set_slot _ _ _ _ _ _ _ _ Hp Hj) as [[-> ->]|[Hne Hn]].
        - assert (Sm := slot_after_same sl n nb' gen). assert (Sm' : same_slot (slot_after sl n nb' gen) sl) by (repeat split).
          split; [split|].
          + intros g0. destruct (A g0) as (q & l & K). exists q, l. exact K.
          + intros x Hx. rewrite <- (verdict_same _ _ _ Sm), <- (moved_same _ _ _ Sm). apply C. apply (proposed_same _ _ _ Sm' Hx).
          + intros x Hx. apply (proposed_same _ _ _ Sm). apply T1. exact Hx.
        - apply nth_error_In in Hn. split; [apply AC; exact Hn|]. intros x. apply P. exact Hn. }
      assert (Rec : forall n gen lf, forall cs r, exchange_loop fuel s arr o (set_nth (o_pick o t) (slot_after sl n nb' gen) sls) lf (S t) g' = (cs, r) ->
        r = Ok tt \/ r = Err OutOfFuel).
      { intros n gen lf cs' r' Hr. eapply IH; [| | |exact Hr].
        - rewrite set_nth_length. exact Pk.
        - intros sl' Hi. apply (Inv n gen sl' Hi).
        - intros sl' x Hi. apply (Inv n gen sl' Hi). }
      destruct out as [x v| |]; [|eapply Rec; exact H|eapply Rec; exact H].
      destruct (T3 x v eq_refl) as (X1 & -> & _). destruct (C x X1) as [_ (c & Hc)]. rewrite Hc in H. cbv zeta in H.
      match type of H with (let (_, _) := ?e in _) = _ => destruct e as [cs' r'] eqn:Er end. injection H as <- <-.
      eapply Rec. exact Er.
    Qed.
  End Run.
  (** ** The entries *)
  Lemma slot_of_spec s c num i name h sl : slot_of s c num i name h = Ok (Some sl) ->
    sl_hp sl = h /\ sl_idx sl = i /\ sl_nb sl = [] /\ sl_generated sl = false /\ isnan (nth i (c_vector c) NaN) = false /\
    hp_size h <> Some 1%Z /\
    match hp_kind h with
    | KCat ch _ => sl_left sl = length ch - 1 /\ sl_sample sl = length ch - 1 /\ sl_iter sl = length ch - 1 /\ sl_regen sl = false
    | KOrd _ => exists w m, getitem s c name = Ok w /\ get_num_neighbors h (Some w) = Ok (Some (Z.of_nat m)) /\
        sl_left sl = m /\ sl_sample sl = m /\ sl_iter sl = m /\ sl_regen sl = false
    | KFloat _ _ _ _ => sl_left sl = num /\ sl_sample sl = num * 5 /\ sl_iter sl = Nat.max (num * 5) 100 /\ sl_regen sl = true
    | KInt lo hi _ _ => sl_left sl = num /\ sl_sample sl = Nat.min num (Z.to_nat (hi - lo)) /\ sl_iter sl = sl_sample sl /\
        sl_regen sl = Nat.leb num (Z.to_nat (hi - lo))
    | KConst _ => True
    end.
  Proof.
    unfold slot_of. destruct (match hp_size h with Some 1%Z => true | _ => false end || isnan (nth i (c_vector c) NaN))%bool eqn:Eb; [discriminate|].
    apply orb_false_iff in Eb. destruct Eb as [E1 E2]. intros H.
    assert (Hs : hp_size h <> Some 1%Z) by (intros K; rewrite K in E1; discriminate).
    assert (G : sl_hp sl = h /\ sl_idx sl = i /\ sl_nb sl = [] /\ sl_generated sl = false /\
      match hp_kind h with
    | KCat ch _ => sl_left sl = length ch - 1 /\ sl_sample sl = length ch - 1 /\ sl_iter sl = length ch - 1 /\ sl_regen sl = false
    | KOrd _ => exists w m, getitem s c name = Ok w /\ get_num_neighbors h (Some w) = Ok (Some (Z.of_nat m)) /\
        sl_left sl = m /\ sl_sample sl = m /\ sl_iter sl = m /\ sl_regen sl = false
    | KFloat _ _ _ _ => sl_left sl = num /\ sl_sample sl = num * 5 /\ sl_iter sl = Nat.max (num * 5) 100 /\ sl_regen sl = true
    | KInt lo hi _ _ => sl_left sl = num /\ sl_sample sl = Nat.min num (Z.to_nat (hi - lo)) /\ sl_iter sl = sl_sample sl /\
        sl_regen sl = Nat.leb num (Z.to_nat (hi - lo))
    | KConst _ => True
    end); [|intuition].
    unfold hp_size in H, Hs. destruct (hp_kind h) as [ch w|sq|v|lo hi log d|lo hi log d] eqn:K.
    - injection H as <-. cbn [sl_hp sl_idx sl_nb sl_generated sl_left sl_sample sl_iter sl_regen].
      replace (Z.to_nat (Z.of_nat (length ch) - 1)) with (length ch - 1) by lia. repeat split.
    - destruct (getitem s c name) as [w|] eqn:Eg; [|discriminate]. cbn [bind] in H.
      destruct (get_num_neighbors h (Some w)) as [[z|]|] eqn:En; try discriminate. cbn [bind] in H. injection H as <-.
      cbn [sl_hp sl_idx sl_nb sl_generated sl_left sl_sample sl_iter sl_regen]. repeat split. exists w, (Z.to_nat z).
      split; [reflexivity|]. split; [|repeat split]. rewrite En. f_equal. f_equal. symmetry. apply Z2Nat.id.
      unfold get_num_neighbors in En. rewrite K in En. destruct (Z.of_nat (length sq) =? 1)%Z; [injection En as <-; lia|].
      destruct (py_index w sq); [|discriminate]. injection En as <-. destruct (_ || _)%bool; lia.
    - exfalso. apply Hs. reflexivity.
    - injection H as <-. cbn [sl_hp sl_idx sl_nb sl_generated sl_left sl_sample sl_iter sl_regen].
      replace (hi - lo + 1 - 1)%Z with (hi - lo)%Z by lia. repeat split.
    - injection H as <-. cbn [sl_hp sl_idx sl_nb sl_generated sl_left sl_sample sl_iter sl_regen]. repeat split.
  Qed.

  Lemma slots_In s c num ns : forall i sls, slots_of s c num i ns = Ok sls ->
    forall sl, In sl sls -> exists j name n, nth_error ns j = Some (name, n) /\ slot_of s c num (i + j) name (n_hp n) = Ok (Some sl).
  Proof.
    induction ns as [|[name n] ns IH]; intros i sls H sl Hs; cbn [slots_of] in H; [injection H as <-; destruct Hs|].
    destruct (slot_of s c num i name (n_hp n)) as [o0|] eqn:Eo; [|discriminate]. cbn [bind] in H.
    destruct (slots_of s c num (S i) ns) as [l|] eqn:El; [|discriminate]. cbn [bind] in H. injection H as <-.
    assert (G : In sl l -> exists j name0 n0, nth_error ((name, n) :: ns) j = Some (name0, n0) /\ slot_of s c num (i + j) name0 (n_hp n0) = Ok (Some sl)).
    { intros Hl. destruct (IH _ _ El sl Hl) as (j & nm & nd & H1 & H2). exists (S j), nm, nd. split; [exact H1|].
      replace (i + S j) with (S i + j) by lia. exact H2. }
    destruct o0 as [x|]; [|auto]. destruct Hs as [<-|Hs]; [|auto]. exists 0, name, n. rewrite Nat.add_0_r. auto.
  Qed.
  Lemma slots_has s c num ns : forall i sls, slots_of s c num i ns = Ok sls ->
    forall j name n, nth_error ns j = Some (name, n) -> exists o0, slot_of s c num (i + j) name (n_hp n) = Ok o0 /\
      forall sl, o0 = Some sl -> In sl sls.
  Proof.
    induction ns as [|[name n] ns IH]; intros i sls H j nm nd Hj; [destruct j; discriminate|]. cbn [slots_of] in H.
    destruct (slot_of s c num i name (n_hp n)) as [o0|] eqn:Eo; [|discriminate]. cbn [bind] in H.
    destruct (slots_of s c num (S i) ns) as [l|] eqn:El; [|discriminate]. cbn [bind] in H. injection H as <-.
    destruct j as [|j]; simpl in Hj.
    - injection Hj as <- <-. exists o0. rewrite Nat.add_0_r. split; [exact Eo|]. intros sl ->. left. reflexivity.
    - destruct (IH _ _ El j nm nd Hj) as (o1 & H1 & H2). exists o1. replace (i + S j) with (S i + j) by lia. split; [exact H1|].
      intros sl Hs. specialize (H2 sl Hs). destruct o0; [right|]; exact H2.
  Qed.
  Lemma slots_idx s c num ns : forall i sls, slots_of s c num i ns = Ok sls ->
    NoDup (map sl_idx sls) /\ forall sl, In sl sls -> i <= sl_idx sl.
  Proof.
    induction ns as [|[name n] ns IH]; intros i sls H; cbn [slots_of] in H; [injection H as <-; split; [constructor|intros sl []]|].
    destruct (slot_of s c num i name (n_hp n)) as [o0|] eqn:Eo; [|discriminate]. cbn [bind] in H.
    destruct (slots_of s c num (S i) ns) as [l|] eqn:El; [|discriminate]. cbn [bind] in H. injection H as <-.
    destruct (IH _ _ El) as [I1 I2]. destruct o0 as [x|].
    - assert (Ix : sl_idx x = i) by (apply (slot_of_spec _ _ _ _ _ _ _ Eo)). split.
      + simpl. constructor; [|exact I1]. intros K. apply in_map_iff in K. destruct K as (y & Hy & Iy). specialize (I2 y Iy). lia.
      + intros sl [<-|Hs]; [lia|]. specialize (I2 sl Hs). lia.
    - split; [exact I1|]. intros sl Hs. specialize (I2 sl Hs). lia.
  Qed.
  Lemma slots_total s c num ns : forall i, (forall j name n, nth_error ns j = Some (name, n) -> exists o0, slot_of s c num (i + j) name (n_hp n) = Ok o0) ->
    exists sls, slots_of s c num i ns = Ok sls.
  Proof.
    induction ns as [|[name n] ns IH]; intros i H; [simpl; eauto|]. cbn [slots_of].
    destruct (H 0 name n eq_refl) as (o0 & Eo). rewrite Nat.add_0_r in Eo. rewrite Eo. cbn [bind].
    destruct (IH (S i)) as (l & El).
    { intros j nm nd Hj. destruct (H (S j) nm nd Hj) as (o1 & E1). exists o1. replace (S i + j) with (i + S j) by lia. exact E1. }
    rewrite El. cbn [bind]. eauto.
  Qed.

  Definition changeable (s : space) (c : config) (h : hp) : bool :=
    negb (match hp_size h with Some 1%Z => true | _ => false end || isnan (vget (index_of s) (c_vector c) (hp_name h)))%bool.

  Lemma slots_hps s c num ns : forall i sls, slots_of s c num i ns = Ok sls ->
    (forall j name n, nth_error ns j = Some (name, n) -> vget (index_of s) (c_vector c) (hp_name (n_hp n)) = nth (i + j) (c_vector c) NaN) ->
    map sl_hp sls = filter (changeable s c) (node_hps ns).
  Proof.
    induction ns as [|[name n] ns IH]; intros i sls H V; cbn [slots_of] in H; [injection H as <-; reflexivity|].
    destruct (slot_of s c num i name (n_hp n)) as [o0|] eqn:Eo; [|discriminate]. cbn [bind] in H.
    destruct (slots_of s c num (S i) ns) as [l|] eqn:El; [|discriminate]. cbn [bind] in H. injection H as <-.
    assert (V0 := V 0 name n eq_refl). rewrite Nat.add_0_r in V0.
    assert (IH' : map sl_hp l = filter (changeable s c) (node_hps ns)).
    { apply (IH _ _ El). intros j nm nd Hj. rewrite (V (S j) nm nd Hj). f_equal. lia. }
    unfold node_hps. cbn [map snd filter]. fold (node_hps ns).
    destruct o0 as [x|].
    - destruct (slot_of_spec _ _ _ _ _ _ _ Eo) as (S1 & _ & _ & _ & S5 & S6 & _).
      assert (Ch : changeable s c (n_hp n) = true).
      { unfold changeable. rewrite V0, S5. destruct (hp_size (n_hp n)) as [[|[| |]|]|]; try reflexivity. exfalso. apply S6. reflexivity. }
      rewrite Ch. cbn [map]. rewrite S1, IH'. reflexivity.
    - assert (Ch : changeable s c (n_hp n) = false).
      { unfold changeable. rewrite V0. unfold slot_of in Eo.
        destruct (match hp_size (n_hp n) with Some 1%Z => true | _ => false end || isnan (nth i (c_vector c) NaN))%bool; [reflexivity|].
        exfalso. destruct (hp_kind (n_hp n)), (hp_size (n_hp n)); try discriminate;
          (destruct (getitem s c name) as [w|]; [|discriminate]; cbn [bind] in Eo;
           destruct (get_num_neighbors (n_hp n) (Some w)) as [[z0|]|]; discriminate). }
      rewrite Ch. exact IH'.
  Qed.
End Exchange.
