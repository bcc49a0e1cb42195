(** * Properties C60, C72: fix_types *)
From Coq Require Import String List ZArith QArith Bool Lia Permutation Qround DecimalString Decimal.
From Verif Require Import Base ListFacts Numeric NumericProofs HP HPProofs Properties_HP Cond Forb EqFacts Dag DagProofs Space CommitProofs Spec
  SpaceProofs ConfigProofs Ex Properties_Change Fix.
Import ListNotations.
Open Scope nat_scope.

Section Fix.
  Context {E : Env} {L : EnvLaws E}.
  Variable T : text.

  (** ** Specification *)

  (** [c] is the one value of the list printed like [v] *)
  Definition matched (cands : list value) (v c : value) : Prop :=
    exists l1 l2, cands = l1 ++ c :: l2 /\ tx_str T c = tx_str T v /\ (forall x, In x (l1 ++ l2) -> tx_str T x <> tx_str T v).

  (** [w] is the value of [h] that [v] stands for *)
  Definition retyped (h : hp) (v w : value) : Prop :=
    match hp_kind h with
    | KCat ch _ => matched ch v w
    | KOrd sq => matched sq v w
    | KConst c => c = w /\ tx_str T c = tx_str T v
    | KFloat _ _ _ DUniform => exists q, w = VFloat q /\ match v with VStr t => tx_float T t = Some q | _ => num_of v = Some q end
    | KInt _ _ _ DUniform => exists z, w = VInt z /\
        match v with
        | VStr t => tx_int T t = Some z
        | _ => exists q, num_of v = Some q /\ ((0 <= q)%Q -> (inject_Z z <= q)%Q /\ (q < inject_Z (z + 1))%Q) /\
                 ((q < 0)%Q -> (q <= inject_Z z)%Q /\ (inject_Z (z - 1) < q)%Q)
        end
    | _ => False
    end.

  (** the kinds fix_types knows *)
  Definition supported (h : hp) : Prop :=
    match hp_kind h with KInt _ _ _ DUniform | KFloat _ _ _ DUniform | KCat _ _ | KOrd _ | KConst _ => True | _ => False end.

  (** what becomes of an entry of the dictionary *)
  Definition entry_fixed (hs : list hp) (a b : string * value) : Prop :=
    fst a = fst b /\ forall h, In h hs -> hp_name h = fst a -> (snd a = VNone /\ snd b = VNone) \/ (snd a <> VNone /\ retyped h (snd a) (snd b)).
  Definition entry_kept (hs : list hp) (a b : string * value) : Prop := ~ In (fst a) (map hp_name hs) -> b = a.

  (** ** One value *)

  Lemma from_candidates_ok v l c : from_candidates T v l = Ok c <-> matched l v c.
  Proof.
    unfold from_candidates, matched. split.
    - intros H. assert (F : filter (fun c => String.eqb (tx_str T v) (tx_str T c)) l = [c]) by (destruct (filter _ l) as [|x [|]]; [discriminate|congruence|discriminate]). clear H.
      revert F. induction l as [|x l IH]; simpl; [discriminate|]. destruct (String.eqb (tx_str T v) (tx_str T x)) eqn:Ex.
      + intros H. injection H as -> H. exists [], l. apply String.eqb_eq in Ex. split; [reflexivity|]. split; [auto|]. intros y Hy K.
        assert (In y (filter (fun c => String.eqb (tx_str T v) (tx_str T c)) l)) by (apply filter_In; split; [exact Hy|apply String.eqb_eq; auto]). rewrite H in *. contradiction.
      + intros H. destruct (IH H) as (l1 & l2 & -> & H1 & H2). exists (x :: l1), l2. split; [reflexivity|]. split; [exact H1|]. intros y [<-|Hy]; [|auto].
        apply String.eqb_neq in Ex. auto.
    - intros (l1 & l2 & -> & H1 & H2). rewrite filter_app. simpl. rewrite H1, String.eqb_refl.
      assert (N : forall l, (forall x, In x l -> tx_str T x <> tx_str T v) -> filter (fun c => String.eqb (tx_str T v) (tx_str T c)) l = []).
      { intros l H. induction l as [|x l IH]; [reflexivity|]. simpl. destruct (String.eqb_spec (tx_str T v) (tx_str T x)) as [K|K]; [exfalso; apply (H x); simpl; auto|]. apply IH. intros y Hy. apply H. simpl. auto. }
      rewrite (N l1), (N l2); [reflexivity| |]; intros x Hx; apply H2, in_app_iff; auto.
  Qed.
  Lemma from_candidates_err v l e : from_candidates T v l = Err e -> e = ValueError.
  Proof. unfold from_candidates. destruct (filter _ l) as [|? [|]]; congruence. Qed.

  Lemma py_int_ok q z : py_int q = z <-> ((0 <= q)%Q -> (inject_Z z <= q)%Q /\ (q < inject_Z (z + 1))%Q) /\ ((q < 0)%Q -> (q <= inject_Z z)%Q /\ (inject_Z (z - 1) < q)%Q).
  Proof.
    unfold py_int. split.
    - intros <-. destruct (Qle_bool 0 q) eqn:E0.
      + apply Qle_bool_iff in E0. split; [|intros K; exfalso; apply (Qlt_not_le _ _ K E0)]. intros _. split; [apply Qfloor_le|apply Qlt_floor].
      + split; [intros K; apply Qle_bool_iff in K; congruence|]. intros _. split; [apply Qle_ceiling|apply Qceiling_lt].
    - intros [H1 H2]. assert (U : forall a b : Z, (inject_Z a < inject_Z (b + 1))%Q -> (a <= b)%Z) by (intros a b K; rewrite <- Zlt_Qlt in K; lia).
      destruct (Qle_bool 0 q) eqn:E0.
      + apply Qle_bool_iff in E0. destruct (H1 E0) as [A B]. assert (A' := Qfloor_le q). assert (B' := Qlt_floor q).
        apply Z.le_antisymm; apply U; [apply (Qle_lt_trans _ _ _ A' B)|apply (Qle_lt_trans _ _ _ A B')].
      + assert (N : (q < 0)%Q) by (apply Qnot_le_lt; intros K; apply Qle_bool_iff in K; congruence). destruct (H2 N) as [A B].
        assert (A' := Qle_ceiling q). assert (B' := Qceiling_lt q).
        assert (V : forall a b : Z, (inject_Z (a - 1) < inject_Z b)%Q -> (a <= b)%Z) by (intros a b K; rewrite <- Zlt_Qlt in K; lia).
        apply Z.le_antisymm; apply V; [apply (Qlt_le_trans _ _ _ B' A)|apply (Qlt_le_trans _ _ _ B A')].
  Qed.

  Lemma fix_value_ok h v w : v <> VNone -> fix_value T h v = Ok w <-> retyped h v w.
  Proof.
    intros Nv. unfold fix_value, retyped. destruct (hp_kind h) as [ch ws|sq|c|lo hi lg [| |]|lo hi lg [| |]]; try (split; [discriminate|tauto]).
    - apply from_candidates_ok.
    - apply from_candidates_ok.
    - rewrite from_candidates_ok. unfold matched. split.
      + intros (l1 & l2 & Q & H & _). destruct l1 as [|y l1]; [injection Q as -> _; auto|]. injection Q as _ Q. destruct l1; discriminate.
      + intros [-> H]. exists [], []. auto.
    - unfold to_int. destruct v as [t|z|q|b|]; cbn [num_of].
      + destruct (tx_int T t) as [z|]; split; [intros H; injection H as <-; eauto|intros (z' & -> & H); congruence|discriminate|intros (z' & _ & H); discriminate].
      + split; [intros H; injection H as <-; eexists; split; [reflexivity|]; eexists; split; [reflexivity|]; apply (proj1 (py_int_ok _ _) eq_refl)|].
        intros (z' & -> & q & Q & H). injection Q as <-. f_equal. f_equal. apply py_int_ok. exact H.
      + split; [intros H; injection H as <-; eexists; split; [reflexivity|]; eexists; split; [reflexivity|]; apply (proj1 (py_int_ok _ _) eq_refl)|].
        intros (z' & -> & q' & Q & H). injection Q as <-. f_equal. f_equal. apply py_int_ok. exact H.
      + split; [intros H; injection H as <-; eexists; split; [reflexivity|]; eexists; split; [reflexivity|]; apply (proj1 (py_int_ok _ _) eq_refl)|].
        intros (z' & -> & q' & Q & H). injection Q as <-. f_equal. f_equal. apply py_int_ok. exact H.
      + congruence.
    - unfold to_float. destruct v as [t|z|q|b|]; cbn [num_of].
      + destruct (tx_float T t) as [q|]; split; [intros H; injection H as <-; eauto|intros (q' & -> & H); congruence|discriminate|intros (q' & _ & H); discriminate].
      + split; [intros H; injection H as <-; eauto|intros (q' & -> & H); congruence].
      + split; [intros H; injection H as <-; eauto|intros (q' & -> & H); congruence].
      + split; [intros H; injection H as <-; eauto|intros (q' & -> & H); congruence].
      + congruence.
  Qed.
  Lemma fix_value_err h v e : v <> VNone -> fix_value T h v = Err e -> (e = ValueError /\ supported h) \/ (e = TypeError /\ ~ supported h).
  Proof.
    intros Nv. unfold fix_value, supported, to_int, to_float. destruct (hp_kind h) as [ch ws|sq|c|lo hi lg [| |]|lo hi lg [| |]]; intros H;
      try (apply from_candidates_err in H; left; split; [exact H|exact I]); try (right; split; [congruence|tauto]).
    - left. split; [|exact I]. destruct v as [t|z|q|b|]; cbn in H; try discriminate; [destruct (tx_int T t); congruence|congruence].
    - left. split; [|exact I]. destruct v as [t|z|q|b|]; cbn in H; try discriminate; [destruct (tx_float T t); congruence|congruence].
  Qed.
  (** ** The loop *)

  Lemma assoc_set_entries n w (d : list (string * value)) v : NoDup (map fst d) -> assoc n d = Some v ->
    Forall2 (fun a b => fst a = fst b /\ (fst a <> n -> b = a) /\ (fst a = n -> a = (n, v) /\ b = (n, w))) d (assoc_set n w d).
  Proof.
    induction d as [|[m u] d IH]; simpl; [discriminate|]. intros ND H. inversion ND as [|? ? Hm ND']; subst. destruct (String.eqb_spec n m) as [->|N].
    - injection H as ->. constructor; [simpl; split; [reflexivity|]; split; [congruence|auto]|].
      assert (K : forall a, In a d -> fst a <> m) by (intros a Ha Q; apply Hm; rewrite <- Q; apply in_map; exact Ha). clear -K.
      induction d as [|a d IH]; constructor; [|apply IH; intros x Hx; apply K; simpl; auto]. split; [reflexivity|]. split; [auto|]. intros Q. exfalso. apply (K a); simpl; auto.
    - constructor; [simpl; split; [reflexivity|]; split; [auto|congruence]|]. apply IH; auto.
  Qed.
  Lemma forall2_keys (R : string * value -> string * value -> Prop) d d' : (forall a b, R a b -> fst a = fst b) -> Forall2 R d d' -> map fst d = map fst d'.
  Proof. intros H F. induction F as [|a b d d' Hab F IH]; [reflexivity|]. simpl. rewrite (H a b Hab), IH. reflexivity. Qed.
  Lemma forall2_assoc (R : string * value -> string * value -> Prop) d d' n v : (forall a b, R a b -> fst a = fst b) -> Forall2 R d d' -> assoc n d = Some v ->
    exists w, assoc n d' = Some w /\ R (n, v) (n, w).
  Proof.
    intros H F. induction F as [|[m u] [m' u'] d d' Hab F IH]; [discriminate|]. assert (Q := H _ _ Hab). cbn in Q. subst m'. simpl. destruct (String.eqb_spec n m) as [->|N]; [|exact IH].
    intros K. injection K as ->. eauto.
  Qed.
  Lemma assoc_entry (d : list (string * value)) a : NoDup (map fst d) -> In a d -> assoc (fst a) d = Some (snd a).
  Proof. intros ND Ha. destruct a as [n v]. apply In_assoc; auto. Qed.

  (** an entry after the loop over [hs] *)
  Definition step_entry (hs : list hp) (a b : string * value) : Prop :=
    fst a = fst b /\ (~ In (fst a) (map hp_name hs) -> b = a) /\
    forall h, In h hs -> hp_name h = fst a -> (snd a = VNone /\ snd b = VNone) \/ (snd a <> VNone /\ retyped h (snd a) (snd b)).

  Lemma step_none (hs : list hp) d h : ~ In (hp_name h) (map hp_name hs) -> (assoc (hp_name h) d = None \/ assoc (hp_name h) d = Some VNone) -> NoDup (map fst d) ->
    forall d', Forall2 (step_entry hs) d d' -> Forall2 (step_entry (h :: hs)) d d'.
  Proof.
    intros Nh Hd ND d' F.
    assert (K : forall a, In a d -> fst a = hp_name h -> snd a = VNone).
    { intros a Ha Q. assert (H := assoc_entry d a ND Ha). rewrite Q in H. destruct Hd as [Hd|Hd]; congruence. }
    clear Hd ND. induction F as [|a b d d' Hab F IH]; constructor; [|apply IH; intros x Hx; apply K; simpl; auto].
    destruct Hab as (H1 & H2 & H3). split; [exact H1|]. split; [intros N; apply H2; intros M; apply N; simpl; auto|].
    intros g [<-|Hg] Q; [|auto]. left. assert (S := K a (or_introl eq_refl) (eq_sym Q)). split; [exact S|]. rewrite H2; [exact S|]. rewrite <- Q. exact Nh.
  Qed.

  Lemma fix_loop_ok hs : NoDup (map hp_name hs) -> forall d d', NoDup (map fst d) -> fix_loop T hs d = (d', Ok tt) -> Forall2 (step_entry hs) d d'.
  Proof.
    induction hs as [|h hs IH]; intros NDh d d' ND H; cbn [fix_loop] in H.
    - injection H as <-. clear. induction d as [|a d IH]; constructor; [|exact IH]. split; [reflexivity|]. split; [auto|]. intros h [].
    - cbn [map] in NDh. inversion NDh as [|? ? Nh NDh']; subst. destruct (assoc (hp_name h) d) as [v|] eqn:Ev; [|apply (step_none hs d h Nh (or_introl Ev) ND), IH; auto].
      assert (Dec : v = VNone \/ v <> VNone) by (destruct v; (left; reflexivity) || (right; discriminate)). destruct Dec as [->|Nv]; [apply (step_none hs d h Nh (or_intror Ev) ND), IH; auto|].
      assert (H' : match fix_value T h v with Ok w => fix_loop T hs (assoc_set (hp_name h) w d) | Err e => (d, Err e) end = (d', Ok tt)) by (destruct v; [exact H..|congruence]).
      destruct (fix_value T h v) as [w|e] eqn:Ew; [|discriminate]. assert (Fs := assoc_set_entries (hp_name h) w d v ND Ev).
      assert (Ks : map fst d = map fst (assoc_set (hp_name h) w d)) by (apply (forall2_keys _ _ _ (fun a b R => proj1 R) Fs)).
      assert (F := IH NDh' _ d' ltac:(rewrite <- Ks; exact ND) H'). apply fix_value_ok in Ew; [|exact Nv].
      clear -Fs F Nh Nv Ew. revert d' F. induction Fs as [|a b d d1 Hab Fs IHf]; intros d' F; inversion F as [|? c ? d2 Hbc F2]; subst; constructor; [|auto].
      destruct Hab as (K1 & K2 & K3). destruct Hbc as (M1 & M2 & M3). split; [congruence|].
      assert (Dec : fst a = hp_name h \/ fst a <> hp_name h) by (destruct (string_dec (fst a) (hp_name h)); auto). destruct Dec as [Qa|Na].
      + destruct (K3 Qa) as [-> ->]. cbn [fst snd] in *. split; [intros N; exfalso; apply N; simpl; auto|]. intros g [<-|Hg] Q; [|exfalso; apply Nh; rewrite <- Q; apply in_map; exact Hg].
        right. split; [exact Nv|]. rewrite (M2 Nh). exact Ew.
      + assert (b = a) by auto. subst b. split; [intros N; apply M2; intros M; apply N; simpl; auto|]. intros g [<-|Hg] Q; [congruence|auto].
  Qed.

  (** a dictionary with values some of which were replaced: the ones replaced belong to hyperparameters processed before *)
  Lemma fix_loop_err hs : NoDup (map hp_name hs) -> forall d d' e, NoDup (map fst d) -> fix_loop T hs d = (d', Err e) ->
    exists h v, In h hs /\ assoc (hp_name h) d = Some v /\ v <> VNone /\ fix_value T h v = Err e.
  Proof.
    induction hs as [|h hs IH]; intros NDh d d' e ND H; cbn [fix_loop] in H; [discriminate|].
    cbn [map] in NDh. inversion NDh as [|? ? Nh NDh']; subst.
    assert (Rec : forall d1, NoDup (map fst d1) -> (forall g, In g hs -> assoc (hp_name g) d1 = assoc (hp_name g) d) -> fix_loop T hs d1 = (d', Err e) ->
      exists h0 v, In h0 (h :: hs) /\ assoc (hp_name h0) d = Some v /\ v <> VNone /\ fix_value T h0 v = Err e).
    { intros d1 ND1 S H1. destruct (IH NDh' d1 d' e ND1 H1) as (g & v & Hg & Hv & Nv & He). exists g, v. rewrite S in Hv by exact Hg. simpl. auto. }
    destruct (assoc (hp_name h) d) as [v|] eqn:Ev; [|apply (Rec d); auto].
    assert (Dec : v = VNone \/ v <> VNone) by (destruct v; (left; reflexivity) || (right; discriminate)). destruct Dec as [->|Nv]; [apply (Rec d); auto|].
    assert (H' : match fix_value T h v with Ok w => fix_loop T hs (assoc_set (hp_name h) w d) | Err e => (d, Err e) end = (d', Err e)) by (destruct v; [exact H..|congruence]).
    destruct (fix_value T h v) as [w|e'] eqn:Ew; [|injection H' as _ ->; exists h, v; simpl; auto].
    apply (Rec (assoc_set (hp_name h) w d)); [| |exact H'].
    - rewrite <- (forall2_keys _ _ _ (fun a b R => proj1 R) (assoc_set_entries (hp_name h) w d v ND Ev)). exact ND.
    - intros g Hg. apply assoc_set_other. intros Q. apply Nh. rewrite <- Q. apply in_map. exact Hg.
  Qed.

  Lemma hps_nodup s hs cs fs : space_ok s hs cs fs -> NoDup (map hp_name (Space.hps s)).
  Proof. intros O. apply (Permutation_NoDup (l := map hp_name hs)); [apply Permutation_map; symmetry; apply (so_hps O)|exact (so_names_nodup O)]. Qed.

  (** ** C72 *)

  (** each value of a hyperparameter is replaced by the value it stands for, everything else stays as it is *)
  Theorem C72_typed s hs cs fs d d' : built s hs cs fs -> NoDup (map fst d) -> fix_types T s d = (d', Ok tt) ->
    Forall2 (fun a b => entry_fixed hs a b /\ entry_kept hs a b) d d'.
  Proof.
    intros B ND H. assert (O := built_ok _ _ _ _ B). assert (P := so_hps O). apply (fix_loop_ok _ (hps_nodup s hs cs fs O) d d' ND) in H.
    induction H as [|a b d d' Hab F IH]; constructor; [|apply IH; inversion ND; assumption].
    destruct Hab as (H1 & H2 & H3). split.
    - split; [exact H1|]. intros h Hh. apply H3. apply (Permutation_in _ (Permutation_sym P) Hh).
    - intros N. apply H2. intros M. apply N. apply (Permutation_in _ (Permutation_map hp_name P) M).
  Qed.

  (** it raises only because of a value that stands for no value of its hyperparameter *)
  Theorem C72_raises s hs cs fs d d' e : built s hs cs fs -> NoDup (map fst d) -> fix_types T s d = (d', Err e) ->
    exists h v, In h hs /\ assoc (hp_name h) d = Some v /\ v <> VNone /\ (forall w, ~ retyped h v w) /\
      ((e = ValueError /\ supported h) \/ (e = TypeError /\ ~ supported h)).
  Proof.
    intros B ND H. assert (O := built_ok _ _ _ _ B). apply (fix_loop_err _ (hps_nodup s hs cs fs O) d d' e ND) in H. destruct H as (h & v & Hh & Hv & Nv & He).
    exists h, v. split; [apply (Permutation_in _ (so_hps O) Hh)|]. split; [exact Hv|]. split; [exact Nv|]. split; [|apply (fix_value_err h v e Nv He)].
    intros w K. apply fix_value_ok in K; [congruence|exact Nv].
  Qed.

  Theorem C72_returns s hs cs fs d : built s hs cs fs -> NoDup (map fst d) ->
    (forall h v, In h hs -> assoc (hp_name h) d = Some v -> v <> VNone -> exists w, retyped h v w) -> exists d', fix_types T s d = (d', Ok tt).
  Proof.
    intros B ND H. destruct (fix_types T s d) as [d' [[]|e]] eqn:Ef; [eauto|]. exfalso.
    destruct (C72_raises s hs cs fs d d' e B ND Ef) as (h & v & Hh & Hv & Nv & K & _). destruct (H h v Hh Hv Nv) as (w & Hw). apply (K w Hw).
  Qed.

  Lemma retyped_unique h v w w' : v <> VNone -> retyped h v w -> retyped h v w' -> w = w'.
  Proof. intros Nv H H'. apply fix_value_ok in H; [|exact Nv]. apply fix_value_ok in H'; [|exact Nv]. congruence. Qed.
  Lemma matched_again l v w : matched l v w -> matched l w w.
  Proof. intros (l1 & l2 & H1 & H2 & H3). exists l1, l2. rewrite H2. auto. Qed.
  Lemma retyped_again h v w : retyped h v w -> retyped h w w.
  Proof.
    unfold retyped. destruct (hp_kind h) as [ch ws|sq|c|lo hi lg [| |]|lo hi lg [| |]]; try tauto.
    - apply matched_again.
    - apply matched_again.
    - intros [-> _]. auto.
    - intros (z & -> & _). exists z. split; [reflexivity|]. exists (inject_Z z). split; [reflexivity|]. split; intros _; (split; [apply Qle_refl|]); rewrite <- Zlt_Qlt; lia.
    - intros (q & -> & _). exists q. split; reflexivity.
  Qed.

  (** a second call changes nothing *)
  Theorem C72_again s hs cs fs d d' : built s hs cs fs -> NoDup (map fst d) -> fix_types T s d = (d', Ok tt) -> fix_types T s d' = (d', Ok tt).
  Proof.
    intros B ND H. assert (O := built_ok _ _ _ _ B). assert (F := C72_typed s hs cs fs d d' B ND H).
    assert (Ks : map fst d = map fst d') by (apply (forall2_keys _ d d' (fun a b R => proj1 (proj1 R)) F)). assert (ND' : NoDup (map fst d')) by (rewrite <- Ks; exact ND).
    assert (Ag : forall h w, In h hs -> assoc (hp_name h) d' = Some w -> w <> VNone -> retyped h w w).
    { intros h w Hh Hw Nw. clear -F Hh Hw Nw. induction F as [|[n v] [m u] d d' Hab F IH]; [discriminate|]. cbn [assoc] in Hw. destruct (String.eqb_spec (hp_name h) m) as [<-|N]; [|auto].
      injection Hw as ->. destruct Hab as [[Q K] _]. cbn in Q. destruct (K h Hh (eq_sym Q)) as [[_ K']|[_ K']]; [cbn in K'; congruence|apply (retyped_again _ _ _ K')]. }
    destruct (C72_returns s hs cs fs d' B ND') as (d2 & H2); [intros h w Hh Hw Nw; exists w; apply (Ag h w Hh Hw Nw)|]. rewrite H2. f_equal.
    assert (F2 := C72_typed s hs cs fs d' d2 B ND' H2).
    assert (Ag' : forall a, In a d' -> forall h, In h hs -> hp_name h = fst a -> snd a <> VNone -> retyped h (snd a) (snd a)).
    { intros a Ha h Hh Q Nw. apply (Ag h (snd a) Hh); [rewrite Q; apply (assoc_entry d' a ND' Ha)|exact Nw]. }
    clear -F2 Ag'. induction F2 as [|[n v] [m u] d' d2 Hab F IH]; [reflexivity|]. f_equal; [|apply IH; intros a Ha; apply Ag'; simpl; auto].
    destruct Hab as [[Q K] K2]. cbn in Q. subst m. destruct (in_dec string_dec n (map hp_name hs)) as [Hn|Hn]; [|apply K2; exact Hn].
    apply in_map_iff in Hn. destruct Hn as (h & Hn & Hh). destruct (K h Hh Hn) as [[K3 K4]|[K3 K4]]; cbn in *; [congruence|]. f_equal. apply (retyped_unique h v u v K3 K4).
    apply (Ag' (n, v) (or_introl eq_refl) h Hh Hn K3).
  Qed.

  (** ** C60 *)

  (** [v] is one of the values of [h] itself (not just equal to one, as True is to 1) *)
  Definition own (h : hp) (v : value) : Prop :=
    match hp_kind h with
    | KCat ch _ => In v ch
    | KOrd sq => In v sq
    | KConst c => v = c
    | KInt _ _ _ DUniform => exists z, v = VInt z
    | KFloat _ _ _ DUniform => exists q, v = VFloat q
    | _ => False
    end.
  (** the printed forms of the candidates are different *)
  Definition distinct_texts (h : hp) : Prop :=
    match hp_kind h with KCat l _ | KOrd l => NoDup (map (tx_str T) l) | _ => True end.
  (** int() and float() read back what str() printed *)
  Definition reads_back (h : hp) (v : value) : Prop :=
    match hp_kind h, v with
    | KInt _ _ _ _, VInt z => tx_int T (tx_str T v) = Some z
    | KFloat _ _ _ _, VFloat q => exists q', tx_float T (tx_str T v) = Some q' /\ (q' == q)%Q
    | _, _ => True
    end.
  Definition printed (d : list (string * value)) : list (string * value) := map (fun e => (fst e, VStr (tx_str T (snd e)))) d.
  (** the same value of the same type *)
  Definition same_typed (v w : value) : Prop := match v, w with VFloat a, VFloat b => (a == b)%Q | _, _ => v = w end.

  Lemma printed_keys d : map fst (printed d) = map fst d.
  Proof. unfold printed. rewrite map_map. reflexivity. Qed.
  Lemma matched_own l v : (forall t, tx_str T (VStr t) = t) -> NoDup (map (tx_str T) l) -> In v l -> matched l (VStr (tx_str T v)) v.
  Proof.
    intros Ht ND Hv. apply in_split in Hv. destruct Hv as (l1 & l2 & ->). exists l1, l2. split; [reflexivity|]. rewrite Ht. split; [reflexivity|]. intros x Hx Q.
    rewrite map_app in ND. simpl in ND. apply NoDup_remove_2 in ND. apply ND. rewrite <- Q. rewrite <- map_app. apply in_map. exact Hx.
  Qed.
  Lemma own_retyped h v : (forall t, tx_str T (VStr t) = t) -> own h v -> distinct_texts h -> reads_back h v -> exists w, retyped h (VStr (tx_str T v)) w /\ same_typed v w.
  Proof.
    intros Ht Ho Hd Hr. unfold own, distinct_texts, reads_back, retyped in *. destruct (hp_kind h) as [ch ws|sq|c|lo hi lg [| |]|lo hi lg [| |]]; try contradiction.
    - exists v. split; [apply matched_own; auto|]. destruct v; reflexivity.
    - exists v. split; [apply matched_own; auto|]. destruct v; reflexivity.
    - subst c. exists v. split; [split; [reflexivity|]; rewrite Ht; reflexivity|]. destruct v; reflexivity.
    - destruct Ho as (z & ->). exists (VInt z). split; [|reflexivity]. exists z. auto.
    - destruct Ho as (q & ->). destruct Hr as (q' & Hq & Q). exists (VFloat q'). split; [exists q'; auto|]. symmetry. exact Q.
  Qed.

  (** printed values are restored *)
  Theorem C60_restores_partial s hs cs fs d : built s hs cs fs -> NoDup (map fst d) -> (forall t, tx_str T (VStr t) = t) ->
    (forall h v, In h hs -> assoc (hp_name h) d = Some v -> own h v /\ distinct_texts h /\ reads_back h v) ->
    exists d', fix_types T s (printed d) = (d', Ok tt) /\
      Forall2 (fun a b => fst a = fst b /\ (In (fst a) (map hp_name hs) -> same_typed (snd a) (snd b)) /\ (~ In (fst a) (map hp_name hs) -> snd b = VStr (tx_str T (snd a)))) d d'.
  Proof.
    intros B ND Ht H. assert (NDp : NoDup (map fst (printed d))) by (rewrite printed_keys; exact ND).
    assert (Lk : forall n, assoc n (printed d) = option_map (fun v => VStr (tx_str T v)) (assoc n d)).
    { intros n. unfold printed. clear. induction d as [|[m v] d IH]; [reflexivity|]. cbn. destruct (String.eqb n m); [reflexivity|exact IH]. }
    destruct (C72_returns s hs cs fs (printed d) B NDp) as (d' & Hd').
    { intros h v Hh Hv Nv. rewrite Lk in Hv. destruct (assoc (hp_name h) d) as [u|] eqn:Eu; [|discriminate]. injection Hv as <-. destruct (H h u Hh Eu) as (Ho & Hdt & Hr).
      destruct (own_retyped h u Ht Ho Hdt Hr) as (w & Hw & _). eauto. }
    exists d'. split; [exact Hd'|]. assert (F := C72_typed s hs cs fs (printed d) d' B NDp Hd').
    assert (H' : forall a, In a d -> forall h, In h hs -> hp_name h = fst a -> own h (snd a) /\ distinct_texts h /\ reads_back h (snd a)).
    { intros a Ha h Hh Q. apply (H h (snd a) Hh). rewrite Q. apply assoc_entry; auto. }
    clear -F H' Ht. revert d' F. induction d as [|[n v] d IH]; intros d' F; inversion F as [|? [m u] ? d2 Hab F2]; subst; constructor; [|apply IH; [intros a Ha; apply H'; simpl; auto|exact F2]].
    destruct Hab as [[Q K] K2]. cbn [fst snd] in *. subst m. split; [reflexivity|]. split.
    - intros Hn. apply in_map_iff in Hn. destruct Hn as (h & Hn & Hh). destruct (K h Hh Hn) as [[K3 _]|[K3 K4]]; [discriminate|].
      destruct (H' (n, v) (or_introl eq_refl) h Hh Hn) as (Ho & Hdt & Hr). destruct (own_retyped h v Ht Ho Hdt Hr) as (w & Hw & Sw).
      rewrite (retyped_unique h _ u w K3 K4 Hw). exact Sw.
    - intros Hn. specialize (K2 Hn). injection K2 as ->. reflexivity.
  Qed.

  (** the values of configurations made from vectors are the values of the hyperparameters themselves *)
  Lemma np_index_In l i v : np_index l i = Ok v -> In v l.
  Proof.
    unfold np_index. destruct (_ && _)%bool; [|discriminate]. destruct (nth_error l _) as [u|] eqn:En; [|discriminate]. intros H. injection H as <-. apply nth_error_In in En. exact En.
  Qed.
  Lemma to_value_own h x v : supported h -> to_value h x = Ok v -> own h (round_value h v).
  Proof.
    unfold supported, to_value, own, round_value. destruct (hp_kind h) as [ch ws|sq|c|lo hi lg [| |]|lo hi lg [| |]]; try tauto; intros _ H.
    - destruct x; try discriminate. destruct (is_close_to_integer q); [|discriminate]. apply np_index_In in H. destruct (num_of v); exact H.
    - destruct x; try discriminate. destruct (is_close_to_integer q); [|discriminate]. apply np_index_In in H. destruct (num_of v); exact H.
    - injection H as <-. destruct (num_of c); reflexivity.
    - destruct x; try discriminate. injection H as <-. eexists. reflexivity.
    - destruct x; try discriminate; injection H as <-; eexists; reflexivity.
  Qed.
  Theorem C60_vector s hs cs fs v allow c d : built s hs cs fs -> config_of_vector s v allow = Ok c -> dict_of s c = Ok d -> (forall t, tx_str T (VStr t) = t) ->
    (forall h, In h hs -> supported h /\ distinct_texts h) -> (forall h w, In h hs -> assoc (hp_name h) d = Some w -> reads_back h w) ->
    exists d', fix_types T s (printed d) = (d', Ok tt) /\ Forall2 (fun a b => fst a = fst b /\ same_typed (snd a) (snd b)) d d'.
  Proof.
    intros B Hc Hd Ht Hs Hr. assert (O := built_ok _ _ _ _ B).
    assert (Hv : c_values c = None) by (unfold config_of_vector in Hc; destruct (Nat.eqb (length v) (s_len s)); [|discriminate]; injection Hc as <-; reflexivity).
    assert (Ks : map fst d = iter s c).
    { unfold dict_of in Hd. apply mapM_ok in Hd. clear -Hd. induction Hd as [|k [n w] ks d Hk F IH]; [reflexivity|]. simpl. rewrite IH. destruct (getitem s c k); [|discriminate]. cbn in Hk. congruence. }
    assert (Gs : forall k w, In (k, w) d -> getitem s c k = Ok w).
    { unfold dict_of in Hd. apply mapM_ok in Hd. clear -Hd. induction Hd as [|k [n w] ks d Hk F IH]; intros m u Hin; [destruct Hin|]. destruct Hin as [Q|Hin]; [|auto]. injection Q as -> ->.
      destruct (getitem s c k) as [x|] eqn:Eg; [|discriminate]. cbn in Hk. congruence. }
    assert (ND : NoDup (map fst d)) by (rewrite Ks; apply (iter_nodup O)).
    destruct (C60_restores_partial s hs cs fs d B ND Ht) as (d' & Hf & F).
    { intros h w Hh Hw. split; [|split; [apply (proj2 (Hs h Hh))|apply (Hr h w Hh Hw)]]. apply assoc_In in Hw. apply Gs in Hw. unfold getitem in Hw. rewrite Hv in Hw.
      rewrite (proj2 (so_get_hp O (hp_name h) h) (conj Hh eq_refl)) in Hw. destruct (assoc (hp_name h) (index_of s)) as [i|]; [|discriminate].
      destruct (nth i (c_vector c) NaN) eqn:En; try discriminate; (match type of Hw with context [to_value h ?x] => destruct (to_value h x) as [u|] eqn:Eu end; [|discriminate]; cbn in Hw; injection Hw as <-; apply (to_value_own h _ u (proj1 (Hs h Hh)) Eu)). }
    exists d'. split; [exact Hf|]. assert (In' : forall a, In a d -> In (fst a) (map hp_name hs)).
    { intros a Ha. assert (K : In (fst a) (iter s c)) by (rewrite <- Ks; apply in_map; exact Ha). apply (iter_in O) in K. destruct K as (h & Hh & <- & _). apply in_map. exact Hh. }
    clear -F In'. induction F as [|a b d d' Hab F IH]; constructor; [|apply IH; intros x Hx; apply In'; simpl; auto]. destruct Hab as (K1 & K2 & _). split; [exact K1|]. apply K2, In'. simpl. auto.
  Qed.
End Fix.

Section Witness.
  #[local] Existing Instance rat_env.

  (** decimal numbers for integers, True and False; floats are printed as "x", which is enough below *)
  Definition w_text : text := {|
    tx_str := fun v => match v with
      | VStr t => t
      | VInt z => NilZero.string_of_int (Z.to_int z)
      | VBool b => if b then "True" else "False"
      | VFloat _ => "x"
      | VNone => "None"
      end%string;
    tx_int := fun t => option_map Z.of_int (NilZero.int_of_string t);
    tx_float := fun t => if String.eqb t "x" then Some (1#2) else option_map (fun i => inject_Z (Z.of_int i)) (NilZero.int_of_string t)
  |}.

  Definition fC := get_or dummy_hp (mk_categorical "c" [VInt 0; VInt 1; VStr "a"] None None None).
  Definition fO := get_or dummy_hp (mk_ordinal "o" [VInt 10; VInt 20] None None).
  Definition fI := get_or dummy_hp (mk_uniform_int "i" (-50) 50 (Some 0%Q) false None).
  Definition fX := get_or dummy_hp (mk_uniform_float "x" 0 1 None false None).
  Definition f_hps := [fC; fO; fI; fX].
  Definition f_space := fst (add empty_space f_hps [] []).
  Lemma f_built : built f_space f_hps [] [].
  Proof.
    apply (built_step empty_space [] [] [] f_hps [] [] built_empty); [|constructor|constructor|vm_compute; reflexivity].
    constructor; [apply (CtorCat "c" [VInt 0; VInt 1; VStr "a"] None None None fC); vm_compute; reflexivity|].
    constructor; [apply (CtorOrd "o" [VInt 10; VInt 20] None None fO); vm_compute; reflexivity|].
    constructor; [apply (CtorUInt "i" (-50) 50 (Some 0%Q) false None fI); vm_compute; reflexivity|].
    constructor; [apply (CtorUFloat "x" 0 1 None false None fX); vm_compute; reflexivity|constructor].
  Qed.
  Lemma f_supported : forall h, In h f_hps -> supported h /\ distinct_texts w_text h.
  Proof.
    intros h [<-|[<-|[<-|[<-|[]]]]]; (split; [vm_compute; exact I|]); vm_compute; try exact I;
      repeat (constructor; [intros K; repeat (destruct K as [K|K]; [discriminate K|]); destruct K|]); constructor.
  Qed.
  Definition f_dict : list (string * value) := [("i", VInt (-7)); ("c", VInt 1); ("k", VInt 3); ("o", VInt 20); ("x", VFloat (1#2))]%string.
  Lemma f_nodup : NoDup (map fst f_dict).
  Proof. repeat (constructor; [intros K; repeat (destruct K as [K|K]; [discriminate K|]); destruct K|]). constructor. Qed.
  Lemma f_own : forall h v, In h f_hps -> assoc (hp_name h) f_dict = Some v -> own h v /\ distinct_texts w_text h /\ reads_back w_text h v.
  Proof.
    intros h v Hh Hv. split; [|split; [apply f_supported; exact Hh|]]; destruct Hh as [<-|[<-|[<-|[<-|[]]]]]; vm_compute in Hv; injection Hv as <-.
    - vm_compute. tauto.
    - vm_compute. tauto.
    - vm_compute. eexists. reflexivity.
    - vm_compute. eexists. reflexivity.
    - exact I.
    - exact I.
    - vm_compute. reflexivity.
    - vm_compute. exists (1#2). split; reflexivity.
  Qed.
  Example C60_case : built f_space f_hps [] [] /\ (forall t, tx_str w_text (VStr t) = t) /\ NoDup (map fst f_dict) /\
    (forall h v, In h f_hps -> assoc (hp_name h) f_dict = Some v -> own h v /\ distinct_texts w_text h /\ reads_back w_text h v) /\
    fix_types w_text f_space (printed w_text f_dict) = (map (fun e => if String.eqb (fst e) "k" then ("k", VStr "3") else e) f_dict, Ok tt)%string.
  Proof. split; [exact f_built|]. split; [reflexivity|]. split; [exact f_nodup|]. split; [exact f_own|]. vm_compute. reflexivity. Qed.

  (** a configuration made from a vector: 1, 20, 0, 0.5 *)
  Definition f_vec : list fval := map (fun n => match n with 0 => Fin 1 | 1 => Fin (1#2) | 2 => Fin 1 | _ => Fin (1#2) end) [0; 1; 2; 3].
  Example C60_vector_case : exists c d, config_of_vector f_space f_vec false = Ok c /\ check_configuration f_space f_vec false = Ok tt /\ dict_of f_space c = Ok d /\ length d = 4 /\
    (forall h w, In h f_hps -> assoc (hp_name h) d = Some w -> reads_back w_text h w) /\ (forall h, In h f_hps -> supported h /\ distinct_texts w_text h).
  Proof.
    exists (mk_config f_vec None false). eexists. split; [reflexivity|]. split; [vm_compute; reflexivity|]. split; [vm_compute; reflexivity|]. split; [reflexivity|].
    split; [|exact f_supported]. intros h w [<-|[<-|[<-|[<-|[]]]]] Hw; vm_compute in Hw; injection Hw as <-; vm_compute; try exact I; [reflexivity|].
    eexists. split; reflexivity.
  Qed.

  (** ** C60 is false: True is legal for the choice 1, but is printed differently *)
  Theorem C60_refuted : exists T s hs cs fs d c, built s hs cs fs /\ NoDup (map fst d) /\ (forall t, tx_str T (VStr t) = t) /\
    (forall h, In h hs -> supported h /\ distinct_texts T h) /\ (forall h v, In h hs -> assoc (hp_name h) d = Some v -> reads_back T h v) /\
    config_of_values s (map (fun e => (fst e, Some (snd e))) d) false = Ok c /\ snd (fix_types T s (printed T d)) = Err ValueError.
  Proof.
    exists w_text, f_space, f_hps, [], [], [("c", VBool true); ("o", VInt 10); ("i", VInt 0); ("x", VFloat (1#2))]%string. eexists.
    split; [exact f_built|]. split; [repeat (constructor; [intros K; repeat (destruct K as [K|K]; [discriminate K|]); destruct K|]); constructor|].
    split; [reflexivity|]. split; [exact f_supported|]. split.
    - intros h v [<-|[<-|[<-|[<-|[]]]]] Hw; vm_compute in Hw; injection Hw as <-; vm_compute; try exact I; [reflexivity|]. eexists. split; reflexivity.
    - split; vm_compute; reflexivity.
  Qed.

  (** ** C72: a value that is no choice; the values before it have been replaced *)
  Example C72_case : fix_types w_text f_space [("c", VStr "1"); ("o", VStr "30"); ("i", VFloat (5#2))]%string =
    ([("c", VInt 1); ("o", VStr "30"); ("i", VInt 2)]%string, Err ValueError) /\
    fix_types w_text f_space [("c", VStr "1"); ("o", VNone); ("i", VFloat (-5#2)); ("x", VInt 1)]%string =
    ([("c", VInt 1); ("o", VNone); ("i", VInt (-2)); ("x", VFloat 1)]%string, Ok tt).
  Proof. split; vm_compute; reflexivity. Qed.

  (** so a call that raises may change the dictionary *)
  Theorem C72_atomic_refuted : exists T s hs cs fs d d' e, built s hs cs fs /\ NoDup (map fst d) /\ fix_types T s d = (d', Err e) /\ d' <> d.
  Proof.
    exists w_text, f_space, f_hps, [], [], [("c", VStr "1"); ("o", VStr "30"); ("i", VFloat (5#2))]%string. eexists. eexists. split; [exact f_built|].
    split; [repeat (constructor; [intros K; repeat (destruct K as [K|K]; [discriminate K|]); destruct K|]); constructor|]. split; [vm_compute; reflexivity|]. discriminate.
  Qed.
End Witness.
