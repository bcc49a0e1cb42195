(** * Properties C29, C30: generate_grid *)
From Coq Require Import String List ZArith QArith Bool Lia Permutation Relations.
From Verif Require Import Base ListFacts Numeric NumericProofs HP HPProofs Properties_HP Cond Forb EqFacts Dag DagProofs Space CommitProofs Spec
  SpaceProofs CnodeProofs ForbProofs EvalProofs ForbEval MergeProofs ValidProofs ConfigProofs ChangeProofs Ex Properties_Eval Properties_Config Properties_Graph
  Properties_Change Dist DistProofs Properties_Dist Util LookupProofs ExchangeProofs Properties_Exchange Random Properties_Raise Properties_Random
  Repair Properties_Repair Grid.
Import ListNotations.
Open Scope nat_scope.

Section Grid.
  Context {E : Env} {L : EnvLaws E}.

  (** ** Specification *)

  (** point [i] of [num] evenly spaced points from [a] to [b]; a single point is [a] *)
  Definition spaced (a b : Q) (num i : Z) : Q := (a + inject_Z i / inject_Z (num - 1) * (b - a))%Q.
  (** ... between the bounds of a hyperparameter, on the logarithmic scale if it has one *)
  Definition grid_number (lo hi : Q) (log : bool) (num i : Z) : Q :=
    if log then fexp (spaced (flog lo) (flog hi) num i) else spaced lo hi num i.

  (** the values of the grid with [steps] *)
  Definition grid_value (steps : list (string * Z)) (h : hp) (u : value) : Prop :=
    match hp_kind h with
    | KCat ch _ => In u ch
    | KOrd sq => In u sq
    | KConst v => u = v
    | KFloat lo hi log _ => exists num i q, assoc (hp_name h) steps = Some num /\ (0 <= i < num)%Z /\ u = VFloat q /\ (q == grid_number lo hi log num i)%Q
    | KInt lo hi log _ => exists num i, assoc (hp_name h) steps = Some num /\ (0 <= i < num)%Z /\
        u = VInt (rint (grid_number (inject_Z lo) (inject_Z hi) log num i))
    end.

  (** an assignment with values of the grid, as stored *)
  Definition on_grid (steps : list (string * Z)) (hs : list hp) (d : assignment) : Prop :=
    forall h u, In h hs -> d (hp_name h) = Some u -> exists g, grid_value steps h g /\ py_eqb u (round_value h g) = true.

  (** ** The values of one hyperparameter *)

  Lemma clamp_id {A} (low high : A -> bool) lo hi l : l <> [] -> (forall x, In x l -> low x = false /\ high x = false) -> clamp_ends low high lo hi l = Ok l.
  Proof.
    intros Hn H. destruct l as [|x l]; [congruence|]. unfold clamp_ends. rewrite (proj1 (H x (or_introl eq_refl))).
    assert (S := split_last_spec (x :: l)). destruct (split_last (x :: l)) as [[front y]|]; [|congruence].
    assert (Hy : In y (x :: l)) by (rewrite S; apply in_app_iff; simpl; auto). rewrite (proj2 (H y Hy)), S. reflexivity.
  Qed.

  Lemma frac_range num i : (0 <= i < num)%Z -> (0 <= inject_Z i / inject_Z (num - 1))%Q /\ (inject_Z i / inject_Z (num - 1) <= 1)%Q.
  Proof.
    intros H. destruct (Z.eq_dec num 1) as [->|Hn].
    - assert (i = 0%Z) by lia. subst i. vm_compute. split; discriminate.
    - assert (P : (0 < inject_Z (num - 1))%Q) by (change 0%Q with (inject_Z 0); rewrite <- Zlt_Qlt; lia).
      split; [apply Qle_shift_div_l|apply Qle_shift_div_r]; try exact P.
      + rewrite Qmult_0_l. change 0%Q with (inject_Z 0). rewrite <- Zle_Qle. lia.
      + rewrite Qmult_1_l, <- Zle_Qle. lia.
  Qed.

  Lemma grid_number_raw lo hi log num i : (grid_number lo hi log num i == unit_raw lo hi log (inject_Z i / inject_Z (num - 1)))%Q.
  Proof.
    unfold grid_number, unit_raw, spaced, scale. destruct log; [apply fexp_comp|]; ring.
  Qed.
  Lemma grid_number_range lo hi log num i : bounds_ok lo hi log -> (0 <= i < num)%Z ->
    (lo <= grid_number lo hi log num i)%Q /\ (grid_number lo hi log num i <= hi)%Q.
  Proof. intros B H. rewrite grid_number_raw. destruct (frac_range num i H). apply unit_raw_range; assumption. Qed.

  Lemma grid_points_in lo hi log num q : In q (grid_points lo hi log num) -> exists i, (0 <= i < num)%Z /\ (q == grid_number lo hi log num i)%Q.
  Proof.
    assert (G : forall a b x, In x (linspace a b num true) -> exists i, (0 <= i < num)%Z /\ (x == spaced a b num i)%Q).
    { intros a b x. unfold linspace. rewrite in_map_iff. intros (k & <- & Hk). apply in_seq in Hk. exists (Z.of_nat k).
      split; [lia|]. unfold spaced, Qdiv. ring. }
    unfold grid_points, grid_number. destruct log.
    - rewrite in_map_iff. intros (x & <- & Hx). destruct (G _ _ _ Hx) as (i & Hi & Q). exists i. split; [exact Hi|apply fexp_comp; exact Q].
    - apply G.
  Qed.
  Lemma grid_points_all lo hi log num i : (0 <= i < num)%Z -> exists q, In q (grid_points lo hi log num) /\ (q == grid_number lo hi log num i)%Q.
  Proof.
    intros H. assert (G : forall a b, exists x, In x (linspace a b num true) /\ (x == spaced a b num i)%Q).
    { intros a b. exists (a + inject_Z (Z.of_nat (Z.to_nat i)) * ((b - a) / inject_Z (num - 1)))%Q. split.
      - unfold linspace. apply in_map_iff. exists (Z.to_nat i). split; [reflexivity|]. apply in_seq. lia.
      - rewrite Z2Nat.id by lia. unfold spaced, Qdiv. ring. }
    unfold grid_points, grid_number. destruct log; [|apply G].
    destruct (G (flog lo) (flog hi)) as (x & Hx & Q). exists (fexp x). split; [apply in_map; exact Hx|apply fexp_comp; exact Q].
  Qed.
  Lemma grid_points_nonempty lo hi log num : (0 < num)%Z -> grid_points lo hi log num <> [].
  Proof. intros H K. destruct (grid_points_all lo hi log num 0 ltac:(lia)) as (q & Hq & _). rewrite K in Hq. exact Hq. Qed.

  (** kinds generate_grid knows *)
  Definition gridable (h : hp) : Prop :=
    match hp_kind h with KInt _ _ _ DUniform | KFloat _ _ _ DUniform | KCat _ _ | KOrd _ | KConst _ => True | _ => False end.
  (** ... and has a number of steps for *)
  Definition stepped (steps : list (string * Z)) (h : hp) : Prop :=
    match hp_kind h with
    | KInt _ _ _ _ | KFloat _ _ _ _ => exists num, assoc (hp_name h) steps = Some num /\ (0 < num)%Z
    | _ => True
    end.

  Lemma Qltb_no x y : (y <= x)%Q -> Qltb x y = false.
  Proof. intros H. destruct (Qltb x y) eqn:K; [|reflexivity]. apply Qltb_lt in K. exfalso. apply (Qlt_irrefl x). apply (Qlt_le_trans _ y); assumption. Qed.

  Lemma value_set_ok s steps n h : get_hp s n = Some h -> constructed h ->
    (forall l, value_set s steps n = Ok l -> gridable h /\ stepped steps h /\ (forall u, In u l -> grid_value steps h u) /\
       (forall u, grid_value steps h u -> exists u', In u' l /\ py_eqb u u' = true)) /\
    (gridable h -> stepped steps h -> exists l, value_set s steps n = Ok l).
  Proof.
    intros Hg C. assert (W := constructed_wf h C). unfold value_set, gridable, stepped, grid_value, wf_hp in *. rewrite Hg.
    destruct (hp_kind h) as [ch w|sq|v|lo hi log ds|lo hi log ds].
    - split; [|eauto]. intros l [= <-]. repeat (split; [exact I || auto|]). intros u Hu. exists u. split; [exact Hu|apply py_eqb_refl].
    - split; [|eauto]. intros l [= <-]. repeat (split; [exact I || auto|]). intros u Hu. exists u. split; [exact Hu|apply py_eqb_refl].
    - split; [|eauto]. intros l [= <-]. split; [exact I|]. split; [exact I|]. split; [intros u [<-|[]]; reflexivity|]. intros u ->. exists v. split; [simpl; auto|apply py_eqb_refl].
    - destruct W as (W1 & W2 & _).
      assert (B : bounds_ok (inject_Z lo) (inject_Z hi) log) by (split; [rewrite <- Zlt_Qlt; exact W1|intros K; change 0%Q with (inject_Z 0); rewrite <- Zlt_Qlt; auto]).
      destruct ds as [|m s0|a b]; [|split; [discriminate|tauto]..].
      destruct (assoc (hp_name h) steps) as [num|]; [|split; [discriminate|intros _ (? & K & _); discriminate]].
      assert (In_ok : forall x, In x (map rint (grid_points (inject_Z lo) (inject_Z hi) log num)) ->
        (exists i, (0 <= i < num)%Z /\ x = rint (grid_number (inject_Z lo) (inject_Z hi) log num i)) /\ Z.ltb x lo = false /\ Z.ltb hi x = false).
      { intros x Hx. apply in_map_iff in Hx. destruct Hx as (q & <- & Hq). apply grid_points_in in Hq. destruct Hq as (i & Hi & Q).
        destruct (grid_number_range _ _ log num i B Hi) as [R1 R2]. rewrite <- Q in R1, R2. assert (R := rint_bounds lo hi q R1 R2).
        split; [exists i; split; [exact Hi|apply rint_proper; exact Q]|]. split; apply Z.ltb_ge; lia. }
      assert (Run : (0 < num)%Z -> clamp_ends (fun x => Z.ltb x lo) (fun x => Z.ltb hi x) lo hi (map rint (grid_points (inject_Z lo) (inject_Z hi) log num)) =
        Ok (map rint (grid_points (inject_Z lo) (inject_Z hi) log num))).
      { intros P. apply clamp_id; [|intros x Hx; apply (In_ok x Hx)]. intros K. apply map_eq_nil in K. apply (grid_points_nonempty _ _ _ _ P K). }
      split.
      + intros l H. destruct (0 <=? num)%Z eqn:En; cbn [bind] in H; [|discriminate]. apply Z.leb_le in En.
        assert (P : (0 < num)%Z).
        { destruct (Z.eq_dec num 0) as [->|]; [|lia]. exfalso. unfold grid_points in H. destruct log; simpl in H; discriminate. }
        rewrite (Run P) in H. cbn [bind] in H. injection H as <-. split; [exact I|]. split; [eauto|]. split.
        * intros u Hu. apply in_map_iff in Hu. destruct Hu as (x & <- & Hx). destruct (In_ok x Hx) as ((i & Hi & ->) & _). exists num, i. auto.
        * intros u (num' & i & [= <-] & Hi & ->). destruct (grid_points_all (inject_Z lo) (inject_Z hi) log num i Hi) as (q & Hq & Q).
          exists (VInt (rint q)). split; [apply in_map, in_map; exact Hq|]. rewrite (rint_proper _ _ Q). apply py_eqb_refl.
      + intros _ (num' & [= <-] & P). assert (En : (0 <=? num)%Z = true) by (apply Z.leb_le; lia). rewrite En. cbn [bind]. rewrite (Run P). cbn [bind]. eauto.
    - destruct W as (B & _). destruct ds as [|m s0|a b]; [|split; [discriminate|tauto]..].
      destruct (assoc (hp_name h) steps) as [num|]; [|split; [discriminate|intros _ (? & K & _); discriminate]].
      assert (In_ok : forall x, In x (grid_points lo hi log num) ->
        (exists i, (0 <= i < num)%Z /\ (x == grid_number lo hi log num i)%Q) /\ Qltb x lo = false /\ Qltb hi x = false).
      { intros q Hq. apply grid_points_in in Hq. destruct Hq as (i & Hi & Q).
        destruct (grid_number_range _ _ log num i B Hi) as [R1 R2]. rewrite <- Q in R1, R2. split; [eauto|]. split; apply Qltb_no; assumption. }
      assert (Run : (0 < num)%Z -> clamp_ends (fun x => Qltb x lo) (fun x => Qltb hi x) lo hi (grid_points lo hi log num) = Ok (grid_points lo hi log num)).
      { intros P. apply clamp_id; [apply (grid_points_nonempty _ _ _ _ P)|]. intros x Hx. apply (In_ok x Hx). }
      split.
      + intros l H. destruct (0 <=? num)%Z eqn:En; cbn [bind] in H; [|discriminate]. apply Z.leb_le in En.
        assert (P : (0 < num)%Z).
        { destruct (Z.eq_dec num 0) as [->|]; [|lia]. exfalso. unfold grid_points in H. destruct log; simpl in H; discriminate. }
        rewrite (Run P) in H. cbn [bind] in H. injection H as <-. split; [exact I|]. split; [eauto|]. split.
        * intros u Hu. apply in_map_iff in Hu. destruct Hu as (x & <- & Hx). destruct (In_ok x Hx) as ((i & Hi & Q) & _). exists num, i, x. auto.
        * intros u (num' & i & q & [= <-] & Hi & -> & Q). destruct (grid_points_all lo hi log num i Hi) as (q' & Hq' & Q').
          exists (VFloat q'). split; [apply in_map; exact Hq'|]. apply Qeq_bool_iff. rewrite Q, Q'. reflexivity.
      + intros _ (num' & [= <-] & P). assert (En : (0 <=? num)%Z = true) by (apply Z.leb_le; lia). rewrite En. cbn [bind]. rewrite (Run P). cbn [bind]. eauto.
  Qed.

  Lemma grid_legal steps h u : constructed h -> grid_value steps h u -> legal_value h u = true /\ exact_value h u.
  Proof.
    intros C G. assert (W := constructed_wf h C). unfold grid_value, legal_value, exact_value, wf_hp in *.
    destruct (hp_kind h) as [ch w|sq|v|lo hi log ds|lo hi log ds].
    - split; [|exact I]. apply py_in_iff. exists u. split; [exact G|apply py_eqb_refl].
    - split; [|exact I]. apply py_in_iff. exists u. split; [exact G|apply py_eqb_refl].
    - subst u. split; [apply py_eqb_refl|exact I].
    - destruct W as (W1 & W2 & _). destruct G as (num & i & _ & Hi & ->).
      assert (B : bounds_ok (inject_Z lo) (inject_Z hi) log) by (split; [rewrite <- Zlt_Qlt; exact W1|intros K; change 0%Q with (inject_Z 0); rewrite <- Zlt_Qlt; auto]).
      destruct (grid_number_range _ _ log num i B Hi) as [R1 R2]. assert (R := rint_bounds lo hi _ R1 R2).
      cbn [num_of]. split; [|eexists _, _; split; [reflexivity|apply Qeq_refl]]. rewrite (legal_int_Z lo hi _ _ (Qeq_refl _)). apply andb_true_iff.
      split; apply Z.leb_le; lia.
    - destruct W as (B & _). destruct G as (num & i & q & _ & Hi & -> & Q).
      destruct (grid_number_range _ _ log num i B Hi) as [R1 R2]. rewrite <- Q in R1, R2. cbn [num_of]. split; [|exact I].
      apply andb_true_iff. split; apply Qle_bool_iff; assumption.
  Qed.

  (** ** Products *)
  Lemma product_in {A} (sets : list (list A)) : forall l, In l (product sets) <-> Forall2 (@In A) l sets.
  Proof.
    induction sets as [|s sets IH]; intros l; simpl.
    - split; [intros [<-|[]]; constructor|]. intros H. inversion H. auto.
    - rewrite in_concat. split.
      + intros (x & Hx & Hl). apply in_map_iff in Hx. destruct Hx as (v & <- & Hv). apply in_map_iff in Hl. destruct Hl as (l' & <- & Hl').
        constructor; [exact Hv|apply IH; exact Hl'].
      + intros H. inversion H as [|v ? l' ? Hv Hl']; subst. exists (map (cons v) (product sets)).
        split; [apply in_map_iff; exists v; auto|apply in_map, IH; exact Hl'].
  Qed.

  Lemma combine_app {A B} (a a' : list A) (b b' : list B) : length a = length b -> combine (a ++ a') (b ++ b') = combine a b ++ combine a' b'.
  Proof. revert b. induction a as [|x a IH]; intros [|y b]; simpl; try discriminate; [reflexivity|]. intros [= H]. rewrite IH by exact H. reflexivity. Qed.
  Lemma combine_split {A B} (l : list (A * B)) : combine (map fst l) (map snd l) = l.
  Proof. induction l as [|[x y] l IH]; simpl; [|rewrite IH]; reflexivity. Qed.
  Lemma combine_fst {A B} (a : list A) : forall (b : list B), length a = length b -> map fst (combine a b) = a.
  Proof. induction a as [|x a IH]; intros [|y b]; simpl; try discriminate; [reflexivity|]. intros [= H]. rewrite IH by exact H. reflexivity. Qed.
  Lemma combine_snd {A B} (a : list A) : forall (b : list B), length a = length b -> map snd (combine a b) = b.
  Proof. induction a as [|x a IH]; intros [|y b]; simpl; try discriminate; [reflexivity|]. intros [= H]. rewrite IH by exact H. reflexivity. Qed.

  Lemma cartesian_in sets names q : length names = length sets -> sets <> [] ->
    (In q (cartesian sets names) <-> exists vs, Forall2 (@In value) vs sets /\ q = combine names vs).
  Proof.
    intros Hl Hn. unfold cartesian. destruct sets as [|s sets]; [congruence|]. rewrite in_map_iff. split.
    - intros (vs & <- & Hv). apply product_in in Hv. eauto.
    - intros (vs & Hv & ->). exists vs. split; [reflexivity|apply product_in; exact Hv].
  Qed.

  Lemma fixed_sets (p : point) vs sets : Forall2 (@In value) vs (map (fun e => [snd e]) p ++ sets) <->
    exists ws, vs = map snd p ++ ws /\ Forall2 (@In value) ws sets.
  Proof.
    revert vs. induction p as [|[n v] p IH]; intros vs; simpl.
    - split; [eauto|]. intros (ws & -> & H). exact H.
    - split.
      + intros H. inversion H as [|w ? l ? Hw Hl]; subst. destruct Hw as [<-|[]]. apply IH in Hl. destruct Hl as (ws & -> & Hws). eauto.
      + intros (ws & -> & H). constructor; [simpl; auto|]. apply IH. eauto.
  Qed.

  (** ** Conditions on values that are not all there *)
  Lemma sat_value_sound vals c : cond_good c ->
    (forall l w, In l (dlcs c) -> given vals (parent_name l) = Some w -> legal_value (l_parent l) w = true) ->
    forall b, sat_value vals c = Ok b -> (b = true <-> holds (given vals) c).
  Proof.
    induction c as [l|cs IH|cs IH] using cond_ind'; intros G H b Hb.
    - assert (A : exists o, assoc (parent_name l) vals = Some o).
      { cbn [sat_value] in Hb. unfold lit_value in Hb. destruct (assoc (parent_name l) vals); [eauto|discriminate]. }
      destruct A as (o & Ho).
      destruct (sat_value_holds vals (CLit l) G) as (b' & Hb' & Q).
      + intros l' [<-|[]]. exists o. split; [exact Ho|]. intros w ->. apply (H l w); [simpl; auto|]. unfold given. rewrite Ho. reflexivity.
      + assert (b' = b) by congruence. subst b'. exact Q.
    - inversion G as [|? Gx Lx|]; subst. cbn [sat_value] in Hb. cbn [holds]. rewrite fold_and_in. rewrite Forall_forall in IH.
      assert (K : forall x, In x cs -> forall b, sat_value vals x = Ok b -> (b = true <-> holds (given vals) x)).
      { intros x Hx. apply (IH x Hx (Gx x Hx)). intros l w Hl. apply H. eapply dlcs_in_and; eauto. }
      clear IH G H Gx Lx. induction cs as [|x cs IHc]; cbn in Hb; [injection Hb as <-; simpl; tauto|].
      destruct (sat_value vals x) as [b0|] eqn:Ex; cbn in Hb; [|discriminate]. assert (Kx := K x (or_introl eq_refl) b0 Ex). destruct b0.
      + rewrite (IHc); [|exact Hb|intros y Hy; apply K; simpl; auto]. split.
        * intros A y [<-|Hy]; [apply Kx; reflexivity|auto].
        * intros A y Hy. apply A. simpl. auto.
      + injection Hb as <-. split; [discriminate|]. intros A. apply Kx. apply A. simpl. auto.
    - inversion G as [| |? Gx Lx]; subst. cbn [sat_value] in Hb. cbn [holds]. rewrite fold_or_in. rewrite Forall_forall in IH.
      assert (K : forall x, In x cs -> forall b, sat_value vals x = Ok b -> (b = true <-> holds (given vals) x)).
      { intros x Hx. apply (IH x Hx (Gx x Hx)). intros l w Hl. apply H. eapply dlcs_in_and; eauto. }
      clear IH G H Gx Lx. induction cs as [|x cs IHc]; cbn in Hb; [injection Hb as <-; split; [discriminate|intros (y & [] & _)]|].
      destruct (sat_value vals x) as [b0|] eqn:Ex; cbn in Hb; [|discriminate]. assert (Kx := K x (or_introl eq_refl) b0 Ex). destruct b0.
      + injection Hb as <-. split; [|reflexivity]. intros _. exists x. split; [simpl; auto|apply Kx; reflexivity].
      + rewrite (IHc); [|exact Hb|intros y Hy; apply K; simpl; auto]. split.
        * intros (y & Hy & A). exists y. simpl. auto.
        * intros (y & [<-|Hy] & A); [apply Kx in A; discriminate|eauto].
  Qed.

  Lemma Forall2_length {A B} (P : A -> B -> Prop) l m : Forall2 P l m -> length l = length m.
  Proof. induction 1; simpl; congruence. Qed.
  Lemma NoDup_join {A} (l m : list A) : NoDup l -> NoDup m -> (forall x, In x l -> ~ In x m) -> NoDup (l ++ m).
  Proof.
    intros Nl Nm H. induction Nl as [|x l Hx Nl IH]; simpl; [exact Nm|]. constructor.
    - rewrite in_app_iff. intros [K|K]; [tauto|]. apply (H x (or_introl eq_refl) K).
    - apply IH. intros y Hy. apply H. simpl. auto.
  Qed.

  (** ** Newly active hyperparameters *)
  Definition fires (s : space) (p : point) (n : string) : Prop :=
    exists ks, assoc n (parent_conditions_of s) = Some ks /\ forall k, In k ks -> sat_value (some_values p) k = Ok true.
  Definition stays (s : space) (p : point) (n : string) : Prop :=
    exists ks k, assoc n (parent_conditions_of s) = Some ks /\ In k ks /\ sat_value (some_values p) k = Ok false.

  Lemma try_child_ok s p new n new' : try_child s p new n = Ok new' ->
    (new' = new /\ (In n new \/ In n (map fst p) \/ stays s p n)) \/ (new' = new ++ [n] /\ ~ In n new /\ ~ In n (map fst p) /\ fires s p n).
  Proof.
    unfold try_child. destruct (str_in n new || assoc_mem n p)%bool eqn:Em.
    - intros [= <-]. left. split; [reflexivity|]. apply orb_true_iff in Em. destruct Em as [Em|Em]; [left; apply str_in_iff; exact Em|].
      right. left. apply assoc_mem_iff. exact Em.
    - apply orb_false_iff in Em. destruct Em as [E1 E2].
      assert (N1 : ~ In n new) by (rewrite <- str_in_iff, E1; discriminate). assert (N2 : ~ In n (map fst p)) by (rewrite <- assoc_mem_iff, E2; discriminate).
      destruct (assoc n (parent_conditions_of s)) as [ks|] eqn:Ek; [|discriminate].
      destruct (mapM (sat_value (some_values p)) ks) as [bs|] eqn:Eb; cbn [bind]; [|discriminate]. intros [= <-]. apply mapM_ok in Eb.
      destruct (forallb (fun b => b) bs) eqn:Ef.
      + right. repeat (split; [solve [auto]|]). exists ks. split; [exact Ek|]. intros k Hk.
        clear -Eb Ef Hk. induction Eb as [|x y ks bs H1 Eb IH]; [destruct Hk|]. simpl in Ef. apply andb_true_iff in Ef. destruct Ef as [-> Ef].
        destruct Hk as [<-|Hk]; [exact H1|auto].
      + left. split; [reflexivity|]. right. right.
        assert (K : exists k, In k ks /\ sat_value (some_values p) k = Ok false).
        { clear -Eb Ef. induction Eb as [|x y ks bs H1 Eb IH]; [discriminate|]. simpl in Ef. apply andb_false_iff in Ef. destruct Ef as [->|Ef]; [exists x; simpl; auto|].
          destruct (IH Ef) as (k & Hk & Q). exists k. simpl. auto. }
        destruct K as (k & Hk & Q). exists ks, k. auto.
  Qed.

  (** the fold over the children of one hyperparameter, and over all of them *)
  Lemma fold_children s p l : forall new new', foldM (try_child s p) l new = Ok new' ->
    (NoDup new -> NoDup new') /\ (forall n, In n new -> In n new') /\
    (forall n, In n new' -> In n new \/ (In n l /\ ~ In n (map fst p) /\ fires s p n)) /\
    (forall n, In n l -> In n new' \/ In n (map fst p) \/ stays s p n).
  Proof.
    induction l as [|x l IH]; intros new new' H; cbn in H.
    - injection H as <-. repeat split; auto. intros n [].
    - destruct (try_child s p new x) as [new1|] eqn:Et; cbn in H; [|discriminate]. apply try_child_ok in Et. destruct (IH _ _ H) as (I1 & I2 & I3 & I4).
      destruct Et as [(-> & Ho)|(-> & N1 & N2 & F)].
      + split; [exact I1|]. split; [exact I2|]. split.
        * intros n Hn. destruct (I3 n Hn) as [|(? & ? & ?)]; [auto|right; simpl; auto].
        * intros n [<-|Hn]; [|auto]. destruct Ho as [Ho|[Ho|Ho]]; auto.
      + split; [|split; [|split]].
        * intros ND. apply I1. apply NoDup_join; [exact ND|repeat constructor; simpl; tauto|]. intros y Hy [<-|[]]. tauto.
        * intros n Hn. apply I2. apply in_app_iff. auto.
        * intros n Hn. destruct (I3 n Hn) as [Hn'|(? & ? & ?)]; [|right; simpl; auto]. apply in_app_iff in Hn'. destruct Hn' as [Hn'|[<-|[]]]; [auto|].
          right. simpl. auto.
        * intros n [<-|Hn]; [|auto]. left. apply I2. apply in_app_iff. simpl. auto.
  Qed.

  Lemma new_active_ok s p new : new_active s p = Ok new ->
    NoDup new /\ (forall n, In n new -> ~ In n (map fst p) /\ fires s p n /\ exists m, In m (map fst p) /\ In n (children_names (d_nodes (s_dag s)) m)) /\
    (forall m n, In m (map fst p) -> In n (children_names (d_nodes (s_dag s)) m) -> In n new \/ In n (map fst p) \/ stays s p n).
  Proof.
    unfold new_active. set (F := fun (new : list string) n => _).
    assert (G : forall l a r, foldM F l a = Ok r ->
      (NoDup a -> NoDup r) /\ (forall n, In n a -> In n r) /\
      (forall n, In n r -> In n a \/ (~ In n (map fst p) /\ fires s p n /\ exists m, In m l /\ In n (children_names (d_nodes (s_dag s)) m))) /\
      (forall m n, In m l -> In n (children_names (d_nodes (s_dag s)) m) -> In n r \/ In n (map fst p) \/ stays s p n)).
    { induction l as [|x l IH]; intros a r H; cbn in H.
      - injection H as <-. repeat split; auto. intros m n [].
      - destruct (F a x) as [a1|] eqn:Ef; cbn in H; [|discriminate]. unfold F in Ef. destruct (assoc x (d_nodes (s_dag s))) as [nd|]; [|discriminate].
        destruct (fold_children _ _ _ _ _ Ef) as (C1 & C2 & C3 & C4). destruct (IH _ _ H) as (I1 & I2 & I3 & I4).
        split; [auto|]. split; [auto|]. split.
        + intros n Hn. destruct (I3 n Hn) as [Hn'|(? & ? & m & ? & ?)]; [|right; split; [assumption|split; [assumption|exists m; simpl; auto]]].
          destruct (C3 n Hn') as [|(? & ? & ?)]; [auto|]. right. split; [assumption|]. split; [assumption|]. exists x. simpl. auto.
        + intros m n [<-|Hm] Hn; [|eauto]. destruct (C4 n Hn) as [|[|]]; auto. }
    intros H. destruct (G _ _ _ H) as (G1 & _ & G3 & G4). split; [apply G1; constructor|]. split; [|exact G4].
    intros n Hn. destruct (G3 n Hn) as [[]|K]. exact K.
  Qed.

  Lemma expand_ok s steps p more : expand s steps p = Ok more ->
    exists new sets, new_active s p = Ok new /\ new <> [] /\ Forall2 (fun n set => value_set s steps n = Ok set) new sets /\
      forall q, In q more <-> exists vs, Forall2 (@In value) vs sets /\ q = p ++ combine new vs.
  Proof.
    unfold expand. destruct (new_active s p) as [new|] eqn:En; cbn [bind]; [|discriminate].
    destruct (mapM (value_set s steps) new) as [sets|] eqn:Es; cbn [bind]; [|discriminate].
    destruct (negb (Nat.eqb (length new) 0)) eqn:El; cbn [bind]; [|discriminate]. intros [= <-].
    assert (Hn : new <> []) by (intros ->; discriminate). exists new, sets. split; [reflexivity|]. split; [exact Hn|].
    assert (Hlen := mapM_length _ _ _ Es). split; [apply mapM_ok; exact Es|]. intros q. rewrite cartesian_in.
    - split.
      + intros (vs & Hv & ->). apply fixed_sets in Hv. destruct Hv as (ws & -> & Hw). exists ws. split; [exact Hw|].
        rewrite combine_app by (rewrite !map_length; reflexivity). rewrite combine_split. reflexivity.
      + intros (ws & Hw & ->). exists (map snd p ++ ws). split; [apply fixed_sets; eauto|].
        rewrite combine_app by (rewrite !map_length; reflexivity). rewrite combine_split. reflexivity.
    - rewrite !app_length, !map_length. lia.
    - intros K. apply app_eq_nil in K. destruct K as [_ ->]. destruct new; [congruence|discriminate].
  Qed.

  (** ** The points on the way *)
  Definition pd (p : point) : assignment := fun n => assoc n p.

  Record good (hs : list hp) (cs : list cond) (steps : list (string * Z)) (p : point) : Prop := {
    g_nd : NoDup (map fst p);
    g_keys : forall k, In k (map fst p) -> In k (map hp_name hs);
    g_grid : forall h u, In h hs -> pd p (hp_name h) = Some u -> grid_value steps h u;
    g_root : forall h, In h hs -> ~ conditional cs (hp_name h) -> pd p (hp_name h) <> None;
    g_act : forall h, In h hs -> pd p (hp_name h) <> None -> active cs (pd p) (hp_name h)
  }.

  Lemma good_legal s hs cs fs steps p : space_ok s hs cs fs -> good hs cs steps p -> all_legal hs (pd p) /\ exact_all hs (pd p).
  Proof. intros O G. split; intros h w Hh Hw; apply (grid_legal steps h w (so_constructed O h Hh) (g_grid _ _ _ _ G h w Hh Hw)). Qed.

  Lemma act_iff s hs cs fs d n k : space_ok s hs cs fs -> refs hs cs fs -> all_legal hs d -> In k cs -> activates k n ->
    (active cs d n <-> holds d k).
  Proof.
    intros O [R _] Al Hk Ha. split; [intros A; apply A; assumption|]. intros H c Hc Hac.
    destruct (so_declared O n k Hk Ha) as (k1 & E1 & Q1). destruct (so_declared O n c Hc Hac) as (k2 & E2 & Q2). assert (k1 = k2) by congruence. subst k2.
    destruct (so_condof_in O _ _ E1) as [Hk1 _]. assert (GB : forall x, In x cs -> cond_good x) by (intros x Hx; apply cond_built_good, (so_cond_built O x Hx)).
    apply (cond_eqb_holds hs d k1 (so_names_nodup O) Al c (GB k1 Hk1) (GB c Hc) (R _ Hk1) (R _ Hc) Q2).
    apply (cond_eqb_holds hs d k1 (so_names_nodup O) Al k (GB k1 Hk1) (GB k Hk) (R _ Hk1) (R _ Hk) Q1). exact H.
  Qed.

  Lemma holds_ext d d' c : (forall n, d n = d' n) -> (holds d c <-> holds d' c).
  Proof. intros H. split; apply holds_mono; intros l _ w Hw; exists w; (split; [congruence|apply py_eqb_refl]). Qed.

  (** satisfied_by_value on a point *)
  Lemma point_sat s hs cs fs steps p k b : space_ok s hs cs fs -> refs hs cs fs -> good hs cs steps p -> In k cs ->
    sat_value (some_values p) k = Ok b -> (b = true <-> holds (pd p) k).
  Proof.
    intros O [R _] G Hk Hb. rewrite <- (holds_ext (given (some_values p)) (pd p) k (fun n => given_some n p)).
    apply sat_value_sound; [apply cond_built_good, (so_cond_built O k Hk)| |exact Hb]. intros l w Hl Hw. rewrite given_some in Hw.
    apply (proj1 (good_legal s hs cs fs steps p O G) (l_parent l) w); [apply (R k Hk l Hl)|exact Hw].
  Qed.

  (** the condition of a conditional hyperparameter *)
  Lemma cond_of s hs cs fs n : built s hs cs fs -> In n (map hp_name hs) -> conditional cs n ->
    exists k, assoc n (parent_conditions_of s) = Some [k] /\ In k cs /\ activates k n /\ forall m, In m (cond_parents k) <-> reads cs m n.
  Proof.
    intros B Hn Hc. assert (O := built_ok _ _ _ _ B). apply (C10_parent_conditions s hs cs fs n B); [|exact Hc].
    apply (Permutation_in _ (Permutation_sym (so_keys O))). exact Hn.
  Qed.

  Lemma fires_iff s hs cs fs steps p n : tame s hs cs fs -> good hs cs steps p -> In n (map hp_name hs) -> conditional cs n -> fires s p n -> active cs (pd p) n.
  Proof.
    intros T G Hn Hc (ks & Ek & Hs). assert (O := built_ok _ _ _ _ (tm_built _ _ _ _ T)). assert (R := tm_refs _ _ _ _ T).
    destruct (cond_of s hs cs fs n (tm_built _ _ _ _ T) Hn Hc) as (k & Ek' & Hk & Ha & _). assert (ks = [k]) by congruence. subst ks.
    apply (act_iff s hs cs fs (pd p) n k O R (proj1 (good_legal _ _ _ _ _ _ O G)) Hk Ha).
    apply (point_sat s hs cs fs steps p k true O R G Hk); [apply Hs; simpl; auto|reflexivity].
  Qed.
  Lemma stays_iff s hs cs fs steps p n : tame s hs cs fs -> good hs cs steps p -> In n (map hp_name hs) -> conditional cs n -> stays s p n -> ~ active cs (pd p) n.
  Proof.
    intros T G Hn Hc (ks & k' & Ek & Hk' & Hs) A. assert (O := built_ok _ _ _ _ (tm_built _ _ _ _ T)). assert (R := tm_refs _ _ _ _ T).
    destruct (cond_of s hs cs fs n (tm_built _ _ _ _ T) Hn Hc) as (k & Ek' & Hk & Ha & _). assert (ks = [k]) by congruence. subst ks.
    destruct Hk' as [<-|[]]. assert (H := A k Hk Ha). apply (point_sat s hs cs fs steps p k false O R G Hk Hs) in H. discriminate.
  Qed.

  Lemma assoc_combine_in {A} n u (names : list string) : forall (vs : list A), assoc n (combine names vs) = Some u -> In n names.
  Proof.
    induction names as [|m names IH]; intros [|v vs]; simpl; try discriminate. destruct (String.eqb n m) eqn:Q.
    - apply String.eqb_eq in Q. auto.
    - eauto.
  Qed.
  Lemma assoc_combine_set {A} (P : string -> list A -> Prop) n u names : forall sets vs, Forall2 P names sets -> Forall2 (@In A) vs sets ->
    assoc n (combine names vs) = Some u -> exists set, P n set /\ In u set.
  Proof.
    induction names as [|m names IH]; intros sets vs Fs Fv; simpl; [discriminate|]. inversion Fs as [|? st ? sets' Hs Fs']; subst.
    inversion Fv as [|v ? vs' ? Hv Fv']; subst. simpl. destruct (String.eqb n m) eqn:Q.
    - intros K. injection K as K. subst u. apply String.eqb_eq in Q. subst m. eauto.
    - apply (IH sets' vs' Fs' Fv').
  Qed.
  Lemma assoc_combine_some {A} n names : forall (vs : list A), In n names -> length names = length vs -> exists u, assoc n (combine names vs) = Some u.
  Proof.
    induction names as [|m names IH]; intros [|v vs]; simpl; try tauto; try discriminate. intros H [= Hl]. destruct (String.eqb n m) eqn:Q; [eauto|].
    apply (IH vs); [|exact Hl]. destruct H as [->|H]; [rewrite String.eqb_refl in Q; discriminate|exact H].
  Qed.

  Lemma set_grid s hs cs fs steps n set u : space_ok s hs cs fs -> value_set s steps n = Ok set -> In u set -> exists h, In h hs /\ hp_name h = n /\ grid_value steps h u.
  Proof.
    intros O Hs Hu. destruct (get_hp s n) as [h|] eqn:Eh; [|unfold value_set in Hs; rewrite Eh in Hs; discriminate].
    assert (Eh' := Eh). apply (so_get_hp O) in Eh'. destruct Eh' as [Hh Hn]. exists h. split; [exact Hh|]. split; [exact Hn|].
    apply (proj1 (value_set_ok s steps n h Eh (so_constructed O h Hh)) set Hs). exact Hu.
  Qed.

  Lemma extend_good s hs cs fs steps p more q : tame s hs cs fs -> good hs cs steps p -> expand s steps p = Ok more -> In q more ->
    good hs cs steps q /\ length p < length q.
  Proof.
    intros T G Ex Hq. assert (O := built_ok _ _ _ _ (tm_built _ _ _ _ T)). assert (R := tm_refs _ _ _ _ T).
    destruct (expand_ok _ _ _ _ Ex) as (new & sets & En & Hne & Fs & Hin). apply Hin in Hq. destruct Hq as (vs & Fv & ->).
    destruct (new_active_ok _ _ _ En) as (Nd & Na & _).
    assert (Lv : length new = length vs) by (rewrite (Forall2_length _ _ _ Fs), (Forall2_length _ _ _ Fv); reflexivity).
    assert (Child : forall n, In n new -> In n (map hp_name hs) /\ conditional cs n).
    { intros n Hn. destruct (Na n Hn) as (_ & _ & m & Hm & Hc). apply (so_edge O) in Hc. split; [|apply (reads_conditional cs m n Hc)].
      apply (Permutation_in _ (so_keys O)). apply (so_reads_keys O m n Hc). }
    assert (Ext : forall n, pd (p ++ combine new vs) n = match pd p n with Some u => Some u | None => assoc n (combine new vs) end) by (intros n; apply assoc_app).
    assert (Bel : forall n, below (pd p) (pd (p ++ combine new vs)) n).
    { intros n w Hw. exists w. rewrite Ext, Hw. split; [reflexivity|apply py_eqb_refl]. }
    split.
    - constructor.
      + rewrite map_app, combine_fst by exact Lv. apply NoDup_join; [apply (g_nd _ _ _ _ G)|exact Nd|]. intros x Hx Hx'. apply (proj1 (Na x Hx') Hx).
      + intros k. rewrite map_app, combine_fst by exact Lv. rewrite in_app_iff. intros [Hk|Hk]; [apply (g_keys _ _ _ _ G k Hk)|apply (Child k Hk)].
      + intros h u Hh. rewrite Ext. destruct (pd p (hp_name h)) as [w|] eqn:Ew.
        * intros [= <-]. apply (g_grid _ _ _ _ G h w Hh Ew).
        * intros Hu. destruct (assoc_combine_set _ _ _ _ _ _ Fs Fv Hu) as (set & Hs & Hus).
          destruct (set_grid s hs cs fs steps _ _ _ O Hs Hus) as (h' & Hh' & Hn & Gv). rewrite (same_hp hs h h' (so_names_nodup O) Hh Hh' (eq_sym Hn)). exact Gv.
      + intros h Hh Hc. rewrite Ext. assert (K := g_root _ _ _ _ G h Hh Hc). destruct (pd p (hp_name h)); [discriminate|congruence].
      + intros h Hh Hs. apply (active_mono hs cs fs (pd p) _ (hp_name h) R (fun h' _ => Bel (hp_name h'))).
        rewrite Ext in Hs. destruct (pd p (hp_name h)) as [w|] eqn:Ew.
        * apply (g_act _ _ _ _ G h Hh). congruence.
        * destruct (assoc (hp_name h) (combine new vs)) as [w|] eqn:Ea; [|congruence]. apply assoc_combine_in in Ea. destruct (Child _ Ea) as [Hn Hc].
          apply (fires_iff s hs cs fs steps p _ T G Hn Hc). apply (Na _ Ea).
    - rewrite app_length, combine_length, <- Lv. destruct new; [congruence|simpl; lia].
  Qed.

  Lemma root_keys s hs cs fs n : space_ok s hs cs fs -> (In n (unconditional_hyperparameters s) <-> In n (map hp_name hs) /\ ~ conditional cs n).
  Proof.
    intros O. rewrite (so_root O), (so_conditional O). split.
    - intros [Hk Hc]. split; [apply (Permutation_in _ (so_keys O)); exact Hk|]. intros (c & K). congruence.
    - intros [Hk Hc]. split; [apply (Permutation_in _ (Permutation_sym (so_keys O))); exact Hk|].
      destruct (condof (d_nodes (s_dag s)) n) as [c|] eqn:Ec; [|reflexivity]. exfalso. apply Hc. eauto.
  Qed.
  Lemma roots_nodup s hs cs fs : space_ok s hs cs fs -> NoDup (unconditional_hyperparameters s).
  Proof.
    intros O. assert (P := so_partition O). assert (N := so_nodup O).
    apply (Permutation_NoDup (Permutation_sym P)) in N. revert N. generalize (conditional_hyperparameters s) (unconditional_hyperparameters s).
    intros a b. induction b as [|x b IH]; simpl; [constructor|]. intros N. inversion N as [|? ? Hx N']; subst. constructor; [|auto].
    intros K. apply Hx. apply in_app_iff. auto.
  Qed.

  Lemma start_good s hs cs fs steps sets q : tame s hs cs fs -> mapM (value_set s steps) (unconditional_hyperparameters s) = Ok sets ->
    In q (cartesian sets (unconditional_hyperparameters s)) -> good hs cs steps q.
  Proof.
    intros T Hs Hq. assert (O := built_ok _ _ _ _ (tm_built _ _ _ _ T)). assert (Ls := mapM_length _ _ _ Hs). apply mapM_ok in Hs.
    assert (Hn : sets <> []) by (intros ->; destruct Hq). apply cartesian_in in Hq; [|congruence|exact Hn]. destruct Hq as (vs & Fv & ->).
    assert (Lv : length (unconditional_hyperparameters s) = length vs) by (rewrite (Forall2_length _ _ _ Hs), (Forall2_length _ _ _ Fv); reflexivity).
    constructor.
    - rewrite combine_fst by exact Lv. apply (roots_nodup s hs cs fs O).
    - intros k. rewrite combine_fst by exact Lv. intros Hk. apply (root_keys s hs cs fs k O) in Hk. apply Hk.
    - intros h u Hh Hu. destruct (assoc_combine_set _ _ _ _ _ _ Hs Fv Hu) as (set & Hv & Hus).
      destruct (set_grid s hs cs fs steps _ _ _ O Hv Hus) as (h' & Hh' & Hnm & Gv). rewrite (same_hp hs h h' (so_names_nodup O) Hh Hh' (eq_sym Hnm)). exact Gv.
    - intros h Hh Hc. destruct (assoc_combine_some (hp_name h) (unconditional_hyperparameters s) vs) as (u & Hu); [|exact Lv|unfold pd; rewrite Hu; discriminate].
      apply (root_keys s hs cs fs _ O). split; [apply in_map; exact Hh|exact Hc].
    - intros h Hh Hp c Hc Ha. exfalso. destruct (pd (combine (unconditional_hyperparameters s) vs) (hp_name h)) as [u|] eqn:Eu; [|congruence].
      apply assoc_combine_in in Eu. apply (root_keys s hs cs fs _ O) in Eu. apply (proj2 Eu). exists c. auto.
  Qed.

  (** ** What is returned is valid and on the grid *)
  Lemma accepted_valid s hs cs fs steps p c : tame s hs cs fs -> good hs cs steps p -> config_of_values s (some_values p) false = Ok c ->
    exists d, carries s hs c d /\ valid hs cs fs d /\ on_grid steps hs d.
  Proof.
    intros T G H. assert (B := tm_built _ _ _ _ T). assert (O := built_ok _ _ _ _ B).
    assert (St := store_stored hs (given (some_values p)) (so_names_nodup O)). set (d := store hs (given (some_values p))) in *.
    assert (Ex : exact_all hs (given (some_values p))).
    { intros h w Hh Hw. rewrite given_some in Hw. apply (proj2 (good_legal s hs cs fs steps p O G) h w Hh Hw). }
    assert (V := proj1 (C17_accepts_valid_partial s hs cs fs (some_values p) d T St Ex) (ex_intro _ c H)). destruct V as (_ & _ & V).
    exists d. split; [split; [apply (C20_start s hs cs fs _ _ _ _ B St H)|apply (shows_values s hs cs fs _ _ _ _ B H St)]|]. split; [exact V|].
    intros h u Hh Hu. rewrite (St h Hh), given_some in Hu. destruct (assoc (hp_name h) p) as [g|] eqn:Eg; [|discriminate]. injection Hu as <-.
    exists g. split; [apply (g_grid _ _ _ _ G h g Hh Eg)|apply py_eqb_refl].
  Qed.

  Theorem C29_sound_partial s hs cs fs fuel steps l c : tame s hs cs fs -> generate_grid fuel s steps = Ok l -> In c l ->
    exists d, carries s hs c d /\ valid hs cs fs d /\ on_grid steps hs d.
  Proof.
    intros T H Hc. unfold generate_grid in H.
    destruct (mapM (value_set s steps) (unconditional_hyperparameters s)) as [sets|] eqn:Es; cbn [bind] in H; [|discriminate].
    assert (Gs := fun q => start_good s hs cs fs steps sets q T Es). revert H Gs. generalize (cartesian sets (unconditional_hyperparameters s)).
    assert (Gd : forall x, In x (@nil config) -> exists d, carries s hs x d /\ valid hs cs fs d /\ on_grid steps hs d) by (intros x []).
    revert Gd. generalize (@nil config). induction fuel as [|fuel IH]; intros done Gd todo H Gs.
    - destruct todo; [|discriminate]. cbn in H. injection H as <-. apply Gd. exact Hc.
    - destruct todo as [|p todo]; [cbn in H; injection H as <-; apply Gd; exact Hc|]. cbn [grid_loop] in H.
      destruct (config_of_values s (some_values p) false) as [c'|e] eqn:Ec.
      + refine (IH (done ++ [c']) _ todo H _); [|intros q Hq; apply Gs; simpl; auto].
        intros x Hx. apply in_app_iff in Hx. destruct Hx as [Hx|[<-|[]]]; [auto|]. apply (accepted_valid s hs cs fs steps p c' T); [apply Gs; simpl; auto|exact Ec].
      + destruct e; try discriminate.
        * destruct (expand s steps p) as [more|] eqn:Em; cbn [bind] in H; [|discriminate].
          refine (IH done Gd (todo ++ more) H _). intros q Hq. apply in_app_iff in Hq. destruct Hq as [Hq|Hq]; [apply Gs; simpl; auto|].
          apply (extend_good s hs cs fs steps p more q T); [apply Gs; simpl; auto|exact Em|exact Hq].
        * refine (IH done Gd todo H _). intros q Hq. apply Gs. simpl. auto.
  Qed.

  (** ** Everything valid on the grid is returned *)

  (** rounding to 13 decimals leaves the grid alone *)
  Definition steady_grid (steps : list (string * Z)) (hs : list hp) : Prop :=
    forall h g, In h hs -> grid_value steps h g -> py_eqb (round_value h g) g = true.

  Lemma good_shows hs cs steps p : steady_grid steps hs -> good hs cs steps p -> dict_shows hs p (pd p) /\ rounded hs (pd p).
  Proof.
    intros S G. split.
    - split; [apply (g_nd _ _ _ _ G)|]. split; [apply (g_keys _ _ _ _ G)|]. intros h Hh. destruct (pd p (hp_name h)) as [u|] eqn:Eu; [|exact Eu].
      exists u. split; [exact Eu|]. rewrite py_eqb_sym. apply (S h u Hh). apply (g_grid _ _ _ _ G h u Hh Eu).
    - intros h u Hh Eu. apply (S h u Hh). apply (g_grid _ _ _ _ G h u Hh Eu).
  Qed.

  Lemma point_result s hs cs fs steps p : tame s hs cs fs -> steady_grid steps hs -> good hs cs steps p ->
    match config_of_values s (some_values p) false with
    | Ok c => carries s hs c (pd p) /\ valid hs cs fs (pd p)
    | Err e => (e = ForbiddenValueError /\ exists f, In f fs /\ violated (pd p) f) \/
               (e = ActiveHyperparameterNotSetError /\ exists h, In h hs /\ active cs (pd p) (hp_name h) /\ pd p (hp_name h) = None)
    end.
  Proof.
    intros T S G. assert (B := tm_built _ _ _ _ T). assert (O := built_ok _ _ _ _ B). assert (R := tm_refs _ _ _ _ T).
    destruct (good_shows hs cs steps p S G) as [Ds Rd]. destruct (good_legal s hs cs fs steps p O G) as [Al Ex].
    destruct (config_of_values s (some_values p) false) as [c|e] eqn:Ec.
    - split; [apply (dict_carries s hs cs fs p (pd p) false c B Ds Al Ex Rd Ec)|]. apply (dict_strict s hs cs fs p (pd p) T Ds Al Ex Rd). eauto.
    - destruct (dict_facts hs p (pd p) (so_constructed O) Ds Al Ex Rd (so_names_nodup O)) as (Gl & Gx & B1 & B2 & Kn).
      set (gv := given (some_values p)) in *.
      assert (Up : forall d, stored hs gv d -> (forall h, In h hs -> below d (pd p) (hp_name h)) /\ (forall h, In h hs -> below (pd p) d (hp_name h))).
      { intros d St. assert (St' := store_stored hs gv (so_names_nodup O)).
        assert (Q : forall h, In h hs -> d (hp_name h) = store hs gv (hp_name h)) by (intros h Hh; rewrite (St h Hh), (St' h Hh); reflexivity).
        split; intros h Hh; unfold below; rewrite (Q h Hh); [apply (B1 h Hh)|apply (B2 h Hh)]. }
      destruct (C68_reason_partial s hs cs fs (some_values p) false e T Gx Ec) as [k Hk Hn|h w Hh Hw Hl|d e Hk Hl St F].
      + exfalso. rewrite keys_some in Hk. apply Hn. apply (g_keys _ _ _ _ G k Hk).
      + exfalso. rewrite (Gl h w Hh Hw) in Hl. discriminate.
      + destruct (Up d St) as [U1 U2]. destruct F as [h Hh A Hd|h _ Hh A Hd|f _ _ Hf Vf].
        * right. split; [reflexivity|]. exists h. split; [exact Hh|]. split; [apply (active_mono hs cs fs d (pd p) _ R U1 A)|].
          destruct (pd p (hp_name h)) as [u|] eqn:Eu; [|reflexivity]. destruct (U2 h Hh u Eu) as (w & K & _). congruence.
        * exfalso. apply A. apply (active_mono hs cs fs (pd p) d _ R U2). apply (g_act _ _ _ _ G h Hh).
          destruct (d (hp_name h)) as [u|] eqn:Eu; [|congruence]. destruct (U1 h Hh u Eu) as (w & -> & _). discriminate.
        * left. split; [reflexivity|]. exists f. split; [exact Hf|]. apply (forb_mono hs cs fs d (pd p) f R U1 Hf Vf).
  Qed.

  (** a valid assignment has no valid part *)
  Lemma valid_max s hs cs fs d d' : space_ok s hs cs fs -> refs hs cs fs -> valid hs cs fs d -> valid hs cs fs d' ->
    (forall h, In h hs -> below d' d (hp_name h)) -> forall h, In h hs -> below d d' (hp_name h).
  Proof.
    intros O [R _] V V' Hb.
    assert (Gi : forall i j h, In h hs -> assoc (hp_name h) (index_of s) = Some j -> j < i -> below d d' (hp_name h)).
    { induction i as [|i IH]; intros j h Hh Hj Hlt; [lia|]. intros u Hu.
      assert (A : active cs d (hp_name h)) by (apply (va_active _ _ _ _ V h Hh); congruence).
      assert (A' : active cs d' (hp_name h)).
      { intros c Hc Ha. apply (holds_mono d d' c); [|apply A; assumption]. intros l Hl.
        assert (Rd : reads cs (parent_name l) (hp_name h)).
        { exists c. split; [exact Hc|]. split; [exact Ha|]. unfold cond_parents. apply in_map. exact Hl. }
        assert (Hp := proj2 (R c Hc l Hl)). destruct (so_hp_index O (l_parent l) Hp) as (k & Hk & _).
        apply (IH k (l_parent l) Hp Hk). assert (Lt := so_parent_before O _ _ _ _ Rd Hk Hj). lia. }
      apply (va_active _ _ _ _ V' h Hh) in A'. destruct (d' (hp_name h)) as [w|] eqn:Ew; [|congruence]. exists w. split; [reflexivity|].
      destruct (Hb h Hh w Ew) as (u' & Hu' & Q). rewrite py_eqb_sym. congruence. }
    intros h Hh. destruct (so_hp_index O h Hh) as (j & Hj & _). apply (Gi (Datatypes.S j) j h Hh Hj). lia.
  Qed.

  Lemma represents_same s hs cs fs c d d' : space_ok s hs cs fs -> represents s hs c d -> all_legal hs d' ->
    (forall h, In h hs -> below d d' (hp_name h)) -> (forall h, In h hs -> below d' d (hp_name h)) -> represents s hs c d'.
  Proof.
    intros O [Rl Rep] Al B1 B2. split; [exact Rl|]. intros h Hh. assert (Rh := Rep h Hh). specialize (B1 h Hh). specialize (B2 h Hh). unfold below in *.
    destruct (d' (hp_name h)) as [u|] eqn:Eu.
    - destruct (B2 u eq_refl) as (w & Hw & Q). rewrite Hw in Rh. destruct Rh as (Lw & x & Hx & F). assert (Lu := Al h u Hh Eu). split; [exact Lu|].
      destruct (legal_finite h u (so_constructed O h Hh) Lu) as (q & Hq). exists (Fin q). split; [exact Hq|].
      apply (fsame_trans _ x); [exact F|]. apply (to_vector_same h w u x (Fin q) (so_constructed O h Hh) Lw Lu Hx Hq). rewrite py_eqb_sym. exact Q.
    - destruct (d (hp_name h)) as [w|]; [|exact Rh]. destruct (B1 w eq_refl) as (w' & K & _). discriminate.
  Qed.

  (** values for the new hyperparameters as in [d] *)
  Lemma pick_values s hs cs fs steps d names sets : space_ok s hs cs fs -> steady_grid steps hs -> on_grid steps hs d ->
    (forall n, In n names -> In n (map hp_name hs) /\ d n <> None) ->
    Forall2 (fun n set => value_set s steps n = Ok set) names sets ->
    exists vs, Forall2 (@In value) vs sets /\ forall n u, assoc n (combine names vs) = Some u -> exists w, d n = Some w /\ py_eqb u w = true.
  Proof.
    intros O S Og Hn F. induction F as [|n set names sets Hs F IH]; [exists []; split; [constructor|discriminate]|].
    destruct IH as (vs & Fv & Hv); [intros m Hm; apply Hn; simpl; auto|]. destruct (Hn n (or_introl eq_refl)) as [Hk Hd].
    apply in_map_iff in Hk. destruct Hk as (h & <- & Hh). destruct (d (hp_name h)) as [w|] eqn:Ew; [|congruence].
    destruct (Og h w Hh Ew) as (g & Gg & Qg). assert (Eh : get_hp s (hp_name h) = Some h) by (apply (so_get_hp O); auto).
    destruct (proj1 (value_set_ok s steps _ h Eh (so_constructed O h Hh)) set Hs) as (_ & _ & _ & Hall). destruct (Hall g Gg) as (u & Hu & Qu).
    exists (u :: vs). split; [constructor; assumption|]. intros m x. simpl. destruct (String.eqb m (hp_name h)) eqn:Qm; [|apply Hv].
    apply String.eqb_eq in Qm. intros [= <-]. subst m. exists w. split; [exact Ew|]. rewrite py_eqb_sym.
    apply (py_eqb_trans _ _ _ Qg). apply (py_eqb_trans _ _ _ (S h g Hh Gg) Qu).
  Qed.

  Lemma extend_below s hs cs fs steps p more d : tame s hs cs fs -> steady_grid steps hs -> good hs cs steps p -> valid hs cs fs d -> on_grid steps hs d ->
    (forall h, In h hs -> below (pd p) d (hp_name h)) -> expand s steps p = Ok more ->
    exists q, In q more /\ forall h, In h hs -> below (pd q) d (hp_name h).
  Proof.
    intros T S G V Og Hb Ex. assert (O := built_ok _ _ _ _ (tm_built _ _ _ _ T)). assert (R := tm_refs _ _ _ _ T).
    destruct (expand_ok _ _ _ _ Ex) as (new & sets & En & Hne & Fs & Hin). destruct (new_active_ok _ _ _ En) as (Nd & Na & _).
    destruct (pick_values s hs cs fs steps d new sets O S Og) as (vs & Fv & Hv); [|exact Fs|].
    - intros n Hn. destruct (Na n Hn) as (_ & Fi & m & Hm & Hc). apply (so_edge O) in Hc.
      assert (Hk : In n (map hp_name hs)) by (apply (Permutation_in _ (so_keys O)), (so_reads_keys O m n Hc)). split; [exact Hk|].
      apply in_map_iff in Hk. destruct Hk as (h & <- & Hh). apply (va_active _ _ _ _ V h Hh). apply (active_mono hs cs fs (pd p) d _ R Hb).
      apply (fires_iff s hs cs fs steps p _ T G (in_map _ _ _ Hh) (reads_conditional _ _ _ Hc) Fi).
    - exists (p ++ combine new vs). split; [apply Hin; eauto|]. intros h Hh u Hu. unfold pd in Hu. rewrite assoc_app in Hu.
      destruct (assoc (hp_name h) p) as [w|] eqn:Ew; [|apply (Hv _ _ Hu)]. injection Hu as <-. apply (Hb h Hh w Ew).
  Qed.

  Lemma loop_complete s hs cs fs steps d : tame s hs cs fs -> steady_grid steps hs -> valid hs cs fs d -> on_grid steps hs d ->
    forall fuel todo done l, (forall p, In p todo -> good hs cs steps p) -> grid_loop fuel s steps todo done = Ok l ->
    (exists c, In c done /\ represents s hs c d) \/ (exists p, In p todo /\ forall h, In h hs -> below (pd p) d (hp_name h)) ->
    exists c, In c l /\ represents s hs c d.
  Proof.
    intros T S V Og. assert (O := built_ok _ _ _ _ (tm_built _ _ _ _ T)). assert (R := tm_refs _ _ _ _ T).
    induction fuel as [|fuel IH]; intros todo done l Gs H Inv.
    - destruct todo; [|discriminate]. cbn in H. injection H as <-. destruct Inv as [Inv|(p & [] & _)]. exact Inv.
    - destruct todo as [|p todo]; [cbn in H; injection H as <-; destruct Inv as [Inv|(p & [] & _)]; exact Inv|]. cbn [grid_loop] in H.
      assert (Gp := Gs p (or_introl eq_refl)). assert (Gs' : forall q, In q todo -> good hs cs steps q) by (intros q Hq; apply Gs; simpl; auto).
      assert (PR := point_result s hs cs fs steps p T S Gp). destruct (config_of_values s (some_values p) false) as [c|e].
      + apply (IH _ _ _ Gs' H). destruct Inv as [(c' & Hc' & Q)|(q & [<-|Hq] & Hb)].
        * left. exists c'. split; [apply in_app_iff; auto|exact Q].
        * left. exists c. split; [apply in_app_iff; simpl; auto|]. destruct PR as [[Rep _] Vp].
          apply (represents_same s hs cs fs c (pd p) d O Rep (va_legal _ _ _ _ V) Hb). apply (valid_max s hs cs fs d (pd p) O R V Vp Hb).
        * right. eauto.
      + destruct PR as [(-> & f & Hf & Vf)|(-> & h & Hh & A & Hn)].
        * apply (IH _ _ _ Gs' H). destruct Inv as [Inv|(q & [<-|Hq] & Hb)]; [left; exact Inv| |right; eauto].
          exfalso. apply (va_forb _ _ _ _ V f Hf). apply (forb_mono hs cs fs (pd p) d f R Hb Hf Vf).
        * destruct (expand s steps p) as [more|] eqn:Em; cbn [bind] in H; [|discriminate]. apply (IH _ _ _) in H; [exact H| |].
          -- intros q Hq. apply in_app_iff in Hq. destruct Hq as [Hq|Hq]; [auto|]. apply (extend_good s hs cs fs steps p more q T Gp Em Hq).
          -- destruct Inv as [Inv|(q & [<-|Hq] & Hb)]; [left; exact Inv| |right; exists q; split; [apply in_app_iff; auto|exact Hb]].
             right. destruct (extend_below s hs cs fs steps p more d T S Gp V Og Hb Em) as (q & Hq & Hbq). exists q. split; [apply in_app_iff; auto|exact Hbq].
  Qed.

  Lemma some_root s hs cs fs : space_ok s hs cs fs -> hs <> [] -> unconditional_hyperparameters s <> [].
  Proof.
    intros O Hn K. assert (Len := so_keys_len O). assert (P := so_keys O). destruct (keys s) as [|n ks] eqn:Ek.
    - apply Permutation_nil in P. apply map_eq_nil in P. congruence.
    - assert (Hi : assoc n (index_of s) = Some 0) by (apply (so_index O); rewrite Ek; reflexivity).
      assert (Hk : In n (map hp_name hs)) by (apply (Permutation_in _ P); simpl; auto).
      assert (NC : ~ conditional cs n).
      { intros Hc. destruct (so_conditional O n) as [Hc' _]. destruct (Hc' Hc) as (c & Ec). destruct (so_condof_in O _ _ Ec) as [Hcs Ha].
        assert (Gd := cond_built_good c (so_cond_built O c Hcs)).
        assert (Ex : exists m, In m (cond_parents c)).
        { clear -Gd. induction Gd as [l _|cs _ IH Hl|cs _ IH Hl]; [exists (parent_name l); left; reflexivity| |].
          - destruct cs as [|x cs]; [simpl in Hl; lia|]. destruct (IH x (or_introl eq_refl)) as (m & Hm). exists m. unfold cond_parents in *. simpl. rewrite map_app.
            apply in_app_iff. auto.
          - destruct cs as [|x cs]; [simpl in Hl; lia|]. destruct (IH x (or_introl eq_refl)) as (m & Hm). exists m. unfold cond_parents in *. simpl. rewrite map_app.
            apply in_app_iff. auto. }
        destruct Ex as (m & Hm). assert (Rd : reads cs m n) by (exists c; auto). destruct (so_reads_keys O m n Rd) as [Km _].
        destruct (so_index_ex O m Km) as (j & Hj). assert (Lt := so_parent_before O _ _ _ _ Rd Hj Hi). lia. }
      assert (In n (unconditional_hyperparameters s)) by (apply (root_keys s hs cs fs n O); auto). rewrite K in H. destruct H.
  Qed.

  (** Complete, if it returns and if rounding to 13 decimals does not move the grid. A space without
      hyperparameters has one (empty) configuration, but an empty grid. *)
  Theorem C30_complete_partial s hs cs fs fuel steps l d : tame s hs cs fs -> hs <> [] -> steady_grid steps hs -> generate_grid fuel s steps = Ok l ->
    valid hs cs fs d -> on_grid steps hs d -> exists c, In c l /\ represents s hs c d.
  Proof.
    intros T Hn S H V Og. assert (O := built_ok _ _ _ _ (tm_built _ _ _ _ T)). unfold generate_grid in H.
    destruct (mapM (value_set s steps) (unconditional_hyperparameters s)) as [sets|] eqn:Es; cbn [bind] in H; [|discriminate].
    apply (loop_complete s hs cs fs steps d T S V Og _ _ _ _ (fun q => start_good s hs cs fs steps sets q T Es) H). right.
    assert (Ls := mapM_length _ _ _ Es). apply mapM_ok in Es. assert (Nr := some_root s hs cs fs O Hn).
    destruct (pick_values s hs cs fs steps d (unconditional_hyperparameters s) sets O S Og) as (vs & Fv & Hv); [|exact Es|].
    - intros n Hr. apply (root_keys s hs cs fs n O) in Hr. destruct Hr as [Hk Hc]. split; [exact Hk|]. apply in_map_iff in Hk. destruct Hk as (h & <- & Hh).
      apply (va_active _ _ _ _ V h Hh). intros c Hcs Ha. exfalso. apply Hc. exists c. auto.
    - exists (combine (unconditional_hyperparameters s) vs). split; [|intros h Hh u Hu; apply (Hv _ _ Hu)].
      apply cartesian_in; [congruence| |eauto]. intros ->. destruct (unconditional_hyperparameters s); [congruence|discriminate].
  Qed.

  (** ** What it raises *)
  Lemma sat_value_err vals c : cond_good c ->
    (forall l w, In l (dlcs c) -> given vals (parent_name l) = Some w -> legal_value (l_parent l) w = true) ->
    forall e, sat_value vals c = Err e -> e = KeyError /\ exists l, In l (dlcs c) /\ assoc (parent_name l) vals = None.
  Proof.
    induction c as [l|cs IH|cs IH] using cond_ind'; intros G H e He.
    - destruct (assoc (parent_name l) vals) as [o|] eqn:Ho.
      + exfalso. destruct (sat_value_holds vals (CLit l) G) as (b & Hb & _); [|congruence]. intros l' [<-|[]]. exists o. split; [exact Ho|]. intros w ->.
        apply (H l w); [simpl; auto|]. unfold given. rewrite Ho. reflexivity.
      + cbn [sat_value] in He. unfold lit_value in He. rewrite Ho in He. injection He as <-. split; [reflexivity|]. exists l. split; [left; reflexivity|exact Ho].
    - inversion G as [|? Gx Lx|]; subst. cbn [sat_value] in He. rewrite Forall_forall in IH.
      assert (K : forall x, In x cs -> forall e, sat_value vals x = Err e -> e = KeyError /\ exists l, In l (dlcs x) /\ assoc (parent_name l) vals = None).
      { intros x Hx. apply (IH x Hx (Gx x Hx)). intros l w Hl. apply H. eapply dlcs_in_and; eauto. }
      assert (A : exists x, In x cs /\ sat_value vals x = Err e).
      { clear -He. induction cs as [|x cs IH]; cbn in He; [discriminate|]. destruct (sat_value vals x) as [[]|e'] eqn:Ex; cbn in He; try discriminate.
        - destruct (IH He) as (y & Hy & Q). exists y. simpl. auto.
        - injection He as ->. exists x. simpl. auto. }
      destruct A as (x & Hx & Ex). destruct (K x Hx e Ex) as (-> & l & Hl & Ha). split; [reflexivity|]. exists l. split; [eapply dlcs_in_and; eauto|exact Ha].
    - inversion G as [| |? Gx Lx]; subst. cbn [sat_value] in He. rewrite Forall_forall in IH.
      assert (K : forall x, In x cs -> forall e, sat_value vals x = Err e -> e = KeyError /\ exists l, In l (dlcs x) /\ assoc (parent_name l) vals = None).
      { intros x Hx. apply (IH x Hx (Gx x Hx)). intros l w Hl. apply H. eapply dlcs_in_and; eauto. }
      assert (A : exists x, In x cs /\ sat_value vals x = Err e).
      { clear -He. induction cs as [|x cs IH]; cbn in He; [discriminate|]. destruct (sat_value vals x) as [[]|e'] eqn:Ex; cbn in He; try discriminate.
        - destruct (IH He) as (y & Hy & Q). exists y. simpl. auto.
        - injection He as ->. exists x. simpl. auto. }
      destruct A as (x & Hx & Ex). destruct (K x Hx e Ex) as (-> & l & Hl & Ha). split; [reflexivity|]. exists l. split; [eapply dlcs_in_and; eauto|exact Ha].
  Qed.

  Lemma foldM_err {A B} (f : B -> A -> res B) l e : forall a, foldM f l a = Err e -> exists x b, In x l /\ f b x = Err e.
  Proof.
    induction l as [|x l IH]; intros a H; cbn in H; [discriminate|]. destruct (f a x) as [a'|e'] eqn:Ef; cbn in H.
    - destruct (IH a' H) as (y & b & Hy & Q). exists y, b. simpl. auto.
    - injection H as ->. exists x, a. simpl. auto.
  Qed.

  (** a condition on two hyperparameters, one of them conditional *)
  Definition mixed (cs : list cond) (k : cond) : Prop :=
    exists m m', In m (cond_parents k) /\ In m' (cond_parents k) /\ m <> m' /\ conditional cs m'.

  Lemma new_active_err s hs cs fs steps p e : tame s hs cs fs -> good hs cs steps p -> new_active s p = Err e -> e = KeyError /\ exists k, In k cs /\ mixed cs k.
  Proof.
    intros T G H. assert (B := tm_built _ _ _ _ T). assert (O := built_ok _ _ _ _ B). assert (R := tm_refs _ _ _ _ T).
    unfold new_active in H. apply foldM_err in H. destruct H as (m & a & Hm & H).
    assert (Km : In m (keys s)) by (apply (Permutation_in _ (Permutation_sym (so_keys O))), (g_keys _ _ _ _ G m Hm)).
    apply so_key in Km. destruct Km as (nd & En). rewrite En in H. apply foldM_err in H. destruct H as (n & b & Hn & H). apply (so_edge O) in Hn.
    assert (Hk : In n (map hp_name hs)) by (apply (Permutation_in _ (so_keys O)), (so_reads_keys O m n Hn)).
    unfold try_child in H. destruct (str_in n b || assoc_mem n p)%bool; [discriminate|].
    destruct (cond_of s hs cs fs n B Hk (reads_conditional _ _ _ Hn)) as (k & Ek & Hkc & Ha & Par). rewrite Ek in H. cbn [mapM] in H.
    destruct (sat_value (some_values p) k) as [bk|e'] eqn:Es; cbn in H; [discriminate|]. injection H as <-.
    destruct (sat_value_err (some_values p) k (cond_built_good k (so_cond_built O k Hkc))) with (e := e') as (-> & l & Hl & Hnone); [|exact Es|].
    - intros l w Hl Hw. rewrite given_some in Hw. apply (proj1 (good_legal s hs cs fs steps p O G) (l_parent l) w); [apply (proj1 R k Hkc l Hl)|exact Hw].
    - split; [reflexivity|]. exists k. split; [exact Hkc|]. exists m, (parent_name l). split; [apply Par; exact Hn|]. split; [unfold cond_parents; apply in_map; exact Hl|].
      assert (Hn2 : pd p (parent_name l) = None).
      { unfold pd. unfold some_values in Hnone. rewrite assoc_map_some in Hnone. destruct (assoc (parent_name l) p); [discriminate|reflexivity]. }
      split.
      + intros Km. apply assoc_Some_key in Hm. destruct Hm as (u & Hu). unfold pd in Hn2. congruence.
      + destruct (conditional_dec s hs cs fs (parent_name l) O) as [|K]; [assumption|]. exfalso.
        apply (g_root _ _ _ _ G (l_parent l) (proj2 (proj1 R k Hkc l Hl)) K). exact Hn2.
  Qed.

  Lemma value_set_err s steps n h e : get_hp s n = Some h -> constructed h -> value_set s steps n = Err e ->
    (e = TypeError /\ ~ gridable h) \/ ((e = ValueError \/ e = IndexError) /\ ~ stepped steps h).
  Proof.
    intros Hg C He.
    assert (Ok' := proj2 (value_set_ok s steps n h Hg C)).
    assert (Nb : gridable h -> ~ stepped steps h) by (intros Hg' Hs; destruct (Ok' Hg' Hs); congruence).
    assert (Cases : (e = TypeError /\ ~ gridable h) \/ ((e = ValueError \/ e = IndexError) /\ gridable h)).
    { clear Ok' Nb. unfold value_set, gridable in *. rewrite Hg in He. destruct (hp_kind h) as [ch w|sq|v|lo hi log ds|lo hi log ds]; try discriminate.
      - destruct ds; [|injection He as <-; left; split; [reflexivity|tauto]..]. right. split; [|exact I].
        destruct (assoc (hp_name h) steps) as [num|]; [|injection He as <-; auto]. destruct (0 <=? num)%Z; cbn [bind] in He; [|injection He as <-; auto].
        revert He. generalize (map rint (grid_points (inject_Z lo) (inject_Z hi) log num)). intros l. unfold clamp_ends. destruct l as [|x l]; [cbn; intros [= <-]; auto|].
        destruct (split_last _) as [[]|]; cbn; [discriminate|intros [= <-]; auto].
      - destruct ds; [|injection He as <-; left; split; [reflexivity|tauto]..]. right. split; [|exact I].
        destruct (assoc (hp_name h) steps) as [num|]; [|injection He as <-; auto]. destruct (0 <=? num)%Z; cbn [bind] in He; [|injection He as <-; auto].
        revert He. generalize (grid_points lo hi log num). intros l. unfold clamp_ends. destruct l as [|x l]; [cbn; intros [= <-]; auto|].
        destruct (split_last _) as [[]|]; cbn; [discriminate|intros [= <-]; auto]. }
    destruct Cases as [K|[K1 K2]]; [auto|right; auto].
  Qed.

  Lemma holds_some d c : cond_good c -> holds d c -> exists l, In l (dlcs c) /\ d (parent_name l) <> None.
  Proof.
    intros G. induction G as [l _|cs _ IH Hl|cs _ IH Hl]; cbn [holds].
    - intros (w & Hw & _). exists l. split; [left; reflexivity|]. unfold parent_name. congruence.
    - rewrite fold_and_in. intros H. destruct cs as [|x cs]; [simpl in Hl; lia|]. destruct (IH x (or_introl eq_refl) (H x (or_introl eq_refl))) as (l & Hl' & Q).
      exists l. split; [eapply dlcs_in_and; [left; reflexivity|exact Hl']|exact Q].
    - rewrite fold_or_in. intros (x & Hx & H). destruct (IH x Hx H) as (l & Hl' & Q). exists l. split; [eapply dlcs_in_and; eauto|exact Q].
  Qed.

  (** an active hyperparameter that is not set is found, or another one *)
  Lemma new_active_some s hs cs fs steps p new h : tame s hs cs fs -> good hs cs steps p -> new_active s p = Ok new ->
    In h hs -> active cs (pd p) (hp_name h) -> pd p (hp_name h) = None -> new <> [].
  Proof.
    intros T G En Hh A Hn ->. assert (B := tm_built _ _ _ _ T). assert (O := built_ok _ _ _ _ B). assert (R := tm_refs _ _ _ _ T).
    destruct (conditional_dec s hs cs fs (hp_name h) O) as [Hc|Hc]; [|apply (g_root _ _ _ _ G h Hh Hc Hn)].
    destruct (cond_of s hs cs fs _ B (in_map _ _ _ Hh) Hc) as (k & Ek & Hk & Ha & Par).
    destruct (holds_some (pd p) k (cond_built_good k (so_cond_built O k Hk)) (A k Hk Ha)) as (l & Hl & Hs).
    assert (Hm : In (parent_name l) (map fst p)) by (apply assoc_Some_key; unfold pd in Hs; destruct (assoc (parent_name l) p); [eauto|congruence]).
    assert (Rd : reads cs (parent_name l) (hp_name h)) by (apply Par; unfold cond_parents; apply in_map; exact Hl). apply (so_edge O) in Rd.
    destruct (new_active_ok _ _ _ En) as (_ & _ & Nc). destruct (Nc _ _ Hm Rd) as [[]|[K|K]].
    - apply assoc_Some_key in K. destruct K as (u & Hu). unfold pd in Hn. congruence.
    - apply (stays_iff s hs cs fs steps p _ T G (in_map _ _ _ Hh) Hc K A).
  Qed.

  (** the reasons *)
  Inductive grid_fault (hs : list hp) (cs : list cond) (steps : list (string * Z)) : err -> Prop :=
  | GF_kind h : In h hs -> ~ gridable h -> grid_fault hs cs steps TypeError
  | GF_steps h e : In h hs -> ~ stepped steps h -> e = ValueError \/ e = IndexError -> grid_fault hs cs steps e
  | GF_mixed k : In k cs -> mixed cs k -> grid_fault hs cs steps KeyError.

  Lemma sets_err s hs cs fs steps names e : space_ok s hs cs fs -> (forall n, In n names -> In n (map hp_name hs)) ->
    mapM (value_set s steps) names = Err e -> grid_fault hs cs steps e.
  Proof.
    intros O Hn H. apply mapM_err in H. destruct H as (n & Hin & He). specialize (Hn n Hin). apply in_map_iff in Hn. destruct Hn as (h & <- & Hh).
    destruct (value_set_err s steps (hp_name h) h e (proj2 (so_get_hp O _ h) (conj Hh eq_refl)) (so_constructed O h Hh) He) as [(-> & K)|(K1 & K2)].
    - apply (GF_kind _ _ _ h Hh K).
    - apply (GF_steps _ _ _ h e Hh K2 K1).
  Qed.

  Lemma expand_err s hs cs fs steps p h e : tame s hs cs fs -> good hs cs steps p ->
    In h hs -> active cs (pd p) (hp_name h) -> pd p (hp_name h) = None -> expand s steps p = Err e -> grid_fault hs cs steps e.
  Proof.
    intros T G Hh A Hn H. assert (O := built_ok _ _ _ _ (tm_built _ _ _ _ T)). unfold expand in H.
    destruct (new_active s p) as [new|e'] eqn:En; cbn [bind] in H.
    - destruct (mapM (value_set s steps) new) as [sets|e'] eqn:Es; cbn [bind] in H.
      + assert (K := new_active_some s hs cs fs steps p new h T G En Hh A Hn). destruct new; [congruence|]. cbn in H. discriminate.
      + injection H as <-. apply (sets_err s hs cs fs steps new e' O); [|exact Es]. intros n Hin. destruct (new_active_ok _ _ _ En) as (_ & Na & _).
        destruct (Na n Hin) as (_ & _ & m & _ & Hc). apply (so_edge O) in Hc. apply (Permutation_in _ (so_keys O)), (so_reads_keys O m n Hc).
    - injection H as <-. destruct (new_active_err s hs cs fs steps p e' T G En) as (-> & k & Hk & M). apply (GF_mixed _ _ _ k Hk M).
  Qed.

  (** Whatever it raises, the reason is there; in particular, "There should have been a newly
      activated hyperparameter" is never raised. *)
  Theorem C70_raises_partial s hs cs fs fuel steps e : tame s hs cs fs -> steady_grid steps hs -> generate_grid fuel s steps = Err e ->
    e = OutOfFuel \/ grid_fault hs cs steps e.
  Proof.
    intros T S H. assert (O := built_ok _ _ _ _ (tm_built _ _ _ _ T)). unfold generate_grid in H.
    destruct (mapM (value_set s steps) (unconditional_hyperparameters s)) as [sets|e'] eqn:Es; cbn [bind] in H.
    - assert (Gs := fun q => start_good s hs cs fs steps sets q T Es). revert H Gs. generalize (cartesian sets (unconditional_hyperparameters s)). generalize (@nil config).
      induction fuel as [|fuel IH]; intros done todo H Gs.
      + destruct todo; cbn in H; [discriminate|]. injection H as <-. auto.
      + destruct todo as [|p todo]; cbn [grid_loop] in H; [discriminate|].
        assert (Gp := Gs p (or_introl eq_refl)). assert (Gs' : forall q, In q todo -> good hs cs steps q) by (intros q Hq; apply Gs; simpl; auto).
        assert (PR := point_result s hs cs fs steps p T S Gp). destruct (config_of_values s (some_values p) false) as [c|e'].
        * apply (IH _ _ H Gs').
        * destruct PR as [(-> & f & Hf & Vf)|(-> & h & Hh & A & Hn)]; [apply (IH _ _ H Gs')|].
          destruct (expand s steps p) as [more|e'] eqn:Em; cbn [bind] in H.
          -- apply (IH _ _ H). intros q Hq. apply in_app_iff in Hq. destruct Hq as [Hq|Hq]; [auto|]. apply (extend_good s hs cs fs steps p more q T Gp Em Hq).
          -- injection H as <-. right. apply (expand_err s hs cs fs steps p h e' T Gp Hh A Hn Em).
    - injection H as <-. right. apply (sets_err s hs cs fs steps _ e' O) in Es; [exact Es|]. intros n Hn. apply (root_keys s hs cs fs n O) in Hn. apply Hn.
  Qed.

  (** ** It ends *)
  Lemma nf_sat vals c : nf (sat_value vals c).
  Proof.
    induction c as [l|cs IH|cs IH] using cond_ind'; cbn [sat_value].
    - unfold lit_value. destruct (assoc (parent_name l) vals) as [[w|]|]; try (unfold nf; discriminate). destruct (l_test l) as [o v vv|vs vv]; [|apply nf_ok].
      destruct (is_ordinal (l_parent l)); [apply nf_bind; [apply nf_to_vector|intros; apply nf_ok]|]. destruct o; cbn; try apply nf_ok;
        (destruct (py_ltb _ _); [apply nf_ok|unfold nf; discriminate]).
    - rewrite Forall_forall in IH. apply nf_allM. exact IH.
    - rewrite Forall_forall in IH. clear -IH. induction cs as [|x cs IHc]; [apply nf_ok|]. cbn. apply nf_bind; [apply IH; simpl; auto|].
      intros [] _; [apply nf_ok|]. apply IHc. intros y Hy. apply IH. simpl. auto.
  Qed.
  Lemma nf_foldM {A B} (f : B -> A -> res B) l : (forall b a, nf (f b a)) -> forall b, nf (foldM f l b).
  Proof. intros H. induction l as [|x l IH]; intros b; [apply nf_ok|]. cbn. apply nf_bind; [apply H|]. intros; apply IH. Qed.
  Lemma nf_value_set s steps n : nf (value_set s steps n).
  Proof.
    unfold value_set. destruct (get_hp s n) as [h|]; [|unfold nf; discriminate]. assert (C : forall A (lo hi : A -> bool) a b l, nf (clamp_ends lo hi a b l)).
    { intros A lo hi a b l. unfold clamp_ends. destruct l; [unfold nf; discriminate|]. destruct (split_last _) as [[]|]; unfold nf; discriminate. }
    destruct (hp_kind h) as [ch w|sq|v|lo hi log ds|lo hi log ds]; try (unfold nf; discriminate);
      (destruct ds; try (unfold nf; discriminate)); (destruct (assoc (hp_name h) steps); [|unfold nf; discriminate]);
      (destruct (0 <=? z)%Z; cbn [bind]; [|unfold nf; discriminate]); (apply nf_bind; [apply C|intros; apply nf_ok]).
  Qed.
  Lemma nf_expand s steps p : nf (expand s steps p).
  Proof.
    unfold expand. apply nf_bind.
    - apply nf_foldM. intros b a. destruct (assoc a (d_nodes (s_dag s))); [|unfold nf; discriminate]. apply nf_foldM. intros b' a'. unfold try_child.
      destruct (_ || _)%bool; [apply nf_ok|]. destruct (assoc a' (parent_conditions_of s)); [|unfold nf; discriminate].
      apply nf_bind; [apply nf_mapM; intros; apply nf_sat|intros; apply nf_ok].
    - intros new _. apply nf_bind; [apply nf_mapM; intros; apply nf_value_set|]. intros sets _. destruct (negb _); cbn [bind]; unfold nf; discriminate.
  Qed.

  Lemma product_length {A} (sets : list (list A)) K : (forall st, In st sets -> length st <= K) -> length (product sets) <= Nat.pow K (length sets).
  Proof.
    induction sets as [|st sets IH]; intros H; [simpl; lia|]. cbn [product length Nat.pow].
    assert (I := IH (fun x Hx => H x (or_intror Hx))). assert (H1 := H st (or_introl eq_refl)). clear IH H.
    assert (Q : length (concat (map (fun v => map (cons v) (product sets)) st)) = length st * length (product sets)).
    { induction st as [|x st IH]; [reflexivity|]. simpl. rewrite app_length, map_length, IH by (simpl in H1; lia). reflexivity. }
    rewrite Q. apply Nat.mul_le_mono; assumption.
  Qed.

  (** the work that a point with [m] missing hyperparameters can cause *)
  Fixpoint work (B m : nat) : nat := match m with O => 1 | S m' => 1 + B * work B m' end.
  Lemma work_pos B m : 1 <= work B m.
  Proof. destruct m; simpl; lia. Qed.
  Lemma work_mono B m k : 1 <= B -> m <= k -> work B m <= work B k.
  Proof.
    intros HB H. induction H as [|k H IH]; [lia|]. simpl. assert (1 * work B k <= B * work B k) by (apply Nat.mul_le_mono_r; exact HB). lia.
  Qed.
  Definition todo_work (B n : nat) (todo : list point) : nat := fold_right (fun p a => work B (n - length p) + a) 0 todo.
  Lemma todo_work_app B n a b : todo_work B n (a ++ b) = todo_work B n a + todo_work B n b.
  Proof. induction a as [|x a IH]; [reflexivity|]. simpl. rewrite IH. lia. Qed.
  Lemma todo_work_bound B n w todo : (forall p, In p todo -> work B (n - length p) <= w) -> todo_work B n todo <= length todo * w.
  Proof. induction todo as [|p todo IH]; intros H; [simpl; lia|]. simpl. assert (H1 := H p (or_introl eq_refl)). specialize (IH (fun q Hq => H q (or_intror Hq))). lia. Qed.

  Definition slim (s : space) (p : point) : Prop := NoDup (map fst p) /\ incl (map fst p) (keys s).

  Lemma expand_slim s hs cs fs steps p more K : space_ok s hs cs fs -> slim s p -> 1 <= K ->
    (forall n st, value_set s steps n = Ok st -> length st <= K) -> expand s steps p = Ok more ->
    (forall q, In q more -> slim s q /\ length p < length q) /\ length more <= Nat.pow K (s_len s) /\ length p < s_len s.
  Proof.
    intros O [Nd Sub] HK Hsets H. assert (Ex := expand_ok _ _ _ _ H). destruct Ex as (new & sets & En & Hne & Fs & Hin).
    destruct (new_active_ok _ _ _ En) as (Nn & Na & _).
    assert (Kn : incl new (keys s)).
    { intros n Hn. destruct (Na n Hn) as (_ & _ & m & _ & Hc). apply (so_edge O) in Hc. apply (so_reads_keys O m n Hc). }
    assert (Ls := Forall2_length _ _ _ Fs).
    assert (All : NoDup (map fst p ++ new)) by (apply NoDup_join; [exact Nd|exact Nn|intros x Hx Hx'; apply (proj1 (Na x Hx') Hx)]).
    assert (AllIn : incl (map fst p ++ new) (keys s)) by (intros x Hx; apply in_app_iff in Hx; destruct Hx; [apply Sub|apply Kn]; assumption).
    assert (Len := NoDup_incl_length All AllIn). rewrite app_length, map_length, (so_keys_len O) in Len.
    assert (Pos : 1 <= length new) by (destruct new; [congruence|simpl; lia]). split; [|split; [|lia]].
    - intros q Hq. apply Hin in Hq. destruct Hq as (vs & Fv & ->). assert (Lv := Forall2_length _ _ _ Fv). unfold slim. rewrite map_app, combine_fst by congruence.
      split; [split; assumption|]. rewrite app_length, combine_length. lia.
    - unfold expand in H. rewrite En in H. cbn [bind] in H. apply mapM_ok in Fs. rewrite Fs in H. cbn [bind] in H.
      destruct (negb _); cbn [bind] in H; [|discriminate]. injection H as <-. unfold cartesian.
      assert (Q : forall sts, (forall st, In st sts -> length st <= K) -> length (product (map (fun e => [snd e]) p ++ sts)) <= Nat.pow K (length sts)).
      { intros sts Hst. clear -Hst. induction p as [|e p IH]; simpl; [apply product_length; exact Hst|]. rewrite app_nil_r, map_length. exact IH. }
      assert (Bd : length (product (map (fun e => [snd e]) p ++ sets)) <= Nat.pow K (s_len s)).
      { eapply Nat.le_trans; [apply Q|apply Nat.pow_le_mono_r; lia]. intros st Hst. apply mapM_ok in Fs. clear -Fs Hst Hsets.
        induction Fs as [|n st' ns sts Hn Fs IH]; [destruct Hst|]. destruct Hst as [<-|Hst]; [apply (Hsets n st' Hn)|auto]. }
      destruct (map (fun e => [snd e]) p ++ sets) as [|st sts] eqn:El; [simpl; lia|]. rewrite map_length. exact Bd.
  Qed.

  Lemma nf_grid_loop s hs cs fs steps K : space_ok s hs cs fs -> 1 <= K -> (forall n st, value_set s steps n = Ok st -> length st <= K) ->
    forall fuel todo done, (forall p, In p todo -> slim s p) -> todo_work (Nat.pow K (s_len s)) (s_len s) todo <= fuel -> nf (grid_loop fuel s steps todo done).
  Proof.
    intros O HK Hsets. set (B := Nat.pow K (s_len s)). assert (HB : 1 <= B) by (unfold B; assert (A := Nat.pow_nonzero K (s_len s)); lia).
    induction fuel as [|fuel IH]; intros todo done Sl Hw.
    - destruct todo as [|p todo]; [apply nf_ok|]. simpl in Hw. assert (A := work_pos B (s_len s - length p)). lia.
    - destruct todo as [|p todo]; [apply nf_ok|]. cbn [grid_loop]. assert (A := work_pos B (s_len s - length p)). cbn [todo_work fold_right] in Hw. fold (todo_work B (s_len s) todo) in Hw.
      assert (Sl' : forall q, In q todo -> slim s q) by (intros q Hq; apply Sl; simpl; auto).
      assert (N := nf_values s (some_values p) false). destruct (config_of_values s (some_values p) false) as [c|e]; [apply IH; [exact Sl'|lia]|].
      destruct e; try (unfold nf; discriminate); try (exfalso; apply N; reflexivity); [|apply IH; [exact Sl'|lia]].
      apply nf_bind; [apply nf_expand|]. intros more Hm.
      destruct (expand_slim s hs cs fs steps p more K O (Sl p (or_introl eq_refl)) HK Hsets Hm) as (E1 & E2 & E3). apply IH.
      + intros q Hq. apply in_app_iff in Hq. destruct Hq as [Hq|Hq]; [auto|apply (E1 q Hq)].
      + rewrite todo_work_app. assert (Wm : todo_work B (s_len s) more <= length more * work B (s_len s - length p - 1)).
        { apply todo_work_bound. intros q Hq. apply work_mono; [exact HB|]. destruct (E1 q Hq). lia. }
        assert (length more * work B (s_len s - length p - 1) <= B * work B (s_len s - length p - 1)) by (apply Nat.mul_le_mono_r; exact E2).
        assert (Wp : work B (s_len s - length p) = 1 + B * work B (s_len s - length p - 1)).
        { replace (s_len s - length p) with (S (s_len s - length p - 1)) at 1 by lia. reflexivity. }
        lia.
  Qed.

  Lemma sets_bounded s hs cs fs steps : space_ok s hs cs fs -> exists K, 1 <= K /\ forall n st, value_set s steps n = Ok st -> length st <= K.
  Proof.
    intros O. assert (G : forall l, exists K, 1 <= K /\ forall n st, In n l -> value_set s steps n = Ok st -> length st <= K).
    { induction l as [|n l (K & HK & H)]; [exists 1; split; [lia|intros n st []]|].
      exists (K + match value_set s steps n with Ok st => length st | Err _ => 0 end). split; [lia|]. intros m st [<-|Hm] Hs; [rewrite Hs; lia|].
      specialize (H m st Hm Hs). lia. }
    destruct (G (keys s)) as (K & HK & H). exists K. split; [exact HK|]. intros n st Hs. apply (H n st); [|exact Hs].
    unfold value_set in Hs. destruct (get_hp s n) as [h|] eqn:Eh; [|discriminate]. apply (so_get_hp O) in Eh. destruct Eh as [Hh <-].
    apply (Permutation_in _ (Permutation_sym (so_keys O))). apply in_map. exact Hh.
  Qed.

  Theorem C30_ends s hs cs fs steps : built s hs cs fs -> exists N, forall fuel, N <= fuel -> generate_grid fuel s steps <> Err OutOfFuel.
  Proof.
    intros B. assert (O := built_ok _ _ _ _ B). destruct (sets_bounded s hs cs fs steps O) as (K & HK & Hsets).
    destruct (mapM (value_set s steps) (unconditional_hyperparameters s)) as [sets|e] eqn:Es.
    - exists (todo_work (Nat.pow K (s_len s)) (s_len s) (cartesian sets (unconditional_hyperparameters s))). intros fuel Hf. unfold generate_grid. rewrite Es. cbn [bind].
      apply (nf_grid_loop s hs cs fs steps K O HK Hsets); [|exact Hf]. intros p Hp. assert (Ls := mapM_length _ _ _ Es).
      apply cartesian_in in Hp; [|congruence|intros ->; destruct Hp]. destruct Hp as (vs & Fv & ->). assert (Lv := Forall2_length _ _ _ Fv).
      unfold slim. rewrite combine_fst by congruence. split; [apply (roots_nodup s hs cs fs O)|]. intros n Hn. apply (so_root O n) in Hn. apply Hn.
    - exists 0. intros fuel _. unfold generate_grid. rewrite Es. cbn [bind]. intros [= ->]. assert (N := nf_mapM (value_set s steps) (unconditional_hyperparameters s) (nf_value_set s steps)).
      apply N. exact Es.
  Qed.

  (** with steps for every number, known kinds and no mixed conditions it returns *)
  Theorem C30_returns_partial s hs cs fs steps : tame s hs cs fs -> steady_grid steps hs ->
    (forall h, In h hs -> gridable h /\ stepped steps h) -> (forall k, In k cs -> ~ mixed cs k) ->
    exists N, forall fuel, N <= fuel -> exists l, generate_grid fuel s steps = Ok l.
  Proof.
    intros T S Hh Hk. destruct (C30_ends s hs cs fs steps (tm_built _ _ _ _ T)) as (N & HN). exists N. intros fuel Hf.
    destruct (generate_grid fuel s steps) as [l|e] eqn:Eg; [eauto|]. exfalso.
    destruct (C70_raises_partial s hs cs fs fuel steps e T S Eg) as [->|F]; [apply (HN fuel Hf Eg)|].
    destruct F as [h Hin K|h e Hin K _|k Hin K]; [apply K, (Hh h Hin)|apply K, (Hh h Hin)|apply (Hk k Hin K)].
  Qed.

  (** ** Each configuration is returned once *)
  Lemma fop_app {A} (R : A -> A -> Prop) a b : ForallOrdPairs R (a ++ b) <-> ForallOrdPairs R a /\ ForallOrdPairs R b /\ forall x y, In x a -> In y b -> R x y.
  Proof.
    induction a as [|x a IH]; simpl.
    - split; [intros H; split; [constructor|]; split; [exact H|intros x y []]|tauto].
    - split.
      + intros H. inversion H as [|? ? F H']; subst. apply IH in H'. destruct H' as (H1 & H2 & H3). rewrite Forall_forall in F. split; [|split; [exact H2|]].
        * constructor; [|exact H1]. rewrite Forall_forall. intros y Hy. apply F, in_app_iff. auto.
        * intros u y [<-|Hu] Hy; [apply F, in_app_iff; auto|auto].
      + intros (H1 & H2 & H3). inversion H1 as [|? ? F H']; subst. rewrite Forall_forall in F. constructor; [|apply IH; auto].
        rewrite Forall_forall. intros y Hy. apply in_app_iff in Hy. destruct Hy; [auto|apply H3; auto].
  Qed.
  Lemma fop_map {A B} (f : A -> B) (R : B -> B -> Prop) l : ForallOrdPairs (fun x y => R (f x) (f y)) l -> ForallOrdPairs R (map f l).
  Proof. induction 1 as [|x l F H IH]; simpl; constructor; [|exact IH]. rewrite Forall_forall in *. intros y Hy. apply in_map_iff in Hy. destruct Hy as (z & <- & Hz). auto. Qed.
  Lemma fop_weaken {A} (R R' : A -> A -> Prop) l : (forall x y, In x l -> In y l -> R x y -> R' x y) -> ForallOrdPairs R l -> ForallOrdPairs R' l.
  Proof.
    intros H F. induction F as [|x l Fx F IH]; constructor.
    - rewrite Forall_forall in *. intros y Hy. apply H; simpl; auto.
    - apply IH. intros y z Hy Hz. apply H; simpl; auto.
  Qed.
  Lemma fop_nth {A} (R : A -> A -> Prop) l i j x y : ForallOrdPairs R l -> i < j -> nth_error l i = Some x -> nth_error l j = Some y -> R x y.
  Proof.
    intros F. revert i j. induction F as [|a l Fa F IH]; intros i j Hij Hi Hj; [destruct i; discriminate|]. destruct j as [|j]; [lia|]. cbn in Hj.
    destruct i as [|i]; cbn in Hi; [|apply (IH i j); [lia|exact Hi|exact Hj]]. injection Hi as <-. rewrite Forall_forall in Fa. apply Fa. apply (nth_error_In _ _ Hj).
  Qed.

  Definition neq (u v : value) : Prop := py_eqb u v = false.
  Lemma no_dup_pairs l : has_dup l = false <-> ForallOrdPairs neq l.
  Proof.
    induction l as [|x l IH]; simpl; [split; [constructor|reflexivity]|]. rewrite orb_false_iff, IH. split.
    - intros [H1 H2]. constructor; [|exact H2]. rewrite Forall_forall. intros y Hy. unfold neq. destruct (py_eqb x y) eqn:Q; [|reflexivity].
      assert (py_in x l = true) by (apply py_in_iff; eauto). congruence.
    - intros H. inversion H as [|? ? F H']; subst. split; [|exact H']. destruct (py_in x l) eqn:Q; [|reflexivity]. apply py_in_iff in Q. destruct Q as (y & Hy & Q).
      rewrite Forall_forall in F. specialize (F y Hy). unfold neq in F. congruence.
  Qed.

  Lemma int_eq a b : py_eqb (VInt a) (VInt b) = true -> a = b.
  Proof. intros H. assert (Q : Qeq_bool (inject_Z a) (inject_Z b) = true) by exact H. apply Qeq_bool_iff in Q. apply (proj1 (inject_Z_injective a b)). exact Q. Qed.
  Lemma float_eq a b : py_eqb (VFloat a) (VFloat b) = true -> (a == b)%Q.
  Proof. intros H. assert (Q : Qeq_bool a b = true) by exact H. apply Qeq_bool_iff in Q. exact Q. Qed.

  Lemma grid_number_lt lo hi log num i j : bounds_ok lo hi log -> (0 <= i < j)%Z -> (j < num)%Z -> (grid_number lo hi log num i < grid_number lo hi log num j)%Q.
  Proof.
    intros B H Hj. rewrite !grid_number_raw. apply unit_raw_lt; [exact B|]. apply Qmult_lt_compat_r; [|rewrite <- Zlt_Qlt; lia].
    apply Qinv_lt_0_compat. change 0%Q with (inject_Z 0). rewrite <- Zlt_Qlt. lia.
  Qed.

  Lemma seq_pairs n : forall k, ForallOrdPairs (fun a b => k <= a /\ a < b /\ b < k + n) (seq k n).
  Proof.
    induction n as [|n IH]; intros k; simpl; constructor.
    - rewrite Forall_forall. intros y Hy. apply in_seq in Hy. lia.
    - eapply fop_weaken; [|apply (IH (S k))]. cbv beta. intros x y _ _ H. lia.
  Qed.
  Lemma grid_points_pairs lo hi log num (R : Q -> Q -> Prop) : (forall a a' b b', (a == a')%Q -> (b == b')%Q -> R a b -> R a' b') ->
    (forall i j, (0 <= i < j)%Z -> (j < num)%Z -> R (grid_number lo hi log num i) (grid_number lo hi log num j)) ->
    ForallOrdPairs R (grid_points lo hi log num).
  Proof.
    intros Rc H. assert (G : forall a b f, (forall i x, (x == spaced a b num i)%Q -> (f x == grid_number lo hi log num i)%Q) ->
      ForallOrdPairs R (map f (linspace a b num true))).
    { intros a b f Hf. unfold linspace. rewrite map_map. apply fop_map. eapply fop_weaken; [|apply (seq_pairs (Z.to_nat num) 0)]. cbv beta. intros x y _ _ Hxy.
      apply (Rc (grid_number lo hi log num (Z.of_nat x)) _ (grid_number lo hi log num (Z.of_nat y)) _); [| |apply H; lia];
        symmetry; apply Hf; unfold spaced, Qdiv; ring. }
    unfold grid_points. destruct log.
    - apply G. intros i x Q. unfold grid_number. apply fexp_comp. exact Q.
    - rewrite <- (map_id (linspace lo hi num true)). apply G. intros i x Q. exact Q.
  Qed.

  (** the points of an integer hyperparameter stay different when rounded to integers *)
  Definition int_distinct (steps : list (string * Z)) (h : hp) : Prop :=
    match hp_kind h with
    | KInt lo hi log _ => forall num i j, assoc (hp_name h) steps = Some num -> (0 <= i < j)%Z -> (j < num)%Z ->
        rint (grid_number (inject_Z lo) (inject_Z hi) log num i) <> rint (grid_number (inject_Z lo) (inject_Z hi) log num j)
    | _ => True
    end.

  Lemma value_set_distinct s steps n h l : get_hp s n = Some h -> constructed h -> int_distinct steps h -> value_set s steps n = Ok l -> has_dup l = false.
  Proof.
    intros Hg C D Hl. assert (W := constructed_wf h C). destruct (proj1 (value_set_ok s steps n h Hg C) l Hl) as (_ & Hst & _ & _).
    unfold value_set, int_distinct, wf_hp, stepped in *. rewrite Hg in Hl.
    destruct (hp_kind h) as [ch w|sq|v|lo hi log ds|lo hi log ds]; [injection Hl as <-; apply W|injection Hl as <-; apply W|injection Hl as <-; reflexivity| |];
      (destruct ds; [|discriminate..]); destruct Hst as (num & En & P); rewrite En in Hl; assert (E0 : (0 <=? num)%Z = true) by (apply Z.leb_le; lia); rewrite E0 in Hl; cbn [bind] in Hl.
    - destruct W as (W1 & W2 & _).
      assert (B : bounds_ok (inject_Z lo) (inject_Z hi) log) by (split; [rewrite <- Zlt_Qlt; exact W1|intros K; change 0%Q with (inject_Z 0); rewrite <- Zlt_Qlt; auto]).
      rewrite clamp_id in Hl; cbn [bind] in Hl.
      + injection Hl as <-. apply no_dup_pairs. apply fop_map, fop_map. apply grid_points_pairs.
        * intros a a' b b' Qa Qb. rewrite (rint_proper _ _ Qa), (rint_proper _ _ Qb). auto.
        * intros i j Hi Hj. specialize (D num i j En Hi Hj). unfold neq. destruct (py_eqb _ _) eqn:Q; [|reflexivity]. exfalso. apply D. apply int_eq. exact Q.
      + intros K. apply map_eq_nil in K. apply (grid_points_nonempty _ _ _ _ P K).
      + intros x Hx. apply in_map_iff in Hx. destruct Hx as (q & <- & Hq). apply grid_points_in in Hq. destruct Hq as (i & Hi & Q).
        destruct (grid_number_range _ _ log num i B Hi) as [R1 R2]. rewrite <- Q in R1, R2. assert (R := rint_bounds lo hi q R1 R2). split; apply Z.ltb_ge; lia.
    - destruct W as (B & _). rewrite clamp_id in Hl; cbn [bind] in Hl.
      + injection Hl as <-. apply no_dup_pairs. apply fop_map. apply (fop_weaken (fun x y => (x < y)%Q)).
        * intros x y _ _ Lt. unfold neq. destruct (py_eqb _ _) eqn:Q; [|reflexivity]. apply float_eq in Q. rewrite Q in Lt. exfalso. apply (Qlt_irrefl _ Lt).
        * apply grid_points_pairs; [intros a a' b b' Qa Qb; rewrite Qa, Qb; auto|]. intros i j Hi Hj. apply grid_number_lt; assumption.
      + apply (grid_points_nonempty _ _ _ _ P).
      + intros q Hq. apply grid_points_in in Hq. destruct Hq as (i & Hi & Q). destruct (grid_number_range _ _ log num i B Hi) as [R1 R2]. rewrite <- Q in R1, R2.
        split; apply Qltb_no; assumption.
  Qed.

  (** two points that differ in a value *)
  Definition clash (p q : point) : Prop := exists n u v, pd p n = Some u /\ pd q n = Some v /\ neq u v.

  Lemma product_clash names : forall sets (p : point), length names = length sets -> NoDup names -> (forall st, In st sets -> has_dup st = false) ->
    (forall n, In n names -> assoc n p = None) -> ForallOrdPairs (fun vs ws => clash (p ++ combine names vs) (p ++ combine names ws)) (product sets).
  Proof.
    induction names as [|n names IH]; intros [|st sets] p Hl Nd Hd Hn; simpl in Hl; try discriminate; [repeat constructor|].
    inversion Nd as [|? ? Nn Nd']; subst. injection Hl as Hl. cbn [product].
    assert (St : ForallOrdPairs neq st) by (apply no_dup_pairs, Hd; simpl; auto).
    assert (Tail : forall v, ForallOrdPairs (fun vs ws => clash (p ++ combine (n :: names) (v :: vs)) (p ++ combine (n :: names) (v :: ws))) (product sets)).
    { intros v. assert (I := IH sets (p ++ [(n, v)]) Hl Nd' (fun x Hx => Hd x (or_intror Hx))). cbn [combine].
      apply (fop_weaken (fun vs ws => clash ((p ++ [(n, v)]) ++ combine names vs) ((p ++ [(n, v)]) ++ combine names ws))).
      - intros vs ws _ _. rewrite <- !app_assoc. auto.
      - apply I. intros m Hm. rewrite assoc_app, (Hn m (or_intror Hm)). simpl. destruct (String.eqb m n) eqn:Q; [|reflexivity]. apply String.eqb_eq in Q. subst. tauto. }
    clear IH Hd. induction St as [|v st Fv St IHs]; [constructor|]. simpl. apply fop_app. split; [apply fop_map, Tail|]. split; [exact IHs|].
    intros x y Hx Hy. apply in_map_iff in Hx. destruct Hx as (vs & <- & _). apply in_concat in Hy. destruct Hy as (z & Hz & Hy).
    apply in_map_iff in Hz. destruct Hz as (w & <- & Hw). apply in_map_iff in Hy. destruct Hy as (ws & <- & _).
    exists n, v, w. rewrite Forall_forall in Fv. unfold pd. rewrite !assoc_app, (Hn n (or_introl eq_refl)). simpl. rewrite String.eqb_refl.
    split; [reflexivity|]. split; [reflexivity|]. apply Fv. exact Hw.
  Qed.

  Lemma clash_extend p q (a b : point) : clash p q -> clash (p ++ a) (q ++ b).
  Proof. intros (n & u & v & Hu & Hv & N). exists n, u, v. unfold pd in *. rewrite !assoc_app, Hu, Hv. auto. Qed.
  Lemma clash_right p q (b : point) : clash p q -> clash p (q ++ b).
  Proof. intros H. rewrite <- (app_nil_r p). apply clash_extend. exact H. Qed.
  Lemma clash_left p q (a : point) : clash p q -> clash (p ++ a) q.
  Proof. intros H. rewrite <- (app_nil_r q). apply clash_extend. exact H. Qed.
  Lemma clash_sym p q : clash p q -> clash q p.
  Proof. intros (n & u & v & Hu & Hv & N). exists n, v, u. unfold neq in *. rewrite py_eqb_sym. auto. Qed.

  Lemma sets_distinct s hs cs fs steps names sets : space_ok s hs cs fs -> (forall h, In h hs -> int_distinct steps h) ->
    Forall2 (fun n set => value_set s steps n = Ok set) names sets -> forall st, In st sets -> has_dup st = false.
  Proof.
    intros O D F. induction F as [|n set names sets Hs F IH]; intros st [<-|Hst] || intros st []; [|auto].
    destruct (get_hp s n) as [h|] eqn:Eh; [|unfold value_set in Hs; rewrite Eh in Hs; discriminate]. assert (Eh' := Eh). apply (so_get_hp O) in Eh'. destruct Eh' as [Hh Hn].
    apply (value_set_distinct s steps n h set Eh (so_constructed O h Hh) (D h Hh) Hs).
  Qed.

  Lemma expand_clash s hs cs fs steps p more : space_ok s hs cs fs -> (forall h, In h hs -> int_distinct steps h) -> expand s steps p = Ok more ->
    ForallOrdPairs clash more /\ (forall q x, In q more -> clash x p -> clash x q).
  Proof.
    intros O D H. assert (Ex := expand_ok _ _ _ _ H). destruct Ex as (new & sets & En & Hne & Fs & Hin). destruct (new_active_ok _ _ _ En) as (Nn & Na & _).
    split; [|intros q x Hq Hc; apply Hin in Hq; destruct Hq as (vs & _ & ->); apply clash_right; exact Hc].
    assert (Ds := sets_distinct s hs cs fs steps new sets O D Fs). assert (Ls := Forall2_length _ _ _ Fs).
    unfold expand in H. rewrite En in H. cbn [bind] in H. assert (Fs' := Fs). apply mapM_ok in Fs'. rewrite Fs' in H. cbn [bind] in H.
    destruct (negb _); cbn [bind] in H; [|discriminate]. injection H as <-.
    assert (Q : cartesian (map (fun e => [snd e]) p ++ sets) (map fst p ++ new) = map (fun vs => p ++ combine new vs) (product sets)).
    { unfold cartesian. destruct (map (fun e => [snd e]) p ++ sets) as [|st sts] eqn:El.
      - apply app_eq_nil in El. destruct El as [_ ->]. destruct new; [congruence|discriminate].
      - rewrite <- El. clear. induction p as [|[n v] p IH]; [reflexivity|]. cbn [map app product fst snd]. cbn [concat]. rewrite app_nil_r, map_map.
        cbn [combine]. rewrite <- map_map with (g := cons (n, v)) in IH || idtac.
        transitivity (map (cons (n, v)) (map (combine (map fst p ++ new)) (product (map (fun e => [snd e]) p ++ sets)))).
        + rewrite map_map. reflexivity.
        + rewrite IH, map_map. reflexivity. }
    rewrite Q. apply fop_map. apply product_clash; auto. intros n Hn. destruct (assoc n p) as [u|] eqn:Eu; [|reflexivity]. exfalso.
    apply (proj1 (Na n Hn)). apply assoc_Some_key. eauto.
  Qed.

  Lemma carry_clash s hs cs fs steps p q c c' d : space_ok s hs cs fs -> good hs cs steps p -> clash p q ->
    represents s hs c (pd p) -> represents s hs c' (pd q) -> represents s hs c d -> represents s hs c' d -> False.
  Proof.
    intros O G (n & u & v & Hu & Hv & N) [_ R1] [_ R2] [_ R3] [_ R4].
    assert (Hn : In n (map hp_name hs)) by (apply (g_keys _ _ _ _ G); apply assoc_Some_key; eauto). apply in_map_iff in Hn. destruct Hn as (h & <- & Hh).
    specialize (R1 h Hh). specialize (R2 h Hh). specialize (R3 h Hh). specialize (R4 h Hh). rewrite Hu in R1. rewrite Hv in R2.
    destruct R1 as (L1 & x1 & X1 & F1). destruct R2 as (L2 & x2 & X2 & F2). destruct (legal_finite h u (so_constructed O h Hh) L1) as (q1 & Q1). rewrite Q1 in X1. injection X1 as <-.
    destruct (d (hp_name h)) as [w|].
    - destruct R3 as (Lw & y & Y & F3). destruct R4 as (_ & y' & Y' & F4). assert (y' = y) by congruence. subst y'.
      assert (S : fsame (Fin q1) x2) by (apply (fsame_trans _ _ _ (fsame_sym _ _ F1)), (fsame_trans _ _ _ F3), (fsame_trans _ _ _ (fsame_sym _ _ F4)), F2).
      assert (V := vec_eq h u v (Fin q1) x2 (so_constructed O h Hh) L1 L2 Q1 X2). unfold neq in N. rewrite N in V.
      destruct x2; try contradiction. cbn in V, S. apply Qeq_bool_iff in S. congruence.
    - rewrite R3 in F1. contradiction.
  Qed.

  (** no assignment is represented by two of the configurations returned *)
  Theorem C71_once_partial s hs cs fs fuel steps l d i j c c' : tame s hs cs fs -> steady_grid steps hs -> (forall h, In h hs -> int_distinct steps h) ->
    generate_grid fuel s steps = Ok l -> nth_error l i = Some c -> nth_error l j = Some c' -> represents s hs c d -> represents s hs c' d -> i = j.
  Proof.
    intros T S D H Hi Hj Ri Rj. assert (O := built_ok _ _ _ _ (tm_built _ _ _ _ T)). unfold generate_grid in H.
    destruct (mapM (value_set s steps) (unconditional_hyperparameters s)) as [sets|e'] eqn:Es; cbn [bind] in H; [|discriminate].
    assert (Main : forall fuel todo done pts l, grid_loop fuel s steps todo done = Ok l -> (forall p, In p todo -> good hs cs steps p) ->
      Forall2 (fun c p => represents s hs c (pd p) /\ good hs cs steps p) done pts -> ForallOrdPairs clash (pts ++ todo) ->
      exists pts, Forall2 (fun c p => represents s hs c (pd p) /\ good hs cs steps p) l pts /\ ForallOrdPairs clash pts).
    { clear H Hi Hj fuel l. induction fuel as [|fuel IH]; intros todo done pts l H Gs F P.
      - destruct todo; [|discriminate]. cbn in H. injection H as <-. rewrite app_nil_r in P. eauto.
      - destruct todo as [|p todo]; [cbn in H; injection H as <-; rewrite app_nil_r in P; eauto|]. cbn [grid_loop] in H.
        assert (Gp := Gs p (or_introl eq_refl)). assert (Gs' : forall q, In q todo -> good hs cs steps q) by (intros q Hq; apply Gs; simpl; auto).
        assert (Pd : ForallOrdPairs clash (pts ++ todo) /\ (forall x, In x (pts ++ todo) -> clash x p)).
        { apply fop_app in P. destruct P as (P1 & P2 & P3). inversion P2 as [|? ? Pf P2']; subst. rewrite Forall_forall in Pf. split.
          - apply fop_app. split; [exact P1|]. split; [exact P2'|]. intros x y Hx Hy. apply P3; simpl; auto.
          - intros x Hx. apply in_app_iff in Hx. destruct Hx as [Hx|Hx]; [apply P3; simpl; auto|]. apply clash_sym. auto. }
        assert (PR := point_result s hs cs fs steps p T S Gp). destruct (config_of_values s (some_values p) false) as [c0|e'].
        + destruct PR as [[Rep _] _]. apply (IH todo (done ++ [c0]) (pts ++ [p]) l H Gs').
          * apply Forall2_app; [exact F|]. constructor; [auto|constructor].
          * rewrite <- app_assoc. exact P.
        + destruct PR as [(-> & f & Hf & Vf)|(-> & h & Hh & A & Hn)]; [apply (IH todo done pts l H Gs' F (proj1 Pd))|].
          destruct (expand s steps p) as [more|e'] eqn:Em; cbn [bind] in H; [|discriminate].
          destruct (expand_clash s hs cs fs steps p more O D Em) as [C1 C2].
          apply (IH (todo ++ more) done pts l H).
          * intros q Hq. apply in_app_iff in Hq. destruct Hq as [Hq|Hq]; [auto|]. apply (extend_good s hs cs fs steps p more q T Gp Em Hq).
          * exact F.
          * rewrite app_assoc. apply fop_app. split; [apply Pd|]. split; [exact C1|]. intros x q Hx Hq. apply (C2 q x Hq). apply Pd. exact Hx. }
    assert (Start : ForallOrdPairs clash (cartesian sets (unconditional_hyperparameters s))).
    { assert (Ls := mapM_length _ _ _ Es). assert (Es' := Es). apply mapM_ok in Es'. unfold cartesian. destruct sets as [|st sets]; [constructor|]. apply fop_map.
      apply (product_clash (unconditional_hyperparameters s) (st :: sets) []); [congruence|apply (roots_nodup s hs cs fs O)|apply (sets_distinct s hs cs fs steps _ _ O D Es')|reflexivity]. }
    destruct (Main fuel _ [] [] l H (fun q => start_good s hs cs fs steps sets q T Es) (Forall2_nil _) Start) as (pts & F & P).
    assert (Look : forall k x, nth_error l k = Some x -> exists p, nth_error pts k = Some p /\ represents s hs x (pd p) /\ good hs cs steps p).
    { clear -F. induction F as [|x p l pts Hx F IH]; intros k y Hk; [destruct k; discriminate|]. destruct k as [|k]; cbn in *; [injection Hk as <-; eauto|apply (IH k y Hk)]. }
    destruct (Look i c Hi) as (p & Hp & Rp & Gp). destruct (Look j c' Hj) as (q & Hq & Rq & Gq).
    destruct (Nat.lt_trichotomy i j) as [Lt|[Eq|Lt]]; [|exact Eq|]; exfalso.
    - apply (carry_clash s hs cs fs steps p q c c' d O Gp (fop_nth _ _ _ _ _ _ P Lt Hp Hq) Rp Rq Ri Rj).
    - apply (carry_clash s hs cs fs steps q p c' c d O Gq (fop_nth _ _ _ _ _ _ P Lt Hq Hp) Rq Rp Rj Ri).
  Qed.
End Grid.

Section Witness.
  #[local] Existing Instance rat_env.

  (** ** A small space: i depends on r, z on i; f = 0.5 and r = 0 is forbidden *)
  Definition gF := get_or dummy_hp (mk_uniform_float "f" 0 1 None false None).
  Definition gI := get_or dummy_hp (mk_uniform_int "i" 1 9 None false None).
  Definition gIR := get_or dummy_cond (mk_bin OpEq gI (bin "r") (VStr "1")).
  Definition gZI := get_or dummy_cond (mk_bin OpGt (bin "z") gI (VInt 4)).
  Definition gF1 := get_or dummy_forb (mk_feq gF (VFloat (1#2))).
  Definition gF2 := get_or dummy_forb (mk_feq (bin "r") (VStr "0")).
  Definition gFA := get_or dummy_forb (mk_fand [gF1; gF2]).
  Definition g_hps := [bin "r"; gF; gI; bin "z"].
  Definition g_space := fst (add empty_space g_hps [gIR; gZI] [gFA]).
  Definition g_steps : list (string * Z) := [("f"%string, 3%Z); ("i"%string, 3%Z)].
  Lemma gF_c : constructed gF.
  Proof. apply (CtorUFloat "f" 0 1 None false None gF). vm_compute. reflexivity. Qed.
  Lemma gI_c : constructed gI.
  Proof. apply (CtorUInt "i" 1 9 None false None gI). vm_compute. reflexivity. Qed.
  Lemma g_built : built g_space g_hps [gIR; gZI] [gFA].
  Proof.
    apply (built_step empty_space [] [] [] g_hps [gIR; gZI] [gFA] built_empty); [| | |vm_compute; reflexivity].
    - constructor; [apply bin_c|]. constructor; [apply gF_c|]. constructor; [apply gI_c|]. constructor; [apply bin_c|constructor].
    - constructor; [apply (CB_bin OpEq gI (bin "r") (VStr "1") gIR gI_c (bin_c _)); vm_compute; reflexivity|].
      constructor; [|constructor]. apply (CB_bin OpGt (bin "z") gI (VInt 4) gZI (bin_c _) gI_c); vm_compute; reflexivity.
    - constructor; [|constructor]. apply (FB_and [gF1; gF2] gFA); [|vm_compute; reflexivity]. intros x [<-|[<-|[]]].
      + apply (FB_eq gF (VFloat (1#2)) gF1 gF_c); vm_compute; reflexivity.
      + apply (FB_eq (bin "r") (VStr "0") gF2 (bin_c _)); vm_compute; reflexivity.
  Qed.
  Lemma g_tame : tame g_space g_hps [gIR; gZI] [gFA].
  Proof.
    constructor; [apply g_built| | | |].
    - split.
      + intros c [<-|[<-|[]]] l Hl; vm_compute in Hl; destruct Hl as [<-|[]]; split; vm_compute; tauto.
      + intros f [<-|[]] h Hh. vm_compute in Hh. destruct Hh as [<-|[<-|[]]]; vm_compute; tauto.
    - intros c d v [<-|[<-|[]]] [<-|[<-|[]]] H; first [reflexivity | exfalso; clear -H; vm_compute in H; discriminate H].
    - intros c l w vv [<-|[<-|[]]] Hl Ht; vm_compute in Hl; destruct Hl as [<-|[]]; exfalso; clear -Ht; vm_compute in Ht; discriminate Ht.
    - intros f [<-|[]] r a b Hr. vm_compute in Hr. destruct Hr as [Hr|[Hr|[]]]; discriminate Hr.
  Qed.

  (** a float value is kept by rounding if an equal number is *)
  Lemma float_steady h lo hi log ds q q0 : hp_kind h = KFloat lo hi log ds -> (q == q0)%Q -> round13 q0 == q0 -> py_eqb (round_value h (VFloat q)) (VFloat q) = true.
  Proof.
    intros K Q R. unfold round_value. rewrite K. cbn [num_of]. unfold py_eqb. cbn [num_of]. apply Qeq_bool_iff. rewrite Q. exact R.
  Qed.
  Lemma three i : (0 <= i < 3 -> i = 0 \/ i = 1 \/ i = 2)%Z.
  Proof. lia. Qed.
  Lemma gF_kind : hp_kind gF = KFloat (round13 0) (round13 1) false DUniform.
  Proof. vm_compute. reflexivity. Qed.
  Lemma gI_kind : hp_kind gI = KInt 1 9 false DUniform.
  Proof. vm_compute. reflexivity. Qed.
  Lemma int_steady steps h lo hi log ds g : hp_kind h = KInt lo hi log ds -> grid_value steps h g -> py_eqb (round_value h g) g = true.
  Proof.
    intros K Hg. unfold grid_value in Hg. rewrite K in Hg. destruct Hg as (num & i & _ & _ & ->). unfold round_value. rewrite K. apply py_eqb_refl.
  Qed.
  Lemma g_steady : steady_grid g_steps g_hps.
  Proof.
    intros h g [<-|[<-|[<-|[<-|[]]]]] Hg.
    - vm_compute in Hg. destruct Hg as [<-|[<-|[]]]; reflexivity.
    - unfold grid_value in Hg. rewrite gF_kind in Hg. destruct Hg as (num & i & q & Hn & Hi & -> & Q). vm_compute in Hn. injection Hn as <-.
      apply (float_steady gF (round13 0) (round13 1) false DUniform _ _ gF_kind Q). destruct (three i Hi) as [->|[->| ->]]; vm_compute; reflexivity.
    - apply (int_steady g_steps gI 1 9 false DUniform g gI_kind Hg).
    - vm_compute in Hg. destruct Hg as [<-|[<-|[]]]; reflexivity.
  Qed.
  Lemma g_ready : forall h, In h g_hps -> gridable h /\ stepped g_steps h.
  Proof.
    intros h [<-|[<-|[<-|[<-|[]]]]]; (split; [vm_compute; exact I|]); [exact I| | |exact I]; unfold stepped; [rewrite gF_kind|rewrite gI_kind]; exists 3%Z; split; vm_compute; reflexivity.
  Qed.
  Lemma g_plain : forall k, In k [gIR; gZI] -> ~ mixed [gIR; gZI] k.
  Proof. intros k [<-|[<-|[]]] (m & m' & Hm & Hm' & N & _); vm_compute in Hm, Hm'; destruct Hm as [<-|[]], Hm' as [<-|[]]; congruence. Qed.
  Lemma g_distinct : forall h, In h g_hps -> int_distinct g_steps h.
  Proof.
    intros h [<-|[<-|[<-|[<-|[]]]]]; try exact I. unfold int_distinct. rewrite gI_kind. intros num i j Hn Hi Hj. vm_compute in Hn. injection Hn as <-.
    assert (K : (i = 0 /\ j = 1 \/ i = 0 /\ j = 2 \/ i = 1 /\ j = 2)%Z) by lia. destruct K as [[-> ->]|[[-> ->]|[-> ->]]]; vm_compute; discriminate.
  Qed.
  Definition g_list := match generate_grid 100 g_space g_steps with Ok l => l | Err _ => [] end.
  Lemma g_ok : generate_grid 100 g_space g_steps = Ok g_list /\ length g_list = 17.
  Proof. unfold g_list. vm_compute. auto. Qed.

  (** the third configuration: r = 1, f = 0.5, i = 1 *)
  Definition g_vals : list (string * option value) := [("r", Some (VStr "1")); ("f", Some (VFloat (1#2))); ("i", Some (VInt 1))]%string.
  Definition g_config := get_or (mk_config [] None false) (config_of_values g_space g_vals false).
  Lemma g_config_ok : config_of_values g_space g_vals false = Ok g_config.
  Proof. vm_compute. reflexivity. Qed.
  Lemma g_nodup : NoDup (map hp_name g_hps).
  Proof. assert (LA := rat_env_laws). exact (so_names_nodup (built_ok _ _ _ _ g_built)). Qed.
  Lemma g_exact : exact_all g_hps (given g_vals).
  Proof.
    intros h w [<-|[<-|[<-|[<-|[]]]]] Hw; try exact I. vm_compute in Hw. injection Hw as <-. exists 1%Q, 1%Z. split; reflexivity.
  Qed.
  Lemma g_valid : valid g_hps [gIR; gZI] [gFA] (store g_hps (given g_vals)) /\ represents g_space g_hps g_config (store g_hps (given g_vals)).
  Proof.
    assert (LA := rat_env_laws). assert (St := store_stored g_hps (given g_vals) g_nodup). split.
    - apply (C17_accepts_valid_partial g_space g_hps [gIR; gZI] [gFA] g_vals _ g_tame St g_exact). exists g_config. exact g_config_ok.
    - exact (C20_start _ _ _ _ _ _ _ _ g_built St g_config_ok).
  Qed.
  Lemma g_on_grid : on_grid g_steps g_hps (store g_hps (given g_vals)).
  Proof.
    intros h u [<-|[<-|[<-|[<-|[]]]]] Hu; vm_compute in Hu; try discriminate Hu; injection Hu as <-.
    - exists (VStr "1"). split; [vm_compute; tauto|reflexivity].
    - exists (VFloat (1#2)). split; [|vm_compute; reflexivity]. unfold grid_value. rewrite gF_kind. exists 3%Z, 1%Z, (1#2). split; [reflexivity|]. split; [lia|]. split; [reflexivity|]. vm_compute. reflexivity.
    - exists (VInt 1). split; [|vm_compute; reflexivity]. unfold grid_value. rewrite gI_kind. exists 3%Z, 0%Z. split; [reflexivity|]. split; [lia|]. vm_compute. reflexivity.
  Qed.

  Example C29_case : tame g_space g_hps [gIR; gZI] [gFA] /\ (exists l, generate_grid 100 g_space g_steps = Ok l /\ length l = 17) /\
    exists c d, In c g_list /\ carries g_space g_hps c d /\ valid g_hps [gIR; gZI] [gFA] d /\ on_grid g_steps g_hps d.
  Proof.
    assert (LA := rat_env_laws). split; [exact g_tame|]. split; [exists g_list; exact g_ok|].
    destruct g_list as [|c l] eqn:Eg; [destruct g_ok as [_ K]; rewrite Eg in K; discriminate K|]. exists c.
    destruct (C29_sound_partial g_space g_hps _ _ 100 g_steps g_list c g_tame (proj1 g_ok)) as (d & K); [rewrite Eg; left; reflexivity|]. exists d. split; [left; reflexivity|exact K].
  Qed.
  Example C30_case : tame g_space g_hps [gIR; gZI] [gFA] /\ steady_grid g_steps g_hps /\ generate_grid 100 g_space g_steps = Ok g_list /\
    valid g_hps [gIR; gZI] [gFA] (store g_hps (given g_vals)) /\ on_grid g_steps g_hps (store g_hps (given g_vals)) /\
    (exists c, In c g_list /\ represents g_space g_hps c (store g_hps (given g_vals))) /\
    (forall h, In h g_hps -> gridable h /\ stepped g_steps h) /\ (forall k, In k [gIR; gZI] -> ~ mixed [gIR; gZI] k).
  Proof.
    assert (LA := rat_env_laws). split; [exact g_tame|]. split; [exact g_steady|]. split; [exact (proj1 g_ok)|]. split; [apply g_valid|]. split; [exact g_on_grid|].
    split; [|split; [exact g_ready|exact g_plain]].
    apply (C30_complete_partial g_space g_hps [gIR; gZI] [gFA] 100 g_steps g_list _ g_tame ltac:(discriminate) g_steady (proj1 g_ok) (proj1 g_valid) g_on_grid).
  Qed.
  Example C71_case : (forall h, In h g_hps -> int_distinct g_steps h) /\ forall i j c c', nth_error g_list i = Some c -> nth_error g_list j = Some c' ->
    represents g_space g_hps c (store g_hps (given g_vals)) -> represents g_space g_hps c' (store g_hps (given g_vals)) -> i = j.
  Proof.
    assert (LA := rat_env_laws). split; [exact g_distinct|]. intros i j c c'. apply (C71_once_partial g_space g_hps [gIR; gZI] [gFA] 100 g_steps g_list _ i j c c' g_tame g_steady g_distinct (proj1 g_ok)).
  Qed.

  (** ** Errors: no steps for f, no steps at all, and none of the kinds *)
  Example C70_case : tame g_space g_hps [gIR; gZI] [gFA] /\ generate_grid 100 g_space [("i"%string, 3%Z)] = Err ValueError /\
    generate_grid 100 g_space [("f"%string, 0%Z); ("i"%string, 3%Z)] = Err IndexError.
  Proof. split; [exact g_tame|]. split; vm_compute; reflexivity. Qed.

  (** ** C30 is false: z depends on y and q, and y may be inactive *)
  Lemma bin_steady steps : steady_grid steps bin_hps.
  Proof. intros h g Hh Hg. repeat (destruct Hh as [<-|Hh]; [vm_compute in Hg; destruct Hg as [<-|[<-|[]]]; reflexivity|]). destruct Hh. Qed.
  Theorem C30_refuted : exists s hs cs fs steps d, tame s hs cs fs /\ steady_grid steps hs /\ (forall h, In h hs -> gridable h /\ stepped steps h) /\
    valid hs cs fs d /\ on_grid steps hs d /\ forall fuel, 5 <= fuel -> generate_grid fuel s steps = Err KeyError.
  Proof.
    assert (LA := rat_env_laws). assert (St := store_stored bin_hps (given deep_vals) bin_nodup).
    exists deep_space, bin_hps, deep_conds, [], [], (store bin_hps (given deep_vals)). split; [exact deep_tame|]. split; [apply bin_steady|].
    split; [intros h Hh; repeat (destruct Hh as [<-|Hh]; [split; exact I|]); destruct Hh|].
    split; [apply (C17_accepts_valid_partial deep_space bin_hps deep_conds [] deep_vals _ deep_tame St (bin_exact _)); exists deep_config; exact deep_ok|].
    split.
    - intros h u Hh Hu. repeat (destruct Hh as [<-|Hh]; [vm_compute in Hu; injection Hu as <-; exists (VStr "1"); split; [vm_compute; tauto|reflexivity]|]). destruct Hh.
    - intros fuel Hf. do 5 (destruct fuel as [|fuel]; [lia|]). vm_compute. reflexivity.
  Qed.

  (** ** C70 is false: the point f = 1/3 becomes 0.3333333333333 in the configuration, which makes z active *)
  Definition gZF := get_or dummy_cond (mk_bin OpEq (bin "z") gF (VFloat (round13 (1#3)))).
  Definition r_space := fst (add empty_space [gF; bin "z"] [gZF] []).
  Lemma r_built : built r_space [gF; bin "z"] [gZF] [].
  Proof.
    apply (built_step empty_space [] [] [] [gF; bin "z"] [gZF] [] built_empty); [| | |vm_compute; reflexivity].
    - constructor; [apply gF_c|]. constructor; [apply bin_c|constructor].
    - constructor; [|constructor]. apply (CB_bin OpEq (bin "z") gF (VFloat (round13 (1#3))) gZF (bin_c _) gF_c); vm_compute; reflexivity.
    - constructor.
  Qed.
  Lemma r_tame : tame r_space [gF; bin "z"] [gZF] [].
  Proof.
    constructor; [apply r_built| | | |intros f []].
    - split; [|intros f []]. intros c [<-|[]] l Hl; vm_compute in Hl; destruct Hl as [<-|[]]; split; vm_compute; tauto.
    - intros c d v [<-|[]] [<-|[]] H; reflexivity.
    - intros c l w vv [<-|[]] Hl Ht; vm_compute in Hl; destruct Hl as [<-|[]]; exfalso; clear -Ht; vm_compute in Ht; discriminate Ht.
  Qed.
  Theorem C70_refuted : exists s hs cs fs steps, tame s hs cs fs /\ (forall h, In h hs -> gridable h /\ stepped steps h) /\
    (forall k, In k cs -> ~ mixed cs k) /\ forall fuel, 5 <= fuel -> generate_grid fuel s steps = Err RuntimeError.
  Proof.
    exists r_space, [gF; bin "z"], [gZF], [], [("f"%string, 4%Z)]. split; [exact r_tame|].
    split; [intros h [<-|[<-|[]]]; (split; [vm_compute; exact I|]); [unfold stepped; rewrite gF_kind; exists 4%Z; split; vm_compute; reflexivity|exact I]|].
    split; [intros k [<-|[]] (m & m' & Hm & Hm' & N & _); vm_compute in Hm, Hm'; destruct Hm as [<-|[]], Hm' as [<-|[]]; congruence|].
    intros fuel Hf. do 5 (destruct fuel as [|fuel]; [lia|]). vm_compute. reflexivity.
  Qed.

  (** ** C71 is false: five points of an integer in 1..3 *)
  Definition gJ := get_or dummy_hp (mk_uniform_int "j" 1 3 None false None).
  Lemma gJ_kind : hp_kind gJ = KInt 1 3 false DUniform.
  Proof. vm_compute. reflexivity. Qed.
  Definition j_space := fst (add empty_space [gJ] [] []).
  Lemma j_built : built j_space [gJ] [] [].
  Proof.
    apply (built_step empty_space [] [] [] [gJ] [] [] built_empty); [|constructor|constructor|vm_compute; reflexivity].
    constructor; [apply (CtorUInt "j" 1 3 None false None gJ); vm_compute; reflexivity|constructor].
  Qed.
  Definition j_grid := match generate_grid 10 j_space [("j"%string, 5%Z)] with Ok l => l | Err _ => [] end.
  Theorem C71_refuted : exists s hs cs fs fuel steps l d i j c c', tame s hs cs fs /\ steady_grid steps hs /\ (forall h, In h hs -> gridable h /\ stepped steps h) /\
    generate_grid fuel s steps = Ok l /\ nth_error l i = Some c /\ nth_error l j = Some c' /\ represents s hs c d /\ represents s hs c' d /\ i <> j.
  Proof.
    assert (LA := rat_env_laws). assert (ND : NoDup (map hp_name [gJ])) by exact (so_names_nodup (built_ok _ _ _ _ j_built)).
    assert (St := store_stored [gJ] (given [("j"%string, Some (VInt 2))]) ND).
    set (c := get_or (mk_config [] None false) (config_of_values j_space [("j"%string, Some (VInt 2))] false)).
    assert (Rc : represents j_space [gJ] c (store [gJ] (given [("j"%string, Some (VInt 2))]))).
    { apply (C20_start j_space [gJ] [] [] [("j"%string, Some (VInt 2))] _ false c j_built St). vm_compute. reflexivity. }
    exists j_space, [gJ], [], [], 10, [("j"%string, 5%Z)], j_grid, (store [gJ] (given [("j"%string, Some (VInt 2))])), 1, 2, c, c.
    split; [constructor; [exact j_built|split; intros x []|intros x y v []|intros x l w vv []|intros f []]|].
    split.
    { intros h g [<-|[]] Hg. apply (int_steady _ gJ 1 3 false DUniform g gJ_kind Hg). }
    split; [intros h [<-|[]]; split; [vm_compute; exact I|]; unfold stepped; rewrite gJ_kind; exists 5%Z; split; vm_compute; reflexivity|].
    split; [vm_compute; reflexivity|]. split; [vm_compute; reflexivity|]. split; [vm_compute; reflexivity|]. split; [exact Rc|]. split; [exact Rc|]. discriminate.
  Qed.
End Witness.
