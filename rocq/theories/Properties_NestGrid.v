(** * Property C144: the grid of a space that was added under a parent value *)
From Coq Require Import String List ZArith QArith Bool Lia Permutation Relations.
From Verif Require Import Base ListFacts Numeric NumericProofs HP HPProofs Properties_HP Cond Forb EqFacts Dag DagProofs Space CommitProofs Spec
  SpaceProofs CnodeProofs ForbProofs EvalProofs ForbEval MergeProofs ValidProofs ConfigProofs ChangeProofs Ex Properties_Eval Properties_Config Properties_Graph
  Properties_Change Dist DistProofs Properties_Dist Util LookupProofs ExchangeProofs Properties_Exchange Random Properties_Raise Properties_Random
  Repair Properties_Repair Grid Properties_Grid Subspace Properties_Serial Properties_Sub Properties_SubParent Properties_Parts Properties_Product Properties_Nest.
Import ListNotations.
Open Scope nat_scope.

(** the number of entries that are [b] *)
Definition tally (b : bool) (l : list bool) : nat := count_occ bool_dec l b.

Lemma NoDup_app_apart {A} (a b : list A) x : NoDup (a ++ b) -> In x a -> ~ In x b.
Proof.
  induction a as [|y a IH]; simpl; intros N Hx Hb; [destruct Hx|]. inversion N as [|? ? N1 N2]; subst. destruct Hx as [->|Hx]; [|exact (IH N2 Hx Hb)].
  apply N1, in_or_app. right. exact Hb.
Qed.

Section NestGrid.
  Context {E : Env} {L : EnvLaws E}.
  Variables (t s : space) (ht hs : list hp) (ct cs : list cond) (ft fs : list fclause) (p dl : string) (q : hp) (v : value).
  Hypotheses (Tt : tame t ht ct ft) (Ts : tame s hs cs fs) (U : distinct_strings s)
    (ND : NoDup (map hp_name ht ++ map (new_name p dl) (map hp_name hs))) (Hq : In q ht) (Hv : legal_value q v = true)
    (Ne : forall c l w x, In c cs -> In l (dlcs c) -> l_test l <> TBin OpNe w x) (Nh : hs <> []).
  Let g := new_name p dl.
  Let T := o_target (add_sub [] t s p dl (Some (q, v))).
  Let all := ht ++ map (rename_hp g) hs.
  Let Os : space_ok s hs cs fs := built_ok _ _ _ _ (tm_built _ _ _ _ Ts).
  Let Ko : space_ok t ht ct ft := built_ok _ _ _ _ (tm_built _ _ _ _ Tt).

  (** the numbers of steps of the source are those of the new names *)
  Variables (steps steps2 : list (string * Z)).
  Hypothesis St : forall h, In h hs -> assoc (hp_name h) steps2 = assoc (g (hp_name h)) steps.
  Hypotheses (S1 : steady_grid steps ht) (S2 : steady_grid steps2 hs).
  Variables (fuel fuel1 fuel2 : nat) (l l1 l2 : list config).
  Hypotheses (G : generate_grid fuel T steps = Ok l) (G1 : generate_grid fuel1 t steps = Ok l1) (G2 : generate_grid fuel2 s steps2 = Ok l2).

  (** [c] consists of [c1] and, under the new names, of [c2] *)
  Definition opens (c c1 c2 : config) : Prop :=
    exists d, represents T all c d /\ represents t ht c1 d /\ represents s hs c2 (fun n => d (g n)).
  (** [c] consists of [c1], and no added hyperparameter has a value *)
  Definition closes (c c1 : config) : Prop :=
    exists d, represents T all c d /\ represents t ht c1 d /\ forall h, In h hs -> d (g (hp_name h)) = None.

  Lemma grid_renamed h u : In h hs -> (grid_value steps (rename_hp g h) u <-> grid_value steps2 h u).
  Proof. intros Hh. unfold grid_value. simpl. rewrite (St h Hh). reflexivity. Qed.
  Lemma distinct_renamed h : In h hs -> int_distinct steps2 h -> int_distinct steps (rename_hp g h).
  Proof. intros Hh. unfold int_distinct. simpl. rewrite (St h Hh). auto. Qed.

  Definition whole (a b : list hp) (ca : list cond) (fa : list fclause) : Prop :=
    Permutation a b /\ tame T a ca fa /\ forall d, valid a ca fa d <-> valid ht ct ft d /\
      ((under q v d /\ valid hs cs fs (fun n => d (g n))) \/ (~ under q v d /\ forall n, In n (map hp_name hs) -> d (g n) = None)).
  Lemma nest_whole : exists a ca fa, whole a all ca fa.
  Proof.
    destruct (legal_finite q v (so_constructed Ko q Hq) Hv) as (x & Hx).
    destruct (gate_sub p dl Tt Ts U ND q v (Fin x) Hq Hv Hx Ne) as (_ & cs3 & T3 & V3). fold T in T3. eexists; eexists; eexists. split; [|split; [exact T3|exact V3]].
    apply Permutation_app_head, Permutation_map, (so_hps Os).
  Qed.
  Lemma all_steady a ca fa : whole a all ca fa -> steady_grid steps a.
  Proof.
    intros (Pm & _) h u Hh Hu. apply (Permutation_in _ Pm) in Hh. apply in_app_or in Hh. destruct Hh as [Hh|Hh]; [apply (S1 h u Hh Hu)|].
    apply in_map_iff in Hh. destruct Hh as (k & <- & Hk). apply (grid_renamed k u Hk) in Hu. exact (S2 k u Hk Hu).
  Qed.
  Lemma all_constructed h : In h all -> constructed h.
  Proof.
    destruct nest_whole as (a & ca & fa & Pm & T3 & _). intros Hh. apply (so_constructed (built_ok _ _ _ _ (tm_built _ _ _ _ T3))), (Permutation_in _ (Permutation_sym Pm) Hh).
  Qed.
  Lemma ht_some : ht <> [].
  Proof. intros K. rewrite K in Hq. destruct Hq. Qed.
  Lemma under_dec d : {under q v d} + {~ under q v d}.
  Proof.
    clear. destruct (d (hp_name q)) as [w|] eqn:Ew; [|right; intros (w & Hw & _); rewrite Ew in Hw; discriminate]. destruct (py_eqb w v) eqn:Q; [left; exists w; auto|].
    right. intros (w' & Hw & Q'). rewrite Ew in Hw. injection Hw as <-. rewrite Q in Q'. discriminate.
  Qed.

  (** each configuration of the grid is one of the grid of the target, with one of the grid of the source exactly if the parent has the value *)
  Theorem C144_split_partial c : In c l -> exists c1 d, In c1 l1 /\ represents T all c d /\ represents t ht c1 d /\
    ((under q v d /\ exists c2, In c2 l2 /\ represents s hs c2 (fun n => d (g n))) \/ (~ under q v d /\ forall h, In h hs -> d (g (hp_name h)) = None)).
  Proof.
    intros Hc. destruct nest_whole as (a & ca & fa & W). assert (W' := W). destruct W' as (Pm & T3 & V3).
    destruct (C29_sound_partial _ _ _ _ _ _ _ _ T3 G Hc) as (d & Ca & V & Og). apply V3 in V. destruct V as (V1 & V2).
    assert (In1 : forall h, In h ht -> In h a) by (intros h Hh; apply (Permutation_in _ (Permutation_sym Pm)), in_or_app; auto).
    assert (In2 : forall h, In h hs -> In (rename_hp g h) a) by (intros h Hh; apply (Permutation_in _ (Permutation_sym Pm)), in_or_app; right; apply in_map, Hh).
    destruct (C30_complete_partial _ _ _ _ _ _ _ d Tt ht_some S1 G1 V1) as (c1 & H1 & R1); [intros h u Hh; apply Og, In1, Hh|].
    exists c1, d. split; [exact H1|]. split; [split; [apply Ca|]; intros h Hh; apply (proj2 (proj1 Ca)), (Permutation_in _ (Permutation_sym Pm) Hh)|]. split; [exact R1|].
    destruct V2 as [(Un & V2)|(Un & V2)]; [left|right]; (split; [exact Un|]).
    - apply (C30_complete_partial _ _ _ _ _ _ _ _ Ts Nh S2 G2 V2). intros h u Hh Hu. destruct (Og (rename_hp g h) u (In2 h Hh) Hu) as (w & Gw & Qw).
      exists w. split; [apply (grid_renamed h w Hh), Gw|exact Qw].
    - intros h Hh. apply V2, in_map, Hh.
  Qed.

  (** the assignment that has the values of [d1] in the target and of [d2] under the new names *)
  Lemma paste (d1 d2 : assignment) : exists d : assignment, (forall h, In h ht -> d1 (hp_name h) = d (hp_name h)) /\ (forall h, In h hs -> d2 (hp_name h) = d (g (hp_name h))).
  Proof.
    exists (fun n => if str_in n (map hp_name ht) then d1 n else match find (fun h => String.eqb (g (hp_name h)) n) hs with Some h => d2 (hp_name h) | None => None end). split.
    - intros h Hh. replace (str_in (hp_name h) (map hp_name ht)) with true; [reflexivity|]. symmetry. apply str_in_iff, in_map, Hh.
    - intros h Hh. destruct (str_in (g (hp_name h)) (map hp_name ht)) eqn:Es.
      + exfalso. apply str_in_iff, in_map_iff in Es. destruct Es as (k & Ek & Hk). apply (NoDup_app_apart _ _ (hp_name k) ND (in_map _ _ _ Hk)).
        rewrite Ek. apply in_map, in_map, Hh.
      + destruct (find _ hs) as [k|] eqn:Ef.
        * apply find_some in Ef. destruct Ef as (Hk & Q). apply String.eqb_eq in Q. f_equal. symmetry.
          apply (sub_inj p dl ND); [apply in_map, Hk|apply in_map, Hh|exact Q].
        * exfalso. assert (K := find_none _ _ Ef h Hh). simpl in K. rewrite String.eqb_refl in K. discriminate.
  Qed.
  Lemma under_same d d' : d (hp_name q) = d' (hp_name q) -> under q v d -> under q v d'.
  Proof. intros Q (w & Hw & E1). exists w. split; [congruence|exact E1]. Qed.

  (** two assignments that a configuration stands for agree on the parent *)
  Lemma under_rep c d d' : represents t ht c d -> represents t ht c d' -> under q v d -> under q v d'.
  Proof.
    intros [_ R] [_ R'] (w & Hw & Q). specialize (R q Hq). specialize (R' q Hq). rewrite Hw in R. destruct R as (Lw & x & Hx & Fx).
    destruct (legal_finite q w (so_constructed Ko q Hq) Lw) as (z & Hz). assert (x = Fin z) by congruence. subst x.
    destruct (d' (hp_name q)) as [w'|] eqn:Ew'; [|rewrite R' in Fx; destruct Fx].
    destruct R' as (Lw' & y & Hy & Fy). exists w'. split; [exact Ew'|]. assert (K := vec_eq q w' w y (Fin z) (so_constructed Ko q Hq) Lw' Lw Hy Hx).
    assert (F : fsame y (Fin z)) by (apply (fsame_trans _ _ _ (fsame_sym _ _ Fy)); exact Fx).
    apply (py_eqb_trans _ w); [|exact Q]. rewrite <- K. destruct y; try contradiction. cbn in F |- *. apply Qeq_bool_iff. exact F.
  Qed.

  (** the configuration of a pasted assignment *)
  Lemma pasted c1 d1 d2 : In c1 l1 -> represents t ht c1 d1 -> valid ht ct ft d1 -> on_grid steps ht d1 -> on_grid steps2 hs d2 ->
    ((under q v d1 /\ valid hs cs fs d2) \/ (~ under q v d1 /\ forall n, d2 n = None)) ->
    exists c d, In c l /\ represents T all c d /\ represents t ht c1 d /\ (forall h, In h hs -> d2 (hp_name h) = d (g (hp_name h))).
  Proof.
    intros Hc1 R1 V1 Og1 Og2 Cs. destruct nest_whole as (a & ca & fa & W). assert (Sa := all_steady _ _ _ W). destruct W as (Pm & T3 & V3).
    destruct (paste d1 d2) as (d & El & Er).
    assert (V : valid a ca fa d).
    { apply V3. split; [apply (valid_same _ _ _ d1 d (tm_refs _ _ _ _ Tt) El), V1|]. destruct Cs as [(Un & V2)|(Un & N2)]; [left|right]; split.
      - apply (under_same d1 d (El q Hq) Un).
      - apply (valid_same _ _ _ d2 (fun n => d (g n)) (tm_refs _ _ _ _ Ts) Er), V2.
      - intros K. apply Un. apply (under_same d d1 (eq_sym (El q Hq)) K).
      - intros n Hn. apply in_map_iff in Hn. destruct Hn as (h & <- & Hh). rewrite <- (Er h Hh). apply N2. }
    assert (Og : on_grid steps a d).
    { intros h u Hh Hu. apply (Permutation_in _ Pm) in Hh. apply in_app_or in Hh. destruct Hh as [Hh|Hh].
      - apply Og1; [exact Hh|]. rewrite (El h Hh). exact Hu.
      - apply in_map_iff in Hh. destruct Hh as (k & <- & Hk). destruct (Og2 k u Hk) as (w & Gw & Qw); [rewrite (Er k Hk); exact Hu|].
        exists w. split; [apply (grid_renamed k w Hk), Gw|exact Qw]. }
    assert (Na : a <> []) by (intros K; rewrite K in Pm; apply Permutation_nil, app_eq_nil in Pm; exact (ht_some (proj1 Pm))).
    destruct (C30_complete_partial _ _ _ _ _ _ _ d T3 Na Sa G V Og) as (c & Hc & R). exists c, d. split; [exact Hc|].
    split; [split; [apply R|]; intros h Hh; apply (proj2 R), (Permutation_in _ (Permutation_sym Pm) Hh)|]. split; [apply (represents_ext _ _ _ _ _ El), R1|exact Er].
  Qed.

  (** where the parent has the value, any configuration of the grid of the source completes one of the target *)
  Theorem C144_open_partial c1 c2 d1 : In c1 l1 -> In c2 l2 -> represents t ht c1 d1 -> under q v d1 -> exists c, In c l /\ opens c c1 c2.
  Proof.
    intros H1 H2 R1 Un. destruct (C29_sound_partial _ _ _ _ _ _ _ _ Tt G1 H1) as (e1 & (Re1 & _) & V1 & Og1).
    destruct (C29_sound_partial _ _ _ _ _ _ _ _ Ts G2 H2) as (e2 & (Re2 & _) & V2 & Og2).
    destruct (pasted c1 e1 e2 H1 Re1 V1 Og1 Og2) as (c & d & Hc & Rc & Rc1 & Er); [left; split; [apply (under_rep c1 d1 e1 R1 Re1 Un)|exact V2]|].
    exists c. split; [exact Hc|]. exists d. split; [exact Rc|]. split; [exact Rc1|]. apply (represents_ext _ _ _ e2); [exact Er|exact Re2].
  Qed.
  (** ... and where it does not, the configuration of the target is one of the grid *)
  Theorem C144_closed_partial c1 d1 : In c1 l1 -> represents t ht c1 d1 -> ~ under q v d1 -> exists c, In c l /\ closes c c1.
  Proof.
    intros H1 R1 Un. destruct (C29_sound_partial _ _ _ _ _ _ _ _ Tt G1 H1) as (e1 & (Re1 & _) & V1 & Og1).
    destruct (pasted c1 e1 (fun _ => None) H1 Re1 V1 Og1) as (c & d & Hc & Rc & Rc1 & Er).
    - intros h u _ K. discriminate.
    - right. split; [|reflexivity]. intros K. apply Un. apply (under_rep c1 e1 d1 Re1 R1 K).
    - exists c. split; [exact Hc|]. exists d. split; [exact Rc|]. split; [exact Rc1|]. intros h Hh. symmetry. apply Er, Hh.
  Qed.

  (** ** How many there are *)
  Fixpoint codes (n k : nat) (bs : list bool) : list (nat * option nat) :=
    match bs with
    | [] => []
    | b :: bs' => (if b then map (fun j => (k, Some j)) (seq 0 n) else [(k, None)]) ++ codes n (S k) bs'
    end.
  Lemma codes_length n : forall bs k, length (codes n k bs) = tally true bs * n + tally false bs.
  Proof.
    unfold tally. induction bs as [|b bs IH]; intros k; [reflexivity|]. cbn [codes]. rewrite app_length, IH. destruct b; simpl; [rewrite map_length, seq_length; lia|lia].
  Qed.
  Lemma codes_in n i o : forall bs k, In (i, o) (codes n k bs) <-> exists m b, i = k + m /\ nth_error bs m = Some b /\
    match o with Some j => b = true /\ j < n | None => b = false end.
  Proof.
    induction bs as [|b bs IH]; intros k; cbn [codes]; [split; [intros []|intros (m & b & _ & K & _); destruct m; discriminate]|].
    rewrite in_app_iff, IH. split.
    - intros [H|(m & b' & -> & Hb & Hm)]; [|exists (S m), b'; split; [lia|split; assumption]]. exists 0, b. destruct b.
      + apply in_map_iff in H. destruct H as (j & Q & Hj). injection Q as <- <-. apply in_seq in Hj. split; [lia|]. split; [reflexivity|]. split; [reflexivity|lia].
      + destruct H as [Q|[]]. injection Q as <- <-. split; [lia|]. split; reflexivity.
    - intros (m & b' & -> & Hb & Hm). destruct m as [|m]; [left|right; exists m, b'; split; [lia|split; assumption]]. cbn in Hb. injection Hb as <-. rewrite Nat.add_0_r.
      destruct o as [j|]; [destruct Hm as (-> & Hj); apply in_map_iff; exists j; split; [reflexivity|apply in_seq; lia]|subst b; left; reflexivity].
  Qed.
  Lemma codes_nodup n : forall bs k, NoDup (codes n k bs).
  Proof.
    induction bs as [|b bs IH]; intros k; cbn [codes]; [constructor|]. apply NoDup_join; [|apply IH|].
    - destruct b; [|constructor; [intros []|constructor]]. apply FinFun.Injective_map_NoDup; [|apply seq_NoDup]. intros x y Q. injection Q. auto.
    - intros (i & o) Hx Hy. apply codes_in in Hy. destruct Hy as (m & b' & -> & _). destruct b.
      + apply in_map_iff in Hx. destruct Hx as (j & Q & _). injection Q as Q _. lia.
      + destruct Hx as [Q|[]]. injection Q as Q _. lia.
  Qed.

  (** as many as pairs with a configuration of the target in which the parent has the value, and one for each of the others *)
  Theorem C144_count_partial : (forall h, In h ht -> int_distinct steps h) -> (forall h, In h hs -> int_distinct steps2 h) ->
    exists bs, Forall2 (fun c1 b => exists d, carries t ht c1 d /\ (b = true <-> under q v d)) l1 bs /\
      length l = tally true bs * length l2 + tally false bs.
  Proof.
    intros D1 D2.
    assert (Bs : exists bs, Forall2 (fun c1 b => exists d, carries t ht c1 d /\ (b = true <-> under q v d)) l1 bs).
    { assert (I : forall c1, In c1 l1 -> exists d, carries t ht c1 d).
      { intros c1 H1. destruct (C29_sound_partial _ _ _ _ _ _ _ _ Tt G1 H1) as (d & Ca & _). eauto. }
      clear - I. induction l1 as [|c1 m IH]; [exists []; constructor|]. destruct IH as (bs & F); [intros x Hx; apply I; right; exact Hx|].
      destruct (I c1 (or_introl eq_refl)) as (d & Ca). exists ((if under_dec d then true else false) :: bs). constructor; [|exact F].
      exists d. split; [exact Ca|]. destruct (under_dec d); split; try tauto; discriminate. }
    destruct Bs as (bs & F). exists bs. split; [exact F|].
    destruct nest_whole as (a & ca & fa & W). assert (Sa := all_steady _ _ _ W). destruct W as (Pm & T3 & V3).
    assert (Da : forall h, In h a -> int_distinct steps h).
    { intros h Hh. apply (Permutation_in _ Pm) in Hh. apply in_app_or in Hh. destruct Hh as [Hh|Hh]; [apply D1, Hh|].
      apply in_map_iff in Hh. destruct Hh as (k & <- & Hk). apply (distinct_renamed k Hk), D2, Hk. }
    assert (Ct : forall h, In h ht -> constructed h) by (intros h; apply (so_constructed Ko)).
    assert (Cs : forall h, In h hs -> constructed h) by (intros h; apply (so_constructed Os)).
    assert (I1 : forall h, In h ht -> In h all) by (intros h Hh; apply in_or_app; auto).
    assert (I2 : forall h, In h hs -> In (rename_hp g h) all) by (intros h Hh; apply in_or_app; right; apply in_map, Hh).
    assert (Bf : forall i c1 b d, nth_error l1 i = Some c1 -> nth_error bs i = Some b -> represents t ht c1 d -> (b = true <-> under q v d)).
    { intros i c1 b d Hi Hb Rd. assert (K : exists d', carries t ht c1 d' /\ (b = true <-> under q v d')).
      { clear - F Hi Hb. revert i Hi Hb. induction F as [|x y m bs Hx F IH]; intros i Hi Hb; [destruct i; discriminate|]. destruct i as [|i]; cbn in *; [|apply (IH i Hi Hb)].
        injection Hi as <-. injection Hb as <-. exact Hx. }
      destruct K as (d' & (Rd' & _) & Q). rewrite Q. split; apply (under_rep c1); assumption. }
    assert (Lb := Forall2_length _ _ _ F).
    set (R := fun (x : nat * option nat) (k : nat) => exists c c1, nth_error l k = Some c /\ nth_error l1 (fst x) = Some c1 /\
      match snd x with Some j => exists c2, nth_error l2 j = Some c2 /\ opens c c1 c2 | None => closes c c1 end).
    set (cd := codes (length l2) 0 bs).
    assert (Inj : forall x x' k, In x cd -> In x' cd -> R x k -> R x' k -> x = x').
    { intros (i & o) (i' & o') k Hx Hx' (c & c1 & Hc & Hc1 & Ho) (c' & c1' & Hc' & Hc1' & Ho'). simpl in *. assert (c' = c) by congruence. subst c'.
      assert (Ei : i = i').
      { assert (K : exists d, represents T all c d /\ represents t ht c1 d) by (destruct o; [destruct Ho as (c2 & _ & d & A & B & _)|destruct Ho as (d & A & B & _)]; eauto).
        assert (K' : exists d, represents T all c d /\ represents t ht c1' d) by (destruct o'; [destruct Ho' as (c2 & _ & d & A & B & _)|destruct Ho' as (d & A & B & _)]; eauto).
        destruct K as (d & A & B), K' as (d' & A' & B').
        apply (C71_once_partial _ _ _ _ _ _ _ d i i' c1 c1' Tt S1 D1 G1 Hc1 Hc1' B). split; [apply B'|]. intros h Hh.
        apply (stands_move h _ (d' (hp_name h)) _ _ (Ct h Hh) (proj2 A h (I1 h Hh)) (proj2 A' h (I1 h Hh)) (proj2 B' h Hh)). }
      subst i'. f_equal. apply codes_in in Hx, Hx'. destruct Hx as (m & b & Em & Hb & Hm), Hx' as (m' & b' & Em' & Hb' & Hm'). assert (m' = m) by lia. subst m'.
      assert (b' = b) by congruence. subst b'. destruct o as [j|], o' as [j'|]; [|destruct Hm; congruence|destruct Hm'; congruence|reflexivity]. f_equal.
      destruct Ho as (c2 & Hc2 & d & A & B & C2), Ho' as (c2' & Hc2' & d' & A' & B' & C2').
      apply (C71_once_partial _ _ _ _ _ _ _ (fun n => d (g n)) j j' c2 c2' Ts S2 D2 G2 Hc2 Hc2' C2). split; [apply C2'|]. intros h Hh.
      apply (stands_move h _ (d' (g (hp_name h))) _ _ (Cs h Hh) (proj2 A _ (I2 h Hh)) (proj2 A' _ (I2 h Hh)) (proj2 C2' h Hh)). }
    assert (Fun : forall x k k', R x k -> R x k' -> k = k').
    { intros (i & o) k k' (c & c1 & Hc & Hc1 & Ho) (c' & c1' & Hc' & Hc1' & Ho'). simpl in *. assert (c1' = c1) by congruence. subst c1'.
      assert (K : exists d d', represents T all c d /\ represents T all c' d' /\ represents t ht c1 d /\ represents t ht c1 d' /\
        forall h, In h hs -> stands h (d (g (hp_name h))) (vget (index_of T) (c_vector c') (g (hp_name h)))).
      { destruct o as [j|].
        - destruct Ho as (c2 & Hc2 & d & A & B & C2), Ho' as (c2' & Hc2' & d' & A' & B' & C2'). assert (c2' = c2) by congruence. subst c2'.
          exists d, d'. repeat (split; [assumption|]). intros h Hh.
          apply (stands_move h _ (d' (g (hp_name h))) _ _ (Cs h Hh) (proj2 C2 h Hh) (proj2 C2' h Hh) (proj2 A' _ (I2 h Hh))).
        - destruct Ho as (d & A & B & C2), Ho' as (d' & A' & B' & C2'). exists d, d'. repeat (split; [assumption|]). intros h Hh. rewrite (C2 h Hh).
          assert (K := proj2 A' _ (I2 h Hh)). simpl in K. rewrite (C2' h Hh) in K. exact K. }
      destruct K as (d & d' & A & A' & B & B' & K).
      assert (Ra : forall y e, represents T all y e -> represents T a y e) by (intros y e Y; split; [apply Y|]; intros h Hh; apply (proj2 Y), (Permutation_in _ Pm Hh)).
      apply (C71_once_partial _ _ _ _ _ _ _ d k k' c c' T3 Sa Da G Hc Hc' (Ra _ _ A)). apply Ra. split; [apply A'|]. intros h Hh.
      apply in_app_or in Hh. destruct Hh as [Hh|Hh].
      - apply (stands_move h _ (d' (hp_name h)) _ _ (Ct h Hh) (proj2 B h Hh) (proj2 B' h Hh) (proj2 A' h (I1 h Hh))).
      - apply in_map_iff in Hh. destruct Hh as (k0 & <- & Hk). exact (K k0 Hk). }
    assert (Bd : forall (A : Type) (m : list A) i, In i (seq 0 (length m)) <-> exists x, nth_error m i = Some x).
    { intros A m i. rewrite in_seq. split.
      - intros (_ & K). destruct (nth_error m i) eqn:Q; [eauto|]. apply nth_error_None in Q. simpl in K. lia.
      - intros (x & K). split; [lia|]. simpl. apply nth_error_Some. congruence. }
    assert (Bn : forall i c1, nth_error l1 i = Some c1 -> exists b, nth_error bs i = Some b).
    { intros i c1 Hi. apply Bd. rewrite <- Lb. apply Bd. eauto. }
    rewrite <- (codes_length (length l2) bs 0). fold cd. rewrite <- (seq_length (length l) 0) at 1. apply Nat.le_antisymm.
    - apply (inj_count (fun k x => R x k)); [apply seq_NoDup| |intros k k' x _ _; apply Fun].
      intros k Hk. apply Bd in Hk. destruct Hk as (c & Hc). destruct (C144_split_partial c (nth_error_In _ _ Hc)) as (c1 & d & H1 & Rc & Rc1 & Cz).
      apply In_nth_error in H1. destruct H1 as (i & Hi). destruct (Bn i c1 Hi) as (b & Hb). assert (Q := Bf i c1 b d Hi Hb Rc1).
      destruct Cz as [(Un & c2 & H2 & R2)|(Un & N2)].
      + apply In_nth_error in H2. destruct H2 as (j & Hj). exists (i, Some j). split.
        * apply codes_in. exists i, b. split; [reflexivity|]. split; [exact Hb|]. split; [apply Q, Un|]. apply nth_error_Some. congruence.
        * exists c, c1. split; [exact Hc|]. split; [exact Hi|]. simpl. exists c2. split; [exact Hj|]. exists d. auto.
      + exists (i, None). split.
        * apply codes_in. exists i, b. split; [reflexivity|]. split; [exact Hb|]. destruct b; [exfalso; apply Un, Q; reflexivity|reflexivity].
        * exists c, c1. split; [exact Hc|]. split; [exact Hi|]. simpl. exists d. auto.
    - apply (inj_count R); [apply codes_nodup| |intros x x' k; apply Inj].
      intros (i & o) Hx. apply codes_in in Hx. destruct Hx as (m & b & -> & Hb & Hm). cbn [Nat.add] in *.
      assert (H1 : exists c1, nth_error l1 m = Some c1) by (apply Bd; rewrite Lb; apply Bd; eauto). destruct H1 as (c1 & H1).
      destruct (C29_sound_partial _ _ _ _ _ _ _ _ Tt G1 (nth_error_In _ _ H1)) as (d1 & (R1 & _) & _). assert (Q := Bf m c1 b d1 H1 Hb R1).
      destruct o as [j|].
      + destruct Hm as (-> & Hj). assert (H2 : exists c2, nth_error l2 j = Some c2) by (apply Bd, in_seq; lia). destruct H2 as (c2 & H2).
        destruct (C144_open_partial c1 c2 d1 (nth_error_In _ _ H1) (nth_error_In _ _ H2) R1) as (c & Hc & Op); [apply Q; reflexivity|].
        apply In_nth_error in Hc. destruct Hc as (k & Hk). exists k. split; [apply Bd; eauto|]. exists c, c1. split; [exact Hk|]. split; [exact H1|]. simpl. exists c2. auto.
      + subst b. destruct (C144_closed_partial c1 d1 (nth_error_In _ _ H1) R1) as (c & Hc & Cl); [intros K; apply Q in K; discriminate|].
        apply In_nth_error in Hc. destruct Hc as (k & Hk). exists k. split; [apply Bd; eauto|]. exists c, c1. auto.
  Qed.
End NestGrid.

(** ** Example: the space of C142: q, and below q = 1 the binary x, and y that is active when x is 1 and must not be 0 *)
Section Witness.
  Local Existing Instance rat_env.
  Local Existing Instance rat_env_laws.
  Lemma bin_steady ns : steady_grid [] (map bin ns) /\ forall h, In h (map bin ns) -> int_distinct [] h.
  Proof.
    split.
    - intros h u Hh Hu. apply in_map_iff in Hh. destruct Hh as (n & <- & _). apply py_eqb_refl.
    - intros h Hh. apply in_map_iff in Hh. destruct Hh as (n & <- & _). exact I.
  Qed.
  Definition grid_of (s : space) : list config := match generate_grid 50 s [] with Ok l => l | Err _ => [] end.
  Example C144_ex : tame out_space [bin "q"] [] [] /\ tame in_space [bin "x"; bin "y"] [on "1" "y" "x"] [not0 "y"] /\ distinct_strings in_space /\
    NoDup (map hp_name [bin "q"] ++ map (new_name "s" ":") (map hp_name [bin "x"; bin "y"])) /\ legal_value (bin "q") (VStr "1") = true /\
    (forall c l w x, In c [on "1" "y" "x"] -> In l (dlcs c) -> l_test l <> TBin OpNe w x) /\
    steady_grid [] [bin "q"] /\ steady_grid [] [bin "x"; bin "y"] /\ (forall h, In h [bin "q"; bin "x"; bin "y"] -> int_distinct [] h) /\
    both_space = o_target (add_sub [] out_space in_space "s" ":" (Some (bin "q", VStr "1"))) /\
    generate_grid 50 both_space [] = Ok (grid_of both_space) /\ generate_grid 50 out_space [] = Ok (grid_of out_space) /\
    generate_grid 50 in_space [] = Ok (grid_of in_space) /\
    length (grid_of out_space) = 2 /\ length (grid_of in_space) = 2 /\ length (grid_of both_space) = 1 * 2 + 1.
  Proof.
    split; [exact out_tame|]. split; [exact in_tame|].
    split; [apply (strings_distinct _ _ _ _ in_built); apply nodup_strings; vm_compute; reflexivity|].
    split; [apply nodup_strings; vm_compute; reflexivity|]. split; [vm_compute; reflexivity|].
    split. { intros c l w x [<-|[]] Hl. vm_compute in Hl. destruct Hl as [<-|[]]. vm_compute. discriminate. }
    split; [apply (bin_steady ["q"%string])|]. split; [apply (bin_steady ["x"; "y"]%string)|]. split; [apply (bin_steady ["q"; "x"; "y"]%string)|].
    split; [reflexivity|]. vm_compute. auto 10.
  Qed.
End Witness.
