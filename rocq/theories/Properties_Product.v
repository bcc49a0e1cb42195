(** * Property C140: the grid of two unrelated spaces is the product of their grids *)
From Coq Require Import String List ZArith QArith Qround Bool Lia Lqa Permutation Relations.
From Verif Require Import Base ListFacts Numeric HP HPProofs Properties_HP Cond Forb EqFacts Dag DagProofs
  Space CommitProofs Spec SpaceProofs CnodeProofs ForbProofs EvalProofs ForbEval MergeProofs ValidProofs ConfigProofs
  ChangeProofs PassProofs ReadProofs SampleProofs Ex Properties_Graph Properties_Eval Properties_Config Properties_Change Properties_Sample
  Dist DistProofs Properties_Dist Properties_Size Properties_Array Properties_Reach Properties_Mass Properties_Add Properties_Exchange Properties_Chance
  Properties_Repair Grid Properties_Grid Properties_Parts Util ExchangeProofs Properties_Symmetric.
Import ListNotations.
Open Scope nat_scope.

(** two configurations of the parts and one of the whole that hold the same values *)
Definition made_of {E : Env} (s s1 s2 : space) (hs1 hs2 : list hp) (c c1 c2 : config) : Prop :=
  exists d, represents s (hs1 ++ hs2) c d /\ represents s1 hs1 c1 d /\ represents s2 hs2 c2 d.

Lemma inj_count {A B} (R : A -> B -> Prop) (l : list A) (m : list B) : NoDup l -> (forall a, In a l -> exists b, In b m /\ R a b) ->
  (forall a a' b, In a l -> In a' l -> R a b -> R a' b -> a = a') -> length l <= length m.
Proof.
  intros N Ex In_. assert (G : exists bs, Forall2 R l bs /\ incl bs m).
  { clear N In_. induction l as [|a l IH]; [exists []; split; [constructor|intros x []]|].
    destruct (Ex a (or_introl eq_refl)) as (b & Hb & Rb). destruct IH as (bs & F & I); [intros x Hx; apply Ex; right; exact Hx|].
    exists (b :: bs). split; [constructor; assumption|]. intros x [<-|Hx]; [exact Hb|apply I, Hx]. }
  destruct G as (bs & F & I). rewrite (Forall2_length _ _ _ F). apply NoDup_incl_length; [|exact I]. clear Ex I m.
  induction F as [|a b l bs Rb F IH]; [constructor|]. inversion N as [|? ? N1 N2]; subst. constructor.
  - intros Hb. assert (G : exists a', In a' l /\ R a' b).
    { clear -F Hb. induction F as [|x y l bs Ry F IH]; [destruct Hb|]. destruct Hb as [->|Hb]; [exists x; simpl; auto|].
      destruct (IH Hb) as (a' & Ha & Ra). exists a'. simpl. auto. }
    destruct G as (a' & Ha & Ra). apply N1. rewrite (In_ a a' b (or_introl eq_refl) (or_intror Ha) Rb Ra). exact Ha.
  - apply IH; [exact N2|]. intros x y z Hx Hy. apply In_; right; assumption.
Qed.
Lemma nodup_prod {A B} (l : list A) (m : list B) : NoDup l -> NoDup m -> NoDup (list_prod l m).
Proof.
  intros N M. induction N as [|a l Na N IH]; simpl; [constructor|].
  assert (P : NoDup (map (fun y => (a, y)) m)).
  { clear -M. induction M as [|y m Ny M IH]; simpl; constructor; [|exact IH]. intros K. apply in_map_iff in K. destruct K as (z & Q & Hz). injection Q as ->. contradiction. }
  revert P. assert (Fr : forall p, In p (map (fun y => (a, y)) m) -> ~ In p (list_prod l m)).
  { intros [x y] K. apply in_map_iff in K. destruct K as (z & Q & _). injection Q as <- <-. intros K. apply in_prod_iff in K. apply Na, K. }
  induction (map (fun y => (a, y)) m) as [|p q IHq]; simpl; intros P; [exact IH|]. inversion P as [|? ? P1 P2]; subst. constructor.
  - intros K. apply in_app_iff in K. destruct K as [K|K]; [contradiction|]. exact (Fr p (or_introl eq_refl) K).
  - apply IHq; [|exact P2]. intros r Hr. apply Fr. right. exact Hr.
Qed.

Section Product.
  Context {E : Env} {L : EnvLaws E}.

  Lemma represents_ext s hs c d d' : (forall h, In h hs -> d (hp_name h) = d' (hp_name h)) -> represents s hs c d -> represents s hs c d'.
  Proof. intros Q [Rl R]. split; [exact Rl|]. intros h Hh. rewrite <- (Q h Hh). apply R, Hh. Qed.
  Lemma represents_part s hs hs' c d : incl hs' hs -> represents s hs c d -> forall h, In h hs' ->
    match d (hp_name h) with
    | Some w => legal_value h w = true /\ exists x, to_vector h w = Ok x /\ fsame (vget (index_of s) (c_vector c) (hp_name h)) x
    | None => vget (index_of s) (c_vector c) (hp_name h) = NaN
    end.
  Proof. intros I [_ R] h Hh. apply R, I, Hh. Qed.

  (** if [e] stands for both values, what stands for the second stands for the first *)
  Definition stands (h : hp) (o : option value) (e : fval) : Prop :=
    match o with Some w => legal_value h w = true /\ exists x, to_vector h w = Ok x /\ fsame e x | None => e = NaN end.
  Lemma stands_move h o o' e e' : constructed h -> stands h o e -> stands h o' e -> stands h o' e' -> stands h o e'.
  Proof.
    intros C. unfold stands. destruct o as [w|], o' as [w'|].
    - intros (Lw & x & Hx & Fx) (_ & y & Hy & Fy) (_ & y' & Hy' & Fy'). split; [exact Lw|]. exists x. split; [exact Hx|].
      assert (y' = y) by congruence. subst y'. apply (fsame_trans _ y); [exact Fy'|]. apply (fsame_trans _ e); [apply fsame_sym; exact Fy|exact Fx].
    - intros (Lw & x & Hx & Fx) -> _. exfalso. destruct (legal_finite h w C Lw) as (q & Hq). assert (x = Fin q) by congruence. subst x.
      apply fsame_nan in Fx. discriminate Fx.
    - intros -> (Lw & x & Hx & Fx) _. exfalso. destruct (legal_finite h w' C Lw) as (q & Hq). assert (x = Fin q) by congruence. subst x.
      apply fsame_nan in Fx. discriminate Fx.
    - auto.
  Qed.
  Lemma represents_stands s hs c d : represents s hs c d <-> length (c_vector c) = s_len s /\
    forall h, In h hs -> stands h (d (hp_name h)) (vget (index_of s) (c_vector c) (hp_name h)).
  Proof. reflexivity. Qed.

  Section Two.
    Context {s s1 s2 : space} {hs1 hs2 : list hp} {cs1 cs2 : list cond} {fs1 fs2 : list fclause}.
    Variable steps : list (string * Z).
    Variables (fuel fuel1 fuel2 : nat) (l l1 l2 : list config).
    Hypothesis T : tame s (hs1 ++ hs2) (cs1 ++ cs2) (fs1 ++ fs2).
    Hypothesis T1 : tame s1 hs1 cs1 fs1.
    Hypothesis T2 : tame s2 hs2 cs2 fs2.
    Hypothesis S : steady_grid steps (hs1 ++ hs2).
    Hypothesis N1 : hs1 <> [].
    Hypothesis N2 : hs2 <> [].
    Hypothesis G : generate_grid fuel s steps = Ok l.
    Hypothesis G1 : generate_grid fuel1 s1 steps = Ok l1.
    Hypothesis G2 : generate_grid fuel2 s2 steps = Ok l2.

    Lemma two_parts : parts hs1 hs2 cs1 cs2 fs1 fs2.
    Proof.
      constructor; [apply (tm_refs _ _ _ _ T1)|apply (tm_refs _ _ _ _ T2)|]. apply (so_names_nodup (built_ok _ _ _ _ (tm_built _ _ _ _ T))).
    Qed.

    (** each configuration of the grid consists of one of each grid *)
    Theorem C140_split_partial c : In c l -> exists c1 c2, In c1 l1 /\ In c2 l2 /\ made_of s s1 s2 hs1 hs2 c c1 c2.
    Proof.
      intros Hc. destruct (C29_sound_partial _ _ _ _ _ _ _ _ T G Hc) as (d & Ca & V & Og). apply (C136_valid _ _ _ _ _ _ _ two_parts) in V. destruct V as (V1 & V2).
      assert (S1 : steady_grid steps hs1) by (intros h g Hh; apply S; apply in_app_iff; auto).
      assert (S2 : steady_grid steps hs2) by (intros h g Hh; apply S; apply in_app_iff; auto).
      destruct (C30_complete_partial _ _ _ _ _ _ _ d T1 N1 S1 G1 V1) as (c1 & H1 & R1); [intros h u Hh; apply Og; apply in_app_iff; auto|].
      destruct (C30_complete_partial _ _ _ _ _ _ _ d T2 N2 S2 G2 V2) as (c2 & H2 & R2); [intros h u Hh; apply Og; apply in_app_iff; auto|].
      exists c1, c2. split; [exact H1|]. split; [exact H2|]. exists d. split; [apply Ca|auto].
    Qed.

    (** any two make one *)
    Theorem C140_join_partial c1 c2 : In c1 l1 -> In c2 l2 -> exists c, In c l /\ made_of s s1 s2 hs1 hs2 c c1 c2.
    Proof.
      intros H1 H2. destruct (C29_sound_partial _ _ _ _ _ _ _ _ T1 G1 H1) as (d1 & Ca1 & V1 & Og1).
      destruct (C29_sound_partial _ _ _ _ _ _ _ _ T2 G2 H2) as (d2 & Ca2 & V2 & Og2).
      set (d := fun n => if str_in n (map hp_name hs1) then d1 n else d2 n).
      assert (El : forall h, In h hs1 -> d1 (hp_name h) = d (hp_name h)).
      { intros h Hh. unfold d. replace (str_in (hp_name h) (map hp_name hs1)) with true; [reflexivity|]. symmetry. apply str_in_iff. apply in_map. exact Hh. }
      assert (Er : forall h, In h hs2 -> d2 (hp_name h) = d (hp_name h)).
      { intros h Hh. unfold d. destruct (str_in (hp_name h) (map hp_name hs1)) eqn:Es; [|reflexivity]. exfalso. apply str_in_iff, in_map_iff in Es.
        destruct Es as (g & En & Hg). exact (parts_apart _ _ _ _ _ _ _ _ two_parts Hg Hh En). }
      apply (valid_same _ _ _ d1 d (tm_refs _ _ _ _ T1) El) in V1. apply (valid_same _ _ _ d2 d (tm_refs _ _ _ _ T2) Er) in V2.
      assert (V := proj2 (C136_valid _ _ _ _ _ _ d two_parts) (conj V1 V2)).
      assert (Og : on_grid steps (hs1 ++ hs2) d).
      { intros h u Hh Hu. apply in_app_iff in Hh. destruct Hh as [Hh|Hh].
        - apply Og1; [exact Hh|]. rewrite (El h Hh). exact Hu.
        - apply Og2; [exact Hh|]. rewrite (Er h Hh). exact Hu. }
      assert (Ne : hs1 ++ hs2 <> []) by (destruct hs1; [congruence|discriminate]).
      destruct (C30_complete_partial _ _ _ _ _ _ _ d T Ne S G V Og) as (c & Hc & R).
      exists c. split; [exact Hc|]. exists d. split; [exact R|]. split; [apply (represents_ext _ _ _ _ _ El), Ca1|apply (represents_ext _ _ _ _ _ Er), Ca2].
    Qed.

    (** so there are as many as pairs, if no number of the grid is met twice *)
    Theorem C140_count_partial : (forall h, In h (hs1 ++ hs2) -> int_distinct steps h) -> length l = length l1 * length l2.
    Proof.
      intros D. assert (O := built_ok _ _ _ _ (tm_built _ _ _ _ T)).
      assert (S1 : steady_grid steps hs1) by (intros h g Hh; apply S; apply in_app_iff; auto).
      assert (S2 : steady_grid steps hs2) by (intros h g Hh; apply S; apply in_app_iff; auto).
      assert (D1 : forall h, In h hs1 -> int_distinct steps h) by (intros h Hh; apply D; apply in_app_iff; auto).
      assert (D2 : forall h, In h hs2 -> int_distinct steps h) by (intros h Hh; apply D; apply in_app_iff; auto).
      assert (C : forall h, In h (hs1 ++ hs2) -> constructed h) by (intros h; apply (so_constructed O)).
      set (R := fun (p : nat * nat) (k : nat) => exists c c1 c2, nth_error l k = Some c /\ nth_error l1 (fst p) = Some c1 /\ nth_error l2 (snd p) = Some c2 /\
        made_of s s1 s2 hs1 hs2 c c1 c2).
      assert (Inj : forall p p' k, R p k -> R p' k -> p = p').
      { intros [i j] [i' j'] k (c & c1 & c2 & Hc & Hc1 & Hc2 & d & Rc & Rc1 & Rc2) (c' & c1' & c2' & Hc' & Hc1' & Hc2' & d' & Rc' & Rc1' & Rc2').
        simpl in *. assert (c' = c) by congruence. subst c'. apply represents_stands in Rc, Rc'. f_equal.
        - apply (C71_once_partial _ _ _ _ _ _ _ d i i' c1 c1' T1 S1 D1 G1 Hc1 Hc1' Rc1). apply represents_stands in Rc1'. apply represents_stands.
          split; [apply Rc1'|]. intros h Hh. assert (Hh' : In h (hs1 ++ hs2)) by (apply in_app_iff; auto).
          apply (stands_move h _ (d' (hp_name h)) _ _ (C h Hh') (proj2 Rc h Hh') (proj2 Rc' h Hh') (proj2 Rc1' h Hh)).
        - apply (C71_once_partial _ _ _ _ _ _ _ d j j' c2 c2' T2 S2 D2 G2 Hc2 Hc2' Rc2). apply represents_stands in Rc2'. apply represents_stands.
          split; [apply Rc2'|]. intros h Hh. assert (Hh' : In h (hs1 ++ hs2)) by (apply in_app_iff; auto).
          apply (stands_move h _ (d' (hp_name h)) _ _ (C h Hh') (proj2 Rc h Hh') (proj2 Rc' h Hh') (proj2 Rc2' h Hh)). }
      assert (Fun : forall p k k', R p k -> R p k' -> k = k').
      { intros [i j] k k' (c & c1 & c2 & Hc & Hc1 & Hc2 & d & Rc & Rc1 & Rc2) (c' & c1' & c2' & Hc' & Hc1' & Hc2' & d' & Rc' & Rc1' & Rc2').
        simpl in *. assert (c1' = c1) by congruence. assert (c2' = c2) by congruence. subst c1' c2'.
        apply (C71_once_partial _ _ _ _ _ _ _ d k k' c c' T S D G Hc Hc' Rc). apply represents_stands in Rc', Rc1, Rc1', Rc2, Rc2'. apply represents_stands.
        split; [apply Rc'|]. intros h Hh. assert (Hh' := Hh). apply in_app_iff in Hh'. destruct Hh' as [Hh'|Hh'].
        - apply (stands_move h _ (d' (hp_name h)) _ _ (C h Hh) (proj2 Rc1 h Hh') (proj2 Rc1' h Hh') (proj2 Rc' h Hh)).
        - apply (stands_move h _ (d' (hp_name h)) _ _ (C h Hh) (proj2 Rc2 h Hh') (proj2 Rc2' h Hh') (proj2 Rc' h Hh)). }
      assert (Bd : forall (A : Type) (m : list A) i, In i (seq 0 (length m)) <-> exists x, nth_error m i = Some x).
      { intros A m i. rewrite in_seq. split.
        - intros (_ & K). destruct (nth_error m i) eqn:Q; [eauto|]. apply nth_error_None in Q. simpl in K. lia.
        - intros (x & K). split; [lia|]. simpl. apply nth_error_Some. congruence. }
      apply Nat.le_antisymm.
      - rewrite <- (seq_length (length l) 0), <- (seq_length (length l1) 0), <- (seq_length (length l2) 0), <- prod_length.
        apply (inj_count (fun k p => R p k)); [apply seq_NoDup| |intros k k' p _ _; apply Fun].
        intros k Hk. apply Bd in Hk. destruct Hk as (c & Hc). destruct (C140_split_partial c (nth_error_In _ _ Hc)) as (c1 & c2 & H1 & H2 & M).
        apply In_nth_error in H1, H2. destruct H1 as (i & Hi), H2 as (j & Hj). exists (i, j). split; [|exists c, c1, c2; auto].
        apply in_prod_iff. split; apply Bd; eauto.
      - rewrite <- (seq_length (length l) 0) at 1. rewrite <- (seq_length (length l1) 0), <- (seq_length (length l2) 0), <- prod_length.
        apply (inj_count R); [apply nodup_prod; apply seq_NoDup| |intros p p' k _ _; apply Inj].
        intros [i j] Hp. apply in_prod_iff in Hp. destruct Hp as (Hi & Hj). apply Bd in Hi, Hj. destruct Hi as (c1 & Hi), Hj as (c2 & Hj).
        destruct (C140_join_partial c1 c2 (nth_error_In _ _ Hi) (nth_error_In _ _ Hj)) as (c & Hc & M). apply In_nth_error in Hc. destruct Hc as (k & Hk).
        exists k. split; [apply Bd; eauto|]. exists c, c1, c2. auto.
    Qed.
  End Two.

  (** ** The neighbours of a configuration are those of its halves *)
  Record halves (hs hsA hsB : list hp) (cs csA csB : list cond) (fs fsA fsB : list fclause) : Prop := {
    hv_hps : forall h, In h hs <-> In h hsA \/ In h hsB;
    hv_conds : forall c, In c cs <-> In c csA \/ In c csB;
    hv_forbs : forall f, In f fs <-> In f fsA \/ In f fsB;
    hv_left : refs hsA csA fsA;
    hv_right : refs hsB csB fsB;
    hv_apart : forall g h, In g hsA -> In h hsB -> hp_name g <> hp_name h
  }.
  Lemma halves_swap hs hsA hsB cs csA csB fs fsA fsB : halves hs hsA hsB cs csA csB fs fsA fsB -> halves hs hsB hsA cs csB csA fs fsB fsA.
  Proof.
    intros [A B C D F G]. constructor; [intros h; rewrite A; tauto|intros h; rewrite B; tauto|intros h; rewrite C; tauto|exact F|exact D|].
    intros g h Hg Hh K. exact (G h g Hh Hg (eq_sym K)).
  Qed.
  Lemma parts_halves hs1 hs2 cs1 cs2 fs1 fs2 : parts hs1 hs2 cs1 cs2 fs1 fs2 ->
    halves (hs1 ++ hs2) hs1 hs2 (cs1 ++ cs2) cs1 cs2 (fs1 ++ fs2) fs1 fs2.
  Proof.
    intros P. constructor; [intros x; apply in_app_iff..|apply P|apply P|]. intros g h Hg Hh. apply (parts_apart _ _ _ _ _ _ _ _ P Hg Hh).
  Qed.

  Section Half.
    Context {s sA : space} {hs hsA hsB : list hp} {cs csA csB : list cond} {fs fsA fsB : list fclause}.
    Hypothesis H : halves hs hsA hsB cs csA csB fs fsA fsB.

    Lemma half_active d h : In h hsA -> (active cs d (hp_name h) <-> active csA d (hp_name h)).
    Proof.
      intros Hh. split; intros A c Hc Ha; [apply A; [apply (hv_conds _ _ _ _ _ _ _ _ _ H); left|]; assumption|].
      apply (hv_conds _ _ _ _ _ _ _ _ _ H) in Hc. destruct Hc as [Hc|Hc]; [apply A; assumption|].
      exfalso. destruct (child_in _ _ _ _ _ (hv_right _ _ _ _ _ _ _ _ _ H) Hc Ha) as (g & Hg & En). exact (hv_apart _ _ _ _ _ _ _ _ _ H h g Hh Hg (eq_sym En)).
    Qed.
    Lemma half_valid fs' d : (forall f, In f fsA -> In f fs') -> valid hs cs fs' d -> valid hsA csA fsA d.
    Proof.
      intros I [Vl Va Vf]. constructor.
      - intros h w Hh. apply Vl. apply (hv_hps _ _ _ _ _ _ _ _ _ H). auto.
      - intros h Hh. rewrite <- (half_active d h Hh). apply Va. apply (hv_hps _ _ _ _ _ _ _ _ _ H). auto.
      - intros f Hf. apply Vf, I, Hf.
    Qed.
    Lemma half_updated d k w d' : updated hs cs d k w d' -> updated hsA csA d k w d'.
    Proof.
      intros [U1 U2]. split; [exact U1|]. intros h Hh Ne. rewrite <- (half_active d' h Hh). apply U2; [apply (hv_hps _ _ _ _ _ _ _ _ _ H); auto|exact Ne].
    Qed.
  End Half.

  Section Exchange.
    Context {s sA sB : space} {hs hsA hsB : list hp} {cs csA csB : list cond} {fs fsA fsB : list fclause}.
    Hypothesis H : halves hs hsA hsB cs csA csB fs fsA fsB.
    Hypothesis T : tame s hs cs fs.
    Hypothesis TA : tame sA hsA csA fsA.
    Hypothesis TB : tame sB hsB csB fsB.
    Hypothesis Or : orderly cs.
    Hypothesis OrA : orderly csA.
    Context {c cA : config} {d : assignment}.
    Hypothesis Rep : represents s hs c d.
    Hypothesis RepA : represents sA hsA cA d.
    Hypothesis Sh : shows s hs c d.
    Hypothesis ShA : shows sA hsA cA d.
    Hypothesis V : valid hs cs fs d.
    Hypothesis Ex : exact_all hs d.
    Variable num : nat.
    Hypothesis Li : forall h, In h hs -> listed num h \/ exists v, hp_kind h = KConst v.

    Lemma half_steady : steady num hs /\ steady num hsA.
    Proof.
      assert (G : steady num hs).
      { intros h lo hi log dd Hh K. left. destruct (Li h Hh) as [Hl|(v & Hv)]; [|congruence]. unfold listed in Hl. rewrite K in Hl. apply Hl. }
      split; [exact G|]. intros h lo hi log dd Hh. apply G. apply (hv_hps _ _ _ _ _ _ _ _ _ H). auto.
    Qed.
    Lemma half_exact : exact_all hsA d.
    Proof. intros h w Hh. apply Ex. apply (hv_hps _ _ _ _ _ _ _ _ _ H). auto. Qed.
    Lemma half_validA : valid hsA csA fsA d.
    Proof. apply (half_valid H fs d); [|exact V]. intros f Hf. apply (hv_forbs _ _ _ _ _ _ _ _ _ H). auto. Qed.
    Lemma half_validB : valid hsB csB fsB d.
    Proof. apply (half_valid (halves_swap _ _ _ _ _ _ _ _ _ H) fs d); [|exact V]. intros f Hf. apply (hv_forbs _ _ _ _ _ _ _ _ _ H). auto. Qed.

    (** the other half stays when a value of this one is exchanged *)
    Lemma half_other g w d' : In g hsA -> updated hs cs d (hp_name g) w d' -> forall h, In h hsB -> d' (hp_name h) = d (hp_name h).
    Proof.
      intros Hg U h Hh. set (d2 := fun n => if String.eqb n (hp_name g) then Some w else d n).
      assert (Ne : forall x, In x hsB -> hp_name x <> hp_name g) by (intros x Hx Eq; exact (hv_apart _ _ _ _ _ _ _ _ _ H g x Hg Hx (eq_sym Eq))).
      assert (D2 : forall x, In x hsB -> d2 (hp_name x) = d (hp_name x)).
      { intros x Hx. unfold d2. rewrite (proj2 (String.eqb_neq _ _) (Ne x Hx)). reflexivity. }
      assert (R := hv_right _ _ _ _ _ _ _ _ _ H).
      assert (V2 : valid hsB csB fsB d2) by (apply (valid_same hsB csB fsB d d2 R); [intros x Hx; symmetry; apply D2, Hx|exact half_validB]).
      rewrite <- (D2 h Hh). apply (C20_unique sB hsB csB fsB d (hp_name g) w d' d2 (tm_built _ _ _ _ TB) R); [| |exact Hh].
      - apply (half_updated (halves_swap _ _ _ _ _ _ _ _ _ H)). exact U.
      - split; [unfold d2; rewrite String.eqb_refl; reflexivity|]. intros x Hx Nx. assert (Va := va_active _ _ _ _ V2 x Hx). rewrite (D2 x Hx) in *. split.
        + intros A. apply Va in A. destruct (d (hp_name x)); [reflexivity|congruence].
        + intros A. destruct (d (hp_name x)); [|reflexivity]. exfalso. apply A, Va. discriminate.
    Qed.

    Lemma found o fuel out r cfg s0 hs0 cs0 fs0 c0 : tame s0 hs0 cs0 fs0 -> orderly cs0 -> represents s0 hs0 c0 d -> valid hs0 cs0 fs0 d -> exact_all hs0 d ->
      oracle_ok o -> steady num hs0 -> (forall h, In h hs0 -> In h hs) ->
      get_one_exchange_neighbourhood fuel s0 c0 num o = (out, r) -> In cfg out ->
      exists h u w d', d (hp_name h) = Some u /\ exchanged s0 hs0 cs0 fs0 d cfg h w d' /\ listed num h /\ neighbour h u w.
    Proof.
      intros T0 Or0 R0 V0 E0 Ok_ S0 I0 Hr Hc. destruct (C25_sound_partial _ _ _ _ _ _ _ _ _ _ _ _ T0 Or0 R0 V0 E0 Ok_ S0 Hr Hc) as (h & u & w & d' & Hu & X & Df & _).
      assert (Hh := xc_in _ _ _ _ _ _ _ _ _ X).
      assert (C := so_constructed (built_ok _ _ _ _ (tm_built _ _ _ _ T0)) h Hh).
      exists h, u, w, d'. split; [exact Hu|]. split; [exact X|].
      assert (Dw : py_eqb w u = false).
      { destruct Df as [(lo & hi & log & dd & K)|Dw]; [|exact Dw]. destruct (Li h (I0 h Hh)) as [Q|(v & Q)]; [|congruence]. unfold listed in Q. rewrite K in Q. destruct Q. }
      assert (Hl : listed num h).
      { destruct (Li h (I0 h Hh)) as [Q|(v & Q)]; [exact Q|]. exfalso. assert (Hw := proj1 (xc_upd _ _ _ _ _ _ _ _ _ X)). assert (Lw := xc_legal _ _ _ _ _ _ _ _ _ X h w Hh Hw).
        assert (Lu := va_legal _ _ _ _ V0 h u Hh Hu). unfold legal_value in Lw, Lu. rewrite Q in Lw, Lu.
        assert (A : py_eqb w v = true) by exact Lw. assert (A' : py_eqb u v = true) by exact Lu.
        rewrite (py_eqb_trans w v u A) in Dw; [discriminate|]. rewrite py_eqb_sym. exact A'. }
      split; [exact Hl|]. apply (C138_neighbour s0 hs0 cs0 fs0 c0 d num o fuel out r cfg h u w d' T0 Or0 R0 V0 E0 Ok_ S0 Hr Hc Hu X Dw Hl).
    Qed.

    (** a neighbour of the whole that exchanges a value of this half comes from a neighbour of the half *)
    Lemma half_out o fuel out g u w d' : oracle_ok o ->
      get_one_exchange_neighbourhood fuel sA cA num o = (out, Ok tt) ->
      In g hsA -> d (hp_name g) = Some u -> listed num g -> neighbour g u w -> updated hs cs d (hp_name g) w d' ->
      (forall f, In f fs -> In (hp_name g) (forb_names f) -> ~ violated d' f) ->
      (exists cfg, In cfg out /\ represents sA hsA cfg d') /\ forall h, In h hsB -> d' (hp_name h) = d (hp_name h).
    Proof.
      intros Ok_ Hr Hg Hu Hl Nb U Nv. split; [|exact (half_other g w d' Hg U)].
      apply (C65_complete sA hsA csA fsA cA d num o fuel out g u w d' TA OrA RepA ShA half_validA half_exact Ok_ Hr Hg Hu Hl Nb (half_updated H d _ w d' U)).
      intros f Hf. apply Nv. apply (hv_forbs _ _ _ _ _ _ _ _ _ H). auto.
    Qed.

    (** a neighbour of this half is one of the whole *)
    Lemma half_in o oA fuel fuelA out outA r cfgA : oracle_ok o -> oracle_ok oA ->
      get_one_exchange_neighbourhood fuel s c num o = (out, Ok tt) ->
      get_one_exchange_neighbourhood fuelA sA cA num oA = (outA, r) -> In cfgA outA ->
      exists cfg d', In cfg out /\ represents s hs cfg d' /\ represents sA hsA cfgA d' /\ forall h, In h hsB -> d' (hp_name h) = d (hp_name h).
    Proof.
      intros Ok_ OkA Hr HrA Hc. assert (IA : forall h, In h hsA -> In h hs) by (intros h Hh; apply (hv_hps _ _ _ _ _ _ _ _ _ H); auto).
      destruct (found oA fuelA outA r cfgA sA hsA csA fsA cA TA OrA RepA half_validA half_exact OkA (proj2 half_steady) IA HrA Hc) as (g & u & w & dA & Hu & X & Hl & Nb).
      assert (Hg := xc_in _ _ _ _ _ _ _ _ _ X). destruct (xc_upd _ _ _ _ _ _ _ _ _ X) as [U1 U2].
      set (d' := fun n => if existsb (fun h => String.eqb (hp_name h) n) hsA then dA n else d n).
      assert (DA : forall h, In h hsA -> d' (hp_name h) = dA (hp_name h)).
      { intros h Hh. unfold d'. replace (existsb _ hsA) with true; [reflexivity|]. symmetry. apply existsb_exists. exists h. split; [exact Hh|apply String.eqb_refl]. }
      assert (DB : forall h, In h hsB -> d' (hp_name h) = d (hp_name h)).
      { intros h Hh. unfold d'. destruct (existsb _ hsA) eqn:Q; [|reflexivity]. apply existsb_exists in Q. destruct Q as (x & Hx & Ex'). apply String.eqb_eq in Ex'.
        exfalso. exact (hv_apart _ _ _ _ _ _ _ _ _ H x h Hx Hh Ex'). }
      assert (RA := hv_left _ _ _ _ _ _ _ _ _ H). assert (RB := hv_right _ _ _ _ _ _ _ _ _ H).
      assert (AA : forall h, In h hsA -> (active cs d' (hp_name h) <-> active csA dA (hp_name h))).
      { intros h Hh. rewrite (half_active H d' h Hh). assert (K : forall a, In a csA -> (holds d' a <-> holds dA a)).
        { intros a Ha. apply ConfigProofs.holds_ext. intros l Hl'. apply (DA (l_parent l)). apply (proj1 RA a Ha l Hl'). }
        split; intros A a Ha Ta; apply (K a Ha); apply A; assumption. }
      assert (AB : forall h, In h hsB -> (active cs d' (hp_name h) <-> active cs d (hp_name h))).
      { intros h Hh. rewrite (half_active (halves_swap _ _ _ _ _ _ _ _ _ H) d' h Hh), (half_active (halves_swap _ _ _ _ _ _ _ _ _ H) d h Hh).
        assert (K : forall a, In a csB -> (holds d' a <-> holds d a)).
        { intros a Ha. apply ConfigProofs.holds_ext. intros l Hl'. apply (DB (l_parent l)). apply (proj1 RB a Ha l Hl'). }
        split; intros A a Ha Ta; apply (K a Ha); apply A; assumption. }
      assert (U : updated hs cs d (hp_name g) w d').
      { split; [rewrite (DA g Hg); exact U1|]. intros h Hh Ne. assert (Hh' := Hh). apply (hv_hps _ _ _ _ _ _ _ _ _ H) in Hh. destruct Hh as [Hh|Hh].
        - rewrite (AA h Hh), (DA h Hh). apply U2; assumption.
        - rewrite (AB h Hh), (DB h Hh). assert (Va := va_active _ _ _ _ V h Hh'). split.
          + intros A. apply Va in A. destruct (d (hp_name h)); [reflexivity|congruence].
          + intros A. destruct (d (hp_name h)); [|reflexivity]. exfalso. apply A, Va. discriminate. }
      destruct (C65_complete s hs cs fs c d num o fuel out g u w d' T Or Rep Sh V Ex Ok_ Hr (IA g Hg) Hu Hl Nb U) as (cfg & Hcfg & Rc).
      - intros f Hf Hn Vi. apply (hv_forbs _ _ _ _ _ _ _ _ _ H) in Hf. destruct Hf as [Hf|Hf].
        + apply (xc_forb _ _ _ _ _ _ _ _ _ X f Hf Hn). apply (violated_ext d' dA f); [|exact Vi].
          intros n Hn'. apply names_hps in Hn'. destruct Hn' as (x & Hx & <-). apply DA. apply (proj2 RA f Hf x Hx).
        + apply names_hps in Hn. destruct Hn as (x & Hx & Eq). exact (hv_apart _ _ _ _ _ _ _ _ _ H g x Hg (proj2 RB f Hf x Hx) (eq_sym Eq)).
      - exists cfg, d'. split; [exact Hcfg|]. split; [exact Rc|]. split; [|exact DB]. apply (represents_ext sA hsA cfgA dA d'); [intros h Hh; symmetry; apply DA, Hh|].
        exact (xc_rep _ _ _ _ _ _ _ _ _ X).
    Qed.
  End Exchange.

  (** When every hyperparameter has all its neighbours listed (so there are no floats, and
      few enough integers), the neighbours of a configuration of two unrelated spaces are
      exactly those that exchange one of its halves by a neighbour of that half. *)
  Theorem C140_neighbours_partial s s1 s2 hs1 hs2 cs1 cs2 fs1 fs2 c c1 c2 d num o o1 o2 fuel fuel1 fuel2 out out1 out2 :
    parts hs1 hs2 cs1 cs2 fs1 fs2 ->
    tame s (hs1 ++ hs2) (cs1 ++ cs2) (fs1 ++ fs2) -> tame s1 hs1 cs1 fs1 -> tame s2 hs2 cs2 fs2 ->
    orderly (cs1 ++ cs2) ->
    represents s (hs1 ++ hs2) c d -> represents s1 hs1 c1 d -> represents s2 hs2 c2 d ->
    shows s (hs1 ++ hs2) c d -> shows s1 hs1 c1 d -> shows s2 hs2 c2 d ->
    valid (hs1 ++ hs2) (cs1 ++ cs2) (fs1 ++ fs2) d -> exact_all (hs1 ++ hs2) d ->
    (forall h, In h (hs1 ++ hs2) -> listed num h \/ exists v, hp_kind h = KConst v) ->
    oracle_ok o -> oracle_ok o1 -> oracle_ok o2 ->
    get_one_exchange_neighbourhood fuel s c num o = (out, Ok tt) ->
    get_one_exchange_neighbourhood fuel1 s1 c1 num o1 = (out1, Ok tt) ->
    get_one_exchange_neighbourhood fuel2 s2 c2 num o2 = (out2, Ok tt) ->
    (forall cfg, In cfg out ->
       (exists cfg1, In cfg1 out1 /\ made_of s s1 s2 hs1 hs2 cfg cfg1 c2) \/
       (exists cfg2, In cfg2 out2 /\ made_of s s1 s2 hs1 hs2 cfg c1 cfg2)) /\
    (forall cfg1, In cfg1 out1 -> exists cfg, In cfg out /\ made_of s s1 s2 hs1 hs2 cfg cfg1 c2) /\
    (forall cfg2, In cfg2 out2 -> exists cfg, In cfg out /\ made_of s s1 s2 hs1 hs2 cfg c1 cfg2).
  Proof.
    intros P T T1 T2 Or R R1 R2 Sh Sh1 Sh2 V Ex Li Ok_ Ok1 Ok2 Hr H1 H2. destruct (orderly_parts _ _ _ _ _ _ _ _ _ T T1 T2 Or) as (Or1 & Or2).
    assert (H := parts_halves _ _ _ _ _ _ P). assert (H' := halves_swap _ _ _ _ _ _ _ _ _ H).
    split; [|split].
    - intros cfg Hc.
      destruct (found (hs := hs1 ++ hs2) num Li o fuel out (Ok tt) cfg s (hs1 ++ hs2) (cs1 ++ cs2) (fs1 ++ fs2) c T Or R V Ex Ok_ (proj1 (half_steady H num Li)) (fun h K => K) Hr Hc)
        as (g & u & w & d' & Hu & X & Hl & Nb).
      assert (Hg := xc_in _ _ _ _ _ _ _ _ _ X). assert (U := xc_upd _ _ _ _ _ _ _ _ _ X). assert (Rc := xc_rep _ _ _ _ _ _ _ _ _ X). assert (F := xc_forb _ _ _ _ _ _ _ _ _ X).
      apply in_app_or in Hg. destruct Hg as [Hg|Hg]; [left|right].
      + destruct (half_out H T1 T2 Or1 R1 Sh1 V Ex num o1 fuel1 out1 g u w d' Ok1 H1 Hg Hu Hl Nb U F) as ((cfg1 & Hc1 & Rc1) & Eq).
        exists cfg1. split; [exact Hc1|]. exists d'. split; [exact Rc|]. split; [exact Rc1|]. apply (represents_ext s2 hs2 c2 d d'); [|exact R2]. intros h Hh. symmetry. apply Eq, Hh.
      + destruct (half_out H' T2 T1 Or2 R2 Sh2 V Ex num o2 fuel2 out2 g u w d' Ok2 H2 Hg Hu Hl Nb U F) as ((cfg2 & Hc2 & Rc2) & Eq).
        exists cfg2. split; [exact Hc2|]. exists d'. split; [exact Rc|]. split; [|exact Rc2]. apply (represents_ext s1 hs1 c1 d d'); [|exact R1]. intros h Hh. symmetry. apply Eq, Hh.
    - intros cfg1 Hc1.
      destruct (half_in H T T1 Or Or1 R R1 Sh V Ex num Li o o1 fuel fuel1 out out1 _ cfg1 Ok_ Ok1 Hr H1 Hc1) as (cfg & d' & Hc & Rc & Rc1 & Eq).
      exists cfg. split; [exact Hc|]. exists d'. split; [exact Rc|]. split; [exact Rc1|]. apply (represents_ext s2 hs2 c2 d d'); [|exact R2]. intros h Hh. symmetry. apply Eq, Hh.
    - intros cfg2 Hc2.
      destruct (half_in H' T T2 Or Or2 R R2 Sh V Ex num Li o o2 fuel fuel2 out out2 _ cfg2 Ok_ Ok2 Hr H2 Hc2) as (cfg & d' & Hc & Rc & Rc2 & Eq).
      exists cfg. split; [exact Hc|]. exists d'. split; [exact Rc|]. split; [|exact Rc2]. apply (represents_ext s1 hs1 c1 d d'); [|exact R1]. intros h Hh. symmetry. apply Eq, Hh.
  Qed.
End Product.

(** ** Example: the parts of C136; three configurations each, and nine together *)
Section Witness.
  #[local] Existing Instance rat_env.
  #[local] Existing Instance rat_env_laws.
  Example C140_ex : exists l l1 l2, tame both_space (left_hps ++ right_hps) (left_conds ++ []) ([] ++ [right_and]) /\
    tame left_space left_hps left_conds [] /\ tame right_space right_hps [] [right_and] /\ steady_grid [] (left_hps ++ right_hps) /\
    (forall h, In h (left_hps ++ right_hps) -> int_distinct [] h) /\
    generate_grid 40 both_space [] = Ok l /\ generate_grid 40 left_space [] = Ok l1 /\ generate_grid 40 right_space [] = Ok l2 /\
    length l = 9 /\ length l1 = 3 /\ length l2 = 3.
  Proof.
    destruct (generate_grid 40 both_space []) as [l|] eqn:El; [|vm_compute in El; discriminate El].
    destruct (generate_grid 40 left_space []) as [l1|] eqn:E1; [|vm_compute in E1; discriminate E1].
    destruct (generate_grid 40 right_space []) as [l2|] eqn:E2; [|vm_compute in E2; discriminate E2].
    exists l, l1, l2. split; [exact both_tame|]. split; [exact left_tame|]. split; [exact right_tame|].
    split.
    { intros h g Hh Hg. unfold round_value. repeat (destruct Hh as [<-|Hh]; [apply py_eqb_refl|]). destruct Hh. }
    split; [intros h Hh; repeat (destruct Hh as [<-|Hh]; [exact I|]); destruct Hh|].
    split; [reflexivity|]. split; [reflexivity|]. split; [reflexivity|].
    vm_compute in El, E1, E2. injection El as <-. injection E1 as <-. injection E2 as <-. split; [reflexivity|split; reflexivity].
  Qed.

  Definition both_d := store (left_hps ++ right_hps) (given both_vals).
  Definition both_near := fst (get_one_exchange_neighbourhood 20 both_space both_config 4 (turns 3)).
  Definition left_near := fst (get_one_exchange_neighbourhood 20 left_space left_config 4 (turns 1)).
  Definition right_near := fst (get_one_exchange_neighbourhood 20 right_space right_config 4 (turns 2)).

  (** r = 0, p = 0, q = 1: r can be exchanged, which makes x active, and p; q cannot, since p = 0 and q = 0 are forbidden together *)
  Example C140_neighbours_ex : parts left_hps right_hps left_conds [] [] [right_and] /\
    represents both_space (left_hps ++ right_hps) both_config both_d /\ represents left_space left_hps left_config both_d /\
    represents right_space right_hps right_config both_d /\
    shows both_space (left_hps ++ right_hps) both_config both_d /\ shows left_space left_hps left_config both_d /\ shows right_space right_hps right_config both_d /\
    valid (left_hps ++ right_hps) (left_conds ++ []) ([] ++ [right_and]) both_d /\ exact_all (left_hps ++ right_hps) both_d /\
    (forall h, In h (left_hps ++ right_hps) -> listed 4 h \/ exists v, hp_kind h = KConst v) /\
    get_one_exchange_neighbourhood 20 both_space both_config 4 (turns 3) = (both_near, Ok tt) /\
    get_one_exchange_neighbourhood 20 left_space left_config 4 (turns 1) = (left_near, Ok tt) /\
    get_one_exchange_neighbourhood 20 right_space right_config 4 (turns 2) = (right_near, Ok tt) /\
    length both_near = 2 /\ length left_near = 1 /\ length right_near = 1.
  Proof.
    assert (O := built_ok _ _ _ _ (tm_built _ _ _ _ both_tame)). assert (O1 := built_ok _ _ _ _ (tm_built _ _ _ _ left_tame)). assert (O2 := built_ok _ _ _ _ (tm_built _ _ _ _ right_tame)).
    assert (St := store_stored (left_hps ++ right_hps) (given both_vals) (so_names_nodup O)).
    assert (St1 := store_stored left_hps (given (only left_hps both_vals)) (so_names_nodup O1)).
    assert (St2 := store_stored right_hps (given (only right_hps both_vals)) (so_names_nodup O2)).
    assert (Hc : config_of_values both_space both_vals false = Ok both_config) by (vm_compute; reflexivity).
    assert (H1 : config_of_values left_space (only left_hps both_vals) false = Ok left_config) by (vm_compute; reflexivity).
    assert (H2 : config_of_values right_space (only right_hps both_vals) false = Ok right_config) by (vm_compute; reflexivity).
    assert (Ex : forall d, exact_all (left_hps ++ right_hps) d).
    { intros d h w Hh _. repeat (destruct Hh as [<-|Hh]; [exact I|]). destruct Hh. }
    split; [constructor; [apply (tm_refs _ _ _ _ left_tame)|apply (tm_refs _ _ _ _ right_tame)|apply (so_names_nodup O)]|].
    split; [exact (C20_start _ _ _ _ _ _ _ _ (tm_built _ _ _ _ both_tame) St Hc)|].
    split. { apply (represents_ext left_space left_hps left_config (store left_hps (given (only left_hps both_vals)))); [|exact (C20_start _ _ _ _ _ _ _ _ (tm_built _ _ _ _ left_tame) St1 H1)].
      intros h Hh. repeat (destruct Hh as [<-|Hh]; [vm_compute; reflexivity|]). destruct Hh. }
    split. { apply (represents_ext right_space right_hps right_config (store right_hps (given (only right_hps both_vals)))); [|exact (C20_start _ _ _ _ _ _ _ _ (tm_built _ _ _ _ right_tame) St2 H2)].
      intros h Hh. repeat (destruct Hh as [<-|Hh]; [vm_compute; reflexivity|]). destruct Hh. }
    assert (Sw : forall s hs c, (forall h, In h hs -> match both_d (hp_name h) with Some u => match getitem s c (hp_name h) with Ok z => py_eqb z (round_value h u) = true | _ => False end | None => True end) -> shows s hs c both_d).
    { intros s hs c K h u Hh Hu. specialize (K h Hh). rewrite Hu in K. destruct (getitem s c (hp_name h)) as [z|]; [exists z; auto|contradiction]. }
    split; [apply Sw; intros h Hh; repeat (destruct Hh as [<-|Hh]; [vm_compute; first [reflexivity|exact I]|]); destruct Hh|].
    split; [apply Sw; intros h Hh; repeat (destruct Hh as [<-|Hh]; [vm_compute; first [reflexivity|exact I]|]); destruct Hh|].
    split; [apply Sw; intros h Hh; repeat (destruct Hh as [<-|Hh]; [vm_compute; first [reflexivity|exact I]|]); destruct Hh|].
    split; [apply (C17_accepts_valid_partial both_space _ _ _ both_vals _ both_tame St (Ex _)); exists both_config; exact Hc|].
    split; [apply Ex|]. split; [intros h Hh; left; repeat (destruct Hh as [<-|Hh]; [exact I|]); destruct Hh|].
    repeat split; vm_compute; reflexivity.
  Qed.
End Witness.
