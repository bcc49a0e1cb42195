(** * Property C31: estimate_size bounds the number of configurations *)
From Coq Require Import String List ZArith QArith Bool Lia Permutation Relations.
From Verif Require Import Base ListFacts Numeric NumericProofs HP HPProofs Properties_HP Cond Forb EqFacts Dag DagProofs
  Space CommitProofs Spec SpaceProofs CnodeProofs ForbProofs EvalProofs ForbEval MergeProofs ValidProofs ConfigProofs
  ChangeProofs PassProofs ReadProofs Ex Properties_Eval Properties_Config Properties_Change.
Import ListNotations.
Open Scope nat_scope.

(** [d] and [d'] give some hyperparameter different values, or only one of them gives it one *)
Definition differ (hs : list hp) (d d' : assignment) : Prop :=
  exists h, In h hs /\ match d (hp_name h), d' (hp_name h) with
    | Some w, Some w' => py_eqb w w' = false
    | None, None => False
    | _, _ => True
    end.
Definition pairwise_differ (hs : list hp) (ds : list assignment) : Prop :=
  forall i j d d', i < j -> nth_error ds i = Some d -> nth_error ds j = Some d' -> differ hs d d'.

(** the values of a finite hyperparameter *)
Fixpoint zseq (lo : Z) (n : nat) : list Z := match n with O => [] | S n' => lo :: zseq (lo + 1) n' end.
Definition options (h : hp) : list value :=
  match hp_kind h with
  | KCat c _ | KOrd c => c
  | KConst v => [v]
  | KInt lo hi _ _ => map VInt (zseq lo (Z.to_nat (hi - lo + 1)))
  | KFloat _ _ _ _ => []
  end.

Section Size.
  Context {E : Env} {L : EnvLaws E}.

  Lemma zseq_nth n : forall lo i, i < n -> nth_error (zseq lo n) i = Some (lo + Z.of_nat i)%Z.
  Proof.
    induction n as [|n IH]; intros lo i Hi; [lia|]. destruct i as [|i]; simpl zseq; cbn [nth_error]; [f_equal; lia|].
    rewrite IH by lia. f_equal. lia.
  Qed.
  Lemma zseq_len n : forall lo, length (zseq lo n) = n.
  Proof. induction n as [|n IH]; intros lo; simpl; [reflexivity|f_equal; apply IH]. Qed.
  Lemma zseq_in n lo z : In z (zseq lo n) <-> (lo <= z < lo + Z.of_nat n)%Z.
  Proof.
    split.
    - intros H. apply In_nth_error in H. destruct H as (i & Hi). assert (i < n) by (rewrite <- (zseq_len n lo); apply nth_error_Some; congruence).
      rewrite zseq_nth in Hi by assumption. inversion Hi. lia.
    - intros H. apply (nth_error_In _ (Z.to_nat (z - lo))). rewrite zseq_nth by lia. f_equal. lia.
  Qed.

  Lemma options_size h k : constructed h -> hp_size h = Some k -> Z.of_nat (length (options h)) = k /\ (0 < k)%Z /\
    has_dup (options h) = false.
  Proof.
    intros C. assert (W := constructed_wf h C). unfold wf_hp, hp_size, options in *. destruct (hp_kind h) as [c w|c|v|lo hi l d|]; intros H; inversion H; subst.
    - split; [reflexivity|]. split; [|apply W]. destruct W as [W _]. destruct c; [congruence|simpl; lia].
    - split; [reflexivity|]. split; [|apply W]. destruct W as [W _]. destruct c; [congruence|simpl; lia].
    - repeat split; lia.
    - destruct W as [W _]. rewrite map_length, zseq_len. split; [lia|]. split; [lia|].
      generalize (Z.to_nat (hi - lo + 1)). clear. intros n. revert lo. induction n as [|n IH]; intros lo; simpl; [reflexivity|].
      rewrite IH, orb_false_r. destruct (py_in (VInt lo) (map VInt (zseq (lo + 1) n))) eqn:Ep; [|reflexivity]. exfalso.
      apply py_in_iff in Ep. destruct Ep as (y & Hy & Q). apply in_map_iff in Hy. destruct Hy as (z & <- & Hz).
      apply zseq_in in Hz. unfold py_eqb in Q. simpl in Q. apply Qeq_bool_iff in Q. unfold Qeq in Q. simpl in Q. lia.
  Qed.
  Lemma options_in h w : exact_value h w -> legal_value h w = true -> hp_size h <> None -> py_in w (options h) = true.
  Proof.
    unfold exact_value, legal_value, hp_size, options. destruct (hp_kind h) as [c ws|c|v|lo hi l d|]; intros Ex Lg S; try congruence.
    - simpl. unfold py_in. simpl. rewrite Lg. reflexivity.
    - destruct Ex as (a & z & Ha & Qz). rewrite Ha in Lg. rewrite (legal_int_Z lo hi z a Qz) in Lg.
      rewrite andb_true_iff, !Z.leb_le in Lg. apply py_in_iff. exists (VInt z). split.
      + apply in_map. apply zseq_in. lia.
      + destruct w; simpl in Ha; try discriminate; inversion Ha; subst; unfold py_eqb; simpl; apply Qeq_bool_iff; exact Qz.
  Qed.
  Lemma options_legal h w : In w (options h) -> legal_value h w = true /\ exact_value h w.
  Proof.
    unfold options, legal_value, exact_value. destruct (hp_kind h) as [c ws|c|v|lo hi l d|]; intros H.
    - split; [|exact I]. apply py_in_iff. exists w. split; [exact H|apply py_eqb_refl].
    - split; [|exact I]. apply py_in_iff. exists w. split; [exact H|apply py_eqb_refl].
    - destruct H as [<-|[]]. split; [apply py_eqb_refl|exact I].
    - apply in_map_iff in H. destruct H as (z & <- & Hz). apply zseq_in in Hz. simpl. split.
      + rewrite (legal_int_Z lo hi z) by apply Qeq_refl. rewrite andb_true_iff, !Z.leb_le. lia.
      + exists (inject_Z z), z. split; [reflexivity|apply Qeq_refl].
    - destruct H.
  Qed.

  (** ** tuples of positions *)
  Fixpoint tuples (ns : list nat) : list (list nat) :=
    match ns with
    | [] => [[]]
    | n :: ns' => concat (map (fun i => map (cons i) (tuples ns')) (seq 0 n))
    end.
  Lemma tuples_in ns l : In l (tuples ns) <-> Forall2 lt l ns.
  Proof.
    revert l. induction ns as [|n ns IH]; intros l; simpl.
    - split; [intros [<-|[]]; constructor|]. intros H. inversion H. auto.
    - rewrite in_concat. split.
      + intros (x & Hx & Hl). apply in_map_iff in Hx. destruct Hx as (i & <- & Hi). apply in_seq in Hi.
        apply in_map_iff in Hl. destruct Hl as (t & <- & Ht). constructor; [lia|]. apply IH. exact Ht.
      + intros H. inversion H as [|i ? t ? Hi Ht]; subst. exists (map (cons i) (tuples ns)). split.
        * apply in_map_iff. exists i. split; [reflexivity|]. apply in_seq. lia.
        * apply in_map. apply IH. exact Ht.
  Qed.
  Lemma tuples_len ns : length (tuples ns) = fold_right Nat.mul 1 ns.
  Proof.
    induction ns as [|n ns IH]; [reflexivity|]. simpl. rewrite <- IH.
    assert (G : forall l, length (concat (map (fun i => map (cons i) (tuples ns)) l)) = length l * length (tuples ns)).
    { induction l as [|x l IHl]; [reflexivity|]. simpl. rewrite app_length, map_length, IHl. reflexivity. }
    rewrite G, seq_length. reflexivity.
  Qed.
  Lemma NoDup_app_intro {A} (l m : list A) : NoDup l -> NoDup m -> (forall x, In x l -> ~ In x m) -> NoDup (l ++ m).
  Proof.
    induction 1 as [|x l Hx N IH]; intros M H; simpl; [exact M|]. constructor.
    - intros K. apply in_app_or in K. destruct K as [K|K]; [contradiction|]. apply (H x); [left; reflexivity|exact K].
    - apply IH; [exact M|]. intros y Hy. apply H. right. exact Hy.
  Qed.
  Lemma Forall2_length' {A B} (R : A -> B -> Prop) l m : Forall2 R l m -> length l = length m.
  Proof. induction 1; simpl; congruence. Qed.
  Lemma NoDup_concat {A B} (f : A -> list B) l : NoDup l -> (forall x, In x l -> NoDup (f x)) ->
    (forall x y b, In x l -> In y l -> In b (f x) -> In b (f y) -> x = y) -> NoDup (concat (map f l)).
  Proof.
    induction 1 as [|x l Hx N IH]; intros H1 H2; simpl; [constructor|]. apply NoDup_app_intro.
    - apply H1. left. reflexivity.
    - apply IH; [intros y Hy; apply H1; right; exact Hy|]. intros y z b Hy Hz. apply H2; right; assumption.
    - intros b Hb Hc. apply in_concat in Hc. destruct Hc as (m & Hm & Hbm). apply in_map_iff in Hm. destruct Hm as (y & <- & Hy).
      apply Hx. rewrite (H2 x y b (or_introl eq_refl) (or_intror Hy) Hb Hbm). exact Hy.
  Qed.
  Lemma tuples_nodup ns : NoDup (tuples ns).
  Proof.
    induction ns as [|n ns IH]; simpl; [repeat constructor; intros []|]. apply NoDup_concat.
    - apply seq_NoDup.
    - intros i _. apply FinFun.Injective_map_NoDup; [intros a b H; congruence|exact IH].
    - intros i j t _ _ Hi Hj. apply in_map_iff in Hi, Hj. destruct Hi as (a & <- & _), Hj as (b & K & _). congruence.
  Qed.

  Lemma sizes_prod (hs : list hp) : forall a z, Forall constructed hs ->
    fold_left (fun acc h => match acc, hp_size h with Some a, Some b => Some (a * b)%Z | _, _ => None end) hs (Some a) = Some z ->
    z = (a * Z.of_nat (fold_right Nat.mul 1%nat (map (fun h => length (options h)) hs)))%Z /\ forall h, In h hs -> hp_size h <> None.
  Proof.
    induction hs as [|h hs IH]; intros a z C; simpl.
    - intros H. inversion H. split; [lia|intros h []].
    - inversion C as [|? ? C1 C2]; subst. destruct (hp_size h) as [b|] eqn:Eb.
      + intros H. destruct (IH _ _ C2 H) as [-> K]. destruct (options_size h b C1 Eb) as (<- & _). split; [lia|].
        intros g [<-|Hg]; [congruence|auto].
      + intros H. exfalso. clear -H. induction hs as [|g hs IH]; simpl in H; [discriminate|auto].
  Qed.

  Definition code_of (hs : list hp) (d : assignment) : list nat :=
    map (fun h => match py_index (match d (hp_name h) with Some w => w | None => hp_default h end) (options h) with
                  | Some i => i | None => 0 end) hs.

  (** a valid assignment is determined by its values: two that do not contradict each other are equal *)
  Theorem C31_determined s hs cs fs fs' d d' : built s hs cs fs -> refs hs cs fs -> valid hs cs fs' d -> valid hs cs fs' d' ->
    (forall h w w', In h hs -> d (hp_name h) = Some w -> d' (hp_name h) = Some w' -> py_eqb w w' = true) ->
    ~ differ hs d d'.
  Proof.
    intros B R V V' Sm. assert (O := built_ok _ _ _ _ B).
    assert (G : forall n h, In h hs -> depth_of (d_nodes (s_dag s)) (hp_name h) <= n -> agree d d' h).
    { induction n as [|n IH]; intros h Hh Hn.
      - exfalso. assert (Ik : In (hp_name h) (keys s)).
        { eapply Permutation_in; [symmetry; apply (so_keys O)|]. apply in_map. exact Hh. }
        destruct (so_longest O _ Ik) as [_ Lg]. specialize (Lg 1 (chain_one _ _)). lia.
      - assert (A : active cs d (hp_name h) <-> active cs d' (hp_name h)).
        { assert (Hc : forall c, In c cs -> activates c (hp_name h) -> (holds d c <-> holds d' c)).
          { intros c Hc Ha. apply holds_agree; [apply cond_built_good, (so_cond_built O), Hc|]. intros l Hl.
            destruct (proj1 R c Hc l Hl) as [_ Hp]. apply (IH (l_parent l) Hp).
            assert (Rd : reads cs (hp_name (l_parent l)) (hp_name h)).
            { exists c. split; [exact Hc|]. split; [exact Ha|]. unfold cond_parents. apply in_map_iff. exists l. split; [reflexivity|exact Hl]. }
            assert (Ip : In (hp_name (l_parent l)) (keys s)).
            { eapply Permutation_in; [symmetry; apply (so_keys O)|]. apply in_map. exact Hp. }
            assert (Ih : In (hp_name h) (keys s)).
            { eapply Permutation_in; [symmetry; apply (so_keys O)|]. apply in_map. exact Hh. }
            destruct (so_longest O _ Ip) as [Cp _]. destruct (so_longest O _ Ih) as [_ Lh].
            specialize (Lh _ (chain_more _ _ _ _ Cp Rd)). lia. }
          split; intros K c Hc' Ha; apply (Hc c Hc' Ha), K; assumption. }
        rewrite <- (va_active _ _ _ _ V h Hh), <- (va_active _ _ _ _ V' h Hh) in A. unfold agree.
        destruct (d (hp_name h)) as [w|] eqn:Ed, (d' (hp_name h)) as [w'|] eqn:Ed'.
        + split; [apply (Sm h); assumption|]. split; [apply (va_legal _ _ _ _ V h); assumption|apply (va_legal _ _ _ _ V' h); assumption].
        + refine (proj1 A _ eq_refl). discriminate.
        + refine (proj2 A _ eq_refl). discriminate.
        + exact I. }
    intros (h & Hh & Df). specialize (G _ h Hh (le_n _)). unfold agree in G.
    destruct (d (hp_name h)), (d' (hp_name h)); try contradiction. destruct G as (Q & _). congruence.
  Qed.

  Lemma map_eq_in {A B} (f g : A -> B) l x : map f l = map g l -> In x l -> f x = g x.
  Proof. induction l as [|y l IH]; intros H Hx; [destruct Hx|]. simpl in H. inversion H. destruct Hx as [->|Hx]; auto. Qed.

  Lemma hps_perm s hs cs fs : space_ok s hs cs fs -> forall h, In h (hps s) <-> In h hs.
  Proof.
    intros O h. split; intros H.
    - unfold hps in H. apply in_map_iff in H. destruct H as ([n g] & <- & Hi). apply (so_items O) in Hi. apply Hi.
    - unfold hps. apply in_map_iff. exists (hp_name h, h). split; [reflexivity|]. apply (so_items O). auto.
  Qed.

  (** ** C31: a space of finite hyperparameters has at most estimate_size() configurations.
      Missing: the empty space (C31_refuted) *)
  Theorem C31_bound_partial s hs cs fs ds z : built s hs cs fs -> refs hs cs fs -> hs <> [] -> estimate_size s = Some z ->
    (forall d, In d ds -> valid hs cs fs d /\ exact_all hs d) -> pairwise_differ hs ds ->
    (Z.of_nat (length ds) <= z)%Z.
  Proof.
    intros B R Ne Es V P. assert (O := built_ok _ _ _ _ B). assert (Hp := hps_perm s hs cs fs O).
    unfold estimate_size in Es. destruct (hps s) as [|h0 l0] eqn:Eh.
    { destruct hs as [|h hs']; [congruence|]. destruct (proj2 (Hp h) (or_introl eq_refl)). }
    rewrite <- Eh in *. assert (C : Forall constructed (hps s)).
    { apply Forall_forall. intros h Hh. apply (so_constructed O), Hp, Hh. }
    destruct (sizes_prod (hps s) 1 z C Es) as [-> Fz]. rewrite Z.mul_1_l. apply inj_le.
    rewrite <- tuples_len, <- (map_length (code_of (hps s)) ds). apply NoDup_incl_length.
    - (* different assignments have different codes *)
      assert (N : forall i j d d', i < j -> nth_error ds i = Some d -> nth_error ds j = Some d' -> code_of (hps s) d <> code_of (hps s) d').
      { intros i j d d' Hij Hi Hj Eq. destruct (V d (nth_error_In _ _ Hi)) as [Vd Xd]. destruct (V d' (nth_error_In _ _ Hj)) as [Vd' Xd'].
        refine (C31_determined s hs cs fs fs d d' B R Vd Vd' _ (P i j d d' Hij Hi Hj)). intros h w w' Hh Hw Hw'.
        assert (K := map_eq_in _ _ _ h Eq (proj2 (Hp h) Hh)). cbv beta in K. rewrite Hw, Hw' in K.
        assert (Sz := Fz h (proj2 (Hp h) Hh)).
        assert (I1 := options_in h w (Xd h w Hh Hw) (va_legal _ _ _ _ Vd h w Hh Hw) Sz).
        assert (I2 := options_in h w' (Xd' h w' Hh Hw') (va_legal _ _ _ _ Vd' h w' Hh Hw') Sz).
        apply py_in_index in I1, I2. destruct I1 as (i1 & E1), I2 as (i2 & E2). rewrite E1, E2 in K. subst i2.
        apply py_index_some in E1, E2. destruct E1 as (u & U1 & U2 & _), E2 as (u' & U1' & U2' & _).
        assert (u' = u) by congruence. subst u'. apply (py_eqb_trans w u w'); [rewrite py_eqb_sym; exact U2|exact U2']. }
      clear V P. induction ds as [|d ds IH]; simpl; constructor.
      + intros Hin. apply in_map_iff in Hin. destruct Hin as (d' & Eq & Hd'). apply In_nth_error in Hd'. destruct Hd' as (j & Hj).
        apply (N 0 (S j) d d'); [lia|reflexivity|exact Hj|congruence].
      + apply IH. intros i j a b Hij Hi Hj. apply (N (S i) (S j)); [lia|exact Hi|exact Hj].
    - intros t Ht. apply in_map_iff in Ht. destruct Ht as (d & <- & Hd). apply tuples_in. unfold code_of.
      assert (Cl : forall h, In h (hps s) -> 0 < length (options h)).
      { intros h Hh. destruct (hp_size h) as [k|] eqn:Ek; [|destruct (Fz h Hh Ek)].
        destruct (options_size h k (so_constructed O h (proj1 (Hp h) Hh)) Ek) as (? & ? & _). lia. }
      clear -Cl. induction (hps s) as [|h l IH]; simpl; constructor.
      + destruct (py_index _ (options h)) as [i|] eqn:Ei; [apply py_index_lt in Ei; exact Ei|]. apply Cl. left. reflexivity.
      + apply IH. intros g Hg. apply Cl. right. exact Hg.
  Qed.

  (** without conditions and clauses there are exactly that many *)
  Definition pick_of (hs : list hp) (t : list nat) : assignment := fun n =>
    match find (fun ht => String.eqb (hp_name (fst ht)) n) (combine hs t) with
    | Some (h, i) => nth_error (options h) i
    | None => None
    end.
  Lemma pick_nth hs : forall t k h i, NoDup (map hp_name hs) -> length t = length hs -> nth_error hs k = Some h -> nth_error t k = Some i ->
    pick_of hs t (hp_name h) = nth_error (options h) i.
  Proof.
    unfold pick_of. induction hs as [|g hs IH]; intros [|j t] k h i N Lt Hk Ht; try discriminate; try (destruct k; discriminate).
    simpl in N. inversion N as [|? ? N1 N2]; subst. simpl. destruct k as [|k]; simpl in Hk, Ht.
    - inversion Hk; inversion Ht; subst. rewrite String.eqb_refl. reflexivity.
    - destruct (String.eqb_spec (hp_name g) (hp_name h)) as [K|K].
      + exfalso. apply N1. rewrite K. apply in_map. eapply nth_error_In; eauto.
      + apply (IH t k); auto.
  Qed.

  Theorem C31_exact s hs z : built s hs [] [] -> hs <> [] -> estimate_size s = Some z ->
    exists ds, Z.of_nat (length ds) = z /\ pairwise_differ hs ds /\ forall d, In d ds -> valid hs [] [] d /\ exact_all hs d.
  Proof.
    intros B Ne Es. assert (O := built_ok _ _ _ _ B). assert (Hp := hps_perm s hs [] [] O).
    unfold estimate_size in Es. destruct (hps s) as [|h0 l0] eqn:Eh.
    { destruct hs as [|h hs']; [congruence|]. destruct (proj2 (Hp h) (or_introl eq_refl)). }
    rewrite <- Eh in *. assert (C : Forall constructed (hps s)).
    { apply Forall_forall. intros h Hh. apply (so_constructed O), Hp, Hh. }
    assert (Nd : NoDup (map hp_name (hps s))).
    { assert (K : map hp_name (hps s) = keys s).
      { transitivity (map fst (items s)); [|unfold items, keys; rewrite map_map; apply map_ext; intros []; reflexivity].
        unfold hps. rewrite map_map. apply map_ext_in. intros [n g] Hi. apply (so_items O) in Hi. simpl. apply Hi. }
      rewrite K. eapply Permutation_NoDup; [symmetry; apply (so_keys O)|]. apply (so_names_nodup O). }
    destruct (sizes_prod (hps s) 1 z C Es) as [-> Fz]. rewrite Z.mul_1_l.
    set (ns := map (fun h => length (options h)) (hps s)).
    assert (Tl : forall t, In t (tuples ns) -> length t = length (hps s) /\
      forall k h i, nth_error (hps s) k = Some h -> nth_error t k = Some i -> i < length (options h)).
    { intros t Ht. apply tuples_in in Ht. split; [rewrite (Forall2_length' _ _ _ Ht); apply map_length|].
      intros k h i Hk Hi. revert k Hk Hi. unfold ns in Ht. clear -Ht. remember (map (fun h => length (options h)) (hps s)) as m eqn:Em.
      revert Em. generalize (hps s). induction Ht as [|a b t m Hab Ht IH]; intros l Em k Hk Hi; [destruct k; discriminate|].
      destruct l as [|g l]; [discriminate|]. simpl in Em. inversion Em; subst. destruct k as [|k]; simpl in Hk, Hi.
      - inversion Hk; inversion Hi; subst. exact Hab.
      - apply (IH l eq_refl k); assumption. }
    exists (map (pick_of (hps s)) (tuples ns)). split; [|split].
    - rewrite map_length, tuples_len. reflexivity.
    - intros i j d d' Hij Hi Hj. rewrite nth_error_map in Hi, Hj.
      destruct (nth_error (tuples ns) i) as [t|] eqn:Et; [|discriminate]. destruct (nth_error (tuples ns) j) as [t'|] eqn:Et'; [|discriminate].
      simpl in Hi, Hj. inversion Hi; inversion Hj; subst. clear Hi Hj.
      assert (Dt : t <> t').
      { intros ->. assert (K := proj1 (NoDup_nth_error (tuples ns)) (tuples_nodup ns) i j).
        assert (i < length (tuples ns)) by (apply nth_error_Some; congruence). specialize (K H). rewrite Et, Et' in K. specialize (K eq_refl). lia. }
      destruct (Tl t (nth_error_In _ _ Et)) as [L1 B1]. destruct (Tl t' (nth_error_In _ _ Et')) as [L2 B2].
      assert (Dk : exists k a b, nth_error t k = Some a /\ nth_error t' k = Some b /\ a <> b).
      { assert (Ll : length t = length t') by congruence. clear -Dt Ll. revert t' Ll Dt.
        induction t as [|a t IH]; intros [|b t'] Ll Dt; try discriminate; [congruence|].
        destruct (Nat.eq_dec a b) as [->|Hab]; [|exists 0, a, b; auto].
        destruct (IH t') as (k & x & y & H1 & H2 & H3); [simpl in Ll; lia|congruence|]. exists (S k), x, y. auto. }
      destruct Dk as (k & a & b & Ha & Hb & Hab).
      assert (Hk : exists h, nth_error (hps s) k = Some h).
      { destruct (nth_error (hps s) k) as [h|] eqn:Ek; [eauto|]. apply nth_error_None in Ek.
        assert (k < length t) by (apply nth_error_Some; congruence). lia. }
      destruct Hk as (h & Hk). exists h. assert (Hin := nth_error_In _ _ Hk). split; [apply Hp; exact Hin|].
      rewrite (pick_nth _ t k h a Nd L1 Hk Ha), (pick_nth _ t' k h b Nd L2 Hk Hb).
      assert (A1 := B1 k h a Hk Ha). assert (A2 := B2 k h b Hk Hb). apply nth_error_Some in A1, A2.
      destruct (nth_error (options h) a) as [u|] eqn:Eu; [|congruence]. destruct (nth_error (options h) b) as [u'|] eqn:Eu'; [|congruence].
      destruct (py_eqb u u') eqn:Q; [|reflexivity]. exfalso. apply Hab.
      destruct (hp_size h) as [z|] eqn:Ez; [|destruct (Fz h Hin Ez)].
      destruct (options_size h z (so_constructed O h (proj1 (Hp h) Hin)) Ez) as (_ & _ & D). apply (has_dup_nth _ _ _ _ _ D Eu Eu' Q).
    - intros d Hd. apply in_map_iff in Hd. destruct Hd as (t & <- & Ht). destruct (Tl t Ht) as [L1 B1].
      assert (Gt : forall h, In h hs -> exists w, pick_of (hps s) t (hp_name h) = Some w /\ In w (options h)).
      { intros h Hh. apply Hp in Hh. apply In_nth_error in Hh. destruct Hh as (k & Hk).
        destruct (nth_error t k) as [a|] eqn:Ea.
        - rewrite (pick_nth _ t k h a Nd L1 Hk Ea). assert (A1 := B1 k h a Hk Ea). apply nth_error_Some in A1.
          destruct (nth_error (options h) a) as [w|] eqn:Ew; [|congruence]. exists w. split; [reflexivity|]. eapply nth_error_In; eauto.
        - exfalso. apply nth_error_None in Ea. assert (k < length (hps s)) by (apply nth_error_Some; congruence). lia. }
      assert (Lg : forall h w, In h hs -> pick_of (hps s) t (hp_name h) = Some w -> legal_value h w = true /\ exact_value h w).
      { intros h w Hh Hw. destruct (Gt h Hh) as (w' & Hw' & Hi). assert (w' = w) by congruence. subst w'. apply options_legal. exact Hi. }
      split; [constructor|].
      + intros h w Hh Hw. apply (Lg h w Hh Hw).
      + intros h Hh. split; [intros _ c []|]. intros _. destruct (Gt h Hh) as (w & -> & _). discriminate.
      + intros f [].
      + intros h w Hh Hw. apply (Lg h w Hh Hw).
  Qed.

  (** it is infinite exactly when there is a float *)
  Theorem C31_infinite s hs cs fs : built s hs cs fs ->
    (estimate_size s = None <-> exists h lo hi lg d, In h hs /\ hp_kind h = KFloat lo hi lg d).
  Proof.
    intros B. assert (O := built_ok _ _ _ _ B). assert (Hp := hps_perm s hs cs fs O).
    assert (Fk : forall h, hp_size h = None <-> exists lo hi lg d, hp_kind h = KFloat lo hi lg d).
    { intros h. unfold hp_size. destruct (hp_kind h); split; try discriminate; try (intros (? & ? & ? & ? & K); discriminate).
      - intros _. eauto.
      - reflexivity. }
    set (f := fun acc h => match acc, hp_size h with Some a, Some b => Some (a * b)%Z | _, _ => None end).
    assert (N0 : forall l, fold_left f l None = None) by (induction l as [|g l IH]; simpl; auto).
    assert (G : forall l a, fold_left f l (Some a) = None <-> exists h, In h l /\ hp_size h = None).
    { induction l as [|g l IH]; intros a; cbn [fold_left In].
      - split; [discriminate|]. intros (h & [] & _).
      - assert (Hf : f (Some a) g = match hp_size g with Some b => Some (a * b)%Z | None => None end) by reflexivity.
        rewrite Hf. clear Hf. destruct (hp_size g) as [b|] eqn:Eg.
        + rewrite IH. split; [intros (h & Hh & K); eauto|]. intros (h & [->|Hh] & K); [congruence|eauto].
        + rewrite N0. split; [intros _; exists g; auto|reflexivity]. }
    unfold estimate_size. fold f. split.
    - intros H. destruct (hps s) as [|h0 l0] eqn:Eh; [discriminate|]. apply G in H. destruct H as (h & Hh & K).
      apply Fk in K. destruct K as (lo & hi & lg & d & K). exists h, lo, hi, lg, d. split; [apply Hp; exact Hh|exact K].
    - intros (h & lo & hi & lg & d & Hh & K). destruct (hps s) as [|h0 l0] eqn:Eh; [destruct (proj2 (Hp h) Hh)|].
      apply G. exists h. split; [apply Hp; exact Hh|]. apply Fk. eauto.
  Qed.
End Size.

Section Witness.
  #[local] Existing Instance rat_env.

  (** C31 is false for the empty space, whose only configuration is not counted *)
  Theorem C31_refuted : exists s, built s [] [] [] /\ estimate_size s = Some 0%Z /\
    exists d, valid [] [] [] d /\ exists c, config_of_values s [] false = Ok c.
  Proof.
    exists empty_space. split; [constructor|]. split; [reflexivity|]. exists (fun _ => None). split.
    - constructor; [intros h w []|intros h []|intros f []].
    - eexists. vm_compute. reflexivity.
  Qed.

  (** 32 for the three-level chain of five binary hyperparameters; among its configurations are
      these, which differ in the value of r or in having a value for x *)
  Example C31_ex : estimate_size deep_space = Some 32%Z /\ built deep_space bin_hps deep_conds [] /\ refs bin_hps deep_conds [] /\
    valid bin_hps deep_conds [] (given deep_vals) /\ valid bin_hps deep_conds [] deep_new /\
    pairwise_differ bin_hps [given deep_vals; deep_new].
  Proof.
    assert (LA := rat_env_laws). split; [vm_compute; reflexivity|]. split; [exact deep_built|]. split; [apply deep_tame|].
    assert (V : forall d, (forall h w, In h bin_hps -> d (hp_name h) = Some w -> legal_value h w = true) ->
      (d "r" <> None)%string -> (d "q" <> None)%string -> (d "x" <> None <-> holds d (on "1" "x" "r"))%string -> (d "y" <> None <-> holds d (on "1" "y" "x"))%string ->
      (d "z" <> None <-> holds d deep_and)%string -> valid bin_hps deep_conds [] d).
    { intros d H1 Hr Hq Hx Hy Hz. constructor; [exact H1| |intros f []]. intros h Hh.
      assert (Un : forall n c, In c deep_conds -> activates c n -> (d n <> None <-> holds d c) ->
        (forall c', In c' deep_conds -> activates c' n -> c' = c) -> (d n <> None <-> active deep_conds d n)).
      { intros n c Hc Ha Hi Uq. rewrite Hi. split; [intros K c' Hc' Ha'; rewrite (Uq c' Hc' Ha'); exact K|]. intros K. apply K; assumption. }
      assert (Uq : forall n c c', In c deep_conds -> activates c n -> In c' deep_conds -> activates c' n -> c' = c).
      { intros n c c' Hc Ha Hc' Ha'. vm_compute in Hc, Hc'.
        destruct Hc as [<-|[<-|[<-|[]]]]; destruct Hc' as [<-|[<-|[<-|[]]]]; try reflexivity; exfalso; vm_compute in Ha, Ha'; congruence. }
      assert (Rt : forall n, (n = "r" \/ n = "q")%string -> active deep_conds d n).
      { intros n Hn c Hc Ha. exfalso. vm_compute in Hc. destruct Hc as [<-|[<-|[<-|[]]]]; vm_compute in Ha; destruct Hn; congruence. }
      destruct Hh as [<-|[<-|[<-|[<-|[<-|[]]]]]].
      - split; [intros _; apply Rt; left; reflexivity|intros _; exact Hr].
      - split; [intros _; apply Rt; right; reflexivity|intros _; exact Hq].
      - apply (Un "x"%string (on "1" "x" "r")); [vm_compute; tauto|vm_compute; reflexivity|exact Hx|]. intros c' Hc' Ha'.
        apply (Uq "x"%string); [vm_compute; tauto|vm_compute; reflexivity|exact Hc'|exact Ha'].
      - apply (Un "y"%string (on "1" "y" "x")); [vm_compute; tauto|vm_compute; reflexivity|exact Hy|]. intros c' Hc' Ha'.
        apply (Uq "y"%string); [vm_compute; tauto|vm_compute; reflexivity|exact Hc'|exact Ha'].
      - apply (Un "z"%string deep_and); [vm_compute; tauto|vm_compute; reflexivity|exact Hz|]. intros c' Hc' Ha'.
        apply (Uq "z"%string); [vm_compute; tauto|vm_compute; reflexivity|exact Hc'|exact Ha']. }
    split; [|split].
    - apply V; try discriminate.
      + intros h w Hh Hw. repeat (destruct Hh as [<-|Hh]; [vm_compute in Hw; inversion Hw; subst; vm_compute; reflexivity|]). destruct Hh.
      + split; [intros _|discriminate]. exists (VStr "1"). split; vm_compute; reflexivity.
      + split; [intros _|discriminate]. exists (VStr "1"). split; vm_compute; reflexivity.
      + split; [intros _|discriminate]. vm_compute. split; [|split; [|exact I]]; exists (VStr "1"); split; reflexivity.
    - apply V; try discriminate.
      + intros h w Hh Hw. repeat (destruct Hh as [<-|Hh]; [vm_compute in Hw; inversion Hw; subst; vm_compute; reflexivity|]). destruct Hh.
      + split; [intros K; exfalso; apply K; reflexivity|]. intros (w & Hw & K) _. vm_compute in Hw. inversion Hw; subst. vm_compute in K. discriminate K.
      + split; [intros K; exfalso; apply K; reflexivity|]. intros (w & Hw & K) _. vm_compute in Hw. discriminate Hw.
      + split; [intros K; exfalso; apply K; reflexivity|]. intros K _. vm_compute in K. destruct K as ((w & Hw & K) & _). discriminate Hw.
    - intros i j d d' Hij Hi Hj. destruct i as [|[|i]]; destruct j as [|[|j]]; simpl in Hi, Hj; try lia; try (destruct j; discriminate); try (destruct i; discriminate).
      inversion Hi; inversion Hj; subst. exists (bin "r"). split; [left; reflexivity|]. vm_compute. reflexivity.
  Qed.
End Witness.
