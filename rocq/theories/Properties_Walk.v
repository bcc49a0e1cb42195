(** * Property C118: repeated one-exchange moves reach every valid configuration *)
From Coq Require Import String List ZArith QArith Bool Lia Permutation Relations.
From Verif Require Import Base ListFacts Numeric NumericProofs HP HPProofs Properties_HP Cond Forb Dag DagProofs
  Space CommitProofs Spec SpaceProofs ForbProofs PassProofs EvalProofs ValidProofs ConfigProofs ReadProofs Ex Properties_Graph Properties_Config Properties_Change
  Dist DistProofs Properties_Dist Util ExchangeProofs Properties_Exchange Properties_Assign.
Import ListNotations.
Open Scope nat_scope.

(** ** Specification *)
Section Walk.
  Context {E : Env}.
  (** random numbers the generator may see when started at [c]: shuffling permutes, every entry is picked again and again *)
  Definition chance (s : space) (hs : list hp) (c : config) (o : oracle) : Prop :=
    oracle_ok o /\ fair o (length (filter (changeable s c) hs)).
  (** Whatever the random numbers, a search that may choose among the configurations the generator
      yields gets from [c] to [goal] in at most [n] moves. *)
  Fixpoint within (s : space) (hs : list hp) (num : nat) (goal : config -> Prop) (n : nat) (c : config) : Prop :=
    goal c \/
    match n with
    | 0 => False
    | S m => (exists o, chance s hs c o) /\
        forall o, chance s hs c o -> exists fuel out cfg,
          get_one_exchange_neighbourhood fuel s c num o = (out, Ok tt) /\ In cfg out /\ within s hs num goal m cfg
    end.
End Walk.
(** the number of moves one hyperparameter may need *)
Definition span (h : hp) : nat :=
  match hp_kind h with KOrd sq => length sq - 1 | KConst _ => 0 | _ => 1 end.
Definition spans (hs : list hp) : nat := list_sum (map span hs).
(** all values of the hyperparameter can be enumerated by the generator *)
Definition walkable (num : nat) (h : hp) : Prop := listed num h \/ exists v, hp_kind h = KConst v.

Section Proofs.
  Context {E : Env} {L : EnvLaws E}.

  Lemma within_mono s hs num goal n m c : n <= m -> within s hs num goal n c -> within s hs num goal m c.
  Proof.
    revert m c. induction n as [|n IH]; intros m c Le; destruct m as [|m]; cbn [within]; try tauto; try lia.
    intros [G|(X & W)]; [left; exact G|right]. split; [exact X|]. intros o Ho. destruct (W o Ho) as (fuel & out & cfg & R & I & K).
    exists fuel, out, cfg. split; [exact R|]. split; [exact I|]. apply IH; [lia|exact K].
  Qed.

  Section Space.
    Context (s : space) (hs : list hp) (cs : list cond) (num : nat).
    Context (T : tame s hs cs []) (Or : orderly cs) (Hn : 0 < num) (Wk : forall h, In h hs -> walkable num h).
    Let B := tm_built _ _ _ _ T.
    Let R := tm_refs _ _ _ _ T.
    Let O := built_ok _ _ _ _ B.

    Definition good (c : config) (d : assignment) : Prop :=
      represents s hs c d /\ shows s hs c d /\ valid hs cs [] d /\ exact_all hs d.

    Lemma walk_steady : steady num hs.
    Proof. intros h lo hi log dd Hh K. left. destruct (Wk h Hh) as [H|(v & H)]; [|congruence]. unfold listed in H. rewrite K in H. apply H. Qed.

    Lemma walk_answers c d o : good c d -> answers s hs c num o.
    Proof.
      intros (Rep & _ & V & Ex) h n g Hh Nn Kd. assert (C := so_constructed O h Hh). destruct (Wk h Hh) as [H|(v & H)]; [|rewrite H in Kd; destruct Kd].
      unfold listed in H. destruct (hp_kind h) as [ch ws|sq|v|lo hi log dd|lo hi log dd] eqn:K; try contradiction.
      destruct H as (-> & L1 & L2). assert (W := constructed_wf _ C). unfold wf_hp in W. rewrite K in W. destruct W as (W1 & W2 & _).
      assert (Rp := proj2 Rep h Hh). destruct (d (hp_name h)) as [u|] eqn:Eu; [|congruence]. destruct Rp as (Lu & y & Ty & Fy).
      assert (En : entry_of h u (vget (index_of s) (c_vector c) (hp_name h))).
      { split; [exact Lu|]. split; [apply (Ex h u Hh Eu)|]. exists y. auto. }
      destruct (entry_int_of h lo hi log DUniform u _ C K En) as (z & Ez & Qz).
      destruct (C43_all h lo hi log z _ n None (o_rng o g) C K Ez Logic.I) as (l & ws & N1 & N2 & N3 & N4); [lia|].
      exists l. split; [exact N1|]. intros ->. inversion N2; subst. destruct (Z.eq_dec z lo) as [->|Ne].
      - apply (proj2 (N4 hi)). lia.
      - apply (proj2 (N4 lo)). lia.
    Qed.

    Lemma some_chance c h : In h hs -> changeable s c h = true -> exists o, chance s hs c o.
    Proof.
      intros Hh Hc. set (n := length (filter (changeable s c) hs)).
      assert (Hz : n <> 0).
      { unfold n. intros Z. apply length_zero_iff_nil in Z. assert (I : In h (filter (changeable s c) hs)) by (apply filter_In; auto). rewrite Z in I. destruct I. }
      exists {| o_pick := fun t => Nat.modulo t n; o_rng := fun _ => {| nr_cands := []; nr_shuffle := fun l => l; nr_second := false |}; o_shuf := fun _ l => l |}.
      split; [split; [intros g l; reflexivity|intros g l; reflexivity]|]. apply mod_fair; [exact Hz|reflexivity].
    Qed.

    (** one move *)
    Lemma move c d h u w : good c d -> In h hs -> d (hp_name h) = Some u -> listed num h -> neighbour h u w ->
      legal_value h w = true -> exact_value h w ->
      exists d1, updated hs cs d (hp_name h) w d1 /\ (exists o, chance s hs c o) /\
        forall o, chance s hs c o -> exists fuel out cfg, get_one_exchange_neighbourhood fuel s c num o = (out, Ok tt) /\ In cfg out /\ good cfg d1.
    Proof.
      intros Gd Hh Hu Li Nb Lw Xw. destruct Gd as (Rep & Sh & V & Ex).
      destruct (C20_succeeds_partial s hs cs [] c d h w T Or Rep V Ex Hh ltac:(congruence) Lw Xw) as (d1 & U & Ex1 & Su & _).
      destruct (Su ltac:(intros f [])) as (V1 & _). exists d1. split; [exact U|]. assert (Lu := va_legal _ _ _ _ V h u Hh Hu). split.
      - apply (some_chance c h Hh). unfold changeable. apply negb_true_iff, orb_false_iff. split.
        + assert (Sz := neighbour_size h u w (so_constructed O h Hh) Lu Nb). destruct (hp_size h) as [[|[]|]|]; try reflexivity. congruence.
        + assert (Rp := proj2 Rep h Hh). rewrite Hu in Rp. destruct Rp as (_ & y & Ty & Fy).
          destruct (legal_finite h u (so_constructed O h Hh) Lu) as (q & Hq). assert (y = Fin q) by congruence. subst y.
          destruct (vget (index_of s) (c_vector c) (hp_name h)); try contradiction; reflexivity.
      - intros o (Ok_ & Fr).
        destruct (C64_normal s hs cs [] c d num o T Or Rep Sh V Ex Ok_ walk_steady Hn (walk_answers c d o (conj Rep (conj Sh (conj V Ex)))) Fr) as (fuel & out & Run).
        specialize (Run 0). rewrite Nat.add_0_r in Run.
        destruct (C65_complete s hs cs [] c d num o fuel out h u w d1 T Or Rep Sh V Ex Ok_ Run Hh Hu Li Nb U ltac:(intros f [])) as (cfg & Hc & Rc).
        exists fuel, out, cfg. split; [exact Run|]. split; [exact Hc|]. split; [exact Rc|]. split; [|split; [exact V1|exact Ex1]].
        destruct (run_trace s hs cs [] c num o fuel out _ B Ok_ Run (or_intror eq_refl)) as (sls & tags & _ & _ & F & _).
        destruct (Forall2_in_l _ _ _ _ F Hc) as (px & _ & sl & _ & _ & _ & Mk). exact (shows_vector s hs cs [] _ _ d1 cfg B Mk Rc Ex1).
    Qed.

    (** what moving [h] leaves alone *)
    Definition rest (h : hp) (d d1 : assignment) : Prop :=
      forall g, In g hs -> hp_name g <> hp_name h -> ~ depends cs (hp_name g) (hp_name h) -> d1 (hp_name g) = d (hp_name g).

    Lemma hop_ordinal goal h sq n w j b : In h hs -> hp_kind h = KOrd sq -> nth_error sq j = Some b -> py_eqb b w = true ->
      forall k i a u c d, good c d -> d (hp_name h) = Some u -> nth_error sq i = Some a -> py_eqb a u = true -> (i + k = j \/ j + k = i) ->
      (forall c1 d1 w', good c1 d1 -> rest h d d1 -> d1 (hp_name h) = Some w' -> py_eqb w' w = true -> within s hs num goal n c1) ->
      within s hs num goal (k + n) c.
    Proof.
      intros Hh K Hj Qj. assert (Li : listed num h) by (unfold listed; rewrite K; exact Logic.I).
      induction k as [|k IH]; intros i a u c d Gd Hu Hi Qi Dist Cont.
      - assert (i = j) by lia. subst i. assert (a = b) by congruence. subst a. apply (Cont c d u Gd); [intros g _ _ _; reflexivity|exact Hu|].
        rewrite py_eqb_sym in Qi. exact (py_eqb_trans u b w Qi Qj).
      - assert (Nx : exists i1 a1, nth_error sq i1 = Some a1 /\ adjacent i i1 /\ (i1 + k = j \/ j + k = i1)).
        { assert (j < length sq) by (apply nth_error_Some; congruence). assert (i < length sq) by (apply nth_error_Some; congruence).
          destruct Dist as [Dist|Dist].
          - destruct (nth_error sq (S i)) as [a1|] eqn:E1; [exists (S i), a1; split; [exact E1|]; split; [left; reflexivity|left; lia]|].
            apply nth_error_None in E1. lia.
          - destruct i as [|i]; [lia|]. destruct (nth_error sq i) as [a1|] eqn:E1; [exists i, a1; split; [exact E1|]; split; [right; reflexivity|right; lia]|].
            apply nth_error_None in E1. lia. }
        destruct Nx as (i1 & a1 & H1 & Ad & Dist1).
        assert (La : legal_value h a1 = true) by (unfold legal_value; rewrite K; apply py_in_iff; exists a1; split; [eapply nth_error_In; exact H1|apply py_eqb_refl]).
        assert (Xa : exact_value h a1) by (unfold exact_value; rewrite K; exact Logic.I).
        assert (Nb : neighbour h u a1) by (unfold neighbour; rewrite K; exists i, i1, a, a1; repeat split; auto; apply py_eqb_refl).
        destruct (move c d h u a1 Gd Hh Hu Li Nb La Xa) as (d1 & U & So & Mv). cbn [Nat.add within]. right. split; [exact So|].
        intros o Ho. destruct (Mv o Ho) as (fuel & out & cfg & Run & Ic & Gc). exists fuel, out, cfg. split; [exact Run|]. split; [exact Ic|].
        apply (IH i1 a1 a1 cfg d1 Gc (proj1 U) H1 (py_eqb_refl a1) Dist1). intros c2 d2 w' G2 R2 W2 Q2. apply (Cont c2 d2 w' G2); [|exact W2|exact Q2].
        intros g Hg Ne Nd. rewrite (R2 g Hg Ne Nd). apply (updated_local s hs cs [] d (hp_name h) a1 d1 B R (va_active _ _ _ _ (proj1 (proj2 (proj2 Gd)))) U g Hg Ne Nd).
    Qed.

    Lemma hop goal h n c d u w : In h hs -> good c d -> d (hp_name h) = Some u -> legal_value h w = true -> exact_value h w ->
      (forall c1 d1 w', good c1 d1 -> rest h d d1 -> d1 (hp_name h) = Some w' -> py_eqb w' w = true -> within s hs num goal n c1) ->
      within s hs num goal (span h + n) c.
    Proof.
      intros Hh Gd Hu Lw Xw Cont. assert (Lu := va_legal _ _ _ _ (proj1 (proj2 (proj2 Gd))) h u Hh Hu).
      assert (Stay : py_eqb u w = true -> forall k, within s hs num goal (k + n) c).
      { intros Q k. apply (within_mono s hs num goal n); [lia|]. apply (Cont c d u Gd); [intros g _ _ _; reflexivity|exact Hu|exact Q]. }
      assert (One : listed num h -> neighbour h u w -> within s hs num goal (1 + n) c).
      { intros Li Nb. destruct (move c d h u w Gd Hh Hu Li Nb Lw Xw) as (d1 & U & So & Mv). cbn [Nat.add within]. right. split; [exact So|].
        intros o Ho. destruct (Mv o Ho) as (fuel & out & cfg & Run & Ic & Gc). exists fuel, out, cfg. split; [exact Run|]. split; [exact Ic|].
        apply (Cont cfg d1 w Gc); [|apply U|apply py_eqb_refl].
        intros g Hg Ne Nd. apply (updated_local s hs cs [] d (hp_name h) w d1 B R (va_active _ _ _ _ (proj1 (proj2 (proj2 Gd)))) U g Hg Ne Nd). }
      unfold span. destruct (Wk h Hh) as [Li|(v & K)].
      2:{ rewrite K. apply Stay. unfold legal_value in Lu, Lw. rewrite K in Lu, Lw. rewrite (py_eqb_sym w v) in Lw. exact (py_eqb_trans u v w Lu Lw). }
      assert (Li' := Li). unfold listed in Li'. destruct (py_eqb u w) eqn:Q; [apply Stay; reflexivity|]. assert (Q' := Q). rewrite py_eqb_sym in Q'.
      destruct (hp_kind h) as [ch ws|sq|v|lo hi log dd|lo hi log dd] eqn:K; try contradiction.
      - apply (One Li). unfold neighbour. rewrite K. auto.
      - unfold legal_value in Lu, Lw. rewrite K in Lu, Lw. apply py_in_iff in Lu, Lw. destruct Lu as (a & Ia & Qa), Lw as (b & Ib & Qb).
        apply In_nth_error in Ia, Ib. destruct Ia as (i & Hi), Ib as (j & Hj). rewrite py_eqb_sym in Qa, Qb.
        assert (i < length sq) by (apply nth_error_Some; congruence). assert (j < length sq) by (apply nth_error_Some; congruence).
        apply (within_mono s hs num goal (((i - j) + (j - i)) + n)); [lia|].
        apply (hop_ordinal goal h sq n w j b Hh K Hj Qb _ i a u c d Gd Hu Hi Qa); [lia|exact Cont].
      - apply (One Li). unfold neighbour. rewrite K. auto.
    Qed.

    (** ** C118

        Full statement: for every tame space.  It does not hold with clauses ([C118_refuted]); the values of floats, and of
        integers with more values than the requested number of neighbours, are drawn at random. *)
    Theorem C118_reach_partial c d d' : represents s hs c d -> shows s hs c d -> valid hs cs [] d -> exact_all hs d ->
      valid hs cs [] d' -> exact_all hs d' ->
      within s hs num (fun c' => represents s hs c' d') (spans hs) c.
    Proof.
      intros Rep Sh V Ex V' Ex'.
      assert (G : forall todo done c d, keys s = done ++ todo -> good c d ->
        (forall g, In g hs -> In (hp_name g) done -> agree d d' g) ->
        within s hs num (fun c' => represents s hs c' d') (list_sum (map (fun k => match get_hp s k with Some h => span h | None => 0 end) todo)) c).
      2:{ assert (Sum : spans hs = list_sum (map (fun k => match get_hp s k with Some h => span h | None => 0 end) (keys s))).
          { unfold spans. assert (P := so_keys O). assert (Pm := Permutation_map (fun k => match get_hp s k with Some h => span h | None => 0 end) P).
            assert (Ls : forall l l', Permutation l l' -> list_sum l = list_sum l') by (induction 1; simpl; lia). rewrite (Ls _ _ Pm). f_equal. rewrite map_map.
            apply map_ext_in. intros h Hh. rewrite (proj2 (so_get_hp O (hp_name h) h) (conj Hh eq_refl)). reflexivity. }
          rewrite Sum. apply (G (keys s) [] c d eq_refl (conj Rep (conj Sh (conj V Ex)))). intros g _ []. }
      clear c d Rep Sh V Ex. induction todo as [|k todo IH]; intros done c d Ks Gd Ag.
      - left. destruct Gd as ((Ln & Rp) & _ & V & _). split; [exact Ln|]. intros h Hh. specialize (Rp h Hh).
        assert (A : agree d d' h).
        { apply (Ag h Hh). rewrite app_nil_r in Ks. rewrite <- Ks. eapply Permutation_in; [symmetry; apply (so_keys O)|]. apply in_map. exact Hh. }
        unfold agree in A. destruct (d (hp_name h)) as [u|] eqn:Eu, (d' (hp_name h)) as [w|] eqn:Ew; try contradiction; [|exact Rp].
        destruct A as (Q & Lu & Lw), Rp as (_ & y & Ty & Fy). split; [exact Lw|]. destruct (legal_finite h w (so_constructed O h Hh) Lw) as (q & Hq).
        exists (Fin q). split; [exact Hq|]. apply (fsame_trans _ y); [exact Fy|]. exact (to_vector_same h u w y (Fin q) (so_constructed O h Hh) Lu Lw Ty Hq Q).
      - assert (Kk : nth_error (keys s) (length done) = Some k) by (rewrite Ks, nth_error_app2, Nat.sub_diag by lia; reflexivity).
        assert (Ik : In k (map hp_name hs)).
        { eapply Permutation_in; [apply (so_keys O)|]. eapply nth_error_In; exact Kk. }
        apply in_map_iff in Ik. destruct Ik as (h & <- & Hh).
        assert (Dn : forall g i, nth_error (keys s) i = Some g -> i < length done -> In g done).
        { intros g i Hg Li. rewrite Ks, nth_error_app1 in Hg by exact Li. eapply nth_error_In; exact Hg. }
        assert (Pa : forall p, In p hs -> reads cs (hp_name p) (hp_name h) -> agree d d' p).
        { intros p Hp Rd. apply Ag; [exact Hp|]. destruct (so_hp_index O p Hp) as (i & Hi & _). assert (Hi' := Hi). apply (so_index O) in Hi'.
          apply (Dn _ i Hi'). apply (so_parent_before O _ _ i (length done) Rd Hi). apply (so_index O). exact Kk. }
        assert (Ac : active cs d (hp_name h) <-> active cs d' (hp_name h)).
        { assert (Hc : forall x, In x cs -> activates x (hp_name h) -> (holds d x <-> holds d' x)).
          { intros x Hx Ha. apply holds_agree; [apply cond_built_good, (so_cond_built O), Hx|]. intros l Hl. destruct (proj1 R x Hx l Hl) as [_ Hp].
            apply (Pa (l_parent l) Hp). exists x. split; [exact Hx|]. split; [exact Ha|]. unfold cond_parents. apply in_map_iff. exists l. split; [reflexivity|exact Hl]. }
          split; intros A x Hx Ha; apply (Hc x Hx Ha), A; assumption. }
        assert (V := proj1 (proj2 (proj2 Gd))). rewrite <- (va_active _ _ _ _ V h Hh), <- (va_active _ _ _ _ V' h Hh) in Ac.
        assert (Ks' : keys s = (done ++ [hp_name h]) ++ todo) by (rewrite <- app_assoc; exact Ks).
        cbn [map list_sum fold_right]. fold (list_sum (map (fun k => match get_hp s k with Some h => span h | None => 0 end) todo)).
        rewrite (proj2 (so_get_hp O (hp_name h) h) (conj Hh eq_refl)).
        destruct (d' (hp_name h)) as [w|] eqn:Ew.
        + assert (Hs : d (hp_name h) <> None) by (apply Ac; discriminate). destruct (d (hp_name h)) as [u|] eqn:Eu; [|congruence].
          assert (Lw := va_legal _ _ _ _ V' h w Hh Ew). apply (hop _ h _ c d u w Hh Gd Eu Lw (Ex' h w Hh Ew)).
          intros c1 d1 w' G1 R1 W1 Q1. apply (IH (done ++ [hp_name h]) c1 d1 Ks' G1). intros g Hg Ig.
          destruct (string_dec (hp_name g) (hp_name h)) as [Eq|Ne].
          { assert (g = h).
            { assert (X1 := proj2 (so_get_hp O (hp_name h) g) (conj Hg Eq)). assert (X2 := proj2 (so_get_hp O (hp_name h) h) (conj Hh eq_refl)). congruence. }
            subst g. unfold agree. rewrite W1, Ew. split; [exact Q1|]. split; [|exact Lw]. apply (va_legal _ _ _ _ (proj1 (proj2 (proj2 G1))) h w' Hh W1). }
          apply in_app_iff in Ig. destruct Ig as [Ig|[Ig|[]]]; [|congruence]. unfold agree. rewrite (R1 g Hg Ne); [apply (Ag g Hg Ig)|].
          intros D. apply In_nth_error in Ig. destruct Ig as (j & Hj). assert (Lj : j < length done) by (apply nth_error_Some; congruence).
          assert (Hj' : nth_error (keys s) j = Some (hp_name g)) by (rewrite Ks, nth_error_app1 by exact Lj; exact Hj).
          assert (X := depends_index s hs cs [] _ _ _ _ B D Kk Hj'). lia.
        + assert (Hn' : d (hp_name h) = None).
          { destruct (d (hp_name h)); [|reflexivity]. exfalso. apply (proj1 Ac); [discriminate|reflexivity]. }
          apply (within_mono s hs num _ (list_sum (map (fun k => match get_hp s k with Some h => span h | None => 0 end) todo))); [lia|].
          apply (IH (done ++ [hp_name h]) c d Ks' Gd). intros g Hg Ig. apply in_app_iff in Ig. destruct Ig as [Ig|[Ig|[]]]; [apply Ag; assumption|].
          unfold agree. rewrite <- Ig, Hn', Ew. exact Logic.I.
    Qed.
  End Space.
End Proofs.

(** ** Cases *)
Section Witness.
  #[local] Existing Instance rat_env.
  #[local] Existing Instance rat_env_laws.

  (** p and q have to be equal, so no single exchange leads anywhere *)
  Theorem C118_refuted : exists s hs cs fs num c d d', tame s hs cs fs /\ orderly cs /\ 0 < num /\ (forall h, In h hs -> walkable num h) /\
    represents s hs c d /\ shows s hs c d /\ valid hs cs fs d /\ exact_all hs d /\ valid hs cs fs d' /\ exact_all hs d' /\
    forall n, ~ within s hs num (fun c' => represents s hs c' d') n c.
  Proof.
    assert (St := fun u => store_stored two_hps (given (two_vals u)) two_nodup).
    assert (Vd : forall u c, config_of_values two_space (two_vals u) false = Ok c -> valid two_hps [] two_forbs (store two_hps (given (two_vals u)))).
    { intros u c Hc. apply (C17_accepts_valid_partial two_space two_hps [] two_forbs (two_vals u) _ two_tame (St u) (two_exact _)). exists c. exact Hc. }
    assert (Ok1 : config_of_values two_space (two_vals "1") false = Ok two_config) by (vm_compute; reflexivity).
    assert (Rep : represents two_space two_hps two_config (store two_hps (given (two_vals "1")))) by exact (C20_start _ _ _ _ _ _ _ _ two_built (St "1"%string) Ok1).
    assert (V := Vd "1"%string _ Ok1).
    assert (Sd : steady 4 two_hps) by (intros h lo hi log dd [<-|[<-|[]]] K; vm_compute in K; discriminate K).
    exists two_space, two_hps, [], two_forbs, 4, two_config, (store two_hps (given (two_vals "1"))), (store two_hps (given (two_vals "0"))).
    split; [exact two_tame|]. split; [exact none_orderly|]. split; [lia|]. split; [intros h [<-|[<-|[]]]; left; exact Logic.I|].
    split; [exact Rep|]. split; [exact (shows_values _ _ _ _ _ _ _ _ two_built Ok1 (St "1"%string))|].
    split; [exact V|]. split; [apply two_exact|]. split; [eapply (Vd "0"%string); vm_compute; reflexivity|]. split; [apply two_exact|].
    intros n W. assert (Ng : ~ represents two_space two_hps two_config (store two_hps (given (two_vals "0")))).
    { intros (_ & R). specialize (R (bin "p") (or_introl eq_refl)). vm_compute in R. destruct R as (_ & x & Hx & Fx). injection Hx as <-. discriminate Fx. }
    destruct n as [|n]; destruct W as [W|W]; try contradiction. destruct W as ((o & Ho) & W). destruct (W o Ho) as (fuel & out & cfg & Run & Ic & _).
    destruct (C25_sound_partial two_space two_hps [] two_forbs two_config _ 4 o fuel out _ cfg two_tame none_orderly Rep V (two_exact _) (proj1 Ho) Sd Run Ic)
      as (h & u & w & d' & Hu & X & Df & _).
    assert (Hh := xc_in _ _ _ _ _ _ _ _ _ X). assert (U := xc_upd _ _ _ _ _ _ _ _ _ X).
    assert (Lw : legal_value h w = true) by (apply (xc_legal _ _ _ _ _ _ _ _ _ X h w Hh (proj1 U))).
    assert (Fb := xc_forb _ _ _ _ _ _ _ _ _ X).
    assert (Dq : py_eqb w u = false) by (destruct Df as [(lo & hi & log & dd & K)|K]; [destruct Hh as [<-|[<-|[]]]; discriminate K|exact K]).
    assert (Ac : forall n, active [] d' n) by (intros m c []).
    destruct Hh as [<-|[<-|[]]]; vm_compute in Hu; injection Hu as <-; destruct (bin_legal _ _ Lw) as [-> | ->]; try (vm_compute in Dq; discriminate Dq).
    - assert (Q : d' "q"%string = Some (VStr "1")) by (apply (proj1 (proj2 U (bin "q") (or_intror (or_introl eq_refl)) ltac:(vm_compute; discriminate))), Ac).
      apply (Fb (two_forb "0" "1") (or_introl eq_refl)); [vm_compute; auto|]. vm_compute. split; [exists (VStr "0"); split; [apply U|]|split; [exists (VStr "1"); split; [exact Q|]|]]; auto.
    - assert (Q : d' "p"%string = Some (VStr "1")) by (apply (proj1 (proj2 U (bin "p") (or_introl eq_refl) ltac:(vm_compute; discriminate))), Ac).
      apply (Fb (two_forb "1" "0") (or_intror (or_introl eq_refl))); [vm_compute; auto|]. vm_compute. split; [exists (VStr "1"); split; [exact Q|]|split; [exists (VStr "0"); split; [apply U|]|]]; auto.
  Qed.
  (** l (1 to 16 on a log scale) is active if o (ordinal) is "hi", which is active if a is "x" *)
  Definition walk_hps := [hA; hE; hO; hL].
  Definition walk_oa := get_or dummy_cond (mk_bin OpEq hO hA (VStr "x")).
  Definition walk_lo := get_or dummy_cond (mk_bin OpEq hL hO (VStr "hi")).
  Definition walk_conds := [walk_oa; walk_lo].
  Definition walk_space := fst (add empty_space walk_hps walk_conds []).
  Lemma walk_built : built walk_space walk_hps walk_conds [].
  Proof.
    apply (built_step empty_space [] [] [] walk_hps walk_conds [] built_empty); [| |constructor|vm_compute; reflexivity].
    - apply Forall_cons; [exact hA_c|]. apply Forall_cons; [exact hE_c|]. apply Forall_cons; [exact hO_c|]. apply Forall_cons; [exact hL_c|apply Forall_nil].
    - apply Forall_cons; [|apply Forall_cons; [|apply Forall_nil]].
      + apply (CB_bin OpEq hO hA (VStr "x") _ hO_c hA_c); vm_compute; reflexivity.
      + apply (CB_bin OpEq hL hO (VStr "hi") _ hL_c hO_c); vm_compute; reflexivity.
  Qed.
  Lemma walk_tame : tame walk_space walk_hps walk_conds [].
  Proof.
    constructor; [apply walk_built| | | |intros f []].
    - split; [|intros f []]. intros c Hc l Hl. destruct Hc as [<-|[<-|[]]]; vm_compute in Hl; repeat (destruct Hl as [<-|Hl]; [split; vm_compute; tauto|]); tauto.
    - intros c d v [<-|[<-|[]]] [<-|[<-|[]]] H; first [reflexivity|exfalso; vm_compute in H; discriminate H].
    - intros c l w vv [<-|[<-|[]]] Hl Ht; vm_compute in Hl; repeat (destruct Hl as [<-|Hl]; [exfalso; clear -Ht; vm_compute in Ht; discriminate Ht|]); destruct Hl.
  Qed.
  Definition walk_lev (n : string) : nat := if String.eqb n "l" then 3 else if String.eqb n "o" then 2 else 1.
  Lemma walk_reads p n : reads walk_conds p n <-> (p = "a" /\ n = "o" \/ p = "o" /\ n = "l")%string.
  Proof.
    split.
    - intros (c & Hc & Ha & Hp). destruct Hc as [<-|[<-|[]]]; vm_compute in Ha; inversion Ha; subst; vm_compute in Hp;
        repeat (destruct Hp as [<-|Hp]; [tauto|]); destruct Hp.
    - intros [[-> ->]|[-> ->]]; [exists walk_oa|exists walk_lo]; (split; [vm_compute; tauto|split; vm_compute; tauto]).
  Qed.
  Lemma walk_orderly : orderly walk_conds.
  Proof.
    apply (C20_guard_levels walk_space walk_hps walk_conds [] walk_lev walk_built).
    - intros c [<-|[<-|[]]]; exact Logic.I.
    - intros m. unfold walk_lev. destruct (String.eqb m "l"); [lia|]. destruct (String.eqb m "o"); lia.
    - intros p n H. apply walk_reads in H. destruct H as [[-> ->]|[-> ->]]; reflexivity.
    - intros n H. destruct (string_dec n "l") as [->|N1]; [exists "o"%string; apply walk_reads; tauto|].
      destruct (string_dec n "o") as [->|N2]; [exists "a"%string; apply walk_reads; tauto|].
      exfalso. unfold walk_lev in H. apply String.eqb_neq in N1, N2. rewrite N1, N2 in H. lia.
  Qed.
  Lemma walk_nodup : NoDup (map hp_name walk_hps).
  Proof. exact (so_names_nodup (built_ok _ _ _ _ walk_built)). Qed.
  Definition walk_vals : list (string * option value) := [("a", Some (VStr "y")); ("e", Some (VStr "on"))]%string.
  Definition walk_target : list (string * option value) := [("a", Some (VStr "x")); ("e", Some (VStr "on")); ("o", Some (VStr "hi")); ("l", Some (VInt 16))]%string.
  Definition walk_config := get_or (mk_config [] None false) (config_of_values walk_space walk_vals false).
  Lemma walk_top : exact_value hL (VInt 16).
  Proof. vm_compute. exists 16%Q, 16%Z. split; reflexivity. Qed.
  Lemma walk_exact_l d : d "l"%string = None \/ d "l"%string = Some (VInt 16) -> exact_all walk_hps d.
  Proof.
    intros Q h w [<-|[<-|[<-|[<-|[]]]]] Hw; [exact Logic.I|exact Logic.I|exact Logic.I|]. change (hp_name hL) with "l"%string in Hw.
    destruct Q as [Q|Q]; rewrite Q in Hw; [discriminate Hw|injection Hw as <-]. exact walk_top.
  Qed.
  Lemma walk_exact vals : vals = walk_vals \/ vals = walk_target -> exact_all walk_hps (store walk_hps (given vals)) /\ exact_all walk_hps (given vals).
  Proof. 
    intros [-> | ->].
    - split; apply walk_exact_l; left; vm_compute; reflexivity.
    - split; apply walk_exact_l; right; vm_compute; reflexivity.
  Qed.
  Lemma walk_ok vals c : vals = walk_vals \/ vals = walk_target -> config_of_values walk_space vals false = Ok c ->
    represents walk_space walk_hps c (store walk_hps (given vals)) /\ shows walk_space walk_hps c (store walk_hps (given vals)) /\
    valid walk_hps walk_conds [] (store walk_hps (given vals)).
  Proof.
    intros Q H. assert (St := store_stored walk_hps (given vals) walk_nodup). split; [exact (C20_start _ _ _ _ _ _ _ _ walk_built St H)|].
    split; [exact (shows_values _ _ _ _ _ _ _ _ walk_built H St)|].
    apply (C17_accepts_valid_partial walk_space walk_hps walk_conds [] vals _ walk_tame St).
    - apply walk_exact. exact Q.
    - exists c. exact H.
  Qed.
  Definition walk_end := get_or (mk_config [] None false) (config_of_values walk_space walk_target false).
  Lemma walk_end_ok : config_of_values walk_space walk_target false = Ok walk_end.
  Proof. vm_compute. reflexivity. Qed.
  (** from a = y to a = x, o = hi, l = 16 in at most 4 moves *)
  Example C118_ex : tame walk_space walk_hps walk_conds [] /\ orderly walk_conds /\ (forall h, In h walk_hps -> walkable 16 h) /\ spans walk_hps = 4 /\
    represents walk_space walk_hps walk_config (store walk_hps (given walk_vals)) /\ shows walk_space walk_hps walk_config (store walk_hps (given walk_vals)) /\
    valid walk_hps walk_conds [] (store walk_hps (given walk_vals)) /\ exact_all walk_hps (store walk_hps (given walk_vals)) /\
    valid walk_hps walk_conds [] (store walk_hps (given walk_target)) /\ exact_all walk_hps (store walk_hps (given walk_target)).
  Proof.
    split; [exact walk_tame|]. split; [exact walk_orderly|].
    split; [intros h [<-|[<-|[<-|[<-|[]]]]]; [left; exact Logic.I|right; eexists; reflexivity|left; exact Logic.I|left; vm_compute; split; [reflexivity|split; reflexivity]]|].
    split; [reflexivity|].
    destruct (walk_ok walk_vals walk_config (or_introl eq_refl) ltac:(vm_compute; reflexivity)) as (H1 & H2 & H3).
    destruct (walk_ok walk_target walk_end (or_intror eq_refl) walk_end_ok) as (_ & _ & H4).
    split; [exact H1|]. split; [exact H2|]. split; [exact H3|]. split; [exact (proj1 (walk_exact walk_vals (or_introl eq_refl)))|].
    split; [exact H4|exact (proj1 (walk_exact walk_target (or_intror eq_refl)))].
  Qed.
End Witness.
