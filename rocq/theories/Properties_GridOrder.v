(** * Property C143: the order of the configurations of generate_grid *)
From Coq Require Import String List ZArith QArith Bool Lia Permutation Relations.
From Verif Require Import Base ListFacts Numeric NumericProofs HP HPProofs Properties_HP Cond Forb EqFacts Dag DagProofs Space CommitProofs Spec
  SpaceProofs CnodeProofs ForbProofs EvalProofs ForbEval MergeProofs ValidProofs ConfigProofs ChangeProofs Ex Properties_Eval Properties_Config Properties_Graph
  Properties_Change Dist DistProofs Properties_Dist Util LookupProofs ExchangeProofs Properties_Exchange Random Properties_Raise Properties_Random
  Repair Properties_Repair Grid Properties_Grid.
Import ListNotations.
Open Scope nat_scope.

Section Order.
  Context {E : Env} {L : EnvLaws E}.

  (** ** Specification *)

  (** the value [u] of a hyperparameter comes before [v]: choices and levels in the order given, numbers in ascending order *)
  Definition earlier (h : hp) (u v : value) : Prop :=
    match hp_kind h with
    | KCat l _ | KOrd l => exists i j, i < j /\ nth_error l i = Some u /\ nth_error l j = Some v
    | KConst _ => False
    | KInt _ _ _ _ => exists a b, u = VInt a /\ v = VInt b /\ (a < b)%Z
    | KFloat _ _ _ _ => exists a b, u = VFloat a /\ v = VFloat b /\ (a < b)%Q
    end.
  (** in the order of the hyperparameters [l], the first value in which [d] and [d'] differ comes before in [d] *)
  Inductive lexical (d d' : assignment) : list hp -> Prop :=
  | lex_here h l u v : d (hp_name h) = Some u -> d' (hp_name h) = Some v -> earlier h u v -> lexical d d' (h :: l)
  | lex_later h l : d (hp_name h) = d' (hp_name h) -> lexical d d' l -> lexical d d' (h :: l).
  (** no conditional hyperparameter has a value *)
  Definition shallow (hs : list hp) (cs : list cond) (d : assignment) : Prop := forall h, In h hs -> conditional cs (hp_name h) -> d (hp_name h) = None.

  (** ** The values of one hyperparameter *)
  Lemma nth_pairs {A} (l : list A) : ForallOrdPairs (fun u v => exists i j, i < j /\ nth_error l i = Some u /\ nth_error l j = Some v) l.
  Proof.
    induction l as [|x l IH]; constructor.
    - apply Forall_forall. intros y Hy. apply In_nth_error in Hy. destruct Hy as (j & Hj). exists 0, (S j). split; [lia|]. split; [reflexivity|exact Hj].
    - eapply fop_weaken; [|exact IH]. intros u v _ _ (i & j & Hij & Hi & Hj). exists (S i), (S j). split; [lia|]. split; assumption.
  Qed.
  Lemma value_set_sorted s steps n h l : get_hp s n = Some h -> constructed h -> int_distinct steps h -> value_set s steps n = Ok l -> ForallOrdPairs (earlier h) l.
  Proof.
    intros Hg C D Hl. assert (W := constructed_wf h C). destruct (proj1 (value_set_ok s steps n h Hg C) l Hl) as (_ & Hst & _ & _).
    unfold value_set, int_distinct, wf_hp, stepped, earlier in *. rewrite Hg in Hl.
    destruct (hp_kind h) as [ch w|sq|v|lo hi log ds|lo hi log ds]; [injection Hl as <-; apply nth_pairs|injection Hl as <-; apply nth_pairs|injection Hl as <-; repeat constructor| |];
      (destruct ds; [|discriminate..]); destruct Hst as (num & En & P); rewrite En in Hl; assert (E0 : (0 <=? num)%Z = true) by (apply Z.leb_le; lia); rewrite E0 in Hl; cbn [bind] in Hl.
    - destruct W as (W1 & W2 & _).
      assert (B : bounds_ok (inject_Z lo) (inject_Z hi) log) by (split; [rewrite <- Zlt_Qlt; exact W1|intros K; change 0%Q with (inject_Z 0); rewrite <- Zlt_Qlt; auto]).
      rewrite clamp_id in Hl; cbn [bind] in Hl.
      + injection Hl as <-. apply fop_map, fop_map. apply grid_points_pairs.
        * intros a a' b b' Qa Qb. rewrite (rint_proper _ _ Qa), (rint_proper _ _ Qb). auto.
        * intros i j Hi Hj. specialize (D num i j En Hi Hj). eexists; eexists. split; [reflexivity|]. split; [reflexivity|].
          assert (Lt := grid_number_lt _ _ log num i j B Hi Hj). apply Qlt_le_weak, rint_mono in Lt. lia.
      + intros K. apply map_eq_nil in K. apply (grid_points_nonempty _ _ _ _ P K).
      + intros x Hx. apply in_map_iff in Hx. destruct Hx as (q & <- & Hq). apply grid_points_in in Hq. destruct Hq as (i & Hi & Q).
        destruct (grid_number_range _ _ log num i B Hi) as [R1 R2]. rewrite <- Q in R1, R2. assert (R := rint_bounds lo hi q R1 R2). split; apply Z.ltb_ge; lia.
    - destruct W as (B & _). rewrite clamp_id in Hl; cbn [bind] in Hl.
      + injection Hl as <-. apply fop_map. apply (fop_weaken (fun x y => (x < y)%Q)).
        * intros x y _ _ Lt. eauto.
        * apply grid_points_pairs; [intros a a' b b' Qa Qb; rewrite Qa, Qb; auto|]. intros i j Hi Hj. apply grid_number_lt; assumption.
      + apply (grid_points_nonempty _ _ _ _ P).
      + intros q Hq. apply grid_points_in in Hq. destruct Hq as (i & Hi & Q). destruct (grid_number_range _ _ log num i B Hi) as [R1 R2]. rewrite <- Q in R1, R2.
        split; apply Qltb_no; assumption.
  Qed.

  (** ** The points of the loop *)
  Lemma product_sorted rs : forall sets (p : point), NoDup (map hp_name rs) -> Forall2 (fun h st => ForallOrdPairs (earlier h) st) rs sets ->
    (forall h, In h rs -> assoc (hp_name h) p = None) ->
    ForallOrdPairs (fun vs ws => lexical (pd (p ++ combine (map hp_name rs) vs)) (pd (p ++ combine (map hp_name rs) ws)) rs) (product sets).
  Proof.
    induction rs as [|h rs IH]; intros sets p Nd F Hn; inversion F as [|? st ? sets' St F']; subst; [repeat constructor|].
    cbn [map] in Nd |- *. inversion Nd as [|? ? Nn Nd']; subst. cbn [product].
    assert (At : forall v vs, pd (p ++ combine (hp_name h :: map hp_name rs) (v :: vs)) (hp_name h) = Some v).
    { intros v vs. unfold pd. rewrite assoc_app, (Hn h (or_introl eq_refl)). simpl. rewrite String.eqb_refl. reflexivity. }
    assert (Tail : forall v, ForallOrdPairs (fun vs ws => lexical (pd (p ++ combine (hp_name h :: map hp_name rs) (v :: vs))) (pd (p ++ combine (hp_name h :: map hp_name rs) (v :: ws))) (h :: rs)) (product sets')).
    { intros v. assert (I := IH sets' (p ++ [(hp_name h, v)]) Nd' F').
      apply (fop_weaken (fun vs ws => lexical (pd ((p ++ [(hp_name h, v)]) ++ combine (map hp_name rs) vs)) (pd ((p ++ [(hp_name h, v)]) ++ combine (map hp_name rs) ws)) rs)).
      - intros vs ws _ _ K. apply lex_later; [rewrite !At; reflexivity|]. cbn [combine]. rewrite <- !app_assoc in K. exact K.
      - apply I. intros k Hk. rewrite assoc_app, (Hn k (or_intror Hk)). simpl. destruct (String.eqb (hp_name k) (hp_name h)) eqn:Q; [|reflexivity].
        apply String.eqb_eq in Q. exfalso. apply Nn. rewrite <- Q. apply in_map, Hk. }
    clear IH F. induction St as [|v st Fv St IHs]; [constructor|]. simpl. apply fop_app. split; [apply fop_map, Tail|]. split; [exact IHs|].
    intros x y Hx Hy. apply in_map_iff in Hx. destruct Hx as (vs & <- & _). apply in_concat in Hy. destruct Hy as (z & Hz & Hy).
    apply in_map_iff in Hz. destruct Hz as (w & <- & Hw). apply in_map_iff in Hy. destruct Hy as (ws & <- & _).
    apply (lex_here _ _ h rs v w); [apply At|apply At|]. rewrite Forall_forall in Fv. apply Fv. exact Hw.
  Qed.

  (** a point before another one *)
  Definition prior (hs : list hp) (cs : list cond) (rs : list hp) (p q : point) : Prop :=
    ~ shallow hs cs (pd q) \/ (shallow hs cs (pd p) /\ shallow hs cs (pd q) /\ lexical (pd p) (pd q) rs).

  Lemma expand_deep s hs cs fs steps p more q : tame s hs cs fs -> good hs cs steps p -> expand s steps p = Ok more -> In q more -> ~ shallow hs cs (pd q).
  Proof.
    intros T G Ex Hq. assert (O := built_ok _ _ _ _ (tm_built _ _ _ _ T)).
    destruct (expand_ok _ _ _ _ Ex) as (new & sets & En & Hne & Fs & Hin). apply Hin in Hq. destruct Hq as (vs & Fv & ->).
    destruct (new_active_ok _ _ _ En) as (Nd & Na & _).
    assert (Lv : length new = length vs) by (rewrite (Forall2_length _ _ _ Fs), (Forall2_length _ _ _ Fv); reflexivity).
    destruct new as [|n new]; [congruence|]. destruct (Na n (or_introl eq_refl)) as (Nk & _ & m & Hm & Hc). apply (so_edge O) in Hc.
    assert (Hn : In n (map hp_name hs)) by (apply (Permutation_in _ (so_keys O)), (so_reads_keys O m n Hc)). apply in_map_iff in Hn. destruct Hn as (h & Eh & Hh).
    intros Sh. assert (K := Sh h Hh). rewrite Eh in K. specialize (K (reads_conditional cs m n Hc)). unfold pd in K. rewrite assoc_app in K.
    destruct (assoc n p); [discriminate|]. destruct vs as [|v vs]; [discriminate|]. simpl in K. rewrite String.eqb_refl in K. discriminate.
  Qed.

  (** For every pair of configurations of the grid, the first before the second: the second has a value of a conditional hyperparameter,
      or neither has one and the first comes first in the lexicographic order of the unconditional hyperparameters, the last of which
      varies fastest. *)
  Theorem C143_order_partial s hs cs fs fuel steps l i j c c' : tame s hs cs fs -> steady_grid steps hs -> (forall h, In h hs -> int_distinct steps h) ->
    generate_grid fuel s steps = Ok l -> i < j -> nth_error l i = Some c -> nth_error l j = Some c' ->
    exists rs d d', map hp_name rs = unconditional_hyperparameters s /\ incl rs hs /\ carries s hs c d /\ carries s hs c' d' /\
      (~ shallow hs cs d' \/ (shallow hs cs d /\ shallow hs cs d' /\ lexical d d' rs)).
  Proof.
    intros T S D H Hij Hi Hj. assert (O := built_ok _ _ _ _ (tm_built _ _ _ _ T)). unfold generate_grid in H.
    destruct (mapM (value_set s steps) (unconditional_hyperparameters s)) as [sets|e'] eqn:Es; cbn [bind] in H; [|discriminate].
    assert (Rs : exists rs, map hp_name rs = unconditional_hyperparameters s /\ incl rs hs).
    { assert (I : forall n, In n (unconditional_hyperparameters s) -> In n (map hp_name hs)) by (intros n Hn; apply (root_keys s hs cs fs n O) in Hn; apply Hn).
      revert I. clear. induction (unconditional_hyperparameters s) as [|n ns IH]; intros I; [exists []; split; [reflexivity|intros x []]|].
      destruct IH as (rs & Er & Ir); [intros m Hm; apply I; right; exact Hm|]. assert (Hn := I n (or_introl eq_refl)). apply in_map_iff in Hn. destruct Hn as (h & Eh & Hh).
      exists (h :: rs). split; [simpl; congruence|]. intros x [<-|Hx]; [exact Hh|apply Ir, Hx]. }
    destruct Rs as (rs & Er & Ir).
    assert (Main : forall fuel todo done pts l, grid_loop fuel s steps todo done = Ok l -> (forall p, In p todo -> good hs cs steps p) ->
      Forall2 (fun c p => carries s hs c (pd p)) done pts -> ForallOrdPairs (prior hs cs rs) (pts ++ todo) ->
      exists pts, Forall2 (fun c p => carries s hs c (pd p)) l pts /\ ForallOrdPairs (prior hs cs rs) pts).
    { clear H Hi Hj fuel l. induction fuel as [|fuel IH]; intros todo done pts l H Gs F P.
      - destruct todo; [|discriminate]. cbn in H. injection H as <-. rewrite app_nil_r in P. eauto.
      - destruct todo as [|p todo]; [cbn in H; injection H as <-; rewrite app_nil_r in P; eauto|]. cbn [grid_loop] in H.
        assert (Gp := Gs p (or_introl eq_refl)). assert (Gs' : forall q, In q todo -> good hs cs steps q) by (intros q Hq; apply Gs; simpl; auto).
        assert (Pd : ForallOrdPairs (prior hs cs rs) (pts ++ todo)).
        { apply fop_app in P. destruct P as (P1 & P2 & P3). inversion P2 as [|? ? Pf P2']; subst.
          apply fop_app. split; [exact P1|]. split; [exact P2'|]. intros x y Hx Hy. apply P3; simpl; auto. }
        assert (PR := point_result s hs cs fs steps p T S Gp). destruct (config_of_values s (some_values p) false) as [c0|e'].
        + destruct PR as [Rep _]. apply (IH todo (done ++ [c0]) (pts ++ [p]) l H Gs').
          * apply Forall2_app; [exact F|]. constructor; [auto|constructor].
          * rewrite <- app_assoc. exact P.
        + destruct PR as [(-> & f & Hf & Vf)|(-> & h & Hh & A & Hn)]; [apply (IH todo done pts l H Gs' F Pd)|].
          destruct (expand s steps p) as [more|e'] eqn:Em; cbn [bind] in H; [|discriminate].
          assert (Dp := fun q => expand_deep s hs cs fs steps p more q T Gp Em).
          apply (IH (todo ++ more) done pts l H).
          * intros q Hq. apply in_app_iff in Hq. destruct Hq as [Hq|Hq]; [auto|]. apply (extend_good s hs cs fs steps p more q T Gp Em Hq).
          * exact F.
          * rewrite app_assoc. apply fop_app. split; [exact Pd|]. split; [|intros x q _ Hq; left; apply (Dp q Hq)].
            clear - L Dp. induction more as [|q more IHm]; constructor; [|apply IHm; intros x Hx; apply Dp; simpl; auto].
            apply Forall_forall. intros x Hx. left. apply Dp. simpl. auto. }
    assert (Start : ForallOrdPairs (prior hs cs rs) (cartesian sets (unconditional_hyperparameters s))).
    { assert (Ls := mapM_length _ _ _ Es). assert (Es' := Es). apply mapM_ok in Es'. unfold cartesian. destruct sets as [|st sets]; [constructor|].
      set (sts := st :: sets) in *. clearbody sts. clear st sets. rewrite <- Er in *.
      assert (Sh : forall vs, shallow hs cs (pd (combine (map hp_name rs) vs))).
      { intros vs h Hh Hc. unfold pd. destruct (assoc (hp_name h) (combine (map hp_name rs) vs)) as [u|] eqn:Ea; [|reflexivity]. apply assoc_combine_in in Ea. rewrite Er in Ea.
        apply (root_keys s hs cs fs _ O) in Ea. destruct Ea as [_ N]. contradiction. }
      apply fop_map. eapply fop_weaken; [|apply (product_sorted rs sts [])].
      - intros vs ws _ _ K. right. split; [apply Sh|]. split; [apply Sh|]. exact K.
      - rewrite Er. apply (roots_nodup s hs cs fs O).
      - clear - L Es' D O Ir. assert (G : forall x, In x rs -> In x hs) by exact Ir. clear Ir. revert sts Es' G. induction rs as [|h rs IH]; intros sts F G; inversion F as [|? st ? sts' Hv F']; subst; constructor.
        + assert (Hh := G h (or_introl eq_refl)).
          apply (value_set_sorted s steps (hp_name h) h st); [apply (so_get_hp O); auto|apply (so_constructed O h Hh)|apply D, Hh|exact Hv].
        + apply (IH sts' F'). intros x Hx. apply G. right. exact Hx.
      - reflexivity. }
    destruct (Main fuel _ [] [] l H (fun q => start_good s hs cs fs steps sets q T Es) (Forall2_nil _) Start) as (pts & F & P).
    assert (Look : forall k x, nth_error l k = Some x -> exists p, nth_error pts k = Some p /\ carries s hs x (pd p)).
    { clear -F. induction F as [|x p l pts Hx F IH]; intros k y Hk; [destruct k; discriminate|]. destruct k as [|k]; cbn in *; [injection Hk as <-; eauto|apply (IH k y Hk)]. }
    destruct (Look i c Hi) as (p & Hp & Rp). destruct (Look j c' Hj) as (q & Hq & Rq).
    exists rs, (pd p), (pd q). split; [exact Er|]. split; [exact Ir|]. split; [exact Rp|]. split; [exact Rq|]. exact (fop_nth _ _ _ _ _ _ P Hij Hp Hq).
  Qed.
End Order.

(** ** Example: the grid of the space of C29 *)
Section Witness.
  #[local] Existing Instance rat_env.
  #[local] Existing Instance rat_env_laws.
  Example C143_ex : tame g_space g_hps [gIR; gZI] [gFA] /\ steady_grid g_steps g_hps /\ (forall h, In h g_hps -> int_distinct g_steps h) /\
    generate_grid 100 g_space g_steps = Ok g_list /\ unconditional_hyperparameters g_space = ["f"; "r"]%string /\
    map (fun c => map (fun n => match getitem g_space c n with Ok (VFloat q) => Some (VFloat (Qred q)) | Ok v => Some v | Err _ => None end) ["f"; "r"; "i"; "z"]%string) g_list =
      [[Some (VFloat (0)); Some (VStr "0"); None; None];
       [Some (VFloat (1)); Some (VStr "0"); None; None];
       [Some (VFloat (0)); Some (VStr "1"); Some (VInt 1); None];
       [Some (VFloat (1#2)); Some (VStr "1"); Some (VInt 1); None];
       [Some (VFloat (1)); Some (VStr "1"); Some (VInt 1); None];
       [Some (VFloat (0)); Some (VStr "1"); Some (VInt 5); Some (VStr "0")];
       [Some (VFloat (0)); Some (VStr "1"); Some (VInt 5); Some (VStr "1")];
       [Some (VFloat (0)); Some (VStr "1"); Some (VInt 9); Some (VStr "0")];
       [Some (VFloat (0)); Some (VStr "1"); Some (VInt 9); Some (VStr "1")];
       [Some (VFloat (1#2)); Some (VStr "1"); Some (VInt 5); Some (VStr "0")];
       [Some (VFloat (1#2)); Some (VStr "1"); Some (VInt 5); Some (VStr "1")];
       [Some (VFloat (1#2)); Some (VStr "1"); Some (VInt 9); Some (VStr "0")];
       [Some (VFloat (1#2)); Some (VStr "1"); Some (VInt 9); Some (VStr "1")];
       [Some (VFloat (1)); Some (VStr "1"); Some (VInt 5); Some (VStr "0")];
       [Some (VFloat (1)); Some (VStr "1"); Some (VInt 5); Some (VStr "1")];
       [Some (VFloat (1)); Some (VStr "1"); Some (VInt 9); Some (VStr "0")];
       [Some (VFloat (1)); Some (VStr "1"); Some (VInt 9); Some (VStr "1")]]%string.
  Proof.
    split; [exact g_tame|]. split; [exact g_steady|]. split; [exact g_distinct|]. split; [exact (proj1 g_ok)|]. vm_compute. split; reflexivity.
  Qed.
End Witness.
