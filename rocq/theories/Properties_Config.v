(** * Properties C17, C18, C21, C27, C28, C32, C56: configurations *)
From Coq Require Import String List ZArith QArith Qabs Bool Lia Permutation Relations.
From Verif Require Import Base ListFacts Numeric NumericProofs HP HPProofs Properties_HP Cond Forb EqFacts Dag DagProofs
  Space CommitProofs Spec SpaceProofs CnodeProofs ForbProofs EvalProofs ForbEval MergeProofs ValidProofs ConfigProofs
  ChangeProofs ReadProofs Ex Properties_Eval.
Import ListNotations.
Open Scope nat_scope.

Section Config.
  Context {E : Env} {L : EnvLaws E}.

  (** ** C17: Configuration(values=...) accepts exactly the valid configurations

      [d] is the assignment that is stored: the given values, floats rounded to 13 decimals.
      Missing: spaces that are not [tame] (C17_refuted), integers given as numbers close to an
      integer (C17_inexact_refuted), and the empty string as an unknown key (C17_empty_key_refuted). *)
  Theorem C17_accepts_valid_partial s hs cs fs vals d : tame s hs cs fs ->
    stored hs (given vals) d -> exact_all hs (given vals) ->
    ((exists c, config_of_values s vals false = Ok c) <->
     (forall k, In k (map fst vals) -> k = ""%string \/ In k (map hp_name hs)) /\
     all_legal hs (given vals) /\ valid hs cs fs d).
  Proof.
    intros [B R M NS Cmp] St Ex. assert (O := built_ok _ _ _ _ B).
    assert (Kn : (forall k, In k (map fst vals) -> k = ""%string \/ In k (map hp_name hs)) <-> known (hs := hs) vals).
    { unfold known. split; intros H k Hk; destruct (H k Hk) as [K|K]; auto; right.
      - apply in_map_iff in K. destruct K as (h & ? & ?). eauto.
      - destruct K as (h & Hh & <-). apply in_map. exact Hh. }
    assert (Exd : exact_all hs d).
    { intros h w Hh Hw. rewrite (St h Hh) in Hw. destruct (given vals (hp_name h)) as [w'|] eqn:Ew; [|discriminate].
      inversion Hw; subst. apply round_exact. apply (Ex h w' Hh Ew). }
    assert (Ld : all_legal hs (given vals) -> all_legal hs d).
    { intros AL h w Hh Hw. rewrite (St h Hh) in Hw. destruct (given vals (hp_name h)) as [w'|] eqn:Ew; [|discriminate].
      inversion Hw; subst. apply round_legal; [apply (so_constructed O); exact Hh|]. apply (AL h w' Hh Ew). }
    rewrite Kn. split.
    - intros (c & H). apply (config_of_values_ok O) in H. destruct H as (K & AL & vec & cache & _ & F & Hc & _).
      split; [exact K|]. split; [exact AL|].
      assert (En := filled_encodes O vals vec cache d AL F St).
      destruct (encodes_check O vec d false R M NS En Exd) as [H1 _]. destruct (H1 Hc) as (A1 & A2 & A3).
      constructor; [apply Ld; exact AL| |exact A3]. intros h Hh. split; [apply A2; auto|apply A1; exact Hh].
    - intros (K & AL & [V1 V2 V3]). assert (F := fill_items O vals).
      destruct (fill s vals (items s) (repeat NaN (s_len s)) []) as [[vec cache]|e] eqn:Ef; [|destruct F; contradiction].
      destruct F as [_ F]. assert (En := filled_encodes O vals vec cache d AL F St).
      destruct (encodes_check O vec d false R M NS En Exd) as [_ H2].
      exists (mk_config vec (Some cache) false). apply (config_of_values_ok O). split; [exact K|]. split; [exact AL|].
      exists vec, cache. split; [exact Ef|]. split; [exact F|]. split; [|reflexivity]. apply H2; auto.
      + intros h Hh Ha. apply V2; assumption.
      + intros _ h Hh Ha. apply V2; assumption.
  Qed.

  (** the guard of [tame] on equivalent conditions holds for conjunctions (or disjunctions) without
      repeated components *)
  Theorem C17_guard s hs cs fs : built s hs cs fs -> refs hs cs fs ->
    (forall c, In c cs -> only_and c /\ distinct c) \/ (forall c, In c cs -> only_or c /\ distinct c) ->
    ne_safe cs -> (forall f, In f fs -> comparable f) -> tame s hs cs fs.
  Proof.
    intros B R H NS Cmp. assert (O := built_ok _ _ _ _ B). constructor; auto. destruct H as [H|H].
    - apply (so_merge_and s hs cs fs O); [apply R|exact H].
    - apply (so_merge_or s hs cs fs O); [apply R|exact H].
  Qed.

  (** what holds of every space: accepted values are legal, keys known, unconditional ones given *)
  Theorem C17_accepted s hs cs fs vals allow c : built s hs cs fs -> config_of_values s vals allow = Ok c ->
    (forall k, In k (map fst vals) -> k = ""%string \/ In k (map hp_name hs)) /\
    all_legal hs (given vals) /\
    forall h, In h hs -> ~ conditional cs (hp_name h) -> given vals (hp_name h) <> None.
  Proof.
    intros B H. assert (O := built_ok _ _ _ _ B). apply (config_of_values_ok O) in H.
    destruct H as (K & AL & vec & cache & _ & (_ & F & _) & Hc & _). split; [|split; [exact AL|]].
    - intros k Hk. destruct (K k Hk) as [?|(h & Hh & <-)]; [auto|]. right. apply in_map. exact Hh.
    - intros h Hh Hn Hg. specialize (F h Hh). rewrite Hg in F. destruct F as [F _].
      unfold check_configuration in Hc.
      assert (Hr : In (hp_name h) (d_roots (s_dag s))).
      { apply (so_root O). split; [apply (keys_hs O); eauto|]. destruct (condof (d_nodes (s_dag s)) (hp_name h)) as [c0|] eqn:Ec; [|reflexivity].
        exfalso. apply Hn. apply (so_conditional O). eauto. }
      apply if_check in Hc. destruct Hc as [Hc _]. rewrite forallb_forall in Hc. specialize (Hc _ Hr).
      unfold vget in F. destruct (assoc (hp_name h) (index_of s)) as [i|]; [|discriminate]. rewrite F in Hc. discriminate.
  Qed.
  Theorem C17_unknown_key s hs cs fs vals allow k : built s hs cs fs -> In k (map fst vals) -> k <> ""%string ->
    ~ In k (map hp_name hs) -> config_of_values s vals allow = Err ValueError.
  Proof.
    intros B Hk Hne Hn. assert (O := built_ok _ _ _ _ B). unfold config_of_values.
    destruct (negb (existsb (fun k => (negb (str_in k (keys s)) && negb (String.eqb k ""))%bool) (map fst vals))) eqn:Ek; [|reflexivity].
    exfalso. apply (known_iff O) in Ek. destruct (Ek k Hk) as [K|(h & Hh & <-)]; [contradiction|]. apply Hn. apply in_map. exact Hh.
  Qed.
  Theorem C17_illegal_value s hs cs fs vals allow h w : built s hs cs fs ->
    (forall k, In k (map fst vals) -> In k (map hp_name hs)) ->
    In h hs -> given vals (hp_name h) = Some w -> legal_value h w = false ->
    config_of_values s vals allow = Err IllegalValueError.
  Proof.
    intros B K Hh Hw Hl. assert (O := built_ok _ _ _ _ B). unfold config_of_values.
    replace (negb (existsb (fun k => (negb (str_in k (keys s)) && negb (String.eqb k ""))%bool) (map fst vals))) with true.
    - assert (F := fill_items O vals). destruct (fill s vals (items s) (repeat NaN (s_len s)) []) as [[vec cache]|e].
      + destruct F as [AL _]. rewrite (AL h w Hh Hw) in Hl. discriminate.
      + destruct F as [-> _]. reflexivity.
    - symmetry. apply (known_iff O). intros k Hk. right. specialize (K k Hk). apply in_map_iff in K. destruct K as (g & ? & ?). eauto.
  Qed.

  (** ** C18: a configuration reads back the values it was given *)
  Theorem C18_reads s hs cs fs vals allow c : built s hs cs fs -> config_of_values s vals allow = Ok c ->
    (forall h w, In h hs -> given vals (hp_name h) = Some w -> getitem s c (hp_name h) = Ok (round_value h w)) /\
    (forall k, ~ (exists h w, In h hs /\ hp_name h = k /\ given vals k = Some w) -> getitem s c k = Err KeyError) /\
    (forall k, In k (iter s c) <-> exists h w, In h hs /\ hp_name h = k /\ given vals k = Some w) /\
    NoDup (iter s c).
  Proof.
    intros B H. assert (O := built_ok _ _ _ _ B). apply (config_of_values_ok O) in H.
    destruct H as (_ & AL & vec & cache & _ & F & _ & ->). split; [|split; [|split]].
    - intros h w Hh Hw. rewrite (filled_read O vals vec cache allow h F Hh), Hw. reflexivity.
    - intros k Hk. destruct (in_dec string_dec k (map hp_name hs)) as [Hin|Hout]; [|apply (filled_unknown O vals); assumption].
      apply in_map_iff in Hin. destruct Hin as (h & <- & Hh). rewrite (filled_read O vals vec cache allow h F Hh).
      destruct (given vals (hp_name h)) as [w|] eqn:Ew; [|reflexivity]. exfalso. apply Hk. exists h, w. auto.
    - intros k. apply (filled_iter O vals); assumption.
    - apply (iter_nodup O).
  Qed.
  (** what rounding does: a multiple of 1e-13 at distance at most half of that; other kinds of
      hyperparameters keep the value *)
  Theorem C18_rounding h w :
    match hp_kind h with
    | KFloat _ _ _ _ => forall q, num_of w = Some q -> exists q' z, round_value h w = VFloat q' /\
        (q' == inject_Z z / inject_Z (10 ^ 13))%Q /\ (Qabs (q' - q) <= (1 # 2) * (1 # 10000000000000))%Q
    | _ => round_value h w = w
    end.
  Proof.
    unfold round_value. destruct (hp_kind h); try reflexivity. intros q ->.
    exists (round13 q). eexists. split; [reflexivity|]. split; [unfold round13; reflexivity|apply round13_error].
  Qed.
  (** a copy made from the vector.  Missing: integers given as numbers close to an integer, which
      read back as the integer (C18_copy_refuted) *)
  Theorem C18_copy_partial s hs cs fs vals allow c c' : built s hs cs fs -> config_of_values s vals allow = Ok c ->
    exact_all hs (given vals) -> config_of_vector s (c_vector c) allow = Ok c' ->
    forall k, match getitem s c k with
              | Ok w => exists w', getitem s c' k = Ok w' /\ py_eqb w' w = true
              | Err _ => getitem s c' k = Err KeyError
              end.
  Proof.
    intros B H Ex H' k. assert (O := built_ok _ _ _ _ B). apply (config_of_values_ok O) in H.
    destruct H as (_ & AL & vec & cache & _ & F & _ & ->). apply config_len_vec in H'. destruct H' as [_ ->]. simpl in *.
    destruct (in_dec string_dec k (map hp_name hs)) as [Hin|Hout].
    - apply in_map_iff in Hin. destruct Hin as (h & <- & Hh). rewrite (filled_read O vals vec cache allow h F Hh).
      rewrite (getitem_vec O (mk_config vec None allow) h Hh eq_refl). simpl. destruct F as (_ & F & _). specialize (F h Hh).
      destruct (given vals (hp_name h)) as [w|] eqn:Ew.
      + destruct F as [F _]. assert (C := so_constructed O h Hh). assert (Lw := round_legal h w C (AL h w Hh Ew)).
        destruct (value_roundtrip h (round_value h w) _ C Lw (proj2 (round_exact h w) (Ex h w Hh Ew)) F) as (w' & Hw' & Q).
        destruct (legal_finite h _ C Lw) as (q & Hq). rewrite Hq in F.
        assert (Hv : vget (index_of s) vec (hp_name h) = Fin q) by congruence. rewrite Hv in Hw' |- *. rewrite Hw'. simpl.
        exists (round_value h w'). split; [reflexivity|]. apply (py_eqb_trans _ (round_value h (round_value h w)) _); [|apply round_idem].
        unfold round_value at 1 2. destruct (hp_kind h) eqn:K; try exact Q.
        unfold legal_value in Lw. rewrite K in Lw. unfold py_eqb in Q.
        destruct (num_of (round_value h w)) as [b|] eqn:Nb; [|discriminate]. destruct (num_of w') as [a|] eqn:Na; [|destruct w', (round_value h w); discriminate].
        simpl. apply Qeq_bool_iff. apply round13_proper. apply Qeq_bool_iff. exact Q.
      + destruct F as [F _]. rewrite F. reflexivity.
    - rewrite (filled_unknown O vals vec cache allow k F Hout). apply (getitem_unknown O); [reflexivity|exact Hout].
  Qed.

  (** ** C21: the default configuration is valid and uses the defaults *)
  Theorem C21_exists s hs cs fs : built s hs cs fs -> exists c, get_default_configuration s = Ok c.
  Proof.
    assert (G : forall s s' hs' cs' fs', add s hs' cs' fs' = (s', Ok tt) -> exists c, get_default_configuration s' = Ok c).
    { clear. intros s s' hs' cs' fs' H. unfold add in H. destruct (dag_update (s_dag s) hs' cs' fs') as [d [[]|e]]; [|discriminate].
      unfold get_default_configuration. destruct (check_default_configuration _) as [c|e] eqn:Ec; [|discriminate].
      inversion H; subst. eauto. }
    destruct 1; [eexists; reflexivity|eapply G; eassumption|eapply G; eassumption].
  Qed.

  Lemma default_values_only (s : space) : forall its vals vals', default_values s its vals = Ok vals' ->
    forall k w, given vals' k = Some w -> given vals k = Some w \/ exists h, In (k, h) its /\ w = hp_default h.
  Proof.
    induction its as [|[n h] its IH]; intros vals vals'; simpl.
    - intros H. inversion H; subst. auto.
    - destruct (mapM _ (conds_of s n)) as [bs|e]; simpl; [|discriminate]. intros H k w Hk.
      destruct (IH _ _ H k w Hk) as [K|(h' & Hh' & K)].
      + unfold given in K |- *. destruct (string_dec k n) as [->|Hne].
        * rewrite assoc_set_same in K. destruct (forallb _ bs); [|discriminate]. inversion K; subst. right. exists h. auto.
        * rewrite assoc_set_other in K by exact Hne. auto.
      + right. exists h'. auto.
  Qed.

  (** every value is the declared default *)
  Theorem C21_defaults s hs cs fs c h w : built s hs cs fs -> get_default_configuration s = Ok c -> In h hs ->
    getitem s c (hp_name h) = Ok w -> py_eqb w (hp_default h) = true.
  Proof.
    intros B H Hh Hw. assert (O := built_ok _ _ _ _ B). unfold get_default_configuration, check_default_configuration in H.
    destruct (default_values s (items s) []) as [vals|e] eqn:Ev; [|discriminate]. simpl in H.
    destruct (C18_reads s hs cs fs vals false c B H) as (R1 & R2 & _).
    destruct (given vals (hp_name h)) as [u|] eqn:Eg.
    - destruct (default_values_only s _ _ _ Ev _ _ Eg) as [K|(h' & Hin & ->)]; [discriminate|].
      apply (so_items O) in Hin. destruct Hin as [Hh' Hn]. assert (h' = h) by (apply (same_hp hs); auto using (so_names_nodup O)). subst h'.
      rewrite (R1 h _ Hh Eg) in Hw. inversion Hw; subst. apply default_rounded, (so_constructed O), Hh.
    - rewrite R2 in Hw; [discriminate|]. intros (g & u & Hg & Hn & K). congruence.
  Qed.

  (** exactly the active hyperparameters have values, all are legal, and no clause is violated *)
  Theorem C21_valid s hs cs fs c : built s hs cs fs -> refs hs cs fs -> get_default_configuration s = Ok c ->
    valid hs cs fs (reading s c).
  Proof.
    intros B R H. assert (O := built_ok _ _ _ _ B). unfold get_default_configuration, check_default_configuration in H.
    destruct (default_values_spec O (proj1 R)) as (vals & Hv & Hk & AL & Sp). rewrite Hv in H. simpl in H.
    destruct (C18_reads s hs cs fs vals false c B H) as (R1 & R2 & _).
    assert (Rd : forall h, In h hs -> reading s c (hp_name h) = option_map (round_value h) (given vals (hp_name h))).
    { intros h Hh. unfold reading. destruct (given vals (hp_name h)) as [w|] eqn:Eg; simpl.
      - rewrite (R1 h w Hh Eg). reflexivity.
      - rewrite R2; [reflexivity|]. intros (g & u & Hg & Hn & K). congruence. }
    assert (Dv : forall h w, In h hs -> given vals (hp_name h) = Some w -> w = hp_default h).
    { intros h w Hh Hw. destruct (Sp h Hh) as [[K _]|[K _]]; congruence. }
    assert (Ag : forall h, In h hs -> agree (given vals) (reading s c) h).
    { intros h Hh. unfold agree. rewrite (Rd h Hh). destruct (given vals (hp_name h)) as [w|] eqn:Eg; simpl; [|exact I].
      assert (C := so_constructed O h Hh). split; [|split; [apply (AL h w Hh Eg)|apply round_legal; [exact C|apply (AL h w Hh Eg)]]].
      rewrite (Dv h w Hh Eg). rewrite py_eqb_sym. apply default_rounded. exact C. }
    constructor.
    - intros h w Hh Hw. specialize (Ag h Hh). unfold agree in Ag. rewrite Hw in Ag. destruct (given vals (hp_name h)); tauto.
    - intros h Hh. rewrite <- (active_agree O (given vals) (reading s c) (hp_name h) (proj1 R) Ag).
      rewrite (Rd h Hh). destruct (Sp h Hh) as [[-> A]|[-> A]]; simpl.
      + split; [auto|discriminate].
      + split; [congruence|contradiction].
    - apply (config_of_values_ok O) in H. destruct H as (_ & _ & vec & cache & _ & F & Hc & _).
      assert (En : forall h, In h hs -> encodes (index_of s) vec (reading s c) h).
      { apply (filled_encodes O vals vec cache); auto. }
      intros f Hf Vf. unfold check_configuration in Hc. apply if_check in Hc. destruct Hc as [_ Hc].
      destruct (mapM (check_cnode s vec false) (d_min (s_dag s))) as [u|e]; [|discriminate]. simpl in Hc.
      apply (check_fast O (index_of s) vec (proj2 R)) with (f := f) in Hc; [|exact Hf].
      apply (forb_vec_means (index_of s) vec (reading s c) f) in Vf; [congruence| | |].
      + apply forb_built_good, (so_forb_built O), Hf.
      + intros h Hh. apply En. apply (proj2 R f Hf h Hh).
      + intros r a b h w Hr Hab Hd. assert (Hh : In h hs).
        { apply (proj2 R f Hf). unfold forb_hps. apply in_concat. exists [a; b]. split; [apply in_map_iff; exists (FRel r a b); auto|].
          simpl. destruct Hab; subst; auto. }
        rewrite (Rd h Hh) in Hd. destruct (given vals (hp_name h)) as [w0|] eqn:Eg; [|discriminate]. inversion Hd; subst.
        apply round_exact. rewrite (Dv h w0 Hh Eg). apply default_exact, (so_constructed O), Hh.
  Qed.

  (** errors of the validity check *)
  Lemma to_value_not_key h x e : to_value h x = Err e -> e <> KeyError.
  Proof.
    unfold to_value, np_index. intros H E'. subst e. destruct (hp_kind h), x; try discriminate;
      destruct (is_close_to_integer q); try discriminate;
      match type of H with (if ?b then _ else _) = _ => destruct b end; try discriminate;
      match type of H with context[nth_error ?l ?n] => destruct (nth_error l n) end; discriminate.
  Qed.
  Lemma anyM_err {A} (f : A -> res bool) l e : anyM f l = Err e -> exists x, In x l /\ f x = Err e.
  Proof.
    induction l as [|x l IH]; simpl; [discriminate|]. destruct (f x) as [[]|e'] eqn:Ex; simpl; intros H; try discriminate.
    - destruct (IH H) as (y & Hy & K). exists y. auto.
    - inversion H; subst. exists x. auto.
  Qed.
  Lemma allM_err {A} (f : A -> res bool) l e : allM f l = Err e -> exists x, In x l /\ f x = Err e.
  Proof.
    induction l as [|x l IH]; simpl; [discriminate|]. destruct (f x) as [[]|e'] eqn:Ex; simpl; intros H; try discriminate.
    - destruct (IH H) as (y & Hy & K). exists y. auto.
    - inversion H; subst. exists x. auto.
  Qed.
  Lemma mapM_err {A B} (f : A -> res B) l e : mapM f l = Err e -> exists x, In x l /\ f x = Err e.
  Proof.
    induction l as [|x l IH]; simpl; [discriminate|]. destruct (f x) as [b|e'] eqn:Ex; simpl.
    - destruct (mapM f l) as [bs|e'']; simpl; [discriminate|]. intros H. destruct (IH H) as (y & Hy & K). exists y. auto.
    - intros H. inversion H; subst. exists x. auto.
  Qed.
  Lemma forb_vec_not_key io v f : forall e, forb_vec io v f = Err e -> e <> KeyError.
  Proof.
    induction f as [h w ww|h ws wws|r a b|fs IH] using fclause_ind'; intros e; simpl; try discriminate.
    - unfold rel_vec. destruct (isnan (vget io v (hp_name a)) || isnan (vget io v (hp_name b)))%bool; [discriminate|].
      destruct (to_value a (vget io v (hp_name a))) as [x|e1] eqn:E1; simpl.
      + destruct (to_value b (vget io v (hp_name b))) as [y|e2] eqn:E2; simpl.
        * destruct r; simpl; try discriminate; destruct (py_ltb _ _); intros H; inversion H; discriminate.
        * intros H. inversion H; subst. eapply to_value_not_key; eauto.
      + intros H. inversion H; subst. eapply to_value_not_key; eauto.
    - intros H. apply allM_err in H. destruct H as (f & Hf & H). rewrite Forall_forall in IH. apply (IH f Hf e H).
  Qed.
  Lemma check_not_key s v allow e : check_configuration s v allow = Err e -> e <> KeyError.
  Proof.
    unfold check_configuration. destruct (forallb _ (d_roots (s_dag s))); [|intros H; inversion H; discriminate].
    destruct (mapM (check_cnode s v allow) (d_min (s_dag s))) as [u|e'] eqn:Em; simpl.
    - unfold check_forb. destruct (anyM _ _) as [[]|e'] eqn:Ea; simpl; intros H; inversion H; subst; try discriminate.
      apply anyM_err in Ea. destruct Ea as (f & _ & K). eapply forb_vec_not_key; eauto.
    - intros H. inversion H; subst. apply mapM_err in Em. destruct Em as (cn & _ & K). unfold check_cnode in K.
      destruct (sat_vec (index_of s) v (cn_cond cn)).
      + destruct (forallb _ (cn_children cn)); [|inversion K; discriminate].
        destruct (forallb _ (cn_children cn)); inversion K; discriminate.
      + destruct allow; [discriminate|]. destruct (find _ (cn_children cn)) as [i|]; [|discriminate].
        destruct (hp_at s i) as [h|]; [|inversion K; discriminate].
        destruct (to_value h (nth i v NaN)) as [w|e'] eqn:Et; simpl in K; inversion K; subst; [discriminate|].
        eapply to_value_not_key; eauto.
  Qed.

  (** when add() has updated the graph, computing the default configuration raises no KeyError *)
  Theorem C21_no_KeyError s hs cs fs hs' cs' fs' d : built s hs cs fs ->
    Forall constructed hs' -> Forall cond_built cs' -> Forall forb_built fs' ->
    refs (hs ++ hs') (cs ++ cs') (fs ++ fs') ->
    dag_update (s_dag s) hs' cs' fs' = (d, Ok tt) ->
    snd (add s hs' cs' fs') <> Err KeyError.
  Proof.
    intros B A1 A2 A3 R Hd. unfold add. rewrite Hd. set (s' := mk_space d (length (d_nodes d))).
    assert (O : space_ok s' (hs ++ hs') (cs ++ cs') (fs ++ fs')).
    { destruct (built_ok _ _ _ _ B) as [I _ _]. eapply dag_update_inv in Hd; eauto. destruct Hd as [I' C']. constructor; simpl; auto. }
    destruct (default_values_spec O (proj1 R)) as (vals & Hv & Hk & AL & _).
    unfold check_default_configuration. rewrite Hv. simpl. unfold config_of_values.
    destruct (negb _); [|simpl; congruence].
    assert (F := fill_items O vals). destruct (fill s' vals (items s') (repeat NaN (s_len s')) []) as [[vec cache]|e].
    - simpl. destruct (check_configuration s' vec false) as [u|e] eqn:Ec; simpl; [discriminate|].
      apply check_not_key in Ec. congruence.
    - destruct F as [-> _]. simpl. congruence.
  Qed.

  (** ** C27: fast and rigorous validity checks agree

      Missing: spaces with disjunctions, with conditions wrongly merged or != on conditional parents,
      and vectors with illegal entries for unconditional or inactive hyperparameters (C27_refuted). *)
  Lemma active_sat s hs cs fs v n c : built s hs cs fs -> refs hs cs fs -> ne_safe cs -> (forall c, In c cs -> only_and c) ->
    (forall h, In h hs -> ~ conditional cs (hp_name h) -> vget (index_of s) v (hp_name h) <> NaN) ->
    In c cs -> activates c n -> (In n (get_active s v) <-> sat_vec (index_of s) v c = true).
  Proof.
    intros B [R1 R2] NS OA Rt Hc Ha. assert (O := built_ok _ _ _ _ B). rewrite (get_active_in O).
    destruct (so_declared_vec s hs cs fs O R1 n c Hc Ha) as (c1 & E1 & _ & _ & S1).
    destruct (so_condof_in O n c1 E1) as [Ic1 Ac1].
    rewrite E1. split.
    - intros [_ H]. specialize (H c1 eq_refl). unfold cond_active in H. apply andb_true_iff in H. rewrite <- S1. apply H.
    - intros Hs. rewrite <- S1 in Hs. split.
      + assert (Ex : exists l, In l (dlcs c1)).
        { unfold activates, cond_child in Ac1. destruct (dlcs c1) as [|l ls]; [discriminate|]. exists l. left. reflexivity. }
        destruct Ex as (l & Hl). apply (so_reads_keys O (parent_name l) n). exists c1. split; [exact Ic1|]. split; [exact Ac1|].
        unfold cond_parents. apply in_map. exact Hl.
      + intros c' Hc'. assert (c' = c1) by congruence. subst c'. unfold cond_active. rewrite Hs, andb_true_r. apply negb_true_iff.
        apply not_true_iff_false. rewrite existsb_exists. intros (p & Hp & Hn). unfold cond_parents in Hp.
        apply in_map_iff in Hp. destruct Hp as (l & <- & Hl).
        assert (Hv : vget (index_of s) v (parent_name l) = NaN) by (destruct (vget (index_of s) v (parent_name l)); try discriminate; reflexivity).
        destruct (is_ne (l_test l)) eqn:Ne.
        * destruct (l_test l) as [[] w vv|] eqn:Et; try discriminate.
          refine (Rt (l_parent l) _ _ Hv); [apply (R1 c1 Ic1 l Hl)|]. apply (NS c1 l w vv Ic1 Hl Et).
        * apply (only_and_parents v c1 (OA c1 Ic1) Hs l Hl Ne Hv).
  Qed.

  Lemma root_active s hs cs fs v h : built s hs cs fs -> In h hs -> ~ conditional cs (hp_name h) -> In (hp_name h) (get_active s v).
  Proof.
    intros B Hh Hn. assert (O := built_ok _ _ _ _ B). apply (get_active_in O). split; [apply (keys_hs O); eauto|].
    intros c Hc. exfalso. apply Hn. apply (so_conditional O). eauto.
  Qed.

  Theorem C27_agree_partial s hs cs fs v allow : built s hs cs fs -> refs hs cs fs -> merge_sound (index_of s) cs ->
    ne_safe cs -> (forall c, In c cs -> only_and c) ->
    (forall h, In h hs -> vget (index_of s) v (hp_name h) = NaN \/ legal_vector h (vget (index_of s) v (hp_name h)) = true) ->
    (check_configuration s v allow = Ok tt <-> check_configuration_rigorous s v allow = Ok tt).
  Proof.
    intros B R M NS OA Lg. assert (O := built_ok _ _ _ _ B).
    rewrite (check_ok O v allow R M), (rigorous_ok O v allow).
    assert (Fin : forall h, In h hs -> isfinite (vget (index_of s) v (hp_name h)) = negb (isnan (vget (index_of s) v (hp_name h)))).
    { intros h Hh. destruct (Lg h Hh) as [K|K]; [rewrite K; reflexivity|]. apply legal_vector_finite in K.
      destruct (vget (index_of s) v (hp_name h)); try discriminate; reflexivity. }
    assert (Dec : forall n, conditional cs n \/ ~ conditional cs n).
    { intros n. destruct (condof (d_nodes (s_dag s)) n) as [c|] eqn:Ec.
      - left. apply (so_conditional O). eauto.
      - right. intros Hc. apply (so_conditional O) in Hc. destruct Hc; congruence. }
    split.
    - intros (H1 & H2 & H3). split; [|exact H3]. intros h Hh. cbv zeta.
      assert (Rt : forall h, In h hs -> ~ conditional cs (hp_name h) -> vget (index_of s) v (hp_name h) <> NaN).
      { intros g Hg Hn K. specialize (H1 g Hg Hn). rewrite K in H1. discriminate. }
      split; [|split].
      + destruct (Lg h Hh) as [K|K]; [left; rewrite K; reflexivity|right; exact K].
      + intros Ha. destruct (Dec (hp_name h)) as [(c & Hc & Hac)|Hn].
        * apply (active_sat s hs cs fs v _ c B R NS OA Rt Hc Hac) in Ha. specialize (H2 h c Hh Hc Hac). cbv zeta in H2. rewrite Ha in H2.
          destruct H2 as [H2 _]. rewrite (Fin h Hh) in H2. apply negb_true_iff. exact H2.
        * specialize (H1 h Hh Hn). rewrite (Fin h Hh) in H1. apply negb_true_iff. exact H1.
      + intros -> Hx. destruct (Dec (hp_name h)) as [(c & Hc & Hac)|Hn].
        * apply (active_sat s hs cs fs v _ c B R NS OA Rt Hc Hac). specialize (H2 h c Hh Hc Hac). cbv zeta in H2.
          destruct (sat_vec (index_of s) v c); [reflexivity|]. destruct H2 as [H2|H2]; [discriminate|]. rewrite (Fin h Hh), Hx in H2. discriminate.
        * eapply root_active; eauto.
    - intros (H & H3).
      assert (Rf : forall h, In h hs -> ~ conditional cs (hp_name h) -> isfinite (vget (index_of s) v (hp_name h)) = true).
      { intros h Hh Hn. rewrite (Fin h Hh). apply negb_true_iff. apply (H h Hh). eapply root_active; eauto. }
      assert (Rt : forall h, In h hs -> ~ conditional cs (hp_name h) -> vget (index_of s) v (hp_name h) <> NaN).
      { intros g Hg Hn K. specialize (Rf g Hg Hn). rewrite K in Rf. discriminate. }
      split; [exact Rf|]. split; [|exact H3].
      intros h c Hh Hc Hac. cbv zeta. assert (A := active_sat s hs cs fs v _ c B R NS OA Rt Hc Hac).
      destruct (H h Hh) as (K1 & K2 & K3). destruct (sat_vec (index_of s) v c).
      + assert (Hx : isnan (vget (index_of s) v (hp_name h)) = false) by (apply K2, A; reflexivity).
        rewrite (Fin h Hh), Hx. split; [reflexivity|]. destruct K1 as [K1|K1]; [congruence|exact K1].
      + destruct allow; [left; reflexivity|]. right. rewrite (Fin h Hh). apply negb_false_iff.
        destruct (isnan (vget (index_of s) v (hp_name h))) eqn:Ex; [reflexivity|]. specialize (K3 eq_refl eq_refl). apply A in K3. discriminate.
  Qed.

  (** ** C28: get_active_hyperparameters returns the active set

      Missing: disjunctions (C28_refuted), and the defects excluded by the other guards. *)
  Theorem C28_active_set_partial s hs cs fs v : built s hs cs fs -> refs hs cs fs -> merge_sound (index_of s) cs ->
    ne_safe cs -> (forall c, In c cs -> only_and c) ->
    (forall h, In h hs -> vget (index_of s) v (hp_name h) = NaN \/ exists q, vget (index_of s) v (hp_name h) = Fin q) ->
    check_configuration s v false = Ok tt ->
    forall n, In n (get_active s v) <-> In n (map hp_name hs) /\ vget (index_of s) v n <> NaN.
  Proof.
    intros B R M NS OA Lg H n. assert (O := built_ok _ _ _ _ B). apply (check_ok O v false R M) in H. destruct H as (H1 & H2 & _).
    assert (Rt : forall h, In h hs -> ~ conditional cs (hp_name h) -> vget (index_of s) v (hp_name h) <> NaN).
    { intros g Hg Hn K. specialize (H1 g Hg Hn). rewrite K in H1. discriminate. }
    assert (G : forall h, In h hs -> (In (hp_name h) (get_active s v) <-> vget (index_of s) v (hp_name h) <> NaN)).
    { intros h Hh. destruct (condof (d_nodes (s_dag s)) (hp_name h)) as [c0|] eqn:Ec.
      - assert (Cd : conditional cs (hp_name h)) by (apply (so_conditional O); eauto). destruct Cd as (c & Hc & Ha).
        rewrite (active_sat s hs cs fs v _ c B R NS OA Rt Hc Ha). specialize (H2 h c Hh Hc Ha). cbv zeta in H2.
        destruct (sat_vec (index_of s) v c).
        + split; [|reflexivity]. intros _ K. destruct H2 as [H2 _]. rewrite K in H2. discriminate.
        + split; [discriminate|]. intros K. exfalso. destruct H2 as [H2|H2]; [discriminate|].
          destruct (Lg h Hh) as [K'|(q & K')]; [contradiction|]. rewrite K' in H2. discriminate.
      - assert (Hn : ~ conditional cs (hp_name h)) by (intros Hc; apply (so_conditional O) in Hc; destruct Hc; congruence).
        split; [intros _; apply Rt; assumption|]. intros _. eapply root_active; eauto. }
    split.
    - intros Hn. assert (Hk := proj1 (get_active_in O v n)). destruct (proj1 (keys_hs O n) (proj1 (Hk Hn))) as (h & Hh & <-).
      split; [apply in_map; exact Hh|]. apply (G h Hh). exact Hn.
    - intros [Hn Hv]. apply in_map_iff in Hn. destruct Hn as (h & <- & Hh). apply (G h Hh). exact Hv.
  Qed.
  (** never a hyperparameter without a value, for any vector that passes the check *)
  Theorem C28_sound s hs cs fs v n : built s hs cs fs -> refs hs cs fs -> merge_sound (index_of s) cs ->
    check_configuration s v false = Ok tt -> In n (get_active s v) -> vget (index_of s) v n <> NaN.
  Proof.
    intros B R M H Hn. assert (O := built_ok _ _ _ _ B). apply (check_ok O v false R M) in H. destruct H as (H1 & H2 & _).
    apply (get_active_in O) in Hn. destruct Hn as [Hk Hn]. apply (keys_hs O) in Hk. destruct Hk as (h & Hh & <-). intros K.
    destruct (condof (d_nodes (s_dag s)) (hp_name h)) as [c|] eqn:Ec.
    - destruct (so_condof_in O _ c Ec) as [Hc Ha]. specialize (Hn c eq_refl). apply andb_true_iff in Hn. destruct Hn as [_ Hs].
      specialize (H2 h c Hh Hc Ha). cbv zeta in H2. rewrite Hs, K in H2. destruct H2; discriminate.
    - assert (Hr : ~ conditional cs (hp_name h)) by (intros Hc; apply (so_conditional O) in Hc; destruct Hc; congruence).
      specialize (H1 h Hh Hr). rewrite K in H1. discriminate.
  Qed.

  (** ** C32: impute_inactive_values fills every hyperparameter *)
  Theorem C32_default s hs cs fs c c' : built s hs cs fs -> made s hs c -> impute s c SDefault = Ok c' ->
    forall h, In h hs -> exists w', getitem s c' (hp_name h) = Ok w' /\
      match getitem s c (hp_name h) with
      | Ok w => py_eqb w' w = true
      | Err _ => py_eqb w' (hp_default h) = true
      end.
  Proof.
    intros B Md H h Hh. assert (O := built_ok _ _ _ _ B). unfold impute in H.
    destruct (mapM _ (items s)) as [vals|e] eqn:Ev; [|discriminate]. simpl in H.
    assert (Gv : forall its vals0, NoDup (map fst its) -> mapM (fun e : string * hp =>
              match getitem s c (fst e) with
              | Ok v => Ok (fst e, Some v)
              | Err KeyError => Ok (fst e, Some (hp_default (snd e)))
              | Err e0 => Err e0
              end) its = Ok vals0 -> map fst vals0 = map fst its /\ forall k g, In (k, g) its ->
              match getitem s c k with
              | Ok v => given vals0 k = Some v
              | Err _ => given vals0 k = Some (hp_default g)
              end).
    { clear. induction its as [|[k g] its IH]; intros vals0 ND; simpl.
      - intros H. inversion H; subst. split; [reflexivity|]. intros k g [].
      - inversion ND as [|? ? Hn ND']; subst. set (r := match getitem s c k with Ok v => _ | Err _ => _ end). destruct r as [p|e] eqn:Er; simpl; [|discriminate].
        destruct (mapM _ its) as [vs|e] eqn:Em; simpl; [|discriminate]. intros H. inversion H; subst vals0.
        destruct (IH vs ND' eq_refl) as [IH1 IH2].
        assert (Hp : fst p = k /\ match getitem s c k with Ok v => snd p = Some v | Err _ => snd p = Some (hp_default g) end).
        { unfold r in Er. destruct (getitem s c k) as [v|[]]; inversion Er; subst; simpl; auto. }
        destruct Hp as [Hp1 Hp2]. split; [simpl; rewrite IH1, Hp1; reflexivity|]. intros k' g' [Heq|Hin].
        + inversion Heq; subst k' g'. unfold given. destruct p as [k0 o]. simpl in Hp1, Hp2. subst k0. simpl. rewrite String.eqb_refl.
          destruct (getitem s c k); exact Hp2.
        + assert (Hne : k' <> k). { intros ->. apply Hn. apply in_map_iff. exists (k, g'). auto. }
          specialize (IH2 k' g' Hin). unfold given in *. destruct p as [k0 o]. simpl in Hp1. subst k0. simpl.
          apply String.eqb_neq in Hne. rewrite Hne. exact IH2. }
    destruct (Gv (items s) vals) as [_ G]; [rewrite items_keys; apply (so_nodup O)|exact Ev|].
    specialize (G (hp_name h) h (proj2 (so_items O _ _) (conj Hh eq_refl))).
    destruct (C18_reads s hs cs fs vals true c' B H) as (R1 & _ & _).
    destruct (getitem s c (hp_name h)) as [v|e] eqn:Eg.
    - exists (round_value h v). split; [apply R1; assumption|].
      destruct (in_dec string_dec (hp_name h) (iter s c)) as [Hi|Hi].
      + destruct (proj1 (made_read O c (hp_name h) Md) Hi) as (h' & w & Hh' & Hn & Hw & Q).
        assert (h' = h) by (apply (same_hp hs); auto using (so_names_nodup O)). subst h'. rewrite Hw in Eg. inversion Eg; subst. exact Q.
      + rewrite (proj2 (made_read O c (hp_name h) Md) Hi) in Eg. discriminate.
    - exists (round_value h (hp_default h)). split; [apply R1; assumption|]. apply default_rounded, (so_constructed O), Hh.
  Qed.

  (** ** C56: a configuration is a mapping

      Missing: len(config), which is the number of hyperparameters of the space (C56_refuted). *)
  Theorem C56_mapping_partial s hs cs fs c k : built s hs cs fs -> made s hs c ->
    (In k (iter s c) -> contains s c k = Ok true /\ exists w, getitem s c k = Ok w) /\
    (~ In k (iter s c) -> contains s c k = Ok false /\ getitem s c k = Err KeyError) /\
    NoDup (iter s c).
  Proof.
    intros B Md. assert (O := built_ok _ _ _ _ B). destruct (made_read O c k Md) as [H1 H2]. unfold contains. split; [|split].
    - intros Hk. destruct (H1 Hk) as (h & w & _ & _ & Hw & _). rewrite Hw. split; [reflexivity|eauto].
    - intros Hk. rewrite (H2 Hk). auto.
    - apply (iter_nodup O).
  Qed.
  (** len(config) is right when every hyperparameter is active *)
  Theorem C56_len_partial s hs cs fs c : built s hs cs fs -> (forall h, In h hs -> vget (index_of s) (c_vector c) (hp_name h) <> NaN) ->
    config_len s c = length (iter s c).
  Proof.
    intros B H. assert (O := built_ok _ _ _ _ B). unfold config_len. rewrite <- (so_keys_len O). apply Nat.le_antisymm.
    - apply NoDup_incl_length; [apply (so_nodup O)|]. intros k Hk. apply (iter_in O). apply (keys_hs O) in Hk.
      destruct Hk as (h & Hh & <-). exists h. auto.
    - apply NoDup_incl_length; [apply (iter_nodup O)|]. intros k Hk. unfold iter in Hk. apply filter_In in Hk. apply Hk.
  Qed.
End Config.

Section Witness.
  #[local] Existing Instance rat_env.

  (** the example space has none of the defects *)
  Lemma ex_merge : merge_sound (index_of ex_space) ex_conds.
  Proof.
    intros c d v Hc Hd H.
    destruct Hc as [<-|[<-|[<-|[<-|[]]]]]; destruct Hd as [<-|[<-|[<-|[<-|[]]]]];
      first [reflexivity | exfalso; revert H; vm_compute; discriminate].
  Qed.
  Lemma ex_ne : ne_safe ex_conds.
  Proof.
    intros c l w vv Hc Hl Ht. destruct Hc as [<-|[<-|[<-|[<-|[]]]]]; vm_compute in Hl;
      repeat (destruct Hl as [<-|Hl]; [exfalso; clear -Ht; vm_compute in Ht; discriminate Ht|]); destruct Hl.
  Qed.
  Lemma ex_cmp f : In f ex_forbs -> comparable f.
  Proof.
    intros Hf r a b Hr Hne. destruct Hf as [<-|[<-|[<-|[<-|[<-|[]]]]]]; vm_compute in Hr;
      repeat (destruct Hr as [Hr|Hr]; [try (exfalso; clear -Hr; discriminate Hr)|]); try (destruct Hr; fail).
    inversion Hr; subst. split; vm_compute; exact I.
  Qed.
  Lemma ex_tame : tame ex_space ex_hps ex_conds ex_forbs.
  Proof. constructor; [apply ex_built|apply ex_refs|apply ex_merge|apply ex_ne|apply ex_cmp]. Qed.

  (** rounding, as an assignment *)
  Definition store (hs : list hp) (d : assignment) : assignment :=
    fun n => match find (fun h => String.eqb (hp_name h) n) hs with
             | Some h => option_map (round_value h) (d n)
             | None => None
             end.
  Lemma store_stored hs d : NoDup (map hp_name hs) -> stored hs d (store hs d).
  Proof.
    intros ND h Hh. unfold store. destruct (find _ hs) as [g|] eqn:Ef.
    - apply find_some in Ef. destruct Ef as [Hg Hn]. apply String.eqb_eq in Hn. f_equal. f_equal. apply (same_hp hs); auto.
    - exfalso. apply (find_none _ _ Ef) in Hh. rewrite String.eqb_refl in Hh. discriminate.
  Qed.
  Lemma ex_nodup : NoDup (map hp_name ex_hps).
  Proof. assert (LA := rat_env_laws). exact (so_names_nodup (built_ok _ _ _ _ ex_built)). Qed.
  Lemma exact_int h z : exact_value h (VInt z).
  Proof. unfold exact_value. destruct (hp_kind h); try exact I. exists (inject_Z z), z. split; reflexivity. Qed.
  Lemma ex_exact : exact_all ex_hps (given ex_vals).
  Proof.
    intros h w Hh Hw.
    repeat (destruct Hh as [<-|Hh]; [vm_compute in Hw; inversion Hw; subst; clear;
      match goal with |- exact_value _ (VInt _) => apply exact_int | _ => vm_compute; exact I end|]). destruct Hh.
  Qed.
  (** all nine hyperparameters active, at other values than the defaults: valid, because accepted *)
  Example C17_ex : tame ex_space ex_hps ex_conds ex_forbs /\ exact_all ex_hps (given ex_vals) /\
    (exists c, config_of_values ex_space ex_vals false = Ok c) /\ valid ex_hps ex_conds ex_forbs (store ex_hps (given ex_vals)).
  Proof.
    assert (LA := rat_env_laws).
    assert (A : exists c, config_of_values ex_space ex_vals false = Ok c).
    { exists (get_or (mk_config [] None false) (config_of_values ex_space ex_vals false)). vm_compute. reflexivity. }
    split; [exact ex_tame|]. split; [exact ex_exact|]. split; [exact A|].
    apply (C17_accepts_valid_partial ex_space ex_hps ex_conds ex_forbs ex_vals (store ex_hps (given ex_vals)) ex_tame
      (store_stored _ _ ex_nodup) ex_exact). exact A.
  Qed.
  (** with n = 1 and a = y the dictionary is rejected *)
  Example C17_ex_forbidden : config_of_values ex_space
    [("a"%string, Some (VStr "y")); ("k"%string, Some (VInt 1)); ("l"%string, Some (VInt 2)); ("n"%string, Some (VInt 1));
     ("o"%string, Some (VStr "hi")); ("e"%string, Some (VStr "on"))] false = Err ForbiddenValueError.
  Proof. vm_compute. reflexivity. Qed.

  (** C17 is false: c has the condition b != 1/4 on the conditional b *)
  Theorem C17_refuted : exists s hs cs vals, built s hs cs [] /\ refs hs cs [] /\
    (forall k, In k (map fst vals) -> In k (map hp_name hs)) /\ valid hs cs [] (given vals) /\
    config_of_values s vals false = Err ActiveHyperparameterNotSetError.
  Proof.
    exists ne_space, [hA; hB; hC], [cB; cNe], [("a"%string, Some (VStr "y"))]. split; [exact ne_built|].
    split; [|split; [|split; [|vm_compute; reflexivity]]].
    - split; [|intros f []]. intros c Hc l Hl.
      destruct Hc as [<-|[<-|[]]]; vm_compute in Hl; destruct Hl as [<-|[]]; split; vm_compute; tauto.
    - intros k [<-|[]]. vm_compute. tauto.
    - constructor; [| |intros f []].
      + intros h w [<-|[<-|[<-|[]]]] Hw; vm_compute in Hw; inversion Hw; subst. vm_compute. reflexivity.
      + assert (NB : ~ holds (given [("a"%string, Some (VStr "y"))]) cB).
        { intros H. vm_compute in H. destruct H as (w & Hw & H). inversion Hw; subst. discriminate H. }
        assert (NC : ~ holds (given [("a"%string, Some (VStr "y"))]) cNe).
        { intros H. vm_compute in H. destruct H as (w & Hw & H). discriminate Hw. }
        intros h [<-|[<-|[<-|[]]]].
        * split; [|intros _ K; discriminate K]. intros _ c [<-|[<-|[]]] Ha; exfalso; clear -Ha; vm_compute in Ha; discriminate Ha.
        * split; [intros K; exfalso; apply K; reflexivity|]. intros Ha. exfalso. apply NB. apply Ha; [left; reflexivity|reflexivity].
        * split; [intros K; exfalso; apply K; reflexivity|]. intros Ha. exfalso. apply NC. apply Ha; [right; left; reflexivity|reflexivity].
  Qed.

  (** a legal value of a conditional integer hyperparameter that is rejected: 100000.4 counts as an
      integer, its encoding does not *)
  Definition hI := get_or dummy_hp (mk_uniform_int "i" 99990 100010 None false None).
  Lemma hI_c : constructed hI. Proof. apply (CtorUInt "i" 99990 100010 None false None hI); vm_compute; reflexivity. Qed.
  Definition cI := get_or dummy_cond (mk_bin OpEq hI hA (VStr "x")).
  Lemma cI_c : cond_built cI. Proof. apply (CB_bin OpEq hI hA (VStr "x") cI hI_c hA_c); vm_compute; reflexivity. Qed.
  Definition i_space := fst (add empty_space [hA; hI] [cI] []).
  Lemma i_built : built i_space [hA; hI] [cI] [].
  Proof.
    apply (built_step empty_space [] [] [] [hA; hI] [cI] [] built_empty).
    - constructor; [apply hA_c|constructor; [apply hI_c|constructor]].
    - constructor; [apply cI_c|constructor].
    - constructor.
    - vm_compute. reflexivity.
  Qed.
  Theorem C17_inexact_refuted : exists s hs cs vals, built s hs cs [] /\ all_legal hs (given vals) /\
    (forall k, In k (map fst vals) -> In k (map hp_name hs)) /\
    (forall h, In h hs -> given vals (hp_name h) <> None) /\ (forall c, In c cs -> holds (given vals) c) /\
    config_of_values s vals false = Err IllegalVectorizedValueError.
  Proof.
    exists i_space, [hA; hI], [cI], [("a"%string, Some (VStr "x")); ("i"%string, Some (VFloat (1000004 # 10)))].
    split; [exact i_built|]. split; [|split; [|split; [|split; [|vm_compute; reflexivity]]]].
    - intros h w [<-|[<-|[]]] Hw; vm_compute in Hw; inversion Hw; subst; vm_compute; reflexivity.
    - intros k [<-|[<-|[]]]; vm_compute; tauto.
    - intros h [<-|[<-|[]]] K; discriminate K.
    - intros c [<-|[]]. vm_compute. exists (VStr "x"). split; reflexivity.
  Qed.

  (** the unknown key "" is accepted *)
  Theorem C17_empty_key_refuted : exists s hs cs vals, built s hs cs [] /\ In ""%string (map fst vals) /\ ~ In ""%string (map hp_name hs) /\
    exists c, config_of_values s vals false = Ok c.
  Proof.
    exists ne_space, [hA; hB; hC], [cB; cNe], [("a"%string, Some (VStr "y")); ("c"%string, Some (VInt 1)); (""%string, Some (VInt 7))].
    split; [exact ne_built|]. split; [vm_compute; tauto|]. split; [vm_compute; intros [K|[K|[K|[]]]]; discriminate K|].
    eexists. vm_compute. reflexivity.
  Qed.

  (** C18: an integer hyperparameter given 99991.00001 reads that; the copy reads 99991 *)
  Theorem C18_copy_refuted : exists s hs cs vals c c', built s hs cs [] /\ config_of_values s vals false = Ok c /\
    config_of_vector s (c_vector c) false = Ok c' /\
    getitem s c "i"%string = Ok (VFloat (9999100001 # 100000)) /\ getitem s c' "i"%string = Ok (VInt 99991).
  Proof.
    set (vals := [("a"%string, Some (VStr "x")); ("i"%string, Some (VFloat (9999100001 # 100000)))]).
    exists i_space, [hA; hI], [cI], vals, (get_or (mk_config [] None false) (config_of_values i_space vals false)),
      (get_or (mk_config [] None false) (config_of_vector i_space (c_vector (get_or (mk_config [] None false) (config_of_values i_space vals false))) false)).
    split; [exact i_built|]. split; [vm_compute; reflexivity|]. split; [vm_compute; reflexivity|]. split; vm_compute; reflexivity.
  Qed.
  Example C18_ex : match config_of_values ex_space ex_vals false with
    | Ok c => getitem ex_space c "c"%string = Ok (VInt 3) /\ iter ex_space c = map fst ex_vals
    | Err _ => False
    end.
  Proof. vm_compute. split; reflexivity. Qed.

  (** C21: c is active by default only because b's default 1/2 is above 1/4 *)
  Definition ex_default : config := get_or (mk_config [] None false) (get_default_configuration ex_space).
  Example C21_ex : get_default_configuration ex_space = Ok ex_default /\ getitem ex_space ex_default "c"%string = Ok (VInt 2) /\
    getitem ex_space ex_default "o"%string = Ok (VStr "mid") /\ valid ex_hps ex_conds ex_forbs (reading ex_space ex_default).
  Proof.
    assert (LA := rat_env_laws).
    assert (H : get_default_configuration ex_space = Ok ex_default) by (vm_compute; reflexivity).
    split; [exact H|]. split; [vm_compute; reflexivity|]. split; [vm_compute; reflexivity|].
    apply (C21_valid ex_space ex_hps ex_conds ex_forbs ex_default ex_built ex_refs H).
  Qed.
  (** an inactive default: with a = y by default, neither b nor c has a value *)
  Definition hA' := get_or dummy_hp (mk_categorical "a" (xs ["x"; "y"; "z"]%string) (Some (VStr "y")) None None).
  Lemma hA'_c : constructed hA'. Proof. apply (CtorCat "a" (xs ["x"; "y"; "z"]%string) (Some (VStr "y")) None None hA'); vm_compute; reflexivity. Qed.
  Example C21_ex_inactive : match get_default_configuration (fst (add empty_space [hA'; hB; hC]
      [get_or dummy_cond (mk_bin OpEq hB hA' (VStr "x")); cC1] [])) with
    | Ok c => map is_ok [getitem (fst (add empty_space [hA'; hB; hC] [get_or dummy_cond (mk_bin OpEq hB hA' (VStr "x")); cC1] [])) c "a"%string;
                 getitem (fst (add empty_space [hA'; hB; hC] [get_or dummy_cond (mk_bin OpEq hB hA' (VStr "x")); cC1] [])) c "b"%string;
                 getitem (fst (add empty_space [hA'; hB; hC] [get_or dummy_cond (mk_bin OpEq hB hA' (VStr "x")); cC1] [])) c "c"%string] = [true; false; false]
    | Err _ => False
    end.
  Proof. vm_compute. reflexivity. Qed.

  (** C27: the fast check does not look at the range of an unconditional entry *)
  Theorem C27_refuted : exists s hs cs fs v, built s hs cs fs /\ refs hs cs fs /\ tame s hs cs fs /\
    check_configuration s v false = Ok tt /\ check_configuration_rigorous s v false = Err IllegalVectorizedValueError.
  Proof.
    exists ex_space, ex_hps, ex_conds, ex_forbs, (set_nth 2 (Fin 7) ex_vec).
    split; [exact ex_built|]. split; [exact ex_refs|]. split; [exact ex_tame|]. split; vm_compute; reflexivity.
  Qed.
  (** a disjunction with one inactive parent: e | a == y or b > 1/4, with a = y *)
  Definition cEb := get_or dummy_cond (mk_bin OpGt hE hB (VFloat (1#4))).
  Definition cEor := get_or dummy_cond (mk_or [cE1; cEb]).
  Lemma cEor_c : cond_built cEor.
  Proof.
    apply (CB_or [cE1; cEb] cEor); [|vm_compute; reflexivity]. intros x [<-|[<-|[]]]; [apply cE1_c|].
    apply (CB_bin OpGt hE hB (VFloat (1#4)) cEb hE_c hB_c); vm_compute; reflexivity.
  Qed.
  Definition or_space := fst (add empty_space [hA; hB; hE] [cB; cEor] []).
  Lemma or_built : built or_space [hA; hB; hE] [cB; cEor] [].
  Proof.
    apply (built_step empty_space [] [] [] [hA; hB; hE] [cB; cEor] [] built_empty).
    - constructor; [apply hA_c|constructor; [apply hB_c|constructor; [apply hE_c|constructor]]].
    - constructor; [apply cB_c|constructor; [apply cEor_c|constructor]].
    - constructor.
    - vm_compute. reflexivity.
  Qed.
  Lemma or_refs : refs [hA; hB; hE] [cB; cEor] [].
  Proof.
    split; [|intros f []]. intros c Hc l Hl.
    destruct Hc as [<-|[<-|[]]]; vm_compute in Hl; [destruct Hl as [<-|[]]|destruct Hl as [<-|[<-|[]]]]; split; vm_compute; tauto.
  Qed.
  Theorem C27_refuted_or : exists s hs cs v, built s hs cs [] /\ refs hs cs [] /\
    (forall h, In h hs -> vget (index_of s) v (hp_name h) = NaN \/ legal_vector h (vget (index_of s) v (hp_name h)) = true) /\
    check_configuration s v false = Ok tt /\ check_configuration_rigorous s v false = Err InactiveHyperparameterSetError.
  Proof.
    exists or_space, [hA; hB; hE], [cB; cEor], [Fin 1; NaN; Fin 1]. split; [exact or_built|]. split; [exact or_refs|].
    split; [|split; vm_compute; reflexivity]. intros h [<-|[<-|[<-|[]]]]; vm_compute; auto.
  Qed.
  (** the condition of e holds and e has a value, but is not listed *)
  Theorem C28_refuted : exists s hs cs v, built s hs cs [] /\ refs hs cs [] /\ check_configuration s v false = Ok tt /\
    vget (index_of s) v "e"%string = Fin 1 /\ ~ In "e"%string (get_active s v).
  Proof.
    exists or_space, [hA; hB; hE], [cB; cEor], [Fin 1; NaN; Fin 1]. split; [exact or_built|]. split; [exact or_refs|].
    split; [vm_compute; reflexivity|]. split; [vm_compute; reflexivity|]. vm_compute. intros [K|[]]. discriminate K.
  Qed.
  (** an inactive hyperparameter with an infinite entry passes the check *)
  Theorem C27_refuted_inf : exists s hs cs fs v, built s hs cs fs /\ tame s hs cs fs /\
    check_configuration s v false = Ok tt /\ vget (index_of s) v "g"%string = PInf /\ ~ In "g"%string (get_active s v).
  Proof.
    exists ex_space, ex_hps, ex_conds, ex_forbs, [Fin 2; Fin (35 # 100); Fin (5#10); Fin (55 # 100); Fin 1; NaN; Fin 1; PInf; NaN].
    split; [exact ex_built|]. split; [exact ex_tame|]. split; [vm_compute; reflexivity|]. split; [vm_compute; reflexivity|].
    vm_compute. intros K. repeat (destruct K as [K|K]; [discriminate K|]). destruct K.
  Qed.
  (** the guards hold for the space without e *)
  Definition and_hps := [hC; hB; hA; hN; hK; hG; hO; hL].
  Definition and_space := fst (add empty_space and_hps [cB; cC; cG] ex_forbs).
  Lemma and_built : built and_space and_hps [cB; cC; cG] ex_forbs.
  Proof.
    apply (built_step empty_space [] [] [] and_hps [cB; cC; cG] ex_forbs built_empty).
    - repeat (constructor; [first [apply hA_c|apply hK_c|apply hN_c|apply hO_c|apply hB_c|apply hC_c|apply hG_c|apply hL_c]|]). constructor.
    - repeat (constructor; [first [apply cB_c|apply cC_c|apply cG_c]|]). constructor.
    - apply ex_forbs_c.
    - vm_compute. reflexivity.
  Qed.
  Lemma and_refs : refs and_hps [cB; cC; cG] ex_forbs.
  Proof.
    split.
    - intros c Hc l Hl. vm_compute in Hc.
      repeat (destruct Hc as [<-|Hc]; [vm_compute in Hl; repeat (destruct Hl as [<-|Hl]; [split; vm_compute; tauto|]); tauto|]).
      tauto.
    - intros f Hf h Hh. vm_compute in Hf.
      repeat (destruct Hf as [<-|Hf]; [vm_compute in Hh; repeat (destruct Hh as [<-|Hh]; [vm_compute; tauto|]); tauto|]).
      tauto.
  Qed.
  Lemma and_tame : tame and_space and_hps [cB; cC; cG] ex_forbs.
  Proof.
    assert (LA := rat_env_laws). apply C17_guard.
    - exact and_built.
    - exact and_refs.
    - left. exact C13_ex_guard.
    - intros c l w vv Hc Hl Ht. destruct Hc as [<-|[<-|[<-|[]]]]; vm_compute in Hl;
        repeat (destruct Hl as [<-|Hl]; [exfalso; clear -Ht; vm_compute in Ht; discriminate Ht|]); destruct Hl.
    - exact ex_cmp.
  Qed.
  (** a = y: b, c and g inactive *)
  Definition and_vec : list fval := [Fin 1; get_or NaN (to_vector hK (VInt 4)); get_or NaN (to_vector hL (VInt 2));
    get_or NaN (to_vector hN (VInt 6)); Fin 1; NaN; NaN; NaN].
  Example C28_ex : check_configuration and_space and_vec false = Ok tt /\
    (forall n, In n (get_active and_space and_vec) <-> In n (map hp_name and_hps) /\ vget (index_of and_space) and_vec n <> NaN) /\
    get_active and_space and_vec = ["a"; "k"; "l"; "n"; "o"]%string.
  Proof.
    assert (LA := rat_env_laws). assert (H : check_configuration and_space and_vec false = Ok tt) by (vm_compute; reflexivity).
    split; [exact H|]. split; [|vm_compute; reflexivity].
    apply (C28_active_set_partial and_space and_hps [cB; cC; cG] ex_forbs and_vec and_built and_refs (tm_merge _ _ _ _ and_tame) (tm_ne _ _ _ _ and_tame)).
    - intros c Hc. apply (C13_ex_guard c Hc).
    - intros h Hh. repeat (destruct Hh as [<-|Hh]; [first [left; vm_compute; reflexivity|right; eexists; vm_compute; reflexivity]|]). destruct Hh.
    - exact H.
  Qed.
  Example C27_ex : check_configuration and_space and_vec false = Ok tt <-> check_configuration_rigorous and_space and_vec false = Ok tt.
  Proof.
    assert (LA := rat_env_laws).
    apply (C27_agree_partial and_space and_hps [cB; cC; cG] ex_forbs and_vec false and_built and_refs (tm_merge _ _ _ _ and_tame) (tm_ne _ _ _ _ and_tame)).
    - intros c Hc. apply (C13_ex_guard c Hc).
    - intros h Hh. repeat (destruct Hh as [<-|Hh]; [first [left; vm_compute; reflexivity|right; vm_compute; reflexivity]|]). destruct Hh.
  Qed.

  (** C32: b, c and g get their defaults *)
  Example C32_ex : match config_of_vector and_space and_vec false with
    | Ok c => match impute and_space c SDefault with
              | Ok c' => getitem and_space c "c"%string = Err KeyError /\ getitem and_space c' "c"%string = Ok (VInt 2) /\
                         getitem and_space c' "g"%string = Ok (VStr "p") /\ getitem and_space c' "a"%string = Ok (VStr "y")
              | Err _ => False
              end
    | Err _ => False
    end.
  Proof. vm_compute. repeat split; reflexivity. Qed.

  (** C56: three keys have no value, but len is 8 *)
  Theorem C56_refuted : exists s hs cs fs c, built s hs cs fs /\ made s hs c /\ length (iter s c) = 5 /\ config_len s c = 8.
  Proof.
    exists and_space, and_hps, [cB; cC; cG], ex_forbs, (mk_config and_vec None false). split; [exact and_built|]. split.
    - apply (made_vector and_space and_hps and_vec false); [|vm_compute; reflexivity]. intros h Hh.
      repeat (destruct Hh as [<-|Hh]; [first [left; vm_compute; reflexivity|right; eexists; vm_compute; reflexivity]|]). destruct Hh.
    - split; vm_compute; reflexivity.
  Qed.
  Example C56_ex : let c := mk_config and_vec None false in
    made and_space and_hps c /\ contains and_space c "n"%string = Ok true /\ contains and_space c "b"%string = Ok false.
  Proof.
    split; [|split; vm_compute; reflexivity].
    apply (made_vector and_space and_hps and_vec false); [|vm_compute; reflexivity]. intros h Hh.
    repeat (destruct Hh as [<-|Hh]; [first [left; vm_compute; reflexivity|right; eexists; vm_compute; reflexivity]|]). destruct Hh.
  Qed.
End Witness.
