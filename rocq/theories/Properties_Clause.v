(** * Property C141: a forbidden clause takes away configurations and changes nothing else *)
From Coq Require Import String List ZArith QArith Qround Bool Lia Lqa Permutation Relations.
From Verif Require Import Base ListFacts Numeric HP HPProofs Properties_HP Cond Forb EqFacts Dag DagProofs
  Space CommitProofs Spec SpaceProofs AddProofs CnodeProofs ForbProofs EvalProofs ForbEval MergeProofs ValidProofs ConfigProofs
  ChangeProofs PassProofs ReadProofs SampleProofs Ex Properties_Eval Properties_Config Properties_Change Properties_Sample
  Dist DistProofs Properties_Dist Properties_Size Properties_Array Properties_Reach Properties_Mass Properties_Chance
  Util Random Grid Properties_Add ExchangeProofs Properties_Exchange Properties_Symmetric Properties_Product.
From Verif Require Properties_Grow.
Import ListNotations.
Open Scope nat_scope.

(** none of the clauses forbids the vector *)
Definition spared {E : Env} (io : list (string * nat)) (fs : list fclause) (v : list fval) : bool :=
  forallb (fun f => match forb_vec io v f with Ok false => true | _ => false end) fs.

Section Clause.
  Context {E : Env} {L : EnvLaws E}.

  Lemma spared_iff io fs v : spared io fs v = true <-> forall f, In f fs -> forb_vec io v f = Ok false.
  Proof.
    unfold spared. rewrite forallb_forall. split; intros H f Hf; specialize (H f Hf); [|rewrite H; reflexivity].
    destruct (forb_vec io v f) as [[]|]; congruence.
  Qed.

  Lemma tv h x : to_value h x <> Err ActiveHyperparameterNotSetError.
  Proof.
    unfold to_value, np_index. destruct (hp_kind h); destruct x; try discriminate; destruct (is_close_to_integer q); try discriminate;
      repeat (match goal with |- context [match ?u with _ => _ end] => destruct u end; try discriminate).
  Qed.

  Section Added.
    Variables (s s2 : space) (hs : list hp) (cs : list cond) (fs fs' : list fclause).
    Hypotheses (B : built s hs cs fs) (F : Forall forb_built fs') (A : add s [] [] fs' = (s2, Ok tt)) (R : refs hs cs (fs ++ fs')).
    Let O : space_ok s hs cs fs := built_ok _ _ _ _ B.
    Let B2 := Properties_Grow.grown s s2 hs cs fs fs' B F A.
    Let O2 : space_ok s2 hs cs (fs ++ fs') := built_ok _ _ _ _ B2.
    Let Keep := Properties_Grow.clauses_keep s s2 hs cs fs fs' B F A.
    Let Nodes := Properties_Grow.clauses_nodes s s2 hs cs fs fs' B F A.
    Let Len := Properties_Grow.clauses_len s s2 hs cs fs fs' B F A.

    (** ** The grid *)
    Lemma forb_err io v l e : check_forb io v l = Err e -> e <> ActiveHyperparameterNotSetError.
    Proof.
      intros H ->. unfold check_forb in H. destruct (anyM (forb_vec io v) l) as [[]|e] eqn:Ea; cbn [bind] in H; try discriminate. injection H as ->.
      revert Ea. induction l as [|f l IH]; [discriminate|]. simpl. destruct (forb_vec io v f) as [[]|e] eqn:Ef; cbn [bind]; [discriminate|exact IH|].
      intros [= ->]. revert Ef. clear. induction f as [h w vv|h ws wws|r a b|gs IH] using fclause_ind'; simpl; try discriminate.
      - unfold rel_vec. destruct (isnan _ || isnan _)%bool; [discriminate|].
        destruct (to_value a _) as [u|e] eqn:Ea; cbn [bind].
        + destruct (to_value b _) as [u'|e] eqn:Eb; cbn [bind]; [|intros [= ->]; revert Eb; apply tv].
          unfold rel_val. destruct r; try discriminate; destruct (py_ltb _ _); discriminate.
        + intros [= ->]. revert Ea. apply tv.
      - revert IH. induction gs as [|g gs IHg]; [discriminate|]. intros IH. simpl. destruct (forb_vec io v g) as [[]|e] eqn:Eg; cbn [bind]; [|discriminate|].
        + apply IHg. inversion IH; assumption.
        + intros [= ->]. inversion IH as [|? ? K _]; subst. exact (K Eg).
    Qed.

    (** Configuration(space, values) after the addition: the same, unless a new clause forbids the result *)
    Lemma values_after vals c : config_of_values s vals false = Ok c ->
      (spared (index_of s) fs' (c_vector c) = true -> config_of_values s2 vals false = Ok c) /\
      (spared (index_of s) fs' (c_vector c) = false -> exists e, config_of_values s2 vals false = Err e /\ e <> ActiveHyperparameterNotSetError).
    Proof.
      intros H. assert (Q := fun c' => Properties_Grow.C124_values s s2 hs cs fs fs' B F A vals false c' R). split.
      - intros Sp. apply Q. split; [exact H|]. apply spared_iff. exact Sp.
      - intros Sp. destruct (config_of_values s2 vals false) as [c'|e] eqn:E2.
        + exfalso. destruct (proj1 (Q c') eq_refl) as [H' N]. assert (c' = c) by congruence. subst c'. apply spared_iff in N. congruence.
        + exists e. split; [reflexivity|]. clear Q. destruct Keep as (Hi & Hk & Hx & Hr & Hm & _ & _ & _ & Hh). unfold config_of_values in H, E2.
          rewrite Hi, Hk, Len, (Properties_Grow.clauses_fill s s2 hs cs fs fs' B F A) in E2. destruct (negb _); [|discriminate].
          destruct (fill s vals (items s) _ []) as [[vec cache]|e']; [|discriminate]. cbn [bind fst snd] in *. unfold check_configuration in H, E2. rewrite Hx, Hr, Hm in E2.
          destruct (forallb _ (d_roots (s_dag s))); [|discriminate].
          assert (Cn : forall cn, check_cnode s2 vec false cn = check_cnode s vec false cn) by (intros cn; unfold check_cnode, hp_at; rewrite Hx, Hh; reflexivity).
          rewrite (mapM_ext _ _ _ (fun cn _ => Cn cn)) in E2. destruct (mapM (check_cnode s vec false) (d_min (s_dag s))); [|discriminate]. cbn [bind] in *.
          destruct (check_forb (index_of s) vec (d_fast (s_dag s2))) as [[]|e'] eqn:Ef; [discriminate|]. injection E2 as <-. exact (forb_err _ _ _ _ Ef).
    Qed.
    (** ... and what raised still raises; for a missing value exactly when it did *)
    Lemma values_raise vals e : config_of_values s vals false = Err e ->
      exists e2, config_of_values s2 vals false = Err e2 /\ (e = ActiveHyperparameterNotSetError <-> e2 = ActiveHyperparameterNotSetError).
    Proof.
      intros H. assert (Q := fun c' => Properties_Grow.C124_values s s2 hs cs fs fs' B F A vals false c' R).
      destruct (config_of_values s2 vals false) as [c'|e2] eqn:E2; [destruct (proj1 (Q c') eq_refl) as [H' _]; congruence|]. exists e2. split; [reflexivity|]. clear Q.
      destruct Keep as (Hi & Hk & Hx & Hr & Hm & _ & _ & _ & Hh). unfold config_of_values in H, E2.
      rewrite Hi, Hk, Len, (Properties_Grow.clauses_fill s s2 hs cs fs fs' B F A) in E2. destruct (negb _); [|split; congruence].
      destruct (fill s vals (items s) _ []) as [[vec cache]|e']; [|cbn [bind] in *; split; congruence]. cbn [bind fst snd] in *. unfold check_configuration in H, E2. rewrite Hx, Hr, Hm in E2.
      destruct (forallb _ (d_roots (s_dag s))); [|cbn [bind] in *; split; congruence].
      assert (Cn : forall cn, check_cnode s2 vec false cn = check_cnode s vec false cn) by (intros cn; unfold check_cnode, hp_at; rewrite Hx, Hh; reflexivity).
      rewrite (mapM_ext _ _ _ (fun cn _ => Cn cn)) in E2. destruct (mapM (check_cnode s vec false) (d_min (s_dag s))); [|cbn [bind] in *; split; congruence]. cbn [bind] in *.
      destruct (check_forb (index_of s) vec (d_fast (s_dag s2))) as [[]|e'] eqn:Ef; [discriminate|]. injection E2 as <-.
      destruct (check_forb (index_of s) vec (d_fast (s_dag s))) as [[]|e''] eqn:Eg; [discriminate|]. injection H as <-.
      assert (N1 := forb_err _ _ _ _ Ef). assert (N2 := forb_err _ _ _ _ Eg). split; intros K; contradiction.
    Qed.

    Lemma grid_same fuel steps : forall todo done done2 l l2, done2 = filter (fun c => spared (index_of s) fs' (c_vector c)) done ->
      grid_loop fuel s steps todo done = Ok l -> grid_loop fuel s2 steps todo done2 = Ok l2 ->
      l2 = filter (fun c => spared (index_of s) fs' (c_vector c)) l.
    Proof.
      assert (Ge : forall n, get_hp s2 n = get_hp s n) by (intros n; unfold get_hp; rewrite Nodes; reflexivity).
      assert (Vs : forall n, value_set s2 steps n = value_set s steps n) by (intros n; unfold value_set; rewrite Ge; reflexivity).
      assert (Xp : forall p, expand s2 steps p = expand s steps p).
      { intros p. destruct Keep as (_ & _ & _ & _ & _ & _ & Hp & _). unfold expand, new_active, try_child. rewrite Nodes, Hp.
        destruct (foldM _ _ []) as [new|e]; cbn [bind]; [|reflexivity]. rewrite (mapM_ext _ _ new (fun n _ => Vs n)). reflexivity. }
      induction fuel as [|f IH]; intros todo done done2 l l2 D H H2; (destruct todo as [|p todo]; cbn [grid_loop] in H, H2; [congruence|]); [discriminate|].
      destruct (config_of_values s (some_values p) false) as [c|e] eqn:E1.
      - destruct (values_after _ _ E1) as [Y N]. destruct (spared (index_of s) fs' (c_vector c)) eqn:Sp.
        + rewrite (Y eq_refl) in H2. refine (IH _ _ _ _ _ _ H H2). rewrite filter_app, <- D. cbn [filter]. rewrite Sp. reflexivity.
        + destruct (N eq_refl) as (e & E2 & Ne). rewrite E2 in H2. destruct e; try discriminate; try contradiction.
          refine (IH _ _ _ _ _ _ H H2). rewrite filter_app, <- D. cbn [filter]. rewrite Sp, app_nil_r. reflexivity.
      - destruct (values_raise _ _ E1) as (e2 & E2 & I). rewrite E2 in H2. destruct e; try discriminate.
        + rewrite (proj1 I eq_refl), Xp in H2. destruct (expand s steps p) as [more|e]; [|discriminate]. cbn [bind] in *. refine (IH _ _ _ _ _ D H H2).
        + destruct e2; try discriminate; [discriminate (proj2 I eq_refl)|]. refine (IH _ _ _ _ _ D H H2).
    Qed.

    (** the grid is the old grid, in its order, without what the new clauses forbid *)
    Theorem C141_grid fuel steps l l2 : generate_grid fuel s steps = Ok l -> generate_grid fuel s2 steps = Ok l2 ->
      l2 = filter (fun c => spared (index_of s) fs' (c_vector c)) l.
    Proof.
      intros H H2. unfold generate_grid in H, H2. destruct Keep as (_ & _ & _ & Hr & _). unfold unconditional_hyperparameters in *. rewrite Hr in H2.
      assert (Vs : forall n, value_set s2 steps n = value_set s steps n) by (intros n; unfold value_set, get_hp; rewrite Nodes; reflexivity).
      rewrite (mapM_ext _ _ _ (fun n _ => Vs n)) in H2. destruct (mapM (value_set s steps) (d_roots (s_dag s))) as [sets|e]; [|discriminate]. cbn [bind] in *.
      exact (grid_same fuel steps _ _ _ _ _ eq_refl H H2).
    Qed.

    (** ** Sampling *)
    Lemma spared_app io l m v : spared io (l ++ m) v = (spared io l v && spared io m v)%bool.
    Proof. unfold spared. apply forallb_app. Qed.
    Lemma keep_spared s0 cs0 fs0 v : space_ok s0 hs cs0 fs0 -> length v = s_len s0 ->
      keep (s := s0) v = filter (spared (index_of s0) fs0) [prune (s := s0) v].
    Proof.
      intros O0 Lv. unfold keep. cbn [filter]. rewrite <- (okf_prune O0 v Lv).
      assert (Q : spared (index_of s0) fs0 (prune (s := s0) v) = (okf (s := s0) (d_uforb (s_dag s0)) (prune (s := s0) v) && okf (s := s0) (d_cforb (s_dag s0)) (prune (s := s0) v))%bool).
      { unfold spared, okf. rewrite <- forallb_app. apply eq_true_iff_eq. rewrite !forallb_forall. assert (P := so_forbs O0).
        split; intros K f Hf; apply K; [eapply Permutation_in; [exact P|exact Hf]|eapply Permutation_in; [symmetry; exact P|exact Hf]]. }
      rewrite Q. destruct (okf _ _); [|reflexivity]. cbn [map filter andb]. reflexivity.
    Qed.
    Lemma prune_after v : prune (s := s2) v = prune (s := s) v.
    Proof. destruct Keep as (_ & _ & Hx & _ & Hm & _). unfold prune, prune1. rewrite Hx, Hm. reflexivity. Qed.
    Lemma keep_after v : length v = s_len s -> keep (s := s2) v = filter (spared (index_of s) fs') (keep (s := s) v).
    Proof.
      intros Lv. rewrite (keep_spared s2 cs (fs ++ fs') v O2), (keep_spared s cs fs v O Lv) by (rewrite Len; exact Lv).
      destruct Keep as (_ & _ & Hx & _). rewrite prune_after, Hx. cbn [filter]. rewrite spared_app. destruct (spared (index_of s) fs (prune (s := s) v)); [|reflexivity].
      cbn [andb filter]. reflexivity.
    Qed.

    Hypothesis T : tame s hs cs fs.
    Hypothesis T2 : tame s2 hs cs (fs ++ fs').

    (** from the same numbers a round returns what it returned, without what the new clauses forbid *)
    Theorem C141_round_partial n mat l : rect n mat -> length mat = s_len s ->
      (forall j, j < n -> drawn (s := s) (hs := hs) (column mat j)) ->
      sample_round s n mat = Ok l -> sample_round s2 n mat = Ok (filter (spared (index_of s) fs') l).
    Proof.
      intros Rc Lm D H. rewrite (round_keep T n mat Rc Lm D) in H. injection H as <-.
      rewrite (round_keep T2 n mat Rc); [|rewrite Len; exact Lm|].
      - f_equal. assert (Lc : forall v, In v (map (column mat) (seq 0 n)) -> length v = s_len s).
        { intros v Hv. apply in_map_iff in Hv. destruct Hv as (j & <- & _). unfold column. rewrite map_length. exact Lm. }
        revert Lc. generalize (map (column mat) (seq 0 n)). induction l as [|v l IH]; intros Lc; [reflexivity|]. cbn [map concat].
        rewrite filter_app, keep_after by (apply Lc; left; reflexivity). f_equal. apply IH. intros; apply Lc; right; assumption.
      - intros j Hj h Hh. destruct Keep as (_ & _ & Hx & _). rewrite Hx. apply (D j Hj h Hh).
    Qed.

    Lemma fits_after ls : fits s hs ls -> fits s2 hs ls.
    Proof. intros (Ll & G). destruct Keep as (_ & _ & Hx & _). split; [rewrite Len; exact Ll|]. rewrite Hx. exact G. Qed.
    (** a column of numbers is accepted exactly if it was and its configuration is not forbidden *)
    Theorem C141_accepted_partial ls : fits s hs ls ->
      (chance (independent ls) (accepted s2) == chance (independent ls) (fun v => accepted s v && spared (index_of s) fs' (prune (s := s) v)))%Q.
    Proof.
      intros Ft. apply chance_ext. intros v q Hv. apply independent_in in Hv. destruct (fits_drawn T ls v Ft Hv) as (Lv & D).
      destruct (fits_drawn T2 ls v (fits_after ls Ft) Hv) as (Lv2 & D2).
      unfold accepted. rewrite (single_keep T v Lv D), (single_keep T2 v Lv2 D2), keep_after by exact Lv.
      destruct (keep_or (s := s) v) as [K|K]; rewrite K; [reflexivity|]. cbn [filter andb]. destruct (spared _ _ _); reflexivity.
    Qed.

    (** what is not forbidden is sampled in the same proportions as before *)
    Theorem C141_ratio_partial ls c d c' d' fuel fuel2 : orderly cs -> hs <> [] -> fits s hs ls ->
      represents s hs c d -> exact_all hs d -> valid hs cs (fs ++ fs') d ->
      represents s hs c' d' -> exact_all hs d' -> valid hs cs (fs ++ fs') d' ->
      (0 < chance (independent ls) (accepted s) -> 0 < chance (independent ls) (accepted s2) ->
       chance (independent (repeat (independent ls) (fuel2 * next_size s2 1))) (returns s2 fuel2 (c_vector c))
       * chance (independent (repeat (independent ls) (fuel * next_size s 1))) (returns s fuel (c_vector c'))
       == chance (independent (repeat (independent ls) (fuel2 * next_size s2 1))) (returns s2 fuel2 (c_vector c'))
          * chance (independent (repeat (independent ls) (fuel * next_size s 1))) (returns s fuel (c_vector c)))%Q.
    Proof.
      intros Or Ne Ft Rp Ex V Rp' Ex' V' P P2.
      assert (W : forall e, valid hs cs (fs ++ fs') e -> valid hs cs fs e) by (intros e [V1 V2 V3]; constructor; auto; intros f Hf; apply V3, in_or_app; auto).
      assert (Rs : forall k e, represents s hs k e -> represents s2 hs k e).
      { intros k e [Rl K]. destruct Keep as (_ & _ & Hx & _). split; [rewrite Len; exact Rl|]. rewrite Hx. exact K. }
      assert (H := C132_sample_partial s hs cs fs ls c d fuel T Or Ne Ft Rp Ex (W _ V)).
      assert (H' := C132_sample_partial s hs cs fs ls c' d' fuel T Or Ne Ft Rp' Ex' (W _ V')).
      assert (H2 := C132_sample_partial s2 hs cs (fs ++ fs') ls c d fuel2 T2 Or Ne (fits_after ls Ft) (Rs _ _ Rp) Ex V).
      assert (H2' := C132_sample_partial s2 hs cs (fs ++ fs') ls c' d' fuel2 T2 Or Ne (fits_after ls Ft) (Rs _ _ Rp') Ex' V'). cbv zeta in *.
      set (a := chance (independent ls) (accepted s)) in *. set (a2 := chance (independent ls) (accepted s2)) in *.
      set (x := chance _ (returns s fuel (c_vector c))) in *. set (y := chance _ (returns s fuel (c_vector c'))) in *.
      set (x2 := chance _ (returns s2 fuel2 (c_vector c))) in *. set (y2 := chance _ (returns s2 fuel2 (c_vector c'))) in *.
      set (k := (1 - qpow (1 - a) _)%Q) in *. set (k2 := (1 - qpow (1 - a2) _)%Q) in *. set (p := weight ls (c_vector c)) in *. set (p' := weight ls (c_vector c')) in *.
      clearbody a a2 x y x2 y2 k k2 p p'. apply (Qmult_inj_l _ _ (a * a2)); [intros Z; assert (0 < a * a2)%Q by (apply Qmult_lt_0_compat; assumption); lra|].
      setoid_replace (a * a2 * (x2 * y))%Q with ((a2 * x2) * (a * y))%Q by ring. setoid_replace (a * a2 * (y2 * x))%Q with ((a2 * y2) * (a * x))%Q by ring.
      rewrite H, H', H2, H2'. ring.
    Qed.

    (** ** Neighbours *)
    Lemma getitem_after c n : getitem s2 c n = getitem s c n.
    Proof. destruct Keep as (_ & _ & Hx & _). unfold getitem, get_hp. rewrite Nodes, Hx. reflexivity. Qed.

    (** the neighbours are neighbours as before, and all of those that no new clause forbids *)
    Theorem C141_neighbours_partial c d num o o2 fuel fuel2 out out2 : orderly cs ->
      represents s hs c d -> shows s hs c d -> valid hs cs (fs ++ fs') d -> exact_all hs d ->
      (forall h, In h hs -> listed num h \/ exists v, hp_kind h = KConst v) -> oracle_ok o -> oracle_ok o2 ->
      get_one_exchange_neighbourhood fuel s c num o = (out, Ok tt) ->
      get_one_exchange_neighbourhood fuel2 s2 c num o2 = (out2, Ok tt) ->
      (forall cfg2, In cfg2 out2 -> exists cfg d', In cfg out /\ represents s hs cfg d' /\ represents s hs cfg2 d') /\
      (forall cfg, In cfg out -> (forall d' f, represents s hs cfg d' -> In f fs' -> ~ violated d' f) ->
         exists cfg2 d', In cfg2 out2 /\ represents s hs cfg d' /\ represents s hs cfg2 d').
    Proof.
      intros Or Rp Sh V Ex Li Ok_ Ok2 Hr Hr2.
      assert (W : valid hs cs fs d) by (destruct V as [V1 V2 V3]; constructor; auto; intros f Hf; apply V3, in_or_app; auto).
      assert (Rs : forall k e, represents s hs k e <-> represents s2 hs k e).
      { intros k e. destruct Keep as (_ & _ & Hx & _). unfold represents. rewrite Len, Hx. reflexivity. }
      assert (Sh2 : shows s2 hs c d) by (intros h u Hh Hu; rewrite getitem_after; apply Sh; assumption).
      assert (St : steady num hs).
      { intros h lo hi log dd Hh K. left. destruct (Li h Hh) as [Hl|(v & Hv)]; [|congruence]. unfold listed in Hl. rewrite K in Hl. apply Hl. }
      split.
      - intros cfg2 Hc2. destruct (found (hs := hs) (d := d) num Li o2 fuel2 out2 (Ok tt) cfg2 s2 hs cs (fs ++ fs') c T2 Or (proj1 (Rs _ _) Rp) V Ex Ok2 St (fun h K => K) Hr2 Hc2)
          as (h & u & w & d' & Hu & X & Hl & Nb).
        destruct (C65_complete s hs cs fs c d num o fuel out h u w d' T Or Rp Sh W Ex Ok_ Hr (xc_in _ _ _ _ _ _ _ _ _ X) Hu Hl Nb (xc_upd _ _ _ _ _ _ _ _ _ X)) as (cfg & Hc & Rc).
        { intros f Hf. apply (xc_forb _ _ _ _ _ _ _ _ _ X). apply in_or_app. auto. }
        exists cfg, d'. split; [exact Hc|]. split; [exact Rc|]. apply Rs. exact (xc_rep _ _ _ _ _ _ _ _ _ X).
      - intros cfg Hc N. destruct (found (hs := hs) (d := d) num Li o fuel out (Ok tt) cfg s hs cs fs c T Or Rp W Ex Ok_ St (fun h K => K) Hr Hc)
          as (h & u & w & d' & Hu & X & Hl & Nb).
        assert (Rc := xc_rep _ _ _ _ _ _ _ _ _ X).
        destruct (C65_complete s2 hs cs (fs ++ fs') c d num o2 fuel2 out2 h u w d' T2 Or (proj1 (Rs _ _) Rp) Sh2 V Ex Ok2 Hr2 (xc_in _ _ _ _ _ _ _ _ _ X) Hu Hl Nb (xc_upd _ _ _ _ _ _ _ _ _ X)) as (cfg2 & Hc2 & Rc2).
        { intros f Hf Hn. apply in_app_or in Hf. destruct Hf as [Hf|Hf]; [apply (xc_forb _ _ _ _ _ _ _ _ _ X f Hf Hn)|apply (N d' f Rc Hf)]. }
        exists cfg2, d'. split; [exact Hc2|]. split; [exact Rc|]. apply Rs. exact Rc2.
    Qed.
  End Added.
End Clause.

(** ** Example: r, y, and x that is active when r is 1; then x = 0 and y = 0 are forbidden together *)
Section Witness.
  Local Existing Instance rat_env.
  Local Existing Instance rat_env_laws.
  Definition free_space := fst (add empty_space few_hps few_conds []).
  Definition bound_space := fst (add free_space [] [] [few_and]).
  Lemma few_and_c : Forall forb_built [few_and].
  Proof.
    constructor; [|constructor]. apply (FB_and [few_x; few_y] few_and); [|vm_compute; reflexivity]. intros g [<-|[<-|[]]].
    - apply (FB_eq (bin "x") (VStr "0") few_x (bin_c _)). vm_compute. reflexivity.
    - apply (FB_eq (bin "y") (VStr "0") few_y (bin_c _)). vm_compute. reflexivity.
  Qed.
  Lemma free_built : built free_space few_hps few_conds [].
  Proof.
    apply (built_step empty_space [] [] [] few_hps few_conds [] built_empty); [| | |vm_compute; reflexivity].
    - repeat (constructor; [apply bin_c|]). constructor.
    - constructor; [|constructor]. apply (CB_bin OpEq (bin "x") (bin "r") (VStr "1") _ (bin_c _) (bin_c _)); vm_compute; reflexivity.
    - constructor.
  Qed.
  Lemma bound_added : add free_space [] [] [few_and] = (bound_space, Ok tt).
  Proof. vm_compute. reflexivity. Qed.
  Lemma free_tame : tame free_space few_hps few_conds [].
  Proof.
    constructor; [apply free_built|split; [apply (tm_refs _ _ _ _ few_tame)|intros f []]| |apply (tm_ne _ _ _ _ few_tame)|intros f []].
    intros c d v [<-|[]] [<-|[]] H. reflexivity.
  Qed.
  Lemma bound_tame : tame bound_space few_hps few_conds ([] ++ [few_and]).
  Proof.
    constructor; [apply (Properties_Grow.grown free_space bound_space few_hps few_conds [] [few_and] free_built few_and_c bound_added)|apply (tm_refs _ _ _ _ few_tame)| |apply (tm_ne _ _ _ _ few_tame)|apply (tm_cmp _ _ _ _ few_tame)].
    intros c d v [<-|[]] [<-|[]] H. reflexivity.
  Qed.

  (** six configurations, of which one is taken away; an eighth of the columns is rejected; of the three neighbours of r = 1, x = 1, y = 0 two remain *)
  Definition top_vals : list (string * option value) := [("r", Some (VStr "1")); ("x", Some (VStr "1")); ("y", Some (VStr "0"))]%string.
  Definition top_config := get_or (mk_config [] None false) (config_of_values free_space top_vals false).
  Example C141_ex : exists l l2, add free_space [] [] [few_and] = (bound_space, Ok tt) /\ refs few_hps few_conds ([] ++ [few_and]) /\
    tame free_space few_hps few_conds [] /\ tame bound_space few_hps few_conds ([] ++ [few_and]) /\
    generate_grid 40 free_space [] = Ok l /\ generate_grid 40 bound_space [] = Ok l2 /\ length l = 6 /\ length l2 = 5 /\
    fits free_space few_hps (laws free_space) /\
    (chance (independent (laws free_space)) (Properties_Chance.accepted free_space) == 1)%Q /\
    (chance (independent (laws free_space)) (Properties_Chance.accepted bound_space) == 7#8)%Q /\
    length (fst (get_one_exchange_neighbourhood 20 free_space top_config 4 (turns 3))) = 3 /\
    snd (get_one_exchange_neighbourhood 20 free_space top_config 4 (turns 3)) = Ok tt /\
    length (fst (get_one_exchange_neighbourhood 20 bound_space top_config 4 (turns 3))) = 2 /\
    snd (get_one_exchange_neighbourhood 20 bound_space top_config 4 (turns 3)) = Ok tt.
  Proof.
    assert (O := built_ok _ _ _ _ free_built).
    eexists. eexists. split; [exact bound_added|]. split; [apply (tm_refs _ _ _ _ few_tame)|]. split; [exact free_tame|]. split; [exact bound_tame|].
    split; [vm_compute; reflexivity|]. split; [vm_compute; reflexivity|]. split; [reflexivity|]. split; [reflexivity|].
    split; [apply (laws_fit _ _ _ _ O); intros h Hh; repeat (destruct Hh as [<-|Hh]; [exact I|]); destruct Hh|]. repeat split; vm_compute; reflexivity.
  Qed.
End Witness.
