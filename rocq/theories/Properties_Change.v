(** * Properties C19, C20, C26: changing one value *)
From Coq Require Import String List ZArith QArith Qabs Bool Lia Permutation Relations.
From Verif Require Import Base ListFacts Numeric NumericProofs HP HPProofs Properties_HP Cond Forb EqFacts Dag DagProofs
  Space CommitProofs Spec SpaceProofs CnodeProofs ForbProofs EvalProofs ForbEval MergeProofs ValidProofs ConfigProofs
  ChangeProofs ReadProofs OrderProofs PassProofs Ex Properties_Eval Properties_Config.
Import ListNotations.
Open Scope nat_scope.

Section ChangeProps.
  Context {E : Env} {L : EnvLaws E}.

  (** ** Facts about encodings *)
  Lemma option_dec (o : option string) m : {o = Some m} + {o <> Some m}.
  Proof. destruct o as [n|]; [destruct (string_dec n m); [left|right]; congruence|right; discriminate]. Qed.

  Lemma round_congr h a b : py_eqb a b = true -> py_eqb (round_value h a) (round_value h b) = true.
  Proof.
    intros Q. unfold round_value. destruct (hp_kind h); try exact Q.
    assert (Q' := Q). unfold py_eqb in Q'.
    destruct (num_of a) as [x|] eqn:Na, (num_of b) as [y|] eqn:Nb; try exact Q; try discriminate.
    - simpl. apply Qeq_bool_iff in Q'. apply Qeq_bool_iff. apply round13_proper. exact Q'.
  Qed.

  Lemma cond_parents_ne c : cond_good c -> exists p, In p (cond_parents c).
  Proof.
    intros G. apply cond_good_lits in G. destruct G as [_ G]. unfold cond_parents. destruct (dlcs c) as [|l ls]; [contradiction|].
    eexists. left. reflexivity.
  Qed.
  Lemma cond_child_ex c : cond_good c -> exists n, activates c n.
  Proof.
    intros G. apply cond_good_lits in G. destruct G as [_ G]. destruct (dlcs_child c G) as (ch & Hch).
    exists (hp_name ch). unfold activates. rewrite Hch. reflexivity.
  Qed.

  Section One.
    Context {s : space} {hs : list hp} {cs : list cond} {fs : list fclause} (O : space_ok s hs cs fs).
    Notation io := (index_of s).

    Lemma encodes_holds v d : refs hs cs fs -> ne_safe cs -> (forall h, In h hs -> encodes io v d h) ->
      (forall h, In h hs -> ~ conditional cs (hp_name h) -> d (hp_name h) <> None) ->
      forall c, In c cs -> (sat_vec io v c = true <-> holds d c).
    Proof.
      intros [R1 R2] NS En Rt c Hc. apply sat_vec_holds.
      - apply cond_built_good, (so_cond_built O), Hc.
      - intros l Hl. apply En. apply (R1 c Hc l Hl).
      - intros l Hl Hn. destruct (is_ne (l_test l)) eqn:Ne; [|reflexivity]. exfalso.
        destruct (l_test l) as [[] w vv|] eqn:Et; try discriminate.
        refine (Rt (l_parent l) _ _ Hn); [apply (R1 c Hc l Hl)|]. apply (NS c l w vv Hc Hl Et).
    Qed.

    Lemma encodes_active v d : refs hs cs fs -> ne_safe cs -> (forall h, In h hs -> encodes io v d h) ->
      (forall h, In h hs -> ~ conditional cs (hp_name h) -> d (hp_name h) <> None) ->
      forall n c, In c cs -> activates c n -> (sat_vec io v c = true <-> active cs d n).
    Proof.
      intros R NS En Rt n c Hc Ha. assert (Sat := encodes_holds v d R NS En Rt). split.
      - intros Hs c' Hc' Ha'. apply (Sat c' Hc').
        destruct (so_declared_vec s hs cs fs O (proj1 R) n c Hc Ha) as (c1 & E1 & _ & _ & S1).
        destruct (so_declared_vec s hs cs fs O (proj1 R) n c' Hc' Ha') as (c2 & E2 & _ & _ & S2).
        assert (c1 = c2) by congruence. subst c2. rewrite <- S2, S1. exact Hs.
      - intros A. apply (Sat c Hc). apply A; assumption.
    Qed.

    Lemma conditional_dec n : conditional cs n \/ ~ conditional cs n.
    Proof.
      destruct (condof (d_nodes (s_dag s)) n) as [c|] eqn:Ec.
      - left. apply (so_conditional O). eauto.
      - right. intros Hc. apply (so_conditional O) in Hc. destruct Hc; congruence.
    Qed.

    Lemma represents_encodes c d : represents s hs c d -> forall h, In h hs -> encodes io (c_vector c) d h.
    Proof. intros [_ H] h Hh. exact (H h Hh). Qed.

    (** reading a configuration without cached values *)
    Lemma read_vector v d allow h : In h hs -> encodes io v d h ->
      match d (hp_name h) with
      | Some w => exact_value h w -> exists z, getitem s (mk_config v None allow) (hp_name h) = Ok z /\ py_eqb z (round_value h w) = true
      | None => getitem s (mk_config v None allow) (hp_name h) = Err KeyError
      end.
    Proof.
      intros Hh En. assert (C := so_constructed O h Hh). rewrite (getitem_vec O (mk_config v None allow) h Hh eq_refl). simpl.
      unfold encodes in En. destruct (d (hp_name h)) as [w|]; [|rewrite En; reflexivity]. intros Ex.
      destruct En as (Lw & x & Hx & F). destruct (legal_finite h w C Lw) as (q & Hq). assert (x = Fin q) by congruence. subst x.
      destruct (vget io v (hp_name h)) as [q'| | |] eqn:Ev; simpl in F; try contradiction.
      destruct (value_roundtrip h w _ C Lw Ex Hq) as (w' & Hw' & Q).
      destruct (to_value_same h (Fin q) (Fin q') w' (Qeq_sym _ _ F) Hw') as (w2 & Hw2 & Q2). rewrite Hw2. simpl.
      exists (round_value h w2). split; [reflexivity|]. apply round_congr. apply (py_eqb_trans _ w' _); [|exact Q].
      rewrite py_eqb_sym. exact Q2.
    Qed.
  End One.

  (** ** C26: changing a value touches only the hyperparameter and those that depend on it *)
  Theorem C26_local s hs cs fs v k x i : built s hs cs fs -> length v = s_len s -> assoc k (index_of s) = Some i ->
    length (change_hp_value s v k x i) = s_len s /\
    vget (index_of s) (change_hp_value s v k x i) k = x /\
    forall h, In h hs -> hp_name h <> k -> ~ clos_trans _ (reads cs) k (hp_name h) ->
      vget (index_of s) (change_hp_value s v k x i) (hp_name h) = vget (index_of s) v (hp_name h).
  Proof.
    intros B Lv Hi. assert (O := built_ok _ _ _ _ B). assert (Hn := proj1 (so_index O k i) Hi).
    destruct (change_entries O v k x i Lv (so_index_lt O k i Hi)) as [La _].
    destruct (change_local O v k x i Lv Hn) as [C1 C2]. split; [exact La|]. split; [unfold vget; rewrite Hi; exact C1|].
    intros h Hh Hne Hd. destruct (so_hp_index O h Hh) as (j & Hj & _ & Hnj & _). unfold vget. rewrite Hj.
    apply (C2 j (hp_name h)); assumption.
  Qed.
  (** ... and what it writes elsewhere is NaN or the default *)
  Theorem C26_entries s hs cs fs v k x i : built s hs cs fs -> length v = s_len s -> assoc k (index_of s) = Some i ->
    forall h, In h hs -> hp_name h <> k ->
      let y := vget (index_of s) (change_hp_value s v k x i) (hp_name h) in
      y = vget (index_of s) v (hp_name h) \/ y = NaN \/ to_vector h (hp_default h) = Ok y.
  Proof.
    intros B Lv Hi h Hh Hne. assert (O := built_ok _ _ _ _ B).
    destruct (change_entries O v k x i Lv (so_index_lt O k i Hi)) as [_ Ce].
    destruct (so_hp_index O h Hh) as (j & Hj & _ & Hnj & Hat). cbv zeta. unfold vget. rewrite Hj.
    destruct (Ce j) as [[_ K]|[K|[[Ej K]|(g & Hg & K)]]]; auto.
    - exfalso. subst j. apply Hne. apply (so_index_inj O _ _ i); assumption.
    - right. right. assert (g = h) by congruence. subst g. rewrite K. apply default_entry_ok, (so_constructed O), Hh.
  Qed.

  (** ** C19: all or nothing *)
  Theorem C19_failure s c k w c' e : setitem s c k w = (c', Err e) -> c' = c.
  Proof.
    unfold setitem. destruct (get_hp s k) as [h|]; [|intros H; inversion H; reflexivity].
    destruct (legal_value h w); [|intros H; inversion H; reflexivity].
    destruct (assoc k (index_of s)) as [i|]; [|intros H; inversion H; reflexivity].
    destruct (to_vector h w) as [x|e']; [|intros H; inversion H; reflexivity].
    destruct (check_configuration s (change_hp_value s (c_vector c) k x i) false); intros H; inversion H; reflexivity.
  Qed.

  Lemma setitem_ok s hs cs fs c k w c' : space_ok s hs cs fs -> setitem s c k w = (c', Ok tt) ->
    exists h x i, In h hs /\ hp_name h = k /\ assoc k (index_of s) = Some i /\ legal_value h w = true /\ to_vector h w = Ok x /\
      check_configuration s (change_hp_value s (c_vector c) k x i) false = Ok tt /\
      c' = mk_config (change_hp_value s (c_vector c) k x i) None (c_allow c).
  Proof.
    intros O. unfold setitem. destruct (get_hp s k) as [h|] eqn:Eh; [|intros H; inversion H].
    destruct (legal_value h w) eqn:El; [|intros H; inversion H].
    destruct (assoc k (index_of s)) as [i|] eqn:Ei; [|intros H; inversion H].
    destruct (to_vector h w) as [x|e'] eqn:Ex; [|intros H; inversion H].
    destruct (check_configuration s (change_hp_value s (c_vector c) k x i) false) as [[]|] eqn:Ec; intros H; inversion H.
    apply (so_get_hp O) in Eh. destruct Eh as [Hh Hk]. exists h, x, i. auto 10.
  Qed.

  (** Missing: numbers close to an integer and floats with more than 13 decimals are not read back
      exactly (C19_refuted). *)
  Theorem C19_success_partial s hs cs fs c k w c' : built s hs cs fs -> length (c_vector c) = s_len s ->
    setitem s c k w = (c', Ok tt) ->
    check_configuration s (c_vector c') false = Ok tt /\
    exists h, In h hs /\ hp_name h = k /\ legal_value h w = true /\
      to_vector h w = Ok (vget (index_of s) (c_vector c') k) /\
      (exact_value h w -> exists z, getitem s c' k = Ok z /\ py_eqb z (round_value h w) = true).
  Proof.
    intros B Lv H. assert (O := built_ok _ _ _ _ B). destruct (setitem_ok _ _ _ _ _ _ _ _ O H) as (h & x & i & Hh & <- & Hi & Hl & Hx & Hc & ->).
    simpl. split; [exact Hc|]. exists h. split; [exact Hh|]. split; [reflexivity|]. split; [exact Hl|].
    destruct (C26_local s hs cs fs (c_vector c) (hp_name h) x i B Lv Hi) as (_ & Vk & _). rewrite Vk. split; [exact Hx|].
    assert (R := read_vector O (change_hp_value s (c_vector c) (hp_name h) x i) (fun _ => Some w) (c_allow c) h Hh).
    cbv beta iota in R. apply R. unfold encodes. split; [exact Hl|]. exists x. rewrite Vk. split; [exact Hx|apply fsame_refl].
  Qed.
  (** an unknown key or an illegal value is always rejected *)
  Theorem C19_illegal s hs cs fs c k w : built s hs cs fs ->
    (~ In k (map hp_name hs) -> setitem s c k w = (c, Err KeyError)) /\
    (forall h, In h hs -> hp_name h = k -> legal_value h w = false -> setitem s c k w = (c, Err IllegalValueError)).
  Proof.
    intros B. assert (O := built_ok _ _ _ _ B). split.
    - intros Hk. unfold setitem. destruct (get_hp s k) as [h|] eqn:Eh; [|reflexivity]. exfalso.
      apply (so_get_hp O) in Eh. destruct Eh as [Hh <-]. apply Hk. apply in_map. exact Hh.
    - intros h Hh Hk Hl. unfold setitem. rewrite (proj2 (so_get_hp O k h) (conj Hh Hk)), Hl. reflexivity.
  Qed.

  (** ** C20: a legal assignment that violates no clause succeeds

      Missing: spaces that are not [orderly], see C20_refuted. *)
  Lemma change_represents_entry s hs cs fs c d h w x y i : tame s hs cs fs -> orderly cs ->
    represents s hs c d -> valid hs cs fs d -> exact_all hs d ->
    In h hs -> d (hp_name h) <> None -> legal_value h w = true -> exact_value h w ->
    to_vector h w = Ok y -> fsame x y -> assoc (hp_name h) (index_of s) = Some i ->
    let a := change_hp_value s (c_vector c) (hp_name h) x i in
    exists d', updated hs cs d (hp_name h) w d' /\ (forall g, In g hs -> encodes (index_of s) a d' g) /\ exact_all hs d' /\
      all_legal hs d' /\ (forall g, In g hs -> (d' (hp_name g) <> None <-> active cs d' (hp_name g))) /\
      (forall g, In g hs -> hp_name g <> hp_name h -> ~ clos_trans _ (reads cs) (hp_name h) (hp_name g) -> d' (hp_name g) = d (hp_name g)).
  Proof.
    intros T Or Rep V Ex Hh Hset Hl He Hx Hxy Hi. destruct T as [B R M NS Cmp]. assert (O := built_ok _ _ _ _ B).
    assert (En := represents_encodes c d Rep). destruct Rep as [Lv _]. set (v := c_vector c) in *. set (k := hp_name h) in *.
    destruct (change_spec O Or v k x i (proj1 R) M Lv (proj1 (so_index O k i) Hi)) as (La & Vk & Von & Vd & Vs).
    cbv zeta. set (a := change_hp_value s v k x i) in *.
    set (d' := fun n => if String.eqb n k then Some w else
                 match vget (index_of s) a n with NaN => None
                 | _ => match d n with Some u => Some u | None => option_map hp_default (get_hp s n) end end).
    assert (Hd'k : d' k = Some w) by (unfold d'; rewrite String.eqb_refl; reflexivity).
    assert (Same : forall g, In g hs -> hp_name g = k -> g = h).
    { intros g Hg Hn. apply (same_hp hs); auto using (so_names_nodup O). }
    assert (Dep : forall m, clos_trans _ (reads cs) k m \/ ~ clos_trans _ (reads cs) k m).
    { intros m. (* decidable: the table lists the dependants *)
      assert (D : (exists cn, In cn (look (s := s) k) /\ handles (s := s) cn m) \/ ~ exists cn, In cn (look (s := s) k) /\ handles (s := s) cn m).
      { generalize (look (s := s) k). induction l as [|cn l IH]; [right; intros (? & [] & _)|].
        assert (Hd : handles (s := s) cn m \/ ~ handles (s := s) cn m).
        { unfold handles. generalize (cn_children cn). induction l0 as [|j l0 IH0]; [right; intros (? & [] & _)|].
          destruct (option_dec (nth_error (keys s) j) m) as [Ej|Ej].
          - left. exists j. split; [left; reflexivity|exact Ej].
          - destruct IH0 as [(j' & Hj' & Ej')|IH0]; [left; exists j'; split; [right; exact Hj'|exact Ej']|].
            right. intros (j' & [<-|Hj'] & Ej'); [contradiction|]. apply IH0. eauto. }
        destruct Hd as [Hd|Hd]; [left; exists cn; split; [left; reflexivity|exact Hd]|].
        destruct IH as [(cn' & Hcn' & Hh')|IH]; [left; exists cn'; split; [right; exact Hcn'|exact Hh']|].
        right. intros (cn' & [<-|Hcn'] & Hh'); [contradiction|]. apply IH. eauto. }
      destruct D as [(cn & Hcn & Hm)|D]; [left; eapply look_only; eauto|].
      right. intros Hd. apply D. apply (look_dep O Or k m Hd). }
    assert (Fn : forall g, In g hs -> match d (hp_name g) with Some _ => exists q, vget (index_of s) v (hp_name g) = Fin q | None => vget (index_of s) v (hp_name g) = NaN end).
    { intros g Hg. destruct (d (hp_name g)) as [u|] eqn:Ed.
      - apply (encodes_fin (index_of s) v d g u (so_constructed O g Hg) (En g Hg) Ed).
      - specialize (En g Hg). unfold encodes in En. rewrite Ed in En. exact En. }
    assert (Cnd : forall m, clos_trans _ (reads cs) k m -> conditional cs m).
    { intros m Hm. apply clos_trans_tn1 in Hm. destruct Hm as [m (c0 & H1 & H2 & _)|m m' (c0 & H1 & H2 & _) _]; exists c0; auto. }
    (* encodings *)
    assert (En' : forall g, In g hs -> encodes (index_of s) a d' g).
    { intros g Hg. unfold encodes. destruct (string_dec (hp_name g) k) as [Hk|Hk].
      - rewrite Hk, Hd'k. assert (g = h) by (apply Same; assumption). subst g. split; [exact Hl|]. exists y. split; [exact Hx|].
        rewrite Vk. exact Hxy.
      - unfold d'. apply String.eqb_neq in Hk. rewrite Hk. apply String.eqb_neq in Hk.
        assert (Ge : get_hp s (hp_name g) = Some g) by (apply (so_get_hp O); auto). rewrite Ge. simpl.
        assert (Eg := En g Hg). unfold encodes in Eg. specialize (Fn g Hg).
        assert (Old : forall u, d (hp_name g) = Some u -> vget (index_of s) a (hp_name g) = vget (index_of s) v (hp_name g) ->
          match match vget (index_of s) a (hp_name g) with NaN => None | _ => Some u end with
          | Some w0 => legal_value g w0 = true /\ exists x0, to_vector g w0 = Ok x0 /\ fsame (vget (index_of s) a (hp_name g)) x0
          | None => vget (index_of s) a (hp_name g) = NaN end).
        { intros u Hu Ha. rewrite Hu in Eg, Fn. destruct Fn as (q & Hq). rewrite Ha. rewrite Hq in Eg |- *. exact Eg. }
        destruct (Dep (hp_name g)) as [Hd|Hd].
        + destruct (Cnd _ Hd) as (c0 & Hc0 & Ha0). specialize (Vd g c0 Hg Hd Hc0 Ha0).
          destruct (sat_vec (index_of s) a c0); [|rewrite Vd; reflexivity].
          destruct (d (hp_name g)) as [u|] eqn:Ed.
          * apply (Old u eq_refl). destruct Fn as (q & Hq). rewrite Vd, Hq. reflexivity.
          * rewrite Fn in Vd. simpl in Vd. assert (Dk := default_entry_ok g (so_constructed O g Hg)). rewrite Vd.
            destruct (legal_finite g (hp_default g) (so_constructed O g Hg) (C37_default_legal g (so_constructed O g Hg))) as (q & Hq).
            assert (Eq : default_entry g = Fin q) by congruence. rewrite Eq. split; [apply C37_default_legal, (so_constructed O g Hg)|].
            exists (Fin q). split; [exact Hq|apply fsame_refl].
        + specialize (Von g Hg Hk Hd). destruct (d (hp_name g)) as [u|] eqn:Ed; [apply (Old u eq_refl Von)|].
          rewrite Von, Fn. reflexivity. }
    assert (Non : forall m, m <> k -> ~ clos_trans _ (reads cs) k m -> forall g, In g hs -> hp_name g = m -> d' m = d m).
    { intros m Hk Hd g Hg <-. unfold d'. apply String.eqb_neq in Hk. rewrite Hk. apply String.eqb_neq in Hk.
      rewrite (Von g Hg Hk Hd). specialize (Fn g Hg). destruct (d (hp_name g)) as [u|]; [destruct Fn as (q & ->); reflexivity|rewrite Fn; reflexivity]. }
    assert (Rt : forall g, In g hs -> ~ conditional cs (hp_name g) -> d' (hp_name g) <> None).
    { intros g Hg Hc. destruct (string_dec (hp_name g) k) as [Hk|Hk]; [rewrite Hk, Hd'k; discriminate|].
      rewrite (Non (hp_name g) Hk (fun Hd => Hc (Cnd _ Hd)) g Hg eq_refl). apply (va_active _ _ _ _ V); [exact Hg|].
      intros c0 Hc0 Ha0. exfalso. apply Hc. exists c0. auto. }
    assert (Rt0 : forall g, In g hs -> ~ conditional cs (hp_name g) -> d (hp_name g) <> None).
    { intros g Hg Hc. apply (va_active _ _ _ _ V); [exact Hg|]. intros c0 Hc0 Ha0. exfalso. apply Hc. exists c0. auto. }
    assert (Act := encodes_active O a d' R NS En' Rt). assert (Act0 := encodes_active O v d R NS En Rt0).
    assert (ActNon : forall m, ~ clos_trans _ (reads cs) k m -> (active cs d' m <-> active cs d m)).
    { intros m Hd. destruct (conditional_dec O m) as [(c0 & Hc0 & Ha0)|Hc].
      - rewrite <- (Act m c0 Hc0 Ha0), <- (Act0 m c0 Hc0 Ha0), (Vs m c0 Hd Hc0 Ha0). tauto.
      - split; intros _ c0 Hc0 Ha0; exfalso; apply Hc; exists c0; auto. }
    assert (Kact : active cs d' k).
    { apply ActNon; [apply (so_no_cycle O)|]. apply (va_active _ _ _ _ V); assumption. }
    assert (AllAct : forall g, In g hs -> hp_name g <> k ->
       (active cs d' (hp_name g) -> d' (hp_name g) = Some (match d (hp_name g) with Some u => u | None => hp_default g end)) /\
       (~ active cs d' (hp_name g) -> d' (hp_name g) = None)).
    { intros g Hg Hk. assert (Ge : get_hp s (hp_name g) = Some g) by (apply (so_get_hp O); auto).
      destruct (Dep (hp_name g)) as [Hd|Hd].
      - destruct (Cnd _ Hd) as (c0 & Hc0 & Ha0). specialize (Vd g c0 Hg Hd Hc0 Ha0). rewrite <- (Act _ c0 Hc0 Ha0).
        unfold d'. apply String.eqb_neq in Hk. rewrite Hk, Ge. simpl. specialize (Fn g Hg).
        destruct (sat_vec (index_of s) a c0).
        + split; [intros _|congruence]. destruct (d (hp_name g)) as [u|].
          * destruct Fn as (q & Hq). rewrite Vd, Hq. reflexivity.
          * rewrite Fn in Vd. simpl in Vd. rewrite Vd.
            destruct (legal_finite g (hp_default g) (so_constructed O g Hg) (C37_default_legal g (so_constructed O g Hg))) as (q & Hq).
            assert (Eq := default_entry_ok g (so_constructed O g Hg)). rewrite Hq in Eq. inversion Eq. reflexivity.
        + split; [discriminate|]. intros _. rewrite Vd. reflexivity.
      - rewrite (Non (hp_name g) Hk Hd g Hg eq_refl), (ActNon _ Hd), <- (va_active _ _ _ _ V g Hg).
        destruct (d (hp_name g)) as [u|]; split; try congruence. intros K. exfalso. apply K. discriminate. }
    exists d'. split; [split; [exact Hd'k|exact AllAct]|]. split; [exact En'|].
    assert (Vals : forall g u, In g hs -> d' (hp_name g) = Some u -> (g = h /\ u = w) \/ d (hp_name g) = Some u \/ u = hp_default g).
    { intros g u Hg Hu. destruct (string_dec (hp_name g) k) as [Hk|Hk].
      - left. split; [apply Same; assumption|]. congruence.
      - right. unfold d' in Hu. apply String.eqb_neq in Hk. rewrite Hk in Hu. rewrite (proj2 (so_get_hp O (hp_name g) g) (conj Hg eq_refl)) in Hu. simpl in Hu.
        destruct (vget (index_of s) a (hp_name g)); try discriminate; destruct (d (hp_name g)); inversion Hu; auto. }
    split; [|split; [|split]].
    - intros g u Hg Hu. destruct (Vals g u Hg Hu) as [(->, ->)|[K| ->]]; [exact He|apply (Ex g u Hg K)|apply default_exact, (so_constructed O g Hg)].
    - intros g u Hg Hu. destruct (Vals g u Hg Hu) as [(->, ->)|[K| ->]]; [exact Hl|apply (va_legal _ _ _ _ V g u Hg K)|apply C37_default_legal, (so_constructed O g Hg)].
    - intros g Hg. destruct (string_dec (hp_name g) k) as [Hk|Hk].
      + rewrite Hk, Hd'k. split; [intros _; exact Kact|discriminate].
      + destruct (AllAct g Hg Hk) as [A1 A2]. split.
        * intros Hn. destruct (conditional_dec O (hp_name g)) as [(c0 & Hc0 & Ha0)|Hc].
          -- apply (Act _ c0 Hc0 Ha0). destruct (sat_vec (index_of s) a c0) eqn:Es; [reflexivity|]. exfalso. apply Hn. apply A2.
             rewrite <- (Act _ c0 Hc0 Ha0), Es. discriminate.
          -- intros c0 Hc0 Ha0. exfalso. apply Hc. exists c0. auto.
        * intros Ha. rewrite (A1 Ha). discriminate.
    - intros g Hg Hk Hd. apply (Non (hp_name g) Hk Hd g Hg eq_refl).
  Qed.

  Lemma change_represents s hs cs fs c d h w x i : tame s hs cs fs -> orderly cs ->
    represents s hs c d -> valid hs cs fs d -> exact_all hs d ->
    In h hs -> d (hp_name h) <> None -> legal_value h w = true -> exact_value h w ->
    to_vector h w = Ok x -> assoc (hp_name h) (index_of s) = Some i ->
    let a := change_hp_value s (c_vector c) (hp_name h) x i in
    exists d', updated hs cs d (hp_name h) w d' /\ (forall g, In g hs -> encodes (index_of s) a d' g) /\ exact_all hs d' /\
      all_legal hs d' /\ (forall g, In g hs -> (d' (hp_name g) <> None <-> active cs d' (hp_name g))).
  Proof.
    intros T Or Rep V Ex Hh Hset Hl He Hx Hi.
    destruct (change_represents_entry s hs cs fs c d h w x x i T Or Rep V Ex Hh Hset Hl He Hx (fsame_refl x) Hi)
      as (d' & H1 & H2 & H3 & H4 & H5 & _). exists d'. auto.
  Qed.

  Theorem C20_succeeds_partial s hs cs fs c d h w : tame s hs cs fs -> orderly cs ->
    represents s hs c d -> valid hs cs fs d -> exact_all hs d ->
    In h hs -> d (hp_name h) <> None -> legal_value h w = true -> exact_value h w ->
    exists d', updated hs cs d (hp_name h) w d' /\ exact_all hs d' /\
      ((forall f, In f fs -> ~ violated d' f) ->
         valid hs cs fs d' /\ exists c', setitem s c (hp_name h) w = (c', Ok tt) /\ represents s hs c' d') /\
      (~ (forall f, In f fs -> ~ violated d' f) -> exists e, setitem s c (hp_name h) w = (c, Err e)).
  Proof.
    intros T Or Rep V Ex Hh Hset Hl He. assert (T' := T). destruct T' as [B R M NS Cmp]. assert (O := built_ok _ _ _ _ B).
    destruct (so_hp_index O h Hh) as (i & Hi & _). destruct (legal_finite h w (so_constructed O h Hh) Hl) as (q & Hq).
    destruct (change_represents s hs cs fs c d h w (Fin q) i T Or Rep V Ex Hh Hset Hl He Hq Hi) as (d' & U & En & Ex' & Al & Ac).
    assert (La : length (change_hp_value s (c_vector c) (hp_name h) (Fin q) i) = s_len s).
    { apply (C26_local s hs cs fs _ _ _ _ B (proj1 Rep) Hi). }
    assert (Eg : get_hp s (hp_name h) = Some h) by (apply (so_get_hp O); auto).
    destruct (encodes_check O _ d' false R M NS En Ex') as [C1 C2].
    exists d'. split; [exact U|]. split; [exact Ex'|]. split.
    - intros Nv. split; [constructor; assumption|].
      exists (mk_config (change_hp_value s (c_vector c) (hp_name h) (Fin q) i) None (c_allow c)).
      split; [|split; [exact La|exact En]]. unfold setitem. rewrite Eg, Hl, Hi, Hq. rewrite C2; try assumption.
      + reflexivity.
      + intros g Hg. apply (Ac g Hg).
      + intros _ g Hg. apply (Ac g Hg).
    - intros Nv. unfold setitem. rewrite Eg, Hl, Hi, Hq.
      destruct (check_configuration s (change_hp_value s (c_vector c) (hp_name h) (Fin q) i) false) as [[]|e] eqn:Ec; [|eauto].
      exfalso. apply Nv. apply (C1 eq_refl).
  Qed.

  (** the outcome is determined *)
  Theorem C20_unique s hs cs fs d k w d1 d2 : built s hs cs fs -> refs hs cs fs ->
    updated hs cs d k w d1 -> updated hs cs d k w d2 -> forall h, In h hs -> d1 (hp_name h) = d2 (hp_name h).
  Proof.
    intros B R U1 U2. assert (O := built_ok _ _ _ _ B).
    assert (Dec : forall a b : option value, {a = b} + {a <> b}).
    { repeat decide equality. }
    assert (G : forall n h, In h hs -> depth_of (d_nodes (s_dag s)) (hp_name h) <= n -> d1 (hp_name h) = d2 (hp_name h)).
    { induction n as [|n IH]; intros h Hh Hn.
      - exfalso. assert (Ik : In (hp_name h) (keys s)).
        { eapply Permutation_in; [symmetry; apply (so_keys O)|]. apply in_map. exact Hh. }
        destruct (so_longest O _ Ik) as [_ Lg]. specialize (Lg 1 (chain_one _ _)). lia.
      - destruct (string_dec (hp_name h) k) as [->|Hk]; [rewrite (proj1 U1), (proj1 U2); reflexivity|].
        assert (A : active cs d1 (hp_name h) <-> active cs d2 (hp_name h)).
        { assert (Hc : forall c, In c cs -> activates c (hp_name h) -> (holds d1 c <-> holds d2 c)).
          { intros c Hc Ha. apply holds_ext. intros l Hl.
            destruct (proj1 R c Hc l Hl) as [_ Hp]. apply (IH (l_parent l) Hp).
            assert (Rd : reads cs (hp_name (l_parent l)) (hp_name h)).
            { exists c. split; [exact Hc|]. split; [exact Ha|]. unfold cond_parents. apply in_map_iff. exists l. split; [reflexivity|exact Hl]. }
            assert (Ip : In (hp_name (l_parent l)) (keys s)).
            { eapply Permutation_in; [symmetry; apply (so_keys O)|]. apply in_map. exact Hp. }
            assert (Ih : In (hp_name h) (keys s)).
            { eapply Permutation_in; [symmetry; apply (so_keys O)|]. apply in_map. exact Hh. }
            destruct (so_longest O _ Ip) as [Cp _]. destruct (so_longest O _ Ih) as [_ Lh].
            specialize (Lh _ (chain_more _ _ _ _ Cp Rd)). lia. }
          split; intros K c Hc' Ha; apply (Hc c Hc' Ha), K; assumption. }
        destruct (proj2 U1 h Hh Hk) as [P1 P2], (proj2 U2 h Hh Hk) as [Q1 Q2].
        destruct (Dec (d1 (hp_name h)) (d2 (hp_name h))) as [Eq|Ne]; [exact Eq|]. exfalso.
        assert (Na : ~ active cs d1 (hp_name h)).
        { intros K. apply Ne. rewrite (P1 K), (Q1 (proj1 A K)). reflexivity. }
        apply Ne. rewrite (P2 Na), Q2; [reflexivity|]. rewrite <- A. exact Na. }
    intros h Hh. eapply G; eauto.
  Qed.

  (** what the assignment does to the values read from the configuration *)
  Theorem C20_reads_partial s hs cs fs c d h w : tame s hs cs fs -> orderly cs ->
    represents s hs c d -> valid hs cs fs d -> exact_all hs d ->
    In h hs -> d (hp_name h) <> None -> legal_value h w = true -> exact_value h w ->
    forall d' c', updated hs cs d (hp_name h) w d' -> setitem s c (hp_name h) w = (c', Ok tt) ->
    forall g, In g hs -> match d' (hp_name g) with
      | Some u => exists z, getitem s c' (hp_name g) = Ok z /\ py_eqb z (round_value g u) = true
      | None => getitem s c' (hp_name g) = Err KeyError
      end.
  Proof.
    intros T Or Rep V Ex Hh Hset Hl He d' c' U S g Hg.
    destruct (C20_succeeds_partial s hs cs fs c d h w T Or Rep V Ex Hh Hset Hl He) as (d1 & U1 & Ex1 & K1 & K2).
    assert (B := tm_built _ _ _ _ T). assert (O := built_ok _ _ _ _ B).
    rewrite (C20_unique s hs cs fs d (hp_name h) w d' d1 B (tm_refs _ _ _ _ T) U U1 g Hg).
    destruct (setitem_ok _ _ _ _ _ _ _ _ O S) as (h' & x & i & Hh' & Hn' & Hi & _ & Hx & Hc & ->).
    assert (h' = h) by (apply (same_hp hs); auto using (so_names_nodup O)). subst h'.
    destruct (change_represents s hs cs fs c d h w x i T Or Rep V Ex Hh Hset Hl He Hx Hi) as (d2 & U2 & En2 & Ex2 & _).
    rewrite (C20_unique s hs cs fs d (hp_name h) w d1 d2 B (tm_refs _ _ _ _ T) U1 U2 g Hg).
    assert (Rv := read_vector O _ d2 (c_allow c) g Hg (En2 g Hg)).
    destruct (d2 (hp_name g)) as [u|] eqn:Eu; [|exact Rv]. apply Rv. apply (Ex2 g u Hg Eu).
  Qed.

  (** ** Which spaces are orderly *)
  (** every condition asks about one hyperparameter *)
  Theorem C20_guard_single s hs cs fs : built s hs cs fs -> refs hs cs fs ->
    (forall c p p', In c cs -> In p (cond_parents c) -> In p' (cond_parents c) -> p = p') -> orderly cs.
  Proof.
    intros B R Sg. assert (O := built_ok _ _ _ _ B).
    assert (Ne : forall c, In c cs -> exists p, In p (cond_parents c)).
    { intros c Hc. apply cond_parents_ne, cond_built_good, (so_cond_built O c Hc). }
    constructor.
    - intros c c' p Hc Hc' Eq Hp. destruct (Ne c Hc) as (p0 & Hp0). rewrite (Sg c' p p0 Hc' Hp); [exact Hp0|].
      apply (cond_equiv_parents c c' Eq). exact Hp0.
    - intros c c' p Hc Hc' Hp Ha. destruct (Ne c' Hc') as (q & Hq).
      assert (Ik : In q (keys s)).
      { unfold cond_parents in Hq. apply in_map_iff in Hq. destruct Hq as (l & <- & Hl).
        eapply Permutation_in; [symmetry; apply (so_keys O)|]. unfold parent_name. apply in_map. apply (proj1 R c' Hc' l Hl). }
      exists q, (depth_of (d_nodes (s_dag s)) q). split; [exact Hq|]. assert (Lq := so_longest O q Ik). split; [exact Lq|].
      intros q' i' Hq' [_ Lg]. rewrite (Sg c q' p Hc Hq' Hp) in Lg.
      specialize (Lg _ (chain_more _ _ _ _ (proj1 Lq) (ex_intro _ c' (conj Hc' (conj Ha Hq))))). lia.
  Qed.
  (** the hyperparameters lie on levels, and conditions ask about the level just above *)
  Theorem C20_guard_levels s hs cs fs (lv : string -> nat) : built s hs cs fs ->
    (forall c, In c cs -> distinct c) -> (forall n, 1 <= lv n) ->
    (forall p n, reads cs p n -> lv n = S (lv p)) -> (forall n, 1 < lv n -> exists p, reads cs p n) -> orderly cs.
  Proof.
    intros B D L1 Lr Lp. assert (O := built_ok _ _ _ _ B).
    assert (Lc : forall n k, chain cs n k -> k <= lv n).
    { induction 1 as [n|p n k _ IH Rd]; [apply L1|]. rewrite (Lr p n Rd). lia. }
    assert (Lx : forall m n, lv n = m -> chain cs n m).
    { induction m as [|m IH]; intros n Hm; [specialize (L1 n); lia|]. destruct m as [|m]; [constructor|].
      destruct (Lp n ltac:(lia)) as (p & Rd). econstructor; [|exact Rd]. apply IH. specialize (Lr p n Rd). lia. }
    assert (Lg : forall n, longest cs n (lv n)) by (intros n; split; auto).
    assert (Lu : forall n i, longest cs n i -> i = lv n) by (intros n i K; eapply (longest_unique (cs := cs)); eauto).
    constructor.
    - intros c c' p Hc Hc' Eq Hp. apply (cond_equiv_parents c' c); [|exact Hp].
      apply cond_equiv_sym; auto; apply cond_good_wf, cond_built_good, (so_cond_built O); assumption.
    - intros c c' p Hc Hc' Hp Ha. destruct (cond_parents_ne c' (cond_built_good c' (so_cond_built O c' Hc'))) as (q & Hq).
      exists q, (lv q). split; [exact Hq|]. split; [apply Lg|]. intros q' i' Hq' Hi'. rewrite (Lu _ _ Hi').
      destruct (cond_child_ex c (cond_built_good c (so_cond_built O c Hc))) as (n & Hn).
      assert (K1 := Lr q' n (ex_intro _ c (conj Hc (conj Hn Hq')))). assert (K2 := Lr p n (ex_intro _ c (conj Hc (conj Hn Hp)))).
      assert (K3 := Lr q p (ex_intro _ c' (conj Hc' (conj Ha Hq)))). lia.
  Qed.

  (** a configuration made from values represents them *)
  Theorem C20_start s hs cs fs vals d allow c : built s hs cs fs -> stored hs (given vals) d ->
    config_of_values s vals allow = Ok c -> represents s hs c d.
  Proof.
    intros B St H. assert (O := built_ok _ _ _ _ B). apply (config_of_values_ok O) in H.
    destruct H as (_ & AL & vec & cache & _ & F & _ & ->). simpl. destruct F as (Lv & F & _). split; [exact Lv|].
    intros h Hh. specialize (F h Hh). specialize (St h Hh). rewrite St. destruct (given vals (hp_name h)) as [w|] eqn:Ew; simpl.
    - split; [apply round_legal; [apply (so_constructed O h Hh)|apply (AL h w Hh Ew)]|].
      eexists. split; [apply F|apply fsame_refl].
    - apply F.
  Qed.

  Lemma stored_exact hs d d' : stored hs d d' -> exact_all hs d -> exact_all hs d'.
  Proof.
    intros St Ex h w Hh Hw. rewrite (St h Hh) in Hw. destruct (d (hp_name h)) as [u|] eqn:Eu; [|discriminate].
    simpl in Hw. inversion Hw; subst. apply round_exact. apply (Ex h u Hh Eu).
  Qed.

  (** ** C19 for sequences: after any assignments, some of which may have raised, the
      configuration is accepted by the library's check *)
  Theorem C19_sequence s hs cs fs c (ops : list (string * value)) : built s hs cs fs ->
    check_configuration s (c_vector c) false = Ok tt -> length (c_vector c) = s_len s ->
    let c' := fold_left (fun c kw => fst (setitem s c (fst kw) (snd kw))) ops c in
    check_configuration s (c_vector c') false = Ok tt /\ length (c_vector c') = s_len s.
  Proof.
    intros B. assert (O := built_ok _ _ _ _ B). cbv zeta. revert c. induction ops as [|[k w] ops IH]; intros c Hc Lv; [simpl; auto|].
    simpl. destruct (setitem s c k w) as [c1 [[]|e]] eqn:Es; simpl.
    - destruct (setitem_ok _ _ _ _ _ _ _ _ O Es) as (h & x & i & _ & _ & Hi & _ & _ & Hk & ->). apply IH; [exact Hk|].
      apply (C26_local s hs cs fs _ _ _ _ B Lv Hi).
    - rewrite (C19_failure _ _ _ _ _ _ Es). apply IH; assumption.
  Qed.
End ChangeProps.

Section Witness.
  #[local] Existing Instance rat_env.

  (** ** A space on three levels *)
  Definition cCg1 := get_or dummy_cond (mk_bin OpEq hC hG (VStr "p")).
  Definition cCg := get_or dummy_cond (mk_and [cC1; cCg1]).
  Definition lev_conds := [cB; cCg; cE; cG].
  Definition lev_space := fst (add empty_space ex_hps lev_conds ex_forbs).
  Lemma cCg_c : cond_built cCg.
  Proof.
    apply (CB_and [cC1; cCg1] cCg); [|vm_compute; reflexivity]. intros x [<-|[<-|[]]]; [apply cC1_c|].
    apply (CB_bin OpEq hC hG (VStr "p") cCg1 hC_c hG_c); vm_compute; reflexivity.
  Qed.
  Lemma lev_built : built lev_space ex_hps lev_conds ex_forbs.
  Proof.
    apply (built_step empty_space [] [] [] ex_hps lev_conds ex_forbs built_empty ex_hps_c); [|apply ex_forbs_c|vm_compute; reflexivity].
    constructor; [apply cB_c|]. constructor; [apply cCg_c|]. constructor; [apply cE_c|]. constructor; [apply cG_c|constructor].
  Qed.
  Lemma lev_refs : refs ex_hps lev_conds ex_forbs.
  Proof.
    split; [|apply ex_refs]. intros c Hc l Hl.
    destruct Hc as [<-|[<-|[<-|[<-|[]]]]]; vm_compute in Hl; repeat (destruct Hl as [<-|Hl]; [split; vm_compute; tauto|]); tauto.
  Qed.
  Lemma lev_tame : tame lev_space ex_hps lev_conds ex_forbs.
  Proof.
    constructor; [apply lev_built|apply lev_refs| | |apply ex_cmp].
    - intros c d v Hc Hd H.
      destruct Hc as [<-|[<-|[<-|[<-|[]]]]]; destruct Hd as [<-|[<-|[<-|[<-|[]]]]];
        first [reflexivity | exfalso; revert H; vm_compute; discriminate].
    - intros c l w vv Hc Hl Ht. destruct Hc as [<-|[<-|[<-|[<-|[]]]]]; vm_compute in Hl;
        repeat (destruct Hl as [<-|Hl]; [exfalso; clear -Ht; vm_compute in Ht; discriminate Ht|]); destruct Hl.
  Qed.
  Definition lev (n : string) : nat :=
    if String.eqb n "c" then 3 else if str_in n ["b"; "g"; "e"]%string then 2 else 1.
  Lemma lev_reads p n : reads lev_conds p n <->
    (p = "a" /\ n = "b" \/ p = "b" /\ n = "c" \/ p = "g" /\ n = "c" \/ p = "a" /\ n = "e" \/ p = "o" /\ n = "e" \/ p = "a" /\ n = "g")%string.
  Proof.
    split.
    - intros (c & Hc & Ha & Hp). destruct Hc as [<-|[<-|[<-|[<-|[]]]]]; vm_compute in Ha; inversion Ha; subst; vm_compute in Hp;
        repeat (destruct Hp as [<-|Hp]; [tauto|]); destruct Hp.
    - intros [[-> ->]|[[-> ->]|[[-> ->]|[[-> ->]|[[-> ->]|[-> ->]]]]]];
        [exists cB|exists cCg|exists cCg|exists cE|exists cE|exists cG]; (split; [vm_compute; tauto|split; vm_compute; tauto]).
  Qed.
  Lemma lev_distinct c : In c lev_conds -> distinct c.
  Proof.
    assert (G : forall a b, cond_equiv a b = false -> pairwise_distinct [a; b]).
    { intros a b H i j x y Hij Hx Hy. destruct i as [|[|[|i]]]; simpl in Hx; inversion Hx; subst;
        destruct j as [|[|[|j]]]; simpl in Hy; inversion Hy; subst; try lia. exact H. }
    intros Hc. vm_compute in Hc. destruct Hc as [<-|[<-|[<-|[<-|[]]]]].
    - exact I.
    - split; [|vm_compute; tauto]. apply G. vm_compute. reflexivity.
    - split; [|vm_compute; tauto]. apply G. vm_compute. reflexivity.
    - exact I.
  Qed.
  Lemma lev_orderly : orderly lev_conds.
  Proof.
    assert (LA := rat_env_laws). apply (C20_guard_levels lev_space ex_hps lev_conds ex_forbs lev lev_built lev_distinct).
    - intros n. unfold lev. destruct (String.eqb n "c"), (str_in n ["b"; "g"; "e"]%string); lia.
    - intros p n H. apply lev_reads in H. destruct H as [[-> ->]|[[-> ->]|[[-> ->]|[[-> ->]|[[-> ->]|[-> ->]]]]]]; reflexivity.
    - intros n H. destruct (string_dec n "c") as [->|Hn]; [exists "b"%string; apply lev_reads; tauto|].
      exists "a"%string. apply lev_reads. unfold lev in H. apply String.eqb_neq in Hn. rewrite Hn in H.
      destruct (str_in n ["b"; "g"; "e"]%string) eqn:Es; [|lia]. apply str_in_iff in Es. destruct Es as [<-|[<-|[<-|[]]]]; tauto.
  Qed.

  Definition lev_config := get_or (mk_config [] None false) (config_of_values lev_space ex_vals false).
  Lemma lev_ok : config_of_values lev_space ex_vals false = Ok lev_config.
  Proof. vm_compute. reflexivity. Qed.
  (** setting a to z switches b, g and c off and leaves the others *)
  Example C20_ex : tame lev_space ex_hps lev_conds ex_forbs /\ orderly lev_conds /\
    represents lev_space ex_hps lev_config (store ex_hps (given ex_vals)) /\
    valid ex_hps lev_conds ex_forbs (store ex_hps (given ex_vals)) /\ exact_all ex_hps (store ex_hps (given ex_vals)) /\
    match setitem lev_space lev_config "a"%string (VStr "z") with
    | (c', Ok tt) => map (getitem lev_space lev_config) ["a"; "c"; "g"]%string = [Ok (VStr "x"); Ok (VInt 3); Ok (VStr "p")] /\
        map (getitem lev_space c') ["a"; "b"; "c"; "g"]%string = [Ok (VStr "z"); Err KeyError; Err KeyError; Err KeyError] /\
        map (getitem lev_space c') ["e"; "k"; "l"; "n"; "o"]%string = map (getitem lev_space lev_config) ["e"; "k"; "l"; "n"; "o"]%string
    | _ => False
    end.
  Proof.
    assert (LA := rat_env_laws). assert (St := store_stored ex_hps (given ex_vals) ex_nodup).
    split; [exact lev_tame|]. split; [exact lev_orderly|].
    split; [exact (C20_start _ _ _ _ _ _ _ _ lev_built St lev_ok)|].
    split; [|split; [exact (stored_exact _ _ _ St ex_exact)|vm_compute; repeat split; reflexivity]].
    apply (C17_accepts_valid_partial lev_space ex_hps lev_conds ex_forbs ex_vals _ lev_tame St ex_exact).
    exists lev_config. exact lev_ok.
  Qed.

  (** setting a to y is forbidden together with n = 4, and leaves the configuration alone *)
  Example C19_ex : match setitem lev_space lev_config "n"%string (VInt 4) with
    | (c1, Ok tt) => setitem lev_space c1 "a"%string (VStr "y") = (c1, Err ForbiddenValueError)
    | _ => False
    end /\ setitem lev_space lev_config "a"%string (VStr "w") = (lev_config, Err IllegalValueError).
  Proof. vm_compute. split; reflexivity. Qed.
  (** C26: g, which also depends on a, does not depend on b *)
  Example C26_ex : assoc "b"%string (index_of lev_space) = Some 5 /\ length (c_vector lev_config) = s_len lev_space /\
    let v := change_hp_value lev_space (c_vector lev_config) "b" (Fin (1#8)) 5 in
    vget (index_of lev_space) v "c"%string = NaN /\ vget (index_of lev_space) v "g"%string = vget (index_of lev_space) (c_vector lev_config) "g"%string.
  Proof. vm_compute. repeat split; reflexivity. Qed.

  (** ** C19: floats are read back with 13 decimals *)
  Theorem C19_refuted : exists s hs cs fs c c' w z, built s hs cs fs /\ tame s hs cs fs /\ check_configuration s (c_vector c) false = Ok tt /\
    setitem s c "b"%string w = (c', Ok tt) /\ getitem s c' "b"%string = Ok z /\ py_eqb z w = false.
  Proof.
    exists lev_space, ex_hps, lev_conds, ex_forbs, lev_config, (fst (setitem lev_space lev_config "b"%string (VFloat (1#3)))), (VFloat (1#3)),
      (VFloat (round13 (1#3))).
    split; [exact lev_built|]. split; [exact lev_tame|]. split; [vm_compute; reflexivity|]. split; [vm_compute; reflexivity|].
    split; vm_compute; reflexivity.
  Qed.

  (** ** C20 is false: z depends on r through y, but is not recomputed when r changes *)
  Definition bin (n : string) : hp := get_or dummy_hp (mk_categorical n (xs ["0"; "1"]%string) (Some (VStr "1")) None None).
  Lemma bin_c n : constructed (bin n).
  Proof. apply (CtorCat n (xs ["0"; "1"]%string) (Some (VStr "1")) None None (bin n)). reflexivity. Qed.
  Definition on (w c p : string) : cond := get_or dummy_cond (mk_bin OpEq (bin c) (bin p) (VStr w)).
  Definition bin_hps := [bin "r"; bin "q"; bin "x"; bin "y"; bin "z"].
  Lemma bin_hps_c : Forall constructed bin_hps.
  Proof. repeat (constructor; [apply bin_c|]). constructor. Qed.
  Definition deep_and := get_or dummy_cond (mk_and [on "1" "z" "y"; on "1" "z" "q"]).
  Definition deep_conds := [on "1" "x" "r"; on "1" "y" "x"; deep_and].
  Definition deep_space := fst (add empty_space bin_hps deep_conds []).
  Lemma deep_built : built deep_space bin_hps deep_conds [].
  Proof.
    apply (built_step empty_space [] [] [] bin_hps deep_conds [] built_empty bin_hps_c); [|constructor|vm_compute; reflexivity].
    constructor; [apply (CB_bin OpEq (bin "x") (bin "r") (VStr "1") _ (bin_c _) (bin_c _)); vm_compute; reflexivity|].
    constructor; [apply (CB_bin OpEq (bin "y") (bin "x") (VStr "1") _ (bin_c _) (bin_c _)); vm_compute; reflexivity|].
    constructor; [|constructor]. apply (CB_and [on "1" "z" "y"; on "1" "z" "q"] deep_and); [|vm_compute; reflexivity].
    intros c [<-|[<-|[]]].
    - apply (CB_bin OpEq (bin "z") (bin "y") (VStr "1") _ (bin_c _) (bin_c _)); vm_compute; reflexivity.
    - apply (CB_bin OpEq (bin "z") (bin "q") (VStr "1") _ (bin_c _) (bin_c _)); vm_compute; reflexivity.
  Qed.
  Lemma deep_tame : tame deep_space bin_hps deep_conds [].
  Proof.
    constructor; [apply deep_built| | | |intros f []].
    - split; [|intros f []]. intros c Hc l Hl.
      destruct Hc as [<-|[<-|[<-|[]]]]; vm_compute in Hl; repeat (destruct Hl as [<-|Hl]; [split; vm_compute; tauto|]); tauto.
    - intros c d v Hc Hd H. destruct Hc as [<-|[<-|[<-|[]]]]; destruct Hd as [<-|[<-|[<-|[]]]];
        first [reflexivity | exfalso; revert H; vm_compute; discriminate].
    - intros c l w vv Hc Hl Ht. destruct Hc as [<-|[<-|[<-|[]]]]; vm_compute in Hl;
        repeat (destruct Hl as [<-|Hl]; [exfalso; clear -Ht; vm_compute in Ht; discriminate Ht|]); destruct Hl.
  Qed.
  Definition deep_vals : list (string * option value) := map (fun n => (n, Some (VStr "1"))) ["r"; "q"; "x"; "y"; "z"]%string.
  Definition deep_config := get_or (mk_config [] None false) (config_of_values deep_space deep_vals false).
  Lemma deep_ok : config_of_values deep_space deep_vals false = Ok deep_config.
  Proof. vm_compute. reflexivity. Qed.
  Lemma bin_nodup : NoDup (map hp_name bin_hps).
  Proof. assert (LA := rat_env_laws). exact (so_names_nodup (built_ok _ _ _ _ deep_built)). Qed.
  Lemma bin_exact d : exact_all bin_hps d.
  Proof. intros h w Hh _. repeat (destruct Hh as [<-|Hh]; [exact I|]). destruct Hh. Qed.
  Definition deep_new : assignment := given [("r", Some (VStr "0")); ("q", Some (VStr "1"))]%string.
  Lemma deep_updated : updated bin_hps deep_conds (store bin_hps (given deep_vals)) "r" (VStr "0") deep_new.
  Proof.
    split; [reflexivity|]. intros h Hh Hk. repeat (destruct Hh as [<-|Hh]; [|]); [| | | | |destruct Hh].
    - exfalso. apply Hk. reflexivity.
    - split; [reflexivity|]. intros A. exfalso. apply A. intros c [<-|[<-|[<-|[]]]] K; exfalso; clear -K; vm_compute in K; discriminate K.
    - split; [|reflexivity]. intros A. exfalso. specialize (A (on "1" "x" "r") ltac:(vm_compute; tauto) ltac:(vm_compute; reflexivity)).
      vm_compute in A. destruct A as (w & Hw & A). inversion Hw; subst. discriminate A.
    - split; [|reflexivity]. intros A. exfalso. specialize (A (on "1" "y" "x") ltac:(vm_compute; tauto) ltac:(vm_compute; reflexivity)).
      vm_compute in A. destruct A as (w & Hw & A). discriminate Hw.
    - split; [|reflexivity]. intros A. exfalso. specialize (A deep_and ltac:(vm_compute; tauto) ltac:(vm_compute; reflexivity)).
      vm_compute in A. destruct A as ((w & Hw & A) & _). discriminate Hw.
  Qed.
  Theorem C20_refuted : exists s hs cs fs c d h w, tame s hs cs fs /\ represents s hs c d /\ valid hs cs fs d /\ exact_all hs d /\
    In h hs /\ d (hp_name h) <> None /\ legal_value h w = true /\ exact_value h w /\
    (exists d', updated hs cs d (hp_name h) w d' /\ forall f, In f fs -> ~ violated d' f) /\
    setitem s c (hp_name h) w = (c, Err InactiveHyperparameterSetError).
  Proof.
    assert (LA := rat_env_laws). assert (St := store_stored bin_hps (given deep_vals) bin_nodup).
    exists deep_space, bin_hps, deep_conds, [], deep_config, (store bin_hps (given deep_vals)), (bin "r"), (VStr "0").
    split; [exact deep_tame|]. split; [exact (C20_start _ _ _ _ _ _ _ _ deep_built St deep_ok)|].
    split.
    { apply (C17_accepts_valid_partial deep_space bin_hps deep_conds [] deep_vals _ deep_tame St (bin_exact _)).
      exists deep_config. exact deep_ok. }
    split; [apply bin_exact|]. split; [left; reflexivity|]. split; [vm_compute; discriminate|]. split; [vm_compute; reflexivity|].
    split; [exact I|]. split; [exists deep_new; split; [exact deep_updated|intros f []]|]. vm_compute. reflexivity.
  Qed.

  (** ... and an assignment can reset a value that stays active: z depends on x or y or q *)
  Definition reset_or := get_or dummy_cond (mk_or [on "1" "z" "x"; on "1" "z" "y"; on "1" "z" "q"]).
  Definition reset_conds := [on "1" "x" "r"; on "0" "y" "r"; reset_or].
  Definition reset_space := fst (add empty_space bin_hps reset_conds []).
  Lemma reset_built : built reset_space bin_hps reset_conds [].
  Proof.
    apply (built_step empty_space [] [] [] bin_hps reset_conds [] built_empty bin_hps_c); [|constructor|vm_compute; reflexivity].
    constructor; [apply (CB_bin OpEq (bin "x") (bin "r") (VStr "1") _ (bin_c _) (bin_c _)); vm_compute; reflexivity|].
    constructor; [apply (CB_bin OpEq (bin "y") (bin "r") (VStr "0") _ (bin_c _) (bin_c _)); vm_compute; reflexivity|].
    constructor; [|constructor]. apply (CB_or [on "1" "z" "x"; on "1" "z" "y"; on "1" "z" "q"] reset_or); [|vm_compute; reflexivity].
    intros c [<-|[<-|[<-|[]]]].
    - apply (CB_bin OpEq (bin "z") (bin "x") (VStr "1") _ (bin_c _) (bin_c _)); vm_compute; reflexivity.
    - apply (CB_bin OpEq (bin "z") (bin "y") (VStr "1") _ (bin_c _) (bin_c _)); vm_compute; reflexivity.
    - apply (CB_bin OpEq (bin "z") (bin "q") (VStr "1") _ (bin_c _) (bin_c _)); vm_compute; reflexivity.
  Qed.
  Lemma reset_tame : tame reset_space bin_hps reset_conds [].
  Proof.
    constructor; [apply reset_built| | | |intros f []].
    - split; [|intros f []]. intros c Hc l Hl.
      destruct Hc as [<-|[<-|[<-|[]]]]; vm_compute in Hl; repeat (destruct Hl as [<-|Hl]; [split; vm_compute; tauto|]); tauto.
    - intros c d v Hc Hd H. destruct Hc as [<-|[<-|[<-|[]]]]; destruct Hd as [<-|[<-|[<-|[]]]];
        first [reflexivity | exfalso; revert H; vm_compute; discriminate].
    - intros c l w vv Hc Hl Ht. destruct Hc as [<-|[<-|[<-|[]]]]; vm_compute in Hl;
        repeat (destruct Hl as [<-|Hl]; [exfalso; clear -Ht; vm_compute in Ht; discriminate Ht|]); destruct Hl.
  Qed.
  Definition reset_vals : list (string * option value) :=
    [("r", Some (VStr "1")); ("q", Some (VStr "0")); ("x", Some (VStr "1")); ("z", Some (VStr "0"))]%string.
  Definition reset_config := get_or (mk_config [] None false) (config_of_values reset_space reset_vals false).
  Lemma reset_ok : config_of_values reset_space reset_vals false = Ok reset_config.
  Proof. vm_compute. reflexivity. Qed.
  Definition reset_new : assignment :=
    given [("r", Some (VStr "0")); ("q", Some (VStr "0")); ("y", Some (VStr "1")); ("z", Some (VStr "0"))]%string.
  Lemma reset_updated : updated bin_hps reset_conds (store bin_hps (given reset_vals)) "r" (VStr "0") reset_new.
  Proof.
    split; [reflexivity|]. intros h Hh Hk. repeat (destruct Hh as [<-|Hh]; [|]); [| | | | |destruct Hh].
    - exfalso. apply Hk. reflexivity.
    - split; [reflexivity|]. intros A. exfalso. apply A. intros c [<-|[<-|[<-|[]]]] K; exfalso; clear -K; vm_compute in K; discriminate K.
    - split; [|reflexivity]. intros A. exfalso. specialize (A (on "1" "x" "r") ltac:(vm_compute; tauto) ltac:(vm_compute; reflexivity)).
      vm_compute in A. destruct A as (w & Hw & A). inversion Hw; subst. discriminate A.
    - split; [reflexivity|]. intros A. exfalso. apply A. intros c [<-|[<-|[<-|[]]]] K; try (exfalso; clear -K; vm_compute in K; discriminate K).
      vm_compute. exists (VStr "0"). split; reflexivity.
    - split; [reflexivity|]. intros A. exfalso. apply A. intros c [<-|[<-|[<-|[]]]] K; try (exfalso; clear -K; vm_compute in K; discriminate K).
      vm_compute. right. left. exists (VStr "1"). split; reflexivity.
  Qed.
  Theorem C20_reset_refuted : exists s hs cs fs c d h w c' d' , tame s hs cs fs /\ represents s hs c d /\ valid hs cs fs d /\ exact_all hs d /\
    In h hs /\ d (hp_name h) <> None /\ legal_value h w = true /\ exact_value h w /\
    updated hs cs d (hp_name h) w d' /\ (forall f, In f fs -> ~ violated d' f) /\
    setitem s c (hp_name h) w = (c', Ok tt) /\ d "z"%string = Some (VStr "0") /\ d' "z"%string = Some (VStr "0") /\
    getitem s c' "z"%string = Ok (VStr "1").
  Proof.
    assert (LA := rat_env_laws). assert (St := store_stored bin_hps (given reset_vals) bin_nodup).
    exists reset_space, bin_hps, reset_conds, [], reset_config, (store bin_hps (given reset_vals)), (bin "r"), (VStr "0"),
      (fst (setitem reset_space reset_config "r"%string (VStr "0"))), reset_new.
    split; [exact reset_tame|]. split; [exact (C20_start _ _ _ _ _ _ _ _ reset_built St reset_ok)|].
    split.
    { apply (C17_accepts_valid_partial reset_space bin_hps reset_conds [] reset_vals _ reset_tame St (bin_exact _)).
      exists reset_config. exact reset_ok. }
    split; [apply bin_exact|]. split; [left; reflexivity|]. split; [vm_compute; discriminate|]. split; [vm_compute; reflexivity|].
    split; [exact I|]. split; [exact reset_updated|]. split; [intros f []|]. split; [vm_compute; reflexivity|].
    split; [vm_compute; reflexivity|]. split; [vm_compute; reflexivity|]. vm_compute. reflexivity.
  Qed.
End Witness.
