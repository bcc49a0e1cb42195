(** * Properties C116: assignments reach every valid configuration, C117: the order of assignments *)
From Coq Require Import String List ZArith QArith Bool Lia Permutation Relations.
From Verif Require Import Base ListFacts Numeric NumericProofs HP HPProofs Cond Forb Dag DagProofs
  Space CommitProofs Spec SpaceProofs ForbProofs PassProofs EvalProofs ValidProofs ConfigProofs Ex Properties_Graph Properties_Config Properties_Change Properties_Exchange.
Import ListNotations.
Open Scope nat_scope.

(** ** Specification *)
Section Assign.
  Context {E : Env}.
  (** the assignments succeed one after the other *)
  Fixpoint assigns (s : space) (c : config) (ops : list (string * value)) (c' : config) : Prop :=
    match ops with
    | [] => c' = c
    | (k, w) :: ops' => exists c1, setitem s c k w = (c1, Ok tt) /\ assigns s c1 ops' c'
    end.
  (** some may fail, which the caller ignores *)
  Definition tries (s : space) (c : config) (ops : list (string * value)) : config :=
    fold_left (fun c kw => fst (setitem s c (fst kw) (snd kw))) ops c.
End Assign.
(** the values of [d] in the order of [ks] *)
Definition settings (d : assignment) (ks : list string) : list (string * value) :=
  flat_map (fun k => match d k with Some w => [(k, w)] | None => [] end) ks.
(** [n] depends on [k] *)
Definition depends (cs : list cond) (n k : string) : Prop := clos_trans _ (reads cs) k n.

Section Reach.
  Context {E : Env} {L : EnvLaws E}.

  Lemma by_depth s hs cs fs (P : hp -> Prop) : built s hs cs fs ->
    (forall h, In h hs -> (forall p, In p hs -> reads cs (hp_name p) (hp_name h) -> P p) -> P h) -> forall h, In h hs -> P h.
  Proof.
    intros B St. assert (O := built_ok _ _ _ _ B).
    assert (Ik : forall h, In h hs -> In (hp_name h) (keys s)).
    { intros h Hh. eapply Permutation_in; [symmetry; apply (so_keys O)|]. apply in_map. exact Hh. }
    assert (G : forall n h, In h hs -> depth_of (d_nodes (s_dag s)) (hp_name h) <= n -> P h).
    { induction n as [|n IH]; intros h Hh Hn.
      - exfalso. destruct (so_longest O _ (Ik h Hh)) as [_ Lg]. specialize (Lg 1 (chain_one _ _)). lia.
      - apply St; [exact Hh|]. intros p Hp Rd. apply IH; [exact Hp|].
        destruct (so_longest O _ (Ik p Hp)) as [Cp _]. destruct (so_longest O _ (Ik h Hh)) as [_ Lh].
        specialize (Lh _ (chain_more _ _ _ _ Cp Rd)). lia. }
    intros h Hh. eapply G; eauto.
  Qed.

  Lemma active_same hs cs fs d1 d2 h : refs hs cs fs -> (forall p, In p hs -> reads cs (hp_name p) (hp_name h) -> d1 (hp_name p) = d2 (hp_name p)) ->
    (active cs d1 (hp_name h) <-> active cs d2 (hp_name h)).
  Proof.
    intros R H. assert (Hc : forall c, In c cs -> activates c (hp_name h) -> (holds d1 c <-> holds d2 c)).
    { intros c Hc Ha. apply holds_ext. intros l Hl. destruct (proj1 R c Hc l Hl) as [_ Hp]. apply (H (l_parent l) Hp).
      exists c. split; [exact Hc|]. split; [exact Ha|]. unfold cond_parents. apply in_map_iff. exists l. split; [reflexivity|exact Hl]. }
    split; intros K c Hc' Ha; apply (Hc c Hc' Ha), K; assumption.
  Qed.

  (** only dependants of a hyperparameter change with it *)
  Lemma updated_local s hs cs fs d k w d' : built s hs cs fs -> refs hs cs fs -> (forall h, In h hs -> (d (hp_name h) <> None <-> active cs d (hp_name h))) ->
    updated hs cs d k w d' -> forall h, In h hs -> hp_name h <> k -> ~ depends cs (hp_name h) k -> d' (hp_name h) = d (hp_name h).
  Proof.
    intros B R V U. apply (by_depth s hs cs fs (fun h => hp_name h <> k -> ~ depends cs (hp_name h) k -> d' (hp_name h) = d (hp_name h)) B).
    intros h Hh IH Hk Nd. assert (A : active cs d' (hp_name h) <-> active cs d (hp_name h)).
    { apply (active_same hs cs fs); [exact R|]. intros p Hp Rd. apply IH; [exact Hp|exact Rd| |].
      - intros <-. apply Nd. apply t_step. exact Rd.
      - intros Dp. apply Nd. eapply t_trans; [exact Dp|apply t_step; exact Rd]. }
    destruct (proj2 U h Hh Hk) as [U1 U2]. specialize (V h Hh). destruct (d (hp_name h)) as [u|] eqn:Eu.
    - apply U1, A, V. discriminate.
    - apply U2. rewrite A. rewrite <- V. intros K. apply K. reflexivity.
  Qed.

  Lemma depends_index s hs cs fs n k i j : built s hs cs fs -> depends cs n k ->
    nth_error (keys s) i = Some k -> nth_error (keys s) j = Some n -> i < j.
  Proof.
    intros B. assert (O := built_ok _ _ _ _ B). unfold depends. intros D. revert i j. induction D as [a b Rd|a b c D1 IH1 D2 IH2]; intros i j Hi Hj.
    - apply (so_parent_before O a b i j Rd); apply (so_index O); assumption.
    - assert (Kb : In b (keys s)).
      { clear -O D2. induction D2 as [x y Rd|x y z D1 IH1 D2 IH2]; [apply (so_reads_keys O x y Rd)|exact IH1]. }
      apply In_nth_error in Kb. destruct Kb as (m & Hm). specialize (IH1 i m Hi Hm). specialize (IH2 m j Hm Hj). lia.
  Qed.

  (** ** C116

      Full statement: for every tame space.  With clauses it is false, see [C116_refuted]. *)
  Theorem C116_reach_partial s hs cs c d d' : tame s hs cs [] -> orderly cs ->
    represents s hs c d -> valid hs cs [] d -> exact_all hs d ->
    valid hs cs [] d' -> exact_all hs d' ->
    exists c', assigns s c (settings d' (keys s)) c' /\ represents s hs c' d'.
  Proof.
    intros T Or Rep V Ex V' Ex'. assert (T' := T). destruct T' as [B R _ _ _]. assert (O := built_ok _ _ _ _ B).
    assert (G : forall todo done c d, keys s = done ++ todo -> represents s hs c d -> valid hs cs [] d -> exact_all hs d ->
      (forall g, In g hs -> In (hp_name g) done -> d (hp_name g) = d' (hp_name g)) ->
      exists c', assigns s c (settings d' todo) c' /\ represents s hs c' d').
    2:{ apply (G (keys s) [] c d eq_refl Rep V Ex). intros g _ []. }
    clear c d Rep V Ex. induction todo as [|k todo IH]; intros done c d Ks Rep V Ex Ag.
    - exists c. split; [reflexivity|]. destruct Rep as [Ln Rp]. split; [exact Ln|]. intros h Hh. specialize (Rp h Hh).
      rewrite (Ag h Hh) in Rp; [exact Rp|]. rewrite app_nil_r in Ks. rewrite <- Ks. eapply Permutation_in; [symmetry; apply (so_keys O)|]. apply in_map. exact Hh.
    - assert (Kk : nth_error (keys s) (length done) = Some k) by (rewrite Ks, nth_error_app2, Nat.sub_diag by lia; reflexivity).
      assert (Ik : In k (map hp_name hs)).
      { eapply Permutation_in; [apply (so_keys O)|]. eapply nth_error_In; exact Kk. }
      apply in_map_iff in Ik. destruct Ik as (h & <- & Hh).
      assert (Dn : forall g i, nth_error (keys s) i = Some g -> i < length done -> In g done).
      { intros g i Hg Li. rewrite Ks, nth_error_app1 in Hg by exact Li. eapply nth_error_In; exact Hg. }
      assert (Pa : forall p, In p hs -> reads cs (hp_name p) (hp_name h) -> d (hp_name p) = d' (hp_name p)).
      { intros p Hp Rd. apply Ag; [exact Hp|]. destruct (so_hp_index O p Hp) as (i & Hi & _). assert (Hi' := Hi). apply (so_index O) in Hi'.
        apply (Dn _ i Hi'). apply (so_parent_before O _ _ i (length done) Rd Hi). apply (so_index O). exact Kk. }
      assert (Ac := active_same hs cs [] d d' h R Pa). rewrite <- (va_active _ _ _ _ V h Hh), <- (va_active _ _ _ _ V' h Hh) in Ac.
      cbn [settings flat_map]. fold (settings d' todo). assert (Ks' : keys s = (done ++ [hp_name h]) ++ todo) by (rewrite <- app_assoc; exact Ks).
      destruct (d' (hp_name h)) as [w|] eqn:Ew.
      + assert (Hs : d (hp_name h) <> None) by (apply Ac; discriminate).
        assert (Lw := va_legal _ _ _ _ V' h w Hh Ew). assert (Xw := Ex' h w Hh Ew).
        destruct (C20_succeeds_partial s hs cs [] c d h w T Or Rep V Ex Hh Hs Lw Xw) as (d1 & U & Ex1 & Su & _).
        destruct (Su ltac:(intros f [])) as (V1 & c1 & S1 & R1).
        destruct (IH (done ++ [hp_name h]) c1 d1 Ks' R1 V1 Ex1) as (c' & A' & R').
        * intros g Hg Ig. destruct (string_dec (hp_name g) (hp_name h)) as [Eq|Ne].
          { rewrite Eq, Ew. apply (proj1 U). }
          apply in_app_iff in Ig. destruct Ig as [Ig|[Ig|[]]]; [|congruence].
          rewrite (updated_local s hs cs [] d (hp_name h) w d1 B R (va_active _ _ _ _ V) U g Hg Ne); [apply Ag; assumption|].
          intros D. apply In_nth_error in Ig. destruct Ig as (j & Hj). assert (Lj : j < length done) by (apply nth_error_Some; congruence).
          assert (Hj' : nth_error (keys s) j = Some (hp_name g)) by (rewrite Ks, nth_error_app1 by exact Lj; exact Hj).
          assert (X := depends_index s hs cs [] _ _ _ _ B D Kk Hj'). lia.
        * exists c'. split; [|exact R']. cbn [app]. exists c1. split; [exact S1|exact A'].
      + assert (Hn : d (hp_name h) = None).
        { destruct (d (hp_name h)); [|reflexivity]. exfalso. apply (proj1 Ac); [discriminate|reflexivity]. }
        destruct (IH (done ++ [hp_name h]) c d Ks' Rep V Ex) as (c' & A' & R').
        * intros g Hg Ig. apply in_app_iff in Ig. destruct Ig as [Ig|[Ig|[]]]; [apply Ag; assumption|]. rewrite <- Ig. congruence.
        * exists c'. split; [exact A'|exact R'].
  Qed.

  (** assigning to an inactive hyperparameter raises *)
  Theorem C116_inactive s hs cs fs c d h w : tame s hs cs fs -> represents s hs c d -> valid hs cs fs d -> In h hs -> d (hp_name h) = None ->
    exists e, setitem s c (hp_name h) w = (c, Err e).
  Proof.
    intros [B R M NS _] Rep V Hh Hn. assert (O := built_ok _ _ _ _ B).
    destruct (setitem s c (hp_name h) w) as [c' [[]|e]] eqn:S; [|exists e; rewrite (C19_failure _ _ _ _ _ _ S); reflexivity]. exfalso.
    destruct (setitem_ok s hs cs fs c (hp_name h) w c' O S) as (g & x & i & Hg & Eg & Hi & Lw & Hx & Ck & _).
    assert (g = h).
    { assert (E1 := proj2 (so_get_hp O (hp_name h) g) (conj Hg Eg)). assert (E2 := proj2 (so_get_hp O (hp_name h) h) (conj Hh eq_refl)). congruence. }
    subst g. destruct (C26_local s hs cs fs (c_vector c) (hp_name h) x i B (proj1 Rep) Hi) as (_ & Vk & Vo).
    destruct (legal_finite h w (so_constructed O h Hh) Lw) as (q & Hq). assert (x = Fin q) by congruence. subst x.
    apply (check_ok O _ false R M) in Ck. destruct Ck as (_ & Ck & _).
    assert (Rt : forall g, In g hs -> ~ conditional cs (hp_name g) -> d (hp_name g) <> None).
    { intros g Hg' Nc. apply (va_active _ _ _ _ V g Hg'). intros k Hk Ha. exfalso. apply Nc. exists k. auto. }
    assert (Sat := encodes_holds O (c_vector c) d R NS (represents_encodes c d Rep) Rt).
    apply (proj2 (va_active _ _ _ _ V h Hh)); [|exact Hn]. intros k Hk Ha. apply (Sat k Hk). specialize (Ck h k Hh Hk Ha). cbv zeta in Ck. rewrite Vk in Ck.
    assert (Eq : sat_vec (index_of s) (change_hp_value s (c_vector c) (hp_name h) (Fin q) i) k = sat_vec (index_of s) (c_vector c) k).
    { apply sat_vec_ext. intros p Hp. assert (Hp' := Hp). unfold cond_parents in Hp'. apply in_map_iff in Hp'. destruct Hp' as (l & <- & Hl).
      destruct (proj1 R k Hk l Hl) as [_ Hlp]. assert (Rd : reads cs (hp_name (l_parent l)) (hp_name h)) by (exists k; auto).
      assert (Nc : forall n, depends cs n n -> In n (keys s) -> False).
      { intros n D Kn. apply In_nth_error in Kn. destruct Kn as (j & Hj). assert (X := depends_index s hs cs fs n n j j B D Hj Hj). lia. }
      assert (Kh : In (hp_name h) (keys s)) by (apply (so_index O) in Hi; eapply nth_error_In; exact Hi). apply (Vo (l_parent l) Hlp).
      - intros Eq. apply (Nc (hp_name h)); [|exact Kh]. apply t_step. rewrite <- Eq at 1. exact Rd.
      - intros D. apply (Nc (hp_name h)); [|exact Kh]. eapply t_trans; [exact D|apply t_step; exact Rd]. }
    rewrite Eq in Ck. destruct (sat_vec (index_of s) (c_vector c) k); [reflexivity|]. destruct Ck as [Ck|Ck]; discriminate.
  Qed.

  (** what a successful assignment means *)
  Lemma set_means s hs cs fs c d k w c' : tame s hs cs fs -> orderly cs -> represents s hs c d -> valid hs cs fs d -> exact_all hs d ->
    (forall h, In h hs -> hp_name h = k -> exact_value h w) -> setitem s c k w = (c', Ok tt) ->
    exists d', updated hs cs d k w d' /\ represents s hs c' d' /\ valid hs cs fs d' /\ exact_all hs d'.
  Proof.
    intros T Or Rep V Ex Xw S. assert (O := built_ok _ _ _ _ (tm_built _ _ _ _ T)).
    destruct (setitem_ok s hs cs fs c k w c' O S) as (h & x & i & Hh & <- & Hi & Lw & _).
    destruct (d (hp_name h)) as [u|] eqn:Eu.
    - destruct (C20_succeeds_partial s hs cs fs c d h w T Or Rep V Ex Hh ltac:(congruence) Lw (Xw h Hh eq_refl)) as (d' & U & Ex' & Su & Fa).
      exists d'. assert (Nv : forall f, In f fs -> ~ violated d' f).
      { intros f Hf Vf. destruct Fa as (e & He); [|congruence]. intros K. exact (K f Hf Vf). }
      destruct (Su Nv) as (V' & c2 & S2 & R2). assert (c2 = c') by congruence. subst c2. auto.
    - exfalso. destruct (C116_inactive s hs cs fs c d h w T Rep V Hh Eu) as (e & He). congruence.
  Qed.

  (** whatever is assigned, also if some assignments fail, the configuration stays valid *)
  Theorem C116_stays_partial s hs cs fs c d ops : tame s hs cs fs -> orderly cs -> represents s hs c d -> valid hs cs fs d -> exact_all hs d ->
    (forall h k w, In h hs -> In (k, w) ops -> hp_name h = k -> exact_value h w) ->
    exists d', represents s hs (tries s c ops) d' /\ valid hs cs fs d' /\ exact_all hs d'.
  Proof.
    intros T Or. unfold tries. revert c d. induction ops as [|[k w] ops IH]; intros c d Rep V Ex Xw; [exists d; auto|]. cbn [fold_left fst snd].
    destruct (setitem s c k w) as [c1 [[]|e]] eqn:S; cbn [fst].
    - destruct (set_means s hs cs fs c d k w c1 T Or Rep V Ex (fun h Hh => Xw h k w Hh (or_introl eq_refl)) S) as (d1 & _ & R1 & V1 & E1).
      apply (IH c1 d1 R1 V1 E1). intros h k' w' Hh Hi. apply Xw; [exact Hh|right; exact Hi].
    - rewrite (C19_failure _ _ _ _ _ _ S). apply (IH c d Rep V Ex). intros h k' w' Hh Hi. apply Xw; [exact Hh|right; exact Hi].
  Qed.

  (** ** C117 *)

  (** neither depends on the other, and nothing depends on both *)
  Definition apart (hs : list hp) (cs : list cond) (a b : string) : Prop :=
    a <> b /\ ~ depends cs a b /\ ~ depends cs b a /\ forall h, In h hs -> ~ (depends cs (hp_name h) a /\ depends cs (hp_name h) b).

  Lemma updated_twice s hs cs fs d a b u w d1 d12 d2 d21 : built s hs cs fs -> refs hs cs fs -> apart hs cs a b ->
    valid hs cs fs d -> valid hs cs fs d1 -> valid hs cs fs d2 ->
    updated hs cs d a u d1 -> updated hs cs d1 b w d12 -> updated hs cs d b w d2 -> updated hs cs d2 a u d21 ->
    forall h, In h hs -> ~ depends cs (hp_name h) b -> hp_name h <> b -> d12 (hp_name h) = d21 (hp_name h).
  Proof.
    intros B R (Ne & Nab & Nba & Both) V V1 V2 U1 U12 U2 U21.
    apply (by_depth s hs cs fs (fun h => ~ depends cs (hp_name h) b -> hp_name h <> b -> d12 (hp_name h) = d21 (hp_name h)) B).
    intros h Hh IH Nd Nb. rewrite (updated_local s hs cs fs d1 b w d12 B R (va_active _ _ _ _ V1) U12 h Hh Nb Nd).
    destruct (string_dec (hp_name h) a) as [->|Na]; [rewrite (proj1 U1), (proj1 U21); reflexivity|].
    assert (L2 := updated_local s hs cs fs d b w d2 B R (va_active _ _ _ _ V) U2 h Hh Nb Nd).
    assert (A : active cs d1 (hp_name h) <-> active cs d21 (hp_name h)).
    { apply (active_same hs cs fs); [exact R|]. intros p Hp Rd.
      assert (Ndp : ~ depends cs (hp_name p) b) by (intros D; apply Nd; eapply t_trans; [exact D|apply t_step; exact Rd]).
      assert (Npb : hp_name p <> b) by (intros <-; apply Nd; apply t_step; exact Rd).
      rewrite <- (IH p Hp Rd Ndp Npb). symmetry. apply (updated_local s hs cs fs d1 b w d12 B R (va_active _ _ _ _ V1) U12 p Hp Npb Ndp). }
    destruct (proj2 U1 h Hh Na) as [P1 P2], (proj2 U21 h Hh Na) as [Q1 Q2]. assert (K := va_active _ _ _ _ V1 h Hh).
    destruct (d1 (hp_name h)) as [v|] eqn:Ev.
    - assert (Av : active cs d1 (hp_name h)) by (apply K; discriminate). rewrite (Q1 (proj1 A Av)), L2. rewrite <- Ev. rewrite Ev. apply (P1 Av).
    - symmetry. apply Q2. rewrite <- A, <- K. intros X. apply X. reflexivity.
  Qed.

  Lemma apart_sym hs cs a b : apart hs cs a b -> apart hs cs b a.
  Proof. intros (H1 & H2 & H3 & H4). repeat split; auto. intros h Hh [K1 K2]. apply (H4 h Hh). auto. Qed.

  (** Full statement: for all different hyperparameters.  False of hyperparameters with a common dependant, see [C117_refuted]. *)
  Theorem C117_order_partial s hs cs fs c d a b u w c1 c2 : tame s hs cs fs -> orderly cs -> represents s hs c d -> valid hs cs fs d -> exact_all hs d ->
    apart hs cs a b -> (forall h, In h hs -> hp_name h = a -> exact_value h u) -> (forall h, In h hs -> hp_name h = b -> exact_value h w) ->
    assigns s c [(a, u); (b, w)] c1 -> assigns s c [(b, w); (a, u)] c2 ->
    exists d', represents s hs c1 d' /\ represents s hs c2 d'.
  Proof.
    intros T Or Rep V Ex Ap Xa Xb (ca & Sa & cab & Sab & <-) (cb & Sb & cba & Sba & <-). assert (B := tm_built _ _ _ _ T). assert (R := tm_refs _ _ _ _ T).
    destruct (set_means s hs cs fs c d a u ca T Or Rep V Ex Xa Sa) as (d1 & U1 & R1 & V1 & E1).
    destruct (set_means s hs cs fs ca d1 b w _ T Or R1 V1 E1 Xb Sab) as (d12 & U12 & R12 & V12 & E12).
    destruct (set_means s hs cs fs c d b w cb T Or Rep V Ex Xb Sb) as (d2 & U2 & R2 & V2 & E2).
    destruct (set_means s hs cs fs cb d2 a u _ T Or R2 V2 E2 Xa Sba) as (d21 & U21 & R21 & V21 & E21).
    exists d12. split; [exact R12|]. destruct R21 as [Ln R21]. split; [exact Ln|]. intros h Hh. specialize (R21 h Hh).
    assert (Eq : d12 (hp_name h) = d21 (hp_name h)); [|rewrite Eq; exact R21].
    assert (Dec : forall x y : option value, {x = y} + {x <> y}) by (repeat decide equality).
    destruct (Dec (d12 (hp_name h)) (d21 (hp_name h))) as [Eq|Nq]; [exact Eq|]. exfalso.
    destruct (string_dec (hp_name h) b) as [Eb|Nb].
    - apply Nq. assert (X := updated_local s hs cs fs d2 a u d21 B R (va_active _ _ _ _ V2) U21 h Hh). rewrite Eb in *. destruct Ap as (Ne & Nab & Nba & _).
      rewrite (proj1 U12), X; [symmetry; apply (proj1 U2)|congruence|exact Nba].
    - destruct (string_dec (hp_name h) a) as [Ea|Na].
      + apply Nq. apply (updated_twice s hs cs fs d a b u w d1 d12 d2 d21 B R Ap V V1 V2 U1 U12 U2 U21 h Hh); [rewrite Ea; apply Ap|exact Nb].
      + assert (N1 : ~ ~ depends cs (hp_name h) b).
        { intros N. apply Nq. apply (updated_twice s hs cs fs d a b u w d1 d12 d2 d21 B R Ap V V1 V2 U1 U12 U2 U21 h Hh N Nb). }
        assert (N2 : ~ ~ depends cs (hp_name h) a).
        { intros N. apply Nq. symmetry. apply (updated_twice s hs cs fs d b a w u d2 d21 d1 d12 B R (apart_sym _ _ _ _ Ap) V V2 V1 U2 U21 U1 U12 h Hh N Na). }
        apply N1. intros K1. apply N2. intros K2. destruct Ap as (_ & _ & _ & Both). apply (Both h Hh). auto.
  Qed.

  (** without clauses both orders succeed *)
  Theorem C117_succeeds_partial s hs cs c d h g u w : tame s hs cs [] -> orderly cs -> represents s hs c d -> valid hs cs [] d -> exact_all hs d ->
    apart hs cs (hp_name h) (hp_name g) -> In h hs -> In g hs -> d (hp_name h) <> None -> d (hp_name g) <> None ->
    legal_value h u = true -> exact_value h u -> legal_value g w = true -> exact_value g w ->
    exists c', assigns s c [(hp_name h, u); (hp_name g, w)] c'.
  Proof.
    intros T Or Rep V Ex Ap Hh Hg Sh Sg Lu Xu Lw Xw. assert (B := tm_built _ _ _ _ T). assert (R := tm_refs _ _ _ _ T).
    destruct (C20_succeeds_partial s hs cs [] c d h u T Or Rep V Ex Hh Sh Lu Xu) as (d1 & U1 & E1 & Su & _).
    destruct (Su ltac:(intros f [])) as (V1 & c1 & S1 & R1).
    assert (Sg1 : d1 (hp_name g) <> None).
    { rewrite (updated_local s hs cs [] d (hp_name h) u d1 B R (va_active _ _ _ _ V) U1 g Hg); [exact Sg|intros X; apply (proj1 Ap); auto|apply (proj1 (proj2 (proj2 Ap)))]. }
    destruct (C20_succeeds_partial s hs cs [] c1 d1 g w T Or R1 V1 E1 Hg Sg1 Lw Xw) as (d2 & _ & _ & Su2 & _).
    destruct (Su2 ltac:(intros f [])) as (_ & c2 & S2 & _). exists c2. exists c1. split; [exact S1|]. exists c2. split; [exact S2|reflexivity].
  Qed.

  (** assigning the value a hyperparameter has changes nothing *)
  Theorem C117_again s hs cs fs c d h w c' : tame s hs cs fs -> orderly cs -> represents s hs c d -> valid hs cs fs d -> exact_all hs d ->
    In h hs -> d (hp_name h) = Some w -> setitem s c (hp_name h) w = (c', Ok tt) -> represents s hs c' d.
  Proof.
    intros T Or Rep V Ex Hh Hw S. assert (B := tm_built _ _ _ _ T). assert (R := tm_refs _ _ _ _ T).
    destruct (set_means s hs cs fs c d (hp_name h) w c' T Or Rep V Ex) as (d1 & U & [Ln R1] & V1 & E1); [|exact S|].
    - intros g Hg Eg. assert (O := built_ok _ _ _ _ B).
      assert (g = h); [|subst g; apply (Ex h w Hh Hw)].
      assert (X1 := proj2 (so_get_hp O (hp_name h) g) (conj Hg Eg)). assert (X2 := proj2 (so_get_hp O (hp_name h) h) (conj Hh eq_refl)). congruence.
    - split; [exact Ln|]. intros g Hg. specialize (R1 g Hg).
      assert (Eq : d (hp_name g) = d1 (hp_name g)); [|rewrite Eq; exact R1]. clear R1. revert g Hg.
      apply (by_depth s hs cs fs (fun g => d (hp_name g) = d1 (hp_name g)) B). intros g Hg IH.
      destruct (string_dec (hp_name g) (hp_name h)) as [Eg|Ng]; [rewrite Eg, (proj1 U); exact Hw|].
      assert (A := active_same hs cs fs d d1 g R IH). destruct (proj2 U g Hg Ng) as [U1 U2]. assert (K := va_active _ _ _ _ V g Hg).
      destruct (d (hp_name g)) as [v|] eqn:Ev.
      + symmetry. apply U1, A, K. discriminate.
      + symmetry. apply U2. rewrite <- A, <- K. intros X. apply X. reflexivity.
  Qed.
  (** ... and the assignment succeeds *)
  Theorem C117_again_succeeds s hs cs fs c d h w : tame s hs cs fs -> orderly cs -> represents s hs c d -> valid hs cs fs d -> exact_all hs d ->
    In h hs -> d (hp_name h) = Some w -> exists c', setitem s c (hp_name h) w = (c', Ok tt).
  Proof.
    intros T Or Rep V Ex Hh Hw. assert (B := tm_built _ _ _ _ T). assert (R := tm_refs _ _ _ _ T).
    destruct (C20_succeeds_partial s hs cs fs c d h w T Or Rep V Ex Hh ltac:(congruence) (va_legal _ _ _ _ V h w Hh Hw) (Ex h w Hh Hw)) as (d1 & U & E1 & Su & _).
    destruct Su as (_ & c' & S & _); [|exists c'; exact S].
    assert (Eq : forall g, In g hs -> d (hp_name g) = d1 (hp_name g)).
    { apply (by_depth s hs cs fs (fun g => d (hp_name g) = d1 (hp_name g)) B). intros g Hg IH.
      destruct (string_dec (hp_name g) (hp_name h)) as [Eg|Ng]; [rewrite Eg, (proj1 U); exact Hw|].
      assert (A := active_same hs cs fs d d1 g R IH). destruct (proj2 U g Hg Ng) as [U1 U2]. assert (K := va_active _ _ _ _ V g Hg).
      destruct (d (hp_name g)) as [v|] eqn:Ev; symmetry.
      - apply U1, A, K. discriminate.
      - apply U2. rewrite <- A, <- K. intros X. apply X. reflexivity. }
    intros f Hf Vf. apply (va_forb _ _ _ _ V f Hf). apply (violated_ext d1 d f); [|exact Vf].
    intros n Hn. unfold forb_names in Hn. apply in_map_iff in Hn. destruct Hn as (g & <- & Hg). symmetry. apply Eq. apply (proj2 R f Hf g Hg).
  Qed.

  (** of two assignments to a hyperparameter nothing depends on, the last counts *)
  Theorem C117_last_partial s hs cs fs c d k u w c1 c2 : tame s hs cs fs -> orderly cs -> represents s hs c d -> valid hs cs fs d -> exact_all hs d ->
    (forall n, ~ reads cs k n) -> (forall h, In h hs -> hp_name h = k -> exact_value h u /\ exact_value h w) ->
    assigns s c [(k, u); (k, w)] c1 -> assigns s c [(k, w)] c2 -> exists d', represents s hs c1 d' /\ represents s hs c2 d'.
  Proof.
    intros T Or Rep V Ex Nr X (ca & Sa & cab & Sab & <-) (cb & Sb & <-). assert (B := tm_built _ _ _ _ T). assert (R := tm_refs _ _ _ _ T).
    destruct (set_means s hs cs fs c d k u ca T Or Rep V Ex (fun h Hh Ek => proj1 (X h Hh Ek)) Sa) as (d1 & U1 & R1 & V1 & E1).
    destruct (set_means s hs cs fs ca d1 k w _ T Or R1 V1 E1 (fun h Hh Ek => proj2 (X h Hh Ek)) Sab) as (d2 & U2 & R2 & _).
    destruct (set_means s hs cs fs c d k w _ T Or Rep V Ex (fun h Hh Ek => proj2 (X h Hh Ek)) Sb) as (d3 & U3 & [Ln R3] & _).
    exists d2. split; [exact R2|]. split; [exact Ln|]. intros h Hh. specialize (R3 h Hh).
    assert (Nd : forall n, ~ depends cs n k).
    { intros n D. apply clos_trans_t1n in D. inversion D; subst; eapply Nr; eassumption. }
    assert (Eq : d2 (hp_name h) = d3 (hp_name h)); [|rewrite Eq; exact R3]. destruct (string_dec (hp_name h) k) as [->|Nk]; [rewrite (proj1 U2), (proj1 U3); reflexivity|].
    rewrite (updated_local s hs cs fs d1 k w d2 B R (va_active _ _ _ _ V1) U2 h Hh Nk (Nd _)), (updated_local s hs cs fs d k u d1 B R (va_active _ _ _ _ V) U1 h Hh Nk (Nd _)).
    symmetry. apply (updated_local s hs cs fs d k w d3 B R (va_active _ _ _ _ V) U3 h Hh Nk (Nd _)).
  Qed.
End Reach.

(** ** Cases *)
Section Witness.
  #[local] Existing Instance rat_env.
  #[local] Existing Instance rat_env_laws.
  Fixpoint all_ok (s : space) (c : config) (ops : list (string * value)) : bool :=
    match ops with
    | [] => true
    | (k, w) :: ops' => match setitem s c k w with (c1, Ok tt) => all_ok s c1 ops' | _ => false end
    end.
  Lemma assigns_tries s c ops : all_ok s c ops = true -> assigns s c ops (tries s c ops).
  Proof.
    revert c. induction ops as [|[k w] ops IH]; intros c H; [reflexivity|]. cbn [all_ok] in H. unfold tries. cbn [assigns fold_left fst snd].
    destruct (setitem s c k w) as [c1 [[]|e]]; [|discriminate]. exists c1. split; [reflexivity|]. apply IH. exact H.
  Qed.

  (** two hyperparameters that have to be equal *)
  Definition two_hps := [bin "p"; bin "q"].
  Definition two_forb (u w : string) : fclause :=
    get_or dummy_forb (mk_fand [get_or dummy_forb (mk_feq (bin "p") (VStr u)); get_or dummy_forb (mk_feq (bin "q") (VStr w))]).
  Definition two_forbs := [two_forb "0" "1"; two_forb "1" "0"].
  Definition two_space := fst (add empty_space two_hps [] two_forbs).
  Lemma two_built : built two_space two_hps [] two_forbs.
  Proof.
    apply (built_step empty_space [] [] [] two_hps [] two_forbs built_empty); [repeat (constructor; [apply bin_c|]); constructor|constructor| |vm_compute; reflexivity].
    assert (G : forall u w, mk_feq (bin "p") (VStr u) = Ok (get_or dummy_forb (mk_feq (bin "p") (VStr u))) -> mk_feq (bin "q") (VStr w) = Ok (get_or dummy_forb (mk_feq (bin "q") (VStr w))) ->
      forb_built (two_forb u w)).
    { intros u w H1 H2. eapply FB_and; [|reflexivity]. intros x [<-|[<-|[]]]; [eapply FB_eq; [apply bin_c|exact H1]|eapply FB_eq; [apply bin_c|exact H2]]. }
    apply Forall_cons; [apply G; vm_compute; reflexivity|]. apply Forall_cons; [apply G; vm_compute; reflexivity|apply Forall_nil].
  Qed.
  Lemma two_tame : tame two_space two_hps [] two_forbs.
  Proof.
    constructor; [apply two_built| |intros c d v []|intros c l w vv []|].
    - split; [intros c []|]. intros f Hf h Hh. destruct Hf as [<-|[<-|[]]]; vm_compute in Hh; repeat (destruct Hh as [<-|Hh]; [vm_compute; tauto|]); destruct Hh.
    - intros f Hf r a b Hr. exfalso. destruct Hf as [<-|[<-|[]]]; vm_compute in Hr; repeat (destruct Hr as [Hr|Hr]; [discriminate Hr|]); destruct Hr.
  Qed.
  Lemma none_orderly : orderly [].
  Proof. constructor; intros c c' p []. Qed.
  Definition two_vals (u : string) : list (string * option value) := [("p", Some (VStr u)); ("q", Some (VStr u))]%string.
  Definition two_config := get_or (mk_config [] None false) (config_of_values two_space (two_vals "1") false).
  Lemma two_nodup : NoDup (map hp_name two_hps).
  Proof. exact (so_names_nodup (built_ok _ _ _ _ two_built)). Qed.
  Lemma two_exact d : exact_all two_hps d.
  Proof. intros h w Hh _. repeat (destruct Hh as [<-|Hh]; [exact Logic.I|]). destruct Hh. Qed.
  Lemma bin_legal n w : legal_value (bin n) w = true -> w = VStr "0" \/ w = VStr "1".
  Proof.
    unfold legal_value, bin. cbn. unfold py_in. cbn [existsb]. intros H. apply orb_true_iff in H. destruct H as [H|H]; [|apply orb_true_iff in H; destruct H as [H|H]; [|discriminate]];
      destruct w; try discriminate H; cbn in H; apply String.eqb_eq in H; subst; auto.
  Qed.
  Lemma two_stuck c k w : c_vector c = [Fin 1; Fin 1]%Q -> c_vector (fst (setitem two_space c k w)) = [Fin 1; Fin 1]%Q.
  Proof.
    intros Hv. destruct (setitem two_space c k w) as [c' [[]|e]] eqn:S; [|rewrite (C19_failure _ _ _ _ _ _ S); exact Hv].
    assert (O := built_ok _ _ _ _ two_built). destruct (setitem_ok two_space two_hps [] two_forbs c k w c' O S) as (h & x & i & Hh & Hk & Hi & Lw & Hx & Ck & ->).
    cbn [fst c_vector]. rewrite Hv in *. destruct Hh as [<-|[<-|[]]]; destruct (bin_legal _ _ Lw) as [-> | ->]; subst k;
      vm_compute in Hi; injection Hi as <-; vm_compute in Hx; injection Hx as <-; revert Ck; vm_compute; intros Ck; try discriminate Ck; reflexivity.
  Qed.
  Theorem C116_refuted : exists s hs cs fs c d d', tame s hs cs fs /\ orderly cs /\ represents s hs c d /\ valid hs cs fs d /\ exact_all hs d /\
    valid hs cs fs d' /\ exact_all hs d' /\ forall ops, ~ represents s hs (tries s c ops) d'.
  Proof.
    assert (St := fun u => store_stored two_hps (given (two_vals u)) two_nodup).
    assert (Vd : forall u c, config_of_values two_space (two_vals u) false = Ok c -> valid two_hps [] two_forbs (store two_hps (given (two_vals u)))).
    { intros u c Hc. apply (C17_accepts_valid_partial two_space two_hps [] two_forbs (two_vals u) _ two_tame (St u) (two_exact _)). exists c. exact Hc. }
    exists two_space, two_hps, [], two_forbs, two_config, (store two_hps (given (two_vals "1"))), (store two_hps (given (two_vals "0"))).
    split; [exact two_tame|]. split; [exact none_orderly|].
    split; [apply (C20_start two_space two_hps [] two_forbs (two_vals "1") _ false two_config two_built (St "1"%string)); vm_compute; reflexivity|].
    split; [apply (Vd "1"%string two_config); vm_compute; reflexivity|]. split; [apply two_exact|].
    split; [eapply (Vd "0"%string); vm_compute; reflexivity|]. split; [apply two_exact|].
    intros ops (_ & R). assert (G : forall c, c_vector c = [Fin 1; Fin 1]%Q -> c_vector (tries two_space c ops) = [Fin 1; Fin 1]%Q).
    { clear R. unfold tries. induction ops as [|[k w] ops IH]; intros c Hc; [exact Hc|]. cbn [fold_left fst snd]. apply IH. apply two_stuck. exact Hc. }
    specialize (R (bin "p") (or_introl eq_refl)). rewrite (G two_config ltac:(vm_compute; reflexivity)) in R. vm_compute in R.
    destruct R as (_ & x & Hx & Fx). injection Hx as <-. discriminate Fx.
  Qed.

  (** z is active if p or q is 1 *)
  Definition or_hps := [bin "p"; bin "q"; bin "r"; bin "z"].
  Definition or_cond := get_or dummy_cond (mk_or [on "1" "z" "p"; on "1" "z" "q"]).
  Definition or_conds := [or_cond].
  Definition or_space := fst (add empty_space or_hps or_conds []).
  Lemma or_built : built or_space or_hps or_conds [].
  Proof.
    apply (built_step empty_space [] [] [] or_hps or_conds [] built_empty); [repeat (constructor; [apply bin_c|]); constructor| |constructor|vm_compute; reflexivity].
    constructor; [|constructor]. apply (CB_or [on "1" "z" "p"; on "1" "z" "q"] or_cond); [|vm_compute; reflexivity]. intros c [<-|[<-|[]]].
    - apply (CB_bin OpEq (bin "z") (bin "p") (VStr "1") _ (bin_c _) (bin_c _)); vm_compute; reflexivity.
    - apply (CB_bin OpEq (bin "z") (bin "q") (VStr "1") _ (bin_c _) (bin_c _)); vm_compute; reflexivity.
  Qed.
  Lemma or_tame : tame or_space or_hps or_conds [].
  Proof.
    constructor; [apply or_built| | | |intros f []].
    - split; [|intros f []]. intros c Hc l Hl. destruct Hc as [<-|[]]; vm_compute in Hl; repeat (destruct Hl as [<-|Hl]; [split; vm_compute; tauto|]); tauto.
    - intros c d v [<-|[]] [<-|[]] _. reflexivity.
    - intros c l w vv [<-|[]] Hl Ht. vm_compute in Hl; repeat (destruct Hl as [<-|Hl]; [exfalso; clear -Ht; vm_compute in Ht; discriminate Ht|]); destruct Hl.
  Qed.
  Lemma or_orderly : orderly or_conds.
  Proof.
    constructor.
    - intros c c' p [<-|[]] [<-|[]] _ H. exact H.
    - intros c c' p [<-|[]] [<-|[]] Hp Ha. exfalso. vm_compute in Ha. injection Ha as <-. vm_compute in Hp. repeat (destruct Hp as [Hp|Hp]; [discriminate Hp|]). destruct Hp.
  Qed.
  Lemma or_nodup : NoDup (map hp_name or_hps).
  Proof. exact (so_names_nodup (built_ok _ _ _ _ or_built)). Qed.
  Lemma or_exact d : exact_all or_hps d.
  Proof. intros h w Hh _. repeat (destruct Hh as [<-|Hh]; [exact Logic.I|]). destruct Hh. Qed.
  Definition or_vals : list (string * option value) := [("p", Some (VStr "1")); ("q", Some (VStr "0")); ("r", Some (VStr "0")); ("z", Some (VStr "0"))]%string.
  Definition or_target : list (string * option value) := [("p", Some (VStr "0")); ("q", Some (VStr "1")); ("r", Some (VStr "0")); ("z", Some (VStr "0"))]%string.
  Definition or_config := get_or (mk_config [] None false) (config_of_values or_space or_vals false).
  Lemma or_ok vals c : config_of_values or_space vals false = Ok c ->
    represents or_space or_hps c (store or_hps (given vals)) /\ valid or_hps or_conds [] (store or_hps (given vals)).
  Proof.
    intros H. assert (St := store_stored or_hps (given vals) or_nodup). split; [exact (C20_start _ _ _ _ _ _ _ _ or_built St H)|].
    apply (C17_accepts_valid_partial or_space or_hps or_conds [] vals _ or_tame St (or_exact _)). exists c. exact H.
  Qed.

  Example C116_ex : tame or_space or_hps or_conds [] /\ orderly or_conds /\ represents or_space or_hps or_config (store or_hps (given or_vals)) /\
    valid or_hps or_conds [] (store or_hps (given or_vals)) /\ valid or_hps or_conds [] (store or_hps (given or_target)) /\
    settings (store or_hps (given or_target)) (keys or_space) = [("p", VStr "0"); ("q", VStr "1"); ("r", VStr "0"); ("z", VStr "0")]%string /\
    exists c', assigns or_space or_config (settings (store or_hps (given or_target)) (keys or_space)) c' /\
      map (getitem or_space c') ["p"; "q"; "r"; "z"]%string = map (fun w => Ok (VStr w)) ["0"; "1"; "0"; "0"]%string.
  Proof.
    split; [exact or_tame|]. split; [exact or_orderly|]. split; [apply or_ok; vm_compute; reflexivity|]. split; [eapply or_ok; vm_compute; reflexivity|].
    split; [eapply or_ok; vm_compute; reflexivity|]. split; [vm_compute; reflexivity|]. eexists. split.
    - apply assigns_tries. vm_compute. reflexivity.
    - vm_compute. reflexivity.
  Qed.

  (** switching p off and q on in different orders: z keeps its value or is set to its default *)
  Theorem C117_refuted : exists s hs cs c d a b u w c1 c2, tame s hs cs [] /\ orderly cs /\ represents s hs c d /\ valid hs cs [] d /\ exact_all hs d /\ a <> b /\
    assigns s c [(a, u); (b, w)] c1 /\ assigns s c [(b, w); (a, u)] c2 /\
    getitem s c1 "z"%string = Ok (VStr "1") /\ getitem s c2 "z"%string = Ok (VStr "0").
  Proof.
    exists or_space, or_hps, or_conds, or_config, (store or_hps (given or_vals)), "p"%string, "q"%string, (VStr "0"), (VStr "1"). do 2 eexists.
    split; [exact or_tame|]. split; [exact or_orderly|]. split; [apply or_ok; vm_compute; reflexivity|]. split; [eapply or_ok; vm_compute; reflexivity|].
    split; [apply or_exact|]. split; [discriminate|].
    split; [apply assigns_tries; vm_compute; reflexivity|]. split; [apply assigns_tries; vm_compute; reflexivity|].
    split; vm_compute; reflexivity.
  Qed.
  (** switching p off and on again is not the same as leaving it on *)
  Theorem C117_last_refuted : exists s hs cs c d k u w c1 c2, tame s hs cs [] /\ orderly cs /\ represents s hs c d /\ valid hs cs [] d /\ exact_all hs d /\
    assigns s c [(k, u); (k, w)] c1 /\ assigns s c [(k, w)] c2 /\
    getitem s c1 "z"%string = Ok (VStr "1") /\ getitem s c2 "z"%string = Ok (VStr "0").
  Proof.
    exists or_space, or_hps, or_conds, or_config, (store or_hps (given or_vals)), "p"%string, (VStr "0"), (VStr "1"). do 2 eexists.
    split; [exact or_tame|]. split; [exact or_orderly|]. split; [apply or_ok; vm_compute; reflexivity|]. split; [eapply or_ok; vm_compute; reflexivity|].
    split; [apply or_exact|].
    split; [apply assigns_tries; vm_compute; reflexivity|]. split; [apply assigns_tries; vm_compute; reflexivity|].
    split; vm_compute; reflexivity.
  Qed.
  Lemma or_reads p n : reads or_conds p n -> n = "z"%string /\ p <> "r"%string.
  Proof.
    intros (c & [<-|[]] & Ha & Hp). vm_compute in Ha. injection Ha as <-. split; [reflexivity|]. intros ->. vm_compute in Hp. repeat (destruct Hp as [Hp|Hp]; [discriminate Hp|]). destruct Hp.
  Qed.
  Lemma or_depends n k : depends or_conds n k -> n = "z"%string /\ k <> "r"%string.
  Proof. intros D. unfold depends in D. induction D as [x y Rd|x y z _ IH1 _ IH2]; [destruct (or_reads _ _ Rd); auto|]. split; [apply IH2|apply IH1]. Qed.
  Example C117_ex : apart or_hps or_conds "p" "r" /\ (forall n, ~ reads or_conds "r" n) /\
    exists c1 c2, assigns or_space or_config [("p", VStr "0"); ("r", VStr "1")]%string c1 /\ assigns or_space or_config [("r", VStr "1"); ("p", VStr "0")]%string c2 /\
      c_vector c1 = c_vector c2 /\ getitem or_space c1 "z"%string = Err KeyError.
  Proof.
    split; [|split].
    - split; [discriminate|]. split; [intros D; apply or_depends in D; destruct D; discriminate|]. split; [intros D; apply or_depends in D; destruct D; discriminate|].
      intros h _ [_ D]. apply or_depends in D. destruct D as [_ D]. apply D. reflexivity.
    - intros n D. apply or_reads in D. destruct D as [_ D]. apply D. reflexivity.
    - do 2 eexists. split; [apply assigns_tries; vm_compute; reflexivity|]. split; [apply assigns_tries; vm_compute; reflexivity|].
      split; vm_compute; reflexivity.
  Qed.
End Witness.
