(** * Property C147: the neighbours in a space with an added space *)
From Coq Require Import String List ZArith QArith Bool Lia Permutation Relations.
From Verif Require Import Base ListFacts Numeric NumericProofs HP HPProofs Properties_HP Cond Forb EqFacts Dag DagProofs Space CommitProofs Spec
  SpaceProofs CnodeProofs ForbProofs EvalProofs ForbEval MergeProofs ValidProofs ConfigProofs ChangeProofs Ex Properties_Eval Properties_Config Properties_Graph
  Properties_Change Properties_Add Util ExchangeProofs Properties_Exchange Properties_Symmetric Subspace RenameProofs Properties_Serial Properties_Sub Properties_SubParent Properties_Parts Properties_Nest.
Import ListNotations.
Open Scope nat_scope.

Section NestNear.
  Context {E : Env} {L : EnvLaws E}.

  (** what is active before and after, and keeps its value or gets its default, does not change if nothing else of the space does *)
  Lemma kept s hs cs fs d d' : built s hs cs fs -> refs hs cs fs -> (forall h, In h hs -> (d (hp_name h) <> None <-> active cs d (hp_name h))) ->
    (forall h, In h hs -> (active cs d' (hp_name h) -> d' (hp_name h) = Some (match d (hp_name h) with Some u => u | None => hp_default h end)) /\
      (~ active cs d' (hp_name h) -> d' (hp_name h) = None)) ->
    forall h, In h hs -> d' (hp_name h) = d (hp_name h).
  Proof.
    intros B R Va Vu. assert (O := built_ok _ _ _ _ B).
    assert (Ik : forall h, In h hs -> In (hp_name h) (keys s)).
    { intros h Hh. eapply Permutation_in; [symmetry; apply (so_keys O)|]. apply in_map. exact Hh. }
    assert (G : forall n h, In h hs -> depth_of (d_nodes (s_dag s)) (hp_name h) < n -> d' (hp_name h) = d (hp_name h)).
    { induction n as [|n IH]; intros h Hh Hn; [lia|].
      assert (A : active cs d' (hp_name h) <-> active cs d (hp_name h)).
      { assert (Hc : forall c, In c cs -> activates c (hp_name h) -> (holds d' c <-> holds d c)).
        { intros c Hc Ha. apply holds_ext. intros l Hl. destruct (proj1 R c Hc l Hl) as [_ Hp]. apply (IH (l_parent l) Hp).
          assert (Rd : reads cs (hp_name (l_parent l)) (hp_name h)).
          { exists c. split; [exact Hc|]. split; [exact Ha|]. unfold cond_parents. apply in_map_iff. exists l. split; [reflexivity|exact Hl]. }
          destruct (so_longest O _ (Ik _ Hp)) as [Cp _]. destruct (so_longest O _ (Ik _ Hh)) as [_ Lh].
          specialize (Lh _ (chain_more _ _ _ _ Cp Rd)). lia. }
        split; intros K c Hc' Ha; apply (Hc c Hc' Ha), K; assumption. }
      destruct (Vu h Hh) as [P1 P2]. specialize (Va h Hh). destruct (d (hp_name h)) as [u|].
      - apply P1, A, Va. discriminate.
      - apply P2. intros K. apply A, Va in K. apply K. reflexivity. }
    intros h Hh. apply (G (S (depth_of (d_nodes (s_dag s)) (hp_name h))) h Hh). lia.
  Qed.

  Variables (t s : space) (ht hs : list hp) (ct cs : list cond) (ft fs : list fclause) (p dl : string) (q : hp) (v : value).
  Hypotheses (Tt : tame t ht ct ft) (Ts : tame s hs cs fs) (U : distinct_strings s)
    (ND : NoDup (map hp_name ht ++ map (new_name p dl) (map hp_name hs))) (Hq : In q ht) (Hv : legal_value q v = true)
    (Ne : forall c l w x, In c cs -> In l (dlcs c) -> l_test l <> TBin OpNe w x) (Ot : orderly ct) (Or : orderly cs).
  Let g := new_name p dl.
  Let T := o_target (add_sub [] t s p dl (Some (q, v))).
  Let all := ht ++ map (rename_hp g) hs.
  Let hs2 := map (rename_hp g) (Space.hps s).
  Let Os : space_ok s hs cs fs := built_ok _ _ _ _ (tm_built _ _ _ _ Ts).

  Variables (c : config) (d : assignment) (num : nat) (o : oracle) (fuel : nat) (out : list config) (r : res unit).
  Hypotheses (Rep : represents T all c d) (Vt : valid ht ct ft d)
    (Vs : (under q v d /\ valid hs cs fs (fun n => d (g n))) \/ (~ under q v d /\ forall n, In n (map hp_name hs) -> d (g n) = None))
    (Ex : exact_all all d) (Ok_ : oracle_ok o) (St : steady num all)
    (H : get_one_exchange_neighbourhood fuel T c num o = (out, r)).

  (** the value of a hyperparameter of the target is exchanged by [w]: the part of the target changes as in the target, and the
      added part stays when the parent keeps the value, is set to the defaults when the parent gets it, and is dropped otherwise *)
  Definition moved_outside (h : hp) (w : value) (d' : assignment) : Prop :=
    In h ht /\ updated ht ct d (hp_name h) w d' /\ (forall f, In f ft -> In (hp_name h) (forb_names f) -> ~ violated d' f) /\
    (under q v d -> under q v d' -> forall k, In k hs -> d' (g (hp_name k)) = d (g (hp_name k))) /\
    (~ under q v d -> under q v d' -> default_assignment hs cs (fun n => d' (g n))) /\
    (~ under q v d' -> forall k, In k hs -> d' (g (hp_name k)) = None).
  (** the value of an added hyperparameter is exchanged: the parent has the value, the part of the target stays, and the added part
      changes as in the source *)
  Definition moved_inside (h : hp) (w : value) (d' : assignment) : Prop :=
    exists h0, In h0 hs /\ h = rename_hp g h0 /\ under q v d /\ (forall k, In k ht -> d' (hp_name k) = d (hp_name k)) /\
      updated hs cs (fun n => d (g n)) (hp_name h0) w (fun n => d' (g n)) /\
      (forall f, In f fs -> In (hp_name h0) (forb_names f) -> ~ violated (fun n => d' (g n)) f).

  Theorem C147_neighbours_partial cfg : In cfg out -> exists h u w d', d (hp_name h) = Some u /\ legal_value h w = true /\
    (is_float h \/ py_eqb w u = false) /\ represents T all cfg d' /\ (moved_outside h w d' \/ moved_inside h w d').
  Proof.
    intros Hc. destruct (nest_active t s ht hs ct cs ft fs p dl q v Tt Ts U ND Hq Hv Ne) as (C & T3 & Od & V3 & At & As & Cl & _). fold g hs2 T in T3, V3, At, As, Cl.
    assert (Pa : forall h, In h (ht ++ hs2) <-> In h all).
    { intros h. unfold all, hs2. rewrite !in_app_iff. assert (P := Permutation_map (rename_hp g) (so_hps Os)).
      split; (intros [K|K]; [left; exact K|right]); [apply (Permutation_in _ P K)|apply (Permutation_in _ (Permutation_sym P) K)]. }
    assert (Rep' : represents T (ht ++ hs2) c d) by (destruct Rep as [R1 R2]; split; [exact R1|]; intros h Hh; apply R2, Pa, Hh).
    assert (V : valid (ht ++ hs2) C (ft ++ map (rename_forb g) (forbidden_clauses s)) d) by (apply V3; split; [exact Vt|exact Vs]).
    assert (Ex' : exact_all (ht ++ hs2) d) by (intros h w Hh; apply Ex, Pa, Hh).
    assert (St' : steady num (ht ++ hs2)) by (intros h lo hi log dd Hh; apply St, Pa, Hh).
    destruct (C25_sound_partial _ _ _ _ _ _ _ _ _ _ _ _ T3 (Od Ot Or) Rep' V Ex' Ok_ St' H Hc) as (h & u & w & d' & Hu & X & Df & _).
    destruct (xc_upd _ _ _ _ _ _ _ _ _ X) as [U1 U2]. assert (Xa := xc_active _ _ _ _ _ _ _ _ _ X). assert (Xl := xc_legal _ _ _ _ _ _ _ _ _ X).
    assert (Hh := xc_in _ _ _ _ _ _ _ _ _ X).
    exists h, u, w, d'. split; [exact Hu|]. split; [apply (Xl h w Hh U1)|]. split; [exact Df|].
    split. { destruct (xc_rep _ _ _ _ _ _ _ _ _ X) as [R1 R2]. split; [exact R1|]. intros k Hk. apply R2, Pa, Hk. }
    assert (It : forall k, In k ht -> In k (ht ++ hs2)) by (intros; apply in_or_app; auto).
    assert (Is : forall k, In k hs -> In (rename_hp g k) (ht ++ hs2)).
    { intros k Hk. apply Pa. apply in_or_app. right. apply in_map, Hk. }
    assert (Ls : all_legal hs (fun n => d' (g n))).
    { intros k z Hk Hz. apply (Xl (rename_hp g k) z (Is k Hk) Hz). }
    assert (AL := listed_active s hs cs fs _ (tm_built _ _ _ _ Ts) (tm_refs _ _ _ _ Ts) U Ls).
    assert (Ap := sub_apart p dl ND). fold g in Ap.
    assert (Uo : forall k, In k hs -> under q v d' -> (active C d' (g (hp_name k)) <-> active cs (fun n => d' (g n)) (hp_name k))).
    { intros k Hk Op. rewrite (As d' (hp_name k) (in_map hp_name _ _ Hk) Op), (AL (hp_name k)). reflexivity. }
    assert (Fb := xc_forb _ _ _ _ _ _ _ _ _ X).
    apply in_app_or in Hh. destruct Hh as [Hh|Hh]; [left|right].
    - split; [exact Hh|]. split.
      { split; [exact U1|]. intros k Hk Nk. rewrite <- (At d' (hp_name k) (in_map hp_name _ _ Hk)). apply U2; auto. }
      split; [intros f Hf; apply Fb, in_or_app; auto|].
      assert (Nm : forall k, In k hs -> hp_name (rename_hp g k) <> hp_name h).
      { intros k Hk Eq. apply (Ap (hp_name k)); [apply in_map, Hk|]. change (g (hp_name k)) with (hp_name (rename_hp g k)). rewrite Eq. apply in_map, Hh. }
      split; [|split].
      + intros Op Op' k Hk. destruct Vs as [(_ & Vs')|(No & _)]; [|contradiction].
        apply (kept s hs cs fs (fun n => d (g n)) (fun n => d' (g n)) (tm_built _ _ _ _ Ts) (tm_refs _ _ _ _ Ts)); [| |exact Hk].
        * intros k' Hk'. apply (va_active _ _ _ _ Vs' k' Hk').
        * intros k' Hk'. rewrite <- (Uo k' Hk' Op'). apply (U2 (rename_hp g k') (Is k' Hk') (Nm k' Hk')).
      + intros No Op' k Hk. destruct Vs as [(Op & _)|(_ & N)]; [contradiction|]. rewrite <- (Uo k Hk Op').
        destruct (U2 (rename_hp g k) (Is k Hk) (Nm k Hk)) as [P1 P2]. cbn [rename_hp hp_name hp_default] in P1, P2. rewrite (N (hp_name k) (in_map hp_name _ _ Hk)) in P1.
        assert (Xk := Xa (rename_hp g k) (Is k Hk)). cbn [rename_hp hp_name] in Xk.
        destruct (d' (g (hp_name k))) as [z|] eqn:Ez.
        * left. assert (K : active C d' (g (hp_name k))) by (apply Xk; discriminate). split; [exact K|]. apply P1, K.
        * right. split; [|reflexivity]. intros K. apply Xk in K. apply K. reflexivity.
      + intros No k Hk. apply (Cl d' No); [|apply in_map, Hk]. intros m Hm. apply in_map_iff in Hm. destruct Hm as (k' & <- & Hk'). apply (Xa (rename_hp g k') (Is k' Hk')).
    - apply in_map_iff in Hh. destruct Hh as (h0 & <- & H0). assert (Hh := Permutation_in _ (so_hps Os) H0). exists h0. split; [exact Hh|]. split; [reflexivity|].
      cbn [rename_hp hp_name] in Hu, U1, U2, Fb.
      assert (Op : under q v d). { destruct Vs as [(Op & _)|(_ & N)]; [exact Op|]. rewrite (N (hp_name h0) (in_map hp_name _ _ Hh)) in Hu. discriminate. }
      assert (Keep : forall k, In k ht -> d' (hp_name k) = d (hp_name k)).
      { apply (kept t ht ct ft d d' (tm_built _ _ _ _ Tt) (tm_refs _ _ _ _ Tt)); [intros k Hk; apply (va_active _ _ _ _ Vt k Hk)|].
        intros k Hk. rewrite <- (At d' (hp_name k) (in_map hp_name _ _ Hk)). apply (U2 k (It k Hk)). intros Eq. apply (Ap (hp_name h0)); [apply in_map, Hh|]. rewrite <- Eq. apply in_map, Hk. }
      assert (Op' : under q v d') by (unfold under; rewrite (Keep q Hq); exact Op).
      split; [exact Op|]. split; [exact Keep|]. split.
      + split; [exact U1|]. intros k Hk Nk. rewrite <- (Uo k Hk Op'). apply (U2 (rename_hp g k) (Is k Hk)). intros Eq. apply Nk.
        apply (sub_inj p dl ND); [apply in_map; assumption..|exact Eq].
      + intros f Hf Hn. assert (Hf' := Permutation_in _ (Permutation_sym (di_forb _ _ _ _ (so_inv _ _ _ _ Os))) Hf). rewrite <- violated_rename.
        apply Fb; [apply in_or_app; right; apply in_map, Hf'|]. apply names_hps in Hn. destruct Hn as (k & Hk & En).
        apply names_hps. exists (rename_hp g k). rewrite hps_rename. split; [apply in_map, Hk|]. cbn [rename_hp hp_name]. rewrite En. reflexivity.
  Qed.

  Lemma same_active hz cz fz e e' : refs hz cz fz -> (forall k, In k hz -> e' (hp_name k) = e (hp_name k)) -> forall n, active cz e' n <-> active cz e n.
  Proof.
    intros R K n. assert (Q : forall a, In a cz -> (holds e' a <-> holds e a)).
    { intros a Ha. apply holds_ext. intros l Hl. apply (K (l_parent l)). apply (proj1 R a Ha l Hl). }
    split; intros A a Ha Ta; apply (Q a Ha); apply A; assumption.
  Qed.
  (** what is unchanged is as after an exchange elsewhere *)
  Lemma still e (h : hp) P : (e (hp_name h) <> None <-> P) ->
    (P -> e (hp_name h) = Some (match e (hp_name h) with Some u => u | None => hp_default h end)) /\ (~ P -> e (hp_name h) = None).
  Proof.
    intros Q. destruct (e (hp_name h)) as [u|] eqn:Eu; (split; [intros K|intros K]); [reflexivity|exfalso; apply K, Q; discriminate|exfalso; apply (proj2 Q K); reflexivity|reflexivity].
  Qed.

  Theorem C147_complete_partial h u w d' : r = Ok tt -> shows T all c d -> d (hp_name h) = Some u -> legal_value h w = true -> Properties_Exchange.listed num h -> neighbour h u w ->
    moved_outside h w d' \/ moved_inside h w d' -> exists cfg, In cfg out /\ represents T all cfg d'.
  Proof.
    intros Er Sh Hu Hw Li Nb Mv. rewrite Er in H.
    destruct (nest_active t s ht hs ct cs ft fs p dl q v Tt Ts U ND Hq Hv Ne) as (C & T3 & Od & V3 & At & As & _ & Cn). fold g hs2 T in T3, V3, At, As, Cn.
    assert (Pa : forall h, In h (ht ++ hs2) <-> In h all).
    { intros k. unfold all, hs2. rewrite !in_app_iff. assert (P := Permutation_map (rename_hp g) (so_hps Os)).
      split; (intros [K|K]; [left; exact K|right]); [apply (Permutation_in _ P K)|apply (Permutation_in _ (Permutation_sym P) K)]. }
    assert (Rep' : represents T (ht ++ hs2) c d) by (destruct Rep as [R1 R2]; split; [exact R1|]; intros k Hk; apply R2, Pa, Hk).
    assert (V : valid (ht ++ hs2) C (ft ++ map (rename_forb g) (forbidden_clauses s)) d) by (apply V3; split; [exact Vt|exact Vs]).
    assert (Ex' : exact_all (ht ++ hs2) d) by (intros k z Hk; apply Ex, Pa, Hk).
    assert (Sh' : shows T (ht ++ hs2) c d) by (intros k z Hk; apply Sh, Pa, Hk).
    assert (Ap := sub_apart p dl ND). fold g in Ap.
    assert (Is : forall k, In k hs -> In (rename_hp g k) (ht ++ hs2)).
    { intros k Hk. apply Pa. apply in_or_app. right. apply in_map, Hk. }
    assert (Fin_ : In h (ht ++ hs2) -> updated (ht ++ hs2) C d (hp_name h) w d' ->
      (forall f, In f (ft ++ map (rename_forb g) (forbidden_clauses s)) -> In (hp_name h) (forb_names f) -> ~ violated d' f) ->
      exists cfg, In cfg out /\ represents T all cfg d').
    { intros Hh Up Nv. destruct (C65_complete T _ C _ c d num o fuel out h u w d' T3 (Od Ot Or) Rep' Sh' V Ex' Ok_ H Hh Hu Li Nb Up Nv) as (cfg & Hc & [R1 R2]).
      exists cfg. split; [exact Hc|]. split; [exact R1|]. intros k Hk. apply R2, Pa, Hk. }
    assert (Uo : forall k, In k hs -> under q v d' -> all_legal hs (fun n => d' (g n)) -> (active C d' (g (hp_name k)) <-> active cs (fun n => d' (g n)) (hp_name k))).
    { intros k Hk Op Ls. rewrite (As d' (hp_name k) (in_map hp_name _ _ Hk) Op), (listed_active s hs cs fs _ (tm_built _ _ _ _ Ts) (tm_refs _ _ _ _ Ts) U Ls (hp_name k)). reflexivity. }
    assert (Dl : forall k, In k hs -> legal_value k (hp_default k) = true) by (intros k Hk; apply C37_default_legal, (so_constructed Os k Hk)).
    destruct Mv as [(Hh & [U1 U2] & Nv & M1 & M2 & M3)|(h0 & Hh & -> & Op & Keep & [U1 U2] & Nv)]; apply Fin_.
    - apply in_or_app. auto.
    - split; [exact U1|]. intros k Hk Nk. apply in_app_or in Hk. destruct Hk as [Hk|Hk].
      { rewrite (At d' (hp_name k) (in_map hp_name _ _ Hk)). apply U2; assumption. }
      apply in_map_iff in Hk. destruct Hk as (k0 & <- & Hk0). apply (Permutation_in _ (so_hps Os)) in Hk0. cbn [rename_hp hp_name hp_default].
      assert (Hn := in_map hp_name _ _ Hk0).
      destruct (opened_dec q v Hv d') as [Op'|No'].
      2: { rewrite (M3 No' k0 Hk0). split; [|reflexivity]. intros K. exfalso. apply (Cn d' No') in K; [destruct K| |exact Hn].
           intros m Hm. apply in_map_iff in Hm. destruct Hm as (z & <- & Hz). apply (M3 No' z Hz). }
      destruct Vs as [(Op & Vs')|(No & N)].
      + assert (Sm := M1 Op Op'). rewrite (Uo k0 Hk0 Op'); [|intros z y Hz Hy; rewrite (Sm z Hz) in Hy; apply (va_legal _ _ _ _ Vs' z y Hz Hy)].
        rewrite (same_active hs cs fs (fun n => d (g n)) (fun n => d' (g n)) (tm_refs _ _ _ _ Ts) Sm (hp_name k0)), (Sm k0 Hk0).
        apply (still (fun n => d (g n)) k0). apply (va_active _ _ _ _ Vs' k0 Hk0).
      + assert (Df := M2 No Op'). rewrite (N _ Hn). rewrite (Uo k0 Hk0 Op').
        * destruct (Df k0 Hk0) as [(A & B)|(A & B)]; rewrite B; (split; [intros K|intros K]); try contradiction; reflexivity.
        * intros z y Hz Hy. destruct (Df z Hz) as [(A & B)|(A & B)]; rewrite B in Hy; [|discriminate]. injection Hy as <-. apply Dl, Hz.
    - intros f Hf Hn. apply in_app_or in Hf. destruct Hf as [Hf|Hf]; [apply Nv; assumption|]. exfalso. apply in_map_iff in Hf. destruct Hf as (f0 & <- & Hf0).
      apply names_hps in Hn. destruct Hn as (k & Hk & En). rewrite hps_rename in Hk. apply in_map_iff in Hk. destruct Hk as (k0 & <- & Hk0).
      apply (Ap (hp_name k0)).
      + apply in_map. apply (proj2 (tm_refs _ _ _ _ Ts) f0); [|exact Hk0]. apply (Permutation_in _ (di_forb _ _ _ _ (so_inv _ _ _ _ Os)) Hf0).
      + change (g (hp_name k0)) with (hp_name (rename_hp g k0)). rewrite En. apply in_map, Hh.
    - apply Is, Hh.
    - destruct Vs as [(_ & Vs')|(No & _)]; [|contradiction].
      assert (Op' : under q v d') by (unfold under; rewrite (Keep q Hq); exact Op).
      assert (Ls : all_legal hs (fun n => d' (g n))).
      { intros z y Hz Hy. destruct (string_dec (hp_name z) (hp_name h0)) as [Eq|Nq].
        - assert (z = h0) by (apply (same_hp hs); auto using (so_names_nodup Os)). subst z. cbv beta in U1, Hy. rewrite U1 in Hy. injection Hy as <-. exact Hw.
        - destruct (U2 z Hz Nq) as [P1 P2]. cbv beta in P1, P2, Hy.
          assert (Dec : ~ ~ legal_value z y = true).
          { intros Bad. apply Bad. exfalso. assert (Na : ~ active cs (fun n => d' (g n)) (hp_name z)).
            { intros A. apply P1 in A. rewrite A in Hy. injection Hy as <-. apply Bad. destruct (d (g (hp_name z))) as [y|] eqn:Ey; [apply (va_legal _ _ _ _ Vs' z y Hz Ey)|apply Dl, Hz]. }
            rewrite (P2 Na) in Hy. discriminate. }
          destruct (legal_value z y); [reflexivity|exfalso; apply Dec; discriminate]. }
      split; [exact U1|]. intros k Hk Nk. apply in_app_or in Hk. destruct Hk as [Hk|Hk].
      + rewrite (At d' (hp_name k) (in_map hp_name _ _ Hk)), (same_active ht ct ft d d' (tm_refs _ _ _ _ Tt) Keep (hp_name k)), (Keep k Hk).
        apply (still d k). apply (va_active _ _ _ _ Vt k Hk).
      + apply in_map_iff in Hk. destruct Hk as (k0 & <- & Hk0). apply (Permutation_in _ (so_hps Os)) in Hk0. cbn [rename_hp hp_name hp_default] in *.
        rewrite (Uo k0 Hk0 Op' Ls). apply (U2 k0 Hk0). intros Eq. apply Nk. rewrite Eq. reflexivity.
    - intros f Hf Hn. apply in_app_or in Hf. destruct Hf as [Hf|Hf].
      + exfalso. apply names_hps in Hn. destruct Hn as (k & Hk & En). apply (Ap (hp_name h0)); [apply in_map, Hh|]. change (g (hp_name h0)) with (hp_name (rename_hp g h0)). rewrite <- En.
        apply in_map, (proj2 (tm_refs _ _ _ _ Tt) f Hf k Hk).
      + apply in_map_iff in Hf. destruct Hf as (f0 & <- & Hf0). rewrite violated_rename.
        assert (Hf1 := Permutation_in _ (di_forb _ _ _ _ (so_inv _ _ _ _ Os)) Hf0). apply (Nv f0 Hf1).
        apply names_hps in Hn. destruct Hn as (k & Hk & En). rewrite hps_rename in Hk. apply in_map_iff in Hk. destruct Hk as (k0 & <- & Hk0).
        apply names_hps. exists k0. split; [exact Hk0|]. apply (sub_inj p dl ND); [apply in_map, (proj2 (tm_refs _ _ _ _ Ts) f0 Hf1 k0 Hk0)|apply in_map, Hh|exact En].
  Qed.
End NestNear.

(** ** Example: the spaces of C142: x, and y that is active when x is 1 and must not be 0, under q = 1 *)
Section Witness.
  Local Existing Instance rat_env.
  Local Existing Instance rat_env_laws.
  Definition near_all : list hp := [bin "q"] ++ map (rename_hp (new_name "s" ":")) [bin "x"; bin "y"].
  Definition near_of (vals : list (string * option value)) : list (list (option value)) :=
    map (fun c => map (fun n => match getitem both_space c n with Ok w => Some w | Err _ => None end) ["q"; "s:x"; "s:y"]%string)
      (fst (get_one_exchange_neighbourhood 20 both_space (made both_space vals) 4 (turns 3))).
  (** the conditions on a configuration and the random numbers *)
  Definition near_case (vals : list (string * option value)) : Prop :=
    let c := made both_space vals in let d := store both_hps (given vals) in
    represents both_space near_all c d /\ shows both_space near_all c d /\ valid [bin "q"] [] [] d /\
    ((under (bin "q") (VStr "1") d /\ valid [bin "x"; bin "y"] [on "1" "y" "x"] [not0 "y"] (fun n => d (new_name "s" ":" n))) \/
     (~ under (bin "q") (VStr "1") d /\ forall n, In n (map hp_name [bin "x"; bin "y"]) -> d (new_name "s" ":" n) = None)) /\
    exact_all near_all d /\ steady 4 near_all /\ snd (get_one_exchange_neighbourhood 20 both_space c 4 (turns 3)) = Ok tt.

  Lemma near_hps : near_all = both_hps.
  Proof. vm_compute. reflexivity. Qed.
  Lemma near_shows vals : forallb (fun h => match store both_hps (given vals) (hp_name h) with
      | Some u => match getitem both_space (made both_space vals) (hp_name h) with Ok z => py_eqb z (round_value h u) | _ => false end | None => true end) both_hps = true ->
    shows both_space both_hps (made both_space vals) (store both_hps (given vals)).
  Proof.
    intros H h u Hh Hu. rewrite forallb_forall in H. specialize (H h Hh). cbv beta in H. rewrite Hu in H.
    destruct (getitem both_space (made both_space vals) (hp_name h)) as [z|]; [exists z; auto|discriminate].
  Qed.
  Lemma near_steady : steady 4 both_hps.
  Proof. intros h lo hi log dd Hh K. exfalso. repeat (destruct Hh as [<-|Hh]; [vm_compute in K; discriminate K|]). destruct Hh. Qed.
  Lemma near_exact d : exact_all both_hps d.
  Proof. intros h w Hh _. repeat (destruct Hh as [<-|Hh]; [exact I|]). destruct Hh. Qed.
  Lemma near_q vals w : store both_hps (given vals) "q" = Some (VStr w) -> (w = "0" \/ w = "1")%string -> valid [bin "q"] [] [] (store both_hps (given vals)).
  Proof.
    intros H Hw. constructor.
    - intros h z [<-|[]] Hz. change (hp_name (bin "q")) with "q"%string in Hz. rewrite H in Hz. injection Hz as <-. destruct Hw as [-> | ->]; vm_compute; reflexivity.
    - intros h [<-|[]]. change (hp_name (bin "q")) with "q"%string. rewrite H. split; [intros _ c []|discriminate].
    - intros f [].
  Qed.
  Lemma near_deep : near_case deep_vals'.
  Proof.
    destruct (both_case deep_vals' (made both_space deep_vals') ltac:(vm_compute; reflexivity)) as (A1 & _). unfold near_case. cbv zeta. rewrite near_hps.
    split; [exact A1|]. split; [apply near_shows; vm_compute; reflexivity|]. split; [apply (near_q deep_vals' "1"); [vm_compute; reflexivity|auto]|].
    split; [left; split; [exists (VStr "1"); split; vm_compute; reflexivity|]|split; [apply near_exact|split; [exact near_steady|vm_compute; reflexivity]]].
    set (iv := [("x", Some (VStr "1")); ("y", Some (VStr "1"))]%string).
    assert (St := store_stored [bin "x"; bin "y"] (given iv) (so_names_nodup (built_ok _ _ _ _ in_built))).
    apply (valid_same _ _ _ (store [bin "x"; bin "y"] (given iv)) _ (tm_refs _ _ _ _ in_tame)).
    - intros h Hh. repeat (destruct Hh as [<-|Hh]; [vm_compute; reflexivity|]). destruct Hh.
    - apply (C17_accepts_valid_partial in_space _ _ _ iv _ in_tame St); [intros h w Hh _; repeat (destruct Hh as [<-|Hh]; [exact I|]); destruct Hh|].
      exists (made in_space iv). vm_compute. reflexivity.
  Qed.
  Lemma near_down : near_case down_vals.
  Proof.
    destruct (both_case down_vals (made both_space down_vals) ltac:(vm_compute; reflexivity)) as (A1 & _). unfold near_case. cbv zeta. rewrite near_hps.
    split; [exact A1|]. split; [apply near_shows; vm_compute; reflexivity|]. split; [apply (near_q down_vals "0"); [vm_compute; reflexivity|auto]|].
    split; [right; split|split; [apply near_exact|split; [exact near_steady|vm_compute; reflexivity]]].
    - intros (w & Hw & Q). vm_compute in Hw. injection Hw as <-. vm_compute in Q. discriminate Q.
    - intros n Hn. vm_compute in Hn. repeat (destruct Hn as [<-|Hn]; [vm_compute; reflexivity|]). destruct Hn.
  Qed.

  (** from q = 1, x = 1, y = 1 the value of q or of x can be exchanged, which drops the added part or y (y = 0 is forbidden);
      from q = 0 the added part gets its defaults *)
  Example C147_ex : tame out_space [bin "q"] [] [] /\ tame in_space [bin "x"; bin "y"] [on "1" "y" "x"] [not0 "y"] /\ distinct_strings in_space /\
    NoDup (map hp_name [bin "q"] ++ map (new_name "s" ":") (map hp_name [bin "x"; bin "y"])) /\ legal_value (bin "q") (VStr "1") = true /\
    (forall c l w x, In c [on "1" "y" "x"] -> In l (dlcs c) -> l_test l <> TBin OpNe w x) /\ orderly [] /\ orderly [on "1" "y" "x"] /\ oracle_ok (turns 3) /\
    (forall h, In h near_all -> Properties_Exchange.listed 4 h) /\ near_case deep_vals' /\ near_case down_vals /\
    near_of deep_vals' = [[Some (VStr "0"); None; None]; [Some (VStr "1"); Some (VStr "0"); None]] /\
    near_of down_vals = [[Some (VStr "1"); Some (VStr "1"); Some (VStr "1")]].
  Proof.
    split; [exact out_tame|]. split; [exact in_tame|].
    split; [apply (strings_distinct _ _ _ _ in_built); apply nodup_strings; vm_compute; reflexivity|].
    split; [apply nodup_strings; vm_compute; reflexivity|]. split; [vm_compute; reflexivity|].
    split. { intros c l w x [<-|[]] Hl. vm_compute in Hl. destruct Hl as [<-|[]]. vm_compute. discriminate. }
    split; [constructor; intros c c' p Hc; destruct Hc|]. split; [exact in_orderly|]. split; [apply turns_ok|].
    split; [intros h Hh; repeat (destruct Hh as [<-|Hh]; [exact I|]); destruct Hh|]. split; [exact near_deep|]. split; [exact near_down|].
    vm_compute. auto.
  Qed.
End Witness.
