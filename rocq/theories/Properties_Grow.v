(** * Property C124: what an addition to a space does to its configurations *)
From Coq Require Import String List ZArith QArith Bool Lia Permutation Sorted Relations.
From Verif Require Import Base ListFacts Numeric HP HPProofs Cond Forb EqFacts Dag DagCycle DagProofs Space
  CommitProofs Spec SpaceProofs CnodeProofs ForbProofs AddProofs ForbEval ValidProofs ConfigProofs Serial Ex Properties_Graph Properties_Eval
  Properties_Config Properties_Serial Properties_Change Properties_Tried.
From Verif Require Import Space.
Import ListNotations.
Open Scope nat_scope.

Section Grow.
  Context {E : Env} {L : EnvLaws E}.

  Lemma run_forb_nodes fs : forall d d', run dag_add_forbidden fs d = (d', Ok tt) -> d_nodes d' = d_nodes d.
  Proof.
    induction fs as [|f fs IH]; intros d d' H; simpl in H; [injection H as <-; reflexivity|]. unfold dag_add_forbidden in H at 1.
    destruct (forallb _ _); [|discriminate]. destruct (is_unconditional _ _); apply IH in H; exact H.
  Qed.

  Section Clauses.
    Variables (s s2 : space) (hs : list hp) (cs : list cond) (fs fs' : list fclause).
    Hypotheses (B : built s hs cs fs) (F : Forall forb_built fs') (A : add s [] [] fs' = (s2, Ok tt)).
    Let O : space_ok s hs cs fs := built_ok _ _ _ _ B.
    Lemma grown : built s2 hs cs (fs ++ fs').
    Proof. rewrite <- (app_nil_r hs), <- (app_nil_r cs). exact (built_add _ _ _ _ _ _ _ _ B (Forall_nil _) (Forall_nil _) F A). Qed.
    Let O2 : space_ok s2 hs cs (fs ++ fs') := built_ok _ _ _ _ grown.

    Lemma clauses_nodes : d_nodes (s_dag s2) = d_nodes (s_dag s).
    Proof.
      assert (H := add_update _ _ _ _ _ A). apply update_body in H. destruct H as (d3 & Hb & Hc).
      unfold body in Hb. simpl in Hb. destruct (run dag_add_forbidden fs' (s_dag s)) as [d4 [[]|e]] eqn:E3; [|discriminate]. injection Hb as ->.
      apply run_forb_nodes in E3. destruct (commit_spec _ _ Hc) as (C2 & Hn & _).
      assert (K : map fst (d_nodes (s_dag s2)) = map fst (d_nodes (s_dag s))).
      { destruct (C02_insertion_order s2 hs cs (fs ++ fs') s hs cs fs grown B (Permutation_refl _) (Permutation_refl _)) as (_ & _ & K & _). exact K. }
      assert (P : Permutation (d_nodes (s_dag s2)) (d_nodes (s_dag s))) by (rewrite Hn, E3; apply sort_nodes_perm).
      assert (ND := so_nodup O). unfold keys in ND. revert K P ND. generalize (d_nodes (s_dag s2)) (d_nodes (s_dag s)). clear.
      induction n as [|[a x] l IH]; intros [|[b y] m]; simpl; try discriminate; [reflexivity|]. intros [= -> K] P ND. apply NoDup_cons_iff in ND. destruct ND as [Hb ND'].
      assert (Hx : In (b, x) ((b, y) :: m)) by (eapply Permutation_in; [exact P|left; reflexivity]).
      destruct Hx as [Hx|Hx]; [|exfalso; apply Hb; apply in_map_iff; exists (b, x); auto]. injection Hx as ->. f_equal.
      apply IH; [exact K| |exact ND']. apply Permutation_cons_inv in P. exact P.
    Qed.
    Lemma clauses_len : s_len s2 = s_len s.
    Proof. rewrite (so_len _ _ _ _ O2), (so_len _ _ _ _ O), clauses_nodes. reflexivity. Qed.
    Lemma clauses_keep : items s2 = items s /\ keys s2 = keys s /\ index_of s2 = index_of s /\ d_roots (s_dag s2) = d_roots (s_dag s) /\
      d_min (s_dag s2) = d_min (s_dag s) /\ d_lookup (s_dag s2) = d_lookup (s_dag s) /\ parent_conditions_of s2 = parent_conditions_of s /\
      d_defaults (s_dag s2) = d_defaults (s_dag s) /\ d_hps (s_dag s2) = d_hps (s_dag s).
    Proof.
      assert (C := so_com _ _ _ _ O). assert (C2 := so_com _ _ _ _ O2). assert (N := clauses_nodes).
      assert (Rt : d_roots (s_dag s2) = d_roots (s_dag s)) by (rewrite (cm_roots _ C), (cm_roots _ C2), N; reflexivity).
      assert (Mn : d_min (s_dag s2) = d_min (s_dag s)).
      { destruct (cm_min _ C) as (mc & M1 & ->). destruct (cm_min _ C2) as (mc2 & M2 & ->). rewrite Rt, N, M1 in M2. rewrite N. congruence. }
      assert (At : d_at (s_dag s2) = d_at (s_dag s)) by (rewrite (cm_at _ C), (cm_at _ C2), N; reflexivity).
      split; [unfold items; rewrite N; reflexivity|]. split; [unfold keys; rewrite N; reflexivity|].
      split; [unfold index_of; rewrite (cm_index _ C), (cm_index _ C2), N; reflexivity|]. split; [exact Rt|]. split; [exact Mn|].
      split. { assert (K := cm_lookup _ C). assert (K2 := cm_lookup _ C2). rewrite N, At, Mn, K in K2. congruence. }
      split; [unfold parent_conditions_of; rewrite (cm_parent_conds _ C), (cm_parent_conds _ C2), N; reflexivity|].
      assert (Hh : d_hps (s_dag s2) = d_hps (s_dag s)) by (rewrite (cm_hps _ C), (cm_hps _ C2), N; reflexivity).
      split; [|exact Hh]. rewrite (cm_defaults _ C), (cm_defaults _ C2), Hh. reflexivity.
    Qed.

    (** ** C124: clauses take away exactly what they forbid *)
    Theorem C124_vectors v allow : refs hs cs (fs ++ fs') ->
      (check_configuration s2 v allow = Ok tt <->
       check_configuration s v allow = Ok tt /\ forall f, In f fs' -> forb_vec (index_of s) v f = Ok false).
    Proof.
      intros R. destruct clauses_keep as (Hi & Hk & Hx & Hr & Hm & Hl & Hp & _ & Hh).
      assert (R0 : refs hs cs fs) by (split; [apply R|intros f Hf; apply R; apply in_or_app; left; exact Hf]).
      assert (Q1 := C14_accepts_iff s hs cs fs v B R0). assert (Q2 := C14_accepts_iff s2 hs cs (fs ++ fs') v grown R). rewrite Hx in Q2.
      assert (Cn : forall cn, check_cnode s2 v allow cn = check_cnode s v allow cn).
      { intros cn. unfold check_cnode, hp_at. rewrite Hx, Hh. reflexivity. }
      unfold check_configuration. rewrite Hr, Hm, Hx.
      replace (mapM (check_cnode s2 v allow) (d_min (s_dag s))) with (mapM (check_cnode s v allow) (d_min (s_dag s))) by (apply mapM_ext; intros; symmetry; apply Cn).
      destruct (forallb _ _); [|split; [discriminate|intros [H _]; discriminate]].
      destruct (mapM (check_cnode s v allow) (d_min (s_dag s))) as [u|e]; [|split; [discriminate|intros [H _]; discriminate]]. simpl.
      rewrite Q1, Q2. split.
      - intros H. split; intros f Hf; apply H; apply in_or_app; auto.
      - intros [H1 H2] f Hf. apply in_app_or in Hf. destruct Hf; auto.
    Qed.

    Lemma clauses_fill vals : forall its vec cache, fill s2 vals its vec cache = fill s vals its vec cache.
    Proof.
      destruct clauses_keep as (_ & _ & Hx & _). induction its as [|[k h] its IH]; intros vec cache; simpl; [reflexivity|]. rewrite Hx.
      destruct (assoc k (index_of s)); [|reflexivity]. destruct (assoc k vals) as [[w|]|]; try (destruct (_ <? _); [apply IH|reflexivity]).
      destruct (legal_value h w); [|reflexivity]. destruct (to_vector h (round_value h w)); [simpl; destruct (_ <? _); [apply IH|reflexivity]|reflexivity].
    Qed.
    (** Configuration(values=...) *)
    Theorem C124_values vals allow c : refs hs cs (fs ++ fs') ->
      (config_of_values s2 vals allow = Ok c <->
       config_of_values s vals allow = Ok c /\ forall f, In f fs' -> forb_vec (index_of s) (c_vector c) f = Ok false).
    Proof.
      intros R. destruct clauses_keep as (Hi & Hk & _). unfold config_of_values. rewrite Hi, Hk, clauses_len, clauses_fill.
      destruct (negb _); [|split; [discriminate|intros [H _]; discriminate]].
      destruct (fill s vals (items s) (repeat NaN (s_len s)) []) as [[vec cache]|e]; [|split; [discriminate|intros [H _]; discriminate]]. simpl.
      assert (Q := C124_vectors vec allow R).
      destruct (check_configuration s2 vec allow) as [[]|e]; destruct (check_configuration s vec allow) as [[]|e']; simpl.
      - split; [intros [= <-]; split; [reflexivity|apply Q; reflexivity]|intros [H _]; exact H].
      - destruct (proj1 Q eq_refl) as [H _]. discriminate.
      - split; [discriminate|]. intros [[= <-] H]. simpl in H. assert (K := proj2 Q (conj eq_refl H)). discriminate.
      - split; [discriminate|intros [H _]; discriminate].
    Qed.
    (** the default configuration stays the same *)
    Theorem C124_default : refs hs cs (fs ++ fs') -> get_default_configuration s2 = get_default_configuration s.
    Proof.
      intros R. destruct clauses_keep as (Hi & Hk & _ & _ & _ & _ & Hp & _). destruct (C21_exists _ _ _ _ grown) as (c & Hc). rewrite Hc. symmetry.
      unfold get_default_configuration, check_default_configuration in *. rewrite Hi in Hc.
      assert (D : forall its vals, default_values s2 its vals = default_values s its vals).
      { induction its as [|[n h] its IH]; intros vals; simpl; [reflexivity|]. unfold conds_of. rewrite Hp. destruct (mapM _ _); simpl; [apply IH|reflexivity]. }
      rewrite D in Hc. destruct (default_values s (items s) []) as [vals|e]; [|discriminate]. simpl in *. apply (C124_values vals false c R). exact Hc.
    Qed.
    (** which hyperparameters are active stays the same *)
    Theorem C124_active v : get_active s2 v = get_active s v.
    Proof.
      destruct clauses_keep as (_ & Hk & Hx & _ & _ & _ & Hp & _). unfold get_active. rewrite Hk. apply filter_ext. intros n.
      unfold conds_of. rewrite Hp. unfold cond_active. rewrite Hx. reflexivity.
    Qed.
  End Clauses.

  (** ** In terms of the values *)
  Definition accepted (s : space) (vals : list (string * option value)) : Prop := exists c, config_of_values s vals false = Ok c.

  (** clauses: what they say of the values *)
  Theorem C124_allowed_partial s hs cs fs fs' s2 vals d : tame s hs cs fs -> tame s2 hs cs (fs ++ fs') ->
    stored hs (given vals) d -> exact_all hs (given vals) ->
    (accepted s2 vals <-> accepted s vals /\ forall f, In f fs' -> ~ violated d f).
  Proof.
    intros T T2 St Ex. unfold accepted. rewrite (C17_accepts_valid_partial s2 hs cs (fs ++ fs') vals d T2 St Ex), (C17_accepts_valid_partial s hs cs fs vals d T St Ex).
    split.
    - intros (K & AL & [V1 V2 V3]). split; [split; [exact K|]; split; [exact AL|]; constructor; auto|]; intros f Hf; apply V3; apply in_or_app; auto.
    - intros [(K & AL & [V1 V2 V3]) H]. split; [exact K|]. split; [exact AL|]. constructor; auto. intros f Hf. apply in_app_or in Hf. destruct Hf; auto.
  Qed.

  (** hyperparameters: each configuration is extended by any legal values of the new ones *)
  Definition without (hs : list hp) (vals : list (string * option value)) : list (string * option value) :=
    filter (fun e => negb (str_in (fst e) (map hp_name hs))) vals.
  Lemma given_without hs vals n : given (without hs vals) n = if str_in n (map hp_name hs) then None else given vals n.
  Proof.
    unfold given, without. induction vals as [|[k w] vals IH]; simpl; [destruct (str_in _ _); reflexivity|].
    destruct (str_in k (map hp_name hs)) eqn:Ek; simpl.
    - rewrite IH. destruct (String.eqb n k) eqn:En; [apply String.eqb_eq in En; subst; rewrite Ek; reflexivity|reflexivity].
    - destruct (String.eqb n k) eqn:En; [apply String.eqb_eq in En; subst; rewrite Ek; reflexivity|exact IH].
  Qed.
  Theorem C124_hyperparameters_partial s hs cs fs hs' s2 vals : tame s hs cs fs -> tame s2 (hs ++ hs') cs fs ->
    exact_all (hs ++ hs') (given vals) ->
    (accepted s2 vals <-> accepted s (without hs' vals) /\ forall h, In h hs' -> exists w, given vals (hp_name h) = Some w /\ legal_value h w = true).
  Proof.
    intros T T2 Ex. assert (O := built_ok _ _ _ _ (tm_built _ _ _ _ T)). assert (O2 := built_ok _ _ _ _ (tm_built _ _ _ _ T2)).
    assert (ND := so_names_nodup O2). rewrite map_app in ND.
    assert (New : forall h, In h hs -> str_in (hp_name h) (map hp_name hs') = false).
    { intros h Hh. destruct (str_in (hp_name h) (map hp_name hs')) eqn:Es; [|reflexivity]. exfalso. apply str_in_iff in Es.
      clear -ND Hh Es. induction hs as [|g l IH]; [destruct Hh|]. simpl in ND. apply NoDup_cons_iff in ND. destruct ND as [N ND].
      destruct Hh as [<-|Hh]; [apply N; apply in_or_app; right; exact Es|auto]. }
    assert (Free : forall h c, In h hs' -> In c cs -> ~ activates c (hp_name h)).
    { intros h c Hh Hc Ha. destruct (so_declared O _ _ Hc Ha) as (c' & Hc' & _).
      assert (Hk : In (hp_name h) (keys s)) by (apply (so_condof_key _ _ Hc')).
      apply (keys_hs O) in Hk. destruct Hk as (g & Hg & Eg). assert (K := New g Hg). rewrite Eg in K.
      assert (str_in (hp_name h) (map hp_name hs') = true) by (apply str_in_iff; apply in_map; exact Hh). congruence. }
    set (d := store (hs ++ hs') (given vals)). assert (St : stored (hs ++ hs') (given vals) d) by (apply store_stored; apply (so_names_nodup O2)).
    assert (St0 : stored hs (given (without hs' vals)) d).
    { intros h Hh. rewrite given_without, (New h Hh). apply St. apply in_or_app. left. exact Hh. }
    assert (Ex0 : exact_all hs (given (without hs' vals))).
    { intros h w Hh Hw. rewrite given_without, (New h Hh) in Hw. apply (Ex h w (in_or_app _ _ _ (or_introl Hh)) Hw). }
    unfold accepted. rewrite (C17_accepts_valid_partial s2 _ cs fs vals d T2 St Ex), (C17_accepts_valid_partial s hs cs fs _ d T St0 Ex0).
    assert (AL0 : all_legal hs (given (without hs' vals)) <-> all_legal hs (given vals)).
    { split; intros H h w Hh Hw; apply (H h w Hh); rewrite given_without, (New h Hh) in *; exact Hw. }
    rewrite AL0. split.
    - intros (K & AL & [V1 V2 V3]). split; [split; [|split]|].
      + intros k Hk. apply in_map_iff in Hk. destruct Hk as ([k' w] & <- & Hk). apply filter_In in Hk. destruct Hk as [Hk Hn]. simpl in *.
        destruct (K k' (in_map fst _ _ Hk)) as [->|K']; [left; reflexivity|]. right. rewrite map_app in K'. apply in_app_or in K'. destruct K' as [K'|K']; [exact K'|].
        exfalso. apply str_in_iff in K'. rewrite K' in Hn. discriminate.
      + intros h w Hh. apply AL. apply in_or_app. left. exact Hh.
      + constructor; [intros h w Hh; apply V1; apply in_or_app; left; exact Hh|intros h Hh; apply V2; apply in_or_app; left; exact Hh|exact V3].
      + intros h Hh. assert (Hi : In h (hs ++ hs')) by (apply in_or_app; right; exact Hh).
        destruct (given vals (hp_name h)) as [w|] eqn:Eg; [exists w; split; [reflexivity|exact (AL h w Hi Eg)]|].
        exfalso. apply (proj2 (V2 h Hi)); [intros c Hc Ha; exfalso; exact (Free h c Hh Hc Ha)|]. rewrite (St h Hi), Eg. reflexivity.
    - intros [(K & AL & [V1 V2 V3]) H]. assert (AL2 : all_legal (hs ++ hs') (given vals)).
      { intros h w Hh Hw. apply in_app_or in Hh. destruct Hh as [Hh|Hh]; [exact (AL h w Hh Hw)|]. destruct (H h Hh) as (w' & Hw' & Lw). congruence. }
      split; [|split; [exact AL2|]].
      + intros k Hk. destruct (str_in k (map hp_name hs')) eqn:Es; [right; rewrite map_app; apply in_or_app; right; apply str_in_iff; exact Es|].
        apply in_map_iff in Hk. destruct Hk as ([k' w] & <- & Hk). simpl in *. destruct (K k') as [K'|K'].
        * apply in_map_iff. exists (k', w). split; [reflexivity|]. apply filter_In. split; [exact Hk|]. simpl. rewrite Es. reflexivity.
        * left. exact K'.
        * right. rewrite map_app. apply in_or_app. left. exact K'.
      + constructor; [| |exact V3].
        * intros h w Hh Hw. rewrite (St h Hh) in Hw. destruct (given vals (hp_name h)) as [u|] eqn:Eu; [|discriminate]. simpl in Hw. injection Hw as <-.
          apply round_legal; [apply (so_constructed O2); exact Hh|exact (AL2 h u Hh Eu)].
        * intros h Hh. apply in_app_or in Hh. destruct Hh as [Hh|Hh]; [apply V2; exact Hh|]. split.
          -- intros _ c Hc Ha. exfalso. exact (Free h c Hh Hc Ha).
          -- intros _. destruct (H h Hh) as (w & Hw & _). rewrite (St h (in_or_app _ _ _ (or_intror Hh))), Hw. discriminate.
  Qed.

  (** a condition: where its child has a value it has to hold, nothing else changes *)
  Theorem C124_condition_partial s hs cs fs c n s2 vals d : tame s hs cs fs -> tame s2 hs (cs ++ [c]) fs -> activates c n ->
    stored hs (given vals) d -> exact_all hs (given vals) -> given vals n <> None ->
    (accepted s2 vals <-> accepted s vals /\ holds d c).
  Proof.
    intros T T2 Ha St Ex Hn. assert (O2 := built_ok _ _ _ _ (tm_built _ _ _ _ T2)).
    assert (Ic : In c (cs ++ [c])) by (apply in_or_app; right; left; reflexivity).
    destruct (so_declared O2 n c Ic Ha) as (c' & Hc' & _).
    assert (Hk : In n (keys s2)) by (apply (so_condof_key _ _ Hc')).
    apply (keys_hs O2) in Hk. destruct Hk as (g & Hg & Eg).
    assert (Dn : d n <> None). { rewrite <- Eg in *. rewrite (St g Hg). destruct (given vals (hp_name g)); [discriminate|congruence]. }
    unfold accepted. rewrite (C17_accepts_valid_partial s2 hs _ fs vals d T2 St Ex), (C17_accepts_valid_partial s hs cs fs vals d T St Ex).
    assert (Ac : forall m, active (cs ++ [c]) d m <-> active cs d m /\ (m = n -> holds d c)).
    { intros m. split.
      - intros H. split; [intros x Hx; apply H; apply in_or_app; left; exact Hx|]. intros ->. apply H; [apply in_or_app; right; left; reflexivity|exact Ha].
      - intros [H1 H2] x Hx Hxa. apply in_app_or in Hx. destruct Hx as [Hx|[<-|[]]]; [exact (H1 x Hx Hxa)|]. apply H2. unfold activates in *. congruence. }
    split.
    - intros (K & AL & [V1 V2 V3]). assert (Hd : holds d c).
      { specialize (V2 g Hg). rewrite Eg in V2. apply V2 in Dn. apply (proj1 (Ac n)) in Dn. apply Dn. reflexivity. }
      split; [|exact Hd]. split; [exact K|]. split; [exact AL|]. constructor; auto. intros h Hh. rewrite (V2 h Hh), Ac. tauto.
    - intros [(K & AL & [V1 V2 V3]) Hd]. split; [exact K|]. split; [exact AL|]. constructor; auto. intros h Hh. rewrite (V2 h Hh), Ac. tauto.
  Qed.

  (** ... where it has none it was valid before when no other condition made it active *)
  Theorem C124_inactive_partial s hs cs fs c n s2 vals d : tame s hs cs fs -> tame s2 hs (cs ++ [c]) fs -> activates c n ->
    stored hs (given vals) d -> exact_all hs (given vals) -> given vals n = None ->
    (accepted s vals <-> accepted s2 vals /\ ~ active cs d n).
  Proof.
    intros T T2 Ha St Ex Hn. assert (O2 := built_ok _ _ _ _ (tm_built _ _ _ _ T2)).
    assert (Ic : In c (cs ++ [c])) by (apply in_or_app; right; left; reflexivity).
    destruct (so_declared O2 n c Ic Ha) as (c' & Hc' & _).
    assert (Hk : In n (keys s2)) by (apply (so_condof_key _ _ Hc')).
    apply (keys_hs O2) in Hk. destruct Hk as (g & Hg & Eg).
    assert (Dn : d n = None). { rewrite <- Eg in *. rewrite (St g Hg), Hn. reflexivity. }
    unfold accepted. rewrite (C17_accepts_valid_partial s2 hs _ fs vals d T2 St Ex), (C17_accepts_valid_partial s hs cs fs vals d T St Ex).
    assert (Ac : forall m, active (cs ++ [c]) d m <-> active cs d m /\ (m = n -> holds d c)).
    { intros m. split.
      - intros H. split; [intros x Hx; apply H; apply in_or_app; left; exact Hx|]. intros ->. apply H; [exact Ic|exact Ha].
      - intros [H1 H2] x Hx Hxa. apply in_app_or in Hx. destruct Hx as [Hx|[<-|[]]]; [exact (H1 x Hx Hxa)|]. apply H2. unfold activates in *. congruence. }
    split.
    - intros (K & AL & [V1 V2 V3]). assert (NA : ~ active cs d n).
      { intros A. assert (Q := proj2 (V2 g Hg)). rewrite Eg in Q. exact (Q A Dn). }
      split; [|exact NA]. split; [exact K|]. split; [exact AL|]. constructor; auto. intros h Hh. rewrite (V2 h Hh), Ac. split; [|tauto].
      intros A. split; [exact A|]. intros E1. exfalso. apply NA. rewrite <- E1. exact A.
    - intros [(K & AL & [V1 V2 V3]) NA]. split; [exact K|]. split; [exact AL|]. constructor; auto. intros h Hh. rewrite (V2 h Hh), Ac. split; [tauto|].
      intros A. split; [exact A|]. intros E1. exfalso. apply NA. rewrite <- E1. exact A.
  Qed.
End Grow.

(** ** A space that grows by a hyperparameter, a condition and a clause *)
Section Example.
  #[local] Existing Instance rat_env.
  #[local] Existing Instance rat_env_laws.
  Definition g0 := fst (add empty_space [bin "p"; bin "q"] [on "1" "q" "p"] []).
  Definition g1 := fst (add g0 [bin "b"] [] []).
  Definition g2 := fst (add g1 [] [on "1" "b" "q"] []).
  Definition g3 := fst (add g2 [] [] [forbid "b" "0"]).
  Lemma g0_b : built g0 [bin "p"; bin "q"] [on "1" "q" "p"] [].
  Proof.
    apply (built_step empty_space [] [] [] [bin "p"; bin "q"] [on "1" "q" "p"] [] built_empty); [apply Forall_cons; [apply bin_c|]; apply Forall_cons; [apply bin_c|apply Forall_nil]|
      apply Forall_cons; [apply on_c; vm_compute; reflexivity|apply Forall_nil]|apply Forall_nil|vm_compute; reflexivity].
  Qed.
  Lemma g1_b : built g1 [bin "p"; bin "q"; bin "b"] [on "1" "q" "p"] [].
  Proof.
    apply (built_step g0 [bin "p"; bin "q"] [on "1" "q" "p"] [] [bin "b"] [] [] g0_b); [apply Forall_cons; [apply bin_c|apply Forall_nil]|apply Forall_nil|apply Forall_nil|vm_compute; reflexivity].
  Qed.
  Lemma g2_b : built g2 [bin "p"; bin "q"; bin "b"] [on "1" "q" "p"; on "1" "b" "q"] [].
  Proof.
    apply (built_step g1 [bin "p"; bin "q"; bin "b"] [on "1" "q" "p"] [] [] [on "1" "b" "q"] [] g1_b); [apply Forall_nil|apply Forall_cons; [apply on_c; vm_compute; reflexivity|apply Forall_nil]|apply Forall_nil|vm_compute; reflexivity].
  Qed.
  Lemma g3_add : add g2 [] [] [forbid "b" "0"] = (g3, Ok tt).
  Proof. assert (Q : snd (add g2 [] [] [forbid "b" "0"]) = Ok tt) by (vm_compute; reflexivity). rewrite <- Q. apply surjective_pairing. Qed.
  Lemma g3_f : Forall forb_built [forbid "b" "0"].
  Proof. apply Forall_cons; [apply forbid_c; vm_compute; reflexivity|apply Forall_nil]. Qed.
  Lemma g3_b : built g3 [bin "p"; bin "q"; bin "b"] [on "1" "q" "p"; on "1" "b" "q"] [forbid "b" "0"].
  Proof. apply (built_add _ _ _ _ _ [] [] _ g2_b (Forall_nil _) (Forall_nil _) g3_f g3_add). Qed.

  (** spaces of these parts are tame *)
  Definition all_conds := [on "1" "q" "p"; on "1" "b" "q"].
  Lemma all_refs fs : (fs = [] \/ fs = [forbid "b" "0"]) -> refs [bin "p"; bin "q"; bin "b"] all_conds fs.
  Proof.
    intros Hf. split.
    - intros c Hc l Hl. destruct Hc as [<-|[<-|[]]]; vm_compute in Hl; destruct Hl as [<-|[]]; split; vm_compute; tauto.
    - intros f H. destruct Hf as [-> | ->]; [destruct H|]. destruct H as [<-|[]]. intros x Hx. vm_compute in Hx. destruct Hx as [<-|[]]. vm_compute. tauto.
  Qed.
  Lemma all_merge io cs : (forall c, In c cs -> In c all_conds) -> merge_sound io cs.
  Proof.
    intros S c d v Hc Hd H. apply S in Hc. apply S in Hd. destruct Hc as [<-|[<-|[]]]; destruct Hd as [<-|[<-|[]]];
      first [reflexivity | exfalso; revert H; vm_compute; discriminate].
  Qed.
  Lemma all_ne cs : (forall c, In c cs -> In c all_conds) -> ne_safe cs.
  Proof.
    intros S c l w vv Hc Hl Ht. apply S in Hc. destruct Hc as [<-|[<-|[]]]; vm_compute in Hl;
      destruct Hl as [<-|[]]; exfalso; clear -Ht; vm_compute in Ht; discriminate Ht.
  Qed.
  Lemma all_cmp fs : (fs = [] \/ fs = [forbid "b" "0"]) -> forall f, In f fs -> comparable f.
  Proof.
    intros Hf f H. destruct Hf as [-> | ->]; [destruct H|]. destruct H as [<-|[]]. intros r a b Hr. exfalso.
    vm_compute in Hr. destruct Hr as [Hr|[]]. discriminate Hr.
  Qed.
  Lemma g1_t : tame g1 [bin "p"; bin "q"; bin "b"] [on "1" "q" "p"] [].
  Proof.
    constructor; [exact g1_b| | | |intros f []].
    - destruct (all_refs [] (or_introl eq_refl)) as [R1 _]. split; [|intros f []]. intros c [<-|[]]. apply R1. left. reflexivity.
    - apply all_merge. intros c [<-|[]]. left. reflexivity.
    - apply all_ne. intros c [<-|[]]. left. reflexivity.
  Qed.
  Lemma g0_t : tame g0 [bin "p"; bin "q"] [on "1" "q" "p"] [].
  Proof.
    constructor; [exact g0_b| | | |intros f []].
    - split; [|intros f []]. intros c [<-|[]] l Hl. vm_compute in Hl. destruct Hl as [<-|[]]. split; vm_compute; tauto.
    - apply all_merge. intros c [<-|[]]. left. reflexivity.
    - apply all_ne. intros c [<-|[]]. left. reflexivity.
  Qed.
  Lemma g2_t : tame g2 [bin "p"; bin "q"; bin "b"] all_conds [].
  Proof. constructor; [exact g2_b|apply all_refs; left; reflexivity|apply all_merge; auto|apply all_ne; auto|intros f []]. Qed.
  Lemma g3_t : tame g3 [bin "p"; bin "q"; bin "b"] all_conds [forbid "b" "0"].
  Proof. constructor; [exact g3_b|apply all_refs; right; reflexivity|apply all_merge; auto|apply all_ne; auto|apply all_cmp; right; reflexivity]. Qed.
  Lemma three_nodup : NoDup (map hp_name [bin "p"; bin "q"; bin "b"]).
  Proof. exact (so_names_nodup (built_ok _ _ _ _ g1_b)). Qed.
  Lemma three_exact d : exact_all [bin "p"; bin "q"; bin "b"] d.
  Proof. intros h w Hh _. destruct Hh as [<-|[<-|[<-|[]]]]; exact Logic.I. Qed.

  (** b = 0 is accepted once b is there, also under its condition, but no longer with the clause;
      with q = 0 the condition on q takes b away, and the default stays p = q = b = 1. *)
  Definition vals3 (q b : string) : list (string * option value) := [("p", Some (VStr "1")); ("q", Some (VStr q)); ("b", Some (VStr b))]%string.
  Example C124_ex :
    tame g0 [bin "p"; bin "q"] [on "1" "q" "p"] [] /\ tame g1 [bin "p"; bin "q"; bin "b"] [on "1" "q" "p"] [] /\
    tame g2 [bin "p"; bin "q"; bin "b"] all_conds [] /\ add g2 [] [] [forbid "b" "0"] = (g3, Ok tt) /\
    accepted g1 (vals3 "0" "0") /\ ~ accepted g2 (vals3 "0" "0") /\ accepted g2 (vals3 "1" "0") /\ ~ accepted g3 (vals3 "1" "0") /\
    accepted g3 (vals3 "1" "1") /\ get_default_configuration g3 = get_default_configuration g2.
  Proof.
    split; [exact g0_t|]. split; [exact g1_t|]. split; [exact g2_t|]. split; [exact g3_add|].
    assert (St : forall q b, stored [bin "p"; bin "q"; bin "b"] (given (vals3 q b)) (store [bin "p"; bin "q"; bin "b"] (given (vals3 q b))))
      by (intros q b; apply store_stored, three_nodup).
    assert (A0 : accepted g0 (without [bin "b"] (vals3 "0" "0"))) by (eexists; vm_compute; reflexivity).
    assert (A1 : accepted g1 (vals3 "0" "0")).
    { apply (C124_hyperparameters_partial g0 _ _ _ [bin "b"] g1 _ g0_t g1_t (three_exact _)). split; [exact A0|].
      intros h [<-|[]]. exists (VStr "0"). split; vm_compute; reflexivity. }
    assert (A2 : accepted g2 (vals3 "1" "0")).
    { apply (C124_condition_partial g1 _ [on "1" "q" "p"] _ (on "1" "b" "q") "b" g2 _ _ g1_t g2_t ltac:(vm_compute; reflexivity) (St "1"%string "0"%string) (three_exact _));
        [vm_compute; discriminate|]. split; [|vm_compute; eexists; split; reflexivity].
      apply (C124_hyperparameters_partial g0 _ _ _ [bin "b"] g1 _ g0_t g1_t (three_exact _)). split; [eexists; vm_compute; reflexivity|].
      intros h [<-|[]]. exists (VStr "0"). split; vm_compute; reflexivity. }
    split; [exact A1|]. split; [|split; [exact A2|split; [|split]]].
    - intros H. apply (C124_condition_partial g1 _ [on "1" "q" "p"] _ (on "1" "b" "q") "b" g2 _ _ g1_t g2_t ltac:(vm_compute; reflexivity) (St "0"%string "0"%string) (three_exact _)) in H;
        [|vm_compute; discriminate]. destruct H as [_ H]. vm_compute in H. destruct H as (w & Hw & H). inversion Hw; subst. discriminate H.
    - intros H. apply (C124_allowed_partial g2 _ _ [] [forbid "b" "0"] g3 _ _ g2_t g3_t (St "1"%string "0"%string) (three_exact _)) in H.
      destruct H as [_ H]. apply (H (forbid "b" "0")); [left; reflexivity|]. vm_compute. eexists; split; reflexivity.
    - apply (C124_allowed_partial g2 _ _ [] [forbid "b" "0"] g3 _ _ g2_t g3_t (St "1"%string "1"%string) (three_exact _)).
      split; [eexists; vm_compute; reflexivity|]. intros f [<-|[]] H. vm_compute in H. destruct H as (w & Hw & H). inversion Hw; subst. discriminate H.
    - apply (C124_default g2 g3 _ _ _ _ g2_b g3_f g3_add). apply all_refs. right. reflexivity.
  Qed.

  (** ... and without [tame] the condition need not hold: != on a parent that is inactive (C12) *)
  Definition off := get_or dummy_cond (mk_bin OpNe (bin "b") (bin "q") (VStr "1")).
  Definition g4 := fst (add g1 [] [off] []).
  Definition vals2 : list (string * option value) := [("p", Some (VStr "0")); ("b", Some (VStr "1"))]%string.
  Theorem C124_condition_refuted : exists s hs cs fs c n s2 vals d,
    tame s hs cs fs /\ add s [] [c] [] = (s2, Ok tt) /\ built s2 hs (cs ++ [c]) fs /\ refs hs (cs ++ [c]) fs /\ activates c n /\
    stored hs (given vals) d /\ exact_all hs (given vals) /\ given vals n <> None /\
    accepted s2 vals /\ accepted s vals /\ ~ holds d c.
  Proof.
    exists g1, [bin "p"; bin "q"; bin "b"], [on "1" "q" "p"], [], off, "b"%string, g4, vals2, (store [bin "p"; bin "q"; bin "b"] (given vals2)).
    split; [exact g1_t|].
    split; [assert (Q : snd (add g1 [] [off] []) = Ok tt) by (vm_compute; reflexivity); rewrite <- Q; apply surjective_pairing|].
    split; [|split; [|split; [vm_compute; reflexivity|split; [apply store_stored, three_nodup|split; [apply three_exact|split; [vm_compute; discriminate|]]]]]].
    - apply (built_step g1 [bin "p"; bin "q"; bin "b"] [on "1" "q" "p"] [] [] [off] [] g1_b); [apply Forall_nil| |apply Forall_nil|vm_compute; reflexivity].
      apply Forall_cons; [|apply Forall_nil]. apply (CB_bin OpNe (bin "b") (bin "q") (VStr "1") _ (bin_c _) (bin_c _)). vm_compute. reflexivity.
    - split; [|intros f []]. intros c Hc l Hl. destruct Hc as [<-|[<-|[]]]; vm_compute in Hl; destruct Hl as [<-|[]]; split; vm_compute; tauto.
    - split; [eexists; vm_compute; reflexivity|]. split; [eexists; vm_compute; reflexivity|].
      intros H. vm_compute in H. destruct H as (w & Hw & _). discriminate Hw.
  Qed.
End Example.
