(** * Property C146: spaces added under parent values in either order *)
From Coq Require Import String List ZArith QArith Bool Lia Permutation Relations.
From Verif Require Import Base ListFacts Numeric NumericProofs HP HPProofs Properties_HP Cond Forb EqFacts Dag DagProofs Space CommitProofs Spec
  SpaceProofs CnodeProofs ForbProofs EvalProofs ForbEval MergeProofs ValidProofs ConfigProofs ChangeProofs Ex Properties_Eval Properties_Config Properties_Graph
  Properties_Change Subspace RenameProofs Properties_Serial Properties_Sub Properties_SubParent Properties_Parts Properties_NestGrid Properties_Nest Properties_Order.
Import ListNotations.
Open Scope nat_scope.

(** the hyperparameters, conditions and clauses of [s] under the names given by [g] *)
Definition hps_as (g : string -> string) (s : space) : list hp := map (rename_hp g) (Space.hps s).
Definition conds_as (g : string -> string) (s : space) : list cond := map (rename_cond g) (conditions s).
Definition forbs_as (g : string -> string) (s : space) : list fclause := map (rename_forb g) (forbidden_clauses s).

Section Once.
  Context {E : Env} {L : EnvLaws E}.

  (** what the conditions [l] switch has a name of [ns] *)
  Definition within (ns : list string) (l : list cond) : Prop := forall c n, In c l -> activates c n -> In n ns.
  Lemma one_join a b l m : within a l -> within b m -> (forall n, In n a -> ~ In n b) -> one_condition l -> one_condition m -> one_condition (l ++ m).
  Proof.
    intros Wl Wm D Ol Om c c' n Hc Hc' A A'. apply in_app_or in Hc, Hc'. destruct Hc as [Hc|Hc], Hc' as [Hc'|Hc'].
    - apply (Ol c c' n); assumption.
    - exfalso. apply (D n); [apply (Wl c n Hc A)|apply (Wm c' n Hc' A')].
    - exfalso. apply (D n); [apply (Wl c' n Hc' A')|apply (Wm c n Hc A)].
    - apply (Om c c' n); assumption.
  Qed.
  Lemma within_app a b l m : within a l -> within b m -> within (a ++ b) (l ++ m).
  Proof. intros W1 W2 c n Hc A. apply in_or_app. apply in_app_or in Hc. destruct Hc as [Hc|Hc]; [left; apply (W1 c n Hc A)|right; apply (W2 c n Hc A)]. Qed.
  Lemma refs_within hz cz fz : refs hz cz fz -> within (map hp_name hz) cz.
  Proof. intros R c n Hc A. destruct (child_in _ _ _ _ _ R Hc A) as (h & Hh & <-). apply in_map, Hh. Qed.
  Lemma one_perm l m : Permutation l m -> one_condition l -> one_condition m.
  Proof. intros P O c c' n Hc Hc'. apply Permutation_sym in P. apply O; [apply (Permutation_in _ P Hc)|apply (Permutation_in _ P Hc')]. Qed.

  (** ** The declarations of the result *)
  Section Added.
    Variables (t s : space) (ht hs : list hp) (ct cs : list cond) (ft fs : list fclause) (p dl : string) (q : hp) (v : value) (x : Q).
    Hypotheses (Tt : tame t ht ct ft) (Ts : tame s hs cs fs) (U : distinct_strings s)
      (ND : NoDup (map hp_name ht ++ map (new_name p dl) (map hp_name hs))) (Hq : In q ht) (Hv : legal_value q v = true) (Hx : to_vector q v = Ok (Fin x))
      (Ne : forall c l w y, In c cs -> In l (dlcs c) -> l_test l <> TBin OpNe w y).
    Let g := new_name p dl.
    Let Os : space_ok s hs cs fs := built_ok _ _ _ _ (tm_built _ _ _ _ Ts).

    Lemma as_names : Permutation (map hp_name (hps_as g s)) (map g (map hp_name hs)).
    Proof. unfold hps_as. rewrite !map_map. apply Permutation_map, (so_hps Os). Qed.
    (** the roots of the source under their new names *)
    Definition roots_as (rs : list hp) : Prop := NoDup rs /\ forall h, In h rs <-> In h (hps_as g s) /\ ~ conditional (conds_as g s) (hp_name h).

    Lemma nest_desc : exists rs, roots_as rs /\
      tame (o_target (add_sub [] t s p dl (Some (q, v)))) (ht ++ hps_as g s) ((ct ++ conds_as g s) ++ map (gate q v (Fin x)) rs) (ft ++ forbs_as g s).
    Proof.
      destruct (sub_added p dl Tt Ts U ND) as (t2 & A & T2).
      assert (M := rs_made p dl Ts ND q v (Fin x) Hq Hv Hx t2 T2). assert (GA := gate_add p dl Tt Ts U ND q v (Fin x) Hq Hv Hx Ne t2 T2).
      assert (Rs := fun h => rs_spec p dl t2 T2 h). fold g in A, T2, M, GA, Rs. fold (hps_as g s) (conds_as g s) (forbs_as g s) in A, T2, M, GA, Rs.
      set (rs := root_params t2 (hps_as g s)) in *. exists rs. split.
      - split.
        + unfold rs, root_params. apply NoDup_filter. apply (NoDup_map_inv hp_name).
          apply (Permutation_NoDup (Permutation_sym as_names)). clear -ND. fold g in ND. induction (map hp_name ht) as [|y l IH]; [exact ND|]. inversion ND; auto.
        + intros h. rewrite (Rs h). split; intros [Hh Nc]; (split; [exact Hh|]); intros (c & Hc & Ac); apply Nc.
          * exists c. split; [apply in_or_app; right; exact Hc|exact Ac].
          * apply in_app_or in Hc. destruct Hc as [Hc|Hc]; [|exists c; auto]. exfalso.
            apply (NoDup_app_apart _ _ (hp_name h) ND); [apply (refs_within ht ct ft (tm_refs _ _ _ _ Tt) c _ Hc Ac)|].
            apply (Permutation_in _ as_names), in_map, Hh.
      - rewrite (add_sub_eq t s hs cs fs p dl (Some (q, v)) Ts U). cbv zeta. fold g. fold (hps_as g s) (conds_as g s) (forbs_as g s). rewrite A. fold rs. rewrite M.
        destruct rs as [|r rs']; simpl map in *; [simpl; rewrite (app_nil_r (ct ++ conds_as g s)); exact T2|]. destruct GA as (t3 & A3 & T3). rewrite A3. exact T3.
    Qed.
    Lemma as_within rs : roots_as rs -> within (map g (map hp_name hs)) (conds_as g s ++ map (gate q v (Fin x)) rs).
    Proof.
      intros (_ & Rs) c n Hc A. apply in_app_or in Hc. destruct Hc as [Hc|Hc]; apply in_map_iff in Hc; destruct Hc as (y & <- & Hy).
      - apply activates_rename in A. destruct A as (m & -> & A). apply in_map. apply (refs_within hs cs fs (tm_refs _ _ _ _ Ts) y m (jn_sub Ts U y Hy) A).
      - apply gate_activates in A. subst n. apply Rs in Hy. apply (Permutation_in _ as_names), in_map, Hy.
    Qed.
    Lemma as_once rs : roots_as rs -> one_condition cs -> one_condition (conds_as g s ++ map (gate q v (Fin x)) rs).
    Proof.
      intros (Nd & Rs) One.
      assert (Sw : forall y m, In y (conditions s) -> activates y m -> In m (map hp_name hs)).
      { intros y m Hy. apply (refs_within hs cs fs (tm_refs _ _ _ _ Ts) y m (jn_sub Ts U y Hy)). }
      assert (Mix : forall c h n, In c (conds_as g s) -> In h rs -> activates c n -> activates (gate q v (Fin x) h) n -> False).
      { intros c h n Hc Hh A A'. apply gate_activates in A'. subst n. apply Rs in Hh. apply (proj2 Hh). exists c. auto. }
      intros c c' n Hc Hc' A A'. apply in_app_or in Hc, Hc'. destruct Hc as [Hc|Hc], Hc' as [Hc'|Hc'].
      - apply in_map_iff in Hc, Hc'. destruct Hc as (y & <- & Hy), Hc' as (z & <- & Hz). apply activates_rename in A, A'.
        destruct A as (m & -> & A), A' as (m' & Q & A'). apply (sub_inj p dl ND) in Q; [|apply (Sw y m Hy A)|apply (Sw z m' Hz A')]. subst m'.
        f_equal. apply (One y z m); try assumption; apply (jn_sub Ts U); assumption.
      - exfalso. apply in_map_iff in Hc'. destruct Hc' as (h & <- & Hh). exact (Mix c h n Hc Hh A A').
      - exfalso. apply in_map_iff in Hc. destruct Hc as (h & <- & Hh). exact (Mix c' h n Hc' Hh A' A).
      - apply in_map_iff in Hc, Hc'. destruct Hc as (h & <- & Hh), Hc' as (k & <- & Hk). apply gate_activates in A, A'. f_equal.
        apply Rs in Hh, Hk. assert (N2 : NoDup (map hp_name (hps_as g s))).
        { apply (Permutation_NoDup (Permutation_sym as_names)). clear -ND. fold g in ND. induction (map hp_name ht) as [|y l IH]; [exact ND|]. inversion ND; auto. }
        apply (nodup_map_inj hp_name (hps_as g s) N2); [apply Hh|apply Hk|congruence].
    Qed.
  End Added.

  Lemma roots_same g s rs rs' : NoDup rs -> NoDup rs' -> (forall h, In h rs <-> In h (hps_as g s) /\ ~ conditional (conds_as g s) (hp_name h)) ->
    (forall h, In h rs' <-> In h (hps_as g s) /\ ~ conditional (conds_as g s) (hp_name h)) -> Permutation rs rs'.
  Proof. intros N N' H H'. apply NoDup_Permutation; [exact N|exact N'|]. intros h. rewrite H, H'. reflexivity. Qed.

  (** ** Two spaces *)
  Theorem C146_order_partial t ht ct ft s1 hs1 cs1 fs1 p1 dl1 q1 v1 s2 hs2 cs2 fs2 p2 dl2 q2 v2 :
    tame t ht ct ft -> tame s1 hs1 cs1 fs1 -> tame s2 hs2 cs2 fs2 -> distinct_strings s1 -> distinct_strings s2 ->
    NoDup (map hp_name ht ++ map (new_name p1 dl1) (map hp_name hs1) ++ map (new_name p2 dl2) (map hp_name hs2)) ->
    In q1 ht -> legal_value q1 v1 = true -> In q2 ht -> legal_value q2 v2 = true ->
    (forall c l w y, In c cs1 -> In l (dlcs c) -> l_test l <> TBin OpNe w y) -> (forall c l w y, In c cs2 -> In l (dlcs c) -> l_test l <> TBin OpNe w y) ->
    one_condition ct -> one_condition cs1 -> one_condition cs2 ->
    told_apart (ft ++ forbs_as (new_name p1 dl1) s1 ++ forbs_as (new_name p2 dl2) s2) ->
    let first := add_sub [] (o_target (add_sub [] t s1 p1 dl1 (Some (q1, v1)))) s2 p2 dl2 (Some (q2, v2)) in
    let second := add_sub [] (o_target (add_sub [] t s2 p2 dl2 (Some (q2, v2)))) s1 p1 dl1 (Some (q1, v1)) in
    o_res first = Ok tt /\ o_res second = Ok tt /\ same_results (o_target first) (o_target second).
  Proof.
    intros Tt T1 T2 U1 U2 ND Hq1 Hv1 Hq2 Hv2 Ne1 Ne2 Ot O1 O2 Ta. cbv zeta.
    set (g1 := new_name p1 dl1) in *. set (g2 := new_name p2 dl2) in *.
    assert (Ko := built_ok _ _ _ _ (tm_built _ _ _ _ Tt)).
    destruct (legal_finite q1 v1 (so_constructed Ko q1 Hq1) Hv1) as (x1 & Hx1). destruct (legal_finite q2 v2 (so_constructed Ko q2 Hq2) Hv2) as (x2 & Hx2).
    assert (P1 : Permutation (map hp_name (hps_as g1 s1)) (map g1 (map hp_name hs1))) by exact (as_names s1 hs1 cs1 fs1 p1 dl1 T1).
    assert (P2 : Permutation (map hp_name (hps_as g2 s2)) (map g2 (map hp_name hs2))) by exact (as_names s2 hs2 cs2 fs2 p2 dl2 T2).
    assert (N1 : NoDup (map hp_name ht ++ map g1 (map hp_name hs1))).
    { rewrite app_assoc in ND. revert ND. generalize (map hp_name ht ++ map g1 (map hp_name hs1)). intros l. generalize (map g2 (map hp_name hs2)). intros m N.
      induction l as [|y l IH]; [constructor|]. inversion N as [|? ? Ny Nl]; subst. constructor; [|apply IH, Nl]. intros K. apply Ny, in_or_app. auto. }
    assert (ND' : NoDup (map hp_name ht ++ map g2 (map hp_name hs2) ++ map g1 (map hp_name hs1))).
    { revert ND. apply Permutation_NoDup. apply Permutation_app_head, Permutation_app_comm. }
    assert (N2 : NoDup (map hp_name ht ++ map g2 (map hp_name hs2))).
    { rewrite app_assoc in ND'. revert ND'. generalize (map hp_name ht ++ map g2 (map hp_name hs2)). intros l. generalize (map g1 (map hp_name hs1)). intros m N.
      induction l as [|y l IH]; [constructor|]. inversion N as [|? ? Ny Nl]; subst. constructor; [|apply IH, Nl]. intros K. apply Ny, in_or_app. auto. }
    destruct (nest_desc t s1 ht hs1 ct cs1 ft fs1 p1 dl1 q1 v1 x1 Tt T1 U1 N1 Hq1 Hv1 Hx1 Ne1) as (r1 & R1 & D1).
    destruct (nest_desc t s2 ht hs2 ct cs2 ft fs2 p2 dl2 q2 v2 x2 Tt T2 U2 N2 Hq2 Hv2 Hx2 Ne2) as (r2 & R2 & D2).
    fold g1 in D1. fold g2 in D2.
    assert (N12 : NoDup (map hp_name (ht ++ hps_as g1 s1) ++ map g2 (map hp_name hs2))).
    { rewrite map_app, <- app_assoc. revert ND. apply Permutation_NoDup. apply Permutation_app_head, Permutation_app_tail, Permutation_sym, P1. }
    assert (N21 : NoDup (map hp_name (ht ++ hps_as g2 s2) ++ map g1 (map hp_name hs1))).
    { rewrite map_app, <- app_assoc. revert ND'. apply Permutation_NoDup. apply Permutation_app_head, Permutation_app_tail, Permutation_sym, P2. }
    assert (I2 : In q2 (ht ++ hps_as g1 s1)) by (apply in_or_app; auto). assert (I1 : In q1 (ht ++ hps_as g2 s2)) by (apply in_or_app; auto).
    destruct (nest_desc _ s2 _ hs2 _ cs2 _ fs2 p2 dl2 q2 v2 x2 D1 T2 U2 N12 I2 Hv2 Hx2 Ne2) as (r2' & R2' & D12).
    destruct (nest_desc _ s1 _ hs1 _ cs1 _ fs1 p1 dl1 q1 v1 x1 D2 T1 U1 N21 I1 Hv1 Hx1 Ne1) as (r1' & R1' & D21).
    fold g1 in D21. fold g2 in D12.
    split; [apply (C54_parent_partial _ _ _ _ s2 hs2 cs2 fs2 p2 dl2 q2 v2 D1 T2 U2 N12 I2 Hv2 Ne2)|].
    split; [apply (C54_parent_partial _ _ _ _ s1 hs1 cs1 fs1 p1 dl1 q1 v1 D2 T1 U1 N21 I1 Hv1 Ne1)|].
    assert (Q1 : Permutation r1 r1') by exact (roots_same g1 s1 r1 r1' (proj1 R1) (proj1 R1') (proj2 R1) (proj2 R1')).
    assert (Q2 : Permutation r2' r2) by exact (roots_same g2 s2 r2' r2 (proj1 R2') (proj1 R2) (proj2 R2') (proj2 R2)).
    set (A := conds_as g1 s1 ++ map (gate q1 v1 (Fin x1)) r1). set (B := conds_as g2 s2 ++ map (gate q2 v2 (Fin x2)) r2').
    assert (EA : (((ct ++ conds_as g1 s1) ++ map (gate q1 v1 (Fin x1)) r1) ++ conds_as g2 s2) ++ map (gate q2 v2 (Fin x2)) r2' = ct ++ A ++ B).
    { unfold A, B. rewrite <- !app_assoc. reflexivity. }
    assert (EB : (((ct ++ conds_as g2 s2) ++ map (gate q2 v2 (Fin x2)) r2) ++ conds_as g1 s1) ++ map (gate q1 v1 (Fin x1)) r1' =
      ct ++ (conds_as g2 s2 ++ map (gate q2 v2 (Fin x2)) r2) ++ (conds_as g1 s1 ++ map (gate q1 v1 (Fin x1)) r1')) by (rewrite <- !app_assoc; reflexivity).
    rewrite EA in D12. rewrite EB in D21.
    apply (C119_same_partial _ _ _ _ _ _ _ _ (tm_built _ _ _ _ D12) (tm_built _ _ _ _ D21)).
    - rewrite <- !app_assoc. apply Permutation_app_head, Permutation_app_comm.
    - apply Permutation_app_head. transitivity (B ++ A); [apply Permutation_app_comm|]. unfold A, B.
      apply Permutation_app; apply Permutation_app_head, Permutation_map; assumption.
    - rewrite <- !app_assoc. apply Permutation_app_head, Permutation_app_comm.
    - apply (one_join (map hp_name ht) (map g1 (map hp_name hs1) ++ map g2 (map hp_name hs2))).
      + apply (refs_within ht ct ft), (tm_refs _ _ _ _ Tt).
      + apply within_app; [apply (as_within s1 hs1 cs1 fs1 p1 dl1 q1 v1 x1 T1 U1 r1 R1)|apply (as_within s2 hs2 cs2 fs2 p2 dl2 q2 v2 x2 T2 U2 r2' R2')].
      + intros n. apply NoDup_app_apart, ND.
      + exact Ot.
      + apply (one_join (map g1 (map hp_name hs1)) (map g2 (map hp_name hs2))).
        * apply (as_within s1 hs1 cs1 fs1 p1 dl1 q1 v1 x1 T1 U1 r1 R1).
        * apply (as_within s2 hs2 cs2 fs2 p2 dl2 q2 v2 x2 T2 U2 r2' R2').
        * intros n. apply NoDup_app_apart. clear -ND. induction (map hp_name ht) as [|y l IH]; [exact ND|]. inversion ND; auto.
        * apply (as_once s1 ht hs1 cs1 fs1 p1 dl1 q1 v1 x1 T1 U1 N1 r1 R1 O1).
        * apply (as_once s2 ht hs2 cs2 fs2 p2 dl2 q2 v2 x2 T2 U2 N2 r2' R2' O2).
    - rewrite <- app_assoc. exact Ta.
  Qed.
End Once.

(** ** Example: the space of C142 under q = 1, and one with the binary z under q = 0 *)
Section Witness.
  Local Existing Instance rat_env.
  Local Existing Instance rat_env_laws.
  Definition z_space := fst (add empty_space [bin "z"] [] []).
  Lemma z_tame : tame z_space [bin "z"] [] [].
  Proof.
    assert (B : built z_space [bin "z"] [] []).
    { apply (built_step empty_space [] [] [] [bin "z"] [] [] built_empty); [constructor; [apply bin_c|constructor]|constructor|constructor|vm_compute; reflexivity]. }
    constructor; [exact B|split; [intros c []|intros f []]|intros c d v []|intros c l w vv []|intros f []].
  Qed.
  Definition s_then_r := add_sub [] (o_target (add_sub [] out_space in_space "s" ":" (Some (bin "q", VStr "1")))) z_space "r" ":" (Some (bin "q", VStr "0")).
  Definition r_then_s := add_sub [] (o_target (add_sub [] out_space z_space "r" ":" (Some (bin "q", VStr "0")))) in_space "s" ":" (Some (bin "q", VStr "1")).
  Example C146_ex : tame out_space [bin "q"] [] [] /\ tame in_space [bin "x"; bin "y"] [on "1" "y" "x"] [not0 "y"] /\ tame z_space [bin "z"] [] [] /\
    distinct_strings in_space /\ distinct_strings z_space /\
    NoDup (map hp_name [bin "q"] ++ map (new_name "s" ":") (map hp_name [bin "x"; bin "y"]) ++ map (new_name "r" ":") (map hp_name [bin "z"])) /\
    one_condition [on "1" "y" "x"] /\ told_apart ([] ++ forbs_as (new_name "s" ":") in_space ++ forbs_as (new_name "r" ":") z_space) /\
    o_res s_then_r = Ok tt /\ o_res r_then_s = Ok tt /\ same_results (o_target s_then_r) (o_target r_then_s) /\
    at_ (o_target s_then_r) = ["q"; "r:z"; "s:x"; "s:y"]%string.
  Proof.
    assert (U1 : distinct_strings in_space) by (apply (strings_distinct _ _ _ _ in_built); apply nodup_strings; vm_compute; reflexivity).
    assert (U2 : distinct_strings z_space) by (apply (strings_distinct _ _ _ _ (tm_built _ _ _ _ z_tame)); apply nodup_strings; vm_compute; reflexivity).
    assert (N : NoDup (map hp_name [bin "q"] ++ map (new_name "s" ":") (map hp_name [bin "x"; bin "y"]) ++ map (new_name "r" ":") (map hp_name [bin "z"])))
      by (apply nodup_strings; vm_compute; reflexivity).
    assert (O1 : one_condition [on "1" "y" "x"]) by (intros c c' n [<-|[]] [<-|[]] _ _; reflexivity).
    assert (Ta : told_apart ([] ++ forbs_as (new_name "s" ":") in_space ++ forbs_as (new_name "r" ":") z_space)).
    { intros f f' Hf Hf' _. vm_compute in Hf, Hf'. destruct Hf as [<-|[]], Hf' as [<-|[]]. reflexivity. }
    split; [exact out_tame|]. split; [exact in_tame|]. split; [exact z_tame|]. split; [exact U1|]. split; [exact U2|]. split; [exact N|]. split; [exact O1|]. split; [exact Ta|].
    assert (K : o_res s_then_r = Ok tt /\ o_res r_then_s = Ok tt /\ same_results (o_target s_then_r) (o_target r_then_s)).
    { apply (C146_order_partial out_space [bin "q"] [] [] in_space [bin "x"; bin "y"] [on "1" "y" "x"] [not0 "y"] "s" ":" (bin "q") (VStr "1")
        z_space [bin "z"] [] [] "r" ":" (bin "q") (VStr "0") out_tame in_tame z_tame U1 U2 N); try (vm_compute; auto; fail); try exact O1; try exact Ta;
        try (intros c l w x [<-|[]] Hl; vm_compute in Hl; destruct Hl as [<-|[]]; vm_compute; discriminate); try (intros c l w x Hc; destruct Hc); intros c c' n Hc; destruct Hc. }
    destruct K as (K1 & K2 & K3). split; [exact K1|]. split; [exact K2|]. split; [exact K3|]. vm_compute. reflexivity.
  Qed.
End Witness.
