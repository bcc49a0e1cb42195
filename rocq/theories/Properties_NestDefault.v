(** * Property C145: the default configuration of a space with an added space *)
From Coq Require Import String List ZArith QArith Bool Lia Permutation Relations.
From Verif Require Import Base ListFacts Numeric NumericProofs HP HPProofs Properties_HP Cond Forb EqFacts Dag DagProofs Space CommitProofs Spec
  SpaceProofs CnodeProofs ForbProofs EvalProofs ForbEval MergeProofs ValidProofs ConfigProofs ChangeProofs Ex Properties_Eval Properties_Config Properties_Graph
  Properties_Change Properties_Size Subspace Properties_Serial Properties_Sub Properties_SubParent Properties_Default Properties_Nest.
Import ListNotations.
Open Scope nat_scope.

Section NestDefault.
  Context {E : Env} {L : EnvLaws E}.
  Variables (t s : space) (ht hs : list hp) (ct cs : list cond) (ft fs : list fclause) (p dl : string).
  Hypotheses (Tt : tame t ht ct ft) (Ts : tame s hs cs fs) (U : distinct_strings s)
    (ND : NoDup (map hp_name ht ++ map (new_name p dl) (map hp_name hs))).
  Let g := new_name p dl.
  Let Os : space_ok s hs cs fs := built_ok _ _ _ _ (tm_built _ _ _ _ Ts).
  Let Ko : space_ok t ht ct ft := built_ok _ _ _ _ (tm_built _ _ _ _ Tt).
  Variables (c1 c2 : config).
  Hypotheses (H1 : get_default_configuration t = Ok c1) (H2 : get_default_configuration s = Ok c2).

  (** defaults of the parts, in any valid assignment of defaults *)
  Lemma default_parts d : takes_defaults (ht ++ map (rename_hp g) (Space.hps s)) d -> takes_defaults ht d /\ takes_defaults hs (fun n => d (g n)).
  Proof.
    intros Td. split; intros h w Hh Hw.
    - apply Td; [apply in_or_app; auto|exact Hw].
    - apply (Td (rename_hp g h) w); [|exact Hw]. apply in_or_app. right. apply in_map, (Permutation_in _ (Permutation_sym (so_hps Os)) Hh).
  Qed.
  Lemma default_t d : valid ht ct ft d -> takes_defaults ht d -> ~ differ ht d (reading t c1).
  Proof. apply (C139_unique t ht ct ft ft c1 d (tm_built _ _ _ _ Tt) (tm_refs _ _ _ _ Tt) H1). Qed.
  Lemma default_s d : valid hs cs fs d -> takes_defaults hs d -> ~ differ hs d (reading s c2).
  Proof. apply (C139_unique s hs cs fs fs c2 d (tm_built _ _ _ _ Ts) (tm_refs _ _ _ _ Ts) H2). Qed.

  (** without a parent: the default configuration consists of the two *)
  Theorem C145_beside_partial : exists c, get_default_configuration (o_target (add_sub [] t s p dl None)) = Ok c /\
    let d := reading (o_target (add_sub [] t s p dl None)) c in ~ differ ht d (reading t c1) /\ ~ differ hs (fun n => d (g n)) (reading s c2).
  Proof.
    destruct (sub_added p dl Tt Ts U ND) as (t' & A & T'). fold g in A, T'.
    assert (Eo : o_target (add_sub [] t s p dl None) = t').
    { rewrite (add_sub_eq t s hs cs fs p dl None Ts U). cbv zeta. fold g. rewrite A. reflexivity. }
    rewrite Eo. destruct (C21_exists _ _ _ _ (tm_built _ _ _ _ T')) as (c & H). exists c. split; [exact H|]. cbv zeta.
    destruct (C139_default _ _ _ _ _ (tm_built _ _ _ _ T') (tm_refs _ _ _ _ T') H) as (V & Td). destruct (default_parts _ Td) as (Td1 & Td2).
    apply (jn_valid g Tt Ts U (sub_inj p dl ND) (sub_apart p dl ND)) in V. destruct V as (V1 & V2). split; [apply default_t|apply default_s]; assumption.
  Qed.

  (** under a parent value: the part of the added space is its default configuration if the parent has the value by default, and empty otherwise *)
  Theorem C145_under_partial q v : In q ht -> legal_value q v = true -> (forall c l w x, In c cs -> In l (dlcs c) -> l_test l <> TBin OpNe w x) ->
    let T := o_target (add_sub [] t s p dl (Some (q, v))) in
    exists c, get_default_configuration T = Ok c /\ let d := reading T c in ~ differ ht d (reading t c1) /\
      (under q v (reading t c1) -> ~ differ hs (fun n => d (g n)) (reading s c2)) /\
      (~ under q v (reading t c1) -> forall h, In h hs -> d (g (hp_name h)) = None).
  Proof.
    intros Hq Hv Ne T. destruct (legal_finite q v (so_constructed Ko q Hq) Hv) as (x & Hx).
    destruct (gate_sub p dl Tt Ts U ND q v (Fin x) Hq Hv Hx Ne) as (_ & cs3 & T3 & V3). fold T g in T3, V3.
    destruct (C21_exists _ _ _ _ (tm_built _ _ _ _ T3)) as (c & H). exists c. split; [exact H|]. cbv zeta. set (d := reading T c) in *.
    destruct (C139_default _ _ _ _ _ (tm_built _ _ _ _ T3) (tm_refs _ _ _ _ T3) H) as (V & Td). fold d in V, Td. destruct (default_parts _ Td) as (Td1 & Td2).
    apply V3 in V. destruct V as (V1 & V2). assert (Df := default_t d V1 Td1). split; [exact Df|].
    assert (Un : under q v d <-> under q v (reading t c1)).
    { assert (K : match d (hp_name q), reading t c1 (hp_name q) with Some w, Some w' => py_eqb w w' = true | None, None => True | _, _ => False end).
      { destruct (d (hp_name q)) as [w|] eqn:Ed, (reading t c1 (hp_name q)) as [w'|] eqn:Er; [|exfalso; apply Df; exists q; rewrite Ed, Er; auto..|exact I].
        destruct (py_eqb w w') eqn:Q; [reflexivity|]. exfalso. apply Df. exists q. rewrite Ed, Er. auto. }
      split; intros (w & Hw & Q).
      - rewrite Hw in K. destruct (reading t c1 (hp_name q)) as [w'|] eqn:Er; [|destruct K]. exists w'. split; [exact Er|]. apply (py_eqb_trans _ w); [rewrite py_eqb_sym; exact K|exact Q].
      - rewrite Hw in K. destruct (d (hp_name q)) as [w'|] eqn:Er; [|destruct K]. exists w'. split; [exact Er|]. apply (py_eqb_trans _ w); [exact K|exact Q]. }
    rewrite <- Un. destruct V2 as [(Op & V2)|(Op & V2)]; (split; [intros Op'|intros Op' h Hh]); try contradiction.
    - apply default_s; assumption.
    - apply V2, in_map, Hh.
  Qed.
End NestDefault.

(** ** Example: the spaces of C142, with the default 1 of q, and below the value 0 of q *)
Section Witness.
  Local Existing Instance rat_env.
  Local Existing Instance rat_env_laws.
  Definition values_of (s : space) (ns : list string) : list (option value) :=
    match get_default_configuration s with Ok c => map (fun n => match getitem s c n with Ok w => Some w | Err _ => None end) ns | Err _ => [] end.
  Example C145_ex : tame out_space [bin "q"] [] [] /\ tame in_space [bin "x"; bin "y"] [on "1" "y" "x"] [not0 "y"] /\ distinct_strings in_space /\
    NoDup (map hp_name [bin "q"] ++ map (new_name "s" ":") (map hp_name [bin "x"; bin "y"])) /\
    legal_value (bin "q") (VStr "1") = true /\ legal_value (bin "q") (VStr "0") = true /\
    (forall c l w x, In c [on "1" "y" "x"] -> In l (dlcs c) -> l_test l <> TBin OpNe w x) /\
    values_of out_space ["q"]%string = [Some (VStr "1")] /\ values_of in_space ["x"; "y"]%string = [Some (VStr "1"); Some (VStr "1")] /\
    values_of (o_target (add_sub [] out_space in_space "s" ":" None)) ["q"; "s:x"; "s:y"]%string = [Some (VStr "1"); Some (VStr "1"); Some (VStr "1")] /\
    values_of (o_target (add_sub [] out_space in_space "s" ":" (Some (bin "q", VStr "1")))) ["q"; "s:x"; "s:y"]%string = [Some (VStr "1"); Some (VStr "1"); Some (VStr "1")] /\
    values_of (o_target (add_sub [] out_space in_space "s" ":" (Some (bin "q", VStr "0")))) ["q"; "s:x"; "s:y"]%string = [Some (VStr "1"); None; None].
  Proof.
    split; [exact out_tame|]. split; [exact in_tame|].
    split; [apply (strings_distinct _ _ _ _ in_built); apply nodup_strings; vm_compute; reflexivity|].
    split; [apply nodup_strings; vm_compute; reflexivity|]. split; [vm_compute; reflexivity|]. split; [vm_compute; reflexivity|].
    split. { intros c l w x [<-|[]] Hl. vm_compute in Hl. destruct Hl as [<-|[]]. vm_compute. discriminate. }
    vm_compute. auto 10.
  Qed.
End Witness.
