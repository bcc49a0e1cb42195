(** * Property C139: the default configuration is the only valid one with the default values *)
From Coq Require Import String List ZArith QArith Qround Bool Lia Lqa Permutation Relations.
From Verif Require Import Base ListFacts Numeric HP HPProofs Properties_HP Cond Forb EqFacts Dag DagProofs
  Space CommitProofs Spec SpaceProofs CnodeProofs ForbProofs EvalProofs ForbEval MergeProofs ValidProofs ConfigProofs
  ChangeProofs PassProofs ReadProofs SampleProofs Ex Properties_Graph Properties_Eval Properties_Config Properties_Change Properties_Sample
  Serial Properties_Serial Priors Properties_Priors Subspace RenameProofs Properties_Sub Properties_SubParent
  Dist DistProofs Properties_Dist Properties_Size Properties_Array Properties_Reach Properties_Mass Properties_Add Properties_Exchange Properties_Chance
  Properties_Repair Properties_Parts.
Import ListNotations.
Open Scope nat_scope.

(** every value is the default of its hyperparameter *)
Definition takes_defaults (hs : list hp) (d : assignment) : Prop :=
  forall h w, In h hs -> d (hp_name h) = Some w -> py_eqb w (hp_default h) = true.

Section Default.
  Context {E : Env} {L : EnvLaws E}.

  Theorem C139_default s hs cs fs c : built s hs cs fs -> refs hs cs fs -> get_default_configuration s = Ok c ->
    valid hs cs fs (reading s c) /\ takes_defaults hs (reading s c).
  Proof.
    intros B R H. split; [exact (C21_valid _ _ _ _ _ B R H)|]. intros h w Hh Hw. unfold reading in Hw.
    destruct (getitem s c (hp_name h)) as [v|] eqn:Eg; [|discriminate]. injection Hw as <-. exact (C21_defaults _ _ _ _ _ _ _ B H Hh Eg).
  Qed.

  Lemma defaults_agree s hs cs fs d d' : built s hs cs fs -> refs hs cs fs -> valid hs cs [] d -> valid hs cs [] d' ->
    takes_defaults hs d -> takes_defaults hs d' -> ~ differ hs d d'.
  Proof.
    intros B R V V' T T'. apply (C31_determined s hs cs fs [] d d' B R V V'). intros h w w' Hh Hw Hw'.
    apply (py_eqb_trans _ (hp_default h)); [apply (T h w Hh Hw)|]. rewrite py_eqb_sym. apply (T' h w' Hh Hw').
  Qed.
  Lemma valid_free hs cs fs d : valid hs cs fs d -> valid hs cs [] d.
  Proof. intros [Vl Va _]. constructor; [exact Vl|exact Va|intros f []]. Qed.

  (** no other assignment with default values is valid; which clauses there are makes no difference *)
  Theorem C139_unique s hs cs fs fs' c d : built s hs cs fs -> refs hs cs fs -> get_default_configuration s = Ok c ->
    valid hs cs fs' d -> takes_defaults hs d -> ~ differ hs d (reading s c).
  Proof.
    intros B R H V T. destruct (C139_default _ _ _ _ _ B R H) as (V' & T'). apply (defaults_agree s hs cs fs); eauto using valid_free.
  Qed.

  (** ** The order of the declarations and the clauses do not matter *)
  Lemma valid_perm hs cs fs hs' cs' d : (forall h, In h hs -> In h hs') -> (forall c, In c cs <-> In c cs') -> valid hs' cs' fs d -> valid hs cs [] d.
  Proof.
    intros Hi Hc [Vl Va _]. constructor; [intros h w Hh; apply Vl, Hi, Hh| |intros f []]. intros h Hh. rewrite (Va h (Hi h Hh)).
    split; intros A c Kc Ka; (apply A; [apply Hc; exact Kc|exact Ka]).
  Qed.
  Theorem C139_order s s' hs hs' cs cs' fs fs' c c' : built s hs cs fs -> built s' hs' cs' fs' -> refs hs cs fs -> refs hs' cs' fs' ->
    Permutation hs hs' -> (forall x, In x cs <-> In x cs') ->
    get_default_configuration s = Ok c -> get_default_configuration s' = Ok c' -> ~ differ hs (reading s c) (reading s' c').
  Proof.
    intros B B' R R' P Q H H'. destruct (C139_default _ _ _ _ _ B R H) as (V & T), (C139_default _ _ _ _ _ B' R' H') as (V' & T').
    assert (I : forall h, In h hs -> In h hs') by (intros h; apply Permutation_in; exact P).
    apply (defaults_agree s hs cs fs); [exact B|exact R|eapply valid_free; exact V|apply (valid_perm hs cs fs' hs' cs' _ I Q V')|exact T|].
    intros h w Hh. apply T', I, Hh.
  Qed.

  (** ** What is added below or beside does not change the default values above *)
  Theorem C139_grow s s' hs hs' cs cs' fs fs' c c' : built s hs cs fs -> refs hs cs fs ->
    built s' (hs ++ hs') (cs ++ cs') fs' -> refs (hs ++ hs') (cs ++ cs') fs' ->
    (forall x n, In x cs' -> activates x n -> ~ In n (map hp_name hs)) ->
    get_default_configuration s = Ok c -> get_default_configuration s' = Ok c' -> ~ differ hs (reading s c) (reading s' c').
  Proof.
    intros B R B' R' Nw H H'. destruct (C139_default _ _ _ _ _ B R H) as (V & T), (C139_default _ _ _ _ _ B' R' H') as (V' & T').
    apply (defaults_agree s hs cs fs); [exact B|exact R|eapply valid_free; exact V| |exact T|].
    - destruct V' as [Vl Va _]. constructor; [intros h w Hh; apply Vl; apply in_app_iff; auto| |intros f []]. intros h Hh.
      rewrite (Va h); [|apply in_app_iff; auto]. split; intros A x Hx Ha; [apply A; [apply in_app_iff; auto|exact Ha]|].
      apply in_app_iff in Hx. destruct Hx as [Hx|Hx]; [apply A; assumption|]. exfalso. apply (Nw x _ Hx Ha). apply in_map. exact Hh.
    - intros h w Hh. apply T'. apply in_app_iff. auto.
  Qed.
  (** a condition on an old hyperparameter may change what was the default: see [C139_ex] *)

  (** ** Unrelated parts: a space made of two spaces *)
  Theorem C139_parts s s1 s2 hs1 hs2 cs1 cs2 fs1 fs2 c c1 c2 : parts hs1 hs2 cs1 cs2 fs1 fs2 ->
    built s (hs1 ++ hs2) (cs1 ++ cs2) (fs1 ++ fs2) -> built s1 hs1 cs1 fs1 -> built s2 hs2 cs2 fs2 ->
    get_default_configuration s = Ok c -> get_default_configuration s1 = Ok c1 -> get_default_configuration s2 = Ok c2 ->
    ~ differ hs1 (reading s c) (reading s1 c1) /\ ~ differ hs2 (reading s c) (reading s2 c2).
  Proof.
    intros P B B1 B2 H H1 H2. assert (R1 := pt_left _ _ _ _ _ _ P). assert (R2 := pt_right _ _ _ _ _ _ P).
    assert (R : refs (hs1 ++ hs2) (cs1 ++ cs2) (fs1 ++ fs2)).
    { split.
      - intros x Hx l Hl. apply in_app_iff in Hx. destruct Hx as [Hx|Hx]; [destruct (proj1 R1 x Hx l Hl)|destruct (proj1 R2 x Hx l Hl)]; split; apply in_app_iff; auto.
      - intros f Hf h Hh. apply in_app_iff in Hf. apply in_app_iff. destruct Hf as [Hf|Hf]; [left; apply (proj2 R1 f Hf h Hh)|right; apply (proj2 R2 f Hf h Hh)]. }
    destruct (C139_default _ _ _ _ _ B R H) as (V & T), (C139_default _ _ _ _ _ B1 R1 H1) as (V1 & T1), (C139_default _ _ _ _ _ B2 R2 H2) as (V2 & T2).
    apply (C136_valid _ _ _ _ _ _ _ P) in V. destruct V as (Va & Vb).
    split; [apply (defaults_agree s1 hs1 cs1 fs1)|apply (defaults_agree s2 hs2 cs2 fs2)]; eauto using valid_free;
      intros h w Hh; apply T; apply in_app_iff; auto.
  Qed.

  (** *** ... which can be made whenever the two can be made

      Missing: conditions that are not all conjunctions or all disjunctions (merging may then change what is active). *)
  Lemma reads_left hs1 hs2 cs1 cs2 fs1 fs2 p n : parts hs1 hs2 cs1 cs2 fs1 fs2 -> clos_trans _ (reads (cs1 ++ cs2)) p n ->
    (clos_trans _ (reads cs1) p n /\ In p (map hp_name hs1) /\ In n (map hp_name hs1)) \/
    (clos_trans _ (reads cs2) p n /\ In p (map hp_name hs2) /\ In n (map hp_name hs2)).
  Proof.
    intros P D. assert (R1 := pt_left _ _ _ _ _ _ P). assert (R2 := pt_right _ _ _ _ _ _ P).
    assert (Ap : forall m, In m (map hp_name hs1) -> In m (map hp_name hs2) -> False).
    { intros m A B. apply in_map_iff in A, B. destruct A as (g & <- & Hg), B as (h & Eh & Hh). exact (parts_apart _ _ _ _ _ _ _ _ P Hg Hh (eq_sym Eh)). }
    induction D as [a b (x & Hx & Ha & Hp)|a b e D1 IH1 D2 IH2].
    - apply in_app_iff in Hx. destruct Hx as [Hx|Hx]; [left|right]; (split; [apply t_step; exists x; auto|]).
      + split; [exact (refs_parent _ x a (proj1 R1 x Hx) Hp)|exact (refs_child _ x b (proj1 R1 x Hx) Ha)].
      + split; [exact (refs_parent _ x a (proj1 R2 x Hx) Hp)|exact (refs_child _ x b (proj1 R2 x Hx) Ha)].
    - destruct IH1 as [(A1 & A2 & A3)|(A1 & A2 & A3)], IH2 as [(B1 & B2 & B3)|(B1 & B2 & B3)].
      + left. split; [eapply t_trans; eassumption|auto].
      + exfalso. exact (Ap b A3 B2).
      + exfalso. exact (Ap b B2 A3).
      + right. split; [eapply t_trans; eassumption|auto].
  Qed.

  Theorem C139_joined_partial s1 s2 hs1 hs2 cs1 cs2 fs1 fs2 : parts hs1 hs2 cs1 cs2 fs1 fs2 ->
    tame s1 hs1 cs1 fs1 -> tame s2 hs2 cs2 fs2 -> mergeable (cs1 ++ cs2) -> ~ In (FAnd []) (fs1 ++ fs2) ->
    exists s, add empty_space (hs1 ++ hs2) (cs1 ++ cs2) (fs1 ++ fs2) = (s, Ok tt).
  Proof.
    intros P T1 T2 M Ne. assert (B1 := tm_built _ _ _ _ T1). assert (B2 := tm_built _ _ _ _ T2).
    assert (O1 := built_ok _ _ _ _ B1). assert (O2 := built_ok _ _ _ _ B2).
    assert (R1 := pt_left _ _ _ _ _ _ P). assert (R2 := pt_right _ _ _ _ _ _ P).
    assert (R : refs (hs1 ++ hs2) (cs1 ++ cs2) (fs1 ++ fs2)).
    { split.
      - intros x Hx l Hl. apply in_app_iff in Hx. destruct Hx as [Hx|Hx]; [destruct (proj1 R1 x Hx l Hl)|destruct (proj1 R2 x Hx l Hl)]; split; apply in_app_iff; auto.
      - intros f Hf h Hh. apply in_app_iff in Hf. apply in_app_iff. destruct Hf as [Hf|Hf]; [left; apply (proj2 R1 f Hf h Hh)|right; apply (proj2 R2 f Hf h Hh)]. }
    apply (C73_add_iff_partial empty_space [] [] [] (hs1 ++ hs2) (cs1 ++ cs2) (fs1 ++ fs2) built_empty); try assumption; simpl.
    - apply Forall_forall. intros h Hh. apply in_app_iff in Hh. destruct Hh; [apply (so_constructed O1)|apply (so_constructed O2)]; assumption.
    - apply Forall_forall. intros x Hx. apply in_app_iff in Hx. destruct Hx; [apply (so_cond_built O1)|apply (so_cond_built O2)]; assumption.
    - apply Forall_forall. intros f Hf. apply in_app_iff in Hf. destruct Hf; [apply (so_forb_built O1)|apply (so_forb_built O2)]; assumption.
    - intros x l w vv Hx Hl Ht (y & Hy & Ya). apply in_app_iff in Hx, Hy. unfold parent_name in Ya.
      destruct Hx as [Hx|Hx], Hy as [Hy|Hy].
      + apply (tm_ne _ _ _ _ T1 x l w vv Hx Hl Ht). exists y. auto.
      + destruct (child_in _ _ _ _ _ R2 Hy Ya) as (g & Hg & En). destruct (proj1 R1 x Hx l Hl) as [_ Hp].
        exact (parts_apart _ _ _ _ _ _ _ _ P Hp Hg (eq_sym En)).
      + destruct (child_in _ _ _ _ _ R1 Hy Ya) as (g & Hg & En). destruct (proj1 R2 x Hx l Hl) as [_ Hp].
        exact (parts_apart _ _ _ _ _ _ _ _ P Hg Hp En).
      + apply (tm_ne _ _ _ _ T2 x l w vv Hx Hl Ht). exists y. auto.
    - intros f Hf. apply in_app_iff in Hf. destruct Hf; [apply (tm_cmp _ _ _ _ T1)|apply (tm_cmp _ _ _ _ T2)]; assumption.
    - split; [exact (pt_names _ _ _ _ _ _ P)|]. split; [|split].
      + intros x x' n Hx Hx' Ha Ha'. apply in_app_iff in Hx, Hx'.
        assert (Ap : In n (map hp_name hs1) -> In n (map hp_name hs2) -> False).
        { intros A B. apply in_map_iff in A, B. destruct A as (g & <- & Hg), B as (h & Eh & Hh). exact (parts_apart _ _ _ _ _ _ _ _ P Hg Hh (eq_sym Eh)). }
        destruct Hx as [Hx|Hx], Hx' as [Hx'|Hx'].
        * exact (C06_one_condition _ _ _ _ x x' n B1 Hx Hx' Ha Ha').
        * exfalso. exact (Ap (refs_child _ x n (proj1 R1 x Hx) Ha) (refs_child _ x' n (proj1 R2 x' Hx') Ha')).
        * exfalso. exact (Ap (refs_child _ x' n (proj1 R1 x' Hx') Ha') (refs_child _ x n (proj1 R2 x Hx) Ha)).
        * exact (C06_one_condition _ _ _ _ x x' n B2 Hx Hx' Ha Ha').
      + intros n D. destruct (reads_left _ _ _ _ _ _ _ _ P D) as [(D' & _)|(D' & _)]; [exact (C05_acyclic _ _ _ _ B1 n D')|exact (C05_acyclic _ _ _ _ B2 n D')].
      + destruct (C21_exists _ _ _ _ B1) as (c1 & H1). destruct (C21_exists _ _ _ _ B2) as (c2 & H2).
        destruct (default_sound s1 hs1 cs1 fs1 c1 O1 R1 (tm_merge _ _ _ _ T1) (tm_ne _ _ _ _ T1) H1) as (d1 & D1 & F1).
        destruct (default_sound s2 hs2 cs2 fs2 c2 O2 R2 (tm_merge _ _ _ _ T2) (tm_ne _ _ _ _ T2) H2) as (d2 & D2 & F2).
        set (d := fun n => if str_in n (map hp_name hs1) then d1 n else d2 n).
        assert (El : forall h, In h hs1 -> d (hp_name h) = d1 (hp_name h)).
        { intros h Hh. unfold d. replace (str_in (hp_name h) (map hp_name hs1)) with true; [reflexivity|]. symmetry. apply str_in_iff. apply in_map. exact Hh. }
        assert (Er : forall h, In h hs2 -> d (hp_name h) = d2 (hp_name h)).
        { intros h Hh. unfold d. destruct (str_in (hp_name h) (map hp_name hs1)) eqn:Es; [|reflexivity]. exfalso. apply str_in_iff, in_map_iff in Es.
          destruct Es as (g & En & Hg). exact (parts_apart _ _ _ _ _ _ _ _ P Hg Hh En). }
        assert (Al : forall h, In h hs1 -> (active (cs1 ++ cs2) d (hp_name h) <-> active cs1 d1 (hp_name h))).
        { intros h Hh. rewrite (active_left _ _ _ _ _ _ d h P Hh). split; intros A x Hx Ha;
            (apply (holds_ext d d1 x); [intros l Hl; apply El; apply (proj1 R1 x Hx l Hl)|apply A; assumption]). }
        assert (Ar : forall h, In h hs2 -> (active (cs1 ++ cs2) d (hp_name h) <-> active cs2 d2 (hp_name h))).
        { intros h Hh. rewrite (active_right _ _ _ _ _ _ d h P Hh). split; intros A x Hx Ha;
            (apply (holds_ext d d2 x); [intros l Hl; apply Er; apply (proj1 R2 x Hx l Hl)|apply A; assumption]). }
        exists d. split.
        * intros h Hh. apply in_app_iff in Hh. destruct Hh as [Hh|Hh].
          -- rewrite (Al h Hh), (El h Hh). apply D1, Hh.
          -- rewrite (Ar h Hh), (Er h Hh). apply D2, Hh.
        * intros f Hf Hv. apply in_app_iff in Hf. destruct Hf as [Hf|Hf].
          -- apply (F1 f Hf). revert Hv. apply violated_mono. intros n Hn w Hw.
             assert (Hi := refs_forb hs1 f n (proj2 R1 f Hf) Hn). apply in_map_iff in Hi. destruct Hi as (h & <- & Hh).
             exists w. split; [rewrite <- (El h Hh); exact Hw|apply py_eqb_refl].
          -- apply (F2 f Hf). revert Hv. apply violated_mono. intros n Hn w Hw.
             assert (Hi := refs_forb hs2 f n (proj2 R2 f Hf) Hn). apply in_map_iff in Hi. destruct Hi as (h & <- & Hh).
             exists w. split; [rewrite <- (Er h Hh); exact Hw|apply py_eqb_refl].
  Qed.

  (** ** add_configuration_space: the defaults of the target stay, and those of the source come in exactly when the
      default of the parent is the given value; guards of C54 *)
  Theorem C139_subspace_partial t ht ct ft s hs cs fs p dl q v ct0 cs0 c : tame t ht ct ft -> tame s hs cs fs -> distinct_strings s ->
    NoDup (map hp_name ht ++ map (new_name p dl) (map hp_name hs)) ->
    In q ht -> legal_value q v = true -> (forall c l w x, In c cs -> In l (dlcs c) -> l_test l <> TBin OpNe w x) ->
    get_default_configuration t = Ok ct0 -> get_default_configuration s = Ok cs0 ->
    let o := add_sub [] t s p dl (Some (q, v)) in get_default_configuration (o_target o) = Ok c ->
    ~ differ ht (reading t ct0) (reading (o_target o) c) /\
    ((exists w, reading t ct0 (hp_name q) = Some w /\ py_eqb w v = true) ->
      ~ differ hs (reading s cs0) (fun n => reading (o_target o) c (new_name p dl n))) /\
    (~ (exists w, reading t ct0 (hp_name q) = Some w /\ py_eqb w v = true) ->
      forall h, In h hs -> reading (o_target o) c (new_name p dl (hp_name h)) = None).
  Proof.
    intros Tt Ts U ND Hq Lv Nn Ht Hs o Ho. assert (Bt := tm_built _ _ _ _ Tt). assert (Bs := tm_built _ _ _ _ Ts).
    assert (Rt := tm_refs _ _ _ _ Tt). assert (Rs := tm_refs _ _ _ _ Ts). assert (Ot := built_ok _ _ _ _ Bt). assert (Os := built_ok _ _ _ _ Bs).
    destruct (C54_parent_partial t ht ct ft s hs cs fs p dl q v Tt Ts U ND Hq Lv Nn) as (_ & _ & Gt & Gs & ht' & ct' & ft' & T' & Iff). fold o in Gt, Gs, T', Iff.
    assert (B' := tm_built _ _ _ _ T'). assert (O' := built_ok _ _ _ _ B').
    destruct (C139_default _ _ _ _ _ B' (tm_refs _ _ _ _ T') Ho) as (V' & D'). apply Iff in V'. destruct V' as (V1 & V2).
    destruct (C139_default _ _ _ _ _ Bt Rt Ht) as (Vt & Dt). destruct (C139_default _ _ _ _ _ Bs Rs Hs) as (Vs & Ds).
    set (d' := reading (o_target o) c) in *.
    assert (D1 : takes_defaults ht d').
    { intros h w Hh Hw. apply D'; [|exact Hw]. apply (so_get_hp O' (hp_name h) h). apply Gt. apply (so_get_hp Ot). auto. }
    assert (D2 : takes_defaults hs (fun n => d' (new_name p dl n))).
    { intros h w Hh Hw. destruct (Gs (hp_name h) h) as (h' & G' & (N' & _ & K' & _)); [apply (so_get_hp Os); auto|].
      apply (so_get_hp O') in G'. rewrite <- K'. apply D'; [apply G'|]. rewrite N'. exact Hw. }
    assert (A1 : ~ differ ht (reading t ct0) d') by (apply (defaults_agree t ht ct ft); eauto using valid_free).
    assert (Eq : (exists w, reading t ct0 (hp_name q) = Some w /\ py_eqb w v = true) <-> (exists w, d' (hp_name q) = Some w /\ py_eqb w v = true)).
    { assert (K : match reading t ct0 (hp_name q), d' (hp_name q) with Some a, Some b => py_eqb a b = true | None, None => True | _, _ => False end).
      { destruct (reading t ct0 (hp_name q)) as [a|] eqn:Ea, (d' (hp_name q)) as [b|] eqn:Eb; [|exfalso..|exact I].
        - destruct (py_eqb a b) eqn:Eab; [reflexivity|]. exfalso. apply A1. exists q. split; [exact Hq|]. rewrite Ea, Eb. exact Eab.
        - apply A1. exists q. split; [exact Hq|]. rewrite Ea, Eb. exact I.
        - apply A1. exists q. split; [exact Hq|]. rewrite Ea, Eb. exact I. }
      destruct (reading t ct0 (hp_name q)) as [a|], (d' (hp_name q)) as [b|]; try contradiction K; [|split; intros (w & Hw & _); discriminate Hw].
      split; intros (w & Hw & Ew); injection Hw as <-.
      - exists b. split; [reflexivity|]. apply (py_eqb_trans _ a); [rewrite py_eqb_sym; exact K|exact Ew].
      - exists a. split; [reflexivity|]. apply (py_eqb_trans _ b); [exact K|exact Ew]. }
    split; [exact A1|]. split.
    - intros Yes. apply Eq in Yes. destruct V2 as [(_ & V2)|(No & _)]; [|contradiction].
      apply (defaults_agree s hs cs fs); eauto using valid_free.
    - intros No h Hh. destruct V2 as [(Yes & _)|(_ & V2)]; [exfalso; apply No, Eq, Yes|]. apply V2.
      apply (Permutation_in _ (Permutation_sym (so_keys Os))). apply in_map. exact Hh.
  Qed.
End Default.

(** ** Examples: the parts of C136 (x is active when r is 1), and a space where x is active when r is 0; 1 is the default *)
Section Witness.
  #[local] Existing Instance rat_env.
  #[local] Existing Instance rat_env_laws.
  Definition default_of (s : space) : config := get_or (mk_config [] None false) (get_default_configuration s).
  Definition loose_space := fst (add empty_space left_hps [] []).
  Definition off_conds := [on "0" "x" "r"].
  Definition off_space := fst (add empty_space left_hps off_conds []).
  Lemma loose_built : built loose_space left_hps [] [].
  Proof. apply (built_step empty_space [] [] [] left_hps [] [] built_empty left_hps_c (Forall_nil _) (Forall_nil _)). vm_compute. reflexivity. Qed.
  Lemma off_built : built off_space left_hps off_conds [].
  Proof.
    apply (built_step empty_space [] [] [] left_hps off_conds [] built_empty left_hps_c); [|constructor|vm_compute; reflexivity].
    constructor; [|constructor]. apply (CB_bin OpEq (bin "x") (bin "r") (VStr "0") _ (bin_c _) (bin_c _)). vm_compute. reflexivity.
  Qed.
  Example C139_ex : parts left_hps right_hps left_conds [] [] [right_and] /\
    tame left_space left_hps left_conds [] /\ tame right_space right_hps [] [right_and] /\
    mergeable (left_conds ++ []) /\ ~ In (FAnd []) ([] ++ [right_and]) /\
    built both_space (left_hps ++ right_hps) (left_conds ++ []) ([] ++ [right_and]) /\
    get_default_configuration both_space = Ok (default_of both_space) /\ get_default_configuration left_space = Ok (default_of left_space) /\
    get_default_configuration right_space = Ok (default_of right_space) /\
    (forall x n, In x ([] : list cond) -> activates x n -> ~ In n (map hp_name left_hps)) /\
    map (getitem both_space (default_of both_space)) ["r"; "x"; "p"; "q"]%string = [Ok (VStr "1"); Ok (VStr "1"); Ok (VStr "1"); Ok (VStr "1")] /\
    built off_space left_hps off_conds [] /\ refs left_hps off_conds [] /\
    map (getitem off_space (default_of off_space)) ["r"; "x"]%string = [Ok (VStr "1"); Err KeyError] /\
    (* the condition was added to a space in which x had its default *)
    built loose_space left_hps [] [] /\ map (getitem loose_space (default_of loose_space)) ["r"; "x"]%string = [Ok (VStr "1"); Ok (VStr "1")] /\
    differ left_hps (reading loose_space (default_of loose_space)) (reading off_space (default_of off_space)).
  Proof.
    split; [exact (proj1 C136_ex)|]. split; [exact left_tame|]. split; [exact right_tame|].
    split; [left; intros c [<-|[]]; split; vm_compute; [exact I|try (repeat constructor; simpl; tauto)]|].
    split; [intros [K|[]]; vm_compute in K; discriminate K|]. split; [exact (tm_built _ _ _ _ both_tame)|].
    split; [vm_compute; reflexivity|]. split; [vm_compute; reflexivity|]. split; [vm_compute; reflexivity|]. split; [intros x n []|].
    split; [vm_compute; reflexivity|]. split; [exact off_built|]. split.
    { split; [|intros f []]. intros c [<-|[]] l Hl. vm_compute in Hl. destruct Hl as [<-|[]]. split; vm_compute; tauto. }
    split; [vm_compute; reflexivity|]. split; [exact loose_built|]. split; [vm_compute; reflexivity|].
    exists (bin "x"). split; [right; left; reflexivity|]. vm_compute. exact I.
  Qed.

  (** a source below a = x; the default of a is x, so that its hyperparameters get their defaults; below a = y they get none *)
  Example C139_subspace_ex : tame ex_space ex_hps ex_conds ex_forbs /\ tame sub_space [hX; hPX] [cPX] [fX] /\ distinct_strings sub_space /\
    NoDup (map hp_name ex_hps ++ map (new_name "s" "/") (map hp_name [hX; hPX])) /\ In hA ex_hps /\
    legal_value hA (VStr "x") = true /\ legal_value hA (VStr "y") = true /\
    (forall c l w x, In c [cPX] -> In l (dlcs c) -> l_test l <> TBin OpNe w x) /\
    (let t := o_target (add_sub [] ex_space sub_space "s" "/" (Some (hA, VStr "x"))) in
     map (getitem t (default_of t)) ["a"; "s/x"]%string = [Ok (VStr "x"); Ok (hp_default hX)]) /\
    (let t := o_target (add_sub [] ex_space sub_space "s" "/" (Some (hA, VStr "y"))) in
     map (getitem t (default_of t)) ["a"; "s/x"]%string = [Ok (VStr "x"); Err KeyError]).
  Proof.
    split; [exact ex_tame|]. split; [exact sub_tame|].
    split; [apply (strings_distinct _ _ _ _ sub_built); apply nodup_strings; vm_compute; reflexivity|].
    split; [apply nodup_strings; vm_compute; reflexivity|]. split; [unfold ex_hps; simpl; tauto|].
    split; [vm_compute; reflexivity|]. split; [vm_compute; reflexivity|]. split.
    { intros c l w x [<-|[]] Hl. vm_compute in Hl. destruct Hl as [<-|[]]. discriminate. }
    split; vm_compute; reflexivity.
  Qed.
End Witness.
