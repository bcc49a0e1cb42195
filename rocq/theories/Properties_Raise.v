(** * Property C68: the exception tells what is wrong *)
From Coq Require Import String List ZArith QArith Bool Lia Permutation Relations.
From Verif Require Import Base ListFacts Numeric NumericProofs HP HPProofs Properties_HP Cond Forb EqFacts Dag DagProofs Space CommitProofs Spec SpaceProofs CnodeProofs
  ForbProofs EvalProofs ForbEval MergeProofs ValidProofs ConfigProofs ChangeProofs Ex Properties_Eval Properties_Config Properties_Change.
Import ListNotations.
Open Scope nat_scope.

Section Raise.
  Context {E : Env} {L : EnvLaws E}.

  (** What is wrong with the values [d] (as stored), for each exception of the check. The activity
      is wrong before a clause is looked at. *)
  Inductive fault (hs : list hp) (cs : list cond) (fs : list fclause) (d : assignment) (allow : bool) : err -> Prop :=
  | F_missing h : In h hs -> active cs d (hp_name h) -> d (hp_name h) = None -> fault hs cs fs d allow ActiveHyperparameterNotSetError
  | F_extra h : allow = false -> In h hs -> ~ active cs d (hp_name h) -> d (hp_name h) <> None ->
      fault hs cs fs d allow InactiveHyperparameterSetError
  | F_forbidden f :
      (forall h, In h hs -> active cs d (hp_name h) -> d (hp_name h) <> None) ->
      (allow = false -> forall h, In h hs -> d (hp_name h) <> None -> active cs d (hp_name h)) ->
      In f fs -> violated d f -> fault hs cs fs d allow ForbiddenValueError.

  (** ... and with a dictionary [vals] *)
  Inductive reason (hs : list hp) (cs : list cond) (fs : list fclause) (vals : list (string * option value)) (allow : bool) : err -> Prop :=
  | R_unknown k : In k (map fst vals) -> ~ In k (map hp_name hs) -> reason hs cs fs vals allow ValueError
  | R_illegal h w : In h hs -> given vals (hp_name h) = Some w -> legal_value h w = false -> reason hs cs fs vals allow IllegalValueError
  | R_fault d e : (forall k, In k (map fst vals) -> k = ""%string \/ In k (map hp_name hs)) -> all_legal hs (given vals) ->
      stored hs (given vals) d -> fault hs cs fs d allow e -> reason hs cs fs vals allow e.

  Lemma mapM_err {A B} (f : A -> res B) l e : mapM f l = Err e -> exists x, In x l /\ f x = Err e.
  Proof.
    induction l as [|x l IH]; simpl; [discriminate|]. destruct (f x) as [y|e'] eqn:Fx; simpl.
    - destruct (mapM f l) as [ys|e''] eqn:Ml; [discriminate|]. intros [= <-]. destruct (IH eq_refl) as (z & Hz & Ez). eauto.
    - intros [= <-]. eauto.
  Qed.
  Lemma forallb_no {A} (p : A -> bool) l : forallb p l = false -> exists x, In x l /\ p x = false.
  Proof.
    induction l as [|x l IH]; simpl; [discriminate|]. destruct (p x) eqn:Px; simpl; [|eauto]. intros H. destruct (IH H) as (y & Hy & Py). eauto.
  Qed.

  Lemma conditional_dec s hs cs fs n : space_ok s hs cs fs -> conditional cs n \/ ~ conditional cs n.
  Proof.
    intros O. destruct (condof (d_nodes (s_dag s)) n) as [c|] eqn:Ec.
    - left. apply (so_conditional O). eauto.
    - right. intros Hc. apply (so_conditional O) in Hc. destruct Hc; congruence.
  Qed.

  Lemma clause_total_ok s hs cs fs v d f : space_ok s hs cs fs -> refs hs cs fs -> (forall f, In f fs -> comparable f) -> (forall h, In h hs -> encodes (index_of s) v d h) -> exact_all hs d -> In f fs ->
    (exists b, forb_vec (index_of s) v f = Ok b) /\ (forb_vec (index_of s) v f = Ok true <-> violated d f).
  Proof.
    intros O R Cmp En Ex Hf. assert (R2 := proj2 R).
    assert (Rel : forall r a b h, In (FRel r a b) (fdlcs f) -> h = a \/ h = b -> In h hs).
    { intros r a b h Hr Hab. apply (R2 f Hf). unfold forb_hps. apply in_concat. exists [a; b].
      split; [apply in_map_iff; exists (FRel r a b); auto|]. simpl. destruct Hab; subst; auto. }
    split.
    - apply forb_vec_total; [apply (Cmp f Hf)| |].
      + intros r a b h Hr Hab. assert (Hh := Rel r a b h Hr Hab). assert (Eh := En h Hh). unfold encodes in Eh.
        destruct (d (hp_name h)) as [w|] eqn:Ed; [|left; exact Eh]. right. destruct Eh as (Hl & x & Hx & F).
        destruct (value_roundtrip h w x (so_constructed O h Hh) Hl (Ex h w Hh Ed) Hx) as (w' & Tv & _).
        destruct (to_value_same h _ _ w' (fsame_sym _ _ F) Tv) as (u & Hu & _). eauto.
      + intros r a b h Hr Hab _. assert (Hh := Rel r a b h Hr Hab). destruct (d (hp_name h)) as [w|] eqn:Ed.
        * right. apply (enc_fin O v d En h Hh). congruence.
        * left. assert (Eh := En h Hh). unfold encodes in Eh. rewrite Ed in Eh. exact Eh.
    - apply forb_vec_means.
      + apply forb_built_good, (so_forb_built O), Hf.
      + intros h Hh. apply En. apply (R2 f Hf h Hh).
      + intros r a b h w Hr Hab Hd. apply (Ex h w); [|exact Hd]. eapply Rel; eauto.
  Qed.

  Lemma clause_total s hs cs fs v d f : tame s hs cs fs -> (forall h, In h hs -> encodes (index_of s) v d h) -> exact_all hs d -> In f fs ->
    (exists b, forb_vec (index_of s) v f = Ok b) /\ (forb_vec (index_of s) v f = Ok true <-> violated d f).
  Proof. intros [B R _ _ Cmp]. apply (clause_total_ok s hs cs fs v d f (built_ok _ _ _ _ B) R Cmp). Qed.

  (** ** C68

      Full statement: for every space, an exception of the check has its reason. Missing: spaces
      that are not [tame], see [C68_refuted], and integers given as numbers close to one. *)

  (** the check of a vector that encodes [d] *)
  Lemma check_fault s hs cs fs v d allow e : space_ok s hs cs fs -> refs hs cs fs -> merge_sound (index_of s) cs -> ne_safe cs ->
    (forall f, In f fs -> comparable f) -> (forall h, In h hs -> encodes (index_of s) v d h) -> exact_all hs d ->
    check_configuration s v allow = Err e -> fault hs cs fs d allow e.
  Proof.
    intros O R M NS Cmp En Ex H.
    assert (Fin := enc_fin O v d En). unfold check_configuration in H. assert (Rk := roots_ok O v).
    set (rt := forallb _ (d_roots (s_dag s))) in *. destruct rt eqn:Er.
    - assert (Rt : forall h, In h hs -> ~ conditional cs (hp_name h) -> d (hp_name h) <> None).
      { intros h Hh Hc. apply (Fin h Hh). apply (proj1 Rk eq_refl h Hh Hc). }
      assert (Act := enc_act O v d En R NS Rt).
      destruct (mapM (check_cnode s v allow) (d_min (s_dag s))) as [u|e'] eqn:Hm; cbn [bind] in H.
      + assert (H2 := proj1 (cnodes_ok O v allow R M) (ex_intro _ _ Hm)).
        assert (A1 : forall h, In h hs -> active cs d (hp_name h) -> d (hp_name h) <> None).
        { intros h Hh Ac. destruct (conditional_dec s hs cs fs (hp_name h) O) as [(c & Hc & Ha)|Hn]; [|apply Rt; assumption].
          apply Fin; [exact Hh|]. specialize (H2 h c Hh Hc Ha). cbv zeta in H2. rewrite (proj2 (Act _ c Hc Ha) Ac) in H2. apply H2. }
        assert (A2 : allow = false -> forall h, In h hs -> d (hp_name h) <> None -> active cs d (hp_name h)).
        { intros -> h Hh Hd. destruct (conditional_dec s hs cs fs (hp_name h) O) as [(c & Hc & Ha)|Hn].
          - apply (Act _ c Hc Ha). specialize (H2 h c Hh Hc Ha). cbv zeta in H2. destruct (sat_vec (index_of s) v c); [reflexivity|].
            destruct H2 as [H2|H2]; [discriminate|]. apply (Fin h Hh) in Hd. congruence.
          - intros c Hc Ha. exfalso. apply Hn. exists c. auto. }
        assert (Hf : e = ForbiddenValueError).
        { unfold check_forb in H. destruct (anyM (forb_vec (index_of s) v) (d_fast (s_dag s))) as [[]|e'] eqn:Ea; cbn [bind] in H; try congruence.
          exfalso. assert (G : exists b, anyM (forb_vec (index_of s) v) (d_fast (s_dag s)) = Ok b).
          { destruct (so_fast O (proj2 R)) as (_ & F2 & _).
            assert (G : forall l, (forall f, In f l -> exists b, forb_vec (index_of s) v f = Ok b) -> exists b, anyM (forb_vec (index_of s) v) l = Ok b).
            { induction l as [|f l IH]; intros Hl; simpl; [eauto|]. destruct (Hl f (or_introl eq_refl)) as ([] & ->); cbn [bind]; [eauto|].
              apply IH. intros; apply Hl; right; assumption. }
            apply G. intros f Hf. destruct (F2 f Hf) as [Hf'|(gs & -> & Hb)]; [|auto]. apply (clause_total_ok s hs cs fs v d f O R Cmp En Ex Hf'). }
          destruct G. congruence. }
        subst e. destruct (check_fast_forbidden O (index_of s) v (proj2 R) H) as (f & Hf & Hv).
        { intros f Hf. apply (clause_total_ok s hs cs fs v d f O R Cmp En Ex Hf). }
        apply (F_forbidden _ _ _ _ _ f A1 A2 Hf). apply (clause_total_ok s hs cs fs v d f O R Cmp En Ex Hf). exact Hv.
      + injection H as ->. apply mapM_err in Hm. destruct Hm as (cn & Hcn & Hc).
        assert (Ch : forall i, In i (cn_children cn) -> exists h c, In h hs /\ hp_at s i = Some h /\ vget (index_of s) v (hp_name h) = nth i v NaN /\
          In c cs /\ activates c (hp_name h) /\ sat_vec (index_of s) v (cn_cond cn) = sat_vec (index_of s) v c).
        { intros i Hi. destruct (so_cnode_sat s hs cs fs O (proj1 R) cn i M Hcn Hi) as (n & Hn & (c & Hc' & Ha) & Hsat).
          destruct (so_name_hp O n) as (h & Hh & <-); [eapply nth_error_In; eauto|]. exists h, c. split; [exact Hh|].
          destruct (so_hp_index O h Hh) as (i' & Hi' & _ & Hn' & Hat). apply (so_index O) in Hn. assert (i' = i) by congruence. subst i'.
          split; [exact Hat|]. split; [unfold vget; rewrite Hi'; reflexivity|]. auto. }
        unfold check_cnode in Hc. destruct (sat_vec (index_of s) v (cn_cond cn)) eqn:Sc.
        * destruct (forallb (fun i => isfinite (nth i v NaN)) (cn_children cn)) eqn:F1.
          -- rewrite forallb_forall in F1. exfalso.
             destruct (forallb (fun i => match hp_at s i with Some h => legal_vector h (nth i v NaN) | None => false end) (cn_children cn)) eqn:F2; [discriminate|].
             apply forallb_no in F2. destruct F2 as (i & Hi & F2). destruct (Ch i Hi) as (h & c & Hh & Hat & Hx & _). rewrite Hat, <- Hx in F2.
             specialize (F1 i Hi). rewrite <- Hx in F1. rewrite (enc_legal O v d En h Ex Hh) in F2; [discriminate|]. apply (Fin h Hh). exact F1.
          -- injection Hc as <-. apply forallb_no in F1. destruct F1 as (i & Hi & F1). destruct (Ch i Hi) as (h & c & Hh & Hat & Hx & Hc & Ha & Hs).
             apply (F_missing _ _ _ _ _ h Hh); [apply (Act _ c Hc Ha); congruence|]. destruct (d (hp_name h)) eqn:Ed; [|reflexivity]. exfalso.
             rewrite <- Hx in F1. rewrite (proj2 (Fin h Hh)) in F1; [discriminate|congruence].
        * destruct allow; [discriminate|]. destruct (find (fun i => isfinite (nth i v NaN)) (cn_children cn)) as [i|] eqn:Ff; [|discriminate].
          apply find_some in Ff. destruct Ff as [Hi F1]. destruct (Ch i Hi) as (h & c & Hh & Hat & Hx & Hc' & Ha & Hs). rewrite Hat in Hc.
          rewrite <- Hx in F1. assert (Hd := proj1 (Fin h Hh) F1).
          destruct (to_value h (nth i v NaN)) as [w|e'] eqn:Tv; cbn [bind] in Hc.
          -- injection Hc as <-. apply (F_extra _ _ _ _ _ h eq_refl Hh); [|exact Hd]. intros Ac. apply (Act _ c Hc' Ha) in Ac. congruence.
          -- exfalso. assert (Eh := En h Hh). unfold encodes in Eh. destruct (d (hp_name h)) as [w|] eqn:Ed; [|congruence].
             destruct Eh as (Hl & x & Hx' & F). destruct (value_roundtrip h w x (so_constructed O h Hh) Hl (Ex h w Hh Ed) Hx') as (w' & T' & _).
             destruct (to_value_same h _ _ w' (fsame_sym _ _ F) T') as (u & Hu & _). congruence.
    - injection H as <-. assert (K := proj2 Rk). unfold rt in Er. apply forallb_no in Er. destruct Er as (n & Hn & Hf).
      apply (so_root O) in Hn. destruct Hn as [Hk Hc]. destruct (so_name_hp O n Hk) as (h & Hh & <-).
      destruct (so_hp_index O h Hh) as (i & Hi & _). rewrite Hi in Hf. apply (F_missing _ _ _ _ _ h Hh).
      + intros c Hc' Ha. exfalso. assert (Cn : conditional cs (hp_name h)) by (exists c; auto). apply (so_conditional O) in Cn. destruct Cn as (c' & Cn). congruence.
      + destruct (d (hp_name h)) eqn:Ed; [|reflexivity]. exfalso. assert (F := proj2 (Fin h Hh)). unfold vget in F. rewrite Hi in F.
        rewrite F in Hf; [discriminate|congruence].
  Qed.

  Theorem C68_check_partial s hs cs fs v d allow e : tame s hs cs fs -> (forall h, In h hs -> encodes (index_of s) v d h) -> exact_all hs d ->
    check_configuration s v allow = Err e -> fault hs cs fs d allow e.
  Proof. intros [B R M NS Cmp]. apply (check_fault s hs cs fs v d allow e (built_ok _ _ _ _ B) R M NS Cmp). Qed.

  (** Configuration(space, values): whatever it raises, the reason is there *)
  Theorem C68_reason_partial s hs cs fs vals allow e : tame s hs cs fs -> exact_all hs (given vals) ->
    config_of_values s vals allow = Err e -> reason hs cs fs vals allow e.
  Proof.
    intros T Ex H. assert (O := built_ok _ _ _ _ (tm_built _ _ _ _ T)). unfold config_of_values in H. pose proof (fill_items O vals) as F.
    assert (Kn := known_iff O vals). destruct (negb _) eqn:Ek.
    - assert (Kn' := proj1 Kn eq_refl).
      destruct (fill s vals (items s) (repeat NaN (s_len s)) []) as [[vec cache]|e'] eqn:Ef; cbn [bind] in H.
      + destruct F as [AL F]. set (d := store hs (given vals)).
        assert (St : stored hs (given vals) d) by apply (store_stored hs _ (so_names_nodup O)).
        destruct (check_configuration s (fst (vec, cache)) allow) as [[]|e'] eqn:Ec; cbn [bind] in H; [discriminate|]. injection H as ->.
        apply (R_fault _ _ _ _ _ d); auto.
        * intros k Hk. destruct (Kn' k Hk) as [Hk'|(h & Hh & <-)]; [auto|right; apply in_map; exact Hh].
        * apply (C68_check_partial s hs cs fs vec d allow e T); [|apply (stored_exact hs (given vals) d St Ex)|exact Ec].
          apply (filled_encodes O vals vec cache d AL F St).
      + injection H as ->. assert (K := fill_spec (s := s) vals (items s) (repeat NaN (s_len s)) []). rewrite Ef, (items_keys (s := s)), repeat_length in K.
        destruct K as (-> & k & h & w & Hin & Hw & Hl).
        * apply (so_nodup O).
        * intros k h Hi. apply (so_items O) in Hi. destruct Hi as [Hh <-]. split; [apply (so_constructed O); exact Hh|].
          destruct (so_hp_index O h Hh) as (i & Hi & Hl & _). eauto.
        * apply (so_index_inj O).
        * apply (so_items O) in Hin. destruct Hin as [Hh <-]. apply (R_illegal _ _ _ _ _ h w Hh Hw Hl).
    - injection H as <-. apply negb_false_iff, existsb_exists in Ek. destruct Ek as (k & Hk & Ek). apply andb_true_iff in Ek. destruct Ek as [E1 _].
      apply (R_unknown _ _ _ _ _ k Hk). intros Hin. apply negb_true_iff in E1.
      assert (Ik : In k (keys s)) by (eapply Permutation_in; [symmetry; apply (so_keys O)|exact Hin]). apply str_in_iff in Ik. congruence.
  Qed.

  (** allow_inactive_with_values: values of inactive hyperparameters are tolerated, everything else
      is checked *)
  Theorem C68_allow_partial s hs cs fs vals d : tame s hs cs fs -> stored hs (given vals) d -> exact_all hs (given vals) ->
    ((exists c, config_of_values s vals true = Ok c) <->
     (forall k, In k (map fst vals) -> k = ""%string \/ In k (map hp_name hs)) /\ all_legal hs (given vals) /\
     (forall h, In h hs -> active cs d (hp_name h) -> d (hp_name h) <> None) /\ forall f, In f fs -> ~ violated d f).
  Proof.
    intros T St Ex. assert (T' := T). destruct T' as [B R M NS Cmp]. assert (O := built_ok _ _ _ _ B).
    assert (Kn : (forall k, In k (map fst vals) -> k = ""%string \/ In k (map hp_name hs)) <-> known (hs := hs) vals).
    { unfold known. split; intros H k Hk; destruct (H k Hk) as [K|K]; auto; right.
      - apply in_map_iff in K. destruct K as (h & ? & ?). eauto.
      - destruct K as (h & Hh & <-). apply in_map. exact Hh. }
    assert (Exd := stored_exact hs _ d St Ex). split.
    - intros (c & Hc). apply (config_of_values_ok O) in Hc. destruct Hc as (K & AL & vec & cache & _ & F & Hc & _).
      destruct (encodes_check O vec d true R M NS (filled_encodes O vals vec cache d AL F St) Exd) as [C1 _]. destruct (C1 Hc) as (C2 & _ & C3).
      split; [apply Kn; exact K|]. auto.
    - intros (K & AL & A1 & A2). assert (F := fill_items O vals).
      destruct (fill s vals (items s) (repeat NaN (s_len s)) []) as [[vec cache]|e] eqn:Ef; [|exfalso; apply (proj2 F); exact AL].
      destruct F as [_ F].
      destruct (encodes_check O vec d true R M NS (filled_encodes O vals vec cache d AL F St) Exd) as [_ C2].
      exists (mk_config vec (Some cache) true). apply (config_of_values_ok O). split; [apply Kn; exact K|]. split; [exact AL|].
      exists vec, cache. split; [exact Ef|]. split; [exact F|]. split; [|reflexivity]. apply C2; auto. discriminate.
  Qed.

  (** an assignment of a legal value to an active hyperparameter can only fail because a clause is
      violated afterwards *)
  Theorem C68_assign_partial s hs cs fs c d h w c' e : tame s hs cs fs -> orderly cs ->
    represents s hs c d -> valid hs cs fs d -> exact_all hs d -> In h hs -> d (hp_name h) <> None -> exact_value h w ->
    setitem s c (hp_name h) w = (c', Err e) ->
    c' = c /\ ((e = IllegalValueError /\ legal_value h w = false) \/
      (e = ForbiddenValueError /\ exists d' f, updated hs cs d (hp_name h) w d' /\ In f fs /\ violated d' f)).
  Proof.
    intros T Or Rep V Ex Hh Hset He H. assert (B := tm_built _ _ _ _ T). assert (O := built_ok _ _ _ _ B).
    unfold setitem in H. assert (G : get_hp s (hp_name h) = Some h) by (apply (so_get_hp O); auto). rewrite G in H.
    destruct (legal_value h w) eqn:Lw; [|injection H as <- <-; auto].
    destruct (so_hp_index O h Hh) as (i & Hi & _). rewrite Hi in H.
    destruct (legal_finite h w (so_constructed O h Hh) Lw) as (q & Hq). rewrite Hq in H.
    destruct (change_represents s hs cs fs c d h w (Fin q) i T Or Rep V Ex Hh Hset Lw He Hq Hi) as (d2 & U2 & En2 & Ex2 & _ & Ac2).
    destruct (check_configuration s (change_hp_value s (c_vector c) (hp_name h) (Fin q) i) false) as [[]|e'] eqn:Hc; [discriminate|].
    injection H as <- <-. split; [reflexivity|]. right.
    destruct (C68_check_partial s hs cs fs _ d2 false e' T En2 Ex2 Hc) as [g Hg A1 A2|g _ Hg A1 A2|f A1 A2 Hf Hv].
    - exfalso. apply (Ac2 g Hg) in A1. congruence.
    - exfalso. apply A1. apply (Ac2 g Hg). exact A2.
    - split; [reflexivity|]. exists d2, f. auto.
  Qed.
End Raise.

Section Witness.
  #[local] Existing Instance rat_env.
  (** what each key of the example space is, with one entry changed *)
  Definition with_entry (k : string) (x : option value) := assoc_set k x ex_vals.

  (** all five exceptions, each for its reason: an unknown key, an illegal value, a missing value of
      the active n, a value of b although a = z, and n = 1 with a = y *)
  Example C68_ex : tame ex_space ex_hps ex_conds ex_forbs /\
    (let vals := with_entry "unknown" (Some (VInt 1)) in
       exact_all ex_hps (given vals) /\ config_of_values ex_space vals false = Err ValueError) /\
    (let vals := with_entry "n" (Some (VInt 11)) in
       exact_all ex_hps (given vals) /\ config_of_values ex_space vals false = Err IllegalValueError) /\
    (let vals := with_entry "n" None in
       exact_all ex_hps (given vals) /\ config_of_values ex_space vals false = Err ActiveHyperparameterNotSetError) /\
    (let vals := with_entry "a" (Some (VStr "z")) in
       exact_all ex_hps (given vals) /\ config_of_values ex_space vals false = Err InactiveHyperparameterSetError) /\
    (let vals := with_entry "g" (Some (VStr "q")) in
       exact_all ex_hps (given vals) /\ config_of_values ex_space vals false = Err ForbiddenValueError).
  Proof.
    split; [exact ex_tame|]. cbv zeta.
    repeat match goal with |- _ /\ _ => split end;
      try (vm_compute; reflexivity);
      (intros h w Hh Hw;
       repeat (destruct Hh as [<-|Hh]; [vm_compute in Hw; first [discriminate Hw | inversion Hw; subst; clear;
         match goal with |- exact_value _ (VInt _) => apply exact_int | _ => vm_compute; exact I end]|]); destruct Hh).
  Qed.

  (** with inactive values allowed, a = z is fine *)
  Example C68_allow_ex : exists c, config_of_values ex_space (with_entry "a" (Some (VStr "z"))) true = Ok c.
  Proof. exists (get_or (mk_config [] None true) (config_of_values ex_space (with_entry "a" (Some (VStr "z"))) true)). vm_compute. reflexivity. Qed.

  (** C68 is false in general: c asks for b != 1/4 where b may be inactive, and nothing is wrong with
      {a: y} *)
  Theorem C68_refuted : exists s hs cs vals, built s hs cs [] /\ refs hs cs [] /\ exact_all hs (given vals) /\
    config_of_values s vals false = Err ActiveHyperparameterNotSetError /\
    forall e, ~ reason hs cs [] vals false e.
  Proof.
    assert (LA := rat_env_laws).
    exists ne_space, [hA; hB; hC], [cB; cNe], [("a"%string, Some (VStr "y"))]. split; [exact ne_built|].
    split; [|split; [|split; [vm_compute; reflexivity|]]].
    - split; [|intros f []]. intros c Hc l Hl.
      destruct Hc as [<-|[<-|[]]]; vm_compute in Hl; destruct Hl as [<-|[]]; split; vm_compute; tauto.
    - intros h w Hh Hw. destruct Hh as [<-|[<-|[<-|[]]]]; vm_compute in Hw; try discriminate Hw. vm_compute. exact I.
    - assert (Hs : forall d, stored [hA; hB; hC] (given [("a"%string, Some (VStr "y"))]) d ->
        d "a"%string = Some (VStr "y") /\ d "b"%string = None /\ d "c"%string = None).
      { intros d St. split; [exact (St hA (or_introl eq_refl))|]. split; [exact (St hB (or_intror (or_introl eq_refl)))|].
        exact (St hC (or_intror (or_intror (or_introl eq_refl)))). }
      assert (Nb : forall d, d "a"%string = Some (VStr "y") -> ~ holds d cB).
      { intros d Ha H. vm_compute in H. destruct H as (w & Hw & H). rewrite Ha in Hw. injection Hw as <-. discriminate H. }
      assert (Nc : forall d, d "b"%string = None -> ~ holds d cNe).
      { intros d Hb H. vm_compute in H. destruct H as (w & Hw & _). rewrite Hb in Hw. discriminate Hw. }
      intros e [k Hk Hn|h w Hh Hw Hl|d e' _ _ St F].
      + destruct Hk as [<-|[]]. apply Hn. vm_compute. tauto.
      + destruct Hh as [<-|[<-|[<-|[]]]]; vm_compute in Hw; try discriminate Hw. injection Hw as <-. vm_compute in Hl. discriminate Hl.
      + destruct (Hs d St) as (Da & Db & Dc). destruct F as [h Hh A1 A2|h _ Hh A1 A2|f _ _ [] _].
        * destruct Hh as [<-|[<-|[<-|[]]]].
          -- change (hp_name hA) with "a"%string in A2. congruence.
          -- apply (Nb d Da). apply A1; vm_compute; tauto.
          -- apply (Nc d Db). apply A1; vm_compute; tauto.
        * destruct Hh as [<-|[<-|[<-|[]]]].
          -- apply A1. intros c [<-|[<-|[]]] Ha; vm_compute in Ha; discriminate Ha.
          -- apply A2. exact Db.
          -- apply A2. exact Dc.
  Qed.
End Witness.
