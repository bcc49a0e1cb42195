(** * Property C108: deprecated methods do what they tell to use instead *)
From Coq Require Import String List ZArith QArith Bool Lia Permutation.
From Verif Require Import Base ListFacts Numeric NumericProofs HP HPProofs Properties_HP Cond Forb EqFacts Dag DagProofs
  Space CommitProofs Spec SpaceProofs CnodeProofs ForbProofs EvalProofs ForbEval MergeProofs ValidProofs ConfigProofs
  ChangeProofs ReadProofs Ex Properties_Eval Properties_Config Dist DistProofs Properties_Dist Old.
Import ListNotations.
Open Scope Z_scope.

Section Old.
  Context {E : Env} {L : EnvLaws E}.

  (** ** hp.has_neighbors() and hp.size > 1

      Missing: categoricals and ordinals with one value (C108_has_neighbors_refuted). *)
  Theorem C108_has_neighbors_partial h : constructed h ->
    (hp_size h = Some 1 -> exists v, hp_kind h = KConst v) ->
    exists b, has_neighbors h = Ok b /\ (b = true <-> hp_size h <> Some 1).
  Proof.
    intros C One. apply constructed_wf in C. unfold wf_hp in C. unfold has_neighbors, get_num_neighbors. unfold hp_size in *.
    destruct (hp_kind h) as [c w|c|u|lo hi log d|lo hi log d] eqn:K; simpl; eexists; (split; [reflexivity|]).
    - split; [intros _ Q; destruct (One Q); discriminate|]. intros _. apply Z.ltb_lt. destruct c; [tauto|]. simpl length. lia.
    - split; [intros _ Q; destruct (One Q); discriminate|]. intros _. apply Z.ltb_lt. destruct c; [tauto|]. simpl length. lia.
    - split; [discriminate|]. intro Q. exfalso. apply Q. reflexivity.
    - destruct C as (C & _). split; [intros _ Q; injection Q; lia|]. intros _. apply Z.ltb_lt. lia.
    - split; intros; [discriminate|reflexivity].
  Qed.

  (** hp.get_neighbors(vector, rs, number, std) is hp.neighbors_vectorized(vector, number, std=std, seed=rs),
      with four neighbours unless told otherwise; with transform it always raises *)
  Theorem C108_get_neighbors h x r std :
    (forall n, get_neighbors h x r (Some n) std false = neighbors_vectorized h x n std r) /\
    get_neighbors h x r None std false = neighbors_vectorized h x 4 std r /\
    (forall number, get_neighbors h x r number std true = Err RuntimeError).
  Proof. repeat split. Qed.

  (** ** space.check_configuration(config) and config.check_valid_configuration()

      They agree on configurations that may not carry inactive values, and the deprecated one
      accepts nothing the other rejects.
      Missing: configurations with allow_inactive_with_values (C108_check_refuted). *)
  Theorem C108_check_partial s c : c_allow c = false -> space_check_configuration s c = check_valid_configuration s c.
  Proof. intro A. unfold space_check_configuration, check_valid_configuration. rewrite A. reflexivity. Qed.

  Lemma cnode_allow s v cn : check_cnode s v false cn = Ok tt -> check_cnode s v true cn = Ok tt.
  Proof. unfold check_cnode. destruct (sat_vec _ _ _); auto. Qed.

  Theorem C108_check_stricter s c : space_check_configuration s c = Ok tt -> check_valid_configuration s c = Ok tt.
  Proof.
    unfold space_check_configuration, check_valid_configuration. destruct (c_allow c); [|auto].
    unfold check_configuration. destruct (forallb _ (d_roots (s_dag s))); [|discriminate].
    destruct (mapM (check_cnode s (c_vector c) false) (d_min (s_dag s))) as [l|e] eqn:M; [|discriminate]. cbn [bind]. intro F.
    assert (M' : exists l, mapM (check_cnode s (c_vector c) true) (d_min (s_dag s)) = Ok l).
    { clear F. revert l M. induction (d_min (s_dag s)) as [|n t IH]; simpl; intros l M; [eauto|].
      destruct (check_cnode s (c_vector c) false n) as [[]|] eqn:N; [|discriminate]. rewrite (cnode_allow _ _ _ N). cbn [bind] in *.
      destruct (mapM (check_cnode s (c_vector c) false) t) as [l'|]; [|discriminate]. destruct (IH l' eq_refl) as (l2 & ->). cbn [bind]. eexists. reflexivity. }
    destruct M' as (l' & ->). exact F.
  Qed.

  (** ** c_util.check_forbidden(space.forbidden_clauses, vector) and the check of the space

      The check of the space uses merged clauses, the function the declared ones. *)
  Theorem C108_forbidden s hs cs fs v : built s hs cs fs -> refs hs cs fs ->
    (check_vector_representation s v = Ok tt -> check_forbidden (index_of s) (forbidden_clauses s) v = Ok false) /\
    (check_forbidden (index_of s) (forbidden_clauses s) v = Ok true -> check_vector_representation s v <> Ok tt) /\
    ((forall f, In f fs -> exists b, forb_vec (index_of s) v f = Ok b) ->
     (check_forbidden (index_of s) (forbidden_clauses s) v = Ok true <-> exists f, In f fs /\ forb_vec (index_of s) v f = Ok true)).
  Proof.
    intros B R. assert (O := built_ok _ _ _ _ B). assert (P := so_forbs O).
    assert (A : check_vector_representation s v = Ok tt -> check_forbidden (index_of s) (forbidden_clauses s) v = Ok false).
    { unfold check_vector_representation, check_configuration. destruct (forallb _ (d_roots (s_dag s))); [|discriminate].
      destruct (mapM (check_cnode s v false) (d_min (s_dag s))) as [l|e]; [|discriminate]. cbn [bind]. intro F.
      assert (F2 := proj1 (C14_accepts_iff s hs cs fs v B R) F). unfold check_forbidden. apply anyM_false. intros f Hf. apply F2.
      eapply Permutation_in; [exact P|exact Hf]. }
    split; [exact A|]. split; [intros T K; rewrite (A K) in T; discriminate|].
    intro T. unfold check_forbidden. assert (T' : forall f, In f (forbidden_clauses s) -> exists b, forb_vec (index_of s) v f = Ok b).
    { intros f Hf. apply T. eapply Permutation_in; [exact P|exact Hf]. }
    transitivity (exists f, In f (forbidden_clauses s) /\ forb_vec (index_of s) v f = Ok true).
    - clear -T'. induction (forbidden_clauses s) as [|f l IH]; simpl.
      + split; [discriminate|]. intros (f & [] & _).
      + destruct (T' f (or_introl eq_refl)) as (b & Hb). rewrite Hb. cbn [bind]. destruct b.
        * split; [intros _; exists f; auto|reflexivity].
        * rewrite IH by (intros g Hg; apply T'; right; exact Hg). split.
          -- intros (g & Hg & H). exists g. auto.
          -- intros (g & [<-|Hg] & H); [congruence|]. exists g. auto.
    - split; intros (f & Hf & H); exists f; (split; [|exact H]); eapply Permutation_in; try exact Hf; [exact P|symmetry; exact P].
  Qed.
End Old.

Section Examples.
  #[local] Existing Instance rat_env.

  Definition one_cat : hp := mk_hp "c" (KCat [VStr "x"] None) (VStr "x") None.
  Definition one_ord : hp := mk_hp "o" (KOrd [VInt 5]) (VInt 5) None.
  Lemma one_cat_c : constructed one_cat. Proof. apply (CtorCat "c" [VStr "x"] None None None). vm_compute. reflexivity. Qed.
  Lemma one_ord_c : constructed one_ord. Proof. apply (CtorOrd "o" [VInt 5] None None). vm_compute. reflexivity. Qed.

  (** a categorical or ordinal with one value has no neighbours, but has_neighbors says it has *)
  Theorem C108_has_neighbors_refuted : forall h, In h [one_cat; one_ord] -> constructed h /\ hp_size h = Some 1 /\
    has_neighbors h = Ok true /\ get_num_neighbors h (Some (hp_default h)) = Ok (Some 0) /\
    forall r n, shuffles r -> neighbors_vectorized h (Fin 0) n None r = Ok [].
  Proof.
    intros h [<-|[<-|[]]]; (split; [first [exact one_cat_c|exact one_ord_c]|]); do 3 (split; [vm_compute; reflexivity|]).
    - intros r n S. unfold neighbors_vectorized, neighborhood, cat_neighborhood. simpl hp_kind. cbn iota.
      change (py_int 0) with 0. change (arange 0 0 1 ++ arange (0 + 1) (Z.of_nat (length [VStr "x"])) 1) with (@nil Z).
      assert (N := Permutation_nil (S [])). rewrite N. vm_compute. reflexivity.
    - intros r n _. vm_compute. reflexivity.
  Qed.
  Example C108_neighbors_case : has_neighbors w_cat = Ok true /\ has_neighbors w_flt = Ok true /\
    has_neighbors (mk_hp "k" (KConst (VInt 1)) (VInt 1) None) = Ok false /\
    get_neighbors w_cat (Fin 0) (rng_of []) None None false = Ok [Fin 2; Fin 1].
  Proof. repeat split; vm_compute; reflexivity. Qed.

  (** the last hyperparameter has a value although it is inactive, which the configuration allows *)
  Theorem C108_check_refuted : exists s hs cs fs c, built s hs cs fs /\ made s hs c /\
    check_valid_configuration s c = Ok tt /\ space_check_configuration s c = Err InactiveHyperparameterSetError.
  Proof.
    exists and_space, and_hps, [cB; cC; cG], ex_forbs, (mk_config (set_nth 7 (Fin 0) and_vec) None true).
    split; [exact and_built|]. split; [|split; vm_compute; reflexivity].
    apply (made_vector and_space and_hps (set_nth 7 (Fin 0) and_vec) true); [|vm_compute; reflexivity]. intros h Hh.
    repeat (destruct Hh as [<-|Hh]; [first [left; vm_compute; reflexivity|right; eexists; vm_compute; reflexivity]|]). destruct Hh.
  Qed.
  (** n = 1 and a = y is forbidden: the function finds it in the declared clauses, the check of the space rejects it *)
  Definition bad_vec : list fval := set_nth 3 (get_or NaN (to_vector hN (VInt 1))) and_vec.
  Example C108_forbidden_case :
    check_forbidden (index_of and_space) (forbidden_clauses and_space) and_vec = Ok false /\ check_vector_representation and_space and_vec = Ok tt /\
    check_forbidden (index_of and_space) (forbidden_clauses and_space) bad_vec = Ok true /\
    check_vector_representation and_space bad_vec = Err ForbiddenValueError.
  Proof. repeat split; vm_compute; reflexivity. Qed.
End Examples.
