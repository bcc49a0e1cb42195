(** * Property C129: to_dict of conditions and forbidden clauses *)
From Coq Require Import String List ZArith QArith Bool Lia Permutation.
From Verif Require Import Base ListFacts Numeric NumericProofs HP HPProofs Properties_HP Cond Forb EqFacts Dag DagProofs
  Space CommitProofs Spec SpaceProofs Ex Properties_Graph Serial Properties_Serial Properties_Json Properties_Load ToDict.
Import ListNotations.
Open Scope string_scope.
Open Scope list_scope.

Section ToDictProps.
  Context {E : Env} {L : EnvLaws E}.

  (** the clause is made of equalities and memberships only *)
  Definition no_relation (f : fclause) : Prop := forall g, In g (fdlcs f) -> match g with FRel _ _ _ => False | _ => True end.
  Lemma no_relation_part cs f : no_relation (FAnd cs) -> In f cs -> no_relation f.
  Proof. intros N Hf g Hg. apply N. cbn [fdlcs]. apply in_concat. exists (fdlcs f). split; [apply in_map, Hf|exact Hg]. Qed.

  Lemma reordered_refl x : reordered x x.
  Proof.
    induction x as [v|l IH|d IH] using data_ind2.
    - constructor.
    - constructor. induction IH as [|y l Hy _ IHl]; constructor; auto.
    - constructor; [reflexivity|]. intros k y y' A A'. assert (y = y') by congruence. subst.
      rewrite Forall_forall in IH. exact (IH _ (assoc_in _ _ _ A)).
  Qed.
  Lemma forb_reordered f : no_relation f -> reordered (enc_forb f) (forb_to_dict f).
  Proof.
    induction f as [h v vv|h vs vvs|r a b|cs IH] using fclause_ind'; intros N.
    - cbn [enc_forb forb_to_dict]. constructor; [intros k; cbn; tauto|]. intros k x x' A B. cbn [assoc] in A, B.
      repeat match type of A with context [if k =? ?n then _ else _] => destruct (String.eqb_spec k n) as [->|]; [cbn in B; replace x' with x by congruence; apply reordered_refl|] end. discriminate A.
    - cbn [enc_forb forb_to_dict]. constructor; [intros k; cbn; tauto|]. intros k x x' A B. cbn [assoc] in A, B.
      repeat match type of A with context [if k =? ?n then _ else _] => destruct (String.eqb_spec k n) as [->|]; [cbn in B; replace x' with x by congruence; apply reordered_refl|] end. discriminate A.
    - destruct (N (FRel r a b) (or_introl eq_refl)).
    - cbn [enc_forb forb_to_dict]. constructor; [intros k; cbn; tauto|]. intros k x x' A B. cbn [assoc] in A, B.
      destruct (k =? "type"); [replace x' with x by congruence; apply reordered_refl|]. destruct (k =? "clauses"); [|discriminate].
      injection A as <-. injection B as <-. constructor. rewrite Forall_forall in IH.
      assert (G : forall l, (forall y, In y l -> In y cs) -> Forall2 reordered (map enc_forb l) (map forb_to_dict l)).
      { induction l as [|y l IHl]; intros Hl; constructor; [|apply IHl; intros z Hz; apply Hl; right; exact Hz].
        apply IH; [apply Hl; left; reflexivity|]. apply (no_relation_part cs); [exact N|apply Hl; left; reflexivity]. }
      apply G. auto.
  Qed.

  (** C129: the dictionary of a clause, read by a space with the same hyperparameters, gives the clause.
      Missing: clauses with a relation (C129_relation_refuted). *)
  Theorem C129_clause_partial s hs cs fs s' cs' fs' f : built s hs cs fs -> built s' hs cs' fs' -> In f fs -> forb_refs hs f -> no_relation f ->
    snd (dec_forb s' (forb_to_dict f)) = Ok f.
  Proof.
    intros B B' Hf R N. rewrite <- (proj1 (dec_forb_alike s' (enc_forb f)) _ (forb_reordered f N)). exact (C51_clause_partial s hs cs fs s' cs' fs' f B B' Hf R).
  Qed.

  (** the dictionary of a relation is never read, whatever the space *)
  Theorem C129_relation s r a b : snd (dec_forb s (forb_to_dict (FRel r a b))) = Err ValueError.
  Proof. destruct r; reflexivity. Qed.
  (** nor is the dictionary of a condition: it does not say which condition it is *)
  Theorem C129_condition s c : snd (dec_cond s (cond_to_dict c)) = Err KeyError.
  Proof. destruct c as [[a p [o v vv|vs vvs]]|cs|cs]; reflexivity. Qed.

  (** ** What a dictionary determines *)

  Lemma map_DVal_inj l l' : map DVal l = map DVal l' -> l = l'.
  Proof. revert l'. induction l as [|x l IH]; intros [|y l'] H; try discriminate; [reflexivity|]. injection H as -> H. f_equal. apply IH, H. Qed.
  Lemma forb_dict_enc f : forall g, forb_to_dict f = forb_to_dict g -> enc_forb f = enc_forb g.
  Proof.
    induction f as [h v vv|h vs vvs|r a b|cs IH] using fclause_ind'; intros [h' v' vv'|h' vs' vvs'|r' a' b'|ds] H; try discriminate.
    - injection H as Hn Hv. cbn [enc_forb]. rewrite Hn, Hv. reflexivity.
    - injection H as Hn Hv. cbn [enc_forb]. rewrite Hn, Hv. reflexivity.
    - injection H as Ha Hb Hr. cbn [enc_forb]. rewrite Ha, Hb. replace r' with r; [reflexivity|]. destruct r, r'; try reflexivity; discriminate.
    - injection H as H. cbn [enc_forb]. do 3 f_equal. f_equal. f_equal. clear -IH H. revert ds H. induction IH as [|x cs Hx _ IHl]; intros [|y ds] H; try discriminate; [reflexivity|].
      injection H as H1 H2. cbn [map]. f_equal; [apply Hx, H1|apply IHl, H2].
  Qed.
  (** two clauses of a space with the same dictionary are the same clause *)
  Theorem C129_clause_determined s hs cs fs f g : built s hs cs fs -> In f fs -> In g fs -> forb_refs hs f -> forb_refs hs g ->
    forb_to_dict f = forb_to_dict g -> f = g.
  Proof.
    intros B Hf Hg Rf Rg H. apply forb_dict_enc in H. assert (A := C51_clause_partial s hs cs fs s cs fs f B B Hf Rf).
    assert (A' := C51_clause_partial s hs cs fs s cs fs g B B Hg Rg). rewrite H in A. congruence.
  Qed.

  (** the same connectives and comparisons in the same places *)
  Inductive same_shape : cond -> cond -> Prop :=
  | ss_bin o a p v vv a' p' v' vv' : same_shape (CLit (mk_lit a p (TBin o v vv))) (CLit (mk_lit a' p' (TBin o v' vv')))
  | ss_in a p vs vvs a' p' vs' vvs' : same_shape (CLit (mk_lit a p (TIn vs vvs))) (CLit (mk_lit a' p' (TIn vs' vvs')))
  | ss_and cs ds : Forall2 same_shape cs ds -> same_shape (CAnd cs) (CAnd ds)
  | ss_or cs ds : Forall2 same_shape cs ds -> same_shape (COr cs) (COr ds).
  Lemma cond_dict_enc c : forall d, same_shape c d -> cond_to_dict c = cond_to_dict d -> enc_cond c = enc_cond d.
  Proof.
    induction c as [l|cs IH|cs IH] using cond_ind'; intros d S H; inversion S as [o a p v vv a' p' v' vv'|a p vs vvs a' p' vs' vvs'|cs' ds F|cs' ds F]; subst.
    - cbn in H. cbn [enc_cond enc_lit l_test l_child l_parent]. unfold enc_lit. cbn [l_test l_child l_parent]. unfold dstr in *. injection H as H1 H2 H3. rewrite H1, H2, H3. reflexivity.
    - cbn in H. cbn [enc_cond enc_lit l_test l_child l_parent]. unfold enc_lit. cbn [l_test l_child l_parent]. unfold dstr in *. injection H as H1 H2 H3. rewrite H1, H2, H3. reflexivity.
    - cbn [cond_to_dict] in H. unfold dstr in H. injection H as Q1 Q.
      cbn [enc_cond]. rewrite Q1. do 4 f_equal. f_equal. f_equal. clear -IH F Q. revert Q. induction F as [|x y cs ds Hxy F IHl]; intros Q; [reflexivity|].
      injection Q as Q1 Q2. inversion IH; subst. cbn [map]. f_equal; auto.
    - cbn [cond_to_dict] in H. unfold dstr in H. injection H as Q1 Q.
      cbn [enc_cond]. rewrite Q1. do 4 f_equal. f_equal. f_equal. clear -IH F Q. revert Q. induction F as [|x y cs ds Hxy F IHl]; intros Q; [reflexivity|].
      injection Q as Q1 Q2. inversion IH; subst. cbn [map]. f_equal; auto.
  Qed.
  (** two conditions of a space with the same dictionary are the same condition.
      Missing: conditions of different shapes (C129_condition_refuted, C129_conjunction_refuted). *)
  Theorem C129_condition_partial s hs cs fs c d : built s hs cs fs -> In c cs -> In d cs -> cond_refs hs c -> cond_refs hs d ->
    same_shape c d -> cond_to_dict c = cond_to_dict d -> c = d.
  Proof.
    intros B Hc Hd Rc Rd S H. apply (cond_dict_enc c d S) in H. destruct (C51_condition_partial s hs cs fs s cs fs c B B Hc Rc) as (A & _).
    destruct (C51_condition_partial s hs cs fs s cs fs d B B Hd Rd) as (A' & _). rewrite H in A. congruence.
  Qed.

  (** ** With its type, the dictionary of a condition is read back *)

  (** the names of the conditions in a serialized space *)
  Definition code (l : lit) : string :=
    match l_test l with TBin OpEq _ _ => "EQ" | TBin OpNe _ _ => "NEQ" | TBin OpLt _ _ => "LT" | TBin OpGt _ _ => "GT" | TIn _ _ => "IN" end.
  Theorem C129_typed s hs cs fs s' cs' fs' l : built s hs cs fs -> built s' hs cs' fs' -> In (CLit l) cs -> cond_refs hs (CLit l) ->
    exists d, cond_to_dict (CLit l) = DDict d /\ snd (dec_cond s' (DDict (("type", dstr (code l)) :: d))) = Ok (CLit l).
  Proof.
    intros B B' Hc R. destruct (C51_condition_partial s hs cs fs s' cs' fs' (CLit l) B B' Hc R) as (A & _).
    destruct l as [a p [o v vv|vs vvs]]; eexists; (split; [reflexivity|]); [destruct o|]; exact A.
  Qed.
  (** a conjunction has the dictionaries of its parts and the name of the child they share *)
  Theorem C129_parts s hs cs fs c ds : built s hs cs fs -> In c cs -> (c = CAnd ds \/ c = COr ds) ->
    exists d n, cond_to_dict c = DDict d /\ assoc "conditions" d = Some (DList (map cond_to_dict ds)) /\ assoc "child" d = Some (dstr n) /\
      forall l, In l (dlcs c) -> hp_name (l_child l) = n.
  Proof.
    intros B Hc Q. assert (O := built_ok _ _ _ _ B).
    exists (match cond_to_dict c with DDict d => d | _ => [] end), (conj_child c).
    split; [destruct Q as [-> | ->]; reflexivity|]. split; [destruct Q as [-> | ->]; reflexivity|]. split; [destruct Q as [-> | ->]; reflexivity|].
    intros l Hl. assert (N := cond_built_children c l (so_cond_built O c Hc) Hl). unfold child_name in N. unfold conj_child. destruct (cond_child c); [|discriminate]. injection N as ->. reflexivity.
  Qed.
End ToDictProps.

Section C129_witness.
  Local Existing Instance rat_env.
  Local Existing Instance rat_env_laws.

  Example C129_ex : (forall f, In f ex_forbs -> f <> fRel -> snd (dec_forb ex_space (forb_to_dict f)) = Ok f) /\ length ex_forbs = 5 /\
    forb_to_dict fG = DDict [("name", dstr "g"); ("type", dstr "EQUALS"); ("value", dstr "q")].
  Proof.
    split; [|split; [reflexivity|vm_compute; reflexivity]]. intros f Hf N. assert (Nr : no_relation f).
    { repeat (destruct Hf as [<-|Hf]; [first [elim N; reflexivity|intros g Hg; vm_compute in Hg; repeat (destruct Hg as [<-|Hg]; [exact Logic.I|]); destruct Hg]|]). destruct Hf. }
    apply (C129_clause_partial _ _ _ _ _ _ _ f ex_built ex_built Hf (proj2 ex_refs f Hf) Nr).
  Qed.
  (** a clause of a space whose dictionary cannot be read *)
  Theorem C129_relation_refuted : In fRel (forbidden_clauses ex_space) /\ snd (dec_forb ex_space (forb_to_dict fRel)) = Err ValueError.
  Proof. split; [vm_compute; tauto|apply C129_relation]. Qed.

  (** two conditions with the same dictionary, one satisfied where the other is not *)
  Definition low := get_or dummy_cond (mk_bin OpLt hB hN (VInt 3)).
  Definition high := get_or dummy_cond (mk_bin OpGt hB hN (VInt 3)).
  Theorem C129_condition_refuted : mk_bin OpLt hB hN (VInt 3) = Ok low /\ mk_bin OpGt hB hN (VInt 3) = Ok high /\ cond_to_dict low = cond_to_dict high /\
    sat_value [("n", Some (VInt 2))] low = Ok true /\ sat_value [("n", Some (VInt 2))] high = Ok false.
  Proof. repeat split; vm_compute; reflexivity. Qed.
  Definition both := get_or dummy_cond (mk_and [low; high]).
  Definition either := get_or dummy_cond (mk_or [low; high]).
  Theorem C129_conjunction_refuted : mk_and [low; high] = Ok both /\ mk_or [low; high] = Ok either /\ cond_to_dict both = cond_to_dict either /\
    sat_value [("n", Some (VInt 2))] both = Ok false /\ sat_value [("n", Some (VInt 2))] either = Ok true.
  Proof. repeat split; vm_compute; reflexivity. Qed.
End C129_witness.
