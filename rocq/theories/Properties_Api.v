(** * Properties C78, C79 and C80: spaces from dictionaries, to_integer, Integer, Float and Categorical *)
From Coq Require Import String List ZArith QArith Qround Qabs Bool Lia Lqa Relations.
From Verif Require Import Base ListFacts Numeric NumericProofs HP HPProofs Properties_HP Cond Forb Dag DagCycle DagProofs Space
  CommitProofs Spec SpaceProofs ConfigProofs ValidProofs Serial Properties_Config Properties_Add Properties_Serial Properties_Ctor
  Properties_Args Api.
Import ListNotations.
Open Scope nat_scope.

(** ** Specification of the entries of a dictionary *)

(** What an entry of the dictionary describes. *)
Definition describes (name : string) (e : entry) (h : hp) : Prop :=
  match e with
  | EHp k => h = k
  | ETuple l => labelled h name None /\ exists a b x y, l = [a; b] /\ num_of a = Some x /\ num_of b = Some y /\
      (((exists q, a = VFloat q) /\ exists lo hi, hp_kind h = KFloat lo hi false DUniform /\ near13 x lo /\ near13 y hi) \/
       ((forall q, a <> VFloat q) /\ exists lo hi, hp_kind h = KInt lo hi false DUniform /\ nearest x lo /\ nearest y hi))
  | EList l => labelled h name None /\ hp_kind h = KCat l None /\ nth_error l 0 = Some (hp_default h)
  | EOther v => labelled h name None /\ hp_kind h = KConst v /\ hp_default h = v
  end.

(** Entries that describe a hyperparameter. *)
Definition well_formed (e : entry) : Prop :=
  match e with
  | EHp _ | EOther _ => True
  | ETuple l => exists a b x y, l = [a; b] /\ num_of a = Some x /\ num_of b = Some y /\
      ((exists q, a = VFloat q) -> float_range x y false) /\ ((forall q, a <> VFloat q) -> int_range x y false)
  | EList l => l <> [] /\ all_differ l
  end.
(** The bounds of a tuple are numbers; other bounds are not modelled. *)
Definition numbers (e : entry) : Prop :=
  match e with ETuple [a; b] => num_of a <> None /\ num_of b <> None | _ => True end.

(** The name of the hyperparameter that an item describes: the key, unless the item is a
    hyperparameter, whose own name counts. *)
Definition item_name (i : string * entry) : string :=
  match snd i with EHp h => hp_name h | _ => fst i end.
(** Hyperparameters in the dictionary are objects that constructors returned. *)
Definition item_made {E : Env} (i : string * entry) : Prop :=
  match snd i with EHp h => constructed h | _ => True end.

Section Dict.
  Context {E : Env} {L : EnvLaws E}.

  Lemma float_or a : (exists q, a = VFloat q) \/ forall q, a <> VFloat q.
  Proof. destruct a; [right|right|left|right|right]; try discriminate. eauto. Qed.

  Lemma parse_tuple n a b x y : num_of a = Some x -> num_of b = Some y ->
    ((exists q, a = VFloat q) -> parse_entry n (ETuple [a; b]) = mk_uniform_float n x y None false None) /\
    ((forall q, a <> VFloat q) -> parse_entry n (ETuple [a; b]) = mk_uniform_int n x y None false None).
  Proof.
    intros A B. simpl. rewrite A, B. split.
    - intros (q & ->). reflexivity.
    - intro N. destruct a as [s|z|q|b'|]; try reflexivity. exfalso. apply (N q). reflexivity.
  Qed.

  Lemma tuple_cases l : (exists a b, l = [a; b]) \/ forall n, parse_entry n (ETuple l) = Err ValueError.
  Proof. destruct l as [|a [|b [|c l]]]; eauto. Qed.

  (** ** C78: the entries *)
  Theorem C78_entry n e h : parse_entry n e = Ok h -> describes n e h.
  Proof.
    destruct e as [k|l|l|v]; intro H; unfold describes.
    - injection H as ->. reflexivity.
    - destruct (tuple_cases l) as [(a & b & ->)|K]; [|rewrite K in H; discriminate].
      destruct (num_of a) as [x|] eqn:A; [|simpl in H; rewrite A in H; discriminate].
      destruct (num_of b) as [y|] eqn:B; [|simpl in H; rewrite A, B in H; discriminate].
      destruct (parse_tuple n a b x y A B) as [P1 P2]. destruct (float_or a) as [F|F].
      + rewrite (P1 F) in H. apply C61_uniform_float in H. destruct H as (Lb & lo & hi & d & K & _ & N1 & N2 & _).
        split; [exact Lb|]. exists a, b, x, y. do 3 (split; [auto|]). left. eauto 8.
      + rewrite (P2 F) in H. apply C61_uniform_int_partial in H. destruct H as (Lb & lo & hi & d & K & _ & N1 & N2 & _).
        split; [exact Lb|]. exists a, b, x, y. do 3 (split; [auto|]). right. eauto 8.
    - destruct l as [|v l]; [discriminate|]. apply C61_categorical in H. destruct H as (Lb & K & _ & D & _). auto.
    - apply C61_constant in H. exact H.
  Qed.

  Theorem C78_parses n e : (exists h, parse_entry n e = Ok h) <-> well_formed e.
  Proof.
    destruct e as [k|l|l|v]; unfold well_formed.
    - split; [auto|]. intros _. simpl. eauto.
    - split.
      + intros (h & H). destruct (tuple_cases l) as [(a & b & ->)|K]; [|rewrite K in H; discriminate].
        destruct (num_of a) as [x|] eqn:A; [|simpl in H; rewrite A in H; discriminate].
        destruct (num_of b) as [y|] eqn:B; [|simpl in H; rewrite A, B in H; discriminate].
        destruct (parse_tuple n a b x y A B) as [P1 P2]. exists a, b, x, y. do 3 (split; [auto|]). split; intro F.
        * rewrite (P1 F) in H. apply (proj1 (C77_uniform_float n x y None false None)). eauto.
        * rewrite (P2 F) in H. apply (proj1 (C77_uniform_int n x y None false None)). eauto.
      + intros (a & b & x & y & -> & A & B & F1 & F2). destruct (parse_tuple n a b x y A B) as [P1 P2]. destruct (float_or a) as [F|F].
        * rewrite (P1 F). apply C77_uniform_float. split; [apply F1, F|]. intros d K. discriminate.
        * rewrite (P2 F). apply C77_uniform_int. split; [apply F2, F|]. split; intros d K; discriminate.
    - destruct l as [|v l].
      + split; [intros (h & H); discriminate|intros [H _]; congruence].
      + simpl. rewrite C77_categorical. split; [intros (A & B & _); auto|]. intros (A & B). split; [exact A|]. split; [exact B|].
        split; intros d K; discriminate.
    - split; [auto|]. intros _. apply C77_constant.
  Qed.

  Theorem C78_raises n e x : numbers e -> parse_entry n e = Err x -> x = ValueError /\ ~ well_formed e.
  Proof.
    intros N H. split; [|intro W; apply (C78_parses n) in W; destruct W as (h & W); congruence].
    destruct e as [k|l|l|v].
    - discriminate.
    - destruct (tuple_cases l) as [(a & b & ->)|K]; [|rewrite K in H; congruence]. destruct N as [N1 N2].
      destruct (num_of a) as [p|] eqn:A; [|congruence]. destruct (num_of b) as [q|] eqn:B; [|congruence].
      destruct (parse_tuple n a b p q A B) as [P1 P2]. destruct (float_or a) as [F|F].
      + rewrite (P1 F) in H. apply C77_uniform_float_raises in H. apply H.
      + rewrite (P2 F) in H. apply C77_uniform_int_raises in H. destruct H as [[_ H]|[H _]]; [|exact H].
        exfalso. apply H. intros d K. discriminate.
    - destruct l as [|v l]; [simpl in H; congruence|]. simpl in H. apply C77_categorical_raises in H. destruct H as [[H _]|[_ H]]; [exact H|discriminate].
    - destruct (C77_constant n v None) as (h & K). simpl in H. congruence.
  Qed.

  Lemma parse_made i h : item_made i -> parse_entry (fst i) (snd i) = Ok h -> constructed h.
  Proof.
    destruct i as [n [k|l|l|v]]; unfold item_made; simpl; intros M H.
    - congruence.
    - destruct l as [|a [|b [|c l]]]; try discriminate. destruct (num_of a); [|discriminate]. destruct (num_of b); [|discriminate].
      destruct a; first [eapply CtorUFloat; exact H|eapply CtorUInt; exact H].
    - destruct l; [discriminate|]. eapply CtorCat; exact H.
    - eapply CtorConst; exact H.
  Qed.
  Lemma parse_name i h : parse_entry (fst i) (snd i) = Ok h -> hp_name h = item_name i.
  Proof.
    destruct i as [n e]. simpl. intro H. apply C78_entry in H. unfold item_name. simpl. destruct e; simpl in *; [congruence| | |]; apply H.
  Qed.

  (** ** C78: the space *)
  Lemma parse_all items hs : mapM (fun e => parse_entry (fst e) (snd e)) items = Ok hs -> Forall item_made items ->
    Forall constructed hs /\ map hp_name hs = map item_name items /\
    Forall2 (fun i h => describes (fst i) (snd i) h) items hs.
  Proof.
    intro H. apply mapM_ok in H. induction H as [|i h items hs P H IH]; intro M; [repeat split; constructor|].
    inversion M; subst. destruct (IH H3) as (A & B & C). split; [constructor; [exact (parse_made i h H2 P)|exact A]|].
    split; [simpl; rewrite (parse_name i h P), B; reflexivity|]. constructor; [apply C78_entry, P|exact C].
  Qed.

  Lemma plain_refs hs : refs hs [] [].
  Proof. split; intros x []. Qed.
  Lemma plain_merge : mergeable [].
  Proof. left. intros x []. Qed.
  Lemma plain_ne : ne_safe [].
  Proof. intros c l w vv []. Qed.

  Lemma plain_cycle : no_cycle [].
  Proof.
    assert (G : forall p n, clos_trans _ (reads []) p n -> False).
    { intros p n T. induction T as [p n (c & [] & _)|]; assumption. }
    intros n T. exact (G n n T).
  Qed.

  Lemma plain_defaults hs : NoDup (map hp_name hs) -> exists d, default_assignment hs [] d.
  Proof.
    intro N. exists (fun n => option_map hp_default (find (fun h => String.eqb (hp_name h) n) hs)). intros h Hh. left.
    split; [intros c []|]. induction hs as [|k hs IH]; [destruct Hh|]. simpl. inversion N; subst. destruct Hh as [->|Hh].
    - rewrite String.eqb_refl. reflexivity.
    - destruct (String.eqb (hp_name k) (hp_name h)) eqn:Q; [|apply IH; assumption].
      apply String.eqb_eq in Q. exfalso. apply H1. rewrite Q. apply in_map, Hh.
  Qed.

  Lemma plain_add name meta hs : Forall constructed hs ->
    ((exists x, c_add (new_space name meta) hs [] [] = (x, Ok tt)) <-> NoDup (map hp_name hs)) /\
    (forall x e, c_add (new_space name meta) hs [] [] = (x, Err e) -> e = HyperparameterAlreadyExistsError /\ ~ NoDup (map hp_name hs)).
  Proof.
    intro A. assert (B := cbuilt_built _ _ _ _ (cb_new name meta)).
    assert (R : refs ([] ++ hs) ([] ++ []) ([] ++ [])) by apply plain_refs.
    assert (NE : ~ In (FAnd []) ([] ++ [])) by (intros []).
    assert (Cm : forall f, In f ([] ++ []) -> comparable f) by (intros f []).
    split.
    - assert (I := C73_add_iff_partial _ _ _ _ hs [] [] B A (Forall_nil _) (Forall_nil _) R NE plain_merge plain_ne Cm).
      split.
      + intros (x & H). apply c_add_add in H. apply I. exists (c_space x). apply H.
      + intro N. destruct (proj2 I) as (s' & H).
        { split; [exact N|]. split; [intros c c' n []|]. split; [|destruct (plain_defaults _ N) as (d & D); exists d; split; [exact D|intros f []]].
          apply plain_cycle. }
        unfold c_add. rewrite H. eauto.
    - intros x e H. apply c_add_add in H. destruct H as [H _].
      destruct (C73_raises_partial _ _ _ _ hs [] [] _ _ B A (Forall_nil _) (Forall_nil _) R NE plain_merge plain_ne Cm H)
        as [K|[[_ K]|[[_ K]|(_ & _ & _ & _ & d & f & _ & [] & _)]]]; [exact K| |].
      + exfalso. apply K. intros c c' n [].
      + exfalso. apply K, plain_cycle.
  Qed.

  (** the space exists exactly when every entry describes a hyperparameter and the names differ *)
  Theorem C78_space name meta items : Forall item_made items ->
    ((exists x, space_of_dict name meta items = Ok x) <->
     Forall (fun i => well_formed (snd i)) items /\ NoDup (map item_name items)).
  Proof.
    intro M. unfold space_of_dict. cbv beta iota delta [bind]. split.
    - intros (x & H). destruct (mapM _ items) as [hs|e] eqn:P; [|discriminate].
      destruct (parse_all items hs P M) as (A & N & _). destruct (c_add _ hs [] []) as [y [[]|e]] eqn:C; [|discriminate].
      split.
      + apply mapM_ok in P. clear -P L. induction P as [|i h items hs P Q IH]; constructor; [|exact IH]. apply (C78_parses (fst i)). eauto.
      + rewrite <- N. apply (proj1 (plain_add name meta hs A)). eauto.
    - intros (W & N). destruct (mapM_total (fun e => parse_entry (fst e) (snd e)) items) as (hs & P).
      { intros i Hi. apply C78_parses. rewrite Forall_forall in W. apply W, Hi. }
      rewrite P. destruct (parse_all items hs P M) as (A & Nm & _). rewrite <- Nm in N.
      destruct (proj2 (proj1 (plain_add name meta hs A)) N) as (x & ->). eauto.
  Qed.

  (** ... otherwise a ValueError about an entry or an exception about a repeated name *)
  Theorem C78_space_raises name meta items e : Forall item_made items -> Forall (fun i => numbers (snd i)) items ->
    space_of_dict name meta items = Err e ->
    (e = ValueError /\ exists i, In i items /\ ~ well_formed (snd i)) \/
    (e = HyperparameterAlreadyExistsError /\ ~ NoDup (map item_name items)).
  Proof.
    intros M Nu. unfold space_of_dict. cbv beta iota delta [bind]. destruct (mapM _ items) as [hs|x] eqn:P.
    - destruct (parse_all items hs P M) as (A & N & _). destruct (c_add _ hs [] []) as [y [[]|x]] eqn:C; [discriminate|].
      intros [= <-]. right. rewrite <- N. apply (proj2 (plain_add name meta hs A) y). exact C.
    - intros [= <-]. left. clear M. revert P. induction items as [|i items IH]; [discriminate|]. simpl. inversion Nu; subst.
      cbv beta iota delta [bind]. destruct (parse_entry (fst i) (snd i)) as [h|z] eqn:Pi.
      + destruct (mapM _ items) as [hs|z] eqn:P; [discriminate|]. intros [= <-]. destruct (IH H2 eq_refl) as (-> & j & J & W).
        split; [reflexivity|]. exists j. split; [right; exact J|exact W].
      + intros [= <-]. destruct (C78_raises _ _ _ H1 Pi) as [-> W]. split; [reflexivity|]. exists i. split; [left; reflexivity|exact W].
  Qed.

  (** the space has the described hyperparameters, the given name and meta, and nothing else *)
  Theorem C78_result name meta items x : Forall item_made items -> space_of_dict name meta items = Ok x ->
    c_name x = name /\ c_meta x = meta /\ exists hs, cbuilt x hs [] [] /\
      Forall2 (fun i h => describes (fst i) (snd i) h) items hs.
  Proof.
    intros M. unfold space_of_dict. cbv beta iota delta [bind]. destruct (mapM _ items) as [hs|e] eqn:P; [|discriminate].
    destruct (parse_all items hs P M) as (A & N & D). destruct (c_add _ hs [] []) as [y [[]|e]] eqn:C; [|discriminate].
    intros [= ->]. destruct (c_add_add _ _ _ _ _ _ C) as (_ & C1 & C2). split; [exact C1|]. split; [exact C2|].
    exists hs. split; [|exact D]. exact (cb_add _ _ _ _ _ hs [] [] (cb_new name meta) A (Forall_nil _) (Forall_nil _) C).
  Qed.

  (** the same of a sequence of hyperparameters: it is a space exactly when the names differ, and has these hyperparameters *)
  Theorem C78_list name meta hs : Forall constructed hs ->
    ((exists x, space_of_list name meta hs = Ok x) <-> NoDup (map hp_name hs)) /\
    (forall x, space_of_list name meta hs = Ok x -> c_name x = name /\ c_meta x = meta /\ cbuilt x hs [] []) /\
    (forall e, space_of_list name meta hs = Err e -> e = HyperparameterAlreadyExistsError /\ ~ NoDup (map hp_name hs)).
  Proof.
    intro A. unfold space_of_list. destruct (plain_add name meta hs A) as [I R]. destruct (c_add _ hs [] []) as [y [[]|e]] eqn:C; split; [|split| |split].
    - split; [intros _; apply I; eauto|eauto].
    - intros x [= ->]. destruct (c_add_add _ _ _ _ _ _ C) as (_ & C1 & C2). split; [exact C1|]. split; [exact C2|].
      exact (cb_add _ _ _ _ _ hs [] [] (cb_new name meta) A (Forall_nil _) (Forall_nil _) C).
    - discriminate.
    - split; [intros (x & H); discriminate|]. intro N. destruct (proj2 I N) as (x & H). discriminate.
    - discriminate.
    - intros z [= <-]. exact (R y e eq_refl).
  Qed.

  (** Without conditions and clauses every choice of legal values is a configuration; [""] as an
      additional key is the defect of C17. *)
  Theorem C78_configurations x hs vals : cbuilt x hs [] [] -> exact_all hs (given vals) ->
    ((exists c, config_of_values (c_space x) vals false = Ok c) <->
     (forall k, In k (map fst vals) -> k = ""%string \/ In k (map hp_name hs)) /\
     forall h, In h hs -> exists v, given vals (hp_name h) = Some v /\ legal_value h v = true).
  Proof.
    intros CB Ex. assert (B := cbuilt_built _ _ _ _ CB). assert (O := built_ok _ _ _ _ B).
    assert (T : tame (c_space x) hs [] []).
    { constructor; [exact B|apply plain_refs|apply (mergeable_sound _ _ _ _ O (plain_refs hs) plain_merge)|exact plain_ne|intros f []]. }
    assert (St := store_stored hs (given vals) (so_names_nodup O)).
    rewrite (C17_accepts_valid_partial _ hs [] [] vals _ T St Ex). split.
    - intros (K & AL & V). split; [exact K|]. intros h Hh. destruct (given vals (hp_name h)) as [v|] eqn:G.
      + exists v. split; [reflexivity|]. apply (AL h v Hh G).
      + exfalso. apply (proj2 (va_active _ _ _ _ V h Hh)); [intros c []|]. rewrite (St h Hh), G. reflexivity.
    - intros (K & G). assert (AL : all_legal hs (given vals)).
      { intros h v Hh Hv. destruct (G h Hh) as (w & W1 & W2). congruence. }
      split; [exact K|]. split; [exact AL|]. constructor.
      + intros h w Hh Hw. rewrite (St h Hh) in Hw. destruct (given vals (hp_name h)) as [w'|] eqn:Ew; [|discriminate].
        injection Hw as <-. apply round_legal; [apply (so_constructed O); exact Hh|]. apply (AL h w' Hh Ew).
      + intros h Hh. split; [intros _ c []|]. intros _. rewrite (St h Hh). destruct (G h Hh) as (w & -> & _). discriminate.
      + intros f [].
  Qed.
End Dict.

(** ** C79: to_integer *)
Section ToInteger.
  Context {E : Env} {L : EnvLaws E}.
  Open Scope Z_scope.

  (** there are at least two integers from [lo] to [hi] *)
  Definition two_integers (lo hi : Q) : Prop := exists z z', z < z' /\ (lo <= inject_Z z)%Q /\ (inject_Z z' <= hi)%Q.
  (** a logarithmic normal distribution has a positive mean *)
  Definition proper_mean (log : bool) (d : dist) : Prop :=
    match d with DNormal mu _ => log = true -> (0 < mu)%Q | _ => True end.

  Lemma ceil_le q z : Qceiling q <= z <-> (q <= inject_Z z)%Q.
  Proof.
    split; intro H.
    - apply (proj2 (inject_Z_le _ _)) in H. assert (A := Qle_ceiling q). lra.
    - apply Qceiling_resp_le in H. rewrite Qceiling_Z in H. exact H.
  Qed.
  Lemma floor_ge q z : z <= Qfloor q <-> (inject_Z z <= q)%Q.
  Proof.
    split; intro H.
    - apply (proj2 (inject_Z_le _ _)) in H. assert (A := Qfloor_le q). lra.
    - apply Qfloor_resp_le in H. rewrite Qfloor_Z in H. exact H.
  Qed.
  Lemma two_iff lo hi : Qceiling lo < Qfloor hi <-> two_integers lo hi.
  Proof.
    split.
    - intro H. exists (Qceiling lo), (Qfloor hi). split; [exact H|]. split; [apply Qle_ceiling|apply Qfloor_le].
    - intros (z & z' & H & A & B). apply ceil_le in A. apply floor_ge in B. lia.
  Qed.

  Lemma ceil_pos lo : (0 < lo)%Q -> 0 < Qceiling lo.
  Proof. intro H. destruct (Z_le_gt_dec (Qceiling lo) 0) as [K|K]; [|lia]. apply ceil_le in K. change (inject_Z 0) with 0%Q in K. lra. Qed.

  Lemma float_facts h lo hi log d : constructed h -> hp_kind h = KFloat lo hi log d ->
    (log = true -> (0 < lo)%Q) /\ (exists x, hp_default h = VFloat x) /\
    match d with DBeta a b => (1 <= a)%Q /\ (1 <= b)%Q | _ => True end.
  Proof.
    intros C K. assert (W := C37_domain_nonempty h C). rewrite K in W. destruct W as (_ & W1 & x & W2 & _).
    split; [exact W1|]. split; [eauto|]. destruct d as [|mu s|a b]; auto.
    destruct C as [n c d w m h H|n c d m h H|n v m h H|n l u d g m h H|n mu s l u d g m h H|n a' b' l u d g m h H|n l u d g m h H
      |n mu s l u d g m h H|n a' b' l u d g m h H].
    - apply C61_categorical in H. destruct H as (_ & H & _). congruence.
    - apply C61_ordinal in H. destruct H as (_ & H & _). congruence.
    - apply C61_constant in H. destruct H as (_ & H & _). congruence.
    - apply C61_uniform_int_partial in H. destruct H as (_ & ? & ? & ? & H & _). congruence.
    - apply C61_normal_int in H. destruct H as (_ & ? & ? & ? & H & _). congruence.
    - apply C61_beta_int in H. destruct H as (_ & ? & ? & ? & H & _). congruence.
    - apply C61_uniform_float in H. destruct H as (_ & ? & ? & ? & H & _). congruence.
    - apply C61_normal_float in H. destruct H as (_ & ? & ? & ? & ? & ? & H & _). congruence.
    - unfold mk_beta_float in H. cbv zeta in H. apply if_check in H. destruct H as [S H]. apply if_check in H. destruct H as [_ H].
      apply finish_ok in H. destruct H as [-> _]. simpl in K. injection K as _ _ _ <- <-. apply shape_ok in S.
      split; apply round13_ge1; apply S.
  Qed.

  Lemma int_range_Z a b log : int_range (inject_Z a) (inject_Z b) log <-> a < b /\ (log = true -> 0 < a).
  Proof. unfold int_range. rewrite !rint_Z. reflexivity. Qed.
  Lemma integral_Z z : if_given (Some (inject_Z z)) integral.
  Proof. intros x [= <-]. apply integral_iff, is_close_to_integer_Z. Qed.
  Lemma default_Z (f : Q -> Z) z a b : f (inject_Z z) = z -> int_default (Some (inject_Z z)) f (inject_Z a) (inject_Z b) <-> a <= z <= b.
  Proof.
    intro F. unfold int_default. rewrite !rint_Z. split; [intro H; specialize (H _ eq_refl); congruence|intros H x [= <-]; rewrite F; exact H].
  Qed.

  Lemma to_integer_eq h lo hi log d x : hp_kind h = KFloat lo hi log d -> hp_default h = VFloat x ->
    to_integer h = match d with
      | DUniform => mk_uniform_int (hp_name h) (inject_Z (Qceiling lo)) (inject_Z (Qfloor hi)) (Some (inject_Z (rint x))) log None
      | DNormal mu sigma => mk_normal_int (hp_name h) mu sigma (inject_Z (Qceiling lo)) (inject_Z (Qfloor hi)) (Some (inject_Z (rint x))) log None
      | DBeta a b => mk_beta_int (hp_name h) a b (inject_Z (Qceiling lo)) (inject_Z (Qfloor hi)) (Some (inject_Z (rint x))) log None
      end.
  Proof. intros K D. unfold to_integer. rewrite K, D. reflexivity. Qed.

  (** it returns exactly when two integers are left and the rounded default is one of the integers left *)
  Theorem C79_accepts h lo hi log d x : constructed h -> hp_kind h = KFloat lo hi log d -> hp_default h = VFloat x ->
    ((exists k, to_integer h = Ok k) <->
     two_integers lo hi /\ (lo <= inject_Z (rint x) <= hi)%Q /\ proper_mean log d).
  Proof.
    intros C K D. destruct (float_facts h lo hi log d C K) as (P & _ & S). rewrite (to_integer_eq h lo hi log d x K D).
    assert (P' : log = true -> 0 < Qceiling lo) by (intro G; apply ceil_pos, P, G).
    rewrite <- two_iff. rewrite <- ceil_le, <- floor_ge. destruct d as [|mu s|a b]; simpl.
    - rewrite C77_uniform_int, int_range_Z, default_Z by apply py_int_inject. split; [intros ((A & _) & _ & B); auto|].
      intros (A & B & _). split; [auto|]. split; [apply integral_Z|exact B].
    - rewrite C77_normal_int, int_range_Z, default_Z by apply rint_Z. split; [intros (M & (A & _) & _ & B); auto|].
      intros (A & B & M). split; [exact M|]. split; [auto|]. split; [apply integral_Z|exact B].
    - rewrite C77_beta_int, int_range_Z, default_Z by apply rint_Z. split; [intros (M & (A & _) & _ & B); auto|].
      intros (A & B & _). split; [exact S|]. split; [auto|]. split; [apply integral_Z|exact B].
  Qed.

  Lemma int_legal h lo hi log d z : hp_kind h = KInt lo hi log d -> legal_value h (VInt z) = true <-> lo <= z <= hi.
  Proof.
    intro K. unfold legal_value. rewrite K. simpl. rewrite (legal_int_Z lo hi z (inject_Z z)) by reflexivity.
    rewrite andb_true_iff, !Z.leb_le. tauto.
  Qed.

  (** the result has the same name, scale and distribution, the rounded default, and exactly those
      integers that were values before *)
  Theorem C79_result h lo hi log d x k : hp_kind h = KFloat lo hi log d -> hp_default h = VFloat x -> to_integer h = Ok k ->
    hp_name k = hp_name h /\ hp_meta k = None /\
    (exists a b z, hp_kind k = KInt a b log d /\ hp_default k = VInt z /\ nearest x z) /\
    forall z, legal_value k (VInt z) = true <-> legal_value h (VInt z) = true.
  Proof.
    intros K D H. rewrite (to_integer_eq h lo hi log d x K D) in H.
    assert (G : exists lo' hi' z, labelled k (hp_name h) None /\ hp_kind k = KInt lo' hi' log d /\ hp_default k = VInt z /\
      nearest (inject_Z (Qceiling lo)) lo' /\ nearest (inject_Z (Qfloor hi)) hi' /\ z = rint x).
    { destruct d as [|mu s|a b].
      - apply C61_uniform_int_partial in H. destruct H as (Lb & lo' & hi' & z & A1 & A2 & A3 & A4 & A5 & _). exists lo', hi', z.
        do 5 (split; [auto|]). specialize (A5 _ eq_refl). apply inject_Z_injective. apply A5. cbv beta. rewrite Qfloor_Z. reflexivity.
      - apply C61_normal_int in H. destruct H as (Lb & lo' & hi' & z & A1 & A2 & A3 & A4 & A5 & _). exists lo', hi', z.
        do 5 (split; [auto|]). apply nearest_Z. apply A5. reflexivity.
      - apply C61_beta_int in H. destruct H as (Lb & lo' & hi' & z & A1 & A2 & A3 & A4 & A5). exists lo', hi', z.
        do 5 (split; [auto|]). apply nearest_Z. apply A5. reflexivity. }
    destruct G as (lo' & hi' & z & (Ln & Lm) & Kk & Dk & N1 & N2 & ->). apply nearest_Z in N1, N2. subst lo' hi'.
    split; [exact Ln|]. split; [exact Lm|]. split; [do 3 eexists; split; [exact Kk|]; split; [exact Dk|apply nearest_rint]|].
    intro z. rewrite (int_legal k _ _ _ _ z Kk), ceil_le, floor_ge. unfold legal_value. rewrite K. simpl.
    rewrite andb_true_iff, !Qle_bool_iff. reflexivity.
  Qed.

  (** whenever it raises, it is a ValueError *)
  Theorem C79_raises h lo hi log d x e : hp_kind h = KFloat lo hi log d -> hp_default h = VFloat x -> to_integer h = Err e -> e = ValueError.
  Proof.
    intros K D H. rewrite (to_integer_eq h lo hi log d x K D) in H. destruct d as [|mu s|a b].
    - apply C77_uniform_int_raises in H. destruct H as [[_ H]|[H _]]; [exfalso; apply H, integral_Z|exact H].
    - apply C77_normal_int_raises in H. destruct H as [[_ H]|[H _]]; [exfalso; apply H, integral_Z|exact H].
    - apply C77_beta_int_raises in H. destruct H as [[_ H]|[H _]]; [exfalso; apply H, integral_Z|exact H].
  Qed.
End ToInteger.

(** ** C80: Integer, Float and Categorical *)
Section Functions.
  Context {E : Env} {L : EnvLaws E}.

  (** the distribution an optional argument stands for *)
  Definition asked (d : option dist) : dist := match d with None => DUniform | Some d => d end.
  (** same kind of distribution, parameters up to 13 decimals *)
  Definition dist13 (d d' : dist) : Prop :=
    match d, d' with
    | DUniform, DUniform => True
    | DNormal a b, DNormal a' b' | DBeta a b, DBeta a' b' => near13 a a' /\ near13 b b'
    | _, _ => False
    end.
  (** the parameters of the distribution are acceptable *)
  Definition proper_dist (log : bool) (d : dist) : Prop :=
    match d with
    | DUniform => True
    | DNormal mu _ => log = true -> (0 < mu)%Q
    | DBeta a b => (1 <= a)%Q /\ (1 <= b)%Q
    end.

  Theorem C80_integer n bounds d default log m h : api_integer n bounds d default log m = Ok h ->
    labelled h n m /\ exists lower upper lo hi z, bounds = Some (lower, upper) /\ hp_kind h = KInt lo hi log (asked d) /\
      nearest lower lo /\ nearest upper hi /\ hp_default h = VInt z /\ default_from default (fun x z => (Qabs (x - inject_Z z) < 1)%Q) z.
  Proof.
    assert (W : forall x z, nearest x z -> (Qabs (x - inject_Z z) < 1)%Q).
    { intros x z H. unfold nearest in H. lra. }
    unfold api_integer. destruct bounds as [[lower upper]|]; [|destruct d as [[| |]|]; discriminate].
    destruct d as [[|mu s|a b]|]; intro H.
    - apply C61_uniform_int_partial in H. destruct H as (Lb & lo & hi & z & A1 & A2 & A3 & A4 & _ & A5 & _).
      split; [exact Lb|]. exists lower, upper, lo, hi, z. auto 8.
    - apply C61_normal_int in H. destruct H as (Lb & lo & hi & z & A1 & A2 & A3 & A4 & A5 & _).
      split; [exact Lb|]. exists lower, upper, lo, hi, z. do 5 (split; [auto|]). intros x X. apply W, A5, X.
    - apply C61_beta_int in H. destruct H as (Lb & lo & hi & z & A1 & A2 & A3 & A4 & A5).
      split; [exact Lb|]. exists lower, upper, lo, hi, z. do 5 (split; [auto|]). intros x X. apply W, A5, X.
    - apply C61_uniform_int_partial in H. destruct H as (Lb & lo & hi & z & A1 & A2 & A3 & A4 & _ & A5 & _).
      split; [exact Lb|]. exists lower, upper, lo, hi, z. auto 8.
  Qed.

  (** the uniform one truncates its default, see C61 *)
  Definition default_cast (d : dist) : Q -> Z := match d with DUniform => py_int | _ => rint end.
  Theorem C80_integer_accepts n lower upper d default log m :
    (exists h, api_integer n (Some (lower, upper)) d default log m = Ok h) <->
    proper_dist log (asked d) /\ int_range lower upper log /\ if_given default integral /\
    int_default default (default_cast (asked d)) lower upper.
  Proof.
    unfold api_integer. destruct d as [[|mu s|a b]|]; simpl.
    - rewrite C77_uniform_int. tauto.
    - apply C77_normal_int.
    - apply C77_beta_int.
    - rewrite C77_uniform_int. tauto.
  Qed.

  Theorem C80_float n bounds d default log m h : api_float n bounds d default log m = Ok h ->
    labelled h n m /\ exists lower upper lo hi x d', bounds = Some (lower, upper) /\ hp_kind h = KFloat lo hi log d' /\ dist13 (asked d) d' /\
      near13 lower lo /\ near13 upper hi /\ hp_default h = VFloat x /\ default_from default near13 x.
  Proof.
    unfold api_float. destruct bounds as [[lower upper]|]; [|destruct d as [[| |]|]; discriminate].
    destruct d as [[|mu s|a b]|]; intro H.
    - apply C61_uniform_float in H. destruct H as (Lb & lo & hi & x & A1 & A2 & A3 & A4 & A5 & _).
      split; [exact Lb|]. exists lower, upper, lo, hi, x, DUniform. simpl. auto 9.
    - apply C61_normal_float in H. destruct H as (Lb & lo & hi & x & mu' & s' & A1 & A2 & A3 & A4 & A5 & A6 & A7).
      split; [exact Lb|]. exists lower, upper, lo, hi, x, (DNormal mu' s'). simpl. auto 9.
    - apply C61_beta_float in H. destruct H as (Lb & lo & hi & x & a' & b' & A1 & A2 & A3 & A4 & A5 & A6 & A7).
      split; [exact Lb|]. exists lower, upper, lo, hi, x, (DBeta a' b'). simpl. auto 9.
    - apply C61_uniform_float in H. destruct H as (Lb & lo & hi & x & A1 & A2 & A3 & A4 & A5 & _).
      split; [exact Lb|]. exists lower, upper, lo, hi, x, DUniform. simpl. auto 9.
  Qed.

  Theorem C80_float_accepts n lower upper d default log m :
    (exists h, api_float n (Some (lower, upper)) d default log m = Ok h) <->
    proper_dist log (asked d) /\ float_range lower upper log /\ float_default default lower upper.
  Proof.
    unfold api_float. destruct d as [[|mu s|a b]|]; simpl.
    - rewrite C77_uniform_float. tauto.
    - apply C77_normal_float.
    - apply C77_beta_float.
    - rewrite C77_uniform_float. tauto.
  Qed.

  (** without bounds nothing is made, and the caller can tell which exception to expect *)
  Theorem C80_no_bounds n d default log m :
    api_integer n None d default log m = Err (match asked d with DUniform => ValueError | _ => TypeError end) /\
    api_float n None d default log m = Err TypeError.
  Proof. split; destruct d as [[| |]|]; reflexivity. Qed.

  (** an ordered categorical with weights is refused before anything else is looked at *)
  Theorem C80_ordered_weights n items default w m : api_categorical n items default (Some w) true m = Err ValueError.
  Proof. reflexivity. Qed.

  Theorem C80_categorical n items default weights ordered m h : api_categorical n items default weights ordered m = Ok h ->
    labelled h n m /\ default_from default eq (hp_default h) /\
    (ordered = true -> hp_kind h = KOrd items /\ weights = None) /\ (ordered = false -> hp_kind h = KCat items weights).
  Proof.
    unfold api_categorical. intro H. apply if_check in H. destruct H as [W H]. destruct ordered.
    - apply C61_ordinal in H. destruct H as (Lb & K & D & _). split; [exact Lb|]. split; [exact D|]. split; [|discriminate].
      intros _. split; [exact K|]. destruct weights; [discriminate|reflexivity].
    - apply C61_categorical in H. destruct H as (Lb & K & D & _). split; [exact Lb|]. split; [exact D|]. split; [discriminate|auto].
  Qed.

  Theorem C80_categorical_accepts n items default weights ordered m :
    (exists h, api_categorical n items default weights ordered m = Ok h) <->
    (ordered = true -> weights = None) /\ items <> [] /\ all_differ items /\
    if_given weights (proper_weights items) /\ if_given default (fun v => among v items).
  Proof.
    unfold api_categorical. rewrite check_iff. destruct ordered, weights as [w|]; simpl.
    - split; [intros [K _]; discriminate|intros [K _]; specialize (K eq_refl); discriminate].
    - rewrite C77_ordinal. split.
      + intros (_ & A & B & C). do 3 (split; [auto|]). split; [intros x K; discriminate|exact C].
      + intros (_ & A & B & _ & C). auto.
    - rewrite C77_categorical. split; [intros (_ & K); split; [discriminate|exact K]|intros (_ & K); split; [reflexivity|exact K]].
    - rewrite C77_categorical. split; [intros (_ & K); split; [discriminate|exact K]|intros (_ & K); split; [reflexivity|exact K]].
  Qed.
End Functions.

Section Examples.
  #[local] Existing Instance rat_env.
  #[local] Existing Instance rat_env_laws.

  Definition ex_obj : hp := mk_hp "own" (KConst (VInt 7)) (VInt 7) None.
  Definition ex_items : list (string * entry) :=
    [("lr", ETuple [VFloat (1#10); VInt 2]); ("layers", ETuple [VInt 1; VInt 8]);
     ("opt", EList [VStr "sgd"; VStr "adam"]); ("seed", EOther (VInt 3)); ("key", EHp ex_obj)]%string.
  Lemma ex_items_made : Forall item_made ex_items.
  Proof. repeat (constructor; [exact I|]). constructor; [|constructor]. apply (CtorConst "own" (VInt 7) None). reflexivity. Qed.

  (** five entries of all kinds; the last one keeps its own name *)
  Example ex_dict : exists x, space_of_dict (Some "s"%string) None ex_items = Ok x /\ c_name x = Some "s"%string /\
    map hp_name (Space.hps (c_space x)) = ["layers"; "lr"; "opt"; "own"; "seed"]%string.
  Proof. eexists. split; [vm_compute; reflexivity|]. split; [reflexivity|]. vm_compute. reflexivity. Qed.
  Example ex_dict_hyps : Forall (fun i => well_formed (snd i)) ex_items /\ NoDup (map item_name ex_items).
  Proof.
    apply (proj1 (C78_space None None ex_items ex_items_made)). eexists. vm_compute. reflexivity.
  Qed.

  (** "the hyperparameter has the name of its key" is false *)
  Theorem C78_name_refuted : exists items x k, Forall item_made items /\ space_of_dict None None items = Ok x /\
    In k (map fst items) /\ get_hp (c_space x) k = None.
  Proof.
    exists [("key", EHp ex_obj)]%string. do 2 eexists. split; [constructor; [|constructor]; apply (CtorConst "own" (VInt 7) None); reflexivity|].
    split; [vm_compute; reflexivity|]. split; [left; reflexivity|]. vm_compute. reflexivity.
  Qed.

  (** "the values are those between the bounds" is false: {"n": (0, 2.7)} has the value 3 *)
  Theorem C78_range_refuted : exists n a b h y z, parse_entry n (ETuple [a; b]) = Ok h /\ num_of b = Some y /\
    legal_value h (VInt z) = true /\ (y < inject_Z z)%Q.
  Proof.
    exists "n"%string, (VInt 0), (VFloat (27#10)). eexists. exists (27#10), 3%Z. split; [vm_compute; reflexivity|].
    split; [reflexivity|]. split; reflexivity.
  Qed.

  (** two entries for one name *)
  Example ex_dict_twice : space_of_dict None None [("own", EOther (VInt 1)); ("key", EHp ex_obj)]%string = Err HyperparameterAlreadyExistsError.
  Proof. vm_compute. reflexivity. Qed.

  (** [1.4, 5.0] with default 1.45: the default becomes 1 but the lower bound 2 *)
  Theorem C79_default_refuted : exists h lo hi log d, constructed h /\ hp_kind h = KFloat lo hi log d /\ two_integers lo hi /\
    to_integer h = Err ValueError.
  Proof.
    destruct (mk_uniform_float "f" (14#10) 5 (Some (145#100)) false None) as [h|] eqn:H; [|vm_compute in H; discriminate].
    assert (C : constructed h) by (eapply CtorUFloat; exact H). vm_compute in H. injection H as <-. do 5 eexists.
    split; [exact C|]. split; [reflexivity|]. split; [|vm_compute; reflexivity].
    exists 2%Z, 3%Z. split; [reflexivity|]. split; vm_compute; discriminate.
  Qed.

  (** meta is lost *)
  Theorem C79_meta_refuted : exists h k, constructed h /\ to_integer h = Ok k /\ hp_meta h <> hp_meta k.
  Proof.
    destruct (mk_uniform_float "f" (14#10) 5 None false (Some "m"%string)) as [h|] eqn:H; [|vm_compute in H; discriminate].
    assert (C : constructed h) by (eapply CtorUFloat; exact H). vm_compute in H. injection H as <-. do 2 eexists.
    split; [exact C|]. split; [vm_compute; reflexivity|]. discriminate.
  Qed.

  (** a log-scale beta from 1.5 to 9.2 with default 4.6 becomes 2 to 9 with default 5 *)
  Example ex_to_integer : exists h k, mk_beta_float "f" 2 3 (15#10) (92#10) (Some (46#10)) true None = Ok h /\
    to_integer h = Ok k /\ (exists a b, hp_kind k = KInt 2 9 true (DBeta a b) /\ (a == 2)%Q /\ (b == 3)%Q) /\ hp_default k = VInt 5.
  Proof. do 2 eexists. split; [vm_compute; reflexivity|]. split; [vm_compute; reflexivity|]. split; [do 2 eexists; repeat split|reflexivity]. Qed.

  Example ex_api : (exists h, api_integer "i" (Some (1, 10)%Q) (Some (DNormal 5 2)) (Some 4%Q) true None = Ok h) /\
    (exists h, api_float "f" (Some (1, 10)%Q) (Some (DBeta 2 2)) None false None = Ok h) /\
    (exists h, api_categorical "c" [VStr "a"; VStr "b"] (Some (VStr "b")) None true None = Ok h) /\
    api_categorical "c" [VStr "a"; VStr "b"] None (Some [1; 2]%Q) true None = Err ValueError /\
    api_integer "i" None None None false None = Err ValueError.
  Proof. repeat split; try (eexists; vm_compute; reflexivity); vm_compute; reflexivity. Qed.
End Examples.
