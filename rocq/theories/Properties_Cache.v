(** * Properties C81 and C82: reading densities, and copying hyperparameters *)
From Coq Require Import String List ZArith QArith Bool Lia.
From Verif Require Import Base Numeric NumericProofs HP HPProofs Properties_HP Dist Cache.
Import ListNotations.
Open Scope Z_scope.

Section Reads.
  Context {E : Env}.

  (** the value of a read, for an object without any cache *)
  Definition plain_read (h : hp) (f : Q -> Q) (r : read) : res Q :=
    match r with
    | RMax => max_density h f
    | RVector v => pdf_vector h f v
    | RValue v => pdf_value h f v
    end.

  Lemma discretized_max h f steps : discretized h = Some steps -> max_density h f = (mn <- max_and_norm f steps ;; Ok (fst mn)).
  Proof.
    unfold discretized, max_density. destruct (hp_kind h) as [c w|s|v|lo hi log [|mu sg|a b]|lo hi log d]; try discriminate;
      intros [= <-]; destruct log; reflexivity.
  Qed.
  Lemma discretized_pdf h f v steps : discretized h = Some steps -> dist_pdf h f v =
    (mn <- max_and_norm f steps ;;
     Ok (match v with Fin q => if (Qle_bool 0 q && Qle_bool q 1)%bool then (f q / snd mn)%Q else 0%Q | _ => 0%Q end)).
  Proof.
    unfold discretized, dist_pdf. destruct (hp_kind h) as [c w|s|v'|lo hi log [|mu sg|a b]|lo hi log d]; try discriminate;
      intros [= <-]; destruct log; reflexivity.
  Qed.

  (** what is cached was computed from the distribution *)
  Definition coherent (f : Q -> Q) (x : live) : Prop :=
    forall mn, lv_cache x = Some mn -> exists steps, discretized (lv_hp x) = Some steps /\ max_and_norm f steps = Ok mn.

  Lemma norm_ok f steps x x' r : discretized (lv_hp x) = Some steps -> coherent f x -> max_and_norm_of f steps x = (x', r) ->
    r = max_and_norm f steps /\ lv_hp x' = lv_hp x /\ coherent f x' /\
    (lv_cache x' = match max_and_norm f steps with Ok mn => Some mn | Err _ => lv_cache x end).
  Proof.
    intros D C. unfold max_and_norm_of. destruct (lv_cache x) as [mn|] eqn:K.
    - intros [= <- <-]. destruct (C mn K) as (s & Ds & M). assert (s = steps) by congruence. subst s.
      split; [congruence|]. split; [reflexivity|]. split; [exact C|]. rewrite M. exact K.
    - destruct (max_and_norm f steps) as [mn|e] eqn:M; intros [= <- <-].
      + split; [reflexivity|]. split; [reflexivity|]. split; [|reflexivity]. intros mn' [= <-]. exists steps. auto.
      + split; [reflexivity|]. split; [reflexivity|]. split; [exact C|]. exact K.
  Qed.

  Lemma vector_ok f v x : coherent f x ->
    snd (live_pdf_vector f v x) = pdf_vector (lv_hp x) f v /\ lv_hp (fst (live_pdf_vector f v x)) = lv_hp x /\
    coherent f (fst (live_pdf_vector f v x)).
  Proof.
    intro C. unfold live_pdf_vector. destruct (discretized (lv_hp x)) as [steps|] eqn:D; [|auto].
    destruct (max_and_norm_of f steps x) as [x' r'] eqn:M. destruct (norm_ok f steps x x' r' D C M) as (-> & Hx & Cx & _).
    simpl. split; [|auto]. unfold pdf_vector. rewrite (discretized_pdf _ f v steps D). destruct (max_and_norm f steps) as [mn|e]; reflexivity.
  Qed.

  (** C81, first half: a read returns the same, whatever was read before *)
  Theorem C81_value f r x : coherent f x -> snd (do_read f r x) = plain_read (lv_hp x) f r /\
    lv_hp (fst (do_read f r x)) = lv_hp x /\ coherent f (fst (do_read f r x)).
  Proof.
    intro C. destruct r as [|v|v]; simpl.
    - unfold live_max_density. destruct (discretized (lv_hp x)) as [steps|] eqn:D; [|auto].
      destruct (max_and_norm_of f steps x) as [x' r'] eqn:M. destruct (norm_ok f steps x x' r' D C M) as (-> & Hx & Cx & _).
      simpl. split; [|auto]. rewrite (discretized_max _ f steps D). reflexivity.
    - apply vector_ok, C.
    - unfold live_pdf_value, pdf_value. destruct (to_vector (lv_hp x) v) as [u|e]; [|auto]. apply vector_ok, C.
  Qed.
  Lemma reads_ok f rs : forall x, coherent f x -> lv_hp (do_reads f rs x) = lv_hp x /\ coherent f (do_reads f rs x).
  Proof.
    induction rs as [|r rs IH]; intros x C; [auto|]. simpl. destruct (C81_value f r x C) as (_ & H & C'). destruct (IH _ C') as (H1 & H2).
    split; [congruence|exact H2].
  Qed.
  Theorem C81_values h f rs r : snd (do_read f r (do_reads f rs (fresh h))) = plain_read h f r.
  Proof.
    assert (C : coherent f (fresh h)) by (intros mn K; discriminate). destruct (reads_ok f rs _ C) as (H & C').
    destruct (C81_value f r _ C') as (V & _). rewrite V, H. reflexivity.
  Qed.

  (** C81, second half: full statement, reads do not change which objects are equal.  False for normal
      and beta integers, see [C81_refuted]; it holds for all others ... *)
  Lemma reads_plain f rs x : discretized (lv_hp x) = None -> do_reads f rs x = x.
  Proof.
    intro D. induction rs as [|r rs IH]; [reflexivity|]. simpl. assert (F : fst (do_read f r x) = x); [|rewrite F; exact IH].
    destruct r; simpl; unfold live_max_density, live_pdf_value, live_pdf_vector; try destruct (to_vector _ _); simpl; rewrite ?D; reflexivity.
  Qed.
  Theorem C81_equal_partial h k f g rs rs' : discretized h = None -> discretized k = None ->
    live_eqb (do_reads f rs (fresh h)) (do_reads g rs' (fresh k)) = hp_eqb h k.
  Proof.
    intros A B. rewrite !reads_plain by assumption. unfold live_eqb. simpl. apply andb_true_r.
  Qed.

  Lemma cached_reads f rs x steps mn : discretized (lv_hp x) = Some steps -> coherent f x -> max_and_norm f steps = Ok mn ->
    (exists r, In r rs /\ match r with RValue v => is_ok (to_vector (lv_hp x) v) = true | _ => True end) \/ lv_cache x = Some mn ->
    lv_cache (do_reads f rs x) = Some mn.
  Proof.
    revert x. induction rs as [|r rs IH]; intros x D C M H; [destruct H as [(r & [] & _)|H]; exact H|].
    destruct (C81_value f r x C) as (_ & Hx & Cx). simpl. apply IH; [congruence|exact Cx|exact M|].
    assert (N : forall x' r', max_and_norm_of f steps x = (x', r') -> lv_cache x' = Some mn).
    { intros x' r' K. destruct (norm_ok f steps x x' r' D C K) as (_ & _ & _ & Q). rewrite M in Q. exact Q. }
    assert (V : forall v, lv_cache (fst (live_pdf_vector f v x)) = Some mn).
    { intro v. unfold live_pdf_vector. rewrite D. destruct (max_and_norm_of f steps x) as [x' r'] eqn:K. simpl. apply (N _ _ eq_refl). }
    assert (G : match r with RValue v => is_ok (to_vector (lv_hp x) v) = true | _ => True end -> lv_cache (fst (do_read f r x)) = Some mn).
    { destruct r as [|v|v]; simpl; intro T.
      - unfold live_max_density. rewrite D. destruct (max_and_norm_of f steps x) as [x' r'] eqn:K. simpl. apply (N _ _ eq_refl).
      - apply V.
      - unfold live_pdf_value. destruct (to_vector (lv_hp x) v) as [u|e]; [apply V|discriminate]. }
    destruct H as [(r' & [->|I] & T)|H].
    - right. apply G, T.
    - left. exists r'. split; [exact I|]. rewrite Hx. exact T.
    - right. destruct r as [|v|v]; try (apply G; exact Logic.I). simpl. unfold live_pdf_value. destruct (to_vector (lv_hp x) v); [apply V|exact H].
  Qed.

  (** ... and between two objects with the same number of values whose densities were both read *)
  Theorem C81_both h k f rs rs' steps : discretized h = Some steps -> discretized k = Some steps -> is_ok (max_and_norm f steps) = true ->
    In RMax rs -> In RMax rs' ->
    live_eqb (do_reads f rs (fresh h)) (do_reads f rs' (fresh k)) = hp_eqb h k.
  Proof.
    intros A B M I I'. destruct (max_and_norm f steps) as [mn|e] eqn:Mn; [|discriminate].
    assert (C : forall h, coherent f (fresh h)) by (intros h' z K; discriminate).
    assert (X : lv_cache (do_reads f rs (fresh h)) = Some mn).
    { apply (cached_reads f rs (fresh h) steps mn A (C h) Mn). left. exists RMax. split; [exact I|exact Logic.I]. }
    assert (Y : lv_cache (do_reads f rs' (fresh k)) = Some mn).
    { apply (cached_reads f rs' (fresh k) steps mn B (C k) Mn). left. exists RMax. split; [exact I'|exact Logic.I]. }
    unfold live_eqb. rewrite X, Y, (proj1 (reads_ok f rs _ (C h))), (proj1 (reads_ok f rs' _ (C k))). simpl.
    rewrite !(proj2 (Qeq_bool_iff _ _)) by reflexivity. apply andb_true_r.
  Qed.

  (** exactly: reading the density of one of two equal normal or beta integers makes them differ *)
  Theorem C81_differ h f rs steps : discretized h = Some steps -> is_ok (max_and_norm f steps) = true -> In RMax rs ->
    live_eqb (do_reads f rs (fresh h)) (fresh h) = false.
  Proof.
    intros A M I. destruct (max_and_norm f steps) as [mn|e] eqn:Mn; [|discriminate].
    assert (C : coherent f (fresh h)) by (intros z K; discriminate).
    assert (X : lv_cache (do_reads f rs (fresh h)) = Some mn).
    { apply (cached_reads f rs (fresh h) steps mn A C Mn). left. exists RMax. split; [exact I|exact Logic.I]. }
    unfold live_eqb. rewrite X. simpl. apply andb_false_r.
  Qed.
End Reads.

(** C82: full statement, copy(name=value, ...) returns an object with these attributes changed and the
    others kept.  It raises, for every hyperparameter and all keyword arguments: the private fields are
    passed to constructors that have no such parameters. *)
Theorem C82_copy_refuted h kwargs : hp_copy h kwargs = Err TypeError \/ hp_copy h kwargs = Err ValueError.
Proof.
  unfold hp_copy. destruct (existsb _ kwargs); [right; reflexivity|left]. cbn [negb]. rewrite forallb_app.
  assert (F : forallb (fun k => str_in k (init_params h)) (base_fields ++ class_fields h) = false).
  { destruct h as [n [c w|s|v|lo hi log [| |]|lo hi log [| |]] d m]; reflexivity. }
  rewrite F, andb_false_r. reflexivity.
Qed.
(** without keyword arguments it is a TypeError *)
Theorem C82_copy_plain_refuted h : hp_copy h [] = Err TypeError.
Proof. destruct h as [n [c w|s|v|lo hi log [| |]|lo hi log [| |]] d m]; reflexivity. Qed.

Section Examples.
  #[local] Existing Instance rat_env.
  Definition ex_shape (q : Q) : Q := (q * (1 - q))%Q.

  Theorem C81_refuted : exists h f, constructed h /\ live_eqb (fresh h) (fresh h) = true /\
    live_eqb (fst (do_read f RMax (fresh h))) (fresh h) = false /\ live_eqb (fresh h) (fst (do_read f (RValue (VInt 3)) (fresh h))) = false.
  Proof.
    destruct (mk_beta_int "i" 2 2 1 5 None false None) as [h|] eqn:H; [|vm_compute in H; discriminate].
    assert (C : constructed h) by (eapply CtorBInt; exact H). vm_compute in H. injection H as <-. eexists. exists ex_shape.
    split; [exact C|]. split; [vm_compute; reflexivity|]. split; vm_compute; reflexivity.
  Qed.

  (** the reads themselves agree *)
  Example ex_reads : exists h, mk_beta_int "i" 2 2 1 5 None false None = Ok h /\ discretized h = Some 5%Z /\
    is_ok (max_and_norm ex_shape 5) = true /\
    snd (do_read ex_shape (RValue (VInt 3)) (do_reads ex_shape [RMax; RVector (Fin (1#4))] (fresh h))) = snd (do_read ex_shape (RValue (VInt 3)) (fresh h)) /\
    is_ok (snd (do_read ex_shape (RValue (VInt 3)) (fresh h))) = true.
  Proof. eexists. split; [vm_compute; reflexivity|]. repeat split; vm_compute; reflexivity. Qed.
End Examples.
