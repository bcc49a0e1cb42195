(** * Properties C95 - C97: lists of values, densities of values, neighbours of values *)
From Coq Require Import String List ZArith QArith Bool Lia Lqa.
From Verif Require Import Base ListFacts Numeric NumericProofs HP HPProofs Properties_HP Spec Dist DistProofs Properties_Dist EvalProofs ForbEval Fix PcsText Array Ex.
Import ListNotations.
Open Scope nat_scope.

Lemma F2_len {A B} (R : A -> B -> Prop) l l' : Forall2 R l l' -> length l = length l'.
Proof. induction 1; cbn [length]; congruence. Qed.

Section Array.
  Context {E : Env} {L : EnvLaws E}.
  Variable T : text.

  (** strings and other values, and no None *)
  Definition mixed_list (l : list value) : Prop :=
    (exists s, In (VStr s) l) /\ (exists v, In v l /\ forall s, v <> VStr s) /\ ~ In VNone l.
  Definition all_bool (l : list value) : Prop := l <> [] /\ forall v, In v l -> exists b, v = VBool b.

  Lemma same_num_eqb u v w q : num_of u = Some q -> num_of v = Some q -> py_eqb u w = py_eqb v w.
  Proof. intros Hu Hv. unfold py_eqb. rewrite Hu, Hv. reflexivity. Qed.
  Lemma same_num_legal h u v q : num_of u = Some q -> num_of v = Some q -> legal_value h u = legal_value h v.
  Proof.
    intros Hu Hv. unfold legal_value. rewrite Hu, Hv. destruct (hp_kind h); auto; try (apply (same_num_eqb u v _ q Hu Hv)).
    - unfold py_in. induction choices as [|w c IH]; [reflexivity|]. cbn [existsb]. rewrite (same_num_eqb u v w q Hu Hv), IH. reflexivity.
    - unfold py_in. induction sequence as [|w c IH]; [reflexivity|]. cbn [existsb]. rewrite (same_num_eqb u v w q Hu Hv), IH. reflexivity.
  Qed.
  Lemma same_num_index u v q l : num_of u = Some q -> num_of v = Some q -> py_index u l = py_index v l.
  Proof.
    intros Hu Hv. induction l as [|w c IH]; [reflexivity|]. cbn [py_index]. rewrite IH, (py_eqb_sym w u), (py_eqb_sym w v), (same_num_eqb u v w q Hu Hv).
    reflexivity.
  Qed.
  Lemma same_num_vector h u v q : num_of u = Some q -> num_of v = Some q -> to_vector h u = to_vector h v.
  Proof.
    intros Hu Hv. unfold to_vector. rewrite Hu, Hv. destruct (hp_kind h); auto.
    - rewrite (same_num_index u v q _ Hu Hv). reflexivity.
    - rewrite (same_num_index u v q _ Hu Hv). reflexivity.
    - rewrite (same_num_eqb u v _ q Hu Hv). reflexivity.
  Qed.

  (** what the conversion does to an element *)
  Lemma cast_cases l v : In v l -> ~ mixed_list l ->
    cast T (dtype_of l) v = v \/ exists q, num_of v = Some q /\ num_of (cast T (dtype_of l) v) = Some q.
  Proof.
    intros Hv M. unfold dtype_of. destruct (existsb is_none l) eqn:N; [left; reflexivity|].
    destruct (existsb is_vstr l) eqn:S.
    - left. apply existsb_exists in S. destruct S as (u & Hu & Su). destruct u as [s| | | |]; try discriminate.
      destruct v as [t| | | |] eqn:Ev; [reflexivity| | | |]; exfalso; apply M; (split; [eauto|]); (split; [exists v; subst v; split; [exact Hv|discriminate]|]);
        intros K; assert (X : existsb is_none l = true) by (apply existsb_exists; exists VNone; auto); congruence.
    - assert (NS : forall s, v <> VStr s). { intros s ->. assert (X : existsb is_vstr l = true) by (apply existsb_exists; exists (VStr s); auto). congruence. }
      assert (NN : v <> VNone). { intros ->. assert (X : existsb is_none l = true) by (apply existsb_exists; exists VNone; auto). congruence. }
      destruct (existsb is_vfloat l); [right; destruct v; try congruence; cbn; eauto; destruct (NS s eq_refl)|].
      destruct (existsb is_vint l).
      + destruct v; try (left; reflexivity). right. destruct b; cbn; eauto.
      + destruct l; [destruct Hv|left; reflexivity].
  Qed.
  Lemma dtype_bool l : dtype_of l = DtBool -> all_bool l.
  Proof.
    unfold dtype_of. destruct (existsb is_none l) eqn:N; [discriminate|]. destruct (existsb is_vstr l) eqn:S; [discriminate|].
    destruct (existsb is_vfloat l) eqn:F; [discriminate|]. destruct (existsb is_vint l) eqn:I; [discriminate|]. destruct l as [|u l]; [discriminate|].
    intros _. split; [discriminate|]. intros v Hv.
    assert (G : forall p, existsb p (u :: l) = false -> p v = false).
    { intros p Hp. destruct (p v) eqn:Pv; [|reflexivity]. assert (existsb p (u :: l) = true) by (apply existsb_exists; eauto). congruence. }
    apply G in N, S, F, I. destruct v; try discriminate. eauto.
  Qed.

  (** ** C95: a list is treated element by element *)
  Theorem C95_legal_partial h l : ~ mixed_list l -> (numeric h -> ~ all_bool l) -> legal_values T h l = map (legal_value h) l.
  Proof.
    intros M B. unfold legal_values, asarray. rewrite map_map. apply map_ext_in. intros v Hv.
    assert (G : legal_value h (cast T (dtype_of l) v) = legal_value h v).
    { destruct (cast_cases l v Hv M) as [->|(q & H1 & H2)]; [reflexivity|]. apply (same_num_legal h _ _ q H2 H1). }
    unfold legal_elem. destruct (dtype_of l) eqn:D; auto. destruct (hp_kind h) eqn:K; auto;
      exfalso; (apply B; [unfold numeric; rewrite K; exact I|apply dtype_bool; exact D]).
  Qed.
  Theorem C95_vector_partial h l : ~ mixed_list l -> (numeric h -> forall s, ~ In (VStr s) l) -> to_vectors T h l = mapM (to_vector h) l.
  Proof.
    intros M S. unfold to_vectors, asarray.
    assert (G : forall v, In v l -> to_vector_elem T h (cast T (dtype_of l) v) = to_vector h v).
    { intros v Hv. destruct (cast_cases l v Hv M) as [->|(q & H1 & H2)].
      - destruct v as [s| | | |]; try reflexivity. cbn [to_vector_elem]. destruct (unit_bounds h) eqn:U; [|reflexivity]. exfalso.
        apply (S) with (2 := Hv). unfold unit_bounds in U. unfold numeric. destruct (hp_kind h); try discriminate; exact I.
      - rewrite <- (same_num_vector h _ _ q H2 H1). destruct (cast T (dtype_of l) v); try reflexivity. discriminate H2. }
    revert G. generalize (dtype_of l) as t. clear M S. intros t G. induction l as [|v l IH]; [reflexivity|]. cbn [map mapM].
    rewrite (G v (or_introl eq_refl)). destruct (to_vector h v); [|reflexivity]. cbn [bind]. rewrite IH; [reflexivity|]. intros w Hw. apply G. right. exact Hw.
  Qed.
  (** a single value is an array with one element *)
  Lemma not_mixed_one v : ~ mixed_list [v].
  Proof. intros ((s & [->|[]]) & (w & [<-|[]] & N) & _). apply (N s). reflexivity. Qed.
  Theorem C95_legal_one h v : legal_value_one T h v = legal_value h v.
  Proof.
    unfold legal_value_one. destruct (hp_kind h) eqn:K; try reflexivity;
      (rewrite C95_legal_partial; [reflexivity|apply not_mixed_one|unfold numeric; rewrite K; intros []]).
  Qed.
  Theorem C95_vector_one_partial h v : (unit_bounds h = true -> forall s, v <> VStr s) -> to_vector_one T h v = to_vector h v.
  Proof.
    intros S. unfold to_vector_one. unfold to_vectors, asarray. cbn [map mapM].
    assert (G : to_vector_elem T h (cast T (dtype_of [v]) v) = to_vector h v).
    { destruct v as [s| | |b|]; try reflexivity. cbn. destruct (unit_bounds h); [destruct (S eq_refl s eq_refl)|reflexivity]. }
    rewrite G. destruct (to_vector h v); reflexivity.
  Qed.

  Theorem C95_value h xs vs : to_values h xs = Ok vs <-> mapM (to_value h) xs = Ok vs.
  Proof.
    assert (G : forall s, (forall x, to_value h x = match x with Fin q => if is_close_to_integer q then np_index s (rint q) else Err ValueError | _ => Err ValueError end) ->
      ((check forallb (fun x => match x with Fin q => is_close_to_integer q | _ => false end) xs or ValueError ;;
        mapM (fun x => match x with Fin q => np_index s (rint q) | _ => Err ValueError end) xs) = Ok vs <-> mapM (to_value h) xs = Ok vs)).
    { intros s Hs. revert vs. induction xs as [|x xs IH]; intros vs; [reflexivity|]. cbn [forallb mapM]. rewrite Hs. destruct x as [q| | |]; try (split; discriminate).
      destruct (is_close_to_integer q); cbn [andb]; [|split; discriminate].
      destruct (forallb _ xs); cbn [bind].
      - destruct (np_index s (rint q)) as [v|]; [|split; discriminate]. cbn [bind].
        destruct (mapM (fun x => match x with Fin q => np_index s (rint q) | _ => Err ValueError end) xs) as [ws|] eqn:W.
        + cbn [bind]. rewrite (proj1 (IH ws) eq_refl). reflexivity.
        + split; [discriminate|]. destruct (mapM (to_value h) xs) as [ws|] eqn:W'; [|discriminate]. exfalso.
          assert (K := proj2 (IH ws) eq_refl). discriminate K.
      - split; [discriminate|]. destruct (np_index s (rint q)) as [v|]; [|discriminate]. cbn [bind].
        destruct (mapM (to_value h) xs) as [ws|] eqn:W'; [|discriminate]. exfalso. assert (K := proj2 (IH ws) eq_refl). discriminate K. }
    unfold to_values. destruct (hp_kind h) eqn:K; try reflexivity; apply G; intros x; unfold to_value; rewrite K; destruct x; reflexivity.
  Qed.
  (** ... and an array is refused as soon as one element is *)
  Theorem C95_value_refuses h xs x : In x xs -> (forall v, to_value h x <> Ok v) -> forall vs, to_values h xs <> Ok vs.
  Proof.
    intros Hx N vs H. apply C95_value in H. revert vs H. induction xs as [|y xs IH]; [destruct Hx|]. intros vs H. cbn [mapM] in H.
    destruct (to_value h y) as [v|] eqn:Ey; [|discriminate]. cbn [bind] in H. destruct Hx as [->|Hx]; [exact (N v Ey)|].
    destruct (mapM (to_value h) xs) as [ws|] eqn:Ew; [|discriminate]. exact (IH Hx ws eq_refl).
  Qed.

  (** with strings among other values every value is replaced by its text *)
  Theorem C95_mixed h l : mixed_list l -> legal_values T h l = map (fun v => legal_value h (VStr (match v with VStr s => s | _ => tx_str T v end))) l /\
    (numeric h -> forall b, In b (legal_values T h l) -> b = false).
  Proof.
    intros ((s & Hs) & _ & NN).
    assert (D : dtype_of l = DtStr).
    { unfold dtype_of. destruct (existsb is_none l) eqn:N.
      - apply existsb_exists in N. destruct N as (v & Hv & Nv). destruct v; try discriminate. destruct (NN Hv).
      - assert (S : existsb is_vstr l = true) by (apply existsb_exists; exists (VStr s); auto). rewrite S. reflexivity. }
    assert (G : legal_values T h l = map (fun v => legal_value h (VStr (match v with VStr s => s | _ => tx_str T v end))) l).
    { unfold legal_values, asarray. rewrite D, map_map. apply map_ext. intros v. unfold legal_elem. destruct v; reflexivity. }
    split; [exact G|]. intros Nu b Hb. rewrite G in Hb. apply in_map_iff in Hb. destruct Hb as (v & <- & _). unfold numeric in Nu. unfold legal_value.
    destruct (hp_kind h); try destruct Nu; reflexivity.
  Qed.

  (** ** C41: each of several sampled values is legal *)
  Theorem C41_many_partial h rs : constructed h -> ~ mismatched h -> Forall (raw_ok h) rs ->
    exists vs, sample_values h rs = Ok vs /\ length vs = length rs /\ Forall (fun v => legal_value h v = true) vs.
  Proof.
    intros C M R.
    assert (G : exists vs, mapM (to_value h) (map (sample_vector h) rs) = Ok vs /\ length vs = length rs /\ Forall (fun v => legal_value h v = true) vs).
    { induction R as [|r rs Hr _ (vs & Hvs & Hl & Hf)]; [exists []; repeat split; constructor|]. cbn [map mapM].
      destruct (C41_legal_partial h r C M Hr) as (_ & v & Hv & Lv). unfold sample_value in Hv. rewrite Hv. cbn [bind]. rewrite Hvs. cbn [bind].
      exists (v :: vs). repeat split; [cbn [length]; congruence|]. constructor; assumption. }
    destruct G as (vs & Hvs & Hl & Hf). exists vs. split; [apply C95_value; exact Hvs|]. auto.
  Qed.

  (** ** C96: densities of values *)
  Theorem C96_list_partial h f l ps : ~ mixed_list l -> (numeric h -> forall s, ~ In (VStr s) l) ->
    (pdf_values T h f l = Ok ps <-> mapM (pdf_value h f) l = Ok ps).
  Proof.
    intros M S. unfold pdf_values. rewrite C95_vector_partial by assumption. clear M S. revert ps. induction l as [|v l IH]; intros ps; [reflexivity|].
    cbn [mapM]. unfold pdf_value at 1. destruct (to_vector h v) as [x|]; [|split; discriminate]. cbn [bind].
    destruct (mapM (to_vector h) l) as [xs|]; cbn [bind mapM] in *.
    - destruct (pdf_vector h f x) as [p|]; [|split; discriminate]. cbn [bind]. destruct (mapM (pdf_vector h f) xs) as [qs|].
      + rewrite (proj1 (IH qs) eq_refl). reflexivity.
      + split; [discriminate|]. destruct (mapM (pdf_value h f) l) as [qs|]; [|discriminate]. intros _. assert (K := proj2 (IH qs) eq_refl). discriminate K.
    - split; [discriminate|]. destruct (pdf_vector h f x) as [p|]; [|discriminate]. cbn [bind].
      destruct (mapM (pdf_value h f) l) as [qs|]; [|discriminate]. intros _. assert (K := proj2 (IH qs) eq_refl). discriminate K.
  Qed.

  (** the entries of the illegal values are the illegal entries *)
  Theorem C96_mask h v x : constructed h -> to_vector h v = Ok x -> legal_vector_array h x = legal_value h v.
  Proof.
    intros C Hx. assert (W := constructed_wf h C). unfold wf_hp in W. unfold to_vector in Hx. unfold legal_vector_array, legal_value.
    assert (G : forall s, match py_index v s with Some i => Ok (Fin (inject_Z (Z.of_nat i))) | None => Err KeyError end = Ok x ->
      match x with Fin q => legal_seq (length s) q | _ => false end = py_in v s).
    { intros s Hs. destruct (py_index v s) as [i|] eqn:Ei; [|discriminate]. injection Hs as <-. destruct (py_index_some _ _ _ Ei) as (u & Hu & Eu & _).
      assert (Li : i < length s) by (apply nth_error_Some; congruence).
      assert (Py : py_in v s = true).
      { apply existsb_exists. exists u. split; [apply (nth_error_In _ _ Hu)|]. rewrite py_eqb_sym. exact Eu. }
      rewrite Py. unfold legal_seq. rewrite is_close_to_integer_Z, andb_true_r. apply andb_true_iff. split.
      - apply Qle_bool_iff. change 0%Q with (inject_Z 0). rewrite <- Zle_Qle. lia.
      - apply Qltb_lt. rewrite <- Zlt_Qlt. lia. }
    destruct (hp_kind h) as [c w|c|c|lo hi log d|lo hi log d] eqn:K; [apply G, Hx|apply G, Hx| | |].
    - injection Hx as <-. destruct (py_eqb v c); reflexivity.
    - destruct W as (W1 & W2 & _). destruct (num_of v) as [q|]; [|discriminate]. assert (Bo : bounds_ok (inject_Z lo) (inject_Z hi) log) by (apply bounds_int; auto).
      destruct (Qlt_le_dec 0 q) as [P|P].
      + rewrite unit_to_vector_fin in Hx by auto. injection Hx as <-. unfold legal_int.
        rewrite (rint_proper _ _ (unit_raw_norm _ _ _ q Bo (fun _ => P))), (is_close_to_integer_proper _ _ (unit_raw_norm _ _ _ q Bo (fun _ => P))). reflexivity.
      + destruct log.
        * unfold unit_to_vector in Hx. assert (Nl : Qltb 0 q = false) by (destruct (Qltb 0 q) eqn:X; [apply Qltb_lt in X; lra|reflexivity]). rewrite Nl in Hx.
          assert (Ll : legal_int lo hi q = false).
          { unfold legal_int. assert (R : (rint q <= 0)%Z) by (change 0%Z with (rint (inject_Z 0)); apply rint_mono; exact P).
            specialize (W2 eq_refl). destruct (Z.leb_spec lo (rint q)); [lia|reflexivity]. }
          rewrite Ll. destruct (Qeq_bool q 0); injection Hx as <-; reflexivity.
        * rewrite unit_to_vector_fin in Hx by discriminate. injection Hx as <-. assert (N : false = true -> (0 < q)%Q) by discriminate. unfold legal_int.
          rewrite (rint_proper _ _ (unit_raw_norm _ _ _ q Bo N)), (is_close_to_integer_proper _ _ (unit_raw_norm _ _ _ q Bo N)). reflexivity.
    - destruct W as (Bo & _). destruct (num_of v) as [q|]; [|discriminate].
      assert (Gf : (log = true -> (0 < q)%Q) -> (Qle_bool 0 (unit_norm lo hi log q) && Qle_bool (unit_norm lo hi log q) 1 = Qle_bool lo q && Qle_bool q hi)%bool).
      { intros P. apply eq_true_iff_eq. rewrite !andb_true_iff, !Qle_bool_iff. apply unit_norm_range; assumption. }
      destruct (Qlt_le_dec 0 q) as [P|P].
      + rewrite unit_to_vector_fin in Hx by auto. injection Hx as <-. apply Gf. auto.
      + destruct log.
        * unfold unit_to_vector in Hx. assert (Nl : Qltb 0 q = false) by (destruct (Qltb 0 q) eqn:X; [apply Qltb_lt in X; lra|reflexivity]). rewrite Nl in Hx.
          assert (Ll : (Qle_bool lo q && Qle_bool q hi)%bool = false).
          { destruct Bo as [_ B2]. specialize (B2 eq_refl). destruct (Qle_bool lo q) eqn:X; [apply Qle_bool_iff in X; lra|reflexivity]. }
          rewrite Ll. destruct (Qeq_bool q 0); injection Hx as <-; reflexivity.
        * rewrite unit_to_vector_fin in Hx by discriminate. injection Hx as <-. apply Gf. discriminate.
  Qed.
  (** the density of an illegal value, when there is one, is zero. Full statement: there is always one,
      see [C96_refuted]. *)
  Theorem C96_illegal_partial h f v p : constructed h -> legal_value h v = false -> pdf_value h f v = Ok p -> (p == 0)%Q.
  Proof.
    intros C Lv H. unfold pdf_value in H. destruct (to_vector h v) as [x|] eqn:Hx; [|discriminate]. cbn [bind] in H.
    apply (C47_illegal h f x p H). rewrite (C96_mask h v x C Hx). exact Lv.
  Qed.
  (** illegal numbers of numerical hyperparameters and illegal values of constants have one *)
  Theorem C96_returns_partial h f v : ~ shaped h -> (forall s, ~ lists_values h s) -> (numeric h -> num_of v <> None) -> exists p, pdf_value h f v = Ok p.
  Proof.
    intros Sh Ls Nu. unfold pdf_value, to_vector, pdf_vector, dist_pdf. unfold numeric in Nu. unfold shaped in Sh.
    destruct (hp_kind h) as [c w|c|c|lo hi log d|lo hi log d] eqn:K.
    - destruct (Ls c (LV_cat _ _ _ K)).
    - destruct (Ls c (LV_ord _ _ K)).
    - cbn [bind]. eauto.
    - destruct (num_of v) as [q|]; [|destruct (Nu I eq_refl)]. cbn [bind]. destruct d; [destruct log; cbn [bind]; eauto| |]; exfalso; apply Sh; do 4 eexists; (split; [reflexivity|discriminate]).
    - destruct (num_of v) as [q|]; [|destruct (Nu I eq_refl)]. cbn [bind]. destruct d; cbn [bind]; eauto.
  Qed.
  (** a uniform float has the same density at all legal values *)
  Theorem C96_uniform h f lo hi log v q : constructed h -> hp_kind h = KFloat lo hi log DUniform -> num_of v = Some q ->
    exists p, pdf_value h f v = Ok p /\ (p == if legal_value h v then 1 / (hi - lo) else 0)%Q.
  Proof.
    intros C K N. destruct (to_vector h v) as [x|] eqn:Hx; [|unfold to_vector in Hx; rewrite K, N in Hx; discriminate].
    assert (M := C96_mask h v x C Hx). unfold pdf_value, pdf_vector. rewrite Hx. cbn [bind]. rewrite M. unfold dist_pdf. rewrite K. cbn [bind].
    eexists. split; [reflexivity|]. destruct (legal_value h v); [|ring]. unfold legal_vector_array in M. rewrite K in M. destruct x; try discriminate. rewrite M. ring.
  Qed.

  (** ** C97: neighbours of a value *)
  Theorem C97_int_partial h lo hi log z n std r vs : constructed h -> hp_kind h = KInt lo hi log DUniform -> (lo <= z <= hi)%Z ->
    neighbors_values h (VInt z) n std r = Ok vs ->
    exists ws, vs = map VInt ws /\ NoDup ws /\ ~ In z ws /\ Forall (fun w => lo <= w <= hi)%Z ws /\ Z.of_nat (length ws) = Z.min (Z.of_nat n) (hi - lo).
  Proof.
    intros C K Hz H. assert (W := constructed_wf h C). unfold wf_hp in W. rewrite K in W. destruct W as (W1 & W2 & _).
    unfold neighbors_values in H. destruct (to_vector h (VInt z)) as [x|] eqn:Hx; [|discriminate]. cbn [bind] in H.
    destruct (neighbors_vectorized h x n std r) as [l|] eqn:Hl; [|discriminate]. cbn [bind] in H.
    assert (En : entry_of h (VInt z) x).
    { split; [unfold legal_value; rewrite K; cbn [num_of]; rewrite (legal_int_Z lo hi z) by reflexivity; apply andb_true_iff; rewrite !Z.leb_le; exact Hz|].
      split; [unfold exact_value; rewrite K; exists (inject_Z z), z; split; reflexivity|]. exists x. split; [exact Hx|apply fsame_refl]. }
    destruct (C43_int_partial h lo hi log z x n std r l C K En Hl) as (ws & F & Nd & Nz & Le & _). exists ws.
    assert (Fr : Forall (fun w => lo <= w <= hi)%Z ws).
    { clear -F K W1 W2 L. induction F as [|w e ws l H F IH]; [constructor|]. constructor; [|exact IH]. apply (entry_int_inv h lo hi log _ w e K W1 W2 H). }
    assert (Lw : length ws = length l) by (apply (F2_len _ _ _ F)).
    split; [|repeat split; auto; rewrite Lw; exact Le].
    clear -F H C K W1 W2 L. revert vs H. induction F as [|w e ws l Hw F IH]; intros vs H; [cbn in H; injection H as <-; reflexivity|]. cbn [mapM] in H.
    destruct (to_value h e) as [u|] eqn:Hu; [|discriminate]. cbn [bind] in H. destruct (mapM (to_value h) l) as [us|]; [|discriminate]. injection H as <-.
    rewrite (IH us eq_refl). cbn [map]. f_equal. destruct Hw as (Lw & Ew & y & Hy & Fy).
    destruct (value_roundtrip h (VInt w) y C Lw Ew Hy) as (w' & T1 & T2). destruct (to_value_same h e y u Fy Hu) as (u' & U1 & U2).
    assert (u' = w') by congruence. subst u'. unfold to_value in Hu. rewrite K in Hu. destruct e as [q| | |]; try discriminate. injection Hu as <-.
    assert (Q := py_eqb_trans _ _ _ U2 T2). unfold py_eqb in Q. cbn [num_of] in Q. apply Qeq_bool_iff in Q. f_equal. apply inject_Z_injective. exact Q.
  Qed.
  (** enough are asked for: all other integers *)
  Theorem C97_int_all h lo hi log z n std r vs : constructed h -> hp_kind h = KInt lo hi log DUniform -> (lo <= z <= hi)%Z -> (hi - lo <= Z.of_nat n)%Z ->
    neighbors_values h (VInt z) n std r = Ok vs -> forall w, In (VInt w) vs <-> (lo <= w <= hi /\ w <> z)%Z.
  Proof.
    intros C K Hz Hn H. destruct (C97_int_partial h lo hi log z n std r vs C K Hz H) as (ws & -> & Nd & Nz & Fr & Le).
    rewrite Forall_forall in Fr. intros w. split.
    - intros Hw. apply in_map_iff in Hw. destruct Hw as (w' & E' & Hw). injection E' as ->. split; [apply Fr, Hw|]. intros ->. contradiction.
    - intros [R N]. apply in_map. destruct (in_dec Z.eq_dec w ws) as [|Nw]; [assumption|]. exfalso.
      assert (Nd2 : NoDup (w :: z :: ws)). { constructor; [intros [->|X]; [congruence|contradiction]|]. constructor; assumption. }
      assert (In2 : incl (w :: z :: ws) (map (fun i => (lo + Z.of_nat i)%Z) (seq 0 (Z.to_nat (hi - lo + 1))))).
      { intros y Hy. apply in_map_iff. exists (Z.to_nat (y - lo)). assert (lo <= y <= hi)%Z by (destruct Hy as [<-|[<-|Hy]]; auto). split; [lia|]. apply in_seq. lia. }
      apply (NoDup_incl_length Nd2) in In2. rewrite map_length, seq_length in In2. cbn [length] in In2. lia.
  Qed.
  Theorem C97_float h lo hi log d v n std r vs : constructed h -> hp_kind h = KFloat lo hi log d ->
    neighbors_values h v n std r = Ok vs -> length vs = n /\ Forall (fun w => legal_value h w = true) vs.
  Proof.
    intros C K H. unfold neighbors_values in H. destruct (to_vector h v) as [x|]; [|discriminate]. cbn [bind] in H.
    destruct (neighbors_vectorized h x n std r) as [l|] eqn:Hl; [|discriminate]. cbn [bind] in H.
    destruct (C62_float h lo hi log d x n std r l C K Hl) as [Ln F].
    assert (G : length vs = length l /\ Forall (fun w => legal_value h w = true) vs).
    { clear Ln Hl. revert vs H. induction F as [|e l (Le & _) F IH]; intros vs H; [cbn in H; injection H as <-; split; [reflexivity|constructor]|]. cbn [mapM] in H.
      destruct (to_value h e) as [u|] eqn:Hu; [|discriminate]. cbn [bind] in H. destruct (mapM (to_value h) l) as [us|]; [|discriminate]. injection H as <-.
      destruct (IH us eq_refl) as [I1 I2]. split; [cbn [length]; congruence|]. constructor; [|exact I2].
      destruct (C38_vector_to_value_partial h e C Le) as (u' & U1 & U2); [intros s [Ks|w Ks]; congruence|]. congruence. }
    destruct G as [G1 G2]. split; [congruence|exact G2].
  Qed.
  (** positions of a sequence of values: the values read back from their entries *)
  Lemma seq_values h s js l vs : constructed h -> lists_values h s ->
    Forall2 (fun j e => j < length s /\ fsame e (Fin (inject_Z (Z.of_nat j)))) js l -> mapM (to_value h) l = Ok vs ->
    Forall2 (fun j v => nth_error s j = Some v) js vs.
  Proof.
    intros C K F. revert vs. induction F as [|j e js l [Hj He] F IH]; intros vs H; [cbn in H; injection H as <-; constructor|]. cbn [mapM] in H.
    destruct (to_value h e) as [u|] eqn:Hu; [|discriminate]. cbn [bind] in H. destruct (mapM (to_value h) l) as [us|]; [|discriminate]. injection H as <-.
    constructor; [|apply IH; reflexivity]. destruct (C34_vectors_roundtrip h s j C K Hj) as (w & T1 & N1 & _).
    destruct e as [q| | |]; try contradiction. cbn [fsame] in He. unfold to_value in Hu, T1.
    assert (G : (if is_close_to_integer q then np_index s (rint q) else Err ValueError) = Ok u).
    { destruct K as [K|ws K]; rewrite K in Hu; exact Hu. }
    assert (G' : (if is_close_to_integer (inject_Z (Z.of_nat j)) then np_index s (rint (inject_Z (Z.of_nat j))) else Err ValueError) = Ok w).
    { destruct K as [K|ws K]; rewrite K in T1; exact T1. }
    rewrite (is_close_to_integer_proper _ _ He), (rint_proper _ _ He), G' in G. congruence.
  Qed.
  Theorem C97_ordinal h s i v n std r vs : constructed h -> hp_kind h = KOrd s -> nth_error s i = Some v ->
    neighbors_values h v n std r = Ok vs ->
    exists js, Forall2 (fun j w => nth_error s j = Some w /\ adjacent i j) js vs /\ NoDup js /\
      (2 <= n -> forall j, j < length s -> adjacent i j -> In j js).
  Proof.
    intros C K Hi H. unfold neighbors_values in H. destruct (to_vector h v) as [x|] eqn:Hx; [|discriminate]. cbn [bind] in H.
    destruct (neighbors_vectorized h x n std r) as [l|] eqn:Hl; [|discriminate]. cbn [bind] in H.
    assert (Li : i < length s) by (apply nth_error_Some; congruence).
    assert (Fx : fsame x (Fin (inject_Z (Z.of_nat i)))).
    { destruct (C34_vectors_roundtrip h s i C (LV_ord _ _ K) Li) as (w & _ & N1 & _ & V1). assert (w = v) by congruence. subst w.
      rewrite Hx in V1. injection V1 as ->. apply fsame_refl. }
    assert (St : std_ok std).
    { unfold neighbors_vectorized in Hl. unfold std_ok. destruct std as [q|]; [|exact I]. destruct (Qle_bool 0 q) eqn:A; [|discriminate].
      destruct (Qle_bool q 1) eqn:B; [|discriminate]. apply Qle_bool_iff in A, B. auto. }
    destruct (C45_ordinal_partial h s i x n std r v C K Hi Fx St) as (l' & js & Hl' & F & Nd & All & _).
    assert (l' = l) by congruence. subst l'. exists js.
    assert (F1 : Forall2 (fun j e => j < length s /\ fsame e (Fin (inject_Z (Z.of_nat j)))) js l).
    { clear -F. induction F as [|j e js l (A & B & D) F IH]; constructor; auto. }
    assert (F2 := seq_values h s js l vs C (LV_ord _ _ K) F1 H). split; [|split; [exact Nd|]].
    - clear -F F2. revert vs F2. induction F as [|j e js l (A & B & D) F IH]; intros vs F2; inversion F2; subst; constructor; auto.
    - intros N2 j Hj Aj. apply (proj1 (All N2)); assumption.
  Qed.
  Theorem C97_categorical h c ws i v n std r vs : constructed h -> hp_kind h = KCat c ws -> nth_error c i = Some v -> shuffles r ->
    neighbors_values h v n std r = Ok vs ->
    exists js, Forall2 (fun j w => nth_error c j = Some w /\ j <> i) js vs /\ NoDup js /\
      (length c <= 5 \/ length c - 1 <= n -> forall j, j < length c -> j <> i -> In j js) /\
      (5 < length c -> length vs = Nat.min n (length c - 1)).
  Proof.
    intros C K Hi Sf H. unfold neighbors_values in H. destruct (to_vector h v) as [x|] eqn:Hx; [|discriminate]. cbn [bind] in H.
    destruct (neighbors_vectorized h x n std r) as [l|] eqn:Hl; [|discriminate]. cbn [bind] in H.
    assert (Li : i < length c) by (apply nth_error_Some; congruence).
    assert (Fx : fsame x (Fin (inject_Z (Z.of_nat i)))).
    { destruct (C34_vectors_roundtrip h c i C (LV_cat _ _ _ K) Li) as (w & _ & N1 & _ & V1). assert (w = v) by congruence. subst w.
      rewrite Hx in V1. injection V1 as ->. apply fsame_refl. }
    assert (St : std_ok std).
    { unfold neighbors_vectorized in Hl. unfold std_ok. destruct std as [q|]; [|exact I]. destruct (Qle_bool 0 q) eqn:A; [|discriminate].
      destruct (Qle_bool q 1) eqn:B; [|discriminate]. apply Qle_bool_iff in A, B. auto. }
    destruct (C46_categorical_partial h c ws i x n std r v C K Hi Fx St Sf) as (l' & js & Hl' & F & Nd & All & Le & _).
    assert (l' = l) by congruence. subst l'. exists js.
    assert (F1 : Forall2 (fun j e => j < length c /\ fsame e (Fin (inject_Z (Z.of_nat j)))) js l).
    { clear -F. induction F as [|j e js l (A & B & D) F IH]; constructor; auto. }
    assert (F2 := seq_values h c js l vs C (LV_cat _ _ _ K) F1 H). split; [|split; [exact Nd|split; [exact All|]]].
    - clear -F F2. revert vs F2. induction F as [|j e js l (A & B & D) F IH]; intros vs F2; inversion F2; subst; constructor; auto.
    - intros N5. rewrite <- (Le N5). rewrite <- (F2_len _ _ _ F), <- (F2_len _ _ _ F2). reflexivity.
  Qed.
  (** the value must be legal *)
  Theorem C97_illegal h v n std r vs : constructed h -> legal_value h v = false -> (num_of v <> None -> exact_value h v) -> neighbors_values h v n std r <> Ok vs.
  Proof.
    intros C Lv Ex H. unfold neighbors_values in H. destruct (to_vector h v) as [x|] eqn:Hx; [|discriminate]. cbn [bind] in H.
    unfold neighbors_vectorized in H. destruct (match std with None => true | Some s => (Qle_bool 0 s && Qle_bool s 1)%bool end); [|discriminate].
    destruct (legal_vector h x) eqn:Lx; [|discriminate]. assert (M := C96_mask h v x C Hx). rewrite Lv in M. clear H.
    unfold legal_vector in Lx. unfold legal_vector_array in M. assert (W := constructed_wf h C). unfold wf_hp in W.
    destruct (hp_kind h) as [c w|c|c|lo hi log d|lo hi log d] eqn:K; try congruence.
    destruct W as (W1 & W2 & _). destruct log; [destruct x; congruence|]. unfold to_vector in Hx. rewrite K in Hx. unfold exact_value in Ex. rewrite K in Ex.
    unfold legal_value in Lv. rewrite K in Lv. destruct (num_of v) as [a|]; [|discriminate].
    destruct (Ex ltac:(discriminate)) as (a' & z & Ha & Hz). injection Ha as <-. rewrite unit_to_vector_fin in Hx by discriminate. injection Hx as <-.
    apply andb_true_iff in Lx. destruct Lx as [_ Lx]. rewrite andb_true_iff, !Qle_bool_iff in Lx.
    apply (unit_norm_range (inject_Z lo) (inject_Z hi) false a) in Lx; [|apply bounds_int; auto|discriminate].
    rewrite (legal_int_Z lo hi z a Hz) in Lv. rewrite Hz, <- !Zle_Qle in Lx. destruct Lx. apply andb_false_iff in Lv. rewrite !Z.leb_gt in Lv. lia.
  Qed.
End Array.

Section Witness.
  #[local] Existing Instance rat_env.

  (** 1 is legal, but not in the list with "x", where it is the string "1" *)
  Theorem C95_refuted : exists h l, constructed h /\ map (legal_value h) l = [true; true] /\ legal_values dec_text h l = [true; false] /\
    to_vectors dec_text h l = Err KeyError.
  Proof.
    exists ex_cat, [VStr "x"; VInt 1]. split; [exact ex_cat_constructed|]. repeat split; vm_compute; reflexivity.
  Qed.
  (** True is a legal integer, and a list of True is not *)
  Theorem C95_refuted_bool : exists h l, constructed h /\ map (legal_value h) l = [true; true] /\ legal_values dec_text h l = [false; false] /\
    exists xs, to_vectors dec_text h l = Ok xs /\ mapM (to_vector h) l = Ok xs.
  Proof.
    exists ex_logint, [VBool true; VBool true]. split; [exact ex_logint_constructed|]. split; [vm_compute; reflexivity|]. split; [vm_compute; reflexivity|].
    eexists. split; vm_compute; reflexivity.
  Qed.
  (** of a normal integer hyperparameter: more neighbours than asked for, one of them twice *)
  Theorem C97_refuted : exists h v vs, constructed h /\ legal_value h v = true /\ neighbors_values h v 4 None no_rng = Ok vs /\ length vs = 5 /\ ~ NoDup vs.
  Proof.
    exists w_norm, (VInt 2), [VInt 0; VInt 1; VInt 1; VInt 3; VInt 4]. split; [apply w_norm_c|]. split; [vm_compute; reflexivity|]. split; [vm_compute; reflexivity|].
    split; [reflexivity|]. intros N. inversion N as [|? ? _ N1]; subst. inversion N1 as [|? ? N2 _]; subst. apply N2. left. reflexivity.
  Qed.
  (** the text of a number has an entry if the bounds are 0 and 1 *)
  Theorem C95_refuted_text : exists h v, constructed h /\ legal_value_one dec_text h v = false /\ to_vector_one dec_text h v = Ok (Fin (1#2)).
  Proof.
    exists (mk_hp "u" (KFloat (round13 0) (round13 1) false DUniform) (VFloat (round13 (1#2))) None), (VStr "0.5").
    split; [apply (CtorUFloat "u" 0 1 None false None); vm_compute; reflexivity|]. split; vm_compute; reflexivity.
  Qed.
  Example C95_ex : ~ mixed_list [VInt 1; VFloat (3#2); VBool true] /\ dtype_of [VInt 1; VFloat (3#2); VBool true] = DtFloat /\
    legal_values dec_text ex_cat [VInt 1; VFloat (3#2); VBool true] = [true; false; true] /\
    to_vectors dec_text ex_logint [VInt 8; VBool true] = mapM (to_vector ex_logint) [VInt 8; VBool true].
  Proof.
    split; [intros ((s & Hs) & _); cbn in Hs; intuition discriminate|]. split; [reflexivity|]. split; vm_compute; reflexivity.
  Qed.

  (** an illegal choice has no density *)
  Theorem C96_refuted : exists h v, constructed h /\ legal_value h v = false /\ forall f, pdf_value h f v = Err KeyError.
  Proof. exists ex_cat, (VStr "w"). split; [exact ex_cat_constructed|]. split; [reflexivity|]. intros f. vm_compute. reflexivity. Qed.
  Example C96_ex f : exists a b, ~ mixed_list [VInt 99990; VFloat 99980] /\ constructed ex_int /\ legal_value ex_int (VFloat 99980) = false /\
    pdf_values dec_text ex_int f [VInt 99990; VFloat 99980] = Ok [a; b] /\ (a == 1#21)%Q /\ (b == 0)%Q.
  Proof.
    eexists. eexists. split; [intros ((s & Hs) & _); cbn in Hs; intuition discriminate|]. split; [exact ex_int_constructed|]. split; [vm_compute; reflexivity|].
    split; [vm_compute; reflexivity|]. split; reflexivity.
  Qed.
  Definition asis : nrng := {| nr_cands := []; nr_shuffle := fun l => l; nr_second := false |}.
  Example C97_ex : constructed ex_logint /\ constructed ex_cat /\ shuffles asis /\
    neighbors_values ex_logint (VInt 3) 7 None asis = Ok (map VInt [1; 2; 4; 5; 6; 7; 8]%Z) /\
    neighbors_values ex_cat (VInt 1) 2 None asis = Ok [VStr "x"; VStr "z"].
  Proof.
    split; [exact ex_logint_constructed|]. split; [exact ex_cat_constructed|]. split; [intros l; apply Permutation.Permutation_refl|].
    split; vm_compute; reflexivity.
  Qed.
End Witness.
