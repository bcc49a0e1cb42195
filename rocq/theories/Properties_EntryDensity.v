(** * Property C131: the density of a vector entry is the density of the value it stands for *)
From Coq Require Import String List ZArith QArith Qabs Bool Lia Lqa.
From Verif Require Import Base ListFacts Numeric NumericProofs HP HPProofs Properties_HP Spec Dist DistProofs Properties_Dist EvalProofs Properties_Array Ex.
Import ListNotations.
Open Scope Z_scope.

(** the density that scipy computes depends only on the number *)
Definition of_numbers (f : Q -> Q) : Prop := forall p q, (p == q)%Q -> (f p == f q)%Q.

Section EntryDensity.
  Context {E : Env} {L : EnvLaws E}.

  (** an entry and its value have one density, both ways of asking return it *)
  Definition one_density (h : hp) (f : Q -> Q) (x : fval) : Prop :=
    exists v p p', to_value h x = Ok v /\ pdf_vector h f x = Ok p /\ pdf_value h f v = Ok p' /\ (p == p')%Q.

  (** C131 for choices, entries that are integers. Not for the other legal entries: C131_below_refuted, C131_above_refuted *)
  Theorem C131_choice_partial h s f q i : constructed h -> lists_values h s -> (q == inject_Z i)%Q -> legal_vector h (Fin q) = true -> one_density h f (Fin q).
  Proof.
    intros C K Q Lg.
    assert (B : 0 <= i < Z.of_nat (length s)).
    { unfold legal_vector in Lg. destruct K as [K|ws K]; rewrite K in Lg; unfold legal_seq in Lg; apply andb_true_iff in Lg; destruct Lg as [Lg _]; apply andb_true_iff in Lg; destruct Lg as [L1 L2];
      rewrite Qle_bool_iff, Q in L1; rewrite Qltb_lt, Q in L2; change 0%Q with (inject_Z 0) in L1; rewrite <- Zle_Qle in L1; rewrite <- Zlt_Qlt in L2; lia. }
    destruct (C34_vectors_roundtrip h s (Z.to_nat i) C K ltac:(lia)) as (w & T1 & N & _ & T2). rewrite Z2Nat.id in T1, T2 by lia.
    destruct (seq_pdf h s f (Z.to_nat i) w C K N) as (p & P & Pv).
    assert (Cl : is_close_to_integer q = true) by (rewrite (is_close_to_integer_proper _ _ Q); apply is_close_to_integer_Z).
    assert (Ri : rint q = i) by (rewrite (rint_proper _ _ Q); apply rint_Z).
    assert (B1 : Qle_bool 0 q = true) by (apply Qle_bool_iff; rewrite Q; change 0%Q with (inject_Z 0); rewrite <- Zle_Qle; lia).
    assert (B2 : Qle_bool q (inject_Z (Z.of_nat (length s) - 1)) = true) by (apply Qle_bool_iff; rewrite Q, <- Zle_Qle; lia).
    assert (B3 : Qltb q (inject_Z (Z.of_nat (length s))) = true) by (apply Qltb_lt; rewrite Q, <- Zlt_Qlt; lia).
    assert (Tv : to_value h (Fin q) = Ok w).
    { unfold to_value in T1 |- *. destruct K as [K|ws K]; rewrite K in T1 |- *; rewrite is_close_to_integer_Z, rint_Z in T1; rewrite Cl, Ri; exact T1. }
    exists w. unfold pdf_vector, dist_pdf, legal_vector_array, legal_seq.
    destruct K as [K|[ws|] K]; rewrite K in *; cbn [bind]; rewrite B1, B2, B3, Cl; cbn [andb]; do 2 eexists; (split; [exact Tv|]); (split; [reflexivity|]); (split; [exact P|]); rewrite Pv; try ring.
    assert (Cq : (qclip q 0 (inject_Z (Z.of_nat (length s) - 1)) == inject_Z i)%Q).
    { apply Qle_bool_iff in B1. apply Qle_bool_iff in B2. rewrite <- Q. apply qclip_id; auto. }
    rewrite (py_int_Z _ _ Cq). ring.
  Qed.

  (** C131 for uniform integers on a linear scale: every entry that is legal as a number and in an array *)
  Theorem C131_int_partial h lo hi f x : constructed h -> hp_kind h = KInt lo hi false DUniform -> flat f -> legal_vector h x = true -> legal_vector_array h x = true -> one_density h f x.
  Proof.
    intros C K Fl Lg La. destruct (C35_int_legal_vector h lo hi false x C (ex_intro _ _ K) Lg) as (z & Tv & Z).
    destruct (int_pdf h lo hi false f z C K Fl Z) as (p & P & Pv). exists (VInt z). unfold pdf_vector. rewrite La. unfold dist_pdf. rewrite K. cbn [bind].
    do 2 eexists. split; [exact Tv|]. split; [reflexivity|]. split; [exact P|]. rewrite Pv. unfold legal_vector in Lg. rewrite K in Lg. destruct x as [q| | |]; try discriminate.
    apply andb_true_iff in Lg. destruct Lg as [L1 L2]. rewrite L2. replace (hi - lo + 1 - 1) with (hi - lo) by lia.
    assert (Q : (q * (inject_Z hi - inject_Z lo) == q * inject_Z (hi - lo))%Q) by (unfold Z.sub; rewrite inject_Z_plus, inject_Z_opp; ring).
    rewrite <- (is_close_to_integer_proper _ _ Q), L1. cbn [andb]. ring.
  Qed.

  (** C131 for integers of the other distributions and scales: the entries of integers *)
  Theorem C131_entry_partial h lo hi log d f z q x : constructed h -> hp_kind h = KInt lo hi log d -> of_numbers f -> lo <= z <= hi -> to_vector h (VInt z) = Ok (Fin q) -> (x == q)%Q ->
    to_value h (Fin x) = Ok (VInt z) /\ forall p, pdf_vector h f (Fin x) = Ok p -> exists p', pdf_value h f (VInt z) = Ok p' /\ (p == p')%Q.
  Proof.
    intros C K Ff Z T Q. destruct (C35_int_roundtrip h lo hi log z C (ex_intro _ _ K) Z) as (q' & T' & _ & _ & _ & Tv). assert (q' = q) by congruence. subst q'.
    assert (Ru : (unit_raw (inject_Z lo) (inject_Z hi) log x == unit_raw (inject_Z lo) (inject_Z hi) log q)%Q).
    { unfold unit_raw, scale. destruct log; [apply fexp_comp|]; rewrite Q; reflexivity. }
    split; [unfold to_value in Tv |- *; rewrite K in Tv |- *; rewrite (rint_proper _ _ Ru); exact Tv|].
    assert (Fq : (f x == f q)%Q) by exact (Ff _ _ Q). intros p. unfold pdf_value. rewrite T. cbn [bind].
    assert (La : legal_vector_array h (Fin x) = legal_vector_array h (Fin q)).
    { unfold legal_vector_array, legal_int. rewrite K, (rint_proper _ _ Ru), (is_close_to_integer_proper _ _ Ru). reflexivity. }
    unfold pdf_vector. rewrite La. set (m := if legal_vector_array h (Fin q) then 1%Q else 0%Q). clearbody m. unfold dist_pdf. rewrite K.
    assert (Bq : (Qle_bool 0 x && Qle_bool x 1)%bool = (Qle_bool 0 q && Qle_bool q 1)%bool) by (rewrite Q; reflexivity). rewrite Bq. clear Bq.
    destruct d, log; cbn [bind];
      try (intros H; injection H as <-; eexists; split; [reflexivity|]; destruct (Qle_bool 0 q && Qle_bool q 1)%bool; rewrite ?Fq, ?Q; reflexivity);
      (destruct (max_and_norm f (hi - lo + 1)) as [mn|]; cbn [bind]; [|discriminate]; intros H; injection H as <-; eexists; split; [reflexivity|]; destruct (Qle_bool 0 q && Qle_bool q 1)%bool; rewrite ?Fq; reflexivity).
  Qed.

  (** C131 for floats: every legal entry *)
  Theorem C131_float h lo hi log d f x : constructed h -> hp_kind h = KFloat lo hi log d -> of_numbers f -> legal_vector h x = true -> one_density h f x.
  Proof.
    intros C K Ff Lg. assert (Lg' := Lg). unfold legal_vector in Lg'. rewrite K in Lg'. destruct x as [q| | |]; try discriminate. assert (B := Lg'). apply andb_true_iff in B. rewrite !Qle_bool_iff in B. destruct B as [B1 B2].
    destruct (C36_float_onto h lo hi log q C (ex_intro _ _ K) B1 B2) as (y & q' & T1 & Lv & T2 & Q). exists (VFloat y). unfold pdf_value. rewrite T2. cbn [bind].
    assert (Lq : (Qle_bool 0 q' && Qle_bool q' 1)%bool = true) by (apply andb_true_iff; rewrite !Qle_bool_iff, Q; auto).
    unfold pdf_vector, dist_pdf, legal_vector_array. rewrite K. destruct d; cbn [bind]; do 2 eexists; (split; [exact T1|]); (split; [reflexivity|]); (split; [reflexivity|]); rewrite ?Lg', ?Lq; try reflexivity; rewrite (Ff q q') by (symmetry; exact Q); reflexivity.
  Qed.

  (** C131 for constants *)
  Theorem C131_constant h c f x : hp_kind h = KConst c -> legal_vector h x = true -> one_density h f x.
  Proof.
    intros K Lg. exists c. unfold legal_vector in Lg. rewrite K in Lg. unfold pdf_value, to_value, to_vector, pdf_vector, dist_pdf, legal_vector_array. rewrite K, py_eqb_refl. cbn [bind]. rewrite Lg.
    do 2 eexists. repeat split; reflexivity.
  Qed.
End EntryDensity.

Section Cases.
  Existing Instances rat_env rat_env_laws.
  (** entries of 0.44 on the integers 1 to 10, of 1.0 for three choices with weights, of 0.3 for a float *)
  Example C131_ex : one_density hK (fun _ => 1%Q) (Fin (4#9)) /\ one_density w_cat (fun _ => 1%Q) (Fin (2#2)) /\ one_density ex_float (fun q => q) (Fin (3#10)).
  Proof.
    split; [|split].
    - apply (C131_int_partial hK 1 10 (fun _ => 1%Q)); [apply hK_c|reflexivity|intros q _ _; reflexivity|vm_compute; reflexivity|vm_compute; reflexivity].
    - apply (C131_choice_partial w_cat [VStr "x"; VStr "y"; VStr "z"] _ (2#2) 1); [apply w_cat_c|eapply LV_cat; reflexivity|reflexivity|vm_compute; reflexivity].
    - eapply C131_float; [apply ex_float_constructed|reflexivity|intros p q H; exact H|vm_compute; reflexivity].
  Qed.
  (** 1.99999 is a legal entry of the third choice but has the density of the second *)
  Theorem C131_below_refuted : exists h x v p p', constructed h /\ legal_vector h x = true /\ legal_vector_array h x = true /\ to_value h x = Ok v /\
    pdf_vector h (fun _ => 1%Q) x = Ok p /\ pdf_value h (fun _ => 1%Q) v = Ok p' /\ (p == 1#2)%Q /\ (p' == 1#4)%Q.
  Proof.
    exists w_cat, (Fin (199999#100000)). do 3 eexists. split; [apply w_cat_c|]. split; [vm_compute; reflexivity|]. split; [vm_compute; reflexivity|]. split; [vm_compute; reflexivity|].
    split; [vm_compute; reflexivity|]. split; [vm_compute; reflexivity|]. split; reflexivity.
  Qed.
  (** 2.00001 is a legal entry of the third choice but has the density zero *)
  Theorem C131_above_refuted : exists h x v p p', constructed h /\ legal_vector h x = true /\ legal_vector_array h x = true /\ to_value h x = Ok v /\
    pdf_vector h (fun _ => 1%Q) x = Ok p /\ pdf_value h (fun _ => 1%Q) v = Ok p' /\ (p == 0)%Q /\ (p' == 1#3)%Q.
  Proof.
    exists ex_cat, (Fin (200001#100000)). do 3 eexists. split; [apply ex_cat_constructed|]. split; [vm_compute; reflexivity|]. split; [vm_compute; reflexivity|]. split; [vm_compute; reflexivity|].
    split; [vm_compute; reflexivity|]. split; [vm_compute; reflexivity|]. split; reflexivity.
  Qed.
End Cases.
