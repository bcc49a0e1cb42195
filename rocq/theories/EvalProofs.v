(** * Lemmas about evaluating conditions and clauses on vectors, batches and values *)
From Coq Require Import String List ZArith QArith Qround Qabs Bool Lia Lqa.
From Verif Require Import Base ListFacts Numeric NumericProofs HP HPProofs Properties_HP Cond Forb EqFacts Dag DagProofs
  Space CommitProofs Spec SpaceProofs CnodeProofs ForbProofs.
Import ListNotations.
Open Scope nat_scope.

(** ** Vector entries *)
Lemma feqb_sym x y : feqb x y = feqb y x.
Proof. destruct x, y; simpl; try reflexivity. apply Qeq_bool_comm'. Qed.

Lemma Qle_bool_congr a b c d : (a == c)%Q -> (b == d)%Q -> Qle_bool a b = Qle_bool c d.
Proof. intros H K. apply eq_true_iff_eq. rewrite !Qle_bool_iff, H, K. reflexivity. Qed.
Lemma Qeq_bool_congr a b c d : (a == c)%Q -> (b == d)%Q -> Qeq_bool a b = Qeq_bool c d.
Proof. intros H K. apply eq_true_iff_eq. rewrite !Qeq_bool_iff, H, K. reflexivity. Qed.
Lemma Qltb_congr a b c d : (a == c)%Q -> (b == d)%Q -> Qltb a b = Qltb c d.
Proof. intros H K. unfold Qltb. f_equal. apply Qle_bool_congr; assumption. Qed.

Lemma fsame_refl x : fsame x x.
Proof. destruct x; simpl; try exact I. reflexivity. Qed.
Lemma fsame_sym x y : fsame x y -> fsame y x.
Proof. destruct x, y; simpl; try tauto. intros H. symmetry. exact H. Qed.
Lemma fsame_trans x y z : fsame x y -> fsame y z -> fsame x z.
Proof. destruct x, y, z; simpl; try tauto. intros -> ->. reflexivity. Qed.
Lemma feqb_fsame x y : feqb x y = true -> fsame x y.
Proof. destruct x, y; simpl; try discriminate; try (intros; exact I). apply Qeq_bool_iff. Qed.
Lemma fsame_nan x y : fsame x y -> isnan x = isnan y.
Proof. destruct x, y; simpl; tauto. Qed.
Lemma fsame_fin x y : fsame x y -> isfinite x = isfinite y.
Proof. destruct x, y; simpl; tauto. Qed.

Lemma feqb_congr x y x' y' : fsame x x' -> fsame y y' -> feqb x y = feqb x' y'.
Proof.
  destruct x, x'; simpl; try tauto; destruct y, y'; simpl; try tauto; intros H K; try reflexivity.
  apply Qeq_bool_congr; assumption.
Qed.
Lemma fltb_congr x y x' y' : fsame x x' -> fsame y y' -> fltb x y = fltb x' y'.
Proof.
  destruct x, x'; simpl; try tauto; destruct y, y'; simpl; try tauto; intros H K; try reflexivity.
  apply Qltb_congr; assumption.
Qed.
Lemma op_vec_congr o x y x' y' : fsame x x' -> fsame y y' -> op_vec o x y = op_vec o x' y'.
Proof.
  intros H K. destruct o; simpl; unfold fneqb, fgtb.
  - apply feqb_congr; assumption.
  - f_equal. apply feqb_congr; assumption.
  - apply fltb_congr; assumption.
  - apply fltb_congr; assumption.
Qed.

Section Eval.
  Context {E : Env} {L : EnvLaws E}.

  (** ** Values and their vector entries *)
  Lemma legal_num h v : match hp_kind h with KInt _ _ _ _ | KFloat _ _ _ _ => True | _ => False end ->
    legal_value h v = true -> exists a, num_of v = Some a.
  Proof.
    unfold legal_value. destruct (hp_kind h); try contradiction; intros _; destruct (num_of v); eauto; discriminate.
  Qed.

  (** bounds of a number hyperparameter *)
  Definition num_bounds (h : hp) : option (Q * Q * bool) :=
    match hp_kind h with
    | KInt lo hi log _ => Some (inject_Z lo, inject_Z hi, log)
    | KFloat lo hi log _ => Some (lo, hi, log)
    | _ => None
    end.

  Lemma num_bounds_ok h lo hi log : constructed h -> num_bounds h = Some (lo, hi, log) -> bounds_ok lo hi log.
  Proof.
    intros C. apply constructed_wf in C. unfold wf_hp in C. unfold num_bounds.
    destruct (hp_kind h); try discriminate; intros H; inversion H; subst.
    - apply (proj2 (bounds_int _ _ _)). split; apply C.
    - apply C.
  Qed.

  Lemma legal_pos h v a lo hi log : constructed h -> num_bounds h = Some (lo, hi, log) -> num_of v = Some a ->
    legal_value h v = true -> log = true -> (0 < a)%Q.
  Proof.
    intros C B N H Hl. assert (OK := num_bounds_ok _ _ _ _ C B). destruct OK as [_ P]. specialize (P Hl).
    unfold num_bounds in B. unfold legal_value in H. destruct (hp_kind h) as [| | |lo' hi' log' d|lo' hi' log' d]; try discriminate;
      rewrite N in H; inversion B; subst.
    - unfold legal_int in H. rewrite !andb_true_iff, !Z.leb_le in H. destruct H as [[H1 _] _].
      change 0%Q with (inject_Z 0) in P. rewrite inject_Z_lt in P. pose proof (rint_near a) as [R _].
      assert (Q : (inject_Z 1 <= inject_Z (rint a))%Q) by (apply inject_Z_le; lia).
      change (inject_Z 1) with 1%Q in Q. lra.
    - apply andb_true_iff in H. destruct H as [H _]. apply Qle_bool_iff in H. lra.
  Qed.

  Lemma num_to_vector h lo hi log v a : num_bounds h = Some (lo, hi, log) -> num_of v = Some a ->
    (log = true -> (0 < a)%Q) -> to_vector h v = Ok (Fin (unit_norm lo hi log a)).
  Proof.
    unfold num_bounds, to_vector. destruct (hp_kind h); try discriminate; intros B N P; inversion B; subst; rewrite N;
      rewrite unit_to_vector_fin by exact P; reflexivity.
  Qed.

  (** a legal value has a finite vector entry *)
  Lemma legal_finite h v : constructed h -> legal_value h v = true -> exists q, to_vector h v = Ok (Fin q).
  Proof.
    intros C H. destruct (num_bounds h) as [[[lo hi] log]|] eqn:B.
    - assert (N : exists a, num_of v = Some a).
      { apply (legal_num h); [|exact H]. unfold num_bounds in B. destruct (hp_kind h); try discriminate; exact I. }
      destruct N as (a & N). rewrite (num_to_vector h lo hi log v a B N); [eauto|].
      intros Hl. eapply legal_pos; eauto.
    - unfold num_bounds in B. unfold to_vector. destruct (hp_kind h) as [c w|s|w| |] eqn:K; try discriminate.
      + unfold legal_value in H. rewrite K in H. apply py_in_index in H. destruct H as (i & ->). eauto.
      + unfold legal_value in H. rewrite K in H. apply py_in_index in H. destruct H as (i & ->). eauto.
      + eauto.
  Qed.

  Lemma unit_norm_cmp lo hi log a b : bounds_ok lo hi log -> (log = true -> (0 < a)%Q) -> (log = true -> (0 < b)%Q) ->
    Qltb (unit_norm lo hi log a) (unit_norm lo hi log b) = Qltb a b /\
    Qeq_bool (unit_norm lo hi log a) (unit_norm lo hi log b) = Qeq_bool a b.
  Proof.
    intros OK Pa Pb.
    assert (T : (a < b)%Q \/ (a == b)%Q \/ (b < a)%Q).
    { destruct (Qlt_le_dec a b) as [H|H]; [auto|]. destruct (Qlt_le_dec b a) as [K|K]; [auto|]. right. left. lra. }
    split; apply eq_true_iff_eq.
    - rewrite !Qltb_lt. destruct T as [T|[T|T]].
      + pose proof (unit_norm_lt lo hi log a b OK Pa T). tauto.
      + pose proof (unit_norm_proper lo hi log a b T). split; intros; lra.
      + pose proof (unit_norm_lt lo hi log b a OK Pb T). split; intros; lra.
    - rewrite !Qeq_bool_iff. destruct T as [T|[T|T]].
      + pose proof (unit_norm_lt lo hi log a b OK Pa T). split; intros; lra.
      + pose proof (unit_norm_proper lo hi log a b T). tauto.
      + pose proof (unit_norm_lt lo hi log b a OK Pb T). split; intros; lra.
  Qed.

  (** comparing vector entries is comparing values *)
  Lemma vec_eq h v w x y : constructed h -> legal_value h v = true -> legal_value h w = true ->
    to_vector h v = Ok x -> to_vector h w = Ok y -> feqb x y = py_eqb v w.
  Proof.
    intros C Hv Hw Tv Tw. destruct (num_bounds h) as [[[lo hi] log]|] eqn:B.
    - assert (K : match hp_kind h with KInt _ _ _ _ | KFloat _ _ _ _ => True | _ => False end).
      { unfold num_bounds in B. destruct (hp_kind h); try discriminate; exact I. }
      destruct (legal_num h v K Hv) as (a & Na). destruct (legal_num h w K Hw) as (b & Nb).
      rewrite (num_to_vector h lo hi log v a B Na) in Tv by (intros; eapply legal_pos; eauto).
      rewrite (num_to_vector h lo hi log w b B Nb) in Tw by (intros; eapply legal_pos; eauto).
      inversion Tv; inversion Tw; subst. simpl. unfold py_eqb. rewrite Na, Nb.
      apply unit_norm_cmp; [eapply num_bounds_ok; eauto| |]; intros; eapply legal_pos; eauto.
    - unfold num_bounds in B. destruct (hp_kind h) as [c u|s|u| |] eqn:K; try discriminate.
      + apply (C34_injective h c v w); auto. exact (LV_cat h c u K).
      + apply (C34_injective h s v w); auto. exact (LV_ord h s K).
      + unfold legal_value in Hv, Hw. unfold to_vector in Tv, Tw. rewrite K in *. rewrite Hv in Tv. rewrite Hw in Tw.
        inversion Tv; inversion Tw; subst. simpl. symmetry. apply (py_eqb_trans v u w); [exact Hv|].
        rewrite py_eqb_sym. exact Hw.
  Qed.

  Lemma vec_lt h v w x y : constructed h -> orderable h = true -> is_ordinal h = false ->
    legal_value h v = true -> legal_value h w = true ->
    to_vector h v = Ok x -> to_vector h w = Ok y -> py_ltb v w = Some (fltb x y).
  Proof.
    intros C Ho Hn Hv Hw Tv Tw.
    assert (K : match hp_kind h with KInt _ _ _ _ | KFloat _ _ _ _ => True | _ => False end).
    { unfold orderable in Ho. unfold is_ordinal in Hn. destruct (hp_kind h); try discriminate; exact I. }
    destruct (num_bounds h) as [[[lo hi] log]|] eqn:B; [|unfold num_bounds in B; destruct (hp_kind h); try discriminate; contradiction].
    destruct (legal_num h v K Hv) as (a & Na). destruct (legal_num h w K Hw) as (b & Nb).
    rewrite (num_to_vector h lo hi log v a B Na) in Tv by (intros; eapply legal_pos; eauto).
    rewrite (num_to_vector h lo hi log w b B Nb) in Tw by (intros; eapply legal_pos; eauto).
    inversion Tv; inversion Tw; subst. simpl. unfold py_ltb. rewrite Na, Nb. f_equal. symmetry.
    apply unit_norm_cmp; [eapply num_bounds_ok; eauto| |]; intros; eapply legal_pos; eauto.
  Qed.

  Lemma vec_in h vs vvs v x : constructed h -> legal_value h v = true -> to_vector h v = Ok x ->
    forallb (legal_value h) vs = true -> mapM (to_vector h) vs = Ok vvs ->
    existsb (feqb x) vvs = py_in v vs.
  Proof.
    intros C Hv Tv Hl Hm. apply mapM_ok in Hm. unfold py_in. induction Hm as [|w y vs vvs Hw Hm IH]; simpl in *; [reflexivity|].
    apply andb_true_iff in Hl. destruct Hl as [Hl1 Hl2]. rewrite IH by exact Hl2.
    rewrite (vec_eq h v w x y) by assumption. reflexivity.
  Qed.

  (** ** Conditions *)

  (** the vector entry of a hyperparameter encodes its value in an assignment *)
  Definition encodes (io : list (string * nat)) (v : list fval) (d : assignment) (h : hp) : Prop :=
    match d (hp_name h) with
    | Some w => legal_value h w = true /\ exists x, to_vector h w = Ok x /\ fsame (vget io v (hp_name h)) x
    | None => vget io v (hp_name h) = NaN
    end.

  Lemma existsb_feqb_congr x y l : fsame x y -> existsb (feqb x) l = existsb (feqb y) l.
  Proof.
    intros H. induction l as [|z l IH]; simpl; [reflexivity|].
    rewrite IH, (feqb_congr x z y z H (fsame_refl z)). reflexivity.
  Qed.

  Lemma test_vec_congr t x y : fsame x y -> test_vec t x = test_vec t y.
  Proof.
    intros H. destruct t; simpl; [apply op_vec_congr; [exact H|apply fsame_refl]|apply existsb_feqb_congr; exact H].
  Qed.

  Definition is_ne (t : test) : bool := match t with TBin OpNe _ _ => true | _ => false end.

  Lemma test_vec_nan t : is_ne t = false -> test_vec t NaN = false.
  Proof.
    destruct t as [[] u uu|vs vvs]; simpl; try discriminate; intros _; try reflexivity.
    - destruct uu; reflexivity.
    - apply not_true_iff_false. rewrite existsb_exists. intros (y & _ & Hy). discriminate.
  Qed.

  Lemma lit_agree io v (d : list (string * option value)) l w : lit_built l ->
    encodes io v (fun n => match assoc n d with Some x => x | None => None end) (l_parent l) ->
    assoc (parent_name l) d = Some (Some w) ->
    lit_value d l = Ok (lit_vec io v l).
  Proof.
    intros (_ & Cp & _ & T) H Hd. unfold encodes in H. unfold parent_name in Hd. rewrite Hd in H.
    destruct H as (Hw & x & Tw & Hx). unfold lit_value, lit_vec, parent_name. rewrite Hd.
    rewrite (test_vec_congr (l_test l) _ x Hx).
    destruct (l_test l) as [o u uu|vs vvs]; simpl.
    - destruct T as (To & Tu & Tv). destruct (is_ordinal (l_parent l)) eqn:Eo.
      + rewrite Tw. simpl. reflexivity.
      + destruct o; simpl; unfold fneqb, fgtb.
        * rewrite (vec_eq _ w u x uu Cp Hw Tu Tw Tv). reflexivity.
        * rewrite (vec_eq _ w u x uu Cp Hw Tu Tw Tv). reflexivity.
        * rewrite (vec_lt _ w u x uu Cp (To eq_refl) Eo Hw Tu Tw Tv). reflexivity.
        * rewrite (vec_lt _ u w uu x Cp (To eq_refl) Eo Tu Hw Tv Tw). reflexivity.
    - destruct T as (T1 & T2). rewrite (vec_in _ vs vvs w x Cp Hw Tw T1 T2). reflexivity.
  Qed.

  (** the order of a hyperparameter on its vector entries *)
  Lemma vec_less h v w x y : constructed h -> orderable h = true ->
    legal_value h v = true -> legal_value h w = true -> to_vector h v = Ok x -> to_vector h w = Ok y ->
    (fltb x y = true <-> less_in h v w).
  Proof.
    intros C Ho Hv Hw Tv Tw. unfold less_in. destruct (hp_kind h) as [c u|s|u|lo hi log d|lo hi log d] eqn:K.
    - unfold orderable in Ho. rewrite K in Ho. discriminate.
    - assert (D := lists_values_nodup _ _ C (LV_ord h s K)).
      destruct (C34_values_roundtrip h s v C (LV_ord h s K) Hv) as (i & v' & Ni & Qi & Vi & _).
      destruct (C34_values_roundtrip h s w C (LV_ord h s K) Hw) as (j & w' & Nj & Qj & Vj & _).
      rewrite Tv in Vi. rewrite Tw in Vj. inversion Vi; inversion Vj; subst. simpl. rewrite Qltb_lt, inject_Z_lt. split.
      + intros Hlt. exists i, j, v', w'. repeat split; auto. lia.
      + intros (i' & j' & a & b & Na & Nb & Qa & Qb & Hlt).
        assert (i' = i).
        { apply (has_dup_nth s i' i a v' D Na Ni). apply (py_eqb_trans a v v'); [exact Qa|]. rewrite py_eqb_sym. exact Qi. }
        assert (j' = j).
        { apply (has_dup_nth s j' j b w' D Nb Nj). apply (py_eqb_trans b w w'); [exact Qb|]. rewrite py_eqb_sym. exact Qj. }
        lia.
    - unfold orderable in Ho. rewrite K in Ho. discriminate.
    - assert (Hn : is_ordinal h = false) by (unfold is_ordinal; rewrite K; reflexivity).
      assert (Q := vec_lt h v w x y C Ho Hn Hv Hw Tv Tw). unfold py_ltb in Q.
      destruct (legal_num h v) as (a & Na); [rewrite K; exact I|exact Hv|].
      destruct (legal_num h w) as (b & Nb); [rewrite K; exact I|exact Hw|]. rewrite Na, Nb in *. assert (Q0 : Qltb a b = fltb x y) by congruence.
      rewrite <- Q0, Qltb_lt. split; [eauto|]. intros (p & q & Hp & Hq & Hlt). inversion Hp; inversion Hq; subst. exact Hlt.
    - assert (Hn : is_ordinal h = false) by (unfold is_ordinal; rewrite K; reflexivity).
      assert (Q := vec_lt h v w x y C Ho Hn Hv Hw Tv Tw). unfold py_ltb in Q.
      destruct (legal_num h v) as (a & Na); [rewrite K; exact I|exact Hv|].
      destruct (legal_num h w) as (b & Nb); [rewrite K; exact I|exact Hw|]. rewrite Na, Nb in *. assert (Q0 : Qltb a b = fltb x y) by congruence.
      rewrite <- Q0, Qltb_lt. split; [eauto|]. intros (p & q & Hp & Hq & Hlt). inversion Hp; inversion Hq; subst. exact Hlt.
  Qed.

  Lemma lit_holds io v d l : lit_built l -> encodes io v d (l_parent l) ->
    (d (hp_name (l_parent l)) = None -> is_ne (l_test l) = false) ->
    (lit_vec io v l = true <-> holds d (CLit l)).
  Proof.
    intros (_ & Cp & _ & T) H Hne. unfold encodes in H. unfold lit_vec, parent_name. simpl.
    destruct (d (hp_name (l_parent l))) as [w|].
    - destruct H as (Hw & x & Tw & Hx). rewrite (test_vec_congr (l_test l) _ x Hx).
      assert (Q : test_vec (l_test l) x = true <-> test_means (l_parent l) (l_test l) w).
      { destruct (l_test l) as [o u uu|vs vvs]; simpl.
        - destruct T as (To & Tu & Tv). destruct o; simpl; unfold fneqb, fgtb.
          + rewrite (vec_eq _ w u x uu Cp Hw Tu Tw Tv). tauto.
          + rewrite (vec_eq _ w u x uu Cp Hw Tu Tw Tv). apply negb_true_iff.
          + apply vec_less; auto.
          + apply vec_less; auto.
        - destruct T as (T1 & T2). rewrite (vec_in _ vs vvs w x Cp Hw Tw T1 T2). apply py_in_iff. }
      rewrite Q. split; [eauto|]. intros (w' & Hw' & Hm). inversion Hw'; subst. exact Hm.
    - rewrite H. rewrite test_vec_nan by (apply Hne; reflexivity).
      split; [discriminate|]. intros (w & Hw & _). discriminate.
  Qed.

  Lemma fold_and_iff {A} (f : A -> bool) (P : A -> Prop) l : (forall x, In x l -> f x = true <-> P x) ->
    (forallb f l = true <-> fold_right and True (map P l)).
  Proof.
    induction l as [|x l IH]; intros H; simpl; [tauto|]. rewrite andb_true_iff, (H x) by (left; reflexivity).
    rewrite IH by (intros; apply H; right; assumption). tauto.
  Qed.
  Lemma fold_or_iff {A} (f : A -> bool) (P : A -> Prop) l : (forall x, In x l -> f x = true <-> P x) ->
    (existsb f l = true <-> fold_right Logic.or False (map P l)).
  Proof.
    induction l as [|x l IH]; intros H; simpl; [split; [discriminate|tauto]|]. rewrite orb_true_iff, (H x) by (left; reflexivity).
    rewrite IH by (intros; apply H; right; assumption). tauto.
  Qed.

  Lemma cond_good_lit_in c : cond_good c -> forall l, In l (dlcs c) -> lit_built l.
  Proof. intros G l Hl. apply cond_good_lits in G. destruct G as [F _]. rewrite Forall_forall in F. auto. Qed.

  Lemma allM_map {A} (f : A -> res bool) (g : A -> bool) l : (forall x, In x l -> f x = Ok (g x)) ->
    allM f l = Ok (forallb g l).
  Proof.
    induction l as [|x l IH]; intros H; simpl; [reflexivity|]. rewrite (H x) by (left; reflexivity). simpl.
    rewrite IH by (intros; apply H; right; assumption). destruct (g x); reflexivity.
  Qed.
  Lemma anyM_map {A} (f : A -> res bool) (g : A -> bool) l : (forall x, In x l -> f x = Ok (g x)) ->
    anyM f l = Ok (existsb g l).
  Proof.
    induction l as [|x l IH]; intros H; simpl; [reflexivity|]. rewrite (H x) by (left; reflexivity). simpl.
    rewrite IH by (intros; apply H; right; assumption). destruct (g x); reflexivity.
  Qed.

  Lemma dlcs_in_and (c : cond) cs l : In c cs -> In l (dlcs c) -> In l (concat (map dlcs cs)).
  Proof. intros Hc Hl. apply in_concat. exists (dlcs c). split; [apply in_map; exact Hc|exact Hl]. Qed.

  (** the vector evaluation means what it should *)
  Lemma sat_vec_holds io v d c : cond_good c -> (forall l, In l (dlcs c) -> encodes io v d (l_parent l)) ->
    (forall l, In l (dlcs c) -> d (hp_name (l_parent l)) = None -> is_ne (l_test l) = false) ->
    (sat_vec io v c = true <-> holds d c).
  Proof.
    induction c as [l|cs IH|cs IH] using cond_ind'; intros G H N.
    - apply lit_holds; [apply (cond_good_lit_in _ G)|apply H|apply N]; left; reflexivity.
    - inversion G; subst. simpl. apply fold_and_iff. rewrite Forall_forall in IH. intros x Hx. apply IH; auto.
      + intros l Hl. apply H. eapply dlcs_in_and; eauto.
      + intros l Hl. apply N. eapply dlcs_in_and; eauto.
    - inversion G; subst. simpl. apply fold_or_iff. rewrite Forall_forall in IH. intros x Hx. apply IH; auto.
      + intros l Hl. apply H. eapply dlcs_in_and; eauto.
      + intros l Hl. apply N. eapply dlcs_in_and; eauto.
  Qed.

  (** evaluation literal by literal *)
  Lemma sat_value_lits d (g : lit -> bool) c : (forall l, In l (dlcs c) -> lit_value d l = Ok (g l)) ->
    forall (f : cond -> bool), (forall l, f (CLit l) = g l) -> (forall cs, f (CAnd cs) = forallb f cs) ->
      (forall cs, f (COr cs) = existsb f cs) -> sat_value d c = Ok (f c).
  Proof.
    intros H f F1 F2 F3. induction c as [l|cs IH|cs IH] using cond_ind'.
    - simpl. rewrite F1. apply H. left. reflexivity.
    - simpl. rewrite F2. apply allM_map. rewrite Forall_forall in IH. intros x Hx. apply IH; [exact Hx|].
      intros l Hl. apply H. simpl. eapply dlcs_in_and; eauto.
    - simpl. rewrite F3. apply anyM_map. rewrite Forall_forall in IH. intros x Hx. apply IH; [exact Hx|].
      intros l Hl. apply H. simpl. eapply dlcs_in_and; eauto.
  Qed.

  (** ** Batches *)
  Definition rect (n : nat) (arr : list (list fval)) : Prop := forall row, In row arr -> length row = n.

  Lemma column_nth arr j i : nth i (column arr j) NaN = nth j (nth i arr []) NaN.
  Proof.
    unfold column. destruct (Nat.lt_ge_cases i (length arr)) as [H|H].
    - rewrite (nth_indep _ NaN ((fun row => nth j row NaN) [])) by (rewrite map_length; exact H).
      rewrite (map_nth (fun row => nth j row NaN)). reflexivity.
    - rewrite (nth_overflow arr) by exact H. rewrite nth_overflow by (rewrite map_length; exact H). destruct j; reflexivity.
  Qed.

  Lemma arow_col io arr j name : nth j (arow io arr name) NaN = vget io (column arr j) name.
  Proof.
    unfold arow, vget. destruct (assoc name io) as [i|]; [|destruct j; reflexivity].
    rewrite column_nth. reflexivity.
  Qed.
  Lemma arow_length io arr n name i : rect n arr -> assoc name io = Some i -> i < length arr ->
    length (arow io arr name) = n.
  Proof. intros R Hi Hl. unfold arow. rewrite Hi. apply R. apply nth_In. exact Hl. Qed.

  Lemma zip_with_length {A B C} (f : A -> B -> C) l : forall m, length (zip_with f l m) = Nat.min (length l) (length m).
  Proof. induction l as [|x l IH]; intros [|y m]; simpl; auto. Qed.
  Lemma zip_with_nth {A B C} (f : A -> B -> C) a b c l : forall m j, j < length l -> j < length m ->
    nth j (zip_with f l m) c = f (nth j l a) (nth j m b).
  Proof.
    induction l as [|x l IH]; intros [|y m] j; simpl; try lia. destruct j as [|j]; [reflexivity|].
    intros. apply IH; lia.
  Qed.

  Lemma nth_repeat' {A} (a d : A) n j : j < n -> nth j (repeat a n) d = a.
  Proof. revert j. induction n as [|n IH]; intros [|j] H; simpl; try lia; [reflexivity|]. apply IH. lia. Qed.

  Lemma fold_zip_and {A} (g : A -> list bool) (h : A -> nat -> bool) n l : forall acc f0,
    (forall x, In x l -> length (g x) = n /\ forall j, j < n -> nth j (g x) false = h x j) ->
    length acc = n -> (forall j, j < n -> nth j acc false = f0 j) ->
    let r := fold_left (fun acc x => zip_with andb acc (g x)) l acc in
    length r = n /\ forall j, j < n -> nth j r false = (f0 j && forallb (fun x => h x j) l)%bool.
  Proof.
    induction l as [|x l IH]; intros acc f0 H Hl Ha; simpl.
    - split; [exact Hl|]. intros j Hj. rewrite Ha by exact Hj. rewrite andb_true_r. reflexivity.
    - destruct (H x (or_introl eq_refl)) as [Hx1 Hx2].
      destruct (IH (zip_with andb acc (g x)) (fun j => f0 j && h x j)%bool) as [R1 R2].
      + intros y Hy. apply H. right. exact Hy.
      + rewrite zip_with_length, Hl, Hx1. lia.
      + intros j Hj. rewrite (zip_with_nth andb false false) by lia. rewrite Ha, Hx2 by exact Hj. reflexivity.
      + split; [exact R1|]. intros j Hj. rewrite R2 by exact Hj. rewrite andb_assoc. reflexivity.
  Qed.
  Lemma fold_zip_or {A} (g : A -> list bool) (h : A -> nat -> bool) n l : forall acc f0,
    (forall x, In x l -> length (g x) = n /\ forall j, j < n -> nth j (g x) false = h x j) ->
    length acc = n -> (forall j, j < n -> nth j acc false = f0 j) ->
    let r := fold_left (fun acc x => zip_with orb acc (g x)) l acc in
    length r = n /\ forall j, j < n -> nth j r false = (f0 j || existsb (fun x => h x j) l)%bool.
  Proof.
    induction l as [|x l IH]; intros acc f0 H Hl Ha; simpl.
    - split; [exact Hl|]. intros j Hj. rewrite Ha by exact Hj. rewrite orb_false_r. reflexivity.
    - destruct (H x (or_introl eq_refl)) as [Hx1 Hx2].
      destruct (IH (zip_with orb acc (g x)) (fun j => f0 j || h x j)%bool) as [R1 R2].
      + intros y Hy. apply H. right. exact Hy.
      + rewrite zip_with_length, Hl, Hx1. lia.
      + intros j Hj. rewrite (zip_with_nth orb false false) by lia. rewrite Ha, Hx2 by exact Hj. reflexivity.
      + split; [exact R1|]. intros j Hj. rewrite R2 by exact Hj. rewrite orb_assoc. reflexivity.
  Qed.

  Lemma sat_arr_spec io n arr c : rect n arr ->
    (forall p, In p (cond_parents c) -> exists i, assoc p io = Some i /\ i < length arr) ->
    length (sat_arr io n arr c) = n /\
    forall j, j < n -> nth j (sat_arr io n arr c) false = sat_vec io (column arr j) c.
  Proof.
    intros R. induction c as [l|cs IH|cs IH] using cond_ind'; intros H; simpl.
    - destruct (H (parent_name l)) as (i & Hi & Hl); [left; reflexivity|].
      assert (Len := arow_length io arr n (parent_name l) i R Hi Hl). split; [rewrite map_length; exact Len|].
      intros j Hj. rewrite (nth_indep _ false (test_vec (l_test l) NaN)) by (rewrite map_length; lia).
      rewrite map_nth, arow_col. reflexivity.
    - rewrite Forall_forall in IH.
      destruct (fold_zip_and (sat_arr io n arr) (fun c j => sat_vec io (column arr j) c) n cs (repeat true n) (fun _ => true)) as [R1 R2].
      + intros x Hx. apply IH; [exact Hx|]. intros p Hp. apply H. unfold cond_parents in *. apply in_map_iff in Hp.
        destruct Hp as (l & <- & Hl). apply in_map. simpl. eapply dlcs_in_and; eauto.
      + apply repeat_length.
      + intros j Hj. apply nth_repeat'. exact Hj.
      + split; [exact R1|]. intros j Hj. rewrite R2 by exact Hj. reflexivity.
    - rewrite Forall_forall in IH.
      destruct (fold_zip_or (sat_arr io n arr) (fun c j => sat_vec io (column arr j) c) n cs (repeat false n) (fun _ => false)) as [R1 R2].
      + intros x Hx. apply IH; [exact Hx|]. intros p Hp. apply H. unfold cond_parents in *. apply in_map_iff in Hp.
        destruct Hp as (l & <- & Hl). apply in_map. simpl. eapply dlcs_in_and; eauto.
      + apply repeat_length.
      + intros j Hj. apply nth_repeat'. exact Hj.
      + split; [exact R1|]. intros j Hj. rewrite R2 by exact Hj. reflexivity.
  Qed.

  (** ** Equal conditions *)
  Lemma same_hp hs a b : NoDup (map hp_name hs) -> In a hs -> In b hs -> hp_name a = hp_name b -> a = b.
  Proof.
    induction hs as [|x l IH]; simpl; intros ND Ha Hb Hn; [contradiction|]. inversion ND as [|? ? Hx ND']; subst.
    destruct Ha as [->|Ha], Hb as [->|Hb]; [reflexivity| | |auto].
    - exfalso. apply Hx. rewrite Hn. apply in_map. exact Hb.
    - exfalso. apply Hx. rewrite <- Hn. apply in_map. exact Ha.
  Qed.

  Lemma test_same h t u : constructed h ->
    match t with
    | TBin o v vv => legal_value h v = true /\ to_vector h v = Ok vv
    | TIn vs vvs => forallb (legal_value h) vs = true /\ mapM (to_vector h) vs = Ok vvs
    end ->
    match u with
    | TBin o v vv => legal_value h v = true /\ to_vector h v = Ok vv
    | TIn vs vvs => forallb (legal_value h) vs = true /\ mapM (to_vector h) vs = Ok vvs
    end ->
    test_eqb t u = true -> forall x, test_vec t x = test_vec u x.
  Proof.
    intros C Ht Hu. destruct t as [o v vv|vs vvs], u as [o' v' vv'|vs' vvs']; simpl; try discriminate.
    - rewrite andb_true_iff. intros [Ho Hv] x. assert (o' = o) by (destruct o, o'; try discriminate; reflexivity). subst o'.
      destruct Ht as [A B], Hu as [A' B']. apply op_vec_congr; [apply fsame_refl|]. apply feqb_fsame.
      rewrite (vec_eq h v v' vv vv'); assumption.
    - intros Hl x. destruct Ht as [A B], Hu as [A' B']. apply mapM_ok in B. apply mapM_ok in B'.
      revert vs' vvs' A' B' Hl. induction B as [|w y vs vvs Hw B IH]; intros vs' vvs' A' B' Hl.
      + destruct vs'; [|discriminate]. inversion B'; subst. reflexivity.
      + destruct vs' as [|w' vs']; [discriminate|]. inversion B' as [|? y' ? vvs'' Hw' B'']; subst.
        simpl in *. rewrite andb_true_iff in *. destruct A as [A1 A2], A' as [A1' A2'], Hl as [Hl1 Hl2].
        rewrite (IH A2 vs' vvs'' A2' B'' Hl2). f_equal. apply feqb_congr; [apply fsame_refl|].
        apply feqb_fsame. rewrite (vec_eq h w w' y y'); assumption.
  Qed.

  Lemma lit_built_test l : lit_built l ->
    match l_test l with
    | TBin o v vv => legal_value (l_parent l) v = true /\ to_vector (l_parent l) v = Ok vv
    | TIn vs vvs => forallb (legal_value (l_parent l)) vs = true /\ mapM (to_vector (l_parent l)) vs = Ok vvs
    end.
  Proof. intros (_ & _ & _ & T). destruct (l_test l); tauto. Qed.

  Lemma lit_equiv_vec io v a b : lit_built a -> lit_built b -> l_parent a = l_parent b -> test_eqb (l_test a) (l_test b) = true ->
    lit_vec io v a = lit_vec io v b.
  Proof.
    intros Ba Bb Hp Ht. unfold lit_vec, parent_name. rewrite Hp.
    assert (Ta := lit_built_test a Ba). assert (Tb := lit_built_test b Bb). rewrite Hp in Ta.
    apply (test_same (l_parent b)); auto. apply Bb.
  Qed.

  Lemma forallb_same {A} (f : A -> bool) l m :
    (forall x, In x l -> exists y, In y m /\ f x = f y) -> (forall y, In y m -> exists x, In x l /\ f x = f y) ->
    forallb f l = forallb f m.
  Proof.
    intros H K. apply eq_true_iff_eq. rewrite !forallb_forall. split; intros F x Hx.
    - destruct (K x Hx) as (y & Hy & <-). auto.
    - destruct (H x Hx) as (y & Hy & ->). auto.
  Qed.
  Lemma existsb_same {A} (f : A -> bool) l m :
    (forall x, In x l -> exists y, In y m /\ f x = f y) -> (forall y, In y m -> exists x, In x l /\ f x = f y) ->
    existsb f l = existsb f m.
  Proof.
    intros H K. apply eq_true_iff_eq. rewrite !existsb_exists. split; intros (x & Hx & F).
    - destruct (H x Hx) as (y & Hy & E'). exists y. split; congruence.
    - destruct (K x Hx) as (y & Hy & E'). exists y. split; congruence.
  Qed.

  Lemma cond_eqb_vec hs io v c : NoDup (map hp_name hs) -> forall d, cond_good c -> cond_good d ->
    cond_refs hs c -> cond_refs hs d -> cond_eqb c d = true -> sat_vec io v c = sat_vec io v d.
  Proof.
    intros ND.
    assert (G : forall cs ds (Hc : Forall (fun c => forall d, cond_good c -> cond_good d -> cond_refs hs c -> cond_refs hs d ->
                   cond_eqb c d = true -> sat_vec io v c = sat_vec io v d) cs),
      (forall x, In x cs -> cond_good x) -> (forall x, In x ds -> cond_good x) ->
      (forall l, In l (concat (map dlcs cs)) -> In (l_child l) hs /\ In (l_parent l) hs) ->
      (forall l, In l (concat (map dlcs ds)) -> In (l_child l) hs /\ In (l_parent l) hs) ->
      comps_eqb cond_eqb cs ds = true ->
      (forall x, In x cs -> exists y, In y ds /\ sat_vec io v x = sat_vec io v y) /\
      (forall y, In y ds -> exists x, In x cs /\ sat_vec io v x = sat_vec io v y)).
    { intros cs ds IH G1 G2 R1 R2 H. unfold comps_eqb in H. rewrite !andb_true_iff, !forallb_forall in H.
      destruct H as [[_ H1] H2]. rewrite Forall_forall in IH.
      assert (RR : forall x y, In x cs -> In y ds -> cond_eqb x y = true -> sat_vec io v x = sat_vec io v y).
      { intros x y Hx Hy Hq. apply IH; auto.
        - intros l Hl. apply R1. eapply dlcs_in_and; eauto.
        - intros l Hl. apply R2. eapply dlcs_in_and; eauto. }
      split.
      - intros x Hx. specialize (H1 x Hx). apply existsb_exists in H1. destruct H1 as (y & Hy & Hq). exists y. auto.
      - intros y Hy. specialize (H2 y Hy). apply existsb_exists in H2. destruct H2 as (x & Hx & Hq). exists x. auto. }
    induction c as [l|cs IH|cs IH] using cond_ind'; intros [m|ds|ds] Gc Gd Rc Rd; try discriminate.
    - simpl. unfold lit_eqb. rewrite !andb_true_iff. intros [[_ H1] H2].
      apply lit_equiv_vec; [apply (cond_good_lit_in _ Gc); left; reflexivity|apply (cond_good_lit_in _ Gd); left; reflexivity| |exact H2].
      apply (same_hp hs); [exact ND| | |apply hp_eqb_name; exact H1].
      + apply (Rc l). left. reflexivity.
      + apply (Rd m). left. reflexivity.
    - rewrite cond_eqb_and. intros H. inversion Gc; inversion Gd; subst. simpl.
      destruct (G cs ds IH) as [G1 G2]; auto. apply forallb_same; assumption.
    - rewrite cond_eqb_or. intros H. inversion Gc; inversion Gd; subst. simpl.
      destruct (G cs ds IH) as [G1 G2]; auto. apply existsb_same; assumption.
  Qed.
End Eval.
