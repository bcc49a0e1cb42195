(** * Forbidden clauses: evaluation and merging *)
From Coq Require Import String List ZArith QArith Bool Lia Permutation Relations.
From Verif Require Import Base ListFacts Numeric HP HPProofs Cond Forb EqFacts Dag DagCycle DagProofs Space
  CommitProofs Spec SpaceProofs CnodeProofs.
Import ListNotations.
Open Scope nat_scope.

Section Forbs.
  Context {E : Env} {L : EnvLaws E}.

  (** the shape of a constructed clause *)
  Inductive forb_good : fclause -> Prop :=
  | FG_eq h v vv : constructed h -> legal_value h v = true -> to_vector h v = Ok vv -> forb_good (FEq h v vv)
  | FG_in h vs vvs : constructed h -> forallb (legal_value h) vs = true -> mapM (to_vector h) vs = Ok vvs ->
      forb_good (FIn h vs vvs)
  | FG_rel r a b : constructed a -> constructed b -> forb_good (FRel r a b)
  | FG_and cs : (forall x, In x cs -> forb_good x) -> forb_good (FAnd cs).

  Lemma forb_built_good f : forb_built f -> forb_good f.
  Proof.
    induction 1 as [h v f C H|h vs f C H|r a b f Ca Cb H|cs f _ IH H].
    - unfold mk_feq in H. apply if_check in H. destruct H as [H1 H]. destruct (to_vector h v) as [vv|] eqn:Ev; [|discriminate].
      inversion H. constructor; auto.
    - unfold mk_fin in H. apply if_check in H. destruct H as [H1 H]. destruct (mapM (to_vector h) vs) as [vv|] eqn:Ev; [|discriminate].
      inversion H. constructor; auto.
    - inversion H. constructor; auto.
    - inversion H. constructor; auto.
  Qed.

  (** clause holds on a vector *)
  Definition fholds (io : list (string * nat)) (v : list fval) (f : fclause) : Prop := forb_vec io v f = Ok true.

  Definition eqc_sat (io : list (string * nat)) (v : list fval) (c : eqc) : bool :=
    feqb (vget io v (eqc_name c)) (snd c).

  Lemma all_eqc_map cs p : all_eqc cs = Some p -> cs = map eqc_clause p.
  Proof.
    revert p. induction cs as [|c cs IH]; intros p; simpl.
    - intros H. inversion H. reflexivity.
    - destruct c as [h v vv| | |]; try discriminate. destruct (all_eqc cs) as [q|]; [|discriminate].
      simpl. intros H. inversion H; subst. simpl. unfold eqc_clause at 1. simpl. f_equal. auto.
  Qed.

  Lemma eqc_clause_vec io v c : forb_vec io v (eqc_clause c) = Ok (eqc_sat io v c).
  Proof. reflexivity. Qed.

  Lemma forb_vec_and io v cs : forb_vec io v (FAnd cs) = allM (forb_vec io v) cs.
  Proof. reflexivity. Qed.

  Lemma and_eqc_vec io v p : forb_vec io v (FAnd (map eqc_clause p)) = Ok (forallb (eqc_sat io v) p).
  Proof.
    rewrite forb_vec_and. induction p as [|c p IH]; simpl; [reflexivity|].
    change (feqb (vget io v (hp_name (fst (fst c)))) (snd c)) with (eqc_sat io v c).
    destruct (eqc_sat io v c); simpl; [exact IH|reflexivity].
  Qed.

  Lemma forallb_perm {A} (f : A -> bool) l m : Permutation l m -> forallb f l = forallb f m.
  Proof.
    induction 1; simpl; try congruence. destruct (f x), (f y); reflexivity.
  Qed.

  Lemma split_last_spec {A} (l : list A) : match split_last l with
    | None => l = [] | Some (fi, la) => l = fi ++ [la] end.
  Proof.
    induction l as [|x l IH]; simpl; [reflexivity|]. destruct l as [|y l]; [reflexivity|].
    destruct (split_last (y :: l)) as [[fi la]|]; simpl; [|discriminate]. rewrite IH. reflexivity.
  Qed.

  (** ** Grouping *)
  Definition group_sat io v (g : group) : bool :=
    (forallb (eqc_sat io v) (fst g) && existsb (eqc_sat io v) (snd g))%bool.
  Definition group_ok (g : group) : Prop :=
    exists l0 rest, snd g = l0 :: rest /\ forall l, In l (snd g) -> eqc_name l = eqc_name l0.

  Lemma key_part_sat io v a b : key_part_eqb a b = true -> eqc_sat io v a = eqc_sat io v b.
  Proof.
    unfold key_part_eqb, eqc_sat. rewrite andb_true_iff, String.eqb_eq. intros [-> H].
    destruct (vget io v (eqc_name b)) as [q| | |], (snd a) as [x| | |], (snd b) as [y| | |]; simpl in *; try discriminate; try reflexivity.
    apply Qeq_bool_iff in H. destruct (Qeq_bool q y) eqn:Eq.
    - apply Qeq_bool_iff in Eq. apply Qeq_bool_iff. rewrite Eq. symmetry. exact H.
    - apply not_true_iff_false. intros Hq. apply Qeq_bool_iff in Hq. rewrite H in Hq. apply Qeq_bool_iff in Hq. congruence.
  Qed.

  Lemma list_key_sat io v a : forall b, list_eqb key_part_eqb a b = true ->
    forallb (eqc_sat io v) a = forallb (eqc_sat io v) b.
  Proof.
    induction a as [|x a IH]; intros [|y b]; simpl; try discriminate; [reflexivity|].
    rewrite andb_true_iff. intros [H1 H2]. rewrite (key_part_sat io v _ _ H1), (IH _ H2). reflexivity.
  Qed.

  Lemma add_group_sat io v fi la gs : Forall group_ok gs ->
    Forall group_ok (add_group fi la gs) /\
    existsb (group_sat io v) (add_group fi la gs) =
    ((forallb (eqc_sat io v) fi && eqc_sat io v la) || existsb (group_sat io v) gs)%bool.
  Proof.
    induction gs as [|g gs IH]; simpl; intros H.
    - split.
      + constructor; [|constructor]. exists la, []. simpl. split; [reflexivity|]. intros l [<-|[]]. reflexivity.
      + unfold group_sat. simpl. rewrite !orb_false_r. reflexivity.
    - inversion H as [|? ? Hg Hgs]; subst. specialize (IH Hgs). destruct IH as [I1 I2].
      destruct (group_matches fi la g) eqn:Em; simpl.
      + unfold group_matches in Em. apply andb_true_iff in Em. destruct Em as [Em1 Em2].
        destruct Hg as (l0 & rest & Hl0 & Hall). rewrite Hl0 in Em1. apply String.eqb_eq in Em1. split.
        * constructor; [|exact Hgs]. exists l0, (rest ++ [la]). simpl. rewrite Hl0. split; [reflexivity|].
          intros l Hl. simpl in Hl. destruct Hl as [<-|Hl]; [reflexivity|]. rewrite in_app_iff in Hl.
          destruct Hl as [Hl|[<-|[]]]; [apply Hall; rewrite Hl0; right; exact Hl|exact Em1].
        * unfold group_sat at 1 3. simpl. rewrite existsb_app. simpl. rewrite (list_key_sat io v _ _ Em2).
          destruct (forallb (eqc_sat io v) (fst g)), (existsb (eqc_sat io v) (snd g)), (eqc_sat io v la),
            (existsb (group_sat io v) gs); reflexivity.
      + split; [constructor; assumption|]. rewrite I2.
        destruct (group_sat io v g), (existsb (group_sat io v) gs), (forallb (eqc_sat io v) fi && eqc_sat io v la)%bool; reflexivity.
  Qed.

  (** members of the groups come from the conjunctions *)
  Definition group_from (P : eqc -> Prop) (g : group) : Prop :=
    (forall c, In c (fst g) -> P c) /\ (forall c, In c (snd g) -> P c).
  Lemma add_group_from (P : eqc -> Prop) fi la gs : (forall c, In c fi -> P c) -> P la -> Forall (group_from P) gs ->
    Forall (group_from P) (add_group fi la gs).
  Proof.
    intros Hf Hla. induction gs as [|g gs IH]; simpl; intros H.
    - constructor; [|constructor]. split; simpl; [exact Hf|]. intros c [<-|[]]. exact Hla.
    - inversion H as [|? ? [G1 G2] Hgs]; subst. destruct (group_matches fi la g).
      + constructor; [|exact Hgs]. split; simpl; [exact G1|]. intros c Hc. rewrite in_app_iff in Hc.
        destruct Hc as [Hc|[<-|[]]]; auto.
      + constructor; [split; assumption|auto].
  Qed.

  Definition group_step (gs : list group) (p : list eqc) : res (list group) :=
    match split_last p with None => Err ValueError | Some (firsts, last) => Ok (add_group firsts last gs) end.

  Lemma group_fold (P : eqc -> Prop) ps : (forall p, In p ps -> p <> [] /\ forall c, In c p -> P c) ->
    forall gs, Forall group_ok gs -> Forall (group_from P) gs ->
    exists gs', foldM group_step ps gs = Ok gs' /\ Forall group_ok gs' /\ Forall (group_from P) gs' /\
      forall io v, existsb (group_sat io v) gs' =
        (existsb (forallb (eqc_sat io v)) ps || existsb (group_sat io v) gs)%bool.
  Proof.
    induction ps as [|p ps IH]; intros Hne gs Hok Hfrom.
    - exists gs. simpl. auto.
    - destruct (Hne p (or_introl eq_refl)) as [Hp HP].
      rewrite foldM_cons. unfold group_step at 1. pose proof (split_last_spec p) as Hs.
      destruct (split_last p) as [[fi la]|]; [|congruence]. cbn [bind].
      assert (Hfi : forall c, In c fi -> P c) by (intros c Hc; apply HP; rewrite Hs; apply in_or_app; auto).
      assert (Hla : P la) by (apply HP; rewrite Hs; apply in_or_app; simpl; auto).
      assert (A1 : Forall group_ok (add_group fi la gs)) by (apply (add_group_sat [] []); exact Hok).
      destruct (IH (fun q Hq => Hne q (or_intror Hq)) _ A1 (add_group_from P fi la gs Hfi Hla Hfrom)) as (gs' & H1 & H2 & H3 & H4).
      exists gs'. split; [exact H1|]. split; [exact H2|]. split; [exact H3|]. intros io v. rewrite H4.
      destruct (add_group_sat io v fi la gs Hok) as [_ ->]. simpl. rewrite Hs, forallb_app. simpl. rewrite andb_true_r.
      destruct (existsb (forallb (eqc_sat io v)) ps), (forallb (eqc_sat io v) fi && eqc_sat io v la)%bool; reflexivity.
  Qed.

  Definition eqc_good (c : eqc) : Prop :=
    legal_value (fst (fst c)) (snd (fst c)) = true /\ to_vector (fst (fst c)) (snd (fst c)) = Ok (snd c).

  Lemma existsb_map {A B} (f : B -> bool) (g : A -> B) l : existsb f (map g l) = existsb (fun x => f (g x)) l.
  Proof. induction l as [|x l IH]; simpl; [reflexivity|]. rewrite IH. reflexivity. Qed.

  (** the merged clause of a group *)
  Lemma group_clause_spec (P : eqc -> Prop) g :
    (forall c, P c -> eqc_good c) -> (forall c c', P c -> P c' -> eqc_name c = eqc_name c' -> fst (fst c) = fst (fst c')) ->
    group_ok g -> group_from P g ->
    exists f, group_clause g = Ok f /\ forall io v, forb_vec io v f = Ok (group_sat io v g).
  Proof.
    intros Hgood Hhp (l0 & rest & Hl & Hn) [F1 F2]. unfold group_clause. rewrite Hl.
    destruct rest as [|l1 rest].
    - exists (FAnd (map eqc_clause (fst g) ++ [eqc_clause l0])). split; [reflexivity|]. intros io v.
      change [eqc_clause l0] with (map eqc_clause [l0]). rewrite <- map_app, and_eqc_vec, forallb_app.
      unfold group_sat. rewrite Hl. simpl. rewrite andb_true_r, orb_false_r. reflexivity.
    - rewrite <- Hl.
      assert (Hh : forall c, In c (snd g) -> fst (fst c) = fst (fst l0)).
      { intros c Hc. apply Hhp; [apply F2; exact Hc|apply F2; rewrite Hl; left; reflexivity|apply Hn; exact Hc]. }
      assert (M : mapM (to_vector (fst (fst l0))) (map (fun c => snd (fst c)) (snd g)) = Ok (map snd (snd g))).
      { assert (Q : forall l, (forall c, In c l -> eqc_good c /\ fst (fst c) = fst (fst l0)) ->
          mapM (to_vector (fst (fst l0))) (map (fun c => snd (fst c)) l) = Ok (map snd l)).
        { induction l as [|c l IH]; intros H; simpl; [reflexivity|]. destruct (H c (or_introl eq_refl)) as [[_ Hv] He].
          rewrite <- He, Hv. simpl. rewrite He, IH; [reflexivity|]. intros; apply H; right; assumption. }
        apply Q. intros c Hc. split; [apply Hgood, F2, Hc|apply Hh, Hc]. }
      assert (Lg : forallb (legal_value (fst (fst l0))) (map (fun c => snd (fst c)) (snd g)) = true).
      { apply forallb_forall. intros x Hx. apply in_map_iff in Hx. destruct Hx as (c & <- & Hc).
        rewrite <- (Hh c Hc). apply (Hgood c). apply F2, Hc. }
      unfold mk_fin. rewrite Lg, M. cbn [bind].
      exists (FAnd (map eqc_clause (fst g) ++ [FIn (fst (fst l0)) (map (fun c => snd (fst c)) (snd g)) (map snd (snd g))])).
      split; [reflexivity|]. intros io v. rewrite forb_vec_and.
      assert (Hin : forb_vec io v (FIn (fst (fst l0)) (map (fun c => snd (fst c)) (snd g)) (map snd (snd g))) =
                    Ok (existsb (eqc_sat io v) (snd g))).
      { cbn [forb_vec]. f_equal. rewrite existsb_map. apply existsb_ext_in. intros c Hc. unfold eqc_sat, eqc_name.
        rewrite (Hh c Hc). reflexivity. }
      unfold group_sat. induction (fst g) as [|c l IH]; simpl.
      + cbn [forb_vec] in Hin. inversion Hin as [Hin']. rewrite Hin'. destruct (existsb _ (snd g)); reflexivity.
      + change (feqb (vget io v (hp_name (fst (fst c)))) (snd c)) with (eqc_sat io v c).
        destruct (eqc_sat io v c); simpl; [|reflexivity]. apply IH. intros; apply F1; right; assumption.
  Qed.

  (** ** The merged list is equivalent to the declared one *)
  Definition parts_of (fs : list fclause) : list (list eqc) :=
    concat (map (fun f => match and_parts f with Some p => [p] | None => [] end) fs).

  Lemma parts_In fs p : In p (parts_of fs) <-> In (FAnd (map eqc_clause p)) fs.
  Proof.
    unfold parts_of. rewrite in_concat. split.
    - intros (x & Hx & Hp). apply in_map_iff in Hx. destruct Hx as (f & <- & Hf).
      destruct (and_parts f) as [q|] eqn:Ef; [|contradiction]. destruct Hp as [->|[]].
      destruct f as [| | |cs]; try discriminate. simpl in Ef. apply all_eqc_map in Ef. subst. exact Hf.
    - intros H. exists [p]. split; [|left; reflexivity]. apply in_map_iff. exists (FAnd (map eqc_clause p)).
      split; [|exact H]. simpl. assert (Q : all_eqc (map eqc_clause p) = Some p).
      { clear H. induction p as [|[[h v] vv] p IH]; simpl; [reflexivity|]. rewrite IH. reflexivity. }
      rewrite Q. reflexivity.
  Qed.

  Lemma optimized_unfold io fs : optimized io fs =
    bind (foldM group_step (map (py_sorted (fun a b => Nat.ltb (idx_of io (eqc_name a)) (idx_of io (eqc_name b))))
                      (parts_of fs)) []) (fun gs => bind (mapM group_clause gs) (fun merged =>
      Ok (filter (fun f => match and_parts f with Some _ => false | None => true end) fs ++ merged))).
  Proof. reflexivity. Qed.

  Lemma optimized_spec io fs hs :
    NoDup (map hp_name hs) -> Forall forb_built fs -> (forall f, In f fs -> forb_refs hs f) -> ~ In (FAnd []) fs ->
    exists fast, optimized io fs = Ok fast /\
      (forall io' v, (exists f, In f fast /\ fholds io' v f) <-> (exists f, In f fs /\ fholds io' v f)) /\
      (forall f, In f fast -> In f fs \/ exists cs, f = FAnd cs /\ forall io' v, exists b, forb_vec io' v f = Ok b) /\
      (forall f, In f fs -> In f fast \/ forall io' v, exists b, forb_vec io' v f = Ok b).
  Proof.
    intros ND HB HR HN. rewrite optimized_unfold.
    set (srt := py_sorted _). set (P := fun c : eqc => eqc_good c /\ In (fst (fst c)) hs).
    assert (HP : forall p, In p (map srt (parts_of fs)) -> p <> [] /\ forall c, In c p -> P c).
    { intros p Hp. apply in_map_iff in Hp. destruct Hp as (q & <- & Hq). apply parts_In in Hq. split.
      - intros Hnil. apply HN. assert (Hl := py_sorted_length (fun a b => Nat.ltb (idx_of io (eqc_name a)) (idx_of io (eqc_name b))) q).
        fold srt in Hl. rewrite Hnil in Hl. destruct q; [exact Hq|discriminate].
      - intros c Hc. apply py_sorted_In in Hc. rewrite Forall_forall in HB. specialize (HB _ Hq).
        apply forb_built_good in HB. inversion HB as [| | |cs Hall]; subst.
        assert (Hcc := Hall (eqc_clause c) (in_map _ _ _ Hc)). split.
        + destruct c as [[h v] vv]. unfold eqc_clause in Hcc. simpl in Hcc. inversion Hcc; subst. split; assumption.
        + apply (HR _ Hq). unfold forb_hps.
          assert (Q : fdlcs (FAnd (map eqc_clause q)) = map eqc_clause q).
          { clear. simpl. rewrite map_map. induction q as [|x q IH]; [reflexivity|]. cbn [map concat]. rewrite IH. reflexivity. }
          rewrite Q, map_map. apply in_concat. exists [fst (fst c)].
          split; [|left; reflexivity]. apply in_map_iff. exists c. split; [reflexivity|exact Hc]. }
    destruct (group_fold P _ HP [] (Forall_nil _) (Forall_nil _)) as (gs & Hgs & G1 & G2 & G3).
    rewrite Hgs. cbn [bind].
    assert (Hc : forall g, In g gs -> exists f, group_clause g = Ok f /\ forall io v, forb_vec io v f = Ok (group_sat io v g)).
    { intros g Hg. rewrite Forall_forall in G1, G2. apply (group_clause_spec P).
      - intros c [Hc _]. exact Hc.
      - intros c c' [_ H1] [_ H2] Hn. unfold eqc_name in Hn.
        clear -ND H1 H2 Hn. revert H1 H2 Hn. generalize (fst (fst c)) (fst (fst c')). intros a b Ha Hb Hn.
        induction hs as [|x l IH]; [contradiction|]. simpl in ND. inversion ND as [|? ? Hx ND']; subst.
        destruct Ha as [->|Ha], Hb as [->|Hb]; [reflexivity| | |auto].
        + exfalso. apply Hx. rewrite Hn. apply in_map. exact Hb.
        + exfalso. apply Hx. rewrite <- Hn. apply in_map. exact Ha.
      - auto.
      - auto. }
    destruct (mapM_total group_clause gs) as (merged & Hm).
    { intros g Hg. destruct (Hc g Hg) as (f & Hf & _). eauto. }
    rewrite Hm. cbn [bind]. apply mapM_ok in Hm.
    assert (HM : forall io' v, (exists f, In f merged /\ fholds io' v f) <-> existsb (group_sat io' v) gs = true).
    { intros io' v. rewrite existsb_exists. clear -Hm Hc. split.
      - intros (f & Hf & Hh). induction Hm as [|g f' gs merged Hgf Hm IH]; [contradiction|]. destruct Hf as [->|Hf].
        + destruct (Hc g (or_introl eq_refl)) as (f'' & Hf'' & Hv). rewrite Hgf in Hf''. inversion Hf''; subst.
          exists g. split; [left; reflexivity|]. unfold fholds in Hh. rewrite Hv in Hh. inversion Hh. reflexivity.
        + destruct IH as (g' & Hg' & Hs'); [intros; apply Hc; right; assumption|exact Hf|]. exists g'. split; [right; exact Hg'|exact Hs'].
      - intros (g & Hg & Hs). induction Hm as [|g' f' gs merged Hgf Hm IH]; [contradiction|]. destruct Hg as [->|Hg].
        + destruct (Hc g (or_introl eq_refl)) as (f'' & Hf'' & Hv). rewrite Hgf in Hf''. inversion Hf''; subst.
          exists f''. split; [left; reflexivity|]. unfold fholds. rewrite Hv, Hs. reflexivity.
        + destruct IH as (f & Hf & Hh); [intros; apply Hc; right; assumption|exact Hg|]. exists f. split; [right; exact Hf|exact Hh]. }
    eexists. split; [reflexivity|]. split; [|split].
    - intros io' v.
      assert (HP2 : existsb (group_sat io' v) gs = true <-> exists p, In p (parts_of fs) /\ forallb (eqc_sat io' v) p = true).
      { rewrite G3. simpl. rewrite orb_false_r, existsb_map, existsb_exists. 
        assert (Q : forall p, forallb (eqc_sat io' v) (srt p) = forallb (eqc_sat io' v) p)
          by (intros p; apply forallb_perm, py_sorted_perm).
        split; intros (p & H1 & H2); exists p; [rewrite Q in H2|rewrite Q]; auto. }
      split.
      + intros (f & Hf & Hh). rewrite in_app_iff in Hf. destruct Hf as [Hf|Hf].
        * apply filter_In in Hf. exists f. split; [apply Hf|exact Hh].
        * assert (Hs := proj1 (HM io' v) (ex_intro _ f (conj Hf Hh))). apply HP2 in Hs. destruct Hs as (p & Hp & Hs).
          apply parts_In in Hp. exists (FAnd (map eqc_clause p)). split; [exact Hp|]. unfold fholds. rewrite and_eqc_vec, Hs. reflexivity.
      + intros (f & Hf & Hh). destruct (and_parts f) as [p|] eqn:Ef.
        * destruct f as [| | |cs]; try discriminate. simpl in Ef. apply all_eqc_map in Ef. subst cs.
          unfold fholds in Hh. rewrite and_eqc_vec in Hh. inversion Hh as [Hh'].
          assert (Hs : existsb (group_sat io' v) gs = true).
          { apply HP2. exists p. split; [apply parts_In; exact Hf|exact Hh']. }
          apply HM in Hs. destruct Hs as (f & Hf2 & Hh2). exists f. split; [apply in_or_app; right; exact Hf2|exact Hh2].
        * exists f. split; [|exact Hh]. apply in_or_app. left. apply filter_In. split; [exact Hf|]. rewrite Ef. reflexivity.
    - intros f Hf. rewrite in_app_iff in Hf. destruct Hf as [Hf|Hf].
      + left. apply filter_In in Hf. apply Hf.
      + right. clear -Hm Hc Hf. induction Hm as [|g' f' gs merged Hgf Hm IH]; [contradiction|]. destruct Hf as [->|Hf].
        * destruct (Hc g' (or_introl eq_refl)) as (f'' & Hf'' & Hv). rewrite Hgf in Hf''. inversion Hf''; subst f''.
          assert (Hsh : exists cs, f = FAnd cs).
          { unfold group_clause in Hgf. destruct (snd g') as [|l [|l' ls]]; [discriminate|inversion Hgf; eauto|].
            destruct (mk_fin _ _); [inversion Hgf; eauto|discriminate]. }
          destruct Hsh as (cs & ->). exists cs. split; [reflexivity|]. eauto.
        * apply IH; [intros; apply Hc; right; assumption|exact Hf].
    - intros f Hf. destruct (and_parts f) as [p|] eqn:Ef.
      + right. intros io' v. destruct f as [| | |cs]; try discriminate. simpl in Ef. apply all_eqc_map in Ef. subst cs.
        rewrite and_eqc_vec. eauto.
      + left. apply in_or_app. left. apply filter_In. split; [exact Hf|]. rewrite Ef. reflexivity.
  Qed.

  (** an empty conjunction cannot be merged *)
  Lemma group_fold_nil ps : In [] ps -> forall gs, exists e, foldM group_step ps gs = Err e.
  Proof.
    induction ps as [|p ps IH]; intros H gs; [contradiction|]. rewrite foldM_cons.
    destruct H as [->|H]; [simpl; eauto|]. destruct (group_step gs p) as [gs'|e]; cbn [bind]; eauto.
  Qed.
  Lemma optimized_nil io fs fast : optimized io fs = Ok fast -> ~ In (FAnd []) fs.
  Proof.
    intros H Hin. rewrite optimized_unfold in H. assert (Hp : In [] (parts_of fs)) by (apply parts_In; exact Hin).
    apply (in_map (py_sorted (fun a b => Nat.ltb (idx_of io (eqc_name a)) (idx_of io (eqc_name b))))) in Hp.
    destruct (group_fold_nil _ Hp []) as (e & He). rewrite He in H. discriminate.
  Qed.
End Forbs.
