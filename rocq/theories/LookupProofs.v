(** * The table of clauses per hyperparameter (forbidden_lookup) *)
From Coq Require Import String List ZArith QArith Bool Lia Permutation Relations.
From Verif Require Import Base ListFacts Numeric HP HPProofs Cond Forb EqFacts Dag DagCycle DagProofs Space
  CommitProofs Spec SpaceProofs CnodeProofs ForbProofs EvalProofs ForbEval.
Import ListNotations.
Open Scope nat_scope.

Section Lookup.
  Context {E : Env} {L : EnvLaws E}.

  (** ** Merging keeps the hyperparameters of the clauses *)
  Definition has (k : string) (l : list eqc) : bool := existsb (fun c => String.eqb k (eqc_name c)) l.
  Definition ghas (k : string) (g : group) : bool := (has k (fst g) || has k (snd g))%bool.

  Lemma list_key_has k a : forall b, list_eqb key_part_eqb a b = true -> has k a = has k b.
  Proof.
    induction a as [|x a IH]; intros [|y b]; simpl; try discriminate; [reflexivity|].
    rewrite andb_true_iff. intros [H1 H2]. unfold key_part_eqb in H1. apply andb_true_iff in H1.
    destruct H1 as [H1 _]. apply String.eqb_eq in H1. rewrite H1, (IH _ H2). reflexivity.
  Qed.

  Lemma add_group_has k io v fi la gs : Forall group_ok gs ->
    existsb (fun g => group_sat io v g && ghas k g)%bool (add_group fi la gs) =
    ((forallb (eqc_sat io v) fi && eqc_sat io v la && has k (fi ++ [la])) ||
     existsb (fun g => group_sat io v g && ghas k g) gs)%bool.
  Proof.
    induction gs as [|g gs IH]; simpl; intros H.
    - unfold group_sat, ghas. simpl. unfold has. rewrite existsb_app. simpl. rewrite !orb_false_r. reflexivity.
    - inversion H as [|? ? Hg Hgs]; subst. specialize (IH Hgs).
      destruct (group_matches fi la g) eqn:Em; simpl.
      + unfold group_matches in Em. apply andb_true_iff in Em. destruct Em as [Em1 Em2].
        destruct Hg as (l0 & rest & Hl0 & Hall). rewrite Hl0 in Em1. apply String.eqb_eq in Em1.
        assert (H1 : has k (fi ++ [la]) = ghas k g).
        { unfold ghas, has. rewrite existsb_app. fold (has k fi). rewrite (list_key_has k _ _ Em2). fold (has k (fst g)). f_equal.
          simpl. rewrite orb_false_r, Em1. rewrite Hl0. simpl.
          assert (Q : forall l, In l rest -> eqc_name l = eqc_name l0) by (intros l Hl; apply Hall; rewrite Hl0; right; exact Hl).
          clear -Q. destruct (k =? eqc_name l0)%string eqn:Ek; [reflexivity|]. simpl. symmetry.
          induction rest as [|l rest IH]; [reflexivity|]. simpl. rewrite (Q l) by (left; reflexivity). rewrite Ek. apply IH.
          intros; apply Q; right; assumption. }
        assert (H2 : ghas k (fst g, snd g ++ [la]) = ghas k g).
        { rewrite <- H1. unfold ghas, has. simpl. rewrite !existsb_app. fold (has k fi). rewrite (list_key_has k _ _ Em2).
          fold (has k (fst g)). simpl. rewrite orb_false_r. rewrite Em1, Hl0. simpl.
          assert (Q : forall l, In l rest -> eqc_name l = eqc_name l0) by (intros l Hl; apply Hall; rewrite Hl0; right; exact Hl).
          destruct (k =? eqc_name l0)%string eqn:Ek; [simpl; rewrite ?orb_true_r; reflexivity|]. simpl.
          f_equal. rewrite orb_false_r. clear -Q Ek. induction rest as [|l rest IH]; [reflexivity|]. simpl.
          rewrite (Q l) by (left; reflexivity). rewrite Ek. apply IH. intros; apply Q; right; assumption. }
        rewrite H1, H2. unfold group_sat at 1 3. simpl. rewrite existsb_app. simpl. rewrite (list_key_sat io v _ _ Em2).
        destruct (forallb (eqc_sat io v) (fst g)), (existsb (eqc_sat io v) (snd g)), (eqc_sat io v la), (ghas k g),
            (existsb (fun g0 => group_sat io v g0 && ghas k g0)%bool gs); reflexivity.
      + rewrite IH.
        destruct (group_sat io v g && ghas k g)%bool, (existsb (fun g0 => group_sat io v g0 && ghas k g0)%bool gs),
          (forallb (eqc_sat io v) fi && eqc_sat io v la && has k (fi ++ [la]))%bool; reflexivity.
  Qed.

  Lemma group_fold_has k ps : (forall p, In p ps -> p <> []) ->
    forall gs gs', Forall group_ok gs -> foldM group_step ps gs = Ok gs' -> Forall group_ok gs' /\
      forall io v, existsb (fun g => group_sat io v g && ghas k g)%bool gs' =
        (existsb (fun p => forallb (eqc_sat io v) p && has k p) ps || existsb (fun g => group_sat io v g && ghas k g) gs)%bool.
  Proof.
    induction ps as [|p ps IH]; intros Hne gs gs' Hok H.
    - simpl in H. injection H as <-. auto.
    - assert (Hp := Hne p (or_introl eq_refl)). rewrite foldM_cons in H. unfold group_step at 1 in H. pose proof (split_last_spec p) as Hs.
      destruct (split_last p) as [[fi la]|]; [|congruence]. cbn [bind] in H.
      assert (A1 : Forall group_ok (add_group fi la gs)) by (apply (add_group_sat [] []); exact Hok).
      destruct (IH (fun q Hq => Hne q (or_intror Hq)) _ _ A1 H) as [H1 H2]. split; [exact H1|].
      intros io v. rewrite H2, (add_group_has k io v fi la gs Hok). simpl. rewrite <- Hs, Hs, forallb_app. simpl. rewrite andb_true_r.
      destruct (existsb (fun p0 => forallb (eqc_sat io v) p0 && has k p0)%bool ps),
        (forallb (eqc_sat io v) fi && eqc_sat io v la && has k (fi ++ [la]))%bool; reflexivity.
  Qed.

  Lemma eqc_names q : forb_names (FAnd (map eqc_clause q)) = map eqc_name q.
  Proof.
    unfold forb_names, forb_hps.
    assert (Q : fdlcs (FAnd (map eqc_clause q)) = map eqc_clause q).
    { simpl. rewrite map_map. induction q as [|x q IH]; [reflexivity|]. cbn [map concat]. rewrite IH. reflexivity. }
    rewrite Q, map_map. induction q as [|x q IH]; [reflexivity|]. simpl. f_equal. apply IH.
    simpl in Q. injection Q as Q. simpl. exact Q.
  Qed.

  Lemma has_iff k l : has k l = true <-> In k (map eqc_name l).
  Proof.
    unfold has. rewrite existsb_exists, in_map_iff. split.
    - intros (c & H1 & H2). apply String.eqb_eq in H2. eauto.
    - intros (c & H1 & H2). exists c. split; [exact H2|]. apply String.eqb_eq. auto.
  Qed.

  Lemma forb_names_and cs n : In n (forb_names (FAnd cs)) <-> exists c, In c cs /\ In n (forb_names c).
  Proof.
    unfold forb_names, forb_hps. simpl. split.
    - intros H. apply in_map_iff in H. destruct H as (h & Hn & H). apply in_concat in H. destruct H as (x & Hx & H).
      apply in_map_iff in Hx. destruct Hx as (l & <- & Hl). apply in_concat in Hl. destruct Hl as (y & Hy & Hl).
      apply in_map_iff in Hy. destruct Hy as (c & <- & Hc). exists c. split; [exact Hc|]. apply in_map_iff. exists h.
      split; [exact Hn|]. apply in_concat. exists (leaf_hps l). split; [apply in_map; exact Hl|exact H].
    - intros (c & Hc & H). apply in_map_iff in H. destruct H as (h & Hn & H). apply in_map_iff. exists h. split; [exact Hn|].
      apply in_concat in H. destruct H as (x & Hx & H). apply in_map_iff in Hx. destruct Hx as (l & <- & Hl).
      apply in_concat. exists (leaf_hps l). split; [|exact H]. apply in_map. apply in_concat. exists (fdlcs c).
      split; [apply in_map; exact Hc|exact Hl].
  Qed.

  Lemma group_clause_names k g f : group_ok g -> group_clause g = Ok f ->
    (In k (forb_names f) <-> ghas k g = true).
  Proof.
    intros (l0 & rest & Hl & Hn) H. unfold group_clause in H. rewrite Hl in H. unfold ghas. rewrite orb_true_iff, !has_iff.
    assert (Q : In k (map eqc_name (snd g)) <-> k = eqc_name l0).
    { rewrite in_map_iff. split.
      - intros (c & Hc & Hi). rewrite <- Hc. apply Hn. exact Hi.
      - intros ->. exists l0. split; [reflexivity|]. rewrite Hl. left. reflexivity. }
    rewrite Q. destruct rest as [|l1 rest].
    - injection H as <-. change [eqc_clause l0] with (map eqc_clause [l0]). rewrite <- map_app, eqc_names, map_app, in_app_iff. simpl.
      split; intros [K|K]; auto. destruct K as [K|[]]; auto.
    - destruct (mk_fin (fst (fst l0)) (map (fun c => snd (fst c)) (l0 :: l1 :: rest))) as [f0|] eqn:Ef; [|discriminate].
      cbn [bind] in H. injection H as <-. unfold mk_fin in Ef.
      destruct (forallb _ _); [|discriminate]. destruct (mapM _ _) as [vv|]; [|discriminate]. cbn [bind] in Ef. injection Ef as <-.
      rewrite forb_names_and. split.
      + intros (c & Hc & K). rewrite in_app_iff in Hc. destruct Hc as [Hc|[<-|[]]].
        * left. apply in_map_iff in Hc. destruct Hc as (e & <- & He). destruct K as [<-|[]]. apply in_map_iff. exists e. split; [reflexivity|exact He].
        * right. destruct K as [<-|[]]. reflexivity.
      + intros [K| ->].
        * apply in_map_iff in K. destruct K as (e & <- & He). exists (eqc_clause e). split; [apply in_or_app; left; apply in_map; exact He|].
          left. reflexivity.
        * eexists. split; [apply in_or_app; right; left; reflexivity|]. left. reflexivity.
  Qed.

  (** the merged list mentions the same hyperparameters in violated clauses *)
  Lemma optimized_names io fs hs fast k :
    NoDup (map hp_name hs) -> Forall forb_built fs -> (forall f, In f fs -> forb_refs hs f) ->
    optimized io fs = Ok fast ->
    forall io' v, (exists f, In f fast /\ In k (forb_names f) /\ fholds io' v f) <->
                  (exists f, In f fs /\ In k (forb_names f) /\ fholds io' v f).
  Proof.
    intros ND HB HR HF io' v. assert (HN := optimized_nil _ _ _ HF). rewrite optimized_unfold in HF.
    set (srt := py_sorted (fun a b => Nat.ltb (idx_of io (eqc_name a)) (idx_of io (eqc_name b)))) in HF.
    set (P := fun c : eqc => eqc_good c /\ In (fst (fst c)) hs).
    assert (HP : forall p, In p (map srt (parts_of fs)) -> p <> [] /\ forall c, In c p -> P c).
    { intros p Hp. apply in_map_iff in Hp. destruct Hp as (q & <- & Hq). apply parts_In in Hq. split.
      - intros Hnil. apply HN. assert (Hl := py_sorted_length (fun a b => Nat.ltb (idx_of io (eqc_name a)) (idx_of io (eqc_name b))) q).
        fold srt in Hl. rewrite Hnil in Hl. destruct q; [exact Hq|discriminate].
      - intros c Hc. apply py_sorted_In in Hc. rewrite Forall_forall in HB. specialize (HB _ Hq).
        apply forb_built_good in HB. inversion HB as [| | |cs Hall]; subst.
        assert (Hcc := Hall (eqc_clause c) (in_map _ _ _ Hc)). split.
        + destruct c as [[h w] vv]. unfold eqc_clause in Hcc. simpl in Hcc. inversion Hcc; subst. split; assumption.
        + apply (HR _ Hq). unfold forb_hps.
          assert (Q : fdlcs (FAnd (map eqc_clause q)) = map eqc_clause q).
          { clear. simpl. rewrite map_map. induction q as [|x q IH]; [reflexivity|]. cbn [map concat]. rewrite IH. reflexivity. }
          rewrite Q, map_map. apply in_concat. exists [fst (fst c)].
          split; [|left; reflexivity]. apply in_map_iff. exists c. split; [reflexivity|exact Hc]. }
    destruct (foldM group_step (map srt (parts_of fs)) []) as [gs|] eqn:Hgs; [|discriminate]. cbn [bind] in HF.
    destruct (mapM group_clause gs) as [merged|] eqn:Hm; [|discriminate]. cbn [bind] in HF. injection HF as <-.
    destruct (group_fold_has k _ (fun p Hp => proj1 (HP p Hp)) _ _ (Forall_nil _) Hgs) as [G1 G3]. specialize (G3 io' v).
    destruct (group_fold P _ HP [] (Forall_nil _) (Forall_nil _)) as (gs2 & Hgs2 & _ & G2 & _).
    assert (gs2 = gs) by congruence. subst gs2.
    simpl in G3. rewrite orb_false_r, existsb_map in G3.
    assert (Q : forall p, forallb (eqc_sat io' v) (srt p) = forallb (eqc_sat io' v) p)
      by (intros p; apply forallb_perm, py_sorted_perm).
    assert (Q' : forall p, has k (srt p) = has k p).
    { intros p. apply eq_true_iff_eq. rewrite !has_iff. split; apply Permutation_in, Permutation_map.
      - apply py_sorted_perm.
      - symmetry. apply py_sorted_perm. }
    assert (Hc : forall g f, In g gs -> group_clause g = Ok f -> forb_vec io' v f = Ok (group_sat io' v g)).
    { intros g f Hg Hgf. rewrite Forall_forall in G1, G2. destruct (group_clause_spec P g) as (f' & H1 & H2); auto.
      - intros c [Hc _]. exact Hc.
      - intros c c' [_ H1] [_ H2] Hn. unfold eqc_name in Hn. apply (same_hp hs); assumption.
      - rewrite Hgf in H1. injection H1 as <-. apply H2. }
    apply mapM_ok in Hm.
    assert (HM : (exists f, In f merged /\ In k (forb_names f) /\ fholds io' v f) <->
                 existsb (fun g => group_sat io' v g && ghas k g)%bool gs = true).
    { rewrite existsb_exists. rewrite Forall_forall in G1. clear -Hm Hc G1. split.
      - intros (f & Hf & Hk & Hh). destruct (Forall2_in_r _ _ _ _ Hm Hf) as (g & Hg & Hgf).
        exists g. split; [exact Hg|]. unfold fholds in Hh. rewrite (Hc g f Hg Hgf) in Hh. injection Hh as Hh. rewrite Hh.
        apply (group_clause_names k g f (G1 g Hg) Hgf). exact Hk.
      - intros (g & Hg & Hs). apply andb_true_iff in Hs. destruct Hs as [S1 S2].
        destruct (Forall2_in_l _ _ _ _ Hm Hg) as (f & Hf & Hgf).
        exists f. split; [exact Hf|]. split; [apply (group_clause_names k g f (G1 g Hg) Hgf); exact S2|].
        unfold fholds. rewrite (Hc g f Hg Hgf), S1. reflexivity. }
    assert (HP2 : existsb (fun g => group_sat io' v g && ghas k g)%bool gs = true <->
      exists p, In p (parts_of fs) /\ forallb (eqc_sat io' v) p = true /\ In k (map eqc_name p)).
    { rewrite G3, existsb_exists. split; intros (p & H1 & H2).
      - rewrite Q, Q', andb_true_iff, has_iff in H2. exists p. tauto.
      - exists p. rewrite Q, Q', andb_true_iff, has_iff. tauto. }
    split.
    - intros (f & Hf & Hk & Hh). rewrite in_app_iff in Hf. destruct Hf as [Hf|Hf].
      + apply filter_In in Hf. exists f. split; [apply Hf|auto].
      + assert (Hs := proj1 HM (ex_intro _ f (conj Hf (conj Hk Hh)))). apply HP2 in Hs. destruct Hs as (p & Hp & Hs & Hkp).
        apply parts_In in Hp. exists (FAnd (map eqc_clause p)). split; [exact Hp|]. rewrite eqc_names. split; [exact Hkp|].
        unfold fholds. rewrite and_eqc_vec, Hs. reflexivity.
    - intros (f & Hf & Hk & Hh). destruct (and_parts f) as [p|] eqn:Ef.
      + destruct f as [| | |cs]; try discriminate. simpl in Ef. apply all_eqc_map in Ef. subst cs.
        unfold fholds in Hh. rewrite and_eqc_vec in Hh. injection Hh as Hh. rewrite eqc_names in Hk.
        destruct (proj2 HM) as (f & Hf2 & Hh2).
        { apply HP2. exists p. split; [apply parts_In; exact Hf|auto]. }
        exists f. split; [apply in_or_app; right; exact Hf2|exact Hh2].
      + exists f. split; [|auto]. apply in_or_app. left. apply filter_In. split; [exact Hf|]. rewrite Ef. reflexivity.
  Qed.

  (** ** The table *)
  Definition looked_up (k : string) (d : list (string * list fclause)) : list fclause :=
    match assoc k d with Some l => l | None => [] end.

  Lemma assoc_append_In k n (f x : fclause) d :
    In x (looked_up k (assoc_append n f d)) <-> In x (looked_up k d) \/ (k = n /\ x = f).
  Proof.
    unfold assoc_append, looked_up. destruct (assoc n d) as [l|] eqn:En.
    - destruct (string_dec k n) as [->|Hk].
      + rewrite assoc_set_same, En, in_app_iff. simpl. split; intros [H|H]; auto.
        * destruct H as [H|[]]; auto.
        * destruct H as [_ ->]. auto.
      + rewrite assoc_set_other by exact Hk. split; [auto|]. intros [H|[H _]]; [exact H|congruence].
    - rewrite assoc_app. destruct (string_dec k n) as [->|Hk].
      + rewrite En. simpl. rewrite String.eqb_refl. simpl. split; intros [H|H]; auto; try contradiction.
        destruct H as [_ ->]. auto.
      + destruct (assoc k d) as [l|]; [split; [auto|intros [H|[H _]]; [exact H|congruence]]|].
        simpl. apply String.eqb_neq in Hk. rewrite Hk. apply String.eqb_neq in Hk. split; [intros []|]. intros [[]|[H _]]. congruence.
  Qed.

  Lemma lookup_names_In f n : In n (lookup_names f) <-> In n (forb_names f).
  Proof. destruct f; simpl; try tauto. apply nub_In. Qed.

  Lemma forbidden_lookup_In fast k x : In x (looked_up k (forbidden_lookup fast)) <-> In x fast /\ In k (forb_names x).
  Proof.
    unfold forbidden_lookup.
    assert (G : forall l d, In x (looked_up k (fold_left (fun d f => fold_left (fun d n => assoc_append n f d) (lookup_names f) d) l d)) <->
      In x (looked_up k d) \/ (In x l /\ In k (forb_names x))).
    { induction l as [|f l IH]; intros d; simpl; [tauto|]. rewrite IH.
      assert (G : forall ns d, In x (looked_up k (fold_left (fun d n => assoc_append n f d) ns d)) <->
        In x (looked_up k d) \/ (x = f /\ In k ns)).
      { clear. induction ns as [|n ns IH]; intros d; simpl; [tauto|]. rewrite IH, assoc_append_In.
        split; [intros [[H|[-> ->]]|[-> H]]; auto|intros [H|[-> [->|H]]]; auto]. }
      rewrite G, lookup_names_In. split.
      - intros [[H|[-> H]]|H]; auto; right; tauto.
      - intros [H|[[<-|H] H']]; auto. }
    rewrite G. simpl. tauto.
  Qed.

  Section One.
    Context {s : space} {hs : list hp} {cs : list cond} {fs : list fclause} (O : space_ok s hs cs fs).

    Lemma so_forbs_built : Forall forb_built (d_forbs (s_dag s)).
    Proof.
      eapply Permutation_Forall; [symmetry; apply (so_forbs O)|]. apply (di_built _ _ _ _ (so_inv _ _ _ _ O)).
    Qed.

    (** looking up the clauses of [k] decides the declared clauses that mention it *)
    Lemma lookup_check io v k : (forall f, In f fs -> forb_refs hs f) ->
      (anyM (forb_vec io v) (looked_up k (d_flookup (s_dag s))) = Ok false <->
       forall f, In f fs -> In k (forb_names f) -> forb_vec io v f = Ok false).
    Proof.
      intros R. rewrite (cm_flookup _ (so_com _ _ _ _ O)), anyM_false. destruct (so_fast O R) as (_ & H2 & H3).
      assert (H1 : forall io v, (exists f, In f (d_fast (s_dag s)) /\ In k (forb_names f) /\ fholds io v f) <->
                          (exists f, In f fs /\ In k (forb_names f) /\ fholds io v f)).
      { intros io' v'. assert (P := so_forbs O). unfold forbidden_clauses in P.
        rewrite (optimized_names _ _ hs _ k (so_names_nodup O) so_forbs_built
           (fun f Hf => R f (Permutation_in _ P Hf)) (cm_fast _ (so_com _ _ _ _ O)) io' v').
        split; intros (f & Hf & K); exists f; (split; [|exact K]).
        - eapply Permutation_in; [exact P|exact Hf].
        - eapply Permutation_in; [symmetry; exact P|exact Hf]. }
      split.
      - intros H f Hf Hk. destruct (H3 f Hf) as [Hf'|Hb]; [apply H, forbidden_lookup_In; auto|].
        destruct (Hb io v) as ([] & Hv); [|exact Hv]. exfalso.
        destruct (proj2 (H1 io v)) as (g & Hg & Hkg & Hh); [exists f; repeat split; assumption|]. unfold fholds in Hh.
        rewrite H in Hh; [discriminate|]. apply forbidden_lookup_In. auto.
      - intros H f Hf. apply forbidden_lookup_In in Hf. destruct Hf as [Hf Hk].
        destruct (H2 f Hf) as [Hf'|(gs & -> & Hb)]; [auto|]. destruct (Hb io v) as ([] & Hv); [|exact Hv]. exfalso.
        destruct (proj1 (H1 io v)) as (g & Hg & Hkg & Hh); [exists (FAnd gs); repeat split; assumption|]. unfold fholds in Hh.
        rewrite (H g Hg Hkg) in Hh. discriminate.
    Qed.

    (** ... and reports a violation only if one of them is violated *)
    Lemma lookup_true io v k : (forall f, In f fs -> forb_refs hs f) ->
      anyM (forb_vec io v) (looked_up k (d_flookup (s_dag s))) = Ok true ->
      exists f, In f fs /\ In k (forb_names f) /\ forb_vec io v f = Ok true.
    Proof.
      intros R H. rewrite (cm_flookup _ (so_com _ _ _ _ O)) in H. apply anyM_true in H. destruct H as (f & Hf & Hv).
      apply forbidden_lookup_In in Hf. assert (P := so_forbs O). unfold forbidden_clauses in P.
      destruct (proj1 (optimized_names _ _ hs _ k (so_names_nodup O) so_forbs_built
           (fun f Hf => R f (Permutation_in _ P Hf)) (cm_fast _ (so_com _ _ _ _ O)) io v)) as (g & Hg & K).
      - exists f. tauto.
      - exists g. split; [eapply Permutation_in; [exact P|exact Hg]|exact K].
    Qed.

    Lemma lookup_total io v k : (forall f, In f fs -> forb_refs hs f) -> (forall f, In f fs -> exists b, forb_vec io v f = Ok b) ->
      exists b, anyM (forb_vec io v) (looked_up k (d_flookup (s_dag s))) = Ok b.
    Proof.
      intros R T. rewrite (cm_flookup _ (so_com _ _ _ _ O)). destruct (so_fast O R) as (_ & H2 & _).
      assert (G : forall l, (forall f, In f l -> exists b, forb_vec io v f = Ok b) -> exists b, anyM (forb_vec io v) l = Ok b).
      { induction l as [|f l IH]; intros Hl; simpl; [eauto|]. destruct (Hl f (or_introl eq_refl)) as ([] & ->); cbn [bind]; [eauto|].
        apply IH. intros; apply Hl; right; assumption. }
      apply G. intros f Hf. apply forbidden_lookup_In in Hf. destruct Hf as [Hf _].
      destruct (H2 f Hf) as [Hf'|(gs & -> & Hb)]; auto.
    Qed.
  End One.
End Lookup.
