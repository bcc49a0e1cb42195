(** * Objects with stored positions: what they evaluate to *)
From Coq Require Import String List ZArith QArith Bool Lia Permutation.
From Verif Require Import Base ListFacts Numeric HP HPProofs Cond Forb EqFacts Dag DagCycle DagProofs
  Space CommitProofs Spec SpaceProofs CnodeProofs ForbProofs AddProofs ForbEval MergeProofs PassProofs
  EvalProofs Properties_Eval Properties_Serial Alias.
Import ListNotations.
Open Scope string_scope.
Open Scope nat_scope.
Open Scope list_scope.

Lemma lcond_ind' (P : lcond -> Prop) :
  (forall i l, P (LLit i l)) -> (forall cs, Forall P cs -> P (LAnd cs)) -> (forall cs, Forall P cs -> P (LOr cs)) ->
  forall c, P c.
Proof.
  intros HL HA HO. fix IH 1. intros [i l|cs|cs]; [apply HL|apply HA|apply HO]; (induction cs; constructor; auto).
Qed.
Lemma lforb_ind' (P : lforb -> Prop) :
  (forall i f, P (LLeaf i f)) -> (forall cs, Forall P cs -> P (LConj cs)) -> (forall ps f, P (LOwn ps f)) ->
  forall f, P f.
Proof.
  intros HL HA HO. fix IH 1. intros [i f|cs|ps f]; [apply HL|apply HA|apply HO]. induction cs; constructor; auto.
Qed.

(** a clause that the user can make: the leaves are no conjunctions, and no clause is a space's own *)
Fixpoint plain (f : lforb) : Prop :=
  match f with
  | LLeaf _ (FAnd _) => False
  | LLeaf _ _ => True
  | LConj cs => fold_right (fun c P => plain c /\ P) True cs
  | LOwn _ _ => False
  end.
Lemma plain_conj cs : plain (LConj cs) <-> forall c, In c cs -> plain c.
Proof.
  cbn [plain]. induction cs as [|c cs IH]; simpl; [split; [intros _ c []|tauto]|]. rewrite IH. split.
  - intros [A B] x [<-|Hx]; auto.
  - intros A. split; [apply A; left; reflexivity|intros x Hx; apply A; right; exact Hx].
Qed.

Lemma insert_map {A B} (g : A -> B) (ltb : B -> B -> bool) x l :
  map g (insert_sorted (fun a b => ltb (g a) (g b)) x l) = insert_sorted ltb (g x) (map g l).
Proof. induction l as [|y l IH]; simpl; [reflexivity|]. destruct (ltb (g x) (g y)); simpl; [reflexivity|]. rewrite IH. reflexivity. Qed.
Lemma py_sorted_map {A B} (g : A -> B) (ltb : B -> B -> bool) l :
  map g (py_sorted (fun a b => ltb (g a) (g b)) l) = py_sorted ltb (map g l).
Proof.
  unfold py_sorted.
  assert (K : forall acc, map g (fold_left (fun acc x => insert_sorted (fun a b => ltb (g a) (g b)) x acc) l acc)
    = fold_left (fun acc x => insert_sorted ltb x acc) (map g l) (map g acc)).
  { induction l as [|x l IH]; intros acc; simpl; [reflexivity|]. rewrite IH, insert_map. reflexivity. }
  apply (K []).
Qed.
Lemma filter_map_erase {A B} (g : A -> B) (p : B -> bool) l : map g (filter (fun x => p (g x)) l) = filter p (map g l).
Proof. induction l as [|x l IH]; simpl; [reflexivity|]. destruct (p (g x)); simpl; rewrite IH; reflexivity. Qed.

Lemma split_last_map {A B} (g : A -> B) l : split_last (map g l) = option_map (fun p => (map g (fst p), g (snd p))) (split_last l).
Proof.
  induction l as [|x l IH]; simpl; [reflexivity|]. destruct l as [|y l]; [reflexivity|].
  cbn [map] in *. rewrite IH. destruct (split_last (y :: l)) as [[p q]|]; reflexivity.
Qed.
Lemma split_last_in {A} (l : list A) p q : split_last l = Some (p, q) -> forall x, In x (p ++ [q]) <-> In x l.
Proof.
  revert p q. induction l as [|x l IH]; intros p q; [discriminate|]. destruct l as [|y l].
  - intros H. inversion H; subst. simpl. tauto.
  - intros H. change (option_map (fun p => (x :: fst p, snd p)) (split_last (y :: l)) = Some (p, q)) in H.
    destruct (split_last (y :: l)) as [[p' q']|]; [|discriminate]. cbn in H. inversion H; subst. intros z.
    specialize (IH p' q eq_refl z). simpl in *. rewrite IH. tauto.
Qed.

Definition rmap {A B} (f : A -> B) (r : res A) : res B := match r with Ok a => Ok (f a) | Err e => Err e end.

(** ** The written positions *)
Section Place.
  Context (objs : nat -> list string).

  Lemma place_spec io ls : (forall e, In e ls -> snd e = objs (fst e)) -> forall H i,
    (In i (map fst ls) -> place io ls H i = Some (positions io (objs i))) /\ (~ In i (map fst ls) -> place io ls H i = H i).
  Proof.
    unfold place. induction ls as [|e ls IH] using rev_ind; intros F H i; simpl; [tauto|].
    rewrite fold_left_app, map_app. cbn [fold_left map]. destruct (Nat.eqb_spec i (fst e)) as [->|Hne].
    - split; [intros _; rewrite (F e); [reflexivity|apply in_or_app; right; left; reflexivity]|].
      intros N. exfalso. apply N. apply in_or_app. right. left. reflexivity.
    - destruct (IH (fun x Hx => F x (in_or_app _ _ _ (or_introl Hx))) H i) as [I1 I2]. split.
      + intros Hi. apply I1. apply in_app_or in Hi. destruct Hi as [Hi|[Hi|[]]]; [exact Hi|congruence].
      + intros N. apply I2. intros Hi. apply N. apply in_or_app. left. exact Hi.
  Qed.
End Place.

Section Objects.
  Context {E : Env}.

  Lemma vget_positions io ns v n : In n ns -> In n (map fst io) -> vget (positions io ns) v n = vget io v n.
  Proof.
    intros Hn Hio. unfold vget, positions. apply assoc_Some_key in Hio. destruct Hio as (i & Hi). rewrite Hi.
    assert (Q : assoc n (map (fun n => (n, idx_of io n)) ns) = Some (idx_of io n)).
    { clear Hi. induction ns as [|m ns IH]; [destruct Hn|]. simpl. destruct (String.eqb_spec n m) as [->|Hne]; [reflexivity|].
      apply IH. destruct Hn; [congruence|assumption]. }
    rewrite Q. unfold idx_of. rewrite Hi. reflexivity.
  Qed.

  Lemma forb_vec_io io io' v f : (forall p, In p (forb_names f) -> vget io v p = vget io' v p) -> forb_vec io v f = forb_vec io' v f.
  Proof.
    induction f as [h w ww|h ws wws|r a b|l IH] using fclause_ind'; intros H; simpl.
    - rewrite (H (hp_name h)); [reflexivity|left; reflexivity].
    - rewrite (H (hp_name h)); [reflexivity|left; reflexivity].
    - rewrite (H (hp_name a)), (H (hp_name b)); [reflexivity|right; left; reflexivity|left; reflexivity].
    - rewrite Forall_forall in IH. apply allM_ext. intros x Hx. apply IH; [exact Hx|]. intros p Hp. apply H.
      unfold forb_names in *. apply in_map_iff in Hp. destruct Hp as (h & <- & Hh). apply in_map. eapply forb_hps_and; eauto.
  Qed.

  (** the object and its parts store the positions that the index [io] gives them *)
  Definition stores (H : heap) (io : list (string * nat)) (e : nat * list string) : Prop :=
    H (fst e) = Some (positions io (snd e)) /\ forall n, In n (snd e) -> In n (map fst io).

  Lemma osat_stored H io v c : (forall e, In e (cleaves c) -> stores H io e) -> osat H v c = Ok (sat_vec io v (lerase c)).
  Proof.
    induction c as [i l|cs IH|cs IH] using lcond_ind'; intros S; cbn [osat lerase sat_vec].
    - destruct (S (i, [parent_name l]) (or_introl eq_refl)) as [Hi Hn]. cbn [fst snd] in *. rewrite Hi. unfold lit_vec.
      rewrite vget_positions; [reflexivity|left; reflexivity|apply Hn; left; reflexivity].
    - rewrite Forall_forall in IH. assert (Q : forall c, In c cs -> osat H v c = Ok (sat_vec io v (lerase c))).
      { intros c Hc. apply IH; [exact Hc|]. intros e He. apply S. cbn [cleaves]. apply in_concat. exists (cleaves c). split; [apply in_map; exact Hc|exact He]. }
      clear -Q. induction cs as [|c cs IHc]; [reflexivity|]. cbn [allM map forallb]. rewrite (Q c (or_introl eq_refl)). cbn [bind].
      destruct (sat_vec io v (lerase c)); [|reflexivity]. apply IHc. intros x Hx. apply Q. right. exact Hx.
    - rewrite Forall_forall in IH. assert (Q : forall c, In c cs -> osat H v c = Ok (sat_vec io v (lerase c))).
      { intros c Hc. apply IH; [exact Hc|]. intros e He. apply S. cbn [cleaves]. apply in_concat. exists (cleaves c). split; [apply in_map; exact Hc|exact He]. }
      clear -Q. induction cs as [|c cs IHc]; [reflexivity|]. cbn [anyM map existsb]. rewrite (Q c (or_introl eq_refl)). cbn [bind].
      destruct (sat_vec io v (lerase c)); [reflexivity|]. apply IHc. intros x Hx. apply Q. right. exact Hx.
  Qed.

  (** the same for clauses; a space's own clauses store positions as well *)
  Fixpoint fstored (H : heap) (io : list (string * nat)) (f : lforb) : Prop :=
    match f with
    | LLeaf i f => stores H io (i, forb_names f)
    | LConj cs => fold_right (fun c P => fstored H io c /\ P) True cs
    | LOwn ps f => ps = positions io (forb_names f) /\ forall n, In n (forb_names f) -> In n (map fst io)
    end.
  Lemma fstored_conj H io cs : fstored H io (LConj cs) <-> forall c, In c cs -> fstored H io c.
  Proof.
    cbn [fstored]. induction cs as [|c cs IH]; simpl; [split; [intros _ c []|tauto]|]. rewrite IH. split.
    - intros [A B] x [<-|Hx]; auto.
    - intros A. split; [apply A; left; reflexivity|intros x Hx; apply A; right; exact Hx].
  Qed.
  Lemma fstored_leaves H io f : plain f -> (forall e, In e (fleaves f) -> stores H io e) -> fstored H io f.
  Proof.
    induction f as [i f|cs IH|ps f] using lforb_ind'; intros P S.
    - cbn [fstored]. apply S. left. reflexivity.
    - apply fstored_conj. rewrite plain_conj in P. rewrite Forall_forall in IH. intros c Hc. apply IH; auto. intros e He. apply S.
      cbn [fleaves]. apply in_concat. exists (fleaves c). split; [apply in_map; exact Hc|exact He].
    - destruct P.
  Qed.
  Lemma oforb_stored H io v f : fstored H io f -> oforb H v f = forb_vec io v (ferase f).
  Proof.
    induction f as [i f|cs IH|ps f] using lforb_ind'; intros S; cbn [oforb ferase].
    - destruct S as [Hi Hn]. cbn [fst snd] in *. rewrite Hi. apply forb_vec_io. intros p Hp. apply vget_positions; auto.
    - rewrite fstored_conj in S. cbn [forb_vec]. rewrite Forall_forall in IH.
      assert (Q : forall c, In c cs -> oforb H v c = forb_vec io v (ferase c)) by (intros c Hc; auto). clear -Q.
      induction cs as [|c cs IHc]; [reflexivity|]. cbn [allM map]. rewrite (Q c (or_introl eq_refl)).
      destruct (forb_vec io v (ferase c)) as [[]|]; cbn [bind]; try reflexivity. apply IHc. intros x Hx. apply Q. right. exact Hx.
    - destruct S as [-> Hn]. apply forb_vec_io. intros p Hp. apply vget_positions; auto.
  Qed.

  (** ** Merging the objects is merging the clauses *)
  Lemma all_eqc_erase cs : (forall c, In c cs -> plain c) -> all_eqc (map ferase cs) = option_map (map snd) (lall_eqc cs).
  Proof.
    induction cs as [|c cs IH]; intros P; [reflexivity|].
    assert (I : all_eqc (map ferase cs) = option_map (map snd) (lall_eqc cs)) by (apply IH; intros x Hx; apply P; right; exact Hx).
    assert (Pc := P c (or_introl eq_refl)). cbn [map all_eqc lall_eqc].
    destruct c as [i [h v vv|h vs vvs|r a b|l]|l|ps f]; cbn [ferase]; try reflexivity; try contradiction.
    rewrite I. destruct (lall_eqc cs); reflexivity.
  Qed.
  Lemma and_parts_erase f : plain f -> and_parts (ferase f) = option_map (map snd) (land_parts f).
  Proof.
    destruct f as [i [h v vv|h vs vvs|r a b|l]|l|ps f]; intros P; try reflexivity; try contradiction.
    cbn [ferase and_parts land_parts]. apply all_eqc_erase. apply plain_conj, P.
  Qed.
  Lemma add_group_erase p q gs : map gerase (ladd_group p q gs) = add_group (map snd p) (snd q) (map gerase gs).
  Proof.
    induction gs as [|g gs IH]; [reflexivity|]. cbn [ladd_group map add_group].
    destruct (group_matches (map snd p) (snd q) (gerase g)).
    - cbn [map]. unfold gerase at 1. cbn [fst snd]. rewrite map_app. reflexivity.
    - cbn [map]. rewrite IH. reflexivity.
  Qed.
  Lemma eqc_clause_erase l : map ferase (map leqc_clause l) = map eqc_clause (map snd l).
  Proof. rewrite !map_map. reflexivity. Qed.
  Lemma group_clause_erase io g : group_clause (gerase g) = rmap ferase (lgroup_clause io g).
  Proof.
    destruct g as [p q]. unfold group_clause, lgroup_clause, gerase. cbn [fst snd]. destruct q as [|a [|b q]]; [reflexivity| |].
    - cbn [map rmap]. cbn [ferase]. rewrite map_app, eqc_clause_erase. reflexivity.
    - cbn [map]. rewrite !map_map. destruct (mk_fin _ _) as [f|e]; cbn [bind rmap]; [|reflexivity].
      cbn [ferase]. rewrite map_app, eqc_clause_erase, map_map. reflexivity.
  Qed.
  Lemma mapM_step {A B} (f : A -> res B) x l : mapM f (x :: l) = (y <- f x ;; ys <- mapM f l ;; Ok (y :: ys)).
  Proof. reflexivity. Qed.
  Lemma mapM_erase {A B C} (f : A -> res B) (g : B -> C) l : mapM (fun x => rmap g (f x)) l = rmap (map g) (mapM f l).
  Proof.
    induction l as [|x l IH]; [reflexivity|]. rewrite !mapM_step, IH. destruct (f x) as [y|e]; cbn [bind rmap]; [|reflexivity].
    destruct (mapM f l); reflexivity.
  Qed.

  Lemma optimized_erase io fs : (forall f, In f fs -> plain f) -> optimized io (map ferase fs) = rmap (map ferase) (loptimized io fs).
  Proof.
    intros P. unfold optimized, loptimized.
    assert (R : filter (fun f => match and_parts f with Some _ => false | None => true end) (map ferase fs)
      = map ferase (filter (fun f => match land_parts f with Some _ => false | None => true end) fs)).
    { clear -P. induction fs as [|f fs IH]; [reflexivity|]. cbn [map filter]. rewrite (and_parts_erase f (P f (or_introl eq_refl))).
      assert (I := IH (fun x Hx => P x (or_intror Hx))). rewrite I. destruct (land_parts f); reflexivity. }
    assert (S : concat (map (fun f => match and_parts f with Some p => [p] | None => [] end) (map ferase fs))
      = map (map snd) (concat (map (fun f => match land_parts f with Some p => [p] | None => [] end) fs))).
    { clear -P. induction fs as [|f fs IH]; [reflexivity|]. cbn [map concat]. rewrite (and_parts_erase f (P f (or_introl eq_refl))).
      assert (I := IH (fun x Hx => P x (or_intror Hx))). rewrite I, map_app. destruct (land_parts f); reflexivity. }
    rewrite R, S. clear R S. set (parts := concat (map (fun f => match land_parts f with Some p => [p] | None => [] end) fs)).
    rewrite map_map.
    set (lt := fun a b : eqc => Nat.ltb (idx_of io (eqc_name a)) (idx_of io (eqc_name b))).
    assert (T : map (fun x => py_sorted lt (map snd x)) parts
      = map (map (@snd nat eqc)) (map (py_sorted (fun a b => lt (snd a) (snd b))) parts)).
    { rewrite map_map. apply map_ext. intros x. symmetry. apply (py_sorted_map snd lt). }
    rewrite T. change (py_sorted (fun a b : nat * eqc => Nat.ltb (idx_of io (eqc_name (snd a))) (idx_of io (eqc_name (snd b)))))
      with (py_sorted (fun a b : leqc => lt (snd a) (snd b))).
    set (sorted := map (py_sorted (fun a b : leqc => lt (snd a) (snd b))) parts). clearbody sorted. clear T.
    assert (F : forall l acc, foldM (fun gs p => match split_last p with None => Err ValueError | Some (firsts, last) => Ok (add_group firsts last gs) end)
        (map (map snd) l) (map gerase acc)
      = rmap (map gerase) (foldM (fun gs p => match split_last p with None => Err ValueError | Some (firsts, last) => Ok (ladd_group firsts last gs) end) l acc)).
    { induction l as [|p l IH]; intros acc; [reflexivity|]. cbn [map]. rewrite !foldM_cons, split_last_map.
      destruct (split_last p) as [[a b]|]; cbn [option_map fst snd bind rmap]; [|reflexivity].
      rewrite <- add_group_erase. apply IH. }
    specialize (F sorted []). cbn [map] in F. rewrite F. clear F.
    destruct (foldM _ sorted []) as [gs|e]; cbn [rmap bind]; [|reflexivity].
    assert (M : mapM group_clause (map gerase gs) = rmap (map ferase) (mapM (lgroup_clause io) gs)).
    { rewrite <- mapM_erase. induction gs as [|g gs IH]; [reflexivity|]. cbn [map]. rewrite !mapM_step, (group_clause_erase io), IH. reflexivity. }
    rewrite M. destruct (mapM (lgroup_clause io) gs) as [l|e]; cbn [rmap bind]; [|reflexivity]. rewrite map_app. reflexivity.
  Qed.

  (** the merged clauses are made of stored leaves, and the space's own clauses store the positions *)
  Lemma loptimized_stored H io fs fast : (forall f, In f fs -> plain f /\ fstored H io f) -> loptimized io fs = Ok fast ->
    forall f, In f fast -> fstored H io f.
  Proof.
    intros P HL. unfold loptimized in HL.
    set (parts := concat (map (fun f => match land_parts f with Some p => [p] | None => [] end) fs)) in *.
    set (sorted := map (py_sorted _) parts) in HL.
    assert (Q : forall p, In p sorted -> forall c, In c p -> fstored H io (leqc_clause c)).
    { intros p Hp c Hc. unfold sorted in Hp. apply in_map_iff in Hp. destruct Hp as (p0 & <- & Hp). apply py_sorted_In in Hc.
      unfold parts in Hp. apply in_concat in Hp. destruct Hp as (l & Hl & Hp). apply in_map_iff in Hl. destruct Hl as (f & <- & Hf).
      destruct (land_parts f) as [q|] eqn:Eq; [|destruct Hp]. destruct Hp as [<-|[]].
      destruct f as [i f|cs|ps f]; try discriminate. cbn [land_parts] in Eq. destruct (P _ Hf) as [_ S]. rewrite fstored_conj in S.
      assert (K : forall cs q, lall_eqc cs = Some q -> In c q -> In (leqc_clause c) cs).
      { clear. induction cs as [|x cs IH]; intros q E; cbn in E; [inversion E; intros []|].
        destruct x as [i [h v vv| | |]| |]; try discriminate. destruct (lall_eqc cs) as [q'|]; [|discriminate]. cbn in E. inversion E; subst.
        intros [<-|Hc]; [left; reflexivity|right; eauto]. }
      apply S. eapply K; eauto. }
    destruct (foldM _ sorted []) as [gs|e] eqn:Eg; cbn [bind] in HL; [|discriminate].
    assert (G : forall g, In g gs -> (forall c, In c (fst g) -> fstored H io (leqc_clause c)) /\ (forall c, In c (snd g) -> fstored H io (leqc_clause c))).
    { clear HL. revert Eg Q. assert (A0 : forall g, In g (@nil lgroup) -> (forall c, In c (fst g) -> fstored H io (leqc_clause c)) /\ (forall c, In c (snd g) -> fstored H io (leqc_clause c))) by (intros g []).
      revert A0. generalize (@nil lgroup). induction sorted as [|p sorted IH]; intros acc A0 Eg Q.
      - cbn in Eg. inversion Eg; subst. exact A0.
      - rewrite foldM_cons in Eg. destruct (split_last p) as [[a b]|] eqn:Es; cbn [bind] in Eg; [|discriminate].
        refine (IH (ladd_group a b acc) _ Eg (fun q Hq => Q q (or_intror Hq))).
        assert (Ab : forall c, In c (a ++ [b]) -> fstored H io (leqc_clause c)).
        { intros c Hc. apply (split_last_in p a b Es) in Hc. eapply Q; [left; reflexivity|exact Hc]. }
        clear -A0 Ab. induction acc as [|g acc IH]; cbn [ladd_group].
        + intros g [<-|[]]. cbn [fst snd]. split; intros c Hc; apply Ab; apply in_or_app; [left; exact Hc|]. destruct Hc as [<-|[]]. right. left. reflexivity.
        + destruct (group_matches _ _ _).
          * intros x [<-|Hx]; [|apply A0; right; exact Hx]. cbn [fst snd]. destruct (A0 g (or_introl eq_refl)) as [G1 G2]. split; [exact G1|].
            intros c Hc. apply in_app_or in Hc. destruct Hc as [Hc|Hc]; [auto|]. apply Ab. apply in_or_app. right. exact Hc.
          * intros x [<-|Hx]; [apply A0; left; reflexivity|]. apply IH; [|exact Hx]. intros y Hy. apply A0. right. exact Hy. }
    destruct (mapM (lgroup_clause io) gs) as [merged|e] eqn:Em; cbn [bind] in HL; [|discriminate]. inversion HL; subst fast; clear HL.
    intros f Hf. apply in_app_or in Hf. destruct Hf as [Hf|Hf].
    - apply filter_In in Hf. apply P, Hf.
    - apply mapM_ok in Em. assert (Hm : exists g, In g gs /\ lgroup_clause io g = Ok f).
      { clear -Em Hf. induction Em as [|g y gs ys Hy _ IH]; [destruct Hf|]. destruct Hf as [->|Hf]; [exists g; split; [left; reflexivity|exact Hy]|].
        destruct (IH Hf) as (g' & Hg & Hq). exists g'. split; [right; exact Hg|exact Hq]. }
      destruct Hm as (g & Hg & Hc). destruct (G g Hg) as [G1 G2]. unfold lgroup_clause in Hc.
      destruct (snd g) as [|a [|b q]] eqn:Eq; [discriminate| |].
      + inversion Hc; subst. apply fstored_conj. intros x Hx. apply in_app_or in Hx. destruct Hx as [Hx|[<-|[]]].
        * apply in_map_iff in Hx. destruct Hx as (c & <- & Hx). auto.
        * apply G2. left. reflexivity.
      + destruct (mk_fin _ _) as [k|e] eqn:Ek; cbn [bind] in Hc; [|discriminate]. inversion Hc; subst. apply fstored_conj.
        intros x Hx. apply in_app_or in Hx. destruct Hx as [Hx|[<-|[]]].
        * apply in_map_iff in Hx. destruct Hx as (c & <- & Hx). auto.
        * cbn [fstored]. split; [reflexivity|]. unfold mk_fin in Ek. apply if_check in Ek. destruct Ek as [_ Ek].
          destruct (mapM _ _) as [vvs|]; cbn [bind] in Ek; [|discriminate]. inversion Ek; subst. destruct (G2 a (or_introl eq_refl)) as [_ Hn]. exact Hn.
  Qed.
End Objects.

(** ** A space and its objects *)
Section Update.
  Context {E : Env} {L : EnvLaws E}.
  (** [objs i] are the names that object [i] refers to *)
  Context (objs : nat -> list string).

  Record orep (o : ospace) (hs : list hp) (cs : list cond) (fs : list fclause) : Prop := {
    or_ok : space_ok (o_space o) hs cs fs;
    or_keys : NoDup (map fst (o_conds o));
    or_cond : forall n, option_map lerase (assoc n (o_conds o)) = condof (d_nodes (s_dag (o_space o))) n;
    or_uf : map ferase (o_uf o) = d_uforb (s_dag (o_space o));
    or_cf : map ferase (o_cf o) = d_cforb (s_dag (o_space o));
    or_fast : loptimized (index_of (o_space o)) (o_uf o ++ o_cf o) = Ok (o_fast o);
    or_plain : forall f, In f (o_uf o ++ o_cf o) -> plain f;
    or_fits : forall e, In e (held o) -> snd e = objs (fst e)
  }.

  Lemma condof_add d h d' n : dag_add d h = (d', Ok tt) -> condof (d_nodes d') n = condof (d_nodes d) n.
  Proof.
    unfold dag_add. destruct (assoc_mem (hp_name h) (d_nodes d)); [discriminate|]. intros H. inversion H; subst. simpl.
    unfold condof. rewrite assoc_app. destruct (assoc n (d_nodes d)); [reflexivity|]. simpl.
    destruct (String.eqb n (hp_name h)); reflexivity.
  Qed.
  Lemma run_add_facts hs : forall d d', run dag_add hs d = (d', Ok tt) ->
    (forall n, condof (d_nodes d') n = condof (d_nodes d) n) /\ d_uforb d' = d_uforb d /\ d_cforb d' = d_cforb d /\
    d_roots d' = d_roots d ++ map hp_name hs.
  Proof.
    induction hs as [|h hs IH]; intros d d' H; simpl in H.
    - inversion H; subst. rewrite app_nil_r. auto.
    - destruct (dag_add d h) as [d1 [[]|e]] eqn:E1; [|discriminate]. destruct (IH _ _ H) as (A & B & C & D).
      assert (E2 := E1). unfold dag_add in E2. destruct (assoc_mem (hp_name h) (d_nodes d)); [discriminate|]. inversion E2; subst d1; clear E2.
      split; [intros n; rewrite A; exact (condof_add d h _ n E1)|]. split; [exact B|]. split; [exact C|]. rewrite D. simpl.
      rewrite <- app_assoc. reflexivity.
  Qed.
  Lemma condof_addc d hs cs fs c d' child : dag_inv d hs cs fs -> cond_built c -> child_name c = Some child ->
    dag_add_condition d c = (d', Ok tt) -> forall n, condof (d_nodes d') n = if String.eqb n child then Some c else condof (d_nodes d) n.
  Proof.
    intros I C Hch H. unfold dag_add_condition in H.
    pose proof (add_condition_spec (d_nodes d) c child (di_graph _ _ _ _ I) (cond_built_wf c C) Hch) as O.
    destruct (add_condition (d_nodes d) c) as [ns' r]. inversion H; subst; clear H.
    inversion O as [| | | |ns'' Hc Hcompat Hps Hac G Hk Hh Hcd He]; subst. simpl. exact Hcd.
  Qed.
  Lemma run_cond_facts lcs : forall d d' hs cs fs m, dag_inv d hs cs fs -> Forall cond_built (map lerase lcs) ->
    (forall n, option_map lerase (assoc n m) = condof (d_nodes d) n) -> NoDup (map fst m) ->
    run dag_add_condition (map lerase lcs) d = (d', Ok tt) ->
    (forall n, option_map lerase (assoc n (fold_left put_cond lcs m)) = condof (d_nodes d') n) /\
    NoDup (map fst (fold_left put_cond lcs m)) /\
    d_uforb d' = d_uforb d /\ d_cforb d' = d_cforb d /\ d_roots d' = d_roots d.
  Proof.
    induction lcs as [|c lcs IH]; intros d d' hs cs fs m I B Hm ND H; simpl in H.
    - inversion H; subst. auto.
    - destruct (dag_add_condition d (lerase c)) as [d1 [[]|e]] eqn:E1; [|discriminate]. inversion B as [|? ? B1 B2]; subst.
      destruct (cond_built_child _ B1) as (child & Hch).
      assert (I1 := dag_add_condition_inv d hs cs fs (lerase c) d1 I B1 E1).
      assert (Hp : put_cond m c = assoc_set child c m).
      { unfold put_cond. unfold child_name in Hch. destruct (cond_child (lerase c)) as [h|]; [|discriminate]. inversion Hch. reflexivity. }
      destruct (IH d1 d' hs (cs ++ [lerase c]) fs (put_cond m c) I1 B2) as (A1 & A2 & A3 & A4 & A5); [| |exact H|].
      + intros n. rewrite Hp, (condof_addc _ _ _ _ _ _ _ I B1 Hch E1). destruct (String.eqb_spec n child) as [->|Hne].
        * rewrite assoc_set_same. reflexivity.
        * rewrite assoc_set_other by exact Hne. apply Hm.
      + rewrite Hp. apply assoc_set_NoDup. exact ND.
      + unfold dag_add_condition in E1. destruct (add_condition (d_nodes d) (lerase c)) as [ns r]. inversion E1; subst d1. simpl in *. auto.
  Qed.
  Lemma run_forb_facts lfs : forall d d' u c, map ferase u = d_uforb d -> map ferase c = d_cforb d ->
    run dag_add_forbidden (map ferase lfs) d = (d', Ok tt) ->
    map ferase (fst (fold_left (put_forb (d_roots d)) lfs (u, c))) = d_uforb d' /\
    map ferase (snd (fold_left (put_forb (d_roots d)) lfs (u, c))) = d_cforb d' /\
    d_nodes d' = d_nodes d /\ d_roots d' = d_roots d.
  Proof.
    induction lfs as [|f lfs IH]; intros d d' u c Hu Hc H; simpl in H.
    - inversion H; subst. auto.
    - destruct (dag_add_forbidden d (ferase f)) as [d1 [[]|e]] eqn:E1; [|discriminate].
      unfold dag_add_forbidden in E1. destruct (forallb _ _); [|discriminate]. cbn [fold_left]. unfold put_forb at 2 4.
      destruct (is_unconditional (d_roots d) (ferase f)); inversion E1; subst d1; clear E1; cbn [fst snd].
      + apply (IH (set_forbs (d_uforb d ++ [ferase f]) (d_cforb d) d) d' (u ++ [f]) c); [|exact Hc|exact H].
        rewrite map_app, Hu. reflexivity.
      + apply (IH (set_forbs (d_uforb d) (d_cforb d ++ [ferase f]) d) d' u (c ++ [f])); [exact Hu| |exact H].
        rewrite map_app, Hc. reflexivity.
  Qed.
  Lemma commit_forbs d d' : commit d = (d', Ok tt) ->
    d_uforb d' = filter (is_unconditional (d_roots d')) (py_sorted forb_ltb (d_forbs d)) /\
    d_cforb d' = filter (fun f => negb (is_unconditional (d_roots d') f)) (py_sorted forb_ltb (d_forbs d)).
  Proof.
    unfold commit. cbv zeta. destruct (optimized _ _) as [fast|e]; [|discriminate]. destruct (min_conds _ _ _ _) as [mc|e]; [|discriminate].
    destruct (change_lookup _ _ _) as [lk|e]; [|discriminate]. intros H. inversion H; subst. simpl. auto.
  Qed.

  Lemma in_held o e : In e (held o) <-> (exists f, In f (o_uf o ++ o_cf o) /\ In e (fleaves f)) \/
    (exists n c, In (n, c) (o_conds o) /\ In e (cleaves c)).
  Proof.
    unfold held. rewrite in_app_iff, !in_concat. split.
    - intros [(l & Hl & He)|(l & Hl & He)]; apply in_map_iff in Hl.
      + destruct Hl as (f & <- & Hf). left. eauto.
      + destruct Hl as ([n c] & <- & Hf). right. eauto.
    - intros [(f & Hf & He)|(n & c & Hc & He)].
      + left. exists (fleaves f). split; [apply in_map; exact Hf|exact He].
      + right. exists (cleaves c). split; [apply in_map_iff; exists (n, c); auto|exact He].
  Qed.
  Lemma put_forb_in roots lfs : forall u c f, In f (fst (fold_left (put_forb roots) lfs (u, c)) ++ snd (fold_left (put_forb roots) lfs (u, c))) ->
    In f (u ++ c) \/ In f lfs.
  Proof.
    induction lfs as [|g lfs IH]; intros u c f H; cbn [fold_left] in H; [left; exact H|].
    unfold put_forb in H at 2 4. cbn [fst snd] in H. destruct (is_unconditional roots (ferase g)).
    - apply IH in H. rewrite !in_app_iff in *. simpl in *. tauto.
    - apply IH in H. rewrite !in_app_iff in *. simpl in *. tauto.
  Qed.
  Lemma put_cond_in lcs : forall m n c, In (n, c) (fold_left put_cond lcs m) -> In (n, c) m \/ In c lcs.
  Proof.
    induction lcs as [|x lcs IH]; intros m n c H; cbn [fold_left] in H; [left; exact H|].
    apply IH in H. destruct H as [H|H]; [|right; right; exact H]. unfold put_cond in H.
    destruct (cond_child (lerase x)) as [h|]; [|left; exact H]. apply ChangeProofs.assoc_set_in in H. destruct H as [H|H]; [left; exact H|].
    inversion H; subst. right. left. reflexivity.
  Qed.

  (** what the added objects refer to *)
  Definition cfits (c : lcond) : Prop := forall e, In e (cleaves c) -> snd e = objs (fst e).
  Definition ffits (f : lforb) : Prop := plain f /\ forall e, In e (fleaves f) -> snd e = objs (fst e).

  Lemma oupdate_rep o hs cs fs hs' lcs lfs d : orep o hs cs fs ->
    Forall constructed hs' -> Forall cond_built (map lerase lcs) -> Forall forb_built (map ferase lfs) ->
    (forall c, In c lcs -> cfits c) -> (forall f, In f lfs -> ffits f) ->
    dag_update (s_dag (o_space o)) hs' (map lerase lcs) (map ferase lfs) = (d, Ok tt) ->
    exists o', oupdate o d hs' lcs lfs = Ok o' /\ o_space o' = mk_space d (length (d_nodes d)) /\
      orep o' (hs ++ hs') (cs ++ map lerase lcs) (fs ++ map ferase lfs).
  Proof.
    intros R A B C Fc Ff H. assert (Ok' := or_ok _ _ _ _ R).
    destruct (dag_update_inv _ _ _ _ _ _ _ _ (so_inv _ _ _ _ Ok') A B C H) as [I' Com].
    assert (SO : space_ok (mk_space d (length (d_nodes d))) (hs ++ hs') (cs ++ map lerase lcs) (fs ++ map ferase lfs)).
    { constructor; [exact I'|exact Com|reflexivity]. }
    unfold dag_update in H.
    destruct (run dag_add hs' (s_dag (o_space o))) as [d1 [[]|e]] eqn:E1; [|discriminate].
    destruct (run dag_add_condition (map lerase lcs) d1) as [d2 [[]|e]] eqn:E2; [|discriminate].
    destruct (run dag_add_forbidden (map ferase lfs) d2) as [d3 [[]|e]] eqn:E3; [|discriminate].
    assert (I1 : dag_inv d1 (hs ++ hs') cs fs).
    { eapply (run_inv dag_add (fun d l => dag_inv d l cs fs)) in E1; [exact E1|intros; eapply dag_add_inv; eassumption|exact (so_inv _ _ _ _ Ok')|exact A]. }
    destruct (run_add_facts _ _ _ E1) as (A1 & A2 & A3 & A4).
    destruct (run_cond_facts lcs d1 d2 _ _ _ (o_conds o) I1 B) as (B1 & B2 & B3 & B4 & B5); [|exact (or_keys _ _ _ _ R)|exact E2|].
    { intros n. rewrite A1. apply (or_cond _ _ _ _ R). }
    destruct (run_forb_facts lfs d2 d3 (o_uf o) (o_cf o)) as (C1 & C2 & C3 & C4); [| |exact E3|].
    { rewrite B3, A2. apply (or_uf _ _ _ _ R). } { rewrite B4, A3. apply (or_cf _ _ _ _ R). }
    assert (Ro : d_roots d2 = d_roots (s_dag (o_space o)) ++ map hp_name hs') by (rewrite B5; exact A4).
    rewrite Ro in C1, C2.
    destruct (commit_spec _ _ H) as (_ & Hn & _). destruct (commit_forbs _ _ H) as [U1 U2].
    unfold oupdate. set (uc := fold_left (put_forb _) lfs (o_uf o, o_cf o)) in *.
    set (l := py_sorted (fun f g => forb_ltb (ferase f) (ferase g)) (fst uc ++ snd uc)).
    assert (El : map ferase l = py_sorted forb_ltb (d_forbs d3)).
    { unfold l. rewrite (py_sorted_map ferase forb_ltb). unfold d_forbs. rewrite map_app, C1, C2. reflexivity. }
    set (uf := filter (fun f => is_unconditional (d_roots d) (ferase f)) l).
    set (cf := filter (fun f => negb (is_unconditional (d_roots d) (ferase f))) l).
    assert (Eu : map ferase uf = d_uforb d). { unfold uf. rewrite (filter_map_erase ferase (is_unconditional (d_roots d))), El, U1. reflexivity. }
    assert (Ec : map ferase cf = d_cforb d).
    { unfold cf. rewrite (filter_map_erase ferase (fun f => negb (is_unconditional (d_roots d) f))), El, U2. reflexivity. }
    assert (In_l : forall f, In f (uf ++ cf) -> In f (o_uf o ++ o_cf o) \/ In f lfs).
    { intros f Hf. assert (Hl : In f l). { apply in_app_or in Hf. destruct Hf as [Hf|Hf]; apply filter_In in Hf; apply Hf. }
      unfold l in Hl. apply py_sorted_In in Hl. apply put_forb_in in Hl. exact Hl. }
    assert (Pl : forall f, In f (uf ++ cf) -> plain f).
    { intros f Hf. destruct (In_l f Hf) as [Hf'|Hf']; [apply (or_plain _ _ _ _ R f Hf')|apply (Ff f Hf')]. }
    assert (Op := optimized_erase (d_index_of d) (uf ++ cf) Pl). rewrite map_app, Eu, Ec in Op.
    assert (Cf := cm_fast _ Com). unfold d_forbs in Cf. rewrite Cf in Op.
    destruct (loptimized (d_index_of d) (uf ++ cf)) as [fast|e] eqn:Ef; [|discriminate]. cbn [bind].
    eexists. split; [reflexivity|]. split; [reflexivity|].
    assert (ND3 : NoDup (map fst (d_nodes d3))).
    { rewrite C3. assert (X : Permutation (map fst (d_nodes d)) (map fst (d_nodes d2))).
      { rewrite Hn, C3. apply Permutation_map. apply sort_nodes_perm. }
      apply (Permutation_NoDup X). apply (co_nodup _ (g_core _ (di_graph _ _ _ _ I'))). }
    constructor; cbn [o_space o_conds o_uf o_cf o_fast s_dag].
    - exact SO.
    - exact B2.
    - intros n. rewrite B1. unfold condof. rewrite Hn, <- C3.
      rewrite (assoc_perm n (d_nodes d3) (sort_nodes (d_nodes d3))); [reflexivity|exact ND3|]. symmetry. apply sort_nodes_perm.
    - exact Eu.
    - exact Ec.
    - exact Ef.
    - exact Pl.
    - intros e He. apply in_held in He. cbn [o_uf o_cf o_conds] in He. destruct He as [(f & Hf & He)|(n & c & Hc & He)].
      + destruct (In_l f Hf) as [Hf'|Hf']; [|apply (Ff f Hf'); exact He]. apply (or_fits _ _ _ _ R). apply in_held. left. eauto.
      + apply put_cond_in in Hc. destruct Hc as [Hc|Hc]; [|apply (Fc c Hc); exact He]. apply (or_fits _ _ _ _ R). apply in_held. right. eauto.
  Qed.

  (** ** Every object of the space stores the positions of the space *)
  Definition placed (H : heap) (o : ospace) : Prop := forall e, In e (held o) -> stores H (index_of (o_space o)) e.

  Lemma cleaves_names c e : In e (cleaves c) -> forall n, In n (snd e) -> In n (cond_parents (lerase c)).
  Proof.
    induction c as [i l|cs IH|cs IH] using lcond_ind'; cbn [cleaves lerase]; intros He n Hn.
    - destruct He as [<-|[]]. exact Hn.
    - apply in_concat in He. destruct He as (x & Hx & He). apply in_map_iff in Hx. destruct Hx as (c & <- & Hc).
      rewrite Forall_forall in IH. assert (Hp := IH c Hc He n Hn). unfold cond_parents in *. apply in_map_iff in Hp. destruct Hp as (l & <- & Hl).
      apply in_map. eapply dlcs_in_and; [|exact Hl]. apply in_map. exact Hc.
    - apply in_concat in He. destruct He as (x & Hx & He). apply in_map_iff in Hx. destruct Hx as (c & <- & Hc).
      rewrite Forall_forall in IH. assert (Hp := IH c Hc He n Hn). unfold cond_parents in *. apply in_map_iff in Hp. destruct Hp as (l & <- & Hl).
      apply in_map. eapply dlcs_in_and; [|exact Hl]. apply in_map. exact Hc.
  Qed.
  Lemma fleaves_names f e : plain f -> In e (fleaves f) -> forall n, In n (snd e) -> In n (forb_names (ferase f)).
  Proof.
    induction f as [i f|cs IH|ps f] using lforb_ind'; cbn [fleaves ferase]; intros P He n Hn.
    - destruct He as [<-|[]]. exact Hn.
    - apply in_concat in He. destruct He as (x & Hx & He). apply in_map_iff in Hx. destruct Hx as (c & <- & Hc).
      rewrite Forall_forall in IH. assert (Hp := IH c Hc (proj1 (plain_conj cs) P c Hc) He n Hn). unfold forb_names in *. apply in_map_iff in Hp.
      destruct Hp as (h & <- & Hh). apply in_map. eapply forb_hps_and; [|exact Hh]. apply in_map. exact Hc.
    - destruct He.
  Qed.
  Lemma held_names o hs cs fs e : orep o hs cs fs -> In e (held o) -> forall n, In n (snd e) -> In n (map fst (index_of (o_space o))).
  Proof.
    intros R He n Hn. assert (O := or_ok _ _ _ _ R). rewrite (so_index_keys O). apply in_held in He. destruct He as [(f & Hf & He)|(m & c & Hc & He)].
    - apply (di_fnames _ _ _ _ (so_inv _ _ _ _ O) (ferase f)).
      + apply (Permutation_in _ (di_forb _ _ _ _ (so_inv _ _ _ _ O))). unfold d_forbs. rewrite <- (or_uf _ _ _ _ R), <- (or_cf _ _ _ _ R), <- map_app.
        apply in_map. exact Hf.
      + apply (fleaves_names f e (or_plain _ _ _ _ R f Hf) He n Hn).
    - assert (Hm := In_assoc _ _ _ (or_keys _ _ _ _ R) Hc). assert (Hcd := or_cond _ _ _ _ R m). rewrite Hm in Hcd. cbn in Hcd. symmetry in Hcd.
      destruct (so_condof_in O m (lerase c) Hcd) as [Hin Hact]. apply (proj1 (so_reads_keys O n m (ex_intro _ _ (conj Hin (conj Hact (cleaves_names c e He n Hn)))))).
  Qed.

  (** a space whose objects store its positions checks configurations as the model by name *)
  Lemma check_cnode_sat s v allow cn : check_cnode s v allow cn = cnode_check s v allow cn (sat_vec (index_of s) v (cn_cond cn)).
  Proof. reflexivity. Qed.
  Lemma ocheck_placed H o hs cs fs v allow : orep o hs cs fs -> placed H o -> ocheck H o v allow = check_configuration (o_space o) v allow.
  Proof.
    intros R P. assert (O := or_ok _ _ _ _ R). unfold ocheck, check_configuration.
    destruct (forallb _ (d_roots (s_dag (o_space o)))); [|reflexivity].
    assert (M : mapM (ocheck_cnode H o v allow) (d_min (s_dag (o_space o))) = mapM (check_cnode (o_space o) v allow) (d_min (s_dag (o_space o)))).
    { apply mapM_ext. intros cn Hcn. destruct (so_cnode_cond O cn Hcn) as (i & n & rest & _ & _ & Hc).
      unfold ocheck_cnode, cnode_object. destruct (so_condof_in O n _ Hc) as [_ Ha]. unfold activates in Ha.
      destruct (cond_child (cn_cond cn)) as [h|]; [|discriminate]. inversion Ha as [Hn]. rewrite Hn.
      assert (Hr := or_cond _ _ _ _ R n). rewrite Hc in Hr. destruct (assoc n (o_conds o)) as [c|] eqn:Ec; [|discriminate]. inversion Hr as [Hq].
      rewrite (osat_stored H (index_of (o_space o)) v c); [cbn [bind]; rewrite Hq; symmetry; apply check_cnode_sat|].
      intros e He. apply P. apply in_held. right. exists n, c. split; [apply assoc_In; exact Ec|exact He]. }
    rewrite M. destruct (mapM (check_cnode (o_space o) v allow) (d_min (s_dag (o_space o)))) as [u|e]; cbn [bind]; [|reflexivity].
    unfold check_forb.
    assert (Fs : forall f, In f (o_uf o ++ o_cf o) -> plain f /\ fstored H (index_of (o_space o)) f).
    { intros f Hf. assert (Pf := or_plain _ _ _ _ R f Hf). split; [exact Pf|]. apply fstored_leaves; [exact Pf|]. intros e He. apply P. apply in_held. left. eauto. }
    assert (St := loptimized_stored H _ _ _ Fs (or_fast _ _ _ _ R)).
    assert (Ef : map ferase (o_fast o) = d_fast (s_dag (o_space o))).
    { assert (Op := optimized_erase (index_of (o_space o)) (o_uf o ++ o_cf o) (or_plain _ _ _ _ R)).
      rewrite (or_fast _ _ _ _ R), map_app, (or_uf _ _ _ _ R), (or_cf _ _ _ _ R) in Op. cbn [rmap] in Op.
      assert (Cf := cm_fast _ (so_com _ _ _ _ O)). unfold d_forbs in Cf. unfold index_of in Op. rewrite Cf in Op. inversion Op. reflexivity. }
    rewrite <- Ef. clear -St. induction (o_fast o) as [|f l IH]; [reflexivity|]. cbn [map anyM].
    rewrite (oforb_stored H (index_of (o_space o)) v f (St f (or_introl eq_refl))).
    destruct (forb_vec (index_of (o_space o)) v (ferase f)) as [[]|e]; cbn [bind]; try reflexivity.
    apply IH. intros g Hg. apply St. right. exact Hg.
  Qed.

  (** the condition objects of the space are listed when their texts differ *)
  Lemma olisted_all o hs cs fs n c : orep o hs cs fs -> distinct_strings (o_space o) -> In (n, c) (o_conds o) -> In c (olisted (o_space o) (o_conds o)).
  Proof.
    intros R D Hc. assert (O := or_ok _ _ _ _ R). assert (Hm := In_assoc _ _ _ (or_keys _ _ _ _ R) Hc).
    assert (Cd : forall n c, assoc n (o_conds o) = Some c -> condof (d_nodes (s_dag (o_space o))) n = Some (lerase c)).
    { intros m x Hx. rewrite <- (or_cond _ _ _ _ R), Hx. reflexivity. }
    assert (In_l : forall m x, assoc m (o_conds o) = Some x ->
      In x (concat (map (fun n => match assoc n (o_conds o) with Some c => [c] | None => [] end) (keys (o_space o))))).
    { intros m x Hx. apply in_concat. exists [x]. split; [|left; reflexivity]. apply in_map_iff. exists m. rewrite Hx. split; [reflexivity|].
      eapply so_condof_key. exact (Cd m x Hx). }
    unfold olisted. destruct (unique_by_covers (fun c => cond_str (lerase c)) _ [] c (In_l n c Hm)) as [[]|(y & Hy & Hs)].
    assert (Hy2 := Hy). apply unique_by_incl in Hy2. destruct Hy2 as [Hy2 _]. apply in_concat in Hy2. destruct Hy2 as (l & Hl & Hyl).
    apply in_map_iff in Hl. destruct Hl as (m & <- & _). destruct (assoc m (o_conds o)) as [z|] eqn:Ez; [|destruct Hyl]. destruct Hyl as [->|[]].
    assert (F1 : in_force (o_space o) n (lerase c)). { unfold in_force. rewrite (so_conds_of O), (Cd n c Hm). left. reflexivity. }
    assert (F2 : in_force (o_space o) m (lerase y)). { unfold in_force. rewrite (so_conds_of O), (Cd m y Ez). left. reflexivity. }
    assert (Q := D m n _ _ F2 F1 Hs).
    destruct (so_condof_in O n _ (Cd n c Hm)) as [_ An]. destruct (so_condof_in O m _ (Cd m y Ez)) as [_ Am]. rewrite Q in Am. unfold activates in *.
    assert (m = n) by congruence. subst m. assert (y = c) by congruence. subst y. exact Hy.
  Qed.
  Lemma olisted_held o c : In c (olisted (o_space o) (o_conds o)) -> exists n, In (n, c) (o_conds o).
  Proof.
    intros H. apply unique_by_incl in H. destruct H as [H _]. apply in_concat in H. destruct H as (l & Hl & Hc).
    apply in_map_iff in Hl. destruct Hl as (n & <- & _). destruct (assoc n (o_conds o)) as [x|] eqn:Ex; [|destruct Hc]. destruct Hc as [->|[]].
    exists n. apply assoc_In. exact Ex.
  Qed.
  Lemma touched_held o e : In e (touched o) -> In e (held o).
  Proof.
    unfold touched. intros H. apply in_held. apply in_app_or in H. destruct H as [H|H]; apply in_concat in H; destruct H as (l & Hl & He);
      apply in_map_iff in Hl; destruct Hl as (x & <- & Hx).
    - left. eauto.
    - right. destruct (olisted_held o x Hx) as (n & Hn). eauto.
  Qed.
  Lemma held_touched o hs cs fs e : orep o hs cs fs -> distinct_strings (o_space o) -> In e (held o) -> In e (touched o).
  Proof.
    intros R D He. apply in_held in He. unfold touched. apply in_or_app. destruct He as [(f & Hf & He)|(n & c & Hc & He)].
    - left. apply in_concat. exists (fleaves f). split; [apply in_map; exact Hf|exact He].
    - right. apply in_concat. exists (cleaves c). split; [apply in_map; apply (olisted_all o hs cs fs n c R D Hc)|exact He].
  Qed.
  Lemma place_placed o hs cs fs H : orep o hs cs fs -> distinct_strings (o_space o) ->
    placed (place (index_of (o_space o)) (touched o) H) o.
  Proof.
    intros R D e He. assert (Ft : forall x, In x (touched o) -> snd x = objs (fst x)) by (intros x Hx; apply (or_fits _ _ _ _ R), touched_held, Hx).
    assert (Ht := held_touched o hs cs fs e R D He). split; [|exact (held_names o hs cs fs e R He)].
    rewrite (Ft e Ht). apply (place_spec objs _ _ Ft). apply in_map. exact Ht.
  Qed.
End Update.
