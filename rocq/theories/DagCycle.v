(** * The cycle check decides whether the parent/child graph has a cycle *)
From Coq Require Import String List ZArith Bool Lia Permutation Relations.
From Verif Require Import Base ListFacts Numeric HP Cond Forb Dag.
Import ListNotations.
Open Scope nat_scope.

(** [y] is recorded as a child of [x] *)
Definition edge (ns : nodes_t) (x y : string) : Prop := In y (children_names ns x).
Definition acyclic (R : string -> string -> Prop) : Prop := forall x, ~ clos_trans _ R x x.
(** children are nodes *)
Definition closed (ns : nodes_t) : Prop := forall x y, edge ns x y -> In y (map fst ns).

Lemma edge_source ns x y : edge ns x y -> In x (map fst ns).
Proof.
  unfold edge, children_names. destruct (assoc x ns) eqn:E; [|simpl; tauto].
  intros _. apply assoc_Some_key. eauto.
Qed.

Lemma acyclic_mono (R S : string -> string -> Prop) :
  (forall x y, R x y -> S x y) -> acyclic S -> acyclic R.
Proof.
  intros H HS x Hx. apply (HS x).
  assert (G : forall a b, clos_trans _ R a b -> clos_trans _ S a b).
  { intros a b Hab. induction Hab as [? ? H1|? ? ? H1 IH1 H2 IH2]; [apply t_step; auto|eapply t_trans; eauto]. }
  auto.
Qed.

Fixpoint topo (ns : nodes_t) (l : list string) : Prop :=
  match l with
  | [] => True
  | x :: l' => (forall y, edge ns x y -> In y l') /\ topo ns l'
  end.

Lemma topo_closed ns l x y : topo ns l -> In x l -> clos_trans _ (edge ns) x y -> In y l.
Proof.
  intros Ht Hx Hxy. induction Hxy as [x y H|x y z H1 IH1 H2 IH2]; [|auto].
  induction l as [|a l IH]; simpl in *; [tauto|].
  destruct Ht as [Ha Ht]. destruct Hx as [->|Hx]; auto.
Qed.

Lemma topo_acyclic ns l x : topo ns l -> NoDup l -> In x l -> ~ clos_trans _ (edge ns) x x.
Proof.
  induction l as [|a l IH]; simpl; intros Ht ND Hx Hc; [exact Hx|].
  destruct Ht as [Ha Ht]. inversion ND as [|? ? Hna ND']; subst.
  destruct Hx as [->|Hx]; [|exact (IH Ht ND' Hx Hc)].
  apply Hna. apply clos_trans_t1n in Hc. inversion Hc as [y H|y z H1 H2]; subst; [auto|].
  eapply topo_closed; [exact Ht|apply Ha; exact H1|]. apply clos_t1n_trans. exact H2.
Qed.

(** weight of the nodes that have not been seen *)
Fixpoint wsum (ns : nodes_t) (seen : list string) : nat :=
  match ns with
  | [] => 0
  | e :: l => (if str_in (fst e) seen then 0 else S (length (n_children (snd e)))) + wsum l seen
  end.

Lemma str_in_cons x a l : str_in x (a :: l) = (String.eqb x a || str_in x l)%bool.
Proof. reflexivity. Qed.

Lemma wsum_le ns a seen : wsum ns (a :: seen) <= wsum ns seen.
Proof.
  induction ns as [|[m n] l IH]; [simpl; lia|]. cbn [wsum]. rewrite str_in_cons.
  destruct (String.eqb (fst (m, n)) a); simpl; destruct (str_in m seen); lia.
Qed.
Lemma wsum_lt ns w n seen :
  assoc w ns = Some n -> ~ In w seen -> wsum ns (w :: seen) + S (length (n_children n)) <= wsum ns seen.
Proof.
  intros Hw Hs. revert Hw. induction ns as [|[m k] l IH]; [discriminate|].
  cbn [wsum assoc]. rewrite str_in_cons. simpl fst. simpl snd.
  destruct (String.eqb w m) eqn:E.
  - intros [= ->]. apply String.eqb_eq in E. subst m. rewrite String.eqb_refl. simpl orb.
    apply str_in_false in Hs. rewrite Hs. pose proof (wsum_le l w seen). simpl. lia.
  - intros Hw. specialize (IH Hw). apply String.eqb_neq in E.
    assert (Em : String.eqb m w = false) by (apply String.eqb_neq; congruence).
    rewrite Em. simpl orb. destruct (str_in m seen); lia.
Qed.
Lemma wsum_fuel ns seen : S (wsum ns seen) <= cyc_fuel ns.
Proof.
  unfold cyc_fuel. apply le_n_S. induction ns as [|[m n] l IH]; [simpl; lia|].
  cbn [wsum map length]. simpl fst. simpl snd.
  change (list_sum (length (n_children n) :: map (fun e => length (n_children (snd e))) l))
    with (length (n_children n) + list_sum (map (fun e => length (n_children (snd e))) l)).
  destruct (str_in m seen); simpl length in *; lia.
Qed.

Lemma foldM_cons {A B} (f : B -> A -> res B) x l acc :
  foldM f (x :: l) acc = bind (f acc x) (fun acc' => foldM f l acc').
Proof. reflexivity. Qed.

(** ** The loop *)
Section Loop.
  Variable ns : nodes_t.
  Hypothesis Hcl : closed ns.

  (** [m]: the fringe, each entry marked with whether it has been expanded *)
  Record inv (seen explored : list string) (m : list (string * bool)) : Prop := {
    i_nodes : forall x, In x (map fst m) -> In x (map fst ns);
    i_children : forall above x below, m = above ++ (x, true) :: below ->
       forall y, edge ns x y -> In y explored \/ In y (map fst above);
    i_reach : forall above x below, m = above ++ (x, true) :: below ->
       forall y, In y (map fst above) -> clos_trans _ (edge ns) x y;
    i_once : forall above x below, m = above ++ (x, true) :: below -> ~ In x (map fst above);
    i_seen : forall x, In x seen /\ ~ In x explored <-> In (x, true) m;
    i_exp_seen : forall x, In x explored -> In x seen;
    i_topo : topo ns explored;
    i_nodup : NoDup explored
  }.

  Lemma app_cons_split {A} (l1 : list A) : forall l2 a x b,
    l1 ++ a :: l2 = x :: b -> (l1 = [] /\ a = x /\ l2 = b) \/ (exists l1', l1 = x :: l1' /\ b = l1' ++ a :: l2).
  Proof.
    destruct l1 as [|y l1]; simpl; intros l2 a x b H; inversion H; subst; [left; auto|right; eauto].
  Qed.

  Lemma split_app {A} (l1 l2 m1 m2 : list A) (a : A) :
    l1 ++ l2 = m1 ++ a :: m2 ->
    (exists k, l1 = m1 ++ a :: k /\ m2 = k ++ l2) \/ (exists k, m1 = l1 ++ k /\ l2 = k ++ a :: m2).
  Proof.
    revert m1. induction l1 as [|x l1 IH]; simpl; intros m1 H.
    - right. exists m1. auto.
    - destruct m1 as [|y m1]; simpl in H.
      + inversion H; subst. left. exists l1. auto.
      + inversion H as [[Hy H']]; subst. clear H. rename H' into H. destruct (IH _ H) as [(k & -> & ->)|(k & -> & ->)].
        * left. exists k. auto.
        * right. exists k. auto.
  Qed.

  Lemma map_false_no_true (l : list string) x : ~ In (x, true) (map (fun y => (y, false)) l).
  Proof. rewrite in_map_iff. intros (y & [=] & _). Qed.

  Lemma map_fst_false (l : list string) : map fst (map (fun y => (y, false)) l) = l.
  Proof. rewrite map_map. simpl. apply map_id. Qed.

  Lemma cyc_loop_spec fuel : forall seen explored m,
    inv seen explored m -> length m + wsum ns seen <= fuel ->
    match cyc_loop fuel ns seen explored (map fst m) with
    | Ok (seen', explored') =>
        inv seen' explored' [] /\ (forall x, In x explored -> In x explored') /\
        (forall x, In x (map fst m) -> In x explored')
    | Err e => e = CyclicDependancyError /\ exists x, clos_trans _ (edge ns) x x
    end.
  Proof.
    induction fuel as [|fuel IH]; intros seen explored m I Hf.
    - destruct m as [|[w b] m]; simpl in *; [|lia]. split; [exact I|]. split; [auto|tauto].
    - destruct m as [|[w b] m]; simpl; [split; [exact I|]; split; [auto|tauto]|].
      destruct (str_in w explored) eqn:Ew.
      + (* pop *)
        apply str_in_iff in Ew.
        assert (b = false) as ->.
        { destruct b; [|reflexivity]. exfalso.
          destruct (proj2 (i_seen _ _ _ I w) (or_introl eq_refl)) as [_ H]. tauto. }
        assert (I' : inv seen explored m).
        { destruct I. constructor; auto.
          - intros x Hx. apply i_nodes0. right. exact Hx.
          - intros above x below -> y Hy.
            destruct (i_children0 ((w, false) :: above) x below eq_refl y Hy) as [H|[<-|H]]; auto.
          - intros above x below -> y Hy.
            apply (i_reach0 ((w, false) :: above) x below eq_refl). right. exact Hy.
          - intros above x below -> Hy.
            apply (i_once0 ((w, false) :: above) x below eq_refl). right. exact Hy.
          - intros x. rewrite i_seen0. simpl. split; [intros [[=]|H]; exact H|tauto]. }
        specialize (IH seen explored m I'). simpl in Hf.
        destruct (cyc_loop fuel ns seen explored (map fst m)) as [[s' e']|e]; [|apply IH; lia].
        destruct IH as (H1 & H2 & H3); [lia|]. split; [exact H1|]. split; [exact H2|].
        intros x [<-|Hx]; auto.
      + apply str_in_false in Ew.
        assert (Hw : In w (map fst ns)) by (apply (i_nodes _ _ _ I); left; reflexivity).
        apply assoc_Some_key in Hw. destruct Hw as (n & Hn).
        destruct (existsb _ (children_names ns w)) eqn:Ex.
        * (* cycle *)
          split; [reflexivity|]. apply existsb_exists in Ex. destruct Ex as (c & Hc & Hc2).
          apply andb_true_iff in Hc2. destruct Hc2 as [Hc2 Hc3].
          apply negb_true_iff in Hc2. apply str_in_false in Hc2.
          assert (H3 : w = c \/ In c seen).
          { change (String.eqb c w || str_in c seen = true)%bool in Hc3.
            apply orb_true_iff in Hc3. destruct Hc3 as [H|H].
            - apply String.eqb_eq in H. auto.
            - apply str_in_iff in H. auto. }
          destruct H3 as [->|H3]; [exists c; apply t_step; exact Hc|].
          destruct (proj1 (i_seen _ _ _ I c) (conj H3 Hc2)) as [[= <- ->]|Hm].
          -- exists w. apply t_step. exact Hc.
          -- apply in_split in Hm. destruct Hm as (l1 & l2 & ->).
             exists w. eapply t_trans; [apply t_step; exact Hc|].
             apply (i_reach _ _ _ I ((w, b) :: l1) c l2 eq_refl). left. reflexivity.
        * assert (Hcs : forall c, edge ns w c -> In c explored \/ (c <> w /\ ~ In c seen)).
          { intros c Hc. destruct (in_dec string_dec c explored) as [|Hn1]; [auto|]. right.
            assert (Hf1 : (negb (str_in c explored) && str_in c (w :: seen))%bool = false).
            { destruct (negb (str_in c explored) && str_in c (w :: seen))%bool eqn:Eb; [|reflexivity].
              rewrite <- Ex. symmetry. apply existsb_exists. exists c. auto. }
            apply str_in_false in Hn1. rewrite Hn1 in Hf1. simpl in Hf1.
            apply orb_false_iff in Hf1. destruct Hf1 as [Ha Hb].
            apply String.eqb_neq in Ha. apply str_in_false in Hb. auto. }
          destruct (filter _ (children_names ns w)) as [|c0 new] eqn:Ef.
          -- (* all children explored: w is done *)
             assert (Hall : forall y, edge ns w y -> In y explored).
             { intros y Hy. destruct (in_dec string_dec y explored) as [|Hn1]; [assumption|exfalso].
               assert (H : In y (filter (fun c => negb (str_in c explored)) (children_names ns w))).
               { apply filter_In. split; [exact Hy|]. apply negb_true_iff, str_in_false. exact Hn1. }
               rewrite Ef in H. exact H. }
             assert (I' : inv (w :: seen) (w :: explored) m).
             { destruct I. constructor; auto.
               - intros x Hx. apply i_nodes0. right. exact Hx.
               - intros above x below -> y Hy.
                 destruct (i_children0 ((w, b) :: above) x below eq_refl y Hy) as [H|[<-|H]];
                   [left; right; exact H|left; left; reflexivity|right; exact H].
               - intros above x below -> y Hy.
                 apply (i_reach0 ((w, b) :: above) x below eq_refl). right. exact Hy.
               - intros above x below -> Hy.
                 apply (i_once0 ((w, b) :: above) x below eq_refl). right. exact Hy.
               - intros x. split.
                 + intros [[<-|Hs] Hne]; [exfalso; apply Hne; left; reflexivity|].
                   assert (H : In (x, true) ((w, b) :: m)).
                   { apply i_seen0. split; [exact Hs|]. intros H. apply Hne. right. exact H. }
                   destruct H as [[= <- _]|H]; [exfalso; apply Hne; left; reflexivity|exact H].
                 + intros Hm. assert (Hm' := Hm). apply in_split in Hm. destruct Hm as (l1 & l2 & ->).
                   destruct (proj2 (i_seen0 x) (or_intror Hm')) as [Hs He].
                   split; [right; exact Hs|]. intros [<-|H]; [|tauto].
                   apply (i_once0 ((w, b) :: l1) w l2 eq_refl). left. reflexivity.
               - intros x [<-|Hx]; [left; reflexivity|right; auto].
               - simpl. auto.
               - constructor; auto. }
             specialize (IH _ _ _ I'). simpl in Hf. pose proof (wsum_le ns w seen).
             destruct (cyc_loop fuel ns (w :: seen) (w :: explored) (map fst m)) as [[s' e']|e]; [|apply IH; lia].
             destruct IH as (H1 & H2 & H3); [lia|]. split; [exact H1|]. split.
             ++ intros x Hx. apply H2. right. exact Hx.
             ++ intros x [<-|Hx]; [apply H2; left; reflexivity|auto].
          -- (* push the unexplored children *)
             set (new' := c0 :: new) in *.
             assert (Hnew : forall y, In y new' <-> edge ns w y /\ ~ In y explored).
             { intros y. rewrite <- Ef, filter_In. unfold edge.
               rewrite negb_true_iff, str_in_false. tauto. }
             assert (b = false) as ->.
             { destruct b; [|reflexivity]. exfalso.
               assert (H : In c0 new') by (left; reflexivity). apply Hnew in H. destruct H as [H1 H2].
               destruct (i_children _ _ _ I [] w m eq_refl c0 H1) as [H|H]; [tauto|exact H]. }
             assert (Hws : ~ In w seen).
             { intros Hs. destruct (proj1 (i_seen _ _ _ I w) (conj Hs Ew)) as [[=]|Hm].
               apply in_split in Hm. destruct Hm as (l1 & l2 & ->).
               apply (i_once _ _ _ I ((w, false) :: l1) w l2 eq_refl). left. reflexivity. }
             set (m' := map (fun y => (y, false)) (rev new') ++ (w, true) :: m).
             assert (I' : inv (w :: seen) explored m').
             { destruct I. unfold m'. constructor; auto.
               - intros x. rewrite map_app, map_fst_false, in_app_iff, <- in_rev. simpl.
                 intros [Hx|[<-|Hx]]; [|apply i_nodes0; left; reflexivity|apply i_nodes0; right; exact Hx].
                 apply Hnew in Hx. destruct Hx as [Hx _]. eapply Hcl; eauto.
               - intros above x below H y Hy. apply split_app in H. destruct H as [(k & H & _)|(k & -> & H)].
                 + exfalso. apply (map_false_no_true (rev new') x). rewrite H. apply in_elt.
                 + symmetry in H. apply app_cons_split in H. destruct H as [(-> & [= ->] & ->)|(k' & -> & ->)].
                   * rewrite app_nil_r, map_fst_false. destruct (in_dec string_dec y explored); [auto|].
                     right. rewrite <- in_rev. apply Hnew. auto.
                   * destruct (i_children0 ((w, false) :: k') x below eq_refl y Hy) as [H|[H|H]]; [auto| |];
                       right; rewrite map_app, in_app_iff; right; simpl; auto.
               - intros above x below H y Hy. apply split_app in H. destruct H as [(k & H & _)|(k & -> & H)].
                 + exfalso. apply (map_false_no_true (rev new') x). rewrite H. apply in_elt.
                 + symmetry in H. apply app_cons_split in H. destruct H as [(-> & [= ->] & ->)|(k' & -> & ->)].
                   * rewrite app_nil_r, map_fst_false, <- in_rev in Hy. apply Hnew in Hy. apply t_step, Hy.
                   * rewrite map_app, map_fst_false, in_app_iff, <- in_rev in Hy.
                     assert (Hxw : clos_trans _ (edge ns) x w).
                     { apply (i_reach0 ((w, false) :: k') x below eq_refl). left. reflexivity. }
                     destruct Hy as [Hy|[<-|Hy]]; [|exact Hxw|].
                     -- apply Hnew in Hy. eapply t_trans; [exact Hxw|]. apply t_step, Hy.
                     -- apply (i_reach0 ((w, false) :: k') x below eq_refl). right. exact Hy.
               - intros above x below H Hx. apply split_app in H. destruct H as [(k & H & _)|(k & -> & H)].
                 + apply (map_false_no_true (rev new') x). rewrite H. apply in_elt.
                 + symmetry in H. apply app_cons_split in H. destruct H as [(-> & [= ->] & ->)|(k' & -> & ->)].
                   * rewrite app_nil_r, map_fst_false, <- in_rev in Hx. apply Hnew in Hx. destruct Hx as [Hx1 Hx2].
                     destruct (Hcs _ Hx1); tauto.
                   * rewrite map_app, map_fst_false, in_app_iff, <- in_rev in Hx.
                     assert (Hxs : In x seen).
                     { apply (proj2 (i_seen0 x)). right. apply in_elt. }
                     destruct Hx as [Hx|Hx].
                     -- apply Hnew in Hx. destruct Hx as [Hx1 Hx2]. destruct (Hcs _ Hx1); tauto.
                     -- apply (i_once0 ((w, false) :: k') x below eq_refl). exact Hx.
               - intros x. rewrite in_app_iff. simpl. split.
                 + intros [[<-|Hs] He]; [right; left; reflexivity|]. right. right.
                   destruct (proj1 (i_seen0 x) (conj Hs He)) as [[=]|H]. exact H.
                 + intros [H|[[= <-]|H]]; [exfalso; eapply map_false_no_true; eauto|tauto|].
                   destruct (proj2 (i_seen0 x) (or_intror H)). tauto.
               - intros x Hx. right. auto. }
             assert (Hlen : length m' <= length m + S (length (n_children n))).
             { unfold m'. rewrite app_length, map_length, rev_length. simpl.
               assert (H : length new' <= length (children_names ns w)).
               { rewrite <- Ef. clear. induction (children_names ns w) as [|a l IHl]; simpl; [lia|].
                 destruct (negb (str_in a explored)); simpl; lia. }
               unfold children_names in H. rewrite Hn, map_length in H. simpl in H. simpl. lia. }
             pose proof (wsum_lt ns w n seen Hn Hws) as Hd. simpl in Hf.
             specialize (IH _ _ _ I'). unfold m' in IH at 2.
             rewrite map_app, map_fst_false in IH. simpl map in IH.
             assert (Hb : length m' + wsum ns (w :: seen) <= fuel) by lia.
             specialize (IH Hb).
             change (rev new ++ [c0]) with (rev new').
             destruct (cyc_loop fuel ns (w :: seen) explored (rev new' ++ w :: map fst m)) as [[s' e']|e];
               [|exact IH].
             destruct IH as (H1 & H2 & H3). split; [exact H1|]. split; [exact H2|].
             intros x Hx. apply H3. unfold m'. rewrite map_app. apply in_or_app. right. exact Hx.
  Qed.

  Lemma inv_start seen explored x :
    inv seen explored [] -> In x (map fst ns) -> inv seen explored [(x, false)].
  Proof.
    intros I Hx. destruct I. constructor; auto.
    - intros y [<-|[]]. exact Hx.
    - intros [|a above] y below; [intros [=]|]. intros H; destruct above; discriminate.
    - intros [|a above] y below; [intros [=]|]. intros H; destruct above; discriminate.
    - intros [|a above] y below; [intros [=]|]. intros H; destruct above; discriminate.
    - intros y. rewrite i_seen0. simpl. split; [tauto|]. intros [[=]|[]].
  Qed.

  Lemma cyc_fold_spec l : forall seen explored,
    inv seen explored [] -> (forall x, In x l -> In x (map fst ns)) ->
    match foldM (fun se name => if str_in name (snd se) then Ok se
                                else cyc_loop (cyc_fuel ns) ns (fst se) (snd se) [name]) l (seen, explored) with
    | Ok (seen', explored') =>
        inv seen' explored' [] /\ (forall x, In x explored -> In x explored') /\
        (forall x, In x l -> In x explored')
    | Err e => e = CyclicDependancyError /\ exists x, clos_trans _ (edge ns) x x
    end.
  Proof.
    induction l as [|a l IH]; intros seen explored I Hl.
    - simpl. split; [exact I|]. split; [auto|tauto].
    - rewrite foldM_cons. cbn [fst snd]. destruct (str_in a explored) eqn:E; cbn [bind].
      + apply str_in_iff in E. specialize (IH seen explored I (fun x H => Hl x (or_intror H))).
        destruct (foldM _ l (seen, explored)) as [[s' e']|e]; [|exact IH].
        destruct IH as (H1 & H2 & H3). split; [exact H1|]. split; [exact H2|].
        intros x [<-|Hx]; auto.
      + assert (I1 := inv_start _ _ a I (Hl a (or_introl eq_refl))).
        pose proof (cyc_loop_spec (cyc_fuel ns) seen explored [(a, false)] I1) as HL.
        cbn [map fst length] in HL. pose proof (wsum_fuel ns seen) as HF.
        destruct (cyc_loop (cyc_fuel ns) ns seen explored [a]) as [[s1 e1]|e]; cbn [bind].
        * destruct HL as (I2 & H2 & H3); [lia|].
          specialize (IH s1 e1 I2 (fun x H => Hl x (or_intror H))).
          destruct (foldM _ l (s1, e1)) as [[s' e']|e]; [|exact IH].
          destruct IH as (H4 & H5 & H6). split; [exact H4|]. split; [auto|].
          intros x [<-|Hx]; [|auto]. apply H5, H3. left. reflexivity.
        * apply HL. lia.
  Qed.

  Lemma inv_init : inv [] [] [].
  Proof.
    constructor; simpl; try tauto.
    - intros [|] ? ? [=].
    - intros [|] ? ? [=].
    - intros [|] ? ? [=].
    - constructor.
  Qed.

  (** The check raises exactly when there is a cycle, and always terminates. *)
  Theorem check_cyclic_spec :
    (check_cyclic ns = Ok tt /\ acyclic (edge ns)) \/
    (check_cyclic ns = Err CyclicDependancyError /\ ~ acyclic (edge ns)).
  Proof.
    unfold check_cyclic.
    pose proof (cyc_fold_spec (assoc_keys ns) [] [] inv_init (fun x H => H)) as H.
    destruct (foldM _ (assoc_keys ns) ([], [])) as [[s e]|e]; simpl.
    - left. split; [reflexivity|]. destruct H as (I & _ & Hall). intros x Hx.
      apply (topo_acyclic ns e x); [apply (i_topo _ _ _ I)|apply (i_nodup _ _ _ I)| |exact Hx].
      apply Hall. apply clos_trans_t1n in Hx. inversion Hx as [y H1|y z H1 H2]; subst; eapply edge_source; eauto.
    - right. destruct H as [-> (x & Hx)]. split; [reflexivity|]. intros Ha. exact (Ha x Hx).
  Qed.
End Loop.
