(** * Invariants of the graph: links, depths, acyclicity *)
From Coq Require Import String List ZArith Bool Lia Permutation Relations.
From Verif Require Import Base ListFacts Numeric HP HPProofs Cond Forb EqFacts Dag DagCycle.
Import ListNotations.
Open Scope nat_scope.

(** A chain of [n] hyperparameters along [R] that ends (starts) at [x] *)
Inductive chain_to (R : string -> string -> Prop) : string -> nat -> Prop :=
| ct_one x : chain_to R x 1
| ct_step x y n : chain_to R x n -> R x y -> chain_to R y (S n).
Inductive chain_from (R : string -> string -> Prop) : string -> nat -> Prop :=
| cf_one x : chain_from R x 1
| cf_step x y n : R x y -> chain_from R y n -> chain_from R x (S n).

Lemma chain_to_mono (R S : string -> string -> Prop) x n :
  (forall a b, R a b -> S a b) -> chain_to R x n -> chain_to S x n.
Proof. intros H. induction 1; [constructor|econstructor; eauto]. Qed.

Lemma chain_to_pos R x n : chain_to R x n -> 1 <= n.
Proof. induction 1; lia. Qed.

Lemma chain_from_bound (R : string -> string -> Prop) (names : list string) x n :
  acyclic R -> (forall a b, R a b -> In b names) -> In x names -> chain_from R x n -> n <= length names.
Proof.
  intros Ha Hc Hx H.
  assert (exists l, length l = n /\ NoDup l /\ incl l names /\
            forall z, In z l -> z = x \/ clos_trans _ R x z) as (l & Hl & ND & Hi & _).
  { revert Hx. induction H as [x|x y n Hxy H IH]; intros Hx.
    - exists [x]. split; [reflexivity|]. split; [repeat constructor; simpl; tauto|].
      split; [intros z [<-|[]]; exact Hx|]. intros z [<-|[]]. auto.
    - destruct IH as (l & Hl & ND & Hi & Hr); [eauto|].
      exists (x :: l). simpl. split; [congruence|]. split.
      + constructor; [|exact ND]. intros Hxl. destruct (Hr x Hxl) as [->|Hyx].
        * apply (Ha y). apply t_step. exact Hxy.
        * apply (Ha x). eapply t_trans; [apply t_step; exact Hxy|exact Hyx].
      + split.
        * intros z [<-|Hz]; auto.
        * intros z [<-|Hz]; [auto|]. right. destruct (Hr z Hz) as [->|Hyz]; [apply t_step; exact Hxy|].
          eapply t_trans; [apply t_step; exact Hxy|exact Hyz]. }
  rewrite <- Hl. apply NoDup_incl_length; assumption.
Qed.

(** ** Node updates *)
Lemma upd_keys m f ns : map fst (upd_node m f ns) = map fst ns.
Proof.
  unfold upd_node. rewrite map_map. apply map_ext. intros [x n]. simpl.
  destruct (String.eqb m x); reflexivity.
Qed.
Lemma upd_length m f ns : length (upd_node m f ns) = length ns.
Proof. unfold upd_node. apply map_length. Qed.
Lemma assoc_upd x m f ns :
  assoc x (upd_node m f ns) = if String.eqb x m then option_map f (assoc x ns) else assoc x ns.
Proof.
  unfold upd_node. induction ns as [|[k n] l IH]; simpl.
  - destruct (String.eqb x m); reflexivity.
  - destruct (String.eqb m k) eqn:E; simpl; destruct (String.eqb x k) eqn:E2.
    + apply String.eqb_eq in E, E2. subst. rewrite String.eqb_refl. reflexivity.
    + exact IH.
    + apply String.eqb_eq in E2. subst. rewrite String.eqb_sym, E. reflexivity.
    + exact IH.
Qed.

(** the condition recorded on an edge, seen from the parent and from the child *)
Definition clook (ns : nodes_t) (p c : string) : option cond :=
  match assoc p ns with Some n => assoc c (n_children n) | None => None end.
Definition plook (ns : nodes_t) (c p : string) : option cond :=
  match assoc c ns with Some n => assoc p (n_parents n) | None => None end.
Definition condof (ns : nodes_t) (c : string) : option cond :=
  match assoc c ns with Some n => n_cond n | None => None end.
Definition hpof (ns : nodes_t) (c : string) : option hp := option_map n_hp (assoc c ns).

Lemma edge_clook ns x y : edge ns x y <-> exists c, clook ns x y = Some c.
Proof.
  unfold edge, children_names, clook. destruct (assoc x ns) as [n|].
  - apply assoc_Some_key.
  - split; [simpl; tauto|]. intros (c & [=]).
Qed.

(** ** Propagation of depths *)
Definition shape (n : node) := (n_hp n, n_children n, n_parents n, n_cond n).

Section Propagate.
  Variable ns0 : nodes_t.
  Definition shaped (ns : nodes_t) : Prop :=
    map fst ns = map fst ns0 /\ forall x, option_map shape (assoc x ns) = option_map shape (assoc x ns0).

  Lemma shaped_children ns x : shaped ns -> children_names ns x = children_names ns0 x.
  Proof.
    intros [_ H]. specialize (H x). unfold children_names.
    destruct (assoc x ns), (assoc x ns0); simpl in H; try discriminate; [|reflexivity].
    injection H as _ -> _ _. reflexivity.
  Qed.

  Lemma shaped_set_depth ns x d : shaped ns -> shaped (upd_node x (set_depth d) ns).
  Proof.
    intros [H1 H2]. split; [rewrite upd_keys; exact H1|].
    intros y. rewrite <- (H2 y), assoc_upd. destruct (String.eqb y x); [|reflexivity].
    destruct (assoc y ns); reflexivity.
  Qed.

  Lemma depth_set_depth ns x d y :
    In x (map fst ns) -> depth_of (upd_node x (set_depth d) ns) y = if String.eqb y x then d else depth_of ns y.
  Proof.
    intros Hx. unfold depth_of. rewrite assoc_upd. destruct (String.eqb y x) eqn:E; [|reflexivity].
    apply String.eqb_eq in E. subst. apply assoc_Some_key in Hx. destruct Hx as (n & ->). reflexivity.
  Qed.

  Notation R := (edge ns0).
  Definition sat (ns : nodes_t) (u v : string) : Prop := S (depth_of ns u) <= depth_of ns v.

  Hypothesis Hac : acyclic R.
  Hypothesis Hcl : closed ns0.

  (** the effect of raising the depth of [x] to at least [d] *)
  Record raised (ns ns' : nodes_t) (x : string) (d : nat) : Prop := {
    r_shape : shaped ns';
    r_mono : forall y, depth_of ns y <= depth_of ns' y;
    r_far : forall y, y <> x -> ~ clos_trans _ R x y -> depth_of ns' y = depth_of ns y;
    r_here : depth_of ns' x = Nat.max d (depth_of ns x);
    r_sat : forall u v, R u v -> sat ns u v -> sat ns' u v;
    r_wit : chain_to R x d -> forall y, In y (map fst ns0) -> chain_to R y (depth_of ns y) -> chain_to R y (depth_of ns' y)
  }.

  Lemma propagate_spec fuel : forall ns x d,
    shaped ns -> In x (map fst ns0) -> (forall n, chain_from R x n -> n <= fuel) ->
    exists ns', propagate fuel ns x d = Ok ns' /\ raised ns ns' x d.
  Proof.
    induction fuel as [|fuel IH]; intros ns x d Hs Hx Hf.
    - specialize (Hf 1 (cf_one _ _)). lia.
    - assert (Hx' : In x (map fst ns)) by (rewrite (proj1 Hs); exact Hx).
      destruct (proj1 (assoc_Some_key _ _) Hx') as (n & Hn). simpl. rewrite Hn.
      assert (Hd : depth_of ns x = n_depth n) by (unfold depth_of; rewrite Hn; reflexivity).
      destruct (Nat.leb d (n_depth n)) eqn:Ed.
      + apply Nat.leb_le in Ed. exists ns. split; [reflexivity|]. constructor; auto. lia.
      + apply Nat.leb_gt in Ed.
        set (ns1 := upd_node x (set_depth d) ns).
        assert (Hs1 : shaped ns1) by (apply shaped_set_depth; exact Hs).
        assert (Hd1 : forall y, depth_of ns1 y = if String.eqb y x then d else depth_of ns y)
          by (intros y; apply depth_set_depth; exact Hx').
        assert (Hch : forall c, In c (map fst (n_children n)) -> R x c).
        { intros c Hc. unfold edge. rewrite <- (shaped_children ns x Hs). unfold children_names.
          rewrite Hn. exact Hc. }
        (* the loop over the children *)
        assert (L : forall (cs : list (string * cond)) done nsk,
          (forall c, In c (map fst cs) -> R x c) ->
          shaped nsk -> (forall y, depth_of ns1 y <= depth_of nsk y) -> depth_of nsk x = d ->
          (forall y, y <> x -> ~ clos_trans _ R x y -> depth_of nsk y = depth_of ns y) ->
          (forall c, In c done -> S d <= depth_of nsk c) ->
          (forall u v, R u v -> u <> x -> sat ns u v -> sat nsk u v) ->
          (chain_to R x d -> forall y, In y (map fst ns0) -> chain_to R y (depth_of ns y) -> chain_to R y (depth_of nsk y)) ->
          exists ns', foldM (fun ns' c => propagate fuel ns' (fst c) (S d)) cs nsk = Ok ns' /\
            shaped ns' /\ (forall y, depth_of nsk y <= depth_of ns' y) /\ depth_of ns' x = d /\
            (forall y, y <> x -> ~ clos_trans _ R x y -> depth_of ns' y = depth_of ns y) /\
            (forall c, In c (map fst cs ++ done) -> S d <= depth_of ns' c) /\
            (forall u v, R u v -> u <> x -> sat ns u v -> sat ns' u v) /\
            (chain_to R x d -> forall y, In y (map fst ns0) -> chain_to R y (depth_of ns y) -> chain_to R y (depth_of ns' y))).
        { induction cs as [|[c cnd] cs IHcs]; intros done nsk Hcs Hsk Hm Hxk Hfar Hdone Hsat Hwit.
          - exists nsk. simpl. repeat (split; [assumption || auto|]). assumption.
          - assert (Hxc : R x c) by (apply Hcs; left; reflexivity).
            assert (Hcx : c <> x) by (intros ->; apply (Hac x); apply t_step; exact Hxc).
            destruct (IH nsk c (S d)) as (nsk' & Hp & Hr); [exact Hsk|eapply Hcl; exact Hxc| |].
            { intros k Hk. specialize (Hf (S k) (cf_step _ _ _ _ Hxc Hk)). lia. }
            assert (Hxk' : depth_of nsk' x = d).
            { rewrite (r_far _ _ _ _ Hr); [exact Hxk|congruence|]. intros Hc.
              apply (Hac x). eapply t_trans; [apply t_step; exact Hxc|exact Hc]. }
            destruct (IHcs (c :: done) nsk') as (ns' & Hq & H1 & H2 & H3 & H4 & H5 & H6 & H7).
            + intros c' Hc'. apply Hcs. right. exact Hc'.
            + apply (r_shape _ _ _ _ Hr).
            + intros y. etransitivity; [apply Hm|apply (r_mono _ _ _ _ Hr)].
            + exact Hxk'.
            + intros y Hy Hy2. rewrite (r_far _ _ _ _ Hr); [auto| |].
              * intros ->. apply Hy2. apply t_step. exact Hxc.
              * intros Hcy. apply Hy2. eapply t_trans; [apply t_step; exact Hxc|exact Hcy].
            + intros c' [<-|Hc'].
              * rewrite (r_here _ _ _ _ Hr). lia.
              * etransitivity; [apply Hdone; exact Hc'|apply (r_mono _ _ _ _ Hr)].
            + intros u v Huv Hu Hs'. apply (r_sat _ _ _ _ Hr); auto.
            + intros Hcx' y Hy Hy'. apply (r_wit _ _ _ _ Hr); auto.
              eapply ct_step; [exact Hcx'|exact Hxc].
            + exists ns'. rewrite foldM_cons. cbn [fst]. rewrite Hp. cbn [bind].
              split; [exact Hq|]. split; [exact H1|]. split.
              { intros y. etransitivity; [apply (r_mono _ _ _ _ Hr)|apply H2]. }
              split; [exact H3|]. split; [exact H4|]. split; [|split; assumption].
              intros c' Hc'. apply H5. simpl in Hc'. rewrite in_app_iff in *. simpl. tauto. }
        destruct (L (n_children n) [] ns1 Hch Hs1) as (ns' & Hq & H1 & H2 & H3 & H4 & H5 & H6 & H7); auto.
        * rewrite Hd1, String.eqb_refl. reflexivity.
        * intros y Hy _. rewrite Hd1. apply String.eqb_neq in Hy. rewrite Hy. reflexivity.
        * simpl. tauto.
        * intros u v Huv Hu Hsv. unfold sat in *. rewrite !Hd1. apply String.eqb_neq in Hu. rewrite Hu.
          destruct (String.eqb v x) eqn:Ev; [|exact Hsv].
          apply String.eqb_eq in Ev. subst v. lia.
        * intros Hcx y Hy Hcy. rewrite Hd1. destruct (String.eqb y x) eqn:Ey; [|exact Hcy].
          apply String.eqb_eq in Ey. subst. exact Hcx.
        * exists ns'. split; [exact Hq|]. constructor; auto.
          -- intros y. etransitivity; [|apply H2]. rewrite Hd1. destruct (String.eqb y x) eqn:Ey; [|lia].
             apply String.eqb_eq in Ey. subst. lia.
          -- lia.
          -- intros u v Huv Hsv. destruct (string_dec u x) as [->|Hu]; [|auto].
             unfold sat. rewrite H3. apply H5. apply in_or_app. left.
             unfold edge in Huv. rewrite <- (shaped_children ns x Hs) in Huv. unfold children_names in Huv.
             rewrite Hn in Huv. exact Huv.
  Qed.
End Propagate.

(** ** The invariant of the graph *)
Record core (ns : nodes_t) : Prop := {
  co_nodup : NoDup (map fst ns);
  co_name : forall x n, assoc x ns = Some n -> hp_name (n_hp n) = x;
  co_keys : forall x n, assoc x ns = Some n -> NoDup (map fst (n_children n)) /\ NoDup (map fst (n_parents n));
  co_link : forall p c, clook ns p c = plook ns c p;
  co_acyclic : acyclic (edge ns);
  co_sat : forall u v, edge ns u v -> S (depth_of ns u) <= depth_of ns v;
  co_wit : forall x, In x (map fst ns) -> chain_to (edge ns) x (depth_of ns x)
}.

Lemma plook_key ns c p cnd : plook ns c p = Some cnd -> In c (map fst ns).
Proof.
  unfold plook. destruct (assoc c ns) eqn:E; [|discriminate]. intros _. apply assoc_Some_key. eauto.
Qed.
Lemma clook_key ns c p cnd : clook ns p c = Some cnd -> In p (map fst ns).
Proof.
  unfold clook. destruct (assoc p ns) eqn:E; [|discriminate]. intros _. apply assoc_Some_key. eauto.
Qed.

Lemma link_closed ns : (forall p c, clook ns p c = plook ns c p) -> closed ns.
Proof.
  intros H x y Hxy. apply edge_clook in Hxy. destruct Hxy as (c & Hc). rewrite H in Hc.
  eapply plook_key; eauto.
Qed.
Lemma core_closed ns : core ns -> closed ns.
Proof. intros H. apply link_closed, H. Qed.

(** shaped graphs have the same links *)
Lemma shaped_look ns0 ns : shaped ns0 ns ->
  (forall p c, clook ns p c = clook ns0 p c) /\ (forall p c, plook ns c p = plook ns0 c p) /\
  (forall c, condof ns c = condof ns0 c) /\ (forall c, hpof ns c = hpof ns0 c).
Proof.
  intros [_ H]. unfold clook, plook, condof, hpof.
  split; [intros p c; specialize (H p)|split; [intros p c; specialize (H c)|split; intros c; specialize (H c)]].
  - destruct (assoc p ns), (assoc p ns0); simpl in H; try discriminate; [|reflexivity]. injection H as _ -> _ _. reflexivity.
  - destruct (assoc c ns), (assoc c ns0); simpl in H; try discriminate; [|reflexivity]. injection H as _ _ -> _. reflexivity.
  - destruct (assoc c ns), (assoc c ns0); simpl in H; try discriminate; [|reflexivity]. injection H as _ _ _ ->. reflexivity.
  - destruct (assoc c ns), (assoc c ns0); simpl in H |- *; try discriminate; [|reflexivity]. injection H as -> _ _ _. reflexivity.
Qed.

(** ** Adding one edge *)
Definition link (c : cond) (child p : string) (ns : nodes_t) : nodes_t :=
  upd_node child (fun n => set_cond c (set_parents (assoc_set p c (n_parents n)) n))
    (upd_node p (fun n => set_children (assoc_set child c (n_children n)) n) ns).
Definition resort (child p : string) (ns : nodes_t) : nodes_t :=
  upd_node child (fun n => set_parents (sort_links ns (n_parents n)) n)
    (upd_node p (fun n => set_children (sort_links ns (n_children n)) n) ns).

Lemma add_edges_cons c child p ps ns :
  add_edges c child (p :: ps) ns =
  match assoc p ns with
  | None => (ns, Err ParentNotFoundError)
  | Some pn =>
      if match assoc child (n_children pn) with Some c' => negb (cond_eqb c c') | None => false end
      then (ns, Err AmbiguousConditionError)
      else
        match check_cyclic (link c child p ns) with
        | Err e => (link c child p ns, Err e)
        | Ok _ =>
            match propagate (S (length (link c child p ns))) (link c child p ns) child
                    (S (depth_of (link c child p ns) p)) with
            | Err e => (link c child p ns, Err e)
            | Ok ns3 => add_edges c child ps (resort child p ns3)
            end
        end
  end.
Proof. reflexivity. Qed.

Ltac eqb_cases :=
  repeat match goal with
  | |- context [String.eqb ?a ?a] => rewrite String.eqb_refl
  | |- context [String.eqb ?a ?b] => destruct (String.eqb_spec a b); subst
  end.

Lemma link_keys c child p ns : map fst (link c child p ns) = map fst ns.
Proof. unfold link. rewrite !upd_keys. reflexivity. Qed.

Lemma link_clook c child p ns q y : In p (map fst ns) ->
  clook (link c child p ns) q y = if (String.eqb q p && String.eqb y child)%bool then Some c else clook ns q y.
Proof.
  intros Hp. apply assoc_Some_key in Hp. destruct Hp as (pn & Hp).
  unfold clook, link. rewrite !assoc_upd.
  destruct (String.eqb_spec q p) as [->|Hq].
  - rewrite Hp. simpl. destruct (String.eqb p child); simpl;
      (destruct (String.eqb_spec y child) as [->|Hy]; [apply assoc_set_same|apply assoc_set_other; exact Hy]).
  - simpl. destruct (String.eqb q child); [|reflexivity]. destruct (assoc q ns); reflexivity.
Qed.

Lemma link_plook c child p ns q y : In child (map fst ns) ->
  plook (link c child p ns) y q = if (String.eqb q p && String.eqb y child)%bool then Some c else plook ns y q.
Proof.
  intros Hp. apply assoc_Some_key in Hp. destruct Hp as (cn & Hp).
  unfold plook, link. rewrite !assoc_upd.
  destruct (String.eqb_spec y child) as [->|Hy].
  - destruct (String.eqb child p); rewrite Hp; simpl; rewrite andb_true_r;
      (destruct (String.eqb_spec q p) as [->|Hq]; [apply assoc_set_same|apply assoc_set_other; exact Hq]).
  - rewrite andb_false_r. destruct (String.eqb y p); [|reflexivity]. destruct (assoc y ns); reflexivity.
Qed.

Lemma link_condof c child p ns y : In child (map fst ns) ->
  condof (link c child p ns) y = if String.eqb y child then Some c else condof ns y.
Proof.
  intros Hp. apply assoc_Some_key in Hp. destruct Hp as (cn & Hp).
  unfold condof, link. rewrite !assoc_upd.
  destruct (String.eqb_spec y child) as [->|Hy].
  - destruct (String.eqb child p); rewrite Hp; reflexivity.
  - destruct (String.eqb y p); [|reflexivity]. destruct (assoc y ns); reflexivity.
Qed.

Lemma link_hpof c child p ns y : hpof (link c child p ns) y = hpof ns y.
Proof.
  unfold hpof, link. rewrite !assoc_upd.
  destruct (String.eqb y child), (String.eqb y p); destruct (assoc y ns); reflexivity.
Qed.

Lemma link_depth c child p ns y : depth_of (link c child p ns) y = depth_of ns y.
Proof.
  unfold depth_of, link. rewrite !assoc_upd.
  destruct (String.eqb y child), (String.eqb y p); destruct (assoc y ns); reflexivity.
Qed.

Definition keys_ok (ns : nodes_t) : Prop :=
  forall x n, assoc x ns = Some n -> NoDup (map fst (n_children n)) /\ NoDup (map fst (n_parents n)).

Lemma link_keys_ok c child p ns : keys_ok ns -> keys_ok (link c child p ns).
Proof.
  intros H x n. unfold link. rewrite !assoc_upd.
  destruct (String.eqb x child), (String.eqb x p); destruct (assoc x ns) as [m|] eqn:E; simpl; try discriminate;
    intros [= <-]; destruct (H _ _ E); simpl; split; try assumption; apply assoc_set_NoDup; assumption.
Qed.

Lemma shaped_keys_ok ns0 ns : shaped ns0 ns -> keys_ok ns0 -> keys_ok ns.
Proof.
  intros [_ Hs] H x n Hn. specialize (Hs x). rewrite Hn in Hs. simpl in Hs.
  destruct (assoc x ns0) as [m|] eqn:E; [|discriminate]. injection Hs as _ -> -> _. eauto.
Qed.

Lemma sort_links_perm ns l : Permutation (sort_links ns l) l.
Proof. apply py_sorted_perm. Qed.

Lemma sort_links_NoDup ns l : NoDup (map fst l) -> NoDup (map fst (sort_links ns l)).
Proof.
  apply Permutation_NoDup. apply Permutation_map. symmetry. apply sort_links_perm.
Qed.
Lemma sort_links_assoc ns l x : NoDup (map fst l) -> assoc x (sort_links ns l) = assoc x l.
Proof.
  intros H. apply assoc_perm; [apply sort_links_NoDup; exact H|apply sort_links_perm].
Qed.

(** same graph up to the order of the links *)
Record same_look (ns ns' : nodes_t) : Prop := {
  sl_keys : map fst ns' = map fst ns;
  sl_clook : forall p c, clook ns' p c = clook ns p c;
  sl_plook : forall c p, plook ns' c p = plook ns c p;
  sl_cond : forall c, condof ns' c = condof ns c;
  sl_hp : forall c, hpof ns' c = hpof ns c
}.

Lemma same_look_trans a b c : same_look a b -> same_look b c -> same_look a c.
Proof. intros [] []. constructor; intros; congruence. Qed.

Lemma shaped_same_look ns0 ns : shaped ns0 ns -> same_look ns0 ns.
Proof.
  intros H. destruct (shaped_look _ _ H) as (H1 & H2 & H3 & H4). destruct H.
  constructor; auto.
Qed.

Lemma resort_same_look child p ns : keys_ok ns -> same_look ns (resort child p ns).
Proof.
  intros Hk. unfold resort. constructor.
  - rewrite !upd_keys. reflexivity.
  - intros q y. unfold clook. rewrite !assoc_upd.
    destruct (String.eqb q child), (String.eqb q p); destruct (assoc q ns) as [m|] eqn:E; simpl; try reflexivity;
      apply sort_links_assoc; eapply Hk; eauto.
  - intros q y. unfold plook. rewrite !assoc_upd.
    destruct (String.eqb q child), (String.eqb q p); destruct (assoc q ns) as [m|] eqn:E; simpl; try reflexivity;
      apply sort_links_assoc; eapply Hk; eauto.
  - intros q. unfold condof. rewrite !assoc_upd.
    destruct (String.eqb q child), (String.eqb q p); destruct (assoc q ns) as [m|] eqn:E; reflexivity.
  - intros q. unfold hpof. rewrite !assoc_upd.
    destruct (String.eqb q child), (String.eqb q p); destruct (assoc q ns) as [m|] eqn:E; reflexivity.
Qed.

Lemma resort_depth child p ns y : depth_of (resort child p ns) y = depth_of ns y.
Proof.
  unfold depth_of, resort. rewrite !assoc_upd.
  destruct (String.eqb y child), (String.eqb y p); destruct (assoc y ns); reflexivity.
Qed.

Lemma resort_keys_ok child p ns : keys_ok ns -> keys_ok (resort child p ns).
Proof.
  intros Hk x n. unfold resort. rewrite !assoc_upd.
  destruct (String.eqb x child), (String.eqb x p); destruct (assoc x ns) as [m|] eqn:E; simpl; try discriminate;
    intros [= <-]; destruct (Hk _ _ E); simpl; split; try assumption; apply sort_links_NoDup; assumption.
Qed.

Lemma same_look_edge ns ns' x y : same_look ns ns' -> (edge ns' x y <-> edge ns x y).
Proof. intros []. rewrite !edge_clook, sl_clook0. tauto. Qed.

Lemma acyclic_iff (R S : string -> string -> Prop) :
  (forall x y, R x y <-> S x y) -> (acyclic R <-> acyclic S).
Proof. intros H. split; apply acyclic_mono; firstorder. Qed.

Lemma hpof_name ns x n : (forall x n, assoc x ns = Some n -> hp_name (n_hp n) = x) ->
  assoc x ns = Some n -> hpof ns x = Some (n_hp n) /\ hp_name (n_hp n) = x.
Proof. intros H Hn. unfold hpof. rewrite Hn. split; [reflexivity|eauto]. Qed.

(** edges added from the parents [ps] to [child] *)
Definition plus_edges (R : string -> string -> Prop) (ps : list string) (child : string) (x y : string) : Prop :=
  R x y \/ (In x ps /\ y = child).

Lemma link_edge c child p ns x y : In p (map fst ns) ->
  (edge (link c child p ns) x y <-> plus_edges (edge ns) [p] child x y).
Proof.
  intros Hp. unfold plus_edges. rewrite !edge_clook, link_clook by exact Hp. simpl.
  destruct (String.eqb_spec x p) as [->|Hx]; simpl.
  - destruct (String.eqb_spec y child) as [->|Hy]; simpl.
    + split; [auto|]. eauto.
    + split; [auto|]. intros [H|[_ H]]; [exact H|congruence].
  - split; [auto|]. intros [H|[[H|[]] _]]; [exact H|congruence].
Qed.

(** One successful or cyclic iteration of the loop over the parents *)
Lemma add_edge_step c child p ns :
  core ns -> In child (map fst ns) -> In p (map fst ns) ->
  (acyclic (plus_edges (edge ns) [p] child) /\ check_cyclic (link c child p ns) = Ok tt /\
   exists ns3,
     propagate (S (length (link c child p ns))) (link c child p ns) child
               (S (depth_of (link c child p ns) p)) = Ok ns3 /\
     core (resort child p ns3) /\ same_look (link c child p ns) (resort child p ns3) /\
     (forall x, depth_of ns x <= depth_of (resort child p ns3) x)) \/
  (~ acyclic (plus_edges (edge ns) [p] child) /\
   check_cyclic (link c child p ns) = Err CyclicDependancyError).
Proof.
  intros Hco Hc Hp.
  set (ns2 := link c child p ns).
  assert (Hk2 : map fst ns2 = map fst ns) by apply link_keys.
  assert (Hl2 : forall q y, clook ns2 q y = plook ns2 y q).
  { intros q y. unfold ns2. rewrite link_clook, link_plook by assumption.
    destruct (String.eqb q p && String.eqb y child)%bool; [reflexivity|]. apply co_link. exact Hco. }
  assert (Hcl2 : closed ns2) by (apply link_closed; exact Hl2).
  assert (He2 : forall x y, edge ns2 x y <-> plus_edges (edge ns) [p] child x y)
    by (intros; apply link_edge; exact Hp).
  assert (Hko2 : keys_ok ns2) by (apply link_keys_ok; exact (co_keys _ Hco)).
  destruct (check_cyclic_spec ns2 Hcl2) as [[Hcc Hac]|[Hcc Hac]].
  2: { right. split; [|exact Hcc]. rewrite <- (acyclic_iff _ _ He2). exact Hac. }
  left. split; [rewrite <- (acyclic_iff _ _ He2); exact Hac|]. split; [exact Hcc|].
  assert (Hc2 : In child (map fst ns2)) by (rewrite Hk2; exact Hc).
  destruct (propagate_spec ns2 Hac Hcl2 (S (length ns2)) ns2 child (S (depth_of ns2 p))) as (ns3 & Hpr & Hr).
  { split; [reflexivity|auto]. }
  { exact Hc2. }
  { intros k Hk. apply (chain_from_bound _ (map fst ns2)) in Hk; [|assumption|exact Hcl2|assumption].
    rewrite map_length in Hk. lia. }
  exists ns3. split; [exact Hpr|].
  assert (Hsh := r_shape _ _ _ _ _ Hr).
  assert (Hko3 : keys_ok ns3) by (eapply shaped_keys_ok; eauto).
  assert (Hsl : same_look ns2 (resort child p ns3)).
  { eapply same_look_trans; [apply shaped_same_look; exact Hsh|apply resort_same_look; exact Hko3]. }
  assert (He5 : forall x y, edge (resort child p ns3) x y <-> edge ns2 x y)
    by (intros; apply same_look_edge; exact Hsl).
  split; [|split; [exact Hsl|]].
  - constructor.
    + rewrite (sl_keys _ _ Hsl), Hk2. apply Hco.
    + intros x n Hn. assert (H : hpof (resort child p ns3) x = Some (n_hp n)) by (unfold hpof; rewrite Hn; reflexivity).
      rewrite (sl_hp _ _ Hsl) in H. unfold ns2 in H. rewrite link_hpof in H. unfold hpof in H.
      destruct (assoc x ns) as [m|] eqn:Em; [|discriminate]. simpl in H. injection H as H. rewrite <- H.
      eapply co_name; eauto.
    + exact (resort_keys_ok _ _ _ Hko3).
    + intros q y. rewrite (sl_clook _ _ Hsl), (sl_plook _ _ Hsl). apply Hl2.
    + rewrite (acyclic_iff _ _ He5). exact Hac.
    + intros u v Huv. rewrite !resort_depth. apply He5 in Huv.
      assert (Hd := Huv). apply He2 in Hd. destruct Hd as [Hold|[[<-|[]] ->]].
      * apply (r_sat _ _ _ _ _ Hr); [exact Huv|]. unfold sat, ns2. rewrite !link_depth. apply Hco. exact Hold.
      * rewrite (r_here _ _ _ _ _ Hr). rewrite (r_far _ _ _ _ _ Hr p).
        -- lia.
        -- intros ->. apply (Hac child). apply t_step. exact Huv.
        -- intros H. apply (Hac p). eapply t_trans; [apply t_step; exact Huv|exact H].
    + intros x Hx. rewrite resort_depth.
      rewrite (sl_keys _ _ Hsl), Hk2 in Hx.
      apply (chain_to_mono (edge ns2)); [intros a b; apply He5|].
      assert (Hmono : forall a b, edge ns a b -> edge ns2 a b) by (intros a b H; apply He2; left; exact H).
      apply (r_wit _ _ _ _ _ Hr).
      * eapply ct_step; [|apply He2; right; split; [left; reflexivity|reflexivity]].
        unfold ns2. rewrite link_depth. eapply chain_to_mono; [exact Hmono|]. apply Hco. exact Hp.
      * rewrite Hk2. exact Hx.
      * unfold ns2 at 2. rewrite link_depth. eapply chain_to_mono; [exact Hmono|]. apply Hco. exact Hx.
  - intros x. rewrite resort_depth. rewrite <- (link_depth c child p ns x). apply (r_mono _ _ _ _ _ Hr).
Qed.

(** ** The loop over the parents *)
Lemma plus_edges_cons (R : string -> string -> Prop) p ps child x y :
  plus_edges (plus_edges R [p] child) ps child x y <-> plus_edges R (p :: ps) child x y.
Proof. unfold plus_edges. simpl. intuition. Qed.

Lemma plus_edges_iff (R S : string -> string -> Prop) ps child :
  (forall x y, R x y <-> S x y) -> forall x y, plus_edges R ps child x y <-> plus_edges S ps child x y.
Proof. intros H x y. unfold plus_edges. rewrite H. tauto. Qed.

Lemma add_edges_spec c child : cond_eqb c c = true -> forall ps ns,
  core ns -> In child (map fst ns) ->
  (forall p cnd, In p ps -> plook ns child p = Some cnd -> cond_eqb c cnd = true) ->
  ((forall p, In p ps -> In p (map fst ns)) /\ acyclic (plus_edges (edge ns) ps child) /\
   exists ns', add_edges c child ps ns = (ns', Ok tt) /\ core ns' /\
     map fst ns' = map fst ns /\ (forall y, hpof ns' y = hpof ns y) /\
     (forall y, condof ns' y = if (String.eqb y child && negb (Nat.eqb (length ps) 0))%bool then Some c else condof ns y) /\
     (forall y q, plook ns' y q = if (String.eqb y child && str_in q ps)%bool then Some c else plook ns y q) /\
     (forall x y, edge ns' x y <-> plus_edges (edge ns) ps child x y)) \/
  (exists ns' e, add_edges c child ps ns = (ns', Err e) /\
     ((e = ParentNotFoundError /\ exists p, In p ps /\ ~ In p (map fst ns)) \/
      (e = CyclicDependancyError /\ ~ acyclic (plus_edges (edge ns) ps child)))).
Proof.
  intros Hcc. induction ps as [|p ps IH]; intros ns Hco Hc Hlab.
  - left. split; [simpl; tauto|]. split.
    { eapply acyclic_mono; [|apply Hco]. intros x y [H|[[] _]]. exact H. }
    exists ns. split; [reflexivity|]. split; [exact Hco|]. split; [reflexivity|]. split; [reflexivity|].
    split; [intros y; simpl; rewrite andb_false_r; reflexivity|].
    split; [intros y q; simpl; rewrite andb_false_r; reflexivity|].
    intros x y. unfold plus_edges. simpl. tauto.
  - rewrite add_edges_cons.
    destruct (assoc p ns) as [pn|] eqn:Ep.
    2: { right. exists ns, ParentNotFoundError. split; [reflexivity|]. left. split; [reflexivity|].
         exists p. split; [left; reflexivity|]. apply assoc_None. exact Ep. }
    assert (Hp : In p (map fst ns)) by (apply assoc_Some_key; eauto).
    assert (Hex : match assoc child (n_children pn) with Some c' => negb (cond_eqb c c') | None => false end = false).
    { destruct (assoc child (n_children pn)) as [c'|] eqn:El; [|reflexivity].
      assert (Hl : clook ns p child = Some c') by (unfold clook; rewrite Ep; exact El).
      rewrite (co_link _ Hco) in Hl. rewrite (Hlab p c'); [reflexivity|left; reflexivity|exact Hl]. }
    rewrite Hex.
    destruct (add_edge_step c child p ns Hco Hc Hp) as [(Hac & Hck & ns3 & Hpr & Hco5 & Hsl & Hd)|(Hac & Hck)].
    2: { right. rewrite Hck. exists (link c child p ns), CyclicDependancyError. split; [reflexivity|].
         right. split; [reflexivity|]. intros H. apply Hac. eapply acyclic_mono; [|exact H].
         intros x y [G|[[<-|[]] ->]]; [left; exact G|right; split; [left; reflexivity|reflexivity]]. }
    rewrite Hck, Hpr.
    set (ns5 := resort child p ns3) in *.
    assert (Hk : map fst ns5 = map fst ns) by (rewrite (sl_keys _ _ Hsl); apply link_keys).
    assert (He : forall x y, edge ns5 x y <-> plus_edges (edge ns) [p] child x y).
    { intros x y. rewrite (same_look_edge _ _ x y Hsl). apply link_edge. exact Hp. }
    assert (Hpl : forall y q, plook ns5 y q = if (String.eqb q p && String.eqb y child)%bool then Some c else plook ns y q).
    { intros y q. rewrite (sl_plook _ _ Hsl). apply link_plook. exact Hc. }
    assert (Hee : forall x y, plus_edges (edge ns5) ps child x y <-> plus_edges (edge ns) (p :: ps) child x y).
    { intros x y. rewrite (plus_edges_iff _ _ ps child He x y). apply plus_edges_cons. }
    destruct (IH ns5 Hco5) as [(Hps & Hac' & ns' & Hr & Hco' & Hk' & Hh' & Hcd' & Hpl' & He')|(ns' & e & Hr & Hcase)].
    + rewrite Hk. exact Hc.
    + intros q cnd Hq. rewrite Hpl, String.eqb_refl, andb_true_r.
      destruct (String.eqb q p); [intros [= <-]; exact Hcc|]. apply Hlab. right. exact Hq.
    + left. rewrite Hk in Hps. split; [intros q [<-|Hq]; auto|].
      split; [rewrite <- (acyclic_iff _ _ Hee); exact Hac'|].
      exists ns'. split; [exact Hr|]. split; [exact Hco'|]. split; [congruence|].
      split; [intros y; rewrite Hh', (sl_hp _ _ Hsl); apply link_hpof|].
      split; [|split].
      * intros y. rewrite Hcd', (sl_cond _ _ Hsl), link_condof by exact Hc. simpl. rewrite andb_true_r.
        destruct (String.eqb y child); simpl; [|reflexivity]. destruct ps; reflexivity.
      * intros y q. rewrite Hpl', Hpl. rewrite str_in_cons.
        destruct (String.eqb y child), (String.eqb q p), (str_in q ps); reflexivity.
      * intros x y. rewrite He'. apply Hee.
    + right. exists ns', e. split; [exact Hr|]. destruct Hcase as [(-> & q & Hq & Hn)|(-> & Hn)].
      * left. split; [reflexivity|]. exists q. split; [right; exact Hq|]. rewrite <- Hk. exact Hn.
      * right. split; [reflexivity|]. rewrite <- (acyclic_iff _ _ Hee). exact Hn.
Qed.

(** ** The complete invariant between transactions *)
Section GraphOk.
  Context {E : Env}.
Record graph_ok (ns : nodes_t) : Prop := {
  g_core : core ns;
  g_label : forall c p cnd, plook ns c p = Some cnd -> condof ns c = Some cnd;
  g_parents : forall c cnd, condof ns c = Some cnd ->
      forall p, In p (cond_parents cnd) <-> exists x, plook ns c p = Some x;
  g_child : forall c cnd, condof ns c = Some cnd -> option_map hp_name (cond_child cnd) = Some c;
  g_wf : forall c cnd, condof ns c = Some cnd -> cond_wf cnd
}.

Definition child_name (c : cond) : option string := option_map hp_name (cond_child c).

Inductive ac_outcome (ns : nodes_t) (c : cond) (child : string) : nodes_t * res unit -> Prop :=
| AO_child : ~ In child (map fst ns) -> ac_outcome ns c child (ns, Err ChildNotFoundError)
| AO_ambiguous c' : In child (map fst ns) -> condof ns child = Some c' -> cond_eqb c c' = false ->
    ac_outcome ns c child (ns, Err AmbiguousConditionError)
| AO_parent ns' p : In child (map fst ns) ->
    (forall c', condof ns child = Some c' -> cond_eqb c c' = true) ->
    In p (cond_parents c) -> ~ In p (map fst ns) ->
    ac_outcome ns c child (ns', Err ParentNotFoundError)
| AO_cyclic ns' : In child (map fst ns) ->
    (forall c', condof ns child = Some c' -> cond_eqb c c' = true) ->
    ~ acyclic (plus_edges (edge ns) (cond_parents c) child) ->
    ac_outcome ns c child (ns', Err CyclicDependancyError)
| AO_ok ns' : In child (map fst ns) ->
    (forall c', condof ns child = Some c' -> cond_eqb c c' = true) ->
    (forall p, In p (cond_parents c) -> In p (map fst ns)) ->
    acyclic (plus_edges (edge ns) (cond_parents c) child) ->
    graph_ok ns' -> map fst ns' = map fst ns -> (forall y, hpof ns' y = hpof ns y) ->
    (forall y, condof ns' y = if String.eqb y child then Some c else condof ns y) ->
    (forall x y, edge ns' x y <-> plus_edges (edge ns) (cond_parents c) child x y) ->
    ac_outcome ns c child (ns', Ok tt).

Lemma dlcs_child c : dlcs c <> [] -> exists ch, cond_child c = Some ch.
Proof. unfold cond_child. destruct (dlcs c); [congruence|simpl; eauto]. Qed.

Lemma add_condition_spec ns c child :
  graph_ok ns -> cond_wf c -> child_name c = Some child ->
  ac_outcome ns c child (add_condition ns c).
Proof.
  intros G W Hch. unfold child_name in Hch. unfold add_condition.
  destruct (cond_child c) as [ch|] eqn:Ech; [|discriminate]. simpl in Hch. injection Hch as Hch. rewrite Hch.
  destruct (assoc child ns) as [cn|] eqn:Ec.
  2: { apply AO_child. apply assoc_None. exact Ec. }
  assert (Hc : In child (map fst ns)) by (apply assoc_Some_key; eauto).
  assert (Hcd : condof ns child = n_cond cn) by (unfold condof; rewrite Ec; reflexivity).
  destruct (match n_cond cn with Some c' => negb (cond_eqb c c') | None => false end) eqn:Ea.
  { destruct (n_cond cn) as [c'|] eqn:En; [|discriminate]. apply negb_true_iff in Ea.
    apply (AO_ambiguous _ _ _ c'); assumption. }
  assert (Hcompat : forall c', condof ns child = Some c' -> cond_eqb c c' = true).
  { intros c' H. rewrite Hcd in H. rewrite H in Ea. apply negb_false_iff in Ea. exact Ea. }
  destruct (add_edges_spec c child (cond_eqb_refl c W) (cond_parents c) ns (g_core _ G) Hc)
    as [(Hps & Hac & ns' & -> & Hco & Hk & Hh & Hcd' & Hpl & He)|(ns' & e & -> & [(-> & p & Hp & Hn)|(-> & Hn)])].
  - intros p cnd Hp Hl. apply Hcompat. eapply g_label; eauto.
  - assert (Hne : Nat.eqb (length (cond_parents c)) 0 = false).
    { unfold cond_parents. rewrite map_length. unfold cond_child in Ech.
      destruct (dlcs c); [discriminate|reflexivity]. }
    assert (Hcd2 : forall y, condof ns' y = if String.eqb y child then Some c else condof ns y).
    { intros y. rewrite Hcd', Hne. simpl. rewrite andb_true_r. reflexivity. }
    apply AO_ok; auto.
    constructor.
    + exact Hco.
    + intros y q cnd. rewrite Hpl, Hcd2. destruct (String.eqb_spec y child) as [->|Hy]; simpl.
      * destruct (str_in q (cond_parents c)) eqn:Eq; [auto|]. intros Hl. exfalso.
        assert (Hold := g_label _ G _ _ _ Hl). apply str_in_false in Eq. apply Eq.
        apply (cond_eqb_parents c cnd W); [eapply g_wf; eauto|auto|].
        eapply g_parents; eauto.
      * apply (g_label _ G).
    + intros y cnd. rewrite Hcd2. destruct (String.eqb_spec y child) as [->|Hy]; simpl.
      * intros [= <-] p. rewrite Hpl, String.eqb_refl. simpl.
        destruct (str_in p (cond_parents c)) eqn:Eq.
        -- apply str_in_iff in Eq. split; eauto.
        -- split; [intros H; apply str_in_iff in H; congruence|]. intros (x & Hx).
           assert (Hold := g_label _ G _ _ _ Hx).
           apply (cond_eqb_parents c x W); [eapply g_wf; eauto|auto|]. eapply g_parents; eauto.
      * intros Hy2 p. rewrite Hpl. apply String.eqb_neq in Hy. rewrite Hy. simpl.
        apply (g_parents _ G). exact Hy2.
    + intros y cnd. rewrite Hcd2. destruct (String.eqb_spec y child) as [->|Hy].
      * intros [= <-]. rewrite Ech. simpl. congruence.
      * apply (g_child _ G).
    + intros y cnd. rewrite Hcd2. destruct (String.eqb y child); [intros [= <-]; exact W|apply (g_wf _ G)].
  - eapply AO_parent; eauto.
  - apply AO_cyclic; assumption.
Qed.

(** a node without a condition has no parents and depth one; a node with one is deeper *)
Lemma graph_depth_root ns x n : graph_ok ns -> assoc x ns = Some n ->
  (n_cond n = None <-> n_depth n = 1).
Proof.
  intros G Hn.
  assert (Hx : In x (map fst ns)) by (apply assoc_Some_key; eauto).
  assert (Hd : depth_of ns x = n_depth n) by (unfold depth_of; rewrite Hn; reflexivity).
  assert (Hcd : condof ns x = n_cond n) by (unfold condof; rewrite Hn; reflexivity).
  pose proof (co_wit _ (g_core _ G) x Hx) as Hw. rewrite Hd in Hw.
  split.
  - intros Hnone. inversion Hw as [|u v k Hu Huv]; [reflexivity|]. subst.
    apply edge_clook in Huv. destruct Huv as (cnd & Hl). rewrite (co_link _ (g_core _ G)) in Hl.
    apply (g_label _ G) in Hl. congruence.
  - intros H1. destruct (n_cond n) as [cnd|] eqn:En; [|reflexivity]. exfalso.
    assert (Hch := g_child _ G _ _ Hcd). unfold cond_child in Hch.
    destruct (dlcs cnd) as [|l ls] eqn:Edl; [discriminate|].
    assert (Hp : In (parent_name l) (cond_parents cnd)) by (unfold cond_parents; rewrite Edl; left; reflexivity).
    apply (g_parents _ G _ _ Hcd) in Hp. destruct Hp as (y & Hy).
    rewrite <- (co_link _ (g_core _ G)) in Hy.
    assert (He : edge ns (parent_name l) x) by (apply edge_clook; eauto).
    pose proof (co_sat _ (g_core _ G) _ _ He) as Hs. rewrite Hd, H1 in Hs.
    pose proof (chain_to_pos _ _ _ (co_wit _ (g_core _ G) _ (edge_source _ _ _ He))). lia.
Qed.

(** ** Adding a hyperparameter *)
Lemma graph_ok_add ns h : graph_ok ns -> ~ In (hp_name h) (map fst ns) ->
  graph_ok (ns ++ [(hp_name h, mk_node h 1 [] [] None)]).
Proof.
  intros G Hn. set (ns' := ns ++ [(hp_name h, mk_node h 1 [] [] None)]).
  assert (Hk : map fst ns' = map fst ns ++ [hp_name h]) by (unfold ns'; rewrite map_app; reflexivity).
  assert (Ha : forall x, assoc x ns' = match assoc x ns with Some n => Some n | None =>
                 if String.eqb x (hp_name h) then Some (mk_node h 1 [] [] None) else None end).
  { intros x. unfold ns'. rewrite assoc_app. destruct (assoc x ns); [reflexivity|]. reflexivity. }
  assert (Hcl : forall p c, clook ns' p c = clook ns p c).
  { intros p c. unfold clook. rewrite Ha. destruct (assoc p ns); [reflexivity|].
    destruct (String.eqb p (hp_name h)); reflexivity. }
  assert (Hpl : forall p c, plook ns' c p = plook ns c p).
  { intros p c. unfold plook. rewrite Ha. destruct (assoc c ns); [reflexivity|].
    destruct (String.eqb c (hp_name h)); reflexivity. }
  assert (Hcd : forall c, condof ns' c = condof ns c).
  { intros c. unfold condof. rewrite Ha. destruct (assoc c ns); [reflexivity|].
    destruct (String.eqb c (hp_name h)); reflexivity. }
  assert (He : forall x y, edge ns' x y <-> edge ns x y).
  { intros x y. rewrite !edge_clook, Hcl. tauto. }
  assert (Hd : forall x, In x (map fst ns) -> depth_of ns' x = depth_of ns x).
  { intros x Hx. apply assoc_Some_key in Hx. destruct Hx as (n & Hx). unfold depth_of. rewrite Ha, Hx. reflexivity. }
  destruct G as [Hco Hlab Hpar Hchd Hwf]. constructor.
  - constructor.
    + rewrite Hk. apply (Permutation_NoDup (l := hp_name h :: map fst ns)).
      * apply Permutation_cons_append.
      * constructor; [exact Hn|apply Hco].
    + intros x n. rewrite Ha. destruct (assoc x ns) eqn:Ex; [intros [= <-]; eapply co_name; eauto|].
      destruct (String.eqb_spec x (hp_name h)) as [->|]; [|discriminate]. intros [= <-]. reflexivity.
    + intros x n. rewrite Ha. destruct (assoc x ns) eqn:Ex; [intros [= <-]; eapply co_keys; eauto|].
      destruct (String.eqb x (hp_name h)); [|discriminate]. intros [= <-]. simpl. split; constructor.
    + intros p c. rewrite Hcl, Hpl. apply Hco.
    + rewrite (acyclic_iff _ _ He). apply Hco.
    + intros u v Huv. apply He in Huv. rewrite !Hd; [apply Hco; exact Huv| |].
      * eapply core_closed; eauto.
      * eapply edge_source; eauto.
    + intros x Hx. rewrite Hk, in_app_iff in Hx. apply (chain_to_mono (edge ns)); [intros a b; apply He|].
      destruct (in_dec string_dec x (map fst ns)) as [Hi|Hi].
      * rewrite Hd by exact Hi. apply Hco. exact Hi.
      * destruct Hx as [Hx|[<-|[]]]; [tauto|]. unfold depth_of. rewrite Ha.
        apply assoc_None in Hi. rewrite Hi, String.eqb_refl. constructor.
  - intros c p cnd. rewrite Hpl, Hcd. apply Hlab.
  - intros c cnd. rewrite Hcd. intros H p. rewrite Hpl. apply Hpar. exact H.
  - intros c cnd. rewrite Hcd. apply Hchd.
  - intros c cnd. rewrite Hcd. apply Hwf.
Qed.

Lemma graph_ok_empty : graph_ok [].
Proof.
  constructor; [constructor|..]; try discriminate.
  - constructor.
  - reflexivity.
  - intros x Hx. apply clos_trans_t1n in Hx. inversion Hx as [y H|y z H H2]; subst; exact H.
  - intros u v [].
  - intros x [].
Qed.

(** the invariant only depends on the nodes as a set *)
Lemma graph_ok_perm ns ns' : Permutation ns ns' -> graph_ok ns -> graph_ok ns'.
Proof.
  intros P G. assert (ND := co_nodup _ (g_core _ G)).
  assert (Ha : forall x, assoc x ns' = assoc x ns) by (intros x; symmetry; apply assoc_perm; assumption).
  assert (Hk : forall x, In x (map fst ns') <-> In x (map fst ns)).
  { intros x. split; apply Permutation_in; apply Permutation_map; [symmetry|]; exact P. }
  assert (He : forall x y, edge ns' x y <-> edge ns x y).
  { intros x y. unfold edge, children_names. rewrite Ha. tauto. }
  destruct G as [Hco Hlab Hpar Hchd Hwf].
  constructor; unfold plook, condof in *.
  - constructor.
    + eapply Permutation_NoDup; [apply Permutation_map; exact P|exact ND].
    + intros x n. rewrite Ha. apply Hco.
    + intros x n. rewrite Ha. apply Hco.
    + intros p c. unfold clook, plook. rewrite !Ha. apply Hco.
    + rewrite (acyclic_iff _ _ He). apply Hco.
    + intros u v Huv. apply He in Huv. unfold depth_of. rewrite !Ha. apply Hco. exact Huv.
    + intros x Hx. apply Hk in Hx. unfold depth_of. rewrite Ha.
      apply (chain_to_mono (edge ns)); [intros a b; apply He|]. apply Hco. exact Hx.
  - intros c p cnd. rewrite Ha. apply Hlab.
  - intros c cnd. rewrite Ha. intros H p. apply Hpar. exact H.
  - intros c cnd. rewrite Ha. apply Hchd.
  - intros c cnd. rewrite Ha. apply Hwf.
Qed.
End GraphOk.
