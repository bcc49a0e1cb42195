(** * The shared activation checks (minimum_conditions) and change_hp_lookup *)
From Coq Require Import String List ZArith Bool Lia Permutation Relations Sorting.Sorted.
From Verif Require Import Base ListFacts Numeric HP HPProofs Cond Forb EqFacts Dag DagCycle DagProofs Space
  CommitProofs Spec SpaceProofs.
Import ListNotations.
Open Scope nat_scope.

Section Cnodes.
  Context {E : Env} {L : EnvLaws E}.

  Lemma lit_equiv_refl l : lit_wf l -> lit_equiv l l = true.
  Proof. intros [_ W]. unfold lit_equiv. rewrite hp_eqb_refl by exact W. apply test_eqb_refl. Qed.

  Lemma cond_equiv_refl c : cond_wf c -> cond_equiv c c = true.
  Proof.
    induction c as [l|cs IH|cs IH] using cond_ind'; intros W.
    - simpl. apply lit_equiv_refl, cond_wf_lit, W.
    - simpl. rewrite Nat.eqb_refl. simpl. apply forallb_forall. intros x Hx. apply existsb_exists. exists x.
      split; [exact Hx|]. rewrite Forall_forall in IH. apply IH; [exact Hx|]. exact (cond_wf_in x cs W Hx).
    - simpl. rewrite Nat.eqb_refl. simpl. apply forallb_forall. intros x Hx. apply existsb_exists. exists x.
      split; [exact Hx|]. rewrite Forall_forall in IH. apply IH; [exact Hx|]. exact (cond_wf_in x cs W Hx).
  Qed.

  (** all the hyperparameters handled by a list of condition nodes *)
  Definition handled (cns : list cnode) : list nat := concat (map cn_children cns).

  Definition cond_at (ns : nodes_t) (i : nat) : option cond :=
    match nth_error ns i with Some e => n_cond (snd e) | None => None end.

  (** a condition node and the hyperparameters it handles *)
  Definition cnode_ok (ns : nodes_t) (cn : cnode) : Prop :=
    (exists i rest, cn_children cn = i :: rest /\ cond_at ns i = Some (cn_cond cn)) /\
    forall i, In i (cn_children cn) -> exists c, cond_at ns i = Some c /\ cond_equiv (cn_cond cn) c = true.

  Lemma add_cnode_handled c i cns : Permutation (handled (add_cnode c i cns)) (i :: handled cns).
  Proof.
    unfold handled. induction cns as [|a cns IH]; simpl; [constructor; constructor|].
    destruct (cond_equiv (cn_cond a) c); simpl.
    - rewrite <- app_assoc. simpl. symmetry. apply Permutation_middle.
    - rewrite IH. symmetry. apply Permutation_middle.
  Qed.

  Lemma add_cnode_ok ns c i cns : cond_wf c -> cond_at ns i = Some c ->
    Forall (cnode_ok ns) cns -> Forall (cnode_ok ns) (add_cnode c i cns).
  Proof.
    intros W Hi. induction cns as [|a cns IH]; simpl; intros H.
    - constructor; [|constructor]. split; simpl.
      + exists i, []. auto.
      + intros j [<-|[]]. exists c. split; [exact Hi|apply cond_equiv_refl; exact W].
    - inversion H as [|? ? Ha Hr]; subst. destruct (cond_equiv (cn_cond a) c) eqn:Eq.
      + constructor; [|exact Hr]. destruct Ha as [(j & rest & Hj & Hc) Hall]. split; simpl.
        * exists j, (rest ++ [i]). rewrite Hj. auto.
        * intros k Hk. rewrite in_app_iff in Hk. destruct Hk as [Hk|[<-|[]]]; [auto|]. exists c. auto.
      + constructor; auto.
  Qed.

  Definition conditional_idxs (ns : nodes_t) : list nat :=
    filter (fun i => match cond_at ns i with Some _ => true | None => false end) (seq 0 (length ns)).

  Lemma min_conds_spec roots ns : (forall i c, cond_at ns i = Some c -> cond_wf c) ->
    (forall e, In e ns -> n_cond (snd e) = None -> In (fst e) roots) ->
    exists mc, min_conds roots 0 ns [] = Ok mc /\ Forall (cnode_ok ns) mc /\
      Permutation (handled mc) (conditional_idxs ns).
  Proof.
    intros W R.
    assert (G : forall l pre acc, ns = pre ++ l ->
       Forall (cnode_ok ns) acc ->
       exists mc, min_conds roots (length pre) l acc = Ok mc /\ Forall (cnode_ok ns) mc /\
         Permutation (handled mc) (handled acc ++
            filter (fun i => match cond_at ns i with Some _ => true | None => false end) (seq (length pre) (length l)))).
    { induction l as [|[x nd] l IH]; intros pre acc Hns Hacc.
      - simpl. exists acc. rewrite app_nil_r. auto.
      - assert (Hat : cond_at ns (length pre) = n_cond nd).
        { unfold cond_at. rewrite Hns, nth_error_app2, Nat.sub_diag by lia. reflexivity. }
        assert (Hns' : ns = (pre ++ [(x, nd)]) ++ l) by (rewrite <- app_assoc; exact Hns).
        assert (Hl : length (pre ++ [(x, nd)]) = S (length pre)) by (rewrite app_length; simpl; lia).
        simpl. destruct (n_cond nd) as [c|] eqn:Ec.
        + destruct (IH _ (add_cnode c (length pre) acc) Hns') as (mc & H1 & H2 & H3).
          { apply add_cnode_ok; auto. eapply W; eauto. }
          rewrite Hl in *. exists mc. split; [exact H1|]. split; [exact H2|]. rewrite H3, Hat.
          rewrite add_cnode_handled. simpl. apply Permutation_middle.
        + assert (Hr : str_in x roots = true).
          { apply str_in_iff. apply (R (x, nd)); [|exact Ec]. rewrite Hns. apply in_or_app. right. left. reflexivity. }
          rewrite Hr. destruct (IH _ acc Hns' Hacc) as (mc & H1 & H2 & H3).
          rewrite Hl in *. exists mc. split; [exact H1|]. split; [exact H2|]. rewrite H3, Hat. reflexivity. }
    destruct (G ns [] []) as (mc & H1 & H2 & H3); [reflexivity|constructor|]. exists mc. auto.
  Qed.

  (** ** What the nodes of a graph say about [cond_at] *)
  Lemma cond_at_condof ns i x : NoDup (map fst ns) -> nth_error (map fst ns) i = Some x ->
    cond_at ns i = condof ns x.
  Proof.
    intros ND H. rewrite nth_error_map in H. unfold cond_at, condof. destruct (nth_error ns i) as [[y nd]|] eqn:Ei; [|discriminate].
    simpl in H. inversion H; subst. rewrite (In_assoc x nd ns); [reflexivity|exact ND|]. eapply nth_error_In; eauto.
  Qed.
  Lemma cond_at_name ns i c : cond_at ns i = Some c -> exists x, nth_error (map fst ns) i = Some x.
  Proof.
    unfold cond_at. rewrite nth_error_map. destruct (nth_error ns i) as [[y nd]|]; [|discriminate]. simpl. eauto.
  Qed.

  (** ** The lookup table: the loops end *)
  Section Lookup.
    Variables (ns : nodes_t) (cns : list cnode).
    Hypothesis G : graph_ok ns.
    Hypothesis OK : Forall (cnode_ok ns) cns.
    Let atl := map fst ns.
    Let n := length cns.

    (** least depth of a child *)
    Definition mind (i : nat) : nat := list_min (map (fun k => depth_of ns (nth k atl ""%string)) (cn_children (cn_at cns i))).

    Lemma fold_min_le l : forall x y, In y l \/ y = x -> fold_left Nat.min l x <= y.
    Proof.
      induction l as [|a l IH]; intros x y; simpl; [intros [[]|<-]; lia|].
      intros [[->|H]| ->].
      - etransitivity; [apply IH; right; reflexivity|]. lia.
      - apply IH. auto.
      - etransitivity; [apply IH; right; reflexivity|]. lia.
    Qed.
    Lemma list_min_le l x : In x l -> list_min l <= x.
    Proof. destruct l as [|a l]; simpl; [tauto|]. intros H. apply fold_min_le. destruct H; auto. Qed.
    Lemma fold_min_in l : forall x, In (fold_left Nat.min l x) (x :: l).
    Proof.
      induction l as [|a l IH]; intros x; simpl; [auto|].
      destruct (IH (Nat.min x a)) as [H|H].
      - destruct (Nat.min_dec x a) as [e|e]; rewrite e in H |- *; rewrite <- H; auto.
      - auto.
    Qed.
    Lemma list_min_in l : l <> [] -> In (list_min l) l.
    Proof. destruct l as [|a l]; [congruence|]. intros _. apply (fold_min_in l a). Qed.
    Lemma list_min_glb l m : l <> [] -> (forall x, In x l -> m <= x) -> m <= list_min l.
    Proof. intros H1 H2. apply H2, list_min_in, H1. Qed.

    Lemma cn_at_ok i : i < n -> cnode_ok ns (cn_at cns i).
    Proof. intros H. unfold cn_at. rewrite Forall_forall in OK. apply OK. apply nth_In. exact H. Qed.

    (** the children of a condition node are deeper than its parents *)
    Lemma mind_parent i p : i < n -> In p (cond_parents (cn_cond (cn_at cns i))) -> depth_of ns p < mind i.
    Proof.
      intros Hi Hp. destruct (cn_at_ok i Hi) as [(k & rest & Hk & _) Hall].
      unfold mind. apply list_min_glb; [rewrite Hk; discriminate|].
      intros d Hd. apply in_map_iff in Hd. destruct Hd as (j & <- & Hj).
      destruct (Hall j Hj) as (c & Hc & Hq). destruct (cond_at_name _ _ _ Hc) as (x & Hx).
      assert (Hn : nth j atl ""%string = x) by (unfold atl; apply nth_error_nth; exact Hx). rewrite Hn.
      rewrite (cond_at_condof ns j x (co_nodup _ (g_core _ G)) Hx) in Hc.
      assert (Hp' : In p (cond_parents c)) by (eapply cond_equiv_parents; eauto).
      apply (g_parents _ G _ _ Hc) in Hp'. destruct Hp' as (y & Hy).
      assert (He : edge ns p x) by (apply edge_clook; rewrite (co_link _ (g_core _ G)); eauto).
      apply (co_sat _ (g_core _ G) _ _ He).
    Qed.

    Definition deps_ok (deps : list (list nat)) : Prop :=
      length deps = n /\ forall a b, In b (nth a deps []) -> a < n /\ b < n /\ mind a < mind b.

    Lemma dep_names_mind deps : deps_ok deps -> forall f a p, a < n ->
      In p (dep_names f atl cns deps a) -> mind a <= depth_of ns p.
    Proof.
      intros [Hl D]. induction f as [|f IH]; intros a p Ha; simpl; [tauto|].
      rewrite in_app_iff. intros [H|H].
      - apply in_map_iff in H. destruct H as (k & <- & Hk). apply list_min_le. apply in_map_iff. eauto.
      - apply in_concat in H. destruct H as (x & Hx & Hp). apply in_map_iff in Hx. destruct Hx as (b & <- & Hb).
        destruct (D a b Hb) as (_ & Hbn & Hlt). specialize (IH b p Hbn Hp). lia.
    Qed.

    Lemma depends_on_mind deps a b : deps_ok deps -> a < n -> b < n ->
      depends_on atl cns deps b a = true -> mind a < mind b.
    Proof.
      intros D Ha Hb H. unfold depends_on in H. apply existsb_exists in H. destruct H as (p & Hp & H).
      apply str_in_iff in H. apply (dep_names_mind deps D) in H; [|exact Ha].
      pose proof (mind_parent b p Hb Hp). lia.
    Qed.

    Lemma sort_ids_In l x : In x (sort_ids ns cns l) <-> In x l.
    Proof. apply py_sorted_In. Qed.

    Lemma nth_set_nth {A} i j (a d : A) l : nth j (set_nth i a l) d = if (Nat.eqb j i && Nat.ltb i (length l))%bool then a else nth j l d.
    Proof.
      destruct (Nat.eqb_spec j i) as [->|Hne]; simpl.
      - destruct (Nat.ltb i (length l)) eqn:El.
        + apply Nat.ltb_lt in El. apply nth_set_nth_eq. exact El.
        + apply Nat.ltb_ge in El. rewrite !nth_overflow; [reflexivity|exact El|rewrite set_nth_length; exact El].
      - apply nth_set_nth_ne. exact Hne.
    Qed.

    Lemma deps_ok_set deps a b : deps_ok deps -> a < n -> b < n -> mind a < mind b ->
      deps_ok (set_nth a (sort_ids ns cns (nth a deps [] ++ [b])) deps).
    Proof.
      intros [Hl D] Ha Hb Hm. split; [rewrite set_nth_length; exact Hl|].
      intros x y. rewrite nth_set_nth. destruct (Nat.eqb x a && Nat.ltb a (length deps))%bool eqn:Ex; [|apply D].
      apply andb_true_iff in Ex. destruct Ex as [Ex _]. apply Nat.eqb_eq in Ex. subst x.
      rewrite sort_ids_In, in_app_iff. intros [H|[<-|[]]]; [apply D; exact H|auto].
    Qed.

    (** one pass over pairs *)
    Lemma dep_pass_spec values deps trees : deps_ok deps -> (forall x, In x values -> x < n) ->
      (forall x, In x trees -> In x values) ->
      let '(deps', trees', upd) := dep_pass ns atl cns values deps trees in
      deps_ok deps' /\ incl trees' trees /\ length trees' <= length trees /\
      (upd = true -> (forall x, In x values -> In x trees) -> length trees' < length trees).
    Proof.
      intros D Hv Ht. unfold dep_pass.
      set (step := fun st ab => let '(deps, trees, upd) := st in let '(a, b) := ab in
        if Nat.eqb a b then st else if depends_on atl cns deps b a
        then (set_nth a (sort_ids ns cns (nth a deps [] ++ [b])) deps, filter (fun t => negb (Nat.eqb t b)) trees, true)
        else st).
      assert (Flt : forall b (l : list nat), length (filter (fun t => negb (Nat.eqb t b)) l) <= length l).
      { intros b l. induction l as [|y l IH]; simpl; [lia|]. destruct (negb (Nat.eqb y b)); simpl; lia. }
      assert (Fst : forall b (l : list nat), In b l -> length (filter (fun t => negb (Nat.eqb t b)) l) < length l).
      { intros b l. induction l as [|y l IH]; simpl; [tauto|]. intros [->|H].
        - rewrite Nat.eqb_refl. simpl. specialize (Flt b l). lia.
        - specialize (IH H). destruct (negb (Nat.eqb y b)); simpl; lia. }
      assert (Gn : forall pairs deps0 trees0 upd0,
        (forall a b, In (a, b) pairs -> In a values /\ In b values) ->
        deps_ok deps0 -> incl trees0 trees -> length trees0 <= length trees ->
        (upd0 = true -> (forall x, In x values -> In x trees) -> length trees0 < length trees) ->
        (upd0 = false -> trees0 = trees) ->
        let '(deps', trees', upd) := fold_left step pairs (deps0, trees0, upd0) in
        deps_ok deps' /\ incl trees' trees /\ length trees' <= length trees /\
        (upd = true -> (forall x, In x values -> In x trees) -> length trees' < length trees)).
      { induction pairs as [|[a b] pairs IH]; intros deps0 trees0 upd0 Hp D0 I0 L0 U0 N0; simpl; [auto|].
        assert (Hab : In a values /\ In b values) by (apply Hp; left; reflexivity).
        assert (Hp' : forall a b, In (a, b) pairs -> In a values /\ In b values) by (intros; apply Hp; right; assumption).
        destruct (Nat.eqb a b); [apply IH; assumption|].
        destruct (depends_on atl cns deps0 b a) eqn:Ed; [|apply IH; assumption].
        assert (Ha : a < n) by (apply Hv; tauto). assert (Hb : b < n) by (apply Hv; tauto).
        apply IH.
        - exact Hp'.
        - apply deps_ok_set; auto. eapply depends_on_mind; eauto.
        - intros x Hx. apply filter_In in Hx. apply I0. apply Hx.
        - specialize (Flt b trees0). lia.
        - intros _ Hall. destruct upd0.
          + specialize (U0 eq_refl Hall). specialize (Flt b trees0). lia.
          + rewrite (N0 eq_refl). apply Fst. apply Hall. tauto.
        - discriminate. }
      apply Gn; auto using incl_refl.
      - intros a b H. apply in_prod_iff in H. exact H.
      - discriminate.
    Qed.

    Lemma dep_loop_total : forall f deps trees, deps_ok deps -> (forall x, In x trees -> x < n) ->
      length trees < f ->
      exists deps' trees', dep_loop f ns atl cns deps trees = Ok (deps', trees') /\ deps_ok deps' /\
        (forall x, In x trees' -> x < n).
    Proof.
      induction f as [|f IH]; intros deps trees D Ht Hf; [lia|]. simpl.
      pose proof (dep_pass_spec trees deps trees D Ht (fun x H => H)) as P.
      destruct (dep_pass ns atl cns trees deps trees) as [[deps' trees'] upd].
      destruct P as (D' & I & Hl & Hu). destruct upd.
      - apply IH; [exact D'|intros x Hx; apply Ht, I, Hx|]. specialize (Hu eq_refl (fun x H => H)). lia.
      - exists deps', trees'. split; [reflexivity|]. split; [exact D'|]. intros x Hx. apply Ht, I, Hx.
    Qed.

    (** rank: how many condition nodes have deeper children *)
    Definition rank (i : nat) : nat := length (filter (fun j => Nat.ltb (mind i) (mind j)) (seq 0 n)).

    Lemma filter_length_lt {A} (f g : A -> bool) l x : (forall y, In y l -> f y = true -> g y = true) ->
      In x l -> f x = false -> g x = true -> length (filter f l) < length (filter g l).
    Proof.
      intros H Hx Hf Hg. assert (W : forall l, (forall y, In y l -> f y = true -> g y = true) -> length (filter f l) <= length (filter g l)).
      { clear. induction l as [|y l IH]; simpl; intros H; [lia|]. specialize (IH (fun z Hz => H z (or_intror Hz))).
        destruct (f y) eqn:Ef; [rewrite (H y (or_introl eq_refl) Ef); simpl; lia|]. destruct (g y); simpl; lia. }
      induction l as [|y l IH]; simpl in *; [tauto|]. destruct Hx as [->|Hx].
      - rewrite Hf, Hg. simpl. specialize (W l (fun z Hz => H z (or_intror Hz))). lia.
      - specialize (IH (fun z Hz => H z (or_intror Hz)) Hx). destruct (f y) eqn:Ef.
        + rewrite (H y (or_introl eq_refl) Ef). simpl. lia.
        + destruct (g y); simpl; lia.
    Qed.
    Lemma rank_lt a b : a < n -> b < n -> mind a < mind b -> rank b < rank a.
    Proof.
      intros Ha Hb H. apply (filter_length_lt _ _ _ b).
      - intros y _ Hy. apply Nat.ltb_lt in Hy. apply Nat.ltb_lt. lia.
      - apply in_seq. lia.
      - apply Nat.ltb_irrefl.
      - apply Nat.ltb_lt. exact H.
    Qed.
    Lemma filter_true {A} (l : list A) : filter (fun _ => true) l = l.
    Proof. induction l as [|x l IH]; simpl; [reflexivity|]. rewrite IH. reflexivity. Qed.
    Lemma rank_bound i : i < n -> rank i < n.
    Proof.
      intros Hi. unfold rank.
      assert (H : length (filter (fun j => Nat.ltb (mind i) (mind j)) (seq 0 n)) < length (filter (fun _ => true) (seq 0 n))).
      { apply (filter_length_lt _ _ _ i); auto.
        - apply in_seq. lia.
        - apply Nat.ltb_irrefl. }
      rewrite filter_true, seq_length in H. exact H.
    Qed.

    Lemma lookup_levels_total deps : deps_ok deps -> forall f level lk,
      (forall x, In x level -> x < n /\ rank x < f) ->
      exists lk', lookup_levels (S f) ns cns deps level lk = Ok lk'.
    Proof.
      intros [Hl D]. induction f as [|f IH]; intros level lk Hr.
      - destruct level as [|x level]; [simpl; eauto|]. destruct (Hr x (or_introl eq_refl)). lia.
      - destruct level as [|x level]; [simpl; eauto|]. cbn [lookup_levels].
        apply IH. intros y Hy. apply in_concat in Hy. destruct Hy as (z & Hz & Hy).
        apply in_map_iff in Hz. destruct Hz as (t & <- & Ht). destruct (Hr t Ht) as [Htn Htr].
        destruct (D t y Hy) as (_ & Hyn & Hm). split; [exact Hyn|]. pose proof (rank_lt t y Htn Hyn Hm). lia.
    Qed.

    Lemma deps_ok_init : deps_ok (repeat [] n).
    Proof.
      split; [apply repeat_length|]. intros a b.
      assert (H : nth a (repeat (@nil nat) n) [] = []).
      { destruct (nth_in_or_default a (repeat (@nil nat) n) []) as [H|H]; [|exact H]. apply repeat_spec in H. exact H. }
      rewrite H. simpl. tauto.
    Qed.

    (** the table is always computed *)
    Lemma change_lookup_total : exists lk, change_lookup ns atl cns = Ok lk.
    Proof.
      unfold change_lookup. fold n.
      destruct (dep_loop_total (S n) (repeat [] n) (seq 0 n)) as (deps & trees & -> & D & Ht).
      - apply deps_ok_init.
      - intros x Hx. apply in_seq in Hx. lia.
      - rewrite seq_length. lia.
      - cbn [bind]. destruct (lookup_levels_total deps D n (sort_ids ns cns trees) []) as (lk & ->).
        + intros x Hx. apply (proj1 (sort_ids_In _ _)) in Hx. split; [auto|]. apply rank_bound. auto.
        + simpl. eauto.
    Qed.

    (** the fuel of [dep_names] is enough: more of it changes nothing *)
    Lemma dep_names_fuel deps : deps_ok deps -> forall f a, a < n -> rank a < f -> forall k,
      dep_names (f + k) atl cns deps a = dep_names f atl cns deps a.
    Proof.
      intros D. destruct D as [Hl D]. induction f as [|f IH]; intros a Ha Hr k; [lia|].
      simpl. f_equal. f_equal. apply map_ext_in. intros b Hb. destruct (D a b Hb) as (_ & Hbn & Hm).
      apply IH; [exact Hbn|]. pose proof (rank_lt a b Ha Hbn Hm). lia.
    Qed.
    Lemma dep_names_exact deps a k : deps_ok deps -> a < n ->
      dep_names (S n + k) atl cns deps a = dep_names (S n) atl cns deps a.
    Proof. intros D Ha. apply dep_names_fuel; auto. pose proof (rank_bound a Ha). lia. Qed.
  End Lookup.

  (** ** Condition nodes of a built space *)
  Section One.
    Context {s : space} {hs : list hp} {cs : list cond} {fs : list fclause} (O : space_ok s hs cs fs).
    Notation ns := (d_nodes (s_dag s)).

    Lemma sort_cnodes_perm l : Permutation (sort_cnodes ns l) l.
    Proof. apply py_sorted_perm. Qed.

    Lemma graph_cond_wf (g : nodes_t) i c : graph_ok g -> cond_at g i = Some c -> cond_wf c.
    Proof.
      intros Gk H. destruct (cond_at_name _ _ _ H) as (x & Hx).
      rewrite (cond_at_condof _ _ _ (co_nodup _ (g_core _ Gk)) Hx) in H. eapply g_wf; eauto.
    Qed.

    Lemma so_min : Forall (cnode_ok ns) (d_min (s_dag s)) /\ Permutation (handled (d_min (s_dag s))) (conditional_idxs ns).
    Proof.
      destruct (cm_min _ (so_com _ _ _ _ O)) as (mc & Hm & ->).
      destruct (min_conds_spec (d_roots (s_dag s)) ns) as (mc' & Hm' & F & P).
      - intros i c. apply graph_cond_wf. apply (so_graph O).
      - intros [x nd] Hin Hc. simpl in *. apply (so_root O). unfold condof.
        assert (Ha := In_assoc _ _ _ (so_nodup O) Hin). rewrite Ha. split; [|exact Hc].
        apply so_key. eauto.
      - rewrite Hm in Hm'. inversion Hm'; subst mc'. split.
        + rewrite Forall_forall in *. intros cn Hcn. apply F. eapply Permutation_in; [apply sort_cnodes_perm|exact Hcn].
        + rewrite <- P. unfold handled.
          assert (Q : forall a b : list cnode, Permutation a b -> Permutation (concat (map cn_children a)) (concat (map cn_children b))).
          { clear. induction 1; simpl; [constructor|apply Permutation_app_head; assumption| |etransitivity; eassumption].
            rewrite !app_assoc. apply Permutation_app_tail. apply Permutation_app_comm. }
          apply Q. apply sort_cnodes_perm.
    Qed.

    (** every conditional hyperparameter is handled by exactly one condition node *)
    Lemma so_handled_nodup : NoDup (handled (d_min (s_dag s))).
    Proof.
      eapply Permutation_NoDup; [symmetry; apply so_min|]. apply NoDup_filter. apply seq_NoDup.
    Qed.
    Lemma so_handled i : In i (handled (d_min (s_dag s))) <-> exists n c, nth_error (keys s) i = Some n /\ condof ns n = Some c.
    Proof.
      rewrite (Permutation_in' eq_refl (proj2 so_min)). unfold conditional_idxs. rewrite filter_In. split.
      - intros [_ H]. destruct (cond_at ns i) as [c|] eqn:Ec; [|discriminate].
        destruct (cond_at_name _ _ _ Ec) as (x & Hx). exists x, c. split; [exact Hx|].
        rewrite <- (cond_at_condof ns i x (so_nodup O) Hx). exact Ec.
      - intros (x & c & Hx & Hc). split.
        + apply in_seq. split; [lia|]. simpl. assert (H : i < length (keys s)) by (apply nth_error_Some; congruence).
          unfold keys in H. rewrite map_length in H. exact H.
        + rewrite (cond_at_condof ns i x (so_nodup O) Hx), Hc. reflexivity.
    Qed.
    Lemma so_cnode cn i : In cn (d_min (s_dag s)) -> In i (cn_children cn) ->
      exists n c, nth_error (keys s) i = Some n /\ condof ns n = Some c /\ cond_equiv (cn_cond cn) c = true.
    Proof.
      intros H Hi. destruct so_min as [F _]. rewrite Forall_forall in F. destruct (F cn H) as [_ Hall].
      destruct (Hall i Hi) as (c & Hc & Hq). destruct (cond_at_name _ _ _ Hc) as (x & Hx). exists x, c.
      split; [exact Hx|]. split; [|exact Hq]. rewrite <- (cond_at_condof ns i x (so_nodup O) Hx). exact Hc.
    Qed.
    Lemma so_cnode_cond cn : In cn (d_min (s_dag s)) ->
      exists i n rest, cn_children cn = i :: rest /\ nth_error (keys s) i = Some n /\ condof ns n = Some (cn_cond cn).
    Proof.
      intros H. destruct so_min as [F _]. rewrite Forall_forall in F. destruct (F cn H) as [(i & rest & Hi & Hc) _].
      destruct (cond_at_name _ _ _ Hc) as (x & Hx). exists i, x, rest. split; [exact Hi|]. split; [exact Hx|].
      rewrite <- (cond_at_condof ns i x (so_nodup O) Hx). exact Hc.
    Qed.
  End One.
End Cnodes.
