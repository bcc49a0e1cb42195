(** * Property C119: the order in which a space is built

    Two spaces made from the same hyperparameters, conditions and clauses, added in whatever order and
    in however many calls of add(), give the same results. *)
From Coq Require Import String List ZArith QArith Bool Lia Permutation Sorted Relations.
From Verif Require Import Base ListFacts Numeric HP HPProofs Cond Forb EqFacts Dag DagCycle DagProofs Space Util
  CommitProofs Spec SpaceProofs Serial Ex Properties_Graph Properties_Serial Properties_Equal Properties_Change.
From Verif Require Import Space.
From Verif Require Fix Pcs PcsOld.
Import ListNotations.
Open Scope nat_scope.

(** every hyperparameter has at most one condition (adding an equal condition again is allowed) *)
Definition one_condition (cs : list cond) : Prop :=
  forall c c' n, In c cs -> In c' cs -> activates c n -> activates c' n -> c = c'.

(** clauses that print alike are the same *)
Definition told_apart {E : Env} (fs : list fclause) : Prop :=
  forall f g, In f fs -> In g fs -> forb_str f = forb_str g -> f = g.

Lemma fold_left_same {A B} (f g : A -> B -> A) l : (forall a b, f a b = g a b) -> forall a, fold_left f l a = fold_left g l a.
Proof. intros H. induction l as [|x l IH]; simpl; intros a; [reflexivity|]. rewrite H. apply IH. Qed.
Lemma insert_same {A} (f g : A -> A -> bool) x l : (forall a b, f a b = g a b) -> insert_sorted f x l = insert_sorted g x l.
Proof. intros H. induction l as [|y l IH]; simpl; [reflexivity|]. rewrite H, IH. reflexivity. Qed.
Lemma sorted_same {A} (f g : A -> A -> bool) l : (forall a b, f a b = g a b) -> py_sorted f l = py_sorted g l.
Proof. intros H. apply fold_left_same. intros a b. apply insert_same. exact H. Qed.

(** a node without its links *)
Definition lone (n : node) : node := mk_node (n_hp n) (n_depth n) [] [] (n_cond n).
Definition lones (ns : nodes_t) : nodes_t := map (fun e => (fst e, lone (snd e))) ns.

Section Lone.
  Context {E : Env}.

  Lemma lones_assoc n ns : assoc n (lones ns) = option_map lone (assoc n ns).
  Proof. induction ns as [|[k v] ns IH]; simpl; [reflexivity|]. destruct (String.eqb n k); [reflexivity|exact IH]. Qed.
  Lemma lones_keys ns : map fst (lones ns) = map fst ns.
  Proof. unfold lones. rewrite map_map. reflexivity. Qed.
  Lemma lones_depth ns n : depth_of (lones ns) n = depth_of ns n.
  Proof. unfold depth_of. rewrite lones_assoc. destruct (assoc n ns); reflexivity. Qed.
  Lemma lones_filter p q ns : (forall e, p (fst e, lone (snd e)) = q e) -> map fst (filter p (lones ns)) = map fst (filter q ns).
  Proof.
    intros H. induction ns as [|e ns IH]; simpl; [reflexivity|]. rewrite H. destruct (q e); simpl; rewrite IH; reflexivity.
  Qed.
  Lemma lones_min roots ns : forall i acc, min_conds roots i (lones ns) acc = min_conds roots i ns acc.
  Proof.
    induction ns as [|[k v] ns IH]; simpl; intros i acc; [reflexivity|]. destruct (n_cond v); [apply IH|].
    destruct (str_in k roots); [apply IH|reflexivity].
  Qed.
  Lemma lones_shallow ns c : shallowest (lones ns) c = shallowest ns c.
  Proof. unfold shallowest. f_equal. apply map_ext. intros n. apply lones_depth. Qed.
  Lemma lones_sort ns l : sort_cnodes (lones ns) l = sort_cnodes ns l.
  Proof. apply sorted_same. intros a b. rewrite !lones_shallow. reflexivity. Qed.
  Lemma lones_ids ns cns l : sort_ids (lones ns) cns l = sort_ids ns cns l.
  Proof. apply sorted_same. intros a b. rewrite !lones_shallow. reflexivity. Qed.
  Lemma lones_pass ns atl cns vs deps trees : dep_pass (lones ns) atl cns vs deps trees = dep_pass ns atl cns vs deps trees.
  Proof.
    apply fold_left_same. intros [[d t] u] [a b]. rewrite lones_ids. reflexivity.
  Qed.
  Lemma lones_loop fuel : forall ns atl cns deps trees, dep_loop fuel (lones ns) atl cns deps trees = dep_loop fuel ns atl cns deps trees.
  Proof.
    induction fuel as [|f IH]; intros; simpl; [reflexivity|]. rewrite lones_pass.
    destruct (dep_pass ns atl cns trees deps trees) as [[d t] u]. destruct u; [apply IH|reflexivity].
  Qed.
  Lemma lones_add ns cns deps t lk : lookup_add (lones ns) cns deps t lk = lookup_add ns cns deps t lk.
  Proof. apply fold_left_same. intros l p. cbv zeta. destruct (assoc p l); [rewrite lones_ids|]; reflexivity. Qed.
  Lemma lones_levels fuel : forall ns cns deps level lk,
    lookup_levels fuel (lones ns) cns deps level lk = lookup_levels fuel ns cns deps level lk.
  Proof.
    induction fuel as [|f IH]; intros ns cns deps [|x level] lk; simpl; try reflexivity. rewrite IH, lones_add. f_equal.
    apply fold_left_same. intros a b. apply lones_add.
  Qed.
  Lemma lones_lookup ns atl cns : change_lookup (lones ns) atl cns = change_lookup ns atl cns.
  Proof.
    unfold change_lookup. cbv zeta. rewrite lones_loop. destruct (dep_loop _ ns _ _ _ _) as [[d t]|e]; [|reflexivity]. cbn [bind].
    rewrite lones_levels, lones_ids. reflexivity.
  Qed.

  (** what the operations look at: everything but the links of the nodes and the views listing them *)
  Definition bare (s : space) : space :=
    let d := s_dag s in
    mk_space (mk_dag (lones (d_nodes d)) (d_uforb d) (d_cforb d) (d_roots d) (d_nonroots d) (d_conds d) (d_min d)
                (d_lookup d) (d_defaults d) (d_fast d) (d_flookup d) (d_index_of d) (d_at d) [] [] [] (d_parent_conds_of d)
                (d_hps d)) (s_len s).

  (** the caches are a function of what [bare] keeps and the two lists of clauses *)
  Lemma bare_same s hs cs fs s' hs' cs' fs' : space_ok s hs cs fs -> space_ok s' hs' cs' fs' ->
    lones (d_nodes (s_dag s)) = lones (d_nodes (s_dag s')) ->
    d_uforb (s_dag s) = d_uforb (s_dag s') -> d_cforb (s_dag s) = d_cforb (s_dag s') -> bare s = bare s'.
  Proof.
    intros [_ C Ln] [_ C' Ln'] N U F.
    assert (K : map fst (d_nodes (s_dag s)) = map fst (d_nodes (s_dag s'))) by (rewrite <- lones_keys, N; apply lones_keys).
    assert (Kl : length (d_nodes (s_dag s)) = length (d_nodes (s_dag s'))).
    { rewrite <- (map_length fst (d_nodes (s_dag s))), K. apply map_length. }
    assert (At : d_at (s_dag s) = d_at (s_dag s')) by (rewrite (cm_at _ C), (cm_at _ C'); exact K).
    assert (Io : d_index_of (s_dag s) = d_index_of (s_dag s')) by (rewrite (cm_index _ C), (cm_index _ C'), K, Kl; reflexivity).
    assert (H : d_hps (s_dag s) = d_hps (s_dag s')).
    { rewrite (cm_hps _ C), (cm_hps _ C'). unfold node_hps.
      assert (G : forall ns, map (fun e : string * node => n_hp (snd e)) ns = map (fun e => n_hp (snd e)) (lones ns)) by (intros ns; unfold lones; rewrite map_map; reflexivity).
      rewrite G, N, <- G. reflexivity. }
    assert (Rt : d_roots (s_dag s) = d_roots (s_dag s')).
    { rewrite (cm_roots _ C), (cm_roots _ C'). rewrite <- (lones_filter (fun e => Nat.eqb (n_depth (snd e)) 1)) by reflexivity.
      rewrite N. apply lones_filter. reflexivity. }
    assert (Nr : d_nonroots (s_dag s) = d_nonroots (s_dag s')).
    { rewrite (cm_nonroots _ C), (cm_nonroots _ C'). rewrite <- (lones_filter (fun e => negb (Nat.eqb (n_depth (snd e)) 1))) by reflexivity.
      rewrite N. apply lones_filter. reflexivity. }
    assert (Fa : d_fast (s_dag s) = d_fast (s_dag s')).
    { assert (A := cm_fast _ C). assert (A' := cm_fast _ C'). unfold d_forbs in *. rewrite Io, U, F in A. congruence. }
    assert (Oc : forall ns, concat (map (fun e : string * node => own_conds (snd e)) ns) = concat (map (fun e => own_conds (snd e)) (lones ns))).
    { intros ns. unfold lones. rewrite map_map. reflexivity. }
    assert (Cs : d_conds (s_dag s) = d_conds (s_dag s')) by (rewrite (cm_conds _ C), (cm_conds _ C'), Oc, N, <- Oc; reflexivity).
    assert (Pc : d_parent_conds_of (s_dag s) = d_parent_conds_of (s_dag s')).
    { rewrite (cm_parent_conds _ C), (cm_parent_conds _ C').
      assert (G : forall ns, map (fun e : string * node => (fst e, own_conds (snd e))) ns = map (fun e => (fst e, own_conds (snd e))) (lones ns)) by (intros ns; unfold lones; rewrite map_map; reflexivity).
      rewrite G, N, <- G. reflexivity. }
    assert (Mn : d_min (s_dag s) = d_min (s_dag s')).
    { destruct (cm_min _ C) as (mc & M1 & ->). destruct (cm_min _ C') as (mc' & M2 & ->).
      rewrite <- lones_min, N, Rt, lones_min, M2 in M1. injection M1 as <-. rewrite <- lones_sort, N. apply lones_sort. }
    assert (Lk : d_lookup (s_dag s) = d_lookup (s_dag s')).
    { assert (A := cm_lookup _ C). assert (A' := cm_lookup _ C'). rewrite <- lones_lookup, N, At, Mn, lones_lookup in A. congruence. }
    assert (Df : d_defaults (s_dag s) = d_defaults (s_dag s')) by (rewrite (cm_defaults _ C), (cm_defaults _ C'), H; reflexivity).
    assert (Fl : d_flookup (s_dag s) = d_flookup (s_dag s')) by (rewrite (cm_flookup _ C), (cm_flookup _ C'), Fa; reflexivity).
    unfold bare. cbv zeta. rewrite N, U, F, Rt, Nr, Cs, Mn, Lk, Df, Fa, Fl, Io, At, Pc, H, Ln, Ln', Kl. reflexivity.
  Qed.

  (** ** The operations do not see the difference between a space and its bare form *)
  Lemma bare_items s : items (bare s) = items s.
  Proof. unfold items, bare, lones. simpl. rewrite map_map. reflexivity. Qed.
  Lemma bare_keys s : keys (bare s) = keys s.
  Proof. apply lones_keys. Qed.
  Lemma bare_hps s : Space.hps (bare s) = Space.hps s.
  Proof. unfold Space.hps. rewrite bare_items. reflexivity. Qed.
  Lemma bare_get_hp s n : get_hp (bare s) n = get_hp s n.
  Proof. unfold get_hp, bare. simpl. rewrite lones_assoc. destruct (assoc n _); reflexivity. Qed.
  Lemma bind_same {A B} (r : res A) (f g : A -> res B) : (forall a, f a = g a) -> bind r f = bind r g.
  Proof. intros H. destruct r; simpl; auto. Qed.
  Lemma bare_fill s vals its : forall vec cache, fill (bare s) vals its vec cache = fill s vals its vec cache.
  Proof.
    induction its as [|[k h] its IH]; intros vec cache; [reflexivity|]. cbn [fill]. change (index_of (bare s)) with (index_of s).
    destruct (assoc k (index_of s)) as [i|]; [|reflexivity]. destruct (assoc k vals) as [[v|]|].
    - destruct (legal_value h v); [|reflexivity]. cbv zeta. apply bind_same. intros x.
      destruct (Nat.ltb i (length vec)); [apply IH|reflexivity].
    - destruct (Nat.ltb i (length vec)); [apply IH|reflexivity].
    - destruct (Nat.ltb i (length vec)); [apply IH|reflexivity].
  Qed.
  Lemma bare_defaults s its : forall vals, default_values (bare s) its vals = default_values s its vals.
  Proof.
    induction its as [|[k h] its IH]; intros vals; [reflexivity|]. cbn [default_values].
    change (conds_of (bare s) k) with (conds_of s k). apply bind_same. intros bs. apply IH.
  Qed.
  Lemma bare_loop s draw size fuel : forall round k acc, sample_loop fuel (bare s) draw round size k acc = sample_loop fuel s draw round size k acc.
  Proof.
    induction fuel as [|f IH]; intros round k acc; cbn [sample_loop]; [reflexivity|]. destruct (Nat.leb size (length acc)); [reflexivity|].
    change (next_size (bare s) k) with (next_size s k). change (s_len (bare s)) with (s_len s). cbv zeta.
    match goal with |- context [sample_round (bare s) ?n ?m] => change (sample_round (bare s) n m) with (sample_round s n m) end.
    apply bind_same. intros new. apply IH.
  Qed.
  Lemma bare_try s arr o sl it : forall nb g, try_hp it (bare s) arr o sl nb g = try_hp it s arr o sl nb g.
  Proof.
    induction it as [|it IH]; intros nb g; cbn [try_hp]; [reflexivity|]. cbv zeta. destruct (_ && _)%bool; [reflexivity|].
    apply bind_same. intros ng. destruct (pop (fst ng)) as [[rest x]|]; [|reflexivity].
    apply (bind_same (anyM (forb_vec (index_of s) (change_hp_value s arr (hp_name (sl_hp sl)) (Fin x) (sl_idx sl))) (match assoc (hp_name (sl_hp sl)) (d_flookup (s_dag s)) with Some l => l | None => [] end))).
    intros [|]; [apply IH|reflexivity].
  Qed.
  Lemma bare_xloop s arr o fuel : forall sls left t g, exchange_loop fuel (bare s) arr o sls left t g = exchange_loop fuel s arr o sls left t g.
  Proof.
    induction fuel as [|f IH]; intros sls left t g; cbn [exchange_loop]; [reflexivity|]. destruct (Nat.eqb left 0); [reflexivity|].
    destruct (nth_error sls (o_pick o t)) as [sl|]; [|reflexivity]. destruct (Nat.eqb (sl_left sl) 0); [apply IH|].
    rewrite bare_try. destruct (try_hp (sl_iter sl) s arr o sl (sl_nb sl) g) as [[[out nb] g']|e]; [|reflexivity]. cbv zeta.
    destruct out as [x v| |]; [|apply IH|apply IH]. change (config_of_vector (bare s) v false) with (config_of_vector s v false).
    destruct (config_of_vector s v false); [|reflexivity]. rewrite IH. reflexivity.
  Qed.
  Lemma bare_values s vals allow : config_of_values (bare s) vals allow = config_of_values s vals allow.
  Proof. unfold config_of_values. rewrite bare_keys, bare_items, bare_fill. reflexivity. Qed.
  Lemma bare_default s : get_default_configuration (bare s) = get_default_configuration s.
  Proof.
    unfold get_default_configuration, check_default_configuration. rewrite bare_items, bare_defaults.
    destruct (default_values s (items s) []) as [v|e]; simpl; [|reflexivity]. apply bare_values.
  Qed.
  Lemma bare_getitem s c k : getitem (bare s) c k = getitem s c k.
  Proof. unfold getitem. rewrite bare_get_hp. reflexivity. Qed.
  Lemma bare_contains s c k : contains (bare s) c k = contains s c k.
  Proof. unfold contains. rewrite bare_getitem. reflexivity. Qed.
  Lemma bare_iter s c : iter (bare s) c = iter s c.
  Proof. unfold iter. rewrite bare_keys. apply filter_ext. intros n. rewrite ?bare_contains. reflexivity. Qed.
  Lemma bare_dict s c : dict_of (bare s) c = dict_of s c.
  Proof. unfold dict_of. rewrite bare_iter. apply mapM_ext. intros n _. rewrite bare_getitem. reflexivity. Qed.
  Lemma bare_setitem s c k v : setitem (bare s) c k v = setitem s c k v.
  Proof. unfold setitem. rewrite bare_get_hp. reflexivity. Qed.
  Lemma bare_active s v : get_active (bare s) v = get_active s v.
  Proof. unfold get_active. rewrite bare_keys. reflexivity. Qed.
  Lemma bare_rigorous s v allow : check_configuration_rigorous (bare s) v allow = check_configuration_rigorous s v allow.
  Proof. unfold check_configuration_rigorous. rewrite bare_items, bare_active. reflexivity. Qed.
  Lemma bare_impute s c st : impute (bare s) c st = impute s c st.
  Proof.
    unfold impute. rewrite bare_items.
    erewrite mapM_ext; [|intros e _; rewrite bare_getitem; reflexivity]. apply bind_same. intros vals. apply bare_values.
  Qed.
  Lemma bare_sample fuel s draw size : sample_configuration fuel (bare s) draw size = sample_configuration fuel s draw size.
  Proof. unfold sample_configuration. rewrite bare_loop. reflexivity. Qed.
  Lemma bare_slots s c num ns : forall i, slots_of (bare s) c num i (lones ns) = slots_of s c num i ns.
  Proof.
    induction ns as [|[k v] ns IH]; intros i; [reflexivity|]. cbn [slots_of lones map fst snd]. fold (lones ns).
    assert (S : slot_of (bare s) c num i k (n_hp (lone v)) = slot_of s c num i k (n_hp v)).
    { unfold slot_of. rewrite ?bare_contains, ?bare_getitem. reflexivity. }
    rewrite S, IH. reflexivity.
  Qed.
  Lemma bare_exchange fuel s c num o : get_one_exchange_neighbourhood fuel (bare s) c num o = get_one_exchange_neighbourhood fuel s c num o.
  Proof.
    unfold get_one_exchange_neighbourhood. change (d_nodes (s_dag (bare s))) with (lones (d_nodes (s_dag s))). rewrite bare_slots.
    destruct (slots_of s c num 0 _); [|reflexivity]. rewrite bare_xloop. reflexivity.
  Qed.
End Lone.

(** ** C119 *)
Section Order.
  Context {E : Env} {L : EnvLaws E}.

  (** every result of the two spaces is the same: values, exceptions, and the sequences drawn with the
      same random numbers *)
  Record same_results (s s' : space) : Prop := {
    sr_items : items s = items s' /\ (forall n, get_hp s n = get_hp s' n) /\ at_ s = at_ s' /\ index_of s = index_of s' /\ s_len s = s_len s';
    sr_views : conditions s = conditions s' /\ forbidden_clauses s = forbidden_clauses s' /\
        parent_conditions_of s = parent_conditions_of s' /\ conditional_hyperparameters s = conditional_hyperparameters s' /\
        unconditional_hyperparameters s = unconditional_hyperparameters s' /\ estimate_size s = estimate_size s';
    sr_default : get_default_configuration s = get_default_configuration s';
    sr_values : forall vals allow, config_of_values s vals allow = config_of_values s' vals allow;
    sr_vector : forall v allow, config_of_vector s v allow = config_of_vector s' v allow;
    sr_check : forall v allow, check_configuration s v allow = check_configuration s' v allow;
    sr_rigorous : forall v allow, check_configuration_rigorous s v allow = check_configuration_rigorous s' v allow;
    sr_read : forall c, (forall k, getitem s c k = getitem s' c k) /\ (forall k, contains s c k = contains s' c k) /\
        iter s c = iter s' c /\ dict_of s c = dict_of s' c;
    sr_write : forall c k v, setitem s c k v = setitem s' c k v;
    sr_active : forall v, get_active s v = get_active s' v;
    sr_impute : forall c st, impute s c st = impute s' c st;
    sr_sample : forall fuel draw size, sample_configuration fuel s draw size = sample_configuration fuel s' draw size;
    sr_exchange : forall fuel c num o,
        get_one_exchange_neighbourhood fuel s c num o = get_one_exchange_neighbourhood fuel s' c num o
  }.

  Lemma bare_results s s' : bare s = bare s' -> same_results s s'.
  Proof.
    intros H.
    assert (Hi : items s = items s') by (rewrite <- bare_items, H; apply bare_items).
    assert (V : forall A (f : space -> A), (forall t, f (bare t) = f t) -> f s = f s').
    { intros A f Hf. rewrite <- Hf, H. apply Hf. }
    constructor; intros.
    - split; [exact Hi|]. split; [intros n; apply (V _ (fun t => get_hp t n)); intros t; apply bare_get_hp|].
      split; [apply (V _ at_); reflexivity|]. split; [apply (V _ index_of); reflexivity|]. apply (V _ s_len). reflexivity.
    - split; [apply (V _ conditions); reflexivity|]. split; [apply (V _ forbidden_clauses); reflexivity|].
      split; [apply (V _ parent_conditions_of); reflexivity|]. split; [apply (V _ conditional_hyperparameters); reflexivity|].
      split; [apply (V _ unconditional_hyperparameters); reflexivity|].
      apply (V _ estimate_size). intros t. unfold estimate_size. rewrite bare_hps. reflexivity.
    - apply (V _ get_default_configuration). apply bare_default.
    - apply (V _ (fun t => config_of_values t vals allow)). intros t. apply bare_values.
    - apply (V _ (fun t => config_of_vector t v allow)). reflexivity.
    - apply (V _ (fun t => check_configuration t v allow)). reflexivity.
    - apply (V _ (fun t => check_configuration_rigorous t v allow)). intros t. apply bare_rigorous.
    - split; [intros k; apply (V _ (fun t => getitem t c k)); intros t; apply bare_getitem|].
      split; [intros k; apply (V _ (fun t => contains t c k)); intros t; apply bare_contains|].
      split; [apply (V _ (fun t => iter t c)); intros t; apply bare_iter|apply (V _ (fun t => dict_of t c)); intros t; apply bare_dict].
    - apply (V _ (fun t => setitem t c k v)). intros t. apply bare_setitem.
    - apply (V _ (fun t => get_active t v)). intros t. apply bare_active.
    - apply (V _ (fun t => impute t c st)). intros t. apply bare_impute.
    - apply (V _ (fun t => sample_configuration fuel t draw size)). intros t. apply bare_sample.
    - apply (V _ (fun t => get_one_exchange_neighbourhood fuel t c num o)). intros t. apply bare_exchange.
  Qed.

  (** what the proofs need of a space that add() made *)
  Definition settled (s : space) (hs : list hp) (cs : list cond) (fs : list fclause) : Prop :=
    space_ok s hs cs fs /\ StronglySorted (leR forb_ltb) (d_uforb (s_dag s)) /\ StronglySorted (leR forb_ltb) (d_cforb (s_dag s)).
  Lemma built_settled s hs cs fs : built s hs cs fs -> settled s hs cs fs.
  Proof. intros B. split; [exact (built_ok _ _ _ _ B)|exact (built_forbs _ _ _ _ B)]. Qed.

  Section Two.
    Variables (s s' : space) (hs hs' : list hp) (cs cs' : list cond) (fs fs' : list fclause).
    Hypotheses (B : settled s hs cs fs) (B' : settled s' hs' cs' fs').
    Hypotheses (Ph : Permutation hs hs') (Pc : Permutation cs cs') (Pf : Permutation fs fs').

    Lemma longest_perm n k : longest cs n k -> longest cs' n k.
    Proof.
      assert (G : forall c1 c2 m j, Permutation c1 c2 -> chain c1 m j -> chain c2 m j).
      { intros c1 c2 m j P. induction 1 as [|p m j _ IH (c & Hc & H)]; [constructor|]. econstructor; [exact IH|].
        exists c. split; [eapply Permutation_in; eassumption|exact H]. }
      intros [H1 H2]. split; [eapply G; [exact Pc|exact H1]|]. intros j Hj. apply H2. eapply G; [symmetry; exact Pc|exact Hj].
    Qed.

    Lemma nodes_alike : one_condition cs -> lones (d_nodes (s_dag s)) = lones (d_nodes (s_dag s')).
    Proof.
      intros One. destruct (ok_insertion_order _ _ _ _ _ _ _ _ (proj1 B) (proj1 B') Ph Pc) as (_ & _ & K & H).
      assert (O := proj1 B). assert (O' := proj1 B').
      assert (ND := so_nodup O). assert (ND' := so_nodup O'). unfold keys in *.
      assert (A : forall l m : nodes_t, map fst l = map fst m -> map (fun e => n_hp (snd e)) l = map (fun e => n_hp (snd e)) m ->
                    (forall n x y, In (n, x) l -> In (n, y) m -> n_depth x = n_depth y /\ n_cond x = n_cond y) -> lones l = lones m).
      { induction l as [|[a x] l IH]; intros [|[b y] m]; simpl; try discriminate; [reflexivity|]. intros [= <- E1] [= E2 E3] D.
        f_equal; [|apply IH; auto; intros n u v Hu Hv; apply (D n); auto]. f_equal.
        destruct (D a x y (or_introl eq_refl) (or_introl eq_refl)) as [D1 D2]. unfold lone. rewrite E2, D1, D2. reflexivity. }
      apply A; [exact K| |].
      { unfold Space.hps, items in H. rewrite !map_map in H. simpl in H. exact H. }
      intros n x y Hx Hy. assert (Ax := In_assoc _ _ _ ND Hx). assert (Ay := In_assoc _ _ _ ND' Hy). split.
      - assert (Kx : In n (map fst (d_nodes (s_dag s)))) by (apply in_map_iff; exists (n, x); auto).
        assert (Ky : In n (map fst (d_nodes (s_dag s')))) by (apply in_map_iff; exists (n, y); auto).
        destruct (longest_perm _ _ (so_longest O n Kx)) as [L1 L2]. destruct (so_longest O' n Ky) as [L3 L4].
        unfold depth_of in *. rewrite Ax in *. rewrite Ay in *. specialize (L2 _ L3). specialize (L4 _ L1). lia.
      - assert (Cx : condof (d_nodes (s_dag s)) n = n_cond x) by (unfold condof; rewrite Ax; reflexivity).
        assert (Cy : condof (d_nodes (s_dag s')) n = n_cond y) by (unfold condof; rewrite Ay; reflexivity).
        destruct (n_cond x) as [c|] eqn:Ex.
        + destruct (so_condof_in O n c Cx) as [I1 A1]. destruct (so_declared O' n c (Permutation_in c Pc I1) A1) as (c' & C1 & _).
          destruct (so_condof_in O' n c' C1) as [I2 A2]. rewrite <- Cy, C1. f_equal.
          apply (One c c' n); auto. eapply Permutation_in; [symmetry; exact Pc|exact I2].
        + destruct (n_cond y) as [c|] eqn:Ey; [|reflexivity]. destruct (so_condof_in O' n c Cy) as [I1 A1].
          destruct (so_declared O n c (Permutation_in c (Permutation_sym Pc) I1) A1) as (c' & C1 & _). congruence.
    Qed.

    Lemma perm_filter {A} (p : A -> bool) l m : Permutation l m -> Permutation (filter p l) (filter p m).
    Proof.
      induction 1 as [|x l m _ IH|x y l|l m k _ I1 _ I2]; simpl; [constructor| | |etransitivity; eassumption].
      - destruct (p x); [constructor|]; exact IH.
      - destruct (p y), (p x); try reflexivity. constructor.
    Qed.
    Lemma filter_all {A} (p : A -> bool) l : (forall x, In x l -> p x = true) -> filter p l = l.
    Proof. induction l as [|x l IH]; simpl; intros H; [reflexivity|]. rewrite (H x (or_introl eq_refl)), IH; auto. Qed.
    Lemma filter_none {A} (p : A -> bool) l : (forall x, In x l -> p x = false) -> filter p l = [].
    Proof. induction l as [|x l IH]; simpl; intros H; [reflexivity|]. rewrite (H x (or_introl eq_refl)), IH; auto. Qed.

    Lemma clauses_alike : lones (d_nodes (s_dag s)) = lones (d_nodes (s_dag s')) -> told_apart fs ->
      d_uforb (s_dag s) = d_uforb (s_dag s') /\ d_cforb (s_dag s) = d_cforb (s_dag s').
    Proof.
      intros N T. destruct (proj2 B) as [S1 S2]. destruct (proj2 B') as [S3 S4].
      assert (O := proj1 B). assert (O' := proj1 B'). assert (C := so_com _ _ _ _ O). assert (C' := so_com _ _ _ _ O').
      assert (Rt : d_roots (s_dag s) = d_roots (s_dag s')).
      { rewrite (cm_roots _ C), (cm_roots _ C'). rewrite <- (lones_filter (fun e => Nat.eqb (n_depth (snd e)) 1)) by reflexivity.
        rewrite N. apply lones_filter. reflexivity. }
      assert (P : Permutation (d_forbs (s_dag s)) (d_forbs (s_dag s'))).
      { rewrite (di_forb _ _ _ _ (so_inv _ _ _ _ O)), (di_forb _ _ _ _ (so_inv _ _ _ _ O')). exact Pf. }
      assert (Fu : forall d, committed d -> filter (is_unconditional (d_roots d)) (d_forbs d) = d_uforb d /\
                             filter (fun f => negb (is_unconditional (d_roots d) f)) (d_forbs d) = d_cforb d).
      { intros d Cd. unfold d_forbs. rewrite !filter_app.
        rewrite (filter_all _ (d_uforb d)) by apply (cm_uforb _ Cd). rewrite (filter_none _ (d_cforb d)) by apply (cm_cforb _ Cd).
        rewrite (filter_none _ (d_uforb d)) by (intros f Hf; rewrite (cm_uforb _ Cd f Hf); reflexivity).
        rewrite (filter_all _ (d_cforb d)) by (intros f Hf; rewrite (cm_cforb _ Cd f Hf); reflexivity).
        rewrite app_nil_r. auto. }
      destruct (Fu _ C) as [F1 F2]. destruct (Fu _ C') as [F3 F4].
      assert (Tie : forall f g, In f (d_forbs (s_dag s)) -> In g (d_forbs (s_dag s)) -> forb_ltb f g = false -> forb_ltb g f = false -> f = g).
      { intros f g Hf Hg H1 H2. apply T.
        - eapply Permutation_in; [apply (di_forb _ _ _ _ (so_inv _ _ _ _ O))|exact Hf].
        - eapply Permutation_in; [apply (di_forb _ _ _ _ (so_inv _ _ _ _ O))|exact Hg].
        - unfold forb_ltb in H1, H2. pose proof (key_ltb_total (0, forb_str f) (0, forb_str g)) as K. unfold key_ltb in K. simpl in K.
          specialize (K H1 H2). congruence. }
      split; apply (sorted_unique forb_ltb); auto.
      - intros f g Hf Hg. apply Tie; apply in_or_app; left; assumption.
      - rewrite <- F1, <- F3, Rt. apply perm_filter. exact P.
      - intros f g Hf Hg. apply Tie; apply in_or_app; right; assumption.
      - rewrite <- F2, <- F4, Rt. apply perm_filter. exact P.
    Qed.

    Lemma bare_alike : one_condition cs -> told_apart fs -> bare s = bare s'.
    Proof.
      intros One T. assert (N := nodes_alike One). destruct (clauses_alike N T) as [U F].
      eapply bare_same; [exact (proj1 B)|exact (proj1 B')|exact N|exact U|exact F].
    Qed.
  End Two.

  Theorem C119_same_partial s s' hs hs' cs cs' fs fs' : built s hs cs fs -> built s' hs' cs' fs' ->
    Permutation hs hs' -> Permutation cs cs' -> Permutation fs fs' -> one_condition cs -> told_apart fs -> same_results s s'.
  Proof. intros B B' Ph Pc Pf One T. apply bare_results. eapply bare_alike; eauto using built_settled. Qed.

  (** what is written is the same, too *)
  Theorem C119_written (T : Fix.text) x x' hs hs' cs cs' fs fs' : cbuilt x hs cs fs -> cbuilt x' hs' cs' fs' ->
    Permutation hs hs' -> Permutation cs cs' -> Permutation fs fs' -> one_condition cs -> told_apart fs -> c_name x = c_name x' ->
    to_serialized x = to_serialized x' /\ Pcs.new_write T x = Pcs.new_write T x' /\ PcsOld.old_write T x = PcsOld.old_write T x'.
  Proof.
    intros B B' Ph Pc Pf One Ta N.
    assert (Q := bare_alike _ _ _ _ _ _ _ _ (built_settled _ _ _ _ (cbuilt_built _ _ _ _ B)) (built_settled _ _ _ _ (cbuilt_built _ _ _ _ B')) Ph Pc Pf One Ta).
    assert (R := bare_results _ _ Q). destruct R as [(R1 & _) (R2 & R3 & _) _ _ _ _ _ _ _ _ _ _ _].
    assert (R4 : Space.hps (c_space x) = Space.hps (c_space x')) by (unfold Space.hps; rewrite R1; reflexivity).
    unfold to_serialized, Pcs.new_write, PcsOld.old_write. rewrite N, R2, R3, R4. auto.
  Qed.
  (** ** Comparing the two spaces *)
  Lemma lones_condof ns n : condof (lones ns) n = condof ns n.
  Proof. unfold condof. rewrite lones_assoc. destruct (assoc n ns); reflexivity. Qed.
  Lemma plook_condof ns c p : graph_ok ns ->
    plook ns c p = match condof ns c with Some x => if str_in p (cond_parents x) then Some x else None | None => None end.
  Proof.
    intros G. destruct (plook ns c p) as [y|] eqn:Ep.
    - assert (Ec := g_label _ G c p y Ep). rewrite Ec.
      assert (I1 : In p (cond_parents y)) by (apply (g_parents _ G c y Ec); eauto). apply str_in_iff in I1. rewrite I1. reflexivity.
    - destruct (condof ns c) as [x|] eqn:Ec; [|reflexivity]. destruct (str_in p (cond_parents x)) eqn:Es; [|reflexivity].
      apply str_in_iff in Es. apply (g_parents _ G c x Ec) in Es. destruct Es as (z & Hz). congruence.
  Qed.
  Lemma same_assoc_length {A} (l m : list (string * A)) : NoDup (map fst l) -> NoDup (map fst m) ->
    (forall n, assoc n l = assoc n m) -> length l = length m.
  Proof.
    intros N1 N2 H. rewrite <- (map_length fst l), <- (map_length fst m). apply Permutation_length. apply NoDup_Permutation; auto.
    intros n. rewrite !assoc_Some_key, H. reflexivity.
  Qed.

  Lemma alike_equal x x' hs hs' cs cs' fs fs' : cbuilt x hs cs fs -> cbuilt x' hs' cs' fs' ->
    lones (d_nodes (s_dag (c_space x))) = lones (d_nodes (s_dag (c_space x'))) -> bare (c_space x) = bare (c_space x') ->
    c_name x = c_name x' -> c_meta x = c_meta x' -> (forall n, node_list n (c_forbs x) = node_list n (c_forbs x')) ->
    cspace_eqb x x' = true.
  Proof.
    intros CB CB' N Q N1 N2 F. assert (O := built_ok _ _ _ _ (cbuilt_built _ _ _ _ CB)). assert (O' := built_ok _ _ _ _ (cbuilt_built _ _ _ _ CB')).
    assert (U : d_uforb (s_dag (c_space x)) = d_uforb (s_dag (c_space x')) /\ d_cforb (s_dag (c_space x)) = d_cforb (s_dag (c_space x')) /\
      index_of (c_space x) = index_of (c_space x') /\ s_len (c_space x) = s_len (c_space x')).
    { assert (V : forall A (f : space -> A), (forall t, f (bare t) = f t) -> f (c_space x) = f (c_space x')) by (intros A f Hf; rewrite <- Hf, Q; apply Hf).
      split; [apply (V _ (fun t => d_uforb (s_dag t))); reflexivity|]. split; [apply (V _ (fun t => d_cforb (s_dag t))); reflexivity|].
      split; [apply (V _ index_of); reflexivity|apply (V _ s_len); reflexivity]. }
    destruct U as (U1 & U2 & U3 & U4).
    assert (ND := so_nodup O). assert (ND' := so_nodup O'). unfold keys in ND, ND'.
    assert (Cd : forall n, condof (d_nodes (s_dag (c_space x))) n = condof (d_nodes (s_dag (c_space x'))) n) by (intros n; rewrite <- lones_condof, N; apply lones_condof).
    assert (Cl : forall p c, clook (d_nodes (s_dag (c_space x))) p c = clook (d_nodes (s_dag (c_space x'))) p c).
    { intros p c. rewrite (co_link _ (g_core _ (so_graph O))), (co_link _ (g_core _ (so_graph O'))).
      rewrite (plook_condof _ _ _ (so_graph O)), (plook_condof _ _ _ (so_graph O')), Cd. reflexivity. }
    apply cspace_eqb_iff. split; [exact N1|]. split; [exact N2|]. split; [exact U4|]. split; [|split].
    - split.
      + rewrite <- (map_length (fun e => (fst e, lone (snd e))) (d_nodes (s_dag (c_space x)))). fold (lones (d_nodes (s_dag (c_space x)))). rewrite N. apply map_length.
      + intros n nd H. assert (A := In_assoc _ _ _ ND H).
        assert (A' : option_map lone (assoc n (d_nodes (s_dag (c_space x')))) = Some (lone nd)) by (rewrite <- lones_assoc, <- N, lones_assoc, A; reflexivity).
        destruct (assoc n (d_nodes (s_dag (c_space x')))) as [nd'|] eqn:En; [|discriminate]. injection A' as E1 E2 E3. exists nd'. split; [reflexivity|].
        apply node_eqb_iff. rewrite <- E1, <- E2, <- E3, U3, F.
        assert (H' := assoc_In _ _ _ En). split; [apply hp_eqb_refl, (sp_wf CB' n nd' H')|].
        split; [reflexivity|]. split; [reflexivity|]. split; [|split].
        * assert (As : forall k, assoc k (n_children nd) = assoc k (n_children nd')).
          { intros k. specialize (Cl n k). unfold clook in Cl. rewrite A, En in Cl. exact Cl. }
          destruct (sp_children CB n nd H) as [K W]. destruct (sp_children CB' n nd' H') as [K' _]. split; [apply same_assoc_length; assumption|].
          intros k c Hc. exists c. split; [rewrite <- As; apply In_assoc; assumption|]. apply cond_eqb_refl, (W k c Hc).
        * apply list_eqb_refl. intros f Hf. apply C74_refl, (sp_built CB'). right. exists n. exact Hf.
        * destruct (n_cond nd') as [c|] eqn:Ec; [|reflexivity]. apply cond_eqb_refl. apply (sp_cond CB' n nd' c H' Ec).
    - rewrite U1. apply list_eqb_refl. intros f Hf. apply C74_refl, (sp_built CB'). auto.
    - rewrite U2. apply list_eqb_refl. intros f Hf. apply C74_refl, (sp_built CB'). auto.
  Qed.

  (** The two spaces are equal when every hyperparameter got its clauses in the same order; for
      instance when all clauses were added in one call. *)
  Theorem C119_equal_partial x x' hs hs' cs cs' fs fs' : cbuilt x hs cs fs -> cbuilt x' hs' cs' fs' ->
    Permutation hs hs' -> Permutation cs cs' -> Permutation fs fs' -> one_condition cs -> told_apart fs ->
    c_name x = c_name x' -> c_meta x = c_meta x' -> (forall n, node_list n (c_forbs x) = node_list n (c_forbs x')) ->
    cspace_eqb x x' = true.
  Proof.
    intros CB CB' Ph Pc Pf One T N1 N2 F.
    assert (N := nodes_alike _ _ _ _ _ _ _ _ (built_settled _ _ _ _ (cbuilt_built _ _ _ _ CB)) (built_settled _ _ _ _ (cbuilt_built _ _ _ _ CB')) Ph Pc One).
    assert (Q := bare_alike _ _ _ _ _ _ _ _ (built_settled _ _ _ _ (cbuilt_built _ _ _ _ CB)) (built_settled _ _ _ _ (cbuilt_built _ _ _ _ CB')) Ph Pc Pf One T).
    eapply alike_equal; eauto.
  Qed.
  Theorem C119_equal_once_partial b b' x x' hs hs' cs cs' fs fs' : clauses_once b x hs cs fs -> clauses_once b' x' hs' cs' fs' ->
    Permutation hs hs' -> Permutation cs cs' -> Permutation fs fs' -> one_condition cs -> NoDup (map forb_str fs) ->
    c_name x = c_name x' -> c_meta x = c_meta x' -> cspace_eqb x x' = true.
  Proof.
    intros C C' Ph Pc Pf One ND N1 N2.
    eapply C119_equal_partial; eauto using once_cbuilt.
    - intros f g Hf Hg H. apply (keyed_inj forb_str fs ND f g Hf Hg H).
    - intros n. rewrite (proj2 (once_lists _ _ _ _ _ C ND) n).
      assert (ND' : NoDup (map forb_str fs')) by (eapply Permutation_NoDup; [apply Permutation_map; exact Pf|exact ND]).
      rewrite (proj2 (once_lists _ _ _ _ _ C' ND') n), (sorted_clauses fs fs' ND Pf). reflexivity.
  Qed.
End Order.

(** ** Cases *)
Section Witness.
  #[local] Existing Instance rat_env.
  #[local] Existing Instance rat_env_laws.

  Definition cO := get_or dummy_cond (mk_bin OpEq hO hA (VStr "x")).
  Lemma cO_c : cond_built cO. Proof. apply (CB_bin OpEq hO hA (VStr "x") cO hO_c hA_c); vm_compute; reflexivity. Qed.
  Definition fY := get_or dummy_forb (mk_feq hA (VStr "y")).
  Definition fZ := get_or dummy_forb (mk_feq hA (VStr "z")).
  Lemma fY_c : forb_built fY. Proof. eapply (FB_eq hA (VStr "y")); [apply hA_c|vm_compute; reflexivity]. Qed.
  Lemma fZ_c : forb_built fZ. Proof. eapply (FB_eq hA (VStr "z")); [apply hA_c|vm_compute; reflexivity]. Qed.

  (** the same conditions and clauses, the last ones first *)
  Definition fore0 := fst (c_add (new_space None None) [hA; hO; hG] [] []).
  Definition fore1 := fst (c_add fore0 [] [cO] [fY]).
  Definition fore := fst (c_add fore1 [] [cG] [fZ]).
  Definition back0 := fst (c_add (new_space None None) [hG; hA; hO] [] []).
  Definition back1 := fst (c_add back0 [] [cG] [fZ]).
  Definition back := fst (c_add back1 [] [cO] [fY]).

  Lemma c_step x hs cs fs hs' cs' fs' : cbuilt x hs cs fs -> Forall constructed hs' -> Forall cond_built cs' -> Forall forb_built fs' ->
    snd (c_add x hs' cs' fs') = Ok tt -> cbuilt (fst (c_add x hs' cs' fs')) (hs ++ hs') (cs ++ cs') (fs ++ fs').
  Proof. intros B H1 H2 H3 H. eapply cb_add; eauto. destruct (c_add x hs' cs' fs') as [y r]. simpl in *. congruence. Qed.

  Lemma fore_built : cbuilt fore [hA; hO; hG] [cO; cG] [fY; fZ].
  Proof.
    assert (B0 := c_step _ _ _ _ [hA; hO; hG] [] [] (cb_new None None)
      (Forall_cons _ hA_c (Forall_cons _ hO_c (Forall_cons _ hG_c (Forall_nil _)))) (Forall_nil _) (Forall_nil _) ltac:(vm_compute; reflexivity)).
    assert (B1 := c_step _ _ _ _ [] [cO] [fY] B0 (Forall_nil _) (Forall_cons _ cO_c (Forall_nil _)) (Forall_cons _ fY_c (Forall_nil _)) ltac:(vm_compute; reflexivity)).
    exact (c_step _ _ _ _ [] [cG] [fZ] B1 (Forall_nil _) (Forall_cons _ cG_c (Forall_nil _)) (Forall_cons _ fZ_c (Forall_nil _)) ltac:(vm_compute; reflexivity)).
  Qed.
  Lemma back_built : cbuilt back [hG; hA; hO] [cG; cO] [fZ; fY].
  Proof.
    assert (B0 := c_step _ _ _ _ [hG; hA; hO] [] [] (cb_new None None)
      (Forall_cons _ hG_c (Forall_cons _ hA_c (Forall_cons _ hO_c (Forall_nil _)))) (Forall_nil _) (Forall_nil _) ltac:(vm_compute; reflexivity)).
    assert (B1 := c_step _ _ _ _ [] [cG] [fZ] B0 (Forall_nil _) (Forall_cons _ cG_c (Forall_nil _)) (Forall_cons _ fZ_c (Forall_nil _)) ltac:(vm_compute; reflexivity)).
    exact (c_step _ _ _ _ [] [cO] [fY] B1 (Forall_nil _) (Forall_cons _ cO_c (Forall_nil _)) (Forall_cons _ fY_c (Forall_nil _)) ltac:(vm_compute; reflexivity)).
  Qed.
  Lemma fore_one : one_condition [cO; cG].
  Proof. intros c c' n [<-|[<-|[]]] [<-|[<-|[]]] A1 A2; try reflexivity; exfalso; vm_compute in A1, A2; congruence. Qed.
  Lemma fore_apart : told_apart [fY; fZ].
  Proof. intros f g [<-|[<-|[]]] [<-|[<-|[]]] H; try reflexivity; exfalso; vm_compute in H; discriminate H. Qed.
  Lemma fore_perm : Permutation [hA; hO; hG] [hG; hA; hO] /\ Permutation [cO; cG] [cG; cO] /\ Permutation [fY; fZ] [fZ; fY].
  Proof.
    split; [|split; constructor]. transitivity [hA; hG; hO]; [constructor; constructor|constructor].
  Qed.

  Example C119_ex : same_results (c_space fore) (c_space back) /\ to_serialized fore = to_serialized back /\
    fore1 <> back1 /\ length (conditions (c_space fore)) = 2 /\ length (forbidden_clauses (c_space fore)) = 2.
  Proof.
    destruct fore_perm as (P1 & P2 & P3). split; [|split; [|split; [|split; vm_compute; reflexivity]]].
    - exact (C119_same_partial _ _ _ _ _ _ _ _ (cbuilt_built _ _ _ _ fore_built) (cbuilt_built _ _ _ _ back_built) P1 P2 P3 fore_one fore_apart).
    - exact (proj1 (C119_written (Fix.Build_text (fun _ => ""%string) (fun _ => None) (fun _ => None)) _ _ _ _ _ _ _ _ fore_built back_built P1 P2 P3 fore_one fore_apart eq_refl)).
    - intros H. apply (f_equal (fun x => conditional_hyperparameters (c_space x))) in H. vm_compute in H. discriminate H.
  Qed.

  (** == compares, for every hyperparameter, the list of the clauses that name it, and this list
      keeps the order of the add() calls. *)
  Theorem C119_equal_refuted : exists x x' hs hs' cs cs' fs fs', cbuilt x hs cs fs /\ cbuilt x' hs' cs' fs' /\
    Permutation hs hs' /\ Permutation cs cs' /\ Permutation fs fs' /\ one_condition cs /\ told_apart fs /\
    c_name x = c_name x' /\ c_meta x = c_meta x' /\ same_results (c_space x) (c_space x') /\ cspace_eqb x x' = false.
  Proof.
    destruct fore_perm as (P1 & P2 & P3). exists fore, back, [hA; hO; hG], [hG; hA; hO], [cO; cG], [cG; cO], [fY; fZ], [fZ; fY].
    split; [exact fore_built|]. split; [exact back_built|]. split; [exact P1|]. split; [exact P2|]. split; [exact P3|].
    split; [exact fore_one|]. split; [exact fore_apart|]. split; [reflexivity|]. split; [reflexivity|].
    split; [exact (proj1 C119_ex)|]. vm_compute. reflexivity.
  Qed.

  (** Conditions: [b] is active when p and q are "1", [c] when p is, [q] when r is.  The children of a
      hyperparameter are sorted when a condition is added below it; [b] moves down a level when [q] does. *)
  Definition key_hps := [bin "p"; bin "q"; bin "r"; bin "b"; bin "c"].
  Definition cBoth := get_or dummy_cond (mk_and [on "1" "b" "p"; on "1" "b" "q"]).
  Definition cC3 := on "1" "c" "p".
  Definition cQ := on "1" "q" "r".
  Definition late := fst (add empty_space key_hps [cC3; cBoth; cQ] []).
  Definition early := fst (add empty_space key_hps [cQ; cBoth; cC3] []).
  Lemma on_built w c p : mk_bin OpEq (bin c) (bin p) (VStr w) = Ok (on w c p) -> cond_built (on w c p).
  Proof. intros H. eapply CB_bin; [apply bin_c|apply bin_c|exact H]. Qed.
  Lemma cBoth_c : cond_built cBoth.
  Proof.
    apply (CB_and [on "1" "b" "p"; on "1" "b" "q"] cBoth); [|vm_compute; reflexivity].
    intros x [<-|[<-|[]]]; apply on_built; vm_compute; reflexivity.
  Qed.
  Lemma cC3_c : cond_built cC3. Proof. apply on_built. vm_compute. reflexivity. Qed.
  Lemma cQ_c : cond_built cQ. Proof. apply on_built. vm_compute. reflexivity. Qed.
  Lemma key_hps_c : Forall constructed key_hps.
  Proof. repeat (constructor; [apply bin_c|]). constructor. Qed.
  Lemma late_built : built late key_hps [cC3; cBoth; cQ] [].
  Proof.
    apply (built_step empty_space [] [] [] key_hps [cC3; cBoth; cQ] [] built_empty); [exact key_hps_c| |constructor|vm_compute; reflexivity].
    apply Forall_cons; [apply cC3_c|]. apply Forall_cons; [apply cBoth_c|]. apply Forall_cons; [apply cQ_c|apply Forall_nil].
  Qed.
  Lemma early_built : built early key_hps [cQ; cBoth; cC3] [].
  Proof.
    apply (built_step empty_space [] [] [] key_hps [cQ; cBoth; cC3] [] built_empty); [exact key_hps_c| |constructor|vm_compute; reflexivity].
    apply Forall_cons; [apply cQ_c|]. apply Forall_cons; [apply cBoth_c|]. apply Forall_cons; [apply cC3_c|apply Forall_nil].
  Qed.
  Lemma late_one : one_condition [cC3; cBoth; cQ].
  Proof. intros c c' n [<-|[<-|[<-|[]]]] [<-|[<-|[<-|[]]]] A1 A2; try reflexivity; exfalso; vm_compute in A1, A2; congruence. Qed.

  Theorem C119_children_refuted : exists s s' hs cs cs', built s hs cs [] /\ built s' hs cs' [] /\ Permutation cs cs' /\
    one_condition cs /\ same_results s s' /\
    exists p l l', assoc p (children_of s) = Some l /\ assoc p (children_of s') = Some l' /\ map hp_name l <> map hp_name l'.
  Proof.
    assert (P : Permutation [cC3; cBoth; cQ] [cQ; cBoth; cC3]).
    { transitivity [cBoth; cC3; cQ]; [constructor|]. transitivity [cBoth; cQ; cC3]; [constructor; constructor|constructor]. }
    exists late, early, key_hps, [cC3; cBoth; cQ], [cQ; cBoth; cC3].
    split; [exact late_built|]. split; [exact early_built|]. split; [exact P|]. split; [exact late_one|]. split.
    { apply (C119_same_partial _ _ _ _ _ _ _ _ late_built early_built (Permutation_refl _) P (Permutation_refl _) late_one). intros f g []. }
    exists "p"%string, [bin "b"; bin "c"], [bin "c"; bin "b"].
    split; [vm_compute; reflexivity|]. split; [vm_compute; reflexivity|]. intros H. vm_compute in H. discriminate H.
  Qed.

  (** the same additions, the clauses in one call but in two orders *)
  Definition one_fore := fst (c_add (new_space None None) [hA; hO; hG] [cO; cG] [fY; fZ]).
  Definition one_back := fst (c_add (new_space None None) [hG; hA; hO] [cG; cO] [fZ; fY]).
  Example C119_equal_ex : cspace_eqb one_fore one_back = true /\ length (forbidden_clauses (c_space one_fore)) = 2.
  Proof.
    destruct fore_perm as (P1 & P2 & P3). split; [|vm_compute; reflexivity].
    assert (C1 : clauses_once true one_fore [hA; hO; hG] [cO; cG] [fY; fZ]).
    { eapply (once_clauses (new_space None None) [] []); [constructor| | | |].
      - exact (Forall_cons _ hA_c (Forall_cons _ hO_c (Forall_cons _ hG_c (Forall_nil _)))).
      - exact (Forall_cons _ cO_c (Forall_cons _ cG_c (Forall_nil _))).
      - exact (Forall_cons _ fY_c (Forall_cons _ fZ_c (Forall_nil _))).
      - unfold one_fore. destruct (c_add _ _ _ _) as [x r] eqn:Ec. apply (f_equal snd) in Ec. vm_compute in Ec. subst r. reflexivity. }
    assert (C2 : clauses_once true one_back [hG; hA; hO] [cG; cO] [fZ; fY]).
    { eapply (once_clauses (new_space None None) [] []); [constructor| | | |].
      - exact (Forall_cons _ hG_c (Forall_cons _ hA_c (Forall_cons _ hO_c (Forall_nil _)))).
      - exact (Forall_cons _ cG_c (Forall_cons _ cO_c (Forall_nil _))).
      - exact (Forall_cons _ fZ_c (Forall_cons _ fY_c (Forall_nil _))).
      - unfold one_back. destruct (c_add _ _ _ _) as [x r] eqn:Ec. apply (f_equal snd) in Ec. vm_compute in Ec. subst r. reflexivity. }
    apply (C119_equal_once_partial _ _ _ _ _ _ _ _ _ _ C1 C2 P1 P2 P3 fore_one); [|reflexivity|reflexivity].
    apply nodup_strings. vm_compute. reflexivity.
  Qed.
End Witness.
