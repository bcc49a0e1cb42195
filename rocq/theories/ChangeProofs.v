(** * Lemmas about changing one value: the lookup table and change_hp_value *)
From Coq Require Import String List ZArith QArith Bool Lia Permutation Relations.
From Verif Require Import Base ListFacts Numeric HP HPProofs Cond Forb EqFacts Dag DagCycle DagProofs Space
  CommitProofs Spec SpaceProofs CnodeProofs.
Import ListNotations.
Open Scope nat_scope.

Section Change.
  Context {E : Env} {L : EnvLaws E}.

  Section Lookup.
    Variables (ns : nodes_t) (cns : list cnode).
    Hypothesis G : graph_ok ns.
    Hypothesis OK : Forall (cnode_ok ns) cns.
    Let atl := map fst ns.
    Let n := length cns.

    (** transitive dependence *)
    Definition dep : string -> string -> Prop := clos_trans _ (edge ns).
    Definition pars (t : nat) : list string := cond_parents (cn_cond (cn_at cns t)).
    Definition chil (t : nat) : list string := map (fun k => nth k atl ""%string) (cn_children (cn_at cns t)).

    Lemma par_chil t p c : t < n -> In p (pars t) -> In c (chil t) -> edge ns p c.
    Proof.
      intros Ht Hp Hc. unfold chil in Hc. apply in_map_iff in Hc. destruct Hc as (j & <- & Hj).
      assert (OKt : cnode_ok ns (cn_at cns t)).
      { unfold cn_at. rewrite Forall_forall in OK. apply OK. apply nth_In. exact Ht. }
      destruct OKt as [_ Hall]. destruct (Hall j Hj) as (c & Hc & Hq). destruct (cond_at_name _ _ _ Hc) as (x & Hx).
      assert (Hn : nth j atl ""%string = x) by (unfold atl; apply nth_error_nth; exact Hx). rewrite Hn.
      rewrite (cond_at_condof ns j x (co_nodup _ (g_core _ G)) Hx) in Hc.
      assert (Hp' : In p (cond_parents c)) by (eapply cond_equiv_parents; eauto).
      apply (g_parents _ G _ _ Hc) in Hp'. destruct Hp' as (y & Hy).
      apply edge_clook. rewrite (co_link _ (g_core _ G)). eauto.
    Qed.

    (** a dependent node reads something that depends on every parent *)
    Definition deps_dep (deps : list (list nat)) : Prop :=
      length deps = n /\
      forall a b, In b (nth a deps []) -> a < n /\ b < n /\ exists q, In q (pars b) /\ forall p, In p (pars a) -> dep p q.

    Lemma dep_names_dep deps : deps_dep deps -> forall f a x, a < n -> In x (dep_names f atl cns deps a) ->
      forall p, In p (pars a) -> dep p x.
    Proof.
      intros [_ D]. induction f as [|f IH]; intros a x Ha; simpl; [tauto|].
      rewrite in_app_iff. intros [H|H] p Hp.
      - apply t_step. eapply par_chil; eauto.
      - apply in_concat in H. destruct H as (y & Hy & Hx). apply in_map_iff in Hy. destruct Hy as (b & <- & Hb).
        destruct (D a b Hb) as (_ & Hbn & q & Hq & K). eapply t_trans; [apply (K p Hp)|]. apply (IH b x Hbn Hx q Hq).
    Qed.

    Lemma deps_dep_set deps a b : deps_dep deps -> a < n -> b < n -> depends_on atl cns deps b a = true ->
      deps_dep (set_nth a (sort_ids ns cns (nth a deps [] ++ [b])) deps).
    Proof.
      intros D Ha Hb H. split; [rewrite set_nth_length; apply D|].
      intros x y. rewrite nth_set_nth. destruct (Nat.eqb x a && Nat.ltb a (length deps))%bool eqn:Ex; [|apply D].
      apply andb_true_iff in Ex. destruct Ex as [Ex _]. apply Nat.eqb_eq in Ex. subst x.
      rewrite sort_ids_In, in_app_iff. intros [K|[<-|[]]]; [apply D; exact K|].
      split; [exact Ha|]. split; [exact Hb|]. unfold depends_on in H. apply existsb_exists in H. destruct H as (q & Hq & H).
      exists q. split; [exact Hq|]. apply str_in_iff in H. intros p Hp. exact (dep_names_dep deps D _ a q Ha H p Hp).
    Qed.

    Lemma dep_pass_dep values deps trees : deps_dep deps -> (forall x, In x values -> x < n) ->
      let '(deps', trees', upd) := dep_pass ns atl cns values deps trees in deps_dep deps' /\ incl trees' trees.
    Proof.
      intros D Hv. unfold dep_pass.
      assert (Hp : forall a b, In (a, b) (list_prod values values) -> a < n /\ b < n).
      { intros a b H. apply in_prod_iff in H. split; apply Hv; tauto. }
      revert deps trees D Hp. generalize (list_prod values values). generalize false.
      intros upd l. revert upd. induction l as [|[a b] l IH]; intros upd deps trees D Hp; cbn [fold_left].
      - split; [exact D|apply incl_refl].
      - assert (Hp' : forall a b, In (a, b) l -> a < n /\ b < n) by (intros; apply Hp; right; assumption).
        destruct (Hp a b (or_introl eq_refl)) as [Ha Hb].
        destruct (Nat.eqb a b); [apply IH; assumption|]. destruct (depends_on atl cns deps b a) eqn:Ed; [|apply IH; assumption].
        assert (K := IH true (set_nth a (sort_ids ns cns (nth a deps [] ++ [b])) deps)
                       (filter (fun t => negb (Nat.eqb t b)) trees) (deps_dep_set deps a b D Ha Hb Ed) Hp').
        destruct (fold_left _ l _) as [[deps' trees'] upd']. destruct K as [K1 K2]. split; [exact K1|].
        intros x Hx. apply K2 in Hx. apply filter_In in Hx. apply Hx.
    Qed.

    Lemma dep_loop_dep : forall f deps trees deps' trees', deps_dep deps -> (forall x, In x trees -> x < n) ->
      dep_loop f ns atl cns deps trees = Ok (deps', trees') -> deps_dep deps' /\ incl trees' trees.
    Proof.
      induction f as [|f IH]; intros deps trees deps' trees' D Ht; simpl; [discriminate|].
      assert (P := dep_pass_dep trees deps trees D Ht).
      destruct (dep_pass ns atl cns trees deps trees) as [[d1 t1] upd]. destruct P as [P1 P2]. destruct upd.
      - intros H. apply IH in H; auto. destruct H as [H1 H2]. split; [exact H1|]. intros x Hx. auto.
      - intros H. inversion H; subst. auto.
    Qed.

    Definition lookup_dep (lk : list (string * list nat)) : Prop :=
      forall p l t, In (p, l) lk -> In t l -> t < n /\ forall c, In c (chil t) -> dep p c.

    Lemma assoc_set_in {A} k (a : A) d e : In e (assoc_set k a d) -> In e d \/ e = (k, a).
    Proof.
      induction d as [|[m b] d IH]; simpl; [intros [<-|[]]; auto|].
      destruct (String.eqb k m) eqn:Ek; simpl; intros [H|H]; auto.
      - right. apply String.eqb_eq in Ek. subst. auto.
      - destruct (IH H); auto.
    Qed.

    Lemma lookup_add_dep deps t lk : deps_dep deps -> t < n -> lookup_dep lk -> lookup_dep (lookup_add ns cns deps t lk).
    Proof.
      intros D Ht. unfold lookup_add. fold (pars t).
      assert (New : forall p, In p (pars t) -> forall u, In u (t :: nth t deps []) -> u < n /\ forall c, In c (chil u) -> dep p c).
      { intros p Hp u [<-|Hu].
        - split; [exact Ht|]. intros c Hc. apply t_step. eapply par_chil; eauto.
        - destruct D as [_ D]. destruct (D t u Hu) as (_ & Hun & q & Hq & K). split; [exact Hun|]. intros c Hc.
          eapply t_trans; [apply (K p Hp)|]. apply t_step. eapply par_chil; eauto. }
      revert New lk. generalize (pars t). induction l as [|p l IH]; intros New lk K; cbn [fold_left]; [exact K|].
      apply IH; [intros q Hq; apply New; right; exact Hq|].
      specialize (New p (or_introl eq_refl)). cbv zeta. destruct (assoc p lk) as [l0|] eqn:Ea.
      - intros p' l' u Hin Hu. apply assoc_set_in in Hin. destruct Hin as [Hin|Hin]; [eapply K; eauto|].
        inversion Hin; subst. apply (proj1 (sort_ids_In _ _ _ _)) in Hu. apply in_app_iff in Hu.
        destruct Hu as [Hu|Hu]; [|apply New; exact Hu]. apply assoc_In in Ea. eapply K; eauto.
      - intros p' l' u Hin Hu. apply in_app_iff in Hin. destruct Hin as [Hin|[Hin|[]]]; [eapply K; eauto|].
        inversion Hin; subst. apply New. exact Hu.
    Qed.

    Lemma lookup_levels_dep deps : deps_dep deps -> forall f level lk lk', (forall t, In t level -> t < n) -> lookup_dep lk ->
      lookup_levels f ns cns deps level lk = Ok lk' -> lookup_dep lk'.
    Proof.
      intros D. induction f as [|f IH]; intros level lk lk' Hl K.
      - destruct level; simpl; [|discriminate]. intros H. inversion H; subst. exact K.
      - destruct level as [|t0 level]; [simpl; intros H; inversion H; subst; exact K|]. cbn [lookup_levels].
        apply IH.
        + intros u Hu. apply in_concat in Hu. destruct Hu as (y & Hy & Hu). apply in_map_iff in Hy. destruct Hy as (t & <- & Ht).
          destruct D as [_ D]. apply (D t u Hu).
        + revert Hl lk K. generalize (t0 :: level). induction l as [|t l IHl]; intros Hl lk K; cbn [fold_left]; [exact K|].
          apply IHl; [intros; apply Hl; right; assumption|]. apply lookup_add_dep; auto. apply Hl. left. reflexivity.
    Qed.

    Lemma change_lookup_dep lk : change_lookup ns atl cns = Ok lk ->
      forall p l cn, In (p, l) lk -> In cn l -> In cn cns /\ forall k, In k (cn_children cn) -> dep p (nth k atl ""%string).
    Proof.
      unfold change_lookup. fold n.
      destruct (dep_loop (S n) ns atl cns (repeat [] n) (seq 0 n)) as [[deps trees]|e] eqn:Ed; [|discriminate].
      assert (D0 : deps_dep (repeat [] n)).
      { split; [apply repeat_length|]. intros a b.
        assert (H : nth a (repeat (@nil nat) n) [] = []).
        { destruct (nth_in_or_default a (repeat (@nil nat) n) []) as [H|H]; [|exact H]. apply repeat_spec in H. exact H. }
        rewrite H. simpl. tauto. }
      apply dep_loop_dep in Ed; [|exact D0|intros x Hx; apply in_seq in Hx; lia]. destruct Ed as [D T]. cbn [bind].
      destruct (lookup_levels (S n) ns cns deps (sort_ids ns cns trees) []) as [lk0|e] eqn:El; [|discriminate].
      apply lookup_levels_dep in El; auto.
      - simpl. intros H. inversion H; subst. intros p l cn Hin Hcn. apply in_map_iff in Hin. destruct Hin as ([p' l'] & Heq & Hin).
        simpl in Heq. inversion Heq; subst. apply in_map_iff in Hcn. destruct Hcn as (t & <- & Ht).
        destruct (El p l' t Hin Ht) as [Htn K]. split; [apply nth_In; exact Htn|]. intros k Hk. apply K. unfold chil. apply in_map_iff. eauto.
      - intros t Ht. apply (proj1 (sort_ids_In _ _ _ _)) in Ht. apply T in Ht. apply in_seq in Ht. lia.
      - intros p l t [].
    Qed.
  End Lookup.

  Section One.
    Context {s : space} {hs : list hp} {cs : list cond} {fs : list fclause} (O : space_ok s hs cs fs).
    Notation ns := (d_nodes (s_dag s)).
    Notation io := (index_of s).

    Lemma so_lookup p l cn : assoc p (d_lookup (s_dag s)) = Some l -> In cn l ->
      In cn (d_min (s_dag s)) /\
      forall k, In k (cn_children cn) -> exists c, nth_error (keys s) k = Some c /\ clos_trans _ (reads cs) p c.
    Proof.
      intros Hl Hcn. assert (K := cm_lookup _ (so_com _ _ _ _ O)). rewrite (cm_at _ (so_com _ _ _ _ O)) in K.
      destruct (change_lookup_dep ns (d_min (s_dag s)) (so_graph O) (proj1 (so_min O)) _ K p l cn (assoc_In _ _ _ Hl) Hcn) as [H1 H2].
      split; [exact H1|]. intros k Hk. destruct (so_cnode O cn k H1 Hk) as (c & _ & Hc & _). exists c. split; [exact Hc|].
      specialize (H2 k Hk). assert (Hn : nth k (map fst ns) ""%string = c) by (apply nth_error_nth; exact Hc). rewrite Hn in H2. unfold dep in H2.
      clear -H2 O. induction H2; [apply t_step, (so_edge O); assumption|eapply t_trans; eauto].
    Qed.

    Lemma so_cnode_lt cn i : In cn (d_min (s_dag s)) -> In i (cn_children cn) -> exists h, hp_at s i = Some h /\ i < s_len s.
    Proof.
      intros H1 H2. destruct (so_cnode O cn i H1 H2) as (n & c & Hn & _). assert (Hlt : i < length (keys s)) by (apply nth_error_Some; congruence).
      rewrite (so_keys_len O) in Hlt. rewrite (so_hp_at O). unfold keys in Hn. rewrite nth_error_map in Hn.
      destruct (nth_error ns i); [|discriminate]. simpl. eauto.
    Qed.

    (** ** Entries after a change *)
    Lemma so_default_at j h : hp_at s j = Some h -> nth j (d_defaults (s_dag s)) NaN = default_entry h.
    Proof.
      intros H. unfold hp_at in H. rewrite (cm_defaults _ (so_com _ _ _ _ O)).
      rewrite (nth_indep _ NaN (default_entry h)) by (rewrite map_length; apply nth_error_Some; congruence).
      rewrite map_nth. f_equal. apply nth_error_nth. exact H.
    Qed.

    Lemma fold_set_nth (g : nat -> fval) (l : list nat) : forall a j, (forall i, In i l -> i < length a) ->
      length (fold_left (fun a i => set_nth i (g i) a) l a) = length a /\
      nth j (fold_left (fun a i => set_nth i (g i) a) l a) NaN = if existsb (Nat.eqb j) l then g j else nth j a NaN.
    Proof.
      induction l as [|i l IH]; intros a j Hl; [simpl; tauto|]. change (fold_left ?f (i :: l) a) with (fold_left f l (f a i)). cbv beta.
      destruct (IH (set_nth i (g i) a) j) as [H1 H2].
      - intros k Hk. rewrite set_nth_length. apply Hl. right. exact Hk.
      - rewrite set_nth_length in H1. split; [exact H1|]. rewrite H2. simpl. destruct (Nat.eqb_spec j i) as [->|Hne]; simpl.
        + rewrite nth_set_nth_eq by (apply Hl; left; reflexivity). destruct (existsb (Nat.eqb i) l); reflexivity.
        + rewrite nth_set_nth_ne by congruence. reflexivity.
    Qed.

    Lemma existsb_eqb_in j l : existsb (Nat.eqb j) l = true <-> In j l.
    Proof.
      rewrite existsb_exists. split.
      - intros (x & Hx & Hq). apply Nat.eqb_eq in Hq. subst. exact Hx.
      - intros H. exists j. split; [exact H|apply Nat.eqb_refl].
    Qed.

    Lemma change_cnode_spec a cn : (forall i, In i (cn_children cn) -> i < length a) ->
      length (change_cnode s a cn) = length a /\
      forall j, nth j (change_cnode s a cn) NaN =
        if existsb (Nat.eqb j) (cn_children cn)
        then if sat_vec io a (cn_cond cn)
             then if isnan (nth j a NaN) then nth j (d_defaults (s_dag s)) NaN else nth j a NaN
             else NaN
        else nth j a NaN.
    Proof.
      intros H. unfold change_cnode. destruct (sat_vec io a (cn_cond cn)).
      - assert (K := fold_set_nth (fun i => nth i (d_defaults (s_dag s)) NaN) (filter (fun i => isnan (nth i a NaN)) (cn_children cn)) a).
        cbv beta in K. split.
        + apply (K 0). intros i Hi. apply filter_In in Hi. apply H, Hi.
        + intros j. rewrite (proj2 (K j (fun i Hi => H i (proj1 (proj1 (filter_In _ _ _) Hi))))).
          destruct (existsb (Nat.eqb j) (cn_children cn)) eqn:E1.
          * destruct (isnan (nth j a NaN)) eqn:En.
            -- replace (existsb _ _) with true; [reflexivity|]. symmetry. apply existsb_eqb_in. apply filter_In.
               split; [apply existsb_eqb_in; exact E1|exact En].
            -- replace (existsb _ _) with false; [reflexivity|]. symmetry. apply not_true_iff_false. rewrite existsb_eqb_in, filter_In. intros [_ K2]. congruence.
          * replace (existsb _ _) with false; [reflexivity|]. symmetry. apply not_true_iff_false. rewrite existsb_eqb_in, filter_In.
            intros [K2 _]. apply existsb_eqb_in in K2. congruence.
      - assert (K := fold_set_nth (fun _ => NaN) (cn_children cn) a). cbv beta in K. split; [apply (K 0 H)|]. intros j. apply (K j H).
    Qed.

    (** where an entry of the changed vector comes from *)
    Definition entry_from (old : list fval) (i0 : nat) (x : fval) (j : nat) (y : fval) : Prop :=
      (j <> i0 /\ y = nth j old NaN) \/ y = NaN \/ (j = i0 /\ y = x) \/ (exists h, hp_at s j = Some h /\ y = default_entry h).

    Lemma change_entries v name x i0 : length v = s_len s -> i0 < s_len s ->
      length (change_hp_value s v name x i0) = s_len s /\
      forall j, entry_from v i0 x j (nth j (change_hp_value s v name x i0) NaN).
    Proof.
      intros Hv Hi. unfold change_hp_value.
      assert (G : forall l a, (forall cn, In cn l -> In cn (d_min (s_dag s))) -> length a = s_len s ->
        (forall j, entry_from v i0 x j (nth j a NaN)) ->
        length (fold_left (change_cnode s) l a) = s_len s /\ forall j, entry_from v i0 x j (nth j (fold_left (change_cnode s) l a) NaN)).
      { induction l as [|cn l IH]; intros a Hl Ha Hj; [simpl; auto|]. simpl.
        destruct (change_cnode_spec a cn) as [S1 S2].
        - intros i Hin. rewrite Ha. destruct (so_cnode_lt cn i (Hl cn (or_introl eq_refl)) Hin) as (_ & _ & K). exact K.
        - apply IH; [intros c Hc; apply Hl; right; exact Hc|congruence|]. intros j. rewrite S2.
          destruct (existsb (Nat.eqb j) (cn_children cn)) eqn:E1; [|apply Hj]. apply existsb_eqb_in in E1.
          destruct (sat_vec io a (cn_cond cn)); [|right; left; reflexivity].
          destruct (isnan (nth j a NaN)); [|apply Hj]. right. right. right.
          destruct (so_cnode_lt cn j (Hl cn (or_introl eq_refl)) E1) as (h & Hh & _). exists h. split; [exact Hh|apply so_default_at; exact Hh]. }
      apply G.
      - destruct (assoc name (d_lookup (s_dag s))) as [l|] eqn:El; [|intros cn []]. intros cn. intros Hcn. apply (so_lookup name l cn El Hcn).
      - rewrite set_nth_length. exact Hv.
      - intros j. unfold entry_from. destruct (Nat.eq_dec j i0) as [->|Hne].
        + right. right. left. split; [reflexivity|]. apply nth_set_nth_eq. congruence.
        + left. split; [exact Hne|]. apply nth_set_nth_ne. exact Hne.
    Qed.

    (** only the changed hyperparameter and those that depend on it are touched *)
    Lemma change_local v name x i0 : length v = s_len s -> nth_error (keys s) i0 = Some name ->
      nth i0 (change_hp_value s v name x i0) NaN = x /\
      forall j m, nth_error (keys s) j = Some m -> m <> name -> ~ clos_trans _ (reads cs) name m ->
        nth j (change_hp_value s v name x i0) NaN = nth j v NaN.
    Proof.
      intros Hv Hi. unfold change_hp_value.
      assert (Hi0 : i0 < s_len s) by (rewrite <- (so_keys_len O); apply nth_error_Some; congruence).
      assert (G : forall l a, (forall cn, In cn l -> In cn (d_min (s_dag s)) /\
            forall k, In k (cn_children cn) -> exists c, nth_error (keys s) k = Some c /\ clos_trans _ (reads cs) name c) ->
        length a = s_len s ->
        forall j m, nth_error (keys s) j = Some m -> ~ clos_trans _ (reads cs) name m ->
        nth j (fold_left (change_cnode s) l a) NaN = nth j a NaN).
      { induction l as [|cn l IH]; intros a Hl Ha j m Hj Hm; [reflexivity|]. simpl.
        destruct (Hl cn (or_introl eq_refl)) as [H1 H2].
        destruct (change_cnode_spec a cn) as [S1 S2].
        - intros i Hin. rewrite Ha. destruct (so_cnode_lt cn i H1 Hin) as (_ & _ & K). exact K.
        - rewrite (IH _ (fun c Hc => Hl c (or_intror Hc)) (eq_trans S1 Ha) j m Hj Hm), S2.
          destruct (existsb (Nat.eqb j) (cn_children cn)) eqn:E1; [|reflexivity]. apply existsb_eqb_in in E1.
          destruct (H2 j E1) as (c & Hc & K). assert (c = m) by congruence. subst c. contradiction. }
      assert (Hlk : forall cn, In cn (match assoc name (d_lookup (s_dag s)) with Some l => l | None => [] end) ->
            In cn (d_min (s_dag s)) /\
            forall k, In k (cn_children cn) -> exists c, nth_error (keys s) k = Some c /\ clos_trans _ (reads cs) name c).
      { destruct (assoc name (d_lookup (s_dag s))) as [l|] eqn:El; [|intros cn []]. intros cn Hcn. apply (so_lookup name l cn El Hcn). }
      split.
      - rewrite (G _ _ Hlk (eq_trans (set_nth_length _ _ _) Hv) i0 name Hi (so_no_cycle O name)). apply nth_set_nth_eq. congruence.
      - intros j m Hj Hne Hm. rewrite (G _ _ Hlk (eq_trans (set_nth_length _ _ _) Hv) j m Hj Hm). apply nth_set_nth_ne.
        intros ->. congruence.
    Qed.
  End One.
End Change.
