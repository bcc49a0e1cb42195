(** * The lookup table of change_hp_value, when the shallowest parents are in order

    change_hp_lookup (_condition_tree.py:597-633) sorts condition nodes by their shallowest parent.
    When that order puts the condition of a parent before the condition that reads it, the table
    lists all dependants of a hyperparameter, parents first. *)
From Coq Require Import String List ZArith QArith Bool Lia Permutation Relations Sorting.Sorted.
From Verif Require Import Base ListFacts Numeric HP HPProofs Cond Forb EqFacts Dag DagCycle DagProofs Space
  CommitProofs Spec SpaceProofs CnodeProofs ChangeProofs.
Import ListNotations.
Open Scope nat_scope.

Section Order.
  Context {E : Env} {L : EnvLaws E}.

  Section Lookup.
    Variables (ns : nodes_t) (cns : list cnode).
    Let atl := map fst ns.
    Let n := length cns.
    Definition rk (t : nat) : nat := shallowest ns (cn_at cns t).
    (** [a] handles a parent of [b] *)
    Definition hand (a b : nat) : Prop := a < n /\ b < n /\ exists p, In p (pars cns b) /\ In p (chil ns cns a).
    Definition tr : nat -> nat -> Prop := clos_trans _ hand.
    Hypothesis Srt : forall a b, a < b -> b < n -> rk a <= rk b.
    Hypothesis Str : forall a b, hand a b -> rk a < rk b.

    Lemma tr_lt a b : tr a b -> a < n /\ b < n /\ rk a < rk b.
    Proof.
      induction 1 as [a b H|a b c _ IH1 _ IH2].
      - destruct H as (H1 & H2 & H3). split; [exact H1|]. split; [exact H2|]. apply Str. split; auto.
      - lia.
    Qed.
    Lemma tr_last a b : tr a b -> hand a b \/ exists c, tr a c /\ hand c b.
    Proof.
      intros H. apply clos_trans_tn1 in H. destruct H as [b H|b c H H1]; [auto|]. right. exists b. split; [|exact H].
      apply clos_tn1_trans. exact H1.
    Qed.
    Lemma rk_id a b : a < n -> b < n -> rk a < rk b -> a < b.
    Proof. intros Ha Hb H. destruct (Nat.lt_ge_cases a b) as [K|K]; [exact K|]. destruct (Nat.eq_dec a b) as [->|]; [lia|]. specialize (Srt b a). lia. Qed.

    Definition sorted_ids : list nat -> Prop := StronglySorted (fun x y => rk x <= rk y).
    Lemma sort_ids_sorted l : sorted_ids (sort_ids ns cns l).
    Proof.
      unfold sorted_ids, sort_ids.
      assert (H : StronglySorted (fun x y => (fun a b => Nat.ltb (shallowest ns (cn_at cns a)) (shallowest ns (cn_at cns b))) y x = false)
        (py_sorted (fun a b => Nat.ltb (shallowest ns (cn_at cns a)) (shallowest ns (cn_at cns b))) l)).
      { apply py_sorted_sorted.
        - intros x y Hx. apply Nat.ltb_lt in Hx. apply Nat.ltb_ge. lia.
        - intros x y z Hx Hy. apply Nat.ltb_ge in Hx, Hy. apply Nat.ltb_ge. lia. }
      induction H as [|x l' H IH F]; constructor; auto. rewrite Forall_forall in F |- *. intros y Hy.
      specialize (F y Hy). apply Nat.ltb_ge in F. exact F.
    Qed.

    (** the table of dependants is right as far as it goes *)
    Record deps_in (deps : list (list nat)) : Prop := {
      di_len : length deps = n;
      di_tr : forall a b, In b (nth a deps []) -> tr a b;
      di_sorted : forall a, sorted_ids (nth a deps [])
    }.

    Lemma dep_names_tr deps : deps_in deps -> forall f a x, a < n -> In x (dep_names f atl cns deps a) ->
      exists c, (c = a \/ tr a c) /\ c < n /\ In x (chil ns cns c).
    Proof.
      intros D. induction f as [|f IH]; intros a x Ha; simpl; [tauto|]. rewrite in_app_iff. intros [H|H].
      - exists a. auto.
      - apply in_concat in H. destruct H as (y & Hy & Hx). apply in_map_iff in Hy. destruct Hy as (b & <- & Hb).
        assert (T := di_tr _ D a b Hb). destruct (IH b x (proj1 (proj2 (tr_lt _ _ T))) Hx) as (c & Hc & K). exists c.
        split; [|exact K]. right. destruct Hc as [->|Hc]; [exact T|]. eapply t_trans; eauto.
    Qed.
    Lemma depends_tr deps a b : deps_in deps -> a < n -> b < n -> depends_on atl cns deps b a = true -> tr a b.
    Proof.
      intros D Ha Hb H. unfold depends_on in H. apply existsb_exists in H. destruct H as (p & Hp & H). apply str_in_iff in H.
      destruct (dep_names_tr deps D _ a p Ha H) as (c & Hc & Hcn & K).
      assert (Hh : hand c b) by (split; [exact Hcn|]; split; [exact Hb|]; exists p; auto).
      destruct Hc as [->|Hc]; [apply t_step; exact Hh|]. eapply t_trans; [exact Hc|apply t_step; exact Hh].
    Qed.
    Lemma tr_depends deps a b c : c = a \/ In c (nth a deps []) -> hand c b -> depends_on atl cns deps b a = true.
    Proof.
      intros Hc (Hcn & Hbn & p & Hp & K). unfold depends_on. apply existsb_exists. exists p. split; [exact Hp|].
      apply str_in_iff. cbn [dep_names]. rewrite in_app_iff. destruct Hc as [->|Hc]; [left; exact K|right].
      apply in_concat. exists (dep_names (length cns) atl cns deps c). split; [apply in_map; exact Hc|].
      assert (Hf : forall f, 0 < f -> In p (dep_names f atl cns deps c)).
      { intros [|f] Hf; [lia|]. cbn [dep_names]. apply in_app_iff. left. exact K. }
      apply Hf. unfold n in Hcn. lia.
    Qed.

    Definition step (st : list (list nat) * list nat * bool) (ab : nat * nat) :=
      let '(deps, trees, upd) := st in
      let '(a, b) := ab in
      if Nat.eqb a b then st
      else if depends_on atl cns deps b a
      then (set_nth a (sort_ids ns cns (nth a deps [] ++ [b])) deps,
            filter (fun t => negb (Nat.eqb t b)) trees, true)
      else st.

    Lemma dep_pass_step values deps trees :
      dep_pass ns atl cns values deps trees = fold_left step (list_prod values values) (deps, trees, false).
    Proof. reflexivity. Qed.

    Definition grows (st st' : list (list nat) * list nat * bool) : Prop :=
      let '(deps, trees, _) := st in let '(deps', trees', _) := st' in
      deps_in deps' /\ (forall a b, In b (nth a deps []) -> In b (nth a deps' [])) /\
      (forall b, In b trees -> In b trees' \/ exists a, In b (nth a deps' [])) /\ incl trees' trees.

    Lemma grows_refl deps trees u u' : deps_in deps -> grows (deps, trees, u) (deps, trees, u').
    Proof. intros D. split; [exact D|]. split; [auto|]. split; [auto|apply incl_refl]. Qed.
    Lemma grows_trans s1 s2 s3 : grows s1 s2 -> grows s2 s3 -> grows s1 s3.
    Proof.
      destruct s1 as [[d1 t1] u1], s2 as [[d2 t2] u2], s3 as [[d3 t3] u3]. intros (A1 & A2 & A3 & A4) (B1 & B2 & B3 & B4).
      split; [exact B1|]. split; [auto|]. split; [|intros x Hx; auto]. intros b Hb. destruct (A3 b Hb) as [H|(a & H)]; [apply B3; exact H|].
      right. exists a. apply B2. exact H.
    Qed.

    Lemma step_grows deps trees upd a b : deps_in deps -> a < n -> b < n ->
      grows (deps, trees, upd) (step (deps, trees, upd) (a, b)).
    Proof.
      intros D Ha Hb. unfold step. destruct (Nat.eqb a b); [apply grows_refl; exact D|].
      destruct (depends_on atl cns deps b a) eqn:Ed; [|apply grows_refl; exact D].
      assert (N : forall x y, In y (nth x (set_nth a (sort_ids ns cns (nth a deps [] ++ [b])) deps) []) <-> In y (nth x deps []) \/ x = a /\ y = b).
      { intros x y. rewrite nth_set_nth. destruct (Nat.eqb_spec x a) as [->|Hne]; simpl.
        - rewrite (di_len _ D). replace (Nat.ltb a n) with true by (symmetry; apply Nat.ltb_lt; exact Ha).
          rewrite sort_ids_In, in_app_iff. simpl. split; [intros [H|[<-|[]]]; auto|intros [H|[_ ->]]; auto].
        - split; [auto|]. intros [H|[H _]]; [exact H|contradiction]. }
      split; [constructor|split; [|split]].
      - rewrite set_nth_length. apply D.
      - intros x y H. apply N in H. destruct H as [H|[-> ->]]; [apply (di_tr _ D); exact H|]. eapply depends_tr; eauto.
      - intros x. rewrite nth_set_nth. destruct (Nat.eqb x a && Nat.ltb a (length deps))%bool; [apply sort_ids_sorted|apply D].
      - intros x y H. apply N. auto.
      - intros y Hy. destruct (Nat.eq_dec y b) as [->|Hne].
        + right. exists a. apply N. auto.
        + left. apply filter_In. split; [exact Hy|]. apply negb_true_iff, Nat.eqb_neq. exact Hne.
      - intros y Hy. apply filter_In in Hy. apply Hy.
    Qed.

    Lemma fold_grows l : forall deps trees upd, deps_in deps -> (forall a b, In (a, b) l -> a < n /\ b < n) ->
      grows (deps, trees, upd) (fold_left step l (deps, trees, upd)).
    Proof.
      induction l as [|[a b] l IH]; intros deps trees upd D Hl; cbn [fold_left]; [apply grows_refl; exact D|].
      destruct (Hl a b (or_introl eq_refl)) as [Ha Hb]. assert (S := step_grows deps trees upd a b D Ha Hb).
      destruct (step (deps, trees, upd) (a, b)) as [[d1 t1] u1]. eapply grows_trans; [exact S|]. apply IH; [apply S|].
      intros x y H. apply Hl. right. exact H.
    Qed.

    (** one row of pairs finds all dependants of [a] *)
    Lemma row_complete a : a < n -> forall m deps trees upd, m <= n -> deps_in deps ->
      let '(deps', _, _) := fold_left step (map (pair a) (seq 0 m)) (deps, trees, upd) in
      forall b, b < m -> tr a b -> In b (nth a deps' []).
    Proof.
      intros Ha. induction m as [|m IH]; intros deps trees upd Hm D; [simpl; intros; lia|].
      rewrite seq_S, map_app, fold_left_app. cbn [map fold_left plus].
      assert (G := fold_grows (map (pair a) (seq 0 m)) deps trees upd D).
      specialize (IH deps trees upd). destruct (fold_left step (map (pair a) (seq 0 m)) (deps, trees, upd)) as [[d1 t1] u1].
      assert (D1 : deps_in d1).
      { apply G. intros x y H. apply in_map_iff in H. destruct H as (z & Hz & H). inversion Hz; subst. apply in_seq in H. lia. }
      assert (S := step_grows d1 t1 u1 a m D1 Ha). specialize (S Hm).
      destruct (step (d1, t1, u1) (a, m)) as [[d2 t2] u2] eqn:Es. intros b Hb T.
      destruct (Nat.eq_dec b m) as [->|Hne].
      - assert (Hdep : depends_on atl cns d1 m a = true).
        { destruct (tr_last a m T) as [H|(c & Hc & H)]; [apply (tr_depends d1 a m a); auto|].
          apply (tr_depends d1 a m c); [|exact H]. right. apply IH; [lia|exact D| |exact Hc].
          apply rk_id; [apply H|apply H|]. apply Str. exact H. }
        assert (Ham : a <> m) by (intros ->; apply tr_lt in T; lia).
        unfold step in Es. apply Nat.eqb_neq in Ham. rewrite Ham, Hdep in Es. inversion Es; subst.
        rewrite nth_set_nth, Nat.eqb_refl, (di_len _ D1). replace (Nat.ltb a n) with true by (symmetry; apply Nat.ltb_lt; exact Ha).
        simpl. apply sort_ids_In. apply in_app_iff. right. left. reflexivity.
      - apply S. apply IH; [lia|exact D|lia|exact T].
    Qed.

    Lemma rows_complete : forall rows deps trees upd, (forall a, In a rows -> a < n) -> deps_in deps ->
      let '(deps', _, _) := fold_left step (list_prod rows (seq 0 n)) (deps, trees, upd) in
      forall a b, In a rows -> tr a b -> In b (nth a deps' []).
    Proof.
      induction rows as [|a rows IH]; intros deps trees upd Hr D; [simpl; tauto|].
      cbn [list_prod]. rewrite fold_left_app.
      assert (G := fold_grows (map (fun y => (a, y)) (seq 0 n)) deps trees upd D).
      assert (R := row_complete a (Hr a (or_introl eq_refl)) n deps trees upd (le_n n) D). change (map (pair a)) with (map (fun y : nat => (a, y))) in R.
      destruct (fold_left step (map (fun y => (a, y)) (seq 0 n)) (deps, trees, upd)) as [[d1 t1] u1].
      assert (D1 : deps_in d1).
      { apply G. intros x y H. apply in_map_iff in H. destruct H as (z & Hz & H). inversion Hz; subst. apply in_seq in H.
        split; [apply Hr; left; reflexivity|lia]. }
      assert (G2 := fold_grows (list_prod rows (seq 0 n)) d1 t1 u1 D1).
      specialize (IH d1 t1 u1 (fun x Hx => Hr x (or_intror Hx)) D1).
      destruct (fold_left step (list_prod rows (seq 0 n)) (d1, t1, u1)) as [[d2 t2] u2].
      intros x y [<-|Hx] T; [|apply IH; assumption].
      assert (Hy : y < n) by (apply tr_lt in T; lia).
      apply G2; [|apply R; assumption]. intros p q H. apply in_prod_iff in H. destruct H as [H1 H2]. apply in_seq in H2.
      split; [apply Hr; right; exact H1|lia].
    Qed.

    Record deps_all (deps : list (list nat)) (trees : list nat) : Prop := {
      da_in : deps_in deps;
      da_all : forall a b, tr a b -> In b (nth a deps []);
      da_cover : forall b, b < n -> In b trees \/ exists a, In b (nth a deps []);
      da_trees : forall t, In t trees -> t < n
    }.

    Lemma deps_in_init : deps_in (repeat [] n).
    Proof.
      assert (H : forall a, nth a (repeat (@nil nat) n) [] = []).
      { intros a. destruct (nth_in_or_default a (repeat (@nil nat) n) []) as [H|H]; [|exact H]. apply repeat_spec in H. exact H. }
      constructor.
      - apply repeat_length.
      - intros a b. rewrite H. simpl. tauto.
      - intros a. rewrite H. constructor.
    Qed.

    Lemma dep_loop_all : forall f deps trees deps' trees', deps_all deps trees ->
      dep_loop f ns atl cns deps trees = Ok (deps', trees') -> deps_all deps' trees'.
    Proof.
      induction f as [|f IH]; intros deps trees deps' trees' D; simpl; [discriminate|].
      rewrite dep_pass_step.
      assert (G := fold_grows (list_prod trees trees) deps trees false (da_in _ _ D)).
      destruct (fold_left step (list_prod trees trees) (deps, trees, false)) as [[d1 t1] u1] eqn:Ef.
      assert (D1 : deps_all d1 t1).
      { assert (G' : grows (deps, trees, false) (d1, t1, u1)).
        { apply G. intros a b H. apply in_prod_iff in H. split; apply (da_trees _ _ D); tauto. }
        destruct G' as (G1 & G2 & G3 & G4). constructor; auto.
        - intros a b T. apply G2, (da_all _ _ D), T.
        - intros b Hb. destruct (da_cover _ _ D b Hb) as [H|(a & H)]; [apply G3; exact H|]. right. exists a. apply G2, H.
        - intros t Ht. apply (da_trees _ _ D), G4, Ht. }
      destruct u1; [apply IH; exact D1|]. intros H. inversion H; subst. exact D1.
    Qed.
    Lemma dep_loop_first deps trees : dep_loop (S n) ns atl cns (repeat [] n) (seq 0 n) = Ok (deps, trees) -> deps_all deps trees.
    Proof.
      cbn [dep_loop]. rewrite dep_pass_step.
      assert (Hp : forall a b, In (a, b) (list_prod (seq 0 n) (seq 0 n)) -> a < n /\ b < n).
      { intros a b H. apply in_prod_iff in H. rewrite !in_seq in H. lia. }
      assert (G := fold_grows (list_prod (seq 0 n) (seq 0 n)) (repeat [] n) (seq 0 n) false deps_in_init Hp).
      assert (R := rows_complete (seq 0 n) (repeat [] n) (seq 0 n) false (fun a Ha => proj2 (proj1 (in_seq _ _ _) Ha)) deps_in_init).
      destruct (fold_left step (list_prod (seq 0 n) (seq 0 n)) (repeat [] n, seq 0 n, false)) as [[d1 t1] u1] eqn:Ef.
      assert (D1 : deps_all d1 t1).
      { destruct G as (G1 & G2 & G3 & G4). constructor; auto.
        - intros a b T. apply R; [|exact T]. apply in_seq. apply tr_lt in T. lia.
        - intros b Hb. apply G3. apply in_seq. lia.
        - intros t Ht. apply G4, in_seq in Ht. lia. }
      destruct u1; [apply dep_loop_all; exact D1|]. intros H. inversion H; subst. exact D1.
    Qed.

    (** the lookup table, as ids *)
    Definition done (deps : list (list nat)) (lk : list (string * list nat)) (t : nat) : Prop :=
      forall p, In p (pars cns t) -> exists l, assoc p lk = Some l /\ incl (t :: nth t deps []) l.
    Definition lk_in (deps : list (list nat)) (lk : list (string * list nat)) : Prop :=
      forall p l, assoc p lk = Some l -> sorted_ids l /\
        forall u, In u l -> exists t, t < n /\ In p (pars cns t) /\ (u = t \/ In u (nth t deps [])).
    Definition lk_grows (lk lk' : list (string * list nat)) : Prop :=
      forall p l, assoc p lk = Some l -> exists l', assoc p lk' = Some l' /\ incl l l'.

    Lemma assoc_app_new {A} p q (x : A) lk : assoc p lk = None ->
      assoc q (lk ++ [(p, x)]) = if String.eqb q p then Some x else assoc q lk.
    Proof.
      induction lk as [|[k a] lk IH]; simpl; [reflexivity|]. destruct (String.eqb_spec p k); [discriminate|]. intros H.
      destruct (String.eqb_spec q k) as [->|]; [|apply IH; exact H]. destruct (String.eqb_spec k p); congruence.
    Qed.

    Lemma lookup_add_all deps t lk : deps_in deps -> t < n -> lk_in deps lk ->
      let lk' := lookup_add ns cns deps t lk in lk_in deps lk' /\ lk_grows lk lk' /\ done deps lk' t.
    Proof.
      intros D Ht. cbv zeta. unfold lookup_add, done. fold (pars cns t).
      assert (New : sorted_ids (t :: nth t deps [])).
      { constructor; [apply D|]. apply Forall_forall. intros u Hu. apply (di_tr _ D), tr_lt in Hu. lia. }
      assert (Gen : forall ps lk, incl ps (pars cns t) -> lk_in deps lk ->
        let lk' := fold_left (fun lk p => let new := t :: nth t deps [] in
          match assoc p lk with None => lk ++ [(p, new)] | Some l => assoc_set p (sort_ids ns cns (l ++ new)) lk end) ps lk in
        lk_in deps lk' /\ lk_grows lk lk' /\ forall p, In p ps -> exists l, assoc p lk' = Some l /\ incl (t :: nth t deps []) l);
        [|intros K; apply Gen; [apply incl_refl|exact K]].
      clear lk. cbv zeta. induction ps as [|p ps IH]; intros lk Hp K; cbn [fold_left].
      - split; [exact K|]. split; [|intros p []]. intros p l H. exists l. split; [exact H|apply incl_refl].
      - set (lk1 := match assoc p lk with None => lk ++ [(p, t :: nth t deps [])]
                    | Some l => assoc_set p (sort_ids ns cns (l ++ t :: nth t deps [])) lk end).
        assert (A : forall q, assoc q lk1 = if String.eqb q p then
            Some (match assoc p lk with None => t :: nth t deps [] | Some l => sort_ids ns cns (l ++ t :: nth t deps []) end) else assoc q lk).
        { intros q. unfold lk1. destruct (assoc p lk) as [l|] eqn:Ea.
          - destruct (String.eqb_spec q p) as [->|Hne]; [apply assoc_set_same|apply assoc_set_other; exact Hne].
          - apply assoc_app_new. exact Ea. }
        assert (K1 : lk_in deps lk1).
        { intros q l. rewrite A. destruct (String.eqb_spec q p) as [->|Hne]; [|apply K]. intros H. inversion H; subst l; clear H.
          assert (Nu : forall u, In u (t :: nth t deps []) -> exists t0, t0 < n /\ In p (pars cns t0) /\ (u = t0 \/ In u (nth t0 deps []))).
          { intros u Hu. exists t. split; [exact Ht|]. split; [apply Hp; left; reflexivity|]. destruct Hu as [<-|Hu]; auto. }
          destruct (assoc p lk) as [l0|] eqn:Ea; [|split; [exact New|exact Nu]]. split; [apply sort_ids_sorted|].
          intros u Hu. apply (proj1 (sort_ids_In _ _ _ _)) in Hu. apply in_app_iff in Hu. destruct Hu as [Hu|Hu]; [|apply Nu; exact Hu].
          apply (K p l0 Ea). exact Hu. }
        assert (G1 : lk_grows lk lk1).
        { intros q l H. rewrite A. destruct (String.eqb_spec q p) as [->|Hne]; [|exists l; split; [exact H|apply incl_refl]].
          rewrite H. eexists. split; [reflexivity|]. intros x Hx. apply sort_ids_In, in_app_iff. auto. }
        destruct (IH lk1 (fun q Hq => Hp q (or_intror Hq)) K1) as (I1 & I2 & I3). split; [exact I1|]. split.
        + intros q l H. destruct (G1 q l H) as (l1 & H1 & J1). destruct (I2 q l1 H1) as (l2 & H2 & J2). exists l2. split; [exact H2|].
          intros x Hx. auto.
        + intros q [<-|Hq]; [|apply I3; exact Hq].
          assert (H1 : exists l1, assoc p lk1 = Some l1 /\ incl (t :: nth t deps []) l1).
          { rewrite A, String.eqb_refl. eexists. split; [reflexivity|]. destruct (assoc p lk); [|apply incl_refl].
            intros x Hx. apply sort_ids_In, in_app_iff. auto. }
          destruct H1 as (l1 & H1 & J1). destruct (I2 p l1 H1) as (l2 & H2 & J2). exists l2. split; [exact H2|]. intros x Hx. auto.
    Qed.

    Lemma done_grows deps lk lk' t : lk_grows lk lk' -> done deps lk t -> done deps lk' t.
    Proof.
      intros G H p Hp. destruct (H p Hp) as (l & Hl & I). destruct (G p l Hl) as (l' & Hl' & I'). exists l'. split; [exact Hl'|].
      intros x Hx. auto.
    Qed.
    Lemma grows_lk_trans lk1 lk2 lk3 : lk_grows lk1 lk2 -> lk_grows lk2 lk3 -> lk_grows lk1 lk3.
    Proof.
      intros A B p l H. destruct (A p l H) as (l' & H' & I). destruct (B p l' H') as (l'' & H'' & I'). exists l''. split; [exact H''|].
      intros x Hx. auto.
    Qed.

    Lemma level_all deps : deps_in deps -> forall level lk, (forall t, In t level -> t < n) -> lk_in deps lk ->
      let lk' := fold_left (fun lk t => lookup_add ns cns deps t lk) level lk in
      lk_in deps lk' /\ lk_grows lk lk' /\ forall t, In t level -> done deps lk' t.
    Proof.
      intros D. cbv zeta. induction level as [|t level IH]; intros lk Hl K; cbn [fold_left].
      - split; [exact K|]. split; [|intros t []]. intros p l H. exists l. split; [exact H|apply incl_refl].
      - destruct (lookup_add_all deps t lk D (Hl t (or_introl eq_refl)) K) as (A1 & A2 & A3).
        destruct (IH _ (fun u Hu => Hl u (or_intror Hu)) A1) as (B1 & B2 & B3). split; [exact B1|]. split; [eapply grows_lk_trans; eauto|].
        intros u [<-|Hu]; [eapply done_grows; eauto|auto].
    Qed.

    Lemma levels_all deps : deps_in deps -> forall f level lk lk', (forall t, In t level -> t < n) -> lk_in deps lk ->
      lookup_levels f ns cns deps level lk = Ok lk' ->
      lk_in deps lk' /\ lk_grows lk lk' /\ forall t, In t level -> done deps lk' t /\ forall u, In u (nth t deps []) -> done deps lk' u.
    Proof.
      intros D. induction f as [|f IH]; intros level lk lk' Hl K.
      - destruct level; simpl; [|discriminate]. intros H. inversion H; subst. split; [exact K|]. split; [|intros t []].
        intros p l Hp. exists l. split; [exact Hp|apply incl_refl].
      - destruct level as [|t0 level].
        + simpl. intros H. inversion H; subst. split; [exact K|]. split; [|intros t []].
          intros p l Hp. exists l. split; [exact Hp|apply incl_refl].
        + cbn [lookup_levels]. intros H. destruct (level_all deps D (t0 :: level) lk Hl K) as (A1 & A2 & A3).
          apply IH in H; [|intros u Hu; apply in_concat in Hu; destruct Hu as (y & Hy & Hu); apply in_map_iff in Hy; destruct Hy as (t & <- & Ht);
            apply (di_tr _ D), tr_lt in Hu; lia|exact A1].
          destruct H as (B1 & B2 & B3). split; [exact B1|]. split; [eapply grows_lk_trans; eauto|].
          intros t Ht. split; [eapply done_grows; eauto|]. intros u Hu. apply B3. apply in_concat. exists (nth t deps []).
          split; [apply in_map_iff; eauto|exact Hu].
    Qed.

    Lemma lookup_all lk : change_lookup ns atl cns = Ok lk -> forall p,
      let l := match assoc p lk with Some l => l | None => [] end in
      StronglySorted (fun a b => shallowest ns a <= shallowest ns b) l /\
      (forall t, t < n -> In p (pars cns t) -> In (cn_at cns t) l) /\
      (forall cn t, In cn l -> t < n -> (exists q, In q (pars cns t) /\ In q (map (fun k => nth k atl ""%string) (cn_children cn))) ->
         In (cn_at cns t) l).
    Proof.
      unfold change_lookup. fold n. destruct (dep_loop (S n) ns atl cns (repeat [] n) (seq 0 n)) as [[deps trees]|e] eqn:Ed; [|discriminate].
      apply dep_loop_first in Ed. cbn [bind].
      destruct (lookup_levels (S n) ns cns deps (sort_ids ns cns trees) []) as [lk0|e] eqn:El; [|discriminate].
      apply (levels_all deps (da_in _ _ Ed)) in El; [|intros t Ht; apply (proj1 (sort_ids_In _ _ _ _)), (da_trees _ _ Ed) in Ht; exact Ht|intros p l H; discriminate].
      destruct El as (K & _ & Dn).
      assert (All : forall t, t < n -> done deps lk0 t).
      { assert (C : forall m t, rk t < m -> t < n -> In t trees \/ exists a, In a trees /\ In t (nth a deps [])).
        { induction m as [|m IH]; intros t Hm Ht; [lia|]. destruct (da_cover _ _ Ed t Ht) as [H|(a & H)]; [auto|].
          right. assert (T := di_tr _ (da_in _ _ Ed) a t H). destruct (tr_lt _ _ T) as (Ha & _ & Hlt).
          destruct (IH a ltac:(lia) Ha) as [Ha'|(b & Hb & Hab)]; [exists a; auto|]. exists b. split; [exact Hb|].
          apply (da_all _ _ Ed). eapply t_trans; [apply (di_tr _ (da_in _ _ Ed)); exact Hab|exact T]. }
        intros t Ht. destruct (C (S (rk t)) t (Nat.lt_succ_diag_r _) Ht) as [H|(a & Ha & H)].
        - apply Dn. apply sort_ids_In. exact H.
        - apply (Dn a); [apply sort_ids_In; exact Ha|exact H]. }
      simpl. intros H. inversion H; subst lk. intros p. cbv zeta.
      assert (Hm : assoc p (map (fun e => (fst e, map (cn_at cns) (snd e))) lk0) = option_map (map (cn_at cns)) (assoc p lk0)).
      { clear. induction lk0 as [|[k a] lk0 IH]; simpl; [reflexivity|]. destruct (String.eqb p k); [reflexivity|exact IH]. }
      rewrite Hm. split; [|split].
      - destruct (assoc p lk0) as [l|] eqn:Ea; simpl; [|constructor]. destruct (K p l Ea) as [S _]. clear -S.
        induction S as [|x l' S IH F]; simpl; [constructor|]. constructor.
        + exact IH.
        + apply Forall_forall. intros y Hy. apply in_map_iff in Hy. destruct Hy as (z & <- & Hz). rewrite Forall_forall in F. apply (F z Hz).
      - intros t Ht Hp. destruct (All t Ht p Hp) as (l & Hl & I). rewrite Hl. simpl. apply in_map. apply I. left. reflexivity.
      - intros cn t Hcn Ht (q & Hq & Hqc). destruct (assoc p lk0) as [l|] eqn:Ea; simpl in *; [|destruct Hcn].
        apply in_map_iff in Hcn. destruct Hcn as (u & <- & Hu). destruct (K p l Ea) as [_ S]. destruct (S u Hu) as (t0 & Ht0 & Hp0 & Hu0).
        assert (Hun : u < n). { destruct Hu0 as [->|Hu0]; [exact Ht0|]. apply (di_tr _ (da_in _ _ Ed)), tr_lt in Hu0. lia. }
        assert (Hh : hand u t) by (split; [exact Hun|]; split; [exact Ht|]; exists q; auto).
        apply in_map. destruct (All t0 Ht0 p Hp0) as (l1 & Hl1 & I). rewrite Ea in Hl1. inversion Hl1; subst l1. apply I. right.
        apply (da_all _ _ Ed). destruct Hu0 as [->|Hu0]; [apply t_step; exact Hh|]. eapply t_trans; [apply (di_tr _ (da_in _ _ Ed)); exact Hu0|apply t_step; exact Hh].
    Qed.
  End Lookup.
End Order.
