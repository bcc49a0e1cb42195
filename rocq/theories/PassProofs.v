(** * Passes over the condition nodes

    change_hp_value and sampling run over a list of condition nodes and set or clear the
    hyperparameters they handle.  If no node handles a parent of an earlier node, the conditions
    have the same value in the result as when they were evaluated. *)
From Coq Require Import String List ZArith QArith Bool Lia Permutation Relations Sorting.Sorted.
From Verif Require Import Base ListFacts Numeric HP HPProofs Cond Forb EqFacts Dag DagCycle DagProofs Space
  CommitProofs Spec SpaceProofs CnodeProofs EvalProofs MergeProofs ChangeProofs OrderProofs.
Import ListNotations.
Open Scope nat_scope.

Section Pass.
  Context {E : Env} {L : EnvLaws E}.

  Lemma sat_vec_ext io v v' c : (forall p, In p (cond_parents c) -> vget io v p = vget io v' p) -> sat_vec io v c = sat_vec io v' c.
  Proof.
    induction c as [l|cs IH|cs IH] using cond_ind'; intros H; simpl.
    - unfold lit_vec. rewrite (H (parent_name l)) by (left; reflexivity). reflexivity.
    - apply forallb_ext_in. intros x Hx. rewrite Forall_forall in IH. apply IH; [exact Hx|]. intros p Hp. apply H.
      unfold cond_parents in *. apply in_map_iff in Hp. destruct Hp as (l & <- & Hl). apply in_map. eapply dlcs_in_and; eauto.
    - apply existsb_ext_in. intros x Hx. rewrite Forall_forall in IH. apply IH; [exact Hx|]. intros p Hp. apply H.
      unfold cond_parents in *. apply in_map_iff in Hp. destruct Hp as (l & <- & Hl). apply in_map. eapply dlcs_in_and; eauto.
  Qed.

  Lemma NoDup_app_inv {A} (l m : list A) : NoDup (l ++ m) -> NoDup l /\ NoDup m /\ forall x, In x l -> ~ In x m.
  Proof.
    induction l as [|x l IH]; simpl; intros H.
    - split; [constructor|]. split; [exact H|]. intros x [].
    - inversion H; subst. destruct (IH H3) as (A1 & A2 & A3). rewrite in_app_iff in H2. split; [constructor; tauto|].
      split; [exact A2|]. intros y [<-|Hy]; [tauto|auto].
  Qed.

  Section One.
    Context {s : space} {hs : list hp} {cs : list cond} {fs : list fclause} (O : space_ok s hs cs fs).
    Notation ns := (d_nodes (s_dag s)).
    Notation io := (index_of s).
    Notation cns := (d_min (s_dag s)).

    (** the node handles the hyperparameter named [m] *)
    Definition handles (cn : cnode) (m : string) : Prop := exists j, In j (cn_children cn) /\ nth_error (keys s) j = Some m.

    (** no node handles a parent of itself or of an earlier node *)
    Fixpoint quiet (l : list cnode) : Prop :=
      match l with
      | [] => True
      | cn :: l' => (forall cn' p, In cn' (cn :: l') -> In p (cond_parents (cn_cond cn)) -> ~ handles cn' p) /\ quiet l'
      end.

    Lemma handles_vget cn m a a' : In cn cns -> length a = s_len s -> length a' = s_len s ->
      (forall j, ~ In j (cn_children cn) -> nth j a' NaN = nth j a NaN) ->
      ~ handles cn m -> vget io a' m = vget io a m.
    Proof.
      intros Hcn La La' H Hm. unfold vget. destruct (assoc m io) as [j|] eqn:Ej; [|reflexivity].
      apply H. intros Hj. apply Hm. exists j. split; [exact Hj|]. apply (so_index O). exact Ej.
    Qed.

    Lemma handles_one cn cn' j : In cn cns -> In cn' cns -> In j (cn_children cn) -> In j (cn_children cn') -> cn = cn'.
    Proof.
      assert (N := so_handled_nodup O). unfold handled in N. revert N. generalize cns. induction l as [|x l IH]; [simpl; tauto|].
      intros N Hx Hy Hj Hj'. simpl in N. apply NoDup_app_inv in N. destruct N as (_ & N2 & N3).
      assert (K : forall y, In y l -> In j (cn_children y) -> In j (concat (map cn_children l))).
      { intros y Hy1 Hy2. apply in_concat. exists (cn_children y). split; [apply in_map; exact Hy1|exact Hy2]. }
      destruct Hx as [<-|Hx], Hy as [<-|Hy]; auto.
      - exfalso. apply (N3 j Hj). eapply K; eauto.
      - exfalso. apply (N3 j Hj'). eapply K; eauto.
    Qed.

    Section Step.
      Variable step : list fval -> cnode -> list fval.
      Variable g : nat -> fval -> fval.
      Hypothesis g_idem : forall j x, g j (g j x) = g j x.
      Hypothesis step_len : forall a cn, In cn cns -> length a = s_len s -> length (step a cn) = s_len s.
      Hypothesis step_nth : forall a cn j, In cn cns -> length a = s_len s -> nth j (step a cn) NaN =
        if existsb (Nat.eqb j) (cn_children cn) then if sat_vec io a (cn_cond cn) then g j (nth j a NaN) else NaN else nth j a NaN.

      Lemma pass_other l : forall a, (forall cn, In cn l -> In cn cns) -> length a = s_len s ->
        length (fold_left step l a) = s_len s /\
        (forall j, (forall cn, In cn l -> ~ In j (cn_children cn)) -> nth j (fold_left step l a) NaN = nth j a NaN) /\
        (forall m, (forall cn, In cn l -> ~ handles cn m) -> vget io (fold_left step l a) m = vget io a m).
      Proof.
        induction l as [|cn l IH]; intros a Hl La; cbn [fold_left]; [auto|].
        assert (Hcn := Hl cn (or_introl eq_refl)).
        assert (K : forall j, ~ In j (cn_children cn) -> nth j (step a cn) NaN = nth j a NaN).
        { intros j Hj. rewrite step_nth by auto. destruct (existsb (Nat.eqb j) (cn_children cn)) eqn:Ej; [|reflexivity].
          apply existsb_eqb_in in Ej. contradiction. }
        destruct (IH (step a cn)) as (I1 & I2 & I3).
        - intros c Hc. apply Hl. right. exact Hc.
        - apply step_len; auto.
        - split; [exact I1|]. split.
          + intros j Hj. rewrite I2 by (intros c Hc; apply Hj; right; exact Hc). apply K. apply Hj. left. reflexivity.
          + intros m Hm. rewrite I3 by (intros c Hc; apply Hm; right; exact Hc).
            apply (handles_vget cn); auto. apply Hm. left. reflexivity.
      Qed.

      Lemma pass_spec l : forall a, (forall cn, In cn l -> In cn cns) -> length a = s_len s -> quiet l ->
        forall cn j, In cn l -> In j (cn_children cn) ->
        nth j (fold_left step l a) NaN =
          if sat_vec io (fold_left step l a) (cn_cond cn) then g j (nth j a NaN) else NaN.
      Proof.
        induction l as [|c0 l IH]; intros a Hl La Q cn j Hcn Hj; [destruct Hcn|].
        assert (Hc0 := Hl c0 (or_introl eq_refl)). destruct Q as [Q0 Q].
        assert (Hl' : forall c, In c l -> In c cns) by (intros c Hc; apply Hl; right; exact Hc).
        assert (S0 : sat_vec io (fold_left step (c0 :: l) a) (cn_cond c0) = sat_vec io a (cn_cond c0)).
        { apply sat_vec_ext. intros p Hp. apply (proj2 (proj2 (pass_other (c0 :: l) a Hl La))).
          intros c Hc. apply Q0; assumption. }
        cbn [fold_left] in *. set (a1 := step a c0) in *.
        assert (L1 : length a1 = s_len s) by (apply step_len; auto).
        destruct (in_dec Nat.eq_dec j (concat (map cn_children l))) as [Hin|Hout].
        - apply in_concat in Hin. destruct Hin as (y & Hy & Hjy). apply in_map_iff in Hy. destruct Hy as (c1 & <- & Hc1).
          assert (cn = c1) by (apply (handles_one cn c1 j); auto). subst c1.
          rewrite (IH a1 Hl' L1 Q cn j Hc1 Hj).
          unfold a1 at 2. rewrite step_nth by auto. destruct (existsb (Nat.eqb j) (cn_children c0)) eqn:Ej; [|reflexivity].
          apply existsb_eqb_in in Ej. assert (cn = c0) by (apply (handles_one cn c0 j); auto). subst c0.
          rewrite S0. destruct (sat_vec io a (cn_cond cn)); [apply g_idem|reflexivity].
        - assert (cn = c0).
          { destruct Hcn as [->|Hcn]; [reflexivity|]. exfalso. apply Hout. apply in_concat. exists (cn_children cn).
            split; [apply in_map; exact Hcn|exact Hj]. }
          subst c0. rewrite S0.
          rewrite (proj1 (proj2 (pass_other l a1 Hl' L1))).
          + unfold a1. rewrite step_nth by auto. replace (existsb (Nat.eqb j) (cn_children cn)) with true; [reflexivity|].
            symmetry. apply existsb_eqb_in. exact Hj.
          + intros c Hc Hjc. apply Hout. apply in_concat. exists (cn_children c). split; [apply in_map; exact Hc|exact Hjc].
      Qed.
    End Step.

    (** ** When the order by shallowest parent is an order of evaluation *)
    Section Orderly.
      Hypothesis Or : orderly cs.

      Lemma reads_condof p m c : reads cs p m -> condof ns m = Some c -> In p (cond_parents c).
      Proof.
        intros Hr Hc. apply (so_edge O) in Hr. apply edge_clook in Hr. destruct Hr as (y & Hy).
        rewrite (co_link _ (g_core _ (so_graph O))) in Hy. apply (g_parents _ (so_graph O) _ _ Hc). eauto.
      Qed.

      Lemma cnode_in_cs cn : In cn cns -> In (cn_cond cn) cs.
      Proof.
        intros H. destruct (so_cnode_cond O cn H) as (i & m & rest & _ & _ & Hc). apply (so_condof_in O m _ Hc).
      Qed.

      (** handled hyperparameters read exactly the parents of the node *)
      Lemma handles_reads cn m : In cn cns -> handles cn m -> forall p, In p (cond_parents (cn_cond cn)) <-> reads cs p m.
      Proof.
        intros Hcn (j & Hj & Hm) p. destruct (so_cnode O cn j Hcn Hj) as (m' & c & Hm' & Hc & Hq).
        assert (m' = m) by congruence. subst m'. destruct (so_condof_in O m c Hc) as [Ic Ac]. split.
        - intros Hp. exists c. split; [exact Ic|]. split; [exact Ac|]. eapply cond_equiv_parents; eauto.
        - intros Hr. apply (or_same _ Or (cn_cond cn) c p); auto using cnode_in_cs. eapply reads_condof; eauto.
      Qed.

      Lemma strict cn cn' m : In cn cns -> In cn' cns -> handles cn' m -> In m (cond_parents (cn_cond cn)) ->
        shallowest ns cn' < shallowest ns cn.
      Proof.
        intros Hcn Hcn' Hm Hp. destruct Hm as (j & Hj & Hm). destruct (so_cnode O cn' j Hcn' Hj) as (m' & c & Hm' & Hc & Hq).
        assert (m' = m) by congruence. subst m'. destruct (so_condof_in O m c Hc) as [Ic Ac].
        destruct (or_graded _ Or (cn_cond cn) c m (cnode_in_cs cn Hcn) Ic Hp Ac) as (q & i & Hq1 & Hq2 & Hq3).
        assert (Hqk : In q (keys s)). { apply (so_reads_keys O q m). exists c. auto. }
        assert (Kq : depth_of ns q = i) by (eapply (longest_unique (cs := cs)); [apply (so_longest O); exact Hqk|exact Hq2]).
        assert (A1 : shallowest ns cn' <= i).
        { rewrite <- Kq. unfold shallowest. apply (list_min_le cns). apply in_map. apply (or_same _ Or (cn_cond cn') c q); auto using cnode_in_cs. }
        assert (A2 : exists q', In q' (cond_parents (cn_cond cn)) /\ shallowest ns cn = depth_of ns q').
        { unfold shallowest. assert (H : In (list_min (map (depth_of ns) (cond_parents (cn_cond cn)))) (map (depth_of ns) (cond_parents (cn_cond cn)))).
          - apply list_min_in. intros Z. apply map_eq_nil in Z. rewrite Z in Hp. destruct Hp.
          - apply in_map_iff in H. destruct H as (q' & Hq' & Hin). exists q'. auto. }
        destruct A2 as (q' & Hq' & ->). assert (Hk' : In q' (keys s)).
        { destruct (so_cnode_cond O cn Hcn) as (i0 & m0 & rest & _ & _ & Hc0). destruct (so_condof_in O m0 _ Hc0) as [I0 A0].
          apply (so_reads_keys O q' m0). exists (cn_cond cn). auto. }
        specialize (Hq3 q' (depth_of ns q') Hq' (so_longest O q' Hk')). lia.
      Qed.

      Lemma min_sorted : StronglySorted (fun a b => shallowest ns a <= shallowest ns b) cns.
      Proof.
        destruct (cm_min _ (so_com _ _ _ _ O)) as (mc & _ & ->). unfold sort_cnodes.
        assert (H : StronglySorted (fun x y => (fun a b => Nat.ltb (shallowest ns a) (shallowest ns b)) y x = false)
          (py_sorted (fun a b => Nat.ltb (shallowest ns a) (shallowest ns b)) mc)).
        { apply py_sorted_sorted.
          - intros x y Hx. apply Nat.ltb_lt in Hx. apply Nat.ltb_ge. lia.
          - intros x y z Hx Hy. apply Nat.ltb_ge in Hx, Hy. apply Nat.ltb_ge. lia. }
        clear -H. induction H as [|x l' H IH F]; constructor; auto. rewrite Forall_forall in F |- *. intros y Hy.
        specialize (F y Hy). apply Nat.ltb_ge in F. exact F.
      Qed.

      Lemma sorted_quiet l : (forall cn, In cn l -> In cn cns) ->
        StronglySorted (fun a b => shallowest ns a <= shallowest ns b) l -> quiet l.
      Proof.
        intros Hl S. induction S as [|cn l S IH F]; [exact I|]. split.
        - intros cn' p Hcn' Hp Hh. assert (K := strict cn cn' p (Hl cn (or_introl eq_refl)) (Hl cn' Hcn') Hh Hp).
          destruct Hcn' as [<-|Hcn']; [lia|]. rewrite Forall_forall in F. specialize (F cn' Hcn'). lia.
        - apply IH. intros c Hc. apply Hl. right. exact Hc.
      Qed.

      Lemma min_quiet : quiet cns.
      Proof. apply sorted_quiet; [auto|apply min_sorted]. Qed.

      Definition look (k : string) : list cnode := match assoc k (d_lookup (s_dag s)) with Some l => l | None => [] end.

      Lemma look_in k cn : In cn (look k) -> In cn cns.
      Proof. unfold look. destruct (assoc k (d_lookup (s_dag s))) as [l|] eqn:El; [|intros []]. intros H. apply (so_lookup O k l cn El H). Qed.

      Lemma cn_index cn : In cn cns -> exists t, t < length cns /\ cn_at cns t = cn.
      Proof. intros H. apply (In_nth _ _ (mk_cnode (CAnd []) [])) in H. destruct H as (t & Ht & K). exists t. auto. Qed.

      Lemma chil_handles t m : t < length cns -> In m (chil ns cns t) -> handles (cn_at cns t) m.
      Proof.
        intros Ht H. unfold chil in H. apply in_map_iff in H. destruct H as (j & <- & Hj). exists j. split; [exact Hj|].
        assert (Hcn : In (cn_at cns t) cns) by (apply nth_In; exact Ht).
        destruct (so_cnode O _ j Hcn Hj) as (m & c & Hm & _). rewrite Hm. f_equal. symmetry. apply nth_error_nth. exact Hm.
      Qed.
      Lemma handles_chil t m : handles (cn_at cns t) m -> In m (chil ns cns t).
      Proof.
        intros (j & Hj & Hm). unfold chil. apply in_map_iff. exists j. split; [|exact Hj]. apply nth_error_nth. exact Hm.
      Qed.

      Lemma look_all k : StronglySorted (fun a b => shallowest ns a <= shallowest ns b) (look k) /\
        (forall cn, In cn cns -> In k (cond_parents (cn_cond cn)) -> In cn (look k)) /\
        (forall cn cn' q, In cn (look k) -> In cn' cns -> handles cn q -> In q (cond_parents (cn_cond cn')) -> In cn' (look k)).
      Proof.
        assert (K := cm_lookup _ (so_com _ _ _ _ O)). rewrite (cm_at _ (so_com _ _ _ _ O)) in K.
        assert (Srt : forall a b, a < b -> b < length cns -> rk ns cns a <= rk ns cns b).
        { intros a b Hab Hb. unfold rk. assert (S := min_sorted).
          apply (strongly_nth _ cns a b (cn_at cns a) (cn_at cns b) S Hab); apply nth_error_nth'; lia. }
        assert (Str : forall a b, hand ns cns a b -> rk ns cns a < rk ns cns b).
        { intros a b (Ha & Hb & p & Hp & Hc). unfold rk. apply (strict (cn_at cns b) (cn_at cns a) p); try (apply nth_In; assumption).
          - apply chil_handles; assumption.
          - exact Hp. }
        destruct (lookup_all ns cns Srt Str _ K k) as (A1 & A2 & A3). fold (look k) in A1, A2, A3. split; [exact A1|]. split.
        - intros cn Hcn Hk. destruct (cn_index cn Hcn) as (t & Ht & <-). apply A2; assumption.
        - intros cn cn' q Hcn Hcn' Hq Hp. destruct (cn_index cn' Hcn') as (t & Ht & <-). apply (A3 cn t Hcn Ht).
          exists q. split; [exact Hp|]. destruct Hq as (j & Hj & Hm). apply in_map_iff. exists j. split; [|exact Hj].
          apply nth_error_nth. exact Hm.
      Qed.

      Lemma look_quiet k : quiet (look k).
      Proof. apply sorted_quiet; [apply look_in|apply look_all]. Qed.

      (** every conditional hyperparameter has a node *)
      Lemma handler p m : reads cs p m -> exists cn, In cn cns /\ handles cn m.
      Proof.
        intros (c & Hc & Ha & _). destruct (proj1 (so_conditional O m)) as (c' & Hc'); [exists c; auto|].
        assert (Hk := so_condof_key m c' Hc'). destruct (so_index_ex O m Hk) as (j & Hj). apply (so_index O) in Hj.
        assert (H : In j (handled cns)) by (apply (so_handled O); eauto).
        unfold handled in H. apply in_concat in H. destruct H as (l & Hl & Hin). apply in_map_iff in Hl.
        destruct Hl as (cn & <- & Hcn). exists cn. split; [exact Hcn|]. exists j. auto.
      Qed.

      (** the list of [k] handles exactly the hyperparameters that depend on [k] *)
      Lemma look_dep k m : clos_trans _ (reads cs) k m -> exists cn, In cn (look k) /\ handles cn m.
      Proof.
        intros H. apply clos_trans_tn1 in H. destruct (look_all k) as (_ & A2 & A3).
        induction H as [m H|m m' H H1 IH].
        - destruct (handler k m H) as (cn & Hcn & Hm). exists cn. split; [|exact Hm]. apply A2; [exact Hcn|].
          apply (handles_reads cn m Hcn Hm). exact H.
        - destruct IH as (cn & Hcn & Hh). destruct (handler m m' H) as (cn' & Hcn' & Hm'). exists cn'. split; [|exact Hm'].
          apply (A3 cn cn' m Hcn Hcn' Hh). apply (handles_reads cn' m' Hcn' Hm'). exact H.
      Qed.
      Lemma look_only k cn m : In cn (look k) -> handles cn m -> clos_trans _ (reads cs) k m.
      Proof.
        unfold look. destruct (assoc k (d_lookup (s_dag s))) as [l|] eqn:El; [|intros []].
        intros Hcn (j & Hj & Hm). destruct (so_lookup O k l cn El Hcn) as [_ H]. destruct (H j Hj) as (m' & Hm' & Hd). congruence.
      Qed.

      (** ** change_hp_value *)
      Definition fill_default (j : nat) (x : fval) : fval := if isnan x then nth j (d_defaults (s_dag s)) NaN else x.

      Lemma change_spec v k x i0 : (forall c, In c cs -> cond_refs hs c) -> merge_sound io cs ->
        length v = s_len s -> nth_error (keys s) i0 = Some k ->
        let a := change_hp_value s v k x i0 in
        length a = s_len s /\ vget io a k = x /\
        (forall h, In h hs -> hp_name h <> k -> ~ clos_trans _ (reads cs) k (hp_name h) -> vget io a (hp_name h) = vget io v (hp_name h)) /\
        (forall h c, In h hs -> clos_trans _ (reads cs) k (hp_name h) -> In c cs -> activates c (hp_name h) ->
           vget io a (hp_name h) = if sat_vec io a c
             then if isnan (vget io v (hp_name h)) then default_entry h else vget io v (hp_name h) else NaN) /\
        (forall m c, ~ clos_trans _ (reads cs) k m -> In c cs -> activates c m -> sat_vec io a c = sat_vec io v c).
      Proof.
        intros R M Lv Hi. cbv zeta.
        assert (Hi0 : i0 < s_len s) by (rewrite <- (so_keys_len O); apply nth_error_Some; congruence).
        assert (Hik := proj2 (so_index O k i0) Hi).
        destruct (change_entries O v k x i0 Lv Hi0) as [La _]. destruct (change_local O v k x i0 Lv Hi) as [Ck Co].
        set (a := change_hp_value s v k x i0) in *.
        assert (Vk : vget io a k = x) by (unfold vget; rewrite Hik; exact Ck).
        assert (Non : forall m, m <> k -> ~ clos_trans _ (reads cs) k m -> vget io a m = vget io v m).
        { intros m Hne Hn. unfold vget. destruct (assoc m io) as [j|] eqn:Ej; [|reflexivity].
          apply (Co j m); auto. apply (so_index O). exact Ej. }
        split; [exact La|]. split; [exact Vk|]. split; [|split].
        - intros h Hh Hne Hn. apply Non; assumption.
        - intros h c Hh Hd Hc Ha. destruct (look_dep k _ Hd) as (cn & Hcn & j & Hj & Hm).
          assert (Hcns := look_in k cn Hcn).
          assert (P := pass_spec (change_cnode s) fill_default).
          assert (Pj : nth j (fold_left (change_cnode s) (look k) (set_nth i0 x v)) NaN =
             if sat_vec io (fold_left (change_cnode s) (look k) (set_nth i0 x v)) (cn_cond cn)
             then fill_default j (nth j (set_nth i0 x v) NaN) else NaN).
          { apply P; clear P.
            - intros j' y. unfold fill_default. destruct (isnan y) eqn:Ey; [|rewrite Ey; reflexivity].
              destruct (isnan (nth j' (d_defaults (s_dag s)) NaN)); reflexivity.
            - intros b cn' Hcn' Lb. destruct (change_cnode_spec (s := s) b cn') as [S1 _]; [|congruence].
              intros i Hin. rewrite Lb. destruct (so_cnode_lt O cn' i Hcn' Hin) as (_ & _ & K). exact K.
            - intros b cn' j' Hcn' Lb. destruct (change_cnode_spec (s := s) b cn') as [_ S2].
              + intros i Hin. rewrite Lb. destruct (so_cnode_lt O cn' i Hcn' Hin) as (_ & _ & K). exact K.
              + apply S2.
            - apply look_in.
            - rewrite set_nth_length. exact Lv.
            - apply look_quiet.
            - exact Hcn.
            - exact Hj. }
          assert (Ea : fold_left (change_cnode s) (look k) (set_nth i0 x v) = a) by reflexivity.
          rewrite Ea in Pj. clear P Ea.
          destruct (so_cnode_sat s hs cs fs O R cn j M Hcns Hj) as (n' & Hn' & _ & Hsat).
          assert (n' = hp_name h) by congruence. subst n'. rewrite (Hsat c Hc Ha a) in Pj.
          assert (Hji : j <> i0). { intros ->. assert (Hk : hp_name h = k) by congruence. rewrite Hk in Hd. apply (so_no_cycle O k Hd). }
          rewrite nth_set_nth_ne in Pj by exact Hji.
          assert (Ij : assoc (hp_name h) io = Some j) by (apply (so_index O); exact Hm).
          unfold vget. rewrite Ij. rewrite Pj. unfold fill_default. destruct (sat_vec io a c); [|reflexivity].
          destruct (isnan (nth j v NaN)); [|reflexivity]. apply (so_default_at O).
          rewrite (so_hp_at_name O j _ Hm). apply (so_get_hp O). auto.
        - intros m c Hn Hc Ha. apply sat_vec_ext. intros p Hp. assert (Hr : reads cs p m) by (exists c; auto).
          apply Non.
          + intros ->. apply Hn. apply t_step. exact Hr.
          + intros Hd. apply Hn. eapply t_trans; [exact Hd|apply t_step; exact Hr].
      Qed.
    End Orderly.
  End One.
End Pass.
