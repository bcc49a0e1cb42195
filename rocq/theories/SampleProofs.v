(** * Lemmas about sampling: a round of the loop, column by column *)
From Coq Require Import String List ZArith QArith Bool Lia Permutation Relations.
From Verif Require Import Base ListFacts Numeric HP HPProofs Cond Forb EqFacts Dag DagProofs
  Space CommitProofs Spec SpaceProofs CnodeProofs ForbProofs EvalProofs ForbEval MergeProofs ValidProofs ConfigProofs ChangeProofs PassProofs.
Import ListNotations.
Open Scope nat_scope.

Section Sample.
  Context {E : Env} {L : EnvLaws E}.

  (** ** Matrices *)
  Definition kept (mask : list bool) : list nat := filter (fun j => nth j mask false) (seq 0 (length mask)).

  Lemma filter_map {A B} (f : A -> B) (p : B -> bool) l : filter p (map f l) = map f (filter (fun x => p (f x)) l).
  Proof. induction l as [|x l IH]; simpl; [reflexivity|]. destruct (p (f x)); simpl; rewrite IH; reflexivity. Qed.

  Lemma kept_cons b mask : kept (b :: mask) = (if b then [0] else []) ++ map S (kept mask).
  Proof.
    unfold kept. cbn [length seq filter nth]. rewrite <- seq_shift, filter_map. destruct b; reflexivity.
  Qed.
  Lemma select_kept {A} (d : A) mask : forall row, length row = length mask -> select mask row = map (fun j => nth j row d) (kept mask).
  Proof.
    induction mask as [|b mask IH]; intros [|x row] H; try discriminate; [reflexivity|]. inversion H as [H'].
    rewrite kept_cons, map_app, map_map. cbn [nth]. rewrite <- IH by exact H'. unfold select. simpl. destruct b; reflexivity.
  Qed.
  Lemma kept_length mask : length (filter (fun b => b) mask) = length (kept mask).
  Proof.
    induction mask as [|b mask IH]; [reflexivity|]. rewrite kept_cons, app_length, map_length, <- IH. destruct b; reflexivity.
  Qed.
  Lemma filter_negb_kept l : length (filter negb l) = length (kept (map negb l)).
  Proof.
    rewrite <- kept_length. induction l as [|b l IH]; simpl; [reflexivity|]. destruct b; simpl; [exact IH|f_equal; exact IH].
  Qed.
  Lemma nth_kept_lt mask t : t < length (kept mask) -> nth t (kept mask) 0 < length mask.
  Proof. intros H. assert (K := nth_In _ 0 H). unfold kept in K at 2. apply filter_In in K. destruct K as [K _]. apply in_seq in K. lia. Qed.

  Lemma select_rect mask n arr : rect n arr -> length mask = n -> rect (length (kept mask)) (map (select mask) arr).
  Proof.
    intros R Hm row H. apply in_map_iff in H. destruct H as (r & <- & Hr).
    rewrite (select_kept NaN) by (rewrite (R r Hr); congruence). apply map_length.
  Qed.
  Lemma select_column mask n arr t : rect n arr -> length mask = n -> t < length (kept mask) ->
    column (map (select mask) arr) t = column arr (nth t (kept mask) 0).
  Proof.
    intros R Hm Ht. unfold column. rewrite map_map. apply map_ext_in. intros r Hr.
    rewrite (select_kept NaN) by (rewrite (R r Hr); congruence).
    rewrite (nth_indep _ NaN ((fun j => nth j r NaN) 0)) by (rewrite map_length; exact Ht).
    apply (map_nth (fun j => nth j r NaN)).
  Qed.
  Lemma map_nth_seq {A} (l : list A) d : map (fun t => nth t l d) (seq 0 (length l)) = l.
  Proof.
    induction l as [|x l IH]; [reflexivity|]. cbn [length seq map nth]. f_equal. rewrite <- seq_shift, map_map. exact IH.
  Qed.
  Lemma select_columns mask n arr : rect n arr -> length mask = n ->
    map (column (map (select mask) arr)) (seq 0 (length (kept mask))) = map (column arr) (kept mask).
  Proof.
    intros R Hm. transitivity (map (column arr) (map (fun t => nth t (kept mask) 0) (seq 0 (length (kept mask))))); [|rewrite map_nth_seq; reflexivity].
    rewrite map_map. apply map_ext_in.
    intros t Ht. apply in_seq in Ht. apply (select_column mask n); auto. lia.
  Qed.
  Lemma column_length arr j : length (column arr j) = length arr.
  Proof. apply map_length. Qed.

  Lemma set_nth_comm_column i row arr j : column (set_nth i row arr) j = set_nth i (nth j row NaN) (column arr j).
  Proof.
    unfold column. revert i. induction arr as [|r arr IH]; intros [|i]; simpl; try reflexivity. f_equal. apply IH.
  Qed.
  Lemma set_nth_same {A} i (l : list A) d : set_nth i (nth i l d) l = l.
  Proof. revert i. induction l as [|x l IH]; intros [|i]; simpl; try reflexivity. f_equal. apply IH. Qed.
  Lemma set_nth_rect i n row arr : rect n arr -> length row = n -> rect n (set_nth i row arr).
  Proof.
    intros R Hr x. revert i R. induction arr as [|r arr IH]; intros [|i] R; simpl; intros H; try contradiction.
    - destruct H as [<-|H]; [exact Hr|]. apply R. right. exact H.
    - destruct H as [<-|H]; [apply R; left; reflexivity|]. apply (IH i); [|exact H]. intros y Hy. apply R. right. exact Hy.
  Qed.

  Lemma nan_rows_spec rows mask n : length mask = n -> forall arr, rect n arr -> (forall i, In i rows -> i < length arr) ->
    rect n (nan_rows rows mask arr) /\ length (nan_rows rows mask arr) = length arr /\
    forall j, j < n -> column (nan_rows rows mask arr) j =
      if nth j mask false then fold_left (fun a i => set_nth i NaN a) rows (column arr j) else column arr j.
  Proof.
    intros Hm. unfold nan_rows. induction rows as [|i rows IH]; intros arr R Hr; cbn [fold_left].
    - split; [exact R|]. split; [reflexivity|]. intros j _. destruct (nth j mask false); reflexivity.
    - set (row := map _ (combine mask (nth i arr []))).
      assert (Ri : length (nth i arr []) = n) by (apply R, nth_In, Hr; left; reflexivity).
      assert (Lr : length row = n) by (unfold row; rewrite map_length, combine_length; lia).
      destruct (IH (set_nth i row arr)) as (I1 & I2 & I3).
      + apply set_nth_rect; assumption.
      + intros k Hk. rewrite set_nth_length. apply Hr. right. exact Hk.
      + split; [exact I1|]. split; [rewrite I2; apply set_nth_length|]. intros j Hj. rewrite I3 by exact Hj.
        rewrite set_nth_comm_column.
        assert (Nr : nth j row NaN = if nth j mask false then NaN else nth i (column arr j) NaN).
        { unfold row. rewrite (nth_indep _ NaN ((fun bx : bool * fval => if fst bx then NaN else snd bx) (false, NaN)))
            by (rewrite map_length, combine_length; lia).
          rewrite (map_nth (fun bx : bool * fval => if fst bx then NaN else snd bx)), combine_nth by lia. simpl.
          rewrite column_nth. reflexivity. }
        rewrite Nr. destruct (nth j mask false); [reflexivity|]. apply set_nth_same.
  Qed.

  Section One.
    Context {s : space} {hs : list hp} {cs : list cond} {fs : list fclause} (O : space_ok s hs cs fs).
    Notation io := (index_of s).
    Notation ns := (d_nodes (s_dag s)).
    Notation cns := (d_min (s_dag s)).

    Definition okf (l : list fclause) (v : list fval) : bool :=
      forallb (fun f => match forb_vec io v f with Ok false => true | _ => false end) l.

    Lemma okf_iff l v : okf l v = true <-> forall f, In f l -> forb_vec io v f = Ok false.
    Proof.
      unfold okf. rewrite forallb_forall. split; intros H f Hf; specialize (H f Hf).
      - destruct (forb_vec io v f) as [[]|]; congruence.
      - rewrite H. reflexivity.
    Qed.

    Lemma forb_mask_spec n arr l m : rect n arr -> length arr = s_len s ->
      (forall f p, In f l -> In p (forb_names f) -> In p (keys s)) -> forb_mask io n arr l = Ok m ->
      length m = n /\ forall j, j < n -> negb (nth j m false) = okf l (column arr j).
    Proof.
      intros R La Hn. unfold forb_mask.
      assert (G : forall l acc f0 m, (forall f p, In f l -> In p (forb_names f) -> In p (keys s)) ->
        length acc = n -> (forall j, j < n -> nth j acc false = negb (f0 j)) ->
        foldM (fun acc f => m <- forb_arr io n arr f ;; Ok (zip_with orb acc m)) l acc = Ok m ->
        length m = n /\ forall j, j < n -> negb (nth j m false) = (f0 j && okf l (column arr j))%bool).
      { clear l m Hn. induction l as [|f l IH]; intros acc f0 m Hn Hl Ha; simpl.
        - intros H. inversion H; subst. split; [reflexivity|]. intros j Hj. rewrite Ha, negb_involutive, andb_true_r by exact Hj. reflexivity.
        - destruct (forb_arr io n arr f) as [mf|] eqn:Ef; cbn [bind]; [|discriminate]. intros H.
          destruct (forb_arr_spec io n arr f R) with (m := mf) as [F1 F2]; [|exact Ef|].
          { intros p Hp. destruct (so_index_ex O p) as (i & Hi); [apply (Hn f); [left; reflexivity|exact Hp]|].
            exists i. split; [exact Hi|]. rewrite La. apply (so_index_lt O p i Hi). }
          destruct (IH (zip_with orb acc mf) (fun j => f0 j && match forb_vec io (column arr j) f with Ok false => true | _ => false end)%bool m) as [I1 I2].
          + intros g p Hg. apply Hn. right. exact Hg.
          + rewrite zip_with_length, Hl, F1. lia.
          + intros j Hj. rewrite (zip_with_nth orb false false) by lia. rewrite Ha by exact Hj. rewrite (F2 j Hj).
            destruct (f0 j), (nth j mf false); reflexivity.
          + exact H.
          + split; [exact I1|]. intros j Hj. rewrite (I2 j Hj), andb_assoc. reflexivity. }
      intros H. destruct (G l (repeat false n) (fun _ => true) m Hn) as [G1 G2]; [apply repeat_length| |exact H|].
      - intros j Hj. apply nth_repeat'. exact Hj.
      - split; [exact G1|]. intros j Hj. rewrite (G2 j Hj). reflexivity.
    Qed.

    (** switching off what is not activated, for one column *)
    Definition prune1 (v : list fval) (cn : cnode) : list fval :=
      if sat_vec io v (cn_cond cn) then v else fold_left (fun a i => set_nth i NaN a) (cn_children cn) v.
    Definition prune (v : list fval) : list fval := fold_left prune1 cns v.

    Lemma prune1_len v cn : length (prune1 v cn) = length v.
    Proof.
      unfold prune1. destruct (sat_vec io v (cn_cond cn)); [reflexivity|]. generalize (cn_children cn). intros l. revert v.
      induction l as [|i l IH]; intros v; simpl; [reflexivity|]. rewrite IH. apply set_nth_length.
    Qed.
    Lemma prune_len v : length (prune v) = length v.
    Proof.
      unfold prune. generalize cns. intros l. revert v. induction l as [|cn l IH]; intros v; simpl; [reflexivity|].
      rewrite IH. apply prune1_len.
    Qed.

    Lemma cnode_parents cn p : In cn cns -> In p (cond_parents (cn_cond cn)) -> In p (keys s).
    Proof.
      intros Hcn Hp. destruct (so_cnode_cond O cn Hcn) as (i & m & rest & _ & _ & Hc). destruct (so_condof_in O m _ Hc) as [I0 A0].
      apply (so_reads_keys O p m). exists (cn_cond cn). auto.
    Qed.

    Lemma prune_columns n : forall l arr, (forall cn, In cn l -> In cn cns) -> rect n arr -> length arr = s_len s ->
      let a := fold_left (fun a cn => nan_rows (cn_children cn) (map negb (sat_arr io n a (cn_cond cn))) a) l arr in
      rect n a /\ length a = s_len s /\ forall j, j < n -> column a j = fold_left prune1 l (column arr j).
    Proof.
      induction l as [|cn l IH]; intros arr Hl R La; cbn [fold_left]; [auto|].
      assert (Hcn := Hl cn (or_introl eq_refl)).
      destruct (sat_arr_spec io n arr (cn_cond cn) R) as [S1 S2].
      { intros p Hp. destruct (so_index_ex O p (cnode_parents cn p Hcn Hp)) as (i & Hi). exists i. split; [exact Hi|].
        rewrite La. apply (so_index_lt O p i Hi). }
      destruct (nan_rows_spec (cn_children cn) (map negb (sat_arr io n arr (cn_cond cn))) n) with (arr := arr) as (N1 & N2 & N3).
      - rewrite map_length. exact S1.
      - exact R.
      - intros i Hi. rewrite La. destruct (so_cnode_lt O cn i Hcn Hi) as (_ & _ & K). exact K.
      - destruct (IH (nan_rows (cn_children cn) (map negb (sat_arr io n arr (cn_cond cn))) arr)) as (I1 & I2 & I3).
        + intros c Hc. apply Hl. right. exact Hc.
        + exact N1.
        + congruence.
        + split; [exact I1|]. split; [exact I2|]. intros j Hj. rewrite (I3 j Hj), (N3 j Hj). f_equal.
          rewrite (nth_indep _ false (negb false)) by (rewrite map_length, S1; exact Hj).
          rewrite map_nth, (S2 j Hj). unfold prune1. destruct (sat_vec io (column arr j) (cn_cond cn)); reflexivity.
    Qed.

    Lemma forbs_keys f p : In f (forbidden_clauses s) -> In p (forb_names f) -> In p (keys s).
    Proof.
      intros Hf Hp. apply (di_fnames _ _ _ _ (so_inv _ _ _ _ O) f p); [|exact Hp].
      eapply Permutation_in; [apply (so_forbs O)|exact Hf].
    Qed.

    (** one round: the columns without a violated unconditional clause, pruned, without a violated
        conditional clause *)
    Lemma round_spec n mat new : rect n mat -> length mat = s_len s -> sample_round s n mat = Ok new ->
      new = filter (okf (d_cforb (s_dag s))) (map prune (filter (okf (d_uforb (s_dag s))) (map (column mat) (seq 0 n)))).
    Proof.
      intros R Lm. unfold sample_round.
      destruct (forb_mask io n mat (d_uforb (s_dag s))) as [uf|] eqn:Eu; cbn [bind]; [|discriminate].
      destruct (forb_mask_spec n mat (d_uforb (s_dag s)) uf R Lm) as [U1 U2]; [|exact Eu|].
      { intros f p Hf. apply forbs_keys. unfold forbidden_clauses, d_forbs. apply in_or_app. left. exact Hf. }
      set (v0 := map (select (map negb uf)) mat). set (n1 := length (filter negb uf)).
      assert (Hn1 : n1 = length (kept (map negb uf))) by apply filter_negb_kept.
      assert (Lnu : length (map negb uf) = n) by (rewrite map_length; exact U1).
      assert (R0 : rect n1 v0) by (rewrite Hn1; apply (select_rect _ n); assumption).
      assert (L0 : length v0 = s_len s) by (unfold v0; rewrite map_length; exact Lm).
      destruct (prune_columns n1 cns v0 (fun _ H => H) R0 L0) as (P1 & P2 & P3). cbv zeta in *.
      set (v1 := fold_left _ cns v0) in *.
      destruct (forb_mask io n1 v1 (d_cforb (s_dag s))) as [cf|] eqn:Ec; cbn [bind]; [|discriminate].
      destruct (forb_mask_spec n1 v1 (d_cforb (s_dag s)) cf P1 P2) as [C1 C2]; [|exact Ec|].
      { intros f p Hf. apply forbs_keys. unfold forbidden_clauses, d_forbs. apply in_or_app. right. exact Hf. }
      intros H. inversion H; subst new; clear H.
      assert (Lnc : length (map negb cf) = n1) by (rewrite map_length; exact C1).
      rewrite filter_negb_kept, (select_columns _ n1 v1 P1 Lnc).
      assert (K1 : kept (map negb uf) = filter (fun j => okf (d_uforb (s_dag s)) (column mat j)) (seq 0 n)).
      { unfold kept. rewrite Lnu. apply filter_ext_in. intros j Hj. apply in_seq in Hj. rewrite <- U2 by lia.
        rewrite (nth_indep _ false (negb false)) by lia. apply map_nth. }
      assert (K2 : kept (map negb cf) = filter (fun j => okf (d_cforb (s_dag s)) (column v1 j)) (seq 0 n1)).
      { unfold kept. rewrite Lnc. apply filter_ext_in. intros j Hj. apply in_seq in Hj. rewrite <- C2 by lia.
        rewrite (nth_indep _ false (negb false)) by lia. apply map_nth. }
      rewrite K2, <- filter_map. f_equal. rewrite filter_map, <- K1, <- (select_columns _ n mat R Lnu), map_map, <- Hn1.
      apply map_ext_in. intros j Hj. apply in_seq in Hj. apply P3. lia.
    Qed.

    (** entries that no node handles are kept; the others are kept or dropped *)
    Lemma prune1_nth v cn j : (forall i, In i (cn_children cn) -> i < length v) -> nth j (prune1 v cn) NaN =
      if existsb (Nat.eqb j) (cn_children cn) then if sat_vec io v (cn_cond cn) then nth j v NaN else NaN else nth j v NaN.
    Proof.
      intros H. unfold prune1. destruct (sat_vec io v (cn_cond cn)); [destruct (existsb _ _); reflexivity|].
      assert (K := fold_set_nth (fun _ => NaN) (cn_children cn) v j H). cbv beta in K. apply K.
    Qed.
    Lemma cnode_child_lt cn i : In cn cns -> In i (cn_children cn) -> i < s_len s.
    Proof. intros Hcn Hi. destruct (so_cnode_lt O cn i Hcn Hi) as (_ & _ & K). exact K. Qed.

    Lemma prune_or v j : length v = s_len s -> nth j (prune v) NaN = nth j v NaN \/ nth j (prune v) NaN = NaN.
    Proof.
      unfold prune. assert (G : forall l v, (forall cn, In cn l -> In cn cns) -> length v = s_len s ->
        nth j (fold_left prune1 l v) NaN = nth j v NaN \/ nth j (fold_left prune1 l v) NaN = NaN).
      { clear v. induction l as [|cn l IH]; intros v Hl Lv; cbn [fold_left]; [auto|].
        destruct (IH (prune1 v cn)) as [K|K].
        - intros c Hc. apply Hl. right. exact Hc.
        - rewrite prune1_len. exact Lv.
        - rewrite K, prune1_nth.
          + destruct (existsb _ _); [|auto]. destruct (sat_vec io v (cn_cond cn)); auto.
          + intros i Hi. rewrite Lv. apply (cnode_child_lt cn); [apply Hl; left; reflexivity|exact Hi].
        - auto. }
      intros Lv. apply G; auto.
    Qed.
    Lemma prune_root v n : length v = s_len s -> ~ conditional cs n -> vget io (prune v) n = vget io v n.
    Proof.
      intros Lv Hc. unfold prune.
      apply (pass_other O prune1 (fun _ x => x)) with (l := cns); auto.
      - intros a cn _ La. rewrite prune1_len. exact La.
      - intros a cn j Hcn La. apply prune1_nth. intros i Hi. rewrite La. apply (cnode_child_lt cn); assumption.
      - intros cn Hcn (j & Hj & Hm). apply Hc. apply (so_conditional O).
        destruct (so_cnode O cn j Hcn Hj) as (m & c & Hm' & Hcd & _). exists c. congruence.
    Qed.
    (** under the order condition the activation is right *)
    Lemma prune_cond v n c i : orderly cs -> (forall c, In c cs -> cond_refs hs c) -> merge_sound io cs -> length v = s_len s ->
      nth_error (keys s) i = Some n -> In c cs -> activates c n ->
      nth i (prune v) NaN = if sat_vec io (prune v) c then nth i v NaN else NaN.
    Proof.
      intros Or R M Lv Hi Hc Ha. assert (Hin : In i (handled cns)).
      { apply (so_handled O). destruct (so_declared O n c Hc Ha) as (c' & Hc' & _). eauto. }
      unfold handled in Hin. apply in_concat in Hin. destruct Hin as (l & Hl & Hil). apply in_map_iff in Hl.
      destruct Hl as (cn & <- & Hcn).
      assert (P := pass_spec O prune1 (fun _ x => x) (fun _ _ => eq_refl)).
      assert (Pn : nth i (fold_left prune1 cns v) NaN = if sat_vec io (fold_left prune1 cns v) (cn_cond cn) then nth i v NaN else NaN).
      { apply P; auto.
        - intros a cn' _ La. rewrite prune1_len. exact La.
        - intros a cn' j Hcn' La. apply prune1_nth. intros k Hk. rewrite La. apply (cnode_child_lt cn'); assumption.
        - apply (min_quiet O Or). }
      destruct (so_cnode_sat s hs cs fs O R cn i M Hcn Hil) as (n' & Hn' & _ & Hsat).
      assert (n' = n) by congruence. subst n'. unfold prune. rewrite (Hsat c Hc Ha) in Pn. exact Pn.
    Qed.

    (** clauses over unconditional hyperparameters are not affected *)
    Lemma forb_vec_ext v v' f : (forall p, In p (forb_names f) -> vget io v p = vget io v' p) -> forb_vec io v f = forb_vec io v' f.
    Proof.
      induction f as [h w ww|h ws wws|r a b|l IH] using fclause_ind'; intros H; simpl.
      - rewrite (H (hp_name h)); [reflexivity|left; reflexivity].
      - rewrite (H (hp_name h)); [reflexivity|left; reflexivity].
      - rewrite (H (hp_name a)), (H (hp_name b)); [reflexivity|right; left; reflexivity|left; reflexivity].
      - rewrite Forall_forall in IH.
        assert (K : forall f, In f l -> forb_vec io v f = forb_vec io v' f).
        { intros f Hf. apply IH; [exact Hf|]. intros p Hp. apply H. unfold forb_names in *. apply in_map_iff in Hp.
          destruct Hp as (h & <- & Hh). apply in_map. eapply forb_hps_and; eauto. }
        clear IH H. induction l as [|f l IH]; simpl; [reflexivity|]. rewrite (K f (or_introl eq_refl)).
        destruct (forb_vec io v' f) as [[]|]; cbn [bind]; try reflexivity. apply IH. intros g Hg. apply K. right. exact Hg.
    Qed.
    Lemma okf_prune v : length v = s_len s -> okf (d_uforb (s_dag s)) (prune v) = okf (d_uforb (s_dag s)) v.
    Proof.
      intros Lv. unfold okf. apply forallb_ext_in. intros f Hf. rewrite (forb_vec_ext (prune v) v f); [reflexivity|].
      intros p Hp. apply prune_root; [exact Lv|]. intros Hc. apply (so_conditional O) in Hc. destruct Hc as (c & Hc).
      assert (U := cm_uforb _ (so_com _ _ _ _ O) f Hf). unfold is_unconditional in U. rewrite forallb_forall in U.
      specialize (U p Hp). apply str_in_iff in U. apply (so_root O) in U. destruct U; congruence.
    Qed.

    (** what a round yields *)
    Lemma round_in n mat new v : rect n mat -> length mat = s_len s -> sample_round s n mat = Ok new -> In v new ->
      exists j, j < n /\ v = prune (column mat j) /\ forall f, In f fs -> forb_vec io v f = Ok false.
    Proof.
      intros R Lm H Hv. rewrite (round_spec n mat new R Lm H) in Hv. apply filter_In in Hv. destruct Hv as [Hv Hc].
      apply in_map_iff in Hv. destruct Hv as (v0 & <- & Hv). apply filter_In in Hv. destruct Hv as [Hv Hu].
      apply in_map_iff in Hv. destruct Hv as (j & <- & Hj). apply in_seq in Hj. exists j. split; [lia|]. split; [reflexivity|].
      assert (Lv : length (column mat j) = s_len s) by (rewrite column_length; exact Lm).
      rewrite <- (okf_prune _ Lv) in Hu. rewrite okf_iff in Hc, Hu.
      intros f Hf. apply (Permutation_in _ (Permutation_sym (so_forbs O))) in Hf. unfold forbidden_clauses, d_forbs in Hf.
      apply in_app_or in Hf. destruct Hf; auto.
    Qed.

    Definition matrix (draw : nat -> nat -> nat -> fval) (round n : nat) : list (list fval) :=
      map (fun i => map (draw round i) (seq 0 n)) (seq 0 (s_len s)).
    Lemma matrix_rect draw round n : rect n (matrix draw round n) /\ length (matrix draw round n) = s_len s.
    Proof.
      split; [|unfold matrix; rewrite map_length, seq_length; reflexivity].
      intros row H. unfold matrix in H. apply in_map_iff in H. destruct H as (i & <- & _). rewrite map_length. apply seq_length.
    Qed.
    Lemma matrix_column draw round n j i : j < n -> i < s_len s -> nth i (column (matrix draw round n) j) NaN = draw round i j.
    Proof.
      intros Hj Hi. rewrite column_nth. unfold matrix.
      rewrite (nth_indep _ [] ((fun i => map (draw round i) (seq 0 n)) 0)) by (rewrite map_length, seq_length; exact Hi).
      rewrite (map_nth (fun i => map (draw round i) (seq 0 n))), seq_nth by exact Hi.
      rewrite (nth_indep _ NaN (draw round i 0)) by (rewrite map_length, seq_length; exact Hj).
      rewrite (map_nth (draw round (0 + i))), seq_nth by exact Hj. reflexivity.
    Qed.

    (** a sampled vector: a pruned column of draws that violates no clause *)
    Definition sampled (draw : nat -> nat -> nat -> fval) (v : list fval) : Prop :=
      exists round n j, j < n /\ v = prune (column (matrix draw round n) j) /\ forall f, In f fs -> forb_vec io v f = Ok false.

    Lemma loop_spec fuel draw : forall round size ss acc vs, (forall v, In v acc -> sampled draw v) ->
      sample_loop fuel s draw round size ss acc = Ok vs ->
      (forall v, In v vs -> sampled draw v) /\ size <= length vs.
    Proof.
      induction fuel as [|fuel IH]; intros round size ss acc vs Ha; cbn [sample_loop];
        destruct (Nat.leb size (length acc)) eqn:El; try discriminate;
        try (intros H; inversion H; subst; apply Nat.leb_le in El; auto; fail).
      fold (matrix draw round (next_size s ss)).
      destruct (sample_round s (next_size s ss) (matrix draw round (next_size s ss))) as [new|] eqn:Er; cbn [bind]; [|discriminate].
      apply IH. intros v Hv. apply in_app_or in Hv. destruct Hv as [Hv|Hv]; [auto|].
      destruct (matrix_rect draw round (next_size s ss)) as [R1 R2].
      destruct (round_in _ _ new v R1 R2 Er Hv) as (j & Hj & -> & Hf). exists round, (next_size s ss), j. auto.
    Qed.

    Lemma sample_spec fuel draw size l : sample_configuration fuel s draw size = Ok l ->
      length l = Z.to_nat (match size with None => 1 | Some k => k end) /\
      forall c, In c l -> (s_len s = 0 /\ c_vector c = [] \/ sampled draw (c_vector c)) /\ c_values c = None /\ c_allow c = false /\ length (c_vector c) = s_len s.
    Proof.
      unfold sample_configuration. destruct (Nat.eqb_spec (s_len s) 0) as [Z0|Z0].
      - intros H. assert (Hl := mapM_length _ _ _ H). rewrite repeat_length in Hl. split.
        + rewrite Hl. destruct size; reflexivity.
        + clear Hl. apply mapM_ok in H. intros c Hc. induction H as [|x c' l' k' H1 H2 IH]; [destruct Hc|].
          destruct Hc as [->|Hc]; [|apply IH; exact Hc].
          unfold config_of_vector in H1. simpl in H1. rewrite Z0 in H1. simpl in H1. inversion H1. simpl. auto.
      - set (k := match size with None => 1%Z | Some k => k end). destruct (Z.ltb_spec k 1) as [K|K].
        + intros H. inversion H; subst. split; [simpl; lia|intros c []].
        + destruct (sample_loop fuel s draw 0 (Z.to_nat k) (Z.to_nat k) []) as [vs|] eqn:Es; cbn [bind]; [|discriminate].
          destruct (mapM (fun v => config_of_vector s v false) vs) as [cl|] eqn:Em; cbn [bind]; [|discriminate].
          intros H. inversion H; subst l; clear H.
          destruct (loop_spec fuel draw 0 (Z.to_nat k) (Z.to_nat k) [] vs (fun v (F : In v []) => match F with end) Es) as [S1 S2].
          assert (Hl := mapM_length _ _ _ Em). split; [rewrite firstn_length; lia|].
          intros c Hc. assert (Hc' : In c cl) by (rewrite <- (firstn_skipn (Z.to_nat k) cl); apply in_or_app; left; exact Hc).
          clear Hc. rename Hc' into Hc. apply mapM_ok in Em.
          assert (Q : exists v, In v vs /\ config_of_vector s v false = Ok c).
          { clear -Em Hc. induction Em as [|v c' l' k' H1 H2 IH]; [destruct Hc|]. destruct Hc as [->|Hc]; [exists v; simpl; auto|].
            destruct (IH Hc) as (v' & ? & ?). exists v'. simpl. auto. }
          destruct Q as (v & Hv & Hcv). apply config_len_vec in Hcv. destruct Hcv as [Lv ->]. simpl. auto.
    Qed.
  End One.
End Sample.
