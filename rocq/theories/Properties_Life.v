(** * The life of a configuration object (C120, C121, C122) *)
From Coq Require Import String List ZArith QArith Bool Lia Permutation Sorted.
From Verif Require Import Base Numeric HP HPProofs Cond Forb Dag Space Life Spec ListFacts DagProofs CommitProofs SpaceProofs ValidProofs ConfigProofs Properties_Graph Properties_Change Ex.
Import ListNotations.
Open Scope nat_scope.

Section Life.
  Context {E : Env}.

  (** ** Specification: a configuration as a value, without cache, arrays and addresses *)
  (** what a look shows *)
  Definition shown (s : space) (c : config) (l : look) : answer :=
    match l with
    | LRead k => AValue (getitem s c k)
    | LContains k => ABool (contains s c k)
    | LIter => AKeys (Ok (iter s c))
    | LDict => ADict (dict_of s c)
    end.
  (** the replies of a configuration to its deeds *)
  Fixpoint replies (s : space) (c : config) (ds : list deed) : list reply :=
    match ds with
    | [] => []
    | DLook l :: ds' => RLook (shown s c l) :: replies s c ds'
    | DSet k v :: ds' => let (c', r) := setitem s c k v in RSet r :: replies s c' ds'
    end.
  (** the deeds, or the replies, of number [i] *)
  Definition those {A} (i : nat) (l : list (nat * A)) : list A := map snd (filter (fun e => Nat.eqb (fst e) i) l).
  (** an array that exists, of the length of the space *)
  Definition fits (s : space) (m : heap) (o : obj) : Prop := ob_arr o < length m /\ length (array m o) = s_len s.

  (** ** C120: reading is invisible *)
  Lemma read_again s m o k o' r : o_read s m o k = (o', r) ->
    ob_arr o' = ob_arr o /\ ob_allow o' = ob_allow o /\ forall k', snd (o_read s m o' k') = snd (o_read s m o k').
  Proof.
    unfold o_read at 1. intros H.
    destruct (match ob_cache o with Some d => assoc k d | None => None end) as [v|] eqn:Ec; [inversion H; subst; auto|].
    destruct (get_hp s k) as [h|] eqn:Eh; [|inversion H; subst; auto].
    destruct (assoc k (index_of s)) as [i|] eqn:Ei; [|inversion H; subst; auto].
    destruct (entry (array m o) i) as [x|e] eqn:Ex; [|inversion H; subst; auto].
    assert (K : forall v, to_value h x = Ok v -> x <> NaN ->
      o' = mk_obj (ob_arr o) (Some (assoc_set k (round_value h v) (match ob_cache o with Some d => d | None => [] end))) (ob_allow o) ->
      ob_arr o' = ob_arr o /\ ob_allow o' = ob_allow o /\ forall k', snd (o_read s m o' k') = snd (o_read s m o k')).
    { intros v Ev Nx ->. split; [reflexivity|]. split; [reflexivity|]. intros k'. unfold o_read at 1. simpl ob_cache.
      unfold array. simpl ob_arr. fold (array m o).
      destruct (string_dec k' k) as [->|Ne].
      - rewrite assoc_set_same. simpl. unfold o_read. rewrite Ec, Eh, Ei, Ex. destruct x; try congruence; rewrite Ev; reflexivity.
      - rewrite assoc_set_other by exact Ne. unfold o_read.
        assert (F : assoc k' (match ob_cache o with Some d => d | None => [] end) =
                    match ob_cache o with Some d => assoc k' d | None => None end) by (destruct (ob_cache o); reflexivity).
        rewrite F. destruct (match ob_cache o with Some d => assoc k' d | None => None end); [reflexivity|].
        destruct (get_hp s k') as [h'|]; [|reflexivity]. destruct (assoc k' (index_of s)) as [j|]; [|reflexivity].
        destruct (entry (array m o) j) as [y|]; [|reflexivity]. destruct y; try reflexivity; destruct (to_value h' _); reflexivity. }
    destruct x as [q| | |]; try (inversion H; subst; auto; fail);
      (match type of H with context [to_value ?a ?b] => destruct (to_value a b) as [v|e] eqn:Ev end; [|inversion H; subst; auto]);
      (apply (K v eq_refl); [discriminate|]; inversion H; reflexivity).
  Qed.

  Lemma contains_same s m o o' : (forall k, snd (o_read s m o' k) = snd (o_read s m o k)) ->
    forall k, snd (o_contains s m o' k) = snd (o_contains s m o k).
  Proof.
    intros H k. unfold o_contains. specialize (H k). destruct (o_read s m o' k) as [a [v|e]], (o_read s m o k) as [b [w|e']]; simpl in H;
      inversion H; subst; try reflexivity. destruct e'; reflexivity.
  Qed.
  Lemma reads_again s m : forall ks o o' r, o_reads s m o ks = (o', r) ->
    ob_arr o' = ob_arr o /\ ob_allow o' = ob_allow o /\ (forall k', snd (o_read s m o' k') = snd (o_read s m o k')) /\
    r = mapM (fun k => v <- snd (o_read s m o k) ;; Ok (k, v)) ks.
  Proof.
    induction ks as [|k ks IH]; simpl; intros o o' r H; [inversion H; subst; auto|].
    destruct (o_read s m o k) as [o1 [v|e]] eqn:E1; destruct (read_again _ _ _ _ _ _ E1) as (A1 & A2 & A3); simpl.
    - destruct (o_reads s m o1 ks) as [o2 r2] eqn:E2. destruct (IH _ _ _ E2) as (B1 & B2 & B3 & B4).
      assert (K : r2 = mapM (fun k => v <- snd (o_read s m o k) ;; Ok (k, v)) ks).
      { rewrite B4. apply mapM_ext. intros x _. rewrite A3. reflexivity. }
      rewrite <- K. destruct r2 as [l|e]; inversion H; subst; simpl;
        (split; [congruence|]; split; [congruence|]; split; [intros k'; rewrite B3; apply A3|reflexivity]).
    - inversion H; subst. auto.
  Qed.
  Lemma look_again s m o l o' a : do_look s m o l = (o', a) ->
    ob_arr o' = ob_arr o /\ ob_allow o' = ob_allow o /\ (forall k', snd (o_read s m o' k') = snd (o_read s m o k')).
  Proof.
    destruct l as [k|k| |]; simpl; intros H.
    - destruct (o_read s m o k) as [o1 r] eqn:E1. inversion H; subst. eapply read_again; eauto.
    - unfold o_contains in H. destruct (o_read s m o k) as [o1 r] eqn:E1.
      assert (o' = o1) by (destruct r as [v|e]; [inversion H; reflexivity|destruct e; inversion H; reflexivity]). subst.
      eapply read_again; eauto.
    - inversion H; subst. auto.
    - unfold o_dict in H. destruct (o_iter s m o) as [ks|e]; [|inversion H; subst; auto].
      destruct (o_reads s m o ks) as [o1 r] eqn:E1. inversion H; subst. destruct (reads_again _ _ _ _ _ _ E1) as (A & B & C & _). auto.
  Qed.
  Lemma look_same s m o o' l : ob_arr o' = ob_arr o -> (forall k, snd (o_read s m o' k) = snd (o_read s m o k)) ->
    snd (do_look s m o' l) = snd (do_look s m o l).
  Proof.
    intros Ha H. destruct l as [k|k| |]; simpl.
    - specialize (H k). destruct (o_read s m o' k), (o_read s m o k). simpl in *. congruence.
    - assert (K := contains_same s m o o' H k). destruct (o_contains s m o' k), (o_contains s m o k). simpl in *. congruence.
    - unfold o_iter, array. rewrite Ha. reflexivity.
    - unfold o_dict. assert (K : o_iter s m o' = o_iter s m o) by (unfold o_iter, array; rewrite Ha; reflexivity). rewrite K.
      destruct (o_iter s m o) as [ks|e]; [|reflexivity].
      destruct (o_reads s m o' ks) as [a r] eqn:E1, (o_reads s m o ks) as [b t] eqn:E2. simpl. f_equal.
      destruct (reads_again _ _ _ _ _ _ E1) as (_ & _ & _ & ->). destruct (reads_again _ _ _ _ _ _ E2) as (_ & _ & _ & ->).
      apply mapM_ext. intros x _. rewrite H. reflexivity.
  Qed.

  (** reading, testing, iterating and converting, in any order and any number of times, whatever the space and the
      arrays: each answers what it would have answered first *)
  Theorem C120_pure s m : forall ls o o' l, looks s m o ls = (o', l) ->
    l = map (fun x => snd (do_look s m o x)) ls /\ ob_arr o' = ob_arr o /\ forall x, snd (do_look s m o' x) = snd (do_look s m o x).
  Proof.
    induction ls as [|x ls IH]; simpl; intros o o' l H; [inversion H; subst; auto|].
    destruct (do_look s m o x) as [o1 a] eqn:E1. destruct (looks s m o1 ls) as [o2 l2] eqn:E2. inversion H; subst.
    destruct (look_again _ _ _ _ _ _ E1) as (A & _ & C). destruct (IH _ _ _ E2) as (B1 & B2 & B3).
    split; [|split].
    - rewrite B1. simpl. f_equal. apply map_ext. intros y. apply look_same; assumption.
    - congruence.
    - intros y. rewrite B3. apply look_same; assumption.
  Qed.

  (** with an array of the right length the answers are those of the configuration as a value *)
  Lemma entry_nth v i : i < length v -> entry v i = Ok (nth i v NaN).
  Proof. intros H. unfold entry. destruct (nth_error v i) as [x|] eqn:Ex; [rewrite (nth_error_nth _ _ _ Ex); reflexivity|apply nth_error_None in Ex; lia]. Qed.
  Lemma read_plain s hs cs fs m o k : built s hs cs fs -> length (array m o) = s_len s -> snd (o_read s m o k) = getitem s (view m o) k.
  Proof.
    intros B L. apply built_ok in B. unfold o_read, getitem, view. simpl.
    destruct (match ob_cache o with Some d => assoc k d | None => None end); [reflexivity|].
    destruct (get_hp s k) as [h|]; [|reflexivity]. destruct (assoc k (index_of s)) as [i|] eqn:Ei; [|reflexivity].
    rewrite entry_nth by (rewrite L; eapply so_index_lt; eauto).
    destruct (nth i (array m o) NaN); try reflexivity; destruct (to_value h _); reflexivity.
  Qed.
  Lemma iter_plain s hs cs fs m o : built s hs cs fs -> length (array m o) = s_len s -> o_iter s m o = Ok (iter s (view m o)).
  Proof.
    intros B L. apply built_ok in B. unfold o_iter, iter, view. simpl.
    assert (K : forall ks, incl ks (keys s) -> mapM (fun k => match assoc k (index_of s) with
                        | None => Err KeyError
                        | Some i => x <- entry (array m o) i ;; Ok (if isnan x then [] else [k])
                        end) ks = Ok (map (fun k => if match assoc k (index_of s) with Some i => negb (isnan (nth i (array m o) NaN)) | None => false end then [k] else []) ks)).
    { induction ks as [|k ks IH]; intros I; [reflexivity|]. simpl. destruct (so_index_ex B k (I k (or_introl eq_refl))) as (i & Hi). rewrite Hi.
      rewrite entry_nth by (rewrite L; eapply so_index_lt; eauto). simpl. rewrite IH by (intros y Hy; apply I; right; exact Hy). simpl.
      destruct (isnan (nth i (array m o) NaN)); reflexivity. }
    rewrite K by (intros y Hy; exact Hy). clear K. simpl. f_equal. induction (keys s) as [|k ks IH]; [reflexivity|]. simpl. rewrite IH.
    destruct (match assoc k (index_of s) with Some i => negb (isnan (nth i (array m o) NaN)) | None => false end); reflexivity.
  Qed.
  Theorem C120_plain s hs cs fs m o l : built s hs cs fs -> length (array m o) = s_len s -> snd (do_look s m o l) = shown s (view m o) l.
  Proof.
    intros B L. destruct l as [k|k| |]; simpl.
    - rewrite <- (read_plain s hs cs fs m o k B L). destruct (o_read s m o k); reflexivity.
    - unfold o_contains, contains. rewrite <- (read_plain s hs cs fs m o k B L). destruct (o_read s m o k) as [a [v|e]]; simpl; [reflexivity|destruct e; reflexivity].
    - rewrite (iter_plain s hs cs fs m o B L). reflexivity.
    - unfold o_dict, dict_of. rewrite (iter_plain s hs cs fs m o B L). destruct (o_reads s m o (iter s (view m o))) as [o1 r] eqn:E1.
      destruct (reads_again _ _ _ _ _ _ E1) as (_ & _ & _ & ->). simpl. f_equal. apply mapM_ext. intros x _. rewrite (read_plain s hs cs fs m o x B L). reflexivity.
  Qed.

  (** ** C122: configurations do not influence each other *)
  Lemma array_app m x o : ob_arr o < length m -> array (m ++ x) o = array m o.
  Proof. intros H. unfold array. apply app_nth1. exact H. Qed.
  Lemma setitem_same s c c' k v : c_vector c' = c_vector c -> c_allow c' = c_allow c ->
    snd (setitem s c' k v) = snd (setitem s c k v) /\ (snd (setitem s c k v) = Ok tt -> fst (setitem s c' k v) = fst (setitem s c k v) /\ c_values (fst (setitem s c k v)) = None /\ c_allow (fst (setitem s c k v)) = c_allow c) /\
    (snd (setitem s c k v) <> Ok tt -> fst (setitem s c' k v) = c' /\ fst (setitem s c k v) = c).
  Proof.
    intros Hv Ha. unfold setitem. rewrite Hv, Ha.
    destruct (get_hp s k) as [h|]; [|simpl; repeat split; congruence]. destruct (legal_value h v); [|simpl; repeat split; congruence].
    destruct (assoc k (index_of s)) as [i|]; [|simpl; repeat split; congruence]. destruct (to_vector h v) as [x|e]; [|simpl; repeat split; congruence].
    destruct (check_configuration s _ false) as [u|e]; simpl; repeat split; try congruence. 
  Qed.
  Lemma setitem_length s c k v : length (c_vector (fst (setitem s c k v))) = length (c_vector c).
  Proof.
    unfold setitem. destruct (get_hp s k) as [h|]; [|reflexivity]. destruct (legal_value h v); [|reflexivity].
    destruct (assoc k (index_of s)) as [i|]; [|reflexivity]. destruct (to_vector h v) as [x|e]; [|reflexivity].
    destruct (check_configuration s _ false) as [u|e]; [|reflexivity]. simpl.
    unfold change_hp_value. rewrite <- (set_nth_length i x (c_vector c)). generalize (set_nth i x (c_vector c)).
    destruct (assoc k (d_lookup (s_dag s))) as [l|]; [|reflexivity].
    induction l as [|n l IH]; intros a; simpl; [reflexivity|]. rewrite IH. unfold change_cnode.
    assert (F : forall (g : nat -> fval) l a, length (fold_left (fun a i => set_nth i (g i) a) l a) = length a).
    { intros g. induction l0 as [|y l0 IH0]; intros a0; simpl; [reflexivity|]. rewrite IH0. apply set_nth_length. }
    destruct (sat_vec (index_of s) a (cn_cond n)); [apply (F (fun i => nth i (d_defaults (s_dag s)) NaN))|apply (F (fun _ => NaN))].
  Qed.
  (** the object and the value show the same *)
  Record alike (s : space) (m : heap) (o : obj) (c : config) : Prop := {
    al_arr : ob_arr o < length m;
    al_vec : array m o = c_vector c;
    al_len : length (c_vector c) = s_len s;
    al_allow : ob_allow o = c_allow c;
    al_read : forall k, getitem s (view m o) k = getitem s c k }.
  Lemma alike_shown s m o c l : alike s m o c -> shown s (view m o) l = shown s c l.
  Proof.
    intros A. destruct l as [k|k| |]; simpl.
    - rewrite (al_read _ _ _ _ A). reflexivity.
    - unfold contains. rewrite (al_read _ _ _ _ A). reflexivity.
    - unfold iter, view. simpl. rewrite (al_vec _ _ _ _ A). reflexivity.
    - unfold dict_of. f_equal. assert (K : iter s (view m o) = iter s c) by (unfold iter, view; simpl; rewrite (al_vec _ _ _ _ A); reflexivity).
      rewrite K. apply mapM_ext. intros x _. rewrite (al_read _ _ _ _ A). reflexivity.
  Qed.
  Lemma alike_app s m x o c : alike s m o c -> alike s (m ++ x) o c.
  Proof.
    intros A. assert (K := array_app m x o (al_arr _ _ _ _ A)). split; try apply A.
    - rewrite app_length. pose proof (al_arr _ _ _ _ A). lia.
    - rewrite K. apply A.
    - intros k. unfold view. rewrite K. apply (al_read _ _ _ _ A).
  Qed.
  Definition follow (s : space) (c : config) (d : deed) : config := match d with DLook _ => c | DSet k v => fst (setitem s c k v) end.
  Lemma deed_alike s hs cs fs m o c d m' o' r : built s hs cs fs -> alike s m o c -> do_deed s m o d = (m', o', r) ->
    (exists x, m' = m ++ x) /\ alike s m' o' (follow s c d) /\ replies s c [d] = [r].
  Proof.
    intros B A H. assert (L : length (array m o) = s_len s) by (rewrite (al_vec _ _ _ _ A); apply A).
    destruct d as [l|k v]; simpl in *.
    - destruct (do_look s m o l) as [o1 a] eqn:E1. inversion H; subst. destruct (look_again _ _ _ _ _ _ E1) as (A1 & A2 & A3).
      assert (L' : length (array m' o') = s_len s) by (unfold array in *; rewrite A1; exact L).
      split; [exists []; rewrite app_nil_r; reflexivity|]. split.
      + split.
        * rewrite A1. apply A.
        * unfold array. rewrite A1. apply A.
        * apply A.
        * rewrite A2. apply A.
        * intros k. rewrite <- (read_plain s hs cs fs m' o' k B L'), A3, (read_plain s hs cs fs m' o k B L). apply A.
      + rewrite <- (alike_shown _ _ _ _ l A), <- (C120_plain s hs cs fs m' o l B L), E1. reflexivity.
    - unfold o_set in H.
      destruct (setitem_same s c (view m o) k v (al_vec _ _ _ _ A) (al_allow _ _ _ _ A)) as (S1 & S2 & S3).
      assert (SL := setitem_length s c k v).
      destruct (setitem s c k v) as [c1 r1]. destruct (setitem s (view m o) k v) as [c2 r2]. simpl in *. subst r2. destruct r1 as [[]|e].
      + destruct (S2 eq_refl) as (S4 & S5 & S6). subst c2. inversion H; subst. split; [eexists; reflexivity|]. split; [|reflexivity].
        assert (AR : array (m ++ [c_vector c1]) (mk_obj (length m) None (ob_allow o)) = c_vector c1)
          by (unfold array; simpl; rewrite app_nth2, Nat.sub_diag by lia; reflexivity).
        split; simpl.
        * rewrite app_length. simpl. lia.
        * exact AR.
        * rewrite SL. apply A.
        * rewrite S6. apply A.
        * intros k0. unfold view. rewrite AR. simpl. unfold getitem. simpl. rewrite S5. reflexivity.
      + destruct S3 as [S3 S4]; [discriminate|]. inversion H; subst. split; [exists []; rewrite app_nil_r; reflexivity|]. split; [|reflexivity]. exact A.
  Qed.

  Lemma replies_cons s c d ds : replies s c (d :: ds) = replies s c [d] ++ replies s (follow s c d) ds.
  Proof. destruct d; simpl; [reflexivity|]. destruct (setitem s c k v); reflexivity. Qed.
  Lemma nth_error_set {A} (l : list A) : forall i j x, nth_error (set_nth i x l) j = if Nat.eqb j i then option_map (fun _ => x) (nth_error l j) else nth_error l j.
  Proof.
    induction l as [|y l IH]; intros i j x; [destruct j, i; simpl; try reflexivity; destruct (Nat.eqb j i); reflexivity|].
    destruct i as [|i], j as [|j]; simpl; try reflexivity. apply IH.
  Qed.
  (** any number of configurations, made before, some of them perhaps from the same array, any reads and assignments
      in any order: each configuration replies as if it were alone, and as a value *)
  Theorem C122_alone s hs cs fs : built s hs cs fs -> forall ds m os m' os' rs,
    (forall o, In o os -> fits s m o) -> deeds s m os ds = (m', os', rs) ->
    (exists x, m' = m ++ x) /\ length os' = length os /\
    forall i o, nth_error os i = Some o -> those i rs = replies s (view m o) (those i ds).
  Proof.
    intros B. 
    assert (G : forall ds m os (cf : nat -> config) m' os' rs, (forall i o, nth_error os i = Some o -> alike s m o (cf i)) ->
      deeds s m os ds = (m', os', rs) -> (exists x, m' = m ++ x) /\ length os' = length os /\
      forall i o, nth_error os i = Some o -> those i rs = replies s (cf i) (those i ds)).
    { induction ds as [|[j d] ds IH]; simpl; intros m os cf m' os' rs A H.
      - inversion H; subst. split; [exists []; rewrite app_nil_r; reflexivity|]. split; reflexivity.
      - destruct (nth_error os j) as [oj|] eqn:Ej.
        + destruct (do_deed s m oj d) as [[m1 o1] r1] eqn:E1. destruct (deeds s m1 (set_nth j o1 os) ds) as [[m2 os2] rs2] eqn:E2. inversion H; subst.
          destruct (deed_alike s hs cs fs m oj (cf j) d m1 o1 r1 B (A j oj Ej) E1) as ((x & ->) & A1 & R1).
          assert (A2 : forall i o, nth_error (set_nth j o1 os) i = Some o -> alike s (m ++ x) o ((fun i => if Nat.eqb i j then follow s (cf j) d else cf i) i)).
          { intros i o Hi. rewrite nth_error_set in Hi. destruct (Nat.eqb_spec i j) as [->|Ne].
            - rewrite Ej in Hi. simpl in Hi. inversion Hi; subst. exact A1.
            - apply alike_app. apply A. exact Hi. }
          destruct (IH _ _ (fun i => if Nat.eqb i j then follow s (cf j) d else cf i) _ _ _ A2 E2) as ((y & ->) & L & K).
          split; [exists (x ++ y); rewrite app_assoc; reflexivity|]. split; [rewrite L; apply set_nth_length|].
          intros i o Hi. unfold those. simpl. rewrite (Nat.eqb_sym j i). 
          destruct (Nat.eqb_spec i j) as [->|Ne].
          * specialize (K j o1). rewrite nth_error_set, !Nat.eqb_refl, Ej in K. specialize (K eq_refl).
            simpl. change (r1 :: those j rs2 = replies s (cf j) (d :: those j ds)). rewrite replies_cons, R1, K. reflexivity.
          * specialize (K i o). rewrite nth_error_set in K. destruct (Nat.eqb_spec i j) as [E0|_]; [congruence|]. apply K. exact Hi.
        + destruct (IH _ _ _ _ _ _ A H) as (X & L & K). split; [exact X|]. split; [exact L|]. intros i o Hi. rewrite (K i o Hi). unfold those. simpl.
          destruct (Nat.eqb_spec j i) as [->|Ne]; [congruence|reflexivity]. }
    intros ds m os m' os' rs F H. destruct (G ds m os (fun i => match nth_error os i with Some o => view m o | None => mk_config [] None false end) m' os' rs) as (X & L & K); [|exact H|].
    - intros i o Hi. rewrite Hi. destruct (F o (nth_error_In _ _ Hi)) as [F1 F2]. split; try reflexivity; assumption.
    - split; [exact X|]. split; [exact L|]. intros i o Hi. rewrite (K i o Hi), Hi. reflexivity.
  Qed.

  (** ** C122: and the array *)
  Lemma poke_length m a i x : length (poke m a i x) = length m.
  Proof. apply set_nth_length. Qed.
  Lemma poke_other m a i x o : ob_arr o <> a -> array (poke m a i x) o = array m o.
  Proof. intros H. unfold array, poke. apply nth_set_nth_ne. exact H. Qed.
  Lemma poke_own m a i x o : ob_arr o = a -> a < length m -> array (poke m a i x) o = set_nth i x (array m o).
  Proof. intros H L. unfold array, poke. rewrite H. apply nth_set_nth_eq. exact L. Qed.
  Lemma look_array s m m' o l : array m' o = array m o -> ob_arr o < length m -> do_look s m' o l = do_look s m o l.
  Proof.
    intros H L.
    assert (R : forall o', ob_arr o' = ob_arr o -> forall k, o_read s m' o' k = o_read s m o' k).
    { intros o' Ho k. unfold o_read. assert (K : array m' o' = array m o') by (unfold array in *; rewrite Ho; exact H). rewrite K. reflexivity. }
    destruct l as [k|k| |]; simpl.
    - rewrite R; reflexivity.
    - unfold o_contains. rewrite R; reflexivity.
    - unfold o_iter. rewrite H. reflexivity.
    - unfold o_dict, o_iter. rewrite H. destruct (l <- _ ;; _) as [ks|e]; [|reflexivity].
      assert (G : forall ks o', ob_arr o' = ob_arr o -> o_reads s m' o' ks = o_reads s m o' ks).
      { clear ks. induction ks as [|k ks IH]; intros o' Ho; simpl; [reflexivity|]. rewrite R by exact Ho.
        destruct (o_read s m o' k) as [o1 [v|e]] eqn:E1; [|reflexivity]. rewrite IH; [reflexivity|].
        destruct (read_again _ _ _ _ _ _ E1) as (A & _). congruence. }
      rewrite G by reflexivity. reflexivity.
  Qed.

  (** a configuration made from values has an array of its own, one made from an array has that array *)
  Theorem C122_made s m vals allow m' o : o_of_values s m vals allow = (m', Ok o) ->
    exists v, m' = m ++ [v] /\ ob_arr o = length m /\ config_of_values s vals allow = Ok (view m' o).
  Proof.
    unfold o_of_values. destruct (config_of_values s vals allow) as [c|e] eqn:Ec; [|discriminate]. intros H. inversion H; subst.
    exists (c_vector c). split; [reflexivity|]. split; [reflexivity|]. unfold view, array. simpl.
    rewrite app_nth2, Nat.sub_diag by lia. simpl.
    unfold config_of_values in Ec. destruct (negb _) in Ec; [|discriminate]. destruct (fill _ _ _ _ _) as [r|e] in Ec; [|discriminate]. simpl in Ec.
    destruct (check_configuration s (fst r) allow) in Ec; [|discriminate]. simpl in Ec. inversion Ec. reflexivity.
  Qed.
  Theorem C122_from_array s m a allow o : o_of_array s m a allow = Ok o ->
    ob_arr o = a /\ config_of_vector s (nth a m []) allow = Ok (view m o).
  Proof.
    unfold o_of_array, config_of_vector, view, array. destruct (Nat.eqb _ _); [|discriminate]. intros H. inversion H; subst. split; reflexivity.
  Qed.
  Theorem C122_from_list s m v allow m' o : o_of_list s m v allow = (m', Ok o) ->
    m' = m ++ [v] /\ ob_arr o = length m /\ config_of_vector s v allow = Ok (view m' o).
  Proof.
    unfold o_of_list. intros H. injection H as <- H. destruct (C122_from_array _ _ _ _ _ H) as [A B]. split; [reflexivity|]. split; [exact A|].
    rewrite app_nth2, Nat.sub_diag in B by lia. exact B.
  Qed.
  (** whoever writes into another array than that of the configuration does not change the configuration *)
  Theorem C122_other_array s m o a i x l k v : ob_arr o < length m -> ob_arr o <> a ->
    do_look s (poke m a i x) o l = do_look s m o l /\ snd (o_set s (poke m a i x) o k v) = snd (o_set s m o k v) /\
    array (fst (fst (o_set s (poke m a i x) o k v))) (snd (fst (o_set s (poke m a i x) o k v))) =
    array (fst (fst (o_set s m o k v))) (snd (fst (o_set s m o k v))).
  Proof.
    intros L H. assert (K := poke_other m a i x o H). split; [apply look_array; assumption|].
    unfold o_set, view. rewrite K. destruct (setitem s (mk_config (array m o) (ob_cache o) (ob_allow o)) k v) as [c [u|e]]; simpl; (split; [reflexivity|]).
    - unfold array. simpl. rewrite !app_nth2, !Nat.sub_diag by lia. reflexivity.
    - exact K.
  Qed.
  (** an assignment writes into no array that existed, and the array of the configuration is its own afterwards *)
  Theorem C122_assignment s m o k v m' o' : o_set s m o k v = (m', o', Ok tt) ->
    exists w, m' = m ++ [w] /\ ob_arr o' = length m /\ setitem s (view m o) k v = (view m' o', Ok tt).
  Proof.
    unfold o_set. intros H.
    destruct (setitem_same s (view m o) (view m o) k v eq_refl eq_refl) as (_ & S & _).
    destruct (setitem s (view m o) k v) as [c [[]|e]]; [|discriminate]. inversion H; subst. simpl in *. destruct (S eq_refl) as (_ & S1 & S2).
    exists (c_vector c). split; [reflexivity|]. split; [reflexivity|]. unfold view, array. simpl. rewrite app_nth2, Nat.sub_diag by lia. simpl.
    destruct c as [cv cc ca]. simpl in *. subst. reflexivity.
  Qed.
  Theorem C122_refused s m o k v m' o' e : o_set s m o k v = (m', o', Err e) -> m' = m /\ o' = o.
  Proof. unfold o_set. destruct (setitem s (view m o) k v) as [c [u|e']]; intros H; inversion H; subst; auto. Qed.
  (** what was read before the array was written to is read afterwards, too *)
  Theorem C122_remembered s m o k v o' m' s' : o_read s m o k = (o', Ok v) -> o_read s' m' o' k = (o', Ok v).
  Proof.
    unfold o_read at 1. intros H.
    destruct (match ob_cache o with Some d => assoc k d | None => None end) as [w|] eqn:Ec; [inversion H; subst; unfold o_read; rewrite Ec; reflexivity|].
    destruct (get_hp s k) as [h|]; [|discriminate]. destruct (assoc k (index_of s)) as [i|]; [|discriminate].
    destruct (entry (array m o) i) as [x|]; [|discriminate].
    destruct x; try discriminate; (destruct (to_value h _); [|discriminate]; inversion H; subst; unfold o_read; simpl; rewrite assoc_set_same; reflexivity).
  Qed.

  Lemma filter_nothing {A} (p : A -> bool) l : (forall x, In x l -> p x = false) -> filter p l = [].
  Proof. induction l as [|x l IH]; intros H; simpl; [reflexivity|]. rewrite (H x (or_introl eq_refl)). apply IH. intros y Hy. apply H. right. exact Hy. Qed.
  Lemma filter_everything {A} (p : A -> bool) l : (forall x, In x l -> p x = true) -> filter p l = l.
  Proof. induction l as [|x l IH]; intros H; simpl; [reflexivity|]. rewrite (H x (or_introl eq_refl)). f_equal. apply IH. intros y Hy. apply H. right. exact Hy. Qed.
  (** ** C121: the space gets more hyperparameters, conditions or clauses *)
  Lemma look_layout s s2 m o l : keys s2 = keys s -> index_of s2 = index_of s -> (forall k, get_hp s2 k = get_hp s k) ->
    do_look s2 m o l = do_look s m o l.
  Proof.
    intros K I G. assert (R : forall o k, o_read s2 m o k = o_read s m o k) by (intros; unfold o_read; rewrite I, G; reflexivity).
    destruct l as [k|k| |]; simpl.
    - rewrite R. reflexivity.
    - unfold o_contains. rewrite R. reflexivity.
    - unfold o_iter. rewrite K, I. reflexivity.
    - unfold o_dict, o_iter. rewrite K, I. destruct (l <- _ ;; _) as [ks|e]; [|reflexivity].
      assert (G2 : forall ks o, o_reads s2 m o ks = o_reads s m o ks).
      { clear ks o. induction ks as [|k ks IH]; intros o; simpl; [reflexivity|]. rewrite R. destruct (o_read s m o k) as [o1 [v|e]]; [rewrite IH; reflexivity|reflexivity]. }
      rewrite G2. reflexivity.
  Qed.
  Lemma same_get_hp s s2 hs cs fs hs2 cs2 fs2 : space_ok s hs cs fs -> space_ok s2 hs2 cs2 fs2 -> (forall h, In h hs2 <-> In h hs) ->
    forall k, get_hp s2 k = get_hp s k.
  Proof.
    intros O O2 H k. destruct (get_hp s k) as [h|] eqn:E1.
    - apply (so_get_hp O2). apply (so_get_hp O) in E1. rewrite H. exact E1.
    - destruct (get_hp s2 k) as [h|] eqn:E2; [|reflexivity]. apply (so_get_hp O2) in E2. rewrite H in E2. apply (so_get_hp O) in E2. congruence.
  Qed.
  (** clauses alone change nothing *)
  Theorem C121_clauses s hs cs fs fs' s2 m o l : built s hs cs fs -> Forall forb_built fs' -> add s [] [] fs' = (s2, Ok tt) ->
    do_look s2 m o l = do_look s m o l.
  Proof.
    intros B F A. assert (B2 : built s2 (hs ++ []) (cs ++ []) (fs ++ fs')) by (eapply built_add; eauto).
    rewrite !app_nil_r in B2. destruct (C02_insertion_order s2 hs cs (fs ++ fs') s hs cs fs B2 B (Permutation_refl _) (Permutation_refl _)) as (_ & I & K & _).
    apply look_layout; [exact K|exact I|]. eapply same_get_hp; [apply built_ok; exact B|apply built_ok; exact B2|tauto].
  Qed.
  (** a hyperparameter that keeps its position is read as before *)
  Theorem C121_unmoved s hs cs fs hs' cs' fs' s2 m o h : built s hs cs fs -> Forall constructed hs' -> Forall cond_built cs' -> Forall forb_built fs' ->
    add s hs' cs' fs' = (s2, Ok tt) -> In h hs -> assoc (hp_name h) (index_of s2) = assoc (hp_name h) (index_of s) ->
    o_read s2 m o (hp_name h) = o_read s m o (hp_name h).
  Proof.
    intros B F1 F2 F3 A Hh I. assert (B2 := built_add _ _ _ _ _ _ _ _ B F1 F2 F3 A). apply built_ok in B. apply built_ok in B2.
    unfold o_read. rewrite I. rewrite (proj2 (so_get_hp B (hp_name h) h) (conj Hh eq_refl)).
    rewrite (proj2 (so_get_hp B2 (hp_name h) h) (conj (in_or_app _ _ _ (or_introl Hh)) eq_refl)). reflexivity.
  Qed.
  (** the position of a hyperparameter: how many are before it *)
  Lemma position s hs cs fs n i : space_ok s hs cs fs -> assoc n (index_of s) = Some i ->
    i = length (filter (fun k => key_ltb (depth_of (d_nodes (s_dag s)) k, k) (depth_of (d_nodes (s_dag s)) n, n)) (keys s)).
  Proof.
    intros O H. apply (so_index O) in H. destruct (nth_error_split _ _ H) as (l1 & l2 & E1 & L1).
    assert (P := fun a b => so_order O a b). rewrite E1 in *. rewrite filter_app. simpl.
    assert (T : key_ltb (depth_of (d_nodes (s_dag s)) n, n) (depth_of (d_nodes (s_dag s)) n, n) = false).
    { destruct (key_ltb _ _) eqn:Ek; [|reflexivity]. pose proof (key_ltb_asym _ _ Ek). congruence. }
    rewrite T, app_length. 
    assert (F1 : filter (fun k => key_ltb (depth_of (d_nodes (s_dag s)) k, k) (depth_of (d_nodes (s_dag s)) n, n)) l1 = l1).
    { clear T. apply filter_everything. intros k Hk. apply In_nth_error in Hk. destruct Hk as (j & Hj).
      assert (j < length l1) by (apply nth_error_Some; congruence). apply (P j i); [lia|rewrite nth_error_app1 by lia; exact Hj|exact H]. }
    assert (F2 : filter (fun k => key_ltb (depth_of (d_nodes (s_dag s)) k, k) (depth_of (d_nodes (s_dag s)) n, n)) l2 = []).
    { apply filter_nothing. intros k Hk. apply In_nth_error in Hk. destruct Hk as (j & Hj).
      apply key_ltb_asym. apply (P i (S i + j)); [lia|exact H|]. rewrite nth_error_app2 by lia. replace (S i + j - length l1) with (S j) by lia. exact Hj. }
    rewrite F1, F2. simpl. lia.
  Qed.

  Lemma filter_perm {A} (p : A -> bool) l l' : Permutation l l' -> Permutation (filter p l) (filter p l').
  Proof.
    induction 1 as [|x l l' _ IH|x y l|l l' l'' _ IH1 _ IH2]; simpl; [constructor|destruct (p x); [constructor|]; exact IH| |eapply perm_trans; eauto].
    destruct (p x), (p y); try apply Permutation_refl. apply perm_swap.
  Qed.
  (** hyperparameters alone: an unconditional one moves behind the new ones with a smaller name, a conditional one
      behind all of them *)
  Theorem C121_shift s hs cs fs hs' fs' s2 n i : built s hs cs fs -> Forall constructed hs' -> Forall forb_built fs' -> add s hs' [] fs' = (s2, Ok tt) ->
    assoc n (index_of s) = Some i ->
    (~ conditional cs n -> assoc n (index_of s2) = Some (i + length (filter (fun h => String.ltb (hp_name h) n) hs'))) /\
    (conditional cs n -> assoc n (index_of s2) = Some (i + length hs')).
  Proof.
    intros B F1 F3 A Hi. assert (B2 := built_add _ _ _ _ _ _ _ _ B F1 (Forall_nil _) F3 A). rewrite app_nil_r in B2.
    assert (O := built_ok _ _ _ _ B). assert (O2 := built_ok _ _ _ _ B2).
    assert (Hn : In n (keys s)) by (rewrite <- (so_index_keys O); apply assoc_Some_key; eauto).
    assert (P : Permutation (keys s2) (keys s ++ map hp_name hs')).
    { rewrite (so_keys O2), map_app. apply Permutation_app_tail. symmetry. apply (so_keys O). }
    assert (In2 : forall k, In k (keys s) -> In k (keys s2)) by (intros k Hk; eapply Permutation_in; [symmetry; exact P|apply in_or_app; left; exact Hk]).
    assert (New2 : forall h, In h hs' -> In (hp_name h) (keys s2)) by (intros h Hh; eapply Permutation_in; [symmetry; exact P|apply in_or_app; right; apply in_map; exact Hh]).
    assert (D : forall k, In k (keys s) -> depth_of (d_nodes (s_dag s2)) k = depth_of (d_nodes (s_dag s)) k).
    { intros k Hk. eapply longest_unique; [apply (so_longest O2); apply In2; exact Hk|apply (so_longest O); exact Hk]. }
    assert (ND : NoDup (keys s ++ map hp_name hs')) by (eapply Permutation_NoDup; [exact P|apply (so_nodup O2)]).
    assert (D1 : forall h, In h hs' -> depth_of (d_nodes (s_dag s2)) (hp_name h) = 1).
    { intros h Hh. apply (C04_depth s2 _ _ _ _ B2 (New2 h Hh)). intros C. assert (K : In (hp_name h) (keys s)).
      { apply (so_conditional O) in C. destruct C as (c & Hc). unfold condof in Hc. apply so_key.
        destruct (assoc (hp_name h) (d_nodes (s_dag s))) as [nd|]; [exists nd; reflexivity|discriminate]. }
      apply in_split in K. destruct K as (l1 & l2 & K). rewrite K, <- app_assoc in ND. simpl in ND. apply NoDup_remove_2 in ND. apply ND.
      apply in_or_app. right. apply in_or_app. right. apply in_map. exact Hh. }
    destruct (so_index_ex O2 n (In2 n Hn)) as (j & Hj). rewrite Hj.
    assert (Ej := position _ _ _ _ _ _ O2 Hj). rewrite (Permutation_length (filter_perm _ _ _ P)), filter_app, app_length in Ej.
    assert (Ei := position _ _ _ _ _ _ O Hi).
    assert (F : filter (fun k => key_ltb (depth_of (d_nodes (s_dag s2)) k, k) (depth_of (d_nodes (s_dag s2)) n, n)) (keys s) =
                filter (fun k => key_ltb (depth_of (d_nodes (s_dag s)) k, k) (depth_of (d_nodes (s_dag s)) n, n)) (keys s)).
    { apply filter_ext_in. intros k Hk. rewrite !D by assumption. reflexivity. }
    rewrite F, <- Ei in Ej.
    assert (M : forall p, length (filter p (map hp_name hs')) = length (filter (fun h => p (hp_name h)) hs')).
    { intros p. clear. induction hs' as [|h l IH]; simpl; [reflexivity|]. destruct (p (hp_name h)); simpl; rewrite IH; reflexivity. }
    rewrite M in Ej. split; intros C; f_equal; rewrite Ej; f_equal.
    - f_equal. apply filter_ext_in. intros h Hh. rewrite (D1 h Hh). rewrite (D n Hn). 
      rewrite (proj2 (proj2 (C04_depth s hs cs fs n B Hn)) C). unfold key_ltb. simpl. reflexivity.
    - rewrite filter_everything; [reflexivity|]. intros h Hh. rewrite (D1 h Hh), (D n Hn).
      apply key_ltb_iff. left. simpl. destruct (so_longest O n Hn) as [_ L]. specialize (L 1 (chain_one cs n)).
      assert (depth_of (d_nodes (s_dag s)) n <> 1) by (intros Q; apply (C04_depth s hs cs fs n B Hn) in Q; contradiction). lia.
  Qed.
  (** what a key that was not read yet shows afterwards: the entry at the new position, or IndexError, also from `in` *)
  Theorem C121_stale s2 hs cs fs m o h j : built s2 hs cs fs -> In h hs -> match ob_cache o with Some d => assoc (hp_name h) d | None => None end = None ->
    assoc (hp_name h) (index_of s2) = Some j ->
    (j < length (array m o) -> snd (o_read s2 m o (hp_name h)) =
       match nth j (array m o) NaN with NaN => Err KeyError | x => v <- to_value h x ;; Ok (round_value h v) end) /\
    (length (array m o) <= j -> o_read s2 m o (hp_name h) = (o, Err IndexError) /\ o_contains s2 m o (hp_name h) = (o, Err IndexError)).
  Proof.
    intros B Hh Hc Hj. apply built_ok in B. unfold o_contains, o_read. rewrite Hc, (proj2 (so_get_hp B (hp_name h) h) (conj Hh eq_refl)), Hj. split; intros L.
    - rewrite entry_nth by exact L. destruct (nth j (array m o) NaN); try reflexivity; destruct (to_value h _); reflexivity.
    - unfold entry. rewrite (proj2 (nth_error_None _ _) L). split; reflexivity.
  Qed.
  (** a space with more hyperparameters than the configuration has entries: it can no longer be iterated, converted,
      printed, compared or hashed *)
  Theorem C121_iteration s2 hs cs fs m o : built s2 hs cs fs -> length (array m o) < s_len s2 ->
    o_iter s2 m o = Err IndexError /\ o_dict s2 m o = (o, Err IndexError).
  Proof.
    intros B L. assert (K : o_iter s2 m o = Err IndexError); [|split; [exact K|unfold o_dict; rewrite K; reflexivity]].
    apply built_ok in B. unfold o_iter.
    assert (M : forall (f : string -> res (list string)) ks, (forall k, In k ks -> (exists x, f k = Ok x) \/ f k = Err IndexError) -> (exists k, In k ks /\ f k = Err IndexError) ->
      mapM f ks = Err IndexError).
    { intros f. induction ks as [|k ks IH]; intros H1 (k0 & H2 & H3); [destruct H2|]. simpl. destruct (H1 k (or_introl eq_refl)) as [(x & Hx)|Hx]; rewrite Hx; [|reflexivity].
      simpl. rewrite IH; [reflexivity|intros y Hy; apply H1; right; exact Hy|]. exists k0. split; [|exact H3]. destruct H2 as [->|H2]; [congruence|exact H2]. }
    rewrite M; [reflexivity| |].
    - intros k Hk. destruct (so_index_ex B k Hk) as (i & Hi). rewrite Hi. unfold entry. destruct (nth_error (array m o) i); simpl; eauto.
    - rewrite <- (so_keys_len B) in L. apply nth_error_Some in L. destruct (nth_error (keys s2) (length (array m o))) as [k|] eqn:Ek; [|congruence].
      exists k. split; [eapply nth_error_In; eauto|]. apply (so_index B) in Ek. rewrite Ek. unfold entry.
      rewrite (proj2 (nth_error_None _ _) (Nat.le_refl _)). reflexivity.
  Qed.
  (** a configuration made from values goes on reading these values, whatever becomes of the space *)
  Theorem C121_given s hs cs fs m vals allow m' o h w s2 m2 : built s hs cs fs -> o_of_values s m vals allow = (m', Ok o) ->
    In h hs -> given vals (hp_name h) = Some w -> o_read s2 m2 o (hp_name h) = (o, Ok (round_value h w)).
  Proof.
    intros B H Hh Hw. unfold o_of_values in H. destruct (config_of_values s vals allow) as [c|e] eqn:Ec; [|discriminate].
    assert (O := built_ok _ _ _ _ B). apply (config_of_values_ok O) in Ec. destruct Ec as (_ & _ & vec & cache & _ & F & _ & ->). inversion H; subst.
    destruct F as (_ & F & _). specialize (F h Hh). rewrite Hw in F. destruct F as [_ F]. unfold o_read. simpl. rewrite F. reflexivity.
  Qed.
End Life.

(** ** Cases *)
Section Witness.
  #[local] Existing Instance rat_env.
  #[local] Existing Instance rat_env_laws.
  Definition start_b := fst (add empty_space [bin "b"] [] []).
  Definition then_a := fst (add start_b [bin "a"] [] []).
  Definition then_c := fst (add start_b [bin "c"] [] []).
  Lemma start_b_built : built start_b [bin "b"] [] [].
  Proof. apply (built_step empty_space [] [] [] [bin "b"] [] [] built_empty); [constructor; [apply bin_c|constructor]|constructor|constructor|vm_compute; reflexivity]. Qed.
  Lemma then_a_built : built then_a [bin "b"; bin "a"] [] [].
  Proof. apply (built_step start_b [bin "b"] [] [] [bin "a"] [] [] start_b_built); [constructor; [apply bin_c|constructor]|constructor|constructor|vm_compute; reflexivity]. Qed.
  Definition pq := fst (add empty_space [bin "p"; bin "q"] [] []).
  Definition p_if_q := [on "1" "p" "q"].
  Definition pq_if := fst (add pq [] p_if_q []).
  Lemma pq_built : built pq [bin "p"; bin "q"] [] [].
  Proof. apply (built_step empty_space [] [] [] [bin "p"; bin "q"] [] [] built_empty); [repeat (constructor; [apply bin_c|]); constructor|constructor|constructor|vm_compute; reflexivity]. Qed.
  Lemma p_if_q_c : Forall cond_built p_if_q.
  Proof. constructor; [|constructor]. apply (CB_bin OpEq (bin "p") (bin "q") (VStr "1") _ (bin_c _) (bin_c _)); vm_compute; reflexivity. Qed.

  (** the space gets a hyperparameter with a smaller name: the new key shows the entry of the old one, and the old one
      raises IndexError, even for `in` *)
  Theorem C121_refuted : exists s hs s2 hs' m o, built s hs [] [] /\ Forall constructed hs' /\ add s hs' [] [] = (s2, Ok tt) /\ fits s m o /\
    snd (o_read s m o "b") = Ok (VStr "0") /\ snd (o_contains s m o "a") = Ok false /\
    snd (o_read s2 m o "a") = Ok (VStr "0") /\ snd (o_read s2 m o "b") = Err IndexError /\ snd (o_contains s2 m o "b") = Err IndexError.
  Proof.
    exists start_b, [bin "b"], then_a, [bin "a"], [[Fin 0]], (mk_obj 0 None false).
    split; [apply start_b_built|]. split; [constructor; [apply bin_c|constructor]|]. split; [vm_compute; reflexivity|].
    split; [split; vm_compute; [constructor|reflexivity]|]. repeat split; vm_compute; reflexivity.
  Qed.
  (** the space gets a condition: two hyperparameters change places, and so do the values that are read, without any
      exception *)
  Theorem C121_conditions_refuted : exists s hs s2 cs' m o, built s hs [] [] /\ Forall cond_built cs' /\ add s [] cs' [] = (s2, Ok tt) /\ fits s m o /\
    snd (o_dict s m o) = Ok [("p", VStr "0"); ("q", VStr "1")]%string /\ snd (o_dict s2 m o) = Ok [("q", VStr "0"); ("p", VStr "1")]%string.
  Proof.
    exists pq, [bin "p"; bin "q"], pq_if, p_if_q, [[Fin 0; Fin 1]], (mk_obj 0 None false).
    split; [apply pq_built|]. split; [apply p_if_q_c|]. split; [vm_compute; reflexivity|].
    split; [split; vm_compute; [constructor|reflexivity]|]. split; vm_compute; reflexivity.
  Qed.
  (** the array that a configuration hands out, or was made from, is written to: what was read before stays, what was
      not read yet changes, and a configuration made from values no longer fits its array, without any exception *)
  Theorem C122_refuted : exists s hs m vals m' o x, built s hs [] [] /\ o_of_values s m vals false = (m', Ok o) /\
    let m2 := poke m' (ob_arr o) 0 x in
    snd (o_read s m2 o "p") = Ok (VStr "0") /\ check_configuration s (array m2 o) false = Ok tt /\
    snd (o_read s m2 (mk_obj (ob_arr o) None false) "p") = Ok (VStr "1").
  Proof.
    exists pq, [bin "p"; bin "q"], [], [("p", Some (VStr "0")); ("q", Some (VStr "1"))]%string, [[Fin 0; Fin 1]], (mk_obj 0 (Some [("p", VStr "0"); ("q", VStr "1")]%string) false), (Fin 1).
    split; [apply pq_built|]. split; [vm_compute; reflexivity|]. repeat split; vm_compute; reflexivity.
  Qed.
  Theorem C122_shared_refuted : exists s hs m a o1 o2, built s hs [] [] /\ o_of_array s m a false = Ok o1 /\ o_of_array s m a false = Ok o2 /\
    let m2 := poke m a 0 (Fin 1) in
    let o3 := fst (o_read s m o1 "p") in
    snd (o_read s m o1 "p") = Ok (VStr "0") /\ snd (o_read s m2 o3 "p") = Ok (VStr "0") /\ snd (o_read s m2 o2 "p") = Ok (VStr "1").
  Proof.
    exists pq, [bin "p"; bin "q"], [[Fin 0; Fin 1]], 0, (mk_obj 0 None false), (mk_obj 0 None false).
    split; [apply pq_built|]. repeat split; vm_compute; reflexivity.
  Qed.
  (** reads in between, of present and absent keys *)
  Example C120_ex : exists o l, looks pq_if [[Fin 0; NaN]] (mk_obj 0 None false) [LRead "q"; LContains "p"; LDict; LRead "p"; LRead "q"] = (o, l) /\
    o <> mk_obj 0 None false /\ nth 4 l (AKeys (Ok [])) = AValue (Ok (VStr "0")) /\ length (array [[Fin 0; NaN]] (mk_obj 0 None false)) = s_len pq_if.
  Proof. eexists. eexists. split; [vm_compute; reflexivity|]. split; [discriminate|]. split; reflexivity. Qed.
  (** two configurations made from one array; one of them is assigned to *)
  Example C122_ex : exists m' os' rs, deeds pq [[Fin 0; Fin 1]] [mk_obj 0 None false; mk_obj 0 None false]
      [(0, DLook (LRead "p")); (0, DSet "p" (VStr "1")); (1, DLook (LRead "p")); (0, DLook (LRead "p")); (1, DSet "q" (VStr "7"))] = (m', os', rs) /\
    those 0 rs = [RLook (AValue (Ok (VStr "0"))); RSet (Ok tt); RLook (AValue (Ok (VStr "1")))] /\
    those 1 rs = [RLook (AValue (Ok (VStr "0"))); RSet (Err IllegalValueError)] /\ forall o, In o [mk_obj 0 None false; mk_obj 0 None false] -> fits pq [[Fin 0; Fin 1]] o.
  Proof.
    eexists. eexists. eexists. split; [vm_compute; reflexivity|]. split; [vm_compute; reflexivity|]. split; [vm_compute; reflexivity|].
    intros o [<-|[<-|[]]]; (split; [vm_compute; constructor|vm_compute; reflexivity]).
  Qed.
  Example C121_ex : add start_b [bin "c"] [] [] = (then_c, Ok tt) /\ ~ conditional [] "b" /\ assoc "b"%string (index_of start_b) = Some 0 /\ assoc "b"%string (index_of then_c) = Some 0 /\
    assoc "b"%string (index_of then_a) = Some 1 /\ snd (o_dict then_a [[Fin 0]] (mk_obj 0 None false)) = Err IndexError.
  Proof. split; [vm_compute; reflexivity|]. split; [intros (c & [] & _)|]. repeat split; vm_compute; reflexivity. Qed.
  Example C121_given_ex : exists m' o, o_of_values start_b [] [("b", Some (VStr "1"))]%string false = (m', Ok o) /\ snd (o_read then_a m' o "b") = Ok (VStr "1").
  Proof. eexists. eexists. split; vm_compute; reflexivity. Qed.
  (** a clause added afterwards *)
  Definition no_b := get_or dummy_forb (mk_feq (bin "b") (VStr "0")).
  Example C121_clauses_ex : forb_built no_b /\ snd (add start_b [] [] [no_b]) = Ok tt.
  Proof. split; [apply (FB_eq (bin "b") (VStr "0")); [apply bin_c|vm_compute; reflexivity]|vm_compute; reflexivity]. Qed.
End Witness.
