(** * Properties C90, C91: arguments of add(), and spaces of bounded floats *)
From Coq Require Import String Ascii List ZArith QArith Bool Lia Permutation Sorted Decimal DecimalString DecimalZ.
From Verif Require Import Base ListFacts Numeric NumericProofs HP HPProofs Properties_HP Cond Forb Dag DagProofs Space
  CommitProofs Spec SpaceProofs Fix Serial Properties_Graph Properties_Eval Properties_Ctor Properties_Args Api Properties_Exchange Properties_Api Properties_Serial Ex Put.
Import ListNotations.
Open Scope nat_scope.
Open Scope list_scope.

Section Put.
  Context {E : Env} {L : EnvLaws E}.

  (** ** Specification: the items without the nesting *)
  Fixpoint leaves (a : item) : list item :=
    match a with
    | AIter l => (fix go (l : list item) : list item := match l with [] => [] | a :: l' => leaves a ++ go l' end) l
    | a => [a]
    end.
  Definition all_leaves (args : list item) : list item := concat (map leaves args).
  (** what an item that is no declaration raises *)
  Definition bad (a : item) : option err :=
    match a with
    | AStr s => if String.eqb s "" then None else Some RuntimeError
    | ARaise e => Some e
    | AOther => Some TypeError
    | _ => None
    end.
  Definition hp_of (a : item) : list hp := match a with AHp h => [h] | _ => [] end.
  Definition cond_of (a : item) : list cond := match a with ACond c => [c] | _ => [] end.
  Definition forb_of (a : item) : list fclause := match a with AForb f => [f] | _ => [] end.
  Definition first_bad (ls : list item) : option err := hd_error (concat (map (fun a => match bad a with Some e => [e] | None => [] end) ls)).

  Fixpoint go_put (l : list item) (st : lists) : res lists := match l with [] => Ok st | a :: l' => st' <- put a st ;; go_put l' st' end.
  Lemma item_ind' (P : item -> Prop) : (forall h, P (AHp h)) -> (forall c, P (ACond c)) -> (forall f, P (AForb f)) ->
    (forall l, Forall P l -> P (AIter l)) -> (forall s, P (AStr s)) -> (forall e, P (ARaise e)) -> P AOther -> forall a, P a.
  Proof.
    intros H1 H2 H3 H4 H5 H6 H7. fix rec 1. intros [h|c|f|l|s|e|]; [apply H1|apply H2|apply H3| |apply H5|apply H6|exact H7].
    apply H4. induction l as [|a l IH]; constructor; [apply rec|exact IH].
  Qed.
  Lemma go_app l m : forall st, go_put (l ++ m) st = (st' <- go_put l st ;; go_put m st').
  Proof. induction l as [|a l IH]; intros st; [reflexivity|]. change ((a :: l) ++ m) with (a :: (l ++ m)). cbn [go_put]. destruct (put a st); cbn [bind]; [apply IH|reflexivity]. Qed.
  Lemma leaves_iter l : leaves (AIter l) = all_leaves l.
  Proof. unfold all_leaves. induction l as [|a l IH]; [reflexivity|]. cbn [map concat]. rewrite <- IH. reflexivity. Qed.
  Lemma put_leaves a : forall st, put a st = go_put (leaves a) st.
  Proof.
    induction a as [h|c|f|l IH|s|e|] using item_ind'; intros st; try reflexivity; try (destruct s; reflexivity).
    change (put (AIter l) st) with (go_put l st). rewrite leaves_iter. unfold all_leaves. revert st.
    induction IH as [|a l Ha Hl IHl]; intros st; [reflexivity|]. cbn [map concat go_put]. rewrite go_app, Ha. destruct (go_put (leaves a) st); [apply IHl|reflexivity].
  Qed.
  Definition flat_item (a : item) : Prop := match a with AIter _ => False | _ => True end.
  Lemma leaves_flat a : Forall flat_item (leaves a).
  Proof.
    induction a as [h|c|f|l IH|s|e|] using item_ind'; try (constructor; [exact I|constructor]). rewrite leaves_iter. unfold all_leaves.
    induction IH as [|a l Ha Hl IHl]; [constructor|]. cbn [map concat]. apply Forall_app. auto.
  Qed.
  Lemma go_flat ls : Forall flat_item ls -> forall st, go_put ls st =
    match first_bad ls with
    | Some e => Err e
    | None => Ok (mk_lists (p_hps st ++ concat (map hp_of ls)) (p_conds st ++ concat (map cond_of ls)) (p_forbs st ++ concat (map forb_of ls)))
    end.
  Proof.
    induction 1 as [|a ls Fa Fl IH]; intros st.
    - cbn. rewrite !app_nil_r. destruct st; reflexivity.
    - unfold first_bad in *. destruct a as [h|c|f|l|s|e|]; try destruct Fa; cbn [go_put put bind bad map concat hp_of cond_of forb_of app]; try reflexivity;
        try (rewrite IH; cbn [p_hps p_conds p_forbs]; rewrite <- app_assoc; reflexivity).
      destruct s as [|c s]; cbn [String.eqb app bind]; [rewrite IH; reflexivity|reflexivity].
  Qed.

  (** C90: nesting does not matter; only declarations are added, and the rest raises before anything is *)
  Theorem C90_add x args :
    add_args x args =
    match first_bad (all_leaves args) with
    | Some e => (x, Err e)
    | None => c_add x (concat (map hp_of (all_leaves args))) (concat (map cond_of (all_leaves args))) (concat (map forb_of (all_leaves args)))
    end.
  Proof.
    unfold add_args. rewrite put_leaves, leaves_iter, go_flat; [|rewrite <- leaves_iter; apply leaves_flat].
    destruct (first_bad (all_leaves args)); reflexivity.
  Qed.
  (** so the order of items of different kinds does not matter either *)
  Theorem C90_order x args args' : first_bad (all_leaves args) = first_bad (all_leaves args') ->
    concat (map hp_of (all_leaves args)) = concat (map hp_of (all_leaves args')) ->
    concat (map cond_of (all_leaves args)) = concat (map cond_of (all_leaves args')) ->
    concat (map forb_of (all_leaves args)) = concat (map forb_of (all_leaves args')) -> add_args x args = add_args x args'.
  Proof. intros Q1 Q2 Q3 Q4. rewrite !C90_add, Q1, Q2, Q3, Q4. reflexivity. Qed.

  (** ** C91: bounds *)
  Lemma z_str_inj a b : z_str a = z_str b -> a = b.
  Proof.
    unfold z_str. intros H. apply DecimalZ.to_int_inj. assert (K := f_equal NilZero.int_of_string H). rewrite !NilZero.isi in K.
    - congruence.
    - destruct b as [|p|p]; cbn; try discriminate; unfold Pos.to_uint; intro Q; injection Q as Q; revert Q; apply DecimalPos.Unsigned.to_uint_nonnil.
    - destruct b as [|p|p]; cbn; try discriminate; unfold Pos.to_uint; intro Q; injection Q as Q; revert Q; apply DecimalPos.Unsigned.to_uint_nonnil.
    - destruct a as [|p|p]; cbn; try discriminate; unfold Pos.to_uint; intro Q; injection Q as Q; revert Q; apply DecimalPos.Unsigned.to_uint_nonnil.
    - destruct a as [|p|p]; cbn; try discriminate; unfold Pos.to_uint; intro Q; injection Q as Q; revert Q; apply DecimalPos.Unsigned.to_uint_nonnil.
  Qed.

  Definition bound_range (b : Q * Q) : Prop := float_range (fst b) (snd b) false.
  Definition bound_hp (i : nat) (b : Q * Q) (h : hp) : Prop := mk_uniform_float (x_name i) (fst b) (snd b) None false None = Ok h.
  Definition items_from (k : nat) (bounds : list (Q * Q)) : list item :=
    map (fun ib => match mk_uniform_float (x_name (fst ib)) (fst (snd ib)) (snd (snd ib)) None false None with
                   | Ok h => AHp h
                   | Err e => ARaise e
                   end) (combine (seq k (length bounds)) bounds).
  Lemma made_iff i b : (exists h, bound_hp i b h) <-> bound_range b.
  Proof.
    unfold bound_hp, bound_range. rewrite C77_uniform_float. split; [intros [H _]; exact H|]. intros H. split; [exact H|]. intros d K. discriminate.
  Qed.
  Lemma items_cases bounds : forall k,
    (exists hs, items_from k bounds = map AHp hs /\ Forall2 (fun ib h => bound_hp (fst ib) (snd ib) h) (combine (seq k (length bounds)) bounds) hs /\ Forall bound_range bounds) \/
    (first_bad (all_leaves (items_from k bounds)) = Some ValueError /\ ~ Forall bound_range bounds).
  Proof.
    induction bounds as [|b bounds IH]; intros k.
    - left. exists []. split; [reflexivity|]. split; constructor.
    - unfold items_from in *. cbn [length seq combine map fst snd]. destruct (mk_uniform_float (x_name k) (fst b) (snd b) None false None) as [h|e] eqn:Q.
      + assert (R : bound_range b) by (apply (made_iff k); exists h; exact Q). destruct (IH (S k)) as [(hs & Q1 & Q2 & Q3)|[Q1 Q2]].
        * left. exists (h :: hs). rewrite Q1. split; [reflexivity|]. split; constructor; assumption.
        * right. split; [|intros K; inversion K; auto]. unfold all_leaves, first_bad in *. cbn [map concat leaves]. exact Q1.
      + right. apply C77_uniform_float_raises in Q. destruct Q as [-> Q]. split; [reflexivity|].
        intros K. inversion K as [|? ? R _]. unfold bound_range in R. destruct Q as [Q|Q]; [auto|]. apply Q. intros d D. discriminate.
  Qed.
  Lemma hps_leaves hs : all_leaves (map AHp hs) = map AHp hs /\ first_bad (map AHp hs) = None /\ concat (map hp_of (map AHp hs)) = hs /\
    concat (map cond_of (map AHp hs)) = [] /\ concat (map forb_of (map AHp hs)) = [].
  Proof.
    unfold all_leaves, first_bad. induction hs as [|h hs (H1 & H2 & H3 & H4 & H5)]; [repeat split|]. cbn [map concat leaves hp_of cond_of forb_of bad].
    rewrite H3, H4, H5. split; [|split; [exact H2|auto]]. change ([AHp h] ++ concat (map leaves (map AHp hs)) = AHp h :: map AHp hs). rewrite H1. reflexivity.
  Qed.
  Lemma one_iter l : all_leaves [AIter l] = all_leaves l.
  Proof. unfold all_leaves at 1. cbn [map concat]. rewrite leaves_iter. apply app_nil_r. Qed.
  Lemma from_bounds_cases x bounds :
    (exists hs, from_bounds x bounds = c_add x hs [] [] /\ Forall2 (fun ib h => bound_hp (fst ib) (snd ib) h) (combine (seq 0 (length bounds)) bounds) hs /\ Forall bound_range bounds) \/
    (from_bounds x bounds = (x, Err ValueError) /\ ~ Forall bound_range bounds).
  Proof.
    unfold from_bounds. rewrite C90_add, one_iter. change (bound_items bounds) with (items_from 0 bounds).
    destruct (items_cases bounds 0) as [(hs & Q1 & Q2 & Q3)|[Q1 Q2]].
    - left. exists hs. rewrite Q1. destruct (hps_leaves hs) as (H1 & H2 & H3 & H4 & H5). rewrite H1, H2, H3, H4, H5. auto.
    - right. rewrite Q1. auto.
  Qed.
  Lemma bound_names bounds : forall k hs, Forall2 (fun ib h => bound_hp (fst ib) (snd ib) h) (combine (seq k (length bounds)) bounds) hs ->
    map hp_name hs = map x_name (seq k (length bounds)) /\ Forall constructed hs.
  Proof.
    induction bounds as [|b bounds IH]; intros k hs H; inversion H as [|? h ? hs' Hb Hr]; subst; [repeat constructor|].
    destruct (IH (S k) hs' Hr) as [N C]. cbn [length seq map]. split.
    - rewrite N. destruct (C61_uniform_float _ _ _ _ _ _ _ Hb) as [[-> _] _]. reflexivity.
    - constructor; [|exact C]. eapply CtorUFloat. exact Hb.
  Qed.
  Lemma x_name_inj i j : x_name i = x_name j -> i = j.
  Proof. unfold x_name. intros H. injection H as H. apply z_str_inj in H. lia. Qed.
  Lemma x_names_nodup n : NoDup (map x_name (seq 0 n)).
  Proof. apply FinFun.Injective_map_NoDup; [intros i j; apply x_name_inj|apply seq_NoDup]. Qed.

  (** every list of ranges gives a space ... *)
  Theorem C91_space name meta bounds : (exists x, from_bounds (new_space name meta) bounds = (x, Ok tt)) <-> Forall bound_range bounds.
  Proof.
    destruct (from_bounds_cases (new_space name meta) bounds) as [(hs & Q1 & Q2 & Q3)|[Q1 Q2]].
    - rewrite Q1. split; [auto|]. intros _. destruct (bound_names _ _ _ Q2) as [N C]. apply (plain_add name meta hs C). rewrite N. apply x_names_nodup.
    - rewrite Q1. split; [intros (x & K); discriminate|]. intros K. contradiction.
  Qed.
  (** ... with one uniform float for each bound ... *)
  Theorem C91_result name meta bounds x : from_bounds (new_space name meta) bounds = (x, Ok tt) ->
    s_len (c_space x) = length bounds /\ conditions (c_space x) = [] /\ forbidden_clauses (c_space x) = [] /\
    forall i lower upper, nth_error bounds i = Some (lower, upper) ->
      exists h lo hi m, get_hp (c_space x) (x_name i) = Some h /\ hp_name h = x_name i /\ hp_kind h = KFloat lo hi false DUniform /\ hp_default h = VFloat m /\
        near13 lower lo /\ near13 upper hi /\ near13 ((lo + hi) / 2) m.
  Proof.
    intros H. destruct (from_bounds_cases (new_space name meta) bounds) as [(hs & Q1 & Q2 & Q3)|[Q1 Q2]]; [|congruence].
    rewrite Q1 in H. destruct (bound_names _ _ _ Q2) as [N C].
    assert (CB : cbuilt x hs [] []) by exact (cb_add _ _ _ _ _ hs [] [] (cb_new name meta) C (Forall_nil _) (Forall_nil _) H).
    assert (B := cbuilt_built _ _ _ _ CB). assert (O := built_ok _ _ _ _ B). destruct (C03_keys _ _ _ _ B) as (_ & _ & Hl & _).
    split; [rewrite Hl; rewrite <- (map_length hp_name hs), N, map_length, seq_length; reflexivity|].
    split. { destruct (conditions (c_space x)) as [|c cs] eqn:Qc; [reflexivity|]. exfalso. assert (K : In c (conditions (c_space x))) by (rewrite Qc; left; reflexivity).
      destruct (proj1 (C58_partial _ _ _ _ B) c K) as (n & _ & c0 & [] & _). }
    split. { apply Permutation_nil. symmetry. apply (di_forb _ _ _ _ (so_inv _ _ _ _ O)). }
    intros i lower upper Hi. assert (G : forall k bs hs0, Forall2 (fun ib h => bound_hp (fst ib) (snd ib) h) (combine (seq k (length bs)) bs) hs0 ->
      forall j b, nth_error bs j = Some b -> exists h, In h hs0 /\ bound_hp (k + j) b h).
    { intros k bs. revert k. induction bs as [|b bs IH]; intros k hs0 F j b0 Hj; [destruct j; discriminate|]. inversion F as [|? h ? hs' Hb Hr]; subst.
      destruct j as [|j]; cbn [nth_error] in Hj.
      - injection Hj as <-. exists h. split; [left; reflexivity|]. rewrite Nat.add_0_r. exact Hb.
      - destruct (IH (S k) hs' Hr j b0 Hj) as (h0 & H1 & H2). exists h0. split; [right; exact H1|]. rewrite Nat.add_succ_r. exact H2. }
    destruct (G 0 bounds hs Q2 i _ Hi) as (h & Hh & Hm). destruct (C61_uniform_float _ _ _ _ _ _ _ Hm) as [[Nm _] (lo & hi & m & K1 & K2 & K3 & K4 & _ & K5)].
    change (0 + i) with i in Nm. exists h, lo, hi, m. split; [apply (so_get_hp O); auto|]. cbn [fst snd] in *. auto 8.
  Qed.

  (** ... and otherwise add() raises and the space is as before *)
  Theorem C91_raises x bounds : ~ Forall bound_range bounds -> from_bounds x bounds = (x, Err ValueError).
  Proof. intros N. destruct (from_bounds_cases x bounds) as [(hs & _ & _ & Q3)|[Q1 _]]; [contradiction|exact Q1]. Qed.

  Lemma ss_weaken {A} (R S : A -> A -> Prop) l : (forall a b, R a b -> S a b) -> StronglySorted R l -> StronglySorted S l.
  Proof. intros H. induction 1 as [|a l Hl IH F]; constructor; [exact IH|]. eapply Forall_impl; [|exact F]. auto. Qed.
  Lemma nth_sorted {A} (R : A -> A -> Prop) l : (forall i j a b, i < j -> nth_error l i = Some a -> nth_error l j = Some b -> R a b) -> StronglySorted R l.
  Proof.
    induction l as [|x l IH]; intros H; constructor.
    - apply IH. intros i j a b Hij Ha Hb. apply (H (S i) (S j)); [lia|exact Ha|exact Hb].
    - apply Forall_forall. intros y Hy. apply In_nth_error in Hy. destruct Hy as (j & Hj). apply (H 0 (S j)); [lia|reflexivity|exact Hj].
  Qed.
  Lemma digit_sorted n : n <= 10 -> StronglySorted (fun a b => String.ltb a b = true) (map x_name (seq 0 n)).
  Proof.
    intros Hn. do 11 (destruct n as [|n]; [vm_compute; repeat (constructor; [|repeat (constructor; [reflexivity|]); constructor]); constructor|]). lia.
  Qed.
  (** The order of the hyperparameters is that of their names. The documentation does not say so, but
      users take entry i of the vector for bound i: right for at most ten bounds. *)
  Theorem C91_position_partial name meta bounds x i : from_bounds (new_space name meta) bounds = (x, Ok tt) -> length bounds <= 10 ->
    i < length bounds -> nth_error (at_ (c_space x)) i = Some (x_name i) /\ assoc (x_name i) (index_of (c_space x)) = Some i.
  Proof.
    intros H Hn Hi. destruct (from_bounds_cases (new_space name meta) bounds) as [(hs & Q1 & Q2 & Q3)|[Q1 Q2]]; [|congruence].
    rewrite Q1 in H. destruct (bound_names _ _ _ Q2) as [N C].
    assert (CB : cbuilt x hs [] []) by exact (cb_add _ _ _ _ _ hs [] [] (cb_new name meta) C (Forall_nil _) (Forall_nil _) H).
    assert (B := cbuilt_built _ _ _ _ CB). assert (O := built_ok _ _ _ _ B). destruct (C03_keys _ _ _ _ B) as (Nd & Pk & _).
    assert (K : keys (c_space x) = map x_name (seq 0 (length bounds))).
    { rewrite N in Pk. apply (sorted_unique String.ltb).
      - intros a b _ _ La Lb. apply str_ltb_total; assumption.
      - assert (So : StronglySorted (fun a b => String.ltb a b = true) (keys (c_space x))).
        { apply nth_sorted. intros a b p q Hab Ha Hb. destruct (C01_order _ _ _ _ a b p q B Hab Ha Hb) as (d1 & d2 & D1 & D2 & D).
          assert (One : forall m d, longest [] m d -> d = 1). { intros m d [Hc _]. inversion Hc as [|? ? ? ? (c & [] & _)]; reflexivity. }
          rewrite (One _ _ D1), (One _ _ D2) in D. destruct D as [D|[_ D]]; [lia|exact D]. }
        eapply ss_weaken; [|exact So]. intros a b Hab. apply str_ltb_asym, Hab.
      - eapply ss_weaken; [|exact (digit_sorted _ Hn)]. intros a b Hab. apply str_ltb_asym, Hab.
      - exact Pk. }
    assert (Nx : nth_error (keys (c_space x)) i = Some (x_name i)).
    { rewrite K. apply map_nth_error. rewrite (nth_error_nth' _ 0) by (rewrite seq_length; exact Hi). rewrite seq_nth by exact Hi. reflexivity. }
    split; [rewrite (so_at O); exact Nx|apply (so_index O), Nx].
  Qed.
End Put.

Section Witness.
  #[local] Existing Instance rat_env.
  #[local] Existing Instance rat_env_laws.

  Definition nested := [AIter [AForb fA; AIter [ACond cB; AStr ""]; AHp hA]; AHp hB].
  Example C90_case : nested <> [AHp hA; AHp hB; ACond cB; AForb fA] /\ first_bad (all_leaves nested) = None /\
    add_args (new_space None None) nested = c_add (new_space None None) [hA; hB] [cB] [fA] /\ snd (add_args (new_space None None) nested) = Ok tt /\
    add_args (new_space None None) [AHp hA; AIter [AOther]] = (new_space None None, Err TypeError) /\
    add_args (new_space None None) [AHp hA; AStr "hA"] = (new_space None None, Err RuntimeError).
  Proof. split; [discriminate|]. split; [reflexivity|]. split; [reflexivity|]. split; [vm_compute; reflexivity|]. split; reflexivity. Qed.

  Definition three := [(0, 1); (1, 2); (-1, 5 # 2)]%Q.
  Example C91_case : Forall bound_range three /\ (exists x, from_bounds (new_space None None) three = (x, Ok tt)) /\
    from_bounds (new_space None None) [(0, 1); (2, 2)]%Q = (new_space None None, Err ValueError).
  Proof.
    assert (R : Forall bound_range three) by (apply (C91_space None None); eexists; vm_compute; reflexivity).
    split; [exact R|]. split; [apply C91_space, R|]. vm_compute. reflexivity.
  Qed.
  (** with eleven bounds entry 2 of the vector is for bound 10 *)
  Theorem C91_position_refuted : exists bounds x, from_bounds (new_space None None) bounds = (x, Ok tt) /\ length bounds = 11 /\
    nth_error (at_ (c_space x)) 2 = Some (x_name 10) /\ x_name 10 <> x_name 2.
  Proof.
    exists (map (fun k => (0, inject_Z (Z.of_nat k)))%Q (seq 1 11)). eexists. split; [vm_compute; reflexivity|]. split; [reflexivity|].
    split; [vm_compute; reflexivity|]. vm_compute. discriminate.
  Qed.
End Witness.
