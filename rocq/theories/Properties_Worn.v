(** * What deserialising does to its input (C53) *)
From Coq Require Import String List ZArith QArith Bool Lia.
From Verif Require Import Base ListFacts Numeric HP Cond Forb Dag Space Spec Ex Serial Properties_Serial Properties_Json Properties_Load.
Import ListNotations.
Open Scope string_scope.
Open Scope list_scope.

(** [x] after some of the keys [ks] were dropped or set, in it and in the items of its lists *)
Inductive worn (ks : list string) : data -> data -> Prop :=
| worn_same x : worn ks x x
| worn_item d d' :
    (forall k l, ~ In k ks -> assoc k d = Some (DList l) -> exists l', assoc k d' = Some (DList l') /\ Forall2 (worn ks) l l') ->
    (forall k, ~ In k ks -> (forall l, assoc k d <> Some (DList l)) -> assoc k d' = assoc k d) ->
    worn ks (DDict d) (DDict d').

Section Worn.
  Context {E : Env} {L : EnvLaws E}.

  Lemma worn_all ks l : Forall2 (worn ks) l l.
  Proof. induction l; constructor; [constructor|assumption]. Qed.
  Lemma worn_keys ks d d' : (forall k, ~ In k ks -> assoc k d' = assoc k d) -> worn ks (DDict d) (DDict d').
  Proof. intros H. apply worn_item; [|intros k Hk _; apply (H k Hk)]. intros k l Hk Q. exists l. split; [rewrite (H k Hk); exact Q|apply worn_all]. Qed.
  Lemma worn_type d : worn ["type"] (DDict d) (DDict (dremove "type" d)).
  Proof. apply worn_keys. intros k Hk. apply dremove_other. intros ->. apply Hk. left. reflexivity. Qed.
  Lemma collect_worn {X} ks (f : data -> data * res X) l : (forall x, In x l -> worn ks x (fst (f x))) -> Forall2 (worn ks) l (fst (collect l (map f l))).
  Proof.
    induction l as [|x l IH]; intros H; [constructor|]. cbn [map collect]. assert (Hx := H x (or_introl eq_refl)).
    destruct (f x) as [x' [a|e]]; cbn [fst] in *.
    - assert (Hl := IH (fun y Hy => H y (or_intror Hy))). destruct (collect l (map f l)) as [l' r]. cbn [fst] in *. constructor; assumption.
    - constructor; [exact Hx|apply worn_all].
  Qed.
  Lemma conj_worn {X} (f : data -> data * res X) (mk : list X -> res X) k d : k <> "type" ->
    (forall l x, In (k, DList l) d -> In x l -> worn ["type"] x (fst (f x))) ->
    worn ["type"] (DDict d) (fst (dec_conj mk k (match assoc k (map (fun e : string * data => match e with (k, DList l) => (k, (l, map f l)) | (k, _) => (k, ([], [])) end) d) with
                        | Some r => r | None => ([], []) end) (dremove "type" d))).
  Proof.
    intros N G. unfold dec_conj. rewrite subs_found, (dremove_other "type" k d N). destruct (assoc k d) as [[v|l|m]|] eqn:Q; try apply worn_type.
    cbn [fst snd]. assert (C := collect_worn ["type"] f l (fun x => G l x (assoc_in _ _ _ Q))). destruct (collect l (map f l)) as [l' r]. cbn [fst] in *.
    assert (O : forall n, ~ In n ["type"] -> n <> k -> assoc n (assoc_set k (DList l') (dremove "type" d)) = assoc n d).
    { intros n Hn Nk. rewrite assoc_set_other by exact Nk. apply dremove_other. intros ->. apply Hn. left. reflexivity. }
    apply worn_item.
    - intros n m Hn Qn. destruct (string_dec n k) as [->|Nk].
      + rewrite assoc_set_same. exists l'. split; [reflexivity|]. assert (m = l) by congruence. subst m. exact C.
      + exists m. split; [rewrite (O n Hn Nk); exact Qn|apply worn_all].
    - intros n Hn Hl. apply O; [exact Hn|]. intros ->. exact (Hl l Q).
  Qed.

  Lemma cond_worn s : forall x, worn ["type"] x (fst (dec_cond s x)) /\ (forall l, x = DList l -> Forall (fun y => worn ["type"] y (fst (dec_cond s y))) l).
  Proof.
    intros x. induction x as [v|l IH|d IH] using data_ind2.
    - split; [constructor|discriminate].
    - split; [constructor|]. intros l' [= <-]. rewrite Forall_forall in *. intros y Hy. apply (IH y Hy).
    - split; [|discriminate]. rewrite Forall_forall in IH.
      assert (G : forall l y, In ("conditions", DList l) d -> In y l -> worn ["type"] y (fst (dec_cond s y))).
      { intros l y Hl Hy. assert (F := proj2 (IH _ Hl) l eq_refl). rewrite Forall_forall in F. exact (F y Hy). }
      cbn [dec_cond]. destruct (assoc "type" d) as [[[ty| | | |]| |]|]; try apply worn_type.
      repeat (match goal with |- context [if (ty =? ?t) then _ else _] => destruct (ty =? t) end; [first [apply worn_type|apply conj_worn; [discriminate|exact G]]|]). apply worn_type.
  Qed.
  Lemma forb_worn s : forall x, worn ["type"] x (fst (dec_forb s x)) /\ (forall l, x = DList l -> Forall (fun y => worn ["type"] y (fst (dec_forb s y))) l).
  Proof.
    intros x. induction x as [v|l IH|d IH] using data_ind2.
    - split; [constructor|discriminate].
    - split; [constructor|]. intros l' [= <-]. rewrite Forall_forall in *. intros y Hy. apply (IH y Hy).
    - split; [|discriminate]. rewrite Forall_forall in IH.
      assert (G : forall l y, In ("clauses", DList l) d -> In y l -> worn ["type"] y (fst (dec_forb s y))).
      { intros l y Hl Hy. assert (F := proj2 (IH _ Hl) l eq_refl). rewrite Forall_forall in F. exact (F y Hy). }
      cbn [dec_forb]. destruct (assoc "type" d) as [[[ty| | | |]| |]|]; try apply worn_type.
      repeat (match goal with |- context [if (ty =? ?t) then _ else _] => destruct (ty =? t) end; [first [apply worn_type|apply conj_worn; [discriminate|exact G]]|]). apply worn_type.
  Qed.
  (** the keys that the decoders of hyperparameters drop or set *)
  Definition hp_keys : list string := ["type"; "q"; "default"; "default_value"; "probabilities"].
  Lemma hp_worn x : worn hp_keys x (fst (dec_hp x)).
  Proof.
    destruct x as [v|l|d]; try constructor. unfold dec_hp.
    assert (T : worn hp_keys (DDict d) (DDict (dremove "type" d))).
    { apply worn_keys. intros k Hk. apply dremove_other. intros ->. apply Hk. left. reflexivity. }
    destruct (assoc "type" d) as [[[ty| | | |]| |]|]; try exact T. destruct (hp_decoder ty); [|exact T]. cbn [fst]. apply worn_keys. intros k Hk.
    unfold hp_keys in Hk. cbn [In] in Hk. assert (N : k <> "type" /\ k <> "q" /\ k <> "default" /\ k <> "default_value" /\ k <> "probabilities") by (repeat split; intros ->; apply Hk; tauto).
    destruct N as (N1 & N2 & N3 & N4 & N5). unfold hp_compat, backwards_compat.
    destruct (assoc "default" _) as [y|]; [destruct (is_none y)|]; destruct (ty =? "categorical");
      rewrite ?(dremove_other "probabilities"), ?assoc_set_other, ?(dremove_other "default"), ?(dremove_other "q"), ?(dremove_other "type") by assumption; reflexivity.
  Qed.

  Lemma put_list_get k l d : assoc k d <> None -> assoc k (put_list k l d) = Some (DList l).
  Proof.
    intros H. unfold put_list. destruct (assoc_mem k d) eqn:M; [apply assoc_set_same|]. exfalso. apply H.
    destruct (assoc k d) eqn:Q; [|reflexivity]. unfold assoc_mem in M. rewrite Q in M. discriminate.
  Qed.

  (** C53: whether the call returns or raises, the three lists keep their items, in order, and an item keeps all entries but its
      type and, for a hyperparameter, those of the older formats; so do the items inside conjunctions *)
  Theorem C53_items_partial d k l : assoc k d = Some (DList l) -> In k ["hyperparameters"; "conditions"; "forbiddens"] ->
    exists l', assoc k (fst (from_serialized d)) = Some (DList l') /\
      Forall2 (worn (if k =? "hyperparameters" then hp_keys else ["type"])) l l'.
  Proof.
    intros A Hk. assert (R : forall d', assoc k d' = assoc k d -> exists l', assoc k d' = Some (DList l') /\
      Forall2 (worn (if k =? "hyperparameters" then hp_keys else ["type"])) l l').
    { intros d' Q. exists l. split; [congruence|apply worn_all]. }
    unfold from_serialized. destruct (get_name d); [|apply R; reflexivity]. destruct (get_list "hyperparameters" d) as [lh|] eqn:Eh; [|apply R; reflexivity].
    destruct (get_list "conditions" d) as [lc|] eqn:Ec; [|apply R; reflexivity]. destruct (get_list "forbiddens" d) as [lf|] eqn:Ef; [|apply R; reflexivity].
    assert (Ch := collect_worn hp_keys dec_hp lh (fun x _ => hp_worn x)). destruct (collect lh (map dec_hp lh)) as [lh' rh]. cbn [fst] in Ch.
    set (d1 := put_list "hyperparameters" lh' d).
    assert (D1 : forall n, n <> "hyperparameters" -> assoc n d1 = assoc n d) by (intros n Hn; apply put_list_other, Hn).
    assert (W1 : k = "hyperparameters" -> exists l', assoc k d1 = Some (DList l') /\ Forall2 (worn (if k =? "hyperparameters" then hp_keys else ["type"])) l l').
    { intros ->. exists lh'. split; [apply put_list_get; congruence|]. unfold get_list in Eh. rewrite A in Eh. injection Eh as ->. exact Ch. }
    assert (R1 : exists l', assoc k d1 = Some (DList l') /\ Forall2 (worn (if k =? "hyperparameters" then hp_keys else ["type"])) l l').
    { destruct (string_dec k "hyperparameters") as [Q|Q]; [apply W1, Q|apply R, D1, Q]. }
    destruct rh as [hs|e]; [|exact R1]. destruct (c_add _ hs [] []) as [x1 [[]|e]]; [|exact R1].
    assert (Cc := collect_worn ["type"] (dec_cond (c_space x1)) lc (fun x _ => proj1 (cond_worn _ x))). destruct (collect lc _) as [lc' rc]. cbn [fst] in Cc.
    set (d2 := put_list "conditions" lc' d1).
    assert (D2 : forall n, n <> "conditions" -> assoc n d2 = assoc n d1) by (intros n Hn; apply put_list_other, Hn).
    assert (R2 : exists l', assoc k d2 = Some (DList l') /\ Forall2 (worn (if k =? "hyperparameters" then hp_keys else ["type"])) l l').
    { destruct (string_dec k "conditions") as [->|Q]; [|rewrite (D2 k Q); exact R1]. exists lc'. split; [apply put_list_get; rewrite D1 by discriminate; congruence|].
      unfold get_list in Ec. rewrite A in Ec. injection Ec as ->. exact Cc. }
    destruct rc as [cs|e]; [|exact R2].
    assert (Cf := collect_worn ["type"] (dec_forb (c_space x1)) lf (fun x _ => proj1 (forb_worn _ x))). destruct (collect lf _) as [lf' rf]. cbn [fst] in Cf.
    assert (R3 : exists l', assoc k (put_list "forbiddens" lf' d2) = Some (DList l') /\ Forall2 (worn (if k =? "hyperparameters" then hp_keys else ["type"])) l l').
    { destruct (string_dec k "forbiddens") as [->|Q].
      - exists lf'. split; [apply put_list_get; rewrite D2, D1 by discriminate; congruence|]. unfold get_list in Ef. rewrite A in Ef. injection Ef as ->. exact Cf.
      - rewrite (put_list_other "forbiddens" k) by exact Q. exact R2. }
    destruct rf as [fs|e]; [|exact R3]. destruct (c_add x1 [] cs fs) as [x2 r2]. exact R3.
  Qed.
End Worn.

Section Witness.
  #[local] Existing Instance rat_env.
  (** the second hyperparameter is of no known type: it has lost its type, the third is as before *)
  Definition constant_item (n : string) : data := DDict [("type", DVal (VStr "constant")); ("name", DVal (VStr n)); ("value", DVal (VInt 1))].
  Definition odd_item : data := DDict [("type", DVal (VStr "odd")); ("name", DVal (VStr "b"))].
  Definition odd_dict : dict_t := [("hyperparameters", DList [constant_item "a"; odd_item; constant_item "c"])].
  Example C53_items_case : snd (from_serialized odd_dict) = Err ValueError /\
    fst (from_serialized odd_dict) =
      [("hyperparameters", DList [DDict [("name", DVal (VStr "a")); ("value", DVal (VInt 1))]; DDict [("name", DVal (VStr "b"))]; constant_item "c"])].
  Proof. split; vm_compute; reflexivity. Qed.
End Witness.
