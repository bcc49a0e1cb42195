(** * Facts about the list, dictionary and sorting helpers of Base.v *)
From Coq Require Import String Ascii List ZArith Bool Lia Permutation Sorted RelationClasses.
From Verif Require Import Base.
Import ListNotations.
Open Scope nat_scope.

(** ** String order *)
Lemma ascii_compare_trans_lt a b c :
  Ascii.compare a b = Lt -> Ascii.compare b c = Lt -> Ascii.compare a c = Lt.
Proof. unfold Ascii.compare. rewrite !N.compare_lt_iff. lia. Qed.

Lemma ascii_compare_refl a : Ascii.compare a a = Eq.
Proof. unfold Ascii.compare. apply N.compare_refl. Qed.

Lemma str_compare_refl s : String.compare s s = Eq.
Proof. induction s as [|a s IH]; simpl; [reflexivity|]. rewrite ascii_compare_refl. exact IH. Qed.

Lemma str_compare_trans_lt : forall s t u,
  String.compare s t = Lt -> String.compare t u = Lt -> String.compare s u = Lt.
Proof.
  induction s as [|a s IH]; intros [|b t] [|c u]; simpl; try discriminate; try reflexivity.
  destruct (Ascii.compare a b) eqn:E1; try discriminate;
  destruct (Ascii.compare b c) eqn:E2; try discriminate; intros H1 H2.
  - apply Ascii.compare_eq_iff in E1, E2. subst. rewrite ascii_compare_refl. eauto.
  - apply Ascii.compare_eq_iff in E1. subst. rewrite E2. reflexivity.
  - apply Ascii.compare_eq_iff in E2. subst. rewrite E1. reflexivity.
  - rewrite (ascii_compare_trans_lt _ _ _ E1 E2). reflexivity.
Qed.

Lemma str_ltb_lt s t : String.ltb s t = true <-> String.compare s t = Lt.
Proof. unfold String.ltb. destruct (String.compare s t); split; congruence. Qed.

Lemma str_ltb_irrefl s : String.ltb s s = false.
Proof. unfold String.ltb. rewrite str_compare_refl. reflexivity. Qed.

Lemma str_ltb_trans s t u : String.ltb s t = true -> String.ltb t u = true -> String.ltb s u = true.
Proof. rewrite !str_ltb_lt. apply str_compare_trans_lt. Qed.

Lemma str_ltb_total s t : String.ltb s t = false -> String.ltb t s = false -> s = t.
Proof.
  unfold String.ltb. rewrite (String.compare_antisym t s).
  destruct (String.compare s t) eqn:E; simpl; try discriminate.
  intros _ _. apply String.compare_eq_iff. exact E.
Qed.

Lemma str_ltb_asym s t : String.ltb s t = true -> String.ltb t s = false.
Proof.
  intros H. destruct (String.ltb t s) eqn:E; [|reflexivity].
  rewrite <- (str_ltb_irrefl s). symmetry. eapply str_ltb_trans; eauto.
Qed.

(** ** Membership of strings *)
Lemma str_in_iff n l : str_in n l = true <-> In n l.
Proof.
  unfold str_in. rewrite existsb_exists. split.
  - intros (x & Hx & E). apply String.eqb_eq in E. subst. exact Hx.
  - intros H. exists n. split; [exact H|apply String.eqb_refl].
Qed.
Lemma str_in_false n l : str_in n l = false <-> ~ In n l.
Proof.
  rewrite <- str_in_iff. destruct (str_in n l); split; congruence.
Qed.

Lemma nub_aux_In l : forall seen n, In n (nub_aux seen l) <-> In n l /\ ~ In n seen.
Proof.
  induction l as [|a l IH]; intros seen n; simpl; [tauto|].
  destruct (str_in a seen) eqn:E.
  - apply str_in_iff in E. rewrite IH. split; [tauto|]. intros [[->|H] Hn]; tauto.
  - apply str_in_false in E. simpl. rewrite IH. simpl. split.
    + intros [->|[H Hn]]; [tauto|]. split; [tauto|]. tauto.
    + intros [[->|H] Hn]; [tauto|].
      destruct (string_dec a n) as [->|D]; [tauto|]. right. tauto.
Qed.
Lemma nub_In l n : In n (nub l) <-> In n l.
Proof. unfold nub. rewrite nub_aux_In. simpl. tauto. Qed.
Lemma nub_aux_NoDup l : forall seen, NoDup (nub_aux seen l).
Proof.
  induction l as [|a l IH]; intros seen; simpl; [constructor|].
  destruct (str_in a seen); [apply IH|]. constructor; [|apply IH].
  rewrite nub_aux_In. simpl. tauto.
Qed.
Lemma nub_NoDup l : NoDup (nub l).
Proof. apply nub_aux_NoDup. Qed.

(** ** Dictionaries *)
Section AssocFacts.
  Context {A : Type}.
  Implicit Types d : list (string * A).

  Lemma assoc_In n a d : assoc n d = Some a -> In (n, a) d.
  Proof.
    induction d as [|[m b] d IH]; simpl; [discriminate|].
    destruct (String.eqb n m) eqn:E.
    - apply String.eqb_eq in E. intros [= ->]. subst. auto.
    - auto.
  Qed.
  Lemma assoc_None n d : assoc n d = None <-> ~ In n (map fst d).
  Proof.
    induction d as [|[m b] d IH]; simpl; [tauto|].
    destruct (String.eqb n m) eqn:E.
    - apply String.eqb_eq in E. subst. split; [discriminate|tauto].
    - apply String.eqb_neq in E. rewrite IH. intuition congruence.
  Qed.
  Lemma assoc_Some_key n d : In n (map fst d) <-> exists a, assoc n d = Some a.
  Proof.
    destruct (assoc n d) eqn:E.
    - split; [eauto|]. intros _. apply assoc_In in E. apply (in_map fst) in E. exact E.
    - apply assoc_None in E. split; [tauto|]. intros (a & Ha). discriminate.
  Qed.
  Lemma assoc_mem_iff n d : assoc_mem n d = true <-> In n (map fst d).
  Proof.
    unfold assoc_mem. rewrite assoc_Some_key. destruct (assoc n d); split; eauto.
    - discriminate.
    - intros (a & Ha). discriminate.
  Qed.
  Lemma In_assoc n a d : NoDup (map fst d) -> In (n, a) d -> assoc n d = Some a.
  Proof.
    induction d as [|[m b] d IH]; simpl; [tauto|]. intros ND [H|H].
    - injection H as -> ->. rewrite String.eqb_refl. reflexivity.
    - inversion ND as [|x l Hx ND']; subst. destruct (String.eqb n m) eqn:E.
      + apply String.eqb_eq in E. subst. apply (in_map fst) in H. tauto.
      + auto.
  Qed.
  Lemma assoc_app n d d' :
    assoc n (d ++ d') = match assoc n d with Some a => Some a | None => assoc n d' end.
  Proof.
    induction d as [|[m b] d IH]; simpl; [reflexivity|].
    destruct (String.eqb n m); [reflexivity|exact IH].
  Qed.
  Lemma assoc_set_same n a d : assoc n (assoc_set n a d) = Some a.
  Proof.
    induction d as [|[m b] d IH]; simpl.
    - rewrite String.eqb_refl. reflexivity.
    - destruct (String.eqb n m) eqn:E; simpl; rewrite E; [reflexivity|exact IH].
  Qed.
  Lemma assoc_set_other n m a d : n <> m -> assoc n (assoc_set m a d) = assoc n d.
  Proof.
    intros D. apply String.eqb_neq in D. induction d as [|[k b] d IH]; simpl.
    - rewrite D. reflexivity.
    - destruct (String.eqb m k) eqn:E; simpl.
      + apply String.eqb_eq in E. subst. rewrite D. reflexivity.
      + destruct (String.eqb n k); [reflexivity|exact IH].
  Qed.
  Lemma assoc_set_keys n a d :
    map fst (assoc_set n a d) = if assoc_mem n d then map fst d else map fst d ++ [n].
  Proof.
    unfold assoc_mem. induction d as [|[m b] d IH]; simpl; [reflexivity|].
    destruct (String.eqb n m) eqn:E; simpl; [reflexivity|].
    rewrite IH. destruct (assoc n d); reflexivity.
  Qed.
  Lemma assoc_set_In_keys n a d m : In m (map fst (assoc_set n a d)) <-> m = n \/ In m (map fst d).
  Proof.
    rewrite assoc_set_keys. destruct (assoc_mem n d) eqn:E.
    - apply assoc_mem_iff in E. split; [tauto|]. intros [->|H]; auto.
    - rewrite in_app_iff. simpl. intuition.
  Qed.
  Lemma assoc_set_NoDup n a d : NoDup (map fst d) -> NoDup (map fst (assoc_set n a d)).
  Proof.
    intros ND. rewrite assoc_set_keys. destruct (assoc_mem n d) eqn:E; [exact ND|].
    apply (Permutation_NoDup (l := n :: map fst d)).
    - apply Permutation_cons_append.
    - constructor; [|exact ND]. intros H. apply assoc_mem_iff in H. congruence.
  Qed.
  Lemma assoc_perm n d d' :
    NoDup (map fst d) -> Permutation d d' -> assoc n d = assoc n d'.
  Proof.
    intros ND P. destruct (assoc n d) eqn:E.
    - apply assoc_In in E. symmetry. apply In_assoc.
      + eapply Permutation_NoDup; [|exact ND]. apply Permutation_map. exact P.
      + eapply Permutation_in; eauto.
    - symmetry. apply assoc_None. apply assoc_None in E. intros H. apply E.
      eapply Permutation_in; [|exact H]. apply Permutation_map. symmetry. exact P.
  Qed.
End AssocFacts.

Lemma assoc_map {A B} (f : A -> B) n (d : list (string * A)) :
  assoc n (map (fun e => (fst e, f (snd e))) d) = option_map f (assoc n d).
Proof.
  induction d as [|[m b] d IH]; simpl; [reflexivity|].
  destruct (String.eqb n m); [reflexivity|exact IH].
Qed.

Lemma assoc_mapk {A B} (f : string * A -> B) n (d : list (string * A)) :
  assoc n (map (fun e => (fst e, f e)) d) = option_map (fun a => f (n, a)) (assoc n d).
Proof.
  induction d as [|[m b] d IH]; simpl; [reflexivity|].
  destruct (String.eqb n m) eqn:E; [|exact IH].
  apply String.eqb_eq in E. subst. reflexivity.
Qed.

(** index_of: names paired with their positions *)
Lemma combine_fst {A B} (l : list A) (m : list B) :
  length l = length m -> map fst (combine l m) = l.
Proof.
  revert m. induction l as [|x l IH]; intros [|y m]; simpl; try discriminate; [reflexivity|].
  intros [= H]. f_equal. auto.
Qed.

Lemma assoc_combine_seq l : forall k n i,
  NoDup l -> (assoc n (combine l (seq k (length l))) = Some i <-> (k <= i /\ nth_error l (i - k) = Some n)).
Proof.
  induction l as [|m l IH]; intros k n i ND; simpl.
  - split; [discriminate|]. intros [_ H]. destruct (i - k); discriminate.
  - inversion ND as [|x l' Hm ND']; subst. destruct (String.eqb n m) eqn:E.
    + apply String.eqb_eq in E. subst. split.
      * intros [= ->]. split; [lia|]. rewrite Nat.sub_diag. reflexivity.
      * intros [Hk H]. destruct (i - k) eqn:D; [f_equal; lia|].
        simpl in H. apply nth_error_In in H. tauto.
    + apply String.eqb_neq in E. rewrite (IH (S k) n i ND'). split.
      * intros [Hk H]. split; [lia|]. replace (i - k) with (S (i - S k)) by lia. exact H.
      * intros [Hk H]. destruct (i - k) eqn:D; simpl in H; [congruence|].
        split; [lia|]. replace (i - S k) with n0 by lia. exact H.
Qed.

Lemma assoc_combine_nth l n i :
  NoDup l -> (assoc n (combine l (seq 0 (length l))) = Some i <-> nth_error l i = Some n).
Proof.
  intros ND. rewrite assoc_combine_seq by exact ND. rewrite Nat.sub_0_r. intuition lia.
Qed.

(** ** Stable sorting *)
Section SortFacts.
  Context {A : Type} (ltb : A -> A -> bool).

  Lemma insert_perm x l : Permutation (insert_sorted ltb x l) (x :: l).
  Proof.
    induction l as [|y l IH]; simpl; [reflexivity|].
    destruct (ltb x y); [reflexivity|]. rewrite IH. apply perm_swap.
  Qed.
  Lemma sorted_fold_perm l : forall acc,
    Permutation (fold_left (fun acc x => insert_sorted ltb x acc) l acc) (l ++ acc).
  Proof.
    induction l as [|x l IH]; intros acc; simpl; [reflexivity|].
    rewrite IH, insert_perm. symmetry. apply Permutation_middle.
  Qed.
  Lemma py_sorted_perm l : Permutation (py_sorted ltb l) l.
  Proof. unfold py_sorted. rewrite sorted_fold_perm, app_nil_r. reflexivity. Qed.
  Lemma py_sorted_In x l : In x (py_sorted ltb l) <-> In x l.
  Proof.
    split; apply Permutation_in; [|symmetry]; apply py_sorted_perm.
  Qed.
  Lemma py_sorted_length l : length (py_sorted ltb l) = length l.
  Proof. apply Permutation_length, py_sorted_perm. Qed.

  (** not greater *)
  Definition leR a b : Prop := ltb b a = false.

  Hypothesis asym : forall a b, ltb a b = true -> ltb b a = false.
  (** [negb (ltb b a)] is transitive *)
  Hypothesis ntrans : forall a b c, ltb b a = false -> ltb c b = false -> ltb c a = false.

  Lemma insert_sorted_ok x l :
    StronglySorted leR l -> StronglySorted leR (insert_sorted ltb x l).
  Proof.
    induction l as [|y l IH]; simpl; intros H.
    - repeat constructor.
    - inversion H as [|z m Hs Hf]; subst. destruct (ltb x y) eqn:E.
      + constructor; [exact H|]. constructor.
        * unfold leR. auto.
        * eapply Forall_impl; [|exact Hf]. intros z Hz. unfold leR in *. eauto.
      + constructor; [auto|]. rewrite Forall_forall. intros z Hz.
        apply (Permutation_in (l' := x :: l)) in Hz; [|apply insert_perm].
        destruct Hz as [<-|Hz]; [exact E|]. rewrite Forall_forall in Hf. auto.
  Qed.
  Lemma py_sorted_sorted l : StronglySorted leR (py_sorted ltb l).
  Proof.
    unfold py_sorted. assert (H : StronglySorted leR []) by constructor.
    revert H. generalize (@nil A). induction l as [|x l IH]; simpl; intros acc H; [exact H|].
    apply IH, insert_sorted_ok, H.
  Qed.

  (** Two permutations sorted by a total order are the same list. *)
  Lemma sorted_unique l : forall m,
    (forall a b, In a l -> In b l -> ltb a b = false -> ltb b a = false -> a = b) ->
    StronglySorted leR l -> StronglySorted leR m -> Permutation l m -> l = m.
  Proof.
    induction l as [|x l IH]; intros m Htot Hl Hm P.
    - apply Permutation_nil in P. congruence.
    - destruct m as [|y m]; [symmetry in P; apply Permutation_nil in P; discriminate|].
      inversion Hl as [|? ? Hl1 Hl2]; inversion Hm as [|? ? Hm1 Hm2]; subst.
      assert (x = y) as ->.
      { assert (Hy : In y (x :: l)) by (eapply Permutation_in; [symmetry; exact P|left; reflexivity]).
        assert (Hx : In x (y :: m)) by (eapply Permutation_in; [exact P|left; reflexivity]).
        destruct Hy as [->|Hy]; [reflexivity|]. destruct Hx as [->|Hx]; [reflexivity|].
        rewrite Forall_forall in Hl2, Hm2. apply Htot; [left; reflexivity|right; exact Hy| |].
        - exact (Hm2 x Hx).
        - exact (Hl2 y Hy). }
      f_equal. apply IH; auto.
      + intros a b Ha Hb. apply Htot; right; assumption.
      + eapply Permutation_cons_inv; eauto.
  Qed.
End SortFacts.

(** ** Replacing a position *)
Lemma set_nth_length {A} i (a : A) l : length (set_nth i a l) = length l.
Proof. revert i. induction l as [|x l IH]; intros [|i]; simpl; auto. Qed.
Lemma nth_set_nth_eq {A} i (a d : A) l : i < length l -> nth i (set_nth i a l) d = a.
Proof.
  revert i. induction l as [|x l IH]; intros [|i]; simpl; intros H; try lia; [reflexivity|].
  apply IH. lia.
Qed.
Lemma nth_set_nth_ne {A} i j (a d : A) l : i <> j -> nth i (set_nth j a l) d = nth i l d.
Proof.
  revert i j. induction l as [|x l IH]; intros [|i] [|j] H; simpl; auto; congruence.
Qed.
Lemma nth_error_set_nth_ne {A} i j (a : A) l : i <> j -> nth_error (set_nth j a l) i = nth_error l i.
Proof.
  revert i j. induction l as [|x l IH]; intros [|i] [|j] H; simpl; auto; congruence.
Qed.

(** ** Computations over lists *)
Section MFacts.
  Context {A B : Type}.

  Lemma mapM_ok (f : A -> res B) l ys :
    mapM f l = Ok ys <-> Forall2 (fun x y => f x = Ok y) l ys.
  Proof.
    revert ys. induction l as [|x l IH]; intros ys; simpl.
    - split.
      + intros [= <-]. constructor.
      + intros H. inversion H. reflexivity.
    - destruct (f x) as [y|e] eqn:E; simpl.
      + destruct (mapM f l) as [zs|e] eqn:E2; simpl.
        * split.
          -- intros [= <-]. constructor; [exact E|]. apply IH. reflexivity.
          -- intros H. inversion H as [|? ? ? ? Hx Ht]; subst. apply IH in Ht. congruence.
        * split; [discriminate|]. intros H. inversion H as [|? ? ? ? Hx Ht]; subst.
          apply IH in Ht. discriminate.
      + split; [discriminate|]. intros H. inversion H. congruence.
  Qed.

  Lemma mapM_total (f : A -> res B) l :
    (forall x, In x l -> exists y, f x = Ok y) -> exists ys, mapM f l = Ok ys.
  Proof.
    induction l as [|x l IH]; simpl; intros H; [eauto|].
    destruct (H x (or_introl eq_refl)) as (y & ->). simpl.
    destruct IH as (ys & ->); [auto|]. simpl. eauto.
  Qed.

  Lemma mapM_length (f : A -> res B) l ys : mapM f l = Ok ys -> length ys = length l.
  Proof. intros H. apply mapM_ok in H. induction H; simpl; congruence. Qed.

  Lemma mapM_ext (f g : A -> res B) l :
    (forall x, In x l -> f x = g x) -> mapM f l = mapM g l.
  Proof.
    induction l as [|x l IH]; simpl; intros H; [reflexivity|].
    rewrite (H x) by auto. rewrite IH by auto. reflexivity.
  Qed.

  Lemma allM_total (f : A -> res bool) (g : A -> bool) l :
    (forall x, In x l -> f x = Ok (g x)) -> allM f l = Ok (forallb g l).
  Proof.
    induction l as [|x l IH]; simpl; intros H; [reflexivity|].
    rewrite H by auto. simpl. destruct (g x); simpl; [apply IH; auto|reflexivity].
  Qed.
  Lemma anyM_total (f : A -> res bool) (g : A -> bool) l :
    (forall x, In x l -> f x = Ok (g x)) -> anyM f l = Ok (existsb g l).
  Proof.
    induction l as [|x l IH]; simpl; intros H; [reflexivity|].
    rewrite H by auto. simpl. destruct (g x); simpl; [reflexivity|apply IH; auto].
  Qed.
End MFacts.

Lemma forallb_ext_in {A} (f g : A -> bool) l :
  (forall x, In x l -> f x = g x) -> forallb f l = forallb g l.
Proof.
  induction l as [|x l IH]; simpl; intros H; [reflexivity|].
  rewrite H, IH; auto.
Qed.
Lemma existsb_ext_in {A} (f g : A -> bool) l :
  (forall x, In x l -> f x = g x) -> existsb f l = existsb g l.
Proof.
  induction l as [|x l IH]; simpl; intros H; [reflexivity|].
  rewrite H, IH; auto.
Qed.

Lemma Forall2_in_l {A B} (R : A -> B -> Prop) l m a : Forall2 R l m -> In a l -> exists b, In b m /\ R a b.
Proof. induction 1 as [|x y l m H F IH]; intros []; [subst; exists y; simpl; auto|]. destruct IH as (b & I & Q); auto. exists b. simpl. auto. Qed.
Lemma Forall2_in_r {A B} (R : A -> B -> Prop) l m b : Forall2 R l m -> In b m -> exists a, In a l /\ R a b.
Proof. induction 1 as [|x y l m H F IH]; intros []; [subst; exists x; simpl; auto|]. destruct IH as (a & I & Q); auto. exists a. simpl. auto. Qed.
