(** * Property C135: configurations sampled together are independent *)
From Coq Require Import String List ZArith QArith Qround Bool Lia Lqa Permutation Relations.
From Verif Require Import Base ListFacts Numeric HP HPProofs Properties_HP Cond Forb EqFacts Dag DagProofs
  Space CommitProofs Spec SpaceProofs CnodeProofs ForbProofs EvalProofs ForbEval MergeProofs ValidProofs ConfigProofs
  ChangeProofs PassProofs ReadProofs SampleProofs Ex Properties_Eval Properties_Config Properties_Change Properties_Sample
  Dist DistProofs Properties_Dist Properties_Size Properties_Array Properties_Reach Properties_Mass Properties_Chance.
Import ListNotations.
Open Scope nat_scope.

(** ** What is to be shown *)

(** each element satisfies its predicate *)
Fixpoint all2 {A} (qs : list (A -> bool)) (l : list A) : bool :=
  match qs, l with
  | [], [] => true
  | q :: qs', x :: l' => (q x && all2 qs' l')%bool
  | _, _ => false
  end.
Definition qprod (l : list Q) : Q := fold_right Qmult 1%Q l.

(** [blocks] are the columns of random numbers of the rounds; round [r] uses the first ones of its block *)
Definition together {E : Env} (s : space) (fuel : nat) (qs : list (list fval -> bool)) (blocks : list (list (list fval))) : bool :=
  match sample_configuration fuel s (fun r i j => nth i (nth j (nth r blocks []) []) NaN) (Some (Z.of_nat (length qs))) with
  | Ok ks => all2 qs (map c_vector ks)
  | Err _ => false
  end.
(** one column gives a configuration whose vector satisfies [q] *)
Definition column_gives {E : Env} (s : space) (q : list fval -> bool) (v : list fval) : bool :=
  match sample_round s 1 (map (fun x => [x]) v) with Ok [u] => q u | _ => false end.
(** the law of the blocks of [fuel] rounds *)
Definition blocks_law (ls : list (list (fval * Q))) (m fuel : nat) : list (list (list (list fval)) * Q) :=
  independent (repeat (independent (repeat (independent ls) m)) fuel).

(** ** Draws with rejection *)
(** the chance, given that of rejecting a column, that of [n] columns exactly [t] are kept (divided by the [t]-th power of that of keeping
    one), that at least [t] are, and that [need] are kept in at most [fuel] rounds *)
Section Numbers.
  Context (z : Q) (size : nat -> nat).
  Fixpoint kex (n t : nat) : Q :=
    match n, t with
    | O, O => 1
    | O, S _ => 0
    | S n', O => z * kex n' O
    | S n', S t' => z * kex n' (S t') + kex n' t'
    end%Q.
  Fixpoint kat (n t : nat) : Q :=
    match n, t with
    | _, O => 1
    | O, S _ => 0
    | S n', S t' => z * kat n' (S t') + kat n' t'
    end%Q.
  Fixpoint sumto (n : nat) (f : nat -> Q) : Q := match n with O => 0 | S k => f k + sumto k f end%Q.
  Fixpoint krun (fuel need : nat) : Q :=
    if Nat.eqb need 0 then 1 else
    match fuel with
    | O => 0
    | S f => sumto need (fun t => kex (size need) t * krun f (need - t)) + kat (size need) need
    end%Q.
End Numbers.

Section Draws.
  Context {C V : Type} (l : list (C * Q)) (keep1 : C -> list V) (size : nat -> nat) (M : nat).
  Hypothesis (Tl : (total l == 1)%Q) (K1 : forall c q, In (c, q) l -> keep1 c = [] \/ exists u, keep1 c = [u]).
  Definition hit (q : V -> bool) (c : C) : bool := match keep1 c with [u] => q u | _ => false end.
  Definition miss (c : C) : bool := match keep1 c with [] => true | _ => false end.
  Notation z := (chance l miss).
  Notation kex := (kex z).
  Notation kat := (kat z).
  Notation krun := (krun z size).
  Definition qp (qs : list (V -> bool)) : Q := qprod (map (fun q => chance l (hit q)) qs).

  Lemma first_columns n m p : n <= m -> (chance (independent (repeat l m)) (fun b => p (firstn n b)) == chance (independent (repeat l n)) p)%Q.
  Proof.
    revert m p. induction n as [|n IH]; intros m p H.
    - cbn [repeat independent]. rewrite (chance_ext _ _ (fun _ => p [])) by (intros; reflexivity).
      destruct (p []) eqn:P; [|rewrite chance_never; cbn; rewrite P; ring].
      fold (total (independent (repeat l m))). rewrite total_independent by (intros k Hk; apply repeat_spec in Hk; subst k; exact Tl). cbn. rewrite P. ring.
    - destruct m as [|m]; [lia|]. cbn [repeat]. rewrite !chance_cons. apply esum_ext. intros x q _. cbn [firstn]. apply (IH m (fun v => p (x :: v))). lia.
  Qed.

  (** exactly these are kept *)
  Lemma exactly n : forall qs, (chance (independent (repeat l n)) (fun cols => all2 qs (concat (map keep1 cols))) == kex n (length qs) * qp qs)%Q.
  Proof.
    induction n as [|n IH]; intros qs.
    - cbn [repeat independent]. destruct qs; cbn; unfold qp; cbn; ring.
    - cbn [repeat]. rewrite chance_cons.
      rewrite (esum_ext l _ (fun c => ((if miss c then 1 else 0) * (kex n (length qs) * qp qs) +
         match qs with [] => 0 | q :: qs' => (if hit q c then 1 else 0) * (kex n (length qs') * qp qs') end)%Q)).
      + rewrite esum_plus, esum_scale, <- chance_esum. destruct qs as [|q qs].
        * rewrite (esum_ext l _ (fun c => ((if (fun _ => false) c then 1 else 0) * 0)%Q)) by (intros; ring). rewrite esum_scale. cbn [length kex]. ring.
        * rewrite esum_scale, <- chance_esum. cbn [length kex]. unfold qp. cbn [map qprod fold_right]. fold (qprod (map (fun q => chance l (hit q)) qs)). ring.
      + intros c r Hc. cbn [map concat]. change (miss c) with (match keep1 c with [] => true | _ => false end). unfold hit. destruct (K1 c r Hc) as [K|(u & K)]; rewrite K.
        * cbn [app]. rewrite IH. destruct qs; ring.
        * cbn [app]. destruct qs as [|q qs]; [rewrite (chance_ext _ _ (fun _ => false)) by reflexivity; rewrite chance_never; ring|].
          cbn [all2]. destruct (q u); cbn [andb]; [rewrite IH; ring|rewrite chance_never; ring].
  Qed.

  (** at least these are kept *)
  Fixpoint starts (qs : list (V -> bool)) (vs : list V) : bool :=
    match qs, vs with
    | [], _ => true
    | q :: qs', v :: vs' => (q v && starts qs' vs')%bool
    | _ :: _, [] => false
    end.
  Lemma at_least n : forall qs, (chance (independent (repeat l n)) (fun cols => starts qs (concat (map keep1 cols))) == kat n (length qs) * qp qs)%Q.
  Proof.
    assert (T1 : forall n, (chance (independent (repeat l n)) (fun _ => true) == 1)%Q).
    { intro k. apply total_independent. intros m Hm. apply repeat_spec in Hm. subst m. exact Tl. }
    induction n as [|n IH]; intros qs; destruct qs as [|q qs].
    - cbn. unfold qp. cbn. ring.
    - cbn. ring.
    - rewrite (chance_ext _ _ (fun _ => true)) by reflexivity. rewrite T1. cbn. unfold qp. cbn. ring.
    - cbn [repeat]. rewrite chance_cons.
      rewrite (esum_ext l _ (fun c => ((if miss c then 1 else 0) * (kat n (S (length qs)) * qp (q :: qs)) + (if hit q c then 1 else 0) * (kat n (length qs) * qp qs))%Q)).
      + rewrite esum_plus, !esum_scale, <- !chance_esum. cbn [length kat]. unfold qp. cbn [map qprod fold_right]. fold (qprod (map (fun q => chance l (hit q)) qs)). ring.
      + intros c r Hc. cbn [map concat]. change (miss c) with (match keep1 c with [] => true | _ => false end). unfold hit. destruct (K1 c r Hc) as [K|(u & K)]; rewrite K; cbn [app].
        * rewrite (IH (q :: qs)). cbn [length]. ring.
        * cbn [starts]. destruct (q u); cbn [andb]; [rewrite IH; ring|rewrite chance_never; ring].
  Qed.

  (** the rounds *)
  Fixpoint run (blocks : list (list C)) (need : nat) : option (list V) :=
    if Nat.eqb need 0 then Some [] else
    match blocks with
    | [] => None
    | b :: bs =>
        let new := concat (map keep1 (firstn (size need) b)) in
        if Nat.leb need (length new) then Some (firstn need new) else option_map (app new) (run bs (need - length new))
    end.
  Definition run_is (qs : list (V -> bool)) (blocks : list (list C)) : bool :=
    match run blocks (length qs) with Some vs => all2 qs vs | None => false end.

  Lemma all2_len (qs : list (V -> bool)) vs : all2 qs vs = true -> length vs = length qs.
  Proof. revert vs. induction qs as [|q qs IH]; intros [|v vs] H; try discriminate; [reflexivity|]. cbn in *. apply andb_true_iff in H. f_equal. apply IH, H. Qed.
  Lemma all2_app (qs : list (V -> bool)) : forall vs ws, length vs <= length qs ->
    all2 qs (vs ++ ws) = (all2 (firstn (length vs) qs) vs && all2 (skipn (length vs) qs) ws)%bool.
  Proof.
    induction qs as [|q qs IH]; intros [|v vs] ws H; try reflexivity; try (cbn in H; lia). cbn. rewrite IH by (cbn in H; lia). apply andb_assoc.
  Qed.
  Lemma starts_first (qs : list (V -> bool)) : forall vs, length qs <= length vs -> all2 qs (firstn (length qs) vs) = starts qs vs.
  Proof. induction qs as [|q qs IH]; intros [|v vs] H; try reflexivity; try (cbn in H; lia). cbn. rewrite IH by (cbn in H; lia). reflexivity. Qed.
  Lemma starts_len (qs : list (V -> bool)) : forall vs, length vs < length qs -> starts qs vs = false.
  Proof. induction qs as [|q qs IH]; intros [|v vs] H; try reflexivity; try (cbn in H; lia). cbn. rewrite IH by (cbn in H; lia). apply andb_false_r. Qed.
  Lemma sumto_ext n f g : (forall t, t < n -> (f t == g t)%Q) -> (sumto n f == sumto n g)%Q.
  Proof. induction n as [|n IH]; intros H; cbn; [reflexivity|]. rewrite (H n) by lia. rewrite IH by (intros; apply H; lia). reflexivity. Qed.
  Lemma sumto_scale n f k : (sumto n (fun t => f t * k) == sumto n f * k)%Q.
  Proof. induction n as [|n IH]; cbn; [ring|]. rewrite IH. ring. Qed.
  Lemma esum_sumto {X} (m : list (X * Q)) n f : (esum m (fun x => sumto n (f x)) == sumto n (fun t => esum m (fun x => f x t)))%Q.
  Proof.
    induction n as [|n IH]; cbn; [induction m as [|[x q] m IHm]; cbn; [reflexivity|]; fold (esum m (fun _ => 0%Q)); rewrite IHm; ring|].
    rewrite esum_plus, IH. reflexivity.
  Qed.
  Lemma pick (qs : list (V -> bool)) (new : list V) (Y : nat -> Q) : forall n, n <= length qs ->
    (sumto n (fun t => (if all2 (firstn t qs) new then 1 else 0) * Y t) ==
     if Nat.ltb (length new) n then (if all2 (firstn (length new) qs) new then 1 else 0) * Y (length new) else 0)%Q.
  Proof.
    induction n as [|n IH]; intros H; [reflexivity|]. cbn [sumto]. rewrite IH by lia.
    destruct (all2 (firstn n qs) new) eqn:A.
    - assert (L := all2_len _ _ A). rewrite firstn_length_le in L by lia. rewrite L, Nat.ltb_irrefl, A. replace (n <? S n) with true by (symmetry; apply Nat.ltb_lt; lia). ring.
    - destruct (Nat.ltb_spec (length new) n).
      + replace (length new <? S n) with true by (symmetry; apply Nat.ltb_lt; lia). ring.
      + destruct (Nat.ltb_spec (length new) (S n)); [|ring]. replace (length new) with n in * by lia. rewrite A. ring.
  Qed.
  Lemma qp_split qs t : (qp qs == qp (firstn t qs) * qp (skipn t qs))%Q.
  Proof.
    revert t. induction qs as [|q qs IH]; intros [|t]; try (unfold qp; cbn; ring). cbn [firstn skipn]. unfold qp in *. cbn [map qprod fold_right] in *.
    fold (qprod (map (fun q => chance l (hit q)) qs)). rewrite (IH t). unfold qprod. ring.
  Qed.

  Lemma run_chance fuel : forall qs, (forall m, 0 < m <= length qs -> size m <= M) ->
    (chance (independent (repeat (independent (repeat l M)) fuel)) (run_is qs) == krun fuel (length qs) * qp qs)%Q.
  Proof.
    assert (Tm : (total (independent (repeat l M)) == 1)%Q) by (apply total_independent; intros m Hm; apply repeat_spec in Hm; subst m; exact Tl).
    induction fuel as [|fuel IH]; intros qs S.
    - cbn [repeat independent]. destruct qs; unfold run_is, qp; cbn; ring.
    - destruct (Nat.eqb_spec (length qs) 0) as [Z0|Z0].
      { destruct qs; [|discriminate]. rewrite (chance_ext _ _ (fun _ => true)) by (intros [|b bs] q _; reflexivity).
        fold (total (independent (repeat (independent (repeat l M)) (Datatypes.S fuel)))). rewrite total_independent by (intros m Hm; apply repeat_spec in Hm; subst m; exact Tm). unfold qp. cbn. ring. }
      cbn [repeat]. rewrite chance_cons. set (n := length qs) in *.
      set (new := fun b => concat (map keep1 (firstn (size n) b))).
      set (Y := fun t => chance (independent (repeat (independent (repeat l M)) fuel)) (run_is (skipn t qs))).
      rewrite (esum_ext _ _ (fun b => (sumto n (fun t => (if all2 (firstn t qs) (new b) then 1 else 0) * Y t) + (if starts qs (new b) then 1 else 0))%Q)).
      + rewrite esum_plus, esum_sumto, <- (chance_esum _ (fun b => starts qs (new b))). unfold new.
        rewrite (first_columns (size n) M (fun b => starts qs (concat (map keep1 b)))) by (apply S; lia). rewrite at_least. fold n.
        rewrite (sumto_ext n _ (fun t => (kex (size n) t * krun fuel (n - t) * qp qs)%Q)).
        * rewrite sumto_scale. cbn [krun]. destruct (Nat.eqb_spec n 0); [lia|]. ring.
        * intros t Ht. rewrite esum_scale, <- (chance_esum _ (fun b => all2 (firstn t qs) (concat (map keep1 (firstn (size n) b))))).
          rewrite (first_columns (size n) M (fun b => all2 (firstn t qs) (concat (map keep1 b)))) by (apply S; lia). rewrite exactly, firstn_length_le by (fold n; lia).
          unfold Y. rewrite IH by (rewrite skipn_length; fold n; intros m Hm; apply S; lia). rewrite skipn_length. fold n. rewrite (qp_split qs t). ring.
      + intros b r _. rewrite (pick qs (new b) Y n) by (unfold n; lia).
        rewrite (chance_ext _ _ (fun bs => if Nat.ltb (length (new b)) n then (all2 (firstn (length (new b)) qs) (new b) && run_is (skipn (length (new b)) qs) bs)%bool else starts qs (new b))).
        * destruct (Nat.ltb_spec (length (new b)) n) as [H|H].
          -- rewrite starts_len by exact H. destruct (all2 (firstn (length (new b)) qs) (new b)); cbn [andb]; [unfold Y; ring_simplify; reflexivity|rewrite chance_never; ring].
          -- destruct (starts qs (new b)); [|rewrite chance_never; ring].
             fold (total (independent (repeat (independent (repeat l M)) fuel))). rewrite total_independent by (intros m Hm; apply repeat_spec in Hm; subst m; exact Tm). ring.
        * intros bs q _. unfold run_is. cbn [run]. fold n. destruct (Nat.eqb_spec n 0); [lia|]. fold (new b).
          destruct (Nat.leb_spec n (length (new b))) as [H|H]; destruct (Nat.ltb_spec (length (new b)) n) as [H'|H']; try lia.
          -- apply starts_first. exact H.
          -- rewrite skipn_length. fold n. destruct (run bs (n - length (new b))) as [vs|]; cbn [option_map]; [|rewrite andb_false_r; reflexivity].
             apply all2_app. fold n. lia.
  Qed.
End Draws.

Section Together.
  Context {E : Env} {L : EnvLaws E}.
  Lemma chance_eq {A} (l : list (A * Q)) p p' : (forall x q, In (x, q) l -> p x = p' x) -> chance l p = chance l p'.
  Proof.
    induction l as [|[x q] l IH]; intros H; simpl; [reflexivity|]. rewrite (H x q (or_introl eq_refl)). f_equal. apply IH.
    intros y r Hy. apply (H y r). right. exact Hy.
  Qed.
  Lemma next_size_mono s m n : m <= n -> next_size s m <= next_size s n.
  Proof.
    intro H. unfold next_size. apply Nat.max_le_compat_r. assert (K : (Qfloor (mult s * mult s * inject_Z (Z.of_nat m)) <= Qfloor (mult s * mult s * inject_Z (Z.of_nat n)))%Z); [|lia].
    apply Qfloor_resp_le. rewrite (Qmult_comm _ (inject_Z (Z.of_nat m))), (Qmult_comm _ (inject_Z (Z.of_nat n))). apply Qmult_le_compat_r; [rewrite <- Zle_Qle; lia|].
    destruct (Qlt_le_dec (mult s) 0) as [G|G]; nra.
  Qed.
  Lemma in_firstn {A} (x : A) n l : In x (firstn n l) -> In x l.
  Proof. revert l. induction n as [|n IH]; intros [|y l] H; cbn in *; try contradiction. destruct H as [->|H]; auto. Qed.
  Lemma skipn_nth {A} n (l : list A) d : n < length l -> skipn n l = nth n l d :: skipn (S n) l.
  Proof. revert l. induction n as [|n IH]; intros [|y l] H; cbn in *; try lia; [reflexivity|]. apply IH. lia. Qed.

  Section Loop.
    Context {s : space} {hs : list hp} {cs : list cond} {fs : list fclause} (T : tame s hs cs fs).
    Let O : space_ok s hs cs fs := built_ok _ _ _ _ (tm_built _ _ _ _ T).
    Context (blocks : list (list (list fval))) (M : nat).
    Hypothesis (LB : forall b, In b blocks -> length b = M).
    Hypothesis (D : forall b v, In b blocks -> In v b -> length v = s_len s /\ drawn (s := s) (hs := hs) v).
    Notation draw := (fun r i j => nth i (nth j (nth r blocks []) []) NaN).

    Lemma round_block r n : r < length blocks -> n <= M ->
      sample_round s n (matrix (s := s) draw r n) = Ok (concat (map (keep (s := s)) (firstn n (nth r blocks [])))).
    Proof.
      intros Hr Hn. assert (Ib : In (nth r blocks []) blocks) by (apply nth_In; exact Hr). assert (Lb := LB _ Ib).
      destruct (matrix_rect (s := s) draw r n) as [R1 R2].
      assert (Cj : forall j, j < n -> column (matrix (s := s) draw r n) j = nth j (nth r blocks []) []).
      { intros j Hj. assert (Lj : length (nth j (nth r blocks []) []) = s_len s) by (apply (D _ _ Ib), nth_In; lia).
        apply nth_ext with (d := NaN) (d' := NaN).
        - rewrite column_length, R2. symmetry. exact Lj.
        - intros i Hi. rewrite column_length, R2 in Hi. apply matrix_column; lia. }
      rewrite (round_keep T n _ R1 R2) by (intros j Hj; rewrite (Cj j Hj); apply (D _ _ Ib), nth_In; lia). do 3 f_equal.
      apply nth_ext with (d := []) (d' := []).
      - rewrite map_length, seq_length, firstn_length. lia.
      - intros j Hj. rewrite map_length, seq_length in Hj. rewrite (nth_indep _ [] (column (matrix (s := s) draw r n) 0)) by (rewrite map_length, seq_length; exact Hj).
        rewrite (map_nth (column (matrix (s := s) draw r n))), seq_nth by exact Hj. cbn [Nat.add]. rewrite (Cj j Hj). symmetry. apply nth_firstn_lt. exact Hj.
    Qed.

    Lemma loop_run size : (forall m, 0 < m <= size -> next_size s m <= M) -> forall fuel r acc, r + fuel <= length blocks -> (forall w, In w acc -> length w = s_len s) ->
      match sample_loop fuel s draw r size (size - length acc) acc with
      | Ok vs => (forall w, In w vs -> length w = s_len s) /\
          exists rest, run (keep (s := s)) (next_size s) (firstn fuel (skipn r blocks)) (size - length acc) = Some rest /\ firstn size vs = firstn size acc ++ rest
      | Err _ => run (keep (s := s)) (next_size s) (firstn fuel (skipn r blocks)) (size - length acc) = None
      end.
    Proof.
      intro Sz. induction fuel as [|fuel IH]; intros r acc Hr La.
      - cbn [sample_loop firstn run]. destruct (Nat.leb_spec size (length acc)) as [H|H].
        + split; [exact La|]. exists []. replace (size - length acc) with 0 by lia. rewrite app_nil_r. auto.
        + destruct (Nat.eqb_spec (size - length acc) 0); [lia|reflexivity].
      - cbn [sample_loop]. destruct (Nat.leb_spec size (length acc)) as [H|H].
        { split; [exact La|]. exists []. replace (size - length acc) with 0 by lia. rewrite app_nil_r. split; [|reflexivity]. destruct (firstn _ _); reflexivity. }
        set (need := size - length acc) in *. cbv zeta. fold (matrix (s := s) draw r (next_size s need)).
        rewrite (round_block r (next_size s need)) by (try apply Sz; lia). cbn [bind].
        assert (Ib : In (nth r blocks []) blocks) by (apply nth_In; lia).
        set (new := concat (map (keep (s := s)) (firstn (next_size s need) (nth r blocks [])))).
        assert (Ln : forall u, In u new -> length u = s_len s).
        { intros u Hu. unfold new in Hu. apply in_concat in Hu. destruct Hu as (k & Hk & Hu). apply in_map_iff in Hk. destruct Hk as (v & <- & Hv).
          apply in_firstn in Hv. destruct (keep_or (s := s) v) as [K|K]; rewrite K in Hu; [destruct Hu|]. destruct Hu as [<-|[]]. rewrite prune_len. apply (D _ _ Ib Hv). }
        assert (La' : forall w, In w (acc ++ new) -> length w = s_len s) by (intros w Hw; apply in_app_or in Hw; destruct Hw; auto).
        assert (Sk : firstn (S fuel) (skipn r blocks) = nth r blocks [] :: firstn fuel (skipn (S r) blocks)).
        { rewrite (skipn_nth r blocks []) by lia. reflexivity. }
        rewrite Sk. cbn [run]. destruct (Nat.eqb_spec need 0); [lia|]. fold new.
        specialize (IH (S r) (acc ++ new) ltac:(lia) La'). rewrite app_length in *.
        replace (size - (length acc + length new)) with (need - length new) in * by lia.
        destruct (Nat.leb_spec need (length new)) as [G|G].
        + assert (Q : sample_loop fuel s draw (S r) size (need - length new) (acc ++ new) = Ok (acc ++ new)).
          { destruct fuel; cbn [sample_loop]; rewrite app_length; destruct (Nat.leb_spec size (length acc + length new)); try lia; reflexivity. }
          rewrite Q. split; [exact La'|]. exists (firstn need new). split; [reflexivity|].
          rewrite firstn_app. reflexivity.
        + destruct (sample_loop fuel s draw (S r) size (need - length new) (acc ++ new)) as [vs|e].
          * destruct IH as (Lv & rest & -> & F). split; [exact Lv|]. exists (new ++ rest). split; [reflexivity|]. rewrite F.
            rewrite firstn_app. rewrite (firstn_all2 (n := size) acc) by lia. rewrite (firstn_all2 new) by (fold need; lia). rewrite app_assoc. reflexivity.
          * rewrite IH. reflexivity.
    Qed.

    Lemma together_run fuel qs : hs <> [] -> length blocks = fuel -> (forall m, 0 < m <= length qs -> next_size s m <= M) ->
      together s fuel qs blocks = run_is (keep (s := s)) (next_size s) qs blocks.
    Proof.
      intros Ne Lf Sz. unfold together, sample_configuration.
      destruct (Nat.eqb_spec (s_len s) 0) as [Z0|Z0].
      { exfalso. destruct hs as [|h hs']; [congruence|]. apply (no_hps s (h :: hs') cs fs h O Z0). left. reflexivity. }
      cbv zeta. destruct (Z.ltb_spec (Z.of_nat (length qs)) 1) as [H|H].
      { destruct qs; [|cbn in H; lia]. unfold run_is. destruct blocks; reflexivity. }
      rewrite Nat2Z.id. assert (G := loop_run (length qs) Sz fuel 0 [] ltac:(lia) ltac:(intros w [])). cbn [length skipn] in G. rewrite Nat.sub_0_r in G.
      rewrite <- Lf, firstn_all, Lf in G. unfold run_is.
      destruct (sample_loop fuel s draw 0 (length qs) (length qs) []) as [vs|e]; cbn [bind]; [|rewrite G; reflexivity].
      destruct G as (Lv & rest & -> & F). rewrite firstn_nil in F. cbn [app] in F. subst rest.
      assert (Mm : exists ks, mapM (fun v => config_of_vector s v false) vs = Ok ks /\ map c_vector ks = vs).
      { clear - Lv. induction vs as [|v l IH]; cbn [mapM]; [exists []; auto|]. unfold config_of_vector at 1. rewrite (Lv v (or_introl eq_refl)), Nat.eqb_refl. cbn [bind].
        destruct IH as (k & -> & Q); [intros w Hw; apply Lv; right; exact Hw|]. cbn [bind]. eexists. split; [reflexivity|]. cbn. rewrite Q. reflexivity. }
      destruct Mm as (ks & -> & Q). cbn [bind]. rewrite <- firstn_map, Q. reflexivity.
    Qed.
  End Loop.

  Lemma Forall2_repeat {A B} (P : A -> B -> Prop) l b n : Forall2 P l (repeat b n) -> forall x, In x l -> P x b.
  Proof.
    intro F. remember (repeat b n) as m eqn:Q. revert n Q. induction F as [|x y l m H F IH]; intros n Q z Hz; [destruct Hz|]. destruct n; [discriminate|].
    cbn in Q. injection Q as -> ->. destruct Hz as [<-|Hz]; [exact H|]. apply (IH n eq_refl z Hz).
  Qed.
  Section Law.
    Context {s : space} {hs : list hp} {cs : list cond} {fs : list fclause} (T : tame s hs cs fs).
    Context (ls : list (list (fval * Q))) (F : fits s hs ls).
    Lemma law_drawn v q : In (v, q) (independent ls) -> length v = s_len s /\ drawn (s := s) (hs := hs) v.
    Proof. intro Hv. apply independent_in in Hv. apply (fits_drawn T ls v F Hv). Qed.
    Lemma column_hit q v r : In (v, r) (independent ls) -> column_gives s q v = hit (keep (s := s)) q v.
    Proof. intro Hv. destruct (law_drawn v r Hv) as [Lv Dv]. unfold column_gives, hit. rewrite (single_keep T v Lv Dv). reflexivity. Qed.
    Lemma column_miss v r : In (v, r) (independent ls) -> negb (accepted s v) = miss (keep (s := s)) v.
    Proof. intro Hv. destruct (law_drawn v r Hv) as [Lv Dv]. unfold accepted, miss. rewrite (single_keep T v Lv Dv). destruct (keep v); reflexivity. Qed.
    Lemma column_any v r : In (v, r) (independent ls) -> column_gives s (fun _ => true) v = accepted s v.
    Proof. intro Hv. destruct (law_drawn v r Hv) as [Lv Dv]. unfold column_gives, accepted. rewrite (single_keep T v Lv Dv). destruct (keep_or (s := s) v) as [K|K]; rewrite K; reflexivity. Qed.

    Lemma together_chance fuel qs : hs <> [] ->
      (chance (blocks_law ls (next_size s (length qs)) fuel) (together s fuel qs)
       == krun (chance (independent ls) (fun v => negb (accepted s v))) (next_size s) fuel (length qs)
          * qprod (map (fun q => chance (independent ls) (column_gives s q)) qs))%Q.
    Proof.
      intro Ne. set (M := next_size s (length qs)).
      assert (Sz : forall m, 0 < m <= length qs -> next_size s m <= M) by (intros m Hm; apply next_size_mono; lia).
      assert (K1 : forall c q, In (c, q) (independent ls) -> keep (s := s) c = [] \/ exists u, keep (s := s) c = [u]) by (intros c q _; destruct (keep_or (s := s) c); eauto).
      assert (Tl := total_independent ls (fits_total T ls F)).
      assert (R := run_chance (independent ls) (keep (s := s)) (next_size s) M Tl K1 fuel qs Sz).
      unfold blocks_law. rewrite (chance_ext _ _ (run_is (keep (s := s)) (next_size s) qs)).
      - rewrite R. rewrite (chance_eq _ _ (miss (keep (s := s))) column_miss). unfold qp.
        rewrite (map_ext (fun q => chance (independent ls) (column_gives s q)) (fun q => chance (independent ls) (hit (keep (s := s)) q))); [reflexivity|].
        intro q. apply chance_eq. intros v r Hv. apply (column_hit q v r Hv).
      - intros blocks q Hb. apply independent_in in Hb. assert (Lb := Forall2_len_eq _ _ _ Hb). rewrite repeat_length in Lb.
        assert (Hb' : forall b, In b blocks -> Forall2 (fun x l => exists q, In (x, q) l) b (repeat (independent ls) M)).
        { intros b Ib. destruct (Forall2_repeat _ _ _ _ Hb b Ib) as (r & Hr). apply (independent_in _ _ _ Hr). }
        apply (together_run T blocks M); auto.
        + intros b Ib. rewrite <- (repeat_length (independent ls) M). apply (Forall2_len_eq _ _ _ (Hb' b Ib)).
        + intros b v Ib Iv. destruct (Forall2_repeat _ _ _ _ (Hb' b Ib) v Iv) as (r & Hr). apply (law_drawn v r Hr).
    Qed.
  End Law.

  (** ** C135 *)

  (** The [k] configurations are independent, and each is as one column that is accepted: for any properties [qs] of their vectors *)
  Theorem C135_independent_partial s hs cs fs ls fuel qs : tame s hs cs fs -> hs <> [] -> fits s hs ls ->
    let m := next_size s (length qs) in let a := chance (independent ls) (accepted s) in
    (qpow a (length qs) * chance (blocks_law ls m fuel) (together s fuel qs)
     == chance (blocks_law ls m fuel) (together s fuel (map (fun _ _ => true) qs))
        * qprod (map (fun q => chance (independent ls) (column_gives s q)) qs))%Q.
  Proof.
    intros T Ne F m a. unfold m. rewrite (together_chance T ls F fuel qs Ne).
    assert (H := together_chance T ls F fuel (map (fun _ _ => true) qs) Ne). rewrite map_length in H. rewrite H. clear H. rewrite map_map.
    assert (P : (qprod (map (fun _ : list fval -> bool => chance (independent ls) (column_gives s (fun _ => true))) qs) == qpow a (length qs))%Q).
    { rewrite (chance_eq _ _ (accepted s) (column_any T ls F)). fold a. clear. induction qs as [|q qs IH]; [reflexivity|]. cbn [map qprod fold_right length qpow].
      fold (qprod (map (fun _ : list fval -> bool => a) qs)). rewrite IH. reflexivity. }
    rewrite P. ring.
  Qed.
  (** the chance that [k] configurations are returned within [fuel] rounds *)
  Theorem C135_success_partial s hs cs fs ls fuel k : tame s hs cs fs -> hs <> [] -> fits s hs ls ->
    let a := chance (independent ls) (accepted s) in
    (chance (blocks_law ls (next_size s k) fuel) (together s fuel (repeat (fun _ => true) k))
     == krun (chance (independent ls) (fun v => negb (accepted s v))) (next_size s) fuel k * qpow a k)%Q.
  Proof.
    intros T Ne F a. assert (H := together_chance T ls F fuel (repeat (fun _ => true) k) Ne). rewrite repeat_length in H. rewrite H. clear H.
    apply Qmult_comp; [reflexivity|]. assert (Mr : forall j, map (fun q => chance (independent ls) (column_gives s q)) (repeat (fun _ => true) j) = repeat (chance (independent ls) (column_gives s (fun _ => true))) j).
    { induction j as [|j IH]; [reflexivity|]. cbn. rewrite IH. reflexivity. }
    rewrite Mr. clear Mr.
    rewrite (chance_eq _ _ (accepted s) (column_any T ls F)). fold a. clear. induction k as [|k IH]; [reflexivity|]. cbn [repeat qprod fold_right qpow].
    fold (qprod (repeat a k)). rewrite IH. reflexivity.
  Qed.
  (** in particular valid configurations are returned together with the product of the products of C132 *)
  Theorem C135_sample_partial s hs cs fs ls fuel (cds : list (config * assignment)) : tame s hs cs fs -> orderly cs -> hs <> [] -> fits s hs ls ->
    (forall c d, In (c, d) cds -> represents s hs c d /\ exact_all hs d /\ valid hs cs fs d) ->
    let k := length cds in let m := next_size s k in let a := chance (independent ls) (accepted s) in
    (qpow a k * chance (blocks_law ls m fuel) (together s fuel (map (fun cd v => same_vec v (c_vector (fst cd))) cds))
     == chance (blocks_law ls m fuel) (together s fuel (repeat (fun _ => true) k)) * qprod (map (fun cd => weight ls (c_vector (fst cd))) cds))%Q.
  Proof.
    intros T Or Ne F H k m a. assert (I := C135_independent_partial s hs cs fs ls fuel (map (fun cd v => same_vec v (c_vector (fst cd))) cds) T Ne F). cbv zeta in I.
    rewrite map_length, !map_map in I. fold k m a in I. rewrite I. clear I. apply Qmult_comp.
    - replace (map (fun _ : config * assignment => fun _ : list fval => true) cds) with (repeat (fun _ : list fval => true) k); [reflexivity|].
      unfold k. clear. induction cds as [|x l IH]; [reflexivity|]. cbn. rewrite IH. reflexivity.
    - clear m k. induction cds as [|[c d] l IH]; [reflexivity|]. cbn [map qprod fold_right fst]. apply Qmult_comp; [|apply IH; intros; apply H; right; assumption].
      destruct (H c d (or_introl eq_refl)) as (Rp & Ex & V). rewrite <- (C132_column_partial s hs cs fs ls c d T Or F Rp Ex V). reflexivity.
  Qed.
End Together.

(** ** The space of C132: x is active when r is 1; x = 0 and y = 0 are forbidden together *)
Section Witness.
  #[local] Existing Instance rat_env.
  #[local] Existing Instance rat_env_laws.
  (** two configurations in one round of five columns: 32732 of 32768 times there are enough of them, and the configurations with three and
      with two values come in this order with (1/8 * 1/4) / (7/8 * 7/8) of that *)
  Example C135_ex : let pair := [(few_config, store few_hps (given few_vals)); (off_config, store few_hps (given off_vals))] in
    let two := chance (blocks_law (laws few_space) (next_size few_space 2) 1) (together few_space 1 (repeat (fun _ => true) 2)) in
    (forall c d, In (c, d) pair -> represents few_space few_hps c d /\ exact_all few_hps d /\ valid few_hps few_conds [few_and] d) /\
    next_size few_space 2 = 5 /\ (two == 32732 # 32768)%Q /\
    ((7#8) * (7#8) * chance (blocks_law (laws few_space) (next_size few_space 2) 1) (together few_space 1 (map (fun cd v => same_vec v (c_vector (fst cd))) pair))
     == two * ((1#8) * (1#4)))%Q.
  Proof.
    assert (LA := rat_env_laws). intros pair two. destruct C132_ex as (T & Or & F & _ & _ & _ & _ & W1 & W2 & A & _).
    assert (V : forall c d, In (c, d) pair -> represents few_space few_hps c d /\ exact_all few_hps d /\ valid few_hps few_conds [few_and] d).
    { intros c d [H|[H|[]]]; (assert (E1 := f_equal fst H); assert (E2 := f_equal snd H); cbn [fst snd] in E1, E2; rewrite <- E1, <- E2; clear H E1 E2 c d);
        apply few_case; vm_compute; reflexivity. }
    split; [exact V|]. split; [vm_compute; reflexivity|]. split.
    - unfold two. assert (S := C135_success_partial few_space few_hps few_conds [few_and] (laws few_space) 1 2 T ltac:(discriminate) F). cbv zeta in S. rewrite S. vm_compute. reflexivity.
    - assert (S := C135_sample_partial few_space few_hps few_conds [few_and] (laws few_space) 1 pair T Or ltac:(discriminate) F V). cbv zeta in S.
      change (length pair) with 2 in S. fold two in S. set (both := chance _ (together _ _ (map _ pair))) in S |- *. clearbody both two.
      cbn [map pair qprod fold_right fst qpow] in S. rewrite W1, W2, A in S. revert S. clear. intros S.
      transitivity ((7#8) * ((7#8) * 1) * both)%Q; [ring|]. rewrite S. ring.
  Qed.
End Witness.
