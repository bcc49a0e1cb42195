(** * Property C132: the probability of a sampled configuration *)
From Coq Require Import String List ZArith QArith Qround Bool Lia Lqa Permutation Relations.
From Verif Require Import Base ListFacts Numeric HP HPProofs Properties_HP Cond Forb EqFacts Dag DagProofs
  Space CommitProofs Spec SpaceProofs CnodeProofs ForbProofs EvalProofs ForbEval MergeProofs ValidProofs ConfigProofs
  ChangeProofs PassProofs ReadProofs SampleProofs Ex Properties_Eval Properties_Config Properties_Change Properties_Sample
  Dist DistProofs Properties_Dist Properties_Size Properties_Array Properties_Reach Properties_Mass.
Import ListNotations.
Open Scope nat_scope.

(** ** Finite probability

    A law lists outcomes with their probabilities; the chance of an event is the sum over the outcomes in it. *)
Definition chance {A} (l : list (A * Q)) (p : A -> bool) : Q :=
  fold_right (fun xq acc => ((if p (fst xq) then snd xq else 0) + acc)%Q) 0%Q l.
Definition total {A} (l : list (A * Q)) : Q := chance l (fun _ => true).

(** independent draws, one of each law *)
Fixpoint independent {A} (ls : list (list (A * Q))) : list (list A * Q) :=
  match ls with
  | [] => [([], 1%Q)]
  | l :: ls' => concat (map (fun xq => map (fun vr => (fst xq :: fst vr, (snd xq * snd vr)%Q)) (independent ls')) l)
  end.

(** ** What is to be shown *)

(** the same entries; nan is the same as nan *)
Definition fsameb (x y : fval) : bool := match x, y with NaN, NaN => true | _, _ => feqb x y end.
Fixpoint same_vec (u v : list fval) : bool :=
  match u, v with
  | [], [] => true
  | x :: u', y :: v' => (fsameb x y && same_vec u' v')%bool
  | _, _ => false
  end.

(** the product of the probabilities of the entries that are set *)
Fixpoint weight (ls : list (list (fval * Q))) (v : list fval) : Q :=
  match ls, v with
  | l :: ls', x :: v' => ((if isnan x then 1 else chance l (fun y => fsameb y x)) * weight ls' v')%Q
  | _, _ => 1%Q
  end.

(** laws of the vector entries: what is drawn are entries of values *)
Definition fits {E : Env} (s : space) (hs : list hp) (ls : list (list (fval * Q))) : Prop :=
  length ls = s_len s /\
  forall h i, In h hs -> assoc (hp_name h) (index_of s) = Some i ->
    (total (nth i ls []) == 1)%Q /\ forall x q, In (x, q) (nth i ls []) -> exists w, entry_of h w x.

(** sampling from one column of numbers gives the vector [c] *)
Definition yields {E : Env} (s : space) (c v : list fval) : bool :=
  match sample_round s 1 (map (fun x => [x]) v) with Ok [u] => same_vec u c | _ => false end.
(** ... or something *)
Definition accepted {E : Env} (s : space) (v : list fval) : bool :=
  match sample_round s 1 (map (fun x => [x]) v) with Ok (_ :: _) => true | _ => false end.
(** sample_configuration() with the columns drawn one after the other gives [c] in at most [fuel] rounds *)
Definition returns {E : Env} (s : space) (fuel : nat) (c : list fval) (cols : list (list fval)) : bool :=
  match sample_configuration fuel s (fun r i j => nth i (nth (r * next_size s 1 + j) cols []) NaN) None with
  | Ok [k] => same_vec (c_vector k) c
  | _ => false
  end.

(** ** Sums *)
Section Sums.
  Context {A : Type}.
  Definition esum (l : list (A * Q)) (f : A -> Q) : Q := fold_right (fun xq acc => (snd xq * f (fst xq) + acc)%Q) 0%Q l.

  Lemma chance_ext (l : list (A * Q)) p p' : (forall x q, In (x, q) l -> p x = p' x) -> (chance l p == chance l p')%Q.
  Proof.
    induction l as [|[x q] l IH]; intros H; simpl; [reflexivity|]. rewrite (H x q (or_introl eq_refl)), IH; [reflexivity|].
    intros y r Hy. apply (H y r). right. exact Hy.
  Qed.
  Lemma chance_never (l : list (A * Q)) : (chance l (fun _ => false) == 0)%Q.
  Proof. induction l as [|[x q] l IH]; simpl; [reflexivity|]. rewrite IH. ring. Qed.
  Lemma chance_app (l m : list (A * Q)) p : (chance (l ++ m) p == chance l p + chance m p)%Q.
  Proof. induction l as [|[x q] l IH]; simpl; [ring|]. rewrite IH. ring. Qed.
  Lemma chance_esum (l : list (A * Q)) p : (chance l p == esum l (fun x => if p x then 1 else 0))%Q.
  Proof. induction l as [|[x q] l IH]; simpl; [reflexivity|]. rewrite IH. destruct (p x); ring. Qed.
  Lemma esum_ext (l : list (A * Q)) f g : (forall x q, In (x, q) l -> f x == g x)%Q -> (esum l f == esum l g)%Q.
  Proof.
    induction l as [|[x q] l IH]; intros H; simpl; [reflexivity|]. rewrite (H x q (or_introl eq_refl)), IH; [reflexivity|].
    intros y r Hy. apply (H y r). right. exact Hy.
  Qed.
  Lemma esum_scale (l : list (A * Q)) f k : (esum l (fun x => f x * k) == esum l f * k)%Q.
  Proof. induction l as [|[x q] l IH]; simpl; [ring|]. rewrite IH. ring. Qed.
  Lemma esum_plus (l : list (A * Q)) f g : (esum l (fun x => f x + g x) == esum l f + esum l g)%Q.
  Proof. induction l as [|[x q] l IH]; simpl; [ring|]. rewrite IH. ring. Qed.

End Sums.
Section Products.
  Context {A : Type}.
  Lemma chance_cons (l : list (A * Q)) ls p :
    (chance (independent (l :: ls)) p == esum l (fun x => chance (independent ls) (fun v => p (x :: v))))%Q.
  Proof.
    cbn [independent]. generalize (independent ls) as m. clear ls. induction l as [|[x q] l IH]; intros m; [reflexivity|].
    cbn [map concat]. rewrite chance_app, IH. cbn [esum fold_right fst snd]. apply Qplus_comp; [|reflexivity].
    induction m as [|[v r] m IHm]; [cbn; ring|].
    cbn [map chance fold_right fst snd] in *. fold (chance (map (fun vr : list A * Q => (x :: fst vr, (q * snd vr)%Q)) m) p).
    fold (chance m (fun v => p (x :: v))). rewrite IHm.
    destruct (p (x :: v)); ring.
  Qed.
  Lemma independent_in (ls : list (list (A * Q))) : forall v q, In (v, q) (independent ls) ->
    Forall2 (fun x l => exists q, In (x, q) l) v ls.
  Proof.
    induction ls as [|l ls IH]; simpl; intros v q H.
    - destruct H as [H|[]]. injection H as <- <-. constructor.
    - apply in_concat in H. destruct H as (m & Hm & H). apply in_map_iff in Hm. destruct Hm as ([x r] & <- & Hx).
      apply in_map_iff in H. destruct H as ([u t] & Q & Hu). simpl in Q. injection Q as <- <-. constructor; [eauto|]. apply (IH u t Hu).
  Qed.
  Lemma total_independent (ls : list (list (A * Q))) : (forall l, In l ls -> total l == 1)%Q -> (total (independent ls) == 1)%Q.
  Proof.
    induction ls as [|l ls IH]; intros H; [unfold total; simpl; ring|]. unfold total in *. rewrite chance_cons.
    rewrite (esum_ext _ _ (fun x => (if (fun _ => true) x then 1 else 0)%Q)).
    - rewrite <- (chance_esum l (fun _ => true)). apply (H l). left. reflexivity.
    - intros x q _. apply IH. intros m Hm. apply H. right. exact Hm.
  Qed.
End Products.

Lemma Forall2_len_eq {A B} (P : A -> B -> Prop) l m : Forall2 P l m -> length l = length m.
Proof. induction 1; simpl; congruence. Qed.

Lemma nth_firstn_lt {A} (d : A) (l : list A) : forall m i, i < m -> nth i (firstn m l) d = nth i l d.
Proof.
  induction l as [|x l IH]; intros m i Hi; [rewrite firstn_nil; reflexivity|]. destruct m; [lia|]. destruct i; [reflexivity|].
  simpl. apply IH. lia.
Qed.
Lemma nth_skipn_at {A} (d : A) (l : list A) : forall m i, nth i (skipn m l) d = nth (m + i) l d.
Proof. induction l as [|x l IH]; intros [|m] i; simpl; try reflexivity; [destruct i; reflexivity|apply IH]. Qed.
Lemma skipn_more {A} (l : list A) : forall m k, skipn k (skipn m l) = skipn (m + k) l.
Proof. induction l as [|x l IH]; intros [|m] k; simpl; try reflexivity; [apply skipn_nil|apply IH]. Qed.

Section Vectors.
  Lemma fsameb_iff x y : fsameb x y = true <-> fsame x y.
  Proof.
    destruct x, y; simpl; split; intros H; try reflexivity; try discriminate; try contradiction; try exact I;
      try (apply Qeq_bool_iff; exact H).
  Qed.
  Lemma same_vec_iff u v : same_vec u v = true <-> length u = length v /\ forall i, i < length u -> fsame (nth i u NaN) (nth i v NaN).
  Proof.
    revert v. induction u as [|x u IH]; intros [|y v]; simpl; try (split; [discriminate|intros [? _]; discriminate]).
    - split; [intros _; split; [reflexivity|intros i Hi; lia]|reflexivity].
    - rewrite andb_true_iff, fsameb_iff, IH. split.
      + intros (H1 & H2 & H3). split; [congruence|]. intros [|i] Hi; [exact H1|]. apply H3. lia.
      + intros (H1 & H2). split; [apply (H2 0); lia|]. split; [congruence|]. intros i Hi. apply (H2 (S i)). lia.
  Qed.

  (** the entries that are set agree *)
  Fixpoint agrees (c v : list fval) : bool :=
    match c, v with
    | [], [] => true
    | x :: c', y :: v' => ((isnan x || fsameb y x) && agrees c' v')%bool
    | _, _ => false
    end.
  Lemma agrees_iff c v : agrees c v = true <-> length c = length v /\
    forall i, i < length c -> isnan (nth i c NaN) = false -> fsame (nth i v NaN) (nth i c NaN).
  Proof.
    revert v. induction c as [|x u IH]; intros [|y v]; simpl; try (split; [discriminate|intros [? _]; discriminate]).
    - split; [intros _; split; [reflexivity|intros i Hi; lia]|reflexivity].
    - rewrite andb_true_iff, orb_true_iff, fsameb_iff, IH. split.
      + intros (H1 & H2 & H3). split; [congruence|]. intros [|i] Hi Hx; [destruct H1; [congruence|assumption]|]. apply H3; [lia|exact Hx].
      + intros (H1 & H2). split; [destruct (isnan x) eqn:Ex; [auto|right; apply (H2 0); [lia|exact Ex]]|].
        split; [congruence|]. intros i Hi. apply (H2 (S i)). lia.
  Qed.

  Lemma chance_agrees ls : (forall l, In l ls -> total l == 1)%Q -> forall c, length c = length ls ->
    (chance (independent ls) (agrees c) == weight ls c)%Q.
  Proof.
    induction ls as [|l ls IH]; intros H [|x c] Hc; try discriminate.
    - simpl. ring.
    - rewrite chance_cons. cbn [weight].
      rewrite (esum_ext _ _ (fun y => ((if (isnan x || fsameb y x)%bool then 1 else 0) * weight ls c)%Q)).
      + rewrite esum_scale, <- (chance_esum l (fun y => (isnan x || fsameb y x)%bool)). destruct (isnan x); [|reflexivity].
        cbn [orb]. rewrite (H l (or_introl eq_refl)). reflexivity.
      + intros y q _. cbn [agrees]. destruct (isnan x || fsameb y x)%bool; cbn [andb].
        * rewrite (IH (fun m Hm => H m (or_intror Hm)) c); [ring|]. simpl in Hc. congruence.
        * rewrite chance_never. ring.
  Qed.
End Vectors.

Section Chance.
  Context {E : Env} {L : EnvLaws E}.

  Section One.
    Context {s : space} {hs : list hp} {cs : list cond} {fs : list fclause} (T : tame s hs cs fs).
    Notation io := (index_of s).
    Let O : space_ok s hs cs fs := built_ok _ _ _ _ (tm_built _ _ _ _ T).

    (** what becomes of a column *)
    Definition keep (v : list fval) : list (list fval) :=
      filter (okf (s := s) (d_cforb (s_dag s))) (map (prune (s := s)) (filter (okf (s := s) (d_uforb (s_dag s))) [v])).

    Lemma keep_or v : keep v = [] \/ keep v = [prune (s := s) v].
    Proof. unfold keep. cbn [filter]. destruct (okf _ v); [|auto]. cbn [map filter]. destruct (okf _ (prune v)); auto. Qed.

    Lemma filters_split {A B} (p : B -> bool) (g : A -> B) (q : A -> bool) (l : list A) :
      filter p (map g (filter q l)) = concat (map (fun x => filter p (map g (filter q [x]))) l).
    Proof.
      induction l as [|x l IH]; [reflexivity|]. cbn [map concat]. rewrite <- IH. cbn [filter]. destruct (q x); [|reflexivity].
      cbn [map filter]. destruct (p (g x)); reflexivity.
    Qed.

    Lemma round_keep n mat : rect n mat -> length mat = s_len s -> (forall j, j < n -> drawn (s := s) (hs := hs) (column mat j)) ->
      sample_round s n mat = Ok (concat (map keep (map (column mat) (seq 0 n)))).
    Proof.
      intros R Lm D. destruct (round_total T n mat R Lm D) as (new & Hn). rewrite Hn, (round_spec O n mat new R Lm Hn).
      rewrite filters_split. reflexivity.
    Qed.

    Lemma single_keep v : length v = s_len s -> drawn (s := s) (hs := hs) v -> sample_round s 1 (map (fun x => [x]) v) = Ok (keep v).
    Proof.
      intros Lv D. assert (C : column (map (fun x : fval => [x]) v) 0 = v) by (unfold column; rewrite map_map; apply map_id).
      rewrite round_keep.
      - cbn [seq map concat]. rewrite C, app_nil_r. reflexivity.
      - intros row Hr. apply in_map_iff in Hr. destruct Hr as (x & <- & _). reflexivity.
      - rewrite map_length. exact Lv.
      - intros j Hj. replace j with 0 by lia. rewrite C. exact D.
    Qed.

    Lemma fits_drawn ls v : fits s hs ls -> Forall2 (fun x l => exists q, In (x, q) l) v ls ->
      length v = s_len s /\ drawn (s := s) (hs := hs) v.
    Proof.
      intros (Ll & F) H. assert (Lv : length v = s_len s) by (rewrite <- Ll; apply (Forall2_len_eq _ _ _ H)). split; [exact Lv|].
      intros h Hh. right. destruct (so_hp_index O h Hh) as (i & Hi & Hlt & _). destruct (F h i Hh Hi) as [_ G]. unfold vget. rewrite Hi.
      assert (K : exists q, In (nth i v NaN, q) (nth i ls [])).
      { rewrite <- Lv in Hlt. clear - H Hlt. revert i Hlt. induction H as [|x l v ls H1 H2 IH]; intros i Hi; [simpl in Hi; lia|].
        destruct i as [|i]; [exact H1|]. simpl in *. apply IH. lia. }
      destruct K as (q & K). apply (G _ q K).
    Qed.
    Lemma fits_total ls : fits s hs ls -> forall l, In l ls -> (total l == 1)%Q.
    Proof.
      intros (Ll & F) l Hl. apply In_nth with (d := []) in Hl. destruct Hl as (i & Hi & <-). rewrite Ll in Hi.
      rewrite <- (so_keys_len O) in Hi. destruct (nth_error (keys s) i) as [n|] eqn:En; [|apply nth_error_None in En; lia].
      assert (Hn : In n (map hp_name hs)) by (eapply Permutation_in; [apply (so_keys O)|apply (nth_error_In _ _ En)]).
      apply in_map_iff in Hn. destruct Hn as (h & <- & Hh). apply (F h i Hh). apply (so_index O). exact En.
    Qed.

    (** a column gives a valid configuration exactly when it agrees with it where it is set *)
    Lemma keep_valid c d v : orderly cs -> represents s hs c d -> exact_all hs d -> valid hs cs fs d ->
      length v = s_len s -> drawn (s := s) (hs := hs) v -> yields s (c_vector c) v = agrees (c_vector c) v.
    Proof.
      intros Or Rp Ex V Lv D. unfold yields. rewrite (single_keep v Lv D). assert (Lc := proj1 Rp). assert (En := represents_encodes c d Rp).
      destruct (agrees (c_vector c) v) eqn:Ag.
      - apply agrees_iff in Ag. destruct Ag as (_ & Ag).
        assert (Cv : covers (s := s) (hs := hs) v d).
        { intros h w Hh Hd. specialize (En h Hh). unfold encodes in En. rewrite Hd in En. destruct En as (Hl & x & Hx & F).
          exists x. split; [exact Hx|]. destruct (so_hp_index O h Hh) as (i & Hi & Hlt & _). unfold vget in *. rewrite Hi in *.
          apply (fsame_trans _ (nth i (c_vector c) NaN)); [|exact F]. apply Ag; [lia|].
          assert (Nx : isnan x = false).
          { assert (Lx := exact_legal_vector h w x (so_constructed O h Hh) Hl (Ex h w Hh Hd) Hx). apply legal_vector_finite in Lx.
            destruct x; try discriminate Lx; reflexivity. }
          destruct (nth i (c_vector c) NaN), x; simpl in *; try reflexivity; try contradiction; discriminate. }
        assert (Al := prune_allowed T v d Or V Ex Lv Cv).
        assert (Sub : forall f, In f (d_uforb (s_dag s)) \/ In f (d_cforb (s_dag s)) -> In f fs).
        { intros f Hf. eapply Permutation_in; [apply (so_forbs O)|]. unfold forbidden_clauses, d_forbs. apply in_or_app. exact Hf. }
        assert (K : keep v = [prune (s := s) v]).
        { unfold keep. cbn [filter].
          replace (okf (s := s) (d_uforb (s_dag s)) v) with true by (symmetry; rewrite <- (okf_prune O _ Lv); apply okf_iff; auto).
          cbn [map filter].
          replace (okf (s := s) (d_cforb (s_dag s)) (prune (s := s) v)) with true by (symmetry; apply okf_iff; auto). reflexivity. }
        rewrite K. apply same_vec_iff. rewrite prune_len. split; [congruence|]. intros i Hi. rewrite Lv, <- (so_keys_len O) in Hi.
        destruct (nth_error (keys s) i) as [n|] eqn:Nn; [|apply nth_error_None in Nn; lia].
        assert (Hn : In n (map hp_name hs)) by (eapply Permutation_in; [apply (so_keys O)|apply (nth_error_In _ _ Nn)]).
        apply in_map_iff in Hn. destruct Hn as (h & <- & Hh). apply (so_index O) in Nn.
        assert (P := prune_encodes T v d Or V Lv Cv h Hh). specialize (En h Hh). unfold encodes, vget in *. rewrite Nn in *.
        destruct (d (hp_name h)).
        + destruct P as (_ & x & X1 & F1). destruct En as (_ & y & X2 & F2). assert (x = y) by congruence. subst y.
          apply (fsame_trans _ x); [exact F1|apply fsame_sym; exact F2].
        + rewrite P, En. exact I.
      - destruct (keep_or v) as [->| ->]; [reflexivity|]. destruct (same_vec (prune (s := s) v) (c_vector c)) eqn:Es; [|reflexivity].
        exfalso. enough (Ag' : agrees (c_vector c) v = true) by congruence. clear Ag.
        apply same_vec_iff in Es. rewrite prune_len in Es. destruct Es as (E1 & E2). apply agrees_iff. split; [congruence|].
        intros i Hi Nn. assert (G := E2 i ltac:(lia)). destruct (prune_or O v i Lv) as [K|K]; rewrite K in G; [exact G|].
        destruct (nth i (c_vector c) NaN); simpl in *; try contradiction; discriminate.
    Qed.
  End One.

  (** ** One column *)

  (** A column gives a valid configuration with the product of the probabilities of its active values *)
  Theorem C132_column_partial s hs cs fs ls c d : tame s hs cs fs -> orderly cs -> fits s hs ls ->
    represents s hs c d -> exact_all hs d -> valid hs cs fs d ->
    (chance (independent ls) (yields s (c_vector c)) == weight ls (c_vector c))%Q.
  Proof.
    intros T Or F Rp Ex V. rewrite <- (chance_agrees ls (fits_total T ls F)); [|rewrite (proj1 Rp), (proj1 F); reflexivity].
    apply chance_ext. intros v q Hv. apply independent_in in Hv. destruct (fits_drawn T ls v F Hv) as [Lv D].
    apply (keep_valid T c d v); assumption.
  Qed.

  (** ** Sampling *)

  Fixpoint qpow (x : Q) (n : nat) : Q := match n with O => 1%Q | S k => (x * qpow x k)%Q end.

  Section Loop.
    Context {s : space} {hs : list hp} {cs : list cond} {fs : list fclause} (T : tame s hs cs fs).
    Let O : space_ok s hs cs fs := built_ok _ _ _ _ (tm_built _ _ _ _ T).
    Notation n := (next_size s 1).

    Definition first_is (c : list fval) (cols : list (list fval)) : bool :=
      match concat (map (keep (s := s)) cols) with u :: _ => same_vec u c | [] => false end.

    Lemma columns_of cols r m : (forall j, j < m -> length (nth (r * n + j) cols []) = s_len s) ->
      map (column (matrix (s := s) (fun r i j => nth i (nth (r * n + j) cols []) NaN) r m)) (seq 0 m)
      = map (fun j => nth (r * n + j) cols []) (seq 0 m).
    Proof.
      intros H. apply map_ext_in. intros j Hj. apply in_seq in Hj. apply nth_ext with (d := NaN) (d' := NaN).
      - rewrite column_length. destruct (matrix_rect (s := s) (fun r i j => nth i (nth (r * n + j) cols []) NaN) r m) as [_ ->].
        symmetry. apply H. lia.
      - intros i Hi. rewrite column_length in Hi.
        rewrite (proj2 (matrix_rect (s := s) (fun r i j => nth i (nth (r * n + j) cols []) NaN) r m)) in Hi. apply matrix_column; lia.
    Qed.

    Lemma loop_first cols (D : forall v, In v cols -> length v = s_len s /\ drawn (s := s) (hs := hs) v) fuel : forall r,
      (r + fuel) * n <= length cols ->
      match sample_loop fuel s (fun r i j => nth i (nth (r * n + j) cols []) NaN) r 1 1 [] with
      | Ok vs => exists u rest rest', vs = u :: rest /\ length u = s_len s /\ (forall w, In w rest -> length w = s_len s) /\
          concat (map (keep (s := s)) (firstn (fuel * n) (skipn (r * n) cols))) = u :: rest'
      | Err e => concat (map (keep (s := s)) (firstn (fuel * n) (skipn (r * n) cols))) = []
      end.
    Proof.
      induction fuel as [|fuel IH]; intros r Hr; cbn [sample_loop length Nat.leb]; [reflexivity|].
      fold (matrix (s := s) (fun r i j => nth i (nth (r * n + j) cols []) NaN) r n).
      set (draw := fun r i j => nth i (nth (r * n + j) cols []) NaN) in *.
      assert (Hlt : forall j, j < n -> r * n + j < length cols) by (intros; nia).
      assert (Dj : forall j, j < n -> length (nth (r * n + j) cols []) = s_len s /\ drawn (s := s) (hs := hs) (nth (r * n + j) cols [])).
      { intros j Hj. apply D. apply nth_In. auto. }
      assert (Cs := columns_of cols r n (fun j Hj => proj1 (Dj j Hj))). fold draw in Cs.
      destruct (matrix_rect (s := s) draw r n) as [R1 R2].
      assert (Cj : forall j, j < n -> column (matrix (s := s) draw r n) j = nth (r * n + j) cols []).
      { intros j Hj. assert (G := f_equal (fun l => nth j l []) Cs). cbv beta in G.
        rewrite (nth_indep _ [] (column (matrix (s := s) draw r n) 0)) in G by (rewrite map_length, seq_length; exact Hj).
        rewrite (map_nth (column (matrix (s := s) draw r n))), seq_nth in G by exact Hj.
        rewrite (nth_indep _ [] ((fun j => nth (r * n + j) cols []) 0)) in G by (rewrite map_length, seq_length; exact Hj).
        rewrite (map_nth (fun j => nth (r * n + j) cols [])), seq_nth in G by exact Hj. exact G. }
      rewrite (round_keep T n _ R1 R2) by (intros j Hj; rewrite (Cj j Hj); apply Dj; exact Hj). cbn [bind].
      assert (Sl : firstn (S fuel * n) (skipn (r * n) cols) =
                   map (fun j => nth (r * n + j) cols []) (seq 0 n) ++ firstn (fuel * n) (skipn (S r * n) cols)).
      { assert (Ls : length (skipn (r * n) cols) = length cols - r * n) by apply skipn_length.
        rewrite <- (firstn_skipn n (skipn (r * n) cols)) at 1.
        replace (S fuel * n) with (length (firstn n (skipn (r * n) cols)) + fuel * n) by (rewrite firstn_length; nia).
        rewrite firstn_app_2. f_equal.
        - apply nth_ext with (d := []) (d' := []).
          + rewrite map_length, seq_length, firstn_length. nia.
          + intros j Hj. rewrite firstn_length in Hj.
            rewrite (nth_indep (map _ _) [] ((fun j => nth (r * n + j) cols []) 0)) by (rewrite map_length, seq_length; nia).
            rewrite (map_nth (fun j => nth (r * n + j) cols [])), seq_nth by nia. rewrite nth_firstn_lt by lia. apply nth_skipn_at.
        - f_equal. rewrite skipn_more. f_equal. lia. }
      rewrite Sl, map_app, concat_app, <- Cs.
      set (new := concat (map (keep (s := s)) (map (column (matrix (s := s) draw r n)) (seq 0 n)))).
      assert (Ln : forall u, In u new -> length u = s_len s).
      { intros u Hu. unfold new in Hu. apply in_concat in Hu. destruct Hu as (k & Hk & Hu). apply in_map_iff in Hk. destruct Hk as (v & <- & Hv).
        apply in_map_iff in Hv. destruct Hv as (j & <- & Hj). destruct (keep_or (s := s) (column (matrix (s := s) draw r n) j)) as [K|K]; rewrite K in Hu;
          [destruct Hu|]. destruct Hu as [<-|[]]. rewrite prune_len, column_length. exact R2. }
      cbn [app]. destruct new as [|u rest] eqn:En.
      - cbn [app length Nat.sub]. apply IH. nia.
      - replace (sample_loop fuel s draw (S r) 1 (1 - length (u :: rest)) (u :: rest)) with (Ok (u :: rest)) by (destruct fuel; reflexivity).
        exists u, rest, (rest ++ concat (map (keep (s := s)) (firstn (fuel * n) (skipn (S r * n) cols)))).
        split; [reflexivity|]. split; [apply Ln; left; reflexivity|]. split; [intros w Hw; apply Ln; right; exact Hw|]. reflexivity.
    Qed.

    Lemma returns_first fuel c cols : hs <> [] -> length cols = fuel * n ->
      (forall v, In v cols -> length v = s_len s /\ drawn (s := s) (hs := hs) v) -> returns s fuel c cols = first_is c cols.
    Proof.
      intros Ne Lc D. unfold returns, sample_configuration.
      destruct (Nat.eqb_spec (s_len s) 0) as [Z0|Z0].
      { exfalso. destruct hs as [|h hs']; [congruence|]. apply (no_hps s (h :: hs') cs fs h O Z0). left. reflexivity. }
      cbv zeta. change (1 <? 1)%Z with false. cbv iota. change (Z.to_nat 1) with 1.
      assert (G := loop_first cols D fuel 0 ltac:(lia)). cbn [Nat.mul skipn] in G.
      rewrite <- Lc, firstn_all in G. unfold first_is.
      destruct (sample_loop fuel s _ 0 1 1 []) as [vs|e]; cbn [bind].
      - destruct G as (u & rest & rest' & -> & Lu & Lr & ->).
        assert (M : exists k, mapM (fun v => config_of_vector s v false) rest = Ok k).
        { clear - Lr. induction rest as [|v l IH]; simpl; [eauto|]. unfold config_of_vector at 1. rewrite (Lr v (or_introl eq_refl)), Nat.eqb_refl. cbn [bind].
          destruct IH as (k & ->); [intros w Hw; apply Lr; right; exact Hw|]. simpl. eauto. }
        destruct M as (k & M). cbn [mapM]. unfold config_of_vector at 1. rewrite Lu, Nat.eqb_refl. cbn [bind]. rewrite M. reflexivity.
      - rewrite G. reflexivity.
    Qed.

    Lemma yields_keep c v : length v = s_len s -> drawn (s := s) (hs := hs) v ->
      yields s c v = first_is c [v] /\ accepted s v = match keep (s := s) v with [] => false | _ => true end.
    Proof.
      intros Lv D. unfold yields, accepted, first_is. rewrite (single_keep T v Lv D). cbn [map concat]. rewrite app_nil_r.
      destruct (keep_or (s := s) v) as [K|K]; rewrite K; auto.
    Qed.

    Lemma first_chance (l : list (list fval * Q)) c : (total l == 1)%Q ->
      (forall v q, In (v, q) l -> length v = s_len s /\ drawn (s := s) (hs := hs) v) -> forall m,
      (chance l (accepted s) * chance (independent (repeat l m)) (first_is c)
       == chance l (yields s c) * (1 - qpow (1 - chance l (accepted s)) m))%Q.
    Proof.
      intros Tl D. induction m as [|m IH]; [cbn; ring|]. cbn [repeat]. rewrite chance_cons.
      set (A := chance l (accepted s)) in *. set (P := chance l (yields s c)) in *. set (X := chance (independent (repeat l m)) (first_is c)) in *.
      assert (Tm : (total (independent (repeat l m)) == 1)%Q).
      { apply total_independent. intros k Hk. apply repeat_spec in Hk. subst k. exact Tl. }
      rewrite (esum_ext l _ (fun v => ((if yields s c v then 1 else 0) + (1 - (if accepted s v then 1 else 0)) * X)%Q)).
      - rewrite esum_plus, <- (chance_esum l (yields s c)), esum_scale. fold P.
        assert (G : (esum l (fun v => 1 - (if accepted s v then 1 else 0)) == 1 - A)%Q).
        { rewrite (esum_ext l _ (fun v => (1 + (if accepted s v then 1 else 0) * (-1))%Q)) by (intros; ring).
          rewrite esum_plus, esum_scale, <- (chance_esum l (accepted s)), <- (chance_esum l (fun _ => true)). fold A.
          fold (total l). rewrite Tl. ring. }
        rewrite G. cbn [qpow]. rewrite Qmult_plus_distr_r, Qmult_assoc, (Qmult_comm A (1 - A)), <- Qmult_assoc, IH. ring.
      - intros v q Hv. destruct (D v q Hv) as [Lv Dv]. destruct (yields_keep c v Lv Dv) as [-> ->].
        assert (Fv : first_is c [v] = match keep (s := s) v with u :: _ => same_vec u c | [] => false end).
        { unfold first_is. cbn [map concat]. rewrite app_nil_r. reflexivity. }
        rewrite Fv. clear Fv. destruct (keep_or (s := s) v) as [K|K]; rewrite K.
        + unfold X. rewrite (chance_ext _ _ (first_is c)); [ring|]. intros w r _. unfold first_is at 1. cbn [map concat]. rewrite K. reflexivity.
        + rewrite (chance_ext _ _ (fun _ => same_vec (prune (s := s) v) c)).
          * destruct (same_vec (prune (s := s) v) c); [fold (total (independent (repeat l m))); rewrite Tm; ring|].
            rewrite chance_never. ring.
          * intros w r _. unfold first_is. cbn [map concat]. rewrite K. reflexivity.
    Qed.
  End Loop.

  (** sample_configuration() returns a valid configuration within [fuel] rounds with the product of the probabilities
      of its active values, divided by the chance that a column is accepted, up to the chance that no column was *)
  Theorem C132_sample_partial s hs cs fs ls c d fuel : tame s hs cs fs -> orderly cs -> hs <> [] -> fits s hs ls ->
    represents s hs c d -> exact_all hs d -> valid hs cs fs d ->
    let a := chance (independent ls) (accepted s) in
    (a * chance (independent (repeat (independent ls) (fuel * next_size s 1))) (returns s fuel (c_vector c))
     == weight ls (c_vector c) * (1 - qpow (1 - a) (fuel * next_size s 1)))%Q.
  Proof.
    intros T Or Ne F Rp Ex V. cbv zeta. rewrite <- (C132_column_partial s hs cs fs ls c d T Or F Rp Ex V).
    assert (D : forall v q, In (v, q) (independent ls) -> length v = s_len s /\ drawn (s := s) (hs := hs) v).
    { intros v q Hv. apply independent_in in Hv. apply (fits_drawn T ls v F Hv). }
    assert (Tl := total_independent ls (fits_total T ls F)).
    rewrite <- (first_chance T (independent ls) (c_vector c) Tl D (fuel * next_size s 1)). apply Qmult_comp; [reflexivity|].
    apply chance_ext. intros cols q Hc. apply independent_in in Hc. assert (Lc := Forall2_len_eq _ _ _ Hc). rewrite repeat_length in Lc.
    apply (returns_first T); [exact Ne|exact Lc|]. intros v Hv. clear - Hc Hv D.
    revert Hc. generalize (fuel * next_size s 1). induction cols as [|w cols IH]; intros m Hc; [destruct Hv|].
    destruct m; [inversion Hc|]. cbn [repeat] in Hc. inversion Hc as [|? ? ? ? (q & Hq) Hr]; subst.
    destruct Hv as [->|Hv]; [apply (D v q Hq)|apply (IH Hv m Hr)].
  Qed.

  (** so two configurations are returned in the proportion of these products *)
  Theorem C132_ratio_partial s hs cs fs ls c d c' d' fuel : tame s hs cs fs -> orderly cs -> hs <> [] -> fits s hs ls ->
    represents s hs c d -> exact_all hs d -> valid hs cs fs d -> represents s hs c' d' -> exact_all hs d' -> valid hs cs fs d' ->
    (0 < chance (independent ls) (accepted s) ->
     chance (independent (repeat (independent ls) (fuel * next_size s 1))) (returns s fuel (c_vector c)) * weight ls (c_vector c')
     == chance (independent (repeat (independent ls) (fuel * next_size s 1))) (returns s fuel (c_vector c')) * weight ls (c_vector c))%Q.
  Proof.
    intros T Or Ne F Rp Ex V Rp' Ex' V' Pa.
    assert (H := C132_sample_partial s hs cs fs ls c d fuel T Or Ne F Rp Ex V).
    assert (H' := C132_sample_partial s hs cs fs ls c' d' fuel T Or Ne F Rp' Ex' V'). cbv zeta in *.
    set (a := chance (independent ls) (accepted s)) in *.
    set (x := chance _ (returns s fuel (c_vector c))) in *. set (y := chance _ (returns s fuel (c_vector c'))) in *.
    set (k := (1 - qpow (1 - a) _)%Q) in *. set (p := weight ls (c_vector c)) in *. set (p' := weight ls (c_vector c')) in *.
    clearbody a x y k p p'. apply (Qmult_inj_l _ _ a); [lra|]. rewrite !Qmult_assoc, H, H'. ring.
  Qed.
End Chance.

(** ** The laws of the library *)

(** finitely many values, drawn evenly or with given weights *)
Definition evenly (h : hp) : Prop :=
  match hp_kind h with KInt _ _ log d => log = false /\ d = DUniform | KFloat _ _ _ _ => False | _ => True end.

(** the law of one vector entry: one integer below the size, all alike (C110_counted_partial); with weights the i-th entry is
    drawn by an interval of numbers of this length (C110_weighted) *)
Definition sample_law {E : Env} (h : hp) : list (fval * Q) :=
  match hp_kind h, hp_size h with
  | KCat c (Some w), _ => combine (map (fun i => Fin (inject_Z (Z.of_nat i))) (seq 0 (length c))) (probabilities c (Some w))
  | _, Some k => map (fun n => (sample_vector h {| raw_int := n; raw_real := 0 |}, (1 / inject_Z k)%Q)) (zseq 0 (Z.to_nat k))
  | _, None => []
  end.

(** the density of an assignment: the product over the hyperparameters that have a value *)
Definition density {E : Env} (f : Q -> Q) (d : assignment) (hs : list hp) : Q :=
  fold_right (fun h acc => (match d (hp_name h) with Some w => get_or 0 (pdf_value h f w) | None => 1 end * acc)%Q) 1%Q hs.

Section Laws.
  Context {E : Env} {L : EnvLaws E}.

  Lemma chance_zseq {B} (g : Z -> B) (q : Q) (p : B -> bool) m : forall n, (forall i, (n <= i < n + Z.of_nat m)%Z -> p (g i) = true) ->
    (chance (map (fun i => (g i, q)) (zseq n m)) p == inject_Z (Z.of_nat m) * q)%Q.
  Proof.
    induction m as [|m IH]; intros n H; [simpl; ring|]. cbn [zseq map chance fold_right fst snd].
    fold (chance (map (fun i => (g i, q)) (zseq (n + 1) m)) p). rewrite (H n) by lia. rewrite IH by (intros i Hi; apply H; lia).
    replace (Z.of_nat (S m)) with (1 + Z.of_nat m)%Z by lia. rewrite inject_Z_plus. ring.
  Qed.
  Lemma chance_one {B} (g : Z -> B) (q : Q) (p : B -> bool) k m : forall n, (n <= k < n + Z.of_nat m)%Z ->
    (forall i, (n <= i < n + Z.of_nat m)%Z -> p (g i) = true <-> i = k) ->
    (chance (map (fun i => (g i, q)) (zseq n m)) p == q)%Q.
  Proof.
    induction m as [|m IH]; intros n Hk H; [lia|]. cbn [zseq map chance fold_right fst snd].
    fold (chance (map (fun i => (g i, q)) (zseq (n + 1) m)) p). destruct (Z.eq_dec n k) as [->|N].
    - rewrite (proj2 (H k ltac:(lia)) eq_refl). rewrite (chance_ext _ _ (fun _ => false)).
      + rewrite chance_never. ring.
      + intros x r Hx. apply in_map_iff in Hx. destruct Hx as (i & Hx & Hi). injection Hx as <- _. apply zseq_in in Hi.
        apply not_true_is_false. intros K. apply H in K; lia.
    - replace (p (g n)) with false by (symmetry; apply not_true_is_false; intros K; apply N, H; [lia|exact K]).
      rewrite IH; [ring|lia|]. intros i Hi. apply H. lia.
  Qed.
  Lemma chance_weights (ps : list Q) : forall n,
    (total (combine (map (fun i => Fin (inject_Z (Z.of_nat i))) (seq n (length ps))) ps) == Qsum ps)%Q /\
    forall i, (n <= i < n + length ps)%nat ->
      (chance (combine (map (fun i => Fin (inject_Z (Z.of_nat i))) (seq n (length ps))) ps) (fun y => fsameb y (Fin (inject_Z (Z.of_nat i)))) == nth (i - n) ps 0)%Q.
  Proof.
    induction ps as [|p ps IH]; intros n.
    - split; [reflexivity|]. intros i Hi. simpl in Hi. lia.
    - cbn [length seq map combine]. destruct (IH (S n)) as [I1 I2]. split.
      + unfold total in *. cbn [chance fold_right fst snd].
        fold (chance (combine (map (fun i => Fin (inject_Z (Z.of_nat i))) (seq (S n) (length ps))) ps) (fun _ => true)). rewrite I1. reflexivity.
      + intros i Hi. cbn [chance fold_right fst snd].
        fold (chance (combine (map (fun i => Fin (inject_Z (Z.of_nat i))) (seq (S n) (length ps))) ps) (fun y => fsameb y (Fin (inject_Z (Z.of_nat i))))).
        destruct (Nat.eq_dec n i) as [->|N].
        * replace (fsameb (Fin (inject_Z (Z.of_nat i))) (Fin (inject_Z (Z.of_nat i)))) with true by (symmetry; apply fsameb_iff; simpl; reflexivity).
          replace (i - i) with 0 by lia. cbn [nth].
          rewrite (chance_ext _ _ (fun _ => false)); [rewrite chance_never; ring|].
          intros x q Hx. apply in_combine_l in Hx. apply in_map_iff in Hx. destruct Hx as (j & <- & Hj). apply in_seq in Hj.
          apply not_true_is_false. intros K. apply fsameb_iff in K. unfold fsame in K. rewrite inject_Z_injective in K. lia.
        * replace (fsameb (Fin (inject_Z (Z.of_nat n))) (Fin (inject_Z (Z.of_nat i)))) with false.
          -- replace (i - n) with (S (i - S n)) by lia. cbn [nth]. simpl in Hi. rewrite I2 by lia. ring.
          -- symmetry. apply not_true_is_false. intros K. apply fsameb_iff in K. unfold fsame in K. rewrite inject_Z_injective in K. lia.
  Qed.

  (** the law is a law of entries, and the chance of a value is its density *)
  Theorem C132_law h : constructed h -> evenly h -> (total (sample_law h) == 1)%Q /\
    (forall x q, In (x, q) (sample_law h) -> (0 <= q)%Q /\ exists w, entry_of h w x) /\
    forall f v, In v (options h) -> exists x p, to_vector h v = Ok x /\ pdf_value h f v = Ok p /\
      (chance (sample_law h) (fun y => fsameb y x) == p)%Q.
  Proof.
    intros C Ev. assert (W := constructed_wf h C). unfold wf_hp in W.
    assert (G : forall k, hp_size h = Some k -> (0 < k)%Z -> (forall c w, hp_kind h <> KCat c (Some w)) ->
      (total (sample_law h) == 1)%Q /\ (forall x q, In (x, q) (sample_law h) -> (0 <= q)%Q /\ exists w, entry_of h w x) /\
      sample_law h = map (fun n => (sample_vector h {| raw_int := n; raw_real := 0 |}, (1 / inject_Z k)%Q)) (zseq 0 (Z.to_nat k)) /\
      forall n, (0 <= n < k)%Z -> raw_ok h {| raw_int := n; raw_real := 0 |}).
    { intros k Hk Pk NW.
      assert (El : sample_law h = map (fun n => (sample_vector h {| raw_int := n; raw_real := 0 |}, (1 / inject_Z k)%Q)) (zseq 0 (Z.to_nat k))).
      { unfold sample_law. rewrite Hk. destruct (hp_kind h) as [c [w|]| | | |] eqn:K; try reflexivity. destruct (NW c w eq_refl). }
      assert (Pq : (0 < inject_Z k)%Q) by (change 0%Q with (inject_Z 0); rewrite <- Zlt_Qlt; exact Pk).
      assert (Ro : forall n, (0 <= n < k)%Z -> raw_ok h {| raw_int := n; raw_real := 0 |}).
      { intros n Hn. split; [intros k' Hk'; simpl; congruence|]. simpl. repeat split; intros; lra. }
      split; [|split; [|split; [exact El|exact Ro]]].
      - rewrite El. unfold total. rewrite chance_zseq by reflexivity. rewrite Z2Nat.id by lia. field. lra.
      - intros x q Hx. rewrite El in Hx. apply in_map_iff in Hx. destruct Hx as (n & Hx & Hn). injection Hx as <- <-. apply zseq_in in Hn.
        split; [apply Qlt_le_weak, Qlt_shift_div_l; lra|]. apply C41_sampled_partial; [exact C| |apply Ro; lia].
        intros (lo & hi & d & K & D). unfold evenly in Ev. rewrite K in Ev. destruct Ev; congruence. }
    unfold evenly in Ev. destruct (hp_kind h) as [c [ws|]|c|u|lo hi log d|] eqn:K; try contradiction.
    - clear G. destruct W as (W1 & W2 & W3 & W4 & W5 & W6). destruct (probabilities_facts c ws W4 W5 W6) as (P1 & P2 & P3).
      assert (El : sample_law h = combine (map (fun i => Fin (inject_Z (Z.of_nat i))) (seq 0 (length (probabilities c (Some ws))))) (probabilities c (Some ws))).
      { unfold sample_law. rewrite K, P1. reflexivity. }
      rewrite El. destruct (chance_weights (probabilities c (Some ws)) 0) as [C1 C2]. split; [rewrite C1; exact P3|]. split.
      + intros x q Hx. split; [apply in_combine_r in Hx; rewrite Forall_forall in P2; apply P2; exact Hx|].
        apply in_combine_l in Hx. apply in_map_iff in Hx. destruct Hx as (i & <- & Hi). apply in_seq in Hi.
        destruct (entry_seq h c i C (LV_cat _ _ _ K)) as (w & _ & He); [lia|]. eauto.
      + intros f v Hv. unfold options in Hv. rewrite K in Hv. apply In_nth_error in Hv. destruct Hv as (i & Ni).
        assert (Li : (i < length c)%nat) by (apply nth_error_Some; congruence).
        destruct (seq_pdf h c f i v C (LV_cat _ _ _ K) Ni) as (p & P & Q). rewrite K in Q.
        destruct (C34_vectors_roundtrip h c i C (LV_cat _ _ _ K) Li) as (w & _ & N' & _ & T). assert (w = v) by congruence. subst w.
        exists (Fin (inject_Z (Z.of_nat i))), p. split; [exact T|]. split; [exact P|]. rewrite C2 by lia. rewrite Nat.sub_0_r, Q. reflexivity.
    - assert (Pk : (0 < Z.of_nat (length c))%Z) by (destruct c; [exfalso; destruct W as (W & _); simpl in W; try discriminate; try lia; congruence|simpl; lia]).
      assert (Hk : hp_size h = Some (Z.of_nat (length c))) by (unfold hp_size; rewrite K; reflexivity).
      destruct (G _ Hk Pk ltac:(discriminate)) as (G1 & G2 & G3 & G4). split; [exact G1|]. split; [exact G2|]. intros f v Hv.
      destruct (C110_counted_partial h f _ v C Hk) as (n & x & p & N & T & P & Q & R); try (intros; congruence); try exact Hv.
      exists x, p. split; [exact T|]. split; [exact P|]. rewrite G3, Q. apply (chance_one _ _ _ n); [lia|].
      intros i Hi. rewrite fsameb_iff, (R _ (G4 i ltac:(lia))). reflexivity.
    - assert (Pk : (0 < Z.of_nat (length c))%Z) by (destruct c; [exfalso; destruct W as (W & _); simpl in W; try discriminate; try lia; congruence|simpl; lia]).
      assert (Hk : hp_size h = Some (Z.of_nat (length c))) by (unfold hp_size; rewrite K; reflexivity).
      destruct (G _ Hk Pk ltac:(discriminate)) as (G1 & G2 & G3 & G4). split; [exact G1|]. split; [exact G2|]. intros f v Hv.
      destruct (C110_counted_partial h f _ v C Hk) as (n & x & p & N & T & P & Q & R); try (intros; congruence); try exact Hv.
      exists x, p. split; [exact T|]. split; [exact P|]. rewrite G3, Q. apply (chance_one _ _ _ n); [lia|].
      intros i Hi. rewrite fsameb_iff, (R _ (G4 i ltac:(lia))). reflexivity.
    - assert (Hk : hp_size h = Some 1%Z) by (unfold hp_size; rewrite K; reflexivity).
      destruct (G _ Hk ltac:(lia) ltac:(discriminate)) as (G1 & G2 & G3 & G4). split; [exact G1|]. split; [exact G2|]. intros f v Hv.
      unfold options in Hv. rewrite K in Hv. destruct Hv as [<-|[]]. destruct (C110_constant h f u C K) as (x & T & P & R).
      exists x, 1%Q. split; [exact T|]. split; [exact P|]. rewrite G3. rewrite chance_zseq; [simpl; field|]. intros i _. apply fsameb_iff, R.
    - destruct Ev as [-> ->]. assert (Hk : hp_size h = Some (hi - lo + 1)%Z) by (unfold hp_size; rewrite K; reflexivity).
      assert (Pk : (0 < hi - lo + 1)%Z) by (destruct W as (W & _); lia).
      destruct (G _ Hk Pk ltac:(discriminate)) as (G1 & G2 & G3 & G4). split; [exact G1|]. split; [exact G2|]. intros f v Hv.
      destruct (C110_counted_partial h f _ v C Hk) as (n & x & p & N & T & P & Q & R); try (intros; congruence); try exact Hv.
      { intros lo' hi' log' d' K'. rewrite K in K'. injection K' as <- <- <- <-. auto. }
      exists x, p. split; [exact T|]. split; [exact P|]. rewrite G3, Q. apply (chance_one _ _ _ n); [lia|].
      intros i Hi. rewrite fsameb_iff, (R _ (G4 i ltac:(lia))). reflexivity.
  Qed.
End Laws.

Section Density.
  Context {E : Env} {L : EnvLaws E}.

  Lemma density_perm f d hs hs' : Permutation hs hs' -> (density f d hs == density f d hs')%Q.
  Proof.
    unfold density. induction 1 as [|h l l' _ IH|h k l|l m r _ IH1 _ IH2]; cbn [fold_right].
    - reflexivity.
    - rewrite IH. reflexivity.
    - ring.
    - rewrite IH1. exact IH2.
  Qed.
  Lemma Forall2_nth_error {A B} (P : A -> B -> Prop) (l : list A) : forall m : list B, length l = length m ->
    (forall i a b, nth_error l i = Some a -> nth_error m i = Some b -> P a b) -> Forall2 P l m.
  Proof.
    induction l as [|a l IH]; intros [|b m] Hl H; try discriminate; constructor.
    - apply (H 0 a b); reflexivity.
    - apply IH; [simpl in Hl; congruence|]. intros i x y Hx Hy. apply (H (S i) x y); assumption.
  Qed.
  Lemma fsameb_same y x x' : fsame x x' -> fsameb y x = fsameb y x'.
  Proof.
    intros F. destruct (fsameb y x) eqn:E1, (fsameb y x') eqn:E2; try reflexivity; exfalso.
    - apply fsameb_iff in E1. assert (G := fsame_trans _ _ _ E1 F). apply fsameb_iff in G. congruence.
    - apply fsameb_iff in E2. assert (G := fsame_trans _ _ _ E2 (fsame_sym _ _ F)). apply fsameb_iff in G. congruence.
  Qed.

  (** the laws of the entries of a space *)
  Definition laws (s : space) : list (list (fval * Q)) := map sample_law (Space.hps s).

  Lemma hps_nth s hs cs fs i h : space_ok s hs cs fs -> nth_error (Space.hps s) i = Some h ->
    In h hs /\ assoc (hp_name h) (index_of s) = Some i.
  Proof.
    intros O Hi. assert (Hh : In h hs) by (eapply Permutation_in; [apply (so_hps O)|apply (nth_error_In _ _ Hi)]).
    split; [exact Hh|]. destruct (so_hp_index O h Hh) as (j & Hj & _ & Hn & Ha). rewrite Hj. f_equal.
    rewrite (so_hp_at O) in Ha. unfold Space.hps, items in Hi. rewrite map_map in Hi.
    assert (N : NoDup (map (fun e => hp_name (n_hp (snd e))) (d_nodes (s_dag s)))).
    { assert (P := Permutation_map hp_name (so_hps O)). unfold Space.hps, items in P. rewrite !map_map in P. cbn [snd] in P.
      apply (Permutation_NoDup (Permutation_sym P)), (so_names_nodup O). }
    rewrite nth_error_map in Hi. destruct (nth_error (d_nodes (s_dag s)) i) as [e|] eqn:Ei; [|discriminate]. simpl in Hi. injection Hi as <-.
    destruct (nth_error (d_nodes (s_dag s)) j) as [e'|] eqn:Ej; [|discriminate]. simpl in Ha. injection Ha as Ha.
    symmetry. apply (proj1 (NoDup_nth_error _) N).
    - rewrite map_length. apply nth_error_Some. congruence.
    - rewrite !nth_error_map, Ei, Ej. simpl. rewrite Ha. reflexivity.
  Qed.

  Lemma laws_fit s hs cs fs : space_ok s hs cs fs -> (forall h, In h hs -> evenly h) -> fits s hs (laws s).
  Proof.
    intros O Ev. assert (Ll : length (laws s) = s_len s).
    { unfold laws. rewrite map_length, (Permutation_length (so_hps O)), (len_hs s hs cs fs O). reflexivity. }
    split; [exact Ll|]. intros h i Hh Hi.
    assert (Hlt : i < length (Space.hps s)).
    { unfold laws in Ll. rewrite map_length in Ll. rewrite Ll. apply (so_index_lt O _ _ Hi). }
    destruct (nth_error (Space.hps s) i) as [k|] eqn:Ek; [|apply nth_error_None in Ek; lia].
    destruct (hps_nth s hs cs fs i k O Ek) as [Hk Ik].
    assert (Nm : hp_name k = hp_name h).
    { apply (so_index O) in Hi, Ik. congruence. }
    assert (k = h).
    { assert (G1 := proj2 (so_get_hp O (hp_name h) h) (conj Hh eq_refl)). assert (G2 := proj2 (so_get_hp O (hp_name h) k) (conj Hk Nm)). congruence. }
    subst k. assert (El : nth i (laws s) [] = sample_law h).
    { unfold laws. apply nth_error_nth. rewrite nth_error_map, Ek. reflexivity. }
    rewrite El. destruct (C132_law h (so_constructed O h Hh) (Ev h Hh)) as (A1 & A2 & _). split; [exact A1|].
    intros x q Hx. apply (A2 x q Hx).
  Qed.

  Lemma options_exact h w : In w (options h) -> exact_value h w.
  Proof.
    unfold options, exact_value. destruct (hp_kind h); try (intros; exact I). intros H. apply in_map_iff in H.
    destruct H as (z & <- & _). exists (inject_Z z), z. split; [reflexivity|reflexivity].
  Qed.

  Lemma weight_density s hs cs fs f c d : space_ok s hs cs fs -> (forall h, In h hs -> evenly h) -> represents s hs c d ->
    (forall h w, In h hs -> d (hp_name h) = Some w -> In w (options h)) ->
    (weight (laws s) (c_vector c) == density f d hs)%Q.
  Proof.
    intros O Ev [Lc Rp] Op. rewrite <- (density_perm f d _ _ (so_hps O)).
    assert (F : Forall2 (fun h x => ((if isnan x then 1 else chance (sample_law h) (fun y => fsameb y x))
                 == match d (hp_name h) with Some w => get_or 0 (pdf_value h f w) | None => 1 end)%Q) (Space.hps s) (c_vector c)).
    { apply Forall2_nth_error.
      - rewrite Lc, (Permutation_length (so_hps O)), (len_hs s hs cs fs O). reflexivity.
      - intros i h x Hi Hx. destruct (hps_nth s hs cs fs i h O Hi) as [Hh Ii]. specialize (Rp h Hh). unfold vget in Rp. rewrite Ii in Rp.
        rewrite (nth_error_nth _ _ NaN Hx) in Rp. destruct (d (hp_name h)) as [w|] eqn:Ed; [|rewrite Rp; reflexivity].
        destruct Rp as (Hl & x' & Tx & F). destruct (C132_law h (so_constructed O h Hh) (Ev h Hh)) as (_ & _ & A).
        destruct (A f w (Op h w Hh Ed)) as (x2 & p & T2 & P & Cp). assert (x2 = x') by congruence. subst x2.
        assert (Nx : isnan x = false).
        { assert (Lx := exact_legal_vector h w x' (so_constructed O h Hh) Hl (options_exact h w (Op h w Hh Ed)) Tx). apply legal_vector_finite in Lx.
          destruct x, x'; simpl in *; try reflexivity; try contradiction; discriminate. }
        rewrite Nx, P. simpl get_or. rewrite <- Cp. apply chance_ext. intros y q _. apply fsameb_same. exact F. }
    clear - F. unfold laws, density. induction F as [|h x l v Hhx _ IH]; [reflexivity|]. cbn [map weight fold_right]. rewrite Hhx, IH. reflexivity.
  Qed.

  (** for spaces of choices, ordinals, constants and uniform integers, with the laws of the library: a sampled
      configuration is drawn with the product of the densities of its values *)
  Theorem C132_density_partial s hs cs fs f c d fuel : tame s hs cs fs -> orderly cs -> hs <> [] -> (forall h, In h hs -> evenly h) ->
    represents s hs c d -> (forall h w, In h hs -> d (hp_name h) = Some w -> In w (options h)) -> valid hs cs fs d ->
    let a := chance (independent (laws s)) (accepted s) in
    (chance (independent (laws s)) (yields s (c_vector c)) == density f d hs)%Q /\
    (a * chance (independent (repeat (independent (laws s)) (fuel * next_size s 1))) (returns s fuel (c_vector c))
     == density f d hs * (1 - qpow (1 - a) (fuel * next_size s 1)))%Q.
  Proof.
    intros T Or Ne Ev Rp Op V. cbv zeta. assert (O := built_ok _ _ _ _ (tm_built _ _ _ _ T)).
    assert (Ex : exact_all hs d) by (intros h w Hh Hd; apply options_exact, (Op h w Hh Hd)).
    assert (F := laws_fit s hs cs fs O Ev). rewrite <- (weight_density s hs cs fs f c d O Ev Rp Op). split.
    - apply (C132_column_partial s hs cs fs (laws s) c d); assumption.
    - apply (C132_sample_partial s hs cs fs (laws s) c d fuel); assumption.
  Qed.
End Density.

(** ** Examples *)
Section Witness.
  Local Existing Instance rat_env.

  (** x is active when r is 1; x = 0 and y = 0 are forbidden together *)
  Definition few_hps := [bin "r"; bin "x"; bin "y"].
  Definition few_conds := [on "1" "x" "r"].
  Definition few_x := get_or dummy_forb (mk_feq (bin "x") (VStr "0")).
  Definition few_y := get_or dummy_forb (mk_feq (bin "y") (VStr "0")).
  Definition few_and := get_or dummy_forb (mk_fand [few_x; few_y]).
  Definition few_space := fst (add empty_space few_hps few_conds [few_and]).
  Lemma few_built : built few_space few_hps few_conds [few_and].
  Proof.
    apply (built_step empty_space [] [] [] few_hps few_conds [few_and] built_empty); [| | |vm_compute; reflexivity].
    - repeat (constructor; [apply bin_c|]). constructor.
    - constructor; [|constructor]. apply (CB_bin OpEq (bin "x") (bin "r") (VStr "1") _ (bin_c _) (bin_c _)); vm_compute; reflexivity.
    - constructor; [|constructor]. apply (FB_and [few_x; few_y] few_and); [|vm_compute; reflexivity]. intros g [<-|[<-|[]]].
      + apply (FB_eq (bin "x") (VStr "0") few_x (bin_c _)). vm_compute. reflexivity.
      + apply (FB_eq (bin "y") (VStr "0") few_y (bin_c _)). vm_compute. reflexivity.
  Qed.
  Lemma few_tame : tame few_space few_hps few_conds [few_and].
  Proof.
    constructor; [apply few_built| | | |].
    - split.
      + intros c [<-|[]] l Hl. vm_compute in Hl. repeat (destruct Hl as [<-|Hl]; [split; vm_compute; tauto|]); tauto.
      + intros g [<-|[]] h Hh. vm_compute in Hh. repeat (destruct Hh as [<-|Hh]; [vm_compute; tauto|]); destruct Hh.
    - intros c d v [<-|[]] [<-|[]] H. reflexivity.
    - intros c l w vv [<-|[]] Hl Ht. vm_compute in Hl. repeat (destruct Hl as [<-|Hl]; [exfalso; clear -Ht; vm_compute in Ht; discriminate Ht|]); destruct Hl.
    - intros g [<-|[]] r a b Hr. exfalso. vm_compute in Hr. repeat (destruct Hr as [Hr|Hr]; [discriminate Hr|]). destruct Hr.
  Qed.
  Definition few_lev (n : string) : nat := if String.eqb n "x" then 2 else 1.
  Lemma few_orderly : orderly few_conds.
  Proof.
    assert (LA := rat_env_laws). apply (C20_guard_levels few_space few_hps few_conds [few_and] few_lev few_built).
    - intros c [<-|[]]. exact I.
    - intros n. unfold few_lev. destruct (String.eqb n "x"); lia.
    - intros p n (c & [<-|[]] & Ha & Hp). vm_compute in Ha. inversion Ha; subst. vm_compute in Hp. destruct Hp as [<-|[]]. reflexivity.
    - intros n H. destruct (string_dec n "x") as [->|Hn]; [|unfold few_lev in H; apply String.eqb_neq in Hn; rewrite Hn in H; lia]. exists "r"%string, (on "1" "x" "r").
      split; [left; reflexivity|]. split; vm_compute; tauto.
  Qed.
  Definition few_vals : list (string * option value) := [("r", Some (VStr "1")); ("x", Some (VStr "0")); ("y", Some (VStr "1"))]%string.
  Definition few_config := get_or (mk_config [] None false) (config_of_values few_space few_vals false).
  Definition off_vals : list (string * option value) := [("r", Some (VStr "0")); ("y", Some (VStr "0"))]%string.
  Definition off_config := get_or (mk_config [] None false) (config_of_values few_space off_vals false).

  Lemma few_case vals c : config_of_values few_space vals false = Ok c ->
    represents few_space few_hps c (store few_hps (given vals)) /\ exact_all few_hps (store few_hps (given vals)) /\
    valid few_hps few_conds [few_and] (store few_hps (given vals)).
  Proof.
    intros Hc. assert (LA := rat_env_laws). assert (O := built_ok _ _ _ _ few_built).
    assert (St := store_stored few_hps (given vals) (so_names_nodup O)).
    assert (Ex : forall d, exact_all few_hps d).
    { intros d h w Hh _. repeat (destruct Hh as [<-|Hh]; [exact I|]). destruct Hh. }
    split; [exact (C20_start _ _ _ _ _ _ _ _ few_built St Hc)|]. split; [apply Ex|].
    apply (C17_accepts_valid_partial few_space few_hps few_conds [few_and] vals _ few_tame St (Ex _)). exists c. exact Hc.
  Qed.

  (** the configuration with three values has 1/8, the one with two 1/4, and one column in eight is rejected *)
  Example C132_ex : tame few_space few_hps few_conds [few_and] /\ orderly few_conds /\ fits few_space few_hps (laws few_space) /\
    represents few_space few_hps few_config (store few_hps (given few_vals)) /\ exact_all few_hps (store few_hps (given few_vals)) /\
    valid few_hps few_conds [few_and] (store few_hps (given few_vals)) /\
    valid few_hps few_conds [few_and] (store few_hps (given off_vals)) /\
    (weight (laws few_space) (c_vector few_config) == 1#8)%Q /\ (weight (laws few_space) (c_vector off_config) == 1#4)%Q /\
    (chance (independent (laws few_space)) (accepted few_space) == 7#8)%Q /\
    (chance (independent (laws few_space)) (yields few_space (c_vector off_config)) == 1#4)%Q.
  Proof.
    assert (LA := rat_env_laws). assert (O := built_ok _ _ _ _ few_built).
    destruct (few_case few_vals few_config ltac:(vm_compute; reflexivity)) as (A1 & A2 & A3).
    destruct (few_case off_vals off_config ltac:(vm_compute; reflexivity)) as (_ & _ & B3).
    split; [exact few_tame|]. split; [exact few_orderly|].
    split; [apply (laws_fit _ _ _ _ O); intros h Hh; repeat (destruct Hh as [<-|Hh]; [exact I|]); destruct Hh|].
    split; [exact A1|]. split; [exact A2|]. split; [exact A3|]. split; [exact B3|]. repeat split; vm_compute; reflexivity.
  Qed.

  (** ** Without the order condition this is false: part of the probability of r = 0, q = 1 goes to an invalid vector *)
  Definition lost_vals : list (string * option value) := [("r", Some (VStr "0")); ("q", Some (VStr "1"))]%string.
  Definition lost_config := get_or (mk_config [] None false) (config_of_values deep_space lost_vals false).
  Theorem C132_order_refuted : exists s hs cs fs c d, tame s hs cs fs /\ fits s hs (laws s) /\
    represents s hs c d /\ exact_all hs d /\ valid hs cs fs d /\ (weight (laws s) (c_vector c) == 1#4)%Q /\
    (chance (independent (laws s)) (yields s (c_vector c)) < 1#4)%Q /\ (chance (independent (laws s)) (accepted s) == 1)%Q.
  Proof.
    assert (LA := rat_env_laws). assert (O := built_ok _ _ _ _ deep_built).
    assert (St := store_stored bin_hps (given lost_vals) bin_nodup).
    assert (Ok1 : config_of_values deep_space lost_vals false = Ok lost_config) by (vm_compute; reflexivity).
    exists deep_space, bin_hps, deep_conds, [], lost_config, (store bin_hps (given lost_vals)).
    split; [exact deep_tame|].
    split; [apply (laws_fit _ _ _ _ O); intros h Hh; repeat (destruct Hh as [<-|Hh]; [exact I|]); destruct Hh|].
    split; [exact (C20_start _ _ _ _ _ _ _ _ deep_built St Ok1)|]. split; [apply bin_exact|].
    split; [apply (C17_accepts_valid_partial deep_space bin_hps deep_conds [] lost_vals _ deep_tame St (bin_exact _)); eauto|].
    split; [vm_compute; reflexivity|]. split; vm_compute; reflexivity.
  Qed.
End Witness.
