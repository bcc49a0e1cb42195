(** * Properties C33, C69: deactivate_inactive_hyperparameters *)
From Coq Require Import String List ZArith QArith Bool Lia Permutation Relations.
From Verif Require Import Base ListFacts Numeric NumericProofs HP HPProofs Properties_HP Cond Forb EqFacts Dag DagProofs Space CommitProofs Spec
  SpaceProofs CnodeProofs ForbProofs EvalProofs ForbEval MergeProofs ValidProofs ConfigProofs ChangeProofs Ex Properties_Eval Properties_Config
  Properties_Change Dist DistProofs Properties_Dist Util LookupProofs ExchangeProofs Properties_Exchange Random Properties_Raise Properties_Random Repair.
Import ListNotations.
Open Scope nat_scope.

Section Repair.
  Context {E : Env} {L : EnvLaws E}.

  (** ** Fewer values make fewer conditions and clauses hold *)
  Definition below (d' d : assignment) (n : string) : Prop :=
    forall w', d' n = Some w' -> exists w, d n = Some w /\ py_eqb w' w = true.

  Lemma less_congr h a a' b b' : py_eqb a a' = true -> py_eqb b b' = true -> less_in h a b -> less_in h a' b'.
  Proof.
    intros Qa Qb. assert (Num : forall x x' q, py_eqb x x' = true -> num_of x = Some q -> exists q', num_of x' = Some q' /\ (q == q')%Q).
    { intros x x' q Q Hq. unfold py_eqb in Q. rewrite Hq in Q. destruct (num_of x') as [q'|]; [|destruct x; discriminate].
      exists q'. split; [reflexivity|apply Qeq_bool_iff; exact Q]. }
    unfold less_in. destruct (hp_kind h) as [c w|sq|u|lo hi log dd|lo hi log dd];
      try (intros (x & y & Hx & Hy & Lt); destruct (Num a a' x Qa Hx) as (x' & Hx' & Ex), (Num b b' y Qb Hy) as (y' & Hy' & Ey);
           exists x', y'; split; [exact Hx'|]; split; [exact Hy'|]; rewrite <- Ex, <- Ey; exact Lt).
    intros (i & j & u & v & Hi & Hj & Qu & Qv & Lt). exists i, j, u, v. split; [exact Hi|]. split; [exact Hj|].
    split; [apply (py_eqb_trans _ _ _ Qu Qa)|]. split; [apply (py_eqb_trans _ _ _ Qv Qb)|exact Lt].
  Qed.

  Lemma test_congr h t w w' : py_eqb w w' = true -> test_means h t w -> test_means h t w'.
  Proof.
    intros Q. assert (Q' : py_eqb w' w = true) by (rewrite py_eqb_sym; exact Q). destruct t as [o v vv|vs vvs]; [destruct o|]; simpl.
    - intros H. apply (py_eqb_trans _ _ _ Q' H).
    - intros H. destruct (py_eqb w' v) eqn:K; [|reflexivity]. rewrite (py_eqb_trans _ _ _ Q K) in H. discriminate.
    - apply less_congr; [exact Q|apply py_eqb_refl].
    - apply less_congr; [apply py_eqb_refl|exact Q].
    - intros (v & Hv & H). exists v. split; [exact Hv|apply (py_eqb_trans _ _ _ Q' H)].
  Qed.

  Lemma holds_mono d' d c : (forall l, In l (dlcs c) -> below d' d (parent_name l)) -> holds d' c -> holds d c.
  Proof.
    induction c as [l|cs IH|cs IH] using cond_ind'; intros Hb.
    - cbn [holds]. intros (w' & Hw & T). destruct (Hb l (or_introl eq_refl) w' Hw) as (w & Hw' & Q). exists w. split; [exact Hw'|].
      apply (test_congr _ _ w' w Q T).
    - rewrite Forall_forall in IH. assert (G : forall c, In c cs -> holds d' c -> holds d c).
      { intros c Hc. apply (IH c Hc). intros l Hl. apply Hb. simpl. apply in_concat. exists (dlcs c). split; [apply in_map; exact Hc|exact Hl]. }
      cbn [holds]. clear IH Hb. induction cs as [|c cs IH]; [auto|]. simpl. intros [H1 H2]. split; [apply G; simpl; auto|].
      apply IH; [intros c' Hc'; apply G; simpl; auto|exact H2].
    - rewrite Forall_forall in IH. assert (G : forall c, In c cs -> holds d' c -> holds d c).
      { intros c Hc. apply (IH c Hc). intros l Hl. apply Hb. simpl. apply in_concat. exists (dlcs c). split; [apply in_map; exact Hc|exact Hl]. }
      cbn [holds]. clear IH Hb. induction cs as [|c cs IH]; [auto|]. simpl. intros [H1|H2]; [left; apply G; simpl; auto|right].
      apply IH; [intros c' Hc'; apply G; simpl; auto|exact H2].
  Qed.

  Lemma rel_congr r a a' b b' : py_eqb a a' = true -> py_eqb b b' = true -> rel_means r a b -> rel_means r a' b'.
  Proof.
    intros Qa Qb. assert (Lt : forall x x' y y', py_eqb x x' = true -> py_eqb y y' = true -> py_ltb x y = Some true -> py_ltb x' y' = Some true).
    { intros x x' y y' Qx Qy. unfold py_ltb, py_eqb in *.
      destruct (num_of x) as [p|] eqn:Nx, (num_of x') as [p'|] eqn:Nx', (num_of y) as [q|] eqn:Ny, (num_of y') as [q'|] eqn:Ny';
        try (destruct x, x'; discriminate); try (destruct y, y'; discriminate); try discriminate.
      - apply Qeq_bool_iff in Qx, Qy. intros H. injection H as H. f_equal. apply Qltb_lt in H. apply Qltb_lt. rewrite <- Qx, <- Qy. exact H.
      - destruct x, y, x', y'; try discriminate; auto; simpl in *; repeat match goal with H : String.eqb _ _ = true |- _ => apply String.eqb_eq in H; subst end; auto. }
    destruct r; simpl; try (apply Lt; assumption).
    intros H. rewrite py_eqb_sym in Qa. apply (py_eqb_trans _ _ _ Qa). apply (py_eqb_trans _ _ _ H Qb).
  Qed.

  Lemma violated_mono d' d f : (forall n, In n (forb_names f) -> below d' d n) -> violated d' f -> violated d f.
  Proof.
    induction f as [h w ww|h ws wws|rr a b|fs IH] using fclause_ind'; intros Hb; cbn [violated].
    - intros (v' & Hv & Q). destruct (Hb (hp_name h) (or_introl eq_refl) v' Hv) as (v & Hv' & Qv). exists v. split; [exact Hv'|].
      rewrite py_eqb_sym in Qv. apply (py_eqb_trans _ _ _ Qv Q).
    - intros (v' & u & Hv & Hu & Q). destruct (Hb (hp_name h) (or_introl eq_refl) v' Hv) as (v & Hv' & Qv). exists v, u. split; [exact Hv'|].
      split; [exact Hu|]. rewrite py_eqb_sym in Qv. apply (py_eqb_trans _ _ _ Qv Q).
    - intros (x' & y' & Hx & Hy & R). destruct (Hb (hp_name a) (or_introl eq_refl) x' Hx) as (x & Hx' & Qx).
      destruct (Hb (hp_name b) (or_intror (or_introl eq_refl)) y' Hy) as (y & Hy' & Qy). exists x, y. split; [exact Hx'|]. split; [exact Hy'|].
      apply (rel_congr rr x' x y' y); assumption.
    - rewrite Forall_forall in IH. assert (G : forall f, In f fs -> violated d' f -> violated d f).
      { intros f Hf. apply (IH f Hf). intros n Hn. apply Hb. apply forb_names_and. eauto. }
      clear IH Hb. induction fs as [|f fs IH]; [auto|]. simpl. intros [H1 H2]. split; [apply G; simpl; auto|].
      apply IH; [intros f' Hf'; apply G; simpl; auto|exact H2].
  Qed.

  (** ... in a space *)
  Lemma active_mono hs cs fs d' d n : refs hs cs fs -> (forall h, In h hs -> below d' d (hp_name h)) -> active cs d' n -> active cs d n.
  Proof. intros [R _] Hb A c Hc Ha. apply (holds_mono d' d c); [|apply A; assumption]. intros l Hl. apply Hb. apply (R c Hc l Hl). Qed.
  Lemma forb_mono hs cs fs d' d f : refs hs cs fs -> (forall h, In h hs -> below d' d (hp_name h)) -> In f fs -> violated d' f -> violated d f.
  Proof.
    intros [_ R] Hb Hf. apply violated_mono. intros n Hn. apply in_map_iff in Hn. destruct Hn as (h & <- & Hh). apply Hb. apply (R f Hf h Hh).
  Qed.

  (** ** One deletion *)
  Definition without (d : assignment) (n : string) : assignment := fun m => if String.eqb m n then None else d m.
  Lemma without_same d n : without d n n = None.
  Proof. unfold without. rewrite String.eqb_refl. reflexivity. Qed.
  Lemma without_other d n m : m <> n -> without d n m = d m.
  Proof. intros H. unfold without. destruct (String.eqb_spec m n); congruence. Qed.

  (** the values that the configuration holds and shows *)
  Definition carries (s : space) (hs : list hp) (c : config) (d : assignment) : Prop := represents s hs c d /\ shows s hs c d.
  (** values as stored *)
  Definition rounded (hs : list hp) (d : assignment) : Prop :=
    forall h w, In h hs -> d (hp_name h) = Some w -> py_eqb (round_value h w) w = true.

  (** what Configuration(allow_inactive_with_values=True) asks for *)
  Record lax (hs : list hp) (cs : list cond) (fs : list fclause) (d : assignment) : Prop := {
    lx_legal : all_legal hs d;
    lx_exact : exact_all hs d;
    lx_round : rounded hs d;
    lx_set : forall h, In h hs -> active cs d (hp_name h) -> d (hp_name h) <> None;
    lx_forb : forall f, In f fs -> ~ violated d f
  }.

  Lemma dict_facts hs vals d : (forall h, In h hs -> constructed h) -> dict_shows hs vals d -> all_legal hs d -> exact_all hs d -> rounded hs d -> NoDup (map hp_name hs) ->
    let gv := given (some_values vals) in
    all_legal hs gv /\ exact_all hs gv /\
    (forall h, In h hs -> below (store hs gv) d (hp_name h)) /\ (forall h, In h hs -> below d (store hs gv) (hp_name h)) /\
    (forall k, In k (map fst (some_values vals)) -> k = ""%string \/ In k (map hp_name hs)).
  Proof.
    intros C (D1 & D2 & D3) Al Ex Rd ND. cbv zeta. assert (St := store_stored hs (given (some_values vals)) ND).
    assert (G : forall h z, In h hs -> assoc (hp_name h) vals = Some z -> exists u, d (hp_name h) = Some u /\ py_eqb z u = true).
    { intros h z Hh Hz. assert (D := D3 h Hh). destruct (d (hp_name h)) as [u|] eqn:Eu; [|congruence]. destruct D as (z' & Hz' & Q).
      assert (z' = z) by congruence. subst z'. exists u. split; [reflexivity|]. apply (py_eqb_trans _ _ _ Q (Rd h u Hh Eu)). }
    split; [|split; [|split; [|split]]].
    - intros h z Hh Hz. rewrite given_some in Hz. destruct (G h z Hh Hz) as (u & Eu & Q). apply (legal_congr h u z); [rewrite py_eqb_sym; exact Q|].
      apply (Al h u Hh Eu).
    - intros h z Hh Hz. rewrite given_some in Hz. destruct (G h z Hh Hz) as (u & Eu & Q). apply (exact_congr h z u Q). apply (Ex h u Hh Eu).
    - intros h Hh w' Hw. rewrite (St h Hh), given_some in Hw. destruct (assoc (hp_name h) vals) as [z|] eqn:Hz; [|discriminate]. injection Hw as <-.
      destruct (G h z Hh Hz) as (u & Eu & Q). exists u. split; [exact Eu|]. apply (py_eqb_trans _ (round_value h u)); [apply round_congr; exact Q|].
      apply (Rd h u Hh Eu).
    - intros h Hh u Eu. assert (D := D3 h Hh). rewrite Eu in D. destruct D as (z & Hz & _). exists (round_value h z).
      split; [rewrite (St h Hh), given_some, Hz; reflexivity|]. destruct (G h z Hh Hz) as (u' & Eu' & Q). assert (u' = u) by congruence. subst u'.
      rewrite py_eqb_sym. apply (py_eqb_trans _ (round_value h u)); [apply round_congr; exact Q|]. apply (Rd h u Hh Eu).
    - intros k Hk. rewrite keys_some in Hk. right. apply D2. exact Hk.
  Qed.

  (** a configuration made of such a dictionary has the same values *)
  Lemma dict_carries s hs cs fs vals d allow c : built s hs cs fs -> dict_shows hs vals d -> all_legal hs d -> exact_all hs d -> rounded hs d ->
    config_of_values s (some_values vals) allow = Ok c -> carries s hs c d.
  Proof.
    intros B Ds Al Ex Rd H. assert (O := built_ok _ _ _ _ B). assert (ND := so_names_nodup O).
    destruct (dict_facts hs vals d (so_constructed O) Ds Al Ex Rd ND) as (Gl & Gx & B1 & B2 & _). set (gv := given (some_values vals)) in *.
    assert (St := store_stored hs gv ND). assert (Rep := C20_start s hs cs fs _ _ _ _ B St H). assert (Sh := shows_values s hs cs fs _ _ _ _ B H St).
    split.
    - split; [apply Rep|]. intros h Hh. assert (Rh := proj2 Rep h Hh). specialize (B1 h Hh). specialize (B2 h Hh). unfold below in B1, B2.
      destruct (d (hp_name h)) as [u|] eqn:Eu.
      + destruct (B2 u eq_refl) as (w & Hw & Q). rewrite Hw in Rh. destruct Rh as (Lw & x & Hx & F). split; [apply (Al h u Hh Eu)|].
        destruct (legal_finite h u (so_constructed O h Hh) (Al h u Hh Eu)) as (q & Hq). exists (Fin q). split; [exact Hq|].
        apply (fsame_trans _ x); [exact F|]. apply (to_vector_same h w u x (Fin q) (so_constructed O h Hh) Lw (Al h u Hh Eu) Hx Hq). rewrite py_eqb_sym. exact Q.
      + destruct (store hs gv (hp_name h)) as [w|]; [|exact Rh]. destruct (B1 w eq_refl) as (w' & K & _). discriminate.
    - intros h u Hh Eu. destruct (B2 h Hh u Eu) as (w & Hw & Q). destruct (Sh h w Hh Hw) as (z & Hz & Qz). exists z. split; [exact Hz|].
      apply (py_eqb_trans _ _ _ Qz). apply round_congr. rewrite py_eqb_sym. exact Q.
  Qed.

  (** ... and is accepted if *)
  Lemma dict_lax s hs cs fs vals d : tame s hs cs fs -> dict_shows hs vals d -> lax hs cs fs d ->
    exists c, config_of_values s (some_values vals) true = Ok c.
  Proof.
    intros T Ds Lx. assert (O := built_ok _ _ _ _ (tm_built _ _ _ _ T)). assert (ND := so_names_nodup O). assert (R := tm_refs _ _ _ _ T).
    destruct (dict_facts hs vals d (so_constructed O) Ds (lx_legal _ _ _ _ Lx) (lx_exact _ _ _ _ Lx) (lx_round _ _ _ _ Lx) ND) as (Gl & Gx & B1 & B2 & Kn).
    set (gv := given (some_values vals)) in *. assert (St := store_stored hs gv ND).
    apply (C68_allow_partial s hs cs fs (some_values vals) (store hs gv) T St Gx). split; [exact Kn|]. split; [exact Gl|]. split.
    - intros h Hh A. apply (active_mono hs cs fs _ d (hp_name h) R B1) in A. apply (lx_set _ _ _ _ Lx h Hh) in A.
      destruct (d (hp_name h)) as [u|] eqn:Eu; [|congruence]. destruct (B2 h Hh u Eu) as (w & -> & _). discriminate.
    - intros f Hf K. apply (lx_forb _ _ _ _ Lx f Hf). apply (forb_mono hs cs fs (store hs gv) d f R B1 Hf K).
  Qed.

  Lemma dict_strict s hs cs fs vals d : tame s hs cs fs -> dict_shows hs vals d -> all_legal hs d -> exact_all hs d -> rounded hs d ->
    ((exists c, config_of_values s (some_values vals) false = Ok c) <-> valid hs cs fs d).
  Proof.
    intros T Ds Al Ex Rd. assert (O := built_ok _ _ _ _ (tm_built _ _ _ _ T)). assert (ND := so_names_nodup O). assert (R := tm_refs _ _ _ _ T).
    destruct (dict_facts hs vals d (so_constructed O) Ds Al Ex Rd ND) as (Gl & Gx & B1 & B2 & Kn).
    set (gv := given (some_values vals)) in *. assert (St := store_stored hs gv ND).
    assert (Same : forall h, In h hs -> (d (hp_name h) <> None <-> store hs gv (hp_name h) <> None)).
    { intros h Hh. split.
      - intros K. destruct (d (hp_name h)) as [u|] eqn:Eu; [|congruence]. destruct (B2 h Hh u Eu) as (w & -> & _). discriminate.
      - intros K. destruct (store hs gv (hp_name h)) as [u|] eqn:Eu; [|congruence]. destruct (B1 h Hh u Eu) as (w & -> & _). discriminate. }
    rewrite (C17_accepts_valid_partial s hs cs fs (some_values vals) (store hs gv) T St Gx). split.
    - intros (_ & _ & V). constructor; [exact Al| |].
      + intros h Hh. rewrite (Same h Hh), (va_active _ _ _ _ V h Hh).
        split; [apply (active_mono hs cs fs _ _ _ R B1)|apply (active_mono hs cs fs _ _ _ R B2)].
      + intros f Hf K. apply (va_forb _ _ _ _ V f Hf). apply (forb_mono hs cs fs d _ f R B2 Hf K).
    - intros V. split; [exact Kn|]. split; [exact Gl|]. constructor.
      + intros h w Hh Hw. rewrite (St h Hh) in Hw. destruct (gv (hp_name h)) as [z|] eqn:Ez; [|discriminate]. injection Hw as <-.
        apply round_legal; [apply (so_constructed O h Hh)|apply (Gl h z Hh Ez)].
      + intros h Hh. rewrite <- (Same h Hh), (va_active _ _ _ _ V h Hh).
        split; [apply (active_mono hs cs fs _ _ _ R B2)|apply (active_mono hs cs fs _ _ _ R B1)].
      + intros f Hf K. apply (va_forb _ _ _ _ V f Hf). apply (forb_mono hs cs fs _ d f R B1 Hf K).
  Qed.

  Lemma assoc_del {A} n m (vals : list (string * A)) : assoc m (del n vals) = if String.eqb m n then None else assoc m vals.
  Proof.
    unfold del. induction vals as [|[k v] l IH]; simpl; [destruct (String.eqb m n); reflexivity|].
    destruct (String.eqb_spec n k) as [->|Ne]; simpl.
    - rewrite IH. destruct (String.eqb_spec m k); [reflexivity|]. reflexivity.
    - destruct (String.eqb_spec m k) as [->|Nm]; [|exact IH]. destruct (String.eqb_spec k n); [congruence|reflexivity].
  Qed.

  Lemma del_shows hs vals d h : dict_shows hs vals d -> dict_shows hs (del (hp_name h) vals) (without d (hp_name h)).
  Proof.
    intros (D1 & D2 & D3). assert (Sub : forall k, In k (map fst (del (hp_name h) vals)) -> In k (map fst vals)).
    { intros k Hk. apply in_map_iff in Hk. destruct Hk as (kv & <- & Hk). apply filter_In in Hk. apply in_map. apply Hk. }
    split; [|split; [auto|]].
    - unfold del. clear -D1. induction vals as [|kv l IH]; [constructor|]. inversion D1 as [|? ? Hn D1']. subst. simpl.
      destruct (negb _); [|apply IH; exact D1']. simpl. constructor; [|apply IH; exact D1'].
      intros K. apply Hn. apply in_map_iff in K. destruct K as (kv' & <- & K). apply filter_In in K. apply in_map. apply K.
    - intros g Hg. rewrite assoc_del. unfold without. destruct (String.eqb (hp_name g) (hp_name h)); [reflexivity|]. apply D3. exact Hg.
  Qed.

  Lemma without_lax hs cs fs d h : refs hs cs fs -> lax hs cs fs d -> In h hs -> ~ active cs d (hp_name h) -> lax hs cs fs (without d (hp_name h)).
  Proof.
    intros R [A1 A2 A3 A4 A5] Hh Na. set (n := hp_name h) in *.
    assert (W : forall m w, without d n m = Some w -> d m = Some w).
    { intros m w. unfold without. destruct (String.eqb m n); [discriminate|auto]. }
    assert (Bl : forall g, In g hs -> below (without d n) d (hp_name g)).
    { intros g Hg w Hw. exists w. split; [apply W; exact Hw|apply py_eqb_refl]. }
    constructor.
    - intros g w Hg Hw. apply (A1 g w Hg (W _ _ Hw)).
    - intros g w Hg Hw. apply (A2 g w Hg (W _ _ Hw)).
    - intros g w Hg Hw. apply (A3 g w Hg (W _ _ Hw)).
    - intros g Hg A. apply (active_mono hs cs fs _ d _ R Bl) in A. rewrite without_other; [apply (A4 g Hg A)|]. intros K. rewrite K in A. exact (Na A).
    - intros f Hf K. apply (A5 f Hf). apply (forb_mono hs cs fs _ d f R Bl Hf K).
  Qed.

  Lemma drop_carries s hs cs fs c d h : tame s hs cs fs -> carries s hs c d -> lax hs cs fs d -> In h hs -> ~ active cs d (hp_name h) ->
    match d (hp_name h) with
    | None => drop s c (hp_name h) = Ok None
    | Some _ => exists c', drop s c (hp_name h) = Ok (Some c') /\ carries s hs c' (without d (hp_name h))
    end.
  Proof.
    intros T [Rep Sh] Lx Hh Na. assert (B := tm_built _ _ _ _ T). destruct (dict_shown s hs cs fs c d B Rep Sh) as (vals & Hv & Ds).
    unfold drop. rewrite Hv. cbn [bind]. assert (D := proj2 (proj2 Ds) h Hh). destruct (d (hp_name h)) as [u|] eqn:Eu.
    - destruct D as (z & Hz & _). assert (M : assoc_mem (hp_name h) vals = true) by (apply assoc_mem_iff, assoc_Some_key; eauto). rewrite M.
      assert (Lx' := without_lax hs cs fs d h (tm_refs _ _ _ _ T) Lx Hh Na). assert (Ds' := del_shows hs vals d h Ds).
      destruct (dict_lax s hs cs fs _ _ T Ds' Lx') as (c' & Hc). rewrite Hc. cbn [bind]. exists c'. split; [reflexivity|].
      apply (dict_carries s hs cs fs _ _ true c' B Ds' (lx_legal _ _ _ _ Lx') (lx_exact _ _ _ _ Lx') (lx_round _ _ _ _ Lx') Hc).
    - assert (M : assoc_mem (hp_name h) vals = false).
      { apply not_true_iff_false. intros K. apply assoc_mem_iff, assoc_Some_key in K. destruct K. congruence. }
      rewrite M. reflexivity.
  Qed.

  Lemma drop_none s hs cs fs c d h : built s hs cs fs -> carries s hs c d -> In h hs -> d (hp_name h) = None -> drop s c (hp_name h) = Ok None.
  Proof.
    intros B [Rep Sh] Hh Hn. destruct (dict_shown s hs cs fs c d B Rep Sh) as (vals & Hv & Ds). unfold drop. rewrite Hv. cbn [bind].
    assert (D := proj2 (proj2 Ds) h Hh). rewrite Hn in D. assert (M : assoc_mem (hp_name h) vals = false).
    { apply not_true_iff_false. intros K. apply assoc_mem_iff, assoc_Some_key in K. destruct K. congruence. }
    rewrite M. reflexivity.
  Qed.

  (** ** The run, in terms of the values *)
  Inductive child_step (cs : list cond) (n : string) (d : assignment) (g q : list string) : assignment -> list string -> list string -> Prop :=
  | CS_on : active cs d n -> child_step cs n d g q d g (q ++ [n])
  | CS_drop : ~ active cs d n -> d n <> None -> child_step cs n d g q (without d n) (n :: g) (q ++ [n])
  | CS_off : ~ active cs d n -> d n = None -> child_step cs n d g q d g q.
  Inductive child_steps (cs : list cond) : list string -> assignment -> list string -> list string -> assignment -> list string -> list string -> Prop :=
  | CSS_nil d g q : child_steps cs [] d g q d g q
  | CSS_cons n l d g q d1 g1 q1 d' g' q' : child_step cs n d g q d1 g1 q1 -> child_steps cs l d1 g1 q1 d' g' q' -> child_steps cs (n :: l) d g q d' g' q'.
  Inductive runs (s : space) (cs : list cond) : assignment -> list string -> list string -> assignment -> list string -> Prop :=
  | R_end d g : runs s cs d g [] d g
  | R_pop n l q d g d1 g1 q1 d' g' : assoc n (children_of s) = Some l -> child_steps cs (map hp_name l) d g q d1 g1 q1 ->
      runs s cs d1 g1 q1 d' g' -> runs s cs d g (n :: q) d' g'.

  Lemma lax_roots hs cs fs d : lax hs cs fs d -> forall h, In h hs -> ~ conditional cs (hp_name h) -> d (hp_name h) <> None.
  Proof. intros Lx h Hh Hc. apply (lx_set _ _ _ _ Lx h Hh). intros c Hi Ha. exfalso. apply Hc. exists c. auto. Qed.

  Lemma visit_child_ok s hs cs fs c d h gone q : tame s hs cs fs -> carries s hs c d -> lax hs cs fs d -> In h hs -> conditional cs (hp_name h) ->
    exists ks c' d' g' q', assoc (hp_name h) (parent_conditions_of s) = Some ks /\
      visit_conditions s (hp_name h) ks c gone q = Ok (c', g', q') /\ child_step cs (hp_name h) d gone q d' g' q' /\ carries s hs c' d' /\ lax hs cs fs d'.
  Proof.
    intros T Ca Lx Hh Hc. assert (B := tm_built _ _ _ _ T). assert (O := built_ok _ _ _ _ B). apply (so_conditional O) in Hc. destruct Hc as (k & Hk).
    assert (Kc := so_conds_of O (hp_name h)). rewrite Hk in Kc. unfold conds_of in Kc.
    destruct (assoc (hp_name h) (parent_conditions_of s)) as [ks|]; [|discriminate]. subst ks. exists [k].
    destruct (so_condof_in O _ _ Hk) as [Hkc Hka].
    assert (Act := enc_act O (c_vector c) d (represents_encodes c d (proj1 Ca)) (tm_refs _ _ _ _ T) (tm_ne _ _ _ _ T) (lax_roots hs cs fs d Lx) (hp_name h) k Hkc Hka).
    cbn [visit_conditions]. destruct (sat_vec (index_of s) (c_vector c) k) eqn:Sv.
    - exists c, d, gone, (q ++ [hp_name h]). repeat (split; [first [reflexivity|assumption]|]). split; [|split; assumption]. apply CS_on. apply Act. reflexivity.
    - assert (Na : ~ active cs d (hp_name h)) by (intros K; apply Act in K; discriminate).
      assert (D := drop_carries s hs cs fs c d h T Ca Lx Hh Na). destruct (d (hp_name h)) as [u|] eqn:Eu.
      + destruct D as (c' & -> & Ca'). cbn [bind]. exists c', (without d (hp_name h)), (hp_name h :: gone), (q ++ [hp_name h]).
        split; [reflexivity|]. split; [reflexivity|]. split; [apply CS_drop; [exact Na|congruence]|]. split; [exact Ca'|].
        apply (without_lax hs cs fs d h (tm_refs _ _ _ _ T) Lx Hh Na).
      + rewrite D. cbn [bind]. exists c, d, gone, q. split; [reflexivity|]. split; [reflexivity|]. split; [apply CS_off; assumption|]. split; assumption.
  Qed.

  Lemma visit_children_ok s hs cs fs l : tame s hs cs fs -> (forall h, In h l -> In h hs /\ conditional cs (hp_name h)) ->
    forall c d gone q, carries s hs c d -> lax hs cs fs d ->
    exists c' d' g' q', visit_children s l c gone q = Ok (c', g', q') /\ child_steps cs (map hp_name l) d gone q d' g' q' /\ carries s hs c' d' /\ lax hs cs fs d'.
  Proof.
    intros T. induction l as [|h l IH]; intros Hl c d gone q Ca Lx; cbn [visit_children map].
    - exists c, d, gone, q. split; [reflexivity|]. split; [constructor|]. split; assumption.
    - destruct (Hl h (or_introl eq_refl)) as [Hh Hc]. destruct (visit_child_ok s hs cs fs c d h gone q T Ca Lx Hh Hc) as (ks & c1 & d1 & g1 & q1 & -> & -> & St & Ca1 & Lx1).
      cbn [bind]. destruct (IH (fun h' Hh' => Hl h' (or_intror Hh')) c1 d1 g1 q1 Ca1 Lx1) as (c' & d' & g' & q' & -> & Sts & Ca' & Lx').
      exists c', d', g', q'. split; [reflexivity|]. split; [|split; assumption]. apply (CSS_cons cs _ _ _ _ _ _ _ _ _ _ _ St Sts).
  Qed.

  Lemma children_total s hs cs fs n : space_ok s hs cs fs -> In n (keys s) ->
    exists l, assoc n (children_of s) = Some l /\ forall h, In h l <-> In h hs /\ reads cs n (hp_name h).
  Proof.
    intros O Hn. destruct (assoc n (children_of s)) as [l|] eqn:En; [exists l; split; [reflexivity|apply (so_children O n l En)]|]. exfalso.
    unfold children_of in En. rewrite (cm_children _ (so_com _ _ _ _ O)) in En.
    rewrite (assoc_map (fun nd => concat (map (fun c => hp_named (d_nodes (s_dag s)) (fst c)) (n_children nd)))) in En.
    apply so_key in Hn. destruct Hn as (nd & Hn). rewrite Hn in En. discriminate.
  Qed.

  Lemma step_keys s hs cs fs l d g q d' g' q' : space_ok s hs cs fs -> (forall n, In n l -> In n (keys s)) -> (forall n, In n q -> In n (keys s)) ->
    child_steps cs l d g q d' g' q' -> forall n, In n q' -> In n (keys s).
  Proof.
    intros O Hl Hq St. induction St as [|n l d g q d1 g1 q1 d' g' q' S1 St IH]; [exact Hq|]. apply IH; [intros m Hm; apply Hl; simpl; auto|].
    intros m Hm. destruct S1 as [_|_ _|_ _]; [| |apply Hq; exact Hm]; (apply in_app_iff in Hm; destruct Hm as [Hm|[<-|[]]]; [apply Hq; exact Hm|apply Hl; simpl; auto]).
  Qed.

  Lemma reads_conditional cs p n : reads cs p n -> conditional cs n.
  Proof. intros (c & Hc & Ha & _). exists c. auto. Qed.

  Lemma repair_loop_ok s hs cs fs : tame s hs cs fs -> forall fuel c d gone q, (forall n, In n q -> In n (keys s)) -> carries s hs c d -> lax hs cs fs d ->
    repair_loop fuel s c gone q = Err OutOfFuel \/
    exists c' d' g', repair_loop fuel s c gone q = Ok (c', g') /\ runs s cs d gone q d' g' /\ carries s hs c' d' /\ lax hs cs fs d'.
  Proof.
    intros T. assert (O := built_ok _ _ _ _ (tm_built _ _ _ _ T)). induction fuel as [|f IH]; intros c d gone q Hq Ca Lx.
    - destruct q as [|n q]; [|left; reflexivity]. right. exists c, d, gone. split; [reflexivity|]. split; [constructor|]. split; assumption.
    - destruct q as [|n q]; [right; exists c, d, gone; split; [reflexivity|]; split; [constructor|]; split; assumption|].
      cbn [repair_loop]. destruct (children_total s hs cs fs n O (Hq n (or_introl eq_refl))) as (l & El & Hl). rewrite El.
      destruct (visit_children_ok s hs cs fs l T) with (c := c) (d := d) (gone := gone) (q := q) as (c1 & d1 & g1 & q1 & E1 & S1 & Ca1 & Lx1); auto.
      { intros h Hh. apply Hl in Hh. split; [apply Hh|]. apply (reads_conditional cs n). apply Hh. }
      rewrite E1. cbn [bind]. destruct (IH c1 d1 g1 q1) as [K|(c' & d' & g' & E' & Rn & Ca' & Lx')]; auto.
      + apply (step_keys s hs cs fs (map hp_name l) d gone q d1 g1 q1 O); auto.
        * intros m Hm. apply in_map_iff in Hm. destruct Hm as (h & <- & Hh). apply Hl in Hh. apply (keys_hs O). exists h. split; [apply Hh|reflexivity].
        * intros m Hm. apply Hq. simpl. auto.
      + right. exists c', d', g'. split; [exact E'|]. split; [|split; assumption]. apply (R_pop s cs n l q d gone d1 g1 q1); assumption.
  Qed.

  (** values are only deleted, and what is deleted stays so *)
  Definition restricts (d' d : assignment) : Prop := forall n, d' n = d n \/ d' n = None.
  Lemma step_restricts cs l d g q d' g' q' : child_steps cs l d g q d' g' q' -> restricts d' d /\ ((forall n, In n g -> d n = None) -> forall n, In n g' -> d' n = None).
  Proof.
    intros St. induction St as [|n l d g q d1 g1 q1 d' g' q' S1 St [I1 I2]]; [split; [intros n; auto|auto]|].
    assert (A : restricts d1 d /\ ((forall n, In n g -> d n = None) -> forall n, In n g1 -> d1 n = None)).
    { destruct S1 as [_|_ _|_ _]; [split; [intros m; auto|auto]| |split; [intros m; auto|auto]]. split.
      - intros m. unfold without. destruct (String.eqb m n); auto.
      - intros H m [<-|Hm]; [apply without_same|]. unfold without. destruct (String.eqb m n); [reflexivity|]. apply H. exact Hm. }
    destruct A as [A1 A2]. split; [|auto]. intros m. destruct (I1 m) as [->|K]; auto.
  Qed.
  Lemma runs_restricts s cs d g q d' g' : runs s cs d g q d' g' -> restricts d' d /\ ((forall n, In n g -> d n = None) -> forall n, In n g' -> d' n = None).
  Proof.
    intros Rn. induction Rn as [d g|n l q d g d1 g1 q1 d' g' _ St _ [I1 I2]]; [split; [intros n; auto|auto]|].
    destruct (step_restricts cs _ _ _ _ _ _ _ St) as [A1 A2]. split; [|auto]. intros m. destruct (I1 m) as [->|K]; auto.
  Qed.

  Lemma drop_again_none s hs cs fs c d gone l : built s hs cs fs -> carries s hs c d -> (forall n, In n gone -> d n = None) ->
    (forall e, In e l -> In (snd e) hs /\ hp_name (snd e) = fst e) -> drop_again s l c gone = Ok c.
  Proof.
    intros B Ca Hg. induction l as [|[n h] l IH]; intros Hl; [reflexivity|]. cbn [drop_again]. destruct (str_in n gone) eqn:Hn.
    - apply str_in_iff in Hn. destruct (Hl (n, h) (or_introl eq_refl)) as [Hh Hm]. cbn in Hh, Hm. subst n. rewrite (drop_none s hs cs fs c d h B Ca Hh (Hg _ Hn)).
      cbn [bind]. apply IH. intros e He. apply Hl. simpl. auto.
    - apply IH. intros e He. apply Hl. simpl. auto.
  Qed.

  Lemma start_keys s hs cs fs n : space_ok s hs cs fs -> In n (repair_start s) -> In n (keys s).
  Proof. intros O Hn. apply filter_In in Hn. destruct Hn as [Hn _]. apply (so_root O) in Hn. apply Hn. Qed.

  (** what the function does: a run, then the strict check *)
  Lemma repair_ok s hs cs fs fuel c d : tame s hs cs fs -> carries s hs c d -> lax hs cs fs d ->
    repair fuel s c = Err OutOfFuel \/
    exists d' g' vals, runs s cs d [] (repair_start s) d' g' /\ restricts d' d /\ lax hs cs fs d' /\ dict_shows hs vals d' /\
      repair fuel s c = config_of_values s (some_values vals) false.
  Proof.
    intros T Ca Lx. assert (B := tm_built _ _ _ _ T). assert (O := built_ok _ _ _ _ B). unfold repair.
    destruct (repair_loop_ok s hs cs fs T fuel c d [] (repair_start s)) as [K|(c' & d' & g' & E' & Rn & Ca' & Lx')]; auto.
    - intros n. apply (start_keys s hs cs fs n O).
    - left. rewrite K. reflexivity.
    - right. rewrite E'. cbn [bind fst snd]. destruct (runs_restricts _ _ _ _ _ _ _ Rn) as [Rs Gn].
      assert (D := drop_again_none s hs cs fs c' d' g' (items s) B Ca' (Gn (fun n (H : In n []) => match H with end))).
      rewrite D.
      + cbn [bind]. destruct (dict_shown s hs cs fs c' d' B (proj1 Ca') (proj2 Ca')) as (vals & Hv & Ds). rewrite Hv. cbn [bind].
        exists d', g', vals. repeat (split; [assumption|]). reflexivity.
      + intros [n h] He. assert (He' := He). apply (so_items O) in He. exact He.
  Qed.

  Lemma lax_values s hs cs fs vals d c : tame s hs cs fs -> stored hs (given vals) d -> exact_all hs (given vals) -> config_of_values s vals true = Ok c ->
    carries s hs c d /\ lax hs cs fs d.
  Proof.
    intros T St Ex H. assert (B := tm_built _ _ _ _ T). assert (O := built_ok _ _ _ _ B).
    destruct (proj1 (C68_allow_partial s hs cs fs vals d T St Ex) (ex_intro _ c H)) as (_ & Al & Se & Fo). split.
    - split; [apply (C20_start s hs cs fs vals d true c B St H)|apply (shows_values s hs cs fs vals true d c B H St)].
    - constructor; auto.
      + intros h w Hh Hw. rewrite (St h Hh) in Hw. destruct (given vals (hp_name h)) as [z|] eqn:Ez; [|discriminate]. injection Hw as <-.
        apply round_legal; [apply (so_constructed O h Hh)|apply (Al h z Hh Ez)].
      + apply (stored_exact hs _ d St Ex).
      + intros h w Hh Hw. rewrite (St h Hh) in Hw. destruct (given vals (hp_name h)) as [z|] eqn:Ez; [|discriminate]. injection Hw as <-. apply round_idem.
  Qed.

  (** [d'] are the values of [d] restricted to the hyperparameters that are active in [d'] *)
  Definition active_part (hs : list hp) (cs : list cond) (d d' : assignment) : Prop :=
    forall h, In h hs -> (active cs d' (hp_name h) -> d' (hp_name h) = d (hp_name h)) /\ (~ active cs d' (hp_name h) -> d' (hp_name h) = None).

  Lemma valid_part hs cs fs d d' : valid hs cs fs d' -> restricts d' d -> active_part hs cs d d'.
  Proof.
    intros V Rs h Hh. assert (A := va_active _ _ _ _ V h Hh). split.
    - intros K. apply A in K. destruct (Rs (hp_name h)); [assumption|congruence].
    - intros K. destruct (d' (hp_name h)) as [u|]; [|reflexivity]. exfalso. apply K, A. discriminate.
  Qed.

  Lemma repair_sound s hs cs fs fuel c0 d0 c : tame s hs cs fs -> carries s hs c0 d0 -> lax hs cs fs d0 -> repair fuel s c0 = Ok c ->
    exists d, represents s hs c d /\ shows s hs c d /\ valid hs cs fs d /\ active_part hs cs d0 d.
  Proof.
    intros T Ca Lx H. assert (B := tm_built _ _ _ _ T).
    destruct (repair_ok s hs cs fs fuel c0 d0 T Ca Lx) as [K|(d & g & vals & _ & Rs & Lx' & Ds & Eq)]; [congruence|]. rewrite Eq in H. exists d.
    destruct (dict_carries s hs cs fs vals d false c B Ds (lx_legal _ _ _ _ Lx') (lx_exact _ _ _ _ Lx') (lx_round _ _ _ _ Lx') H) as [Rep Sh].
    split; [exact Rep|]. split; [exact Sh|].
    assert (V : valid hs cs fs d).
    { apply (dict_strict s hs cs fs vals d T Ds (lx_legal _ _ _ _ Lx') (lx_exact _ _ _ _ Lx') (lx_round _ _ _ _ Lx')). eauto. }
    split; [exact V|]. apply (valid_part hs cs fs); assumption.
  Qed.

  Theorem C33_sound_partial s hs cs fs fuel vals d0 c : tame s hs cs fs -> stored hs (given vals) d0 -> exact_all hs (given vals) ->
    deactivate_inactive fuel s (Some vals) None = Ok c ->
    exists d, represents s hs c d /\ shows s hs c d /\ valid hs cs fs d /\ active_part hs cs d0 d.
  Proof.
    intros T St Ex H. unfold deactivate_inactive in H. destruct (config_of_values s vals true) as [c0|] eqn:H0; [|discriminate]. cbn [bind] in H.
    destruct (lax_values s hs cs fs vals d0 c0 T St Ex H0) as [Ca Lx]. apply (repair_sound s hs cs fs fuel c0 d0 c T Ca Lx H).
  Qed.

  (** the same for a vector, whose floats are not changed by rounding *)
  Theorem C33_vector_partial s hs cs fs fuel v d0 c0 c : tame s hs cs fs -> config_of_vector s v true = Ok c0 -> represents s hs c0 d0 -> lax hs cs fs d0 ->
    deactivate_inactive fuel s None (Some v) = Ok c ->
    exists d, represents s hs c d /\ shows s hs c d /\ valid hs cs fs d /\ active_part hs cs d0 d.
  Proof.
    intros T H0 Rep Lx H. unfold deactivate_inactive in H. rewrite H0 in H. cbn [bind] in H. apply (repair_sound s hs cs fs fuel c0 d0 c T); auto.
    split; [exact Rep|]. apply (shows_vector s hs cs fs v true d0 c0 (tm_built _ _ _ _ T) H0 Rep (lx_exact _ _ _ _ Lx)).
  Qed.

  (** there is only one such part *)
  Theorem C33_unique s hs cs fs d d1 d2 : built s hs cs fs -> refs hs cs fs -> active_part hs cs d d1 -> active_part hs cs d d2 ->
    valid hs cs fs d1 -> valid hs cs fs d2 -> forall h, In h hs -> d1 (hp_name h) = d2 (hp_name h).
  Proof.
    intros B R P1 P2 V1 V2. assert (O := built_ok _ _ _ _ B). destruct R as [R1 _].
    assert (G : forall k n h, longest cs n k -> In h hs -> hp_name h = n -> d1 n = d2 n).
    { induction k as [k IH] using (well_founded_induction lt_wf). intros n h Lo Hh En.
      assert (Same : active cs d1 n <-> active cs d2 n).
      { assert (Q : forall c, In c cs -> activates c n -> forall l, In l (dlcs c) -> d1 (parent_name l) = d2 (parent_name l)).
        { intros c Hc Ha l Hl. assert (Hp : In (l_parent l) hs) by apply (R1 c Hc l Hl). assert (Rd : reads cs (parent_name l) n).
          { exists c. split; [exact Hc|]. split; [exact Ha|]. unfold cond_parents. apply in_map. exact Hl. }
          assert (Kp : In (parent_name l) (keys s)) by apply (so_reads_keys O _ _ Rd). assert (Lp := so_longest O (parent_name l) Kp).
          apply (IH (depth_of (d_nodes (s_dag s)) (parent_name l))) with (h := l_parent l); [|exact Lp|exact Hp|reflexivity].
          assert (Ch : chain cs n (S (depth_of (d_nodes (s_dag s)) (parent_name l)))) by (apply (chain_more cs (parent_name l)); [apply Lp|exact Rd]).
          apply (proj2 Lo) in Ch. lia. }
        split; intros A c Hc Ha; apply (holds_mono) with (2 := A c Hc Ha); intros l Hl w Hw; exists w; (split; [|apply py_eqb_refl]).
        - rewrite <- (Q c Hc Ha l Hl). exact Hw.
        - rewrite (Q c Hc Ha l Hl). exact Hw. }
      subst n. destruct (P1 h Hh) as [A1 A2], (P2 h Hh) as [B1 B2].
      assert (C1 := va_active _ _ _ _ V1 h Hh). assert (C2 := va_active _ _ _ _ V2 h Hh).
      destruct (d1 (hp_name h)) as [u|] eqn:Eu.
      - assert (K : active cs d1 (hp_name h)) by (apply C1; discriminate). rewrite (A1 K). apply Same in K. rewrite (B1 K). reflexivity.
      - destruct (d2 (hp_name h)) as [u|] eqn:Eu2; [|reflexivity]. exfalso.
        assert (K : active cs d2 (hp_name h)) by (apply C2; discriminate). apply Same in K. apply C1 in K. congruence. }
    intros h Hh. assert (Kh : In (hp_name h) (keys s)) by (apply (keys_hs O); eauto). apply (G _ _ h (so_longest O _ Kh) Hh eq_refl).
  Qed.

  (** ** C69: what can go wrong *)
  Theorem C69_raises_partial s hs cs fs fuel vals e : tame s hs cs fs -> exact_all hs (given vals) ->
    deactivate_inactive fuel s (Some vals) None = Err e ->
    reason hs cs fs vals true e \/ e = InactiveHyperparameterSetError \/ e = OutOfFuel.
  Proof.
    intros T Ex H. assert (O := built_ok _ _ _ _ (tm_built _ _ _ _ T)). assert (ND := so_names_nodup O).
    unfold deactivate_inactive in H. destruct (config_of_values s vals true) as [c0|e0] eqn:H0; cbn [bind] in H.
    - right. destruct (lax_values s hs cs fs vals _ c0 T (store_stored hs _ ND) Ex H0) as [Ca Lx].
      destruct (repair_ok s hs cs fs fuel c0 _ T Ca Lx) as [K|(d & g & vs & _ & Rs & Lx' & Ds & Eq)]; [right; congruence|]. left. rewrite Eq in H.
      destruct (dict_facts hs vs d (so_constructed O) Ds (lx_legal _ _ _ _ Lx') (lx_exact _ _ _ _ Lx') (lx_round _ _ _ _ Lx') ND) as (Gl & Gx & B1 & B2 & Kn).
      set (gv := given (some_values vs)) in *.
      assert (Rn := C68_reason_partial s hs cs fs (some_values vs) false e T Gx H). destruct Rn as [k Hk Nk|h w Hh Hw Lw|d' e' _ _ St F].
      + exfalso. rewrite keys_some in Hk. apply Nk. apply (proj1 (proj2 Ds) k Hk).
      + exfalso. rewrite (Gl h w Hh Hw) in Lw. discriminate.
      + assert (Sd : forall h, In h hs -> d' (hp_name h) = store hs gv (hp_name h)) by (intros h Hh; rewrite (St h Hh), (store_stored hs gv ND h Hh); reflexivity).
        assert (Bl : forall h, In h hs -> below d' d (hp_name h)) by (intros h Hh w Hw; rewrite (Sd h Hh) in Hw; apply (B1 h Hh w Hw)).
        destruct F as [h Hh Ha Hn|h _ Hh Na Hs|f Hs Hs' Hf Hv]; [exfalso| |exfalso].
        * apply (active_mono hs cs fs d' d _ (tm_refs _ _ _ _ T) Bl) in Ha. apply (lx_set _ _ _ _ Lx' h Hh) in Ha.
          destruct (d (hp_name h)) as [u|] eqn:Eu; [|congruence]. destruct (B2 h Hh u Eu) as (w & Hw & _). rewrite (Sd h Hh) in Hn. congruence.
        * reflexivity.
        * apply (lx_forb _ _ _ _ Lx' f Hf). apply (forb_mono hs cs fs d' d f (tm_refs _ _ _ _ T) Bl Hf Hv).
    - left. injection H as <-. apply (C68_reason_partial s hs cs fs vals true e0 T Ex H0).
  Qed.

  (** ** Every hyperparameter that has to be dropped is reached from one that is waiting *)
  Inductive due (cs : list cond) (d : assignment) (base : string -> Prop) : string -> Prop :=
  | D_base n : base n -> due cs d base n
  | D_step p n : due cs d base p -> reads cs p n -> d n <> None -> due cs d base n.

  Definition bad (hs : list hp) (cs : list cond) (d : assignment) (n : string) : Prop :=
    In n (map hp_name hs) /\ d n <> None /\ ~ active cs d n.

  Definition waiting (d : assignment) (rest q : list string) (n : string) : Prop := In n q \/ (In n rest /\ d n <> None).

  Definition covered (hs : list hp) (cs : list cond) (d : assignment) (rest q : list string) : Prop :=
    forall n, bad hs cs d n -> ~ ~ (In n rest \/ exists p, reads cs p n /\ due cs d (waiting d rest q) p).

  Lemma due_mono cs d (b b' : string -> Prop) : (forall n, b n -> b' n) -> forall n, due cs d b n -> due cs d b' n.
  Proof. intros H n D. induction D as [n Hb|p n Dp IH Hr Hs]; [apply D_base; auto|apply (D_step _ _ _ p); assumption]. Qed.

  Definition reads_dec_in (cs : list cond) := forall p n, reads cs p n \/ ~ reads cs p n.

  Lemma space_reads_dec s hs cs fs : space_ok s hs cs fs -> reads_dec_in cs.
  Proof.
    intros O p n. destruct (in_dec string_dec n (children_names (d_nodes (s_dag s)) p)) as [H|H]; [left|right].
    - apply (so_edge O). exact H.
    - intros K. apply H. apply (so_edge O) in K. exact K.
  Qed.

  Lemma deactivated_reads cs d y n : reads_dec_in cs -> active cs d n -> ~ active cs (without d y) n -> reads cs y n.
  Proof.
    intros Dec A Na. destruct (Dec y n) as [K|K]; [exact K|]. exfalso. apply Na. intros c Hc Ha.
    apply (holds_mono d); [|apply A; assumption]. intros l Hl w Hw. exists w. split; [|apply py_eqb_refl].
    rewrite without_other; [exact Hw|]. intros Eq. apply K. exists c. split; [exact Hc|]. split; [exact Ha|]. rewrite <- Eq. unfold cond_parents. apply in_map. exact Hl.
  Qed.

  Lemma child_covered hs cs n rest d g q d1 g1 q1 : reads_dec_in cs ->
    child_step cs n d g q d1 g1 q1 -> covered hs cs d (n :: rest) q -> covered hs cs d1 rest q1.
  Proof.
    intros Dec St Cv. destruct St as [A|Na Hs|Na Hs]; intros z Bz Nn.
    - apply (Cv z Bz). intros [[<-|Hz]|(p & Hp & Dp)]; apply Nn; [exfalso; apply (proj2 (proj2 Bz)); exact A|auto|]. right. exists p. split; [exact Hp|].
      revert Dp. apply due_mono. intros m [Hm|[[<-|Hm] Hd]]; [left; apply in_app_iff; auto|left; apply in_app_iff; simpl; auto|right; auto].
    - destruct Bz as (B1 & B2 & B3). assert (Nz : z <> n). { intros ->. apply B2. apply without_same. }
      assert (Dz : d z <> None) by (rewrite without_other in B2; assumption).
      assert (Dn : due cs (without d n) (waiting (without d n) rest (q ++ [n])) n) by (apply D_base; left; apply in_app_iff; simpl; auto).
      assert (A : ~ active cs d z).
      { intros A. apply Nn. right. exists n. split; [apply (deactivated_reads cs d n z Dec A B3)|exact Dn]. }
      apply (Cv z); [split; [exact B1|]; split; assumption|]. intros [[K|Hz]|(p & Hp & Dp)]; [congruence|apply Nn; auto|].
      apply Nn. right. exists p. split; [exact Hp|]. clear Hp. induction Dp as [m Hm|p m Dp IH Hr Hd].
      + destruct (string_dec m n) as [->|Nm]; [exact Dn|]. apply D_base. destruct Hm as [Hm|[[<-|Hm] Hd]]; [left; apply in_app_iff; auto|congruence|].
        right. split; [exact Hm|]. rewrite without_other; assumption.
      + destruct (string_dec m n) as [->|Nm]; [exact Dn|]. apply (D_step _ _ _ p); [exact IH|exact Hr|]. rewrite without_other; assumption.
    - apply (Cv z Bz). intros [[<-|Hz]|(p & Hp & Dp)]; apply Nn; [exfalso; apply (proj1 (proj2 Bz)); exact Hs|auto|]. right. exists p. split; [exact Hp|].
      revert Dp. apply due_mono. intros m [Hm|[[<-|Hm] Hd]]; [left; exact Hm|congruence|right; auto].
  Qed.
  Lemma children_covered hs cs l d g q d' g' q' : reads_dec_in cs -> child_steps cs l d g q d' g' q' -> covered hs cs d l q -> covered hs cs d' [] q'.
  Proof.
    intros Dec St. induction St as [d g q|n l d g q d1 g1 q1 d' g' q' S1 St IH]; intros Cv; [exact Cv|].
    apply IH. apply (child_covered hs cs n l d g q d1 g1 q1 Dec S1 Cv).
  Qed.
  Lemma runs_covered s hs cs fs d g q d' g' : space_ok s hs cs fs -> runs s cs d g q d' g' -> covered hs cs d [] q -> covered hs cs d' [] [].
  Proof.
    intros O Rn. assert (Dec := space_reads_dec s hs cs fs O). induction Rn as [d g|n l q d g d1 g1 q1 d' g' Hl St Rn IH]; intros Cv; [exact Cv|].
    apply IH. apply (children_covered hs cs (map hp_name l) d g q d1 g1 q1 Dec St).
    assert (Ch : forall m, reads cs n m -> In m (map hp_name l)).
    { intros m Hm. destruct (so_reads_keys O _ _ Hm) as [_ Km]. apply (keys_hs O) in Km. destruct Km as (h & Hh & <-). apply in_map.
      apply (so_children O n l Hl). auto. }
    assert (Du : forall p, due cs d (waiting d [] (n :: q)) p -> p = n \/ due cs d (waiting d (map hp_name l) q) p).
    { intros p Dp. induction Dp as [m [[->|Hm]|[[] _]]|p m Dp IHd Hr Hd]; [auto|right; apply D_base; left; exact Hm|]. right.
      destruct IHd as [->|IHd]; [apply D_base; right; split; [apply Ch; exact Hr|exact Hd]|apply (D_step _ _ _ p); assumption]. }
    intros z Bz Nn. apply (Cv z Bz). intros [[]|(p & Hp & Dp)]. apply Nn. destruct (Du p Dp) as [->|K]; [left; apply Ch; exact Hp|right; eauto].
  Qed.
  Lemma nothing_due cs d n : ~ due cs d (waiting d [] []) n.
  Proof. intros D. induction D as [n [[]|[[] _]]|p n D IH _ _]; exact IH. Qed.

  (** ** C69: inputs that are repaired

      Every given conditional hyperparameter has a given parent. *)
  Definition linked (hs : list hp) (cs : list cond) (d : assignment) : Prop :=
    forall h, In h hs -> d (hp_name h) <> None -> conditional cs (hp_name h) -> exists p, reads cs p (hp_name h) /\ d p <> None.

  Lemma linked_covered s hs cs fs d : space_ok s hs cs fs -> linked hs cs d -> covered hs cs d [] (repair_start s).
  Proof.
    intros O Lk.
    assert (G : forall k h p, longest cs p k -> In h hs -> hp_name h = p -> d p <> None -> (exists z, reads cs p z) -> due cs d (waiting d [] (repair_start s)) p).
    { induction k as [k IH] using (well_founded_induction lt_wf). intros h p Lo Hh <- Hd Hz. destruct (conditional_dec s hs cs fs (hp_name h) O) as [Hc|Hc].
      - destruct (Lk h Hh Hd Hc) as (p & Hr & Hp). apply (D_step _ _ _ p); [|exact Hr|exact Hd].
        assert (Kp : In p (keys s)) by apply (so_reads_keys O _ _ Hr). assert (Lp := so_longest O p Kp). assert (Kp' := Kp). apply (keys_hs O) in Kp'.
        destruct Kp' as (g & Hg & Eg). apply (IH (depth_of (d_nodes (s_dag s)) p)) with (h := g); [|exact Lp|exact Hg|exact Eg|exact Hp|eauto].
        assert (Ch : chain cs (hp_name h) (S (depth_of (d_nodes (s_dag s)) p))) by (apply (chain_more cs p); [apply Lp|exact Hr]). apply (proj2 Lo) in Ch. lia.
      - apply D_base. left. apply filter_In. assert (Kh : In (hp_name h) (keys s)) by (apply (keys_hs O); eauto). split.
        + apply (so_root O). split; [exact Kh|]. destruct (condof (d_nodes (s_dag s)) (hp_name h)) as [c|] eqn:Ec; [|reflexivity]. exfalso. apply Hc.
          apply (so_conditional O). eauto.
        + destruct (children_total s hs cs fs _ O Kh) as (l & -> & Hl). destruct Hz as (z & Hz). destruct (so_reads_keys O _ _ Hz) as [_ Kz].
          apply (keys_hs O) in Kz. destruct Kz as (g & Hg & <-). assert (Hgl : In g l) by (apply Hl; auto). destruct l; [destruct Hgl|reflexivity]. }
    intros n (B1 & B2 & B3) Nn. apply in_map_iff in B1. destruct B1 as (h & <- & Hh).
    destruct (conditional_dec s hs cs fs (hp_name h) O) as [Hc|Hc].
    - destruct (Lk h Hh B2 Hc) as (p & Hr & Hp). assert (Kp : In p (keys s)) by apply (so_reads_keys O _ _ Hr). assert (Lp := so_longest O p Kp).
      apply (keys_hs O) in Kp. destruct Kp as (g & Hg & Eg). apply Nn. right. exists p. split; [exact Hr|]. apply (G _ g p Lp Hg Eg Hp). eauto.
    - apply B3. intros c Hc' Ha. exfalso. apply Hc. exists c. auto.
  Qed.

  Lemma stable_active s hs cs fs c d h : tame s hs cs fs -> carries s hs c d -> lax hs cs fs d -> In h hs -> ~ ~ active cs d (hp_name h) -> active cs d (hp_name h).
  Proof.
    intros T Ca Lx Hh NN. assert (O := built_ok _ _ _ _ (tm_built _ _ _ _ T)). destruct (conditional_dec s hs cs fs (hp_name h) O) as [(k & Hk & Ha)|Hc].
    - assert (Act := enc_act O (c_vector c) d (represents_encodes c d (proj1 Ca)) (tm_refs _ _ _ _ T) (tm_ne _ _ _ _ T) (lax_roots hs cs fs d Lx) (hp_name h) k Hk Ha).
      destruct (sat_vec (index_of s) (c_vector c) k); [apply Act; reflexivity|]. exfalso. apply NN. intros K. apply Act in K. discriminate.
    - intros k Hk Ha. exfalso. apply Hc. exists k. auto.
  Qed.

  Lemma repair_complete s hs cs fs fuel c0 d0 : tame s hs cs fs -> carries s hs c0 d0 -> lax hs cs fs d0 -> linked hs cs d0 ->
    repair fuel s c0 <> Err OutOfFuel -> exists c, repair fuel s c0 = Ok c.
  Proof.
    intros T Ca Lx Lk Nf. assert (B := tm_built _ _ _ _ T). assert (O := built_ok _ _ _ _ B).
    destruct (repair_ok s hs cs fs fuel c0 d0 T Ca Lx) as [K|(d & g & vals & Rn & Rs & Lx' & Ds & Eq)]; [congruence|]. rewrite Eq.
    apply (dict_strict s hs cs fs vals d T Ds (lx_legal _ _ _ _ Lx') (lx_exact _ _ _ _ Lx') (lx_round _ _ _ _ Lx')).
    assert (Cv := runs_covered s hs cs fs _ _ _ _ _ O Rn (linked_covered s hs cs fs d0 O Lk)).
    destruct (dict_lax s hs cs fs vals d T Ds Lx') as (c1 & H1).
    assert (Ca1 := dict_carries s hs cs fs vals d true c1 B Ds (lx_legal _ _ _ _ Lx') (lx_exact _ _ _ _ Lx') (lx_round _ _ _ _ Lx') H1).
    constructor; [apply Lx'| |apply Lx']. intros h Hh. split; [|apply (lx_set _ _ _ _ Lx' h Hh)].
    intros Hd. apply (stable_active s hs cs fs c1 d h T Ca1 Lx' Hh). intros Na.
    apply (Cv (hp_name h)); [split; [apply in_map; exact Hh|]; split; assumption|]. intros [[]|(p & _ & Dp)]. apply (nothing_due cs d p Dp).
  Qed.

  Theorem C69_repairs_partial s hs cs fs fuel vals d0 : tame s hs cs fs -> stored hs (given vals) d0 -> exact_all hs (given vals) ->
    (exists c0, config_of_values s vals true = Ok c0) -> linked hs cs d0 ->
    deactivate_inactive fuel s (Some vals) None <> Err OutOfFuel -> exists c, deactivate_inactive fuel s (Some vals) None = Ok c.
  Proof.
    intros T St Ex (c0 & H0) Lk. unfold deactivate_inactive. rewrite H0. cbn [bind].
    destruct (lax_values s hs cs fs vals d0 c0 T St Ex H0) as [Ca Lx]. apply (repair_complete s hs cs fs fuel c0 d0); assumption.
  Qed.

  (** ** C69: it ends *)
  Definition nf {A} (r : res A) : Prop := r <> Err OutOfFuel.
  Lemma nf_ok {A} (a : A) : nf (Ok a).
  Proof. discriminate. Qed.
  Lemma nf_bind {A B} (r : res A) (f : A -> res B) : nf r -> (forall a, r = Ok a -> nf (f a)) -> nf (bind r f).
  Proof. intros H G. destruct r as [a|e]; cbn [bind]; [apply G; reflexivity|]. intros K. apply H. injection K as ->. reflexivity. Qed.
  Lemma nf_mapM {A B} (f : A -> res B) l : (forall a, nf (f a)) -> nf (mapM f l).
  Proof. intros H. induction l as [|a l IH]; [discriminate|]. simpl. apply nf_bind; [apply H|]. intros b _. apply nf_bind; [exact IH|]. discriminate. Qed.
  Lemma nf_anyM {A} (f : A -> res bool) l : (forall a, nf (f a)) -> nf (anyM f l).
  Proof. intros H. induction l as [|a l IH]; [discriminate|]. simpl. apply nf_bind; [apply H|]. intros [] _; [discriminate|exact IH]. Qed.
  Lemma nf_allM {A} (f : A -> res bool) l : (forall a, In a l -> nf (f a)) -> nf (allM f l).
  Proof.
    intros H. induction l as [|a l IH]; [discriminate|]. simpl. apply nf_bind; [apply H; simpl; auto|].
    intros [] _; [|discriminate]. apply IH. intros b Hb. apply H. simpl. auto.
  Qed.
  Lemma nf_to_vector h v : nf (to_vector h v).
  Proof. unfold nf, to_vector. destruct (hp_kind h); try destruct (py_index _ _); try destruct (num_of _); discriminate. Qed.
  Lemma nf_to_value h x : nf (to_value h x).
  Proof.
    unfold nf, to_value. destruct (hp_kind h), x; try discriminate; destruct (is_close_to_integer _); try discriminate;
      unfold np_index; repeat match goal with |- context [match ?y with _ => _ end] => destruct y end; discriminate.
  Qed.
  Lemma nf_rel r a b x y : nf (rel_vec r a b x y).
  Proof.
    unfold rel_vec. destruct (_ || _)%bool; [discriminate|]. apply nf_bind; [apply nf_to_value|]. intros v _. apply nf_bind; [apply nf_to_value|]. intros w _.
    unfold nf. destruct r; simpl; try discriminate; destruct (py_ltb _ _); discriminate.
  Qed.
  Lemma nf_forb io v f : nf (forb_vec io v f).
  Proof.
    induction f as [h w ww|h ws wws|rr a b|fs IH] using fclause_ind'; cbn [forb_vec]; [discriminate|discriminate|apply nf_rel|].
    rewrite Forall_forall in IH. apply nf_allM. exact IH.
  Qed.
  Lemma nf_check s v allow : nf (check_configuration s v allow).
  Proof.
    unfold check_configuration. destruct (forallb _ _); [|discriminate]. apply nf_bind.
    - apply nf_mapM. intros cn. unfold check_cnode. destruct (sat_vec _ _ _).
      + destruct (forallb _ _); [|discriminate]. destruct (forallb _ _); discriminate.
      + destruct allow; [discriminate|]. destruct (find _ _) as [i|]; [|discriminate]. destruct (hp_at s i); [|discriminate].
        apply nf_bind; [apply nf_to_value|]. discriminate.
    - intros _ _. unfold check_forb. apply nf_bind; [apply nf_anyM; intros f; apply nf_forb|]. intros [] _; discriminate.
  Qed.
  Lemma nf_fill s vals its : forall vec cache, nf (fill s vals its vec cache).
  Proof.
    induction its as [|[k h] its IH]; intros vec cache; cbn [fill]; [discriminate|]. destruct (assoc k (index_of s)) as [i|]; [|discriminate].
    destruct (assoc k vals) as [[v|]|].
    - destruct (legal_value h v); [|discriminate]. apply nf_bind; [apply nf_to_vector|]. intros x _. destruct (Nat.ltb _ _); [apply IH|discriminate].
    - destruct (Nat.ltb _ _); [apply IH|discriminate].
    - destruct (Nat.ltb _ _); [apply IH|discriminate].
  Qed.
  Lemma nf_values s vals allow : nf (config_of_values s vals allow).
  Proof.
    unfold config_of_values. destruct (negb _); [|discriminate]. apply nf_bind; [apply nf_fill|]. intros r _. apply nf_bind; [apply nf_check|]. discriminate.
  Qed.
  Lemma nf_dict s c : nf (dict_of s c).
  Proof.
    unfold dict_of. apply nf_mapM. intros k. apply nf_bind; [|discriminate]. unfold getitem.
    destruct (match c_values c with Some d => assoc k d | None => None end); [discriminate|]. destruct (get_hp s k); [|discriminate].
    destruct (assoc k (index_of s)); [|discriminate]. destruct (nth _ _ _); try discriminate; (apply nf_bind; [apply nf_to_value|discriminate]).
  Qed.
  Lemma nf_drop s c n : nf (drop s c n).
  Proof. unfold drop. apply nf_bind; [apply nf_dict|]. intros vals _. destruct (assoc_mem n vals); [|discriminate]. apply nf_bind; [apply nf_values|]. discriminate. Qed.

  (** a visit appends the child at most once per condition *)
  Lemma visit_conditions_app s n l : forall c g q, nf (visit_conditions s n l c g q) /\
    forall c' g' q', visit_conditions s n l c g q = Ok (c', g', q') -> exists k, k <= length l /\ q' = q ++ repeat n k.
  Proof.
    induction l as [|k l IH]; intros c g q; cbn [visit_conditions].
    - split; [discriminate|]. intros c' g' q' [= <- <- <-]. exists 0. simpl. rewrite app_nil_r. auto.
    - assert (S1 : forall c g, nf (visit_conditions s n l c g (q ++ [n])) /\
        forall c' g' q', visit_conditions s n l c g (q ++ [n]) = Ok (c', g', q') -> exists k, k <= S (length l) /\ q' = q ++ repeat n k).
      { intros c1 g1. destruct (IH c1 g1 (q ++ [n])) as [I1 I2]. split; [exact I1|]. intros c' g' q' H. destruct (I2 _ _ _ H) as (m & Hm & ->).
        exists (S m). split; [lia|]. rewrite <- app_assoc. reflexivity. }
      destruct (sat_vec _ _ k); [apply S1|]. assert (D := nf_drop s c n). destruct (drop s c n) as [[c1|]|e]; cbn [bind].
      + apply S1.
      + destruct (IH c g q) as [I1 I2]. split; [exact I1|]. intros c' g' q' H. destruct (I2 _ _ _ H) as (m & Hm & ->). exists m. split; [simpl; lia|reflexivity].
      + split; [intros K; apply D; congruence|discriminate].
  Qed.

  (** total weight of a queue *)
  Definition weight (w : string -> nat) (q : list string) : nat := fold_right (fun n a => w n + a) 0 q.
  Lemma weight_app w a b : weight w (a ++ b) = weight w a + weight w b.
  Proof. induction a as [|n a IH]; simpl; [reflexivity|]. rewrite IH. lia. Qed.

  Lemma visit_children_app s hs cs fs w l : space_ok s hs cs fs -> forall c g q, nf (visit_children s l c g q) /\
    forall c' g' q', visit_children s l c g q = Ok (c', g', q') -> weight w q' <= weight w q + weight w (map hp_name l) /\
      (forall n, In n q' -> In n q \/ In n (map hp_name l)).
  Proof.
    intros O. induction l as [|h l IH]; intros c g q; cbn [visit_children map].
    - split; [discriminate|]. intros c' g' q' [= <- <- <-]. simpl. split; [lia|auto].
    - assert (Kc := so_conds_of O (hp_name h)). unfold conds_of in Kc.
      destruct (assoc (hp_name h) (parent_conditions_of s)) as [ks|]; [|split; discriminate].
      assert (Lk : length ks <= 1) by (rewrite Kc; destruct (condof _ _); simpl; lia).
      destruct (visit_conditions_app s (hp_name h) ks c g q) as [V1 V2]. destruct (visit_conditions s (hp_name h) ks c g q) as [[[c1 g1] q1]|e]; cbn [bind].
      + destruct (V2 _ _ _ eq_refl) as (k & Hk & ->). destruct (IH c1 g1 (q ++ repeat (hp_name h) k)) as [I1 I2]. split; [exact I1|].
        intros c' g' q' H. destruct (I2 _ _ _ H) as [I3 I4]. assert (Hk1 : k <= 1) by lia. split.
        * rewrite weight_app in I3. simpl. destruct k as [|[|k]]; simpl in I3; lia.
        * intros n Hn. destruct (I4 n Hn) as [K|K]; [|simpl; auto]. apply in_app_iff in K. destruct K as [K|K]; [auto|]. apply repeat_spec in K. simpl. auto.
      + split; [intros K; apply V1; congruence|discriminate].
  Qed.

  Lemma nf_loop s hs cs fs w : space_ok s hs cs fs -> (forall n, 1 <= w n) ->
    (forall n l, assoc n (children_of s) = Some l -> 1 + weight w (map hp_name l) <= w n) ->
    forall fuel c g q, weight w q <= fuel -> nf (repair_loop fuel s c g q).
  Proof.
    intros O W1 Hw. induction fuel as [|f IH]; intros c g q Hq.
    - destruct q as [|n q]; [discriminate|]. exfalso. simpl in Hq. specialize (W1 n). lia.
    - destruct q as [|n q]; [discriminate|]. cbn [repair_loop]. destruct (assoc n (children_of s)) as [l|] eqn:El; [|discriminate].
      destruct (visit_children_app s hs cs fs w l O c g q) as [V1 V2]. apply nf_bind; [exact V1|]. intros [[c' g'] q'] Hv. apply IH.
      destruct (V2 _ _ _ Hv) as [V3 _]. specialize (Hw n l El). simpl in Hq. lia.
  Qed.

  (** such weights exist: children come later in the order of the space *)
  Fixpoint wt (s : space) (k : nat) (n : string) : nat :=
    match k with
    | O => 1
    | S k' => 1 + weight (wt s k') (map hp_name (match assoc n (children_of s) with Some l => l | None => [] end))
    end.
  Lemma wt_pos s k n : 1 <= wt s k n.
  Proof. destruct k; simpl; lia. Qed.
  Lemma wt_stable s hs cs fs : space_ok s hs cs fs -> forall k n i, assoc n (index_of s) = Some i -> s_len s <= i + k -> wt s k n = wt s (S k) n.
  Proof.
    intros O. induction k as [|k IH]; intros n i Hi Hk.
    - exfalso. assert (Lt := so_index_lt O n i Hi). lia.
    - cbn [wt]. f_equal. destruct (assoc n (children_of s)) as [l|] eqn:El; [|reflexivity].
      assert (G : forall h, In h l -> wt s k (hp_name h) = wt s (S k) (hp_name h)).
      { intros h Hh. apply (so_children O n l El) in Hh. destruct Hh as [Hh Hr]. destruct (so_hp_index O h Hh) as (j & Hj & _).
        apply (IH (hp_name h) j Hj). assert (Lt := so_parent_before O n (hp_name h) i j Hr Hi Hj). lia. }
      clear El. induction l as [|h l IHl]; [reflexivity|]. cbn [map weight fold_right]. rewrite (G h (or_introl eq_refl)). f_equal.
      apply IHl. intros h' Hh'. apply G. simpl. auto.
  Qed.
  Lemma wt_ok s hs cs fs n l : space_ok s hs cs fs -> assoc n (children_of s) = Some l -> 1 + weight (wt s (s_len s)) (map hp_name l) <= wt s (s_len s) n.
  Proof.
    intros O El. assert (Kn : In n (keys s)).
    { unfold children_of in El. rewrite (cm_children _ (so_com _ _ _ _ O)) in El.
      rewrite (assoc_map (fun nd => concat (map (fun c => hp_named (d_nodes (s_dag s)) (fst c)) (n_children nd)))) in El.
      apply so_key. destruct (assoc n (d_nodes (s_dag s))); [eauto|discriminate]. }
    destruct (so_index_ex O n Kn) as (i & Hi). rewrite (wt_stable s hs cs fs O (s_len s) n i Hi) by lia. cbn [wt]. rewrite El. lia.
  Qed.

  (** for every space there is a number of steps that suffices for every input *)
  Theorem C69_ends s hs cs fs : built s hs cs fs -> exists N, forall fuel vals vec, N <= fuel -> deactivate_inactive fuel s vals vec <> Err OutOfFuel.
  Proof.
    intros B. assert (O := built_ok _ _ _ _ B). exists (weight (wt s (s_len s)) (repair_start s)). intros fuel vals vec Hf.
    assert (R : forall c, nf (repair fuel s c)).
    { intros c. unfold repair. apply nf_bind.
      - apply (nf_loop s hs cs fs (wt s (s_len s)) O); [intros n; apply wt_pos|intros n l; apply (wt_ok s hs cs fs n l O)|exact Hf].
      - intros [c1 g1] _. cbn [fst snd]. apply nf_bind.
        + generalize (items s). intros l. revert c1. induction l as [|[n h] l IH]; intros c1; [discriminate|]. cbn [drop_again].
          destruct (str_in n g1); [|apply IH]. apply nf_bind; [apply nf_drop|]. intros [c2|] _; apply IH.
        + intros c2 _. apply nf_bind; [apply nf_dict|]. intros vs _. apply nf_values. }
    unfold deactivate_inactive. destruct vals as [vals|], vec as [v|]; try discriminate.
    - apply nf_bind; [apply nf_values|]. intros c _. apply R.
    - apply nf_bind; [|intros c _; apply R]. unfold config_of_vector. destruct (Nat.eqb _ _); discriminate.
  Qed.
End Repair.

Section Witness.
  #[local] Existing Instance rat_env.

  (** ** r switches off the chain x, y, z; all three are given *)
  Definition rep_vals : list (string * option value) :=
    [("r", Some (VStr "0")); ("q", Some (VStr "1")); ("x", Some (VStr "1")); ("y", Some (VStr "0")); ("z", Some (VStr "1"))]%string.
  Definition rep_d := store bin_hps (given rep_vals).
  Example C69_ex : tame deep_space bin_hps deep_conds [] /\ stored bin_hps (given rep_vals) rep_d /\ exact_all bin_hps (given rep_vals) /\
    (exists c0, config_of_values deep_space rep_vals true = Ok c0) /\ config_of_values deep_space rep_vals false = Err InactiveHyperparameterSetError /\
    linked bin_hps deep_conds rep_d /\
    match deactivate_inactive 10 deep_space (Some rep_vals) None with
    | Ok c => map (reading deep_space c) ["r"; "q"; "x"; "y"; "z"]%string = [Some (VStr "0"); Some (VStr "1"); None; None; None]
    | Err _ => False
    end.
  Proof.
    assert (LA := rat_env_laws). split; [exact deep_tame|]. split; [apply (store_stored bin_hps _ bin_nodup)|]. split; [apply bin_exact|].
    split; [eexists; vm_compute; reflexivity|]. split; [vm_compute; reflexivity|]. split; [|vm_compute; reflexivity].
    assert (No : forall n, n = "r"%string \/ n = "q"%string -> ~ conditional deep_conds n).
    { intros n [-> | ->] (c & Hc & Ha); destruct Hc as [<-|[<-|[<-|[]]]]; clear -Ha; vm_compute in Ha; discriminate Ha. }
    intros h Hh _ Hc. destruct Hh as [<-|[<-|[<-|[<-|[<-|[]]]]]].
    - exfalso. apply (No "r"%string (or_introl eq_refl) Hc).
    - exfalso. apply (No "q"%string (or_intror eq_refl) Hc).
    - exists "r"%string. split; [exists (on "1" "x" "r"); repeat split; vm_compute; auto|vm_compute; discriminate].
    - exists "x"%string. split; [exists (on "1" "y" "x"); repeat split; vm_compute; auto|vm_compute; discriminate].
    - exists "y"%string. split; [exists deep_and; repeat split; vm_compute; auto|vm_compute; discriminate].
  Qed.

  (** the values as a vector *)
  Example C33_vector_ex : match config_of_values deep_space rep_vals true with
    | Ok c => exists c0, config_of_vector deep_space (c_vector c) true = Ok c0 /\ represents deep_space bin_hps c0 rep_d /\ lax bin_hps deep_conds [] rep_d /\
        match deactivate_inactive 10 deep_space None (Some (c_vector c)) with
        | Ok c => map (reading deep_space c) ["r"; "q"; "x"; "y"; "z"]%string = [Some (VStr "0"); Some (VStr "1"); None; None; None]
        | Err _ => False
        end
    | Err _ => False
    end.
  Proof.
    assert (LA := rat_env_laws). assert (H : exists c, config_of_values deep_space rep_vals true = Ok c) by (eexists; vm_compute; reflexivity).
    destruct H as (c & Hc). rewrite Hc. assert (St := store_stored bin_hps (given rep_vals) bin_nodup).
    destruct (lax_values deep_space bin_hps deep_conds [] rep_vals rep_d c deep_tame St (bin_exact _) Hc) as [[Rep _] Lx].
    vm_compute in Hc. injection Hc as <-. eexists. split; [vm_compute; reflexivity|]. split; [exact Rep|]. split; [exact Lx|]. vm_compute. reflexivity.
  Qed.

  (** ** C69 is false: x is not given, so that its child y is never looked at *)
  Definition gap_vals : list (string * option value) := [("r", Some (VStr "0")); ("q", Some (VStr "1")); ("y", Some (VStr "0"))]%string.
  Definition gap_part : list (string * option value) := [("r", Some (VStr "0")); ("q", Some (VStr "1"))]%string.
  Theorem C69_refuted : exists s hs cs fs vals d0 d, tame s hs cs fs /\ stored hs (given vals) d0 /\ exact_all hs (given vals) /\
    (exists c0, config_of_values s vals true = Ok c0) /\ valid hs cs fs d /\ active_part hs cs d0 d /\
    forall fuel, 10 <= fuel -> deactivate_inactive fuel s (Some vals) None = Err InactiveHyperparameterSetError.
  Proof.
    assert (LA := rat_env_laws).
    exists deep_space, bin_hps, deep_conds, [], gap_vals, (store bin_hps (given gap_vals)), (store bin_hps (given gap_part)).
    split; [exact deep_tame|]. split; [apply (store_stored bin_hps _ bin_nodup)|]. split; [apply bin_exact|].
    split; [eexists; vm_compute; reflexivity|].
    assert (V : valid bin_hps deep_conds [] (store bin_hps (given gap_part))).
    { apply (C17_accepts_valid_partial deep_space bin_hps deep_conds [] gap_part _ deep_tame (store_stored bin_hps _ bin_nodup) (bin_exact _)).
      eexists. vm_compute. reflexivity. }
    split; [exact V|]. split.
    - intros h Hh. assert (A := va_active _ _ _ _ V h Hh).
      destruct Hh as [<-|[<-|[<-|[<-|[<-|[]]]]]]; (split; [intros K; first [reflexivity | exfalso; apply A in K; apply K; vm_compute; reflexivity]|]);
        intros K; first [reflexivity | exfalso; apply K, A; vm_compute; discriminate].
    - intros fuel Hf. do 10 (destruct fuel as [|fuel]; [lia|]). clear Hf. vm_compute. reflexivity.
  Qed.

  (** ... and a dictionary and a vector together are refused, although the documentation says that
      then only the dictionary is used *)
  Theorem C69_both_refuted : exists s vals v, (exists c, forall fuel, deactivate_inactive (10 + fuel) s (Some vals) None = Ok c) /\
    (exists c, forall fuel, deactivate_inactive (10 + fuel) s None (Some v) = Ok c) /\
    forall fuel, deactivate_inactive fuel s (Some vals) (Some v) = Err ValueError.
  Proof.
    exists deep_space, gap_part, (c_vector (get_or (mk_config [] None false) (config_of_values deep_space gap_part true))).
    split; [eexists; intros fuel; vm_compute; reflexivity|]. split; [eexists; intros fuel; vm_compute; reflexivity|]. reflexivity.
  Qed.
End Witness.
