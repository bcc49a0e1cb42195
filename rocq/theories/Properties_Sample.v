(** * Properties C22, C23, C24, C41: sampling *)
From Coq Require Import String List ZArith QArith Bool Lia Permutation Relations.
From Verif Require Import Base ListFacts Numeric HP HPProofs Properties_HP Cond Forb EqFacts Dag DagProofs
  Space CommitProofs Spec SpaceProofs CnodeProofs ForbProofs EvalProofs ForbEval MergeProofs ValidProofs ConfigProofs
  ChangeProofs PassProofs ReadProofs SampleProofs Ex Properties_Eval Properties_Config Properties_Change.
Import ListNotations.
Open Scope nat_scope.

(** what the generator draws for a hyperparameter is a legal vector entry (C41) *)
Definition legal_draws {E : Env} (s : space) (hs : list hp) (draw : nat -> nat -> nat -> fval) : Prop :=
  forall h i, In h hs -> assoc (hp_name h) (index_of s) = Some i -> forall r j, legal_vector h (draw r i j) = true.

(** ... namely the encoding of a legal value *)
Definition value_draws {E : Env} (s : space) (hs : list hp) (draw : nat -> nat -> nat -> fval) : Prop :=
  forall h i, In h hs -> assoc (hp_name h) (index_of s) = Some i -> forall r j,
    exists w x, legal_value h w = true /\ exact_value h w /\ to_vector h w = Ok x /\ fsame (draw r i j) x.

Section Sampling.
  Context {E : Env} {L : EnvLaws E}.

  Lemma choose_assignment (P : hp -> option value -> Prop) (hs : list hp) : NoDup (map hp_name hs) ->
    (forall h, In h hs -> exists o, P h o) -> exists d : assignment, forall h, In h hs -> P h (d (hp_name h)).
  Proof.
    induction hs as [|h hs IH]; intros N H; [exists (fun _ => None); intros h []|].
    simpl in N. inversion N as [|? ? N1 N2]; subst. destruct (H h (or_introl eq_refl)) as (o & Ho).
    destruct IH as (d & Hd); [exact N2|intros g Hg; apply H; right; exact Hg|].
    exists (fun n => if String.eqb n (hp_name h) then o else d n). intros g [<-|Hg].
    - rewrite String.eqb_refl. exact Ho.
    - destruct (String.eqb_spec (hp_name g) (hp_name h)) as [K|K]; [|apply Hd; exact Hg].
      exfalso. apply N1. rewrite <- K. apply in_map. exact Hg.
  Qed.

  Lemma len_hs s hs cs fs : space_ok s hs cs fs -> s_len s = length hs.
  Proof.
    intros O. rewrite (so_len _ _ _ _ O). assert (P := Permutation_length (so_keys O)). unfold keys in P. rewrite !map_length in P. exact P.
  Qed.
  Lemma default_forb s hs cs fs : built s hs cs fs -> (forall f, In f fs -> forb_refs hs f) -> s_len s = 0 ->
    forall f, In f fs -> forb_vec (index_of s) [] f = Ok false.
  Proof.
    intros B R Z0 f Hf. assert (O := built_ok _ _ _ _ B). destruct (C21_exists _ _ _ _ B) as (c & H).
    unfold get_default_configuration, check_default_configuration in H.
    destruct (default_values s (items s) []) as [vals|e]; [|discriminate]. simpl in H.
    apply (config_of_values_ok O) in H. destruct H as (_ & _ & vec & cache & _ & F & Hc & _).
    unfold check_configuration in Hc. apply if_check in Hc. destruct Hc as [_ Hc].
    destruct (mapM (check_cnode s vec false) (d_min (s_dag s))) as [u|e]; [|discriminate]. simpl in Hc.
    assert (vec = []) as ->. { apply length_zero_iff_nil. rewrite <- Z0. apply F. }
    apply (check_fast O (index_of s) [] R); assumption.
  Qed.
  Lemma no_hps s hs cs fs h : space_ok s hs cs fs -> s_len s = 0 -> ~ In h hs.
  Proof. intros O Z0 Hh. destruct (so_hp_index O h Hh) as (i & _ & K & _). lia. Qed.

  (** ** C22: no sampled configuration violates a forbidden clause, whatever the draws *)
  Theorem C22_never_forbidden s hs cs fs fuel draw size l c f : built s hs cs fs ->
    sample_configuration fuel s draw size = Ok l -> In c l -> In f fs ->
    forb_vec (index_of s) (c_vector c) f = Ok false.
  Proof.
    intros B H Hc Hf. assert (O := built_ok _ _ _ _ B). destruct (sample_spec O fuel draw size l H) as [_ K].
    destruct (K c Hc) as (K1 & _). destruct K1 as [[Z0 ->]|(r & n & j & _ & _ & G)]; [|auto].
    apply (default_forb s hs cs fs B); auto.
    intros g Hg h Hh. exfalso. assert (Kn : In (hp_name h) (keys s)).
    { apply (di_fnames _ _ _ _ (so_inv _ _ _ _ O) g); [exact Hg|]. unfold forb_names. apply in_map. exact Hh. }
    apply (keys_hs O) in Kn. destruct Kn as (h' & Hh' & _). exact (no_hps _ _ _ _ h' O Z0 Hh').
  Qed.

  (** in terms of values: what the sampled configuration represents violates no clause *)
  Theorem C22_not_violated s hs cs fs fuel draw size l c d f : built s hs cs fs -> refs hs cs fs ->
    sample_configuration fuel s draw size = Ok l -> In c l -> represents s hs c d -> exact_all hs d -> In f fs ->
    ~ violated d f.
  Proof.
    intros B R H Hc Rp Ex Hf V. assert (O := built_ok _ _ _ _ B).
    assert (Q := C22_never_forbidden s hs cs fs fuel draw size l c f B H Hc Hf).
    apply (forb_vec_means (index_of s) (c_vector c) d f) in V; [congruence| | |].
    - apply forb_built_good, (so_forb_built O), Hf.
    - intros h Hh. apply (represents_encodes c d Rp). apply (proj2 R f Hf h Hh).
    - intros r a b h w Hr Hab Hd. apply (Ex h w); [|exact Hd]. apply (proj2 R f Hf).
      unfold forb_hps. apply in_concat. exists [a; b]. split; [apply in_map_iff; exists (FRel r a b); auto|].
      simpl. destruct Hab; subst; auto.
  Qed.

  (** ** C23: sampled configurations are valid

      Every entry is missing or was drawn for that hyperparameter; unconditional ones were drawn. *)
  Theorem C23_entries s hs cs fs fuel draw size l c h i : built s hs cs fs ->
    sample_configuration fuel s draw size = Ok l -> In c l -> In h hs -> assoc (hp_name h) (index_of s) = Some i ->
    (exists r j, nth i (c_vector c) NaN = draw r i j) \/ conditional cs (hp_name h) /\ nth i (c_vector c) NaN = NaN.
  Proof.
    intros B H Hc Hh Hi. assert (O := built_ok _ _ _ _ B). destruct (sample_spec O fuel draw size l H) as [_ K].
    destruct (K c Hc) as (K1 & _). destruct K1 as [[Z0 _]|(r & n & j & Hj & -> & _)]; [destruct (no_hps _ _ _ _ h O Z0 Hh)|].
    assert (Hlt := so_index_lt O _ _ Hi). destruct (matrix_rect (s := s) draw r n) as [R1 R2].
    assert (Lc : length (column (matrix (s := s) draw r n) j) = s_len s) by (rewrite column_length; exact R2).
    assert (Mc := matrix_column (s := s) draw r n j i Hj Hlt).
    destruct (conditional_dec O (hp_name h)) as [Cd|Cd].
    - destruct (prune_or O _ i Lc) as [->| ->]; [|auto]. left. exists r, j. exact Mc.
    - left. exists r, j. assert (P := prune_root O _ (hp_name h) Lc Cd). unfold vget in P. rewrite Hi in P. congruence.
  Qed.

  (** With legal draws the validity check accepts the sampled configurations.  Missing: spaces in
      which the order of the condition nodes is not an order of evaluation (C23_refuted) and
      conditions that are merged although they differ (C13). *)
  Theorem C23_accepted_partial s hs cs fs fuel draw size l c : built s hs cs fs -> refs hs cs fs ->
    merge_sound (index_of s) cs -> orderly cs -> legal_draws s hs draw ->
    sample_configuration fuel s draw size = Ok l -> In c l ->
    check_configuration s (c_vector c) false = Ok tt /\
    forall h, In h hs -> vget (index_of s) (c_vector c) (hp_name h) = NaN \/
      legal_vector h (vget (index_of s) (c_vector c) (hp_name h)) = true.
  Proof.
    intros B R M Or LD H Hc. assert (O := built_ok _ _ _ _ B).
    assert (En : forall h, In h hs -> (conditional cs (hp_name h) /\ vget (index_of s) (c_vector c) (hp_name h) = NaN) \/
      legal_vector h (vget (index_of s) (c_vector c) (hp_name h)) = true).
    { intros h Hh. destruct (so_hp_index O h Hh) as (i & Hi & _).
      destruct (C23_entries s hs cs fs fuel draw size l c h i B H Hc Hh Hi) as [(r & j & K)|[K1 K2]]; unfold vget; rewrite Hi.
      - right. rewrite K. apply (LD h i Hh Hi).
      - left. auto. }
    split; [|intros h Hh; destruct (En h Hh) as [[_ K]|K]; auto].
    apply (check_ok O); [exact R|exact M|]. split; [|split].
    - intros h Hh Nc. destruct (En h Hh) as [[K _]|K]; [contradiction|]. apply legal_vector_finite with (1 := K).
    - intros h k Hh Hk Ha. cbv zeta. destruct (sample_spec O fuel draw size l H) as [_ Sp].
      destruct (Sp c Hc) as (K1 & _). destruct K1 as [[Z0 _]|(r & n & j & Hj & Ev & _)]; [destruct (no_hps _ _ _ _ h O Z0 Hh)|].
      rewrite Ev in *. clear Ev.
      destruct (matrix_rect (s := s) draw r n) as [R1 R2].
      assert (Lc : length (column (matrix (s := s) draw r n) j) = s_len s) by (rewrite column_length; exact R2).
      destruct (so_hp_index O h Hh) as (i & Hi & Hlt & Hn & _).
      assert (P := prune_cond O _ (hp_name h) k i Or (proj1 R) M Lc Hn Hk Ha).
      rewrite (matrix_column (s := s) draw r n j i Hj Hlt) in P.
      assert (Pv : vget (index_of s) (prune (s := s) (column (matrix (s := s) draw r n) j)) (hp_name h) =
        if sat_vec (index_of s) (prune (s := s) (column (matrix (s := s) draw r n) j)) k then draw r i j else NaN)
        by (unfold vget; rewrite Hi; exact P).
      rewrite Pv.
      destruct (sat_vec _ _ k); [|right; reflexivity].
      assert (K := LD h i Hh Hi r j). split; [apply legal_vector_finite with (1 := K)|exact K].
    - intros f Hf. apply (C22_never_forbidden s hs cs fs fuel draw size l c f B H Hc Hf).
  Qed.

  (** ... and they represent valid assignments: exactly the active hyperparameters have values,
      all are legal, and no clause is violated *)
  Theorem C23_valid_partial s hs cs fs fuel draw size l c : tame s hs cs fs -> orderly cs -> value_draws s hs draw ->
    sample_configuration fuel s draw size = Ok l -> In c l ->
    exists d, represents s hs c d /\ exact_all hs d /\ valid hs cs fs d /\
      forall h, In h hs -> (exists w, getitem s c (hp_name h) = Ok w) <-> active cs d (hp_name h).
  Proof.
    intros [B R M NS Cmp] Or VD H Hc. assert (O := built_ok _ _ _ _ B).
    assert (LD : legal_draws s hs draw).
    { intros h i Hh Hi r j. destruct (VD h i Hh Hi r j) as (w & x & Lw & Ew & Hx & F). rewrite (legal_vector_same h _ _ F).
      apply (exact_legal_vector h w x (so_constructed O h Hh) Lw Ew Hx). }
    destruct (C23_accepted_partial s hs cs fs fuel draw size l c B R M Or LD H Hc) as [Ck _].
    destruct (sample_spec O fuel draw size l H) as [_ Sp]. destruct (Sp c Hc) as (_ & Cv & Ca & Lc).
    destruct (choose_assignment (fun h o => match o with
       | Some w => legal_value h w = true /\ exact_value h w /\ exists x, to_vector h w = Ok x /\ fsame (vget (index_of s) (c_vector c) (hp_name h)) x
       | None => vget (index_of s) (c_vector c) (hp_name h) = NaN end) hs (so_names_nodup O)) as (d & Hd).
    { intros h Hh. destruct (so_hp_index O h Hh) as (i & Hi & _).
      destruct (C23_entries s hs cs fs fuel draw size l c h i B H Hc Hh Hi) as [(r & j & K)|[_ K]].
      - destruct (VD h i Hh Hi r j) as (w & x & Lw & Ew & Hx & F). exists (Some w). split; [exact Lw|]. split; [exact Ew|].
        exists x. split; [exact Hx|]. unfold vget. rewrite Hi, K. exact F.
      - exists None. unfold vget. rewrite Hi. exact K. }
    assert (Rp : represents s hs c d).
    { split; [exact Lc|]. intros h Hh. specialize (Hd h Hh). destruct (d (hp_name h)); [|exact Hd]. destruct Hd as (? & ? & ?). auto. }
    assert (Ex : exact_all hs d).
    { intros h w Hh Hw. specialize (Hd h Hh). rewrite Hw in Hd. tauto. }
    destruct (encodes_check O (c_vector c) d false R M NS (represents_encodes c d Rp) Ex) as [V _]. destruct (V Ck) as (V1 & V2 & V3).
    assert (Va : forall h, In h hs -> (d (hp_name h) <> None <-> active cs d (hp_name h))).
    { intros h Hh. split; [apply V2; auto|apply V1; exact Hh]. }
    exists d. split; [exact Rp|]. split; [exact Ex|]. split; [constructor; auto|].
    - intros h w Hh Hw. specialize (Hd h Hh). rewrite Hw in Hd. tauto.
    - intros h Hh. rewrite <- (Va h Hh). destruct c as [v vs al]; simpl in *. subst vs al.
      assert (Rv := read_vector O v d false h Hh (represents_encodes _ d Rp h Hh)).
      destruct (d (hp_name h)) as [w|] eqn:Ed.
      + destruct (Rv (Ex h w Hh Ed)) as (z & Hz & _). split; [discriminate|]. intros _. exists z. exact Hz.
      + rewrite Rv. split; [intros (w & K); discriminate|congruence].
  Qed.

  (** ** C24: sampling returns exactly the requested number of configurations *)
  Theorem C24_count s hs cs fs fuel draw size l : built s hs cs fs -> sample_configuration fuel s draw size = Ok l ->
    length l = Z.to_nat (match size with None => 1 | Some k => k end).
  Proof. intros B H. apply (sample_spec (built_ok _ _ _ _ B) fuel draw size l H). Qed.

  (** each configuration has one entry per hyperparameter *)
  Theorem C24_length s hs cs fs fuel draw size l c : built s hs cs fs -> sample_configuration fuel s draw size = Ok l ->
    In c l -> length (c_vector c) = length hs.
  Proof.
    intros B H Hc. assert (O := built_ok _ _ _ _ B). destruct (sample_spec O fuel draw size l H) as [_ K].
    destruct (K c Hc) as (_ & _ & _ & ->). apply (len_hs _ _ _ _ O).
  Qed.

  Lemma loop_progress s draw (P : forall r n, 5 <= n -> exists new, sample_round s n (matrix (s := s) draw r n) = Ok new /\ new <> []) :
    forall fuel r size ss acc, size <= fuel + length acc -> exists vs, sample_loop fuel s draw r size ss acc = Ok vs.
  Proof.
    induction fuel as [|fuel IH]; intros r size ss acc Hf; cbn [sample_loop].
    - replace (Nat.leb size (length acc)) with true by (symmetry; apply Nat.leb_le; lia). eauto.
    - destruct (Nat.leb size (length acc)); [eauto|]. fold (matrix (s := s) draw r (next_size s ss)).
      destruct (P r (next_size s ss)) as (new & -> & Hn); [unfold next_size; lia|]. cbn [bind]. apply IH.
      rewrite app_length. destruct new; [congruence|]. simpl. lia.
  Qed.

  (** without forbidden clauses it stops, whatever the draws *)
  Theorem C24_stops s hs cs draw size : built s hs cs [] ->
    exists fuel l, sample_configuration fuel s draw size = Ok l.
  Proof.
    intros B. assert (O := built_ok _ _ _ _ B). set (k := match size with None => 1%Z | Some k => k end).
    exists (Z.to_nat k). unfold sample_configuration. destruct (Nat.eqb_spec (s_len s) 0) as [Z0|Z0].
    - assert (G : forall n, exists l, mapM (fun _ : unit => config_of_vector s [] false) (repeat tt n) = Ok l); [|apply G].
      induction n as [|n (l & IH)]; simpl; [eauto|]. unfold config_of_vector at 1. simpl. rewrite Z0. simpl. rewrite IH. simpl. eauto.
    - fold k. destruct (Z.ltb_spec k 1) as [K|K]; [eauto|].
      destruct (loop_progress s draw) with (fuel := Z.to_nat k) (r := 0) (size := Z.to_nat k) (ss := Z.to_nat k) (acc := @nil (list fval)) as (vs & Hs).
      + intros r n Hn. destruct (matrix_rect (s := s) draw r n) as [R1 R2].
        assert (F0 := so_forbs O). apply Permutation_sym, Permutation_nil in F0. unfold forbidden_clauses, d_forbs in F0.
        apply app_eq_nil in F0. destruct F0 as [Fu Fc].
        assert (Rn : exists new, sample_round s n (matrix (s := s) draw r n) = Ok new).
        { unfold sample_round. rewrite Fu, Fc. cbn [forb_mask foldM bind]. eauto. }
        destruct Rn as (new & Hnew). exists new. split; [exact Hnew|]. rewrite (round_spec O n _ new R1 R2 Hnew).
        unfold okf. rewrite Fu, Fc. simpl. destruct n; [lia|]. simpl. discriminate.
      + simpl. lia.
      + rewrite Hs. cbn [bind]. destruct (loop_spec O _ draw _ _ _ _ vs (fun v (F : In v []) => match F with end) Hs) as [Sv _].
        assert (G : exists cl, mapM (fun v => config_of_vector s v false) vs = Ok cl); [|destruct G as (cl & ->); simpl; eauto].
        clear Hs. induction vs as [|v vs IH]; simpl; [eauto|].
        destruct (Sv v (or_introl eq_refl)) as (r & n & j & _ & -> & _).
        unfold config_of_vector at 1. rewrite prune_len, column_length. destruct (matrix_rect (s := s) draw r n) as [_ ->].
        rewrite Nat.eqb_refl. cbn [bind]. destruct IH as (cl & ->); [intros v Hv; apply Sv; right; exact Hv|]. simpl. eauto.
  Qed.
End Sampling.

Section Witness.
  #[local] Existing Instance rat_env.

  (** ** Draws for the three-level space: a few values of each hyperparameter in turn *)
  Definition opts (h : hp) : list value :=
    match hp_kind h with
    | KCat c _ => c
    | KOrd c => c
    | KConst v => [v]
    | KInt lo hi _ _ => [VInt lo; VInt (lo + 1); VInt (hi - 1); VInt hi]
    | KFloat lo hi _ _ => [VFloat lo; VFloat (1#2); VFloat hi]
    end.
  Definition pick (h : hp) (k : nat) : value := nth (Nat.modulo k (length (opts h))) (opts h) (hp_default h).
  Definition ex_draw (s : space) (r i j : nat) : fval :=
    match hp_at s i with Some h => get_or NaN (to_vector h (pick h (r + j * S i))) | None => NaN end.
  Definition good_option (h : hp) (w : value) : bool :=
    legal_value h w && match hp_kind h, w with KInt _ _ _ _, VInt _ => true | KInt _ _ _ _, _ => false | _, _ => true end
    && match to_vector h w with Ok _ => true | Err _ => false end.

  Lemma ex_value_draws s hs cs fs : built s hs cs fs ->
    forallb (fun h => forallb (good_option h) (hp_default h :: opts h)) hs = true -> value_draws s hs (ex_draw s).
  Proof.
    assert (LA := rat_env_laws). intros B G h i Hh Hi r j. assert (O := built_ok _ _ _ _ B).
    destruct (so_hp_index O h Hh) as (i' & Hi' & _ & _ & Ha). assert (i' = i) by congruence. subst i'.
    unfold ex_draw. rewrite Ha. set (w := pick h (r + j * S i)).
    assert (Hw : In w (hp_default h :: opts h)).
    { unfold w, pick. destruct (nth_in_or_default (Nat.modulo (r + j * S i) (length (opts h))) (opts h) (hp_default h)) as [K|K];
        [right; exact K|left; symmetry; exact K]. }
    rewrite forallb_forall in G. specialize (G h Hh). cbv beta in G. rewrite forallb_forall in G. specialize (G w Hw).
    unfold good_option in G. apply andb_prop in G. destruct G as [G G3]. apply andb_prop in G. destruct G as [G1 G2].
    destruct (to_vector h w) as [x|] eqn:Ex; [|discriminate]. exists w, x. simpl. split; [exact G1|].
    split; [|split; [exact Ex|apply fsame_refl]].
    unfold exact_value. destruct (hp_kind h); auto. destruct w; try discriminate. exists (inject_Z z), z. split; [reflexivity|apply Qeq_refl].
  Qed.

  Definition lev_draw := ex_draw lev_space.
  Lemma lev_draws : value_draws lev_space ex_hps lev_draw.
  Proof. apply (ex_value_draws _ _ _ _ lev_built). vm_compute. reflexivity. Qed.
  Definition lev_sample := get_or [] (sample_configuration 20 lev_space lev_draw (Some 6%Z)).

  (** C22, C23, C24: six are asked for; several rounds are needed because some are forbidden. *)
  Example C23_ex : tame lev_space ex_hps lev_conds ex_forbs /\ orderly lev_conds /\ value_draws lev_space ex_hps lev_draw /\
    sample_configuration 20 lev_space lev_draw (Some 6%Z) = Ok lev_sample /\ length lev_sample = 6 /\
    sample_configuration 1 lev_space lev_draw (Some 6%Z) = Err OutOfFuel /\
    sample_configuration 20 lev_space lev_draw None = Ok (firstn 1 lev_sample).
  Proof.
    split; [exact lev_tame|]. split; [exact lev_orderly|]. split; [exact lev_draws|].
    split; [vm_compute; reflexivity|]. split; [vm_compute; reflexivity|]. split; [vm_compute; reflexivity|]. vm_compute. reflexivity.
  Qed.

  (** C22: draws with n < k, which a clause forbids, are among the first five, but not in the sample *)
  Example C22_ex : In fRel ex_forbs /\
    (exists j, j < 5 /\ forb_vec (index_of lev_space) (column (matrix (s := lev_space) lev_draw 0 5) j) fRel = Ok true) /\
    forallb (fun c => match forb_vec (index_of lev_space) (c_vector c) fRel with Ok false => true | _ => false end) lev_sample = true.
  Proof.
    split; [vm_compute; tauto|]. split; [exists 1; split; [lia|vm_compute; reflexivity]|]. vm_compute. reflexivity.
  Qed.

  (** C24: when every draw is forbidden the loop goes on *)
  Example C24_ex : sample_configuration 30 lev_space (fun _ i _ => ex_draw lev_space 0 i 1) (Some 1%Z) = Err OutOfFuel /\
    sample_configuration 0 lev_space lev_draw (Some (-3)%Z) = Ok [] /\
    sample_configuration 0 empty_space lev_draw (Some 3%Z) = Ok (repeat (mk_config [] None false) 3).
  Proof. split; [vm_compute; reflexivity|]. split; vm_compute; reflexivity. Qed.

  (** ** C23 is false: z depends on y and q, y on x and x on r; the condition of z is evaluated
      before y is switched off, so z keeps its value although y has none *)
  Definition deep_draw (r i j : nat) : fval :=
    match hp_at deep_space i with
    | Some h => get_or NaN (to_vector h (VStr (if String.eqb (hp_name h) "r" then "0" else "1")))
    | None => NaN
    end.
  Lemma deep_draws : value_draws deep_space bin_hps deep_draw.
  Proof.
    assert (LA := rat_env_laws). intros h i Hh Hi r j. assert (O := built_ok _ _ _ _ deep_built).
    destruct (so_hp_index O h Hh) as (i' & Hi' & _ & _ & Ha). assert (i' = i) by congruence. subst i'.
    unfold deep_draw. rewrite Ha. clear Hi Hi' Ha.
    exists (VStr (if String.eqb (hp_name h) "r" then "0" else "1")).
    repeat (destruct Hh as [<-|Hh]; [eexists; split; [vm_compute; reflexivity|]; split; [exact I|]; split;
      [vm_compute; reflexivity|vm_compute; reflexivity]|]). destruct Hh.
  Qed.
  Theorem C23_refuted : exists s hs cs fs draw c, tame s hs cs fs /\ value_draws s hs draw /\
    sample_configuration 1 s draw None = Ok [c] /\ check_configuration s (c_vector c) false = Err InactiveHyperparameterSetError /\
    exists d, represents s hs c d /\ d "y"%string = None /\ d "z"%string <> None /\ ~ active cs d "z"%string.
  Proof.
    assert (LA := rat_env_laws).
    exists deep_space, bin_hps, deep_conds, [], deep_draw, (hd (mk_config [] None false) (get_or [] (sample_configuration 1 deep_space deep_draw None))).
    split; [exact deep_tame|]. split; [exact deep_draws|]. split; [vm_compute; reflexivity|]. split; [vm_compute; reflexivity|].
    exists (given [("r", Some (VStr "0")); ("q", Some (VStr "1")); ("z", Some (VStr "1"))]%string).
    split; [|split; [reflexivity|split; [discriminate|]]].
    - split; [vm_compute; reflexivity|]. intros h Hh.
      repeat (destruct Hh as [<-|Hh]; [vm_compute; first [reflexivity|split; [reflexivity|eexists; split; reflexivity]]|]). destruct Hh.
    - intros A. specialize (A deep_and ltac:(vm_compute; tauto) ltac:(vm_compute; reflexivity)).
      vm_compute in A. destruct A as ((w & Hw & A) & _). discriminate Hw.
  Qed.
End Witness.
