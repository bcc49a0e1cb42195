(** * Properties C66, C67: get_random_neighbor *)
From Coq Require Import String List ZArith QArith Bool Lia Permutation Relations.
From Verif Require Import Base ListFacts Numeric NumericProofs HP HPProofs Properties_HP Cond Forb Dag Space CommitProofs Spec SpaceProofs
  ForbProofs EvalProofs ForbEval ValidProofs ConfigProofs ChangeProofs Ex Properties_Eval Properties_Config Properties_Change
  Dist DistProofs Properties_Dist Util LookupProofs ExchangeProofs Properties_Exchange Random Properties_Raise.
Import ListNotations.
Open Scope nat_scope.

Section Random.
  Context {E : Env} {L : EnvLaws E}.

  (** ** dict(config) *)
  Lemma dict_spec s c vals : NoDup (iter s c) -> dict_of s c = Ok vals ->
    map fst vals = iter s c /\
    (forall k z, In k (iter s c) -> (assoc k vals = Some z <-> getitem s c k = Ok z)) /\
    (forall k, ~ In k (iter s c) -> assoc k vals = None).
  Proof.
    unfold dict_of. intros ND H. apply mapM_ok in H.
    assert (Fs : map fst vals = iter s c).
    { clear ND. induction H as [|k [k' v] l m P F IH]; [reflexivity|]. destruct (getitem s c k) as [z|]; [|discriminate]. simpl in P.
      injection P as <- <-. simpl. rewrite IH. reflexivity. }
    split; [exact Fs|]. split.
    - intros k z Hk. destruct (Forall2_in_l _ _ _ _ H Hk) as ([k' v] & Hv & P). destruct (getitem s c k) as [y|] eqn:G; [|discriminate].
      simpl in P. injection P as <- <-. rewrite (In_assoc k y vals); [split; congruence|rewrite Fs; exact ND|exact Hv].
    - intros k Hk. destruct (assoc k vals) as [z|] eqn:A; [|reflexivity]. exfalso. apply Hk. rewrite <- Fs.
      apply assoc_Some_key. eauto.
  Qed.

  (** [vals] lists the values [d], as shown *)
  Definition dict_shows (hs : list hp) (vals : list (string * value)) (d : assignment) : Prop :=
    NoDup (map fst vals) /\
    (forall k, In k (map fst vals) -> In k (map hp_name hs)) /\
    forall h, In h hs -> match d (hp_name h) with
      | Some u => exists z, assoc (hp_name h) vals = Some z /\ py_eqb z (round_value h u) = true
      | None => assoc (hp_name h) vals = None
      end.

  Lemma dict_shown s hs cs fs c d : built s hs cs fs -> represents s hs c d -> shows s hs c d ->
    exists vals, dict_of s c = Ok vals /\ dict_shows hs vals d.
  Proof.
    intros B Rep Sh. assert (O := built_ok _ _ _ _ B). assert (ND := iter_nodup O c).
    assert (It : forall h, In h hs -> (In (hp_name h) (iter s c) <-> d (hp_name h) <> None)).
    { intros h Hh. rewrite (iter_in O). assert (R := proj2 Rep h Hh). destruct (d (hp_name h)) as [u|] eqn:Ed.
      - split; [discriminate|]. intros _. exists h. split; [exact Hh|]. split; [reflexivity|].
        destruct (encodes_fin (index_of s) (c_vector c) d h u (so_constructed O h Hh) (represents_encodes c d Rep h Hh) Ed) as (q & ->).
        discriminate.
      - split; [intros (g & Hg & _ & Hn); congruence|congruence]. }
    destruct (mapM_total (fun k => v <- getitem s c k ;; Ok (k, v)) (iter s c)) as (vals & Hv).
    { intros k Hk. assert (Hk' := Hk). apply (iter_in O) in Hk'. destruct Hk' as (h & Hh & <- & _). apply (It h Hh) in Hk.
      destruct (d (hp_name h)) as [u|] eqn:Ed; [|congruence]. destruct (Sh h u Hh Ed) as (z & -> & _). simpl. eauto. }
    exists vals. split; [exact Hv|]. destruct (dict_spec s c vals ND Hv) as (D1 & D2 & D3).
    split; [rewrite D1; exact ND|]. split.
    - intros k Hk. rewrite D1 in Hk. apply (iter_in O) in Hk. destruct Hk as (h & Hh & <- & _). apply in_map. exact Hh.
    - intros h Hh. destruct (d (hp_name h)) as [u|] eqn:Ed.
      + destruct (Sh h u Hh Ed) as (z & Hz & Qz). exists z. split; [|exact Qz]. apply D2; [|exact Hz]. apply (It h Hh). congruence.
      + apply D3. intros K. apply (It h Hh) in K. congruence.
  Qed.

  Lemma exact_congr h v w : py_eqb v w = true -> exact_value h w -> exact_value h v.
  Proof.
    unfold exact_value. destruct (hp_kind h); auto. intros Q (a & z & Ha & Hz). unfold py_eqb in Q. rewrite Ha in Q.
    destruct (num_of v) as [b|]; [|destruct v; discriminate]. apply Qeq_bool_iff in Q. exists b, z. split; [reflexivity|]. rewrite Q. exact Hz.
  Qed.

  Lemma legal_congr h v w : py_eqb v w = true -> legal_value h v = true -> legal_value h w = true.
  Proof.
    intros Q. assert (Qn : match num_of v, num_of w with Some a, Some b => (a == b)%Q | None, None => True | _, _ => False end).
    { unfold py_eqb in Q. destruct (num_of v), (num_of w); [apply Qeq_bool_iff; exact Q|..]; auto; destruct v, w; discriminate. }
    unfold legal_value. destruct (hp_kind h) as [c ws|sq|u|lo hi log dd|lo hi log dd].
    - rewrite !py_in_iff. intros (a & Ha & Qa). exists a. split; [exact Ha|]. rewrite py_eqb_sym in Q. apply (py_eqb_trans _ _ _ Q Qa).
    - rewrite !py_in_iff. intros (a & Ha & Qa). exists a. split; [exact Ha|]. rewrite py_eqb_sym in Q. apply (py_eqb_trans _ _ _ Q Qa).
    - intros Qa. rewrite py_eqb_sym in Q. apply (py_eqb_trans _ _ _ Q Qa).
    - destruct (num_of v), (num_of w); try contradiction; try discriminate. rewrite (legal_int_proper _ _ _ _ Qn). auto.
    - destruct (num_of v), (num_of w); try contradiction; try discriminate. rewrite !andb_true_iff, !Qle_bool_iff. rewrite Qn. auto.
  Qed.

  Lemma assoc_map_some k vals : assoc k (some_values vals) = option_map Some (assoc k vals).
  Proof. unfold some_values. induction vals as [|[a b] l IH]; [reflexivity|]. simpl. destruct (String.eqb k a); auto. Qed.
  Lemma given_some k vals : given (some_values vals) k = assoc k vals.
  Proof. unfold given. rewrite assoc_map_some. destruct (assoc k vals); reflexivity. Qed.
  Lemma keys_some vals : map fst (some_values vals) = map fst vals.
  Proof. unfold some_values. rewrite map_map. reflexivity. Qed.

  Lemma neighbour_congr h u w w' : neighbour h u w -> py_eqb w w' = true -> legal_value h w' = true -> exact_value h w' -> neighbour h u w'.
  Proof.
    unfold neighbour. intros N Q Lw Xw.
    assert (D : py_eqb w u = false -> py_eqb w' u = false).
    { intros Du. destruct (py_eqb w' u) eqn:K; [|reflexivity]. rewrite (py_eqb_trans _ _ _ Q K) in Du. discriminate. }
    destruct (hp_kind h) as [ch ws|sq|v|lo hi log dd|lo hi log dd]; [|destruct N as (i & j & a & b & A1 & A2 & A3 & A4 & A5)|..]; try tauto.
    exists i, j, a, b. repeat split; auto. apply (py_eqb_trans _ _ _ A4 Q).
  Qed.

  Lemma nb_neighbour h u q n r l x : constructed h -> entry_of h u (Fin q) ->
    (forall lo hi log dd, hp_kind h = KInt lo hi log dd -> dd = DUniform \/ (log = false /\ (Z.of_nat n < hi - lo)%Z)) ->
    shuffles r -> neighborhood h q n r = Ok l -> In x l ->
    exists w, entry_of h w (Fin x) /\ (is_float h \/ neighbour h u w).
  Proof.
    intros C En St Sh Hn Hx.
    destruct (hp_kind h) as [ch ws|sq|v|lo hi log dd|lo hi log dd] eqn:K; try congruence.
    - destruct (nb_entry h u q n r l x C En) as (w & Ew & [Fl|Dw]); auto; [congruence|eauto|].
      exists w. split; [exact Ew|]. right. unfold neighbour. rewrite K. split; [apply Ew|exact Dw].
    - assert (Lv := entry_legal h u _ C En). assert (Nv := nb_vectorized h q n r l Lv Hn).
      destruct (entry_index h sq u q C (LV_ord h sq K) En) as (i & v & V1 & V2 & V3).
      destruct (C45_ordinal_partial h sq i (Fin q) n None r v C K V1 V3 I) as (l' & js & N1 & N2 & _).
      rewrite Nv in N1. injection N1 as <-. destruct (Forall2_in_r _ _ _ _ N2 (in_map Fin l x Hx)) as (j & _ & J1 & J2 & J3).
      destruct (entry_seq h sq j C (LV_ord h sq K) J1) as (w & W1 & Ew). exists w. split; [apply (entry_fsame h w _ _ J3 Ew)|].
      right. unfold neighbour. rewrite K. exists i, j, v, w. rewrite py_eqb_refl. auto.
    - unfold neighborhood in Hn. rewrite K in Hn. injection Hn as <-. destruct Hx.
    - destruct (nb_entry h u q n r l x C En) as (w & Ew & [Fl|Dw]); auto.
      { intros lo' hi' log' dd' K'. rewrite K in K'. apply (St lo' hi' log' dd' K'). }
      { eauto. }
      exists w. split; [exact Ew|]. right. unfold neighbour. rewrite K. split; [apply Ew|]. split; [apply Ew|exact Dw].
    - destruct (nb_entry h u q n r l x C En) as (w & Ew & _); auto; [congruence|].
      exists w. split; [exact Ew|]. left. exists lo, hi, log, dd. exact K.
  Qed.

  (** [d'] is [d] with [h] set to (the stored form of) [w]; everything else keeps its activity and
      its value, floats as shown *)
  Definition replaced (hs : list hp) (d : assignment) (h : hp) (w : value) (d' : assignment) : Prop :=
    d' (hp_name h) = Some (round_value h w) /\
    forall g, In g hs -> hp_name g <> hp_name h ->
      match d (hp_name g) with
      | Some v => exists v', d' (hp_name g) = Some v' /\ py_eqb v' (round_value g v) = true
      | None => d' (hp_name g) = None
      end.

  Lemma choose_spec tries : forall s hs cs fs c o t i t', built s hs cs fs -> choose_active tries s c o t = Ok (i, t') ->
    exists h q, In h hs /\ hp_at s i = Some h /\ assoc (hp_name h) (index_of s) = Some i /\
      nth_error (c_vector c) i = Some (Fin q) /\ (forall z, hp_size h = Some z -> (1 < z)%Z).
  Proof.
    induction tries as [|n IH]; intros s hs cs fs c o t i t' B H; [discriminate|]. assert (O := built_ok _ _ _ _ B). cbn [choose_active] in H.
    set (i0 := if Nat.ltb 1 (config_len s c) then o_pick o t else 0) in *.
    destruct (nth_error (c_vector c) i0) as [x|] eqn:Ex; [|discriminate].
    destruct (isfinite x) eqn:Fx; [|eapply IH; eauto].
    destruct (hp_at s i0) as [h|] eqn:Eh; [|discriminate].
    destruct (match hp_size h with Some z => (z <=? 1)%Z | None => false end) eqn:Sz; [eapply IH; eauto|].
    injection H as <- <-. rewrite (so_hp_at O) in Eh. destruct (nth_error (d_nodes (s_dag s)) i0) as [[nm nd]|] eqn:En; [|discriminate].
    simpl in Eh. injection Eh as <-.
    assert (Hk : nth_error (keys s) i0 = Some nm) by (unfold keys; rewrite nth_error_map, En; reflexivity).
    assert (Hg : get_hp s nm = Some (n_hp nd)) by (rewrite <- (so_hp_at_name O i0 nm Hk), (so_hp_at O), En; reflexivity).
    assert (Hg' := Hg). apply (so_get_hp O) in Hg'. destruct Hg' as [Hh Hn].
    destruct x as [q| | |]; try discriminate. exists (n_hp nd), q. split; [exact Hh|]. split; [rewrite (so_hp_at O), En; reflexivity|].
    split; [rewrite Hn; apply (so_index O); exact Hk|]. split; [exact Ex|]. intros z Hz. rewrite Hz in Sz. apply Z.leb_gt in Sz. exact Sz.
  Qed.

  (** one round *)
  Definition round_result (s : space) (c : config) (o : oracle) (vals : list (string * value)) (it : nat * nat) (g : nat)
      (again : res config) : res config :=
    match hp_at s (fst it) with
    | None => Err IndexError
    | Some h =>
        l <- neighbors_vectorized h (nth (fst it) (c_vector c) NaN) 1 None (o_rng o g) ;;
        ws <- mapM (to_value h) l ;;
        match ws with
        | [] => Err IndexError
        | w :: _ =>
            check assoc_mem (hp_name h) vals or KeyError ;;
            match config_of_values s (some_values (assoc_set (hp_name h) w vals)) false with
            | Ok c' => Ok c'
            | Err e => if is_value_error e then again else Err e
            end
        end
    end.
  Lemma random_loop_S f s c o vals t g : random_loop (S f) s c o vals t g =
    (it <- choose_active max_tries s c o t ;; round_result s c o vals it g (random_loop f s c o vals (snd it) (S g))).
  Proof. reflexivity. Qed.

  (** what one round proposes *)
  Lemma round_proposes s hs cs fs c d o h i q g l ws w vals : built s hs cs fs -> represents s hs c d -> exact_all hs d ->
    dict_shows hs vals d -> (forall g, shuffles (o_rng o g)) -> steady 1 hs -> In h hs -> assoc (hp_name h) (index_of s) = Some i ->
    nth_error (c_vector c) i = Some (Fin q) ->
    neighbors_vectorized h (Fin q) 1 None (o_rng o g) = Ok l -> mapM (to_value h) l = Ok ws -> nth_error ws 0 = Some w ->
    exists u, d (hp_name h) = Some u /\ assoc_mem (hp_name h) vals = true /\
      exact_all hs (given (some_values (assoc_set (hp_name h) w vals))) /\
      legal_value h w = true /\ (is_float h \/ neighbour h u w).
  Proof.
    intros B Rep Ex (_ & _ & Ds) Sh St Hh Hi Hx Hl Hw W0. assert (O := built_ok _ _ _ _ B). assert (C := so_constructed O h Hh).
    assert (R := proj2 Rep h Hh). unfold vget in R. rewrite Hi in R. rewrite (nth_error_nth _ _ _ Hx) in R.
    destruct (d (hp_name h)) as [u|] eqn:Ed; [|discriminate]. exists u. split; [reflexivity|].
    assert (Eu : entry_of h u (Fin q)). { destruct R as (R1 & R2). split; [exact R1|]. split; [apply (Ex h u Hh Ed)|exact R2]. }
    assert (D := Ds h Hh). rewrite Ed in D. destruct D as (z & Az & _).
    destruct (nb_vectorized_inv _ _ _ _ _ Hl) as (m & Hm & ->). destruct ws as [|w0 ws]; [discriminate|]. simpl in W0. injection W0 as ->.
    destruct m as [|x m]; [discriminate|]. cbn [map mapM] in Hw. destruct (to_value h (Fin x)) as [w1|] eqn:Tw; [|discriminate]. simpl in Hw.
    destruct (mapM (to_value h) (map Fin m)); [|discriminate]. injection Hw as -> _.
    destruct (nb_neighbour h u q 1 (o_rng o g) (x :: m) x C Eu) as (w2 & (L2 & X2 & y & Ty & Fy) & N2); auto.
    { intros lo hi log dd K. apply (St h lo hi log dd Hh K). }
    { left. reflexivity. }
    destruct (value_roundtrip h w2 y C L2 X2 Ty) as (w3 & T3 & Q3).
    destruct (to_value_same h y (Fin x) w3 (fsame_sym _ _ Fy) T3) as (w4 & T4 & Q4). assert (w4 = w) by congruence. subst w4.
    assert (Qw : py_eqb w w2 = true). { rewrite py_eqb_sym in Q4. apply (py_eqb_trans _ _ _ Q4 Q3). }
    split; [unfold assoc_mem; rewrite Az; reflexivity|]. split.
    - intros h' v Hh' Hv. rewrite given_some in Hv. destruct (string_dec (hp_name h') (hp_name h)) as [En|En].
      + rewrite En, assoc_set_same in Hv. injection Hv as <-. assert (h' = h) by (apply (same_hp hs); auto using (so_names_nodup O)). subst h'.
        apply (exact_congr h w w2 Qw X2).
      + rewrite (assoc_set_other _ _ _ _ En) in Hv. specialize (Ds h' Hh'). destruct (d (hp_name h')) as [u'|] eqn:Ed'; [|congruence].
        destruct Ds as (z' & Az' & Qz'). assert (z' = v) by congruence. subst z'. apply (exact_congr h' v _ Qz'). apply round_exact. apply (Ex h' u' Hh' Ed').
    - assert (Lw : legal_value h w = true) by (apply (legal_congr h w2 w); [rewrite py_eqb_sym; exact Qw|exact L2]). split; [exact Lw|].
      destruct N2 as [Fl|N2]; [left; exact Fl|]. right. apply (neighbour_congr h u w2); auto; [rewrite py_eqb_sym; exact Qw|].
      apply (exact_congr h w w2 Qw X2).
  Qed.

  (** ** C66: what is returned *)
  Theorem C66_sound_partial s hs cs fs c d o fuel cfg : tame s hs cs fs ->
    represents s hs c d -> shows s hs c d -> exact_all hs d -> (forall g, shuffles (o_rng o g)) -> steady 1 hs ->
    get_random_neighbor fuel s c o = Ok cfg ->
    exists h u w d', In h hs /\ d (hp_name h) = Some u /\ (is_float h \/ neighbour h u w) /\
      replaced hs d h w d' /\ represents s hs cfg d' /\ valid hs cs fs d' /\ exact_all hs d'.
  Proof.
    intros T Rep Sh Ex Rs St H. assert (B := tm_built _ _ _ _ T). assert (O := built_ok _ _ _ _ B).
    unfold get_random_neighbor in H. destruct (dict_shown s hs cs fs c d B Rep Sh) as (vals & Hv & Ds). rewrite Hv in H. cbn [bind] in H.
    destruct (match estimate_size s with Some z => negb (z <=? 1)%Z | None => true end); [|discriminate].
    revert H. generalize 0 at 1. generalize 0. induction fuel as [|f IH]; intros g t H; [discriminate|]. rewrite random_loop_S in H. revert H. generalize max_tries. intros mt H.
    destruct (choose_active mt s c o t) as [[i t']|] eqn:Hc; [|discriminate]. cbn [bind] in H. unfold round_result in H. cbn [fst snd] in H.
    destruct (choose_spec _ s hs cs fs c o t i t' B Hc) as (h & q & Hh & Ha & Hi & Hx & _). rewrite Ha, (nth_error_nth _ _ _ Hx) in H.
    destruct (neighbors_vectorized h (Fin q) 1 None (o_rng o g)) as [l|] eqn:Hl; [|discriminate]. cbn [bind] in H.
    destruct (mapM (to_value h) l) as [ws|] eqn:Hw; [|discriminate]. cbn [bind] in H. destruct ws as [|w ws]; [discriminate|].
    destruct (round_proposes s hs cs fs c d o h i q g l (w :: ws) w vals B Rep Ex Ds Rs St Hh Hi Hx Hl Hw eq_refl) as (u & Hu & Am & Xa & Lw & Nb).
    rewrite Am in H. set (vs := some_values (assoc_set (hp_name h) w vals)) in *.
    destruct (config_of_values s vs false) as [c'|e] eqn:Hcv; [|destruct (is_value_error e); [apply (IH _ _ H)|discriminate]].
    injection H as ->. set (d' := store hs (given vs)). assert (Sd : stored hs (given vs) d') by apply (store_stored hs _ (so_names_nodup O)).
    destruct (proj1 (C17_accepts_valid_partial s hs cs fs vs d' T Sd Xa) (ex_intro _ _ Hcv)) as (_ & Al & V).
    assert (Gw : given vs (hp_name h) = Some w). { unfold vs. rewrite given_some. apply assoc_set_same. }
    exists h, u, w, d'. split; [exact Hh|]. split; [exact Hu|]. split; [exact Nb|]. split; [|split; [|split]].
    - split; [rewrite (Sd h Hh), Gw; reflexivity|]. intros g' Hg Hn. rewrite (Sd g' Hg). unfold vs. rewrite given_some, (assoc_set_other _ _ _ _ Hn).
      destruct Ds as (_ & _ & Ds). specialize (Ds g' Hg). destruct (d (hp_name g')) as [v|]; [|rewrite Ds; reflexivity].
      destruct Ds as (z & -> & Qz). eexists. split; [reflexivity|]. apply (py_eqb_trans _ (round_value g' (round_value g' v))); [|apply round_idem].
      apply round_congr. exact Qz.
    - apply (C20_start s hs cs fs vs d' false cfg B Sd Hcv).
    - exact V.
    - apply (stored_exact hs (given vs) d' Sd Xa).
  Qed.

  (** ** when nothing can change *)
  Theorem C66_single s hs cs fs c d o fuel z : built s hs cs fs -> represents s hs c d -> shows s hs c d ->
    estimate_size s = Some z -> (z <= 1)%Z -> get_random_neighbor fuel s c o = Err NoPossibleNeighborsError.
  Proof.
    intros B Rep Sh Ez Lz. unfold get_random_neighbor. destruct (dict_shown s hs cs fs c d B Rep Sh) as (vals & -> & _). cbn [bind].
    rewrite Ez. apply Z.leb_le in Lz. rewrite Lz. reflexivity.
  Qed.

  Definition picks (s : space) (o : oracle) : Prop := forall t, s_len s <> 0 -> o_pick o t < s_len s.

  (** no active hyperparameter has more than one value *)
  Definition frozen (hs : list hp) (d : assignment) : Prop :=
    forall h, In h hs -> d (hp_name h) <> None -> exists z, hp_size h = Some z /\ (z <= 1)%Z.

  Lemma drawn s hs cs fs c d o t : built s hs cs fs -> represents s hs c d -> picks s o -> hs <> [] ->
    let i := if Nat.ltb 1 (config_len s c) then o_pick o t else 0 in
    exists h, In h hs /\ assoc (hp_name h) (index_of s) = Some i /\ hp_at s i = Some h /\
      nth_error (c_vector c) i = Some (vget (index_of s) (c_vector c) (hp_name h)).
  Proof.
    intros B Rep Pk Ne i. assert (O := built_ok _ _ _ _ B).
    assert (Ln : s_len s <> 0). { rewrite <- (so_keys_len O), (Permutation_length (so_keys O)), map_length. destruct hs; [congruence|discriminate]. }
    assert (Hi : i < s_len s). { unfold i. destruct (Nat.ltb 1 (config_len s c)); [apply (Pk t Ln)|lia]. }
    assert (Kn : exists n, nth_error (keys s) i = Some n).
    { destruct (nth_error (keys s) i) as [n|] eqn:En; [eauto|]. exfalso. apply nth_error_None in En. rewrite (so_keys_len O) in En. lia. }
    destruct Kn as (n & Hk). assert (In_ := nth_error_In _ _ Hk). apply (keys_hs O) in In_. destruct In_ as (h & Hh & Hn).
    assert (Ha : assoc (hp_name h) (index_of s) = Some i) by (rewrite Hn; apply (so_index O); exact Hk).
    exists h. split; [exact Hh|]. split; [exact Ha|]. split.
    - rewrite (so_hp_at_name O i n Hk). apply (so_get_hp O). auto.
    - unfold vget. rewrite Ha. apply nth_error_nth'. rewrite (proj1 Rep). exact Hi.
  Qed.

  Lemma entry_cases s hs cs fs c d h : built s hs cs fs -> represents s hs c d -> In h hs ->
    (d (hp_name h) = None /\ vget (index_of s) (c_vector c) (hp_name h) = NaN) \/
    (exists u q, d (hp_name h) = Some u /\ vget (index_of s) (c_vector c) (hp_name h) = Fin q).
  Proof.
    intros B Rep Hh. assert (O := built_ok _ _ _ _ B). destruct (d (hp_name h)) as [u|] eqn:Ed.
    - right. destruct (encodes_fin (index_of s) (c_vector c) d h u (so_constructed O h Hh) (represents_encodes c d Rep h Hh) Ed) as (q & Hq). eauto.
    - left. split; [reflexivity|]. assert (R := proj2 Rep h Hh). rewrite Ed in R. exact R.
  Qed.

  Theorem C66_frozen s hs cs fs c d o fuel : built s hs cs fs -> represents s hs c d -> shows s hs c d ->
    picks s o -> frozen hs d -> (forall z, estimate_size s = Some z -> (1 < z)%Z) ->
    get_random_neighbor (S fuel) s c o = Err ValueError.
  Proof.
    intros B Rep Sh Pk Fz Sz. assert (O := built_ok _ _ _ _ B). unfold get_random_neighbor.
    destruct (dict_shown s hs cs fs c d B Rep Sh) as (vals & -> & _). cbn [bind].
    assert (Es : match estimate_size s with Some z => negb (z <=? 1)%Z | None => true end = true).
    { destruct (estimate_size s) as [z|]; [|reflexivity]. specialize (Sz z eq_refl). destruct (Z.leb_spec z 1); [lia|reflexivity]. }
    rewrite Es, random_loop_S. generalize max_tries. intros mt.
    assert (Ne : hs <> []).
    { intros K. assert (P := so_hps O). rewrite K in P. apply Permutation_sym, Permutation_nil in P. unfold estimate_size in Sz. rewrite P in Sz.
      specialize (Sz 0%Z eq_refl). lia. }
    assert (G : forall tries t, choose_active tries s c o t = Err ValueError).
    { induction tries as [|n IH]; intros t; [reflexivity|]. cbn [choose_active].
      destruct (drawn s hs cs fs c d o t B Rep Pk Ne) as (h & Hh & Ha & Hp & Hx).
      set (i := if Nat.ltb 1 (config_len s c) then o_pick o t else 0) in *. rewrite Hx.
      destruct (entry_cases s hs cs fs c d h B Rep Hh) as [[_ ->]|(u & q & Hu & ->)]; simpl; [apply IH|].
      rewrite Hp. destruct (Fz h Hh) as (z & -> & Hz); [congruence|]. apply Z.leb_le in Hz. rewrite Hz. apply IH. }
    rewrite G. reflexivity.
  Qed.

  (** The same if the hyperparameters met in the first 10000 draws are inactive or have one value, whatever
      later draws would give. *)
  Lemma max_tries_10000 : Z.of_nat max_tries = 10000%Z.
  Proof. vm_compute. reflexivity. Qed.

  Theorem C66_gives_up s hs cs fs c d o fuel : built s hs cs fs -> represents s hs c d -> shows s hs c d ->
    picks s o -> (forall z, estimate_size s = Some z -> (1 < z)%Z) ->
    (forall t h, (Z.of_nat t < 10000)%Z -> In h hs -> assoc (hp_name h) (index_of s) = Some (if Nat.ltb 1 (s_len s) then o_pick o t else 0) ->
      d (hp_name h) = None \/ exists z, hp_size h = Some z /\ (z <= 1)%Z) ->
    get_random_neighbor (S fuel) s c o = Err ValueError.
  Proof.
    intros B Rep Sh Pk Sz Fz. assert (O := built_ok _ _ _ _ B). unfold get_random_neighbor.
    destruct (dict_shown s hs cs fs c d B Rep Sh) as (vals & -> & _). cbn [bind].
    assert (Es : match estimate_size s with Some z => negb (z <=? 1)%Z | None => true end = true).
    { destruct (estimate_size s) as [z|]; [|reflexivity]. specialize (Sz z eq_refl). destruct (Z.leb_spec z 1); [lia|reflexivity]. }
    rewrite Es, random_loop_S. rewrite <- max_tries_10000 in Fz. revert Fz. generalize max_tries. intros mt Fz.
    assert (Ne : hs <> []).
    { intros K. assert (P := so_hps O). rewrite K in P. apply Permutation_sym, Permutation_nil in P. unfold estimate_size in Sz. rewrite P in Sz.
      specialize (Sz 0%Z eq_refl). lia. }
    assert (G : forall tries t, t + tries <= mt -> choose_active tries s c o t = Err ValueError).
    { induction tries as [|n IH]; intros t Ht; [reflexivity|]. cbn [choose_active].
      destruct (drawn s hs cs fs c d o t B Rep Pk Ne) as (h & Hh & Ha & Hp & Hx).
      set (i := if Nat.ltb 1 (config_len s c) then o_pick o t else 0) in *. rewrite Hx.
      destruct (entry_cases s hs cs fs c d h B Rep Hh) as [[_ ->]|(u & q & Hu & ->)]; simpl; [apply IH; lia|].
      rewrite Hp. destruct (Fz t h) as [K|(z & -> & Hz)]; [lia|exact Hh|exact Ha|congruence|]. apply Z.leb_le in Hz. rewrite Hz. apply IH. lia. }
    rewrite G; [reflexivity|lia].
  Qed.

  (** ** Exceptions: only the two announced ones, as long as neighbourhoods can be drawn *)
  Definition yields (s : space) (hs : list hp) (c : config) (o : oracle) : Prop :=
    forall h g, In h hs -> vget (index_of s) (c_vector c) (hp_name h) <> NaN -> (forall z, hp_size h = Some z -> (1 < z)%Z) ->
      exists l, neighbors_vectorized h (vget (index_of s) (c_vector c) (hp_name h)) 1 None (o_rng o g) = Ok l /\ l <> [].

  Lemma reason_value_error hs cs fs vals allow e : reason hs cs fs vals allow e -> is_value_error e = true.
  Proof. intros [k _ _|h w _ _ _|d e' _ _ _ F]; [reflexivity..|]. destruct F; reflexivity. Qed.

  Lemma choose_errors tries : forall s hs cs fs c d o t e, built s hs cs fs -> represents s hs c d -> picks s o -> hs <> [] ->
    choose_active tries s c o t = Err e -> e = ValueError.
  Proof.
    induction tries as [|n IH]; intros s hs cs fs c d o t e B Rep Pk Ne H; [cbn in H; congruence|]. cbn [choose_active] in H.
    destruct (drawn s hs cs fs c d o t B Rep Pk Ne) as (h & Hh & Ha & Hp & Hx).
    set (i := if Nat.ltb 1 (config_len s c) then o_pick o t else 0) in *. rewrite Hx in H.
    destruct (isfinite (vget (index_of s) (c_vector c) (hp_name h))); [|eapply IH; eauto]. rewrite Hp in H.
    destruct (match hp_size h with Some z => (z <=? 1)%Z | None => false end); [eapply IH; eauto|discriminate].
  Qed.

  Lemma neighbor_values s hs cs fs c d o h i q g l : built s hs cs fs -> represents s hs c d -> exact_all hs d ->
    (forall g, shuffles (o_rng o g)) -> steady 1 hs -> In h hs -> assoc (hp_name h) (index_of s) = Some i ->
    nth_error (c_vector c) i = Some (Fin q) -> neighbors_vectorized h (Fin q) 1 None (o_rng o g) = Ok l ->
    exists ws, mapM (to_value h) l = Ok ws.
  Proof.
    intros B Rep Ex Sh St Hh Hi Hx Hl. assert (O := built_ok _ _ _ _ B). assert (C := so_constructed O h Hh).
    assert (R := proj2 Rep h Hh). unfold vget in R. rewrite Hi in R. rewrite (nth_error_nth _ _ _ Hx) in R.
    destruct (d (hp_name h)) as [u|] eqn:Ed; [|discriminate].
    assert (Eu : entry_of h u (Fin q)). { destruct R as (R1 & R2). split; [exact R1|]. split; [apply (Ex h u Hh Ed)|exact R2]. }
    destruct (nb_vectorized_inv _ _ _ _ _ Hl) as (m & Hm & ->). apply mapM_total. intros e He. apply in_map_iff in He. destruct He as (x & <- & Hin).
    destruct (nb_neighbour h u q 1 (o_rng o g) m x C Eu) as (w2 & (L2 & X2 & y & Ty & Fy) & _); auto.
    { intros lo hi log dd K. apply (St h lo hi log dd Hh K). }
    destruct (value_roundtrip h w2 y C L2 X2 Ty) as (w3 & T3 & _).
    destruct (to_value_same h y (Fin x) w3 (fsame_sym _ _ Fy) T3) as (w4 & T4 & _). eauto.
  Qed.

  Theorem C66_raises_partial s hs cs fs c d o fuel e : tame s hs cs fs ->
    represents s hs c d -> shows s hs c d -> exact_all hs d -> (forall g, shuffles (o_rng o g)) -> steady 1 hs -> picks s o -> yields s hs c o ->
    get_random_neighbor fuel s c o = Err e -> e = NoPossibleNeighborsError \/ e = ValueError \/ e = OutOfFuel.
  Proof.
    intros T Rep Sh Ex Rs St Pk Yl H. assert (B := tm_built _ _ _ _ T). assert (O := built_ok _ _ _ _ B).
    unfold get_random_neighbor in H. destruct (dict_shown s hs cs fs c d B Rep Sh) as (vals & Hv & Ds). rewrite Hv in H. cbn [bind] in H.
    assert (Ne : hs = [] -> estimate_size s = Some 0%Z).
    { intros K. assert (P := so_hps O). rewrite K in P. apply Permutation_sym, Permutation_nil in P. unfold estimate_size. rewrite P. reflexivity. }
    destruct (match estimate_size s with Some z => negb (z <=? 1)%Z | None => true end) eqn:Es; [|left; congruence]. right.
    assert (Ne' : hs <> []). { intros K. rewrite (Ne K) in Es. discriminate. }
    revert H. generalize 0 at 1. generalize 0. induction fuel as [|f IH]; intros g t H; [right; cbn in H; congruence|].
    rewrite random_loop_S in H. revert H. generalize max_tries. intros mt H.
    destruct (choose_active mt s c o t) as [[i t']|e'] eqn:Hc; cbn [bind] in H.
    2:{ left. injection H as ->. apply (choose_errors mt s hs cs fs c d o t e B Rep Pk Ne' Hc). }
    unfold round_result in H. cbn [fst snd] in H.
    destruct (choose_spec _ s hs cs fs c o t i t' B Hc) as (h & q & Hh & Ha & Hi & Hx & Hz). rewrite Ha, (nth_error_nth _ _ _ Hx) in H.
    assert (Vx : vget (index_of s) (c_vector c) (hp_name h) = Fin q) by (unfold vget; rewrite Hi; apply (nth_error_nth _ _ _ Hx)).
    destruct (Yl h g Hh) as (l & Hl & Nl); [congruence|exact Hz|]. rewrite Vx in Hl. rewrite Hl in H. cbn [bind] in H.
    destruct (neighbor_values s hs cs fs c d o h i q g l B Rep Ex Rs St Hh Hi Hx Hl) as (ws & Hw). rewrite Hw in H. cbn [bind] in H.
    destruct ws as [|w ws]; [apply mapM_length in Hw; destruct l; [congruence|discriminate]|].
    destruct (round_proposes s hs cs fs c d o h i q g l (w :: ws) w vals B Rep Ex Ds Rs St Hh Hi Hx Hl Hw eq_refl) as (u & Hu & Am & Xa & Lw & Nb).
    rewrite Am in H. set (vs := some_values (assoc_set (hp_name h) w vals)) in *.
    destruct (config_of_values s vs false) as [c'|e'] eqn:Hcv; [discriminate|].
    rewrite (reason_value_error _ _ _ _ _ _ (C68_reason_partial s hs cs fs vs false e' T Xa Hcv)) in H. apply (IH _ _ H).
  Qed.

  (** ** C67: the search ends

      Full statement (the docstring): if more than 10000 configurations were rejected, ValueError is
      raised.  False, see [C67_refuted]: the counter counts draws of an index, and starts again after each
      rejected configuration. What holds: without conditions and clauses nothing is rejected. *)
  Theorem C67_flat_partial s hs c d o fuel k : tame s hs [] [] ->
    represents s hs c d -> shows s hs c d -> exact_all hs d -> valid hs [] [] d ->
    (forall g, shuffles (o_rng o g)) -> steady 1 hs -> picks s o -> yields s hs c o ->
    (forall z, estimate_size s = Some z -> (1 < z)%Z) ->
    (Z.of_nat k < 10000)%Z -> (forall h, In h hs -> assoc (hp_name h) (index_of s) = Some (if Nat.ltb 1 (s_len s) then o_pick o k else 0) ->
      forall z, hp_size h = Some z -> (1 < z)%Z) ->
    exists cfg, get_random_neighbor (S fuel) s c o = Ok cfg.
  Proof.
    intros T Rep Sh Ex V Rs St Pk Yl Sz Hk Big. assert (B := tm_built _ _ _ _ T). assert (O := built_ok _ _ _ _ B). unfold get_random_neighbor.
    destruct (dict_shown s hs [] [] c d B Rep Sh) as (vals & -> & Ds). cbn [bind].
    assert (Es : match estimate_size s with Some z => negb (z <=? 1)%Z | None => true end = true).
    { destruct (estimate_size s) as [z|]; [|reflexivity]. specialize (Sz z eq_refl). destruct (Z.leb_spec z 1); [lia|reflexivity]. }
    rewrite Es, random_loop_S. rewrite <- max_tries_10000 in Hk. revert Hk. generalize max_tries. intros mt Hk.
    assert (Ne : hs <> []).
    { intros K. assert (P := so_hps O). rewrite K in P. apply Permutation_sym, Permutation_nil in P. unfold estimate_size in Sz. rewrite P in Sz.
      specialize (Sz 0%Z eq_refl). lia. }
    assert (All : forall h, In h hs -> exists u q, d (hp_name h) = Some u /\ vget (index_of s) (c_vector c) (hp_name h) = Fin q).
    { intros h Hh. destruct (entry_cases s hs [] [] c d h B Rep Hh) as [[Hn _]|K]; [|exact K]. exfalso. apply (proj2 (va_active _ _ _ _ V h Hh)) in Hn; auto.
      intros cn []. }
    assert (G : forall tries t, t <= k < t + tries -> exists it, choose_active tries s c o t = Ok it).
    { induction tries as [|n IH]; intros t Ht; [lia|]. cbn [choose_active].
      destruct (drawn s hs [] [] c d o t B Rep Pk Ne) as (h & Hh & Ha & Hp & Hx).
      set (i := if Nat.ltb 1 (config_len s c) then o_pick o t else 0) in *. rewrite Hx. destruct (All h Hh) as (u & q & _ & ->). simpl. rewrite Hp.
      destruct (match hp_size h with Some z => (z <=? 1)%Z | None => false end) eqn:Eb; [|eauto]. apply IH. split; [|lia].
      destruct (Nat.eq_dec t k) as [->|Hne]; [|lia]. exfalso. unfold i in Ha. unfold config_len in Ha. specialize (Big h Hh Ha).
      destruct (hp_size h) as [z|]; [|discriminate]. specialize (Big z eq_refl). apply Z.leb_le in Eb. lia. }
    destruct (G mt 0) as ([i t'] & Hc); [lia|]. rewrite Hc. cbn [bind]. unfold round_result. cbn [fst snd].
    destruct (choose_spec _ s hs [] [] c o 0 i t' B Hc) as (h & q & Hh & Ha & Hi & Hx & Hz). rewrite Ha, (nth_error_nth _ _ _ Hx).
    assert (Vx : vget (index_of s) (c_vector c) (hp_name h) = Fin q) by (unfold vget; rewrite Hi; apply (nth_error_nth _ _ _ Hx)).
    destruct (Yl h 0 Hh) as (l & Hl & Nl); [congruence|exact Hz|]. rewrite Vx in Hl. rewrite Hl. cbn [bind].
    destruct (neighbor_values s hs [] [] c d o h i q 0 l B Rep Ex Rs St Hh Hi Hx Hl) as (ws & Hw). rewrite Hw. cbn [bind].
    destruct ws as [|w ws]; [apply mapM_length in Hw; destruct l; [congruence|discriminate]|].
    destruct (round_proposes s hs [] [] c d o h i q 0 l (w :: ws) w vals B Rep Ex Ds Rs St Hh Hi Hx Hl Hw eq_refl) as (u & Hu & Am & Xa & Lw & Nb).
    rewrite Am. set (vs := some_values (assoc_set (hp_name h) w vals)) in *.
    assert (Dc : exists cfg, config_of_values s vs false = Ok cfg).
    { assert (C := so_constructed O h Hh). assert (Sd := store_stored hs (given vs) (so_names_nodup O)).
      assert (Al : all_legal hs (given vs)).
      { intros h' v Hh' Hv'. unfold vs in Hv'. rewrite given_some in Hv'. destruct (string_dec (hp_name h') (hp_name h)) as [En|En].
        - rewrite En, assoc_set_same in Hv'. injection Hv' as <-. assert (h' = h) by (apply (same_hp hs); auto using (so_names_nodup O)). subst h'. exact Lw.
        - rewrite (assoc_set_other _ _ _ _ En) in Hv'. assert (Dh := proj2 (proj2 Ds) h' Hh'). destruct (d (hp_name h')) as [u'|] eqn:Ed'; [|congruence].
          destruct Dh as (z & Az & Qz). assert (z = v) by congruence. subst z.
          apply (legal_congr h' (round_value h' u') v); [rewrite py_eqb_sym; exact Qz|].
          apply round_legal; [apply (so_constructed O h' Hh')|]. apply (va_legal _ _ _ _ V h' u' Hh' Ed'). }
      apply (proj2 (C17_accepts_valid_partial s hs [] [] vs _ T Sd Xa)). split; [|split; [exact Al|]].
      - intros k' Hk'. right. unfold vs in Hk'. rewrite keys_some in Hk'. apply assoc_set_In_keys in Hk'. destruct Hk' as [->|Hk']; [apply in_map; exact Hh|].
        apply (proj1 (proj2 Ds) k' Hk').
      - constructor.
        + intros h' v Hh' Hv'. rewrite (Sd h' Hh') in Hv'. destruct (given vs (hp_name h')) as [v'|] eqn:Eg; [|discriminate]. injection Hv' as <-.
          apply round_legal; [apply (so_constructed O h' Hh')|apply (Al h' v' Hh' Eg)].
        + intros h' Hh'. split; [intros _ cn []|]. intros _ K. rewrite (Sd h' Hh') in K. unfold vs in K. rewrite given_some in K.
          destruct (string_dec (hp_name h') (hp_name h)) as [En|En].
          * rewrite En, assoc_set_same in K. discriminate.
          * rewrite (assoc_set_other _ _ _ _ En) in K. destruct (All h' Hh') as (u' & _ & Eu' & _). assert (Dh := proj2 (proj2 Ds) h' Hh').
            rewrite Eu' in Dh. destruct Dh as (z & Az & _). rewrite Az in K. discriminate.
        + intros f []. }
    destruct Dc as (cfg & ->). eauto.
  Qed.
End Random.

Section Witness.
  #[local] Existing Instance rat_env.

  (** ** Changing a switches hyperparameters off and is rejected; the next draw changes k *)
  Definition rnd_oracle : oracle :=
    {| o_pick := fun t => Nat.modulo t 9;
       o_rng := fun _ => {| nr_cands := [[1#7]; [6#7]]%Q; nr_shuffle := @rev Z; nr_second := false |};
       o_shuf := fun _ l => rev l |}.
  Lemma rnd_shuffles g : shuffles (o_rng rnd_oracle g).
  Proof. intros l. apply Permutation_rev. Qed.
  Definition rnd_run := get_random_neighbor 5 xch_space xch_config rnd_oracle.
  Lemma xch_picks : picks xch_space rnd_oracle.
  Proof. intros t _. change (t mod 9 < 9). apply Nat.mod_upper_bound. discriminate. Qed.
  Lemma xch_yields : yields xch_space ex_hps xch_config rnd_oracle.
  Proof.
    intros h g Hh _ Sz. change (o_rng rnd_oracle g) with (o_rng rnd_oracle 0). clear g.
    repeat (destruct Hh as [<-|Hh]; [first [exfalso; specialize (Sz 1%Z eq_refl); lia|eexists; split; [vm_compute; reflexivity|discriminate]]|]). destruct Hh.
  Qed.
  Example C66_ex : tame xch_space ex_hps lev_conds xch_forbs /\ represents xch_space ex_hps xch_config xch_d /\
    shows xch_space ex_hps xch_config xch_d /\ exact_all ex_hps xch_d /\ (forall g, shuffles (o_rng rnd_oracle g)) /\ steady 1 ex_hps /\
    picks xch_space rnd_oracle /\ yields xch_space ex_hps xch_config rnd_oracle /\
    match rnd_run with
    | Ok c => map (reading xch_space c) ["a"; "g"; "l"; "o"]%string = map (reading xch_space xch_config) ["a"; "g"; "l"; "o"]%string /\
              reading xch_space c "k"%string = Some (VInt 2) /\ reading xch_space xch_config "k"%string = Some (VInt 4)
    | Err _ => False
    end.
  Proof.
    split; [exact xch_tame|]. split; [apply xch_start|]. split; [apply xch_start|]. split; [apply xch_start|].
    split; [apply rnd_shuffles|]. split; [apply xch_steady|]. split; [exact xch_picks|]. split; [exact xch_yields|]. vm_compute. repeat split; reflexivity.
  Qed.

  (** ** Only a constant is active *)
  Definition cOff := get_or dummy_cond (mk_bin OpNe (bin "y") hE (VStr "on")).
  Definition frz_space := fst (add empty_space [hE; bin "y"] [cOff] []).
  Lemma frz_built : built frz_space [hE; bin "y"] [cOff] [].
  Proof.
    apply (built_step empty_space [] [] [] [hE; bin "y"] [cOff] [] built_empty); [| |constructor|vm_compute; reflexivity].
    - constructor; [apply hE_c|]. constructor; [apply bin_c|constructor].
    - constructor; [|constructor]. apply (CB_bin OpNe (bin "y") hE (VStr "on") cOff (bin_c _) hE_c); vm_compute; reflexivity.
  Qed.
  Definition frz_vals : list (string * option value) := [("e"%string, Some (VStr "on"))].
  Definition frz_config := get_or (mk_config [] None false) (config_of_values frz_space frz_vals false).
  Lemma frz_ok : config_of_values frz_space frz_vals false = Ok frz_config.
  Proof. vm_compute. reflexivity. Qed.
  Example C66_frozen_ex : exists d, built frz_space [hE; bin "y"] [cOff] [] /\ represents frz_space [hE; bin "y"] frz_config d /\
    shows frz_space [hE; bin "y"] frz_config d /\ picks frz_space w_oracle /\ frozen [hE; bin "y"] d /\ estimate_size frz_space = Some 2%Z.
  Proof.
    assert (LA := rat_env_laws). assert (ND : NoDup (map hp_name [hE; bin "y"])) by exact (so_names_nodup (built_ok _ _ _ _ frz_built)).
    assert (St := store_stored [hE; bin "y"] (given frz_vals) ND). exists (store [hE; bin "y"] (given frz_vals)).
    split; [exact frz_built|]. split; [exact (C20_start _ _ _ _ _ _ _ _ frz_built St frz_ok)|].
    split; [exact (shows_values _ _ _ _ _ _ _ _ frz_built frz_ok St)|]. split; [intros t _; vm_compute; lia|]. split; [|vm_compute; reflexivity].
    intros h [<-|[<-|[]]] Hd; [exists 1%Z; split; [vm_compute; reflexivity|lia]|]. exfalso. apply Hd. vm_compute. reflexivity.
  Qed.
  (** a space with one configuration *)
  Definition one_space := fst (add empty_space [hE] [] []).
  Example C66_single_ex : estimate_size one_space = Some 1%Z /\
    match config_of_values one_space frz_vals false with
    | Ok c => get_random_neighbor 1 one_space c w_oracle = Err NoPossibleNeighborsError
    | Err _ => False
    end.
  Proof. vm_compute. split; reflexivity. Qed.

  (** ** C67 is false: setting x to 1 activates y, so that every neighbour of x = 0 is rejected *)
  Theorem C67_refuted : exists s hs cs fs c d o, tame s hs cs fs /\ orderly cs /\ represents s hs c d /\ shows s hs c d /\
    valid hs cs fs d /\ exact_all hs d /\ oracle_ok o /\ steady 1 hs /\ picks s o /\ yields s hs c o /\
    forall fuel, get_random_neighbor fuel s c o = Err OutOfFuel.
  Proof.
    assert (LA := rat_env_laws). assert (ND : NoDup (map hp_name [wX; wY])) by exact (so_names_nodup (built_ok _ _ _ _ w_built)).
    assert (St := store_stored [wX; wY] (given w_vals) ND).
    assert (Ex : forall d, exact_all [wX; wY] d) by (intros d h w [<-|[<-|[]]] _; exact I).
    exists w_space, [wX; wY], [wYX], [wF], w_config, (store [wX; wY] (given w_vals)), w_oracle.
    split; [exact w_tame|]. split; [exact w_orderly|]. split; [exact (C20_start _ _ _ _ _ _ _ _ w_built St w_ok)|].
    split; [exact (shows_values _ _ _ _ _ _ _ _ w_built w_ok St)|].
    split; [apply (C17_accepts_valid_partial w_space [wX; wY] [wYX] [wF] w_vals _ w_tame St (Ex _)); exists w_config; exact w_ok|].
    split; [apply Ex|]. split; [split; intros g l; reflexivity|].
    split; [intros h lo hi log dd [<-|[<-|[]]] K; vm_compute in K; discriminate K|].
    split; [intros t _; vm_compute; lia|]. split.
    { intros h g [<-|[<-|[]]] Hn _.
      - eexists. split; [vm_compute; reflexivity|discriminate].
      - exfalso. apply Hn. vm_compute. reflexivity. }
    assert (G : forall fuel t g, random_loop fuel w_space w_config w_oracle [("x"%string, VStr "0")] t g = Err OutOfFuel).
    { induction fuel as [|f IH]; intros t g; [reflexivity|]. rewrite random_loop_S.
      assert (Hm : exists m, max_tries = S m) by (exists (pred max_tries); vm_compute; reflexivity). destruct Hm as (m & ->).
      assert (Hc : choose_active (S m) w_space w_config w_oracle t = Ok (0, S t)) by (vm_compute; reflexivity). rewrite Hc. cbn [bind snd].
      transitivity (random_loop f w_space w_config w_oracle [("x"%string, VStr "0")] (S t) (S g)); [|apply IH].
      generalize (random_loop f w_space w_config w_oracle [("x"%string, VStr "0")] (S t) (S g)). intros again. vm_compute. reflexivity. }
    intros fuel. unfold get_random_neighbor. assert (Dc : dict_of w_space w_config = Ok [("x"%string, VStr "0")]) by (vm_compute; reflexivity).
    rewrite Dc. cbn [bind]. assert (Es : estimate_size w_space = Some 4%Z) by (vm_compute; reflexivity). rewrite Es. apply G.
  Qed.

  (** ** A space without conditions and clauses *)
  Definition flat_hps := [hA; hK; hB; hE].
  Definition flat_space := fst (add empty_space flat_hps [] []).
  Lemma flat_built : built flat_space flat_hps [] [].
  Proof.
    apply (built_step empty_space [] [] [] flat_hps [] [] built_empty); [|constructor|constructor|vm_compute; reflexivity].
    constructor; [apply hA_c|]. constructor; [apply hK_c|]. constructor; [apply hB_c|]. constructor; [apply hE_c|constructor].
  Qed.
  Lemma flat_tame : tame flat_space flat_hps [] [].
  Proof.
    constructor; [apply flat_built|split; [intros c []|intros f []]|intros c d v []|intros c l w vv []|intros f []].
  Qed.
  Definition flat_vals : list (string * option value) :=
    [("a", Some (VStr "x")); ("k", Some (VInt 4)); ("b", Some (VFloat (1#2))); ("e", Some (VStr "on"))]%string.
  Definition flat_config := get_or (mk_config [] None false) (config_of_values flat_space flat_vals false).
  Lemma flat_ok : config_of_values flat_space flat_vals false = Ok flat_config.
  Proof. vm_compute. reflexivity. Qed.
  Definition flat_oracle : oracle :=
    {| o_pick := fun t => Nat.modulo (t + 2) 4;
       o_rng := o_rng rnd_oracle; o_shuf := fun _ l => rev l |}.
  (** a stream whose first 10000 draws all give the constant, and another hyperparameter afterwards *)
  Definition stuck_oracle : oracle :=
    {| o_pick := fun t => if Z.ltb (Z.of_nat t) 10000 then 2 else 0;
       o_rng := o_rng rnd_oracle; o_shuf := fun _ l => rev l |}.
  Example C66_gives_up_ex : exists d, built flat_space flat_hps [] [] /\ represents flat_space flat_hps flat_config d /\
    shows flat_space flat_hps flat_config d /\ picks flat_space stuck_oracle /\ estimate_size flat_space = None /\
    (forall t h, (Z.of_nat t < 10000)%Z -> In h flat_hps ->
      assoc (hp_name h) (index_of flat_space) = Some (if Nat.ltb 1 (s_len flat_space) then o_pick stuck_oracle t else 0) ->
      d (hp_name h) = None \/ exists z, hp_size h = Some z /\ (z <= 1)%Z) /\ d "a"%string <> None /\ hp_size hA <> Some 1%Z.
  Proof.
    assert (LA := rat_env_laws). assert (ND : NoDup (map hp_name flat_hps)) by exact (so_names_nodup (built_ok _ _ _ _ flat_built)).
    assert (St := store_stored flat_hps (given flat_vals) ND).
    exists (store flat_hps (given flat_vals)). split; [exact flat_built|]. split; [exact (C20_start _ _ _ _ _ _ _ _ flat_built St flat_ok)|].
    split; [exact (shows_values _ _ _ _ _ _ _ _ flat_built flat_ok St)|].
    split; [intros t _; change ((if Z.ltb (Z.of_nat t) 10000 then 2 else 0) < 4); destruct (Z.of_nat t <? 10000)%Z; lia|].
    split; [vm_compute; reflexivity|]. split; [|split; vm_compute; discriminate].
    intros t h Ht Hh Ha. right.
    change (assoc (hp_name h) (index_of flat_space) = Some (if Z.ltb (Z.of_nat t) 10000 then 2 else 0)) in Ha.
    apply Z.ltb_lt in Ht. rewrite Ht in Ha.
    repeat (destruct Hh as [<-|Hh]; [vm_compute in Ha; first [discriminate Ha|exists 1%Z; split; [vm_compute; reflexivity|lia]]|]). destruct Hh.
  Qed.
  Example C67_ex : exists d, tame flat_space flat_hps [] [] /\ represents flat_space flat_hps flat_config d /\
    shows flat_space flat_hps flat_config d /\ exact_all flat_hps d /\ valid flat_hps [] [] d /\
    (forall g, shuffles (o_rng flat_oracle g)) /\ steady 1 flat_hps /\ picks flat_space flat_oracle /\ yields flat_space flat_hps flat_config flat_oracle /\
    estimate_size flat_space = None /\
    (forall h, In h flat_hps -> assoc (hp_name h) (index_of flat_space) = Some (if Nat.ltb 1 (s_len flat_space) then o_pick flat_oracle 1 else 0) ->
      forall z, hp_size h = Some z -> (1 < z)%Z).
  Proof.
    assert (LA := rat_env_laws). assert (ND : NoDup (map hp_name flat_hps)) by exact (so_names_nodup (built_ok _ _ _ _ flat_built)).
    assert (St := store_stored flat_hps (given flat_vals) ND).
    assert (Ex : exact_all flat_hps (given flat_vals)).
    { intros h w Hh Hw. repeat (destruct Hh as [<-|Hh]; [vm_compute in Hw; inversion Hw; subst; clear;
        match goal with |- exact_value _ (VInt _) => apply exact_int | _ => vm_compute; exact I end|]). destruct Hh. }
    exists (store flat_hps (given flat_vals)). split; [exact flat_tame|]. split; [exact (C20_start _ _ _ _ _ _ _ _ flat_built St flat_ok)|].
    split; [exact (shows_values _ _ _ _ _ _ _ _ flat_built flat_ok St)|]. split; [exact (stored_exact _ _ _ St Ex)|].
    split; [apply (C17_accepts_valid_partial flat_space flat_hps [] [] flat_vals _ flat_tame St Ex); exists flat_config; exact flat_ok|].
    split; [intros g; apply rnd_shuffles|]. split.
    { intros h lo hi log dd Hh K. repeat (destruct Hh as [<-|Hh]; [vm_compute in K; try discriminate K; injection K as <- <- <- <-; left; reflexivity|]). destruct Hh. }
    split; [intros t _; change ((t + 2) mod 4 < 4); apply Nat.mod_upper_bound; discriminate|]. split.
    { intros h g Hh _ Sz. change (o_rng flat_oracle g) with (o_rng rnd_oracle 0). clear g.
      repeat (destruct Hh as [<-|Hh]; [first [exfalso; specialize (Sz 1%Z eq_refl); lia|eexists; split; [vm_compute; reflexivity|discriminate]]|]). destruct Hh. }
    split; [vm_compute; reflexivity|].
    intros h Hh Hi z Hz. repeat (destruct Hh as [<-|Hh]; [vm_compute in Hi, Hz; try discriminate Hi; injection Hz as <-; lia|]). destruct Hh.
  Qed.
End Witness.
