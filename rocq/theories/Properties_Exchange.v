(** * Properties C25, C64, C65: the one-exchange neighbourhood of a configuration *)
From Coq Require Import String List ZArith QArith Bool Lia Permutation Relations.
From Verif Require Import Base ListFacts Numeric NumericProofs HP HPProofs Properties_HP Cond Forb Dag Space CommitProofs Spec SpaceProofs
  ForbProofs EvalProofs ForbEval ValidProofs ConfigProofs ChangeProofs Ex Properties_Eval Properties_Config Properties_Change
  Dist DistProofs Properties_Dist Util LookupProofs ExchangeProofs.
Import ListNotations.
Open Scope nat_scope.

Section Exchange.
  Context {E : Env} {L : EnvLaws E}.

  (** What numpy guarantees: shuffling permutes. *)
  Definition oracle_ok (o : oracle) : Prop := shuffled o /\ forall g, shuffles (o_rng o g).

  (** Integers whose neighbourhoods are right: uniform ones, and normal and beta ones on a linear
      scale if fewer neighbours are asked for than there are (see C43, C44). *)
  Definition steady (num : nat) (hs : list hp) : Prop :=
    forall h lo hi log dd, In h hs -> hp_kind h = KInt lo hi log dd -> dd = DUniform \/ (log = false /\ (Z.of_nat num < hi - lo)%Z).

  Definition is_float (h : hp) : Prop := exists lo hi log dd, hp_kind h = KFloat lo hi log dd.

  (** the random floats differ from the current value *)
  Definition fresh (s : space) (hs : list hp) (c : config) (o : oracle) : Prop :=
    forall h g cand q, In h hs -> is_float h -> In cand (nr_cands (o_rng o g)) -> In q cand ->
      ~ fsame (Fin q) (vget (index_of s) (c_vector c) (hp_name h)).

  (** [cfg] is the configuration with values [d'], which are [d] with [h] set to [w], newly active
      hyperparameters at their defaults and inactive ones dropped; clauses about [h] are respected *)
  Record exchanged (s : space) (hs : list hp) (cs : list cond) (fs : list fclause) (d : assignment) (cfg : config)
      (h : hp) (w : value) (d' : assignment) : Prop := {
    xc_in : In h hs;
    xc_was : d (hp_name h) <> None;
    xc_upd : updated hs cs d (hp_name h) w d';
    xc_rep : represents s hs cfg d';
    xc_legal : all_legal hs d';
    xc_exact : exact_all hs d';
    xc_active : forall g, In g hs -> (d' (hp_name g) <> None <-> active cs d' (hp_name g));
    xc_rest : forall g, In g hs -> hp_name g <> hp_name h -> ~ clos_trans _ (reads cs) (hp_name h) (hp_name g) ->
      d' (hp_name g) = d (hp_name g);
    xc_forb : forall f, In f fs -> In (hp_name h) (forb_names f) -> ~ violated d' f
  }.

  (** ** Single hyperparameters *)
  Lemma entry_fsame h w e e' : fsame e' e -> entry_of h w e -> entry_of h w e'.
  Proof. intros F (A & B & x & C & D). split; [exact A|]. split; [exact B|]. exists x. split; [exact C|]. eapply fsame_trans; eauto. Qed.

  Lemma entry_same h u w e : constructed h -> entry_of h u e -> entry_of h w e -> py_eqb u w = true.
  Proof.
    intros C (A1 & A2 & x & A3 & A4) (B1 & B2 & y & B3 & B4).
    destruct (value_roundtrip h u x C A1 A2 A3) as (u' & U1 & U2). destruct (value_roundtrip h w y C B1 B2 B3) as (w' & W1 & W2).
    destruct (to_value_same h x y u') as (z & Z1 & Z2); [|exact U1|].
    - eapply fsame_trans; [apply fsame_sym; exact A4|exact B4].
    - assert (z = w') by congruence. subst z. apply (py_eqb_trans _ u'); [rewrite py_eqb_sym; exact U2|].
      apply (py_eqb_trans _ w'); assumption.
  Qed.
  Lemma entry_eqb h u w e e' : constructed h -> entry_of h u e -> entry_of h w e' -> py_eqb u w = true -> fsame e e'.
  Proof.
    intros C (A1 & A2 & x & A3 & A4) (B1 & B2 & y & B3 & B4) Q.
    assert (K : fsame x y) by (apply (to_vector_same h u w x y); assumption).
    eapply fsame_trans; [exact A4|]. eapply fsame_trans; [exact K|]. apply fsame_sym. exact B4.
  Qed.

  Lemma entry_int_of h lo hi log dd u e : constructed h -> hp_kind h = KInt lo hi log dd -> entry_of h u e ->
    exists z, entry_of h (VInt z) e /\ py_eqb u (VInt z) = true.
  Proof.
    intros C K (A1 & A2 & x & A3 & A4). assert (A2' := A2). unfold exact_value in A2'. rewrite K in A2'. destruct A2' as (a & z & Ha & Hz).
    assert (W := constructed_wf _ C). unfold wf_hp in W. rewrite K in W. destruct W as (W1 & W2 & _).
    exists z. assert (Q : py_eqb u (VInt z) = true).
    { unfold py_eqb. rewrite Ha. simpl. apply Qeq_bool_iff. exact Hz. }
    split; [|exact Q]. assert (Lz : (lo <= z <= hi)%Z).
    { unfold legal_value in A1. rewrite K, Ha in A1. rewrite (legal_int_Z lo hi z a Hz) in A1.
      apply andb_true_iff in A1. rewrite !Z.leb_le in A1. exact A1. }
    assert (Ez := entry_int h lo hi log dd z (enc lo hi log z) K W1 W2 Lz (Qeq_refl _)).
    assert (F : fsame e (Fin (enc lo hi log z))).
    { apply (entry_eqb h u (VInt z)); [exact C| |exact Ez|exact Q]. split; [exact A1|]. split; [exact A2|]. eauto. }
    apply (entry_fsame h _ _ _ F Ez).
  Qed.

  Lemma entry_index h sq u q : constructed h -> lists_values h sq -> entry_of h u (Fin q) ->
    exists i v, nth_error sq i = Some v /\ py_eqb v u = true /\ fsame (Fin q) (Fin (inject_Z (Z.of_nat i))).
  Proof.
    intros C K (A1 & A2 & x & A3 & A4). assert (W := constructed_wf _ C). unfold wf_hp in W.
    destruct (seq_roundtrip h sq u) as (i & w' & I1 & I2 & I3 & _).
    - destruct K as [K|ws K]; [left|right]; eauto.
    - destruct K as [K|ws K]; rewrite K in W; tauto.
    - exact A1.
    - destruct (py_index_some _ _ _ I1) as (v & V1 & V2 & _). exists i, v. split; [exact V1|]. split; [exact V2|].
      rewrite I3 in A3. injection A3 as <-. exact A4.
  Qed.

  Lemma nb_vectorized h q n r l : legal_vector h (Fin q) = true -> neighborhood h q n r = Ok l ->
    neighbors_vectorized h (Fin q) n None r = Ok (map Fin l).
  Proof. intros Hl H. unfold neighbors_vectorized. rewrite Hl, H. reflexivity. Qed.
  Lemma nb_vectorized_inv h q n r l : neighbors_vectorized h (Fin q) n None r = Ok l ->
    exists m, neighborhood h q n r = Ok m /\ l = map Fin m.
  Proof.
    unfold neighbors_vectorized. destruct (legal_vector h (Fin q)); [|discriminate].
    destruct (neighborhood h q n r) as [m|]; [|discriminate]. simpl. intros H. injection H as <-. eauto.
  Qed.

  Lemma nb_entry h u q n r l x : constructed h -> entry_of h u (Fin q) ->
    (forall lo hi log dd, hp_kind h = KInt lo hi log dd -> dd = DUniform \/ (log = false /\ (Z.of_nat n < hi - lo)%Z)) ->
    shuffles r -> neighborhood h q n r = Ok l -> In x l ->
    exists w, entry_of h w (Fin x) /\ (is_float h \/ py_eqb w u = false).
  Proof.
    intros C En St Sh Hn Hx. assert (Lv := entry_legal h u _ C En). assert (Nv := nb_vectorized h q n r l Lv Hn).
    assert (Ix : In (Fin x) (map Fin l)) by (apply in_map; exact Hx).
    assert (Seq : forall sq i j, lists_values h sq -> fsame (Fin q) (Fin (inject_Z (Z.of_nat i))) -> j < length sq -> i <> j ->
      fsame (Fin x) (Fin (inject_Z (Z.of_nat j))) -> exists w, entry_of h w (Fin x) /\ (is_float h \/ py_eqb w u = false)).
    { intros sq i j K Fi Hj Hij Fj. destruct (entry_seq h sq j C K Hj) as (w & _ & Ew). exists w.
      assert (Ew' := entry_fsame h w _ _ Fj Ew). split; [exact Ew'|]. right.
      destruct (py_eqb w u) eqn:Q; [|reflexivity]. exfalso. assert (F := entry_eqb h w u _ _ C Ew' En Q). apply Hij.
      assert (F2 : fsame (Fin (inject_Z (Z.of_nat i))) (Fin (inject_Z (Z.of_nat j)))).
      { eapply fsame_trans; [apply fsame_sym; exact Fi|]. eapply fsame_trans; [apply fsame_sym; exact F|exact Fj]. }
      change (inject_Z (Z.of_nat i) == inject_Z (Z.of_nat j))%Q in F2. apply (proj1 (inject_Z_injective _ _)) in F2. lia. }
    assert (Int : forall lo hi log dd z ws, hp_kind h = KInt lo hi log dd -> entry_of h (VInt z) (Fin q) -> py_eqb u (VInt z) = true ->
      Forall2 (fun w e => entry_of h (VInt w) e) ws (map Fin l) -> ~ In z ws -> exists w, entry_of h w (Fin x) /\ (is_float h \/ py_eqb w u = false)).
    { intros lo hi log dd z ws K Ez Qz F Nz. destruct (Forall2_in_r _ _ _ _ F Ix) as (w & Hw & Ew). exists (VInt w). split; [exact Ew|].
      right. destruct (py_eqb (VInt w) u) eqn:Q; [|reflexivity]. exfalso. apply Nz.
      assert (Q2 := py_eqb_trans _ _ _ Q Qz). unfold py_eqb in Q2. simpl in Q2. apply Qeq_bool_iff in Q2.
      apply (proj1 (inject_Z_injective _ _)) in Q2. congruence. }
    destruct (hp_kind h) as [c ws|sq|v|lo hi log dd|lo hi log dd] eqn:K.
    - destruct (entry_index h c u q C (LV_cat h c ws K) En) as (i & v & V1 & V2 & V3).
      destruct (C46_categorical_partial h c ws i (Fin q) n None r v C K V1 V3 I Sh) as (l' & js & N1 & N2 & _).
      rewrite Nv in N1. injection N1 as <-. destruct (Forall2_in_r _ _ _ _ N2 Ix) as (j & _ & J1 & J2 & J3).
      apply (Seq c i j); auto. apply (LV_cat h c ws K).
    - destruct (entry_index h sq u q C (LV_ord h sq K) En) as (i & v & V1 & V2 & V3).
      destruct (C45_ordinal_partial h sq i (Fin q) n None r v C K V1 V3 I) as (l' & js & N1 & N2 & _).
      rewrite Nv in N1. injection N1 as <-. destruct (Forall2_in_r _ _ _ _ N2 Ix) as (j & _ & J1 & J2 & J3).
      apply (Seq sq i j); auto; [apply (LV_ord h sq K)|]. unfold adjacent in J2. lia.
    - unfold neighborhood in Hn. rewrite K in Hn. injection Hn as <-. destruct Hx.
    - destruct (entry_int_of h lo hi log dd u (Fin q) C K En) as (z & Ez & Qz).
      destruct (St lo hi log dd eq_refl) as [->|[-> Hlt]].
      + destruct (C43_int_partial h lo hi log z (Fin q) n None r _ C K Ez Nv) as (ws & F & _ & Nz & _). eapply Int; eauto.
      + assert (Dd : dd = DUniform \/ dd <> DUniform) by (clear; destruct dd; [left; reflexivity|right; discriminate..]).
        destruct Dd as [->|Hd].
        * destruct (C43_int_partial h lo hi false z (Fin q) n None r _ C K Ez Nv) as (ws & F & _ & Nz & _). eapply Int; eauto.
        * destruct (C44_fewer_partial h lo hi dd z (Fin q) n None r _ C K Hd Ez Hlt Nv) as (ws & F & _ & Nz & _). eapply Int; eauto.
    - destruct (C62_float h lo hi log dd (Fin q) n None r _ C K Nv) as [_ F]. rewrite Forall_forall in F.
      destruct (F _ Ix) as (_ & w & Ew). exists w. split; [exact Ew|]. left. exists lo, hi, log, dd. exact K.
  Qed.

  (** ** The entries belong to the active hyperparameters *)
  Lemma slot_here s hs cs fs c num sls sl : built s hs cs fs -> slots_of s c num 0 (d_nodes (s_dag s)) = Ok sls -> In sl sls ->
    In (sl_hp sl) hs /\ assoc (hp_name (sl_hp sl)) (index_of s) = Some (sl_idx sl) /\
    slot_of s c num (sl_idx sl) (hp_name (sl_hp sl)) (sl_hp sl) = Ok (Some sl).
  Proof.
    intros B H Hs. assert (O := built_ok _ _ _ _ B). destruct (slots_In _ _ _ _ _ _ H sl Hs) as (j & name & n & Hj & So).
    cbn [Nat.add] in So. destruct (slot_of_spec _ _ _ _ _ _ _ So) as (S1 & S2 & _).
    assert (Hk : nth_error (keys s) j = Some name).
    { unfold keys. rewrite nth_error_map, Hj. reflexivity. }
    assert (Hg : get_hp s name = Some (n_hp n)).
    { rewrite <- (so_hp_at_name O j name Hk), (so_hp_at O), Hj. reflexivity. }
    apply (so_get_hp O) in Hg. destruct Hg as [Hh Hn]. rewrite S1, S2, Hn. split; [exact Hh|]. split; [apply (so_index O); exact Hk|exact So].
  Qed.

  (** a proposed neighbour is the encoding of another value *)
  Lemma proposed_entry s hs cs fs c d num o sls sl x : built s hs cs fs -> represents s hs c d -> exact_all hs d ->
    oracle_ok o -> steady num hs -> slots_of s c num 0 (d_nodes (s_dag s)) = Ok sls -> In sl sls ->
    proposed (c_vector c) o sl x ->
    exists u w, d (hp_name (sl_hp sl)) = Some u /\ entry_of (sl_hp sl) w (Fin x) /\
      (is_float (sl_hp sl) \/ py_eqb w u = false) /\
      entry_of (sl_hp sl) u (nth (sl_idx sl) (c_vector c) NaN).
  Proof.
    intros B Rep Ex [Or1 Or2] St Hs Hsl (g & q & l & P1 & P2 & P3). assert (O := built_ok _ _ _ _ B).
    destruct (slot_here s hs cs fs c num sls sl B Hs Hsl) as (Hh & Hi & So).
    set (h := sl_hp sl) in *. assert (C := so_constructed O h Hh). destruct (slot_of_spec _ _ _ _ _ _ _ So) as (_ & _ & _ & _ & _ & _ & Kd).
    destruct Rep as [Lv Rep]. specialize (Rep h Hh). unfold vget in Rep. rewrite Hi in Rep.
    destruct (d (hp_name h)) as [u|] eqn:Ed; [|rewrite Rep in P1; discriminate].
    destruct Rep as (Lu & y & Ty & Fy). assert (Eu : entry_of h u (nth (sl_idx sl) (c_vector c) NaN)).
    { split; [exact Lu|]. split; [apply (Ex h u Hh Ed)|]. exists y. auto. }
    rewrite P1 in Eu. destruct (nb_entry h u q (sl_sample sl) (o_rng o g) l x C Eu) as (w & W1 & W2); auto.
    { intros lo hi log dd K. rewrite K in Kd. destruct Kd as (_ & Ks & _). destruct (St h lo hi log dd Hh K) as [?|[? ?]]; [auto|].
      right. split; [assumption|]. rewrite Ks. lia. }
    exists u, w. rewrite P1. auto.
  Qed.

  Lemma names_hps f n : In n (forb_names f) <-> exists h, In h (forb_hps f) /\ hp_name h = n.
  Proof. unfold forb_names. rewrite in_map_iff. split; intros (h & A & B); exists h; auto. Qed.

  (** the changed vector, the clauses on it *)
  Lemma moved_means s hs cs fs c d num sls sl x w : tame s hs cs fs -> orderly cs ->
    represents s hs c d -> valid hs cs fs d -> exact_all hs d ->
    slots_of s c num 0 (d_nodes (s_dag s)) = Ok sls -> In sl sls -> d (hp_name (sl_hp sl)) <> None ->
    entry_of (sl_hp sl) w (Fin x) ->
    exists cfg d', config_of_vector s (moved s (c_vector c) sl x) false = Ok cfg /\
      c_vector cfg = moved s (c_vector c) sl x /\
      (verdict s (c_vector c) sl x = Ok false -> exchanged s hs cs fs d cfg (sl_hp sl) w d') /\
      updated hs cs d (hp_name (sl_hp sl)) w d' /\
      (exists b, verdict s (c_vector c) sl x = Ok b) /\
      ((forall f, In f fs -> In (hp_name (sl_hp sl)) (forb_names f) -> ~ violated d' f) -> verdict s (c_vector c) sl x = Ok false).
  Proof.
    intros T Or Rep V Ex Hs Hsl Hset (Lw & Xw & y & Ty & Fy). assert (T' := T). destruct T' as [B R M NS Cmp]. assert (O := built_ok _ _ _ _ B).
    destruct (slot_here s hs cs fs c num sls sl B Hs Hsl) as (Hh & Hi & So).
    destruct (change_represents_entry s hs cs fs c d (sl_hp sl) w (Fin x) y (sl_idx sl) T Or Rep V Ex Hh Hset Lw Xw Ty Fy Hi)
      as (d' & U & En & Ex' & Al & Ac & Rs).
    fold (moved s (c_vector c) sl x) in En. set (v := moved s (c_vector c) sl x) in *.
    assert (Lv : length v = s_len s) by (apply (C26_local s hs cs fs _ _ _ _ B (proj1 Rep) Hi)).
    assert (Gd : forall f, In f fs -> forb_good f).
    { intros f Hf. apply forb_built_good. assert (Fb := so_forbs_built O). rewrite Forall_forall in Fb. apply Fb.
      eapply Permutation_in; [symmetry; apply (so_forbs O)|exact Hf]. }
    assert (Rl : forall f r a b g, In f fs -> In (FRel r a b) (fdlcs f) -> g = a \/ g = b -> In g hs).
    { intros f r a b g Hf Hr Hab. apply (proj2 R f Hf). unfold forb_hps. apply in_concat.
      exists (leaf_hps (FRel r a b)). split; [apply in_map; exact Hr|]. simpl. destruct Hab as [-> | ->]; auto. }
    assert (Mn : forall f, In f fs -> (forb_vec (index_of s) v f = Ok true <-> violated d' f)).
    { intros f Hf. apply forb_vec_means; [apply Gd; exact Hf| |].
      - intros g Hg. apply En. apply (proj2 R f Hf g Hg).
      - intros r a b g u Hr Hab Hu. apply (Ex' g u); [|exact Hu]. apply (Rl f r a b g Hf Hr Hab). }
    assert (Tot : forall f, In f fs -> exists b, forb_vec (index_of s) v f = Ok b).
    { intros f Hf. apply forb_vec_total; [apply (Cmp f Hf)| |].
      - intros r a b g Hr Hab. assert (Hg := Rl f r a b g Hf Hr Hab). specialize (En g Hg). unfold encodes in En.
        destruct (d' (hp_name g)) as [u|] eqn:Ed; [|auto]. right. destruct En as (Lu & z & Tz & Fz).
        destruct (value_roundtrip g u z (so_constructed O g Hg) Lu (Ex' g u Hg Ed) Tz) as (u' & U1 & _).
        destruct (to_value_same g z (vget (index_of s) v (hp_name g)) u' (fsame_sym _ _ Fz) U1) as (u2 & U2 & _). eauto.
      - intros r a b g Hr Hab _. assert (Hg := Rl f r a b g Hf Hr Hab).
        destruct (d' (hp_name g)) as [u|] eqn:Ed.
        + right. destruct (encodes_fin (index_of s) v d' g u (so_constructed O g Hg) (En g Hg) Ed) as (z & ->). reflexivity.
        + left. specialize (En g Hg). unfold encodes in En. rewrite Ed in En. exact En. }
    assert (Cv : config_of_vector s v false = Ok (mk_config v None false)).
    { unfold config_of_vector. apply Nat.eqb_eq in Lv. rewrite Lv. reflexivity. }
    exists (mk_config v None false), d'. split; [exact Cv|]. split; [reflexivity|]. split; [|split; [exact U|split]].
    - intros Hv. constructor; try assumption.
      + split; [exact Lv|exact En].
      + intros f Hf Hn Hvio. unfold verdict in Hv. fold v in Hv.
        assert (Hv' := proj1 (lookup_check O (index_of s) v _ (proj2 R)) Hv f Hf Hn). apply Mn in Hvio; [congruence|exact Hf].
    - destruct (lookup_total O (index_of s) v (hp_name (sl_hp sl)) (proj2 R) Tot) as (b & Hb). exists b. exact Hb.
    - intros Nv. unfold verdict. fold v. apply (proj2 (lookup_check O (index_of s) v _ (proj2 R))). intros f Hf Hn.
      destruct (Tot f Hf) as ([] & Hb); [|exact Hb]. exfalso. apply (Nv f Hf Hn). apply (Mn f Hf). exact Hb.
  Qed.

  Lemma tag_sound s hs cs fs c d num sls sl x w cfg : tame s hs cs fs -> orderly cs ->
    represents s hs c d -> valid hs cs fs d -> exact_all hs d ->
    slots_of s c num 0 (d_nodes (s_dag s)) = Ok sls -> In sl sls -> d (hp_name (sl_hp sl)) <> None ->
    entry_of (sl_hp sl) w (Fin x) -> verdict s (c_vector c) sl x = Ok false ->
    config_of_vector s (moved s (c_vector c) sl x) false = Ok cfg ->
    exists d', exchanged s hs cs fs d cfg (sl_hp sl) w d'.
  Proof.
    intros T Or Rep V Ex Hs Hsl Hset Ew Hv Hc.
    destruct (moved_means s hs cs fs c d num sls sl x w T Or Rep V Ex Hs Hsl Hset Ew) as (cfg' & d' & C1 & _ & C2 & _).
    assert (cfg' = cfg) by congruence. subst cfg'. eauto.
  Qed.

  (** a slot has a neighbour of its own hyperparameter *)
  Lemma fresh_differs s hs cs fs c d num o sls sl x u w : built s hs cs fs -> represents s hs c d ->
    slots_of s c num 0 (d_nodes (s_dag s)) = Ok sls -> In sl sls -> fresh s hs c o -> is_float (sl_hp sl) ->
    proposed (c_vector c) o sl x -> entry_of (sl_hp sl) w (Fin x) ->
    entry_of (sl_hp sl) u (nth (sl_idx sl) (c_vector c) NaN) -> py_eqb w u = false.
  Proof.
    intros B Rep Hs Hsl Fr Fl (g & q & l & P1 & P2 & P3) Ew Eu. assert (O := built_ok _ _ _ _ B).
    destruct (slot_here s hs cs fs c num sls sl B Hs Hsl) as (Hh & Hi & So). assert (C := so_constructed O _ Hh).
    destruct (py_eqb w u) eqn:Q; [|reflexivity]. exfalso.
    assert (F := entry_eqb _ w u _ _ C Ew Eu Q).
    assert (Ic : exists cand, In cand (nr_cands (o_rng o g)) /\ In x cand).
    { assert (Fl' := Fl). destruct Fl' as (lo & hi & log & dd & K). unfold neighborhood, continuous_neighborhood in P2. rewrite K in P2. revert P3.
      assert (G : forall cands buf l0, cont_loop (sl_sample sl) buf cands = Ok l0 -> In x l0 -> In x buf \/ exists cand, In cand cands /\ In x cand).
      { clear. induction cands as [|c0 cands IH]; intros buf l0 H Hx; [discriminate|]. cbn [cont_loop] in H.
        destruct (Nat.leb (length buf + length (within 0 1 c0)) (5 * sl_sample sl)); [|discriminate].
        assert (K : In x (buf ++ within 0 1 c0) -> In x buf \/ exists cand, In cand (c0 :: cands) /\ In x cand).
        { intros Hi. apply in_app_or in Hi. destruct Hi as [Hi|Hi]; [auto|]. right. exists c0. apply within_in in Hi. simpl. tauto. }
        destruct (Nat.leb (sl_sample sl) (length (buf ++ within 0 1 c0))).
        - injection H as <-. apply K. apply (firstn_in _ _ _ Hx).
        - destruct (IH _ _ H Hx) as [Hi|(cand & H1 & H2)]; [auto|]. right. exists cand. simpl. auto. }
      intros Hx. destruct (G _ _ _ P2 Hx) as [[]|K']; exact K'. }
    destruct Ic as (cand & I1 & I2). apply (Fr (sl_hp sl) g cand x Hh Fl I1 I2). unfold vget. rewrite Hi. exact F.
  Qed.

  (** ** C25: what a yielded configuration is

      Full statement: every yielded configuration is valid.  False, see [C25_refuted]: only the
      clauses that mention the exchanged hyperparameter are checked. *)
  Theorem C25_sound_partial s hs cs fs c d num o fuel out r cfg : tame s hs cs fs -> orderly cs ->
    represents s hs c d -> valid hs cs fs d -> exact_all hs d -> oracle_ok o -> steady num hs ->
    get_one_exchange_neighbourhood fuel s c num o = (out, r) -> In cfg out ->
    exists h u w d', d (hp_name h) = Some u /\ exchanged s hs cs fs d cfg h w d' /\
      (is_float h \/ py_eqb w u = false) /\ (fresh s hs c o -> py_eqb w u = false).
  Proof.
    intros T Or Rep V Ex Ok_ St H Hc. assert (B := tm_built _ _ _ _ T). unfold get_one_exchange_neighbourhood in H.
    destruct (slots_of s c num 0 (d_nodes (s_dag s))) as [sls|e] eqn:Hs; [|injection H as <- <-; destruct Hc].
    destruct (forallb (fun sl => negb (Nat.eqb (sl_left sl) 0)) sls) eqn:Ef; [|injection H as <- <-; destruct Hc].
    destruct (loop_trace s (c_vector c) o (proj1 Ok_) fuel sls (length sls) 0 0 out r H) as (tags & F & _).
    { intros sl x Hsl Hx. destruct (slot_here s hs cs fs c num sls sl B Hs Hsl) as (_ & _ & So).
      destruct (slot_of_spec _ _ _ _ _ _ _ So) as (_ & _ & Hnb & _). rewrite Hnb in Hx. destruct Hx. }
    { unfold open_slots. f_equal. symmetry. clear -Ef. induction sls as [|a l IH]; [reflexivity|]. simpl in *. apply andb_true_iff in Ef.
      destruct Ef as [-> Ef]. rewrite IH; auto. }
    destruct (Forall2_in_l _ _ _ _ F Hc) as ([p x] & _ & sl & Hp & P & Hv & Hcv). cbn [fst snd] in *.
    apply nth_error_In in Hp. destruct (proposed_entry s hs cs fs c d num o sls sl x B Rep Ex Ok_ St Hs Hp P) as (u & w & Hu & Ew & Dw & Eu).
    destruct (tag_sound s hs cs fs c d num sls sl x w cfg T Or Rep V Ex Hs Hp) as (d' & X); try assumption; [congruence|].
    exists (sl_hp sl), u, w, d'. split; [exact Hu|]. split; [exact X|]. split; [exact Dw|]. intros Fr.
    destruct Dw as [Fl|Dw]; [|exact Dw]. eapply fresh_differs; eauto.
  Qed.

  Lemma violated_ext d d' f : (forall n, In n (forb_names f) -> d n = d' n) -> violated d f -> violated d' f.
  Proof.
    induction f as [h w ww|h ws wws|rr a b|fs IH] using fclause_ind'; intros H; cbn [violated].
    - rewrite (H (hp_name h)); [auto|]. simpl. auto.
    - rewrite (H (hp_name h)); [auto|]. simpl. auto.
    - rewrite (H (hp_name a)), (H (hp_name b)); [auto| |]; simpl; auto.
    - rewrite Forall_forall in IH. intros Hv. assert (G : forall f, In f fs -> violated d f -> violated d' f).
      { intros f Hf. apply (IH f Hf). intros n Hn. apply H. apply forb_names_and. exists f. auto. }
      clear IH H. induction fs as [|f fs IHf]; [exact I|]. simpl in *. destruct Hv as [V1 V2]. split; [apply G; auto|]. apply IHf; auto.
  Qed.

  (** If a clause that mentions a hyperparameter also mentions everything its activity depends on,
      the yielded configurations are valid. *)
  Definition closed_clauses (cs : list cond) (fs : list fclause) : Prop :=
    forall f p n, In f fs -> In n (forb_names f) -> clos_trans _ (reads cs) p n -> In p (forb_names f).

  Theorem C25_valid_partial s hs cs fs c d num o fuel out r cfg : tame s hs cs fs -> orderly cs -> closed_clauses cs fs ->
    represents s hs c d -> valid hs cs fs d -> exact_all hs d -> oracle_ok o -> steady num hs ->
    get_one_exchange_neighbourhood fuel s c num o = (out, r) -> In cfg out ->
    check_configuration s (c_vector cfg) false = Ok tt /\
    exists d', represents s hs cfg d' /\ valid hs cs fs d' /\ exact_all hs d'.
  Proof.
    intros T Or Cl Rep V Ex Ok_ St H Hc.
    destruct (C25_sound_partial s hs cs fs c d num o fuel out r cfg T Or Rep V Ex Ok_ St H Hc) as (h & u & w & d' & Hu & X & _).
    assert (R := tm_refs _ _ _ _ T). assert (O := built_ok _ _ _ _ (tm_built _ _ _ _ T)).
    assert (Nv : forall f, In f fs -> ~ violated d' f).
    { intros f Hf Hv. destruct (in_dec string_dec (hp_name h) (forb_names f)) as [Hn|Hn]; [apply (xc_forb _ _ _ _ _ _ _ _ _ X f Hf Hn Hv)|].
      apply (va_forb _ _ _ _ V f Hf). apply (violated_ext d'); [|exact Hv]. intros n Hin.
      destruct (proj1 (names_hps f n) Hin) as (g & Hg & <-). apply (xc_rest _ _ _ _ _ _ _ _ _ X).
      - apply (proj2 R f Hf g Hg).
      - intros K. apply Hn. rewrite <- K. exact Hin.
      - intros K. apply Hn. apply (Cl f _ _ Hf Hin K). }
    assert (V' : valid hs cs fs d').
    { constructor; [apply (xc_legal _ _ _ _ _ _ _ _ _ X)|apply (xc_active _ _ _ _ _ _ _ _ _ X)|exact Nv]. }
    split; [|exists d'; split; [apply (xc_rep _ _ _ _ _ _ _ _ _ X)|split; [exact V'|apply (xc_exact _ _ _ _ _ _ _ _ _ X)]]].
    destruct (encodes_check O (c_vector cfg) d' false R (tm_merge _ _ _ _ T) (tm_ne _ _ _ _ T)) as [_ C2].
    - apply (represents_encodes cfg d' (xc_rep _ _ _ _ _ _ _ _ _ X)).
    - apply (xc_exact _ _ _ _ _ _ _ _ _ X).
    - apply C2; [apply (tm_cmp _ _ _ _ T)| | |exact Nv].
      + intros g Hg. apply (va_active _ _ _ _ V' g Hg).
      + intros _ g Hg. apply (va_active _ _ _ _ V' g Hg).
  Qed.

  (** ** C64: the generator ends *)

  Lemma slots_len s hs cs fs c num sls : built s hs cs fs -> slots_of s c num 0 (d_nodes (s_dag s)) = Ok sls ->
    length sls = length (filter (changeable s c) hs).
  Proof.
    intros B H. assert (O := built_ok _ _ _ _ B). rewrite <- (map_length sl_hp).
    rewrite (slots_hps s c num (d_nodes (s_dag s)) 0 sls H).
    - apply Permutation_length. assert (P := so_hps O). unfold Space.hps, items in P. rewrite map_map in P.
      assert (G : forall l m : list hp, Permutation l m -> Permutation (filter (changeable s c) l) (filter (changeable s c) m)).
      { clear. intros l m P. induction P; simpl.
        - constructor.
        - destruct (changeable s c x); [constructor|]; assumption.
        - destruct (changeable s c x), (changeable s c y); try apply perm_swap; reflexivity.
        - etransitivity; eassumption. }
      apply G. exact P.
    - intros j name n Hj. cbn [Nat.add].
      assert (Hk : nth_error (keys s) j = Some name) by (unfold keys; rewrite nth_error_map, Hj; reflexivity).
      assert (Hg : get_hp s name = Some (n_hp n)) by (rewrite <- (so_hp_at_name O j name Hk), (so_hp_at O), Hj; reflexivity).
      apply (so_get_hp O) in Hg. destruct Hg as [_ ->]. unfold vget. apply (so_index O) in Hk. rewrite Hk. reflexivity.
  Qed.

  Lemma open_all sls : forallb (fun sl => negb (Nat.eqb (sl_left sl) 0)) sls = true -> length sls = open_slots sls.
  Proof.
    intros H. unfold open_slots. f_equal. symmetry. induction sls as [|a l IH]; [reflexivity|]. simpl in *. apply andb_true_iff in H.
    destruct H as [-> H]. rewrite IH; auto.
  Qed.

  Lemma getitem_ends s c k : ends (getitem s c k).
  Proof.
    unfold getitem. destruct (match c_values c with Some d => assoc k d | None => None end); [discriminate|].
    destruct (get_hp s k) as [h0|]; [|discriminate]. destruct (assoc k (index_of s)) as [j|]; [|discriminate].
    destruct (nth j (c_vector c) NaN); try discriminate; (apply ends_bind; [apply to_value_ends|discriminate]).
  Qed.

  Lemma num_neighbors_ends h w : ends (get_num_neighbors h w).
  Proof.
    unfold get_num_neighbors.
    repeat (match goal with |- ends (if ?b then _ else _) => destruct b | |- ends (match ?x with _ => _ end) => destruct x | |- ends (bind _ _) => apply ends_bind; [|intros] end); try discriminate.
  Qed.

  Lemma exchange_mono fuel s c num o : ends (snd (get_one_exchange_neighbourhood fuel s c num o)) ->
    forall k, get_one_exchange_neighbourhood (fuel + k) s c num o = get_one_exchange_neighbourhood fuel s c num o.
  Proof.
    unfold get_one_exchange_neighbourhood. destruct (slots_of s c num 0 (d_nodes (s_dag s))) as [sls|e]; [|reflexivity].
    destruct (forallb (fun sl => negb (Nat.eqb (sl_left sl) 0)) sls); [|reflexivity]. intros H k. apply loop_mono. exact H.
  Qed.

  (** If the random indices are in range and every index comes up again and again, the generator
      ends after finitely many steps, whatever the clauses and the configuration. *)
  Theorem C64_ends s hs cs fs c num o : built s hs cs fs -> fair o (length (filter (changeable s c) hs)) ->
    exists fuel out r, r <> Err OutOfFuel /\ forall k, get_one_exchange_neighbourhood (fuel + k) s c num o = (out, r).
  Proof.
    intros B Fr. assert (G : exists fuel, ends (snd (get_one_exchange_neighbourhood fuel s c num o))).
    { unfold get_one_exchange_neighbourhood. destruct (slots_of s c num 0 (d_nodes (s_dag s))) as [sls|e] eqn:Hs.
      - destruct (forallb (fun sl => negb (Nat.eqb (sl_left sl) 0)) sls) eqn:Ef; [|exists 0; discriminate].
        rewrite <- (slots_len s hs cs fs c num sls B Hs) in Fr.
        apply (loop_ends s (c_vector c) o _ sls (length sls) 0 0 eq_refl Fr (open_all sls Ef)).
      - exists 0. simpl. assert (Q : forall i ns, ends (slots_of s c num i ns)).
        { clear. intros i ns. revert i. induction ns as [|[name n] ns IH]; intros i; [discriminate|]. cbn [slots_of].
          apply ends_bind; [|intros o0; apply ends_bind; [apply IH|discriminate]].
          unfold slot_of. apply ends_if; [discriminate|]. destruct (hp_kind (n_hp n)), (hp_size (n_hp n)); try discriminate.
          1-2: (apply ends_bind; [apply getitem_ends|intros w; apply ends_bind; [apply num_neighbors_ends|intros [z0|]; discriminate]]). }
        unfold ends in Q. intros K. apply (Q 0 (d_nodes (s_dag s))). congruence. }
    destruct G as (fuel & Hf). destruct (get_one_exchange_neighbourhood fuel s c num o) as [out r] eqn:Eg.
    exists fuel, out, r. split; [exact Hf|]. intros k. rewrite <- Eg. apply exchange_mono. rewrite Eg. exact Hf.
  Qed.

  (** ** C65: hyperparameters whose neighbours are enumerated *)

  (** [w] is a neighbour of [u]: another choice, the previous or next of a sequence, another integer *)
  Definition neighbour (h : hp) (u w : value) : Prop :=
    match hp_kind h with
    | KCat _ _ => legal_value h w = true /\ py_eqb w u = false
    | KOrd sq => exists i j a b, nth_error sq i = Some a /\ py_eqb a u = true /\ nth_error sq j = Some b /\ py_eqb b w = true /\ adjacent i j
    | KInt _ _ _ _ => legal_value h w = true /\ exact_value h w /\ py_eqb w u = false
    | _ => False
    end.

  (** all neighbours of the value fit into the requested number *)
  Definition listed (num : nat) (h : hp) : Prop :=
    match hp_kind h with
    | KCat _ _ | KOrd _ => True
    | KInt lo hi _ dd => dd = DUniform /\ (hi - lo < Z.of_nat num)%Z /\ (hi - lo < 1000000)%Z
    | _ => False
    end.

  (** what reading a value from the configuration shows *)
  Definition shows (s : space) (hs : list hp) (c : config) (d : assignment) : Prop :=
    forall h u, In h hs -> d (hp_name h) = Some u -> exists z, getitem s c (hp_name h) = Ok z /\ py_eqb z (round_value h u) = true.

  Lemma entry_eqv h b w e : constructed h -> entry_of h b e -> py_eqb b w = true -> legal_value h w = true -> exact_value h w -> entry_of h w e.
  Proof.
    intros C En Q Lw Xw. destruct (legal_finite h w C Lw) as (q & Hq).
    assert (Ew : entry_of h w (Fin q)) by (split; [exact Lw|]; split; [exact Xw|]; exists (Fin q); split; [exact Hq|apply fsame_refl]).
    apply (entry_fsame h w (Fin q)); [|exact Ew]. apply (entry_eqb h b w); assumption.
  Qed.

  Lemma F2_length {A B} (P : A -> B -> Prop) l m : Forall2 P l m -> length l = length m.
  Proof. induction 1; simpl; congruence. Qed.

  Lemma apart_nodup l : apart l -> NoDup l.
  Proof.
    induction l as [|x l IH]; intros H; [constructor|]. destruct H as [H1 H2]. constructor; [|auto]. intros K. apply (H1 x K). reflexivity.
  Qed.
  Lemma apart_eq l x y : apart l -> In x l -> In y l -> (x == y)%Q -> x = y.
  Proof.
    induction l as [|a l IH]; intros H Hx Hy Q; [destruct Hx|]. destruct H as [H1 H2].
    destruct Hx as [->|Hx], Hy as [->|Hy]; auto.
    - exfalso. apply (H1 y Hy Q).
    - exfalso. apply (H1 x Hx). symmetry. exact Q.
  Qed.
  Lemma apart_of {A} (P : A -> fval -> Prop) js : forall l, (forall j j' e e', P j e -> P j' e' -> fsame e e' -> j = j') ->
    NoDup js -> Forall2 P js (map Fin l) -> apart l.
  Proof.
    intros l Inj. revert l. induction js as [|j js IH]; intros [|x l] ND F; simpl; try exact I; [inversion F|].
    inversion F as [|? ? ? ? F1 F2]; subst. inversion ND as [|? ? N1 N2]; subst. split; [|apply IH; assumption].
    intros y Hy Q. destruct (Forall2_in_r _ _ _ _ F2 (in_map Fin _ _ Hy)) as (j' & Hj' & Pj). apply N1.
    rewrite (Inj j j' (Fin x) (Fin y) F1 Pj Q). exact Hj'.
  Qed.

  Lemma index_of_entry h sq u q i a : constructed h -> lists_values h sq -> entry_of h u (Fin q) -> nth_error sq i = Some a ->
    py_eqb a u = true -> fsame (Fin q) (Fin (inject_Z (Z.of_nat i))).
  Proof.
    intros C K En Hi Q. assert (Hl : i < length sq) by (apply nth_error_Some; congruence).
    destruct (entry_seq h sq i C K Hl) as (a' & Ha & Ea). assert (a' = a) by congruence. subst a'.
    apply fsame_sym. apply (entry_eqb h a u); assumption.
  Qed.
  Lemma inj_fin i j : fsame (Fin (inject_Z (Z.of_nat i))) (Fin (inject_Z (Z.of_nat j))) -> i = j.
  Proof. intros H. change (inject_Z (Z.of_nat i) == inject_Z (Z.of_nat j))%Q in H. apply (proj1 (inject_Z_injective _ _)) in H. lia. Qed.

  Definition all_of (h : hp) (q : Q) (n : nat) (u : value) (N : list Q) : Prop :=
    (forall r l, shuffles r -> neighborhood h q n r = Ok l -> Permutation l N) /\ apart N /\
    (forall w, neighbour h u w -> exists x, In x N /\ entry_of h w (Fin x)) /\ length N = n.

  Lemma all_cat h ch ws u q : constructed h -> hp_kind h = KCat ch ws -> entry_of h u (Fin q) ->
    exists N, all_of h q (length ch - 1) u N.
  Proof.
    intros C K En. destruct (entry_index h ch u q C (LV_cat h ch ws K) En) as (i & v & V1 & V2 & V3).
    assert (Hi : i < length ch) by (apply nth_error_Some; congruence).
    set (others := arange 0 (Z.of_nat i) 1 ++ arange (Z.of_nat i + 1) (Z.of_nat (length ch)) 1).
    assert (Lo : length others = length ch - 1) by (unfold others; rewrite skip_length by lia; lia).
    exists (map inject_Z others). split; [|split; [|split]].
    - intros r l Sh H. unfold neighborhood in H. rewrite K in H. injection H as <-. unfold cat_neighborhood.
      rewrite (py_int_Z q _ V3). fold others. assert (P := Sh others).
      assert (Pl := Permutation_length P). apply Permutation_map. symmetry. etransitivity; [exact P|].
      destruct (Z.of_nat (length ch) <=? 5)%Z; [reflexivity|]. rewrite firstn_all2 by lia. reflexivity.
    - assert (ND : NoDup others) by apply skip_nodup. clear -ND. induction ND as [|z l N1 N2 IH]; simpl; [exact I|]. split; [|exact IH].
      intros y Hy Q. apply in_map_iff in Hy. destruct Hy as (z' & <- & Hz). apply (proj1 (inject_Z_injective _ _)) in Q. subst. auto.
    - intros w Hw. unfold neighbour in Hw. rewrite K in Hw. destruct Hw as [Lw Dw].
      assert (W := constructed_wf _ C). unfold wf_hp in W. rewrite K in W.
      destruct (seq_roundtrip h ch w) as (j & w' & J1 & J2 & J3 & _); [eauto|tauto|exact Lw|].
      assert (Ew : entry_of h w (Fin (inject_Z (Z.of_nat j)))).
      { split; [exact Lw|]. split; [unfold exact_value; rewrite K; exact I|]. eexists. split; [exact J3|apply fsame_refl]. }
      exists (inject_Z (Z.of_nat j)). split; [|exact Ew]. apply in_map. unfold others. apply skip_in.
      assert (Hji : j <> i); [|lia]. intros ->. assert (F := entry_fsame h w _ _ V3 Ew).
      rewrite (entry_same h w u (Fin q) C F En) in Dw. discriminate.
    - rewrite map_length. exact Lo.
  Qed.

  Lemma all_ord h sq u q a m : constructed h -> hp_kind h = KOrd sq -> entry_of h u (Fin q) -> py_eqb a u = true ->
    get_num_neighbors h (Some a) = Ok (Some (Z.of_nat m)) -> hp_size h <> Some 1%Z -> exists N, all_of h q m u N.
  Proof.
    intros C K En Qa G Sz. destruct (entry_index h sq u q C (LV_ord h sq K) En) as (i & v & V1 & V2 & V3).
    assert (Hi : i < length sq) by (apply nth_error_Some; congruence). change (q == inject_Z (Z.of_nat i))%Q in V3.
    unfold hp_size in Sz. rewrite K in Sz. assert (Sz' : length sq <> 1) by (intros Q; apply Sz; rewrite Q; reflexivity).
    assert (Gv : m = if ((Z.of_nat i =? 0) || (Z.of_nat i =? Z.of_nat (length sq) - 1))%Z%bool then 1 else 2).
    { unfold get_num_neighbors in G. rewrite K in G. destruct (Z.eqb_spec (Z.of_nat (length sq)) 1) as [?|_]; [lia|].
      destruct (py_index a sq) as [i'|] eqn:Ei; [|discriminate]. destruct (py_index_some _ _ _ Ei) as (v' & W1 & W2 & _).
      assert (F := index_of_entry h sq u q i' v' C (LV_ord h sq K) En W1 (py_eqb_trans _ _ _ W2 Qa)).
      assert (i' = i). { apply inj_fin. eapply fsame_trans; [apply fsame_sym; exact F|exact V3]. } subst i'.
      injection G as G. destruct ((Z.of_nat i =? 0) || (Z.of_nat i =? Z.of_nat (length sq) - 1))%Z%bool; lia. }
    assert (Det : forall r r', neighborhood h q m r = neighborhood h q m r').
    { intros r r'. unfold neighborhood, ordinal_neighborhood. rewrite K.
      destruct (Qle_bool 0 q && Qle_bool q (inject_Z (Z.of_nat (length sq) - 1)))%bool; [|reflexivity].
      destruct (Z.of_nat (length sq) =? 1)%Z; [reflexivity|]. destruct (Qeq_bool q 0) eqn:E0; [reflexivity|].
      rewrite V3, rint_Z. destruct (Z.eqb_spec (Z.of_nat i) (Z.of_nat (length sq) - 1)) as [E1|E1]; [reflexivity|].
      destruct (Z.eqb_spec (Z.of_nat i) 0) as [E2|E2].
      - exfalso. apply Qeq_bool_neq in E0. apply E0. rewrite V3, E2. reflexivity.
      - simpl in Gv. subst m. reflexivity. }
    set (r0 := {| nr_cands := []; nr_shuffle := fun l => l; nr_second := false |}).
    destruct (C45_ordinal_partial h sq i (Fin q) m None r0 v C K V1 V3 I) as (l & js & N1 & N2 & N3 & N4 & N5).
    destruct (nb_vectorized_inv _ _ _ _ _ N1) as (N & HN & ->). rewrite map_length in *. exists N. split; [|split; [|split]].
    - intros r l _ H. rewrite (Det r r0), HN in H. injection H as <-. reflexivity.
    - refine (apart_of _ js N _ N3 N2). intros j j' e e' (_ & _ & F1) (_ & _ & F2) F. apply inj_fin.
      eapply fsame_trans; [apply fsame_sym; exact F1|]. eapply fsame_trans; [exact F|exact F2].
    - intros w Hw. unfold neighbour in Hw. rewrite K in Hw. destruct Hw as (i' & j & a' & b & A1 & A2 & A3 & A4 & A5).
      assert (F := index_of_entry h sq u q i' a' C (LV_ord h sq K) En A1 A2).
      assert (i' = i). { apply inj_fin. eapply fsame_trans; [apply fsame_sym; exact F|exact V3]. } subst i'. clear F.
      assert (Hj : j < length sq) by (apply nth_error_Some; congruence).
      assert (Ij : In j js).
      { destruct (Nat.le_gt_cases 2 m) as [Hm|Hm]; [apply (N4 Hm); assumption|]. specialize (N5 Hm).
        destruct ((Z.of_nat i =? 0) || (Z.of_nat i =? Z.of_nat (length sq) - 1))%Z%bool eqn:Eb; [|lia]. apply orb_true_iff in Eb. rewrite !Z.eqb_eq in Eb.
        assert (Lj : length js = 1) by (assert (Q := F2_length _ _ _ N2); rewrite map_length in Q; lia).
        destruct js as [|j0 [|]]; try discriminate. inversion N2 as [|? ? ? ? (B1 & B2 & _) _]; subst. left. unfold adjacent in *. lia. }
      destruct (Forall2_in_l _ _ _ _ N2 Ij) as (e & He & _ & _ & Fe). apply in_map_iff in He. destruct He as (x & <- & Hx).
      exists x. split; [exact Hx|]. destruct (entry_seq h sq j C (LV_ord h sq K) Hj) as (b' & B1 & B2). assert (b' = b) by congruence. subst b'.
      apply (entry_eqv h b); [exact C|apply (entry_fsame h b _ _ Fe B2)|exact A4| |unfold exact_value; rewrite K; exact I].
      unfold legal_value. rewrite K. apply py_in_iff. exists b. split; [apply nth_error_In with (1 := A3)|]. first [exact A4|rewrite py_eqb_sym; exact A4].
    - destruct (Nat.le_gt_cases 2 m) as [Hm|Hm].
      + destruct (N4 Hm) as [_ Gm]. assert (Q : get_num_neighbors h (Some v) = get_num_neighbors h (Some a)); [|rewrite Q, G in Gm; injection Gm; lia].
        unfold get_num_neighbors. rewrite K. assert (Hp : py_index v sq = py_index a sq); [|rewrite Hp; reflexivity].
        apply py_index_congr. apply (py_eqb_trans _ u); [exact V2|rewrite py_eqb_sym; exact Qa].
      + specialize (N5 Hm). destruct ((Z.of_nat i =? 0) || (Z.of_nat i =? Z.of_nat (length sq) - 1))%Z%bool; lia.
  Qed.

  Lemma all_int h lo hi log u q : constructed h -> hp_kind h = KInt lo hi log DUniform -> entry_of h u (Fin q) ->
    (hi - lo < 1000000)%Z -> exists N, all_of h q (Z.to_nat (hi - lo)) u N.
  Proof.
    intros C K En Lt. assert (W := constructed_wf _ C). unfold wf_hp in W. rewrite K in W. destruct W as (W1 & W2 & _).
    destruct (entry_int_of h lo hi log DUniform u (Fin q) C K En) as (z & Ez & Qz). set (n := Z.to_nat (hi - lo)).
    assert (Det : forall r r', neighborhood h q n r = neighborhood h q n r').
    { intros r r'. unfold neighborhood. rewrite K. destruct log.
      - unfold discretized_neighborhood. destruct (Z.leb_spec (hi - lo + 1 - 1) (Z.of_nat n)) as [_|?]; [reflexivity|lia].
      - unfold quantized_neighborhood. destruct (Z.leb_spec (hi - lo + 1 - 1) (Z.of_nat n)) as [_|?]; [reflexivity|lia]. }
    set (r0 := {| nr_cands := []; nr_shuffle := fun l => l; nr_second := false |}).
    destruct (C43_all h lo hi log z (Fin q) n None r0 C K Ez I) as (l & ws & N1 & N2 & N3 & N4); [lia|].
    destruct (nb_vectorized_inv _ _ _ _ _ N1) as (N & HN & ->). exists N. split; [|split; [|split]].
    - intros r l _ H. rewrite (Det r r0), HN in H. injection H as <-. reflexivity.
    - refine (apart_of _ ws N _ N3 N2). intros a b e e' A B F. assert (Q := entry_same h _ _ e C A (entry_fsame h _ _ _ F B)).
      unfold py_eqb in Q. simpl in Q. apply Qeq_bool_iff in Q. apply (proj1 (inject_Z_injective _ _)) in Q. exact Q.
    - intros w Hw. unfold neighbour in Hw. rewrite K in Hw. destruct Hw as (Lw & Xw & Dw).
      destruct (legal_finite h w C Lw) as (y & Hy).
      assert (Ew : entry_of h w (Fin y)) by (split; [exact Lw|]; split; [exact Xw|]; exists (Fin y); split; [exact Hy|apply fsame_refl]).
      destruct (entry_int_of h lo hi log DUniform w (Fin y) C K Ew) as (b & Eb & Qb).
      destruct (entry_int_inv h lo hi log _ b _ K W1 W2 Eb) as (Hb & _).
      assert (Ib : In b ws). { apply N4. split; [exact Hb|]. intros ->. rewrite (py_eqb_trans _ _ _ Qb) in Dw; [discriminate|]. rewrite py_eqb_sym. exact Qz. }
      destruct (Forall2_in_l _ _ _ _ N2 Ib) as (e & He & Ee). apply in_map_iff in He. destruct He as (x & <- & Hx).
      exists x. split; [exact Hx|]. apply (entry_eqv h (VInt b)); auto. rewrite py_eqb_sym. exact Qb.
    - assert (Q := F2_length _ _ _ N2). rewrite map_length in Q. rewrite <- Q.
      destruct (entry_int_inv h lo hi log _ z _ K W1 W2 Ez) as (Hz & _).
      assert (P : Permutation ws (arange lo z 1 ++ arange (z + 1) (hi + 1) 1)).
      { apply NoDup_Permutation; [exact N3|apply skip_nodup|]. intros b. rewrite N4, skip_in. lia. }
      rewrite (Permutation_length P). rewrite skip_length by lia. lia.
  Qed.

  Lemma slot_listed s hs cs fs c d num o sls sl u : built s hs cs fs -> represents s hs c d -> exact_all hs d -> shows s hs c d ->
    oracle_ok o -> slots_of s c num 0 (d_nodes (s_dag s)) = Ok sls -> In sl sls -> sl_left sl <> 0 ->
    d (hp_name (sl_hp sl)) = Some u -> listed num (sl_hp sl) ->
    exists N, exact_slot (c_vector c) o N sl /\ phase N sl /\ todo N sl = N /\ apart N /\
      forall w, neighbour (sl_hp sl) u w -> exists x, In x N /\ entry_of (sl_hp sl) w (Fin x).
  Proof.
    intros B Rep Ex Sh [Or1 Or2] Hs Hsl Hl Hu Li. assert (O := built_ok _ _ _ _ B).
    destruct (slot_here s hs cs fs c num sls sl B Hs Hsl) as (Hh & Hi & So). set (h := sl_hp sl) in *.
    assert (C := so_constructed O h Hh). destruct (slot_of_spec _ _ _ _ _ _ _ So) as (_ & _ & Hnb & Hgen & _ & Sz & Kd).
    assert (En : exists q, nth (sl_idx sl) (c_vector c) NaN = Fin q /\ entry_of h u (Fin q)).
    { assert (R := proj2 Rep h Hh). rewrite Hu in R. destruct R as (Lu & y & Ty & Fy). unfold vget in Fy. rewrite Hi in Fy.
      destruct (legal_finite h u C Lu) as (q0 & Q0). assert (y = Fin q0) by congruence. subst y.
      destruct (nth (sl_idx sl) (c_vector c) NaN) as [q| | |]; try contradiction. exists q. split; [reflexivity|].
      split; [exact Lu|]. split; [apply (Ex h u Hh Hu)|]. exists (Fin q0). auto. }
    destruct En as (q & Hq & En).
    assert (G : forall n N, sl_regen sl = false -> sl_iter sl = n -> sl_sample sl = n -> n <= sl_left sl -> n <> 0 -> all_of h q n u N ->
      exact_slot (c_vector c) o N sl /\ phase N sl /\ todo N sl = N /\ apart N /\
      forall w, neighbour h u w -> exists x, In x N /\ entry_of h w (Fin x)).
    { intros n N G1 G2 G3 G4 G5 (A1 & A2 & A3 & A4). split; [|split; [|split; [|split; [exact A2|exact A3]]]].
      - constructor; [exact G1|congruence|intros ->; simpl in A4; congruence|apply apart_nodup; exact A2|].
        intros g q' l Hq' Hn. assert (q' = q) by congruence. subst q'. apply (A1 (o_rng o g)); [apply Or2|]. fold h in Hn. congruence.
      - constructor.
        + intros _. split; [exact Hnb|lia].
        + intros K. congruence.
        + rewrite Hnb. simpl. lia.
      - unfold todo. rewrite Hgen. reflexivity. }
    unfold listed in Li. destruct (hp_kind h) as [ch ws|sq|v|lo hi log dd|lo hi log dd] eqn:K; try contradiction.
    - destruct Kd as (K1 & K2 & K3 & K4). destruct (all_cat h ch ws u q C K En) as (N & HN). exists N.
      apply (G (length ch - 1)); auto; lia.
    - destruct Kd as (a & m & Ka & Km & K1 & K2 & K3 & K4). destruct (Sh h u Hh Hu) as (z & Z1 & Z2).
      assert (z = a) by congruence. subst z. assert (Rv : round_value h u = u) by (unfold round_value; rewrite K; reflexivity).
      rewrite Rv in Z2. destruct (all_ord h sq u q a m C K En Z2 Km Sz) as (N & HN). exists N. apply (G m); auto; lia.
    - destruct Li as (-> & L1 & L2). destruct Kd as (K1 & K2 & K3 & K4). destruct (all_int h lo hi log u q C K En L2) as (N & HN). exists N.
      assert (W := constructed_wf _ C). unfold wf_hp in W. rewrite K in W. destruct W as (W1 & W2 & _).
      apply (G (Z.to_nat (hi - lo))); auto; try lia. rewrite K4. apply Nat.leb_gt. lia.
  Qed.

  (** the run of the generator in terms of its entries *)
  Lemma run_trace s hs cs fs c num o fuel out r : built s hs cs fs -> oracle_ok o ->
    get_one_exchange_neighbourhood fuel s c num o = (out, r) -> out <> [] \/ r = Ok tt ->
    exists sls tags, slots_of s c num 0 (d_nodes (s_dag s)) = Ok sls /\ (forall sl, In sl sls -> sl_left sl <> 0) /\
      Forall2 (made_by s (c_vector c) o sls) out tags /\
      forall p sl, nth_error sls p = Some sl -> length (of_slot p tags) <= sl_left sl /\
        forall N, exact_slot (c_vector c) o N sl -> phase N sl ->
          NoDup (of_slot p tags) /\ incl (of_slot p tags) (todo N sl) /\
          (r = Ok tt -> forall x, In x (todo N sl) -> verdict s (c_vector c) sl x = Ok false -> In x (of_slot p tags)).
  Proof.
    intros B Ok_ H Hr. unfold get_one_exchange_neighbourhood in H.
    destruct (slots_of s c num 0 (d_nodes (s_dag s))) as [sls|e] eqn:Hs; [|injection H as <- <-; exfalso; destruct Hr; congruence].
    destruct (forallb (fun sl => negb (Nat.eqb (sl_left sl) 0)) sls) eqn:Ef; [|injection H as <- <-; exfalso; destruct Hr; congruence].
    destruct (loop_trace s (c_vector c) o (proj1 Ok_) fuel sls (length sls) 0 0 out r H) as (tags & F).
    { intros sl x Hsl Hx. destruct (slot_here s hs cs fs c num sls sl B Hs Hsl) as (_ & _ & So).
      destruct (slot_of_spec _ _ _ _ _ _ _ So) as (_ & _ & Hnb & _). rewrite Hnb in Hx. destruct Hx. }
    { apply open_all. exact Ef. }
    exists sls, tags. split; [reflexivity|]. split; [|exact F].
    intros sl Hsl. rewrite forallb_forall in Ef. specialize (Ef sl Hsl). apply negb_true_iff, Nat.eqb_neq in Ef. exact Ef.
  Qed.

  Lemma slot_of_hp s hs cs fs c d num sls h : built s hs cs fs -> represents s hs c d -> slots_of s c num 0 (d_nodes (s_dag s)) = Ok sls ->
    In h hs -> d (hp_name h) <> None -> hp_size h <> Some 1%Z -> exists p sl, nth_error sls p = Some sl /\ sl_hp sl = h.
  Proof.
    intros B Rep Hs Hh Hset Sz. assert (O := built_ok _ _ _ _ B).
    assert (G : In h (map sl_hp sls)).
    { rewrite (slots_hps s c num (d_nodes (s_dag s)) 0 sls Hs).
      - apply filter_In. split.
        + assert (P := so_hps O). unfold Space.hps, items in P. rewrite map_map in P. eapply Permutation_in; [symmetry; exact P|exact Hh].
        + unfold changeable. apply negb_true_iff, orb_false_iff. split.
          * destruct (hp_size h) as [[|[]|]|]; try reflexivity. congruence.
          * assert (R := proj2 Rep h Hh). destruct (d (hp_name h)) as [u|] eqn:Eu; [|congruence].
            destruct (encodes_fin (index_of s) (c_vector c) d h u (so_constructed O h Hh)) as (q & ->); [|exact Eu|reflexivity].
            apply (represents_encodes c d Rep h Hh).
      - intros j name n Hj. cbn [Nat.add].
        assert (Hk : nth_error (keys s) j = Some name) by (unfold keys; rewrite nth_error_map, Hj; reflexivity).
        assert (Hg : get_hp s name = Some (n_hp n)) by (rewrite <- (so_hp_at_name O j name Hk), (so_hp_at O), Hj; reflexivity).
        apply (so_get_hp O) in Hg. destruct Hg as [_ ->]. unfold vget. apply (so_index O) in Hk. rewrite Hk. reflexivity. }
    apply in_map_iff in G. destruct G as (sl & G1 & G2). apply In_nth_error in G2. destruct G2 as (p & Hp). eauto.
  Qed.

  Lemma neighbour_size h u w : constructed h -> legal_value h u = true -> neighbour h u w -> hp_size h <> Some 1%Z.
  Proof.
    intros C Lu Nb Sz. unfold neighbour in Nb. unfold hp_size in Sz. assert (Wf := constructed_wf _ C). unfold wf_hp in Wf.
    unfold legal_value in *. destruct (hp_kind h) as [ch ws|sq|v|lo hi log dd|lo hi log dd]; try contradiction.
    - assert (Ln : length ch = 1) by (injection Sz; lia). destruct ch as [|a [|]]; try discriminate. destruct Nb as [Nw Nd].
      apply py_in_iff in Lu, Nw. destruct Lu as (x & [<-|[]] & X), Nw as (y & [<-|[]] & Y).
      rewrite (py_eqb_trans w a u) in Nd; [discriminate| |]; first [assumption|rewrite py_eqb_sym; assumption].
    - assert (Ln : length sq = 1) by (injection Sz; lia). destruct Nb as (i & j & a & b & A1 & _ & A3 & _ & A5).
      assert (i < length sq) by (apply nth_error_Some; congruence). assert (j < length sq) by (apply nth_error_Some; congruence).
      unfold adjacent in A5. lia.
    - injection Sz. destruct Wf. lia.
  Qed.

  (** Every neighbour value that does not run into a clause is reached, if the generator is run to
      its end: whatever the random numbers, for categorical and ordinal hyperparameters and for
      integers with fewer values than the requested number. *)
  Theorem C65_complete s hs cs fs c d num o fuel out h u w d' : tame s hs cs fs -> orderly cs ->
    represents s hs c d -> shows s hs c d -> valid hs cs fs d -> exact_all hs d -> oracle_ok o ->
    get_one_exchange_neighbourhood fuel s c num o = (out, Ok tt) ->
    In h hs -> d (hp_name h) = Some u -> listed num h -> neighbour h u w ->
    updated hs cs d (hp_name h) w d' ->
    (forall f, In f fs -> In (hp_name h) (forb_names f) -> ~ violated d' f) ->
    exists cfg, In cfg out /\ represents s hs cfg d'.
  Proof.
    intros T Or Rep Sh V Ex Ok_ H Hh Hu Li Nb U Nv. assert (B := tm_built _ _ _ _ T). assert (R := tm_refs _ _ _ _ T). assert (O := built_ok _ _ _ _ B).
    destruct (run_trace s hs cs fs c num o fuel out _ B Ok_ H (or_intror eq_refl)) as (sls & tags & Hs & Hl & F & G).
    assert (Sz := neighbour_size h u w (so_constructed O h Hh) (va_legal _ _ _ _ V h u Hh Hu) Nb).
    destruct (slot_of_hp s hs cs fs c d num sls h B Rep Hs Hh) as (p & sl & Hp & Eh); [congruence|exact Sz|]. subst h.
    assert (Hsl := nth_error_In _ _ Hp).
    destruct (slot_listed s hs cs fs c d num o sls sl u B Rep Ex Sh Ok_ Hs Hsl (Hl sl Hsl) Hu Li) as (N & S1 & S2 & S3 & S4 & S5).
    destruct (S5 w Nb) as (x & Hx & Ew).
    destruct (moved_means s hs cs fs c d num sls sl x w T Or Rep V Ex Hs Hsl) as (cfg & d2 & C1 & C2 & C3 & C4 & C5 & C6); [congruence|exact Ew|].
    assert (Un := C20_unique s hs cs fs d _ w d2 d' B R C4 U).
    assert (Ve : verdict s (c_vector c) sl x = Ok false).
    { apply C6. intros f Hf Hn Hv. apply (Nv f Hf Hn). apply (violated_ext d2); [|exact Hv]. intros n Hin.
      destruct (proj1 (names_hps f n) Hin) as (g & Hg & <-). apply Un. apply (proj2 R f Hf g Hg). }
    destruct (G p sl Hp) as [_ G']. destruct (G' N S1 S2) as (_ & _ & G3). rewrite S3 in G3. specialize (G3 eq_refl x Hx Ve).
    unfold of_slot in G3. apply in_map_iff in G3. destruct G3 as ([p' x'] & Q & I'). cbn [snd] in Q. subst x'. apply filter_In in I'.
    destruct I' as [I' Q]. cbn [fst] in Q. apply Nat.eqb_eq in Q. subst p'.
    destruct (Forall2_in_r _ _ _ _ F I') as (cfg' & Hc & sl' & M1 & _ & _ & M4). cbn [fst snd] in *.
    assert (sl' = sl) by congruence. subst sl'. assert (cfg' = cfg) by congruence. subst cfg'.
    exists cfg. split; [exact Hc|]. assert (X := xc_rep _ _ _ _ _ _ _ _ _ (C3 Ve)). split; [apply X|]. intros g Hg. rewrite <- (Un g Hg). apply (proj2 X g Hg).
  Qed.

  (** the entry behind a yielded configuration *)
  Lemma yield_tag s hs cs fs c d num o sls out tags k cfg h u w d' : tame s hs cs fs -> orderly cs ->
    represents s hs c d -> valid hs cs fs d -> exact_all hs d -> oracle_ok o -> steady num hs ->
    slots_of s c num 0 (d_nodes (s_dag s)) = Ok sls -> Forall2 (made_by s (c_vector c) o sls) out tags ->
    nth_error out k = Some cfg -> d (hp_name h) = Some u -> exchanged s hs cs fs d cfg h w d' -> py_eqb w u = false ->
    exists p x sl, nth_error tags k = Some (p, x) /\ nth_error sls p = Some sl /\ sl_hp sl = h /\ entry_of h w (Fin x).
  Proof.
    intros T Or Rep V Ex Ok_ St Hs F Hk Hu X Dw. assert (B := tm_built _ _ _ _ T). assert (O := built_ok _ _ _ _ B).
    assert (K : exists px, nth_error tags k = Some px /\ made_by s (c_vector c) o sls cfg px).
    { clear -F Hk. revert k Hk. induction F as [|a b l m P F IH]; intros [|k] Hk; try discriminate; simpl in *.
      - injection Hk as ->. eauto.
      - apply IH. exact Hk. }
    destruct K as ([p x] & Ht & sl & Hp & P & Hv & Hc). cbn [fst snd] in *. exists p, x, sl. split; [exact Ht|]. split; [exact Hp|].
    apply nth_error_In in Hp. destruct (proposed_entry s hs cs fs c d num o sls sl x B Rep Ex Ok_ St Hs Hp P) as (u1 & w1 & Hu1 & Ew1 & _ & _).
    destruct (tag_sound s hs cs fs c d num sls sl x w1 cfg T Or Rep V Ex Hs Hp) as (d1 & X1); try assumption; [congruence|].
    assert (Hh := xc_in _ _ _ _ _ _ _ _ _ X). assert (C := so_constructed O h Hh).
    assert (Eq : forall g a b, In g hs -> d' (hp_name g) = Some a -> d1 (hp_name g) = Some b -> py_eqb a b = true).
    { intros g a b Hg Ha Hb. assert (A := proj2 (xc_rep _ _ _ _ _ _ _ _ _ X) g Hg). assert (A1 := proj2 (xc_rep _ _ _ _ _ _ _ _ _ X1) g Hg).
      rewrite Ha in A. rewrite Hb in A1.
      apply (entry_same g a b (vget (index_of s) (c_vector cfg) (hp_name g)) (so_constructed O g Hg)).
      - destruct A as (A & A' ). split; [exact A|]. split; [apply (xc_exact _ _ _ _ _ _ _ _ _ X g a Hg Ha)|exact A'].
      - destruct A1 as (A2 & A3). split; [exact A2|]. split; [apply (xc_exact _ _ _ _ _ _ _ _ _ X1 g b Hg Hb)|exact A3]. }
    assert (Hw := proj1 (xc_upd _ _ _ _ _ _ _ _ _ X)).
    assert (D1 : exists b, d1 (hp_name h) = Some b).
    { destruct (d1 (hp_name h)) as [b|] eqn:Eb; [eauto|]. exfalso. assert (A := proj2 (xc_rep _ _ _ _ _ _ _ _ _ X) h Hh). rewrite Hw in A.
      assert (A1 := proj2 (xc_rep _ _ _ _ _ _ _ _ _ X1) h Hh). rewrite Eb in A1. rewrite A1 in A. destruct A as (Lw & y & Ty & Fy).
      destruct (legal_finite h w C Lw) as (z & Hz). assert (y = Fin z) by congruence. subst y. destruct Fy. }
    destruct D1 as (b & Eb). assert (Qb := Eq h w b Hh Hw Eb). assert (Hh1 := xc_in _ _ _ _ _ _ _ _ _ X1).
    assert (Eh : sl_hp sl = h).
    { apply (same_hp hs); auto using (so_names_nodup O). destruct (string_dec (hp_name h) (hp_name (sl_hp sl))) as [E1|E1]; [auto|]. exfalso.
      destruct (proj2 (xc_upd _ _ _ _ _ _ _ _ _ X1) h Hh E1) as [U1 _].
      rewrite (U1 (proj1 (xc_active _ _ _ _ _ _ _ _ _ X1 h Hh) ltac:(congruence))), Hu in Eb. injection Eb as <-. congruence. }
    split; [exact Eh|]. subst h. assert (b = w1). { assert (Q := proj1 (xc_upd _ _ _ _ _ _ _ _ _ X1)). congruence. } subst b.
    apply (entry_eqv _ w1); auto; [rewrite py_eqb_sym; exact Qb|apply (xc_legal _ _ _ _ _ _ _ _ _ X _ w Hh Hw)|apply (xc_exact _ _ _ _ _ _ _ _ _ X _ w Hh Hw)].
  Qed.

  Lemma of_slot_pos tags : forall p j k x, NoDup (of_slot p tags) -> nth_error tags j = Some (p, x) -> nth_error tags k = Some (p, x) -> j = k.
  Proof.
    assert (I : forall tags p k x, nth_error tags k = Some (p, x) -> In x (of_slot p tags)).
    { intros l p k x H. apply nth_error_In in H. unfold of_slot. apply in_map_iff. exists (p, x). split; [reflexivity|]. apply filter_In.
      split; [exact H|]. cbn [fst]. apply Nat.eqb_refl. }
    induction tags as [|[p0 x0] l IH]; intros p j k x ND Hj Hk; [destruct j; discriminate|].
    unfold of_slot in ND. cbn [filter fst] in ND. destruct (Nat.eqb_spec p0 p) as [->|Np].
    - cbn [map snd] in ND. inversion ND as [|? ? N1 N2]; subst. fold (of_slot p l) in N1, N2. destruct j as [|j], k as [|k]; cbn [nth_error] in *; auto.
      + injection Hj as ->. exfalso. apply N1. apply (I _ _ _ _ Hk).
      + injection Hk as ->. exfalso. apply N1. apply (I _ _ _ _ Hj).
      + f_equal. apply (IH p j k x N2 Hj Hk).
    - destruct j as [|j], k as [|k]; cbn [nth_error] in *; [congruence|congruence|congruence|]. f_equal. apply (IH p j k x ND Hj Hk).
  Qed.

  Lemma slots_same s c num sls p p' sl sl' : slots_of s c num 0 (d_nodes (s_dag s)) = Ok sls ->
    nth_error sls p = Some sl -> nth_error sls p' = Some sl' -> sl_idx sl = sl_idx sl' -> p = p'.
  Proof.
    intros Hs Hp Hp' Q. destruct (slots_idx _ _ _ _ _ _ Hs) as [ND _]. rewrite NoDup_nth_error in ND. apply ND.
    - rewrite map_length. apply nth_error_Some. congruence.
    - rewrite !nth_error_map, Hp, Hp'. simpl. congruence.
  Qed.

  (** ... and reached only once. *)
  Theorem C65_once_partial s hs cs fs c d num o fuel out r h u j k cfg1 cfg2 w1 w2 d1 d2 : tame s hs cs fs -> orderly cs ->
    represents s hs c d -> shows s hs c d -> valid hs cs fs d -> exact_all hs d -> oracle_ok o -> steady num hs ->
    get_one_exchange_neighbourhood fuel s c num o = (out, r) -> d (hp_name h) = Some u -> listed num h ->
    nth_error out j = Some cfg1 -> nth_error out k = Some cfg2 ->
    exchanged s hs cs fs d cfg1 h w1 d1 -> exchanged s hs cs fs d cfg2 h w2 d2 ->
    py_eqb w1 u = false -> py_eqb w1 w2 = true -> j = k.
  Proof.
    intros T Or Rep Sh V Ex Ok_ St H Hu Li Hj Hk X1 X2 D1 Q. assert (B := tm_built _ _ _ _ T). assert (O := built_ok _ _ _ _ B).
    assert (C := so_constructed O h (xc_in _ _ _ _ _ _ _ _ _ X1)).
    destruct (run_trace s hs cs fs c num o fuel out r B Ok_ H) as (sls & tags & Hs & Hl & F & G).
    { left. intros ->. destruct j; discriminate. }
    assert (D2 : py_eqb w2 u = false). { destruct (py_eqb w2 u) eqn:E2; [|reflexivity]. rewrite (py_eqb_trans _ _ _ Q E2) in D1. discriminate. }
    destruct (yield_tag s hs cs fs c d num o sls out tags j cfg1 h u w1 d1 T Or Rep V Ex Ok_ St Hs F Hj Hu X1 D1) as (p & x & sl & T1 & P1 & E1 & W1).
    destruct (yield_tag s hs cs fs c d num o sls out tags k cfg2 h u w2 d2 T Or Rep V Ex Ok_ St Hs F Hk Hu X2 D2) as (p' & x' & sl' & T2 & P2 & E2 & W2).
    assert (Hsl := nth_error_In _ _ P1). assert (Hsl' := nth_error_In _ _ P2).
    destruct (slot_here s hs cs fs c num sls sl B Hs Hsl) as (_ & I1 & _). destruct (slot_here s hs cs fs c num sls sl' B Hs Hsl') as (_ & I2 & _).
    assert (p' = p). { apply (slots_same s c num sls p' p sl' sl Hs P2 P1). rewrite E1 in I1. rewrite E2 in I2. congruence. }
    subst p'. assert (sl' = sl) by congruence. subst sl'. clear E2 P2 Hsl' I2. subst h.
    destruct (slot_listed s hs cs fs c d num o sls sl u B Rep Ex Sh Ok_ Hs Hsl (Hl sl Hsl) Hu Li) as (N & S1 & S2 & S3 & S4 & S5).
    destruct (G p sl P1) as [_ G']. destruct (G' N S1 S2) as (G1 & G2 & _). rewrite S3 in G2.
    assert (In_ : forall y i, nth_error tags i = Some (p, y) -> In y N).
    { intros y i Hi. apply G2. unfold of_slot. apply in_map_iff. exists (p, y). split; [reflexivity|]. apply filter_In.
      split; [apply (nth_error_In _ _ Hi)|apply Nat.eqb_refl]. }
    assert (x' = x).
    { symmetry. apply (apart_eq N); eauto. apply (entry_eqb _ w1 w2 (Fin x) (Fin x') C W1 W2 Q). }
    subst x'. apply (of_slot_pos tags p j k x G1 T1 T2).
  Qed.

  (** how many neighbours of one hyperparameter are asked for *)
  Definition limit (num : nat) (h : hp) : nat :=
    match hp_kind h with KCat ch _ => length ch - 1 | KOrd _ => 2 | _ => num end.

  Lemma slot_limit s hs cs fs c num sls sl : built s hs cs fs -> slots_of s c num 0 (d_nodes (s_dag s)) = Ok sls -> In sl sls ->
    sl_left sl <= limit num (sl_hp sl).
  Proof.
    intros B Hs Hsl. destruct (slot_here s hs cs fs c num sls sl B Hs Hsl) as (Hh & Hi & So).
    destruct (slot_of_spec _ _ _ _ _ _ _ So) as (_ & _ & _ & _ & _ & Sz & Kd). unfold limit. unfold slot_of in So.
    destruct (hp_kind (sl_hp sl)) as [ch ws|sq|v|lo hi log dd|lo hi log dd] eqn:K.
    - lia.
    - destruct Kd as (a & m & _ & Km & K1 & _). rewrite K1. unfold get_num_neighbors in Km. rewrite K in Km.
      destruct (Z.of_nat (length sq) =? 1)%Z; [injection Km; lia|]. destruct (py_index a sq); [|discriminate].
      destruct ((Z.of_nat n =? 0) || (Z.of_nat n =? Z.of_nat (length sq) - 1))%Z%bool; injection Km; lia.
    - exfalso. apply Sz. unfold hp_size. rewrite K. reflexivity.
    - lia.
    - lia.
  Qed.

  (** At most [limit] configurations change the hyperparameter. *)
  Theorem C64_bound s hs cs fs c d num o fuel out r h u ks : tame s hs cs fs -> orderly cs ->
    represents s hs c d -> valid hs cs fs d -> exact_all hs d -> oracle_ok o -> steady num hs ->
    get_one_exchange_neighbourhood fuel s c num o = (out, r) -> d (hp_name h) = Some u ->
    NoDup ks -> (forall k, In k ks -> exists cfg w d', nth_error out k = Some cfg /\ exchanged s hs cs fs d cfg h w d' /\ py_eqb w u = false) ->
    length ks <= limit num h.
  Proof.
    intros T Or Rep V Ex Ok_ St H Hu ND Hks. assert (B := tm_built _ _ _ _ T). assert (O := built_ok _ _ _ _ B).
    destruct ks as [|k0 ks']; [simpl; lia|]. set (ks := k0 :: ks') in *.
    destruct (Hks k0 (or_introl eq_refl)) as (cfg0 & w0 & d0 & K1 & K2 & K3).
    destruct (run_trace s hs cs fs c num o fuel out r B Ok_ H) as (sls & tags & Hs & Hl & F & G).
    { left. intros ->. destruct k0; discriminate. }
    destruct (yield_tag s hs cs fs c d num o sls out tags k0 cfg0 h u w0 d0 T Or Rep V Ex Ok_ St Hs F K1 Hu K2 K3) as (p & x & sl & T1 & P1 & E1 & W1).
    assert (Hsl := nth_error_In _ _ P1). destruct (slot_here s hs cs fs c num sls sl B Hs Hsl) as (_ & I1 & _).
    assert (Al : forall k, In k ks -> exists y, nth_error tags k = Some (p, y)).
    { intros k Hk. destruct (Hks k Hk) as (cfg & w & d' & L1 & L2 & L3).
      destruct (yield_tag s hs cs fs c d num o sls out tags k cfg h u w d' T Or Rep V Ex Ok_ St Hs F L1 Hu L2 L3) as (p' & x' & sl' & T2 & P2 & E2 & W2).
      destruct (slot_here s hs cs fs c num sls sl' B Hs (nth_error_In _ _ P2)) as (_ & I2 & _).
      assert (p' = p). { apply (slots_same s c num sls p' p sl' sl Hs P2 P1). rewrite E1 in I1. rewrite E2 in I2. congruence. } subst p'. eauto. }
    assert (Le := slot_limit s hs cs fs c num sls sl B Hs Hsl). rewrite E1 in Le. destruct (G p sl P1) as [G1 _].
    assert (Cnt : length ks <= length (of_slot p tags)); [|lia].
    unfold of_slot. rewrite map_length. clearbody ks. clear -ND Al. revert ks ND Al. induction tags as [|[p0 x0] l IH]; intros ks ND Al.
    - destruct ks as [|k ks]; [simpl; lia|]. destruct (Al k (or_introl eq_refl)) as (y & Hy). destruct k; discriminate.
    - set (rest := map pred (filter (fun k => negb (Nat.eqb k 0)) ks)).
      assert (Hr : length rest <= length (filter (fun px => Nat.eqb (fst px) p) l)).
      { apply IH.
        - unfold rest. assert (Q : NoDup (filter (fun k => negb (Nat.eqb k 0)) ks)) by (apply NoDup_filter; exact ND).
          assert (Pos : forall k, In k (filter (fun k => negb (Nat.eqb k 0)) ks) -> k <> 0).
          { intros k Hk. apply filter_In in Hk. destruct Hk as [_ Hk]. apply negb_true_iff, Nat.eqb_neq in Hk. exact Hk. }
          revert Q Pos. generalize (filter (fun k => negb (Nat.eqb k 0)) ks). clear. intros m Q. induction Q as [|k m N1 N2 IH]; intros Pos; simpl; constructor.
          + intros K. apply in_map_iff in K. destruct K as (k' & K1 & K2). assert (k <> 0) by (apply Pos; simpl; auto). assert (k' <> 0) by (apply Pos; simpl; auto).
            assert (k' = k) by lia. subst. auto.
          + apply IH. intros j Hj. apply Pos. simpl. auto.
        - intros k Hk. unfold rest in Hk. apply in_map_iff in Hk. destruct Hk as (k' & <- & Hk'). apply filter_In in Hk'. destruct Hk' as [Hk' Hz].
          apply negb_true_iff, Nat.eqb_neq in Hz. destruct (Al k' Hk') as (y & Hy). destruct k' as [|k']; [lia|]. exists y. exact Hy. }
      unfold rest in Hr. rewrite map_length in Hr. cbn [filter fst].
      assert (Sp : length ks = length (filter (fun k => negb (Nat.eqb k 0)) ks) + length (filter (fun k => Nat.eqb k 0) ks)).
      { clear. induction ks as [|k ks IH]; [reflexivity|]. simpl. destruct (Nat.eqb k 0); simpl; lia. }
      destruct (filter (fun k => Nat.eqb k 0) ks) as [|z zs] eqn:Ez.
      + simpl in Sp. destruct (Nat.eqb p0 p); simpl; lia.
      + assert (Hz : In z (filter (fun k => Nat.eqb k 0) ks)) by (rewrite Ez; simpl; auto). apply filter_In in Hz. destruct Hz as [Hz1 Hz2].
        apply Nat.eqb_eq in Hz2. subst z. destruct (Al 0 Hz1) as (y & Hy). simpl in Hy. injection Hy as -> ->. rewrite Nat.eqb_refl.
        assert (zs = []).
        { assert (Q : NoDup (0 :: zs)) by (rewrite <- Ez; apply NoDup_filter; exact ND). destruct zs as [|z' zs]; [reflexivity|]. exfalso.
          assert (Hz' : In z' (filter (fun k => Nat.eqb k 0) ks)) by (rewrite Ez; simpl; auto). apply filter_In in Hz'. destruct Hz' as [_ Hz'].
          apply Nat.eqb_eq in Hz'. subst z'. inversion Q as [|? ? N1 _]; subst. apply N1. simpl. auto. }
        subst zs. simpl in *. lia.
  Qed.

  (** the neighbourhoods of integers and floats find the requested neighbours (see C43, C62) *)
  Definition answers (s : space) (hs : list hp) (c : config) (num : nat) (o : oracle) : Prop :=
    forall h n g, In h hs -> vget (index_of s) (c_vector c) (hp_name h) <> NaN ->
      (match hp_kind h with
       | KInt lo hi _ _ => n = Nat.min num (Z.to_nat (hi - lo))
       | KFloat _ _ _ _ => n = num * 5
       | _ => False
       end) ->
      exists l, neighbors_vectorized h (vget (index_of s) (c_vector c) (hp_name h)) n None (o_rng o g) = Ok l /\ l <> [].

  Lemma slots_exist s hs cs fs c d num : built s hs cs fs -> represents s hs c d -> shows s hs c d -> 0 < num ->
    exists sls, slots_of s c num 0 (d_nodes (s_dag s)) = Ok sls /\ forall sl, In sl sls -> sl_left sl <> 0.
  Proof.
    intros B Rep Sh Hn. assert (O := built_ok _ _ _ _ B).
    assert (G : forall h a u sq, hp_kind h = KOrd sq -> hp_size h <> Some 1%Z -> legal_value h u = true -> py_eqb a u = true ->
      exists m, get_num_neighbors h (Some a) = Ok (Some (Z.of_nat m)) /\ m <> 0).
    { intros h a u sq K Sz Lu Q. unfold hp_size in Sz. rewrite K in Sz. unfold legal_value in Lu. rewrite K in Lu. unfold get_num_neighbors. rewrite K.
      destruct (Z.eqb_spec (Z.of_nat (length sq)) 1) as [E1|_]; [exfalso; apply Sz; rewrite E1; reflexivity|].
      apply py_in_index in Lu. destruct Lu as (i & Hi). rewrite <- (py_index_congr a u sq Q) in Hi. rewrite Hi.
      destruct ((Z.of_nat i =? 0) || (Z.of_nat i =? Z.of_nat (length sq) - 1))%Z%bool; [exists 1|exists 2]; split; try reflexivity; lia. }
    assert (Sp : forall j name n, nth_error (d_nodes (s_dag s)) j = Some (name, n) ->
      exists o0, slot_of s c num j name (n_hp n) = Ok o0 /\ forall sl, o0 = Some sl -> sl_left sl <> 0).
    { intros j name n Hj.
      assert (Hk : nth_error (keys s) j = Some name) by (unfold keys; rewrite nth_error_map, Hj; reflexivity).
      assert (Hg : get_hp s name = Some (n_hp n)) by (rewrite <- (so_hp_at_name O j name Hk), (so_hp_at O), Hj; reflexivity).
      apply (so_get_hp O) in Hg. destruct Hg as [Hh Hnm]. set (h := n_hp n) in *. assert (C := so_constructed O h Hh).
      apply (so_index O) in Hk. assert (Vg : vget (index_of s) (c_vector c) (hp_name h) = nth j (c_vector c) NaN) by (unfold vget; rewrite Hnm, Hk; reflexivity).
      assert (R := proj2 Rep h Hh). rewrite Vg in R. assert (W := constructed_wf _ C). unfold wf_hp in W. unfold slot_of.
      destruct (match hp_size h with Some 1%Z => true | _ => false end || isnan (nth j (c_vector c) NaN))%bool eqn:Eb.
      { exists None. split; [reflexivity|discriminate]. }
      apply orb_false_iff in Eb. destruct Eb as [Eb1 Eb2]. assert (Sz : hp_size h <> Some 1%Z) by (intros Q; rewrite Q in Eb1; discriminate).
      destruct (d (hp_name h)) as [u|] eqn:Eu; [|rewrite R in Eb2; discriminate]. destruct R as [Lu _].
      destruct (hp_kind h) as [ch ws|sq|v|lo hi log dd|lo hi log dd] eqn:K.
      - unfold hp_size in *. rewrite K in *. eexists. split; [reflexivity|]. intros sl Q. injection Q as <-. cbn [sl_left].
        destruct ch as [|a [|b ch]].
        + unfold legal_value in Lu. rewrite K in Lu. discriminate.
        + exfalso. apply Sz. reflexivity.
        + rewrite Z2Nat.inj_sub by lia. rewrite Nat2Z.id. simpl. lia.
      - destruct (Sh h u Hh Eu) as (a & A1 & A2). unfold round_value in A2. rewrite K in A2. destruct (G h a u sq K Sz Lu A2) as (m & M1 & M2).
        rewrite <- Hnm, A1. cbn [bind]. rewrite M1. cbn [bind]. eexists. split; [reflexivity|]. intros sl Q. injection Q as <-. cbn [sl_left]. rewrite Nat2Z.id. exact M2.
      - exfalso. apply Sz. unfold hp_size. rewrite K. reflexivity.
      - unfold hp_size in *. rewrite K in *. eexists. split; [reflexivity|]. intros sl Q. injection Q as <-. cbn [sl_left]. lia.
      - unfold hp_size in *. rewrite K in *. eexists. split; [reflexivity|]. intros sl Q. injection Q as <-. cbn [sl_left]. lia. }
    destruct (slots_total s c num (d_nodes (s_dag s)) 0) as (sls & Hs).
    { intros j name n Hj. destruct (Sp j name n Hj) as (o0 & H & _). exists o0. exact H. }
    exists sls. split; [exact Hs|]. intros sl Hsl. destruct (slots_In _ _ _ _ _ _ Hs sl Hsl) as (j & name & n & Hj & So).
    cbn [Nat.add] in So. destruct (Sp j name n Hj) as (o0 & H & K). apply K. congruence.
  Qed.

  (** Under these assumptions the generator ends without an exception. *)
  Theorem C64_normal s hs cs fs c d num o : tame s hs cs fs -> orderly cs ->
    represents s hs c d -> shows s hs c d -> valid hs cs fs d -> exact_all hs d -> oracle_ok o -> steady num hs ->
    0 < num -> answers s hs c num o -> fair o (length (filter (changeable s c) hs)) ->
    exists fuel out, forall k, get_one_exchange_neighbourhood (fuel + k) s c num o = (out, Ok tt).
  Proof.
    intros T Or Rep Sh V Ex Ok_ St Hn An Fr. assert (B := tm_built _ _ _ _ T). assert (O := built_ok _ _ _ _ B).
    destruct (C64_ends s hs cs fs c num o B Fr) as (fuel & out & r & Hr & Run). exists fuel, out.
    assert (r = Ok tt); [|subst r; exact Run].
    destruct (slots_exist s hs cs fs c d num B Rep Sh Hn) as (sls & Hs & Hl).
    specialize (Run 0). unfold get_one_exchange_neighbourhood in Run. rewrite Hs in Run.
    assert (Ef : forallb (fun sl => negb (Nat.eqb (sl_left sl) 0)) sls = true).
    { apply forallb_forall. intros sl Hsl. apply negb_true_iff, Nat.eqb_neq. apply Hl. exact Hsl. }
    rewrite Ef in Run. rewrite <- (slots_len s hs cs fs c num sls B Hs) in Fr.
    destruct (loop_normal s (c_vector c) o (proj1 Ok_) (fuel + 0) sls (length sls) 0 0 (proj1 Fr)) with (cs := out) (r := r) as [Q|Q];
      [| |exact Run|exact Q|congruence].
    - intros sl Hsl. destruct (slot_here s hs cs fs c num sls sl B Hs Hsl) as (Hh & Hi & So). set (h := sl_hp sl) in *.
      assert (C := so_constructed O h Hh). destruct (slot_of_spec _ _ _ _ _ _ _ So) as (_ & _ & _ & _ & Nn & Sz & Kd).
      assert (En : exists q u, d (hp_name h) = Some u /\ nth (sl_idx sl) (c_vector c) NaN = Fin q /\ entry_of h u (Fin q)).
      { assert (R := proj2 Rep h Hh). unfold vget in R. rewrite Hi in R. destruct (d (hp_name h)) as [u|] eqn:Hu; [|rewrite R in Nn; discriminate].
        destruct R as (Lu & y & Ty & Fy). destruct (legal_finite h u C Lu) as (q0 & Q0). assert (y = Fin q0) by congruence. subst y.
        destruct (nth (sl_idx sl) (c_vector c) NaN) as [q| | |]; try contradiction. exists q, u. split; [reflexivity|]. split; [reflexivity|].
        split; [exact Lu|]. split; [apply (Ex h u Hh Hu)|]. exists (Fin q0). auto. }
      destruct En as (q & u & Hu & Hq & En). assert (Vg : vget (index_of s) (c_vector c) (hp_name h) = Fin q) by (unfold vget; rewrite Hi; exact Hq).
      split.
      + intros g. exists q. fold h.
        assert (Num : forall n, sl_sample sl = n -> match hp_kind h with KInt lo hi _ _ => n = Nat.min num (Z.to_nat (hi - lo)) | KFloat _ _ _ _ => n = num * 5 | _ => False end ->
          exists l, nth (sl_idx sl) (c_vector c) NaN = Fin q /\ neighborhood h q (sl_sample sl) (o_rng o g) = Ok l /\ l <> []).
        { intros n En1 En2. destruct (An h n g Hh) as (l & L1 & L2); [rewrite Vg; discriminate|exact En2|]. rewrite Vg in L1.
          destruct (nb_vectorized_inv _ _ _ _ _ L1) as (l0 & L3 & ->). exists l0. split; [exact Hq|]. split; [congruence|]. intros ->. apply L2. reflexivity. }
        destruct (hp_kind h) as [ch ws|sq|v|lo hi log dd|lo hi log dd] eqn:K.
        * destruct Kd as (K1 & K2 & K3 & K4). destruct (all_cat h ch ws u q C K En) as (N & A1 & A2 & A3 & A4).
          exists (cat_neighborhood (Z.of_nat (length ch)) q (sl_sample sl) (o_rng o g)). split; [exact Hq|].
          assert (Nb : neighborhood h q (sl_sample sl) (o_rng o g) = Ok (cat_neighborhood (Z.of_nat (length ch)) q (sl_sample sl) (o_rng o g))) by (unfold neighborhood; rewrite K; reflexivity).
          split; [exact Nb|]. rewrite K2 in *. specialize (A1 _ _ (proj2 Ok_ g) Nb). apply Permutation_length in A1. intros Q. rewrite Q in A1. simpl in A1.
          apply (Hl sl Hsl). lia.
        * destruct Kd as (a & m & Ka & Km & K1 & K2 & K3 & K4). destruct (Sh h u Hh Hu) as (z & Z1 & Z2).
          assert (z = a) by congruence. subst z. unfold round_value in Z2. rewrite K in Z2.
          destruct (all_ord h sq u q a m C K En Z2 Km Sz) as (N & A1 & A2 & A3 & A4).
          destruct (entry_index h sq u q C (LV_ord h sq K) En) as (i & v & V1 & V2 & V3).
          destruct (C45_ordinal_partial h sq i (Fin q) m None (o_rng o g) v C K V1 V3 I) as (l & js & N1 & _).
          destruct (nb_vectorized_inv _ _ _ _ _ N1) as (l0 & L0 & ->). exists l0. split; [exact Hq|]. rewrite K2. split; [exact L0|].
          specialize (A1 _ _ (proj2 Ok_ g) L0). apply Permutation_length in A1. intros ->. simpl in A1. apply (Hl sl Hsl). lia.
        * exfalso. apply Sz. unfold hp_size. rewrite K. reflexivity.
        * apply (Num _ eq_refl). tauto.
        * apply (Num _ eq_refl). tauto.
      + intros x Px. destruct (proposed_entry s hs cs fs c d num o sls sl x B Rep Ex Ok_ St Hs Hsl Px) as (u1 & w & Hu1 & Ew & _).
        destruct (moved_means s hs cs fs c d num sls sl x w T Or Rep V Ex Hs Hsl) as (cfg & d2 & C1 & _ & _ & _ & C5 & _); [congruence|exact Ew|].
        split; [exact C5|]. exists cfg. exact C1.
    - intros sl x Hsl Hx. destruct (slot_here s hs cs fs c num sls sl B Hs Hsl) as (_ & _ & So).
      destruct (slot_of_spec _ _ _ _ _ _ _ So) as (_ & _ & Hnb & _). rewrite Hnb in Hx. destruct Hx.
  Qed.

  (** A configuration made from a vector shows what it represents. *)
  Lemma shows_vector s hs cs fs v allow d c : built s hs cs fs -> config_of_vector s v allow = Ok c -> represents s hs c d -> exact_all hs d ->
    shows s hs c d.
  Proof.
    intros B Hc Rep Ex h u Hh Hu. assert (O := built_ok _ _ _ _ B). unfold config_of_vector in Hc.
    destruct (Nat.eqb (length v) (s_len s)); [|discriminate]. injection Hc as <-.
    assert (R := read_vector O v d allow h Hh (represents_encodes _ d Rep h Hh)). rewrite Hu in R. apply R. apply (Ex h u Hh Hu).
  Qed.

  (** ... and so does one made from values. *)
  Lemma shows_values s hs cs fs vals allow d c : built s hs cs fs -> config_of_values s vals allow = Ok c -> stored hs (given vals) d ->
    shows s hs c d.
  Proof.
    intros B Hc St h u Hh Hu. destruct (C18_reads s hs cs fs vals allow c B Hc) as (R & _). rewrite (St h Hh) in Hu.
    destruct (given vals (hp_name h)) as [w|] eqn:Ew; [|discriminate]. simpl in Hu. injection Hu as <-. exists (round_value h w).
    split; [apply R; assumption|]. rewrite py_eqb_sym. apply round_idem.
  Qed.
End Exchange.

Section Witness.
  #[local] Existing Instance rat_env.

  (** ** A space with clauses that mention the conditions of what they mention *)
  Definition fA' := get_or dummy_forb (mk_feq hA (VStr "x")).
  Definition fAG := get_or dummy_forb (mk_fand [fA'; fG]).
  Definition xch_forbs : list fclause := [fAnd1; fRel; fAnd2; fAnd3; fAG].
  Definition xch_space := fst (add empty_space ex_hps lev_conds xch_forbs).
  Lemma xch_built : built xch_space ex_hps lev_conds xch_forbs.
  Proof.
    apply (built_step empty_space [] [] [] ex_hps lev_conds xch_forbs built_empty ex_hps_c); [| |vm_compute; reflexivity].
    - constructor; [apply cB_c|]. constructor; [apply cCg_c|]. constructor; [apply cE_c|]. constructor; [apply cG_c|constructor].
    - constructor; [apply fAnd1_c|]. constructor; [apply fRel_c|]. constructor; [apply fAnd2_c|]. constructor; [apply fAnd3_c|].
      constructor; [|constructor]. apply (FB_and [fA'; fG] fAG); [|vm_compute; reflexivity]. intros x [<-|[<-|[]]]; [|apply fG_c].
      apply (FB_eq hA (VStr "x") fA' hA_c); vm_compute; reflexivity.
  Qed.
  Lemma xch_tame : tame xch_space ex_hps lev_conds xch_forbs.
  Proof.
    constructor; [apply xch_built| |apply lev_tame|apply lev_tame|].
    - split; [apply lev_refs|]. intros f Hf h Hh. vm_compute in Hf.
      repeat (destruct Hf as [<-|Hf]; [vm_compute in Hh; repeat (destruct Hh as [<-|Hh]; [vm_compute; tauto|]); tauto|]). tauto.
    - intros f Hf r a b Hr Hne. destruct Hf as [<-|[<-|[<-|[<-|[<-|[]]]]]]; vm_compute in Hr;
        repeat (destruct Hr as [Hr|Hr]; [try (exfalso; clear -Hr; discriminate Hr)|]); try (destruct Hr; fail).
      inversion Hr; subst. split; vm_compute; exact I.
  Qed.
  Lemma xch_closed : closed_clauses lev_conds xch_forbs.
  Proof.
    assert (G : forall p n, clos_trans _ (reads lev_conds) p n -> In n ["a"; "n"; "k"; "g"]%string -> p = "a"%string /\ n = "g"%string).
    { intros p n H. induction H as [p n H|p m n H1 IH1 H2 IH2]; intros Hn.
      - apply lev_reads in H. simpl in Hn. destruct H as [[-> ->]|[[-> ->]|[[-> ->]|[[-> ->]|[[-> ->]|[-> ->]]]]]]; try tauto;
          exfalso; repeat (destruct Hn as [Hn|Hn]; [discriminate Hn|]); destruct Hn.
      - destruct (IH2 Hn) as [-> ->]. destruct IH1 as [_ K]; [simpl; auto|]. discriminate K. }
    intros f p n Hf Hn H. assert (K : In n ["a"; "n"; "k"; "g"]%string).
    { destruct Hf as [<-|[<-|[<-|[<-|[<-|[]]]]]]; vm_compute in Hn; simpl; tauto. }
    destruct (G p n H K) as [-> ->]. clear H K. destruct Hf as [<-|[<-|[<-|[<-|[<-|[]]]]]]; vm_compute in Hn |- *; [| | | |tauto];
      repeat (destruct Hn as [Hn|Hn]; [discriminate Hn|]); destruct Hn.
  Qed.

  Definition xch_d : assignment := store ex_hps (given ex_vals).
  Definition xch_config := get_or (mk_config [] None false) (config_of_values xch_space ex_vals false).
  Lemma xch_ok : config_of_values xch_space ex_vals false = Ok xch_config.
  Proof. vm_compute. reflexivity. Qed.
  (** indices in turn, floats i / 97, shuffling reverses *)
  Definition xch_oracle : oracle :=
    {| o_pick := fun t => Nat.modulo t 8;
       o_rng := fun _ => {| nr_cands := [map (fun i => inject_Z (Z.of_nat i) / 97)%Q (seq 1 90)]; nr_shuffle := @rev Z; nr_second := false |};
       o_shuf := fun _ l => rev l |}.
  Lemma xch_oracle_ok : oracle_ok xch_oracle.
  Proof. split; [intros g l; apply Permutation_rev|intros g l; apply Permutation_rev]. Qed.
  Lemma mod_fair o n : n <> 0 -> (forall t, o_pick o t = Nat.modulo t n) -> fair o n.
  Proof.
    intros Hn H. split; [intros t; rewrite H; apply Nat.mod_upper_bound; exact Hn|]. intros p t Hp. exists (p + t * n). split; [nia|].
    rewrite H, Nat.mod_add by exact Hn. apply Nat.mod_small. exact Hp.
  Qed.

  Lemma xch_start : represents xch_space ex_hps xch_config xch_d /\ shows xch_space ex_hps xch_config xch_d /\
    valid ex_hps lev_conds xch_forbs xch_d /\ exact_all ex_hps xch_d.
  Proof.
    assert (LA := rat_env_laws). assert (St := store_stored ex_hps (given ex_vals) Properties_Config.ex_nodup).
    split; [exact (C20_start _ _ _ _ _ _ _ _ xch_built St xch_ok)|]. split; [|split; [|exact (stored_exact _ _ _ St ex_exact)]].
    - exact (shows_values _ _ _ _ _ _ _ _ xch_built xch_ok St).
    - apply (C17_accepts_valid_partial xch_space ex_hps lev_conds xch_forbs ex_vals _ xch_tame St ex_exact). exists xch_config. exact xch_ok.
  Qed.
  Lemma xch_steady num : steady num ex_hps.
  Proof. intros h lo hi log dd Hh K. repeat (destruct Hh as [<-|Hh]; [vm_compute in K; try discriminate K; injection K as <- <- <- <-; left; reflexivity|]). destruct Hh. Qed.
  Lemma xch_fresh : fresh xch_space ex_hps xch_config xch_oracle.
  Proof.
    intros h g cand q Hh (lo & hi & log & dd & K) Hc Hq F.
    assert (h = hB) by (repeat (destruct Hh as [<-|Hh]; [vm_compute in K; try discriminate K; reflexivity|]); destruct Hh). subst h.
    destruct Hc as [<-|[]]. 
    assert (G : forallb (fun q => match vget (index_of xch_space) (c_vector xch_config) "b" with Fin y => negb (Qeq_bool q y) | _ => false end)
      (map (fun i => inject_Z (Z.of_nat i) / 97)%Q (seq 1 90)) = true) by (vm_compute; reflexivity).
    rewrite forallb_forall in G. specialize (G q Hq). change (hp_name hB) with "b"%string in F.
    destruct (vget (index_of xch_space) (c_vector xch_config) "b") as [y| | |]; try discriminate G. apply negb_true_iff in G.
    apply Qeq_bool_neq in G. apply G. exact F.
  Qed.
  Lemma xch_answers : answers xch_space ex_hps xch_config 16 xch_oracle.
  Proof.
    intros h n g Hh _ Hn. change (o_rng xch_oracle g) with (o_rng xch_oracle 0). clear g.
    repeat (destruct Hh as [<-|Hh]; [vm_compute in Hn; first [destruct Hn; fail|subst n; eexists; split; [vm_compute; reflexivity|discriminate]]|]). destruct Hh.
  Qed.

  Definition xch_run := get_one_exchange_neighbourhood 200 xch_space xch_config 16 xch_oracle.
  Definition differs (n : string) (c : config) : bool :=
    match reading xch_space c n, reading xch_space xch_config n with Some a, Some b => negb (py_eqb a b) | _, _ => false end.
  (** the hypotheses of the theorems, and a run: two other values of a, sixteen of the float b, four
      of c, none of g (because of a clause) and e, five of k and six of n (because of the clause
      n < k), fifteen of l, one of o *)
  Example C25_ex : tame xch_space ex_hps lev_conds xch_forbs /\ orderly lev_conds /\ closed_clauses lev_conds xch_forbs /\
    represents xch_space ex_hps xch_config xch_d /\ valid ex_hps lev_conds xch_forbs xch_d /\ exact_all ex_hps xch_d /\
    oracle_ok xch_oracle /\ steady 16 ex_hps /\ fresh xch_space ex_hps xch_config xch_oracle /\
    snd xch_run = Ok tt /\
    map (fun n => length (filter (differs n) (fst xch_run))) ["a"; "b"; "c"; "e"; "g"; "k"; "l"; "n"; "o"]%string =
      [2; 16; 4; 0; 0; 5; 15; 6; 1].
  Proof.
    split; [exact xch_tame|]. split; [exact lev_orderly|]. split; [exact xch_closed|]. split; [apply xch_start|]. split; [apply xch_start|].
    split; [apply xch_start|]. split; [exact xch_oracle_ok|]. split; [apply xch_steady|]. split; [exact xch_fresh|].
    split; vm_compute; reflexivity.
  Qed.
  Example C64_ex : shows xch_space ex_hps xch_config xch_d /\ answers xch_space ex_hps xch_config 16 xch_oracle /\
    fair xch_oracle (length (filter (changeable xch_space xch_config) ex_hps)) /\
    map (limit 16) [hA; hB; hO] = [2; 16; 2].
  Proof.
    split; [apply xch_start|]. split; [exact xch_answers|]. split; [|reflexivity].
    apply mod_fair; [vm_compute; discriminate|]. intros t. reflexivity.
  Qed.
  (** a = z is a neighbour of a = x; b, c and g become inactive *)
  Definition xch_new : assignment := given [("a", Some (VStr "z")); ("k", Some (VInt 4)); ("l", Some (VInt 2)); ("n", Some (VInt 6));
     ("o", Some (VStr "hi")); ("e", Some (VStr "on"))]%string.
  Example C65_ex : listed 16 hA /\ listed 16 hO /\ listed 16 hL /\ neighbour hA (VStr "x") (VStr "z") /\
    neighbour hO (VStr "hi") (VStr "mid") /\ neighbour hL (VInt 2) (VInt 16) /\
    updated ex_hps lev_conds xch_d "a" (VStr "z") xch_new /\
    (forall f, In f xch_forbs -> In "a"%string (forb_names f) -> ~ violated xch_new f) /\
    exists cfg, nth_error (fst xch_run) 0 = Some cfg /\ reading xch_space cfg "a"%string = Some (VStr "z") /\ reading xch_space cfg "g"%string = None.
  Proof.
    split; [exact I|]. split; [exact I|]. split; [vm_compute; split; [reflexivity|split; reflexivity]|].
    split; [split; reflexivity|].
    split; [exists 2, 1, (VStr "hi"), (VStr "mid"); repeat split; right; reflexivity|].
    split; [split; [reflexivity|split; [apply exact_int|reflexivity]]|].
    split; [|split].
    - split; [reflexivity|]. intros h Hh Hk.
      assert (Off : forall c n, In c lev_conds -> activates c n -> ~ holds xch_new c -> ~ active lev_conds xch_new n) by (intros c n H1 H2 H3 A; apply H3; apply (A c H1 H2)).
      assert (Root : forall n, (forall c, In c lev_conds -> ~ activates c n) -> active lev_conds xch_new n) by (intros n H c H1 H2; exfalso; apply (H c H1 H2)).
      destruct Hh as [<-|[<-|[<-|[<-|[<-|[<-|[<-|[<-|[<-|[]]]]]]]]]].
      + split; [|reflexivity]. intros A. exfalso. apply (Off cCg "c"%string); [vm_compute; tauto|vm_compute; reflexivity| |exact A].
        intros H. vm_compute in H. destruct H as ((w & Hw & _) & _). discriminate Hw.
      + split; [|reflexivity]. intros A. exfalso. apply (Off cB "b"%string); [vm_compute; tauto|vm_compute; reflexivity| |exact A].
        intros H. vm_compute in H. destruct H as (w & Hw & H). injection Hw as <-. discriminate H.
      + exfalso. apply Hk. reflexivity.
      + split; [reflexivity|]. intros A. exfalso. apply A. apply Root. intros c [<-|[<-|[<-|[<-|[]]]]] K; vm_compute in K; discriminate K.
      + split; [reflexivity|]. intros A. exfalso. apply A. intros c Hc Ha.
        destruct Hc as [<-|[<-|[<-|[<-|[]]]]]; vm_compute in Ha; try discriminate Ha.
        assert (K : holds xch_new cE2).
        { exists (VStr "hi"). split; [reflexivity|]. exists 0, 2, (VStr "lo"), (VStr "hi"). repeat split; vm_compute; lia. }
        revert K. vm_compute. tauto.
      + split; [reflexivity|]. intros A. exfalso. apply A. apply Root. intros c [<-|[<-|[<-|[<-|[]]]]] K; vm_compute in K; discriminate K.
      + split; [|reflexivity]. intros A. exfalso. apply (Off cG "g"%string); [vm_compute; tauto|vm_compute; reflexivity| |exact A].
        intros H. vm_compute in H. destruct H as (w & Hw & H). injection Hw as <-. discriminate H.
      + split; [reflexivity|]. intros A. exfalso. apply A. apply Root. intros c [<-|[<-|[<-|[<-|[]]]]] K; vm_compute in K; discriminate K.
      + split; [reflexivity|]. intros A. exfalso. apply A. apply Root. intros c [<-|[<-|[<-|[<-|[]]]]] K; vm_compute in K; discriminate K.
    - intros f Hf Hn Hv. destruct Hf as [<-|[<-|[<-|[<-|[<-|[]]]]]]; vm_compute in Hv.
      + destruct Hv as ((w & Hw & H) & _). injection Hw as <-. discriminate H.
      + vm_compute in Hn. repeat (destruct Hn as [Hn|Hn]; [discriminate Hn|]). destruct Hn.
      + destruct Hv as ((w & Hw & H) & _). injection Hw as <-. discriminate H.
      + vm_compute in Hn. repeat (destruct Hn as [Hn|Hn]; [discriminate Hn|]). destruct Hn.
      + destruct Hv as ((w & Hw & H) & _). injection Hw as <-. discriminate H.
    - eexists. split; [vm_compute; reflexivity|]. split; vm_compute; reflexivity.
  Qed.

  (** ** C25 is false: the clause mentions only y, which becomes active when x changes *)
  Definition wX := get_or dummy_hp (mk_categorical "x" (xs ["0"; "1"]%string) (Some (VStr "0")) None None).
  Definition wY := bin "y".
  Definition wYX := get_or dummy_cond (mk_bin OpEq wY wX (VStr "1")).
  Definition wF := get_or dummy_forb (mk_feq wY (VStr "1")).
  Definition w_space := fst (add empty_space [wX; wY] [wYX] [wF]).
  Lemma wX_c : constructed wX.
  Proof. apply (CtorCat "x" (xs ["0"; "1"]%string) (Some (VStr "0")) None None wX). reflexivity. Qed.
  Lemma w_built : built w_space [wX; wY] [wYX] [wF].
  Proof.
    apply (built_step empty_space [] [] [] [wX; wY] [wYX] [wF] built_empty); [| | |vm_compute; reflexivity].
    - constructor; [apply wX_c|]. constructor; [apply bin_c|constructor].
    - constructor; [|constructor]. apply (CB_bin OpEq wY wX (VStr "1") wYX (bin_c _) wX_c); vm_compute; reflexivity.
    - constructor; [|constructor]. apply (FB_eq wY (VStr "1") wF (bin_c _)); vm_compute; reflexivity.
  Qed.
  Lemma w_tame : tame w_space [wX; wY] [wYX] [wF].
  Proof.
    constructor; [apply w_built| | | |].
    - split.
      + intros c [<-|[]] l Hl. vm_compute in Hl. destruct Hl as [<-|[]]. split; vm_compute; tauto.
      + intros f [<-|[]] h Hh. vm_compute in Hh. destruct Hh as [<-|[]]. vm_compute. tauto.
    - intros c d v [<-|[]] [<-|[]] H. reflexivity.
    - intros c l w vv [<-|[]] Hl Ht. vm_compute in Hl. destruct Hl as [<-|[]]. exfalso. clear -Ht. vm_compute in Ht. discriminate Ht.
    - intros f [<-|[]] r a b Hr. vm_compute in Hr. destruct Hr as [Hr|[]]. discriminate Hr.
  Qed.
  Lemma w_orderly : orderly [wYX].
  Proof.
    assert (LA := rat_env_laws). apply (C20_guard_single w_space [wX; wY] [wYX] [wF] w_built (tm_refs _ _ _ _ w_tame)).
    intros c p p' [<-|[]] Hp Hp'. vm_compute in Hp, Hp'. destruct Hp as [<-|[]], Hp' as [<-|[]]. reflexivity.
  Qed.
  Definition w_vals : list (string * option value) := [("x"%string, Some (VStr "0"))].
  Definition w_config := get_or (mk_config [] None false) (config_of_values w_space w_vals false).
  Lemma w_ok : config_of_values w_space w_vals false = Ok w_config.
  Proof. vm_compute. reflexivity. Qed.
  Definition w_oracle : oracle :=
    {| o_pick := fun t => 0; o_rng := fun _ => {| nr_cands := []; nr_shuffle := fun l => l; nr_second := false |}; o_shuf := fun _ l => l |}.
  Theorem C25_refuted : exists s hs cs fs c d num o fuel out cfg, tame s hs cs fs /\ orderly cs /\ represents s hs c d /\
    valid hs cs fs d /\ exact_all hs d /\ oracle_ok o /\ steady num hs /\
    get_one_exchange_neighbourhood fuel s c num o = (out, Ok tt) /\ In cfg out /\
    check_configuration s (c_vector cfg) false = Err ForbiddenValueError.
  Proof.
    assert (LA := rat_env_laws). assert (ND : NoDup (map hp_name [wX; wY])) by exact (so_names_nodup (built_ok _ _ _ _ w_built)).
    assert (St := store_stored [wX; wY] (given w_vals) ND).
    assert (Ex : forall d, exact_all [wX; wY] d) by (intros d h w [<-|[<-|[]]] _; exact I).
    exists w_space, [wX; wY], [wYX], [wF], w_config, (store [wX; wY] (given w_vals)), 4, w_oracle, 3.
    destruct (get_one_exchange_neighbourhood 3 w_space w_config 4 w_oracle) as [out r] eqn:Er. vm_compute in Er. injection Er as <- <-.
    eexists. eexists. split; [exact w_tame|]. split; [exact w_orderly|]. split; [exact (C20_start _ _ _ _ _ _ _ _ w_built St w_ok)|].
    split; [apply (C17_accepts_valid_partial w_space [wX; wY] [wYX] [wF] w_vals _ w_tame St (Ex _)); exists w_config; exact w_ok|].
    split; [apply Ex|]. split; [split; intros g l; reflexivity|].
    split; [intros h lo hi log dd [<-|[<-|[]]] K; vm_compute in K; discriminate K|]. split; [reflexivity|]. split; [left; reflexivity|]. vm_compute. reflexivity.
  Qed.

  (** ** C65: an integer with more values than requested may be yielded twice, if a clause is in the way *)
  Definition wK := get_or dummy_hp (mk_uniform_int "k" 0 3 (Some 0%Q) false None).
  Definition wK3 := get_or dummy_forb (mk_feq wK (VInt 3)).
  Definition k_space := fst (add empty_space [wK] [] [wK3]).
  Lemma wK_c : constructed wK.
  Proof. apply (CtorUInt "k" 0 3 (Some 0%Q) false None wK). reflexivity. Qed.
  Lemma k_built : built k_space [wK] [] [wK3].
  Proof.
    apply (built_step empty_space [] [] [] [wK] [] [wK3] built_empty); [| | |vm_compute; reflexivity].
    - constructor; [apply wK_c|constructor].
    - constructor.
    - constructor; [|constructor]. apply (FB_eq wK (VInt 3) wK3 wK_c); vm_compute; reflexivity.
  Qed.
  Lemma k_tame : tame k_space [wK] [] [wK3].
  Proof.
    constructor; [apply k_built| | | |].
    - split; [intros c []|]. intros f [<-|[]] h Hh. vm_compute in Hh. destruct Hh as [<-|[]]. vm_compute. tauto.
    - intros c d v [].
    - intros c l w vv [].
    - intros f [<-|[]] r a b Hr. vm_compute in Hr. destruct Hr as [Hr|[]]. discriminate Hr.
  Qed.
  Definition k_vals : list (string * option value) := [("k"%string, Some (VInt 0))].
  Definition k_config := get_or (mk_config [] None false) (config_of_values k_space k_vals false).
  Lemma k_ok : config_of_values k_space k_vals false = Ok k_config.
  Proof. vm_compute. reflexivity. Qed.
  Definition k_oracle : oracle :=
    {| o_pick := fun t => 0; o_rng := fun _ => {| nr_cands := [[1#3; 1%Q]]; nr_shuffle := fun l => l; nr_second := false |}; o_shuf := fun _ l => l |}.
  Theorem C65_refuted : exists s hs cs fs c d num o fuel cfg1 cfg2 h u w d1 d2, tame s hs cs fs /\ orderly cs /\ represents s hs c d /\
    shows s hs c d /\ valid hs cs fs d /\ exact_all hs d /\ oracle_ok o /\ steady num hs /\ d (hp_name h) = Some u /\
    get_one_exchange_neighbourhood fuel s c num o = ([cfg1; cfg2], Ok tt) /\
    exchanged s hs cs fs d cfg1 h w d1 /\ exchanged s hs cs fs d cfg2 h w d2 /\ py_eqb w u = false.
  Proof.
    assert (LA := rat_env_laws). assert (ND : NoDup (map hp_name [wK])) by exact (so_names_nodup (built_ok _ _ _ _ k_built)).
    assert (St := store_stored [wK] (given k_vals) ND). set (d := store [wK] (given k_vals)) in *.
    assert (Ex : exact_all [wK] (given k_vals)).
    { intros h w [<-|[]] Hw. vm_compute in Hw. injection Hw as <-. apply exact_int. }
    assert (Rep : represents k_space [wK] k_config d) by exact (C20_start _ _ _ _ _ _ _ _ k_built St k_ok).
    assert (V : valid [wK] [] [wK3] d) by (apply (C17_accepts_valid_partial k_space [wK] [] [wK3] k_vals _ k_tame St Ex); exists k_config; exact k_ok).
    assert (Ex' := stored_exact _ _ _ St Ex).
    assert (Or : orderly (@nil cond)) by (constructor; intros c c' p []).
    assert (Ok_ : oracle_ok k_oracle) by (split; intros g l; reflexivity).
    assert (Sd : steady 2 [wK]) by (intros h lo hi log dd [<-|[]] K; vm_compute in K; injection K as <- <- <- <-; left; reflexivity).
    assert (Run : exists cfg, get_one_exchange_neighbourhood 5 k_space k_config 2 k_oracle = ([cfg; cfg], Ok tt) /\ c_vector cfg = [Fin (1#3)]).
    { eexists. split; [vm_compute; reflexivity|]. vm_compute. reflexivity. }
    destruct Run as (cfg & Run & Hv).
    destruct (C25_sound_partial k_space [wK] [] [wK3] k_config d 2 k_oracle 5 [cfg; cfg] (Ok tt) cfg k_tame Or Rep V Ex' Ok_ Sd Run) as (h & u & w & d' & H1 & H2 & H3 & _).
    { left. reflexivity. }
    assert (h = wK) by (destruct (xc_in _ _ _ _ _ _ _ _ _ H2) as [<-|[]]; reflexivity). subst h.
    destruct H3 as [(lo & hi & log & dd & K)|H3]; [vm_compute in K; discriminate K|].
    exists k_space, [wK], [], [wK3], k_config, d, 2, k_oracle, 5, cfg, cfg, wK, u, w, d', d'.
    split; [exact k_tame|]. split; [exact Or|]. split; [exact Rep|]. split; [exact (shows_values _ _ _ _ _ _ _ _ k_built k_ok St)|]. auto 10.
  Qed.
End Witness.
