(** * Property C138: the one-exchange neighbourhood is symmetric *)
From Coq Require Import String List ZArith QArith Bool Lia Permutation Relations.
From Verif Require Import Base ListFacts Numeric HP HPProofs Properties_HP Cond Forb EqFacts Dag DagProofs
  Space CommitProofs Spec SpaceProofs CnodeProofs ForbProofs EvalProofs ForbEval MergeProofs ValidProofs ConfigProofs
  ChangeProofs PassProofs ReadProofs SampleProofs Dist DistProofs Properties_Dist Ex Properties_Eval Properties_Config
  Properties_Change Properties_Sample Util ExchangeProofs Properties_Exchange Properties_Size Properties_Array Properties_Reach Properties_Mass Properties_Chance.
Import ListNotations.
Open Scope nat_scope.

(** the same hyperparameters have values *)
Definition same_shape (hs : list hp) (d d' : assignment) : Prop := forall g, In g hs -> (d (hp_name g) = None <-> d' (hp_name g) = None).

Section Symmetric.
  Context {E : Env} {L : EnvLaws E}.

  Lemma neighbour_sym h u w : legal_value h u = true -> exact_value h u -> neighbour h u w -> neighbour h w u.
  Proof.
    intros Lu Xu. unfold neighbour. destruct (hp_kind h) as [ch ws|sq|v|lo hi log dd|lo hi log dd]; try tauto.
    - intros [_ D]. split; [exact Lu|]. rewrite py_eqb_sym. exact D.
    - intros (i & j & a & b & A1 & A2 & A3 & A4 & A5). exists j, i, b, a. do 4 (split; [assumption|]). unfold adjacent in *. tauto.
    - intros (_ & _ & D). split; [exact Lu|]. split; [exact Xu|]. rewrite py_eqb_sym. exact D.
  Qed.

  (** What is yielded by exchanging a choice, ordinal or integer is a neighbour: of an ordinal, the previous or next value *)
  Theorem C138_neighbour s hs cs fs c d num o fuel out r cfg h u w d' : tame s hs cs fs -> orderly cs ->
    represents s hs c d -> valid hs cs fs d -> exact_all hs d -> oracle_ok o -> steady num hs ->
    get_one_exchange_neighbourhood fuel s c num o = (out, r) -> In cfg out -> d (hp_name h) = Some u ->
    exchanged s hs cs fs d cfg h w d' -> py_eqb w u = false -> listed num h ->
    neighbour h u w /\ exists v, config_of_vector s v false = Ok cfg.
  Proof.
    intros T Or Rep V Ex Ok_ St H Hc Hu X Dw Li. assert (B := tm_built _ _ _ _ T). assert (O := built_ok _ _ _ _ B).
    destruct (run_trace s hs cs fs c num o fuel out r B Ok_ H) as (sls & tags & Hs & _ & F & _); [left; intros ->; destruct Hc|].
    apply In_nth_error in Hc. destruct Hc as (k & Hk).
    destruct (yield_tag s hs cs fs c d num o sls out tags k cfg h u w d' T Or Rep V Ex Ok_ St Hs F Hk Hu X Dw) as (p & x & sl & Ht & Hp & Eh & Ew).
    assert (Mk : made_by s (c_vector c) o sls cfg (p, x)).
    { clear - F Hk Ht. revert k Hk Ht. induction F as [|a b l m P F IH]; intros [|k] Hk Ht; try discriminate; simpl in *.
      - injection Hk as ->. injection Ht as ->. exact P.
      - apply (IH k); assumption. }
    destruct Mk as (sl' & Hp' & P & _ & Hv). cbn [fst snd] in *. assert (sl' = sl) by congruence. subst sl'. split; [|eauto].
    assert (Hh := xc_in _ _ _ _ _ _ _ _ _ X). assert (C := so_constructed O h Hh).
    assert (Hw := proj1 (xc_upd _ _ _ _ _ _ _ _ _ X)). assert (Lw := xc_legal _ _ _ _ _ _ _ _ _ X h w Hh Hw). assert (Xw := xc_exact _ _ _ _ _ _ _ _ _ X h w Hh Hw).
    unfold neighbour. unfold listed in Li. destruct (hp_kind h) as [ch ws|sq|v|lo hi log dd|lo hi log dd] eqn:K; try contradiction.
    - split; [exact Lw|exact Dw].
    - destruct P as (g & q & l & P1 & P2 & P3). apply nth_error_In in Hp.
      destruct (slot_here s hs cs fs c num sls sl B Hs Hp) as (_ & Hi & _). subst h.
      assert (Rp := proj2 Rep _ Hh). rewrite Hu in Rp. unfold vget in Rp. rewrite Hi, P1 in Rp. destruct Rp as (Lu & y & Ty & Fy).
      assert (En : entry_of (sl_hp sl) u (Fin q)) by (split; [exact Lu|]; split; [apply (Ex _ u Hh Hu)|]; exists y; auto).
      destruct (entry_index _ sq u q C (LV_ord _ sq K) En) as (i & a & V1 & V2 & V3).
      destruct (entry_index _ sq w x C (LV_ord _ sq K) Ew) as (j & b & W1 & W2 & W3).
      assert (Nv := nb_vectorized _ q _ _ l (entry_legal _ u _ C En) P2).
      destruct (C45_ordinal_partial _ sq i (Fin q) (sl_sample sl) None (o_rng o g) a C K V1 V3 I) as (l' & js & N1 & N2 & _). rewrite Nv in N1. injection N1 as <-.
      destruct (Forall2_in_r _ _ _ _ N2 (in_map Fin _ _ P3)) as (j' & _ & _ & J2 & J3).
      assert (j' = j). { assert (Q := fsame_trans _ _ _ (fsame_sym _ _ J3) W3). change (inject_Z (Z.of_nat j') == inject_Z (Z.of_nat j))%Q in Q.
        apply (proj1 (inject_Z_injective _ _)) in Q. lia. }
      subst j'. exists i, j, a, b. auto.
    - auto.
  Qed.

  (** If a configuration is yielded and the exchange switched nothing on or off, every run from there that ends yields the
      first configuration *)
  Theorem C138_back_partial s hs cs fs c d num o fuel out r cfg h u w d' o' fuel' out' : tame s hs cs fs -> orderly cs ->
    represents s hs c d -> valid hs cs fs d -> exact_all hs d -> oracle_ok o -> steady num hs ->
    get_one_exchange_neighbourhood fuel s c num o = (out, r) -> In cfg out -> d (hp_name h) = Some u ->
    exchanged s hs cs fs d cfg h w d' -> py_eqb w u = false -> listed num h -> same_shape hs d d' ->
    oracle_ok o' -> get_one_exchange_neighbourhood fuel' s cfg num o' = (out', Ok tt) ->
    valid hs cs fs d' /\ exists back, In back out' /\ represents s hs back d.
  Proof.
    intros T Or Rep V Ex Ok_ St H Hc Hu X Dw Li Sh Ok' H'. assert (B := tm_built _ _ _ _ T). assert (O := built_ok _ _ _ _ B).
    destruct (C138_neighbour s hs cs fs c d num o fuel out r cfg h u w d' T Or Rep V Ex Ok_ St H Hc Hu X Dw Li) as (Nb & v & Hv).
    assert (Hh := xc_in _ _ _ _ _ _ _ _ _ X). assert (Up := xc_upd _ _ _ _ _ _ _ _ _ X). assert (Ac := xc_active _ _ _ _ _ _ _ _ _ X).
    assert (Same : forall g, In g hs -> hp_name g <> hp_name h -> d' (hp_name g) = d (hp_name g)).
    { intros g Hg Ng. destruct (proj2 Up g Hg Ng) as [U1 U2]. destruct (d (hp_name g)) as [a|] eqn:Ea.
      - rewrite U1; [reflexivity|]. apply (Ac g Hg). intros K. apply (Sh g Hg) in K. congruence.
      - apply (Sh g Hg). exact Ea. }
    assert (V' : valid hs cs fs d').
    { constructor; [apply (xc_legal _ _ _ _ _ _ _ _ _ X)|exact Ac|]. intros f Hf Hvi.
      destruct (in_dec string_dec (hp_name h) (forb_names f)) as [Hin|Hout]; [exact (xc_forb _ _ _ _ _ _ _ _ _ X f Hf Hin Hvi)|].
      apply (va_forb _ _ _ _ V f Hf). eapply violated_ext; [|exact Hvi]. intros m Hm. assert (Hm' := Hm). apply names_hps in Hm'. destruct Hm' as (g & Hg & <-).
      apply Same; [apply (proj2 (tm_refs _ _ _ _ T) f Hf g Hg)|]. intros Q. apply Hout. rewrite <- Q. exact Hm. }
    split; [exact V'|].
    assert (Shw := shows_vector s hs cs fs v false d' cfg B Hv (xc_rep _ _ _ _ _ _ _ _ _ X) (xc_exact _ _ _ _ _ _ _ _ _ X)).
    apply (C65_complete s hs cs fs cfg d' num o' fuel' out' h w u d T Or (xc_rep _ _ _ _ _ _ _ _ _ X) Shw V' (xc_exact _ _ _ _ _ _ _ _ _ X) Ok' H' Hh (proj1 Up) Li).
    - apply neighbour_sym; [apply (va_legal _ _ _ _ V h u Hh Hu)|apply (Ex h u Hh Hu)|exact Nb].
    - split; [exact Hu|]. intros g Hg Ng. rewrite (Same g Hg Ng). split.
      + intros A. apply (va_active _ _ _ _ V g Hg) in A. destruct (d (hp_name g)) as [a|]; [reflexivity|congruence].
      + intros A. destruct (d (hp_name g)) as [a|] eqn:Ea; [|reflexivity]. exfalso. apply A. apply (va_active _ _ _ _ V g Hg). congruence.
    - intros f Hf _. apply (va_forb _ _ _ _ V f Hf).
  Qed.

  (** Without conditions nothing is switched *)
  Theorem C138_flat_partial s hs fs c d num o fuel out r cfg o' fuel' out' : tame s hs [] fs ->
    represents s hs c d -> valid hs [] fs d -> exact_all hs d -> oracle_ok o -> oracle_ok o' ->
    (forall h, In h hs -> listed num h \/ exists v, hp_kind h = KConst v) ->
    get_one_exchange_neighbourhood fuel s c num o = (out, r) -> In cfg out ->
    get_one_exchange_neighbourhood fuel' s cfg num o' = (out', Ok tt) ->
    exists back, In back out' /\ represents s hs back d.
  Proof.
    intros T Rep V Ex Ok_ Ok' Li H Hc H'. assert (Or : orderly (@nil cond)) by (constructor; intros a b p []).
    assert (St : steady num hs).
    { intros g lo hi log dd Hg K. left. destruct (Li g Hg) as [Q|(v & Q)]; [|congruence]. unfold listed in Q. rewrite K in Q. apply Q. }
    destruct (C25_sound_partial s hs [] fs c d num o fuel out r cfg T Or Rep V Ex Ok_ St H Hc) as (h & u & w & d' & Hu & X & Dw & _).
    assert (Hh := xc_in _ _ _ _ _ _ _ _ _ X). assert (C := so_constructed (built_ok _ _ _ _ (tm_built _ _ _ _ T)) h Hh).
    assert (Dw' : py_eqb w u = false).
    { destruct Dw as [(lo & hi & log & dd & K)|Dw]; [|exact Dw]. destruct (Li h Hh) as [Q|(v & Q)]; [|congruence]. unfold listed in Q. rewrite K in Q. destruct Q. }
    assert (Hl : listed num h).
    { destruct (Li h Hh) as [Q|(v & Q)]; [exact Q|]. exfalso. assert (Hw := proj1 (xc_upd _ _ _ _ _ _ _ _ _ X)). assert (Lw := xc_legal _ _ _ _ _ _ _ _ _ X h w Hh Hw).
      assert (Lu := va_legal _ _ _ _ V h u Hh Hu). unfold legal_value in Lw, Lu. rewrite Q in Lw, Lu.
      assert (A : py_eqb w v = true) by exact Lw. assert (A' : py_eqb u v = true) by exact Lu.
      rewrite (py_eqb_trans w v u A) in Dw'; [discriminate|]. rewrite py_eqb_sym. exact A'. }
    apply (C138_back_partial s hs [] fs c d num o fuel out r cfg h u w d' o' fuel' out' T Or Rep V Ex Ok_ St H Hc Hu X Dw' Hl); [|exact Ok'|exact H'].
    assert (Al : forall e n, active [] e n) by (intros e n a []).
    intros g Hg. split; intros K; exfalso; [apply (va_active _ _ _ _ V g Hg); auto|apply (xc_active _ _ _ _ _ _ _ _ _ X g Hg); auto].
  Qed.
End Symmetric.

(** ** Examples: r, y, and x that is active when r is 1; x = 0 and y = 0 are forbidden together *)
Section Witness.
  Local Existing Instance rat_env.
  Definition turns (n : nat) : oracle :=
    {| o_pick := fun t => Nat.modulo t n; o_rng := fun _ => {| nr_cands := []; nr_shuffle := fun l => l; nr_second := false |}; o_shuf := fun _ l => l |}.
  Lemma turns_ok n : oracle_ok (turns n).
  Proof. split; intros g l; reflexivity. Qed.
  Definition few_out := fst (get_one_exchange_neighbourhood 20 few_space few_config 4 (turns 3)).
  Definition few_off := nth 0 few_out few_config.
  Definition few_up := nth 1 few_out few_config.
  Definition up_vals : list (string * option value) := [("r", Some (VStr "1")); ("x", Some (VStr "1")); ("y", Some (VStr "1"))]%string.
  Definition down_vals : list (string * option value) := [("r", Some (VStr "0")); ("y", Some (VStr "1"))]%string.
  Lemma few_steady : steady 4 few_hps.
  Proof. intros h lo hi log dd Hh K. exfalso. repeat (destruct Hh as [<-|Hh]; [discriminate K|]). destruct Hh. Qed.
  Lemma few_run : get_one_exchange_neighbourhood 20 few_space few_config 4 (turns 3) = (few_out, Ok tt).
  Proof. vm_compute. reflexivity. Qed.
  Lemma few_start : represents few_space few_hps few_config (store few_hps (given few_vals)) /\ exact_all few_hps (store few_hps (given few_vals)) /\
    valid few_hps few_conds [few_and] (store few_hps (given few_vals)).
  Proof. apply few_case. vm_compute. reflexivity. Qed.

  (** x is exchanged from 0 to 1 and back; from r = 1, x = 1, y = 1 three configurations are yielded *)
  Example C138_ex : tame few_space few_hps few_conds [few_and] /\ orderly few_conds /\
    represents few_space few_hps few_config (store few_hps (given few_vals)) /\ valid few_hps few_conds [few_and] (store few_hps (given few_vals)) /\
    get_one_exchange_neighbourhood 20 few_space few_config 4 (turns 3) = (few_out, Ok tt) /\ In few_up few_out /\
    listed 4 (bin "x") /\ same_shape few_hps (store few_hps (given few_vals)) (store few_hps (given up_vals)) /\
    represents few_space few_hps few_up (store few_hps (given up_vals)) /\
    updated few_hps few_conds (store few_hps (given few_vals)) "x" (VStr "1") (store few_hps (given up_vals)) /\
    exists out', get_one_exchange_neighbourhood 20 few_space few_up 4 (turns 3) = (out', Ok tt) /\ length out' = 3 /\
      c_vector (nth 2 out' few_up) = c_vector few_config.
  Proof.
    assert (LA := rat_env_laws). destruct few_start as (R & _ & V).
    split; [exact few_tame|]. split; [exact few_orderly|]. split; [exact R|]. split; [exact V|]. split; [exact few_run|].
    split; [vm_compute; auto|]. split; [exact I|].
    split. { intros g Hg. repeat (destruct Hg as [<-|Hg]; [vm_compute; split; discriminate|]). destruct Hg. }
    split. { destruct (few_case up_vals (get_or (mk_config [] None false) (config_of_values few_space up_vals false))) as (Ru & _); [vm_compute; reflexivity|].
      assert (Q : c_vector few_up = c_vector (get_or (mk_config [] None false) (config_of_values few_space up_vals false))) by (vm_compute; reflexivity).
      unfold represents in *. rewrite Q. exact Ru. }
    split. { split; [vm_compute; reflexivity|]. intros g Hg Ng. 
      assert (Al : active few_conds (store few_hps (given up_vals)) (hp_name g)).
      { assert (Vu : valid few_hps few_conds [few_and] (store few_hps (given up_vals))).
        { apply (few_case up_vals (get_or (mk_config [] None false) (config_of_values few_space up_vals false))). vm_compute. reflexivity. }
        apply (va_active _ _ _ _ Vu g Hg). repeat (destruct Hg as [<-|Hg]; [vm_compute; discriminate|]). destruct Hg. }
      split; [intros _|intros K; contradiction]. repeat (destruct Hg as [<-|Hg]; [first [vm_compute; reflexivity|exfalso; apply Ng; reflexivity]|]). destruct Hg. }
    eexists. split; [vm_compute; reflexivity|]. split; vm_compute; reflexivity.
  Qed.

  Lemma two_readings s hs c d d' h a b x y : represents s hs c d -> represents s hs c d' -> In h hs -> d (hp_name h) = Some a -> d' (hp_name h) = Some b ->
    to_vector h a = Ok x -> to_vector h b = Ok y -> fsame x y.
  Proof.
    intros (_ & R) (_ & R') Hh Ha Hb Hx Hy. specialize (R h Hh). specialize (R' h Hh). rewrite Ha in R. rewrite Hb in R'.
    destruct R as (_ & x' & Hx' & Fx). destruct R' as (_ & y' & Hy' & Fy). assert (x' = x) by congruence. assert (y' = y) by congruence. subst.
    eapply fsame_trans; [apply fsame_sym; exact Fx|exact Fy].
  Qed.

  (** ** With conditions it is not: r = 0 is a neighbour of r = 1, x = 0, but going back sets x to its default *)
  Theorem C138_refuted : exists s hs cs fs c d num o fuel out cfg, tame s hs cs fs /\ orderly cs /\ represents s hs c d /\ valid hs cs fs d /\
    exact_all hs d /\ oracle_ok o /\ steady num hs /\ (forall h, In h hs -> listed num h) /\
    get_one_exchange_neighbourhood fuel s c num o = (out, Ok tt) /\ In cfg out /\
    forall o' fuel' out' r' back, oracle_ok o' -> get_one_exchange_neighbourhood fuel' s cfg num o' = (out', r') -> In back out' -> ~ represents s hs back d.
  Proof.
    assert (LA := rat_env_laws). destruct few_start as (R & X & V).
    exists few_space, few_hps, few_conds, [few_and], few_config, (store few_hps (given few_vals)), 4, (turns 3), 20, few_out, few_off.
    split; [exact few_tame|]. split; [exact few_orderly|]. split; [exact R|]. split; [exact V|]. split; [exact X|]. split; [apply turns_ok|].
    split; [exact few_steady|].
    split. { intros h Hh. repeat (destruct Hh as [<-|Hh]; [exact I|]). destruct Hh. }
    split; [exact few_run|]. split; [vm_compute; auto|].
    intros o' fuel' out' r' back Ok' H' Hb Rb.
    destruct (few_case down_vals (get_or (mk_config [] None false) (config_of_values few_space down_vals false))) as (Rd & Xd & Vd); [vm_compute; reflexivity|].
    assert (Rd' : represents few_space few_hps few_off (store few_hps (given down_vals))).
    { assert (Q : c_vector few_off = c_vector (get_or (mk_config [] None false) (config_of_values few_space down_vals false))) by (vm_compute; reflexivity).
      unfold represents in *. rewrite Q. exact Rd. }
    destruct (C25_sound_partial _ _ _ _ _ _ _ _ _ _ _ _ few_tame few_orderly Rd' Vd Xd Ok' few_steady H' Hb) as (h & u & w & d2 & Hu & Xc & _).
    assert (Hh := xc_in _ _ _ _ _ _ _ _ _ Xc). assert (Up := xc_upd _ _ _ _ _ _ _ _ _ Xc). assert (R2 := xc_rep _ _ _ _ _ _ _ _ _ Xc).
    assert (Ir : In (bin "r") few_hps) by (left; reflexivity). assert (Ix : In (bin "x") few_hps) by (right; left; reflexivity).
    assert (Ar : active few_conds d2 "r") by (intros c [<-|[]] Ha; vm_compute in Ha; discriminate Ha).
    destruct (string_dec (hp_name h) "r") as [Er|Nr].
    - destruct (proj2 Up (bin "x") Ix) as [U1 U2]; [rewrite Er; vm_compute; discriminate|]. change (hp_name (bin "x")) with "x"%string in U1, U2.
      destruct (d2 "x"%string) as [b|] eqn:E2.
      + assert (A : active few_conds d2 "x") by (apply (xc_active _ _ _ _ _ _ _ _ _ Xc (bin "x") Ix); change (hp_name (bin "x")) with "x"%string; congruence).
        specialize (U1 A). assert (b = VStr "1") by (vm_compute in U1; congruence). subst b.
        assert (F := two_readings _ _ _ _ _ (bin "x") (VStr "0") (VStr "1") (Fin 0) (Fin 1) Rb R2 Ix ltac:(vm_compute; reflexivity) E2 ltac:(vm_compute; reflexivity) ltac:(vm_compute; reflexivity)).
        vm_compute in F. discriminate F.
      + destruct Rb as [_ Rb]. specialize (Rb _ Ix). destruct R2 as [_ R2]. specialize (R2 _ Ix). change (hp_name (bin "x")) with "x"%string in R2, Rb. rewrite E2 in R2.
        rewrite R2 in Rb. assert (Ex : store few_hps (given few_vals) "x"%string = Some (VStr "0")) by (vm_compute; reflexivity). rewrite Ex in Rb.
        destruct Rb as (_ & y & Hy & F). assert (y = Fin 0) by (vm_compute in Hy; congruence). subst y. destruct F.
    - destruct (proj2 Up (bin "r") Ir) as [U1 _]; [intros K; apply Nr; rewrite <- K; reflexivity|]. specialize (U1 Ar).
      assert (F := two_readings _ _ _ _ _ (bin "r") (VStr "1") (VStr "0") (Fin 1) (Fin 0) Rb R2 Ir ltac:(vm_compute; reflexivity) ltac:(rewrite U1; vm_compute; reflexivity) ltac:(vm_compute; reflexivity) ltac:(vm_compute; reflexivity)).
      vm_compute in F. discriminate F.
  Qed.
End Witness.
