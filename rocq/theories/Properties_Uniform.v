(** * Property C133: when sampling is uniform *)
From Coq Require Import String List ZArith QArith Qround Bool Lia Lqa Permutation Relations.
From Verif Require Import Base ListFacts Numeric HP HPProofs Properties_HP Cond Forb EqFacts Dag DagProofs
  Space CommitProofs Spec SpaceProofs CnodeProofs ForbProofs EvalProofs ForbEval MergeProofs ValidProofs ConfigProofs
  ChangeProofs PassProofs ReadProofs SampleProofs Ex Properties_Eval Properties_Config Properties_Change Properties_Sample
  Dist DistProofs Properties_Dist Properties_Size Properties_Array Properties_Reach Properties_Mass Properties_Chance.
Import ListNotations.
Open Scope nat_scope.

(** choices without weights, ordinals, constants, uniform integers *)
Definition alike (h : hp) : Prop := evenly h /\ forall c w, hp_kind h <> KCat c (Some w).
(** the product of the numbers of values of the hyperparameters that have a value *)
Definition sizes (d : assignment) (hs : list hp) : Z :=
  fold_right (fun h acc => (match d (hp_name h) with Some _ => match hp_size h with Some k => k | None => 1 end | None => 1 end * acc)%Z) 1%Z hs.

Section Uniform.
  Context {E : Env} {L : EnvLaws E}.

  Lemma chance_mono {A} (l : list (A * Q)) p p' : (forall x q, In (x, q) l -> (0 <= q)%Q /\ (p x = true -> p' x = true)) -> (chance l p <= chance l p')%Q.
  Proof.
    induction l as [|[x q] l IH]; intros H; simpl; [apply Qle_refl|].
    destruct (H x q (or_introl eq_refl)) as [Hq Hp]. assert (I := IH (fun y r Hy => H y r (or_intror Hy))). fold (chance l p) (chance l p').
    destruct (p x); [rewrite (Hp eq_refl); lra|]. destruct (p' x); lra.
  Qed.
  Lemma independent_pos {A} (ls : list (list (A * Q))) : (forall l x q, In l ls -> In (x, q) l -> (0 <= q)%Q) ->
    forall v q, In (v, q) (independent ls) -> (0 <= q)%Q.
  Proof.
    induction ls as [|l ls IH]; simpl; intros H v q Hv.
    - destruct Hv as [Hv|[]]. injection Hv as <- <-. lra.
    - apply in_concat in Hv. destruct Hv as (m & Hm & Hv). apply in_map_iff in Hm. destruct Hm as ([x r] & <- & Hx).
      apply in_map_iff in Hv. destruct Hv as ([u t] & Hv & Hu). simpl in Hv. injection Hv as <- <-.
      apply Qmult_le_0_compat; [apply (H l x r); auto|]. apply (IH (fun l' x' q' Hl => H l' x' q' (or_intror Hl)) u t Hu).
  Qed.
  Lemma alike_size h : constructed h -> alike h -> exists k, hp_size h = Some k /\ (0 < k)%Z /\
    forall f v, In v (options h) -> exists p, pdf_value h f v = Ok p /\ (p == 1 / inject_Z k)%Q.
  Proof.
    intros C [Ev NW]. assert (W := constructed_wf h C). unfold wf_hp in W. unfold evenly in Ev.
    assert (G : forall k, hp_size h = Some k -> (0 < k)%Z -> (forall u, hp_kind h <> KConst u) -> exists k, hp_size h = Some k /\ (0 < k)%Z /\
      forall f v, In v (options h) -> exists p, pdf_value h f v = Ok p /\ (p == 1 / inject_Z k)%Q).
    { intros k Hk Pk NC. exists k. split; [exact Hk|]. split; [exact Pk|]. intros f v Hv.
      destruct (C110_counted_partial h f k v C Hk) as (n & x & p & _ & _ & P & Q & _); try exact Hv; try (intros; congruence); eauto.
      all: try (intros; eapply NW; eauto; fail); try (intros; eapply NC; eauto; fail).
      all: try (intros lo hi log d K; rewrite K in Ev; exact Ev). }
    destruct (hp_kind h) as [c [ws|]|c|u|lo hi log d|] eqn:K; try contradiction.
    - destruct (NW c ws eq_refl).
    - apply (G (Z.of_nat (length c))); [unfold hp_size; rewrite K; reflexivity| |congruence].
      destruct c; [exfalso; destruct W as (W & _); simpl in W; try discriminate; try lia; congruence|simpl; lia].
    - apply (G (Z.of_nat (length c))); [unfold hp_size; rewrite K; reflexivity| |congruence].
      destruct c; [exfalso; destruct W as (W & _); simpl in W; try discriminate; try lia; congruence|simpl; lia].
    - exists 1%Z. split; [unfold hp_size; rewrite K; reflexivity|]. split; [lia|]. intros f v Hv. unfold options in Hv. rewrite K in Hv. destruct Hv as [<-|[]].
      destruct (C110_constant h f u C K) as (x & _ & P & _). exists 1%Q. split; [exact P|reflexivity].
    - apply (G (hi - lo + 1)%Z); [unfold hp_size; rewrite K; reflexivity| |congruence]. destruct W as (W & _). lia.
  Qed.

  Lemma density_sizes f d hs : (forall h, In h hs -> constructed h /\ alike h) -> (forall h w, In h hs -> d (hp_name h) = Some w -> In w (options h)) ->
    (0 < sizes d hs)%Z /\ (density f d hs == 1 / inject_Z (sizes d hs))%Q.
  Proof.
    induction hs as [|h hs IH]; intros A O; [split; [reflexivity|unfold density, sizes; simpl; reflexivity]|].
    destruct (IH (fun k Hk => A k (or_intror Hk)) (fun k w Hk => O k w (or_intror Hk))) as [P D].
    unfold sizes, density in *. cbn [fold_right]. set (z := fold_right _ 1%Z hs) in *. set (r := fold_right _ 1%Q hs) in *. clearbody z r.
    destruct (d (hp_name h)) as [w|] eqn:Ed.
    - destruct (A h (or_introl eq_refl)) as [C Al]. destruct (alike_size h C Al) as (k & Hk & Pk & Hp). rewrite Hk.
      destruct (Hp f w (O h w (or_introl eq_refl) Ed)) as (p & -> & Q). cbn [get_or]. split; [lia|]. rewrite Q, D, inject_Z_mult.
      rewrite Zlt_Qlt in P, Pk. field. split; intro X; change (inject_Z 0) with 0%Q in *; lra.
    - split; [lia|]. rewrite D, inject_Z_mult. change (inject_Z 1) with 1%Q. rewrite Zlt_Qlt in P. field. intro X; change (inject_Z 0) with 0%Q in *; lra.
  Qed.
  Lemma sizes_same d d' hs : (forall h, In h hs -> d (hp_name h) = None <-> d' (hp_name h) = None) -> sizes d hs = sizes d' hs.
  Proof.
    unfold sizes. induction hs as [|h hs IH]; intros H; [reflexivity|]. cbn [fold_right]. rewrite IH by (intros k Hk; apply H; right; exact Hk).
    f_equal. destruct (H h (or_introl eq_refl)) as [H1 H2]. destruct (d (hp_name h)), (d' (hp_name h)); try reflexivity; exfalso.
    - specialize (H2 eq_refl). discriminate.
    - specialize (H1 eq_refl). discriminate.
  Qed.

  (** one column gives a valid configuration with one over the product of the sizes of the active hyperparameters *)
  Theorem C133_column_partial s hs cs fs c d : tame s hs cs fs -> orderly cs -> hs <> [] -> (forall h, In h hs -> alike h) ->
    represents s hs c d -> (forall h w, In h hs -> d (hp_name h) = Some w -> In w (options h)) -> valid hs cs fs d ->
    (0 < sizes d hs)%Z /\ (chance (independent (laws s)) (yields s (c_vector c)) == 1 / inject_Z (sizes d hs))%Q.
  Proof.
    intros T Or Ne Al Rp Op V. assert (O := built_ok _ _ _ _ (tm_built _ _ _ _ T)).
    destruct (density_sizes (fun _ => 1%Q) d hs) as [P D]; [intros h Hh; split; [apply (so_constructed O h Hh)|apply (Al h Hh)]|exact Op|].
    split; [exact P|]. rewrite <- D. apply (C132_density_partial s hs cs fs (fun _ => 1%Q) c d 0); auto. intros h Hh. apply (Al h Hh).
  Qed.

  (** valid configurations in which the same hyperparameters are active are returned alike *)
  Theorem C133_same_partial s hs cs fs c d c' d' fuel : tame s hs cs fs -> orderly cs -> hs <> [] -> (forall h, In h hs -> alike h) ->
    represents s hs c d -> (forall h w, In h hs -> d (hp_name h) = Some w -> In w (options h)) -> valid hs cs fs d ->
    represents s hs c' d' -> (forall h w, In h hs -> d' (hp_name h) = Some w -> In w (options h)) -> valid hs cs fs d' ->
    (forall h, In h hs -> d (hp_name h) = None <-> d' (hp_name h) = None) ->
    (chance (independent (repeat (independent (laws s)) (fuel * next_size s 1))) (returns s fuel (c_vector c))
     == chance (independent (repeat (independent (laws s)) (fuel * next_size s 1))) (returns s fuel (c_vector c')))%Q.
  Proof.
    intros T Or Ne Al Rp Op V Rp' Op' V' Sm. assert (O := built_ok _ _ _ _ (tm_built _ _ _ _ T)).
    assert (Ev : forall h, In h hs -> evenly h) by (intros h Hh; apply (Al h Hh)).
    assert (Ca : forall h, In h hs -> constructed h /\ alike h) by (intros h Hh; split; [apply (so_constructed O h Hh)|apply (Al h Hh)]).
    destruct (density_sizes (fun _ => 1%Q) d hs Ca Op) as [P D]. destruct (density_sizes (fun _ => 1%Q) d' hs Ca Op') as [P' D'].
    destruct (C132_density_partial s hs cs fs (fun _ => 1%Q) c d fuel T Or Ne Ev Rp Op V) as [H1 H2].
    destruct (C132_density_partial s hs cs fs (fun _ => 1%Q) c' d' fuel T Or Ne Ev Rp' Op' V') as [H1' H2']. cbv zeta in *.
    assert (Pa : (0 < chance (independent (laws s)) (accepted s))%Q).
    { apply Qlt_le_trans with (chance (independent (laws s)) (yields s (c_vector c))).
      - rewrite H1, D. apply Qlt_shift_div_l; [change 0%Q with (inject_Z 0); rewrite <- Zlt_Qlt; exact P|lra].
      - apply chance_mono. intros v q Hv. split.
        + revert Hv. apply independent_pos. intros l x r Hl Hx. unfold laws in Hl. apply in_map_iff in Hl. destruct Hl as (h & <- & Hh).
          assert (Hi : In h hs) by (eapply Permutation_in; [apply (so_hps O)|exact Hh]).
          destruct (C132_law h (so_constructed O h Hi) (Ev h Hi)) as (_ & A & _). apply (A x r Hx).
        + unfold yields, accepted. destruct (sample_round s 1 (map (fun x => [x]) v)) as [[|u [|]]|]; auto; discriminate. }
    rewrite D, (sizes_same d d' hs Sm), <- D' in H2. rewrite <- H2' in H2. apply (Qmult_inj_l _ _ (chance (independent (laws s)) (accepted s))); [|exact H2].
    intro X. lra.
  Qed.

  (** without conditions all valid configurations are returned alike *)
  Theorem C133_uniform_partial s hs fs c d c' d' fuel : tame s hs [] fs -> hs <> [] -> (forall h, In h hs -> alike h) ->
    represents s hs c d -> (forall h w, In h hs -> d (hp_name h) = Some w -> In w (options h)) -> valid hs [] fs d ->
    represents s hs c' d' -> (forall h w, In h hs -> d' (hp_name h) = Some w -> In w (options h)) -> valid hs [] fs d' ->
    (chance (independent (repeat (independent (laws s)) (fuel * next_size s 1))) (returns s fuel (c_vector c))
     == chance (independent (repeat (independent (laws s)) (fuel * next_size s 1))) (returns s fuel (c_vector c')))%Q.
  Proof.
    intros T Ne Al Rp Op V Rp' Op' V'. apply (C133_same_partial s hs [] fs c d c' d' fuel); auto.
    - constructor; [intros k k' n []|intros k p p' []].
    - intros h Hh. assert (A : d (hp_name h) <> None) by (apply (va_active _ _ _ _ V h Hh); intros k []).
      assert (A' : d' (hp_name h) <> None) by (apply (va_active _ _ _ _ V' h Hh); intros k []). tauto.
  Qed.
End Uniform.

(** ** Examples *)
Section Witness.
  Local Existing Instance rat_env.

  (** x = 0 and y = 0 are forbidden together, as above, but nothing is conditional *)
  Definition free_hps := [bin "x"; bin "y"].
  Definition free_space := fst (add empty_space free_hps [] [few_and]).
  Lemma free_built : built free_space free_hps [] [few_and].
  Proof.
    apply (built_step empty_space [] [] [] free_hps [] [few_and] built_empty); [| | |vm_compute; reflexivity].
    - repeat (constructor; [apply bin_c|]). constructor.
    - constructor.
    - constructor; [|constructor]. apply (FB_and [few_x; few_y] few_and); [|vm_compute; reflexivity]. intros g [<-|[<-|[]]].
      + apply (FB_eq (bin "x") (VStr "0") few_x (bin_c _)). vm_compute. reflexivity.
      + apply (FB_eq (bin "y") (VStr "0") few_y (bin_c _)). vm_compute. reflexivity.
  Qed.
  Lemma free_tame : tame free_space free_hps [] [few_and].
  Proof.
    constructor; [apply free_built| | | |].
    - split; [intros c []|].
      intros g [<-|[]] h Hh. vm_compute in Hh. repeat (destruct Hh as [<-|Hh]; [vm_compute; tauto|]); destruct Hh.
    - intros c d v [].
    - intros c l w vv [].
    - intros g [<-|[]] r a b Hr. exfalso. vm_compute in Hr. repeat (destruct Hr as [Hr|Hr]; [discriminate Hr|]). destruct Hr.
  Qed.
  Lemma bin_alike hs : (forall h, In h hs -> exists n, h = bin n) -> forall h, In h hs -> alike h.
  Proof. intros H h Hh. destruct (H h Hh) as (n & ->). split; [exact I|]. intros c w K. discriminate K. Qed.
  Definition mixed_vals : list (string * option value) := [("x", Some (VStr "0")); ("y", Some (VStr "1"))]%string.
  Definition ones_vals : list (string * option value) := [("x", Some (VStr "1")); ("y", Some (VStr "1"))]%string.
  Definition mixed_config := get_or (mk_config [] None false) (config_of_values free_space mixed_vals false).
  Definition ones_config := get_or (mk_config [] None false) (config_of_values free_space ones_vals false).

  Lemma free_case vals c : config_of_values free_space vals false = Ok c ->
    represents free_space free_hps c (store free_hps (given vals)) /\ valid free_hps [] [few_and] (store free_hps (given vals)).
  Proof.
    intros Hc. assert (LA := rat_env_laws). assert (O := built_ok _ _ _ _ free_built).
    assert (St := store_stored free_hps (given vals) (so_names_nodup O)).
    assert (Ex : forall d, exact_all free_hps d).
    { intros d h w Hh _. repeat (destruct Hh as [<-|Hh]; [exact I|]). destruct Hh. }
    split; [exact (C20_start _ _ _ _ _ _ _ _ free_built St Hc)|].
    apply (C17_accepts_valid_partial free_space free_hps [] [few_and] vals _ free_tame St (Ex _)). exists c. exact Hc.
  Qed.
  (** three configurations are valid; one column gives each with probability 1/4, sampling gives each with probability 1/3 in the limit *)
  Example C133_ex : tame free_space free_hps [] [few_and] /\ (forall h, In h free_hps -> alike h) /\
    represents free_space free_hps mixed_config (store free_hps (given mixed_vals)) /\ valid free_hps [] [few_and] (store free_hps (given mixed_vals)) /\
    represents free_space free_hps ones_config (store free_hps (given ones_vals)) /\ valid free_hps [] [few_and] (store free_hps (given ones_vals)) /\
    (forall h w, In h free_hps -> store free_hps (given mixed_vals) (hp_name h) = Some w -> In w (options h)) /\
    sizes (store free_hps (given mixed_vals)) free_hps = 4%Z /\
    (chance (independent (laws free_space)) (yields free_space (c_vector mixed_config)) == 1#4)%Q /\
    (chance (independent (laws free_space)) (accepted free_space) == 3#4)%Q.
  Proof.
    destruct (free_case mixed_vals mixed_config ltac:(vm_compute; reflexivity)) as (A1 & A2).
    destruct (free_case ones_vals ones_config ltac:(vm_compute; reflexivity)) as (B1 & B2).
    split; [exact free_tame|]. split; [apply bin_alike; intros h [<-|[<-|[]]]; eauto|].
    split; [exact A1|]. split; [exact A2|]. split; [exact B1|]. split; [exact B2|].
    split; [intros h w [<-|[<-|[]]] Hw; vm_compute in Hw; injection Hw as <-; vm_compute; tauto|]. repeat split; vm_compute; reflexivity.
  Qed.

  (** ** With conditions sampling is not uniform: r = 0, y = 0 comes twice as often as r = 1, x = 0, y = 1 *)
  Theorem C133_conditions_refuted : exists s hs cs fs c d c' d', tame s hs cs fs /\ orderly cs /\ (forall h, In h hs -> alike h) /\
    represents s hs c d /\ valid hs cs fs d /\ represents s hs c' d' /\ valid hs cs fs d' /\
    (chance (independent (laws s)) (yields s (c_vector c)) == 1#8)%Q /\ (chance (independent (laws s)) (yields s (c_vector c')) == 1#4)%Q.
  Proof.
    destruct (few_case few_vals few_config ltac:(vm_compute; reflexivity)) as (A1 & _ & A3).
    destruct (few_case off_vals off_config ltac:(vm_compute; reflexivity)) as (B1 & _ & B3).
    exists few_space, few_hps, few_conds, [few_and], few_config, (store few_hps (given few_vals)), off_config, (store few_hps (given off_vals)).
    split; [exact few_tame|]. split; [exact few_orderly|]. split; [apply bin_alike; intros h [<-|[<-|[<-|[]]]]; eauto|].
    split; [exact A1|]. split; [exact A3|]. split; [exact B1|]. split; [exact B3|]. split; vm_compute; reflexivity.
  Qed.
End Witness.
