(** * Where the guarded theorems on grids, repairs and random neighbours stop

    C29, C33 and C66 are proved for spaces in which the library's merging of equivalent conditions is
    harmless ([tame]). The space of C13_refuted (b | a == x and k == 4; g | a == x or k == 4) shows that
    they fail without: in it the library never lets g be active when b is not. *)
From Coq Require Import String List ZArith QArith Bool Lia.
From Verif Require Import Base ListFacts Numeric HP HPProofs Properties_HP Cond Forb Dag Space CommitProofs Spec SpaceProofs Ex Properties_Eval
  Dist Util Grid Repair Properties_Repair Random Properties_Random Properties_Dist.
Import ListNotations.
Open Scope nat_scope.

Section Witness.
  #[local] Existing Instance rat_env.

  (** a is "x" and g is not set: g should be active *)
  Definition mix_vals := [("a"%string, Some (VStr "x")); ("k"%string, Some (VInt 5))].
  (** a is "y": neither b nor g is active *)
  Definition mix_start := [("a"%string, Some (VStr "y")); ("k"%string, Some (VInt 5))].
  Definition mix_config := get_or (mk_config [] None false) (config_of_values mix_space mix_start false).
  Definition mix_oracle : oracle :=
    {| o_pick := fun t => Nat.modulo t 4;
       o_rng := fun _ => {| nr_cands := [[1#7]; [6#7]]%Q; nr_shuffle := fun l => l; nr_second := false |};
       o_shuf := fun _ l => rev l |}.

  Lemma mix_invalid c d : represents mix_space mix_hps c d -> vget (index_of mix_space) (c_vector c) "a" = Fin 0 ->
    vget (index_of mix_space) (c_vector c) "g" = NaN -> ~ valid mix_hps [cBand; cGor] [] d.
  Proof.
    intros [_ Rep] Ha Hg V.
    assert (Ia := Rep hA (or_introl eq_refl)). change (hp_name hA) with "a"%string in Ia.
    assert (Ig := Rep hG (or_intror (or_intror (or_intror (or_introl eq_refl))))). change (hp_name hG) with "g"%string in Ig.
    rewrite Ha in Ia. rewrite Hg in Ig.
    assert (Ng : d "g"%string = None).
    { destruct (d "g"%string) as [w|]; [|reflexivity]. exfalso. destruct Ig as (_ & x & Hx & Fs). unfold to_vector in Hx.
      replace (hp_kind hG) with (KCat [VStr "p"; VStr "q"] (Some [3%Q; 1%Q])) in Hx by reflexivity.
      destruct (py_index w [VStr "p"; VStr "q"]) as [n|]; [|discriminate]. assert (x = Fin (inject_Z (Z.of_nat n))) by congruence. subst x. exact Fs. }
    assert (Xa : exists w, d "a"%string = Some w /\ py_eqb w (VStr "x") = true).
    { destruct (d "a"%string) as [w|]; [|discriminate]. exists w. split; [reflexivity|]. destruct Ia as (_ & x & Hx & Fs). unfold to_vector in Hx.
      replace (hp_kind hA) with (KCat [VStr "x"; VStr "y"; VStr "z"] None) in Hx by reflexivity. cbn [py_index] in Hx.
      rewrite py_eqb_sym. destruct (py_eqb (VStr "x") w); [reflexivity|]. exfalso.
      destruct (py_eqb (VStr "y") w); cbn [option_map] in Hx; [injection Hx as <-; discriminate Fs|].
      destruct (py_eqb (VStr "z") w); cbn [option_map] in Hx; [injection Hx as <-; discriminate Fs|discriminate Hx]. }
    apply (proj2 (va_active _ _ _ _ V hG (or_intror (or_intror (or_intror (or_introl eq_refl)))))); [|exact Ng].
    change (hp_name hG) with "g"%string. intros c0 [<-|[<-|[]]] Ac.
    - exfalso. revert Ac. vm_compute. intuition discriminate.
    - destruct Xa as (w & Ea & Eq). change (holds d cG \/ holds d cG2 \/ False). left.
      change (exists u, d "a"%string = Some u /\ py_eqb u (VStr "x") = true). exists w. auto.
  Qed.

  Lemma mix_shape c v : c_vector c = Fin 0 :: v -> nth_error v 2 = Some NaN -> forall d, represents mix_space mix_hps c d -> ~ valid mix_hps [cBand; cGor] [] d.
  Proof.
    intros Hc Hv d Rep. apply (mix_invalid c d Rep); rewrite Hc; [reflexivity|].
    destruct v as [|? [|? [|? v]]]; try discriminate Hv. injection Hv as ->. reflexivity.
  Qed.

  (** the grid contains the configuration in which a is "x", k is 1 and g is not set *)
  Theorem C29_refuted : ~ (forall s hs cs fs fuel steps l c, built s hs cs fs -> refs hs cs fs -> generate_grid fuel s steps = Ok l -> In c l ->
    exists d, represents s hs c d /\ valid hs cs fs d).
  Proof.
    intros H. destruct (generate_grid 20 mix_space [("k"%string, 3%Z); ("b"%string, 2%Z)]) as [l|] eqn:El; [|vm_compute in El; discriminate].
    assert (Hc : exists c l', l = c :: l' /\ c_vector c = [Fin 0; Fin (0#9); NaN; NaN]) by (vm_compute in El; injection El as <-; eexists; eexists; split; reflexivity).
    destruct Hc as (c & l' & -> & Hc).
    destruct (H _ _ _ _ _ _ _ c mix_built mix_refs El (or_introl eq_refl)) as (d & Rep & V).
    exact (mix_shape c _ Hc eq_refl d Rep V).
  Qed.

  (** a value for the active g is asked for in no way: the configuration without it is returned *)
  Theorem C33_refuted : ~ (forall s hs cs fs fuel vals c, built s hs cs fs -> refs hs cs fs -> exact_all hs (given vals) ->
    deactivate_inactive fuel s (Some vals) None = Ok c -> exists d, represents s hs c d /\ valid hs cs fs d).
  Proof.
    intros H. destruct (deactivate_inactive 10 mix_space (Some mix_vals) None) as [c|] eqn:El; [|vm_compute in El; discriminate].
    assert (Hc : c_vector c = [Fin 0; Fin (4#9); NaN; NaN]) by (vm_compute in El; injection El as <-; reflexivity).
    destruct (H mix_space mix_hps [cBand; cGor] [] 10 mix_vals c mix_built mix_refs) as (d & Rep & V); [|exact El|].
    - intros h w Hh Hw. repeat (destruct Hh as [<-|Hh]; [vm_compute in Hw; try discriminate Hw; try exact I|]); [|destruct Hh].
      injection Hw as <-. exists 5%Q, 5%Z. split; reflexivity.
    - exact (mix_shape c _ Hc eq_refl d Rep V).
  Qed.
  (** ... and when values for b and g are given, the repair raises the error it exists to avoid *)
  Theorem C33_refuted_error : exists s hs cs vals, built s hs cs [] /\ refs hs cs [] /\
    deactivate_inactive 10 s (Some vals) None = Err InactiveHyperparameterSetError.
  Proof.
    exists mix_space, mix_hps, [cBand; cGor], [("a"%string, Some (VStr "x")); ("k"%string, Some (VInt 5)); ("b"%string, Some (VFloat 0)); ("g"%string, Some (VStr "p"))].
    split; [exact mix_built|]. split; [exact mix_refs|]. vm_compute. reflexivity.
  Qed.

  (** a goes from "y" to "x", where g is active, and g is not set *)
  Theorem C66_refuted : ~ (forall s hs cs fs c d o fuel cfg, built s hs cs fs -> refs hs cs fs -> represents s hs c d -> valid hs cs fs d ->
    (forall g, shuffles (o_rng o g)) -> get_random_neighbor fuel s c o = Ok cfg -> exists d', represents s hs cfg d' /\ valid hs cs fs d').
  Proof.
    intros H. destruct (get_random_neighbor 5 mix_space mix_config mix_oracle) as [c|] eqn:El; [|vm_compute in El; discriminate].
    assert (Hc : c_vector c = [Fin 0; Fin (4#9); NaN; NaN]) by (vm_compute in El; injection El as <-; reflexivity).
    destruct (H mix_space mix_hps [cBand; cGor] [] mix_config (given mix_start) mix_oracle 5 c mix_built mix_refs) as (d & Rep & V).
    - split; [reflexivity|]. intros h Hh. destruct Hh as [<-|[<-|[<-|[<-|[]]]]]; [| |vm_compute; reflexivity|vm_compute; reflexivity].
      + split; [vm_compute; reflexivity|]. exists (Fin 1). split; vm_compute; reflexivity.
      + split; [vm_compute; reflexivity|]. exists (Fin (4#9)). split; vm_compute; reflexivity.
    - split; [| |intros f []].
      + intros h w Hh Hw. repeat (destruct Hh as [<-|Hh]; [vm_compute in Hw; try discriminate Hw; injection Hw as <-; reflexivity|]). destruct Hh.
      + assert (NB : ~ active [cBand; cGor] (given mix_start) "b").
        { intros A. assert (K : holds (given mix_start) cBand) by (apply A; vm_compute; auto).
          change (holds (given mix_start) cB1 /\ holds (given mix_start) cB2 /\ True) in K. destruct K as [K _].
          change (exists u, given mix_start "a"%string = Some u /\ py_eqb u (VStr "x") = true) in K. destruct K as (w & Ea & Eq).
          change (Some (VStr "y") = Some w) in Ea. injection Ea as <-. discriminate Eq. }
        assert (NG : ~ active [cBand; cGor] (given mix_start) "g").
        { intros A. assert (K : holds (given mix_start) cGor) by (apply A; vm_compute; auto).
          change (holds (given mix_start) cG \/ holds (given mix_start) cG2 \/ False) in K. destruct K as [K|[K|[]]].
          - change (exists u, given mix_start "a"%string = Some u /\ py_eqb u (VStr "x") = true) in K. destruct K as (w & Ea & Eq).
            change (Some (VStr "y") = Some w) in Ea. injection Ea as <-. discriminate Eq.
          - change (exists u, given mix_start "k"%string = Some u /\ py_eqb u (VInt 4) = true) in K. destruct K as (w & Ea & Eq).
            change (Some (VInt 5) = Some w) in Ea. injection Ea as <-. discriminate Eq. }
        intros h Hh. destruct Hh as [<-|[<-|[<-|[<-|[]]]]].
        * split; [|discriminate]. intros _ c0 [<-|[<-|[]]] Ac; exfalso; revert Ac; vm_compute; intuition discriminate.
        * split; [|discriminate]. intros _ c0 [<-|[<-|[]]] Ac; exfalso; revert Ac; vm_compute; intuition discriminate.
        * split; [intros K; exfalso; apply K; reflexivity|intros A; destruct (NB A)].
        * split; [intros K; exfalso; apply K; reflexivity|intros A; destruct (NG A)].
    - intros g l. apply Permutation.Permutation_refl.
    - exact El.
    - exact (mix_shape c _ Hc eq_refl d Rep V).
  Qed.
End Witness.
