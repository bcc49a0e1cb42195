(** * A worked example space

    Used beside the theorems to show that their hypotheses can be met.  Three levels, every kind of
    hyperparameter, nested conditions, two conditions that the library merges, and one clause of
    each kind. *)
From Coq Require Import String List ZArith QArith Bool Lia Permutation.
From Verif Require Import Base Numeric HP HPProofs Cond Forb Dag Space Spec.
Import ListNotations.
Open Scope nat_scope.

Definition get_or {A} (d : A) (r : res A) : A := match r with Ok a => a | Err _ => d end.

#[local] Existing Instance rat_env.

Definition dummy_hp : hp := mk_hp "" (KConst VNone) VNone None.
Definition dummy_cond : cond := CAnd [].
Definition dummy_forb : fclause := FAnd [].

Definition xs (l : list string) : list value := map VStr l.

Definition hA := get_or dummy_hp (mk_categorical "a" (xs ["x"; "y"; "z"]%string) None None None).
Definition hK := get_or dummy_hp (mk_uniform_int "k" 1 10 (Some 4%Q) false None).
Definition hN := get_or dummy_hp (mk_uniform_int "n" 1 10 (Some 5%Q) false None).
Definition hO := get_or dummy_hp (mk_ordinal "o" (xs ["lo"; "mid"; "hi"]%string) (Some (VStr "mid")) None).
Definition hB := get_or dummy_hp (mk_uniform_float "b" 0 1 None false None).
Definition hC := get_or dummy_hp (mk_uniform_int "c" 0 4 None false (Some "m"%string)).
Definition hE := get_or dummy_hp (mk_constant "e" (VStr "on") None).
Definition hG := get_or dummy_hp (mk_categorical "g" (xs ["p"; "q"]%string) None (Some [3%Q; 1%Q]) None).
Definition hL := get_or dummy_hp (mk_uniform_int "l" 1 16 None true None).

Definition ex_hps : list hp := [hC; hB; hA; hN; hE; hK; hG; hO; hL].

Definition cB := get_or dummy_cond (mk_bin OpEq hB hA (VStr "x")).
Definition cG := get_or dummy_cond (mk_bin OpEq hG hA (VStr "x")).
Definition cC1 := get_or dummy_cond (mk_bin OpGt hC hB (VFloat (1#4))).
Definition cC2 := get_or dummy_cond (mk_in hC hN [VInt 5; VInt 6]).
Definition cC := get_or dummy_cond (mk_and [cC1; cC2]).
Definition cE1 := get_or dummy_cond (mk_bin OpEq hE hA (VStr "y")).
Definition cE2 := get_or dummy_cond (mk_bin OpGt hE hO (VStr "lo")).
Definition cE := get_or dummy_cond (mk_or [cE1; cE2]).
Definition ex_conds : list cond := [cB; cC; cE; cG].

Definition fA := get_or dummy_forb (mk_feq hA (VStr "y")).
Definition fN1 := get_or dummy_forb (mk_feq hN (VInt 1)).
Definition fN2 := get_or dummy_forb (mk_fin hN [VInt 2; VInt 3]).
Definition fN4 := get_or dummy_forb (mk_feq hN (VInt 4)).
Definition fK9 := get_or dummy_forb (mk_feq hK (VInt 9)).
Definition fAnd1 := get_or dummy_forb (mk_fand [fA; fN1]).
Definition fAnd2 := get_or dummy_forb (mk_fand [fA; fN4]).
Definition fAnd3 := get_or dummy_forb (mk_fand [fN2; fK9]).
Definition fRel := get_or dummy_forb (mk_frel RLess hN hK).
Definition fG := get_or dummy_forb (mk_feq hG (VStr "q")).
Definition ex_forbs : list fclause := [fAnd1; fRel; fAnd2; fAnd3; fG].

Definition ex_space : space := fst (add empty_space ex_hps ex_conds ex_forbs).

Lemma hA_c : constructed hA. Proof. apply (CtorCat "a" (xs ["x"; "y"; "z"]%string) None None None hA); vm_compute; reflexivity. Qed.
Lemma hK_c : constructed hK. Proof. apply (CtorUInt "k" 1 10 (Some 4%Q) false None hK); vm_compute; reflexivity. Qed.
Lemma hN_c : constructed hN. Proof. apply (CtorUInt "n" 1 10 (Some 5%Q) false None hN); vm_compute; reflexivity. Qed.
Lemma hO_c : constructed hO. Proof. apply (CtorOrd "o" (xs ["lo"; "mid"; "hi"]%string) (Some (VStr "mid")) None hO); vm_compute; reflexivity. Qed.
Lemma hB_c : constructed hB. Proof. apply (CtorUFloat "b" 0 1 None false None hB); vm_compute; reflexivity. Qed.
Lemma hC_c : constructed hC. Proof. apply (CtorUInt "c" 0 4 None false (Some "m"%string) hC); vm_compute; reflexivity. Qed.
Lemma hE_c : constructed hE. Proof. apply (CtorConst "e" (VStr "on") None hE); vm_compute; reflexivity. Qed.
Lemma hG_c : constructed hG. Proof. apply (CtorCat "g" (xs ["p"; "q"]%string) None (Some [3%Q; 1%Q]) None hG); vm_compute; reflexivity. Qed.
Lemma hL_c : constructed hL. Proof. apply (CtorUInt "l" 1 16 None true None hL); vm_compute; reflexivity. Qed.
Lemma ex_hps_c : Forall constructed ex_hps.
Proof. repeat (constructor; [first [apply hA_c|apply hK_c|apply hN_c|apply hO_c|apply hB_c|apply hC_c|apply hE_c|apply hG_c|apply hL_c]|]). constructor. Qed.

Lemma cB_c : cond_built cB. Proof. apply (CB_bin OpEq hB hA (VStr "x") cB hB_c hA_c); vm_compute; reflexivity. Qed.
Lemma cG_c : cond_built cG. Proof. apply (CB_bin OpEq hG hA (VStr "x") cG hG_c hA_c); vm_compute; reflexivity. Qed.
Lemma cC1_c : cond_built cC1. Proof. apply (CB_bin OpGt hC hB (VFloat (1#4)) cC1 hC_c hB_c); vm_compute; reflexivity. Qed.
Lemma cC2_c : cond_built cC2. Proof. apply (CB_in hC hN [VInt 5; VInt 6] cC2 hC_c hN_c); vm_compute; reflexivity. Qed.
Lemma cE1_c : cond_built cE1. Proof. apply (CB_bin OpEq hE hA (VStr "y") cE1 hE_c hA_c); vm_compute; reflexivity. Qed.
Lemma cE2_c : cond_built cE2. Proof. apply (CB_bin OpGt hE hO (VStr "lo") cE2 hE_c hO_c); vm_compute; reflexivity. Qed.
Lemma cC_c : cond_built cC.
Proof. apply (CB_and [cC1; cC2] cC); [|vm_compute; reflexivity]. intros x [<-|[<-|[]]]; [apply cC1_c|apply cC2_c]. Qed.
Lemma cE_c : cond_built cE.
Proof. apply (CB_or [cE1; cE2] cE); [|vm_compute; reflexivity]. intros x [<-|[<-|[]]]; [apply cE1_c|apply cE2_c]. Qed.
Lemma ex_conds_c : Forall cond_built ex_conds.
Proof. repeat (constructor; [first [apply cB_c|apply cC_c|apply cE_c|apply cG_c]|]). constructor. Qed.

Lemma fA_c : forb_built fA. Proof. apply (FB_eq hA (VStr "y") fA hA_c); vm_compute; reflexivity. Qed.
Lemma fN1_c : forb_built fN1. Proof. apply (FB_eq hN (VInt 1) fN1 hN_c); vm_compute; reflexivity. Qed.
Lemma fN2_c : forb_built fN2. Proof. apply (FB_in hN [VInt 2; VInt 3] fN2 hN_c); vm_compute; reflexivity. Qed.
Lemma fN4_c : forb_built fN4. Proof. apply (FB_eq hN (VInt 4) fN4 hN_c); vm_compute; reflexivity. Qed.
Lemma fK9_c : forb_built fK9. Proof. apply (FB_eq hK (VInt 9) fK9 hK_c); vm_compute; reflexivity. Qed.
Lemma fG_c : forb_built fG. Proof. apply (FB_eq hG (VStr "q") fG hG_c); vm_compute; reflexivity. Qed.
Lemma fRel_c : forb_built fRel. Proof. apply (FB_rel RLess hN hK fRel hN_c hK_c); vm_compute; reflexivity. Qed.
Lemma fAnd1_c : forb_built fAnd1.
Proof. apply (FB_and [fA; fN1] fAnd1); [|vm_compute; reflexivity]. intros x [<-|[<-|[]]]; [apply fA_c|apply fN1_c]. Qed.
Lemma fAnd2_c : forb_built fAnd2.
Proof. apply (FB_and [fA; fN4] fAnd2); [|vm_compute; reflexivity]. intros x [<-|[<-|[]]]; [apply fA_c|apply fN4_c]. Qed.
Lemma fAnd3_c : forb_built fAnd3.
Proof. apply (FB_and [fN2; fK9] fAnd3); [|vm_compute; reflexivity]. intros x [<-|[<-|[]]]; [apply fN2_c|apply fK9_c]. Qed.
Lemma ex_forbs_c : Forall forb_built ex_forbs.
Proof. repeat (constructor; [first [apply fAnd1_c|apply fAnd2_c|apply fAnd3_c|apply fRel_c|apply fG_c]|]). constructor. Qed.

Lemma add_ok (s : space) hs cs fs : snd (add s hs cs fs) = Ok tt -> add s hs cs fs = (fst (add s hs cs fs), Ok tt).
Proof. intros H. destruct (add s hs cs fs) as [s' r]. simpl in *. congruence. Qed.

Lemma ex_add : snd (add empty_space ex_hps ex_conds ex_forbs) = Ok tt.
Proof. vm_compute. reflexivity. Qed.

Lemma built_step s hs cs fs hs' cs' fs' : built s hs cs fs ->
  Forall constructed hs' -> Forall cond_built cs' -> Forall forb_built fs' ->
  snd (add s hs' cs' fs') = Ok tt ->
  built (fst (add s hs' cs' fs')) (hs ++ hs') (cs ++ cs') (fs ++ fs').
Proof. intros B A1 A2 A3 H. eapply built_add; eauto. apply add_ok, H. Qed.

Theorem ex_built : built ex_space ex_hps ex_conds ex_forbs.
Proof.
  apply (built_add empty_space [] [] [] ex_space ex_hps ex_conds ex_forbs built_empty ex_hps_c ex_conds_c ex_forbs_c).
  apply add_ok, ex_add.
Qed.

Lemma ex_refs : refs ex_hps ex_conds ex_forbs.
Proof.
  split.
  - intros c Hc l Hl. vm_compute in Hc.
    repeat (destruct Hc as [<-|Hc]; [vm_compute in Hl; repeat (destruct Hl as [<-|Hl]; [split; vm_compute; tauto|]); tauto|]).
    tauto.
  - intros f Hf h Hh. vm_compute in Hf.
    repeat (destruct Hf as [<-|Hf]; [vm_compute in Hh; repeat (destruct Hh as [<-|Hh]; [vm_compute; tauto|]); tauto|]).
    tauto.
Qed.
