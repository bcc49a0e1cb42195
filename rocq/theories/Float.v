(** * float64 arithmetic

    The rest of the model computes with exact rationals.  This file repeats functional.py, UnitScaler and
    the distribution of uniform integers with the arithmetic that numpy uses: IEEE 754 binary64, rounding
    to nearest, ties to even, with infinities and NaN (Flocq's binary_float 53 1024). *)
From Coq Require Import ZArith List Bool.
From Flocq Require Import Core IEEE754.BinarySingleNaN.
From Verif Require Import Base Numeric.
Import ListNotations.
Open Scope Z_scope.

Definition f64 := binary_float 53 1024.
#[global] Instance prec53 : Prec_gt_0 53 := eq_refl.
#[global] Instance emax1024 : Prec_lt_emax 53 1024 := eq_refl.

Definition fadd : f64 -> f64 -> f64 := Bplus mode_NE.
Definition fsub : f64 -> f64 -> f64 := Bminus mode_NE.
Definition fmul : f64 -> f64 -> f64 := Bmult mode_NE.
Definition fdiv : f64 -> f64 -> f64 := Bdiv mode_NE.
Definition fabs : f64 -> f64 := Babs.
Definition fle : f64 -> f64 -> bool := Bleb.
Definition flt : f64 -> f64 -> bool := Bltb.
Definition feq : f64 -> f64 -> bool := Beqb.
(** np.rint and ndarray.round(), np.floor *)
Definition frint : f64 -> f64 := Bnearbyint mode_NE.
Definition ffloor : f64 -> f64 := Bnearbyint mode_DN.
(** f64(z) of an integer; the numerals below *)
Definition of_Z (z : Z) : f64 := binary_normalize 53 1024 prec53 emax1024 mode_NE z 0 false.
Definition f0 : f64 := of_Z 0.
Definition f1 : f64 := of_Z 1.
(** np.maximum, np.minimum and np.clip hand on NaN *)
Definition fmax (x y : f64) : f64 := if is_nan x then x else if is_nan y then y else if fle x y then y else x.
Definition fmin (x y : f64) : f64 := if is_nan x then x else if is_nan y then y else if fle x y then x else y.
Definition fclip (x lo hi : f64) : f64 := fmin (fmax x lo) hi.
(** astype(i64); what it does to numbers that are no 64 bit integers depends on the machine *)
Definition to_i64 (x : f64) : res Z :=
  if is_finite x then
    let z := Btrunc x in if ((- 2 ^ 63 <=? z) && (z <? 2 ^ 63))%bool then Ok z else Err Unmodelled
  else Err Unmodelled.

(** hp_components.py:28 ATOL = 1e-13, functional.py:349 rtol = 1e-5: the floats nearest to them *)
Definition fatol : f64 := fdiv f1 (of_Z 10000000000000).
Definition frtol : f64 := fdiv f1 (of_Z 100000).

(** functional.py:345-366 is_close_to_integer, 369-390 is_close_to_integer_single *)
Definition fclose (a : f64) : bool :=
  let b := frint a in fle (fabs (fsub a b)) (fadd fatol (fmul frtol (fabs b))).

(** functional.py:248-268 scale, 271-295 normalize *)
Definition fscale (x lo hi : f64) : f64 := fadd (fmul x (fsub hi lo)) lo.
Definition fnormalize (x lo hi : f64) : f64 :=
  if (feq lo f0 && feq hi f1)%bool then x else fdiv (fsub x lo) (fsub hi lo).

(** functional.py:208-245 quantize *)
Definition fquantize (x l u : f64) (bins : Z) : f64 :=
  let unit := (feq l f0 && feq u f1)%bool in
  let unitnorm := if unit then x else fdiv (fsub x l) (fsub u l) in
  let level := fclip (ffloor (fmul unitnorm (of_Z bins))) f0 (of_Z (bins - 1)) in
  let q := fdiv level (of_Z (bins - 1)) in
  if unit then q else fadd (fmul q (fsub u l)) l.

(** np.round(x, 13) of a float: multiplication by 10.0 ** 13, rint, division *)
Definition fround13 (x : f64) : f64 := fdiv (frint (fmul x (of_Z 10000000000000))) (of_Z 10000000000000).

(** ** UnitScaler without log, for integers: hp_components.py:238-417. The bounds are i64, at most 2^63 in
    absolute value, and converted by f64: 288-290 *)
(** 337-344 to_vector *)
Definition int_to_vector (lo hi v : Z) : f64 := fnormalize (of_Z v) (of_Z lo) (of_Z hi).
(** 324-334 _unsafe_to_value *)
Definition int_unsafe (lo hi : Z) (x : f64) : f64 := fscale x (of_Z lo) (of_Z hi).
(** 300-304 to_value *)
Definition int_to_value (lo hi : Z) (x : f64) : res Z := to_i64 (frint (int_unsafe lo hi x)).
(** 361-374 legal_value of an array of floats, 391-402 legal_value_single *)
Definition int_legal (lo hi : Z) (x : f64) : bool :=
  fle (of_Z lo) (frint x) && fle (frint x) (of_Z hi) && fclose x.
(** 376-387 legal_vector of an array *)
Definition int_legal_vector (lo hi : Z) (x : f64) : bool := int_legal lo hi (int_unsafe lo hi x).
(** 404-412 legal_vector_single *)
Definition int_legal_vector_single (lo hi : Z) (x : f64) : bool :=
  fle f0 x && fle x f1 && fclose (fmul x (fsub (of_Z hi) (of_Z lo))).

(** ** UnitScaler without log, for floats: 337-344 to_vector, 306-311 to_value, 376-389 legal_vector, legal_value *)
Definition float_to_vector (lo hi v : f64) : f64 := fnormalize v lo hi.
Definition float_to_value (lo hi x : f64) : f64 := fclip (fscale x lo hi) lo hi.
Definition float_legal (lo hi v : f64) : bool := fle lo v && fle v hi.
Definition float_legal_vector (x : f64) : bool := fle f0 x && fle x f1.
(** configuration.py:119-125 the value stored for a float, 231-234 the value read *)
Definition float_stored (v : f64) : f64 := fround13 v.
Definition float_read (lo hi x : f64) : f64 := fround13 (float_to_value lo hi x).

(** ** Uniform integers without log: distributions.py:779-847 *)
(** 792-801 sample_vector; [i] is the drawn integer *)
Definition int_sample (size i : Z) : f64 := fdiv (of_Z i) (of_Z (size - 1)).
(** 803-824 pdf_vector, times the mask of hyperparameter.py:493-505 *)
Definition int_pdf (lo hi : Z) (x : f64) : f64 :=
  let size := hi - lo + 1 in
  let p := if (fle f0 x && fle x f1 && fclose (fmul x (of_Z (size - 1))))%bool then fdiv f1 (of_Z size) else f0 in
  fmul p (if int_legal_vector lo hi x then f1 else f0).

(** np.unique: sorted, without repetition *)
Fixpoint finsert (x : f64) (l : list f64) : list f64 :=
  match l with
  | [] => [x]
  | y :: l' => if flt x y then x :: l else if feq x y then l else y :: finsert x l'
  end.
Definition funique (l : list f64) : list f64 := fold_right finsert [] l.
Definition fmem (x : f64) (l : list f64) : bool := existsb (feq x) l.

(** distributions.py:69-199 quantized_neighborhood with lower, upper = 0, 1; [cands] are the arrays that
    seed.normal returns, one for each standard deviation *)
Fixpoint fnb_loop (bins : Z) (n : nat) (buf : list f64) (cands : list (list f64)) : res (list f64) :=
  match cands with
  | [] => Err ValueError
  | c :: cands' =>
      let ok := filter (fun x => fle f0 x && fle x f1)%bool c in
      let uniq := funique (map (fun x => fquantize x f0 f1 bins) ok) in
      let new := filter (fun x => negb (fmem x buf)) uniq in
      check (Nat.leb (length buf + length new) (5 * n + 1)) or ValueError ;;
      let buf' := buf ++ new in
      if Nat.leb n (length buf' - 1) then Ok (firstn n (tl buf')) else fnb_loop bins n buf' cands'
  end.
Definition fover (bins : Z) (l : list Z) : list f64 := map (fun i => fdiv (of_Z i) (of_Z (bins - 1))) l.
Definition int_neighborhood (bins : Z) (x : f64) (n : nat) (cands : list (list f64)) : res (list f64) :=
  check (Z.of_nat n <? 1000000) or AssertionError ;;
  let q := fquantize x f0 f1 bins in
  if bins - 1 <=? Z.of_nat n then
    if feq q f0 then Ok (fover bins (arange 1 bins 1))
    else if feq q (of_Z (bins - 1)) then Ok (fover bins (arange 0 (bins - 1) 1))
    else
      k <- to_i64 (frint (fmul x (of_Z (bins - 1)))) ;;
      Ok (fover bins (arange 0 k 1 ++ arange (k + 1) bins 1))
  else fnb_loop bins n [q] cands.
