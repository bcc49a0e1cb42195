(** * Numeric helpers: src/ConfigSpace/functional.py

    Exact rational arithmetic instead of float64. *)
From Coq Require Import List ZArith QArith Qround Qabs Bool Lia.
From Verif Require Import Base.
Import ListNotations.
Open Scope Z_scope.

(** np.rint: nearest integer, ties to even. *)
Definition rint (q : Q) : Z :=
  let f := Qfloor q in
  let r := (q - inject_Z f)%Q in
  if Qltb r (1 # 2) then f
  else if Qltb (1 # 2) r then f + 1
  else if Z.even f then f else f + 1.

(** np.round(x, ROUND_PLACES); hp_components.py:27 ROUND_PLACES = 13. *)
Definition ten13 : Z := 10000000000000.
Definition round13 (q : Q) : Q := (inject_Z (rint (q * inject_Z ten13)) / inject_Z ten13)%Q.

(** hp_components.py:28 ATOL, functional.py:349 rtol *)
Definition atol : Q := 1 # 10000000000000.
Definition rtol : Q := 1 # 100000.

(** functional.py:345-366 is_close_to_integer and 369-390 is_close_to_integer_single
    (the same formula on an array and on a scalar), with atol=ATOL as all callers pass. *)
Definition is_close_to_integer (a : Q) : bool :=
  let b := inject_Z (rint a) in
  Qle_bool (Qabs (a - b)) (atol + rtol * Qabs b).

(** functional.py:248-268 scale *)
Definition scale (x : Q) (lo hi : Q) : Q := (x * (hi - lo) + lo)%Q.

(** functional.py:271-295 normalize; the shortcut for bounds (0,1) returns x. *)
Definition normalize (x : Q) (lo hi : Q) : Q :=
  if (Qeq_bool lo 0 && Qeq_bool hi 1)%bool then x else ((x - lo) / (hi - lo))%Q.

(** functional.py:298-324 rescale *)
Definition rescale (x : Q) (flo fhi tlo thi : Q) : Q :=
  if (Qeq_bool flo tlo && Qeq_bool fhi thi)%bool then x
  else scale (normalize x flo fhi) tlo thi.

(** ndarray.clip(lo, hi) on integers *)
Definition zclip (x lo hi : Z) : Z := Z.min (Z.max x lo) hi.
(** np.clip(lo, hi) *)
Definition qclip (x lo hi : Q) : Q :=
  let m := if Qle_bool x lo then lo else x in
  if Qle_bool hi m then hi else m.

(** functional.py:208-245 quantize *)
Definition quantize (x : Q) (l u : Q) (bins : Z) : Q :=
  let unit := (Qeq_bool l 0 && Qeq_bool u 1)%bool in
  let unitnorm := if unit then x else ((x - l) / (u - l))%Q in
  let level := zclip (Qfloor (unitnorm * inject_Z bins)) 0 (bins - 1) in
  let q := (inject_Z level / inject_Z (bins - 1))%Q in
  if unit then q else (q * (u - l) + l)%Q.

(** Python range / np.arange with integer arguments and positive step:
    number of elements max(0, ceil((stop-start)/step)). *)
Definition zceil_div (a b : Z) : Z := - ((- a) / b).
Definition range_len (start stop step : Z) : nat := Z.to_nat (zceil_div (stop - start) step).
Definition arange (start stop step : Z) : list Z :=
  map (fun i => start + Z.of_nat i * step) (seq 0 (range_len start stop step)).
(** range with a negative step [-step] *)
Definition range_down (start stop step : Z) : list Z :=
  map (fun i => start - Z.of_nat i * step) (seq 0 (range_len stop start step)).

(** more_itertools.roundrobin of two iterables *)
Fixpoint roundrobin {A} (l m : list A) : list A :=
  match l with
  | [] => m
  | x :: l' => match m with [] => l | y :: m' => x :: y :: roundrobin l' m' end
  end.

(** functional.py:16-42 center_range *)
Definition center_range (center low high step : Z) : res (list Z) :=
  check ((low <=? center) && (center <=? high))%bool or AssertionError ;;
  let above := arange (center + step) (high + 1) step in
  let below := range_down (center - step) (low - 1) step in
  Ok (roundrobin below above).

(** functional.py:45-79 arange_chunked (the list of yielded chunks) *)
Definition arange_chunked (start stop step chunk_size : Z) : res (list (list Z)) :=
  check (0 <? step) or AssertionError ;;
  check (0 <? chunk_size) or AssertionError ;;
  check (start <? stop) or AssertionError ;;
  let n_items := zceil_div (stop - start) step in
  let n_chunks := zceil_div n_items chunk_size in
  Ok (map (fun chunk =>
        let chunk_start := start + Z.of_nat chunk * chunk_size in
        let chunk_stop := Z.min (chunk_start + chunk_size) stop in
        arange chunk_start chunk_stop step) (seq 0 (Z.to_nat n_chunks))).

(** np.linspace(start, stop, num, endpoint): start + i * (stop - start)/div. For num = 1 with
    endpoint numpy returns [start] (div = 0, i = 0; Q division by zero is 0). *)
Definition linspace (start stop : Q) (num : Z) (endpoint : bool) : list Q :=
  let div := if endpoint then num - 1 else num in
  map (fun i => (start + inject_Z (Z.of_nat i) * ((stop - start) / inject_Z div))%Q)
      (seq 0 (Z.to_nat num)).

(** functional.py:82-120 linspace_chunked *)
Definition linspace_chunked (start stop : Q) (num chunk_size : Z) (endpoint : bool)
  : res (list (list Q)) :=
  check (0 <? num) or AssertionError ;;
  check (0 <? chunk_size) or AssertionError ;;
  check (Qltb start stop) or AssertionError ;;
  if num <=? chunk_size then Ok [linspace start stop num endpoint]
  else
    let div := if endpoint then num - 1 else num in
    chunks <- arange_chunked 0 num 1 chunk_size ;;
    Ok (map (map (fun c => (inject_Z c / inject_Z div * (stop - start) + start)%Q)) chunks).

(** functional.py:126-145 split_arange *)
Definition split_arange (frm to pivot : Z) : list Z :=
  arange frm pivot 1 ++ arange (pivot + 1) to 1.
