(** * float64: the probabilities of a weighted categorical and the choice made with them

    categorical.py:200-229 and distributions.py:1119-1139 with binary64 numbers. *)
From Coq Require Import ZArith List Bool Permutation.
From Flocq Require Import Core IEEE754.BinarySingleNaN.
From Verif Require Import Base Numeric Float.
Import ListNotations.
Open Scope Z_scope.

(** categorical.py:201-209: the weights that the constructor accepts *)
Definition weights_ok (ws : list f64) : bool :=
  (negb (existsb (fun w => flt w f0) ws) && negb (forallb (fun w => feq w f0) ws))%bool.

(** np.sum adds its numbers in an order that depends on how many they are (pairwise, in blocks): any
    order, with a zero to start from or without *)
Inductive additions := Num (x : f64) | Add (a b : additions).
Fixpoint total (t : additions) : f64 := match t with Num x => x | Add a b => fadd (total a) (total b) end.
Fixpoint leaves (t : additions) : list f64 := match t with Num x => [x] | Add a b => leaves a ++ leaves b end.
Definition sum_of (ws : list f64) (s : f64) : Prop :=
  exists t, total t = s /\ (Permutation ws (leaves t) \/ exists z, feq z f0 = true /\ Permutation (z :: ws) (leaves t)).

(** 228-229 probabilities = _weights / np.sum(_weights) *)
Definition probs (ws : list f64) (s : f64) : list f64 := map (fun w => fdiv w s) ws.

(** 234-235 np.argmax(probabilities): the first of the largest; np.argmax treats NaN as the largest *)
Fixpoint argmax_from (i best : nat) (x : f64) (l : list f64) : nat :=
  match l with
  | [] => best
  | y :: l' => if is_nan x then best else if (is_nan y || flt x y)%bool then argmax_from (S i) i y l' else argmax_from (S i) best x l'
  end.
Definition fargmax (l : list f64) : nat := match l with [] => O | x :: l' => argmax_from 1 0 x l' end.

(** distributions.py:1133-1138 seed.choice(size, p=probabilities): numpy adds up the probabilities from
    the left, divides by the last sum and takes the first sum above a drawn number [u] of [0, 1) *)
Fixpoint cumulated (acc : f64) (l : list f64) : list f64 :=
  match l with [] => [] | p :: l' => let s := fadd acc p in s :: cumulated s l' end.
Definition cdf (ps : list f64) : list f64 :=
  match ps with
  | [] => []
  | p :: l => let c := p :: cumulated p l in map (fun x => fdiv x (last c p)) c
  end.
Fixpoint first_above (u : f64) (l : list f64) (i : nat) : nat :=
  match l with [] => i | x :: l' => if flt u x then i else first_above u l' (S i) end.
Definition choose (ps : list f64) (u : f64) : nat := first_above u (cdf ps) 0.
