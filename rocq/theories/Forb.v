(** * Forbidden clauses: src/ConfigSpace/forbidden.py

    As for conditions, clauses hold full hyperparameter descriptions and are evaluated with the
    index_of dictionary of the space. *)
From Coq Require Import String List ZArith QArith Bool Lia.
From Verif Require Import Base Numeric HP Cond.
Import ListNotations.
Open Scope Z_scope.

Inductive rel := RLess | REquals | RGreater.

Inductive fclause :=
| FEq (h : hp) (v : value) (vv : fval)
| FIn (h : hp) (vs : list value) (vvs : list fval)
| FRel (r : rel) (left right : hp)
| FAnd (cs : list fclause).

Lemma fclause_ind' (P : fclause -> Prop) :
  (forall h v vv, P (FEq h v vv)) ->
  (forall h vs vvs, P (FIn h vs vvs)) ->
  (forall r a b, P (FRel r a b)) ->
  (forall cs, Forall P cs -> P (FAnd cs)) ->
  forall f, P f.
Proof.
  intros HE HI HR HA. fix IH 1. intros [h v vv|h vs vvs|r a b|cs]; [apply HE|apply HI|apply HR|].
  apply HA. induction cs; constructor; auto.
Qed.

(** forbidden.py:253-266 dlcs (repeated references to one object are kept) *)
Fixpoint fdlcs (f : fclause) : list fclause :=
  match f with
  | FAnd cs => concat (map fdlcs cs)
  | _ => [f]
  end.

(** hyperparameters a clause refers to *)
Definition leaf_hps (f : fclause) : list hp :=
  match f with
  | FEq h _ _ => [h]
  | FIn h _ _ => [h]
  | FRel _ a b => [a; b]
  | FAnd _ => []
  end.
Definition forb_hps (f : fclause) : list hp := concat (map leaf_hps (fdlcs f)).
Definition forb_names (f : fclause) : list string := map hp_name (forb_hps f).

Section Forb.
  Context {E : Env}.

  (** ** Constructors *)

  (** forbidden.py:329-350 *)
  Definition mk_feq (h : hp) (v : value) : res fclause :=
    check legal_value h v or ValueError ;;
    vv <- to_vector h v ;;
    Ok (FEq h v vv).

  (** forbidden.py:414-436 *)
  Definition mk_fin (h : hp) (vs : list value) : res fclause :=
    check forallb (legal_value h) vs or ValueError ;;
    vvs <- mapM (to_vector h) vs ;;
    Ok (FIn h vs vvs).

  (** forbidden.py:124-149: no check on the hyperparameters *)
  Definition mk_frel (r : rel) (a b : hp) : res fclause := Ok (FRel r a b).

  (** forbidden.py:236-266: any number of components *)
  Definition mk_fand (cs : list fclause) : res fclause := Ok (FAnd cs).

  Inductive forb_built : fclause -> Prop :=
  | FB_eq h v f : constructed h -> mk_feq h v = Ok f -> forb_built f
  | FB_in h vs f : constructed h -> mk_fin h vs = Ok f -> forb_built f
  | FB_rel r a b f : constructed a -> constructed b -> mk_frel r a b = Ok f -> forb_built f
  | FB_and cs f : (forall x, In x cs -> forb_built x) -> mk_fand cs = Ok f -> forb_built f.

  (** comparison of two values; TypeError when they cannot be ordered *)
  Definition rel_val (r : rel) (a b : value) : res bool :=
    match r with
    | REquals => Ok (py_eqb a b)
    | RLess => match py_ltb a b with Some x => Ok x | None => Err TypeError end
    | RGreater => match py_ltb b a with Some x => Ok x | None => Err TypeError end
    end.

  (** is_forbidden_value: forbidden.py:362-366, 455-457, 520-525, 602-613, 674-684, 746-756;
      [d] maps names to values *)
  Fixpoint forb_value (d : list (string * value)) (f : fclause) : res bool :=
    match f with
    | FEq h v _ => Ok (match assoc (hp_name h) d with Some w => py_eqb w v | None => false end)
    | FIn h vs _ => Ok (match assoc (hp_name h) d with Some w => py_in w vs | None => false end)
    | FRel r a b =>
        match assoc (hp_name a) d, assoc (hp_name b) d with
        | Some x, Some y => rel_val r x y
        | _, _ => Ok false
        end
    | FAnd cs => allM (forb_value d) cs
    end.

  (** relation on two vector entries: both set, then the values are compared *)
  Definition rel_vec (r : rel) (a b : hp) (x y : fval) : res bool :=
    if (isnan x || isnan y)%bool then Ok false
    else (v <- to_value a x ;; w <- to_value b y ;; rel_val r v w).

  (** is_forbidden_vector: forbidden.py:368-370, 459-461, 527-531, 615-622, 686-693, 758-765 *)
  Fixpoint forb_vec (io : list (string * nat)) (v : list fval) (f : fclause) : res bool :=
    match f with
    | FEq h _ vv => Ok (feqb (vget io v (hp_name h)) vv)
    | FIn h _ vvs => Ok (existsb (feqb (vget io v (hp_name h))) vvs)
    | FRel r a b => rel_vec r a b (vget io v (hp_name a)) (vget io v (hp_name b))
    | FAnd cs => allM (forb_vec io v) cs
    end.

  (** is_forbidden_vector_array: forbidden.py:372-374, 463-465, 533-539, 624-634, 695-705, 767-777.
      Conversion and comparison of the columns where both entries are set is elementwise; an
      exception for one column is an exception for the call. *)
  Fixpoint forb_arr (io : list (string * nat)) (n : nat) (arr : list (list fval)) (f : fclause)
    : res (list bool) :=
    match f with
    | FEq h _ vv => Ok (map (fun x => feqb x vv) (arow io arr (hp_name h)))
    | FIn h _ vvs => Ok (map (fun x => existsb (feqb x) vvs) (arow io arr (hp_name h)))
    | FRel r a b =>
        mapM (fun xy => rel_vec r a b (fst xy) (snd xy))
             (combine (arow io arr (hp_name a)) (arow io arr (hp_name b)))
    | FAnd cs =>
        (fix go (l : list fclause) (acc : list bool) : res (list bool) :=
           match l with
           | [] => Ok acc
           | c :: l' => m <- forb_arr io n arr c ;; go l' (zip_with andb acc m)
           end) cs (repeat true n)
    end.

  (** ** Strings: forbidden.py:357, 439-443, 508-518, 599, 671, 743 *)
  Definition rel_str (r : rel) : string :=
    match r with RLess => "<" | REquals => "==" | RGreater => ">" end%string.

  Fixpoint forb_str (f : fclause) : string :=
    match f with
    | FEq h v _ => "Forbidden: " ++ hp_name h ++ " == " ++ frepr v
    | FIn h vs _ => "Forbidden: " ++ hp_name h ++ " in {" ++ String.concat ", " (map frepr vs) ++ "}"
    | FRel r a b => "Forbidden: " ++ hp_name a ++ " " ++ rel_str r ++ " " ++ hp_name b
    | FAnd cs => "(" ++ String.concat " && " (map forb_str cs) ++ ")"
    end%string.
End Forb.

Definition rel_eqb (a b : rel) : bool :=
  match a, b with RLess, RLess | REquals, REquals | RGreater, RGreater => true | _, _ => false end.

(** __eq__: forbidden.py:166-169, 256-265, 353-357, 442-452.  [forb_cmp false f g] is [f == g] and
    [forb_cmp true f g] is [g == f].  The test [x in xs] compares the elements of [xs] with [x], the
    element on the left (CPython 3.9 and later). *)
Fixpoint forb_cmp (back : bool) (f g : fclause) {struct f} : bool :=
  match f, g with
  | FEq h v _, FEq k w _ => ((if back then hp_eqb k h else hp_eqb h k) && py_eqb v w)%bool
  | FIn h vs _, FIn k ws _ =>
      if back then (hp_eqb k h && Nat.eqb (length ws) (length vs) && forallb (fun w => py_in w vs) ws)%bool
      else (hp_eqb h k && Nat.eqb (length vs) (length ws) && forallb (fun v => py_in v ws) vs)%bool
  | FRel r a b, FRel r' a' b' =>
      (rel_eqb r r' && (if back then hp_eqb a' a && hp_eqb b' b else hp_eqb a a' && hp_eqb b b'))%bool
  | FAnd cs, FAnd ds =>
      (Nat.eqb (length cs) (length ds)
       && forallb (fun c => existsb (fun d => forb_cmp true c d) ds) cs
       && forallb (fun d => existsb (fun c => forb_cmp false c d) cs) ds)%bool
  | _, _ => false
  end.
Definition forb_eqb (f g : fclause) : bool := forb_cmp false f g.
