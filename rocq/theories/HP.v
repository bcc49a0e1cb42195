(** * Hyperparameters: src/ConfigSpace/hyperparameters/*.py

    A hyperparameter object is represented by its description: name, kind with its
    parameters, default value and meta data.  The Python object also carries a
    distribution, a transformer and a neighbourhood object; these are functions of the
    description and modelled as functions of it (transformer: this file; distribution and
    neighbourhood: Dist.v). *)
From Coq Require Import String List ZArith QArith Qround Qabs Bool Lia.
From Coq Require DecimalString.
From Verif Require Import Base Numeric.
Import ListNotations.
Open Scope Z_scope.

(** numpy's log and exp, exact on rationals by assumption of [EnvLaws], and Python's [repr] of a
    value, which only enters through the strings by which clauses and conditions are sorted
    and de-duplicated. *)
Class Env := { flog : Q -> Q; fexp : Q -> Q; frepr : value -> string }.

(** The facts about log/exp that the theorems on logarithmic scales use. *)
Class EnvLaws (E : Env) : Prop := {
  flog_comp : forall x y, (x == y)%Q -> (flog x == flog y)%Q;
  fexp_comp : forall x y, (x == y)%Q -> (fexp x == fexp y)%Q;
  fexp_pos : forall y, (0 < fexp y)%Q;
  fexp_flog : forall x, (0 < x)%Q -> (fexp (flog x) == x)%Q;
  flog_fexp : forall y, (flog (fexp y) == y)%Q;
  flog_lt : forall x y, (0 < x)%Q -> (x < y)%Q -> (flog x < flog y)%Q
}.

(** Distribution of a numerical hyperparameter *)
Inductive dist :=
| DUniform
| DNormal (mu sigma : Q)
| DBeta (alpha beta : Q).

Inductive kind :=
| KCat (choices : list value) (weights : option (list Q))
| KOrd (sequence : list value)
| KConst (v : value)
| KInt (lower upper : Z) (log : bool) (d : dist)
| KFloat (lower upper : Q) (log : bool) (d : dist).

Record hp := mk_hp {
  hp_name : string;
  hp_kind : kind;
  hp_default : value;
  hp_meta : option string
}.

(** hp.size; None is np.inf *)
Definition hp_size (h : hp) : option Z :=
  match hp_kind h with
  | KCat c _ => Some (Z.of_nat (length c))
  | KOrd s => Some (Z.of_nat (length s))
  | KConst _ => Some 1
  | KInt lo hi _ _ => Some (hi - lo + 1)
  | KFloat _ _ _ _ => None
  end.

(** class attribute ORDERABLE: categorical.py:110, ordinal.py:36, constant.py, uniform_*.py etc. *)
Definition orderable (h : hp) : bool :=
  match hp_kind h with
  | KCat _ _ | KConst _ => false
  | KOrd _ | KInt _ _ _ _ | KFloat _ _ _ _ => true
  end.

Section Transform.
  Context {E : Env}.

  (** hp_components.py:324-334 UnitScaler._unsafe_to_value (and _unsafe_to_value_single, 313-322,
      on its reachable log branch, which is the same formula). *)
  Definition unit_raw (lo hi : Q) (log : bool) (v : Q) : Q :=
    if log then fexp (scale v (flog lo) (flog hi)) else scale v lo hi.

  (** hp_components.py:337-344 UnitScaler.to_vector; np.log of a negative number is NaN, of zero -inf *)
  Definition unit_to_vector (lo hi : Q) (log : bool) (x : Q) : fval :=
    if log then
      if Qltb 0 x then Fin (normalize (flog x) (flog lo) (flog hi))
      else if Qeq_bool x 0 then NInf else NaN
    else Fin (normalize x lo hi).

  (** numpy indexing [seq[i]], negative indices count from the end *)
  Definition np_index (l : list value) (i : Z) : res value :=
    let n := Z.of_nat (length l) in
    let j := if i <? 0 then i + n else i in
    if ((0 <=? j) && (j <? n))%bool then
      match nth_error l (Z.to_nat j) with Some v => Ok v | None => Err IndexError end
    else Err IndexError.

  (** hyperparameter.py:342-362 Hyperparameter.to_value on a scalar, with
      TransformerSeq.to_value (hp_components.py:172-192), TransformerConstant.to_value (516-523),
      UnitScaler.to_value (300-311).  NaN/inf for integers and NaN for floats are cast by
      numpy to garbage or NaN values: [Unmodelled]. *)
  Definition to_value (h : hp) (x : fval) : res value :=
    match hp_kind h with
    | KCat s _ | KOrd s =>
        match x with
        | Fin q => if is_close_to_integer q then np_index s (rint q) else Err ValueError
        | _ => Err ValueError
        end
    | KConst v => Ok v
    | KInt lo hi log _ =>
        match x with
        | Fin q => Ok (VInt (rint (unit_raw (inject_Z lo) (inject_Z hi) log q)))
        | _ => Err Unmodelled
        end
    | KFloat lo hi log _ =>
        match x with
        | Fin q => Ok (VFloat (qclip (unit_raw lo hi log q) lo hi))
        | PInf => Ok (VFloat hi)
        | NInf => Ok (VFloat lo)
        | NaN => Err Unmodelled
        end
    end.

  (** hyperparameter.py:374-393 / categorical.py:333 / ordinal.py:178 to_vector on a scalar, with
      TransformerSeq.to_vector (195-202, dict lookup), TransformerConstant.to_vector (509-513),
      UnitScaler.to_vector. A non-number given to a numerical hyperparameter raises TypeError (with
      bounds 0 and 1 numpy reads a string as a number, see Array.v; the library itself only passes legal
      values). *)
  Definition to_vector (h : hp) (v : value) : res fval :=
    match hp_kind h with
    | KCat s _ | KOrd s =>
        match py_index v s with
        | Some i => Ok (Fin (inject_Z (Z.of_nat i)))
        | None => Err KeyError
        end
    | KConst w => Ok (Fin (if py_eqb v w then 1 else 0)%Q)
    | KInt lo hi log _ =>
        match num_of v with
        | Some x => Ok (unit_to_vector (inject_Z lo) (inject_Z hi) log x)
        | None => Err TypeError
        end
    | KFloat lo hi log _ =>
        match num_of v with
        | Some x => Ok (unit_to_vector lo hi log x)
        | None => Err TypeError
        end
    end.

  (** hp_components.py:391-403 legal_value_single for an integer range; identical formula to the
      array version 361-374 *)
  Definition legal_int (lo hi : Z) (x : Q) : bool :=
    ((lo <=? rint x) && (rint x <=? hi) && is_close_to_integer x)%bool.

  (** hyperparameter.py:267-287, hp_components.py:205-212, 391-403, 526-535: legal_value of one value
      (the array versions apply the same test to each element) *)
  Definition legal_value (h : hp) (v : value) : bool :=
    match hp_kind h with
    | KCat s _ | KOrd s => py_in v s
    | KConst w => py_eqb v w
    | KInt lo hi _ _ =>
        match num_of v with Some x => legal_int lo hi x | None => false end
    | KFloat lo hi _ _ =>
        match num_of v with Some x => (Qle_bool lo x && Qle_bool x hi)%bool | None => false end
    end.

  (** hp_components.py:215-220 / 229-234 *)
  Definition legal_seq (n : nat) (q : Q) : bool :=
    (Qle_bool 0 q && Qltb q (inject_Z (Z.of_nat n)) && is_close_to_integer q)%bool.

  (** legal_vector on a scalar: hyperparameter.py:252-255 and legal_vector_single
      (hp_components.py:229-234, 406-416, 538-539) *)
  Definition legal_vector (h : hp) (x : fval) : bool :=
    match hp_kind h with
    | KCat s _ | KOrd s => match x with Fin q => legal_seq (length s) q | _ => false end
    | KConst _ => feqb x (Fin 1%Q)
    | KInt lo hi log _ =>
        match x with
        | Fin q =>
            if log then legal_int lo hi (unit_raw (inject_Z lo) (inject_Z hi) true q)
            else (is_close_to_integer (q * (inject_Z hi - inject_Z lo))
                  && (Qle_bool 0 q && Qle_bool q 1))%bool
        | _ => false
        end
    | KFloat lo hi _ _ =>
        match x with Fin q => (Qle_bool 0 q && Qle_bool q 1)%bool | _ => false end
    end.

  (** legal_vector on one element of an array: hyperparameter.py:244-250 and
      hp_components.py:215-220, 377-388, 530-531 *)
  Definition legal_vector_array (h : hp) (x : fval) : bool :=
    match hp_kind h with
    | KCat s _ | KOrd s => match x with Fin q => legal_seq (length s) q | _ => false end
    | KConst _ => feqb x (Fin 1%Q)
    | KInt lo hi log _ =>
        match x with
        | Fin q => legal_int lo hi (unit_raw (inject_Z lo) (inject_Z hi) log q)
        | _ => false
        end
    | KFloat lo hi _ _ =>
        match x with Fin q => (Qle_bool 0 q && Qle_bool q 1)%bool | _ => false end
    end.

  (** hyperparameter.py:138 _normalized_default_value *)
  Definition default_vector (h : hp) : res fval := to_vector h (hp_default h).

  (** ** Constructors *)

  (** hyperparameter.py:132-136 *)
  Definition finish (h : hp) : res hp :=
    if legal_value h (hp_default h) then Ok h else Err ValueError.

  Fixpoint has_dup (l : list value) : bool :=
    match l with [] => false | x :: l' => (py_in x l' || has_dup l')%bool end.

  Definition Qsum (l : list Q) : Q := fold_right Qplus 0%Q l.

  (** categorical.py:224-229 probabilities *)
  Definition probabilities (choices : list value) (weights : option (list Q)) : list Q :=
    match weights with
    | None => map (fun _ => (1 / inject_Z (Z.of_nat (length choices)))%Q) choices
    | Some w => map (fun x => (x / Qsum w)%Q) w
    end.

  (** np.argmax: first position of the maximum *)
  Fixpoint argmax_aux (best : nat) (bestv : Q) (i : nat) (l : list Q) : nat :=
    match l with
    | [] => best
    | x :: l' => if Qltb bestv x then argmax_aux i x (S i) l' else argmax_aux best bestv (S i) l'
    end.
  Definition argmax (l : list Q) : nat :=
    match l with [] => O | x :: l' => argmax_aux O x 1%nat l' end.

  (** categorical.py:133-291; default [None] is NotSet. [choices] a list or tuple. *)
  Definition mk_categorical (name : string) (choices : list value) (default : option value)
      (weights : option (list Q)) (meta : option string) : res hp :=
    check (negb (has_dup choices)) or ValueError ;;
    check (match weights with
           | None => true
           | Some w => (Nat.eqb (length w) (length choices)
                        && negb (existsb (fun x => Qltb x 0) w)
                        && negb (forallb (fun x => Qeq_bool x 0) w))%bool
           end) or ValueError ;;
    check (match default with None => true | Some d => py_in d choices end) or ValueError ;;
    match choices with
    | [] => match weights with
            | None => Err ZeroDivisionError   (* 1 / size, line 226 *)
            | Some _ => Err ValueError        (* unreachable: empty weights are "all zero" *)
            end
    | c0 :: _ =>
        let d := match default with
                 | Some d => d
                 | None => match weights with
                           | None => c0
                           | Some _ => nth (argmax (probabilities choices weights)) choices c0
                           end
                 end in
        finish (mk_hp name (KCat choices weights) d meta)
    end.

  (** ordinal.py:77: any(i != sequence.index(x) for i, x in enumerate(sequence)), i.e. a repeated
      element *)
  Definition mk_ordinal (name : string) (sequence : list value) (default : option value)
      (meta : option string) : res hp :=
    check (negb (has_dup sequence)) or ValueError ;;
    match default, sequence with
    | None, [] => Err IndexError
    | None, d :: _ => finish (mk_hp name (KOrd sequence) d meta)
    | Some d, _ =>
        check (py_in d sequence) or ValueError ;;
        finish (mk_hp name (KOrd sequence) d meta)
    end.

  (** constant.py:50-96 *)
  Definition mk_constant (name : string) (v : value) (meta : option string) : res hp :=
    finish (mk_hp name (KConst v) v meta).

  (** UnitScaler.__post_init__, hp_components.py:280-291 *)
  Definition scaler_ok (lo hi : Q) (log : bool) : bool :=
    (negb (Qle_bool hi lo) && negb (log && Qle_bool lo 0))%bool.

  (** Python int(x): truncation towards zero *)
  Definition py_int (q : Q) : Z := if Qle_bool 0 q then Qfloor q else Qceiling q.

  (** uniform_integer.py:67-146 *)
  Definition mk_uniform_int (name : string) (lower upper : Q) (default : option Q) (log : bool)
      (meta : option string) : res hp :=
    let lo := rint lower in let hi := rint upper in
    check (match default with None => true | Some d => is_close_to_integer d end) or TypeError ;;
    check (scaler_ok (inject_Z lo) (inject_Z hi) log) or ValueError ;;
    let d := match default with
             | Some d => py_int d
             | None => rint (unit_raw (inject_Z lo) (inject_Z hi) log (1#2))
             end in
    finish (mk_hp name (KInt lo hi log DUniform) (VInt d) meta).

  (** normal_integer.py:70-163 *)
  Definition mk_normal_int (name : string) (mu sigma lower upper : Q) (default : option Q)
      (log : bool) (meta : option string) : res hp :=
    check (negb (Qle_bool mu 0 && log)) or ValueError ;;
    let lo := rint lower in let hi := rint upper in
    check (scaler_ok (inject_Z lo) (inject_Z hi) log) or ValueError ;;
    check (match default with None => true | Some d => is_close_to_integer d end) or TypeError ;;
    let d := match default with
             | None => rint (qclip mu (inject_Z lo) (inject_Z hi))
             | Some d => rint d
             end in
    finish (mk_hp name (KInt lo hi log (DNormal mu sigma)) (VInt d) meta).

  (** beta_integer.py:116-121, beta_float.py:117-121 *)
  Definition beta_mode (a b : Q) : Q :=
    if (Qltb 1 a || Qltb 1 b)%bool then ((a - 1) / (a + b - 2))%Q else (1#2).

  (** beta_integer.py:70-160 *)
  Definition mk_beta_int (name : string) (alpha beta lower upper : Q) (default : option Q)
      (log : bool) (meta : option string) : res hp :=
    check (negb (Qltb alpha 1 || Qltb beta 1)) or ValueError ;;
    let lo := rint lower in let hi := rint upper in
    check (scaler_ok (inject_Z lo) (inject_Z hi) log) or ValueError ;;
    check (match default with None => true | Some d => is_close_to_integer d end) or TypeError ;;
    let d := match default with
             | None => rint (unit_raw (inject_Z lo) (inject_Z hi) log (beta_mode alpha beta))
             | Some d => rint d
             end in
    finish (mk_hp name (KInt lo hi log (DBeta alpha beta)) (VInt d) meta).

  (** uniform_float.py:64-122 *)
  Definition mk_uniform_float (name : string) (lower upper : Q) (default : option Q) (log : bool)
      (meta : option string) : res hp :=
    let lo := round13 lower in let hi := round13 upper in
    check (scaler_ok lo hi log) or ValueError ;;
    let d := round13 (match default with
                      | Some d => d
                      | None => qclip (unit_raw lo hi log (1#2)) lo hi
                      end) in
    finish (mk_hp name (KFloat lo hi log DUniform) (VFloat d) meta).

  (** normal_float.py:68-151 *)
  Definition mk_normal_float (name : string) (mu sigma lower upper : Q) (default : option Q)
      (log : bool) (meta : option string) : res hp :=
    check (negb (Qle_bool mu 0 && log)) or ValueError ;;
    let lo := round13 lower in let hi := round13 upper in
    check (scaler_ok lo hi log) or ValueError ;;
    let d := round13 (match default with
                      | Some d => d
                      | None => qclip (round13 mu) lo hi
                      end) in
    finish (mk_hp name (KFloat lo hi log (DNormal (round13 mu) (round13 sigma))) (VFloat d) meta).

  (** beta_float.py:68-150 *)
  Definition mk_beta_float (name : string) (alpha beta lower upper : Q) (default : option Q)
      (log : bool) (meta : option string) : res hp :=
    check (negb (Qltb alpha 1 || Qltb beta 1)) or ValueError ;;
    let a := round13 alpha in let b := round13 beta in
    let lo := round13 lower in let hi := round13 upper in
    check (scaler_ok lo hi log) or ValueError ;;
    let d := round13 (match default with
                      | Some d => d
                      | None => qclip (unit_raw lo hi log (beta_mode a b)) lo hi
                      end) in
    finish (mk_hp name (KFloat lo hi log (DBeta a b)) (VFloat d) meta).

  (** to_uniform: categorical.py:293-301, hyperparameter.py:741-758, 765-780. Ordinal and constant
      have no to_uniform; remove_hyperparameter_priors keeps them (configuration_space.py:655-661). *)
  Definition to_uniform (h : hp) : res hp :=
    match hp_kind h with
    | KCat c _ => mk_categorical (hp_name h) c (Some (hp_default h)) None (hp_meta h)
    | KInt lo hi log _ =>
        mk_uniform_int (hp_name h) (inject_Z lo) (inject_Z hi) (num_of (hp_default h)) log (hp_meta h)
    | KFloat lo hi log _ =>
        mk_uniform_float (hp_name h) lo hi (num_of (hp_default h)) log (hp_meta h)
    | KOrd _ | KConst _ => Ok h
    end.
End Transform.

(** A hyperparameter object that a constructor returned. *)
Inductive constructed {E : Env} : hp -> Prop :=
| CtorCat n c d w m h : mk_categorical n c d w m = Ok h -> constructed h
| CtorOrd n s d m h : mk_ordinal n s d m = Ok h -> constructed h
| CtorConst n v m h : mk_constant n v m = Ok h -> constructed h
| CtorUInt n lo hi d l m h : mk_uniform_int n lo hi d l m = Ok h -> constructed h
| CtorNInt n mu s lo hi d l m h : mk_normal_int n mu s lo hi d l m = Ok h -> constructed h
| CtorBInt n a b lo hi d l m h : mk_beta_int n a b lo hi d l m = Ok h -> constructed h
| CtorUFloat n lo hi d l m h : mk_uniform_float n lo hi d l m = Ok h -> constructed h
| CtorNFloat n mu s lo hi d l m h : mk_normal_float n mu s lo hi d l m = Ok h -> constructed h
| CtorBFloat n a b lo hi d l m h : mk_beta_float n a b lo hi d l m = Ok h -> constructed h.

(** ** Equality of hyperparameter objects *)

Definition opt_eqb {A} (f : A -> A -> bool) (x y : option A) : bool :=
  match x, y with Some a, Some b => f a b | None, None => true | _, _ => false end.

Definition dist_eqb (a b : dist) : bool :=
  match a, b with
  | DUniform, DUniform => true
  | DNormal m s, DNormal m' s' => (Qeq_bool m m' && Qeq_bool s s')%bool
  | DBeta m s, DBeta m' s' => (Qeq_bool m m' && Qeq_bool s s')%bool
  | _, _ => false
  end.

Fixpoint list_eqb {A} (f : A -> A -> bool) (l m : list A) : bool :=
  match l, m with
  | [], [] => true
  | x :: l', y :: m' => (f x y && list_eqb f l' m')%bool
  | _, _ => false
  end.

(** categorical.py:303-325 __eq__: same choices with the same probabilities in any order, meta
    ignored.  Others: dataclass equality, field by field; the fields derived from the description
    (transformer, distribution) are equal when the description is. Cached densities of the
    discretised distributions (distributions.py:424-435) are left out here, see Cache.v. *)
Definition cat_eqb (c : list value) (w : option (list Q)) (c' : list value) (w' : option (list Q))
  : bool :=
  (Nat.eqb (length c) (length c') &&
   forallb (fun cp =>
     match py_index (fst cp) c' with
     | None => false
     | Some j => Qeq_bool (snd cp) (nth j (probabilities c' w') (-1)%Q)
     end) (combine c (probabilities c w)))%bool.

Definition hp_eqb (h k : hp) : bool :=
  (String.eqb (hp_name h) (hp_name k) && py_eqb (hp_default h) (hp_default k) &&
   match hp_kind h, hp_kind k with
   | KCat c w, KCat c' w' => cat_eqb c w c' w'
   | KOrd s, KOrd s' => list_eqb py_eqb s s' && opt_eqb String.eqb (hp_meta h) (hp_meta k)
   | KConst v, KConst v' => py_eqb v v' && opt_eqb String.eqb (hp_meta h) (hp_meta k)
   | KInt lo hi l d, KInt lo' hi' l' d' =>
       (lo =? lo') && (hi =? hi') && Bool.eqb l l' && dist_eqb d d'
       && opt_eqb String.eqb (hp_meta h) (hp_meta k)
   | KFloat lo hi l d, KFloat lo' hi' l' d' =>
       Qeq_bool lo lo' && Qeq_bool hi hi' && Bool.eqb l l' && dist_eqb d d'
       && opt_eqb String.eqb (hp_meta h) (hp_meta k)
   | _, _ => false
   end)%bool.

(** ** An instance of [Env] satisfying [EnvLaws]

    An increasing bijection from the positive rationals to the rationals: x - 1 for x >= 1 and
    1 - 1/x for x < 1. It only serves to show that the laws are consistent and to compute examples. *)
Definition rat_log (x : Q) : Q := if Qle_bool 1 x then (x - 1)%Q else (1 - / x)%Q.
Definition rat_exp (y : Q) : Q := if Qle_bool 0 y then (y + 1)%Q else (/ (1 - y))%Q.

Definition z_str (z : Z) : string := DecimalString.NilZero.string_of_int (Z.to_int z).
Definition rat_repr (v : value) : string :=
  match v with
  | VStr s => "'" ++ s ++ "'"
  | VInt z => z_str z
  | VFloat q => let r := Qred q in z_str (Qnum r) ++ "/" ++ z_str (Zpos (Qden r))
  | VBool true => "True" | VBool false => "False"
  | VNone => "None"
  end%string.
Definition rat_env : Env := {| flog := rat_log; fexp := rat_exp; frepr := rat_repr |}.
