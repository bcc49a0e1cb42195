(** * Base: exceptions, Python values, IEEE-like vector entries

    Models the Python builtins the library relies on. *)
From Coq Require Import String Ascii List ZArith QArith Qround Qabs Bool Lia.
Import ListNotations.
Open Scope Z_scope.

(** ** Exceptions

    One constructor per exception class raised by the modelled code
    (src/ConfigSpace/exceptions.py, the builtin classes and pyparsing); messages are dropped.
    [OutOfFuel] is not a Python exception: it marks a loop that was cut off; [Unmodelled]
    marks a behaviour outside the model (numpy casting NaN to an integer). *)
Inductive err :=
| KeyError | ValueError | TypeError | IndexError | AssertionError | RuntimeError
| HyperparameterAlreadyExistsError | HyperparameterNotFoundError
| ChildNotFoundError | ParentNotFoundError | AmbiguousConditionError
| CyclicDependancyError | IllegalValueError | IllegalVectorizedValueError
| ActiveHyperparameterNotSetError | InactiveHyperparameterSetError
| ForbiddenValueError | NoPossibleNeighborsError | ZeroDivisionError
| NotImplementedError | ParseException | OutOfFuel | Unmodelled.

Inductive res (A : Type) := Ok (a : A) | Err (e : err).
Arguments Ok {A} a.
Arguments Err {A} e.

Definition bind {A B} (r : res A) (f : A -> res B) : res B :=
  match r with Ok a => f a | Err e => Err e end.

Declare Scope res_scope.
Notation "x <- r ;; k" := (bind r (fun x => k))
  (at level 61, r at next level, right associativity) : res_scope.
Notation "'check' b 'or' e ;; k" := (if b then k else Err e)
  (at level 61, b at next level, e at next level, right associativity) : res_scope.
Open Scope res_scope.

Definition is_ok {A} (r : res A) : bool := match r with Ok _ => true | Err _ => false end.

Section ListM.
  Context {A B : Type}.
  (** Left to right evaluation of a list of computations, stopping at the first exception. *)
  Definition mapM (f : A -> res B) : list A -> res (list B) :=
    fix go l := match l with
                | [] => Ok []
                | x :: l' => y <- f x ;; ys <- go l' ;; Ok (y :: ys)
                end.

  (** Python's [all(...)] / [any(...)] over a generator that may raise: short-circuiting. *)
  Definition allM (f : A -> res bool) : list A -> res bool :=
    fix go l := match l with
                | [] => Ok true
                | x :: l' => b <- f x ;; if b : bool then go l' else Ok false
                end.

  Definition anyM (f : A -> res bool) : list A -> res bool :=
    fix go l := match l with
                | [] => Ok false
                | x :: l' => b <- f x ;; if b : bool then Ok true else go l'
                end.
End ListM.

(** ** Vector entries: numpy float64 with exact arithmetic

    Finite entries are rationals; rounding of IEEE 754 is not modelled.  Comparisons
    with NaN are false, [!=] with NaN is true. *)
Inductive fval := Fin (q : Q) | PInf | NInf | NaN.

Definition isnan (x : fval) : bool := match x with NaN => true | _ => false end.
Definition isfinite (x : fval) : bool := match x with Fin _ => true | _ => false end.

Definition Qltb (a b : Q) : bool := negb (Qle_bool b a).

(** numpy [==] *)
Definition feqb (x y : fval) : bool :=
  match x, y with
  | Fin a, Fin b => Qeq_bool a b
  | PInf, PInf => true
  | NInf, NInf => true
  | _, _ => false
  end.

(** numpy [!=] *)
Definition fneqb (x y : fval) : bool := negb (feqb x y).

(** numpy [<] *)
Definition fltb (x y : fval) : bool :=
  match x, y with
  | Fin a, Fin b => Qltb a b
  | NInf, Fin _ => true
  | NInf, PInf => true
  | Fin _, PInf => true
  | _, _ => false
  end.

(** numpy [>] *)
Definition fgtb (x y : fval) : bool := fltb y x.

(** Same vector entry: both NaN, or numerically equal. *)
Definition fsame (x y : fval) : Prop :=
  match x, y with
  | Fin a, Fin b => (a == b)%Q
  | PInf, PInf => True
  | NInf, NInf => True
  | NaN, NaN => True
  | _, _ => False
  end.

(** ** Python values

    Hashable scalar values; tuples, arrays and arbitrary objects used as choices are not
    modelled.  [VFloat] is a finite float. *)
Inductive value :=
| VStr (s : string) | VInt (z : Z) | VFloat (q : Q) | VBool (b : bool) | VNone.

(** isinstance(v, (int, float, np.number)): bool is a subclass of int. *)
Definition num_of (v : value) : option Q :=
  match v with
  | VInt z => Some (inject_Z z)
  | VFloat q => Some q
  | VBool b => Some (if b then 1%Q else 0%Q)
  | _ => None
  end.

(** Python [==] on these values: numbers compare by value across types. *)
Definition py_eqb (v w : value) : bool :=
  match num_of v, num_of w with
  | Some a, Some b => Qeq_bool a b
  | None, None =>
      match v, w with
      | VStr s, VStr t => String.eqb s t
      | VNone, VNone => true
      | _, _ => false
      end
  | _, _ => false
  end.

(** Python [<] on these values; [None] stands for TypeError. *)
Definition py_ltb (v w : value) : option bool :=
  match num_of v, num_of w with
  | Some a, Some b => Some (Qltb a b)
  | None, None =>
      match v, w with
      | VStr s, VStr t => Some (String.ltb s t)
      | _, _ => None
      end
  | _, _ => None
  end.

(** Python [x in seq] for a tuple/list/dict of such values. *)
Definition py_in (v : value) (l : list value) : bool := existsb (py_eqb v) l.

(** Python [seq.index(x)]: first equal position. *)
Fixpoint py_index (v : value) (l : list value) : option nat :=
  match l with
  | [] => None
  | w :: l' => if py_eqb w v then Some O else option_map S (py_index v l')
  end.

(** ** Association lists: insertion ordered Python dicts keyed by names *)
Section Assoc.
  Context {A : Type}.

  (** dict.get *)
  Fixpoint assoc (n : string) (d : list (string * A)) : option A :=
    match d with
    | [] => None
    | (m, a) :: d' => if String.eqb n m then Some a else assoc n d'
    end.

  (** d[n] = a : keeps the position of an existing key, appends a new one. *)
  Fixpoint assoc_set (n : string) (a : A) (d : list (string * A)) : list (string * A) :=
    match d with
    | [] => [(n, a)]
    | (m, b) :: d' => if String.eqb n m then (m, a) :: d' else (m, b) :: assoc_set n a d'
    end.

  Definition assoc_keys (d : list (string * A)) : list string := map fst d.
  Definition assoc_mem (n : string) (d : list (string * A)) : bool :=
    match assoc n d with Some _ => true | None => false end.
End Assoc.

(** [n in names] for strings *)
Definition str_in (n : string) (l : list string) : bool := existsb (String.eqb n) l.

(** list(set(l)) up to order / dict keyed by strings: keep the first occurrence. *)
Fixpoint nub_aux (seen : list string) (l : list string) : list string :=
  match l with
  | [] => []
  | n :: l' => if str_in n seen then nub_aux seen l' else n :: nub_aux (n :: seen) l'
  end.
Definition nub (l : list string) : list string := nub_aux [] l.

(** Replace position [i] (numpy item assignment on a copy). *)
Fixpoint set_nth {A} (i : nat) (a : A) (l : list A) : list A :=
  match l, i with
  | [], _ => []
  | _ :: l', O => a :: l'
  | x :: l', S j => x :: set_nth j a l'
  end.

(** ** Stable insertion sort: Python's [sorted], which is stable *)
Section Sort.
  Context {A : Type} (ltb : A -> A -> bool).
  (** insert after all elements that are not greater *)
  Fixpoint insert_sorted (x : A) (l : list A) : list A :=
    match l with
    | [] => [x]
    | y :: l' => if ltb x y then x :: y :: l' else y :: insert_sorted x l'
    end.
  (** elements are inserted from left to right, each after its equals: stable *)
  Definition py_sorted (l : list A) : list A :=
    fold_left (fun acc x => insert_sorted x acc) l [].
End Sort.
