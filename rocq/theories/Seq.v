(** * Choices that are tuples or lists: categorical.py, ordinal.py, constant.py, hp_components.py

    HP.v has choices that are strings, numbers, booleans or None.  Here a choice may also be a tuple or
    a list.  The parts of the code for that case are modelled on their own; the vector entries are
    indices as in HP.v.  numpy is taken to be version 1.24 or later, where np.asarray refuses
    sequences of different shapes. *)
From Coq Require Import String List ZArith QArith Bool.
From Verif Require Import Base Numeric HP Dist Fix Array.
Import ListNotations.
Open Scope bool_scope.

Inductive obj := OVal (v : value) | OTup (l : list obj) | OList (l : list obj).

(** isinstance(x, Sequence) and not isinstance(x, str) *)
Definition is_seq (o : obj) : bool := match o with OVal _ => false | _ => true end.

(** Python ==: a tuple never equals a list *)
Fixpoint oeq (a b : obj) {struct a} : bool :=
  let all := fix all (l m : list obj) {struct l} : bool :=
    match l, m with
    | [], [] => true
    | x :: l', y :: m' => oeq x y && all l' m'
    | _, _ => false
    end in
  match a, b with
  | OVal v, OVal w => py_eqb v w
  | OTup l, OTup m => all l m
  | OList l, OList m => all l m
  | _, _ => false
  end.

(** hash(x) does not raise *)
Fixpoint hashable (o : obj) : bool :=
  match o with OVal _ => true | OTup l => forallb hashable l | OList _ => false end.

Definition oin (o : obj) (l : list obj) : bool := existsb (fun c => oeq c o) l.
Fixpoint oindex (o : obj) (l : list obj) : option nat :=
  match l with
  | [] => None
  | c :: l' => if oeq c o then Some O else option_map S (oindex o l')
  end.

(** a flat sequence of numbers *)
Fixpoint flat_nums (l : list obj) : option (list Q) :=
  match l with
  | [] => Some []
  | OVal v :: l' => match num_of v, flat_nums l' with Some q, Some qs => Some (q :: qs) | _, _ => None end
  | _ :: _ => None
  end.

(** The truth of [c == v] where v is an element of np.array([v]).  A numpy number compares itself with
    every element of a sequence; the truth of the resulting array is that of its element if there is
    one, and False (an error since numpy 2.2) if there is none; otherwise ValueError.  A numpy string
    is compared like a string. *)
Definition eq_elem (c : obj) (v : value) : res bool :=
  match c with
  | OVal w => Ok (py_eqb w v)
  | OTup l | OList l =>
      match num_of v with
      | None => Ok false
      | Some q =>
          match flat_nums l with
          | Some [x] => Ok (Qeq_bool x q)
          | Some [] => Ok false
          | Some _ => Err ValueError
          | None => Err Unmodelled
          end
      end
  end.

(** list.index and [in] of a list, where comparing may raise *)
Fixpoint scan (v : value) (l : list obj) : res (option nat) :=
  match l with
  | [] => Ok None
  | c :: l' => b <- eq_elem c v ;; if b then Ok (Some O) else (r <- scan v l' ;; Ok (option_map S r))
  end.

(** categorical.py:89-95 and ordinal.py:44-52: the attributes in use *)
Record ocat := { oc_choices : list obj; oc_default : obj }.

(** categorical.py:261-264, ordinal.py:108-111 _contains_sequence_as_value; then np.asarray(choices) has more than
    one dimension or raises, and the transformer gets list(choices): categorical.py:240-256, ordinal.py:88-103 *)
Definition contains_seq (cs : list obj) : bool := existsb is_seq cs.
(** hp_components.py:154-157 _lookup is not None *)
Definition has_lookup (cs : list obj) : bool := forallb hashable cs.

(** categorical.py:333-355, ordinal.py:178-200 to_vector with hp_components.py:195-202, of a
    hyperparameter with a sequence among its choices *)
Definition o_to_vector (h : ocat) (o : obj) : res nat :=
  let cs := oc_choices h in
  if has_lookup cs then
    if hashable o then match oindex o cs with Some i => Ok i | None => Err KeyError end else Err TypeError
  else
    r <- match o with OVal v => scan v cs | _ => Ok (oindex o cs) end ;;
    match r with Some i => Ok i | None => Err ValueError end.

(** categorical.py:358-380, ordinal.py:203-225 legal_value with hp_components.py:205-212 *)
Definition o_legal_value (h : ocat) (o : obj) : res bool :=
  let cs := oc_choices h in
  if has_lookup cs then
    if hashable o then Ok (oin o cs) else Err TypeError
  else
    match o with
    | OVal v => r <- scan v cs ;; Ok (match r with Some _ => true | None => false end)
    | _ => Ok (oin o cs)
    end.

(** hyperparameter.py:342-362 to_value with hp_components.py:184-190, of an index *)
Definition o_to_value (h : ocat) (i : nat) : res obj :=
  match nth_error (oc_choices h) i with Some c => Ok c | None => Err IndexError end.

(** categorical.py:391-397, ordinal.py:236-242 pdf_values of a list goes element by element: the indices *)
Definition o_to_vectors (h : ocat) (l : list obj) : res (list nat) :=
  mapM (fun o => if has_lookup (oc_choices h) then o_to_vector h o
                 else match oindex o (oc_choices h) with Some i => Ok i | None => Err ValueError end) l.

(** hyperparameter.py:132-138: the default has to be legal, and is converted *)
Definition o_finish (h : ocat) : res ocat :=
  b <- o_legal_value h (oc_default h) ;;
  check b or ValueError ;;
  i <- o_to_vector h (oc_default h) ;;
  Ok h.

(** categorical.py:138-158 the test for repeated choices: a Counter if all are hashable, otherwise
    all pairs of different objects.  [same i j]: choice i and choice j are one object. *)
Definition pairs (n : nat) : list (nat * nat) := list_prod (seq 0 n) (seq 0 n).
Definition repeats (same : nat -> nat -> bool) (cs : list obj) : bool :=
  existsb (fun p => match nth_error cs (fst p), nth_error cs (snd p) with
                    | Some a, Some b =>
                        (if has_lookup cs then negb (Nat.eqb (fst p) (snd p)) else negb (same (fst p) (snd p))) && oeq a b
                    | _, _ => false
                    end) (pairs (length cs)).

(** categorical.py:131-279 without weights, for choices with a sequence among them *)
Definition mk_ocat (same : nat -> nat -> bool) (cs : list obj) (default : option obj) : res ocat :=
  check contains_seq cs or Unmodelled ;;
  check negb (repeats same cs) or ValueError ;;
  check match default with Some d => oin d cs | None => true end or ValueError ;;
  match cs with
  | [] => Err ZeroDivisionError
  | c :: _ => o_finish {| oc_choices := cs; oc_default := match default with Some d => d | None => c end |}
  end.

(** ordinal.py:76-125: an element is repeated if its first index is not its own *)
Definition mk_oord (s : list obj) (default : option obj) : res ocat :=
  check contains_seq s or Unmodelled ;;
  check forallb (fun i => match nth_error s i with
                          | Some x => match oindex x s with Some j => Nat.eqb i j | None => false end
                          | None => false end) (seq 0 (length s)) or ValueError ;;
  match s with
  | [] => Err IndexError
  | c :: _ =>
      check match default with Some d => oin d s | None => true end or ValueError ;;
      o_finish {| oc_choices := s; oc_default := match default with Some d => d | None => c end |}
  end.

(** categorical.py:299-323 __eq__ of two hyperparameters of one name without weights *)
Definition ocat_eqb (a b : ocat) : bool :=
  oeq (oc_default a) (oc_default b) && Nat.eqb (length (oc_choices a)) (length (oc_choices b))
  && forallb (fun c => oin c (oc_choices b)) (oc_choices a).

(** ** Constants: constant.py:108-130, 153-175 with hp_components.py:509-513, 526-527

    The answer is one truth value, or an array when a numpy number is compared with a sequence. *)
Inductive answer := One (b : bool) | Mask (l : list bool).
Definition truth (a : answer) : res bool :=
  match a with One b | Mask [b] => Ok b | Mask [] => Ok false | Mask _ => Err ValueError end.
Definition const_legal (w o : obj) : res answer :=
  match w, o with
  | OVal w', OVal v => Ok (One (py_eqb v w'))
  | OVal _, _ => Err Unmodelled     (* a list of values: Array.v *)
  | (OTup l | OList l), OVal v =>
      match num_of v with
      | None => Ok (One false)
      | Some q => match flat_nums l with Some qs => Ok (Mask (map (fun x => Qeq_bool q x) qs)) | None => Err Unmodelled end
      end
  | _, _ => Ok (One (oeq o w))
  end.

(** ** JSON: configuration_space.py to_json, dictionary.py:430 and 443; a tuple is written like a list *)
Fixpoint json_obj (o : obj) : obj :=
  match o with OVal v => OVal v | OTup l | OList l => OList (map json_obj l) end.
(** dictionary.py decodes by calling the constructor *)
Definition json_ocat (same : nat -> nat -> bool) (h : ocat) : res ocat :=
  mk_ocat same (map json_obj (oc_choices h)) (Some (json_obj (oc_default h))).

(** ** A list as the value of a hyperparameter whose choices are no sequences

    configuration.py:109-124: the list is first tested by legal_value, whose answer is an array, then kept as it
    is (a float is rounded, float() of an array of one element), and converted. *)
Section ListValue.
  Context {E : Env}.
  Variable T : text.
  Inductive stored := SOne (v : value) | SList (l : list value).
  Definition set_list (h : hp) (l : list value) : res (stored * fval) :=
    b <- truth (Mask (legal_values T h l)) ;;
    check b or IllegalValueError ;;
    match hp_kind h, l with
    | KFloat _ _ _ _, [v] =>
        match num_of v with
        | Some q => x <- to_vector h (VFloat (round13 q)) ;; Ok (SOne (VFloat (round13 q)), x)
        | None => Err TypeError
        end
    | _, _ =>
        xs <- to_vectors T h l ;;
        match xs with [x] => Ok (SList l, x) | _ => Err ValueError end
    end.
End ListValue.
