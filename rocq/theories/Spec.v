(** * Specification vocabulary

    Everything here is stated over what the user declared (the arguments of the add calls), without reference to the tables the library derives from it. *)
From Coq Require Import String List ZArith QArith Bool Lia Permutation Relations.
From Verif Require Import Base Numeric HP Cond Forb Dag Space.
Import ListNotations.
Open Scope nat_scope.

(** the exceptions by which add() reports a problem with the declarations *)
Definition decl_err (e : err) : bool :=
  match e with
  | HyperparameterAlreadyExistsError | HyperparameterNotFoundError | ChildNotFoundError
  | ParentNotFoundError | AmbiguousConditionError | CyclicDependancyError => true
  | _ => false
  end.
(** a computation that raises none of them *)
Definition clean {A} (r : res A) : Prop := forall e, r = Err e -> decl_err e = false.

Section Spec.
  Context {E : Env}.

  (** ** Calls of add() that raise

      What a call leaves behind that raises: everything before the item that is refused, or everything
      if all items are accepted and then the merging of the clauses or the default configuration
      raises.  [hs] and [cs] are the hyperparameters and conditions the space has.  Left out: a
      condition refused because of a cycle, and one refused because of an unknown parent after others
      of its parents were found; they leave a broken space behind (C08_poisoned_refuted,
      C123_half_refuted). *)
  Inductive refused (s : space) (hs : list hp) (cs : list cond) (hs' : list hp) (cs' : list cond) (fs' : list fclause)
    : list hp -> list cond -> list fclause -> Prop :=
  | R_name hs1 h hs2 : hs' = hs1 ++ h :: hs2 -> clean (snd (add s hs1 [] [])) ->
      In (hp_name h) (map hp_name (hs ++ hs1)) -> refused s hs cs hs' cs' fs' hs1 [] []
  | R_child cs1 c cs2 n : cs' = cs1 ++ c :: cs2 -> clean (snd (add s hs' cs1 [])) ->
      option_map hp_name (cond_child c) = Some n -> ~ In n (map hp_name (hs ++ hs')) -> refused s hs cs hs' cs' fs' hs' cs1 []
  | R_ambiguous cs1 c cs2 c0 : cs' = cs1 ++ c :: cs2 -> clean (snd (add s hs' cs1 [])) -> In c0 (cs ++ cs1) ->
      option_map hp_name (cond_child c) = option_map hp_name (cond_child c0) -> cond_eqb c c0 = false ->
      refused s hs cs hs' cs' fs' hs' cs1 []
  | R_parents cs1 c cs2 : cs' = cs1 ++ c :: cs2 -> clean (snd (add s hs' cs1 [])) ->
      (forall p, In p (cond_parents c) -> ~ In p (map hp_name (hs ++ hs'))) -> refused s hs cs hs' cs' fs' hs' cs1 []
  | R_clause fs1 f fs2 n : fs' = fs1 ++ f :: fs2 -> clean (snd (add s hs' cs' fs1)) ->
      In n (forb_names f) -> ~ In n (map hp_name (hs ++ hs')) -> refused s hs cs hs' cs' fs' hs' cs' fs1
  | R_late e : snd (add s hs' cs' fs') = Err e -> decl_err e = false -> refused s hs cs hs' cs' fs' hs' cs' fs'.
  (** any number of such calls, with what the space has before and after them *)
  Inductive tried : space -> list hp -> list cond -> list fclause -> space -> list hp -> list cond -> list fclause -> Prop :=
  | tried_none s hs cs fs : tried s hs cs fs s hs cs fs
  | tried_more s hs cs fs s1 hs1 cs1 fs1 hs' cs' fs' hs2 cs2 fs2 :
      tried s hs cs fs s1 hs1 cs1 fs1 -> Forall constructed hs' -> Forall cond_built cs' -> Forall forb_built fs' ->
      refused s1 hs1 cs1 hs' cs' fs' hs2 cs2 fs2 ->
      tried s hs cs fs (fst (add s1 hs' cs' fs')) (hs1 ++ hs2) (cs1 ++ cs2) (fs1 ++ fs2).

  (** A space reached from the empty one by add calls, the last of which succeeded, with everything
      that it has. *)
  Inductive built : space -> list hp -> list cond -> list fclause -> Prop :=
  | built_empty : built empty_space [] [] []
  | built_add s hs cs fs s' hs' cs' fs' :
      built s hs cs fs ->
      Forall constructed hs' -> Forall cond_built cs' -> Forall forb_built fs' ->
      add s hs' cs' fs' = (s', Ok tt) ->
      built s' (hs ++ hs') (cs ++ cs') (fs ++ fs')
  | built_after s hs cs fs s1 hs1 cs1 fs1 s' hs' cs' fs' :
      built s hs cs fs -> tried s hs cs fs s1 hs1 cs1 fs1 ->
      Forall constructed hs' -> Forall cond_built cs' -> Forall forb_built fs' ->
      add s1 hs' cs' fs' = (s', Ok tt) ->
      built s' (hs1 ++ hs') (cs1 ++ cs') (fs1 ++ fs').
End Spec.

(** the name of the hyperparameter a condition activates *)
Definition activates (cnd : cond) (n : string) : Prop := option_map hp_name (cond_child cnd) = Some n.

(** the condition of [c] reads [p] *)
Definition reads (cs : list cond) (p c : string) : Prop :=
  exists cnd, In cnd cs /\ activates cnd c /\ In p (cond_parents cnd).

(** no hyperparameter depends on itself, directly or indirectly *)
Definition no_cycle (cs : list cond) : Prop := forall n, ~ clos_trans _ (reads cs) n n.

(** a chain of [k] hyperparameters ending in [n], each conditional on the one before *)
Inductive chain (cs : list cond) : string -> nat -> Prop :=
| chain_one n : chain cs n 1
| chain_more p n k : chain cs p k -> reads cs p n -> chain cs n (S k).

(** [k] is the length of the longest chain ending in [n] *)
Definition longest (cs : list cond) (n : string) (k : nat) : Prop :=
  chain cs n k /\ forall k', chain cs n k' -> k' <= k.

(** order by (depth, name) *)
Definition before (cs : list cond) (a b : string) : Prop :=
  exists i j, longest cs a i /\ longest cs b j /\ (i < j \/ (i = j /\ String.ltb a b = true)).

(** [n] has a declared condition *)
Definition conditional (cs : list cond) (n : string) : Prop := exists cnd, In cnd cs /\ activates cnd n.

(** ** References

    A condition or clause refers to hyperparameter objects; [refs] says that these are the objects
    that were added to the space. *)
Definition cond_refs (hs : list hp) (c : cond) : Prop :=
  forall l, In l (dlcs c) -> In (l_child l) hs /\ In (l_parent l) hs.
Definition forb_refs (hs : list hp) (f : fclause) : Prop := forall h, In h (forb_hps f) -> In h hs.
Definition refs (hs : list hp) (cs : list cond) (fs : list fclause) : Prop :=
  (forall c, In c cs -> cond_refs hs c) /\ (forall f, In f fs -> forb_refs hs f).

(** ** Meaning of conditions and clauses on assigned values

    [d n] is the value of the hyperparameter named [n], [None] if it is inactive. *)
Definition assignment := string -> option value.

(** [a] comes before [b] in the order of [h]: position for ordinals, size for numbers *)
Definition less_in (h : hp) (a b : value) : Prop :=
  match hp_kind h with
  | KOrd s => exists i j a' b', nth_error s i = Some a' /\ nth_error s j = Some b' /\
                py_eqb a' a = true /\ py_eqb b' b = true /\ i < j
  | _ => exists x y, num_of a = Some x /\ num_of b = Some y /\ (x < y)%Q
  end.

(** what a condition asks of the value of its parent *)
Definition test_means (h : hp) (t : test) (w : value) : Prop :=
  match t with
  | TBin OpEq v _ => py_eqb w v = true
  | TBin OpNe v _ => py_eqb w v = false
  | TBin OpLt v _ => less_in h w v
  | TBin OpGt v _ => less_in h v w
  | TIn vs _ => exists v, In v vs /\ py_eqb w v = true
  end.

(** a condition holds: parents without a value satisfy nothing *)
Fixpoint holds (d : assignment) (c : cond) : Prop :=
  match c with
  | CLit l => exists w, d (hp_name (l_parent l)) = Some w /\ test_means (l_parent l) (l_test l) w
  | CAnd cs => fold_right and True (map (holds d) cs)
  | COr cs => fold_right Logic.or False (map (holds d) cs)
  end.

(** relation between two values *)
Definition rel_means (r : rel) (a b : value) : Prop :=
  match r with
  | REquals => py_eqb a b = true
  | RLess => py_ltb a b = Some true
  | RGreater => py_ltb b a = Some true
  end.

(** a clause is violated: all the hyperparameters it reads in an elementary clause have values *)
Fixpoint violated (d : assignment) (f : fclause) : Prop :=
  match f with
  | FEq h v _ => exists w, d (hp_name h) = Some w /\ py_eqb w v = true
  | FIn h vs _ => exists w v, d (hp_name h) = Some w /\ In v vs /\ py_eqb w v = true
  | FRel r a b => exists x y, d (hp_name a) = Some x /\ d (hp_name b) = Some y /\ rel_means r x y
  | FAnd fs => fold_right and True (map (violated d) fs)
  end.

(** the relations [<] and [>] of a clause compare numbers *)
Definition numeric (h : hp) : Prop :=
  match hp_kind h with KInt _ _ _ _ | KFloat _ _ _ _ => True | _ => False end.
Definition comparable (f : fclause) : Prop :=
  forall r a b, In (FRel r a b) (fdlcs f) -> r <> REquals -> numeric a /\ numeric b.

(** an integer hyperparameter has an integer (not just a number close to one) *)
Definition exact_value (h : hp) (w : value) : Prop :=
  match hp_kind h with
  | KInt _ _ _ _ => exists a z, num_of w = Some a /\ (a == inject_Z z)%Q
  | _ => True
  end.
(** ... for the hyperparameters in relations of a clause *)
Definition exact_rels (d : assignment) (f : fclause) : Prop :=
  forall r a b h w, In (FRel r a b) (fdlcs f) -> h = a \/ h = b -> d (hp_name h) = Some w -> exact_value h w.

(** ** Conditions for which merging is harmless (see C13) *)
Definition pairwise_distinct (cs : list cond) : Prop :=
  forall i j a b, i < j -> nth_error cs i = Some a -> nth_error cs j = Some b -> cond_equiv a b = false.
(** no conjunction has two components asking the same *)
Fixpoint distinct (c : cond) : Prop :=
  match c with
  | CLit _ => True
  | CAnd cs | COr cs => pairwise_distinct cs /\ fold_right and True (map distinct cs)
  end.
Fixpoint only_and (c : cond) : Prop :=
  match c with CLit _ => True | CAnd cs => fold_right and True (map only_and cs) | COr _ => False end.
Fixpoint only_or (c : cond) : Prop :=
  match c with CLit _ => True | COr cs => fold_right and True (map only_or cs) | CAnd _ => False end.

(** conditions of the list treated as equivalent by the library have the same truth value *)
Definition merge_sound {E : Env} (io : list (string * nat)) (cs : list cond) : Prop :=
  forall c d v, In c cs -> In d cs -> cond_equiv c d = true -> sat_vec io v c = sat_vec io v d.

(** ** Valid configurations *)

(** the values a user passes: a dictionary whose entries may be NotSet *)
Definition given (vals : list (string * option value)) : assignment :=
  fun n => match assoc n vals with Some x => x | None => None end.

(** the values the configuration stores: floats rounded to 13 decimals *)
Definition stored (hs : list hp) (d d' : assignment) : Prop :=
  forall h, In h hs -> d' (hp_name h) = option_map (round_value h) (d (hp_name h)).

(** every value is legal *)
Definition all_legal {E : Env} (hs : list hp) (d : assignment) : Prop :=
  forall h w, In h hs -> d (hp_name h) = Some w -> legal_value h w = true.

(** [n] is active: all its conditions hold (an unconditional hyperparameter has none) *)
Definition active (cs : list cond) (d : assignment) (n : string) : Prop :=
  forall c, In c cs -> activates c n -> holds d c.

Record valid {E : Env} (hs : list hp) (cs : list cond) (fs : list fclause) (d : assignment) : Prop := {
  va_legal : all_legal hs d;
  va_active : forall h, In h hs -> (d (hp_name h) <> None <-> active cs d (hp_name h));
  va_forb : forall f, In f fs -> ~ violated d f
}.

(** integer hyperparameters have integers *)
Definition exact_all (hs : list hp) (d : assignment) : Prop :=
  forall h w, In h hs -> d (hp_name h) = Some w -> exact_value h w.

(** != is only used on unconditional parents (see C12) *)
Definition ne_safe (cs : list cond) : Prop :=
  forall c l w vv, In c cs -> In l (dlcs c) -> l_test l = TBin OpNe w vv -> ~ conditional cs (parent_name l).

(** Spaces without the known defects: conditions and clauses refer to the hyperparameters of the
    space, conditions treated as equivalent are (C13), != is only used on unconditional parents
    (C12), and < and > between hyperparameters compare numbers *)
Record tame {E : Env} (s : space) (hs : list hp) (cs : list cond) (fs : list fclause) : Prop := {
  tm_built : built s hs cs fs;
  tm_refs : refs hs cs fs;
  tm_merge : merge_sound (index_of s) cs;
  tm_ne : ne_safe cs;
  tm_cmp : forall f, In f fs -> comparable f
}.

(** [e] is the vector entry of the legal value [w] *)
Definition entry_of {E : Env} (h : hp) (w : value) (e : fval) : Prop :=
  legal_value h w = true /\ exact_value h w /\ exists x, to_vector h w = Ok x /\ fsame e x.

(** every entry of a vector is missing or the encoding of a value *)
Definition decodes {E : Env} (s : space) (hs : list hp) (v : list fval) : Prop :=
  forall h, In h hs -> vget (index_of s) v (hp_name h) = NaN \/
    exists w, to_value h (vget (index_of s) v (hp_name h)) = Ok w.

(** configurations that the API hands out *)
Inductive made {E : Env} (s : space) (hs : list hp) : config -> Prop :=
| made_values vals allow c : config_of_values s vals allow = Ok c -> made s hs c
| made_vector v allow c : decodes s hs v -> config_of_vector s v allow = Ok c -> made s hs c
| made_set c k w c' : made s hs c -> setitem s c k w = (c', Ok tt) -> made s hs c'.

(** the values a configuration shows *)
Definition reading {E : Env} (s : space) (c : config) : assignment :=
  fun n => match getitem s c n with Ok w => Some w | Err _ => None end.

(** [c] represents [d]: the entries of its vector are the encodings of the values, NaN if inactive *)
Definition represents {E : Env} (s : space) (hs : list hp) (c : config) (d : assignment) : Prop :=
  length (c_vector c) = s_len s /\
  forall h, In h hs -> match d (hp_name h) with
    | Some w => legal_value h w = true /\ exists x, to_vector h w = Ok x /\ fsame (vget (index_of s) (c_vector c) (hp_name h)) x
    | None => vget (index_of s) (c_vector c) (hp_name h) = NaN
    end.

(** ** Changing one value

    [d'] is [d] with [k] set to [w], newly activated hyperparameters set to their defaults and
    deactivated ones dropped. *)
Definition updated (hs : list hp) (cs : list cond) (d : assignment) (k : string) (w : value) (d' : assignment) : Prop :=
  d' k = Some w /\
  forall h, In h hs -> hp_name h <> k ->
    (active cs d' (hp_name h) -> d' (hp_name h) = Some (match d (hp_name h) with Some u => u | None => hp_default h end)) /\
    (~ active cs d' (hp_name h) -> d' (hp_name h) = None).

(** The order of condition nodes by their shallowest parent is an order of evaluation: conditions
    treated as equivalent read the same hyperparameters, and when [c] reads a hyperparameter
    activated by [c'], the shallowest parent of [c'] is shallower than all parents of [c]. *)
Record orderly (cs : list cond) : Prop := {
  or_same : forall c c' p, In c cs -> In c' cs -> cond_equiv c c' = true -> In p (cond_parents c') -> In p (cond_parents c);
  or_graded : forall c c' p, In c cs -> In c' cs -> In p (cond_parents c) -> activates c' p ->
    exists q i, In q (cond_parents c') /\ longest cs q i /\
      forall q' i', In q' (cond_parents c) -> longest cs q' i' -> i < i'
}.
