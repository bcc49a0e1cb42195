(** * Lists of values: hyperparameter.py, categorical.py, ordinal.py, constant.py

    legal_value, to_vector, to_value and pdf_values also take lists and numpy arrays. A list is first
    given to np.asarray, which chooses one type for all elements. *)
From Coq Require Import String List ZArith QArith Bool.
From Verif Require Import Base Numeric HP Dist Fix.
Import ListNotations.
Open Scope bool_scope.

(** the type numpy chooses *)
Inductive dtype := DtBool | DtInt | DtFloat | DtStr | DtObject.

Definition is_none (v : value) : bool := match v with VNone => true | _ => false end.
Definition is_vstr (v : value) : bool := match v with VStr _ => true | _ => false end.
Definition is_vfloat (v : value) : bool := match v with VFloat _ => true | _ => false end.
Definition is_vint (v : value) : bool := match v with VInt _ => true | _ => false end.

(** np.asarray of a list: with a None the elements stay objects; otherwise one string makes all
    strings, one float all floats, one int all ints. The empty list gives floats. Integers that do not
    fit into 64 bits, which numpy keeps as objects or refuses, are taken like others. *)
Definition dtype_of (l : list value) : dtype :=
  if existsb is_none l then DtObject
  else if existsb is_vstr l then DtStr
  else if existsb is_vfloat l then DtFloat
  else if existsb is_vint l then DtInt
  else match l with [] => DtFloat | _ => DtBool end.

Section Array.
  Context {E : Env}.
  Variable T : text.

  Definition cast (t : dtype) (v : value) : value :=
    match t with
    | DtBool | DtObject => v
    | DtInt => match v with VBool b => VInt (if b then 1 else 0) | _ => v end
    | DtFloat => match num_of v with Some q => VFloat q | None => v end
    | DtStr => match v with VStr _ => v | _ => VStr (tx_str T v) end
    end.
  Definition asarray (l : list value) : list value := map (cast (dtype_of l)) l.

  (** legal_value of a list: hyperparameter.py:281-285, categorical.py:358-380, ordinal.py:203-225,
      constant.py:108-130 with hp_components.py:205-212, 361-374, 526-527. The elements of an array of
      booleans are np.bool_, which is not one of (int, float, np.number): hp_components.py:392. *)
  Definition legal_elem (h : hp) (t : dtype) (v : value) : bool :=
    match t, hp_kind h with
    | DtBool, (KInt _ _ _ _ | KFloat _ _ _ _) => false
    | _, _ => legal_value h v
    end.
  Definition legal_values (h : hp) (l : list value) : list bool := map (legal_elem h (dtype_of l)) (asarray l).

  (** functional.py:286-290 normalize: [bounds == (0, 1)] gives x.astype(f64), which reads strings *)
  Definition unit_bounds (h : hp) : bool :=
    match hp_kind h with
    | KInt lo hi false _ => ((lo =? 0) && (hi =? 1))%Z
    | KFloat lo hi false _ => Qeq_bool lo 0 && Qeq_bool hi 1
    | _ => false
    end.
  (** to_vector of one element. Strings raise TypeError in a subtraction and in np.log. *)
  Definition to_vector_elem (h : hp) (v : value) : res fval :=
    match v with
    | VStr t => if unit_bounds h then match tx_float T t with Some q => Ok (Fin q) | None => Err ValueError end
                else to_vector h v
    | _ => to_vector h v
    end.
  (** to_vector of a list: hyperparameter.py:388-391, categorical.py:333-355, ordinal.py:178-200,
      constant.py:153-175 with hp_components.py:195-202, 337-344, 509-513 *)
  Definition to_vectors (h : hp) (l : list value) : res (list fval) := mapM (to_vector_elem h) (asarray l).
  (** to_vector of one value, np.array([value]): hyperparameter.py:393 *)
  Definition to_vector_one (h : hp) (v : value) : res fval :=
    xs <- to_vectors h [v] ;; match xs with [x] => Ok x | _ => Err IndexError end.
  (** legal_value of one value: a numerical hyperparameter calls legal_value_single
      (hyperparameter.py:287), the others look at np.array([value]) *)
  Definition legal_value_one (h : hp) (v : value) : bool :=
    match hp_kind h with
    | KInt _ _ _ _ | KFloat _ _ _ _ => legal_value h v
    | _ => hd false (legal_values h [v])
    end.

  (** to_value of an array: hyperparameter.py:355-356 with hp_components.py:172-192 (the whole array is
      tested before the first element is looked up), 300-311, 516-523 *)
  Definition to_values (h : hp) (xs : list fval) : res (list value) :=
    match hp_kind h with
    | KCat s _ | KOrd s =>
        check forallb (fun x => match x with Fin q => is_close_to_integer q | _ => false end) xs or ValueError ;;
        mapM (fun x => match x with Fin q => np_index s (rint q) | _ => Err ValueError end) xs
    | _ => mapM (to_value h) xs
    end.

  (** hyperparameter.py:166-187, 305-334 sample_value and rvs with a size: the random numbers behind
      each element are arguments *)
  Definition sample_values (h : hp) (rs : list raw) : res (list value) := to_values h (map (sample_vector h) rs).

  (** hyperparameter.py:507-525, categorical.py:383-400, constant.py:133-150 pdf_values of a list *)
  Definition pdf_values (h : hp) (f : Q -> Q) (l : list value) : res (list Q) :=
    xs <- to_vectors h l ;; mapM (pdf_vector h f) xs.
End Array.
