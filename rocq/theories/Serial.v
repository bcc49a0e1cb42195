(** * Serialisation to and from a dictionary:
    src/ConfigSpace/read_and_write/dictionary.py and configuration_space.py:952-1079

    The dictionaries are Python dictionaries with string keys whose entries are values, lists or
    dictionaries.  Decoding removes keys from the dictionaries it is given, so the decoders return
    the dictionary as they leave it together with their result.  Simplifications: custom encoders and
    decoders are not modelled (the maps of dictionary.py are used); an entry of a type the
    constructor does not expect (for example a list as a name) gives [Unmodelled]; the meta data of a
    hyperparameter is one opaque string (Base design), encoded as a string or None. *)
From Coq Require Import String List ZArith QArith Bool.
From Verif Require Import Base Numeric HP Cond Forb Dag Space.
Import ListNotations.
Open Scope string_scope.
Open Scope list_scope.

Inductive data :=
| DVal (v : value)
| DList (l : list data)
| DDict (d : list (string * data)).

Definition dict_t := list (string * data).

(** d.pop(k, None): the entry and the rest *)
Definition dremove (k : string) (d : dict_t) : dict_t :=
  filter (fun e => negb (String.eqb (fst e) k)) d.

Definition is_none (x : data) : bool := match x with DVal VNone => true | _ => false end.

(** dictionary.py:51-65 *)
Definition backwards_compat (d : dict_t) : dict_t :=
  let d1 := dremove "q" d in
  match assoc "default" d1 with
  | Some x => if is_none x then dremove "default" d1
              else assoc_set "default_value" x (dremove "default" d1)
  | None => d1
  end.

(** ** Calls with keyword arguments, f( **item ) *)

(** an unexpected or a missing keyword argument is a TypeError *)
Definition kw_check (required optional : list string) (d : dict_t) : res unit :=
  check forallb (fun k => str_in k (required ++ optional)) (map fst d) or TypeError ;;
  check forallb (fun k => assoc_mem k d) required or TypeError ;;
  Ok tt.

Definition arg_str (k : string) (d : dict_t) : res string :=
  match assoc k d with Some (DVal (VStr n)) => Ok n | _ => Err Unmodelled end.
Definition arg_value (k : string) (d : dict_t) : res value :=
  match assoc k d with Some (DVal v) => Ok v | _ => Err Unmodelled end.
Definition arg_num (k : string) (d : dict_t) : res Q :=
  match assoc k d with
  | Some (DVal v) => match num_of v with Some q => Ok q | None => Err Unmodelled end
  | _ => Err Unmodelled
  end.
(** default_value=None of the numerical hyperparameters *)
Definition arg_opt_num (k : string) (d : dict_t) : res (option Q) :=
  match assoc k d with
  | None | Some (DVal VNone) => Ok None
  | Some (DVal v) => match num_of v with Some q => Ok (Some q) | None => Err Unmodelled end
  | Some _ => Err Unmodelled
  end.
(** default_value=NotSet of categorical and ordinal *)
Definition arg_opt_value (k : string) (d : dict_t) : res (option value) :=
  match assoc k d with
  | None => Ok None
  | Some (DVal v) => Ok (Some v)
  | Some _ => Err Unmodelled
  end.
Definition arg_bool (k : string) (d : dict_t) : res bool :=
  match assoc k d with
  | None => Ok false
  | Some (DVal (VBool b)) => Ok b
  | Some _ => Err Unmodelled
  end.
Definition arg_meta (d : dict_t) : res (option string) :=
  match assoc "meta" d with
  | None | Some (DVal VNone) => Ok None
  | Some (DVal (VStr m)) => Ok (Some m)
  | Some _ => Err Unmodelled
  end.
Definition elem_value (x : data) : res value :=
  match x with DVal v => Ok v | _ => Err Unmodelled end.
Definition elem_num (x : data) : res Q :=
  match x with
  | DVal v => match num_of v with Some q => Ok q | None => Err Unmodelled end
  | _ => Err Unmodelled
  end.
Definition arg_values (k : string) (d : dict_t) : res (list value) :=
  match assoc k d with Some (DList l) => mapM elem_value l | _ => Err Unmodelled end.
Definition arg_weights (d : dict_t) : res (option (list Q)) :=
  match assoc "weights" d with
  | None | Some (DVal VNone) => Ok None
  | Some (DList l) => w <- mapM elem_num l ;; Ok (Some w)
  | Some _ => Err Unmodelled
  end.

Definition num_opts : list string := ["default_value"; "log"; "meta"].

(** [x for x in l], each element decoded until one raises.  [rs] are the results of decoding the
    elements of [l]; the elements after the one that raises are not touched. *)
Fixpoint collect {X} (l : list data) (rs : list (data * res X)) : list data * res (list X) :=
  match l, rs with
  | _ :: l', (x', Ok a) :: rs' =>
      let (l'', r) := collect l' rs' in
      (x' :: l'', match r with Ok as_ => Ok (a :: as_) | Err e => Err e end)
  | _ :: l', (x', Err e) :: _ => (x' :: l', Err e)
  | _, _ => (l, Ok [])
  end.

Section Serial.
  Context {E : Env}.

  (** uniform_float.py:64-72, uniform_integer.py:67-75 *)
  Definition dec_uniform (f : string -> Q -> Q -> option Q -> bool -> option string -> res hp)
      (d : dict_t) : res hp :=
    _ <- kw_check ["name"; "lower"; "upper"] num_opts d ;;
    n <- arg_str "name" d ;; lo <- arg_num "lower" d ;; hi <- arg_num "upper" d ;;
    df <- arg_opt_num "default_value" d ;; lg <- arg_bool "log" d ;; m <- arg_meta d ;;
    f n lo hi df lg m.
  (** normal_float.py:68-78, normal_integer.py:70-80, beta_float.py:68-78, beta_integer.py:70-80 *)
  Definition dec_shaped (a b : string)
      (f : string -> Q -> Q -> Q -> Q -> option Q -> bool -> option string -> res hp)
      (d : dict_t) : res hp :=
    _ <- kw_check ["name"; a; b; "lower"; "upper"] num_opts d ;;
    n <- arg_str "name" d ;; x <- arg_num a d ;; y <- arg_num b d ;;
    lo <- arg_num "lower" d ;; hi <- arg_num "upper" d ;;
    df <- arg_opt_num "default_value" d ;; lg <- arg_bool "log" d ;; m <- arg_meta d ;;
    f n x y lo hi df lg m.
  (** categorical.py:133-140 *)
  Definition dec_categorical (d : dict_t) : res hp :=
    _ <- kw_check ["name"; "choices"] ["default_value"; "meta"; "weights"] d ;;
    n <- arg_str "name" d ;; c <- arg_values "choices" d ;; df <- arg_opt_value "default_value" d ;;
    w <- arg_weights d ;; m <- arg_meta d ;;
    mk_categorical n c df w m.
  (** ordinal.py:56-62 *)
  Definition dec_ordinal (d : dict_t) : res hp :=
    _ <- kw_check ["name"; "sequence"] ["default_value"; "meta"] d ;;
    n <- arg_str "name" d ;; c <- arg_values "sequence" d ;; df <- arg_opt_value "default_value" d ;;
    m <- arg_meta d ;;
    mk_ordinal n c df m.
  (** constant.py:50-55 *)
  Definition dec_constant (d : dict_t) : res hp :=
    _ <- kw_check ["name"; "value"] ["meta"] d ;;
    n <- arg_str "name" d ;; v <- arg_value "value" d ;; m <- arg_meta d ;;
    mk_constant n v m.

  (** the map of decoders, dictionary.py:300-310; None: no decoder of that name *)
  Definition hp_decoder (ty : string) : option (dict_t -> res hp) :=
    if ty =? "uniform_float" then Some (dec_uniform mk_uniform_float)
    else if ty =? "uniform_int" then Some (dec_uniform mk_uniform_int)
    else if ty =? "normal_int" then Some (dec_shaped "mu" "sigma" mk_normal_int)
    else if ty =? "normal_float" then Some (dec_shaped "mu" "sigma" mk_normal_float)
    else if ty =? "beta_int" then Some (dec_shaped "alpha" "beta" mk_beta_int)
    else if ty =? "beta_float" then Some (dec_shaped "alpha" "beta" mk_beta_float)
    else if ty =? "categorical" then Some dec_categorical
    else if ty =? "ordinal" then Some dec_ordinal
    else if ty =? "constant" then Some dec_constant
    else None.

  (** what the decoder of a hyperparameter does to its item before calling the constructor:
      dictionary.py:68-150; only the categorical one drops "probabilities" *)
  Definition hp_compat (ty : string) (d : dict_t) : dict_t :=
    let d' := backwards_compat d in
    if ty =? "categorical" then dremove "probabilities" d' else d'.

  (** configuration_space.py:1033-1054 dec, for hyperparameters *)
  Definition dec_hp (x : data) : data * res hp :=
    match x with
    | DDict d =>
        let d' := dremove "type" d in
        match assoc "type" d with
        | None | Some (DVal VNone) => (DDict d', Err KeyError)
        | Some (DVal (VStr ty)) =>
            match hp_decoder ty with
            | None => (DDict d', Err ValueError)
            | Some f => let d'' := hp_compat ty d' in (DDict d'', f d'')
            end
        | Some (DVal _) => (DDict d', Err ValueError)
        | Some _ => (DDict d', Err Unmodelled)
        end
    | _ => (x, Err Unmodelled)
    end.

  (** space[item[k]]: KeyError when the item lacks the key, or the space the hyperparameter *)
  Definition hp_ref (s : space) (k : string) (d : dict_t) : res hp :=
    match assoc k d with
    | None => Err KeyError
    | Some (DVal (VStr n)) => match get_hp s n with Some h => Ok h | None => Err KeyError end
    | Some _ => Err Unmodelled
    end.
  Definition item_value (k : string) (d : dict_t) : res value :=
    match assoc k d with None => Err KeyError | Some (DVal v) => Ok v | Some _ => Err Unmodelled end.
  Definition item_values (k : string) (d : dict_t) : res (list value) :=
    match assoc k d with
    | None => Err KeyError | Some (DList l) => mapM elem_value l | Some _ => Err Unmodelled
    end.

  (** dictionary.py:165-223 *)
  Definition dec_bin (s : space) (o : op) (d : dict_t) : res cond :=
    ch <- hp_ref s "child" d ;; p <- hp_ref s "parent" d ;; v <- item_value "value" d ;; mk_bin o ch p v.
  Definition dec_in (s : space) (d : dict_t) : res cond :=
    ch <- hp_ref s "child" d ;; p <- hp_ref s "parent" d ;; vs <- item_values "values" d ;; mk_in ch p vs.

  (** a conjunction: the items under [k] decoded in order, then the constructor *)
  Definition dec_conj {X} (mk : list X -> res X) (k : string) (sub : list data * list (data * res X))
      (d : dict_t) : data * res X :=
    match assoc k d with
    | None => (DDict d, Err KeyError)
    | Some (DList _) =>
        let (l', r) := collect (fst sub) (snd sub) in
        (DDict (assoc_set k (DList l') d), xs <- r ;; mk xs)
    | Some _ => (DDict d, Err Unmodelled)
    end.

  (** configuration_space.py:1033-1054 dec, for conditions *)
  Fixpoint dec_cond (s : space) (x : data) : data * res cond :=
    match x with
    | DDict d =>
        let subs := map (fun e => match e with
                                  | (k, DList l) => (k, (l, map (dec_cond s) l))
                                  | (k, _) => (k, ([], []))
                                  end) d in
        let sub := match assoc "conditions" subs with Some r => r | None => ([], []) end in
        let d' := dremove "type" d in
        match assoc "type" d with
        | None | Some (DVal VNone) => (DDict d', Err KeyError)
        | Some (DVal (VStr ty)) =>
            if ty =? "EQ" then (DDict d', dec_bin s OpEq d')
            else if ty =? "NEQ" then (DDict d', dec_bin s OpNe d')
            else if ty =? "LT" then (DDict d', dec_bin s OpLt d')
            else if ty =? "GT" then (DDict d', dec_bin s OpGt d')
            else if ty =? "IN" then (DDict d', dec_in s d')
            else if ty =? "AND" then dec_conj mk_and "conditions" sub d'
            else if ty =? "OR" then dec_conj mk_or "conditions" sub d'
            else (DDict d', Err ValueError)
        | Some (DVal _) => (DDict d', Err ValueError)
        | Some _ => (DDict d', Err Unmodelled)
        end
    | _ => (x, Err Unmodelled)
    end.

  (** dictionary.py:226-296 *)
  Definition dec_frel (s : space) (r : rel) (d : dict_t) : res fclause :=
    a <- hp_ref s "left" d ;; b <- hp_ref s "right" d ;; mk_frel r a b.
  Definition dec_legacy (s : space) (d : dict_t) : res fclause :=
    match assoc "lambda" d with
    | None => Err KeyError
    | Some (DVal (VStr l)) =>
        if l =? "LT" then dec_frel s RLess d
        else if l =? "EQ" then dec_frel s REquals d
        else if l =? "GT" then dec_frel s RGreater d
        else Err ValueError
    | Some _ => Err ValueError
    end.
  Definition dec_feq (s : space) (d : dict_t) : res fclause :=
    h <- hp_ref s "name" d ;; v <- item_value "value" d ;; mk_feq h v.
  Definition dec_fin (s : space) (d : dict_t) : res fclause :=
    h <- hp_ref s "name" d ;; vs <- item_values "values" d ;; mk_fin h vs.

  (** configuration_space.py:1033-1054 dec, for forbidden clauses *)
  Fixpoint dec_forb (s : space) (x : data) : data * res fclause :=
    match x with
    | DDict d =>
        let subs := map (fun e => match e with
                                  | (k, DList l) => (k, (l, map (dec_forb s) l))
                                  | (k, _) => (k, ([], []))
                                  end) d in
        let sub := match assoc "clauses" subs with Some r => r | None => ([], []) end in
        let d' := dremove "type" d in
        match assoc "type" d with
        | None | Some (DVal VNone) => (DDict d', Err KeyError)
        | Some (DVal (VStr ty)) =>
            if ty =? "EQUALS" then (DDict d', dec_feq s d')
            else if ty =? "IN" then (DDict d', dec_fin s d')
            else if ty =? "AND" then dec_conj mk_fand "clauses" sub d'
            else if ty =? "RELATION_LT" then (DDict d', dec_frel s RLess d')
            else if ty =? "RELATION_EQ" then (DDict d', dec_frel s REquals d')
            else if ty =? "RELATION_GT" then (DDict d', dec_frel s RGreater d')
            else if ty =? "RELATION" then (DDict d', dec_legacy s d')
            else (DDict d', Err ValueError)
        | Some (DVal _) => (DDict d', Err ValueError)
        | Some _ => (DDict d', Err Unmodelled)
        end
    | _ => (x, Err Unmodelled)
    end.

  (** ** Encoders: dictionary.py:330-597, with the type name of configuration_space.py:977-990 *)
  Definition dstr (s : string) : data := DVal (VStr s).
  Definition dint (z : Z) : data := DVal (VInt z).
  Definition dfloat (q : Q) : data := DVal (VFloat q).
  Definition dmeta (m : option string) : data := match m with Some m => dstr m | None => DVal VNone end.

  (** int(hp.default_value), float(hp.default_value); the default of a numerical hyperparameter is a
      number *)
  Definition d_int (v : value) : data := dint (match num_of v with Some q => py_int q | None => 0 end).
  Definition d_float (v : value) : data := dfloat (match num_of v with Some q => q | None => 0 end).

  Definition enc_dist (d : dist) : dict_t :=
    match d with
    | DUniform => []
    | DNormal m s => [("mu", dfloat m); ("sigma", dfloat s)]
    | DBeta a b => [("alpha", dfloat a); ("beta", dfloat b)]
    end.
  Definition type_int (d : dist) : string :=
    match d with DUniform => "uniform_int" | DNormal _ _ => "normal_int" | DBeta _ _ => "beta_int" end.
  Definition type_float (d : dist) : string :=
    match d with DUniform => "uniform_float" | DNormal _ _ => "normal_float" | DBeta _ _ => "beta_float" end.

  Definition enc_hp (h : hp) : data :=
    DDict (match hp_kind h with
    | KFloat lo hi lg d =>
        [("type", dstr (type_float d)); ("name", dstr (hp_name h))] ++ enc_dist d ++
        [("lower", dfloat lo); ("upper", dfloat hi); ("default_value", d_float (hp_default h));
         ("log", DVal (VBool lg)); ("meta", dmeta (hp_meta h))]
    | KInt lo hi lg d =>
        [("type", dstr (type_int d)); ("name", dstr (hp_name h))] ++ enc_dist d ++
        [("lower", dint lo); ("upper", dint hi); ("default_value", d_int (hp_default h));
         ("log", DVal (VBool lg)); ("meta", dmeta (hp_meta h))]
    | KCat c w =>
        [("type", dstr "categorical"); ("name", dstr (hp_name h)); ("choices", DList (map DVal c));
         ("weights", match w with Some (x :: w') => DList (map dfloat (x :: w')) | _ => DVal VNone end);
         ("default_value", DVal (hp_default h)); ("meta", dmeta (hp_meta h))]
    | KOrd s =>
        [("type", dstr "ordinal"); ("name", dstr (hp_name h)); ("sequence", DList (map DVal s));
         ("default_value", DVal (hp_default h)); ("meta", dmeta (hp_meta h))]
    | KConst v =>
        [("type", dstr "constant"); ("name", dstr (hp_name h)); ("value", DVal v);
         ("meta", dmeta (hp_meta h))]
    end).

  Definition type_op (o : op) : string :=
    match o with OpEq => "EQ" | OpNe => "NEQ" | OpLt => "LT" | OpGt => "GT" end.

  (** cond.child.name of a conjunction: the child of its first literal *)
  Definition conj_child (c : cond) : string :=
    match cond_child c with Some h => hp_name h | None => "" end.

  Definition enc_lit (l : lit) : data :=
    DDict (match l_test l with
    | TBin o v _ => [("type", dstr (type_op o)); ("child", dstr (hp_name (l_child l)));
                     ("parent", dstr (hp_name (l_parent l))); ("value", DVal v)]
    | TIn vs _ => [("type", dstr "IN"); ("child", dstr (hp_name (l_child l)));
                   ("parent", dstr (hp_name (l_parent l))); ("values", DList (map DVal vs))]
    end).
  Fixpoint enc_cond (c : cond) : data :=
    match c with
    | CLit l => enc_lit l
    | CAnd cs => DDict [("type", dstr "AND"); ("child", dstr (conj_child c)); ("conditions", DList (map enc_cond cs))]
    | COr cs => DDict [("type", dstr "OR"); ("child", dstr (conj_child c)); ("conditions", DList (map enc_cond cs))]
    end.

  Definition type_rel (r : rel) : string :=
    match r with RLess => "RELATION_LT" | REquals => "RELATION_EQ" | RGreater => "RELATION_GT" end.

  Fixpoint enc_forb (f : fclause) : data :=
    DDict match f with
    | FEq h v _ => [("type", dstr "EQUALS"); ("name", dstr (hp_name h)); ("value", DVal v)]
    | FIn h vs _ => [("type", dstr "IN"); ("name", dstr (hp_name h)); ("values", DList (map DVal vs))]
    | FAnd cs => [("type", dstr "AND"); ("clauses", DList (map enc_forb cs))]
    | FRel r a b => [("type", dstr (type_rel r)); ("left", dstr (hp_name a)); ("right", dstr (hp_name b))]
    end.

  (** ** The space as an object: a space with its name, its meta data and, for each hyperparameter,
      the list [forbiddens] of its node (_condition_tree.py:182), which nothing but the equality
      of spaces reads. *)
  Record cspace := mk_cspace {
    c_space : space;
    c_name : option string;
    c_meta : option string;
    c_forbs : list (string * list fclause)
  }.

  (** ConfigurationSpace(name, meta=...): configuration_space.py:152-204, without a space dictionary *)
  Definition new_space (name meta : option string) : cspace := mk_cspace empty_space name meta [].

  Definition node_list (n : string) (m : list (string * list fclause)) : list fclause :=
    match assoc n m with Some l => l | None => [] end.
  Definition node_append (n : string) (f : fclause) (m : list (string * list fclause)) :=
    assoc_set n (node_list n m ++ [f]) m.

  (** _condition_tree.py:498-517 _sort_forbiddens(_f), what it does to the nodes *)
  Definition sort_leaf (m : list (string * list fclause)) (f : fclause) : list (string * list fclause) :=
    match f with
    | FEq h _ _ | FIn h _ _ => node_append (hp_name h) f m
    | FRel _ a b => node_append (hp_name b) f (node_append (hp_name a) f m)
    | FAnd _ => m
    end.
  Definition sort_forb (m : list (string * list fclause)) (f : fclause) : list (string * list fclause) :=
    match f with
    | FAnd _ => fold_left sort_leaf (py_sorted forb_ltb (fdlcs f)) m
    | _ => sort_leaf m f
    end.
  (** _condition_tree.py:519-526: [fs] are the clauses of the space in the order of their strings *)
  Definition node_forbs (fs : list fclause) (m : list (string * list fclause)) : list (string * list fclause) :=
    map (fun e => (fst e, unique_by forb_str [] (snd e))) (fold_left sort_forb fs m).

  (** the body of the with statement of add, configuration_space.py:340-346: the DAG before the
      commit, None when something is raised *)
  Definition body (d : dag) (hs : list hp) (cs : list cond) (fs : list fclause) : option dag :=
    match run dag_add hs d with
    | (d1, Ok _) => match run dag_add_condition cs d1 with
                    | (d2, Ok _) => match run dag_add_forbidden fs d2 with
                                    | (d3, Ok _) => Some d3
                                    | _ => None
                                    end
                    | _ => None
                    end
    | _ => None
    end.
  (** add: as Space.add; the commit updates the lists of the nodes *)
  Definition c_add (x : cspace) (hs : list hp) (cs : list cond) (fs : list fclause) : cspace * res unit :=
    let (s', r) := add (c_space x) hs cs fs in
    (mk_cspace s' (c_name x) (c_meta x)
       match body (s_dag (c_space x)) hs cs fs with
       | Some d => node_forbs (py_sorted forb_ltb (d_forbs d)) (c_forbs x)
       | None => c_forbs x
       end, r).

  (** ** to_serialized_dict: configuration_space.py:952-1001 *)
  Definition to_serialized (x : cspace) : dict_t :=
    [("name", match c_name x with Some n => dstr n | None => DVal VNone end);
     ("hyperparameters", DList (map enc_hp (Space.hps (c_space x))));
     ("conditions", DList (map enc_cond (conditions (c_space x))));
     ("forbiddens", DList (map enc_forb (forbidden_clauses (c_space x))));
     ("python_module_version", dstr "1.2.0");
     ("format_version", dfloat (2 # 5))].

  (** ** from_serialized_dict: configuration_space.py:1004-1079 *)
  Definition get_list (k : string) (d : dict_t) : res (list data) :=
    match assoc k d with
    | None => Ok []
    | Some (DList l) => Ok l
    | Some _ => Err Unmodelled
    end.
  (** the list under [k], an object of the dictionary, has changed to [l] *)
  Definition put_list (k : string) (l : list data) (d : dict_t) : dict_t :=
    if assoc_mem k d then assoc_set k (DList l) d else d.
  Definition get_name (d : dict_t) : res (option string) :=
    match assoc "name" d with
    | None | Some (DVal VNone) => Ok None
    | Some (DVal (VStr n)) => Ok (Some n)
    | Some _ => Err Unmodelled
    end.

  Definition from_serialized (d : dict_t) : dict_t * res cspace :=
    match get_name d, get_list "hyperparameters" d, get_list "conditions" d, get_list "forbiddens" d with
    | Ok name, Ok lh, Ok lc, Ok lf =>
        let (lh', rh) := collect lh (map dec_hp lh) in
        let d1 := put_list "hyperparameters" lh' d in
        match rh with
        | Err e => (d1, Err e)
        | Ok hs =>
            let (x1, r1) := c_add (new_space name None) hs [] [] in
            match r1 with
            | Err e => (d1, Err e)
            | Ok _ =>
                let (lc', rc) := collect lc (map (dec_cond (c_space x1)) lc) in
                let d2 := put_list "conditions" lc' d1 in
                match rc with
                | Err e => (d2, Err e)
                | Ok cs =>
                    let (lf', rf) := collect lf (map (dec_forb (c_space x1)) lf) in
                    let d3 := put_list "forbiddens" lf' d2 in
                    match rf with
                    | Err e => (d3, Err e)
                    | Ok fs =>
                        let (x2, r2) := c_add x1 [] cs fs in
                        (d3, match r2 with Err e => Err e | Ok _ => Ok x2 end)
                    end
                end
            end
        end
    | _, _, _, _ => (d, Err Unmodelled)
    end.

  (** ** Equality of spaces: configuration_space.py:820-835 compares name, meta, the number of
      hyperparameters and the DAG; _condition_tree.py:268-330 (DAG) compares the nodes and the two
      lists of clauses; _condition_tree.py:153-200 (HPNode) compares hyperparameter, index, depth,
      children (name, node and condition), forbiddens and parent condition.  Children nodes are nodes of the DAG, so
      their comparison is part of the comparison of the nodes and is left out. *)
  Definition links_eqb (a b : list (string * cond)) : bool :=
    (Nat.eqb (length a) (length b)
     && forallb (fun e => match assoc (fst e) b with Some c => cond_eqb (snd e) c | None => false end) a)%bool.
  Definition node_eqb (x y : cspace) (name : string) (a b : node) : bool :=
    (hp_eqb (n_hp a) (n_hp b)
     && opt_eqb Nat.eqb (assoc name (d_index_of (s_dag (c_space x)))) (assoc name (d_index_of (s_dag (c_space y))))
     && Nat.eqb (n_depth a) (n_depth b)
     && links_eqb (n_children a) (n_children b)
     && list_eqb forb_eqb (node_list name (c_forbs x)) (node_list name (c_forbs y))
     && opt_eqb cond_eqb (n_cond a) (n_cond b))%bool.
  Definition cspace_eqb (x y : cspace) : bool :=
    (opt_eqb String.eqb (c_name x) (c_name y)
     && opt_eqb String.eqb (c_meta x) (c_meta y)
     && Nat.eqb (s_len (c_space x)) (s_len (c_space y))
     && (Nat.eqb (length (d_nodes (s_dag (c_space x)))) (length (d_nodes (s_dag (c_space y))))
         && forallb (fun e => match assoc (fst e) (d_nodes (s_dag (c_space y))) with
                              | Some n => node_eqb x y (fst e) (snd e) n
                              | None => false
                              end) (d_nodes (s_dag (c_space x))))
     && list_eqb forb_eqb (d_uforb (s_dag (c_space x))) (d_uforb (s_dag (c_space y)))
     && list_eqb forb_eqb (d_cforb (s_dag (c_space x))) (d_cforb (s_dag (c_space y))))%bool.

  (** ** Equality and text of configurations *)

  (** equality of dictionaries of values *)
  Definition dict_eqb (a b : list (string * value)) : bool :=
    (Nat.eqb (length a) (length b)
     && forallb (fun e => match assoc (fst e) b with Some v => py_eqb (snd e) v | None => false end) a)%bool.
  (** configuration.py:242-245 Configuration.__eq__ *)
  Definition config_eqb (x : cspace) (c : config) (y : cspace) (d : config) : res bool :=
    a <- dict_of (c_space x) c ;; b <- dict_of (c_space y) d ;;
    Ok (dict_eqb a b && cspace_eqb x y)%bool.
  (** configuration.py:250-261 Configuration.__str__ and __repr__, the keys sorted by index_of.get;
      __hash__ (247-248) is the hash of this text *)
  Definition index_ltb (s : space) (k l : string) : bool :=
    match assoc k (index_of s), assoc l (index_of s) with Some i, Some j => Nat.ltb i j | _, _ => false end.
  Definition config_line (d : list (string * value)) (k : string) : string :=
    ("  '" ++ k ++ "': " ++ match assoc k d with Some v => frepr v | None => "" end ++ ",")%string.
  Definition newline : string := String (Ascii.ascii_of_nat 10) EmptyString.
  Definition config_str (s : space) (c : config) : res string :=
    d <- dict_of s c ;;
    Ok (String.concat newline
          (["Configuration(values={"%string] ++ map (config_line d) (py_sorted (index_ltb s) (map fst d)) ++ ["})"%string])).
End Serial.
