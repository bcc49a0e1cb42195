(** * src/ConfigSpace/util.py: fix_types *)
From Coq Require Import String List ZArith QArith Bool.
From Verif Require Import Base Numeric HP Cond Forb Dag Space.
Import ListNotations.
Open Scope nat_scope.

(** Python's str(), int() and float() on strings.  The model leaves them open: properties say what
    they need.  A string float() reads as an infinity or nan counts as one it does not read. *)
Record text := { tx_str : value -> string; tx_int : string -> option Z; tx_float : string -> option Q }.

Section Fix.
  Variable T : text.

  (** float(v) *)
  Definition to_float (v : value) : res value :=
    match v with
    | VStr t => match tx_float T t with Some q => Ok (VFloat q) | None => Err ValueError end
    | _ => match num_of v with Some q => Ok (VFloat q) | None => Err TypeError end
    end.
  (** int(v) *)
  Definition to_int (v : value) : res value :=
    match v with
    | VStr t => match tx_int T t with Some z => Ok (VInt z) | None => Err ValueError end
    | _ => match num_of v with Some q => Ok (VInt (py_int q)) | None => Err TypeError end
    end.

  (** util.py:534-541 fix_type_from_candidates *)
  Definition from_candidates (v : value) (cands : list value) : res value :=
    match filter (fun c => String.eqb (tx_str T v) (tx_str T c)) cands with
    | [c] => Ok c
    | _ => Err ValueError
    end.

  (** util.py:546-566: one value; the classes with other distributions are unknown *)
  Definition fix_value (h : hp) (v : value) : res value :=
    match hp_kind h with
    | KCat ch _ => from_candidates v ch
    | KOrd sq => from_candidates v sq
    | KConst c => from_candidates v [c]
    | KFloat _ _ _ DUniform => to_float v
    | KInt _ _ _ DUniform => to_int v
    | _ => Err TypeError
    end.

  (** util.py:543-567: the dictionary after the loop, and whether it raised *)
  Fixpoint fix_loop (hs : list hp) (d : list (string * value)) : list (string * value) * res unit :=
    match hs with
    | [] => (d, Ok tt)
    | h :: hs' =>
        match assoc (hp_name h) d with
        | None | Some VNone => fix_loop hs' d
        | Some v =>
            match fix_value h v with
            | Ok w => fix_loop hs' (assoc_set (hp_name h) w d)
            | Err e => (d, Err e)
            end
        end
    end.

  (** util.py:513-567 *)
  Definition fix_types (s : space) (d : list (string * value)) : list (string * value) * res unit := fix_loop (Space.hps s) d.
End Fix.
