(** * Distributions and neighbourhoods: src/ConfigSpace/hyperparameters/distributions.py

    Sampling, densities and neighbours of a single hyperparameter.  Random numbers are arguments:
    [raw] holds what numpy/scipy returned for one entry, [nrng] what they returned for one call of a
    neighbourhood.  Distribution objects are functions of the description of the hyperparameter
    (the constructors in uniform_integer.py:112-125, normal_integer.py:135-150, beta_integer.py:133-138,
    uniform_float.py:102-104, normal_float.py:123-140, beta_float.py:133-140, categorical.py:241-249,
    ordinal.py:115-124, constant.py:76-92 determine which class is used). *)
From Coq Require Import String List ZArith QArith Qround Qabs Bool Lia.
From Verif Require Import Base Numeric HP.
Import ListNotations.
Open Scope Z_scope.

(** ** Sampling *)

(** The random numbers behind one sampled entry: an integer (RandomState.randint) and a real
    number (rv.rvs, RandomState.uniform, or the uniform number inside RandomState.choice). *)
Record raw := { raw_int : Z; raw_real : Q }.

(** np.cumsum *)
Fixpoint cumsum (acc : Q) (l : list Q) : list Q :=
  match l with [] => [] | x :: l' => (acc + x)%Q :: cumsum (acc + x)%Q l' end.

(** RandomState.choice(size, p=p): cdf.searchsorted(u, side="right"), the number of entries of
    the cumulated probabilities that are <= u *)
Definition choice_index (p : list Q) (u : Q) : nat :=
  length (filter (fun c => Qle_bool c u) (cumsum 0 p)).

Section Dist.
  Context {E : Env}.

  (** functional.py:148-196 quantize_log with bounds (0, 1), as both callers use it *)
  Definition quantize_log (x lo hi : Q) (bins : Z) : Q :=
    let llo := flog lo in let lhi := flog hi in
    let x_orig := fexp (rescale x 0 1 llo lhi) in
    rescale (flog (quantize x_orig lo hi bins)) llo lhi 0 1.

  (** distributions.py:530-541 DiscretizedContinuousScipyDistribution._quantize; [log] is the
      log_scale attribute, original_value_scale (lines 413-422) is the pair of bounds *)
  Definition disc_quantize (lo hi : Z) (log : bool) (x : Q) : Q :=
    if log then quantize_log x (inject_Z lo) (inject_Z hi) (hi - lo + 1)
    else quantize x 0 1 (hi - lo + 1).

  (** only the uniform integer passes log_scale (uniform_integer.py:122); normal_integer.py:145-150
      and beta_integer.py:133-138 leave the default False *)
  Definition log_scale (log : bool) (d : dist) : bool :=
    match d with DUniform => log | _ => false end.

  (** hyperparameter.py:201-224 sample_vector with the sample_vector methods of
      distributions.py: UniformInteger 938-947, WeightedIntegerDiscrete 1126-1139,
      ConstantVector 1273-1280, UniformIntegerNormalized 793-802, Discretized 521-528,
      UnitUniformContinuous 867-875, ScipyContinuous 1189-1196 *)
  Definition sample_vector (h : hp) (r : raw) : fval :=
    match hp_kind h with
    | KCat c None => Fin (inject_Z (raw_int r))
    | KCat c (Some w) =>
        Fin (inject_Z (Z.of_nat (choice_index (probabilities c (Some w)) (raw_real r))))
    | KOrd _ => Fin (inject_Z (raw_int r))
    | KConst _ => Fin 1%Q
    | KInt lo hi false DUniform => Fin (inject_Z (raw_int r) / inject_Z (hi - lo + 1 - 1))%Q
    | KInt lo hi log d => Fin (disc_quantize lo hi (log_scale log d) (raw_real r))
    | KFloat _ _ _ _ => Fin (raw_real r)
    end.

  (** hyperparameter.py:173-199 sample_value *)
  Definition sample_value (h : hp) (r : raw) : res value := to_value h (sample_vector h r).

  (** ** Neighbours *)

  (** np.unique: sorted, without repetitions *)
  Fixpoint uinsert (x : Q) (l : list Q) : list Q :=
    match l with
    | [] => [x]
    | y :: l' => if Qltb x y then x :: l else if Qeq_bool x y then l else y :: uinsert x l'
    end.
  Definition np_unique (l : list Q) : list Q := fold_right uinsert [] l.

  Definition memq (x : Q) (l : list Q) : bool := existsb (Qeq_bool x) l.

  (** candidates[(candidates >= lower) & (candidates <= upper)] *)
  Definition within (lower upper : Q) (l : list Q) : list Q :=
    filter (fun x => Qle_bool lower x && Qle_bool x upper)%bool l.

  (** The sampling loop of distributions.py:168-190 (quantized_neighborhood), 690-713
      (Discretized.neighborhood). [cands]: the arrays
      returned by seed.normal, one per std; [buf]: neighbors[:offset]; writing beyond the end of
      the buffer (5 n + 1 entries) raises ValueError. *)
  Fixpoint nb_loop (quant : Q -> Q) (lower upper : Q) (n : nat) (buf : list Q)
      (cands : list (list Q)) : res (list Q) :=
    match cands with
    | [] => Err ValueError
    | c :: cands' =>
        let uniq := np_unique (map quant (within lower upper c)) in
        let new := filter (fun x => negb (memq x buf)) uniq in
        check (Nat.leb (length buf + length new) (5 * n + 1)) or ValueError ;;
        let buf' := buf ++ new in
        if Nat.leb n (length buf' - 1) then Ok (firstn n (tl buf'))
        else nb_loop quant lower upper n buf' cands'
    end.

  (** assert n < 1000000 *)
  Definition n_ok (n : nat) : bool := Z.of_nat n <? 1000000.

  Definition over (k : Z) (l : list Z) : list Q := map (fun i => inject_Z i / inject_Z k)%Q l.

  (** distributions.py:69-199 quantized_neighborhood, with lower, upper = 0, 1 as its only caller
      (UniformIntegerNormalized.neighborhood, 826-847) passes *)
  Definition quantized_neighborhood (vector : Q) (n : nat) (bins : Z) (cands : list (list Q))
      : res (list Q) :=
    check (n_ok n) or AssertionError ;;
    let qvector := quantize vector 0 1 bins in
    if bins - 1 <=? Z.of_nat n then
      if Qeq_bool qvector 0 then Ok (over (bins - 1) (arange 1 bins 1))
      else if Qeq_bool qvector (inject_Z (bins - 1)) then Ok (over (bins - 1) (arange 0 (bins - 1) 1))
      else
        let qint := rint (vector * inject_Z (bins - 1)) in
        Ok (over (bins - 1) (arange 0 qint 1 ++ arange (qint + 1) bins 1))
    else nb_loop (fun x => quantize x 0 1 bins) 0 1 n [qvector] cands.

  (** UnitScaler.to_vector on an array of positive numbers *)
  Definition vec_of (lo hi : Z) (log : bool) (x : Q) : Q :=
    match unit_to_vector (inject_Z lo) (inject_Z hi) log x with Fin q => q | _ => 0%Q end.

  (** distributions.py:563-721 DiscretizedContinuousScipyDistribution.neighborhood *)
  Definition discretized_neighborhood (lo hi : Z) (log : bool) (vector : Q) (n : nat)
      (cands : list (list Q)) : res (list Q) :=
    check (n_ok n) or AssertionError ;;
    let steps := hi - lo + 1 in
    let qvector := disc_quantize lo hi log vector in
    if steps - 1 <=? Z.of_nat n then
      if log then
        let qorig := rint (unit_raw (inject_Z lo) (inject_Z hi) true qvector) in
        let stepsize := (inject_Z (hi - lo) / inject_Z (steps - 1))%Q in
        let take := py_int ((inject_Z qorig - inject_Z lo) / stepsize) + 1 in
        let bottom := if take =? 1 then []
                      else linspace (inject_Z lo) (inject_Z qorig) (take - 1) false in
        let top := linspace (inject_Z qorig + stepsize) (inject_Z hi) (steps - take) true in
        Ok (map (vec_of lo hi true) bottom ++ map (vec_of lo hi true) top)
      else
        let stepsize := ((1 - 0) / inject_Z (steps - 1))%Q in
        let take := py_int ((qvector - 0) / stepsize) + 1 in
        let bottom := if take =? 1 then [] else linspace 0 qvector take false in
        let top := linspace (qvector + stepsize) 1 (steps - take) true in
        Ok (bottom ++ top)
    else nb_loop (disc_quantize lo hi log) 0 1 n [qvector] cands.

  (** distributions.py:202-285 continuous_neighborhood with lower, upper = 0, 1 *)
  Fixpoint cont_loop (n : nat) (buf : list Q) (cands : list (list Q)) : res (list Q) :=
    match cands with
    | [] => Err ValueError
    | c :: cands' =>
        let new := within 0 1 c in
        check (Nat.leb (length buf + length new) (5 * n)) or ValueError ;;
        let buf' := buf ++ new in
        if Nat.leb n (length buf') then Ok (firstn n buf') else cont_loop n buf' cands'
    end.
  Definition continuous_neighborhood (n : nat) (cands : list (list Q)) : res (list Q) :=
    cont_loop n [] cands.

  (** What the random state returned during one neighbourhood call: the arrays of seed.normal,
      the effect of seed.shuffle and whether seed.choice of two elements takes the second. *)
  Record nrng := {
    nr_cands : list (list Q);
    nr_shuffle : list Z -> list Z;
    nr_second : bool
  }.

  (** categorical.py:37-92 NeighborhoodCat.__call__; CACHE_NEIGHBORS_CATEGORICAL_SIZE = 5 (line 27),
      the cached range of lines 53-54 has the same content as the one computed in line 85 *)
  Definition cat_neighborhood (size : Z) (vector : Q) (n : nat) (r : nrng) : list Q :=
    let pivot := py_int vector in
    let choices := nr_shuffle r (arange 0 pivot 1 ++ arange (pivot + 1) size 1) in
    map inject_Z (if size <=? 5 then choices else firstn n choices).

  (** hp_components.py:419-470 ordinal_neighborhood *)
  Definition ordinal_neighborhood (size : Z) (vector : Q) (n : nat) (r : nrng) : res (list Q) :=
    let end_index := size - 1 in
    check (Qle_bool 0 vector && Qle_bool vector (inject_Z end_index))%bool or AssertionError ;;
    if size =? 1 then Ok []
    else if Qeq_bool vector 0 then Ok [1%Q]
    else if rint vector =? end_index then Ok [inject_Z (end_index - 1)]
    else
      let a := inject_Z (rint (vector - 1)) in let b := inject_Z (rint (vector + 1)) in
      if Nat.leb 2 n then Ok [a; b] else Ok [if nr_second r then b else a].

  (** the _neighborhood attribute of a hyperparameter; constant.py:94 _empty_neighborhood. The
      standard deviation only influences the random numbers. *)
  Definition neighborhood (h : hp) (q : Q) (n : nat) (r : nrng) : res (list Q) :=
    match hp_kind h with
    | KCat c _ => Ok (cat_neighborhood (Z.of_nat (length c)) q n r)
    | KOrd s => ordinal_neighborhood (Z.of_nat (length s)) q n r
    | KConst _ => Ok []
    | KInt lo hi false DUniform => quantized_neighborhood q n (hi - lo + 1) (nr_cands r)
    | KInt lo hi log d => discretized_neighborhood lo hi (log_scale log d) q n (nr_cands r)
    | KFloat _ _ _ _ => continuous_neighborhood n (nr_cands r)
    end.

  (** hyperparameter.py:395-444 neighbors_vectorized *)
  Definition neighbors_vectorized (h : hp) (x : fval) (n : nat) (std : option Q) (r : nrng)
      : res (list fval) :=
    check (match std with None => true | Some s => Qle_bool 0 s && Qle_bool s 1 end)%bool
      or AssertionError ;;
    check (legal_vector h x) or ValueError ;;
    match x with
    | Fin q => l <- neighborhood h q n r ;; Ok (map Fin l)
    | _ => Err Unmodelled
    end.

  (** hyperparameter.py:450-491 neighbors_values *)
  Definition neighbors_values (h : hp) (v : value) (n : nat) (std : option Q) (r : nrng)
      : res (list value) :=
    x <- to_vector h v ;;
    l <- neighbors_vectorized h x n std r ;;
    mapM (to_value h) l.

  (** hyperparameter.py:545-562 get_num_neighbors with hyperparameter.py:732-739
      _integer_neighborhood_size, categorical.py:327-330, ordinal.py:133-151, constant.py:95;
      the result [None] is np.inf; the argument [None] is NotSet *)
  Definition get_num_neighbors (h : hp) (v : option value) : res (option Z) :=
    match hp_kind h with
    | KCat c _ =>
        let size := Z.of_nat (length c) in
        Ok (Some (match v with
                  | None => size
                  | Some w => if py_in w c then size - 1 else size
                  end))
    | KOrd s =>
        let size := Z.of_nat (length s) in
        match v with
        | None => Ok (Some size)
        | Some w =>
            if size =? 1 then Ok (Some 0)
            else match py_index w s with
                 | None => Err ValueError
                 | Some i => Ok (Some (if ((Z.of_nat i =? 0) || (Z.of_nat i =? size - 1))%bool
                                       then 1 else 2))
                 end
        end
    | KConst _ => Ok (Some 0)
    | KInt lo hi _ _ =>
        let size := hi - lo + 1 in
        match v with
        | None => Ok (Some size)
        | Some w =>
            match num_of w with
            | None => Err TypeError
            | Some x =>
                Ok (Some (if (Qle_bool (inject_Z lo) x && Qle_bool x (inject_Z hi))%bool
                          then size - 1 else size))
            end
        end
    | KFloat _ _ _ _ => Ok None
    end.

  (** ** Densities

      [f] is the density function of the scipy distribution of the hyperparameter (constantly 1 on
      the unit interval for scipy.stats.uniform()). *)

  (** distributions.py:30 ARANGE_CHUNKSIZE *)
  Definition chunksize : Z := 10000000.

  (** distributions.py:468-519 _meaningful_pdf_values on a linear scale. For more than
      ARANGE_CHUNKSIZE steps the bounds come from rv.ppf: [Unmodelled]. linspace_chunked is called
      without endpoint, so with its default endpoint=False. *)
  Definition meaningful (steps : Z) : res (list Q) :=
    check (steps <=? chunksize) or Unmodelled ;;
    let qlow := quantize 0 0 1 steps in let qhigh := quantize 1 0 1 steps in
    let stepsize := ((1 - 0) / inject_Z (steps - 1))%Q in
    l <- linspace_chunked qlow qhigh (py_int ((qhigh - qlow) / stepsize + 1)) chunksize false ;;
    Ok (concat l).

  (** distributions.py:447-466 *)
  Definition density_max (l : list Q) : Q := fold_left (fun m x => if Qltb m x then x else m) l 0%Q.
  Definition max_and_norm (f : Q -> Q) (steps : Z) : res (Q * Q) :=
    l <- meaningful steps ;; Ok (density_max (map f l), Qsum (map f l)).

  (** the pdf_vector methods: UniformInteger 953-970, WeightedIntegerDiscrete 1148-1170,
      ConstantVector 1282-1292, UniformIntegerNormalized 808-824, Discretized 543-561,
      UnitUniformContinuous 881-896, ScipyContinuous 1202-1215 *)
  Definition dist_pdf (h : hp) (f : Q -> Q) (x : fval) : res Q :=
    match hp_kind h with
    | KCat c None | KOrd c =>
        let size := Z.of_nat (length c) in
        Ok (match x with
            | Fin q => if (Qle_bool 0 q && Qle_bool q (inject_Z (size - 1))
                           && is_close_to_integer q)%bool then (1 / inject_Z size)%Q else 0%Q
            | _ => 0%Q
            end)
    | KCat c (Some w) =>
        let size := Z.of_nat (length c) in
        Ok (match x with
            | Fin q => if (Qle_bool 0 q && Qle_bool q (inject_Z (size - 1))
                           && is_close_to_integer q)%bool
                       then nth (Z.to_nat (py_int (qclip q 0 (inject_Z (size - 1)))))
                                (probabilities c (Some w)) 0%Q
                       else 0%Q
            | _ => 0%Q
            end)
    | KConst _ => Ok (if feqb x (Fin 1%Q) then 1%Q else 0%Q)
    | KInt lo hi false DUniform =>
        let size := hi - lo + 1 in
        Ok (match x with
            | Fin q => if (Qle_bool 0 q && Qle_bool q 1
                           && is_close_to_integer (q * inject_Z (size - 1)))%bool
                       then (1 / inject_Z size)%Q else 0%Q
            | _ => 0%Q
            end)
    | KInt lo hi true DUniform =>
        (* _pdf_norm = size, uniform_integer.py:119 *)
        Ok (match x with
            | Fin q => if (Qle_bool 0 q && Qle_bool q 1)%bool
                       then (f q / inject_Z (hi - lo + 1))%Q else 0%Q
            | _ => 0%Q
            end)
    | KInt lo hi _ _ =>
        mn <- max_and_norm f (hi - lo + 1) ;;
        Ok (match x with
            | Fin q => if (Qle_bool 0 q && Qle_bool q 1)%bool then (f q / snd mn)%Q else 0%Q
            | _ => 0%Q
            end)
    | KFloat lo hi _ DUniform =>
        Ok (match x with
            | Fin q => if (Qle_bool 0 q && Qle_bool q 1)%bool then (1 / (hi - lo))%Q else 0%Q
            | _ => 0%Q
            end)
    | KFloat _ _ _ _ => Ok (match x with Fin q => f q | _ => 0%Q end)
    end.

  (** hyperparameter.py:493-505 pdf_vector, one element *)
  Definition pdf_vector (h : hp) (f : Q -> Q) (x : fval) : res Q :=
    p <- dist_pdf h f x ;;
    Ok (p * (if legal_vector_array h x then 1 else 0))%Q.

  (** hyperparameter.py:507-525 pdf_values, one element *)
  Definition pdf_value (h : hp) (f : Q -> Q) (v : value) : res Q :=
    x <- to_vector h v ;; pdf_vector h f x.

  (** hyperparameter.py:446-448 get_max_density with the max_density methods: UniformInteger 949,
      WeightedIntegerDiscrete 1141, ConstantVector 1266, UniformIntegerNormalized 804, Discretized
      437-445 (preset to 1/size by uniform_integer.py:118), UnitUniformContinuous 877, ScipyContinuous
      1198 with normal_float.py:134-139 and beta_float.py:118-139 *)
  Definition max_density (h : hp) (f : Q -> Q) : res Q :=
    match hp_kind h with
    | KCat c None | KOrd c => Ok (1 / inject_Z (Z.of_nat (length c)))%Q
    | KCat c (Some w) => Ok (density_max (probabilities c (Some w)))
    | KConst _ => Ok 1%Q
    | KInt lo hi _ DUniform => Ok (1 / inject_Z (hi - lo + 1))%Q
    | KInt lo hi _ _ => mn <- max_and_norm f (hi - lo + 1) ;; Ok (fst mn)
    | KFloat lo hi _ DUniform => Ok (1 / (hi - lo))%Q
    | KFloat lo hi log (DNormal mu _) =>
        match unit_to_vector lo hi log mu with
        | Fin m => Ok (f (qclip m 0 1))
        | _ => Err Unmodelled
        end
    | KFloat lo hi log (DBeta a b) => Ok (f (beta_mode a b))
    end.
End Dist.
