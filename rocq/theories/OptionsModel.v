(** Model of /repo/src/tranquilo/options.py.  No proofs here. *)
From Coq Require Import Reals List Arith ZArith Bool String.
From Verif Require Import Base XR Vec ModelsModel AdjustModel.
Import ListNotations.
Open Scope string_scope.

(** Python values; [PNpFloat] is np.float64, [PObj] stands for all other objects (arrays,
    functions, ...). (the values of options: options.py:218-259) *)
Inductive pyval :=
| PNone | PBool (b : bool) | PInt (z : Z) | PFloat (x : xr) | PNpFloat (x : xr)
| PStr (s : string) | PObj (k : nat).

(** type(value): options.py:218-259 *)
Inductive pytype := TNone | TBool | TInt | TFloat | TNpFloat | TStr | TObj.
(** type(value): options.py:218-259 *)
Definition type_of (v : pyval) : pytype :=
  match v with
  | PNone => TNone | PBool _ => TBool | PInt _ => TInt | PFloat _ => TFloat
  | PNpFloat _ => TNpFloat
  | PStr _ => TStr | PObj _ => TObj
  end.
(** isinstance; bool is a subclass of int and np.float64 one of float
    (used in options.py:218-259) *)
Definition isinstance (v : pyval) (t : pytype) : bool :=
  match v, t with
  | PNone, TNone | PBool _, (TBool | TInt) | PInt _, TInt | PFloat _, TFloat
  | PNpFloat _, (TNpFloat | TFloat) | PStr _, TStr
  | PObj _, TObj => true
  | _, _ => false
  end.

(** int(x) for a float: rounds towards zero (used in options.py:218-259 through int) *)
Definition truncate (x : R) : Z := if Rleb 0 x then Int_part x else (- Int_part (- x))%Z.
(** int(x) of a float with its errors: options.py:218-259 *)
Definition int_of_float (x : xr) : res Z :=
  match x with
  | Fin r => Ok (truncate r)
  | NaN => Err ValueError
  | PInf | NInf => Err OverflowError
  end.

(** How strings and other objects are converted to numbers and strings. (options.py:218-259) *)
Record conversions := mkConversions {
  to_bool : pyval -> res bool;
  to_int : pyval -> res Z;
  to_float : pyval -> res xr;
  to_str : pyval -> res string
}.

Section Bundles.
Variable conv : conversions.

(** bool(v), int(v), float(v), np.float64(v), str(v); np.float64(None) is NaN
    (options.py:218-259) *)
Definition convert (t : pytype) (v : pyval) : res pyval :=
  match t with
  | TBool => match v with
      | PNone => Ok (PBool false)
      | PBool b => Ok (PBool b)
      | PInt z => Ok (PBool (negb (Z.eqb z 0)))
      | PFloat x | PNpFloat x => Ok (PBool (negb (xeq x (Fin 0))))
      | PStr s => Ok (PBool (negb (String.eqb s "")))
      | PObj _ => let* b := to_bool conv v in Ok (PBool b)
      end
  | TInt => match v with
      | PNone => Err TypeError
      | PBool b => Ok (PInt (if b then 1 else 0))
      | PInt z => Ok (PInt z)
      | PFloat x | PNpFloat x => let* z := int_of_float x in Ok (PInt z)
      | PStr _ | PObj _ => let* z := to_int conv v in Ok (PInt z)
      end
  | TFloat => match v with
      | PNone => Err TypeError
      | PBool b => Ok (PFloat (Fin (if b then 1 else 0)))
      | PInt z => Ok (PFloat (Fin (IZR z)))
      | PFloat x | PNpFloat x => Ok (PFloat x)
      | PStr _ | PObj _ => let* x := to_float conv v in Ok (PFloat x)
      end
  | TNpFloat => match v with
      | PNone => Ok (PNpFloat NaN)
      | PBool b => Ok (PNpFloat (Fin (if b then 1 else 0)))
      | PInt z => Ok (PNpFloat (Fin (IZR z)))
      | PFloat x | PNpFloat x => Ok (PNpFloat x)
      | PStr _ | PObj _ => let* x := to_float conv v in Ok (PNpFloat x)
      end
  | TStr => match v with
      | PStr s => Ok (PStr s)
      | _ => let* s := to_str conv v in Ok (PStr s)
      end
  | TNone | TObj => Err TypeError
  end.

(** Dictionaries with string keys, in insertion order. (_asdict in options.py:218-259) *)
Definition sdict := list (string * pyval).
(** d[k]: options.py:218-259 *)
Fixpoint slookup {A} (d : list (string * A)) (k : string) : option A :=
  match d with
  | [] => None
  | (k', v) :: d => if String.eqb k k' then Some v else slookup d k
  end.
(** k in d: options.py:218-259 *)
Definition smem {A} (k : string) (d : list (string * A)) : bool :=
  match slookup d k with Some _ => true | None => false end.
(** {**a, **b} (get_component.py:121-166) *)
Definition smerge (a b : sdict) : sdict :=
  (map (fun kv => (fst kv, match slookup b (fst kv) with Some w => w | None => snd kv end)) a
   ++ filter (fun kv => negb (smem (fst kv) a)) b)%list.

(** What can be passed as user options: None, a dict, a NamedTuple, or something without
    _asdict. (options.py:218-259) *)
Inductive user_options := UNone | UDict (d : sdict) | UTuple (d : sdict) | UOther.

(** options.py:246-254: one user option *)
Definition typed_option (default_options : sdict) (k : string) (v : pyval) : res pyval :=
  match slookup default_options k with
  | None => Err AttributeError
  | Some d =>
      if isinstance v (type_of d) || (match d with PNone => true | _ => false end)
      then Ok v else convert (type_of d) v
  end.

(** options.py:218-259; a NamedTuple is the list of its fields and values. *)
Definition update_option_bundle (default_options : sdict) (user : user_options) : res sdict :=
  match user with
  | UNone => Ok default_options
  | UOther => Err AttributeError
  | UDict d | UTuple d =>
      if existsb (fun kv => negb (smem (fst kv) default_options)) d then Err ValueError
      else
        let* typed := mapM (fun kv => let* v := typed_option default_options (fst kv) (snd kv) in
                                      Ok (fst kv, v)) d in
        Ok (map (fun kv => (fst kv, match slookup typed (fst kv) with Some w => w | None => snd kv end))
                default_options)
  end.
End Bundles.

(** * The bundles, options.py:132-215.  Decimal numbers are exact. *)
Definition flt (r : R) : pyval := PFloat (Fin r).
(** options.py:132-143; np.max returns an np.float64, so the default initial radius is one *)
Definition RadiusOptions (initial_radius : R) : sdict :=
  [("initial_radius", PNpFloat (Fin initial_radius)); ("min_radius", flt (/ 1000000));
   ("max_radius", flt 1000000); ("rho_decrease", flt (/ 10)); ("rho_increase", flt (/ 10));
   ("shrinking_factor", flt (/ 2)); ("expansion_factor", flt 2); ("large_step", flt (/ 2));
   ("max_radius_to_step_ratio", PFloat PInf)].
(** options.py:146-153 *)
Definition AcceptanceOptions : sdict :=
  [("confidence_level", flt (95 / 100)); ("power_level", flt (95 / 100)); ("n_initial", PInt 5);
   ("n_min", PInt 4); ("n_max", PInt 50); ("min_improvement", flt 0);
   ("speculative_sampling_radius_factor", flt (75 / 100))].
(** options.py:156-161 *)
Definition StagnationOptions (min_relative_step_keep : R) (drop : bool) : sdict :=
  [("min_relative_step_keep", flt min_relative_step_keep); ("drop", PBool drop);
   ("min_relative_step", flt (5 / 100)); ("sample_increment", PInt 1); ("max_trials", PInt 1)].
(** options.py:164-174 *)
Definition SubsolverOptions : sdict :=
  [("maxiter", PInt 20); ("maxiter_gradient_descent", PInt 5);
   ("conjugate_gradient_method", PStr "cg"); ("gtol_abs", flt (/ 100000000));
   ("gtol_rel", flt (/ 100000000)); ("gtol_scaled", flt 0);
   ("gtol_abs_conjugate_gradient", flt (/ 100000000));
   ("gtol_rel_conjugate_gradient", flt (/ 1000000)); ("k_easy", flt (/ 10)); ("k_hard", flt (2 / 10))].
(** options.py:177-182 *)
Definition FitterOptions : sdict :=
  [("l2_penalty_linear", flt 0); ("l2_penalty_square", flt (/ 10)); ("p_intercept", flt (5 / 100));
   ("p_linear", flt (4 / 10)); ("p_square", flt 1)].
(** options.py:185-187 *)
Definition VarianceEstimatorOptions : sdict :=
  [("max_distance_factor", flt 3); ("min_n_evals", PInt 3)].
(** options.py:190-193 *)
Definition FilterOptions : sdict :=
  [("strictness", flt (/ 10000000000)); ("shape", PStr "sphere"); ("n_max_factor", PInt 3)].
(** options.py:196-203: the default of hardness is the integer 1 *)
Definition SamplerOptions : sdict :=
  [("distribution", PNone); ("hardness", PInt 1); ("algorithm", PStr "L-BFGS-B");
   ("algo_options", PNone); ("criterion", PNone); ("n_points_randomsearch", PInt 1);
   ("return_info", PBool false)].
(** options.py:206-215 *)
Definition NoiseAdaptationOptions : sdict :=
  [("rho_noise_n_draws", PInt 100); ("high_rho", flt (6 / 10)); ("low_rho", flt (/ 10));
   ("ignore_corelation", PBool true); ("min_share_high_rho", flt (7 / 10));
   ("min_share_low_rho", flt (9 / 10)); ("min_n_evals", PInt 1); ("max_n_evals", PInt 30);
   ("good_rho_threshold", flt (/ 10))].

(** * Default values, options.py:7-108 *)
(** options.py:7-23 *)
Definition get_default_stagnation_options (noisy : bool) (batch_size : Z) : sdict :=
  if noisy then StagnationOptions 0 false
  else if (1 <? batch_size)%Z then StagnationOptions 0 true
  else StagnationOptions (125 / 1000) true.
(** options.py:26-27 *)
Definition get_default_sample_filter (batch_size : Z) : string :=
  if (1 <? batch_size)%Z then "drop_excess" else "keep_all".
(** options.py:30-31; np.max of an empty array raises *)
Definition get_default_radius_options (x : vec) : res sdict :=
  match x with
  | [] => Err ValueError
  | _ => Ok (RadiusOptions (default_initial_radius x))
  end.
(** options.py:34-35 *)
Definition get_default_batch_size (n_cores : Z) : Z := n_cores.
(** options.py:38-39 *)
Definition get_default_acceptance_decider (noisy : bool) : string :=
  if noisy then "noisy" else "classic".
(** options.py:42-55 *)
Definition get_default_sample_size (model_type : string) (x : vec) (noisy : bool) (batch_size : Z) : Z :=
  let n := Z.of_nat (List.length x) in
  if String.eqb model_type "quadratic" then (2 * n + 1)%Z
  else if noisy || (1 <? batch_size)%Z then (n + 1)%Z else (n + 2)%Z.
(** options.py:57-63, models.py:264-272 *)
Definition model_type_of (s : string) : res ModelsModel.model_type :=
  if String.eqb s "linear" then Ok Linear
  else if String.eqb s "quadratic" then Ok Quadratic else Err ValueError.
(** options.py:57-63 *)
Definition get_default_model_fitter (model_type : string) (sample_size : Z) (x : vec) : res string :=
  let* t := model_type_of model_type in
  let n_params := Z.of_nat (n_free_params (List.length x) t) in
  Ok (if String.eqb model_type "linear" || (n_params <=? sample_size)%Z then "ols" else "tranquilo").
(** options.py:74-75 *)
Definition get_default_search_radius_factor (functype : string) : R :=
  if String.eqb functype "scalar" then (425 / 100)%R else 5%R.
(** options.py:78-79 *)
Definition get_default_model_type (functype : string) : string :=
  if String.eqb functype "scalar" then "quadratic" else "linear".
(** options.py:82-100 *)
Definition get_default_aggregator (functype model_type : string) : res string :=
  if String.eqb functype "scalar" && String.eqb model_type "quadratic" then Ok "identity"
  else if String.eqb functype "least_squares" && String.eqb model_type "linear"
    then Ok "least_squares_linear"
  else if String.eqb functype "likelihood" && String.eqb model_type "linear"
    then Ok "information_equality_linear"
  else Err NotImplementedError.
(** options.py:103-104 *)
Definition get_default_n_evals_at_start (noisy : bool) : Z := if noisy then 5%Z else 1%Z.
(** options.py:107-108 *)
Definition int_field (o : sdict) (k : string) : res Z :=
  match slookup o k with
  | Some (PInt z) => Ok z
  | Some (PBool b) => Ok (if b then 1%Z else 0%Z)
  | Some _ => Err TypeError
  | None => Err AttributeError
  end.
(** options.py:107-108 *)
Definition get_default_n_evals_per_point (noisy : bool) (noise_adaptation_options : sdict) : res Z :=
  if noisy then int_field noise_adaptation_options "min_n_evals" else Ok 1%Z.
