(** Model of /repo/src/tranquilo/process_arguments.py.  No proofs here. *)
From Coq Require Import Reals List Arith ZArith Bool String.
From Verif Require Import Base XR Vec RegionModel AdjustModel MainModel OptionsModel ComponentModel.
Import ListNotations.
Open Scope string_scope.

(** The argument sample_size: None, a number, or a callable.  Simplification: a callable returns
    an integer. (process_arguments.py:290-299) *)
Inductive sample_size_arg :=
| SizeNone | SizeVal (v : pyval) | SizeFun (f : vec -> string -> res Z).

(** process_arguments.py:35-89.  x is a one-dimensional array of real numbers; the criterion
    itself plays no role here. *)
Record arguments := mkArguments {
  a_functype : string;
  a_x : vec;
  a_lower_bounds : option (list (option R));
  a_upper_bounds : option (list (option R));
  a_noisy : pyval;
  a_disable_convergence : pyval;
  a_ftol_abs : pyval; a_gtol_abs : pyval; a_xtol_abs : pyval;
  a_ftol_rel : pyval; a_gtol_rel : pyval; a_xtol_rel : pyval;
  a_min_trust_region_radius : pyval;
  a_max_eval : pyval; a_max_iter : pyval; a_max_time : pyval;
  a_batch_evaluator : option name_or_func;
  a_n_cores : pyval;
  a_batch_size : pyval;
  a_sample_size : sample_size_arg;
  a_model_type : option string;
  a_search_radius_factor : pyval;
  a_n_evals_per_point : pyval;
  a_n_evals_at_start : pyval;
  a_seed : pyval;
  a_radius_options : user_options;
  a_stagnation_options : user_options;
  a_noise_adaptation_options : user_options;
  a_sampler : name_or_func; a_sampler_options : user_options;
  a_sample_filter : option name_or_func; a_sample_filter_options : user_options;
  a_model_fitter : option name_or_func; a_model_fitter_options : user_options;
  a_cube_subsolver : name_or_func; a_sphere_subsolver : name_or_func;
  a_retry_with_fallback : pyval; a_subsolver_options : user_options;
  a_acceptance_decider : option name_or_func; a_acceptance_decider_options : user_options;
  a_variance_estimator : name_or_func; a_variance_estimator_options : user_options;
  a_infinity_handler : name_or_func;
  a_residualize : pyval
}.

(** process_arguments.py:40-88: the defaults *)
Definition default_arguments (functype : string) (x : vec)
  (lower upper : option (list (option R))) : arguments :=
  mkArguments functype x lower upper (PBool false) (PBool false)
    (flt 0) (flt 0) (flt 0) (flt (2 / 1000000000)) (flt (/ 100000000)) (flt (/ 100000000)) (flt 0)
    (PInt 2000) (PInt 200) (PFloat PInf) (Some (NStr "joblib")) (PInt 1) PNone SizeNone None
    PNone PNone PNone (PInt 925408) UNone UNone UNone
    (NStr "optimal_hull") UNone None UNone None UNone (NStr "bntr_fast") (NStr "gqtpar_fast")
    (PBool true) UNone None UNone (NStr "classic") UNone (NStr "relative") PNone.

(** options.py:111-129 *)
Record conv_opts := mkConvOpts {
  co_disable : bool; co_ftol_abs : xr; co_gtol_abs : xr; co_xtol_abs : xr;
  co_ftol_rel : xr; co_gtol_rel : xr; co_xtol_rel : xr; co_min_radius : xr }.
(** process_arguments.py:124-129; options.py:111-116 *)
Record stop_opts := mkStopOpts { so_max_iter : Z; so_max_eval : Z; so_max_time : xr }.

(** process_arguments.py:228-256, without the history, whose content is [x], and without the
    state of the generators other than their seed.  [o_trustregion] is None if the initial radius
    is infinite or NaN: regions with such a radius are not modelled. *)
Record processed := mkProcessed {
  o_x : vec; o_noisy : bool; o_conv : conv_opts; o_stop : stop_opts;
  o_radius_options : sdict; o_batch_size : Z; o_target_sample_size : Z;
  o_stagnation_options : sdict; o_noise_adaptation_options : sdict;
  o_search_radius_factor : xr; o_n_evals_per_point : Z; o_n_evals_at_start : Z;
  o_trustregion : option region; o_sampling_seed : Z; o_simulation_seed : Z;
  o_functype : string; o_n_cores : Z; o_batch_evaluator : name_or_func;
  o_model_type : string;
  o_sample_points : pycallable; o_solve_subproblem : subsolver; o_filter_points : pycallable;
  o_fit_model : fitter; o_aggregate_model : string; o_estimate_variance : pycallable;
  o_accept_candidate : pycallable }.

Section Process.
Variable conv : conversions.
Variable body : string -> sdict -> res pyval.

(** bool(v), int(v), float(v) (process_arguments.py:263-264) *)
Definition as_bool (v : pyval) : res bool :=
  let* w := convert conv TBool v in match w with PBool b => Ok b | _ => Err TypeError end.
(** int(v): process_arguments.py:126 *)
Definition as_int (v : pyval) : res Z :=
  let* w := convert conv TInt v in match w with PInt z => Ok z | _ => Err TypeError end.
(** float(v): process_arguments.py:128 *)
Definition as_float (v : pyval) : res xr :=
  let* w := convert conv TFloat v in match w with PFloat x => Ok x | _ => Err TypeError end.
(** The number in an ordering comparison with a number; everything else raises a TypeError
    (simplification: also objects of numeric types other than the modelled ones).
    (process_arguments.py:356-365) *)
Definition as_number (v : pyval) : res xr :=
  match v with
  | PBool b => Ok (Fin (if b then 1 else 0))
  | PInt z => Ok (Fin (IZR z))
  | PFloat x | PNpFloat x => Ok x
  | PNone | PStr _ | PObj _ => Err TypeError
  end.

(** process_arguments.py:323-324: np.random.default_rng accepts non-negative integers; None
    is accepted but fails in seed + 1000.  Simplification: other seeds are rejected. *)
Definition process_seed (seed : pyval) : res Z :=
  match seed with
  | PInt z => if (z <? 0)%Z then Err ValueError else Ok z
  | PBool b => Ok (if b then 1%Z else 0%Z)
  | _ => Err TypeError
  end.
(** process_arguments.py:356-365 *)
Definition process_n_evals_at_start (n_evals : pyval) (noisy : bool) : res Z :=
  let* out := match n_evals with
              | PNone => Ok (get_default_n_evals_at_start noisy)
              | v => as_int v
              end in
  if (out <? 1)%Z then Err ValueError else Ok out.
(** process_arguments.py:372-381 *)
Definition process_n_evals_per_point (n_evals : pyval) (noisy : bool) (noise_options : sdict)
  : res Z :=
  let* out := match n_evals with
              | PNone => get_default_n_evals_per_point noisy noise_options
              | v => as_int v
              end in
  if (out <? 1)%Z then Err ValueError else Ok out.
(** process_arguments.py:311-320 *)
Definition process_search_radius_factor (f : pyval) (functype : string) : res xr :=
  let* out := match f with
              | PNone => Ok (Fin (get_default_search_radius_factor functype))
              | v => as_float v
              end in
  if xle out (Fin 0) then Err ValueError else Ok out.
(** process_arguments.py:271-278 *)
Definition process_batch_size (batch_size : pyval) (n_cores : Z) : res Z :=
  match batch_size with
  | PNone => Ok (get_default_batch_size n_cores)
  | v => let* b := as_number v in
         if xlt b (Fin (IZR n_cores)) then Err ValueError else as_int v
  end.
(** process_arguments.py:302-308 *)
Definition process_model_type (model_type : option string) (functype : string) : res string :=
  let out := match model_type with None => get_default_model_type functype | Some m => m end in
  if smember out ["linear"; "quadratic"] then Ok out else Err ValueError.
(** process_arguments.py:327-333, 281-287: default for a missing component *)
Definition or_default (nf : option name_or_func) (d : string) : name_or_func :=
  match nf with Some nf => nf | None => NStr d end.
(** process_arguments.py:290-299 *)
Definition process_sample_size (sample_size : sample_size_arg) (model_type : string) (x : vec)
  (noisy : bool) (batch_size : Z) : res Z :=
  match sample_size with
  | SizeNone => Ok (get_default_sample_size model_type x noisy batch_size)
  | SizeFun f => f x model_type
  | SizeVal v => as_int v
  end.
(** process_arguments.py:336-342 *)
Definition process_model_fitter (nf : option name_or_func) (model_type : string) (sample_size : Z)
  (x : vec) : res name_or_func :=
  match nf with
  | Some nf => Ok nf
  | None => let* s := get_default_model_fitter model_type sample_size x in Ok (NStr s)
  end.
(** process_arguments.py:345-353, options.py:66-67 *)
Definition process_residualize (residualize : pyval) (model_fitter : name_or_func) : res bool :=
  match residualize with
  | PNone => Ok (match model_fitter with NStr s => String.eqb s "tranquilo" | _ => false end)
  | PBool b => Ok b
  | _ => Err ValueError
  end.
(** wrap_criterion.py:76-95.  That estimagic can be imported is assumed. *)
Definition process_batch_evaluator (batch_evaluator : option name_or_func) : res name_or_func :=
  let b := match batch_evaluator with None => NStr "joblib" | Some b => b end in
  match b with
  | NFun _ _ => Ok b
  | NStr s => if smember s ["joblib"; "pathos"] then Ok b else Err ValueError
  | NOther => Err TypeError
  end.

(** history.py:14-33: the constructor of History *)
Definition check_functype (functype : string) : res unit :=
  if smember functype ["scalar"; "likelihood"; "least_squares"] then Ok tt else Err ValueError.

(** process_arguments.py:35-256, in the order of the code.  The comparisons in lines 91-109
    only decide about warnings, but they are evaluated. *)
Definition process_arguments (a : arguments) : res processed :=
  let* _ := as_bool (a_noisy a) in
  let* _ := as_number (a_n_cores a) in
  let* disable := as_bool (a_disable_convergence a) in
  let* ftol_abs := as_float (a_ftol_abs a) in
  let* gtol_abs := as_float (a_gtol_abs a) in
  let* xtol_abs := as_float (a_xtol_abs a) in
  let* ftol_rel := as_float (a_ftol_rel a) in
  let* gtol_rel := as_float (a_gtol_rel a) in
  let* xtol_rel := as_float (a_xtol_rel a) in
  let* min_radius := as_float (a_min_trust_region_radius a) in
  let* max_iter := as_int (a_max_iter a) in
  let* max_eval := as_int (a_max_eval a) in
  let* max_time := as_float (a_max_time a) in
  let x := a_x a in
  let functype := a_functype a in
  let* noisy := as_bool (a_noisy a) in
  let* n_cores := as_int (a_n_cores a) in
  let* seed := process_seed (a_seed a) in
  let* n_evals_at_start := process_n_evals_at_start (a_n_evals_at_start a) noisy in
  let* noise_options := update_option_bundle conv NoiseAdaptationOptions
                          (a_noise_adaptation_options a) in
  let* n_evals_per_point := process_n_evals_per_point (a_n_evals_per_point a) noisy noise_options in
  let* search_radius_factor := process_search_radius_factor (a_search_radius_factor a) functype in
  let* batch_size := process_batch_size (a_batch_size a) n_cores in
  let* default_radius := get_default_radius_options x in
  let* radius_options := update_option_bundle conv default_radius (a_radius_options a) in
  let* model_type := process_model_type (a_model_type a) functype in
  let acceptance_decider := or_default (a_acceptance_decider a)
                              (get_default_acceptance_decider noisy) in
  let sample_filter := or_default (a_sample_filter a) (get_default_sample_filter batch_size) in
  let* stagnation_options := update_option_bundle conv
                               (get_default_stagnation_options noisy batch_size)
                               (a_stagnation_options a) in
  let* target_sample_size := process_sample_size (a_sample_size a) model_type x noisy batch_size in
  let* model_fitter := process_model_fitter (a_model_fitter a) model_type target_sample_size x in
  let* residualize := process_residualize (a_residualize a) model_fitter in
  let* _ := check_functype functype in
  let* batch_evaluator := process_batch_evaluator (a_batch_evaluator a) in
  let* trustregion :=
    match slookup radius_options "initial_radius" with
    | Some (PNpFloat (Fin r)) =>
        let* reg := make_region x r (Some (mkBounds (a_lower_bounds a) (a_upper_bounds a))) in
        Ok (Some reg)
    | _ => Ok None
    end in
  let* sample_points := get_sampler conv body (a_sampler a) (a_sampler_options a) in
  let* solve_subproblem := get_subsolver conv body (a_sphere_subsolver a) (a_cube_subsolver a)
                             (a_retry_with_fallback a) (a_subsolver_options a) in
  let* filter_points := get_sample_filter conv body sample_filter (a_sample_filter_options a) in
  let* fit_model := get_fitter conv body model_fitter (a_model_fitter_options a) model_type
                      residualize (a_infinity_handler a) in
  let* aggregator := get_default_aggregator functype model_type in
  let* aggregate_model := get_aggregator aggregator in
  let* estimate_variance := get_variance_estimator conv body (a_variance_estimator a)
                              (a_variance_estimator_options a) in
  let* accept_candidate := get_acceptance_decider conv body acceptance_decider
                             (a_acceptance_decider_options a) in
  Ok (mkProcessed x noisy
        (mkConvOpts disable ftol_abs gtol_abs xtol_abs ftol_rel gtol_rel xtol_rel min_radius)
        (mkStopOpts max_iter max_eval max_time)
        radius_options batch_size target_sample_size stagnation_options noise_options
        search_radius_factor n_evals_per_point n_evals_at_start trustregion
        seed (seed + 1000)%Z functype n_cores batch_evaluator model_type
        sample_points solve_subproblem filter_points fit_model aggregate_model estimate_variance
        accept_candidate).
End Process.

(** tranquilo.py:27-52: the numbers and bundles as the main loop (MainModel) receives them.
    [min_improvement] is an option of the decider.  Simplification: None if one of the numbers is
    infinite or NaN where MainModel has a real number, or if sample_increment or max_trials is
    negative; range(max_iter) is empty for a negative max_iter. *)
Definition real_field (o : sdict) (k : string) : option R :=
  match slookup o k with Some (PFloat (Fin r)) | Some (PNpFloat (Fin r)) => Some r | _ => None end.
(** A float entry of an option bundle: options.py:132-215 *)
Definition xr_field (o : sdict) (k : string) : option xr :=
  match slookup o k with Some (PFloat x) | Some (PNpFloat x) => Some x | _ => None end.
(** An integer entry: options.py:132-215 *)
Definition Z_field (o : sdict) (k : string) : option Z :=
  match slookup o k with
  | Some (PInt z) => Some z
  | Some (PBool b) => Some (if b then 1%Z else 0%Z)
  | _ => None
  end.
(** An integer entry that is not negative: options.py:132-215 *)
Definition nat_field (o : sdict) (k : string) : option nat :=
  match Z_field o k with Some z => if (z <? 0)%Z then None else Some (Z.to_nat z) | None => None end.
(** A boolean entry: options.py:156-161 *)
Definition bool_field (o : sdict) (k : string) : option bool :=
  match slookup o k with Some (PBool b) => Some b | _ => None end.
(** No lines of its own: a finite number, for the options read in adjust_radius.py:4-43 *)
Definition fin (x : xr) : option R := match x with Fin r => Some r | _ => None end.
(** No lines of its own: sequencing of the functions below *)
Definition obind {A B} (o : option A) (f : A -> option B) : option B :=
  match o with Some a => f a | None => None end.
Local Notation "'do' x <- m ; k" := (obind m (fun x => k)) (at level 200, x name, m at level 100).

(** RadiusOptions as read in adjust_radius.py:4-43 *)
Definition radius_of (o : sdict) : option radius_options :=
  do a <- real_field o "min_radius"; do b <- real_field o "max_radius";
  do c <- real_field o "rho_decrease"; do d <- real_field o "rho_increase";
  do e <- real_field o "shrinking_factor"; do f <- real_field o "expansion_factor";
  do g <- real_field o "large_step"; do h <- xr_field o "max_radius_to_step_ratio";
  Some (mkRadiusOptions a b c d e f g h).
(** NoiseAdaptationOptions as read in adjust_n_evals.py:1-25 *)
Definition noise_of (o : sdict) : option noise_options :=
  do a <- real_field o "high_rho"; do b <- real_field o "low_rho";
  do c <- real_field o "min_share_high_rho"; do d <- real_field o "min_share_low_rho";
  do e <- Z_field o "min_n_evals"; do f <- Z_field o "max_n_evals";
  do g <- real_field o "good_rho_threshold";
  Some (mkNoiseOptions a b c d e f g).
(** StagnationOptions as read in tranquilo.py:175-270 *)
Definition stagnation_of (o : sdict) : option stagnation_options :=
  do a <- real_field o "min_relative_step_keep"; do b <- bool_field o "drop";
  do c <- real_field o "min_relative_step"; do d <- nat_field o "sample_increment";
  do e <- nat_field o "max_trials";
  Some (mkStag a b c d e).
(** ConvOptions as read in tranquilo.py:484-511 *)
Definition conv_of (c : conv_opts) : option conv_options :=
  do a <- fin (co_ftol_abs c); do b <- fin (co_gtol_abs c); do d <- fin (co_xtol_abs c);
  do e <- fin (co_ftol_rel c); do f <- fin (co_gtol_rel c); do g <- fin (co_xtol_rel c);
  do h <- fin (co_min_radius c);
  Some (mkConv (co_disable c) a b d e f g h).
(** The call _internal_tranquilo( **process_arguments(...)): tranquilo.py:27-52 *)
Definition config_of (p : processed) (min_improvement : R) : option config :=
  do c <- conv_of (o_conv p); do r <- radius_of (o_radius_options p);
  do n <- noise_of (o_noise_adaptation_options p); do s <- stagnation_of (o_stagnation_options p);
  do f <- fin (o_search_radius_factor p);
  Some (mkConfig (o_noisy p) c
          (mkStop (Z.to_nat (so_max_iter (o_stop p))) (so_max_eval (o_stop p)) (so_max_time (o_stop p)))
          r n (o_batch_size p) (o_target_sample_size p) s f (o_n_evals_per_point p)
          (o_n_evals_at_start p) min_improvement).
