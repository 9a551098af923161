(** Model of /repo/src/tranquilo/get_component.py and of the places where components are
    built.  No proofs here. *)
From Coq Require Import Reals List Arith ZArith Bool String.
From Verif Require Import Base XR OptionsModel.
Import ListNotations.
Open Scope string_scope.
Open Scope list_scope.

(** A python function: its parameters in order and its body, which receives the bound
    arguments.  Simplification: no *args, **kwargs or positional-only parameters; keyword-only
    parameters come last. (inspect.signature in get_component.py:10-84) *)
Record param := mkParam { p_name : string; p_kwonly : bool; p_default : option pyval }.
(** A python function, as passed to get_component.py:10-84 *)
Record pyfun := mkFun { pf_sig : list param; pf_body : sdict -> res pyval }.
(** The names of the parameters: get_component.py:55 *)
Definition signature (f : pyfun) : list string := map p_name (pf_sig f).

(** k in l: get_component.py:121-166 *)
Definition smember (k : string) (l : list string) : bool := existsb (String.eqb k) l.

(** Python's call protocol f( *args, **kwargs): TypeError for too many positional arguments, for
    two values of one parameter, for unexpected keywords and for missing arguments.
    (No lines of its own: the parameters that can be passed by position, see python_call) *)
Definition positional_names (f : pyfun) : list string :=
  map p_name (filter (fun p => negb (p_kwonly p)) (pf_sig f)).
(** A call of a function, e.g. in get_component.py:215-231 *)
Definition python_call (f : pyfun) (args : list pyval) (kwargs : sdict) : res pyval :=
  let names := positional_names f in
  if (List.length names <? List.length args)%nat then Err TypeError
  else
    let bound := combine names args in
    if existsb (fun kv => smem (fst kv) bound) kwargs then Err TypeError
    else if existsb (fun kv => negb (smember (fst kv) (signature f))) kwargs then Err TypeError
    else
      let* all := mapM (fun p =>
        match slookup (bound ++ kwargs) (p_name p) with
        | Some v => Ok (p_name p, v)
        | None => match p_default p with
                  | Some v => Ok (p_name p, v)
                  | None => Err TypeError
                  end
        end) (pf_sig f) in
      pf_body f all.

(** A python callable (the result of get_component.py:10-84) *)
Definition pycallable := list pyval -> sdict -> res pyval.
(** functools.partial(f, **options) (used in get_component.py:10-84) *)
Definition partial_call (f : pyfun) (options : sdict) : pycallable :=
  fun args kwargs => python_call f args (smerge options kwargs).

(** A string, a callable (with or without attribute __name__), or something else
    (get_component.py:87-118) *)
Inductive name_or_func := NStr (s : string) | NFun (has_name : bool) (f : pyfun) | NOther.
(** the arguments redundant_option_handling and redundant_argument_handling:
    get_component.py:10-84 *)
Inductive handling := HIgnore | HWarn | HRaise.

(** get_component.py:87-118; None as func_dict is the empty dictionary *)
Definition get_function (nf : name_or_func) (func_dict : list (string * pyfun)) : res pyfun :=
  match nf with
  | NStr s => match slookup func_dict s with Some f => Ok f | None => Err ValueError end
  | NFun true f => Ok f
  | NFun false _ => Err AttributeError
  | NOther => Err TypeError
  end.

Section Component.
Variable conv : conversions.

(** get_component.py:121-166.  [None] as default_options fails at [_fields] or [_asdict].
    Issuing a warning is not modelled. *)
Definition get_valid_options (default_options : option sdict) (user : user_options)
  (sig : list string) (redundant_option_handling : handling) : res sdict :=
  match default_options with
  | None => Err AttributeError
  | Some defaults =>
      let* options := update_option_bundle conv defaults user in
      let valid := filter (fun kv => smember (fst kv) sig) options in
      let redundant := filter (fun kv => negb (smember (fst kv) sig)) options in
      match redundant_option_handling, redundant with
      | HRaise, _ :: _ => Err ValueError
      | _, _ => Ok valid
      end
  end.

(** get_component.py:169-198 *)
Definition fail_if_mandatory_argument_is_missing (mandatory sig : list string) : res unit :=
  match filter (fun a => negb (smember a sig)) mandatory with
  | [] => Ok tt
  | _ => Err ValueError
  end.

(** get_component.py:201-231.  With [warn] the message needs func.__name__, which a
    functools.partial does not have. *)
Definition add_redundant_argument_handling (func : pycallable) (sig : list string) (warn : bool)
  : pycallable :=
  fun args kwargs =>
    let all := smerge (combine (firstn (List.length args) sig) args) kwargs in
    let redundant := filter (fun kv => negb (smember (fst kv) sig)) all in
    let valid := filter (fun kv => smember (fst kv) sig) all in
    if warn && negb (match redundant with [] => true | _ => false end) then Err AttributeError
    else func [] valid.

(** get_component.py:10-84 *)
Definition get_component (nf : name_or_func) (func_dict : list (string * pyfun))
  (default_options : option sdict) (user : user_options)
  (redundant_option_handling redundant_argument_handling : handling)
  (mandatory : list string) : res pycallable :=
  let* f := get_function nf func_dict in
  let* valid := get_valid_options default_options user (signature f) redundant_option_handling in
  let* _ := fail_if_mandatory_argument_is_missing mandatory (signature f) in
  let partialled := partial_call f valid in
  Ok (match redundant_argument_handling with
      | HRaise => partialled
      | h => add_redundant_argument_handling partialled (signature f)
               (match h with HWarn => true | _ => false end)
      end).

(** * The built-in components.  The bodies of the functions are the subject of the other model
    files; here [body name] is the body of the python function [name]. *)
Variable body : string -> sdict -> res pyval.

(** A positional parameter without default, e.g. fit_models.py:152 *)
Definition req (s : string) : param := mkParam s false None.
(** A keyword-only parameter without default, e.g. bntr.py:25-40 *)
Definition kw (s : string) : param := mkParam s true None.
(** A positional parameter with default, e.g. fallback_subsolvers.py:11 *)
Definition opt (s : string) (v : pyval) : param := mkParam s false (Some v).
(** A keyword-only parameter with default, e.g. gqtpar.py:22 *)
Definition kwopt (s : string) (v : pyval) : param := mkParam s true (Some v).
(** A built-in function, given by its signature; the bodies are modelled in the other files (the
    dictionaries are in solve_subproblem.py:27-90 and the other get_ functions) *)
Definition builtin (name : string) (ps : list param) : pyfun := mkFun ps (body name).

(** acceptance_decision.py:41-48, 73-80, 93-104, 305-317 and 19-38 *)
Definition built_in_deciders : list (string * pyfun) :=
  [("classic", builtin "_accept_classic"
      [req "subproblem_solution"; req "state"; req "history"; kw "wrapped_criterion";
       kw "min_improvement"]);
   ("naive_noisy", builtin "accept_naive_noisy"
      [req "subproblem_solution"; req "state"; req "history"; kw "wrapped_criterion";
       kw "min_improvement"]);
   ("noisy", builtin "accept_noisy"
      [req "subproblem_solution"; req "state"; req "noise_variance"; req "history";
       kw "wrapped_criterion"; kw "min_improvement"; kw "power_level"; kw "confidence_level";
       kw "n_min"; kw "n_max"]);
   ("classic_line_search", builtin "accept_classic_line_search"
      [req "subproblem_solution"; req "state"; req "history";
       kw "speculative_sampling_radius_factor"; kw "wrapped_criterion"; kw "min_improvement";
       kw "batch_size"; kw "sample_points"; kw "rng"])].
(** acceptance_decision.py:19-38 *)
Definition get_acceptance_decider (nf : name_or_func) (user : user_options) : res pycallable :=
  get_component nf built_in_deciders (Some AcceptanceOptions) user HIgnore HIgnore [].

(** estimate_variance.py:28-34 and 12-25 *)
Definition built_in_variance_estimators : list (string * pyfun) :=
  [("classic", builtin "_estimate_variance_classic"
      [req "trustregion"; req "history"; req "model_type"; req "max_distance_factor";
       req "min_n_evals"])].
(** estimate_variance.py:12-25 *)
Definition get_variance_estimator (nf : name_or_func) (user : user_options) : res pycallable :=
  get_component nf built_in_variance_estimators (Some VarianceEstimatorOptions) user
    HIgnore HIgnore [].

(** filter_points.py:45, 49, 53, 117-119 and 27-42 *)
Definition built_in_filters : list (string * pyfun) :=
  [("discard_all", builtin "discard_all" [req "state"]);
   ("keep_all", builtin "keep_all" [req "xs"; req "indices"]);
   ("clustering", builtin "keep_cluster_centers"
      [req "xs"; req "indices"; req "state"; req "target_size";
       opt "strictness" (flt (/ 10000000000)); opt "shape" (PStr "sphere")]);
   ("drop_excess", builtin "drop_excess"
      [req "xs"; req "indices"; req "state"; req "target_size"; req "n_max_factor"])].
(** filter_points.py:10-42 *)
Definition get_sample_filter (nf : name_or_func) (user : user_options) : res pycallable :=
  get_component nf built_in_filters (Some FilterOptions) user HIgnore HIgnore [].

(** fit_models.py:152, 193, 231-238, 297 and 54-71 *)
Definition built_in_fitters : list (string * pyfun) :=
  [("ols", builtin "fit_ols" [req "x"; req "y"; req "weights"; req "model_type"]);
   ("ridge", builtin "fit_ridge"
      [req "x"; req "y"; req "weights"; req "model_type"; req "l2_penalty_linear";
       req "l2_penalty_square"]);
   ("powell", builtin "fit_powell" [req "x"; req "y"; req "model_type"]);
   ("tranquilo", builtin "fit_tranquilo"
      [req "x"; req "y"; req "weights"; req "model_type"; req "p_intercept"; req "p_linear";
       req "p_square"])].
(** The component chosen in fit_models.py:18-82 *)
Definition get_raw_fitter (nf : name_or_func) (user : user_options) : res pycallable :=
  get_component nf built_in_fitters (Some FitterOptions) user HIgnore HIgnore
    ["x"; "y"; "model_type"].

(** sample_points.py:58-63, 141-147, 175-187 and 32-55 *)
Definition built_in_samplers : list (string * pyfun) :=
  [("random_interior", builtin "_interior_sampler"
      [req "trustregion"; req "n_points"; req "rng"; opt "existing_xs" PNone]);
   ("random_hull", builtin "_hull_sampler"
      [req "trustregion"; req "n_points"; req "rng"; req "distribution"; opt "existing_xs" PNone]);
   ("optimal_hull", builtin "_optimal_hull_sampler"
      [req "trustregion"; req "n_points"; req "rng"; req "distribution"; req "hardness";
       req "algorithm"; req "algo_options"; req "criterion"; req "n_points_randomsearch";
       req "return_info"; opt "existing_xs" PNone])].
(** sample_points.py:13-55 *)
Definition get_sampler (nf : name_or_func) (user : user_options) : res pycallable :=
  get_component nf built_in_samplers (Some SamplerOptions) user HIgnore HIgnore
    ["trustregion"; "n_points"; "existing_xs"; "rng"].

(** gqtpar.py:22, gqtpar_fast.py:8, bntr.py:25-39, bntr_fast.py:17-31,
    fallback_subsolvers.py:11, 41, 80, 92, 138 and solve_subproblem.py:76-89 *)
Definition gqtpar_sig : list param :=
  [req "model"; req "x_candidate"; kwopt "k_easy" (flt (/ 10)); kwopt "k_hard" (flt (2 / 10));
   kwopt "maxiter" (PInt 200)].
(** bntr.py:25-40 *)
Definition bntr_sig : list param :=
  [req "model"; req "lower_bounds"; req "upper_bounds"; req "x_candidate";
   kw "conjugate_gradient_method"; kw "maxiter"; kw "maxiter_gradient_descent"; kw "gtol_abs";
   kw "gtol_rel"; kw "gtol_scaled"; kw "gtol_abs_conjugate_gradient";
   kw "gtol_rel_conjugate_gradient"].
(** solve_subproblem.py:27-90 *)
Definition built_in_sphere_solvers : list (string * pyfun) :=
  [("gqtpar", builtin "gqtpar" gqtpar_sig);
   ("gqtpar_fast", builtin "gqtpar_fast" gqtpar_sig);
   ("fallback_reparametrized", builtin "robust_sphere_solver_reparametrized"
      [req "model"; req "x_candidate"]);
   ("fallback_inscribed_cube", builtin "robust_sphere_solver_inscribed_cube"
      [req "model"; req "x_candidate"]);
   ("fallback_norm_constraint", builtin "robust_sphere_solver_norm_constraint"
      [req "model"; req "x_candidate"])].
(** solve_subproblem.py:27-90 *)
Definition built_in_cube_solvers : list (string * pyfun) :=
  [("bntr", builtin "bntr" bntr_sig);
   ("bntr_fast", builtin "bntr_fast" bntr_sig);
   ("fallback_cube", builtin "robust_cube_solver"
      [req "model"; req "x_candidate"; opt "radius" (flt 1)]);
   ("fallback_multistart", builtin "robust_cube_solver_multistart"
      [req "model"; req "x_candidate"])].
(** solve_subproblem.py:91-134: the four solvers partialled into the template *)
Record subsolver := mkSubsolver {
  ss_sphere : pycallable; ss_cube : pycallable;
  ss_fallback_sphere : pycallable; ss_fallback_cube : pycallable;
  ss_retry : pyval
}.
(** solve_subproblem.py:27-133 *)
Definition get_subsolver (sphere_solver cube_solver : name_or_func) (retry : pyval)
  (user : user_options) : res subsolver :=
  let* sphere := get_component sphere_solver built_in_sphere_solvers (Some SubsolverOptions) user
                   HIgnore HIgnore ["model"; "x_candidate"] in
  let* cube := get_component cube_solver built_in_cube_solvers (Some SubsolverOptions) user
                 HIgnore HIgnore ["model"; "x_candidate"; "lower_bounds"; "upper_bounds"] in
  let* fsphere := get_component (NStr "fallback_inscribed_cube") built_in_sphere_solvers
                    (Some SubsolverOptions) UNone HIgnore HIgnore ["model"; "x_candidate"] in
  let* fcube := get_component (NStr "fallback_cube") built_in_cube_solvers
                  (Some SubsolverOptions) UNone HIgnore HIgnore ["model"; "x_candidate"] in
  Ok (mkSubsolver sphere cube fsphere fcube retry).

(** aggregate_models.py:18-33 *)
Definition get_aggregator (aggregator : string) : res string :=
  if smember aggregator ["identity"; "sum"; "information_equality_linear"; "least_squares_linear"]
  then Ok aggregator else Err ValueError.

(** handle_infinity.py:4-11: a string, a callable or something else.  The result is the name of
    the built-in handler or the callable. *)
Definition get_infinity_handler (h : name_or_func) : res name_or_func :=
  match h with
  | NStr s => if String.eqb s "relative" then Ok (NStr "clip_relative") else Err KeyError
  | NFun _ _ => Ok h
  | NOther => Err TypeError
  end.

(** fit_models.py:18-80: what is partialled into the template *)
Record fitter := mkFitter {
  fi_raw : pycallable; fi_model_type : string; fi_handler : name_or_func; fi_residualize : bool
}.
(** fit_models.py:18-82 *)
Definition get_fitter (nf : name_or_func) (user : user_options) (model_type : string)
  (residualize : bool) (infinity_handling : name_or_func) : res fitter :=
  let* raw := get_raw_fitter nf user in
  let* h := get_infinity_handler infinity_handling in
  Ok (mkFitter raw model_type h residualize).
End Component.
