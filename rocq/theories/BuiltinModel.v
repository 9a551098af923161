(** The built-in components put together: what process_arguments.py:157-232 selects by name and
    _internal_tranquilo calls.  No proofs.

    External functions (numpy's least squares, scipy's optimizers, random number generators) are
    collected in a record.  Situations in which the code would compute with NaN or infinity where
    the models of the components use real numbers give the error [OutsideModel]. *)
From Coq Require Import Reals List Arith ZArith Bool.
From Verif Require Import Base XR Vec FVec HistoryModel VolumeModel RegionModel AcceptModel
  ModelsModel FitModel FilterModel SubproblemModel SampleModel VarianceModel NoiseModel CgModel
  TrsboxModel TrsboxFastModel BntrModel GqtparModel MainModel.
Import ListNotations.
Open Scope R_scope.

(** No lines of its own: NaN in a model's coefficients, not modelled *)
Definition OutsideModel : err := UserError 1000.

(** External functions.  The two numbers of the generators are the iteration and the number of the
    call in it (the generator's state changes from call to call).
    (np.linalg.lstsq (fit_models.py:187), scipy's minimize (fallback_subsolvers.py:22), the random generators (sample_points.py:428-449) and so on) *)
Record externals := mkExt {
  (** np.linalg.lstsq *)
  e_lstsq : lstsq_oracle;
  (** scipy.linalg.qr in fit_powell *)
  e_qr : qr_oracle;
  (** rng.normal and rng.uniform(-1, 1) in optimal_hull *)
  e_rng3 : nat -> nat -> distribution -> nat -> nat -> nat -> list (list vec);
  (** rng.normal and rng.uniform(-1, 1) in hull_sampler and ball_sampler *)
  e_rng2 : nat -> nat -> distribution -> nat -> nat -> list vec;
  (** rng.uniform(low, high) in box_sampler *)
  e_uniform : nat -> nat -> vec -> vec -> nat -> list vec;
  (** scipy.special.gammainc *)
  e_gammainc : R -> R -> R;
  (** scipy.optimize.minimize in the sampler and in the fallback solvers *)
  e_optimize : (rows -> res xr) -> rows -> res rows;
  e_minimize : minimizer;
  (** robust_sphere_solver_norm_constraint, fallback_subsolvers.py:140-164 *)
  e_norm_constraint : smodel -> vec -> res fbresult;
  (** the rounding dependent tie break of gqtpar *)
  e_tie : fvec -> fvec -> bool;
  (** np.linalg.pinv *)
  e_pinv : nat -> fmat -> fmat;
  (** simulation_rng.multivariate_normal *)
  e_normal : nat -> normal_oracle
}.

(** * Choices, by the names of the built-in components with their options *)

(** fit_models.py:53-58 *)
Inductive fitter_choice :=
| FitOls
| FitRidge (l2_linear l2_square : R)
| FitPowell
| FitTranquilo (p_intercept p_linear p_square : R).
(** aggregate_models.py:18-23 *)
Inductive aggregator_choice := AggIdentity | AggSum | AggInformation | AggLeastSquares.
(** filter_points.py:26-31 *)
Inductive filter_choice := FilDiscard | FilKeep | FilClustering (strictness : R) | FilDropExcess (n_max_factor : R).
(** sample_points.py:33-37 *)
Inductive sampler_choice :=
| SamInterior
| SamHull (d : option distribution)
| SamOptimal (d : option distribution) (hardness : R) (criterion : option sampling_criterion)
    (n_points_randomsearch : nat).
(** solve_subproblem.py:76-82 *)
Inductive sphere_choice := SphGqtpar (o : gopts) (maxiter : nat) | SphReparametrized | SphInscribed | SphNorm.
(** bntr.py:380-400 and bntr_fast.py: conjugate_gradient_method *)
Inductive cg_choice := CgPlain (gtol_abs gtol_rel : R) | CgSteihaug | CgTrsbox.
(** solve_subproblem.py:84-89; fallback_multistart is not covered. *)
Inductive cube_choice :=
| CubBntr (fast compiled : bool) (c : cg_choice) (t : tols) (maxiter : Z) (maxiter_gradient_descent : nat)
| CubFallback.
(** acceptance_decision.py:18-23 *)
Inductive decider_choice :=
| DecClassic | DecNaiveNoisy
| DecLineSearch (radius_factor : R) (batch_size : nat)
| DecNoisy (zsum : R) (n_min n_max : Z).

(** The components chosen in process_arguments.py:192-226 *)
Record choices := mkChoices {
  ch_type : model_type;
  ch_fitter : fitter_choice;
  ch_residualize : bool;
  ch_aggregator : aggregator_choice;
  ch_filter : filter_choice;
  ch_sampler : sampler_choice;
  ch_sphere : sphere_choice;
  ch_cube : cube_choice;
  ch_retry : bool;
  ch_decider : decider_choice;
  ch_max_distance_factor : R;
  ch_min_n_evals : Z;
  ch_legacy_cov : bool;
  ch_n_draws : nat;
  ch_ignore_correlation : bool
}.

Section Builtin.
Variables (X : externals) (ch : choices).
(** numbers of parameters and of residuals *)
Variables (n m : nat).

(** * Models *)

(** A fitted model, or the initial model if its intercepts are not all finite (with the number of
    its residuals). (tranquilo.py:62-68) *)
Inductive vm := VmOk (v : vmodel) | VmBad (n_residuals : nat).

(** trustregion.effective_radius as the scale of a model: fit_models.py:85-149 *)
Definition scale_of (s : scale) : mscale :=
  match s with SScalar r => MScalar r | SVector v => MVector (fun_of v) end.

(** tranquilo.py:61-67 *)
Definition builtin_init (fvec : list xr) (reg : region) : vm :=
  match all_fin fvec with
  | Some l => VmOk (mkV n (length fvec) (fun_of l) (fun _ _ => 0) (Some (fun _ _ _ => 0))
                        (MScalar (r_radius reg)) (fun_of (r_center reg)))
  | None => VmBad (length fvec)
  end.

(** A side of length zero: 0 / 0 in map_to_unit. (region.py:73-82) *)
Definition degenerate (reg : region) : bool :=
  match r_shape reg with
  | Sphere => Reqb (r_radius reg) 0
  | Cube => existsb (fun '(l, u) => Reqb (u - l) 0) (combine (r_cube_lower reg) (r_cube_upper reg))
  end.

(** Arrays of other lengths than the center's do not broadcast (arrays of length one, which would,
    are treated like the others). (region.py:73-94) *)
Definition misshapen (reg : region) : bool :=
  negb ((length (r_cube_lower reg) =? length (r_center reg)) && (length (r_cube_upper reg) =? length (r_center reg)))%nat.

(** handle_infinity.py:14-49 acts on the columns of the (samples by residuals) array. *)
Definition clip_rows (ys : list (list xr)) : list (list xr) :=
  let cols := clip_relative (map (fun k => map (fun y => nth k y NaN) ys) (seq 0 m)) in
  map (fun i => map (fun k => nth i (nth k cols []) NaN) (seq 0 m)) (seq 0 (length ys)).

(** No lines of its own: the rows of finite numbers of an array with entries as in
    handle_infinity.py:14-49 *)
Fixpoint all_rows_fin (ys : list (list xr)) : option (list (list R)) :=
  match ys with
  | [] => Some []
  | y :: ys => match all_fin y, all_rows_fin ys with
               | Some r, Some rs => Some (r :: rs)
               | _, _ => None
               end
  end.

(** fit_models.py:53-58, 152-339 for all residuals.  The shape of the coefficients does not depend
    on the residual, so that errors are those of the first one. *)
Definition raw_fitter (xs : list fvec) (ys : list (list xr)) : res (nat -> list R) :=
  match all_rows_fin ys with
  | None => Err OutsideModel
  | Some Y =>
      let N := length xs in
      let S := fun i => nth i xs fzero in
      let y k := fun i => nth k (nth i Y []) 0 in
      let t := ch_type ch in
      let coefs (f : (nat -> R) -> fvec) := fun k => map (f (y k)) (seq 0 (n_features n t)) in
      match ch_fitter ch with
      | FitOls => Ok (coefs (fun y => fit_ols (e_lstsq X) N n t S y None))
      | FitRidge a b => Ok (coefs (fun y => fit_ridge (e_lstsq X) N n t S y None a b))
      | FitTranquilo a b c => Ok (coefs (fun y => fit_tranquilo (e_lstsq X) N n t S y None a b c))
      | FitPowell =>
          let f k := fit_powell (e_lstsq X) (e_qr X) N n t S (y k) in
          let* _ := f O in
          Ok (fun k => match f k with Ok l => l | Err _ => [] end)
      end
  end.

(** fit_models.py:85-149 *)
Definition fit_proper (xs : list vec) (fvecs : list (list xr)) (reg : region) (old : vmodel) : res vmodel :=
  fitter_template clip_rows raw_fitter n m (ch_type ch) (ch_residualize ch)
    (fun_of (effective_center reg)) (scale_of (effective_radius reg)) old (map fun_of xs) fvecs.
(** The fitter made by fit_models.py:18-82 *)
Definition builtin_fit (xs : list vec) (fvecs : list (list xr)) (reg : region) (old : vm) : res vm :=
  match xs with
  | [] => Err ValueError
  | _ =>
      if degenerate reg then Err OutsideModel else
      match old with
      | VmOk v => let* v := fit_proper xs fvecs reg v in Ok (VmOk v)
      | VmBad k =>
          if ch_residualize ch then Err OutsideModel
          else let* v := fit_proper xs fvecs reg
                           (mkV n k (fun _ => 0) (fun _ _ => 0) None (MScalar 1) fzero) in
               Ok (VmOk v)
      end
  end.

(** aggregate_models.py:59-152 *)
Definition aggregate (v : vmodel) : res smodel :=
  match ch_aggregator ch with
  | AggIdentity => aggregate_identity v
  | AggSum => aggregate_sum v
  | AggInformation => Ok (aggregate_information_equality_linear v)
  | AggLeastSquares => Ok (aggregate_least_squares_linear v)
  end.
(** The aggregator made by aggregate_models.py:8-56 *)
Definition builtin_agg (v : vm) : res (option smodel) :=
  match v with
  | VmOk v => let* s := aggregate v in Ok (Some s)
  | VmBad k => match ch_aggregator ch with
               | AggIdentity => if Nat.eqb k 1 then Ok None else Err TypeError
               | _ => Ok None
               end
  end.

(** * The subproblem *)

(** The dictionary of a fallback solver; x is None only in the multistart solver.
    (fallback_subsolvers.py:33-38) *)
Definition raw_of (r : res fbresult) : res raw :=
  let* r := r in
  match fb_x r with
  | Some x => Ok (mkRaw (map Fin x) (fb_nit r) (fb_success r))
  | None => Err OutsideModel
  end.
(** The start vector is finite because the region is not degenerate.
    (solve_subproblem.py:136-237) *)
Definition at_vec (f : vec -> res raw) (x0 : list xr) : res raw :=
  match all_fin x0 with Some x => f x | None => Err OutsideModel end.

(** fallback_subsolvers.py:11-39 with the default radius 1 *)
Definition cube_fallback : fallback :=
  fun s => at_vec (fun x => raw_of (robust_cube_solver (e_minimize X) s x 1)).
(** solve_subproblem.py:108-114 *)
Definition sphere_fallback : fallback :=
  fun s => at_vec (fun x => raw_of (robust_sphere_solver_inscribed_cube (e_minimize X) s x)).

(** solve_subproblem.py:27-97 *)
Definition sphere_solver : solver :=
  match ch_sphere ch with
  | SphGqtpar o k => gqtpar_solver (e_tie X) o k
  | SphReparametrized => fun s x0 _ _ =>
      at_vec (fun x => raw_of (robust_sphere_solver_reparametrized (e_minimize X) s x)) x0
  | SphInscribed => fun s x0 _ _ => sphere_fallback s x0
  | SphNorm => fun s x0 _ _ => at_vec (fun x => raw_of (e_norm_constraint X s x)) x0
  end.

(** The inner solver of bntr; the fast version uses the fast trsbox. (bntr_fast.py:592-668) *)
Definition cg_method (fast compiled : bool) (c : cg_choice) : cgmethod :=
  match c with
  | CgPlain a r => method_cg a r
  | CgSteihaug => method_stcg (e_pinv X)
  | CgTrsbox => if fast then fun k g H r l u => snd (minimize_trust_trsbox_fast compiled k g H r l u)
                else method_trsbox
  end.
(** bntr.py:25-238, bntr_fast.py:17-107 as cube solver: AttributeError (TypeError in the compiled
    version) for a model without square terms.  35 rounds of the inner loop suffice
    (C61_bntr_terminates). *)
Definition bntr_solver (fast compiled : bool) (c : cg_choice) (t : tols) (maxiter : Z) (k_gd : nat) : solver :=
  fun s x0 lower upper =>
    match sm_h s with
    | None => Err AttributeError
    | Some h => at_vec (fun x =>
        let* r := bntr 35 fast (cg_method fast compiled c) (sm_n s) (sm_g s) h (fun_of lower) (fun_of upper)
                    (fun_of x) t maxiter k_gd in
        Ok (mkRaw (map (fun i => Fin (br_x r i)) (seq 0 (sm_n s))) (Some (Z.to_nat (br_n_iterations r)))
                  (Some (br_success r)))) x0
    end.
(** solve_subproblem.py:99-106 *)
Definition cube_solver : solver :=
  match ch_cube ch with
  | CubBntr fast compiled c t maxiter k => bntr_solver fast compiled c t maxiter k
  | CubFallback => fun s x0 _ _ => cube_fallback s x0
  end.

(** solve_subproblem.py:111-123: the fallbacks do not depend on the user's choice. *)
Definition solve_proper (s : smodel) (reg : region) : res sresult :=
  if degenerate reg then Err OutsideModel
  else solve_subproblem s reg sphere_solver cube_solver sphere_fallback cube_fallback (ch_retry ch).
(** The solver made by solve_subproblem.py:124-133 *)
Definition builtin_solve (s : option smodel) (reg : region) : res subsol :=
  match s with
  | None => Err OutsideModel
  | Some s =>
      if misshapen reg || negb (sm_n s =? length (r_center reg))%nat then Err ValueError else
      let* r := solve_proper s reg in
      match all_fin (s_x r) with
      | Some x => Ok (mkSub x (s_improvement r))
      | None => Err OutsideModel
      end
  end.

(** tranquilo.py:451: np.linalg.norm of the linear terms *)
Definition builtin_gnorm (s : option smodel) : xr :=
  match s with Some s => Fin (fnorm (sm_n s) (sm_g s)) | None => NaN end.

(** * Sampling, filtering, deciding *)

(** sample_points.py:58-338.  A row of NaNs is outside of the model of the history. *)
Definition builtin_sample (t j : nat) : AcceptModel.sampler := fun _ reg k existing =>
  if misshapen reg then Err ValueError else
  let* xs := match ch_sampler ch with
             | SamInterior => Ok (interior_sampler (e_gammainc X) reg k (e_rng2 X t j Normal) (e_uniform X t j))
             | SamHull d => hull_sampler (e_rng2 X t j) reg k d
             | SamOptimal d hardness c ns =>
                 optimal_hull_sampler (e_rng3 X t j) (e_optimize X) reg (Z.of_nat k) d hardness c ns (Some existing)
             end in
  match all_rows xs with Some l => Ok l | None => Err OutsideModel end.

(** filter_points.py:45-131; get_component passes on the arguments a filter has.  Clustering is
    modelled for radii that are not negative. *)
Definition builtin_filter {VM SM} (st : state VM SM) (target : Z) (xs : list vec) (indices : list nat)
    : res (list vec * list nat) :=
  match ch_filter ch with
  | FilDiscard => Ok (discard_all (fstate_of st))
  | FilKeep => Ok (keep_all xs indices)
  | FilClustering strictness =>
      if Rltb (r_radius (st_region st)) 0 then Err OutsideModel else
      keep_cluster_centers xs indices (fstate_of st) (length (st_x st)) (IZR target) strictness
  | FilDropExcess f => drop_excess xs indices (fstate_of st) target f
  end.

(** acceptance_decision.py:18-23.  Without a noise variance the noisy decider fails (it is only
    available in noisy problems); the line search samples with the second generator call. *)
Definition builtin_decider (t : nat) (variance : option xr) : decider :=
  match ch_decider ch with
  | DecClassic => Classic
  | DecNaiveNoisy => NaiveNoisy
  | DecLineSearch rf bs => LineSearch (builtin_sample t 1000) rf bs
  | DecNoisy z lo hi => Noisy (match variance with Some v => v | None => NaN end) z lo hi
  end.

(** * Noise *)

(** tranquilo.py:233-254 *)
Definition builtin_variance (h : hist) (reg : region) : res xr :=
  estimate_variance h (r_center reg) (r_radius reg) (ch_max_distance_factor ch) (ch_min_n_evals ch).
(** The estimator made by estimate_variance.py:12-25 *)
Definition builtin_cov (h : hist) (reg : region) : res (list (list xr)) :=
  estimate_covariance (ch_legacy_cov ch) h (r_center reg) (r_radius reg) (ch_max_distance_factor ch)
    (ch_min_n_evals ch).
(** tranquilo.py:296-312, rho_noise.py:6-92 *)
Definition builtin_rho_noise (t : nat) (xs : list vec) (v old : vm) (reg : region)
    (cov : option (list (list xr))) : res (list xr) :=
  match v, old, match cov with Some c => all_rows_fin c | None => None end with
  | VmOk v, VmOk old, Some c =>
      simulate_rho_noise (fun xs ys reg old => fit_proper xs (map (map Fin) ys) reg old) aggregate
        solve_proper (e_normal X t) (ch_n_draws ch) (ch_ignore_correlation ch) xs v old reg c
  | _, _, _ => Err OutsideModel
  end.

(** process_arguments.py:157-256 *)
Definition builtin_components (crit : criterion) (n_cores : nat)
    : components vm (option smodel) (list (list xr)) :=
  mkComp crit n_cores builtin_init builtin_fit builtin_agg
    builtin_solve builtin_gnorm builtin_sample (fun _ st target _ xs is => builtin_filter st target xs is)
    builtin_decider builtin_variance builtin_cov builtin_rho_noise.

End Builtin.
