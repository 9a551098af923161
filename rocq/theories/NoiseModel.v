(** Model of /repo/src/tranquilo/rho_noise.py.  No proofs here. *)
From Coq Require Import Reals List Arith ZArith Bool.
From Verif Require Import Base XR Vec FVec RegionModel ModelsModel SubproblemModel AcceptModel.
Import ListNotations.
Open Scope nat_scope.

(** np.diag(np.diag(cov)) for a square matrix, rho_noise.py:62-63 *)
Definition diag_diag (cov : list (list R)) : list (list R) :=
  let m := length cov in
  map (fun i => map (fun j => if i =? j then nth j (nth i cov []) 0%R else 0%R) (seq 0 m)) (seq 0 m).

(** rng.multivariate_normal(mean=zeros, cov, size): the covariance matrix, the number of rows
    and the rows, one entry per residual; an external function, hence a parameter.
    (rho_noise.py:65-67) *)
Definition normal_oracle := list (list R) -> nat -> list (list R).

(** [.reshape(n_draws, n_samples, n_residuals)], rho_noise.py:67: consecutive rows. *)
Fixpoint blocks {A} (n_draws n_samples : nat) (rows : list A) : list (list A) :=
  match n_draws with
  | O => []
  | S k => firstn n_samples rows :: blocks k n_samples (skipn n_samples rows)
  end.

Section RhoNoise.
(** model_fitter(xs, fvecs, weights=None, region, old_model): the sample, its values. *)
Variable fitter : list vec -> list (list R) -> region -> vmodel -> res vmodel.
(** model_aggregator(vector_model) *)
Variable aggregator : vmodel -> res smodel.
(** subsolver(scalar_model, trustregion) *)
Variable subsolver : smodel -> region -> res sresult.
Variable normal : normal_oracle.

(** rho_noise.py:50, one row per sample point.  The region is not degenerate, so that
    map_to_unit has finite values. *)
Definition true_fvecs (vm : vmodel) (reg : region) (xs : list vec) : list (list R) :=
  map (fun x => map (predict_vector vm (fun_of (map_to_unit reg x))) (seq 0 (vm_m vm))) xs.

(** rho_noise.py:71-90, one pass of the loop.  A prediction at a point with non-finite
    entries is computed in extended arithmetic. *)
Definition one_draw (xs : list vec) (tf : list (list R)) (true_model : smodel) (true_current : xr)
    (old : vmodel) (reg : region) (draw : list (list R)) : res xr :=
  let sim_fvecs := map2 (map2 Rplus) tf draw in
  let* sim_vector_model := fitter xs sim_fvecs reg old in
  let* sim_scalar_model := aggregator sim_vector_model in
  let* sim_sub_sol := subsolver sim_scalar_model reg in
  let sim_candidate_fval := predict_x true_model (s_x_unit sim_sub_sol) in
  let sim_actual_improvement := xopp (xsub sim_candidate_fval true_current) in
  Ok (calculate_rho sim_actual_improvement (s_improvement sim_sub_sol)).

(** rho_noise.py:6-92 *)
Definition simulate_rho_noise (n_draws : nat) (ignore_corelation : bool) (xs : list vec)
    (vm old : vmodel) (reg : region) (noise_cov : list (list R)) : res (list xr) :=
  let tf := true_fvecs vm reg xs in
  let* true_model := aggregator vm in
  let true_current := predict_x true_model (xmap_to_unit reg (r_center reg)) in
  let cov := if ignore_corelation then diag_diag noise_cov else noise_cov in
  let noise := normal cov (n_draws * length xs) in
  mapM (one_draw xs tf true_model true_current old reg) (blocks n_draws (length xs) noise).

End RhoNoise.
