(** Model of solve_subproblem.py and subsolvers/fallback_subsolvers.py.  No proofs. *)
From Coq Require Import Reals List Arith ZArith Bool.
From Verif Require Import Base XR Vec FVec VolumeModel RegionModel ModelsModel.
Import ListNotations.
Open Scope R_scope.

(** models.py:223-261 for a point that may contain infinite or NaN entries. *)
Definition xentry (x : list xr) (i : nat) : xr := nth i x NaN.
(** No lines of its own: the sum in x @ g, models.py:223-261 *)
Definition xbsum (n : nat) (f : nat -> xr) : xr := xsum (map f (seq 0 n)).
(** models.py:223-261 for a vector with NaN or infinite entries *)
Definition predict_x (m : smodel) (x : list xr) : xr :=
  let n := sm_n m in
  let X := xentry x in
  let y := xadd (xbsum n (fun i => xmul (X i) (Fin (sm_g m i)))) (Fin (sm_c m)) in
  match sm_h m with
  | None => y
  | Some h =>
      let xh := fun j => xbsum n (fun i => xmul (X i) (Fin (h i j))) in
      xadd y (xdiv (xbsum n (fun j => xmul (xh j) (X j))) (Fin 2))
  end.

(** region.py:49-94 in extended arithmetic: 0/0 for a degenerate cube is NaN, and solvers may
    return non-finite points. *)
Definition xmap_to_unit (reg : region) (x : vec) : list xr :=
  match r_shape reg with
  | Sphere => map2 (fun xi c => xdiv (Fin (xi - c)) (Fin (r_radius reg))) x (r_center reg)
  | Cube => map2 (fun xi '(l, u) => xsub (xdiv (Fin (2 * (xi - l))) (Fin (u - l))) (Fin 1))
                 x (combine (r_cube_lower reg) (r_cube_upper reg))
  end.
(** region.py:57-66 for a vector with NaN or infinite entries *)
Definition xmap_from_unit (reg : region) (x : list xr) : list xr :=
  match r_shape reg with
  | Sphere => map2 (fun xi c => xadd (xmul xi (Fin (r_radius reg))) (Fin c)) x (r_center reg)
  | Cube => map2 (fun xi '(l, u) =>
              xclip (xadd (xdiv (xmul (Fin (u - l)) (xadd xi (Fin 1))) (Fin 2)) (Fin l))
                    (Fin l) (Fin u))
              x (combine (r_cube_lower reg) (r_cube_upper reg))
  end.

(** The dictionaries returned by subsolvers (None is possible for the last two entries).
    (solve_subproblem.py:136-237) *)
Record raw := mkRaw { raw_x : list xr; raw_n_iterations : option nat; raw_success : option bool }.

(** solve_subproblem.py:228-237 *)
Record sresult := mkRes {
  s_x : list xr;
  s_improvement : xr;
  s_n_iterations : option nat;
  s_success : option bool;
  s_x_unit : list xr;
  s_shape : shape
}.

(** model, x_candidate, lower_bounds, upper_bounds (the calls in solve_subproblem.py:136-237) *)
Definition solver := smodel -> list xr -> vec -> vec -> res raw.
(** The calls of the fallback solvers in solve_subproblem.py:136-237 *)
Definition fallback := smodel -> list xr -> res raw.

(** solve_subproblem.py:136-226 *)
Definition solve_subproblem (m : smodel) (reg : region) (sphere_solver cube_solver : solver)
    (fallback_sphere fallback_cube : fallback) (retry_with_fallback : bool) : res sresult :=
  let old_x_unit := xmap_to_unit reg (r_center reg) in
  let ones := map (fun _ => 1) old_x_unit in
  let minus_ones := map (fun _ => -1) old_x_unit in
  let '(slv, fb) := match r_shape reg with
                    | Sphere => (sphere_solver, fallback_sphere)
                    | Cube => (cube_solver, fallback_cube)
                    end in
  let* raw_result :=
    match slv m old_x_unit minus_ones ones with
    | Ok r => Ok r
    | Err e => if negb retry_with_fallback then Err e else fb m old_x_unit
    end in
  let x := match r_shape reg with
           | Cube => map (fun a => xclip a (Fin (-1)) (Fin 1)) (raw_x raw_result)
           | Sphere => raw_x raw_result
           end in
  let fval_old := predict_x m old_x_unit in
  let fval_candidate := predict_x m x in
  let expected_improvement := xopp (xsub fval_candidate fval_old) in
  if xle (Fin 0) expected_improvement then
    Ok (mkRes (xmap_from_unit reg x) expected_improvement (raw_n_iterations raw_result)
              (raw_success raw_result) x (r_shape reg))
  else
    Ok (mkRes (map Fin (r_center reg)) (Fin 0) (raw_n_iterations raw_result)
              (Some false) old_x_unit (r_shape reg)).

(** * Fallback solvers *)

(** scipy.optimize.minimize: criterion, gradient, start, lower and upper bounds, maxiter;
    returns x, fun, nit, success.  An external function, hence a parameter.
    (fallback_subsolvers.py:22-31) *)
Record opt := mkOpt { o_x : vec; o_fun : xr; o_nit : nat; o_success : bool }.
(** The call of scipy.optimize.minimize: fallback_subsolvers.py:22-31 *)
Definition minimizer := (vec -> R) -> option (vec -> vec) -> vec -> vec -> vec -> nat -> res opt.

(** fallback_subsolvers.py:173-183; TypeError for models without square terms, because the
    criterion is evaluated at least once. *)
Definition vec_of (n : nat) (f : fvec) : vec := map f (seq 0 n).
(** No lines of its own: a list as a function *)
Definition fun_of (v : vec) : fvec := fun i => nth i v 0.
(** fallback_subsolvers.py:174-175 *)
Definition crit_quadratic (m : smodel) (h : fmat) (x : vec) : R :=
  let n := sm_n m in
  sm_c m + fdot n (fun_of x) (sm_g m) + fdot n (fvm n (fscale (/2) (fun_of x)) h) (fun_of x).
(** fallback_subsolvers.py:177-178 *)
Definition grad_quadratic (m : smodel) (h : fmat) (x : vec) : vec :=
  vec_of (sm_n m) (fadd (sm_g m) (fvm (sm_n m) (fun_of x) h)).

(** The returned dictionaries: fallback_subsolvers.py:33-38 and 160-165 *)
Record fbresult := mkFb { fb_x : option vec; fb_criterion : xr; fb_nit : option nat; fb_success : option bool }.

(** fallback_subsolvers.py:11-39 *)
Definition robust_cube_solver (minimize : minimizer) (m : smodel) (x_candidate : vec) (radius : R)
    : res fbresult :=
  match sm_h m with
  | None => Err TypeError
  | Some h =>
      let lower := map (fun _ => - radius) x_candidate in
      let upper := map (fun _ => radius) x_candidate in
      let* r := minimize (crit_quadratic m h) (Some (grad_quadratic m h)) x_candidate lower upper
                         (length x_candidate) in
      Ok (mkFb (Some (o_x r)) (o_fun r) (Some (o_nit r)) (Some true))
  end.

(** fallback_subsolvers.py:53-77; the start values are an argument (draw_exploration_sample). *)
Fixpoint multistart_loop (minimize : minimizer) (m : smodel) (starts : list vec)
    (best_crit : xr) (accepted : option vec) : res (option vec * xr) :=
  match starts with
  | [] => Ok (accepted, best_crit)
  | x :: starts =>
      let* r := robust_cube_solver minimize m x 1 in
      if xle (fb_criterion r) best_crit then multistart_loop minimize m starts (fb_criterion r) (fb_x r)
      else multistart_loop minimize m starts best_crit accepted
  end.
(** fallback_subsolvers.py:41-77 *)
Definition robust_cube_solver_multistart (minimize : minimizer) (m : smodel) (starts : list vec)
    : res fbresult :=
  let* (x, c) := multistart_loop minimize m starts PInf None in
  Ok (mkFb x c None None).

(** fallback_subsolvers.py:80-89 *)
Definition robust_sphere_solver_inscribed_cube (minimize : minimizer) (m : smodel) (x_candidate : vec)
    : res fbresult :=
  robust_cube_solver minimize m x_candidate (1 / sqrt (INR (length x_candidate))).

(** fallback_subsolvers.py:102-108 and 123-126 *)
Definition project_ball (x : vec) : vec :=
  if Rleb (norm x) 1 then x else map (fun a => a / norm x) x.
(** fallback_subsolvers.py:92-135 *)
Definition robust_sphere_solver_reparametrized (minimize : minimizer) (m : smodel) (x_candidate : vec)
    : res fbresult :=
  let crit x := predict_scalar m (fun_of (project_ball x)) in
  let lower := map (fun _ => -1) x_candidate in
  let upper := map (fun _ => 1) x_candidate in
  let* r := minimize crit None x_candidate lower upper (length x_candidate) in
  Ok (mkFb (Some (project_ball (o_x r))) (o_fun r) (Some (o_nit r)) (Some true)).
