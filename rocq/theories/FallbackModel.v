(** The fallback solver with a nonlinear constraint (subsolvers/fallback_subsolvers.py). *)
From Coq Require Import Reals List.
From Verif Require Import Base XR Vec FVec ModelsModel SubproblemModel.
Import ListNotations.
Open Scope R_scope.

(** fallback_subsolvers.py:187-188 *)
Definition constr_fun (x : vec) : R := dot x x.
(** fallback_subsolvers.py:190-191 *)
Definition constr_jac (x : vec) : vec := map (fun a => 2 * a) x.

(** scipy.optimize.minimize with method SLSQP, an external function and hence a parameter:
    criterion, gradient, start, lower and upper bounds, the constraint function, its upper bound
    (the lower one is -inf) and its Jacobian, maxiter.  (fallback_subsolvers.py:150-158 and
    193-199; the flag keep_feasible is not read by this method.) *)
Definition cminimizer :=
  (vec -> R) -> (vec -> vec) -> vec -> vec -> vec -> (vec -> R) -> R -> (vec -> vec) -> nat -> res opt.

(** fallback_subsolvers.py:138-165; TypeError for models without square terms, because the
    criterion is evaluated at least once. *)
Definition robust_sphere_solver_norm_constraint (minimize : cminimizer) (m : smodel) (x_candidate : vec)
    : res fbresult :=
  match sm_h m with
  | None => Err TypeError
  | Some h =>
      let lower := map (fun _ => -1) x_candidate in
      let upper := map (fun _ => 1) x_candidate in
      let* r := minimize (crit_quadratic m h) (grad_quadratic m h) x_candidate lower upper
                         constr_fun 1 constr_jac (3 * length x_candidate)%nat in
      Ok (mkFb (Some (o_x r)) (o_fun r) (Some (o_nit r)) (Some (o_success r)))
  end.
