(** Model of subsolvers/_conjugate_gradient.py and subsolvers/_steihaug_toint.py (and of the
    numba versions _conjugate_gradient_fast.py and _steihaug_toint_fast.py, which compute the
    same sums in explicit loops).  No proofs.

    Vectors are functions of their index, [n] is the dimension.  Exact real arithmetic.
    A division by zero is ZeroDivisionError (as in the numba versions; numpy would continue
    with inf or NaN). *)
From Coq Require Import Reals List Arith ZArith Bool.
From Verif Require Import Base XR FVec.
Import ListNotations.
Open Scope R_scope.

(** A division, e.g. _conjugate_gradient.py:53 and 123; a zero divisor ends the model's run *)
Definition div (a b : R) : res R := if Reqb b 0 then Err ZeroDivisionError else Ok (a / b).
(** np.sqrt; NaN for negative arguments is modelled as an error. (_conjugate_gradient.py:122) *)
Definition msqrt (a : R) : res R := if Rltb a 0 then Err ValueError else Ok (sqrt a).

(** * Conjugate gradient *)

(** _conjugate_gradient.py:98-125 *)
Definition cg_distance_to_boundary (n : nat) (candidate direction : fvec) (radius : R) : res R :=
  let cc := fdot n candidate candidate in
  let cd := fdot n candidate direction in
  let dd := fdot n direction direction in
  let* s := msqrt (cd * cd + dd * (radius * radius - cc)) in
  div (- cd + s) dd.

(** The variables of the loop: _conjugate_gradient.py:32-37 *)
Record cgs := mkCg { cg_x : fvec; cg_r : fvec; cg_d : fvec }.

(** _conjugate_gradient.py:67-95 *)
Definition cg_update (n : nat) (s : cgs) (H : fmat) (alpha : R) : res cgs :=
  let x := fadd (cg_x s) (fscale alpha (cg_d s)) in
  let r := fadd (cg_r s) (fscale alpha (fmv n H (cg_d s))) in
  let* beta := div (fdot n r r) (fdot n (cg_r s) (cg_r s)) in
  Ok (mkCg x r (fadd (fopp r) (fscale beta (cg_d s)))).

(** _conjugate_gradient.py:40-63, one pass of the loop: leave it with a vector or go on. *)
Definition cg_step (n : nat) (H : fmat) (radius stop_tol : R) (s : cgs) : res (fvec + cgs) :=
  if Rleb (fnorm n (cg_r s)) stop_tol then Ok (inl (cg_x s)) else
  let square_terms := fdot n (fvm n (cg_d s) H) (cg_d s) in
  let* dist := cg_distance_to_boundary n (cg_x s) (cg_d s) radius in
  if Rltb 0 square_terms then
    let step_size := fdot n (cg_r s) (cg_r s) / square_terms in
    if Rltb dist step_size then Ok (inl (fadd (cg_x s) (fscale dist (cg_d s))))
    else let* s' := cg_update n s H step_size in Ok (inr s')
  else Ok (inl (fadd (cg_x s) (fscale dist (cg_d s)))).

(** The loop: _conjugate_gradient.py:40-63 *)
Fixpoint cg_loop (k : nat) (n : nat) (H : fmat) (radius stop_tol : R) (s : cgs) : res fvec :=
  match k with
  | O => Ok (cg_x s)
  | S k => let* o := cg_step n H radius stop_tol s in
           match o with inl x => Ok x | inr s' => cg_loop k n H radius stop_tol s' end
  end.

(** _conjugate_gradient.py:5-65 *)
Definition cg_init (g : fvec) : cgs := mkCg fzero g (fopp g).
(** _conjugate_gradient.py:38 *)
Definition cg_stop_tol (n : nat) (g : fvec) (gtol_abs gtol_rel : R) : R :=
  Rmax gtol_abs (gtol_rel * fnorm n g).
(** _conjugate_gradient.py:5-65 *)
Definition minimize_trust_cg (n : nat) (g : fvec) (H : fmat) (radius gtol_abs gtol_rel : R)
    : res fvec :=
  cg_loop (n * 2) n H radius (cg_stop_tol n g gtol_abs gtol_rel) (cg_init g).

(** * The numba version *)

(** _conjugate_gradient_fast.py:90-105: for loops with accumulators; entries of x and of the
    residual are written one by one. *)
Definition sum_loop (n : nat) (f : nat -> R) : R := fold_left (fun acc i => acc + f i) (seq 0 n) 0.
(** _conjugate_gradient_fast.py:71-105 *)
Definition cg_update_fast (n : nat) (s : cgs) (H : fmat) (alpha : R) : res cgs :=
  let r := fun i => sum_loop n (fun j => H i j * cg_d s j) * alpha + cg_r s i in
  let nom := sum_loop n (fun i => r i * r i) in
  let denom := sum_loop n (fun i => cg_r s i * cg_r s i) in
  let* beta := div nom denom in
  Ok (mkCg (fun i => cg_x s i + alpha * cg_d s i) r (fadd (fopp r) (fscale beta (cg_d s)))).
(** _conjugate_gradient_fast.py:128-138 *)
Definition cg_distance_to_boundary_fast (n : nat) (candidate direction : fvec) (radius : R) : res R :=
  let cc := sum_loop n (fun i => candidate i * candidate i) in
  let dd := sum_loop n (fun i => direction i * direction i) in
  let cd := sum_loop n (fun i => candidate i * direction i) in
  let* s := msqrt (cd * cd + dd * (radius * radius - cc)) in
  div (- cd + s) dd.
(** One pass of the loop: _conjugate_gradient_fast.py:43-65 *)
Definition cg_step_fast (n : nat) (H : fmat) (radius stop_tol : R) (s : cgs) : res (fvec + cgs) :=
  if Rleb (fnorm n (cg_r s)) stop_tol then Ok (inl (cg_x s)) else
  let square_terms := fdot n (fvm n (cg_d s) H) (cg_d s) in
  let* dist := cg_distance_to_boundary_fast n (cg_x s) (cg_d s) radius in
  if Rltb 0 square_terms then
    let step_size := fdot n (cg_r s) (cg_r s) / square_terms in
    if Rltb dist step_size then Ok (inl (fadd (cg_x s) (fscale dist (cg_d s))))
    else let* s' := cg_update_fast n s H step_size in Ok (inr s')
  else Ok (inl (fadd (cg_x s) (fscale dist (cg_d s)))).
(** The loop: _conjugate_gradient_fast.py:42-65 *)
Fixpoint cg_loop_fast (k : nat) (n : nat) (H : fmat) (radius stop_tol : R) (s : cgs) : res fvec :=
  match k with
  | O => Ok (cg_x s)
  | S k => let* o := cg_step_fast n H radius stop_tol s in
           match o with inl x => Ok x | inr s' => cg_loop_fast k n H radius stop_tol s' end
  end.
(** _conjugate_gradient_fast.py:7-67 *)
Definition minimize_trust_cg_fast (n : nat) (g : fvec) (H : fmat) (radius gtol_abs gtol_rel : R)
    : res fvec :=
  cg_loop_fast (n * 2) n H radius (cg_stop_tol n g gtol_abs gtol_rel) (cg_init g).

(** * Steihaug-Toint *)

(** _steihaug_toint.py:190-199 *)
Definition st_check (rnorm rnorm0 ttol divtol : R) (converged diverged : bool) : bool * bool :=
  if Rleb rnorm ttol then (true, diverged)
  else if Rleb (divtol * rnorm0) rnorm then (converged, true)
  else (converged, diverged).

(** _steihaug_toint.py:182-187 *)
Definition st_to_boundary (x p : fvec) (dp radius_sq norm_d norm_p : R) : res fvec :=
  let* s := msqrt (dp * dp + norm_p * (radius_sq - norm_d)) in
  let* step := div (s - dp) norm_p in
  Ok (fadd x (fscale step p)).

(** _steihaug_toint.py:149-179; z is not used afterwards, so only the new candidate and the
    new iteration number are returned. *)
Definition st_first_step (n : nat) (x residual p : fvec) (rr radius norm_p : R) (n_iter : nat)
    : res (fvec * nat) :=
  let radius_sq := radius * radius in
  if negb (Reqb radius 0) && Rltb 0 norm_p then
    let* step := msqrt (radius_sq / norm_p) in
    Ok (fadd x (fscale step p), n_iter)
  else if negb (Reqb radius 0) then
    let* alpha := if Rleb rr radius_sq then Ok 1 else msqrt (radius_sq / rr) in
    Ok (fadd x (fscale alpha residual), S n_iter)
  else Ok (x, n_iter).

(** The variables of the loop: _steihaug_toint.py:36-65 *)
Record sts := mkSt {
  st_x : fvec; st_res : fvec; st_p : fvec; st_rz : R; st_kappa : R; st_dp : R;
  st_norm_d : R; st_norm_p : R; st_conv : bool; st_div : bool; st_iter : nat
}.

(** _steihaug_toint.py:91-144, one pass of the loop. *)
Definition st_step (n : nat) (H : fmat) (radius norm_r0 ttol divtol : R) (max_iter : nat) (s : sts)
    : res (fvec + sts) :=
  let radius_sq := radius * radius in
  let* alpha := div (st_rz s) (st_kappa s) in
  let norm_dp1 := st_norm_d s + alpha * (2 * st_dp s + alpha * st_norm_p s) in
  if negb (Reqb radius 0) && Rleb radius_sq norm_dp1 then
    if Rltb 0 (st_norm_p s) then
      let* x := st_to_boundary (st_x s) (st_p s) (st_dp s) radius_sq (st_norm_d s) (st_norm_p s) in
      Ok (inl x)
    else Ok (inl (st_x s))
  else
    let x := fadd (st_x s) (fscale alpha (st_p s)) in
    let residual := fsub (st_res s) (fscale alpha (fmv n H (st_p s))) in
    let norm_d := fdot n x x in
    let rz := fdot n residual residual in
    let norm_r := fnorm n residual in
    let '(converged, diverged) := st_check norm_r norm_r0 ttol divtol (st_conv s) (st_div s) in
    if converged || diverged then Ok (inl x) else
    let* beta := div rz (st_rz s) in
    if Rleb (Rabs beta) 0 then Ok (inl x) else
    if (max_iter <=? st_iter s)%nat then Ok (inl x) else
    let p := fadd residual (fscale beta (st_p s)) in
    let dp := fdot n x p in
    let norm_p := fdot n p p in
    let z := fmv n H p in
    let kappa := fdot n p z in
    if Rleb kappa 0 then
      if negb (Reqb radius 0) && Rltb 0 norm_p then
        let* x := st_to_boundary x p dp radius_sq norm_d norm_p in Ok (inl x)
      else Ok (inl x)
    else Ok (inr (mkSt x residual p rz kappa dp norm_d norm_p converged diverged (S (st_iter s)))).

(** The loop: _steihaug_toint.py:82-144 *)
Fixpoint st_loop (k : nat) (n : nat) (H : fmat) (radius norm_r0 ttol divtol : R) (max_iter : nat)
    (s : sts) : res fvec :=
  match k with
  | O => Ok (st_x s)
  | S k => let* o := st_step n H radius norm_r0 ttol divtol max_iter s in
           match o with inl x => Ok x | inr s' => st_loop k n H radius norm_r0 ttol divtol max_iter s' end
  end.

(** _steihaug_toint.py:5-146.  [pinv] is np.linalg.pinv.  After the `if kappa <= 0` block there
    is no return, the loop runs in any case.  max_iter is min(n, 10000). *)
Definition minimize_trust_stcg (pinv : nat -> fmat -> fmat) (n : nat) (g : fvec) (H : fmat) (radius : R)
    : res fvec :=
  let abstol := / (10 ^ 50) in
  let rtol := / (10 ^ 5) in
  let divtol := 10000 in
  let residual := fopp g in
  let rr := fdot n residual residual in
  let x := fzero in
  let max_iter := Nat.min n (Z.to_nat 10000) in
  let z := fmv n (pinv n H) residual in
  let rz := fdot n residual residual in
  let norm_r := sqrt rr in
  let norm_r0 := norm_r in
  let ttol := Rmax (rtol * norm_r0) abstol in
  let '(converged, diverged) := st_check norm_r norm_r0 ttol divtol false false in
  let p := fmv n H z in
  let z := fmv n H p in
  let kappa := fdot n p z in
  let norm_p := fdot n p p in
  let* (x, n_iter, converged) :=
    if Rleb kappa 0 then
      let* (x, n_iter) := st_first_step n x residual p rr radius norm_p 1 in
      Ok (x, n_iter, true)
    else Ok (x, 1%nat, converged) in
  st_loop max_iter n H radius norm_r0 ttol divtol max_iter
    (mkSt x residual p rz kappa 0 0 norm_p converged diverged n_iter).
