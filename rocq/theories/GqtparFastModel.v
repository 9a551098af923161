(** Model of subsolvers/gqtpar_fast.py and of the parts of subsolvers/_steihaug_toint_fast.py that
    are written differently than in _steihaug_toint.py.  No proofs.

    As in GqtparModel: vectors and matrices are functions of their indices, exact real arithmetic,
    the LAPACK routines are the textbook algorithms [chol], [fwd], [bwd], [cho_solve].  The plain
    variables of the code stay plain variables: every helper takes and returns what the code's
    helper takes and returns.  [_estimate_condition] and [_estimate_smallest_singular_value]
    (gqtpar_fast.py:563-652) are modelled in GqtparModel, [_norm] and [_identity]
    (gqtpar_fast.py:655-668) by [fnorm], [fro_norm], [inf_norm] and the unit matrix. *)
From Coq Require Import Reals List Arith ZArith Bool.
From Verif Require Import Base XR Vec FVec RegionModel ModelsModel SubproblemModel CgModel TrsboxModel GqtparModel.
Import ListNotations.
Open Scope R_scope.

(** Python's min and max with several arguments, left to right
    (used in gqtpar_fast.py:368-385) *)
Definition pymax (a b : R) : R := if Rltb a b then b else a.
(** used in gqtpar_fast.py:159-208 *)
Definition pymin (a b : R) : R := if Rltb b a then b else a.

(** np.eye(n) (gqtpar_fast.py:666-668) *)
Definition eye : fmat := fun i j => if Nat.eqb i j then 1 else 0.
(** A + B: gqtpar_fast.py:211-237 *)
Definition mat_plus (A B : fmat) : fmat := fun i j => A i j + B i j.
(** c * A: gqtpar_fast.py:211-237 *)
Definition mat_times (c : R) (A : fmat) : fmat := fun i j => c * A i j.

(** gqtpar_fast.py:367-384 *)
Definition new_lambda_fast (lower upper : R) : R :=
  pymax (sqrt (pymax 0 (lower * upper))) (lower + 1 / 100 * (upper - lower)).

(** min(np.diag(H)), python's min over the entries (gqtpar_fast.py:159-208) *)
Fixpoint diag_min (n : nat) (H : fmat) : R :=
  match n with O => H O O | S O => H O O | S m => pymin (diag_min m H) (H m m) end.

(** gqtpar_fast.py:158-208: candidate, lower bound, upper bound *)
Definition initial_lambdas_fast (n : nat) (g : fvec) (H : fmat) : R * R * R :=
  let gradient_norm := fnorm n g in
  let inf := inf_norm n H in
  let fro := fro_norm n H in
  let (g_lower, g_upper) := gershgorin n H in
  let lower := pymax (pymax 0 (- diag_min n H)) (gradient_norm - pymin (pymin g_upper fro) inf) in
  let upper := pymax 0 (gradient_norm + pymin (pymin (- g_lower) fro) inf) in
  let candidate := if Reqb lower 0 then 0 else new_lambda_fast lower upper in
  (candidate, lower, upper).

(** gqtpar_fast.py:211-237 *)
Definition add_lambda_and_factorize (n : nat) (H : fmat) (lam : R) : fmat * fmat * nat :=
  let hpl := mat_plus H (mat_times lam eye) in
  let (U, info) := chol n hpl in
  (hpl, U, info).

(** np.roots([a, b, c]) for real roots.  A vanishing leading coefficient leaves one root and the
    unpacking into two names fails; numba raises for complex roots.  The order in which the two
    roots are listed is that of the eigenvalues of the companion matrix; the parameter [lower_first]
    says whether the lower one comes first. (gqtpar_fast.py:506) *)
Definition np_roots (lower_first : R -> R -> R -> bool) (a b c : R) : res (R * R) :=
  if Reqb a 0 then Err ValueError else
  let* sd := msqrt (b * b - 4 * a * c) in
  let r1 := (- b - sd) / (2 * a) in
  let r2 := (- b + sd) / (2 * a) in
  Ok (if lower_first a b c then (Rmin r1 r2, Rmax r1 r2) else (Rmax r1 r2, Rmin r1 r2)).

(** gqtpar_fast.py:487-511 *)
Definition smallest_step_fast (lower_first : R -> R -> R -> bool) (n : nat) (x z : fvec) : res R :=
  let a := fdot n z z in
  let b := fdot n (fscale 2 x) z in
  let c := fdot n x x - 1 in
  let* (ta, tb) := np_roots lower_first a b c in
  if Rleb (Rabs ta) (Rabs tb) then Ok ta else Ok tb.

(** gqtpar_fast.py:431-484: x_candidate, hessian_plus_lambda, hessian_already_factorized, the three
    lambdas, converged *)
Definition update_within_fast (lower_first : R -> R -> R -> bool) (n : nat)
    (x : fvec) (H U hpl : fmat) (already : bool) (lam lower newton : R) (o : gopts) (converged : bool)
    : res (fvec * fmat * bool * R * R * R * bool) :=
  let (s_min, z_min) := estimate_smallest_singular_value n U in
  let* step_len := smallest_step_fast lower_first n x z_min in
  let quadratic_term := fdot n (fvm n x hpl) x in
  let* relative_error := div (step_len * step_len * (s_min * s_min)) (quadratic_term + lam) in
  let '(x, converged) :=
    if Rleb relative_error (k_hard o) then (fadd x (fscale step_len z_min), true) else (x, converged) in
  let lower := pymax lower (lam - s_min * s_min) in
  let hpl := mat_plus H (mat_times newton eye) in
  let unsuccessful := snd (chol n hpl) in
  if Nat.eqb unsuccessful 0 then Ok (x, hpl, true, newton, lower, lam, converged)
  else
    let lower := pymax lower newton in
    Ok (x, hpl, already, new_lambda_fast lower lam, lower, lam, converged).

(** gqtpar_fast.py:413-428; a zero [w_norm] is ZeroDivisionError here, as in [newton_step]. *)
Definition newton_step_fast (lam p_norm w_norm : R) : res R :=
  let* q := div p_norm w_norm in Ok (lam + q * q * (p_norm - 1)).

(** gqtpar_fast.py:240-307 *)
Definition find_new_candidate_fast (lower_first : R -> R -> R -> bool) (n : nat) (g : fvec)
    (H U hpl : fmat) (already : bool) (lam lower upper : R) (o : gopts) (converged : bool)
    : res (fvec * fmat * bool * R * R * R * bool) :=
  let x := cho_solve n U (fopp g) in
  let x_norm := fnorm n x in
  let converged := if Rleb x_norm 1 && Reqb lam 0 then true else converged in
  let w := fwd n U x in
  let* newton := newton_step_fast lam x_norm (fnorm n w) in
  if Rltb x_norm 1 then
    update_within_fast lower_first n x H U hpl already lam lower newton o converged
  else
    let converged := if Rleb (Rabs (x_norm - 1)) (k_easy o) then true else converged in
    Ok (x, hpl, already, newton, lam, upper, converged).

(** gqtpar_fast.py:310-341: x_candidate, the three lambdas, converged *)
Definition check_interior_fast (n : nat) (x : fvec) (U : fmat) (lam lower upper : R) (o : gopts)
    (converged : bool) : fvec * R * R * R * bool :=
  let '(x, converged) := if Reqb lam 0 then (fzero, true) else (x, converged) in
  let (s_min, z_min) := estimate_smallest_singular_value n U in
  let '(x, converged) :=
    if Rleb (2 * 2 * (s_min * s_min)) (k_hard o * lam) then (fscale 2 z_min, true) else (x, converged) in
  let lower := pymax lower (upper - s_min * s_min) in
  (x, new_lambda_fast lower lam, lower, lam, converged).

(** gqtpar_fast.py:514-560; k >= 1.  The entries of v before k - 1 are only solved for if k <> 1. *)
Definition singular_terms_fast (n : nat) (U hpl : fmat) (k : nat) : R * fvec :=
  let delta := bsum (k - 1) (fun i => U i (k - 1)%nat * U i (k - 1)%nat) - hpl (k - 1)%nat (k - 1)%nat in
  let v := upd fzero (k - 1) 1 in
  let v := if Nat.eqb k 1 then v
           else let sol := bwd (k - 1) (k - 1) U (fun i => - U i (k - 1)%nat) in
                fun i => if Nat.ltb i (k - 1) then sol i else v i in
  (delta, v).

(** gqtpar_fast.py:344-364: candidate and lower bound *)
Definition update_unsuccessful_fast (n : nat) (U hpl : fmat) (lam lower upper : R) (info : nat)
    : res (R * R) :=
  let (delta, v) := singular_terms_fast n U hpl info in
  let v_norm := fnorm n v in
  let* q := div delta (v_norm * v_norm) in
  let lower := pymax lower (lam + q) in
  Ok (new_lambda_fast lower upper, lower).

(** The local variables of gqtpar_fast in its loop (gqtpar_fast.py:54-77). *)
Record gqf := mkGqf {
  f_x : fvec; f_hpl : fmat; f_u : fmat; f_already : bool; f_info : nat;
  f_lam : R; f_lower : R; f_upper : R; f_conv : bool }.

(** gqtpar_fast.py:79-138, the body of the loop up to its last test.  The conditions of the three
    branches are evaluated as written. *)
Definition gqf_body (lower_first : R -> R -> R -> bool) (n : nat) (g : fvec) (H : fmat) (o : gopts)
    (gradient_norm threshold : R) (s : gqf) : res gqf :=
  let '(already, hpl, U, info) :=
    if f_already s then (false, f_hpl s, f_u s, f_info s)
    else let '(hpl, U, info) := add_lambda_and_factorize n H (f_lam s) in
         (f_already s, hpl, U, info) in
  if Nat.eqb info 0 && Rltb threshold gradient_norm then
    let* (x, hpl, already, lam, lower, upper, conv) :=
      find_new_candidate_fast lower_first n g H U hpl already (f_lam s) (f_lower s) (f_upper s) o (f_conv s) in
    Ok (mkGqf x hpl U already info lam lower upper conv)
  else if Nat.eqb info 0 && Rleb gradient_norm threshold then
    let '(x, lam, lower, upper, conv) :=
      check_interior_fast n (f_x s) U (f_lam s) (f_lower s) (f_upper s) o (f_conv s) in
    Ok (mkGqf x hpl U already info lam lower upper conv)
  else
    let* (lam, lower) := update_unsuccessful_fast n U hpl (f_lam s) (f_lower s) (f_upper s) info in
    Ok (mkGqf (f_x s) hpl U already info lam lower (f_upper s) (f_conv s)).

(** gqtpar_fast.py:79-141, [k] passes left *)
Fixpoint gqf_loop (lower_first : R -> R -> R -> bool) (k n : nat) (g : fvec) (H : fmat) (o : gopts)
    (gradient_norm threshold : R) (s : gqf) : res gqf :=
  match k with
  | O => Ok s
  | S k => let* s := gqf_body lower_first n g H o gradient_norm threshold s in
           if f_conv s then Ok s else gqf_loop lower_first k n g H o gradient_norm threshold s
  end.

(** gqtpar_fast.py:8-155; as in [gqtpar] the number of iterations is left out of the result, n = 0
    and maxiter = 0 fail. *)
Definition gqtpar_fast (lower_first : R -> R -> R -> bool) (n : nat) (g : fvec) (H : fmat) (x0 : fvec)
    (o : gopts) (maxiter : nat) : res gqresult :=
  if Nat.eqb n 0 then Err ValueError else
  let threshold := INR n * EPS * inf_norm n H in
  let gradient_norm := fnorm n g in
  let '(lam, lower, upper) := initial_lambdas_fast n g H in
  let* s := gqf_loop lower_first maxiter n g H o gradient_norm threshold
              (mkGqf x0 (fun _ _ => 0) (fun _ _ => 0) false 0 lam lower upper false) in
  if Nat.eqb maxiter 0 then Err UnboundLocalError else
  let x := f_x s in
  Ok (mkGqr x (fdot n g x + fdot n (fvm n (fscale (1 / 2) x) H) x) (f_conv s)).

(** _steihaug_toint_fast.py:7-207: minimize_trust_stcg_fast is written like minimize_trust_stcg
    (the helpers are literally the same functions), except for the tolerance of lines 55-58. *)
Definition minimize_trust_stcg_fast (pinv : nat -> fmat -> fmat) (n : nat) (g : fvec) (H : fmat) (radius : R)
    : res fvec :=
  let abstol := / (10 ^ 50) in
  let rtol := / (10 ^ 5) in
  let divtol := 10000 in
  let residual := fopp g in
  let rr := fdot n residual residual in
  let max_iter := Nat.min n (Z.to_nat 10000) in
  let z := fmv n (pinv n H) residual in
  let rz := fdot n residual residual in
  let norm_r := sqrt rr in
  let norm_r0 := norm_r in
  let ttol := if Rleb abstol (rtol * norm_r0) then rtol * norm_r0 else abstol in
  let '(converged, diverged) := st_check norm_r norm_r0 ttol divtol false false in
  let p := fmv n H z in
  let z := fmv n H p in
  let kappa := fdot n p z in
  let norm_p := fdot n p p in
  let* (x, n_iter, converged) :=
    if Rleb kappa 0 then
      let* (x, n_iter) := st_first_step n fzero residual p rr radius norm_p 1 in
      Ok (x, n_iter, true)
    else Ok (fzero, 1%nat, converged) in
  st_loop max_iter n H radius norm_r0 ttol divtol max_iter
    (mkSt x residual p rz kappa 0 0 norm_p converged diverged n_iter).
