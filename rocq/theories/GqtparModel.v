(** Model of subsolvers/gqtpar.py (and of gqtpar_fast.py, which performs the same computation
    with plain arguments instead of named tuples).  No proofs.

    Vectors and matrices are functions of their indices, [n] is the dimension.  Exact real
    arithmetic.  The LAPACK/scipy routines used by the file are modelled by the textbook
    algorithm they implement: [chol] for dpotrf (upper factor), [fwd]/[bwd] for the triangular
    solves and their composition for cho_solve. *)
From Coq Require Import Reals List Arith ZArith Bool.
From Verif Require Import Base XR Vec FVec RegionModel ModelsModel SubproblemModel CgModel TrsboxModel.
Import ListNotations.
Open Scope R_scope.

(** * Dense linear algebra used by the solver *)

(** scipy.linalg.solve_triangular(U, b, trans="T"): forward substitution for U^T w = b.
    The entries are divided by the diagonal of U, which is positive wherever the solver calls it.
    (gqtpar.py:278) *)
Fixpoint fwd (k : nat) (U : fmat) (b : fvec) : fvec :=
  match k with
  | O => fzero
  | S k => let w := fwd k U b in upd w k ((b k - bsum k (fun l => U l k * w l)) / U k k)
  end.

(** scipy.linalg.solve_triangular(U, b): backward substitution for U v = b, the last [k] of the
    [m] entries. (gqtpar.py:612-614) *)
Fixpoint bwd (k m : nat) (U : fmat) (b : fvec) : fvec :=
  match k with
  | O => fzero
  | S k => let v := bwd k m U b in
           let i := (m - S k)%nat in
           upd v i ((b i - bsum k (fun l => U i (S i + l)%nat * v (S i + l)%nat)) / U i i)
  end.

(** scipy.linalg.cho_solve((U, False), b) (gqtpar.py:270-272) *)
Definition cho_solve (n : nat) (U : fmat) (b : fvec) : fvec := bwd n n U (fwd n U b).

(** scipy.linalg.lapack.dpotrf(M, lower=False, clean=True): the factor and the info number, 0 for
    success and k if the leading k by k submatrix is the first that is not positive definite.
    Column by column; on failure the columns computed so far, including the part of column k
    above the diagonal. (gqtpar.py:247-252) *)
Fixpoint chol (k : nat) (M : fmat) : fmat * nat :=
  match k with
  | O => (fun _ _ => 0, O)
  | S k =>
      let (U, info) := chol k M in
      match info with
      | S _ => (U, info)
      | O =>
          let u := fwd k U (fun i => M i k) in
          let d := M k k - bsum k (fun l => u l * u l) in
          let col (p : R) : fmat :=
            fun i j => if Nat.eqb j k then (if Nat.ltb i k then u i else if Nat.eqb i k then p else 0)
                       else U i j in
          if Rleb d 0 then (col d, S k) else (col (sqrt d), O)
      end
  end.

(** gqtpar_fast.py:563-603 [_estimate_condition] (scipy's estimate_smallest_singular_value has the
    same loop): the first [k] entries of w and the vector p. *)
Fixpoint estimate_condition (k m : nat) (U : fmat) : fvec * fvec :=
  match k with
  | O => (fzero, fzero)
  | S k =>
      let (w, p) := estimate_condition k m U in
      let wp := (1 - p k) / U k k in
      let wm := (-1 - p k) / U k k in
      let pp := fun j => if Nat.ltb k j then p j + U k j * wp else p j in
      let pm := fun j => if Nat.ltb k j then p j + U k j * wm else p j in
      let tail (f : fvec) := bsum (m - S k) (fun j => Rabs (f (S k + j)%nat)) in
      if Rleb (Rabs wm + tail pm) (Rabs wp + tail pp) then (upd w k wp, pp) else (upd w k wm, pm)
  end.

(** gqtpar_fast.py:606-652 [_estimate_smallest_singular_value].  v is never the zero vector: the
    first entry of w solves u_00 w_0 = +-1. *)
Definition estimate_smallest_singular_value (n : nat) (U : fmat) : R * fvec :=
  let w := fst (estimate_condition n n U) in
  let v := bwd n n U w in
  (fnorm n w / fnorm n v, fscale (/ fnorm n v) v).

(** * Parameters of the damping factor *)

(** np.min and np.max of the vector with entries [f 0 .. f (n-1)], n >= 1 (gqtpar.py:418-419) *)
Fixpoint vmin (n : nat) (f : fvec) : R :=
  match n with O => f O | S O => f O | S m => Rmin (vmin m f) (f m) end.
(** np.max: gqtpar.py:418-419 *)
Fixpoint vmax (n : nat) (f : fvec) : R :=
  match n with O => f O | S O => f O | S m => Rmax (vmax m f) (f m) end.

(** A row's sum of absolute values: gqtpar.py:393-421 *)
Definition row_sum (n : nat) (H : fmat) (i : nat) : R := bsum n (fun j => Rabs (H i j)).
(** np.linalg.norm(H, np.inf) and np.linalg.norm(H, "fro") (gqtpar.py:177-178) *)
Definition inf_norm (n : nat) (H : fmat) : R := vmax n (row_sum n H).
(** gqtpar.py:178 *)
Definition fro_norm (n : nat) (H : fmat) : R := sqrt (bsum n (fun i => bsum n (fun j => H i j * H i j))).

(** gqtpar.py:393-421 *)
Definition gershgorin (n : nat) (H : fmat) : R * R :=
  (vmin n (fun i => H i i + Rabs (H i i) - row_sum n H i),
   vmax n (fun i => H i i - Rabs (H i i) + row_sum n H i)).

(** gqtpar.py:374-390.  The argument of the square root is clipped at zero from below. *)
Definition new_lambda_candidate (lower upper : R) : R :=
  Rmax (sqrt (Rmax 0 (lower * upper))) (lower + 1 / 100 * (upper - lower)).

(** gqtpar.py:16-19 *)
Record lambdas := mkL { l_cand : R; l_lo : R; l_hi : R }.

(** gqtpar.py:148-209 *)
Definition initial_lambdas (n : nat) (g : fvec) (H : fmat) : lambdas :=
  let gn := fnorm n g in
  let (gl, gu) := gershgorin n H in
  let fro := fro_norm n H in
  let inf := inf_norm n H in
  let lo := Rmax (Rmax 0 (- vmin n (fun i => H i i))) (gn - Rmin (Rmin gu fro) inf) in
  let hi := Rmax 0 (gn + Rmin (Rmin (- gl) fro) inf) in
  mkL (if Reqb lo 0 then 0 else new_lambda_candidate lo hi) lo hi.

(** model.square_terms + lambda * np.eye(n) (gqtpar.py:246) *)
Definition add_diag (H : fmat) (lam : R) : fmat :=
  fun i j => H i j + lam * (if Nat.eqb i j then 1 else 0).

(** gqtpar.py:424-439; a zero [w_norm] is ZeroDivisionError here (inf or NaN in numpy). *)
Definition newton_step (lam p_norm w_norm : R) : res R :=
  let* q := div p_norm w_norm in Ok (lam + q * q * (p_norm - 1)).

(** gqtpar.py:533-569: the two values of t with |z + t d| = 1, sorted.  A zero [aux] or [a] is
    ZeroDivisionError here. *)
Definition scalar_quadratic (n : nat) (z d : fvec) : res (R * R) :=
  let a := fdot n d d in
  let b := 2 * fdot n z d in
  let c := fdot n z z - 1 in
  let* sd := msqrt (b * b - 4 * a * c) in
  let aux := b + (if Rltb b 0 then - sd else sd) in
  let* ta := div (- aux) (2 * a) in
  let* tb := div (-2 * c) aux in
  Ok (Rmin ta tb, Rmax ta tb).

(** gqtpar.py:512-530 and gqtpar_fast.py:487-511.  For two steps of equal length gqtpar takes the
    lower one and gqtpar_fast the one that np.roots lists first: the parameter [tie] decides. *)
Definition smallest_step_len (tie : fvec -> fvec -> bool) (n : nat) (x z : fvec) : res R :=
  let* (ta, tb) := scalar_quadratic n x z in
  if Rltb (Rabs tb) (Rabs ta) then Ok tb
  else if Rltb (Rabs ta) (Rabs tb) then Ok ta
  else if tie x z then Ok ta else Ok tb.

(** gqtpar.py:572-616; [k] is the info number of the factorization, k >= 1. *)
Definition singular_terms (n : nat) (M U : fmat) (k : nat) : R * fvec :=
  let c := (k - 1)%nat in
  let delta := bsum c (fun l => U l c * U l c) - M c c in
  let v := bwd c c U (fun l => - U l c) in
  (delta, fun i => if Nat.ltb i c then v i else if Nat.eqb i c then 1 else 0).

(** * The iteration *)

(** The local variables of gqtpar (gqtpar.py:69-132).  [q_fact] is already_factorized; before the
    first pass the matrices and the info number are undefined in the code and never read. *)
Record gq := mkGq {
  q_x : fvec; q_hpl : fmat; q_u : fmat; q_fact : bool; q_info : nat;
  q_lam : lambdas; q_conv : bool }.

(** The keyword arguments: gqtpar.py:22 *)
Record gopts := mkGopts { k_easy : R; k_hard : R }.

(** gqtpar.py:442-495 *)
Definition update_within (tie : fvec -> fvec -> bool) (n : nat) (H : fmat) (o : gopts)
    (s : gq) (x : fvec) (newton : R) (conv : bool) : res gq :=
  let lam := q_lam s in
  let (s_min, z_min) := estimate_smallest_singular_value n (q_u s) in
  let* step_len := smallest_step_len tie n x z_min in
  let quadratic_term := fdot n (fvm n x (q_hpl s)) x in
  let* relative_error := div (step_len * step_len * (s_min * s_min)) (quadratic_term + l_cand lam) in
  let hard := Rleb relative_error (k_hard o) in
  let x' := if hard then fadd x (fscale step_len z_min) else x in
  let lo := Rmax (l_lo lam) (l_cand lam - s_min * s_min) in
  let hpl := add_diag H newton in
  (* the factor computed here is discarded by the code *)
  match snd (chol n hpl) with
  | O => Ok (mkGq x' hpl (q_u s) true (q_info s) (mkL newton lo (l_cand lam)) (conv || hard))
  | S _ =>
      let lo' := Rmax lo newton in
      Ok (mkGq x' hpl (q_u s) (q_fact s) (q_info s)
            (mkL (new_lambda_candidate lo' (l_cand lam)) lo' (l_cand lam)) (conv || hard))
  end.

(** gqtpar.py:262-313 (498-509 for a candidate outside of the trust region) *)
Definition find_new_candidate (tie : fvec -> fvec -> bool) (n : nat) (g : fvec) (H : fmat) (o : gopts)
    (s : gq) : res gq :=
  let lam := q_lam s in
  let x := cho_solve n (q_u s) (fopp g) in
  let x_norm := fnorm n x in
  let conv := q_conv s || (Rleb x_norm 1 && Reqb (l_cand lam) 0) in
  let w := fwd n (q_u s) x in
  let* newton := newton_step (l_cand lam) x_norm (fnorm n w) in
  if Rltb x_norm 1 then update_within tie n H o s x newton conv
  else
    Ok (mkGq x (q_hpl s) (q_u s) (q_fact s) (q_info s) (mkL newton (l_cand lam) (l_hi lam))
          (conv || Rleb (Rabs (x_norm - 1)) (k_easy o))).

(** gqtpar.py:316-346 *)
Definition check_interior (n : nat) (o : gopts) (s : gq) : gq :=
  let lam := q_lam s in
  let zero := Reqb (l_cand lam) 0 in
  let x1 := if zero then fzero else q_x s in
  let (s_min, z_min) := estimate_smallest_singular_value n (q_u s) in
  let hard := Rleb (4 * (s_min * s_min)) (k_hard o * l_cand lam) in
  let x2 := if hard then fscale 2 z_min else x1 in
  let lo := Rmax (l_lo lam) (l_hi lam - s_min * s_min) in
  mkGq x2 (q_hpl s) (q_u s) (q_fact s) (q_info s)
    (mkL (new_lambda_candidate lo (l_cand lam)) lo (l_cand lam)) (q_conv s || zero || hard).

(** gqtpar.py:349-371 *)
Definition update_unsuccessful (n : nat) (s : gq) : res gq :=
  let lam := q_lam s in
  let (delta, v) := singular_terms n (q_hpl s) (q_u s) (q_info s) in
  let* q := div delta (fnorm n v * fnorm n v) in
  let lo := Rmax (l_lo lam) (l_cand lam + q) in
  Ok (mkGq (q_x s) (q_hpl s) (q_u s) (q_fact s) (q_info s)
        (mkL (new_lambda_candidate lo (l_hi lam)) lo (l_hi lam)) (q_conv s)).

(** gqtpar.py:212-259 and 90-95: after a pass that set already_factorized the factor and the info
    number of an earlier pass are used again. *)
Definition factorize (n : nat) (H : fmat) (s : gq) : gq :=
  if q_fact s then mkGq (q_x s) (q_hpl s) (q_u s) false (q_info s) (q_lam s) (q_conv s)
  else let hpl := add_diag H (l_cand (q_lam s)) in
       let (U, info) := chol n hpl in
       mkGq (q_x s) hpl U false info (q_lam s) (q_conv s).

(** gqtpar.py:74-78; eps = 2^-52 *)
Definition EPS : R := / 4503599627370496.
(** gqtpar.py:74-78 *)
Definition zero_threshold (n : nat) (H : fmat) : R := INR n * EPS * inf_norm n H.

(** gqtpar.py:89-132, one pass of the loop *)
Definition gq_pass (tie : fvec -> fvec -> bool) (n : nat) (g : fvec) (H : fmat) (o : gopts) (s : gq)
    : res gq :=
  let s := factorize n H s in
  match q_info s with
  | O => if Rltb (zero_threshold n H) (fnorm n g) then find_new_candidate tie n g H o s
         else Ok (check_interior n o s)
  | S _ => update_unsuccessful n s
  end.

(** gqtpar.py:89-132, at most [k] passes *)
Fixpoint gq_loop (tie : fvec -> fvec -> bool) (k n : nat) (g : fvec) (H : fmat) (o : gopts) (s : gq)
    : res gq :=
  match k with
  | O => Ok s
  | S k => let* s' := gq_pass tie n g H o s in
           if q_conv s' then Ok s' else gq_loop tie k n g H o s'
  end.

(** The variables before the loop: gqtpar.py:65-87 *)
Definition gq_init (n : nat) (g : fvec) (H : fmat) (x0 : fvec) : gq :=
  mkGq x0 (fun _ _ => 0) (fun _ _ => 0) false 0 (initial_lambdas n g H) false.

(** The returned dictionary: gqtpar.py:138-143 *)
Record gqresult := mkGqr { g_x : fvec; g_criterion : R; g_success : bool }.

(** gqtpar.py:22-145.  The number of iterations is left out of the result; for maxiter = 0 the
    code fails because it is undefined, for n = 0 the minimum of the empty diagonal fails. *)
Definition gqtpar (tie : fvec -> fvec -> bool) (n : nat) (g : fvec) (H : fmat) (x0 : fvec)
    (o : gopts) (maxiter : nat) : res gqresult :=
  if Nat.eqb n 0 then Err ValueError else
  let* s := gq_loop tie maxiter n g H o (gq_init n g H x0) in
  if Nat.eqb maxiter 0 then Err UnboundLocalError else
  Ok (mkGqr (q_x s) (fdot n g (q_x s) + 1 / 2 * fdot n (fvm n (q_x s) H) (q_x s)) (q_conv s)).

(** gqtpar as the sphere solver of the subproblem template (solve_subproblem.py:75-135 with
    gqtpar's arguments: the bounds are not passed on).  In a sphere the start is the zero vector;
    entries that are not finite are read as 0.  A model without square terms has no shape. *)
Definition gqtpar_solver (tie : fvec -> fvec -> bool) (o : gopts) (maxiter : nat) : solver :=
  fun m x0 _ _ =>
    match sm_h m with
    | None => Err AttributeError
    | Some h =>
        let start := fun i => match xentry x0 i with Fin a => a | _ => 0 end in
        let* r := gqtpar tie (sm_n m) (sm_g m) h start o maxiter in
        Ok (mkRaw (map (fun i => Fin (g_x r i)) (seq 0 (sm_n m))) None (Some (g_success r)))
    end.
