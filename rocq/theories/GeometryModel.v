(** Model of /repo/src/tranquilo/geometry.py and exploration_sample.py.  No proofs here. *)
From Coq Require Import Reals List Arith ZArith Bool.
From Verif Require Import Base XR Vec FVec RegionModel SubproblemModel.
Import ListNotations.
Open Scope R_scope.

(** np.linalg.det of the first [n] rows and columns: expansion along the first row (numpy
    uses an LU decomposition; rounding is not modelled). (geometry.py:22) *)
Definition minor (A : fmat) (j : nat) : fmat := fun r c => A (S r) (if (c <? j)%nat then c else S c).
(** geometry.py:22 *)
Fixpoint fdet (n : nat) (A : fmat) : R :=
  match n with
  | O => 1
  | S k => bsum (S k) (fun j => (-1) ^ j * A 0%nat j * fdet k (minor A j))
  end.

(** np.log (geometry.py:23) *)
Definition xlog (r : R) : xr :=
  if Rltb 0 r then Fin (ln r) else if Reqb r 0 then NInf else NaN.

(** points.T @ points, geometry.py:21, entry (a, b) *)
Definition xtx (points : list vec) : fmat :=
  fun a b => bsum (length points) (fun r => fun_of (nth r points []) a * fun_of (nth r points []) b).

(** geometry.py:4-24.  For an empty sample the matrix is 0 / 0 and the result NaN (there is at
    least one parameter).  The region is not degenerate. *)
Definition log_d_quality_calculator (sample : list vec) (reg : region) : xr :=
  let points := map (map_to_unit reg) sample in
  let n_samples := length points in
  let n_params := length (r_center reg) in
  match points with
  | [] => NaN
  | _ =>
      let det := fdet n_params (fun a b => xtx points a b / INR n_samples) in
      xadd (xmul (Fin (INR n_params)) (xlog (INR n_samples))) (xlog det)
  end.

(** * exploration_sample.py *)

(** The arguments sampling_method and sampling_distribution, any strings
    (exploration_sample.py:38-44) *)
Inductive method := Sobol | Halton | LatinHypercube | Random | OtherMethod.
(** exploration_sample.py:39-47 *)
Inductive distribution := Uniform | Triangular | OtherDistribution.

(** The samplers of scipy and numpy, exploration_sample.py:57-76: the method, the dimension and
    the number of points; external functions, hence a parameter.  The seed is fixed. *)
Definition sampler := method -> nat -> nat -> res (list vec).

(** scipy.stats.qmc.scale: ValueError unless the sample is in the unit cube and
    lower < upper. (exploration_sample.py:78) *)
Definition qmc_scale (sample : list vec) (lower upper : vec) : res (list vec) :=
  if negb (forallb (forallb (fun u => Rleb 0 u && Rleb u 1)) sample) then Err ValueError
  else if negb (forallb (fun '(l, u) => Rltb l u) (combine lower upper)) then Err ValueError
  else Ok (map (fun row => map2 (fun q '(l, u) => q * (u - l) + l) row (combine lower upper)) sample).

(** scipy.stats.triang.ppf(q, c, loc, scale): NaN outside of 0 <= q <= 1 and for illegal
    parameters; [c] may be NaN or infinite. (exploration_sample.py:80-85) *)
Definition triang_ppf (q : R) (c : xr) (loc scale : R) : xr :=
  match c with
  | Fin c =>
      if Rleb 0 c && Rleb c 1 && Rltb 0 scale && Rleb 0 q && Rleb q 1 then
        Fin (loc + scale * (if Rltb q c then sqrt (c * q) else 1 - sqrt ((1 - c) * (1 - q))))
      else NaN
  | _ => NaN
  end.

(** exploration_sample.py:6-87; an infinite bound is None. *)
Definition draw_exploration_sample (draw : sampler) (x : vec) (lower upper : list (option R))
    (n_samples : nat) (d : distribution) (m : method) : res (list (list xr)) :=
  let* _ := match m with OtherMethod => Err ValueError | _ => Ok tt end in
  let* _ := match d with OtherDistribution => Err ValueError | _ => Ok tt end in
  let finite := fun b => match b with Some r => Ok r | None => Err ValueError end in
  let* lower := mapM finite lower in
  let* upper := mapM finite upper in
  let* sample_unscaled := draw m (length lower) n_samples in
  match d with
  | Uniform =>
      let* s := qmc_scale sample_unscaled lower upper in Ok (map (map Fin) s)
  | _ =>
      Ok (map (fun row => map2 (fun q '(xi, (l, u)) =>
                 triang_ppf q (xdiv (Fin (xi - l)) (Fin (u - l))) l (u - l))
               row (combine x (combine lower upper))) sample_unscaled)
  end.
