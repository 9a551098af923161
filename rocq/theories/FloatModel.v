(** Binary64 arithmetic and the functions of the code whose results are claimed to stay within
    limits: region.py, the end of the subproblem template, the hull projection, adjust_radius and
    next_multiple with every operation rounded.  No proofs. *)
From Coq Require Import Reals List ZArith Bool Lia Lra.
From Flocq Require Import Core.
From Verif Require Import Base XR Vec VolumeModel RegionModel AdjustModel.
Import ListNotations.
Open Scope R_scope.

(** * Arithmetic *)

(** Binary64: precision 53, smallest positive number 2^-1074, numbers below 2^1024; rounding to
    nearest, ties to even.  Values are [xr]; zeros have no sign (C154_ieee compares with Flocq's
    IEEE 754 operations). (The number type of all arrays, e.g. history.py:217-234) *)
Definition b64_exp : Z -> Z := FLT_exp (-1074) 53.
(** No lines of its own: rounding to nearest *)
Definition rnd (x : R) : R := round radix2 b64_exp ZnearestE x.
(** No lines of its own: all finite numbers are below this one *)
Definition b64_max : R := bpow radix2 1024.
(** No lines of its own: rounding with overflow *)
Definition fl (x : R) : xr :=
  if Rltb (Rabs (rnd x)) b64_max then Fin (rnd x) else xsign_inf (Rltb 0 x).
(** No lines of its own: rounding of an exact result *)
Definition flx (a : xr) : xr := match a with Fin x => fl x | _ => a end.

(** a + b, e.g. region.py:91-94 *)
Definition fadd (a b : xr) : xr := flx (xadd a b).
(** a - b, e.g. region.py:79-82 *)
Definition fsub (a b : xr) : xr := flx (xsub a b).
(** a * b, e.g. region.py:91-94 *)
Definition fmul (a b : xr) : xr := flx (xmul a b).
(** a / b, e.g. region.py:79-82 *)
Definition fdiv (a b : xr) : xr := flx (xdiv a b).
(** The exact root behind fsqrt *)
Definition xsqrt (a : xr) : xr :=
  match a with Fin x => if Rltb x 0 then NaN else Fin (sqrt x) | PInf => PInf | _ => NaN end.
(** np.sqrt, e.g. inside np.linalg.norm in sample_points.py:464 *)
Definition fsqrt (a : xr) : xr := flx (xsqrt a).

(** The values of a float64.
    (No lines of its own: the entries of arrays, e.g. history.py:217-234) *)
Definition is_b64 (a : xr) : Prop :=
  match a with Fin x => generic_format radix2 b64_exp x /\ Rabs x < b64_max | _ => True end.

(** * region.py *)

(** bounds.py:6-20 *)
Record fbounds := mkFBounds { fb_lower : option (list xr); fb_upper : option (list xr) }.

(** bounds.py:22-28 *)
Definition f_side_any_finite (s : option (list xr)) : bool :=
  match s with None => false | Some l => existsb isfinite l end.
(** The property has_any of bounds.py:6-28 *)
Definition f_has_any (b : fbounds) : bool :=
  f_side_any_finite (fb_lower b) || f_side_any_finite (fb_upper b).

(** region.py:143-152; see [RegionModel.any_bounds_binding]. *)
Definition f_any_bounds_binding (b : option fbounds) (center : list xr) (radius : xr) : res bool :=
  match b with
  | None => Ok false
  | Some b =>
    if f_has_any b then
      let* lower_binding :=
        match fb_lower b with
        | None => Ok None
        | Some l => let* m := np_min (map2 fsub center l) in Ok (Some (xle m radius))
        end in
      let* upper_binding :=
        match fb_upper b with
        | None => Ok None
        | Some u => let* m := np_min (map2 fsub u center) in Ok (Some (xle m radius))
        end in
      match lower_binding with
      | None => Err UnboundLocalError
      | Some true => Ok true
      | Some false => match upper_binding with
                      | None => Err UnboundLocalError
                      | Some ub => Ok ub
                      end
      end
    else Ok false
  end.

(** region.py:129-140 *)
Definition f_create_cube_bounds (center : list xr) (radius : xr) (b : option fbounds)
    : list xr * list xr :=
  let lower := map (fun c => fsub c radius) center in
  let upper := map (fun c => fadd c radius) center in
  let lower := match b with
               | Some (mkFBounds (Some l) _) => map2 (fun x l => xclip x l PInf) lower l
               | _ => lower
               end in
  let upper := match b with
               | Some (mkFBounds _ (Some u)) => map2 (fun x u => xclip x NInf u) upper u
               | _ => upper
               end in
  (lower, upper).

(** region.py:11-32 *)
Record fregion := mkFRegion {
  fr_center : list xr;
  fr_radius : xr;
  fr_bounds : option fbounds;
  fr_shape : shape;
  fr_cube_lower : list xr;
  fr_cube_upper : list xr
}.

(** region.py:11-31, 97-108; [cube_radius] is get_radius_of_cube_with_volume_of_sphere, whose
    rounding (gamma function and powers) is left open. *)
Definition f_make_region (cube_radius : xr -> nat -> xr) (center : list xr) (radius : xr)
    (b : option fbounds) : res fregion :=
  let* binding := f_any_bounds_binding b center radius in
  let sh := if binding then Cube else Sphere in
  let r := match sh with Cube => cube_radius radius (length center) | Sphere => radius end in
  let '(lo, up) := f_create_cube_bounds center r b in
  Ok (mkFRegion center radius b sh lo up).

(** region.py:49-55, 73-82 *)
Definition f_map_to_unit (reg : fregion) (x : list xr) : list xr :=
  match fr_shape reg with
  | Sphere => map2 (fun xi c => fdiv (fsub xi c) (fr_radius reg)) x (fr_center reg)
  | Cube => map2 (fun xi '(l, u) => fsub (fdiv (fmul (Fin 2) (fsub xi l)) (fsub u l)) (Fin 1)) x
                 (combine (fr_cube_lower reg) (fr_cube_upper reg))
  end.

(** region.py:57-66, 85-94 *)
Definition f_map_from_unit (reg : fregion) (x : list xr) : list xr :=
  match fr_shape reg with
  | Sphere => map2 (fun xi c => fadd (fmul xi (fr_radius reg)) c) x (fr_center reg)
  | Cube => map2 (fun xi '(l, u) =>
                    xclip (fadd (fdiv (fmul (fsub u l) (fadd xi (Fin 1))) (Fin 2)) l) l u) x
                 (combine (fr_cube_lower reg) (fr_cube_upper reg))
  end.

(** solve_subproblem.py:178, 206-226: what the template makes of the point [raw] of the solver;
    [predict] is model.predict.  The result: x and expected_improvement. *)
Definition f_template (reg : fregion) (predict : list xr -> xr) (raw : list xr) : list xr * xr :=
  let old_x_unit := f_map_to_unit reg (fr_center reg) in
  let raw := match fr_shape reg with
             | Cube => map (fun a => xclip a (Fin (-1)) (Fin 1)) raw
             | Sphere => raw
             end in
  let expected_improvement := xopp (fsub (predict raw) (predict old_x_unit)) in
  if xge expected_improvement (Fin 0)
  then (f_map_from_unit reg raw, expected_improvement)
  else (fr_center reg, Fin 0).

(** * sample_points.py:452-466, one row *)

(** The order in which numpy adds the entries of a row: a tree whose leaves are the indices.
    (The sum inside np.linalg.norm in sample_points.py:464) *)
Inductive sum_tree := SLeaf (i : nat) | SNode (a b : sum_tree).
(** No lines of its own: the indices that are added, see sum_tree *)
Fixpoint leaves (t : sum_tree) : list nat :=
  match t with SLeaf i => [i] | SNode a b => leaves a ++ leaves b end.
(** The sum inside np.linalg.norm in sample_points.py:464 *)
Fixpoint f_sum (t : sum_tree) (x : list xr) : xr :=
  match t with SLeaf i => nth i x (Fin 0) | SNode a b => fadd (f_sum a x) (f_sum b x) end.

(** np.linalg.norm of one row.  Order inf: the largest absolute value.  Order 2: the root of the
    sum of the squares. (sample_points.py:463-464) *)
Definition f_norm_inf (x : list xr) : xr := fold_left xmax (map xabs x) (Fin 0).
(** sample_points.py:463-464 *)
Definition f_norm_2 (t : sum_tree) (x : list xr) : xr := fsqrt (f_sum t (map (fun a => fmul a a) x)).
(** One row of sample_points.py:452-466 *)
Definition f_project_row (t : sum_tree) (sh : shape) (x : list xr) : list xr :=
  let norm := match sh with Sphere => f_norm_2 t x | Cube => f_norm_inf x end in
  map (fun a => fdiv a norm) x.

(** sample_points.py:169-171 and 324-327: projection and mapping of one row of raw values. *)
Definition f_hull_row (t : sum_tree) (reg : fregion) (raw : list xr) : list xr :=
  f_map_from_unit reg (f_project_row t (fr_shape reg) raw).

(** * adjust_radius.py:27-43 *)
Definition f_adjust_radius (radius rho step_length : xr) (o : radius_options)
    (n_evals_is_increased : bool) : xr :=
  let is_large_step := xge (fdiv step_length radius) (Fin (large_step o)) in
  let new_radius :=
    if xge rho (Fin (rho_increase o)) && is_large_step
    then fmul radius (Fin (expansion_factor o))
    else if xge rho (Fin (rho_decrease o)) || n_evals_is_increased
    then radius
    else fmul radius (Fin (shrinking_factor o)) in
  let max_r := match max_radius_to_step_ratio o with
               | Fin r => xmin (Fin (max_radius o)) (fmul step_length (Fin r))
               | _ => Fin (max_radius o)
               end in
  xclip new_radius (Fin (min_radius o)) max_r.

(** * process_arguments.py:368-369 for integers *)

(** [n / base] is the correctly rounded quotient; np.ceil and int are exact; the product is
    rounded. (process_arguments.py:368-369) *)
Definition f_next_multiple (n base : Z) : xr :=
  fmul (Fin (IZR (Zceil (rnd (IZR n / IZR base))))) (Fin (IZR base)).
