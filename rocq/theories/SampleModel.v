(** Model of src/tranquilo/sample_points.py.

    The random number generator and the inner optimizer (scipy.optimize.minimize) are
    parameters.  A point is [Some x], or [None] for a row of NaNs, which results from the
    division of a zero row by its norm.  2d arrays are lists of rows; the flattened array of
    the optimizer is kept as the list of its rows (x.flatten() and x.reshape(-1, n_params)
    only change the layout).  Rounding is not modelled; n_params >= 1. *)
From Coq Require Import Reals List Arith ZArith Bool.
From Verif Require Import Base XR Vec FVec VolumeModel RegionModel.
Import ListNotations.
Open Scope R_scope.

(** A 2d array; None for a row of NaN: sample_points.py:452-466 *)
Definition rows := list (option (list R)).

(** np.linalg.norm(x, ord=np.inf) (sample_points.py:463-464) *)
Definition norm_inf (x : vec) : R := fold_right (fun a m => Rmax (Rabs a) m) 0 x.

(** sample_points.py:452-466 for one row: 0 / 0 is NaN. *)
Definition project_row (sh : shape) (x : vec) : option (list R) :=
  let norm := match sh with Sphere => norm x | Cube => norm_inf x end in
  if Reqb norm 0 then None else Some (map (fun a => a / norm) x).
(** No lines of its own: rows of NaN stay rows of NaN, sample_points.py:465 *)
Definition omap {A B} (f : A -> option B) (o : option A) : option B :=
  match o with Some a => f a | None => None end.
(** sample_points.py:452-466 *)
Definition project_onto_unit_hull (sh : shape) (xs : rows) : rows :=
  map (omap (project_row sh)) xs.

(** The argument of sample_points.py:428-449 *)
Inductive distribution := Normal | Uniform | OtherDistribution.
(** sample_points.py:167-168, 282-283 *)
Definition default_distribution (d : option distribution) (sh : shape) : distribution :=
  match d with
  | Some d => d
  | None => match sh with Sphere => Normal | Cube => Uniform end
  end.
(** sample_points.py:428-449: [rng] draws from the distribution. *)
Definition draw_from_distribution {A} (rng : distribution -> A) (d : distribution) : res A :=
  match d with
  | Normal | Uniform => Ok (rng d)
  | OtherDistribution => Err ValueError
  end.

(** trustregion.map_from_unit for an array of points (sample_points.py:137) *)
Definition map_rows_from_unit (reg : region) (xs : rows) : rows :=
  map (option_map (map_from_unit reg)) xs.

(** sample_points.py:88-111: [draw] is what rng.uniform(low, high, size) returns. *)
Definition box_sampler (reg : region) (n_points : nat) (draw : vec -> vec -> nat -> list vec)
    : rows :=
  map Some (draw (r_cube_lower reg) (r_cube_upper reg) n_points).

(** gammainc(n_params / 2, norm**2 / 2) ** (1 / n_params); [gammainc] is scipy's regularized
    lower incomplete gamma function. (sample_points.py:135) *)
Definition root (n : nat) (a : R) : R := if Reqb a 0 then 0 else Rpower a (/ INR n).
(** One row of sample_points.py:133-136 *)
Definition ball_row (gammainc : R -> R -> R) (n : nat) (x : vec) : option (list R) :=
  if Reqb (norm x) 0 then None
  else let scale := root n (gammainc (INR n / 2) (norm x * norm x / 2)) / norm x in
       Some (map (fun a => a * scale) x).
(** sample_points.py:114-138 *)
Definition ball_sampler (gammainc : R -> R -> R) (reg : region) (n_points : nat)
    (draw : nat -> nat -> list vec) : rows :=
  let n_params := length (r_center reg) in
  map_rows_from_unit reg (map (ball_row gammainc n_params) (draw n_points n_params)).

(** sample_points.py:58-85 *)
Definition interior_sampler (gammainc : R -> R -> R) (reg : region) (n_points : nat)
    (normal : nat -> nat -> list vec) (uniform : vec -> vec -> nat -> list vec) : rows :=
  match r_shape reg with
  | Sphere => ball_sampler gammainc reg n_points normal
  | Cube => box_sampler reg n_points uniform
  end.

(** sample_points.py:141-172 *)
Definition hull_sampler (rng : distribution -> nat -> nat -> list vec) (reg : region)
    (n_points : nat) (d : option distribution) : res rows :=
  let n_params := length (r_center reg) in
  let* raw := draw_from_distribution (fun d => rng d n_points n_params)
                (default_distribution d (r_shape reg)) in
  let points := project_onto_unit_hull (r_shape reg) (map Some raw) in
  Ok (map_rows_from_unit reg points).

(** np.linalg.det: expansion along the first row. (sample_points.py:423) *)
Fixpoint fdet (n : nat) (M : fmat) : R :=
  match n with
  | O => 1
  | S k => bsum n (fun j => (if Nat.even j then 1 else -1) * M O j *
             fdet k (fun a b => M (S a) (if Nat.ltb b j then b else S b)))
  end.

(** All rows, if none of them is NaN.
    (No lines of its own: the determinant of an array with NaN is NaN, sample_points.py:423) *)
Fixpoint all_rows (xs : rows) : option (list vec) :=
  match xs with
  | [] => Some []
  | None :: _ => None
  | Some x :: xs => match all_rows xs with Some l => Some (x :: l) | None => None end
  end.

(** sample.T @ sample / n_samples (sample_points.py:423) *)
Definition gram (sample : list vec) (n_samples : nat) : fmat :=
  fun i j => fold_right (fun x s => nth i x 0 * nth j x 0 + s) 0 sample / INR n_samples.

(** np.row_stack([x, existing_xs]) (sample_points.py:377 and 419) *)
Definition stack (xs : rows) (existing : option rows) : rows :=
  match existing with Some e => xs ++ e | None => xs end.

(** sample_points.py:394-425: NaN if the sample contains a NaN row. *)
Definition determinant_on_hull (xs : rows) (existing : option rows) (sh : shape) (n_params : nat)
    : xr :=
  let n_samples := length xs in
  let xs := project_onto_unit_hull sh xs in
  match all_rows (stack xs existing) with
  | Some sample => Fin (fdet n_params (gram sample n_samples))
  | None => NaN
  end.

(** scipy.spatial.distance.pdist: for each row the distances to the rows behind it.
    (sample_points.py:384) *)
Fixpoint pdist (xs : rows) : list xr :=
  match xs with
  | [] => []
  | x :: xs =>
      map (fun y => match x, y with Some x, Some y => Fin (dist x y) | _, _ => NaN end) xs
      ++ pdist xs
  end.

(** dist[0:-k] (sample_points.py:379 and 387) *)
Definition drop_last {A} (k : nat) (l : list A) : list A := firstn (length l - k) l.

(** -scipy.special.logsumexp(-hardness * dist): the maximum over an empty array raises.
    (sample_points.py:390) *)
Fixpoint all_fin (l : list xr) : option (list R) :=
  match l with
  | [] => Some []
  | Fin a :: l => match all_fin l with Some l => Some (a :: l) | None => None end
  | _ :: _ => None
  end.
(** sample_points.py:389-391 *)
Definition soft_minimum (hardness : R) (dists : list xr) : res xr :=
  match dists with
  | [] => Err ValueError
  | _ => Ok (match all_fin dists with
             | Some l => Fin (- ln (fold_right (fun a s => exp (- hardness * a) + s) 0 l))
             | None => NaN
             end)
  end.

(** sample_points.py:346-391: the soft minimum of the squared distances. *)
Definition considered_distances (xs : rows) (existing : option rows) : list xr :=
  let d := pdist (stack xs existing) in
  let n_existing := match existing with Some e => length e | None => O end in
  let n_existing_pairs := (n_existing * (n_existing - 1) / 2)%nat in
  match existing with
  | Some _ => if Nat.eqb n_existing_pairs 0 then d else drop_last n_existing_pairs d
  | None => d
  end.
(** sample_points.py:346-391 *)
Definition minimal_pairwise_distance_on_hull (xs : rows) (existing : option rows) (sh : shape)
    (hardness : R) : res xr :=
  let xs := project_onto_unit_hull sh xs in
  soft_minimum hardness (map (fun d => xmul d d) (considered_distances xs existing)).

(** np.argmax: the first NaN, or the first largest entry. (sample_points.py:297) *)
Fixpoint xargmax_from (i k : nat) (b : xr) (l : list xr) : nat :=
  match l with
  | [] => k
  | a :: l => if isnan b then k
              else if isnan a then i
              else if xgt a b then xargmax_from (S i) i a l
              else xargmax_from (S i) k b l
  end.
(** np.argmax: sample_points.py:297 *)
Definition xargmax (l : list xr) : res nat :=
  match l with
  | [] => Err ValueError
  | a :: l => Ok (xargmax_from 1 0 a l)
  end.

(** trustregion.map_to_unit for an array of existing points: a side of length zero gives
    0 / 0 for the points of the region. (sample_points.py:251) *)
Definition row_to_unit (reg : region) (x : vec) : option (list R) :=
  let degenerate := match r_shape reg with
    | Sphere => Reqb (r_radius reg) 0
    | Cube => existsb (fun '(l, u) => Reqb (u - l) 0) (combine (r_cube_lower reg) (r_cube_upper reg))
    end in
  if degenerate then None else Some (map_to_unit reg x).

(** The keys of func_dict: sample_points.py:272-279 *)
Inductive sampling_criterion := CritDeterminant | CritDistance.

(** sample_points.py:241-242 *)
Definition default_criterion (c : option sampling_criterion) (n_points : nat) : sampling_criterion :=
  match c with
  | Some c => c
  | None => if Nat.eqb n_points 1 then CritDeterminant else CritDistance
  end.

(** sample_points.py:248-262: for the distance criterion existing points close to the center
    are ignored; comparisons with NaN are false. *)
Definition existing_in_unit_space (reg : region) (existing : option (list vec))
    (c : sampling_criterion) : option rows :=
  match existing with
  | None => None
  | Some xs =>
      let unit := map (row_to_unit reg) xs in
      match c with
      | CritDeterminant => Some unit
      | CritDistance =>
          let not_centric := filter (fun o => match o with
            | Some x => Rleb (1 / 10) (norm x) | None => false end) unit in
          match not_centric with [] => None | _ => Some not_centric end
      end
  end.

Section OptimalHull.
(** rng.normal / rng.uniform(-1, 1) with size (n_points_randomsearch, n_points, n_params) *)
Variable rng : distribution -> nat -> nat -> nat -> list (list vec).
(** scipy.optimize.minimize: gets the criterion (whose sign it switches) and the start
    values; [algorithm] and [algo_options] are part of the parameter. *)
Variable optimize : (rows -> res xr) -> rows -> res rows.

(** sample_points.py:288-299 *)
Definition random_search (sh : shape) (existing : option rows) (n_params : nat)
    (n_points_randomsearch : nat) (draws : list (list vec)) : res rows :=
  let candidates := map (fun x => project_onto_unit_hull sh (map Some x)) draws in
  if Nat.eqb n_points_randomsearch 1 then
    match candidates with x :: _ => Ok x | [] => Err IndexError end
  else
    let* k := xargmax (map (fun x => determinant_on_hull x existing sh n_params) candidates) in
    match nth_error candidates k with Some x => Ok x | None => Err IndexError end.

(** sample_points.py:175-338; returns also x0 and opt_params (entries of info). *)
Definition optimal_hull_info (reg : region) (n_points : Z) (d : option distribution)
    (hardness : R) (criterion : option sampling_criterion) (n_points_randomsearch : nat)
    (existing_xs : option (list vec)) : res (rows * rows * rows) :=
  if (n_points <=? 0)%Z then Ok ([], [], [])
  else
    let n_points := Z.to_nat n_points in
    let n_params := length (r_center reg) in
    let sh := r_shape reg in
    let criterion := default_criterion criterion n_points in
    let existing := existing_in_unit_space reg existing_xs criterion in
    let determinant x := determinant_on_hull x existing sh n_params in
    let crit x := match criterion with
                  | CritDeterminant => Ok (determinant x)
                  | CritDistance => minimal_pairwise_distance_on_hull x existing sh hardness
                  end in
    let* draws := draw_from_distribution (fun d => rng d n_points_randomsearch n_points n_params)
                    (default_distribution d sh) in
    let* x0 := random_search sh existing n_params n_points_randomsearch draws in
    let* opt := match existing with
                | None => if Nat.eqb n_points 1 then Ok x0 else optimize crit x0
                | Some _ => optimize crit x0
                end in
    let opt := if xge (determinant x0) (determinant opt) then x0 else opt in
    let points := project_onto_unit_hull sh opt in
    Ok (map_rows_from_unit reg points, x0, opt).

(** The sampler without info (return_info=False); the entries of info are those above.
    (sample_points.py:175-338) *)
Definition optimal_hull_sampler (reg : region) (n_points : Z) (d : option distribution)
    (hardness : R) (criterion : option sampling_criterion) (n_points_randomsearch : nat)
    (existing_xs : option (list vec)) : res rows :=
  let* (points, _, _) := optimal_hull_info reg n_points d hardness criterion
                           n_points_randomsearch existing_xs in
  Ok points.
End OptimalHull.
