(** Model of region.py and bounds.py.  No proofs. *)
From Coq Require Import Reals List ZArith Bool Lia Lra.
From Verif Require Import Base XR Vec VolumeModel.
Import ListNotations.
Open Scope R_scope.

(** bounds.py:6-20.  A side is None (Python None) or a vector whose entries are real
    numbers or infinite ([None]: -inf in a lower, +inf in an upper bound).  NaN entries
    and infinite entries of the wrong sign are outside the model. *)
Record bounds := mkBounds {
  b_lower : option (list (option R));
  b_upper : option (list (option R))
}.

(** bounds.py:22-28 *)
Definition isfinite_o (o : option R) : bool := match o with Some _ => true | None => false end.
(** One side in bounds.py:22-28 *)
Definition side_any_finite (s : option (list (option R))) : bool :=
  match s with None => false | Some l => existsb isfinite_o l end.
(** bounds.py:13-28 *)
Definition has_any (b : bounds) : bool :=
  side_any_finite (b_lower b) || side_any_finite (b_upper b).

(** np.min; raises on an empty array. (region.py:148 and 150) *)
Definition np_min (l : list xr) : res xr :=
  match l with [] => Err ValueError | a :: l' => Ok (fold_left xmin l' a) end.

(** center - bounds.lower and bounds.upper - center; -(-inf) = inf. (region.py:148 and 150) *)
Definition dist_lower (c : R) (l : option R) : xr :=
  match l with Some v => Fin (c - v) | None => PInf end.
(** region.py:150 *)
Definition dist_upper (c : R) (u : option R) : xr :=
  match u with Some v => Fin (v - c) | None => PInf end.

(** region.py:143-152.  [lower_binding] / [upper_binding] are unbound locals when the side
    is None; `or` evaluates its right operand only if the left one is false. *)
Definition any_bounds_binding (b : option bounds) (center : vec) (radius : R) : res bool :=
  match b with
  | None => Ok false
  | Some b =>
    if has_any b then
      let* lower_binding :=
        match b_lower b with
        | None => Ok None
        | Some l => let* m := np_min (map2 dist_lower center l) in
                    Ok (Some (xle m (Fin radius)))
        end in
      let* upper_binding :=
        match b_upper b with
        | None => Ok None
        | Some u => let* m := np_min (map2 dist_upper center u) in
                    Ok (Some (xle m (Fin radius)))
        end in
      match lower_binding with
      | None => Err UnboundLocalError
      | Some true => Ok true
      | Some false => match upper_binding with
                      | None => Err UnboundLocalError
                      | Some ub => Ok ub
                      end
      end
    else Ok false
  end.

(** region.py:97-101 *)
Definition get_shape (center : vec) (radius : R) (b : option bounds) : res shape :=
  let* binding := any_bounds_binding b center radius in
  Ok (if binding then Cube else Sphere).

(** np.clip(x, lower, inf) and np.clip(x, -inf, upper) (region.py:135 and 138) *)
Definition clip_lower (x : R) (l : option R) : R :=
  match l with Some v => Rmax x v | None => x end.
(** region.py:138 *)
Definition clip_upper (x : R) (u : option R) : R :=
  match u with Some v => Rmin x v | None => x end.

(** region.py:129-140 *)
Definition create_cube_bounds (center : vec) (radius : R) (b : option bounds) : vec * vec :=
  let lower := map (fun c => c - radius) center in
  let upper := map (fun c => c + radius) center in
  let lower := match b with
               | Some (mkBounds (Some l) _) => map2 clip_lower lower l
               | _ => lower
               end in
  let upper := match b with
               | Some (mkBounds _ (Some u)) => map2 clip_upper upper u
               | _ => upper
               end in
  (lower, upper).

(** region.py:104-108 *)
Definition get_cube_bounds (center : vec) (radius : R) (b : option bounds) (sh : shape)
    : vec * vec :=
  let radius := match sh with
                | Cube => get_radius_of_cube_with_volume_of_sphere radius (length center) None
                | Sphere => radius
                end in
  create_cube_bounds center radius b.

(** region.py:11-31, with the derived attributes shape and _cube_bounds. *)
Record region := mkRegion {
  r_center : vec;
  r_radius : R;
  r_bounds : option bounds;
  r_shape : shape;
  r_cube_lower : vec;
  r_cube_upper : vec
}.

(** region.py:11-31 (the dataclass constructor with __post_init__). *)
Definition make_region (center : vec) (radius : R) (b : option bounds) : res region :=
  let* sh := get_shape center radius b in
  let '(lo, up) := get_cube_bounds center radius b sh in
  Ok (mkRegion center radius b sh lo up).

(** region.py:111-118 - effective_center *)
Definition effective_center (reg : region) : vec :=
  match r_shape reg with
  | Sphere => r_center reg
  | Cube => map2 (fun l u => (l + u) / 2) (r_cube_lower reg) (r_cube_upper reg)
  end.

(** region.py:121-126 - effective_radius: a number for spheres, a vector for cubes. *)
Inductive scale := SScalar (r : R) | SVector (v : vec).
(** region.py:121-126 *)
Definition effective_radius (reg : region) : scale :=
  match r_shape reg with
  | Sphere => SScalar (r_radius reg)
  | Cube => SVector (map2 (fun l u => (u - l) / 2) (r_cube_lower reg) (r_cube_upper reg))
  end.

(** region.py:73-94 *)
Definition map_to_unit_cube (x lo up : vec) : vec :=
  map2 (fun xi '(l, u) => 2 * (xi - l) / (u - l) - 1) x (combine lo up).
(** region.py:79-82 *)
Definition map_to_unit_sphere (x center : vec) (radius : R) : vec :=
  map2 (fun xi c => (xi - c) / radius) x center.
(** region.py:85-88 *)
Definition map_from_unit_cube (x lo up : vec) : vec :=
  map2 (fun xi '(l, u) => (u - l) * (xi + 1) / 2 + l) x (combine lo up).
(** region.py:91-94 *)
Definition map_from_unit_sphere (x center : vec) (radius : R) : vec :=
  map2 (fun xi c => xi * radius + c) x center.

(** region.py:49-55 *)
Definition map_to_unit (reg : region) (x : vec) : vec :=
  match r_shape reg with
  | Sphere => map_to_unit_sphere x (r_center reg) (r_radius reg)
  | Cube => map_to_unit_cube x (r_cube_lower reg) (r_cube_upper reg)
  end.

(** np.clip(out, lower, upper) (region.py:65) *)
Definition vclip (x lo up : vec) : vec :=
  map2 (fun xi '(l, u) => Rmin u (Rmax xi l)) x (combine lo up).

(** region.py:57-66 *)
Definition map_from_unit (reg : region) (x : vec) : vec :=
  match r_shape reg with
  | Sphere => map_from_unit_sphere x (r_center reg) (r_radius reg)
  | Cube => vclip (map_from_unit_cube x (r_cube_lower reg) (r_cube_upper reg))
                  (r_cube_lower reg) (r_cube_upper reg)
  end.

(** region.py:69-70 - _replace rebuilds the region through the constructor. *)
Definition replace_radius (reg : region) (radius : R) : res region :=
  make_region (r_center reg) radius (r_bounds reg).
(** region.py:69-70 with a new center and radius *)
Definition replace_center_radius (reg : region) (center : vec) (radius : R) : res region :=
  make_region center radius (r_bounds reg).
