(** Model of volume.py.  No proofs. *)
From Coq Require Import Reals List ZArith Lia Lra.
From Verif Require Import Base XR Vec.
Open Scope R_scope.

(** scipy.special.gamma(dim / 2 + 1) for a natural number dim, by the recursion
    Gamma(x + 1) = x Gamma(x) from Gamma(1) = 1 and Gamma(3/2) = sqrt(pi) / 2.
    (volume.py:65 and 75) *)
Fixpoint gamma_half (dim : nat) : R :=
  match dim with
  | O => 1
  | S O => sqrt PI / 2
  | S (S d) => (INR d / 2 + 1) * gamma_half d
  end.

(** volume.py:13-15 *)
Definition get_radius_after_volume_scaling (radius : R) (dim : nat) (scaling_factor : R) : R :=
  radius * Rpower scaling_factor (1 / INR dim).

(** volume.py:18-28; loggamma(dim / 2 + 1) is ln of [gamma_half].  Logarithms of
    non-positive numbers (numpy: -inf or NaN) are outside the model's domain. *)
Definition get_radius_of_sphere_with_volume_of_cube (cube_radius : R) (dim : nat)
    (scaling_factor : option R) : R :=
  let log_radius :=
    ln (gamma_half dim) / INR dim - ln PI / 2 + ln 2 + ln cube_radius in
  let log_radius := match scaling_factor with
                    | None => log_radius
                    | Some s => log_radius + ln s / INR dim
                    end in
  exp log_radius.

(** volume.py:31-41 *)
Definition get_radius_of_cube_with_volume_of_sphere (sphere_radius : R) (dim : nat)
    (scaling_factor : option R) : R :=
  let log_radius :=
    ln PI / 2 + ln sphere_radius - ln 2 - ln (gamma_half dim) / INR dim in
  let log_radius := match scaling_factor with
                    | None => log_radius
                    | Some s => log_radius + ln s / INR dim
                    end in
  exp log_radius.

(** The strings sphere and cube: volume.py:44-81 *)
Inductive shape := Sphere | Cube.

(** volume.py:64-66 *)
Definition sphere_volume (radius : R) (dim : nat) : R :=
  Rpower PI (INR dim / 2) * radius ^ dim / gamma_half dim.
(** volume.py:69-71 *)
Definition cube_volume (radius : R) (dim : nat) : R := (radius * 2) ^ dim.
(** volume.py:74-76 *)
Definition sphere_radius (volume : R) (dim : nat) : R :=
  Rpower (volume * gamma_half dim / Rpower PI (INR dim / 2)) (1 / INR dim).
(** volume.py:79-81 *)
Definition cube_radius (volume : R) (dim : nat) : R := / 2 * Rpower volume (1 / INR dim).

(** volume.py:44-51; the shape argument is a two-valued type, so the ValueError branch
    does not exist. *)
Definition get_volume (radius : R) (dim : nat) (sh : shape) : R :=
  match sh with Sphere => sphere_volume radius dim | Cube => cube_volume radius dim end.
(** volume.py:54-61 *)
Definition get_radius (volume : R) (dim : nat) (sh : shape) : R :=
  match sh with Sphere => sphere_radius volume dim | Cube => cube_radius volume dim end.
