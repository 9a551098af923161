(** Models of adjust_radius.py, adjust_n_evals.py, acceptance_sample_size.py,
    process_arguments.py:next_multiple and the default radius of options.py.  No proofs. *)
From Coq Require Import Reals List ZArith Bool Lra.
From Verif Require Import Base XR Vec.
Import ListNotations.
Open Scope R_scope.

(** options.py:132-143 without initial_radius. *)
Record radius_options := mkRadiusOptions {
  min_radius : R;
  max_radius : R;
  rho_decrease : R;
  rho_increase : R;
  shrinking_factor : R;
  expansion_factor : R;
  large_step : R;
  max_radius_to_step_ratio : xr
}.

(** np.clip on reals. (used in adjust_radius.py:41) *)
Definition clip (x lo hi : R) : R := Rmin hi (Rmax x lo).

(** adjust_radius.py:27-32 - the radius before clipping. *)
Definition raw_radius (radius : R) (rho : xr) (step_length : R) (o : radius_options)
    (n_evals_is_increased : bool) : R :=
  let is_large_step := xge (xdiv (Fin step_length) (Fin radius)) (Fin (large_step o)) in
  if xge rho (Fin (rho_increase o)) && is_large_step
  then radius * expansion_factor o
  else if xge rho (Fin (rho_decrease o)) || n_evals_is_increased
  then radius
  else radius * shrinking_factor o.

(** adjust_radius.py:4-43.  radius and step_length are finite in the code. *)
Definition adjust_radius (radius : R) (rho : xr) (step_length : R) (o : radius_options)
    (n_evals_is_increased : bool) : R :=
  let new_radius := raw_radius radius rho step_length o n_evals_is_increased in
  let max_r := match max_radius_to_step_ratio o with
               | Fin r => Rmin (max_radius o) (step_length * r)
               | _ => max_radius o
               end in
  clip new_radius (min_radius o) max_r.

(** options.py:135-143 - the default options. *)
Definition default_radius_options : radius_options :=
  mkRadiusOptions (/ 1000000) 1000000 (/ 10) (/ 10) (/ 2) 2 (/ 2) PInf.

(** options.py:30-31 - 0.1 * np.max(np.abs(x)); numpy raises on an empty x, which
    process_arguments never passes on. *)
Definition max_abs (x : vec) : R := fold_right (fun a m => Rmax (Rabs a) m) 0 x.
(** options.py:30-31 (the entry initial_radius) *)
Definition default_initial_radius (x : vec) : R := / 10 * max_abs x.

(** options.py:206-215, the fields used by adjust_n_evals. *)
Record noise_options := mkNoiseOptions {
  high_rho : R;
  low_rho : R;
  min_share_high_rho : R;
  min_share_low_rho : R;
  min_n_evals : Z;
  max_n_evals : Z;
  good_rho_threshold : R
}.

(** (rho_noise > t).mean(); the mean of an empty array is NaN. (adjust_n_evals.py:15-21) *)
Definition share_above (t : R) (rho_noise : list xr) : xr :=
  xdiv (Fin (INR (length (filter (fun r => xgt r (Fin t)) rho_noise))))
       (Fin (INR (length rho_noise))).

(** adjust_n_evals.py:1-29 *)
Definition adjust_n_evals (n_evals : Z) (rho : xr) (rho_noise : list xr)
    (o : noise_options) : Z * bool :=
  let new_n_evals :=
    if xgt (share_above (high_rho o) rho_noise) (Fin (min_share_high_rho o))
    then Z.max (n_evals - 1) (min_n_evals o)
    else if xgt (share_above (low_rho o) rho_noise) (Fin (min_share_low_rho o))
            || xge rho (Fin (good_rho_threshold o))
    then n_evals
    else Z.min (n_evals + 1) (max_n_evals o) in
  (new_n_evals, (n_evals <? new_n_evals)%Z).

(** Ceiling of a real number. (used in acceptance_sample_size.py:23-24) *)
Definition ceilR (x : R) : Z := (- Int_part (- x))%Z.

(** process_arguments.py:368-369 - int(np.ceil(n / base) * base); the float division is
    modelled as exact division. *)
Definition next_multiple (n base : Z) : Z := (ceilR (IZR n / IZR base) * base)%Z.

(** acceptance_sample_size.py:60-69.  [zsum] is norm.ppf(1 - significance_level) +
    norm.ppf(power_level), computed by scipy. *)
Definition compute_factor (zsum minimal_effect_size : xr) : xr :=
  if xeq minimal_effect_size (Fin 0) then PInf
  else xsquare (xdiv zsum minimal_effect_size).

(** acceptance_sample_size.py:28-57; [x ** (-1)] is modelled as [1 / x]. *)
Definition optimal_sample_sizes (sd_1 sd_2 existing_n1 minimal_effect_size zsum : xr)
    : xr * xr :=
  let factor := compute_factor zsum minimal_effect_size in
  let n1_optimal := xmul (xmul sd_1 (xadd sd_2 sd_1)) factor in
  let n2_optimal := xmul (xmul sd_2 (xadd sd_2 sd_1)) factor in
  if xle existing_n1 n1_optimal
  then (xsub n1_optimal existing_n1, n2_optimal)
  else (Fin 0,
        xmul (xsquare sd_2)
             (xdiv (Fin 1) (xsub (xdiv (Fin 1) factor)
                                 (xdiv (xsquare sd_1) existing_n1)))).

(** int(np.ceil(x)): raises on NaN (ValueError) and infinities (OverflowError, recorded
    as ValueError too). (acceptance_sample_size.py:23-24) *)
Definition int_ceil (x : xr) : res Z :=
  match x with Fin r => Ok (ceilR r) | _ => Err ValueError end.

(** acceptance_sample_size.py:5-25 *)
Definition get_acceptance_sample_sizes (sigma : xr) (existing_n1 : Z)
    (expected_improvement : xr) (zsum : xr) (n_min n_max : Z) : res (Z * Z) :=
  let '(n1_raw, n2_raw) :=
    optimal_sample_sizes sigma sigma (Fin (IZR existing_n1))
      (xclip expected_improvement (Fin (/ 100000000)) PInf) zsum in
  let* n1 := int_ceil (xclip n1_raw (Fin 0) (Fin (IZR (Z.max 0 (n_max - existing_n1))))) in
  let* n2 := int_ceil (xclip n2_raw (Fin (IZR n_min)) (Fin (IZR n_max))) in
  Ok (n1, n2).
