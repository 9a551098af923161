(** Model of models.py and aggregate_models.py.  No proofs.

    Arrays are functions of their indices (FVec.v); shape errors are outside the model.
    [predict] is modelled for one point (1d argument); for a 2d argument the code applies
    the same formula to every row. *)
From Coq Require Import Reals List Arith ZArith Bool.
From Verif Require Import Base XR FVec.
Import ListNotations.
Open Scope R_scope.

(** effective_radius of a region: a number or a vector. (region.py:121-126) *)
Inductive mscale := MScalar (r : R) | MVector (v : fvec).

(** models.py:29-45, with the number of parameters. *)
Record smodel := mkS {
  sm_n : nat;
  sm_c : R;
  sm_g : fvec;
  sm_h : option fmat;
  sm_scale : mscale;
  sm_shift : fvec
}.

(** models.py:8-26, with the numbers of parameters and residuals. *)
Record vmodel := mkV {
  vm_n : nat;
  vm_m : nat;
  vm_c : fvec;
  vm_g : fmat;
  vm_h : option (nat -> fmat);
  vm_scale : mscale;
  vm_shift : fvec
}.

(** models.py:48-87, residual [k] *)
Definition predict_vector (m : vmodel) (x : fvec) (k : nat) : R :=
  let y := fdot (vm_n m) (vm_g m k) x + vm_c m k in
  match vm_h m with
  | None => y
  | Some h => y + fdot (vm_n m) (fvm (vm_n m) x (h k)) x / 2
  end.

(** models.py:223-261 *)
Definition predict_scalar (m : smodel) (x : fvec) : R :=
  let y := fdot (sm_n m) x (sm_g m) + sm_c m in
  match sm_h m with
  | None => y
  | Some h => y + fdot (sm_n m) (fvm (sm_n m) x h) x / 2
  end.

(** np.allclose with default tolerances, on the first [n] entries. (models.py:104 and 107) *)
Definition isclose_default (a b : R) : bool :=
  Rleb (Rabs (a - b)) (/ 100000000 + / 100000 * Rabs b).
(** np.allclose: models.py:104 *)
Definition allclose (n : nat) (x y : fvec) : bool :=
  forallb (fun i => isclose_default (x i) (y i)) (seq 0 n).
(** No lines of its own: the entry of a broadcast scale, models.py:153-172 *)
Definition scale_at (s : mscale) (i : nat) : R :=
  match s with MScalar r => r | MVector v => v i end.
(** np.allclose of two scales: models.py:107 *)
Definition allclose_scale (n : nat) (a b : mscale) : bool :=
  match a, b with
  | MScalar r, MScalar s => isclose_default r s
  | _, _ => allclose n (scale_at a) (scale_at b)
  end.

(** The assertion of models.py:119. *)
Definition AssertionError : err := UserError 119.

(** models.py:90-123 for two scalar models.  Without square terms in the first model,
    [replace] keeps its [None]. *)
Definition add_models_scalar (m1 m2 : smodel) : res smodel :=
  if negb (allclose (sm_n m1) (sm_shift m1) (sm_shift m2)) then Err ValueError else
  if negb (allclose_scale (sm_n m1) (sm_scale m1) (sm_scale m2)) then Err ValueError else
  let c := sm_c m1 + sm_c m2 in
  let g := fadd (sm_g m1) (sm_g m2) in
  match sm_h m1 with
  | Some h1 =>
      match sm_h m2 with
      | None => Err AssertionError
      | Some h2 => Ok (mkS (sm_n m1) c g (Some (fun i j => h1 i j + h2 i j))
                           (sm_scale m1) (sm_shift m1))
      end
  | None => Ok (mkS (sm_n m1) c g None (sm_scale m1) (sm_shift m1))
  end.

(** models.py:90-123 for two vector models. *)
Definition add_models_vector (m1 m2 : vmodel) : res vmodel :=
  if negb (allclose (vm_n m1) (vm_shift m1) (vm_shift m2)) then Err ValueError else
  if negb (allclose_scale (vm_n m1) (vm_scale m1) (vm_scale m2)) then Err ValueError else
  let c := fadd (vm_c m1) (vm_c m2) in
  let g := fun k i => vm_g m1 k i + vm_g m2 k i in
  match vm_h m1 with
  | Some h1 =>
      match vm_h m2 with
      | None => Err AssertionError
      | Some h2 => Ok (mkV (vm_n m1) (vm_m m1) c g (Some (fun k i j => h1 k i j + h2 k i j))
                           (vm_scale m1) (vm_shift m1))
      end
  | None => Ok (mkV (vm_n m1) (vm_m m1) c g None (vm_scale m1) (vm_shift m1))
  end.

(** Arithmetic on scales (numpy broadcasting). (models.py:153-172) *)
Definition scale_mul (a b : mscale) : mscale :=
  match a, b with
  | MScalar r, MScalar s => MScalar (r * s)
  | _, _ => MVector (fun i => scale_at a i * scale_at b i)
  end.
(** 1 / scale: models.py:126-150 *)
Definition scale_inv (a : mscale) : mscale :=
  match a with MScalar r => MScalar (1 / r) | MVector v => MVector (fun i => 1 / v i) end.

(** models.py:153-172.  A vector-valued factor is broadcast along the last axis of the
    square terms, so that entry (i, j) is multiplied by factor[j] ** 2. *)
Definition scale_smodel (m : smodel) (f : mscale) : smodel :=
  mkS (sm_n m) (sm_c m)
      (fun i => sm_g m i * scale_at f i)
      (match sm_h m with
       | None => None
       | Some h => Some (fun i j => h i j * (scale_at f j) ^ 2)
       end)
      (scale_mul (sm_scale m) f) (sm_shift m).
(** models.py:153-172 for a vector model *)
Definition scale_vmodel (m : vmodel) (f : mscale) : vmodel :=
  mkV (vm_n m) (vm_m m) (vm_c m)
      (fun k i => vm_g m k i * scale_at f i)
      (match vm_h m with
       | None => None
       | Some h => Some (fun k i j => h k i j * (scale_at f j) ^ 2)
       end)
      (scale_mul (vm_scale m) f) (vm_shift m).

(** models.py:175-194; [None @ shift] raises TypeError. *)
Definition shift_smodel (m : smodel) (s : fvec) : res smodel :=
  match sm_h m with
  | None => Err TypeError
  | Some h => Ok (mkS (sm_n m) (predict_scalar m s)
                      (fadd (sm_g m) (fmv (sm_n m) h s))
                      (sm_h m) (sm_scale m) (fadd (sm_shift m) s))
  end.

(** models.py:197-220.  [new_g += ...] modifies the linear terms of the argument in place:
    the first component is the argument object after the call. *)
Definition shift_vmodel (m : vmodel) (s : fvec) : vmodel * vmodel :=
  let c := predict_vector m s in
  let g := match vm_h m with
           | None => vm_g m
           | Some h => fun k i => vm_g m k i + fvm (vm_n m) s (h k) i
           end in
  (mkV (vm_n m) (vm_m m) (vm_c m) g (vm_h m) (vm_scale m) (vm_shift m),
   mkV (vm_n m) (vm_m m) c g (vm_h m) (vm_scale m) (fadd (vm_shift m) s)).

(** models.py:126-150 with the region's effective center and radius.  The first component
    is the argument after the call: [_scale_model] builds new arrays, so the in-place
    update hits an intermediate object only. *)
Definition move_smodel (m : smodel) (center : fvec) (radius : mscale) : res smodel :=
  let out := scale_smodel m (scale_inv (sm_scale m)) in
  let* out := shift_smodel out (fsub center (sm_shift m)) in
  Ok (scale_smodel out radius).
(** models.py:126-150 for a vector model *)
Definition move_vmodel (m : vmodel) (center : fvec) (radius : mscale) : vmodel * vmodel :=
  let tmp := scale_vmodel m (scale_inv (vm_scale m)) in
  let '(tmp', out) := shift_vmodel tmp (fsub center (vm_shift m)) in
  (m, scale_vmodel out radius).

(** models.py:264-284 *)
Inductive model_type := Linear | Quadratic.
(** models.py:276-279 *)
Definition n_second_order_terms (dim : nat) : nat := (dim * (dim + 1) / 2)%nat.
(** models.py:282-284 *)
Definition n_interactions (dim : nat) : nat := (dim * (dim - 1) / 2)%nat.
(** models.py:264-273 *)
Definition n_free_params (dim : nat) (t : model_type) : nat :=
  match t with
  | Linear => (dim + 1)%nat
  | Quadratic => (dim + 1 + n_second_order_terms dim)%nat
  end.

(** aggregate_models.py:59-78; [float(intercepts)] raises unless there is exactly one
    residual, and [reshape(n_params, n_params)] is modelled for that case only. *)
Definition aggregate_identity (m : vmodel) : res smodel :=
  if (vm_m m =? 1)%nat then
    Ok (mkS (vm_n m) (vm_c m 0%nat) (vm_g m 0%nat)
            (Some (match vm_h m with None => fun _ _ => 0 | Some h => h 0%nat end))
            (vm_scale m) (vm_shift m))
  else Err TypeError.

(** aggregate_models.py:81-99; [None.sum] raises AttributeError. *)
Definition aggregate_sum (m : vmodel) : res smodel :=
  match vm_h m with
  | None => Err AttributeError
  | Some h =>
      Ok (mkS (vm_n m) (bsum (vm_m m) (vm_c m)) (fun i => bsum (vm_m m) (fun k => vm_g m k i))
              (Some (fun i j => bsum (vm_m m) (fun k => h k i j)))
              (vm_scale m) (vm_shift m))
  end.

(** aggregate_models.py:102-126 *)
Definition aggregate_least_squares_linear (m : vmodel) : smodel :=
  mkS (vm_n m) (fdot (vm_m m) (vm_c m) (vm_c m))
      (fun i => 2 * bsum (vm_m m) (fun k => vm_g m k i * vm_c m k))
      (Some (fun i j => bsum (vm_m m) (fun k => 2 * vm_g m k i * vm_g m k j)))
      (vm_scale m) (vm_shift m).

(** aggregate_models.py:129-152 *)
Definition aggregate_information_equality_linear (m : vmodel) : smodel :=
  mkS (vm_n m) (bsum (vm_m m) (vm_c m)) (fun i => bsum (vm_m m) (fun k => vm_g m k i))
      (Some (fun i j => - bsum (vm_m m) (fun k => vm_g m k i * vm_g m k j) / 2))
      (vm_scale m) (vm_shift m).
