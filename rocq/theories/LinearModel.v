(** Model of src/tranquilo/subsolvers/linear_subsolvers.py.

    Vectors are functions on indices below [n]; bounds are [option R], [None] being -inf for
    a lower and +inf for an upper bound.  Entries are finite, rounding is not modelled.  The
    iterator over the active directions is the list of the indices not yet consumed. *)
From Coq Require Import Reals List Arith.
From Verif Require Import Base XR FVec.
Import ListNotations.
Open Scope R_scope.

(** lower_bounds and upper_bounds with infinite entries as None: linear_subsolvers.py:12-47 *)
Definition fbounds := nat -> option R.

(** linear_subsolvers.py:289-336 *)
Definition distance_to_boundary (n : nat) (x d : fvec) (r zt : R) : R :=
  let gx := fdot n d x in
  let gg := fsq n d in
  let xx := fsq n x in
  if Rltb (sqrt gg) zt then 0
  else (sqrt (Rmax 0 (gx * gx + gg * (r * r - xx))) - gx) / gg.

(** linear_subsolvers.py:265-286 *)
Definition unconstrained_step (n : nat) (x d : fvec) (r zt : R) : fvec :=
  fadd x (fscale (distance_to_boundary n x d r zt) d).

(** linear_subsolvers.py:215, 219: comparisons with a possibly infinite bound *)
Definition at_upper (u : option R) (x : R) : bool :=
  match u with Some u => Rleb u x | None => false end.
(** An active lower bound: linear_subsolvers.py:181-230 *)
Definition at_lower (l : option R) (x : R) : bool :=
  match l with Some l => Rleb x l | None => false end.

(** linear_subsolvers.py:214-228: the [while True] loop, entered with the index [i]. *)
Fixpoint scan_bounds (xu : fvec) (lo up : fbounds) (i : nat) (it : list nat)
    : option R * nat * list nat :=
  if at_upper (up i) (xu i) then (up i, i, it)
  else if at_lower (lo i) (xu i) then (lo i, i, it)
  else match it with
       | [] => (None, i, [])
       | j :: it' => scan_bounds xu lo up j it'
       end.

(** linear_subsolvers.py:181-230: the first [next] is outside of the [try]. *)
Definition find_next_active_bound (xu : fvec) (lo up : fbounds) (it : list nat)
    : res (option R * nat * list nat) :=
  match it with
  | [] => Err StopIteration
  | i :: it' => Ok (scan_bounds xu lo up i it')
  end.

(** v[i] = a (linear_subsolvers.py:257 and 260) *)
Definition fupd (v : fvec) (i : nat) (a : R) : fvec := fun k => if Nat.eqb k i then a else v k.

(** linear_subsolvers.py:233-262: division by a zero entry of the direction does not occur,
    as the iterator yields indices of non-zero entries only, each at most once. *)
Definition constrained_step (x d : fvec) (bound : R) (i : nat) : fvec * fvec :=
  (fupd (fadd x (fscale ((bound - x i) / d i) d)) i bound, fupd d i 0).

(** linear_subsolvers.py:63-90: [k] passes are left. *)
Fixpoint linear_loop (n : nat) (lo up : fbounds) (r zt : R) (k : nat) (x d : fvec)
    (it : list nat) : res fvec :=
  match k with
  | O => Ok x
  | S k =>
      if Rltb (fnorm n d) zt then Ok x
      else
        let xu := unconstrained_step n x d r zt in
        let* (bound, i, it') := find_next_active_bound xu lo up it in
        match bound with
        | None => Ok xu
        | Some bound =>
            let '(x', d') := constrained_step x d bound i in
            linear_loop n lo up r zt k x' d' it'
        end
  end.

(** linear_subsolvers.py:48-49 *)
Definition internal_lower (zt : R) (lo : fbounds) : fbounds :=
  fun i => match lo i with Some l => Some (Rmin l (- zt)) | None => None end.
(** linear_subsolvers.py:49 *)
Definition internal_upper (zt : R) (up : fbounds) : fbounds :=
  fun i => match up i with Some u => Some (Rmax u zt) | None => None end.

(** linear_subsolvers.py:55-58 *)
Definition start_direction (zt : R) (g : fvec) : fvec :=
  fun i => if Rltb (Rabs (- g i)) zt then 0 else - g i.

(** linear_subsolvers.py:60 *)
Definition active_directions (n : nat) (zt : R) (g : fvec) : list nat :=
  filter (fun i => negb (Rltb (Rabs (- g i)) zt)) (seq 0 n).

(** linear_subsolvers.py:12-90 *)
Definition minimize_trsbox_linear (n : nat) (g : fvec) (lo up : fbounds) (r zt : R) : res fvec :=
  linear_loop n (internal_lower zt lo) (internal_upper zt up) r zt n fzero
    (start_direction zt g) (active_directions n zt g).

(** lower_bounds - x_center (linear_subsolvers.py:156-157) *)
Definition shift_bounds (b : fbounds) (c : fvec) : fbounds :=
  fun i => match b i with Some v => Some (v - c i) | None => None end.

(** linear_subsolvers.py:93-178 *)
Definition improve_geometry_trsbox_linear (n : nat) (c : fvec) (intercept : R) (g : fvec)
    (lo up : fbounds) (r zt : R) : res fvec :=
  if existsb (fun i => match lo i with Some l => Rltb (c i + zt) l | None => false end) (seq 0 n)
  then Err ValueError
  else if existsb (fun i => match up i with Some u => Rltb u (c i - zt) | None => false end) (seq 0 n)
  then Err ValueError
  else
    let lo' := shift_bounds lo c in
    let up' := shift_bounds up c in
    let* x_min := minimize_trsbox_linear n g lo' up' r zt in
    let* x_max := minimize_trsbox_linear n (fopp g) lo' up' r zt in
    let lagrange x := Rabs (intercept + fdot n g x) in
    if Rleb (lagrange x_max) (lagrange x_min) then Ok (fadd x_min c) else Ok (fadd x_max c).
