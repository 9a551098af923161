(** Model of /repo/src/tranquilo/poisedness.py (feature construction and evaluation of the
    polynomials are in FitModel.v).  No proofs here. *)
From Coq Require Import Reals List Arith ZArith Bool.
From Verif Require Import Base XR Vec FVec FitModel SubproblemModel.
Import ListNotations.
Open Scope nat_scope.

(** The argument [shape], any string (poisedness.py:188-203) *)
Inductive pshape := PSphere | PCube | POther.

(** np.linalg.pinv of a square matrix: an external function, hence a parameter.
    (poisedness.py:135) *)
Definition pinv_oracle := nat -> (nat -> nat -> R) -> (nat -> nat -> R).
(** scipy.optimize.minimize with method trust-constr, poisedness.py:69: the constraint set, the
    criterion and the start; the returned point.  An external function, hence a parameter. *)
Definition constrained_minimizer := pshape -> (vec -> R) -> vec -> res vec.

(** basis_mat, poisedness.py:133: row [i] are the features of point [i]. *)
Definition basis_mat (n : nat) (sample : list vec) : nat -> nat -> R :=
  fun i k => nth k (scaled_polynomial_features n (fun_of (nth i sample []))) 0%R.
(** basis_mat.shape[1] (poisedness.py:121-136) *)
Definition n_basis (n : nat) : nat := length (scaled_polynomial_features n (fun _ => 0%R)).

(** poisedness.py:121-136, row [i] of the result *)
Definition lagrange_poly (pinv : pinv_oracle) (n : nat) (sample : list vec) (i : nat) : list R :=
  let p := n_basis n in
  let B := basis_mat n sample in
  let P := pinv p (fun a b => bsum (length sample) (fun r => (B r a * B r b)%R)) in
  map (fun b => bsum p (fun a => (B i a * P a b)%R)) (seq 0 p).

(** poisedness.py:207-212 *)
Definition eval_absolute_value (n : nat) (poly : list R) (x : vec) : R :=
  Rabs (poly_value n poly (fun_of x)).
(** poisedness.py:174-185 *)
Definition eval_neg_absolute_value (n : nat) (poly : list R) (x : vec) : R :=
  (- eval_absolute_value n poly x)%R.

(** The loop of poisedness.py:56-78 from index [idx] on; [argmax] is unbound before the first
    assignment.  The first polynomial whose maximum is largest wins. *)
Fixpoint poisedness_loop (minimize : constrained_minimizer) (n : nat) (sh : pshape)
    (polys : list (list R)) (idx : nat) (best : R * option (vec * nat))
    : res (R * option (vec * nat)) :=
  match polys with
  | [] => Ok best
  | poly :: polys =>
      let* x := minimize sh (eval_neg_absolute_value n poly) (repeat 0%R n) in
      let critval := eval_absolute_value n poly x in
      let best := if Rltb (fst best) critval then (critval, Some (x, idx)) else best in
      poisedness_loop minimize n sh polys (S idx) best
  end.

(** poisedness.py:7-80; [n] is sample.shape[1].  Reading [argmax] while it is unbound raises.  The result: lambda, argmax, idx_max. *)
Definition get_poisedness_constant (pinv : pinv_oracle) (minimize : constrained_minimizer)
    (n : nat) (sample : list vec) (sh : pshape) : res (R * vec * nat) :=
  let* _ := match sh with POther => Err ValueError | _ => Ok tt end in
  let polys := map (lagrange_poly pinv n sample) (seq 0 (length sample)) in
  let* best := poisedness_loop minimize n sh polys 0 (0%R, None) in
  match snd best with
  | None => Err UnboundLocalError
  | Some (argmax, idx) => Ok (fst best, argmax, idx)
  end.

(** [sample[idx] = x] (poisedness.py:116) *)
Fixpoint set_point (sample : list vec) (idx : nat) (x : vec) : list vec :=
  match sample, idx with
  | [], _ => []
  | _ :: l, O => x :: l
  | y :: l, S k => y :: set_point l k x
  end.

(** poisedness.py:83-118 *)
Fixpoint improve_poisedness (pinv : pinv_oracle) (minimize : constrained_minimizer)
    (n : nat) (sample : list vec) (sh : pshape) (maxiter : nat) : res (list vec * list R) :=
  match maxiter with
  | O => Ok (sample, [])
  | S k =>
      let* (la, idx) := get_poisedness_constant pinv minimize n sample sh in
      let* (s, lambdas) := improve_poisedness pinv minimize n (set_point sample idx (snd la)) sh k in
      Ok (s, fst la :: lambdas)
  end.
