(** Specification of the history by the log of API calls.  Nothing here refers to
    buffers, capacities or index maps. *)
From Coq Require Import Reals List Arith ZArith Bool.
From Verif Require Import Base XR Vec HistoryModel.
Import ListNotations.
Open Scope nat_scope.

(** API calls that change a history. *)
Inductive op :=
| OpXs (arg : xs_arg)
| OpEvals (x_indices : list Z) (evals : list val).

(** Executing a call; [None] if it raises. *)
Definition step (h : hist) (o : op) : option hist :=
  match o with
  | OpXs arg => let '(h', r) := add_xs h arg in if is_ok r then Some h' else None
  | OpEvals zs ev => let '(h', r) := add_evals h zs ev in if is_ok r then Some h' else None
  end.
Fixpoint run (h : hist) (ops : list op) : option hist :=
  match ops with
  | [] => Some h
  | o :: ops' => match step h o with Some h' => run h' ops' | None => None end
  end.

(** The parameter vectors handed over in a call. *)
Definition rows_of (arg : xs_arg) : list (list R) :=
  match arg with X1 [] => [] | X1 x => [x] | X2 xs => xs end.
Definition vec_of (v : val) : list xr := match v with VS x => [x] | VV l => l end.

(** All parameter vectors added, in order. *)
Fixpoint log_xs (ops : list op) : list (list R) :=
  match ops with
  | [] => []
  | OpXs arg :: ops' => rows_of arg ++ log_xs ops'
  | OpEvals _ _ :: ops' => log_xs ops'
  end.
(** All evaluations recorded, in order, with the index of their point. *)
Fixpoint log_evals (ops : list op) : list (nat * list xr) :=
  match ops with
  | [] => []
  | OpXs _ :: ops' => log_evals ops'
  | OpEvals zs ev :: ops' => combine (map Z.to_nat zs) (map vec_of ev) ++ log_evals ops'
  end.

(** Evaluations of point [i], in order. *)
Definition evals_of {A} (i : nat) (E : list (nat * A)) : list A :=
  map snd (filter (fun e => fst e =? i) E).

(** What the caller has to respect: parameter vectors of one positive length [d],
    evaluations of one positive length [w] (scalars, or arrays with one entry, for scalar
    functions), non-negative indices. *)
Definition good_eval (ft : functype) (w : nat) (v : val) : Prop :=
  match ft, v with
  | Scalar, VS _ => True
  | Scalar, VV l => length l = 1
  | _, VV l => length l = w
  | _, VS _ => False
  end.
Definition good_op (ft : functype) (d w : nat) (o : op) : Prop :=
  match o with
  | OpXs arg => Forall (fun r => length r = d) (rows_of arg)
  | OpEvals zs ev => Forall (fun z => (0 <= z)%Z) zs /\ Forall (good_eval ft w) ev
                     /\ (zs = [] -> ev = [])
  end.

(** Scalar value of an evaluation, by functype. *)
Definition spec_fval (ft : functype) (v : list xr) : xr :=
  match ft with
  | Scalar => nth 0 v NaN
  | Likelihood => fold_right xadd (Fin 0) v
  | LeastSquares => fold_right (fun x s => xadd (xmul x x) s) (Fin 0) v
  end.

(** The indices [add_xs] must return when [n] vectors are already stored. *)
Definition fresh_indices (n : nat) (arg : xs_arg) : idx_res :=
  match arg with
  | X1 [] => IMany []
  | X1 _ => IOne n
  | X2 xs => IMany (seq n (length xs))
  end.
