(** The acceptance decision in binary64 arithmetic: acceptance_decision.py with every operation
    rounded.  Only the numbers are modelled (values, rho, decision); the points and the history
    are those of [AcceptModel].  No proofs. *)
From Coq Require Import Reals List ZArith Bool.
From Verif Require Import Base XR FloatModel.
Import ListNotations.
Open Scope R_scope.

(** np.mean of a one-dimensional array: the sum, added in the order of the tree [t], divided by
    the number of entries. (acceptance_decision.py:270) *)
Definition f_mean (t : sum_tree) (vals : list xr) : xr := fdiv (f_sum t vals) (Fin (INR (length vals))).

(** acceptance_decision.py:418-425 *)
Definition f_calculate_rho (actual expected : xr) : xr :=
  if xeq expected (Fin 0) && xgt actual (Fin 0) then PInf
  else if xeq expected (Fin 0) then NInf
  else fdiv actual expected.

(** What the decision leaves in the state. (acceptance_decision.py:375-385) *)
Record fdecision := mkFDecision { fd_accepted : bool; fd_rho : xr; fd_fval : xr }.

(** acceptance_decision.py:269-300, also 340-370: [candidate_fval] and [current_fval] are compared,
    [old_fval] is state.fval. *)
Definition f_decide (candidate_fval current_fval old_fval expected : xr) (min_improvement : R) : fdecision :=
  let actual_improvement := xopp (fsub candidate_fval current_fval) in
  let rho := f_calculate_rho actual_improvement expected in
  let is_accepted := xge actual_improvement (Fin min_improvement) in
  if isfinite candidate_fval
  then mkFDecision is_accepted rho (if is_accepted then candidate_fval else old_fval)
  else mkFDecision false NInf old_fval.

(** acceptance_decision.py:240-302: [vals] are the values at the candidate. *)
Definition f_accept_simple (t : sum_tree) (vals : list xr) (old_fval expected : xr) (min_improvement : R) : fdecision :=
  f_decide (f_mean t vals) old_fval old_fval expected min_improvement.

(** acceptance_decision.py:305-372 after the evaluations: [cur_vals] are all values at the current
    point. *)
Definition f_accept_noisy (t_cur t_cand : sum_tree) (cur_vals cand_vals : list xr) (old_fval expected : xr)
    (min_improvement : R) : fdecision :=
  f_decide (f_mean t_cand cand_vals) (f_mean t_cur cur_vals) old_fval expected min_improvement.
