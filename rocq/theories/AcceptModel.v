(** Model of acceptance_decision.py over the history model.  No proofs. *)
From Coq Require Import Reals List Arith ZArith Bool.
From Verif Require Import Base XR Vec HistoryModel WrapModel VolumeModel RegionModel AdjustModel.
Import ListNotations.
Open Scope nat_scope.

(** * Code that reads and changes the history

    The History object is mutable; every function below gets it and returns it together
    with a result or an exception. (history.py:14-33) *)
Definition M (A : Type) := hist -> hist * res A.
(** Returning a value without touching the history: no lines of their own in the code *)
Definition mret {A} (a : A) : M A := fun h => (h, Ok a).
(** raise; the history keeps what was written before, e.g. history.py:81-85 *)
Definition mfail {A} (e : err) : M A := fun h => (h, Err e).
(** Two statements in sequence, e.g. acceptance_decision.py:266-270 *)
Definition mbind {A B} (m : M A) (f : A -> M B) : M B :=
  fun h => match m h with
           | (h', Ok a) => f a h'
           | (h', Err e) => (h', Err e)
           end.
(** A computation that does not use the history, e.g. acceptance_decision.py:418-425 *)
Definition mlift {A} (r : res A) : M A := fun h => (h, r).
(** A computation that only reads the history, e.g. history.py:176-179 *)
Definition mquery {A} (f : hist -> res A) : M A := fun h => (h, f h).
Notation "'do' x <- m ; k" := (mbind m (fun x => k))
  (at level 200, x pattern, m at level 100, k at level 200, right associativity).

(** history.add_xs with one vector; the index is used as a key of a dict afterwards, which
    raises TypeError for the empty list returned for an empty vector.
    (acceptance_decision.py:121 and 266) *)
Definition m_add_x (x : vec) : M nat := fun h =>
  match add_xs h (X1 x) with
  | (h', Ok (IOne i)) => (h', Ok i)
  | (h', Ok (IMany _)) => (h', Err TypeError)
  | (h', Err e) => (h', Err e)
  end.
(** history.add_xs with a 2d array. (acceptance_decision.py:174) *)
Definition m_add_xs (xs : list vec) : M (list nat) := fun h =>
  match add_xs h (X2 xs) with
  | (h', Ok (IMany l)) => (h', Ok l)
  | (h', Ok (IOne i)) => (h', Ok [i])
  | (h', Err e) => (h', Err e)
  end.

(** The criterion together with the batch evaluator.  It may be stochastic and stateful:
    its behaviour is an arbitrary function of everything recorded so far.
    (wrap_criterion.py:31-71) *)
Definition criterion := hist -> batch_evaluator.

(** wrapped_criterion(eval_info); see WrapModel. (wrap_criterion.py:31-71) *)
Definition m_eval (crit : criterion) (n_cores : nat) (info : list (nat * nat)) : M unit :=
  fun h =>
    let '(h', r, _) :=
      wrapped_criterion (crit h) n_cores h (map (fun p => (Z.of_nat (fst p), snd p)) info) in
    (h', r).

(** history.get_fvals(i) for one index: history.py:154-174, used in acceptance_decision.py:270 *)
Definition m_fvals (i : nat) : M (list xr) := mquery (fun h => get_fvals_one h (Z.of_nat i)).

(** * Inputs and results *)

(** The part of tranquilo.py:State that the deciders read. (tranquilo.py:398-481) *)
Record cur := mkCur {
  c_index : nat;
  c_x : vec;
  c_fval : xr;
  c_region : region
}.

(** solve_subproblem.py:SubproblemResult, the fields that are read.
    (used in acceptance_decision.py:41-90) *)
Record subsol := mkSub { sub_x : vec; sub_ei : xr }.

(** acceptance_decision.py:375-385 *)
Record acceptance := mkAcc {
  a_x : vec;
  a_fval : xr;
  a_index : nat;
  a_rho : xr;
  a_accepted : bool;
  a_step_length : R;
  a_relative_step_length : xr;
  a_candidate_index : nat;
  a_candidate_x : vec;
  a_n_evals : nat
}.

(** acceptance_decision.py:388-415 *)
Definition get_acceptance_result (candidate_x : vec) (candidate_fval : xr)
    (candidate_index : nat) (rho : xr) (is_accepted : bool) (old : cur) (n_evals : nat)
    : acceptance :=
  let x := if is_accepted then candidate_x else c_x old in
  let fval := if is_accepted then candidate_fval else c_fval old in
  let index := if is_accepted then candidate_index else c_index old in
  let step_length := dist x (c_x old) in
  mkAcc x fval index rho is_accepted step_length
        (xdiv (Fin step_length) (Fin (r_radius (c_region old))))
        candidate_index candidate_x n_evals.

(** acceptance_decision.py:418-425 *)
Definition calculate_rho (actual expected : xr) : xr :=
  if xeq expected (Fin 0) && xgt actual (Fin 0) then PInf
  else if xeq expected (Fin 0) then NInf
  else xdiv actual expected.

(** The common end of the deciders, acceptance_decision.py:281-300 (also 218-237 and
    351-370): a non-finite candidate is replaced by the old point. *)
Definition finish (candidate_x : vec) (candidate_fval : xr) (candidate_index : nat)
    (rho : xr) (is_accepted : bool) (old : cur) (n_evals : nat) : acceptance :=
  if isfinite candidate_fval
  then get_acceptance_result candidate_x candidate_fval candidate_index rho is_accepted old n_evals
  else get_acceptance_result (c_x old) (c_fval old) (c_index old) NInf false old n_evals.

Section Deciders.
Variable crit : criterion.
Variable n_cores : nat.

(** acceptance_decision.py:242-302 *)
Definition accept_simple (sub : subsol) (st : cur) (min_improvement : R) (n_evals : nat)
    : M acceptance :=
  do candidate_index <- m_add_x (sub_x sub);
  do _ <- m_eval crit n_cores [(candidate_index, n_evals)];
  do fvals <- m_fvals candidate_index;
  let candidate_fval := xmean fvals in
  let actual_improvement := xopp (xsub candidate_fval (c_fval st)) in
  let rho := calculate_rho actual_improvement (sub_ei sub) in
  let is_accepted := xge actual_improvement (Fin min_improvement) in
  mret (finish (sub_x sub) candidate_fval candidate_index rho is_accepted st n_evals).

(** acceptance_decision.py:41-70 *)
Definition accept_classic (sub : subsol) (st : cur) (min_improvement : R) : M acceptance :=
  accept_simple sub st min_improvement 1.

(** acceptance_decision.py:73-90 *)
Definition accept_naive_noisy (sub : subsol) (st : cur) (min_improvement : R) : M acceptance :=
  accept_simple sub st min_improvement 10.

(** np.sqrt (acceptance_decision.py:323) *)
Definition xsqrt (x : xr) : xr :=
  match x with
  | Fin r => if Rleb 0 r then Fin (sqrt r) else NaN
  | PInf => PInf
  | NInf | NaN => NaN
  end.

(** acceptance_decision.py:305-372.  [zsum] is the sum of the two normal quantiles computed
    in acceptance_sample_size.py from power_level and confidence_level. *)
Definition accept_noisy (sub : subsol) (st : cur) (noise_variance : xr)
    (min_improvement : R) (zsum : R) (n_min n_max : Z) : M acceptance :=
  do candidate_index <- m_add_x (sub_x sub);
  do existing <- m_fvals (c_index st);
  do sizes <- mlift (get_acceptance_sample_sizes (xsqrt noise_variance)
                       (Z.of_nat (length existing)) (sub_ei sub) (Fin zsum) n_min n_max);
  let n_1 := Z.to_nat (fst sizes) in
  let n_2 := Z.to_nat (snd sizes) in
  do _ <- m_eval crit n_cores [(c_index st, n_1); (candidate_index, n_2)];
  do cur_fvals <- m_fvals (c_index st);
  do cand_fvals <- m_fvals candidate_index;
  let current_fval := xmean cur_fvals in
  let candidate_fval := xmean cand_fvals in
  let actual_improvement := xopp (xsub candidate_fval current_fval) in
  let rho := calculate_rho actual_improvement (sub_ei sub) in
  let is_accepted := xge actual_improvement (Fin min_improvement) in
  mret (finish (sub_x sub) candidate_fval candidate_index rho is_accepted st n_2).

(** acceptance_decision.py:530-532 *)
Definition generate_alpha_grid (batch_size : nat) : list R :=
  map (fun k => (2 ^ k)%R) (seq 1 (Nat.min batch_size 4 - 1)).

(** acceptance_decision.py:481-496 *)
Definition sample_on_line (start_point direction_point : vec) (alpha_grid : list R)
    : list vec :=
  map (fun a => map2 (fun s d => (s + a * (d - s))%R) start_point direction_point) alpha_grid.

(** np.isclose(a, b, rtol) with the default atol = 1e-8
    (acceptance_decision.py:520 and 525-526) *)
Definition isclose (rtol : R) (a b : R) : bool :=
  Rleb (Rabs (a - b)) (/ 100000000 + rtol * Rabs b).

(** acceptance_decision.py:499-527 *)
Definition is_on_border (reg : region) (x : vec) (rtol : R) : bool :=
  match r_shape reg with
  | Sphere => isclose rtol (dist x (r_center reg)) (r_radius reg)
  | Cube => existsb (fun b => b) (map2 (isclose rtol) x (r_cube_lower reg))
            || existsb (fun b => b) (map2 (isclose rtol) x (r_cube_upper reg))
  end.

(** The sampler (sample_points.py) with its random state: an arbitrary function.
    (sample_points.py:13-55) *)
Definition sampler := hist -> region -> nat -> list vec -> res (list vec).

(** acceptance_decision.py:433-478 *)
Definition generate_speculative_sample (sample : sampler) (new_center : vec) (reg : region)
    (n_points : nat) (line_search_xs : option (list vec)) (radius_factor : R)
    : M (list vec) :=
  do search_region <- mlift (replace_center_radius reg new_center (radius_factor * r_radius reg)%R);
  do old_indices <- mquery (fun h => get_x_indices_in_region h (r_center search_region)
                                                              (r_radius search_region));
  do old_xs <- mquery (fun h => get_xs_many h (map Z.of_nat old_indices));
  let model_xs := match line_search_xs with
                  | Some l => old_xs ++ l
                  | None => old_xs
                  end in
  mquery (fun h => sample h search_region n_points model_xs).

(** pd.Series.idxmin: label of the first smallest entry, skipping NaN.  Which exception is
    raised if there is none depends on the pandas version; ValueError here.
    (acceptance_decision.py:197-198) *)
Fixpoint idxmin_from (best : option (nat * xr)) (l : list (nat * xr)) : option (nat * xr) :=
  match l with
  | [] => best
  | (i, v) :: l' =>
      idxmin_from (match v with
                   | NaN => best
                   | _ => match best with
                          | None => Some (i, v)
                          | Some (_, b) => if xlt v b then Some (i, v) else best
                          end
                   end) l'
  end.
(** pd.Series.idxmin: acceptance_decision.py:198 *)
Definition idxmin (l : list (nat * xr)) : res (nat * xr) :=
  match idxmin_from None l with Some p => Ok p | None => Err ValueError end.

(** acceptance_decision.py:162-169 - the points to be added; [new_xs] is unbound if there
    is neither a line search nor a speculative sample. *)
Definition consolidate (ls spec : option (list vec)) : res (list vec) :=
  match ls, spec with
  | Some l, Some s => Ok (l ++ s)
  | Some l, None => Ok l
  | None, Some s => Ok s
  | None, None => Err UnboundLocalError
  end.

(** acceptance_decision.py:93-239 *)
Definition accept_classic_line_search (sample : sampler) (sub : subsol) (st : cur)
    (radius_factor : R) (min_improvement : R) (batch_size : nat) : M acceptance :=
  if batch_size =? 1 then accept_classic sub st min_improvement else
  let candidate_x := sub_x sub in
  do candidate_index <- m_add_x candidate_x;
  let line_search_xs :=
    if is_on_border (c_region st) candidate_x (/ 10)
    then Some (sample_on_line (c_x st) candidate_x (generate_alpha_grid batch_size))
    else None in
  let n_line := match line_search_xs with None => 0 | Some l => length l end in
  let n_unallocated := (Z.of_nat batch_size - 1 - Z.of_nat n_line)%Z in
  do speculative_xs <-
    (if (0 <? n_unallocated)%Z
     then do s <- generate_speculative_sample sample candidate_x (c_region st)
                    (Z.to_nat n_unallocated) line_search_xs radius_factor;
          mret (Some s)
     else mret None);
  do new_xs <- mlift (consolidate line_search_xs speculative_xs);
  do new_indices <- m_add_xs new_xs;
  do _ <- m_eval crit n_cores ((candidate_index, 1) :: map (fun i => (i, 1)) new_indices);
  do cand_fvals <- m_fvals candidate_index;
  let candidate_fval := xmean cand_fvals in
  let actual_improvement := xopp (xsub candidate_fval (c_fval st)) in
  let rho := calculate_rho actual_improvement (sub_ei sub) in
  do new_fvals <- mquery (fun h => get_fvals_many h (map Z.of_nat new_indices));
  do best <- mlift (idxmin (map (fun kv => (fst kv, xmean (snd kv))) new_fvals));
  let '(best_index, best_fval) := best in
  do chosen <-
    (if xlt best_fval candidate_fval
     then do best_x <- mquery (fun h => get_xs_one h (Z.of_nat best_index));
          mret (best_x, best_fval, best_index)
     else mret (candidate_x, candidate_fval, candidate_index));
  let '(cx, cf, ci) := chosen in
  let overall_improvement := xopp (xsub cf (c_fval st)) in
  let is_accepted := xge overall_improvement (Fin min_improvement) in
  mret (finish cx cf ci rho is_accepted st 1).

End Deciders.

(** * The built-in deciders, acceptance_decision.py:16-38

    with the options they read: speculative sampling (sampler, radius factor) and batch
    size for the line search; the noise variance estimate, quantile sum and sample size
    limits for the noisy decider. *)
Inductive decider :=
| Classic
| NaiveNoisy
| LineSearch (sample : sampler) (radius_factor : R) (batch_size : nat)
| Noisy (noise_variance : xr) (zsum : R) (n_min n_max : Z).

(** The choice among the built-in deciders: acceptance_decision.py:19-38 *)
Definition run_decider (crit : criterion) (n_cores : nat) (D : decider) (sub : subsol)
    (st : cur) (min_improvement : R) : M acceptance :=
  match D with
  | Classic => accept_classic crit n_cores sub st min_improvement
  | NaiveNoisy => accept_naive_noisy crit n_cores sub st min_improvement
  | LineSearch sample rf bs =>
      accept_classic_line_search crit n_cores sample sub st rf min_improvement bs
  | Noisy var z n_min n_max =>
      accept_noisy crit n_cores sub st var min_improvement z n_min n_max
  end.
