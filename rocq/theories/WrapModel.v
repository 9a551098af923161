(** Model of /repo/src/tranquilo/wrap_criterion.py (the wrapped criterion).  No proofs. *)
From Coq Require Import Reals List Arith ZArith Bool.
From Verif Require Import Base XR Vec HistoryModel.
Import ListNotations.
Open Scope nat_scope.

(** What the batch evaluator reports for one argument: the returned value, or a traceback
    string if the criterion raised (error_handling="continue"). (wrap_criterion.py:48-59) *)
Inductive outcome := Ret (v : val) | Raised.

(** wrap_criterion.py:57-59 *)
Definition replace_traceback (o : outcome) : val :=
  match o with Ret v => v | Raised => VS PInf end.

(** wrap_criterion.py:63-66 - np.nan_to_num(x, nan=inf, posinf=inf, neginf=-inf). *)
Definition nan_to_inf (x : xr) : xr := match x with NaN => PInf | _ => x end.
(** wrap_criterion.py:63-66 *)
Definition clip_val (v : val) : val :=
  match v with VS x => VS (nan_to_inf x) | VV l => VV (map nan_to_inf l) end.

(** The batch evaluator (estimagic's joblib evaluator or a user function) is arbitrary:
    given the list of arguments and the number of cores it returns one outcome per
    argument, or raises. (wrap_criterion.py:76-95) *)
Definition batch_evaluator := list (list R) -> nat -> res (list outcome).

(** wrap_criterion.py:31-71.  [eval_info] is the dict as a list of items (the isinstance
    check of line 32 is not modelled).  The third component of the result lists the calls
    of the batch evaluator. *)
Definition wrapped_criterion (batch : batch_evaluator) (n_cores : nat) (h : hist)
    (eval_info : list (Z * nat))
    : hist * res unit * list (list (list R) * nat) :=
  match eval_info with
  | [] => (h, Ok tt, [])
  | _ =>
      let x_indices := map fst eval_info in
      let repetitions := map snd eval_info in
      match (let* xs := get_xs_many h x_indices in np_repeat xs repetitions) with
      | Err e => (h, Err e, [])
      | Ok arguments =>
          let cores := Nat.min n_cores (length arguments) in
          let calls := [(arguments, cores)] in
          match batch arguments cores with
          | Err e => (h, Err e, calls)
          | Ok raw_evals =>
              let clipped := map (fun o => clip_val (replace_traceback o)) raw_evals in
              match np_repeat x_indices repetitions with
              | Err e => (h, Err e, calls)
              | Ok zs => let '(h', r) := add_evals h zs clipped in (h', r, calls)
              end
          end
      end
  end.
