(** The observable content of a history: the list [X] of all points and the list [E] of all
    recorded evaluations (index, value vector). *)
From Coq Require Import Reals List Arith ZArith Bool Lia.
From Verif Require Import Base XR Vec HistoryModel HistorySpec WrapModel AcceptModel.
Import ListNotations.
Open Scope nat_scope.

(** [h] was produced by API calls that respect dimension [d] and evaluation width [w] and
    that added the points [X] and the evaluations [E]. *)
Definition haslog (ft : functype) (d w : nat) (h : hist) (X : list vec)
    (E : list (nat * list xr)) : Prop :=
  d <> 0 /\ w <> 0 /\
  exists pad ops, Forall (good_op ft d w) ops /\ run (hist_init ft pad) ops = Some h /\
                  log_xs ops = X /\ log_evals ops = E.

(** Outcomes the user promises: scalars (or exceptions) for scalar criteria, vectors of
    one length for the others. *)
Definition promised (ft : functype) (w : nat) (o : outcome) : Prop :=
  match ft, o with
  | Scalar, Ret (VS _) => True
  | Scalar, Raised => True
  | Scalar, _ => False
  | _, Ret (VV l) => length l = w
  | _, _ => False
  end.

(** What has to be recorded for an outcome. *)
Definition recorded (o : outcome) : list xr :=
  match o with
  | Raised => [PInf]
  | Ret (VS NaN) => [PInf]
  | Ret (VS x) => [x]
  | Ret (VV l) => map (fun x => match x with NaN => PInf | _ => x end) l
  end.

(** A criterion with batch evaluator that keeps its promises, whatever has been evaluated
    before: one outcome of the promised kind per argument. *)
Definition good_criterion (ft : functype) (w : nat) (crit : criterion) : Prop :=
  forall h args cores, args <> [] ->
    exists outs, crit h args cores = Ok outs /\ length outs = length args /\
                 Forall (promised ft w) outs.

(** Scalar values of the evaluations of point [i] and their mean. *)
Definition fvals_of (ft : functype) (i : nat) (E : list (nat * list xr)) : list xr :=
  map (spec_fval ft) (evals_of i E).
Definition mean_of (ft : functype) (i : nat) (E : list (nat * list xr)) : xr :=
  xmean (fvals_of ft i E).

(** The new evaluations [newE] are the outcomes of one batch call of the criterion, at
    exactly the points they are recorded for (indices into the points [X]). *)
Definition genuine (crit : criterion) (X : list vec) (newE : list (nat * list xr)) : Prop :=
  exists h cores outs,
    crit h (map (fun e => nth (fst e) X []) newE) cores = Ok outs /\
    map snd newE = map recorded outs.
