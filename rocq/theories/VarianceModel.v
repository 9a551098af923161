(** Model of /repo/src/tranquilo/estimate_variance.py.  No proofs here. *)
From Coq Require Import Reals List Arith ZArith Bool.
From Verif Require Import Base XR Vec HistoryModel.
Import ListNotations.
Open Scope nat_scope.

(** np.var(sample, ddof=1): numpy divides by max(n - 1, 0); 0 / 0 is NaN.
    (estimate_variance.py:52) *)
Definition np_var (l : list xr) : xr :=
  let m := xmean l in
  xdiv (xsum (map (fun x => xsquare (xsub x m)) l)) (Fin (INR (length l - 1))).

(** Entry (a, b) of np.cov(sample, rowvar=False, ddof=1), where the sample has one row per
    evaluation: the cross products are multiplied by 1 / max(n - 1, 0).
    Up to numpy 2.1 ([legacy]) an array with a single row is not transposed: the row is taken
    as the sample of one variable, the result is a number, and [out += weight * number] adds
    it to every entry. (estimate_variance.py:59) *)
Definition cov_entry (legacy : bool) (rows : list (list xr)) (a b : nat) : xr :=
  let factor n := xdiv (Fin 1) (Fin (INR (n - 1))) in
  let cov l k := let ml := xmean l in let mk := xmean k in
    xmul (xsum (map (fun xy => xmul (xsub (fst xy) ml) (xsub (snd xy) mk)) (combine l k)))
         (factor (length l)) in
  match rows with
  | [row] => if legacy then cov row row else cov (col rows a) (col rows b)
  | _ => cov (col rows a) (col rows b)
  end.

(** estimate_variance.py:34-46: indices, numbers of evaluations, cutoff, valid indices and
    weights.  max of an empty collection raises ValueError; the weights are an array of
    integers divided by their sum. *)
Definition select_and_weigh (h : hist) (center : list R) (radius max_distance_factor : R)
    (min_n_evals : Z) : res (list nat * list xr) :=
  let* all_indices := get_x_indices_in_region h center (radius * max_distance_factor)%R in
  let* n_evals := mapM (fun i => let* v := get_fvals_one h (Z.of_nat i) in Ok (i, length v)) all_indices in
  match n_evals with
  | [] => Err ValueError
  | _ =>
      let cutoff := Z.min (Z.of_nat (fold_right Nat.max 0 (map snd n_evals))) min_n_evals in
      let valid := map fst (filter (fun kn => cutoff <=? Z.of_nat (snd kn))%Z n_evals) in
      let weights := map snd (filter (fun kn => existsb (Nat.eqb (fst kn)) valid) n_evals) in
      let total := fold_right Nat.add 0 weights in
      Ok (valid, map (fun n => xdiv (Fin (INR n)) (Fin (INR total))) weights)
  end.

(** estimate_variance.py:48-52, model_type "scalar" *)
Definition estimate_variance (h : hist) (center : list R) (radius max_distance_factor : R)
    (min_n_evals : Z) : res xr :=
  let* (valid, weights) := select_and_weigh h center radius max_distance_factor min_n_evals in
  let* samples := get_fvals_many h (map Z.of_nat valid) in
  Ok (xsum (map (fun ws => xmul (fst ws) (np_var (snd ws))) (combine weights (map snd samples)))).

(** estimate_variance.py:53-59, any other model_type *)
Definition estimate_covariance (legacy : bool) (h : hist) (center : list R)
    (radius max_distance_factor : R) (min_n_evals : Z) : res (list (list xr)) :=
  let* (valid, weights) := select_and_weigh h center radius max_distance_factor min_n_evals in
  let* samples := get_fvecs_many h (map Z.of_nat valid) in
  let dim := fvecs_width h in
  Ok (map (fun a => map (fun b =>
        xsum (map (fun ws => xmul (fst ws) (cov_entry legacy (snd ws) a b))
                  (combine weights (map snd samples)))) (seq 0 dim)) (seq 0 dim)).
