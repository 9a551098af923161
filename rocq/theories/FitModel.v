(** Model of fit_models.py, of the feature construction in poisedness.py and of
    handle_infinity.py.  No proofs. *)
From Coq Require Import Reals List Arith ZArith Bool.
From Verif Require Import Base XR Vec FVec ModelsModel.
Import ListNotations.
Open Scope R_scope.

(** * Features *)

(** The double loop [for i in range(n): for j in range(i, n)] of fit_models.py:489-494. *)
Definition quad_pairs (n : nat) : list (nat * nat) :=
  flat_map (fun i => map (fun j => (i, j)) (seq i (n - i))) (seq 0 n).

(** fit_models.py:481-496, one sample (one row of the result) *)
Definition quadratic_features (n : nat) (x : fvec) : list R :=
  map x (seq 0 n) ++ map (fun p => x (fst p) * x (snd p)) (quad_pairs n).

(** fit_models.py:464-468, one row *)
Definition feature_row (n : nat) (t : model_type) (x : fvec) : list R :=
  1 :: match t with Linear => map x (seq 0 n) | Quadratic => quadratic_features n x end.

(** Entry (i, j) of the feature matrix of the sample [X]. (fit_models.py:464-468) *)
Definition feature_matrix (n : nat) (t : model_type) (X : nat -> fvec) : fmat :=
  fun i j => nth j (feature_row n t (X i)) 0.
(** features.shape[1] (fit_models.py:266) *)
Definition n_features (n : nat) (t : model_type) : nat := length (feature_row n t (fun _ => 0)).

(** * From coefficients to a model *)

(** np.triu_indices(n): the upper triangle in row-major order. (fit_models.py:472) *)
Definition triu_indices (n : nat) : list (nat * nat) :=
  filter (fun p => (fst p <=? snd p)%nat) (list_prod (seq 0 n) (seq 0 n)).

(** Assignment of one matrix entry. (fit_models.py:474) *)
Definition assign (h : fmat) (p : nat * nat) (v : R) : fmat :=
  fun i j => if ((i =? fst p) && (j =? snd p))%nat then v else h i j.
(** [h[idx1, idx2] = values]: entry by entry. (fit_models.py:474) *)
Definition assign_all (h : fmat) (ps : list (nat * nat)) (vs : list R) : fmat :=
  fold_left (fun h pv => assign h (fst pv) (snd pv)) (combine ps vs) h.

(** fit_models.py:471-477, one residual.  A sequence of another length than the index
    arrays is broadcast when it has one element and raises ValueError otherwise. *)
Definition reshape_square_terms_to_hess (n : nat) (square_terms : list R) : res fmat :=
  let idx := triu_indices n in
  let* vs := if (length square_terms =? length idx)%nat then Ok square_terms
             else match square_terms with
                  | [v] => Ok (repeat v (length idx))
                  | _ => Err ValueError
                  end in
  let u := assign_all (fun _ _ => 0) idx vs in
  Ok (fun i j => u i j + (if (j <=? i)%nat then u j i else 0)).

(** fit_models.py:118-142 after the fit, residual by residual: [coef k] are the
    coefficients of residual [k].  All residuals have the same number of coefficients, so
    the shape error is that of the first residual. *)
Definition build_vmodel (n m : nat) (t : model_type) (coef : nat -> list R)
    (center : fvec) (radius : mscale) : res vmodel :=
  let intercepts := fun k => nth 0 (coef k) 0 in
  let linear := fun k i => nth (1 + i) (coef k) 0 in
  let square := fun k => skipn (n + 1) (coef k) in
  match t with
  | Linear => Ok (mkV n m intercepts linear None radius center)
  | Quadratic =>
      let* _ := reshape_square_terms_to_hess n (square 0%nat) in
      Ok (mkV n m intercepts linear
            (Some (fun k => match reshape_square_terms_to_hess n (square k) with
                            | Ok h => h | Err _ => fun _ _ => 0 end))
            radius center)
  end.

(** fit_models.py:85-149.  [fitter] is the raw fitter with its options; it receives the
    sample in unit coordinates and the clipped values (sample by residual), and gives for
    each residual its coefficients.  [clip] is the infinity handler. *)
Definition fitter_template
    (clip : list (list xr) -> list (list xr))
    (fitter : list fvec -> list (list xr) -> res (nat -> list R))
    (n m : nat) (t : model_type) (residualize : bool)
    (center : fvec) (radius : mscale) (old : vmodel)
    (xs : list fvec) (ys : list (list xr)) : res vmodel :=
  let y_clipped := clip ys in
  let x_unit := map (fun x i => (x i - center i) / scale_at radius i) xs in
  if residualize then
    let '(_, old_moved) := move_vmodel old center radius in
    let y_res := map2 (fun x y => map2 xsub y (map (fun k => Fin (predict_vector old_moved x k))
                                                   (seq 0 m))) x_unit y_clipped in
    let* coef := fitter x_unit y_res in
    let* results := build_vmodel n m t coef center radius in
    add_models_vector results old_moved
  else
    let* coef := fitter x_unit y_clipped in
    build_vmodel n m t coef center radius.

(** * Regressions *)

(** np.linalg.lstsq for one right hand side: rows, columns, matrix, right hand side.
    (fit_models.py:187, 291, 418 and 426) *)
Definition lstsq_oracle := nat -> nat -> fmat -> fvec -> fvec.

(** fit_models.py:499-507: (features, y) for one residual *)
Definition add_weighting (F : fmat) (y : fvec) (w : option fvec) : fmat * fvec :=
  match w with
  | None => (F, y)
  | Some w => (fun i j => F i j * sqrt (w i), fun i => y i * sqrt (w i))
  end.

(** fit_models.py:152-190; [N] samples of dimension [n] *)
Definition fit_ols (lstsq : lstsq_oracle) (N n : nat) (t : model_type)
    (X : nat -> fvec) (y : fvec) (w : option fvec) : fvec :=
  let '(Fw, yw) := add_weighting (feature_matrix n t X) y w in
  lstsq N (n_features n t) Fw yw.

(** fit_models.py:216-223, the array of scaling factors *)
Definition penalty_factors (n p : nat) (p_intercept p_linear p_square : R) : list R :=
  [1 / p_intercept] ++ repeat (1 / p_linear) n ++ repeat (1 / p_square) (p - 1 - n).

(** fit_models.py:193-228 *)
Definition fit_tranquilo (lstsq : lstsq_oracle) (N n : nat) (t : model_type)
    (X : nat -> fvec) (y : fvec) (w : option fvec) (p_intercept p_linear p_square : R) : fvec :=
  let '(Fw, yw) := add_weighting (feature_matrix n t X) y w in
  let p := n_features n t in
  let factor := penalty_factors n p p_intercept p_linear p_square in
  let coef_raw := lstsq N p (fun i j => Fw i j * nth j factor 0) yw in
  fun j => coef_raw j * nth j factor 0.

(** fit_models.py:262-268 *)
Definition ridge_penalty (n p : nat) (l2_linear l2_square : R) : fvec :=
  fun j => if (j <? 1)%nat then 0 else if (j <? n + 1)%nat then l2_linear else l2_square.

(** fit_models.py:231-294 *)
Definition fit_ridge (lstsq : lstsq_oracle) (N n : nat) (t : model_type)
    (X : nat -> fvec) (y : fvec) (w : option fvec) (l2_linear l2_square : R) : fvec :=
  let '(Fw, yw) := add_weighting (feature_matrix n t X) y w in
  let p := n_features n t in
  let pen := ridge_penalty n p l2_linear l2_square in
  lstsq p p
    (fun j k => bsum N (fun i => Fw i j * Fw i k) + (if (j =? k)%nat then pen j else 0))
    (fun j => bsum N (fun i => Fw i j * yw i)).

(** scipy.linalg.qr: the factor Q of a square matrix.
    (scipy.linalg.qr_multiply: fit_models.py:446-454) *)
Definition qr_oracle := nat -> fmat -> fmat.

(** fit_models.py:438-456, the blocks of the feature matrix: intercept and linear terms, square
    terms, and the first one padded with zero columns. *)
Definition m_mat (n : nat) (X : nat -> fvec) : fmat := feature_matrix n Quadratic X.
(** The columns of the square terms: fit_models.py:441 *)
Definition n_mat (n : nat) (X : nat -> fvec) : fmat :=
  fun i a => feature_matrix n Quadratic X i (n + 1 + a).
(** fit_models.py:443-444 *)
Definition m_mat_pad (n : nat) (X : nat -> fvec) : fmat :=
  fun i j => if (j <? n + 1)%nat then m_mat n X i j else 0.

(** fit_models.py:438-461: n_z_mat and z_mat.  qr_multiply(a, c) is c @ Q; both calls factorize
    the same matrix, so that Q is the same. *)
Definition n_z_mat (Q : fmat) (N n : nat) (X : nat -> fvec) : fmat :=
  fun a j => bsum N (fun i => n_mat n X i a * Q i (n + 1 + j)%nat).
(** fit_models.py:451-454 and 459 *)
Definition z_mat (Q : fmat) (n : nat) : fmat := fun i j => Q i (n + 1 + j)%nat.

(** fit_models.py:399-435 for one residual: linear and square coefficients. *)
Definition frobenius_coefs (qr : qr_oracle) (lstsq : lstsq_oracle) (N n : nat)
    (X : nat -> fvec) (y : fvec) : fvec * fvec :=
  let p := n_second_order_terms n in
  let k := (N - (n + 1))%nat in
  let Q := qr N (m_mat_pad n X) in
  let n_z := n_z_mat Q N n X in
  let n_z_mat_square := fun i j => bsum p (fun a => n_z a i * n_z a j) in
  let z_y_vec := fun j => bsum N (fun i => z_mat Q n i j * y i) in
  let coeffs_first_stage := lstsq k k n_z_mat_square z_y_vec in
  let coeffs_second_stage := fun a => bsum k (fun j => n_z a j * coeffs_first_stage j) in
  let rhs := fun i => y i - bsum p (fun a => n_mat n X i a * coeffs_second_stage a) in
  let alpha := lstsq (n + 1)%nat (n + 1)%nat (m_mat n X) rhs in
  (alpha, coeffs_second_stage).

(** fit_models.py:342-397 *)
Definition fit_frobenius (qr : qr_oracle) (lstsq : lstsq_oracle) (N n : nat)
    (X : nat -> fvec) (y : fvec) : res (list R) :=
  if (N <=? n + 1)%nat then Err ValueError else
  if (n + n * (n + 1) / 2 + 1 <=? N)%nat then Err ValueError else
  let '(linear, square) := frobenius_coefs qr lstsq N n X y in
  Ok (map linear (seq 0 (1 + n)) ++ map square (seq 0 (n_second_order_terms n))).

(** np.zeros with a negative dimension raises ValueError. (fit_models.py:332) *)
Definition zeros_z (k : Z) : res (list R) :=
  if (k <? 0)%Z then Err ValueError else Ok (repeat 0 (Z.to_nat k)).

(** fit_models.py:297-339 *)
Definition fit_powell (lstsq : lstsq_oracle) (qr : qr_oracle) (N n : nat) (t : model_type)
    (X : nat -> fvec) (y : fvec) : res (list R) :=
  let n_just_identified :=
    match t with Quadratic => (n + 1 + n_second_order_terms n)%nat | Linear => (n + 1)%nat end in
  if (N <=? n + 1)%nat then
    let coef := map (fit_ols lstsq N n Linear X y None) (seq 0 (n_features n Linear)) in
    let* padding := zeros_z (Z.of_nat n_just_identified - Z.of_nat (length coef)) in
    Ok (coef ++ padding)
  else if (n_just_identified <=? N)%nat then
    Ok (map (fit_ols lstsq N n t X y None) (seq 0 (n_features n t)))
  else fit_frobenius qr lstsq N n X y.

(** * poisedness.py *)

(** The loops of poisedness.py:158-165: (i, i), then (i, j) for j > i. *)
Definition poly_pairs (n : nat) : list (nat * nat) :=
  flat_map (fun i => (i, i) :: map (fun j => (i, j)) (seq (i + 1) (n - (i + 1)))) (seq 0 n).
(** One square term of poisedness.py:140-171 *)
Definition poly_term (x : fvec) (p : nat * nat) : R :=
  if (fst p =? snd p)%nat then (1 / 2) * (x (fst p)) ^ 2 else x (fst p) * x (snd p).
(** poisedness.py:140-171, one row *)
Definition scaled_polynomial_features (n : nat) (x : fvec) : list R :=
  [1] ++ map x (seq 0 n) ++ map (poly_term x) (poly_pairs n).

(** The loops of poisedness.py:179-183. *)
Definition coef_pairs (n : nat) : list (nat * nat) :=
  flat_map (fun j => map (fun i => (i, j)) (seq 0 (j + 1))) (seq 0 n).
(** poisedness.py:174-185.  np.empty is modelled by zeros (all entries are assigned). *)
Definition reshape_coef_to_square_terms (n : nat) (coef : list R) : fmat :=
  fold_left (fun mat pv => assign (assign mat (fst pv) (snd pv))
                                  (snd (fst pv), fst (fst pv)) (snd pv))
            (combine (coef_pairs n) coef) (fun _ _ => 0).

(** poisedness.py:207-208 without the absolute value, for the polynomial with coefficients
    [poly] as taken apart in lines 57-60. *)
Definition poly_value (n : nat) (poly : list R) (x : fvec) : R :=
  let intercept := nth 0 poly 0 in
  let linear := fun i => nth (1 + i) poly 0 in
  let square := reshape_coef_to_square_terms n (skipn (n + 1) poly) in
  intercept + fdot n linear x + 1 / 2 * fdot n (fvm n x square) x.

(** * handle_infinity.py *)

(** The literal 1e300 (handle_infinity.py:27-28) *)
Definition big : R := IZR (10 ^ 300).

(** Masked minimum and maximum of one column, handle_infinity.py:26-27. *)
Definition masked_min (col : list xr) : R :=
  fold_left (fun a v => match v with Fin r => Rmin a r | _ => a end) col big.
(** The largest finite entry: handle_infinity.py:28 *)
Definition masked_max (col : list xr) : R :=
  fold_left (fun a v => match v with Fin r => Rmax a r | _ => a end) col (- big).
(** np.sign (handle_infinity.py:37) *)
Definition Rsign (x : R) : R := if Rltb 0 x then 1 else if Rltb x 0 then -1 else 0.

(** handle_infinity.py:14-49, one column: (pos_penalty, neg_penalty).  Overflow is not
    modelled: for columns with finite values beyond 1e307 the penalties of the code may be
    infinite. *)
Definition penalties (col : list xr) : R * R :=
  let mins := masked_min col in
  let maxs := masked_max col in
  let diff := maxs - mins in
  let s := Rsign diff in
  let diff := diff * s in
  let maxs := maxs * s in
  let mins := mins * s in
  (maxs + 2 * diff + 1, mins - 2 * diff - 1).
(** np.nan_to_num of one column (handle_infinity.py:45-49) *)
Definition clip_column (col : list xr) : list xr :=
  let '(pos, neg) := penalties col in
  map (fun v => match v with
                | Fin r => Fin r | NaN | PInf => Fin pos | NInf => Fin neg end) col.

(** The whole matrix, given by its columns. (handle_infinity.py:14-49) *)
Definition clip_relative (cols : list (list xr)) : list (list xr) := map clip_column cols.
