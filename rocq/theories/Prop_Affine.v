(** C213: an affine function added to the criterion. *)
From Coq Require Import Reals List Arith Bool Lia Lra FunctionalExtensionality.
From Verif Require Import Base XR Vec FVec ModelsModel FitModel Prop_Models Prop_Fit LstsqProofs Prop_Geometry Prop_Frobenius
  Prop_Rotate Prop_SampleOrder Prop_Residualize.
Import ListNotations.
Open Scope R_scope.

(** The affine function with intercept [b] and slopes [v], as coefficients of a model. *)
Definition affine (n : nat) (b : R) (v : fvec) : fvec :=
  fun j => match j with O => b | S i => if (i <? n)%nat then v i else 0 end.

Lemma affine_value n t b v x :
  dot (map (affine n b v) (seq 0 (n_free_params n t))) (feature_row n t x) = b + bsum n (fun j => v j * x j).
Proof.
  rewrite <- (bsum_dot_fun (n_free_params n t)) by (symmetry; apply C41_free_params_match_features).
  assert (S1 : forall m (f : nat -> R), (forall j, (j >= n + 1)%nat -> f j = 0) -> bsum (n + 1 + m) f = bsum (n + 1) f).
  { intros m f Z. rewrite bsum_app, (bsum_all_zero m); [ring|]. intros i _. apply Z. lia. }
  assert (S2 : bsum (n + 1) (fun j => nth j (feature_row n t x) 0 * affine n b v j) = b + bsum n (fun j => v j * x j)).
  { rewrite Nat.add_1_r, bsum_shift. f_equal; [destruct t; cbn; ring|]. apply bsum_ext. intros j Hj. cbn [affine].
    destruct (Nat.ltb_spec j n); [|lia]. rewrite (Rmult_comm (v j)). f_equal.
    destruct t; cbn [feature_row]; unfold quadratic_features; cbn [nth].
    - change (nth j (map x (seq 0 n)) 0 = x j). rewrite nth_map_seq. destruct (Nat.ltb_spec j n); [reflexivity|lia].
    - change (nth j (map x (seq 0 n) ++ map (fun p => x (fst p) * x (snd p)) (quad_pairs n)) 0 = x j).
      rewrite app_nth1 by (rewrite map_length, seq_length; lia). rewrite nth_map_seq. destruct (Nat.ltb_spec j n); [reflexivity|lia]. }
  destruct t; cbn [n_free_params]; [exact S2|].
  rewrite S1; [exact S2|]. intros j Hj. destruct j as [|j]; [lia|]. cbn [affine].
  destruct (Nat.ltb_spec j n); [lia|ring].
Qed.

Lemma shifted_row (o o' a : nat -> R) : forall ks y, (forall k, In k ks -> o' k = o k + a k) ->
  map2 xsub (map2 xadd y (map (fun k => Fin (a k)) ks)) (map (fun k => Fin (o' k)) ks)
  = map2 xsub y (map (fun k => Fin (o k)) ks).
Proof.
  induction ks as [|k ks IH]; intros [|u y] H; try reflexivity. cbn [map map2]. rewrite IH by (intros; apply H; now right).
  f_equal. rewrite (H k) by now left. destruct u; cbn; try reflexivity. f_equal. ring.
Qed.

(** C213 - residualized fits of whole models.  If the functions A_k are added to the values of the
    residuals and to the old model, they are added to the new model, whatever the fitter (also if they
    are not affine).  Missing: fits that are not residualized, see below. *)
Theorem C213_residualized_partial :
  forall clip fitter n m t center r s s' old old' xs ys (A : nat -> fvec -> R) vm vm',
    r <> 0 ->
    s <> 0 -> vm_scale old = MScalar s -> vm_n old = n -> vm_m old = m ->
    (forall h k, vm_h old = Some h -> (k < m)%nat -> fsymm n (h k)) -> (t = Linear -> vm_h old = None) ->
    s' <> 0 -> vm_scale old' = MScalar s' -> vm_n old' = n -> vm_m old' = m ->
    (forall h k, vm_h old' = Some h -> (k < m)%nat -> fsymm n (h k)) -> (t = Linear -> vm_h old' = None) ->
    let ys' := map2 (fun x y => map2 xadd y (map (fun k => Fin (A k x)) (seq 0 m))) xs ys in
    clip ys = ys -> clip ys' = ys' ->
    (forall z k, (k < m)%nat -> predict_vector old' (to_unit (vm_shift old') (MScalar s') z) k
                             = predict_vector old (to_unit (vm_shift old) (MScalar s) z) k + A k z) ->
    (forall sample values coef, fitter sample values = Ok coef -> forall k, length (coef k) = n_free_params n t) ->
    fitter_template clip fitter n m t true center (MScalar r) old xs ys = Ok vm ->
    fitter_template clip fitter n m t true center (MScalar r) old' xs ys' = Ok vm' ->
    forall z k, (k < m)%nat ->
      predict_vector vm' (to_unit center (MScalar r) z) k = predict_vector vm (to_unit center (MScalar r) z) k + A k z.
Proof.
  intros clip fitter n m t center r s s' old old' xs ys A vm vm' Hr Hs ES En Em HS HT Hs' ES' En' Em' HS' HT' ys' C C' D HF F F' z k Hk.
  destruct (C212_sum_of_old_and_fitted_model _ _ _ _ _ _ _ _ _ _ _ _ Hr Hs ES En Em HS HT F) as (coef & E & V).
  destruct (C212_sum_of_old_and_fitted_model _ _ _ _ _ _ _ _ _ _ _ _ Hr Hs' ES' En' Em' HS' HT' F') as (coef' & E' & V').
  rewrite C in E. rewrite C' in E'.
  assert (R : forall xs ys, map2 (fun x y => map2 xsub y (map (fun k => Fin (predict_vector old' (to_unit (vm_shift old') (MScalar s') x) k)) (seq 0 m))) xs
       (map2 (fun x y => map2 xadd y (map (fun k => Fin (A k x)) (seq 0 m))) xs ys)
     = map2 (fun x y => map2 xsub y (map (fun k => Fin (predict_vector old (to_unit (vm_shift old) (MScalar s) x) k)) (seq 0 m))) xs ys).
  { clear - D. induction xs as [|x xs IH]; intros [|y ys]; try reflexivity. cbn [map2]. rewrite IH. f_equal.
    apply shifted_row. intros k Hk. apply in_seq in Hk. apply D. lia. }
  unfold ys' in E'. rewrite R, E in E'. injection E' as <-.
  specialize (HF _ _ _ E). rewrite (V HF z k Hk), (V' HF z k Hk), (D z k Hk). ring.
Qed.

(** C213 - ols, if the sample determines the model.  Missing: samples that do not, see below. *)
Theorem C213_determined_partial :
  forall lstsq N n t X y w b v,
    exact_lstsq lstsq -> (forall i, (i < N)%nat -> 0 < weight_at w i) ->
    (forall c : fvec, (forall i, (i < N)%nat -> dot (map c (seq 0 (n_free_params n t))) (feature_row n t (X i)) = 0) ->
       forall j, (j < n_free_params n t)%nat -> c j = 0) ->
    forall j, (j < n_free_params n t)%nat ->
    fit_ols lstsq N n t X (fun i => y i + (b + bsum n (fun k => v k * X i k))) w j
    = fit_ols lstsq N n t X y w j + affine n b v j.
Proof.
  intros lstsq N n t X y w b v LS Hw D j Hj.
  rewrite <- (C212_determined lstsq N n t X _ w (affine n b v) LS Hw D j Hj).
  assert (E : (fun i => y i + (b + bsum n (fun k => v k * X i k))
                - dot (map (affine n b v) (seq 0 (n_free_params n t))) (feature_row n t (X i))) = y).
  { apply functional_extensionality. intros i. rewrite affine_value. ring. }
  rewrite E. ring.
Qed.

(** C213 - the fit of Powell with fewer points than a quadratic model needs, if the first n + 1 points
    are not on a hyperplane and some quadratic interpolates the sample.  Missing: other samples. *)
Theorem C213_powell_partial :
  forall lstsq qr N n X y b v c0,
    exact_lstsq lstsq -> exact_qr qr -> (n + 1 < N < n_free_params n Quadratic)%nat ->
    first_points_independent n X -> interpolates N n X y c0 ->
    exists c, fit_powell lstsq qr N n Quadratic X y = Ok c /\
      fit_powell lstsq qr N n Quadratic X (fun i => y i + (b + bsum n (fun k => v k * X i k)))
      = Ok (map (fun j => nth j c 0 + affine n b v j) (seq 0 (n_free_params n Quadratic))).
Proof.
  intros lstsq qr N n X y b v c0 LS QR HN F I0.
  set (p := n_free_params n Quadratic) in *. set (y' := fun i => y i + (b + bsum n (fun k => v k * X i k))).
  assert (SH : forall c s, length c = p ->
    let d := map (fun j => nth j c 0 + s * affine n b v j) (seq 0 p) in
    length d = p /\ (forall i, dot d (feature_row n Quadratic (X i)) = dot c (feature_row n Quadratic (X i)) + s * (b + bsum n (fun k => v k * X i k))) /\
    dot (second_order n d) (second_order n d) = dot (second_order n c) (second_order n c)).
  { intros c s L d. assert (Ld : length d = p) by (unfold d; now rewrite map_length, seq_length). split; [exact Ld|]. split.
    - intros i. unfold d. rewrite dot_fun_sum by (symmetry; apply C41_free_params_match_features). f_equal.
      + rewrite <- L. now rewrite list_as_map.
      + rewrite <- (affine_value n Quadratic), <- !(bsum_dot_fun p) by (symmetry; apply C41_free_params_match_features).
        rewrite <- bsum_scal. apply bsum_ext. intros; ring.
    - rewrite !second_order_sum by easy. unfold fsq. apply fdot_ext; intros l Hl; unfold d; rewrite nth_map_seq;
        (destruct (Nat.ltb_spec (n + 1 + l) p) as [_|G]; [|unfold p in G; cbn [n_free_params] in G; lia]);
        (replace (n + 1 + l)%nat with (S (n + l)) by lia); cbn [affine]; (destruct (Nat.ltb_spec (n + l) n); [lia|ring]). }
  assert (IS : forall c, interpolates N n X y c -> interpolates N n X y' (map (fun j => nth j c 0 + 1 * affine n b v j) (seq 0 p))).
  { intros c [L I]. destruct (SH c 1 L) as (L' & V & _). split; [exact L'|]. intros i Hi. rewrite V, I by exact Hi. unfold y'. ring. }
  destruct (C165_smallest_second_order_coefficients_partial lstsq qr N n X y c0 LS QR HN F I0) as (c & Ec & I & M).
  destruct (C165_smallest_second_order_coefficients_partial lstsq qr N n X y' _ LS QR HN F (IS c0 I0)) as (c' & Ec' & I' & M').
  exists c. split; [exact Ec|]. rewrite Ec'. f_equal.
  assert (E1 : map (fun j => nth j c 0 + affine n b v j) (seq 0 p) = map (fun j => nth j c 0 + 1 * affine n b v j) (seq 0 p))
    by (apply map_ext; intros; ring).
  rewrite E1. apply (minimal_unique N n X y'); auto; [lia|].
  intros e [Le Ie]. destruct (SH c 1 (proj1 I)) as (_ & _ & ->). destruct (SH e (-1) Le) as (Ld & V & <-).
  apply M. split; [exact Ld|]. intros i Hi. rewrite V, Ie by exact Hi. unfold y'. ring.
Qed.

(** C213 - otherwise it is false: one point at distance 1 (in units of the radius) from the center with
    value 2 gives the model 1 + x, with 2 added to the value 2 + 2 x instead of 3 + x. *)
Theorem C213_affine_refuted :
  forall lstsq, exact_lstsq lstsq ->
    let fit y j := fit_ols lstsq 1 1 Linear (fun _ _ => 1) (fun _ => y) None j in
    fit 2 0%nat = 1 /\ fit 2 1%nat = 1 /\ fit (2 + 2) 0%nat = 2 /\ fit (2 + 2) 1%nat = 2.
Proof.
  intros lstsq LS fit.
  assert (G : forall y, fit y 0%nat = y / 2 /\ fit y 1%nat = y / 2).
  { intros y. unfold fit, fit_ols. cbn [add_weighting]. change (n_features 1 Linear) with 2%nat.
    destruct (LS 1%nat 2%nat (feature_matrix 1 Linear (fun _ _ => 1)) (fun _ => y)) as [L M].
    set (c := lstsq _ _ _ _) in *.
    assert (Z : is_lstsq 1 2 (feature_matrix 1 Linear (fun _ _ => 1)) (fun _ => y) (fun _ => y / 2)).
    { intros d. apply Rle_trans with 0; [|apply bsum_nonneg; intros; apply pow2_ge_0]. right. unfold ssr. cbn. field. }
    specialize (L (fun _ => y / 2)). specialize (M _ Z). unfold ssr in L. unfold fsq, fdot in M. cbn in L, M.
    set (u := c 0%nat) in *. set (r := c 1%nat) in *. clearbody u r.
    assert (E : u + r = y).
    { assert (Q : (u + r - y) * (u + r - y) <= 0) by lra. pose proof (Rle_0_sqr (u + r - y)) as Q2. unfold Rsqr in Q2.
      assert (Q3 : (u + r - y) * (u + r - y) = 0) by lra. apply Rmult_integral in Q3. lra. }
    assert (Q : (u - r) * (u - r) <= 0) by (replace r with (y - u) in * by lra; lra).
    pose proof (Rle_0_sqr (u - r)) as Q2. unfold Rsqr in Q2. assert (Q3 : (u - r) * (u - r) = 0) by lra.
    apply Rmult_integral in Q3. lra. }
  destruct (G 2), (G (2 + 2)). lra.
Qed.

(** The old models 1 + x and 4 + 3 x. *)
Example C213_instance_residualized :
  let old := mkV 1 1 (fun _ => 1) (fun _ _ => 1) None (MScalar 1) (fun _ => 0) in
  let old' := mkV 1 1 (fun _ => 4) (fun _ _ => 3) None (MScalar 1) (fun _ => 0) in
  (forall z k, (k < 1)%nat -> predict_vector old' (to_unit (vm_shift old') (MScalar 1) z) k
     = predict_vector old (to_unit (vm_shift old) (MScalar 1) z) k + (3 + 2 * z 0%nat)) /\
  (exists vm, fitter_template (fun y => y) (fun _ _ => Ok (fun _ => [1; 2])) 1 1 Linear true (fun _ => 5) (MScalar 2) old
     [fun _ => 5] [[Fin 3]] = Ok vm) /\
  (exists vm, fitter_template (fun y => y) (fun _ _ => Ok (fun _ => [1; 2])) 1 1 Linear true (fun _ => 5) (MScalar 2) old'
     [fun _ => 5] (map2 (fun x y => map2 xadd y (map (fun k => Fin (3 + 2 * x 0%nat)) (seq 0 1))) [fun _ => 5] [[Fin 3]]) = Ok vm).
Proof.
  intros old old'. split; [|split].
  - intros z k Hk. cbn. unfold fdot, to_unit. cbn. field.
  - exact (proj1 C212_instance).
  - apply (C212_succeeds _ _ 1 1 Linear _ 2 1 old'); try easy; try lra.
    intros sample values. exists (fun _ => [1; 2]). split; [reflexivity|]. intros; reflexivity.
Qed.

(** Two points determine a linear model; four points in the plane for the fit of Powell. *)
Example C213_instance :
  exact_lstsq min_norm_ls /\ exact_qr (fun N A => gram_schmidt N A N) /\
  (forall c : fvec, (forall i, (i < 2)%nat -> dot (map c (seq 0 (n_free_params 1 Linear))) (feature_row 1 Linear (fun _ => INR i)) = 0) ->
     forall j, (j < n_free_params 1 Linear)%nat -> c j = 0) /\
  (2 + 1 < 4 < n_free_params 2 Quadratic)%nat /\ first_points_independent 2 skew_points /\
  interpolates 4 2 skew_points (fun i => skew_points i 0%nat ^ 2) [0; 1 / 5; 0; 4 / 5; - (2 / 5); 0].
Proof.
  destruct C165_instance_solvers as [LS QR]. split; [exact LS|]. split; [exact QR|]. split; [exact (proj2 C212_instance)|].
  split; [cbn; lia|]. split; [exact skew_independent|]. split; [reflexivity|].
  intros i Hi. unfold dot. destruct i as [|[|[|[|i]]]]; [..|lia]; cbn; lra.
Qed.
