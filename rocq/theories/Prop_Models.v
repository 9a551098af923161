(** Properties C36-C41: surrogate models. *)
From Coq Require Import Reals List Arith ZArith Bool Lia Lra.
From Verif Require Import Base XR FVec ModelsModel.
Import ListNotations.
Open Scope R_scope.

(** * Specification *)

(** Value of a quadratic function with intercept [c], gradient [g] and Hessian [h] in the
    coordinates [x]. *)
Definition quad (n : nat) (c : R) (g : fvec) (h : fmat) (x : fvec) : R :=
  c + bsum n (fun i => g i * x i)
    + / 2 * bsum n (fun i => bsum n (fun j => h i j * x i * x j)).

(** What a model says about unit-space point [x]; no square terms means zero Hessian. *)
Definition hess0 (h : option fmat) : fmat := match h with Some h => h | None => fun _ _ => 0 end.
Definition value_s (m : smodel) (x : fvec) : R := quad (sm_n m) (sm_c m) (sm_g m) (hess0 (sm_h m)) x.
Definition value_v (m : vmodel) (k : nat) (x : fvec) : R :=
  quad (vm_n m) (vm_c m k) (vm_g m k)
       (match vm_h m with Some h => h k | None => fun _ _ => 0 end) x.

(** A point given in the user's coordinates, in the unit coordinates of a region with
    [center] and [radius]. *)
Definition to_unit (center : fvec) (radius : mscale) (x : fvec) : fvec :=
  fun i => (x i - center i) / scale_at radius i.

Lemma quad_form n h x : fdot n (fvm n x h) x = bsum n (fun i => bsum n (fun j => h i j * x i * x j)).
Proof.
  rewrite fdot_fvm, fdot_fmv. apply bsum_ext. intros i _. apply bsum_ext. intros. lra.
Qed.

(** [predict] computes the quadratic function. *)
Lemma predict_scalar_value m x : predict_scalar m x = value_s m x.
Proof.
  unfold predict_scalar, value_s, quad. rewrite fdot_comm. unfold fdot at 1 3.
  destruct (sm_h m) as [h|]; simpl.
  - rewrite quad_form. lra.
  - rewrite (bsum_all_zero (sm_n m) (fun i => bsum (sm_n m) _)); [lra|]. intros i _. apply bsum_all_zero. intros. lra.
Qed.
Lemma predict_vector_value m k x : predict_vector m x k = value_v m k x.
Proof.
  unfold predict_vector, value_v, quad. unfold fdot at 1 3.
  destruct (vm_h m) as [h|]; simpl.
  - rewrite quad_form. lra.
  - rewrite (bsum_all_zero (vm_n m) (fun i => bsum (vm_n m) _)); [lra|].
    intros i _. apply bsum_all_zero. intros. lra.
Qed.

(** * C36 *)

Lemma bsum2_swap n m (f : nat -> nat -> nat -> R) :
  bsum n (fun i => bsum n (fun j => bsum m (fun k => f k i j)))
  = bsum m (fun k => bsum n (fun i => bsum n (fun j => f k i j))).
Proof.
  rewrite (bsum_swap m n). apply bsum_ext. intros i _. apply bsum_swap.
Qed.

(** C36 - identity: the scalar model predicts the only entry of the vector model. *)
Theorem C36_identity_predicts_entry :
  forall m s, aggregate_identity m = Ok s ->
    vm_m m = 1%nat /\ forall x, predict_scalar s x = predict_vector m x 0.
Proof.
  intros m s H. unfold aggregate_identity in H.
  destruct (Nat.eqb_spec (vm_m m) 1); [|discriminate]. injection H as <-.
  split; [easy|]. intros x. rewrite predict_scalar_value, predict_vector_value.
  unfold value_s, value_v. simpl. destruct (vm_h m); reflexivity.
Qed.

(** C36 - sum: the scalar model predicts the sum over all residuals. *)
Theorem C36_sum_predicts_sum :
  forall m s, aggregate_sum m = Ok s ->
    forall x, predict_scalar s x = bsum (vm_m m) (predict_vector m x).
Proof.
  intros m s H x. unfold aggregate_sum in H.
  destruct (vm_h m) as [h|] eqn:Hh; [|discriminate]. injection H as <-.
  rewrite predict_scalar_value. rewrite (bsum_ext _ _ _ (fun k _ => predict_vector_value m k x)).
  unfold value_s, value_v, quad. simpl. rewrite Hh. rewrite !bsum_plus, bsum_scal.
  f_equal; [f_equal|f_equal].
  - rewrite bsum_swap. apply bsum_ext. intros i _. now rewrite bsum_scal_r.
  - rewrite <- bsum2_swap. apply bsum_ext. intros i _. apply bsum_ext. intros j _.
    rewrite Rmult_assoc, <- bsum_scal_r. apply bsum_ext. intros. lra.
Qed.

(** [sum] needs quadratic vector models, as documented; it raises for linear ones. *)
Theorem C36_sum_defined_iff_quadratic :
  forall m, (exists s, aggregate_sum m = Ok s) <-> vm_h m <> None.
Proof.
  intros m. unfold aggregate_sum. destruct (vm_h m); split; intros H; eauto; try easy.
  now destruct H.
Qed.

Lemma sq_linear n g c x : (bsum n (fun i => g i * x i) + c) * (bsum n (fun i => g i * x i) + c)
  = c * c + bsum n (fun i => 2 * (g i * c) * x i)
    + bsum n (fun i => bsum n (fun j => g i * g j * x i * x j)).
Proof.
  replace (bsum n (fun i => 2 * (g i * c) * x i)) with (2 * c * bsum n (fun i => g i * x i)).
  2:{ rewrite <- bsum_scal. apply bsum_ext. intros. lra. }
  replace (bsum n (fun i => bsum n (fun j => g i * g j * x i * x j)))
    with (bsum n (fun i => g i * x i) * bsum n (fun i => g i * x i)).
  2:{ rewrite <- bsum_scal_r. apply bsum_ext. intros i _. rewrite <- bsum_scal.
      apply bsum_ext. intros. lra. }
  ring.
Qed.

(** C36 - least squares: the scalar model predicts the sum of squared residuals of a linear
    vector model. *)
Theorem C36_least_squares_predicts_sum_of_squares :
  forall m x, vm_h m = None ->
    predict_scalar (aggregate_least_squares_linear m) x
    = bsum (vm_m m) (fun k => predict_vector m x k * predict_vector m x k).
Proof.
  intros m x Hh. rewrite predict_scalar_value.
  unfold predict_vector. rewrite Hh. unfold fdot at 1 2.
  rewrite (bsum_ext _ _ _ (fun k _ => sq_linear (vm_n m) (vm_g m k) (vm_c m k) x)).
  rewrite !bsum_plus. unfold value_s, quad. simpl. f_equal; [f_equal|].
  - rewrite bsum_swap. apply bsum_ext. intros i _.
    rewrite <- bsum_scal, <- bsum_scal_r. apply bsum_ext. intros. lra.
  - rewrite <- bsum2_swap, <- bsum_scal. apply bsum_ext. intros i _.
    rewrite <- bsum_scal. apply bsum_ext. intros j _.
    rewrite Rmult_assoc, <- bsum_scal_r, <- bsum_scal. apply bsum_ext. intros. lra.
Qed.

(** C36 - information equality: the sum of the linear predictions minus a quarter of the
    sum of squared slopes times x. *)
Theorem C36_information_equality_prediction :
  forall m x, vm_h m = None ->
    predict_scalar (aggregate_information_equality_linear m) x
    = bsum (vm_m m) (predict_vector m x)
      - / 4 * bsum (vm_m m) (fun k => (predict_vector m x k - vm_c m k)
                                      * (predict_vector m x k - vm_c m k)).
Proof.
  intros m x Hh. rewrite predict_scalar_value.
  rewrite (bsum_ext (vm_m m) (fun k => _ * _)
     (fun k => bsum (vm_n m) (fun i => bsum (vm_n m) (fun j => vm_g m k i * vm_g m k j * x i * x j)))).
  2:{ intros k _. unfold predict_vector. rewrite Hh. unfold fdot.
      pose proof (sq_linear (vm_n m) (vm_g m k) 0 x) as Q.
      rewrite (bsum_all_zero _ (fun i => 2 * (vm_g m k i * 0) * x i)) in Q by (intros; lra).
      rewrite Rplus_0_r in Q. lra. }
  rewrite (bsum_ext (vm_m m) (predict_vector m x)
     (fun k => vm_c m k + bsum (vm_n m) (fun i => vm_g m k i * x i))).
  2:{ intros k _. unfold predict_vector. rewrite Hh. unfold fdot. lra. }
  rewrite bsum_plus, <- bsum2_swap. unfold value_s, quad. simpl.
  unfold Rminus. f_equal; [f_equal|].
  - rewrite bsum_swap. apply bsum_ext. intros i _. now rewrite bsum_scal_r.
  - rewrite <- bsum_scal, Ropp_mult_distr_l, <- bsum_scal. apply bsum_ext. intros i _.
    rewrite <- !bsum_scal. apply bsum_ext. intros j _.
    rewrite (bsum_ext _ (fun k => vm_g m k i * vm_g m k j * x i * x j)
       (fun k => vm_g m k i * vm_g m k j * (x i * x j))) by (intros; lra).
    rewrite bsum_scal_r. lra.
Qed.

(** * C37 *)

(** C37 - the aggregated Hessians are symmetric and semidefinite. *)
Theorem C37_aggregated_hessian_definiteness :
  forall m,
    (exists h, sm_h (aggregate_least_squares_linear m) = Some h /\ fsymm (vm_n m) h /\
       forall x, 0 <= bsum (vm_n m) (fun i => bsum (vm_n m) (fun j => h i j * x i * x j))) /\
    (exists h, sm_h (aggregate_information_equality_linear m) = Some h /\ fsymm (vm_n m) h /\
       forall x, bsum (vm_n m) (fun i => bsum (vm_n m) (fun j => h i j * x i * x j)) <= 0).
Proof.
  assert (SQ : forall m x,
    0 <= bsum (vm_m m) (fun k => bsum (vm_n m) (fun i =>
           bsum (vm_n m) (fun j => vm_g m k i * vm_g m k j * x i * x j)))).
  { intros m x. apply bsum_nonneg. intros k _.
    pose proof (sq_linear (vm_n m) (vm_g m k) 0 x) as Q.
    rewrite (bsum_all_zero _ (fun i => 2 * (vm_g m k i * 0) * x i)) in Q by (intros; lra).
    pose proof (Rle_0_sqr (bsum (vm_n m) (fun i => vm_g m k i * x i) + 0)) as P.
    unfold Rsqr in P. lra. }
  intros m. split; eexists; (split; [reflexivity|]); split.
  - intros i j _ _. apply bsum_ext. intros. lra.
  - intros x.
    rewrite (bsum_ext _ _ (fun i => 2 * bsum (vm_n m) (fun j =>
       bsum (vm_m m) (fun k => vm_g m k i * vm_g m k j * x i * x j)))).
    + rewrite bsum_scal. rewrite (bsum2_swap (vm_n m) (vm_m m)). pose proof (SQ m x). lra.
    + intros i _. rewrite <- bsum_scal. apply bsum_ext. intros j _.
      rewrite Rmult_assoc, <- bsum_scal_r, <- bsum_scal. apply bsum_ext. intros. lra.
  - intros i j _ _. do 2 f_equal. apply bsum_ext. intros. lra.
  - intros x.
    rewrite (bsum_ext _ _ (fun i => - / 2 * bsum (vm_n m) (fun j =>
       bsum (vm_m m) (fun k => vm_g m k i * vm_g m k j * x i * x j)))).
    + rewrite bsum_scal. rewrite (bsum2_swap (vm_n m) (vm_m m)). pose proof (SQ m x). lra.
    + intros i _. rewrite <- bsum_scal. apply bsum_ext. intros j _.
      rewrite (bsum_ext _ (fun k => vm_g m k i * vm_g m k j * x i * x j)
         (fun k => vm_g m k i * vm_g m k j * (x i * x j))) by (intros; lra).
      rewrite bsum_scal_r. lra.
Qed.

(** * C38, C39 *)

(** Re-expansion of a quadratic around another center: if y = (s + r u)/t then ... *)
Lemma quad_scale n c g h (f : fvec) x :
  (forall i j, (i < n)%nat -> (j < n)%nat -> h i j <> 0 -> f i = f j) ->
  quad n c (fun i => g i * f i) (fun i j => h i j * (f j) ^ 2) x
  = quad n c g h (fun i => f i * x i).
Proof.
  intros Hf. unfold quad. f_equal; [f_equal|f_equal].
  - apply bsum_ext. intros. lra.
  - apply bsum_ext. intros i Hi. apply bsum_ext. intros j Hj.
    destruct (Req_dec (h i j) 0) as [E|E]; [rewrite E; lra|].
    rewrite (Hf i j Hi Hj E). simpl. lra.
Qed.

Lemma quad_shift n c g h s x : fsymm n h ->
  quad n (quad n c g h s) (fun i => g i + fmv n h s i) h x = quad n c g h (fadd s x).
Proof.
  intros S. unfold quad, fadd.
  rewrite (bsum_ext n (fun i => (g i + fmv n h s i) * x i)
             (fun i => g i * x i + x i * fmv n h s i)) by (intros; lra).
  rewrite bsum_plus.
  rewrite (bsum_ext n (fun i => g i * (s i + x i)) (fun i => g i * s i + g i * x i))
    by (intros; lra).
  rewrite bsum_plus.
  assert (E : forall a b, bsum n (fun i => bsum n (fun j => h i j * a i * b j)) = fdot n a (fmv n h b)).
  { intros a b. rewrite fdot_fmv. apply bsum_ext. intros i _. apply bsum_ext. intros. lra. }
  rewrite !E. change (fun i => s i + x i) with (fadd s x).
  change (bsum n (fun i => x i * fmv n h s i)) with (fdot n x (fmv n h s)).
  rewrite fdot_fmv_add_r, !fdot_add_l.
  rewrite (fdot_symm n s h x S). lra.
Qed.

Lemma quad_ext n c g h x y : feq n x y -> quad n c g h x = quad n c g h y.
Proof.
  intros E. unfold quad. f_equal; [f_equal|f_equal].
  - apply bsum_ext. intros i Hi. now rewrite E.
  - apply bsum_ext. intros i Hi. apply bsum_ext. intros j Hj. now rewrite !E.
Qed.

Lemma quad_ext_g n c g g' h x : feq n g g' -> quad n c g h x = quad n c g' h x.
Proof.
  intros E. unfold quad. do 2 f_equal. apply bsum_ext. intros i Hi. now rewrite E.
Qed.

(** Scale factors couple with the Hessian only where they agree. *)
Definition compatible (n : nat) (h : option fmat) (f : mscale) : Prop :=
  forall h' i j, h = Some h' -> (i < n)%nat -> (j < n)%nat -> h' i j <> 0 ->
    scale_at f i = scale_at f j.
Definition nonzero (n : nat) (f : mscale) : Prop := forall i, (i < n)%nat -> scale_at f i <> 0.

Lemma compatible_scalar n h r : compatible n h (MScalar r).
Proof. intros h' i j _ _ _ _. reflexivity. Qed.
Lemma scale_at_inv f i : scale_at (scale_inv f) i = 1 / scale_at f i.
Proof. destruct f; reflexivity. Qed.
Lemma scale_at_mul f g i : scale_at (scale_mul f g) i = scale_at f i * scale_at g i.
Proof. destruct f, g; reflexivity. Qed.

Lemma move_smodel_value : forall m h center radius,
  sm_h m = Some h -> fsymm (sm_n m) h ->
  compatible (sm_n m) (sm_h m) (sm_scale m) -> compatible (sm_n m) (sm_h m) radius ->
  nonzero (sm_n m) (sm_scale m) -> nonzero (sm_n m) radius ->
  exists m', move_smodel m center radius = Ok m' /\
    sm_n m' = sm_n m /\ feq (sm_n m) (sm_shift m') center /\
    feq (sm_n m) (scale_at (sm_scale m')) (scale_at radius) /\
    forall x, predict_scalar m' (to_unit center radius x)
              = predict_scalar m (to_unit (sm_shift m) (sm_scale m) x).
Proof.
  intros m h center radius Hh HS C1 C2 N1 N2.
  unfold move_smodel, shift_smodel. cbn [sm_h scale_smodel]. rewrite Hh. cbn [bind].
  eexists. split; [reflexivity|]. split; [easy|]. split; [|split].
  - intros i Hi. simpl. unfold fadd, fsub. lra.
  - intros i Hi. cbn [sm_scale scale_smodel]. rewrite !scale_at_mul, scale_at_inv.
    field. now apply N1.
  - intros x. rewrite !predict_scalar_value. unfold value_s at 1. cbn [sm_n sm_c sm_g sm_h hess0 scale_smodel].
    set (f := scale_at (scale_inv (sm_scale m))).
    set (h1 := fun i j => h i j * (f j) ^ 2).
    assert (F1 : forall i j, (i < sm_n m)%nat -> (j < sm_n m)%nat -> h i j <> 0 -> f i = f j).
    { intros i j Hi Hj E. unfold f. rewrite !scale_at_inv. now rewrite (C1 h i j Hh Hi Hj E). }
    rewrite quad_scale.
    2:{ intros i j Hi Hj E. apply (C2 h i j Hh Hi Hj). intros E'. apply E. unfold h1.
        rewrite E'. lra. }
    change (fadd (fun i => sm_g m i * f i) (fmv (sm_n m) h1 (fsub center (sm_shift m))))
      with (fun i => sm_g m i * f i + fmv (sm_n m) h1 (fsub center (sm_shift m)) i).
    unfold value_s at 1.
    cbn [sm_n sm_c sm_g sm_h hess0 scale_smodel]. rewrite Hh. cbn [hess0].
    fold f. fold h1.
    rewrite quad_shift.
    2:{ intros i j Hi Hj. unfold h1. destruct (Req_dec (h i j) 0) as [E|E].
        - rewrite (HS j i), E by easy. lra.
        - rewrite (F1 i j), (HS i j) by easy. lra. }
    unfold h1. rewrite quad_scale by exact F1.
    unfold value_s. rewrite Hh. cbn [hess0]. apply quad_ext. intros i Hi.
    unfold fadd, fsub, to_unit, f. rewrite scale_at_inv. field.
    split; (now apply N1) || (now apply N2).
Qed.

Lemma move_vmodel_value : forall m center radius,
  (forall h k, vm_h m = Some h -> (k < vm_m m)%nat -> fsymm (vm_n m) (h k)) ->
  (forall h k, vm_h m = Some h -> (k < vm_m m)%nat ->
     compatible (vm_n m) (Some (h k)) (vm_scale m) /\ compatible (vm_n m) (Some (h k)) radius) ->
  nonzero (vm_n m) (vm_scale m) -> nonzero (vm_n m) radius ->
  let '(arg, m') := move_vmodel m center radius in
    arg = m /\ vm_n m' = vm_n m /\ vm_m m' = vm_m m /\ feq (vm_n m) (vm_shift m') center /\
    feq (vm_n m) (scale_at (vm_scale m')) (scale_at radius) /\
    forall x k, (k < vm_m m)%nat ->
       predict_vector m' (to_unit center radius x) k
       = predict_vector m (to_unit (vm_shift m) (vm_scale m) x) k.
Proof.
  intros m center radius HS HC N1 N2. unfold move_vmodel, shift_vmodel.
  split; [easy|]. split; [easy|]. split; [easy|]. split; [|split].
  - intros i Hi. simpl. unfold fadd, fsub. lra.
  - intros i Hi. cbn [vm_scale scale_vmodel]. rewrite !scale_at_mul, scale_at_inv.
    field. now apply N1.
  - intros x k Hk. rewrite !predict_vector_value. unfold value_v at 1.
    cbn [vm_n vm_c vm_g vm_h vm_m scale_vmodel].
    set (f := scale_at (scale_inv (vm_scale m))).
    rewrite predict_vector_value. unfold value_v. cbn [vm_n vm_c vm_g vm_h scale_vmodel].
    destruct (vm_h m) as [h|] eqn:Hh; cbn [option_map].
    + destruct (HC h k eq_refl Hk) as [C1 C2]. specialize (HS h k eq_refl Hk).
      set (h1 := fun i j => h k i j * (f j) ^ 2).
      assert (F1 : forall i j, (i < vm_n m)%nat -> (j < vm_n m)%nat -> h k i j <> 0 -> f i = f j).
      { intros i j Hi Hj E. unfold f. rewrite !scale_at_inv.
        now rewrite (C1 (h k) i j eq_refl Hi Hj E). }
      rewrite (quad_scale _ _ _ h1 (scale_at radius)).
      2:{ intros i j Hi Hj E. apply (C2 (h k) i j eq_refl Hi Hj). intros E'. apply E. unfold h1.
          rewrite E'. lra. }
      assert (S1 : fsymm (vm_n m) h1).
      { intros i j Hi Hj. unfold h1. destruct (Req_dec (h k i j) 0) as [E|E].
        - rewrite (HS j i), E by easy. lra.
        - rewrite (F1 i j), (HS i j) by easy. lra. }
      rewrite (quad_ext_g (vm_n m) _ _ (fun i => vm_g m k i * f i + fmv (vm_n m) h1 (fsub center (vm_shift m)) i)).
      2:{ intros i Hi. f_equal. unfold fvm, fmv. apply bsum_ext. intros j Hj.
          fold (h1 j i). rewrite (S1 j i) by easy. lra. }
      rewrite quad_shift by exact S1.
      unfold h1. rewrite quad_scale by exact F1. apply quad_ext. intros i Hi.
      unfold fadd, fsub, to_unit, f. rewrite scale_at_inv. field.
      split; (now apply N1) || (now apply N2).
    + unfold quad.
      rewrite !(bsum_all_zero (vm_n m) (fun i => bsum _ _))
        by (intros i _; apply bsum_all_zero; intros; lra).
      rewrite !Rmult_0_r, !Rplus_0_r, Rplus_assoc, <- bsum_plus. f_equal.
      apply bsum_ext. intros i Hi. unfold fsub, to_unit, f. rewrite scale_at_inv. field.
      split; (now apply N1) || (now apply N2).
Qed.

(** C38 - for a model with symmetric square terms and scalar scales, moving it into another
    region does not change the predicted values: both models give the same value for the
    same point, each evaluated in its own unit coordinates.  The moved model carries the
    region's center and radius. *)
Theorem C38_moved_scalar_model_predicts_the_same :
  forall m h r s center,
    sm_h m = Some h -> fsymm (sm_n m) h -> sm_scale m = MScalar s -> s <> 0 -> r <> 0 ->
    exists m', move_smodel m center (MScalar r) = Ok m' /\
      sm_n m' = sm_n m /\ feq (sm_n m) (sm_shift m') center /\ sm_scale m' = MScalar r /\
      forall x, predict_scalar m' (to_unit center (MScalar r) x)
                = predict_scalar m (to_unit (sm_shift m) (MScalar s) x).
Proof.
  intros m h r s center Hh HS Hs Ns Nr.
  destruct (move_smodel_value m h center (MScalar r)) as (m' & E & E1 & E2 & E3 & E4);
    rewrite ?Hs; try easy.
  - exists m'. split; [easy|]. split; [easy|]. split; [easy|]. split; [|now rewrite <- Hs].
    unfold move_smodel, shift_smodel in E. cbn [sm_h scale_smodel] in E. rewrite Hh in E.
    cbn [bind] in E. injection E as <-. cbn [sm_scale scale_smodel]. rewrite Hs.
    cbn [scale_inv scale_mul]. f_equal. field. easy.
Qed.

Theorem C38_moved_vector_model_predicts_the_same :
  forall m r s center arg m',
    (forall h k, vm_h m = Some h -> (k < vm_m m)%nat -> fsymm (vm_n m) (h k)) ->
    vm_scale m = MScalar s -> s <> 0 -> r <> 0 ->
    move_vmodel m center (MScalar r) = (arg, m') ->
    arg = m /\ vm_n m' = vm_n m /\ vm_m m' = vm_m m /\
    feq (vm_n m) (vm_shift m') center /\ vm_scale m' = MScalar r /\
    forall x k, (k < vm_m m)%nat ->
      predict_vector m' (to_unit center (MScalar r) x) k
      = predict_vector m (to_unit (vm_shift m) (MScalar s) x) k.
Proof.
  intros m r s center arg m' HS Hs Ns Nr E.
  pose proof (move_vmodel_value m center (MScalar r) HS) as V. rewrite E in V.
  rewrite Hs in V. destruct V as (V1 & V2 & V3 & V4 & V5 & V6).
  - intros. split; apply compatible_scalar.
  - now intros i _.
  - now intros i _.
  - splits; try easy. unfold move_vmodel, shift_vmodel in E. injection E as _ <-.
    cbn [vm_scale scale_vmodel]. rewrite Hs. cbn [scale_inv scale_mul]. f_equal. field. easy.
Qed.

(** [_shift_vector_model] on its own does modify the linear terms of its argument. *)
Theorem C38_shift_vector_model_modifies_argument :
  exists m s arg m', shift_vmodel m s = (arg, m') /\ vm_g arg 0%nat 0%nat <> vm_g m 0%nat 0%nat.
Proof.
  exists (mkV 1 1 (fun _ => 0) (fun _ _ => 0) (Some (fun _ _ _ => 1)) (MScalar 1) (fun _ => 0)),
         (fun _ => 1).
  eexists _, _. split; [reflexivity|]. simpl. unfold fvm. simpl. lra.
Qed.

(** Example: f(z) = z0^2 + z0 z1 around (1,2) with radius 2, moved to (0,0) with radius 4. *)
Definition ex_model : smodel :=
  mkS 2 3 (fun i => match i with O => 8 | _ => 2 end)
      (Some (fun i j => match i, j with O, O => 8 | O, 1%nat => 4 | 1%nat, O => 4 | _, _ => 0 end))
      (MScalar 2) (fun i => match i with O => 1 | _ => 2 end).
Example ex_C38 : exists m', move_smodel ex_model (fun _ => 0) (MScalar 4) = Ok m' /\
  sm_c m' = 0 /\ (forall x y, predict_scalar m' (fun i => match i with O => x | _ => y end)
                            = 16 * x * x + 16 * x * y).
Proof.
  eexists. split; [reflexivity|]. unfold predict_scalar, fdot, fvm, fmv, fadd, fsub. simpl.
  unfold fmv, fsub, fadd, fdot, fvm, predict_scalar, fdot, fvm. simpl.
  split; [|intros]; field.
Qed.

(** C39 - for a region whose effective radius is a vector (the cube with anisotropic
    trimming).  Proved when the square terms only couple coordinates with equal factors
    (diagonal Hessians, linear vector models, scalar radii).  Missing: other Hessians, for
    which the property is false (next theorem). *)
Theorem C39_vector_radius_partial :
  forall m h center radius,
    sm_h m = Some h -> fsymm (sm_n m) h ->
    (forall i j, (i < sm_n m)%nat -> (j < sm_n m)%nat -> h i j <> 0 ->
       scale_at (sm_scale m) i = scale_at (sm_scale m) j /\
       scale_at radius i = scale_at radius j) ->
    (forall i, (i < sm_n m)%nat -> scale_at (sm_scale m) i <> 0 /\ scale_at radius i <> 0) ->
    exists m', move_smodel m center radius = Ok m' /\
      sm_n m' = sm_n m /\ feq (sm_n m) (sm_shift m') center /\
      feq (sm_n m) (scale_at (sm_scale m')) (scale_at radius) /\
      forall x, predict_scalar m' (to_unit center radius x)
                = predict_scalar m (to_unit (sm_shift m) (sm_scale m) x).
Proof.
  intros m h center radius Hh HS HC HN. apply (move_smodel_value m h); try easy.
  - intros h' i j E Hi Hj N. rewrite Hh in E. injection E as <-. now apply HC.
  - intros h' i j E Hi Hj N. rewrite Hh in E. injection E as <-. now apply HC.
  - intros i Hi. now apply HN.
  - intros i Hi. now apply HN.
Qed.

(** C39, vector models, in particular linear ones for every vector radius. *)
Theorem C39_vector_radius_vector_model_partial :
  forall m center radius arg m',
    (forall h k i j, vm_h m = Some h -> (k < vm_m m)%nat -> (i < vm_n m)%nat -> (j < vm_n m)%nat ->
       h k i j = h k j i /\
       (h k i j <> 0 -> scale_at (vm_scale m) i = scale_at (vm_scale m) j /\
                        scale_at radius i = scale_at radius j)) ->
    (forall i, (i < vm_n m)%nat -> scale_at (vm_scale m) i <> 0 /\ scale_at radius i <> 0) ->
    move_vmodel m center radius = (arg, m') ->
    arg = m /\ feq (vm_n m) (vm_shift m') center /\
    feq (vm_n m) (scale_at (vm_scale m')) (scale_at radius) /\
    forall x k, (k < vm_m m)%nat ->
      predict_vector m' (to_unit center radius x) k
      = predict_vector m (to_unit (vm_shift m) (vm_scale m) x) k.
Proof.
  intros m center radius arg m' HC HN E.
  pose proof (move_vmodel_value m center radius) as V. rewrite E in V.
  destruct V as (V1 & V2 & V3 & V4 & V5 & V6).
  - intros h k Hh Hk i j Hi Hj. now apply (HC h k i j).
  - intros h k Hh Hk. split; intros h' i j [= <-] Hi Hj N; now apply (HC h k i j).
  - intros i Hi. now apply HN.
  - intros i Hi. now apply HN.
  - easy.
Qed.

(** The product x*y, moved from radius 1 into a region with radii (1, 2): the value of the
    new model at (1, 2) is 5/2 instead of 2, and its square terms are not symmetric. *)
Definition prod_model : smodel :=
  mkS 2 0 (fun _ => 0)
      (Some (fun i j => match i, j with O, 1%nat => 1 | 1%nat, O => 1 | _, _ => 0 end))
      (MScalar 1) (fun _ => 0).
Theorem C39_vector_radius_refuted :
  exists m h center radius m' x,
    sm_h m = Some h /\ fsymm (sm_n m) h /\
    (forall i, (i < sm_n m)%nat -> 0 < scale_at (sm_scale m) i /\ 0 < scale_at radius i) /\
    move_smodel m center radius = Ok m' /\
    predict_scalar m' (to_unit center radius x)
    <> predict_scalar m (to_unit (sm_shift m) (sm_scale m) x).
Proof.
  eexists prod_model, _, (fun _ => 0), (MVector (fun i => match i with O => 1 | _ => 2 end)),
     _, (fun i => match i with O => 1 | _ => 2 end).
  split; [reflexivity|]. split; [|split; [|split; [reflexivity|]]].
  - intros [|[|i]] [|[|j]] _ _; reflexivity.
  - intros [|[|i]] _; simpl; lra.
  - unfold predict_scalar, to_unit. simpl.
    unfold fmv, fsub, fadd, fdot, fvm, predict_scalar, fdot, fvm. simpl. lra.
Qed.

(** * C40 *)

(** C40 - add_models.  Proved when both or neither of the models have square terms; then a
    returned model predicts the sum.  Missing: only the second one has square terms, where
    the property is false (below). *)
Theorem C40_sum_of_scalar_models_partial :
  forall a b m, sm_n b = sm_n a -> (sm_h a = None -> sm_h b = None) ->
    add_models_scalar a b = Ok m ->
    forall x, predict_scalar m x = predict_scalar a x + predict_scalar b x.
Proof.
  intros a b m Hn Hh H x. unfold add_models_scalar in H.
  destruct (negb _); [discriminate|]. destruct (negb _); [discriminate|].
  rewrite !predict_scalar_value. unfold value_s, quad.
  destruct (sm_h a) as [h1|] eqn:H1; [destruct (sm_h b) as [h2|] eqn:H2; [|discriminate]|];
    injection H as <-; simpl; rewrite ?H1, ?H2, ?(Hh eq_refl), ?Hn; simpl.
  - rewrite (bsum_ext _ _ (fun i => sm_g a i * x i + sm_g b i * x i)) by (intros; unfold fadd; lra).
    rewrite (bsum_ext _ (fun i => bsum (sm_n a) (fun j => (h1 i j + h2 i j) * x i * x j))
       (fun i => bsum (sm_n a) (fun j => h1 i j * x i * x j) + bsum (sm_n a) (fun j => h2 i j * x i * x j))).
    2:{ intros i _. rewrite <- bsum_plus. apply bsum_ext. intros. lra. }
    rewrite !bsum_plus. lra.
  - rewrite (bsum_ext _ _ (fun i => sm_g a i * x i + sm_g b i * x i)) by (intros; unfold fadd; lra).
    rewrite !bsum_plus.
    rewrite (bsum_all_zero _ (fun i => bsum (sm_n a) (fun j => 0 * x i * x j)))
      by (intros; apply bsum_all_zero; intros; lra). lra.
Qed.

Theorem C40_sum_of_vector_models_partial :
  forall a b m, vm_n b = vm_n a -> (vm_h a = None -> vm_h b = None) ->
    add_models_vector a b = Ok m ->
    forall x k, predict_vector m x k = predict_vector a x k + predict_vector b x k.
Proof.
  intros a b m Hn Hh H x k. unfold add_models_vector in H.
  destruct (negb _); [discriminate|]. destruct (negb _); [discriminate|].
  rewrite !predict_vector_value. unfold value_v, quad.
  destruct (vm_h a) as [h1|] eqn:H1; [destruct (vm_h b) as [h2|] eqn:H2; [|discriminate]|];
    injection H as <-; simpl; rewrite ?H1, ?H2, ?(Hh eq_refl), ?Hn; simpl; unfold fadd.
  - rewrite (bsum_ext _ _ (fun i => vm_g a k i * x i + vm_g b k i * x i)) by (intros; lra).
    rewrite (bsum_ext _ (fun i => bsum (vm_n a) (fun j => (h1 k i j + h2 k i j) * x i * x j))
       (fun i => bsum (vm_n a) (fun j => h1 k i j * x i * x j) + bsum (vm_n a) (fun j => h2 k i j * x i * x j))).
    2:{ intros i _. rewrite <- bsum_plus. apply bsum_ext. intros. lra. }
    rewrite !bsum_plus. lra.
  - rewrite (bsum_ext _ _ (fun i => vm_g a k i * x i + vm_g b k i * x i)) by (intros; lra).
    rewrite !bsum_plus.
    rewrite (bsum_all_zero _ (fun i => bsum (vm_n a) (fun j => 0 * x i * x j)))
      by (intros; apply bsum_all_zero; intros; lra). lra.
Qed.

(** When only the second model has square terms, a model is returned and it predicts the
    sum exactly at the points where those square terms do not contribute. *)
Theorem C40_dropped_square_terms_partial :
  forall a b h m, sm_n b = sm_n a -> sm_h a = None -> sm_h b = Some h ->
    add_models_scalar a b = Ok m ->
    forall x, predict_scalar m x
              = predict_scalar a x + predict_scalar b x
                - / 2 * bsum (sm_n a) (fun i => bsum (sm_n a) (fun j => h i j * x i * x j)).
Proof.
  intros a b h m Hn H1 H2 H x. unfold add_models_scalar in H.
  destruct (negb _); [discriminate|]. destruct (negb _); [discriminate|].
  rewrite H1 in H. injection H as <-.
  rewrite !predict_scalar_value. unfold value_s, quad. simpl. rewrite H1, H2, Hn. simpl.
  rewrite (bsum_ext _ _ (fun i => sm_g a i * x i + sm_g b i * x i)) by (intros; unfold fadd; lra).
  rewrite !bsum_plus.
  rewrite (bsum_all_zero _ (fun i => bsum (sm_n a) (fun j => 0 * x i * x j)))
    by (intros; apply bsum_all_zero; intros; lra). lra.
Qed.

Lemma isclose_default_refl a : isclose_default a a = true.
Proof.
  apply Rleb_true. rewrite Rminus_diag_eq, Rabs_R0 by easy.
  pose proof (Rabs_pos a). lra.
Qed.
Lemma allclose_refl n x : allclose n x x = true.
Proof. apply forallb_forall. intros. apply isclose_default_refl. Qed.

Theorem C40_sum_of_models_refuted :
  exists a b m x, sm_n a = sm_n b /\ sm_scale a = sm_scale b /\ sm_shift a = sm_shift b /\
    add_models_scalar a b = Ok m /\
    predict_scalar m x <> predict_scalar a x + predict_scalar b x.
Proof.
  exists (mkS 1 0 (fun _ => 0) None (MScalar 1) (fun _ => 0)),
         (mkS 1 0 (fun _ => 0) (Some (fun _ _ => 2)) (MScalar 1) (fun _ => 0)).
  eexists _, (fun _ => 1). split; [easy|]. split; [easy|]. split; [easy|]. split.
  - unfold add_models_scalar. simpl sm_shift. rewrite allclose_refl.
    cbn [allclose_scale sm_scale]. rewrite isclose_default_refl. reflexivity.
  - unfold predict_scalar, fdot, fvm. simpl. unfold fadd. lra.
Qed.

(** add_models never mixes models of clearly different regions. *)
Theorem C40_regions_agree :
  forall a b m, add_models_scalar a b = Ok m ->
    sm_shift m = sm_shift a /\ sm_scale m = sm_scale a /\
    forall i, (i < sm_n a)%nat ->
      Rabs (sm_shift a i - sm_shift b i) <= / 10 ^ 8 + / 10 ^ 5 * Rabs (sm_shift b i) /\
      Rabs (scale_at (sm_scale a) i - scale_at (sm_scale b) i)
        <= / 10 ^ 8 + / 10 ^ 5 * Rabs (scale_at (sm_scale b) i).
Proof.
  intros a b m H. unfold add_models_scalar in H.
  destruct (allclose _ _ _) eqn:E1; [|discriminate].
  destruct (allclose_scale _ _ _) eqn:E2; [|discriminate]. simpl in H.
  assert (K : forall u v, isclose_default u v = true ->
             Rabs (u - v) <= / 10 ^ 8 + / 10 ^ 5 * Rabs v).
  { intros u v Q. apply Rleb_true in Q. replace (10 ^ 8) with 100000000 by lra.
    replace (10 ^ 5) with 100000 by lra. exact Q. }
  assert (P : sm_shift m = sm_shift a /\ sm_scale m = sm_scale a).
  { destruct (sm_h a), (sm_h b); try discriminate; injection H as <-; easy. }
  split; [easy|]. split; [easy|]. intros i Hi. split; apply K.
  - unfold allclose in E1. rewrite forallb_forall in E1. apply (E1 i). apply in_seq. lia.
  - unfold allclose_scale, allclose in E2.
    destruct (sm_scale a), (sm_scale b); cbn [scale_at]; try exact E2;
      rewrite forallb_forall in E2; apply (E2 i); apply in_seq; lia.
Qed.
