(** Consequences of the theory of the determinant: C131 and C128 for the determinant, the degenerate
    samples of C132, and C135 (the criterion of the optimal sampler of sample_points.py). *)
From Coq Require Import Reals List Arith ZArith Bool Lia Lra Psatz Permutation.
From Verif Require Import Base XR Vec FVec VolumeModel RegionModel ModelsModel FitModel GeometryModel PoisednessModel
  SampleModel Prop_Geometry Prop_Poised DetProofs.
Import ListNotations.
Open Scope R_scope.
Notation fdet := GeometryModel.fdet.

(** * Sums over lists of points *)

(** [hyperplane p pts]: some direction is orthogonal to all points, that is, the points do not
    span the space. *)
Definition hyperplane (p : nat) (pts : list vec) : Prop :=
  exists v : fvec, (exists i, (i < p)%nat /\ v i <> 0) /\
    forall x, In x pts -> bsum p (fun k => nth k x 0 * v k) = 0.

Definition second_moment (pts : list vec) : fmat :=
  fun a b => fold_right (fun x s => nth a x 0 * nth b x 0 + s) 0 pts.

Lemma moment_quad p pts v : quad p (second_moment pts) v
  = fold_right (fun x s => bsum p (fun k => nth k x 0 * v k) * bsum p (fun k => nth k x 0 * v k) + s) 0 pts.
Proof.
  induction pts as [|x pts IH]; unfold quad in *; cbn [second_moment fold_right].
  - apply bsum_all_zero. intros i _. rewrite bsum_all_zero by (intros; ring). ring.
  - set (d := bsum p (fun k => nth k x 0 * v k)) in *.
    rewrite (bsum_ext p _ (fun i => (nth i x 0 * v i) * d + v i * bsum p (fun j => second_moment pts i j * v j))).
    + rewrite bsum_plus, bsum_scal_r. fold d. rewrite IH. reflexivity.
    + intros i Hi. rewrite (bsum_ext p _ (fun j => nth i x 0 * (nth j x 0 * v j) + second_moment pts i j * v j))
        by (intros; unfold second_moment; ring).
      rewrite bsum_plus, bsum_scal. fold d. ring.
Qed.
Lemma moment_psd p pts : psd p (second_moment pts).
Proof.
  split.
  - intros a b _ _. unfold second_moment. induction pts as [|x pts IH]; cbn [fold_right]; [easy|]. rewrite IH. ring.
  - intros v. rewrite moment_quad. induction pts as [|x pts IH]; cbn [fold_right]; [lra|].
    pose proof (Rle_0_sqr (bsum p (fun k => nth k x 0 * v k))). unfold Rsqr in *. lra.
Qed.
Lemma moment_zero p pts v : quad p (second_moment pts) v = 0 <->
  forall x, In x pts -> bsum p (fun k => nth k x 0 * v k) = 0.
Proof.
  rewrite moment_quad.
  assert (NN : forall l, 0 <= fold_right (fun x s => bsum p (fun k => nth k x 0 * v k) * bsum p (fun k => nth k x 0 * v k) + s) 0 l).
  { induction l as [|x l IH]; cbn [fold_right]; [lra|].
    pose proof (Rle_0_sqr (bsum p (fun k => nth k x 0 * v k))). unfold Rsqr in *. lra. }
  induction pts as [|x pts IH]; cbn [fold_right]; [simpl; tauto|].
  pose proof (Rle_0_sqr (bsum p (fun k => nth k x 0 * v k))) as SQ. unfold Rsqr in SQ. specialize (NN pts).
  split.
  - intros H y [<-|Hy].
    + assert (bsum p (fun k => nth k x 0 * v k) * bsum p (fun k => nth k x 0 * v k) = 0) by lra. nra.
    + apply IH; [lra|easy].
  - intros H. rewrite (proj2 IH) by (intros; apply H; now right). rewrite (H x) by now left. ring.
Qed.
Lemma moment_det p pts :
  0 <= fdet p (second_moment pts) /\ (fdet p (second_moment pts) = 0 <-> hyperplane p pts).
Proof.
  destruct (psd_det p _ (moment_psd p pts)) as [N Z]. split; [easy|]. split.
  - intros E. destruct (Z E) as (v & NZ & Q). exists v. split; [easy|]. now apply moment_zero.
  - intros (v & (i & Hi & NZ) & O). destruct (Req_dec (fdet p (second_moment pts)) 0) as [|D]; [easy|]. exfalso.
    apply NZ. apply (fdet_columns_independent p _ D v); [|easy].
    intros r Hr. apply (psd_kernel p _ v (moment_psd p pts)); [now apply moment_zero|easy].
Qed.
Lemma moment_app a b pts pts' : second_moment (pts ++ pts') a b = second_moment pts a b + second_moment pts' a b.
Proof. unfold second_moment. induction pts as [|x pts IH]; cbn [app fold_right]; [lra|]. rewrite IH. ring. Qed.
Lemma moment_monotone p pts pts' : fdet p (second_moment pts) <= fdet p (second_moment (pts ++ pts')).
Proof.
  apply psd_det_monotone; [apply moment_psd|apply moment_psd|]. intros v. rewrite !moment_quad, fold_right_app.
  induction pts as [|x pts IH]; cbn [fold_right]; [|lra].
  induction pts' as [|x pts IH]; cbn [fold_right]; [lra|].
  pose proof (Rle_0_sqr (bsum p (fun k => nth k x 0 * v k))). unfold Rsqr in *. lra.
Qed.

(** * C132 *)

Lemma xtx_moment pts a b : bsum (length pts) (fun r => nth a (nth r pts []) 0 * nth b (nth r pts []) 0) = second_moment pts a b.
Proof.
  induction pts as [|x pts IH]; [reflexivity|]. cbn [length]. rewrite bsum_shift. cbn [nth second_moment fold_right].
  now rewrite IH.
Qed.
Lemma quality_moment sample reg : sample <> [] ->
  let det := fdet (length (r_center reg)) (second_moment (map (map_to_unit reg) sample)) in
  (0 < det -> log_d_quality_calculator sample reg = Fin (ln det)) /\
  (det = 0 -> log_d_quality_calculator sample reg = NInf).
Proof.
  intros NE det. pose proof (C132_log_of_determinant sample reg NE) as H. cbv zeta beta in H.
  match type of H with (0 < ?d -> _) /\ _ => assert (E : d = det); [|rewrite E in H; exact H] end.
  unfold det. apply fdet_ext. intros a b _ _. rewrite <- xtx_moment, map_length. apply bsum_ext. intros r Hr.
  now rewrite !(nth_indep (map (map_to_unit reg) sample) [] (map_to_unit reg [])), !map_nth by now rewrite map_length.
Qed.

(** C132 - the quality of a non-empty sample is never NaN or plus infinity; it is minus infinity
    exactly if the points, in coordinates of the unit region, do not span the space. *)
Theorem C132_degenerate_samples :
  forall sample reg, sample <> [] ->
    (log_d_quality_calculator sample reg = NInf <->
     hyperplane (length (r_center reg)) (map (map_to_unit reg) sample)) /\
    (log_d_quality_calculator sample reg <> NInf -> exists q, log_d_quality_calculator sample reg = Fin q).
Proof.
  intros sample reg NE. destruct (quality_moment sample reg NE) as [P Z].
  destruct (moment_det (length (r_center reg)) (map (map_to_unit reg) sample)) as [N H].
  destruct N as [N|N].
  - rewrite (P N). split; [|intros _; eexists; reflexivity]. split; [discriminate|]. intros Hy. apply H in Hy. lra.
  - rewrite (Z (eq_sym N)). split; [|easy]. split; [|easy]. intros _. now apply H.
Qed.

(** C132 - fewer points than parameters are always degenerate: in particular the quality is
    minus infinity. *)
Lemma hyperplane_few p : forall pts, (length pts < p)%nat -> hyperplane p pts.
Proof.
  intros pts L. apply moment_det.
  destruct (Req_dec (fdet p (second_moment pts)) 0) as [|D]; [easy|]. exfalso.
  set (B := (fun r c => nth r (nth c pts []) 0) : fmat). set (C := (fun r c => nth c (nth r pts []) 0) : fmat).
  assert (E : fdet p (second_moment pts) = fdet p (fprod p B C)).
  { apply fdet_ext. intros a b _ _. unfold fprod. rewrite <- xtx_moment.
    replace p with (length pts + (p - length pts))%nat by lia. rewrite bsum_app.
    rewrite (bsum_all_zero (p - length pts)); [unfold B, C; cbv beta; lra|].
    intros i Hi. unfold B, C. rewrite (nth_overflow pts) by lia. destruct a; simpl; lra. }
  rewrite E, fdet_product in D. clear E.
  rewrite (fdet_zero_column p B (length pts)) in D; [apply D; ring|easy|].
  intros r Hr. unfold B. rewrite (nth_overflow pts) by lia. now destruct r.
Qed.
Theorem C132_too_few_points :
  forall sample reg, sample <> [] -> (length sample < length (r_center reg))%nat ->
    log_d_quality_calculator sample reg = NInf.
Proof.
  intros sample reg NE L. apply C132_degenerate_samples; [easy|]. apply hyperplane_few. now rewrite map_length.
Qed.

(** C132 - more points never lower the quality. *)
Theorem C132_more_points :
  forall sample more reg q, sample <> [] ->
    log_d_quality_calculator sample reg = Fin q ->
    exists q', log_d_quality_calculator (sample ++ more) reg = Fin q' /\ q <= q'.
Proof.
  intros s m reg q NE H. assert (NE' : s ++ m <> []) by now destruct s.
  destruct (quality_moment s reg NE) as [P Z], (quality_moment (s ++ m) reg NE') as [P' _].
  destruct (moment_det (length (r_center reg)) (map (map_to_unit reg) s)) as [[N|N] _]; [|rewrite Z in H by easy; discriminate].
  rewrite (P N) in H. injection H as <-.
  pose proof (moment_monotone (length (r_center reg)) (map (map_to_unit reg) s) (map (map_to_unit reg) m)) as LE.
  rewrite <- map_app in LE. rewrite P' by lra. eexists. split; [reflexivity|].
  destruct LE as [LE|LE]; [left; now apply ln_increasing|right; now rewrite LE].
Qed.

(** * C128 and C131 *)

(** C128 - a sample with as many points as coefficients and a non-zero feature determinant has both
    properties of the Lagrange polynomials. *)
Theorem C128_determinant :
  forall pinv n sample, length sample = n_basis n ->
    fdet (n_basis n) (features_of n sample) <> 0 ->
    pinv_correct_at pinv n sample ->
    (forall i j, (i < length sample)%nat -> (j < length sample)%nat ->
       poly_at n (lagrange_poly pinv n sample i) (nth j sample []) = if (i =? j)%nat then 1 else 0) /\
    (forall c x, length c = n_basis n ->
       bsum (length sample) (fun i => poly_at n c (nth i sample []) * poly_at n (lagrange_poly pinv n sample i) x)
       = poly_at n c x).
Proof.
  intros pinv n sample L D PC. split.
  - intros i j Hi Hj. apply C128_one_at_own_point_zero_elsewhere; try easy. rewrite L. now apply fdet_rows_independent.
  - intros c x Hc. apply C128_reproduction; try easy. rewrite L. now apply fdet_columns_independent.
Qed.

(** C131 - for samples with as many points as coefficients, up to two parameters: the absolute
    value of the determinant of the features is multiplied by the product of the constants; with
    an exact optimizer and points in the shape no constant is less than one, so the determinant
    never decreases.  Missing: more than two parameters (C45). *)
Theorem C131_determinant_partial :
  forall pinv mz n k sample sh s' ls, (n <= 2)%nat ->
    length sample = n_basis n ->
    fdet (n_basis n) (features_of n sample) <> 0 ->
    pinv_correct_along pinv mz n sample sh k ->
    improve_poisedness pinv mz n sample sh k = Ok (s', ls) ->
    Rabs (fdet (n_basis n) (features_of n s'))
    = fold_right Rmult 1 ls * Rabs (fdet (n_basis n) (features_of n sample)) /\
    (global_maximizer mz -> (forall y, In y sample -> length y = n /\ in_shape sh y) ->
     (forall l, In l ls -> 1 <= l) /\
     Rabs (fdet (n_basis n) (features_of n sample)) <= Rabs (fdet (n_basis n) (features_of n s'))).
Proof.
  intros pinv mz n k sample sh s' ls Hn L D PC H.
  pose proof (fdet_volume_form (n_basis n)) as V.
  assert (CI : columns_independent (length sample) (n_basis n) (features_of n sample)) by (rewrite L; now apply fdet_columns_independent).
  assert (RI : rows_independent (length sample) (n_basis n) (features_of n sample)) by (rewrite L; now apply fdet_rows_independent).
  assert (V' : volume_form (length sample) (n_basis n) (fdet (n_basis n))) by now rewrite L.
  split.
  - now apply (C131_volume_times_lambda_partial pinv mz n k sample sh s' ls).
  - intros GM IN.
    destruct (C131_volume_never_decreases_partial pinv mz n k sample sh s' ls _ Hn V' CI RI IN GM PC H) as (A & B & _).
    easy.
Qed.

(** * C135 *)

Lemma sample_fdet n : forall A, SampleModel.fdet n A = fdet n A.
Proof.
  induction n as [|n IH]; intros A; [reflexivity|]. cbn [SampleModel.fdet]. rewrite fdet_S. apply bsum_ext.
  intros j Hj. rewrite IH. f_equal. f_equal. clear. induction j as [|j IH]; [reflexivity|].
  rewrite Nat.even_succ, <- Nat.negb_even. simpl. rewrite <- IH. destruct (Nat.even j); simpl; lra.
Qed.

(** C135 - the criterion that the optimal sampler maximizes is NaN if one of the points cannot be
    projected; otherwise it is never negative and it is zero exactly if the projected points and the
    existing points together do not span the space. *)
Theorem C135_determinant_criterion :
  forall xs existing sh n, xs <> [] ->
    (forall sample, all_rows (stack (project_onto_unit_hull sh xs) existing) = Some sample ->
       exists d, determinant_on_hull xs existing sh n = Fin d /\ 0 <= d /\ (d = 0 <-> hyperplane n sample)) /\
    (all_rows (stack (project_onto_unit_hull sh xs) existing) = None ->
       determinant_on_hull xs existing sh n = NaN).
Proof.
  intros xs ex sh n NE. unfold determinant_on_hull. split.
  - intros sample E. rewrite E. eexists. split; [reflexivity|]. rewrite sample_fdet.
    set (c := INR (length xs)).
    assert (C : 0 < c) by (apply lt_0_INR; destruct xs; [easy|simpl; lia]).
    assert (F : fdet n (SampleModel.gram sample (length xs)) = (/ c) ^ n * fdet n (second_moment sample)).
    { rewrite <- fdet_scale. apply fdet_ext. intros i j _ _. unfold SampleModel.gram, second_moment. fold c.
      unfold Rdiv. ring. }
    rewrite F. destruct (moment_det n sample) as [N Z].
    assert (P : 0 < (/ c) ^ n) by now apply pow_lt, Rinv_0_lt_compat.
    split; [nra|]. rewrite <- Z. split; [|intros ->; ring]. intros H. apply Rmult_integral in H as [H|H]; lra.
  - intros ->. reflexivity.
Qed.

(** C135 - adding existing points never lowers the criterion. *)
Theorem C135_existing_points :
  forall xs e sh n d d', xs <> [] ->
    determinant_on_hull xs None sh n = Fin d ->
    determinant_on_hull xs (Some e) sh n = Fin d' -> d <= d'.
Proof.
  intros xs e sh n d d' NE. unfold determinant_on_hull. cbn [stack].
  destruct (all_rows (project_onto_unit_hull sh xs)) as [s|] eqn:E; [|discriminate]. intros [= <-].
  destruct (all_rows (project_onto_unit_hull sh xs ++ e)) as [s'|] eqn:E'; [|discriminate]. intros [= <-].
  assert (A : forall l s, all_rows l = Some s -> l = map Some s).
  { clear. induction l as [|[x|] l IH]; cbn [all_rows]; intros s H; [now injection H as <-| |discriminate].
    destruct (all_rows l); [|discriminate]. injection H as <-. simpl. f_equal. now apply IH. }
  assert (X : exists t, s' = s ++ t).
  { apply A in E, E'. rewrite E in E'. clear -E'. revert s' E'. induction s as [|x s IH]; intros s' H; [now exists s'|].
    destruct s' as [|y s']; [discriminate|]. simpl in H. injection H as <- H. apply IH in H as [t ->]. now exists t. }
  destruct X as [t ->]. rewrite !sample_fdet. set (c := INR (length xs)).
  assert (C : 0 < c) by (apply lt_0_INR; destruct xs; [easy|simpl; lia]).
  assert (F : forall sample, fdet n (SampleModel.gram sample (length xs)) = (/ c) ^ n * fdet n (second_moment sample)).
  { intros sample. rewrite <- fdet_scale. apply fdet_ext. intros i j _ _. unfold SampleModel.gram, second_moment. fold c.
    unfold Rdiv. ring. }
  rewrite !F. apply Rmult_le_compat_l; [left; now apply pow_lt, Rinv_0_lt_compat|]. apply moment_monotone.
Qed.

(** * Examples *)

(** The quality of the sample of [ex_C132] with one more point. *)
Example ex_C132_more : let reg := mkRegion [0; 0] 1 None Sphere [-1; -1] [1; 1] in
  log_d_quality_calculator [[1; 2]] reg = NInf /\
  exists q, log_d_quality_calculator [[1; 0]; [0; 1]; [1; 1]; [1 / 2; 0]] reg = Fin q /\ ln 3 <= q.
Proof.
  intros reg. split; [apply C132_too_few_points; [easy|simpl; lia]|].
  apply (C132_more_points [[1; 0]; [0; 1]; [1; 1]] [[1 / 2; 0]] reg (ln 3)); [easy|]. apply ex_C132.
Qed.
(** Two points of the circle and an existing point. *)
Example ex_C135 :
  hyperplane 2 [[1; 1]; [2; 2]] /\ ~ hyperplane 2 [[1; 0]; [0; 1]].
Proof.
  split.
  - exists (fun k => match k with O => 1 | _ => -1 end). split.
    + exists 0%nat. split; [lia|lra].
    + intros x [<-|[<-|[]]]; simpl; lra.
  - intros (v & (i & Hi & NZ) & O). apply NZ.
    pose proof (O [1; 0] ltac:(simpl; auto)) as O1. pose proof (O [0; 1] ltac:(simpl; auto)) as O2. simpl in O1, O2.
    destruct i as [|[|]]; [lra|lra|lia].
Qed.
Example ex_C131_determinant :
  length ex_line3 = n_basis 1 /\ fdet (n_basis 1) (features_of 1 ex_line3) = 1.
Proof.
  split; [reflexivity|]. destruct ex_C131 as (V & D & _). change (n_basis 1) with 3%nat in *.
  pose proof (volume_form_unique 3 det3 (features_of 1 ex_line3) V) as E. rewrite D in E.
  replace (det3 fid) with 1 in E by (unfold det3, fid; simpl; lra). lra.
Qed.
