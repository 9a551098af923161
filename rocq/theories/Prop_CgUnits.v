(** Properties C193 and C194: the conjugate gradient solvers and the units of the problem. *)
From Coq Require Import Reals List Arith ZArith Bool Lia Lra Psatz FunctionalExtensionality.
From Verif Require Import Base XR Vec FVec CgModel TrsboxModel Prop_Cg GqtparModel Prop_Gqtpar Prop_Gqtpar2 Prop_GqtparFast Prop_Units.
Import ListNotations.
Open Scope R_scope.

Section Units.
Variables a c : R.
Hypothesis Pa : 0 < a.
Hypothesis Pc : 0 < c.

Definition out (r : res fvec) : res fvec := match r with Ok x => Ok (fscale (/ c) x) | Err e => Err e end.

Lemma fmv_scaled n k l M x : fmv n (mscaled k M) (fscale l x) = fscale (k * l) (fmv n M x).
Proof.
  apply functional_extensionality. intros i. unfold fmv, fscale, mscaled. rewrite <- bsum_scal. apply bsum_ext. intros. ring.
Qed.
Lemma fvm_scaled2 n k l M x : fvm n (fscale l x) (mscaled k M) = fscale (k * l) (fvm n x M).
Proof.
  apply functional_extensionality. intros i. unfold fvm, fscale, mscaled. rewrite <- bsum_scal. apply bsum_ext. intros. ring.
Qed.
Lemma fadd_scaled k x y : fadd (fscale k x) (fscale k y) = fscale k (fadd x y).
Proof. apply functional_extensionality. intros i. unfold fadd, fscale. ring. Qed.
Lemma fscale_fscale k l x : fscale k (fscale l x) = fscale (k * l) x.
Proof. apply functional_extensionality. intros i. unfold fscale. ring. Qed.
Lemma fopp_scaled k x : fopp (fscale k x) = fscale k (fopp x).
Proof. apply functional_extensionality. intros i. unfold fopp, fscale. ring. Qed.

Lemma msqrt_scaled k x : 0 < k -> msqrt (k * k * x) = match msqrt x with Ok s => Ok (k * s) | Err e => Err e end.
Proof.
  intros P. unfold msqrt. replace 0 with (k * k * 0) at 1 by ring. rewrite Rltb_scaled by nra.
  destruct (Rltb x 0); [reflexivity|]. rewrite sqrt_mult_alt by nra. now rewrite sqrt_square by lra.
Qed.

Lemma distance_scaled n x d radius :
  cg_distance_to_boundary n (fscale (/ c) x) (fscale a d) (radius / c)
  = match cg_distance_to_boundary n x d radius with Ok t => Ok (t / (a * c)) | Err e => Err e end.
Proof.
  unfold cg_distance_to_boundary. rewrite !fdot_scaled.
  set (cc := fdot n x x). set (cd := fdot n x d). set (dd := fdot n d d).
  assert (Pk : 0 < a / c) by (unfold Rdiv; apply Rmult_lt_0_compat; [easy|now apply Rinv_0_lt_compat]).
  replace (/ c * a * cd * (/ c * a * cd) + a * a * dd * (radius / c * (radius / c) - / c * / c * cc))
    with (a / c * (a / c) * (cd * cd + dd * (radius * radius - cc))) by (field; lra).
  rewrite msqrt_scaled by easy. destruct (msqrt _) as [s|e]; [|reflexivity]. cbn [bind].
  replace (- (/ c * a * cd) + a / c * s) with (a / c * (- cd + s)) by (field; lra).
  rewrite div_scaled by nra. destruct (div _ _); [|reflexivity]. f_equal. field. lra.
Qed.

Definition cgs_scaled (s : cgs) : cgs := mkCg (fscale (/ c) (cg_x s)) (fscale a (cg_r s)) (fscale a (cg_d s)).

Lemma cg_step_scaled n H radius tol s :
  cg_step n (mscaled (a * c) H) (radius / c) (a * tol) (cgs_scaled s)
  = match cg_step n H radius tol s with
    | Ok (inl x) => Ok (inl (fscale (/ c) x)) | Ok (inr s') => Ok (inr (cgs_scaled s')) | Err e => Err e end.
Proof.
  unfold cg_step. cbn [cgs_scaled cg_x cg_r cg_d]. rewrite fnorm_scaled by lra. rewrite Rleb_scaled by easy.
  destruct (Rleb (fnorm n (cg_r s)) tol); [reflexivity|].
  rewrite distance_scaled, fvm_scaled2, !fdot_scaled. set (sq := fdot n (fvm n (cg_d s) H) (cg_d s)). set (rr := fdot n (cg_r s) (cg_r s)).
  destruct (cg_distance_to_boundary n (cg_x s) (cg_d s) radius) as [t|e]; [|reflexivity]. cbn [bind].
  assert (Pac : 0 < a * c) by nra. assert (Pi : 0 < / (a * c)) by now apply Rinv_0_lt_compat.
  assert (P3 : 0 < a * c * a * a) by (apply Rmult_lt_0_compat; [apply Rmult_lt_0_compat|]; easy).
  replace 0 with (a * c * a * a * 0) at 1 by ring. rewrite Rltb_scaled by easy.
  assert (B : fadd (fscale (/ c) (cg_x s)) (fscale (t / (a * c)) (fscale a (cg_d s))) = fscale (/ c) (fadd (cg_x s) (fscale t (cg_d s)))).
  { rewrite <- fadd_scaled, !fscale_fscale. f_equal. f_equal. field. lra. }
  destruct (Rltb_spec 0 sq) as [Hs|Hs]; [|now rewrite B].
  replace (a * a * rr / (a * c * a * a * sq)) with (/ (a * c) * (rr / sq)) by (field; lra).
  replace (t / (a * c)) with (/ (a * c) * t) by (field; lra). rewrite Rltb_scaled by easy.
  destruct (Rltb t (rr / sq)).
  - replace (/ (a * c) * t) with (t / (a * c)) by (field; lra). now rewrite B.
  - set (al := rr / sq). unfold cg_update. cbn [cgs_scaled cg_x cg_r cg_d].
    assert (B2 : fadd (fscale (/ c) (cg_x s)) (fscale (/ (a * c) * al) (fscale a (cg_d s))) = fscale (/ c) (fadd (cg_x s) (fscale al (cg_d s)))).
    { rewrite <- fadd_scaled, !fscale_fscale. f_equal. f_equal. field. lra. }
    assert (B3 : fadd (fscale a (cg_r s)) (fscale (/ (a * c) * al) (fmv n (mscaled (a * c) H) (fscale a (cg_d s))))
               = fscale a (fadd (cg_r s) (fscale al (fmv n H (cg_d s))))).
    { rewrite fmv_scaled, <- fadd_scaled, !fscale_fscale. f_equal. f_equal. field. lra. }
    rewrite B2, B3, !fdot_scaled. rewrite div_scaled by nra. destruct (div _ _) as [be|e]; [|reflexivity]. cbn [bind].
    unfold cgs_scaled. cbn [cg_x cg_r cg_d]. do 3 f_equal. rewrite fopp_scaled, <- fadd_scaled, !fscale_fscale. f_equal. f_equal. field. lra.
Qed.

Lemma cg_loop_scaled k n H radius tol : forall s,
  cg_loop k n (mscaled (a * c) H) (radius / c) (a * tol) (cgs_scaled s) = out (cg_loop k n H radius tol s).
Proof.
  induction k as [|k IH]; intros s; [reflexivity|]. cbn [cg_loop]. rewrite cg_step_scaled.
  destruct (cg_step n H radius tol s) as [[x|s']|e]; cbn [bind]; [reflexivity|apply IH|reflexivity].
Qed.
End Units.

(** C193 - units.  With the criterion measured in units 1/a and the parameters in units c the
    conjugate gradient solver returns the same step in the new units, or the same error, provided
    that the absolute tolerance is converted. *)
Theorem C193_cg_units n (g : fvec) (H : fmat) radius gtol_abs gtol_rel a c : 0 < a -> 0 < c ->
  minimize_trust_cg n (fun i => a * g i) (fun i j => a * c * H i j) (radius / c) (a * gtol_abs) gtol_rel
  = match minimize_trust_cg n g H radius gtol_abs gtol_rel with
    | Ok x => Ok (fun i => / c * x i)
    | Err e => Err e
    end.
Proof.
  intros Pa Pc. unfold minimize_trust_cg.
  change (fun i => a * g i) with (fscale a g). change (fun i j => a * c * H i j) with (mscaled (a * c) H).
  replace (cg_stop_tol n (fscale a g) (a * gtol_abs) gtol_rel) with (a * cg_stop_tol n g gtol_abs gtol_rel).
  2: { unfold cg_stop_tol. rewrite fnorm_scaled by lra. rewrite <- Rmax_scaled by lra. f_equal. ring. }
  replace (cg_init (fscale a g)) with (cgs_scaled a c (cg_init g)).
  2: { unfold cgs_scaled, cg_init. cbn [cg_x cg_r cg_d]. rewrite fopp_scaled. f_equal.
       apply functional_extensionality. intros i. unfold fscale, fzero. ring. }
  apply cg_loop_scaled; easy.
Qed.

(** Without an absolute tolerance the step does not depend on the units of the criterion. *)
Theorem C193_relative_tolerance n (g : fvec) (H : fmat) radius gtol_rel a : 0 < a ->
  minimize_trust_cg n (fun i => a * g i) (fun i j => a * H i j) radius 0 gtol_rel
  = minimize_trust_cg n g H radius 0 gtol_rel.
Proof.
  intros Pa. pose proof (C193_cg_units n g H radius 0 gtol_rel a 1 Pa Rlt_0_1) as E.
  replace (a * 0) with 0 in E by ring. replace (radius / 1) with radius in E by field.
  replace (fun i j => a * 1 * H i j) with (fun i j => a * H i j) in E
    by (apply functional_extensionality; intros i; apply functional_extensionality; intros j; ring).
  rewrite E. destruct (minimize_trust_cg n g H radius 0 gtol_rel) as [x|e]; [|reflexivity].
  f_equal. apply functional_extensionality. intros i. field.
Qed.

(** With the default tolerances 1e-8 and 1e-6 it does: x^2 / 2 - x is minimized exactly, 1e-9 times
    this model not at all. *)
Theorem C193_default_tolerances : exists x x',
  minimize_trust_cg 1 (fun _ => -1) (fun _ _ => 1) 2 (/ 10 ^ 8) (/ 10 ^ 6) = Ok x /\ x 0%nat = 1 /\
  minimize_trust_cg 1 (fun _ => / 10 ^ 9 * -1) (fun _ _ => / 10 ^ 9 * 1) 2 (/ 10 ^ 8) (/ 10 ^ 6) = Ok x' /\ x' 0%nat = 0.
Proof.
  assert (Eg : forall u, 0 <= u -> fnorm 1 (fun _ => u * -1) = u).
  { intros u P. unfold fnorm, fsq, fdot. cbn [bsum]. replace (0 + u * -1 * (u * -1)) with (u * u) by ring. now apply sqrt_square. }
  assert (T8 : / 10 ^ 8 = 1 / 100000000) by (cbn; field). assert (T6 : / 10 ^ 6 = 1 / 1000000) by (cbn; field).
  assert (T9 : / 10 ^ 9 = 1 / 1000000000) by (cbn; field).
  rewrite T8, T6, T9.
  assert (E1 : fnorm 1 (fun _ => -1) = 1).
  { replace (fun _ : nat => -1) with (fun _ : nat => 1 * -1) by (apply functional_extensionality; intros; ring). apply Eg. lra. }
  eexists _, _. split; [|split; [|split]].
  - unfold minimize_trust_cg. cbn [Nat.mul Nat.add cg_loop].
    assert (S : cg_stop_tol 1 (fun _ => -1) (1 / 100000000) (1 / 1000000) = 1 / 1000000) by (unfold cg_stop_tol; rewrite E1, Rmax_right by lra; lra).
    rewrite S. clear S.
    assert (St : cg_step 1 (fun _ _ => 1) 2 (1 / 1000000) (cg_init (fun _ => -1))
               = Ok (inr (mkCg (fun _ => 1) (fun _ => 0) (fun _ => 0)))).
    { unfold cg_step. cbn [cg_init cg_r cg_d cg_x]. rewrite E1. destruct (Rleb_spec 1 (1 / 1000000)); [lra|].
      assert (D : cg_distance_to_boundary 1 fzero (fopp (fun _ => -1)) 2 = Ok 2).
      { unfold cg_distance_to_boundary, msqrt, div, fdot, fzero, fopp. cbn [bsum].
        destruct (Rltb_spec ((0 + 0 * - -1) * (0 + 0 * - -1) + (0 + - -1 * - -1) * (2 * 2 - (0 + 0 * 0))) 0); [lra|]. cbn [bind].
        replace ((0 + 0 * - -1) * (0 + 0 * - -1) + (0 + - -1 * - -1) * (2 * 2 - (0 + 0 * 0))) with (2 * 2) by ring. rewrite sqrt_square by lra.
        unfold Reqb. destruct (Req_EM_T _ 0); [lra|]. f_equal. field. }
      rewrite D. cbn [bind]. unfold fdot, fvm, fopp. cbn [bsum].
      destruct (Rltb_spec 0 (0 + (0 + - -1 * 1) * - -1)); [|lra].
      replace ((0 + -1 * -1) / (0 + (0 + - -1 * 1) * - -1)) with 1 by field. destruct (Rltb_spec 2 1); [lra|].
      unfold cg_update. cbn [cg_init cg_x cg_r cg_d]. unfold fdot, fmv, fadd, fscale, fopp, div. cbn [bsum].
      unfold Reqb. destruct (Req_EM_T (0 + -1 * -1) 0); [lra|]. cbn [bind]. do 2 f_equal. unfold fzero. f_equal.
      - apply functional_extensionality; intros; ring.
      - apply functional_extensionality; intros; ring.
      - apply functional_extensionality; intros; field. }
    rewrite St. cbn [bind]. unfold cg_step. cbn [cg_r cg_x].
    assert (N0 : fnorm 1 (fun _ => 0) = 0) by (unfold fnorm, fsq, fdot; cbn [bsum]; replace (0 + 0 * 0) with 0 by ring; apply sqrt_0).
    rewrite N0. destruct (Rleb_spec 0 (1 / 1000000)); [reflexivity|lra].
  - reflexivity.
  - unfold minimize_trust_cg. cbn [Nat.mul Nat.add cg_loop]. unfold cg_step at 1. cbn [cg_init cg_r cg_x]. unfold cg_stop_tol. rewrite Eg by lra.
    match goal with |- context [Rleb ?u ?v] => destruct (Rleb_spec u v) as [_|L] end; [reflexivity|].
    pose proof (Rmax_l (1 / 100000000) (1 / 1000000 * (1 / 1000000000))). lra.
  - reflexivity.
Qed.

(** x^2 / 2 - x in a region of radius 2, in thousandths of both units. *)
Example C193_instance : exists x,
  minimize_trust_cg 1 (fun _ => 1000 * -1) (fun _ _ => 1000 * / 1000 * 1) (2 / / 1000) (1000 * / 10 ^ 8) (/ 10 ^ 6) = Ok x /\ x 0%nat = 1000.
Proof.
  destruct C193_default_tolerances as (x & x' & E & X & _).
  rewrite (C193_cg_units 1 (fun _ => -1) (fun _ _ => 1) 2), E by lra. eexists. split; [reflexivity|]. cbn. rewrite X. field.
Qed.

(** * Steihaug-Toint *)

Section SteihaugUnits.
Variables a c : R.
Hypothesis Pa : 0 < a.
Hypothesis Pc : 0 < c.

Definition sts_scaled (s : sts) : sts :=
  mkSt (fscale (/ c) (CgModel.st_x s)) (fscale a (st_res s)) (fscale a (st_p s)) (a * a * st_rz s) (a * c * a * a * st_kappa s)
    (a / c * st_dp s) (/ c * / c * st_norm_d s) (a * a * st_norm_p s) (st_conv s) (st_div s) (st_iter s).

Lemma inv_c : 0 < / c.
Proof. now apply Rinv_0_lt_compat. Qed.
Lemma pos_ac : 0 < a * c.
Proof. now apply Rmult_lt_0_compat. Qed.
Lemma pos_k : 0 < a * c * a * a.
Proof. pose proof pos_ac. apply Rmult_lt_0_compat; [apply Rmult_lt_0_compat|]; easy. Qed.

Lemma pos_scaled k x : 0 < k -> Rltb 0 (k * x) = Rltb 0 x.
Proof. intros P. replace 0 with (k * 0) at 1 by ring. now apply Rltb_scaled. Qed.
Lemma npos_scaled k x : 0 < k -> Rleb (k * x) 0 = Rleb x 0.
Proof. intros P. replace 0 with (k * 0) at 1 by ring. now apply Rleb_scaled. Qed.
Lemma radius_scaled r : Reqb (r / c) 0 = Reqb r 0.
Proof. replace (r / c) with (/ c * r) by (unfold Rdiv; ring). apply Reqb_scaled, inv_c. Qed.

Lemma st_check_scaled r r0 ttol divtol cv dv :
  st_check (a * r) (a * r0) (a * ttol) divtol cv dv = st_check r r0 ttol divtol cv dv.
Proof.
  unfold st_check. rewrite Rleb_scaled by easy. destruct (Rleb r ttol); [reflexivity|].
  replace (divtol * (a * r0)) with (a * (divtol * r0)) by ring. now rewrite Rleb_scaled by easy.
Qed.

Lemma to_boundary_scaled x p dp r norm_d norm_p :
  st_to_boundary (fscale (/ c) x) (fscale a p) (a / c * dp) (r / c * (r / c)) (/ c * / c * norm_d) (a * a * norm_p)
  = out c (st_to_boundary x p dp (r * r) norm_d norm_p).
Proof.
  unfold st_to_boundary.
  assert (Pk : 0 < a / c) by (unfold Rdiv; apply Rmult_lt_0_compat; [easy|apply inv_c]).
  replace (a / c * dp * (a / c * dp) + a * a * norm_p * (r / c * (r / c) - / c * / c * norm_d))
    with (a / c * (a / c) * (dp * dp + norm_p * (r * r - norm_d))) by (field; lra).
  rewrite msqrt_scaled by easy. destruct (msqrt _) as [s|e]; [|reflexivity]. cbn [bind].
  rewrite <- Rmult_minus_distr_l, div_scaled by nra. destruct (div _ _) as [t|e]; [|reflexivity]. cbn [bind out].
  f_equal. rewrite <- fadd_scaled, !fscale_fscale. f_equal. f_equal. field. lra.
Qed.

Lemma fsub_scaled k x y : fsub (fscale k x) (fscale k y) = fscale k (fsub x y).
Proof. apply functional_extensionality. intros i. unfold fsub, fscale. ring. Qed.

Lemma st_step_scaled n H r r0 ttol divtol mi s :
  st_step n (mscaled (a * c) H) (r / c) (a * r0) (a * ttol) divtol mi (sts_scaled s)
  = match st_step n H r r0 ttol divtol mi s with
    | Ok (inl x) => Ok (inl (fscale (/ c) x)) | Ok (inr s') => Ok (inr (sts_scaled s')) | Err e => Err e end.
Proof.
  pose proof inv_c as Pi. pose proof pos_ac as Pac. pose proof pos_k as Pk. assert (Paa : 0 < a * a) by nra.
  unfold st_step. cbn [sts_scaled CgModel.st_x st_res st_p st_rz st_kappa st_dp st_norm_d st_norm_p st_conv st_div st_iter].
  rewrite div_scaled by easy. destruct (div (st_rz s) (st_kappa s)) as [al|e]; [|reflexivity]. cbn [bind].
  replace (/ c * / c * st_norm_d s + a * a / (a * c * a * a) * al * (2 * (a / c * st_dp s) + a * a / (a * c * a * a) * al * (a * a * st_norm_p s)))
    with (/ c * / c * (st_norm_d s + al * (2 * st_dp s + al * st_norm_p s))) by (field; lra).
  replace (r / c * (r / c)) with (/ c * / c * (r * r)) at 1 by (field; lra).
  rewrite radius_scaled, Rleb_scaled by nra.
  destruct (negb (Reqb r 0) && Rleb (r * r) (st_norm_d s + al * (2 * st_dp s + al * st_norm_p s)))%bool.
  - rewrite pos_scaled by easy. destruct (Rltb 0 (st_norm_p s)); [|reflexivity].
    rewrite to_boundary_scaled. destruct (st_to_boundary _ _ _ _ _ _); reflexivity.
  - assert (Bx : fadd (fscale (/ c) (CgModel.st_x s)) (fscale (a * a / (a * c * a * a) * al) (fscale a (st_p s)))
               = fscale (/ c) (fadd (CgModel.st_x s) (fscale al (st_p s)))).
    { rewrite <- fadd_scaled, !fscale_fscale. f_equal. f_equal. field. lra. }
    assert (Br : fsub (fscale a (st_res s)) (fscale (a * a / (a * c * a * a) * al) (fmv n (mscaled (a * c) H) (fscale a (st_p s))))
               = fscale a (fsub (st_res s) (fscale al (fmv n H (st_p s))))).
    { rewrite fmv_scaled, <- fsub_scaled, !fscale_fscale. f_equal. f_equal. field. lra. }
    rewrite Bx, Br. set (x := fadd (CgModel.st_x s) _). set (res := fsub (st_res s) _).
    rewrite fnorm_scaled by lra. rewrite st_check_scaled.
    destruct (st_check (fnorm n res) r0 ttol divtol (st_conv s) (st_div s)) as (cv, dv).
    destruct (cv || dv)%bool; [reflexivity|]. rewrite !fdot_scaled.
    rewrite div_scaled by easy. destruct (div (fdot n res res) (st_rz s)) as [be|e]; [|reflexivity]. cbn [bind].
    replace (a * a / (a * a) * be) with be by (field; lra).
    destruct (Rleb (Rabs be) 0); [reflexivity|]. destruct (mi <=? st_iter s)%nat; [reflexivity|].
    assert (Bp : fadd (fscale a res) (fscale be (fscale a (st_p s))) = fscale a (fadd res (fscale be (st_p s)))).
    { rewrite <- fadd_scaled, !fscale_fscale. f_equal. f_equal. ring. }
    rewrite Bp. set (p := fadd res _). rewrite fmv_scaled, !fdot_scaled.
    replace (a * (a * c * a) * fdot n p (fmv n H p)) with (a * c * a * a * fdot n p (fmv n H p)) by ring.
    rewrite npos_scaled, pos_scaled by easy.
    replace (/ c * a * fdot n x p) with (a / c * fdot n x p) by (field; lra).
    destruct (Rleb (fdot n p (fmv n H p)) 0).
    + destruct (negb (Reqb r 0) && Rltb 0 (fdot n p p))%bool; [|reflexivity].
      rewrite to_boundary_scaled. destruct (st_to_boundary _ _ _ _ _ _); reflexivity.
    + reflexivity.
Qed.

Lemma st_loop_scaled k n H r r0 ttol divtol mi : forall s,
  st_loop k n (mscaled (a * c) H) (r / c) (a * r0) (a * ttol) divtol mi (sts_scaled s)
  = out c (st_loop k n H r r0 ttol divtol mi s).
Proof.
  induction k as [|k IH]; intros s; [reflexivity|]. cbn [st_loop]. rewrite st_step_scaled.
  destruct (st_step n H r r0 ttol divtol mi s) as [[x|s']|e]; cbn [bind]; [reflexivity|apply IH|reflexivity].
Qed.

Lemma st_loop_flat k n H r r0 ttol divtol mi s : st_kappa s = 0 ->
  st_loop (S k) n H r r0 ttol divtol mi s = Err ZeroDivisionError.
Proof.
  intros E. cbn [st_loop]. unfold st_step. rewrite E. unfold div at 1. unfold Reqb. destruct (Req_EM_T 0 0); [reflexivity|lra].
Qed.
End SteihaugUnits.

(** C194 - units.  If np.linalg.pinv inverts factors and the absolute tolerance 1e-50 is not the
    binding one, then the Steihaug-Toint solver returns the same step in the new units. *)
Theorem C194_steihaug_units pinv n (g : fvec) (H : fmat) radius a c : (0 < n)%nat -> 0 < a -> 0 < c ->
  (forall i j, pinv n (fun i j => a * c * H i j) i j = / (a * c) * pinv n H i j) ->
  / 10 ^ 45 <= fnorm n g -> / 10 ^ 45 <= a * fnorm n g ->
  minimize_trust_stcg pinv n (fun i => a * g i) (fun i j => a * c * H i j) (radius / c)
  = match minimize_trust_stcg pinv n g H radius with
    | Ok x => Ok (fun i => / c * x i)
    | Err e => Err e
    end.
Proof.
  intros Hn Pa Pc Hp G1 G2.
  change (fun i => a * g i) with (fscale a g). change (fun i j => a * c * H i j) with (mscaled (a * c) H) in *.
  pose proof (inv_c c Pc) as Pi. pose proof (pos_ac a c Pa Pc) as Pac. pose proof (pos_k a c Pa Pc) as Pk. assert (Paa : 0 < a * a) by nra.
  assert (Ep : pinv n (mscaled (a * c) H) = mscaled (/ (a * c)) (pinv n H)).
  { apply functional_extensionality. intros i. apply functional_extensionality. intros j. apply Hp. }
  unfold minimize_trust_stcg. rewrite Ep, fopp_scaled.
  set (res := fopp g). rewrite !fmv_scaled, !fdot_scaled.
  set (rr := fdot n res res).
  assert (Nr : sqrt rr = fnorm n g).
  { unfold rr, res, fnorm, fsq, fdot, fopp. f_equal. apply bsum_ext. intros. ring. }
  assert (Nr' : sqrt (a * a * rr) = a * sqrt rr) by (rewrite sqrt_mult_alt by lra; now rewrite sqrt_square by lra).
  assert (T : Rmax (/ 10 ^ 5 * (a * sqrt rr)) (/ 10 ^ 50) = a * Rmax (/ 10 ^ 5 * sqrt rr) (/ 10 ^ 50)).
  { assert (E50 : / 10 ^ 50 = / 10 ^ 5 * / 10 ^ 45) by (rewrite <- Rinv_mult; f_equal; rewrite <- pow_add; reflexivity).
    assert (P5 : 0 < / 10 ^ 5) by (apply Rinv_0_lt_compat, pow_lt; lra).
    rewrite E50, Nr. rewrite !Rmax_left; [ring| |]; apply Rmult_le_compat_l; lra. }
  rewrite Nr', T. cbv zeta. rewrite st_check_scaled by easy.
  destruct (st_check (sqrt rr) (sqrt rr) (Rmax (/ 10 ^ 5 * sqrt rr) (/ 10 ^ 50)) 10000 false false) as (cv, dv).
  set (z := fmv n (pinv n H) res). set (p := fmv n H z).
  replace (a * c * (/ (a * c) * a)) with a by (field; lra).
  replace (a * (a * c * a)) with (a * c * a * a) by ring.
  set (kappa := fdot n p (fmv n H p)). set (np := fdot n p p).
  rewrite npos_scaled by easy.
  assert (Sz : forall it cv', mkSt fzero (fscale a res) (fscale a p) (a * a * rr) (a * c * a * a * kappa) 0 0 (a * a * np) cv' dv it
             = sts_scaled a c (mkSt fzero res p rr kappa 0 0 np cv' dv it)).
  { intros it cv'. unfold sts_scaled. cbn [CgModel.st_x st_res st_p st_rz st_kappa st_dp st_norm_d st_norm_p st_conv st_div st_iter].
    f_equal; try ring. apply functional_extensionality. intros i. unfold fscale, fzero. ring. }
  destruct (Rleb_spec kappa 0) as [K|K].
  - unfold st_first_step. cbv zeta. rewrite radius_scaled, pos_scaled by easy.
    destruct (Reqb radius 0) eqn:Er; cbn [negb andb bind].
    + rewrite Sz. rewrite st_loop_scaled by easy. destruct (st_loop _ _ _ _ _ _ _ _ _); reflexivity.
    + destruct (Rltb_spec 0 np) as [Np|Np].
      * replace (radius / c * (radius / c) / (a * a * np)) with (/ (a * c) * / (a * c) * (radius * radius / np)) by (field; lra).
        assert (Pq : 0 < / (a * c)) by now apply Rinv_0_lt_compat.
        rewrite msqrt_scaled by easy. destruct (msqrt _) as [t|e]; [|reflexivity]. cbn [bind].
        match goal with |- st_loop _ _ _ _ _ _ _ _ ?s' = match st_loop _ _ _ _ _ _ _ _ ?s with _ => _ end => replace s' with (sts_scaled a c s) end.
        -- rewrite st_loop_scaled by easy. destruct (st_loop _ _ _ _ _ _ _ _ _); reflexivity.
        -- unfold sts_scaled. cbn [CgModel.st_x st_res st_p st_rz st_kappa st_dp st_norm_d st_norm_p st_conv st_div st_iter].
           f_equal; try ring. rewrite <- fadd_scaled, !fscale_fscale. f_equal; [apply functional_extensionality; intros i; unfold fscale, fzero; ring|]. f_equal. field. lra.
      * (* p vanishes, and with it kappa: the loop divides by zero *)
        assert (Zp : forall i, (i < n)%nat -> p i = 0).
        { intros i Hi. destruct (Req_dec (p i) 0) as [|N]; [easy|]. pose proof (fsq_pos n p i Hi N) as Q. unfold fsq in Q. fold np in Q. lra. }
        assert (Zk : kappa = 0).
        { unfold kappa, fdot. rewrite (bsum_ext n _ (fun _ => 0)) by (intros i Hi; rewrite Zp by easy; ring). apply bsum_zero. }
        assert (Nrr : 0 <= rr) by (unfold rr; apply fsq_nonneg).
        assert (Q : forall x r', 0 <= x -> exists al, (if Rleb x (r' * r') then Ok 1 else msqrt (r' * r' / x)) = Ok al).
        { intros x r' Px. destruct (Rleb_spec x (r' * r')); [eauto|]. unfold msqrt.
          assert (0 <= r' * r' / x). { apply Rmult_le_pos; [nra|]. apply Rlt_le, Rinv_0_lt_compat. nra. }
          destruct (Rltb_spec (r' * r' / x) 0); [lra|eauto]. }
        destruct (Q (a * a * rr) (radius / c)) as (al' & ->); [nra|]. destruct (Q rr radius) as (al & ->); [easy|]. cbn [bind].
        destruct (Nat.min n (Z.to_nat 10000)) as [|k] eqn:M; [exfalso; lia|].
        rewrite !st_loop_flat; [reflexivity|cbn; lra|cbn; rewrite Zk; ring].
  - cbn [bind]. rewrite Sz. rewrite st_loop_scaled by easy. destruct (st_loop _ _ _ _ _ _ _ _ _); reflexivity.
Qed.

(** x^2 - x in a region of radius 1, a million times the criterion and parameters in tenths. *)
Example C194_instance : exists x,
  minimize_trust_stcg (fun _ M _ _ => / M 0%nat 0%nat) 1 (fun _ => 1000000 * -1) (fun _ _ => 1000000 * / 10 * 2) (1 / / 10) = Ok x /\ x 0%nat = 5.
Proof.
  assert (E0 : exists x, minimize_trust_stcg (fun _ M _ _ => / M 0%nat 0%nat) 1 (fun _ => -1) (fun _ _ => 2) 1 = Ok x /\ x 0%nat = 1 / 2).
  { destruct C187_instance as (x & E & X). apply C187_stcg_fast_same_result in E. exists x. split; [|exact X]. rewrite <- E.
    unfold minimize_trust_stcg. replace (fun _ _ : nat => / 2) with (fun _ _ : nat => 1 / 2); [reflexivity|].
    apply functional_extensionality. intros i. apply functional_extensionality. intros j. lra. }
  destruct E0 as (x & E & X).
  assert (N : fnorm 1 (fun _ => -1) = 1) by (unfold fnorm, fsq, fdot; cbn [bsum]; replace (0 + -1 * -1) with 1 by ring; apply sqrt_1).
  assert (P45 : / 10 ^ 45 <= 1).
  { rewrite <- Rinv_1. apply Rinv_le_contravar; [lra|]. apply pow_R1_Rle. lra. }
  rewrite (C194_steihaug_units _ 1 (fun _ => -1) (fun _ _ => 2) 1 1000000 (/ 10)); [|lia|lra|lra|intros; cbv beta; apply Rinv_mult|rewrite N; lra|rewrite N; lra].
  rewrite E. eexists. split; [reflexivity|]. cbv beta. rewrite X. field.
Qed.
