(** Properties C60, C104, C105: the trsbox solver. *)
From Coq Require Import Reals List Arith ZArith Bool Lia Lra Psatz.
From Verif Require Import Base XR FVec CgModel Prop_Cg TrsboxModel TrsboxProofs.
Import ListNotations.
Open Scope R_scope.

(** C60 - the solver never raises (undefined variables, divisions by zero, roots of negative
    numbers) and its result is inside the box, for every gradient, every Hessian (also asymmetric
    or indefinite), every radius (also zero or negative) and every box containing the origin. *)
Theorem C60_trsbox_in_box :
  forall n g H radius lower upper,
    (forall i, (i < n)%nat -> lower i <= 0 <= upper i) ->
    exists x, minimize_trust_trsbox n g H radius lower upper = Ok x /\
      forall i, (i < n)%nat -> lower i <= x i <= upper i.
Proof.
  intros n g H radius lower upper B. destruct (trsbox_spec n H lower upper g radius B) as (x & E & I & _). eauto.
Qed.

(** C104 - the result is inside the trustregion: clipping at the bounds and the rotations of the
    alternative step never leave the ball. *)
Theorem C104_trsbox_within_radius :
  forall n g H radius lower upper x,
    (forall i, (i < n)%nat -> lower i <= 0 <= upper i) -> 0 <= radius ->
    minimize_trust_trsbox n g H radius lower upper = Ok x ->
    fnorm n x <= radius.
Proof.
  intros n g H radius lower upper x B Hr E.
  destruct (trsbox_spec n H lower upper g radius B) as (y & E' & _ & Q & _).
  rewrite E in E'. injection E' as <-. now apply fnorm_le_iff.
Qed.

(** C105 - for a symmetric Hessian the result does not increase the model value. *)
Theorem C105_trsbox_model_decrease :
  forall n g H radius lower upper x,
    (forall i, (i < n)%nat -> lower i <= 0 <= upper i) -> fsymm n H ->
    minimize_trust_trsbox n g H radius lower upper = Ok x ->
    qval n g H x <= 0.
Proof.
  intros n g H radius lower upper x B S E.
  destruct (trsbox_spec n H lower upper g radius B) as (y & E' & _ & _ & Q).
  rewrite E in E'. injection E' as <-. now apply Q.
Qed.

(** Example: one parameter, gradient -1, no curvature, radius 1, box [-2, 1/2]: the first pass
    stops at the bound 1/2, the second one ends the loop. *)
Example ex_C60 : exists x,
  minimize_trust_trsbox 1 (fun _ => -1) (fun _ _ => 0) 1 (fun _ => -2) (fun _ => 1/2) = Ok x /\ x 0%nat = 1/2.
Proof.
  unfold minimize_trust_trsbox. set (k := (100 * (1 * 1))%nat).
  assert (Ek : k = S (S 98)) by reflexivity. rewrite Ek. generalize 98%nat. intros m. clear k Ek.
  set (lo := fun _ : nat => -2). set (up := fun _ : nat => 1/2). set (g := fun _ : nat => -1).
  set (H := fun _ _ : nat => 0).
  assert (P2 : 0 < / 10 ^ 6 < 1 /\ 0 < / 10 ^ 18 < 1 /\ 0 < / 10 ^ 30 < 1).
  { splits; try (apply Rinv_0_lt_compat, pow_lt; lra); (rewrite <- Rinv_1; apply Rinv_lt_contravar; [|]; simpl; lra). }
  assert (Em1 : forall a, Rmin (/ 10 ^ 6 * a) (/ 10 ^ 18) < 1) by (intros a; eapply Rle_lt_trans; [apply Rmin_r|apply P2]).
  set (s0 := tb_init 1 g lo up 1).
  assert (B0 : tb_b s0 0%nat = 0%Z).
  { unfold s0, tb_init, g, lo, up. cbn [tb_b]. destruct (Rleb_spec (1/2) 0); [lra|]. destruct (Rleb_spec 0 (-2)); [lra|]. reflexivity. }
  assert (F0 : free (tb_b s0) 0 = true) by (unfold free; now rewrite B0).
  cbn [tb_main]. unfold tb_pass at 1.
  change (tb_beta s0) with 0. change (tb_niter s0) with 0%nat. change (tb_delta s0) with (1 * 1).
  change (tb_total s0) with 0. change (tb_g s0) with g. change (tb_x s0) with fzero. change (tb_nfixed s0) with 0%nat.
  destruct (Reqb_spec 0 0); [|lra].
  set (gp := fun i : nat => if free (tb_b s0) i then - g i else 0).
  assert (G0 : gp 0%nat = 1) by (unfold gp, g; rewrite F0; lra).
  assert (D1 : fdot 1 gp gp = 1) by (unfold fdot; cbn [bsum]; rewrite G0; lra).
  rewrite D1. destruct (Reqb_spec 1 0); [lra|]. cbn [Nat.eqb get bind].
  destruct (Rleb_spec 1 (Rmin (/ 10 ^ 6 * 1) (/ 10 ^ 18))); [specialize (Em1 1); lra|].
  destruct (Rleb_spec (1 * (1 * 1)) (Rmin (/ 10 ^ 6 * (0 * 0)) (/ 10 ^ 18))); [specialize (Em1 (0 * 0)); lra|]. cbn [orb].
  assert (D2 : mdot 1 (tb_b s0) fzero fzero = 0) by (unfold mdot, fzero; cbn [bsum]; rewrite F0; lra).
  assert (D3 : mdot 1 (tb_b s0) gp fzero = 0) by (unfold mdot, fzero; cbn [bsum]; rewrite F0; lra).
  assert (HG : forall i, fmv 1 H gp i = 0) by (intros i; unfold fmv, H; cbn [bsum]; lra).
  assert (D4 : mdot 1 (tb_b s0) gp (fmv 1 H gp) = 0) by (unfold mdot; cbn [bsum]; rewrite F0, HG; lra).
  rewrite D2, D3, D4. destruct (Rleb_spec (1 * 1 - 0) 0); [lra|].
  unfold tb_unconstrained_step, msqrt, div. destruct (Rltb_spec (1 * (1 * 1 - 0) + 0 * 0) 0); [lra|]. cbn [bind].
  replace (sqrt (1 * (1 * 1 - 0) + 0 * 0)) with 1 by (replace (1 * (1 * 1 - 0) + 0 * 0) with 1 by lra; now rewrite sqrt_1).
  destruct (Rleb_spec 0 0); [|lra]. destruct (Reqb_spec (1 + 0) 0); [lra|]. cbn [bind].
  replace ((1 * 1 - 0) / (1 + 0)) with 1 by lra.
  destruct (Rleb_spec 1 (/ 10 ^ 30)); [lra|].
  unfold tb_constrained_step. cbn [seq fold_left]. unfold tb_constr_one. rewrite G0.
  destruct (Reqb_spec 1 0); [lra|]. destruct (Rltb_spec 0 1); [|lra].
  replace ((up 0%nat - fzero 0%nat) / 1) with (1/2) by (unfold up, fzero; lra).
  destruct (Rltb_spec (1/2) 1); [|lra]. destruct (Rltb_spec 0 (1/2)); [|lra].
  change (if free (tb_b s0) 0 then - g 0%nat else 0) with (gp 0%nat). rewrite G0. destruct (Rleb_spec 0 1); [|lra].
  set (x1 := fadd fzero (fscale (1/2) gp)). assert (X1 : x1 0%nat = 1/2) by (unfold x1, fadd, fscale, fzero; rewrite G0; lra).
  rewrite X1. destruct (Rleb_spec (1 * 1 - 1/2 * (1/2)) 0); [lra|]. cbn [bind].
  cbn [tb_main]. unfold tb_pass at 1. cbn [tb_b tb_beta].
  destruct (Reqb_spec 0 0); [|lra].
  match goal with |- context [Reqb (fdot 1 ?v ?v) 0] => assert (Z : fdot 1 v v = 0) by
     (unfold fdot; cbn [bsum]; unfold free; rewrite upd_same; cbn [Z.eqb]; lra); rewrite Z end.
  destruct (Reqb_spec 0 0); [|lra]. cbn [bind tb_x tb_b].
  eexists. split; [reflexivity|]. unfold tb_apply_bounds. rewrite upd_same. reflexivity.
Qed.
