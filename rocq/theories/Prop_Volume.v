(** Property C19: volumes and radii. *)
From Coq Require Import Reals List ZArith Lia Lra Psatz.
From Verif Require Import Base XR Vec VolumeModel.
Open Scope R_scope.

Lemma nat_ind2 (P : nat -> Prop) :
  P 0%nat -> P 1%nat -> (forall n, P n -> P (S (S n))) -> forall n, P n.
Proof.
  intros H0 H1 HS n. enough (P n /\ P (S n)) by tauto.
  induction n; [tauto|]. split; [tauto|]. apply HS. tauto.
Qed.

Lemma gamma_half_pos n : 0 < gamma_half n.
Proof.
  induction n using nat_ind2; simpl gamma_half.
  - lra.
  - assert (0 < sqrt PI) by (apply sqrt_lt_R0, PI_RGT_0). lra.
  - pose proof (pos_INR n). nra.
Qed.

Lemma Rpower_pos x y : 0 < Rpower x y.
Proof. unfold Rpower. apply exp_pos. Qed.

Lemma ln_sqrt_half x : 0 < x -> ln (sqrt x) = ln x / 2.
Proof.
  intros H. assert (P : 0 < sqrt x) by now apply sqrt_lt_R0.
  assert (E : ln x = ln (sqrt x * sqrt x)) by (rewrite sqrt_sqrt; lra).
  rewrite ln_mult in E; lra.
Qed.

Lemma ln_pow' x n : 0 < x -> ln (x ^ n) = INR n * ln x.
Proof.
  intros H. induction n; simpl pow.
  - rewrite ln_1. simpl. lra.
  - rewrite ln_mult; [|easy|now apply pow_lt]. rewrite IHn, S_INR. lra.
Qed.

Lemma ln_div x y : 0 < x -> 0 < y -> ln (x / y) = ln x - ln y.
Proof.
  intros. unfold Rdiv. rewrite ln_mult; [|easy|now apply Rinv_0_lt_compat].
  rewrite ln_Rinv; lra.
Qed.

Lemma ln_Rpower x y : ln (Rpower x y) = y * ln x.
Proof. unfold Rpower. apply ln_exp. Qed.

Lemma ln_sphere_volume r n : 0 < r ->
  ln (sphere_volume r n) = INR n / 2 * ln PI + INR n * ln r - ln (gamma_half n).
Proof.
  intros H. unfold sphere_volume.
  pose proof (Rpower_pos PI (INR n / 2)). pose proof (pow_lt r n H).
  rewrite ln_div; [|now apply Rmult_lt_0_compat|apply gamma_half_pos].
  rewrite ln_mult, ln_Rpower, ln_pow'; try easy. 
Qed.

Lemma sphere_volume_pos r n : 0 < r -> 0 < sphere_volume r n.
Proof.
  intros H. unfold sphere_volume. apply Rdiv_lt_0_compat; [|apply gamma_half_pos].
  apply Rmult_lt_0_compat; [apply Rpower_pos|now apply pow_lt].
Qed.

Lemma ln_cube_volume r n : 0 < r -> ln (cube_volume r n) = INR n * (ln r + ln 2).
Proof.
  intros. unfold cube_volume. rewrite ln_pow', ln_mult; lra.
Qed.

Lemma cube_volume_pos r n : 0 < r -> 0 < cube_volume r n.
Proof. intros. unfold cube_volume. apply pow_lt. lra. Qed.

Lemma get_volume_pos r n sh : 0 < r -> 0 < get_volume r n sh.
Proof. destruct sh; [apply sphere_volume_pos|apply cube_volume_pos]. Qed.

Lemma eq_by_ln x y : 0 < x -> 0 < y -> ln x = ln y -> x = y.
Proof. intros. now apply ln_inv. Qed.

(** C19a - the two conversion functions preserve the volume and invert each other; with a
    scaling factor the volume is multiplied by it. *)
Theorem C19_conversion_preserves_volume :
  forall r n, 0 < r -> (1 <= n)%nat ->
    get_volume (get_radius_of_cube_with_volume_of_sphere r n None) n Cube
      = get_volume r n Sphere /\
    get_volume (get_radius_of_sphere_with_volume_of_cube r n None) n Sphere
      = get_volume r n Cube /\
    get_radius_of_sphere_with_volume_of_cube
      (get_radius_of_cube_with_volume_of_sphere r n None) n None = r /\
    get_radius_of_cube_with_volume_of_sphere
      (get_radius_of_sphere_with_volume_of_cube r n None) n None = r /\
    (forall s, 0 < s ->
      get_volume (get_radius_of_cube_with_volume_of_sphere r n (Some s)) n Cube
        = s * get_volume r n Sphere /\
      get_volume (get_radius_of_sphere_with_volume_of_cube r n (Some s)) n Sphere
        = s * get_volume r n Cube).
Proof.
  intros r n Hr Hn.
  assert (Pn : 0 < INR n) by (apply lt_0_INR; lia).
  unfold get_volume, get_radius_of_cube_with_volume_of_sphere,
    get_radius_of_sphere_with_volume_of_cube.
  repeat split; intros;
    try (apply eq_by_ln; [| |rewrite ?ln_mult, ?ln_cube_volume, ?ln_sphere_volume, ?ln_exp;
         try apply exp_pos; try easy; try apply sphere_volume_pos; try apply cube_volume_pos;
         try easy; try (field; lra)]).
  all: repeat (apply Rmult_lt_0_compat || apply cube_volume_pos || apply sphere_volume_pos
         || apply exp_pos || apply pow_lt || apply Rinv_0_lt_compat
         || apply gamma_half_pos || easy).
Qed.

(** C19b - get_radius inverts get_volume for both shapes. *)
Theorem C19_radius_inverts_volume :
  forall n sh, (1 <= n)%nat ->
    (forall r, 0 < r -> get_radius (get_volume r n sh) n sh = r) /\
    (forall v, 0 < v -> get_volume (get_radius v n sh) n sh = v).
Proof.
  intros n sh Hn. assert (Pn : 0 < INR n) by (apply lt_0_INR; lia).
  pose proof (gamma_half_pos n) as G. pose proof (Rpower_pos PI (INR n / 2)) as RP.
  destruct sh; simpl; split; intros z Hz.
  - unfold sphere_radius. apply eq_by_ln; [apply Rpower_pos|easy|].
    pose proof (sphere_volume_pos z n Hz).
    rewrite ln_Rpower, ln_div, ln_mult, ln_Rpower, ln_sphere_volume; try easy.
    + field; lra.
    + now apply Rmult_lt_0_compat.
  - apply eq_by_ln; [|easy|].
    { apply sphere_volume_pos, Rpower_pos. }
    rewrite ln_sphere_volume by apply Rpower_pos. unfold sphere_radius.
    rewrite ln_Rpower, ln_div, ln_mult, ln_Rpower; try easy.
    + field; lra.
    + now apply Rmult_lt_0_compat.
  - unfold cube_radius. pose proof (cube_volume_pos z n Hz).
    apply eq_by_ln; [pose proof (Rpower_pos (cube_volume z n) (1 / INR n)); lra|easy|].
    rewrite ln_mult, ln_Rpower, ln_cube_volume, ln_Rinv; try lra; try apply Rpower_pos.
    field; lra.
  - pose proof (Rpower_pos z (1 / INR n)).
    assert (P : 0 < cube_radius z n) by (unfold cube_radius; lra).
    apply eq_by_ln; [now apply cube_volume_pos|easy|].
    rewrite ln_cube_volume by easy. unfold cube_radius.
    rewrite ln_mult, ln_Rpower, ln_Rinv; try lra. field; lra.
Qed.

(** C19c - scaling the radius for a volume factor multiplies the volume by it. *)
Theorem C19_volume_scaling :
  forall r n s sh, (1 <= n)%nat -> 0 < r -> 0 < s ->
    get_volume (get_radius_after_volume_scaling r n s) n sh = s * get_volume r n sh.
Proof.
  intros r n s sh Hn Hr Hs. assert (Pn : 0 < INR n) by (apply lt_0_INR; lia).
  unfold get_radius_after_volume_scaling.
  pose proof (Rpower_pos s (1 / INR n)) as RP.
  assert (0 < r * Rpower s (1 / INR n)) by now apply Rmult_lt_0_compat.
  pose proof (get_volume_pos r n sh Hr).
  apply eq_by_ln; [now apply get_volume_pos|now apply Rmult_lt_0_compat|].
  rewrite ln_mult by easy.
  destruct sh; simpl; rewrite ?ln_sphere_volume, ?ln_cube_volume, ?ln_mult, ?ln_Rpower;
    try easy; field; lra.
Qed.

(** C19d - the equal-volume cube fits into the bounding cube of the ball. *)
Theorem C19_cube_radius_at_most_sphere_radius :
  forall r n, 0 < r -> (1 <= n)%nat ->
    0 < get_radius_of_cube_with_volume_of_sphere r n None <= r.
Proof.
  intros r n Hr Hn. assert (Pn : 0 < INR n) by (apply lt_0_INR; lia).
  unfold get_radius_of_cube_with_volume_of_sphere. split; [apply exp_pos|].
  rewrite <- (exp_ln r) at 2 by easy.
  assert (K : INR n * (ln PI / 2) <= INR n * ln 2 + ln (gamma_half n)).
  { clear Hn Pn. induction n using nat_ind2.
    - simpl. rewrite ln_1. lra.
    - simpl. rewrite ln_div, ln_sqrt_half; try lra; try apply PI_RGT_0.
      apply sqrt_lt_R0, PI_RGT_0.
    - pose proof (pos_INR n). pose proof (gamma_half_pos n).
      change (gamma_half (S (S n))) with ((INR n / 2 + 1) * gamma_half n).
      rewrite ln_mult by lra. rewrite !S_INR.
      assert (ln PI <= ln 2 + ln 2).
      { rewrite <- ln_mult by lra. destruct (Rle_lt_or_eq_dec PI 4 PI_4) as [L| ->].
        - left. apply ln_increasing; [apply PI_RGT_0|lra].
        - right; f_equal; lra. }
      assert (0 <= ln (INR n / 2 + 1)).
      { rewrite <- ln_1. destruct (Rle_lt_or_eq_dec 0 (INR n) H) as [L|E].
        - left. apply ln_increasing; lra.
        - rewrite <- E. right; f_equal; lra. }
      lra. }
  assert (L : ln PI / 2 - ln 2 - ln (gamma_half n) / INR n <= 0).
  { apply (Rmult_le_reg_l (INR n)); [easy|].
    replace (INR n * (ln PI / 2 - ln 2 - ln (gamma_half n) / INR n))
      with (INR n * (ln PI / 2) - INR n * ln 2 - ln (gamma_half n)) by (field; lra).
    lra. }
  set (a := ln PI / 2 + ln r - ln 2 - ln (gamma_half n) / INR n).
  assert (a <= ln r) by (unfold a; lra).
  destruct (Rle_lt_or_eq_dec a (ln r)) as [Lt| ->]; [easy| |right; easy].
  left. now apply exp_increasing.
Qed.

(** The formulas in dimension one and two: length 2r, area pi r^2. *)
Example ex_C19_dim1 r : 0 < r -> sphere_volume r 1 = 2 * r.
Proof.
  intros. unfold sphere_volume. simpl. rewrite Rmult_1_r.
  replace (Rpower PI (1 / 2)) with (sqrt PI).
  - field. apply Rgt_not_eq, sqrt_lt_R0, PI_RGT_0.
  - rewrite <- Rpower_sqrt by apply PI_RGT_0. f_equal. lra.
Qed.
Example ex_C19_dim2 r : 0 < r -> sphere_volume r 2 = PI * (r * r).
Proof.
  intros. unfold sphere_volume. simpl.
  replace ((1 + 1) / 2) with 1 by lra. rewrite Rpower_1 by apply PI_RGT_0. field.
Qed.
