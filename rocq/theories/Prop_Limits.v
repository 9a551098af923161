(** Property C215: the upper limits of the updated radius. *)
From Coq Require Import Reals List Bool Lra.
From Verif Require Import Base XR Vec AdjustModel.
Open Scope R_scope.

(** C215 - the updated radius is at most max_radius, whatever the ratio is, even if the limits are
    inconsistent, and with a finite ratio it is at most the ratio times the length of the step. *)
Theorem C215_upper_limits :
  forall radius rho step_length o inc,
    adjust_radius radius rho step_length o inc <= max_radius o /\
    (forall r, max_radius_to_step_ratio o = Fin r -> adjust_radius radius rho step_length o inc <= step_length * r).
Proof.
  intros radius rho step o inc. unfold adjust_radius, clip. split.
  - eapply Rle_trans; [apply Rmin_l|]. destruct (max_radius_to_step_ratio o); try apply Rle_refl. apply Rmin_l.
  - intros r ->. eapply Rle_trans; [apply Rmin_l|]. apply Rmin_r.
Qed.

(** C215 - with consistent limits the radius is at least min_radius unless the ratio forces a smaller one, and
    then it is the ratio times the length of the step. *)
Theorem C215_lower_limit :
  forall radius rho step_length o inc,
    min_radius o <= max_radius o ->
    min_radius o <= adjust_radius radius rho step_length o inc \/
    exists r, max_radius_to_step_ratio o = Fin r /\ step_length * r < min_radius o /\
              adjust_radius radius rho step_length o inc = step_length * r.
Proof.
  intros radius rho step o inc L. unfold adjust_radius, clip. set (raw := raw_radius radius rho step o inc).
  pose proof (Rmax_r raw (min_radius o)) as M.
  assert (G : forall hi, min_radius o <= hi -> min_radius o <= Rmin hi (Rmax raw (min_radius o))).
  { intros hi H. now apply Rmin_glb. }
  destruct (max_radius_to_step_ratio o) as [r| | |] eqn:E; try (left; now apply G).
  destruct (Rle_lt_dec (min_radius o) (step * r)) as [H|H].
  - left. apply G. now apply Rmin_glb.
  - right. exists r. split; [reflexivity|]. split; [exact H|].
    rewrite (Rmin_right (max_radius o)) by lra. apply Rmin_left. lra.
Qed.

(** A ratio of two, a step of length 1/4 and limits 1 and 10: the radius is 1/2. *)
Example C215_instance : forall radius rho inc,
  adjust_radius radius rho (/ 4) (mkRadiusOptions 1 10 (/ 10) (/ 10) (/ 2) 2 (/ 2) (Fin 2)) inc = / 2.
Proof.
  intros radius rho inc.
  destruct (C215_upper_limits radius rho (/ 4) (mkRadiusOptions 1 10 (/ 10) (/ 10) (/ 2) 2 (/ 2) (Fin 2)) inc) as [_ U].
  specialize (U 2 eq_refl).
  destruct (C215_lower_limit radius rho (/ 4) (mkRadiusOptions 1 10 (/ 10) (/ 10) (/ 2) 2 (/ 2) (Fin 2)) inc) as [H|(r & E & _ & H)]; cbn in *; [lra|lra|].
  injection E as <-. rewrite H. lra.
Qed.
