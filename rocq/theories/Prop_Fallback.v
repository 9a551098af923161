(** Properties C200-C201: what the fallback solvers find if scipy's optimizers find what they are
    asked for. *)
From Coq Require Import Reals List Arith Bool Lia Lra Psatz ClassicalDedekindReals.
From Verif Require Import Base XR Vec FVec ModelsModel SubproblemModel Prop_Subproblem FallbackModel.
Import ListNotations.
Open Scope R_scope.

(** * Models along lines *)

Lemma fun_of_line x d t n : length x = n -> length d = n ->
  feq n (fun_of (vadd x (vscale t d))) (fadd (fun_of x) (fscale t (fun_of d))).
Proof.
  intros Lx Ld i Hi. subst n. unfold fun_of, fadd, fscale. revert d i Ld Hi.
  induction x as [|a x IH]; intros [|b d] i Ld Hi; simpl in Ld, Hi; try lia.
  destruct i; simpl; [reflexivity|]. apply IH; lia.
Qed.
Lemma fun_of_vscale a x i : fun_of (vscale a x) i = a * fun_of x i.
Proof.
  unfold fun_of, vscale. revert i. induction x as [|b x IH]; intros [|i]; simpl; try ring. apply IH.
Qed.
Lemma fdot_dot n x y : length x = n -> length y = n -> fdot n (fun_of x) (fun_of y) = dot x y.
Proof.
  intros <-. revert y. induction x as [|a x IH]; intros [|b y] L; simpl in L; try lia.
  - reflexivity.
  - cbn [length]. unfold fdot. rewrite bsum_shift. rewrite dot_cons. f_equal. apply (IH y). lia.
Qed.

Lemma fun_of_vec_of n (f : fvec) i : (i < n)%nat -> fun_of (SubproblemModel.vec_of n f) i = f i.
Proof.
  intros H. unfold fun_of, SubproblemModel.vec_of.
  rewrite (nth_indep _ 0 (f 0%nat)) by (now rewrite map_length, seq_length).
  now rewrite map_nth, seq_nth.
Qed.

Lemma crit_is_predict m h x : sm_h m = Some h -> crit_quadratic m h x = predict_scalar m (fun_of x).
Proof.
  intros Eh. unfold crit_quadratic, predict_scalar. rewrite Eh.
  replace (fdot (sm_n m) (fvm (sm_n m) (fscale (/ 2) (fun_of x)) h) (fun_of x))
    with (fdot (sm_n m) (fvm (sm_n m) (fun_of x) h) (fun_of x) / 2).
  - lra.
  - unfold Rdiv. rewrite Rmult_comm. unfold fdot. rewrite <- bsum_scal. apply bsum_ext. intros j Hj.
    unfold fvm, fscale. rewrite <- Rmult_assoc. f_equal. rewrite <- bsum_scal. apply bsum_ext. intros. ring.
Qed.

Lemma predict_ext m x y : feq (sm_n m) x y -> predict_scalar m x = predict_scalar m y.
Proof.
  intros E. unfold predict_scalar. rewrite (fdot_ext _ x y (sm_g m) (sm_g m) E) by (intros ? ?; reflexivity).
  destruct (sm_h m) as [h|]; [|reflexivity]. rewrite !fdot_fvm. now rewrite (fdot_fmv_ext _ x y h x y E E).
Qed.

(** The value of a model on the line through [u] in direction [v]. *)
Lemma predict_line m h u v t : sm_h m = Some h ->
  predict_scalar m (fadd u (fscale t v)) =
  predict_scalar m u
  + t * (fdot (sm_n m) (sm_g m) v + (fdot (sm_n m) u (fmv (sm_n m) h v) + fdot (sm_n m) v (fmv (sm_n m) h u)) / 2)
  + t * t * (fdot (sm_n m) v (fmv (sm_n m) h v) / 2).
Proof.
  intros Eh. unfold predict_scalar. rewrite Eh, !fdot_fvm.
  rewrite !fdot_add_l, !fdot_fmv_add_r, !fdot_fmv_scale_r, !fdot_scale_l, (fdot_comm _ (sm_g m) v). lra.
Qed.

Lemma quadratic_derivative a b c : derivable_pt_lim (fun t => a + t * b + t * t * c) 0 b.
Proof.
  intros eps He. assert (Hd : 0 < eps / (1 + Rabs c)).
  { apply Rdiv_lt_0_compat; [lra|]. pose proof (Rabs_pos c). lra. }
  exists (mkposreal _ Hd). intros t Ht Hlt. cbn in Hlt.
  replace ((a + (0 + t) * b + (0 + t) * (0 + t) * c - (a + 0 * b + 0 * 0 * c)) / t - b) with (t * c) by (field; easy).
  rewrite Rabs_mult. pose proof (Rabs_pos c) as Hc. pose proof (Rabs_pos t).
  apply (Rmult_lt_compat_r (1 + Rabs c)) in Hlt; [|lra].
  unfold Rdiv in Hlt. rewrite Rmult_assoc, Rinv_l, Rmult_1_r in Hlt by lra. nra.
Qed.

Lemma derivable_ext f g a l : (forall t, f t = g t) -> derivable_pt_lim f a l -> derivable_pt_lim g a l.
Proof. intros E D eps He. destruct (D eps He) as [d Hd]. exists d. intros. rewrite <- !E. now apply Hd. Qed.

(** * C200 *)

Definition in_box (lo up x : vec) : Prop :=
  length x = length lo /\ length x = length up /\
  forall i a l u, nth_error x i = Some a -> nth_error lo i = Some l -> nth_error up i = Some u -> l <= a <= u.

Lemma in_const_box (r : R) (x0 x : vec) : in_box (map (fun _ => - r) x0) (map (fun _ => r) x0) x <->
  length x = length x0 /\ forall a, In a x -> - r <= a <= r.
Proof.
  unfold in_box. rewrite !map_length. split.
  - intros (L & _ & B). split; [easy|]. intros a Ha. apply In_nth_error in Ha as [i Hi].
    assert (HI : (i < length x0)%nat) by (rewrite <- L; apply nth_error_Some; congruence).
    destruct (nth_error x0 i) eqn:Ex; [|apply nth_error_None in Ex; lia].
    apply (B i a (- r) r Hi); rewrite nth_error_map, Ex; reflexivity.
  - intros (L & B). split; [easy|]. split; [easy|]. intros i a l u Ha Hl Hu.
    rewrite nth_error_map in Hl, Hu. destruct (nth_error x0 i); [|discriminate].
    injection Hl as <-. injection Hu as <-. apply B. eapply nth_error_In; eauto.
Qed.

Lemma norm_le_1 x : norm x <= 1 <-> dot x x <= 1.
Proof.
  fold (sumsq x). rewrite <- (norm_sqr x). pose proof (norm_nonneg x). split; intros; nra.
Qed.

Lemma ball_entries x a : norm x <= 1 -> In a x -> -1 <= a <= 1.
Proof. intros N I. pose proof (abs_le_norm x a I) as H. revert H. unfold Rabs. destruct (Rcase_abs a); lra. Qed.

(** C200 - scipy is asked to minimize the model over the unit ball, with correct derivatives, and
    its answer is returned unchanged. *)
Theorem C200_problem :
  forall (mz : cminimizer) m x0 r,
    length x0 = sm_n m ->
    robust_sphere_solver_norm_constraint mz m x0 = Ok r ->
    exists crit grad lo up con jac k o,
      mz crit grad x0 lo up con 1 jac k = Ok o /\
      fb_x r = Some (o_x o) /\ fb_criterion r = o_fun o /\ fb_nit r = Some (o_nit o) /\
      fb_success r = Some (o_success o) /\
      (* the criterion is the model *)
      (forall x, length x = sm_n m -> crit x = predict_scalar m (fun_of x)) /\
      (* the feasible points are those of the unit ball *)
      (forall x, in_box lo up x /\ con x <= 1 <-> length x = sm_n m /\ norm x <= 1) /\
      (* the derivatives are those of the criterion and of the constraint *)
      (forall h, sm_h m = Some h -> fsymm (sm_n m) h ->
         forall x d, length x = sm_n m -> length d = sm_n m ->
           derivable_pt_lim (fun t => crit (vadd x (vscale t d))) 0 (dot (grad x) d)) /\
      (forall x d, length x = sm_n m -> length d = sm_n m ->
         derivable_pt_lim (fun t => con (vadd x (vscale t d))) 0 (dot (jac x) d)).
Proof.
  intros mz m x0 r L0 H. unfold robust_sphere_solver_norm_constraint in H.
  destruct (sm_h m) as [h|] eqn:Eh; [|discriminate]. cbv zeta in H.
  match type of H with context [mz ?a ?b ?c ?d ?e ?f ?g ?i ?j] =>
    destruct (mz a b c d e f g i j) as [o|] eqn:E; [|discriminate]; exists a, b, d, e, f, i, j, o end.
  injection H as <-. cbn [fb_x fb_criterion fb_nit fb_success].
  split; [easy|]. do 4 (split; [easy|]). split; [|split; [|split]].
  - intros x _. now apply crit_is_predict.
  - intros x. rewrite norm_le_1. replace (map (fun _ : R => -1) x0) with (map (fun _ : R => - (1)) x0) by reflexivity.
    rewrite in_const_box. unfold constr_fun. rewrite L0. split.
    + intros [[L _] C]. easy.
    + intros [L C]. split; [|easy]. split; [easy|]. intros a Ha. apply (ball_entries x); [now apply norm_le_1|easy].
  - intros h' Eh' SY x d Lx Ld. injection Eh' as <-.
    eapply derivable_ext; [|replace (dot (grad_quadratic m h x) d) with
      (fdot (sm_n m) (sm_g m) (fun_of d) + (fdot (sm_n m) (fun_of x) (fmv (sm_n m) h (fun_of d))
        + fdot (sm_n m) (fun_of d) (fmv (sm_n m) h (fun_of x))) / 2);
      [apply (quadratic_derivative (predict_scalar m (fun_of x)) _ (fdot (sm_n m) (fun_of d) (fmv (sm_n m) h (fun_of d)) / 2))|]].
    + intros t. cbv beta. rewrite crit_is_predict by easy.
      rewrite (predict_ext m _ _ (fun_of_line x d t (sm_n m) Lx Ld)). now rewrite (predict_line m h) by easy.
    + rewrite <- (fdot_dot (sm_n m)); [|unfold grad_quadratic, SubproblemModel.vec_of; now rewrite map_length, seq_length|easy].
      rewrite (fdot_symm _ (fun_of d) h (fun_of x)) by easy.
      transitivity (fdot (sm_n m) (fadd (sm_g m) (fvm (sm_n m) (fun_of x) h)) (fun_of d)).
      * rewrite fdot_add_l, fdot_fvm. lra.
      * apply fdot_ext; [|intros ? ?; reflexivity]. intros i Hi. symmetry. now apply fun_of_vec_of.
  - intros x d Lx Ld.
    eapply derivable_ext; [|replace (dot (constr_jac x) d) with (2 * dot x d);
      [apply (quadratic_derivative (dot x x) _ (dot d d))|]].
    + intros t. cbv beta. unfold constr_fun.
      rewrite !dot_vadd_l, !dot_vadd_r, !dot_vscale_l, !dot_vscale_r, (dot_comm d x)
        by (rewrite ?vscale_length, ?vadd_length, ?vscale_length; rewrite ?vscale_length; congruence). ring.
    + unfold constr_jac. change (map (fun a => 2 * a) x) with (vscale 2 x). now rewrite dot_vscale_l.
Qed.

(** Optimizers that find what they are asked for, if they return: a feasible point that is at least
    as good as all others. *)
Definition exact_constrained (mz : cminimizer) : Prop :=
  forall f g x0 lo up con b jac k o, mz f g x0 lo up con b jac k = Ok o ->
    (in_box lo up (o_x o) /\ con (o_x o) <= b) /\
    forall z, in_box lo up z -> con z <= b -> f (o_x o) <= f z.
Definition exact (mz : minimizer) : Prop :=
  forall f g x0 lo up k o, mz f g x0 lo up k = Ok o ->
    in_box lo up (o_x o) /\ forall z, in_box lo up z -> f (o_x o) <= f z.

(** C200 - with such an optimizer the solver returns a minimizer of the model over the unit ball. *)
Theorem C200_minimizer :
  forall mz m x0 r,
    exact_constrained mz -> length x0 = sm_n m ->
    robust_sphere_solver_norm_constraint mz m x0 = Ok r ->
    exists x, fb_x r = Some x /\ length x = sm_n m /\ norm x <= 1 /\
      forall z, length z = sm_n m -> norm z <= 1 ->
        predict_scalar m (fun_of x) <= predict_scalar m (fun_of z).
Proof.
  intros mz m x0 r HX L0 H.
  destruct (C200_problem mz m x0 r L0 H) as (f & g & lo & up & con & jac & k & o & E & EX & _ & _ & _ & EF & FE & _).
  destruct (HX _ _ _ _ _ _ _ _ _ _ E) as [[B C] O].
  destruct (proj1 (FE (o_x o)) (conj B C)) as [L N].
  exists (o_x o). split; [easy|]. split; [easy|]. split; [easy|]. intros z Lz Nz.
  rewrite <- !EF by easy. destruct (proj2 (FE z) (conj Lz Nz)). now apply O.
Qed.

(** * C201 *)

(** C201 - the reparametrized solver returns a minimizer of the model over the unit ball. *)
Theorem C201_reparametrized :
  forall mz m x0 r,
    exact mz -> length x0 = sm_n m ->
    robust_sphere_solver_reparametrized mz m x0 = Ok r ->
    exists x, fb_x r = Some x /\ length x = sm_n m /\ norm x <= 1 /\
      forall z, length z = sm_n m -> norm z <= 1 ->
        predict_scalar m (fun_of x) <= predict_scalar m (fun_of z).
Proof.
  intros mz m x0 r HX L0 H. unfold robust_sphere_solver_reparametrized in H. cbv zeta in H.
  destruct (mz _ _ _ _ _ _) as [o|] eqn:E; [|discriminate]. injection H as <-. cbn [fb_x].
  destruct (HX _ _ _ _ _ _ _ E) as [B O].
  change (map (fun _ : R => -1) x0) with (map (fun _ : R => - (1)) x0) in *.
  apply in_const_box in B as [L B].
  exists (project_ball (o_x o)). split; [easy|]. split.
  { unfold project_ball. destruct (Rleb _ _); rewrite ?map_length; congruence. }
  split; [apply project_ball_norm|]. intros z Lz Nz.
  assert (P : project_ball z = z).
  { unfold project_ball. destruct (Rleb_spec (norm z) 1); [easy|lra]. }
  rewrite <- P. apply (O z). apply in_const_box. split; [congruence|].
  intros a Ha. now apply (ball_entries z).
Qed.

Lemma box_scaled (s : R) (x0 z : vec) : 0 <= s -> length z = length x0 -> norm z <= 1 ->
  in_box (map (fun _ => - s) x0) (map (fun _ => s) x0) (vscale s z) /\
  in_box (map (fun _ => - s) x0) (map (fun _ => s) x0) (vscale (- s) z).
Proof.
  intros Hs L N. split; apply in_const_box; (split; [now rewrite vscale_length|]); intros a Ha;
    apply in_map_iff in Ha as (b & <- & Hb); destruct (ball_entries z b N Hb); nra.
Qed.

(** C201 - the inscribed cube solver decreases the model at least by the n-th part of the largest
    decrease in the unit ball, and by the part 1 / sqrt n if the model is convex. *)
Theorem C201_inscribed_cube :
  forall mz m h x0 r,
    exact mz -> sm_h m = Some h -> (0 < sm_n m)%nat -> length x0 = sm_n m ->
    robust_sphere_solver_inscribed_cube mz m x0 = Ok r ->
    exists x, fb_x r = Some x /\ length x = sm_n m /\ norm x <= 1 /\
      forall z, length z = sm_n m -> norm z <= 1 ->
        let decrease y := predict_scalar m fzero - predict_scalar m (fun_of y) in
        / INR (sm_n m) * decrease z <= decrease x /\
        (0 <= fdot (sm_n m) (fun_of z) (fmv (sm_n m) h (fun_of z)) ->
         / sqrt (INR (sm_n m)) * decrease z <= decrease x).
Proof.
  intros mz m h x0 r HX Eh Hn L0 H.
  assert (HN : 1 <= INR (sm_n m)) by (apply (le_INR 1); lia).
  set (s := 1 / sqrt (INR (sm_n m))).
  assert (HS : 1 <= sqrt (INR (sm_n m))) by (rewrite <- sqrt_1; now apply sqrt_le_1_alt).
  assert (S2 : s * s = / INR (sm_n m)).
  { unfold s. rewrite <- (sqrt_sqrt (INR (sm_n m))) at 3 by lra. field. lra. }
  assert (S1 : s = / sqrt (INR (sm_n m))) by (unfold s; lra).
  assert (S0 : 0 < s) by (rewrite S1; apply Rinv_0_lt_compat; lra).
  assert (SL : s <= 1) by (rewrite S1, <- Rinv_1; apply Rinv_le_contravar; lra).
  unfold robust_sphere_solver_inscribed_cube, robust_cube_solver in H. rewrite Eh in H. cbv zeta in H.
  assert (SE : 1 / sqrt (INR (length x0)) = s) by (unfold s; now rewrite L0). rewrite SE in H.
  destruct (mz _ _ _ _ _ _) as [o|] eqn:E; [|discriminate]. injection H as <-. cbn [fb_x].
  destruct (HX _ _ _ _ _ _ _ E) as [B O].
  pose proof (proj1 (in_const_box s x0 (o_x o)) B) as [L BX].
  exists (o_x o). split; [easy|]. split; [congruence|]. split.
  { apply norm_le_1. fold (sumsq (o_x o)).
    pose proof (sumsq_le_abs (o_x o) s ltac:(lra) BX) as Q. rewrite L, L0, S2, Rinv_r in Q by lra. exact Q. }
  intros z Lz Nz.
  destruct (box_scaled s x0 z ltac:(lra) ltac:(congruence) Nz) as [B1 B2].
  apply O in B1, B2. rewrite !crit_is_predict in B1, B2 by easy.
  set (a := fdot (sm_n m) (sm_g m) (fun_of z)).
  set (b := fdot (sm_n m) (fun_of z) (fmv (sm_n m) h (fun_of z))).
  assert (V : forall t, predict_scalar m (fun_of (vscale t z)) = predict_scalar m fzero + t * a + t * t * (b / 2)).
  { intros t. rewrite (predict_ext m _ (fadd fzero (fscale t (fun_of z)))).
    - rewrite (predict_line m h) by easy. fold a b.
      rewrite fdot_zero_l. rewrite (fdot_ext _ (fun_of z) (fun_of z) (fmv (sm_n m) h fzero) fzero).
      + rewrite fdot_zero_r. lra.
      + intros ? ?; reflexivity.
      + intros i Hi. now rewrite fmv_zero.
    - intros i Hi. rewrite fun_of_vscale. unfold fadd, fscale, fzero. lra. }
  assert (V1 : predict_scalar m (fun_of z) = predict_scalar m fzero + a + b / 2).
  { rewrite (predict_ext m _ (fun_of (vscale 1 z))); [rewrite V; lra|]. intros i Hi. rewrite fun_of_vscale. lra. }
  rewrite V in B1, B2. rewrite V1, <- S2, <- S1.
  assert (SS : 0 < s * s) by (apply Rmult_lt_0_compat; lra).
  assert (SQ : s * s <= s) by nra.
  split.
  - destruct (Rle_dec a 0); nra.
  - intros Hb. destruct (Rle_dec a 0); nra.
Qed.

(** Optimizers that return the point [p] (or the lower corner of the box) if it is the best one,
    and raise otherwise. *)
Definition exact_try (p : vec) : cminimizer := fun f _ _ lo up con b _ _ =>
  if sig_not_dec ((in_box lo up p /\ con p <= b) /\ forall z, in_box lo up z -> con z <= b -> f p <= f z)
  then Ok (mkOpt p (Fin (f p)) 0 true) else Err ValueError.
Definition exact_corner : minimizer := fun f _ _ lo up _ =>
  if sig_not_dec (in_box lo up lo /\ forall z, in_box lo up z -> f lo <= f z)
  then Ok (mkOpt lo (Fin (f lo)) 0 true) else Err ValueError.

Lemma Rle_stable a b : ~ ~ a <= b -> a <= b.
Proof. intros H. destruct (Rle_dec a b); [easy|]. now destruct H. Qed.
Lemma in_box_stable lo up x : ~ ~ in_box lo up x -> in_box lo up x.
Proof.
  intros H. unfold in_box. destruct (Nat.eq_dec (length x) (length lo)) as [E1|E1].
  2:{ destruct H. intros (? & _). easy. }
  destruct (Nat.eq_dec (length x) (length up)) as [E2|E2].
  2:{ destruct H. intros (_ & ? & _). easy. }
  split; [easy|]. split; [easy|]. intros i a l u A1 A2 A3.
  split; apply Rle_stable; intros N; apply H; intros (_ & _ & K); destruct (K i a l u A1 A2 A3); lra.
Qed.
Lemma exact_try_exact p : exact_constrained (exact_try p).
Proof.
  intros f g x0 lo up con b jac k o H. unfold exact_try in H.
  destruct (sig_not_dec _) as [D|]; [|discriminate]. injection H as <-. cbn [o_x].
  split; [split|].
  - apply in_box_stable. intros N. apply D. intros ((? & _) & _). easy.
  - apply Rle_stable. intros N. apply D. intros ((_ & ?) & _). easy.
  - intros z Z1 Z2. apply Rle_stable. intros N. apply D. intros (_ & K). apply N. now apply K.
Qed.
Lemma exact_corner_exact : exact exact_corner.
Proof.
  intros f g x0 lo up k o H. unfold exact_corner in H.
  destruct (sig_not_dec _) as [D|]; [|discriminate]. injection H as <-. cbn [o_x].
  split.
  - apply in_box_stable. intros N. apply D. intros (? & _). easy.
  - intros z Z1. apply Rle_stable. intros N. apply D. intros (_ & K). apply N. now apply K.
Qed.

(** C201 - the n-th part cannot be improved: the concave model - x_0 * x_0 / 2 in n dimensions. *)
Definition ridge (n : nat) : smodel :=
  mkS n 0 fzero (Some (fun i j => if (i =? 0)%nat && (j =? 0)%nat then -1 else 0)) (MScalar 1) fzero.
Lemma ridge_value n x : predict_scalar (ridge (S n)) x = - (x 0%nat * x 0%nat) / 2.
Proof.
  unfold predict_scalar, ridge. cbn [sm_n sm_g sm_c sm_h]. rewrite fdot_zero_r, fdot_fvm.
  unfold fdot. rewrite bsum_shift. rewrite (bsum_all_zero n).
  - unfold fmv. rewrite bsum_shift, (bsum_all_zero n); cbn [Nat.eqb andb]; [lra|intros; lra].
  - intros i Hi. unfold fmv. rewrite bsum_all_zero; [lra|]. intros. cbn [Nat.eqb andb]. lra.
Qed.
Theorem C201_inscribed_cube_sharp :
  forall n, exists r x z,
    robust_sphere_solver_inscribed_cube exact_corner (ridge (S n)) (repeat 0 (S n)) = Ok r /\
    fb_x r = Some x /\ length z = S n /\ norm z <= 1 /\
    let decrease y := predict_scalar (ridge (S n)) fzero - predict_scalar (ridge (S n)) (fun_of y) in
    0 < decrease z /\ decrease x = / INR (S n) * decrease z.
Proof.
  intros n. set (s := 1 / sqrt (INR (S n))).
  assert (HN : 0 < INR (S n)) by (apply lt_0_INR; lia).
  assert (HS : 0 < sqrt (INR (S n))) by (now apply sqrt_lt_R0).
  assert (S2 : s * s = / INR (S n)).
  { unfold s. rewrite <- (sqrt_sqrt (INR (S n))) at 3 by lra. field. lra. }
  assert (S0 : 0 < s) by (apply Rdiv_lt_0_compat; lra).
  set (lo := map (fun _ : R => - s) (repeat 0 (S n))).
  exists (mkFb (Some lo) (Fin (crit_quadratic (ridge (S n)) (fun i j => if (i =? 0)%nat && (j =? 0)%nat then -1 else 0) lo)) (Some 0%nat) (Some true)), lo, (1 :: repeat 0 n).
  split; [|split; [reflexivity|split; [|split; [|split]]]].
  - unfold robust_sphere_solver_inscribed_cube, robust_cube_solver. cbn [sm_h ridge]. cbv zeta.
    rewrite repeat_length. fold s. fold lo. unfold exact_corner.
    destruct (sig_not_dec _) as [D|D]; [reflexivity|]. destruct D. split.
    + apply (in_const_box s). unfold lo. rewrite map_length. split; [easy|]. intros a Ha.
      apply in_map_iff in Ha as (? & <- & _). lra.
    + intros z Hz. apply (in_const_box s) in Hz as [L Hz]. rewrite repeat_length in L.
      rewrite !crit_is_predict by easy. rewrite !ridge_value.
      destruct z as [|a z]; [discriminate|]. specialize (Hz a (or_introl eq_refl)).
      unfold lo, fun_of. cbn [map repeat nth]. nra.
  - cbn [length]. now rewrite repeat_length.
  - apply norm_le_1. fold (sumsq (1 :: repeat 0 n)). rewrite sumsq_cons. pose proof (sumsq_vzero n) as Z.
    unfold vzero in Z. rewrite Z. lra.
  - rewrite !ridge_value. unfold fun_of, fzero. cbn [nth]. lra.
  - rewrite !ridge_value, <- S2. unfold fun_of, fzero, lo. cbn [map repeat nth]. lra.
Qed.

(** * Examples *)

(** The model x_0 + 1 in two dimensions: the minimizer of the unit ball is (-1, 0). *)
Definition ex_slope : smodel :=
  mkS 2 1 (fun i => if (i =? 0)%nat then 1 else 0) (Some (fun _ _ => 0)) (MScalar 1) fzero.
Lemma ex_slope_value a b : predict_scalar ex_slope (fun_of [a; b]) = a + 1.
Proof. unfold predict_scalar, ex_slope, fdot, fvm, fun_of. cbn. lra. Qed.
Example C200_instance :
  exact_constrained (exact_try [-1; 0]) /\
  exists r, robust_sphere_solver_norm_constraint (exact_try [-1; 0]) ex_slope [0; 0] = Ok r /\
            fb_x r = Some [-1; 0].
Proof.
  split; [apply exact_try_exact|]. eexists. split; [|shelve].
  unfold robust_sphere_solver_norm_constraint. cbn [sm_h ex_slope]. cbv zeta. unfold exact_try.
  destruct (sig_not_dec _) as [D|D]; [reflexivity|]. destruct D. split; [split|].
  - apply (in_const_box 1 [0; 0]). split; [reflexivity|]. intros a [<-|[<-|[]]]; lra.
  - unfold constr_fun, dot. cbn. lra.
  - intros z Hz _. apply (in_const_box 1 [0; 0]) in Hz as [L Hz]. rewrite !crit_is_predict by reflexivity.
    destruct z as [|a [|b [|]]]; try discriminate. rewrite !ex_slope_value.
    specialize (Hz a (or_introl eq_refl)). lra.
  Unshelve. reflexivity.
Qed.
(** In one dimension the corner of the box is the minimizer of the ball, too. *)
Example C201_instance :
  exact exact_corner /\
  exists r, robust_sphere_solver_reparametrized exact_corner ex_line [0] = Ok r /\ fb_criterion r = Fin 0.
Proof.
  assert (V : forall a, predict_scalar ex_line (fun_of [a]) = a + 1).
  { intros. unfold predict_scalar, ex_line, fdot, fvm, fun_of. cbn. lra. }
  assert (P : forall a, -1 <= a <= 1 -> project_ball [a] = [a]).
  { intros a Ha. unfold project_ball. destruct (Rleb_spec (norm [a]) 1) as [|N]; [easy|]. exfalso.
    assert (norm [a] <= 1); [|lra]. apply norm_le_1. unfold dot. cbn. nra. }
  split; [apply exact_corner_exact|]. eexists. split.
  - unfold robust_sphere_solver_reparametrized. cbv zeta. unfold exact_corner.
    destruct (sig_not_dec _) as [D|D]; [reflexivity|]. destruct D. split.
    + apply (in_const_box 1 [0]). split; [reflexivity|]. intros a [<-|[]]; lra.
    + intros z Hz. apply (in_const_box 1 [0]) in Hz as [L Hz]. destruct z as [|a [|]]; try discriminate.
      specialize (Hz a (or_introl eq_refl)). cbn [map]. rewrite !P, !V by lra. lra.
  - cbn [fb_criterion o_fun]. f_equal. cbn [map]. rewrite P, V by lra. lra.
Qed.
