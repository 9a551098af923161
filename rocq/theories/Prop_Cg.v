(** Properties C57-C59 and C103: conjugate gradient solvers. *)
From Coq Require Import Reals List Arith ZArith Bool Lia Lra Psatz.
From Verif Require Import Base XR FVec CgModel.
Import ListNotations.
Open Scope R_scope.

(** * The step to the boundary *)

Lemma boundary_step n x d radius dd : 0 < dd -> fdot n d d = dd -> fsq n x <= radius * radius ->
  exists sigma, cg_distance_to_boundary n x d radius = Ok sigma /\ 0 <= sigma /\
    fsq n (fadd x (fscale sigma d)) = radius * radius /\
    forall a, 0 <= a <= sigma -> fsq n (fadd x (fscale a d)) <= radius * radius.
Proof.
  intros Hd Ed Hx. unfold cg_distance_to_boundary, msqrt, div.
  set (cc := fdot n x x). set (cd := fdot n x d). rewrite Ed.
  assert (Hcc : cc <= radius * radius) by exact Hx.
  assert (HP : 0 <= cd * cd + dd * (radius * radius - cc)) by nra.
  destruct (Rltb_spec (cd * cd + dd * (radius * radius - cc)) 0); [lra|]. cbn [bind].
  destruct (Reqb_spec dd 0); [lra|].
  set (S := sqrt (cd * cd + dd * (radius * radius - cc))).
  assert (HS : S * S = cd * cd + dd * (radius * radius - cc)) by (apply sqrt_sqrt; easy).
  assert (HS0 : 0 <= S) by apply sqrt_pos.
  assert (HSc : Rabs cd <= S).
  { apply Rsqr_incr_0_var; [|easy]. unfold Rsqr. rewrite HS. rewrite <- Rabs_mult.
    rewrite Rabs_right by nra. nra. }
  assert (HSc' : - S <= cd <= S) by (unfold Rabs in HSc; destruct (Rcase_abs cd); lra).
  assert (EQ : forall a, fsq n (fadd x (fscale a d)) = cc + 2 * a * cd + a * a * dd).
  { intros a. unfold fsq. rewrite fdot_add_l, !fdot_add_r, !fdot_scale_l, !fdot_scale_r.
    rewrite (fdot_comm n d x), Ed. fold cc cd. ring. }
  exists ((- cd + S) / dd). split; [easy|].
  set (sg := (- cd + S) / dd). assert (Esg : sg * dd = S - cd) by (unfold sg; field; lra).
  split; [|split].
  - apply Rmult_le_reg_r with dd; [easy|]. rewrite Rmult_0_l, Esg. lra.
  - rewrite EQ. apply Rmult_eq_reg_r with dd; [|lra].
    replace ((cc + 2 * sg * cd + sg * sg * dd) * dd) with (cc * dd + 2 * (sg * dd) * cd + (sg * dd) * (sg * dd)) by ring.
    rewrite Esg. nra.
  - intros a [Ha1 Ha2]. rewrite EQ. apply Rmult_le_reg_r with dd; [easy|].
    replace ((cc + 2 * a * cd + a * a * dd) * dd) with ((a * dd + cd) * (a * dd + cd) - cd * cd + cc * dd) by ring.
    assert (a * dd <= sg * dd) by nra. assert (0 <= a * dd) by nra. nra.
Qed.

(** * The invariant of the iteration *)

(** [cg_reach]: the states at the beginning of the passes of the loop. *)
Inductive cg_reach (n : nat) (g : fvec) (H : fmat) (radius stop_tol : R) : nat -> cgs -> Prop :=
| reach_init : cg_reach n g H radius stop_tol 0 (cg_init g)
| reach_step k s s' : cg_reach n g H radius stop_tol k s ->
    cg_step n H radius stop_tol s = Ok (inr s') -> cg_reach n g H radius stop_tol (S k) s'.

Definition cg_ok (n : nat) (radius : R) (s : cgs) : Prop :=
  fdot n (cg_r s) (cg_d s) = - fsq n (cg_r s) /\ fsq n (cg_x s) <= radius * radius.

Lemma residual_nonzero n r tol : 0 <= tol -> Rleb (fnorm n r) tol = false -> 0 < fsq n r.
Proof.
  intros Ht H. apply Rleb_false in H. rewrite <- fnorm_sqr. nra.
Qed.
Lemma direction_nonzero n r d : fdot n r d = - fsq n r -> 0 < fsq n r -> 0 < fsq n d.
Proof.
  intros H Hr. pose proof (cauchy_schwarz_f_sq n r d) as C. rewrite H in C.
  pose proof (fsq_nonneg n d). nra.
Qed.

(** One pass, from a state satisfying the invariant. *)
Lemma cg_step_spec n H radius tol s : 0 <= tol -> cg_ok n radius s ->
  exists o, cg_step n H radius tol s = Ok o /\
  match o with
  | inl x => fsq n x <= radius * radius /\
      ((x = cg_x s /\ fnorm n (cg_r s) <= tol) \/
       exists sigma, x = fadd (cg_x s) (fscale sigma (cg_d s)) /\ 0 <= sigma /\
         fsq n x = radius * radius /\ 0 < fsq n (cg_r s) /\
         (fdot n (fvm n (cg_d s) H) (cg_d s) <= 0 \/
          sigma * fdot n (fvm n (cg_d s) H) (cg_d s) < fsq n (cg_r s)))
  | inr s' => cg_ok n radius s' /\ 0 < fsq n (cg_r s) /\
      let sq := fdot n (fvm n (cg_d s) H) (cg_d s) in
      0 < sq /\
      cg_x s' = fadd (cg_x s) (fscale (fsq n (cg_r s) / sq) (cg_d s)) /\
      cg_r s' = fadd (cg_r s) (fscale (fsq n (cg_r s) / sq) (fmv n H (cg_d s)))
  end.
Proof.
  intros Ht [I1 I2]. unfold cg_step.
  destruct (Rleb (fnorm n (cg_r s)) tol) eqn:E.
  { eexists. split; [reflexivity|]. split; [easy|]. left. split; [easy|]. now apply Rleb_true. }
  pose proof (residual_nonzero _ _ _ Ht E) as Hr.
  pose proof (direction_nonzero _ _ _ I1 Hr) as Hd.
  destruct (boundary_step n (cg_x s) (cg_d s) radius _ Hd eq_refl I2) as (sg & -> & S0 & S1 & S2).
  cbn [bind]. set (sq := fdot n (fvm n (cg_d s) H) (cg_d s)).
  destruct (Rltb_spec 0 sq) as [Hq|Hq].
  - destruct (Rltb_spec sg (fdot n (cg_r s) (cg_r s) / sq)) as [Hs|Hs].
    + eexists. split; [reflexivity|]. split; [lra|]. right. exists sg. splits; try easy. right.
      apply (Rmult_lt_compat_r sq) in Hs; [|easy].
      replace (fdot n (cg_r s) (cg_r s) / sq * sq) with (fsq n (cg_r s)) in Hs by (unfold fsq; field; lra). easy.
    + unfold cg_update, div. change (fdot n (cg_r s) (cg_r s)) with (fsq n (cg_r s)) in *.
      destruct (Reqb_spec (fsq n (cg_r s)) 0); [lra|]. cbn [bind].
      eexists. split; [reflexivity|]. cbn [cg_x cg_r cg_d]. split; [|easy].
      assert (Ha : 0 <= fsq n (cg_r s) / sq) by (apply Rlt_le, Rdiv_lt_0_compat; easy).
      split; cbn [cg_x cg_r cg_d]; [|apply S2; lra].
      set (al := fsq n (cg_r s) / sq) in *.
      set (r' := fadd (cg_r s) (fscale al (fmv n H (cg_d s)))).
      set (be := fdot n r' r' / fsq n (cg_r s)).
      rewrite fdot_add_r, fdot_opp_r, fdot_scale_r.
      assert (Z : fdot n r' (cg_d s) = 0).
      { unfold r'. rewrite fdot_add_l, fdot_scale_l, I1.
        replace (fdot n (fmv n H (cg_d s)) (cg_d s)) with sq.
        - unfold al. field. lra.
        - unfold sq. rewrite fdot_fvm. apply fdot_comm. }
      rewrite Z. unfold fsq. lra.
  - eexists. split; [reflexivity|]. split; [lra|]. right. exists sg. splits; try easy. left. lra.
Qed.

Lemma cg_init_ok n g radius : 0 <= radius -> cg_ok n radius (cg_init g).
Proof.
  intros Hr. split; cbn [cg_init cg_r cg_d cg_x].
  - rewrite fdot_opp_r. reflexivity.
  - unfold fsq. rewrite fdot_zero_l. nra.
Qed.
Lemma cg_stop_tol_nonneg n g a b : 0 <= a -> 0 <= cg_stop_tol n g a b.
Proof. intros H. unfold cg_stop_tol. eapply Rle_trans; [exact H|apply Rmax_l]. Qed.

Lemma cg_reach_ok n g H radius tol k s : 0 <= radius -> 0 <= tol ->
  cg_reach n g H radius tol k s -> cg_ok n radius s.
Proof.
  intros Hr Ht R. induction R as [|k s s' R IH E]; [now apply cg_init_ok|].
  destruct (cg_step_spec n H radius tol s Ht IH) as (o & Eo & S). rewrite E in Eo. injection Eo as <-.
  now destruct S.
Qed.

(** The result is left by one of the reachable states. *)
Lemma cg_result n g H radius tol : 0 <= radius -> 0 <= tol ->
  forall k i s, cg_reach n g H radius tol i s ->
  exists x, cg_loop k n H radius tol s = Ok x /\
    ((exists j t, cg_reach n g H radius tol j t /\ cg_step n H radius tol t = Ok (inl x)) \/
     (exists t, cg_reach n g H radius tol (i + k) t /\ x = cg_x t)).
Proof.
  intros Hr Ht. induction k as [|k IH]; intros i s R.
  - exists (cg_x s). split; [reflexivity|]. right. exists s. now rewrite Nat.add_0_r.
  - cbn [cg_loop]. pose proof (cg_reach_ok _ _ _ _ _ _ _ Hr Ht R) as O.
    destruct (cg_step_spec n H radius tol s Ht O) as (o & E & _). rewrite E. cbn [bind].
    destruct o as [x|s'].
    + exists x. split; [easy|]. left. eauto.
    + destruct (IH (S i) s') as (x & E' & D); [econstructor; eauto|]. exists x. split; [easy|].
      destruct D as [D|(t & D & ->)]; [now left|right]. exists t. split; [|easy].
      now rewrite Nat.add_succ_r.
Qed.

(** * C57 *)

(** C57 - for arbitrary Hessians the conjugate gradient method never raises (no division by
    zero, no root of a negative number) and its result is within the trustregion. *)
Theorem C57_cg_within_radius :
  forall n g H radius gtol_abs gtol_rel,
    0 <= radius -> 0 <= gtol_abs ->
    exists x, minimize_trust_cg n g H radius gtol_abs gtol_rel = Ok x /\ fnorm n x <= radius.
Proof.
  intros n g H radius ga gr Hr Ha. unfold minimize_trust_cg.
  pose proof (cg_stop_tol_nonneg n g ga gr Ha) as Ht. set (tol := cg_stop_tol n g ga gr) in *.
  destruct (cg_result n g H radius tol Hr Ht (n * 2) 0 (cg_init g) (reach_init _ _ _ _ _)) as (x & E & D).
  exists x. split; [easy|]. apply fnorm_le_iff; [easy|].
  destruct D as [(j & t & R & S)|(t & R & ->)].
  - pose proof (cg_reach_ok _ _ _ _ _ _ _ Hr Ht R) as O.
    destruct (cg_step_spec n H radius tol t Ht O) as (o & Eo & Q). rewrite S in Eo. injection Eo as <-.
    now destruct Q.
  - now apply (cg_reach_ok _ _ _ _ _ _ _ Hr Ht R).
Qed.

(** * C58 *)

(** The quadratic model without intercept, and its gradient. *)
Definition qval (n : nat) (g : fvec) (H : fmat) (x : fvec) : R :=
  bsum n (fun i => g i * x i) + / 2 * bsum n (fun i => bsum n (fun j => x i * H i j * x j)).
Definition qgrad (n : nat) (g : fvec) (H : fmat) (x : fvec) (i : nat) : R :=
  g i + bsum n (fun j => H i j * x j).

Lemma qval_fdot n g H x : qval n g H x = fdot n g x + / 2 * fdot n x (fmv n H x).
Proof.
  unfold qval, fdot, fmv. f_equal. f_equal. apply bsum_ext. intros i _. rewrite <- bsum_scal.
  apply bsum_ext. intros. ring.
Qed.
Lemma qval_move n g H x d a : fsymm n H ->
  qval n g H (fadd x (fscale a d))
  = qval n g H x + a * fdot n (fadd g (fmv n H x)) d + / 2 * (a * a) * fdot n d (fmv n H d).
Proof.
  intros S. rewrite !qval_fdot. rewrite fdot_add_r, fdot_scale_r, fdot_fmv_add_r, fdot_fmv_scale_r.
  rewrite (fdot_add_l n x (fscale a d) (fmv n H x)), (fdot_add_l n x (fscale a d) (fmv n H d)).
  rewrite !fdot_scale_l. rewrite (fdot_symm n x H d) by easy. rewrite fdot_add_l.
  rewrite (fdot_comm n (fmv n H x) d). field.
Qed.

Lemma fdot_fvm_fmv n d H : fdot n (fvm n d H) d = fdot n d (fmv n H d).
Proof. apply fdot_fvm. Qed.

Lemma cg_reach_residual n g H radius tol k s : 0 <= radius -> 0 <= tol ->
  cg_reach n g H radius tol k s -> feq n (cg_r s) (fadd g (fmv n H (cg_x s))).
Proof.
  intros Hr Ht R. induction R as [|k s s' R IH E].
  - intros i Hi. unfold cg_init, fadd. cbn [cg_r cg_x]. rewrite fmv_zero. lra.
  - pose proof (cg_reach_ok _ _ _ _ _ _ _ Hr Ht R) as O.
    destruct (cg_step_spec n H radius tol s Ht O) as (o & Eo & Q). rewrite E in Eo. injection Eo as <-.
    destruct Q as (_ & _ & _ & -> & ->). intros i Hi. specialize (IH i Hi). unfold fadd at 1. rewrite IH.
    unfold fadd at 1 2. rewrite fmv_add, fmv_scale. unfold fscale. lra.
Qed.

(** C58 - the internal residual is the gradient of the model at the iterate, and every pass of
    the loop strictly decreases the model value. *)
Theorem C58_cg_residual_and_descent :
  forall n g H radius tol k s,
    fsymm n H -> 0 <= radius -> 0 <= tol -> cg_reach n g H radius tol k s ->
    (forall i, (i < n)%nat -> cg_r s i = qgrad n g H (cg_x s) i) /\
    (forall s', cg_step n H radius tol s = Ok (inr s') -> qval n g H (cg_x s') < qval n g H (cg_x s)) /\
    (forall x, cg_step n H radius tol s = Ok (inl x) -> qval n g H x <= qval n g H (cg_x s)).
Proof.
  intros n g H radius tol k s S Hr Ht R.
  pose proof (cg_reach_residual _ _ _ _ _ _ _ Hr Ht R) as G.
  pose proof (cg_reach_ok _ _ _ _ _ _ _ Hr Ht R) as O.
  destruct (cg_step_spec n H radius tol s Ht O) as (o & Eo & Q).
  assert (RD : fdot n (fadd g (fmv n H (cg_x s))) (cg_d s) = - fsq n (cg_r s)).
  { destruct O as [O _]. rewrite <- O. apply fdot_ext; [|easy]. intros i Hi. symmetry. now apply G. }
  split; [exact G|]. split.
  - intros s' E. rewrite E in Eo. injection Eo as <-. destruct Q as (_ & Hp & Hq & -> & _).
    rewrite qval_move by easy. rewrite RD. rewrite <- fdot_fvm_fmv.
    set (sq := fdot n (fvm n (cg_d s) H) (cg_d s)) in *. set (rr := fsq n (cg_r s)) in *.
    assert (0 < rr / sq) by (apply Rdiv_lt_0_compat; easy).
    assert (rr / sq * sq = rr) by (field; lra). nra.
  - intros x E. rewrite E in Eo. injection Eo as <-. destruct Q as (_ & [[-> _]|(sg & -> & S0 & _ & Hp & Q)]); [lra|].
    rewrite qval_move by easy. rewrite RD. rewrite <- fdot_fvm_fmv.
    set (sq := fdot n (fvm n (cg_d s) H) (cg_d s)) in *. set (rr := fsq n (cg_r s)) in *.
    destruct Q as [Q|Q]; nra.
Qed.

(** C58 - the returned step does not increase the model value. *)
Theorem C58_cg_model_decrease :
  forall n g H radius gtol_abs gtol_rel x,
    fsymm n H -> 0 <= radius -> 0 <= gtol_abs ->
    minimize_trust_cg n g H radius gtol_abs gtol_rel = Ok x ->
    qval n g H x <= 0.
Proof.
  intros n g H radius ga gr x S Hr Ha E. unfold minimize_trust_cg in E.
  pose proof (cg_stop_tol_nonneg n g ga gr Ha) as Ht. set (tol := cg_stop_tol n g ga gr) in *.
  assert (Z : qval n g H fzero = 0).
  { rewrite qval_fdot, !fdot_zero_r, fdot_zero_l. lra. }
  assert (M : forall j t, cg_reach n g H radius tol j t -> qval n g H (cg_x t) <= 0).
  { intros j t R. induction R as [|k s s' R IH E']; [cbn [cg_init cg_x]; lra|].
    destruct (C58_cg_residual_and_descent n g H radius tol k s S Hr Ht R) as (_ & D & _).
    specialize (D s' E'). lra. }
  destruct (cg_result n g H radius tol Hr Ht (n * 2) 0 (cg_init g) (reach_init _ _ _ _ _)) as (x' & E' & D).
  rewrite E in E'. injection E' as <-.
  destruct D as [(j & t & R & Q)|(t & R & ->)]; [|eapply M; eauto].
  destruct (C58_cg_residual_and_descent n g H radius tol j t S Hr Ht R) as (_ & _ & D).
  specialize (D x Q). specialize (M j t R). lra.
Qed.

(** * C103 *)

Lemma sum_loop_bsum n f : sum_loop n f = bsum n f.
Proof.
  unfold sum_loop. induction n; [reflexivity|]. rewrite seq_S, fold_left_app. simpl. now rewrite IHn.
Qed.
Lemma cg_distance_fast_eq n x d radius : cg_distance_to_boundary_fast n x d radius = cg_distance_to_boundary n x d radius.
Proof. unfold cg_distance_to_boundary_fast, cg_distance_to_boundary. now rewrite !sum_loop_bsum. Qed.

(** Component-wise equal states are mapped to component-wise equal states. *)
Definition cgs_eq (n : nat) (s t : cgs) : Prop :=
  feq n (cg_x s) (cg_x t) /\ feq n (cg_r s) (cg_r t) /\ feq n (cg_d s) (cg_d t).
Definition res_rel {A} (Q : A -> A -> Prop) (a b : res A) : Prop :=
  match a, b with Ok x, Ok y => Q x y | Err e, Err f => e = f | _, _ => False end.

Lemma fvm_ext n x y H : feq n x y -> fvm n x H = fvm n y H.
Proof.
  intros E. unfold fvm. apply FunctionalExtensionality.functional_extensionality. intros j. apply bsum_ext.
  intros i Hi. now rewrite (E i Hi).
Qed.
Lemma cg_step_fast_eq n H radius tol s t : cgs_eq n s t ->
  res_rel (fun a b => match a, b with inl x, inl y => feq n x y | inr s, inr t => cgs_eq n s t | _, _ => False end)
    (cg_step_fast n H radius tol s) (cg_step n H radius tol t).
Proof.
  intros (Ex & Er & Ed). unfold cg_step_fast, cg_step. rewrite cg_distance_fast_eq.
  rewrite (fnorm_ext n _ _ Er). destruct (Rleb _ tol); [exact Ex|].
  assert (ED : cg_distance_to_boundary n (cg_x s) (cg_d s) radius = cg_distance_to_boundary n (cg_x t) (cg_d t) radius).
  { unfold cg_distance_to_boundary.
    now rewrite (fdot_ext n _ _ _ _ Ex Ex), (fdot_ext n _ _ _ _ Ex Ed), (fdot_ext n _ _ _ _ Ed Ed). }
  rewrite ED. destruct (cg_distance_to_boundary n (cg_x t) (cg_d t) radius) as [dist|]; [|reflexivity]. cbn [bind].
  rewrite (fvm_ext n _ _ H Ed), (fdot_ext n _ _ _ _ (fun _ _ => eq_refl) Ed).
  set (sq := fdot n (fvm n (cg_d t) H) (cg_d t)).
  assert (EB : feq n (fadd (cg_x s) (fscale dist (cg_d s))) (fadd (cg_x t) (fscale dist (cg_d t)))).
  { intros i Hi. unfold fadd, fscale. now rewrite (Ex i Hi), (Ed i Hi). }
  destruct (Rltb 0 sq); [|exact EB]. rewrite (fdot_ext n _ _ _ _ Er Er).
  set (al := fdot n (cg_r t) (cg_r t) / sq). destruct (Rltb dist al); [exact EB|].
  unfold cg_update_fast, cg_update. rewrite !sum_loop_bsum.
  set (r1 := fun i => sum_loop n (fun j => H i j * cg_d s j) * al + cg_r s i).
  set (r2 := fadd (cg_r t) (fscale al (fmv n H (cg_d t)))).
  assert (ER : feq n r1 r2).
  { intros i Hi. unfold r1, r2, fadd, fscale, fmv. rewrite sum_loop_bsum.
    rewrite (bsum_ext n (fun j => H i j * cg_d s j) (fun j => H i j * cg_d t j)).
    - rewrite (Er i Hi). ring.
    - intros j Hj. now rewrite (Ed j Hj). }
  change (bsum n (fun i => (sum_loop n (fun j => H i j * cg_d s j) * al + cg_r s i)
                           * (sum_loop n (fun j => H i j * cg_d s j) * al + cg_r s i))) with (fdot n r1 r1).
  rewrite (fdot_ext n r1 r2 r1 r2 ER ER).
  replace (bsum n (fun i => cg_r s i * cg_r s i)) with (fdot n (cg_r t) (cg_r t))
    by (symmetry; apply (fdot_ext n (cg_r s) _ (cg_r s) _ Er Er)).
  destruct (div _ _) as [be|]; [|cbn; reflexivity]. cbn [bind res_rel]. repeat split; cbn [cg_x cg_r cg_d].
  - intros i Hi. unfold fadd, fscale. now rewrite (Ex i Hi), (Ed i Hi).
  - exact ER.
  - intros i Hi. unfold fadd, fscale, fopp. now rewrite (ER i Hi), (Ed i Hi).
Qed.

(** C103 - in exact arithmetic the numba version of the conjugate gradient method returns the
    same vector (or raises the same exception) for all inputs. *)
Theorem C103_cg_fast_equals_cg :
  forall n g H radius gtol_abs gtol_rel,
    match minimize_trust_cg_fast n g H radius gtol_abs gtol_rel,
          minimize_trust_cg n g H radius gtol_abs gtol_rel with
    | Ok x, Ok y => forall i, (i < n)%nat -> x i = y i
    | Err e, Err f => e = f
    | _, _ => False
    end.
Proof.
  intros n g H radius ga gr. unfold minimize_trust_cg_fast, minimize_trust_cg.
  generalize (cg_stop_tol n g ga gr) as tol. intros tol.
  assert (G : forall k s t, cgs_eq n s t -> res_rel (feq n) (cg_loop_fast k n H radius tol s) (cg_loop k n H radius tol t)).
  { induction k as [|k IH]; intros s t E; cbn [cg_loop_fast cg_loop]; [apply E|].
    pose proof (cg_step_fast_eq n H radius tol s t E) as Q.
    destruct (cg_step_fast n H radius tol s) as [[x|s']|], (cg_step n H radius tol t) as [[y|t']|]; try easy.
    cbn [bind]. now apply IH. }
  apply G. now splits.
Qed.

(** Example: g = (-1, 0), H = diag(1, 2), radius 1/2: the step goes to the boundary. *)
Definition ex_g : fvec := fun i => match i with 0%nat => -1 | _ => 0 end.
Definition ex_H : fmat := fun i j => if (i =? j)%nat then INR (S i) else 0.
Example ex_C57 : fsymm 2 ex_H /\
  minimize_trust_cg 2 ex_g ex_H (1/2) 0 0 = Ok (fadd fzero (fscale (1/2) (fopp ex_g))).
Proof.
  split.
  { intros i j _ _. unfold ex_H. rewrite Nat.eqb_sym. destruct (Nat.eqb_spec j i); [now subst|easy]. }
  assert (NG : fdot 2 ex_g ex_g = 1) by (hcompute; lra).
  assert (NN : fnorm 2 ex_g = 1) by (unfold fnorm, fsq; rewrite NG; apply sqrt_1).
  unfold minimize_trust_cg, cg_stop_tol. cbn [Nat.mul Nat.add cg_loop].
  unfold cg_step. cbn [cg_init cg_r cg_x cg_d]. rewrite NN.
  destruct (Rleb_spec 1 (Rmax 0 (0 * 1))) as [B|B]; [rewrite Rmult_0_l, Rmax_left in B; lra|].
  unfold cg_distance_to_boundary.
  assert (D1 : fdot 2 fzero fzero = 0) by apply fdot_zero_l.
  assert (D2 : fdot 2 fzero (fopp ex_g) = 0) by apply fdot_zero_l.
  assert (D3 : fdot 2 (fopp ex_g) (fopp ex_g) = 1) by (hcompute; lra).
  rewrite D1, D2, D3. replace (0 * 0 + 1 * (1 / 2 * (1 / 2) - 0)) with (1 / 2 * (1 / 2)) by lra.
  unfold msqrt, div. destruct (Rltb_spec (1/2 * (1/2)) 0); [lra|]. cbn [bind].
  destruct (Reqb_spec 1 0); [lra|]. cbn [bind]. rewrite sqrt_square by lra.
  replace ((- 0 + 1 / 2) / 1) with (1 / 2) by lra.
  assert (SQ : fdot 2 (fvm 2 (fopp ex_g) ex_H) (fopp ex_g) = 1) by (hcompute; lra).
  rewrite SQ, NG. destruct (Rltb_spec 0 1); [|lra]. destruct (Rltb_spec (1/2) (1/1)); [|lra]. reflexivity.
Qed.

(** * C59 *)

Lemma st_boundary n x p radius norm_p : 0 < norm_p -> fdot n p p = norm_p -> fsq n x <= radius * radius ->
  exists y, st_to_boundary x p (fdot n x p) (radius * radius) (fdot n x x) norm_p = Ok y /\
    fsq n y = radius * radius.
Proof.
  intros Hp Ep Hx. destruct (boundary_step n x p radius norm_p Hp Ep Hx) as (sg & E & _ & S & _).
  unfold cg_distance_to_boundary in E. unfold st_to_boundary. rewrite Ep in E.
  destruct (msqrt _) as [s|]; [|discriminate]. cbn [bind] in *.
  replace (s - fdot n x p) with (- fdot n x p + s) by lra. rewrite E. cbn [bind]. eauto.
Qed.

Definition st_ok (n : nat) (H : fmat) (radius : R) (s : sts) : Prop :=
  st_norm_d s = fdot n (st_x s) (st_x s) /\ st_dp s = fdot n (st_x s) (st_p s) /\
  st_norm_p s = fdot n (st_p s) (st_p s) /\ st_kappa s = fdot n (st_p s) (fmv n H (st_p s)) /\
  0 < st_kappa s /\ fsq n (st_x s) <= radius * radius.

Lemma kappa_pos_p n H p : 0 < fdot n p (fmv n H p) -> 0 < fdot n p p.
Proof.
  intros K. destruct (Req_dec (fdot n p p) 0) as [E|E].
  - assert (Z : fdot n p (fmv n H p) = 0); [|lra].
    unfold fdot. apply bsum_all_zero. intros i Hi. rewrite (fsq_zero n p E i Hi). lra.
  - pose proof (fsq_nonneg n p) as Q. unfold fsq in Q. lra.
Qed.

Lemma st_loop_ok n H radius norm_r0 ttol divtol max_iter : 0 < radius ->
  forall k s x, st_ok n H radius s -> st_loop k n H radius norm_r0 ttol divtol max_iter s = Ok x ->
  fsq n x <= radius * radius.
Proof.
  intros Hr. induction k as [|k IH]; intros s x O E; cbn [st_loop] in E.
  { injection E as <-. apply O. }
  destruct O as (O1 & O2 & O3 & O4 & O5 & O6). unfold st_step in E.
  assert (Hp : 0 < fdot n (st_p s) (st_p s)) by (apply (kappa_pos_p n H); lra).
  unfold div at 1 in E. destruct (Reqb_spec (st_kappa s) 0); [lra|]. cbn [bind] in E.
  destruct (Reqb_spec radius 0); [lra|]. cbn [negb andb] in E.
  set (al := st_rz s / st_kappa s) in *.
  assert (ND : st_norm_d s + al * (2 * st_dp s + al * st_norm_p s) = fsq n (fadd (st_x s) (fscale al (st_p s)))).
  { rewrite O1, O2, O3. unfold fsq. rewrite fdot_add_l, !fdot_add_r, !fdot_scale_l, !fdot_scale_r.
    rewrite (fdot_comm n (st_p s) (st_x s)). ring. }
  rewrite ND in E. set (x1 := fadd (st_x s) (fscale al (st_p s))) in *.
  destruct (Rleb_spec (radius * radius) (fsq n x1)) as [B|B].
  - rewrite O3 in E. destruct (Rltb_spec 0 (fdot n (st_p s) (st_p s))); [|lra].
    rewrite O1, O2 in E.
    destruct (st_boundary n (st_x s) (st_p s) radius _ Hp eq_refl O6) as (y & Ey & Sy).
    rewrite Ey in E. cbn [bind] in E. injection E as <-. lra.
  - set (r1 := fsub _ _) in *. cbn zeta in E.
    destruct (st_check _ _ _ _ _ _) as [cv dv].
    destruct (cv || dv); [injection E as <-; lra|].
    destruct (div (fdot n r1 r1) (st_rz s)) as [be|]; [|discriminate]. cbn [bind] in E.
    destruct (Rleb (Rabs be) 0); [injection E as <-; lra|].
    destruct (max_iter <=? st_iter s)%nat; [injection E as <-; lra|].
    set (p1 := fadd r1 (fscale be (st_p s))) in *.
    destruct (Rleb_spec (fdot n p1 (fmv n H p1)) 0) as [K|K].
    + destruct (Rltb_spec 0 (fdot n p1 p1)) as [P|P]; [|injection E as <-; lra].
      destruct (st_boundary n x1 p1 radius _ P eq_refl) as (y & Ey & Sy); [lra|].
      rewrite Ey in E. cbn [bind] in E. injection E as <-. lra.
    + cbn [bind] in E. apply IH in E; [easy|].
      unfold st_ok. cbn [st_norm_d st_x st_dp st_p st_norm_p st_kappa]. splits; try easy; lra.
Qed.

(** C59 holds if the first direction has positive curvature: with p = H (pinv(H) (-g)), which is
    the projection of -g on the range of H, p'Hp > 0; [pinv] may be any matrix. *)
Theorem C59_stcg_within_radius_partial :
  forall pinv n g H radius x,
    0 < radius ->
    (let p := fmv n H (fmv n (pinv n H) (fopp g)) in 0 < fdot n p (fmv n H p)) ->
    minimize_trust_stcg pinv n g H radius = Ok x ->
    fnorm n x <= radius.
Proof.
  intros pinv n g H radius x Hr K E. cbv zeta in K. unfold minimize_trust_stcg in E. cbv zeta in E.
  set (p := fmv n H (fmv n (pinv n H) (fopp g))) in *.
  destruct (st_check _ _ _ _ _ _) as [cv dv].
  destruct (Rleb_spec (fdot n p (fmv n H p)) 0); [lra|]. cbn [bind] in E.
  apply fnorm_le_iff; [lra|]. eapply (st_loop_ok _ _ _ _ _ _ _ Hr); [|exact E].
  unfold st_ok. cbn [st_norm_d st_x st_dp st_p st_norm_p st_kappa].
  splits; try easy.
  - now rewrite fdot_zero_l.
  - now rewrite fdot_zero_l.
  - unfold fsq. rewrite fdot_zero_l. nra.
Qed.

(** C59 fails in general: after the step to the boundary along the first direction of negative
    curvature the function does not return but takes a second step.  For g = 1, H = -1 and every
    radius up to 1 the result is -2 * radius, whatever pinv does on other matrices. *)
Theorem C59_stcg_within_radius_refuted :
  forall pinv radius, pinv 1%nat (fun _ _ => -1) 0%nat 0%nat = -1 -> 0 < radius <= 1 ->
    exists x, minimize_trust_stcg pinv 1 (fun _ => 1) (fun _ _ => -1) radius = Ok x /\
      x 0%nat = - 2 * radius /\ radius < fnorm 1 x.
Proof.
  intros pinv radius HP [Hr1 Hr2]. unfold minimize_trust_stcg. cbv zeta.
  set (H := fun _ _ : nat => -1) in *. set (res := fopp (fun _ => 1)).
  assert (RR : fdot 1 res res = 1) by (unfold fdot, res, fopp; simpl; lra).
  set (z := fmv 1 (pinv 1%nat H) res).
  assert (Z : z 0%nat = 1) by (unfold z, fmv, res, fopp; simpl; rewrite HP; lra).
  set (p := fmv 1 H z). assert (P : forall i, p i = -1).
  { intros i. unfold p, fmv, H. simpl. rewrite Z. lra. }
  assert (PP : fdot 1 p p = 1) by (unfold fdot; simpl; rewrite P; lra).
  assert (KK : fdot 1 p (fmv 1 H p) = -1) by (unfold fdot, fmv, H; simpl; rewrite P; lra).
  rewrite RR, PP, KK. rewrite sqrt_1.
  destruct (st_check _ _ _ _ _ _) as [cv dv].
  destruct (Rleb_spec (-1) 0); [|lra]. unfold st_first_step.
  destruct (Reqb_spec radius 0); [lra|]. cbn [negb andb]. destruct (Rltb_spec 0 1); [|lra].
  unfold msqrt. replace (radius * radius / 1) with (radius * radius) by lra.
  destruct (Rltb_spec (radius * radius) 0); [nra|]. rewrite sqrt_square by lra. cbn [bind].
  change (Nat.min 1 (Z.to_nat 10000)) with 1%nat. cbn [st_loop]. unfold st_step.
  cbn [st_x st_res st_p st_rz st_kappa st_dp st_norm_d st_norm_p st_conv st_div st_iter].
  unfold div at 1. destruct (Reqb_spec (-1) 0); [lra|]. cbn [bind].
  destruct (Reqb_spec radius 0); [lra|]. cbn [negb andb].
  replace (0 + 1 / -1 * (2 * 0 + 1 / -1 * 1)) with 1 by lra.
  destruct (Rleb_spec (radius * radius) 1); [|nra]. destruct (Rltb_spec 0 1); [|lra].
  unfold st_to_boundary, msqrt. replace (0 * 0 + 1 * (radius * radius - 0)) with (radius * radius) by lra.
  destruct (Rltb_spec (radius * radius) 0); [nra|]. rewrite sqrt_square by lra. cbn [bind].
  unfold div. destruct (Reqb_spec 1 0); [lra|]. cbn [bind].
  eexists. split; [reflexivity|].
  assert (V : fadd (fadd fzero (fscale radius p)) (fscale ((radius - 0) / 1) p) 0%nat = - 2 * radius).
  { unfold fadd, fscale, fzero. rewrite P. lra. }
  split; [exact V|]. unfold fnorm, fsq, fdot. cbn [bsum]. rewrite V.
  replace (0 + - 2 * radius * (- 2 * radius)) with ((2 * radius) * (2 * radius)) by lra.
  rewrite sqrt_square by lra. lra.
Qed.

(** Example for the hypotheses of the partial statement: g = 1, H = 1. *)
Example ex_C59 : exists pinv : nat -> fmat -> fmat,
  let p := fmv 1 (fun _ _ => 1) (fmv 1 (pinv 1%nat (fun _ _ => 1)) (fopp (fun _ => 1))) in
  0 < fdot 1 p (fmv 1 (fun _ _ => 1) p).
Proof. exists (fun _ H => H). hcompute. lra. Qed.
