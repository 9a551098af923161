(** Property C197: the accuracy of gqtpar's solutions.  Property C198: the decrease reached by the
    conjugate gradient solver. *)
From Coq Require Import Reals List Arith ZArith Bool Lia Lra.
From Verif Require Import Base XR FVec CgModel Prop_Cg GqtparModel GqtparProofs Prop_Gqtpar Prop_Gqtpar2.
Import ListNotations.
Open Scope R_scope.

(** * C197 - accuracy of gqtpar *)

(** The model value in terms of the solution x of (H + lam I) x = - g. *)
Lemma qval_shifted n g H lam x y : fsymm n H -> feq n (fmv n (add_diag H lam) x) (fopp g) ->
  qval n g H y = / 2 * fdot n (fsub y x) (fmv n (add_diag H lam) (fsub y x))
    - / 2 * fdot n x (fmv n (add_diag H lam) x) - / 2 * (lam * fsq n y).
Proof.
  intros S E. set (d := fsub y x).
  assert (Ey : qval n g H y = qval n g H (fadd x (fscale 1 d))).
  { apply qval_ext. intros i _. unfold fadd, fscale, d, fsub. lra. }
  rewrite Ey, qval_move by easy. clear Ey.
  assert (G : fdot n (fadd g (fmv n H x)) d = - lam * fdot n x d).
  { rewrite <- fdot_scale_l. apply fdot_ext; [|easy]. intros i Hi. specialize (E i Hi).
    rewrite fmv_add_diag in E by easy. unfold fadd, fscale, fopp in *. lra. }
  assert (X : fdot n x (fmv n (add_diag H lam) x) = - fdot n g x).
  { rewrite fdot_comm. rewrite (fdot_ext n _ (fopp g) x x E) by easy. rewrite fdot_opp_l. reflexivity. }
  rewrite G, X, form_add_diag, qval_fdot.
  assert (X' : fdot n x (fmv n H x) = - fdot n g x - lam * fsq n x).
  { rewrite <- X, form_add_diag. unfold fsq. ring. }
  rewrite X'.
  assert (Q : fsq n y = fsq n x + 2 * fdot n x d + fdot n d d).
  { unfold d, fsq. rewrite !fdot_sub_r, !fdot_sub_l. rewrite (fdot_comm n y x). ring. }
  rewrite Q. field.
Qed.

(** A pass that factorizes its own matrix and stops has found a step whose decrease is at least the
    share 1 - k_hard of the best decrease in the ball. *)
Theorem C197_fresh_exit :
  forall tie n g H o s s', (0 < n)%nat -> fsymm n H ->
    zero_threshold n H < fnorm n g -> 0 <= k_hard o <= 1 ->
    q_fact s = false -> q_conv s = false -> 0 <= l_cand (q_lam s) ->
    gq_pass tie n g H o s = Ok s' -> q_conv s' = true ->
    forall y, fnorm n y <= 1 -> qval n g H (q_x s') <= (1 - k_hard o) * qval n g H y.
Proof.
  intros tie n g H o s s' Ln S G K F C0 L0 E C y Ny.
  pose proof (zero_threshold_nonneg n H Ln) as Z.
  rewrite pass_fresh in E by easy. cbv zeta in E.
  set (lam := l_cand (q_lam s)) in *.
  pose proof (add_diag_symm n H lam S) as S0.
  destruct (chol n (add_diag H lam)) as (U, info) eqn:EC. destruct info as [|info].
  2:{ apply unsuccessful_conv in E as (E & _). cbn in E. congruence. }
  destruct (Rltb _ _) eqn:B; [|apply Rltb_false in B; lra].
  assert (PD : possemidef n (add_diag H lam)).
  { apply posdef_semi. apply (factor_posdef n _ U). now apply chol_ok. }
  eapply (find_new_cases tie n g H o _ s' (add_diag H lam)) in E; try easy; [|lra].
  destruct E as (x & newton & Hx & Px & _ & _ & E). cbv zeta in E. cbn [q_conv q_lam] in E. fold lam in E.
  rewrite C0 in E. cbn [orb] in E.
  assert (YV : - / 2 * (fdot n x (fmv n (add_diag H lam) x) + lam) <= qval n g H y).
  { rewrite (qval_shifted n g H lam x y S Hx). pose proof (PD (fsub y x)) as P.
    assert (fsq n y <= 1 * 1) by (apply fnorm_le_iff; lra).
    assert (lam * fsq n y <= lam * 1) by (apply Rmult_le_compat_l; lra). lra. }
  assert (XV : qval n g H x = - / 2 * (fdot n x (fmv n (add_diag H lam) x) + lam * fsq n x)).
  { rewrite (qval_shifted n g H lam x x S Hx).
    assert (Q : fdot n (fsub x x) (fmv n (add_diag H lam) (fsub x x)) = 0).
    { apply bsum_all_zero. intros i _. unfold fsub. lra. }
    rewrite Q. lra. }
  assert (PX : 0 <= fdot n x (fmv n (add_diag H lam) x)) by apply PD.
  assert (Exact : lam <= lam * fsq n x -> qval n g H x <= (1 - k_hard o) * qval n g H y).
  { intros A. destruct (Rle_lt_dec (qval n g H y) 0) as [Q|Q].
    - assert (0 <= k_hard o * - qval n g H y) by (apply Rmult_le_pos; lra). lra.
    - assert (0 <= (1 - k_hard o) * qval n g H y) by (apply Rmult_le_pos; lra). lra. }
  destruct E as [(N1 & E)|(N1 & Ex & _)].
  - set (s1 := mkGq (q_x s) (add_diag H lam) U false 0 (q_lam s) (q_conv s)) in E.
    assert (EC' : chol n (add_diag H lam) = (q_u s1, O)) by easy.
    destruct (update_within_cases _ _ _ _ _ _ _ _ _ _ Ln S0 EC' N1 E)
      as (t & z & sm & _ & Z1 & Z2 & _ & On & Dn & Q). cbv zeta in Q. cbn [q_hpl q_lam s1] in Q, Dn. fold lam in Q, Dn.
    destruct Q as (Q1 & Q2 & _). rewrite Q1.
    match type of Q2 with _ = (_ || ?b)%bool => destruct b eqn:Hd end.
    + apply Rleb_true in Hd.
      set (A := fdot n x (fmv n (add_diag H lam) x) + lam) in *.
      assert (PA : 0 < A) by (unfold A in *; lra).
      assert (T : t * t * (sm * sm) <= k_hard o * A).
      { apply (Rmult_le_compat_r A) in Hd; [|lra]. unfold Rdiv in Hd. rewrite Rmult_assoc, Rinv_l in Hd by lra. lra. }
      rewrite (qval_shifted n g H lam x _ S Hx).
      assert (fsq n (fadd x (fscale t z)) = 1) as -> by (rewrite <- fnorm_sqr, On; lra).
      assert (D : fdot n (fsub (fadd x (fscale t z)) x) (fmv n (add_diag H lam) (fsub (fadd x (fscale t z)) x)) =
        t * t * (sm * sm)).
      { rewrite Z2. transitivity (fdot n (fscale t z) (fmv n (add_diag H lam) (fscale t z))).
        { apply fdot_fmv_ext; intros i _; unfold fsub, fadd; lra. }
        rewrite fdot_scale_l, fdot_fmv_scale_r. ring. }
      rewrite D. clear D.
      assert (Y2 : (1 - k_hard o) * (- / 2 * A) <= (1 - k_hard o) * qval n g H y)
        by (apply Rmult_le_compat_l; [lra|exact YV]).
      unfold A in *. lra.
    + rewrite C, orb_false_r in Q2. symmetry in Q2. apply andb_true_iff in Q2 as [_ Q2]. apply Reqb_true in Q2.
      apply Exact. rewrite Q2. lra.
  - rewrite Ex. apply Exact.
    assert (1 <= fsq n x).
    { rewrite <- fnorm_sqr. assert (1 * 1 <= fnorm n x * fnorm n x) by (apply Rmult_le_compat; lra). lra. }
    assert (lam * 1 <= lam * fsq n x) by (apply Rmult_le_compat_l; lra). lra.
Qed.

Lemma new_lambda_nonneg lo hi : 0 <= new_lambda_candidate lo hi.
Proof. unfold new_lambda_candidate. eapply Rle_trans; [apply sqrt_pos|apply Rmax_l]. Qed.

Lemma fresh_candidate tie n g H o s s' : (0 < n)%nat -> fsymm n H -> zero_threshold n H < fnorm n g ->
  q_fact s = false -> q_conv s = false -> 0 <= l_cand (q_lam s) ->
  gq_pass tie n g H o s = Ok s' -> q_fact s' = false -> 0 <= l_cand (q_lam s').
Proof.
  intros Ln S G F C0 L0 E F'. pose proof (zero_threshold_nonneg n H Ln) as Z.
  rewrite pass_fresh in E by easy. cbv zeta in E. set (lam := l_cand (q_lam s)) in *.
  pose proof (add_diag_symm n H lam S) as S0.
  destruct (chol n (add_diag H lam)) as (U, info) eqn:EC. destruct info as [|info].
  - destruct (Rltb _ _) eqn:B; [|apply Rltb_false in B; lra].
    set (s1 := mkGq (q_x s) (add_diag H lam) U false 0 (q_lam s) (q_conv s)) in E.
    assert (EC' : chol n (add_diag H lam) = (q_u s1, O)) by easy.
    destruct (find_new_cases tie n g H o s1 s' (add_diag H lam) Ln S0 EC' ltac:(lra) E)
      as (x & newton & Hx & Px & Xc & NS & D). cbv zeta in D.
    destruct D as [(N1 & D)|(N1 & _ & _ & _ & _ & _ & D & _)].
    + destruct (update_within_cases _ _ _ _ _ _ _ _ _ _ Ln S0 EC' N1 D)
        as (t & z & sm & _ & _ & _ & _ & _ & _ & Q). cbv zeta in Q.
      destruct Q as (_ & _ & _ & _ & _ & _ & [(_ & Q & _)|(_ & _ & _ & ->)]); [congruence|]. apply new_lambda_nonneg.
    + rewrite D. cbn [l_cand]. cbn [q_lam s1] in NS. fold lam in NS. cbn [q_u s1] in NS.
      destruct (newton_ok n (add_diag H lam) U g lam Ln S0 EC ltac:(lra)) as (Px' & Nw).
      cbn [q_u s1] in Xc. rewrite <- Xc in Nw.
      destruct (exists_inverse n (add_diag H lam) U x S0 EC) as (y & Hy). destruct (Nw y Hy) as (Py & En).
      rewrite En in NS. injection NS as <-.
      assert (0 <= fsq n x / fdot n x y * (fnorm n x - 1)); [|lra].
      apply Rmult_le_pos; [|lra]. apply Rlt_le, Rdiv_lt_0_compat; lra.
  - unfold update_unsuccessful in E. destruct (singular_terms _ _ _ _) as (dl, v).
    destruct (div _ _); [|easy]. cbn [bind] in E. injection E as <-. cbn [q_lam l_cand]. apply new_lambda_nonneg.
Qed.

(** C197, the part that holds - a run in which no pass reuses the factor of an earlier one: the solution
    of a successful run reaches at least the share 1 - k_hard of the best decrease in the ball. *)
Theorem C197_near_optimal_partial :
  forall tie n g H x0 o maxiter r, (0 < n)%nat -> fsymm n H ->
    zero_threshold n H < fnorm n g -> 0 <= k_hard o <= 1 ->
    (forall k s, (k < maxiter)%nat -> gq_loop tie k n g H o (gq_init n g H x0) = Ok s -> q_conv s = false -> q_fact s = false) ->
    gqtpar tie n g H x0 o maxiter = Ok r -> g_success r = true ->
    forall y, fnorm n y <= 1 -> qval n g H (g_x r) <= (1 - k_hard o) * qval n g H y.
Proof.
  intros tie n g H x0 o maxiter r Ln S G K NF E Su y Ny.
  unfold gqtpar in E. destruct (Nat.eqb n 0); [easy|].
  destruct (gq_loop _ _ _ _ _ _ _) as [s|] eqn:EL; [|easy]. cbn [bind] in E.
  destruct (Nat.eqb maxiter 0); [easy|]. injection E as <-. cbn [g_success g_x] in *.
  assert (L0 : 0 <= l_cand (q_lam (gq_init n g H x0))).
  { cbn [gq_init q_lam]. unfold initial_lambdas. destruct (gershgorin n H) as (gl, gu). cbv zeta. cbn [l_cand].
    destruct (Reqb _ 0); [lra|apply new_lambda_nonneg]. }
  assert (C0 : q_conv (gq_init n g H x0) = false) by easy.
  revert NF L0 C0 EL. generalize (gq_init n g H x0). induction maxiter as [|maxiter IH]; intros s0 NF L0 C0 EL.
  { cbn in EL. injection EL as ->. congruence. }
  pose proof (NF 0%nat s0 ltac:(lia) eq_refl C0) as F0.
  cbn [gq_loop] in EL. destruct (gq_pass tie n g H o s0) as [s1|] eqn:EP; [|easy]. cbn [bind] in EL.
  destruct (q_conv s1) eqn:C1.
  - injection EL as <-. now apply (C197_fresh_exit tie n g H o s0 s1).
  - destruct maxiter as [|mi].
    { cbn in EL. injection EL as <-. congruence. }
    assert (F1 : q_fact s1 = false).
    { apply (NF 1%nat s1); [lia| |easy]. cbn [gq_loop]. rewrite EP. cbn [bind]. now rewrite C1. }
    apply (IH s1); [|now apply (fresh_candidate tie n g H o s0 s1)|easy|easy].
    intros k q Hk Hq Cq. apply (NF (Datatypes.S k) q); [lia| |easy]. cbn [gq_loop]. rewrite EP. cbn [bind]. now rewrite C1.
Qed.

(** C197 refuted - the run of C111: with k_hard = 1/200 the second and third pass reuse the factor of the
    first, and the solution misses the promised share of the decrease reached by (0, 1). *)
Theorem C197_near_optimal_refuted :
  forall tie x0 maxiter, (3 <= maxiter)%nat ->
    exists r, gqtpar tie 2 g111 H111 x0 o111 maxiter = Ok r /\ g_success r = true /\
      zero_threshold 2 H111 < fnorm 2 g111 /\ 0 <= k_hard o111 <= 1 /\
      fnorm 2 (vec2 0 1) <= 1 /\
      (1 - k_hard o111) * qval 2 g111 H111 (vec2 0 1) < qval 2 g111 H111 (g_x r).
Proof.
  intros tie x0 [|[|[|k]]] Lm; try lia. destruct (run111 tie x0) as (s1 & s2 & s3 & E1 & E2 & E3 & C1 & C2 & C3 & _ & X).
  unfold gqtpar. cbn [Nat.eqb gq_loop]. rewrite E1. cbn [bind]. rewrite C1, E2. cbn [bind].
  rewrite C2, E3. cbn [bind]. rewrite C3. cbn [bind]. eexists. split; [reflexivity|]. cbn [g_x g_success].
  split; [easy|]. split; [|split; [|split]].
  - rewrite (fnorm_2 g111 (7 / 2)); [|lra|unfold g111; rewrite fsq_2; cbn [vec2]; lra].
    assert (zero_threshold 2 H111 <= / 1000000); [|lra]. apply zero_threshold_small.
    unfold H111. rewrite inf_diag2 by lra. apply Rmax_lub; lra.
  - unfold o111. cbn [k_hard]. lra.
  - rewrite (fnorm_2 _ 1); [lra|lra|]. rewrite fsq_2. cbn [vec2]. lra.
  - rewrite (qval_ext 2 g111 H111 _ _ X). unfold qval, g111, H111, o111. cbn [bsum diag2 vec2 k_hard]. lra.
Qed.

(** The convex model with the minimizer (1/2, 0) of C109: one pass. *)
Example C197_instance : forall tie x0,
  exists r, gqtpar tie 2 g109 H109 x0 default_gopts 1 = Ok r /\ g_success r = true /\
    zero_threshold 2 H109 < fnorm 2 g109 /\
    (forall k s, (k < 1)%nat -> gq_loop tie k 2 g109 H109 default_gopts (gq_init 2 g109 H109 x0) = Ok s ->
       q_conv s = false -> q_fact s = false) /\
    forall y, fnorm 2 y <= 1 -> qval 2 g109 H109 (g_x r) <= (1 - k_hard default_gopts) * qval 2 g109 H109 y.
Proof.
  intros tie x0.
  assert (Th : zero_threshold 2 H109 < fnorm 2 g109).
  { rewrite (fnorm_2 g109 (1 / 2)); [|lra|unfold g109; rewrite fsq_2; cbn [vec2]; lra].
    assert (zero_threshold 2 H109 <= / 1000000); [|lra]. apply zero_threshold_small.
    unfold H109. rewrite inf_diag2 by lra. apply Rmax_lub; lra. }
  destruct (C109_interior_minimizer_partial tie 2 g109 H109 x0 default_gopts 1 (vec2 (1 / 2) 0))
    as (r & E & Su & _); try lia.
  - apply diag2_symm.
  - apply diag2_posdef; lra.
  - cbn. lra.
  - exact Th.
  - intros [|[|i]] Hi; [| |lia]; cbn [bsum H109 diag2 vec2 g109]; lra.
  - rewrite (fnorm_2 _ (1 / 2)); [lra|lra|]. rewrite fsq_2. cbn [vec2]. lra.
  - assert (NF : forall k s, (k < 1)%nat -> gq_loop tie k 2 g109 H109 default_gopts (gq_init 2 g109 H109 x0) = Ok s ->
       q_conv s = false -> q_fact s = false).
    { intros [|k] s Hk Q _; [|lia]. cbn in Q. injection Q as <-. reflexivity. }
    exists r. repeat (split; [assumption|]).
    apply (C197_near_optimal_partial tie 2 g109 H109 x0 default_gopts 1 r); try easy; try lia.
    + apply diag2_symm.
    + cbn. lra.
Qed.

(** * C198 - the Cauchy decrease of the conjugate gradient solver *)

Lemma cg_loop_descends n g H radius tol : fsymm n H -> 0 <= radius -> 0 <= tol ->
  forall k j s x, cg_reach n g H radius tol j s -> cg_loop k n H radius tol s = Ok x ->
  qval n g H x <= qval n g H (cg_x s).
Proof.
  intros S Hr Ht. induction k as [|k IH]; intros j s x R E; cbn [cg_loop] in E.
  - injection E as <-. lra.
  - destruct (C58_cg_residual_and_descent n g H radius tol j s S Hr Ht R) as (_ & D1 & D2).
    destruct (cg_step n H radius tol s) as [[z|s']|e] eqn:Es; [| |discriminate]; cbn [bind] in E.
    + injection E as <-. now apply D2.
    + specialize (D1 s' eq_refl). eapply Rle_trans; [eapply IH; [|exact E]; econstructor; eauto|]. lra.
Qed.

(** If the solver does not stop at once, its step is at least as good as every point of the ball on
    the steepest descent half-line. *)
Theorem C198_cauchy_decrease :
  forall n g H radius gtol_abs gtol_rel x,
    fsymm n H -> 0 <= radius -> 0 <= gtol_abs -> Rmax gtol_abs (gtol_rel * fnorm n g) < fnorm n g ->
    minimize_trust_cg n g H radius gtol_abs gtol_rel = Ok x ->
    forall t, 0 <= t -> fnorm n (fscale (- t) g) <= radius -> qval n g H x <= qval n g H (fscale (- t) g).
Proof.
  intros n g H radius ga gr x S Hr Ha Tg E t Ht Nt. unfold minimize_trust_cg in E.
  pose proof (cg_stop_tol_nonneg n g ga gr Ha) as HT. change (Rmax ga (gr * fnorm n g)) with (cg_stop_tol n g ga gr) in Tg.
  set (tol := cg_stop_tol n g ga gr) in *.
  assert (Gp : 0 < fsq n g).
  { rewrite <- fnorm_sqr. apply Rmult_lt_0_compat; lra. }
  destruct n as [|n]. { cbn in Gp. lra. }
  set (N := Datatypes.S n) in *. change (N * 2)%nat with (Datatypes.S (Datatypes.S (n * 2))) in E. cbn [cg_loop] in E.
  pose proof (cg_init_ok N g radius Hr) as O.
  destruct (cg_step_spec N H radius tol (cg_init g) HT O) as (o & Eo & Q).
  rewrite Eo in E. cbn [bind] in E.
  set (G := fsq N g) in *. set (c := fdot N (fopp g) (fmv N H (fopp g))).
  assert (V : forall a, qval N g H (fadd fzero (fscale a (fopp g))) = - a * G + / 2 * (a * a) * c).
  { intros a. rewrite qval_move by easy.
    assert (qval N g H fzero = 0) as -> by (rewrite qval_fdot, !fdot_zero_r, fdot_zero_l; lra).
    assert (fdot N (fadd g (fmv N H fzero)) (fopp g) = - G) as ->.
    { rewrite fdot_opp_r. f_equal. unfold G, fsq. apply fdot_ext; [|easy]. intros i Hi. unfold fadd. rewrite fmv_zero. lra. }
    fold c. ring. }
  assert (Vt : qval N g H (fscale (- t) g) = - t * G + / 2 * (t * t) * c).
  { rewrite <- V. apply qval_ext. intros i _. unfold fadd, fscale, fopp, fzero. lra. }
  rewrite Vt. cbn [cg_init cg_r cg_d cg_x] in Q. rewrite fdot_fvm_fmv in Q. fold c in Q.
  destruct o as [x'|s'].
  - injection E as <-. destruct Q as (_ & [(_ & Q)|(sg & -> & Ps & B & _ & Q)]); [lra|].
    rewrite V. change (fsq N g) with G in Q.
    assert (St : t <= sg).
    { apply Rnot_lt_le. intros L.
      assert (A : fsq N (fadd fzero (fscale sg (fopp g))) = sg * sg * G).
      { unfold fsq, G, fsq. transitivity (fdot N (fscale (- sg) g) (fscale (- sg) g)).
        - apply fdot_ext; intros i _; unfold fadd, fscale, fopp, fzero; lra.
        - rewrite fdot_scale_l, fdot_scale_r. ring. }
      assert (A2 : fsq N (fscale (- t) g) = t * t * G).
      { unfold fsq, G, fsq. rewrite fdot_scale_l, fdot_scale_r. ring. }
      apply fnorm_le_iff in Nt; [|easy]. rewrite A2 in Nt. rewrite A in B.
      assert (sg * sg < t * t) by nra.
      assert (sg * sg * G < t * t * G) by (apply Rmult_lt_compat_r; lra). lra. }
    assert (K : 0 <= (sg - t) * (G - / 2 * (sg + t) * c)); [|lra].
    apply Rmult_le_pos; [lra|]. destruct (Rle_lt_dec c 0) as [C|C].
    + assert (0 <= (sg + t) * - c) by (apply Rmult_le_pos; lra). lra.
    + destruct Q as [Q|Q]; [lra|]. assert (t * c <= sg * c) by (apply Rmult_le_compat_r; lra). lra.
  - destruct Q as (_ & _ & Pc & Ex & _). change (fsq N g) with G in Ex.
    assert (R1 : cg_reach N g H radius tol 1 s') by (econstructor; [constructor|exact Eo]).
    pose proof (cg_loop_descends N g H radius tol S Hr HT (Datatypes.S (n * 2)) _ _ _ R1 E) as D.
    rewrite Ex, V in D.
    assert (F : - (G / c) * G + / 2 * (G / c * (G / c)) * c = - / 2 * (G / c * G)) by (field; lra).
    assert (0 <= / 2 * (c * ((t - G / c) * (t - G / c)))).
    { apply Rmult_le_pos; [lra|]. apply Rmult_le_pos; [lra|]. apply Rle_0_sqr. }
    assert (/ 2 * (c * ((t - G / c) * (t - G / c))) = / 2 * (t * t) * c - t * G + / 2 * (G / c * G)) by (field; lra).
    lra.
Qed.

(** A good point on the steepest descent half-line. *)
Lemma cauchy_point n g H radius beta : 0 <= radius -> 0 < fnorm n g -> 0 < beta ->
  fdot n g (fmv n H g) <= beta * fsq n g ->
  exists t, 0 <= t /\ fnorm n (fscale (- t) g) <= radius /\
    qval n g H (fscale (- t) g) <= - (/ 2 * fnorm n g * Rmin radius (fnorm n g / beta)).
Proof.
  intros Hr Np Hb HC.
  set (m := Rmin radius (fnorm n g / beta)).
  assert (M1 : m <= radius) by apply Rmin_l.
  assert (M2 : m <= fnorm n g / beta) by apply Rmin_r.
  assert (M0 : 0 <= m) by (apply Rmin_glb; [easy|apply Rlt_le, Rdiv_lt_0_compat; lra]).
  set (t := m / fnorm n g).
  assert (T0 : 0 <= t) by (apply Rmult_le_pos; [easy|apply Rlt_le, Rinv_0_lt_compat; lra]).
  assert (T1 : t * fnorm n g = m) by (unfold t; field; lra).
  assert (T2 : t * beta <= 1).
  { apply Rmult_le_reg_r with (fnorm n g); [easy|]. replace (t * beta * fnorm n g) with (m * beta) by (rewrite <- T1; ring).
    apply (Rmult_le_compat_r beta) in M2; [|lra]. unfold Rdiv in M2. rewrite Rmult_assoc, Rinv_l in M2 by lra. lra. }
  exists t. split; [exact T0|]. split.
  { rewrite fnorm_scale, Rabs_Ropp, Rabs_right by lra. lra. }
  rewrite qval_fdot, fdot_scale_r, fdot_scale_l, fdot_fmv_scale_r.
  change (fdot n g g) with (fsq n g).
  assert (0 <= t * t) by (apply Rmult_le_pos; easy).
  assert (A : t * t * fdot n g (fmv n H g) <= t * t * (beta * fsq n g)) by (apply Rmult_le_compat_l; lra).
  assert (P : 0 <= t * fsq n g) by (apply Rmult_le_pos; [easy|apply fsq_nonneg]).
  assert (B : t * beta * (t * fsq n g) <= 1 * (t * fsq n g)) by (apply Rmult_le_compat_r; lra).
  assert (F : fnorm n g * m = t * fsq n g) by (rewrite <- T1, <- fnorm_sqr; ring).
  rewrite Rmult_assoc, F. lra.
Qed.

(** The decrease in numbers: with curvature at most beta along the gradient it is at least
    1/2 |g| min (radius, |g| / beta). *)
Theorem C198_decrease_bound :
  forall n g H radius gtol_abs gtol_rel x beta,
    fsymm n H -> 0 <= radius -> 0 <= gtol_abs -> Rmax gtol_abs (gtol_rel * fnorm n g) < fnorm n g ->
    0 < beta -> bsum n (fun i => bsum n (fun j => g i * H i j * g j)) <= beta * bsum n (fun i => g i * g i) ->
    minimize_trust_cg n g H radius gtol_abs gtol_rel = Ok x ->
    qval n g H x <= - (/ 2 * fnorm n g * Rmin radius (fnorm n g / beta)).
Proof.
  intros n g H radius ga gr x beta S Hr Ha Tg Hb HC E.
  assert (Np : 0 < fnorm n g).
  { pose proof (cg_stop_tol_nonneg n g ga gr Ha) as HT. unfold cg_stop_tol in HT. lra. }
  rewrite <- fdot_fmv in HC.
  destruct (cauchy_point n g H radius beta Hr Np Hb HC) as (t & T0 & T1 & T2).
  eapply Rle_trans; [|exact T2]. now apply (C198_cauchy_decrease n g H radius ga gr x).
Qed.

(** Gradient (3, 0), Hessian diag(2, -1), radius 1, default tolerances: the decrease is at least 3/2. *)
Example C198_instance : exists x,
  minimize_trust_cg 2 (vec2 3 0) (diag2 2 (-1)) 1 (/ 100000000) (/ 1000000) = Ok x /\
  Rmax (/ 100000000) (/ 1000000 * fnorm 2 (vec2 3 0)) < fnorm 2 (vec2 3 0) /\
  bsum 2 (fun i => bsum 2 (fun j => vec2 3 0 i * diag2 2 (-1) i j * vec2 3 0 j)) <=
    2 * bsum 2 (fun i => vec2 3 0 i * vec2 3 0 i) /\
  qval 2 (vec2 3 0) (diag2 2 (-1)) x <= - (3 / 2).
Proof.
  assert (Nn : fnorm 2 (vec2 3 0) = 3) by (apply fnorm_2; [lra|]; rewrite fsq_2; cbn [vec2]; lra).
  destruct (C57_cg_within_radius 2 (vec2 3 0) (diag2 2 (-1)) 1 (/ 100000000) (/ 1000000)) as (x & E & _); [lra|lra|].
  assert (T : Rmax (/ 100000000) (/ 1000000 * fnorm 2 (vec2 3 0)) < fnorm 2 (vec2 3 0)).
  { rewrite Nn. apply Rmax_lub_lt; lra. }
  assert (C : bsum 2 (fun i => bsum 2 (fun j => vec2 3 0 i * diag2 2 (-1) i j * vec2 3 0 j)) <=
    2 * bsum 2 (fun i => vec2 3 0 i * vec2 3 0 i)) by (cbn [bsum diag2 vec2]; lra).
  exists x. split; [easy|]. split; [easy|]. split; [easy|].
  pose proof (C198_decrease_bound 2 (vec2 3 0) (diag2 2 (-1)) 1 (/ 100000000) (/ 1000000) x 2 (diag2_symm _ _) ltac:(lra) ltac:(lra) T ltac:(lra) C E) as D.
  rewrite Nn in D. rewrite Rmin_left in D by lra. lra.
Qed.
