(** Properties C109-C111, C113 (refutation), C114 and the refutation of C56: runs of gqtpar. *)
From Coq Require Import Reals List Arith ZArith Bool Lia Lra Psatz.
From Verif Require Import Base XR Vec FVec VolumeModel RegionModel Prop_Region ModelsModel SubproblemModel Prop_Subproblem
  CgModel TrsboxModel GqtparModel GqtparProofs Prop_Cg Prop_Gqtpar.
Import ListNotations.
Open Scope R_scope.

(** * C109 *)

Definition default_gopts : gopts := mkGopts (1 / 10) (2 / 10).

Lemma update_within_total tie n H o s x newton conv M :
  (0 < n)%nat -> fsymm n M -> chol n M = (q_u s, O) -> fnorm n x < 1 ->
  fdot n x (fmv n (q_hpl s) x) + l_cand (q_lam s) <> 0 ->
  exists s', update_within tie n H o s x newton conv = Ok s'.
Proof.
  intros Ln S E Nx D. pose proof (estimate_ok n M (q_u s) Ln S E) as EO. unfold update_within.
  destruct (estimate_smallest_singular_value n (q_u s)) as (s_min, z). destruct EO as (Z1 & Z2 & Z3).
  destruct (C69_smallest_step tie n x z Nx) as (t & Et & _).
  { apply NNPP_exists. intros A. assert (fsq n z = 0); [|lra].
    apply bsum_all_zero. intros i Hi. rewrite (A i Hi). lra. }
  rewrite Et. cbn [bind]. rewrite fdot_fvm. unfold div.
  destruct (Reqb _ 0) eqn:Q; [apply Reqb_true in Q; lra|]. cbn [bind]. cbv zeta.
  destruct (snd (chol n (add_diag H newton))); eexists; reflexivity.
Qed.

Lemma solve_unique n M x y : posdef n M -> (forall i, (i < n)%nat -> fmv n M x i = fmv n M y i) -> feq n x y.
Proof.
  intros PD E. assert (Z : fsq n (fsub x y) = 0).
  { destruct (Rle_lt_or_eq_dec 0 (fsq n (fsub x y)) (fsq_nonneg _ _)) as [L|?]; [|easy]. exfalso.
    pose proof (posdef_form_pos n M _ PD L) as Q.
    assert (fdot n (fsub x y) (fmv n M (fsub x y)) = 0); [|lra].
    apply bsum_all_zero. intros i Hi. replace (fmv n M (fsub x y) i) with 0; [lra|].
    unfold fmv, fsub in *. rewrite (bsum_ext n _ (fun j => M i j * x j - M i j * y j)) by (intros; ring).
    rewrite bsum_minus, (E i Hi). lra. }
  intros i Hi. pose proof (fsq_zero n _ Z i Hi) as Q. unfold fsub in Q. lra.
Qed.

Lemma qval_ext n g H x y : feq n x y -> qval n g H x = qval n g H y.
Proof.
  intros E. rewrite !qval_fdot. f_equal; [now apply fdot_ext|]. f_equal. now apply fdot_fmv_ext.
Qed.

Lemma interior_start n g H x : (0 < n)%nat -> fsymm n H -> posdef n H ->
  (forall i, (i < n)%nat -> bsum n (fun j => H i j * x j) = - g i) -> fnorm n x < 1 ->
  l_cand (initial_lambdas n g H) = 0.
Proof.
  intros Ln S PD E Nx.
  assert (O : optimal_pair n g H x 0).
  { split; [lra|]. split; [|split; [|split]].
    - intros y. rewrite form_add_diag. pose proof (posdef_semi n H PD y). lra.
    - intros i Hi. rewrite E by easy. lra.
    - lra.
    - lra. }
  pose proof (C113_initial_bracket n g H x 0 Ln S O) as (B & _).
  pose proof (C67_initial_bracket_ordered n g H Ln) as (A & _).
  unfold initial_lambdas in *. destruct (gershgorin n H) as (gl, gu). cbv zeta in *.
  cbn [l_lo l_cand] in *. destruct (Reqb _ 0) eqn:Q; [easy|]. apply Reqb_false in Q. lra.
Qed.

(** C109, the part that holds - for a positive definite Hessian whose unconstrained minimizer x
    lies inside the ball, gqtpar stops after one pass; it returns x or a point of the boundary
    and loses at most the share [k_hard] of the possible decrease. *)
Theorem C109_interior_minimizer_partial :
  forall tie n g H x0 o maxiter x, (0 < n)%nat -> (0 < maxiter)%nat -> fsymm n H -> posdef n H ->
    0 <= k_hard o -> zero_threshold n H < fnorm n g ->
    (forall i, (i < n)%nat -> bsum n (fun j => H i j * x j) = - g i) -> fnorm n x < 1 ->
    exists r, gqtpar tie n g H x0 o maxiter = Ok r /\ g_success r = true /\
      (feq n (g_x r) x \/ fnorm n (g_x r) = 1) /\
      qval n g H (g_x r) <= (1 - k_hard o) * qval n g H x.
Proof.
  intros tie n g H x0 o [|maxiter] x Ln Lm S PD K G E Nx; [lia|].
  pose proof (zero_threshold_nonneg n H Ln) as Z.
  assert (Gp : 0 < fnorm n g) by lra.
  pose proof (interior_start n g H x Ln S PD E Nx) as L0.
  unfold gqtpar. destruct (Nat.eqb_spec n 0); [lia|]. cbn [gq_loop Nat.eqb].
  rewrite pass_fresh by easy. cbv zeta. cbn [q_lam gq_init q_x q_conv]. rewrite L0.
  pose proof (add_diag_symm n H 0 S) as S0.
  assert (PD0 : posdef n (add_diag H 0)).
  { intros y Hy. rewrite form_add_diag. specialize (PD y Hy). lra. }
  pose proof (proj2 (chol_posdef n _ S0) PD0) as Q.
  destruct (chol n (add_diag H 0)) as (U, info) eqn:EC. cbn [snd] in Q. subst info.
  destruct (Rltb _ _) eqn:B; [|apply Rltb_false in B; lra]. clear B.
  set (s1 := mkGq x0 (add_diag H 0) U false 0 (initial_lambdas n g H) false).
  assert (EC1 : chol n (add_diag H 0) = (q_u s1, O)) by easy.
  assert (Ex : feq n (cho_solve n U (fopp g)) x).
  { apply (solve_unique n (add_diag H 0)); [easy|]. intros i Hi.
    rewrite (cho_solve_ok n (add_diag H 0) U (fopp g) S0 EC) by easy.
    rewrite fmv_add_diag by easy. unfold fopp. rewrite <- E by easy. unfold fmv. lra. }
  destruct (newton_ok n (add_diag H 0) U g 0 Ln S0 EC Gp) as (Px & Nw).
  set (xc := cho_solve n U (fopp g)) in *.
  destruct (exists_inverse n (add_diag H 0) U xc S0 EC) as (y & Hy). destruct (Nw y Hy) as (_ & En).
  assert (Nc : fnorm n xc < 1) by (rewrite (fnorm_ext n xc x Ex); easy).
  unfold find_new_candidate. cbv zeta. cbn [q_lam q_u q_conv s1]. fold xc. rewrite L0, En. cbn [bind].
  destruct (Rltb (fnorm n xc) 1) eqn:B1; [|apply Rltb_false in B1; lra].
  destruct (Rleb (fnorm n xc) 1) eqn:B2; [|apply Rleb_false in B2; lra].
  destruct (Reqb 0 0) eqn:B3; [|apply Reqb_false in B3; lra]. cbn [andb orb].
  pose proof (posdef_form_pos n H xc PD Px) as Qf.
  assert (Dn : fdot n xc (fmv n (q_hpl s1) xc) + l_cand (q_lam s1) = fdot n xc (fmv n H xc)).
  { cbn [q_hpl q_lam s1]. rewrite form_add_diag, L0. lra. }
  fold s1. set (newton := 0 + fsq n xc / fdot n xc y * (fnorm n xc - 1)).
  destruct (update_within_total tie n H o s1 xc newton true (add_diag H 0) Ln S0 EC1 Nc) as (s' & Es').
  { rewrite Dn. lra. }
  rewrite Es'. cbn [bind].
  destruct (update_within_cases _ _ _ _ _ _ _ _ _ _ Ln S0 EC1 Nc Es')
    as (t & z & sm & _ & Z1 & Z2 & _ & On & _ & Q). cbv zeta in Q. rewrite Dn in Q.
  destruct Q as (Q1 & Q2 & _). cbn [orb] in Q2. rewrite Q2. cbn [bind].
  eexists. split; [reflexivity|]. cbn [g_x g_success]. split; [easy|].
  rewrite Q1. destruct (Rleb _ (k_hard o)) eqn:B4.
  - split; [now right|]. apply Rleb_true in B4.
    rewrite qval_move by easy.
    assert (Sta : fdot n (fadd g (fmv n H xc)) z = 0).
    { apply bsum_all_zero. intros i Hi. unfold fadd.
      rewrite (fmv_ext n H xc x i Ex). unfold fmv. rewrite E by easy. lra. }
    assert (V : qval n g H x = - / 2 * fdot n xc (fmv n H xc)).
    { rewrite <- (qval_ext n g H xc x Ex), qval_fdot.
      replace (fdot n g xc) with (- fdot n xc (fmv n H xc)); [field|].
      rewrite <- fdot_opp_r. rewrite (fdot_comm n g xc). apply fdot_ext; [easy|]. intros i Hi. unfold fopp.
      rewrite (fmv_ext n H xc x i Ex). unfold fmv. rewrite E by easy. lra. }
    rewrite Sta. rewrite (qval_ext n g H xc x Ex), V.
    rewrite form_add_diag, Rmult_0_l, Rplus_0_r in Z2. rewrite <- Z2.
    apply (Rmult_le_compat_r (fdot n xc (fmv n H xc))) in B4; [|lra].
    replace (t * t * (sm * sm) / fdot n xc (fmv n H xc) * fdot n xc (fmv n H xc)) with (t * t * (sm * sm)) in B4
      by (field; lra). lra.
  - split; [now left|]. rewrite (qval_ext n g H xc x Ex).
    assert (V : qval n g H x <= 0).
    { rewrite <- (qval_ext n g H xc x Ex), qval_fdot.
      replace (fdot n g xc) with (- fdot n xc (fmv n H xc)); [lra|].
      rewrite <- fdot_opp_r. rewrite (fdot_comm n g xc). apply fdot_ext; [easy|]. intros i Hi. unfold fopp.
      rewrite (fmv_ext n H xc x i Ex). unfold fmv. rewrite E by easy. lra. }
    nra.
Qed.

Lemma diag2_posdef a d : 0 < a -> 0 < d -> posdef 2 (diag2 a d).
Proof.
  intros A D y ([|[|i]] & Hi & Ny); [| |lia]; rewrite form_diag2.
  - assert (0 < y 0%nat * y 0%nat) by nra. assert (0 <= y 1%nat * y 1%nat) by nra. nra.
  - assert (0 < y 1%nat * y 1%nat) by nra. assert (0 <= y 0%nat * y 0%nat) by nra. nra.
Qed.

Lemma zero_threshold_small H : inf_norm 2 H <= 1000 -> zero_threshold 2 H <= / 1000000.
Proof.
  intros A. unfold zero_threshold, EPS. cbn [INR].
  assert (/ 4503599627370496 <= / 4000000000000000) by (apply Rinv_le_contravar; lra).
  assert (0 < / 4503599627370496) by (apply Rinv_0_lt_compat; lra). nra.
Qed.

Lemma inf_diag2 a d : 0 <= a -> 0 <= d -> inf_norm 2 (diag2 a d) = Rmax a d.
Proof.
  intros A D. unfold inf_norm, row_sum. cbn [vmax bsum diag2]. rewrite Rabs_R0.
  rewrite !Rabs_right by lra. f_equal; lra.
Qed.

Definition g109 : fvec := vec2 (- (1 / 2)) 0.
Definition H109 : fmat := diag2 1 (1 / 1024).

(** C109 refuted - with the default options the interior minimizer (1/2, 0) of a convex model is
    replaced by a point of the boundary with a larger model value. *)
Theorem C109_interior_minimizer_refuted :
  forall tie x0 maxiter, (0 < maxiter)%nat ->
    exists r, gqtpar tie 2 g109 H109 x0 default_gopts maxiter = Ok r /\ g_success r = true /\
      fnorm 2 (g_x r) = 1 /\ fnorm 2 (vec2 (1 / 2) 0) < 1 /\
      qval 2 g109 H109 (vec2 (1 / 2) 0) < qval 2 g109 H109 (g_x r).
Proof.
  intros tie x0 [|maxiter] Lm; [lia|].
  assert (S : fsymm 2 H109) by apply diag2_symm.
  assert (PD : posdef 2 H109) by (apply diag2_posdef; lra).
  set (x := vec2 (1 / 2) 0).
  assert (Nx2 : fnorm 2 x = 1 / 2) by (apply fnorm_2; [lra|]; rewrite fsq_2; cbn [x vec2]; lra).
  assert (Nx : fnorm 2 x < 1) by lra.
  assert (E : forall i, (i < 2)%nat -> bsum 2 (fun j => H109 i j * x j) = - g109 i).
  { intros [|[|i]] Hi; [| |lia]; unfold x, g109, H109; cbn [bsum diag2 vec2]; lra. }
  assert (Gn : fnorm 2 g109 = 1 / 2) by (apply fnorm_2; [lra|]; rewrite fsq_2; cbn [g109 vec2]; lra).
  assert (Zt : zero_threshold 2 H109 <= / 1000000).
  { apply zero_threshold_small. unfold H109. rewrite inf_diag2 by lra. rmm. lra. }
  pose proof (interior_start 2 g109 H109 x ltac:(lia) S PD E Nx) as L0.
  unfold gqtpar. cbn [Nat.eqb gq_loop].
  rewrite pass_fresh by easy. cbv zeta. cbn [q_lam gq_init q_x q_conv]. rewrite L0.
  assert (S0 : fsymm 2 (add_diag H109 0)) by now apply add_diag_symm.
  destruct (chol2 (add_diag H109 0)) as (U & EC & U00 & U01 & U11);
    [unfold add_diag, H109; cbn [diag2 Nat.eqb]; lra..|].
  assert (V00 : U 0%nat 0%nat = 1).
  { rewrite U00. transitivity (sqrt 1); [f_equal; unfold add_diag, H109; cbn [diag2 Nat.eqb]; lra|apply sqrt_1]. }
  assert (V01 : U 0%nat 1%nat = 0).
  { rewrite U01. unfold add_diag, H109. cbn [diag2 Nat.eqb]. unfold Rdiv. ring. }
  assert (V11 : U 1%nat 1%nat = 1 / 32).
  { rewrite U11. transitivity (sqrt (1 / 32 * (1 / 32))); [|apply sqrt_square; lra].
    f_equal. unfold add_diag, H109. cbn [diag2 Nat.eqb]. field. }
  rewrite EC. destruct (Rltb _ _) eqn:B; [|apply Rltb_false in B; lra]. clear B.
  set (s1 := mkGq x0 (add_diag H109 0) U false 0 (initial_lambdas 2 g109 H109) false).
  assert (EC1 : chol 2 (add_diag H109 0) = (q_u s1, O)) by easy.
  assert (PD0 : posdef 2 (add_diag H109 0)) by (apply (factor_posdef _ _ U); now apply chol_ok).
  assert (Ex : feq 2 (cho_solve 2 U (fopp g109)) x).
  { apply (solve_unique 2 (add_diag H109 0)); [easy|]. intros i Hi.
    rewrite (cho_solve_ok 2 (add_diag H109 0) U (fopp g109) S0 EC) by easy.
    rewrite fmv_add_diag by easy. unfold fopp. rewrite <- E by easy. unfold fmv. lra. }
  destruct (newton_ok 2 (add_diag H109 0) U g109 0 ltac:(lia) S0 EC ltac:(lra)) as (Px & Nw).
  set (xc := cho_solve 2 U (fopp g109)) in *.
  destruct (exists_inverse 2 (add_diag H109 0) U xc S0 EC) as (y & Hy). destruct (Nw y Hy) as (_ & En).
  assert (Nc : fnorm 2 xc = 1 / 2) by (rewrite (fnorm_ext 2 xc x Ex); easy).
  unfold find_new_candidate. cbv zeta. cbn [q_lam q_u q_conv s1]. fold xc. rewrite L0, En. cbn [bind].
  destruct (Rltb (fnorm 2 xc) 1) eqn:B1; [|apply Rltb_false in B1; lra].
  destruct (Rleb (fnorm 2 xc) 1) eqn:B2; [|apply Rleb_false in B2; lra].
  destruct (Reqb 0 0) eqn:B3; [|apply Reqb_false in B3; lra]. cbn [andb orb].
  assert (Qf : fdot 2 xc (fmv 2 H109 xc) = 1 / 4).
  { rewrite (fdot_fmv_ext 2 xc x H109 xc x Ex Ex). unfold H109. rewrite form_diag2. cbn [x vec2]. lra. }
  assert (Dn : fdot 2 xc (fmv 2 (q_hpl s1) xc) + l_cand (q_lam s1) = 1 / 4).
  { cbn [q_hpl q_lam s1]. rewrite form_add_diag, L0. lra. }
  fold s1. set (newton := 0 + fsq 2 xc / fdot 2 xc y * (fnorm 2 xc - 1)).
  assert (Nc1 : fnorm 2 xc < 1) by lra.
  destruct (update_within_total tie 2 H109 default_gopts s1 xc newton true (add_diag H109 0)
    ltac:(lia) S0 EC1 Nc1) as (s' & Es').
  { rewrite Dn. lra. }
  rewrite Es'. cbn [bind].
  destruct (update_within_cases _ _ _ _ _ _ _ _ _ _ (ltac:(lia) : (0 < 2)%nat) S0 EC1 Nc1 Es')
    as (t & z & sm & ES & Z1 & Z2 & St & On & _ & Q). cbv zeta in Q. rewrite Dn in Q.
  destruct Q as (Q1 & Q2 & _). cbn [orb] in Q2. rewrite Q2. cbn [bind].
  eexists. split; [reflexivity|]. cbn [g_x g_success]. split; [easy|].
  (* the step length *)
  assert (On2 : 1 / 4 + 2 * t * fdot 2 xc z + t * t = 1).
  { assert (Q : fsq 2 (fadd xc (fscale t z)) = 1) by (rewrite <- fnorm_sqr, On; lra).
    unfold fsq in Q. rewrite fdot_add_l, !fdot_add_r, !fdot_scale_l, !fdot_scale_r in Q.
    fold (fsq 2 xc) (fsq 2 z) in Q. rewrite Z1, <- fnorm_sqr, Nc, (fdot_comm 2 z xc) in Q. lra. }
  assert (Tn : t <> 0) by (intros ->; lra).
  assert (Tt : t * t <= 3 / 4).
  { destruct (C69_smallest_step tie 2 xc z Nc1) as (t1 & St1 & _ & Mn).
    { apply NNPP_exists. intros A. assert (fsq 2 z = 0); [|lra].
      apply bsum_all_zero. intros i Hi. rewrite (A i Hi). lra. }
    rewrite St in St1. injection St1 as <-.
    set (t' := - (3 / 4) / t).
    assert (On' : fnorm 2 (fadd xc (fscale t' z)) = 1).
    { apply fnorm_2; [lra|]. unfold fsq. rewrite fdot_add_l, !fdot_add_r, !fdot_scale_l, !fdot_scale_r.
      fold (fsq 2 xc) (fsq 2 z). rewrite Z1, <- fnorm_sqr, Nc, (fdot_comm 2 z xc).
      assert (Fz : fdot 2 xc z = (3 / 4 - t * t) / (2 * t)) by (apply (Rmult_eq_reg_r (2 * t)); [field_simplify; lra|lra]).
      rewrite Fz. unfold t'. field. easy. }
    specialize (Mn t' On').
    assert (Tp : t' * t = - (3 / 4)) by (unfold t'; field; easy).
    assert (Ab : Rabs t' * Rabs t = 3 / 4) by (rewrite <- Rabs_mult, Tp; unfold Rabs; destruct (Rcase_abs _); lra).
    assert (Rabs t * Rabs t = t * t) by (rewrite <- Rabs_mult; apply Rabs_right; nra).
    pose proof (Rabs_pos t). nra. }
  assert (Sm : sm * sm = 1025 / 1048577).
  { cbn [q_u s1] in ES. pose proof (estimate2 U 1 0 (1 / 32) 32 V00 V01 V11 ltac:(lra) ltac:(lra)) as EE.
    rewrite ES in EE. cbn [fst] in EE. rewrite EE.
    - field.
    - replace ((-1 - 0 / 1) / (1 / 32)) with (- (32)) by field. replace ((1 - 0 / 1) / (1 / 32)) with 32 by field.
      rewrite Rabs_Ropp. destruct (Rleb (Rabs 32) (Rabs 32)) eqn:B; [easy|]. apply Rleb_false in B. lra. }
  destruct (Rleb (t * t * (sm * sm) / (1 / 4)) (k_hard default_gopts)) eqn:B4.
  2:{ apply Rleb_false in B4. exfalso. rewrite Sm in B4. cbn [k_hard default_gopts] in B4.
      unfold Rdiv in B4. nra. }
  rewrite Q1. split; [easy|]. split; [easy|].
  rewrite qval_move by easy. rewrite <- (qval_ext 2 g109 H109 xc x Ex).
  assert (Sta : fdot 2 (fadd g109 (fmv 2 H109 xc)) z = 0).
  { apply bsum_all_zero. intros i Hi. unfold fadd.
    rewrite (fmv_ext 2 H109 xc x i Ex). unfold fmv. rewrite E by easy. lra. }
  rewrite Sta. rewrite form_add_diag, Rmult_0_l, Rplus_0_r in Z2. rewrite <- Z2, Sm.
  assert (0 < t * t) by nra. lra.
Qed.

(** The hypotheses hold for the ball-shaped model with minimizer (1/2, 0). *)
Example ex_C109 : exists r, gqtpar (fun _ _ => true) 2 (vec2 (-1) 0) (diag2 2 2) fzero default_gopts 3 = Ok r /\
  g_success r = true /\ (feq 2 (g_x r) (vec2 (1 / 2) 0) \/ fnorm 2 (g_x r) = 1).
Proof.
  destruct (C109_interior_minimizer_partial (fun _ _ => true) 2 (vec2 (-1) 0) (diag2 2 2) fzero
    default_gopts 3 (vec2 (1 / 2) 0)) as (r & E & Su & D & _); [lia|lia|..].
  - apply diag2_symm.
  - apply diag2_posdef; lra.
  - cbn [k_hard default_gopts]. lra.
  - assert (zero_threshold 2 (diag2 2 2) <= / 1000000).
    { apply zero_threshold_small. rewrite inf_diag2 by lra. rmm; lra. }
    rewrite (fnorm_2 _ 1); [lra|lra|]. rewrite fsq_2. cbn [vec2]. lra.
  - intros [|[|i]] Hi; [| |lia]; cbn [bsum diag2 vec2]; lra.
  - rewrite (fnorm_2 _ (1 / 2)); [lra|lra|]. rewrite fsq_2. cbn [vec2]. lra.
  - exists r. now splits.
Qed.

(** * C110 *)

Lemma fnorm_zero_ext n g : (forall i, (i < n)%nat -> g i = 0) -> fnorm n g = 0.
Proof. intros E. rewrite <- (fnorm_zero n). now apply fnorm_ext. Qed.

(** A pass with zero gradient. *)
Lemma pass_zero tie n g H o s s' : (0 < n)%nat -> fsymm n H -> (forall i, (i < n)%nat -> g i = 0) ->
  q_fact s = false -> gq_pass tie n g H o s = Ok s' ->
  q_fact s' = false /\
  ((q_conv s' = q_conv s /\ q_x s' = q_x s) \/
   exists sm z, posdef n (add_diag H (l_cand (q_lam s))) /\ fsq n z = 1 /\
     sm * sm = fdot n z (fmv n (add_diag H (l_cand (q_lam s))) z) /\
     ((4 * (sm * sm) <= k_hard o * l_cand (q_lam s) /\ q_x s' = fscale 2 z) \/
      (k_hard o * l_cand (q_lam s) < 4 * (sm * sm) /\ l_cand (q_lam s) = 0 /\ q_x s' = fzero))).
Proof.
  intros Ln Sy G Fa. rewrite pass_fresh by easy. cbv zeta.
  destruct (chol n (add_diag H (l_cand (q_lam s)))) as (U, [|k]) eqn:EC.
  - destruct (Rltb _ _) eqn:B.
    { apply Rltb_true in B. rewrite fnorm_zero_ext in B by easy.
      pose proof (zero_threshold_nonneg n H Ln). lra. }
    intros E. injection E as <-.
    pose proof (add_diag_symm n H (l_cand (q_lam s)) Sy) as Sy'.
    pose proof (estimate_ok n _ U Ln Sy' EC) as EO.
    unfold check_interior. cbn [q_lam q_x q_u q_fact q_conv q_hpl q_info].
    destruct (estimate_smallest_singular_value n U) as (sm, z). destruct EO as (Z1 & Z2 & _).
    cbn [q_fact q_conv q_x]. split; [easy|].
    destruct (Rleb (4 * (sm * sm)) (k_hard o * l_cand (q_lam s))) eqn:B1;
    [apply Rleb_true in B1|apply Rleb_false in B1; destruct (Reqb (l_cand (q_lam s)) 0) eqn:B2].
    + right. exists sm, z. splits; try easy; [now apply (chol_posdef n _ Sy'); rewrite EC|]. now left.
    + apply Reqb_true in B2. right. exists sm, z. splits; try easy; [now apply (chol_posdef n _ Sy'); rewrite EC|].
      now right.
    + left. split; [|easy]. now rewrite !orb_false_r.
  - intros E. pose proof (unsuccessful_conv _ _ _ E) as (A & B). cbn [q_conv q_x] in *.
    split; [|now left]. unfold update_unsuccessful in E. cbn [q_lam q_hpl q_u q_info q_x q_fact q_conv] in E.
    destruct (singular_terms _ _ _ _) as (dl, v). destruct (div _ _); [|easy]. cbn [bind] in E.
    now injection E as <-.
Qed.

(** What holds for the final pass of a converging run with zero gradient. *)
Lemma loop_zero tie n g H o k s s' : (0 < n)%nat -> fsymm n H -> (forall i, (i < n)%nat -> g i = 0) ->
  q_fact s = false -> q_conv s = false -> gq_loop tie k n g H o s = Ok s' -> q_conv s' = true ->
  exists c sm z, posdef n (add_diag H c) /\ fsq n z = 1 /\ sm * sm = fdot n z (fmv n (add_diag H c) z) /\
     ((4 * (sm * sm) <= k_hard o * c /\ q_x s' = fscale 2 z) \/
      (k_hard o * c < 4 * (sm * sm) /\ c = 0 /\ q_x s' = fzero)).
Proof.
  intros Ln Sy G. revert s. induction k; intros s Fa Co E Cv.
  - cbn in E. injection E as <-. congruence.
  - cbn [gq_loop] in E. destruct (gq_pass tie n g H o s) as [s1|] eqn:EP; [|easy]. cbn [bind] in E.
    destruct (pass_zero tie n g H o s s1 Ln Sy G Fa EP) as (F1 & [(A & B)|A]).
    + rewrite A, Co in E. apply (IHk s1); congruence.
    + destruct A as (sm & z & A). destruct (q_conv s1) eqn:C1.
      * injection E as <-. now exists (l_cand (q_lam s)), sm, z.
      * now apply (IHk s1).
Qed.

(** C110, the part that holds - if gqtpar reports success for a zero gradient and a Hessian with a
    direction of negative curvature, the returned point has a smaller model value than the center.
    It lies on the sphere of radius 2, though. *)
Theorem C110_negative_curvature_partial :
  forall tie n g H x0 o maxiter r y, (0 < n)%nat -> fsymm n H -> (forall i, (i < n)%nat -> g i = 0) ->
    qval n g H y < qval n g H fzero -> k_hard o < 4 ->
    gqtpar tie n g H x0 o maxiter = Ok r -> g_success r = true ->
    qval n g H (g_x r) < qval n g H fzero /\ fnorm n (g_x r) = 2.
Proof.
  intros tie n g H x0 o maxiter r y Ln Sy G Y K E Su.
  unfold gqtpar in E. destruct (Nat.eqb n 0); [easy|].
  destruct (gq_loop _ _ _ _ _ _ _) as [s|] eqn:EL; [|easy]. cbn [bind] in E.
  destruct (Nat.eqb maxiter 0); [easy|]. injection E as <-. cbn [g_success g_x] in *.
  assert (Gz : forall w, fdot n g w = 0) by (intros w; apply bsum_all_zero; intros i Hi; rewrite G by easy; lra).
  rewrite !qval_fdot in *. rewrite !Gz in *. rewrite fdot_zero_l in *.
  destruct (loop_zero tie n g H o maxiter (gq_init n g H x0) s Ln Sy G eq_refl eq_refl EL Su) as (c & sm & z & P & Z1 & Z2 & D).
  assert (C : 0 < c).
  { assert (0 < fsq n y).
    { destruct (Rle_lt_or_eq_dec 0 (fsq n y) (fsq_nonneg _ _)) as [|Q]; [easy|]. exfalso.
      assert (fdot n y (fmv n H y) = 0); [|lra]. apply bsum_all_zero. intros i Hi.
      rewrite (fsq_zero n y (eq_sym Q) i Hi). lra. }
    pose proof (posdef_form_pos n _ y P H0) as Q. rewrite form_add_diag in Q. fold (fsq n y) in Q. nra. }
  destruct D as [(D & ->)|(D & C0 & _)]; [|lra].
  rewrite form_add_diag in Z2. fold (fsq n z) in Z2. rewrite Z1 in Z2.
  split.
  - rewrite fdot_scale_l, fdot_fmv_scale_r.
    assert (k_hard o * c < 4 * c) by nra. lra.
  - rewrite fnorm_scale. unfold fnorm. rewrite Z1, sqrt_1, Rabs_right; lra.
Qed.

Lemma sqrt3_bound a : 3 <= a -> 3 / 2 <= sqrt a.
Proof. intros A. apply Rle_trans with (sqrt (3 / 2 * (3 / 2))); [rewrite sqrt_square; lra|]. apply sqrt_le_1_alt. lra. Qed.

Lemma form_H110 y : - (127 / 100) * fsq 2 y <= fdot 2 y (fmv 2 H110 y).
Proof.
  rewrite fsq_2. unfold fdot, fmv, H110. cbn [bsum].
  set (a := y 0%nat). set (b := y 1%nat).
  assert (0 <= (125 / 100 * a * 2 + 54 / 100 * b) * (125 / 100 * a * 2 + 54 / 100 * b)) by apply Rle_0_sqr.
  assert (0 <= a * a) by apply Rle_0_sqr. assert (0 <= b * b) by apply Rle_0_sqr. nra.
Qed.
Lemma H110_symm : fsymm 2 H110.
Proof. intros [|[|i]] [|[|j]] Hi Hj; try lia; unfold H110; lra. Qed.
Lemma H110_posdef c : 3 / 2 <= c -> posdef 2 (add_diag H110 c).
Proof.
  intros C y (i & Hi & Ny). rewrite form_add_diag. pose proof (form_H110 y) as F.
  fold (fsq 2 y). pose proof (fsq_pos 2 y i Hi Ny). nra.
Qed.

(** The states of the run on [H110]: the smallest eigenvalue is about -1.267, but the lower bound of
    the bracket is at least 2 after the first pass. *)
Definition inv110 (x0 : fvec) (s : gq) : Prop :=
  q_fact s = false /\ q_conv s = false /\ q_x s = x0 /\
  2 <= l_lo (q_lam s) /\ 3 / 2 <= l_cand (q_lam s).

Lemma pass110 tie x0 s : q_fact s = false -> q_conv s = false -> q_x s = x0 ->
  3 / 2 <= l_cand (q_lam s) ->
  (2 <= l_lo (q_lam s) \/ (l_cand (q_lam s) = 3 / 2 /\ l_hi (q_lam s) = 9 / 4)) ->
  exists s', gq_pass tie 2 fzero H110 default_gopts s = Ok s' /\ inv110 x0 s'.
Proof.
  intros Fa Co Ex C L. rewrite pass_fresh by easy. cbv zeta.
  pose proof (add_diag_symm 2 H110 (l_cand (q_lam s)) H110_symm) as Sy.
  pose proof (proj2 (chol_posdef 2 _ Sy) (H110_posdef _ C)) as Q.
  destruct (chol 2 (add_diag H110 (l_cand (q_lam s)))) as (U, info) eqn:EC. cbn [snd] in Q. subst info.
  pose proof (zero_threshold_nonneg 2 H110 ltac:(lia)). rewrite fnorm_zero.
  destruct (Rltb _ 0) eqn:B; [apply Rltb_true in B; lra|]. eexists. split; [reflexivity|].
  pose proof (estimate_ok 2 _ U ltac:(lia) Sy EC) as EO.
  assert (Sm : l_cand (q_lam s) = 3 / 2 ->
    fst (estimate_smallest_singular_value 2 U) * fst (estimate_smallest_singular_value 2 U) <= 1 / 4).
  { intros C2. rewrite C2 in *. destruct (chol2 (add_diag H110 (3 / 2))) as (U' & EC' & U00 & U01 & U11);
      [unfold add_diag, H110; cbn [Nat.eqb]; lra..|].
    rewrite EC in EC'. injection EC' as <-.
    assert (V00 : U 0%nat 0%nat = 5 / 2).
    { rewrite U00. transitivity (sqrt (5 / 2 * (5 / 2))); [f_equal; unfold add_diag, H110; cbn [Nat.eqb]; lra|].
      apply sqrt_square. lra. }
    assert (V01 : U 0%nat 1%nat = 1 / 2).
    { rewrite U01, <- U00, V00. unfold add_diag, H110. cbn [Nat.eqb]. lra. }
    assert (V11 : U 1%nat 1%nat = 1 / 2).
    { rewrite U11. transitivity (sqrt (1 / 2 * (1 / 2))); [f_equal; unfold add_diag, H110; cbn [Nat.eqb]; field|].
      apply sqrt_square. lra. }
    rewrite (estimate2 U (5 / 2) (1 / 2) (1 / 2) (- (12 / 5)) V00 V01 V11 ltac:(lra) ltac:(lra)).
    { replace ((/ (5 / 2) * / (5 / 2) + - (12 / 5) * - (12 / 5)) /
        ((/ (5 / 2) - 1 / 2 * (- (12 / 5) / (1 / 2))) / (5 / 2) * ((/ (5 / 2) - 1 / 2 * (- (12 / 5) / (1 / 2))) / (5 / 2)) +
         - (12 / 5) / (1 / 2) * (- (12 / 5) / (1 / 2)))) with (925 / 3796) by field. lra. }
    replace ((-1 - 1 / 2 / (5 / 2)) / (1 / 2)) with (- (12 / 5)) by field.
    replace ((1 - 1 / 2 / (5 / 2)) / (1 / 2)) with (8 / 5) by field.
    rewrite Rabs_Ropp. destruct (Rleb (Rabs (12 / 5)) (Rabs (8 / 5))) eqn:B1; [|easy].
    apply Rleb_true in B1. rewrite !Rabs_right in B1 by lra. lra. }
  unfold check_interior. cbn [q_lam q_x q_u q_fact q_conv q_hpl q_info].
  destruct (estimate_smallest_singular_value 2 U) as (sm, z). destruct EO as (Z1 & Z2 & _).
  cbn [fst] in Sm. rewrite form_add_diag in Z2. fold (fsq 2 z) in Z2. rewrite Z1 in Z2.
  pose proof (form_H110 z) as F. rewrite Z1 in F.
  destruct (Reqb (l_cand (q_lam s)) 0) eqn:B1; [apply Reqb_true in B1; lra|].
  destruct (Rleb (4 * (sm * sm)) (k_hard default_gopts * l_cand (q_lam s))) eqn:B2.
  { apply Rleb_true in B2. cbn [k_hard default_gopts] in B2. lra. }
  unfold inv110. cbn [q_fact q_conv q_x q_lam l_lo l_cand l_hi]. rewrite Co, Ex.
  assert (Lo : 2 <= Rmax (l_lo (q_lam s)) (l_hi (q_lam s) - sm * sm)).
  { destruct L as [L|(L1 & L2)].
    - pose proof (Rmax_l (l_lo (q_lam s)) (l_hi (q_lam s) - sm * sm)). lra.
    - pose proof (Rmax_r (l_lo (q_lam s)) (l_hi (q_lam s) - sm * sm)). specialize (Sm L1). lra. }
  splits; try easy. unfold new_lambda_candidate. eapply Rle_trans; [|apply Rmax_l].
  apply sqrt3_bound. eapply Rle_trans; [|apply Rmax_r]. nra.
Qed.

Lemma loop110 tie x0 k s : inv110 x0 s ->
  exists s', gq_loop tie k 2 fzero H110 default_gopts s = Ok s' /\ q_conv s' = false /\ q_x s' = x0.
Proof.
  revert s. induction k; intros s (A & B & C & D & E).
  - now exists s.
  - cbn [gq_loop]. destruct (pass110 tie x0 s A B C E (or_introl D)) as (s1 & -> & I). cbn [bind].
    pose proof I as (_ & -> & _). now apply IHk.
Qed.

(** C110 refuted - zero gradient and Hessian ((19/4, 5/4), (5/4, -1)), default options: gqtpar never
    converges, for any iteration limit, and returns its start vector, although (0, 1) has a
    smaller model value than the center. *)
Theorem C110_negative_curvature_refuted :
  forall tie x0 maxiter, (0 < maxiter)%nat ->
    exists r, gqtpar tie 2 fzero H110 x0 default_gopts maxiter = Ok r /\
      g_success r = false /\ g_x r = x0 /\
      qval 2 fzero H110 (vec2 0 1) < qval 2 fzero H110 fzero /\ fnorm 2 (vec2 0 1) = 1.
Proof.
  intros tie x0 [|k] Lm; [lia|]. unfold gqtpar. cbn [Nat.eqb gq_loop].
  pose proof (H110_lambdas fzero eq_refl eq_refl) as IL.
  destruct (pass110 tie x0 (gq_init 2 fzero H110 x0)) as (s1 & -> & I); try reflexivity.
  - cbn [gq_init q_lam]. rewrite IL. cbn. lra.
  - right. cbn [gq_init q_lam]. rewrite IL. now cbn.
  - cbn [bind]. pose proof I as (_ & -> & _). destruct (loop110 tie x0 k s1 I) as (s' & -> & C & X).
    cbn [bind]. eexists. split; [reflexivity|]. cbn [g_success g_x]. splits; try easy.
    + unfold qval, H110, vec2, fzero. cbn [bsum]. lra.
    + apply fnorm_2; [lra|]. rewrite fsq_2. cbn [vec2]. lra.
Qed.

(** A run to which the partial theorem applies. *)
Definition H110b : fmat := fun i j =>
  match i, j with
  | O, O => 331 / 196
  | S _, S _ => -1
  | _, _ => 5 / 4
  end.
Lemma H110b_lambdas : initial_lambdas 2 fzero H110b = mkL (3 / 2) 1 (9 / 4).
Proof.
  unfold initial_lambdas. rewrite fnorm_zero.
  assert (Eg : gershgorin 2 H110b = (- (9 / 4), 144 / 49)).
  { unfold gershgorin, row_sum. cbn [vmin vmax bsum H110b]. f_equal.
    - rewrite (Rabs_right (331 / 196)), (Rabs_right (5 / 4)), (Rabs_left (-1)) by lra. rmm; lra.
    - rewrite (Rabs_right (331 / 196)), (Rabs_right (5 / 4)), (Rabs_left (-1)) by lra. rmm; lra. }
  assert (Ei : inf_norm 2 H110b = 144 / 49).
  { unfold inf_norm, row_sum. cbn [vmax bsum H110b].
    rewrite (Rabs_right (331 / 196)), (Rabs_right (5 / 4)), (Rabs_left (-1)) by lra. rmm; lra. }
  assert (Ef : 9 / 4 <= fro_norm 2 H110b).
  { unfold fro_norm. cbn [bsum H110b]. apply Rle_trans with (sqrt (9 / 4 * (9 / 4))); [rewrite sqrt_square; lra|].
    apply sqrt_le_1_alt. lra. }
  assert (Ef2 : fro_norm 2 H110b <= 144 / 49).
  { unfold fro_norm. cbn [bsum H110b]. apply Rle_trans with (sqrt (144 / 49 * (144 / 49))); [|rewrite sqrt_square; lra].
    apply sqrt_le_1_alt. lra. }
  rewrite Eg, Ei. cbv zeta.
  assert (Lo : Rmax (Rmax 0 (- vmin 2 (fun i => H110b i i))) (0 - Rmin (Rmin (144 / 49) (fro_norm 2 H110b)) (144 / 49)) = 1).
  { cbn [vmin H110b]. rmm; lra. }
  assert (Hi : Rmax 0 (0 + Rmin (Rmin (- - (9 / 4)) (fro_norm 2 H110b)) (144 / 49)) = 9 / 4) by (rmm; lra).
  rewrite Lo, Hi. destruct (Reqb 1 0) eqn:B; [apply Reqb_true in B; lra|].
  f_equal. unfold new_lambda_candidate. rewrite (Rmax_right 0 (1 * (9 / 4))) by lra.
  replace (sqrt (1 * (9 / 4))) with (3 / 2); [rmm; lra|].
  symmetry. transitivity (sqrt (3 / 2 * (3 / 2))); [f_equal; lra|apply sqrt_square; lra].
Qed.
Example ex_C110 : exists r, gqtpar (fun _ _ => true) 2 fzero H110b fzero default_gopts 1 = Ok r /\
  g_success r = true /\ qval 2 fzero H110b (vec2 0 1) < qval 2 fzero H110b fzero /\
  fnorm 2 (g_x r) = 2.
Proof.
  assert (Sy : fsymm 2 H110b) by (intros [|[|i]] [|[|j]] Hi Hj; try lia; unfold H110b; lra).
  assert (Y : qval 2 fzero H110b (vec2 0 1) < qval 2 fzero H110b fzero)
    by (unfold qval, H110b, vec2, fzero; cbn [bsum]; lra).
  destruct (gqtpar (fun _ _ => true) 2 fzero H110b fzero default_gopts 1) as [r|e] eqn:E.
  - assert (Su : g_success r = true).
    2:{ exists r. splits; try easy.
        now apply (C110_negative_curvature_partial (fun _ _ => true) 2 fzero H110b fzero default_gopts 1 r (vec2 0 1));
          try easy; [lia|cbn; lra]. }
    revert E. unfold gqtpar. cbn [Nat.eqb gq_loop]. rewrite pass_fresh by easy. cbv zeta.
    cbn [gq_init q_lam q_x q_conv]. rewrite H110b_lambdas. cbn [l_cand].
    destruct (chol2 (add_diag H110b (3 / 2))) as (U & EC & U00 & U01 & U11);
      [unfold add_diag, H110b; cbn [Nat.eqb]; lra..|].
    assert (V00 : U 0%nat 0%nat = 25 / 14).
    { rewrite U00. transitivity (sqrt (25 / 14 * (25 / 14))); [f_equal; unfold add_diag, H110b; cbn [Nat.eqb]; lra|].
      apply sqrt_square. lra. }
    assert (V01 : U 0%nat 1%nat = 7 / 10).
    { rewrite U01, <- U00, V00. unfold add_diag, H110b. cbn [Nat.eqb]. lra. }
    assert (V11 : U 1%nat 1%nat = 1 / 10).
    { rewrite U11. transitivity (sqrt (1 / 10 * (1 / 10))); [f_equal; unfold add_diag, H110b; cbn [Nat.eqb]; field|].
      apply sqrt_square. lra. }
    rewrite EC. pose proof (zero_threshold_nonneg 2 H110b ltac:(lia)). rewrite fnorm_zero.
    destruct (Rltb _ 0) eqn:B; [apply Rltb_true in B; lra|]. cbn [bind].
    pose proof (estimate2 U (25 / 14) (7 / 10) (1 / 10) (- (348 / 25)) V00 V01 V11 ltac:(lra) ltac:(lra)) as EE.
    unfold check_interior. cbn [q_lam q_x q_u q_fact q_conv q_hpl q_info l_cand].
    destruct (estimate_smallest_singular_value 2 U) as (sm, z). cbn [fst] in EE.
    destruct (Rleb (4 * (sm * sm)) (k_hard default_gopts * (3 / 2))) eqn:B2.
    2:{ apply Rleb_false in B2. exfalso. cbv zeta in EE. rewrite EE in B2.
        { cbn [k_hard default_gopts] in B2.
          replace ((/ (25 / 14) * / (25 / 14) + - (348 / 25) * - (348 / 25)) /
            ((/ (25 / 14) - 7 / 10 * (- (348 / 25) / (1 / 10))) / (25 / 14) *
             ((/ (25 / 14) - 7 / 10 * (- (348 / 25) / (1 / 10))) / (25 / 14)) +
             - (348 / 25) / (1 / 10) * (- (348 / 25) / (1 / 10)))) with (121300 / 13992784) in B2 by field. lra. }
        replace ((-1 - 7 / 10 / (25 / 14)) / (1 / 10)) with (- (348 / 25)) by field.
        replace ((1 - 7 / 10 / (25 / 14)) / (1 / 10)) with (152 / 25) by field.
        rewrite Rabs_Ropp. destruct (Rleb (Rabs (348 / 25)) (Rabs (152 / 25))) eqn:B1; [|easy].
        apply Rleb_true in B1. rewrite !Rabs_right in B1 by lra. lra. }
    rewrite orb_true_r. cbn [q_conv]. intros E. injection E as <-. reflexivity.
  - exfalso. revert E. unfold gqtpar. cbn [Nat.eqb gq_loop]. rewrite pass_fresh by easy. cbv zeta.
    cbn [gq_init q_lam q_x q_conv]. rewrite H110b_lambdas. cbn [l_cand].
    destruct (chol2 (add_diag H110b (3 / 2))) as (U & EC & _);
      [unfold add_diag, H110b; cbn [Nat.eqb]; lra..|].
    rewrite EC. pose proof (zero_threshold_nonneg 2 H110b ltac:(lia)). rewrite fnorm_zero.
    destruct (Rltb _ 0) eqn:B; [apply Rltb_true in B; lra|]. cbn [bind].
    destruct (q_conv _); easy.
Qed.

(** * C111 and the refutation of C113 *)

Definition g111 : fvec := vec2 0 (- (7 / 2)).
Definition H111 : fmat := diag2 (3 / 2) 3.
Definition o111 : gopts := mkGopts (1 / 10) (1 / 200).

Lemma g111_norm : fnorm 2 g111 = 7 / 2.
Proof. apply fnorm_2; [lra|]. rewrite fsq_2. cbn [g111 vec2]. lra. Qed.
Lemma H111_symm : fsymm 2 H111.
Proof. apply diag2_symm. Qed.
Lemma H111_threshold : zero_threshold 2 H111 < fnorm 2 g111.
Proof.
  assert (zero_threshold 2 H111 <= / 1000000).
  { apply zero_threshold_small. unfold H111. rewrite inf_diag2 by lra. rmm; lra. }
  rewrite g111_norm. lra.
Qed.
Lemma H111_posdef c : - (3 / 2) < c -> posdef 2 (add_diag H111 c).
Proof.
  intros C y Hy. rewrite form_add_diag. fold (fsq 2 y). unfold H111. rewrite form_diag2, fsq_2.
  destruct Hy as ([|[|i]] & Hi & Ny); [| |lia].
  - assert (0 < y 0%nat * y 0%nat) by nra. assert (0 <= y 1%nat * y 1%nat) by nra. nra.
  - assert (0 < y 1%nat * y 1%nat) by nra. assert (0 <= y 0%nat * y 0%nat) by nra. nra.
Qed.
Lemma H111_lambdas : initial_lambdas 2 g111 H111 = mkL 1 (1 / 2) 2.
Proof.
  unfold initial_lambdas. rewrite g111_norm.
  assert (Eg : gershgorin 2 H111 = (3 / 2, 3)).
  { unfold gershgorin, row_sum, H111. cbn [vmin vmax bsum diag2]. rewrite Rabs_R0, !Rabs_right by lra.
    f_equal; rmm; lra. }
  assert (Ei : inf_norm 2 H111 = 3) by (unfold H111; rewrite inf_diag2 by lra; rmm; lra).
  assert (Ef : 3 <= fro_norm 2 H111).
  { unfold fro_norm, H111. cbn [bsum diag2]. apply Rle_trans with (sqrt (3 * 3)); [rewrite sqrt_square; lra|].
    apply sqrt_le_1_alt. lra. }
  rewrite Eg, Ei. cbv zeta.
  assert (Lo : Rmax (Rmax 0 (- vmin 2 (fun i => H111 i i))) (7 / 2 - Rmin (Rmin 3 (fro_norm 2 H111)) 3) = 1 / 2).
  { unfold H111 at 1. cbn [vmin diag2]. rmm; lra. }
  assert (Hi : Rmax 0 (7 / 2 + Rmin (Rmin (- (3 / 2)) (fro_norm 2 H111)) 3) = 2) by (rmm; lra).
  rewrite Lo, Hi. destruct (Reqb (1 / 2) 0) eqn:B; [apply Reqb_true in B; lra|].
  f_equal. unfold new_lambda_candidate. rewrite (Rmax_right 0 (1 / 2 * 2)) by lra.
  replace (sqrt (1 / 2 * 2)) with 1; [rmm; lra|].
  transitivity (sqrt 1); [now rewrite sqrt_1|f_equal; lra].
Qed.

(** The states of the run: the factor is that of H + 1 I in every pass. *)
Definition state111 (s : gq) (c : R) : Prop :=
  chol 2 (add_diag H111 1) = (q_u s, O) /\ q_info s = O /\ q_hpl s = add_diag H111 c /\
  q_conv s = false /\ l_cand (q_lam s) = c /\ l_lo (q_lam s) = 1 / 2.

Lemma find111 tie s c : 0 <= c <= 1 -> state111 s c ->
  exists s', find_new_candidate tie 2 g111 H111 o111 s = Ok s' /\
    chol 2 (add_diag H111 1) = (q_u s', O) /\ q_info s' = O /\ q_fact s' = true /\
    q_hpl s' = add_diag H111 (c - 1 / 2) /\ q_conv s' = Reqb c 0 /\
    q_lam s' = mkL (c - 1 / 2) (1 / 2) c /\ feq 2 (q_x s') (vec2 0 (7 / 8)).
Proof.
  intros C (EC & I0 & Hh & Cv & Lc & Ll).
  pose proof (add_diag_symm 2 H111 1 H111_symm) as Sy.
  pose proof (H111_posdef 1 ltac:(lra)) as PD.
  set (x := vec2 0 (7 / 8)).
  assert (Ex : feq 2 (cho_solve 2 (q_u s) (fopp g111)) x).
  { apply (solve_unique 2 (add_diag H111 1)); [easy|]. intros i Hi.
    rewrite (cho_solve_ok 2 (add_diag H111 1) _ (fopp g111) Sy EC) by easy. unfold fopp.
    destruct i as [|[|i]]; [| |lia]; unfold x, g111, H111, fmv, add_diag; cbn [bsum diag2 vec2 Nat.eqb]; lra. }
  pose proof g111_norm as Gn.
  destruct (newton_ok 2 (add_diag H111 1) (q_u s) g111 c ltac:(lia) Sy EC ltac:(lra)) as (Px & Nw).
  unfold find_new_candidate. cbv zeta. rewrite Lc, Cv.
  set (xc := cho_solve 2 (q_u s) (fopp g111)) in *.
  destruct (Nw (vec2 0 (7 / 32))) as (_ & En).
  { intros i Hi. rewrite (Ex i Hi). destruct i as [|[|i]]; [| |lia];
      unfold x, H111, fmv, add_diag; cbn [bsum diag2 vec2 Nat.eqb]; lra. }
  assert (Nc : fnorm 2 xc = 7 / 8).
  { rewrite (fnorm_ext 2 xc x Ex). apply fnorm_2; [lra|]. rewrite fsq_2. unfold x. cbn [vec2]. lra. }
  assert (En' : newton_step c (fnorm 2 xc) (fnorm 2 (fwd 2 (q_u s) xc)) = Ok (c - 1 / 2)).
  { rewrite En. f_equal. rewrite Nc, (fsq_ext 2 xc x Ex), fsq_2.
    assert (feq 2 (vec2 0 (7 / 32)) (vec2 0 (7 / 32))) as Er by easy.
    rewrite (fdot_ext 2 xc x _ _ Ex Er). unfold fdot, x. cbn [bsum vec2]. field. }
  clear En Nw. rewrite En'. cbn [bind orb].
  destruct (Rltb (fnorm 2 xc) 1) eqn:B1; [|apply Rltb_false in B1; lra].
  destruct (Rleb (fnorm 2 xc) 1) eqn:B2; [|apply Rleb_false in B2; lra]. cbn [andb].
  assert (Nc1 : fnorm 2 xc < 1) by lra.
  assert (Dn : fdot 2 xc (fmv 2 (q_hpl s) xc) + l_cand (q_lam s) = 147 / 64 + c * (113 / 64)).
  { rewrite Hh, Lc, form_add_diag. fold (fsq 2 xc). rewrite (fsq_ext 2 xc x Ex), fsq_2.
    rewrite (fdot_fmv_ext 2 xc x H111 xc x Ex Ex). unfold H111, x. rewrite form_diag2. cbn [vec2]. lra. }
  destruct (update_within_total tie 2 H111 o111 s xc (c - 1 / 2) (Reqb c 0) (add_diag H111 1)
    ltac:(lia) Sy EC Nc1) as (s' & Es').
  { rewrite Dn. lra. }
  rewrite Es'. exists s'. split; [easy|].
  destruct (update_within_cases _ _ _ _ _ _ _ _ _ _ (ltac:(lia) : (0 < 2)%nat) Sy EC Nc1 Es')
    as (t & z & sm & ES & Z1 & Z2 & St & On & _ & Q). cbv zeta in Q. rewrite Dn in Q.
  assert (Sm : 5 / 2 <= sm * sm).
  { rewrite Z2, form_add_diag. fold (fsq 2 z). rewrite Z1. unfold H111. rewrite form_diag2.
    rewrite fsq_2 in Z1. assert (0 <= z 1%nat * z 1%nat) by apply Rle_0_sqr. lra. }
  assert (Tt : 1 / 64 <= t * t).
  { pose proof (fnorm_triangle 2 xc (fscale t z)) as T. rewrite On, Nc, fnorm_scale in T.
    assert (fnorm 2 z = 1) as Nz by (unfold fnorm; now rewrite Z1, sqrt_1). rewrite Nz in T.
    replace (t * t) with (Rabs t * Rabs t) by (rewrite <- Rabs_mult; apply Rabs_right; nra). nra. }
  destruct (Rleb (t * t * (sm * sm) / (147 / 64 + c * (113 / 64))) (k_hard o111)) eqn:B4.
  { exfalso. apply Rleb_true in B4. cbn [k_hard o111] in B4.
    apply (Rmult_le_compat_r (147 / 64 + c * (113 / 64))) in B4; [|lra].
    replace (t * t * (sm * sm) / (147 / 64 + c * (113 / 64)) * (147 / 64 + c * (113 / 64))) with (t * t * (sm * sm)) in B4
      by (field; lra). nra. }
  rewrite Lc, Ll in Q.
  assert (Lo : Rmax (1 / 2) (c - sm * sm) = 1 / 2) by (apply Rmax_left; lra). rewrite Lo in Q.
  destruct Q as (Q1 & Q2 & Q3 & Q4 & Q5 & Q6 & [(Q7 & Q8 & Q9 & Q10)|(Q7 & _)]).
  2:{ exfalso. apply Q7. apply chol_posdef; [apply add_diag_symm; apply H111_symm|]. apply H111_posdef. lra. }
  rewrite Q3, Q4. splits; try easy.
  - now rewrite Q2, orb_false_r.
  - destruct (q_lam s') as [la lb lc]. cbn [l_cand l_lo l_hi] in *. congruence.
  - now rewrite Q1.
Qed.

Lemma run111 tie x0 : exists s1 s2 s3,
  gq_pass tie 2 g111 H111 o111 (gq_init 2 g111 H111 x0) = Ok s1 /\
  gq_pass tie 2 g111 H111 o111 s1 = Ok s2 /\
  gq_pass tie 2 g111 H111 o111 s2 = Ok s3 /\
  q_conv s1 = false /\ q_conv s2 = false /\ q_conv s3 = true /\
  l_hi (q_lam s3) = 0 /\ feq 2 (q_x s3) (vec2 0 (7 / 8)).
Proof.
  pose proof H111_threshold as Th.
  assert (P1 : exists s1, gq_pass tie 2 g111 H111 o111 (gq_init 2 g111 H111 x0) = Ok s1 /\
    chol 2 (add_diag H111 1) = (q_u s1, O) /\ q_info s1 = O /\ q_fact s1 = true /\
    q_hpl s1 = add_diag H111 (1 - 1 / 2) /\ q_conv s1 = Reqb 1 0 /\
    q_lam s1 = mkL (1 - 1 / 2) (1 / 2) 1 /\ feq 2 (q_x s1) (vec2 0 (7 / 8))).
  { rewrite pass_fresh by easy. cbv zeta. cbn [gq_init q_lam q_x q_conv]. rewrite H111_lambdas. cbn [l_cand].
    pose proof (add_diag_symm 2 H111 1 H111_symm) as Sy.
    pose proof (proj2 (chol_posdef 2 _ Sy) (H111_posdef 1 ltac:(lra))) as Q.
    destruct (chol 2 (add_diag H111 1)) as (U, info) eqn:EC. cbn [snd] in Q. subst info.
    destruct (Rltb _ _) eqn:B; [|apply Rltb_false in B; lra].
    destruct (find111 tie (mkGq x0 (add_diag H111 1) U false 0 (mkL 1 (1 / 2) 2) false) 1) as (s1 & Es & F).
    - lra.
    - unfold state111. cbn. now splits.
    - exists s1. rewrite EC in F. now split. }
  assert (P2 : forall c s, 0 <= c <= 1 -> chol 2 (add_diag H111 1) = (q_u s, O) -> q_info s = O ->
    q_fact s = true -> q_hpl s = add_diag H111 c -> q_conv s = false -> l_cand (q_lam s) = c ->
    l_lo (q_lam s) = 1 / 2 ->
    exists s1, gq_pass tie 2 g111 H111 o111 s = Ok s1 /\
    chol 2 (add_diag H111 1) = (q_u s1, O) /\ q_info s1 = O /\ q_fact s1 = true /\
    q_hpl s1 = add_diag H111 (c - 1 / 2) /\ q_conv s1 = Reqb c 0 /\
    q_lam s1 = mkL (c - 1 / 2) (1 / 2) c /\ feq 2 (q_x s1) (vec2 0 (7 / 8))).
  { intros c s Hc A1 A2 A3 A4 A5 A6 A7. unfold gq_pass, factorize. rewrite A3. cbv zeta. cbn [q_info]. rewrite A2.
    destruct (Rltb _ _) eqn:B; [|apply Rltb_false in B; lra]. apply find111; [easy|].
    unfold state111. cbn. now splits. }
  destruct P1 as (s1 & E1 & A1 & A2 & A3 & A4 & A5 & A6 & A7). exists s1.
  assert (R1 : Reqb 1 0 = false) by (destruct (Reqb 1 0) eqn:B; [apply Reqb_true in B; lra|easy]). rewrite R1 in A5.
  destruct (P2 (1 - 1 / 2) s1) as (s2 & E2 & B1 & B2 & B3 & B4 & B5 & B6 & B7); try easy; [lra|now rewrite A6..|].
  assert (R2 : Reqb (1 - 1 / 2) 0 = false) by (destruct (Reqb (1 - 1 / 2) 0) eqn:B; [apply Reqb_true in B; lra|easy]).
  rewrite R2 in B5. exists s2.
  destruct (P2 (1 - 1 / 2 - 1 / 2) s2) as (s3 & E3 & C1 & C2 & C3 & C4 & C5 & C6 & C7); try easy; [lra|now rewrite B6..|].
  exists s3. splits; try easy.
  - rewrite C5. destruct (Reqb (1 - 1 / 2 - 1 / 2) 0) eqn:B; [easy|]. apply Reqb_false in B. exfalso. apply B. lra.
  - rewrite C6. cbn. lra.
Qed.

(** C111 refuted - the convex model with gradient (0, -7/2) and Hessian diag(3/2, 3), k_hard = 1/200:
    gqtpar stops successfully at (0, 7/8) inside the ball, where the gradient of the model is
    (0, -7/8), and (0, 1) is better.  The second and third pass reuse the factor of the first. *)
Theorem C111_interior_stationary_refuted :
  forall tie x0 maxiter, (3 <= maxiter)%nat ->
    exists r, gqtpar tie 2 g111 H111 x0 o111 maxiter = Ok r /\ g_success r = true /\
      fnorm 2 (g_x r) < 1 /\ qgrad 2 g111 H111 (g_x r) 1 = - (7 / 8) /\
      fnorm 2 (vec2 0 1) = 1 /\ qval 2 g111 H111 (vec2 0 1) < qval 2 g111 H111 (g_x r).
Proof.
  intros tie x0 [|[|[|k]]] Lm; try lia. destruct (run111 tie x0) as (s1 & s2 & s3 & E1 & E2 & E3 & C1 & C2 & C3 & _ & X).
  unfold gqtpar. cbn [Nat.eqb gq_loop]. rewrite E1. cbn [bind]. rewrite C1, E2. cbn [bind].
  rewrite C2, E3. cbn [bind]. rewrite C3. cbn [bind]. eexists. split; [reflexivity|]. cbn [g_x g_success].
  split; [easy|]. split; [|split; [|split]].
  - rewrite (fnorm_ext 2 _ _ X). rewrite (fnorm_2 _ (7 / 8)); [lra|lra|]. rewrite fsq_2. cbn [vec2]. lra.
  - unfold qgrad. cbn [bsum]. rewrite (X 0%nat), (X 1%nat) by lia. unfold g111, H111. cbn [diag2 vec2]. lra.
  - apply fnorm_2; [lra|]. rewrite fsq_2. cbn [vec2]. lra.
  - rewrite (qval_ext 2 g111 H111 _ _ X). unfold qval, g111, H111. cbn [bsum diag2 vec2]. lra.
Qed.

(** C111, the part that holds - a run that stops in the first pass. *)
Theorem C111_interior_stationary_partial :
  forall tie n g H x0 o r, (0 < n)%nat -> fsymm n H -> zero_threshold n H < fnorm n g ->
    gqtpar tie n g H x0 o 1 = Ok r -> g_success r = true -> fnorm n (g_x r) < 1 ->
    forall y, fnorm n y <= 1 -> qval n g H (g_x r) <= qval n g H y.
Proof.
  intros tie n g H x0 o r Ln Sy Th E Su Nx. unfold gqtpar in E. destruct (Nat.eqb n 0); [easy|].
  cbn [Nat.eqb gq_loop] in E. destruct (gq_pass _ _ _ _ _ _) as [s'|] eqn:EP; [|easy]. cbn [bind] in E.
  assert (ES : q_x s' = g_x r /\ q_conv s' = true).
  { destruct (q_conv s') eqn:C; cbn [bind] in E; injection E as <-; cbn in *; [easy|congruence]. }
  destruct ES as (Ex & Ec). rewrite <- Ex in *.
  apply (C70_interior_exit tie n g H o (gq_init n g H x0) s'); try easy.
  destruct (Req_dec (l_cand (q_lam (gq_init n g H x0))) 0) as [|N]; [easy|]. exfalso.
  rewrite pass_fresh in EP by easy. cbv zeta in EP.
  destruct (chol n (add_diag H (l_cand (q_lam (gq_init n g H x0))))) as (U, [|k]) eqn:EC.
  - destruct (Rltb _ _) eqn:B in EP; [|apply Rltb_false in B; lra].
    pose proof (zero_threshold_nonneg n H Ln).
    assert (Gp : 0 < fnorm n g) by lra.
    match type of EP with find_new_candidate _ _ _ _ _ ?a = _ => set (s1 := a) in EP end.
    assert (EC1 : chol n (add_diag H (l_cand (q_lam (gq_init n g H x0)))) = (q_u s1, O)) by easy.
    destruct (find_new_cases _ _ _ _ _ _ _ _ Ln (add_diag_symm n H _ Sy) EC1 Gp EP) as (x & newton & _ & _ & _ & _ & D). cbv zeta in D.
    cbn [q_lam q_conv gq_init s1] in D, N.
    destruct (Reqb (l_cand (initial_lambdas n g H)) 0) eqn:R0; [apply Reqb_true in R0; easy|].
    rewrite andb_false_r in D. cbn [orb] in D. destruct D as [(Nx' & D)|(Nx' & D)].
    + destruct (update_within_cases _ _ _ _ _ _ _ _ _ _ Ln (add_diag_symm n H _ Sy) EC1 Nx' D)
        as (t & z & sm & _ & _ & _ & _ & On & _ & Q). cbv zeta in Q. cbn [orb] in Q.
      destruct Q as (Q1 & Q2 & _). rewrite Ec in Q2. rewrite <- Q2 in Q1. rewrite Q1, On in Nx. lra.
    + destruct D as (D1 & _). rewrite D1 in Nx. lra.
  - apply unsuccessful_conv in EP. cbn [q_conv gq_init] in EP. destruct EP. congruence.
Qed.

(** C113 refuted - after the third pass of the same run the bracket does not contain the optimal
    damping factor 1/2 although the initial bracket does. *)
Theorem C113_bracket_refuted :
  forall tie x0, exists s1 s2 s3,
    gq_pass tie 2 g111 H111 o111 (gq_init 2 g111 H111 x0) = Ok s1 /\
    gq_pass tie 2 g111 H111 o111 s1 = Ok s2 /\
    gq_pass tie 2 g111 H111 o111 s2 = Ok s3 /\
    optimal_pair 2 g111 H111 (vec2 0 1) (1 / 2) /\ l_hi (q_lam s3) < 1 / 2.
Proof.
  intros tie x0. destruct (run111 tie x0) as (s1 & s2 & s3 & E1 & E2 & E3 & _ & _ & _ & Hi & _).
  exists s1, s2, s3. splits; try easy; [|lra]. unfold optimal_pair.
  assert (Nn : fnorm 2 (vec2 0 1) = 1) by (apply fnorm_2; [lra|]; rewrite fsq_2; cbn [vec2]; lra).
  split; [lra|]. split; [|split; [|split]].
  - apply posdef_semi. apply H111_posdef. lra.
  - intros [|[|i]] Hi'; [| |lia]; unfold g111, H111; cbn [bsum diag2 vec2]; lra.
  - lra.
  - rewrite Nn. lra.
Qed.

(** * C114 *)

(** The factor of a state that is reused by the next pass. *)
Definition inv114 (n : nat) (s : gq) : Prop :=
  q_fact s = true -> q_info s = O /\ exists M, fsymm n M /\ chol n M = (q_u s, O).

Lemma pass114 tie n g H o s s' : (0 < n)%nat -> fsymm n H -> zero_threshold n H < fnorm n g ->
  0 <= k_easy o -> inv114 n s -> q_conv s = false -> gq_pass tie n g H o s = Ok s' ->
  inv114 n s' /\ (q_conv s' = true -> fnorm n (q_x s') <= 1 + k_easy o).
Proof.
  intros Ln Sy Th K I Cv E. pose proof (zero_threshold_nonneg n H Ln) as Zt.
  unfold gq_pass in E.
  assert (FI : q_fact (factorize n H s) = false /\ q_conv (factorize n H s) = false /\
    (q_info (factorize n H s) = O -> exists M, fsymm n M /\ chol n M = (q_u (factorize n H s), O))).
  { unfold factorize. destruct (q_fact s) eqn:F.
    - cbn. splits; try easy. intros _. now destruct (I F).
    - destruct (chol n (add_diag H (l_cand (q_lam s)))) as (U, info) eqn:EC. cbn. splits; try easy.
      intros ->. exists (add_diag H (l_cand (q_lam s))). split; [now apply add_diag_symm|easy]. }
  destruct FI as (F & C & M). set (s1 := factorize n H s) in *. cbv zeta in E.
  destruct (q_info s1) eqn:EI.
  - destruct (M eq_refl) as (M0 & SM & EM).
    destruct (Rltb _ _) eqn:B; [|apply Rltb_false in B; lra].
    assert (Gp : 0 < fnorm n g) by lra.
    destruct (find_new_cases _ _ _ _ _ _ _ M0 Ln SM EM Gp E) as (x & newton & _ & _ & _ & _ & D).
    cbv zeta in D. rewrite C in D. cbn [orb] in D. destruct D as [(Nx & D)|(Nx & D)].
    + destruct (update_within_cases _ _ _ _ _ _ _ _ _ _ Ln SM EM Nx D)
        as (t & z & sm & _ & _ & _ & _ & On & _ & Q). cbv zeta in Q.
      destruct Q as (Q1 & _ & Q3 & Q4 & _). split.
      * intros _. rewrite Q4, Q3. split; [easy|]. now exists M0.
      * intros _. rewrite Q1. clear Q1. match goal with |- context [if ?b then _ else _] => destruct b end; [rewrite On|]; lra.
    + destruct D as (D1 & D2 & _ & D4 & _ & _ & D7). split; [intros Q; congruence|].
      intros Q. rewrite D1. rewrite Q in D7. symmetry in D7. apply orb_true_iff in D7 as [D7|D7].
      * apply andb_true_iff in D7 as (D7 & _). apply Rleb_true in D7. lra.
      * apply Rleb_true in D7. apply Rabs_inv in D7. lra.
  - pose proof (unsuccessful_conv _ _ _ E) as (A & A'). split; [|congruence].
    intros Q. exfalso. unfold update_unsuccessful in E.
    destruct (singular_terms _ _ _ _) as (dl, v). destruct (div _ _); [|easy]. cbn [bind] in E.
    injection E as <-. cbn in Q. congruence.
Qed.

(** C114 - the norm of a point that gqtpar reports as solution: at most 1 + k_easy for a nonzero
    gradient, and 0 or 2 for the zero gradient. *)
Theorem C114_converged_norm :
  forall tie n g H x0 o maxiter r, (0 < n)%nat -> fsymm n H -> 0 <= k_easy o ->
    gqtpar tie n g H x0 o maxiter = Ok r -> g_success r = true ->
    (zero_threshold n H < fnorm n g -> fnorm n (g_x r) <= 1 + k_easy o) /\
    ((forall i, (i < n)%nat -> g i = 0) -> fnorm n (g_x r) = 0 \/ fnorm n (g_x r) = 2).
Proof.
  intros tie n g H x0 o maxiter r Ln Sy K E Su.
  unfold gqtpar in E. destruct (Nat.eqb n 0); [easy|].
  destruct (gq_loop _ _ _ _ _ _ _) as [s|] eqn:EL; [|easy]. cbn [bind] in E.
  destruct (Nat.eqb maxiter 0); [easy|]. injection E as <-. cbn [g_success g_x] in *. split.
  - intros Th. assert (I : inv114 n (gq_init n g H x0)) by (intros Q; easy).
    assert (C : q_conv (gq_init n g H x0) = false) by easy.
    revert I C EL. generalize (gq_init n g H x0). induction maxiter; intros s0 I C EL.
    + cbn in EL. injection EL as ->. congruence.
    + cbn [gq_loop] in EL. destruct (gq_pass tie n g H o s0) as [s1|] eqn:EP; [|easy]. cbn [bind] in EL.
      destruct (pass114 tie n g H o s0 s1 Ln Sy Th K I C EP) as (I1 & N1).
      destruct (q_conv s1) eqn:C1.
      * injection EL as <-. now apply N1.
      * now apply (IHmaxiter s1).
  - intros G. destruct (loop_zero tie n g H o maxiter (gq_init n g H x0) s Ln Sy G eq_refl eq_refl EL Su)
      as (c & sm & z & _ & Z1 & _ & [(_ & ->)|(_ & _ & ->)]).
    + right. rewrite fnorm_scale. unfold fnorm. rewrite Z1, sqrt_1, Rabs_right; lra.
    + left. apply fnorm_zero.
Qed.

(** * The refutation of C56 *)

Definition g56 : fvec := vec2 (- (27 / 25)) 0.
Definition H56 : fmat := diag2 1 2.

Lemma run56_gen tie g H x0 k : feq 2 g g56 -> (forall i j, (i < 2)%nat -> (j < 2)%nat -> H i j = H56 i j) ->
  exists r, gqtpar tie 2 g H x0 default_gopts (S k) = Ok r /\
  g_success r = true /\ g_x r 0%nat = 27 / 25 /\ g_x r 1%nat = 0.
Proof.
  intros Eg EH. pose proof (Eg 0%nat ltac:(lia)) as G0. pose proof (Eg 1%nat ltac:(lia)) as G1.
  pose proof (EH 0 0 ltac:(lia) ltac:(lia))%nat as H00. pose proof (EH 0 1 ltac:(lia) ltac:(lia))%nat as H01.
  pose proof (EH 1 0 ltac:(lia) ltac:(lia))%nat as H10. pose proof (EH 1 1 ltac:(lia) ltac:(lia))%nat as H11.
  cbn [g56 vec2] in G0, G1. unfold H56 in H00, H01, H10, H11. cbn [diag2] in H00, H01, H10, H11. clear Eg EH.
  assert (Sy : fsymm 2 H) by (intros [|[|i]] [|[|j]] Hi Hj; try lia; congruence).
  assert (Gn : fnorm 2 g = 27 / 25) by (apply fnorm_2; [lra|]; rewrite fsq_2, G0, G1; lra).
  assert (Inf : inf_norm 2 H = 2).
  { unfold inf_norm, row_sum. cbn [vmax bsum]. rewrite H00, H01, H10, H11, Rabs_R0, !Rabs_right by lra. rmm; lra. }
  assert (Zt : zero_threshold 2 H <= / 1000000).
  { apply zero_threshold_small. lra. }
  assert (L0 : l_cand (initial_lambdas 2 g H) = 0).
  { unfold initial_lambdas. rewrite Gn.
    assert (Ge : gershgorin 2 H = (1, 2)).
    { unfold gershgorin, row_sum. cbn [vmin vmax bsum]. rewrite H00, H01, H10, H11, Rabs_R0, !Rabs_right by lra.
      f_equal; rmm; lra. }
    assert (Ef : 2 <= fro_norm 2 H).
    { unfold fro_norm. cbn [bsum]. rewrite H00, H01, H10, H11.
      apply Rle_trans with (sqrt (2 * 2)); [rewrite sqrt_square; lra|].
      apply sqrt_le_1_alt. lra. }
    rewrite Ge, Inf. cbv zeta.
    assert (Lo : Rmax (Rmax 0 (- vmin 2 (fun i => H i i))) (27 / 25 - Rmin (Rmin 2 (fro_norm 2 H)) 2) = 0).
    { cbn [vmin]. rewrite H00, H11. rmm; lra. }
    rewrite Lo. destruct (Reqb 0 0) eqn:B; [easy|apply Reqb_false in B; lra]. }
  unfold gqtpar. cbn [Nat.eqb gq_loop]. rewrite pass_fresh by easy. cbv zeta.
  cbn [gq_init q_lam q_x q_conv]. rewrite L0.
  pose proof (add_diag_symm 2 H 0 Sy) as Sy'.
  destruct (chol2 (add_diag H 0)) as (U & EC & _); [unfold add_diag; cbn [Nat.eqb]; rewrite ?H00, ?H01, ?H10, ?H11; lra..|].
  rewrite EC. destruct (Rltb _ _) eqn:B; [|apply Rltb_false in B; lra]. clear B.
  set (s1 := mkGq x0 (add_diag H 0) U false 0 (initial_lambdas 2 g H) false).
  assert (PD0 : posdef 2 (add_diag H 0)) by (apply (factor_posdef _ _ U); now apply chol_ok).
  assert (Ex : feq 2 (cho_solve 2 U (fopp g)) (vec2 (27 / 25) 0)).
  { apply (solve_unique 2 (add_diag H 0)); [easy|]. intros i Hi.
    rewrite (cho_solve_ok 2 (add_diag H 0) _ (fopp g) Sy' EC) by easy. unfold fopp.
    destruct i as [|[|i]]; [| |lia]; unfold fmv, add_diag; cbn [bsum vec2 Nat.eqb]; rewrite ?H00, ?H01, ?H10, ?H11, ?G0, ?G1; lra. }
  destruct (newton_ok 2 (add_diag H 0) U g 0 ltac:(lia) Sy' EC ltac:(lra)) as (Px & Nw).
  unfold find_new_candidate. cbv zeta. cbn [q_lam q_u q_conv s1 q_hpl q_fact q_info]. rewrite L0.
  set (xc := cho_solve 2 U (fopp g)) in *.
  destruct (exists_inverse 2 (add_diag H 0) U xc Sy' EC) as (y & Hy). destruct (Nw y Hy) as (_ & En).
  assert (Nc : fnorm 2 xc = 27 / 25).
  { rewrite (fnorm_ext 2 xc _ Ex). apply fnorm_2; [lra|]. rewrite fsq_2. cbn [vec2]. lra. }
  rewrite En. cbn [bind]. rewrite Nc.
  destruct (Rltb (27 / 25) 1) eqn:B1; [apply Rltb_true in B1; lra|].
  destruct (Rleb (Rabs (27 / 25 - 1)) (k_easy default_gopts)) eqn:B2.
  - rewrite orb_true_r. cbn [bind q_conv]. eexists. split; [reflexivity|]. cbn [g_x g_success q_x].
    split; [easy|]. rewrite (Ex 0%nat), (Ex 1%nat) by lia. now cbn.
  - apply Rleb_false in B2. cbn [k_easy default_gopts] in B2. rewrite Rabs_right in B2 by lra. lra.
Qed.

Lemma run56 tie x0 k : exists r, gqtpar tie 2 g56 H56 x0 default_gopts (S k) = Ok r /\
  g_success r = true /\ g_x r 0%nat = 27 / 25 /\ g_x r 1%nat = 0.
Proof. now apply run56_gen. Qed.

Definition b56 : bounds :=
  mkBounds (Some [Some (- (21 / 20)); Some (- (21 / 20))]) (Some [Some (21 / 20); Some (21 / 20)]).
Definition reg56 : region := mkRegion [0; 0] 1 (Some b56) Sphere [-1; -1] [1; 1].
Definition m56 : smodel := mkS 2 0 g56 (Some H56) (MScalar 1) (fun _ => 0).

Lemma reg56_proper : proper_region [0; 0] 1 (Some b56) reg56.
Proof.
  unfold proper_region. splits; try easy.
  - lra.
  - cbn. split; intros l E; injection E as <-; reflexivity.
  - cbn. split; intros l i xi li E; injection E as <-;
      destruct i as [|[|[|i]]]; cbn; intros E1 E2; try easy; injection E1 as <-; injection E2 as <-; lra.
  - intros B l u i li ui E; injection E as <-; cbn; intros E1 E2; injection E1 as <-; injection E2 as <-.
    destruct i as [|[|[|i]]]; cbn; intros E1 E2; try easy; injection E1 as <-; injection E2 as <-; lra.
  - unfold make_region, get_shape, any_bounds_binding, has_any. cbn [b56 side_any_finite existsb isfinite_o b_lower b_upper orb].
    unfold np_min. cbn [map2 dist_lower dist_upper fold_left bind].
    assert (A : forall a b, 1 < a -> 1 < b -> xle (xmin (Fin a) (Fin b)) (Fin 1) = false).
    { intros a b A B.
      assert (Q : xmin (Fin a) (Fin b) = Fin a \/ xmin (Fin a) (Fin b) = Fin b).
      { unfold xmin. repeat match goal with |- context [if ?b then _ else _] => destruct b end; auto. }
      destruct Q as [-> | ->]; cbn [xle]; (destruct (Rleb _ 1) eqn:Q1; [apply Rleb_true in Q1; lra|easy]). }
    rewrite !A by lra. cbn [bind get_cube_bounds create_cube_bounds map map2 clip_lower clip_upper].
    assert (L1 : Rmax (0 - 1) (- (21 / 20)) = -1) by (rmm; lra).
    assert (L2 : Rmin (0 + 1) (21 / 20) = 1) by (rmm; lra).
    unfold b56. cbn [map2 clip_lower clip_upper]. rewrite L1, L2. reflexivity.
Qed.

(** C56 refuted - quadratic model with minimizer (1.08, 0), region with center 0, radius 1 and
    bounds +-1.05: the region is a sphere because no bound is within the radius; gqtpar accepts the
    point of norm 1.08 and the template returns it - outside of the region and of the bounds. *)
Theorem C56_sphere_feasible_refuted :
  forall tie k cs fs fc retry, exists res x,
    proper_region [0; 0] 1 (Some b56) reg56 /\
    solve_subproblem m56 reg56 (gqtpar_solver tie default_gopts (S k)) cs fs fc retry = Ok res /\
    s_success res = Some true /\ s_x res = map Fin x /\ 1 < dist x [0; 0] /\ ~ in_bounds (Some b56) x.
Proof.
  intros tie k cs fs fc retry.
  destruct (old_unit _ _ _ _ reg56_proper) as (v & Ev & _ & _ & Hv). rewrite (Hv eq_refl) in Ev.
  cbn [length vzero repeat map] in Ev. unfold solve_subproblem. rewrite Ev.
  cbn [r_shape reg56 map]. unfold gqtpar_solver. cbn [sm_h m56 sm_n sm_g].
  destruct (run56 tie (fun i => match xentry [Fin 0; Fin 0] i with Fin a => a | _ => 0 end) k)
    as (r & -> & Su & X0 & X1).
  cbn [bind seq map raw_x raw_n_iterations raw_success]. rewrite X0, X1, Su.
  change [Fin (27 / 25); Fin 0] with (map Fin [27 / 25; 0]). change [Fin 0; Fin 0] with (map Fin [0; 0]).
  rewrite !predict_x_fin by reflexivity.
  assert (P0 : predict_scalar m56 (fun_of [0; 0]) = 0).
  { unfold predict_scalar, m56, fdot, fvm, fun_of, g56, H56. cbn [sm_n sm_h sm_g sm_c bsum nth vec2 diag2]. field. }
  assert (P1 : predict_scalar m56 (fun_of [27 / 25; 0]) = - (729 / 1250)).
  { unfold predict_scalar, m56, fdot, fvm, fun_of, g56, H56. cbn [sm_n sm_h sm_g sm_c bsum nth vec2 diag2]. field. }
  rewrite P0, P1. cbn [xsub xopp xadd xle].
  destruct (Rleb_spec 0 (- (- (729 / 1250) + - 0))); [|lra].
  eexists. exists [27 / 25 * 1 + 0; 0 * 1 + 0]. split; [exact reg56_proper|]. split; [reflexivity|].
  cbn [s_success s_x]. splits; try easy.
  - unfold dist, norm. apply Rlt_le_trans with (sqrt (27 / 25 * (27 / 25))); [rewrite sqrt_square; lra|].
    apply Req_le. f_equal. unfold sumsq, vsub, dot. cbn [map2 fold_right]. cbn. lra.
  - intros (_ & Hu). specialize (Hu _ 0%nat (27 / 25 * 1 + 0) (21 / 20) eq_refl eq_refl eq_refl). lra.
Qed.

(** Runs that meet the hypotheses of C111 and C114: an interior solution, and norm 1.08 for
    k_easy = 0.1. *)
Example ex_C111 : exists r, gqtpar (fun _ _ => true) 2 (vec2 (-1) 0) (diag2 2 2) fzero default_gopts 1 = Ok r /\
  g_success r = true /\ fnorm 2 (g_x r) < 1 /\ zero_threshold 2 (diag2 2 2) < fnorm 2 (vec2 (-1) 0).
Proof.
  assert (Th : zero_threshold 2 (diag2 2 2) < fnorm 2 (vec2 (-1) 0)).
  { assert (zero_threshold 2 (diag2 2 2) <= / 1000000).
    { apply zero_threshold_small. rewrite inf_diag2 by lra. rmm; lra. }
    rewrite (fnorm_2 (vec2 (-1) 0) 1); [lra|lra|]. rewrite fsq_2. cbn [vec2]. lra. }
  assert (Nx : fnorm 2 (vec2 (1 / 2) 0) = 1 / 2) by (apply fnorm_2; [lra|]; rewrite fsq_2; cbn [vec2]; lra).
  destruct (C109_interior_minimizer_partial (fun _ _ => true) 2 (vec2 (-1) 0) (diag2 2 2) fzero
    default_gopts 1 (vec2 (1 / 2) 0)) as (r & E & Su & D & V); try easy; try lia.
  - apply diag2_symm.
  - apply diag2_posdef; lra.
  - cbn [k_hard default_gopts]. lra.
  - intros [|[|i]] Hi; [| |lia]; cbn [bsum diag2 vec2]; lra.
  - lra.
  - exists r. splits; try easy. destruct D as [D|D]; [rewrite (fnorm_ext 2 _ _ D); lra|]. exfalso.
    cbn [k_hard default_gopts] in V.
    assert (F : fsq 2 (g_x r) = 1) by (rewrite <- fnorm_sqr, D; lra). rewrite fsq_2 in F.
    unfold qval in V. cbn [bsum diag2 vec2] in V.
    assert (0 <= g_x r 1%nat * g_x r 1%nat) by apply Rle_0_sqr.
    assert (g_x r 0%nat <= 1) by nra. lra.
Qed.
Example ex_C114 : exists r, gqtpar (fun _ _ => true) 2 g56 H56 fzero default_gopts 1 = Ok r /\
  g_success r = true /\ g_x r 0%nat = 27 / 25.
Proof. destruct (run56 (fun _ _ => true) fzero 0) as (r & E & Su & X & _). now exists r. Qed.
