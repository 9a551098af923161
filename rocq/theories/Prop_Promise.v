(** Property C199: what the steps of gqtpar promise, and the number of iterations of runs with gqtpar. *)
From Coq Require Import Reals List Arith ZArith Bool Lia Lra Psatz Sorting.Sorted.
From Verif Require Import Base XR Vec FVec CgModel Prop_Cg HistoryModel HistorySpec HistoryProofs LogSpec LogProofs WrapModel VolumeModel
  RegionModel Prop_Region ModelsModel Prop_Models FitModel Prop_Fit Prop_Poised SubproblemModel Prop_Subproblem SampleModel AcceptModel
  AcceptProofs Prop_Accept AdjustModel Prop_Adjust Prop_Filter MainModel MainProofs MainPhases MainLoop MainProgress MainProgress2
  Prop_Main Prop_Main2 Prop_Main3 Prop_Main4 Prop_Step
  BuiltinModel GqtparModel GqtparProofs Prop_Gqtpar Prop_Gqtpar2 Prop_Builtin Prop_Builtin2 LstsqProofs Prop_Reject Prop_Exact
  Prop_Gradient Prop_Convex Prop_Rate Prop_Complexity Prop_NearOptimal.
Import ListNotations.
Open Scope R_scope.

(** A successful run of gqtpar in which no pass reuses a factor, from every start vector. *)
Definition clean_run (tie : fvec -> fvec -> bool) (n : nat) (g : fvec) (H : fmat) (o : gopts) (maxiter : nat) : Prop :=
  zero_threshold n H < fnorm n g /\
  forall x0, exists r, gqtpar tie n g H x0 o maxiter = Ok r /\ g_success r = true /\
    forall k s, (k < maxiter)%nat -> gq_loop tie k n g H o (gq_init n g H x0) = Ok s -> q_conv s = false -> q_fact s = false.

(** The step of gqtpar in a ball, in terms of the solution in the unit ball. *)
Lemma gqtpar_delivers X ch d b reg m h o maxiter sub :
  d <> 0%nat -> bounds_dim d b -> no_fixed b -> region_of d b reg -> r_shape reg = Sphere -> ch_sphere ch = SphGqtpar o maxiter ->
  sm_h m = Some h -> clean_run (e_tie X) (sm_n m) (sm_g m) h o maxiter ->
  builtin_solve X ch (Some m) reg = Ok sub ->
  sm_n m = d /\ exists x0 gr, gqtpar (e_tie X) d (sm_g m) h x0 o maxiter = Ok gr /\ g_success gr = true /\
    (forall k s, (k < maxiter)%nat -> gq_loop (e_tie X) k d (sm_g m) h o (gq_init d (sm_g m) h x0) = Ok s ->
       q_conv s = false -> q_fact s = false) /\
    ((qval d (sm_g m) h (g_x gr) <= 0 /\ sub_ei sub = Fin (- qval d (sm_g m) h (g_x gr)) /\
      sub_x sub = map_from_unit reg (map (g_x gr) (seq 0 d))) \/
     0 < qval d (sm_g m) h (g_x gr)).
Proof.
  intros Hd BD NF RO SH CS Eh (Th & CR) SV.
  destruct (region_proper d b Hd BD NF reg RO) as (rad & PR & Er & Lc & MS & DG).
  assert (Pr : 0 < r_radius reg) by (destruct PR as (Pr & _); now rewrite <- Er).
  unfold builtin_solve in SV. rewrite MS in SV. cbn [orb] in SV.
  destruct (Nat.eqb_spec (sm_n m) (length (r_center reg))) as [N|]; [|discriminate]. cbn [negb] in SV. rewrite Lc in N.
  unfold solve_proper in SV. rewrite DG in SV.
  destruct (solve_subproblem _ _ _ _ _ _ _) as [q|] eqn:E; [|discriminate]. cbn [bind] in SV.
  destruct (all_fin (s_x q)) as [v|] eqn:EF; [|discriminate]. injection SV as <-. cbn [sub_ei sub_x].
  split; [easy|]. rewrite N in Th, CR.
  destruct (CR (fun i => match xentry (xmap_to_unit reg (r_center reg)) i with Fin a => a | _ => 0 end)) as (gr & EG & Su & NR).
  exists (fun i => match xentry (xmap_to_unit reg (r_center reg)) i with Fin a => a | _ => 0 end), gr.
  split; [exact EG|]. split; [exact Su|]. split; [exact NR|].
  apply solve_cases in E as (rw & DV & E). cbv zeta in E. unfold delivered in DV. rewrite SH in DV. cbv zeta in DV.
  unfold sphere_solver in DV. rewrite CS in DV. unfold gqtpar_solver in DV. rewrite Eh, N in DV. cbv zeta in DV.
  rewrite EG in DV. cbn [bind] in DV.
  destruct DV as [DV|(_ & (er & DV) & _)]; [|discriminate]. injection DV as <-. cbn [raw_x] in E. rewrite SH in E.
  assert (EO : xmap_to_unit reg (r_center reg) = map Fin (map_to_unit reg (r_center reg))).
  { unfold xmap_to_unit, map_to_unit. unfold degenerate in DG. rewrite SH in *. unfold map_to_unit_sphere. apply map2_finite.
    intros a c' _. cbn [xdiv]. now rewrite DG. }
  assert (LO : length (map_to_unit reg (r_center reg)) = sm_n m).
  { unfold map_to_unit, map_to_unit_sphere. rewrite SH, map2_length. lia. }
  replace (map (fun i => Fin (g_x gr i)) (seq 0 d)) with (map Fin (map (g_x gr) (seq 0 d))) in E by (now rewrite map_map).
  rewrite EO, (predict_x_fin m (map (g_x gr) (seq 0 d))), (predict_x_fin m _ LO) in E
    by (rewrite map_length, seq_length; congruence).
  rewrite (predict_qval m h (fun_of (map (g_x gr) (seq 0 d))) Eh), N in E.
  rewrite (qval_ext d (sm_g m) h (fun_of (map (g_x gr) (seq 0 d))) (g_x gr)) in E by (intros i Hi; now apply fun_of_map_seq).
  assert (Q0 : qval d (sm_g m) h (fun_of (map_to_unit reg (r_center reg))) = 0).
  { unfold qval. rewrite !bsum_all_zero; [lra| |]; intros i _; [apply bsum_all_zero; intros j _|]; rewrite !center_unit by easy; lra. }
  rewrite (predict_qval m h _ Eh), N, Q0 in E. cbn [xsub xadd xopp xle] in E.
  destruct E as (_ & _ & [(E0 & E1 & E2 & _)|(E0 & _)]).
  - left. apply Rleb_true in E0. split; [lra|]. split.
    + rewrite E2. f_equal. lra.
    + assert (EV : xmap_from_unit reg (map Fin (map (g_x gr) (seq 0 d))) = map Fin (map_from_unit reg (map (g_x gr) (seq 0 d)))).
      { unfold xmap_from_unit, map_from_unit. rewrite SH. unfold map_from_unit_sphere. clear. generalize (r_center reg).
        induction (map (g_x gr) (seq 0 d)) as [|a y IH]; intros [|c0 c]; try reflexivity.
        cbn [map map2]. now rewrite IH. }
      rewrite E1, EV, all_fin_map in EF. now injection EF.
  - right. apply Rleb_false in E0. lra.
Qed.

(** * C199 - the improvement promised by gqtpar *)

(** With curvature at most beta along the gradient (both in the coordinates of the unit ball) the
    expected improvement is at least (1 - k_hard) / 2 |g| min (1, |g| / beta). *)
Theorem C199_promised_improvement :
  forall X ch d b reg m h o maxiter sub beta,
    d <> 0%nat -> bounds_dim d b -> no_fixed b -> region_of d b reg -> r_shape reg = Sphere ->
    ch_sphere ch = SphGqtpar o maxiter -> 0 <= k_hard o <= 1 ->
    sm_h m = Some h -> fsymm (sm_n m) h -> clean_run (e_tie X) (sm_n m) (sm_g m) h o maxiter ->
    0 < beta ->
    bsum d (fun i => bsum d (fun j => sm_g m i * h i j * sm_g m j)) <= beta * bsum d (fun i => sm_g m i * sm_g m i) ->
    builtin_solve X ch (Some m) reg = Ok sub ->
    exists e, sub_ei sub = Fin e /\
      (1 - k_hard o) * (/ 2 * fnorm d (sm_g m) * Rmin 1 (fnorm d (sm_g m) / beta)) <= e /\
      (0 <= k_easy o -> dist (sub_x sub) (r_center reg) <= (1 + k_easy o) * r_radius reg).
Proof.
  intros X ch d b reg m h o maxiter sub beta Hd BD NF RO SH CS K Eh Sy CR Hb HC SV.
  destruct (gqtpar_delivers X ch d b reg m h o maxiter sub Hd BD NF RO SH CS Eh CR SV)
    as (N & x0 & gr & EG & Su & NR & D).
  destruct CR as (Th & _). rewrite N in Th, Sy.
  pose proof (zero_threshold_nonneg d h ltac:(lia)) as Zt.
  pose proof (C197_near_optimal_partial (e_tie X) d (sm_g m) h x0 o maxiter gr ltac:(lia) Sy Th K NR EG Su) as NO.
  rewrite <- fdot_fmv in HC.
  destruct (cauchy_point d (sm_g m) h 1 beta ltac:(lra) ltac:(lra) Hb HC) as (t & _ & T1 & T2).
  pose proof (NO _ T1) as Q.
  set (B := / 2 * fnorm d (sm_g m) * Rmin 1 (fnorm d (sm_g m) / beta)) in *.
  assert (PB : 0 <= B).
  { apply Rmult_le_pos; [lra|]. apply Rmin_glb; [lra|]. apply Rlt_le, Rdiv_lt_0_compat; lra. }
  assert (Q2 : (1 - k_hard o) * qval d (sm_g m) h (fscale (- t) (sm_g m)) <= (1 - k_hard o) * - B)
    by (apply Rmult_le_compat_l; lra).
  assert (0 <= (1 - k_hard o) * B) by (apply Rmult_le_pos; lra).
  destruct D as [(D1 & D2 & D3)|D]; [|lra].
  exists (- qval d (sm_g m) h (g_x gr)). split; [exact D2|]. split; [lra|]. intros Ke.
  destruct (region_proper d b Hd BD NF reg RO) as (rad & PR & Er & Lc & MS & DG).
  assert (Pr : 0 < r_radius reg) by (destruct PR as (Pr & _); now rewrite <- Er).
  destruct (C114_converged_norm (e_tie X) d (sm_g m) h x0 o maxiter gr ltac:(lia) Sy Ke EG Su) as [NX _].
  specialize (NX Th).
  set (v := map (g_x gr) (seq 0 d)) in *.
  assert (Lv : length v = length (r_center reg)) by (unfold v; rewrite map_length, seq_length; lia).
  destruct (C16_unit_maps_inverse_sphere reg SH Pr v Lv) as (_ & I & _).
  assert (ND : norm (map_to_unit reg (sub_x sub)) = dist (sub_x sub) (r_center reg) / r_radius reg).
  { unfold map_to_unit. rewrite SH. rewrite unit_scaled, norm_vscale. fold (dist (sub_x sub) (r_center reg)).
    assert (0 < / r_radius reg) by now apply Rinv_0_lt_compat. rewrite Rabs_right by lra. unfold Rdiv. ring. }
  rewrite D3, I in ND.
  rewrite <- (fnorm_norm d v) in ND by lia.
  rewrite (fnorm_ext d (fun_of v) (g_x gr)) in ND by (intros i Hi; now apply fun_of_map_seq).
  rewrite ND in NX. rewrite D3.
  apply (Rmult_le_compat_r (r_radius reg)) in NX; [|lra]. unfold Rdiv in NX. rewrite Rmult_assoc, Rinv_l in NX by lra. lra.
Qed.

(** What an iteration of a run with gqtpar needs, in terms of the parameters of the problem: a ball of
    radius at most rmax; a model accurate up to kappa / 2 times the squared radius in the ball enlarged by
    the share k_easy; linear terms at least eps and curvature at most hmax; a clean run of gqtpar. The model
    lives in the coordinates of the unit ball, hence the powers of the radius. *)
Definition well_modelled {VM} (X : externals) (d : nat) (b : option bounds) (F : vec -> R) (o : gopts) (maxiter : nat)
    (kappa eps hmax rmax : R) (s' : MainModel.state VM (option smodel)) : Prop :=
  let rad := r_radius (st_region s') in
  region_of d b (st_region s') /\ r_shape (st_region s') = Sphere /\ rad <= rmax /\
  exists m hm, st_model s' = Some m /\ sm_h m = Some hm /\ fsymm (sm_n m) hm /\
    clean_run (e_tie X) (sm_n m) (sm_g m) hm o maxiter /\
    eps * rad <= fnorm d (sm_g m) /\
    bsum d (fun i => bsum d (fun j => sm_g m i * hm i j * sm_g m j)) <=
      hmax * (rad * rad) * bsum d (fun i => sm_g m i * sm_g m i) /\
    forall y, length y = d -> dist y (r_center (st_region s')) <= (1 + k_easy o) * rad ->
      Rabs (F y - predict_scalar m (fun_of (map_to_unit (st_region s') y))) <= kappa / 2 * (rad * rad).

(** The share of the radius that gqtpar promises. *)
Definition promise (o : gopts) (eps hmax rmax : R) : R :=
  (1 - k_hard o) / 2 * eps * Rmin 1 (eps / (hmax * rmax)).

(** Such iterations are predicted in the sense of C195. *)
Theorem C199_good_iterations :
  forall X ch ft d w crit n_cores O pad x r0 b h r f F o maxiter kappa eps hmax rmax,
    valid_run ft d w (builtin_components X ch d (ft_w ft w) crit n_cores) O pad x r0 b h r ->
    ext_dims d X -> bounds_dim d b -> no_fixed b ->
    (forall y, length y = d -> value ft f y = Fin (F y)) ->
    ch_sphere ch = SphGqtpar o maxiter -> 0 <= k_easy o -> 0 <= k_hard o <= 1 -> 0 < eps -> 0 < hmax ->
    forall k s s', nth_error (res_states r) k = Some s -> nth_error (res_states r) (S k) = Some s' ->
    well_modelled X d b F o maxiter kappa eps hmax rmax s' ->
    predicted ft (builtin_components X ch d (ft_w ft w) crit n_cores) f kappa (promise o eps hmax rmax) s s'.
Proof.
  intros X ch ft d w crit n_cores O pad x r0 b h r f F o maxiter kappa eps hmax rmax V ED BD NF VF CS Ke Kh Pe Ph
    k s s' H1 H2 (RO & SH & RM & m & hm & EM & Eh & Sy & CR & G1 & HC & AC) sub SV.
  set (rad := r_radius (st_region s')) in *.
  pose proof (vr_d _ _ _ _ _ _ _ _ _ _ _ V) as Hd.
  destruct (C78_states_are_consistent _ _ _ _ _ _ _ _ _ _ _ _ _ _ V) as (_ & _ & CC).
  destruct (CC _ _ _ H1 H2) as [CE _].
  destruct (region_proper d b Hd BD NF (st_region s') RO) as (rad' & PR & Er & Lc & MS & DG).
  assert (Pr : 0 < rad) by (unfold rad; destruct PR as (Pr & _); now rewrite <- Er).
  cbn [builtin_components k_solve] in SV. rewrite EM in SV.
  assert (Hb : 0 < hmax * (rad * rad)) by (apply Rmult_lt_0_compat; [easy|]; apply Rmult_lt_0_compat; easy).
  destruct (C199_promised_improvement X ch d b (st_region s') m hm o maxiter sub _ Hd BD NF RO SH CS Kh Eh Sy CR Hb HC SV)
    as (e & E1 & E2 & E3). specialize (E3 Ke).
  destruct (solve_decrease X ch d m (st_region s') sub (r_center (st_region s')) rad' b ED Lc PR SV) as (e' & E1' & _ & Ls & E4).
  rewrite E1 in E1'. injection E1' as <-.
  exists (F (st_x s)), (F (sub_x sub)), e. rewrite <- CE.
  split; [now apply VF|]. split; [now apply VF|]. split; [exact E1|]. fold rad. split.
  - set (gn := fnorm d (sm_g m)) in *.
    assert (Per : 0 < eps * rad) by (apply Rmult_lt_0_compat; lra).
    assert (HR : 0 < hmax * rad) by (apply Rmult_lt_0_compat; lra).
    assert (HX : hmax * rad <= hmax * rmax) by (apply Rmult_le_compat_l; lra).
    assert (B1 : Rmin 1 (eps / (hmax * rmax)) <= Rmin 1 (gn / (hmax * (rad * rad)))).
    { apply Rmin_glb; [apply Rmin_l|]. eapply Rle_trans; [apply Rmin_r|].
      apply Rle_trans with (eps * rad / (hmax * (rad * rad))).
      - replace (eps * rad / (hmax * (rad * rad))) with (eps * / (hmax * rad)) by (field; lra).
        apply Rmult_le_compat_l; [lra|]. now apply Rinv_le_contravar.
      - apply Rmult_le_compat_r; [apply Rlt_le; now apply Rinv_0_lt_compat|exact G1]. }
    assert (P0 : 0 <= Rmin 1 (eps / (hmax * rmax))).
    { apply Rmin_glb; [lra|]. apply Rlt_le, Rdiv_lt_0_compat; lra. }
    assert (B2 : eps * rad * Rmin 1 (eps / (hmax * rmax)) <= gn * Rmin 1 (gn / (hmax * (rad * rad)))).
    { apply Rmult_le_compat; lra. }
    apply (Rmult_le_compat_l (1 - k_hard o)) in B2; [|lra].
    unfold promise. lra.
  - assert (A1 := AC (r_center (st_region s')) Lc). assert (A2 := AC (sub_x sub) Ls E3).
    assert (D0 : dist (r_center (st_region s')) (r_center (st_region s')) <= (1 + k_easy o) * rad).
    { rewrite dist_self. apply Rmult_le_pos; lra. }
    specialize (A1 D0).
    set (p1 := predict_scalar m (fun_of (map_to_unit (st_region s') (r_center (st_region s'))))) in *.
    set (p2 := predict_scalar m (fun_of (map_to_unit (st_region s') (sub_x sub)))) in *.
    replace (F (r_center (st_region s')) - F (sub_x sub) - e) with
      ((F (r_center (st_region s')) - p1) + - (F (sub_x sub) - p2)) by (rewrite E4; ring).
    eapply Rle_trans; [apply Rabs_triang|]. rewrite Rabs_Ropp. lra.
Qed.

(** The number of iterations: if the first n iterations are good with linear terms at least eps, then n is
    bounded in terms of eps; a longer run meets an iteration with a small gradient, a bad model, or trouble
    in gqtpar. *)
Theorem C199_number_of_iterations :
  forall X ch ft d w crit n_cores O pad x r0 b h r f F o maxiter kappa eps hmax,
    valid_run ft d w (builtin_components X ch d (ft_w ft w) crit n_cores) O pad x r0 b h r ->
    deterministic (builtin_components X ch d (ft_w ft w) crit n_cores) f ->
    noisy O = false -> n_evals_per_point0 O = 1%Z -> (n_evals_at_start O <= 1)%Z -> ch_decider ch = DecClassic ->
    ext_dims d X -> bounds_dim d b -> no_fixed b ->
    (forall y, length y = d -> value ft f y = Fin (F y)) ->
    ch_sphere ch = SphGqtpar o maxiter -> 0 <= k_easy o -> 0 <= k_hard o < 1 ->
    0 < eps -> 0 < hmax -> 0 < kappa ->
    min_improvement O = 0 -> 0 < rho_decrease (radius_o O) <= rho_increase (radius_o O) ->
    rho_decrease (radius_o O) < 1 ->
    0 < r0 <= max_radius (radius_o O) -> 0 < min_radius (radius_o O) <= max_radius (radius_o O) ->
    max_radius_to_step_ratio (radius_o O) = PInf ->
    1 <= expansion_factor (radius_o O) -> 0 < shrinking_factor (radius_o O) <= 1 ->
    expansion_factor (radius_o O) * shrinking_factor (radius_o O) <= 1 ->
    let sigma := promise o eps hmax (max_radius (radius_o O)) in
    let low := radius_floor (radius_o O) kappa sigma r0 in
    min_radius (radius_o O) <= low ->
    forall n,
    (forall k s', (k < n)%nat -> nth_error (res_states r) (S k) = Some s' ->
       well_modelled X d b F o maxiter kappa eps hmax (max_radius (radius_o O)) s') ->
    forall s0 u0 sm lower M N, nth_error (res_states r) 0 = Some s0 -> st_fval s0 = Fin u0 ->
    nth_error (res_states r) (S n) = Some sm ->
    (forall s u, In s (res_states r) -> st_fval s = Fin u -> lower <= u) ->
    u0 - lower < (INR M + 1) * (rho_decrease (radius_o O) * sigma * low) ->
    r0 * shrinking_factor (radius_o O) ^ S N < low ->
    (n <= 2 * M + N)%nat.
Proof.
  intros X ch ft d w crit n_cores O pad x r0 b h r f F o maxiter kappa eps hmax V DF HQ HN HS HC ED BD NF VF CS Ke Kh
    Pe Ph Pk HM HD HD1 H0 HR HI HE HG HEG sigma low HL n WM s0 u0 sm lower M N S0 U0 Sm LB HU HNN.
  set (K := builtin_components X ch d (ft_w ft w) crit n_cores) in *.
  assert (HK : forall t v, k_decider K t v = Classic) by (intros t v; cbn; unfold builtin_decider; now rewrite HC).
  assert (Ps : 0 < sigma).
  { unfold sigma, promise. apply Rmult_lt_0_compat; [apply Rmult_lt_0_compat; lra|].
    apply Rmin_glb_lt; [lra|]. apply Rdiv_lt_0_compat; [easy|]. apply Rmult_lt_0_compat; lra. }
  apply (C196_number_of_iterations _ _ _ _ _ _ _ _ _ _ _ _ _ _ f kappa sigma V DF HQ HN HS HK HM HD HD1 Ps Pk H0 HR HI HE HG HEG HL
    n) with (s0 := s0) (u0 := u0) (sm := sm) (lower := lower); try assumption.
  intros k s s' Hk E1 E2.
  apply (C199_good_iterations X ch ft d w crit n_cores O pad x r0 b h r f F o maxiter kappa eps hmax _ V ED BD NF VF CS Ke
    ltac:(lra) Pe Ph k s s' E1 E2 (WM k s' Hk E2)).
Qed.

(** * Example *)

(** The run of C191 with two residuals: the model is exact, with linear terms (-1, 0) and curvature 2 in the
    unit ball; the minimizer (1/2, 0) is inside. *)
Lemma interior_clean tie n g H o maxiter x : (0 < n)%nat -> (0 < maxiter)%nat -> fsymm n H -> posdef n H ->
  0 <= k_hard o -> zero_threshold n H < fnorm n g ->
  (forall i, (i < n)%nat -> bsum n (fun j => H i j * x j) = - g i) -> fnorm n x < 1 ->
  clean_run tie n g H o maxiter.
Proof.
  intros Ln Lm S PD K G E Nx. split; [exact G|]. intros x0.
  destruct (C109_interior_minimizer_partial tie n g H x0 o maxiter x Ln Lm S PD K G E Nx) as (r & ER & Su & _).
  exists r. split; [exact ER|]. split; [exact Su|]. intros k s Hk Q C.
  destruct k as [|k]; [cbn in Q; injection Q as <-; reflexivity|]. exfalso.
  destruct (C109_interior_minimizer_partial tie n g H x0 o 1 x Ln ltac:(lia) S PD K G E Nx) as (r1 & E1 & Su1 & _).
  unfold gqtpar in E1. destruct (Nat.eqb n 0); [discriminate|]. cbn [gq_loop] in E1, Q.
  destruct (gq_pass tie n g H o (gq_init n g H x0)) as [s1|] eqn:EP; [|discriminate]. cbn [bind] in E1, Q.
  destruct (q_conv s1) eqn:C1.
  - injection Q as <-. congruence.
  - cbn [gq_loop bind] in E1. injection E1 as <-. cbn [g_success] in Su1. congruence.
Qed.

Example C199_instance : exists h r s s',
  tranquilo (builtin_components (ex_ext ls) ls_choices 2 3 rate_crit 1) rate_config LeastSquares 0 [0; 0] 1 (Some b56) = (h, Ok r) /\
  nth_error (res_states r) 0 = Some s /\ nth_error (res_states r) 1 = Some s' /\
  well_modelled (ex_ext ls) 2 (Some b56) rate_F default_gopts 20 1 1 2 1 s' /\
  promise default_gopts 1 2 1 = 1 / 5 /\
  predicted LeastSquares (builtin_components (ex_ext ls) ls_choices 2 3 rate_crit 1) rate_f 1 (1 / 5) s s'.
Proof.
  destruct rate_run as (h & r & s & s' & E & RS & Sx & Sr & Si & GX).
  assert (V : valid_run LeastSquares 2 3 (builtin_components (ex_ext ls) ls_choices 2 3 rate_crit 1) rate_config 0 [0; 0] 1
    (Some b56) h r).
  { constructor; try easy; try lia. apply C140_builtin_components_good; [apply ex_ext_dims|apply rate_crit_good]. }
  assert (RO : region_of 2 (Some b56) reg56).
  { exists [0; 0], 1. pose proof reg56_proper as PR. unfold proper_region in PR. decompose [and] PR. auto. }
  destruct b56_ok as (BD & NF & IB & TS).
  exists h, r, s, s'. split; [exact E|]. split; [now rewrite RS|]. split; [now rewrite RS|].
  assert (WM : well_modelled (ex_ext ls) 2 (Some b56) rate_F default_gopts 20 1 1 2 1 s').
  { unfold well_modelled. rewrite Sr. split; [exact RO|]. split; [easy|]. split; [cbn; lra|].
    destruct (C178_exact_steps (ex_ext ls) ls_choices LeastSquares 2 3 rate_crit 1 rate_config 0 [0; 0] 1 (Some b56) h r
        rate_f rate_q V) with (k := 0%nat) (s := s) (s' := s') (pts := ex_pts)
        as (m & sub & e & u & EM & PM & SV & _);
        rewrite ?RS, ?Sr, ?Si; try easy.
    { apply ex_ext_dims. }
    { intros. apply ls_ok. }
    { intros k _. apply rate_poly. }
    { apply ex_determining. }
    destruct (model_of_region _ _ _ _ _ _ _ _ _ _ _ _ _ _ V 0%nat s s' ltac:(now rewrite RS) ltac:(now rewrite RS))
      as (xs' & fv & old & v & KF & KA).
    cbn [builtin_components k_fit k_agg] in KF, KA. rewrite EM in KA.
    destruct (aggregated_symm (ex_ext ls) ls_choices LeastSquares _ _ _ _ _ _ _ _ eq_refl ltac:(now split) KF KA) as (hm & Eh & Sy).
    rewrite Sr in SV, PM. rewrite EM in SV. unfold builtin_solve in SV. change (misshapen reg56) with false in SV. cbn [orb] in SV.
    destruct (Nat.eqb_spec (sm_n m) (length (r_center reg56))) as [N|]; [|discriminate]. clear SV. cbn in N.
    exists m, hm. split; [exact EM|]. split; [exact Eh|]. split; [exact Sy|]. rewrite N in *.
    assert (P : forall a c, sm_c m + (sm_g m 0%nat * a + sm_g m 1%nat * c) + / 2 *
      (hm 0%nat 0%nat * a * a + hm 0%nat 1%nat * a * c + hm 1%nat 0%nat * a * c + hm 1%nat 1%nat * c * c) = (a - 1 / 2) ^ 2 + c ^ 2).
    { intros a c. pose proof (PM [a; c] eq_refl) as Q. rewrite rate_value in Q by easy. injection Q as Q.
      rewrite (predict_qval m hm _ Eh), N in Q. unfold rate_F in Q. cbn [nth] in Q. rewrite <- Q.
      unfold qval, map_to_unit, map_to_unit_sphere, fun_of. cbn [reg56 r_shape r_center r_radius map2 nth bsum]. field. }
    assert (S01 := Sy 0%nat 1%nat ltac:(lia) ltac:(lia)).
    pose proof (P 0 0) as P0. pose proof (P 1 0) as P1. pose proof (P (-1) 0) as P2. pose proof (P 0 1) as P3.
    pose proof (P 0 (-1)) as P4. pose proof (P 1 1) as P5.
    assert (G0 : sm_g m 0%nat = -1) by lra. assert (G1 : sm_g m 1%nat = 0) by lra.
    assert (H00 : hm 0%nat 0%nat = 2) by lra. assert (H11 : hm 1%nat 1%nat = 2) by lra.
    assert (H01 : hm 0%nat 1%nat = 0) by lra. assert (H10 : hm 1%nat 0%nat = 0) by lra.
    assert (TH : zero_threshold 2 hm <= / 1000000).
    { apply zero_threshold_small. unfold inf_norm, row_sum. cbn [vmax bsum]. rewrite H00, H01, H10, H11, Rabs_R0.
      rewrite Rabs_right by lra. unfold Rmax. destruct Rle_dec; lra. }
    assert (NG : fnorm 2 (sm_g m) = 1) by (apply fnorm_2; [lra|]; rewrite fsq_2, G0, G1; lra).
    split.
    { apply interior_clean with (x := vec2 (1 / 2) 0); try lia; try exact Sy.
      - intros y (i & Hi & Hy). rewrite fdot_fmv. cbn [bsum]. rewrite H00, H01, H10, H11.
        pose proof (Rle_0_sqr (y 0%nat)) as Y0. pose proof (Rle_0_sqr (y 1%nat)) as Y1. pose proof (Rsqr_pos_lt (y i) Hy) as Yi.
        unfold Rsqr in *. destruct i as [|[|i]]; [| |lia]; lra.
      - cbn. lra.
      - lra.
      - intros [|[|i]] Hi; [| |lia]; cbn [bsum vec2]; rewrite ?H00, ?H01, ?H10, ?H11, ?G0, ?G1; lra.
      - rewrite (fnorm_2 _ (1 / 2)); [lra|lra|]. rewrite fsq_2. cbn [vec2]. lra. }
    split; [rewrite NG; cbn; lra|]. split; [cbn [bsum r_radius reg56]; rewrite G0, G1, H00, H01, H10, H11; lra|].
    intros y Ly _. pose proof (PM y Ly) as Q. rewrite rate_value in Q by easy. injection Q as ->.
    rewrite Rminus_diag_eq, Rabs_R0 by easy. cbn. lra. }
  assert (PV : promise default_gopts 1 2 1 = 1 / 5).
  { unfold promise, default_gopts. cbn [k_hard]. rewrite Rmin_right by lra. lra. }
  split; [exact WM|]. split; [exact PV|]. rewrite <- PV.
  apply (C199_good_iterations (ex_ext ls) ls_choices LeastSquares 2 3 rate_crit 1 rate_config 0 [0; 0] 1 (Some b56) h r
    rate_f rate_F default_gopts 20 1 1 2 1 V) with (k := 0%nat); try easy; try (cbn; lra); try (now rewrite RS).
  - apply ex_ext_dims.
  - apply rate_value.
Qed.
