(** Property C191: the rate of convergence of runs with gqtpar on quadratic criteria. *)
From Coq Require Import Reals List Arith ZArith Bool Lia Lra Psatz Sorting.Sorted.
From Verif Require Import Base XR Vec FVec CgModel Prop_Cg HistoryModel HistorySpec HistoryProofs LogSpec LogProofs WrapModel VolumeModel
  RegionModel Prop_Region ModelsModel Prop_Models FitModel Prop_Fit Prop_Poised SubproblemModel Prop_Subproblem SampleModel AcceptModel
  AcceptProofs Prop_Accept AdjustModel Prop_Adjust Prop_Filter MainModel MainProofs MainPhases MainLoop MainProgress MainProgress2
  Prop_Main Prop_Main2 Prop_Main3 Prop_Main4 Prop_Step
  BuiltinModel GqtparModel GqtparProofs Prop_Gqtpar Prop_Gqtpar2 Prop_Builtin Prop_Builtin2 LstsqProofs Prop_Reject Prop_Exact
  Prop_Gradient Prop_Convex.
Import ListNotations.
Open Scope R_scope.

(** * The square terms of the models are symmetric *)

Lemma fit_proper_symm X ch n m xs fv reg old v : ch_residualize ch = false ->
  fit_proper X ch n m xs fv reg old = Ok v ->
  vm_n v = n /\ forall h k i j, vm_h v = Some h -> h k i j = h k j i.
Proof.
  intros NR. unfold fit_proper, fitter_template. rewrite NR. cbv zeta.
  destruct (raw_fitter _ _ _ _ _) as [coef|]; [|discriminate]. cbn [bind].
  unfold build_vmodel. cbv zeta. destruct (ch_type ch).
  - intros [= <-]. split; [easy|]. discriminate.
  - destruct (reshape_square_terms_to_hess n (skipn (n + 1) (coef 0%nat))); [|discriminate]. cbn [bind].
    intros [= <-]. split; [easy|]. cbn [vm_h]. intros h k i j [= <-].
    destruct (reshape_square_terms_to_hess n (skipn (n + 1) (coef k))) as [hk|] eqn:E; [|easy].
    now apply (reshape_hess_symm n _ hk E).
Qed.

Lemma aggregated_symm X ch ft n m xs fv reg old v s : ch_residualize ch = false -> exact_aggregator ft ch ->
  builtin_fit X ch n m xs fv reg old = Ok v -> builtin_agg ch v = Ok (Some s) ->
  exists h, sm_h s = Some h /\ fsymm (sm_n s) h.
Proof.
  intros NR AG EF EA.
  assert (SY : exists v', v = VmOk v' /\ forall h k i j, vm_h v' = Some h -> h k i j = h k j i).
  { unfold builtin_fit in EF. destruct xs; [discriminate|]. destruct (degenerate reg); [discriminate|]. rewrite NR in EF.
    destruct old.
    - destruct (fit_proper _ _ _ _ _ _ _ _) as [v'|] eqn:E; [|discriminate]. cbn [bind] in EF. injection EF as <-.
      exists v'. split; [easy|]. now apply (fit_proper_symm _ _ _ _ _ _ _ _ _ NR E).
    - destruct (fit_proper _ _ _ _ _ _ _ _) as [v'|] eqn:E; [|discriminate]. cbn [bind] in EF. injection EF as <-.
      exists v'. split; [easy|]. now apply (fit_proper_symm _ _ _ _ _ _ _ _ _ NR E). }
  destruct SY as (v' & -> & SY). cbn [builtin_agg] in EA. unfold aggregate in EA.
  destruct ft; cbn [exact_aggregator] in AG.
  - rewrite AG in EA. unfold aggregate_identity in EA. destruct (vm_m v' =? 1)%nat; [|discriminate].
    cbn [bind] in EA. injection EA as <-. cbn [sm_h sm_n]. eexists. split; [reflexivity|].
    intros i j _ _. destruct (vm_h v') as [h|] eqn:E; [|easy]. now apply SY.
  - destruct AG as [AG _]. rewrite AG in EA. unfold aggregate_sum in EA. destruct (vm_h v') as [h|] eqn:E; [|discriminate].
    cbn [bind] in EA. injection EA as <-. cbn [sm_h sm_n]. eexists. split; [reflexivity|].
    intros i j _ _. apply bsum_ext. intros k _. now apply SY.
  - destruct AG as [AG _]. rewrite AG in EA. cbn [bind] in EA. injection EA as <-. unfold aggregate_least_squares_linear.
    cbn [sm_h sm_n]. eexists. split; [reflexivity|].
    intros i j _ _. apply bsum_ext. intros k _. lra.
Qed.

(** * Quadratic functions with one minimizer *)

Lemma predict_qval m h u : sm_h m = Some h -> predict_scalar m u = sm_c m + qval (sm_n m) (sm_g m) h u.
Proof.
  intros E. rewrite predict_scalar_value. unfold value_s, quad, qval. rewrite E. cbn [hess0].
  rewrite Rplus_assoc. do 3 f_equal. apply bsum_ext. intros i _. apply bsum_ext. intros. lra.
Qed.

Lemma positive_parabola A B : (forall t, t <> 0 -> 0 < t * A + / 2 * (t * t) * B) -> A = 0 /\ 0 < B.
Proof.
  intros H. assert (PB : 0 < B).
  { pose proof (H 1 ltac:(lra)). pose proof (H (-1) ltac:(lra)). lra. }
  split; [|exact PB]. destruct (Req_EM_T A 0) as [|NA]; [easy|exfalso].
  assert (NT : - A / B <> 0).
  { intros Z. apply NA. assert (- A = 0) by (replace (- A) with (- A / B * B) by (field; lra); rewrite Z; lra). lra. }
  pose proof (H _ NT) as Q.
  replace (- A / B * A + / 2 * (- A / B * (- A / B)) * B) with (- (/ 2) * (A * A / B)) in Q by (field; lra).
  assert (0 < A * A) by (apply Rsqr_pos_lt in NA; exact NA).
  assert (0 < A * A / B) by (apply Rdiv_lt_0_compat; lra). lra.
Qed.

Lemma minimizer_definite n g H u : fsymm n H ->
  (forall v, ~ feq n v u -> qval n g H u < qval n g H v) ->
  posdef n H /\ forall i, (i < n)%nat -> bsum n (fun j => H i j * u j) = - g i.
Proof.
  intros S MI.
  assert (K : forall y, (exists i, (i < n)%nat /\ y i <> 0) ->
    fdot n (fadd g (fmv n H u)) y = 0 /\ 0 < fdot n y (fmv n H y)).
  { intros y (i & Hi & Ny). apply positive_parabola. intros t Nt.
    pose proof (MI (fadd u (fscale t y))) as Q. rewrite (qval_move n g H u y t S) in Q.
    assert (0 < t * fdot n (fadd g (fmv n H u)) y + / 2 * (t * t) * fdot n y (fmv n H y)); [|lra].
    enough (qval n g H u < qval n g H u + t * fdot n (fadd g (fmv n H u)) y + / 2 * (t * t) * fdot n y (fmv n H y)) by lra.
    apply Q. intros E. specialize (E i Hi). unfold fadd, fscale in E.
    assert (Z : t * y i = 0) by lra. apply Rmult_integral in Z. tauto. }
  split; [intros y Hy; now apply K|].
  intros i Hi. destruct (K (fun j => if (j =? i)%nat then 1 else 0)) as [Z _].
  { exists i. split; [easy|]. rewrite Nat.eqb_refl. lra. }
  assert (Z2 : fadd g (fmv n H u) i = 0).
  { rewrite <- Z. unfold fdot. rewrite <- (FVec.bsum_single n i (fadd g (fmv n H u) i) Hi). apply bsum_ext. intros j _.
    destruct (Nat.eqb_spec j i) as [->|]; lra. }
  unfold fadd, fmv in Z2. lra.
Qed.

(** * One step *)

Lemma fun_of_map_seq (u : fvec) n i : (i < n)%nat -> fun_of (map u (seq 0 n)) i = u i.
Proof.
  intros Hi. unfold fun_of. rewrite (nth_indep _ 0 (u 0%nat)) by (rewrite map_length, seq_length; lia).
  rewrite map_nth. now rewrite seq_nth.
Qed.

Lemma center_unit reg i : r_shape reg = Sphere -> fun_of (map_to_unit reg (r_center reg)) i = 0.
Proof.
  intros S. unfold map_to_unit, map_to_unit_sphere, fun_of. rewrite S. revert i.
  induction (r_center reg) as [|c l IH]; intros [|i]; cbn; try easy; try apply IH. unfold Rdiv. replace (c - c) with 0 by ring. ring.
Qed.

Lemma fnorm_norm n v : length v = n -> fnorm n (fun_of v) = norm v.
Proof.
  intros L. unfold fnorm, norm, fsq, sumsq. f_equal. unfold fdot. rewrite <- (bsum_norm n v L). apply bsum_ext. intros. reflexivity.
Qed.

Lemma unit_scaled x c r : map_to_unit_sphere x c r = vscale (/ r) (vsub x c).
Proof.
  unfold map_to_unit_sphere, vscale, vsub.
  revert c. induction x as [|a x IH]; intros [|b c]; try easy. simpl. rewrite IH. f_equal. unfold Rdiv. ring.
Qed.

(** The expected improvement of a step of gqtpar in a ball with the minimizer inside: at least the share
    1 - k_hard of what can be gained. *)
Lemma gqtpar_step X ch d b reg m h o maxiter sub F xs :
  d <> 0%nat -> bounds_dim d b -> no_fixed b -> region_of d b reg -> r_shape reg = Sphere -> ch_sphere ch = SphGqtpar o maxiter -> (0 < maxiter)%nat ->
  0 <= k_hard o <= 1 -> sm_h m = Some h -> fsymm (sm_n m) h ->
  (forall y, length y = d -> predict_scalar m (fun_of (map_to_unit reg y)) = F y) ->
  length xs = d -> (forall y, length y = d -> y <> xs -> F xs < F y) -> dist xs (r_center reg) < r_radius reg ->
  zero_threshold (sm_n m) h < fnorm (sm_n m) (sm_g m) ->
  builtin_solve X ch (Some m) reg = Ok sub ->
  exists e, sub_ei sub = Fin e /\ (1 - k_hard o) * (F (r_center reg) - F xs) <= e /\ r_center reg <> xs.
Proof.
  intros Hd BD NF RO SH CS Hm Hk Eh Sy PM Lx U DX ST SV.
  destruct (region_proper d b Hd BD NF reg RO) as (rad & PR & Er & Lc & MS & DG).
  assert (Pr : 0 < r_radius reg) by (destruct PR as (Pr & _); now rewrite <- Er).
  unfold builtin_solve in SV. rewrite MS in SV. cbn [orb] in SV.
  destruct (Nat.eqb_spec (sm_n m) (length (r_center reg))) as [N|]; [|discriminate]. cbn [negb] in SV. rewrite Lc in N.
  unfold solve_proper in SV. rewrite DG in SV.
  destruct (solve_subproblem _ _ _ _ _ _ _) as [q|] eqn:E; [|discriminate]. cbn [bind] in SV.
  destruct (all_fin (s_x q)) as [v|] eqn:EF; [|discriminate]. injection SV as <-. cbn [sub_ei].
  set (us := fun_of (map_to_unit reg xs)).
  destruct (C16_unit_maps_inverse_sphere reg SH Pr xs ltac:(congruence)) as (IX & _).
  assert (MI : forall y, ~ feq d y us -> qval d (sm_g m) h us < qval d (sm_g m) h y).
  { intros y Ny. set (l := map y (seq 0 d)).
    assert (Ll : length l = length (r_center reg)) by (unfold l; rewrite map_length, seq_length; congruence).
    destruct (C16_unit_maps_inverse_sphere reg SH Pr l Ll) as (_ & IL & _).
    assert (Lf : length (map_from_unit reg l) = d).
    { unfold map_from_unit, map_from_unit_sphere. rewrite SH, map2_length. lia. }
    pose proof (U (map_from_unit reg l) Lf) as Q.
    rewrite <- (PM xs Lx), <- (PM _ Lf), IL, !(predict_qval m h _ Eh), N in Q. fold us in Q.
    rewrite (qval_ext d (sm_g m) h (fun_of l) y) in Q by (intros i Hi; now apply fun_of_map_seq).
    enough (map_from_unit reg l <> xs) by (specialize (Q H); lra).
    intros Z. apply Ny. intros i Hi. unfold us. rewrite <- Z, IL. symmetry. now apply fun_of_map_seq. }
  rewrite N in Sy, ST.
  destruct (minimizer_definite d (sm_g m) h us Sy MI) as [PD CR].
  assert (Lu : length (map_to_unit reg xs) = d).
  { unfold map_to_unit, map_to_unit_sphere. rewrite SH, map2_length. lia. }
  assert (Nu : fnorm d us < 1).
  { unfold us. rewrite fnorm_norm by easy.
    assert (ND : norm (map_to_unit reg xs) = dist xs (r_center reg) / r_radius reg).
    { unfold map_to_unit. rewrite SH. rewrite unit_scaled, norm_vscale. fold (dist xs (r_center reg)).
      assert (0 < / r_radius reg) by now apply Rinv_0_lt_compat. rewrite Rabs_right by lra. unfold Rdiv. ring. }
    rewrite ND. apply (Rmult_lt_reg_r (r_radius reg)); [easy|]. unfold Rdiv. rewrite Rmult_assoc, Rinv_l by lra. lra. }
  destruct (C109_interior_minimizer_partial (e_tie X) d (sm_g m) h
    (fun i => match xentry (xmap_to_unit reg (r_center reg)) i with Fin a => a | _ => 0 end) o maxiter us
    ltac:(lia) Hm Sy PD (proj1 Hk) ST CR Nu) as (gr & EG & _ & _ & GV).
  apply solve_cases in E as (rw & DV & E). cbv zeta in E. unfold delivered in DV. rewrite SH in DV. cbv zeta in DV.
  unfold sphere_solver in DV. rewrite CS in DV. unfold gqtpar_solver in DV. rewrite Eh, N in DV. cbv zeta in DV.
  rewrite EG in DV. cbn [bind] in DV.
  destruct DV as [DV|(_ & (er & DV) & _)]; [|discriminate]. injection DV as <-. cbn [raw_x] in E. rewrite SH in E.
  assert (EO : xmap_to_unit reg (r_center reg) = map Fin (map_to_unit reg (r_center reg))).
  { unfold xmap_to_unit, map_to_unit. unfold degenerate in DG. rewrite SH in *. unfold map_to_unit_sphere. apply map2_finite.
    intros a c' _. cbn [xdiv]. now rewrite DG. }
  assert (LO : length (map_to_unit reg (r_center reg)) = sm_n m).
  { unfold map_to_unit, map_to_unit_sphere. rewrite SH, map2_length. lia. }
  replace (map (fun i => Fin (g_x gr i)) (seq 0 d)) with (map Fin (map (g_x gr) (seq 0 d))) in E by (now rewrite map_map).
  rewrite EO, (predict_x_fin m (map (g_x gr) (seq 0 d))), (predict_x_fin m _ LO) in E
    by (rewrite map_length, seq_length; congruence).
  rewrite (predict_qval m h (fun_of (map (g_x gr) (seq 0 d))) Eh), N in E.
  rewrite (qval_ext d (sm_g m) h (fun_of (map (g_x gr) (seq 0 d))) (g_x gr)) in E by (intros i Hi; now apply fun_of_map_seq).
  assert (Q0 : qval d (sm_g m) h (fun_of (map_to_unit reg (r_center reg))) = 0).
  { unfold qval. rewrite !bsum_all_zero; [lra| |]; intros i _; [apply bsum_all_zero; intros j _|]; rewrite !center_unit by easy; lra. }
  assert (FC : F (r_center reg) = sm_c m).
  { rewrite <- PM by easy. rewrite (predict_qval m h _ Eh), N, Q0. lra. }
  assert (FX : F xs = sm_c m + qval d (sm_g m) h us) by (rewrite <- PM by easy; now rewrite (predict_qval m h _ Eh), N).
  assert (NX : r_center reg <> xs).
  { intros Z. assert (G0 : fnorm d (sm_g m) = 0).
    { unfold fnorm, fsq. rewrite <- sqrt_0. f_equal. apply bsum_all_zero. intros i Hi.
      assert (sm_g m i = 0) as ->; [|lra].
      assert (CI := CR i Hi). rewrite bsum_all_zero in CI; [lra|]. intros j _. unfold us. rewrite <- Z, center_unit by easy. lra. }
    pose proof (zero_threshold_nonneg d h ltac:(lia)). lra. }
  assert (Q1 : qval d (sm_g m) h us <= 0).
  { pose proof (U (r_center reg) Lc NX). lra. }
  rewrite (predict_qval m h _ Eh), N, Q0 in E. cbn [xsub xadd xopp xle] in E.
  destruct E as (_ & _ & [(_ & _ & E & _)|(E & _)]).
  - rewrite E. eexists. split; [reflexivity|]. split; [|exact NX]. rewrite FC, FX. nra.
  - apply Rleb_false in E. exfalso. nra.
Qed.

(** * C191 - linear convergence *)

(** An iteration whose region is a ball, whose model points determine the criterion, and whose model is not
    flat at the center: the linear terms are not below the threshold under which gqtpar treats them as zero. *)
Definition steep (m : option smodel) : Prop :=
  exists m' h, m = Some m' /\ sm_h m' = Some h /\ zero_threshold (sm_n m') h < fnorm (sm_n m') (sm_g m').
Definition informed {VM} (h : hist) (ch : choices) (d : nat) (b : option bounds) (s' : MainModel.state VM (option smodel)) : Prop :=
  region_of d b (st_region s') /\ r_shape (st_region s') = Sphere /\ steep (st_model s') /\
  exists pts, get_xs_many h (map Z.of_nat (st_model_indices s')) = Ok pts /\ pts <> [] /\
    determining d (ch_type ch) pts /\ exact_fitter ch d (length pts).

(** Criteria that the models represent, with one minimizer: an informed iteration whose region contains the
    minimizer in its interior accepts a step that leaves at most the share k_hard of the gap. *)
Theorem C191_iteration :
  forall X ch ft d w crit n_cores O pad x r0 b h r f q F xs o maxiter,
    valid_run ft d w (builtin_components X ch d (ft_w ft w) crit n_cores) O pad x r0 b h r ->
    deterministic (builtin_components X ch d (ft_w ft w) crit n_cores) f ->
    noisy O = false -> n_evals_per_point0 O = 1%Z -> (n_evals_at_start O <= 1)%Z -> ch_decider ch = DecClassic ->
    ext_dims d X -> (forall N p A b, is_lstsq N p A b (e_lstsq X N p A b)) ->
    ch_residualize ch = false -> exact_aggregator ft ch -> bounds_dim d b -> no_fixed b ->
    (forall y, length y = d -> recorded (f y) = map (fun k => Fin (q k (fun_of y))) (seq 0 (ft_w ft w))) ->
    (forall k, (k < ft_w ft w)%nat -> polynomial d (ch_type ch) (q k)) ->
    (forall y, length y = d -> value ft f y = Fin (F y)) ->
    length xs = d -> (forall y, length y = d -> y <> xs -> F xs < F y) ->
    ch_sphere ch = SphGqtpar o maxiter -> (0 < maxiter)%nat -> 0 <= k_hard o <= 1 -> min_improvement O <= 0 ->
    forall k s s', nth_error (res_states r) k = Some s -> nth_error (res_states r) (S k) = Some s' ->
    informed h ch d b s' -> dist xs (st_x s) < r_radius (st_region s') ->
    st_accepted s' = true /\ length (st_x s') = d /\ (k_hard o < 1 -> st_rho s' = Fin 1) /\
    F (st_x s') - F xs <= k_hard o * (F (st_x s) - F xs).
Proof.
  intros X ch ft d w crit n_cores O pad x r0 b h r f q F xs o maxiter V DF HQ HN HS HC ED LS NR AG BD HNF RE PQ VF Lx U
    CS Hm Hk HM k s s' H1 H2 (RO & SH & ST & pts & GX & NP & DET & EF) DX.
  pose proof (vr_d _ _ _ _ _ _ _ _ _ _ _ V) as Hd0.
  assert (HK : forall t v, k_decider (builtin_components X ch d (ft_w ft w) crit n_cores) t v = Classic)
    by (intros t v; cbn; unfold builtin_decider; now rewrite HC).
  destruct (C178_exact_steps X ch ft d w crit n_cores O pad x r0 b h r f q V DF HQ HN HS HC ED LS NR AG BD HNF RE PQ
    k s s' pts H1 H2 RO GX NP DET EF) as (m & sub & e & u & EM & PM & SV & EE & Pe & VU & VS & R1 & _ & AC).
  destruct (C163_iteration _ _ _ _ _ _ _ _ _ _ _ _ _ _ _ V DF HQ HN HS HK k s s' H1 H2) as (sub' & SV' & _ & _ & _ & AX & _).
  cbn [builtin_components k_solve] in SV'. rewrite SV in SV'. injection SV' as <-.
  destruct (model_of_region _ _ _ _ _ _ _ _ _ _ _ _ _ _ V k s s' H1 H2) as (xs' & fv & old & v & KF & KA).
  cbn [builtin_components k_fit k_agg] in KF, KA. rewrite EM in *.
  destruct (aggregated_symm _ _ _ _ _ _ _ _ _ _ _ NR AG KF KA) as (hm & Eh & Sy).
  destruct ST as (m' & h' & [= <-] & Eh' & ST). rewrite Eh in Eh'. injection Eh' as <-.
  destruct (C78_states_are_consistent _ _ _ _ _ _ _ _ _ _ _ _ _ _ V) as (_ & _ & CC).
  destruct (CC _ _ _ H1 H2) as [CE _].
  destruct (region_proper d b Hd0 BD HNF (st_region s') RO) as (rad & PR & Er & Lc & MS & DG).
  destruct (gqtpar_step X ch d b (st_region s') m hm o maxiter sub F xs) as (e' & EE' & GE & NX); try easy.
  { intros y Ly. specialize (PM y Ly). rewrite VF in PM by easy. now injection PM. }
  { now rewrite CE. }
  rewrite EE in EE'. injection EE' as <-. rewrite CE in GE, NX, Lc.
  assert (A : st_accepted s' = true) by (apply AC; lra).
  destruct (AX A) as [Ex _].
  destruct (solve_decrease X ch d m (st_region s') sub (r_center (st_region s')) rad b ED ltac:(congruence) PR SV) as (e2 & _ & _ & Ls & _).
  rewrite VF in VU, VS by (try easy; congruence). injection VU as <-. injection VS as VS.
  pose proof (U (st_x s) Lc NX) as G.
  rewrite Ex, VS. split; [exact A|]. split; [exact Ls|]. split; [|lra].
  intros Hk1. apply R1. assert (0 < (1 - k_hard o) * (F (st_x s) - F xs)) by (apply Rmult_lt_0_compat; lra). lra.
Qed.

(** Once the level set of the current point fits into the region around the minimizer, the gap decreases
    geometrically, by the factor k_hard in every iteration. *)
Theorem C191_linear_rate :
  forall X ch ft d w crit n_cores O pad x r0 b h r f q F xs o maxiter,
    valid_run ft d w (builtin_components X ch d (ft_w ft w) crit n_cores) O pad x r0 b h r ->
    deterministic (builtin_components X ch d (ft_w ft w) crit n_cores) f ->
    noisy O = false -> n_evals_per_point0 O = 1%Z -> (n_evals_at_start O <= 1)%Z -> ch_decider ch = DecClassic ->
    ext_dims d X -> (forall N p A b, is_lstsq N p A b (e_lstsq X N p A b)) ->
    ch_residualize ch = false -> exact_aggregator ft ch -> bounds_dim d b -> no_fixed b ->
    (forall y, length y = d -> recorded (f y) = map (fun k => Fin (q k (fun_of y))) (seq 0 (ft_w ft w))) ->
    (forall k, (k < ft_w ft w)%nat -> polynomial d (ch_type ch) (q k)) ->
    (forall y, length y = d -> value ft f y = Fin (F y)) ->
    length xs = d -> (forall y, length y = d -> y <> xs -> F xs < F y) ->
    ch_sphere ch = SphGqtpar o maxiter -> (0 < maxiter)%nat -> 0 <= k_hard o < 1 -> min_improvement O <= 0 ->
    0 < r0 -> 0 < min_radius (radius_o O) <= max_radius (radius_o O) ->
    max_radius_to_step_ratio (radius_o O) = PInf -> rho_decrease (radius_o O) <= 1 ->
    1 <= expansion_factor (radius_o O) ->
    forall k s s1, nth_error (res_states r) k = Some s -> nth_error (res_states r) (S k) = Some s1 ->
    (forall y, length y = d -> F y <= F (st_x s) -> dist xs y < r_radius (st_region s1)) ->
    r_radius (st_region s1) <= max_radius (radius_o O) ->
    forall n, (forall j s', (k < j <= k + n)%nat -> nth_error (res_states r) j = Some s' -> informed h ch d b s') ->
    forall sn, nth_error (res_states r) (k + n) = Some sn ->
      F (st_x sn) - F xs <= k_hard o ^ n * (F (st_x s) - F xs).
Proof.
  intros X ch ft d w crit n_cores O pad x r0 b h r f q F xs o maxiter V DF HQ HN HS HC ED LS NR AG BD HNF RE PQ VF Lx U
    CS Hm Hk HM Hr HR HP HD HE k s s1 H1 H2 LV HX n INF.
  pose proof (vr_d _ _ _ _ _ _ _ _ _ _ _ V) as Hd0.
  assert (IT := fun k s s' => C191_iteration X ch ft d w crit n_cores O pad x r0 b h r f q F xs o maxiter V DF HQ HN HS HC ED LS NR AG BD HNF RE PQ VF Lx U
    CS Hm ltac:(lra) HM k s s').
  destruct (C164_radius_update _ _ _ _ _ _ _ _ _ _ _ _ _ _ V HQ Hr HR HP) as (_ & RU).
  destruct (C78_states_are_consistent _ _ _ _ _ _ _ _ _ _ _ _ _ _ V) as (_ & _ & CC).
  assert (GEN : forall i sn, (i <= n)%nat -> nth_error (res_states r) (k + i) = Some sn ->
    F (st_x sn) - F xs <= k_hard o ^ i * (F (st_x s) - F xs) /\
    ((i < n)%nat -> length (st_x sn) = d /\ F (st_x sn) <= F (st_x s)) /\
    forall sn', (i < n)%nat -> nth_error (res_states r) (S (k + i)) = Some sn' ->
      r_radius (st_region s1) <= r_radius (st_region sn') <= max_radius (radius_o O)).
  2:{ intros sn Hn. now apply (GEN n sn). }
  assert (L0 : (0 < n)%nat -> length (st_x s) = d).
  { intros Hn. destruct (INF (S k) s1 ltac:(lia) H2) as (RO & _).
    destruct (region_proper d b Hd0 BD HNF (st_region s1) RO) as (rad & _ & _ & Lc & _).
    destruct (CC _ _ _ H1 H2) as [CE _]. congruence. }
  induction i as [|i IH]; intros sn Hi Hn.
  - rewrite Nat.add_0_r in *. rewrite H1 in Hn. injection Hn as <-. cbn [pow].
    split; [lra|]. split; [intros Hn; split; [now apply L0|lra]|].
    intros sn' _ Hs. rewrite H2 in Hs. injection Hs as <-. lra.
  - assert (exists sp, nth_error (res_states r) (k + i) = Some sp) as (sp & Hp).
    { destruct (nth_error (res_states r) (k + i)) eqn:E; [eauto|]. apply nth_error_None in E.
      assert (k + S i < length (res_states r))%nat by (apply nth_error_Some; congruence). lia. }
    destruct (IH sp ltac:(lia) Hp) as (G1 & G2 & G3). destruct (G2 ltac:(lia)) as [Lp Fp]. clear IH G2.
    rewrite Nat.add_succ_r in Hn. specialize (G3 sn ltac:(lia) Hn).
    assert (Gp : F xs <= F (st_x sp)).
    { destruct (list_eq_dec Req_EM_T (st_x sp) xs) as [->|Np]; [lra|]. pose proof (U _ Lp Np). lra. }
    assert (Ds : dist xs (st_x sp) < r_radius (st_region sn)).
    { eapply Rlt_le_trans; [apply (LV (st_x sp) Lp Fp)|]. lra. }
    destruct (IT (k + i)%nat sp sn Hp Hn (INF (S (k + i)) sn ltac:(lia) Hn) Ds) as (_ & Ln & RH & G). specialize (RH ltac:(lra)).
    split; [|split].
    + cbn [pow]. eapply Rle_trans; [exact G|]. rewrite Rmult_assoc. apply Rmult_le_compat_l; lra.
    + intros _. split; [easy|]. assert (k_hard o * (F (st_x sp) - F xs) <= 1 * (F (st_x sp) - F xs)) by (apply Rmult_le_compat_r; lra). lra.
    + intros sn' Hin Hs. rewrite Nat.add_succ_r in Hs.
      destruct (RU _ _ _ _ Hp Hn Hs) as (_ & _ & raw & ER & RA & RB & _). rewrite RH in RA, RB. cbn [rho_ge] in RA, RB.
      assert (Graw : r_radius (st_region sn) <= raw).
      { destruct (Rle_dec (rho_increase (radius_o O)) 1) as [Y1|N1];
          [destruct (Rle_dec (large_step (radius_o O) * r_radius (st_region sn)) (dist (st_x sn) (st_x sp))) as [Y2|N2]|].
        - rewrite RA by (split; assumption).
          pose proof (dist_nonneg xs (st_x sp)) as Dn.
          assert (r_radius (st_region sn) * 1 <= r_radius (st_region sn) * expansion_factor (radius_o O))
            by (apply Rmult_le_compat_l; lra). lra.
        - rewrite RB; [lra| |exact HD]. intros [_ Q]. now apply N2.
        - rewrite RB; [lra| |exact HD]. intros [Q _]. now apply N1. }
      rewrite ER. destruct G3 as [G3 G4]. split; [|apply Rmin_l]. apply Rmin_glb; [lra|]. eapply Rle_trans; [|apply Rmax_l]. lra.
Qed.

(** * Example *)

(** Residuals x0 - 1/2, x1 and 0, started at the origin with radius 1, default options of least squares
    problems without the stagnation test. *)
Definition rate_res (x : vec) : vec := [nth 0 x 0 - 1 / 2; nth 1 x 0; 0].
Definition rate_f (x : vec) : outcome := Ret (VV (map Fin (rate_res x))).
Definition rate_crit : criterion := fun _ args _ => Ok (map rate_f args).
Definition rate_q (k : nat) (x : fvec) : R := match k with 0%nat => x 0%nat - 1 / 2 | 1%nat => x 1%nat | _ => 0 end.
Definition rate_F (x : vec) : R := (nth 0 x 0 - 1 / 2) ^ 2 + nth 1 x 0 ^ 2.
Definition rate_config : config :=
  mkConfig false (mkConv false 0 0 0 0 0 0 0) (mkStop 1 2000 PInf)
    (mkRadiusOptions (/ 1000000) 1000000 (1 / 10) (1 / 10) (1 / 2) 2 (1 / 2) PInf)
    (mkNoiseOptions (6 / 10) (1 / 10) (7 / 10) (9 / 10) 1 30 (1 / 10)) 1 4 (mkStag 0 true 0 1 1)
    5 1 1 0.

Lemma rate_quiet : quiet_config rate_config.
Proof. constructor; cbn; try easy; try lia; lra. Qed.
Lemma rate_crit_good : good_criterion LeastSquares 3 rate_crit.
Proof.
  intros h args cores _. exists (map rate_f args).
  split; [easy|]. split; [apply map_length|]. apply Forall_forall. intros o Ho.
  apply in_map_iff in Ho as (x & <- & _). easy.
Qed.
Lemma rate_poly k : polynomial 2 Linear (rate_q k).
Proof.
  destruct k as [|[|k]]; [exists [- (1 / 2); 1; 0]|exists [0; 0; 1]|exists [0; 0; 0]]; (split; [reflexivity|]);
    intros x; unfold feature_row, rate_q; cbn [map seq]; repeat rewrite dot_cons; rewrite dot_nil_r; lra.
Qed.

Lemma rate_run : exists h r s s',
  tranquilo (builtin_components (ex_ext ls) ls_choices 2 3 rate_crit 1) rate_config LeastSquares 0 [0; 0] 1 (Some b56) = (h, Ok r) /\
  res_states r = [s; s'] /\ st_x s = [0; 0] /\ st_region s' = reg56 /\
    st_model_indices s' = [0; 1; 2; 3]%nat /\ get_xs_many h [0; 1; 2; 3]%Z = Ok ex_pts.
Proof.
  set (K := builtin_components (ex_ext ls) ls_choices 2 3 rate_crit 1). set (O := rate_config).
  assert (GK : good_components LeastSquares 2 3 K)
    by (apply C140_builtin_components_good; [apply ex_ext_dims|apply rate_crit_good]).
  destruct b56_ok as (BD & NF & IB & TS).
  destruct (tranquilo_goes LeastSquares 2 3 (Some b56) _ _ _ K O GK
    (builtin_able (ex_ext ls) ls_choices LeastSquares 2 3 (Some b56) rate_crit 1 (ex_ext_dims ls) (ex_ext_works ls)
       ltac:(lia) BD NF rate_crit_good ltac:(discriminate) (usable_workable _ _ ls_usable))
    (builtin_able_decider (ex_ext ls) ls_choices LeastSquares 2 3 (Some b56) rate_crit 1 (ex_ext_works ls)
       ltac:(lia) BD NF (usable_workable _ _ ls_usable) ls_usable ltac:(discriminate))
    rate_quiet TS BD 0 [0; 0] 1 ltac:(lia) ltac:(lia) eq_refl IB ltac:(lra) ltac:(left; cbn; lia))
    as (h & r & _ & _ & E & _).
  exists h, r.
  destruct (tranquilo_chain LeastSquares 2 3 K O GK 0 [0; 0] 1 (Some b56) h r ltac:(lia) ltac:(lia) eq_refl
    ltac:(cbn; lia) E)
    as (reg & st0 & h0 & E0 & l & z & MR & L0 & T0 & MF & A0 & I1 & I2 & I3 & _ & _ & _ & _ & _ & _ & _ & _ & _
        & CH & Hz & GZ & RSt & _ & _ & LL & _ & _ & EN).
  assert (reg = reg56) as ->.
  { pose proof reg56_proper as PR. unfold proper_region in PR. decompose [and] PR. congruence. }
  assert (NE0 : E0 <> []) by (intros ->; discriminate MF).
  assert (LL1 : length l = 1%nat).
  { cbn in LL. destruct EN as [Q|? ? ? ? Q|Q]; [exact Q|lia|lia]. }
  inversion CH as [a EA|a ap b0 l0 c0 LK CH' EA EL EC]; subst; [discriminate|].
  cbn in LL1. destruct l0; [|discriminate]. inversion CH'; subst. clear CH CH' LL LL1 EN.
  pose proof (lk_run _ _ _ _ _ _ _ _ LK) as R. cbn [n_t n_st n_n n_h] in R. change (n_evals_per_point0 O) with 1%Z in R.
  unfold iteration in R.
  apply mbind_inv in R as (hm & [w0 old] & EF & R).
  destruct (first_model_inv LeastSquares 2 3 K O GK _ _ _ _ _ _ _ _ _ L0 NE0 A0 EF) as (X1 & E1 & evs1 & fxs & idx & P1 & FF).
  destruct (first_model_last _ _ _ _ _ _ _ _ _ EF) as (h1 & FL).
  assert (old = [0%nat]) as ->.
  { assert (O1 : forall i, In i old <-> i = 0%nat).
    { intros i. rewrite (ff_old _ _ _ _ _ _ _ _ _ _ _ _ _ _ _ FF). split.
      - intros (x & Hx & _). destruct i as [|i]; [easy|]. cbn in Hx. now destruct i.
      - intros ->. exists [0; 0]. split; [easy|]. rewrite I2, I3. cbn [search_radius_factor O rate_config r_radius reg56].
        rewrite dist_self. lra. }
    pose proof (StronglySorted_lt_NoDup _ (ff_sorted _ _ _ _ _ _ _ _ _ _ _ _ _ _ _ FF)) as ND.
    destruct old as [|a [|b1 old]].
    - exfalso. now apply (proj2 (O1 0%nat) eq_refl).
    - f_equal. apply O1. now left.
    - exfalso. inversion ND as [|? ? NI _]; subst. apply NI. left.
      rewrite (proj1 (O1 a)) by (now left). now rewrite (proj1 (O1 b1)) by (right; now left). }
  pose proof (ff_filter _ _ _ _ _ _ _ _ _ _ _ _ _ _ _ FF) as Fil. cbn in Fil. injection Fil as <- <-.
  pose proof (ff_sample _ _ _ _ _ _ _ _ _ _ _ _ _ _ _ FF) as Sam.
  assert (NM : Z.to_nat (next_multiple (Z.max 0 (target_sample_size O - zlen [[0; 0]])) (batch_size O)) = 3%nat).
  { cbn [target_sample_size O rate_config batch_size zlen length].
    change (Z.max 0 (4 - zlen [[0; 0]])) with 3%Z.
    destruct (C35_next_multiple 3 1 ltac:(lia)) as (_ & Q & _). lia. }
  rewrite NM, I3 in Sam. cbn [K builtin_components k_sample] in Sam. apply sample_142 in Sam. subst X1.
  pose proof (ff_idx _ _ _ _ _ _ _ _ _ _ _ _ _ _ _ FF) as IX. cbn [length seq app] in IX.
  pose proof (ph_log _ _ _ _ _ _ _ _ _ _ _ _ _ _ _ P1) as LG.
  pose proof (ph_work _ _ _ _ _ _ _ _ _ _ _ _ _ _ _ P1) as WK.
  assert (NE1 : E0 ++ E1 <> []) by (destruct E0; [easy|discriminate]).
  cbn [app] in *. change [[0; 0]; [1; 0]; [0; 1]; [-1; 0]] with ex_pts in *.
  destruct (fit_and_solve_data LeastSquares 2 3 K _ _ _ _ _ _ _ LG NE1 (gw_nodup _ _ _ _ _ _ _ _ _ WK) (gw_lt _ _ _ _ _ _ _ _ _ WK) FL)
    as (_ & _ & _ & Re).
  (* no points are dropped or added *)
  rewrite I3 in Re. cbn [r_radius reg56] in Re.
  cbn [xdiv] in Re. destruct (Reqb 1 0) eqn:Z1; [apply Reqb_true in Z1; lra|]. clear Z1.
  apply mbind_inv in R as (h2 & w1 & ED & R). unfold drop_phase in ED.
  assert (LW : zlen (w_xs w0) = 4%Z).
  { rewrite (gw_xs _ _ _ _ _ _ _ _ _ WK), IX. reflexivity. }
  rewrite LW in ED. change (target_sample_size O <? 4)%Z with false in ED. apply mret_inv in ED as [-> ->].
  apply mbind_inv in R as (h3 & wk & EG & R).
  change (stag_phase K O 0%nat st0 1%Z w0) with (stag_loop K O 1%nat 0%nat 0%nat st0 1%Z w0) in EG. cbn [stag_loop] in EG. rewrite Re in EG.
  cbn [xlt O rate_config stag_o min_relative_step] in EG.
  match type of EG with context [Rltb ?a 0] => assert (NZ : Rltb a 0 = false) end.
  { apply Rltb_false. match goal with |- 0 <= dist ?a ?b / 1 => pose proof (dist_nonneg a b) end. lra. }
  rewrite NZ in EG. clear NZ.
  apply mret_inv in EG as [-> ->].
  apply mbind_inv in R as (h4 & nz & ENo & R). apply noise_estimates_inv in ENo as [-> _].
  apply mbind_inv in R as (h5 & acc & EA & R).
  destruct (decider_inv _ _ _ _ _ _ _ _ _ _ (cur_of st0) _ _ _ LG (gk_crit _ _ _ _ GK)
    (gw_dim _ _ _ _ _ _ _ _ _ WK) (proj1 (at_point_more _ [[1; 0]; [0; 1]; [-1; 0]] _ A0)) NE1
    (gk_decider _ _ _ _ GK _ _) EA) as (X2 & E2 & L4 & DC).
  apply mbind_inv in R as (h6 & [nn incr] & EAD & R).
  unfold adapt_n_evals in EAD. cbn [O rate_config noisy] in EAD. apply mret_inv in EAD as [-> _].
  inv_bind R. apply mret_inv in R as [Hh Ha]. rewrite Hh.
  injection Ha as -> _ _. cbn [map snd] in RSt. eexists _, _. split; [rewrite <- Hh; exact E|]. split; [exact RSt|]. split; [exact I2|].
  cbn [update_state st_region st_model_indices]. split; [exact I3|]. split; [exact IX|].
  change [0; 1; 2; 3]%Z with (map Z.of_nat [0; 1; 2; 3]%nat).
  assert (FL4 : Forall (fun i => (i < @length (list R) (ex_pts ++ X2))%nat) [0; 1; 2; 3]%nat)
    by (repeat (apply Forall_cons; [rewrite app_length; cbn [length ex_pts]; lia|]); apply Forall_nil).
  destruct (xs_many_log _ _ _ _ _ _ [0; 1; 2; 3]%nat L4 ltac:(discriminate) FL4) as (xs & Ex & _).
  rewrite Ex. now rewrite (xs_many_exact _ _ _ _ _ _ _ _ L4 ltac:(discriminate) FL4 Ex).
Qed.

Lemma rate_value y : length y = 2%nat -> value LeastSquares rate_f y = Fin (rate_F y).
Proof. intros L. destruct y as [|a [|c [|]]]; try discriminate. unfold value, rate_F. cbn. f_equal. ring. Qed.

Lemma rate_minimizer y : length y = 2%nat -> y <> [1 / 2; 0] -> rate_F [1 / 2; 0] < rate_F y.
Proof.
  intros L N. destruct y as [|a [|c [|]]]; try discriminate. unfold rate_F. cbn [nth].
  destruct (Req_EM_T a (1 / 2)) as [->|Na].
  - destruct (Req_EM_T c 0) as [->|Nc]; [now elim N|]. assert (0 < c * c) by (apply Rsqr_pos_lt in Nc; exact Nc). lra.
  - assert (0 < (a - 1 / 2) * (a - 1 / 2)) by (apply (Rsqr_pos_lt (a - 1 / 2)); lra). nra.
Qed.

Example C191_instance : exists h r s s',
  tranquilo (builtin_components (ex_ext ls) ls_choices 2 3 rate_crit 1) rate_config LeastSquares 0 [0; 0] 1 (Some b56) = (h, Ok r) /\
  nth_error (res_states r) 0 = Some s /\ nth_error (res_states r) 1 = Some s' /\ informed h ls_choices 2 (Some b56) s' /\
  (forall y, length y = 2%nat -> rate_F y <= rate_F (st_x s) -> dist [1 / 2; 0] y < r_radius (st_region s')) /\
  rate_F (st_x s') <= 1 / 5 * rate_F (st_x s).
Proof.
  destruct rate_run as (h & r & s & s' & E & RS & Sx & Sr & Si & GX).
  assert (V : valid_run LeastSquares 2 3 (builtin_components (ex_ext ls) ls_choices 2 3 rate_crit 1) rate_config 0 [0; 0] 1
    (Some b56) h r).
  { constructor; try easy; try lia. apply C140_builtin_components_good; [apply ex_ext_dims|apply rate_crit_good]. }
  assert (RO : region_of 2 (Some b56) reg56).
  { exists [0; 0], 1. pose proof reg56_proper as PR. unfold proper_region in PR. decompose [and] PR. auto. }
  destruct b56_ok as (BD & NF & IB & TS).
  assert (DT : deterministic (builtin_components (ex_ext ls) ls_choices 2 (ft_w LeastSquares 3) rate_crit 1) rate_f) by easy.
  assert (RE : forall y, length y = 2%nat -> recorded (rate_f y) = map (fun k => Fin (rate_q k (fun_of y))) (seq 0 (ft_w LeastSquares 3))).
  { intros y _. reflexivity. }
  assert (INF : informed h ls_choices 2 (Some b56) s').
  { split; [now rewrite Sr|]. split; [now rewrite Sr|]. split.
    - destruct (C178_exact_steps (ex_ext ls) ls_choices LeastSquares 2 3 rate_crit 1 rate_config 0 [0; 0] 1 (Some b56) h r
        rate_f rate_q V) with (k := 0%nat) (s := s) (s' := s') (pts := ex_pts)
        as (m & sub & e & u & EM & PM & SV & _);
        rewrite ?RS, ?Sr, ?Si; try easy.
      + apply ex_ext_dims.
      + intros. apply ls_ok.
      + intros k _. apply rate_poly.
      + apply ex_determining.
      + destruct (model_of_region _ _ _ _ _ _ _ _ _ _ _ _ _ _ V 0%nat s s' ltac:(now rewrite RS) ltac:(now rewrite RS))
          as (xs' & fv & old & v & KF & KA).
        cbn [builtin_components k_fit k_agg] in KF, KA. rewrite EM in KA.
        destruct (aggregated_symm (ex_ext ls) ls_choices LeastSquares _ _ _ _ _ _ _ _ eq_refl ltac:(now split) KF KA) as (hm & Eh & Sy).
        rewrite Sr in SV, PM. rewrite EM in SV. unfold builtin_solve in SV. change (misshapen reg56) with false in SV. cbn [orb] in SV.
        destruct (Nat.eqb_spec (sm_n m) (length (r_center reg56))) as [N|]; [|discriminate]. clear SV. cbn in N.
        exists m, hm. split; [exact EM|]. split; [exact Eh|]. rewrite N in *.
        assert (P : forall a c, sm_c m + (sm_g m 0%nat * a + sm_g m 1%nat * c) + / 2 *
          (hm 0%nat 0%nat * a * a + hm 0%nat 1%nat * a * c + hm 1%nat 0%nat * a * c + hm 1%nat 1%nat * c * c) = (a - 1 / 2) ^ 2 + c ^ 2).
        { intros a c. pose proof (PM [a; c] eq_refl) as Q. rewrite rate_value in Q by easy. injection Q as Q.
          rewrite (predict_qval m hm _ Eh), N in Q. unfold rate_F in Q. cbn [nth] in Q. rewrite <- Q.
          unfold qval, map_to_unit, map_to_unit_sphere, fun_of. cbn [reg56 r_shape r_center r_radius map2 nth bsum]. field. }
        assert (S01 := Sy 0%nat 1%nat ltac:(lia) ltac:(lia)).
        pose proof (P 0 0) as P0. pose proof (P 1 0) as P1. pose proof (P (-1) 0) as P2. pose proof (P 0 1) as P3.
        pose proof (P 0 (-1)) as P4. pose proof (P 1 1) as P5.
        assert (G0 : sm_g m 0%nat = -1) by lra. assert (G1 : sm_g m 1%nat = 0) by lra.
        assert (H00 : hm 0%nat 0%nat = 2) by lra. assert (H11 : hm 1%nat 1%nat = 2) by lra.
        assert (H01 : hm 0%nat 1%nat = 0) by lra. assert (H10 : hm 1%nat 0%nat = 0) by lra.
        assert (TH : zero_threshold 2 hm <= / 1000000).
        { apply zero_threshold_small. unfold inf_norm, row_sum. cbn [vmax bsum]. rewrite H00, H01, H10, H11, Rabs_R0.
          rewrite Rabs_right by lra. unfold Rmax. destruct Rle_dec; lra. }
        assert (fnorm 2 (sm_g m) = 1) as ->; [|lra].
        apply fnorm_2; [lra|]. rewrite fsq_2, G0, G1. lra.
    - exists ex_pts. rewrite Si. split; [exact GX|]. split; [discriminate|]. split; [exact ex_determining|]. exact I. }
  assert (LV : forall y, length y = 2%nat -> rate_F y <= rate_F (st_x s) -> dist [1 / 2; 0] y < r_radius (st_region s')).
  { intros y Ly Fy. destruct y as [|a [|c [|]]]; try discriminate. rewrite Sr, Sx in *. unfold rate_F in Fy. cbn [nth] in Fy.
    cbn [r_radius reg56]. unfold dist, norm.
    assert (Q : sqrt (sumsq (vsub [1 / 2; 0] [a; c])) < sqrt 1); [|now rewrite sqrt_1 in Q].
    apply sqrt_lt_1_alt. split.
    - apply sumsq_nonneg.
    - unfold sumsq, vsub. cbn [map2]. repeat rewrite dot_cons. rewrite dot_nil_r. lra. }
  exists h, r, s, s'. split; [exact E|]. split; [now rewrite RS|]. split; [now rewrite RS|]. split; [exact INF|]. split; [exact LV|].
  assert (Z0 : rate_F [1 / 2; 0] = 0) by (unfold rate_F; cbn [nth]; lra).
  assert (Q1 : rate_F (st_x s') - rate_F [1 / 2; 0] <= k_hard default_gopts ^ 1 * (rate_F (st_x s) - rate_F [1 / 2; 0])).
  { apply (C191_linear_rate (ex_ext ls) ls_choices LeastSquares 2 3 rate_crit 1 rate_config 0 [0; 0] 1 (Some b56) h r
      rate_f rate_q rate_F [1 / 2; 0] default_gopts 20) with (k := 0%nat) (s1 := s'); try easy; try (cbn; lia); try (cbn; lra).
    - apply ex_ext_dims.
    - intros. apply ls_ok.
    - intros k _. apply rate_poly.
    - apply rate_value.
    - apply rate_minimizer.
    - now rewrite RS.
    - now rewrite RS.
    - rewrite Sr. cbn. lra.
    - intros j sj Hj Hs. assert (j = 1%nat) as -> by lia. rewrite RS in Hs. cbn in Hs. injection Hs as <-. exact INF.
    - now rewrite RS. }
  rewrite Z0 in Q1. cbn [pow] in Q1. unfold default_gopts in Q1. cbn [k_hard] in Q1. lra.
Qed.
