(** Property C189: small gradients at the end of a run. *)
From Coq Require Import Reals List Arith ZArith Bool Lia Lra Psatz.
From Verif Require Import Base XR Vec FVec HistoryModel HistorySpec HistoryProofs LogSpec LogProofs WrapModel VolumeModel
  RegionModel Prop_Region ModelsModel Prop_Models FitModel Prop_Fit Prop_Poised SubproblemModel Prop_Subproblem SampleModel AcceptModel
  AcceptProofs Prop_Accept AdjustModel MainModel MainProofs MainPhases MainLoop MainProgress Prop_Main Prop_Main2 Prop_Main3 Prop_Main4
  Prop_Step Prop_Gqtpar2 Prop_Budget BuiltinModel Prop_Builtin Prop_Builtin2 LstsqProofs Prop_Reject Prop_Exact.
Import ListNotations.
Open Scope R_scope.

(** * C189 - the gradient at the end *)

(** The point [x] with [t] added to coordinate [i], and the gradient of [F] at [x]. *)
Definition moved (x : vec) (i : nat) (t : R) : vec :=
  map (fun j => nth j x 0 + if (j =? i)%nat then t else 0) (seq 0 (length x)).
Definition gradient_at (F : vec -> R) (x gr : vec) : Prop :=
  length gr = length x /\
  forall i, (i < length x)%nat -> derivable_pt_lim (fun t => F (moved x i t)) 0 (nth i gr 0).

Lemma moved_length x i t : length (moved x i t) = length x.
Proof. unfold moved. now rewrite map_length, seq_length. Qed.
Lemma moved_nth x i t j : (j < length x)%nat ->
  nth j (moved x i t) 0 = nth j x 0 + if (j =? i)%nat then t else 0.
Proof.
  intros H. unfold moved. rewrite nth_indep with (d' := nth 0%nat x 0 + if (0 =? i)%nat then t else 0) by (now rewrite map_length, seq_length).
  rewrite (map_nth (fun j => nth j x 0 + if (j =? i)%nat then t else 0)), seq_nth; auto.
Qed.

Lemma bsum_single n f i : (i < n)%nat -> (forall j, (j < n)%nat -> j <> i -> f j = 0) -> bsum n f = f i.
Proof.
  induction n as [|n IH]; intros Hi Hz; [lia|]. cbn [bsum].
  destruct (Nat.eq_dec i n) as [->|N].
  - assert (Z : bsum n f = 0).
    { clear IH Hi. assert (Hz' : forall j, (j < n)%nat -> f j = 0) by (intros; apply Hz; lia). clear Hz.
      induction n as [|m IHm]; [reflexivity|]. cbn [bsum]. rewrite IHm, Hz' by (auto; intros; apply Hz'; lia). lra. }
    rewrite Z. lra.
  - rewrite IH, (Hz n) by (auto; try lia; intros; apply Hz; lia). lra.
Qed.

(** A quadratic along one direction. *)
Lemma derivable_quadratic a b c : derivable_pt_lim (fun t => a + b * t + c * (t * t)) 0 b.
Proof.
  intros eps He. assert (Hc : 0 < Rabs c + 1) by (pose proof (Rabs_pos c); lra).
  exists (mkposreal _ (Rdiv_lt_0_compat _ _ He Hc)). cbn [pos]. intros h Hh HB.
  replace ((a + b * (0 + h) + c * ((0 + h) * (0 + h)) - (a + b * 0 + c * (0 * 0))) / h - b) with (c * h) by (field; easy).
  rewrite Rabs_mult. apply (Rmult_lt_compat_l (Rabs c + 1)) in HB; [|easy].
  replace ((Rabs c + 1) * (eps / (Rabs c + 1))) with eps in HB by (field; lra).
  pose proof (Rabs_pos h). lra.
Qed.

Lemma derivable_pt_lim_ext f g x l : (forall t, f t = g t) -> derivable_pt_lim f x l -> derivable_pt_lim g x l.
Proof.
  intros E H eps He. destruct (H eps He) as [dl Hd]. exists dl. intros t T1 T2. rewrite <- !E. auto.
Qed.

(** The linear terms of an exact model. *)
Lemma exact_linear_terms m reg cen (sc : nat -> R) F gr : sm_n m = length cen ->
  (forall y i, length y = length cen -> (i < length cen)%nat ->
     sc i <> 0 /\ fun_of (map_to_unit reg y) i = (fun_of y i - fun_of cen i) / sc i) ->
  (forall y, length y = length cen -> predict_scalar m (fun_of (map_to_unit reg y)) = F y) ->
  gradient_at F cen gr -> forall i, (i < length cen)%nat -> sm_g m i = sc i * nth i gr 0.
Proof.
  intros Hn HU P [Lg G] i Hi.
  assert (Hr : sc i <> 0) by (apply (HU cen i eq_refl Hi)).
  assert (U : forall t j, (j < length cen)%nat -> fun_of (map_to_unit reg (moved cen i t)) j = if (j =? i)%nat then t / sc i else 0).
  { intros t j Hj. destruct (HU (moved cen i t) j (moved_length _ _ _) Hj) as [Hs ->]. unfold fun_of.
    rewrite moved_nth by easy. destruct (Nat.eqb_spec j i) as [->|]; field; easy. }
  set (q := match sm_h m with None => 0 | Some h => h i i / 2 end).
  assert (E : forall t, sm_c m + (sm_g m i / sc i) * t + (q / (sc i * sc i)) * (t * t) = F (moved cen i t)).
  { intros t. rewrite <- P by apply moved_length. unfold predict_scalar.
    assert (E1 : fdot (sm_n m) (fun_of (map_to_unit reg (moved cen i t))) (sm_g m) = t / sc i * sm_g m i).
    { unfold fdot. rewrite Hn, (bsum_single _ _ i Hi).
      - rewrite U, Nat.eqb_refl by easy. reflexivity.
      - intros j Hj N. rewrite U by easy. apply Nat.eqb_neq in N. rewrite N. lra. }
    rewrite E1. unfold q. destruct (sm_h m) as [h|].
    - assert (E2 : fdot (sm_n m) (fvm (sm_n m) (fun_of (map_to_unit reg (moved cen i t))) h)
        (fun_of (map_to_unit reg (moved cen i t))) = t / sc i * h i i * (t / sc i)).
      { unfold fdot. rewrite Hn, (bsum_single _ _ i Hi).
        - rewrite U, Nat.eqb_refl by easy. f_equal. unfold fvm. rewrite (bsum_single _ _ i Hi).
          + rewrite U, Nat.eqb_refl by easy. reflexivity.
          + intros j Hj N. rewrite U by easy. apply Nat.eqb_neq in N. rewrite N. lra.
        - intros j Hj N. rewrite U by easy. apply Nat.eqb_neq in N. rewrite N. lra. }
      rewrite E2. field. easy.
    - field. easy. }
  pose proof (uniqueness_limite _ _ _ _ (G i Hi) (derivable_pt_lim_ext _ _ _ _ E (derivable_quadratic _ _ _))) as Q.
  rewrite Q. field. easy.
Qed.

Lemma bsum_norm n (gr : vec) : length gr = n -> bsum n (fun i => nth i gr 0 * nth i gr 0) = dot gr gr.
Proof.
  revert n. induction gr as [|a gr IH] using rev_ind; intros n L; subst n; [reflexivity|].
  rewrite app_length, Nat.add_comm. cbn [length Nat.add bsum].
  rewrite app_nth2, Nat.sub_diag by lia. cbn [nth].
  assert (E : bsum (length gr) (fun i => nth i (gr ++ [a]) 0 * nth i (gr ++ [a]) 0) = dot gr gr).
  { rewrite <- (IH _ eq_refl). apply bsum_ext. intros i Hi. now rewrite app_nth1. }
  rewrite E. clear. induction gr as [|b gr IH]; cbn [app]; rewrite ?dot_cons; [unfold dot; cbn; lra|lra].
Qed.

(** The half side lengths of the region: the radius for spheres. *)
Definition half_widths (reg : region) : vec :=
  match r_shape reg with
  | Sphere => map (fun _ => r_radius reg) (r_center reg)
  | Cube => map2 (fun l u => (u - l) / 2) (r_cube_lower reg) (r_cube_upper reg)
  end.

Lemma half_widths_scale d reg i : misshapen reg = false -> length (r_center reg) = d -> (i < d)%nat ->
  length (half_widths reg) = d /\ length (effective_center reg) = d /\
  nth i (half_widths reg) 0 = scale_at (scale_of (effective_radius reg)) i.
Proof.
  intros M L Hi. apply misshapen_false in M as [M1 M2]. unfold half_widths, effective_radius, effective_center.
  destruct (r_shape reg); cbn [scale_of scale_at].
  - rewrite map_length. split; [easy|]. split; [easy|].
    rewrite nth_indep with (d' := (fun _ : R => r_radius reg) 0) by (now rewrite map_length, L).
    exact (map_nth (fun _ : R => r_radius reg) (r_center reg) 0 i).
  - split; [rewrite map2_length; lia|]. split; [rewrite map2_length; lia|]. reflexivity.
Qed.

(** Exact models: the norm of the linear terms is the norm of the gradient at the effective center of
    the region, with coordinates measured in half side lengths of the region. *)
Theorem C189_gradient_norm :
  forall X ch ft d w crit n_cores O pad x r0 b h r f q F gr,
    valid_run ft d w (builtin_components X ch d (ft_w ft w) crit n_cores) O pad x r0 b h r ->
    deterministic (builtin_components X ch d (ft_w ft w) crit n_cores) f ->
    noisy O = false -> n_evals_per_point0 O = 1%Z -> (n_evals_at_start O <= 1)%Z -> ch_decider ch = DecClassic ->
    ext_dims d X -> (forall N p A b, is_lstsq N p A b (e_lstsq X N p A b)) ->
    ch_residualize ch = false -> exact_aggregator ft ch -> bounds_dim d b -> no_fixed b ->
    (forall y, length y = d -> recorded (f y) = map (fun k => Fin (q k (fun_of y))) (seq 0 (ft_w ft w))) ->
    (forall k, (k < ft_w ft w)%nat -> polynomial d (ch_type ch) (q k)) ->
    (forall y, length y = d -> value ft f y = Fin (F y)) ->
    forall k s s' pts, nth_error (res_states r) k = Some s -> nth_error (res_states r) (S k) = Some s' ->
    region_of d b (st_region s') ->
    get_xs_many h (map Z.of_nat (st_model_indices s')) = Ok pts -> pts <> [] ->
    determining d (ch_type ch) pts -> exact_fitter ch d (length pts) ->
    gradient_at F (effective_center (st_region s')) gr ->
    builtin_gnorm (st_model s') = Fin (norm (map2 Rmult (half_widths (st_region s')) gr)).
Proof.
  intros X ch ft d w crit n_cores O pad x r0 b h r f q F gr V DF HQ HN HS HC ED LS NR AG BD HNF RE PQ VF k s s' pts H1 H2 RO GX NP DET EF G.
  pose proof (vr_d _ _ _ _ _ _ _ _ _ _ _ V) as Hd0.
  destruct (C178_exact_steps X ch ft d w crit n_cores O pad x r0 b h r f q V DF HQ HN HS HC ED LS NR AG BD HNF RE PQ
    k s s' pts H1 H2 RO GX NP DET EF) as (m & sub & e & u & EM & PM & SV & _).
  destruct (region_proper d b Hd0 BD HNF (st_region s') RO) as (rad & PR & _ & Lc & MS & DG).
  rewrite EM in SV. unfold builtin_solve in SV. rewrite MS in SV. cbn [orb] in SV.
  destruct (Nat.eqb_spec (sm_n m) (length (r_center (st_region s')))) as [N|]; [|discriminate]. clear SV.
  rewrite Lc in N.
  assert (Hd : (0 < d)%nat) by lia.
  destruct (half_widths_scale d _ 0 MS Lc Hd) as (L1 & L2 & _).
  rewrite EM. unfold builtin_gnorm. f_equal. unfold fnorm, norm. f_equal. unfold fsq, fdot, sumsq. rewrite N.
  destruct (G) as [Lg _]. rewrite <- (bsum_norm d) by (rewrite map2_length; lia).
  apply bsum_ext. intros i Hi. rewrite map2_nth with (a := 0) (b := 0) by lia.
  rewrite (exact_linear_terms m (st_region s') (effective_center (st_region s'))
     (fun i => nth i (half_widths (st_region s')) 0) F gr); try easy.
  - congruence.
  - intros y j Ly Hj. rewrite L2 in Hj. destruct (half_widths_scale d _ j MS Lc Hj) as (_ & _ & ->).
    apply to_unit_effective; auto; try congruence; lia.
  - intros y Ly. specialize (PM y ltac:(lia)). rewrite VF in PM by lia. now injection PM.
  - lia.
Qed.

Lemma norm_scaled a v : 0 <= a -> norm (map2 Rmult (map (fun _ => a) v) v) = a * norm v.
Proof.
  intros Ha. unfold norm, sumsq.
  assert (E : dot (map2 Rmult (map (fun _ => a) v) v) (map2 Rmult (map (fun _ => a) v) v) = (a * a) * dot v v).
  { induction v as [|x v IH]; cbn [map map2]; rewrite ?dot_cons; [unfold dot; cbn; lra|rewrite IH; lra]. }
  rewrite E, sqrt_mult_alt by nra. f_equal. now apply sqrt_square.
Qed.

Lemma map2_const_l {A} (f : R -> R -> R) a (v : list A) w : length v = length w ->
  map2 f (map (fun _ => a) v) w = map2 f (map (fun _ => a) w) w.
Proof.
  revert w. induction v as [|x v IH]; intros [|y w] L; try discriminate; [reflexivity|].
  cbn [map map2]. f_equal. apply IH. now injection L.
Qed.

Lemma gtol_messages {VM SM CV} (K : components VM SM CV) old new o g m :
  k_gnorm K (st_model new) = Fin g -> is_converged K old new o = (true, Some m) ->
  (m = MsgGtolAbs -> g <= gtol_abs o) /\ (m = MsgGtolRel -> g / Rmax g 1 <= gtol_rel o).
Proof.
  intros G. unfold is_converged. rewrite G, py_max1_fin, xdiv_max1.
  intros H. split; intros ->.
  - revert H. destruct (xle (Fin (g / Rmax g 1)) _); [discriminate|].
    destruct (xle (Fin g) (Fin (gtol_abs o))) eqn:E; [intros _; now apply Rleb_true in E|].
    repeat (match goal with |- context[xle ?a ?b] => destruct (xle a b) end; [discriminate|]). discriminate.
  - revert H. destruct (xle (Fin (g / Rmax g 1)) (Fin (gtol_rel o))) eqn:E; [intros _; now apply Rleb_true in E|].
    repeat (match goal with |- context[xle ?a ?b] => destruct (xle a b) end; [discriminate|]). discriminate.
Qed.

(** C189 (partial): with exact models, a run that reports a small gradient has at the center of its last
    region (the point before the last step) a gradient whose norm times the radius is small.  Missing: the
    gradient itself is small at the solution, see below. *)
Theorem C189_small_gradient_partial :
  forall X ch ft d w crit n_cores O pad x r0 b h r f q F gr,
    valid_run ft d w (builtin_components X ch d (ft_w ft w) crit n_cores) O pad x r0 b h r ->
    deterministic (builtin_components X ch d (ft_w ft w) crit n_cores) f ->
    noisy O = false -> n_evals_per_point0 O = 1%Z -> (n_evals_at_start O <= 1)%Z -> ch_decider ch = DecClassic ->
    ext_dims d X -> (forall N p A b, is_lstsq N p A b (e_lstsq X N p A b)) ->
    ch_residualize ch = false -> exact_aggregator ft ch -> bounds_dim d b -> no_fixed b ->
    (forall y, length y = d -> recorded (f y) = map (fun k => Fin (q k (fun_of y))) (seq 0 (ft_w ft w))) ->
    (forall k, (k < ft_w ft w)%nat -> polynomial d (ch_type ch) (q k)) ->
    (forall y, length y = d -> value ft f y = Fin (F y)) ->
    forall pre s s' pts, res_states r = pre ++ [s; s'] ->
    region_of d b (st_region s') -> r_shape (st_region s') = Sphere ->
    get_xs_many h (map Z.of_nat (st_model_indices s')) = Ok pts -> pts <> [] ->
    determining d (ch_type ch) pts -> exact_fitter ch d (length pts) ->
    gradient_at F (st_x s) gr -> res_converged r = true ->
    (res_message r = Some MsgGtolAbs -> r_radius (st_region s') * norm gr <= gtol_abs (conv_o O)) /\
    (res_message r = Some MsgGtolRel -> gtol_rel (conv_o O) < 1 ->
       r_radius (st_region s') * norm gr <= gtol_rel (conv_o O)).
Proof.
  intros X ch ft d w crit n_cores O pad x r0 b h r f q F gr V DF HQ HN HS HC ED LS NR AG BD HNF RE PQ VF pre s s' pts RS RO SH GX NP DET EF G CV.
  assert (H1 : nth_error (res_states r) (length pre) = Some s) by (rewrite RS, nth_error_app2, Nat.sub_diag by lia; reflexivity).
  assert (H2 : nth_error (res_states r) (S (length pre)) = Some s').
  { rewrite RS, nth_error_app2 by lia. replace (S (length pre) - length pre)%nat with 1%nat by lia. reflexivity. }
  destruct (C78_states_are_consistent _ _ _ _ _ _ _ _ _ _ _ _ _ _ V) as (_ & _ & CS).
  destruct (CS _ _ _ H1 H2) as [CE _].
  assert (G' : gradient_at F (effective_center (st_region s')) gr) by (unfold effective_center; now rewrite SH, CE).
  pose proof (C189_gradient_norm X ch ft d w crit n_cores O pad x r0 b h r f q F gr V DF HQ HN HS HC ED LS NR AG BD HNF RE PQ VF
    _ s s' pts H1 H2 RO GX NP DET EF G') as GN.
  assert (Hr : 0 < r_radius (st_region s')).
  { destruct RO as (c & rad & _ & _ & Hr & M). destruct (make_region_inv _ _ _ _ M) as (_ & _ & _ & -> & _). exact Hr. }
  assert (EN : norm (map2 Rmult (half_widths (st_region s')) gr) = r_radius (st_region s') * norm gr).
  { unfold half_widths. rewrite SH, map2_const_l; [apply norm_scaled; lra|]. rewrite CE. symmetry. apply G. }
  rewrite EN in GN.
  destruct (C86_loop_reports_convergence _ _ _ _ _ _ _ _ _ _ _ _ _ _ V) as (LC & _).
  destruct (LC CV) as (_ & pre' & old & new & m & RS' & _ & IC & MSG).
  rewrite RS in RS'. change [s; s'] with ([s] ++ [s']) in RS'. change [old; new] with ([old] ++ [new]) in RS'.
  rewrite !app_assoc in RS'. apply app_inj_tail in RS' as [RS' <-]. apply app_inj_tail in RS' as [_ <-].
  destruct (gtol_messages (builtin_components X ch d (ft_w ft w) crit n_cores) s s' (conv_o O) _ m GN IC) as [M1 M2].
  rewrite MSG. split.
  - intros [= ->]. now apply M1.
  - intros [= ->] Hlt. specialize (M2 eq_refl). set (g := r_radius (st_region s') * norm gr) in *.
    destruct (Rle_or_lt 1 g) as [Hg|Hg].
    + rewrite Rmax_left in M2 by lra. replace (g / g) with 1 in M2 by (field; lra). lra.
    + rewrite Rmax_right in M2 by lra. lra.
Qed.

(** * The gradient at the solution *)

(** One parameter, the criterion (x - B)^2: its exact model in the unit region and the best point of the region. *)
Definition away (B : R) (x : vec) : R := (hd 0 x - B) * (hd 0 x - B).
Definition exact_model (B : R) (reg : region) : smodel :=
  mkS 1 (away B (r_center reg)) (fun _ => 2 * (hd 0 (r_center reg) - B) * r_radius reg)
    (Some (fun _ _ => 2 * (r_radius reg * r_radius reg))) (MScalar 1) fzero.
Definition best_step (B : R) (reg : region) : vec :=
  map (fun c => Rmax (c - r_radius reg) (Rmin (c + r_radius reg) B)) (r_center reg).
Definition ideal_components (B : R) : components smodel smodel unit :=
  mkComp (fun _ args _ => Ok (map (fun x => Ret (VS (Fin (away B x)))) args)) 1
    (fun _ reg => exact_model B reg) (fun _ _ reg _ => Ok (exact_model B reg)) (fun m => Ok m)
    (fun _ reg => Ok (mkSub (best_step B reg) (Fin (away B (r_center reg) - away B (best_step B reg)))))
    (fun m => Fin (fnorm (sm_n m) (sm_g m))) (fun _ _ => center_sampler)
    (fun _ _ _ _ xs is => Ok (xs, is)) (fun _ _ => Classic)
    (fun _ _ => Ok (Fin 1)) (fun _ _ => Ok tt) (fun _ _ _ _ _ _ => Ok []).
Definition ideal_config (tol : R) : config :=
  mkConfig false (mkConv false 0 tol 0 0 0 0 0) (mkStop 10 100 PInf) default_radius_options
    (mkNoiseOptions 1 1 1 1 1 5 1) 1 3 (mkStag (1/2) true (1/2) 1 1) 4 1 1 0.

Lemma ideal_good B : good_components Scalar 1 1 (ideal_components B).
Proof.
  split; cbn [ideal_components k_crit k_sample k_solve k_filter k_decider].
  - intros h args cores _. eexists. split; [reflexivity|]. split; [apply map_length|]. apply Forall_map, Forall_forall. easy.
  - intros _ _. apply center_sampler_dim.
  - intros sm reg s L [= <-]. cbn [sub_x]. unfold best_step. now rewrite map_length.
  - intros h st target n xs is xs' is' HL ND H. injection H as <- <-. split; [easy|]. split; [easy|].
    apply incl_tl, incl_refl.
  - intros t v. exact I.
Qed.
Lemma ideal_total B : total_components Scalar 1 None (ideal_components B).
Proof.
  split; cbn [ideal_components k_crit k_sample k_solve k_filter k_decider k_fit k_agg k_variance k_cov k_rho_noise]; eauto.
  - intros t j h reg n m _. unfold center_sampler. eauto.
  - intros sm reg. eexists. split; [reflexivity|]. discriminate.
  - split; exact I.
Qed.

Lemma region_of_line reg : region_of 1 None reg -> exists c rad, 0 < rad /\ r_center reg = [c] /\ r_radius reg = rad /\ r_shape reg = Sphere.
Proof.
  intros (c & rad & L & _ & Hr & M). destruct (make_region_inv _ _ _ _ M) as (v & A & -> & -> & _ & -> & _).
  cbn in A. injection A as <-. destruct c as [|c [|]]; try discriminate. exists c, rad. auto.
Qed.
Lemma dist_line a c : dist [a] [c] = Rabs (a - c).
Proof. unfold dist, norm, sumsq, vsub. cbn [map2]. rewrite dot_cons, dot_nil_r, Rplus_0_r. exact (sqrt_Rsqr_abs (a - c)). Qed.

(** For every tolerance and every slope there is a run with exact models and exact steps that stops because of the
    gradient tolerance, but the slope at its solution is larger. *)
Theorem C189_small_gradient_refuted :
  forall tol B, 0 < tol -> 1 <= B ->
  exists (K : components smodel smodel unit) O r0 h r F,
    valid_run Scalar 1 1 K O 0 [0] r0 None h r /\ 0 < r0 /\
    deterministic K (fun y => Ret (VS (Fin (F y)))) /\
    (forall xs fv reg old, region_of 1 None reg -> exists m, k_fit K xs fv reg old = Ok m /\ k_agg K m = Ok m /\
       forall y, length y = 1%nat -> predict_scalar m (fun_of (map_to_unit reg y)) = F y) /\
    (forall m reg, region_of 1 None reg -> exists s, k_solve K m reg = Ok s /\ in_region reg (sub_x s) /\
       forall y, in_region reg y -> F (sub_x s) <= F y) /\
    (forall m, k_gnorm K m = Fin (fnorm (sm_n m) (sm_g m))) /\
    gtol_abs (conv_o O) = tol /\ res_converged r = true /\ res_message r = Some MsgGtolAbs /\
    exists g, gradient_at F (solution_x r) [g] /\ B <= Rabs g.
Proof.
  intros tol B Ht HB. set (r0 := Rmin (1 / 4) (tol / (2 * B))).
  assert (Q : 0 < tol / (2 * B)) by (apply Rdiv_lt_0_compat; lra).
  assert (Hr0 : 0 < r0 <= 1 / 4) by (unfold r0; split; [apply Rmin_glb_lt; lra|apply Rmin_l]).
  assert (Hr1 : 2 * B * r0 <= tol).
  { apply Rle_trans with (2 * B * (tol / (2 * B))); [apply Rmult_le_compat_l; [lra|apply Rmin_r]|].
    apply Req_le. field. lra. }
  destruct (tranquilo_go Scalar 1 1 None _ (ideal_config tol) (ideal_good B) (ideal_total B)
    ltac:(split; cbn; lia) 0%R [0] r0 ltac:(lia) ltac:(lia) eq_refl) as (h & r & H).
  assert (V : valid_run Scalar 1 1 (ideal_components B) (ideal_config tol) 0 [0] r0 None h r)
    by (split; [apply ideal_good|lia|lia|reflexivity|cbn; lia|exact H]).
  exists (ideal_components B), (ideal_config tol), r0, h, r, (away B).
  split; [exact V|]. split; [lra|]. split; [intros h' args cores; reflexivity|].
  split.
  { intros xs fv reg old RO. exists (exact_model B reg). split; [reflexivity|]. split; [reflexivity|].
    destruct (region_of_line _ RO) as (c & rad & Hr & E1 & E2 & E3). intros [|y [|]] L; try discriminate.
    unfold predict_scalar, exact_model, map_to_unit, away, fun_of. rewrite E3, E1, E2.
    cbn [sm_n sm_c sm_g sm_h map_to_unit_sphere map2 hd]. unfold map_to_unit_sphere, fdot, fvm. cbn [map2 bsum nth]. field. lra. }
  split.
  { intros m reg RO. eexists. split; [reflexivity|]. cbn [sub_x].
    destruct (region_of_line _ RO) as (c & rad & Hr & E1 & E2 & E3). unfold in_region, best_step. rewrite E3, E1, E2. cbn [map].
    set (z := Rmax (c - rad) (Rmin (c + rad) B)). split.
    - split; [reflexivity|]. rewrite dist_line. unfold z. apply Rabs_le.
      unfold Rmax, Rmin. repeat destruct (Rle_dec _ _); lra.
    - intros [|y [|]] [L D]; try discriminate. rewrite dist_line in D. unfold away. cbn [hd].
      assert (DA : - rad <= y - c <= rad) by (unfold Rabs in D; destruct (Rcase_abs (y - c)); lra). clear D.
      apply (Rsqr_le_abs_1 (z - B) (y - B)).
      unfold z, Rmax, Rmin, Rabs. repeat destruct (Rle_dec _ _); repeat destruct (Rcase_abs _); lra. }
  split; [reflexivity|]. split; [reflexivity|].
  destruct (C78_states_are_consistent _ _ _ _ _ _ _ _ _ _ _ _ _ _ V) as (_ & (s & S0 & Sx & _) & CS).
  assert (L2 : (2 <= length (res_states r))%nat).
  { clear - V. open_run V. rewrite RS. cbn [length]. rewrite map_length. destruct EN; cbn in *; lia. }
  destruct (nth_error (res_states r) 1) as [s'|] eqn:S1; [|apply nth_error_None in S1; lia].
  destruct (C163_iteration _ _ _ _ _ _ _ _ _ _ _ _ _ _ (fun y => Ret (VS (Fin (away B y)))) V
    ltac:(intros h' args cores; reflexivity) eq_refl eq_refl ltac:(cbn; lia) ltac:(reflexivity) 0 s s' S0 S1)
    as (sub & SV & FV & A & _ & Acc & _).
  destruct (C164_radius_update _ _ _ _ _ _ _ _ _ _ _ _ _ _ V eq_refl (proj1 Hr0) ltac:(cbn; lra) ltac:(reflexivity)) as (R0 & _).
  destruct (R0 s' (or_intror S1)) as (RR & RC & _). clear R0.
  cbn [ideal_components k_solve] in SV. injection SV as <-. cbn [sub_x sub_ei] in *.
  assert (BS : best_step B (st_region s') = [r0]).
  { unfold best_step. rewrite RR, RC. cbn [map]. f_equal. rewrite Rmin_left, Rmax_right; lra. }
  rewrite BS in *. rewrite Sx in *.
  destruct (A (away B [0]) (away B [r0]) _ eq_refl eq_refl eq_refl) as [_ AC].
  assert (AT : st_accepted s' = true) by (apply AC; unfold away; cbn; nra).
  destruct (Acc AT) as [SX' FX'].
  assert (MD : st_model s' = exact_model B (st_region s')).
  { clear - V S1. open_run V. rewrite RS in S1. destruct l as [|[a ap] l]; [discriminate|]. injection S1 as <-.
    inversion CH as [|a' ap' b' l' c' LK' CH' Ea El Ez]; subst.
    destruct (lk_ok _ _ _ _ _ _ _ _ LK') as [D HI].
    destruct (gw_fit _ _ _ _ _ _ _ _ _ (io_work _ _ _ _ _ _ _ _ _ HI)) as (h1 & xs & fv & _ & KF & KA & _).
    rewrite (io_ap _ _ _ _ _ _ _ _ _ HI). cbn [update_state st_model st_region].
    cbn [ideal_components k_fit k_agg] in KF, KA. injection KF as KF. injection KA as KA. now rewrite <- KA, <- KF. }
  assert (GN : k_gnorm (ideal_components B) (st_model s') = Fin (2 * B * r0)).
  { cbn [ideal_components k_gnorm]. rewrite MD. unfold exact_model. cbn [sm_n sm_g]. rewrite RR, RC. f_equal.
    unfold fnorm, fsq, fdot. cbn [bsum hd].
    replace (0 + 2 * (0 - B) * r0 * (2 * (0 - B) * r0)) with ((2 * B * r0) * (2 * B * r0)) by lra. apply sqrt_square. nra. }
  assert (PG : 0 < 2 * B * r0) by nra.
  assert (IC : is_converged (ideal_components B) s s' (conv_o (ideal_config tol)) = (true, Some MsgGtolAbs)).
  { unfold is_converged. rewrite GN, py_max1_fin, xdiv_max1. cbn [conv_o ideal_config gtol_rel gtol_abs].
    assert (xle (Fin (2 * B * r0 / Rmax (2 * B * r0) 1)) (Fin 0) = false) as ->.
    { apply Rleb_false. apply Rdiv_lt_0_compat; [easy|]. pose proof (Rmax_r (2 * B * r0) 1). lra. }
    assert (xle (Fin (2 * B * r0)) (Fin tol) = true) as -> by (now apply Rleb_true). reflexivity. }
  destruct (C86_loop_reports_convergence _ _ _ _ _ _ _ _ _ _ _ _ _ _ V) as (LC & LE & _).
  destruct (LE eq_refl 0%nat s s' S0 S1 AT ltac:(now rewrite IC)) as [CV LN].
  assert (RS : res_states r = [] ++ [s; s']).
  { destruct (res_states r) as [|a0 [|a1 [|]]]; try discriminate. injection S0 as ->. injection S1 as ->. reflexivity. }
  destruct (LC CV) as (_ & pre' & old & new & m & RS' & _ & IC' & MSG).
  rewrite RS in RS'. change [s; s'] with ([s] ++ [s']) in RS'. change [old; new] with ([old] ++ [new]) in RS'.
  rewrite !app_assoc in RS'. apply app_inj_tail in RS' as [RS' <-]. apply app_inj_tail in RS' as [_ <-].
  rewrite IC in IC'. injection IC' as <-.
  split; [exact CV|]. split; [exact MSG|].
  assert (SOL : solution_x r = [r0]).
  { destruct (C78_solution_is_last_accepted _ _ _ _ _ _ _ _ _ _ _ _ _ _ V) as (i & si & Hi & _ & Li & -> & _).
    destruct i as [|[|i]].
    - rewrite (Li 1%nat s' ltac:(lia) S1) in AT. discriminate.
    - rewrite S1 in Hi. injection Hi as <-. exact SX'.
    - exfalso. assert (S (S i) < length (res_states r))%nat by (apply nth_error_Some; congruence). lia. }
  rewrite SOL. exists (2 * (r0 - B)). split.
  - split; [reflexivity|]. intros [|i] Hi; [|cbn in Hi; lia]. cbn [nth].
    apply (derivable_pt_lim_ext (fun t => (r0 - B) * (r0 - B) + 2 * (r0 - B) * t + 1 * (t * t))).
    + intros t. unfold away, moved. cbn [length seq map nth Nat.eqb hd]. ring.
    + apply derivable_quadratic.
  - rewrite Rabs_left; lra.
Qed.

(** C189 instance: the run of C142 with gradient tolerance 2 stops after one step: at (0, 0) the gradient of
    (x - 1.08)^2 / 2 + y^2 is (-1.08, 0). *)
Definition tol_config (tol : R) : config :=
  mkConfig false (mkConv false 0 tol 0 0 0 0 0) (mkStop 1 2000 PInf)
    (mkRadiusOptions (/ 1000000) 1000000 (1 / 10) (1 / 10) (1 / 2) 2 (1 / 2) PInf)
    (mkNoiseOptions (6 / 10) (1 / 10) (7 / 10) (9 / 10) 1 30 (1 / 10)) 1 4 (mkStag (1 / 8) true (1 / 20) 1 1)
    5 1 1 0.
Definition ex_F (y : vec) : R :=
  2 * ((nth 0 y 0 - 27 / 25) / 2 * ((nth 0 y 0 - 27 / 25) / 2)) + nth 1 y 0 * nth 1 y 0.

Example C189_instance : exists h r pre s s' gr,
  valid_run LeastSquares 2 3 (builtin_components (ex_ext ls) ls_choices 2 3 ex_crit142 1) (tol_config 2) 0 [0; 0] 1 (Some b56) h r /\
  res_states r = pre ++ [s; s'] /\ gradient_at ex_F (st_x s) gr /\
  builtin_gnorm (st_model s') = Fin (27 / 25) /\
  res_converged r = true /\ res_message r = Some MsgGtolAbs /\
  r_radius (st_region s') * norm gr <= 2.
Proof.
  destruct (run_142 ls ls_ok) as (h0 & r0 & i & y & E0 & _ & _ & _ & s & s' & RS0 & Sx & Sr & Si & GX & SU).
  assert (SL : stops_later (tol_config 2) (ls_config 1)).
  { constructor; try reflexivity; cbn; try lia. right. split; [reflexivity|]. lra. }
  destruct (tranquilo (builtin_components (ex_ext ls) ls_choices 2 3 ex_crit142 1) (tol_config 2) LeastSquares 0 [0; 0] 1 (Some b56))
    as [h [r|e]] eqn:E.
  2:{ pose proof (C182_errors_do_not_depend_on_stopping _ _ _ _ _ _ _ _ _ _ _ _ _ SL E). congruence. }
  assert (V : valid_run LeastSquares 2 3 (builtin_components (ex_ext ls) ls_choices 2 3 ex_crit142 1) (tol_config 2) 0 [0; 0] 1
    (Some b56) h r).
  { constructor; try easy; try lia. apply C140_builtin_components_good; [apply ex_ext_dims|apply ex_crit142_good]. }
  destruct (C182_longer_runs_continue _ _ _ _ _ _ _ _ _ _ _ _ _ _ _ SL E E0) as (l & RS & HL).
  assert (L2 : (2 <= length (res_states r))%nat).
  { clear - V. open_run V. rewrite RS. cbn [length]. rewrite map_length. destruct EN; cbn in *; lia. }
  rewrite RS0 in RS. destruct (res_states r) as [|a0 [|a1 l1]] eqn:RR; try (cbn in L2; lia).
  assert (RS' : res_states r = [] ++ [s; s'] /\ l = []).
  { injection RS as -> -> Q. symmetry in Q. apply app_eq_nil in Q as [-> ->]. now rewrite RR. }
  clear RS RR a0 a1 l1 L2. destruct RS' as [RS ->]. destruct (HL eq_refl) as (<- & _). clear HL.
  assert (RO : region_of 2 (Some b56) reg56).
  { exists [0; 0], 1. pose proof reg56_proper as PR. unfold proper_region in PR. decompose [and] PR. auto. }
  assert (VF : forall y, length y = 2%nat -> value LeastSquares ex_f142 y = Fin (ex_F y)).
  { intros [|y0 [|y1 [|]]] Ly; try discriminate. unfold value, ex_f142, ex_F, ex_res. cbn. f_equal. lra. }
  assert (G : gradient_at ex_F [0; 0] [- (27 / 25); 0]).
  { split; [reflexivity|]. intros [|[|j]] Hj; [| |cbn in Hj; lia]; cbn [nth].
    - apply (derivable_pt_lim_ext (fun t => 729 / 1250 + - (27 / 25) * t + 1 / 2 * (t * t))); [|apply derivable_quadratic].
      intros t. unfold ex_F, moved. cbn [length seq map nth Nat.eqb]. field.
    - apply (derivable_pt_lim_ext (fun t => 729 / 1250 + 0 * t + 1 * (t * t))); [|apply derivable_quadratic].
      intros t. unfold ex_F, moved. cbn [length seq map nth Nat.eqb]. field. }
  assert (S0 : nth_error (res_states r) 0 = Some s) by now rewrite RS.
  assert (S1 : nth_error (res_states r) 1 = Some s') by now rewrite RS.
  assert (GN : builtin_gnorm (st_model s') = Fin (27 / 25)).
  { rewrite (C189_gradient_norm (ex_ext ls) ls_choices LeastSquares 2 3 ex_crit142 1 (tol_config 2) 0 [0; 0] 1 (Some b56) h0 r
      ex_f142 ex_q ex_F [- (27 / 25); 0] V) with (k := 0%nat) (s := s) (s' := s') (pts := ex_pts);
      rewrite ?Sr, ?Si; try easy.
    - f_equal. unfold half_widths, norm, sumsq. cbn [reg56 r_shape r_radius r_center map map2]. rewrite !dot_cons, dot_nil_r.
      replace (1 * - (27 / 25) * (1 * - (27 / 25)) + (1 * 0 * (1 * 0) + 0)) with ((27 / 25) * (27 / 25)) by lra.
      apply sqrt_square. lra.
    - apply ex_ext_dims.
    - intros. apply ls_ok.
    - apply b56_ok.
    - apply b56_ok.
    - intros k _. apply ex_q_poly.
    - apply ex_determining. }
  assert (IC : is_converged (builtin_components (ex_ext ls) ls_choices 2 3 ex_crit142 1) s s' (conv_o (tol_config 2)) = (true, Some MsgGtolAbs)).
  { unfold is_converged. cbn [builtin_components k_gnorm]. rewrite GN, py_max1_fin, xdiv_max1. cbn [conv_o tol_config gtol_rel gtol_abs].
    assert (xle (Fin (27 / 25 / Rmax (27 / 25) 1)) (Fin 0) = false) as ->.
    { apply Rleb_false. rewrite Rmax_left; lra. }
    assert (xle (Fin (27 / 25)) (Fin 2) = true) as -> by (apply Rleb_true; lra). reflexivity. }
  assert (AT : st_accepted s' = true).
  { destruct (C178_exact_steps (ex_ext ls) ls_choices LeastSquares 2 3 ex_crit142 1 (tol_config 2) 0 [0; 0] 1 (Some b56) h0 r
      ex_f142 ex_q V) with (k := 0%nat) (s := s) (s' := s') (pts := ex_pts)
      as (m & sub & e & u & _ & _ & SV & _ & Pe & VU & VS & R1 & _ & AC);
      rewrite ?Sr, ?Si; try easy.
    - apply ex_ext_dims.
    - intros. apply ls_ok.
    - apply b56_ok.
    - apply b56_ok.
    - intros k _. apply ex_q_poly.
    - apply ex_determining.
    - apply AC. cbn. lra. }
  destruct (C86_loop_reports_convergence _ _ _ _ _ _ _ _ _ _ _ _ _ _ V) as (LC & LE & _).
  destruct (LE eq_refl 0%nat s s' S0 S1 AT ltac:(now rewrite IC)) as [CV LN].
  destruct (LC CV) as (_ & pre' & old & new & m & RS' & _ & IC' & MSG).
  pose proof RS' as RS''. rewrite RS in RS'. change [s; s'] with ([s] ++ [s']) in RS'. change [old; new] with ([old] ++ [new]) in RS'.
  rewrite !app_assoc in RS'. apply app_inj_tail in RS' as [RS' <-]. apply app_inj_tail in RS' as [_ <-].
  rewrite IC in IC'. injection IC' as <-.
  exists h0, r, [], s, s', [- (27 / 25); 0]. rewrite Sx.
  split; [exact V|]. split; [exact RS|]. split; [exact G|]. split; [exact GN|]. split; [exact CV|]. split; [exact MSG|].
  destruct (C189_small_gradient_partial (ex_ext ls) ls_choices LeastSquares 2 3 ex_crit142 1 (tol_config 2) 0 [0; 0] 1 (Some b56) h0 r
      ex_f142 ex_q ex_F [- (27 / 25); 0] V) with (pre := @nil (state vm (option smodel))) (s := s) (s' := s') (pts := ex_pts) as [P _];
      rewrite ?Sr, ?Si, ?Sx; try easy.
  - apply ex_ext_dims.
  - intros. apply ls_ok.
  - apply b56_ok.
  - apply b56_ok.
  - intros k _. apply ex_q_poly.
  - apply ex_determining.
  - rewrite Sr in P. exact (P MSG).
Qed.
