(** Properties C161 and C162: the search region contains the trust region, and no point of the
    last trust region is lost. *)
From Coq Require Import Reals List Arith ZArith Bool Lia Lra Psatz Machin.
From Verif Require Import Base XR Vec FVec HistoryModel HistorySpec HistoryProofs WrapModel WrapProofs
  VolumeModel RegionModel AdjustModel AcceptModel FilterModel LogSpec LogProofs Prop_Volume Prop_Region
  Prop_Adjust AcceptProofs Prop_Accept Prop_Filter MainModel MainProofs MainPhases MainLoop
  MainProgress Prop_Main Prop_Main2 Prop_Main3 Prop_Main4 Prop_Step.
Import ListNotations.
Open Scope R_scope.

(** * The radius of the cube *)

Lemma PI_upper : PI <= 315 / 100.
Proof.
  pose proof (proj2 (PI_2_3_7_ineq 1)) as H.
  unfold sum_f_R0, tg_alt, PI_2_3_7_tg, Ratan_seq in H. simpl in H. lra.
Qed.
Lemma exp_1_upper : exp 1 <= 285 / 100.
Proof.
  assert (H : exp (/ 12) <= 12 / 11).
  { pose proof (exp_ineq1_le (- / 12)) as H. rewrite exp_Ropp in H. pose proof (exp_pos (/ 12)).
    apply Rmult_le_reg_r with (/ exp (/ 12)); [now apply Rinv_0_lt_compat|]. rewrite Rinv_r by lra. lra. }
  assert (P : forall n, exp (INR n * / 12) = exp (/ 12) ^ n).
  { induction n as [|n IH]; [simpl; rewrite Rmult_0_l; apply exp_0|].
    rewrite S_INR, Rmult_plus_distr_r, exp_plus, IH, Rmult_1_l. simpl. ring. }
  replace 1 with (INR 12 * / 12) by (simpl; lra). rewrite P.
  apply Rle_trans with ((12 / 11) ^ 12); [apply pow_incr; split; [left; apply exp_pos|easy]|lra].
Qed.
Lemma ln_le' x y : 0 < x -> x <= y -> ln x <= ln y.
Proof. intros P [H| ->]; [left; now apply ln_increasing|lra]. Qed.
Lemma ln_pi_half : 1 + (ln PI - ln 2) <= 2 * ln (17 / 8).
Proof.
  pose proof PI_upper. pose proof PI_RGT_0. pose proof exp_1_upper. pose proof (exp_pos 1).
  rewrite <- ln_div by lra. replace 1 with (ln (exp 1)) by apply ln_exp.
  rewrite <- ln_mult; [|lra|lra]. replace (2 * ln (17 / 8)) with (ln (17 / 8 * (17 / 8))) by (rewrite ln_mult; lra).
  apply ln_le'; [apply Rmult_lt_0_compat; lra|]. nra.
Qed.

(** The logarithm of the distance of the corners, for radius 1, times the dimension *)
Lemma log_corner n : (1 <= n)%nat ->
  INR n / 2 * ln (INR n) + INR n / 2 * ln PI - INR n * ln 2 - ln (gamma_half n) <= INR n * ln (17 / 8).
Proof.
  pose proof ln_pi_half as LP. pose proof PI_RGT_0 as P0.
  assert (L0 : 0 < ln (17 / 8)) by (rewrite <- ln_1; apply ln_increasing; lra).
  enough (G : forall n, INR (S n) / 2 * ln (INR (S n)) + INR (S n) / 2 * ln PI - INR (S n) * ln 2
    - ln (gamma_half (S n)) <= INR (S n) * ln (17 / 8)).
  { intros H. destruct n; [lia|]. apply G. }
  intros m. induction m as [| |m IH] using nat_ind2.
  - simpl gamma_half. simpl INR. rewrite ln_1, ln_div by (try apply sqrt_lt_R0; lra).
    rewrite ln_sqrt_half by easy. lra.
  - simpl gamma_half. replace (0 / 2 + 1) with 1 by lra. rewrite Rmult_1_r, ln_1. change (INR 2) with 2. lra.
  - set (k := S m) in *. change (S (S (S m))) with (S (S k)).
    change (gamma_half (S (S k))) with ((INR k / 2 + 1) * gamma_half k).
    assert (K0 : 0 < INR k) by (apply lt_0_INR; unfold k; lia).
    rewrite ln_mult by (try apply gamma_half_pos; lra).
    replace (INR k / 2 + 1) with ((INR k + 2) / 2) by lra. rewrite ln_div by lra.
    replace (INR (S (S k))) with (INR k + 2) by (rewrite (S_INR (S k)), (S_INR k); lra).
    assert (S1 : INR k / 2 * (ln (INR k + 2) - ln (INR k)) <= 1).
    { rewrite <- ln_div by lra. replace ((INR k + 2) / INR k) with (1 + 2 / INR k) by (field; lra).
      assert (Q : 0 < 2 / INR k) by (apply Rdiv_lt_0_compat; lra).
      assert (LN : ln (1 + 2 / INR k) <= 2 / INR k).
      { rewrite <- (ln_exp (2 / INR k)) at 2. apply ln_le'; [lra|]. apply exp_ineq1_le. }
      apply Rle_trans with (INR k / 2 * (2 / INR k)); [apply Rmult_le_compat_l; lra|right; field; lra]. }
    lra.
Qed.

Lemma corner_distance r n : 0 < r -> (1 <= n)%nat ->
  get_radius_of_cube_with_volume_of_sphere r n None * sqrt (INR n) <= 17 / 8 * r.
Proof.
  intros Hr Hn. unfold get_radius_of_cube_with_volume_of_sphere.
  assert (N0 : 0 < INR n) by (apply lt_0_INR; lia).
  pose proof (log_corner n Hn) as L.
  rewrite <- (exp_ln (sqrt (INR n))) by now apply sqrt_lt_R0. rewrite ln_sqrt_half, <- exp_plus by easy.
  rewrite <- (exp_ln (17 / 8 * r)) by lra. rewrite ln_mult by lra.
  assert (G : forall x y, x <= y -> exp x <= exp y) by (intros x y [H| ->]; [left; now apply exp_increasing|lra]).
  apply G. apply (Rmult_le_reg_l (INR n)); [easy|].
  replace (INR n * (ln PI / 2 + ln r - ln 2 - ln (gamma_half n) / INR n + ln (INR n) / 2))
    with (INR n / 2 * ln (INR n) + INR n / 2 * ln PI - INR n * ln 2 - ln (gamma_half n) + INR n * ln r) by (field; lra).
  lra.
Qed.

(** * Distances *)

Lemma sumsq_le (v : vec) a : 0 <= a -> (forall x, In x v -> Rabs x <= a) -> sumsq v <= INR (length v) * (a * a).
Proof.
  intros Ha. induction v as [|x v IH]; intros H.
  - unfold sumsq, dot. simpl. lra.
  - change (sumsq (x :: v)) with (x * x + sumsq v). change (length (x :: v)) with (S (length v)). rewrite S_INR.
    assert (X : Rabs x <= a) by (apply H; now left).
    assert (V : sumsq v <= INR (length v) * (a * a)) by (apply IH; intros; apply H; now right).
    assert (x * x <= a * a). { revert X. unfold Rabs. destruct (Rcase_abs x); nra. } lra.
Qed.
Lemma dist_box x y a : length x = length y -> 0 <= a ->
  (forall i xi yi, nth_error x i = Some xi -> nth_error y i = Some yi -> Rabs (xi - yi) <= a) ->
  dist x y <= a * sqrt (INR (length y)).
Proof.
  intros L Ha H. unfold dist, norm.
  assert (LV : length (vsub x y) = length y) by (rewrite vsub_length; easy).
  replace (a * sqrt (INR (length y))) with (sqrt (INR (length y) * (a * a))).
  - apply sqrt_le_1_alt. rewrite <- LV. apply sumsq_le; [easy|].
    intros z Hz. apply In_map2 in Hz as (i & xi & yi & H1 & H2 & ->). eauto.
  - rewrite sqrt_mult by (try apply pos_INR; nra). rewrite sqrt_square by easy. ring.
Qed.

Lemma dist_triangle x y z : length x = length y -> length z = length y -> dist x z <= dist x y + dist y z.
Proof.
  intros L1 L2. unfold dist.
  assert (E : vsub x z = vadd (vsub x y) (vsub y z)).
  { unfold vsub, vadd. revert y z L1 L2. induction x as [|a x IH]; intros [|b y] [|c z] L1 L2; try discriminate; [reflexivity|].
    simpl in *. f_equal; [lra|]. apply IH; lia. }
  rewrite E. apply norm_triangle. rewrite !vsub_length; congruence.
Qed.

(** * C161 - the trust region and the search region *)

(** No point of a trust region is farther from the centre than 17/8 radii, in any dimension:
    the cube has the volume of the sphere, but its corners are outside of the sphere.  The
    default search radius factors are 4.25 and 5 (options.py:74-75). *)
Theorem C161_region_in_search_ball :
  forall c r b reg y,
    make_region c r b = Ok reg -> 0 < r -> c <> [] -> bounds_dim (length c) b ->
    in_region reg y -> dist y c <= 17 / 8 * r.
Proof.
  intros c r b reg y M Hr Hc HB [L I]. apply make_region_center in M as MC. destruct MC as (C1 & C2 & _).
  rewrite C1 in L. destruct (r_shape reg) eqn:S.
  - rewrite C1, C2 in I. lra.
  - assert (Hn : (1 <= length c)%nat) by (destruct c; [easy|simpl; lia]).
    eapply Rle_trans; [|apply (corner_distance r (length c) Hr Hn)].
    set (rc := get_radius_of_cube_with_volume_of_sphere r (length c) None).
    destruct (region_cube_length c r b reg HB M) as [L1 L2].
    apply dist_box; [easy|left; apply exp_pos|].
    intros i yi ci Hy Hci. assert (Hi : (i < length c)%nat) by (apply nth_error_Some; congruence).
    destruct (nth_error (r_cube_lower reg) i) as [lo|] eqn:E1; [|apply nth_error_None in E1; lia].
    destruct (nth_error (r_cube_upper reg) i) as [up|] eqn:E2; [|apply nth_error_None in E2; lia].
    destruct (region_cube_coord c r b reg i lo up HB M S E1 E2) as (ci' & Hci' & A1 & A2 & _).
    fold rc in A1, A2. assert (ci' = ci) by congruence. subst ci'.
    pose proof (proj1 I _ _ _ E1 Hy). pose proof (proj2 I _ _ _ Hy E2). apply Rabs_le. lra.
Qed.

(** * C162 - points of the last trust region *)

Lemma adjust_radius_lower rad rho step o inc : 0 < rad -> rad <= max_radius o ->
  isfinite (max_radius_to_step_ratio o) = false ->
  / 2 <= shrinking_factor o -> 1 <= expansion_factor o ->
  rad / 2 <= adjust_radius rad rho step o inc.
Proof.
  intros Hr Hm HF Hs He. destruct (C21_radius_direction rad rho step o inc Hr HF) as (raw & -> & A1 & A2 & A3).
  assert (Q : rad / 2 <= raw).
  { assert (D1 : {rho_ge rho (rho_increase o)} + {~ rho_ge rho (rho_increase o)}).
    { destruct rho; cbn; try (now left); try (now right). apply Rle_dec. }
    assert (D2 : {rho_ge rho (rho_decrease o)} + {~ rho_ge rho (rho_decrease o)}).
    { destruct rho; cbn; try (now left); try (now right). apply Rle_dec. }
    destruct (Rle_dec (large_step o * rad) step) as [D3|D3]; destruct D1 as [D1|D1];
      try (rewrite A1 by auto; nra);
      (assert (N : ~ (rho_ge rho (rho_increase o) /\ large_step o * rad <= step)) by tauto;
       destruct D2 as [D2|D2]; [rewrite A2 by auto; lra|destruct inc; [rewrite A2 by auto; lra|
         rewrite A3; [nra|easy|intros [?|?]; [easy|discriminate]]]]). }
  apply Rmin_glb; [lra|]. apply Rle_trans with raw; [easy|apply Rmax_l].
Qed.

(** Every point that lies in the trust region of an iteration is found again by the search of
    the next iteration if the region is a sphere, the step was rejected or the radius did not
    shrink; this needs a search radius factor of at least 17/4, the default for scalar
    functions.  The remaining case is refuted below. *)
Theorem C162_last_region_found_again_partial :
  forall VM SM CV ft d w (K : components VM SM CV) O pad x r0 b h r,
    valid_run ft d w K O pad x r0 b h r ->
    bounds_dim d b -> in_bounds b x -> 0 < r0 <= max_radius (radius_o O) ->
    0 < min_radius (radius_o O) <= max_radius (radius_o O) ->
    max_radius_to_step_ratio (radius_o O) = PInf ->
    / 2 <= shrinking_factor (radius_o O) -> 1 <= expansion_factor (radius_o O) ->
    17 / 4 <= search_radius_factor O ->
    stays_in_region d b K -> (forall t v, not_line_search (k_decider K t v)) ->
    forall k s s' h' found evs i y,
      nth_error (res_states r) k = Some s -> nth_error (res_states r) (S k) = Some s' ->
      st_events s' = EvFound h' found :: evs ->
      (i < h_nxs h')%nat -> get_xs_one h' (Z.of_nat i) = Ok y -> in_region (st_region s) y ->
      (r_shape (st_region s) = Sphere \/ st_accepted s = false \/ r_radius (st_region s) <= r_radius (st_region s')) ->
      In i found.
Proof.
  intros VM SM CV ft d w K O pad x r0 b h r V HB IB Hr HR HM HSh HE HSF KR HD k s s' h' found evs i y H1 H2 EV Hi Hy IR CS.
  destruct (C83_index_sets _ _ _ _ _ _ _ _ _ _ _ _ _ _ V) as [_ C83].
  destruct (C83 k s s' H1 H2) as (h1 & fnd & ev1 & E1 & F1 & _). rewrite EV in E1. injection E1 as <- <- <-. clear C83.
  apply F1. exists y. split; [easy|]. split; [easy|]. clear F1.
  pose proof (vr_d _ _ _ _ _ _ _ _ _ _ _ V) as Hd0.
  pose proof (vr_x _ _ _ _ _ _ _ _ _ _ _ V) as Lx. open_run V.
  set (P := fun s : snap (VM:=VM) (SM:=SM) => Forall (in_bounds b) (n_X s) /\
     exists c rad, 0 < rad <= max_radius (radius_o O) /\ make_region c rad b = Ok (st_region (n_st s))).
  (* what holds of every snapshot of the chain *)
  assert (PF : forall sn, good_snap ft d w sn -> P sn -> region_of d b (st_region (n_st sn)) /\
    (forall y, in_region (st_region (n_st sn)) y -> in_bounds b y) /\
    0 < r_radius (st_region (n_st sn)) <= max_radius (radius_o O) /\
    (forall y, in_region (st_region (n_st sn)) y ->
       dist y (st_x (n_st sn)) <= 17 / 8 * r_radius (st_region (n_st sn)) /\ length y = length (st_x (n_st sn))) /\
    r_center (st_region (n_st sn)) = st_x (n_st sn) /\ r_bounds (st_region (n_st sn)) = b).
  { intros sn (GL & _ & [GA GC]) [P1 (c0 & rad & Hrad & M)].
    apply make_region_center in M as MC. destruct MC as (C1 & C2 & C3).
    assert (LC : length c0 = d).
    { rewrite <- C1, GC. destruct (haslog_dims _ _ _ _ _ _ GL) as (F & _). rewrite Forall_forall in F.
      apply F. now apply nth_error_In in GA. }
    assert (IC : in_bounds b c0).
    { rewrite <- C1, GC. rewrite Forall_forall in P1. apply P1. now apply nth_error_In in GA. }
    assert (NC0 : c0 <> []) by (destruct c0; [simpl in LC; congruence|discriminate]).
    split; [exists c0, rad; tauto|]. split.
    { intros y0. apply (region_within c0 rad b); auto; [easy|now rewrite LC]. }
    split; [now rewrite C2|]. split; [|split; [easy|easy]].
    intros y0 I0'. rewrite <- GC, C1, C2. split; [|destruct I0' as [-> _]; now rewrite C1].
    apply (C161_region_in_search_ball c0 rad b (st_region (n_st sn))); auto; [easy|now rewrite LC]. }
  destruct (chain_inv _ _ _ _ _ P _ _ _ CH) as [_ PL].
  { split; [repeat constructor; exact IB|]. exists x, r0. split; [easy|]. cbn [n_st]. now rewrite R0. }
  { intros sn ap c LK HP.
    destruct (PF sn (lk_a _ _ _ _ _ _ _ _ LK) HP) as (RO & In0 & _ & _ & _ & RB).
    destruct (KR _ RO) as [KS KV]. destruct (lk_ok _ _ _ _ _ _ _ _ LK) as [D HI].
    pose proof (io_decided _ _ _ _ _ _ _ _ _ HI) as DC. destruct HP as [P1 _].
    split.
    - rewrite (io_X _ _ _ _ _ _ _ _ _ HI). repeat (apply Forall_app; split); auto.
      + pose proof (ff_sample _ _ _ _ _ _ _ _ _ _ _ _ _ _ _ (io_first _ _ _ _ _ _ _ _ _ HI)) as SA.
        eapply Forall_impl; [exact In0|]. eapply KS; eauto.
      + apply Forall_forall. intros z0 Hz0.
        destruct (io_from _ _ _ _ _ _ _ _ _ HI z0 Hz0) as (j & hh & m & n & xs & SA & Hx).
        apply In0. apply KS in SA. rewrite Forall_forall in SA. auto.
      + rewrite (dc_newX _ _ _ _ _ _ _ _ _ _ _ DC (HD _ _)). constructor; [|constructor]. apply In0.
        apply (KV _ _ (gw_solve _ _ _ _ _ _ _ _ _ (io_work _ _ _ _ _ _ _ _ _ HI))).
    - destruct (io_region _ _ _ _ _ _ _ _ _ HI) as (rg & -> & M2). cbn [with_region st_region].
      rewrite RB in M2. do 2 eexists. split; [|exact M2].
      destruct (C20_radius_in_limits (r_radius (st_region (n_st sn))) (a_rho (i_acc D)) (a_step_length (i_acc D))
        (radius_o O) (i_incr D)); [apply HR|now rewrite HM|]. lra. }
  rewrite RS in H1, H2.
  destruct (consecutive _ _ _ _ _ st0 _ _ _ CH (agrees_refl _)) as [CO _].
  destruct (CO k s s' H1 H2) as (a' & c' & Hl' & LK' & (G1 & _)).
  pose proof (PF a' (lk_a _ _ _ _ _ _ _ _ LK') (PL _ _ (nth_error_In _ _ Hl'))) as (_ & _ & (RP & _) & RD & _).
  destruct (lk_ok _ _ _ _ _ _ _ _ LK') as [D' HI'].
  rewrite (io_ap _ _ _ _ _ _ _ _ _ HI') in CS |- *. cbn [update_state st_region] in CS |- *.
  destruct k as [|k].
  - (* the first iteration *)
    injection H1 as <-. destruct l as [|[a0 ap0] l]; [discriminate|]. injection Hl' as <- <-.
    inversion CH as [|u1 u2 u3 u4 u5 LK1 CH1 U1 U2 U3]; subst. cbn [n_st] in *.
    destruct (RD y IR) as [Q _]. nra.
  - destruct (nth_error l k) as [[a sa]|] eqn:Hl.
    2:{ apply nth_error_None in Hl. assert (S k < length l)%nat by (apply nth_error_Some; congruence). lia. }
    assert (sa = s) by (cbn in H1; rewrite nth_error_map, Hl in H1; cbn in H1; congruence). subst sa.
    destruct (chain_links _ _ _ _ _ _ _ _ CH _ _ _ Hl) as (c1 & LK1 & [[_ Q]|(ap' & Q)]).
    { assert (S k < length l)%nat by (apply nth_error_Some; congruence). lia. }
    rewrite Hl' in Q. injection Q as <- _.
    destruct (PF a (lk_a _ _ _ _ _ _ _ _ LK1) (PL _ _ (nth_error_In _ _ Hl))) as (RO & _ & (RP0 & RM0) & RD0 & RC0 & _).
    destruct (KR _ RO) as [_ KV].
    destruct (lk_ok _ _ _ _ _ _ _ _ LK1) as [D HI].
    pose proof (io_decided _ _ _ _ _ _ _ _ _ HI) as DC.
    rewrite (io_ap _ _ _ _ _ _ _ _ _ HI) in CS, IR |- *.
    cbn [update_state st_region st_accepted st_x] in CS, IR |- *.
    destruct (io_region _ _ _ _ _ _ _ _ _ HI) as (rg & E2 & M2). rewrite E2 in *. cbn [with_region st_region] in *.
    apply make_region_center in M2 as (M3 & M4 & _). rewrite M4 in *.
    set (r1 := adjust_radius _ _ _ _ _) in *.
    assert (HL : r_radius (st_region (n_st a)) / 2 <= r1) by (apply adjust_radius_lower; auto; now rewrite HM).
    set (ra := r_radius (st_region (n_st a))) in *.
    destruct (RD0 y IR) as [Q1 Q2].
    destruct (a_accepted (i_acc D)) eqn:EA.
    + destruct (dc_acc _ _ _ _ _ _ _ _ _ _ _ DC EA) as (A1 & A2 & _).
      assert (AX : in_region (st_region (n_st a)) (a_x (i_acc D))).
      { rewrite (dc_newX _ _ _ _ _ _ _ _ _ _ _ DC (HD _ _)) in A2. rewrite nth_error_app2 in A2 by easy.
        destruct (a_index (i_acc D) - _)%nat as [|[|]]; try discriminate. injection A2 as <-.
        apply (KV _ _ (gw_solve _ _ _ _ _ _ _ _ _ (io_work _ _ _ _ _ _ _ _ _ HI))). }
      destruct (RD0 _ AX) as [Q3 Q4].
      assert (TR : dist y (a_x (i_acc D)) <= dist y (st_x (n_st a)) + dist (a_x (i_acc D)) (st_x (n_st a))).
      { rewrite (dist_sym (a_x (i_acc D))). apply dist_triangle; congruence. }
      destruct CS as [CS|[CS|CS]]; [|discriminate|nra].
      destruct IR as [_ I1], AX as [_ I2]. rewrite CS in I1, I2. fold ra in I1, I2. rewrite RC0 in I1, I2.
      nra.
    + destruct (dc_rej _ _ _ _ _ _ _ _ _ _ _ DC EA) as (-> & _). cbn [cur_of c_x]. nra.
Qed.

(** * Examples *)

(** The first sampled point is the second point of the history of the second search. *)
Lemma second_history VM SM CV ft d w (K : components VM SM CV) O pad x r0 b h r (p : region -> vec) s1 s2 :
  valid_run ft d w K O pad x r0 b h r -> (2 <= target_sample_size O)%Z ->
  (forall h st t n xs is, k_filter K h st t n xs is = Ok (xs, is)) ->
  (forall t j h reg n m xs, k_sample K t j h reg (S n) m = Ok xs -> nth_error xs 0 = Some (p reg)) ->
  nth_error (res_states r) 1 = Some s1 -> nth_error (res_states r) 2 = Some s2 ->
  exists h' found evs, st_events s2 = EvFound h' found :: evs /\ (1 < h_nxs h')%nat /\
    get_xs_one h' 1 = Ok (p (st_region s1)).
Proof.
  intros V HT HF HS H1 H2.
  assert (HBS := vr_batch _ _ _ _ _ _ _ _ _ _ _ V). open_run V. rewrite RS in H1, H2.
  destruct l as [|[a0 ap0] [|[a1 ap1] l]]; try discriminate. cbn in H1, H2. injection H1 as ->. injection H2 as ->.
  inversion CH as [|u1 u2 u3 u4 u5 LK1 CH1 U1 U2 U3]; subst.
  inversion CH1 as [|v1 v2 v3 v4 v5 LK2 CH2 V1 V2 V3]; subst.
  destruct (lk_ok _ _ _ _ _ _ _ _ LK1) as [D HI]. destruct (lk_ok _ _ _ _ _ _ _ _ LK2) as [D' HI'].
  rewrite (io_ap _ _ _ _ _ _ _ _ _ HI'), (io_ap _ _ _ _ _ _ _ _ _ HI). cbn [update_state st_events st_region n_st].
  rewrite (io_events _ _ _ _ _ _ _ _ _ HI').
  destruct (ff_events _ _ _ _ _ _ _ _ _ _ _ _ _ _ _ (io_first _ _ _ _ _ _ _ _ _ HI')) as (hh & xs & fv & o & ->).
  cbn [app]. eexists _, _, _. split; [reflexivity|].
  destruct (lk_a _ _ _ _ _ _ _ _ LK2) as (GL & _).
  destruct (haslog_dims _ _ _ _ _ _ GL) as (_ & _ & _ & _ & NX). rewrite NX.
  pose proof (io_first _ _ _ _ _ _ _ _ _ HI) as FF. cbn [n_st n_X n_E n_h n_t n_n] in FF.
  pose proof (ff_filter _ _ _ _ _ _ _ _ _ _ _ _ _ _ _ FF) as FI. rewrite HF in FI. injection FI as FI1 FI2.
  assert (LO : (length (i_old D) <= 1)%nat).
  { pose proof (ff_nodup _ _ _ _ _ _ _ _ _ _ _ _ _ _ _ FF) as ND. rewrite <- FI2 in ND.
    assert (IN : incl (i_old D) [0%nat]).
    { intros j Hj. apply (ff_old _ _ _ _ _ _ _ _ _ _ _ _ _ _ _ FF) in Hj as (y & Hy & _).
      destruct j as [|[|]]; try discriminate. now left. }
    exact (NoDup_incl_length ND IN). }
  pose proof (ff_sample _ _ _ _ _ _ _ _ _ _ _ _ _ _ _ FF) as SA.
  assert (NP : exists n, Z.to_nat (next_multiple (Z.max 0 (target_sample_size O - zlen (i_fxs D))) (batch_size O)) = S n).
  { destruct (C35_next_multiple (Z.max 0 (target_sample_size O - zlen (i_fxs D))) (batch_size O) ltac:(lia)) as (_ & Q & _).
    assert (zlen (i_fxs D) <= 1)%Z.
    { unfold zlen. rewrite <- FI1, map_length. lia. }
    assert (1 <= next_multiple (Z.max 0 (target_sample_size O - zlen (i_fxs D))) (batch_size O))%Z by lia.
    exists (Nat.pred (Z.to_nat (next_multiple (Z.max 0 (target_sample_size O - zlen (i_fxs D))) (batch_size O)))). lia. }
  destruct NP as [n NP]. rewrite NP in SA. apply HS in SA.
  destruct (i_X1 D) as [|y X1] eqn:E1; [discriminate|]. injection SA as ->.
  assert (XE : exists X', n_X a1 = st_x st0 :: p (st_region st0) :: X').
  { rewrite (io_X _ _ _ _ _ _ _ _ _ HI), E1. cbn [n_X app]. eauto. }
  destruct XE as [X' XE]. split; [rewrite XE; simpl; lia|].
  apply (xs_one_log _ _ _ _ _ _ 1 (p (st_region st0)) GL). now rewrite XE.
Qed.

(** Components that sample at the lower and step to the upper corner of a cube (or stay at the
    centre of a sphere); [e] is the expected improvement. *)
Definition corner (l : vec) (reg : region) : vec :=
  match r_shape reg with
  | Sphere => r_center reg
  | Cube => map (fun i => nth i l 0) (seq 0 (length (r_center reg)))
  end.
Definition lower_corner (reg : region) : vec := corner (r_cube_lower reg) reg.
Definition upper_corner (reg : region) : vec := corner (r_cube_upper reg) reg.
Definition corner_f (x : vec) : outcome := Ret (VS (Fin (- hd 0 x))).
Definition corner_components (e : R) : components unit unit unit :=
  mkComp (fun _ args _ => Ok (map corner_f args)) 1 (fun _ _ => tt) (fun _ _ _ _ => Ok tt) (fun _ => Ok tt)
    (fun _ reg => Ok (mkSub (upper_corner reg) (Fin e)))
    (fun _ => Fin 1) (fun _ _ _ reg n _ => Ok (repeat (lower_corner reg) n))
    (fun _ _ _ _ xs is => Ok (xs, is)) (fun _ _ => Classic)
    (fun _ _ => Ok (Fin 1)) (fun _ _ => Ok tt) (fun _ _ _ _ _ _ => Ok []).
Definition corner_config : config :=
  mkConfig false (mkConv true (1/1000) (1/1000) (1/1000) (1/1000) (1/1000) (1/1000) (1/1000))
    (mkStop 5 100 PInf) default_radius_options
    (mkNoiseOptions 1 1 1 1 1 5 1) 1 3 (mkStag (1/2) true (1/2) 1 1) (17 / 4) 1 1 0.
Definition corner_bounds : option bounds :=
  Some (mkBounds (Some [Some (- (9 / 10)); Some (- (9 / 10))]) (Some [Some 10; Some 10])).

Lemma corner_dims : two_sided corner_bounds /\ bounds_dim 2 corner_bounds /\ in_bounds corner_bounds [0; 0].
Proof.
  split; [|split].
  - cbn. repeat split; try discriminate; auto.
  - split; intros l H; injection H as <-; reflexivity.
  - split; intros l i xi li H Hx Hl; injection H as <-;
      destruct i as [|[|[|i]]]; cbn in Hx, Hl; try discriminate; injection Hx as <-; injection Hl as <-; lra.
Qed.

(** The cube of radius sqrt(pi)/2 around the origin is not cut off by the bounds at -0.9. *)
Lemma rc_square : let rc := get_radius_of_cube_with_volume_of_sphere 1 2 None in
  0 < rc /\ rc * rc = PI / 4.
Proof.
  cbv zeta. split; [apply exp_pos|]. unfold get_radius_of_cube_with_volume_of_sphere.
  rewrite <- exp_plus. rewrite ln_1. 
  assert (G : gamma_half 2 = 1) by (cbn; lra). rewrite G, ln_1.
  assert (P : 0 < PI) by apply PI_RGT_0.
  rewrite <- (exp_ln (PI / 4)) by lra. f_equal. unfold Rdiv. rewrite ln_mult, ln_Rinv by lra.
  assert (L4 : ln 4 = 2 * ln 2) by (replace 4 with (2 * 2) by lra; rewrite ln_mult by lra; lra).
  rewrite L4. simpl. lra.
Qed.
Lemma corner_region reg : make_region [0; 0] 1 corner_bounds = Ok reg ->
  let rc := get_radius_of_cube_with_volume_of_sphere 1 2 None in
  r_shape reg = Cube /\ r_cube_lower reg = [- rc; - rc] /\ r_cube_upper reg = [rc; rc] /\
  lower_corner reg = [- rc; - rc] /\ upper_corner reg = [rc; rc].
Proof.
  intros M rc. destruct rc_square as [R1 R2]. fold rc in R1, R2. pose proof PI_upper.
  assert (R3 : rc <= 9 / 10) by nra.
  destruct corner_dims as (_ & HB & _). apply make_region_center in M as MC. destruct MC as (C1 & _).
  assert (S : r_shape reg = Cube).
  { apply (C15_sphere_never_reaches_bounds _ _ _ _ M). left.
    exists [Some (- (9 / 10)); Some (- (9 / 10))], 0%nat, 0, (- (9 / 10)). repeat split. lra. }
  destruct (region_cube_length [0; 0] 1 corner_bounds reg HB M) as [L1 L2].
  destruct (r_cube_lower reg) as [|l0 [|l1 [|]]] eqn:EL; try discriminate.
  destruct (r_cube_upper reg) as [|u0 [|u1 [|]]] eqn:EU; try discriminate.
  assert (Q : forall i lo up, nth_error [l0; l1] i = Some lo -> nth_error [u0; u1] i = Some up -> (i < 2)%nat -> lo = - rc /\ up = rc).
  { intros i lo up E1 E2 Hi. rewrite <- EL in E1. rewrite <- EU in E2.
    destruct (region_cube_coord [0; 0] 1 corner_bounds reg i lo up HB M S E1 E2) as (ci & Hc & A1 & A2 & _ & _ & A5 & A6).
    change (get_radius_of_cube_with_volume_of_sphere 1 (length [0; 0]) None) with rc in *.
    assert (ci = 0) by (destruct i as [|[|]]; [| |lia]; cbn in Hc; congruence). subst ci.
    split; apply Rle_antisym; try lra.
    - apply A5; [lra|]. intros B l v E E' E3. injection E as <-. injection E' as <-.
      destruct i as [|[|]]; [| |lia]; cbn in E3; injection E3 as <-; lra.
    - apply A6; [lra|]. intros B l v E E' E3. injection E as <-. injection E' as <-.
      destruct i as [|[|]]; [| |lia]; cbn in E3; injection E3 as <-; lra. }
  destruct (Q 0%nat l0 u0 eq_refl eq_refl ltac:(lia)) as [-> ->].
  destruct (Q 1%nat l1 u1 eq_refl eq_refl ltac:(lia)) as [-> ->].
  unfold lower_corner, upper_corner, corner. rewrite S, C1, EL, EU. auto.
Qed.
Lemma corner_run e : exists h r,
  valid_run Scalar 2 1 (corner_components e) corner_config 0 [0; 0] 1 corner_bounds h r /\
  (3 <= length (res_states r))%nat.
Proof.
  assert (GK : good_components Scalar 2 1 (corner_components e)).
  { split; cbn [corner_components k_crit k_sample k_solve k_filter k_decider].
    - intros h args cores _. eexists. split; [reflexivity|]. split; [now rewrite map_length|].
      apply Forall_map, Forall_forall. intros x Hx. cbn. auto.
    - intros _ _ h reg n m xs Hc H. injection H as <-. apply Forall_forall. intros x Hx.
      apply repeat_spec in Hx. subst. unfold lower_corner, corner.
      destruct (r_shape reg); [easy|]. now rewrite map_length, seq_length.
    - intros sm reg s' Hc [= <-]. cbn [sub_x]. unfold upper_corner, corner.
      destruct (r_shape reg); [easy|]. now rewrite map_length, seq_length.
    - intros h st target n xs is xs' is' HL ND [= <- <-]. split; [easy|]. split; [easy|].
      apply incl_tl, incl_refl.
    - intros; exact Logic.I. }
  destruct corner_dims as (B1 & B2 & _).
  assert (TK : total_components Scalar 2 corner_bounds (corner_components e)).
  { split; cbn [corner_components k_crit k_sample k_solve k_filter k_decider k_fit k_agg k_variance k_cov k_rho_noise]; eauto.
    intros sm reg. eexists. split; [reflexivity|]. discriminate. }
  assert (GC : good_config corner_config) by (split; cbn; try lia).
  destruct (tranquilo_go Scalar 2 1 corner_bounds _ corner_config GK TK GC 0 [0; 0] 1
    ltac:(lia) ltac:(lia) eq_refl) as (h & r & H).
  assert (V : valid_run Scalar 2 1 (corner_components e) corner_config 0 [0; 0] 1 corner_bounds h r)
    by (split; auto; cbn; lia).
  exists h, r. split; [exact V|].
  pose proof (C90_evaluations_per_iteration _ _ _ _ _ _ _ _ _ _ _ _ _ _ V eq_refl eq_refl
    ltac:(cbn; lia) ltac:(cbn; lia) ltac:(reflexivity)
    ltac:(intros t j h' reg n m xs; cbn; intros [= <-]; now rewrite repeat_length)) as (_ & _ & C & _).
  assert (NM : next_multiple 3 1 = 3%Z).
  { destruct (C35_next_multiple 3 1 ltac:(lia)) as (_ & Q & _). lia. }
  cbn [corner_config target_sample_size batch_size stag_o max_trials sample_increment Nat.max Nat.mul] in C.
  rewrite NM in C. change (Z.of_nat (1 + 0)) with 1%Z in C.
  open_run V.
  assert (LN : length (res_states r) = S (length l)) by (rewrite RS; simpl; now rewrite map_length).
  rewrite LN in *. cbn in LL.
  destruct EN as [E1 E2 E3|pre old new E1|E1 E2 E3 E4]; cbn in E1; try lia; try discriminate.
  cbn in E2. lia.
Qed.
Lemma corner_stays e : stays_in_region 2 corner_bounds (corner_components e).
Proof.
  intros reg (c & rad & Lc & IB & Hr & M).
  destruct corner_dims as (_ & HB & _). rewrite <- Lc in HB.
  apply make_region_center in M as MC. destruct MC as (C1 & C2 & _).
  destruct (region_cube_length c rad _ reg HB M) as [L1 L2].
  assert (NC : c <> []) by (destruct c; discriminate).
  assert (Cn : forall (l : vec), length l = length c -> map (fun i => nth i l 0) (seq 0 (length c)) = l).
  { intros l <-. clear. induction l as [|a l IH] using rev_ind; [reflexivity|].
    rewrite app_length. cbn [length]. rewrite seq_app, map_app. cbn [seq map plus]. f_equal.
    - rewrite <- IH at 2. apply map_ext_in. intros i Hi. apply in_seq in Hi. now rewrite app_nth1 by lia.
    - rewrite app_nth2, Nat.sub_diag by lia. reflexivity. }
  assert (G : in_region reg (lower_corner reg) /\ in_region reg (upper_corner reg)).
  { unfold in_region, lower_corner, upper_corner, corner. rewrite C1. destruct (r_shape reg) eqn:S.
    - rewrite C2, dist_refl. repeat split; lra.
    - destruct (C14_cube_inside_bounds_contains_center c rad _ reg Hr NC HB IB M S) as (_ & _ & V1 & V2 & _).
      rewrite !Cn by easy.
      assert (VL : vle (r_cube_lower reg) (r_cube_upper reg)).
      { intros i lo up H1 H2. destruct (nth_error c i) as [ci|] eqn:Ec.
        - pose proof (V1 _ _ _ H1 Ec). pose proof (V2 _ _ _ Ec H2). lra.
        - apply nth_error_None in Ec. assert (i < length (r_cube_lower reg))%nat by (apply nth_error_Some; congruence). lia. }
      assert (VR : forall v, vle v v) by (intros v i p q Hp Hq; assert (p = q) by congruence; lra).
      auto 10. }
  split.
  - intros t j h n m xs. cbn [corner_components k_sample]. intros [= <-].
    apply Forall_forall. intros y Hy. apply repeat_spec in Hy. subst y. apply G.
  - intros sm s. cbn [corner_components k_solve]. intros [= <-]. apply G.
Qed.

(** The first three states of the run. *)
Lemma corner_states e h r : 0 < e ->
  valid_run Scalar 2 1 (corner_components e) corner_config 0 [0; 0] 1 corner_bounds h r ->
  (3 <= length (res_states r))%nat ->
  let rc := get_radius_of_cube_with_volume_of_sphere 1 2 None in
  exists s s' h' found evs,
    nth_error (res_states r) 1 = Some s /\ nth_error (res_states r) 2 = Some s' /\
    st_events s' = EvFound h' found :: evs /\ (1 < h_nxs h')%nat /\
    get_xs_one h' 1 = Ok [- rc; - rc] /\ in_region (st_region s) [- rc; - rc] /\
    st_x s = [rc; rc] /\ r_radius (st_region s) = 1 /\
    (rc / e < / 10 -> r_radius (st_region s') = / 2) /\
    (/ 10 <= rc / e -> r_radius (st_region s') = 2).
Proof.
  intros He V L rc.
  destruct rc_square as [P1 P2]. fold rc in P1, P2. pose proof PI_upper as PU. pose proof PI2_3_2 as PL. unfold PI2 in PL.
  destruct (nth_error (res_states r) 0) as [s0|] eqn:H0; [|apply nth_error_None in H0; lia].
  destruct (nth_error (res_states r) 1) as [s|] eqn:H1; [|apply nth_error_None in H1; lia].
  destruct (nth_error (res_states r) 2) as [s'|] eqn:H2; [|apply nth_error_None in H2; lia].
  destruct (second_history _ _ _ _ _ _ _ _ _ _ _ _ _ _ lower_corner s s' V ltac:(cbn; lia) ltac:(reflexivity)) as (h' & found & evs & E1 & E2 & E3); auto.
  { intros t j h0 reg n m xs. cbn [corner_components k_sample]. intros [= <-]. reflexivity. }
  destruct (C164_radius_update _ _ _ _ _ _ _ _ _ _ _ _ _ _ V eq_refl ltac:(lra) ltac:(cbn; lra) eq_refl) as [A B].
  destruct (B 0%nat s0 s s' H0 H1 H2) as (B1 & _ & raw & B2 & B3 & B4 & B5).
  assert (SR : make_region [0; 0] 1 corner_bounds = Ok (st_region s) /\ st_x s0 = [0; 0]).
  { open_run V. rewrite RS in H0, H1. injection H0 as <-. split; [|exact X0].
    destruct l as [|[a ap] l]; [discriminate|]. injection H1 as <-.
    inversion CH as [|a' ap' b' l' c' LK' CH' Ea El Ez]; subst.
    destruct (lk_ok _ _ _ _ _ _ _ _ LK') as [D HI]. rewrite (io_ap _ _ _ _ _ _ _ _ _ HI).
    cbn [update_state st_region n_st]. exact MR. }
  destruct SR as [SR X0]. destruct (corner_region _ SR) as (S1 & S2 & S3 & S4 & S5). fold rc in S2, S3, S4, S5.
  destruct (make_region_center _ _ _ _ SR) as (C1 & C2 & _).
  destruct (C163_iteration _ _ _ _ _ _ _ _ _ _ _ _ _ _ corner_f V
    ltac:(intros hh args cores; reflexivity) eq_refl eq_refl ltac:(cbn; lia) ltac:(reflexivity) 0%nat s0 s H0 H1)
    as (sub & T1 & _ & T2 & _ & T3 & _).
  cbn [corner_components k_solve] in T1. injection T1 as <-. cbn [sub_x sub_ei] in *. rewrite S5, X0 in *.
  destruct (T2 (- 0) (- rc) e eq_refl eq_refl eq_refl) as [[R1 _] R2].
  destruct (T3 ltac:(apply R2; cbn; lra)) as [T4 _]. rewrite R1 in * by lra.
  replace ((- 0 - - rc) / e) with (rc / e) in * by (unfold Rdiv; lra).
  rewrite T4, C2 in *. cbn [corner_config radius_o default_radius_options rho_increase rho_decrease large_step expansion_factor
    shrinking_factor min_radius max_radius rho_ge] in *.
  assert (ST : / 2 * 1 <= dist [rc; rc] [0; 0]).
  { unfold dist, norm, vsub, sumsq, dot. cbn.
    apply Rle_trans with (sqrt (/ 2 * / 2)); [rewrite sqrt_square; lra|]. apply sqrt_le_1_alt. nra. }
  exists s, s', h', found, evs. rewrite S4 in E3.
  split; [easy|]. split; [easy|]. split; [easy|]. split; [easy|]. split; [easy|]. split.
  { rewrite <- S4. destruct corner_dims as (_ & _ & IB).
    destruct (corner_stays e (st_region s)) as [Q _]; [exists [0; 0], 1; repeat split; try lra; auto; apply IB|].
    specialize (Q 0%nat 0%nat h' 1%nat [] _ eq_refl). now inversion Q. }
  split; [easy|]. split; [easy|]. rewrite B2. split; intros Hrho.
  - rewrite B5; [|intros [? _]; lra|lra]. unfold Rmin, Rmax. repeat destruct Rle_dec; lra.
  - rewrite B3 by (split; [lra|exact ST]). unfold Rmin, Rmax. repeat destruct Rle_dec; lra.
Qed.

Lemma corner_dist rc : 0 < rc -> rc * rc = PI / 4 -> dist [- rc; - rc] [rc; rc] = sqrt (2 * PI).
Proof.
  intros H1 H2. unfold dist, norm, vsub, sumsq, dot. cbn. f_equal. nra.
Qed.

(** A cube in two dimensions with default radius options: the step from the centre to one corner
    is accepted with a small rho, so that the radius is halved, and a point at the opposite
    corner, sampled in the iteration before, is not found again. *)
Theorem C162_last_region_found_again_refuted : exists h r s s' h' found evs y,
  valid_run Scalar 2 1 (corner_components 1000) corner_config 0 [0; 0] 1 corner_bounds h r /\
  stays_in_region 2 corner_bounds (corner_components 1000) /\
  nth_error (res_states r) 1 = Some s /\ nth_error (res_states r) 2 = Some s' /\
  st_events s' = EvFound h' found :: evs /\
  (1 < h_nxs h')%nat /\ get_xs_one h' 1 = Ok y /\ in_region (st_region s) y /\ ~ In 1%nat found.
Proof.
  destruct (corner_run 1000) as (h & r & V & L).
  destruct (corner_states 1000 h r ltac:(lra) V L) as (s & s' & h' & found & evs & A1 & A2 & A3 & A4 & A5 & A6 & A7 & A8 & A9 & _).
  set (rc := get_radius_of_cube_with_volume_of_sphere 1 2 None) in *.
  destruct rc_square as [P1 P2]. fold rc in P1, P2. pose proof PI_upper. pose proof PI2_3_2 as PL. unfold PI2 in PL.
  exists h, r, s, s', h', found, evs, [- rc; - rc].
  split; [exact V|]. split; [apply corner_stays|]. repeat (split; [assumption|]).
  destruct (C83_index_sets _ _ _ _ _ _ _ _ _ _ _ _ _ _ V) as [_ C83].
  destruct (C83 1%nat s s' A1 A2) as (h1 & fnd & ev1 & E1 & F1 & _). rewrite A3 in E1. injection E1 as <- <- <-.
  intros Hin. apply F1 in Hin as (y & _ & Hy & Hd).
  change (Z.of_nat 1) with 1%Z in Hy. rewrite A5 in Hy. injection Hy as <-.
  assert (rc <= 1) by nra.
  rewrite A9, A7, corner_dist in Hd by (auto; lra). cbn [corner_config search_radius_factor] in Hd.
  assert (Q : 2 * PI <= (17 / 8) * (17 / 8)).
  { rewrite <- (sqrt_sqrt (2 * PI)) by lra. pose proof (sqrt_pos (2 * PI)). nra. }
  lra.
Qed.

(** With an expected improvement of 1, rho is sqrt(pi)/2 and the radius grows: the hypotheses of
    C162 hold and the point at the opposite corner is found again. *)
Example C162_instance : exists h r s s' h' found evs y,
  valid_run Scalar 2 1 (corner_components 1) corner_config 0 [0; 0] 1 corner_bounds h r /\
  nth_error (res_states r) 1 = Some s /\ nth_error (res_states r) 2 = Some s' /\
  st_events s' = EvFound h' found :: evs /\
  get_xs_one h' 1 = Ok y /\ in_region (st_region s) y /\ r_shape (st_region s) = Cube /\ In 1%nat found.
Proof.
  destruct (corner_run 1) as (h & r & V & L).
  destruct (corner_states 1 h r ltac:(lra) V L) as (s & s' & h' & found & evs & A1 & A2 & A3 & A4 & A5 & A6 & A7 & A8 & _ & A9).
  set (rc := get_radius_of_cube_with_volume_of_sphere 1 2 None) in *.
  destruct rc_square as [P1 P2]. fold rc in P1, P2. pose proof PI_upper. pose proof PI2_3_2 as PL. unfold PI2 in PL.
  exists h, r, s, s', h', found, evs, [- rc; - rc].
  destruct corner_dims as (_ & HB & IB).
  split; [exact V|]. repeat (split; [assumption|]). split.
  { destruct (C164_radius_update _ _ _ _ _ _ _ _ _ _ _ _ _ _ V eq_refl ltac:(lra) ltac:(cbn; lra) eq_refl) as [A _].
    destruct (A s (or_intror A1)) as (B1 & B2 & B3).
    destruct (r_shape (st_region s)) eqn:S; [|reflexivity]. exfalso.
    destruct A6 as [_ A6]. rewrite S, B1, B2 in A6. unfold dist, norm, vsub, sumsq, dot in A6. cbn in A6.
    pose proof (sqrt_pos ((- rc - 0) * (- rc - 0) + ((- rc - 0) * (- rc - 0) + 0))).
    assert (Q : (- rc - 0) * (- rc - 0) + ((- rc - 0) * (- rc - 0) + 0) <= 1).
    { rewrite <- (sqrt_sqrt ((- rc - 0) * (- rc - 0) + ((- rc - 0) * (- rc - 0) + 0))) by nra. nra. }
    nra. }
  apply (C162_last_region_found_again_partial _ _ _ _ _ _ _ _ _ _ _ _ _ _ V HB IB) with (k := 1%nat) (s := s) (s' := s') (h' := h')
    (evs := evs) (y := [- rc; - rc]); auto; try (cbn; lra).
  - apply corner_stays.
  - intros; exact Logic.I.
  - right. right. rewrite A8, A9; [lra|]. nra.
Qed.

(** Corners of a cube are outside of the sphere of the same radius, by more than a fifth. *)
Example C161_instance : exists reg y,
  make_region [0; 0] 1 corner_bounds = Ok reg /\ in_region reg y /\ 6 / 5 < dist y [0; 0].
Proof.
  destruct corner_dims as (B1 & B2 & IB).
  destruct (corner_run 1) as (h & r & V & L). open_run V. exists reg, (upper_corner reg). split; [easy|].
  destruct (corner_region _ MR) as (_ & _ & _ & _ & S5).
  destruct rc_square as [P1 P2]. pose proof PI2_3_2 as PL. unfold PI2 in PL.
  split.
  - destruct (corner_stays 1 reg) as [_ Q]; [exists [0; 0], 1; repeat split; try lra; auto; apply IB|].
    apply (Q tt _ eq_refl).
  - rewrite S5. unfold dist, norm, vsub, sumsq, dot. cbn.
    apply Rle_lt_trans with (sqrt (6 / 5 * (6 / 5))); [rewrite sqrt_square; lra|]. apply sqrt_lt_1_alt. nra.
Qed.
