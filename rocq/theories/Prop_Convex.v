(** Property C190: runs with exact models on convex criteria. *)
From Coq Require Import Reals List Arith ZArith Bool Lia Lra Psatz.
From Verif Require Import Base XR Vec FVec HistoryModel HistorySpec HistoryProofs LogSpec LogProofs WrapModel VolumeModel
  RegionModel Prop_Region ModelsModel AcceptModel AcceptProofs Prop_Accept AdjustModel Prop_Adjust Prop_Filter MainModel MainProofs MainPhases
  MainLoop MainProgress Prop_Main Prop_Main2 Prop_Main3 Prop_Main4 Prop_Step Prop_Search Prop_Gradient.
Import ListNotations.
Open Scope R_scope.

(** The recorded model is the aggregated fit for the recorded region. *)
Lemma model_of_region : forall VM SM CV ft d w (K : components VM SM CV) O pad x r0 b h r,
  valid_run ft d w K O pad x r0 b h r ->
  forall k s s', nth_error (res_states r) k = Some s -> nth_error (res_states r) (S k) = Some s' ->
  exists xs fv old v, k_fit K xs fv (st_region s') old = Ok v /\ k_agg K v = Ok (st_model s').
Proof.
  intros VM SM CV ft d w K O pad x r0 b h r V k s s' H1 H2. open_run V. rewrite RS in H1, H2.
  destruct (consecutive _ _ _ _ _ st0 _ _ _ CH (agrees_refl _)) as [CS _].
  destruct (CS k s s' H1 H2) as (a & c & Hl & LK & _).
  destruct (lk_ok _ _ _ _ _ _ _ _ LK) as [D HI].
  destruct (gw_fit _ _ _ _ _ _ _ _ _ (io_work _ _ _ _ _ _ _ _ _ HI)) as (h1 & xs & fv & _ & KF & KA & _).
  rewrite (io_ap _ _ _ _ _ _ _ _ _ HI). cbn [update_state st_model st_region]. eauto 8.
Qed.

(** * C190 - reaching the minimizer *)

(** A step towards [xs] from the center of the region: the expected improvement is the actual one; if [xs] is
    within [theta] times the radius, it is reached; otherwise the step improves and is large. *)
Record good_step (F : vec -> R) (xs : vec) (theta large : R) (reg : region) (s : subsol) : Prop := {
  gs_ei : sub_ei s = Fin (F (r_center reg) - F (sub_x s));
  gs_not_worse : F (sub_x s) <= F (r_center reg);
  gs_reached : dist (r_center reg) xs <= theta * r_radius reg -> sub_x s = xs;
  gs_large : r_center reg <> xs -> sub_x s = xs \/
    F (sub_x s) < F (r_center reg) /\ large * r_radius reg <= dist (sub_x s) (r_center reg)
}.
Definition makes_good_steps {VM SM CV} (d : nat) (F : vec -> R) (xs : vec) (theta large : R) (K : components VM SM CV) : Prop :=
  forall pts fv reg old v m s, length (r_center reg) = d -> 0 < r_radius reg ->
    k_fit K pts fv reg old = Ok v -> k_agg K v = Ok m -> k_solve K m reg = Ok s ->
    good_step F xs theta large reg s.

(** If the level set of the start point lies within [D] of [xs] and the radius can grow to [D / theta], [xs] is
    reached once the radius, expanded in every iteration, would be [D / theta]. *)
Theorem C190_good_steps_reach_the_target :
  forall VM SM CV ft d w (K : components VM SM CV) O pad x r0 b h r f F xs theta D N,
    valid_run ft d w K O pad x r0 b h r ->
    deterministic K f -> (forall y, length y = d -> value ft f y = Fin (F y)) ->
    noisy O = false -> n_evals_per_point0 O = 1%Z -> (n_evals_at_start O <= 1)%Z ->
    (forall t v, k_decider K t v = Classic) -> min_improvement O <= 0 ->
    0 < r0 -> 0 < min_radius (radius_o O) <= max_radius (radius_o O) ->
    max_radius_to_step_ratio (radius_o O) = PInf -> rho_increase (radius_o O) <= 1 ->
    1 <= expansion_factor (radius_o O) ->
    makes_good_steps d F xs theta (large_step (radius_o O)) K ->
    0 < theta -> (forall y, length y = d -> F y <= F x -> dist y xs <= D) ->
    D <= theta * max_radius (radius_o O) -> D <= theta * (r0 * expansion_factor (radius_o O) ^ N) ->
    (forall k s, (N < k)%nat -> nth_error (res_states r) k = Some s -> st_x s = xs) /\
    ((S N < length (res_states r))%nat -> solution_x r = xs).
Proof.
  intros VM SM CV ft d w K O pad x r0 b h r f F xs theta D N V DF VF HQ HN HS HK HM Hr HR HP HI HE GS HT HD HD1 HD2.
  destruct (C78_states_are_consistent _ _ _ _ _ _ _ _ _ _ _ _ _ _ V) as (_ & (s0 & S0 & Sx & _) & CS).
  pose proof (C163_iteration _ _ _ _ _ _ _ _ _ _ _ _ _ _ f V DF HQ HN HS HK) as IT.
  pose proof (C164_radius_update _ _ _ _ _ _ _ _ _ _ _ _ _ _ V HQ Hr HR HP) as (RI & RU).
  pose proof (vr_x _ _ _ _ _ _ _ _ _ _ _ V) as Lx.
  pose proof (gk_solve _ _ _ _ (vr_K _ _ _ _ _ _ _ _ _ _ _ V)) as GSol.
  set (ef := expansion_factor (radius_o O)) in *. set (mx := max_radius (radius_o O)) in *.
  (* one iteration *)
  assert (Step : forall k s s', nth_error (res_states r) k = Some s -> nth_error (res_states r) (S k) = Some s' ->
    length (st_x s) = d -> 0 < r_radius (st_region s') ->
    length (st_x s') = d /\ F (st_x s') <= F (st_x s) /\
    (dist (st_x s) xs <= theta * r_radius (st_region s') -> st_x s' = xs) /\
    (st_x s = xs -> st_x s' = xs) /\
    (st_x s' = xs \/ rho_ge (st_rho s') (rho_increase (radius_o O)) /\
       large_step (radius_o O) * r_radius (st_region s') <= dist (st_x s') (st_x s))).
  { intros k s s' H1 H2 Ls Pr. destruct (CS _ _ _ H1 H2) as [CE _].
    destruct (IT k s s' H1 H2) as (sub & SV & _ & RA & _ & AX & RX).
    destruct (model_of_region _ _ _ _ _ _ _ _ _ _ _ _ _ _ V k s s' H1 H2) as (pts & fv & old & v & KF & KA).
    destruct (GS pts fv (st_region s') old v _ sub ltac:(now rewrite CE) Pr KF KA SV) as [G1 G2 G3 G4]. rewrite CE in *.
    assert (Lsub : length (sub_x sub) = d) by (apply (GSol _ _ _ ltac:(now rewrite CE) SV)).
    destruct (RA (F (st_x s)) (F (sub_x sub)) _ (VF _ Ls) (VF _ Lsub) G1) as [RH AC].
    assert (At : st_accepted s' = true) by (apply AC; lra).
    destruct (AX At) as [EX _]. rewrite EX. split; [easy|]. split; [easy|]. split; [exact G3|]. split.
    - intros E. apply G3. rewrite E. rewrite dist_self. nra.
    - destruct (list_eq_dec Req_EM_T (sub_x sub) xs) as [E|NE]; [now left|]. right.
      destruct (G4) as [E|[G5 G6]]; [|easy|].
      { intros E. apply NE, G3. rewrite E, dist_self. nra. }
      split; [|exact G6]. destruct RH as [RH _]. rewrite RH by lra. cbn [rho_ge].
      replace ((F (st_x s) - F (sub_x sub)) / (F (st_x s) - F (sub_x sub))) with 1 by (field; lra). exact HI. }
  (* all iterations *)
  assert (Inv : forall k s s', nth_error (res_states r) k = Some s -> nth_error (res_states r) (S k) = Some s' ->
    length (st_x s) = d /\ F (st_x s) <= F x /\ 0 < r_radius (st_region s') /\
    (st_x s = xs \/ Rmin (D / theta) (r0 * ef ^ k) <= r_radius (st_region s'))).
  { induction k as [|k IH]; intros s s' H1 H2.
    - rewrite S0 in H1. injection H1 as <-. rewrite Sx. destruct (RI s' (or_intror H2)) as (-> & _).
      split; [easy|]. split; [lra|]. split; [easy|]. right. cbn [pow]. rewrite Rmult_1_r. apply Rmin_r.
    - destruct (nth_error (res_states r) k) as [q|] eqn:H0.
      2:{ apply nth_error_None in H0. assert (S k < length (res_states r))%nat by (apply nth_error_Some; congruence). lia. }
      destruct (IH q s eq_refl H1) as (L1 & F1 & P1 & C1).
      destruct (Step k q s H0 H1 L1 P1) as (L2 & F2 & _ & St & C2).
      destruct (RU k q s s' H0 H1 H2) as (_ & _ & raw & ER & E1 & _).
      split; [easy|]. split; [lra|].
      assert (P2 : 0 < r_radius (st_region s')).
      { rewrite ER. apply Rmin_glb_lt; [lra|]. apply Rlt_le_trans with (2 := Rmax_r _ _). lra. }
      split; [exact P2|].
      destruct C2 as [C2|[C2 C3]]; [now left|]. destruct C1 as [C1|C1]; [left; now apply St|]. right.
      rewrite ER, (E1 (conj C2 C3)). fold mx ef.
      assert (Q : D / theta <= mx).
      { apply (Rmult_le_reg_l theta); [easy|]. replace (theta * (D / theta)) with D by (field; lra). exact HD1. }
      assert (Hq : Rmin (D / theta) (r0 * ef ^ S k) <= r_radius (st_region s) * ef).
      { assert (PE : 0 < ef ^ k) by (apply pow_lt; lra). cbn [pow].
        destruct (Rle_or_lt (D / theta) (r0 * ef ^ k)) as [A|A].
        - rewrite Rmin_left in C1 by lra. apply Rle_trans with (1 := Rmin_l _ _). nra.
        - rewrite Rmin_right in C1 by lra. apply Rle_trans with (1 := Rmin_r _ _). nra. }
      apply Rmin_glb; [apply Rle_trans with (1 := Rmin_l _ _); exact Q|].
      apply Rle_trans with (2 := Rmax_l _ _). exact Hq. }
  assert (End : forall k s, (N < k)%nat -> nth_error (res_states r) k = Some s -> st_x s = xs).
  { intros k s Hk H2. destruct k as [|k]; [lia|].
    destruct (nth_error (res_states r) k) as [q|] eqn:H1.
    2:{ apply nth_error_None in H1. assert (S k < length (res_states r))%nat by (apply nth_error_Some; congruence). lia. }
    destruct (Inv k q s H1 H2) as (L1 & F1 & P1 & C1).
    destruct (Step k q s H1 H2 L1 P1) as (_ & _ & G & St & _).
    destruct C1 as [C1|C1]; [now apply St|]. apply G.
    pose proof (HD _ L1 F1) as B. apply Rle_trans with (1 := B).
    assert (EK : ef ^ N <= ef ^ k) by (apply Rle_pow; [easy|lia]).
    apply Rle_trans with (theta * Rmin (D / theta) (r0 * ef ^ k)); [|apply Rmult_le_compat_l; lra].
    unfold Rmin. destruct (Rle_dec _ _).
    - apply Req_le. field. lra.
    - apply Rle_trans with (1 := HD2). apply Rmult_le_compat_l; [lra|]. apply Rmult_le_compat_l; lra. }
  split; [exact End|]. intros LN.
  destruct (C78_solution_is_last_accepted _ _ _ _ _ _ _ _ _ _ _ _ _ _ V) as (i & si & Hi & _ & Li & -> & _).
  destruct (nth_error (res_states r) (S N)) as [sn|] eqn:HSN; [|apply nth_error_None in HSN; lia].
  destruct (Nat.le_gt_cases i N) as [Le|Gt]; [|now apply (End i)].
  (* no later step is accepted, so the point stays *)
  assert (Stay : forall j sj, (i <= j)%nat -> nth_error (res_states r) j = Some sj -> st_x sj = st_x si).
  { induction j as [|j IHj]; intros sj Hj E.
    - assert (i = 0%nat) as -> by lia. congruence.
    - destruct (Nat.eq_dec i (S j)) as [->|Ne]; [congruence|].
      destruct (nth_error (res_states r) j) as [q|] eqn:Hq.
      2:{ apply nth_error_None in Hq. assert (S j < length (res_states r))%nat by (apply nth_error_Some; congruence). lia. }
      rewrite (proj1 (proj2 (CS _ _ _ Hq E) (Li (S j) sj ltac:(lia) E))). apply IHj; [lia|easy]. }
  rewrite <- (Stay (S N) sn ltac:(lia) HSN). apply (End (S N)); [lia|easy].
Qed.

(** ** Convex criteria *)

(** The point that divides the segment from [y] to [z]. *)
Definition toward (y z : vec) (t : R) : vec := map2 (fun a b => a + t * (b - a)) y z.
Definition convex (d : nat) (F : vec -> R) : Prop :=
  forall y z t, length y = d -> length z = d -> 0 <= t <= 1 -> F (toward y z t) <= (1 - t) * F y + t * F z.

(** Every step is a minimizer of the criterion in the ball around the center, and the model predicts the improvement. *)
Definition exact_steps {VM SM CV} (d : nat) (F : vec -> R) (K : components VM SM CV) : Prop :=
  forall pts fv reg old v m s, length (r_center reg) = d -> 0 < r_radius reg ->
    k_fit K pts fv reg old = Ok v -> k_agg K v = Ok m -> k_solve K m reg = Ok s ->
    sub_ei s = Fin (F (r_center reg) - F (sub_x s)) /\
    dist (sub_x s) (r_center reg) <= r_radius reg /\
    forall z, length z = d -> dist z (r_center reg) <= r_radius reg -> F (sub_x s) <= F z.

Lemma toward_length y z t : length z = length y -> length (toward y z t) = length y.
Proof. intros L. unfold toward. rewrite map2_length. lia. Qed.
Lemma toward_dist y z t : 0 <= t -> length z = length y -> dist (toward y z t) y = t * dist y z.
Proof.
  intros Ht L. rewrite (dist_sym y z). unfold dist, norm.
  assert (E : sumsq (vsub (toward y z t) y) = (t * t) * sumsq (vsub z y)).
  { revert z L. induction y as [|a y IH]; intros [|c z] L; try discriminate.
    - unfold sumsq, dot. cbn. lra.
    - unfold sumsq, toward, vsub in *. cbn [map2]. rewrite !dot_cons, IH by (now injection L). ring. }
  rewrite E, sqrt_mult_alt by nra. f_equal. now apply sqrt_square.
Qed.

(** From a point inside of the ball that is not the minimizer one can improve within the ball. *)
Lemma improve d F c y xs rad : convex d F -> length c = d -> length y = d -> length xs = d ->
  dist y c < rad -> F xs < F y -> exists z, length z = d /\ dist z c <= rad /\ F z < F y.
Proof.
  intros CV Lc Ly Lx HB HF. set (e := rad - dist y c).
  assert (Pd : 0 < dist y xs + 1) by (pose proof (dist_nonneg y xs); lra).
  set (t := Rmin 1 (e / (dist y xs + 1))).
  assert (He : 0 < e / (dist y xs + 1)) by (apply Rdiv_lt_0_compat; unfold e; lra).
  assert (Ht : 0 < t <= 1) by (unfold t; split; [apply Rmin_glb_lt; lra|apply Rmin_l]).
  assert (Te : t * (dist y xs + 1) <= e).
  { apply Rle_trans with (e / (dist y xs + 1) * (dist y xs + 1)); [apply Rmult_le_compat_r; [lra|apply Rmin_r]|].
    apply Req_le. field. lra. }
  exists (toward y xs t). split; [rewrite toward_length; congruence|]. split.
  - apply Rle_trans with (1 := dist_triangle (toward y xs t) y c ltac:(apply toward_length; congruence) ltac:(congruence)).
    rewrite toward_dist by (try lra; congruence). unfold e in Te. nra.
  - pose proof (CV y xs t Ly Lx ltac:(lra)). nra.
Qed.

Lemma exact_steps_are_good {VM SM CV} d F xs large (K : components VM SM CV) ft w : good_components ft d w K ->
  convex d F -> length xs = d -> (forall y, length y = d -> y <> xs -> F xs < F y) -> large <= 1 ->
  exact_steps d F K -> makes_good_steps d F xs 1 large K.
Proof.
  intros GK CF Lx U HL EX pts fv reg old v m s Lc Pr KF KA KS.
  destruct (EX pts fv reg old v m s Lc Pr KF KA KS) as (E1 & E2 & E3).
  pose proof (gk_solve _ _ _ _ GK m reg s Lc KS) as Ls.
  assert (D0 : dist (r_center reg) (r_center reg) <= r_radius reg) by (rewrite dist_self; lra).
  split; [exact E1|now apply E3| |].
  - rewrite Rmult_1_l. intros HD. destruct (list_eq_dec Req_EM_T (sub_x s) xs) as [|NE]; [easy|].
    rewrite dist_sym in HD. specialize (E3 xs Lx HD). pose proof (U _ Ls NE). lra.
  - intros NC. destruct (list_eq_dec Req_EM_T (sub_x s) xs) as [|NE]; [now left|]. right. split.
    + destruct (improve d F (r_center reg) (r_center reg) xs (r_radius reg) CF Lc Lc Lx ltac:(rewrite dist_self; lra) (U _ Lc NC))
        as (z & Z1 & Z2 & Z3). pose proof (E3 z Z1 Z2). lra.
    + apply Rle_trans with (r_radius reg); [nra|]. destruct (Rle_or_lt (r_radius reg) (dist (sub_x s) (r_center reg))) as [|HB]; [easy|].
      destruct (improve d F (r_center reg) (sub_x s) xs (r_radius reg) CF Lc Ls Lx HB (U _ Ls NE)) as (z & Z1 & Z2 & Z3).
      pose proof (E3 z Z1 Z2). lra.
Qed.

(** With exact models and exact steps a run on a convex criterion with a unique minimizer and a bounded level set
    reaches the minimizer exactly, after a number of iterations that is logarithmic in the size of the level set,
    and stays there. *)
Theorem C190_convex_criteria_are_minimized :
  forall VM SM CV ft d w (K : components VM SM CV) O pad x r0 b h r f F xs D N,
    valid_run ft d w K O pad x r0 b h r ->
    deterministic K f -> (forall y, length y = d -> value ft f y = Fin (F y)) ->
    noisy O = false -> n_evals_per_point0 O = 1%Z -> (n_evals_at_start O <= 1)%Z ->
    (forall t v, k_decider K t v = Classic) -> min_improvement O <= 0 ->
    0 < r0 -> 0 < min_radius (radius_o O) <= max_radius (radius_o O) ->
    max_radius_to_step_ratio (radius_o O) = PInf -> rho_increase (radius_o O) <= 1 -> large_step (radius_o O) <= 1 ->
    1 <= expansion_factor (radius_o O) ->
    convex d F -> length xs = d -> (forall y, length y = d -> y <> xs -> F xs < F y) ->
    exact_steps d F K ->
    (forall y, length y = d -> F y <= F x -> dist y xs <= D) ->
    D <= max_radius (radius_o O) -> D <= r0 * expansion_factor (radius_o O) ^ N ->
    (forall k s, (N < k)%nat -> nth_error (res_states r) k = Some s -> st_x s = xs) /\
    ((S N < length (res_states r))%nat -> solution_x r = xs).
Proof.
  intros VM SM CV ft d w K O pad x r0 b h r f F xs D N V DF VF HQ HN HS HK HM Hr HR HP HI HL HE CF Lx U EX HD HD1 HD2.
  apply (C190_good_steps_reach_the_target VM SM CV ft d w K O pad x r0 b h r f F xs 1 D N); try assumption; try lra.
  apply (exact_steps_are_good d F xs _ K ft w); try assumption. exact (vr_K _ _ _ _ _ _ _ _ _ _ _ V).
Qed.

(** (x - 100)^2 from 0 with initial radius 1: the radius doubles in every iteration, after the eighth the
    minimizer is reached.  The steps are those of C189. *)
Definition convex_config : config :=
  mkConfig false (mkConv true 0 0 0 0 0 0 0) (mkStop 12 1000 PInf) default_radius_options
    (mkNoiseOptions 1 1 1 1 1 5 1) 1 3 (mkStag (1/2) true (1/2) 1 1) 4 1 1 0.
Example C190_instance : exists h r,
  valid_run Scalar 1 1 (ideal_components 100) convex_config 0 [0] 1 None h r /\
  (9 < length (res_states r))%nat /\ solution_x r = [100].
Proof.
  destruct (tranquilo_go Scalar 1 1 None _ convex_config (ideal_good 100) (ideal_total 100)
    ltac:(split; cbn; lia) 0%R [0] 1 ltac:(lia) ltac:(lia) eq_refl) as (h & r & H).
  assert (V : valid_run Scalar 1 1 (ideal_components 100) convex_config 0 [0] 1 None h r)
    by (split; [apply ideal_good|lia|lia|reflexivity|cbn; lia|exact H]).
  exists h, r. split; [exact V|].
  assert (LN : (9 < length (res_states r))%nat).
  { pose proof (C90_evaluations_per_iteration _ _ _ _ _ _ _ _ _ _ _ _ _ _ V eq_refl eq_refl
      ltac:(cbn; lia) ltac:(cbn; lia) ltac:(reflexivity)
      ltac:(intros t j h' reg n m xs; apply (proj2 center_sampler_ok))) as (_ & _ & C & _).
    assert (NM : next_multiple 3 1 = 3%Z).
    { destruct (C35_next_multiple 3 1 ltac:(lia)) as (_ & Q & _). lia. }
    cbn [convex_config target_sample_size batch_size stag_o max_trials sample_increment Nat.max Nat.mul] in C.
    rewrite NM in C. change (Z.of_nat (1 + 0)) with 1%Z in C.
    open_run V.
    assert (LN : length (res_states r) = S (length l)) by (rewrite RS; simpl; now rewrite map_length).
    rewrite LN in *. cbn in LL.
    destruct EN as [E1 E2 E3|pre old new E1|E1 E2 E3 E4]; cbn in E1; try lia; try discriminate.
    cbn in E2. lia. }
  split; [exact LN|].
  apply (C190_convex_criteria_are_minimized _ _ _ Scalar 1 1 (ideal_components 100) convex_config 0 [0] 1 None h r
    (fun y => Ret (VS (Fin (away 100 y)))) (away 100) [100] 100 8); try easy; cbn; try lra; try lia.
  - intros [|y [|]] [|z [|]] t Ly Lz Ht; try discriminate. unfold away, toward. cbn [map2 hd].
    assert (0 <= t * (1 - t) * ((y - z) * (y - z))) by (apply Rmult_le_pos; [nra|apply Rle_0_sqr]). lra.
  - intros [|y [|]] Ly NE; try discriminate. unfold away. cbn [hd].
    assert (y <> 100) by congruence. assert (0 < (y - 100) * (y - 100)); [|lra].
    apply Rsqr_pos_lt. lra.
  - intros pts fv reg old v m s Lc Pr _ _ KS. cbn in KS. injection KS as <-. cbn [sub_x sub_ei].
    destruct (r_center reg) as [|c [|]] eqn:Ec; try discriminate. split; [reflexivity|].
    unfold best_step. rewrite Ec. cbn [map]. set (rad := r_radius reg) in *. split.
    + rewrite dist_line. apply Rabs_le. unfold Rmax, Rmin. repeat destruct (Rle_dec _ _); lra.
    + intros [|y [|]] L D; try discriminate. rewrite dist_line in D. unfold away. cbn [hd].
      assert (DA : - rad <= y - c <= rad) by (unfold Rabs in D; destruct (Rcase_abs (y - c)); lra). clear D.
      apply (Rsqr_le_abs_1 (_ - 100) (y - 100)).
      unfold Rmax, Rmin, Rabs. repeat destruct (Rle_dec _ _); repeat destruct (Rcase_abs _); lra.
  - intros [|y [|]] Ly HF; try discriminate. unfold away in HF. cbn [hd] in HF. rewrite dist_line.
    apply Rabs_le. nra.
Qed.
