(** Properties C195 and C196: how many iterations a run can take while the models stay good. *)
From Coq Require Import Reals List Arith ZArith Bool Lia Lra.
From Verif Require Import Base XR Vec FVec HistoryModel HistorySpec HistoryProofs WrapModel WrapProofs
  VolumeModel RegionModel AdjustModel AcceptModel FilterModel LogSpec LogProofs Prop_Volume Prop_Region
  Prop_Adjust AcceptProofs Prop_Accept Prop_Filter MainModel MainProofs MainPhases MainLoop
  MainProgress Prop_Main Prop_Main2 Prop_Main3 Prop_Main4 Prop_Step Prop_Reject.
Import ListNotations.
Open Scope R_scope.

(** The iteration from state [s] to state [s'] used a good model and a good step: with the radius
    D of its region, the improvement promised is at least sigma D, and it differs from the
    improvement realised by at most kappa D^2. *)
Definition predicted {VM SM CV} ft (K : components VM SM CV) f (kappa sigma : R)
    (s s' : MainModel.state VM SM) : Prop :=
  forall sub, k_solve K (st_model s') (st_region s') = Ok sub ->
  exists u v e,
    value ft f (st_x s) = Fin u /\ value ft f (sub_x sub) = Fin v /\ sub_ei sub = Fin e /\
    sigma * r_radius (st_region s') <= e /\
    Rabs (u - v - e) <= kappa * (r_radius (st_region s') * r_radius (st_region s')).

(** * C195 - an iteration in a small region succeeds *)

(** If the region is small compared to the decrease promised, then the step is accepted, rho
    reaches [rho_decrease], and the criterion falls by a share of the radius. *)
Theorem C195_small_region_succeeds :
  forall VM SM CV ft d w (K : components VM SM CV) O pad x r0 b h r f kappa sigma,
    valid_run ft d w K O pad x r0 b h r ->
    deterministic K f ->
    noisy O = false -> n_evals_per_point0 O = 1%Z -> (n_evals_at_start O <= 1)%Z ->
    (forall t v, k_decider K t v = Classic) ->
    min_improvement O <= 0 -> 0 <= rho_decrease (radius_o O) -> 0 < sigma ->
    forall k s s', nth_error (res_states r) k = Some s -> nth_error (res_states r) (S k) = Some s' ->
    predicted ft K f kappa sigma s s' ->
    0 < r_radius (st_region s') ->
    kappa * r_radius (st_region s') <= (1 - rho_decrease (radius_o O)) * sigma ->
    st_accepted s' = true /\ rho_ge (st_rho s') (rho_decrease (radius_o O)) /\
    exists u u', st_fval s = Fin u /\ st_fval s' = Fin u' /\
      u' <= u - rho_decrease (radius_o O) * sigma * r_radius (st_region s').
Proof.
  intros VM SM CV ft d w K O pad x r0 b h r f kappa sigma V HF HQ HN HS HC HM HD Hs k s s' H1 H2 HP Hr Hk.
  destruct (C163_iteration _ _ _ _ _ _ _ _ _ _ _ _ _ _ f V HF HQ HN HS HC k s s' H1 H2)
    as (sub & S1 & F1 & S2 & _ & S4 & _).
  destruct (HP sub S1) as (u & v & e & E1 & E2 & E3 & E4 & E5).
  destruct (S2 u v e E1 E2 E3) as [[R1 _] A].
  set (D := r_radius (st_region s')) in *. set (t := rho_decrease (radius_o O)) in *.
  assert (Pe : 0 < e) by (assert (0 < sigma * D) by (apply Rmult_lt_0_compat; lra); lra).
  assert (Q : t * e <= u - v).
  { assert (kappa * (D * D) <= (1 - t) * sigma * D).
    { rewrite <- Rmult_assoc. apply Rmult_le_compat_r; lra. }
    assert (E5' : - (kappa * (D * D)) <= u - v - e <= kappa * (D * D)).
    { revert E5. unfold Rabs. destruct (Rcase_abs (u - v - e)); lra. }
    destruct (Rle_lt_dec t 1) as [T|T].
    - assert ((1 - t) * (sigma * D) <= (1 - t) * e) by (apply Rmult_le_compat_l; lra). nra.
    - exfalso. assert (0 < (t - 1) * (sigma * D)).
      { apply Rmult_lt_0_compat; [lra|]. apply Rmult_lt_0_compat; lra. }
      pose proof (Rabs_pos (u - v - e)). nra. }
  assert (0 <= t * e) by (apply Rmult_le_pos; lra).
  assert (Ac : st_accepted s' = true) by (apply A; lra).
  split; [easy|]. split.
  - rewrite R1 by lra. cbn. apply Rmult_le_reg_r with e; [lra|].
    unfold Rdiv. rewrite Rmult_assoc, Rinv_l by lra. lra.
  - exists u, v. split; [congruence|]. destruct (S4 Ac) as [_ ->]. split; [easy|].
    assert (t * (sigma * D) <= t * e) by (apply Rmult_le_compat_l; lra). lra.
Qed.

(** The radius of the next iteration is then not smaller. *)
Theorem C195_next_radius :
  forall VM SM CV ft d w (K : components VM SM CV) O pad x r0 b h r f kappa sigma,
    valid_run ft d w K O pad x r0 b h r ->
    deterministic K f ->
    noisy O = false -> n_evals_per_point0 O = 1%Z -> (n_evals_at_start O <= 1)%Z ->
    (forall t v, k_decider K t v = Classic) ->
    min_improvement O <= 0 -> 0 <= rho_decrease (radius_o O) -> 0 < sigma ->
    0 < r0 -> 0 < min_radius (radius_o O) <= max_radius (radius_o O) ->
    max_radius_to_step_ratio (radius_o O) = PInf -> 1 <= expansion_factor (radius_o O) ->
    forall k s s' s'', nth_error (res_states r) k = Some s -> nth_error (res_states r) (S k) = Some s' ->
    nth_error (res_states r) (S (S k)) = Some s'' ->
    predicted ft K f kappa sigma s s' ->
    0 < r_radius (st_region s') <= max_radius (radius_o O) ->
    kappa * r_radius (st_region s') <= (1 - rho_decrease (radius_o O)) * sigma ->
    r_radius (st_region s') <= r_radius (st_region s'') <= max_radius (radius_o O).
Proof.
  intros VM SM CV ft d w K O pad x r0 b h r f kappa sigma V HF HQ HN HS HC HM HD Hs H0 HR HI HE
    k s s' s'' H1 H2 H3 HP Hr Hk.
  destruct (C195_small_region_succeeds _ _ _ _ _ _ _ _ _ _ _ _ _ _ f kappa sigma V HF HQ HN HS HC HM HD Hs k s s'
    H1 H2 HP ltac:(lra) Hk) as (_ & RG & _).
  destruct (C164_radius_update _ _ _ _ _ _ _ _ _ _ _ _ _ _ V HQ H0 HR HI) as [_ B].
  destruct (B k s s' s'' H1 H2 H3) as (_ & _ & raw & -> & B1 & B2 & _).
  split; [|apply Rmin_l].
  apply Rmin_glb; [lra|]. eapply Rle_trans; [|apply Rmax_l].
  set (D := r_radius (st_region s')) in *.
  destruct (Rle_lt_dec (large_step (radius_o O) * D) (dist (st_x s') (st_x s))) as [L|L].
  - destruct (st_rho s') as [q| | |] eqn:E; cbn in RG; try easy.
    + destruct (Rle_lt_dec (rho_increase (radius_o O)) q) as [I|I].
      * rewrite B1 by (split; [exact I|lra]).
        assert (D * 1 <= D * expansion_factor (radius_o O)) by (apply Rmult_le_compat_l; lra). lra.
      * rewrite B2; [lra| |exact RG]. cbn. intros [X _]. lra.
    + rewrite B1 by (split; [exact I|lra]).
      assert (D * 1 <= D * expansion_factor (radius_o O)) by (apply Rmult_le_compat_l; lra). lra.
  - rewrite B2; [lra| |exact RG]. intros [_ X]. lra.
Qed.

(** Minimizing x^2 from 3 with a solver that goes a tenth to the left and promises an improvement
    of 1: the first step, to 29/10, improves by 59/100, which is within 1/2 of the promise. *)
Notation ex195 := (ex_components (fun c => c - / 10)%R (fun _ _ => Classic) center_sampler ex_crit).
Definition square_crit (x : vec) : outcome := Ret (VS (Fin (hd 0 x * hd 0 x))).

Lemma ex195_run : exists h r s0 s1 s2,
  valid_run Scalar 1 1 ex195 (ex_config 5 false true) 0 [3] 1 None h r /\
  nth_error (res_states r) 0 = Some s0 /\ nth_error (res_states r) 1 = Some s1 /\
  nth_error (res_states r) 2 = Some s2 /\ st_fval s0 = Fin 9 /\ r_radius (st_region s1) = 1 /\
  predicted Scalar ex195 square_crit (/ 2) 1 s0 s1.
Proof.
  destruct (ex_long_run (fun c => c - / 10)) as (h & r & V & L).
  destruct (nth_error (res_states r) 0) as [s0|] eqn:H0; [|apply nth_error_None in H0; lia].
  destruct (nth_error (res_states r) 1) as [s1|] eqn:H1; [|apply nth_error_None in H1; lia].
  destruct (nth_error (res_states r) 2) as [s2|] eqn:H2; [|apply nth_error_None in H2; lia].
  exists h, r, s0, s1, s2. split; [exact V|]. do 3 (split; [assumption|]).
  destruct (C164_radius_update _ _ _ _ _ _ _ _ _ _ _ _ _ _ V eq_refl ltac:(lra) ltac:(cbn; lra) eq_refl) as [A _].
  destruct (A s1 (or_intror H1)) as (A1 & A2 & _).
  destruct (C163_iteration _ _ _ _ _ _ _ _ _ _ _ _ _ _ square_crit V
    ltac:(intros h' args cores; reflexivity) eq_refl eq_refl ltac:(cbn; lia) ltac:(reflexivity) 0%nat s0 s1 H0 H1)
    as (_ & _ & F1 & _).
  assert (X0 : st_x s0 = [3]) by (open_run V; rewrite RS in H0; injection H0 as <-; exact X0).
  split. { rewrite F1, X0. cbn. f_equal. lra. }
  split; [exact A1|]. intros sub Q.
  unfold ex_components, ex_solve in Q. cbn [k_solve] in Q. rewrite A2 in Q. injection Q as <-.
  exists (3 * 3), ((3 - / 10) * (3 - / 10)), 1. rewrite X0, A1.
  split; [reflexivity|]. split; [reflexivity|]. split; [reflexivity|]. split; [lra|].
  unfold Rabs. destruct Rcase_abs; lra.
Qed.

Example C195_instance : exists h r s0 s1 s2,
  valid_run Scalar 1 1 ex195 (ex_config 5 false true) 0 [3] 1 None h r /\
  deterministic ex195 square_crit /\
  nth_error (res_states r) 0 = Some s0 /\ nth_error (res_states r) 1 = Some s1 /\
  nth_error (res_states r) 2 = Some s2 /\
  predicted Scalar ex195 square_crit (/ 2) 1 s0 s1 /\
  / 2 * r_radius (st_region s1) <= (1 - rho_decrease default_radius_options) * 1 /\
  st_accepted s1 = true /\ 1 <= r_radius (st_region s2).
Proof.
  destruct ex195_run as (h & r & s0 & s1 & s2 & V & H0 & H1 & H2 & F0 & R1 & PR).
  exists h, r, s0, s1, s2. split; [exact V|]. split; [intros h' args cores; reflexivity|].
  do 4 (split; [assumption|]).
  assert (G : / 2 * r_radius (st_region s1) <= (1 - rho_decrease default_radius_options) * 1) by (rewrite R1; cbn; lra).
  split; [exact G|]. split.
  - apply (C195_small_region_succeeds _ _ _ _ _ _ _ _ _ _ _ _ _ _ square_crit (/ 2) 1 V
      ltac:(intros h' args cores; reflexivity) eq_refl eq_refl ltac:(cbn; lia) ltac:(reflexivity)
      ltac:(cbn; lra) ltac:(cbn; lra) ltac:(lra) 0%nat s0 s1 H0 H1 PR ltac:(rewrite R1; lra) G).
  - rewrite <- R1.
    apply (C195_next_radius _ _ _ _ _ _ _ _ _ _ _ _ _ _ square_crit (/ 2) 1 V
      ltac:(intros h' args cores; reflexivity) eq_refl eq_refl ltac:(cbn; lia) ltac:(reflexivity)
      ltac:(cbn; lra) ltac:(cbn; lra) ltac:(lra) ltac:(lra) ltac:(cbn; lra) eq_refl ltac:(cbn; lra)
      0%nat s0 s1 s2 H0 H1 H2 PR ltac:(rewrite R1; cbn; lra) G).
Qed.

(** * C196 - the number of iterations *)

(** The radius below which the run cannot fall. *)
Definition radius_floor (O : radius_options) (kappa sigma r0 : R) : R :=
  Rmin r0 (shrinking_factor O * ((1 - rho_decrease O) * sigma / kappa)).

(** What a state of the run and the next ones have to do with each other. *)
Lemma radius_step :
  forall VM SM CV ft d w (K : components VM SM CV) O pad x r0 b h r,
    valid_run ft d w K O pad x r0 b h r ->
    noisy O = false -> 0 < r0 -> 0 < min_radius (radius_o O) <= max_radius (radius_o O) ->
    max_radius_to_step_ratio (radius_o O) = PInf ->
    1 <= expansion_factor (radius_o O) -> 0 < shrinking_factor (radius_o O) <= 1 ->
    forall k s s' s'', nth_error (res_states r) k = Some s -> nth_error (res_states r) (S k) = Some s' ->
    nth_error (res_states r) (S (S k)) = Some s'' ->
    0 < r_radius (st_region s') <= max_radius (radius_o O) ->
    shrinking_factor (radius_o O) * r_radius (st_region s') <= r_radius (st_region s'') /\
    r_radius (st_region s'') <= max_radius (radius_o O) /\
    r_radius (st_region s'') <= Rmax (expansion_factor (radius_o O) * r_radius (st_region s')) (min_radius (radius_o O)) /\
    (~ rho_ge (st_rho s') (rho_decrease (radius_o O)) -> rho_decrease (radius_o O) <= rho_increase (radius_o O) ->
     r_radius (st_region s'') <= Rmax (shrinking_factor (radius_o O) * r_radius (st_region s')) (min_radius (radius_o O))).
Proof.
  intros VM SM CV ft d w K O pad x r0 b h r V HQ H0 HR HI HE HS k s s' s'' H1 H2 H3 Hr.
  destruct (C164_radius_update _ _ _ _ _ _ _ _ _ _ _ _ _ _ V HQ H0 HR HI) as [_ B].
  destruct (B k s s' s'' H1 H2 H3) as (_ & _ & raw & -> & B1 & B2 & B3).
  set (D := r_radius (st_region s')) in *. set (g := shrinking_factor (radius_o O)) in *.
  set (E := expansion_factor (radius_o O)) in *.
  assert (G1 : g * D <= 1 * D) by (apply Rmult_le_compat_r; lra).
  assert (G2 : 1 * D <= E * D) by (apply Rmult_le_compat_r; lra).
  assert (Dec : forall q t, rho_ge q t \/ ~ rho_ge q t).
  { intros [q| | |] t; cbn; try tauto; destruct (Rle_dec t q); auto. }
  assert (RB : g * D <= raw <= E * D).
  { destruct (Dec (st_rho s') (rho_increase (radius_o O))) as [I|I].
    - destruct (Rle_lt_dec (large_step (radius_o O) * D) (dist (st_x s') (st_x s))) as [L|L].
      + rewrite B1 by (split; [exact I|lra]). lra.
      + assert (N : ~ (rho_ge (st_rho s') (rho_increase (radius_o O)) /\
          large_step (radius_o O) * D <= dist (st_x s') (st_x s))) by (intros [_ X]; lra).
        destruct (Dec (st_rho s') (rho_decrease (radius_o O))) as [J|J];
          [rewrite (B2 N J)|rewrite (B3 N J)]; lra.
    - assert (N : ~ (rho_ge (st_rho s') (rho_increase (radius_o O)) /\
          large_step (radius_o O) * D <= dist (st_x s') (st_x s))) by tauto.
      destruct (Dec (st_rho s') (rho_decrease (radius_o O))) as [J|J];
          [rewrite (B2 N J)|rewrite (B3 N J)]; lra. }
  split.
  { apply Rmin_glb; [lra|]. eapply Rle_trans; [|apply Rmax_l]. lra. }
  split; [apply Rmin_l|]. split.
  - eapply Rle_trans; [apply Rmin_r|]. apply Rle_max_compat_r; lra.
  - intros J HI'. eapply Rle_trans; [apply Rmin_r|]. apply Rle_max_compat_r.
    rewrite B3; [lra| |exact J]. intros [X _]. apply J.
    destruct (st_rho s') as [q| | |]; cbn in *; try easy. lra.
Qed.

Theorem C196_radius_stays_large :
  forall VM SM CV ft d w (K : components VM SM CV) O pad x r0 b h r f kappa sigma,
    valid_run ft d w K O pad x r0 b h r ->
    deterministic K f ->
    noisy O = false -> n_evals_per_point0 O = 1%Z -> (n_evals_at_start O <= 1)%Z ->
    (forall t v, k_decider K t v = Classic) ->
    min_improvement O <= 0 -> 0 <= rho_decrease (radius_o O) -> 0 < sigma -> 0 < kappa ->
    0 < r0 <= max_radius (radius_o O) -> 0 < min_radius (radius_o O) <= max_radius (radius_o O) ->
    max_radius_to_step_ratio (radius_o O) = PInf ->
    1 <= expansion_factor (radius_o O) -> 0 < shrinking_factor (radius_o O) <= 1 ->
    forall n,
    (forall k s s', (S k < n)%nat -> nth_error (res_states r) k = Some s ->
       nth_error (res_states r) (S k) = Some s' -> predicted ft K f kappa sigma s s') ->
    forall j s, (j <= n)%nat -> nth_error (res_states r) j = Some s ->
      radius_floor (radius_o O) kappa sigma r0 <= r_radius (st_region s) <= max_radius (radius_o O).
Proof.
  intros VM SM CV ft d w K O pad x r0 b h r f kappa sigma V HF HQ HN HS HC HM HD Hs Hk H0 HR HI HE HG n HP.
  destruct (C164_radius_update _ _ _ _ _ _ _ _ _ _ _ _ _ _ V HQ ltac:(apply H0) HR HI) as [A _].
  assert (Main : forall j s, (S j <= n)%nat -> nth_error (res_states r) (S j) = Some s ->
    radius_floor (radius_o O) kappa sigma r0 <= r_radius (st_region s) <= max_radius (radius_o O) /\
    0 < r_radius (st_region s)).
  { induction j as [|j IH]; intros s Hj Hsj.
    - destruct (A s (or_intror Hsj)) as (-> & _). split; [|lra]. split; [apply Rmin_l|lra].
    - assert (exists s1, nth_error (res_states r) (S j) = Some s1) as [s1 H2].
      { destruct (nth_error (res_states r) (S j)) as [s1|] eqn:H3; [eauto|].
        apply nth_error_None in H3. assert (S (S j) < length (res_states r))%nat by (apply nth_error_Some; congruence). lia. }
      assert (exists s2, nth_error (res_states r) j = Some s2) as [s2 H3].
      { destruct (nth_error (res_states r) j) as [s2|] eqn:H3; [eauto|].
        apply nth_error_None in H3. assert (S (S j) < length (res_states r))%nat by (apply nth_error_Some; congruence). lia. }
      destruct (IH s1 ltac:(lia) H2) as [[I1 I2] I3].
      destruct (radius_step _ _ _ _ _ _ _ _ _ _ _ _ _ _ V HQ ltac:(apply H0) HR HI HE HG j s2 s1 s H3 H2 Hsj
        ltac:(lra)) as (J1 & J2 & _).
      assert (0 < r_radius (st_region s)).
      { eapply Rlt_le_trans; [|apply J1]. apply Rmult_lt_0_compat; lra. }
      split; [|easy]. split; [|easy].
      destruct (Rle_lt_dec (kappa * r_radius (st_region s1)) ((1 - rho_decrease (radius_o O)) * sigma)) as [L|L].
      + destruct (C195_next_radius _ _ _ _ _ _ _ _ _ _ _ _ _ _ f kappa sigma V HF HQ HN HS HC HM HD Hs
          ltac:(apply H0) HR HI HE j s2 s1 s H3 H2 Hsj (HP j s2 s1 ltac:(lia) H3 H2) ltac:(lra) L) as [M _]. lra.
      + eapply Rle_trans; [apply Rmin_r|]. eapply Rle_trans; [|apply J1].
        apply Rmult_le_compat_l; [lra|]. apply Rmult_le_reg_r with kappa; [easy|].
        unfold Rdiv. rewrite Rmult_assoc, Rinv_l by lra. lra. }
  intros [|j] s Hj Hsj.
  - destruct (A s (or_introl Hsj)) as (-> & _). split; [apply Rmin_l|lra].
  - apply (Main j s Hj Hsj).
Qed.

(** Among the first n iterations there are [a] in which rho reached [rho_decrease]; each of them
    lowers the criterion by a fixed amount, each of the others shrinks the region. *)
Theorem C196_successes_and_failures :
  forall VM SM CV ft d w (K : components VM SM CV) O pad x r0 b h r f kappa sigma,
    valid_run ft d w K O pad x r0 b h r ->
    deterministic K f ->
    noisy O = false -> n_evals_per_point0 O = 1%Z -> (n_evals_at_start O <= 1)%Z ->
    (forall t v, k_decider K t v = Classic) ->
    min_improvement O = 0 -> 0 <= rho_decrease (radius_o O) <= rho_increase (radius_o O) ->
    0 < sigma -> 0 < kappa ->
    0 < r0 <= max_radius (radius_o O) -> 0 < min_radius (radius_o O) <= max_radius (radius_o O) ->
    max_radius_to_step_ratio (radius_o O) = PInf ->
    1 <= expansion_factor (radius_o O) -> 0 < shrinking_factor (radius_o O) <= 1 ->
    min_radius (radius_o O) <= radius_floor (radius_o O) kappa sigma r0 ->
    forall n,
    (forall k s s', (k < n)%nat -> nth_error (res_states r) k = Some s ->
       nth_error (res_states r) (S k) = Some s' -> predicted ft K f kappa sigma s s') ->
    forall s0 u0 sn sm, nth_error (res_states r) 0 = Some s0 -> st_fval s0 = Fin u0 ->
    nth_error (res_states r) n = Some sn -> nth_error (res_states r) (S n) = Some sm ->
    exists a c un, (a + c = n)%nat /\ st_fval sn = Fin un /\
      INR a * (rho_decrease (radius_o O) * sigma * radius_floor (radius_o O) kappa sigma r0) <= u0 - un /\
      r_radius (st_region sm) <= r0 * expansion_factor (radius_o O) ^ a * shrinking_factor (radius_o O) ^ c.
Proof.
  intros VM SM CV ft d w K O pad x r0 b h r f kappa sigma V HF HQ HN HS HC HM HD Hs Hk H0 HR HI HE HG HL.
  destruct (C164_radius_update _ _ _ _ _ _ _ _ _ _ _ _ _ _ V HQ ltac:(apply H0) HR HI) as [A _].
  set (low := radius_floor (radius_o O) kappa sigma r0) in *.
  set (g := shrinking_factor (radius_o O)) in *. set (E := expansion_factor (radius_o O)) in *.
  set (t := rho_decrease (radius_o O)) in *.
  intros n HP s0 u0 sn sm S0 U0. revert sn sm. induction n as [|n IH]; intros sn sm Sn Sm.
  - rewrite S0 in Sn. injection Sn as <-. destruct (A sm (or_intror Sm)) as (-> & _).
    exists 0%nat, 0%nat, u0. split; [easy|]. split; [easy|]. cbn. lra.
  - assert (exists sp, nth_error (res_states r) n = Some sp) as [sp Sp].
    { destruct (nth_error (res_states r) n) as [sp|] eqn:H3; [eauto|].
      apply nth_error_None in H3. assert (S n < length (res_states r))%nat by (apply nth_error_Some; congruence). lia. }
    destruct (IH (fun k s s' Hk' => HP k s s' (Nat.lt_lt_succ_r _ _ Hk')) sp sn Sp Sn) as (a & c & up & E1 & E2 & E3 & E4). clear IH.
    pose proof (HP n sp sn ltac:(lia) Sp Sn) as PR.
    assert (RL : forall j s, (j <= S n)%nat -> nth_error (res_states r) j = Some s ->
      low <= r_radius (st_region s) <= max_radius (radius_o O)).
    { apply (C196_radius_stays_large _ _ _ _ _ _ _ _ _ _ _ _ _ _ f kappa sigma V HF HQ HN HS HC
        ltac:(lra) ltac:(apply HD) Hs Hk H0 HR HI HE HG). intros k s s' Hk'. apply HP. lia. }
    destruct (RL (S n) sn (le_n _) Sn) as [L1 L2]. set (D := r_radius (st_region sn)) in *.
    destruct (radius_step _ _ _ _ _ _ _ _ _ _ _ _ _ _ V HQ ltac:(apply H0) HR HI HE HG n sp sn sm Sp Sn Sm
      ltac:(fold D; lra)) as (J1 & J2 & J3 & J4). fold D g E t in J1, J3, J4.
    assert (Pg : 0 <= r0 * E ^ a * g ^ c).
    { apply Rmult_le_pos; [apply Rmult_le_pos|]; [lra|apply pow_le; lra|apply pow_le; lra]. }
    assert (PE : 1 * D <= E * D) by (apply Rmult_le_compat_r; lra).
    destruct (C163_iteration _ _ _ _ _ _ _ _ _ _ _ _ _ _ f V HF HQ HN HS HC n sp sn Sp Sn)
      as (sub & K1 & F1 & K2 & _ & K4 & K5).
    destruct (PR sub K1) as (u & v & e & X1 & X2 & X3 & X4 & X5). fold D in X4, X5.
    destruct (K2 u v e X1 X2 X3) as [[R1 _] AC].
    assert (u = up) as -> by congruence.
    assert (SD : 0 < sigma * D) by (apply Rmult_lt_0_compat; lra).
    rewrite R1 in J4 by lra. cbn [rho_ge] in J4.
    destruct (Rle_lt_dec (t * e) (up - v)) as [Y|Y].
    + assert (Ac : st_accepted sn = true).
      { apply AC. rewrite HM. assert (0 <= t * e) by (apply Rmult_le_pos; lra). lra. }
      destruct (K4 Ac) as [_ K6].
      exists (S a), c, v. split; [lia|]. split; [congruence|]. split.
      * rewrite S_INR.
        assert (t * sigma * low <= t * sigma * D).
        { apply Rmult_le_compat_l; [apply Rmult_le_pos; lra|easy]. }
        assert (t * (sigma * D) <= t * e) by (apply Rmult_le_compat_l; lra). lra.
      * eapply Rle_trans; [exact J3|]. apply Rmax_lub; [|].
        -- cbn [pow]. replace (r0 * (E * E ^ a) * g ^ c) with (E * (r0 * E ^ a * g ^ c)) by ring.
           apply Rmult_le_compat_l; lra.
        -- cbn [pow]. replace (r0 * (E * E ^ a) * g ^ c) with (E * (r0 * E ^ a * g ^ c)) by ring.
           assert (E * D <= E * (r0 * E ^ a * g ^ c)) by (apply Rmult_le_compat_l; lra). lra.
    + assert (NR : ~ t <= (up - v) / e).
      { intros Z. apply (Rmult_le_compat_r e) in Z; [|lra]. unfold Rdiv in Z.
        rewrite Rmult_assoc, Rinv_l in Z by lra. lra. }
      specialize (J4 NR (proj2 HD)).
      assert (LK : (1 - t) * sigma < kappa * D).
      { apply Rnot_le_lt. intros Z.
        destruct (C195_small_region_succeeds _ _ _ _ _ _ _ _ _ _ _ _ _ _ f kappa sigma V HF HQ HN HS HC ltac:(lra)
          ltac:(apply HD) Hs n sp sn Sp Sn PR ltac:(fold D; lra) Z) as (_ & Z2 & _).
        rewrite R1 in Z2 by lra. exact (NR Z2). }
      assert (LG : low <= g * D).
      { eapply Rle_trans; [apply Rmin_r|]. fold g t. apply Rmult_le_compat_l; [lra|].
        apply Rmult_le_reg_r with kappa; [easy|]. unfold Rdiv. rewrite Rmult_assoc, Rinv_l by lra. lra. }
      rewrite Rmax_left in J4 by lra.
      assert (exists un, st_fval sn = Fin un /\ un <= up) as (un & Un1 & Un2).
      { destruct (st_accepted sn) eqn:Ac.
        - destruct (K4 eq_refl) as [_ K6]. exists v. split; [congruence|]. apply proj1 in AC.
          specialize (AC eq_refl). lra.
        - destruct (K5 eq_refl) as [_ K6]. exists up. split; [congruence|lra]. }
      exists a, (S c), un. split; [lia|]. split; [easy|]. split; [lra|].
      eapply Rle_trans; [exact J4|]. cbn [pow].
      replace (r0 * E ^ a * (g * g ^ c)) with (g * (r0 * E ^ a * g ^ c)) by ring.
      apply Rmult_le_compat_l; lra.
Qed.

(** If expanding a region and shrinking it does not enlarge it, [M] decreases of the guaranteed
    size would take the criterion below a lower bound, and [N] + 1 shrinkings would take the first
    radius below the floor, then the run has at most 2 M + N iterations. *)
Theorem C196_number_of_iterations :
  forall VM SM CV ft d w (K : components VM SM CV) O pad x r0 b h r f kappa sigma,
    valid_run ft d w K O pad x r0 b h r ->
    deterministic K f ->
    noisy O = false -> n_evals_per_point0 O = 1%Z -> (n_evals_at_start O <= 1)%Z ->
    (forall t v, k_decider K t v = Classic) ->
    min_improvement O = 0 -> 0 < rho_decrease (radius_o O) <= rho_increase (radius_o O) ->
    rho_decrease (radius_o O) < 1 ->
    0 < sigma -> 0 < kappa ->
    0 < r0 <= max_radius (radius_o O) -> 0 < min_radius (radius_o O) <= max_radius (radius_o O) ->
    max_radius_to_step_ratio (radius_o O) = PInf ->
    1 <= expansion_factor (radius_o O) -> 0 < shrinking_factor (radius_o O) <= 1 ->
    expansion_factor (radius_o O) * shrinking_factor (radius_o O) <= 1 ->
    min_radius (radius_o O) <= radius_floor (radius_o O) kappa sigma r0 ->
    forall n,
    (forall k s s', (k < n)%nat -> nth_error (res_states r) k = Some s ->
       nth_error (res_states r) (S k) = Some s' -> predicted ft K f kappa sigma s s') ->
    forall s0 u0 sm lower M N, nth_error (res_states r) 0 = Some s0 -> st_fval s0 = Fin u0 ->
    nth_error (res_states r) (S n) = Some sm ->
    (forall s u, In s (res_states r) -> st_fval s = Fin u -> lower <= u) ->
    u0 - lower < (INR M + 1) * (rho_decrease (radius_o O) * sigma * radius_floor (radius_o O) kappa sigma r0) ->
    r0 * shrinking_factor (radius_o O) ^ S N < radius_floor (radius_o O) kappa sigma r0 ->
    (n <= 2 * M + N)%nat.
Proof.
  intros VM SM CV ft d w K O pad x r0 b h r f kappa sigma V HF HQ HN HS HC HM HD HD1 Hs Hk H0 HR HI HE HG HEG HL
    n HP s0 u0 sm lower M N S0 U0 Sm HB HU HNN.
  assert (exists sn, nth_error (res_states r) n = Some sn) as [sn Sn].
  { destruct (nth_error (res_states r) n) as [sn|] eqn:H3; [eauto|].
    apply nth_error_None in H3. assert (S n < length (res_states r))%nat by (apply nth_error_Some; congruence). lia. }
  destruct (C196_successes_and_failures _ _ _ _ _ _ _ _ _ _ _ _ _ _ f kappa sigma V HF HQ HN HS HC HM ltac:(lra)
    Hs Hk H0 HR HI HE HG HL n HP s0 u0 sn sm S0 U0 Sn Sm) as (a & c & un & E1 & E2 & E3 & E4).
  destruct (C196_radius_stays_large _ _ _ _ _ _ _ _ _ _ _ _ _ _ f kappa sigma V HF HQ HN HS HC
    ltac:(lra) ltac:(lra) Hs Hk H0 HR HI HE HG (S n) (fun k s s' Hk' => HP k s s' (proj2 (Nat.succ_lt_mono _ _) Hk')) (S n) sm (le_n _) Sm)
    as [E5 _].
  pose proof (HB sn un (nth_error_In _ _ Sn) E2) as E6.
  set (low := radius_floor (radius_o O) kappa sigma r0) in *.
  set (g := shrinking_factor (radius_o O)) in *. set (E := expansion_factor (radius_o O)) in *.
  set (t := rho_decrease (radius_o O)) in *.
  assert (Plow : 0 < low) by lra.
  assert (PT : 0 < t * sigma * low) by (repeat apply Rmult_lt_0_compat; lra).
  assert (a <= M)%nat.
  { apply Nat.nlt_ge. intros Z. apply le_INR in Z. rewrite S_INR in Z.
    apply (Rmult_le_compat_r (t * sigma * low)) in Z; lra. }
  assert (c <= a + N)%nat; [|lia].
  apply Nat.nlt_ge. intros Z.
  assert (EP : forall m, E ^ m * g ^ m <= 1).
  { intros m. rewrite <- Rpow_mult_distr. rewrite <- (pow1 m).
    apply pow_incr. split; [apply Rmult_le_pos; lra|lra]. }
  assert (GP : forall m, 0 <= g ^ m <= 1).
  { intros m. split; [apply pow_le; lra|]. rewrite <- (pow1 m). apply pow_incr. lra. }
  replace c with (a + (S N + (c - a - S N)))%nat in E4 by lia.
  rewrite !pow_add in E4.
  assert (r0 * E ^ a * (g ^ a * (g ^ S N * g ^ (c - a - S N))) <= r0 * g ^ S N); [|lra].
  replace (r0 * E ^ a * (g ^ a * (g ^ S N * g ^ (c - a - S N)))) with
    (r0 * (g ^ S N) * ((E ^ a * g ^ a) * g ^ (c - a - S N))) by ring.
  rewrite <- (Rmult_1_r (r0 * g ^ S N)) at 2.
  apply Rmult_le_compat_l; [apply Rmult_le_pos; [lra|apply GP]|].
  rewrite <- (Rmult_1_r 1). apply Rmult_le_compat; [|apply GP|apply EP|apply GP].
  apply Rmult_le_pos; [apply pow_le; lra|apply GP].
Qed.

(** With the default radius options: the bound of the classical theory, linear in the reciprocals
    of sigma and of the floor. *)
Example C196_instance : exists h r s0 s1 s2,
  valid_run Scalar 1 1 ex195 (ex_config 5 false true) 0 [3] 1 None h r /\
  deterministic ex195 square_crit /\
  radius_floor default_radius_options (/ 2) 1 1 = 9 / 10 /\
  (forall k s s', (k < 1)%nat -> nth_error (res_states r) k = Some s ->
     nth_error (res_states r) (S k) = Some s' -> predicted Scalar ex195 square_crit (/ 2) 1 s s') /\
  nth_error (res_states r) 0 = Some s0 /\ st_fval s0 = Fin 9 /\ nth_error (res_states r) 1 = Some s1 /\
  nth_error (res_states r) 2 = Some s2 /\
  (forall s u, In s (res_states r) -> st_fval s = Fin u -> 0 <= u) /\
  9 - 0 < (INR 100 + 1) * (rho_decrease default_radius_options * 1 * radius_floor default_radius_options (/ 2) 1 1) /\
  1 * shrinking_factor default_radius_options ^ 1 < radius_floor default_radius_options (/ 2) 1 1 /\
  (forall n s, (forall k s s', (k < n)%nat -> nth_error (res_states r) k = Some s ->
     nth_error (res_states r) (S k) = Some s' -> predicted Scalar ex195 square_crit (/ 2) 1 s s') ->
     nth_error (res_states r) (S n) = Some s -> (n <= 200)%nat).
Proof.
  destruct ex195_run as (h & r & s0 & s1 & s2 & V & H0 & H1 & H2 & F0 & R1 & PR).
  exists h, r, s0, s1, s2. split; [exact V|]. split; [intros h' args cores; reflexivity|].
  assert (RF : radius_floor default_radius_options (/ 2) 1 1 = 9 / 10).
  { unfold radius_floor. cbn. rewrite Rmin_right; lra. }
  split; [exact RF|]. split.
  { intros k s s' Hk E1 E2. destruct k; [|lia]. rewrite H0 in E1. rewrite H1 in E2.
    injection E1 as <-. injection E2 as <-. exact PR. }
  do 4 (split; [assumption|]).
  assert (LB : forall s u, In s (res_states r) -> st_fval s = Fin u -> 0 <= u).
  { intros s u Hs Hu. apply In_nth_error in Hs as [k Hs].
    destruct k as [|k].
    { rewrite H0 in Hs. injection Hs as <-. rewrite F0 in Hu. injection Hu as <-. lra. }
    destruct (nth_error (res_states r) k) as [sp|] eqn:Hp.
    2:{ apply nth_error_None in Hp. assert (S k < length (res_states r))%nat by (apply nth_error_Some; congruence). lia. }
    destruct (C163_iteration _ _ _ _ _ _ _ _ _ _ _ _ _ _ square_crit V
      ltac:(intros h' args cores; reflexivity) eq_refl eq_refl ltac:(cbn; lia) ltac:(reflexivity) k sp s Hp Hs)
      as (sub & _ & T1 & _ & _ & T2 & T3).
    destruct (st_accepted s).
    - destruct (T2 eq_refl) as [_ T4]. rewrite T4 in Hu. cbn in Hu. injection Hu as <-. apply Rle_0_sqr.
    - destruct (T3 eq_refl) as [_ T4]. rewrite T4, T1 in Hu. cbn in Hu. injection Hu as <-. apply Rle_0_sqr. }
  split; [exact LB|].
  assert (G1 : 9 - 0 < (INR 100 + 1) *
    (rho_decrease default_radius_options * 1 * radius_floor default_radius_options (/ 2) 1 1)).
  { rewrite RF. rewrite INR_IZR_INZ. cbn. lra. }
  assert (G2 : 1 * shrinking_factor default_radius_options ^ 1 < radius_floor default_radius_options (/ 2) 1 1).
  { rewrite RF. cbn. lra. }
  split; [exact G1|]. split; [exact G2|]. intros n s HP Hs.
  apply (C196_number_of_iterations _ _ _ _ _ _ _ _ _ _ _ _ _ _ square_crit (/ 2) 1 V
    ltac:(intros h' args cores; reflexivity) eq_refl eq_refl ltac:(cbn; lia) ltac:(reflexivity) eq_refl
    ltac:(cbn; lra) ltac:(cbn; lra) ltac:(lra) ltac:(lra) ltac:(cbn; lra) ltac:(cbn; lra) eq_refl ltac:(cbn; lra)
    ltac:(cbn; lra) ltac:(cbn; lra) ltac:(cbn [radius_o ex_config]; rewrite RF; cbn; lra)
    n HP s0 9 s 0 100%nat 0%nat H0 F0 Hs LB G1 G2).
Qed.
