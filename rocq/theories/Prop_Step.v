(** Properties C163 and C164: what one iteration of a run does. *)
From Coq Require Import Reals List Arith ZArith Bool Lia Lra.
From Verif Require Import Base XR Vec FVec HistoryModel HistorySpec HistoryProofs WrapModel WrapProofs
  VolumeModel RegionModel AdjustModel AcceptModel FilterModel LogSpec LogProofs Prop_Volume Prop_Region
  Prop_Adjust AcceptProofs Prop_Accept Prop_Filter MainModel MainProofs MainPhases MainLoop
  MainProgress Prop_Main Prop_Main2 Prop_Main3 Prop_Main4.
Import ListNotations.
Open Scope nat_scope.

(** * C163 - acceptance and rho *)

(** One iteration of a run with a deterministic criterion: the candidate is the subproblem
    solution for the recorded model and region; rho is the ratio of the actual to the expected
    improvement; the candidate is accepted if it is finite and improves by at least
    [min_improvement]; otherwise the point is kept. *)
Theorem C163_iteration :
  forall VM SM CV ft d w (K : components VM SM CV) O pad x r0 b h r f,
    valid_run ft d w K O pad x r0 b h r ->
    deterministic K f ->
    noisy O = false -> n_evals_per_point0 O = 1%Z -> (n_evals_at_start O <= 1)%Z ->
    (forall t v, k_decider K t v = Classic) ->
    forall k s s', nth_error (res_states r) k = Some s -> nth_error (res_states r) (S k) = Some s' ->
    exists sub, k_solve K (st_model s') (st_region s') = Ok sub /\
      st_fval s = value ft f (st_x s) /\
      (forall u v e, value ft f (st_x s) = Fin u -> value ft f (sub_x sub) = Fin v -> sub_ei sub = Fin e ->
         rho_is u v e (st_rho s') /\ (st_accepted s' = true <-> (min_improvement O <= u - v)%R)) /\
      (isfinite (value ft f (sub_x sub)) = false -> st_rho s' = NInf /\ st_accepted s' = false) /\
      (st_accepted s' = true -> st_x s' = sub_x sub /\ st_fval s' = value ft f (sub_x sub)) /\
      (st_accepted s' = false -> st_x s' = st_x s /\ st_fval s' = st_fval s).
Proof.
  intros VM SM CV ft d w K O pad x r0 b h r f V HF HQ HN HS HC k s s' H1 H2. open_run V.
  destruct (Z.ltb_spec 1 (n_evals_at_start O)) as [Hs|_]; [lia|]. simpl in MF0.
  assert (HD : forall t v, no_reevaluation (k_decider K t v) /\ k_decider K t v <> NaiveNoisy).
  { intros t v. rewrite HC. split; [exact I|discriminate]. }
  pose proof (det_start _ _ _ _ _ _ K O _ _ _ _ L0 MF0 T0 I0 F0 HN) as DI.
  destruct (chain_inv _ _ _ _ _ _ _ _ _ CH DI) as [_ DL].
  { intros a ap c LK. apply (det_step _ _ _ _ _ HQ HD _ _ _ LK). }
  rewrite RS in H1, H2.
  destruct (consecutive _ _ _ _ _ st0 _ _ _ CH (agrees_refl _)) as [CS _].
  destruct (CS k s s' H1 H2) as (a & c & Hl & LK & (G1 & _ & G3 & _)).
  pose proof (DL _ _ (nth_error_In _ _ Hl)) as DA.
  pose proof (det_step _ _ _ _ _ HQ HD _ _ _ LK DA) as DC'.
  pose proof (det_fval _ _ _ _ _ HF _ (lk_a _ _ _ _ _ _ _ _ LK) DA) as FV.
  destruct (lk_ok _ _ _ _ _ _ _ _ LK) as [D HI].
  pose proof (io_decided _ _ _ _ _ _ _ _ _ HI) as DC. rewrite HC in DC.
  set (Xm := n_X a ++ i_X1 D ++ i_X3 D) in *. set (Em := n_E a ++ i_E1 D ++ i_E3 D) in *.
  assert (XC : n_X c = Xm ++ i_X2 D).
  { rewrite (io_X _ _ _ _ _ _ _ _ _ HI). unfold Xm. now rewrite <- !app_assoc. }
  assert (EC : n_E c = Em ++ i_E2 D).
  { rewrite (io_E _ _ _ _ _ _ _ _ _ HI). unfold Em. now rewrite <- !app_assoc. }
  set (sub := f_sub (w_fit (i_wk D))) in *.
  pose proof (dc_newX _ _ _ _ _ _ _ _ _ _ _ DC Logic.I) as NX.
  assert (M : mean_of ft (length Xm) (Em ++ i_E2 D) = value ft f (sub_x sub)).
  { rewrite <- EC. eapply det_value; eauto. rewrite XC, nth_error_app2, Nat.sub_diag, NX; auto. }
  assert (CF : c_fval (cur_of (n_st a)) = value ft f (st_x s)) by (cbn; rewrite FV; now rewrite G1).
  pose proof (dc_rho _ _ _ _ _ _ _ _ _ _ _ DC) as RH. rewrite M in RH. cbn [reference] in RH. rewrite CF in RH.
  pose proof (dc_rho_inf _ _ _ _ _ _ _ _ _ _ _ DC Logic.I) as RI. rewrite M in RI.
  pose proof (dc_yes _ _ _ _ _ _ _ _ _ _ _ DC eq_refl) as AY. rewrite M, CF in AY.
  pose proof (dc_acc _ _ _ _ _ _ _ _ _ _ _ DC) as AA. cbn [reference] in AA. rewrite CF in AA.
  pose proof (dc_rej _ _ _ _ _ _ _ _ _ _ _ DC) as AR.
  assert (AI : a_accepted (i_acc D) = true -> a_index (i_acc D) = length Xm /\ a_x (i_acc D) = sub_x sub /\
    a_fval (i_acc D) = value ft f (sub_x sub)).
  { intros Ha. destruct (AA Ha) as (A1 & A2 & A3 & _). rewrite NX in A2.
    assert (L : a_index (i_acc D) < length (Xm ++ [sub_x sub])) by (apply nth_error_Some; congruence).
    rewrite app_length in L. simpl in L. assert (E : a_index (i_acc D) = length Xm) by lia.
    rewrite E in A2, A3. rewrite nth_error_app2, Nat.sub_diag in A2 by auto. injection A2 as <-.
    rewrite A3, M. auto. }
  exists sub.
  rewrite (io_ap _ _ _ _ _ _ _ _ _ HI).
  cbn [update_state st_model st_region st_rho st_accepted st_x st_fval].
  split; [apply (gw_solve _ _ _ _ _ _ _ _ _ (io_work _ _ _ _ _ _ _ _ _ HI))|].
  split; [rewrite <- G3, FV; now rewrite G1|]. split; [|split; [|split]].
  - intros u v e Eu Ev Ee. rewrite Eu, Ev in *. cbn [isfinite] in *. split.
    + rewrite RH, Ee by (right; split; [exact Logic.I|easy]). cbn [xsub xadd xopp].
      assert (Q : (- (v + - u) = u - v)%R) by lra. rewrite Q.
      unfold rho_is, calculate_rho. cbn [xeq xgt xlt].
      splits.
      * intros He. destruct (Reqb_spec e 0); [easy|]. cbn. destruct (Reqb_spec e 0); easy.
      * intros -> Hv. destruct (Reqb_spec 0 0); [|easy]. cbn.
        unfold xgt, xlt. destruct (Rltb 0 (u - v)) eqn:B; [reflexivity|]. apply Rltb_false in B. lra.
      * intros -> Hv. destruct (Reqb_spec 0 0); [|easy]. cbn.
        unfold xgt, xlt. destruct (Rltb 0 (u - v)) eqn:B; [|reflexivity]. apply Rltb_true in B. lra.
    + assert (Q : xge (xopp (xsub (Fin v) (Fin u))) (Fin (min_improvement O)) = true <->
        (min_improvement O <= u - v)%R).
      { unfold xge, xle. cbn. rewrite Rleb_true. lra. }
      split.
      * intros Ha. destruct (AA Ha) as (_ & _ & _ & _ & A5). destruct (AI Ha) as (_ & _ & A4).
        rewrite A4 in A5. now apply Q.
      * intros Hi. apply AY; [reflexivity|]. now apply Q.
  - intros Hn. split; [now apply RI|].
    destruct (a_accepted (i_acc D)) eqn:Ha; [|reflexivity].
    destruct (AA eq_refl) as (_ & _ & _ & A4 & _). destruct (AI eq_refl) as (_ & _ & A5). rewrite A5 in A4. congruence.
  - intros Ha. apply (AI Ha).
  - intros Ha. destruct (AR Ha) as (-> & -> & _). cbn. now rewrite G1, G3.
Qed.

(** Minimizing x^2 from 3 with a solver that halves the point and expects an improvement of 1:
    the first candidate 3/2 is accepted and rho is 27/4. *)
Example C163_instance : exists h r s s',
  valid_run Scalar 1 1 (ex_components (fun c => c / 2)%R (fun _ _ => Classic) center_sampler ex_crit)
    (ex_config 5 false false) 0 [3%R] 1 None h r /\
  nth_error (res_states r) 0 = Some s /\ nth_error (res_states r) 1 = Some s' /\
  st_accepted s' = true /\ st_x s' = [(3 / 2)%R] /\ st_rho s' = Fin (27 / 4).
Proof.
  destruct (ex_run (fun c => c / 2)%R (fun _ _ => Classic) 4 false false None 3 1 ltac:(auto) I I) as (h & r & V & L).
  destruct (nth_error (res_states r) 0) as [s|] eqn:H1; [|apply nth_error_None in H1; lia].
  destruct (nth_error (res_states r) 1) as [s'|] eqn:H2; [|apply nth_error_None in H2; lia].
  exists h, r, s, s'. split; [exact V|].
  destruct (C163_iteration _ _ _ _ _ _ _ _ _ _ _ _ _ _ (fun x => Ret (VS (Fin (hd 0 x * hd 0 x)%R))) V
    ltac:(intros h' args cores; reflexivity) eq_refl eq_refl ltac:(cbn; lia) ltac:(reflexivity) 0 s s' H1 H2)
    as (sub & S1 & _ & A & _ & B & _).
  assert (S0 : st_x s = [3%R] /\ r_center (st_region s') = [3%R]).
  { open_run V. rewrite RS in H1, H2. injection H1 as <-. split; [exact X0|].
    destruct l as [|[a ap] l]; [discriminate|]. injection H2 as <-.
    destruct (chain_links _ _ _ _ _ _ _ _ CH 0 _ _ eq_refl) as (c & LK & _).
    inversion CH as [|a' ap' b' l' c' LK' CH' Ea El Ez]; subst.
    destruct (lk_ok _ _ _ _ _ _ _ _ LK') as [D HI]. rewrite (io_ap _ _ _ _ _ _ _ _ _ HI).
    cbn [update_state st_region n_st]. destruct (make_region_center _ _ _ _ MR) as (-> & _). reflexivity. }
  destruct S0 as [S0 SR]. unfold ex_components, ex_solve in S1. cbn [k_solve] in S1. rewrite SR in S1. injection S1 as <-.
  cbn [map sub_x sub_ei] in *.
  destruct (A (3 * 3)%R (3 / 2 * (3 / 2))%R 1%R) as [A1 A2].
  { now rewrite S0. } { reflexivity. } { reflexivity. }
  assert (Ac : st_accepted s' = true) by (apply A2; cbn; lra).
  destruct (B Ac) as [B1 _]. destruct A1 as [A1 _].
  repeat (split; [assumption || reflexivity|]). rewrite A1 by lra. f_equal. lra.
Qed.

(** * C164 - the trust region of the next iteration *)

(** The region is centred at the current point and inherits the bounds; its radius is that of
    the last iteration, expanded, kept or shrunk according to the recorded rho and the step
    taken, and moved into the limits. *)
Theorem C164_radius_update :
  forall VM SM CV ft d w (K : components VM SM CV) O pad x r0 b h r,
    valid_run ft d w K O pad x r0 b h r ->
    noisy O = false -> (0 < r0)%R ->
    (0 < min_radius (radius_o O) <= max_radius (radius_o O))%R ->
    max_radius_to_step_ratio (radius_o O) = PInf ->
    (forall s, nth_error (res_states r) 0 = Some s \/ nth_error (res_states r) 1 = Some s ->
       r_radius (st_region s) = r0 /\ r_center (st_region s) = x /\ r_bounds (st_region s) = b) /\
    forall k s0 s s', nth_error (res_states r) k = Some s0 ->
      nth_error (res_states r) (S k) = Some s -> nth_error (res_states r) (S (S k)) = Some s' ->
      r_center (st_region s') = st_x s /\ r_bounds (st_region s') = b /\
      exists raw,
        r_radius (st_region s') = Rmin (max_radius (radius_o O)) (Rmax raw (min_radius (radius_o O))) /\
        (rho_ge (st_rho s) (rho_increase (radius_o O)) /\
           (large_step (radius_o O) * r_radius (st_region s) <= dist (st_x s) (st_x s0))%R ->
           raw = (r_radius (st_region s) * expansion_factor (radius_o O))%R) /\
        (~ (rho_ge (st_rho s) (rho_increase (radius_o O)) /\
            (large_step (radius_o O) * r_radius (st_region s) <= dist (st_x s) (st_x s0))%R) ->
         rho_ge (st_rho s) (rho_decrease (radius_o O)) -> raw = r_radius (st_region s)) /\
        (~ (rho_ge (st_rho s) (rho_increase (radius_o O)) /\
            (large_step (radius_o O) * r_radius (st_region s) <= dist (st_x s) (st_x s0))%R) ->
         ~ rho_ge (st_rho s) (rho_decrease (radius_o O)) ->
         raw = (r_radius (st_region s) * shrinking_factor (radius_o O))%R).
Proof.
  intros VM SM CV ft d w K O pad x r0 b h r V HQ Hr HR HM. open_run V.
  apply make_region_center in MR as MC. destruct MC as (C1 & C2 & C3).
  set (P := fun s : snap (VM:=VM) (SM:=SM) => r_bounds (st_region (n_st s)) = b /\ (0 < r_radius (st_region (n_st s)))%R).
  destruct (chain_inv _ _ _ _ _ P _ _ _ CH) as [_ PL].
  { unfold P. cbn [n_st]. rewrite R0, C2, C3. auto. }
  { intros a ap c LK [P1 P2]. destruct (lk_ok _ _ _ _ _ _ _ _ LK) as [D HI].
    destruct (io_region _ _ _ _ _ _ _ _ _ HI) as (rg & E & M2). unfold P. rewrite E. cbn [with_region st_region].
    apply make_region_center in M2 as (_ & -> & ->). split; [easy|].
    eapply Rlt_le_trans; [apply HR|]. apply C20_radius_in_limits; [apply HR|]. now rewrite HM. }
  rewrite RS. split.
  - intros s [H|H].
    + injection H as <-. rewrite R0. auto.
    + destruct l as [|[a ap] l]; [discriminate|]. injection H as <-.
      inversion CH as [|a' ap' b' l' c' LK' CH' Ea El Ez]; subst a'.
      destruct (lk_ok _ _ _ _ _ _ _ _ LK') as [D HI]. subst. rewrite (io_ap _ _ _ _ _ _ _ _ _ HI).
      cbn [update_state st_region n_st]. auto.
  - intros k s0 s s' H0 H1 H2.
    destruct (consecutive _ _ _ _ _ st0 _ _ _ CH (agrees_refl _)) as [CS _].
    destruct (CS k s0 s H0 H1) as (a & c & Hl & LK & (G1 & _)).
    destruct (CS (S k) s s' H1 H2) as (a' & c' & Hl' & LK' & _).
    destruct (chain_links _ _ _ _ _ _ _ _ CH _ _ _ Hl) as (c1 & LK1 & [[_ Q]|(ap' & Q)]).
    { assert (S k < length l) by (apply nth_error_Some; congruence). lia. }
    rewrite Hl' in Q. injection Q as <- _.
    destruct (PL _ _ (nth_error_In _ _ Hl)) as [PB PR].
    destruct (lk_ok _ _ _ _ _ _ _ _ LK1) as [D HI]. destruct (lk_ok _ _ _ _ _ _ _ _ LK') as [D' HI'].
    rewrite (io_ap _ _ _ _ _ _ _ _ _ HI'). cbn [update_state st_region].
    destruct (io_region _ _ _ _ _ _ _ _ _ HI) as (rg & -> & M2). cbn [with_region st_region].
    apply make_region_center in M2 as (M3 & M4 & M5). rewrite M3, M4, M5.
    rewrite (io_ap _ _ _ _ _ _ _ _ _ HI). cbn [update_state st_region st_x st_rho].
    destruct (io_quiet _ _ _ _ _ _ _ _ _ HI HQ) as (_ & -> & _).
    split; [easy|]. split; [easy|].
    rewrite (dc_step _ _ _ _ _ _ _ _ _ _ _ (io_decided _ _ _ _ _ _ _ _ _ HI)). cbn [cur_of c_x]. rewrite G1.
    destruct (C21_radius_direction (r_radius (st_region (n_st a))) (a_rho (i_acc D)) (dist (a_x (i_acc D)) (st_x s0))
      (radius_o O) false PR) as (raw & E & Q1 & Q2 & Q3); [now rewrite HM|].
    exists raw. split; [exact E|]. split; [exact Q1|]. split; [intros; apply Q2; auto|].
    intros. apply Q3; auto. intros [|]; [easy|discriminate].
Qed.

(** A longer run of the example. *)
Lemma ex_long_run f : exists h r,
  valid_run Scalar 1 1 (ex_components f (fun _ _ => Classic) center_sampler ex_crit)
    (ex_config 5 false true) 0 [3%R] 1 None h r /\ 3 <= length (res_states r).
Proof.
  destruct (ex_run f (fun _ _ => Classic) 4 false true None 3 1 ltac:(auto) I I) as (h & r & V & L).
  exists h, r. split; [easy|].
  pose proof (C90_evaluations_per_iteration _ _ _ _ _ _ _ _ _ _ _ _ _ _ V eq_refl eq_refl
    ltac:(cbn; lia) ltac:(cbn; lia) ltac:(reflexivity)
    ltac:(intros t j h' reg n m xs; apply (proj2 center_sampler_ok))) as (_ & _ & C & _).
  assert (NM : next_multiple 3 1 = 3%Z).
  { destruct (C35_next_multiple 3 1 ltac:(lia)) as (_ & Q & _). lia. }
  cbn [ex_config target_sample_size batch_size stag_o max_trials sample_increment Nat.max Nat.mul] in C.
  rewrite NM in C. change (Z.of_nat (1 + 0)) with 1%Z in C.
  open_run V.
  assert (LN : length (res_states r) = S (length l)) by (rewrite RS; simpl; now rewrite map_length).
  rewrite LN in *. cbn in LL.
  destruct EN as [E1 E2 E3|pre old new E1|E1 E2 E3 E4]; cbn in E1; try lia; try discriminate.
  cbn in E2. lia.
Qed.

(** The step from 3 to 3/2 is larger than half the radius and rho is 27/4, so that the radius is
    doubled. *)
Example C164_instance : exists h r s s',
  valid_run Scalar 1 1 (ex_components (fun c => c / 2)%R (fun _ _ => Classic) center_sampler ex_crit)
    (ex_config 5 false true) 0 [3%R] 1 None h r /\
  nth_error (res_states r) 1 = Some s /\ nth_error (res_states r) 2 = Some s' /\
  r_radius (st_region s) = 1%R /\ r_radius (st_region s') = 2%R /\ r_center (st_region s') = [(3 / 2)%R].
Proof.
  destruct (ex_long_run (fun c => c / 2)%R) as (h & r & V & L).
  destruct (nth_error (res_states r) 0) as [s0|] eqn:H0; [|apply nth_error_None in H0; lia].
  destruct (nth_error (res_states r) 1) as [s|] eqn:H1; [|apply nth_error_None in H1; lia].
  destruct (nth_error (res_states r) 2) as [s'|] eqn:H2; [|apply nth_error_None in H2; lia].
  exists h, r, s, s'. split; [exact V|]. split; [easy|]. split; [easy|].
  destruct (C164_radius_update _ _ _ _ _ _ _ _ _ _ _ _ _ _ V eq_refl ltac:(lra) ltac:(cbn; lra) eq_refl) as [A B].
  destruct (B 0 s0 s s' H0 H1 H2) as (B1 & _ & raw & B2 & B3 & _).
  destruct (A s (or_intror H1)) as (A1 & A2 & _). destruct (A s0 (or_introl H0)) as (_ & A3 & _).
  destruct (C163_iteration _ _ _ _ _ _ _ _ _ _ _ _ _ _ (fun x => Ret (VS (Fin (hd 0 x * hd 0 x)%R))) V
    ltac:(intros h' args cores; reflexivity) eq_refl eq_refl ltac:(cbn; lia) ltac:(reflexivity) 0 s0 s H0 H1)
    as (sub & S1 & _ & S2 & _ & S3 & _).
  unfold ex_components, ex_solve in S1. cbn [k_solve] in S1. rewrite A2 in S1. injection S1 as <-.
  cbn [map sub_x sub_ei] in *.
  assert (X0 : st_x s0 = [3%R]) by (open_run V; rewrite RS in H0; injection H0 as <-; exact X0).
  destruct (S2 (3 * 3)%R (3 / 2 * (3 / 2))%R 1%R) as [[R1 _] R2].
  { now rewrite X0. } { reflexivity. } { reflexivity. }
  destruct (S3 ltac:(apply R2; cbn; lra)) as [S4 _].
  split; [exact A1|]. rewrite B1, S4. split; [|reflexivity].
  rewrite B2, B3; rewrite ?A1.
  - cbn. unfold Rmin, Rmax. repeat destruct Rle_dec; lra.
  - rewrite R1 by lra. rewrite S4, X0. cbn [radius_o ex_config default_radius_options rho_increase large_step rho_ge].
    split; [lra|]. unfold dist, norm, vsub. cbn.
    apply Rle_trans with (sqrt (/ 2 * / 2)); [rewrite sqrt_square; lra|]. apply sqrt_le_1_alt. lra.
Qed.
