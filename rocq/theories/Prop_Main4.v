(** Properties C91-C94, C98 and C115: progress, the solution, residualization, bounds and
    success of runs. *)
From Coq Require Import Reals List Arith ZArith Bool Lia Lra Sorting.Sorted.
From Verif Require Import Base XR Vec FVec HistoryModel HistorySpec HistoryProofs WrapModel WrapProofs
  VolumeModel RegionModel AdjustModel AcceptModel FilterModel LogSpec LogProofs Prop_Volume Prop_Region
  Prop_Adjust AcceptProofs Prop_Accept Prop_Filter MainModel MainProofs MainPhases MainLoop
  MainProgress Prop_Main Prop_Main2 Prop_Main3.
Import ListNotations.
Open Scope nat_scope.

(** * Deterministic criteria evaluated once per point *)

Definition deterministic {VM SM CV} (K : components VM SM CV) (f : vec -> outcome) : Prop :=
  forall h args cores, k_crit K h args cores = Ok (map f args).
Definition value (ft : functype) (f : vec -> outcome) (x : vec) : xr := spec_fval ft (recorded (f x)).

Section Det.
Context {VM SM CV : Type}.
Variables (ft : functype) (d w : nat) (K : components VM SM CV) (O : config) (f : vec -> outcome).
Hypothesis HF : deterministic K f.
Hypothesis HQ : noisy O = false.
Hypothesis HD : forall t v, no_reevaluation (k_decider K t v) /\ k_decider K t v <> NaiveNoisy.

Definition det_inv (s : snap (VM:=VM) (SM:=SM)) : Prop :=
  mean_inv ft s /\ once_inv s /\ true_evals (k_crit K) (n_X s) (n_E s).

Lemma det_step a ap c : link ft d w K O a ap c -> det_inv a -> det_inv c.
Proof.
  intros LK (HP & HO & HT).
  destruct (link_mean _ _ _ _ _ _ _ _ HQ (fun t v => proj1 (HD t v)) LK HP) as [M1 M2].
  split; [easy|]. split; [apply M2; auto; intros; apply HD|].
  destruct (lk_ok _ _ _ _ _ _ _ _ LK) as [D HI].
  rewrite (io_E _ _ _ _ _ _ _ _ _ HI). apply true_evals_app; [|apply HI].
  rewrite (io_X _ _ _ _ _ _ _ _ _ HI). now apply true_evals_more.
Qed.

Lemma det_value s i y : det_inv s -> nth_error (n_X s) i = Some y ->
  mean_of ft i (n_E s) = value ft f y.
Proof.
  intros (_ & HO & HT) Hy.
  assert (Hi : i < length (n_X s)) by (apply nth_error_Some; congruence).
  specialize (HO _ Hi). unfold mean_of, fvals_of.
  destruct (evals_of i (n_E s)) as [|v [|]] eqn:EV; try discriminate. cbn [map].
  rewrite xmean_one. unfold value. f_equal.
  assert (Hin : In (i, v) (n_E s)).
  { unfold evals_of in EV. assert (In v (map snd (filter (fun e => fst e =? i) (n_E s))))
      by (rewrite EV; simpl; auto).
    apply in_map_iff in H as ([j v'] & <- & H). apply filter_In in H as [H Hj].
    apply Nat.eqb_eq in Hj. simpl in *. now subst j. }
  destruct (HT _ _ Hin) as (y' & Hy' & (hh & args & cores & outs & k & o & C & _ & Ha & Ho & ->)).
  rewrite HF in C. injection C as <-. rewrite nth_error_map, Ha in Ho. injection Ho as <-. congruence.
Qed.

Lemma det_fval s : good_snap ft d w s -> det_inv s -> st_fval (n_st s) = value ft f (st_x (n_st s)).
Proof.
  intros (_ & _ & [A _]) HI. destruct HI as ((P1 & P2 & P3) & HO & HT) eqn:E.
  rewrite P3. eapply det_value; eauto.
Qed.
End Det.

Lemma det_start VM SM CV ft d w (K : components VM SM CV) O x st0 h0 E0 :
  haslog ft d w h0 [x] E0 -> map fst E0 = [0] -> true_evals (k_crit K) [x] E0 ->
  st_index st0 = 0 -> st_fval st0 = mean_of ft 0 E0 -> n_evals_per_point0 O = 1%Z ->
  det_inv ft K (mkSnap 0 st0 (n_evals_per_point0 O) h0 [x] E0).
Proof.
  intros L0 MF T0 I0 F0 HN. split; [|split; [exact (start_single _ _ _ _ _ _ L0 MF)|exact T0]].
  split; [easy|]. cbn [n_X n_E n_st]. split; [|now rewrite I0].
  intros i Hi. rewrite (start_single _ _ _ _ _ _ L0 MF i Hi). lia.
Qed.

(** * C91 - convergence without progress *)

(** If the decider demands a positive improvement, every accepted step (in particular one
    after which convergence is reported) strictly decreases the value. *)
Theorem C91_progress_partial :
  forall VM SM CV ft d w (K : components VM SM CV) O pad x r0 b h r,
    valid_run ft d w K O pad x r0 b h r ->
    (forall t v, no_reevaluation (k_decider K t v)) -> (0 < min_improvement O)%R ->
    forall i s s', nth_error (res_states r) i = Some s -> nth_error (res_states r) (S i) = Some s' ->
      st_accepted s' = true -> xlt (st_fval s') (st_fval s) = true.
Proof.
  intros VM SM CV ft d w K O pad x r0 b h r V HD HM i s s' H1 H2 HA. open_run V.
  rewrite RS in H1, H2.
  destruct (consecutive _ _ _ _ _ st0 _ _ _ CH (agrees_refl _)) as [CS _].
  destruct (CS i s s' H1 H2) as (a1 & b1 & Hl & LK & (_ & _ & G3 & _)).
  destruct (lk_ok _ _ _ _ _ _ _ _ LK) as [D HI].
  pose proof (io_decided _ _ _ _ _ _ _ _ _ HI) as DC.
  rewrite (io_ap _ _ _ _ _ _ _ _ _ HI) in HA |- *. cbn [update_state st_fval st_accepted] in *.
  destruct (dc_acc _ _ _ _ _ _ _ _ _ _ _ DC HA) as (_ & _ & _ & Hf & Hx).
  specialize (HD (n_t a1) (i_var D)).
  assert (RR : reference ft (k_decider K (n_t a1) (i_var D)) (cur_of (n_st a1))
            ((n_E a1 ++ i_E1 D ++ i_E3 D) ++ i_E2 D) = st_fval (n_st a1)).
  { destruct (k_decider K (n_t a1) (i_var D)); try reflexivity. easy. }
  rewrite RR, G3 in Hx. destruct (a_fval (i_acc D)) as [v| | |]; try discriminate.
  destruct (st_fval s) as [u| | |]; cbn in Hx |- *; try discriminate; auto.
  unfold xge, xle in Hx. cbn in Hx. apply Rleb_true in Hx. apply Rltb_true. lra.
Qed.

(** The default demands no improvement.  For every deterministic criterion that is finite at
    the start: if the first subproblem solution is the start point itself, it is accepted,
    nothing has changed, and the run stops after one iteration and reports convergence. *)
Theorem C91_converged_without_progress_refuted :
  forall VM SM CV ft d w (K : components VM SM CV) O pad x r0 b h r f v0,
    valid_run ft d w K O pad x r0 b h r ->
    deterministic K f -> value ft f x = Fin v0 ->
    noisy O = false -> n_evals_per_point0 O = 1%Z -> (n_evals_at_start O <= 1)%Z ->
    (forall t v, k_decider K t v = Classic) -> (min_improvement O <= 0)%R ->
    (forall sm reg s, k_solve K sm reg = Ok s -> sub_x s = r_center reg) ->
    disable (conv_o O) = false -> (0 <= ftol_rel (conv_o O))%R -> 1 <= max_iter (stop_o O) ->
    length (res_states r) = 2 /\ res_converged r = true /\ solution_x r = x.
Proof.
  intros VM SM CV ft d w K O pad x r0 b h r f v0 V HF Hv HQ HN HS HC HM HSol HDis Hft HMx.
  pose proof (C86_loop_reports_convergence _ _ _ _ _ _ _ _ _ _ _ _ _ _ V) as (_ & LC & _).
  open_run V. destruct (Z.ltb_spec 1 (n_evals_at_start O)) as [Hs|_]; [lia|]. simpl in MF0.
  assert (HD : forall t v, no_reevaluation (k_decider K t v) /\ k_decider K t v <> NaiveNoisy).
  { intros t v. rewrite HC. split; [exact I|discriminate]. }
  pose proof (det_start _ _ _ _ _ _ K O _ _ _ _ L0 MF0 T0 I0 F0 HN) as DI.
  inversion CH as [a Ea Ez El|a ap c l' z' LK CH' Ea El Ez]; subst.
  { exfalso. destruct EN; cbn in *; lia. }
  pose proof (det_step _ _ _ _ _ HQ HD _ _ _ LK DI) as DI'.
  pose proof (det_fval _ _ _ _ _ HF _ (lk_a _ _ _ _ _ _ _ _ LK) DI) as FV0. cbn [n_st] in FV0.
  destruct (lk_ok _ _ _ _ _ _ _ _ LK) as [D HI].
  pose proof (io_decided _ _ _ _ _ _ _ _ _ HI) as DC. rewrite HC in DC.
  cbn [n_st n_X n_E n_h n_t n_n] in DC.
  pose proof (dc_newX _ _ _ _ _ _ _ _ _ _ _ DC I) as NX.
  assert (SX1 : sub_x (f_sub (w_fit (i_wk D))) = st_x st0).
  { rewrite (HSol _ _ _ (gw_solve _ _ _ _ _ _ _ _ _ (io_work _ _ _ _ _ _ _ _ _ HI))).
    apply (lk_a _ _ _ _ _ _ _ _ LK). }
  rewrite SX1 in NX.
  set (Xm := [st_x st0] ++ i_X1 D ++ i_X3 D) in *. set (Em := E0 ++ i_E1 D ++ i_E3 D) in *.
  assert (XC : n_X c = Xm ++ i_X2 D).
  { rewrite (io_X _ _ _ _ _ _ _ _ _ HI). unfold Xm. cbn [n_X]. now rewrite <- !app_assoc. }
  assert (EC : n_E c = Em ++ i_E2 D).
  { rewrite (io_E _ _ _ _ _ _ _ _ _ HI). unfold Em. cbn [n_E]. now rewrite <- !app_assoc. }
  assert (Only : forall j y, length Xm <= j -> nth_error (Xm ++ i_X2 D) j = Some y -> y = st_x st0).
  { intros j y Hj Hy. rewrite nth_error_app2 in Hy by easy. rewrite NX in Hy.
    destruct (j - length Xm) as [|[|]]; try discriminate. now injection Hy. }
  assert (Mean : forall j, length Xm <= j < length (Xm ++ i_X2 D) -> mean_of ft j (Em ++ i_E2 D) = Fin v0).
  { intros j [Hj Hl]. destruct (nth_error (Xm ++ i_X2 D) j) as [y|] eqn:Ey; [|apply nth_error_None in Ey; lia].
    rewrite <- EC. rewrite <- Hv. rewrite <- (Only _ _ Hj Ey).
    eapply det_value; eauto. now rewrite XC. }
  assert (LX : length (Xm ++ i_X2 D) = S (length Xm)).
  { rewrite app_length, NX. simpl. lia. }
  assert (M0 : mean_of ft (length Xm) (Em ++ i_E2 D) = Fin v0) by (apply Mean; lia).
  assert (CF : st_fval st0 = Fin v0) by (rewrite FV0; exact Hv).
  assert (Acc : a_accepted (i_acc D) = true).
  { apply (dc_yes _ _ _ _ _ _ _ _ _ _ _ DC eq_refl); rewrite M0; [reflexivity|].
    cbn [cur_of c_fval]. rewrite CF. unfold xge, xle. cbn. apply Rleb_true. lra. }
  destruct (dc_acc _ _ _ _ _ _ _ _ _ _ _ DC Acc) as (A1 & A2 & A3 & _).
  assert (AX : a_x (i_acc D) = st_x st0) by exact (Only _ _ A1 A2).
  assert (AF : a_fval (i_acc D) = Fin v0).
  { rewrite A3. apply Mean. split; [easy|]. apply nth_error_Some. congruence. }
  pose proof (io_ap _ _ _ _ _ _ _ _ _ HI) as EAP. cbn [n_st n_n] in EAP.
  assert (CV1 : fst (is_converged K st0 ap (conv_o O)) = true).
  { unfold is_converged. rewrite EAP. cbn [update_state st_fval]. rewrite AF, CF.
    match goal with |- fst (if ?c then _ else if ?c2 then _ else if ?c3 then _ else _) = _ =>
      destruct c; [reflexivity|]; destruct c2; [reflexivity|]; assert (C3 : c3 = true); [|now rewrite C3] end.
    cbn [xsub xadd xopp xabs]. rewrite py_max1_fin, xdiv_max1. unfold xle. apply Rleb_true.
    replace (v0 + - v0)%R with 0%R by lra. rewrite Rabs_R0. unfold Rdiv. rewrite Rmult_0_l. exact Hft. }
  destruct (LC HDis 0 st0 ap) as [C1 C2].
  { now rewrite RS. } { now rewrite RS. } { rewrite EAP. exact Acc. } { exact CV1. }
  split; [easy|]. split; [easy|].
  rewrite RS in C2. simpl in C2. destruct l' as [|]; [|discriminate].
  inversion CH'; subst. rewrite SX. destruct (link_agrees _ _ _ _ _ _ _ _ LK) as (-> & _).
  exact AX.
Qed.

(** The run of the example whose subproblem solver returns the center. *)
Lemma ex_stays (crit : criterion) k off b (x0 r0 : R) : good_criterion Scalar 1 crit ->
  two_sided b -> bounds_dim 1 b ->
  exists h r, valid_run Scalar 1 1 (ex_components (fun c => c) (fun _ _ => Classic) center_sampler crit)
    (ex_config (S k) false off) 0 [x0] r0 b h r.
Proof.
  intros HC B1 B2.
  assert (GK : good_components Scalar 1 1 (ex_components (fun c => c) (fun _ _ => Classic) center_sampler crit)).
  { apply ex_components_good; auto using center_sampler_dim. intros; exact I. }
  destruct (tranquilo_go Scalar 1 1 b _ (ex_config (S k) false off) GK
    (ex_components_total _ (fun _ _ => Classic) center_sampler crit b (proj1 center_sampler_ok) ltac:(auto) B1 B2)
    (ex_config_good _ _ _) 0%R [x0] r0 ltac:(lia) ltac:(lia) eq_refl) as (h & r & H).
  exists h, r. split; auto; cbn; lia.
Qed.

(** Minimizing x^2 from 3: the run stops at 3 and reports convergence. *)
Example C91_instance : exists h r,
  valid_run Scalar 1 1 (ex_components (fun c => c) (fun _ _ => Classic) center_sampler ex_crit)
    (ex_config 10 false false) 0 [3%R] 1 None h r /\
  length (res_states r) = 2 /\ res_converged r = true /\ solution_x r = [3%R].
Proof.
  destruct (ex_stays ex_crit 9 false None 3 1 ex_crit_good I I) as (h & r & V).
  exists h, r. split; [exact V|].
  apply (C91_converged_without_progress_refuted _ _ _ _ _ _ _ _ _ _ _ _ _ _
    (fun x => Ret (VS (Fin (hd 0 x * hd 0 x)%R))) (3 * 3)%R V); cbn; try reflexivity; try lra; try lia.
  { intros h' args cores. reflexivity. }
  intros sm reg s [= <-]. cbn. apply map_id.
Qed.

(** * C92 - better points *)

(** None of the candidates is better than the solution ... *)
Theorem C92_candidates_are_not_better_partial :
  forall VM SM CV ft d w (K : components VM SM CV) O pad x r0 b h r f,
    valid_run ft d w K O pad x r0 b h r ->
    deterministic K f -> (forall y, value ft f y <> NInf /\ value ft f y <> NaN) ->
    noisy O = false -> n_evals_per_point0 O = 1%Z -> (n_evals_at_start O <= 1)%Z ->
    (forall t v, k_decider K t v = Classic) -> min_improvement O = 0%R ->
    forall s, In s (res_states r) ->
      xle (solution_criterion r) (value ft f (st_candidate_x s)) = true.
Proof.
  intros VM SM CV ft d w K O pad x r0 b h r f V HF Hv HQ HN HS HC HM s Hin.
  assert (HR : forall t v, no_reevaluation (k_decider K t v)) by (intros; rewrite HC; exact I).
  assert (HD : forall t v, no_reevaluation (k_decider K t v) /\ k_decider K t v <> NaiveNoisy).
  { intros t v. rewrite HC. split; [exact I|discriminate]. }
  open_run V. destruct (Z.ltb_spec 1 (n_evals_at_start O)) as [Hs|_]; [lia|]. simpl in MF0.
  pose proof (det_start _ _ _ _ _ _ K O _ _ _ _ L0 MF0 T0 I0 F0 HN) as DI.
  (* along the chain, the current value is a bound for everything before *)
  assert (Main : forall a l z, chain ft d w K O a l z -> good_snap ft d w a -> det_inv ft K a ->
    xle (st_fval (n_st z)) (st_fval (n_st a)) = true /\
    forall p, In p l -> xle (st_fval (n_st z)) (value ft f (st_candidate_x (snd p))) = true).
  { clear -HF HQ HD HC HM Hv. induction 1 as [a|a ap c l z LK CH IH]; intros GA DA.
    - split; [|intros ? []]. rewrite (det_fval _ _ _ _ _ HF _ GA DA). apply xle_not_nan, Hv.
    - pose proof (det_step _ _ _ _ _ HQ HD _ _ _ LK DA) as DC.
      destruct (IH (lk_b _ _ _ _ _ _ _ _ LK) DC) as [IH1 IH2].
      pose proof (det_fval _ _ _ _ _ HF _ GA DA) as FA.
      pose proof (det_fval _ _ _ _ _ HF _ (lk_b _ _ _ _ _ _ _ _ LK) DC) as FC.
      destruct (lk_ok _ _ _ _ _ _ _ _ LK) as [D HI].
      pose proof (io_decided _ _ _ _ _ _ _ _ _ HI) as DD. rewrite HC in DD.
      destruct (link_agrees _ _ _ _ _ _ _ _ LK) as (GX & _ & GF & _).
      assert (XC : n_X c = (n_X a ++ i_X1 D ++ i_X3 D) ++ i_X2 D).
      { rewrite (io_X _ _ _ _ _ _ _ _ _ HI). now rewrite <- !app_assoc. }
      assert (EC : n_E c = (n_E a ++ i_E1 D ++ i_E3 D) ++ i_E2 D).
      { rewrite (io_E _ _ _ _ _ _ _ _ _ HI). now rewrite <- !app_assoc. }
      set (Xm := n_X a ++ i_X1 D ++ i_X3 D) in *. set (Em := n_E a ++ i_E1 D ++ i_E3 D) in *.
      rewrite (io_ap _ _ _ _ _ _ _ _ _ HI) in GX, GF. cbn [update_state st_x st_fval] in GX, GF.
      pose proof (dc_newX _ _ _ _ _ _ _ _ _ _ _ DD I) as NX.
      assert (M0 : mean_of ft (length Xm) (Em ++ i_E2 D) = value ft f (sub_x (f_sub (w_fit (i_wk D))))).
      { rewrite <- EC. eapply det_value; eauto. rewrite XC, nth_error_app2, Nat.sub_diag, NX by lia. reflexivity. }
      assert (Step : xle (st_fval (n_st c)) (st_fval (n_st a)) = true).
      { rewrite GF. destruct (a_accepted (i_acc D)) eqn:Ea.
        - destruct (dc_acc _ _ _ _ _ _ _ _ _ _ _ DD Ea) as (_ & _ & _ & Hf & Hx).
          cbn [reference cur_of c_fval] in Hx. eapply accepted_not_worse; eauto. rewrite HM. lra.
        - destruct (dc_rej _ _ _ _ _ _ _ _ _ _ _ DD Ea) as (_ & -> & _). cbn. rewrite FA.
          apply xle_not_nan, Hv. }
      assert (Cand : xle (st_fval (n_st c)) (value ft f (a_candidate_x (i_acc D))) = true).
      { destruct (dc_cand_new _ _ _ _ _ _ _ _ _ _ _ DD) as [[_ ->]|Hnew].
        { cbn [cur_of c_x]. now rewrite <- FA. }
        assert (CX : a_candidate_x (i_acc D) = sub_x (f_sub (w_fit (i_wk D)))).
        { pose proof (dc_cand _ _ _ _ _ _ _ _ _ _ _ DD) as DCa. rewrite nth_error_app2, NX in DCa by easy.
          destruct (a_candidate_index (i_acc D) - length Xm) as [|[|]]; try discriminate. now injection DCa. }
        rewrite CX. destruct (a_accepted (i_acc D)) eqn:Ea.
        - destruct (dc_acc _ _ _ _ _ _ _ _ _ _ _ DD Ea) as (A1 & A2 & _ & _ & _).
          rewrite FC, GX. rewrite nth_error_app2, NX in A2 by easy.
          destruct (a_index (i_acc D) - length Xm) as [|[|]]; try discriminate. injection A2 as <-.
          apply xle_not_nan, Hv.
        - destruct (dc_rej _ _ _ _ _ _ _ _ _ _ _ DD Ea) as (_ & RF & _). rewrite GF, RF. cbn [cur_of c_fval].
          assert (NY : ~ (isfinite (value ft f (sub_x (f_sub (w_fit (i_wk D))))) = true /\
             xge (xopp (xsub (value ft f (sub_x (f_sub (w_fit (i_wk D))))) (st_fval (n_st a)))) (Fin 0) = true)).
          { intros [Y1 Y2]. rewrite <- M0 in Y1, Y2. rewrite <- HM in Y2.
            rewrite (dc_yes _ _ _ _ _ _ _ _ _ _ _ DD eq_refl Y1 Y2) in Ea. discriminate. }
          rewrite FA in NY |- *. clear -NY Hv.
          pose proof (Hv (sub_x (f_sub (w_fit (i_wk D))))) as [V1 V2]. pose proof (Hv (st_x (n_st a))) as [V3 V4].
          destruct (value ft f (sub_x (f_sub (w_fit (i_wk D))))) as [u| | |]; try easy;
          destruct (value ft f (st_x (n_st a))) as [v| | |]; try easy.
          + unfold xle. apply Rleb_true. destruct (Rle_dec v u); [easy|]. exfalso. apply NY.
            split; [easy|]. unfold xge, xle. cbn. apply Rleb_true. lra.
          + exfalso. apply NY. auto. }
      split; [eapply xle_trans3; eauto|].
      intros p [<-|Hp]; [|auto]. cbn [snd]. rewrite (io_ap _ _ _ _ _ _ _ _ _ HI).
      cbn [update_state st_candidate_x]. eapply xle_trans3; eauto. }
  destruct (Main _ _ _ CH) as [M1 M2]; [| exact DI|].
  { split; [exact L0|]. split; [|exact A0]. cbn. intros ->. discriminate. }
  rewrite SC. rewrite RS in Hin. destruct Hin as [<-|Hin].
  - cbn [n_st] in M1. rewrite CX0, <- X0.
    rewrite <- (det_fval _ d w _ _ HF (mkSnap 0 st0 (n_evals_per_point0 O) h0 [x] E0)); [exact M1| |exact DI].
    split; [exact L0|]. split; [|exact A0]. cbn. intros ->. discriminate.
  - apply in_map_iff in Hin as (p & <- & Hin). auto.
Qed.

Lemma ex_value (x : R) : value Scalar (fun x => Ret (VS (Fin (hd 0 x * hd 0 x)%R))) [x] = Fin (x * x).
Proof. reflexivity. Qed.

Example C92_partial_instance : exists h r,
  valid_run Scalar 1 1 (ex_components (fun c => c / 2)%R (fun _ _ => Classic) center_sampler ex_crit)
    (ex_config 5 false true) 0 [3%R] 1 None h r /\ length (res_states r) = 6 /\
  forall s, In s (res_states r) ->
    xle (solution_criterion r) (Fin (hd 0 (st_candidate_x s) * hd 0 (st_candidate_x s))%R) = true.
Proof.
  destruct (ex_five (fun c => c / 2)%R None) as (h & r & V & L & _); cbn; auto.
  exists h, r. split; [easy|]. split; [easy|].
  apply (C92_candidates_are_not_better_partial _ _ _ _ _ _ _ _ _ _ _ _ _ _
    (fun x => Ret (VS (Fin (hd 0 x * hd 0 x)%R))) V); cbn; auto; try lia.
  - intros h' args cores. reflexivity.
  - split; discriminate.
Qed.

(** A step of a classic decider after a subproblem solution at the center does not move. *)
Lemma stays_put VM SM CV ft d w (K : components VM SM CV) O a ap c :
  link ft d w K O a ap c -> (forall t v, k_decider K t v = Classic) ->
  (forall sm reg s, k_solve K sm reg = Ok s -> sub_x s = r_center reg) ->
  st_x (n_st c) = st_x (n_st a).
Proof.
  intros LK HC HSol. destruct (link_agrees _ _ _ _ _ _ _ _ LK) as (-> & _).
  destruct (lk_ok _ _ _ _ _ _ _ _ LK) as [D HI]. rewrite (io_ap _ _ _ _ _ _ _ _ _ HI). cbn [update_state st_x].
  pose proof (io_decided _ _ _ _ _ _ _ _ _ HI) as DC. rewrite HC in DC.
  destruct (a_accepted (i_acc D)) eqn:Ea; [|now apply (dc_rej _ _ _ _ _ _ _ _ _ _ _ DC)].
  destruct (dc_acc _ _ _ _ _ _ _ _ _ _ _ DC Ea) as (A1 & A2 & _).
  rewrite nth_error_app2, (dc_newX _ _ _ _ _ _ _ _ _ _ _ DC I) in A2 by easy.
  destruct (a_index (i_acc D) - _) as [|[|]]; try discriminate. injection A2 as <-.
  rewrite (HSol _ _ _ (gw_solve _ _ _ _ _ _ _ _ _ (io_work _ _ _ _ _ _ _ _ _ HI))).
  apply (lk_a _ _ _ _ _ _ _ _ LK).
Qed.

(** ... but sampled points can be.  Minimizing x^2 from 1, the sampler happens to return the
    minimum, the subproblem solver the center: the solution is 1 although 0 has been
    evaluated. *)
Definition zero_sampler : sampler := fun _ _ n _ => Ok (repeat [0%R] n).
Theorem C92_better_point_evaluated_refuted :
  exists (K : components unit unit unit) O x h r i v v',
    valid_run Scalar 1 1 K O 0 x 1 None h r /\ solution_criterion r = Fin v /\
    get_fvals_one h (Z.of_nat i) = Ok [Fin v'] /\ (v' < v)%R.
Proof.
  set (K := ex_components (fun c => c) (fun _ _ => Classic) zero_sampler ex_crit).
  assert (SD : sampler_dim 1 zero_sampler).
  { intros h reg n m xs _ [= <-]. apply Forall_forall. intros y Hy. apply repeat_spec in Hy. now subst. }
  destruct (ex_run_full (fun c => c) zero_sampler ex_crit 1 None 1 1) as (h & r & V & L & _);
    [lia|apply ex_crit_good|exact SD|unfold zero_sampler; eauto| |exact I|exact I|].
  { unfold zero_sampler. intros h reg n m xs [= <-]. now rewrite repeat_length. }
  exists K, (ex_config 1 false true), [1%R], h, r, 1, 1%R, 0%R. split; [exact V|].
  fold K in V. set (O := ex_config 1 false true) in *.
  assert (HF : deterministic K (fun x => Ret (VS (Fin (hd 0 x * hd 0 x)%R)))) by (intros ? ? ?; reflexivity).
  assert (HC : forall t v, k_decider K t v = Classic) by reflexivity.
  assert (HD : forall t v, no_reevaluation (k_decider K t v) /\ k_decider K t v <> NaiveNoisy)
    by (split; [exact I|discriminate]).
  assert (HSol : forall sm reg s, k_solve K sm reg = Ok s -> sub_x s = r_center reg).
  { intros sm reg s [= <-]. cbn. apply map_id. }
  open_run V.
  change (map fst E0 = [0]) in MF0.
  pose proof (det_start _ _ _ _ _ _ K O _ _ _ _ L0 MF0 T0 I0 F0 eq_refl) as DI.
  destruct (chain_inv _ _ _ _ _ (fun s => det_inv Scalar K s /\ st_x (n_st s) = [1%R]) _ _ _ CH) as [[DZ XZ] _].
  { split; [exact DI|exact X0]. }
  { intros s ap c LK [P1 P2]. split; [now apply (det_step _ _ _ _ _ (eq_refl : noisy O = false) HD _ _ _ LK)|].
    transitivity (st_x (n_st s)); [eapply stays_put; eauto|exact P2]. }
  pose proof (det_fval _ _ _ _ _ HF _ GZ DZ) as FZ. rewrite XZ, ex_value, Rmult_1_r in FZ.
  split; [now rewrite SC|].
  (* the first iteration samples the minimum *)
  inversion CH as [a Ea Ez El|a ap c l' z' LK CH' Ea El Ez].
  { subst l. rewrite RS in L. discriminate. }
  subst. destruct (lk_ok _ _ _ _ _ _ _ _ LK) as [D HI].
  pose proof (io_first _ _ _ _ _ _ _ _ _ HI) as FF. cbn [n_st n_n n_t n_h n_X n_E] in FF.
  pose proof (ff_filter _ _ _ _ _ _ _ _ _ _ _ _ _ _ _ FF) as Fil. injection Fil as Fx Fi.
  assert (Sam : repeat [0%R] (Z.to_nat (next_multiple (Z.max 0 (3 - zlen (i_fxs D))) 1)) = i_X1 D).
  { pose proof (ff_sample _ _ _ _ _ _ _ _ _ _ _ _ _ _ _ FF) as Sm. now injection Sm. }
  assert (LO : length (i_fxs D) <= 1).
  { rewrite <- Fx, map_length. apply (NoDup_incl_length (l' := [0])).
    - apply StronglySorted_lt_NoDup. apply (ff_sorted _ _ _ _ _ _ _ _ _ _ _ _ _ _ _ FF).
    - intros i Hi. apply (ff_old _ _ _ _ _ _ _ _ _ _ _ _ _ _ _ FF) in Hi as (y & Hy & _).
      destruct i as [|[|]]; try discriminate. simpl. auto. }
  assert (N1 : nth_error (n_X z) 1 = Some [0%R]).
  { assert (NM : (1 <= next_multiple (Z.max 0 (3 - zlen (i_fxs D))) 1)%Z).
    { destruct (C35_next_multiple (Z.max 0 (3 - zlen (i_fxs D))) 1 ltac:(lia)) as (_ & Q & _). unfold zlen in *. lia. }
    destruct (chain_prefix _ _ _ _ _ _ _ _ CH') as ((X' & ->) & _).
    rewrite (io_X _ _ _ _ _ _ _ _ _ HI), <- Sam. cbn [n_X].
    destruct (Z.to_nat (next_multiple (Z.max 0 (3 - zlen (i_fxs D))) 1)) eqn:EN'; [lia|]. reflexivity. }
  pose proof (det_value _ _ _ HF _ _ _ DZ N1) as V1. rewrite ex_value, Rmult_0_r in V1.
  destruct GZ as (GL & GE & _).
  assert (Hi : 1 < length (n_X z)) by (apply nth_error_Some; congruence).
  pose proof (m_fvals_log _ _ _ _ _ _ _ GL GE Hi) as Q. unfold m_fvals, mquery in Q. injection Q as Q.
  split; [|lra]. change (Z.of_nat 1) with 1%Z. rewrite Q. f_equal. destruct DZ as (_ & HO & _). specialize (HO _ Hi).
  unfold mean_of, fvals_of in *. destruct (evals_of 1 (n_E z)) as [|v [|]]; try discriminate.
  cbn [map] in *. rewrite xmean_one in V1. now rewrite V1.
Qed.

(** * C93 - residualization *)

(** The fitter gets the constant model of the start in all iterations ... *)
Theorem C93_always_the_start_model_refuted :
  forall VM SM CV ft d w (K : components VM SM CV) O pad x r0 b h r,
    valid_run ft d w K O pad x r0 b h r ->
    exists fvec reg, make_region x r0 b = Ok reg /\
      forall s h' idx xs fvecs old, In s (res_states r) ->
        In (EvFit h' idx xs fvecs old) (st_events s) -> old = k_init K fvec reg.
Proof.
  intros VM SM CV ft d w K O pad x r0 b h r V. open_run V. destruct VM0 as (fv & VM0).
  exists fv, reg. split; [easy|].
  destruct (chain_inv _ _ _ _ _ (fun s => st_vector_model (n_st s) = k_init K fv reg) _ _ _ CH) as [_ P].
  { exact VM0. }
  { intros s ap c LK HP. destruct (link_agrees _ _ _ _ _ _ _ _ LK) as (_ & _ & _ & -> & _).
    destruct (lk_ok _ _ _ _ _ _ _ _ LK) as [D HI]. rewrite (io_ap _ _ _ _ _ _ _ _ _ HI). exact HP. }
  intros s h' idx xs fvecs old Hs He. rewrite RS in Hs. destruct Hs as [<-|Hs].
  { rewrite EV0 in He. destruct He. }
  apply in_map_iff in Hs as ([a ap] & <- & Hs). specialize (P _ _ Hs).
  apply In_nth_error in Hs as [k Hk]. destruct (chain_links _ _ _ _ _ _ _ _ CH _ _ _ Hk) as (c & LK & _).
  destruct (lk_ok _ _ _ _ _ _ _ _ LK) as [D HI]. simpl in He. rewrite (io_ap _ _ _ _ _ _ _ _ _ HI) in He.
  cbn [update_state st_events] in He.
  pose proof (io_events_ok _ _ _ _ _ _ _ _ _ HI) as FO. rewrite Forall_forall in FO.
  specialize (FO _ He). cbn in FO. destruct FO as (-> & _). exact P.
Qed.

(** ... which is the previous model in the first iteration only. *)
Theorem C93_first_iteration_partial :
  forall VM SM CV ft d w (K : components VM SM CV) O pad x r0 b h r,
    valid_run ft d w K O pad x r0 b h r ->
    forall s s' h' idx xs fvecs old, nth_error (res_states r) 0 = Some s ->
      nth_error (res_states r) 1 = Some s' -> In (EvFit h' idx xs fvecs old) (st_events s') ->
      old = st_vector_model s.
Proof.
  intros VM SM CV ft d w K O pad x r0 b h r V s s' h' idx xs fvecs old H0 H1 He.
  destruct (C93_always_the_start_model_refuted _ _ _ _ _ _ _ _ _ _ _ _ _ _ V) as (fv & rg & MR' & C).
  rewrite (C s' _ _ _ _ _ (nth_error_In _ _ H1) He). open_run V. rewrite RS in H0, H1.
  injection H0 as <-. destruct (consecutive _ _ _ _ _ st0 _ _ _ CH (agrees_refl _)) as [CS _].
  destruct (CS 0 st0 s' eq_refl H1) as (a & c & Hl & LK & (_ & _ & _ & G & _)). rewrite <- G.
  destruct (lk_ok _ _ _ _ _ _ _ _ LK) as [D HI].
  rewrite (io_ap _ _ _ _ _ _ _ _ _ HI) in He. cbn [update_state st_events] in He.
  pose proof (io_events_ok _ _ _ _ _ _ _ _ _ HI) as FO. rewrite Forall_forall in FO.
  specialize (FO _ He). cbn in FO. destruct FO as (-> & _).
  rewrite (C s' h' idx xs fvecs (st_vector_model (n_st a))); auto.
  - rewrite RS. exact (nth_error_In _ 1 H1).
  - rewrite (io_ap _ _ _ _ _ _ _ _ _ HI). exact He.
Qed.

(** Components whose vector models are numbers: 0 for the start, 1 for every fit. *)
Definition nat_components : components nat unit unit :=
  mkComp ex_crit 1 (fun _ _ => 0) (fun _ _ _ _ => Ok 1) (fun _ => Ok tt) (ex_solve (fun c => c / 2)%R)
    (fun _ => Fin 1) (fun _ _ => center_sampler) (fun _ _ _ _ xs is => Ok (xs, is)) (fun _ _ => Classic)
    (fun _ _ => Ok (Fin 1)) (fun _ _ => Ok tt) (fun _ _ _ _ _ _ => Ok []).

Lemma nat_run : exists h r,
  valid_run Scalar 1 1 nat_components (ex_config 5 false true) 0 [3%R] 1 None h r /\
  length (res_states r) = 6.
Proof.
  assert (GK : good_components Scalar 1 1 nat_components).
  { split; cbn [nat_components k_crit k_sample k_solve k_filter k_decider].
    - apply ex_crit_good.
    - intros; apply center_sampler_dim.
    - intros sm reg s' Hc [= <-]. cbn. now rewrite map_length.
    - intros h st target n xs is xs' is' HL ND [= <- <-]. split; [easy|]. split; [easy|].
      apply incl_tl, incl_refl.
    - intros; exact I. }
  assert (TK : total_components Scalar 1 None nat_components).
  { split; cbn; eauto.
    - intros t j h reg n m Hc. now apply center_sampler_ok.
    - intros sm reg. eexists. split; [reflexivity|]. discriminate. }
  destruct (tranquilo_go Scalar 1 1 None _ (ex_config 5 false true) GK TK
    (ex_config_good _ _ _) 0%R [3%R] 1%R ltac:(lia) ltac:(lia) eq_refl) as (h & r & H).
  assert (V : valid_run Scalar 1 1 nat_components (ex_config 5 false true) 0 [3%R] 1 None h r)
    by (split; auto; cbn; lia).
  exists h, r. split; [easy|].
  pose proof (C90_evaluations_per_iteration _ _ _ _ _ _ _ _ _ _ _ _ _ _ V eq_refl eq_refl
    ltac:(cbn; lia) ltac:(cbn; lia) ltac:(reflexivity)
    ltac:(intros t j h' reg n m xs; apply (proj2 center_sampler_ok))) as (_ & _ & C & _).
  assert (NM : next_multiple 3 1 = 3%Z).
  { destruct (C35_next_multiple 3 1 ltac:(lia)) as (_ & Q & _). lia. }
  cbn [ex_config target_sample_size batch_size stag_o max_trials sample_increment Nat.max Nat.mul] in C.
  rewrite NM in C. change (Z.of_nat (1 + 0)) with 1%Z in C.
  open_run V.
  assert (LN : length (res_states r) = S (length l)) by (rewrite RS; simpl; now rewrite map_length).
  rewrite LN in *. cbn in LL.
  destruct EN as [E1 E2 E3|pre old new E1|E1 E2 E3 E4]; cbn in E1; auto; try discriminate.
  cbn in E2. lia.
Qed.

(** In the second iteration the data are residualized with the model 0, although the model
    of the first iteration is 1. *)
Example C93_instance : exists h r s1 s2 h' idx xs fvecs vm,
  valid_run Scalar 1 1 nat_components (ex_config 5 false true) 0 [3%R] 1 None h r /\
  nth_error (res_states r) 1 = Some s1 /\ nth_error (res_states r) 2 = Some s2 /\
  (exists evs h1 xs1 fvecs1 old1,
     st_events s1 = evs ++ [EvFit h1 (st_model_indices s1) xs1 fvecs1 old1] /\
     k_fit nat_components xs1 fvecs1 (st_region s1) old1 = Ok vm) /\
  In (EvFit h' idx xs fvecs 0) (st_events s2) /\ vm = 1.
Proof.
  destruct nat_run as (h & r & V & L).
  destruct (nth_error (res_states r) 1) as [s1|] eqn:H1; [|apply nth_error_None in H1; lia].
  destruct (nth_error (res_states r) 2) as [s2|] eqn:H2; [|apply nth_error_None in H2; lia].
  destruct (C84_enough_evaluations _ _ _ _ _ _ _ _ _ _ _ _ _ _ V 0 s1 H1)
    as (n1 & _ & _ & (evs & h1 & xs1 & fv1 & o1 & vm & E1 & E2 & _)).
  destruct (C84_enough_evaluations _ _ _ _ _ _ _ _ _ _ _ _ _ _ V 1 s2 H2)
    as (n2 & _ & _ & (evs2 & h2 & xs2 & fv2 & o2 & vm2 & E3 & E4 & _)).
  destruct (C93_always_the_start_model_refuted _ _ _ _ _ _ _ _ _ _ _ _ _ _ V) as (fv & rg & _ & C).
  assert (Hin : In (EvFit h2 (st_model_indices s2) xs2 fv2 o2) (st_events s2))
    by (rewrite E3; apply in_or_app; simpl; auto).
  rewrite (C _ _ _ _ _ _ (nth_error_In _ _ H2) Hin) in Hin.
  exists h, r, s1, s2, h2, (st_model_indices s2), xs2, fv2, vm.
  split; [easy|]. split; [easy|]. split; [easy|]. split; [eauto 10|]. split; [exact Hin|].
  cbn in E2. congruence.
Qed.

(** * C94 - bounds *)

(** The points of a trust region. *)
Definition in_region (reg : region) (x : vec) : Prop :=
  length x = length (r_center reg) /\
  match r_shape reg with
  | Sphere => (dist x (r_center reg) <= r_radius reg)%R
  | Cube => vle (r_cube_lower reg) x /\ vle x (r_cube_upper reg)
  end.

Lemma region_within c rad b reg x : (0 < rad)%R -> c <> [] -> bounds_dim (length c) b -> in_bounds b c ->
  make_region c rad b = Ok reg -> in_region reg x -> in_bounds b x.
Proof.
  intros Hr Hc HB IB M [L I]. apply make_region_center in M as MC. destruct MC as (C1 & C2 & C3).
  destruct (r_shape reg) eqn:ES.
  - destruct (C15_sphere_never_reaches_bounds c rad b reg M) as [S _]. apply S; auto; congruence.
  - destruct (C14_cube_inside_bounds_contains_center c rad b reg Hr Hc HB IB M ES) as (B1 & B2 & _).
    destruct (region_cube_length c rad b reg HB M) as [L1 L2]. rewrite C1 in L.
    destruct I as [I1 I2]. destruct b as [b|]; [|exact Logic.I]. destruct B1 as [B1 _], B2 as [_ B2]. split.
    + intros l i xi li Hl Hx Hli. destruct (nth_error (r_cube_lower reg) i) as [lo|] eqn:El.
      * pose proof (I1 _ _ _ El Hx). pose proof (B1 _ _ _ _ Hl El Hli). lra.
      * apply nth_error_None in El. assert (i < length x) by (apply nth_error_Some; congruence). lia.
    + intros u i xi ui Hu Hx Hui. destruct (nth_error (r_cube_upper reg) i) as [up|] eqn:El.
      * pose proof (I2 _ _ _ Hx El). pose proof (B2 _ _ _ _ Hu El Hui). lra.
      * apply nth_error_None in El. assert (i < length x) by (apply nth_error_Some; congruence). lia.
Qed.

(** Samplers and the subproblem solver return points of the region they are given, for regions
    that belong to a feasible centre and a positive radius. *)
Definition region_of (d : nat) (b : option bounds) (reg : region) : Prop :=
  exists c rad, length c = d /\ in_bounds b c /\ (0 < rad)%R /\ make_region c rad b = Ok reg.
Definition stays_in_region {VM SM CV} (d : nat) (b : option bounds) (K : components VM SM CV) : Prop :=
  forall reg, region_of d b reg ->
  (forall t j h n m xs, k_sample K t j h reg n m = Ok xs -> Forall (in_region reg) xs) /\
  (forall sm s, k_solve K sm reg = Ok s -> in_region reg (sub_x s)).

(** Every point in the history lies within the bounds. *)
Theorem C94_evaluations_within_bounds :
  forall VM SM CV ft d w (K : components VM SM CV) O pad x r0 b h r,
    valid_run ft d w K O pad x r0 b h r ->
    bounds_dim d b -> in_bounds b x -> (0 < r0)%R ->
    (0 < min_radius (radius_o O) <= max_radius (radius_o O))%R ->
    max_radius_to_step_ratio (radius_o O) = PInf ->
    stays_in_region d b K -> (forall t v, not_line_search (k_decider K t v)) ->
    forall i, i < h_nxs h -> exists y, get_xs_one h (Z.of_nat i) = Ok y /\ in_bounds b y.
Proof.
  intros VM SM CV ft d w K O pad x r0 b h r V HB IB Hr HR HM KR HD.
  pose proof (vr_d _ _ _ _ _ _ _ _ _ _ _ V) as Hd0.
  pose proof (vr_x _ _ _ _ _ _ _ _ _ _ _ V) as Lx. open_run V.
  set (P := fun s : snap (VM:=VM) (SM:=SM) => Forall (in_bounds b) (n_X s) /\
     exists c rad, (0 < rad)%R /\ make_region c rad b = Ok (st_region (n_st s))).
  destruct (chain_inv _ _ _ _ _ P _ _ _ CH) as [[PZ _] _].
  { split; [repeat constructor; exact IB|]. exists x, r0. split; [easy|]. cbn [n_st]. now rewrite R0. }
  { intros s ap c LK [P1 (c0 & rad & Hrad & M)].
    destruct (lk_a _ _ _ _ _ _ _ _ LK) as (GL & _ & [GA GC]).
    apply make_region_center in M as MC. destruct MC as (C1 & C2 & C3).
    assert (LC : length c0 = d).
    { rewrite <- C1, GC. destruct (haslog_dims _ _ _ _ _ _ GL) as (F & _). rewrite Forall_forall in F.
      apply F. now apply nth_error_In in GA. }
    assert (IC : in_bounds b c0).
    { rewrite <- C1, GC. rewrite Forall_forall in P1. apply P1. now apply nth_error_In in GA. }
    assert (In0 : forall y, in_region (st_region (n_st s)) y -> in_bounds b y).
    { intros y. apply (region_within c0 rad b); auto.
      - destruct c0; [simpl in LC; congruence|discriminate].
      - now rewrite LC. }
    assert (RO : region_of d b (st_region (n_st s))) by (exists c0, rad; auto).
    destruct (KR _ RO) as [KS KV].
    destruct (lk_ok _ _ _ _ _ _ _ _ LK) as [D HI].
    pose proof (io_decided _ _ _ _ _ _ _ _ _ HI) as DC.
    split.
    - rewrite (io_X _ _ _ _ _ _ _ _ _ HI). repeat (apply Forall_app; split); auto.
      + pose proof (ff_sample _ _ _ _ _ _ _ _ _ _ _ _ _ _ _ (io_first _ _ _ _ _ _ _ _ _ HI)) as SA.
        eapply Forall_impl; [exact In0|]. eapply KS; eauto.
      + apply Forall_forall. intros y Hy.
        destruct (io_from _ _ _ _ _ _ _ _ _ HI y Hy) as (j & hh & m & n & xs & SA & Hx).
        apply In0. apply KS in SA. rewrite Forall_forall in SA. auto.
      + rewrite (dc_newX _ _ _ _ _ _ _ _ _ _ _ DC (HD _ _)). constructor; [|constructor]. apply In0.
        apply (KV _ _ (gw_solve _ _ _ _ _ _ _ _ _ (io_work _ _ _ _ _ _ _ _ _ HI))).
    - destruct (io_region _ _ _ _ _ _ _ _ _ HI) as (rg & -> & M2). cbn [with_region st_region].
      rewrite C3 in M2. do 2 eexists. split; [|exact M2].
      eapply Rlt_le_trans; [apply HR|]. apply C20_radius_in_limits; [apply HR|]. now rewrite HM. }
  intros i Hi. destruct GZ as (GL & _). rewrite Hz in GL.
  destruct (haslog_dims _ _ _ _ _ _ GL) as (_ & _ & _ & _ & NX). rewrite NX in Hi.
  destruct (nth_error (n_X z) i) as [y'|] eqn:Ey; [|apply nth_error_None in Ey; lia].
  exists y'. split; [now rewrite (xs_one_log _ _ _ _ _ _ i y' GL Ey)|].
  rewrite Forall_forall in PZ. apply PZ. now apply nth_error_In in Ey.
Qed.

(** Samplers and solvers that go to the boundary: half the radius upwards or to the upper
    bound; half the radius downwards or to the lower bound. *)
Definition up_sampler : sampler := fun _ reg n _ =>
  Ok (repeat (match r_shape reg with
              | Sphere => map (fun c => c + r_radius reg / 2)%R (r_center reg)
              | Cube => map (fun c => hd c (r_cube_upper reg)) (r_center reg) end) n).
Definition edge_components : components unit unit unit :=
  mkComp ex_crit 1 (fun _ _ => tt) (fun _ _ _ _ => Ok tt) (fun _ => Ok tt)
    (fun _ reg => Ok (mkSub (match r_shape reg with
              | Sphere => map (fun c => c - r_radius reg / 2)%R (r_center reg)
              | Cube => map (fun c => hd c (r_cube_lower reg)) (r_center reg) end) (Fin 1)))
    (fun _ => Fin 1) (fun _ _ => up_sampler) (fun _ _ _ _ xs is => Ok (xs, is)) (fun _ _ => Classic)
    (fun _ _ => Ok (Fin 1)) (fun _ _ => Ok tt) (fun _ _ _ _ _ _ => Ok []).
Definition one_ten : option bounds := Some (mkBounds (Some [Some 1%R]) (Some [Some 10%R])).

Lemma edge_run k noisy off b (x0 r0 : R) : two_sided b -> bounds_dim 1 b ->
  exists h r, valid_run Scalar 1 1 edge_components (ex_config (S k) noisy off) 0 [x0] r0 b h r.
Proof.
  intros B1 B2.
  assert (GK : good_components Scalar 1 1 edge_components).
  { split; cbn [edge_components k_crit k_sample k_solve k_filter k_decider].
    - apply ex_crit_good.
    - intros _ _ h reg n m xs Hc H. injection H as <-. apply Forall_forall. intros x Hx.
      apply repeat_spec in Hx. subst. destruct (r_shape reg); now rewrite map_length.
    - intros sm reg s' Hc [= <-]. cbn. destruct (r_shape reg); now rewrite map_length.
    - intros h st target n xs is xs' is' HL ND [= <- <-]. split; [easy|]. split; [easy|].
      apply incl_tl, incl_refl.
    - intros; exact I. }
  assert (TK : total_components Scalar 1 b edge_components).
  { split; cbn; eauto.
    - unfold up_sampler. eauto.
    - intros sm reg. eexists. split; [reflexivity|]. discriminate. }
  destruct (tranquilo_go Scalar 1 1 b _ (ex_config (S k) noisy off) GK TK
    (ex_config_good _ _ _) 0%R [x0] r0 ltac:(lia) ltac:(lia) eq_refl) as (h & r & H).
  exists h, r. split; auto; cbn; lia.
Qed.

Lemma edge_stays b : bounds_dim 1 b -> stays_in_region 1 b edge_components.
Proof.
  intros HB reg (c & rad & Lc & IB & Hr & M).
  apply make_region_center in M as MC. destruct MC as (C1 & C2 & _).
  destruct c as [|c [|]]; try discriminate. clear Lc.
  destruct (region_cube_length [c] rad b reg HB M) as [L1 L2].
  assert (DI : forall y, (Rabs (y - c) <= rad)%R -> (dist [y] [c] <= rad)%R).
  { intros y Hy. unfold dist, norm, vsub. cbn. rewrite Rplus_0_r.
    match goal with |- (sqrt ?e <= _)%R => replace e with (Rsqr (y - c)) by (unfold Rsqr; lra) end.
    rewrite sqrt_Rsqr_abs. exact Hy. }
  assert (CB : r_shape reg = Cube -> exists lo up, r_cube_lower reg = [lo] /\ r_cube_upper reg = [up] /\ (lo <= c <= up)%R).
  { intros S. destruct (C14_cube_inside_bounds_contains_center [c] rad b reg Hr ltac:(discriminate) HB IB M S)
      as (_ & _ & V1 & V2 & _).
    destruct (r_cube_lower reg) as [|lo [|]]; try discriminate.
    destruct (r_cube_upper reg) as [|up [|]]; try discriminate.
    exists lo, up. split; [easy|]. split; [easy|]. split; [apply (V1 0); auto|apply (V2 0); auto]. }
  split.
  - intros t j h n m xs. cbn [edge_components k_sample]. intros [= <-].
    apply Forall_forall. intros y Hy. apply repeat_spec in Hy. subst y. unfold in_region.
    rewrite C1, C2. destruct (r_shape reg) eqn:S; cbn [map hd].
    + split; [easy|]. apply DI. replace (c + rad / 2 - c)%R with (rad / 2)%R by lra.
      rewrite Rabs_right; lra.
    + destruct (CB eq_refl) as (lo & up & -> & -> & H). cbn. split; [easy|].
      split; intros [|i] u v Hu Hv; cbn in Hu, Hv; try (destruct i; discriminate); injection Hu as <-; injection Hv as <-; lra.
  - intros sm s. cbn [edge_components k_solve]. intros [= <-]. unfold in_region. cbn [sub_x].
    rewrite C1, C2. destruct (r_shape reg) eqn:S; cbn [map hd].
    + split; [easy|]. apply DI. replace (c - rad / 2 - c)%R with (- (rad / 2))%R by lra.
      rewrite Rabs_Ropp, Rabs_right; lra.
    + destruct (CB eq_refl) as (lo & up & -> & -> & H). cbn. split; [easy|].
      split; intros [|i] u v Hu Hv; cbn in Hu, Hv; try (destruct i; discriminate); injection Hu as <-; injection Hv as <-; lra.
Qed.

(** The start point lies next to the lower bound: the first region is a cube. *)
Example C94_instance : exists h r,
  valid_run Scalar 1 1 edge_components (ex_config 5 false false) 0 [3/2]%R 1 one_ten h r /\
  forall i, i < h_nxs h -> exists y, get_xs_one h (Z.of_nat i) = Ok y /\ in_bounds one_ten y.
Proof.
  assert (B : bounds_dim 1 one_ten) by (split; intros l [= <-]; reflexivity).
  destruct (edge_run 4 false false one_ten (3/2) 1 ltac:(split; discriminate) B) as (h & r & V).
  exists h, r. split; [easy|].
  apply (C94_evaluations_within_bounds _ _ _ _ _ _ _ _ _ _ _ _ _ _ V B).
  - split; intros l [|i] xi li [= <-]; cbn; try (destruct i; discriminate); intros [= <-] [= <-]; lra.
  - lra.
  - cbn. lra.
  - reflexivity.
  - now apply edge_stays.
  - intros; exact I.
Qed.

(** * C98 - the relative gradient criterion *)

(** The reference scale of the "relative" gradient criterion is the gradient itself: for a
    tolerance below one it coincides with the absolute criterion at the same tolerance, for a
    tolerance of one or more it always holds.  Nothing else in the two states matters. *)
Theorem C98_relative_gradient_refuted :
  forall VM SM CV (K : components VM SM CV) old new o g,
    k_gnorm K (st_model new) = Fin g -> (0 <= g)%R ->
    ((gtol_rel o < 1)%R ->
       (snd (is_converged K old new o) = Some MsgGtolRel <-> (g <= gtol_rel o)%R)) /\
    ((1 <= gtol_rel o)%R -> is_converged K old new o = (true, Some MsgGtolRel)).
Proof.
  intros VM SM CV K old new o g Hg G0. pose proof (Rmax_r g 1) as M1. pose proof (Rmax_l g 1) as M2.
  unfold is_converged. rewrite Hg, py_max1_fin, xdiv_max1. cbn [xle].
  assert (D : (g <= 1 -> g / Rmax g 1 = g)%R).
  { intros H. rewrite Rmax_right by easy. field. }
  assert (D2 : (1 <= g -> g / Rmax g 1 = 1)%R).
  { intros H. rewrite Rmax_left by easy. field. lra. }
  split.
  - intros Ht. destruct (Rleb (g / Rmax g 1) (gtol_rel o)) eqn:E.
    + apply Rleb_true in E. cbn. split; [intros _|reflexivity].
      destruct (Rle_dec g 1); [rewrite D in E by easy; easy|]. rewrite D2 in E by lra. lra.
    + apply Rleb_false in E. split.
      * repeat match goal with |- context[if ?c then _ else _] => destruct c end; discriminate.
      * intros H. destruct (Rle_dec g 1); [rewrite D in E by easy; lra|]. lra.
  - intros Ht. destruct (Rleb (g / Rmax g 1) (gtol_rel o)) eqn:E; [reflexivity|].
    apply Rleb_false in E. destruct (Rle_dec g 1); [rewrite D in E by easy; lra|].
    rewrite D2 in E by lra. lra.
Qed.

(** A gradient norm of 1 does not meet the tolerance 1/1000, although the criterion changes
    from 10^9 to 10^9 - 10^6 and the ratio of the norm to the value is 10^-9. *)
Example C98_instance : exists (K : components unit unit unit) (old new : state unit unit) o f0 g,
  st_fval old = Fin f0 /\ k_gnorm K (st_model new) = Fin g /\
  (0 < g / Rabs f0 < gtol_rel o / 1000)%R /\ (gtol_rel o < 1)%R /\
  snd (is_converged K old new o) <> Some MsgGtolRel.
Proof.
  pose (st := ex_state 1000000000 0). pose (st2 := ex_state 999000000 0).
  exists edge_components, st, st2, (conv_o (ex_config 1 false false)), 1000000000%R, 1%R.
  split; [reflexivity|]. split; [reflexivity|]. cbn. split; [rewrite Rabs_right; lra|]. split; [lra|].
  intros H.
  assert (H2 := proj1 (C98_relative_gradient_refuted _ _ _ edge_components st st2 (conv_o (ex_config 1 false false)) 1
    eq_refl ltac:(lra))). cbn [ex_config conv_o gtol_rel] in H2.
  assert (1 <= 1/1000)%R; [|lra]. apply H2; [lra|exact H].
Qed.

(** * C115 - every run returns a result *)

(** If the components never raise, the options are in range and the bounds are two-sided, the
    run returns a result: the loops end, no step of the loop itself raises. *)
Theorem C115_run_returns_a_result :
  forall VM SM CV ft d w (K : components VM SM CV) O pad x r0 b,
    good_components ft d w K -> total_components ft d b K -> good_config O ->
    d <> 0 -> w <> 0 -> length x = d ->
    exists h r, tranquilo K O ft pad x r0 b = (h, Ok r) /\ res_states r <> [].
Proof.
  intros VM SM CV ft d w K O pad x r0 b GK TK GC Hd Hw Hx.
  destruct (tranquilo_go ft d w b K O GK TK GC pad x r0 Hd Hw Hx) as (h & r & H).
  exists h, r. split; [easy|].
  assert (V : valid_run ft d w K O pad x r0 b h r) by (split; auto; apply GC).
  open_run V. rewrite RS. discriminate.
Qed.

Example C115_instance : exists h r,
  tranquilo edge_components (ex_config 5 false false) Scalar 0 [3/2]%R 1 one_ten = (h, Ok r) /\
  res_states r <> [].
Proof.
  destruct (edge_run 4 false false one_ten (3/2) 1 ltac:(split; discriminate)
    ltac:(split; intros l [= <-]; reflexivity)) as (h & r & V).
  exists h, r. split; [apply V|]. open_run V. rewrite RS. discriminate.
Qed.
