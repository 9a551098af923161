(** Properties C171 to C173: rejected and accepted iterations of a run. *)
From Coq Require Import Reals List Arith ZArith Bool Lia Lra.
From Verif Require Import Base XR Vec FVec HistoryModel HistorySpec HistoryProofs WrapModel WrapProofs
  VolumeModel RegionModel AdjustModel AcceptModel FilterModel LogSpec LogProofs Prop_Volume Prop_Region
  Prop_Adjust AcceptProofs Prop_Accept Prop_Filter MainModel MainProofs MainPhases MainLoop
  MainProgress Prop_Main Prop_Main2 Prop_Main3 Prop_Main4 Prop_Step ModelsModel SubproblemModel
  Prop_Subproblem BuiltinModel Prop_Builtin Prop_Builtin2 LstsqProofs.
Import ListNotations.
Open Scope nat_scope.

(** * C171 - a rejection shrinks the trust region *)

(** A rejected improvement gives a rho below every non-negative threshold. *)
Lemma rejected_rho imp e mi t : (mi <= 0)%R -> (0 <= e)%R -> (0 <= t)%R ->
  xge imp (Fin mi) = false -> ~ rho_ge (calculate_rho imp (Fin e)) t.
Proof.
  intros Hm He Ht Hx. unfold calculate_rho. cbn [xeq].
  destruct imp as [i| | |]; try discriminate Hx.
  - unfold xge, xle in Hx. apply Rleb_false in Hx.
    destruct (Reqb_spec e 0) as [->|Hn]; cbn [andb].
    + cbn [xgt xlt]. destruct (Rltb 0 i) eqn:B; [apply Rltb_true in B; lra|]. easy.
    + cbn [xdiv]. destruct (Reqb_spec e 0); [easy|]. cbn [rho_ge].
      assert (0 < e)%R by lra. intros Q.
      assert (i / e < 0)%R; [|lra]. unfold Rdiv. assert (0 < / e)%R by now apply Rinv_0_lt_compat. nra.
  - destruct (Reqb_spec e 0) as [->|Hn]; cbn; [easy|].
    destruct (Rltb e 0) eqn:B; [apply Rltb_true in B; lra|]. easy.
  - destruct (Reqb_spec e 0) as [->|Hn]; cbn; easy.
Qed.

(** An iteration that rejects its candidate. *)
Lemma rejected_state VM SM CV ft d w (K : components VM SM CV) O pad x r0 b h r :
  valid_run ft d w K O pad x r0 b h r -> (forall t v, k_decider K t v = Classic) ->
  (min_improvement O <= 0)%R ->
  forall k s s', nth_error (res_states r) k = Some s -> nth_error (res_states r) (S k) = Some s' ->
  st_accepted s' = false ->
  (forall sub, k_solve K (st_model s') (st_region s') = Ok sub -> exists e, sub_ei sub = Fin e /\ (0 <= e)%R) ->
  st_x s' = st_x s /\ forall t, (0 <= t)%R -> ~ rho_ge (st_rho s') t.
Proof.
  intros V HC HM k s s' H1 H2 Ha HE. open_run V. rewrite RS in H1, H2.
  destruct (consecutive _ _ _ _ _ st0 _ _ _ CH (agrees_refl _)) as [CS _].
  destruct (CS k s s' H1 H2) as (a & c & Hl & LK & (G1 & _ & G3 & _)).
  destruct (lk_ok _ _ _ _ _ _ _ _ LK) as [D HI].
  pose proof (io_decided _ _ _ _ _ _ _ _ _ HI) as DC. rewrite HC in DC.
  pose proof (gw_solve _ _ _ _ _ _ _ _ _ (io_work _ _ _ _ _ _ _ _ _ HI)) as SV.
  rewrite (io_ap _ _ _ _ _ _ _ _ _ HI) in *.
  cbn [update_state st_model st_region st_rho st_accepted st_x st_fval] in *.
  destruct (dc_rej _ _ _ _ _ _ _ _ _ _ _ DC Ha) as (R1 & _). cbn in R1. split; [congruence|].
  destruct (HE _ SV) as (e & Ee & He).
  intros t Ht.
  destruct (isfinite (mean_of ft (length (n_X a ++ i_X1 D ++ i_X3 D)) ((n_E a ++ i_E1 D ++ i_E3 D) ++ i_E2 D))) eqn:Fi.
  - rewrite (dc_rho _ _ _ _ _ _ _ _ _ _ _ DC) by (right; split; [exact Logic.I|exact Fi]).
    rewrite Ee. eapply rejected_rho; eauto.
    destruct (xge _ (Fin (min_improvement O))) eqn:B; [|reflexivity].
    rewrite (dc_yes _ _ _ _ _ _ _ _ _ _ _ DC eq_refl Fi B) in Ha. discriminate.
  - rewrite (dc_rho_inf _ _ _ _ _ _ _ _ _ _ _ DC Logic.I Fi). easy.
Qed.

(** If the expected improvement is not negative and [min_improvement] is 0 (its default) or less,
    a rejection multiplies the radius by the shrinking factor. *)
Theorem C171_rejection_shrinks_partial :
  forall VM SM CV ft d w (K : components VM SM CV) O pad x r0 b h r,
    valid_run ft d w K O pad x r0 b h r ->
    noisy O = false -> (forall t v, k_decider K t v = Classic) -> (0 < r0)%R ->
    (0 < min_radius (radius_o O) <= max_radius (radius_o O))%R ->
    max_radius_to_step_ratio (radius_o O) = PInf ->
    (0 < large_step (radius_o O))%R -> (0 <= rho_decrease (radius_o O))%R ->
    (min_improvement O <= 0)%R ->
    forall k s s', nth_error (res_states r) (S k) = Some s -> nth_error (res_states r) (S (S k)) = Some s' ->
    st_accepted s = false ->
    (forall sub, k_solve K (st_model s) (st_region s) = Ok sub -> exists e, sub_ei sub = Fin e /\ (0 <= e)%R) ->
    r_center (st_region s') = r_center (st_region s) /\
    r_radius (st_region s') = Rmin (max_radius (radius_o O))
      (Rmax (r_radius (st_region s) * shrinking_factor (radius_o O)) (min_radius (radius_o O))).
Proof.
  intros VM SM CV ft d w K O pad x r0 b h r V HQ HC Hr HR HX HL HD HM k s s' H1 H2 Ha HE.
  assert (exists s0, nth_error (res_states r) k = Some s0) as [s0 H0].
  { destruct (nth_error (res_states r) k) as [s0|] eqn:H0; [eauto|].
    apply nth_error_None in H0. assert (S k < length (res_states r)) by (apply nth_error_Some; congruence). lia. }
  destruct (rejected_state _ _ _ _ _ _ _ _ _ _ _ _ _ _ V HC HM k s0 s H0 H1 Ha HE) as [Q1 Q2].
  destruct (C164_radius_update _ _ _ _ _ _ _ _ _ _ _ _ _ _ V HQ Hr HR HX) as [F A].
  destruct (A k s0 s s' H0 H1 H2) as (B1 & _ & raw & B2 & _ & _ & B3).
  split.
  - rewrite B1, Q1. destruct k as [|k].
    + destruct (F s (or_intror H1)) as (_ & -> & _). destruct (F s0 (or_introl H0)) as (_ & E & _).
      open_run V. rewrite RS in H0. injection H0 as <-. exact X0.
    + assert (exists s1, nth_error (res_states r) k = Some s1) as [s1 H3].
      { destruct (nth_error (res_states r) k) as [s1|] eqn:H3; [eauto|].
        apply nth_error_None in H3. assert (S k < length (res_states r)) by (apply nth_error_Some; congruence). lia. }
      destruct (A k s1 s0 s H3 H0 H1) as (-> & _). reflexivity.
  - rewrite B2, B3; [reflexivity| |apply Q2; easy].
    intros [_ Q]. rewrite Q1 in Q.
    assert (dist (st_x s0) (st_x s0) = 0)%R as Z.
    { apply dist_refl. }
    rewrite Z in Q.
    assert (0 < r_radius (st_region s))%R.
    { destruct k as [|k].
      - destruct (F s (or_intror H1)) as (-> & _). exact Hr.
      - assert (exists s1, nth_error (res_states r) k = Some s1) as [s1 H3].
        { destruct (nth_error (res_states r) k) as [s1|] eqn:H3; [eauto|].
          apply nth_error_None in H3. assert (S k < length (res_states r)) by (apply nth_error_Some; congruence). lia. }
        destruct (A k s1 s0 s H3 H0 H1) as (_ & _ & raw' & -> & _).
        destruct HR as [HR1 HR2]. unfold Rmin, Rmax. repeat destruct Rle_dec; lra. }
    nra.
Qed.

(** Minimizing x^2 from 3 with a solver that doubles the point: the first candidate 6 is rejected
    and the radius is halved. *)
Example C171_instance : exists h r s s',
  valid_run Scalar 1 1 (ex_components (fun c => 2 * c)%R (fun _ _ => Classic) center_sampler ex_crit)
    (ex_config 5 false true) 0 [3%R] 1 None h r /\
  nth_error (res_states r) 1 = Some s /\ nth_error (res_states r) 2 = Some s' /\
  st_accepted s = false /\ r_radius (st_region s) = 1%R /\ r_radius (st_region s') = (/ 2)%R.
Proof.
  destruct (ex_long_run (fun c => 2 * c)%R) as (h & r & V & L).
  destruct (nth_error (res_states r) 0) as [s0|] eqn:H0; [|apply nth_error_None in H0; lia].
  destruct (nth_error (res_states r) 1) as [s|] eqn:H1; [|apply nth_error_None in H1; lia].
  destruct (nth_error (res_states r) 2) as [s'|] eqn:H2; [|apply nth_error_None in H2; lia].
  exists h, r, s, s'. split; [exact V|]. split; [easy|]. split; [easy|].
  destruct (C164_radius_update _ _ _ _ _ _ _ _ _ _ _ _ _ _ V eq_refl ltac:(lra) ltac:(cbn; lra) eq_refl) as [A _].
  destruct (A s (or_intror H1)) as (A1 & A2 & _).
  destruct (C163_iteration _ _ _ _ _ _ _ _ _ _ _ _ _ _ (fun x => Ret (VS (Fin (hd 0 x * hd 0 x)%R))) V
    ltac:(intros h' args cores; reflexivity) eq_refl eq_refl ltac:(cbn; lia) ltac:(reflexivity) 0 s0 s H0 H1)
    as (sub & S1 & _ & S2 & _).
  unfold ex_components, ex_solve in S1. cbn [k_solve] in S1. rewrite A2 in S1. injection S1 as <-.
  cbn [map sub_x sub_ei] in *.
  assert (X0 : st_x s0 = [3%R]) by (open_run V; rewrite RS in H0; injection H0 as <-; exact X0).
  destruct (S2 (3 * 3)%R (2 * 3 * (2 * 3))%R 1%R) as [_ R2].
  { now rewrite X0. } { reflexivity. } { reflexivity. }
  assert (Ac : st_accepted s = false).
  { destruct (st_accepted s); [|easy]. apply proj1 in R2. specialize (R2 eq_refl). cbn in R2. lra. }
  split; [easy|]. split; [easy|].
  destruct (C171_rejection_shrinks_partial _ _ _ _ _ _ _ _ _ _ _ _ _ _ V eq_refl ltac:(reflexivity) ltac:(lra)
    ltac:(cbn; lra) eq_refl ltac:(cbn; lra) ltac:(cbn; lra) ltac:(cbn; lra) 0 s s' H1 H2 Ac) as [_ ->].
  { intros sub Q. injection Q as <-. exists 1%R. split; [reflexivity|lra]. }
  rewrite A1. cbn. unfold Rmin, Rmax. repeat destruct Rle_dec; lra.
Qed.

(** The same configuration with a positive [min_improvement]. *)
Definition strict_config (mi : R) : config :=
  mkConfig false (mkConv true (1/1000) (1/1000) (1/1000) (1/1000) (1/1000) (1/1000) (1/1000))
    (mkStop 5 100 PInf) default_radius_options
    (mkNoiseOptions 1 1 1 1 1 5 1) 1 3 (mkStag (1/2) true (1/2) 1 1) 4 1 1 mi.

Lemma strict_run f mi : exists h r,
  valid_run Scalar 1 1 (ex_components f (fun _ _ => Classic) center_sampler ex_crit)
    (strict_config mi) 0 [3%R] 1 None h r /\ 3 <= length (res_states r).
Proof.
  assert (GK : good_components Scalar 1 1 (ex_components f (fun _ _ => Classic) center_sampler ex_crit)).
  { apply ex_components_good; [apply ex_crit_good|apply center_sampler_dim|]. intros t v. exact I. }
  destruct (tranquilo_go Scalar 1 1 None _ (strict_config mi) GK
    (ex_components_total f (fun _ _ => Classic) center_sampler ex_crit None ltac:(unfold center_sampler; eauto)
       (fun _ _ => or_introl eq_refl) I I)
    ltac:(split; cbn; lia) 0%R [3%R] 1 ltac:(lia) ltac:(lia) eq_refl) as (h & r & H).
  assert (V : valid_run Scalar 1 1 (ex_components f (fun _ _ => Classic) center_sampler ex_crit)
    (strict_config mi) 0 [3%R] 1 None h r) by (split; auto; cbn; lia).
  exists h, r. split; [easy|].
  pose proof (C90_evaluations_per_iteration _ _ _ _ _ _ _ _ _ _ _ _ _ _ V eq_refl eq_refl
    ltac:(cbn; lia) ltac:(cbn; lia) ltac:(reflexivity)
    ltac:(intros t j h' reg n m xs; apply (proj2 center_sampler_ok))) as (_ & _ & C & _).
  assert (NM : next_multiple 3 1 = 3%Z).
  { destruct (C35_next_multiple 3 1 ltac:(lia)) as (_ & Q & _). lia. }
  cbn [strict_config target_sample_size batch_size stag_o max_trials sample_increment Nat.max Nat.mul] in C.
  rewrite NM in C. change (Z.of_nat (1 + 0)) with 1%Z in C.
  open_run V.
  assert (LN : length (res_states r) = S (length l)) by (rewrite RS; simpl; now rewrite map_length).
  rewrite LN in *. cbn in LL.
  destruct EN as [E1 E2 E3|pre old new E1|E1 E2 E3 E4]; cbn in E1; try lia; try discriminate.
  cbn in E2. lia.
Qed.

(** With a positive [min_improvement] a candidate that improves by less is rejected although rho
    is large, and the radius is kept: here the candidate 3/2 improves from 9 to 9/4, rho is 27/4,
    and the next iteration starts from the same region. *)
Theorem C171_rejection_shrinks_refuted : exists h r s s',
  valid_run Scalar 1 1 (ex_components (fun c => c / 2)%R (fun _ _ => Classic) center_sampler ex_crit)
    (strict_config 100) 0 [3%R] 1 None h r /\
  nth_error (res_states r) 1 = Some s /\ nth_error (res_states r) 2 = Some s' /\
  st_accepted s = false /\ st_rho s = Fin (27 / 4) /\
  r_center (st_region s') = r_center (st_region s) /\ r_radius (st_region s') = r_radius (st_region s).
Proof.
  destruct (strict_run (fun c => c / 2)%R 100) as (h & r & V & L).
  destruct (nth_error (res_states r) 0) as [s0|] eqn:H0; [|apply nth_error_None in H0; lia].
  destruct (nth_error (res_states r) 1) as [s|] eqn:H1; [|apply nth_error_None in H1; lia].
  destruct (nth_error (res_states r) 2) as [s'|] eqn:H2; [|apply nth_error_None in H2; lia].
  exists h, r, s, s'. split; [exact V|]. split; [easy|]. split; [easy|].
  destruct (C164_radius_update _ _ _ _ _ _ _ _ _ _ _ _ _ _ V eq_refl ltac:(lra) ltac:(cbn; lra) eq_refl) as [A B].
  destruct (A s (or_intror H1)) as (A1 & A2 & _).
  destruct (B 0 s0 s s' H0 H1 H2) as (B1 & _ & raw & B2 & _ & B3 & _).
  destruct (C163_iteration _ _ _ _ _ _ _ _ _ _ _ _ _ _ (fun x => Ret (VS (Fin (hd 0 x * hd 0 x)%R))) V
    ltac:(intros h' args cores; reflexivity) eq_refl eq_refl ltac:(cbn; lia) ltac:(reflexivity) 0 s0 s H0 H1)
    as (sub & S1 & _ & S2 & _ & _ & S5).
  unfold ex_components, ex_solve in S1. cbn [k_solve] in S1. rewrite A2 in S1. injection S1 as <-.
  cbn [map sub_x sub_ei] in *.
  assert (X0 : st_x s0 = [3%R]) by (open_run V; rewrite RS in H0; injection H0 as <-; exact X0).
  destruct (S2 (3 * 3)%R (3 / 2 * (3 / 2))%R 1%R) as [[R1 _] R2].
  { now rewrite X0. } { reflexivity. } { reflexivity. }
  assert (Ac : st_accepted s = false).
  { destruct (st_accepted s); [|easy]. apply proj1 in R2. specialize (R2 eq_refl). cbn in R2. lra. }
  destruct (S5 Ac) as [S6 _].
  assert (Rh : st_rho s = Fin (27 / 4)) by (rewrite R1 by lra; f_equal; lra).
  split; [easy|]. split; [easy|].
  split; [congruence|]. rewrite B2, B3; rewrite ?A1.
  - cbn. unfold Rmin, Rmax. repeat destruct Rle_dec; lra.
  - rewrite S6, dist_refl. cbn. intros [_ Q]. lra.
  - rewrite Rh. cbn. lra.
Qed.

(** The expected improvement of every built-in subsolver is finite and not negative. *)
Lemma map2_finite A B (f : A -> B -> xr) (g : A -> B -> R) l k :
  (forall a b, In b k -> f a b = Fin (g a b)) -> map2 f l k = map Fin (map2 g l k).
Proof.
  revert k. induction l as [|a l IH]; intros [|b k] H; try reflexivity.
  cbn [map2 map]. f_equal; [apply H; now left|]. apply IH. intros a' b' Hb. apply H. now right.
Qed.

Lemma to_unit_finite reg : misshapen reg = false -> degenerate reg = false ->
  exists v, xmap_to_unit reg (r_center reg) = map Fin v /\ length v = length (r_center reg).
Proof.
  intros M D. apply misshapen_false in M as [M1 M2]. unfold degenerate in D. unfold xmap_to_unit.
  destruct (r_shape reg).
  - exists (map2 (fun xi c => (xi - c) / r_radius reg)%R (r_center reg) (r_center reg)).
    split; [|rewrite map2_length; lia]. apply map2_finite. intros a c _. cbn [xdiv].
    now rewrite D.
  - exists (map2 (fun xi '(l, u) => 2 * (xi - l) / (u - l) - 1)%R (r_center reg)
      (combine (r_cube_lower reg) (r_cube_upper reg))).
    split; [|rewrite map2_length, combine_length; lia]. apply map2_finite. intros a [l u] Hb. cbn [xdiv].
    destruct (Reqb (u - l) 0) eqn:B; [|reflexivity].
    assert (T : existsb (fun '(l, u) => Reqb (u - l) 0) (combine (r_cube_lower reg) (r_cube_upper reg)) = true).
    { apply existsb_exists. exists (l, u). auto. }
    congruence.
Qed.

Theorem C171_builtin_expectations : forall X ch d m reg sub,
  ext_dims d X -> length (r_center reg) = d -> builtin_solve X ch m reg = Ok sub ->
  exists e, sub_ei sub = Fin e /\ (0 <= e)%R.
Proof.
  intros X ch d s reg sub ED L. unfold builtin_solve. destruct s as [s|]; [|discriminate].
  destruct (misshapen reg) eqn:M; [discriminate|]. cbn [orb].
  destruct (Nat.eqb_spec (sm_n s) (length (r_center reg))) as [N|]; [|discriminate]. cbn [negb].
  unfold solve_proper. destruct (degenerate reg) eqn:DG; [discriminate|].
  destruct (solve_subproblem _ _ _ _ _ _ _) as [q|] eqn:E; [|discriminate]. cbn [bind].
  match goal with |- context [match ?t with Some _ => _ | None => _ end] => destruct t as [v|]; [|discriminate] end.
  intros [= <-]. cbn [sub_ei].
  pose proof (C53_improvement_nonnegative _ _ _ _ _ _ _ _ E) as NN.
  apply solve_cases in E as (rw & DV & E). cbv zeta in E.
  apply (delivered_dim X ch d ED) in DV; [|congruence|easy]. destruct DV as (u & EU & LU).
  destruct (to_unit_finite reg M DG) as (o & EO & LO). rewrite EO in E.
  assert (FY : exists y, match r_shape reg with
             | Cube => map (fun a => xclip a (Fin (-1)) (Fin 1)) (raw_x rw)
             | Sphere => raw_x rw end = map Fin y /\ length y = sm_n s).
  { rewrite EU. destruct (r_shape reg); [eauto|].
    exists (map (fun a => clip a (-1) 1) u). rewrite !map_map, map_length. split; [|easy].
    apply map_ext. intros a. unfold xclip, xmin, xmax, xle, clip, Rmin, Rmax, Rleb.
    repeat (destruct Rle_dec; cbn); try reflexivity; try (f_equal; lra). }
  destruct FY as (y & EY & LY). rewrite EY in E.
  rewrite (predict_x_fin s y LY), (predict_x_fin s o) in E by congruence.
  destruct E as (_ & _ & [(_ & _ & E & _)|(_ & _ & E & _)]); rewrite E in *; cbn in *.
  - apply Rleb_true in NN. eauto.
  - apply Rleb_true in NN. eauto.
Qed.

(** A subproblem of a run with the default components. *)
Example C171_builtin_instance : exists h r s sub,
  valid_run LeastSquares 2 3 (builtin_components (ex_ext ls) ls_choices 2 3 ex_crit142 1) (ls_config 5) 0
    [0%R; 0%R] 1 None h r /\
  nth_error (res_states r) 1 = Some s /\
  builtin_solve (ex_ext ls) ls_choices (st_model s) (st_region s) = Ok sub.
Proof.
  destruct (C141_instance 5) as (h & r & H).
  assert (V : valid_run LeastSquares 2 3 (builtin_components (ex_ext ls) ls_choices 2 3 ex_crit142 1) (ls_config 5) 0
    [0%R; 0%R] 1 None h r).
  { split; try easy. apply C140_instance. }
  open_run V. destruct l as [|[a ap] l].
  { destruct EN; cbn in *; lia. }
  destruct (consecutive _ _ _ _ _ st0 _ _ _ CH (agrees_refl _)) as [CS _].
  destruct (CS 0 st0 ap eq_refl eq_refl) as (a' & c & Hl & LK & _).
  destruct (lk_ok _ _ _ _ _ _ _ _ LK) as [D HI].
  pose proof (gw_solve _ _ _ _ _ _ _ _ _ (io_work _ _ _ _ _ _ _ _ _ HI)) as SV.
  exists h, r, ap, (f_sub (w_fit (i_wk D))). split; [exact V|]. rewrite RS. split; [reflexivity|].
  rewrite (io_ap _ _ _ _ _ _ _ _ _ HI). exact SV.
Qed.

(** * C172 - rejections are paid for by accepted steps *)

(** The number of accepted and of rejected iterations among the first n. *)
Definition n_accepted {VM SM} (r : result VM SM) (n : nat) : nat :=
  length (filter (fun s => st_accepted s) (firstn n (tl (res_states r)))).
Definition n_rejected {VM SM} (r : result VM SM) (n : nat) : nat :=
  length (filter (fun s => negb (st_accepted s)) (firstn n (tl (res_states r)))).

Lemma firstn_snoc A (l : list A) n a : nth_error l n = Some a -> firstn (S n) l = firstn n l ++ [a].
Proof.
  revert l. induction n as [|n IH]; intros [|b l] H; try discriminate.
  - injection H as <-. reflexivity.
  - cbn [firstn app]. f_equal. now apply IH.
Qed.

Lemma n_accepted_S VM SM (r : result VM SM) n s : nth_error (res_states r) (S n) = Some s ->
  n_accepted r (S n) = n_accepted r n + (if st_accepted s then 1 else 0) /\
  n_rejected r (S n) = n_rejected r n + (if st_accepted s then 0 else 1).
Proof.
  intros H. unfold n_accepted, n_rejected.
  assert (E : nth_error (tl (res_states r)) n = Some s) by (destruct (res_states r); [discriminate|exact H]).
  rewrite (firstn_snoc _ _ _ _ E), !filter_app, !app_length. cbn [filter].
  destruct (st_accepted s); cbn; lia.
Qed.

Lemma state_dim VM SM CV ft d w (K : components VM SM CV) O pad x r0 b h r n s :
  valid_run ft d w K O pad x r0 b h r -> nth_error (res_states r) (S n) = Some s ->
  length (r_center (st_region s)) = d.
Proof.
  intros V H. open_run V.
  assert (exists s0, nth_error (res_states r) n = Some s0) as [s0 H0].
  { destruct (nth_error (res_states r) n) as [s0|] eqn:H0; [eauto|].
    apply nth_error_None in H0. assert (S n < length (res_states r)) by (apply nth_error_Some; congruence). lia. }
  rewrite RS in H, H0.
  destruct (consecutive _ _ _ _ _ st0 _ _ _ CH (agrees_refl _)) as [CS _].
  destruct (CS n s0 s H0 H) as (a & c & Hl & LK & _).
  destruct (lk_ok _ _ _ _ _ _ _ _ LK) as [D HI]. rewrite (io_ap _ _ _ _ _ _ _ _ _ HI).
  cbn [update_state st_region]. pose proof (lk_a _ _ _ _ _ _ _ _ LK) as GA.
  destruct GA as (G1 & _ & G2). apply (at_point_dim _ _ _ _ _ _ _ G1 G2).
Qed.

(** As long as the radius stays above its lower limit, every rejection has shrunk it and only
    accepted steps have expanded it. *)
Theorem C172_rejections_are_bounded :
  forall VM SM CV ft d w (K : components VM SM CV) O pad x r0 b h r,
    valid_run ft d w K O pad x r0 b h r ->
    noisy O = false -> (forall t v, k_decider K t v = Classic) -> (0 < r0)%R ->
    (0 < min_radius (radius_o O) <= max_radius (radius_o O))%R ->
    max_radius_to_step_ratio (radius_o O) = PInf ->
    (0 < large_step (radius_o O))%R -> (0 <= rho_decrease (radius_o O))%R ->
    (0 < shrinking_factor (radius_o O) <= 1)%R -> (1 <= expansion_factor (radius_o O))%R ->
    (min_improvement O <= 0)%R ->
    (forall m reg sub, length (r_center reg) = d -> k_solve K m reg = Ok sub ->
       exists e, sub_ei sub = Fin e /\ (0 <= e)%R) ->
    forall n s, nth_error (res_states r) (S n) = Some s ->
    (forall k s', k <= S n -> nth_error (res_states r) k = Some s' ->
       (min_radius (radius_o O) < r_radius (st_region s'))%R) ->
    n_accepted r n + n_rejected r n = n /\
    (r_radius (st_region s) <=
       r0 * expansion_factor (radius_o O) ^ n_accepted r n * shrinking_factor (radius_o O) ^ n_rejected r n)%R /\
    (radius_o O = default_radius_options ->
       2 ^ n_rejected r n < 1000000 * r0 * 2 ^ n_accepted r n)%R.
Proof.
  intros VM SM CV ft d w K O pad x r0 b h r V HQ HC Hr HR HX HL HD HS HE HM HK.
  destruct (C164_radius_update _ _ _ _ _ _ _ _ _ _ _ _ _ _ V HQ Hr HR HX) as [F A].
  set (E := expansion_factor (radius_o O)) in *. set (Sf := shrinking_factor (radius_o O)) in *.
  assert (Main : forall n s, nth_error (res_states r) (S n) = Some s ->
    (forall k s', k <= S n -> nth_error (res_states r) k = Some s' ->
       (min_radius (radius_o O) < r_radius (st_region s'))%R) ->
    n_accepted r n + n_rejected r n = n /\
    (r_radius (st_region s) <= r0 * E ^ n_accepted r n * Sf ^ n_rejected r n)%R).
  { induction n as [|n IH]; intros s H1 HB.
    - destruct (F s (or_intror H1)) as (-> & _).
      assert (Z : n_accepted r 0 = 0 /\ n_rejected r 0 = 0) by (split; reflexivity).
      destruct Z as [-> ->]. split; [reflexivity|]. cbn [pow]. lra.
    - assert (exists s1, nth_error (res_states r) (S n) = Some s1) as [s1 H0].
      { destruct (nth_error (res_states r) (S n)) as [s1|] eqn:H3; [eauto|].
        apply nth_error_None in H3. assert (S (S n) < length (res_states r)) by (apply nth_error_Some; congruence). lia. }
      assert (exists s2, nth_error (res_states r) n = Some s2) as [s2 H2].
      { destruct (nth_error (res_states r) n) as [s2|] eqn:H3; [eauto|].
        apply nth_error_None in H3. assert (S n < length (res_states r)) by (apply nth_error_Some; congruence). lia. }
      destruct (IH s1 H0) as [I1 I2]. { intros k s' Hk. apply HB. lia. }
      pose proof (HB _ _ (le_n _) H1) as Hs. pose proof (HB _ _ (le_S _ _ (le_n _)) H0) as Hs1.
      destruct (n_accepted_S _ _ _ _ _ H0) as [-> ->].
      set (na := n_accepted r n) in *. set (nr := n_rejected r n) in *.
      assert (PE : (0 < E ^ na)%R) by (apply pow_lt; lra).
      assert (PS : (0 < Sf ^ nr)%R) by (apply pow_lt; lra).
      destruct (st_accepted s1) eqn:Ha.
      + split; [lia|]. rewrite Nat.add_0_r, Nat.add_1_r. cbn [pow].
        destruct (A n s2 s1 s H2 H0 H1) as (_ & _ & raw & B2 & B3 & B4 & B5).
        assert (Hraw : (raw <= r_radius (st_region s1) * E)%R).
        { assert (Q1 : (r_radius (st_region s1) <= r_radius (st_region s1) * E)%R) by nra.
          assert (Q2 : (r_radius (st_region s1) * Sf <= r_radius (st_region s1))%R) by nra.
          destruct (Rle_dec (large_step (radius_o O) * r_radius (st_region s1)) (dist (st_x s1) (st_x s2))) as [S1|S1].
          - destruct (xge (st_rho s1) (Fin (rho_increase (radius_o O)))) eqn:G1.
            + apply xge_rho in G1. rewrite B3 by easy. fold E. lra.
            + assert (N1 : ~ rho_ge (st_rho s1) (rho_increase (radius_o O))) by (rewrite <- xge_rho; congruence).
              destruct (xge (st_rho s1) (Fin (rho_decrease (radius_o O)))) eqn:G2.
              * apply xge_rho in G2. rewrite B4 by easy. lra.
              * assert (N2 : ~ rho_ge (st_rho s1) (rho_decrease (radius_o O))) by (rewrite <- xge_rho; congruence).
                rewrite B5 by easy. fold Sf. lra.
          - destruct (xge (st_rho s1) (Fin (rho_decrease (radius_o O)))) eqn:G2.
            * apply xge_rho in G2. rewrite B4 by easy. lra.
            * assert (N2 : ~ rho_ge (st_rho s1) (rho_decrease (radius_o O))) by (rewrite <- xge_rho; congruence).
              rewrite B5 by easy. fold Sf. lra. }
        assert (Hrad : (r_radius (st_region s) <= raw)%R).
        { rewrite B2 in *. revert Hs. unfold Rmin, Rmax. repeat destruct Rle_dec; lra. }
        apply Rle_trans with (r_radius (st_region s1) * E)%R; [lra|].
        apply Rle_trans with (r0 * E ^ na * Sf ^ nr * E)%R; [|lra].
        apply Rmult_le_compat_r; lra.
      + split; [lia|]. rewrite Nat.add_0_r, Nat.add_1_r. cbn [pow].
        destruct (C171_rejection_shrinks_partial _ _ _ _ _ _ _ _ _ _ _ _ _ _ V HQ HC Hr HR HX HL HD HM n s1 s H0 H1 Ha)
          as [_ B2].
        { intros sub Q. refine (HK _ _ _ _ Q). eapply state_dim; eauto. }
        fold Sf in B2.
        assert (Hrad : (r_radius (st_region s) <= r_radius (st_region s1) * Sf)%R).
        { rewrite B2 in *. revert Hs. unfold Rmin, Rmax. repeat destruct Rle_dec; lra. }
        apply Rle_trans with (r_radius (st_region s1) * Sf)%R; [lra|].
        apply Rle_trans with (r0 * E ^ na * Sf ^ nr * Sf)%R; [|lra].
        apply Rmult_le_compat_r; lra. }
  intros n s H1 HB. destruct (Main n s H1 HB) as [M1 M2]. split; [easy|]. split; [easy|].
  intros HO. pose proof (HB _ _ (le_n _) H1) as Hs.
  unfold E, Sf in M2. rewrite HO in M2, Hs. cbn [default_radius_options min_radius expansion_factor shrinking_factor] in M2, Hs.
  rewrite <- pow_inv in M2 || rewrite pow_inv in M2.
  assert (P : (0 < 2 ^ n_rejected r n)%R) by (apply pow_lt; lra).
  set (q := (2 ^ n_rejected r n)%R) in *. set (a := (2 ^ n_accepted r n)%R) in *.
  assert (Q : (/ 1000000 < r0 * a * / q)%R) by lra.
  apply Rmult_lt_compat_r with (r := q) in Q; [|easy].
  rewrite Rmult_assoc, Rinv_l in Q by lra. lra.
Qed.

(** In the run of [C171_instance] the first iteration rejects and the radii are 1, 1 and 1/2. *)
Example C172_instance : exists h r s,
  valid_run Scalar 1 1 (ex_components (fun c => 2 * c)%R (fun _ _ => Classic) center_sampler ex_crit)
    (ex_config 5 false true) 0 [3%R] 1 None h r /\
  (forall m reg sub, length (r_center reg) = 1 ->
     k_solve (ex_components (fun c => 2 * c)%R (fun _ _ => Classic) center_sampler ex_crit) m reg = Ok sub ->
     exists e, sub_ei sub = Fin e /\ (0 <= e)%R) /\
  nth_error (res_states r) 2 = Some s /\
  (forall k s', k <= 2 -> nth_error (res_states r) k = Some s' ->
     (min_radius (radius_o (ex_config 5 false true)) < r_radius (st_region s'))%R) /\
  n_accepted r 1 = 0 /\ n_rejected r 1 = 1.
Proof.
  destruct C171_instance as (h & r & s & s' & V & H1 & H2 & Ha & R1 & R2).
  exists h, r, s'. split; [exact V|]. split.
  { intros m reg sub _ Q. injection Q as <-. exists 1%R. split; [reflexivity|lra]. }
  split; [easy|]. split.
  - destruct (C164_radius_update _ _ _ _ _ _ _ _ _ _ _ _ _ _ V eq_refl ltac:(lra) ltac:(cbn; lra) eq_refl) as [A _].
    intros k q Hk Hq. cbn [ex_config radius_o default_radius_options min_radius].
    destruct k as [|[|[|k]]]; [| | |lia].
    + destruct (A q (or_introl Hq)) as (-> & _). lra.
    + destruct (A q (or_intror Hq)) as (-> & _). lra.
    + rewrite H2 in Hq. injection Hq as <-. rewrite R2. lra.
  - destruct (n_accepted_S _ _ r 0 s H1) as [-> ->]. rewrite Ha. split; reflexivity.
Qed.

(** * C173 - accepted steps are paid for by the criterion *)

(** Every accepted step lowers the value of the current point by at least [min_improvement]: if
    the criterion is bounded below and [min_improvement] is positive, the number of accepted
    steps is bounded. *)
Theorem C173_accepted_steps_are_bounded :
  forall VM SM CV ft d w (K : components VM SM CV) O pad x r0 b h r,
    valid_run ft d w K O pad x r0 b h r ->
    (forall t v, no_reevaluation (k_decider K t v)) ->
    forall s0 u0, nth_error (res_states r) 0 = Some s0 -> st_fval s0 = Fin u0 ->
    forall n s, nth_error (res_states r) n = Some s ->
    exists u, st_fval s = Fin u /\ (INR (n_accepted r n) * min_improvement O <= u0 - u)%R /\
      (forall l, (l <= u)%R -> (0 < min_improvement O)%R ->
         (INR (n_accepted r n) <= (u0 - l) / min_improvement O)%R).
Proof.
  intros VM SM CV ft d w K O pad x r0 b h r V HD s0 u0 H0 Eu0.
  assert (Main : forall n s, nth_error (res_states r) n = Some s ->
    exists u, st_fval s = Fin u /\ (INR (n_accepted r n) * min_improvement O <= u0 - u)%R).
  { induction n as [|n IH]; intros s H1.
    - rewrite H0 in H1. injection H1 as <-. exists u0. split; [easy|].
      assert (n_accepted r 0 = 0) as -> by reflexivity. cbn [INR]. lra.
    - assert (exists s1, nth_error (res_states r) n = Some s1) as [s1 H2].
      { destruct (nth_error (res_states r) n) as [s1|] eqn:H3; [eauto|].
        apply nth_error_None in H3. assert (S n < length (res_states r)) by (apply nth_error_Some; congruence). lia. }
      destruct (IH s1 H2) as (u1 & U1 & U2).
      destruct (n_accepted_S _ _ _ _ _ H1) as [EA _]. rewrite EA. clear EA.
      pose proof V as V'. open_run V'. rewrite RS in H1, H2.
      destruct (consecutive _ _ _ _ _ st0 _ _ _ CH (agrees_refl _)) as [CS _].
      destruct (CS n s1 s H2 H1) as (a & c & Hl & LK & (G1 & _ & G3 & _)).
      destruct (lk_ok _ _ _ _ _ _ _ _ LK) as [D HI].
      pose proof (io_decided _ _ _ _ _ _ _ _ _ HI) as DC.
      rewrite (io_ap _ _ _ _ _ _ _ _ _ HI).
      cbn [update_state st_accepted st_fval].
      destruct (a_accepted (i_acc D)) eqn:Ha.
      + destruct (dc_acc _ _ _ _ _ _ _ _ _ _ _ DC Ha) as (_ & _ & _ & A4 & A5).
        match type of A5 with context [reference ?f ?dd ?st ?e] =>
          assert (RF : reference f dd st e = c_fval st) end.
        { match goal with |- reference _ (k_decider _ ?t ?v) _ _ = _ => pose proof (HD t v) as N1 end.
          match goal with |- reference _ ?dd _ _ = _ => destruct dd end; try easy. }
        rewrite RF in A5. cbn [cur_of c_fval] in A5. rewrite G3, U1 in A5.
        destruct (a_fval (i_acc D)) as [u| | |] eqn:Fu; try discriminate.
        exists u. split; [easy|]. rewrite Nat.add_1_r, S_INR.
        unfold xge, xle in A5. cbn in A5. apply Rleb_true in A5. lra.
      + destruct (dc_rej _ _ _ _ _ _ _ _ _ _ _ DC Ha) as (_ & -> & _). cbn [cur_of c_fval].
        exists u1. rewrite G3, Nat.add_0_r. auto. }
  intros n s H1. destruct (Main n s H1) as (u & U1 & U2). exists u. split; [easy|]. split; [easy|].
  intros l Hl Hm. apply Rmult_le_reg_r with (min_improvement O); [easy|].
  unfold Rdiv. rewrite Rmult_assoc, Rinv_l by lra. lra.
Qed.

(** Minimizing x^2 from 3 with [min_improvement] 1: the first step, to 3/2, is accepted; as x^2 is
    not negative, at most 9 steps are. *)
Example C173_instance : exists h r s0 s,
  valid_run Scalar 1 1 (ex_components (fun c => c / 2)%R (fun _ _ => Classic) center_sampler ex_crit)
    (strict_config 1) 0 [3%R] 1 None h r /\
  nth_error (res_states r) 0 = Some s0 /\ st_fval s0 = Fin 9 /\
  nth_error (res_states r) 1 = Some s /\ n_accepted r 1 = 1 /\
  forall n s', nth_error (res_states r) n = Some s' -> (INR (n_accepted r n) <= 9)%R.
Proof.
  destruct (strict_run (fun c => c / 2)%R 1) as (h & r & V & L).
  destruct (nth_error (res_states r) 0) as [s0|] eqn:H0; [|apply nth_error_None in H0; lia].
  destruct (nth_error (res_states r) 1) as [s|] eqn:H1; [|apply nth_error_None in H1; lia].
  exists h, r, s0, s. split; [exact V|]. split; [easy|].
  destruct (C163_iteration _ _ _ _ _ _ _ _ _ _ _ _ _ _ (fun x => Ret (VS (Fin (hd 0 x * hd 0 x)%R))) V
    ltac:(intros h' args cores; reflexivity) eq_refl eq_refl ltac:(cbn; lia) ltac:(reflexivity) 0 s0 s H0 H1)
    as (sub & S1 & F1 & S2 & _ & _ & S5).
  destruct (C164_radius_update _ _ _ _ _ _ _ _ _ _ _ _ _ _ V eq_refl ltac:(lra) ltac:(cbn; lra) eq_refl) as [A _].
  destruct (A s (or_intror H1)) as (_ & A2 & _).
  unfold ex_components, ex_solve in S1. cbn [k_solve] in S1. rewrite A2 in S1. injection S1 as <-.
  cbn [map sub_x sub_ei] in *.
  assert (X0 : st_x s0 = [3%R]) by (open_run V; rewrite RS in H0; injection H0 as <-; exact X0).
  destruct (S2 (3 * 3)%R (3 / 2 * (3 / 2))%R 1%R) as [_ R2].
  { now rewrite X0. } { reflexivity. } { reflexivity. }
  assert (Ac : st_accepted s = true) by (apply R2; cbn; lra).
  assert (F0 : st_fval s0 = Fin 9) by (rewrite F1, X0; cbn; f_equal; lra).
  split; [easy|]. split; [easy|]. split.
  { destruct (n_accepted_S _ _ r 0 s H1) as [-> _]. now rewrite Ac. }
  intros n s' Hn.
  destruct (C173_accepted_steps_are_bounded _ _ _ _ _ _ _ _ _ _ _ _ _ _ V ltac:(intros; exact I) s0 9%R H0 F0 n s' Hn)
    as (u & U1 & _ & U3).
  assert (U : (0 <= u)%R).
  { destruct n as [|n].
    - rewrite H0 in Hn. injection Hn as <-. rewrite F0 in U1. injection U1 as <-. lra.
    - destruct (nth_error (res_states r) n) as [sn|] eqn:Hp.
      2:{ apply nth_error_None in Hp. assert (S n < length (res_states r)) by (apply nth_error_Some; congruence). lia. }
      destruct (C163_iteration _ _ _ _ _ _ _ _ _ _ _ _ _ _ (fun x => Ret (VS (Fin (hd 0 x * hd 0 x)%R))) V
        ltac:(intros h' args cores; reflexivity) eq_refl eq_refl ltac:(cbn; lia) ltac:(reflexivity) n sn s' Hp Hn)
        as (sub & _ & T1 & _ & _ & T2 & T3).
      destruct (st_accepted s').
      + destruct (T2 eq_refl) as [_ T4]. rewrite T4 in U1. cbn in U1. injection U1 as <-. apply Rle_0_sqr.
      + destruct (T3 eq_refl) as [_ T4]. rewrite T4, T1 in U1. cbn in U1. injection U1 as <-. apply Rle_0_sqr. }
  specialize (U3 0%R U). cbn [strict_config min_improvement] in U3. specialize (U3 ltac:(lra)). lra.
Qed.
