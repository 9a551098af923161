(** Properties C81-C84 and C90: evaluations, radii and index sets in the main loop. *)
From Coq Require Import Reals List Arith ZArith Bool Lia Lra Sorting.Sorted.
From Verif Require Import Base XR Vec HistoryModel HistorySpec HistoryProofs WrapModel WrapProofs
  VolumeModel RegionModel AdjustModel AcceptModel FilterModel LogSpec LogProofs Prop_Region
  Prop_Adjust AcceptProofs Prop_Accept Prop_Filter MainModel MainProofs MainPhases MainLoop
  MainProgress Prop_Main.
Import ListNotations.
Open Scope nat_scope.

(** * Counting the evaluations of one iteration *)

Lemma count_seq a m i :
  count_occ Nat.eq_dec (seq a m) i = if (a <=? i) && (i <? a + m) then 1 else 0.
Proof.
  revert a. induction m as [|m IH]; intros a; simpl.
  - destruct (Nat.leb_spec a i), (Nat.ltb_spec i (a + 0)); simpl; auto; lia.
  - rewrite IH. destruct (Nat.eq_dec a i), (Nat.leb_spec (S a) i), (Nat.leb_spec a i),
      (Nat.ltb_spec i (S a + m)), (Nat.ltb_spec i (a + S m)); simpl; auto; lia.
Qed.

Lemma additional_none E n idx : (forall i, In i idx -> (n <= Z.of_nat (length (evals_of i E)))%Z) ->
  additional_info E n idx = [].
Proof.
  unfold additional_info. induction idx as [|i idx IH]; intros H; simpl; auto.
  destruct (Z.ltb_spec 0 (n - Z.of_nat (length (evals_of i E)))).
  - specialize (H i (or_introl eq_refl)). lia.
  - apply IH. intros j Hj. apply H. simpl. auto.
Qed.

Lemma expand_pairs_one l :
  expand (map (fun kv : nat * Z => (fst kv, Z.to_nat (snd kv))) (map (fun i => (i, 1%Z)) l)) = l.
Proof. rewrite map_map. simpl. apply expand_ones. Qed.

Lemma mean_of_app ft i (E E' : list (nat * list xr)) : ~ In i (map fst E') ->
  mean_of ft i (E ++ E') = mean_of ft i E.
Proof.
  intros H. unfold mean_of. rewrite fvals_of_app.
  replace (fvals_of ft i E') with (@nil xr); [now rewrite app_nil_r|].
  unfold fvals_of. assert (N : length (evals_of i E') = 0).
  { rewrite evals_of_length. now apply count_occ_not_In. }
  now destruct (evals_of i E').
Qed.

Section OneEvaluation.
Context {VM SM CV : Type}.
Variables (ft : functype) (d w : nat) (K : components VM SM CV) (O : config).

Lemma link_one_eval a ap c D : iter_ok ft d w K O a ap c D -> good_snap ft d w a -> n_n a = 1%Z ->
  (forall i, i < length (n_X a) -> 1 <= length (evals_of i (n_E a))) ->
  map fst (i_E1 D ++ i_E3 D) = seq (length (n_X a)) (length (i_X1 D ++ i_X3 D)).
Proof.
  intros HI (GL & _ & [GA _]) Hn HA.
  pose proof (io_first _ _ _ _ _ _ _ _ _ HI) as FF.
  pose proof (ff_evals _ _ _ _ _ _ _ _ _ _ _ _ _ _ _ FF) as M1.
  pose proof (io_E3 _ _ _ _ _ _ _ _ _ HI) as M3. unfold evaluated_new in M3.
  rewrite Hn in M1, M3.
  rewrite additional_none, app_nil_r, expand_pairs_one in M1.
  2:{ intros i Hi. apply (ff_sub _ _ _ _ _ _ _ _ _ _ _ _ _ _ _ FF) in Hi.
      assert (Hl : i < length (n_X a)).
      { destruct Hi as [<-|Hi]; [apply nth_error_Some; congruence|].
        apply (ff_old _ _ _ _ _ _ _ _ _ _ _ _ _ _ _ FF) in Hi as (y & Hy & _).
        apply nth_error_Some. congruence. }
      specialize (HA i Hl). lia. }
  rewrite expand_pairs_one in M3.
  rewrite map_app, M1, M3, !app_length, <- seq_app. reflexivity.
Qed.

(** Every point has been evaluated, and the value of the state is the mean of all evaluations
    of its point. *)
Definition mean_inv (s : snap (VM:=VM) (SM:=SM)) : Prop :=
  n_n s = 1%Z /\ (forall i, i < length (n_X s) -> 1 <= length (evals_of i (n_E s))) /\
  st_fval (n_st s) = mean_of ft (st_index (n_st s)) (n_E s).
Definition once_inv (s : snap (VM:=VM) (SM:=SM)) : Prop :=
  forall i, i < length (n_X s) -> length (evals_of i (n_E s)) = 1.

Lemma link_mean a ap c : noisy O = false -> (forall t v, no_reevaluation (k_decider K t v)) ->
  link ft d w K O a ap c -> mean_inv a -> mean_inv c /\
  ((forall t v, k_decider K t v <> NaiveNoisy) -> once_inv a -> once_inv c).
Proof.
  intros HQ HD LK (P1 & P2 & P3). destruct (lk_ok _ _ _ _ _ _ _ _ LK) as [D HI].
  pose proof (link_one_eval _ _ _ _ HI (lk_a _ _ _ _ _ _ _ _ LK) P1 P2) as MF.
  destruct (io_quiet _ _ _ _ _ _ _ _ _ HI HQ) as [QN _].
  pose proof (io_decided _ _ _ _ _ _ _ _ _ HI) as DC. pose proof DC as DC'.
  destruct (lk_a _ _ _ _ _ _ _ _ LK) as (_ & _ & [A1 _]).
  assert (Hi : st_index (n_st a) < length (n_X a)) by (apply nth_error_Some; congruence).
  specialize (HD (n_t a) (i_var D)).
  destruct DC as [_ F1 F2 F3 F4 F5 F6 F7 _ _ _ _ _ _].
  set (m := length (n_X a ++ i_X1 D ++ i_X3 D)) in *.
  assert (Hm : m = length (n_X a) + length (i_X1 D ++ i_X3 D)) by apply app_length.
  assert (HE : forall i, length (evals_of i (n_E c)) = length (evals_of i (n_E a)) +
      (if (length (n_X a) <=? i) && (i <? m) then 1 else 0)
      + length (evals_of i (i_E2 D))).
  { intros i. rewrite (io_E _ _ _ _ _ _ _ _ _ HI), evals_of_app, app_length.
    rewrite (evals_of_app _ i (i_E1 D ++ i_E3 D)), app_length.
    rewrite (evals_of_length _ i (i_E1 D ++ i_E3 D)), MF, count_seq, <- Hm. lia. }
  assert (LX : length (n_X c) = m + length (i_X2 D)).
  { rewrite (io_X _ _ _ _ _ _ _ _ _ HI), app_assoc, app_length. reflexivity. }
  assert (H2 : forall i, m <= i < m + length (i_X2 D) -> 1 <= length (evals_of i (i_E2 D))).
  { intros i Hir. rewrite evals_of_length.
    destruct (k_decider K (n_t a) (i_var D)) eqn:ED.
    - rewrite (F5 eq_refl). rewrite (F4 I) in Hir. simpl in Hir. simpl.
      destruct (Nat.eq_dec m i); lia.
    - rewrite (F6 eq_refl). rewrite (F4 I) in Hir. simpl in Hir.
      assert (i = m) by lia. subst i. cbn. destruct (Nat.eq_dec m m); lia.
    - rewrite (F7 _ _ _ eq_refl), count_seq.
      destruct (Nat.leb_spec m i), (Nat.ltb_spec i (m + length (i_X2 D))); simpl; lia.
    - easy. }
  split; [split; [congruence|split]|].
  - intros i Hl. rewrite LX in Hl. rewrite HE.
    destruct (Nat.lt_ge_cases i (length (n_X a))) as [H|H]; [specialize (P2 i H); lia|].
    destruct (Nat.leb_spec (length (n_X a)) i); [|lia].
    destruct (Nat.ltb_spec i m); simpl; [lia|]. specialize (H2 i). lia.
  - destruct (link_agrees _ _ _ _ _ _ _ _ LK) as (_ & G2 & G3 & _). rewrite G2, G3.
    rewrite (io_ap _ _ _ _ _ _ _ _ _ HI). cbn [update_state st_fval st_index].
    rewrite (io_E _ _ _ _ _ _ _ _ _ HI).
    destruct (a_accepted (i_acc D)) eqn:Ea.
    + destruct (dc_acc _ _ _ _ _ _ _ _ _ _ _ DC' Ea) as (_ & _ & -> & _).
      now rewrite <- app_assoc.
    + destruct (dc_rej _ _ _ _ _ _ _ _ _ _ _ DC' Ea) as (_ & -> & ->). cbn [cur_of c_fval c_index].
      rewrite P3. symmetry. apply mean_of_app. rewrite map_app, MF. intros Hin.
      apply in_app_or in Hin as [Hin|Hin]; [apply in_seq in Hin; lia|].
      revert Hin. apply F3. destruct (k_decider K (n_t a) (i_var D)); easy.
  - intros HN HO i Hl. rewrite HE.
    assert (C2 : forall j, ~ (m <= j) -> length (evals_of j (i_E2 D)) = 0).
    { intros j Hj. rewrite evals_of_length. apply count_occ_not_In. intros Hin.
      pose proof Hin as Hin'. apply F2 in Hin as [Hin|Hin]; [|lia].
      revert Hin'. rewrite Hin. apply F3. destruct (k_decider K (n_t a) (i_var D)); easy. }
    assert (C3 : m <= i -> length (evals_of i (i_E2 D)) = 1).
    { intros Hj. rewrite LX in Hl. rewrite evals_of_length.
      destruct (k_decider K (n_t a) (i_var D)) eqn:ED.
      - rewrite (F5 eq_refl). rewrite (F4 I) in Hl. simpl in Hl. simpl.
        destruct (Nat.eq_dec m i); lia.
      - now apply HN in ED.
      - rewrite (F7 _ _ _ eq_refl), count_seq.
        destruct (Nat.leb_spec m i), (Nat.ltb_spec i (m + length (i_X2 D))); simpl; lia.
      - easy. }
    destruct (Nat.lt_ge_cases i (length (n_X a))) as [H|H].
    + rewrite (HO i H), C2 by lia. destruct (Nat.leb_spec (length (n_X a)) i); simpl; lia.
    + assert (Z0 : length (evals_of i (n_E a)) = 0).
      { destruct (lk_a _ _ _ _ _ _ _ _ LK) as (GL & _). destruct (haslog_dims _ _ _ _ _ _ GL) as (_ & _ & BE & _).
        rewrite evals_of_length. apply count_occ_not_In. intros Hin.
        apply in_map_iff in Hin as (e & He & Hin). rewrite Forall_forall in BE. specialize (BE _ Hin). lia. }
      rewrite Z0. destruct (Nat.leb_spec (length (n_X a)) i); [|lia].
      destruct (Nat.ltb_spec i m); simpl; [rewrite C2; lia|rewrite C3; lia].
Qed.
End OneEvaluation.

(** * C81 - the reported criterion value *)

Lemma start_single ft d w h x E : haslog ft d w h [x] E -> map fst E = [0] ->
  forall i, i < 1 -> length (evals_of i E) = 1.
Proof.
  intros _ H i Hi. rewrite evals_of_length, H. assert (i = 0) by lia. subst. reflexivity.
Qed.

(** For all deciders but the noisy one the reported value is the mean of all evaluations of
    the reported point. *)
Theorem C81_value_is_mean_of_evaluations :
  forall VM SM CV ft d w (K : components VM SM CV) O pad x r0 b h r,
    valid_run ft d w K O pad x r0 b h r ->
    noisy O = false -> n_evals_per_point0 O = 1%Z -> (n_evals_at_start O <= 1)%Z ->
    (forall t v, no_reevaluation (k_decider K t v)) ->
    exists i fvals, get_xs_one h (Z.of_nat i) = Ok (solution_x r) /\
      get_fvals_one h (Z.of_nat i) = Ok fvals /\ 1 <= length fvals /\
      solution_criterion r = xmean fvals.
Proof.
  intros VM SM CV ft d w K O pad x r0 b h r V HQ HN HS HD. open_run V.
  destruct (Z.ltb_spec 1 (n_evals_at_start O)) as [Hs|_]; [lia|]. simpl in MF0.
  destruct (chain_inv _ _ _ _ _ (mean_inv ft) _ _ _ CH) as [(Z1 & Z2 & Z3) _].
  { split; [easy|]. cbn [n_X n_E n_st]. split; [|now rewrite I0].
    intros i Hi. rewrite (start_single _ _ _ _ _ _ L0 MF0 i Hi). lia. }
  { intros s ap c LK HP. now apply (link_mean _ _ _ _ _ _ _ _ HQ HD LK). }
  destruct GZ as (GL & GE & [GA _]). rewrite Hz in GL.
  assert (Hi : st_index (n_st z) < length (n_X z)) by (apply nth_error_Some; congruence).
  exists (st_index (n_st z)), (fvals_of ft (st_index (n_st z)) (n_E z)).
  split; [rewrite SX; eapply xs_one_log; eauto|]. split.
  { pose proof (m_fvals_log _ _ _ _ _ _ _ GL GE Hi) as Q. unfold m_fvals, mquery in Q. now injection Q. }
  split; [|now rewrite SC, Z3]. unfold fvals_of. rewrite map_length. auto.
Qed.

(** One evaluation per point: the reported value is the only recorded value of the point, and
    it is what the criterion returned there. *)
Theorem C81_value_is_criterion_value :
  forall VM SM CV ft d w (K : components VM SM CV) O pad x r0 b h r,
    valid_run ft d w K O pad x r0 b h r ->
    noisy O = false -> n_evals_per_point0 O = 1%Z -> (n_evals_at_start O <= 1)%Z ->
    (forall t v, no_reevaluation (k_decider K t v) /\ k_decider K t v <> NaiveNoisy) ->
    (exists i, get_xs_one h (Z.of_nat i) = Ok (solution_x r) /\
       get_fvals_one h (Z.of_nat i) = Ok [solution_criterion r]) /\
    exists v, true_eval (k_crit K) (solution_x r) v /\ solution_criterion r = spec_fval ft v.
Proof.
  intros VM SM CV ft d w K O pad x r0 b h r V HQ HN HS HD. open_run V.
  destruct (Z.ltb_spec 1 (n_evals_at_start O)) as [Hs|_]; [lia|]. simpl in MF0.
  assert (HD1 : forall t v, no_reevaluation (k_decider K t v)) by (intros; apply HD).
  destruct (chain_inv _ _ _ _ _ (fun s => mean_inv ft s /\ once_inv s /\ true_evals (k_crit K) (n_X s) (n_E s))
              _ _ _ CH) as [((Z1 & Z2 & Z3) & ZO & ZT) _].
  { split; [|split]; [|exact (start_single _ _ _ _ _ _ L0 MF0)|exact T0].
    split; [easy|]. cbn [n_X n_E n_st]. split; [|now rewrite I0].
    intros i Hi. rewrite (start_single _ _ _ _ _ _ L0 MF0 i Hi). lia. }
  { intros s ap c LK (HP & HO & HT). destruct (link_mean _ _ _ _ _ _ _ _ HQ HD1 LK HP) as [M1 M2].
    split; [easy|]. split; [apply M2; auto; intros; apply HD|].
    destruct (lk_ok _ _ _ _ _ _ _ _ LK) as [D HI].
    rewrite (io_E _ _ _ _ _ _ _ _ _ HI). apply true_evals_app; [|apply HI].
    rewrite (io_X _ _ _ _ _ _ _ _ _ HI). now apply true_evals_more. }
  destruct GZ as (GL & GE & [GA _]). rewrite Hz in GL.
  assert (Hi : st_index (n_st z) < length (n_X z)) by (apply nth_error_Some; congruence).
  specialize (ZO _ Hi).
  destruct (evals_of (st_index (n_st z)) (n_E z)) as [|v [|]] eqn:EV; try discriminate.
  assert (FV : fvals_of ft (st_index (n_st z)) (n_E z) = [spec_fval ft v])
    by (unfold fvals_of; now rewrite EV).
  assert (SV : solution_criterion r = spec_fval ft v).
  { rewrite SC, Z3. unfold mean_of. rewrite FV. apply xmean_one. }
  split.
  - exists (st_index (n_st z)). split; [rewrite SX; eapply xs_one_log; eauto|].
    pose proof (m_fvals_log _ _ _ _ _ _ _ GL GE Hi) as Q. unfold m_fvals, mquery in Q.
    injection Q as Q. rewrite Q, FV. congruence.
  - exists v. split; [|easy].
    assert (Hin : In (st_index (n_st z), v) (n_E z)).
    { unfold evals_of in EV. assert (In v (map snd (filter (fun e => fst e =? st_index (n_st z)) (n_E z))))
        by (rewrite EV; simpl; auto).
      apply in_map_iff in H as ([j v'] & <- & H). apply filter_In in H as [H Hj].
      apply Nat.eqb_eq in Hj. simpl in *. now subst j. }
    destruct (ZT _ _ Hin) as (y & Hy & T). rewrite SX. congruence.
Qed.

(** In particular, for a criterion that is a function of the parameters. *)
Theorem C81_deterministic_criterion :
  forall VM SM CV ft d w (K : components VM SM CV) O pad x r0 b h r f,
    valid_run ft d w K O pad x r0 b h r ->
    noisy O = false -> n_evals_per_point0 O = 1%Z -> (n_evals_at_start O <= 1)%Z ->
    (forall t v, no_reevaluation (k_decider K t v) /\ k_decider K t v <> NaiveNoisy) ->
    (forall h' args cores, k_crit K h' args cores = Ok (map f args)) ->
    solution_criterion r = spec_fval ft (recorded (f (solution_x r))).
Proof.
  intros VM SM CV ft d w K O pad x r0 b h r f V HQ HN HS HD HF.
  destruct (C81_value_is_criterion_value _ _ _ _ _ _ _ _ _ _ _ _ _ _ V HQ HN HS HD)
    as (_ & v & (hh & args & cores & outs & k & o & C & _ & Ha & Ho & ->) & ->).
  rewrite HF in C. injection C as <-. rewrite nth_error_map, Ha in Ho. now injection Ho as <-.
Qed.

Example C81_instance : exists h r,
  valid_run Scalar 1 1 (ex_components (fun c => c / 2)%R (fun _ _ => Classic) center_sampler ex_crit)
    (ex_config 5 false true) 0 [3%R] 1 None h r /\ 2 <= length (res_states r) /\
  solution_criterion r = Fin (hd 0 (solution_x r) * hd 0 (solution_x r))%R.
Proof.
  destruct (ex_run (fun c => c / 2)%R (fun _ _ => Classic) 4 false true None 3 1) as (h & r & V & L);
    cbn; auto.
  exists h, r. split; [easy|]. split; [easy|].
  exact (C81_deterministic_criterion _ _ _ _ _ _ _ _ _ _ _ _ _ _
    (fun x => Ret (VS (Fin (hd 0 x * hd 0 x)%R))) V eq_refl eq_refl ltac:(cbn; lia)
    ltac:(intros; split; [exact I|discriminate]) ltac:(reflexivity)).
Qed.

(** * C82 - radii *)

Theorem C82_radius_within_limits :
  forall VM SM CV ft d w (K : components VM SM CV) O pad x r0 b h r,
    valid_run ft d w K O pad x r0 b h r ->
    (min_radius (radius_o O) <= max_radius (radius_o O))%R ->
    max_radius_to_step_ratio (radius_o O) = PInf ->
    forall i s, nth_error (res_states r) (S (S i)) = Some s ->
      (min_radius (radius_o O) <= r_radius (st_region s) <= max_radius (radius_o O))%R.
Proof.
  intros VM SM CV ft d w K O pad x r0 b h r V HR HM i s Hs. open_run V.
  rewrite RS in Hs. change (nth_error (map snd l) (S i) = Some s) in Hs. rewrite nth_error_map in Hs.
  destruct (nth_error l (S i)) as [[a ap]|] eqn:El; [|discriminate]. simpl in Hs. injection Hs as <-.
  assert (Hl : i < length l).
  { apply Nat.lt_trans with (S i); [lia|]. apply nth_error_Some. congruence. }
  destruct (nth_error l i) as [[a0 ap0]|] eqn:E1; [|apply nth_error_None in E1; lia].
  destruct (chain_links _ _ _ _ _ _ _ _ CH _ _ _ E1) as (b1 & LK & [[_ Hlen]|(ap' & E2)]).
  { assert (S i < length l) by (apply nth_error_Some; congruence). lia. }
  rewrite El in E2. injection E2 as -> _.
  destruct (chain_links _ _ _ _ _ _ _ _ CH _ _ _ El) as (b2 & LK2 & _).
  destruct (lk_ok _ _ _ _ _ _ _ _ LK2) as [D2 HI2].
  rewrite (io_ap _ _ _ _ _ _ _ _ _ HI2). cbn [update_state st_region].
  destruct (lk_ok _ _ _ _ _ _ _ _ LK) as [D HI].
  destruct (io_region _ _ _ _ _ _ _ _ _ HI) as (rg & -> & MR1). cbn [with_region st_region].
  apply make_region_center in MR1 as (_ & -> & _).
  apply C20_radius_in_limits; auto. now rewrite HM.
Qed.

(** * C90 - the number of evaluations of an iteration *)

Lemma next_multiple_mono a c base : (0 < base)%Z -> (a <= c)%Z ->
  (next_multiple a base <= next_multiple c base)%Z.
Proof.
  intros Hb H. unfold next_multiple. apply Z.mul_le_mono_nonneg_r; [lia|].
  pose proof (ceilR_spec (IZR a / IZR base)) as [A1 A2].
  pose proof (ceilR_spec (IZR c / IZR base)) as [B1 B2].
  assert (IZR a / IZR base <= IZR c / IZR base)%R.
  { unfold Rdiv. apply Rmult_le_compat_r; [|now apply IZR_le].
    apply Rlt_le, Rinv_0_lt_compat. now apply IZR_lt. }
  assert (L : (IZR (ceilR (IZR a / IZR base)) < IZR (ceilR (IZR c / IZR base) + 1))%R)
    by (rewrite plus_IZR; lra).
  apply lt_IZR in L. lia.
Qed.

Lemma all_sampled_length {VM} (evs : list (event VM)) k :
  (forall h n xs, In (EvSample h n xs) evs -> length xs <= k) ->
  length (all_sampled evs) <= length (filter is_sample evs) * k.
Proof.
  unfold all_sampled. induction evs as [|e evs IH]; intros H; simpl; [lia|].
  specialize (IH ltac:(intros; eapply H; right; eauto)). rewrite app_length.
  destruct e; simpl; try lia. specialize (H h n_points xs (or_introl eq_refl)). lia.
Qed.

(** Samplers return at most as many points as requested. *)
Definition bounded_samplers {VM SM CV} (K : components VM SM CV) : Prop :=
  forall t j h reg n m xs, k_sample K t j h reg n m = Ok xs -> length xs <= n.

Definition iteration_bound (O : config) : Z :=
  (next_multiple (target_sample_size O) (batch_size O) +
   Z.of_nat (Nat.max 1 (max_trials (stag_o O)) * sample_increment (stag_o O)) + 1)%Z.

Lemma link_count VM SM CV ft d w (K : components VM SM CV) O a ap c :
  link ft d w K O a ap c -> n_n a = 1%Z ->
  (forall i, i < length (n_X a) -> 1 <= length (evals_of i (n_E a))) ->
  (0 <= target_sample_size O)%Z -> (1 <= batch_size O)%Z ->
  (forall t v, k_decider K t v = Classic) -> bounded_samplers K ->
  (Z.of_nat (length (n_E c)) <= Z.of_nat (length (n_E a)) + iteration_bound O)%Z.
Proof.
  intros LK Hn HA HT HB HD HS. destruct (lk_ok _ _ _ _ _ _ _ _ LK) as [D HI].
  pose proof (link_one_eval _ _ _ _ _ _ _ _ _ HI (lk_a _ _ _ _ _ _ _ _ LK) Hn HA) as MF.
  pose proof (dc_classic _ _ _ _ _ _ _ _ _ _ _ (io_decided _ _ _ _ _ _ _ _ _ HI) (HD _ _)) as M2.
  apply (f_equal (@length nat)) in MF. apply (f_equal (@length nat)) in M2.
  rewrite map_length, seq_length in MF. rewrite map_length in M2. simpl in M2.
  rewrite (io_E _ _ _ _ _ _ _ _ _ HI), !app_length in *. rewrite M2.
  assert (L1 : (Z.of_nat (length (i_X1 D)) <= next_multiple (target_sample_size O) (batch_size O))%Z).
  { pose proof (ff_sample _ _ _ _ _ _ _ _ _ _ _ _ _ _ _ (io_first _ _ _ _ _ _ _ _ _ HI)) as ES.
    apply HS in ES.
    pose proof (next_multiple_mono (Z.max 0 (target_sample_size O - zlen (i_fxs D)))
      (target_sample_size O) (batch_size O) ltac:(lia) ltac:(unfold zlen; lia)).
    destruct (C35_next_multiple (target_sample_size O) (batch_size O) ltac:(lia)) as (_ & Q & _). lia. }
  assert (L3 : length (i_X3 D) <= Nat.max 1 (max_trials (stag_o O)) * sample_increment (stag_o O)).
  { rewrite (io_X3 _ _ _ _ _ _ _ _ _ HI).
    etransitivity; [apply (all_sampled_length _ (sample_increment (stag_o O)))|].
    - intros h1 k xs Hin. apply (io_increment _ _ _ _ _ _ _ _ _ HI) in Hin as (-> & j & m & E).
      now apply HS in E.
    - apply Nat.mul_le_mono_r. apply HI. }
  unfold iteration_bound. lia.
Qed.

Lemma n_fun_log ft d w h X E : haslog ft d w h X E -> get_n_fun h = length E.
Proof. intros HL. apply (haslog_dims _ _ _ _ _ _ HL). Qed.

Lemma link_found VM SM CV ft d w (K : components VM SM CV) O a ap c :
  link ft d w K O a ap c -> exists found evs, st_events ap = EvFound (n_h a) found :: evs.
Proof.
  intros LK. destruct (lk_ok _ _ _ _ _ _ _ _ LK) as [D HD].
  rewrite (io_ap _ _ _ _ _ _ _ _ _ HD). cbn [update_state st_events].
  rewrite (io_events _ _ _ _ _ _ _ _ _ HD).
  destruct (ff_events _ _ _ _ _ _ _ _ _ _ _ _ _ _ _ (io_first _ _ _ _ _ _ _ _ _ HD))
    as (hh & xs & fv & o & ->).
  cbn [app]. eauto.
Qed.

(** [h1], [h2] are the histories at the beginnings of two consecutive iterations. *)
Theorem C90_evaluations_per_iteration :
  forall VM SM CV ft d w (K : components VM SM CV) O pad x r0 b h r,
    valid_run ft d w K O pad x r0 b h r ->
    noisy O = false -> n_evals_per_point0 O = 1%Z -> (n_evals_at_start O <= 1)%Z ->
    (0 <= target_sample_size O)%Z -> (forall t v, k_decider K t v = Classic) ->
    bounded_samplers K ->
    let B := (next_multiple (target_sample_size O) (batch_size O) +
              Z.of_nat (Nat.max 1 (max_trials (stag_o O)) * sample_increment (stag_o O)) + 1)%Z in
    (forall i s s' h1 f1 evs1 h2 f2 evs2,
       nth_error (res_states r) (S i) = Some s -> nth_error (res_states r) (S (S i)) = Some s' ->
       st_events s = EvFound h1 f1 :: evs1 -> st_events s' = EvFound h2 f2 :: evs2 ->
       (Z.of_nat (get_n_fun h2) <= Z.of_nat (get_n_fun h1) + B)%Z) /\
    (forall s h1 f1 evs1, nth_error (res_states r) (length (res_states r) - 1) = Some s ->
       st_events s = EvFound h1 f1 :: evs1 ->
       (Z.of_nat (get_n_fun h) <= Z.of_nat (get_n_fun h1) + B)%Z) /\
    (Z.of_nat (get_n_fun h) <= 1 + Z.of_nat (length (res_states r) - 1) * B)%Z /\
    (2 < length (res_states r) -> (Z.of_nat (get_n_fun h) < max_eval (stop_o O) + B)%Z).
Proof.
  intros VM SM CV ft d w K O pad x r0 b h r V HQ HN HS HT HD HB B. open_run V.
  destruct (Z.ltb_spec 1 (n_evals_at_start O)) as [Hs|_]; [lia|]. simpl in MF0.
  assert (HD1 : forall t v, no_reevaluation (k_decider K t v)) by (intros; rewrite HD; exact I).
  pose proof (vr_batch _ _ _ _ _ _ _ _ _ _ _ V) as HBt.
  destruct (chain_inv _ _ _ _ _ (mean_inv ft) _ _ _ CH) as [PZ PL].
  { split; [easy|]. cbn [n_X n_E n_st]. split; [|now rewrite I0].
    intros i Hi. rewrite (start_single _ _ _ _ _ _ L0 MF0 i Hi). lia. }
  { intros s ap c LK HP. now apply (link_mean _ _ _ _ _ _ _ _ HQ HD1 LK). }
  assert (Step : forall i s ap c, nth_error l i = Some (s, ap) -> link ft d w K O s ap c ->
    (Z.of_nat (get_n_fun (n_h c)) <= Z.of_nat (get_n_fun (n_h s)) + B)%Z).
  { intros i s ap c Hi LK. apply nth_error_In in Hi. destruct (PL _ _ Hi) as (P1 & P2 & _).
    rewrite (n_fun_log _ _ _ _ _ _ (proj1 (lk_a _ _ _ _ _ _ _ _ LK))).
    rewrite (n_fun_log _ _ _ _ _ _ (proj1 (lk_b _ _ _ _ _ _ _ _ LK))).
    now apply (link_count _ _ _ _ _ _ _ _ _ _ _ LK). }
  assert (LN : length (res_states r) = S (length l)) by (rewrite RS; simpl; now rewrite map_length).
  assert (Last : forall s ap, nth_error l (length l - 1) = Some (s, ap) ->
     (Z.of_nat (get_n_fun h) <= Z.of_nat (get_n_fun (n_h s)) + B)%Z).
  { intros s ap Hi. pose proof (chain_links _ _ _ _ _ _ _ _ CH _ _ _ Hi) as (c & LK & [[-> _]|(ap' & E2)]).
    - rewrite <- Hz. eapply Step; eauto.
    - assert (S (length l - 1) < length l) by (apply nth_error_Some; congruence). lia. }
  splits.
  - intros i s s' h1 f1 evs1 h2 f2 evs2 H1 H2 V1 V2. rewrite RS in H1, H2.
    change (nth_error (map snd l) i = Some s) in H1.
    change (nth_error (map snd l) (S i) = Some s') in H2.
    rewrite nth_error_map in H1, H2.
    destruct (nth_error l i) as [[a1 ap1]|] eqn:El1; [|discriminate].
    destruct (nth_error l (S i)) as [[a2 ap2]|] eqn:El2; [|discriminate].
    simpl in H1, H2. injection H1 as <-. injection H2 as <-.
    destruct (chain_links _ _ _ _ _ _ _ _ CH _ _ _ El1) as (c & LK & [[-> Hlen]|(ap' & E2)]).
    { assert (S i < length l) by (apply nth_error_Some; congruence). lia. }
    rewrite El2 in E2. injection E2 as -> _.
    destruct (chain_links _ _ _ _ _ _ _ _ CH _ _ _ El2) as (c2 & LK2 & _).
    destruct (link_found _ _ _ _ _ _ _ _ _ _ _ LK) as (g1 & e1 & G1).
    destruct (link_found _ _ _ _ _ _ _ _ _ _ _ LK2) as (g2 & e2 & G2).
    rewrite G1 in V1. rewrite G2 in V2. injection V1 as <- _ _. injection V2 as <- _ _.
    eapply Step; eauto.
  - intros s h1 f1 evs1 H1 V1. rewrite LN in H1. replace (S (length l) - 1) with (length l) in H1 by lia.
    destruct (length l) as [|m] eqn:Em.
    { rewrite RS in H1. simpl in H1. injection H1 as <-. rewrite EV0 in V1. discriminate. }
    rewrite RS in H1. change (nth_error (map snd l) m = Some s) in H1. rewrite nth_error_map in H1.
    destruct (nth_error l m) as [[a1 ap1]|] eqn:El1; [|discriminate].
    simpl in H1. injection H1 as <-.
    destruct (chain_links _ _ _ _ _ _ _ _ CH _ _ _ El1) as (c & LK & _).
    destruct (link_found _ _ _ _ _ _ _ _ _ _ _ LK) as (g1 & e1 & G1).
    rewrite G1 in V1. injection V1 as <- _ _. apply (Last a1 ap1).
    replace (S m - 1) with m by lia. exact El1.
  - rewrite LN. replace (S (length l) - 1) with (length l) by lia.
    assert (G : forall a l z, chain ft d w K O a l z -> (forall s ap, In (s, ap) l -> mean_inv ft s) ->
       (Z.of_nat (length (n_E z)) <= Z.of_nat (length (n_E a)) + Z.of_nat (length l) * B)%Z).
    { clear - HT HBt HD HB. induction 1 as [a|a ap c l z HK HC IH]; intros HP; [simpl; lia|].
      specialize (IH ltac:(intros; eapply HP; right; eauto)).
      destruct (HP a ap (or_introl eq_refl)) as (P1 & P2 & _).
      pose proof (link_count _ _ _ _ _ _ _ _ _ _ _ HK P1 P2 HT HBt HD HB).
      unfold iteration_bound in H. fold B in H.
      change (length ((a, ap) :: l)) with (S (length l)). lia. }
    specialize (G _ _ _ CH PL). cbn [n_E] in G.
    rewrite <- Hz, (n_fun_log _ _ _ _ _ _ (proj1 GZ)).
    apply (f_equal (@length nat)) in MF0. rewrite map_length in MF0. cbn in MF0. lia.
  - intros H. destruct (nth_error l (length l - 1)) as [[a1 ap1]|] eqn:El1.
    2:{ apply nth_error_None in El1. lia. }
    pose proof (Last _ _ eq_refl).
    destruct (length l) as [|[|m]] eqn:Em; try lia.
    replace (S (S m) - 1) with (S m) in El1 by lia.
    pose proof (NF _ _ El1) as NF1. cbn [fst] in NF1. lia.
Qed.

(** Without convergence checks the example runs for exactly [k] iterations. *)
Lemma ex_run_full f s crit k b (x0 r0 : R) : k <= 19 ->
  good_criterion Scalar 1 crit -> sampler_dim 1 s ->
  (forall h reg n m, length (r_center reg) = 1 -> exists xs, s h reg n m = Ok xs) ->
  (forall h reg n m xs, s h reg n m = Ok xs -> length xs <= n) ->
  two_sided b -> bounds_dim 1 b ->
  exists h r, valid_run Scalar 1 1 (ex_components f (fun _ _ => Classic) s crit)
    (ex_config k false true) 0 [x0] r0 b h r /\ length (res_states r) = S k /\
    res_message r = None /\ res_converged r = false.
Proof.
  intros Hk HC HS1 HS2 HS3 B1 B2.
  assert (GK : good_components Scalar 1 1 (ex_components f (fun _ _ => Classic) s crit)).
  { apply ex_components_good; auto. intros; exact I. }
  destruct (tranquilo_go Scalar 1 1 b _ (ex_config k false true) GK
    (ex_components_total f (fun _ _ => Classic) s crit b HS2 ltac:(auto) B1 B2)
    (ex_config_good _ _ _) 0%R [x0] r0 ltac:(lia) ltac:(lia) eq_refl) as (h & r & H).
  assert (V : valid_run Scalar 1 1 (ex_components f (fun _ _ => Classic) s crit)
    (ex_config k false true) 0 [x0] r0 b h r) by (split; auto; cbn; lia).
  exists h, r. split; [easy|].
  assert (HB : bounded_samplers (ex_components f (fun _ _ => Classic) s crit))
    by (intros t j h' reg n m xs; apply HS3).
  pose proof (C90_evaluations_per_iteration _ _ _ _ _ _ _ _ _ _ _ _ _ _ V eq_refl eq_refl
    ltac:(cbn; lia) ltac:(cbn; lia) ltac:(reflexivity) HB) as (_ & _ & C & _).
  assert (NM : next_multiple 3 1 = 3%Z).
  { destruct (C35_next_multiple 3 1 ltac:(lia)) as (_ & Q & _). lia. }
  cbn [ex_config target_sample_size batch_size stag_o max_trials sample_increment Nat.max Nat.mul] in C.
  rewrite NM in C. change (Z.of_nat (1 + 0)) with 1%Z in C.
  open_run V.
  assert (LN : length (res_states r) = S (length l)) by (rewrite RS; simpl; now rewrite map_length).
  rewrite LN in *. cbn in LL.
  destruct EN as [E1 E2 E3|pre old new E1|E1 E2 E3 E4]; cbn in E1; auto; try discriminate.
  cbn in E2. lia.
Qed.

Lemma center_sampler_ok : (forall h reg n m, length (r_center reg) = 1 ->
    exists xs, center_sampler h reg n m = Ok xs) /\
  (forall h reg n m xs, center_sampler h reg n m = Ok xs -> length xs <= n).
Proof.
  unfold center_sampler. split; [eauto|]. intros h reg n m xs [= <-]. now rewrite repeat_length.
Qed.

(** The example for the following theorems: five iterations. *)
Lemma ex_five (f : R -> R) b : two_sided b -> bounds_dim 1 b -> exists h r,
  valid_run Scalar 1 1 (ex_components f (fun _ _ => Classic) center_sampler ex_crit)
    (ex_config 5 false true) 0 [3%R] 1 b h r /\ length (res_states r) = 6 /\
    res_message r = None /\ res_converged r = false.
Proof.
  apply ex_run_full; try apply center_sampler_ok; [lia|apply ex_crit_good|apply center_sampler_dim].
Qed.

Example C82_instance : exists h r,
  valid_run Scalar 1 1 (ex_components (fun c => c / 2)%R (fun _ _ => Classic) center_sampler ex_crit)
    (ex_config 5 false true) 0 [3%R] 1 None h r /\
  forall i s, nth_error (res_states r) (S (S i)) = Some s ->
    (/ 1000000 <= r_radius (st_region s) <= 1000000)%R.
Proof.
  destruct (ex_five (fun c => c / 2)%R None) as (h & r & V & L & _); cbn; auto.
  exists h, r. split; [easy|].
  exact (C82_radius_within_limits _ _ _ _ _ _ _ _ _ _ _ _ _ _ V ltac:(cbn; lra) eq_refl).
Qed.

Example C90_instance : exists h r,
  valid_run Scalar 1 1 (ex_components (fun c => c / 2)%R (fun _ _ => Classic) center_sampler ex_crit)
    (ex_config 5 false true) 0 [3%R] 1 None h r /\ length (res_states r) = 6 /\
  bounded_samplers (ex_components (fun c => c / 2)%R (fun _ _ => Classic) center_sampler ex_crit).
Proof.
  destruct (ex_five (fun c => c / 2)%R None) as (h & r & V & L & _); cbn; auto.
  exists h, r. split; [easy|]. split; [easy|].
  intros t j h' reg n m xs H. now apply (proj2 center_sampler_ok) in H.
Qed.

(** * C83 - index sets *)

Lemma In_insert_nat i j l : In i (insert_nat j l) <-> i = j \/ In i l.
Proof.
  induction l as [|k l IH]; simpl; [intuition|].
  destruct (j <? k); [simpl; intuition|]. destruct (Nat.eqb_spec j k); simpl; [subst; intuition|].
  rewrite IH. intuition.
Qed.
Lemma In_unique i l : In i (np_unique l) <-> In i l.
Proof.
  induction l as [|j l IH]; simpl; [easy|]. unfold np_unique in *. simpl. rewrite In_insert_nat, IH.
  intuition.
Qed.
Lemma insert_sorted j l : StronglySorted lt l -> StronglySorted lt (insert_nat j l).
Proof.
  induction 1 as [|k l Hl IH Hk]; simpl; [repeat constructor|].
  destruct (Nat.ltb_spec j k) as [H|H].
  - constructor; [now constructor|]. constructor; [easy|].
    eapply Forall_impl; [|exact Hk]. simpl. lia.
  - destruct (Nat.eqb_spec j k) as [->|N]; [now constructor|].
    constructor; [easy|]. rewrite Forall_forall in *. intros i Hi.
    apply In_insert_nat in Hi as [->|Hi]; [lia|auto].
Qed.
Lemma unique_sorted l : StronglySorted lt (np_unique l).
Proof. induction l; [constructor|]. now apply insert_sorted. Qed.
Lemma mem_nat_In i l : mem_nat i l = true <-> In i l.
Proof.
  unfold mem_nat. rewrite existsb_exists. split.
  - intros (j & Hj & E). apply Nat.eqb_eq in E. now subst.
  - intros H. exists i. split; [easy|apply Nat.eqb_refl].
Qed.
Lemma In_setdiff i a b : In i (setdiff1d a b) <-> In i a /\ ~ In i b.
Proof.
  unfold setdiff1d. rewrite In_unique, filter_In. rewrite negb_true_iff.
  rewrite <- (mem_nat_In i b). destruct (mem_nat i b); intuition discriminate.
Qed.
Lemma In_intersect i a b : In i (intersect1d a b) <-> In i a /\ In i b.
Proof. unfold intersect1d. now rewrite In_unique, filter_In, mem_nat_In. Qed.

(** The first event of an iteration holds the indices found in the search region and the
    history [h'] they were found in: exactly the points within
    search_radius_factor * radius of the previous accepted point. *)
Theorem C83_index_sets :
  forall VM SM CV ft d w (K : components VM SM CV) O pad x r0 b h r,
    valid_run ft d w K O pad x r0 b h r ->
    (forall s, In s (res_states r) ->
       StronglySorted lt (st_new_indices s) /\ StronglySorted lt (st_old_indices_used s) /\
       NoDup (st_model_indices s) /\
       (forall i, ~ (In i (st_new_indices s) /\ In i (st_old_indices_used s))) /\
       (forall i, In i (st_model_indices s) <-> In i (st_new_indices s) \/ In i (st_old_indices_used s))) /\
    (forall k s s', nth_error (res_states r) k = Some s -> nth_error (res_states r) (S k) = Some s' ->
       exists h' found evs, st_events s' = EvFound h' found :: evs /\
         (forall i, In i found <-> exists y, i < h_nxs h' /\ get_xs_one h' (Z.of_nat i) = Ok y /\
            (dist y (st_x s) <= search_radius_factor O * r_radius (st_region s'))%R) /\
         (forall i, ~ (In i (st_old_indices_used s') /\ In i (st_old_indices_discarded s'))) /\
         (forall i, In i found <-> In i (st_old_indices_used s') \/ In i (st_old_indices_discarded s')) /\
         (forall i, In i (st_new_indices s') -> ~ In i found)).
Proof.
  intros VM SM CV ft d w K O pad x r0 b h r V. open_run V. split.
  - intros s Hs. rewrite RS in Hs. destruct Hs as [<-|Hs].
    { rewrite NI0, OU0, MI0. splits; try (repeat constructor; easy); intros i; simpl; tauto. }
    apply in_map_iff in Hs as ([a ap] & <- & Hs). simpl. apply In_nth_error in Hs as [k Hk].
    destruct (chain_links _ _ _ _ _ _ _ _ CH _ _ _ Hk) as (c & LK & _).
    destruct (lk_ok _ _ _ _ _ _ _ _ LK) as [D HD]. rewrite (io_ap _ _ _ _ _ _ _ _ _ HD).
    cbn [update_state st_new_indices st_old_indices_used st_model_indices].
    splits; try apply unique_sorted.
    + apply (gw_nodup _ _ _ _ _ _ _ _ _ (io_work _ _ _ _ _ _ _ _ _ HD)).
    + intros i. rewrite In_setdiff, In_intersect. intuition.
    + intros i. rewrite In_setdiff, In_intersect.
      destruct (in_dec Nat.eq_dec i (i_old D)); intuition.
  - intros k s s' H1 H2. rewrite RS in H1, H2.
    destruct (consecutive _ _ _ _ _ st0 _ _ _ CH (agrees_refl _)) as [CS _].
    destruct (CS k s s' H1 H2) as (a & c & Hl & LK & (G1 & _)).
    destruct (lk_ok _ _ _ _ _ _ _ _ LK) as [D HD].
    rewrite (io_ap _ _ _ _ _ _ _ _ _ HD).
    cbn [update_state st_events st_region st_new_indices st_old_indices_used st_old_indices_discarded].
    rewrite (io_events _ _ _ _ _ _ _ _ _ HD).
    pose proof (io_first _ _ _ _ _ _ _ _ _ HD) as FF.
    destruct (ff_events _ _ _ _ _ _ _ _ _ _ _ _ _ _ _ FF) as (hh & xs & fv & o & ->).
    destruct (lk_a _ _ _ _ _ _ _ _ LK) as (GL & _ & GA).
    cbn [app]. eexists _, _, _. split; [reflexivity|]. splits.
    + intros i. rewrite (ff_old _ _ _ _ _ _ _ _ _ _ _ _ _ _ _ FF i), G1.
      destruct (haslog_dims _ _ _ _ _ _ GL) as (_ & _ & _ & _ & NX).
      split; intros (y & Hy).
      * destruct Hy as [Hy Hd]. exists y.
        split; [rewrite NX; apply nth_error_Some; congruence|]. split; [|easy].
        eapply xs_one_log; eauto.
      * destruct Hy as (Hi & Hg & Hd). exists y. split; [|easy].
        destruct (nth_error (n_X a) i) as [y'|] eqn:Ey.
        -- rewrite (xs_one_log _ _ _ _ _ _ i y' GL Ey) in Hg. congruence.
        -- apply nth_error_None in Ey. lia.
    + intros i. rewrite In_setdiff, In_intersect. intuition.
    + intros i. rewrite In_setdiff, In_intersect.
      destruct (in_dec Nat.eq_dec i (w_indices (i_wk D))); intuition.
    + intros i. rewrite In_setdiff. intuition.
Qed.

Example C83_instance : exists h r,
  valid_run Scalar 1 1 (ex_components (fun c => c / 2)%R (fun _ _ => Classic) center_sampler ex_crit)
    (ex_config 5 false true) 0 [3%R] 1 None h r /\ length (res_states r) = 6.
Proof.
  destruct (ex_five (fun c => c / 2)%R None) as (h & r & V & L & _); cbn; auto. eauto.
Qed.

(** * C84 - the data of every fit *)

(** Every fit in every iteration uses, for the model indices of that moment, the points and
    the averaged evaluations in the history of that moment, and each of the points has at
    least n_evals_per_point evaluations then.  The model kept in the state comes from the
    last fit, which used the model indices kept in the state. *)
Theorem C84_enough_evaluations :
  forall VM SM CV ft d w (K : components VM SM CV) O pad x r0 b h r,
    valid_run ft d w K O pad x r0 b h r ->
    forall k s, nth_error (res_states r) (S k) = Some s ->
    exists n, st_n_evals_per_point s = Some n /\
      (forall h' idx xs fvecs old, In (EvFit h' idx xs fvecs old) (st_events s) ->
        get_model_data h' (map Z.of_nat idx) true = Ok (xs, fvecs) /\
        forall i, In i idx -> exists fvals, get_fvals_one h' (Z.of_nat i) = Ok fvals /\
          (n <= Z.of_nat (length fvals))%Z) /\
      exists evs h' xs fvecs old vm,
        st_events s = evs ++ [EvFit h' (st_model_indices s) xs fvecs old] /\
        k_fit K xs fvecs (st_region s) old = Ok vm /\ k_agg K vm = Ok (st_model s).
Proof.
  intros VM SM CV ft d w K O pad x r0 b h r V k s Hs. open_run V.
  rewrite RS in Hs. change (nth_error (map snd l) k = Some s) in Hs. rewrite nth_error_map in Hs.
  destruct (nth_error l k) as [[a ap]|] eqn:Hk; [|discriminate]. simpl in Hs. injection Hs as <-.
  destruct (chain_links _ _ _ _ _ _ _ _ CH _ _ _ Hk) as (c & LK & _).
  destruct (lk_ok _ _ _ _ _ _ _ _ LK) as [D HD]. rewrite (io_ap _ _ _ _ _ _ _ _ _ HD).
  cbn [update_state st_n_evals_per_point st_events st_model_indices st_model st_region].
  exists (n_n a). split; [easy|].
  pose proof (io_work _ _ _ _ _ _ _ _ _ HD) as W. split.
  - intros h' idx xs fvecs old Hin.
    pose proof (io_events_ok _ _ _ _ _ _ _ _ _ HD) as FO. rewrite Forall_forall in FO.
    specialize (FO _ Hin). cbn in FO. destruct FO as (_ & X & E & HL & HE & ND & HI & HN & -> & ->).
    destruct (haslog_rep _ _ _ _ _ _ HL) as [HR _].
    split; [now apply (q_model_data_avg _ _ _ _ _ _ HR)|].
    intros i Hi. rewrite Forall_forall in HI. exists (fvals_of ft i E).
    split; [|unfold fvals_of; rewrite map_length; auto].
    pose proof (m_fvals_log _ _ _ _ _ _ i HL HE (HI _ Hi)) as Q. exact (f_equal snd Q).
  - destruct (gw_last _ _ _ _ _ _ _ _ _ W) as [evs E].
    destruct (gw_fit _ _ _ _ _ _ _ _ _ W) as (h' & xs & fv & E1 & E2 & E3 & _).
    exists evs, h', xs, fv, (st_vector_model (n_st a)), (f_vm (w_fit (i_wk D))).
    rewrite E, E1. auto.
Qed.

Example C84_instance : exists h r,
  valid_run Scalar 1 1 (ex_components (fun c => c / 2)%R (fun _ _ => Classic) center_sampler ex_crit)
    (ex_config 5 false true) 0 [3%R] 1 None h r /\ exists s, nth_error (res_states r) 5 = Some s.
Proof.
  destruct (ex_five (fun c => c / 2)%R None) as (h & r & V & L & _); cbn; auto. exists h, r. split; [easy|].
  destruct (nth_error (res_states r) 5) eqn:E; eauto. apply nth_error_None in E. lia.
Qed.
