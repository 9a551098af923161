(** Properties C179-C181: examples of noisy runs, the numbers of evaluations in noisy runs; values that are not finite. *)
From Coq Require Import Reals List Arith ZArith Bool Lia Lra Psatz Sorting.Sorted.
From Verif Require Import Base XR Vec FVec HistoryModel HistorySpec HistoryProofs WrapModel
  WrapProofs VolumeModel RegionModel AdjustModel AcceptModel ModelsModel FitModel FilterModel
  SubproblemModel SampleModel VarianceModel NoiseModel CgModel TrsboxModel TrsboxFastModel
  BntrModel GqtparModel LogSpec LogProofs Prop_Region Prop_Adjust AcceptProofs Prop_Accept
  Prop_Filter Prop_Cluster Prop_Models Prop_Fit Prop_Subproblem Prop_Sample Prop_Bntr Prop_Gqtpar
  Prop_Gqtpar2 MainModel MainProofs MainPhases MainLoop MainProgress MainProgress2 Prop_Main
  Prop_Main2 Prop_Main3 Prop_Main4 BuiltinModel Prop_Builtin LstsqProofs Prop_Variance
  Prop_NoisyRun Prop_Builtin2.
Import ListNotations.
Open Scope nat_scope.

(** * C181 *)

Lemma int_ceil_clip x lo hi n : (lo <= hi)%Z ->
  int_ceil (xclip x (Fin (IZR lo)) (Fin (IZR hi))) = Ok n -> (lo <= n <= hi)%Z.
Proof.
  intros Hl. assert (F : x = NaN \/ exists q, xclip x (Fin (IZR lo)) (Fin (IZR hi)) = Fin q /\ (IZR lo <= q <= IZR hi)%R).
  { destruct x; [right|right|right|now left]; (apply xclip_fin; [discriminate|now apply IZR_le]). }
  destruct F as [->|(q & -> & Q)]; [cbn; discriminate|].
  cbn [int_ceil]. intros [= <-]. now apply ceilR_range in Q.
Qed.

Lemma sample_sizes_range s k ei z lo hi n1 n2 : (lo <= hi)%Z -> (0 <= k)%Z ->
  get_acceptance_sample_sizes s k ei z lo hi = Ok (n1, n2) ->
  (0 <= n1 <= Z.max 0 (hi - k))%Z /\ (lo <= n2 <= hi)%Z.
Proof.
  intros Hl Hk. unfold get_acceptance_sample_sizes. destruct (optimal_sample_sizes _ _ _ _ _) as [a c].
  destruct (int_ceil (xclip a _ _)) as [m1|] eqn:E1; [|discriminate]. cbn [bind].
  destruct (int_ceil (xclip c _ _)) as [m2|] eqn:E2; [|discriminate]. cbn [bind]. intros [= <- <-].
  apply int_ceil_clip in E1; [|lia]. apply int_ceil_clip in E2; [|lia]. now split.
Qed.

(** Evaluations asked for by an evaluation info with distinct keys. *)
Lemma sum_nodup (info : list (nat * Z)) i : NoDup (map fst info) ->
  list_sum (map snd (filter (fun p => fst p =? i) (map (fun kv => (fst kv, Z.to_nat (snd kv))) info))) = 0 /\ ~ In i (map fst info) \/
  exists z, In (i, z) info /\
  list_sum (map snd (filter (fun p => fst p =? i) (map (fun kv => (fst kv, Z.to_nat (snd kv))) info))) = Z.to_nat z.
Proof.
  induction info as [|[j z] info IH]; intros ND; [left; split; [reflexivity|intros []]|].
  cbn [map fst] in ND. apply NoDup_cons_iff in ND as [N1 N2]. cbn [map fst snd filter].
  destruct (Nat.eqb_spec j i) as [->|Hj].
  - right. exists z. split; [now left|]. cbn [map snd]. destruct (IH N2) as [[E _]|(z' & Hz & _)].
    + change (Z.to_nat z + list_sum (map snd (filter (fun p => fst p =? i) (map (fun kv => (fst kv, Z.to_nat (snd kv))) info))) = Z.to_nat z).
      rewrite E. lia.
    + elim N1. apply in_map_iff. now exists (i, z').
  - destruct (IH N2) as [[E NI]|(z' & Hz & E)].
    + left. split; [exact E|]. intros [H|H]; [now apply Hj|now apply NI].
    + right. exists z'. split; [now right|exact E].
Qed.

(** No point is evaluated more than [B] times, if neither the start vector nor the candidates and
    model points are meant to be. *)
Section Count.
Context {VM SM CV : Type}.
Variables (ft : functype) (d w : nat) (K : components VM SM CV) (O : config) (lo hi : Z) (B : nat).
Hypothesis GK : good_components ft d w K.
Hypothesis HD : forall t v, exists z, k_decider K t (Some v) = Noisy v z lo hi.
Hypothesis HN : noisy O = true.
Hypothesis Hlo : (lo <= hi)%Z.
Hypothesis B1 : (hi <= Z.of_nat B)%Z.
Hypothesis B2 : (AdjustModel.min_n_evals (noise_o O) <= Z.of_nat B)%Z.
Hypothesis B3 : (AdjustModel.max_n_evals (noise_o O) <= Z.of_nat B)%Z.

Definition counted (s : snap (VM:=VM) (SM:=SM)) : Prop :=
  (n_n s <= Z.of_nat B)%Z /\ forall i, length (evals_of i (n_E s)) <= B.

Lemma evals_beyond h X E i : haslog ft d w h X E -> length X <= i -> length (evals_of i E) = 0.
Proof.
  intros HL Hi. destruct (haslog_dims _ _ _ _ _ _ HL) as (_ & _ & F & _).
  rewrite evals_of_length. apply count_occ_not_In. intros H. apply in_map_iff in H as (e & <- & He).
  rewrite Forall_forall in F. specialize (F e He). lia.
Qed.

Lemma count_step s ap s' : link ft d w K O s ap s' -> counted s -> counted s'.
Proof.
  intros LK [CN CE]. destruct (lk_ok _ _ _ _ _ _ _ _ LK) as [D IO].
  destruct (lk_a _ _ _ _ _ _ _ _ LK) as (HL & HE & HA).
  destruct (io_noise _ _ _ _ _ _ _ _ _ IO HN) as (hm & v & cov & rn & EV & HL' & _ & _ & _ & EJ).
  split.
  { apply (f_equal fst) in EJ. cbn [fst] in EJ. rewrite EJ. unfold adjust_n_evals. cbv zeta. cbn [fst].
    repeat match goal with |- context [if ?c then _ else _] => destruct c end; lia. }
  intros i. rewrite (io_E _ _ _ _ _ _ _ _ _ IO).
  pose proof (io_first _ _ _ _ _ _ _ _ _ IO) as FF.
  pose proof (io_decided _ _ _ _ _ _ _ _ _ IO) as DC.
  destruct (HD (n_t s) v) as [z ED]. rewrite EV, ED in DC.
  assert (IX : Forall (fun i => i < length (n_X s)) (i_idx D)).
  { apply Forall_forall. intros j Hj. apply (ff_sub _ _ _ _ _ _ _ _ _ _ _ _ _ _ _ FF) in Hj as [<-|Hj].
    - apply nth_error_Some. destruct HA as [A _]. congruence.
    - apply (ff_old _ _ _ _ _ _ _ _ _ _ _ _ _ _ _ FF) in Hj as (y & Hy & _). apply nth_error_Some. congruence. }
  (* the model points *)
  assert (C1 : forall i, length (evals_of i (n_E s ++ i_E1 D)) <= B /\
    (length (n_X s ++ i_X1 D) <= i -> length (evals_of i (n_E s ++ i_E1 D)) = 0)).
  { intros j. rewrite evals_of_app, app_length, (evals_of_length _ _ (i_E1 D)), (ff_evals _ _ _ _ _ _ _ _ _ _ _ _ _ _ _ FF), count_occ_expand.
    specialize (CE j).
    set (info := map (fun i => (i, n_n s)) (seq (length (n_X s)) (length (i_X1 D))) ++ additional_info (n_E s) (n_n s) (i_idx D)).
    assert (ND : NoDup (map fst info)).
    { unfold info. rewrite map_app. apply NoDup_app'.
      - rewrite map_map. cbn [fst]. rewrite map_id. apply seq_NoDup.
      - apply additional_nodup. apply FF.
      - intros k Hk1 Hk2. rewrite map_map in Hk1. cbn [fst] in Hk1. rewrite map_id in Hk1. apply in_seq in Hk1.
        apply in_map_iff in Hk2 as ([k' q] & <- & Hk2). apply additional_keys in Hk2. rewrite Forall_forall in IX.
        specialize (IX _ Hk2). cbn [fst] in Hk1. lia. }
    destruct (sum_nodup info j ND) as [[-> NI]|(q & Hq & ->)].
    - split; [lia|]. intros Hj. rewrite Nat.add_0_r. rewrite app_length in Hj. eapply evals_beyond; [exact HL|lia].
    - unfold info in Hq. apply in_app_or in Hq as [Hq|Hq].
      + apply in_map_iff in Hq as (k & [= <- <-] & Hk). apply in_seq in Hk.
        rewrite (evals_beyond _ _ _ k HL) by lia. split; [lia|]. rewrite app_length. lia.
      + pose proof (additional_keys _ _ _ _ _ Hq) as Hk. rewrite Forall_forall in IX. specialize (IX _ Hk).
        unfold additional_info in Hq. apply filter_In in Hq as [Hq _]. apply in_map_iff in Hq as (k & [= <- <-] & _).
        split; [lia|]. rewrite app_length. lia. }
  (* the points added while resampling *)
  assert (C2 : forall i, length (evals_of i (n_E s ++ i_E1 D ++ i_E3 D)) <= B).
  { intros j. rewrite app_assoc, evals_of_app, app_length, (evals_of_length _ _ (i_E3 D)).
    destruct (C1 j) as [C1a C1b]. rewrite (io_E3 _ _ _ _ _ _ _ _ _ IO), count_occ_expand.
    set (info := map (fun i => (i, n_n s)) (seq (length (n_X s ++ i_X1 D)) (length (i_X3 D)))).
    destruct (sum_nodup info j) as [[-> NI]|(q & Hq & ->)].
    - unfold info. rewrite map_map. cbn [fst]. rewrite map_id. apply seq_NoDup.
    - lia.
    - unfold info in Hq. apply in_map_iff in Hq as (k & [= <- <-] & Hk). apply in_seq in Hk. rewrite C1b by lia. lia. }
  (* the decider *)
  rewrite app_assoc, evals_of_app, app_length.
  destruct (dc_noisy _ _ _ _ _ _ _ _ _ _ _ DC _ _ _ _ eq_refl) as (n1 & n2 & SZ & N1 & N2).
  apply sample_sizes_range in SZ as [R1 R2]; [|easy|lia]. cbn [cur_of c_index] in *.
  destruct (Nat.eq_dec i (st_index (n_st s))) as [->|Hi].
  { specialize (C2 (st_index (n_st s))). rewrite N1. lia. }
  destruct (Nat.eq_dec i (length (n_X s ++ i_X1 D ++ i_X3 D))) as [->|Hi2].
  { rewrite (evals_beyond _ _ _ _ HL') by lia. rewrite N2. lia. }
  assert (Z0 : length (evals_of i (i_E2 D)) = 0).
  { rewrite evals_of_length. apply count_occ_not_In. intros H.
    destruct (dc_idx _ _ _ _ _ _ _ _ _ _ _ DC i H) as [E|E]; [now apply Hi|].
    apply in_map_iff in H as ([i' u] & E' & H). cbn [fst] in E'. subst i'.
    destruct (dc_true _ _ _ _ _ _ _ _ _ _ _ DC i u H) as (y & Hy & _).
    assert (L : i < length ((n_X s ++ i_X1 D ++ i_X3 D) ++ i_X2 D)) by (apply nth_error_Some; congruence).
    rewrite (dc_newX _ _ _ _ _ _ _ _ _ _ _ DC I), app_length in L. simpl in L. lia. }
  rewrite Z0. specialize (C2 i). lia.
Qed.
End Count.

(** Evaluations of the start vector: a multiple of the batch size.
    /repo/src/tranquilo/tranquilo.py:51-56 *)
Definition start_evals (O : config) : Z :=
  if (1 <? n_evals_at_start O)%Z then next_multiple (n_evals_at_start O) (batch_size O) else 1%Z.

(** In a noisy run no point is evaluated more than [B] times, if [B] is at least the maximal
    number of evaluations of the acceptance step and of a model point and at least the numbers
    chosen for the start vector and the first iteration. *)
Theorem C181_evaluations_bounded :
  forall VM SM CV ft d w (K : components VM SM CV) O pad x r0 b h r lo hi B,
    valid_run ft d w K O pad x r0 b h r ->
    noisy O = true ->
    (forall t v, exists z, k_decider K t (Some v) = Noisy v z lo hi) -> (lo <= hi)%Z ->
    (hi <= Z.of_nat B)%Z -> (start_evals O <= Z.of_nat B)%Z -> (n_evals_per_point0 O <= Z.of_nat B)%Z ->
    (AdjustModel.min_n_evals (noise_o O) <= Z.of_nat B)%Z ->
    (AdjustModel.max_n_evals (noise_o O) <= Z.of_nat B)%Z ->
    forall i, i < get_n_xs h -> exists l, get_fvals_one h (Z.of_nat i) = Ok l /\ length l <= B.
Proof.
  intros VM SM CV ft d w K O pad x r0 b h r lo hi B V HN HD Hlo B1 B2 B3 B4 B5 i Hi. open_run V.
  destruct (chain_inv _ _ _ _ _ (counted B) _ _ _ CH) as [[_ ZE] _].
  { split; [exact B3|]. intros j. cbn [n_E]. rewrite evals_of_length, MF0. fold (start_evals O).
    pose proof (count_occ_bound Nat.eq_dec j (repeat 0 (Z.to_nat (start_evals O)))) as C. rewrite repeat_length in C. lia. }
  { intros s ap c LK HP. eapply count_step; eauto. }
  destruct GZ as (GL & GE & _). rewrite Hz in GL.
  assert (Hi' : i < length (n_X z)).
  { destruct (haslog_dims _ _ _ _ _ _ GL) as (_ & _ & _ & _ & Q). unfold get_n_xs in Hi. now rewrite <- Q. }
  exists (fvals_of ft i (n_E z)). split.
  { pose proof (m_fvals_log _ _ _ _ _ _ _ GL GE Hi') as Q. unfold m_fvals, mquery in Q. now injection Q. }
  unfold fvals_of. rewrite map_length. apply ZE.
Qed.

(** The point of every state was evaluated at least as often as demanded: the start vector
    [n_evals_at_start] times, points accepted later at least [lo] times. *)
Theorem C181_accepted_points_evaluated :
  forall VM SM CV ft d w (K : components VM SM CV) O pad x r0 b h r lo hi,
    valid_run ft d w K O pad x r0 b h r ->
    noisy O = true ->
    (forall t v, exists z, k_decider K t (Some v) = Noisy v z lo hi) -> (lo <= hi)%Z ->
    forall s, In s (res_states r) -> exists l, get_fvals_one h (Z.of_nat (st_index s)) = Ok l /\
      (st_index s = 0 -> (n_evals_at_start O <= Z.of_nat (length l))%Z) /\
      (st_index s <> 0 -> (lo <= Z.of_nat (length l))%Z).
Proof.
  intros VM SM CV ft d w K O pad x r0 b h r lo hi V HN HD Hlo. open_run V.
  pose (P := fun s : snap (VM:=VM) (SM:=SM) =>
    (st_index (n_st s) = 0 -> (n_evals_at_start O <= Z.of_nat (length (evals_of 0 (n_E s))))%Z) /\
    (st_index (n_st s) <> 0 -> (lo <= Z.of_nat (length (evals_of (st_index (n_st s)) (n_E s))))%Z)).
  assert (P0 : P (mkSnap 0 st0 (n_evals_per_point0 O) h0 [x] E0)).
  { split; cbn [n_st n_E]; [|congruence]. intros _. rewrite evals_of_length, MF0, count_occ_repeat_eq by reflexivity.
    destruct (Z.ltb_spec 1 (n_evals_at_start O)) as [Hs|Hs]; [|simpl; lia].
    destruct (C35_next_multiple (n_evals_at_start O) (batch_size O)) as (_ & Q & _); [|lia].
    pose proof (vr_batch _ _ _ _ _ _ _ _ _ _ _ V). lia. }
  assert (PS : forall s ap c, link ft d w K O s ap c -> P s -> P c).
  { intros s ap c LK [H1 H2]. destruct (lk_ok _ _ _ _ _ _ _ _ LK) as [D IO].
    destruct (lk_a _ _ _ _ _ _ _ _ LK) as (HL & HE & HA).
    assert (NX : 0 < length (n_X s)).
    { destruct HA as [HA _]. assert (st_index (n_st s) < length (n_X s)) by (apply nth_error_Some; congruence). lia. }
    destruct (io_noise _ _ _ _ _ _ _ _ _ IO HN) as (hm & v & cov & rn & EV & HL' & _).
    pose proof (io_decided _ _ _ _ _ _ _ _ _ IO) as DC.
    destruct (HD (n_t s) v) as [zz ED]. rewrite EV, ED in DC.
    destruct (dc_noisy _ _ _ _ _ _ _ _ _ _ _ DC _ _ _ _ eq_refl) as (n1 & n2 & SZ & N1 & N2).
    apply sample_sizes_range in SZ as [_ R2]; [|easy|lia].
    destruct (io_region _ _ _ _ _ _ _ _ _ IO) as (rg & ER & _).
    assert (EI : st_index (n_st c) = a_index (i_acc D)) by (rewrite ER, (io_ap _ _ _ _ _ _ _ _ _ IO); reflexivity).
    unfold P. rewrite EI, (io_E _ _ _ _ _ _ _ _ _ IO).
    destruct (a_accepted (i_acc D)) eqn:EA.
    - destruct (dc_acc _ _ _ _ _ _ _ _ _ _ _ DC EA) as (A1 & A2 & _).
      assert (A3 : a_index (i_acc D) = length (n_X s ++ i_X1 D ++ i_X3 D)).
      { assert (L : a_index (i_acc D) < length ((n_X s ++ i_X1 D ++ i_X3 D) ++ i_X2 D)) by (apply nth_error_Some; congruence).
        rewrite (dc_newX _ _ _ _ _ _ _ _ _ _ _ DC I), app_length in L. simpl in L. lia. }
      rewrite A3. split; intros Q; [rewrite app_length in Q; lia|].
      set (L := length (n_X s ++ i_X1 D ++ i_X3 D)) in *. rewrite !evals_of_app, !app_length, N2. lia.
    - destruct (dc_rej _ _ _ _ _ _ _ _ _ _ _ DC EA) as (_ & _ & A1). cbn [cur_of c_index] in A1. rewrite A1.
      rewrite !evals_of_app, !app_length. split; intros Q; [specialize (H1 Q)|specialize (H2 Q)]; lia. }
  destruct (chain_prefix _ _ _ _ _ _ _ _ CH) as ((Xs & PX) & (Es & PE) & PL). cbn [n_X n_E] in PX, PE.
  destruct (chain_inv _ _ _ _ _ P _ _ _ CH P0 PS) as [_ PI].
  destruct GZ as (GL & GE & _). rewrite Hz in GL.
  intros s Hs. rewrite RS in Hs.
  assert (G : exists E', n_E z = E' ++ skipn (length E') (n_E z) /\ st_index s < length (n_X z) /\
    (st_index s = 0 -> (n_evals_at_start O <= Z.of_nat (length (evals_of 0 E')))%Z) /\
    (st_index s <> 0 -> (lo <= Z.of_nat (length (evals_of (st_index s) E')))%Z)).
  { destruct Hs as [<-|Hs].
    - exists E0. rewrite PE, skipn_app, skipn_all, Nat.sub_diag. split; [easy|]. split; [rewrite I0, PX; simpl; lia|].
      exact P0.
    - apply in_map_iff in Hs as ([a ap] & <- & Hs). cbn [snd]. destruct (PL _ _ Hs) as (b1 & LK & (X1 & EX) & (E1 & EE)).
      destruct (link_agrees _ _ _ _ _ _ _ _ LK) as (_ & G1 & _).
      exists (n_E b1). rewrite EE, skipn_app, skipn_all, Nat.sub_diag. split; [easy|].
      destruct (PS _ _ _ LK (PI _ _ Hs)) as [Q1 Q2]. rewrite <- G1. split; [|now split].
      destruct (lk_b _ _ _ _ _ _ _ _ LK) as (_ & _ & [A1 _]).
      rewrite EX, app_length. assert (st_index (n_st b1) < length (n_X b1)) by (apply nth_error_Some; congruence). lia. }
  destruct G as (E' & GE' & Gi & G1 & G2).
  exists (fvals_of ft (st_index s) (n_E z)). split.
  { pose proof (m_fvals_log _ _ _ _ _ _ _ GL GE Gi) as Q. unfold m_fvals, mquery in Q. now injection Q. }
  unfold fvals_of. rewrite map_length, GE', evals_of_app, app_length.
  split; intros Q; [specialize (G1 Q); rewrite Q|specialize (G2 Q)]; lia.
Qed.

(** * C180 *)

Lemma xsum_not_fin l x : In x l -> isfinite x = false -> isfinite (xsum l) = false /\
  (xsum l = PInf -> In PInf l) /\ (xsum l = NInf -> In NInf l).
Proof.
  assert (S : forall l, (xsum l = PInf -> In PInf l) /\ (xsum l = NInf -> In NInf l)).
  { induction l0 as [|a l0 [IH1 IH2]]; [split; discriminate|]. change (xsum (a :: l0)) with (xadd a (xsum l0)).
    split; intros H; destruct a, (xsum l0); try discriminate H; simpl; auto. }
  intros Hx Hf. split; [|apply S]. induction l as [|a l IH]; [easy|].
  change (xsum (a :: l)) with (xadd a (xsum l)). destruct Hx as [->|Hx].
  - destruct x; try discriminate Hf; now destruct (xsum l).
  - specialize (IH Hx). destruct (xsum l); try discriminate IH; now destruct a.
Qed.

Lemma np_var_not_fin l x : In x l -> isfinite x = false -> np_var l = NaN.
Proof.
  intros Hx Hf. destruct (xsum_not_fin l x Hx Hf) as (F & FP & FN). unfold np_var, xmean.
  assert (L : (0 < INR (length l))%R) by (apply lt_0_INR; destruct l; [easy|simpl; lia]).
  assert (N : exists y, In y l /\ xsub y (xdiv (xsum l) (Fin (INR (length l)))) = NaN).
  { destruct (xsum l) as [r| | |]; [discriminate F| | |].
    - exists PInf. split; [now apply FP|]. cbn [xdiv]. destruct (Rleb_spec 0 (INR (length l))); [reflexivity|lra].
    - exists NInf. split; [now apply FN|]. cbn [xdiv]. destruct (Rltb_spec (INR (length l)) 0); [lra|reflexivity].
    - exists x. split; [easy|]. now destruct x. }
  destruct N as (y & Hy & N). rewrite xsum_nan; [reflexivity|]. apply in_map_iff. exists y. now rewrite N.
Qed.

(** A point whose values enter the estimate of the variance and are not all finite makes the
    estimate NaN. *)
Lemma variance_not_fin ch ft d w h X E st i y v :
  haslog ft d w h X E -> nth_error X i = Some y ->
  (dist y (r_center (st_region (VM:=vm) (SM:=option smodel) st)) <= r_radius (st_region st) * ch_max_distance_factor ch)%R ->
  (1 <= ch_min_n_evals ch <= Z.of_nat (length (evals_of i E)))%Z ->
  In v (evals_of i E) -> isfinite (spec_fval ft v) = false ->
  builtin_variance ch h (st_region st) = Ok NaN.
Proof.
  intros HL Hy Hd Hm Hv Hf. destruct HL as (D1 & D2 & pad & ops & G & R & <- & <-).
  destruct (estimate_general ft pad d w ops h D1 D2 G R (r_center (st_region st)) (r_radius (st_region st))
    (ch_max_distance_factor ch) (ch_min_n_evals ch)) as (is & _ & _ & IS & N1 & T & EV & _).
  { exists i. split; [now exists y|lia]. } { lia. }
  unfold builtin_variance. rewrite EV. f_equal. apply xsum_nan. apply in_map_iff. exists i. split.
  - rewrite (np_var_not_fin _ (spec_fval ft v)); [|now apply in_map|easy]. reflexivity.
  - apply IS. split; [now exists y|]. left. lia.
Qed.

Lemma start_values :
  forall X ch d w ft crit n_cores O pad x r0 b h r z lo hi,
    valid_run ft d w (builtin_components X ch d (ft_w ft w) crit n_cores) O pad x r0 b h r ->
    noisy O = true -> ch_decider ch = DecNoisy z lo hi ->
    (1 <= ch_min_n_evals ch <= n_evals_at_start O)%Z -> (0 <= ch_max_distance_factor ch)%R -> (0 <= r0)%R ->
    2 <= length (res_states r) ->
    exists l, get_fvals_one h 0 = Ok l /\ (n_evals_at_start O <= Z.of_nat (length l))%Z /\
      Forall (fun v => isfinite v = true) (firstn (Z.to_nat (n_evals_at_start O)) l) /\
      exists v, true_eval crit x v /\ isfinite (spec_fval ft v) = true.
Proof.
  intros X ch d w ft crit nc O pad x r0 b h r zs lo hi V HN HD Hm Hc Hr HL. open_run V.
  rewrite RS in HL. cbn [length] in HL. rewrite map_length in HL.
  destruct (chain_prefix _ _ _ _ _ _ _ _ CH) as ((Xs & PX) & (Es & PE) & _). cbn [n_X n_E] in PX, PE.
  destruct GZ as (GL & GE & _). rewrite Hz in GL.
  assert (N0 : (n_evals_at_start O <= Z.of_nat (length (evals_of 0 E0)))%Z).
  { rewrite evals_of_length, MF0, count_occ_repeat_eq by reflexivity.
    destruct (Z.ltb_spec 1 (n_evals_at_start O)) as [Hs|Hs]; [|simpl; lia].
    destruct (C35_next_multiple (n_evals_at_start O) (batch_size O)) as (_ & Q & _); [|lia].
    pose proof (vr_batch _ _ _ _ _ _ _ _ _ _ _ V). lia. }
  assert (AF : forall v, In v (evals_of 0 E0) -> isfinite (spec_fval ft v) = true).
  { intros v Hv. destruct (isfinite (spec_fval ft v)) eqn:Ef; [easy|exfalso].
    inversion CH as [? Ea El Ez|a ap c l' ? LK CH' Ea El Ez]; [subst l; simpl in HL; lia|]. subst.
    destruct (lk_ok _ _ _ _ _ _ _ _ LK) as [D IO].
    destruct (io_noise _ _ _ _ _ _ _ _ _ IO HN) as (hm & s & cov & rn & EV & HL' & KV & _).
    pose proof (io_decided _ _ _ _ _ _ _ _ _ IO) as DC. cbn [n_st n_X n_E n_t] in *.
    cbn [builtin_components k_variance k_decider] in KV, DC. unfold builtin_decider in DC. rewrite HD, EV in DC.
    apply make_region_center in MR as (RC & RR & _).
    rewrite (variance_not_fin ch ft d w hm _ _ st0 0 (st_x st0) v HL') in KV.
    - injection KV as <-. destruct (dc_noisy _ _ _ _ _ _ _ _ _ _ _ DC _ _ _ _ eq_refl) as (n1 & n2 & SZ & _).
      change (xsqrt NaN) with NaN in SZ. rewrite C32_nan_noise_raises in SZ. discriminate.
    - reflexivity.
    - rewrite RC, RR, dist_refl. now apply Rmult_le_pos.
    - rewrite evals_of_app, app_length. lia.
    - rewrite evals_of_app. apply in_or_app. now left.
    - easy.
  }
  exists (fvals_of ft 0 (n_E z)). split; [|split; [|split]].
  { assert (Gi : 0 < length (n_X z)) by (rewrite PX; simpl; lia).
    pose proof (m_fvals_log _ _ _ _ _ _ _ GL GE Gi) as Q. unfold m_fvals, mquery in Q. now injection Q. }
  { unfold fvals_of. rewrite map_length, PE, evals_of_app, app_length. lia. }
  { unfold fvals_of. rewrite PE, evals_of_app, map_app, firstn_app, map_length.
  replace (Z.to_nat (n_evals_at_start O) - length (evals_of 0 E0)) with 0 by lia. rewrite app_nil_r.
  apply Forall_forall. intros u Hu.
  assert (Hu' : In u (map (spec_fval ft) (evals_of 0 E0))).
  { rewrite <- (firstn_skipn (Z.to_nat (n_evals_at_start O))). apply in_or_app. now left. }
  apply in_map_iff in Hu' as (v & <- & Hv). now apply AF. }
  destruct (evals_of 0 E0) as [|v vs] eqn:EE; [simpl in N0; lia|]. exists v. split; [|apply AF; now left].
  assert (Hv : In v (evals_of 0 E0)) by (rewrite EE; now left).
  unfold evals_of in Hv. apply in_map_iff in Hv as ([i u] & Eu & Hi). cbn in Eu. subst u.
  apply filter_In in Hi as [Hi Hi0]. cbn in Hi0. apply Nat.eqb_eq in Hi0. subst i.
  destruct (T0 0 v Hi) as (y & Hy & TE). injection Hy as <-. exact TE.
Qed.

(** In a noisy run that completes an iteration, all values of the start vector that entered the
    first estimate are finite. *)
Theorem C180_start_values_finite :
  forall X ch d w ft crit n_cores O pad x r0 b h r z lo hi,
    valid_run ft d w (builtin_components X ch d (ft_w ft w) crit n_cores) O pad x r0 b h r ->
    noisy O = true -> ch_decider ch = DecNoisy z lo hi ->
    (1 <= ch_min_n_evals ch <= n_evals_at_start O)%Z -> (0 <= ch_max_distance_factor ch)%R -> (0 <= r0)%R ->
    2 <= length (res_states r) ->
    exists l, get_fvals_one h 0 = Ok l /\ (n_evals_at_start O <= Z.of_nat (length l))%Z /\
      Forall (fun v => isfinite v = true) (firstn (Z.to_nat (n_evals_at_start O)) l).
Proof.
  intros X ch d w ft crit nc O pad x r0 b h r zs lo hi V HN HD Hm Hc Hr HL.
  destruct (start_values X ch d w ft crit nc O pad x r0 b h r zs lo hi V HN HD Hm Hc Hr HL) as (l & Q1 & Q2 & Q3 & _).
  eauto.
Qed.

(** Hence a criterion whose values at the start vector are not finite makes every noisy run
    fail, for every budget of at least one iteration. *)
Theorem C180_not_finite_start_raises :
  forall X ch d w ft crit n_cores O pad x r0 b zs lo hi,
    ext_dims d X -> good_criterion ft w crit -> d <> 0 -> w <> 0 -> length x = d -> (1 <= batch_size O)%Z ->
    noisy O = true -> ch_decider ch = DecNoisy zs lo hi ->
    (1 <= ch_min_n_evals ch <= n_evals_at_start O)%Z -> (0 <= ch_max_distance_factor ch)%R -> (0 <= r0)%R ->
    1 <= max_iter (stop_o O) ->
    (forall v, true_eval crit x v -> isfinite (spec_fval ft v) = false) ->
    exists h e, tranquilo (builtin_components X ch d (ft_w ft w) crit n_cores) O ft pad x r0 b = (h, Err e).
Proof.
  intros X ch d w ft crit nc O pad x r0 b zs lo hi ED HC Hd Hw Lx HB HN HD Hm Hc Hr MI HV.
  destruct (tranquilo _ O ft pad x r0 b) as [h [r|e]] eqn:E; [exfalso|eauto].
  assert (V : valid_run ft d w (builtin_components X ch d (ft_w ft w) crit nc) O pad x r0 b h r).
  { constructor; auto. now apply C140_builtin_components_good. }
  assert (L2 : 2 <= length (res_states r)).
  { open_run V. rewrite RS. cbn [length]. rewrite map_length. destruct EN; lia. }
  destruct (start_values X ch d w ft crit nc O pad x r0 b h r zs lo hi V HN HD Hm Hc Hr L2) as (l & _ & _ & _ & v & TE & Fv).
  rewrite (HV v TE) in Fv. discriminate.
Qed.

(** * Examples *)

(** The example of Prop_Builtin2 as a noisy problem: the acceptance step evaluates every point 2 to
    6 times, the start vector is evaluated 3 times. *)
Definition noisy_example : choices :=
  mkChoices Linear FitOls false AggLeastSquares FilKeep (SamOptimal None 1 None 1) SphReparametrized
    (CubBntr true true (CgPlain (/ 100000000) (/ 1000000)) (mkTols (/ 100000000) (/ 100000000) 0) 20 5)
    true (DecNoisy 2 2 6) 3 3 false 100 true.
Definition noisy_conf (k : nat) : config :=
  mkConfig true (mkConv false 0 0 0 0 0 0 0) (mkStop k 2000 PInf)
    (mkRadiusOptions (/ 1000000) 1000000 (1 / 10) (1 / 10) (1 / 2) 2 (1 / 2) PInf)
    (mkNoiseOptions (6 / 10) (1 / 10) (7 / 10) (9 / 10) 1 5 (1 / 10)) 1 4 (mkStag (1 / 8) true (1 / 20) 1 1)
    5 1 3 0.

Lemma noisy_example_ok : noisy_choices noisy_example.
Proof. constructor; cbn; [lia|lra|lia]. Qed.
Lemma noisy_conf_ok k : noisy_config (noisy_conf k).
Proof. constructor; [|reflexivity|cbn; lia|cbn; lia|cbn; lia]. constructor; cbn; try easy; try lia; lra. Qed.
Lemma ex_normal_works : normal_works (ex_ext ls).
Proof. intros t C k. cbn. apply repeat_length. Qed.

Example C179_instance : forall k, exists h r,
  tranquilo (builtin_components (ex_ext ls) noisy_example 2 3 ex_crit142 1) (noisy_conf k) LeastSquares 0
    [0; 0]%R 1 (Some b56) = (h, Ok r).
Proof.
  intros k. destruct b56_ok as (BD & NF & IB & TS).
  apply (C179_noisy_runs_succeed (ex_ext ls) noisy_example LeastSquares 2 3); auto; try easy.
  - apply ex_ext_dims.
  - apply ex_ext_works.
  - apply ex_normal_works.
  - apply noisy_example_ok.
  - apply noisy_conf_ok.
  - apply ex_crit142_good.
  - intros x v TE. exists (ex_res x). now apply ex_true_eval.
  - lra.
  - right. now left.
Qed.

(** A noisy run with at most ten iterations: no point is evaluated more than six times, accepted
    points at least twice. *)
Example C181_instance : exists h r,
  valid_run LeastSquares 2 3 (builtin_components (ex_ext ls) noisy_example 2 3 ex_crit142 1) (noisy_conf 10) 0
    [0; 0]%R 1 (Some b56) h r /\
  (forall i, i < get_n_xs h -> exists l, get_fvals_one h (Z.of_nat i) = Ok l /\ length l <= 6) /\
  forall s, In s (res_states r) -> exists l, get_fvals_one h (Z.of_nat (st_index s)) = Ok l /\ 2 <= length l.
Proof.
  destruct (C179_instance 10) as (h & r & E). exists h, r.
  assert (V : valid_run LeastSquares 2 3 (builtin_components (ex_ext ls) noisy_example 2 3 ex_crit142 1) (noisy_conf 10) 0
    [0; 0]%R 1 (Some b56) h r).
  { constructor; try easy. apply C140_builtin_components_good; [apply ex_ext_dims|apply ex_crit142_good]. }
  assert (HD : forall t v, exists z,
    k_decider (builtin_components (ex_ext ls) noisy_example 2 3 ex_crit142 1) t (Some v) = Noisy v z 2 6)
    by (intros; now exists 2%R).
  assert (NM : next_multiple 3 1 = 3%Z).
  { destruct (C35_next_multiple 3 1) as (_ & Q & _); lia. }
  split; [exact V|]. split.
  - apply (C181_evaluations_bounded _ _ _ _ _ _ _ _ _ _ _ _ _ _ 2 6 6 V eq_refl HD); try easy.
    unfold start_evals, noisy_conf. cbn [n_evals_at_start batch_size]. change (1 <? 3)%Z with true. cbv iota. rewrite NM. easy.
  - intros s Hs.
    destruct (C181_accepted_points_evaluated _ _ _ _ _ _ _ _ _ _ _ _ _ _ 2 6 V eq_refl HD ltac:(easy) s Hs) as (l & Q & Q0 & Q1).
    exists l. split; [exact Q|]. destruct (Nat.eq_dec (st_index s) 0) as [e|e].
    + specialize (Q0 e). cbn in Q0. lia.
    + specialize (Q1 e). lia.
Qed.

(** The start values of the example with two iterations are finite. *)
Example C180_finite_instance : exists h r l,
  tranquilo (builtin_components (ex_ext ls) noisy_example 2 3 ex_crit142 1) (noisy_conf 2) LeastSquares 0
    [0; 0]%R 1 (Some b56) = (h, Ok r) /\ 2 <= length (res_states r) /\
  get_fvals_one h 0 = Ok l /\ Forall (fun v => isfinite v = true) (firstn 3 l).
Proof.
  destruct (C179_instance 2) as (h & r & E). exists h, r.
  assert (V : valid_run LeastSquares 2 3 (builtin_components (ex_ext ls) noisy_example 2 3 ex_crit142 1) (noisy_conf 2) 0
    [0; 0]%R 1 (Some b56) h r).
  { constructor; try easy. apply C140_builtin_components_good; [apply ex_ext_dims|apply ex_crit142_good]. }
  assert (L2 : 2 <= length (res_states r)).
  { open_run V. rewrite RS. cbn [length]. rewrite map_length. cbn in EN. destruct EN; lia. }
  destruct (C180_start_values_finite (ex_ext ls) noisy_example 2 3 LeastSquares ex_crit142 1 (noisy_conf 2) 0 [0; 0]%R 1
    (Some b56) h r 2 2 6 V eq_refl eq_refl) as (l & Q1 & _ & Q3); try (cbn; lra); try (cbn; lia); auto.
  exists l. split; [exact E|]. now split.
Qed.

(** A residual that is infinite everywhere: the noisy run raises. *)
Definition inf_crit : criterion := fun _ args _ => Ok (map (fun _ => Ret (VV [PInf; Fin 0; Fin 0])) args)%R.
Example C180_raises_instance : exists h e,
  tranquilo (builtin_components (ex_ext ls) noisy_example 2 3 inf_crit 1) (noisy_conf 2) LeastSquares 0
    [0; 0]%R 1 (Some b56) = (h, Err e).
Proof.
  apply (C180_not_finite_start_raises (ex_ext ls) noisy_example 2 3 LeastSquares inf_crit 1 (noisy_conf 2) 0 [0; 0]%R 1
    (Some b56) 2 2 6); try easy; try (cbn; lra); try (cbn; lia).
  - apply ex_ext_dims.
  - intros h args cores _. eexists. split; [reflexivity|]. split; [apply map_length|].
    apply Forall_forall. intros o Ho. apply in_map_iff in Ho as (y & <- & _). reflexivity.
  - intros v (h & args & cores & outs & k & o & C & _ & _ & Ho & ->). unfold inf_crit in C.
    injection C as <-. rewrite nth_error_map in Ho. destruct (nth_error args k) as [y|]; [|discriminate].
    injection Ho as <-. reflexivity.
Qed.
