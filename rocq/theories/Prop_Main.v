(** Properties C78-C80: the main loop. *)
From Coq Require Import Reals List Arith ZArith Bool Lia Lra Sorting.Sorted.
From Verif Require Import Base XR Vec HistoryModel HistorySpec HistoryProofs WrapModel WrapProofs
  VolumeModel RegionModel AdjustModel AcceptModel FilterModel LogSpec LogProofs Prop_Region
  Prop_Adjust AcceptProofs Prop_Accept Prop_Filter MainModel MainProofs MainPhases MainLoop
  MainProgress.
Import ListNotations.
Open Scope nat_scope.

(** * Runs *)

(** A run of the optimizer that returns the result [r]; [h] is the history at its end.  The
    components are arbitrary, up to the shapes of their results. *)
Record valid_run {VM SM CV} (ft : functype) (d w : nat) (K : components VM SM CV) (O : config)
    (pad : R) (x : vec) (r0 : R) (b : option bounds) (h : hist) (r : result VM SM) : Prop := {
  vr_K : good_components ft d w K;
  vr_d : d <> 0;
  vr_w : w <> 0;
  vr_x : length x = d;
  vr_batch : (1 <= batch_size O)%Z;
  vr_run : tranquilo K O ft pad x r0 b = (h, Ok r)
}.

Ltac open_run H :=
  destruct (tranquilo_chain _ _ _ _ _ (vr_K _ _ _ _ _ _ _ _ _ _ _ H) _ _ _ _ _ _ (vr_d _ _ _ _ _ _ _ _ _ _ _ H)
    (vr_w _ _ _ _ _ _ _ _ _ _ _ H) (vr_x _ _ _ _ _ _ _ _ _ _ _ H) (vr_batch _ _ _ _ _ _ _ _ _ _ _ H)
    (vr_run _ _ _ _ _ _ _ _ _ _ _ H))
  as (reg & st0 & h0 & E0 & l & z & MR & L0 & T0 & MF0 & A0 & I0 & X0 & R0 & F0 & CI0 & CX0 & EV0 & VM0 &
      MI0 & NI0 & OU0 & OD0 & CH & Hz & GZ & RS & SX & SC & LL & NF & NC & EN).

(** * Example components: minimizing x^2 for one parameter *)

Definition ex_crit : criterion :=
  fun _ args _ => Ok (map (fun x => Ret (VS (Fin (hd 0 x * hd 0 x)))) args)%R.
Definition ex_solve (f : R -> R) (_ : unit) (reg : region) : res subsol :=
  Ok (mkSub (map f (r_center reg)) (Fin 1)).
Definition ex_components (f : R -> R) (D : nat -> option xr -> decider) (s : sampler)
    (crit : criterion) : components unit unit unit :=
  mkComp crit 1 (fun _ _ => tt) (fun _ _ _ _ => Ok tt) (fun _ => Ok tt) (ex_solve f)
    (fun _ => Fin 1) (fun _ _ => s) (fun _ _ _ _ xs is => Ok (xs, is)) D
    (fun _ _ => Ok (Fin 1)) (fun _ _ => Ok tt) (fun _ _ _ _ _ _ => Ok []).
Definition ex_config (max_iter : nat) (noisy : bool) (off : bool) : config :=
  mkConfig noisy (mkConv off (1/1000) (1/1000) (1/1000) (1/1000) (1/1000) (1/1000) (1/1000))
    (mkStop max_iter 100 PInf) default_radius_options
    (mkNoiseOptions 1 1 1 1 1 5 1) 1 3 (mkStag (1/2) true (1/2) 1 1) 4 1 1 0.

Lemma ex_crit_good : good_criterion Scalar 1 ex_crit.
Proof.
  intros h args cores _. eexists. split; [reflexivity|].
  split; [apply map_length|]. apply Forall_map, Forall_forall. easy.
Qed.

Lemma ex_components_good f D s crit : good_criterion Scalar 1 crit -> sampler_dim 1 s ->
  (forall t v, decider_dim 1 (D t v)) ->
  good_components Scalar 1 1 (ex_components f D s crit).
Proof.
  intros HC HS HD. split; cbn [ex_components k_crit k_sample k_solve k_filter k_decider]; auto.
  - intros sm reg s' Hc H. injection H as <-. cbn. now rewrite map_length.
  - intros h st target n xs is xs' is' HL ND H. injection H as <- <-. split; [easy|]. split; [easy|].
    apply incl_tl, incl_refl.
Qed.

Lemma ex_components_total f D s crit b :
  (forall h reg n m, length (r_center reg) = 1 -> exists xs, s h reg n m = Ok xs) ->
  (forall t v, D t v = Classic \/ exists sd, D t v = Noisy (Fin sd) 1 1 2 /\ (0 <= sd)%R) ->
  two_sided b -> bounds_dim 1 b ->
  total_components Scalar 1 b (ex_components f D s crit).
Proof.
  intros HS HD B1 B2. split; cbn; eauto.
  - intros sm reg. eexists. split; [reflexivity|]. discriminate.
  - intros t v. destruct (HD t v) as [->|(sd & -> & Hs)]; [easy|]. split; [eauto|lia].
Qed.

Lemma ex_config_good k noisy off : good_config (ex_config k noisy off).
Proof. split; cbn; try lia. Qed.

Lemma center_sampler_dim d : sampler_dim d center_sampler.
Proof.
  intros h reg n m xs Hc H. injection H as <-. apply Forall_forall. intros x Hx.
  apply repeat_spec in Hx. now subst.
Qed.

(** A run of the example with at least one iteration. *)
Lemma ex_run f D k noisy off b (x0 r0 : R) :
  (forall t v, D t v = Classic \/ exists sd, D t v = Noisy (Fin sd) 1 1 2 /\ (0 <= sd)%R) ->
  two_sided b -> bounds_dim 1 b ->
  exists h r, valid_run Scalar 1 1 (ex_components f D center_sampler ex_crit)
    (ex_config (S k) noisy off) 0 [x0] r0 b h r /\ 2 <= length (res_states r).
Proof.
  intros HD B1 B2.
  assert (GK : good_components Scalar 1 1 (ex_components f D center_sampler ex_crit)).
  { apply ex_components_good; [apply ex_crit_good|apply center_sampler_dim|].
    intros t v. destruct (HD t v) as [->|(sd & -> & _)]; exact I. }
  destruct (tranquilo_go Scalar 1 1 b _ (ex_config (S k) noisy off) GK
    (ex_components_total f D center_sampler ex_crit b ltac:(unfold center_sampler; eauto) HD B1 B2)
    (ex_config_good _ _ _) 0%R [x0] r0 ltac:(lia) ltac:(lia) eq_refl) as (h & r & H).
  assert (V : valid_run Scalar 1 1 (ex_components f D center_sampler ex_crit)
    (ex_config (S k) noisy off) 0 [x0] r0 b h r) by (split; auto; cbn; lia).
  exists h, r. split; [easy|]. open_run V. rewrite RS. cbn [length]. rewrite map_length.
  destruct EN; cbn in *; lia.
Qed.

(** * C78 - consistency of the states with the history *)

Theorem C78_states_are_consistent :
  forall VM SM CV ft d w (K : components VM SM CV) O pad x r0 b h r,
    valid_run ft d w K O pad x r0 b h r ->
    (forall s, In s (res_states r) ->
       get_xs_one h (Z.of_nat (st_index s)) = Ok (st_x s) /\
       get_xs_one h (Z.of_nat (st_candidate_index s)) = Ok (st_candidate_x s)) /\
    (exists s, nth_error (res_states r) 0 = Some s /\ st_x s = x /\ r_center (st_region s) = x) /\
    (forall i s s', nth_error (res_states r) i = Some s -> nth_error (res_states r) (S i) = Some s' ->
       r_center (st_region s') = st_x s /\
       (st_accepted s' = false -> st_x s' = st_x s /\ st_index s' = st_index s /\ st_fval s' = st_fval s)).
Proof.
  intros VM SM CV ft d w K O pad x r0 b h r V. open_run V.
  destruct (chain_prefix _ _ _ _ _ _ _ _ CH) as ((Xs & PX) & _ & PL). cbn [n_X] in PX.
  assert (LZ : haslog ft d w h (n_X z) (n_E z)) by (rewrite <- Hz; apply GZ).
  split; [|split].
  - intros s Hs. rewrite RS in Hs. destruct Hs as [<-|Hs].
    + rewrite I0, CI0. assert (N : nth_error (n_X z) 0 = Some x) by now rewrite PX.
      rewrite X0, CX0. split; eapply xs_one_log; eauto.
    + apply in_map_iff in Hs as ([a ap] & <- & Hs). simpl.
      destruct (PL _ _ Hs) as (b1 & LK & (X1 & EX) & _).
      destruct (link_agrees _ _ _ _ _ _ _ _ LK) as (G1 & G2 & _ & _ & G3 & G4).
      destruct (lk_b _ _ _ _ _ _ _ _ LK) as (_ & _ & [A1 A2]).
      assert (More : forall i y, nth_error (n_X b1) i = Some y -> nth_error (n_X z) i = Some y).
      { intros i y Hy. rewrite EX, nth_error_app1; [easy|]. apply nth_error_Some. congruence. }
      destruct (lk_ok _ _ _ _ _ _ _ _ LK) as [D HD].
      pose proof (dc_cand _ _ _ _ _ _ _ _ _ _ _ (io_decided _ _ _ _ _ _ _ _ _ HD)) as DC.
      split; eapply xs_one_log; eauto; apply More.
      * now rewrite <- G1, <- G2.
      * rewrite (io_ap _ _ _ _ _ _ _ _ _ HD). cbn.
        rewrite (io_X _ _ _ _ _ _ _ _ _ HD). rewrite <- app_assoc in DC. exact DC.
  - exists st0. rewrite RS. split; [easy|]. split; [easy|]. rewrite R0.
    now apply make_region_center in MR as (-> & _).
  - intros i s s' H1 H2. rewrite RS in H1, H2.
    destruct (consecutive _ _ _ _ _ st0 _ _ _ CH (agrees_refl _)) as [CS _].
    destruct (CS i s s' H1 H2) as (a1 & b1 & _ & LK & (G1 & G2 & G3 & _)).
    destruct (lk_ok _ _ _ _ _ _ _ _ LK) as [D HD].
    destruct (lk_a _ _ _ _ _ _ _ _ LK) as (_ & _ & [A1 A2]).
    rewrite (io_ap _ _ _ _ _ _ _ _ _ HD). cbn [update_state st_region st_accepted st_x st_index st_fval].
    split; [congruence|]. intros Ha.
    destruct (dc_rej _ _ _ _ _ _ _ _ _ _ _ (io_decided _ _ _ _ _ _ _ _ _ HD) Ha) as (-> & -> & ->).
    cbn. auto.
Qed.

(** The solution belongs to the last accepted state (the start counts as accepted); all later
    states were rejections. *)
Theorem C78_solution_is_last_accepted :
  forall VM SM CV ft d w (K : components VM SM CV) O pad x r0 b h r,
    valid_run ft d w K O pad x r0 b h r ->
    exists i s, nth_error (res_states r) i = Some s /\ (i = 0 \/ st_accepted s = true) /\
      (forall j s', i < j -> nth_error (res_states r) j = Some s' -> st_accepted s' = false) /\
      solution_x r = st_x s /\ solution_criterion r = st_fval s.
Proof.
  intros VM SM CV ft d w K O pad x r0 b h r V.
  pose proof (C78_states_are_consistent _ _ _ _ _ _ _ _ _ _ _ _ _ _ V) as (_ & _ & C).
  open_run V.
  destruct (consecutive _ _ _ _ _ st0 _ _ _ CH (agrees_refl _)) as [_ (s1 & Hs1 & (G1 & G2 & G3 & _))].
  rewrite <- RS in Hs1. rewrite SX, SC, G1, G3.
  assert (LN : length (res_states r) = S (length l)) by (rewrite RS; simpl; now rewrite map_length).
  clear - C Hs1 LN RS. revert s1 Hs1.
  assert (G : forall m s1, m <= length l -> nth_error (res_states r) m = Some s1 ->
    exists i s, nth_error (res_states r) i = Some s /\ (i = 0 \/ st_accepted s = true) /\ i <= m /\
      (forall j s', i < j <= m -> nth_error (res_states r) j = Some s' -> st_accepted s' = false) /\
      st_x s1 = st_x s /\ st_fval s1 = st_fval s).
  { induction m as [|m IH]; intros s1 Hm Hs1.
    - exists 0, s1. repeat split; auto. intros; lia.
    - destruct (st_accepted s1) eqn:Ea.
      + exists (S m), s1. repeat split; auto. intros; lia.
      + destruct (nth_error (res_states r) m) as [s0|] eqn:E0.
        2:{ apply nth_error_None in E0. lia. }
        destruct (C m s0 s1 E0 Hs1) as [_ C']. destruct (C' Ea) as (C1 & C2 & C3).
        destruct (IH s0 ltac:(lia) eq_refl) as (i & s & H1 & H2 & H3 & H4 & H5 & H6).
        exists i, s. repeat split; auto; try congruence. intros j s' Hj Hn.
        destruct (Nat.eq_dec j (S m)) as [->|]; [congruence|]. apply (H4 j); auto. lia. }
  intros s1 Hs1. destruct (G _ s1 (le_n _) Hs1) as (i & s & H1 & H2 & H3 & H4 & H5 & H6).
  exists i, s. repeat split; auto. intros j s' Hj Hn. apply (H4 j); auto. split; [easy|].
  assert (j < length (res_states r)) by (apply nth_error_Some; congruence). lia.
Qed.

Example C78_instance : exists h r,
  valid_run Scalar 1 1 (ex_components (fun c => c / 2)%R (fun _ _ => Classic) center_sampler ex_crit)
    (ex_config 3 false true) 0 [3%R] 1 None h r /\ 2 <= length (res_states r).
Proof. apply ex_run; cbn; auto. Qed.

(** * C79 - stopping rules *)

(** [EvFound h' _] is the first event of an iteration, so [h'] is the history at the
    beginning of that iteration. *)
Theorem C79_iterations_and_budget :
  forall VM SM CV ft d w (K : components VM SM CV) O pad x r0 b h r,
    valid_run ft d w K O pad x r0 b h r ->
    length (res_states r) <= S (max_iter (stop_o O)) /\
    (* fewer than max_eval evaluations at the beginning of the second, third, ... iteration *)
    (forall i s, nth_error (res_states r) (S (S i)) = Some s ->
       exists h' found evs, st_events s = EvFound h' found :: evs /\
         (Z.of_nat (get_n_fun h') < max_eval (stop_o O))%Z) /\
    (* a run that ends early has converged or exhausted the budget *)
    (length (res_states r) < S (max_iter (stop_o O)) ->
       res_converged r = true \/
       (res_message r = Some MsgMaxEval /\ (max_eval (stop_o O) <= Z.of_nat (get_n_fun h))%Z)).
Proof.
  intros VM SM CV ft d w K O pad x r0 b h r V. open_run V.
  assert (LN : length (res_states r) = S (length l)) by (rewrite RS; simpl; now rewrite map_length).
  split; [lia|]. split.
  - intros i s Hs. rewrite RS in Hs.
    change (nth_error (map snd l) (S i) = Some s) in Hs. rewrite nth_error_map in Hs.
    destruct (nth_error l (S i)) as [[a ap]|] eqn:El; [|discriminate]. simpl in Hs. injection Hs as <-.
    specialize (NF _ _ El). cbn [fst] in NF.
    destruct (chain_links _ _ _ _ _ _ _ _ CH _ _ _ El) as (b1 & LK & _).
    destruct (lk_ok _ _ _ _ _ _ _ _ LK) as [D HD].
    rewrite (io_ap _ _ _ _ _ _ _ _ _ HD). cbn [update_state st_events].
    rewrite (io_events _ _ _ _ _ _ _ _ _ HD).
    destruct (ff_events _ _ _ _ _ _ _ _ _ _ _ _ _ _ _ (io_first _ _ _ _ _ _ _ _ _ HD))
      as (hh & xs & fv & o & ->).
    cbn [app]. eauto.
  - intros Hlt. destruct EN; auto. lia.
Qed.

Example C79_instance : exists h r,
  valid_run Scalar 1 1 (ex_components (fun c => c / 2)%R (fun _ _ => Classic) center_sampler ex_crit)
    (ex_config 5 false false) 0 [3%R] 1 ex_bounds h r /\ 2 <= length (res_states r).
Proof. apply ex_run; cbn; auto; apply ex_bounds_ok. Qed.

(** * C80 - monotonicity *)

Definition no_reevaluation (D : decider) : Prop :=
  match D with Noisy _ _ _ _ => False | _ => True end.

Lemma accepted_not_worse f ref mi : (0 <= mi)%R -> isfinite f = true ->
  xge (xopp (xsub f ref)) (Fin mi) = true -> xle f ref = true.
Proof.
  intros Hm Hf H. destruct f as [f| | |]; try discriminate. clear Hf.
  destruct ref as [v| | |]; cbn in H; try discriminate; auto.
  unfold xle, xge in *. cbn in *. apply Rleb_true in H. apply Rleb_true. lra.
Qed.
Lemma xle_not_nan a : a <> NaN -> xle a a = true.
Proof. destruct a; try easy. intros _. unfold xle. cbn. apply Rleb_true. lra. Qed.
Lemma xle_trans3 a b c : xle a b = true -> xle b c = true -> xle a c = true.
Proof.
  destruct a, b, c; cbn; auto; try discriminate. rewrite !Rleb_true. lra.
Qed.

Theorem C80_values_do_not_increase :
  forall VM SM CV ft d w (K : components VM SM CV) O pad x r0 b h r,
    valid_run ft d w K O pad x r0 b h r ->
    (forall t v, no_reevaluation (k_decider K t v)) -> (0 <= min_improvement O)%R ->
    forall s0, nth_error (res_states r) 0 = Some s0 -> st_fval s0 <> NaN ->
    (forall i s s', nth_error (res_states r) i = Some s -> nth_error (res_states r) (S i) = Some s' ->
       xle (st_fval s') (st_fval s) = true) /\
    xle (solution_criterion r) (st_fval s0) = true.
Proof.
  intros VM SM CV ft d w K O pad x r0 b h r V HD HM s0 Hs0 HN. open_run V.
  rewrite RS in Hs0. injection Hs0 as <-.
  set (P := fun s : snap (VM:=VM) (SM:=SM) => st_fval (n_st s) <> NaN /\ xle (st_fval (n_st s)) (st_fval st0) = true).
  assert (Step : forall a ap c, link ft d w K O a ap c -> st_fval (n_st a) <> NaN ->
            st_fval ap <> NaN /\ xle (st_fval ap) (st_fval (n_st a)) = true).
  { intros a ap c LK Ha. destruct (lk_ok _ _ _ _ _ _ _ _ LK) as [D HI].
    pose proof (io_decided _ _ _ _ _ _ _ _ _ HI) as DC.
    rewrite (io_ap _ _ _ _ _ _ _ _ _ HI). cbn [update_state st_fval].
    destruct (a_accepted (i_acc D)) eqn:Ea.
    - destruct (dc_acc _ _ _ _ _ _ _ _ _ _ _ DC Ea) as (_ & _ & _ & Hf & Hx).
      split; [intros Hn; rewrite Hn in Hf; discriminate|].
      specialize (HD (n_t a) (i_var D)).
      assert (RR : reference ft (k_decider K (n_t a) (i_var D)) (cur_of (n_st a))
                ((n_E a ++ i_E1 D ++ i_E3 D) ++ i_E2 D) = st_fval (n_st a)).
      { destruct (k_decider K (n_t a) (i_var D)); try reflexivity. easy. }
      rewrite RR in Hx. eapply accepted_not_worse; eauto.
    - destruct (dc_rej _ _ _ _ _ _ _ _ _ _ _ DC Ea) as (_ & -> & _). cbn.
      split; [easy|]. now apply xle_not_nan. }
  destruct (chain_inv _ _ _ _ _ P _ _ _ CH) as [PZ PL].
  { split; cbn; auto. now apply xle_not_nan. }
  { intros a ap c LK [P1 P2]. destruct (Step _ _ _ LK P1) as [S1 S2].
    destruct (link_agrees _ _ _ _ _ _ _ _ LK) as (_ & _ & G & _). split.
    - now rewrite G.
    - rewrite G. eapply xle_trans3; eauto. }
  split.
  - intros i s s' H1 H2. rewrite RS in H1, H2.
    destruct (consecutive _ _ _ _ _ st0 _ _ _ CH (agrees_refl _)) as [CS _].
    destruct (CS i s s' H1 H2) as (a1 & b1 & Hl & LK & (_ & _ & G3 & _)).
    apply nth_error_In in Hl. destruct (PL _ _ Hl) as [P1 _].
    destruct (Step _ _ _ LK P1) as [_ S2]. congruence.
  - rewrite SC. apply PZ.
Qed.

Example C80_instance : exists h r,
  valid_run Scalar 1 1 (ex_components (fun c => c / 2)%R (fun _ _ => Classic) center_sampler ex_crit)
    (ex_config 5 false true) 0 [3%R] 1 None h r /\ 2 <= length (res_states r) /\
  exists s0, nth_error (res_states r) 0 = Some s0 /\ st_fval s0 <> NaN.
Proof.
  destruct (ex_run (fun c => c / 2)%R (fun _ _ => Classic) 4 false true None 3 1) as (h & r & V & L);
    cbn; auto.
  exists h, r. split; [easy|]. split; [easy|]. open_run V.
  exists st0. rewrite RS. split; [easy|]. rewrite F0.
  destruct E0 as [|[i v] E0]; [easy|]. destruct E0; [|easy]. injection MF0 as ->.
  destruct (T0 0 v ltac:(simpl; auto)) as (y & _ & (hh & args & cores & outs & k & o & C & _ & _ & Ho & ->)).
  injection C as <-. rewrite nth_error_map in Ho. destruct (nth_error args k); [|discriminate].
  injection Ho as <-. unfold mean_of, fvals_of. cbn [evals_of filter map fst snd Nat.eqb recorded].
  rewrite xmean_one. discriminate.
Qed.
