(** C143, C144: the plots of the runs of tranquilo itself. *)
From Coq Require Import Reals List Arith ZArith Bool Lia Lra Sorting.Sorted.
From Verif Require Import Base XR Vec HistoryModel HistorySpec HistoryProofs WrapModel WrapProofs
  VolumeModel RegionModel AdjustModel AcceptModel FilterModel LogSpec LogProofs AcceptProofs Prop_Adjust
  Prop_Accept MainModel MainProofs MainPhases MainLoop MainProgress Prop_Main Prop_Main2 Prop_Builtin2
  VisualizeModel Prop_Visualize.
Import ListNotations.
Open Scope nat_scope.

(** * The points in the order of their evaluation *)

(** The rows of result.history["params"]: row [k] is the point of evaluation number [k]. *)
Definition evaluated_points (h : hist) (P : list (list xr)) : Prop :=
  length P = h_nfun h /\
  forall i ks x, nth_error (h_map h) i = Some ks -> get_xs_one h (Z.of_nat i) = Ok x ->
    forall k, In k ks -> nth_error P k = Some (map Fin x).

Lemma In_pos_from A i (E : list (nat * A)) : forall k j,
  In j (pos_from k i E) <-> k <= j /\ nth_error (map fst E) (j - k) = Some i.
Proof.
  induction E as [|e E IH]; intros k j; simpl.
  - split; [easy|]. intros [_ H]. destruct (j - k); discriminate.
  - assert (Q : In j (pos_from (S k) i E) <-> S k <= j /\ nth_error (map fst E) (j - S k) = Some i) by apply IH.
    destruct (Nat.eqb_spec (fst e) i) as [->|N]; [simpl|]; rewrite Q.
    + split.
      * intros [<-|[H1 H2]]; [rewrite Nat.sub_diag; auto|]. split; [lia|].
        replace (j - k) with (S (j - S k)) by lia. easy.
      * intros [H1 H2]. destruct (Nat.eq_dec k j) as [|NE]; [auto|]. right. split; [lia|].
        replace (j - k) with (S (j - S k)) in H2 by lia. easy.
    + split.
      * intros [H1 H2]. split; [lia|]. replace (j - k) with (S (j - S k)) by lia. easy.
      * intros [H1 H2]. destruct (Nat.eq_dec k j) as [->|NE].
        -- rewrite Nat.sub_diag in H2. simpl in H2. injection H2 as H2. now elim N.
        -- split; [lia|]. replace (j - k) with (S (j - S k)) in H2 by lia. easy.
Qed.

Definition points_of (X : list vec) (E : list (nat * list xr)) : list (list xr) :=
  map (fun e => map Fin (nth (fst e) X [])) E.

Lemma evaluated_points_log ft d w h X E P : haslog ft d w h X E ->
  evaluated_points h P <-> P = points_of X E.
Proof.
  intros HL. destruct (haslog_rep _ _ _ _ _ _ HL) as [HR _].
  assert (PN : forall k, nth_error (points_of X E) k =
    option_map (fun i => map Fin (nth i X [])) (nth_error (map fst E) k)).
  { intros k. unfold points_of. rewrite !nth_error_map. now destruct (nth_error E k). }
  split.
  - intros [HP1 HP2]. apply nth_error_ext. intros k. rewrite PN.
    destruct (nth_error (map fst E) k) as [i|] eqn:Ei; cbn [option_map].
    + assert (Hi : i < length X).
      { pose proof (rep_ei _ _ _ _ _ HR) as B. rewrite Forall_forall in B.
        rewrite nth_error_map in Ei. destruct (nth_error E k) as [e|] eqn:Ee; [|discriminate].
        injection Ei as <-. apply B. eapply nth_error_In; eauto. }
      apply (HP2 i (pos_from 0 i E)).
      * now apply (rep_map _ _ _ _ _ HR).
      * eapply xs_one_log; [exact HL|]. now apply nth_error_nth'.
      * apply In_pos_from. rewrite Nat.sub_0_r. split; [lia|easy].
    + apply nth_error_None. apply nth_error_None in Ei. rewrite map_length in Ei.
      rewrite HP1, (rep_nfun _ _ _ _ _ HR). easy.
  - intros ->. split; [unfold points_of; rewrite map_length; symmetry; apply (rep_nfun _ _ _ _ _ HR)|].
    intros i ks x Hm Hx k Hk.
    assert (Hi : i < length X).
    { rewrite <- (rep_lenm _ _ _ _ _ HR). apply nth_error_Some. congruence. }
    rewrite (rep_map _ _ _ _ _ HR i Hi) in Hm. injection Hm as <-.
    apply In_pos_from in Hk as [_ Hk]. rewrite Nat.sub_0_r in Hk. rewrite PN, Hk. cbn [option_map].
    rewrite (xs_one_log _ _ _ _ _ _ i (nth i X []) HL (nth_error_nth' X [] Hi)) in Hx. congruence.
Qed.

(** * C143 - one evaluation per point, in the order of the history *)

Lemma run_in_order VM SM CV ft d w (K : components VM SM CV) O pad x r0 b h r :
  valid_run ft d w K O pad x r0 b h r ->
  noisy O = false -> n_evals_per_point0 O = 1%Z -> (n_evals_at_start O <= 1)%Z ->
  (forall t v, no_reevaluation (k_decider K t v) /\ k_decider K t v <> NaiveNoisy) ->
  exists X E, haslog ft d w h X E /\ map fst E = seq 0 (length X) /\
    forall s, In s (res_states r) ->
      Forall (fun i => i < length X) (st_model_indices s ++ st_old_indices_discarded s).
Proof.
  intros V HQ HN HS HD. open_run V.
  destruct (Z.ltb_spec 1 (n_evals_at_start O)) as [Hs|_]; [lia|]. simpl in MF0.
  assert (HD1 : forall t v, no_reevaluation (k_decider K t v)) by (intros; apply HD).
  destruct (chain_inv _ _ _ _ _ (fun s => mean_inv ft s /\ map fst (n_E s) = seq 0 (length (n_X s)))
              _ _ _ CH) as [[_ ZO] _].
  { split; [|now cbn [n_X n_E]].
    split; [easy|]. cbn [n_X n_E n_st]. split; [|now rewrite I0].
    intros i Hi. rewrite (start_single _ _ _ _ _ _ L0 MF0 i Hi). lia. }
  { intros s ap c LK (HP & HO). destruct (link_mean _ _ _ _ _ _ _ _ HQ HD1 LK HP) as [M1 _].
    split; [easy|]. destruct HP as (P1 & P2 & _). destruct (lk_ok _ _ _ _ _ _ _ _ LK) as [D HI].
    pose proof (link_one_eval _ _ _ _ _ _ _ _ _ HI (lk_a _ _ _ _ _ _ _ _ LK) P1 P2) as MF.
    pose proof (io_decided _ _ _ _ _ _ _ _ _ HI) as DC.
    assert (M2 : map fst (i_E2 D) = seq (length (n_X s ++ i_X1 D ++ i_X3 D)) (length (i_X2 D))).
    { destruct (HD (n_t s) (i_var D)) as [D1 D2].
      destruct (k_decider K (n_t s) (i_var D)) eqn:ED; try easy.
      - rewrite (dc_classic _ _ _ _ _ _ _ _ _ _ _ DC eq_refl).
        now rewrite (dc_newX _ _ _ _ _ _ _ _ _ _ _ DC I).
      - exact (dc_line _ _ _ _ _ _ _ _ _ _ _ DC _ _ _ eq_refl). }
    rewrite (io_E _ _ _ _ _ _ _ _ _ HI), (io_X _ _ _ _ _ _ _ _ _ HI).
    rewrite map_app, (map_app _ (i_E1 D ++ i_E3 D)), HO, MF, M2.
    rewrite !app_length, <- !seq_app. reflexivity. }
  destruct GZ as (GL & _). rewrite Hz in GL. exists (n_X z), (n_E z). split; [easy|]. split; [easy|].
  destruct (chain_prefix _ _ _ _ _ _ _ _ CH) as ((X' & EX) & _ & PF). cbn [n_X] in EX.
  intros s Hs. rewrite RS in Hs. destruct Hs as [<-|Hs].
  { rewrite MI0, OD0, EX. simpl. constructor; [lia|constructor]. }
  apply in_map_iff in Hs as ([a ap] & <- & Hs). cbn [snd].
  destruct (PF _ _ Hs) as (c & LK & (X1 & EX1) & _).
  destruct (lk_ok _ _ _ _ _ _ _ _ LK) as [D HI]. rewrite (io_ap _ _ _ _ _ _ _ _ _ HI).
  cbn [update_state st_model_indices st_old_indices_discarded].
  rewrite EX1, (io_X _ _ _ _ _ _ _ _ _ HI). apply Forall_app. split.
  - eapply Forall_impl; [|exact (gw_lt _ _ _ _ _ _ _ _ _ (io_work _ _ _ _ _ _ _ _ _ HI))].
    intros i Hi. rewrite !app_length in *. lia.
  - apply Forall_forall. intros i Hi. apply In_setdiff in Hi as [Hi _].
    apply (ff_old _ _ _ _ _ _ _ _ _ _ _ _ _ _ _ (io_first _ _ _ _ _ _ _ _ _ HI)) in Hi as (y & Hy & _).
    assert (i < length (n_X a)) by (apply nth_error_Some; congruence). rewrite !app_length. lia.
Qed.

Theorem C143_evaluated_in_order :
  forall VM SM CV ft d w (K : components VM SM CV) O pad x r0 b h r,
    valid_run ft d w K O pad x r0 b h r ->
    noisy O = false -> n_evals_per_point0 O = 1%Z -> (n_evals_at_start O <= 1)%Z ->
    (forall t v, no_reevaluation (k_decider K t v) /\ k_decider K t v <> NaiveNoisy) ->
    h_nfun h = h_nxs h /\
    (forall k, k < h_nxs h -> nth_error (h_map h) k = Some [k]) /\
    forall P k y, evaluated_points h P ->
      (get_xs_one h (Z.of_nat k) = Ok y /\ k < h_nxs h <-> nth_error P k = Some (map Fin y)).
Proof.
  intros VM SM CV ft d w K O pad x r0 b h r V HQ HN HS HD.
  destruct (run_in_order _ _ _ _ _ _ _ _ _ _ _ _ _ _ V HQ HN HS HD) as (X & E & HL & HO & _).
  destruct (haslog_rep _ _ _ _ _ _ HL) as [HR _].
  assert (LE : length E = length X) by (rewrite <- (map_length fst), HO; apply seq_length).
  split; [|split].
  - rewrite (rep_nfun _ _ _ _ _ HR), (rep_nxs _ _ _ _ _ HR). easy.
  - intros k Hk. rewrite (rep_nxs _ _ _ _ _ HR) in Hk. rewrite (rep_map _ _ _ _ _ HR k Hk). f_equal.
    assert (G : forall (E : list (nat * list xr)) m n, map fst E = seq m n -> m <= k < m + n -> pos_from m k E = [k]).
    { assert (G0 : forall (E : list (nat * list xr)) m n, map fst E = seq m n -> k < m -> pos_from m k E = []).
      { induction E0 as [|e E0 IH]; intros m n H Hm; [easy|]. destruct n; [discriminate|]. simpl in H.
        injection H as H1 H2. simpl. destruct (Nat.eqb_spec (fst e) k); [lia|]. apply (IH (S m) n); [easy|lia]. }
      induction E0 as [|e E0 IH]; intros m n H Hm.
      - destruct n; [lia|discriminate].
      - destruct n; [lia|]. simpl in H. injection H as H1 H2. simpl.
        destruct (Nat.eqb_spec (fst e) k) as [Q|Q].
        + replace m with k by lia. f_equal. apply (G0 _ _ n); [now replace (S k) with (S m) by lia|lia].
        + apply (IH (S m) n); [easy|lia]. }
    apply (G E 0 (length X)); [easy|lia].
  - intros P k y HP. apply (evaluated_points_log _ _ _ _ _ _ _ HL) in HP. subst P.
    unfold points_of. rewrite nth_error_map, (rep_nxs _ _ _ _ _ HR).
    assert (Q : nth_error (map fst E) k = if k <? length X then Some k else None).
    { rewrite HO. destruct (Nat.ltb_spec k (length X)).
      - rewrite (nth_error_nth' _ 0) by now rewrite seq_length. now rewrite seq_nth.
      - apply nth_error_None. now rewrite seq_length. }
    rewrite nth_error_map in Q. destruct (Nat.ltb_spec k (length X)) as [Hk|Hk].
    + destruct (nth_error E k) as [e|]; [|discriminate]. injection Q as Q. cbn [option_map]. rewrite Q.
      rewrite (xs_one_log _ _ _ _ _ _ k (nth k X []) HL (nth_error_nth' X [] Hk)).
      split; [intros [H _]; congruence|]. intros H. injection H as H. split; [|easy]. f_equal.
      revert H. generalize (nth k X []). intros l. revert y. induction l as [|v l IH]; intros [|v' y]; try discriminate; [easy|].
      intros H. injection H as -> H. f_equal. now apply IH.
    + destruct (nth_error E k) as [e|]; [discriminate|]. cbn. split; [lia|discriminate].
Qed.

Example C143_instance : exists h r,
  valid_run Scalar 1 1 (ex_components (fun c => c / 2)%R (fun _ _ => Classic) center_sampler ex_crit)
    (ex_config 5 false true) 0 [3%R] 1 None h r /\ 2 <= length (res_states r) /\
  nth_error (h_map h) 0 = Some [0] /\ h_nfun h = h_nxs h.
Proof.
  destruct (ex_run (fun c => c / 2)%R (fun _ _ => Classic) 4 false true None 3 1) as (h & r & V & L);
    cbn; auto.
  exists h, r. split; [easy|]. split; [easy|].
  destruct (C143_evaluated_in_order _ _ _ _ _ _ _ _ _ _ _ _ _ _ V eq_refl eq_refl ltac:(cbn; lia)
    ltac:(intros; split; [exact I|discriminate])) as (N & M & _). split; [apply (M 0)|easy].
  open_run V. destruct GZ as (GL & _). rewrite Hz in GL. destruct (haslog_rep _ _ _ _ _ _ GL) as [HR _].
  rewrite (rep_nxs _ _ _ _ _ HR). destruct (chain_prefix _ _ _ _ _ _ _ _ CH) as ((X' & ->) & _).
  simpl. lia.
Qed.

(** * C144 - the points of the plots of a run *)

Theorem C144_run_partial :
  forall VM SM CV ft d w (K : components VM SM CV) O pad x r0 b h r,
    valid_run ft d w K O pad x r0 b h r ->
    noisy O = false -> n_evals_per_point0 O = 1%Z -> (n_evals_at_start O <= 1)%Z ->
    (forall t v, no_reevaluation (k_decider K t v) /\ k_decider K t v <> NaiveNoisy) ->
    forall P s v, evaluated_points h P -> In s (res_states r) ->
      v_model_indices v = st_model_indices s -> v_new_indices v = st_new_indices s ->
      v_old_used v = st_old_indices_used s -> v_discarded v = Some (st_old_indices_discarded s) ->
      exists df, get_sample_points v P = Ok df /\
        map (fun row => fst (fst row)) df = st_model_indices s ++ st_old_indices_discarded s /\
        forall i p c, In (i, p, c) df ->
          (exists y, get_xs_one h (Z.of_nat i) = Ok y /\ p = map Fin y) /\
          (c = Some CNew /\ In i (st_new_indices s) \/ c = Some CExisting /\ In i (st_old_indices_used s) \/
           c = Some CDiscarded /\ In i (st_old_indices_discarded s)).
Proof.
  intros VM SM CV ft d w K O pad x r0 b h r V HQ HN HS HD P s v HP Hs V1 V2 V3 V4.
  destruct (run_in_order _ _ _ _ _ _ _ _ _ _ _ _ _ _ V HQ HN HS HD) as (X & E & HL & HO & HB).
  destruct (C83_index_sets _ _ _ _ _ _ _ _ _ _ _ _ _ _ V) as [I1 I2].
  specialize (I1 s Hs) as (_ & _ & _ & DJ & PT). specialize (HB s Hs).
  assert (DD : forall i, ~ (In i (st_model_indices s) /\ In i (st_old_indices_discarded s))).
  { apply In_nth_error in Hs as [[|k] Hk].
    - destruct (tranquilo_chain _ _ _ _ _ (vr_K _ _ _ _ _ _ _ _ _ _ _ V) _ _ _ _ _ _
        (vr_d _ _ _ _ _ _ _ _ _ _ _ V) (vr_w _ _ _ _ _ _ _ _ _ _ _ V) (vr_x _ _ _ _ _ _ _ _ _ _ _ V)
        (vr_batch _ _ _ _ _ _ _ _ _ _ _ V) (vr_run _ _ _ _ _ _ _ _ _ _ _ V))
        as (reg & st0 & h0 & E0 & l & z & _ & _ & _ & _ & _ & _ & _ & _ & _ & _ & _ & _ & _ &
            _ & _ & _ & OD0 & _ & _ & _ & RS & _).
      rewrite RS in Hk. injection Hk as <-. rewrite OD0. intros i [_ []].
    - destruct (nth_error (res_states r) k) as [s'|] eqn:Ek.
      2:{ apply nth_error_None in Ek. assert (S k < length (res_states r)) by (apply nth_error_Some; congruence). lia. }
      destruct (I2 k s' s Ek Hk) as (_ & found & _ & _ & _ & J1 & J2 & J3).
      intros i [Hm Hd]. apply PT in Hm as [Hm|Hm]; [|now apply (J1 i)].
      apply (J3 i Hm). apply J2. auto. }
  destruct (C144_frame v P (st_old_indices_discarded s)) as (df & G1 & G2 & G3).
  - auto.
  - rewrite V1. apply (evaluated_points_log _ _ _ _ _ _ _ HL) in HP. subst P. unfold points_of.
    rewrite map_length, <- (map_length fst E), HO, seq_length. exact HB.
  - rewrite V1, V2, V3. exact PT.
  - rewrite V2, V3. exact DJ.
  - rewrite V1. exact DD.
  - exists df. rewrite V1 in G2. split; [easy|]. split; [easy|]. intros i p c Hin.
    destruct (G3 i p c Hin) as [Hp Hc]. rewrite V2, V3 in Hc. split; [|easy].
    assert (Hi : i < length X).
    { rewrite Forall_forall in HB. apply HB. rewrite <- G2.
      apply (in_map (fun row : nat * list xr * option vcase => fst (fst row)) _ _ Hin). }
    exists (nth i X []). split; [eapply xs_one_log; [exact HL|]; now apply nth_error_nth'|].
    destruct (haslog_rep _ _ _ _ _ _ HL) as [HR _].
    destruct (C143_evaluated_in_order _ _ _ _ _ _ _ _ _ _ _ _ _ _ V HQ HN HS HD) as (_ & _ & C).
    destruct (C P i (nth i X []) HP) as [C1 _]. rewrite C1 in Hp; [congruence|].
    split; [|now rewrite (rep_nxs _ _ _ _ _ HR)].
    eapply xs_one_log; [exact HL|]. now apply nth_error_nth'.
Qed.

Example C144_instance : exists h r P s v df,
  valid_run Scalar 1 1 (ex_components (fun c => c / 2)%R (fun _ _ => Classic) center_sampler ex_crit)
    (ex_config 5 false true) 0 [3%R] 1 None h r /\ evaluated_points h P /\
  In s (res_states r) /\ s <> hd s (res_states r) /\ get_sample_points v P = Ok df /\
  map (fun row => fst (fst row)) df = st_model_indices s ++ st_old_indices_discarded s /\
  forall i p c, In (i, p, c) df -> exists y, get_xs_one h (Z.of_nat i) = Ok y /\ p = map Fin y.
Proof.
  destruct (ex_run (fun c => c / 2)%R (fun _ _ => Classic) 4 false true None 3 1) as (h & r & V & L);
    cbn; auto.
  assert (HD : forall t v, no_reevaluation (k_decider (ex_components (fun c => c / 2)%R (fun _ _ => Classic)
    center_sampler ex_crit) t v) /\ k_decider (ex_components (fun c => c / 2)%R (fun _ _ => Classic)
    center_sampler ex_crit) t v <> NaiveNoisy) by (intros; split; [exact I|discriminate]).
  destruct (run_in_order _ _ _ _ _ _ _ _ _ _ _ _ _ _ V eq_refl eq_refl ltac:(cbn; lia) HD) as (X & E & HL & _).
  destruct (nth_error (res_states r) 1) as [s|] eqn:Es; [|apply nth_error_None in Es; lia].
  assert (HP : evaluated_points h (points_of X E)) by now apply (evaluated_points_log _ _ _ _ _ _ _ HL).
  set (v := mkVState [] 0 [] NaN [] (st_model_indices s) (st_new_indices s) (st_old_indices_used s)
              (Some (st_old_indices_discarded s)) 0).
  destruct (C144_run_partial _ _ _ _ _ _ _ _ _ _ _ _ _ _ V eq_refl eq_refl ltac:(cbn; lia) HD _ s v HP
     (nth_error_In _ _ Es) eq_refl eq_refl eq_refl eq_refl) as (df & G1 & G2 & G3).
  exists h, r, (points_of X E), s, v, df. split; [easy|]. split; [easy|]. split; [eapply nth_error_In; eauto|].
  split; [|split; [easy|split; [easy|intros i p c Hin; apply (G3 i p c Hin)]]].
  open_run V. rewrite RS in *. cbn [hd]. intros Hs. change (nth_error (map snd l) 0 = Some s) in Es.
  rewrite nth_error_map in Es.
  destruct (nth_error l 0) as [[a ap]|] eqn:El; [|discriminate]. cbn in Es. injection Es as ->.
  destruct (chain_links _ _ _ _ _ _ _ _ CH _ _ _ El) as (c & LK & _).
  destruct (lk_ok _ _ _ _ _ _ _ _ LK) as [D HI]. rewrite (io_ap _ _ _ _ _ _ _ _ _ HI) in Hs.
  pose proof (f_equal (@st_events unit unit) Hs) as Q. cbn [update_state st_events] in Q. rewrite EV0 in Q.
  destruct (gw_last _ _ _ _ _ _ _ _ _ (io_work _ _ _ _ _ _ _ _ _ HI)) as [evs Hw]. rewrite Hw in Q.
  now destruct evs.
Qed.

(** Several evaluations at the start, as in all runs with a noisy criterion and default options:
    the rows of the parameter history are no longer the rows of the points of tranquilo, and the
    plots show other points. *)
Definition shift_sampler : sampler := fun _ reg n _ => Ok (repeat (map (fun c => c + 1)%R (r_center reg)) n).
Definition twice_config : config :=
  mkConfig false (mkConv true 0 0 0 0 0 0 0) (mkStop 1 100 PInf) default_radius_options
    (mkNoiseOptions 1 1 1 1 1 5 1) 1 2 (mkStag 0 true 0 1 1) 4 1 2 0.
Definition twice_components := ex_components (fun c => c)%R (fun _ _ => Classic) shift_sampler ex_crit.

Lemma relative_step_nonneg a r : (0 <= a)%R -> (0 < r)%R -> xlt (xdiv (Fin a) (Fin r)) (Fin 0) = false.
Proof.
  intros Ha Hr. unfold xdiv. replace (Reqb r 0) with false by (symmetry; apply Reqb_false; lra). cbn [xlt].
  apply Rltb_false. apply Rmult_le_pos; [easy|]. left. now apply Rinv_0_lt_compat.
Qed.

Lemma chain_first VM SM CV ft d w (K : components VM SM CV) O a s ap l z :
  chain ft d w K O a ((s, ap) :: l) z -> s = a /\ exists c, link ft d w K O a ap c /\ chain ft d w K O c l z.
Proof. intros H. inversion H; subst. eauto. Qed.

Theorem C144_run_refuted :
  exists VM SM CV ft d w (K : components VM SM CV) O pad x r0 b h r P s v df i p c y,
    valid_run ft d w K O pad x r0 b h r /\
    noisy O = false /\ n_evals_per_point0 O = 1%Z /\
    (forall t v, no_reevaluation (k_decider K t v) /\ k_decider K t v <> NaiveNoisy) /\
    evaluated_points h P /\ In s (res_states r) /\
    v_model_indices v = st_model_indices s /\ v_new_indices v = st_new_indices s /\
    v_old_used v = st_old_indices_used s /\ v_discarded v = Some (st_old_indices_discarded s) /\
    get_sample_points v P = Ok df /\ In (i, p, c) df /\ c = Some CNew /\
    get_xs_one h (Z.of_nat i) = Ok y /\ p <> map Fin y.
Proof.
  assert (GK : good_components Scalar 1 1 twice_components).
  { apply ex_components_good; [apply ex_crit_good| |easy].
    intros h reg n m xs Hc H. injection H as <-. apply Forall_forall. intros y Hy.
    apply repeat_spec in Hy. subst y. now rewrite map_length. }
  assert (TK : total_components Scalar 1 None twice_components).
  { apply ex_components_total; [unfold shift_sampler; eauto|auto|exact I|exact I]. }
  assert (GC : good_config twice_config) by (split; cbn; try lia; discriminate).
  destruct (tranquilo_go Scalar 1 1 None twice_components twice_config GK TK GC 0%R [0%R] 1%R ltac:(lia) ltac:(lia) eq_refl) as (h & r & H).
  assert (V : valid_run Scalar 1 1 twice_components twice_config 0 [0%R] 1 None h r) by (split; auto; cbn; lia).
  open_run V.
  destruct l as [|[a ap] l]; [destruct EN; cbn in *; congruence|].
  apply chain_first in CH as (-> & c & LK & CH2).
  pose proof (lk_run _ _ _ _ _ _ _ _ LK) as RUN. cbn [n_t n_st n_n n_h] in RUN.
  destruct (lk_a _ _ _ _ _ _ _ _ LK) as (_ & NE & _). cbn [n_E] in NE.
  destruct (make_region_center _ _ _ _ MR) as (RC & RR & RB).
  assert (NM : forall k, next_multiple k 1 = k).
  { intros k. destruct (C35_next_multiple k 1 ltac:(lia)) as (_ & Q & _). lia. }
  assert (FIRST : forall newX newE evs wk old fxs idx,
    first_facts twice_components twice_config st0 1 0 h0 [[0%R]] E0 newX newE evs wk old fxs idx ->
    newX = [[1%R]] /\ w_indices wk = [0; 1] /\ old = [0]).
  { intros newX newE evs wk old fxs idx FF.
    assert (O1 : old = [0]).
    { pose proof (ff_old _ _ _ _ _ _ _ _ _ _ _ _ _ _ _ FF) as FO.
      pose proof (ff_sorted _ _ _ _ _ _ _ _ _ _ _ _ _ _ _ FF) as SO.
      assert (I0' : In 0 old).
      { apply FO. exists [0%R]. split; [easy|]. rewrite X0. cbn [twice_config search_radius_factor].
        rewrite R0, RR. rewrite dist_refl. lra. }
      assert (U : forall i, In i old -> i = 0).
      { intros i Hi. apply FO in Hi as (y & Hy & _). destruct i as [|i]; [easy|]. now destruct i. }
      destruct old as [|i old]; [easy|]. assert (i = 0) as -> by (apply U; left; easy).
      destruct old as [|j old]; [easy|]. assert (j = 0) as -> by (apply U; right; left; easy).
      apply StronglySorted_inv in SO as [_ SO]. inversion SO; lia. }
    pose proof (ff_filter _ _ _ _ _ _ _ _ _ _ _ _ _ _ _ FF) as FL. cbn in FL. subst old. cbn in FL.
    injection FL as <- <-.
    pose proof (ff_sample _ _ _ _ _ _ _ _ _ _ _ _ _ _ _ FF) as FS.
    change (Ok (repeat (map (fun c => c + 1)%R (r_center (st_region st0))) (Z.to_nat (next_multiple 1 1)))
      = Ok newX) in FS. rewrite (NM 1%Z) in FS.
    rewrite R0, RC in FS. cbn in FS. injection FS as FS.
    rewrite (ff_idx _ _ _ _ _ _ _ _ _ _ _ _ _ _ _ FF), <- FS. cbn.
    split; [|easy]. f_equal. f_equal. lra. }
  assert (MI : st_model_indices ap = [0; 1] /\ st_new_indices ap = [1] /\ st_old_indices_used ap = [0] /\
    st_old_indices_discarded ap = []).
  { unfold iteration in RUN. apply mbind_inv in RUN as (hm & [w0 old] & EF & RUN).
    destruct (first_model_inv _ _ _ _ _ GK _ _ _ _ _ _ _ _ _ L0 NE A0 EF)
      as (X1 & E1 & evs1 & fxs & idx & P1 & FF).
    destruct (FIRST _ _ _ _ _ _ _ FF) as (NX & WI & OI).
    pose proof (gw_xs _ _ _ _ _ _ _ _ _ (ph_work _ _ _ _ _ _ _ _ _ _ _ _ _ _ _ P1)) as WX. rewrite WI in WX.
    apply mbind_inv in RUN as (h2 & w1 & ED & RUN). unfold drop_phase in ED. rewrite WX in ED.
    cbn in ED. apply mret_inv in ED as [-> ->].
    apply mbind_inv in RUN as (h3 & wk & EG & RUN). unfold stag_phase in EG.
    destruct (first_model_last _ _ _ _ _ _ _ _ _ EF) as (h1 & FL).
    assert (FR : f_rel (w_fit w0) = xdiv (Fin (dist (sub_x (f_sub (w_fit w0))) (st_x st0)))
       (Fin (r_radius (st_region st0)))).
    { unfold fit_and_solve in FL. do 5 inv_bind FL. apply mret_inv in FL as [_ ->]. reflexivity. }
    cbn [twice_config stag_o max_trials Nat.max stag_loop min_relative_step] in EG.
    rewrite FR, R0, RR, relative_step_nonneg in EG; [|apply dist_nonneg|lra].
    apply mret_inv in EG as [-> ->].
    apply mbind_inv in RUN as (h4 & nz & _ & RUN). apply mbind_inv in RUN as (h5 & acc & _ & RUN).
    apply mbind_inv in RUN as (h6 & [nn incr] & _ & RUN).
    inv_bind RUN. apply mret_inv in RUN as [_ RUN]. injection RUN as -> _ _.
    cbn [update_state st_model_indices st_new_indices st_old_indices_used st_old_indices_discarded].
    rewrite WI, OI. vm_compute. auto. }
  destruct MI as (M1 & M2 & M3 & M4).
  destruct GZ as (GL & _). rewrite Hz in GL.
  destruct (chain_prefix _ _ _ _ _ _ _ _ CH2) as ((X' & EX) & (E' & EE) & _).
  destruct (lk_ok _ _ _ _ _ _ _ _ LK) as [D HI].
  destruct (FIRST _ _ _ _ _ _ _ (io_first _ _ _ _ _ _ _ _ _ HI)) as (NX & _).
  rewrite (io_X _ _ _ _ _ _ _ _ _ HI), NX in EX. cbn [n_X app] in EX.
  rewrite (io_E _ _ _ _ _ _ _ _ _ HI) in EE. cbn [n_E] in EE.
  cbn in MF0. rewrite NM in MF0. cbn in MF0. destruct E0 as [|[i0 v0] [|[i1 v1] E0]]; try discriminate.
  injection MF0 as -> -> MF0. destruct E0; [|discriminate].
  set (v := mkVState [] 0 [] NaN [] [0; 1] [1] [0] (Some []) 0).
  eexists unit, unit, unit, Scalar, 1, 1, twice_components, twice_config, 0%R, [0%R], 1%R, None, h, r,
    (points_of (n_X z) (n_E z)), ap, v, _, 1, [Fin 0], (Some CNew), [1%R].
  split; [exact V|]. split; [reflexivity|]. split; [reflexivity|].
  split; [intros; split; [exact I|discriminate]|].
  split; [now apply (evaluated_points_log _ _ _ _ _ _ _ GL)|].
  split; [rewrite RS; right; left; reflexivity|].
  split; [now rewrite M1|]. split; [now rewrite M2|]. split; [now rewrite M3|]. split; [now rewrite M4|].
  rewrite EE. cbn [app points_of map fst]. unfold get_sample_points.
  cbn [v v_discarded v_model_indices v_new_indices v_old_used]. rewrite EX.
  split; [reflexivity|]. split; [right; left; reflexivity|]. split; [reflexivity|].
  split; [eapply xs_one_log; [exact GL|]; now rewrite EX|].
  intros Q. injection Q as Q. lra.
Qed.
