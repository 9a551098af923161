(** Runs of the main loop do not raise when the components do not. *)
From Coq Require Import Reals List Arith ZArith Bool Lia Lra Sorting.Sorted.
From Verif Require Import Base XR Vec HistoryModel HistorySpec HistoryProofs WrapModel WrapProofs
  VolumeModel RegionModel AdjustModel AcceptModel FilterModel LogSpec LogProofs Prop_Region
  Prop_Adjust AcceptProofs Prop_Accept Prop_Filter MainModel MainProofs MainPhases MainLoop.
Import ListNotations.
Open Scope nat_scope.

(** The components do not raise. *)
Record total_components {VM SM CV} (ft : functype) (d : nat) (b : option bounds)
    (K : components VM SM CV) : Prop := {
  tc_sample : forall t j h reg n m, length (r_center reg) = d ->
    exists xs, k_sample K t j h reg n m = Ok xs;
  tc_fit : forall xs fv reg old, exists vm, k_fit K xs fv reg old = Ok vm;
  tc_agg : forall vm, exists sm, k_agg K vm = Ok sm;
  tc_solve : forall sm reg, exists s, k_solve K sm reg = Ok s /\ sub_ei s <> NaN;
  tc_filter : forall h st target n xs is, length xs = length is -> NoDup is ->
    exists r, k_filter K h st target n xs is = Ok r;
  tc_variance : forall h reg, exists v, k_variance K h reg = Ok v;
  tc_cov : forall h reg, exists c, k_cov K h reg = Ok c;
  tc_rho : forall t xs vm old reg c, exists r, k_rho_noise K t xs vm old reg c = Ok r;
  tc_decider : forall t v, match k_decider K t v with
    | Classic | NaiveNoisy => True
    | LineSearch s _ bs => 1 <= bs /\ (ft = Likelihood -> nan_free ft (k_crit K)) /\ good_sampler d s
    | Noisy var _ n_min n_max =>
        (exists s, var = Fin s /\ (0 <= s)%R) /\ (1 <= n_min <= n_max)%Z
    end;
  tc_bounds : two_sided b /\ bounds_dim d b
}.

(** The numbers of the configuration are in range. *)
Record good_config (O : config) : Prop := {
  gc_batch : (1 <= batch_size O)%Z;
  gc_target : (1 <= target_sample_size O)%Z;
  gc_n : (1 <= n_evals_per_point0 O)%Z;
  gc_noise : noisy O = true -> (1 <= min_n_evals (noise_o O))%Z /\
    (min_n_evals (noise_o O) <= n_evals_per_point0 O <= max_n_evals (noise_o O))%Z
}.

Section Progress.
Context {VM SM CV : Type}.
Variables (ft : functype) (d w : nat) (b : option bounds) (K : components VM SM CV) (O : config).
Hypothesis GK : good_components ft d w K.
Hypothesis TK : total_components ft d b K.
Hypothesis GC : good_config O.

Lemma mbind_go A B (m : M A) (f : A -> M B) h :
  (exists h1 a, m h = (h1, Ok a)) ->
  (forall h1 a, m h = (h1, Ok a) -> exists h' r, f a h1 = (h', Ok r)) ->
  exists h' r, mbind m f h = (h', Ok r).
Proof.
  intros (h1 & a & E) H. destruct (H _ _ E) as (h' & r & E2). exists h', r.
  unfold mbind. now rewrite E.
Qed.
Lemma mlift_go A (x : res A) h : (exists a, x = Ok a) -> exists h1 a, mlift x h = (h1, Ok a).
Proof. intros [a ->]. now exists h, a. Qed.
Lemma mquery_go A (f : hist -> res A) h :
  (exists a, f h = Ok a) -> exists h1 a, mquery f h = (h1, Ok a).
Proof. unfold mquery. intros [a ->]. now exists h, a. Qed.

Lemma evaluate_go info h X E : haslog ft d w h X E ->
  Forall (fun p => fst p < length X) info -> Forall (fun p => (1 <= snd p)%Z) info ->
  exists h' r, evaluate K info h = (h', Ok r).
Proof.
  intros HL H1 H2. unfold evaluate.
  destruct info as [|p info]; [exists h, tt; reflexivity|].
  destruct (m_eval_log _ _ _ _ _ _ (k_crit K) (k_cores K)
    (map (fun kv => (fst kv, Z.to_nat (snd kv))) (p :: info)) HL (gk_crit _ _ _ _ GK))
    as (h' & vals & E1 & _).
  - apply Forall_map. eapply Forall_impl; [|exact H1]. auto.
  - inversion H2. simpl. lia.
  - now exists h', tt.
Qed.

Lemma fit_go st idx h X E : haslog ft d w h X E -> E <> [] -> NoDup idx ->
  Forall (fun i => i < length X) idx -> exists h' f, fit_and_solve K st idx h = (h', Ok f).
Proof.
  intros HL HE ND HI. unfold fit_and_solve. destruct (haslog_rep _ _ _ _ _ _ HL) as [HR _].
  apply mbind_go.
  { apply mquery_go. rewrite (q_model_data_avg _ _ _ _ _ idx HR HE ND HI). eauto. }
  intros h1 a H. apply mquery_inv in H as [-> _].
  apply mbind_go; [apply mquery_go; eauto|]. intros h1 ev H. apply mquery_inv in H as [-> _].
  apply mbind_go; [apply mlift_go, (tc_fit _ _ _ _ TK)|]. intros h1 vm H. apply mlift_inv in H as [-> _].
  apply mbind_go; [apply mlift_go, (tc_agg _ _ _ _ TK)|]. intros h1 sm H. apply mlift_inv in H as [-> _].
  apply mbind_go.
  { apply mlift_go. destruct (tc_solve _ _ _ _ TK sm (st_region st)) as (s & -> & _). eauto. }
  intros h1 s H. apply mlift_inv in H as [-> _]. unfold mret. eauto.
Qed.

Lemma region_go c r : length c = d -> d <> 0 -> exists reg, make_region c r b = Ok reg.
Proof.
  intros Hc Hd. destruct (tc_bounds _ _ _ _ TK) as [B1 B2].
  assert (C : c <> []) by (intros ->; simpl in Hc; lia).
  rewrite <- Hc in B2. destruct (binding_ok b c r B1 B2 C) as [v Hv].
  unfold make_region, get_shape. rewrite Hv. simpl.
  destruct (get_cube_bounds c r b (if v then Cube else Sphere)). eauto.
Qed.

Lemma xs_many_go h X E is : haslog ft d w h X E -> X <> [] ->
  Forall (fun i => i < length X) is -> exists xs, get_xs_many h (map Z.of_nat is) = Ok xs.
Proof. intros HL HX HI. destruct (xs_many_log _ _ _ _ _ _ is HL HX HI) as (xs & E1 & _). eauto. Qed.

Lemma first_model_go st n t h X E : haslog ft d w h X E -> E <> [] -> at_point X st ->
  r_bounds (st_region st) = b -> (1 <= n)%Z ->
  exists h' r, first_model K O t st n h = (h', Ok r).
Proof.
  intros HL HE HA HB Hn. unfold first_model.
  destruct (at_point_dim _ _ _ _ _ _ _ HL HA) as (D1 & D2 & Hi).
  assert (Hd : d <> 0) by apply HL.
  apply mbind_go.
  { apply mlift_go. unfold replace_radius. rewrite HB. now apply region_go. }
  intros h1 sr H. apply mlift_inv in H as [-> ER].
  destruct (region_log _ _ _ _ _ _ (r_center sr) (r_radius sr) HL HE) as (is & Q1 & Q2 & Q3 & Q4).
  apply mbind_go; [apply mquery_go; eauto|]. intros h1 is' H. apply mquery_inv in H as [-> H].
  rewrite Q1 in H. injection H as <-.
  apply mbind_go; [apply mquery_go; eauto|]. intros h1 ev H. apply mquery_inv in H as [-> _].
  assert (HX : X <> []) by (intros ->; simpl in Hi; lia).
  apply mbind_go; [apply mquery_go; eapply xs_many_go; eauto|].
  intros h1 xs H. apply mquery_inv in H as [-> EX].
  apply (xs_many_exact _ _ _ _ _ _ _ _ HL HX Q3) in EX. subst xs.
  assert (NDo : NoDup is) by now apply StronglySorted_lt_NoDup.
  apply mbind_go; [apply mquery_go; apply (tc_filter _ _ _ _ TK); [apply map_length|easy]|].
  intros h1 [fxs idx] H. apply mquery_inv in H as [-> EF].
  destruct (gk_filter _ _ _ _ GK _ _ _ _ _ _ _ _ (map_length _ _) NDo EF) as (LF & NDf & IF).
  destruct (aligned_sub X (st_x st :: map (fun i => nth i X []) is) (st_index st :: is) fxs idx LF)
    as [AF SF]; [|exact IF|].
  { simpl. f_equal. symmetry. apply nth_error_nth. apply HA. }
  assert (I1 : Forall (fun i => i < length X) idx).
  { apply Forall_forall. intros i Hi'. apply SF in Hi' as [<-|Hi']; [easy|].
    rewrite Forall_forall in Q3. auto. }
  apply mbind_go.
  { apply mquery_go. unfold get_additional_eval_info, get_n_evals.
    rewrite (fvals_many_log _ _ _ _ _ _ idx HL HE I1 NDf). simpl. eauto. }
  intros h1 ad H. apply mquery_inv in H as [-> EA].
  apply (additional_exact _ _ _ _ _ _ _ _ _ HL HE NDf I1) in EA. subst ad.
  apply mbind_go; [apply mquery_go, (tc_sample _ _ _ _ TK), D1|].
  intros h1 newX H. apply mquery_inv in H as [-> ES].
  pose proof (gk_sample _ _ _ _ GK t 0 _ _ _ _ _ D1 ES) as DX.
  apply mbind_go; [apply mquery_go; eauto|]. intros h1 ev2 H. apply mquery_inv in H as [-> _].
  destruct (m_add_xs_log _ _ _ _ _ _ newX HL DX) as (h2 & E3 & L2).
  apply mbind_go; [eauto|]. intros h1 new H. rewrite E3 in H. injection H as <- <-.
  set (new := seq (length X) (length newX)) in *.
  assert (LA : length (X ++ newX) = length X + length newX) by apply app_length.
  rewrite dict_of_nodup by (rewrite map_fst_pairs; apply seq_NoDup).
  rewrite dict_update_fresh.
  2:{ now apply additional_nodup. }
  2:{ intros k Hk Hk2. rewrite map_fst_pairs in Hk2. apply in_seq in Hk2.
      apply in_map_iff in Hk as ([k' z] & <- & Hk). apply additional_keys in Hk. simpl in *.
      rewrite Forall_forall in I1. specialize (I1 _ Hk). lia. }
  assert (I2 : Forall (fun p => fst p < length (X ++ newX))
                 (map (fun i => (i, n)) new ++ additional_info E n idx)).
  { apply Forall_app. split.
    - apply Forall_map, Forall_forall. intros i Hi'. apply in_seq in Hi'. simpl. lia.
    - apply Forall_forall. intros [i z] Hiz. apply additional_keys in Hiz. simpl.
      rewrite Forall_forall in I1. specialize (I1 _ Hiz). lia. }
  apply mbind_go.
  { eapply evaluate_go; eauto. apply Forall_app. split.
    - apply Forall_map, Forall_forall. simpl. lia.
    - apply Forall_forall. intros [i z] Hiz. apply filter_In in Hiz as [_ Hiz].
      apply Z.ltb_lt in Hiz. simpl in *. lia. }
  intros h3 [] E4.
  destruct (evaluate_inv _ _ _ _ GK _ _ _ _ _ L2 E4 I2) as (newE & L3 & _).
  assert (HXa : X ++ newX <> []) by (destruct X; [easy|discriminate]).
  assert (I3 : Forall (fun i => i < length (X ++ newX)) (idx ++ new)).
  { apply Forall_app. split; apply Forall_forall; intros i Hi'.
    - rewrite Forall_forall in I1. specialize (I1 _ Hi'). lia.
    - apply in_seq in Hi'. lia. }
  assert (ND : NoDup (idx ++ new)).
  { apply NoDup_app'; [easy|apply seq_NoDup|].
    intros i Hi1 Hi2. rewrite Forall_forall in I1. specialize (I1 _ Hi1). apply in_seq in Hi2. lia. }
  assert (NE : E ++ newE <> []) by (destruct E; [easy|discriminate]).
  unfold concatenate_indices.
  apply mbind_go; [apply mquery_go; eapply xs_many_go; eauto|].
  intros h1 xs H. apply mquery_inv in H as [-> _].
  apply mbind_go; [eapply fit_go; eauto|]. intros h1 f _. unfold mret. eauto.
Qed.

Lemma drop_loop_go st n h X E : haslog ft d w h X E -> E <> [] -> at_point X st ->
  forall fuel wk, good_work ft d w K st X E n wk -> length (w_xs wk) <= fuel ->
  exists h' r, drop_loop K O fuel st wk h = (h', Ok r).
Proof.
  intros HL HE HA. pose proof (gc_target _ GC) as HT.
  induction fuel as [|fuel IH]; intros wk HW Hf; cbn [drop_loop].
  - destruct (Z.ltb_spec (target_sample_size O) (zlen (w_xs wk))) as [Hl|Hl].
    { unfold zlen in Hl. lia. }
    rewrite andb_false_r. unfold mret. eauto.
  - destruct (_ && _) eqn:EC; [|unfold mret; eauto].
    apply andb_prop in EC as [_ EC]. apply Z.ltb_lt in EC. unfold zlen in EC.
    destruct HW as [W1 W2 W3 W4 W5 W6].
    assert (LW : length (w_xs wk) = length (w_indices wk)) by (rewrite W3; apply map_length).
    apply mbind_go.
    { apply mlift_go.
      destruct (C48_drop_worst_points_removes_n (fstate_of st) (w_xs wk) (w_indices wk) 1 LW ltac:(lia))
        as (xs' & idx' & -> & _). eauto. }
    intros h1 [xs' idx'] H. apply mlift_inv in H as [-> H].
    destruct (drop_aligned X st _ _ _ _ _ W3 W1 H) as (A1 & A2 & A3 & A4 & _).
    assert (I' : Forall (fun i => i < length X) idx').
    { apply Forall_forall. rewrite Forall_forall in W2. auto. }
    apply mbind_go; [eapply fit_go; eauto|]. intros h1 f E2.
    destruct (fit_and_solve_inv _ _ _ _ O GK st idx' _ X E n _ _ HL HE HA A2 I' ltac:(auto) E2)
      as (-> & D1 & F1 & F2 & F3 & _ & F4 & SV & FB).
    apply IH; [|cbn; lia]. split; cbn; eauto.
Qed.

Lemma drop_phase_go st n h X E wk : haslog ft d w h X E -> E <> [] -> at_point X st ->
  good_work ft d w K st X E n wk -> exists h' r, drop_phase K O st wk h = (h', Ok r).
Proof.
  intros HL HE HA HW. unfold drop_phase. destruct (_ <? _)%Z; [|unfold mret; eauto].
  eapply drop_loop_go; eauto.
Qed.

Lemma trial_go st n t j wk h X E : haslog ft d w h X E -> E <> [] -> at_point X st ->
  good_work ft d w K st X E n wk -> (1 <= n)%Z ->
  exists h' r, trial K O t j st n wk h = (h', Ok r).
Proof.
  intros HL HE HA HW Hn. unfold trial. destruct HW as [W1 W2 W3 W4 W5 W6].
  destruct (at_point_dim _ _ _ _ _ _ _ HL HA) as (D1 & D2 & Hi).
  assert (LW : length (w_xs wk) = length (w_indices wk)) by (rewrite W3; apply map_length).
  assert (HX : X <> []) by (intros ->; simpl in Hi; lia).
  apply mbind_go.
  { apply mlift_go. destruct (stag_drop (stag_o O)); simpl; [|eauto].
    destruct (Nat.ltb_spec (sample_increment (stag_o O)) (length (w_xs wk))) as [Hl|Hl]; [|eauto].
    destruct (C48_drop_worst_points_removes_n (fstate_of st) (w_xs wk) (w_indices wk)
      (sample_increment (stag_o O)) LW ltac:(lia)) as (xs' & idx' & -> & _). eauto. }
  intros h1 [xs' idx'] H. apply mlift_inv in H as [-> H].
  assert (ID : NoDup idx' /\ incl idx' (w_indices wk)).
  { destruct (stag_drop (stag_o O) && _).
    - destruct (drop_aligned X st _ _ _ _ _ W3 W1 H) as (A1 & A2 & A3 & _). auto.
    - injection H as <- <-. split; [easy|apply incl_refl]. }
  destruct ID as [ND' SB].
  assert (I' : Forall (fun i => i < length X) idx').
  { apply Forall_forall. rewrite Forall_forall in W2. auto. }
  apply mbind_go; [apply mquery_go, (tc_sample _ _ _ _ TK), D1|].
  intros h1 newX E0. apply mquery_inv in E0 as [-> ES].
  pose proof (gk_sample _ _ _ _ GK t (S j) _ _ _ _ _ D1 ES) as DX.
  apply mbind_go; [apply mquery_go; eauto|]. intros h1 ev2 E0. apply mquery_inv in E0 as [-> _].
  destruct (m_add_xs_log _ _ _ _ _ _ newX HL DX) as (h2 & E3 & L2).
  apply mbind_go; [eauto|]. intros h1 new E0. rewrite E3 in E0. injection E0 as <- <-.
  set (new := seq (length X) (length newX)) in *.
  assert (LA : length (X ++ newX) = length X + length newX) by apply app_length.
  rewrite dict_of_nodup by (rewrite map_fst_pairs; apply seq_NoDup).
  assert (I2 : Forall (fun p => fst p < length (X ++ newX)) (map (fun i => (i, n)) new)).
  { apply Forall_map, Forall_forall. intros i Hi'. apply in_seq in Hi'. simpl. lia. }
  apply mbind_go.
  { eapply evaluate_go; eauto. apply Forall_map, Forall_forall. simpl. lia. }
  intros h3 [] E4.
  destruct (evaluate_inv _ _ _ _ GK _ _ _ _ _ L2 E4 I2) as (newE & L3 & _).
  assert (HXa : X ++ newX <> []) by (destruct X; [easy|discriminate]).
  assert (I3 : Forall (fun i => i < length (X ++ newX)) (idx' ++ new)).
  { apply Forall_app. split; apply Forall_forall; intros i Hi'.
    - rewrite Forall_forall in I'. specialize (I' _ Hi'). lia.
    - apply in_seq in Hi'. lia. }
  assert (ND : NoDup (idx' ++ new)).
  { apply NoDup_app'; [easy|apply seq_NoDup|].
    intros i Hi1 Hi2. rewrite Forall_forall in I'. specialize (I' _ Hi1). apply in_seq in Hi2. lia. }
  assert (NE : E ++ newE <> []) by (destruct E; [easy|discriminate]).
  unfold concatenate_indices.
  apply mbind_go; [apply mquery_go; eapply xs_many_go; eauto|].
  intros h1 xs E0. apply mquery_inv in E0 as [-> _].
  apply mbind_go; [eapply fit_go; eauto|]. intros h1 f _. unfold mret. eauto.
Qed.

Lemma stag_loop_go st n t : (1 <= n)%Z -> forall fuel j wk h X E,
  haslog ft d w h X E -> E <> [] -> at_point X st -> good_work ft d w K st X E n wk ->
  1 <= fuel -> max_trials (stag_o O) <= j + fuel ->
  exists h' r, stag_loop K O fuel t j st n wk h = (h', Ok r).
Proof.
  intros Hn. induction fuel as [|fuel IH]; intros j wk h X E HL HE HA HW Hf Hm; [lia|].
  cbn [stag_loop]. destruct (xlt _ _); [|unfold mret; eauto].
  apply mbind_go; [eapply trial_go; eauto|]. intros h1 w1 H.
  destruct (trial_inv _ _ _ _ O GK _ _ _ _ _ _ _ _ _ _ HL HE HA HW H) as (newX & newE & evs & P & _).
  destruct (Nat.leb_spec (max_trials (stag_o O)) (S j)) as [Hj|Hj]; [unfold mret; eauto|].
  eapply IH; [apply P| |now apply at_point_more|apply P|lia|lia].
  destruct E; [easy|discriminate].
Qed.

Lemma iteration_go st n t h X E : haslog ft d w h X E -> E <> [] -> at_point X st ->
  r_bounds (st_region st) = b -> (1 <= n)%Z ->
  exists h' r, iteration K O t st n h = (h', Ok r).
Proof.
  intros HL HE HA HB Hn. unfold iteration. assert (Hd : d <> 0) by apply HL.
  apply mbind_go; [eapply first_model_go; eauto|]. intros h1 [w0 old] EF.
  destruct (first_model_inv _ _ _ _ O GK _ _ _ _ _ _ _ _ _ HL HE HA EF) as (X1 & E1 & evs1 & fxs & idx & P1 & _).
  assert (NE1 : E ++ E1 <> []) by (destruct E; [easy|discriminate]).
  apply mbind_go; [eapply drop_phase_go; try apply P1; auto using at_point_more|].
  intros h2 w1 ED.
  destruct (drop_phase_inv _ _ _ _ O GK st n _ _ _ _ _ _ (ph_log _ _ _ _ _ _ _ _ _ _ _ _ _ _ _ P1) NE1 (at_point_more _ _ _ HA)
     (ph_work _ _ _ _ _ _ _ _ _ _ _ _ _ _ _ P1) ED) as (-> & evs2 & P2 & _).
  pose proof (ph_work _ _ _ _ _ _ _ _ _ _ _ _ _ _ _ P2) as W2. rewrite !app_nil_r in W2.
  apply mbind_go.
  { unfold stag_phase. eapply stag_loop_go; try apply P1; eauto using at_point_more; lia. }
  intros h3 wk EG.
  destruct (stag_phase_inv _ _ _ _ O GK st n t _ _ _ _ _ _ (ph_log _ _ _ _ _ _ _ _ _ _ _ _ _ _ _ P1) NE1 (at_point_more _ _ _ HA)
     W2 EG) as (X3 & E3 & evs3 & P3 & _).
  apply mbind_go.
  { unfold noise_estimates. destruct (noisy O); [|unfold mret; eauto].
    apply mbind_go; [apply mquery_go, (tc_variance _ _ _ _ TK)|]. intros h4 v _.
    apply mbind_go; [apply mquery_go, (tc_cov _ _ _ _ TK)|]. intros h5 c _. unfold mret. eauto. }
  intros h4 nz EN. apply noise_estimates_inv in EN as [-> _].
  pose proof (ph_log _ _ _ _ _ _ _ _ _ _ _ _ _ _ _ P3) as L3.
  pose proof (ph_work _ _ _ _ _ _ _ _ _ _ _ _ _ _ _ P3) as W3.
  assert (NE3 : (E ++ E1) ++ E3 <> []) by (destruct E; [easy|discriminate]).
  pose proof (at_point_more _ X3 _ (at_point_more _ X1 _ HA)) as A3.
  assert (AD : admissible ft d w (k_crit K) (k_decider K t (fst nz)) (f_sub (w_fit wk)) (cur_of st)
     ((X ++ X1) ++ X3) ((E ++ E1) ++ E3)).
  { split; [apply GK|]. split; [apply W3|]. pose proof (tc_decider _ _ _ _ TK t (fst nz)) as TD.
    destruct (at_point_dim _ _ _ _ _ _ _ HL HA) as (_ & D2 & _).
    destruct (tc_bounds _ _ _ _ TK) as [B1 B2].
    destruct (k_decider K t (fst nz)); auto.
    - cbn. rewrite HB. destruct TD as (T1 & T2 & T3). split; [easy|]. split; [easy|].
      split; [apply good_sampler_ready; [easy|apply W3]|]. auto 10.
    - destruct TD as (T1 & T2). split; [easy|]. split.
      + destruct (tc_solve _ _ _ _ TK (f_sm (w_fit wk)) (st_region st)) as (s & ES & NS).
        rewrite (gw_solve _ _ _ _ _ _ _ _ _ W3) in ES. now injection ES as <-.
      + split; [easy|]. split; [|easy]. cbn. apply nth_error_Some. destruct A3. congruence. }
  apply mbind_go.
  { destruct (decider_form _ _ _ _ _ _ _ (k_cores K) _ _ _ (min_improvement O) L3 AD)
      as (h' & newX & newE & nn & k & cx & n1 & n2 & _ & _ & _ & _ & _ & _ & _ & _ & _ & ->). eauto. }
  intros h5 acc EA.
  destruct (decider_inv _ _ _ _ _ _ _ _ _ _ (cur_of st) _ _ _ L3 (gk_crit _ _ _ _ GK)
    (gw_dim _ _ _ _ _ _ _ _ _ W3) (proj1 A3) NE3 (gk_decider _ _ _ _ GK _ _) EA) as (X2 & E2 & L4 & DC).
  apply mbind_go.
  { unfold adapt_n_evals. destruct (noisy O); [|unfold mret; eauto].
    apply mbind_go; [apply mlift_go, (tc_rho _ _ _ _ TK)|]. intros h6 r _. unfold mret. eauto. }
  intros h6 [nn incr] _.
  apply mbind_go.
  { apply mlift_go. unfold replace_center_radius. cbn [update_state st_region]. rewrite HB.
    apply region_go; [|easy].
    assert (In (a_x acc) (((X ++ X1) ++ X3) ++ X2)).
    { apply nth_error_In with (a_index acc). destruct (a_accepted acc) eqn:Ea.
      - now apply (dc_acc _ _ _ _ _ _ _ _ _ _ _ DC).
      - destruct (dc_rej _ _ _ _ _ _ _ _ _ _ _ DC Ea) as (-> & _ & ->).
        apply (proj1 (at_point_more _ X2 _ A3)). }
    destruct (haslog_dims _ _ _ _ _ _ L4) as (F & _). rewrite Forall_forall in F. auto. }
  intros h7 reg _. unfold mret. eauto.
Qed.

(** The invariants needed for the next iteration. *)
Lemma iteration_keeps st n t h X E h' ap st' n' :
  haslog ft d w h X E -> E <> [] -> at_point X st ->
  r_bounds (st_region st) = b ->
  (if noisy O then (min_n_evals (noise_o O) <= n <= max_n_evals (noise_o O))%Z else (1 <= n)%Z) ->
  iteration K O t st n h = (h', Ok (ap, st', n')) ->
  r_bounds (st_region st') = b /\
  (if noisy O then (min_n_evals (noise_o O) <= n' <= max_n_evals (noise_o O))%Z else (1 <= n')%Z).
Proof.
  intros HL HE HA HB Hn H. unfold iteration in H.
  inv_bind H. destruct a as [w0 old]. inv_bind H. inv_bind H. inv_bind H. inv_bind H. inv_bind H.
  inv_bind H. apply mret_inv in H as [-> H]. injection H as -> -> ->.
  split.
  - cbn. apply make_region_inv in E6 as (v & _ & _ & _ & RB & _). cbn in RB. congruence.
  - revert E5. unfold adapt_n_evals. destruct (noisy O).
    + intros E5. inv_bind E5. apply mret_inv in E5 as [-> E5].
      destruct a3 as [n2 inc]. symmetry in E5.
      apply (C34_n_evals_adjustment _ _ _ _ _ _ Hn) in E5. simpl. apply E5.
    + intros E5. apply mret_inv in E5 as [-> ->]. exact Hn.
Qed.

Lemma loop_go : forall k t st n pre last h X E,
  haslog ft d w h X E -> E <> [] -> at_point X st -> r_bounds (st_region st) = b ->
  (if noisy O then (min_n_evals (noise_o O) <= n <= max_n_evals (noise_o O))%Z else (1 <= n)%Z) ->
  forall c m, exists h' r, loop K O k t st n (pre ++ [last]) c m h = (h', Ok r).
Proof.
  induction k as [|k IH]; intros t st n pre last h X E HL HE HA HB Hn c m; cbn [loop].
  { unfold mret. eauto. }
  assert (N1 : (1 <= n)%Z).
  { pose proof (gc_noise _ GC) as G. destruct (noisy O); [destruct (G eq_refl); lia|easy]. }
  apply mbind_go; [eapply iteration_go; eauto|].
  intros h1 [[ap st'] n'] EI.
  destruct (iteration_keeps _ _ _ _ _ _ _ _ _ _ HL HE HA HB Hn EI) as [HB' Hn'].
  destruct (iteration_link _ _ _ _ O GK _ _ _ _ _ _ _ _ _ _ HL HE HA EI) as (X' & E' & LK).
  destruct (lk_b _ _ _ _ _ _ _ _ LK) as (L2 & NE2 & A2). cbn in L2, NE2, A2.
  apply mbind_go.
  { apply mlift_go. unfold check_convergence. destruct (_ && _); [|eauto].
    rewrite last_two_app. cbn [bind]. destruct (is_converged _ _ _ _). eauto. }
  intros h2 [[c' m'] stop] H. apply mlift_inv in H as [-> _].
  destruct stop; [unfold mret; eauto|].
  apply mbind_go; [apply mquery_go; eauto|]. intros h2 nf H. apply mquery_inv in H as [-> _].
  destruct (_ <=? _)%Z; [unfold mret; eauto|]. eapply IH; eauto.
Qed.

Lemma tranquilo_go pad x r0 : d <> 0 -> w <> 0 -> length x = d ->
  exists h r, tranquilo K O ft pad x r0 b = (h, Ok r).
Proof.
  intros Hd Hw Hx. unfold tranquilo.
  destruct (m_add_x_log _ _ _ _ _ _ x (haslog_init ft pad d w Hd Hw) Hx) as (h1 & E1 & L1).
  apply mbind_go; [eauto|]. intros h1' i H. rewrite E1 in H. injection H as <- <-.
  apply mbind_go; [apply mlift_go; now apply region_go|]. intros h2 reg H.
  apply mlift_inv in H as [-> ER].
  pose proof (make_region_center _ _ _ _ ER) as (RC & _ & RB).
  unfold internal_tranquilo. pose proof (gc_batch _ GC) as GB.
  apply mbind_go.
  { unfold initial_state.
    set (nz := if _ : bool then _ else 1%Z).
    assert (NZ : (1 <= nz)%Z).
    { unfold nz. destruct (Z.ltb_spec 1 (n_evals_at_start O)) as [Hs|Hs]; [|lia].
      destruct (C35_next_multiple (n_evals_at_start O) (batch_size O)) as (_ & Q & _); lia. }
    assert (I2 : Forall (fun p => fst p < length ([] ++ [x])) [(0, nz)]) by (repeat constructor).
    apply mbind_go.
    { eapply evaluate_go; eauto. }
    intros h2 [] E4.
    destruct (evaluate_inv _ _ _ _ GK _ _ _ _ _ L1 E4 I2) as (newE & L3 & _ & MF & _).
    assert (NE : [] ++ newE <> []).
    { simpl. intros ->. simpl in MF. destruct (Z.to_nat nz) eqn:En; [lia|discriminate]. }
    destruct (haslog_rep _ _ _ _ _ _ L3) as [HR _].
    apply mbind_go.
    { apply mquery_go. pose proof (q_fvecs_one _ _ _ _ _ HR 0 NE ltac:(simpl; lia)) as Q. simpl in Q. eauto. }
    intros h3 fv H. apply mquery_inv in H as [-> _].
    apply mbind_go; [apply mquery_go; eauto|]. intros h3 fv2 H. apply mquery_inv in H as [-> _].
    apply mbind_go; [apply mlift_go, (tc_agg _ _ _ _ TK)|]. intros h3 sm H. apply mlift_inv in H as [-> _].
    apply mbind_go.
    { rewrite (m_fvals_log _ _ _ _ _ _ 0 L3 NE ltac:(simpl; lia)). eauto. }
    intros h3 fs _. unfold mret. eauto. }
  intros h2 st0 EI.
  destruct (initial_state_inv _ _ _ _ _ GK _ _ _ _ _ _ L1 eq_refl RC GB EI)
    as (E0 & L0 & T0 & MF & NE & A0 & I1 & I2 & I3 & _).
  apply (loop_go _ _ _ _ [] st0 _ _ _ L0 NE A0).
  - rewrite I3. exact RB.
  - pose proof (gc_noise _ GC) as G. pose proof (gc_n _ GC).
    destruct (noisy O); [now apply G|easy].
Qed.

End Progress.
