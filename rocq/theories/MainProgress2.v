(** Success of deterministic runs with components that only have to work on the inputs they can
    get: regions around feasible centers, samples of at least one point, models that come from
    the fitter. *)
From Coq Require Import Reals List Arith ZArith Bool Lia Lra Sorting.Sorted.
From Verif Require Import Base XR Vec HistoryModel HistorySpec HistoryProofs WrapModel WrapProofs
  VolumeModel RegionModel AdjustModel AcceptModel FilterModel LogSpec LogProofs Prop_Region
  Prop_Adjust AcceptProofs Prop_Accept Prop_Filter MainModel MainProofs MainPhases MainLoop MainProgress
  Prop_Main Prop_Main2 Prop_Main3 Prop_Main4.
Import ListNotations.
Open Scope nat_scope.

(** [okf] holds of the mean of the start values, [VMold] of the initial model, [SMok] of the
    aggregated models that are passed to the subproblem solver. *)
Record able_components {VM SM CV} (ft : functype) (d w : nat) (b : option bounds)
    (okf : list xr -> Prop) (VMold : VM -> Prop) (SMok : SM -> Prop) (K : components VM SM CV) : Prop := {
  ab_start : forall X E, true_evals (k_crit K) X E -> evals_of 0 E <> [] ->
    okf (mean_rows (ft_w ft w) (evals_of 0 E));
  ab_init : forall fv reg, region_of d b reg -> length fv = ft_w ft w -> okf fv ->
    VMold (k_init K fv reg) /\ exists sm, k_agg K (k_init K fv reg) = Ok sm;
  ab_sample : forall t j h reg n m, region_of d b reg ->
    exists xs, k_sample K t j h reg n m = Ok xs /\ Forall (in_bounds b) xs;
  ab_fit : forall xs fv reg old, region_of d b reg -> VMold old -> xs <> [] ->
    length fv = length xs -> Forall (fun x => length x = d) xs ->
    Forall (fun f => length f = ft_w ft w) fv ->
    exists vm sm, k_fit K xs fv reg old = Ok vm /\ k_agg K vm = Ok sm /\ SMok sm;
  ab_solve : forall sm reg, SMok sm -> region_of d b reg ->
    exists s, k_solve K sm reg = Ok s;
  ab_filter : forall h st target n xs is, length xs = length is -> NoDup is -> xs <> [] ->
    (1 <= target)%Z -> Forall (fun x => length x = d) xs -> region_of d b (st_region st) ->
    exists xs' is', k_filter K h st target n xs is = Ok (xs', is') /\ is' <> []
}.

(** The deciders that do not raise, without a noise estimate. *)
Definition able_decider {VM SM CV} (ft : functype) (d : nat) (b : option bounds)
    (K : components VM SM CV) : Prop :=
  forall t, match k_decider K t None with
    | Classic | NaiveNoisy => True
    | LineSearch s rf bs =>
        1 <= bs /\ (0 < rf)%R /\ (ft = Likelihood -> nan_free ft (k_crit K)) /\ (forall x, in_bounds b x) /\
        (forall h reg n m, region_of d b reg -> exists xs, s h reg n m = Ok xs /\ length xs = n /\
           Forall (fun x => length x = d) xs)
    | Noisy _ _ _ _ => False
    end.

(** The subproblem solver returns points within the bounds. *)
Definition solves_inside {VM SM CV} (d : nat) (b : option bounds) (K : components VM SM CV) : Prop :=
  forall reg sm s, region_of d b reg -> k_solve K sm reg = Ok s -> in_bounds b (sub_x s).

(** The numbers of the configuration are in range. *)
Record run_config (O : config) : Prop := {
  rc_batch : (1 <= batch_size O)%Z;
  rc_target : (1 <= target_sample_size O)%Z;
  rc_n : (1 <= n_evals_per_point0 O)%Z;
  rc_search : (0 <= search_radius_factor O)%R;
  rc_radius : (0 < min_radius (radius_o O) <= max_radius (radius_o O))%R;
  rc_ratio : max_radius_to_step_ratio (radius_o O) = PInf
}.

(** Moreover the criterion is not noisy. *)
Record quiet_config (O : config) : Prop := {
  qc_noisy : noisy O = false;
  qc_batch : (1 <= batch_size O)%Z;
  qc_target : (1 <= target_sample_size O)%Z;
  qc_n : (1 <= n_evals_per_point0 O)%Z;
  qc_search : (0 <= search_radius_factor O)%R;
  qc_radius : (0 < min_radius (radius_o O) <= max_radius (radius_o O))%R;
  qc_ratio : max_radius_to_step_ratio (radius_o O) = PInf
}.

Lemma quiet_run O : quiet_config O -> run_config O.
Proof. intros []. now constructor. Qed.

Section Progress.
Context {VM SM CV : Type}.
Variables (ft : functype) (d w : nat) (b : option bounds) (okf : list xr -> Prop)
  (VMold : VM -> Prop) (SMok : SM -> Prop) (K : components VM SM CV) (O : config).
Hypothesis GK : good_components ft d w K.
Hypothesis TK : able_components ft d w b okf VMold SMok K.
Hypothesis GC : run_config O.
Hypothesis HB2 : two_sided b.
Hypothesis HBD : bounds_dim d b.

(** The computation succeeds with a result that satisfies [Q]. *)
Definition goes {A} (m : M A) (h : hist) (Q : hist -> A -> Prop) : Prop :=
  exists h' a, m h = (h', Ok a) /\ Q h' a.

Lemma goes_bind A B (m : M A) (f : A -> M B) h P Q : goes m h P ->
  (forall h1 a, m h = (h1, Ok a) -> P h1 a -> goes (f a) h1 Q) -> goes (mbind m f) h Q.
Proof.
  intros (h1 & a & E & HP) H. destruct (H _ _ E HP) as (h' & r & E2 & HQ).
  exists h', r. split; [|easy]. unfold mbind. now rewrite E.
Qed.
Lemma goes_lift A (x : res A) h (P : A -> Prop) : (exists a, x = Ok a /\ P a) ->
  goes (mlift x) h (fun h' a => h' = h /\ P a).
Proof. intros (a & -> & H). now exists h, a. Qed.
Lemma goes_query A (f : hist -> res A) h (P : A -> Prop) : (exists a, f h = Ok a /\ P a) ->
  goes (mquery f) h (fun h' a => h' = h /\ P a).
Proof. unfold mquery. intros (a & E & H). exists h, a. now rewrite E. Qed.
Lemma goes_ret A (a : A) h (Q : hist -> A -> Prop) : Q h a -> goes (mret a) h Q.
Proof. intros H. now exists h, a. Qed.
Lemma goes_weaken A (m : M A) h (P Q : hist -> A -> Prop) :
  goes m h P -> (forall h' a, P h' a -> Q h' a) -> goes m h Q.
Proof. intros (h' & a & E & H) W. exists h', a. auto. Qed.

Lemma goes_eq A (m : M A) h h1 a : m h = (h1, Ok a) -> goes m h (fun h' r => h' = h1 /\ r = a).
Proof. intros E. now exists h1, a. Qed.

Definition T {A} : A -> Prop := fun _ => True.

(** The state is usable for the next iteration. *)
Definition st_ok (X : list vec) (st : state VM SM) : Prop :=
  at_point X st /\ VMold (st_vector_model st) /\ Forall (in_bounds b) X /\
  exists c rad, (0 < rad)%R /\ make_region c rad b = Ok (st_region st).

Lemma st_ok_region h X E st : haslog ft d w h X E -> st_ok X st -> region_of d b (st_region st).
Proof.
  intros HL ([A1 A2] & _ & F & c & rad & Hr & M).
  apply make_region_center in M as MC. destruct MC as (C1 & C2 & C3).
  exists c, rad. rewrite C1 in A2. subst c. apply nth_error_In in A1.
  destruct (haslog_dims _ _ _ _ _ _ HL) as (D & _).
  rewrite Forall_forall in D, F. auto.
Qed.

Lemma st_ok_more X X' st : Forall (in_bounds b) X' -> st_ok X st -> st_ok (X ++ X') st.
Proof.
  intros F (A & V & F0 & R). split; [now apply at_point_more|]. split; [easy|].
  split; [now apply Forall_app|easy].
Qed.

Lemma mean_rows_length n rows : length (mean_rows n rows) = n.
Proof. unfold mean_rows. now rewrite map_length, seq_length. Qed.

Lemma fit_goes st idx h X E : haslog ft d w h X E -> E <> [] -> st_ok X st -> NoDup idx ->
  idx <> [] -> Forall (fun i => i < length X) idx ->
  goes (fit_and_solve K st idx) h (fun _ _ => True).
Proof.
  intros HL HE HS ND NI HI. unfold fit_and_solve. destruct (haslog_rep _ _ _ _ _ _ HL) as [HR _].
  pose proof (st_ok_region _ _ _ _ HL HS) as RO.
  destruct (haslog_dims _ _ _ _ _ _ HL) as (D & _). rewrite Forall_forall in D, HI.
  eapply goes_bind.
  { apply (goes_query _ _ _ (eq (map (fun i => nth i X []) idx,
      map (fun i => mean_rows (ft_w ft w) (evals_of i E)) idx))).
    eexists. split; [|reflexivity]. apply (q_model_data_avg _ _ _ _ _ idx HR HE ND).
    now apply Forall_forall. }
  intros h1 a _ (-> & <-). cbn [fst snd].
  eapply goes_bind; [apply (goes_query _ _ _ T); eexists; split; [reflexivity|exact I]|].
  intros h1 ev _ (-> & _).
  edestruct (ab_fit _ _ _ _ _ _ _ _ TK (map (fun i => nth i X []) idx)
    (map (fun i => mean_rows (ft_w ft w) (evals_of i E)) idx) (st_region st) (st_vector_model st) RO)
    as (vm & sm & E1 & E2 & S).
  { apply HS. }
  { destruct idx; [easy|discriminate]. }
  { now rewrite !map_length. }
  { apply Forall_map, Forall_forall. intros i Hi. apply D, nth_In, HI, Hi. }
  { apply Forall_map, Forall_forall. intros i Hi. apply mean_rows_length. }
  eapply goes_bind; [apply (goes_lift _ _ _ (eq vm)); eauto|]. intros h1 vm' _ (-> & <-).
  eapply goes_bind; [apply (goes_lift _ _ _ (eq sm)); eauto|]. intros h1 sm' _ (-> & <-).
  destruct (ab_solve _ _ _ _ _ _ _ _ TK sm (st_region st) S RO) as (s & E3).
  eapply goes_bind; [apply (goes_lift _ _ _ (eq s)); eauto|]. intros h1 s' _ (-> & <-).
  now apply goes_ret.
Qed.

(** A computed model: there is a model point. *)
Definition wk_ok (wk : work (VM:=VM) (SM:=SM)) : Prop := w_indices wk <> [].

Lemma region_go2 c r : length c = d -> d <> 0 -> exists reg, make_region c r b = Ok reg.
Proof.
  intros Hc Hd.
  assert (C : c <> []) by (intros ->; simpl in Hc; lia).
  pose proof HBD as B2. rewrite <- Hc in B2. destruct (binding_ok b c r HB2 B2 C) as [v Hv].
  unfold make_region, get_shape. rewrite Hv. simpl.
  destruct (get_cube_bounds c r b (if v then Cube else Sphere)). eauto.
Qed.

Lemma evaluate_goes info h X E : haslog ft d w h X E ->
  Forall (fun p => fst p < length X) info -> Forall (fun p => (1 <= snd p)%Z) info ->
  goes (evaluate K info) h (fun _ _ => True).
Proof.
  intros HL H1 H2. unfold evaluate.
  destruct info as [|p info]; [exists h, tt; split; [reflexivity|easy]|].
  destruct (m_eval_log _ _ _ _ _ _ (k_crit K) (k_cores K)
    (map (fun kv => (fst kv, Z.to_nat (snd kv))) (p :: info)) HL (gk_crit _ _ _ _ GK))
    as (h' & vals & E1 & _).
  - apply Forall_map. eapply Forall_impl; [|exact H1]. auto.
  - inversion H2. simpl. lia.
  - now exists h', tt.
Qed.

Lemma xs_many_goes h X E is : haslog ft d w h X E -> X <> [] ->
  Forall (fun i => i < length X) is ->
  goes (mquery (fun h => get_xs_many h (map Z.of_nat is))) h
       (fun h' xs => h' = h /\ xs = map (fun i => nth i X []) is).
Proof.
  intros HL HX HI. destruct (xs_many_log _ _ _ _ _ _ is HL HX HI) as (xs & E1 & _).
  exists h, xs. unfold mquery. rewrite E1. split; [easy|]. split; [easy|].
  eapply xs_many_exact; eauto.
Qed.

Lemma first_model_goes st n t h X E : haslog ft d w h X E -> E <> [] -> st_ok X st -> (1 <= n)%Z ->
  goes (first_model K O t st n) h (fun h' r => wk_ok (fst r)).
Proof.
  intros HL HE HS Hn. unfold first_model. destruct HS as (HA & HV & HF & HR).
  pose proof (conj HA (conj HV (conj HF HR)) : st_ok X st) as HS.
  pose proof (st_ok_region _ _ _ _ HL HS) as RO.
  destruct (at_point_dim _ _ _ _ _ _ _ HL HA) as (D1 & D2 & Hi).
  assert (Hd : d <> 0) by apply HL.
  destruct (haslog_dims _ _ _ _ _ _ HL) as (FD & _).
  destruct HR as (c0 & rad & Hrad & MR). apply make_region_center in MR as MC.
  destruct MC as (C1 & C2 & C3).
  eapply goes_bind.
  { apply (goes_lift _ _ _ (fun sr => r_center sr = st_x st /\
      r_radius sr = (search_radius_factor O * r_radius (st_region st))%R)).
    unfold replace_radius. rewrite C3.
    destruct (region_go2 (r_center (st_region st)) (search_radius_factor O * r_radius (st_region st)) D1 Hd)
      as [sr E1]. exists sr. split; [easy|]. apply make_region_center in E1 as (A & B & _).
    split; [now rewrite A, (proj2 HA)|easy]. }
  intros h1 sr _ (-> & SC & SR).
  destruct (region_log _ _ _ _ _ _ (r_center sr) (r_radius sr) HL HE) as (is & Q1 & Q2 & Q3 & Q4).
  eapply goes_bind; [apply (goes_query _ _ _ (eq is)); eauto|]. intros h1 is' _ (-> & <-).
  eapply goes_bind; [apply (goes_query _ _ _ T); eexists; split; [reflexivity|exact I]|].
  intros h1 ev _ (-> & _).
  assert (HX : X <> []) by (intros ->; simpl in Hi; lia).
  eapply goes_bind; [eapply xs_many_goes; eauto|]. intros h1 xs _ (-> & ->).
  assert (NDo : NoDup is) by now apply StronglySorted_lt_NoDup.
  assert (NI : In (st_index st) is).
  { apply Q4. exists (st_x st). split; [apply HA|]. rewrite SC, SR, dist_refl.
    apply Rmult_le_pos; [apply GC|]. rewrite C2. lra. }
  edestruct (ab_filter _ _ _ _ _ _ _ _ TK h st (target_sample_size O) n
    (map (fun i => nth i X []) is) is (map_length _ _) NDo) as (fxs & idx & EF & NF); auto.
  { destruct is; [easy|discriminate]. }
  { apply GC. }
  { apply Forall_map, Forall_forall. intros i Hi'. rewrite Forall_forall in FD, Q3. apply FD, nth_In, Q3, Hi'. }
  eapply goes_bind; [apply (goes_query _ _ _ (eq (fxs, idx))); eauto|].
  intros h1 r _ (-> & <-).
  destruct (gk_filter _ _ _ _ GK _ _ _ _ _ _ _ _ (map_length _ _) NDo EF) as (LF & NDf & IF).
  destruct (aligned_sub X (st_x st :: map (fun i => nth i X []) is) (st_index st :: is) fxs idx LF)
    as [AF SF]; [|exact IF|].
  { simpl. f_equal. symmetry. apply nth_error_nth. apply HA. }
  assert (I1 : Forall (fun i => i < length X) idx).
  { apply Forall_forall. intros i Hi'. apply SF in Hi' as [<-|Hi']; [easy|].
    rewrite Forall_forall in Q3. auto. }
  eapply goes_bind.
  { apply (goes_query _ _ _ (eq (additional_info E n idx))).
    assert (G : exists r, get_additional_eval_info idx h n = Ok r).
    { unfold get_additional_eval_info, get_n_evals.
      rewrite (fvals_many_log _ _ _ _ _ _ idx HL HE I1 NDf). simpl. eauto. }
    destruct G as [r G]. exists r. split; [easy|]. symmetry.
    eapply additional_exact; eauto. }
  intros h1 ad _ (-> & <-).
  set (nn := Z.to_nat _).
  destruct (ab_sample _ _ _ _ _ _ _ _ TK t 0 h (st_region st) nn fxs RO) as (newX & ES & IS).
  eapply goes_bind; [apply (goes_query _ _ _ (eq newX)); eauto|]. intros h1 newX' _ (-> & <-).
  pose proof (gk_sample _ _ _ _ GK t 0 _ _ _ _ _ D1 ES) as DX.
  eapply goes_bind; [apply (goes_query _ _ _ T); eexists; split; [reflexivity|exact I]|].
  intros h1 ev2 _ (-> & _).
  destruct (m_add_xs_log _ _ _ _ _ _ newX HL DX) as (h2 & E3 & L2).
  eapply goes_bind; [apply goes_eq; exact E3|]. intros h1 new' _ (-> & ->).
  set (new := seq (length X) (length newX)) in *.
  assert (LA : length (X ++ newX) = length X + length newX) by apply app_length.
  rewrite dict_of_nodup by (rewrite map_fst_pairs; apply seq_NoDup).
  rewrite dict_update_fresh.
  2:{ now apply additional_nodup. }
  2:{ intros k Hk Hk2. rewrite map_fst_pairs in Hk2. apply in_seq in Hk2.
      apply in_map_iff in Hk as ([k' z] & <- & Hk). apply additional_keys in Hk. simpl in *.
      rewrite Forall_forall in I1. specialize (I1 _ Hk). lia. }
  assert (I2 : Forall (fun p => fst p < length (X ++ newX))
                 (map (fun i => (i, n)) new ++ additional_info E n idx)).
  { apply Forall_app. split.
    - apply Forall_map, Forall_forall. intros i Hi'. apply in_seq in Hi'. simpl. lia.
    - apply Forall_forall. intros [i z] Hiz. apply additional_keys in Hiz. simpl.
      rewrite Forall_forall in I1. specialize (I1 _ Hiz). lia. }
  eapply goes_bind.
  { eapply evaluate_goes; eauto. apply Forall_app. split.
    - apply Forall_map, Forall_forall. simpl. lia.
    - apply Forall_forall. intros [i z] Hiz. apply filter_In in Hiz as [_ Hiz].
      apply Z.ltb_lt in Hiz. simpl in *. lia. }
  intros h3 [] E4 _.
  destruct (evaluate_inv _ _ _ _ GK _ _ _ _ _ L2 E4 I2) as (newE & L3 & _).
  assert (HXa : X ++ newX <> []) by (destruct X; [easy|discriminate]).
  assert (I3 : Forall (fun i => i < length (X ++ newX)) (idx ++ new)).
  { apply Forall_app. split; apply Forall_forall; intros i Hi'.
    - rewrite Forall_forall in I1. specialize (I1 _ Hi'). lia.
    - apply in_seq in Hi'. lia. }
  assert (ND : NoDup (idx ++ new)).
  { apply NoDup_app'; [easy|apply seq_NoDup|].
    intros i Hi1 Hi2. rewrite Forall_forall in I1. specialize (I1 _ Hi1). apply in_seq in Hi2. lia. }
  assert (NE : E ++ newE <> []) by (destruct E; [easy|discriminate]).
  assert (BX : Forall (in_bounds b) newX).
  { exact IS. }
  unfold concatenate_indices.
  eapply goes_bind; [eapply xs_many_goes; eauto|]. intros h1 xs _ (-> & _).
  eapply goes_bind.
  { eapply fit_goes; eauto using st_ok_more. destruct idx; [easy|discriminate]. }
  intros h1 f _ _. apply goes_ret. unfold wk_ok. cbn. destruct idx; [easy|discriminate].
Qed.

Lemma drop_loop_goes st n h X E : haslog ft d w h X E -> E <> [] -> st_ok X st ->
  forall fuel wk, good_work ft d w K st X E n wk -> wk_ok wk -> length (w_xs wk) <= fuel ->
  goes (drop_loop K O fuel st wk) h (fun _ r => wk_ok r).
Proof.
  intros HL HE HS. pose proof (rc_target _ GC) as HT. pose proof (proj1 HS) as HA.
  induction fuel as [|fuel IH]; intros wk HW HK Hf; cbn [drop_loop].
  - destruct (Z.ltb_spec (target_sample_size O) (zlen (w_xs wk))) as [Hl|Hl].
    { unfold zlen in Hl. lia. }
    rewrite andb_false_r. now apply goes_ret.
  - destruct (_ && _) eqn:EC; [|now apply goes_ret].
    apply andb_prop in EC as [_ EC]. apply Z.ltb_lt in EC. unfold zlen in EC.
    destruct HW as [W1 W2 W3 W4 W5 W6].
    assert (LW : length (w_xs wk) = length (w_indices wk)) by (rewrite W3; apply map_length).
    destruct (C48_drop_worst_points_removes_n (fstate_of st) (w_xs wk) (w_indices wk) 1 LW ltac:(lia))
        as (xs' & idx' & ED & _).
    eapply goes_bind; [apply (goes_lift _ _ _ (eq (xs', idx'))); eauto|].
    intros h1 r _ (-> & <-).
    destruct (drop_aligned X st _ _ _ _ _ W3 W1 ED) as (A1 & A2 & A3 & A4 & _).
    assert (I' : Forall (fun i => i < length X) idx').
    { apply Forall_forall. rewrite Forall_forall in W2. auto. }
    assert (L' : length idx' = length xs') by (rewrite A1; now rewrite map_length).
    assert (N' : idx' <> []) by (intros ->; simpl in L'; lia).
    eapply goes_bind; [eapply fit_goes; eauto|]. intros h1 f E2 _.
    destruct (fit_and_solve_inv _ _ _ _ O GK st idx' _ X E n _ _ HL HE HA A2 I' ltac:(auto) E2)
      as (-> & D1 & F1 & F2 & F3 & _ & F4 & SV & FB).
    apply IH; [|exact N'|cbn; lia]. split; cbn; eauto.
Qed.

Lemma drop_phase_goes st n h X E wk : haslog ft d w h X E -> E <> [] -> st_ok X st ->
  good_work ft d w K st X E n wk -> wk_ok wk -> goes (drop_phase K O st wk) h (fun _ r => wk_ok r).
Proof.
  intros HL HE HA HW HK. unfold drop_phase. destruct (_ <? _)%Z; [|now apply goes_ret].
  eapply drop_loop_goes; eauto.
Qed.

Lemma trial_goes st n t j wk h X E : haslog ft d w h X E -> E <> [] -> st_ok X st ->
  good_work ft d w K st X E n wk -> wk_ok wk -> (1 <= n)%Z ->
  goes (trial K O t j st n wk) h (fun _ r => wk_ok r).
Proof.
  intros HL HE HS HW HK Hn. unfold trial. destruct HW as [W1 W2 W3 W4 W5 W6].
  pose proof (proj1 HS) as HA. pose proof (st_ok_region _ _ _ _ HL HS) as RO.
  destruct (at_point_dim _ _ _ _ _ _ _ HL HA) as (D1 & D2 & Hi).
  assert (Hd : d <> 0) by apply HL.
  assert (LW : length (w_xs wk) = length (w_indices wk)) by (rewrite W3; apply map_length).
  assert (HX : X <> []) by (intros ->; simpl in Hi; lia).
  eapply goes_bind.
  { apply (goes_lift _ _ _ (fun r => NoDup (snd r) /\ incl (snd r) (w_indices wk) /\ snd r <> [])).
    destruct (stag_drop (stag_o O)); simpl.
    2:{ eexists. split; [reflexivity|]. cbn. split; [easy|]. split; [apply incl_refl|apply HK]. }
    destruct (Nat.ltb_spec (sample_increment (stag_o O)) (length (w_xs wk))) as [Hl|Hl].
    2:{ eexists. split; [reflexivity|]. cbn. split; [easy|]. split; [apply incl_refl|apply HK]. }
    destruct (C48_drop_worst_points_removes_n (fstate_of st) (w_xs wk) (w_indices wk)
      (sample_increment (stag_o O)) LW ltac:(lia)) as (xs' & idx' & E1 & _).
    destruct (drop_aligned X st _ _ _ _ _ W3 W1 E1) as (A1 & A2 & A3 & A4 & _).
    exists (xs', idx'). split; [easy|]. cbn. split; [easy|]. split; [easy|].
    assert (L' : length idx' = length xs') by (rewrite A1; now rewrite map_length).
    intros ->. simpl in L'. lia. }
  intros h1 [xs' idx'] _ (-> & ND' & SB & NI). cbn [snd] in ND', SB, NI.
  assert (I' : Forall (fun i => i < length X) idx').
  { apply Forall_forall. rewrite Forall_forall in W2. auto. }
  destruct (ab_sample _ _ _ _ _ _ _ _ TK t (S j) h (st_region st) (sample_increment (stag_o O)) xs' RO)
    as (newX & ES & IS).
  eapply goes_bind; [apply (goes_query _ _ _ (eq newX)); eauto|]. intros h1 newX' _ (-> & <-).
  pose proof (gk_sample _ _ _ _ GK t (S j) _ _ _ _ _ D1 ES) as DX.
  eapply goes_bind; [apply (goes_query _ _ _ T); eexists; split; [reflexivity|exact I]|].
  intros h1 ev2 _ (-> & _).
  destruct (m_add_xs_log _ _ _ _ _ _ newX HL DX) as (h2 & E3 & L2).
  eapply goes_bind; [apply goes_eq; exact E3|]. intros h1 new' _ (-> & ->).
  set (new := seq (length X) (length newX)) in *.
  assert (LA : length (X ++ newX) = length X + length newX) by apply app_length.
  rewrite dict_of_nodup by (rewrite map_fst_pairs; apply seq_NoDup).
  assert (I2 : Forall (fun p => fst p < length (X ++ newX)) (map (fun i => (i, n)) new)).
  { apply Forall_map, Forall_forall. intros i Hi'. apply in_seq in Hi'. simpl. lia. }
  eapply goes_bind.
  { eapply evaluate_goes; eauto. apply Forall_map, Forall_forall. simpl. lia. }
  intros h3 [] E4 _.
  destruct (evaluate_inv _ _ _ _ GK _ _ _ _ _ L2 E4 I2) as (newE & L3 & _).
  assert (HXa : X ++ newX <> []) by (destruct X; [easy|discriminate]).
  assert (I3 : Forall (fun i => i < length (X ++ newX)) (idx' ++ new)).
  { apply Forall_app. split; apply Forall_forall; intros i Hi'.
    - rewrite Forall_forall in I'. specialize (I' _ Hi'). lia.
    - apply in_seq in Hi'. lia. }
  assert (ND : NoDup (idx' ++ new)).
  { apply NoDup_app'; [easy|apply seq_NoDup|].
    intros i Hi1 Hi2. rewrite Forall_forall in I'. specialize (I' _ Hi1). apply in_seq in Hi2. lia. }
  assert (NE : E ++ newE <> []) by (destruct E; [easy|discriminate]).
  assert (BX : Forall (in_bounds b) newX).
  { exact IS. }
  unfold concatenate_indices.
  eapply goes_bind; [eapply xs_many_goes; eauto|]. intros h1 xs _ (-> & _).
  eapply goes_bind.
  { eapply fit_goes; eauto using st_ok_more. destruct idx'; [easy|discriminate]. }
  intros h1 f _ _. apply goes_ret. unfold wk_ok. cbn. destruct idx'; [easy|discriminate].
Qed.

Lemma samplers_in_bounds h X E st t x : haslog ft d w h X E -> st_ok X st ->
  from_samplers K t st x -> in_bounds b x.
Proof.
  intros HL HS (j & h1 & m & n & xs & E1 & HI). pose proof (st_ok_region _ _ _ _ HL HS) as RO.
  destruct (ab_sample _ _ _ _ _ _ _ _ TK t j h1 (st_region st) n m RO) as (xs' & E2 & IS).
  rewrite E1 in E2. injection E2 as <-. rewrite Forall_forall in IS. auto.
Qed.

Lemma stag_loop_goes st n t : (1 <= n)%Z -> forall fuel j wk h X E,
  haslog ft d w h X E -> E <> [] -> st_ok X st -> good_work ft d w K st X E n wk -> wk_ok wk ->
  1 <= fuel -> max_trials (stag_o O) <= j + fuel ->
  goes (stag_loop K O fuel t j st n wk) h (fun _ r => wk_ok r).
Proof.
  intros Hn. induction fuel as [|fuel IH]; intros j wk h X E HL HE HS HW HK Hf Hm; [lia|].
  cbn [stag_loop]. destruct (xlt _ _); [|now apply goes_ret].
  eapply goes_bind; [eapply trial_goes; eauto|]. intros h1 w1 H HK1.
  destruct (trial_inv _ _ _ _ O GK _ _ _ _ _ _ _ _ _ _ HL HE (proj1 HS) HW H)
    as (newX & newE & evs & P & _ & _ & _ & (h2 & m & _ & ES) & _).
  destruct (Nat.leb_spec (max_trials (stag_o O)) (S j)) as [Hj|Hj]; [now apply goes_ret|].
  eapply IH; [apply P| | |apply P|exact HK1|lia|lia].
  - destruct E; [easy|discriminate].
  - apply st_ok_more; [|easy]. apply Forall_forall. intros y Hy.
    eapply samplers_in_bounds; [exact HL|exact HS|]. do 5 eexists. split; [exact ES|exact Hy].
Qed.

(** [J] is an invariant of points, evaluations and state that makes the estimation of the noise,
    the decision and the adjustment of the number of evaluations succeed. *)
Variable J : list vec -> list (nat * list xr) -> state VM SM -> Prop.
Hypothesis J_more : forall X X' E E' st, J X E st -> true_evals (k_crit K) (X ++ X') E' -> J (X ++ X') (E ++ E') st.
Hypothesis J_step : forall t v sub mi X X' E E' acc st st', J X E st ->
  decided ft (k_crit K) (k_decider K t v) sub (cur_of st) mi X X' E E' acc ->
  nth_error (X ++ X') (a_index acc) = Some (a_x acc) ->
  st_index st' = a_index acc -> J (X ++ X') (E ++ E') st'.
Hypothesis J_start : forall X E st, true_evals (k_crit K) X E ->
  map fst E = repeat 0 (Z.to_nat (if (1 <? n_evals_at_start O)%Z
                      then next_multiple (n_evals_at_start O) (batch_size O) else 1%Z)) ->
  st_index st = 0 -> J X E st.
Hypothesis noise_goes : forall t st n h X E wk, haslog ft d w h X E -> E <> [] -> st_ok X st -> (1 <= n)%Z ->
  good_work ft d w K st X E n wk -> wk_ok wk -> J X E st ->
  goes (noise_estimates K O st) h (fun h' nz => h' = h /\
    admissible ft d w (k_crit K) (k_decider K t (fst nz)) (f_sub (w_fit wk)) (cur_of st) X E /\
    (not_line_search (k_decider K t (fst nz)) \/ forall x, in_bounds b x) /\
    forall st' rho h1, st_region st' = st_region st -> st_vector_model st' = st_vector_model st ->
      goes (adapt_n_evals K O t st' wk (snd nz) rho n) h1 (fun h' r => h' = h1 /\ (1 <= fst r)%Z)).

Lemma iteration_goes st n t h X E : haslog ft d w h X E -> E <> [] -> st_ok X st -> (1 <= n)%Z -> J X E st ->
  goes (iteration K O t st n) h (fun h' r =>
    exists X' E', haslog ft d w h' X' E' /\ E' <> [] /\
      (solves_inside d b K -> st_ok X' (snd (fst r))) /\ (1 <= snd r)%Z /\ J X' E' (snd (fst r))).
Proof.
  intros HL HE HS Hn HJ. unfold iteration. pose proof (proj1 HS) as HA. assert (Hd : d <> 0) by apply HL.
  pose proof (st_ok_region _ _ _ _ HL HS) as RO.
  eapply goes_bind; [eapply first_model_goes; eauto|]. intros h1 [w0 old] EF HK0. cbn [fst] in HK0.
  destruct (first_model_inv _ _ _ _ O GK _ _ _ _ _ _ _ _ _ HL HE HA EF)
    as (X1 & E1 & evs1 & fxs & idx & P1 & F1).
  assert (B1 : Forall (in_bounds b) X1).
  { pose proof (ff_sample _ _ _ _ _ _ _ _ _ _ _ _ _ _ _ F1) as SA.
    apply Forall_forall. intros y Hy. eapply samplers_in_bounds; [exact HL|exact HS|].
    do 5 eexists. split; [exact SA|exact Hy]. }
  assert (NE1 : E ++ E1 <> []) by (destruct E; [easy|discriminate]).
  pose proof (ph_log _ _ _ _ _ _ _ _ _ _ _ _ _ _ _ P1) as L1.
  pose proof (ph_work _ _ _ _ _ _ _ _ _ _ _ _ _ _ _ P1) as W1.
  pose proof (st_ok_more _ _ _ B1 HS) as S1.
  eapply goes_bind; [eapply drop_phase_goes; eauto|].
  intros h2 w1 ED HK1.
  destruct (drop_phase_inv _ _ _ _ O GK st n _ _ _ _ _ _ L1 NE1 (proj1 S1) W1 ED) as (-> & evs2 & P2 & _).
  pose proof (ph_work _ _ _ _ _ _ _ _ _ _ _ _ _ _ _ P2) as W2. rewrite !app_nil_r in W2.
  eapply goes_bind.
  { unfold stag_phase. eapply stag_loop_goes; eauto; lia. }
  intros h3 wk EG HK3.
  destruct (stag_phase_inv _ _ _ _ O GK st n t _ _ _ _ _ _ L1 NE1 (proj1 S1)
     W2 EG) as (X3 & E3 & evs3 & P3 & _ & _ & FS & _).
  assert (B3 : Forall (in_bounds b) X3).
  { apply Forall_forall. intros y Hy. eapply samplers_in_bounds; [exact HL|exact HS|auto]. }
  pose proof (ph_log _ _ _ _ _ _ _ _ _ _ _ _ _ _ _ P3) as L3.
  pose proof (ph_work _ _ _ _ _ _ _ _ _ _ _ _ _ _ _ P3) as W3.
  assert (NE3 : (E ++ E1) ++ E3 <> []) by (destruct E; [easy|discriminate]).
  pose proof (st_ok_more _ _ _ B3 S1) as S3.
  eapply goes_bind.
  { apply (noise_goes t st n _ _ _ wk L3 NE3 S3 Hn W3 HK3).
    apply J_more; [|apply P3]. apply J_more; [exact HJ|apply P1]. }
  intros h4 nz _ (-> & AD & NL & AN).
  eapply goes_bind.
  { destruct (decider_form _ _ _ _ _ _ _ (k_cores K) _ _ _ (min_improvement O) L3 AD)
      as (h' & newX & newE & nn & k & cx & n1 & n2 & _ & _ & _ & _ & _ & _ & _ & _ & _ & ER).
    eapply (goes_weaken _ _ _ _ (fun _ _ => True)); [apply goes_eq; exact ER|easy]. }
  intros h5 acc EA _.
  destruct (decider_inv _ _ _ _ _ _ _ _ _ _ (cur_of st) _ _ _ L3 (gk_crit _ _ _ _ GK)
    (gw_dim _ _ _ _ _ _ _ _ _ W3) (proj1 (proj1 S3)) NE3 (gk_decider _ _ _ _ GK _ _) EA) as (X2 & E2 & L4 & DC).
  assert (B2 : solves_inside d b K -> Forall (in_bounds b) X2).
  { intros SI. destruct NL as [NL|AB]; [|now apply Forall_forall].
    rewrite (dc_newX _ _ _ _ _ _ _ _ _ _ _ DC NL).
    constructor; [|constructor]. apply (SI _ _ _ RO (gw_solve _ _ _ _ _ _ _ _ _ W3)). }
  pose proof (at_point_more _ X2 _ (proj1 S3)) as A4.
  eapply goes_bind.
  { apply AN; reflexivity. }
  intros h6 r _ (-> & N1).
  assert (IX : nth_error (((X ++ X1) ++ X3) ++ X2) (a_index acc) = Some (a_x acc)).
  { destruct (a_accepted acc) eqn:Ea.
    - now apply (dc_acc _ _ _ _ _ _ _ _ _ _ _ DC).
    - destruct (dc_rej _ _ _ _ _ _ _ _ _ _ _ DC Ea) as (-> & _ & ->). apply A4. }
  pose proof (nth_error_In _ _ IX) as IN.
  set (nr := adjust_radius _ _ _ _ _).
  assert (Hnr : (0 < nr)%R).
  { eapply Rlt_le_trans; [apply GC|]. unfold nr. apply C20_radius_in_limits; [apply GC|].
    now rewrite (rc_ratio _ GC). }
  assert (RB : r_bounds (st_region st) = b).
  { destruct RO as (c & rad & _ & _ & _ & M). now apply make_region_center in M. }
  assert (LX : length (a_x acc) = d).
  { destruct (haslog_dims _ _ _ _ _ _ L4) as (F & _). rewrite Forall_forall in F. auto. }
  destruct (region_go2 (a_x acc) nr LX Hd) as [reg ER].
  eapply goes_bind.
  { apply (goes_lift _ _ _ (eq reg)). unfold replace_center_radius. cbn [update_state st_region].
    rewrite RB. eauto. }
  intros h7 reg' _ (-> & <-). apply goes_ret. cbn [fst snd].
  exists ((((X ++ X1) ++ X3) ++ X2)), (((E ++ E1) ++ E3) ++ E2).
  split; [exact L4|]. split; [destruct E; [easy|discriminate]|]. split.
  2:{ split; [exact N1|]. eapply J_step; [|exact DC|exact IX|reflexivity].
      apply J_more; [|apply P3]. apply J_more; [exact HJ|apply P1]. }
  intros SI. apply make_region_center in ER as MC. destruct MC as (C1 & _).
  split; [|split; [apply HS|split; [|exists (a_x acc), nr; auto]]].
  - split; cbn; [exact IX|exact C1].
  - apply Forall_app. split; [apply S3|now apply B2].
Qed.

Lemma loop_goes : forall k t st n pre last h X E,
  haslog ft d w h X E -> E <> [] -> st_ok X st -> (1 <= n)%Z -> J X E st -> (k <= 1 \/ solves_inside d b K) ->
  forall c m, goes (loop K O k t st n (pre ++ [last]) c m) h
    (fun h' r => exists X' E', haslog ft d w h' X' E' /\ (solves_inside d b K -> Forall (in_bounds b) X')).
Proof.
  induction k as [|k IH]; intros t st n pre last h X E HL HE HS Hn HJ Hk c m; cbn [loop].
  { apply goes_ret. exists X, E. split; [easy|]. intros _. apply HS. }
  eapply goes_bind; [eapply iteration_goes; eauto|].
  intros h1 [[ap st'] n'] _ (X' & E' & L' & NE' & S' & En & J'). cbn [fst snd] in S', En, J'.
  eapply goes_bind.
  { apply (goes_lift _ _ _ T). unfold check_convergence. destruct (_ && _).
    - rewrite last_two_app. cbn [bind]. destruct (is_converged _ _ _ _). eexists. split; [reflexivity|exact I].
    - eexists. split; [reflexivity|exact I]. }
  intros h2 [[c' m'] stop] _ (-> & _).
  assert (DONE : forall r : result VM SM, goes (mret r) h1
    (fun h' _ => exists X' E', haslog ft d w h' X' E' /\ (solves_inside d b K -> Forall (in_bounds b) X'))).
  { intros r. apply goes_ret. exists X', E'. split; [easy|]. intros SI. apply (S' SI). }
  destruct stop; [apply DONE|].
  eapply goes_bind; [apply (goes_query _ _ _ T); eexists; split; [reflexivity|exact I]|].
  intros h2 nf _ (-> & _).
  destruct (_ <=? _)%Z; [apply DONE|].
  destruct Hk as [Hk|SI].
  - destruct k; [|lia]. cbn [loop]. apply DONE.
  - eapply IH; eauto.
Qed.

Lemma tranquilo_goes_gen pad x r0 : d <> 0 -> w <> 0 -> length x = d -> in_bounds b x -> (0 < r0)%R ->
  (max_iter (stop_o O) <= 1 \/ solves_inside d b K) ->
  exists h r X E, tranquilo K O ft pad x r0 b = (h, Ok r) /\
    haslog ft d w h X E /\ (solves_inside d b K -> Forall (in_bounds b) X).
Proof.
  intros Hd Hw Hx IB Hr HM.
  assert (G : goes (do _ <- m_add_x x; do reg <- mlift (make_region x r0 b);
                    internal_tranquilo K O x reg) (hist_init ft pad)
    (fun h' r => exists X' E', haslog ft d w h' X' E' /\ (solves_inside d b K -> Forall (in_bounds b) X'))).
  2:{ destruct G as (h & r & E1 & X & E & L & F). exists h, r, X, E. auto. }
  destruct (m_add_x_log _ _ _ _ _ _ x (haslog_init ft pad d w Hd Hw) Hx) as (h1 & E1 & L1).
  eapply goes_bind; [apply goes_eq; exact E1|]. intros h1' i _ (-> & ->).
  destruct (region_go2 x r0 Hx Hd) as [reg ER].
  eapply goes_bind; [apply (goes_lift _ _ _ (eq reg)); eauto|]. intros h2 reg' _ (-> & <-).
  pose proof (make_region_center _ _ _ _ ER) as (RC & _ & RB).
  unfold internal_tranquilo. pose proof (rc_batch _ GC) as GB.
  assert (RO : region_of d b reg) by (exists x, r0; auto).
  eapply goes_bind.
  { unfold initial_state.
    set (nz := if _ : bool then _ else 1%Z).
    assert (NZ : (1 <= nz)%Z).
    { unfold nz. destruct (Z.ltb_spec 1 (n_evals_at_start O)) as [Hs|Hs]; [|lia].
      destruct (C35_next_multiple (n_evals_at_start O) (batch_size O)) as (_ & Q & _); lia. }
    assert (I2 : Forall (fun p => fst p < length ([] ++ [x])) [(0, nz)]) by (repeat constructor).
    eapply goes_bind.
    { eapply evaluate_goes; eauto. }
    intros h2 [] E4 _.
    destruct (evaluate_inv _ _ _ _ GK _ _ _ _ _ L1 E4 I2) as (newE & L3 & TE & MF & _).
    cbn [map fst snd] in MF. rewrite expand_one in MF.
    assert (NE : [] ++ newE <> []).
    { simpl. intros ->. simpl in MF. destruct (Z.to_nat nz) eqn:En; [lia|discriminate]. }
    cbn [app] in *.
    destruct (haslog_rep _ _ _ _ _ _ L3) as [HR _].
    pose proof (q_fvecs_one _ _ _ _ _ HR 0 NE ltac:(simpl; lia)) as Q. simpl in Q.
    eapply goes_bind; [apply (goes_query _ _ _ (eq (evals_of 0 newE))); eauto|].
    intros h3 fv _ (-> & <-).
    assert (WD : fvecs_width h2 = ft_w ft w).
    { unfold fvecs_width. pose proof (rep_fvecs _ _ _ _ _ HR) as [Q1 Q2].
      destruct (h_fvecs h2); [easy|]. simpl in Q1. destruct newE; [easy|discriminate]. }
    eapply goes_bind; [apply (goes_query _ _ _ (eq (mean_rows (ft_w ft w) (evals_of 0 newE)))); rewrite WD; eauto|].
    intros h3 fv2 _ (-> & <-).
    assert (OK : okf (mean_rows (ft_w ft w) (evals_of 0 newE))).
    { eapply (ab_start _ _ _ _ _ _ _ _ TK); [exact TE|].
      intros HZ. apply (f_equal (@length _)) in HZ. rewrite evals_of_length, MF in HZ.
      simpl in HZ. destruct (Z.to_nat nz) eqn:En; [lia|]. simpl in HZ. discriminate. }
    destruct (ab_init _ _ _ _ _ _ _ _ TK _ reg RO (mean_rows_length _ _) OK) as (VO & sm & EA).
    eapply goes_bind; [apply (goes_lift _ _ _ (eq sm)); eauto|]. intros h3 sm' _ (-> & <-).
    eapply goes_bind.
    { apply goes_eq. apply (m_fvals_log _ _ _ _ _ _ 0 L3 NE). simpl. lia. }
    intros h3 fs _ (-> & ->).
    apply (goes_ret _ _ _ (fun h' st => VMold (st_vector_model st))). exact VO. }
  intros h2 st0 EI VO.
  destruct (initial_state_inv _ _ _ _ _ GK _ _ _ _ _ _ L1 eq_refl RC GB EI)
    as (E0 & L0 & T0 & MF & NE & A0 & I1 & I2 & I3 & _).
  apply (loop_goes _ _ _ _ [] st0 _ _ _ L0 NE); [|apply GC|apply J_start; auto|exact HM].
  split; [exact A0|]. split; [exact VO|]. split; [repeat constructor; exact IB|].
  exists x, r0. rewrite I3. auto.
Qed.

End Progress.

(** Runs that are not noisy need no invariant. *)
Lemma tranquilo_goes {VM SM CV} ft d w b okf VMold SMok (K : components VM SM CV) O :
  good_components ft d w K -> able_components ft d w b okf VMold SMok K -> able_decider ft d b K ->
  quiet_config O -> two_sided b -> bounds_dim d b ->
  forall pad x r0, d <> 0 -> w <> 0 -> length x = d -> in_bounds b x -> (0 < r0)%R ->
  (max_iter (stop_o O) <= 1 \/ solves_inside d b K) ->
  exists h r X E, tranquilo K O ft pad x r0 b = (h, Ok r) /\
    haslog ft d w h X E /\ (solves_inside d b K -> Forall (in_bounds b) X).
Proof.
  intros GK TK TD QC HB2 HBD pad x r0.
  apply (tranquilo_goes_gen ft d w b okf VMold SMok K O GK TK (quiet_run _ QC) HB2 HBD (fun _ _ _ => True));
    try easy.
  intros t st n h X E wk HL HE HS Hn W3 _ _. pose proof (proj1 HS) as HA.
  pose proof (st_ok_region ft d w b VMold _ _ _ _ HL HS) as RO.
  unfold noise_estimates. rewrite (qc_noisy _ QC). apply goes_ret. cbn [fst snd]. split; [easy|].
  specialize (TD t). split; [|split].
  - split; [apply GK|]. split; [apply W3|].
    destruct (k_decider K t None) as [| |s rf bs|]; try exact I; [|easy].
    destruct TD as (T1 & T2 & T3 & T4 & T5).
    destruct (at_point_dim _ _ _ _ _ _ _ HL HA) as (_ & D2 & _).
    split; [easy|]. split; [easy|]. split; [|split; [easy|]; split; [easy|]].
    + intros h' reg k mx MR. apply T5. cbn [cur_of c_region] in MR.
      assert (RB : r_bounds (st_region st) = b).
      { destruct RO as (c & rad & _ & _ & _ & M). now apply make_region_center in M. }
      rewrite RB in MR. do 2 eexists. split; [apply W3|]. split; [apply T4|]. split; [|exact MR].
      destruct RO as (c & rad & _ & _ & Hr & M). apply make_region_center in M as MC.
      destruct MC as (_ & R2 & _). apply Rmult_lt_0_compat; [easy|]. rewrite R2. exact Hr.
    + cbn [cur_of c_region]. destruct RO as (c & rad & _ & _ & _ & M).
      apply make_region_center in M as (_ & _ & ->). now split.
  - destruct (k_decider K t None); try (left; exact I). right. apply TD.
  - intros st' rho h1 _ _. unfold adapt_n_evals. rewrite (qc_noisy _ QC). now apply goes_ret.
Qed.
