(** Property C182: runs that stop later continue the shorter ones. *)
From Coq Require Import Reals List Arith ZArith Bool Lia Lra.
From Verif Require Import Base XR Vec FVec HistoryModel HistorySpec HistoryProofs WrapModel WrapProofs
  VolumeModel RegionModel AdjustModel AcceptModel FilterModel SubproblemModel
  LogSpec LogProofs Prop_Region Prop_Adjust AcceptProofs Prop_Accept Prop_Filter
  MainModel MainProofs MainPhases MainLoop Prop_Main Prop_Main2.
Import ListNotations.
Open Scope nat_scope.

(** Both configurations agree but for the stopping rules; the rules of [O'] are not stricter than
    those of [O]: as many iterations and evaluations, tolerances that are not larger. *)
Record stops_later (O O' : config) : Prop := {
  sl_noisy : noisy O' = noisy O;
  sl_radius : radius_o O' = radius_o O;
  sl_noise : noise_o O' = noise_o O;
  sl_batch : batch_size O' = batch_size O;
  sl_target : target_sample_size O' = target_sample_size O;
  sl_stag : stag_o O' = stag_o O;
  sl_search : search_radius_factor O' = search_radius_factor O;
  sl_n : n_evals_per_point0 O' = n_evals_per_point0 O;
  sl_start : n_evals_at_start O' = n_evals_at_start O;
  sl_min : min_improvement O' = min_improvement O;
  sl_iter : max_iter (stop_o O) <= max_iter (stop_o O');
  sl_eval : (max_eval (stop_o O) <= max_eval (stop_o O'))%Z;
  sl_conv : disable (conv_o O') = true \/ disable (conv_o O) = false /\
    (ftol_abs (conv_o O') <= ftol_abs (conv_o O) /\ gtol_abs (conv_o O') <= gtol_abs (conv_o O) /\
     xtol_abs (conv_o O') <= xtol_abs (conv_o O) /\ ftol_rel (conv_o O') <= ftol_rel (conv_o O) /\
     gtol_rel (conv_o O') <= gtol_rel (conv_o O) /\ xtol_rel (conv_o O') <= xtol_rel (conv_o O))%R
}.

Section Budget.
Context {VM SM CV : Type}.
Variables (ft : functype) (d w : nat) (K : components VM SM CV) (O O' : config).
Hypothesis SL : stops_later O O'.

Lemma same_iteration : iteration K O' = iteration K O.
Proof. destruct SL, O, O'. cbn in *. subst. reflexivity. Qed.
Lemma same_start : initial_state K O' = initial_state K O.
Proof. destruct SL, O, O'. cbn in *. subst. reflexivity. Qed.

Lemma xle_trans_fin x a b : (a <= b)%R -> xle x (Fin a) = true -> xle x (Fin b) = true.
Proof.
  destruct x; simpl; try easy. intros H1 H2. destruct (Rleb_spec r a); [|easy].
  destruct (Rleb_spec r b); [easy|lra].
Qed.

Lemma converged_later old new : disable (conv_o O') = false ->
  fst (is_converged K old new (conv_o O')) = true ->
  disable (conv_o O) = false /\ fst (is_converged K old new (conv_o O)) = true.
Proof.
  intros HD H. destruct (sl_conv _ _ SL) as [C|(C & T1 & T2 & T3 & T4 & T5 & T6)]; [congruence|]. split; [easy|].
  unfold is_converged in *.
  repeat match goal with |- context [xle ?a (Fin ?b)] => destruct (xle a (Fin b)) eqn:?; [reflexivity|] end.
  repeat match type of H with context [xle ?a (Fin ?b)] => let Q := fresh in destruct (xle a (Fin b)) eqn:Q;
    [eapply xle_trans_fin in Q; [|eassumption]; congruence|] end.
  exact H.
Qed.

(** One pass of the loop, written out. *)
Definition stop_now (P : config) (last ap : state VM SM) : bool * option message :=
  if st_accepted ap && negb (disable (conv_o P)) then is_converged K last ap (conv_o P) else (false, None).

Lemma loop_S P k t st n pre last h :
  loop K P (S k) t st n (pre ++ [last]) false None h =
  match iteration K P t st n h with
  | (h1, Err e) => (h1, Err e)
  | (h1, Ok (ap, st', n')) =>
      let states' := (pre ++ [last]) ++ [ap] in
      let '(c, m) := stop_now P last ap in
      if c then (h1, Ok (make_result st' states' c m))
      else if (max_eval (stop_o P) <=? Z.of_nat (get_n_fun h1))%Z
      then (h1, Ok (make_result st' states' false (Some MsgMaxEval)))
      else loop K P k (S t) st' n' states' false None h1
  end.
Proof.
  cbn [loop]. unfold mbind at 1. destruct (iteration K P t st n h) as [h1 [[[ap st'] n']|e]]; [|reflexivity].
  unfold check_convergence, stop_now.
  destruct (st_accepted ap && negb (disable (conv_o P))).
  - rewrite last_two_app. cbn [bind]. destruct (is_converged K last ap (conv_o P)) as [[] m] eqn:EC; [reflexivity|].
    apply is_converged_false in EC as ->. unfold mbind, mlift, mquery.
    destruct (max_eval (stop_o P) <=? Z.of_nat (get_n_fun h1))%Z; reflexivity.
  - unfold mbind, mlift, mquery. destruct (max_eval (stop_o P) <=? Z.of_nat (get_n_fun h1))%Z; reflexivity.
Qed.

Lemma stop_later last ap : fst (stop_now O' last ap) = true -> fst (stop_now O last ap) = true.
Proof.
  unfold stop_now. destruct (st_accepted ap); simpl; [|easy]. destruct (disable (conv_o O')) eqn:E; simpl; [easy|].
  intros H. destruct (converged_later _ _ E H) as [-> Q]. exact Q.
Qed.

(** The longer loop fails where the shorter one does, and otherwise continues it. *)
Lemma loop_continues : forall k k' t st n pre last h, k <= k' ->
  match loop K O k t st n (pre ++ [last]) false None h with
  | (h1, Err e) => loop K O' k' t st n (pre ++ [last]) false None h = (h1, Err e)
  | (h1, Ok r) => exists st2 t2, st_x st2 = solution_x r /\ st_fval st2 = solution_criterion r /\
      ((exists r2, loop K O' k' t st n (pre ++ [last]) false None h = (h1, Ok r2) /\ res_states r2 = res_states r /\
         solution_x r2 = solution_x r /\ solution_criterion r2 = solution_criterion r) \/
       exists k2 n2 pre2 last2, res_states r = pre2 ++ [last2] /\
         loop K O' k' t st n (pre ++ [last]) false None h = loop K O' k2 t2 st2 n2 (res_states r) false None h1) /\
      forall X E, good_components ft d w K -> haslog ft d w h X E -> E <> [] -> at_point X st ->
        exists X1 E1, haslog ft d w h1 (X ++ X1) (E ++ E1) /\ at_point (X ++ X1) st2
  end.
Proof.
  induction k as [|k IH]; intros k' t st n pre last h Hk.
  { cbn [loop]. unfold mret. exists st, t. split; [easy|]. split; [easy|]. split.
    - right. exists k', n, pre, last. split; easy.
    - intros X E _ HL _ HA. exists [], []. now rewrite !app_nil_r. }
  destruct k' as [|k']; [lia|]. rewrite !loop_S, same_iteration.
  destruct (iteration K O t st n h) as [h1 [[[ap st'] n']|e]] eqn:EI; [|reflexivity].
  assert (GL : forall X E, good_components ft d w K -> haslog ft d w h X E -> E <> [] -> at_point X st ->
     exists X1 E1, haslog ft d w h1 (X ++ X1) (E ++ E1) /\ E ++ E1 <> [] /\ at_point (X ++ X1) st').
  { intros X E GK HL HE HA. destruct (iteration_link ft d w K O GK _ _ _ _ _ _ _ _ _ _ HL HE HA EI) as (X' & E' & LK).
    destruct (lk_X _ _ _ _ _ _ _ _ LK) as [X2 EX]. destruct (lk_E _ _ _ _ _ _ _ _ LK) as [E2 EE]. cbn in EX, EE.
    destruct (lk_b _ _ _ _ _ _ _ _ LK) as (B1 & B2 & B3). cbn in B1, B2, B3. subst. eauto. }
  cbv zeta. destruct (stop_now O last ap) as [c m] eqn:S1. destruct (stop_now O' last ap) as [c' m'] eqn:S2.
  assert (SS : c' = true -> c = true).
  { intros ->. pose proof (stop_later last ap) as Q. rewrite S1, S2 in Q. now apply Q. }
  assert (STOP : forall m0 b0, exists st2 t2, st_x st2 = solution_x (make_result st' ((pre ++ [last]) ++ [ap]) b0 m0) /\
      st_fval st2 = solution_criterion (make_result st' ((pre ++ [last]) ++ [ap]) b0 m0) /\
      ((exists r2, (if c' then (h1, Ok (make_result st' ((pre ++ [last]) ++ [ap]) c' m'))
         else if (max_eval (stop_o O') <=? Z.of_nat (get_n_fun h1))%Z
         then (h1, Ok (make_result st' ((pre ++ [last]) ++ [ap]) false (Some MsgMaxEval)))
         else loop K O' k' (S t) st' n' ((pre ++ [last]) ++ [ap]) false None h1) = (h1, Ok r2) /\
         res_states r2 = (pre ++ [last]) ++ [ap] /\ solution_x r2 = st_x st' /\ solution_criterion r2 = st_fval st') \/
       exists k2 n2 pre2 last2, (pre ++ [last]) ++ [ap] = pre2 ++ [last2] /\
         (if c' then (h1, Ok (make_result st' ((pre ++ [last]) ++ [ap]) c' m'))
         else if (max_eval (stop_o O') <=? Z.of_nat (get_n_fun h1))%Z
         then (h1, Ok (make_result st' ((pre ++ [last]) ++ [ap]) false (Some MsgMaxEval)))
         else loop K O' k' (S t) st' n' ((pre ++ [last]) ++ [ap]) false None h1)
         = loop K O' k2 t2 st2 n2 ((pre ++ [last]) ++ [ap]) false None h1) /\
      forall X E, good_components ft d w K -> haslog ft d w h X E -> E <> [] -> at_point X st ->
        exists X1 E1, haslog ft d w h1 (X ++ X1) (E ++ E1) /\ at_point (X ++ X1) st2).
  { intros m0 b0. exists st', (S t). split; [easy|]. split; [easy|]. split.
    - destruct c'; [left; eexists; split; [reflexivity|easy]|].
      destruct (max_eval (stop_o O') <=? Z.of_nat (get_n_fun h1))%Z; [left; eexists; split; [reflexivity|easy]|].
      right. exists k', n', (pre ++ [last]), ap. easy.
    - intros X E GK HL HE HA. destruct (GL X E GK HL HE HA) as (X1 & E1 & Q1 & _ & Q2). eauto. }
  destruct c; [apply STOP|].
  assert (c' = false) as -> by (destruct c'; [now specialize (SS eq_refl)|easy]).
  destruct (Z.leb_spec (max_eval (stop_o O)) (Z.of_nat (get_n_fun h1))) as [H1|H1]; [apply STOP|].
  clear STOP. pose proof (sl_eval _ _ SL) as HE'.
  destruct (Z.leb_spec (max_eval (stop_o O')) (Z.of_nat (get_n_fun h1))) as [H2|H2]; [lia|].
  specialize (IH k' (S t) st' n' (pre ++ [last]) ap h1 ltac:(lia)).
  destruct (loop K O k (S t) st' n' ((pre ++ [last]) ++ [ap]) false None h1) as [h2 [r|e]]; [|exact IH].
  destruct IH as (st2 & t2 & I1 & I2 & I3 & I4). exists st2, t2. split; [easy|]. split; [easy|]. split; [exact I3|].
  intros X E GK HL HE HA. destruct (GL X E GK HL HE HA) as (X1 & E1 & Q1 & Q2 & Q3).
  destruct (I4 _ _ GK Q1 Q2 Q3) as (X2 & E2 & Q4 & Q5). exists (X1 ++ X2), (E1 ++ E2). now rewrite !app_assoc.
Qed.
End Budget.

(** The loop only appends states. *)
Lemma loop_states {VM SM CV} (K : components VM SM CV) O : forall k t st n pre last h h' r,
  loop K O k t st n (pre ++ [last]) false None h = (h', Ok r) ->
  exists l, res_states r = (pre ++ [last]) ++ l /\
    (l = [] -> h' = h /\ solution_x r = st_x st /\ solution_criterion r = st_fval st).
Proof.
  induction k as [|k IH]; intros t st n pre last h h' r H.
  { cbn [loop] in H. injection H as <- <-. exists []. now rewrite app_nil_r. }
  rewrite loop_S in H. destruct (iteration K O t st n h) as [h1 [[[ap st'] n']|e]]; [|discriminate]. cbv zeta in H.
  destruct (stop_now K O last ap) as [c m]. destruct c.
  { injection H as <- <-. exists [ap]. now split. }
  destruct (max_eval (stop_o O) <=? Z.of_nat (get_n_fun h1))%Z.
  { injection H as <- <-. exists [ap]. now split. }
  apply IH in H as (l & E & _). exists (ap :: l). split; [|easy]. rewrite E. now rewrite <- !app_assoc.
Qed.

Lemma stops_later_refl O : stops_later O O.
Proof. constructor; auto; try lia. destruct (disable (conv_o O)); [now left|right]. repeat split; lra. Qed.

(** What a run does up to the loop does not depend on the stopping rules. *)
Lemma run_split {VM SM CV} (K : components VM SM CV) O ft pad x r0 b :
  (exists h e, forall O', stops_later O O' -> tranquilo K O' ft pad x r0 b = (h, Err e)) \/
  exists h1 i reg h0 st0, m_add_x x (hist_init ft pad) = (h1, Ok i) /\ make_region x r0 b = Ok reg /\
    initial_state K O x reg h1 = (h0, Ok st0) /\
    forall O', stops_later O O' -> tranquilo K O' ft pad x r0 b =
      loop K O' (max_iter (stop_o O')) 0 st0 (n_evals_per_point0 O) ([] ++ [st0]) false None h0.
Proof.
  unfold tranquilo, internal_tranquilo, mbind, mlift.
  destruct (m_add_x x (hist_init ft pad)) as [h1 [i|e]]; [|left; eauto].
  destruct (make_region x r0 b) as [reg|e]; [|left; eauto].
  destruct (initial_state K O x reg h1) as [h0 [st0|e]] eqn:E0.
  - right. exists h1, i, reg, h0, st0. split; [easy|]. split; [easy|]. split; [easy|].
    intros O' SL. rewrite (same_start K O O' SL), E0, (sl_n _ _ SL). reflexivity.
  - left. exists h0, e. intros O' SL. now rewrite (same_start K O O' SL), E0.
Qed.

(** C182 - a run that stops because of an error stops in the same way with weaker stopping rules. *)
Theorem C182_errors_do_not_depend_on_stopping :
  forall VM SM CV (K : components VM SM CV) O O' ft pad x r0 b h e,
    stops_later O O' -> tranquilo K O ft pad x r0 b = (h, Err e) ->
    tranquilo K O' ft pad x r0 b = (h, Err e).
Proof.
  intros VM SM CV K O O' ft pad x r0 b h e SL H.
  destruct (run_split K O ft pad x r0 b) as [(h' & e' & Q)|(h1 & i & reg & h0 & st0 & _ & _ & _ & Q)].
  - rewrite (Q O (stops_later_refl O)) in H. now rewrite (Q O' SL).
  - rewrite (Q O (stops_later_refl O)) in H. rewrite (Q O' SL).
    pose proof (loop_continues ft 0 0 K O O' SL (max_iter (stop_o O)) (max_iter (stop_o O')) 0 st0 (n_evals_per_point0 O)
      [] st0 h0 (sl_iter _ _ SL)) as C. rewrite H in C. exact C.
Qed.

(** C182 - weaker stopping rules only add states; without new states nothing changes. *)
Theorem C182_longer_runs_continue :
  forall VM SM CV (K : components VM SM CV) O O' ft pad x r0 b h r h' r',
    stops_later O O' ->
    tranquilo K O ft pad x r0 b = (h, Ok r) -> tranquilo K O' ft pad x r0 b = (h', Ok r') ->
    exists l, res_states r' = res_states r ++ l /\
      (l = [] -> h' = h /\ solution_x r' = solution_x r /\ solution_criterion r' = solution_criterion r).
Proof.
  intros VM SM CV K O O' ft pad x r0 b h r h' r' SL H H'.
  destruct (run_split K O ft pad x r0 b) as [(h2 & e2 & Q)|(h1 & i & reg & h0 & st0 & _ & _ & _ & Q)].
  { rewrite (Q O (stops_later_refl O)) in H. discriminate. }
  rewrite (Q O (stops_later_refl O)) in H. rewrite (Q O' SL) in H'.
  pose proof (loop_continues ft 0 0 K O O' SL (max_iter (stop_o O)) (max_iter (stop_o O')) 0 st0 (n_evals_per_point0 O)
      [] st0 h0 (sl_iter _ _ SL)) as C. rewrite H in C.
  destruct C as (st2 & t2 & C1 & C2 & [(r2 & C3 & C4 & C5 & C6)|(k2 & n2 & pre2 & last2 & C3 & C4)] & _).
  - rewrite H' in C3. injection C3 as -> ->. exists []. now rewrite app_nil_r.
  - rewrite H', C3 in C4. symmetry in C4. apply loop_states in C4 as (l & L1 & L2). exists l. rewrite C3.
    split; [exact L1|]. intros Hl. destruct (L2 Hl) as (-> & L3 & L4). now rewrite L3, L4, C1, C2.
Qed.

(** C182 - the history of the shorter run is the beginning of the history of the longer one. *)
Theorem C182_history_continues :
  forall VM SM CV ft d w (K : components VM SM CV) O O' pad x r0 b h r h' r',
    stops_later O O' ->
    valid_run ft d w K O pad x r0 b h r -> valid_run ft d w K O' pad x r0 b h' r' ->
    get_n_xs h <= get_n_xs h' /\ get_n_fun h <= get_n_fun h' /\
    forall i, i < get_n_xs h -> exists y l l', get_xs_one h (Z.of_nat i) = Ok y /\ get_xs_one h' (Z.of_nat i) = Ok y /\
      get_fvals_one h (Z.of_nat i) = Ok l /\ get_fvals_one h' (Z.of_nat i) = Ok (l ++ l').
Proof.
  intros VM SM CV ft d w K O O' pad x r0 b h r h' r' SL V V'.
  pose proof (vr_K _ _ _ _ _ _ _ _ _ _ _ V) as GK.
  destruct (run_split K O ft pad x r0 b) as [(h2 & e2 & Q)|(h1 & i0 & reg & h0 & st0 & Q1 & Q2 & Q3 & Q)].
  { pose proof (vr_run _ _ _ _ _ _ _ _ _ _ _ V) as H. rewrite (Q O (stops_later_refl O)) in H. discriminate. }
  pose proof (vr_run _ _ _ _ _ _ _ _ _ _ _ V) as H. rewrite (Q O (stops_later_refl O)) in H.
  pose proof (vr_run _ _ _ _ _ _ _ _ _ _ _ V') as H'. rewrite (Q O' SL) in H'.
  destruct (m_add_x_log _ _ _ _ _ _ x (haslog_init ft pad d w (vr_d _ _ _ _ _ _ _ _ _ _ _ V) (vr_w _ _ _ _ _ _ _ _ _ _ _ V))
    (vr_x _ _ _ _ _ _ _ _ _ _ _ V)) as (h1' & E1 & L1). rewrite Q1 in E1. injection E1 as E1a _. subst h1'.
  apply make_region_center in Q2 as RC. destruct RC as (RC & _).
  destruct (initial_state_inv ft d w K O GK _ _ _ _ _ _ L1 eq_refl RC (vr_batch _ _ _ _ _ _ _ _ _ _ _ V) Q3)
    as (E0 & L0 & _ & _ & NE & A0 & _).
  pose proof (loop_continues ft d w K O O' SL (max_iter (stop_o O)) (max_iter (stop_o O')) 0 st0 (n_evals_per_point0 O)
      [] st0 h0 (sl_iter _ _ SL)) as C. rewrite H in C.
  destruct C as (st2 & t2 & _ & _ & C3 & C4).
  destruct (C4 _ _ GK L0 NE A0) as (X1 & E1 & L2 & A2).
  assert (NE2 : E0 ++ E1 <> []) by (destruct E0; [easy|discriminate]).
  assert (G : exists X2 E2, haslog ft d w h' (([x] ++ X1) ++ X2) ((E0 ++ E1) ++ E2)).
  { destruct C3 as [(r2 & C3 & _)|(k2 & n2 & pre2 & last2 & C3 & C5)].
    - rewrite H' in C3. injection C3 as -> _. exists [], []. now rewrite !app_nil_r.
    - rewrite H', C3 in C5. symmetry in C5.
      destruct (loop_chain ft d w K O' GK _ _ _ _ _ _ _ _ _ _ _ L2 NE2 A2 C5) as (l & z & CH & Hz & _).
      destruct (chain_prefix _ _ _ _ _ _ _ _ CH) as ((X2 & PX) & (E2 & PE) & _). cbn in PX, PE.
      destruct (chain_inv _ _ _ _ _ (good_snap ft d w) _ _ _ CH) as [(GZ & _) _].
      { now split. } { intros s ap c LK _. apply LK. }
      exists X2, E2. rewrite Hz, PX, PE in GZ. exact GZ. }
  destruct G as (X2 & E2 & L3).
  destruct (haslog_dims _ _ _ _ _ _ L2) as (_ & _ & _ & N1 & N2).
  destruct (haslog_dims _ _ _ _ _ _ L3) as (_ & _ & _ & N3 & N4).
  unfold get_n_xs, get_n_fun. rewrite N1, N2, N3, N4. set (X := [x] ++ X1) in *. set (E := E0 ++ E1) in *.
  rewrite (app_length X X2), (app_length E E2). split; [apply Nat.le_add_r|]. split; [apply Nat.le_add_r|].
  intros i Hi.
  destruct (nth_error X i) as [y|] eqn:Ey; [|apply nth_error_None in Ey; exfalso; exact (Nat.lt_irrefl _ (Nat.lt_le_trans _ _ _ Hi Ey))].
  exists y, (fvals_of ft i E), (fvals_of ft i E2).
  split; [eapply xs_one_log; eauto|]. split; [eapply xs_one_log; [exact L3|now rewrite nth_error_app1]|]. split.
  - pose proof (m_fvals_log _ _ _ _ _ _ _ L2 NE2 Hi) as F. unfold m_fvals, mquery in F. now injection F.
  - assert (NE3 : E ++ E2 <> []) by (destruct E; [easy|discriminate]).
    assert (Hi3 : i < length (X ++ X2)) by (rewrite app_length; apply Nat.lt_lt_add_r; exact Hi).
    pose proof (m_fvals_log _ _ _ _ _ _ _ L3 NE3 Hi3) as F. unfold m_fvals, mquery in F. injection F as F.
    rewrite F. unfold fvals_of. now rewrite evals_of_app, map_app.
Qed.

(** C182 - with a decider that compares with the value of the current point, a longer run does
    not report a larger value. *)
Theorem C182_longer_runs_are_not_worse :
  forall VM SM CV ft d w (K : components VM SM CV) O O' pad x r0 b h r h' r',
    stops_later O O' ->
    valid_run ft d w K O pad x r0 b h r -> valid_run ft d w K O' pad x r0 b h' r' ->
    (forall t v, no_reevaluation (k_decider K t v)) -> (0 <= min_improvement O)%R ->
    (forall s0, nth_error (res_states r) 0 = Some s0 -> st_fval s0 <> NaN) ->
    xle (solution_criterion r') (solution_criterion r) = true.
Proof.
  intros VM SM CV ft d w K O O' pad x r0 b h r h' r' SL V V' HD HM HN.
  destruct (C182_longer_runs_continue _ _ _ K O O' ft pad x r0 b h r h' r' SL (vr_run _ _ _ _ _ _ _ _ _ _ _ V)
    (vr_run _ _ _ _ _ _ _ _ _ _ _ V')) as (l & L & _).
  destruct (C78_solution_is_last_accepted _ _ _ _ _ _ _ _ _ _ _ _ _ _ V) as (i & s & Hs & As & _ & _ & ->).
  destruct (C78_solution_is_last_accepted _ _ _ _ _ _ _ _ _ _ _ _ _ _ V') as (i' & s' & Hs' & _ & Ls' & _ & ->).
  assert (Hi : nth_error (res_states r') i = Some s).
  { rewrite L, nth_error_app1; [easy|]. apply nth_error_Some. congruence. }
  assert (Hii : i <= i').
  { destruct (Nat.le_gt_cases i i') as [?|Hlt]; [easy|]. destruct As as [->|As]; [lia|].
    rewrite (Ls' _ _ Hlt Hi) in As. discriminate. }
  destruct (nth_error (res_states r') 0) as [s0|] eqn:E0.
  2: { apply nth_error_None in E0. destruct (res_states r'); [now destruct i|simpl in E0; lia]. }
  assert (N0 : st_fval s0 <> NaN).
  { apply HN. destruct (res_states r) as [|a rs]; [now destruct i|]. rewrite L in E0. exact E0. }
  assert (HM' : (0 <= min_improvement O')%R) by now rewrite (sl_min _ _ SL).
  destruct (C80_values_do_not_increase _ _ _ _ _ _ _ _ _ _ _ _ _ _ V' HD HM' s0 E0 N0) as [ST _].
  assert (NN : forall j q, nth_error (res_states r') j = Some q -> st_fval q <> NaN).
  { intros [|j] q Hq; [congruence|]. destruct (nth_error (res_states r') j) as [q0|] eqn:Eq.
    - pose proof (ST _ _ _ Eq Hq) as X. intros Z. now rewrite Z in X.
    - apply nth_error_None in Eq. assert (S j < length (res_states r')) by (apply nth_error_Some; congruence). lia. }
  clear Ls'. revert s' Hs'. induction Hii as [|j Hj IH]; intros s' Hs'.
  - rewrite Hi in Hs'. injection Hs' as <-. pose proof (NN _ _ Hi) as Q. destruct (st_fval s); simpl; try easy.
    destruct (Rleb_spec r1 r1); [easy|lra].
  - destruct (nth_error (res_states r') j) as [q|] eqn:Eq.
    + pose proof (ST _ _ _ Eq Hs') as X. specialize (IH q eq_refl).
      destruct (st_fval s'), (st_fval q), (st_fval s); simpl in *; try easy.
      destruct (Rleb_spec r1 r2); [|easy]. destruct (Rleb_spec r2 r3); [|easy]. destruct (Rleb_spec r1 r3); [easy|lra].
    + apply nth_error_None in Eq. assert (S j < length (res_states r')) by (apply nth_error_Some; congruence). lia.
Qed.

(** Two and five iterations of the example of Prop_Main; the errors are those of a criterion that
    raises in the first call. *)
Example C182_instance : exists h r h' r' l,
  stops_later (ex_config 2 false true) (ex_config 5 false true) /\
  valid_run Scalar 1 1 (ex_components (fun c => c / 2)%R (fun _ _ => Classic) center_sampler ex_crit)
    (ex_config 2 false true) 0 [3%R] 1 None h r /\
  valid_run Scalar 1 1 (ex_components (fun c => c / 2)%R (fun _ _ => Classic) center_sampler ex_crit)
    (ex_config 5 false true) 0 [3%R] 1 None h' r' /\
  res_states r' = res_states r ++ l /\ 2 <= length (res_states r).
Proof.
  destruct (ex_run (fun c => c / 2)%R (fun _ _ => Classic) 1 false true None 3 1) as (h & r & V & L); cbn; auto.
  destruct (ex_run (fun c => c / 2)%R (fun _ _ => Classic) 4 false true None 3 1) as (h' & r' & V' & L'); cbn; auto.
  assert (SL : stops_later (ex_config 2 false true) (ex_config 5 false true))
    by (constructor; cbn; auto; lia).
  destruct (C182_longer_runs_continue _ _ _ _ _ _ _ _ _ _ _ _ _ _ _ SL (vr_run _ _ _ _ _ _ _ _ _ _ _ V)
    (vr_run _ _ _ _ _ _ _ _ _ _ _ V')) as (l & E & EL).
  exists h, r, h', r', l. now split.
Qed.

Example C182_error_instance : forall k, exists h e,
  tranquilo (ex_components (fun c => c / 2)%R (fun _ _ => Classic) center_sampler (fun _ _ _ => Err TypeError))
    (ex_config k false true) Scalar 0 [3%R] 1 None = (h, Err e).
Proof. intros k. eexists _, _. reflexivity. Qed.
