(** The main loop as a chain of iterations, and the facts about the run of a whole
    optimization that follow from it. *)
From Coq Require Import Reals List Arith ZArith Bool Lia Lra Sorting.Sorted.
From Verif Require Import Base XR Vec HistoryModel HistorySpec HistoryProofs WrapModel WrapProofs
  VolumeModel RegionModel AdjustModel AcceptModel FilterModel LogSpec LogProofs Prop_Region
  Prop_Adjust AcceptProofs Prop_Accept Prop_Filter MainModel MainProofs MainPhases.
Import ListNotations.
Open Scope nat_scope.

Section Chain.
Context {VM SM CV : Type}.
Variables (ft : functype) (d w : nat) (K : components VM SM CV) (O : config).
Hypothesis GK : good_components ft d w K.

(** The situation before an iteration: its number, the state, the number of evaluations per
    point, the history and its content. *)
Record snap := mkSnap {
  n_t : nat;
  n_st : state VM SM;
  n_n : Z;
  n_h : hist;
  n_X : list vec;
  n_E : list (nat * list xr)
}.
Definition good_snap (s : snap) : Prop :=
  haslog ft d w (n_h s) (n_X s) (n_E s) /\ n_E s <> [] /\ at_point (n_X s) (n_st s).

(** What one iteration does: [i_X1], [i_E1] are added when the first model is built, [i_X3],
    [i_E3] while resampling, [i_X2], [i_E2] by the decider. *)
Record iter_data := mkIter {
  i_X1 : list vec; i_E1 : list (nat * list xr); i_evs1 : list (event VM);
  i_w0 : work (VM:=VM) (SM:=SM); i_old : list nat; i_fxs : list vec; i_idx : list nat;
  i_evs2 : list (event VM); i_w1 : work (VM:=VM) (SM:=SM);
  i_X3 : list vec; i_E3 : list (nat * list xr); i_evs3 : list (event VM);
  i_wk : work (VM:=VM) (SM:=SM); i_var : option xr;
  i_X2 : list vec; i_E2 : list (nat * list xr); i_acc : acceptance; i_incr : bool
}.
Record iter_ok (a : snap) (ap : state VM SM) (b : snap) (D : iter_data) : Prop := {
  io_X : n_X b = n_X a ++ (i_X1 D ++ i_X3 D) ++ i_X2 D;
  io_E : n_E b = n_E a ++ (i_E1 D ++ i_E3 D) ++ i_E2 D;
  io_ap : ap = update_state (n_st a) (i_wk D) (i_old D) (i_acc D) (n_n a);
  io_region : exists reg, n_st b = with_region ap reg /\
    make_region (a_x (i_acc D)) (adjust_radius (r_radius (st_region (n_st a))) (a_rho (i_acc D))
       (a_step_length (i_acc D)) (radius_o O) (i_incr D)) (r_bounds (st_region (n_st a))) = Ok reg;
  io_decided : decided ft (k_crit K) (k_decider K (n_t a) (i_var D)) (f_sub (w_fit (i_wk D)))
    (cur_of (n_st a)) (min_improvement O) (n_X a ++ i_X1 D ++ i_X3 D) (i_X2 D)
    (n_E a ++ i_E1 D ++ i_E3 D) (i_E2 D) (i_acc D);
  io_true : true_evals (k_crit K) (n_X b) ((i_E1 D ++ i_E3 D) ++ i_E2 D);
  io_first : first_facts K O (n_st a) (n_n a) (n_t a) (n_h a) (n_X a) (n_E a) (i_X1 D) (i_E1 D)
    (i_evs1 D) (i_w0 D) (i_old D) (i_fxs D) (i_idx D);
  io_events : w_events (i_wk D) = i_evs1 D ++ i_evs2 D ++ i_evs3 D;
  io_events_ok : Forall (fit_ok ft d w O (n_st a) (n_n a)) (w_events (i_wk D));
  io_no_sample : Forall (fun e => is_sample e = false) (i_evs2 D);
  io_big : Forall (big_fit O) (i_evs2 D);
  io_sub : incl (w_indices (i_w1 D)) (w_indices (i_w0 D));
  io_trials : length (filter is_sample (i_evs3 D)) <= Nat.max 1 (max_trials (stag_o O));
  io_E3 : evaluated_new (n_n a) (n_X a ++ i_X1 D) (i_X3 D) (i_E3 D);
  io_from : forall x, In x (i_X3 D) -> from_samplers K (n_t a) (n_st a) x;
  io_increment : forall h1 k xs, In (EvSample h1 k xs) (i_evs3 D) ->
    k = sample_increment (stag_o O) /\
    exists j m, k_sample K (n_t a) (S j) h1 (st_region (n_st a)) k m = Ok xs;
  io_X3 : i_X3 D = all_sampled (i_evs3 D);
  io_cur : (0 <= r_radius (st_region (n_st a)))%R -> (0 <= search_radius_factor O)%R ->
     (1 <= target_sample_size O)%Z -> keeps_current K ->
     In (st_index (n_st a)) (w_indices (i_wk D)) /\
     Forall (has_cur (n_st a)) (w_events (i_wk D));
  io_work : good_work ft d w K (n_st a) (n_X a ++ i_X1 D ++ i_X3 D) (n_E a ++ i_E1 D ++ i_E3 D)
     (n_n a) (i_wk D);
  io_quiet : noisy O = false -> n_n b = n_n a /\ i_incr D = false /\ i_var D = None;
  io_noise : noisy O = true -> exists hm v cov rho_noise, i_var D = Some v /\
    haslog ft d w hm (n_X a ++ i_X1 D ++ i_X3 D) (n_E a ++ i_E1 D ++ i_E3 D) /\
    k_variance K hm (st_region (n_st a)) = Ok v /\ k_cov K hm (st_region (n_st a)) = Ok cov /\
    k_rho_noise K (n_t a) (w_xs (i_wk D)) (f_vm (w_fit (i_wk D))) (st_vector_model (n_st a)) (st_region (n_st a))
      (Some cov) = Ok rho_noise /\
    (n_n b, i_incr D) = adjust_n_evals (n_n a) (a_rho (i_acc D)) rho_noise (noise_o O)
}.

(** One iteration leads from [a] to [b] and appends the state [ap]. *)
Record link (a : snap) (ap : state VM SM) (b : snap) : Prop := {
  lk_run : iteration K O (n_t a) (n_st a) (n_n a) (n_h a) = (n_h b, Ok (ap, n_st b, n_n b));
  lk_a : good_snap a;
  lk_b : good_snap b;
  lk_t : n_t b = S (n_t a);
  lk_ok : exists D, iter_ok a ap b D
}.
Lemma lk_X a ap b : link a ap b -> exists X', n_X b = n_X a ++ X'.
Proof. intros H. destruct (lk_ok _ _ _ H) as [D HD]. rewrite (io_X _ _ _ _ HD). eauto. Qed.
Lemma lk_E a ap b : link a ap b -> exists E', n_E b = n_E a ++ E'.
Proof. intros H. destruct (lk_ok _ _ _ H) as [D HD]. rewrite (io_E _ _ _ _ HD). eauto. Qed.

Inductive chain : snap -> list (snap * state VM SM) -> snap -> Prop :=
| chain_nil a : chain a [] a
| chain_cons a ap b l c : link a ap b -> chain b l c -> chain a ((a, ap) :: l) c.

Lemma iteration_link t st n h X E h' ap st' n' :
  haslog ft d w h X E -> E <> [] -> at_point X st ->
  iteration K O t st n h = (h', Ok (ap, st', n')) ->
  exists X' E', link (mkSnap t st n h X E) ap (mkSnap (S t) st' n' h' X' E').
Proof.
  intros HL HE HA H.
  destruct (iteration_inv ft d w K O GK _ _ _ _ _ _ _ _ _ _ HL HE HA H)
    as (hm & X1 & E1 & evs1 & w0 & old & fxs & idx & evs2 & w1 & X3 & E3 & evs3 & wk & var & X2 & E2 &
        acc & incr & P1 & FF & P2 & NS & SB & LE & C2 & NT & EV & FS & SS & C3 & EX3 & hm' & IT).
  destruct IT. destruct it_region as (reg & -> & MR). subst ap.
  exists (X ++ (X1 ++ X3) ++ X2), (E ++ (E1 ++ E3) ++ E2).
  split; cbn [n_h n_t n_st n_n n_X n_E]; auto.
  - now split.
  - split; [easy|]. split; [destruct E; [easy|discriminate]|].
    destruct it_decided. split; cbn.
    + destruct (a_accepted acc) eqn:EA.
      * destruct (dc_acc eq_refl) as (_ & N & _). now rewrite <- app_assoc in N.
      * destruct (dc_rej eq_refl) as (-> & _ & ->). simpl.
        rewrite nth_error_app1; [apply HA|]. apply nth_error_Some. destruct HA. congruence.
    + apply make_region_center in MR as (-> & _). reflexivity.
  - exists (mkIter X1 E1 evs1 w0 old fxs idx evs2 w1 X3 E3 evs3 wk var X2 E2 acc incr).
    pose proof (ph_events _ _ _ _ _ _ _ _ _ _ _ _ _ _ _ it_phase) as EW. cbn [app] in EW.
    split; cbn [n_h n_t n_st n_n n_X n_E i_X1 i_E1 i_evs1 i_w0 i_old i_fxs i_idx i_evs2 i_w1 i_X3 i_E3
      i_evs3 i_wk i_var i_X2 i_E2 i_acc i_incr]; auto.
    + exists reg. auto.
    + destruct it_decided, it_phase.
      apply true_evals_app; [|now rewrite app_assoc].
      rewrite app_assoc. now apply true_evals_more.
    + rewrite EW. destruct it_phase. auto.
    + intros Hr Hf Ht HK. destruct FF as [_ _ _ _ _ _ _ _ _ _ FC].
      destruct (FC Hr Hf Ht HK) as [C1 F1]. destruct (C2 Hr Ht C1) as [C2' F2].
      destruct (C3 Hr C2') as [C3' F3]. split; [easy|]. rewrite EW.
      repeat (apply Forall_app; split); auto.
    + destruct it_phase. auto.
    + intros Hq. destruct (it_noise Hq) as (v & cov & rn & N1 & N2 & N3 & N4 & N5).
      exists hm', v, cov, rn. destruct it_phase. auto 10.
Qed.

(** How the loop ends. *)
Inductive ending (k : nat) (h' : hist) (r : result VM SM) (n_links : nat) : Prop :=
| end_max_iter : n_links = k -> res_converged r = false -> res_message r = None ->
    ending k h' r n_links
| end_converged pre old new : disable (conv_o O) = false -> n_links <> 0 ->
    res_states r = pre ++ [old; new] -> st_accepted new = true ->
    is_converged K old new (conv_o O) = (true, res_message r) -> res_converged r = true ->
    ending k h' r n_links
| end_max_eval : n_links <> 0 -> (max_eval (stop_o O) <= Z.of_nat (get_n_fun h'))%Z ->
    res_message r = Some MsgMaxEval -> res_converged r = false -> ending k h' r n_links.

Lemma is_converged_false old new o m : is_converged K old new o = (false, m) -> m = None.
Proof.
  unfold is_converged. repeat (match goal with |- context[xle ?a ?b] => destruct (xle a b) end;
    [discriminate|]). now intros [= <-].
Qed.

Lemma last_two_app pre (a b : state VM SM) : last_two ((pre ++ [a]) ++ [b]) = Ok (a, b).
Proof. unfold last_two. rewrite !rev_app_distr. reflexivity. Qed.

Lemma loop_chain : forall k t st n pre last h X E h' r,
  haslog ft d w h X E -> E <> [] -> at_point X st ->
  loop K O k t st n (pre ++ [last]) false None h = (h', Ok r) ->
  exists l z, chain (mkSnap t st n h X E) l z /\ n_h z = h' /\
    res_states r = (pre ++ [last]) ++ map snd l /\
    solution_x r = st_x (n_st z) /\ solution_criterion r = st_fval (n_st z) /\
    length l <= k /\
    (forall i p, nth_error l (S i) = Some p ->
       (Z.of_nat (get_n_fun (n_h (fst p))) < max_eval (stop_o O))%Z) /\
    (forall i old new, length pre <= i -> (S (S i) < length (res_states r) \/ res_converged r = false) ->
       nth_error (res_states r) i = Some old -> nth_error (res_states r) (S i) = Some new ->
       st_accepted new = true -> disable (conv_o O) = false ->
       fst (is_converged K old new (conv_o O)) = false) /\
    ending k h' r (length l).
Proof.
  induction k as [|k IH]; intros t st n pre last h X E h' r HL HE HA H; simpl in H.
  { apply mret_inv in H as [-> ->]. eexists [], _. split; [constructor|]. cbn.
    rewrite app_nil_r. repeat split; auto.
    - intros [|]; discriminate.
    - intros i old new Hi _ _ Hn. exfalso.
      change (nth_error (pre ++ [last]) (S i) = Some new) in Hn.
      assert (S i < length (pre ++ [last])) by (apply nth_error_Some; congruence).
      rewrite app_length in H. simpl in H. lia.
    - constructor 1; auto. }
  apply mbind_inv in H as (h1 & [[ap st'] n'] & EI & H).
  destruct (iteration_link _ _ _ _ _ _ _ _ _ _ HL HE HA EI) as (X' & E' & LK).
  inv_bind H. destruct a as [[c m] stop].
  assert (Q : (stop = true -> c = true /\ disable (conv_o O) = false /\ st_accepted ap = true /\
                 is_converged K last ap (conv_o O) = (true, m)) /\
              (stop = false -> c = false /\ m = None /\
                 (st_accepted ap = true -> disable (conv_o O) = false ->
                  fst (is_converged K last ap (conv_o O)) = false))).
  { unfold check_convergence in E0. destruct (st_accepted ap); simpl in E0;
      [destruct (disable (conv_o O)); simpl in E0|].
    - injection E0 as <- <- <-. split; [discriminate|]. intros _. repeat split; discriminate.
    - rewrite last_two_app in E0. cbn [bind] in E0.
      destruct (is_converged K last ap (conv_o O)) as [c0 m0] eqn:EC. injection E0 as <- <- <-.
      split; [intros ->; auto|]. intros ->. apply is_converged_false in EC as EN. auto.
    - injection E0 as <- <- <-. split; [discriminate|]. intros _. repeat split; discriminate. }
  destruct Q as [Q1 Q2].
  destruct stop.
  { destruct (Q1 eq_refl) as (-> & Hd & Ha & EC). apply mret_inv in H as [-> ->].
    eexists [(_, ap)], _. split; [econstructor; [exact LK|constructor]|]. cbn.
    repeat (split; [reflexivity || lia|]).
    split; [intros [|]; discriminate|]. 
    split; [intros i old new Hi [Hl|Hl]; [rewrite !app_length in Hl; simpl in Hl; lia|discriminate]|].
    apply (end_converged _ _ _ _ pre last ap); auto. cbn. now rewrite <- app_assoc. }
  destruct (Q2 eq_refl) as (-> & -> & NC).
  inv_bind H. injection E1 as <-.
  destruct (Z.leb_spec (max_eval (stop_o O)) (Z.of_nat (get_n_fun h1))) as [Hm|Hm].
  { apply mret_inv in H as [-> ->].
    eexists [(_, ap)], _. split; [econstructor; [exact LK|constructor]|]. cbn.
    repeat (split; [reflexivity || lia|]).
    split; [intros [|]; discriminate|].
    split.
    { intros i old new Hi _ Ho Hn Hacc Hd.
      change (nth_error ((pre ++ [last]) ++ [ap]) (S i) = Some new) in Hn.
      assert (S i < length ((pre ++ [last]) ++ [ap])) by (apply nth_error_Some; congruence).
      rewrite !app_length in H. simpl in H. assert (i = length pre) as -> by lia.
      repeat rewrite <- app_assoc in Ho. repeat rewrite <- app_assoc in Hn.
      rewrite nth_error_app2, Nat.sub_diag in Ho by lia. injection Ho as <-.
      rewrite nth_error_app2 in Hn by lia. replace (S (length pre) - length pre) with 1 in Hn by lia.
      injection Hn as <-. auto. }
    apply end_max_eval; auto. }
  pose proof (lk_b _ _ _ LK) as (L2 & NE2 & A2). cbn in L2, NE2, A2.
  destruct (IH _ _ _ _ _ _ _ _ _ _ L2 NE2 A2 H)
    as (l & z & CH & Hz & RS & SX & SC & LL & NF & CV' & EN).
  exists ((mkSnap t st n h X E, ap) :: l), z.
  split; [econstructor; eauto|]. split; [easy|].
  split; [rewrite RS; cbn [map snd]; now rewrite <- !app_assoc|].
  split; [easy|]. split; [easy|]. split; [simpl; lia|]. split.
  { intros i p Hp. simpl in Hp. destruct i as [|i]; [|now apply (NF i)].
    destruct l as [|[b ap2] l]; [discriminate|]. injection Hp as <-. simpl.
    inversion CH; subst. exact Hm. }
  split.
  { intros i old new Hi Hl Ho Hn Hacc Hd.
    destruct (Nat.eq_dec i (length pre)) as [->|Hne].
    - rewrite RS in Ho, Hn. repeat rewrite <- app_assoc in Ho. repeat rewrite <- app_assoc in Hn.
      rewrite nth_error_app2, Nat.sub_diag in Ho by lia. injection Ho as <-.
      rewrite nth_error_app2 in Hn by lia. replace (S (length pre) - length pre) with 1 in Hn by lia.
      injection Hn as <-. auto.
    - apply (CV' i); auto. rewrite app_length. simpl. lia. }
  destruct EN; [apply end_max_iter|eapply end_converged|apply end_max_eval]; eauto; simpl; lia.
Qed.

(** ** Properties along a chain *)

Lemma chain_links a l z : chain a l z ->
  forall i s ap, nth_error l i = Some (s, ap) -> exists b, link s ap b /\
    (b = z /\ S i = length l \/ exists ap', nth_error l (S i) = Some (b, ap')).
Proof.
  induction 1 as [a|a ap b l c HK HC IH]; intros i s ap' Hi; [destruct i; discriminate|].
  destruct i as [|i]; simpl in Hi.
  - injection Hi as <- <-. exists b. split; [easy|]. destruct l as [|[b' ap'] l].
    + left. inversion HC; auto.
    + right. inversion HC; subst. exists ap'. reflexivity.
  - destruct (IH _ _ _ Hi) as (b1 & HL & [[Hb Hz]|Hz]); exists b1; split; auto; simpl; auto.
Qed.

(** A predicate that every iteration preserves holds everywhere. *)
Lemma chain_inv (P : snap -> Prop) a l z : chain a l z -> P a ->
  (forall s ap b, link s ap b -> P s -> P b) ->
  P z /\ forall s ap, In (s, ap) l -> P s.
Proof.
  intros H HP HS. induction H as [a|a ap b l c HK HC IH]; [split; [easy|intros ? ? []]|].
  destruct IH as [Hz Hl]; [eapply HS; eauto|]. split; [easy|].
  intros s ap' [Hs|Hs]; [now injection Hs as <- <-|eauto].
Qed.

Lemma chain_prefix a l z : chain a l z ->
  (exists X', n_X z = n_X a ++ X') /\ (exists E', n_E z = n_E a ++ E') /\
  forall s ap, In (s, ap) l -> exists b, link s ap b /\
    (exists X', n_X z = n_X b ++ X') /\ (exists E', n_E z = n_E b ++ E').
Proof.
  induction 1 as [a|a ap b l c HK HC IH].
  - split; [exists []; now rewrite app_nil_r|]. split; [exists []; now rewrite app_nil_r|].
    intros ? ? [].
  - destruct IH as ((X1 & EX) & (E1 & EE) & IH).
    destruct (lk_X _ _ _ HK) as [X2 EX2]. destruct (lk_E _ _ _ HK) as [E2 EE2].
    split; [exists (X2 ++ X1); rewrite EX, EX2; now rewrite app_assoc|].
    split; [exists (E2 ++ E1); rewrite EE, EE2; now rewrite app_assoc|].
    intros s ap' [Hs|Hs]; [|auto]. injection Hs as <- <-.
    exists b. split; [easy|]. eauto.
Qed.

(** ** The start *)

Lemma initial_state_inv x reg h X h' st : haslog ft d w h X [] -> nth_error X 0 = Some x ->
  r_center reg = x -> (1 <= batch_size O)%Z ->
  initial_state K O x reg h = (h', Ok st) ->
  exists E, haslog ft d w h' X E /\ true_evals (k_crit K) X E /\
    map fst E = repeat 0 (Z.to_nat (if (1 <? n_evals_at_start O)%Z
                      then next_multiple (n_evals_at_start O) (batch_size O) else 1%Z)) /\
    E <> [] /\ at_point X st /\ st_index st = 0 /\ st_x st = x /\ st_region st = reg /\
    st_fval st = mean_of ft 0 E /\ st_candidate_index st = 0 /\ st_candidate_x st = x /\
    st_events st = [] /\ st_accepted st = true /\
    (exists fv, st_vector_model st = k_init K fv reg) /\
    st_model_indices st = [0] /\ st_new_indices st = [0] /\ st_old_indices_used st = [] /\
    st_old_indices_discarded st = [].
Proof.
  intros HL HX HR HB H. unfold initial_state in H. inv_bind H. destruct a.
  assert (LX : 0 < length X) by (apply nth_error_Some; congruence).
  unfold evaluate in E. set (nz := if _ : bool then _ else 1%Z) in *. cbn [map fst snd] in E.
  destruct (m_eval_inv _ _ _ _ _ _ _ _ _ _ HL (gk_crit _ _ _ _ GK) E) as (vals & LV & L1 & T1).
  { repeat constructor. easy. }
  rewrite expand_one in L1, T1. simpl in LV, L1. rewrite Nat.add_0_r in LV.
  set (E1 := combine (repeat 0 (Z.to_nat nz)) vals) in *.
  assert (MF : map fst E1 = repeat 0 (Z.to_nat nz)).
  { unfold E1. apply combine_fst. now rewrite repeat_length. }
  assert (NZ : (1 <= nz)%Z).
  { unfold nz. destruct (Z.ltb_spec 1 (n_evals_at_start O)) as [Hs|Hs]; [|lia].
    destruct (C35_next_multiple (n_evals_at_start O) (batch_size O)) as (_ & Q & _); lia. }
  assert (NE : E1 <> []).
  { intros HE. rewrite HE in MF. simpl in MF. destruct (Z.to_nat nz) eqn:En; [lia|discriminate]. }
  inv_bind H. inv_bind H. inv_bind H. apply mbind_inv in H as (h2 & fv & EF & H).
  rewrite (m_fvals_log _ _ _ _ _ _ 0 L1 NE LX) in EF. injection EF as <- <-.
  apply mret_inv in H as [-> ->]. exists E1. cbn. splits; auto; try (now eexists).
Qed.

(** The whole run. *)
Lemma tranquilo_chain pad x r0 bnd h r : d <> 0 -> w <> 0 -> length x = d ->
  (1 <= batch_size O)%Z ->
  tranquilo K O ft pad x r0 bnd = (h, Ok r) ->
  exists reg st0 h0 E0 l z,
    make_region x r0 bnd = Ok reg /\
    haslog ft d w h0 [x] E0 /\ true_evals (k_crit K) [x] E0 /\
    map fst E0 = repeat 0 (Z.to_nat (if (1 <? n_evals_at_start O)%Z
                      then next_multiple (n_evals_at_start O) (batch_size O) else 1%Z)) /\
    at_point [x] st0 /\ st_index st0 = 0 /\ st_x st0 = x /\ st_region st0 = reg /\
    st_fval st0 = mean_of ft 0 E0 /\ st_candidate_index st0 = 0 /\ st_candidate_x st0 = x /\
    st_events st0 = [] /\ (exists fv, st_vector_model st0 = k_init K fv reg) /\
    st_model_indices st0 = [0] /\ st_new_indices st0 = [0] /\ st_old_indices_used st0 = [] /\
    st_old_indices_discarded st0 = [] /\
    chain (mkSnap 0 st0 (n_evals_per_point0 O) h0 [x] E0) l z /\ n_h z = h /\
    good_snap z /\
    res_states r = st0 :: map snd l /\
    solution_x r = st_x (n_st z) /\ solution_criterion r = st_fval (n_st z) /\
    length l <= max_iter (stop_o O) /\
    (forall i p, nth_error l (S i) = Some p ->
       (Z.of_nat (get_n_fun (n_h (fst p))) < max_eval (stop_o O))%Z) /\
    (forall i old new, (S (S i) < length (res_states r) \/ res_converged r = false) ->
       nth_error (res_states r) i = Some old -> nth_error (res_states r) (S i) = Some new ->
       st_accepted new = true -> disable (conv_o O) = false ->
       fst (is_converged K old new (conv_o O)) = false) /\
    ending (max_iter (stop_o O)) h r (length l).
Proof.
  intros Hd Hw Hx HB H. unfold tranquilo in H.
  destruct (m_add_x_log _ _ _ _ _ _ x (haslog_init ft pad d w Hd Hw) Hx) as (h1 & E1 & L1).
  apply mbind_inv in H as (h1' & i0 & E1' & H). rewrite E1 in E1'. injection E1' as <- <-.
  inv_bind H. rename a into reg. rename E into ER.
  unfold internal_tranquilo in H. apply mbind_inv in H as (h0 & st0 & EI & H).
  apply make_region_center in ER as RC. destruct RC as (RC & _).
  destruct (initial_state_inv _ _ _ _ _ _ L1 eq_refl RC HB EI)
    as (E0 & L0 & T0 & MF & NE & A0 & I1 & I2 & I3 & I4 & I5 & I6 & I7 & I8 & I9 & I10 & I11 & I12 & I13).
  destruct (loop_chain _ _ _ _ [] st0 _ _ _ _ _ L0 NE A0 H)
    as (l & z & CH & Hz & RS & SX & SC & LL & NF & CV' & EN).
  exists reg, st0, h0, E0, l, z. splits; auto.
  - apply (chain_inv good_snap _ _ _ CH); [now split|]. intros s ap b LK _. apply LK.
  - intros i old new. apply CV'. simpl. lia.
Qed.

End Chain.

(** ** Consecutive states *)
Section Consecutive.
Context {VM SM CV : Type}.
Variables (ft : functype) (d w : nat) (K : components VM SM CV) (O : config).
Notation link := (link ft d w K O).
Notation chain := (chain ft d w K O).

(** The appended state and the state for the next iteration differ only in the region. *)
Definition agrees (s st : state VM SM) : Prop :=
  st_x st = st_x s /\ st_index st = st_index s /\ st_fval st = st_fval s /\
  st_vector_model st = st_vector_model s /\ st_candidate_index st = st_candidate_index s /\
  st_candidate_x st = st_candidate_x s.

Lemma agrees_refl s : agrees s s.
Proof. repeat split. Qed.

Lemma link_agrees a ap b : link a ap b -> agrees ap (n_st b).
Proof.
  intros H. destruct (lk_ok _ _ _ _ _ _ _ _ H) as [D HD].
  destruct (io_region _ _ _ _ _ _ _ _ _ HD) as (reg & -> & _). repeat split.
Qed.

Lemma consecutive s a l z : chain a l z -> agrees s (n_st a) ->
  (forall i s1 s2, nth_error (s :: map snd l) i = Some s1 ->
     nth_error (s :: map snd l) (S i) = Some s2 ->
     exists a1 b1, nth_error l i = Some (a1, s2) /\ link a1 s2 b1 /\ agrees s1 (n_st a1)) /\
  exists s1, nth_error (s :: map snd l) (length l) = Some s1 /\ agrees s1 (n_st z).
Proof.
  intros H. revert s. induction H as [a|a ap b l c HK HC IH]; intros s HS.
  - split; [|exists s; auto]. intros [|i] s1 s2 _ H2; simpl in H2; [|destruct i]; discriminate.
  - destruct (IH ap (link_agrees _ _ _ HK)) as [I1 (s1 & I2 & I3)]. split.
    + intros [|i] s1' s2 H1 H2.
      * simpl in H1, H2. injection H1 as <-. injection H2 as <-. exists a, b. auto.
      * apply (I1 i s1' s2); assumption.
    + exists s1. auto.
Qed.

Lemma chain_snoc a l z : chain a l z ->
  l = [] /\ z = a \/ exists l' s ap, l = l' ++ [(s, ap)] /\ chain a l' s /\ link s ap z.
Proof.
  induction 1 as [a|a ap b l c HK HC IH]; [now left|]. right.
  destruct IH as [[-> ->]|(l' & s & ap' & -> & HC' & HK')].
  - exists [], a, ap. split; [easy|]. split; [constructor|easy].
  - exists ((a, ap) :: l'), s, ap'. split; [easy|]. split; [econstructor; eauto|easy].
Qed.

End Consecutive.
