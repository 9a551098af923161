(** Property C179: noisy runs with the built-in components. *)
From Coq Require Import Reals List Arith ZArith Bool Lia Lra Psatz Sorting.Sorted.
From Verif Require Import Base XR Vec FVec HistoryModel HistorySpec HistoryProofs WrapModel WrapProofs
  VolumeModel RegionModel AdjustModel AcceptModel ModelsModel FitModel FilterModel SubproblemModel
  SampleModel VarianceModel NoiseModel
  LogSpec LogProofs Prop_Region Prop_Adjust AcceptProofs Prop_Accept Prop_Filter Prop_Variance
  Prop_Models Prop_Fit Prop_Subproblem MainModel MainProofs MainPhases MainLoop
  MainProgress MainProgress2 Prop_Main Prop_Main2 Prop_Main3 Prop_Main4 BuiltinModel Prop_Builtin.
Import ListNotations.
Open Scope R_scope.

(** The numbers of the configuration of a noisy run are in range: at least two evaluations of the
    start vector. *)
Record noisy_config (O : config) : Prop := {
  nc_run : run_config O;
  nc_noisy : noisy O = true;
  nc_start : (2 <= n_evals_at_start O)%Z;
  nc_min : (1 <= AdjustModel.min_n_evals (noise_o O))%Z;
  nc_max : (1 <= AdjustModel.max_n_evals (noise_o O))%Z
}.

(** The options of the noise estimates, and a decider that evaluates candidates at least twice. *)
Record noisy_choices (ch : choices) : Prop := {
  ny_decider : match ch_decider ch with
               | DecNaiveNoisy => True
               | DecNoisy _ n_min n_max => (2 <= n_min <= n_max)%Z
               | _ => False
               end;
  ny_factor : 0 <= ch_max_distance_factor ch;
  ny_min : (2 <= ch_min_n_evals ch)%Z
}.

(** multivariate_normal returns as many rows as asked for. *)
Definition normal_works (X : externals) : Prop := forall t C k, length (e_normal X t C k) = k.

Definition fin_part (x : xr) : R := match x with Fin r => r | _ => 0 end.

Lemma fin_part_map l : map Fin (map fin_part (map Fin l)) = map Fin l.
Proof. rewrite !map_map. reflexivity. Qed.

Lemma spec_fval_fin ft l : l <> [] -> exists r, spec_fval ft (map Fin l) = Fin r.
Proof.
  intros NE. unfold spec_fval. destruct ft.
  - destruct l as [|a l]; [easy|]. now exists a.
  - clear NE. induction l as [|a l [s IH]]; [now exists 0|]. cbn [map fold_right]. rewrite IH. eexists. reflexivity.
  - clear NE. induction l as [|a l [s IH]]; [now exists 0|]. cbn [map fold_right]. rewrite IH. eexists. reflexivity.
Qed.

Lemma mapM_total {A B} (f : A -> res B) l : (forall a, In a l -> exists b, f a = Ok b) -> exists bs, mapM f l = Ok bs.
Proof.
  induction l as [|a l IH]; intros H; [now exists []|]. cbn [mapM].
  destruct (H a (or_introl eq_refl)) as [b ->]. destruct IH as [bs ->]; [intros; apply H; now right|]. eexists. reflexivity.
Qed.

Lemma blocks_length {A} n k (rows : list A) : length rows = (n * k)%nat ->
  forall bl, In bl (blocks n k rows) -> length bl = k.
Proof.
  revert rows. induction n as [|n IH]; intros rows L bl H; [easy|]. cbn [blocks] in H. destruct H as [<-|H].
  - rewrite firstn_length. simpl in L. lia.
  - apply IH in H; [easy|]. rewrite skipn_length. simpl in L. lia.
Qed.

Section Noisy.
Variables (X : externals) (ch : choices) (ft : functype) (d w : nat) (b : option bounds) (crit : criterion)
  (n_cores : nat) (O : config).
Hypothesis ED : ext_dims d X.
Hypothesis EW : ext_works d X.
Hypothesis EN : normal_works X.
Hypothesis HD : d <> 0%nat.
Hypothesis HW : w <> 0%nat.
Hypothesis HBD : bounds_dim d b.
Hypothesis HNF : no_fixed b.
Hypothesis HC : good_criterion ft w crit.
Hypothesis HF : finite_values crit.
Hypothesis US : workable (ft_w ft w) ch.
Hypothesis NY : noisy_choices ch.
Hypothesis NC : noisy_config O.
Let m := ft_w ft w.
Let K := builtin_components X ch d m crit n_cores.

(** Finite start values give a model. *)
Definition fin_ok (fv : list xr) : Prop := exists l, fv = map Fin l.
Definition fin_old (v : vm) : Prop :=
  match v with VmOk u => old_ok ch d (VmOk u) | VmBad _ => False end.

Lemma noisy_able : able_components ft d w b fin_ok fin_old (scalar_ok d) K.
Proof.
  assert (A : able_components ft d w b (first_ok ch) (old_ok ch d) (scalar_ok d) K)
    by (apply builtin_able; auto).
  constructor; [| |apply A| |apply A|apply A].
  - (* the mean of finite values is finite, whatever the fitter does *)
    intros Xs E T NE.
    clear A.
    assert (R : forall v, In v (evals_of 0 E) -> exists l, v = map Fin l /\ length l = m).
    { intros v Hv. unfold evals_of in Hv. apply in_map_iff in Hv as ([i u] & Eu & Hi). cbn in Eu. subst u.
      apply filter_In in Hi as [Hi _]. destruct (T i v Hi) as (x & _ & TE). destruct (HF x v TE) as (l & ->).
      exists l. split; [easy|]. apply (true_eval_length X ch ft d w crit n_cores HC US) in TE. now rewrite map_length in TE. }
    exists (map (fun j => fin_part (xmean (col (evals_of 0 E) j))) (seq 0 m)).
    unfold mean_rows. rewrite map_map. apply map_ext_in. intros j Hj. apply in_seq in Hj.
    unfold xmean. destruct (xsum_all_fin (col (evals_of 0 E) j)) as [s ->].
    + intros a Ha. unfold col in Ha. apply in_map_iff in Ha as (v & <- & Hv). destruct (R v Hv) as (l & -> & Ll).
      rewrite nth_map_fin by lia. eauto.
    + rewrite xdiv_fin; [easy|]. unfold col. rewrite map_length.
      apply not_0_INR. now destruct (evals_of 0 E).
  - intros fv reg RO Lf [l ->].
    destruct (ab_init _ _ _ _ _ _ _ _ A (map Fin l) reg RO Lf (fun _ => ex_intro _ l eq_refl)) as [V S].
    split; [|exact S]. cbn [K builtin_components k_init] in *. unfold builtin_init in *.
    rewrite all_fin_map in *. exact V.
  - intros xs fv reg old RO VO. apply (ab_fit _ _ _ _ _ _ _ _ A xs fv reg old RO). now destruct old.
Qed.

(** All evaluations are values of the criterion; the current point has two of them. *)
Definition J (Xs : list vec) (E : list (nat * list xr)) (st : state vm (option smodel)) : Prop :=
  true_evals crit Xs E /\ (2 <= length (evals_of (st_index st) E))%nat.

Lemma J_more Xs X' E E' st : J Xs E st -> true_evals crit (Xs ++ X') E' -> J (Xs ++ X') (E ++ E') st.
Proof.
  intros [T N] T'. split.
  - apply true_evals_app; [|easy]. now apply true_evals_more.
  - rewrite evals_of_app, app_length. lia.
Qed.

Lemma decider_cases t v : (exists z lo hi, k_decider K t v = Noisy (match v with Some s => s | None => NaN end) z lo hi /\ (2 <= lo <= hi)%Z) \/
  k_decider K t v = NaiveNoisy.
Proof.
  pose proof (ny_decider _ NY) as U. cbn [K builtin_components k_decider]. unfold builtin_decider.
  destruct (ch_decider ch) as [| |rf bs|z lo hi]; try easy; [now right|]. left. exists z, lo, hi. easy.
Qed.

Lemma J_step t v sub mi Xs X' E E' acc st st' : J Xs E st ->
  decided ft crit (k_decider K t v) sub (cur_of st) mi Xs X' E E' acc ->
  nth_error (Xs ++ X') (a_index acc) = Some (a_x acc) ->
  st_index st' = a_index acc -> J (Xs ++ X') (E ++ E') st'.
Proof.
  intros [T N] DC IX EI. unfold J. rewrite EI. pose proof (dc_true _ _ _ _ _ _ _ _ _ _ _ DC) as T'. split.
  { apply true_evals_app; [|easy]. now apply true_evals_more. }
  rewrite evals_of_app, app_length. destruct (a_accepted acc) eqn:Ea.
  - destruct (dc_acc _ _ _ _ _ _ _ _ _ _ _ DC Ea) as (A1 & _).
    assert (NL : not_line_search (k_decider K t v)).
    { destruct (decider_cases t v) as [(z & lo & hi & -> & _)| ->]; exact I. }
    rewrite (dc_newX _ _ _ _ _ _ _ _ _ _ _ DC NL) in IX.
    assert (Ei : a_index acc = length Xs).
    { assert (a_index acc < length (Xs ++ [sub_x sub]))%nat by (apply nth_error_Some; congruence).
      rewrite app_length in H. simpl in H. lia. }
    rewrite Ei. destruct (decider_cases t v) as [(z & lo & hi & ED' & B)|ED'].
    + destruct (dc_noisy _ _ _ _ _ _ _ _ _ _ _ DC _ _ _ _ ED') as (n1 & n2 & SZ & _ & ->).
      apply sample_sizes_min in SZ; [|lia]. cbn [snd] in SZ. lia.
    + pose proof (dc_naive _ _ _ _ _ _ _ _ _ _ _ DC ED') as MF.
      rewrite (evals_of_length _ _ E'), MF. simpl. destruct (Nat.eq_dec (length Xs) (length Xs)); [lia|easy].
  - destruct (dc_rej _ _ _ _ _ _ _ _ _ _ _ DC Ea) as (_ & _ & ->). cbn [cur_of c_index]. lia.
Qed.

Lemma J_start Xs E st : true_evals crit Xs E ->
  map fst E = repeat 0%nat (Z.to_nat (if (1 <? n_evals_at_start O)%Z
                      then next_multiple (n_evals_at_start O) (batch_size O) else 1%Z)) ->
  st_index st = 0%nat -> J Xs E st.
Proof.
  intros T MF EI. split; [easy|]. rewrite EI. rewrite evals_of_length, MF.
  pose proof (nc_start _ NC) as N. destruct (Z.ltb_spec 1 (n_evals_at_start O)) as [_|?]; [|lia].
  destruct (C35_next_multiple (n_evals_at_start O) (batch_size O)) as (_ & Q & _).
  { pose proof (rc_batch _ (nc_run _ NC)). lia. }
  rewrite count_occ_repeat_eq by easy. lia.
Qed.

(** The estimates of the noise are finite. *)
Lemma estimates_fin h Xs E st : haslog ft d w h Xs E -> st_ok b fin_old Xs st -> J Xs E st ->
  exists s C, builtin_variance ch h (st_region st) = Ok (Fin s) /\ 0 <= s /\
    builtin_cov ch h (st_region st) = Ok (map (map Fin) C).
Proof.
  intros HL HS [T N]. destruct HS as ([A1 A2] & _ & _ & c & rad & Hr & M).
  apply make_region_center in M as (C1 & C2 & _).
  destruct HL as (_ & _ & pad & ops & G & R & <- & <-).
  assert (FE : forall i v, In v (evals_of i (log_evals ops)) -> exists l, v = map Fin l /\ length l = m).
  { intros i v Hv. unfold evals_of in Hv. apply in_map_iff in Hv as ([j u] & Eu & Hi). cbn in Eu. subst u.
    apply filter_In in Hi as [Hi _]. destruct (T j v Hi) as (x & _ & TE). destruct (HF x v TE) as (l & ->).
    exists l. split; [easy|]. apply (true_eval_length X ch ft d w crit n_cores HC US) in TE. now rewrite map_length in TE. }
  assert (Hm : m <> 0%nat) by (unfold m; destruct ft; cbn; easy).
  assert (CL : exists i, near (log_xs ops) (r_center (st_region st)) (r_radius (st_region st) * ch_max_distance_factor ch) i
      /\ (2 <= length (evals_of i (log_evals ops)))%nat).
  { exists (st_index st). split; [|easy]. exists (st_x st). split; [easy|]. rewrite A2, dist_refl, C2.
    apply Rmult_le_pos; [lra|apply NY]. }
  destruct (C77_finite_partial ft pad d w ops h HD HW G R (r_center (st_region st)) (r_radius (st_region st))
    (ch_max_distance_factor ch) (ch_min_n_evals ch) CL (ny_min _ NY)
    (fun i => map (fun v => fin_part (spec_fval ft v)) (evals_of i (log_evals ops)))) as (s & ES & Hs).
  { intros i _. rewrite map_map. apply map_ext_in. intros v Hv. destruct (FE i v Hv) as (l & -> & Ll).
    destruct (spec_fval_fin ft l) as [r ->]; [|easy]. intros ->. now rewrite <- Ll in Hm. }
  destruct (C118_covariance_partial ft pad d w ops h HD HW G R (r_center (st_region st)) (r_radius (st_region st))
    (ch_max_distance_factor ch) (ch_min_n_evals ch) CL (ny_min _ NY) (ch_legacy_cov ch)
    (fun i => map (map fin_part) (evals_of i (log_evals ops)))) as (is & C & _ & EC & _).
  { intros i _. rewrite map_map. rewrite <- (map_id (evals_of i (log_evals ops))) at 1. apply map_ext_in.
    intros v Hv. destruct (FE i v Hv) as (l & -> & _). now rewrite fin_part_map. }
  exists s, (map (fun a => map (fun b => C a b) (seq 0 m)) (seq 0 m)). split; [exact ES|]. split; [exact Hs|].
  unfold builtin_cov. rewrite EC. f_equal. rewrite map_map. apply map_ext. intros a. now rewrite map_map.
Qed.

(** The simulation of the noise of rho does not raise. *)
Lemma simulation_total t reg st wk C Xs E n : region_of d b reg -> fin_old (st_vector_model st) ->
  st_region st = reg -> good_work ft d w K st Xs E n wk -> wk_ok wk ->
  exists l, builtin_rho_noise X ch d m t (w_xs wk) (f_vm (w_fit wk)) (st_vector_model st) reg
              (Some (map (map Fin) C)) = Ok l.
Proof.
  intros RO VO ER W WK. destruct (gw_fit _ _ _ _ _ _ _ _ _ W) as (h & xs & fv & _ & KF & KA & Exs & Efv).
  rewrite ER in KF. cbn [K builtin_components k_fit k_agg] in KF, KA. unfold builtin_fit in KF.
  destruct (region_proper d b HD HBD HNF reg RO) as (rad & P & Er & L & M & DG).
  destruct (st_vector_model st) as [old|]; [|easy]. cbn [fin_old] in VO.
  assert (Lf : length fv = length xs) by (rewrite Exs, Efv; now rewrite !map_length).
  assert (NX : xs <> []) by (rewrite Exs; intros Z; apply map_eq_nil in Z; now apply WK).
  destruct xs as [|x xs]; [easy|]. rewrite DG in KF.
  destruct (fit_total X ch ft d w b crit (fun _ => HF) (x :: xs) fv reg old RO Lf (fun _ => VO)) as (v & EF & V1 & V2 & V3).
  fold m in EF. rewrite EF in KF. cbn [bind] in KF. injection KF as KF. rewrite <- KF in KA |- *.
  destruct (aggregate_total ch ft d w US v V1 V2 V3) as (s & EA & S1 & S2).
  unfold builtin_rho_noise. rewrite all_rows_fin_map. unfold simulate_rho_noise. rewrite EA. cbn [bind].
  apply mapM_total. intros draw Hd'. unfold one_draw.
  set (xs' := w_xs wk) in *.
  assert (Ld : length draw = length xs') by (eapply blocks_length; [|exact Hd']; apply EN).
  set (tf := true_fvecs v reg xs') in *. assert (Lt : length tf = length xs') by apply map_length.
  destruct (fit_total X ch ft d w b crit (fun _ => HF) xs' (map (map Fin) (map2 (map2 Rplus) tf draw)) reg old RO) as (v' & EF' & V1' & V2' & V3').
  { rewrite map_length, map2_length. lia. } { intros _. exact VO. }
  fold m in EF'. rewrite EF'. cbn [bind].
  destruct (aggregate_total ch ft d w US v' V1' V2' V3') as (s' & -> & S1' & S2'). cbn [bind].
  destruct (solve_total X ch ft d w b ED EW HD HBD HNF US (Some s') reg) as (q & EQ); [now exists s'|easy|].
  unfold builtin_solve in EQ. destruct (_ || _); [discriminate|].
  destruct (solve_proper X ch s' reg) as [r|]; [|discriminate]. cbn [bind]. eexists. reflexivity.
Qed.

Lemma adjust_at_least n rho l : (1 <= n)%Z -> (1 <= fst (adjust_n_evals n rho l (noise_o O)))%Z.
Proof.
  intros Hn. pose proof (nc_min _ NC). pose proof (nc_max _ NC). unfold adjust_n_evals. cbn [fst].
  destruct (xgt _ _); [lia|]. destruct (_ || _); lia.
Qed.

Lemma noise_goes t st n h Xs E wk : haslog ft d w h Xs E -> E <> [] -> st_ok b fin_old Xs st -> (1 <= n)%Z ->
  good_work ft d w K st Xs E n wk -> wk_ok wk -> J Xs E st ->
  goes (noise_estimates K O st) h (fun h' nz => h' = h /\
    admissible ft d w (k_crit K) (k_decider K t (fst nz)) (f_sub (w_fit wk)) (cur_of st) Xs E /\
    (not_line_search (k_decider K t (fst nz)) \/ forall x, in_bounds b x) /\
    forall st' rho h1, st_region st' = st_region st -> st_vector_model st' = st_vector_model st ->
      goes (adapt_n_evals K O t st' wk (snd nz) rho n) h1 (fun h' r => h' = h1 /\ (1 <= fst r)%Z)).
Proof.
  intros HL HE HS Hn W WK HJ. destruct (estimates_fin h Xs E st HL HS HJ) as (s & C & EV & Hs & EC).
  pose proof (st_ok_region ft d w b fin_old _ _ _ _ HL HS) as RO.
  unfold noise_estimates. rewrite (nc_noisy _ NC).
  eapply goes_bind; [apply (goes_query _ _ _ (eq (Fin s))); eauto|]. intros h1 v _ (-> & <-).
  eapply goes_bind; [apply (goes_query _ _ _ (eq (map (map Fin) C))); eauto|]. intros h1 c _ (-> & <-).
  apply goes_ret. cbn [fst snd]. split; [easy|]. split; [|split].
  - split; [exact HC|]. split; [apply W|].
    destruct (decider_cases t (Some (Fin s))) as [(z & lo & hi & -> & B)| ->]; [|exact I].
    split; [eauto|]. split; [|split; [lia|split; [|easy]]].
    + pose proof (gw_solve _ _ _ _ _ _ _ _ _ W) as SV. cbn [K builtin_components k_solve] in SV.
      unfold builtin_solve in SV. destruct (f_sm (w_fit wk)) as [sm|]; [|discriminate].
      destruct (_ || _); [discriminate|]. unfold solve_proper in SV.
      destruct (degenerate _); [discriminate|].
      destruct (solve_subproblem _ _ _ _ _ _ _) as [q|] eqn:EQ; [|discriminate]. cbn [bind] in SV.
      destruct (all_fin (s_x q)); [|discriminate]. injection SV as <-. cbn [sub_ei].
      pose proof (C53_improvement_nonnegative _ _ _ _ _ _ _ _ EQ) as NN. intros Z. now rewrite Z in NN.
    + cbn [cur_of c_index]. apply nth_error_Some. destruct HS as ([A1 _] & _). congruence.
  - left. destruct (decider_cases t (Some (Fin s))) as [(z & lo & hi & -> & _)| ->]; exact I.
  - intros st' rho h1 ER EM. unfold adapt_n_evals. rewrite (nc_noisy _ NC).
    destruct (simulation_total t (st_region st) st wk C Xs E n RO (proj1 (proj2 HS)) eq_refl W WK) as (l & EL).
    eapply goes_bind.
    { apply (goes_lift _ _ _ (eq l)). exists l. split; [|easy]. rewrite ER, EM. exact EL. }
    intros h2 l' _ (-> & <-). apply goes_ret. split; [easy|]. now apply adjust_at_least.
Qed.
End Noisy.

(** C179 - a noisy run with the built-in components returns a result, for all criteria with finite
    values: the start vector is evaluated at least twice, the decider evaluates candidates at least
    twice, at least two evaluations are asked for in the estimate of the noise. *)
Theorem C179_noisy_runs_succeed :
  forall X ch ft d w crit n_cores O pad x r0 b,
    ext_dims d X -> ext_works d X -> normal_works X -> workable (ft_w ft w) ch -> noisy_choices ch ->
    noisy_config O -> good_criterion ft w crit -> finite_values crit ->
    d <> 0%nat -> w <> 0%nat -> length x = d -> 0 < r0 ->
    two_sided b -> bounds_dim d b -> no_fixed b -> in_bounds b x ->
    (forall x, in_bounds b x) \/ ball_solver ch ->
    exists h r, tranquilo (builtin_components X ch d (ft_w ft w) crit n_cores) O ft pad x r0 b = (h, Ok r).
Proof.
  intros X ch ft d w crit nc O pad x r0 b ED EW EN US NY NC HC HF Hd Hw Lx Hr TS BD NF IB HB.
  destruct (tranquilo_goes_gen ft d w b _ _ _ (builtin_components X ch d (ft_w ft w) crit nc) O
    (C140_builtin_components_good X ch d d (ft_w ft w) ft w crit nc ED HC)
    ltac:(now apply noisy_able) (nc_run _ NC) TS BD (J crit)) with (pad := pad) (x := x) (r0 := r0)
    as (h & r & _ & _ & E & _); auto.
  - apply (J_more ft d w crit Hd Hw).
  - apply (J_step X ch ft d w crit nc Hd Hw NY).
  - apply (J_start ft d w crit O Hd Hw NC).
  - apply (noise_goes X ch ft d w b crit nc O ED EW EN Hd Hw BD NF HC HF US NY NC).
  - right. now apply (builtin_inside X ch ft d w b crit nc ED EW).
  - eauto.
Qed.
