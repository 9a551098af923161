(** Properties C140-C142: the built-in components in the main loop. *)
From Coq Require Import Reals List Arith ZArith Bool Lia Lra Psatz Sorting.Sorted.
From Verif Require Import Base XR Vec FVec HistoryModel HistorySpec HistoryProofs WrapModel WrapProofs
  VolumeModel RegionModel AdjustModel AcceptModel ModelsModel FitModel FilterModel SubproblemModel
  SampleModel VarianceModel NoiseModel CgModel TrsboxModel TrsboxFastModel BntrModel GqtparModel
  LogSpec LogProofs Prop_Region Prop_Adjust AcceptProofs Prop_Accept Prop_Filter Prop_Cluster
  Prop_Models Prop_Fit Prop_Subproblem Prop_Sample Prop_Bntr MainModel MainProofs MainPhases MainLoop
  MainProgress MainProgress2 Prop_Main Prop_Main2 Prop_Main3 Prop_Main4 BuiltinModel.
Import ListNotations.
Open Scope R_scope.

(** * C140 *)

Definition rows_dim (d : nat) (xs : rows) : Prop := forall x, In (Some x) xs -> length x = d.
Definition vecs_dim (d : nat) (xs : list vec) : Prop := Forall (fun x => length x = d) xs.

(** The external functions return arrays of the right shapes; [d] parameters. *)
Record ext_dims (d : nat) (X : externals) : Prop := {
  ed_rng2 : forall t j D k, vecs_dim d (e_rng2 X t j D k d);
  ed_rng3 : forall t j D s k, Forall (vecs_dim d) (e_rng3 X t j D s k d);
  ed_uniform : forall t j lo up k, vecs_dim (length lo) (e_uniform X t j lo up k);
  ed_optimize : forall f x0 xs, rows_dim d x0 -> e_optimize X f x0 = Ok xs -> rows_dim d xs;
  ed_minimize : forall f g x0 lo up k r, e_minimize X f g x0 lo up k = Ok r -> length (o_x r) = length x0;
  ed_norm : forall s x r v, e_norm_constraint X s x = Ok r -> fb_x r = Some v -> length v = length x
}.

Lemma all_fin_inv l v : all_fin l = Some v -> l = map Fin v.
Proof.
  revert v. induction l as [|a l IH]; simpl; intros v H; [now injection H as <-|].
  destruct a; try discriminate. destruct (all_fin l) as [k|]; [|discriminate]. injection H as <-.
  simpl. now rewrite (IH k).
Qed.
Lemma all_fin_map v : all_fin (map Fin v) = Some v.
Proof. induction v; simpl; [easy|]. now rewrite IHv. Qed.
Lemma all_rows_inv xs l : all_rows xs = Some l -> xs = map Some l.
Proof.
  revert l. induction xs as [|[x|] xs IH]; simpl; intros l H; [now injection H as <-| |discriminate].
  destruct (all_rows xs) as [k|]; [|discriminate]. injection H as <-. simpl. now rewrite (IH k).
Qed.
Lemma all_rows_map l : all_rows (map Some l) = Some l.
Proof. induction l; simpl; [easy|]. now rewrite IHl. Qed.

Lemma misshapen_false reg : misshapen reg = false ->
  length (r_cube_lower reg) = length (r_center reg) /\ length (r_cube_upper reg) = length (r_center reg).
Proof.
  unfold misshapen. intros H. apply negb_false_iff, andb_true_iff in H as [A B].
  now apply Nat.eqb_eq in A, B.
Qed.

Lemma from_unit_dim reg x : misshapen reg = false -> length x = length (r_center reg) ->
  length (map_from_unit reg x) = length (r_center reg).
Proof.
  intros M L. apply misshapen_false in M as [M1 M2]. unfold map_from_unit. destruct (r_shape reg).
  - unfold map_from_unit_sphere. rewrite map2_length. lia.
  - unfold vclip, map_from_unit_cube. rewrite !map2_length, combine_length. lia.
Qed.
Lemma map_rows_dim reg xs : misshapen reg = false -> rows_dim (length (r_center reg)) xs ->
  rows_dim (length (r_center reg)) (map_rows_from_unit reg xs).
Proof.
  intros M H x Hx. unfold map_rows_from_unit in Hx. apply in_map_iff in Hx as ([y|] & E & Hy); [|discriminate].
  injection E as <-. apply from_unit_dim; auto.
Qed.
Lemma project_dim sh d xs : rows_dim d xs -> rows_dim d (project_onto_unit_hull sh xs).
Proof.
  intros H x Hx. unfold project_onto_unit_hull in Hx. apply in_map_iff in Hx as ([y|] & E & Hy); [|discriminate].
  simpl in E. unfold project_row in E. destruct (Reqb _ 0); [discriminate|]. injection E as <-.
  rewrite map_length. auto.
Qed.
Lemma vecs_rows_dim d xs : vecs_dim d xs -> rows_dim d (map Some xs).
Proof.
  intros H x Hx. apply in_map_iff in Hx as (y & E & Hy). injection E as ->.
  unfold vecs_dim in H. rewrite Forall_forall in H. auto.
Qed.

Section Good.
Variables (X : externals) (ch : choices) (d n m : nat).
Hypothesis ED : ext_dims d X.

Lemma sample_rows_dim t j reg k existing xs : misshapen reg = false -> length (r_center reg) = d ->
  match ch_sampler ch with
  | SamInterior => Ok (interior_sampler (e_gammainc X) reg k (e_rng2 X t j Normal) (e_uniform X t j))
  | SamHull d => hull_sampler (e_rng2 X t j) reg k d
  | SamOptimal d hardness c ns =>
      optimal_hull_sampler (e_rng3 X t j) (e_optimize X) reg (Z.of_nat k) d hardness c ns (Some existing)
  end = Ok xs -> rows_dim (length (r_center reg)) xs.
Proof.
  intros M Ld. pose proof ED as ED'. rewrite <- Ld in ED'. destruct (ch_sampler ch) as [|D|D hd c ns].
  - intros [= <-]. unfold interior_sampler. destruct (r_shape reg).
    + apply map_rows_dim; [easy|]. intros x Hx. apply in_map_iff in Hx as (y & E & Hy).
      unfold ball_row in E. destruct (Reqb _ 0); [discriminate|]. injection E as <-. rewrite map_length.
      pose proof (ed_rng2 _ X ED' t j Normal k) as V.
      unfold vecs_dim in V. rewrite Forall_forall in V. auto.
    + unfold box_sampler. apply vecs_rows_dim. destruct (misshapen_false _ M) as [<- _].
      apply (ed_uniform _ X ED').
  - unfold hull_sampler, draw_from_distribution.
    destruct (default_distribution D (r_shape reg)); cbn [bind]; try discriminate; intros [= <-];
      apply map_rows_dim, project_dim, vecs_rows_dim, (ed_rng2 _ X ED'); easy.
  - unfold optimal_hull_sampler, optimal_hull_info. destruct (_ <=? 0)%Z.
    { cbn [bind]. intros [= <-]. easy. }
    set (cr := default_criterion _ _). set (ex := existing_in_unit_space _ _ _).
    unfold draw_from_distribution. set (dd := default_distribution D (r_shape reg)). clearbody dd.
    rewrite Nat2Z.id.
    assert (DR : Forall (vecs_dim (length (r_center reg))) (e_rng3 X t j dd ns k (length (r_center reg)))) by apply (ed_rng3 _ X ED').
    destruct (match dd with Normal | Uniform => _ | OtherDistribution => _ end) as [dr|] eqn:Edr; [|discriminate].
    assert (dr = e_rng3 X t j dd ns k (length (r_center reg))) as -> by (destruct dd; congruence).
    cbn [bind]. destruct (random_search _ _ _ _ _) as [x0|] eqn:E0; [|discriminate]. cbn [bind].
    assert (D0 : rows_dim (length (r_center reg)) x0).
    { assert (I : In x0 (map (fun x => project_onto_unit_hull (r_shape reg) (map Some x))
                           (e_rng3 X t j dd ns k (length (r_center reg))))).
      { unfold random_search in E0. destruct (ns =? 1)%nat.
        - destruct (map _ _) as [|a l]; [discriminate|]. injection E0 as <-. now left.
        - destruct (xargmax _) as [q|]; [|discriminate]. cbn [bind] in E0.
          destruct (nth_error _ q) eqn:Eq; [|discriminate]. injection E0 as <-. eapply nth_error_In, Eq. }
      apply in_map_iff in I as (y & <- & Hy). apply project_dim, vecs_rows_dim.
      rewrite Forall_forall in DR. now apply DR. }
    set (crit := fun x : rows => _).
    assert (DO : forall opt, (match ex with None => if (k =? 1)%nat then Ok x0 else e_optimize X crit x0
                              | Some _ => e_optimize X crit x0 end) = Ok opt -> rows_dim (length (r_center reg)) opt).
    { intros opt. destruct ex; [|destruct (k =? 1)%nat]; intros E.
      - eapply (ed_optimize _ X ED'); eauto.
      - now injection E as <-.
      - eapply (ed_optimize _ X ED'); eauto. }
    destruct (match ex with Some _ => _ | None => _ end) as [opt|]; [|discriminate].
    cbn [bind]. intros [= <-]. apply map_rows_dim, project_dim; [easy|].
    destruct (xge _ _); [easy|]. auto.
Qed.

Lemma builtin_sample_dim t j : sampler_dim d (builtin_sample X ch t j).
Proof.
  intros h reg k ex xs L H. unfold builtin_sample in H. destruct (misshapen reg) eqn:M; [discriminate|].
  destruct (match ch_sampler ch with SamInterior => _ | SamHull _ => _ | SamOptimal _ _ _ _ => _ end) as [ys|] eqn:E;
    [|discriminate]. cbn [bind] in H.
  apply sample_rows_dim in E; [|easy..].
  destruct (all_rows ys) as [l|] eqn:EA; [|discriminate]. injection H as <-.
  apply all_rows_inv in EA. subst ys. rewrite L in E. apply Forall_forall. intros x Hx. apply E. now apply in_map.
Qed.

Lemma at_vec_inv f x0 r : at_vec f x0 = Ok r -> exists v, x0 = map Fin v /\ f v = Ok r.
Proof.
  unfold at_vec. destruct (all_fin x0) as [v|] eqn:E; [|discriminate]. intros H. exists v. split; [|easy].
  now apply all_fin_inv.
Qed.
Lemma raw_of_inv q r : raw_of q = Ok r -> exists f v, q = Ok f /\ fb_x f = Some v /\ raw_x r = map Fin v.
Proof.
  unfold raw_of. destruct q as [f|]; [|discriminate]. cbn [bind]. destruct (fb_x f) as [v|] eqn:E; [|discriminate].
  intros [= <-]. exists f, v. easy.
Qed.
Lemma robust_cube_dim mz s x a r v : (forall f g x0 lo up k r, mz f g x0 lo up k = Ok r -> length (o_x r) = length x0) ->
  robust_cube_solver mz s x a = Ok r -> fb_x r = Some v -> length v = length x.
Proof.
  intros H E F. unfold robust_cube_solver in E. destruct (sm_h s); [|discriminate].
  destruct (mz _ _ _ _ _ _) as [o|] eqn:EM; [|discriminate]. injection E as <-. injection F as <-.
  eapply H, EM.
Qed.

(** What a solver of the template returns is finite and has the length of the model. *)
Definition proper_raw (k : nat) (r : raw) : Prop := exists u, raw_x r = map Fin u /\ length u = k.

Lemma sphere_fallback_dim s x0 r : sphere_fallback X s x0 = Ok r -> proper_raw (length x0) r.
Proof.
  intros H. apply at_vec_inv in H as (v & -> & H). apply raw_of_inv in H as (f & u & E & F & Er).
  exists u. split; [easy|]. rewrite map_length. eapply robust_cube_dim; eauto. apply (ed_minimize _ X ED).
Qed.
Lemma cube_fallback_dim s x0 r : cube_fallback X s x0 = Ok r -> proper_raw (length x0) r.
Proof.
  intros H. apply at_vec_inv in H as (v & -> & H). apply raw_of_inv in H as (f & u & E & F & Er).
  exists u. split; [easy|]. rewrite map_length. eapply robust_cube_dim; eauto. apply (ed_minimize _ X ED).
Qed.
Lemma sphere_solver_dim s x0 lo up r : length x0 = sm_n s -> sphere_solver X ch s x0 lo up = Ok r ->
  proper_raw (sm_n s) r.
Proof.
  intros L. unfold sphere_solver. destruct (ch_sphere ch).
  - unfold gqtpar_solver. destruct (sm_h s); [|discriminate].
    destruct (gqtpar _ _ _ _ _ _ _) as [g|]; [|discriminate]. intros [= <-].
    exists (map (g_x g) (seq 0 (sm_n s))). cbn [raw_x]. rewrite map_map, map_length, seq_length. easy.
  - intros H. apply at_vec_inv in H as (v & -> & H). apply raw_of_inv in H as (f & u & E & F & Er).
    exists u. split; [easy|]. rewrite map_length in L. rewrite <- L.
    unfold robust_sphere_solver_reparametrized in E. cbv zeta in E.
    destruct (e_minimize X _ _ _ _ _ _) as [o|] eqn:EM; [|discriminate]. injection E as <-. injection F as <-.
    unfold project_ball. apply (ed_minimize _ X ED) in EM. destruct (Rleb _ _); [easy|now rewrite map_length].
  - intros H. rewrite <- L. now apply sphere_fallback_dim in H.
  - intros H. apply at_vec_inv in H as (v & -> & H). apply raw_of_inv in H as (f & u & E & F & Er).
    exists u. split; [easy|]. rewrite map_length in L. rewrite <- L. eapply (ed_norm _ X ED); eauto.
Qed.
Lemma cube_solver_dim s x0 lo up r : length x0 = sm_n s -> cube_solver X ch s x0 lo up = Ok r ->
  proper_raw (sm_n s) r.
Proof.
  intros L. unfold cube_solver. destruct (ch_cube ch).
  - unfold bntr_solver. destruct (sm_h s); [|discriminate]. intros H.
    apply at_vec_inv in H as (v & -> & H). destruct (bntr _ _ _ _ _ _ _ _ _ _ _ _) as [b|]; [|discriminate].
    injection H as <-. exists (map (br_x b) (seq 0 (sm_n s))). cbn [raw_x].
    rewrite map_map, map_length, seq_length. easy.
  - intros H. rewrite <- L. now apply cube_fallback_dim in H.
Qed.

Lemma delivered_dim s reg r : length (r_center reg) = sm_n s -> misshapen reg = false ->
  delivered s reg (sphere_solver X ch) (cube_solver X ch) (sphere_fallback X) (cube_fallback X) (ch_retry ch) r ->
  proper_raw (sm_n s) r.
Proof.
  intros L M. apply misshapen_false in M as [M1 M2].
  assert (LX : length (xmap_to_unit reg (r_center reg)) = sm_n s).
  { unfold xmap_to_unit. destruct (r_shape reg); rewrite map2_length, ?combine_length; lia. }
  unfold delivered. cbv zeta. destruct (r_shape reg) eqn:S; intros [H|(_ & _ & H)].
  - now apply sphere_solver_dim in H.
  - apply sphere_fallback_dim in H. now rewrite LX in H.
  - now apply cube_solver_dim in H.
  - apply cube_fallback_dim in H. now rewrite LX in H.
Qed.

Lemma builtin_solve_dim s reg r : length (r_center reg) = d -> builtin_solve X ch s reg = Ok r ->
  length (sub_x r) = d.
Proof.
  intros L. unfold builtin_solve. destruct s as [s|]; [|discriminate].
  destruct (misshapen reg) eqn:M; [discriminate|]. cbn [orb].
  destruct (Nat.eqb_spec (sm_n s) (length (r_center reg))) as [N|]; [|discriminate]. cbn [negb].
  unfold solve_proper. destruct (degenerate reg); [discriminate|].
  destruct (solve_subproblem _ _ _ _ _ _ _) as [q|] eqn:E; [|discriminate]. cbn [bind].
  destruct (all_fin (s_x q)) as [v|] eqn:EF; [|discriminate]. intros [= <-]. cbn [sub_x].
  apply all_fin_inv in EF. apply solve_cases in E as (rw & DV & E). cbv zeta in E.
  apply delivered_dim in DV; [|congruence|easy]. destruct DV as (u & EU & LU).
  apply misshapen_false in M as [M1 M2].
  assert (LX : length (s_x q) = d).
  { destruct E as (_ & _ & [(_ & -> & _)|(_ & -> & _)]); [|now rewrite map_length].
    rewrite EU. unfold xmap_from_unit. destruct (r_shape reg); rewrite map2_length, ?map_length, ?combine_length; lia. }
  rewrite EF, map_length in LX. easy.
Qed.

Lemma subseq_snd_NoDup {A B} (l k : list (A * B)) : subseq l k -> NoDup (map snd k) -> NoDup (map snd l).
Proof.
  induction 1 as [|a l k S IH|a l k S IH]; intros H; simpl in *; [easy| |].
  - inversion H; subst. constructor; [|auto]. intros I. apply H2.
    apply in_map_iff in I as (p & E & Hp). rewrite <- E. apply in_map.
    clear -S Hp. induction S; simpl in *; [easy|tauto|tauto].
  - inversion H; subst. auto.
Qed.
Lemma subseq_incl {A} (l k : list A) : subseq l k -> incl l k.
Proof. intros S a. induction S; simpl; [easy|tauto|tauto]. Qed.
Lemma map_snd_combine {A B} (l : list A) (k : list B) : length l = length k -> map snd (combine l k) = k.
Proof. revert k. induction l; intros [|]; simpl; intros; try discriminate; [easy|]. now rewrite IHl by lia. Qed.

Lemma clustering_good xs is st dim target s : length xs = length is -> NoDup is -> 0 <= f_radius st ->
  exists xs' is', keep_cluster_centers xs is st dim target s = Ok (xs', is') /\
    length xs' = length is' /\ NoDup is' /\ incl (combine xs' is') (combine xs is) /\
    (xs <> [] -> is' <> []).
Proof.
  intros HL ND Hr.
  destruct (keep_cluster_centers_spec xs is st dim target s _ HL Hr eq_refl) as (xs' & is' & E & L & I & C).
  exists xs', is'. split; [easy|]. split; [easy|]. split.
  - unfold keep_cluster_centers in E. set (eps := get_radius_after_volume_scaling _ _ _) in E.
    assert (E0 : 0 <= eps).
    { unfold eps, get_radius_after_volume_scaling. apply Rmult_le_pos; [easy|]. unfold Rpower. apply Rlt_le, exp_pos. }
    destruct (C51_cluster (length xs) (fun i j => dist (nth i xs []) (nth j xs [])) eps) as
      (labels & centers & EC & LL & A & B & NC & _); [intros; apply dist_sym|intros; apply dist_self|easy|].
    rewrite EC in E. cbn [bind] in E.
    assert (LT : forall k, In k centers -> (k < length is)%nat).
    { intros c Hc. apply In_nth_error in Hc as [k Hk]. apply B in Hk. rewrite <- HL, <- LL.
      apply nth_error_Some. congruence. }
    destruct (mapM (nth_res xs) centers) as [x2|]; [|discriminate]. cbn [bind] in E.
    destruct (mapM_nth_res is centers LT) as (i2 & E2 & L2 & R2). rewrite E2 in E. cbn [bind] in E.
    injection E as _ <-. apply NoDup_nth_error. intros i j Hi Hij.
    assert (Hic : (i < length centers)%nat) by lia.
    destruct (nth_error centers i) as [ci|] eqn:Ei; [|apply nth_error_None in Ei; lia].
    assert (Hjl : (j < length i2)%nat) by (apply nth_error_Some; rewrite <- Hij; now apply nth_error_Some).
    destruct (nth_error centers j) as [cj|] eqn:Ej; [|apply nth_error_None in Ej; lia].
    rewrite (R2 _ _ Ei), (R2 _ _ Ej) in Hij.
    assert (ci = cj).
    { apply (proj1 (NoDup_nth_error is) ND); [|easy]. apply LT. eapply nth_error_In, Ei. }
    subst cj. apply (proj1 (NoDup_nth_error centers) NC); congruence.
  - split; [exact I|]. intros Hx He. subst is'. destruct xs as [|x xs]; [easy|]. destruct is as [|i is]; [discriminate|].
    destruct (C (x, i) (or_introl eq_refl)) as (q & Hq & _). now destruct xs'.
Qed.

Lemma builtin_filter_good {VM SM} (st : state VM SM) target xs is xs' is' :
  length xs = length is -> NoDup is -> builtin_filter ch st target xs is = Ok (xs', is') ->
  length xs' = length is' /\ NoDup is' /\ incl (combine xs' is') ((st_x st, st_index st) :: combine xs is).
Proof.
  intros L ND. unfold builtin_filter. destruct (ch_filter ch) as [| |s|f].
  - intros [= <- <-]. split; [easy|]. split; [repeat constructor; easy|]. intros p [<-|[]]. now left.
  - intros [= <- <-]. split; [easy|]. split; [easy|]. intros p Hp. now right.
  - destruct (Rltb_spec (r_radius (st_region st)) 0) as [|R0]; [discriminate|]. intros E.
    destruct (clustering_good xs is (fstate_of st) (length (st_x st)) (IZR target) s L ND) as (x2 & i2 & E2 & A & B & C & _).
    { cbn [f_radius fstate_of]. lra. }
    rewrite E in E2. injection E2 as <- <-. split; [easy|]. split; [easy|]. intros p Hp. right. auto.
  - unfold drop_excess. set (k := Z.to_nat _). intros E.
    destruct (le_lt_dec k (length xs)) as [Hk|Hk].
    + destruct (C48_drop_worst_points_removes_n (fstate_of st) xs is k L Hk) as (x2 & i2 & E2 & L1 & L2 & S).
      rewrite E in E2. injection E2 as <- <-. split; [easy|]. split.
      * apply subseq_snd_NoDup in S; rewrite !map_snd_combine in * by easy; easy.
      * intros p Hp. right. now apply (subseq_incl _ _ S).
    + pose proof (C48_too_many_to_drop_raises (fstate_of st) xs is k L Hk) as E2. rewrite E in E2. discriminate.
Qed.

End Good.

(** C140 - the built-in components meet the requirements of the theorems about the main loop, for all
    choices of components and options and all external functions that return arrays of the right
    shapes. *)
Theorem C140_builtin_components_good :
  forall X ch d n m ft w crit n_cores, ext_dims d X -> good_criterion ft w crit ->
    good_components ft d w (builtin_components X ch n m crit n_cores).
Proof.
  intros X ch d n m ft w crit nc ED HC. constructor; cbn [builtin_components k_crit k_sample k_solve k_filter k_decider].
  - exact HC.
  - intros t j. now apply builtin_sample_dim.
  - intros sm reg s. now apply builtin_solve_dim.
  - intros h st target k xs is xs' is'. apply builtin_filter_good.
  - intros t v. unfold builtin_decider. destruct (ch_decider ch); try exact I. now apply builtin_sample_dim.
Qed.

(** * C141 *)

(** The external functions succeed and return points as documented: random points are not zero, the
    optimizers respect their bounds. *)
Record ext_works (d : nat) (X : externals) : Prop := {
  ew_rng2 : forall t j D k, length (e_rng2 X t j D k d) = k /\ good_rows d (e_rng2 X t j D k d);
  ew_rng3 : forall t j D s k, length (e_rng3 X t j D s k d) = s /\
    Forall (fun xs => length xs = k /\ good_rows d xs) (e_rng3 X t j D s k d);
  ew_uniform : forall t j lo up k, vle lo up -> length lo = length up ->
    length (e_uniform X t j lo up k) = k /\
    Forall (fun x => length x = length lo /\ vle lo x /\ vle x up) (e_uniform X t j lo up k);
  ew_gamma : forall a x, 0 <= e_gammainc X a x <= 1;
  ew_optimize : forall f x0, exists xs, e_optimize X f x0 = Ok (map Some xs) /\ length xs = length x0 /\
    good_rows d xs;
  ew_minimize : forall f g x0 lo up k, length lo = length x0 -> length up = length x0 ->
    vle lo x0 -> vle x0 up -> exists r, e_minimize X f g x0 lo up k = Ok r;
  ew_box : respects_box (e_minimize X)
}.

(** Choices for which the components do not raise by themselves; [k] residuals. *)
Definition usable_sampler (ch : choices) : Prop :=
  match ch_sampler ch with
  | SamInterior => True
  | SamHull D => D <> Some OtherDistribution
  | SamOptimal D _ _ ns => D <> Some OtherDistribution /\ (1 <= ns)%nat
  end.
Record workable (k : nat) (ch : choices) : Prop := {
  wo_retry : ch_retry ch = true;
  wo_aggregator : match ch_aggregator ch with
                  | AggIdentity => k = 1%nat
                  | AggSum => ch_type ch = Quadratic
                  | _ => True
                  end;
  wo_filter : match ch_filter ch with FilDropExcess f => 1 <= f | _ => True end;
  wo_sampler : usable_sampler ch
}.
(** Moreover the decider does not need an estimate of the noise. *)
Record usable (k : nat) (ch : choices) : Prop := {
  us_retry : ch_retry ch = true;
  us_decider : match ch_decider ch with
               | DecClassic | DecNaiveNoisy => True
               | DecLineSearch rf bs => 0 < rf /\ (1 <= bs)%nat
               | DecNoisy _ _ _ => False
               end;
  us_aggregator : match ch_aggregator ch with
                  | AggIdentity => k = 1%nat
                  | AggSum => ch_type ch = Quadratic
                  | _ => True
                  end;
  us_filter : match ch_filter ch with FilDropExcess f => 1 <= f | _ => True end;
  us_sampler : usable_sampler ch
}.

Lemma usable_workable k ch : usable k ch -> workable k ch.
Proof. intros []. now constructor. Qed.

Definition finite_values (crit : criterion) : Prop :=
  forall x v, true_eval crit x v -> exists l, v = map Fin l.

Lemma nth_map_fin (l : list R) i : (i < length l)%nat -> nth i (map Fin l) NaN = Fin (nth i l 0).
Proof.
  intros H. rewrite nth_indep with (d' := Fin 0) by (now rewrite map_length). apply map_nth.
Qed.

Lemma clip_rows_fin m ys : exists Y, clip_rows m ys = map (map Fin) Y /\ length Y = length ys /\
  Forall (fun y => length y = m) Y.
Proof.
  unfold clip_rows. set (cols := map (fun k => map (fun y => nth k y NaN) ys) (seq 0 m)).
  assert (C : forall k, (k < m)%nat -> exists l, nth k (clip_relative cols) [] = map Fin l /\ length l = length ys).
  { intros k Hk. unfold clip_relative, cols. rewrite map_map.
    rewrite nth_indep with (d' := clip_column (map (fun y => nth 0 y NaN) ys)) by (now rewrite map_length, seq_length).
    set (g := fun x : nat => clip_column (map (fun y => nth x y NaN) ys)).
    change (clip_column (map (fun y => nth 0 y NaN) ys)) with (g 0%nat). rewrite map_nth, seq_nth by easy. unfold g.
    unfold clip_column. destruct (penalties _) as [p q].
    exists (map (fun v => match v with Fin r => r | NInf => q | _ => p end) (map (fun y => nth (0 + k) y NaN) ys)).
    rewrite !map_length. split; [|easy]. rewrite !map_map. apply map_ext. intros y. now destruct (nth (0 + k) y NaN). }
  exists (map (fun i => map (fun k => match nth i (nth k (clip_relative cols) []) NaN with Fin r => r | _ => 0 end)
                        (seq 0 m)) (seq 0 (length ys))).
  split; [|split; [now rewrite map_length, seq_length|]].
  - rewrite map_map. apply map_ext_in. intros i Hi. rewrite map_map. apply map_ext_in. intros k Hk.
    apply in_seq in Hi, Hk. destruct (C k) as (l & E & L); [lia|]. rewrite E. now rewrite nth_map_fin by lia.
  - apply Forall_map, Forall_forall. intros i _. now rewrite map_length, seq_length.
Qed.
Lemma all_rows_fin_map Y : all_rows_fin (map (map Fin) Y) = Some Y.
Proof. induction Y; simpl; [easy|]. now rewrite all_fin_map, IHY. Qed.

Lemma build_total n m t coef c r : length (coef 0%nat) = n_free_params n t ->
  exists v, build_vmodel n m t coef c r = Ok v /\ vm_n v = n /\ vm_m v = m /\ vm_scale v = r /\ vm_shift v = c /\
    (t = Quadratic <-> vm_h v <> None).
Proof.
  intros L. unfold build_vmodel. destruct t.
  - eexists. split; [reflexivity|]. now split.
  - unfold reshape_square_terms_to_hess. rewrite skipn_length, L, triu_indices_quad_pairs, quad_pairs_length.
    cbn [n_free_params]. replace (n + 1 + n_second_order_terms n - (n + 1))%nat with (n_second_order_terms n) by lia.
    rewrite Nat.eqb_refl. cbn [bind]. eexists. split; [reflexivity|]. now split.
Qed.

Section Works.
Variables (X : externals) (ch : choices) (ft : functype) (d w : nat) (b : option bounds) (crit : criterion)
  (n_cores : nat).
Hypothesis ED : ext_dims d X.
Hypothesis EW : ext_works d X.
Hypothesis HD : d <> 0%nat.
Hypothesis HBD : bounds_dim d b.
Hypothesis HNF : no_fixed b.
Hypothesis HC : good_criterion ft w crit.
Hypothesis HF : ch_residualize ch = true -> finite_values crit.
Let m := ft_w ft w.
Let K := builtin_components X ch d m crit n_cores.

Lemma region_proper reg : region_of d b reg ->
  exists r, proper_region (r_center reg) r b reg /\ r = r_radius reg /\ length (r_center reg) = d /\
    misshapen reg = false /\ degenerate reg = false.
Proof.
  intros (c & r & L & IB & Hr & M). exists r.
  destruct (make_region_inv _ _ _ _ M) as (x & _ & Ec & Er & _).
  assert (Hc : c <> []) by (intros ->; now apply HD).
  assert (D : bounds_dim (length c) b) by (now rewrite L).
  destruct (region_cube_length c r b reg D M) as [L1 L2].
  rewrite Ec. split; [|split; [easy|split; [easy|split]]].
  - repeat (split; [easy|]). easy.
  - unfold misshapen. now rewrite Ec, L1, L2, Nat.eqb_refl.
  - unfold degenerate. destruct (r_shape reg) eqn:S.
    + rewrite Er. apply Bool.not_true_iff_false. intros E. apply Reqb_true in E. lra.
    + apply Bool.not_true_iff_false. intros E. apply existsb_exists in E as ([l u] & HI & E).
      apply Reqb_true in E. apply In_nth_error in HI as [i Hi]. rewrite nth_error_combine in Hi.
      destruct (nth_error (r_cube_lower reg) i) eqn:E1; [|discriminate].
      destruct (nth_error (r_cube_upper reg) i) eqn:E2; [|discriminate]. injection Hi as -> ->.
      pose proof (C14_cube_not_degenerate c r b reg Hr Hc D IB HNF M S i l u E1 E2). lra.
Qed.

Definition first_ok (fv : list xr) : Prop := ch_residualize ch = true -> exists l, fv = map Fin l.
Definition old_ok (v : vm) : Prop :=
  match v with
  | VmOk v => vm_n v = d /\ vm_h v <> None /\ (exists r, vm_scale v = MScalar r /\ r <> 0)
  | VmBad _ => ch_residualize ch = false
  end.
Definition scalar_ok (s : option smodel) : Prop :=
  exists v, s = Some v /\ sm_n v = d /\ sm_h v <> None.

Lemma raw_fitter_total xs Y : exists coef, raw_fitter X ch d xs (map (map Fin) Y) = Ok coef /\
  forall k, length (coef k) = n_free_params d (ch_type ch).
Proof.
  unfold raw_fitter. rewrite all_rows_fin_map. cbv beta zeta.
  destruct (ch_fitter ch); try (eexists; split; [reflexivity|]; intros k; cbv beta; rewrite map_length, seq_length; apply n_features_free).
  assert (P : forall k, exists c, fit_powell (e_lstsq X) (e_qr X)
     (length xs) d (ch_type ch) (fun i => nth i xs fzero) (fun i => nth k (nth i Y []) 0) = Ok c /\
     length c = n_free_params d (ch_type ch)) by (intros k; apply C44_powell_never_raises).
  destruct (P 0%nat) as (c0 & E0 & _). rewrite E0. cbn [bind]. eexists. split; [reflexivity|].
  intros k. destruct (P k) as (c & E & L). now rewrite E.
Qed.

Lemma fit_total xs fv reg old : region_of d b reg -> length fv = length xs ->
  (ch_residualize ch = true -> vm_n old = d /\ vm_h old <> None /\ exists r, vm_scale old = MScalar r /\ r <> 0) ->
  exists v, fit_proper X ch d m xs fv reg old = Ok v /\ vm_n v = d /\ vm_m v = m /\
    (ch_type ch = Quadratic -> vm_h v <> None).
Proof.
  intros RO LF HO. unfold fit_proper, fitter_template.
  destruct (clip_rows_fin m fv) as (Y & -> & LY & FY).
  set (xu := map _ (map fun_of xs)).
  assert (Lx : length xu = length xs) by (unfold xu; now rewrite !map_length).
  destruct (ch_residualize ch).
  - destruct (HO eq_refl) as (N & H & r & Sc & Hr). clear HO.
    destruct (move_vmodel old _ _) as [o om] eqn:EM.
    set (center := fun_of (effective_center reg)) in *. set (radius := scale_of (effective_radius reg)) in *.
    set (pr := fun x => map (fun k => predict_vector om x k) (seq 0 m)).
    assert (ER : map2 (fun x y => map2 xsub y (map (fun k => Fin (predict_vector om x k)) (seq 0 m))) xu (map (map Fin) Y)
            = map (map Fin) (map2 (fun x y => map2 Rminus y (pr x)) xu Y)).
    { clear -FY. revert Y FY. induction xu as [|x xu IH]; intros [|y Y] F; try reflexivity.
      inversion F; subst. cbn [map map2]. rewrite IH by easy. f_equal.
      unfold pr. clear. generalize (seq 0 m). intros l. revert y. induction l as [|a l IH]; intros [|z y]; try reflexivity.
      cbn [map map2]. rewrite IH. reflexivity. }
    rewrite ER. destruct (raw_fitter_total xu (map2 (fun x y => map2 Rminus y (pr x)) xu Y)) as (coef & -> & LC).
    cbn [bind]. destruct (build_total d m (ch_type ch) coef center radius (LC 0%nat)) as (v & -> & V1 & V2 & V3 & V4 & V5).
    cbn [bind]. unfold move_vmodel in EM.
    destruct (shift_vmodel _ _) as [s1 s2] eqn:ES. injection EM as <- <-. unfold shift_vmodel in ES. injection ES as <- <-.
    unfold add_models_vector, scale_vmodel. cbn [vm_shift vm_scale vm_h vm_n vm_m vm_c vm_g].
    rewrite V3, V4, Sc. cbn [scale_inv scale_mul].
    assert (A1 : allclose (vm_n v) center (fadd (vm_shift old) (fsub center (vm_shift old))) = true).
    { unfold allclose. apply forallb_forall. intros i _. unfold fadd, fsub.
      replace (vm_shift old i + (center i - vm_shift old i)) with (center i) by ring. apply isclose_default_refl. }
    rewrite A1. cbn [negb].
    assert (A2 : allclose_scale (vm_n v) radius (match radius with MScalar s => MScalar (r * (1 / r) * s)
              | MVector _ => MVector (fun i => scale_at (MScalar (r * (1 / r))) i * scale_at radius i) end) = true).
    { unfold allclose_scale. destruct radius as [s|u].
      - replace (r * (1 / r) * s) with s by (field; easy). apply isclose_default_refl.
      - unfold allclose. apply forallb_forall. intros i _. cbn [scale_at].
        replace (r * (1 / r) * u i) with (u i) by (field; easy). apply isclose_default_refl. }
    rewrite A2. cbn [negb].
    destruct (vm_h old) as [ho|]; [|easy].
    destruct (vm_h v) as [hv|] eqn:EH.
    + eexists. split; [reflexivity|]. now cbn.
    + eexists. split; [reflexivity|]. cbn. split; [easy|]. split; [easy|]. intros T. now apply V5 in T.
  - destruct (raw_fitter_total xu Y) as (coef & -> & LC). cbn [bind].
    destruct (build_total d m (ch_type ch) coef (fun_of (effective_center reg)) (scale_of (effective_radius reg)) (LC 0%nat)) as (v & -> & V1 & V2 & V3 & V4 & V5).
    exists v. split; [easy|]. split; [easy|]. split; [easy|]. apply V5.
Qed.

(** The sphere solvers that stay in the unit ball *)
Definition ball_solver : Prop := ch_sphere ch = SphReparametrized \/ ch_sphere ch = SphInscribed.

Lemma solve_inside s reg r : ball_solver -> region_of d b reg -> builtin_solve X ch s reg = Ok r ->
  in_region reg (sub_x r).
Proof.
  intros BS RO. destruct (region_proper reg RO) as (rad & P & Er & L & M & DG).
  unfold builtin_solve. destruct s as [v|]; [|discriminate]. rewrite M. cbn [orb].
  destruct (Nat.eqb_spec (sm_n v) (length (r_center reg))) as [N|]; [|discriminate]. cbn [negb].
  unfold solve_proper. rewrite DG.
  destruct (solve_subproblem _ _ _ _ _ _ _) as [q|] eqn:E; [|discriminate]. cbn [bind].
  destruct (all_fin (s_x q)) as [y|] eqn:EF; [|discriminate]. intros [= <-]. cbn [sub_x].
  apply all_fin_inv in EF. unfold in_region.
  assert (DV : forall rw, delivered v reg (sphere_solver X ch) (cube_solver X ch) (sphere_fallback X) (cube_fallback X)
      (ch_retry ch) rw -> proper_raw (sm_n v) rw) by (intros rw; apply (delivered_dim X ch d ED); [congruence|easy]).
  assert (INJ : forall x, map Fin x = map Fin y -> x = y).
  { intros x H. assert (A : all_fin (map Fin x) = all_fin (map Fin y)) by (now rewrite H).
    rewrite !all_fin_map in A. now injection A. }
  destruct (old_unit _ _ _ _ P) as (o & EO & LO & BO & ZO).
  assert (HN : o <> []) by (intros ->; simpl in LO; lia).
  destruct (r_shape reg) eqn:S.
  - assert (BALL : forall rw, delivered v reg (sphere_solver X ch) (cube_solver X ch) (sphere_fallback X) (cube_fallback X)
      (ch_retry ch) rw -> exists u, raw_x rw = map Fin u /\ length u = length (r_center reg) /\ norm u <= 1).
    { intros rw D.
      assert (FI : forall rw, sphere_fallback X v (map Fin o) = Ok rw -> exists u, raw_x rw = map Fin u /\ norm u <= 1).
      { intros rw1 H. unfold sphere_fallback, at_vec in H. rewrite all_fin_map in H.
        apply raw_of_inv in H as (f & u & E1 & F1 & ER).
        destruct (C71_inscribed_cube_in_unit_ball _ _ _ _ (ew_box d X EW) HN E1) as (x & EX & _ & NX).
        exists u. split; [easy|]. congruence. }
      assert (U : exists u, raw_x rw = map Fin u /\ norm u <= 1).
      { unfold delivered in D. cbv zeta in D. rewrite S, EO in D. destruct D as [D|(_ & _ & D)]; [|now apply FI].
        unfold sphere_solver in D. destruct BS as [BS|BS]; rewrite BS in D; [|now apply FI].
        unfold at_vec in D. rewrite all_fin_map in D. apply raw_of_inv in D as (f & u & E1 & F1 & ER).
        destruct (C71_reparametrized_in_unit_ball _ _ _ _ E1) as (x & EX & NX). exists u. split; [easy|]. congruence. }
      destruct U as (u & EU & NU). destruct (DV rw D) as (u' & EU' & LU). exists u. split; [easy|]. split; [|easy].
      assert (LL : length (map Fin u) = length (map Fin u')) by congruence. rewrite !map_length in LL. congruence. }
    destruct (C56_sphere_feasible_partial v (r_center reg) rad b reg _ _ _ _ _ q P S BALL E) as (x & EX & LX & DX).
    rewrite EF in EX. symmetry in EX. apply INJ in EX. subst x. rewrite <- Er. easy.
  - destruct (C54_cube_feasible v (r_center reg) rad b reg _ _ _ _ _ q P S N ltac:(intros rw D; destruct (DV rw D) as (u & -> & LU); rewrite map_length; lia) E)
        as (_ & x & _ & EX & _ & LX & _ & _ & V1 & V2). rewrite EF in EX. symmetry in EX. apply INJ in EX. subst x. easy.
Qed.

Lemma hull_in_region c r reg y : region_ok c r b reg -> on_hull c r b reg y -> in_region reg y /\ in_bounds b y.
Proof.
  intros RO (L & IB & H1 & H2). pose proof (ro_reg _ _ _ _ RO) as M.
  destruct (make_region_inv _ _ _ _ M) as (x & _ & Ec & Er & _).
  split; [|easy]. unfold in_region. rewrite Ec, Er. split; [easy|].
  destruct (r_shape reg); [specialize (H1 eq_refl); lra|]. now destruct (H2 eq_refl) as (A & B & _).
Qed.

Lemma sample_total t j reg k existing h : usable_sampler ch -> region_of d b reg ->
  exists xs, builtin_sample X ch t j h reg k existing = Ok xs /\ length xs = k /\
    Forall (fun x => in_region reg x /\ in_bounds b x) xs.
Proof.
  intros U RO. destruct (region_proper reg RO) as (rad & P & Er & L & M & DG).
  assert (OK : region_ok (r_center reg) rad b reg).
  { destruct P as (P1 & P2 & P3 & P4 & P5 & P6). now constructor. }
  unfold builtin_sample. rewrite M. unfold usable_sampler in U.
  destruct (ch_sampler ch) as [|D|D hd c ns].
  - destruct (C73_interior_sampler (r_center reg) rad b reg (e_gammainc X) k (e_rng2 X t j Normal) (e_uniform X t j) OK)
      as (ys & E & LY & F).
    + apply (ew_gamma d X EW).
    + intros q. rewrite L. apply (ew_rng2 d X EW).
    + apply (ew_uniform d X EW).
    + rewrite E. cbn [bind]. rewrite all_rows_map. exists ys. split; [easy|]. split; [easy|].
      eapply Forall_impl; [|exact F]. intros y (Ly & IB & H). split; [|easy]. split; [easy|]. rewrite <- Er. exact H.
  - destruct (C73_hull_sampler (r_center reg) rad b reg (e_rng2 X t j) k D OK U) as (ys & E & LY & F).
    + intros D' q. rewrite L. apply (ew_rng2 d X EW).
    + rewrite E. cbn [bind]. rewrite all_rows_map. exists ys. split; [easy|]. split; [easy|].
      eapply Forall_impl; [|exact F]. intros y. now apply hull_in_region.
  - destruct U as [U1 U2]. destruct (Nat.eq_dec k 0) as [->|Hk].
    + rewrite C74_no_points by lia. cbn [bind all_rows]. exists []. split; [easy|]. split; [easy|]. constructor.
    + assert (HB : strict_bounds b) by exact HNF.
      destruct (C73_optimal_hull_partial (r_center reg) rad b reg (e_rng3 X t j) (e_optimize X) k D hd c ns (Some existing)
        OK HB U1 U2 ltac:(lia)) as (ys & E & LY & F).
      * intros D' s q. rewrite L. apply (ew_rng3 d X EW).
      * intros f x0. rewrite L. apply (ew_optimize d X EW).
      * rewrite E. cbn [bind]. rewrite all_rows_map. exists ys. split; [easy|]. split; [easy|].
        eapply Forall_impl; [|exact F]. intros y. now apply hull_in_region.
Qed.

Lemma builtin_stays : ball_solver -> usable_sampler ch -> stays_in_region d b K.
Proof.
  intros BS SU reg RO. split.
  - intros t j h k ex xs E. cbn [K builtin_components k_sample] in E.
    destruct (sample_total t j reg k ex h SU RO) as (ys & E2 & _ & F). rewrite E in E2. injection E2 as <-.
    eapply Forall_impl; [|exact F]. intros y [H _]. exact H.
  - intros sm s E. cbn [K builtin_components k_solve] in E. now apply solve_inside in E.
Qed.

Hypothesis US : workable (ft_w ft w) ch.

Lemma aggregate_total v : vm_n v = d -> vm_m v = m -> (ch_type ch = Quadratic -> vm_h v <> None) ->
  exists s, aggregate ch v = Ok s /\ sm_n s = d /\ sm_h s <> None.
Proof.
  intros N M H. pose proof (wo_aggregator _ _ US) as U. unfold aggregate. destruct (ch_aggregator ch).
  - unfold aggregate_identity. rewrite M. unfold m. rewrite U. eexists. split; [reflexivity|]. now split.
  - unfold aggregate_sum. destruct (vm_h v) as [h|]; [|now specialize (H U)]. eexists. split; [reflexivity|]. now split.
  - eexists. split; [reflexivity|]. now split.
  - eexists. split; [reflexivity|]. now split.
Qed.


Lemma vle_const a (v : vec) l : (forall z, In z v -> a <= z) -> length l = length v -> (forall z, In z l -> z = a) -> vle l v.
Proof. intros H _ C i x y Hx Hy. apply nth_error_In in Hx, Hy. rewrite (C x Hx). auto. Qed.

Lemma fallback_total s x a : (forall z, In z x -> - a <= z <= a) -> sm_h s <> None ->
  exists r, robust_cube_solver (e_minimize X) s x a = Ok r /\ fb_x r <> None.
Proof.
  intros B H. unfold robust_cube_solver. destruct (sm_h s) as [h|]; [|easy].
  destruct (ew_minimize d X EW (crit_quadratic s h) (Some (grad_quadratic s h)) x (map (fun _ => - a) x) (map (fun _ => a) x)
              (length x)) as [o ->].
  - apply map_length.
  - apply map_length.
  - intros i p q Hp Hq. rewrite nth_error_map, Hq in Hp. injection Hp as <-. apply nth_error_In in Hq. apply B in Hq. lra.
  - intros i p q Hp Hq. rewrite nth_error_map, Hp in Hq. injection Hq as <-. apply nth_error_In in Hp. apply B in Hp. lra.
  - cbn [bind]. eexists. split; [reflexivity|]. easy.
Qed.

Lemma solve_total s reg : scalar_ok s -> region_of d b reg -> exists r, builtin_solve X ch s reg = Ok r.
Proof.
  intros (v & -> & N & H) RO. destruct (region_proper reg RO) as (r & P & Er & L & M & DG).
  unfold builtin_solve. rewrite M, N, L, Nat.eqb_refl. cbn [orb negb]. unfold solve_proper. rewrite DG.
  destruct (old_unit _ _ _ _ P) as (o & EO & LO & BO & ZO).
  assert (LX : length (xmap_to_unit reg (r_center reg)) = sm_n v) by (rewrite EO, map_length, LO; lia).
  assert (T : exists q, solve_subproblem v reg (sphere_solver X ch) (cube_solver X ch) (sphere_fallback X)
                          (cube_fallback X) (ch_retry ch) = Ok q).
  { pose proof (wo_retry _ _ US) as RT.
    pose proof (C55_fallback_policy v reg (sphere_solver X ch) (cube_solver X ch) (sphere_fallback X)
                (cube_fallback X) (ch_retry ch)) as PP. cbv zeta in PP. destruct PP as (_ & P2 & _ & P4).
    destruct (match r_shape reg with Sphere => sphere_solver X ch | Cube => cube_solver X ch end v
      (xmap_to_unit reg (r_center reg)) (map (fun _ => -1) (xmap_to_unit reg (r_center reg)))
      (map (fun _ => 1) (xmap_to_unit reg (r_center reg)))) as [rw|e] eqn:EP; [now apply (P4 rw)|].
    rewrite (P2 e EP RT (sphere_fallback X) (cube_fallback X)). clear P2 P4.
    assert (FB : exists q, match r_shape reg with Sphere => sphere_fallback X | Cube => cube_fallback X end v
              (xmap_to_unit reg (r_center reg)) = Ok q).
    { rewrite EO. destruct (r_shape reg) eqn:S; unfold sphere_fallback, cube_fallback, at_vec; rewrite all_fin_map.
      - unfold robust_sphere_solver_inscribed_cube.
        destruct (fallback_total v o (1 / sqrt (INR (length o)))) as (q & -> & F); [|easy|].
        + rewrite (ZO eq_refl). intros z Hz. apply repeat_spec in Hz. subst z.
          assert (0 < 1 / sqrt (INR (length (vzero (length (r_center reg)))))); [|lra].
          unfold vzero. rewrite repeat_length. apply Rdiv_lt_0_compat; [lra|]. apply sqrt_lt_R0, lt_0_INR. lia.
        + unfold raw_of. cbn [bind]. destruct (fb_x q); [|easy]. eauto.
      - destruct (fallback_total v o 1) as (q & -> & F); [exact BO|easy|].
        unfold raw_of. cbn [bind]. destruct (fb_x q); [|easy]. eauto. }
    destruct FB as [q FB]. unfold solve_subproblem.
    destruct (r_shape reg) eqn:S; rewrite FB; cbn [bind]; destruct (xle _ _); eauto. }
  destruct T as [q E]. rewrite E. cbn [bind].
  assert (DV : forall rw, delivered v reg (sphere_solver X ch) (cube_solver X ch) (sphere_fallback X) (cube_fallback X)
      (ch_retry ch) rw -> proper_raw (sm_n v) rw) by (intros rw; apply (delivered_dim X ch d ED); [congruence|easy]).
  assert (F : exists x, s_x q = map Fin x).
  { destruct (r_shape reg) eqn:S.
    - apply solve_cases in E as (rw & DV1 & E). cbv zeta in E. rewrite S in E.
      destruct (DV rw DV1) as (u & EU & LU). rewrite EU in E.
      destruct E as (_ & _ & [(_ & -> & _)|(_ & -> & _)]); [|eauto].
      unfold xmap_from_unit. rewrite S. exists (map2 (fun xi ci => xi * r_radius reg + ci) u (r_center reg)).
      clear. generalize (r_center reg). induction u; intros [|]; cbn [map map2]; try reflexivity. now rewrite IHu.
    - destruct (C54_cube_feasible v (r_center reg) r b reg _ _ _ _ _ q P S ltac:(lia) ltac:(intros rw D; destruct (DV rw D) as (u & -> & LU); rewrite map_length; lia) E)
        as (_ & x & _ & EX & _). eauto. }
  destruct F as [x ->]. rewrite all_fin_map. eauto.
Qed.

Lemma true_eval_length x v : true_eval crit x v -> length v = m.
Proof.
  intros (h & args & cores & outs & k & o & E & L & Ha & Ho & ->).
  destruct (HC h args cores) as (outs' & E' & _ & F); [intros ->; now destruct k|].
  rewrite E in E'. injection E' as <-. rewrite Forall_forall in F. apply nth_error_In in Ho. apply F in Ho.
  unfold m, promised in *. destruct ft, o as [[]|]; cbn [recorded ft_w] in *; try easy; rewrite ?map_length; try easy.
  now destruct x0.
Qed.

Lemma xsum_all_fin l : (forall a, In a l -> exists r, a = Fin r) -> exists s, xsum l = Fin s.
Proof.
  induction l as [|a l IH]; intros H; [now exists 0|].
  destruct IH as [s E]; [intros; apply H; now right|]. destruct (H a (or_introl eq_refl)) as [r ->].
  exists (r + s). unfold xsum in *. cbn [fold_right]. now rewrite E.
Qed.

Lemma start_finite Xs E : true_evals crit Xs E -> evals_of 0 E <> [] ->
  first_ok (mean_rows m (evals_of 0 E)).
Proof.
  intros T NE RZ. specialize (HF RZ).
  assert (R : forall v, In v (evals_of 0 E) -> exists l, v = map Fin l /\ length l = m).
  { intros v Hv. unfold evals_of in Hv. apply in_map_iff in Hv as ([i u] & Eu & Hi). cbn in Eu. subst u.
    apply filter_In in Hi as [Hi _]. destruct (T i v Hi) as (x & _ & TE). destruct (HF x v TE) as (l & ->).
    exists l. split; [easy|]. apply true_eval_length in TE. now rewrite map_length in TE. }
  exists (map (fun j => match xmean (col (evals_of 0 E) j) with Fin r => r | _ => 0 end) (seq 0 m)).
  unfold mean_rows. rewrite map_map. apply map_ext_in. intros j Hj. apply in_seq in Hj.
  unfold xmean. destruct (xsum_all_fin (col (evals_of 0 E) j)) as [s ->].
  - intros a Ha. unfold col in Ha. apply in_map_iff in Ha as (v & <- & Hv). destruct (R v Hv) as (l & -> & Ll).
    rewrite nth_map_fin by lia. eauto.
  - rewrite xdiv_fin; [easy|]. unfold col. rewrite map_length.
    apply not_0_INR. now destruct (evals_of 0 E).
Qed.

Lemma filter_total {VM SM} (st : state VM SM) target xs is : length xs = length is -> NoDup is -> xs <> [] ->
  (1 <= target)%Z -> region_of d b (st_region st) ->
  exists xs' is', builtin_filter ch st target xs is = Ok (xs', is') /\ is' <> [].
Proof.
  intros L ND NE Ht RO. destruct (region_proper _ RO) as (rad & P & Er & _). destruct P as (P1 & _).
  pose proof (wo_filter _ _ US) as U. unfold builtin_filter. destruct (ch_filter ch) as [| |s|f].
  - do 2 eexists. split; [reflexivity|]. easy.
  - do 2 eexists. split; [reflexivity|]. destruct xs; [easy|]. now destruct is.
  - destruct (Rltb_spec (r_radius (st_region st)) 0) as [|R0]; [lra|].
    destruct (clustering_good xs is (fstate_of st) (length (st_x st)) (IZR target) s L ND) as (x2 & i2 & E2 & _ & _ & _ & B).
    { cbn [f_radius fstate_of]. lra. }
    exists x2, i2. auto.
  - apply IZR_le in Ht. assert (T1 : 1 <= IZR target * f) by nra.
    destruct (base_Int_part (IZR target * f)) as [B1 B2].
    destruct (C48_drop_excess_bound (fstate_of st) xs is target f (Int_part (IZR target * f)) L ltac:(lra) ltac:(lra))
      as (x2 & i2 & E2 & L2 & C & _).
    exists x2, i2. split; [easy|]. intros ->. simpl in L2. rewrite <- L2 in C.
    assert (0 < Int_part (IZR target * f))%Z by (apply lt_IZR; lra).
    destruct xs; [easy|]. simpl length in C. lia.
Qed.

Lemma builtin_able : able_components ft d w b first_ok old_ok scalar_ok K.
Proof.
  constructor; cbn [K builtin_components k_crit k_init k_agg k_sample k_fit k_solve k_filter k_decider].
  - apply start_finite.
  - intros fv reg RO Lf OK. destruct (region_proper reg RO) as (rad & P & Er & L & M & DG).
    unfold builtin_init. destruct (all_fin fv) as [l|] eqn:E.
    + split.
      * cbn [old_ok vm_n vm_h vm_scale]. split; [easy|]. split; [easy|]. exists (r_radius reg). split; [easy|].
        destruct P as (P1 & _). lra.
      * cbn [builtin_agg]. rewrite Lf. edestruct (aggregate_total) as (s & -> & _); [reflexivity|reflexivity| |].
        { easy. }
        cbn [bind]. eauto.
    + split.
      * cbn [old_ok]. destruct (ch_residualize ch) eqn:RZ; [|easy]. destruct (OK RZ) as [l ->]. now rewrite all_fin_map in E.
      * cbn [builtin_agg]. pose proof (wo_aggregator _ _ US) as U. destruct (ch_aggregator ch); eauto.
        rewrite Lf, U. cbn. eauto.
  - intros t j h reg k ex RO. destruct (sample_total t j reg k ex h (wo_sampler _ _ US) RO) as (xs & E & _ & F). exists xs. split; [easy|].
    eapply Forall_impl; [|exact F]. intros y [_ H]. exact H.
  - intros xs fv reg old RO VO NE Lf Fx Ff. destruct (region_proper reg RO) as (rad & P & Er & L & M & DG).
    unfold builtin_fit. destruct xs as [|x xs]; [easy|]. rewrite DG.
    destruct old as [v|k].
    + destruct (fit_total (x :: xs) fv reg v RO Lf (fun _ => VO)) as (v' & -> & V1 & V2 & V3).
      cbn [bind]. destruct (aggregate_total v' V1 V2 V3) as (s & E & S1 & S2).
      exists (VmOk v'), (Some s). split; [easy|]. cbn [builtin_agg]. rewrite E. split; [easy|]. now exists s.
    + cbn [old_ok] in VO. rewrite VO.
      edestruct (fit_total (x :: xs) fv reg) as (v' & -> & V1 & V2 & V3); [easy|easy|now rewrite VO|].
      cbn [bind]. destruct (aggregate_total v' V1 V2 V3) as (s & E & S1 & S2).
      exists (VmOk v'), (Some s). split; [easy|]. cbn [builtin_agg]. rewrite E. split; [easy|]. now exists s.
  - intros sm reg. apply solve_total.
  - intros h st target k xs is L ND NE Ht _. now apply filter_total.
Qed.

Lemma builtin_able_decider : usable (ft_w ft w) ch ->
  (forall rf bs, ch_decider ch = DecLineSearch rf bs ->
      (ft = Likelihood -> nan_free ft crit) /\ forall x, in_bounds b x) ->
  able_decider ft d b K.
Proof.
  intros US2 HL t. cbn [K builtin_components k_decider k_crit]. unfold builtin_decider.
  pose proof (us_decider _ _ US2) as U.
    destruct (ch_decider ch) as [| |rf bs|] eqn:EC; try exact I; [|easy].
    destruct (HL rf bs eq_refl) as [NF NB]. destruct U as [U1 U2].
    split; [easy|]. split; [easy|]. split; [easy|]. split; [easy|].
    intros h reg k ex RO. destruct (sample_total t 1000 reg k ex h (wo_sampler _ _ US) RO) as (xs & E & L & F).
    exists xs. split; [easy|]. split; [easy|]. eapply Forall_impl; [|exact F]. intros y [[Ly _] _].
    destruct (region_proper reg RO) as (rad & _ & _ & Lr & _). congruence.
Qed.

(** The points returned by the solver satisfy the bounds. *)
Lemma builtin_inside : (forall x, in_bounds b x) \/ ball_solver -> solves_inside d b K.
Proof.
  intros [NB|BS] reg sm s RO E; [apply NB|]. cbn [K builtin_components k_solve] in E.
  apply solve_inside in E; [|easy|easy]. destruct RO as (c & r & L & IB & Hr & M).
  apply (region_within c r b reg); try easy; [intros ->; now apply HD|now rewrite L].
Qed.
End Works.

(** C141 - a run with a deterministic criterion and the built-in components returns a result, for all
    choices of the components and their options: the criterion may return infinite values or NaN
    (finite ones if the fitter residualizes), subsolvers may fail.  With active bounds the sphere
    solver has to stay in the unit ball.  With the line search, the sum of the contributions to a
    likelihood must not be NaN and there must be no bounds. *)
Theorem C141_deterministic_runs_succeed :
  forall X ch ft d w crit n_cores O pad x r0 b,
    ext_dims d X -> ext_works d X -> usable (ft_w ft w) ch -> quiet_config O ->
    good_criterion ft w crit -> (ch_residualize ch = true -> finite_values crit) ->
    d <> 0%nat -> w <> 0%nat -> length x = d -> 0 < r0 ->
    two_sided b -> bounds_dim d b -> no_fixed b -> in_bounds b x ->
    (forall x, in_bounds b x) \/ ball_solver ch ->
    (forall rf bs, ch_decider ch = DecLineSearch rf bs ->
      (ft = Likelihood -> nan_free ft crit) /\ forall x, in_bounds b x) ->
    exists h r, tranquilo (builtin_components X ch d (ft_w ft w) crit n_cores) O ft pad x r0 b = (h, Ok r).
Proof.
  intros X ch ft d w crit nc O pad x r0 b ED EW US QC HC HF Hd Hw Lx Hr TS BD NF IB HB HL.
  destruct (tranquilo_goes ft d w b _ _ _ (builtin_components X ch d (ft_w ft w) crit nc) O
    (C140_builtin_components_good X ch d d (ft_w ft w) ft w crit nc ED HC)
    (builtin_able X ch ft d w b crit nc ED EW Hd BD NF HC HF (usable_workable _ _ US))
    (builtin_able_decider X ch ft d w b crit nc EW Hd BD NF (usable_workable _ _ US) US HL) QC TS BD pad x r0 Hd Hw Lx IB Hr) as (h & r & _ & _ & E & _).
  - right. now apply (builtin_inside X ch ft d w b crit nc ED EW).
  - eauto.
Qed.

(** * C142 *)

(** C142 - with a sphere solver that stays in the unit ball, all points evaluated in any successful
    run with the built-in components, noisy or not, satisfy the bounds; the line search is excluded. *)
Theorem C142_evaluations_within_bounds_partial :
  forall X ch ft d w crit n_cores O pad x r0 b h r,
    ext_dims d X -> ext_works d X -> good_criterion ft w crit ->
    usable_sampler ch ->
    (forall rf bs, ch_decider ch <> DecLineSearch rf bs) ->
    ball_solver ch ->
    d <> 0%nat -> w <> 0%nat -> length x = d -> (1 <= batch_size O)%Z -> 0 < r0 ->
    0 < AdjustModel.min_radius (radius_o O) <= AdjustModel.max_radius (radius_o O) ->
    max_radius_to_step_ratio (radius_o O) = PInf ->
    bounds_dim d b -> no_fixed b -> in_bounds b x ->
    tranquilo (builtin_components X ch d (ft_w ft w) crit n_cores) O ft pad x r0 b = (h, Ok r) ->
    forall i, (i < h_nxs h)%nat -> exists y, get_xs_one h (Z.of_nat i) = Ok y /\ in_bounds b y.
Proof.
  intros X ch ft d w crit nc O pad x r0 b h r ED EW HC SU NL BS Hd Hw Lx Hb Hr HR HM BD NF IB E.
  apply (C94_evaluations_within_bounds _ _ _ ft d w (builtin_components X ch d (ft_w ft w) crit nc) O pad x r0 b h r); try easy.
  - constructor; try easy. now apply C140_builtin_components_good.
  - now apply builtin_stays.
  - intros t v. cbn [builtin_components k_decider]. unfold builtin_decider, not_line_search.
    destruct (ch_decider ch) as [| |rf bs|] eqn:ED2; try exact I. now elim (NL rf bs).
Qed.
