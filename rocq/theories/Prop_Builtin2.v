(** The built-in components in concrete runs: examples for C140 and C141, the refutation of C142. *)
From Coq Require Import Reals List Arith ZArith Bool Lia Lra Psatz Sorting.Sorted.
From Verif Require Import Base XR Vec FVec HistoryModel HistorySpec HistoryProofs WrapModel WrapProofs
  VolumeModel RegionModel AdjustModel AcceptModel ModelsModel FitModel FilterModel SubproblemModel
  SampleModel VarianceModel NoiseModel CgModel TrsboxModel TrsboxFastModel BntrModel GqtparModel
  LogSpec LogProofs Prop_Region Prop_Adjust AcceptProofs Prop_Accept Prop_Filter Prop_Cluster
  Prop_Models Prop_Fit Prop_Subproblem Prop_Sample Prop_Bntr Prop_Gqtpar Prop_Gqtpar2 MainModel MainProofs MainPhases MainLoop
  MainProgress MainProgress2 Prop_Main Prop_Main2 Prop_Main3 Prop_Main4 BuiltinModel Prop_Builtin LstsqProofs.
Import ListNotations.
Open Scope R_scope.

(** * External functions *)

(** Three directions, the last one repeated. *)
Definition pat (i : nat) : vec := match i with O => [1; 0] | S O => [0; 1] | _ => [-1; 0] end.
Definition pats (k : nat) : list vec := map pat (seq 0 k).

Definition in_box (lo x up : vec) : bool :=
  (length lo =? length x)%nat && (length up =? length x)%nat &&
  forallb (fun '(a, (l, u)) => Rleb l a && Rleb a u) (combine x (combine lo up)).
(** An optimizer that returns its start values. *)
Definition stay_put : minimizer := fun f _ x0 lo up _ =>
  if in_box lo x0 up then Ok (mkOpt x0 (Fin (f x0)) 0 true) else Err ValueError.

Definition ex_ext (lstsq : lstsq_oracle) : externals :=
  mkExt lstsq (fun _ A => A)
    (fun _ _ _ s k _ => repeat (pats k) s) (fun _ _ _ k _ => pats k) (fun _ _ lo _ k => repeat lo k)
    (fun _ _ => 1 / 2) (fun _ x0 => Ok (map Some (pats (length x0)))) stay_put
    (fun _ x => Ok (mkFb (Some x) NaN None (Some true))) (fun _ _ => true) (fun _ H => H)
    (fun _ _ k => repeat [0; 0; 0] k).

Lemma pats_good k : length (pats k) = k /\ good_rows 2 (pats k).
Proof.
  unfold pats. rewrite map_length, seq_length. split; [easy|]. apply Forall_forall. intros x Hx.
  apply in_map_iff in Hx as (i & <- & _).
  destruct i as [|[|i]]; (split; [easy|]); [exists 1|exists 1|exists (-1)]; (split; [simpl; auto|lra]).
Qed.
Lemma good_rows_dim d xs : good_rows d xs -> vecs_dim d xs.
Proof. unfold good_rows, vecs_dim. apply Forall_impl. intros x [H _]. exact H. Qed.

Lemma in_box_true lo x up : in_box lo x up = true ->
  forall i a l u, nth_error x i = Some a -> nth_error lo i = Some l -> nth_error up i = Some u -> l <= a <= u.
Proof.
  unfold in_box. intros H. apply andb_true_iff in H as [_ H]. rewrite forallb_forall in H.
  intros i a l u A L U.
  assert (I : In (a, (l, u)) (combine x (combine lo up))).
  { assert (G : forall (A B : Type) (p : list A) (q : list B) i a b, nth_error p i = Some a -> nth_error q i = Some b ->
      nth_error (combine p q) i = Some (a, b)).
    { clear. intros A B p. induction p as [|z p IH]; intros [|y q] [|i] a b; simpl; try discriminate.
      - intros [= ->] [= ->]. easy.
      - apply IH. }
    apply (nth_error_In _ i). apply G; [easy|]. now apply G. }
  apply H in I. apply andb_true_iff in I as [I1 I2]. apply Rleb_true in I1, I2. lra.
Qed.
Lemma in_box_intro lo x up : length lo = length x -> length up = length x -> vle lo x -> vle x up ->
  in_box lo x up = true.
Proof.
  intros L1 L2 A B. unfold in_box. rewrite L1, L2, Nat.eqb_refl. cbn [andb].
  revert lo up L1 L2 A B. induction x as [|a x IH]; intros [|l lo] [|u up]; simpl; try easy.
  intros L1 L2 A B. rewrite IH; try lia.
  - pose proof (A 0%nat l a eq_refl eq_refl). pose proof (B 0%nat a u eq_refl eq_refl).
    destruct (Rleb_spec l a), (Rleb_spec a u); try lra; easy.
  - intros i. apply (A (S i)).
  - intros i. apply (B (S i)).
Qed.

Lemma ex_ext_dims lstsq : ext_dims 2 (ex_ext lstsq).
Proof.
  constructor; cbn [ex_ext e_rng2 e_rng3 e_uniform e_optimize e_minimize e_norm_constraint].
  - intros. apply good_rows_dim, pats_good.
  - intros t j D s k. apply Forall_forall. intros x Hx. apply repeat_spec in Hx. subst x.
    apply good_rows_dim, pats_good.
  - intros t j lo up k. apply Forall_forall. intros x Hx. apply repeat_spec in Hx. now subst x.
  - intros f x0 xs _ [= <-]. apply vecs_rows_dim, good_rows_dim, pats_good.
  - intros f g x0 lo up k r. unfold stay_put. destruct (in_box _ _ _); [|discriminate]. now intros [= <-].
  - intros s x r v [= <-] [= <-]. easy.
Qed.

Lemma ex_ext_works lstsq : ext_works 2 (ex_ext lstsq).
Proof.
  constructor; cbn [ex_ext e_rng2 e_rng3 e_uniform e_optimize e_minimize e_gammainc].
  - intros. apply pats_good.
  - intros t j D s k. rewrite repeat_length. split; [easy|]. apply Forall_forall. intros x Hx.
    apply repeat_spec in Hx. subst x. apply pats_good.
  - intros t j lo up k V L. rewrite repeat_length. split; [easy|]. apply Forall_forall. intros x Hx.
    apply repeat_spec in Hx. subst x. split; [easy|]. split; [|easy]. intros i a b A B. rewrite A in B.
    injection B as ->. lra.
  - intros. lra.
  - intros f x0. exists (pats (length x0)). split; [easy|]. apply pats_good.
  - intros f g x0 lo up k L1 L2 A B. unfold stay_put. rewrite in_box_intro by easy. eauto.
  - intros f g x0 lo up k r. unfold stay_put. destruct (in_box _ _ _) eqn:E; [|discriminate].
    intros [= <-]. cbn [o_x]. split; [easy|]. now apply in_box_true.
Qed.

(** * Default options of a least squares problem *)

(** options.py: the defaults for least squares problems without noise and parallelization. *)
Definition ls_choices : choices :=
  mkChoices Linear FitOls false AggLeastSquares FilKeep (SamOptimal None 1 None 1)
    (SphGqtpar default_gopts 20)
    (CubBntr true true (CgPlain (/ 100000000) (/ 1000000)) (mkTols (/ 100000000) (/ 100000000) 0) 20 5)
    true DecClassic 3 3 false 100 true.
Definition ls_config (k : nat) : config :=
  mkConfig false (mkConv false 0 0 0 0 0 0 0) (mkStop k 2000 PInf)
    (mkRadiusOptions (/ 1000000) 1000000 (1 / 10) (1 / 10) (1 / 2) 2 (1 / 2) PInf)
    (mkNoiseOptions (6 / 10) (1 / 10) (7 / 10) (9 / 10) 1 30 (1 / 10)) 1 4 (mkStag (1 / 8) true (1 / 20) 1 1)
    5 1 1 0.

(** Two equal residuals (x0 - 1.08) / 2 and the residual x1. *)
Definition ex_res (x : vec) : vec :=
  [(nth 0 x 0 - 27 / 25) / 2; (nth 0 x 0 - 27 / 25) / 2; nth 1 x 0].
Definition ex_crit142 : criterion := fun _ args _ => Ok (map (fun x => Ret (VV (map Fin (ex_res x)))) args).

Lemma ls_usable : usable 3 ls_choices.
Proof. constructor; cbn; auto. split; [discriminate|lia]. Qed.
Lemma ls_quiet k : quiet_config (ls_config k).
Proof. constructor; cbn; try easy; try lia; lra. Qed.
Lemma ex_crit142_good : good_criterion LeastSquares 3 ex_crit142.
Proof.
  intros h args cores _. exists (map (fun x => Ret (VV (map Fin (ex_res x)))) args).
  split; [easy|]. split; [apply map_length|]. apply Forall_forall. intros o Ho.
  apply in_map_iff in Ho as (x & <- & _). easy.
Qed.
Lemma ex_true_eval x v : true_eval ex_crit142 x v -> v = map Fin (ex_res x).
Proof.
  intros (h & args & cores & outs & k & o & E & _ & A & B & ->). injection E as <-.
  rewrite nth_error_map, A in B. injection B as <-. easy.
Qed.

(** C140: the built-in components with the default choices. *)
Example C140_instance : good_components LeastSquares 2 3 (builtin_components (ex_ext ls) ls_choices 2 3 ex_crit142 1).
Proof. apply C140_builtin_components_good; [apply ex_ext_dims|apply ex_crit142_good]. Qed.

(** C141: the default configuration, an unbounded problem. *)
Example C141_instance : forall k, exists h r,
  tranquilo (builtin_components (ex_ext ls) ls_choices 2 3 ex_crit142 1) (ls_config k) LeastSquares 0 [0; 0] 1 None = (h, Ok r).
Proof.
  intros k. apply (C141_deterministic_runs_succeed (ex_ext ls) ls_choices LeastSquares 2 3); auto; try easy.
  - apply ex_ext_dims.
  - apply ex_ext_works.
  - apply ls_quiet.
  - apply ex_crit142_good.
  - lra.
  - now left.
Qed.

(** ... and the line search with batches of four points. *)
Definition search_choices : choices :=
  mkChoices Linear FitOls false AggLeastSquares FilKeep (SamOptimal None 1 None 1) (SphGqtpar default_gopts 20)
    (CubBntr true true (CgPlain (/ 100000000) (/ 1000000)) (mkTols (/ 100000000) (/ 100000000) 0) 20 5)
    true (DecLineSearch 5 4) 3 3 false 100 true.
Example C141_line_search_instance : forall k, exists h r,
  tranquilo (builtin_components (ex_ext ls) search_choices 2 3 ex_crit142 1) (ls_config k) LeastSquares 0 [0; 0] 1 None = (h, Ok r).
Proof.
  intros k. apply (C141_deterministic_runs_succeed (ex_ext ls) search_choices LeastSquares 2 3); auto; try easy.
  - apply ex_ext_dims.
  - apply ex_ext_works.
  - constructor; cbn; auto; [split; [lra|lia]|split; [discriminate|lia]].
  - apply ls_quiet.
  - apply ex_crit142_good.
  - lra.
  - now left.
Qed.

(** * The first model of a run *)

Section Last.
Context {VM SM CV : Type}.
Variables (ft : functype) (d w : nat) (K : components VM SM CV) (O : config).

Lemma fit_and_solve_data st idx h h' f X E : haslog ft d w h' X E -> E <> [] -> NoDup idx ->
  Forall (fun i => (i < length X)%nat) idx ->
  fit_and_solve K st idx h = (h', Ok f) ->
  k_fit K (map (fun i => nth i X []) idx) (map (fun i => mean_rows (ft_w ft w) (evals_of i E)) idx)
    (st_region st) (st_vector_model st) = Ok (f_vm f) /\
  k_agg K (f_vm f) = Ok (f_sm f) /\ k_solve K (f_sm f) (st_region st) = Ok (f_sub f) /\
  f_rel f = xdiv (Fin (dist (sub_x (f_sub f)) (st_x st))) (Fin (r_radius (st_region st))).
Proof.
  intros HL HE ND HI H.
  assert (h' = h) as ->.
  { unfold fit_and_solve in H. do 5 inv_bind H. now apply mret_inv in H as [-> _]. }
  unfold fit_and_solve in H. destruct (haslog_rep _ _ _ _ _ _ HL) as [HR _].
  inv_bind H. rewrite (q_model_data_avg _ _ _ _ _ idx HR HE ND HI) in E0. injection E0 as <-.
  inv_bind H. inv_bind H. inv_bind H. inv_bind H. apply mret_inv in H as [_ ->].
  cbn [f_vm f_sm f_sub f_rel fst snd] in *. auto.
Qed.

Lemma first_model_last t st n h h' wk old : first_model K O t st n h = (h', Ok (wk, old)) ->
  exists h1, fit_and_solve K st (w_indices wk) h1 = (h', Ok (w_fit wk)).
Proof.
  unfold first_model. intros H. do 5 inv_bind H. destruct a3 as [mx mi]. do 3 inv_bind H.
  apply mbind_inv in H as (h1 & ni & _ & H). apply mbind_inv in H as (h2 & [] & _ & H).
  inv_bind H. apply mbind_inv in H as (h3 & f & EF & H). apply mret_inv in H as [-> H]. injection H as -> ->.
  cbn [w_indices w_fit]. eauto.
Qed.
End Last.

Lemma mean_const (l : vec) rows : rows <> [] -> (forall r, In r rows -> r = map Fin l) ->
  mean_rows (length l) rows = map Fin l.
Proof.
  intros NE H. assert (E : rows = repeat (map Fin l) (length rows)).
  { clear NE. induction rows as [|r rows IH]; simpl; [easy|]. rewrite <- IH by (intros; apply H; now right).
    now rewrite (H r (or_introl eq_refl)). }
  set (k := length rows) in *. clearbody k. subst rows. destruct k as [|k]; [easy|]. clear NE H.
  unfold mean_rows. apply nth_error_ext. intros i. rewrite !nth_error_map.
  destruct (Nat.ltb_spec i (length l)) as [Hi|Hi].
  - rewrite (nth_error_nth_default _ (seq 0 (length l)) i 0%nat) by now rewrite seq_length.
    rewrite seq_nth by easy. cbn [Nat.add option_map].
    rewrite (nth_error_nth_default _ l i 0) by easy. cbn [option_map]. f_equal.
    assert (C : col (repeat (map Fin l) (S k)) i = repeat (Fin (nth i l 0)) (S k)).
    { unfold col. generalize (S k). intros n. induction n; simpl; [easy|]. rewrite IHn. f_equal.
      now apply nth_map_fin. }
    rewrite C. unfold xmean. rewrite repeat_length.
    assert (Su : forall n, xsum (repeat (Fin (nth i l 0)) n) = Fin (INR n * nth i l 0)).
    { intros n. induction n; [cbn; f_equal; ring|]. cbn [repeat xsum]. rewrite IHn.
      cbn [xadd]. rewrite S_INR. f_equal. ring. }
    rewrite Su. unfold xdiv. destruct (Reqb (INR (S k)) 0) eqn:Z.
    + apply Reqb_true in Z. pose proof (lt_0_INR (S k) ltac:(lia)). lra.
    + f_equal. field. apply Reqb_false in Z. easy.
  - rewrite (proj2 (nth_error_None (seq 0 (length l)) i)) by now rewrite seq_length.
    rewrite (proj2 (nth_error_None l i)) by easy. easy.
Qed.

(** * The refutation of C142 *)
Lemma b56_ok : bounds_dim 2 (Some b56) /\ no_fixed (Some b56) /\ in_bounds (Some b56) [0; 0] /\ two_sided (Some b56).
Proof.
  split; [|split; [|split]].
  - split; intros l E; injection E as <-; reflexivity.
  - intros bb l u i li ui E. injection E as <-. cbn. intros E1 E2. injection E1 as <-. injection E2 as <-.
    destruct i as [|[|[|i]]]; cbn; intros E1 E2; try easy; injection E1 as <-; injection E2 as <-; lra.
  - split; intros l i xi li E; injection E as <-;
      destruct i as [|[|[|i]]]; cbn; intros E1 E2; try easy; injection E1 as <-; injection E2 as <-; lra.
  - split; discriminate.
Qed.

Section Refuted.
Variable lstsq : lstsq_oracle.
Hypothesis LS : forall N p A b, is_lstsq N p A b (lstsq N p A b).
Notation XX := (ex_ext lstsq).

Lemma exact_fit (F : fmat) (y c : fvec) : is_lstsq 4 3 F y c ->
  forall c', (forall i, (i < 4)%nat -> bsum 3 (fun j => F i j * c' j) = y i) ->
  forall i, (i < 4)%nat -> bsum 3 (fun j => F i j * c j) = y i.
Proof.
  intros H c' E i Hi. specialize (H c').
  assert (Z : ssr 4 3 F y c' = 0).
  { unfold ssr. apply bsum_all_zero. intros k Hk. rewrite E by easy. ring. }
  rewrite Z in H. assert (G : ssr 4 3 F y c = 0).
  { apply Rle_antisym; [easy|]. apply bsum_nonneg. intros; apply pow2_ge_0. }
  pose proof (bsum_nonneg_zero 4 _ ltac:(intros; apply pow2_ge_0) G i Hi) as Q. cbv beta in Q.
  assert (0 = bsum 3 (fun j => F i j * c j) - y i); [|lra]. nra.
Qed.

Definition ex_pts : list vec := [[0; 0]; [1; 0]; [0; 1]; [-1; 0]].

Lemma fit_142 old v : builtin_fit XX ls_choices 2 3 ex_pts (map (fun x => map Fin (ex_res x)) ex_pts) reg56 old = Ok v ->
  exists m, v = VmOk m /\ vm_n m = 2%nat /\ vm_m m = 3%nat /\
    (forall k, (k < 3)%nat -> vm_c m k = nth k [- (27 / 50); - (27 / 50); 0] 0 /\
       vm_g m k 0%nat = nth k [1 / 2; 1 / 2; 0] 0 /\ vm_g m k 1%nat = nth k [0; 0; 1] 0).
Proof.
  unfold builtin_fit. unfold ex_pts at 1.
  assert (DG : degenerate reg56 = false).
  { unfold degenerate. cbn [reg56 r_shape r_radius]. destruct (Reqb 1 0) eqn:Z; [apply Reqb_true in Z; lra|easy]. }
  rewrite DG. cbn [ch_residualize ls_choices].
  intros H.
  assert (G : exists old', exists m, fit_proper XX ls_choices 2 3 ex_pts (map (fun x => map Fin (ex_res x)) ex_pts) reg56 old' = Ok m /\ v = VmOk m).
  { destruct old as [o|k].
    - exists o. destruct (fit_proper _ _ _ _ _ _ _ _) as [m|]; [|discriminate]. injection H as <-. eauto.
    - eexists. destruct (fit_proper _ _ _ _ _ _ _ _) as [m|] eqn:E in H; [|discriminate]. injection H as <-.
      exists m. split; [exact E|easy]. }
  clear H. destruct G as (old' & m & E & ->). exists m. split; [easy|].
  unfold fit_proper, fitter_template in E. cbn [ch_residualize ls_choices ch_type] in E.
  assert (CL : clip_rows 3 (map (fun x => map Fin (ex_res x)) ex_pts) = map (fun x => map Fin (ex_res x)) ex_pts).
  { unfold clip_rows, ex_pts, ex_res, clip_relative, clip_column. cbn [map seq nth length].
    repeat match goal with |- context [penalties ?l] => destruct (penalties l) end. cbn [map nth]. reflexivity. }
  rewrite CL in E. cbn [effective_center effective_radius reg56 r_shape r_center r_radius scale_of scale_at] in E.
  unfold raw_fitter in E. cbn [ch_fitter ls_choices ch_type] in E.
  replace (map (fun x => map Fin (ex_res x)) ex_pts) with (map (map Fin) (map ex_res ex_pts)) in E by now rewrite map_map.
  rewrite all_rows_fin_map in E. cbn [bind build_vmodel] in E. injection E as <-.
  cbn [vm_n vm_m vm_c vm_g]. split; [easy|]. split; [easy|]. intros k Hk.
  match goal with |- context [fit_ols lstsq 4 2 Linear ?S0 ?y0 None] => set (S := S0); set (y := y0) end.
  unfold fit_ols, add_weighting. cbn [e_lstsq ex_ext].
  set (F := feature_matrix 2 Linear S). change (n_features 2 Linear) with 3%nat.
  set (c := lstsq 4%nat 3%nat F y). cbn [map seq nth Nat.add].
  set (c' := fun j => nth j (nth k [[- (27 / 50); 1 / 2; 0]; [- (27 / 50); 1 / 2; 0]; [0; 0; 1]] []) 0).
  assert (EX : forall i, (i < 4)%nat -> bsum 3 (fun j => F i j * c' j) = y i).
  { intros i Hi. unfold F, S, y, c', feature_matrix, feature_row, ex_pts, ex_res, fun_of.
    destruct i as [|[|[|[|i]]]]; [| | | |lia]; (destruct k as [|[|[|k]]]; [| | |lia]);
      cbn [map seq nth bsum]; field. }
  pose proof (exact_fit F y c (LS 4%nat 3%nat F y) c' EX) as Q.
  pose proof (Q 0%nat ltac:(lia)) as Q0. pose proof (Q 1%nat ltac:(lia)) as Q1. pose proof (Q 2%nat ltac:(lia)) as Q2.
  clear Q EX c'. unfold F, S, y, feature_matrix, feature_row, ex_pts, ex_res, fun_of in Q0, Q1, Q2.
  cbn [map seq nth bsum] in Q0, Q1, Q2. fold c.
  destruct k as [|[|[|k]]]; [| | |lia]; cbn [nth] in *; split; [|split| |split| |split]; lra.
Qed.

Lemma solve_142 s r : sm_n s = 2%nat -> feq 2 (sm_g s) g56 ->
  (exists H, sm_h s = Some H /\ forall i j, (i < 2)%nat -> (j < 2)%nat -> H i j = H56 i j) ->
  builtin_solve XX ls_choices (Some s) reg56 = Ok r -> sub_x r = [27 / 25; 0].
Proof.
  intros Sn Sg (H & EH & HH). unfold builtin_solve.
  change (misshapen reg56) with false. rewrite Sn. cbn [orb r_center reg56 length Nat.eqb negb].
  unfold solve_proper.
  assert (DG : degenerate reg56 = false).
  { unfold degenerate. cbn [reg56 r_shape r_radius]. destruct (Reqb 1 0) eqn:Z; [apply Reqb_true in Z; lra|easy]. }
  rewrite DG. unfold solve_subproblem.
  destruct (old_unit _ _ _ _ reg56_proper) as (v & Ev & _ & _ & Hv). rewrite (Hv eq_refl) in Ev.
  cbn [length vzero repeat map] in Ev. rewrite Ev. cbn [r_shape reg56 map].
  unfold sphere_solver. cbn [ch_sphere ls_choices]. unfold gqtpar_solver. rewrite EH, Sn.
  destruct (run56_gen (e_tie XX) (sm_g s) H (fun i => match xentry [Fin 0; Fin 0] i with Fin a => a | _ => 0 end) 19 Sg HH)
    as (q & -> & Su & X0 & X1).
  cbn [bind seq map raw_x raw_n_iterations raw_success]. rewrite X0, X1, Su.
  change [Fin (27 / 25); Fin 0] with (map Fin [27 / 25; 0]). change [Fin 0; Fin 0] with (map Fin [0; 0]).
  rewrite !predict_x_fin by (now rewrite Sn).
  pose proof (Sg 0%nat ltac:(lia)) as G0. pose proof (Sg 1%nat ltac:(lia)) as G1.
  pose proof (HH 0 0 ltac:(lia) ltac:(lia))%nat as H00. pose proof (HH 0 1 ltac:(lia) ltac:(lia))%nat as H01.
  pose proof (HH 1 0 ltac:(lia) ltac:(lia))%nat as H10. pose proof (HH 1 1 ltac:(lia) ltac:(lia))%nat as H11.
  cbn [g56 vec2] in G0, G1. unfold H56 in H00, H01, H10, H11. cbn [diag2] in H00, H01, H10, H11.
  assert (P0 : predict_scalar s (fun_of [0; 0]) = sm_c s).
  { unfold predict_scalar, fdot, fvm, fun_of. rewrite Sn, EH. cbn [bsum nth]. field. }
  assert (P1 : predict_scalar s (fun_of [27 / 25; 0]) = sm_c s - 729 / 1250).
  { unfold predict_scalar, fdot, fvm, fun_of. rewrite Sn, EH. cbn [bsum nth]. rewrite G0, G1, H00, H01, H10, H11. field. }
  rewrite P0, P1. cbn [xsub xopp xadd xle].
  destruct (Rleb_spec 0 (- (sm_c s - 729 / 1250 + - sm_c s))); [|lra].
  cbn. intros [= <-]. cbn [sub_x]. f_equal; [lra|]. f_equal; lra.
Qed.

Lemma pats_project : project_onto_unit_hull Sphere (map Some (pats 3)) = map Some (pats 3).
Proof.
  assert (P : forall i, project_row Sphere (pat i) = Some (pat i)).
  { intros i. assert (N : norm (pat i) = 1).
    { unfold norm. rewrite <- sqrt_1. f_equal. destruct i as [|[|i]]; cbn; ring. }
    unfold project_row. rewrite N. destruct (Reqb 1 0) eqn:Z; [apply Reqb_true in Z; lra|]. f_equal.
    destruct i as [|[|i]]; cbn; f_equal; try field; f_equal; field. }
  unfold project_onto_unit_hull, pats. cbn [seq map omap]. now rewrite !P.
Qed.

Lemma sample_142 h xs : builtin_sample XX ls_choices 0%nat 0%nat h reg56 3%nat [[0; 0]] = Ok xs ->
  xs = [[1; 0]; [0; 1]; [-1; 0]].
Proof.
  unfold builtin_sample. change (misshapen reg56) with false. cbn [ch_sampler ls_choices].
  unfold optimal_hull_sampler, optimal_hull_info. change (Z.of_nat 3 <=? 0)%Z with false. cbv iota.
  change (Z.to_nat (Z.of_nat 3)) with 3%nat. cbv zeta.
  set (ex := existing_in_unit_space _ _ _).
  cbn [r_shape reg56 default_distribution draw_from_distribution bind ex_ext e_rng3 repeat].
  unfold random_search. cbn [map Nat.eqb]. rewrite pats_project. cbn [bind].
  destruct ex; cbn [Nat.eqb e_optimize ex_ext bind].
  all: rewrite map_length; change (length (pats 3)) with 3%nat.
  all: match goal with |- context [if xge ?a ?b then _ else _] => destruct (xge a b) end; rewrite pats_project.
  all: cbn; intros [= <-].
  all: repeat first [reflexivity | f_equal; try ring].
Qed.

Lemma run_142 : exists h r i y,
  tranquilo (builtin_components XX ls_choices 2 3 ex_crit142 1) (ls_config 1) LeastSquares 0 [0; 0] 1 (Some b56) = (h, Ok r) /\
  (i < h_nxs h)%nat /\ get_xs_one h (Z.of_nat i) = Ok y /\ ~ in_bounds (Some b56) y /\
  exists s s', res_states r = [s; s'] /\ st_x s = [0; 0] /\ st_region s' = reg56 /\
    st_model_indices s' = [0; 1; 2; 3]%nat /\ get_xs_many h [0; 1; 2; 3]%Z = Ok ex_pts /\
    forall sub, builtin_solve XX ls_choices (st_model s') reg56 = Ok sub -> sub_x sub = [27 / 25; 0].
Proof.
  set (K := builtin_components XX ls_choices 2 3 ex_crit142 1). set (O := ls_config 1).
  assert (GK : good_components LeastSquares 2 3 K)
    by (apply C140_builtin_components_good; [apply ex_ext_dims|apply ex_crit142_good]).
  destruct b56_ok as (BD & NF & IB & TS).
  destruct (tranquilo_goes LeastSquares 2 3 (Some b56) _ _ _ K O GK
    (builtin_able XX ls_choices LeastSquares 2 3 (Some b56) ex_crit142 1 (ex_ext_dims lstsq) (ex_ext_works lstsq)
       ltac:(lia) BD NF ex_crit142_good ltac:(discriminate) (usable_workable _ _ ls_usable))
    (builtin_able_decider XX ls_choices LeastSquares 2 3 (Some b56) ex_crit142 1 (ex_ext_works lstsq)
       ltac:(lia) BD NF (usable_workable _ _ ls_usable) ls_usable ltac:(discriminate))
    (ls_quiet 1) TS BD 0 [0; 0] 1 ltac:(lia) ltac:(lia) eq_refl IB ltac:(lra) ltac:(left; cbn; lia))
    as (h & r & _ & _ & E & _).
  exists h, r.
  destruct (tranquilo_chain LeastSquares 2 3 K O GK 0 [0; 0] 1 (Some b56) h r ltac:(lia) ltac:(lia) eq_refl
    ltac:(cbn; lia) E)
    as (reg & st0 & h0 & E0 & l & z & MR & L0 & T0 & MF & A0 & I1 & I2 & I3 & _ & _ & _ & _ & _ & _ & _ & _ & _
        & CH & Hz & GZ & RSt & _ & _ & LL & _ & _ & EN).
  assert (reg = reg56) as ->.
  { pose proof reg56_proper as PR. unfold proper_region in PR. decompose [and] PR. congruence. }
  assert (NE0 : E0 <> []) by (intros ->; discriminate MF).
  assert (LL1 : length l = 1%nat).
  { cbn in LL. destruct EN as [Q|? ? ? ? Q|Q]; [exact Q|lia|lia]. }
  inversion CH as [a EA|a ap b0 l0 c0 LK CH' EA EL EC]; subst; [discriminate|].
  cbn in LL1. destruct l0; [|discriminate]. inversion CH'; subst. clear CH CH' LL LL1 EN.
  pose proof (lk_run _ _ _ _ _ _ _ _ LK) as R. cbn [n_t n_st n_n n_h] in R. change (n_evals_per_point0 O) with 1%Z in R.
  unfold iteration in R.
  apply mbind_inv in R as (hm & [w0 old] & EF & R).
  destruct (first_model_inv LeastSquares 2 3 K O GK _ _ _ _ _ _ _ _ _ L0 NE0 A0 EF) as (X1 & E1 & evs1 & fxs & idx & P1 & FF).
  destruct (first_model_last _ _ _ _ _ _ _ _ _ EF) as (h1 & FL).
  (* the points *)
  assert (old = [0%nat]) as ->.
  { assert (O1 : forall i, In i old <-> i = 0%nat).
    { intros i. rewrite (ff_old _ _ _ _ _ _ _ _ _ _ _ _ _ _ _ FF). split.
      - intros (x & Hx & _). destruct i as [|i]; [easy|]. cbn in Hx. now destruct i.
      - intros ->. exists [0; 0]. split; [easy|]. rewrite I2, I3. cbn [search_radius_factor O ls_config r_radius reg56].
        assert (dist [0; 0] [0; 0] = 0) as ->; [|lra].
        unfold dist, norm. rewrite <- sqrt_0. f_equal. cbn. ring. }
    pose proof (StronglySorted_lt_NoDup _ (ff_sorted _ _ _ _ _ _ _ _ _ _ _ _ _ _ _ FF)) as ND.
    destruct old as [|a [|b1 old]].
    - exfalso. now apply (proj2 (O1 0%nat) eq_refl).
    - f_equal. apply O1. now left.
    - exfalso. inversion ND as [|? ? NI _]; subst. apply NI. left.
      rewrite (proj1 (O1 a)) by (now left). now rewrite (proj1 (O1 b1)) by (right; now left). }
  pose proof (ff_filter _ _ _ _ _ _ _ _ _ _ _ _ _ _ _ FF) as Fil. cbn in Fil. injection Fil as <- <-.
  pose proof (ff_sample _ _ _ _ _ _ _ _ _ _ _ _ _ _ _ FF) as Sam.
  assert (NM : Z.to_nat (next_multiple (Z.max 0 (target_sample_size O - zlen [[0; 0]])) (batch_size O)) = 3%nat).
  { cbn [target_sample_size O ls_config batch_size zlen length].
    change (Z.max 0 (4 - zlen [[0; 0]])) with 3%Z.
    destruct (C35_next_multiple 3 1 ltac:(lia)) as (_ & Q & _). lia. }
  rewrite NM, I3 in Sam. cbn [K builtin_components k_sample] in Sam. apply sample_142 in Sam. subst X1.
  pose proof (ff_idx _ _ _ _ _ _ _ _ _ _ _ _ _ _ _ FF) as IX. cbn [length seq app] in IX.
  pose proof (ph_log _ _ _ _ _ _ _ _ _ _ _ _ _ _ _ P1) as LG.
  pose proof (ph_work _ _ _ _ _ _ _ _ _ _ _ _ _ _ _ P1) as WK.
  pose proof (ph_true _ _ _ _ _ _ _ _ _ _ _ _ _ _ _ P1) as TR.
  assert (NE1 : E0 ++ E1 <> []) by (destruct E0; [easy|discriminate]).
  cbn [app] in *. change [[0; 0]; [1; 0]; [0; 1]; [-1; 0]] with ex_pts in *.
  destruct (fit_and_solve_data LeastSquares 2 3 K _ _ _ _ _ _ _ LG NE1 (gw_nodup _ _ _ _ _ _ _ _ _ WK) (gw_lt _ _ _ _ _ _ _ _ _ WK) FL)
    as (Ft & Ag & So & Re).
  (* the values *)
  assert (TA : true_evals ex_crit142 ex_pts (E0 ++ E1)).
  { apply true_evals_app; [|exact TR]. change ex_pts with ([[0; 0]] ++ [[1; 0]; [0; 1]; [-1; 0]]).
    apply true_evals_more. exact T0. }
  assert (MV : forall i, In i (w_indices w0) ->
     mean_rows (ft_w LeastSquares 3) (evals_of i (E0 ++ E1)) = map Fin (ex_res (nth i ex_pts []))).
  { intros i Hi. change (ft_w LeastSquares 3) with (length (ex_res (nth i ex_pts []))). apply mean_const.
    - pose proof (gw_n _ _ _ _ _ _ _ _ _ WK i Hi) as N1. intros Q. rewrite Q in N1. cbn in N1. lia.
    - intros v Hv. apply evals_of_In in Hv. destruct (TA i v Hv) as (x & Hx & TE).
      apply nth_error_nth with (d := []) in Hx. rewrite Hx. now apply ex_true_eval. }
  rewrite (map_ext_in _ _ _ MV) in Ft. rewrite IX in Ft. rewrite I3 in Ft, So, Re.
  cbn [K builtin_components k_fit k_agg k_solve] in Ft, Ag, So.
  change (map (fun i => nth i ex_pts []) [0%nat; 1%nat; 2%nat; 3%nat]) with ex_pts in Ft.
  change (map (fun i => map Fin (ex_res (nth i ex_pts []))) [0%nat; 1%nat; 2%nat; 3%nat])
    with (map (fun x => map Fin (ex_res x)) ex_pts) in Ft.
  apply fit_142 in Ft as (m & Em & Mn & Mm & MC). rewrite Em in Ag. cbn [builtin_agg aggregate ls_choices ch_aggregator bind] in Ag.
  injection Ag as Ag. pose proof So as So0. rewrite <- Ag in So.
  destruct (MC 0%nat ltac:(lia)) as (C0 & G00 & G01). destruct (MC 1%nat ltac:(lia)) as (C1 & G10 & G11).
  destruct (MC 2%nat ltac:(lia)) as (C2 & G20 & G21). cbn [nth] in *.
  apply solve_142 in So.
  2: exact Mn.
  2: { intros [|[|i]] Hi; [| |lia]; cbn [aggregate_least_squares_linear sm_g]; rewrite Mm; cbn [bsum g56 vec2];
       rewrite ?C0, ?C1, ?C2, ?G00, ?G01, ?G10, ?G11, ?G20, ?G21; lra. }
  2: { eexists. split; [reflexivity|]. intros [|[|i]] [|[|j]] Hi Hj; try lia; rewrite Mm; unfold H56; cbn [bsum diag2];
       rewrite ?G00, ?G01, ?G10, ?G11, ?G20, ?G21; lra. }
  (* no points are dropped or added *)
  rewrite So, I2 in Re. cbn [r_radius reg56] in Re.
  assert (Dist : dist [27 / 25; 0] [0; 0] = 27 / 25).
  { transitivity (sqrt (27 / 25 * (27 / 25))); [|apply sqrt_square; lra]. unfold dist, norm. f_equal. cbn. lra. }
  rewrite Dist in Re. cbn [xdiv] in Re. destruct (Reqb 1 0) eqn:Z1; [apply Reqb_true in Z1; lra|]. clear Z1.
  apply mbind_inv in R as (h2 & w1 & ED & R). unfold drop_phase in ED.
  assert (LW : zlen (w_xs w0) = 4%Z).
  { rewrite (gw_xs _ _ _ _ _ _ _ _ _ WK), IX. reflexivity. }
  rewrite LW in ED. change (target_sample_size O <? 4)%Z with false in ED. apply mret_inv in ED as [-> ->].
  apply mbind_inv in R as (h3 & wk & EG & R).
  change (stag_phase K O 0%nat st0 1%Z w0) with (stag_loop K O 1%nat 0%nat 0%nat st0 1%Z w0) in EG. cbn [stag_loop] in EG. rewrite Re in EG.
  cbn [xlt O ls_config stag_o min_relative_step] in EG.
  destruct (Rltb (27 / 25 / 1) (1 / 20)) eqn:Z1; [apply Rltb_true in Z1; lra|]. clear Z1.
  apply mret_inv in EG as [-> ->].
  apply mbind_inv in R as (h4 & nz & ENo & R). apply noise_estimates_inv in ENo as [-> _].
  apply mbind_inv in R as (h5 & acc & EA & R).
  destruct (decider_inv _ _ _ _ _ _ _ _ _ _ (cur_of st0) _ _ _ LG (gk_crit _ _ _ _ GK)
    (gw_dim _ _ _ _ _ _ _ _ _ WK) (proj1 (at_point_more _ [[1; 0]; [0; 1]; [-1; 0]] _ A0)) NE1
    (gk_decider _ _ _ _ GK _ _) EA) as (X2 & E2 & L4 & DC).
  apply mbind_inv in R as (h6 & [nn incr] & EAD & R).
  unfold adapt_n_evals in EAD. cbn [O ls_config noisy] in EAD. apply mret_inv in EAD as [-> _].
  inv_bind R. apply mret_inv in R as [Hh Ha]. rewrite Hh.
  pose proof (dc_first _ _ _ _ _ _ _ _ _ _ _ DC) as D1. rewrite So in D1.
  destruct X2 as [|c X2]; [discriminate|]. injection D1 as ->.
  exists 4%nat, [27 / 25; 0]. split; [rewrite <- Hh; exact E|].
  destruct (haslog_dims _ _ _ _ _ _ L4) as (_ & _ & _ & _ & NX).
  split; [rewrite NX, app_length; cbn; lia|].
  split; [now apply (xs_one_log _ _ _ _ _ _ 4 _ L4)|].
  split; [intros (_ & Hu); specialize (Hu _ 0%nat (27 / 25) (21 / 20) eq_refl eq_refl eq_refl); lra|].
  injection Ha as -> _ _. cbn [map snd] in RSt. eexists _, _. split; [exact RSt|]. split; [exact I2|].
  cbn [update_state st_region st_model_indices]. split; [exact I3|]. split; [exact IX|].
  split; [|intros sub Es; change (builtin_solve XX ls_choices (f_sm (w_fit w0)) reg56 = Ok sub) in Es; rewrite So0 in Es; injection Es as <-; exact So].
  change [0; 1; 2; 3]%Z with (map Z.of_nat [0; 1; 2; 3]%nat).
  assert (FL4 : Forall (fun i => (i < @length (list R) ((ex_pts ++ [27 / 25; 0] :: X2)%R))%nat) [0; 1; 2; 3]%nat)
    by (repeat (apply Forall_cons; [rewrite app_length; cbn [length ex_pts]; lia|]); apply Forall_nil).
  destruct (xs_many_log _ _ _ _ _ _ [0; 1; 2; 3]%nat L4 ltac:(discriminate) FL4) as (xs & Ex & _).
  rewrite Ex. now rewrite (xs_many_exact _ _ _ _ _ _ _ _ L4 ltac:(discriminate) FL4 Ex).
Qed.
End Refuted.

(** C142 refuted - with the default options of least squares problems a run evaluates a point outside
    of the bounds: start (0, 0), radius 1 and bounds +-1.05.  The region is a sphere because no bound
    is within the radius, the linear models are exact, gqtpar (k_easy = 0.1) accepts the point
    (1.08, 0), which is evaluated without being checked against the bounds.  This holds for every
    solver of least squares problems. *)
Theorem C142_evaluations_within_bounds_refuted :
  forall lstsq, (forall N p A b, is_lstsq N p A b (lstsq N p A b)) ->
  exists X ch crit O x r0 b h r i y,
    e_lstsq X = lstsq /\ ext_dims 2 X /\ ext_works 2 X /\ good_criterion LeastSquares 3 crit /\ usable 3 ch /\
    ch_sphere ch = SphGqtpar default_gopts 20 /\ quiet_config O /\ length x = 2%nat /\ 0 < r0 /\
    bounds_dim 2 b /\ no_fixed b /\ two_sided b /\ in_bounds b x /\
    tranquilo (builtin_components X ch 2 3 crit 1) O LeastSquares 0 x r0 b = (h, Ok r) /\
    (i < h_nxs h)%nat /\ get_xs_one h (Z.of_nat i) = Ok y /\ ~ in_bounds b y.
Proof.
  intros lstsq LS. destruct (run_142 lstsq LS) as (h & r & i & y & E & R1 & R2 & R3 & _). destruct b56_ok as (BD & NF & IB & TS).
  exists (ex_ext lstsq), ls_choices, ex_crit142, (ls_config 1), [0; 0], 1, (Some b56), h, r, i, y.
  split; [easy|]. split; [apply ex_ext_dims|]. split; [apply ex_ext_works|]. split; [apply ex_crit142_good|].
  split; [apply ls_usable|]. split; [easy|]. split; [apply ls_quiet|]. split; [easy|]. split; [lra|].
  split; [easy|]. split; [easy|]. split; [easy|]. split; [easy|]. now split.
Qed.
(** There is such a solver. *)
Example C142_refuted_instance : forall N p A b, is_lstsq N p A b (ls N p A b).
Proof. exact ls_ok. Qed.

(** C142 partial: the same problem with another sphere solver, any number of iterations. *)
Definition ball_choices : choices :=
  mkChoices Linear FitOls false AggLeastSquares FilKeep (SamOptimal None 1 None 1) SphReparametrized
    (CubBntr true true (CgPlain (/ 100000000) (/ 1000000)) (mkTols (/ 100000000) (/ 100000000) 0) 20 5)
    true DecClassic 3 3 false 100 true.
Example C142_partial_instance : forall k, exists h r,
  tranquilo (builtin_components (ex_ext ls) ball_choices 2 3 ex_crit142 1) (ls_config k) LeastSquares 0 [0; 0] 1 (Some b56) = (h, Ok r) /\
  forall i, (i < h_nxs h)%nat -> exists y, get_xs_one h (Z.of_nat i) = Ok y /\ in_bounds (Some b56) y.
Proof.
  intros k. destruct b56_ok as (BD & NF & IB & TS).
  assert (US : usable 3 ball_choices) by (constructor; cbn; auto; split; [discriminate|lia]).
  destruct (C141_deterministic_runs_succeed (ex_ext ls) ball_choices LeastSquares 2 3 ex_crit142 1 (ls_config k) 0 [0; 0] 1
    (Some b56) (ex_ext_dims ls) (ex_ext_works ls) US (ls_quiet k) ex_crit142_good) as (h & r & E); try easy; try lra.
  { right. now left. }
  exists h, r. split; [exact E|].
  apply (C142_evaluations_within_bounds_partial (ex_ext ls) ball_choices LeastSquares 2 3 ex_crit142 1 (ls_config k) 0
    [0; 0] 1 (Some b56) h r); try easy.
  - apply ex_ext_dims.
  - apply ex_ext_works.
  - apply ex_crit142_good.
  - now left.
  - lra.
  - cbn. lra.
Qed.
