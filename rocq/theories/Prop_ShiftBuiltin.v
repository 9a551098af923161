(** Properties C183 and C184: translated problems, general and built-in components. *)
From Coq Require Import Reals List Arith ZArith Bool Lia Lra FunctionalExtensionality.
From Verif Require Import Base XR Vec FVec HistoryModel HistorySpec HistoryProofs WrapModel WrapProofs
  VolumeModel RegionModel AdjustModel AcceptModel FilterModel ModelsModel FitModel SampleModel SubproblemModel
  VarianceModel NoiseModel LogSpec LogProofs Prop_Region Prop_Adjust AcceptProofs Prop_Accept Prop_Filter
  MainModel MainProofs MainPhases MainLoop Prop_Main Prop_Main2 BuiltinModel Prop_Builtin Prop_Builtin2 LstsqProofs Prop_Main3 Prop_Shift Prop_ShiftRun.
Import ListNotations.
Open Scope R_scope.

Section Builtin.
Variables (c : vec) (d : nat) (b : option bounds).
Hypothesis Hd : d <> 0%nat.
Hypothesis Hc : length c = d.
(** Bounds have one entry per parameter. *)
Definition sides (d : nat) (b : option bounds) : Prop :=
  match b with
  | None => True
  | Some b => match b_lower b with Some l => length l = d | None => True end /\
              match b_upper b with Some l => length l = d | None => True end
  end.
Hypothesis Hb : sides d b.

(** Models of the translated problem have another shift. *)
Definition rmodel (v v' : vmodel) : Prop :=
  v' = mkV (vm_n v) (vm_m v) (vm_c v) (vm_g v) (vm_h v) (vm_scale v) (fun i => vm_shift v i + fun_of c i).
Definition rvm (v v' : vm) : Prop :=
  match v, v' with VmOk v, VmOk v' => rmodel v v' | VmBad k, VmBad k' => k' = k | _, _ => False end.
Definition rsmodel (s s' : smodel) : Prop :=
  s' = mkS (sm_n s) (sm_c s) (sm_g s) (sm_h s) (sm_scale s) (fun i => sm_shift s i + fun_of c i).

Lemma fun_of_shift x : length x = d -> fun_of (shift c x) = fun i => fun_of x i + fun_of c i.
Proof.
  intros L. rewrite <- Hc in L. clear Hc. apply functional_extensionality. unfold fun_of. revert c L.
  induction x as [|a x IH]; intros [|t c0] L i; try discriminate; [destruct i; cbn; lra|].
  destruct i; cbn; [easy|]. apply IH. now injection L.
Qed.

Lemma create_cube_bounds_length x r : length x = d ->
  length (fst (create_cube_bounds x r b)) = d /\ length (snd (create_cube_bounds x r b)) = d.
Proof.
  intros L. unfold create_cube_bounds. destruct b as [[[l|] [u|]]|]; cbn in Hb |- *; destruct Hb;
    rewrite ?map2_length, ?map_length; lia.
Qed.
Lemma wf_lengths reg : wf_region d b reg ->
  length (r_center reg) = d /\ length (r_cube_lower reg) = d /\ length (r_cube_upper reg) = d.
Proof.
  intros [L E]. split; [easy|]. unfold make_region in E. destruct (get_shape _ _ b) as [sh|e]; [|easy]. cbn [bind] in E.
  destruct (get_cube_bounds _ _ b sh) as [lo up] eqn:G. injection E as <-. cbn [r_cube_lower r_cube_upper r_center] in *.
  unfold get_cube_bounds in G. set (rr := match sh with Sphere => _ | Cube => _ end) in G.
  pose proof (create_cube_bounds_length _ rr L) as P. now rewrite G in P.
Qed.
Lemma effective_center_length reg : wf_region d b reg -> length (effective_center reg) = d.
Proof.
  intros W. destruct (wf_lengths _ W) as (L & L1 & L2). unfold effective_center. destruct (r_shape reg); [easy|].
  rewrite map2_length. lia.
Qed.

Variables (X : externals) (ch : choices) (n m : nat).
Hypothesis ED : ext_dims d X.

(** * Models *)

Lemma degenerate_shift reg : degenerate (shift_region c reg) = degenerate reg.
Proof.
  unfold degenerate; cbn. destruct (r_shape reg); [easy|].
  generalize (r_cube_lower reg) (r_cube_upper reg). clear Hc. revert c.
  intros c0 lo. revert c0. induction lo as [|l lo IH]; intros c0 up; [easy|].
  destruct c0 as [|t c0], up as [|u up]; cbn; try easy.
  replace (u + t - (l + t)) with (u - l) by lra. now rewrite IH.
Qed.
Lemma misshapen_shift reg : misshapen (shift_region c reg) = misshapen reg.
Proof. unfold misshapen; cbn. now rewrite !shift_length. Qed.

Lemma init_rel fv reg reg' : rregion c d b reg reg' -> rvm (builtin_init n fv reg) (builtin_init n fv reg').
Proof.
  intros [-> W]. unfold builtin_init. destruct (all_fin fv) as [l|]; [|easy]. cbn. unfold rmodel. cbn.
  now rewrite fun_of_shift by apply W.
Qed.

Lemma allclose_refl k (x : fvec) : allclose k x x = true.
Proof.
  apply forallb_forall. intros i _. unfold isclose_default. rewrite Rminus_eq_0, Rabs_R0.
  destruct (Rleb_spec 0 (/ 100000000 + / 100000 * Rabs (x i))); [easy|]. pose proof (Rabs_pos (x i)). lra.
Qed.
Lemma moved_shift v (x : fvec) r : vm_shift (snd (move_vmodel v x r)) = x.
Proof. cbn. apply functional_extensionality. intros i. unfold fadd, fsub. lra. Qed.

Lemma move_rel v v' (x : fvec) r : rmodel v v' ->
  rmodel (snd (move_vmodel v x r)) (snd (move_vmodel v' (fun i => x i + fun_of c i) r)).
Proof.
  intros ->. unfold rmodel. rewrite moved_shift.
  assert (E : fsub (fun i => x i + fun_of c i) (fun i => vm_shift v i + fun_of c i) = fsub x (vm_shift v)).
  { apply functional_extensionality. intros i. unfold fsub. lra. }
  unfold move_vmodel, shift_vmodel, scale_vmodel. cbn. rewrite E. f_equal.
  apply functional_extensionality. intros i. unfold fadd, fsub. lra.
Qed.

Lemma build_rel t coef (x : fvec) r :
  rres rmodel (build_vmodel n m t coef x r) (build_vmodel n m t coef (fun i => x i + fun_of c i) r).
Proof.
  unfold build_vmodel. destruct t; [reflexivity|].
  destruct (reshape_square_terms_to_hess n _); [reflexivity|reflexivity].
Qed.
Lemma build_shift t coef (x : fvec) r v : build_vmodel n m t coef x r = Ok v -> vm_shift v = x.
Proof.
  unfold build_vmodel. destruct t; [now intros [= <-]|].
  destruct (reshape_square_terms_to_hess n _); [now intros [= <-]|easy].
Qed.
Lemma add_rel v1 v1' v2 v2' : rmodel v1 v1' -> rmodel v2 v2' -> vm_shift v2 = vm_shift v1 ->
  rres rmodel (add_models_vector v1 v2) (add_models_vector v1' v2').
Proof.
  intros -> -> E. unfold add_models_vector. cbn [vm_n vm_m vm_c vm_g vm_h vm_scale vm_shift]. rewrite E, !allclose_refl.
  cbn [negb]. destruct (allclose_scale _ _ _); cbn [negb]; [|reflexivity].
  destruct (vm_h v1); [|reflexivity]. destruct (vm_h v2); reflexivity.
Qed.

Lemma predict_rel v v' : rmodel v v' -> predict_vector v' = predict_vector v.
Proof. now intros ->. Qed.

Lemma fit_proper_rel xs xs' fv reg reg' v v' : rpoints c d xs xs' -> rregion c d b reg reg' -> rmodel v v' ->
  rres rmodel (fit_proper X ch n m xs fv reg v) (fit_proper X ch n m xs' fv reg' v').
Proof.
  intros [-> P] [-> W] V. unfold fit_proper, fitter_template.
  rewrite effective_center_shift, effective_radius_shift, fun_of_shift by now apply effective_center_length.
  set (cen := fun_of (effective_center reg)). set (r := scale_of (effective_radius reg)).
  assert (U : map (fun (x : fvec) i => (x i - (cen i + fun_of c i)) / scale_at r i) (map fun_of (map (shift c) xs)) =
    map (fun (x : fvec) i => (x i - cen i) / scale_at r i) (map fun_of xs)).
  { rewrite !map_map. apply map_ext_in. intros x Hx. rewrite fun_of_shift by exact (proj1 (Forall_forall _ _) P x Hx).
    apply functional_extensionality. intros i. f_equal. lra. }
  rewrite U. destruct (ch_residualize ch).
  - pose proof (move_rel v v' cen r V) as MV. pose proof (moved_shift v cen r) as MS.
    destruct (move_vmodel v cen r) as [o1 om], (move_vmodel v' (fun i => cen i + fun_of c i) r) as [o1' om'].
    cbn [snd] in MV, MS. rewrite (predict_rel _ _ MV).
    destruct (raw_fitter X ch n _ _) as [coef|e]; [|reflexivity]. cbn [bind].
    pose proof (build_rel (ch_type ch) coef cen r) as B. pose proof (build_shift (ch_type ch) coef cen r) as BS.
    destruct (build_vmodel n m (ch_type ch) coef cen r) as [w|e], (build_vmodel n m (ch_type ch) coef _ r) as [w'|e'];
      cbn [rres] in B; try easy. cbn [bind]. apply add_rel; [easy|easy|]. now rewrite MS, (BS w eq_refl).
  - destruct (raw_fitter X ch n _ _) as [coef|e]; [|reflexivity]. cbn [bind]. apply build_rel.
Qed.

Lemma fit_rel xs xs' fv reg reg' v v' : rpoints c d xs xs' -> rregion c d b reg reg' -> rvm v v' ->
  rres rvm (builtin_fit X ch n m xs fv reg v) (builtin_fit X ch n m xs' fv reg' v').
Proof.
  intros RX RG V. unfold builtin_fit.
  assert (D : degenerate reg' = degenerate reg) by (destruct RG as [-> _]; apply degenerate_shift).
  destruct xs as [|x xs], xs' as [|x' xs']; try reflexivity; try (destruct RX as [E _]; discriminate E).
  rewrite D. destruct (degenerate reg); [reflexivity|].
  destruct v as [v|k], v' as [v'|k']; cbn [rvm] in V; try easy.
  - eapply rres_bind; [now apply fit_proper_rel|]. intros w w' RW. exact RW.
  - subst k'. destruct (ch_residualize ch) eqn:CR; [reflexivity|].
    assert (N : forall o o', fit_proper X ch n m (x' :: xs') fv reg' o = fit_proper X ch n m (x' :: xs') fv reg' o').
    { intros o o'. unfold fit_proper, fitter_template. now rewrite CR. }
    rewrite (N _ (mkV n k (fun _ => 0) (fun _ _ => 0) None (MScalar 1) (fun i => fzero i + fun_of c i))).
    eapply rres_bind; [now apply fit_proper_rel|]. intros w w' RW. exact RW.
Qed.

Lemma aggregate_rel v v' : rmodel v v' -> rres rsmodel (aggregate ch v) (aggregate ch v').
Proof.
  intros ->. unfold aggregate. destruct (ch_aggregator ch); try reflexivity.
  - unfold aggregate_identity. cbn. destruct (vm_m v =? 1)%nat; reflexivity.
  - unfold aggregate_sum. cbn. destruct (vm_h v); reflexivity.
Qed.
Lemma agg_rel v v' : rvm v v' -> rres (ropt rsmodel) (builtin_agg ch v) (builtin_agg ch v').
Proof.
  intros V. destruct v as [v|k], v' as [v'|k']; cbn [rvm] in V; try easy.
  - cbn [builtin_agg]. eapply rres_bind; [now apply aggregate_rel|]. now intros.
  - subst k'. cbn [builtin_agg]. destruct (ch_aggregator ch); try reflexivity. destruct (k =? 1)%nat; reflexivity.
Qed.

(** * The subproblem *)

(** The solver of fallback_subsolvers.py:140-164 does not read the shift of the model. *)
Hypothesis EN : forall s s' x, rsmodel s s' -> e_norm_constraint X s' x = e_norm_constraint X s x.

Lemma sphere_solver_rel s s' x lo up : rsmodel s s' -> sphere_solver X ch s' x lo up = sphere_solver X ch s x lo up.
Proof.
  intros E. unfold sphere_solver. destruct (ch_sphere ch).
  - rewrite E. destruct s. reflexivity.
  - rewrite E. destruct s. reflexivity.
  - rewrite E. destruct s. reflexivity.
  - unfold at_vec. destruct (all_fin x); [|easy]. now rewrite (EN s s').
Qed.
Lemma cube_solver_rel s s' x lo up : rsmodel s s' -> cube_solver X ch s' x lo up = cube_solver X ch s x lo up.
Proof. intros E. unfold cube_solver. rewrite E. destruct s. destruct (ch_cube ch); reflexivity. Qed.
Lemma sphere_fallback_rel s s' x : rsmodel s s' -> sphere_fallback X s' x = sphere_fallback X s x.
Proof. intros E. rewrite E. destruct s. reflexivity. Qed.
Lemma cube_fallback_rel s s' x : rsmodel s s' -> cube_fallback X s' x = cube_fallback X s x.
Proof. intros E. rewrite E. destruct s. reflexivity. Qed.
Lemma predict_x_rel s s' : rsmodel s s' -> predict_x s' = predict_x s.
Proof. intros E. rewrite E. destruct s. reflexivity. Qed.

Lemma xmap_to_unit_shift reg x : xmap_to_unit (shift_region c reg) (shift c x) = xmap_to_unit reg x.
Proof.
  unfold xmap_to_unit; cbn [r_shape r_center r_cube_lower r_cube_upper r_radius shift_region]. destruct (r_shape reg).
  - apply map2_shift_diff. intros a e t. now replace (a + t - (e + t)) with (a - e) by lra.
  - apply (map2_shift3_diff (fun xi '(l, u) => xsub (xdiv (Fin (2 * (xi - l))) (Fin (u - l))) (Fin 1))).
    intros a l u t. replace (a + t - (l + t)) with (a - l) by lra. now replace (u + t - (l + t)) with (u - l) by lra.
Qed.

(** Points with entries that are not finite *)
Fixpoint xshift (s : vec) (x : list xr) {struct x} : list xr :=
  match x, s with
  | a :: x', t :: s' => xadd a (Fin t) :: xshift s' x'
  | _, _ => x
  end.
Lemma all_fin_xshift s x : all_fin (xshift s x) = option_map (shift s) (all_fin x).
Proof.
  revert s; induction x as [|a x IH]; intros [|t s]; cbn; try easy.
  - destruct (match a with Fin _ => _ | _ => _ end); [|easy]. now destruct l.
  - destruct a; cbn; try easy. rewrite IH. now destruct (all_fin x).
Qed.
Lemma xshift_fin s x : xshift s (map Fin x) = map Fin (shift s x).
Proof. revert s; induction x as [|a x IH]; intros [|t s]; cbn; try easy. now rewrite IH. Qed.
Lemma map2_xshift_l (f : xr -> R -> xr) s x y :
  (forall a e t, f a (e + t) = xadd (f a e) (Fin t)) -> map2 f x (shift s y) = xshift s (map2 f x y).
Proof.
  intros Hf. revert s y; induction x as [|a x IH]; intros s y; [easy|].
  destruct s as [|t s], y as [|e y]; cbn; try easy. now rewrite Hf, IH.
Qed.
Lemma map2_xshift3_l (f : xr -> R * R -> xr) s x lo up :
  (forall a l u t, f a (l + t, u + t) = xadd (f a (l, u)) (Fin t)) ->
  map2 f x (combine (shift s lo) (shift s up)) = xshift s (map2 f x (combine lo up)).
Proof.
  intros Hf. revert s lo up; induction x as [|a x IH]; intros s lo up; [easy|].
  destruct s as [|t s], lo as [|l lo], up as [|u up]; cbn; try easy. now rewrite Hf, IH.
Qed.

Lemma xadd_shift a e t : xadd a (Fin (e + t)) = xadd (xadd a (Fin e)) (Fin t).
Proof. destruct a; cbn; try easy. f_equal. lra. Qed.
Lemma xclip_shift a l u t : xclip (xadd a (Fin t)) (Fin (l + t)) (Fin (u + t)) = xadd (xclip a (Fin l) (Fin u)) (Fin t).
Proof.
  unfold xclip, xmin, xmax. destruct a; cbn; try easy;
  repeat match goal with |- context [Rltb ?x ?y] => destruct (Rltb_spec x y) | |- context [Rleb ?x ?y] => destruct (Rleb_spec x y) end;
  cbn; try lra; try easy; try (f_equal; lra);
  repeat match goal with |- context [Rltb ?x ?y] => destruct (Rltb_spec x y) | |- context [Rleb ?x ?y] => destruct (Rleb_spec x y) end;
  cbn; try lra; try easy; f_equal; lra.
Qed.

Lemma xmap_from_unit_shift reg x : xmap_from_unit (shift_region c reg) x = xshift c (xmap_from_unit reg x).
Proof.
  unfold xmap_from_unit; cbn [r_shape r_center r_cube_lower r_cube_upper r_radius shift_region]. destruct (r_shape reg).
  - apply map2_xshift_l. intros. apply xadd_shift.
  - apply (map2_xshift3_l (fun xi '(l, u) => xclip (xadd (xdiv (xmul (Fin (u - l)) (xadd xi (Fin 1))) (Fin 2)) (Fin l)) (Fin l) (Fin u))).
    intros a l u t. replace (u + t - (l + t)) with (u - l) by lra. rewrite xadd_shift. apply xclip_shift.
Qed.

Definition rsres (r r' : sresult) : Prop :=
  s_x r' = xshift c (s_x r) /\ s_improvement r' = s_improvement r /\ s_x_unit r' = s_x_unit r.

Lemma solve_proper_rel s s' reg : rsmodel s s' ->
  rres rsres (solve_proper X ch s reg) (solve_proper X ch s' (shift_region c reg)).
Proof.
  intros S. unfold solve_proper. rewrite degenerate_shift. destruct (degenerate reg); [reflexivity|].
  unfold solve_subproblem. change (r_center (shift_region c reg)) with (shift c (r_center reg)).
  rewrite xmap_to_unit_shift, (predict_x_rel _ _ S). change (r_shape (shift_region c reg)) with (r_shape reg).
  set (u := xmap_to_unit reg (r_center reg)). set (lo := map _ u). set (up := map _ u).
  assert (E : (let '(slv, fb) := match r_shape reg with Sphere => (sphere_solver X ch, sphere_fallback X) | Cube => (cube_solver X ch, cube_fallback X) end in
      match slv s' u lo up with Ok r => Ok r | Err e => if negb (ch_retry ch) then Err e else fb s' u end) =
    (let '(slv, fb) := match r_shape reg with Sphere => (sphere_solver X ch, sphere_fallback X) | Cube => (cube_solver X ch, cube_fallback X) end in
      match slv s u lo up with Ok r => Ok r | Err e => if negb (ch_retry ch) then Err e else fb s u end)).
  { destruct (r_shape reg); rewrite ?(sphere_solver_rel _ _ _ _ _ S), ?(cube_solver_rel _ _ _ _ _ S),
      ?(sphere_fallback_rel _ _ _ S), ?(cube_fallback_rel _ _ _ S); reflexivity. }
  destruct (match r_shape reg with Sphere => (sphere_solver X ch, sphere_fallback X) | Cube => (cube_solver X ch, cube_fallback X) end) as [slv fb].
  rewrite E. destruct (match slv s u lo up with Ok r => _ | Err e => _ end) as [rw|e]; [|reflexivity]. cbn [bind].
  set (x := match r_shape reg with Sphere => _ | Cube => _ end).
  destruct (xle (Fin 0) _); cbn [rres]; unfold rsres; cbn [s_x s_improvement s_x_unit].
  - split; [apply xmap_from_unit_shift|easy].
  - split; [symmetry; apply xshift_fin|easy].
Qed.

Lemma solve_rel s s' reg reg' : ropt rsmodel s s' -> rregion c d b reg reg' ->
  rres (rsub c d) (builtin_solve X ch s reg) (builtin_solve X ch s' reg').
Proof.
  intros S [-> W].
  assert (D : forall r, builtin_solve X ch s reg = Ok r -> length (sub_x r) = d)
    by (intros r; apply builtin_solve_dim; [easy|apply W]).
  destruct s as [s|], s' as [s'|]; cbn [ropt] in S; try easy. unfold builtin_solve in *.
  rewrite misshapen_shift. change (r_center (shift_region c reg)) with (shift c (r_center reg)). rewrite shift_length.
  replace (sm_n s') with (sm_n s) by (rewrite S; easy).
  destruct (misshapen reg || negb (sm_n s =? length (r_center reg))%nat); [reflexivity|].
  pose proof (solve_proper_rel s s' reg S) as P.
  destruct (solve_proper X ch s reg) as [r|e], (solve_proper X ch s' (shift_region c reg)) as [r'|e']; cbn [rres] in P; try easy.
  cbn [bind] in *. destruct P as (P1 & P2 & _). rewrite P1, all_fin_xshift, P2.
  destruct (all_fin (s_x r)) as [x|]; [|reflexivity]. cbn. split; [|easy]. split; [easy|]. exact (D _ eq_refl).
Qed.

(** * Sampling and filtering *)

(** rng.uniform(low + c, high + c) draws rng.uniform(low, high) + c. *)
Hypothesis EU : forall t j lo up k, length lo = d -> length up = d ->
  e_uniform X t j (shift c lo) (shift c up) k = map (shift c) (e_uniform X t j lo up k).

Lemma map_rows_shift reg xs : map_rows_from_unit (shift_region c reg) xs = map (option_map (shift c)) (map_rows_from_unit reg xs).
Proof.
  unfold map_rows_from_unit. rewrite map_map. apply map_ext. intros [x|]; cbn; [|easy]. now rewrite map_from_unit_shift.
Qed.
Lemma all_rows_shift xs : all_rows (map (option_map (shift c)) xs) = option_map (map (shift c)) (all_rows xs).
Proof. induction xs as [|[x|] xs IH]; cbn; try easy. rewrite IH. now destruct (all_rows xs). Qed.
Lemma row_to_unit_shift reg x : row_to_unit (shift_region c reg) (shift c x) = row_to_unit reg x.
Proof.
  unfold row_to_unit. pose proof (degenerate_shift reg) as E. unfold degenerate in E. rewrite E, map_to_unit_shift. reflexivity.
Qed.
Lemma existing_shift reg xs cr : existing_in_unit_space (shift_region c reg) (Some (map (shift c) xs)) cr =
  existing_in_unit_space reg (Some xs) cr.
Proof.
  unfold existing_in_unit_space. rewrite map_map.
  assert (E : map (fun x => row_to_unit (shift_region c reg) (shift c x)) xs = map (row_to_unit reg) xs)
    by (apply map_ext; intros; apply row_to_unit_shift).
  now rewrite E.
Qed.

Lemma sample_rel t j : rsampler c d b (builtin_sample X ch t j) (builtin_sample X ch t j).
Proof.
  intros h h' reg reg' k xs xs' H [-> W] [-> P].
  assert (D : forall l, builtin_sample X ch t j h reg k xs = Ok l -> points d l).
  { intros l E. exact (builtin_sample_dim X ch d ED t j h reg k xs l (proj1 W) E). }
  unfold builtin_sample in *. rewrite misshapen_shift. destruct (misshapen reg); [reflexivity|].
  match goal with |- rres _ (bind ?a _) (bind ?a' _) => assert (E : a' = map_res (map (option_map (shift c))) a) end.
  { destruct (ch_sampler ch) eqn:CS.
    - cbn. f_equal. unfold interior_sampler. change (r_shape (shift_region c reg)) with (r_shape reg). destruct (r_shape reg).
      + unfold ball_sampler. cbn [r_center shift_region]. rewrite shift_length. apply map_rows_shift.
      + unfold box_sampler. cbn [r_cube_lower r_cube_upper shift_region]. rewrite EU by apply (wf_lengths _ W). now rewrite !map_map.
    - unfold hull_sampler. cbn [r_center r_shape shift_region]. rewrite shift_length.
      destruct (draw_from_distribution _ _); [|easy]. cbn. f_equal. apply map_rows_shift.
    - unfold optimal_hull_sampler, optimal_hull_info. destruct (Z.of_nat k <=? 0)%Z; [reflexivity|].
      cbn [r_center r_shape shift_region]. rewrite shift_length.
      change (mkRegion (shift c (r_center reg)) (r_radius reg) (shift_bounds c (r_bounds reg)) (r_shape reg)
        (shift c (r_cube_lower reg)) (shift c (r_cube_upper reg))) with (shift_region c reg).
      rewrite existing_shift. destruct (draw_from_distribution _ _) as [dr|e]; [|reflexivity]. cbn [bind].
      destruct (random_search _ _ _ _ dr) as [x0|e]; [|reflexivity]. cbn [bind].
      match goal with |- bind (bind ?o _) _ = _ => destruct o as [op|e]; [|reflexivity] end. cbn [bind map_res].
      f_equal. apply map_rows_shift. }
  rewrite E. match goal with |- rres _ (bind ?a _) _ => destruct a as [ys|e]; [|reflexivity] end.
  cbn [bind map_res] in *. rewrite all_rows_shift. destruct (all_rows ys) as [l|]; [|reflexivity]. cbn. split; [easy|].
  now apply D.
Qed.

Lemma nth_res_shift xs i : nth_res (map (shift c) xs) i = map_res (shift c) (nth_res xs i).
Proof. unfold nth_res. rewrite nth_error_map. now destruct (nth_error xs i). Qed.
Lemma mapM_nth_shift xs l : mapM (nth_res (map (shift c) xs)) l = map_res (map (shift c)) (mapM (nth_res xs) l).
Proof.
  induction l as [|i l IH]; cbn; [easy|]. rewrite nth_res_shift. destruct (nth_res xs i); [|easy]. cbn. rewrite IH.
  now destruct (mapM (nth_res xs) l).
Qed.

Lemma cluster_shift xs is x i r dim ts s :
  keep_cluster_centers (map (shift c) xs) is (mkF (shift c x) i r) dim ts s =
  map_res (shift_pair c) (keep_cluster_centers xs is (mkF x i r) dim ts s).
Proof.
  unfold keep_cluster_centers. cbn [f_radius]. rewrite map_length.
  assert (E : (fun i0 j => dist (nth i0 (map (shift c) xs) []) (nth j (map (shift c) xs) [])) =
    (fun i0 j => dist (nth i0 xs []) (nth j xs []))).
  { apply functional_extensionality. intros i0. apply functional_extensionality. intros j0.
    change (@nil R) with (shift c []) at 1 2. rewrite !map_nth. apply dist_shift. }
  rewrite E. destruct (cluster (length xs) _ _) as [[lb cs]|e]; [|reflexivity]. cbn [bind].
  rewrite mapM_nth_shift. destruct (mapM (nth_res xs) cs); [|reflexivity]. cbn [map_res bind].
  now destruct (mapM (nth_res is) cs).
Qed.

Lemma filter_rel st st' target xs xs' is : rstate c d b rvm (ropt rsmodel) st st' -> rpoints c d xs xs' ->
  length xs = length is -> NoDup is ->
  rres (fun p p' => rpoints c d (fst p) (fst p') /\ snd p' = snd p)
    (builtin_filter ch st target xs is) (builtin_filter ch st' target xs' is).
Proof.
  intros R [-> P] L ND.
  assert (RR : r_radius (st_region st') = r_radius (st_region st)) by (destruct (rs_region _ _ _ _ _ _ _ R) as [-> _]; easy).
  assert (FS : fstate_of st' = mkF (shift c (st_x st)) (st_index st) (r_radius (st_region st))).
  { unfold fstate_of. rewrite RR, (rs_index _ _ _ _ _ _ _ R). now destruct (rs_x _ _ _ _ _ _ _ R) as [-> _]. }
  assert (E : builtin_filter ch st' target (map (shift c) xs) is = map_res (shift_pair c) (builtin_filter ch st target xs is)).
  { unfold builtin_filter. rewrite FS, RR. destruct (ch_filter ch); try reflexivity.
    - destruct (Rltb _ 0); [reflexivity|].
      replace (length (st_x st')) with (length (st_x st)) by (destruct (rs_x _ _ _ _ _ _ _ R) as [-> _]; now rewrite shift_length).
      apply cluster_shift.
    - unfold drop_excess. rewrite map_length. apply drop_worst_points_shift. }
  rewrite E. apply rres_map. intros [xs1 is1] E1. cbn. split; [|easy]. split; [easy|].
  destruct (builtin_filter_good ch st target xs is xs1 is1 L ND E1) as (L1 & _ & I).
  apply Forall_forall. intros y Hy. apply In_nth_error in Hy as (q & Hq).
  destruct (nth_error is1 q) as [iq|] eqn:Hiq.
  2:{ apply nth_error_None in Hiq. assert (q < length xs1)%nat by (apply nth_error_Some; congruence). lia. }
  assert (HI : In (y, iq) (combine xs1 is1)).
  { clear -Hq Hiq. revert is1 q Hq Hiq. induction xs1 as [|a l IH]; intros [|i0 l'] [|q]; cbn; try discriminate.
    - intros [= <-] [= <-]. now left.
    - intros A B. right. eauto. }
  apply I in HI. destruct HI as [[= <- _]|HI]; [apply (rs_x _ _ _ _ _ _ _ R)|].
  apply in_combine_l in HI. exact (proj1 (Forall_forall _ _) P y HI).
Qed.

(** Line searches are only covered without bounds, or if the problem is not moved. *)
Hypothesis ELS : forall rf bs, ch_decider ch = DecLineSearch rf bs -> b = None \/ Forall (eq 0) c.

Lemma decider_rel t v : rdecider c d b (builtin_decider X ch t v) (builtin_decider X ch t v).
Proof.
  unfold builtin_decider. destruct (ch_decider ch) eqn:E; cbn; auto. split; [apply sample_rel|]. split; [easy|]. split; [easy|].
  eapply ELS; reflexivity.
Qed.

(** * Noise *)

Lemma select_rel h h' reg f k : hrel c d h h' ->
  select_and_weigh h' (r_center (shift_region c reg)) (r_radius reg) f k = select_and_weigh h (r_center reg) (r_radius reg) f k.
Proof.
  intros H. unfold select_and_weigh. cbn [r_center shift_region]. rewrite (get_indices_rel c d h h' _ _ H).
  destruct (get_x_indices_in_region h (r_center reg) _) as [l|e]; [|easy]. cbn [bind].
  assert (E : mapM (fun i => let* v := get_fvals_one h' (Z.of_nat i) in Ok (i, length v)) l =
    mapM (fun i => let* v := get_fvals_one h (Z.of_nat i) in Ok (i, length v)) l).
  { apply mapM_ext. intros i _. now rewrite (get_fvals_one_rel c d h h' _ H). }
  now rewrite E.
Qed.
Lemma variance_rel h h' reg reg' : hrel c d h h' -> rregion c d b reg reg' ->
  rres eq (builtin_variance ch h reg) (builtin_variance ch h' reg').
Proof.
  intros H [-> _]. apply rres_eq. unfold builtin_variance, estimate_variance.
  change (r_radius (shift_region c reg)) with (r_radius reg). rewrite (select_rel h h' reg _ _ H).
  destruct (select_and_weigh h _ _ _ _) as [[l w]|e]; [|easy]. cbn [bind]. now rewrite (get_fvals_many_rel c d h h' _ H).
Qed.
Lemma cov_rel h h' reg reg' : hrel c d h h' -> rregion c d b reg reg' ->
  rres eq (builtin_cov ch h reg) (builtin_cov ch h' reg').
Proof.
  intros H [-> _]. apply rres_eq. unfold builtin_cov, estimate_covariance.
  change (r_radius (shift_region c reg)) with (r_radius reg). rewrite (select_rel h h' reg _ _ H).
  destruct (select_and_weigh h _ _ _ _) as [[l w]|e]; [|easy]. cbn [bind].
  now rewrite (get_fvecs_many_rel c d h h' _ H), (fvecs_width_rel c d h h' H).
Qed.

Lemma rho_noise_rel t xs xs' v v' old old' reg reg' cv cv' : rpoints c d xs xs' -> rvm v v' -> rvm old old' ->
  rregion c d b reg reg' -> ropt eq cv cv' ->
  rres eq (builtin_rho_noise X ch n m t xs v old reg cv) (builtin_rho_noise X ch n m t xs' v' old' reg' cv').
Proof.
  intros RX RVv RVo RG RCv. unfold builtin_rho_noise.
  destruct v as [v|kv], v' as [v'|kv']; cbn [rvm] in RVv; try easy.
  destruct old as [old|ko], old' as [old'|ko']; cbn [rvm] in RVo; try easy.
  destruct cv as [cv|], cv' as [cv'|]; cbn [ropt] in RCv; try easy. subst cv'.
  destruct (all_rows_fin cv) as [C|]; [|easy].
  unfold simulate_rho_noise.
  assert (TF : true_fvecs v' reg' xs' = true_fvecs v reg xs).
  { destruct RG as [-> _], RX as [-> _]. unfold true_fvecs. rewrite (predict_rel _ _ RVv), map_map.
    replace (vm_m v') with (vm_m v) by (rewrite RVv; easy). apply map_ext. intros x. now rewrite map_to_unit_shift. }
  rewrite TF. eapply rres_bind; [now apply aggregate_rel|]. intros s s' S.
  assert (TC : predict_x s' (xmap_to_unit reg' (r_center reg')) = predict_x s (xmap_to_unit reg (r_center reg))).
  { destruct RG as [-> _]. cbn [r_center shift_region].
    change (mkRegion (shift c (r_center reg)) (r_radius reg) (shift_bounds c (r_bounds reg)) (r_shape reg)
        (shift c (r_cube_lower reg)) (shift c (r_cube_upper reg))) with (shift_region c reg).
    now rewrite xmap_to_unit_shift, (predict_x_rel _ _ S). }
  rewrite TC. replace (length xs') with (length xs) by (destruct RX as [-> _]; now rewrite map_length).
  match goal with |- rres _ (mapM _ ?l) _ => generalize l end. intros l.
  assert (OD : forall dr, rres eq
    (one_draw (fun xs ys reg old => fit_proper X ch n m xs (map (map Fin) ys) reg old) (aggregate ch) (solve_proper X ch)
       xs (true_fvecs v reg xs) s (predict_x s (xmap_to_unit reg (r_center reg))) old reg dr)
    (one_draw (fun xs ys reg old => fit_proper X ch n m xs (map (map Fin) ys) reg old) (aggregate ch) (solve_proper X ch)
       xs' (true_fvecs v reg xs) s' (predict_x s (xmap_to_unit reg (r_center reg))) old' reg' dr)).
  { intros dr. unfold one_draw. eapply rres_bind; [now apply fit_proper_rel|]. intros w w' RW.
    eapply rres_bind; [now apply aggregate_rel|]. intros z z' RZ.
    eapply rres_bind; [destruct RG as [-> _]; apply solve_proper_rel, RZ|]. intros q q' (_ & Q1 & Q2). cbn.
    now rewrite Q1, Q2, (predict_x_rel _ _ S). }
  induction l as [|dr l IH]; [reflexivity|]. cbn [mapM]. eapply rres_bind; [apply OD|]. intros z ? <-.
  eapply rres_bind; [apply IH|]. intros zs ? <-. reflexivity.
Qed.

(** The built-in components of both problems correspond to each other. *)
Lemma builtin_translated crit crit' nc : rcrit c d crit crit' ->
  translated c d b rvm (ropt rsmodel) eq (builtin_components X ch n m crit nc) (builtin_components X ch n m crit' nc).
Proof.
  intros HC. constructor; cbn [builtin_components k_crit k_cores k_init k_fit k_agg k_solve k_gnorm k_sample k_filter
    k_decider k_variance k_cov k_rho_noise].
  - exact HC.
  - reflexivity.
  - intros. now apply init_rel.
  - intros. now apply fit_rel.
  - intros. now apply agg_rel.
  - intros. now apply solve_rel.
  - intros s s' S. destruct s as [s|], s' as [s'|]; cbn in S; try easy. rewrite S. reflexivity.
  - apply sample_rel.
  - intros h h' st st' target k xs xs' is _ R RX L ND. now apply filter_rel.
  - apply decider_rel.
  - intros. now apply variance_rel.
  - intros. now apply cov_rel.
  - intros. now apply rho_noise_rel.
Qed.
End Builtin.

(** * Statements *)

(** A point, the bounds and a run, moved by [c]. *)
Definition moved (c x : vec) : vec := map2 Rplus x c.
Definition moved_side (c : vec) (l : list (option R)) : list (option R) :=
  map2 (fun o t => match o with Some a => Some (a + t) | None => None end) l c.
Definition moved_bounds (c : vec) (b : option bounds) : option bounds :=
  match b with
  | None => None
  | Some b => Some (mkBounds match b_lower b with Some l => Some (moved_side c l) | None => None end
                             match b_upper b with Some l => Some (moved_side c l) | None => None end)
  end.
Definition moved_history (c : vec) (h h' : hist) : Prop :=
  h_nxs h' = h_nxs h /\ h_nfun h' = h_nfun h /\ h_map h' = h_map h /\ h_fvals h' = h_fvals h /\ h_fvecs h' = h_fvecs h /\
  forall i x, get_xs_one h i = Ok x -> get_xs_one h' i = Ok (moved c x).
Definition moved_state {VM SM VM' SM'} (c : vec) (s : state VM SM) (s' : state VM' SM') : Prop :=
  st_x s' = moved c (st_x s) /\ st_candidate_x s' = moved c (st_candidate_x s) /\
  r_center (st_region s') = moved c (r_center (st_region s)) /\ r_radius (st_region s') = r_radius (st_region s) /\
  r_shape (st_region s') = r_shape (st_region s) /\
  st_fval s' = st_fval s /\ st_index s' = st_index s /\ st_candidate_index s' = st_candidate_index s /\
  st_rho s' = st_rho s /\ st_accepted s' = st_accepted s /\ st_model_indices s' = st_model_indices s /\
  st_new_indices s' = st_new_indices s /\ st_step_length s' = st_step_length s.
Definition moved_run {VM SM VM' SM'} (c : vec) (run : hist * res (result VM SM)) (run' : hist * res (result VM' SM')) : Prop :=
  moved_history c (fst run) (fst run') /\
  match snd run, snd run' with
  | Ok r, Ok r' =>
      solution_x r' = moved c (solution_x r) /\ solution_criterion r' = solution_criterion r /\
      res_message r' = res_message r /\ res_converged r' = res_converged r /\
      Forall2 (moved_state c) (res_states r) (res_states r')
  | Err e, Err e' => e' = e
  | _, _ => False
  end.

Lemma shift_side_moved c l : length l = length c -> shift_side c l = moved_side c l.
Proof. revert c; induction l as [|o l IH]; destruct c; cbn; intros H; try discriminate; auto. destruct o; f_equal; apply IH; lia. Qed.
Lemma bounds_dim_sides d b : bounds_dim d b -> sides d b.
Proof. destruct b as [[lo up]|]; cbn; [|easy]. intros [A B]. destruct lo, up; auto. Qed.
Lemma shift_bounds_moved c d b : length c = d -> bounds_dim d b -> shift_bounds c b = moved_bounds c b.
Proof.
  intros Hc H. apply bounds_dim_sides in H. destruct b as [[lo up]|]; cbn in *; [|easy]. destruct H.
  destruct lo, up; cbn; rewrite ?shift_side_moved by congruence; easy.
Qed.
Lemma rpoint_moved c d x x' : length c = d -> rpoint c d x x' -> x' = moved c x.
Proof. intros Hc [-> L]. apply shift_add. congruence. Qed.

Lemma moved_of_rel {VM SM VM' SM'} (RV : VM -> VM' -> Prop) (RS : SM -> SM' -> Prop) c d b run run' : length c = d ->
  hrel c d (fst run) (fst run') -> rres (rresult c d b RV RS) (snd run) (snd run') -> moved_run c run run'.
Proof.
  intros Hc H R. split.
  - pose proof H as (_ & FV & FL & N & NF & MP & _). repeat (split; [easy|]). intros i x E.
    pose proof (get_xs_one_rel c d _ _ i H) as Q. rewrite E in Q. destruct (get_xs_one (fst run') i); cbn in Q; [|easy].
    now rewrite (rpoint_moved _ _ _ _ Hc Q).
  - destruct (snd run) as [r|e], (snd run') as [r'|e']; cbn in R; try easy. destruct R as [X C S M V].
    split; [exact (rpoint_moved _ _ _ _ Hc X)|]. split; [easy|]. split; [easy|]. split; [easy|].
    revert S. apply Forall2_impl. intros s s' Q. pose proof (rs_region _ _ _ _ _ _ _ Q) as [G [W _]].
    split; [exact (rpoint_moved _ _ _ _ Hc (rs_x _ _ _ _ _ _ _ Q))|].
    split; [exact (rpoint_moved _ _ _ _ Hc (rs_candidate_x _ _ _ _ _ _ _ Q))|].
    split; [apply (rpoint_moved _ _ _ _ Hc); rewrite G; now split|].
    split; [now rewrite G|]. split; [now rewrite G|].
    repeat split; apply Q.
Qed.

(** C183 - a run on the translated problem (start values, bounds, criterion and components) is the
    translated run: the same values, radii, indices, decisions, messages and errors, and all points
    are moved.  Not for the stopping rule by the relative change of the parameters, and
    not (see [rdecider]) for line searches with bounds. *)
Theorem C183_translated_runs_partial :
  forall VM SM CV VM' SM' CV' (RV : VM -> VM' -> Prop) (RS : SM -> SM' -> Prop) (RC : CV -> CV' -> Prop)
    (K : components VM SM CV) (K' : components VM' SM' CV') O ft pad pad' c d x r0 b,
    d <> 0%nat -> length c = d -> length x = d -> bounds_dim d b ->
    translated c d b RV RS RC K K' -> disable (conv_o O) = true \/ xtol_rel (conv_o O) <= 0 ->
    moved_run c (tranquilo K O ft pad x r0 b) (tranquilo K' O ft pad' (moved c x) r0 (moved_bounds c b)).
Proof.
  intros VM SM CV VM' SM' CV' RV RS RC K K' O ft pad pad' c d x r0 b Hd Hc Lx HB T HX.
  pose proof (sim_tranquilo c d b Hd RV RS RC K K' O T (or_introl HX) ft pad pad' x r0 Lx) as [H R].
  rewrite (shift_bounds_moved c d) in H, R by easy. rewrite shift_add in H, R by congruence.
  exact (moved_of_rel RV RS c d b _ _ Hc H R).
Qed.

(** C184 - the components of tranquilo satisfy the hypotheses of C183. *)
Theorem C184_builtin_runs :
  forall X ch n m crit crit' cores O ft pad pad' c d x r0 b,
    d <> 0%nat -> length c = d -> length x = d -> bounds_dim d b -> ext_dims d X ->
    (forall h h' xs k, h_nfun h' = h_nfun h -> Forall (fun x => length x = d) xs ->
       crit' h' (map (moved c) xs) k = crit h xs k) ->
    (forall s s' y, sm_n s' = sm_n s -> sm_c s' = sm_c s -> sm_g s' = sm_g s -> sm_h s' = sm_h s ->
       sm_scale s' = sm_scale s -> e_norm_constraint X s' y = e_norm_constraint X s y) ->
    (forall t j lo up k, length lo = d -> length up = d ->
       e_uniform X t j (moved c lo) (moved c up) k = map (moved c) (e_uniform X t j lo up k)) ->
    (forall f bs, ch_decider ch = DecLineSearch f bs -> b = None) ->
    disable (conv_o O) = true \/ xtol_rel (conv_o O) <= 0 ->
    moved_run c (tranquilo (builtin_components X ch n m crit cores) O ft pad x r0 b)
      (tranquilo (builtin_components X ch n m crit' cores) O ft pad' (moved c x) r0 (moved_bounds c b)).
Proof.
  intros X ch n m crit crit' cores O ft pad pad' c d x r0 b Hd Hc Lx HB ED HC EN EU LS HX.
  assert (MV : forall xs, Forall (fun x => length x = d) xs -> map (shift c) xs = map (moved c) xs).
  { intros xs F. apply map_ext_in. intros y Hy. apply shift_add. rewrite Hc. exact (proj1 (Forall_forall _ _) F y Hy). }
  eapply C183_translated_runs_partial; try eassumption.
  apply builtin_translated; try eassumption.
  - now apply bounds_dim_sides.
  - intros s s' y E. apply EN; rewrite E; reflexivity.
  - intros t j lo up k L1 L2. rewrite !shift_add by congruence. fold (moved c lo) (moved c up).
    rewrite EU by easy. symmetry. apply MV. rewrite <- L1. apply (ed_uniform _ _ ED).
  - intros f bs E. left. exact (LS f bs E).
  - intros h h' args args' k H [-> P]. rewrite (MV _ P). apply HC; [|easy]. apply H.
Qed.

(** C185 - the rows of the history that are allocated but not yet written (history.py:218-232, NaN in
    the code, the argument [pad] here) have no influence on a run with the built-in components. *)
Definition same_state {VM SM} (s s' : state VM SM) : Prop :=
  st_x s' = st_x s /\ st_candidate_x s' = st_candidate_x s /\ st_region s' = st_region s /\
  st_model s' = st_model s /\ st_vector_model s' = st_vector_model s /\
  st_fval s' = st_fval s /\ st_index s' = st_index s /\ st_candidate_index s' = st_candidate_index s /\
  st_rho s' = st_rho s /\ st_accepted s' = st_accepted s /\ st_model_indices s' = st_model_indices s /\
  st_new_indices s' = st_new_indices s /\ st_step_length s' = st_step_length s.
Theorem C185_padding_is_not_read :
  forall X ch n m crit cores O ft pad pad' d x r0 b,
    d <> 0%nat -> length x = d -> bounds_dim d b -> ext_dims d X ->
    (forall h h' xs k, h_nfun h' = h_nfun h -> crit h' xs k = crit h xs k) ->
    let run := tranquilo (builtin_components X ch n m crit cores) O ft pad x r0 b in
    let run' := tranquilo (builtin_components X ch n m crit cores) O ft pad' x r0 b in
    h_nxs (fst run') = h_nxs (fst run) /\ h_nfun (fst run') = h_nfun (fst run) /\
    h_fvals (fst run') = h_fvals (fst run) /\ h_fvecs (fst run') = h_fvecs (fst run) /\
    h_map (fst run') = h_map (fst run) /\
    (forall i, get_xs_one (fst run') i = get_xs_one (fst run) i) /\
    match snd run, snd run' with
    | Ok r, Ok r' =>
        solution_x r' = solution_x r /\ solution_criterion r' = solution_criterion r /\
        res_message r' = res_message r /\ res_converged r' = res_converged r /\
        Forall2 same_state (res_states r) (res_states r')
    | Err e, Err e' => e' = e
    | _, _ => False
    end.
Proof.
  intros X ch n m crit cores O ft pad pad' d x r0 b Hd Lx HB ED HC run run'.
  set (c := repeat 0 d). assert (Z : Forall (eq 0) c) by (apply Forall_forall; intros t Ht; symmetry; exact (repeat_spec _ _ _ Ht)).
  assert (Hc : length c = d) by apply repeat_length.
  assert (FZ : forall f : fvec, (fun i => f i + fun_of c i) = f).
  { intros f. apply functional_extensionality. intros i. unfold fun_of, c. rewrite nth_repeat. lra. }
  assert (ES : forall s s', rsmodel c s s' -> s' = s) by (intros s s' E; rewrite E, FZ; now destruct s).
  assert (EV : forall v v', rvm c v v' -> v' = v).
  { intros [v|k] [v'|k'] E; cbn in E; try easy; [|now subst]. rewrite E, FZ. now destruct v. }
  assert (T : translated c d b (rvm c) (ropt (rsmodel c)) eq (builtin_components X ch n m crit cores)
    (builtin_components X ch n m crit cores)).
  { apply builtin_translated; try easy.
    - now apply bounds_dim_sides.
    - intros s s' y E. now rewrite (ES _ _ E).
    - intros t j lo up k _ _. rewrite !shift_zero by easy. rewrite map_ext with (g := fun y => y); [now rewrite map_id|].
      intros y. now apply shift_zero.
    - intros. now right.
    - intros h h' args args' k H [-> P]. rewrite map_ext with (g := fun y => y) by (intros; now apply shift_zero).
      rewrite map_id. apply HC, H. }
  pose proof (sim_tranquilo c d b Hd _ _ _ _ _ O T (or_intror Z) ft pad pad' x r0 Lx) as [H R].
  rewrite shift_zero in H, R by easy.
  assert (BZ : shift_bounds c b = b).
  { assert (SZ : forall l, shift_side c l = l).
    { clear -Z. induction Z as [|t c E F IH]; intros [|a l]; cbn; try easy. rewrite IH, <- E. destruct a; cbn; [|easy].
      now rewrite Rplus_0_r. }
    destruct b as [[lo up]|]; [|easy]. cbn. destruct lo, up; cbn; now rewrite ?SZ. }
  rewrite BZ in H, R. fold run in H, R. fold run' in H, R.
  pose proof H as (_ & FV & FL & N & NF & MP & _). repeat (split; [easy|]). split.
  - intros i. pose proof (get_xs_one_rel c d _ _ i H) as Q.
    destruct (get_xs_one (fst run) i), (get_xs_one (fst run') i); cbn in Q; try easy; [|now subst].
    destruct Q as [-> _]. now rewrite shift_zero.
  - destruct (snd run) as [r|e], (snd run') as [r'|e']; cbn in R; try easy. destruct R as [[X1 _] C S M V].
    rewrite shift_zero in X1 by easy. split; [easy|]. split; [easy|]. split; [easy|]. split; [easy|].
    revert S. apply Forall2_impl. intros s s' Q.
    assert (PZ : forall y y', rpoint c d y y' -> y' = y) by (intros y y' [-> _]; now apply shift_zero).
    split; [exact (PZ _ _ (rs_x _ _ _ _ _ _ _ Q))|]. split; [exact (PZ _ _ (rs_candidate_x _ _ _ _ _ _ _ Q))|].
    split.
    { destruct (rs_region _ _ _ _ _ _ _ Q) as [G [_ W]]. rewrite G. unfold shift_region. rewrite !shift_zero by easy.
      assert (RB : r_bounds (st_region s) = b).
      { now destruct (make_region_inv _ _ _ _ W) as (_ & _ & _ & _ & RB & _). }
      rewrite RB, BZ, <- RB. now destruct (st_region s). }
    split. { pose proof (rs_model _ _ _ _ _ _ _ Q) as G. destruct (st_model s), (st_model s'); cbn in G; try easy. f_equal. now apply ES. }
    split; [exact (EV _ _ (rs_vector_model _ _ _ _ _ _ _ Q))|].
    repeat split; apply Q.
Qed.

(** * Examples and refutations *)

Lemma map_repeat_same {A B} (f : A -> B) a k : map f (repeat a k) = repeat (f a) k.
Proof. induction k; cbn; congruence. Qed.

(** The least squares problem of Prop_Builtin2, moved by (100, -7), with the default options. *)
Definition far : vec := [100; -7].
Definition far_crit : criterion := fun h args k => ex_crit142 h (map (moved [-100; 7]) args) k.
Lemma far_back x : length x = 2%nat -> moved [-100; 7] (moved far x) = x.
Proof.
  destruct x as [|x0 [|x1 [|]]]; try discriminate. intros _. unfold moved, far. cbn. repeat f_equal; lra.
Qed.
Lemma far_crit_moved : forall h h' xs k, h_nfun h' = h_nfun h -> Forall (fun x => length x = 2%nat) xs ->
  far_crit h' (map (moved far) xs) k = ex_crit142 h xs k.
Proof.
  intros h h' xs k _ F. unfold far_crit. rewrite map_map. replace (map (fun x => moved [-100; 7] (moved far x)) xs) with xs; [easy|].
  induction F as [|x xs L F IH]; [easy|]. cbn [map]. now rewrite far_back, <- IH.
Qed.
Example C183_instance :
  translated far 2 None (rvm far) (ropt (rsmodel far)) eq (builtin_components (ex_ext ls) ls_choices 2 3 ex_crit142 1)
    (builtin_components (ex_ext ls) ls_choices 2 3 far_crit 1) /\
  xtol_rel (conv_o (ls_config 5)) <= 0 /\
  exists h r, tranquilo (builtin_components (ex_ext ls) ls_choices 2 3 ex_crit142 1) (ls_config 5) LeastSquares 0 [0; 0] 1 None = (h, Ok r).
Proof.
  split; [|split; [cbn; lra|apply C141_instance]]. apply builtin_translated; try easy.
  - apply ex_ext_dims.
  - intros t j lo up k L1 L2. cbn. now rewrite map_repeat_same.
  - intros h h' args args' k H [-> P].
    replace (map (shift far) args) with (map (moved far) args).
    { apply far_crit_moved; [apply H|exact P]. }
    apply map_ext_in. intros y Hy. symmetry. apply shift_add. exact (proj1 (Forall_forall _ _) P y Hy).
Qed.
Example C184_instance : forall k, exists h r h' r',
  tranquilo (builtin_components (ex_ext ls) ls_choices 2 3 ex_crit142 1) (ls_config k) LeastSquares 0 [0; 0] 1 None = (h, Ok r) /\
  tranquilo (builtin_components (ex_ext ls) ls_choices 2 3 far_crit 1) (ls_config k) LeastSquares 5 [100; -7] 1 None = (h', Ok r') /\
  solution_x r' = moved far (solution_x r).
Proof.
  intros k. destruct (C141_instance k) as (h & r & E).
  pose proof (C184_builtin_runs (ex_ext ls) ls_choices 2 3 ex_crit142 far_crit 1 (ls_config k) LeastSquares 0 5 far 2 [0; 0] 1 None
    ltac:(easy) eq_refl eq_refl I (ex_ext_dims _) far_crit_moved) as H.
  replace (moved far [0; 0]) with [100; -7] in H by (unfold moved, far; cbn; repeat f_equal; lra).
  cbn [moved_bounds] in H. rewrite E in H. destruct H as [_ H].
  - easy.
  - intros t j lo up n L1 L2. cbn. now rewrite map_repeat_same.
  - easy.
  - right. cbn. lra.
  - cbn [fst snd] in H. destruct (tranquilo _ _ _ 5 _ _ _) as [h' [r'|e]]; cbn [snd] in H; [|easy].
    exists h, r, h', r'. split; [easy|]. split; [easy|]. apply H.
Qed.
Example C185_instance : forall k pad', exists h r h' r',
  tranquilo (builtin_components (ex_ext ls) search_choices 2 3 ex_crit142 1) (ls_config k) LeastSquares 0 [0; 0] 1 None = (h, Ok r) /\
  tranquilo (builtin_components (ex_ext ls) search_choices 2 3 ex_crit142 1) (ls_config k) LeastSquares pad' [0; 0] 1 None = (h', Ok r') /\
  solution_x r' = solution_x r.
Proof.
  intros k pad'. destruct (C141_line_search_instance k) as (h & r & E).
  pose proof (C185_padding_is_not_read (ex_ext ls) search_choices 2 3 ex_crit142 1 (ls_config k) LeastSquares 0 pad' 2 [0; 0] 1 None
    ltac:(easy) eq_refl I (ex_ext_dims _) ltac:(reflexivity)) as H. cbn zeta in H.
  rewrite E in H. destruct H as (_ & _ & _ & _ & _ & _ & H). cbn [fst snd] in H.
  destruct (tranquilo _ _ _ pad' _ _ _) as [h' [r'|e]]; cbn [snd] in H; [|easy].
  exists h, r, h', r'. split; [easy|]. split; [easy|]. apply H.
Qed.

(** C183 - false for the stopping rule by the relative change of the parameters: the step from 3 to
    1.5 does not stop the run; the step from 103 to 101.5 does. *)
Theorem C183_relative_change_refuted :
  let K := ex_components (fun c => c / 2) (fun _ _ => Classic) center_sampler ex_crit in
  let o := mkConv false 0 0 0 0 0 (1 / 10) 0 in
  xtol_rel o = 1 / 10 /\
  is_converged K (ex_state 4 3) (ex_state 1 (3 / 2)) o = (false, None) /\
  is_converged K (ex_state 4 103) (ex_state 1 (203 / 2)) o = (true, Some MsgXtolRel).
Proof.
  cbn zeta. assert (NO : forall a, 0 <= a -> norm2 [a] = a).
  { intros a Ha. unfold norm2. cbn [fold_right]. rewrite Rplus_0_r. now apply sqrt_square. }
  assert (M4 : Rmax (Rabs 4) 1 = 4) by (rewrite Rabs_right, Rmax_left; lra).
  assert (M1 : Rmax 1 1 = 1) by (apply Rmax_left; lra).
  assert (M3 : Rmax (Rabs 3) 1 = 3) by (rewrite Rabs_right, Rmax_left; lra).
  assert (M103 : Rmax (Rabs 103) 1 = 103) by (rewrite Rabs_right, Rmax_left; lra).
  assert (A3 : Rabs (4 + - 1) = 3) by (rewrite Rabs_right; lra).
  split; [easy|]. unfold is_converged, ex_state, ex_components.
  cbn [st_fval st_x k_gnorm st_model xsub xadd xopp xabs map2 gtol_rel gtol_abs ftol_rel ftol_abs xtol_rel xtol_abs].
  rewrite !py_max1_fin, !xdiv_max1, M4, M1, M3, M103.
  rewrite !NO by lra. change (4 + - (1)) with (4 + - 1). rewrite A3. cbn [xle].
  split; repeat match goal with |- context [Rleb ?a ?c] => destruct (Rleb_spec a c); try lra end; reflexivity.
Qed.

(** C183 - false for line searches if there are bounds: the point 0.3 is not on the border of the
    cube [0, 1], but the point 100.3 is on the border of the cube [100, 101]. *)
Theorem C183_border_refuted :
  let b := Some (mkBounds (Some [Some 0]) (Some [Some 1])) in
  exists reg reg',
    make_region [1 / 2] 2 b = Ok reg /\ make_region (moved [100] [1 / 2]) 2 (moved_bounds [100] b) = Ok reg' /\
    r_shape reg = Cube /\ r_shape reg' = Cube /\ r_cube_lower reg = [0] /\ r_cube_upper reg = [1] /\
    r_cube_lower reg' = moved [100] [0] /\ r_cube_upper reg' = moved [100] [1] /\
    is_on_border reg [3 / 10] (/ 10) = false /\ is_on_border reg' (moved [100] [3 / 10]) (/ 10) = true.
Proof.
  set (b := Some (mkBounds (Some [Some 0]) (Some [Some 1]))). cbn zeta.
  assert (CR : get_radius_of_cube_with_volume_of_sphere 2 1 None = 2).
  { unfold get_radius_of_cube_with_volume_of_sphere. cbn [gamma_half INR].
    assert (0 < PI) by apply PI_RGT_0. assert (0 < sqrt PI) by now apply sqrt_lt_R0.
    assert (E : ln (sqrt PI / 2) = ln PI / 2 - ln 2).
    { unfold Rdiv at 1. rewrite ln_mult, ln_Rinv by lra.
      assert (ln PI = ln (sqrt PI) + ln (sqrt PI)) by (rewrite <- ln_mult, sqrt_sqrt by lra; easy). lra. }
    rewrite E. replace (ln PI / 2 + ln 2 - ln 2 - (ln PI / 2 - ln 2) / 1) with (ln 2) by lra. apply exp_ln; lra. }
  assert (MB : moved_bounds [100] b = Some (mkBounds (Some [Some (0 + 100)]) (Some [Some (1 + 100)]))) by reflexivity.
  rewrite MB. unfold moved. cbn [map2].
  assert (G : forall t x, exists reg, make_region [x + t] 2 (Some (mkBounds (Some [Some (0 + t)]) (Some [Some (1 + t)]))) = Ok reg /\ (0 <= x <= 1 ->
     r_shape reg = Cube /\ r_cube_lower reg = [0 + t] /\ r_cube_upper reg = [1 + t])).
  { intros t x. destruct (C18_one_sided_bounds_partial [x + t] 2 (Some (mkBounds (Some [Some (0 + t)]) (Some [Some (1 + t)])))) as [reg MR]; [easy| |easy|].
    { split; intros l H; injection H as <-; reflexivity. }
    exists reg. split; [easy|]. intros Hx. destruct (make_region_inv _ _ _ _ MR) as (bv & BV & _ & _ & _ & RS & RL).
    assert (Sh : r_shape reg = Cube).
    { apply (C15_sphere_never_reaches_bounds _ _ _ _ MR). left. exists [Some (0 + t)], 0%nat, (x + t), (0 + t). repeat split. lra. }
    split; [easy|]. rewrite Sh in RL. unfold get_cube_bounds in RL. cbn [length] in RL. rewrite CR in RL.
    cbn [create_cube_bounds map map2 clip_lower clip_upper] in RL. injection RL as -> ->.
    split; f_equal; [apply Rmax_right|apply Rmin_right]; lra. }
  destruct (G 0 (1 / 2)) as (reg & M & P). destruct (G 100 (1 / 2)) as (reg' & M' & P').
  destruct P as (S & L & U); [lra|]. destruct P' as (S' & L' & U'); [lra|]. rewrite !Rplus_0_r in M. rewrite Rplus_0_r in L, U.
  exists reg, reg'. split; [exact M|]. split; [exact M'|]. repeat (split; [assumption|]).
  unfold is_on_border. rewrite S, S', L, U, L', U'. cbn [map2 existsb]. unfold isclose.
  rewrite (Rabs_right (3 / 10 - 0)), (Rabs_left (3 / 10 - 1)), (Rabs_right 1), Rabs_R0, (Rabs_right (3 / 10 + 100 - (0 + 100))),
    (Rabs_right (0 + 100)) by lra.
  split.
  - destruct (Rleb_spec (3 / 10 - 0) (/ 100000000 + / 10 * 0)); [lra|]. destruct (Rleb_spec (- (3 / 10 - 1)) (/ 100000000 + / 10 * 1)); [lra|easy].
  - destruct (Rleb_spec (3 / 10 + 100 - (0 + 100)) (/ 100000000 + / 10 * (0 + 100))); [easy|lra].
Qed.
