(** Properties C73-C75 and C117: sampling. *)
From Coq Require Import Reals List Arith ZArith Bool Lia Lra Psatz.
From Coq Require FinFun.
From Verif Require Import Base XR Vec FVec VolumeModel RegionModel Prop_Region SampleModel.
Import ListNotations.
Open Scope R_scope.

(** * Projection *)

Lemma norm_inf_nonneg x : 0 <= norm_inf x.
Proof. induction x as [|a x IH]; simpl; [lra|]. eapply Rle_trans; [exact IH|apply Rmax_r]. Qed.
Lemma norm_inf_ge x a : In a x -> Rabs a <= norm_inf x.
Proof.
  induction x as [|b x IH]; simpl; [easy|]. intros [->|H]; [apply Rmax_l|].
  eapply Rle_trans; [now apply IH|apply Rmax_r].
Qed.
Lemma norm_inf_attained x : norm_inf x <> 0 -> exists a, In a x /\ Rabs a = norm_inf x.
Proof.
  induction x as [|b x IH]; simpl; [easy|]. intros H. unfold Rmax in *.
  destruct (Rle_dec (Rabs b) (norm_inf x)); [|eauto].
  destruct (IH H) as (a & Ha & E). eauto.
Qed.
Lemma norm_zero_all x : (forall a, In a x -> a = 0) -> norm x = 0.
Proof.
  intros H. unfold norm. replace (sumsq x) with 0; [apply sqrt_0|].
  induction x as [|a x IH]; [reflexivity|]. rewrite sumsq_cons, <- IH by (intros; apply H; now right).
  rewrite (H a (or_introl eq_refl)). ring.
Qed.

Definition unit_norm (sh : shape) (x : vec) : R := match sh with Sphere => norm x | Cube => norm_inf x end.

Lemma unit_norm_zero sh x : unit_norm sh x = 0 <-> forall a, In a x -> a = 0.
Proof.
  destruct sh; cbn.
  - split; [|apply norm_zero_all]. intros H. apply sumsq_zero_inv. rewrite <- norm_sqr, H. ring.
  - split.
    + intros H a Ha. pose proof (norm_inf_ge x a Ha). pose proof (Rabs_pos a).
      destruct (Req_dec a 0); [easy|]. pose proof (Rabs_pos_lt a H2). lra.
    + intros H. destruct (Req_dec (norm_inf x) 0) as [E|E]; [easy|].
      destruct (norm_inf_attained x E) as (a & Ha & <-). rewrite (H a Ha). apply Rabs_R0.
Qed.
Lemma unit_norm_nonneg sh x : 0 <= unit_norm sh x.
Proof. destruct sh; [apply norm_nonneg|apply norm_inf_nonneg]. Qed.
Lemma unit_norm_scale sh a x : unit_norm sh (map (fun b => b / a) x) = unit_norm sh x / Rabs a.
Proof.
  destruct sh; cbn.
  - replace (map (fun b => b / a) x) with (vscale (/ a) x).
    + rewrite norm_vscale. destruct (Req_dec a 0) as [->|N].
      * unfold Rdiv. rewrite Rinv_0, Rabs_R0, Rinv_0. ring.
      * rewrite Rabs_inv. unfold Rdiv. ring.
    + unfold vscale. apply map_ext. intros; unfold Rdiv; ring.
  - induction x as [|b x IH]; simpl; [unfold Rdiv; ring|]. rewrite IH.
    unfold Rdiv. rewrite Rabs_mult, <- !(Rmult_comm (/ Rabs a)).
    replace (Rabs (/ a)) with (/ Rabs a).
    + rewrite (Rmult_comm (Rabs b)). rewrite <- RmaxRmult; [reflexivity|].
      destruct (Req_dec a 0) as [->|N]; [rewrite Rabs_R0, Rinv_0; lra|].
      left. now apply Rinv_0_lt_compat, Rabs_pos_lt.
    + destruct (Req_dec a 0) as [->|N]; [now rewrite Rabs_R0, Rinv_0, Rabs_R0|]. now rewrite Rabs_inv.
Qed.

(** A row that is not zero is projected onto the hull of the unit ball or cube. *)
Definition nonzero (x : vec) : Prop := exists a, In a x /\ a <> 0.

Lemma project_row_spec sh x : nonzero x -> exists u, project_row sh x = Some u /\
  length u = length x /\ unit_norm sh u = 1 /\ nonzero u.
Proof.
  intros (a & Ha & Na). unfold project_row. fold (unit_norm sh x).
  assert (N : unit_norm sh x <> 0).
  { intros E. apply Na. now apply (proj1 (unit_norm_zero sh x) E). }
  destruct (Reqb (unit_norm sh x) 0) eqn:E; [apply Reqb_true in E; contradiction|].
  pose proof (unit_norm_nonneg sh x). eexists. split; [reflexivity|]. split; [apply map_length|]. split.
  - rewrite unit_norm_scale, Rabs_right by lra. now apply Rinv_r.
  - exists (a / unit_norm sh x). split; [apply in_map_iff; eauto|].
    unfold Rdiv. apply Rmult_integral_contrapositive_currified; [easy|now apply Rinv_neq_0_compat].
Qed.
Lemma project_row_idem sh u : unit_norm sh u = 1 -> project_row sh u = Some u.
Proof.
  intros E. unfold project_row. fold (unit_norm sh u). rewrite E.
  destruct (Reqb 1 0) eqn:E1; [apply Reqb_true in E1; lra|]. f_equal.
  rewrite <- (map_id u) at 2. apply map_ext. intros; field.
Qed.

(** Arrays of points of dimension [n] without zero rows. *)
Definition good_rows (n : nat) (xs : list vec) : Prop := Forall (fun x => length x = n /\ nonzero x) xs.

Lemma project_good sh n xs : good_rows n xs -> exists us,
  project_onto_unit_hull sh (map Some xs) = map Some us /\ length us = length xs /\
  Forall (fun u => length u = n /\ unit_norm sh u = 1) us /\ good_rows n us.
Proof.
  induction 1 as [|x xs [L N] _ IH]; [exists []; repeat split; constructor|].
  destruct IH as (us & E & L2 & F & G). destruct (project_row_spec sh x N) as (u & Eu & Lu & Nu & Zu).
  exists (u :: us). unfold project_onto_unit_hull in *. simpl. rewrite Eu, E.
  split; [easy|]. split; [now rewrite L2|].
  split; (constructor; [split; [congruence|assumption]|assumption]).
Qed.
Lemma project_idem sh us : Forall (fun u => unit_norm sh u = 1) us ->
  project_onto_unit_hull sh (map Some us) = map Some us.
Proof.
  unfold project_onto_unit_hull. rewrite map_map. intros F. apply map_ext_in. intros u Hu.
  rewrite Forall_forall in F. simpl. now apply project_row_idem, F.
Qed.

(** * C73 - where the points are *)

(** The setting: a trust region around a feasible center. *)
Record region_ok (c : vec) (r : R) (b : option bounds) (reg : region) : Prop := {
  ro_r : 0 < r;
  ro_c : c <> [];
  ro_dim : bounds_dim (length c) b;
  ro_in : in_bounds b c;
  ro_reg : make_region c r b = Ok reg
}.

(** A point on the boundary of the region, within the bounds. *)
Definition on_hull (c : vec) (r : R) (b : option bounds) (reg : region) (y : vec) : Prop :=
  length y = length c /\ in_bounds b y /\
  (r_shape reg = Sphere -> dist y c = r) /\
  (r_shape reg = Cube -> vle (r_cube_lower reg) y /\ vle y (r_cube_upper reg) /\
     exists i yi, nth_error y i = Some yi /\
       (nth_error (r_cube_lower reg) i = Some yi \/ nth_error (r_cube_upper reg) i = Some yi)).

Lemma region_fields c r b reg : make_region c r b = Ok reg ->
  r_center reg = c /\ r_radius reg = r /\ r_bounds reg = b.
Proof.
  unfold make_region. destruct (get_shape c r b) as [sh|]; [|discriminate]. cbn [bind].
  destruct (get_cube_bounds c r b sh) as [lo up]. intros [= <-]. auto.
Qed.

Lemma sphere_dist u c r : length u = length c -> 0 <= r ->
  dist (map_from_unit_sphere u c r) c = norm u * r.
Proof.
  intros L Hr. unfold dist, map_from_unit_sphere.
  replace (vsub (map2 (fun xi c0 => xi * r + c0) u c) c) with (vscale r u).
  - rewrite norm_vscale, Rabs_right by lra. ring.
  - revert c L. induction u as [|a u IH]; intros [|b c] L; try easy. cbn in *.
    unfold vsub in IH. rewrite <- IH by lia. f_equal. ring.
Qed.

Lemma unit_to_hull c r b reg u : region_ok c r b reg -> length u = length c ->
  unit_norm (r_shape reg) u = 1 -> on_hull c r b reg (map_from_unit reg u).
Proof.
  intros [Hr Hc D IB M] L N. destruct (region_fields _ _ _ _ M) as (C1 & C2 & _).
  unfold on_hull. destruct (r_shape reg) eqn:S; cbn in N.
  - assert (DE : dist (map_from_unit reg u) c = r).
    { unfold map_from_unit. rewrite S, C1, C2, sphere_dist by (auto; lra). rewrite N. ring. }
    assert (LE : length (map_from_unit reg u) = length c).
    { unfold map_from_unit. rewrite S, C1. unfold map_from_unit_sphere. rewrite map2_length. lia. }
    split; [easy|]. split; [|split; [easy|discriminate]].
    destruct (C15_sphere_never_reaches_bounds c r b reg M) as [B _]. apply B; auto. lra.
  - destruct (C17_map_from_unit_cube_in_bounds c r b reg u Hr Hc D IB M S L) as (L2 & V1 & V2 & V3).
    split; [easy|]. split; [easy|]. split; [discriminate|]. intros _. split; [easy|]. split; [easy|].
    destruct (norm_inf_attained u ltac:(lra)) as (a & Ha & Ea). rewrite N in Ea.
    apply In_nth_error in Ha as [i Hi].
    destruct (region_cube_length c r b reg D M) as [LL LU].
    assert (Hl : (i < length u)%nat) by (apply nth_error_Some; congruence).
    destruct (nth_error (r_cube_lower reg) i) as [lo|] eqn:El; [|apply nth_error_None in El; lia].
    destruct (nth_error (r_cube_upper reg) i) as [up|] eqn:Eu; [|apply nth_error_None in Eu; lia].
    destruct (C14_cube_inside_bounds_contains_center c r b reg Hr Hc D IB M S) as (_ & _ & I1 & I2 & _).
    destruct (nth_error c i) as [ci|] eqn:Ec; [|apply nth_error_None in Ec; lia].
    pose proof (I1 _ _ _ El Ec). pose proof (I2 _ _ _ Ec Eu).
    assert (EY : nth_error (map_from_unit reg u) i = Some (Rmin up (Rmax ((up - lo) * (a + 1) / 2 + lo) lo))).
    { unfold map_from_unit. rewrite S. unfold vclip, map_from_unit_cube. clear - El Eu Hi.
      revert El Eu Hi. generalize (r_cube_lower reg) as l1, (r_cube_upper reg) as l2.
      revert i. induction u as [|x u IH]; intros [|i] [|p l1] [|q l2]; simpl; try discriminate.
      - now intros [= ->] [= ->] [= ->].
      - apply IH. }
    exists i. eexists. split; [exact EY|]. unfold Rabs in Ea. destruct (Rcase_abs a).
    + left. rewrite El. assert (a = -1) by lra. subst a. f_equal.
      replace ((up - lo) * (-1 + 1) / 2 + lo) with lo by field.
      rewrite Rmax_left, Rmin_right; lra.
    + right. rewrite Eu. subst a. f_equal.
      replace ((up - lo) * (1 + 1) / 2 + lo) with up by field.
      rewrite Rmax_left, Rmin_left; lra.
Qed.

Lemma map_rows_some reg us : map_rows_from_unit reg (map Some us) = map Some (map (map_from_unit reg) us).
Proof. unfold map_rows_from_unit. now rewrite !map_map. Qed.

Theorem C73_hull_sampler :
  forall c r b reg rng n_points d,
    region_ok c r b reg -> d <> Some OtherDistribution ->
    (forall d n, length (rng d n (length c)) = n /\ good_rows (length c) (rng d n (length c))) ->
    exists ys, hull_sampler rng reg n_points d = Ok (map Some ys) /\
      length ys = n_points /\ Forall (on_hull c r b reg) ys.
Proof.
  intros c r b reg rng n_points d RO ND HR. unfold hull_sampler.
  destruct (region_fields _ _ _ _ (ro_reg _ _ _ _ RO)) as (C1 & _). rewrite C1.
  set (dd := default_distribution d (r_shape reg)).
  assert (E : draw_from_distribution (fun d0 => rng d0 n_points (length c)) dd = Ok (rng dd n_points (length c))).
  { unfold dd, default_distribution. destruct d as [[| |]|]; try easy. now destruct (r_shape reg). }
  rewrite E. cbn [bind]. destruct (HR dd n_points) as [L G].
  destruct (project_good (r_shape reg) _ _ G) as (us & -> & L2 & F & _).
  exists (map (map_from_unit reg) us). rewrite map_rows_some. split; [easy|].
  rewrite map_length, L2. split; [easy|]. apply Forall_map. eapply Forall_impl; [|exact F].
  intros u [Lu Nu]. now apply unit_to_hull.
Qed.

Lemma root_le1 n a : 0 <= a <= 1 -> (n <> 0)%nat -> 0 <= root n a <= 1.
Proof.
  intros Ha Hn. unfold root. destruct (Reqb a 0) eqn:E; [lra|]. apply Reqb_false in E.
  assert (0 < a) by lra. assert (0 < INR n) by (apply lt_0_INR; lia).
  split; [left; apply exp_pos|]. unfold Rpower. rewrite <- exp_0.
  assert (ln a <= 0) by (rewrite <- ln_1; destruct (Req_dec a 1) as [->|]; [lra|]; left; apply ln_increasing; lra).
  assert (0 < / INR n) by now apply Rinv_0_lt_compat.
  destruct (Req_dec (/ INR n * ln a) 0) as [->|N]; [lra|]. left. apply exp_increasing. nra.
Qed.

(** The points of the interior samplers lie in the region and within the bounds. *)
Theorem C73_interior_sampler :
  forall c r b reg gammainc n_points normal uniform,
    region_ok c r b reg ->
    (forall a x, 0 <= gammainc a x <= 1) ->
    (forall n, length (normal n (length c)) = n /\ good_rows (length c) (normal n (length c))) ->
    (forall lo up n, vle lo up -> length lo = length up -> length (uniform lo up n) = n /\
       Forall (fun x => length x = length lo /\ vle lo x /\ vle x up) (uniform lo up n)) ->
    exists ys, interior_sampler gammainc reg n_points normal uniform = map Some ys /\
      length ys = n_points /\
      Forall (fun y => length y = length c /\ in_bounds b y /\
        match r_shape reg with
        | Sphere => dist y c <= r
        | Cube => vle (r_cube_lower reg) y /\ vle y (r_cube_upper reg)
        end) ys.
Proof.
  intros c r b reg gammainc n_points normal uniform RO HG HN HU.
  pose proof (ro_reg _ _ _ _ RO) as M. destruct (region_fields _ _ _ _ M) as (C1 & C2 & _).
  assert (Nc : length c <> 0%nat) by (pose proof (ro_c _ _ _ _ RO); now destruct c).
  unfold interior_sampler. destruct (r_shape reg) eqn:S.
  - unfold ball_sampler. rewrite C1. destruct (HN n_points) as [L G].
    assert (P : exists us, map (ball_row gammainc (length c)) (normal n_points (length c)) = map Some us /\
      length us = n_points /\ Forall (fun u => length u = length c /\ norm u <= 1) us).
    { revert L G. generalize (normal n_points (length c)). intros raw L G. rewrite <- L. clear L.
      induction G as [|x xs [Lx Nx] _ IH]; [exists []; repeat split; constructor|].
      destruct IH as (us & E & L2 & F). simpl. unfold ball_row at 1.
      assert (N : norm x <> 0).
      { intros E0. destruct Nx as (a & Ha & Na). apply Na.
        now apply (proj1 (unit_norm_zero Sphere x) E0). }
      destruct (Reqb (norm x) 0) eqn:E0; [apply Reqb_true in E0; contradiction|].
      set (s := root _ _ / norm x). exists (map (fun a => a * s) x :: us). rewrite E. simpl.
      split; [easy|]. split; [now rewrite L2|]. constructor; [|easy]. rewrite map_length. split; [easy|].
      replace (map (fun a => a * s) x) with (vscale s x).
      2:{ unfold vscale. apply map_ext. intros; ring. }
      rewrite norm_vscale. pose proof (norm_nonneg x).
      destruct (root_le1 (length c) (gammainc (INR (length c) / 2) (norm x * norm x / 2)) (HG _ _) Nc) as [R1 R2].
      unfold s. rewrite Rabs_right.
      - unfold Rdiv. rewrite Rmult_assoc, Rinv_l by easy. lra.
      - apply Rle_ge, Rmult_le_pos; [easy|]. left. apply Rinv_0_lt_compat. lra. }
    destruct P as (us & -> & L2 & F). rewrite map_rows_some. eexists. split; [reflexivity|].
    rewrite map_length. split; [easy|]. apply Forall_map. eapply Forall_impl; [|exact F]. cbn. clear F.
    intros u [Lu Nu]. unfold map_from_unit. rewrite S, C1, C2.
    assert (LE : length (map_from_unit_sphere u c r) = length c).
    { unfold map_from_unit_sphere. rewrite map2_length. lia. }
    assert (DE : dist (map_from_unit_sphere u c r) c <= r).
    { pose proof (ro_r _ _ _ _ RO). rewrite sphere_dist by (auto; lra). nra. }
    split; [easy|]. split; [|easy].
    destruct (C15_sphere_never_reaches_bounds c r b reg M) as [B _]. now apply B.
  - destruct (C14_cube_inside_bounds_contains_center c r b reg (ro_r _ _ _ _ RO) (ro_c _ _ _ _ RO)
      (ro_dim _ _ _ _ RO) (ro_in _ _ _ _ RO) M S) as (B1 & B2 & I1 & I2 & _).
    destruct (region_cube_length c r b reg (ro_dim _ _ _ _ RO) M) as [LL LU].
    unfold box_sampler. destruct (HU (r_cube_lower reg) (r_cube_upper reg) n_points) as [L F]; [|congruence|].
    { intros i lo up Hl Hu. destruct (nth_error c i) as [ci|] eqn:Ec.
      - pose proof (I1 _ _ _ Hl Ec). pose proof (I2 _ _ _ Ec Hu). lra.
      - apply nth_error_None in Ec. assert (i < length (r_cube_lower reg))%nat by (apply nth_error_Some; congruence). lia. }
    eexists. split; [reflexivity|]. split; [easy|]. eapply Forall_impl; [|exact F]. cbn.
    intros y (Ly & V1 & V2). split; [congruence|]. split; [|easy].
    destruct b as [b|]; [|exact I]. destruct B1 as [B1 _], B2 as [_ B2]. split.
    + intros l i xi li Hl Hx Hli. destruct (nth_error (r_cube_lower reg) i) as [lo|] eqn:El.
      * pose proof (V1 _ _ _ El Hx). pose proof (B1 _ _ _ _ Hl El Hli). lra.
      * apply nth_error_None in El. assert (i < length y)%nat by (apply nth_error_Some; congruence). lia.
    + intros l i xi ui Hu Hx Hui. destruct (nth_error (r_cube_upper reg) i) as [up|] eqn:El.
      * pose proof (V2 _ _ _ Hx El). pose proof (B2 _ _ _ _ Hu El Hui). lra.
      * apply nth_error_None in El. assert (i < length y)%nat by (apply nth_error_Some; congruence). lia.
Qed.

(** Examples: a sphere, and a cube at the lower bound. *)
Definition ex_bounds : option bounds := Some (mkBounds (Some [Some 0; Some 0]) (Some [Some 10; Some 10])).
Lemma ex_region_ok x : 0 <= x <= 10 -> exists reg, region_ok [x; 5] 1 ex_bounds reg.
Proof.
  intros Hx.
  assert (D : bounds_dim (length [x; 5]) ex_bounds) by (split; intros l [= <-]; reflexivity).
  destruct (C18_one_sided_bounds_partial [x; 5] 1 ex_bounds ltac:(discriminate) D
    ltac:(split; discriminate)) as [reg M].
  exists reg. split; auto; [lra|discriminate|].
  split; intros l [|[|i]] xi li [= <-]; cbn; try (destruct i; discriminate);
    intros [= <-] [= <-]; lra.
Qed.
Definition ex_rng : distribution -> nat -> nat -> list vec := fun _ n p => repeat (repeat 1 p) n.
Lemma ex_rng_good d n p : (p <> 0)%nat -> length (ex_rng d n p) = n /\ good_rows p (ex_rng d n p).
Proof.
  intros Hp. unfold ex_rng, good_rows. split; [apply repeat_length|]. apply Forall_forall. intros x Hx.
  apply repeat_spec in Hx. subst. split; [apply repeat_length|]. exists 1. split; [|lra].
  destruct p; [easy|]. simpl. auto.
Qed.

(** * C74 - the optimal hull sampler *)

Definition strict_bounds (b : option bounds) : Prop :=
  forall B l u i li ui, b = Some B -> b_lower B = Some l -> b_upper B = Some u ->
    nth_error l i = Some (Some li) -> nth_error u i = Some (Some ui) -> li < ui.

(** The existing points that enter the criterion, in coordinates of the unit region. *)
Definition considered (reg : region) (existing : option (list vec)) (c : sampling_criterion) : list vec :=
  match existing, c with
  | None, _ => []
  | Some xs, CritDeterminant => map (map_to_unit reg) xs
  | Some xs, CritDistance => filter (fun x => Rleb (1 / 10) (norm x)) (map (map_to_unit reg) xs)
  end.
(** The Fekete criterion of the points [us] together with the points [E]. *)
Definition fekete (n : nat) (E us : list vec) : R := fdet n (gram (us ++ E) (length us)).

Lemma not_degenerate c r b reg x : region_ok c r b reg -> strict_bounds b ->
  row_to_unit reg x = Some (map_to_unit reg x).
Proof.
  intros [Hr Hc D IB M] SB. unfold row_to_unit. destruct (region_fields _ _ _ _ M) as (_ & C2 & _).
  destruct (r_shape reg) eqn:S.
  - rewrite C2. destruct (Reqb r 0) eqn:E; [apply Reqb_true in E; lra|easy].
  - destruct (existsb _ _) eqn:E; [|easy]. exfalso. apply existsb_exists in E as ([lo up] & Hin & E).
    apply Reqb_true in E. apply In_nth_error in Hin as [i Hi].
    assert (G : forall (l1 l2 : vec) i, nth_error (combine l1 l2) i = Some (lo, up) ->
      nth_error l1 i = Some lo /\ nth_error l2 i = Some up).
    { clear. induction l1 as [|a l1 IH]; intros [|b l2] [|i]; simpl; try discriminate.
      - intros [= -> ->]; auto. - apply IH. }
    apply G in Hi as [H1 H2].
    pose proof (C14_cube_not_degenerate c r b reg Hr Hc D IB SB M S i lo up H1 H2). lra.
Qed.
Lemma all_rows_some us : all_rows (map Some us) = Some us.
Proof. induction us as [|u us IH]; [easy|]. simpl. now rewrite IH. Qed.

Lemma existing_spec c r b reg ex crit : region_ok c r b reg -> strict_bounds b ->
  stack [] (existing_in_unit_space reg ex crit) = map Some (considered reg ex crit).
Proof.
  intros RO SB. unfold existing_in_unit_space, considered. destruct ex as [xs|]; [|easy].
  assert (E : map (row_to_unit reg) xs = map Some (map (map_to_unit reg) xs)).
  { rewrite map_map. apply map_ext. intros x. now apply (not_degenerate c r b). }
  destruct crit; rewrite E; [easy|].
  set (f := fun o : option (list R) => match o with Some x => Rleb (1 / 10) (norm x) | None => false end).
  assert (F : forall l, filter f (map Some l) = map Some (filter (fun x => Rleb (1 / 10) (norm x)) l)).
  { induction l as [|a l IH]; [easy|]. simpl. destruct (Rleb _ _); simpl; now rewrite IH. }
  fold f. rewrite F. destruct (filter _ _); reflexivity.
Qed.

Lemma determinant_fin c r b reg ex crit us n : region_ok c r b reg -> strict_bounds b ->
  Forall (fun u => unit_norm (r_shape reg) u = 1) us ->
  determinant_on_hull (map Some us) (existing_in_unit_space reg ex crit) (r_shape reg) n
  = Fin (fekete n (considered reg ex crit) us).
Proof.
  intros RO SB F. unfold determinant_on_hull, fekete. rewrite (project_idem _ _ F), map_length.
  pose proof (existing_spec c r b reg ex crit RO SB) as E.
  assert (S : stack (map Some us) (existing_in_unit_space reg ex crit) = map Some (us ++ considered reg ex crit)).
  { rewrite map_app, <- E. unfold stack. destruct (existing_in_unit_space reg ex crit); [easy|].
    now rewrite app_nil_r. }
  now rewrite S, all_rows_some.
Qed.

Lemma determinant_project sh n E xs us : project_onto_unit_hull sh (map Some xs) = map Some us ->
  Forall (fun u => unit_norm sh u = 1) us -> length us = length xs ->
  determinant_on_hull (map Some xs) E sh n = determinant_on_hull (map Some us) E sh n.
Proof.
  intros P F L. unfold determinant_on_hull. rewrite P, (project_idem _ _ F), !map_length, L. reflexivity.
Qed.

Lemma xargmax_fin l : l <> [] -> exists k a, xargmax (map Fin l) = Ok k /\ nth_error l k = Some a /\
  forall q, In q l -> q <= a.
Proof.
  destruct l as [|a0 l]; [easy|]. intros _. cbn [map xargmax].
  assert (G : forall l pre k b, nth_error (pre ++ l) k = Some b -> (forall q, In q pre -> q <= b) ->
    (k < length pre)%nat ->
    exists a, nth_error (pre ++ l) (xargmax_from (length pre) k (Fin b) (map Fin l)) = Some a /\
      forall q, In q (pre ++ l) -> q <= a).
  { clear. induction l as [|x l IH]; intros pre k b Hk Hm Hl; cbn [map xargmax_from].
    - exists b. rewrite app_nil_r in *. auto.
    - cbn [isnan]. unfold xgt, xlt.
      replace (pre ++ x :: l) with ((pre ++ [x]) ++ l) in * by now rewrite <- app_assoc.
      replace (S (length pre)) with (length (pre ++ [x])) by (rewrite app_length; simpl; lia).
      assert (Hpx : nth_error (pre ++ [x]) k = nth_error ((pre ++ [x]) ++ l) k).
      { symmetry. apply nth_error_app1. rewrite app_length. lia. }
      destruct (Rltb b x) eqn:E; [apply Rltb_true in E|apply Rltb_false in E]; apply IH.
      + rewrite <- app_assoc. rewrite nth_error_app2, Nat.sub_diag by lia. reflexivity.
      + intros q Hq. apply in_app_or in Hq as [Hq|[<-|[]]]; [|lra]. specialize (Hm _ Hq). lra.
      + rewrite app_length. simpl. lia.
      + exact Hk.
      + intros q Hq. apply in_app_or in Hq as [Hq|[<-|[]]]; [now apply Hm|lra].
      + rewrite app_length. lia. }
  destruct (G l [a0] 0%nat a0 eq_refl) as (a & Ha & Hm).
  - intros q [<-|[]]. lra.
  - simpl. lia.
  - exists (xargmax_from 1 0 (Fin a0) (map Fin l)), a. auto.
Qed.

(** For every optimizer that does not return a zero row: the sampler returns [n_points] points
    on the hull; their Fekete criterion is at least that of the start sample, which is the
    best of all samples drawn. *)
Theorem C74_optimal_sample_partial :
  forall c r b reg rng optimize n_points d hardness crit n_search existing,
    region_ok c r b reg -> strict_bounds b -> d <> Some OtherDistribution ->
    (1 <= n_search)%nat -> (1 <= n_points)%nat ->
    (forall d s n, length (rng d s n (length c)) = s /\
       Forall (fun xs => length xs = n /\ good_rows (length c) xs) (rng d s n (length c))) ->
    (forall f x0, exists xs, optimize f x0 = Ok (map Some xs) /\ length xs = length x0 /\
       good_rows (length c) xs) ->
    exists us start drawn,
      optimal_hull_sampler rng optimize reg (Z.of_nat n_points) d hardness crit n_search existing
        = Ok (map Some (map (map_from_unit reg) us)) /\
      length us = n_points /\ Forall (on_hull c r b reg) (map (map_from_unit reg) us) /\
      (* the samples drawn, projected onto the hull *)
      map (map Some) drawn = map (fun xs => project_onto_unit_hull (r_shape reg) (map Some xs))
        (rng (default_distribution d (r_shape reg)) n_search n_points (length c)) /\
      let E := considered reg existing (default_criterion crit n_points) in
      In start drawn /\
      fekete (length c) E start <= fekete (length c) E us /\
      (n_search <> 1%nat -> forall xs, In xs drawn -> fekete (length c) E xs <= fekete (length c) E start).
Proof.
  intros c r b reg rng optimize n_points d hardness crit n_search existing RO SB ND HS HN HR HO.
  unfold optimal_hull_sampler, optimal_hull_info.
  destruct (region_fields _ _ _ _ (ro_reg _ _ _ _ RO)) as (C1 & _). rewrite C1, Nat2Z.id.
  replace (Z.of_nat n_points <=? 0)%Z with false by (symmetry; apply Z.leb_gt; lia).
  set (cr := default_criterion crit n_points). set (ex := existing_in_unit_space reg existing cr).
  set (sh := r_shape reg) in *. set (dd := default_distribution d sh).
  assert (ED : forall A (f : distribution -> A), draw_from_distribution f dd = Ok (f dd)).
  { intros A f. unfold dd, default_distribution. destruct d as [[| |]|]; try easy. now destruct sh. }
  rewrite ED. cbn [bind]. destruct (HR dd n_search n_points) as [L F].
  set (draws := rng dd n_search n_points (length c)) in *.
  assert (P : exists drawn, map (map Some) drawn = map (fun xs => project_onto_unit_hull sh (map Some xs)) draws /\
    length drawn = length draws /\
    Forall (fun us => length us = n_points /\ Forall (fun u => length u = length c /\ unit_norm sh u = 1) us /\
                      good_rows (length c) us) drawn).
  { clear L. induction F as [|xs draws' [Lx G] _ IH]; [exists []; repeat split; constructor|].
    destruct IH as (drawn & E & L2 & F2). destruct (project_good sh _ _ G) as (us & Eu & Lu & Fu & Gu).
    exists (us :: drawn). cbn [map]. rewrite Eu, E. split; [easy|]. split; [simpl; now rewrite L2|].
    constructor; [|easy]. split; [congruence|]. auto. }
  destruct P as (drawn & EP & LD & FD). rewrite L in LD.
  assert (UN : forall us, In us drawn -> Forall (fun u => unit_norm sh u = 1) us).
  { intros us Hu. rewrite Forall_forall in FD. destruct (FD us Hu) as (_ & Fu & _).
    eapply Forall_impl; [|exact Fu]. intros u [_ H]. exact H. }
  assert (ST : exists start, random_search sh ex (length c) n_search draws = Ok (map Some start) /\
    In start drawn /\
    (n_search <> 1%nat -> forall xs, In xs drawn ->
      fekete (length c) (considered reg existing cr) xs <= fekete (length c) (considered reg existing cr) start)).
  { unfold random_search. rewrite <- EP. destruct (Nat.eqb n_search 1) eqn:E1.
    - apply Nat.eqb_eq in E1. destruct drawn as [|u drawn]; [simpl in LD; lia|].
      exists u. split; [easy|]. split; [now left|]. easy.
    - assert (EM : map (fun x => determinant_on_hull x ex sh (length c)) (map (map Some) drawn)
        = map Fin (map (fekete (length c) (considered reg existing cr)) drawn)).
      { rewrite !map_map. apply map_ext_in. intros us Hu. apply (determinant_fin c r b); auto. }
      rewrite EM. destruct (xargmax_fin (map (fekete (length c) (considered reg existing cr)) drawn))
        as (k & a & -> & Hk & Hm).
      { destruct drawn; [simpl in LD; lia|discriminate]. }
      cbn [bind]. rewrite nth_error_map in Hk |- *.
      destruct (nth_error drawn k) as [start|] eqn:Es; [|discriminate]. cbn in Hk |- *. injection Hk as <-.
      exists start. split; [easy|]. split; [now apply nth_error_In in Es|]. intros _ xs Hx. apply Hm. now apply in_map. }
  destruct ST as (start & -> & Hs & Hbest). cbn [bind].
  rewrite Forall_forall in FD. destruct (FD start Hs) as (Ls & Fs & Gs).
  set (cf := fun x => match cr with CritDeterminant => _ | CritDistance => _ end).
  match goal with |- context [bind ?m _] =>
    lazymatch m with context [bind] => fail | _ =>
      assert (OP : exists opt, m = Ok (map Some opt) /\ length opt = n_points /\ good_rows (length c) opt)
    end
  end.
  { destruct (HO cf (map Some start)) as (xs & E & Lx & G). rewrite map_length, Ls in Lx.
    destruct ex; [eauto|]. destruct (Nat.eqb n_points 1); eauto. }
  destruct OP as (opt & -> & Lo & Go). cbn [bind].
  destruct (project_good sh _ _ Go) as (uo & Eo & Luo & Fuo & _).
  assert (Fuo1 : Forall (fun u => unit_norm sh u = 1) uo) by (eapply Forall_impl; [|exact Fuo]; intros u [_ H]; exact H).
  rewrite (determinant_project sh (length c) ex opt uo Eo Fuo1 Luo).
  unfold ex. rewrite (determinant_fin c r b reg existing cr start); auto.
  unfold sh. rewrite (determinant_fin c r b reg existing cr uo); auto. fold sh.
  unfold xge, xle.
  destruct (Rleb _ _) eqn:EC; [apply Rleb_true in EC|apply Rleb_false in EC].
  - exists start, start, drawn. rewrite (project_idem sh start (UN _ Hs)), map_rows_some.
    split; [easy|]. split; [easy|]. split.
    { apply Forall_map. eapply Forall_impl; [|exact Fs]. intros u [Lu Nu]. now apply unit_to_hull. }
    split; [easy|]. split; [easy|]. split; [lra|]. exact Hbest.
  - exists uo, start, drawn. rewrite Eo, map_rows_some. split; [easy|]. split; [congruence|]. split.
    { apply Forall_map. eapply Forall_impl; [|exact Fuo]. intros u [Lu Nu]. now apply unit_to_hull. }
    split; [easy|]. split; [easy|]. split; [lra|]. exact Hbest.
Qed.

(** The points of the optimal hull sampler lie on the hull as well. *)
Theorem C73_optimal_hull_partial :
  forall c r b reg rng optimize n_points d hardness crit n_search existing,
    region_ok c r b reg -> strict_bounds b -> d <> Some OtherDistribution ->
    (1 <= n_search)%nat -> (1 <= n_points)%nat ->
    (forall d s n, length (rng d s n (length c)) = s /\
       Forall (fun xs => length xs = n /\ good_rows (length c) xs) (rng d s n (length c))) ->
    (forall f x0, exists xs, optimize f x0 = Ok (map Some xs) /\ length xs = length x0 /\
       good_rows (length c) xs) ->
    exists ys, optimal_hull_sampler rng optimize reg (Z.of_nat n_points) d hardness crit n_search existing
        = Ok (map Some ys) /\ length ys = n_points /\ Forall (on_hull c r b reg) ys.
Proof.
  intros c r b reg rng optimize n_points d hardness crit n_search existing RO SB ND HS HN HR HO.
  destruct (C74_optimal_sample_partial c r b reg rng optimize n_points d hardness crit n_search existing
    RO SB ND HS HN HR HO) as (us & start & drawn & E & L & F & _).
  exists (map (map_from_unit reg) us). rewrite map_length. auto.
Qed.

(** No points are returned if none are asked for. *)
Theorem C74_no_points :
  forall rng optimize reg n_points d hardness crit n_search existing, (n_points <= 0)%Z ->
    optimal_hull_sampler rng optimize reg n_points d hardness crit n_search existing = Ok [].
Proof.
  intros. unfold optimal_hull_sampler, optimal_hull_info.
  now replace (n_points <=? 0)%Z with true by (symmetry; now apply Z.leb_le).
Qed.

(** ** Instances *)

Example C73_instance : exists reg ys, region_ok [5; 5] 1 ex_bounds reg /\
  hull_sampler ex_rng reg 3 None = Ok (map Some ys) /\ length ys = 3%nat /\
  Forall (on_hull [5; 5] 1 ex_bounds reg) ys.
Proof.
  destruct (ex_region_ok 5 ltac:(lra)) as [reg RO]. exists reg.
  destruct (C73_hull_sampler [5; 5] 1 ex_bounds reg ex_rng 3 None RO ltac:(discriminate)) as (ys & E & L & F).
  - intros d' n. now apply (ex_rng_good d' n 2).
  - eauto.
Qed.
Example C73_interior_instance : exists reg ys, region_ok [0; 5] 1 ex_bounds reg /\
  interior_sampler (fun _ _ => 1 / 2) reg 3 (fun n p => ex_rng Normal n p)
    (fun lo up n => repeat lo n) = map Some ys /\ length ys = 3%nat.
Proof.
  destruct (ex_region_ok 0 ltac:(lra)) as [reg RO]. exists reg.
  destruct (C73_interior_sampler [0; 5] 1 ex_bounds reg (fun _ _ => 1 / 2) 3 (fun n p => ex_rng Normal n p)
    (fun lo up n => repeat lo n) RO) as (ys & E & L & _); eauto.
  - intros; lra.
  - intros n. now apply (ex_rng_good Normal n 2).
  - intros lo up n Hl _. split; [apply repeat_length|]. apply Forall_forall. intros x Hx.
    apply repeat_spec in Hx. subst x. split; [easy|]. split; [|exact Hl]. intros i p q E1 E2. rewrite E1 in E2. injection E2 as ->. lra.
Qed.

Definition ex_rng4 : distribution -> nat -> nat -> nat -> list (list vec) :=
  fun d s n p => repeat (ex_rng d n p) s.
Definition ex_optimize : (rows -> res xr) -> rows -> res rows :=
  fun _ x0 => Ok (map Some (repeat [1; -1] (length x0))).
Lemma ex_strict : strict_bounds ex_bounds.
Proof.
  intros B l u [|[|i]] li ui [= <-] [= <-] [= <-]; cbn; try (destruct i; discriminate);
    intros [= <-] [= <-]; lra.
Qed.
Lemma ex_rng4_good d s n : length (ex_rng4 d s n 2) = s /\
  Forall (fun xs => length xs = n /\ good_rows 2 xs) (ex_rng4 d s n 2).
Proof.
  unfold ex_rng4. split; [apply repeat_length|]. apply Forall_forall. intros xs Hx.
  apply repeat_spec in Hx. subst. now apply ex_rng_good.
Qed.
Example C74_instance : exists reg us,
  region_ok [0; 5] 1 ex_bounds reg /\
  optimal_hull_sampler ex_rng4 ex_optimize reg 2 None 1 None 3 (Some [[0; 5]; [1; 6]])
    = Ok (map Some (map (map_from_unit reg) us)) /\ length us = 2%nat /\
  Forall (on_hull [0; 5] 1 ex_bounds reg) (map (map_from_unit reg) us).
Proof.
  destruct (ex_region_ok 0 ltac:(lra)) as [reg RO]. exists reg.
  destruct (C74_optimal_sample_partial [0; 5] 1 ex_bounds reg ex_rng4 ex_optimize
    2 None 1 None 3 (Some [[0; 5]; [1; 6]]) RO ex_strict ltac:(discriminate) ltac:(lia) ltac:(lia))
    as (us & start & drawn & E & L & F & _); eauto.
  - intros d s n. apply (ex_rng4_good d s n).
  - intros f x0. exists (repeat [1; -1] (length x0)). split; [easy|]. split; [apply repeat_length|].
    apply Forall_forall. intros x Hx. apply repeat_spec in Hx. subst x. split; [easy|].
    exists 1. split; [now left|lra].
Qed.

(** An optimizer that returns a zero row: its criterion is NaN, the start sample is therefore
    not preferred, and the points returned are NaN. *)
Theorem C74_nan_points_refuted : exists reg rng optimize zs,
  region_ok [0; 5] 1 ex_bounds reg /\ strict_bounds ex_bounds /\
  (forall d s n, length (rng d s n 2%nat) = s /\
     Forall (fun xs => length xs = n /\ good_rows 2 xs) (rng d s n 2%nat)) /\
  (forall f, optimize f (project_onto_unit_hull (r_shape reg) [Some [1; 1]; Some [1; 1]]) = Ok (map Some zs)) /\
  Forall (fun z => length z = 2%nat) zs /\
  optimal_hull_sampler rng optimize reg 2 None 1 None 1 None = Ok [None; None].
Proof.
  destruct (ex_region_ok 0 ltac:(lra)) as [reg RO].
  exists reg, ex_rng4, (fun _ _ => Ok [Some [0; 0]; Some [0; 0]]), [[0; 0]; [0; 0]].
  split; [exact RO|]. split; [exact ex_strict|]. split; [intros; apply ex_rng4_good|].
  split; [easy|]. split; [repeat constructor|].
  assert (Z : project_onto_unit_hull (r_shape reg) [Some [0; 0]; Some [0; 0]] = [None; None]).
  { assert (P : project_row (r_shape reg) [0; 0] = None).
    { assert (N : forall sh, unit_norm sh [0; 0] = 0) by (intros sh; apply unit_norm_zero; intros a [<-|[<-|[]]]; easy).
      unfold project_row. pose proof (N (r_shape reg)) as N'. destruct (r_shape reg); cbn [unit_norm] in N'; rewrite N';
        (destruct (Reqb 0 0) eqn:E0; [easy|]; apply Reqb_false in E0; lra). }
    unfold project_onto_unit_hull. cbn. now rewrite P. }
  unfold optimal_hull_sampler, optimal_hull_info.
  destruct (region_fields _ _ _ _ (ro_reg _ _ _ _ RO)) as (C1 & _). rewrite C1.
  assert (D : exists us, determinant_on_hull (map Some us) None (r_shape reg) 2 = NaN /\ us = [[0;0];[0;0]]).
  { exists [[0;0];[0;0]]. split; [|easy]. unfold determinant_on_hull. cbn [map]. rewrite Z. reflexivity. }
  destruct D as (us & D & ->). cbn [map] in D.
  change (2 <=? 0)%Z with false. cbn iota. change (Z.to_nat 2) with 2%nat.
  cbn [default_criterion Nat.eqb existing_in_unit_space].
  assert (ED : forall A (f : distribution -> A), draw_from_distribution f (default_distribution None (r_shape reg))
    = Ok (f (default_distribution None (r_shape reg)))) by (intros; now destruct (r_shape reg)).
  rewrite ED. cbn [bind random_search Nat.eqb]. unfold ex_rng4 at 1. cbn [repeat map bind].
  change (length [0; 5]) with 2%nat. rewrite D.
  match goal with |- context [xge ?a NaN] => replace (xge a NaN) with false by now destruct a end.
  rewrite Z. reflexivity.
Qed.

(** The same witness against C73 for all inner optimizers: the draws are nonzero, and yet the
    sampler returns rows that are no points at all. *)
Theorem C73_optimal_hull_refuted : exists reg rng optimize,
  region_ok [0; 5] 1 ex_bounds reg /\ strict_bounds ex_bounds /\
  (forall d s n, length (rng d s n 2%nat) = s /\
     Forall (fun xs => length xs = n /\ good_rows 2 xs) (rng d s n 2%nat)) /\
  ~ exists ys, optimal_hull_sampler rng optimize reg 2 None 1 None 1 None = Ok (map Some ys) /\
      Forall (on_hull [0; 5] 1 ex_bounds reg) ys.
Proof.
  destruct C74_nan_points_refuted as (reg & rng & opt & zs & RO & S & D & _ & _ & E).
  exists reg, rng, opt. split; [exact RO|]. split; [exact S|]. split; [exact D|].
  intros (ys & E' & _). rewrite E in E'. injection E' as E'. now destruct ys.
Qed.

(** * C75 - which pairs of points enter the distance criterion *)

(** All pairs of positions i < j below [n], in the order of scipy.spatial.distance.pdist *)
Definition pairs (n : nat) : list (nat * nat) :=
  flat_map (fun i => map (pair i) (seq (S i) (n - S i))) (seq 0 n).
Definition distance_at (s : rows) (p : nat * nat) : xr :=
  match nth_error s (fst p), nth_error s (snd p) with
  | Some (Some x), Some (Some y) => Fin (dist x y)
  | _, _ => NaN
  end.

Lemma in_pairs n i j : In (i, j) (pairs n) <-> (i < j < n)%nat.
Proof.
  unfold pairs. rewrite in_flat_map. split.
  - intros (k & Hk & Hi). apply in_map_iff in Hi as (j' & [= -> ->] & Hj).
    apply in_seq in Hk, Hj. lia.
  - intros H. exists i. rewrite in_seq. split; [lia|]. apply in_map. apply in_seq. lia.
Qed.
Lemma pairs_nodup n : NoDup (pairs n).
Proof.
  unfold pairs. assert (G : forall l, NoDup l -> NoDup (flat_map (fun i => map (pair i) (seq (S i) (n - S i))) l)).
  { induction 1 as [|i l Hi _ IH]; [constructor|]. cbn [flat_map].
    assert (A : forall (l1 l2 : list (nat * nat)), NoDup l1 -> NoDup l2 -> (forall x, In x l1 -> ~ In x l2) -> NoDup (l1 ++ l2)).
    { clear. induction l1 as [|a l1 IH]; intros l2 N1 N2 D; [easy|]. inversion N1; subst. simpl. constructor.
      - intros H. apply in_app_or in H as [H|H]; [easy|]. now apply (D a); [left|].
      - apply IH; auto. intros x Hx. apply D. now right. }
    apply A; auto.
    - apply FinFun.Injective_map_NoDup; [intros a b [= ->]; easy|apply seq_NoDup].
    - intros [a b] Ha Hb. apply in_map_iff in Ha as (j & [= <- <-] & _).
      apply in_flat_map in Hb as (k & Hk & Hb). apply in_map_iff in Hb as (j' & [= -> ->] & _). easy. }
  apply G, seq_NoDup.
Qed.

Lemma pdist_prefix s : forall pre,
  pdist s = map (distance_at (pre ++ s))
    (flat_map (fun i => map (pair i) (seq (S i) (length (pre ++ s) - S i))) (seq (length pre) (length s))).
Proof.
  induction s as [|x s IH]; intros pre; [easy|]. cbn [pdist length seq flat_map]. rewrite map_app. f_equal.
  - rewrite map_map. rewrite app_length. cbn [length].
    replace (length pre + S (length s) - S (length pre))%nat with (length s) by lia.
    assert (G : forall l q, map (fun y => match x, y with Some x, Some y => Fin (dist x y) | _, _ => NaN end) l =
      map (fun j => distance_at (pre ++ x :: q ++ l) (length pre, j)) (seq (S (length pre) + length q) (length l))).
    { clear. induction l as [|y l IHl]; intros q; [easy|]. cbn [map length seq]. f_equal.
      - unfold distance_at. cbn [fst snd]. rewrite nth_error_app2, Nat.sub_diag by lia. cbn [nth_error].
        rewrite nth_error_app2 by lia. replace (S (length pre) + length q - length pre)%nat with (S (length q)) by lia.
        cbn [nth_error]. rewrite nth_error_app2, Nat.sub_diag by lia. cbn. now destruct x.
      - rewrite (IHl (q ++ [y])). rewrite app_length. cbn [length].
        replace (S (length pre) + (length q + 1))%nat with (S (S (length pre) + length q)) by lia.
        now rewrite <- app_assoc. }
    rewrite (G s []). now rewrite Nat.add_0_r.
  - rewrite (IH (pre ++ [x])). rewrite <- app_assoc. cbn [app].
    replace (length (pre ++ [x])) with (S (length pre)) by (rewrite app_length; simpl; lia). reflexivity.
Qed.
Lemma pdist_length s : (2 * length (pdist s) = length s * (length s - 1))%nat.
Proof.
  induction s as [|x s IH]; [easy|]. cbn [pdist length]. rewrite app_length, map_length.
  destruct (length s); simpl in *; nia.
Qed.

Lemma distances_split xs es :
  exists d, pdist (xs ++ es) = d ++ pdist es /\
    d = map (distance_at (xs ++ es)) (filter (fun p => Nat.ltb (fst p) (length xs)) (pairs (length (xs ++ es)))).
Proof.
  eexists. split; [|reflexivity]. rewrite (pdist_prefix (xs ++ es) []), (pdist_prefix es xs). cbn [app length].
  rewrite <- map_app. f_equal. unfold pairs.
  replace (seq 0 (length (xs ++ es))) with (seq 0 (length xs) ++ seq (length xs) (length es))
    by (rewrite app_length; symmetry; apply seq_app).
  rewrite flat_map_app. f_equal. generalize (length (xs ++ es)). intros N.
  rewrite filter_app.
  assert (G1 : forall l, (forall i, In i l -> (i < length xs)%nat) ->
    filter (fun p => Nat.ltb (fst p) (length xs)) (flat_map (fun i => map (pair i) (seq (S i) (N - S i))) l)
    = flat_map (fun i => map (pair i) (seq (S i) (N - S i))) l).
  { clear. induction l as [|i l IH]; intros H; [easy|]. simpl. rewrite filter_app, IH by (intros; apply H; now right).
    f_equal. assert (Hi : (i < length xs)%nat) by (apply H; now left). generalize (seq (S i) (N - S i)).
    induction l0 as [|a l0 IH0]; [easy|]. simpl. apply Nat.ltb_lt in Hi. rewrite Hi. now rewrite IH0. }
  assert (G2 : forall l, (forall i, In i l -> (length xs <= i)%nat) ->
    filter (fun p => Nat.ltb (fst p) (length xs)) (flat_map (fun i => map (pair i) (seq (S i) (N - S i))) l) = []).
  { clear. induction l as [|i l IH]; intros H; [easy|]. simpl. rewrite filter_app, IH by (intros; apply H; now right).
    rewrite app_nil_r. assert (Hi : (length xs <= i)%nat) by (apply H; now left). generalize (seq (S i) (N - S i)).
    induction l0 as [|a l0 IH0]; [easy|]. simpl. apply Nat.ltb_ge in Hi. now rewrite Hi. }
  rewrite G1, G2; [now rewrite app_nil_r| |]; intros i Hi; apply in_seq in Hi; lia.
Qed.

(** The distances that enter the criterion are those of the pairs i < j of the rows of
    [xs] followed by the existing rows, where the first point is a new point: pairs of two
    existing points are dropped, and only those. *)
Theorem C75_pairs_considered :
  forall xs existing, let s := xs ++ match existing with Some e => e | None => [] end in
    considered_distances xs existing
    = map (distance_at s) (filter (fun p => Nat.ltb (fst p) (length xs)) (pairs (length s))).
Proof.
  intros xs existing s. unfold considered_distances, stack. destruct existing as [es|]; subst s.
  - destruct (distances_split xs es) as (d & E & <-). rewrite E.
    pose proof (pdist_length es) as L.
    assert (E2 : (length es * (length es - 1) / 2)%nat = length (pdist es)).
    { rewrite <- L, Nat.mul_comm. now apply Nat.div_mul. }
    rewrite E2. destruct (Nat.eqb (length (pdist es)) 0) eqn:E0.
    + apply Nat.eqb_eq in E0. destruct (pdist es); [|discriminate]. now rewrite app_nil_r.
    + unfold drop_last. rewrite app_length. replace (length d + length (pdist es) - length (pdist es))%nat with (length d) by lia.
      now rewrite firstn_app, Nat.sub_diag, firstn_O, app_nil_r, firstn_all.
  - destruct (distances_split xs []) as (d & E & <-). rewrite !app_nil_r in E. exact E.
Qed.
(** The pairs are exactly those with at least one new point, each once. *)
Theorem C75_pairs_complete :
  forall a n i j, In (i, j) (filter (fun p => Nat.ltb (fst p) a) (pairs n))
    <-> (i < j < n)%nat /\ ~ (a <= i /\ a <= j)%nat.
Proof.
  intros a n i j. rewrite filter_In, in_pairs. cbn [fst]. rewrite Nat.ltb_lt. lia.
Qed.
Theorem C75_pairs_once : forall a n, NoDup (filter (fun p => Nat.ltb (fst p) a) (pairs n)).
Proof. intros. apply NoDup_filter, pairs_nodup. Qed.

(** One new point and two existing ones: two distances, not the one of the existing points. *)
Example C75_instance :
  considered_distances [Some [0]] (Some [Some [3]; Some [7]]) = [Fin (dist [0] [3]); Fin (dist [0] [7])].
Proof. rewrite C75_pairs_considered. reflexivity. Qed.

(** * C117 - the soft minimum *)

Lemma all_fin_map l : all_fin (map Fin l) = Some l.
Proof. induction l as [|a l IH]; [easy|]. simpl. now rewrite IH. Qed.
Definition expsum (h : R) (l : list R) : R := fold_right (fun a s => exp (- h * a) + s) 0 l.
Lemma expsum_nonneg h l : 0 <= expsum h l.
Proof. induction l as [|a l IH]; simpl; [lra|]. pose proof (exp_pos (- h * a)). lra. Qed.
Lemma ln_le_compat a b : 0 < a -> a <= b -> ln a <= ln b.
Proof. intros Ha [Hb|<-]; [left; now apply ln_increasing|lra]. Qed.
Lemma exp_le_compat a b : a <= b -> exp a <= exp b.
Proof. intros [H|<-]; [left; now apply exp_increasing|lra]. Qed.

(** The soft minimum lies below the scaled minimum, by at most the logarithm of the number
    of distances. *)
Theorem C117_soft_minimum :
  forall h l m, 0 < h -> In m l -> (forall a, In a l -> m <= a) ->
    exists v, soft_minimum h (map Fin l) = Ok (Fin v) /\
      h * m - ln (INR (length l)) <= v <= h * m.
Proof.
  intros h l m Hh Hm Hmin. exists (- ln (expsum h l)). split.
  - unfold soft_minimum. rewrite all_fin_map. destruct l; [easy|reflexivity].
  - pose proof (exp_pos (- h * m)) as EP.
    assert (Lo : exp (- h * m) <= expsum h l).
    { clear Hmin. induction l as [|a l IH]; [easy|]. simpl. pose proof (exp_pos (- h * a)).
      destruct Hm as [->|Hm]; [pose proof (expsum_nonneg h l); lra|specialize (IH Hm); lra]. }
    assert (Up : expsum h l <= INR (length l) * exp (- h * m)).
    { clear Hm Lo. induction l as [|a l IH]; [cbn; lra|]. cbn [length expsum fold_right]. rewrite S_INR.
      assert (E : exp (- h * a) <= exp (- h * m)).
      { apply exp_le_compat. assert (m <= a) by (apply Hmin; now left). nra. }
      fold (expsum h l). specialize (IH (fun b Hb => Hmin b (or_intror Hb))). lra. }
    assert (LP : 0 < INR (length l)) by (apply lt_0_INR; destruct l; [easy|simpl; lia]).
    pose proof (ln_le_compat _ _ EP Lo) as A. rewrite ln_exp in A.
    pose proof (ln_le_compat _ _ (Rlt_le_trans _ _ _ EP Lo) Up) as B. rewrite ln_mult, ln_exp in B by easy. lra.
Qed.
(** It grows with every distance. *)
Theorem C117_monotone :
  forall h l l' v v', 0 < h -> Forall2 Rle l l' -> soft_minimum h (map Fin l) = Ok (Fin v) ->
    soft_minimum h (map Fin l') = Ok (Fin v') -> v <= v'.
Proof.
  intros h l l' v v' Hh F. destruct F as [|a a' l l' Ha F]; [discriminate|].
  unfold soft_minimum. rewrite !all_fin_map. cbn [map]. intros [= <-] [= <-].
  assert (G : expsum h (a' :: l') <= expsum h (a :: l)).
  { assert (F' : Forall2 Rle (a :: l) (a' :: l')) by now constructor.
    induction F' as [|b b' k k' Hb _ IH]; [simpl; lra|]. cbn [expsum fold_right]. fold (expsum h k) (expsum h k').
    assert (exp (- h * b') <= exp (- h * b)) by (apply exp_le_compat; nra). lra. }
  assert (P : 0 < expsum h (a' :: l')).
  { cbn [expsum fold_right]. fold (expsum h l'). pose proof (exp_pos (- h * a')). pose proof (expsum_nonneg h l'). lra. }
  pose proof (ln_le_compat _ _ P G) as L. apply Ropp_le_contravar. exact L.
Qed.
Theorem C117_no_distances : forall h, soft_minimum h [] = Err ValueError.
Proof. reflexivity. Qed.

Example C117_instance : exists v, soft_minimum 2 [Fin 4; Fin 1; Fin 9] = Ok (Fin v) /\
  2 - ln (INR 3) <= v <= 2.
Proof.
  destruct (C117_soft_minimum 2 [4; 1; 9] 1) as (v & E & B).
  - lra. - right. now left. - intros a [<-|[<-|[<-|[]]]]; lra.
  - exists v. split; [exact E|]. replace (2 * 1) with 2 in B by ring. exact B.
Qed.
