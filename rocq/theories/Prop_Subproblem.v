(** Properties C53-C55, C71, C102 and the provable part of C56: the subproblem template and the
    fallback solvers. *)
From Coq Require Import Reals List Arith ZArith Bool Lia Lra Psatz.
From Verif Require Import Base XR Vec FVec VolumeModel RegionModel Prop_Region ModelsModel
  SubproblemModel.
Import ListNotations.
Open Scope R_scope.

(** * Model values at extended points *)

Lemma xsum_nan l : In NaN l -> xsum l = NaN.
Proof.
  induction l as [|a l IH]; [easy|]. intros [->|H]; simpl; [easy|]. rewrite IH by easy.
  now destruct a.
Qed.
Lemma vsum_bsum (f : nat -> R) n : fold_right Rplus 0 (map f (seq 0 n)) = bsum n f.
Proof.
  induction n; [easy|]. rewrite seq_S, map_app, fold_right_app. simpl.
  rewrite <- IHn. rewrite Rplus_0_r. generalize (map f (seq 0 n)). intros l.
  induction l; simpl; lra.
Qed.
Lemma xbsum_fin n f (g : nat -> R) : (forall i, (i < n)%nat -> f i = Fin (g i)) -> xbsum n f = Fin (bsum n g).
Proof.
  intros H. unfold xbsum.
  replace (map f (seq 0 n)) with (map Fin (map g (seq 0 n))).
  - now rewrite xsum_fin, vsum_bsum.
  - rewrite map_map. apply map_ext_in. intros i Hi. apply in_seq in Hi. symmetry. apply H. lia.
Qed.
Lemma xbsum_nan n f i : (i < n)%nat -> f i = NaN -> xbsum n f = NaN.
Proof.
  intros Hi H. apply xsum_nan. apply in_map_iff. exists i. split; [easy|]. apply in_seq. lia.
Qed.
Lemma xentry_fin v i : (i < length v)%nat -> xentry (map Fin v) i = Fin (fun_of v i).
Proof.
  intros H. unfold xentry, fun_of. rewrite nth_indep with (d' := Fin 0) by (now rewrite map_length).
  now rewrite map_nth.
Qed.

Lemma predict_x_fin m v : length v = sm_n m -> predict_x m (map Fin v) = Fin (predict_scalar m (fun_of v)).
Proof.
  intros L. unfold predict_x, predict_scalar.
  rewrite (xbsum_fin _ _ (fun i => fun_of v i * sm_g m i)).
  2:{ intros i Hi. rewrite xentry_fin by lia. reflexivity. }
  destruct (sm_h m) as [h|]; [|reflexivity].
  rewrite (xbsum_fin _ _ (fun j => fvm (sm_n m) (fun_of v) h j * fun_of v j)).
  2:{ intros j Hj. rewrite (xbsum_fin _ _ (fun i => fun_of v i * h i j)).
      - rewrite xentry_fin by lia. reflexivity.
      - intros i Hi. rewrite xentry_fin by lia. reflexivity. }
  cbn [xadd xdiv]. unfold Reqb. destruct (Req_EM_T 2 0); [lra|]. reflexivity.
Qed.
Lemma predict_x_nan m x i : (i < sm_n m)%nat -> xentry x i = NaN -> predict_x m x = NaN.
Proof.
  intros Hi H. unfold predict_x. rewrite (xbsum_nan _ _ i Hi) by (now rewrite H).
  destruct (sm_h m); reflexivity.
Qed.

(** * The center in unit coordinates *)

(** Bounds with lower < upper for every parameter. *)
Definition no_fixed (b : option bounds) : Prop :=
  forall B l u i li ui, b = Some B -> b_lower B = Some l -> b_upper B = Some u ->
    nth_error l i = Some (Some li) -> nth_error u i = Some (Some ui) -> li < ui.

(** A region as built by the main loop: positive radius, center within the bounds. *)
Definition proper_region (c : vec) (r : R) (b : option bounds) (reg : region) : Prop :=
  0 < r /\ c <> [] /\ bounds_dim (length c) b /\ in_bounds b c /\ no_fixed b /\
  make_region c r b = Ok reg.

Lemma xdiv_fin a b : b <> 0 -> xdiv (Fin a) (Fin b) = Fin (a / b).
Proof. intros H. simpl. unfold Reqb. now destruct (Req_EM_T b 0). Qed.

Lemma old_unit c r b reg : proper_region c r b reg ->
  exists v, xmap_to_unit reg (r_center reg) = map Fin v /\ length v = length c /\
    (forall a, In a v -> -1 <= a <= 1) /\
    (r_shape reg = Sphere -> v = vzero (length c)).
Proof.
  intros (Hr & Hc & D & IB & NF & M).
  destruct (make_region_inv _ _ _ _ M) as (w & _ & Ec & Er & _ & Es & _).
  unfold xmap_to_unit. rewrite Ec. destruct (r_shape reg) eqn:S.
  - rewrite Er. exists (vzero (length c)). splits; try easy.
    + clear -Hr. unfold vzero. induction c as [|a c IH]; [reflexivity|]. cbn [map2 length repeat map].
      rewrite IH. rewrite xdiv_fin by lra. f_equal. f_equal. field. lra.
    + unfold vzero. apply repeat_length.
    + intros a Ha. apply repeat_spec in Ha. lra.
  - destruct (region_cube_length c r b reg D M) as [L1 L2].
    destruct (C14_cube_inside_bounds_contains_center c r b reg Hr Hc D IB M S) as (_ & _ & V1 & V2 & _).
    pose proof (C14_cube_not_degenerate c r b reg Hr Hc D IB NF M S) as ND.
    set (lo := r_cube_lower reg) in *. set (up := r_cube_upper reg) in *. clearbody lo up.
    exists (map2 (fun xi '(l, u) => 2 * (xi - l) / (u - l) - 1) c (combine lo up)). splits.
    + clear -L1 L2 ND. revert lo up L1 L2 ND. induction c as [|a c IH]; intros [|l lo] [|u up] L1 L2 ND; try discriminate; [reflexivity|].
      cbn [map2 combine map]. rewrite IH; [|simpl in *; lia..|].
      * assert (l < u) by (apply (ND 0%nat); easy).
        rewrite xdiv_fin by lra. f_equal.
      * intros i x y Hx Hy. apply (ND (S i)); easy.
    + rewrite map2_length, combine_length. lia.
    + intros a Ha. apply In_map2 in Ha as (i & x & [l u] & Hx & Hlu & ->).
      assert (Hl : nth_error lo i = Some l /\ nth_error up i = Some u).
      { clear -Hlu. revert i up Hlu; induction lo as [|p lo IH]; intros [|i] [|q up] H; try discriminate; simpl in *.
        - now injection H as -> ->.
        - now apply IH. }
      destruct Hl as [Hl Hu]. specialize (V1 i _ _ Hl Hx). specialize (V2 i _ _ Hx Hu).
      specialize (ND i _ _ Hl Hu).
      assert (0 <= (x - l) / (u - l)) by (apply Rmult_le_pos; [lra|apply Rlt_le, Rinv_0_lt_compat; lra]).
      assert ((x - l) / (u - l) <= 1).
      { apply Rmult_le_reg_r with (u - l); [lra|]. unfold Rdiv. rewrite Rmult_assoc, Rinv_l by lra. lra. }
      unfold Rdiv in *. lra.
    + discriminate.
Qed.

(** The point the primary solver or, if allowed, the fallback delivers. *)
Definition delivered (m : smodel) (reg : region) (ss cs : solver) (fs fc : fallback) (retry : bool)
    (r : raw) : Prop :=
  let old := xmap_to_unit reg (r_center reg) in
  let prim := match r_shape reg with Sphere => ss | Cube => cs end m old
                (map (fun _ => -1) old) (map (fun _ => 1) old) in
  prim = Ok r \/
  (retry = true /\ (exists e, prim = Err e) /\ match r_shape reg with Sphere => fs | Cube => fc end m old = Ok r).

Lemma solve_cases m reg ss cs fs fc retry res :
  solve_subproblem m reg ss cs fs fc retry = Ok res ->
  exists r, delivered m reg ss cs fs fc retry r /\
    let old := xmap_to_unit reg (r_center reg) in
    let y := match r_shape reg with
             | Cube => map (fun a => xclip a (Fin (-1)) (Fin 1)) (raw_x r)
             | Sphere => raw_x r end in
    s_n_iterations res = raw_n_iterations r /\ s_shape res = r_shape reg /\
    ((xle (Fin 0) (xopp (xsub (predict_x m y) (predict_x m old))) = true /\
      s_x res = xmap_from_unit reg y /\ s_improvement res = xopp (xsub (predict_x m y) (predict_x m old)) /\
      s_success res = raw_success r /\ s_x_unit res = y) \/
     (xle (Fin 0) (xopp (xsub (predict_x m y) (predict_x m old))) = false /\
      s_x res = map Fin (r_center reg) /\ s_improvement res = Fin 0 /\ s_success res = Some false /\
      s_x_unit res = old)).
Proof.
  unfold solve_subproblem, delivered. cbv zeta.
  destruct (r_shape reg) eqn:S.
  - destruct (ss m _ _ _) as [r|e] eqn:E.
    + cbn [bind]. intros H. exists r. split; [now left|].
      destruct (xle _ _) eqn:X in H; injection H as <-; (split; [easy|]); (split; [easy|]); [left|right]; easy.
    + destruct retry; cbn [negb]; [|discriminate].
      destruct (fs m _) as [r|] eqn:F; [|discriminate]. cbn [bind]. intros H. exists r. split; [right; eauto|].
      destruct (xle _ _) eqn:X in H; injection H as <-; (split; [easy|]); (split; [easy|]); [left|right]; easy.
  - destruct (cs m _ _ _) as [r|e] eqn:E.
    + cbn [bind]. intros H. exists r. split; [now left|].
      destruct (xle _ _) eqn:X in H; injection H as <-; (split; [easy|]); (split; [easy|]); [left|right]; easy.
    + destruct retry; cbn [negb]; [|discriminate].
      destruct (fc m _) as [r|] eqn:F; [|discriminate]. cbn [bind]. intros H. exists r. split; [right; eauto|].
      destruct (xle _ _) eqn:X in H; injection H as <-; (split; [easy|]); (split; [easy|]); [left|right]; easy.
Qed.

(** * C53 *)

(** C53 - whatever the solvers return (also infinite or NaN), the expected improvement is
    non-negative. *)
Theorem C53_improvement_nonnegative :
  forall m reg ss cs fs fc retry res,
    solve_subproblem m reg ss cs fs fc retry = Ok res ->
    xle (Fin 0) (s_improvement res) = true.
Proof.
  intros m reg ss cs fs fc retry res H. apply solve_cases in H as (r & _ & H). cbv zeta in H.
  destruct H as (_ & _ & [(X & _ & -> & _)|(_ & _ & -> & _)]); [exact X|].
  simpl. apply Rleb_true. lra.
Qed.

(** C53 - it is the model value at the center minus the model value at the returned point;
    a delivered point is returned iff its model value is not above the value at the center;
    otherwise (also for NaN) the center is returned with improvement 0. *)
Theorem C53_improvement_is_model_decrease :
  forall m c r b reg ss cs fs fc retry res,
    proper_region c r b reg -> sm_n m = length c ->
    solve_subproblem m reg ss cs fs fc retry = Ok res ->
    exists rw v f0,
      delivered m reg ss cs fs fc retry rw /\
      xmap_to_unit reg c = map Fin v /\ length v = length c /\ predict_scalar m (fun_of v) = f0 /\
      s_improvement res = xsub (Fin f0) (predict_x m (s_x_unit res)) /\
      let y := match r_shape reg with
               | Cube => map (fun a => xclip a (Fin (-1)) (Fin 1)) (raw_x rw)
               | Sphere => raw_x rw end in
      (xle (predict_x m y) (Fin f0) = true ->
         s_x_unit res = y /\ s_x res = xmap_from_unit reg y /\ s_success res = raw_success rw) /\
      (xle (predict_x m y) (Fin f0) = false ->
         s_x_unit res = map Fin v /\ s_x res = map Fin c /\ s_improvement res = Fin 0 /\
         s_success res = Some false).
Proof.
  intros m c r b reg ss cs fs fc retry res P N H.
  destruct (old_unit c r b reg P) as (v & Ev & Lv & _ & _).
  destruct P as (_ & _ & _ & _ & _ & M). destruct (make_region_inv _ _ _ _ M) as (w & _ & Ec & _).
  apply solve_cases in H as (rw & DV & H). cbv zeta in H. rewrite Ev in H. rewrite Ec in Ev, H.
  set (y := match r_shape reg with Sphere => raw_x rw | Cube => _ end) in *.
  rewrite (predict_x_fin m v) in H by lia.
  exists rw, v, (predict_scalar m (fun_of v)). split; [easy|]. split; [easy|]. split; [easy|]. split; [easy|].
  cbv zeta. fold y.
  assert (X : xle (Fin 0) (xopp (xsub (predict_x m y) (Fin (predict_scalar m (fun_of v)))))
            = xle (predict_x m y) (Fin (predict_scalar m (fun_of v)))).
  { destruct (predict_x m y) as [a| | |]; try reflexivity. simpl.
    destruct (Rleb_spec 0 (- (a + - predict_scalar m (fun_of v)))), (Rleb_spec a (predict_scalar m (fun_of v))); lra || easy. }
  rewrite X in H.
  destruct H as (_ & _ & [(X1 & E1 & E2 & E3 & E4)|(X1 & E1 & E2 & E3 & E4)]).
  - rewrite E4, E2. split.
    + destruct (predict_x m y); try reflexivity. simpl. f_equal. lra.
    + split; [easy|]. congruence.
  - rewrite E4, E2. split.
    + rewrite (predict_x_fin m v) by lia. simpl. f_equal. lra.
    + split; [congruence|easy].
Qed.

(** * C54 *)

Lemma xclip_range a : a <> NaN -> exists r, xclip a (Fin (-1)) (Fin 1) = Fin r /\ -1 <= r <= 1.
Proof.
  intros H. unfold xclip, xmin, xmax. destruct a as [x| | |]; try easy; simpl.
  - destruct (Rleb_spec x (-1)); simpl;
      match goal with |- context [Rleb ?a ?b] => destruct (Rleb_spec a b) end;
      eexists; (split; [reflexivity|]); lra.
  - exists 1. split; [reflexivity|lra].
  - destruct (Rleb_spec 1 (-1)); [lra|]. eexists. split; [reflexivity|]. lra.
Qed.

(** C54 - in cubes the returned points are finite, the unit point is in the unit cube and the
    returned point within the cube and hence within the bounds, for arbitrary solvers. *)
Theorem C54_cube_feasible :
  forall m c r b reg ss cs fs fc retry res,
    proper_region c r b reg -> r_shape reg = Cube -> sm_n m = length c ->
    (forall rw, delivered m reg ss cs fs fc retry rw -> length (raw_x rw) = length c) ->
    solve_subproblem m reg ss cs fs fc retry = Ok res ->
    exists u x, s_x_unit res = map Fin u /\ s_x res = map Fin x /\
      length u = length c /\ length x = length c /\
      (forall a, In a u -> -1 <= a <= 1) /\
      in_bounds b x /\ vle (r_cube_lower reg) x /\ vle x (r_cube_upper reg).
Proof.
  intros m c r b reg ss cs fs fc retry res P S N HL H.
  destruct (old_unit c r b reg P) as (v & Ev & Lv & Rv & _).
  destruct P as (Hr & Hc & D & IB & NF & M). destruct (make_region_inv _ _ _ _ M) as (w & _ & Ec & _).
  destruct (region_cube_length c r b reg D M) as [L1 L2].
  destruct (C14_cube_inside_bounds_contains_center c r b reg Hr Hc D IB M S) as (B1 & B2 & V1 & V2 & _).
  apply solve_cases in H as (rw & DV & H). cbv zeta in H. rewrite Ev, S in H. rewrite Ec in Ev, H.
  specialize (HL rw DV).
  set (y := map (fun a => xclip a (Fin (-1)) (Fin 1)) (raw_x rw)) in *.
  assert (Ly : length y = length c) by (unfold y; now rewrite map_length).
  destruct H as (_ & _ & [(X1 & E1 & E2 & E3 & E4)|(X1 & E1 & E2 & E3 & E4)]).
  - rewrite E4, E1.
    assert (FIN : forall a, In a y -> exists q, a = Fin q /\ -1 <= q <= 1).
    { intros a Ha. unfold y in Ha. apply in_map_iff in Ha as (z & <- & Hz). apply xclip_range. intros ->.
      apply In_nth_error in Hz as [i Hi].
      assert (Hil : (i < length c)%nat) by (rewrite <- HL; apply nth_error_Some; congruence).
      rewrite (predict_x_nan m y i) in X1; [destruct (predict_x m (map Fin v)); discriminate|lia|].
      unfold xentry, y. erewrite nth_error_nth; [reflexivity|]. now rewrite nth_error_map, Hi. }
    assert (U : exists u, y = map Fin u /\ forall a, In a u -> -1 <= a <= 1).
    { clear -FIN. induction y as [|a y IH]; [now exists []|].
      destruct IH as (u & -> & Hu); [intros; apply FIN; now right|].
      destruct (FIN a (or_introl eq_refl)) as (q & -> & Hq). exists (q :: u). split; [reflexivity|].
      intros z [<-|Hz]; auto. }
    destruct U as (u & -> & Hu). rewrite map_length in Ly.
    unfold xmap_from_unit. rewrite S.
    set (lo := r_cube_lower reg) in *. set (up := r_cube_upper reg) in *.
    assert (LU : vle lo up).
    { intros i a z Ha Hz. pose proof (C14_cube_not_degenerate c r b reg Hr Hc D IB NF M S i a z Ha Hz). lra. }
    exists u, (map2 (fun xi '(l, q) => Rmin q (Rmax ((q - l) * (xi + 1) / 2 + l) l)) u (combine lo up)).
    split; [easy|]. split.
    { clearbody lo up. clear. revert lo up. induction u as [|a u IH]; intros [|l lo] [|q up]; try reflexivity.
      cbn [map map2 combine]. rewrite IH. f_equal. cbn [xmul xadd]. rewrite xdiv_fin by lra. cbn [xadd].
      unfold xclip, xmin, xmax. simpl. unfold Rmin, Rmax.
      destruct (Rleb_spec ((q - l) * (a + 1) / 2 + l) l), (Rle_dec ((q - l) * (a + 1) / 2 + l) l); try easy;
      match goal with |- context [Rleb q ?b] => destruct (Rleb_spec q b), (Rle_dec q b) end; easy. }
    split; [easy|]. split; [rewrite map2_length, combine_length; lia|]. split; [easy|].
    assert (CO : forall i z, nth_error (map2 (fun xi '(l, q) => Rmin q (Rmax ((q - l) * (xi + 1) / 2 + l) l)) u (combine lo up)) i = Some z ->
       exists l q, nth_error lo i = Some l /\ nth_error up i = Some q /\ l <= z <= q).
    { intros i z Hz. rewrite map2_nth_error in Hz. destruct (nth_error u i); [|discriminate].
      destruct (nth_error (combine lo up) i) as [[l q]|] eqn:Elu; [|discriminate]. injection Hz as <-.
      assert (Hlq : nth_error lo i = Some l /\ nth_error up i = Some q).
      { clearbody lo up. clear -Elu. revert i up Elu; induction lo as [|p lo IH]; intros [|i] [|q' up] H; try discriminate; simpl in *.
        - now injection H as -> ->.
        - now apply IH. }
      exists l, q. split; [easy|]. split; [easy|]. destruct Hlq as [Hl Hq]. specialize (LU i l q Hl Hq).
      split; [|apply Rmin_l]. apply Rmin_glb; [easy|]. apply Rmax_r. }
    split; [|split].
    + destruct b as [B|]; [|exact I]. destruct B1 as [B1 _], B2 as [_ B2]. split.
      * intros l i xi li E Hx Hl. destruct (CO i xi Hx) as (l' & q' & Hl' & Hq' & Hz).
        specialize (B1 l i l' li E Hl' Hl). lra.
      * intros l i xi li E Hx Hl. destruct (CO i xi Hx) as (l' & q' & Hl' & Hq' & Hz).
        specialize (B2 l i q' li E Hq' Hl). lra.
    + intros i a z Ha Hz. destruct (CO i z Hz) as (l' & q' & Hl' & Hq' & R). rewrite Hl' in Ha. injection Ha as <-. lra.
    + intros i a z Ha Hz. destruct (CO i a Ha) as (l' & q' & Hl' & Hq' & R). rewrite Hq' in Hz. injection Hz as <-. lra.
  - rewrite E4, E1. exists v, c. splits; easy.
Qed.

(** * C55 *)

(** C55 - the fallback policy: which result is used, depending on the outcome of the primary
    solver; [used] is the solver result that determines the outcome of the template. *)
Theorem C55_fallback_policy :
  forall m reg ss cs fs fc retry,
    let old := xmap_to_unit reg (r_center reg) in
    let lower := map (fun _ => -1) old in
    let upper := map (fun _ => 1) old in
    let prim := match r_shape reg with Sphere => ss | Cube => cs end m old lower upper in
    let fb := match r_shape reg with Sphere => fs | Cube => fc end m old in
    let const r := fun _ _ _ _ => r : res raw in
    (** the result only depends on the primary solver if it returns *)
    (forall r, prim = Ok r -> forall fs' fc' retry',
       solve_subproblem m reg ss cs fs fc retry = solve_subproblem m reg (const (Ok r)) (const (Ok r)) fs' fc' retry') /\
    (** otherwise it is the one obtained if the fallback had been the primary solver *)
    (forall e, prim = Err e -> retry = true -> forall fs' fc',
       solve_subproblem m reg ss cs fs fc retry = solve_subproblem m reg (const fb) (const fb) fs' fc' false) /\
    (** or the same exception *)
    (forall e, prim = Err e -> retry = false -> solve_subproblem m reg ss cs fs fc retry = Err e) /\
    (** primary solver's result always leads to a result *)
    (forall r, prim = Ok r -> exists res, solve_subproblem m reg ss cs fs fc retry = Ok res).
Proof.
  intros m reg ss cs fs fc retry old lower upper prim fb const.
  unfold prim, fb, const, lower, upper, old. unfold solve_subproblem. destruct (r_shape reg).
  - splits.
    + intros r H fs' fc' retry'. now rewrite H.
    + intros e H -> fs' fc'. rewrite H. cbn [negb]. now destruct (fs m _).
    + intros e H ->. now rewrite H.
    + intros r H. rewrite H. cbn [bind]. destruct (xle _ _); eauto.
  - splits.
    + intros r H fs' fc' retry'. now rewrite H.
    + intros e H -> fs' fc'. rewrite H. cbn [negb]. now destruct (fc m _).
    + intros e H ->. now rewrite H.
    + intros r H. rewrite H. cbn [bind]. destruct (xle _ _); eauto.
Qed.

(** * C56, the part that holds for every solver respecting the unit ball *)

(** C56 - if the solvers return points of the unit ball, the returned point is at most the
    radius away from the center.  The built-in solver gqtpar does not respect the unit ball,
    see Prop_Gqtpar.v. *)
Theorem C56_sphere_feasible_partial :
  forall m c r b reg ss cs fs fc retry res,
    proper_region c r b reg -> r_shape reg = Sphere ->
    (forall rw, delivered m reg ss cs fs fc retry rw ->
       exists u, raw_x rw = map Fin u /\ length u = length c /\ norm u <= 1) ->
    solve_subproblem m reg ss cs fs fc retry = Ok res ->
    exists x, s_x res = map Fin x /\ length x = length c /\ dist x c <= r.
Proof.
  intros m c r b reg ss cs fs fc retry res P S HL H.
  destruct P as (Hr & Hc & D & IB & NF & M).
  destruct (make_region_inv _ _ _ _ M) as (w & _ & Ec & Er & _).
  apply solve_cases in H as (rw & DV & H). cbv zeta in H. rewrite S in H. rewrite Ec in H.
  destruct (HL rw DV) as (u & Eu & Lu & Nu).
  destruct H as (_ & _ & [(X1 & E1 & E2 & E3 & E4)|(X1 & E1 & E2 & E3 & E4)]).
  - rewrite E1, Eu. unfold xmap_from_unit. rewrite S, Er, Ec.
    exists (map2 (fun xi ci => xi * r + ci) u c). split; [|split].
    + clear. revert c. induction u; intros [|]; cbn [map map2]; try reflexivity. now rewrite IHu.
    + rewrite map2_length. lia.
    + unfold dist. replace (vsub (map2 (fun xi ci => xi * r + ci) u c) c) with (vscale r u).
      * rewrite norm_vscale, Rabs_right by lra. nra.
      * clear -Lu. unfold vscale, vsub. revert c Lu. induction u; intros [|]; simpl; intros; try easy.
        rewrite <- IHu by lia. f_equal. lra.
  - exists c. rewrite E1. split; [easy|]. split; [easy|]. rewrite dist_refl. lra.
Qed.

(** * C71 *)

(** An optimizer that respects its bounds. *)
Definition respects_box (mz : minimizer) : Prop :=
  forall f g x0 lo up k r, mz f g x0 lo up k = Ok r ->
    length (o_x r) = length x0 /\
    forall i a l u, nth_error (o_x r) i = Some a -> nth_error lo i = Some l -> nth_error up i = Some u -> l <= a <= u.

Lemma sumsq_le_abs x a : 0 <= a -> (forall z, In z x -> - a <= z <= a) -> sumsq x <= INR (length x) * (a * a).
Proof.
  intros Ha H. induction x as [|z x IH].
  - unfold sumsq, dot. simpl. lra.
  - rewrite sumsq_cons. change (length (z :: x)) with (S (length x)). rewrite S_INR.
    specialize (IH ltac:(intros; apply H; now right)). specialize (H z (or_introl eq_refl)). nra.
Qed.

Lemma robust_cube_solver_box mz m x0 a r :
  respects_box mz -> robust_cube_solver mz m x0 a = Ok r ->
  exists x, fb_x r = Some x /\ length x = length x0 /\ forall z, In z x -> - a <= z <= a.
Proof.
  intros RB H. unfold robust_cube_solver in H. destruct (sm_h m); [|discriminate].
  destruct (mz _ _ _ _ _ _) as [o|] eqn:E; [|discriminate]. injection H as <-.
  destruct (RB _ _ _ _ _ _ _ E) as [L B]. exists (o_x o). split; [easy|]. split; [easy|].
  intros z Hz. apply In_nth_error in Hz as [i Hi].
  assert (HI : (i < length x0)%nat) by (rewrite <- L; apply nth_error_Some; congruence).
  destruct (nth_error x0 i) eqn:Ex; [|apply nth_error_None in Ex; lia].
  apply (B i z (- a) a Hi); rewrite nth_error_map, Ex; reflexivity.
Qed.

(** C71 - the inscribed cube lies in the unit ball. *)
Theorem C71_inscribed_cube_in_unit_ball :
  forall mz m x0 r, respects_box mz -> x0 <> [] ->
    robust_sphere_solver_inscribed_cube mz m x0 = Ok r ->
    exists x, fb_x r = Some x /\ length x = length x0 /\ norm x <= 1.
Proof.
  intros mz m x0 r RB Hx H. unfold robust_sphere_solver_inscribed_cube in H.
  apply robust_cube_solver_box in H as (x & E & L & B); [|easy].
  exists x. split; [easy|]. split; [easy|].
  assert (HN : 0 < INR (length x0)) by (apply lt_0_INR; destruct x0; [easy|simpl; lia]).
  assert (HS : 0 < sqrt (INR (length x0))) by (now apply sqrt_lt_R0).
  apply (sumsq_le_abs x (1 / sqrt (INR (length x0)))) in B.
  - replace (INR (length x) * (1 / sqrt (INR (length x0)) * (1 / sqrt (INR (length x0))))) with 1 in B.
    + unfold norm. rewrite <- sqrt_1. now apply sqrt_le_1_alt.
    + rewrite L. rewrite <- (sqrt_sqrt (INR (length x0))) at 1 by lra. field. lra.
  - apply Rlt_le. apply Rdiv_lt_0_compat; lra.
Qed.

Lemma project_ball_norm x : norm (project_ball x) <= 1.
Proof.
  unfold project_ball. destruct (Rleb_spec (norm x) 1); [easy|].
  replace (map (fun a => a / norm x) x) with (vscale (/ norm x) x).
  - rewrite norm_vscale, Rabs_right. { rewrite Rinv_l by lra. lra. }
    apply Rle_ge, Rlt_le, Rinv_0_lt_compat. lra.
  - apply map_ext. intros. unfold Rdiv. ring.
Qed.
Lemma project_ball_idem x : project_ball (project_ball x) = project_ball x.
Proof.
  unfold project_ball at 1. destruct (Rleb_spec (norm (project_ball x)) 1); [easy|].
  pose proof (project_ball_norm x). lra.
Qed.

(** C71 - the reparametrized solver returns points of the unit ball, for arbitrary optimizers. *)
Theorem C71_reparametrized_in_unit_ball :
  forall mz m x0 r,
    robust_sphere_solver_reparametrized mz m x0 = Ok r ->
    exists x, fb_x r = Some x /\ norm x <= 1.
Proof.
  intros mz m x0 r H. unfold robust_sphere_solver_reparametrized in H. cbv zeta in H.
  destruct (mz _ _ _ _ _ _) as [o|]; [|discriminate]. injection H as <-.
  exists (project_ball (o_x o)). split; [easy|]. apply project_ball_norm.
Qed.

(** C71 - the reported criterion is the model value of the returned point, if the optimizer
    reports the criterion of its own point. *)
Definition honest (mz : minimizer) : Prop :=
  forall f g x0 lo up k r, mz f g x0 lo up k = Ok r -> o_fun r = Fin (f (o_x r)).
Theorem C71_reported_criterion :
  forall mz m x0 r, honest mz ->
    (robust_sphere_solver_reparametrized mz m x0 = Ok r \/ (exists a, robust_cube_solver mz m x0 a = Ok r)) ->
    exists x, fb_x r = Some x /\ fb_criterion r = Fin (predict_scalar m (fun_of x)).
Proof.
  intros mz m x0 r HO [H|[a H]].
  - unfold robust_sphere_solver_reparametrized in H. cbv zeta in H.
    destruct (mz _ _ _ _ _ _) as [o|] eqn:E; [|discriminate]. injection H as <-. cbn [fb_x fb_criterion].
    eexists. split; [reflexivity|]. now rewrite (HO _ _ _ _ _ _ _ E).
  - unfold robust_cube_solver in H. destruct (sm_h m) as [h|] eqn:Eh; [|discriminate].
    destruct (mz _ _ _ _ _ _) as [o|] eqn:E; [|discriminate]. injection H as <-. cbn [fb_x fb_criterion].
    eexists. split; [reflexivity|]. rewrite (HO _ _ _ _ _ _ _ E). f_equal.
    unfold crit_quadratic, predict_scalar. rewrite Eh.
    replace (fdot (sm_n m) (fvm (sm_n m) (fscale (/ 2) (fun_of (o_x o))) h) (fun_of (o_x o)))
      with (fdot (sm_n m) (fvm (sm_n m) (fun_of (o_x o)) h) (fun_of (o_x o)) / 2).
    + lra.
    + unfold Rdiv. rewrite Rmult_comm. unfold fdot. rewrite <- bsum_scal. apply bsum_ext. intros j Hj.
      unfold fvm, fscale. rewrite <- Rmult_assoc. f_equal. rewrite <- bsum_scal. apply bsum_ext. intros. ring.
Qed.

(** * C102 *)

(** C102 - the multistart solver returns the result of one of its starts with the smallest
    criterion, inside the unit cube. *)
Theorem C102_multistart_takes_the_best :
  forall mz m starts r,
    respects_box mz -> robust_cube_solver_multistart mz m starts = Ok r ->
    (forall s q, In s starts -> robust_cube_solver mz m s 1 = Ok q -> fb_criterion q <> NaN) ->
    (starts <> [] -> exists s q x, In s starts /\ robust_cube_solver mz m s 1 = Ok q /\
       fb_x r = fb_x q /\ fb_x r = Some x /\ fb_criterion r = fb_criterion q /\
       (forall z, In z x -> -1 <= z <= 1)) /\
    (forall s q, In s starts -> robust_cube_solver mz m s 1 = Ok q ->
       xle (fb_criterion r) (fb_criterion q) = true).
Proof.
  intros mz m starts r RB H NN. unfold robust_cube_solver_multistart in H.
  destruct (multistart_loop mz m starts PInf None) as [[x c]|] eqn:E; [|discriminate].
  injection H as <-. cbn [fb_x fb_criterion].
  assert (G : forall st bc ac x c, multistart_loop mz m st bc ac = Ok (x, c) -> bc <> NaN ->
    (forall s q, In s st -> robust_cube_solver mz m s 1 = Ok q -> fb_criterion q <> NaN) ->
    ((x = ac /\ c = bc) \/ exists s q, In s st /\ robust_cube_solver mz m s 1 = Ok q /\ x = fb_x q /\ c = fb_criterion q) /\
    xle c bc = true /\
    (forall s q, In s st -> robust_cube_solver mz m s 1 = Ok q -> xle c (fb_criterion q) = true) /\
    (bc = PInf -> st <> [] -> exists s q, In s st /\ robust_cube_solver mz m s 1 = Ok q /\ x = fb_x q /\ c = fb_criterion q)).
  { clear. induction st as [|s st IH]; intros bc ac x c H Nb NN; cbn [multistart_loop] in H.
    - injection H as <- <-. splits; try easy; [now left|now apply xle_refl].
    - destruct (robust_cube_solver mz m s 1) as [q|] eqn:Eq; [|discriminate]. cbn [bind] in H.
      assert (Nq : fb_criterion q <> NaN) by (apply (NN s q); [now left|easy]).
      destruct (xle (fb_criterion q) bc) eqn:X.
      + destruct (IH _ _ _ _ H Nq) as (A & B & C & D); [intros; eapply NN; [right|]; eauto|].
        assert (P : exists s' q', In s' (s :: st) /\ robust_cube_solver mz m s' 1 = Ok q' /\ x = fb_x q' /\ c = fb_criterion q').
        { destruct A as [[-> ->]|(s' & q' & H1 & H2)]; [exists s, q|exists s', q']; (split; [now (left + right)|easy]). }
        splits; auto.
        * eapply xle_trans; eauto.
        * intros s' q' [<-|H1] H2; [|eauto]. rewrite Eq in H2. now injection H2 as <-.
      + destruct (IH _ _ _ _ H Nb) as (A & B & C & D); [intros; eapply NN; [right|]; eauto|].
        splits.
        * destruct A as [A|(s' & q' & H1 & H2)]; [now left|right]. exists s', q'. split; [now right|easy].
        * easy.
        * intros s' q' [<-|H1] H2; [|eauto]. rewrite Eq in H2. injection H2 as <-.
          eapply xle_trans; [exact B|]. apply xlt_xle. now apply xle_false_lt.
        * intros -> _. destruct (fb_criterion q); discriminate || easy. }
  destruct (G _ _ _ _ _ E ltac:(discriminate) NN) as (_ & _ & B & C).
  split; [|exact B]. intros NE. destruct (C eq_refl NE) as (s & q & H1 & H2 & -> & ->).
  destruct (robust_cube_solver_box mz m s 1 q RB H2) as (x & Ex & _ & Bx).
  exists s, q, x. now splits.
Qed.

(** * Examples *)

(** An optimizer that returns the lower corner of its box (and raises if the box is empty). *)
Definition corner : minimizer := fun f _ x0 lo up _ =>
  if (length lo =? length x0)%nat && forallb (fun '(l, u) => Rleb l u) (combine lo up)
  then Ok (mkOpt lo (Fin (f lo)) 0 true) else Err ValueError.
Example ex_corner_respects_box : respects_box corner /\ honest corner.
Proof.
  split.
  - intros f g x0 lo up k r H. unfold corner in H.
    destruct (Nat.eqb_spec (length lo) (length x0)) as [L|]; [|discriminate]. simpl in H.
    destruct (forallb _ _) eqn:E; [|discriminate]. injection H as <-. cbn [o_x]. split; [easy|].
    intros i a l u Ha Hl Hu. rewrite Ha in Hl. injection Hl as <-.
    rewrite forallb_forall in E. assert (G : In (a, u) (combine lo up)).
    { clear -Ha Hu. revert i up Ha Hu. induction lo as [|p lo IH]; intros [|i] [|q up] Ha Hu; try discriminate; simpl in *.
      - left. congruence.
      - right. eapply IH; eauto. }
    apply E in G. apply Rleb_true in G. lra.
  - intros f g x0 lo up k r H. unfold corner in H. destruct (_ && _); [|discriminate]. now injection H as <-.
Qed.

(** The model x -> x + 1 in one dimension, region around 5 with radius 2. *)
Definition ex_line : smodel := mkS 1 1 (fun _ => 1) (Some (fun _ _ => 0)) (MScalar 2) (fun _ => 5).
Definition ex_ball : region := mkRegion [5] 2 None Sphere [3] [7].
Example ex_ball_proper : proper_region [5] 2 None ex_ball.
Proof.
  unfold proper_region. splits; try easy; [lra|].
  unfold ex_ball, make_region, get_shape. cbn [any_bounds_binding bind get_cube_bounds create_cube_bounds map].
  do 2 f_equal; f_equal; lra.
Qed.
Definition fail : solver := fun _ _ _ _ => Err LinAlgError.
Definition fbc : fallback := fun m xc => Ok (mkRaw (map (fun _ => Fin (-1)) xc) (Some 3%nat) (Some true)).
(** The primary solver fails, the fallback returns the unit point -1: value 0 instead of 1. *)
Example ex_C53 : solve_subproblem ex_line ex_ball fail fail fbc fbc true
  = Ok (mkRes [Fin 3] (Fin 1) (Some 3%nat) (Some true) [Fin (-1)] Sphere).
Proof.
  destruct (old_unit _ _ _ _ ex_ball_proper) as (v & Ev & _ & _ & Hv). rewrite (Hv eq_refl) in Ev.
  cbn [length vzero repeat map] in Ev. unfold solve_subproblem. rewrite Ev.
  cbn [r_shape ex_ball fail negb fbc map bind raw_x raw_n_iterations raw_success].
  change [Fin 0] with (map Fin [0]). change [Fin (-1)] with (map Fin [-1]). rewrite !predict_x_fin by reflexivity.
  assert (P0 : predict_scalar ex_line (fun_of [0]) = 1) by (hcompute; lra).
  assert (P1 : predict_scalar ex_line (fun_of [-1]) = 0) by (hcompute; lra).
  rewrite P0, P1. cbn [xsub xopp xadd xle]. destruct (Rleb_spec 0 (- (0 + - (1)))); [|lra].
  cbn. do 2 f_equal; [do 2 f_equal; lra|f_equal; lra].
Qed.
(** A solver that returns NaN: the center is returned. *)
Example ex_C53_nan : solve_subproblem ex_line ex_ball (fun _ _ _ _ => Ok (mkRaw [NaN] None None)) fail fbc fbc true
  = Ok (mkRes [Fin 5] (Fin 0) None (Some false) [Fin 0] Sphere).
Proof.
  destruct (old_unit _ _ _ _ ex_ball_proper) as (v & Ev & _ & _ & Hv). rewrite (Hv eq_refl) in Ev.
  cbn [length vzero repeat map] in Ev. unfold solve_subproblem. rewrite Ev.
  cbn [r_shape ex_ball fail negb fbc map bind raw_x raw_n_iterations raw_success].
  rewrite (predict_x_nan ex_line [NaN] 0) by (reflexivity || (simpl; lia)). reflexivity.
Qed.
Example ex_C71 : exists r, robust_sphere_solver_inscribed_cube corner ex_line [0] = Ok r /\ fb_x r = Some [-1].
Proof.
  unfold robust_sphere_solver_inscribed_cube, robust_cube_solver. cbn [sm_h ex_line map length INR].
  rewrite sqrt_1. replace (1 / 1) with 1 by lra. unfold corner. cbn [length Nat.eqb combine forallb andb].
  destruct (Rleb_spec (- (1)) 1); [|lra]. cbn. eexists. split; [reflexivity|]. cbn. do 2 f_equal; lra.
Qed.
