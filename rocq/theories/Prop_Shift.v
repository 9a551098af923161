(** Property C183: translating the problem translates the run. *)
From Coq Require Import Reals List Arith ZArith Bool Lia Lra Sorted.
From Verif Require Import Base XR Vec FVec HistoryModel HistorySpec HistoryProofs WrapModel WrapProofs
  VolumeModel RegionModel AdjustModel AcceptModel FilterModel SubproblemModel
  LogSpec LogProofs Prop_Region Prop_Adjust AcceptProofs Prop_Accept Prop_Filter
  MainModel MainProofs MainPhases MainLoop Prop_Main Prop_Main2.
Import ListNotations.
Open Scope R_scope.

(** * Translations *)

(** x + c, entry by entry; entries without a partner stay as they are. *)
Fixpoint shift (c x : vec) {struct x} : vec :=
  match x, c with
  | a :: x', b :: c' => (a + b) :: shift c' x'
  | _, _ => x
  end.
Fixpoint shift_side (c : vec) (l : list (option R)) {struct l} : list (option R) :=
  match l, c with
  | a :: l', b :: c' => option_map (fun v => v + b) a :: shift_side c' l'
  | _, _ => l
  end.
Definition shift_bounds (c : vec) (b : option bounds) : option bounds :=
  option_map (fun b => mkBounds (option_map (shift_side c) (b_lower b)) (option_map (shift_side c) (b_upper b))) b.
Definition shift_region (c : vec) (reg : region) : region :=
  mkRegion (shift c (r_center reg)) (r_radius reg) (shift_bounds c (r_bounds reg)) (r_shape reg)
    (shift c (r_cube_lower reg)) (shift c (r_cube_upper reg)).

Lemma shift_length c x : length (shift c x) = length x.
Proof. revert c; induction x as [|a x IH]; destruct c; cbn; auto. Qed.
Lemma shift_side_length c x : length (shift_side c x) = length x.
Proof. revert c; induction x as [|a x IH]; destruct c; cbn; auto. Qed.
(** The translation by zero. *)
Lemma shift_zero c x : Forall (eq 0) c -> shift c x = x.
Proof.
  intros F. revert x; induction F as [|t c E F IH]; intros [|a x]; cbn; try easy. rewrite IH, <- E. f_equal. lra.
Qed.

Lemma shift_add c x : length x = length c -> shift c x = map2 Rplus x c.
Proof. revert c; induction x as [|a x IH]; destruct c; cbn; intros H; try discriminate; auto. f_equal. apply IH. lia. Qed.

(** Functions of differences do not notice the translation. *)
Lemma map2_shift_diff {B} (f : R -> R -> B) c x y :
  (forall a b t, f (a + t) (b + t) = f a b) -> map2 f (shift c x) (shift c y) = map2 f x y.
Proof.
  intros Hf. revert c y; induction x as [|a x IH]; intros c y; [easy|].
  destruct c as [|t c], y as [|b y]; cbn; try easy; now rewrite Hf, IH.
Qed.
Lemma map2_shift_l (f : R -> R -> R) c x y :
  (forall a b t, f a (b + t) = f a b + t) -> map2 f x (shift c y) = shift c (map2 f x y).
Proof.
  intros Hf. revert c y; induction x as [|a x IH]; intros c y; [easy|].
  destruct c as [|t c], y as [|b y]; cbn; try easy; now rewrite Hf, IH.
Qed.
Lemma map2_shift_both (f : R -> R -> R) c x y :
  (forall a b t, f (a + t) (b + t) = f a b + t) -> map2 f (shift c x) (shift c y) = shift c (map2 f x y).
Proof.
  intros Hf. revert c y; induction x as [|a x IH]; intros c y; [easy|].
  destruct c as [|t c], y as [|b y]; cbn; try easy; now rewrite Hf, IH.
Qed.
Lemma map_shift (f : R -> R) c x :
  (forall a t, f (a + t) = f a + t) -> map f (shift c x) = shift c (map f x).
Proof.
  intros Hf. revert c; induction x as [|a x IH]; intros c; [easy|].
  destruct c as [|t c]; cbn; try easy; now rewrite Hf, IH.
Qed.
Lemma map2_shift_side {B} (f : R -> option R -> B) c x y :
  (forall a b t, f (a + t) (option_map (fun v => v + t) b) = f a b) ->
  map2 f (shift c x) (shift_side c y) = map2 f x y.
Proof.
  intros Hf. revert c y; induction x as [|a x IH]; intros c y; [easy|].
  destruct c as [|t c], y as [|b y]; cbn; try easy; now rewrite Hf, IH.
Qed.
Lemma map2_shift_side_l (f : R -> option R -> R) c x y :
  (forall a b t, f (a + t) (option_map (fun v => v + t) b) = f a b + t) ->
  map2 f (shift c x) (shift_side c y) = shift c (map2 f x y).
Proof.
  intros Hf. revert c y; induction x as [|a x IH]; intros c y; [easy|].
  destruct c as [|t c], y as [|b y]; cbn; try easy; now rewrite Hf, IH.
Qed.

Lemma dist_shift c x y : dist (shift c x) (shift c y) = dist x y.
Proof. unfold dist, vsub. rewrite map2_shift_diff; [easy|]. intros. lra. Qed.

Lemma side_any_finite_shift c l : existsb isfinite_o (shift_side c l) = existsb isfinite_o l.
Proof. revert c; induction l as [|a l IH]; destruct c; cbn; auto. rewrite IH. now destruct a. Qed.
Lemma has_any_shift c b :
  has_any (mkBounds (option_map (shift_side c) (b_lower b)) (option_map (shift_side c) (b_upper b))) = has_any b.
Proof.
  unfold has_any, side_any_finite; cbn. destruct (b_lower b), (b_upper b); cbn; now rewrite ?side_any_finite_shift.
Qed.

Lemma any_bounds_binding_shift c b x r :
  any_bounds_binding (shift_bounds c b) (shift c x) r = any_bounds_binding b x r.
Proof.
  destruct b as [b|]; [|easy]. cbn [shift_bounds option_map any_bounds_binding].
  rewrite has_any_shift. destruct (has_any b); [|easy]. cbn [b_lower b_upper].
  assert (DL : forall l, map2 dist_lower (shift c x) (shift_side c l) = map2 dist_lower x l).
  { intros l. apply map2_shift_side. intros a [v|] t; cbn; [f_equal; lra|easy]. }
  assert (DU : forall l, map2 dist_upper (shift c x) (shift_side c l) = map2 dist_upper x l).
  { intros l. apply map2_shift_side. intros a [v|] t; cbn; [f_equal; lra|easy]. }
  destruct (b_lower b), (b_upper b); cbn [option_map]; now rewrite ?DL, ?DU.
Qed.

Lemma create_cube_bounds_shift c b x r :
  create_cube_bounds (shift c x) r (shift_bounds c b) =
  (shift c (fst (create_cube_bounds x r b)), shift c (snd (create_cube_bounds x r b))).
Proof.
  unfold create_cube_bounds.
  rewrite (map_shift (fun c => c - r)) by (intros; lra). rewrite (map_shift (fun c => c + r)) by (intros; lra).
  assert (CL : forall y l, map2 clip_lower (shift c y) (shift_side c l) = shift c (map2 clip_lower y l)).
  { intros y l. apply map2_shift_side_l. intros a [v|] t; cbn; [|easy].
    unfold Rmax. destruct (Rle_dec (a + t) (v + t)), (Rle_dec a v); lra. }
  assert (CU : forall y l, map2 clip_upper (shift c y) (shift_side c l) = shift c (map2 clip_upper y l)).
  { intros y l. apply map2_shift_side_l. intros a [v|] t; cbn; [|easy].
    unfold Rmin. destruct (Rle_dec (a + t) (v + t)), (Rle_dec a v); lra. }
  destruct b as [[[l|] [u|]]|]; cbn [shift_bounds option_map b_lower b_upper fst snd]; now rewrite ?CL, ?CU.
Qed.

Definition map_res {A B} (f : A -> B) (r : res A) : res B := match r with Ok a => Ok (f a) | Err e => Err e end.

Lemma make_region_shift c x r b :
  make_region (shift c x) r (shift_bounds c b) = map_res (shift_region c) (make_region x r b).
Proof.
  unfold make_region, get_shape. rewrite any_bounds_binding_shift.
  destruct (any_bounds_binding b x r) as [bi|e]; [|easy]. cbn [bind].
  unfold get_cube_bounds. rewrite shift_length, create_cube_bounds_shift. cbn zeta.
  set (rr := match (if bi then Cube else Sphere) with Sphere => r | Cube => _ end).
  now destruct (create_cube_bounds x rr b) as [lo up].
Qed.

Lemma effective_center_shift c reg : effective_center (shift_region c reg) = shift c (effective_center reg).
Proof.
  unfold effective_center; cbn. destruct (r_shape reg); [easy|]. apply map2_shift_both. intros. lra.
Qed.
Lemma effective_radius_shift c reg : effective_radius (shift_region c reg) = effective_radius reg.
Proof.
  unfold effective_radius; cbn. destruct (r_shape reg); [easy|]. f_equal. apply map2_shift_diff.
  intros a b t. f_equal. lra.
Qed.

Lemma map2_shift3_diff {B} (f : R -> R * R -> B) c x lo up :
  (forall a l u t, f (a + t) (l + t, u + t) = f a (l, u)) ->
  map2 f (shift c x) (combine (shift c lo) (shift c up)) = map2 f x (combine lo up).
Proof.
  intros Hf. revert c lo up; induction x as [|a x IH]; intros c lo up; [easy|].
  destruct c as [|t c], lo as [|l lo], up as [|u up]; cbn; try easy; now rewrite Hf, IH.
Qed.
Lemma map2_shift3_l (f : R -> R * R -> R) c x lo up :
  (forall a l u t, f a (l + t, u + t) = f a (l, u) + t) ->
  map2 f x (combine (shift c lo) (shift c up)) = shift c (map2 f x (combine lo up)).
Proof.
  intros Hf. revert c lo up; induction x as [|a x IH]; intros c lo up; [easy|].
  destruct c as [|t c], lo as [|l lo], up as [|u up]; cbn; try easy; now rewrite Hf, IH.
Qed.
Lemma map2_shift3_both (f : R -> R * R -> R) c x lo up :
  (forall a l u t, f (a + t) (l + t, u + t) = f a (l, u) + t) ->
  map2 f (shift c x) (combine (shift c lo) (shift c up)) = shift c (map2 f x (combine lo up)).
Proof.
  intros Hf. revert c lo up; induction x as [|a x IH]; intros c lo up; [easy|].
  destruct c as [|t c], lo as [|l lo], up as [|u up]; cbn; try easy; now rewrite Hf, IH.
Qed.

Lemma map_to_unit_shift c reg x : map_to_unit (shift_region c reg) (shift c x) = map_to_unit reg x.
Proof.
  unfold map_to_unit; cbn. destruct (r_shape reg).
  - unfold map_to_unit_sphere. apply map2_shift_diff. intros a b t. f_equal. lra.
  - unfold map_to_unit_cube. apply map2_shift3_diff. intros a l u t.
    replace (a + t - (l + t)) with (a - l) by lra. replace (u + t - (l + t)) with (u - l) by lra. easy.
Qed.
Lemma map_from_unit_shift c reg x : map_from_unit (shift_region c reg) x = shift c (map_from_unit reg x).
Proof.
  unfold map_from_unit; cbn. destruct (r_shape reg).
  - unfold map_from_unit_sphere. apply map2_shift_l. intros. lra.
  - unfold map_from_unit_cube, vclip.
    rewrite (map2_shift3_l (fun xi '(l, u) => (u - l) * (xi + 1) / 2 + l)).
    + apply map2_shift3_both. intros a l u t. unfold Rmin, Rmax.
      destruct (Rle_dec (a + t) (l + t)), (Rle_dec a l); try lra;
      repeat destruct (Rle_dec _ _); try lra.
    + intros a l u t. replace (u + t - (l + t)) with (u - l) by lra. lra.
Qed.

(** * Dropping points *)

Definition shift_pair (c : vec) (p : list vec * list nat) : list vec * list nat := (map (shift c) (fst p), snd p).

Lemma dists_shift c x xs : map (fun y => dist y (shift c x)) (map (shift c) xs) = map (fun y => dist y x) xs.
Proof. rewrite map_map. apply map_ext. intros y. apply dist_shift. Qed.

Lemma mapi_from_map {A B C} (g : A -> B) (f : nat -> B -> C) l : forall i,
  mapi_from i f (map g l) = mapi_from i (fun i a => f i (g a)) l.
Proof. induction l as [|a l IH]; intros i; cbn; [easy|]. now rewrite IH. Qed.
Lemma mapi_from_ext {A B} (f g : nat -> A -> B) l : (forall i a, f i a = g i a) -> forall i,
  mapi_from i f l = mapi_from i g l.
Proof. intros E. induction l as [|a l IH]; intros i; cbn; [easy|]. now rewrite IH, E. Qed.

Lemma pairwise_shift c xs : pairwise (map (shift c) xs) = pairwise xs.
Proof.
  unfold pairwise. rewrite mapi_from_map. apply mapi_from_ext. intros i a.
  rewrite mapi_from_map. apply mapi_from_ext. intros j b. now rewrite dist_shift.
Qed.

Lemma drop_outside_shift c m r : forall xs is ds,
  drop_outside m r (map (shift c) xs) is ds =
  map_res (fun '(m, xs, is, ds) => (m, map (shift c) xs, is, ds)) (drop_outside m r xs is ds).
Proof.
  induction m as [|m IH]; intros xs is ds; cbn; [easy|].
  destruct (existsb _ ds); [|easy]. destruct (argmax ds) as [k|e]; [|easy]. cbn [bind].
  now rewrite np_delete_map, IH.
Qed.
Lemma drop_inside_shift c m i : forall xs is ds pd,
  drop_inside m i (map (shift c) xs) is ds pd = map_res (shift_pair c) (drop_inside m i xs is ds pd).
Proof.
  induction m as [|m IH]; intros xs is ds pd; cbn [drop_inside]; [easy|].
  destruct (argmin (concat pd)) as [k|e]; [|easy]. cbn [bind].
  destruct (nth_res is _) as [i1|e]; [|easy]. cbn [bind]. destruct (nth_res is _) as [i2|e]; [|easy]. cbn [bind].
  destruct (nth_res ds _) as [d1|e]; [|easy]. cbn [bind]. destruct (nth_res ds _) as [d2|e]; [|easy]. cbn [bind].
  now rewrite np_delete_map, IH.
Qed.
Lemma drop_worst_points_shift c xs is x i r n :
  drop_worst_points (map (shift c) xs) is (mkF (shift c x) i r) n =
  map_res (shift_pair c) (drop_worst_points xs is (mkF x i r) n).
Proof.
  destruct n as [|n]; [easy|]. unfold drop_worst_points. cbn [f_x f_radius f_index].
  rewrite dists_shift, drop_outside_shift.
  destruct (drop_outside _ r xs is _) as [[[[m xs1] is1] ds1]|e]; [|easy]. cbn [map_res bind].
  destruct m as [|m]; [easy|]. rewrite pairwise_shift. apply drop_inside_shift.
Qed.

Lemma drop_outside_incl m r : forall xs is ds m' xs' is' ds',
  drop_outside m r xs is ds = Ok (m', xs', is', ds') -> incl xs' xs.
Proof.
  induction m as [|m IH]; intros xs is ds m' xs' is' ds'; cbn.
  - intros [= <- <- <- <-]. apply incl_refl.
  - destruct (existsb _ ds).
    + destruct (argmax ds) as [k|e]; [|easy]. cbn [bind]. intros H%IH a Ha. eapply np_delete_incl. now apply H.
    + intros [= <- <- <- <-]. apply incl_refl.
Qed.
Lemma drop_inside_incl m i : forall xs is ds pd xs' is',
  drop_inside m i xs is ds pd = Ok (xs', is') -> incl xs' xs.
Proof.
  induction m as [|m IH]; intros xs is ds pd xs' is'; cbn [drop_inside].
  - intros [= <- <-]. apply incl_refl.
  - destruct (argmin (concat pd)) as [k|e]; [|easy]. cbn [bind].
    destruct (nth_res is _) as [i1|e]; [|easy]. cbn [bind]. destruct (nth_res is _) as [i2|e]; [|easy]. cbn [bind].
    destruct (nth_res ds _) as [d1|e]; [|easy]. cbn [bind]. destruct (nth_res ds _) as [d2|e]; [|easy]. cbn [bind].
    intros H%IH a Ha. eapply np_delete_incl. now apply H.
Qed.
Lemma drop_worst_points_incl xs is st n xs' is' :
  drop_worst_points xs is st n = Ok (xs', is') -> incl xs' xs.
Proof.
  destruct n as [|n]; [intros [= <- <-]; apply incl_refl|]. unfold drop_worst_points.
  destruct (drop_outside _ _ xs is _) as [[[[m xs1] is1] ds1]|e] eqn:E; [|easy]. cbn [bind].
  apply drop_outside_incl in E. destruct m as [|m].
  - now intros [= <- <-].
  - intros H%drop_inside_incl. intros a Ha. apply E, H, Ha.
Qed.

(** * Histories of both runs *)

(** Results of both runs. *)
Definition rres {A B} (P : A -> B -> Prop) (r : res A) (r' : res B) : Prop :=
  match r, r' with
  | Ok a, Ok b => P a b
  | Err e, Err e' => e' = e
  | _, _ => False
  end.

Lemma rres_bind {A A' B B'} (P : A -> A' -> Prop) (Q : B -> B' -> Prop) r r' f f' :
  rres P r r' -> (forall a a', P a a' -> rres Q (f a) (f' a')) -> rres Q (bind r f) (bind r' f').
Proof. intros H F. destruct r, r'; cbn in *; try easy. now apply F. Qed.
Lemma rres_map {A B} (P : A -> B -> Prop) (f : A -> B) r :
  (forall a, r = Ok a -> P a (f a)) -> rres P r (map_res f r).
Proof. intros H. destruct r; cbn; auto. Qed.

Section Histories.
Variables (c : vec) (d : nat).
Hypothesis Hd : d <> 0%nat.

Definition points (xs : list vec) : Prop := Forall (fun x => length x = d) xs.

(** The points of one history are those of the other one, translated; everything else is equal
    (apart from the padding). *)
Definition hrel (h h' : hist) : Prop :=
  h_ft h' = h_ft h /\ h_fvecs h' = h_fvecs h /\ h_fvals h' = h_fvals h /\ h_nxs h' = h_nxs h /\
  h_nfun h' = h_nfun h /\ h_map h' = h_map h /\
  match h_xs h, h_xs h' with
  | None, None => h_nxs h = 0%nat
  | Some b, Some b' =>
      b_width b = d /\ b_width b' = d /\ (h_nxs h <= length (b_rows b))%nat /\
      length (b_rows b') = length (b_rows b) /\ points (firstn (h_nxs h) (b_rows b)) /\
      firstn (h_nxs h) (b_rows b') = map (shift c) (firstn (h_nxs h) (b_rows b))
  | _, _ => False
  end.

Lemma hrel_init ft pad pad' : hrel (hist_init ft pad) (hist_init ft pad').
Proof. unfold hrel; cbn. auto 10. Qed.

Definition rpoints (xs xs' : list vec) : Prop := xs' = map (shift c) xs /\ points xs.
Definition rpoint (x x' : vec) : Prop := x' = shift c x /\ length x = d.

Lemma get_xs_all_rel h h' : hrel h h' -> rres rpoints (get_xs_all h) (get_xs_all h').
Proof.
  intros (_ & _ & _ & N & _ & _ & H). unfold get_xs_all. rewrite N.
  destruct (h_xs h), (h_xs h'); cbn; try easy; unfold rpoints; tauto.
Qed.

Lemma points_nth xs i x : points xs -> nth_error xs i = Some x -> length x = d.
Proof. intros P H. eapply (proj1 (Forall_forall _ _) P), nth_error_In, H. Qed.
Lemma points_incl xs xs' : points xs -> incl xs' xs -> points xs'.
Proof. intros P I. apply Forall_forall. intros x Hx. exact (proj1 (Forall_forall _ _) P x (I x Hx)). Qed.

Lemma get_one_rel out z : points out ->
  rres rpoint (let* i := norm_index (length out) z in nth_res out i)
    (let* i := norm_index (length (map (shift c) out)) z in nth_res (map (shift c) out) i).
Proof.
  intros P. rewrite map_length. destruct (norm_index _ z) as [i|e]; [|easy]. cbn [bind]. unfold nth_res.
  rewrite nth_error_map. destruct (nth_error out i) eqn:E; cbn; [|easy]. split; [easy|]. eapply points_nth; eauto.
Qed.

Lemma get_xs_many_rel h h' zs : hrel h h' -> rres rpoints (get_xs_many h zs) (get_xs_many h' zs).
Proof.
  intros H. unfold get_xs_many. eapply rres_bind; [now apply get_xs_all_rel|]. intros out out' [-> P].
  induction zs as [|z zs IH]; cbn [mapM]; [split; [easy|constructor]|].
  eapply rres_bind; [now apply get_one_rel|]. intros x x' [-> L]. eapply rres_bind; [apply IH|].
  intros xs xs' [-> P']. split; [easy|]. now constructor.
Qed.
Lemma get_xs_one_rel h h' z : hrel h h' -> rres rpoint (get_xs_one h z) (get_xs_one h' z).
Proof.
  intros H. unfold get_xs_one. eapply rres_bind; [now apply get_xs_all_rel|]. intros out out' [-> P].
  now apply get_one_rel.
Qed.

Lemma get_indices_rel h h' x r : hrel h h' ->
  get_x_indices_in_region h' (shift c x) r = get_x_indices_in_region h x r.
Proof.
  intros H. pose proof (get_xs_all_rel h h' H) as A. destruct H as (_ & _ & _ & _ & N & _).
  unfold get_x_indices_in_region. rewrite N. destruct (h_nfun h =? 0)%nat; [easy|].
  destruct (get_xs_all h) as [xs|e], (get_xs_all h') as [xs'|e']; cbn in A; try easy; cbn [bind].
  - destruct A as [-> _]. f_equal. f_equal. rewrite map_map. apply map_ext. intros y. now rewrite dist_shift.
  - now subst e'.
Qed.

(** Queries that do not read the points *)
Lemma extract_rel {A} (arr : option (list A)) h h' zs : hrel h h' -> extract_many arr h' zs = extract_many arr h zs.
Proof. intros (_ & _ & _ & N & F & M & _). unfold extract_many. now rewrite N, F, M. Qed.
Lemma get_fvecs_many_rel h h' zs : hrel h h' -> get_fvecs_many h' zs = get_fvecs_many h zs.
Proof. intros H. unfold get_fvecs_many, fvecs_rows. rewrite (extract_rel _ _ _ _ H). now destruct H as (_ & -> & _). Qed.
Lemma get_fvals_many_rel h h' zs : hrel h h' -> get_fvals_many h' zs = get_fvals_many h zs.
Proof. intros H. unfold get_fvals_many. rewrite (extract_rel _ _ _ _ H). now destruct H as (_ & _ & -> & _). Qed.
Lemma get_fvals_one_rel h h' z : hrel h h' -> get_fvals_one h' z = get_fvals_one h z.
Proof. intros H. unfold get_fvals_one, extract_one. rewrite (extract_rel _ _ _ _ H). now destruct H as (_ & _ & -> & _). Qed.
Lemma get_fvecs_one_rel h h' z : hrel h h' -> get_fvecs_one h' z = get_fvecs_one h z.
Proof.
  intros H. unfold get_fvecs_one, extract_one, fvecs_rows. rewrite (extract_rel _ _ _ _ H).
  now destruct H as (_ & -> & _).
Qed.
Lemma get_n_evals_rel h h' zs : hrel h h' -> get_n_evals h' zs = get_n_evals h zs.
Proof. intros H. unfold get_n_evals. now rewrite (get_fvals_many_rel _ _ _ H). Qed.
Lemma fvecs_width_rel h h' : hrel h h' -> fvecs_width h' = fvecs_width h.
Proof. intros H. unfold fvecs_width. now destruct H as (_ & -> & _). Qed.

Lemma np_repeat_rel xs xs' n : rpoints xs xs' -> rres rpoints (np_repeat xs n) (np_repeat xs' n).
Proof.
  intros [-> P]. unfold np_repeat. rewrite map_length.
  assert (Q : forall k, points (rep_each xs k)).
  { intros k. eapply points_incl; [exact P|]. intros a Ha. eapply rep_each_In, Ha. }
  destruct (length xs =? length n)%nat; [cbn; rewrite rep_each_map; now split|].
  destruct n as [|k [|]]; cbn; try easy. rewrite rep_each_map. now split.
Qed.

Lemma get_model_data_rel h h' zs av : hrel h h' ->
  rres (fun p p' => rpoints (fst p) (fst p') /\ snd p' = snd p) (get_model_data h zs av) (get_model_data h' zs av).
Proof.
  intros H. unfold get_model_data. eapply rres_bind; [now apply get_xs_many_rel|]. intros xs xs' X.
  rewrite (get_fvecs_many_rel _ _ _ H). destruct (get_fvecs_many h zs) as [fv|e]; [|easy]. cbn [bind].
  rewrite (fvecs_width_rel _ _ H). destruct av; [now split|]. destruct fv; [easy|].
  eapply rres_bind; [now apply np_repeat_rel|]. intros a a' A. now split.
Qed.

(** * Changes of the history *)

Lemma extend_length {A} (p : A) rows pos n : (pos <= length rows)%nat -> (pos + n <= length (extend p rows pos n))%nat.
Proof.
  intros H. unfold extend. destruct (Nat.ltb_spec (length rows) (pos + n)); [|lia].
  rewrite app_length, repeat_length. lia.
Qed.
Lemma extend_firstn {A} (p : A) rows pos n : (pos <= length rows)%nat -> firstn pos (extend p rows pos n) = firstn pos rows.
Proof.
  intros H. unfold extend. destruct (Nat.ltb_spec (length rows) (pos + n)); [|easy].
  rewrite firstn_app. replace (pos - length rows)%nat with 0%nat by lia. now rewrite firstn_O, app_nil_r.
Qed.
Lemma extend_length_eq {A} (p q : A) rows rows' pos n : length rows' = length rows ->
  length (extend q rows' pos n) = length (extend p rows pos n).
Proof.
  intros H. unfold extend. rewrite H. destruct (Nat.ltb_spec (length rows) (pos + n)); [|easy].
  now rewrite !app_length, !repeat_length, H.
Qed.
Lemma write_at_length {A} (arr new : list A) pos : (pos + length new <= length arr)%nat ->
  length (write_at arr new pos) = length arr.
Proof. intros H. unfold write_at. rewrite !app_length, firstn_length, skipn_length. lia. Qed.
Lemma write_at_firstn {A} (arr new : list A) pos : (pos + length new <= length arr)%nat ->
  firstn (pos + length new) (write_at arr new pos) = firstn pos arr ++ new.
Proof.
  intros H. unfold write_at. rewrite app_assoc, firstn_app.
  rewrite firstn_all2 by (rewrite app_length, firstn_length; lia).
  rewrite app_length, firstn_length. replace (pos + length new - _)%nat with 0%nat by lia. now rewrite firstn_O, app_nil_r.
Qed.
Lemma fit_rows {A} (rows : list (list A)) w : Forall (fun x => length x = w) rows -> mapM (fit_row w) rows = Ok rows.
Proof.
  induction 1 as [|x rows L _ IH]; [easy|]. cbn [mapM]. unfold fit_row at 1. rewrite L, Nat.eqb_refl. cbn [bind].
  now rewrite IH.
Qed.
Lemma points_rectangular xs : points xs -> rectangular xs = true.
Proof.
  intros P. destruct xs as [|x xs]; [easy|]. cbn. inversion P as [|? ? L Q]; subst x0 l. apply forallb_forall. intros y Hy.
  apply Nat.eqb_eq. rewrite L. exact (proj1 (Forall_forall _ _) Q y Hy).
Qed.
Lemma rpoints_points xs xs' : rpoints xs xs' -> points xs'.
Proof.
  intros [-> P]. apply Forall_forall. intros x (y & <- & Hy)%in_map_iff. rewrite shift_length.
  exact (proj1 (Forall_forall _ _) P y Hy).
Qed.
Lemma points_width x xs : points (x :: xs) -> row_width (x :: xs) = d.
Proof. intros P. now inversion P. Qed.

Lemma add_entries2_rel h h' (xs xs' : list vec) : hrel h h' -> rpoints xs xs' ->
  exists bf bf', add_entries2 (h_pad h) (h_xs h) d xs (h_nxs h) = Ok bf /\
    add_entries2 (h_pad h') (h_xs h') d xs' (h_nxs h') = Ok bf' /\
    b_width bf = d /\ b_width bf' = d /\ (h_nxs h + length xs <= length (b_rows bf))%nat /\
    length (b_rows bf') = length (b_rows bf) /\ points (firstn (h_nxs h + length xs) (b_rows bf)) /\
    firstn (h_nxs h + length xs) (b_rows bf') = map (shift c) (firstn (h_nxs h + length xs) (b_rows bf)).
Proof.
  intros (_ & _ & _ & N & _ & _ & H) X. rewrite N.
  pose proof (rpoints_points _ _ X) as P'. destruct X as [-> P].
  assert (G : forall b b', b_width b = d /\ b_width b' = d /\ (h_nxs h <= length (b_rows b))%nat /\
      length (b_rows b') = length (b_rows b) /\ points (firstn (h_nxs h) (b_rows b)) /\
      firstn (h_nxs h) (b_rows b') = map (shift c) (firstn (h_nxs h) (b_rows b)) ->
    alloc2 (h_pad h) (h_xs h) d = b -> alloc2 (h_pad h') (h_xs h') d = b' ->
    exists bf bf', add_entries2 (h_pad h) (h_xs h) d xs (h_nxs h) = Ok bf /\
    add_entries2 (h_pad h') (h_xs h') d (map (shift c) xs) (h_nxs h) = Ok bf' /\
    b_width bf = d /\ b_width bf' = d /\ (h_nxs h + length xs <= length (b_rows bf))%nat /\
    length (b_rows bf') = length (b_rows bf) /\ points (firstn (h_nxs h + length xs) (b_rows bf)) /\
    firstn (h_nxs h + length xs) (b_rows bf') = map (shift c) (firstn (h_nxs h + length xs) (b_rows bf))).
  { intros b b' (W & W' & L & LL & PP & FF) E E'. unfold add_entries2. rewrite E, E', W, W'.
    rewrite !fit_rows by assumption. destruct (Nat.eqb_spec d 0) as [|_]; [easy|]. cbn [bind].
    eexists _, _. split; [reflexivity|]. split; [reflexivity|]. cbn [b_width b_rows]. rewrite map_length.
    set (e := extend (repeat (h_pad h) d) (b_rows b) (h_nxs h) (length xs)).
    set (e' := extend (repeat (h_pad h') d) (b_rows b') (h_nxs h) (length xs)).
    assert (Le : (h_nxs h + length xs <= length e)%nat) by now apply extend_length.
    assert (Lee : length e' = length e) by now apply extend_length_eq.
    assert (Fe : firstn (h_nxs h) e = firstn (h_nxs h) (b_rows b)) by now apply extend_firstn.
    assert (Fe' : firstn (h_nxs h) e' = firstn (h_nxs h) (b_rows b')) by (apply extend_firstn; lia).
    assert (Lx : length (map (shift c) xs) = length xs) by apply map_length.
    split; [easy|]. split; [easy|].
    assert (W1 : length (write_at e xs (h_nxs h)) = length e) by now apply write_at_length.
    assert (W2 : length (write_at e' (map (shift c) xs) (h_nxs h)) = length e')
      by (apply write_at_length; rewrite Lx, Lee; exact Le).
    split; [rewrite W1; exact Le|]. split; [now rewrite W1, W2|].
    pose proof (write_at_firstn e xs (h_nxs h) Le) as F1. rewrite F1, Fe.
    pose proof (write_at_firstn e' (map (shift c) xs) (h_nxs h)) as F2. rewrite Lx in F2. rewrite F2, Fe', FF by now rewrite Lee.
    split; [now apply Forall_app|]. now rewrite map_app. }
  destruct (h_xs h) as [b|] eqn:Eb, (h_xs h') as [b'|] eqn:Eb'; try easy.
  - now apply (G b b').
  - apply (G (mkBuf d (repeat (repeat (h_pad h) d) initial_rows)) (mkBuf d (repeat (repeat (h_pad h') d) initial_rows)));
      [|reflexivity|reflexivity].
    cbn [b_width b_rows]. rewrite H, !firstn_O. split; [easy|]. split; [easy|]. split; [apply Nat.le_0_l|].
    split; [now rewrite !repeat_length|]. split; [constructor|easy].
Qed.

Lemma add_xs_rel h h' (xs xs' : list vec) a a' : hrel h h' -> rpoints xs xs' ->
  match a with X1 x => xs = [x] | X2 l => xs = l end -> match a' with X1 x => xs' = [x] | X2 l => xs' = l end ->
  match a, a' with X1 _, X1 _ | X2 _, X2 _ => True | _, _ => False end ->
  hrel (fst (add_xs h a)) (fst (add_xs h' a')) /\ snd (add_xs h' a') = snd (add_xs h a).
Proof.
  intros H X A A' AA. pose proof (rpoints_points _ _ X) as P'.
  assert (R : (match a with X1 x => [x] | X2 l => l end) = xs) by now destruct a.
  assert (R' : (match a' with X1 x => [x] | X2 l => l end) = xs') by now destruct a'.
  pose proof X as [EX P].
  unfold add_xs. rewrite R, R', (points_rectangular _ P), (points_rectangular _ P'). cbn [negb].
  assert (LX : length xs' = length xs) by (rewrite EX; apply map_length). rewrite LX.
  destruct xs as [|x xs]; [now destruct a, a'|]. rewrite (points_width _ _ P).
  destruct xs' as [|x' xs']; [discriminate LX|]. rewrite (points_width _ _ P').
  destruct (Nat.eqb_spec d 0) as [|_]; [easy|]. cbn [length Nat.eqb orb].
  destruct (add_entries2_rel h h' _ _ H X) as (bf & bf' & E & E' & W1 & W2 & L1 & L2 & PP & FF).
  cbn [length] in *. rewrite E, E'. cbn [fst snd].
  destruct H as (T & FV & FL & N & NF & MP & _). rewrite N. split.
  - unfold hrel; cbn [h_ft h_fvecs h_fvals h_nxs h_nfun h_map h_xs]. rewrite MP. tauto.
  - now destruct a, a'.
Qed.
End Histories.

(** * Both runs, step by step *)

Section Runs.
Variables (c : vec) (d : nat) (b : option bounds).
Hypothesis Hd : d <> 0%nat.

Notation hrel := (hrel c d).
Notation rpoints := (rpoints c d).
Notation rpoint := (rpoint c d).

Definition sim {A B} (P : A -> B -> Prop) (m : M A) (m' : M B) : Prop :=
  forall h h', hrel h h' -> hrel (fst (m h)) (fst (m' h')) /\ rres P (snd (m h)) (snd (m' h')).

Lemma sim_ret {A B} (P : A -> B -> Prop) a a' : P a a' -> sim P (mret a) (mret a').
Proof. intros H h h' R. now split. Qed.
Lemma sim_bind {A A' B B'} (P : A -> A' -> Prop) (Q : B -> B' -> Prop) m m' f f' :
  sim P m m' -> (forall a a', P a a' -> sim Q (f a) (f' a')) -> sim Q (mbind m f) (mbind m' f').
Proof.
  intros H F h h' R. unfold mbind. destruct (H h h' R) as [R1 X].
  destruct (m h) as [h1 [a|e]], (m' h') as [h1' [a'|e']]; cbn [fst snd rres] in *; try easy. now apply (F a a' X).
Qed.
Lemma sim_lift {A B} (P : A -> B -> Prop) r r' : rres P r r' -> sim P (mlift r) (mlift r').
Proof. intros H h h' R. now split. Qed.
Lemma sim_query {A B} (P : A -> B -> Prop) q q' :
  (forall h h', hrel h h' -> rres P (q h) (q' h')) -> sim P (mquery q) (mquery q').
Proof. intros H h h' R. split; [easy|]. now apply H. Qed.
Lemma sim_impl {A B} (P Q : A -> B -> Prop) m m' : (forall a a', P a a' -> Q a a') -> sim P m m' -> sim Q m m'.
Proof.
  intros I H h h' R. destruct (H h h' R) as [R1 X]. split; [easy|].
  destruct (snd (m h)), (snd (m' h')); cbn in *; auto.
Qed.
Lemma rres_eq {A} (r r' : res A) : r' = r -> rres eq r r'.
Proof. intros ->. now destruct r; cbn. Qed.

Lemma sim_add_x x x' : rpoint x x' -> sim eq (m_add_x x) (m_add_x x').
Proof.
  intros [E L] h h' H. unfold m_add_x.
  destruct (add_xs_rel c d Hd h h' [x] [x'] (X1 x) (X1 x') H) as [R S]; auto.
  { split; [now rewrite E|]. now constructor. }
  destruct (add_xs h (X1 x)) as [h1 [i|e]], (add_xs h' (X1 x')) as [h1' [i'|e']]; cbn [fst snd] in *; try discriminate.
  - injection S as ->. now destruct i; cbn.
  - injection S as ->. now cbn.
Qed.
Lemma sim_add_xs xs xs' : rpoints xs xs' -> sim eq (m_add_xs xs) (m_add_xs xs').
Proof.
  intros X h h' H. unfold m_add_xs.
  destruct (add_xs_rel c d Hd h h' xs xs' (X2 xs) (X2 xs') H X) as [R S]; auto.
  destruct (add_xs h (X2 xs)) as [h1 [i|e]], (add_xs h' (X2 xs')) as [h1' [i'|e']]; cbn [fst snd] in *; try discriminate.
  - injection S as ->. now destruct i; cbn.
  - injection S as ->. now cbn.
Qed.

(** The criterion of the translated problem. *)
Definition rcrit (crit crit' : criterion) : Prop :=
  forall h h' args args' k, hrel h h' -> rpoints args args' -> crit' h' args' k = crit h args k.

Lemma add_evals_rel h h' zs vs : hrel h h' ->
  hrel (fst (add_evals h zs vs)) (fst (add_evals h' zs vs)) /\ snd (add_evals h' zs vs) = snd (add_evals h zs vs).
Proof.
  intros H. pose proof H as (T & FV & FL & N & NF & MP & X). unfold add_evals. rewrite T, FV, FL, N, NF, MP.
  destruct (negb (forallb _ zs)); [now split|]. destruct (length zs =? 0)%nat; [now split|].
  destruct (to_fvecs (h_ft h) vs) as [[w fv]|e]; [|now split].
  destruct (negb (length zs =? length fv)%nat); [now split|].
  destruct (add_entries2 NaN (h_fvecs h) w fv (h_nfun h)) as [bf|e]; [|now split].
  destruct (map_append_all (h_map h) _) as [mp [u|e]]; cbn [fst snd]; (split; [|easy]);
    unfold Prop_Shift.hrel; cbn [h_ft h_fvecs h_fvals h_nxs h_nfun h_map h_xs]; tauto.
Qed.

Lemma sim_eval crit crit' k info : rcrit crit crit' -> sim eq (m_eval crit k info) (m_eval crit' k info).
Proof.
  intros HC h h' H. unfold m_eval, wrapped_criterion.
  destruct (map (fun p => (Z.of_nat (fst p), snd p)) info) as [|p l]; [now split|].
  pose proof (get_xs_many_rel c d h h' (map fst (p :: l)) H) as G.
  destruct (get_xs_many h (map fst (p :: l))) as [xs|e], (get_xs_many h' (map fst (p :: l))) as [xs'|e']; cbn [rres] in G; try easy; try (subst; now split).
  cbn [bind]. pose proof (np_repeat_rel c d xs xs' (map snd (p :: l)) G) as G2.
  destruct (np_repeat xs (map snd (p :: l))) as [ar|e], (np_repeat xs' (map snd (p :: l))) as [ar'|e']; cbn [rres] in G2; try easy; try (subst; now split).
  rewrite (HC h h' ar ar' _ H G2). replace (length ar') with (length ar) by (destruct G2 as [-> _]; now rewrite map_length).
  destruct (crit h ar _) as [ev|e]; [|now split].
  destruct (np_repeat (map fst (p :: l)) (map snd (p :: l))) as [zs|e]; [|now split].
  destruct (add_evals_rel h h' zs (map (fun o => clip_val (replace_traceback o)) ev) H) as [R S].
  destruct (add_evals h zs _) as [h1 r1], (add_evals h' zs _) as [h1' r1']. cbn [fst snd] in *. split; [easy|].
  now apply rres_eq.
Qed.

Lemma sim_fvals i : sim eq (m_fvals i) (m_fvals i).
Proof. apply sim_query. intros h h' H. apply rres_eq. now apply get_fvals_one_rel with (c := c) (d := d). Qed.

(** * Deciders *)

Definition wf_region (reg : region) : Prop :=
  length (r_center reg) = d /\ make_region (r_center reg) (r_radius reg) b = Ok reg.
Definition rregion (reg reg' : region) : Prop := reg' = shift_region c reg /\ wf_region reg.

Lemma make_region_rel x x' r : rpoint x x' ->
  rres rregion (make_region x r b) (make_region x' r (shift_bounds c b)).
Proof.
  intros [-> L]. rewrite make_region_shift. apply rres_map. intros reg E. split; [easy|].
  pose proof E as E2. unfold make_region in E. destruct (get_shape x r b) as [sh|e]; [|easy]. cbn [bind] in E.
  destruct (get_cube_bounds x r b sh) as [lo up]. injection E as <-. now split.
Qed.
Lemma wf_bounds reg : wf_region reg -> r_bounds reg = b.
Proof.
  intros [_ E]. unfold make_region in E. destruct (get_shape _ _ b) as [sh|e]; [|easy]. cbn [bind] in E.
  destruct (get_cube_bounds _ _ b sh) as [lo up]. now injection E as <-.
Qed.
Lemma replace_radius_rel reg reg' r : rregion reg reg' -> rres rregion (replace_radius reg r) (replace_radius reg' r).
Proof.
  intros [-> W]. unfold replace_radius. cbn [r_center r_bounds shift_region]. rewrite (wf_bounds _ W).
  apply make_region_rel. now destruct W.
Qed.
Lemma replace_center_radius_rel reg reg' x x' r : rregion reg reg' -> rpoint x x' ->
  rres rregion (replace_center_radius reg x r) (replace_center_radius reg' x' r).
Proof.
  intros [-> W] X. unfold replace_center_radius. cbn [r_bounds shift_region]. rewrite (wf_bounds _ W).
  now apply make_region_rel.
Qed.

Definition rsub (s s' : subsol) : Prop := rpoint (sub_x s) (sub_x s') /\ sub_ei s' = sub_ei s.
Definition rcur (s s' : cur) : Prop :=
  c_index s' = c_index s /\ rpoint (c_x s) (c_x s') /\ c_fval s' = c_fval s /\ rregion (c_region s) (c_region s').
Definition racc (a a' : acceptance) : Prop :=
  rpoint (a_x a) (a_x a') /\ a_fval a' = a_fval a /\ a_index a' = a_index a /\ a_rho a' = a_rho a /\
  a_accepted a' = a_accepted a /\ a_step_length a' = a_step_length a /\
  a_relative_step_length a' = a_relative_step_length a /\ a_candidate_index a' = a_candidate_index a /\
  rpoint (a_candidate_x a) (a_candidate_x a') /\ a_n_evals a' = a_n_evals a.

Lemma rdist x x' y y' : rpoint x x' -> rpoint y y' -> dist x' y' = dist x y.
Proof. intros [-> _] [-> _]. apply dist_shift. Qed.

Lemma racc_result cx cx' cf ci rho ac st st' k : rpoint cx cx' -> rcur st st' ->
  racc (get_acceptance_result cx cf ci rho ac st k) (get_acceptance_result cx' cf ci rho ac st' k).
Proof.
  intros X (I & Y & F & Rg). unfold get_acceptance_result, racc.
  cbn [a_x a_fval a_index a_rho a_accepted a_step_length a_relative_step_length a_candidate_index a_candidate_x a_n_evals].
  assert (Z : rpoint (if ac then cx else c_x st) (if ac then cx' else c_x st')) by now destruct ac.
  rewrite I, F, (rdist _ _ _ _ Z Y). destruct Rg as [-> _]. cbn [r_radius shift_region].
  split; [easy|]. split; [now destruct ac|]. split; [now destruct ac|]. auto 10.
Qed.
Lemma racc_finish cx cx' cf ci rho ac st st' k : rpoint cx cx' -> rcur st st' ->
  racc (finish cx cf ci rho ac st k) (finish cx' cf ci rho ac st' k).
Proof.
  intros X Y. unfold finish. destruct (isfinite cf); [now apply racc_result|].
  destruct Y as (I & Z & F & Rg). rewrite I, F. apply racc_result; [easy|]. unfold rcur. auto.
Qed.

(** The deciders of both problems; a line search is only allowed without bounds. *)
Definition rsampler (s s' : sampler) : Prop :=
  forall h h' reg reg' k xs xs', hrel h h' -> rregion reg reg' -> rpoints xs xs' ->
    rres rpoints (s h reg k xs) (s' h' reg' k xs').
Definition rdecider (D D' : decider) : Prop :=
  match D, D' with
  | Classic, Classic | NaiveNoisy, NaiveNoisy => True
  | Noisy v z lo hi, Noisy v' z' lo' hi' => v' = v /\ z' = z /\ lo' = lo /\ hi' = hi
  | LineSearch s f k, LineSearch s' f' k' => rsampler s s' /\ f' = f /\ k' = k /\ (b = None \/ Forall (eq 0) c)
  | _, _ => False
  end.

Lemma sim_simple crit crit' nc sub sub' st st' mi k : rcrit crit crit' -> rsub sub sub' -> rcur st st' ->
  sim racc (accept_simple crit nc sub st mi k) (accept_simple crit' nc sub' st' mi k).
Proof.
  intros HC [SX SE] C. unfold accept_simple. eapply sim_bind; [now apply sim_add_x|]. intros i ? <-.
  eapply sim_bind; [now apply sim_eval|]. intros _ _ _. eapply sim_bind; [apply sim_fvals|]. intros fv ? <-.
  apply sim_ret. pose proof C as (_ & _ & F & _). rewrite F, SE. now apply racc_finish.
Qed.

Lemma sim_noisy crit crit' nc sub sub' st st' v mi z lo hi : rcrit crit crit' -> rsub sub sub' -> rcur st st' ->
  sim racc (accept_noisy crit nc sub st v mi z lo hi) (accept_noisy crit' nc sub' st' v mi z lo hi).
Proof.
  intros HC [SX SE] C. unfold accept_noisy. pose proof C as (I & _ & F & _). rewrite I, SE.
  eapply sim_bind; [now apply sim_add_x|]. intros i ? <-.
  eapply sim_bind; [apply sim_fvals|]. intros ex ? <-.
  eapply sim_bind; [apply sim_lift, (@rres_eq (Z * Z)); reflexivity|]. intros sz ? <-.
  eapply sim_bind; [now apply sim_eval|]. intros _ _ _. eapply sim_bind; [apply sim_fvals|]. intros f1 ? <-.
  eapply sim_bind; [apply sim_fvals|]. intros f2 ? <-.
  apply sim_ret. now apply racc_finish.
Qed.

Lemma sample_on_line_shift x y g : map (shift c) (sample_on_line x y g) = sample_on_line (shift c x) (shift c y) g.
Proof.
  unfold sample_on_line. rewrite map_map. apply map_ext. intros a. symmetry. apply map2_shift_both. intros. lra.
Qed.
Lemma sample_on_line_points x y g : length x = d -> length y = d -> points d (sample_on_line x y g).
Proof. intros Lx Ly. apply Forall_forall. intros z (a & <- & _)%in_map_iff. rewrite map2_length. lia. Qed.

Lemma no_bounds_sphere reg : wf_region reg -> b = None -> r_shape reg = Sphere.
Proof. intros [_ E] B. rewrite B in E. now injection E as <-. Qed.

Lemma sim_speculative s s' reg reg' x x' k ls ls' f : rsampler s s' -> rregion reg reg' -> rpoint x x' ->
  match ls, ls' with Some l, Some l' => rpoints l l' | None, None => True | _, _ => False end ->
  sim rpoints (generate_speculative_sample s x reg k ls f) (generate_speculative_sample s' x' reg' k ls' f).
Proof.
  intros S G X L. unfold generate_speculative_sample.
  replace (r_radius reg') with (r_radius reg) by (destruct G as [-> _]; easy).
  eapply sim_bind; [apply sim_lift; now apply replace_center_radius_rel|]. intros sr sr' SR.
  eapply (sim_bind eq).
  { apply sim_query. intros h h' H. apply rres_eq. destruct SR as [-> _]. cbn [r_center r_radius shift_region].
    now apply get_indices_rel with (d := d). }
  intros idx ? <-. eapply sim_bind; [apply sim_query; intros h h' H; exact (get_xs_many_rel c d h h' _ H)|].
  intros xs xs' XS. apply sim_query. intros h h' H. apply S; [easy|easy|].
  destruct ls, ls'; try easy. destruct XS as [-> P1], L as [-> P2]. split; [now rewrite map_app|]. now apply Forall_app.
Qed.

Lemma sim_line crit crit' nc s s' sub sub' st st' f mi bs : rcrit crit crit' -> rsampler s s' -> b = None \/ Forall (eq 0) c ->
  rsub sub sub' -> rcur st st' ->
  sim racc (accept_classic_line_search crit nc s sub st f mi bs) (accept_classic_line_search crit' nc s' sub' st' f mi bs).
Proof.
  intros HC HS B SB C. unfold accept_classic_line_search. destruct (bs =? 1)%nat; [now apply sim_simple|].
  pose proof SB as [SX SE]. pose proof C as (I & Y & F & G).
  eapply sim_bind; [now apply sim_add_x|]. intros ci ? <-.
  assert (BD : is_on_border (c_region st') (sub_x sub') (/ 10) = is_on_border (c_region st) (sub_x sub) (/ 10)).
  { destruct G as [-> W]. unfold is_on_border. cbn [r_shape shift_region r_center r_radius].
    destruct SX as [-> _]. destruct B as [B|B].
    - rewrite (no_bounds_sphere _ W B). now rewrite dist_shift.
    - rewrite !(shift_zero c) by exact B. destruct (r_shape (c_region st)); [reflexivity|].
      cbn [r_cube_lower r_cube_upper shift_region]. rewrite !(shift_zero c) by exact B. reflexivity. }
  rewrite BD. clear BD. set (ls := if is_on_border _ _ _ then Some (sample_on_line (c_x st) _ _) else None).
  set (ls' := if is_on_border _ _ _ then Some (sample_on_line (c_x st') _ _) else None).
  assert (L : match ls, ls' with Some l, Some l' => rpoints l l' | None, None => True | _, _ => False end).
  { unfold ls, ls'. destruct (is_on_border (c_region st) (sub_x sub) (/ 10)); [|exact Logic.I]. destruct Y as [-> Ly], SX as [-> Lx].
    split; [symmetry; apply sample_on_line_shift|now apply sample_on_line_points]. }
  clearbody ls ls'.
  replace (match ls' with None => 0%nat | Some l => length l end) with (match ls with None => 0%nat | Some l => length l end)
    by (destruct ls, ls'; try easy; destruct L as [-> _]; now rewrite map_length).
  eapply (sim_bind (fun o o' => match o, o' with Some l, Some l' => rpoints l l' | None, None => True | _, _ => False end)).
  { destruct (0 <? _)%Z; [|now apply sim_ret]. eapply (sim_bind rpoints); [apply sim_speculative; auto|]. intros l l' LL. now apply sim_ret. }
  intros sp sp' SP. eapply (sim_bind rpoints).
  { apply sim_lift. destruct ls, ls', sp, sp'; try easy. destruct L as [-> P1], SP as [-> P2]. cbn. split; [now rewrite map_app|].
    now apply Forall_app. }
  intros nx nx' NX. eapply sim_bind; [now apply sim_add_xs|]. intros ni ? <-.
  eapply sim_bind; [now apply sim_eval|]. intros _ _ _. eapply sim_bind; [apply sim_fvals|]. intros cf ? <-.
  eapply (sim_bind eq).
  { apply sim_query. intros h h' H. apply rres_eq. now apply get_fvals_many_rel with (c := c) (d := d). }
  intros nf ? <-. eapply sim_bind; [apply sim_lift, (@rres_eq (nat * xr)); reflexivity|]. intros [bi bf] ? <-.
  eapply (sim_bind (fun p p' => rpoint (fst (fst p)) (fst (fst p')) /\ snd (fst p') = snd (fst p) /\ snd p' = snd p)).
  { destruct (xlt bf _); [|now apply sim_ret]. eapply sim_bind; [apply sim_query; intros h h' H; exact (get_xs_one_rel c d h h' _ H)|].
    intros x x' X. now apply sim_ret. }
  intros [[cx cv] cj] [[cx' cv'] cj'] (X & V & J). cbn [fst snd] in *. subst cv' cj'. apply sim_ret.
  rewrite F, SE. now apply racc_finish.
Qed.

Lemma sim_decider crit crit' nc D D' sub sub' st st' mi : rcrit crit crit' -> rdecider D D' ->
  rsub sub sub' -> rcur st st' ->
  sim racc (run_decider crit nc D sub st mi) (run_decider crit' nc D' sub' st' mi).
Proof.
  intros HC HD SB C. destruct D, D'; cbn [rdecider] in HD; try easy.
  - now apply sim_simple.
  - now apply sim_simple.
  - destruct HD as (HS & -> & -> & B). now apply sim_line.
  - destruct HD as (-> & -> & -> & ->). now apply sim_noisy.
Qed.
End Runs.
