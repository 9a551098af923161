(** Properties C14-C18: trust regions. *)
From Coq Require Import Reals List ZArith Bool Lia Lra Psatz.
From Verif Require Import Base XR Vec VolumeModel RegionModel Prop_Volume.
Import ListNotations.
Open Scope R_scope.

(** * Specification *)

(** [x] satisfies the lower (upper) bounds; infinite entries and missing sides impose
    nothing. *)
Definition sat_lower (s : option (list (option R))) (x : vec) : Prop :=
  forall l i xi li, s = Some l -> nth_error x i = Some xi ->
    nth_error l i = Some (Some li) -> li <= xi.
Definition sat_upper (s : option (list (option R))) (x : vec) : Prop :=
  forall u i xi ui, s = Some u -> nth_error x i = Some xi ->
    nth_error u i = Some (Some ui) -> xi <= ui.
Definition in_bounds (b : option bounds) (x : vec) : Prop :=
  match b with
  | None => True
  | Some b => sat_lower (b_lower b) x /\ sat_upper (b_upper b) x
  end.

(** Component-wise comparison of vectors. *)
Definition vle (x y : vec) : Prop :=
  forall i a b, nth_error x i = Some a -> nth_error y i = Some b -> a <= b.

(** Bounds have the dimension of the parameter vector. *)
Definition bounds_dim (n : nat) (b : option bounds) : Prop :=
  match b with
  | None => True
  | Some b => (forall l, b_lower b = Some l -> length l = n) /\
              (forall u, b_upper b = Some u -> length u = n)
  end.

(** Bounds are given as vectors on both sides or not at all. *)
Definition two_sided (b : option bounds) : Prop :=
  match b with
  | None => True
  | Some b => b_lower b <> None /\ b_upper b <> None
  end.

(** Some finite bound is at most [r] away from the coordinate of [c] it belongs to. *)
Definition near_lower (s : option (list (option R))) (c : vec) (r : R) : Prop :=
  exists l i ci li, s = Some l /\ nth_error c i = Some ci /\
    nth_error l i = Some (Some li) /\ ci - li <= r.
Definition near_upper (s : option (list (option R))) (c : vec) (r : R) : Prop :=
  exists u i ci ui, s = Some u /\ nth_error c i = Some ci /\
    nth_error u i = Some (Some ui) /\ ui - ci <= r.
Definition near_bound (b : option bounds) (c : vec) (r : R) : Prop :=
  match b with
  | None => False
  | Some b => near_lower (b_lower b) c r \/ near_upper (b_upper b) c r
  end.

(** * Lemmas *)

Lemma In_map2 A B C (f : A -> B -> C) l k z :
  In z (map2 f l k) <-> exists i a b, nth_error l i = Some a /\ nth_error k i = Some b /\
                                      z = f a b.
Proof.
  split.
  - intros H. apply In_nth_error in H as [i Hi]. rewrite map2_nth_error in Hi.
    destruct (nth_error l i) as [a|] eqn:E1; [|discriminate].
    destruct (nth_error k i) as [b|] eqn:E2; [|discriminate].
    injection Hi as <-. eauto 7.
  - intros (i & a & b & H1 & H2 & ->). apply (nth_error_In _ i).
    now rewrite map2_nth_error, H1, H2.
Qed.

Lemma xmin_le a b r : a <> NaN -> b <> NaN ->
  xmin a b <> NaN /\
  (xle (xmin a b) (Fin r) = true <-> xle a (Fin r) = true \/ xle b (Fin r) = true).
Proof.
  unfold xmin. destruct a as [x| | |], b as [y| | |]; simpl; intros; try easy;
    try (split; [discriminate|]; intuition discriminate).
  destruct (Rleb_spec x y); simpl; (split; [discriminate|]);
    rewrite ?Rleb_true; split; lra || tauto.
Qed.

Lemma fold_xmin_le l a r : a <> NaN -> ~ In NaN l ->
  xle (fold_left xmin l a) (Fin r) = true <->
  (exists z, In z (a :: l) /\ xle z (Fin r) = true).
Proof.
  revert a. induction l as [|b l IH]; intros a Ha Hl; simpl.
  - split; [intros; exists a; tauto|]. intros (z & [->|[]] & H). easy.
  - assert (b <> NaN) by (intros ->; apply Hl; now left).
    destruct (xmin_le a b r Ha H) as [H1 H2].
    rewrite IH; [|easy|intros ?; apply Hl; now right].
    split.
    + intros (z & [<-|Hz] & Hle).
      * apply H2 in Hle as [?|?]; [exists a|exists b]; tauto.
      * exists z; tauto.
    + intros (z & [<-|[<-|Hz]] & Hle).
      * exists (xmin a b). split; [now left|]. apply H2. tauto.
      * exists (xmin a b). split; [now left|]. apply H2. tauto.
      * exists z. split; [now right|easy].
Qed.

Lemma np_min_le l m r : np_min l = Ok m -> ~ In NaN l ->
  xle m (Fin r) = true <-> exists z, In z l /\ xle z (Fin r) = true.
Proof.
  destruct l as [|a l]; simpl; [discriminate|]. intros H Hn. injection H as <-.
  rewrite fold_xmin_le; [reflexivity| |]; intros H; apply Hn; auto.
Qed.

Lemma lower_binding_iff c l r m : np_min (map2 dist_lower c l) = Ok m ->
  xle m (Fin r) = true <-> near_lower (Some l) c r.
Proof.
  intros H. rewrite (np_min_le _ _ _ H).
  - split.
    + intros (z & Hz & Hle). apply In_map2 in Hz as (i & ci & li & H1 & H2 & ->).
      destruct li as [li|]; [|discriminate]. simpl in Hle. apply Rleb_true in Hle.
      exists l, i, ci, li. auto.
    + intros (l' & i & ci & li & E & H1 & H2 & Hle). injection E as <-.
      exists (Fin (ci - li)). split; [|now apply Rleb_true].
      apply In_map2. exists i, ci, (Some li). auto.
  - intros Hn. apply In_map2 in Hn as (i & ci & [li|] & _ & _ & E); discriminate.
Qed.

Lemma upper_binding_iff c u r m : np_min (map2 dist_upper c u) = Ok m ->
  xle m (Fin r) = true <-> near_upper (Some u) c r.
Proof.
  intros H. rewrite (np_min_le _ _ _ H).
  - split.
    + intros (z & Hz & Hle). apply In_map2 in Hz as (i & ci & li & H1 & H2 & ->).
      destruct li as [li|]; [|discriminate]. simpl in Hle. apply Rleb_true in Hle.
      exists u, i, ci, li. auto.
    + intros (l' & i & ci & li & E & H1 & H2 & Hle). injection E as <-.
      exists (Fin (li - ci)). split; [|now apply Rleb_true].
      apply In_map2. exists i, ci, (Some li). auto.
  - intros Hn. apply In_map2 in Hn as (i & ci & [li|] & _ & _ & E); discriminate.
Qed.

Lemma np_min_ok A (f : R -> A -> xr) c l : c <> [] -> length l = length c ->
  exists m, np_min (map2 f c l) = Ok m.
Proof.
  destruct c, l; simpl; try easy. intros. eauto.
Qed.

Lemma no_finite_side s : side_any_finite s = false ->
  forall l i v, s = Some l -> nth_error l i = Some (Some v) -> False.
Proof.
  intros H l i v -> Hi. simpl in H.
  assert (existsb isfinite_o l = true); [|congruence].
  apply existsb_exists. exists (Some v). split; [|easy]. eapply nth_error_In, Hi.
Qed.

Lemma near_has_any b c r : near_bound (Some b) c r -> has_any b = true.
Proof.
  unfold has_any. intros [(l & i & ci & li & H1 & H2 & H3 & H4)|(l & i & ci & li & H1 & H2 & H3 & H4)].
  - destruct (side_any_finite (b_lower b)) eqn:E; [easy|].
    destruct (no_finite_side _ E _ _ _ H1 H3).
  - destruct (side_any_finite (b_upper b)) eqn:E; [now rewrite orb_true_r|].
    destruct (no_finite_side _ E _ _ _ H1 H3).
Qed.

(** The result of the binding test, when it does not raise. *)
Lemma binding_iff b c r v : any_bounds_binding b c r = Ok v ->
  v = true <-> near_bound b c r.
Proof.
  destruct b as [b|]; [|simpl; intros H; injection H as <-; easy].
  unfold any_bounds_binding. destruct (has_any b) eqn:HA.
  2:{ intros H. injection H as <-. split; [discriminate|].
      intros Hn. apply near_has_any in Hn. congruence. }
  destruct b as [lo up]; simpl b_lower; simpl b_upper.
  destruct lo as [l|].
  - destruct (np_min (map2 dist_lower c l)) as [ml|] eqn:E1; [|discriminate].
    simpl. pose proof (lower_binding_iff c l r ml E1) as L.
    destruct up as [u|].
    + destruct (np_min (map2 dist_upper c u)) as [mu|] eqn:E2; [|discriminate].
      simpl. pose proof (upper_binding_iff c u r mu E2) as U.
      destruct (xle ml (Fin r)); intros H; injection H as <-; simpl; tauto || intuition discriminate.
    + simpl. destruct (xle ml (Fin r)); intros H; [|discriminate]. injection H as <-; simpl.
      tauto.
  - simpl. destruct up as [u|]; [|discriminate].
    destruct (np_min (map2 dist_upper c u)) as [mu|]; discriminate.
Qed.

Lemma binding_ok b c r : two_sided b -> bounds_dim (length c) b -> c <> [] ->
  exists v, any_bounds_binding b c r = Ok v.
Proof.
  destruct b as [[lo up]|]; simpl; [|eauto].
  intros [H1 H2] [D1 D2] Hc. destruct lo as [l|]; [|easy]. destruct up as [u|]; [|easy].
  destruct (has_any _); [|eauto].
  destruct (np_min_ok _ dist_lower c l Hc (D1 l eq_refl)) as [ml ->]. simpl.
  destruct (np_min_ok _ dist_upper c u Hc (D2 u eq_refl)) as [mu ->]. simpl.
  destruct (xle ml _); eauto.
Qed.

Lemma make_region_inv c r b reg : make_region c r b = Ok reg ->
  exists v, any_bounds_binding b c r = Ok v /\
    r_center reg = c /\ r_radius reg = r /\ r_bounds reg = b /\
    r_shape reg = (if v then Cube else Sphere) /\
    (r_cube_lower reg, r_cube_upper reg) = get_cube_bounds c r b (r_shape reg).
Proof.
  unfold make_region, get_shape. destruct (any_bounds_binding b c r) as [v|]; [|discriminate].
  simpl. destruct (get_cube_bounds c r b (if v then Cube else Sphere)) as [lo up] eqn:E.
  intros H. injection H as <-. exists v. simpl. rewrite E. auto 7.
Qed.

Lemma cube_bounds_length c r b :
  bounds_dim (length c) b ->
  length (fst (create_cube_bounds c r b)) = length c /\
  length (snd (create_cube_bounds c r b)) = length c.
Proof.
  destruct b as [[lo up]|]; simpl; [|now rewrite !map_length].
  intros [D1 D2]. split.
  - destruct lo as [l|]; [|now rewrite map_length].
    rewrite map2_length, map_length, (D1 l eq_refl). lia.
  - destruct up as [u|]; [|now rewrite map_length].
    rewrite map2_length, map_length, (D2 u eq_refl). lia.
Qed.

Lemma clip_lower_spec x l : x <= clip_lower x l /\ (forall v, l = Some v -> v <= clip_lower x l)
  /\ (forall y, x <= y -> (forall v, l = Some v -> v <= y) -> clip_lower x l <= y).
Proof.
  destruct l as [v|]; simpl; repeat split; intros; try easy; try discriminate.
  - apply Rmax_l.
  - injection H as <-. apply Rmax_r.
  - apply Rmax_lub; auto.
  - lra.
Qed.

Lemma clip_upper_spec x u : clip_upper x u <= x /\ (forall v, u = Some v -> clip_upper x u <= v)
  /\ (forall y, y <= x -> (forall v, u = Some v -> y <= v) -> y <= clip_upper x u).
Proof.
  destruct u as [v|]; simpl; repeat split; intros; try easy; try discriminate.
  - apply Rmin_l.
  - injection H as <-. apply Rmin_r.
  - apply Rmin_glb; auto.
  - lra.
Qed.

(** One coordinate of the created box. *)
Lemma cube_bounds_coord c r b i lo up :
  bounds_dim (length c) b ->
  nth_error (fst (create_cube_bounds c r b)) i = Some lo ->
  nth_error (snd (create_cube_bounds c r b)) i = Some up ->
  exists ci, nth_error c i = Some ci /\
    ci - r <= lo /\ up <= ci + r /\
    (forall B l v, b = Some B -> b_lower B = Some l -> nth_error l i = Some (Some v) -> v <= lo) /\
    (forall B u v, b = Some B -> b_upper B = Some u -> nth_error u i = Some (Some v) -> up <= v) /\
    (forall y, ci - r <= y ->
       (forall B l v, b = Some B -> b_lower B = Some l -> nth_error l i = Some (Some v) -> v <= y) ->
       lo <= y) /\
    (forall y, y <= ci + r ->
       (forall B u v, b = Some B -> b_upper B = Some u -> nth_error u i = Some (Some v) -> y <= v) ->
       y <= up).
Proof.
  intros D H1 H2.
  assert (Hc : exists ci, nth_error c i = Some ci).
  { destruct (nth_error c i) eqn:E; eauto. apply nth_error_None in E.
    destruct (cube_bounds_length c r b D) as [L _].
    apply (proj2 (nth_error_None (fst (create_cube_bounds c r b)) i)) in E || idtac.
    assert (i < length (fst (create_cube_bounds c r b)))%nat by (apply nth_error_Some; congruence).
    lia. }
  destruct Hc as [ci Hc]. exists ci. split; [easy|].
  assert (L : ci - r <= lo /\
    (forall B l v, b = Some B -> b_lower B = Some l -> nth_error l i = Some (Some v) -> v <= lo) /\
    (forall y, ci - r <= y ->
       (forall B l v, b = Some B -> b_lower B = Some l -> nth_error l i = Some (Some v) -> v <= y) ->
       lo <= y)).
  { clear H2. destruct b as [[[l|] up']|]; simpl in H1.
    - rewrite map2_nth_error, nth_error_map, Hc in H1. simpl in H1.
      destruct (nth_error l i) as [li|] eqn:El; [|discriminate]. injection H1 as <-.
      destruct (clip_lower_spec (ci - r) li) as (A1 & A2 & A3).
      split; [easy|]. split.
      + intros B l' v EB EL Ev. injection EB as <-. simpl in EL. injection EL as <-.
        apply A2. congruence.
      + intros y Hy Hb. apply A3; [easy|]. intros v ->. apply (Hb (mkBounds (Some l) up') l v); auto.
    - rewrite nth_error_map, Hc in H1. injection H1 as <-. split; [lra|]. split.
      + intros B l v EB EL. injection EB as <-. discriminate.
      + intros; lra.
    - rewrite nth_error_map, Hc in H1. injection H1 as <-. split; [lra|]. split.
      + intros B l v EB. discriminate.
      + intros; lra. }
  assert (U : up <= ci + r /\
    (forall B u v, b = Some B -> b_upper B = Some u -> nth_error u i = Some (Some v) -> up <= v) /\
    (forall y, y <= ci + r ->
       (forall B u v, b = Some B -> b_upper B = Some u -> nth_error u i = Some (Some v) -> y <= v) ->
       y <= up)).
  { clear H1 L. destruct b as [[lo' [u|]]|]; simpl in H2.
    - rewrite map2_nth_error, nth_error_map, Hc in H2. simpl in H2.
      destruct (nth_error u i) as [ui|] eqn:El; [|discriminate]. injection H2 as <-.
      destruct (clip_upper_spec (ci + r) ui) as (A1 & A2 & A3).
      split; [easy|]. split.
      + intros B l' v EB EL Ev. injection EB as <-. simpl in EL. injection EL as <-.
        apply A2. congruence.
      + intros y Hy Hb. apply A3; [easy|]. intros v ->. apply (Hb (mkBounds lo' (Some u)) u v); auto.
    - rewrite nth_error_map, Hc in H2. injection H2 as <-. split; [lra|]. split.
      + intros B l v EB EL. injection EB as <-. discriminate.
      + intros; lra.
    - rewrite nth_error_map, Hc in H2. injection H2 as <-. split; [lra|]. split.
      + intros B l v EB. discriminate.
      + intros; lra. }
  tauto.
Qed.

(** The box of a cube region, coordinate by coordinate. *)
Lemma region_cube_coord c r b reg i lo up :
  bounds_dim (length c) b ->
  make_region c r b = Ok reg -> r_shape reg = Cube ->
  nth_error (r_cube_lower reg) i = Some lo -> nth_error (r_cube_upper reg) i = Some up ->
  let rc := get_radius_of_cube_with_volume_of_sphere r (length c) None in
  exists ci, nth_error c i = Some ci /\
    ci - rc <= lo /\ up <= ci + rc /\
    (forall B l v, b = Some B -> b_lower B = Some l -> nth_error l i = Some (Some v) -> v <= lo) /\
    (forall B u v, b = Some B -> b_upper B = Some u -> nth_error u i = Some (Some v) -> up <= v) /\
    (forall y, ci - rc <= y ->
       (forall B l v, b = Some B -> b_lower B = Some l -> nth_error l i = Some (Some v) -> v <= y) ->
       lo <= y) /\
    (forall y, y <= ci + rc ->
       (forall B u v, b = Some B -> b_upper B = Some u -> nth_error u i = Some (Some v) -> y <= v) ->
       y <= up).
Proof.
  intros D M S H1 H2 rc.
  destruct (make_region_inv _ _ _ _ M) as (v & _ & _ & _ & _ & _ & E).
  rewrite S in E. unfold get_cube_bounds in E. fold rc in E.
  apply (cube_bounds_coord c rc b); [easy| |]; rewrite <- E; easy.
Qed.

Lemma region_cube_length c r b reg :
  bounds_dim (length c) b -> make_region c r b = Ok reg ->
  length (r_cube_lower reg) = length c /\ length (r_cube_upper reg) = length c.
Proof.
  intros D M. destruct (make_region_inv _ _ _ _ M) as (v & _ & _ & _ & _ & _ & E).
  unfold get_cube_bounds in E.
  set (rc := match r_shape reg with Sphere => r | Cube => _ end) in E.
  destruct (cube_bounds_length c rc b D) as [L1 L2].
  rewrite <- E in L1, L2. easy.
Qed.

(** * C14 *)

(** C14 - cube regions: lower <= cube_lower <= center <= cube_upper <= upper, and the box
    lies in the cube around the center that has the volume of the ball. *)
Theorem C14_cube_inside_bounds_contains_center :
  forall c r b reg,
    0 < r -> c <> [] -> bounds_dim (length c) b -> in_bounds b c ->
    make_region c r b = Ok reg -> r_shape reg = Cube ->
    in_bounds b (r_cube_lower reg) /\ in_bounds b (r_cube_upper reg) /\
    vle (r_cube_lower reg) c /\ vle c (r_cube_upper reg) /\
    exists rc, 0 < rc /\ get_volume rc (length c) Cube = get_volume r (length c) Sphere /\
      forall i ci lo up, nth_error c i = Some ci ->
        nth_error (r_cube_lower reg) i = Some lo -> nth_error (r_cube_upper reg) i = Some up ->
        ci - rc <= lo /\ up <= ci + rc.
Proof.
  intros c r b reg Hr Hc D IB M S.
  destruct (region_cube_length c r b reg D M) as [L1 L2].
  set (rc := get_radius_of_cube_with_volume_of_sphere r (length c) None).
  assert (Hn : (1 <= length c)%nat) by (destruct c; [easy|simpl; lia]).
  destruct (C19_cube_radius_at_most_sphere_radius r (length c) Hr Hn) as [Prc _].
  fold rc in Prc.
  assert (K : forall i ci lo up, nth_error c i = Some ci ->
        nth_error (r_cube_lower reg) i = Some lo -> nth_error (r_cube_upper reg) i = Some up ->
        ci - rc <= lo /\ up <= ci + rc /\ lo <= ci /\ ci <= up).
  { intros i ci lo up Hi H1 H2.
    destruct (region_cube_coord c r b reg i lo up D M S H1 H2)
      as (ci' & Hi' & A1 & A2 & A3 & A4 & A5 & A6).
    fold rc in A1, A2, A5, A6.
    assert (ci' = ci) by congruence. subst ci'.
    repeat split; try easy.
    - apply A5; [lra|]. intros B l v -> EL Ev. destruct IB as [IL _]. eapply IL; eauto.
    - apply A6; [lra|]. intros B l v -> EL Ev. destruct IB as [_ IU]. eapply IU; eauto. }
  assert (EX : forall i ci, nth_error c i = Some ci ->
     exists lo up, nth_error (r_cube_lower reg) i = Some lo /\ nth_error (r_cube_upper reg) i = Some up).
  { intros i ci Hi. assert (i < length c)%nat by (apply nth_error_Some; congruence).
    destruct (nth_error (r_cube_lower reg) i) eqn:E1.
    - destruct (nth_error (r_cube_upper reg) i) eqn:E2; eauto.
      apply nth_error_None in E2. lia.
    - apply nth_error_None in E1. lia. }
  assert (EXl : forall i x, nth_error (r_cube_lower reg) i = Some x \/ nth_error (r_cube_upper reg) i = Some x ->
     exists ci, nth_error c i = Some ci).
  { intros i x H. assert (i < length c)%nat.
    { destruct H as [H|H]; [rewrite <- L1|rewrite <- L2]; apply nth_error_Some; congruence. }
    destruct (nth_error c i) eqn:E; eauto. apply nth_error_None in E. lia. }
  assert (CO := fun i lo up => region_cube_coord c r b reg i lo up D M S).
  split; [|split; [|split; [|split]]].
  - destruct b as [B|]; [|exact I]. split.
    + intros l i xi li EL Hx Hl. destruct (EXl i xi (or_introl Hx)) as [ci Hi].
      destruct (EX i ci Hi) as (lo & up & H1 & H2).
      destruct (CO i lo up H1 H2) as (ci' & Hi' & A1 & A2 & A3 & A4 & A5 & A6).
      assert (lo = xi) by congruence. subst. eapply A3; eauto.
    + intros l i xi li EL Hx Hl. destruct (EXl i xi (or_introl Hx)) as [ci Hi].
      destruct (EX i ci Hi) as (lo & up & H1 & H2).
      destruct (K i ci lo up Hi H1 H2) as (_ & _ & K1 & K2).
      destruct (CO i lo up H1 H2) as (ci' & Hi' & A1 & A2 & A3 & A4 & A5 & A6).
      assert (lo = xi) by congruence. subst.
      specialize (A4 B l li eq_refl EL Hl). lra.
  - destruct b as [B|]; [|exact I]. split.
    + intros l i xi li EL Hx Hl. destruct (EXl i xi (or_intror Hx)) as [ci Hi].
      destruct (EX i ci Hi) as (lo & up & H1 & H2).
      destruct (K i ci lo up Hi H1 H2) as (_ & _ & K1 & K2).
      destruct (CO i lo up H1 H2) as (ci' & Hi' & A1 & A2 & A3 & A4 & A5 & A6).
      assert (up = xi) by congruence. subst.
      specialize (A3 B l li eq_refl EL Hl). lra.
    + intros l i xi li EL Hx Hl. destruct (EXl i xi (or_intror Hx)) as [ci Hi].
      destruct (EX i ci Hi) as (lo & up & H1 & H2).
      destruct (CO i lo up H1 H2) as (ci' & Hi' & A1 & A2 & A3 & A4 & A5 & A6).
      assert (up = xi) by congruence. subst. eapply A4; eauto.
  - intros i a ci H1 Hi. destruct (EX i ci Hi) as (lo & up & H1' & H2).
    assert (lo = a) by congruence. subst. now apply (K i ci a up).
  - intros i ci a Hi H2. destruct (EX i ci Hi) as (lo & up & H1 & H2').
    assert (up = a) by congruence. subst. now apply (K i ci lo a).
  - exists rc. split; [easy|]. split.
    + now apply C19_conversion_preserves_volume.
    + intros i ci lo up Hi H1 H2. destruct (K i ci lo up Hi H1 H2) as (? & ? & _). easy.
Qed.

(** C14, non-degenerate bounds give a non-degenerate box. *)
Theorem C14_cube_not_degenerate :
  forall c r b reg,
    0 < r -> c <> [] -> bounds_dim (length c) b -> in_bounds b c ->
    (forall B l u i li ui, b = Some B -> b_lower B = Some l -> b_upper B = Some u ->
       nth_error l i = Some (Some li) -> nth_error u i = Some (Some ui) -> li < ui) ->
    make_region c r b = Ok reg -> r_shape reg = Cube ->
    forall i lo up, nth_error (r_cube_lower reg) i = Some lo ->
      nth_error (r_cube_upper reg) i = Some up -> lo < up.
Proof.
  intros c r b reg Hr Hc D IB ND M S i lo up H1 H2.
  set (rc := get_radius_of_cube_with_volume_of_sphere r (length c) None).
  assert (Hn : (1 <= length c)%nat) by (destruct c; [easy|simpl; lia]).
  destruct (C19_cube_radius_at_most_sphere_radius r (length c) Hr Hn) as [Prc _].
  fold rc in Prc.
  destruct (region_cube_coord c r b reg i lo up D M S H1 H2)
      as (ci & Hi & A1 & A2 & A3 & A4 & A5 & A6).
  fold rc in A1, A2, A5, A6.
  assert (Lo : lo <= ci).
  { apply A5; [lra|]. intros B l v -> EL Ev. destruct IB as [IL _]. eapply IL; eauto. }
  assert (Up : ci <= up).
  { apply A6; [lra|]. intros B l v -> EL Ev. destruct IB as [_ IU]. eapply IU; eauto. }
  destruct (Rlt_or_le lo ci) as [|Glo]; [lra|].
  destruct (Rlt_or_le ci up) as [|Gup]; [lra|].
  (* lo = ci = up: both a lower and an upper bound sit at the center *)
  assert (lo = ci) by lra. assert (up = ci) by lra. subst lo up.
  exfalso.
  assert (NL : ~ ~ exists B l v, b = Some B /\ b_lower B = Some l /\ nth_error l i = Some (Some v) /\ ci <= v).
  { intros N. assert (ci <= ci - Rmin rc 1 / 2); [|pose proof (Rmin_glb_lt rc 1 0 Prc Rlt_0_1); lra].
    apply A5; [pose proof (Rmin_l rc 1); pose proof (Rmin_glb_lt rc 1 0 Prc Rlt_0_1); lra|].
    intros B l v EB EL Ev.
    destruct (Rle_or_lt ci v) as [|Lt].
    - exfalso. apply N. eauto 7.
    - exfalso.
      assert (X : ci <= Rmax (ci - rc) v).
      { apply A5; [apply Rmax_l|]. intros B' l' v' EB' EL' Ev'.
        assert (B' = B) by congruence. subst B'. assert (l' = l) by congruence. subst l'.
        assert (v' = v) by congruence. subst v'. apply Rmax_r. }
      unfold Rmax in X. destruct (Rle_dec (ci - rc) v); lra. }
  apply NL. intros (B & l & v & EB & EL & Ev & Hv). clear NL.
  assert (NU : ~ ~ exists u w, b_upper B = Some u /\ nth_error u i = Some (Some w) /\ w <= ci).
  { intros N.
    destruct (b_upper B) as [u|] eqn:EU.
    - destruct (nth_error u i) as [[w|]|] eqn:Ew.
      + destruct (Rle_or_lt w ci); [apply N; eauto|].
        assert (X : Rmin (ci + rc) w <= ci).
        { apply A6; [apply Rmin_l|]. intros B' u' w' EB' EU' Ew'.
          assert (B' = B) by congruence. subst B'. assert (u' = u) by congruence. subst u'.
          assert (w' = w) by congruence. subst w'. apply Rmin_r. }
        unfold Rmin in X. destruct (Rle_dec (ci + rc) w); lra.
      + assert (ci + rc <= ci); [|lra]. apply A6; [lra|].
        intros B' u' w' EB' EU' Ew'. congruence.
      + assert (ci + rc <= ci); [|lra]. apply A6; [lra|].
        intros B' u' w' EB' EU' Ew'. congruence.
    - assert (ci + rc <= ci); [|lra]. apply A6; [lra|].
      intros B' u' w' EB' EU' Ew'. congruence. }
  apply NU. intros (u & w & EU & Ew & Hw).
  assert (v < w) by (eapply ND; eauto). lra.
Qed.

(** * C15 *)

Theorem C15_sphere_never_reaches_bounds :
  forall c r b reg, make_region c r b = Ok reg ->
    (r_shape reg = Sphere -> forall y, length y = length c -> dist y c <= r -> in_bounds b y) /\
    (near_bound b c r -> r_shape reg = Cube) /\
    (~ near_bound b c r -> r_shape reg = Sphere).
Proof.
  intros c r b reg M. destruct (make_region_inv _ _ _ _ M) as (v & BI & _ & _ & _ & S & _).
  apply binding_iff in BI. rewrite S. split; [|split].
  - destruct v; [discriminate|]. intros _ y Ly Hd.
    assert (NB : ~ near_bound b c r) by (rewrite <- BI; discriminate).
    assert (CO : forall i yi ci, nth_error y i = Some yi -> nth_error c i = Some ci ->
                 Rabs (yi - ci) <= r).
    { intros i yi ci Hy Hc. apply Rle_trans with (dist y c); [|easy].
      apply abs_le_norm. apply In_map2. exists i, yi, ci. auto. }
    assert (GE : forall i yi, nth_error y i = Some yi -> exists ci, nth_error c i = Some ci).
    { intros i yi Hy. destruct (nth_error c i) eqn:E; eauto.
      apply nth_error_None in E. assert (i < length y)%nat by (apply nth_error_Some; congruence). lia. }
    destruct b as [B|]; [|exact I]. split.
    + intros l i yi li EL Hy Hl. destruct (GE i yi Hy) as [ci Hc].
      specialize (CO i yi ci Hy Hc). destruct (Rle_or_lt li yi) as [|Lt]; [easy|].
      exfalso. apply NB. left. exists l, i, ci, li. repeat split; auto.
      unfold Rabs in CO. destruct (Rcase_abs _); lra.
    + intros l i yi li EL Hy Hl. destruct (GE i yi Hy) as [ci Hc].
      specialize (CO i yi ci Hy Hc). destruct (Rle_or_lt yi li) as [|Lt]; [easy|].
      exfalso. apply NB. right. exists l, i, ci, li. repeat split; auto.
      unfold Rabs in CO. destruct (Rcase_abs _); lra.
  - intros N. apply BI in N. now rewrite N.
  - intros N. destruct v; [|easy]. exfalso. apply N. now apply BI.
Qed.

(** * C16 *)

Lemma mf_length A (f : R -> R * R -> A) x lo up :
  length lo = length x -> length up = length x -> length (map2 f x (combine lo up)) = length x.
Proof. intros. rewrite map2_length, combine_length. lia. Qed.

(** C16 - mapping to the unit space and back (spheres). *)
Theorem C16_unit_maps_inverse_sphere :
  forall reg, r_shape reg = Sphere -> 0 < r_radius reg ->
    (forall x, length x = length (r_center reg) ->
       map_from_unit reg (map_to_unit reg x) = x /\
       map_to_unit reg (map_from_unit reg x) = x /\
       (dist x (r_center reg) <= r_radius reg <-> norm (map_to_unit reg x) <= 1)).
Proof.
  intros reg S Pr x Lx. unfold map_from_unit, map_to_unit. rewrite S.
  set (c := r_center reg) in *. set (r := r_radius reg) in *. clearbody c r.
  split; [|split].
  - unfold map_from_unit_sphere, map_to_unit_sphere.
    revert c Lx. induction x as [|a x IH]; intros [|b c] L; try easy. simpl.
    rewrite IH by (simpl in L; lia). f_equal. field. lra.
  - unfold map_from_unit_sphere, map_to_unit_sphere.
    revert c Lx. induction x as [|a x IH]; intros [|b c] L; try easy. simpl.
    rewrite IH by (simpl in L; lia). f_equal. field. lra.
  - assert (E : map_to_unit_sphere x c r = vscale (/ r) (vsub x c)).
    { unfold map_to_unit_sphere, vscale, vsub.
      clear Lx. revert c. induction x as [|a x IH]; intros [|b c]; try easy. simpl.
      rewrite IH. f_equal. unfold Rdiv. ring. }
    rewrite E, norm_vscale. fold (dist x c).
    assert (0 < / r) by now apply Rinv_0_lt_compat.
    rewrite Rabs_right by lra. split; intros Hd.
    + apply (Rmult_le_compat_l (/ r)) in Hd; [|lra]. rewrite Rinv_l in Hd; lra.
    + apply (Rmult_le_compat_l r) in Hd; [|lra].
      rewrite <- Rmult_assoc, Rinv_r, Rmult_1_l in Hd; lra.
Qed.

(** C16 - cubes with positive side lengths: points of the box and of [-1, 1]^n are mapped
    onto each other. *)
Theorem C16_unit_maps_inverse_cube :
  forall reg, r_shape reg = Cube ->
    length (r_cube_upper reg) = length (r_cube_lower reg) ->
    (forall i l u, nth_error (r_cube_lower reg) i = Some l ->
                   nth_error (r_cube_upper reg) i = Some u -> l < u) ->
    (forall x, length x = length (r_cube_lower reg) ->
       vle (r_cube_lower reg) x -> vle x (r_cube_upper reg) ->
       map_from_unit reg (map_to_unit reg x) = x /\
       Forall (fun u => -1 <= u <= 1) (map_to_unit reg x)) /\
    (forall u, length u = length (r_cube_lower reg) ->
       Forall (fun u => -1 <= u <= 1) u ->
       map_to_unit reg (map_from_unit reg u) = u /\
       vle (r_cube_lower reg) (map_from_unit reg u) /\
       vle (map_from_unit reg u) (r_cube_upper reg)).
Proof.
  intros reg S L ND. unfold map_from_unit, map_to_unit. rewrite S.
  set (lo := r_cube_lower reg) in *. set (up := r_cube_upper reg) in *. clearbody lo up.
  unfold map_from_unit_cube, map_to_unit_cube, vclip.
  split.
  - intros x Lx H1 H2. revert lo up L ND Lx H1 H2.
    induction x as [|a x IH]; intros [|l lo] [|u up] L ND Lx H1 H2; try easy.
    + split; [easy|constructor].
    + assert (LU : l < u) by now apply (ND 0%nat l u).
      assert (A1 : l <= a) by now apply (H1 0%nat l a).
      assert (A2 : a <= u) by now apply (H2 0%nat a u).
      destruct (IH lo up) as [I1 I2]; simpl in *; try lia.
      { intros i l' u' E1 E2. now apply (ND (Datatypes.S i) l' u'). }
      { intros i l' u' E1 E2. now apply (H1 (Datatypes.S i) l' u'). }
      { intros i l' u' E1 E2. now apply (H2 (Datatypes.S i) l' u'). }
      assert (E : (u - l) * (2 * (a - l) / (u - l) - 1 + 1) / 2 + l = a) by (field; lra).
      split.
      * rewrite I1, E. f_equal. rewrite Rmax_left by lra. apply Rmin_right; lra.
      * constructor; [|easy].
        assert (0 <= (a - l) / (u - l) <= 1).
        { split.
          - apply Rmult_le_pos; [lra|]. left. apply Rinv_0_lt_compat. lra.
          - apply (Rmult_le_reg_r (u - l)); [lra|].
            unfold Rdiv. rewrite Rmult_assoc, Rinv_l; lra. }
        unfold Rdiv in *. rewrite Rmult_assoc. lra.
  - intros x Lx H1. revert lo up L ND Lx H1.
    induction x as [|a x IH]; intros [|l lo] [|u up] L ND Lx H1; try easy.
    + split; [easy|]. split; intros [|i] ? ?; easy.
    + assert (LU : l < u) by now apply (ND 0%nat l u).
      apply Forall_cons_iff in H1 as [A H1].
      destruct (IH lo up) as [I1 [I2 I3]]; simpl in *; try lia; auto.
      { intros i l' u' E1 E2. now apply (ND (Datatypes.S i) l' u'). }
      set (y := (u - l) * (a + 1) / 2 + l).
      assert (Y : l <= y <= u) by (unfold y; nra).
      assert (E : Rmin u (Rmax y l) = y).
      { rewrite Rmax_left by lra. apply Rmin_right. lra. }
      rewrite E. split; [|split].
      * rewrite I1. f_equal. unfold y. field. lra.
      * intros [|i] ? ? E1 E2; simpl in *.
        -- injection E1 as <-. injection E2 as <-. lra.
        -- now apply (I2 i).
      * intros [|i] ? ? E1 E2; simpl in *.
        -- injection E1 as <-. injection E2 as <-. lra.
        -- now apply (I3 i).
Qed.

(** * C17 *)

(** C16 - the maps to the unit region are the affine maps given by effective_center and
    effective_radius, the shift and scale that are stored in the models. *)
Theorem C16_effective_center_and_radius :
  forall reg x i xi,
    length (r_cube_upper reg) = length (r_cube_lower reg) ->
    (r_shape reg = Cube -> forall i l u, nth_error (r_cube_lower reg) i = Some l ->
       nth_error (r_cube_upper reg) i = Some u -> l < u) ->
    length (effective_center reg) = length x -> nth_error x i = Some xi ->
    exists e s, nth_error (effective_center reg) i = Some e /\
      match effective_radius reg with SScalar r => s = r | SVector v => nth_error v i = Some s end /\
      nth_error (map_to_unit reg x) i = Some ((xi - e) / s).
Proof.
  intros reg x i xi LL ND LC Hx. unfold effective_center, effective_radius, map_to_unit in *.
  destruct (r_shape reg).
  - destruct (nth_error (r_center reg) i) as [e|] eqn:E.
    + exists e, (r_radius reg). split; [easy|]. split; [easy|]. unfold map_to_unit_sphere.
      rewrite map2_nth_error, Hx, E. reflexivity.
    + apply nth_error_None in E. assert (i < length x)%nat by (apply nth_error_Some; congruence). lia.
  - rewrite map2_length in LC. assert (i < length x)%nat by (apply nth_error_Some; congruence).
    destruct (nth_error (r_cube_lower reg) i) as [l|] eqn:E1; [|apply nth_error_None in E1; lia].
    destruct (nth_error (r_cube_upper reg) i) as [u|] eqn:E2; [|apply nth_error_None in E2; lia].
    assert (EC : nth_error (combine (r_cube_lower reg) (r_cube_upper reg)) i = Some (l, u)).
    { clear -E1 E2. revert i E1 E2. generalize (r_cube_upper reg). induction (r_cube_lower reg) as [|a k IH];
        intros [|b k'] [|i] E1 E2; try discriminate; simpl in *; [congruence|auto]. }
    exists ((l + u) / 2), ((u - l) / 2). rewrite !map2_nth_error, E1, E2. split; [easy|]. split; [easy|].
    unfold map_to_unit_cube. rewrite map2_nth_error, Hx, EC. f_equal.
    pose proof (ND eq_refl i l u E1 E2). field. lra.
Qed.

Example ex_C16_effective : let reg := mkRegion [1] 2 None Cube [0] [4] in
  effective_center reg = [2] /\ effective_radius reg = SVector [2] /\ map_to_unit reg [3] = [1 / 2].
Proof.
  unfold effective_center, effective_radius, map_to_unit, map_to_unit_cube. cbn.
  split; [|split].
  - apply (f_equal (fun a => [a])). lra.
  - apply (f_equal (fun a => SVector [a])). lra.
  - apply (f_equal (fun a => [a])). lra.
Qed.

(** C17 - whatever vector is mapped from the unit cube, the result satisfies the bounds. *)
Theorem C17_map_from_unit_cube_in_bounds :
  forall c r b reg u,
    0 < r -> c <> [] -> bounds_dim (length c) b -> in_bounds b c ->
    make_region c r b = Ok reg -> r_shape reg = Cube -> length u = length c ->
    length (map_from_unit reg u) = length c /\
    vle (r_cube_lower reg) (map_from_unit reg u) /\
    vle (map_from_unit reg u) (r_cube_upper reg) /\
    in_bounds b (map_from_unit reg u).
Proof.
  intros c r b reg u Hr Hc D IB M S Lu.
  destruct (region_cube_length c r b reg D M) as [L1 L2].
  destruct (C14_cube_inside_bounds_contains_center c r b reg Hr Hc D IB M S)
    as (B1 & B2 & V1 & V2 & _).
  assert (GE : forall A (w : list A) i z, length w = length c -> nth_error w i = Some z ->
     exists ci lo up, nth_error c i = Some ci /\ nth_error (r_cube_lower reg) i = Some lo /\
                      nth_error (r_cube_upper reg) i = Some up).
  { intros A w i z Lw Hw. assert (i < length c)%nat by (rewrite <- Lw; apply nth_error_Some; congruence).
    destruct (nth_error c i) eqn:E0; [|apply nth_error_None in E0; lia].
    destruct (nth_error (r_cube_lower reg) i) eqn:E1; [|apply nth_error_None in E1; lia].
    destruct (nth_error (r_cube_upper reg) i) eqn:E2; [|apply nth_error_None in E2; lia].
    eauto 7. }
  unfold map_from_unit. rewrite S.
  set (z := map_from_unit_cube u (r_cube_lower reg) (r_cube_upper reg)).
  assert (Lz : length z = length c).
  { unfold z, map_from_unit_cube. rewrite mf_length; lia. }
  assert (Lv : length (vclip z (r_cube_lower reg) (r_cube_upper reg)) = length c).
  { unfold vclip. rewrite mf_length; lia. }
  assert (V : forall i y lo up, nth_error (vclip z (r_cube_lower reg) (r_cube_upper reg)) i = Some y ->
     nth_error (r_cube_lower reg) i = Some lo -> nth_error (r_cube_upper reg) i = Some up ->
     lo <= y <= up).
  { intros i y lo up Hy Hlo Hup.
    unfold vclip in Hy. rewrite map2_nth_error in Hy.
    destruct (nth_error z i) as [zi|]; [|discriminate].
    assert (EC : nth_error (combine (r_cube_lower reg) (r_cube_upper reg)) i = Some (lo, up)).
    { clear -Hlo Hup. revert Hlo Hup. generalize (r_cube_lower reg) (r_cube_upper reg). clear.
      induction i; intros [|a l] [|b k] H1 H2; simpl in *; try discriminate.
      - congruence.
      - auto. }
    rewrite EC in Hy. injection Hy as <-.
    assert (lo <= up).
    { destruct (GE _ _ i lo L1 Hlo) as (ci & lo' & up' & Hi & _).
      pose proof (V1 i lo ci Hlo Hi). pose proof (V2 i ci up Hi Hup). lra. }
    split; [apply Rmin_glb; [easy|apply Rmax_r]|apply Rmin_l]. }
  split; [easy|]. split; [|split].
  - intros i lo y Hlo Hy. destruct (GE _ _ i y Lv Hy) as (ci & lo' & up' & _ & H1 & H2).
    now apply (V i y lo up').
  - intros i y up Hy Hup. destruct (GE _ _ i y Lv Hy) as (ci & lo' & up' & _ & H1 & H2).
    now apply (V i y lo' up).
  - destruct b as [B|]; [|exact I]. destruct B1 as [BL _]. destruct B2 as [_ BU]. split.
    + intros l i y li EL Hy Hl. destruct (GE _ _ i y Lv Hy) as (ci & lo & up & _ & H1 & H2).
      specialize (V i y lo up Hy H1 H2). specialize (BL l i lo li EL H1 Hl). lra.
    + intros l i y li EL Hy Hl. destruct (GE _ _ i y Lv Hy) as (ci & lo & up & _ & H1 & H2).
      specialize (V i y lo up Hy H1 H2). specialize (BU l i up li EL H2 Hl). lra.
Qed.

(** * C18 *)

(** C18 - full statement: make_region succeeds for every combination of sides.  It does if
    both sides are vectors or no bounds object is given: *)
Theorem C18_one_sided_bounds_partial :
  forall c r b, c <> [] -> bounds_dim (length c) b -> two_sided b ->
    exists reg, make_region c r b = Ok reg.
Proof.
  intros c r b Hc D T. destruct (binding_ok b c r T D Hc) as [v E].
  unfold make_region, get_shape. rewrite E. simpl.
  destruct (get_cube_bounds c r b (if v then Cube else Sphere)). eauto.
Qed.

(** ... but not with upper bounds only, and with lower bounds only not unless one of them
    is within the radius. *)
Theorem C18_one_sided_bounds_refuted :
  (forall c r u, c <> [] -> length u = length c -> existsb isfinite_o u = true ->
     make_region c r (Some (mkBounds None (Some u))) = Err UnboundLocalError) /\
  (forall c r l, c <> [] -> length l = length c -> existsb isfinite_o l = true ->
     ~ near_lower (Some l) c r ->
     make_region c r (Some (mkBounds (Some l) None)) = Err UnboundLocalError).
Proof.
  split.
  - intros c r u Hc L F. unfold make_region, get_shape, any_bounds_binding, has_any. simpl.
    rewrite F. destruct (np_min_ok _ dist_upper c u Hc L) as [m ->]. reflexivity.
  - intros c r l Hc L F N. unfold make_region, get_shape, any_bounds_binding, has_any. simpl.
    rewrite F. simpl. destruct (np_min_ok _ dist_lower c l Hc L) as [m E]. rewrite E. simpl.
    pose proof (lower_binding_iff c l r m E) as LB.
    destruct (xle m (Fin r)); [|reflexivity]. exfalso. apply N. now apply LB.
Qed.

(** * Instances *)

Example ex_two_sided :
  let b := Some (mkBounds (Some [Some 0; None]) (Some [None; Some 5])) in
  bounds_dim 2 b /\ two_sided b /\ in_bounds b [1; 2] /\ near_bound b [1; 2] 3 /\
  ~ near_bound b [1; 2] (1/2).
Proof.
  simpl. repeat split.
  - now intros l H; injection H as <-.
  - now intros l H; injection H as <-.
  - discriminate.
  - discriminate.
  - intros l i xi li H. simpl in H. injection H as <-.
    destruct i as [|[|[|i]]]; simpl; intros H1 H2; try discriminate.
    injection H1 as <-. injection H2 as <-. lra.
  - intros l i xi li H. simpl in H. injection H as <-.
    destruct i as [|[|[|i]]]; simpl; intros H1 H2; try discriminate.
    injection H1 as <-. injection H2 as <-. lra.
  - left. exists [Some 0; None], 0%nat, 1, 0. repeat split. lra.
  - intros [(l & i & ci & li & H & H1 & H2 & H3)|(l & i & ci & li & H & H1 & H2 & H3)];
      injection H as <-; destruct i as [|[|[|i]]]; simpl in *; try discriminate;
      injection H1 as <-; injection H2 as <-; lra.
Qed.

(** One lower bound, far away: the constructor raises. *)
Example C18_witness :
  make_region [10] 1 (Some (mkBounds (Some [Some 0]) None)) = Err UnboundLocalError.
Proof.
  apply C18_one_sided_bounds_refuted; try easy.
  intros (l & i & ci & li & H & H1 & H2 & H3). injection H as <-.
  destruct i as [|[|i]]; simpl in *; try discriminate.
  injection H1 as <-; injection H2 as <-; lra.
Qed.
