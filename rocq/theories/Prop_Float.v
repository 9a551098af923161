(** Properties C154-C160: the code in binary64 arithmetic. *)
From Coq Require Import Reals List Arith ZArith Bool Lia Lra Psatz.
From Flocq Require Import Core Plus_error BinarySingleNaN.
From Verif Require Import Base XR Vec VolumeModel RegionModel AdjustModel FloatModel FloatProofs.
From Verif Require Prop_Region.
Import ListNotations.
Open Scope R_scope.

(** * C154 *)

(** C154 - the operations of the model are those of IEEE 754 binary64 (as formalized in Flocq),
    rounding to nearest even; except for divisions by the negative zero, as the model has one
    zero.  The values of the model are those of the floats. *)
Theorem C154_ieee_operations :
  forall x y : binary_float 53 1024,
    fadd (to_xr x) (to_xr y) = to_xr (Bplus mode_NE x y) /\
    fsub (to_xr x) (to_xr y) = to_xr (Bminus mode_NE x y) /\
    fmul (to_xr x) (to_xr y) = to_xr (Bmult mode_NE x y) /\
    (y <> B754_zero true -> fdiv (to_xr x) (to_xr y) = to_xr (Bdiv mode_NE x y)) /\
    fsqrt (to_xr x) = to_xr (Bsqrt mode_NE x) /\
    xle (to_xr x) (to_xr y) = Bleb x y /\
    is_b64 (to_xr x).
Proof.
  intros x y. split; [apply fadd_ieee|]. split; [apply fsub_ieee|]. split; [apply fmul_ieee|].
  split; [apply fdiv_ieee|]. split; [apply fsqrt_ieee|]. split; [apply xle_ieee|apply to_xr_b64].
Qed.

(** * C155 *)

Definition within (x : list xr) (b : option fbounds) : Prop :=
  match b with
  | None => True
  | Some b =>
      (forall l, fb_lower b = Some l -> Forall2 (fun li xi => xle li xi = true) l x) /\
      (forall u, fb_upper b = Some u -> Forall2 (fun xi ui => xle xi ui = true) x u)
  end.
Definition b64_bounds (b : option fbounds) : Prop :=
  match b with
  | None => True
  | Some b => (forall l, fb_lower b = Some l -> Forall is_b64 l) /\
              (forall u, fb_upper b = Some u -> Forall is_b64 u)
  end.
(** A finite float of absolute value at most [m] *)
Definition finite_b64 (m : R) (a : xr) : Prop := exists c, a = Fin c /\ is_b64 a /\ Rabs c <= m.
Definition unit_entry (a : xr) : Prop := xle (Fin (-1)) a = true /\ xle a (Fin 1) = true.

Lemma Forall2_nth_error A B (P : A -> B -> Prop) l k :
  Forall2 P l k <-> length l = length k /\
    forall i a b, nth_error l i = Some a -> nth_error k i = Some b -> P a b.
Proof.
  split.
  - induction 1 as [|a b l k H F [L IH]]; split; simpl; try lia; intros [|i] x y; simpl; try discriminate.
    + intros E1 E2. injection E1 as <-. now injection E2 as <-.
    + apply IH.
  - revert k. induction l as [|a l IH]; intros [|b k] [L H]; simpl in L; try lia; constructor.
    + now apply (H 0%nat).
    + apply IH. split; [lia|]. intros i. apply (H (S i)).
Qed.
Lemma Forall_nth_error A (P : A -> Prop) l i a : Forall P l -> nth_error l i = Some a -> P a.
Proof. intros F H. rewrite Forall_forall in F. apply F. now apply nth_error_In in H. Qed.

Lemma unit_fin u : unit_entry u -> exists a, u = Fin a /\ -1 <= a <= 1.
Proof.
  intros [A B]. destruct u as [a| | |]; try discriminate. simpl in A, B. apply Rleb_true in A, B. now exists a.
Qed.
Lemma b64_nonneg_format r : is_b64 (Fin r) -> 0 <= r -> r < b64_max.
Proof. intros [_ B] H. now rewrite Rabs_pos_eq in B. Qed.

Lemma sphere_entry c r a : is_b64 (Fin r) -> 0 <= r -> -1 <= a <= 1 ->
  exists p, fadd (fmul (Fin a) (Fin r)) (Fin c) = fl (p + c) /\ - r <= p <= r.
Proof.
  intros F Hr Ha. exists (rnd (a * r)).
  assert (H : Rabs (a * r) <= r) by (apply Rabs_le; nra).
  destruct (fl_small_le _ r F H) as [E B]. unfold fmul. cbn [xmul flx]. rewrite E. split; [reflexivity|].
  revert B. unfold Rabs. destruct (Rcase_abs _); lra.
Qed.

Lemma not_binding_lower c r l : is_b64 (Fin r) -> xle l (Fin c) = true ->
  xle (fsub (Fin c) l) (Fin r) = false -> forall p, - r <= p -> is_b64 l -> xle l (fl (p + c)) = true.
Proof.
  intros F Hl H p Hp Fl. destruct l as [l| | |]; try discriminate.
  - simpl in Hl. apply Rleb_true in Hl. apply fl_ge; [easy|].
    destruct (Rle_dec (c - l) r) as [C|C]; [exfalso|lra].
    unfold fsub in H. cbn [xsub xopp xadd flx] in H.
    assert (xle (fl (c + - l)) (Fin r) = true) by (apply fl_le; [easy|lra]). congruence.
  - pose proof (fl_not_nan (p + c)). destruct (fl (p + c)); cbn; congruence.
Qed.
Lemma not_binding_upper c r u : is_b64 (Fin r) -> xle (Fin c) u = true ->
  xle (fsub u (Fin c)) (Fin r) = false -> forall p, p <= r -> is_b64 u -> xle (fl (p + c)) u = true.
Proof.
  intros F Hl H p Hp Fl. destruct u as [u| | |]; try discriminate.
  - simpl in Hl. apply Rleb_true in Hl. apply fl_le; [easy|].
    destruct (Rle_dec (u - c) r) as [C|C]; [exfalso|lra].
    unfold fsub in H. cbn [xsub xopp xadd flx] in H.
    assert (xle (fl (u + - c)) (Fin r) = true) by (apply fl_le; [easy|lra]). congruence.
  - pose proof (fl_not_nan (p + c)). destruct (fl (p + c)); cbn; congruence.
Qed.

Definition big_b64 (k : Z) : R := bpow radix2 k.
Lemma big_is_b64 k : (-1074 <= k < 1024)%Z -> is_b64 (Fin (bpow radix2 k)).
Proof.
  intros H. split; [apply format_bpow; lia|]. rewrite Rabs_pos_eq by apply bpow_ge_0. apply bpow_lt. lia.
Qed.
Lemma bpow_double k : 2 * bpow radix2 k = bpow radix2 (k + 1).
Proof. rewrite bpow_plus. simpl. lra. Qed.
Lemma fl_bounded x k : (-1074 <= k < 1024)%Z -> Rabs x <= bpow radix2 k ->
  exists y, fl x = Fin y /\ is_b64 (Fin y) /\ Rabs y <= bpow radix2 k.
Proof.
  intros H B. destruct (fl_small_le x _ (big_is_b64 k H) B) as [E B']. exists (rnd x). split; [easy|].
  split; [|easy]. rewrite <- E. apply fl_b64.
Qed.

(** The bounds of the cube around the center. *)
Lemma cube_bounds_entry center rc b i c :
  is_b64 (Fin rc) -> 0 <= rc <= bpow radix2 1020 ->
  nth_error center i = Some (Fin c) -> is_b64 (Fin c) -> Rabs c <= bpow radix2 1020 ->
  within center b -> b64_bounds b ->
  exists lo up,
    nth_error (fst (f_create_cube_bounds center (Fin rc) b)) i = Some (Fin lo) /\
    nth_error (snd (f_create_cube_bounds center (Fin rc) b)) i = Some (Fin up) /\
    is_b64 (Fin lo) /\ is_b64 (Fin up) /\ lo <= c <= up /\
    Rabs lo <= bpow radix2 1021 /\ Rabs up <= bpow radix2 1021 /\
    match b with
    | None => True
    | Some b =>
        (forall l li, fb_lower b = Some l -> nth_error l i = Some li -> xle li (Fin lo) = true) /\
        (forall u ui, fb_upper b = Some u -> nth_error u i = Some ui -> xle (Fin up) ui = true)
    end.
Proof.
  intros Frc Hrc Hc Fc Bc W Fb.
  pose proof (bpow_double 1020) as D. change (1020 + 1)%Z with 1021%Z in D.
  pose proof (bpow_gt_0 radix2 1020) as P.
  assert (- bpow radix2 1020 <= c <= bpow radix2 1020) as [C1 C2].
  { revert Bc. unfold Rabs. destruct (Rcase_abs c); lra. }
  destruct (fl_bounded (c - rc) 1021 ltac:(lia)) as (lo & El & Fl & Bl); [apply Rabs_le; lra|].
  destruct (fl_bounded (c + rc) 1021 ltac:(lia)) as (up & Eu & Fu & Bu); [apply Rabs_le; lra|].
  assert (Lc : lo <= c).
  { assert (xle (fl (c - rc)) (Fin c) = true) as Q by (apply fl_le; [easy|lra]). rewrite El in Q.
    now apply Rleb_true in Q. }
  assert (Uc : c <= up).
  { assert (xle (Fin c) (fl (c + rc)) = true) as Q by (apply fl_ge; [easy|lra]). rewrite Eu in Q.
    now apply Rleb_true in Q. }
  assert (NL : nth_error (map (fun c => fsub c (Fin rc)) center) i = Some (Fin lo)).
  { rewrite nth_error_map, Hc. simpl. now rewrite <- El. }
  assert (NU : nth_error (map (fun c => fadd c (Fin rc)) center) i = Some (Fin up)).
  { rewrite nth_error_map, Hc. simpl. now rewrite <- Eu. }
  assert (A : forall v, v <= c -> c <= bpow radix2 1020 -> Rabs (Rmax lo v) <= bpow radix2 1021).
  { intros v Hv _. apply Rabs_le. split.
    - apply Rle_trans with lo; [|apply Rmax_l]. revert Bl. unfold Rabs. destruct (Rcase_abs lo); lra.
    - apply Rmax_lub; lra. }
  assert (A' : forall v, c <= v -> Rabs (Rmin up v) <= bpow radix2 1021).
  { intros v Hv. apply Rabs_le. split.
    - apply Rmin_glb; lra.
    - apply Rle_trans with up; [apply Rmin_l|]. revert Bu. unfold Rabs. destruct (Rcase_abs up); lra. }
  destruct b as [[bl bu]|].
  2:{ exists lo, up. cbn [f_create_cube_bounds fst snd]. easy. }
  destruct W as [WL WU], Fb as [FL FU]. cbn [fb_lower fb_upper] in *.
  assert (L : exists lo', nth_error (fst (f_create_cube_bounds center (Fin rc) (Some (mkFBounds bl bu)))) i = Some (Fin lo') /\
    is_b64 (Fin lo') /\ lo' <= c /\ Rabs lo' <= bpow radix2 1021 /\
    (forall l li, bl = Some l -> nth_error l i = Some li -> xle li (Fin lo') = true)).
  { cbn [f_create_cube_bounds fst]. destruct bl as [l|]; [|exists lo; easy].
    specialize (WL l eq_refl). specialize (FL l eq_refl). apply Forall2_nth_error in WL as [Ln WL].
    destruct (nth_error l i) as [li|] eqn:Eli.
    2:{ exfalso. apply nth_error_None in Eli. assert (nth_error center i <> None) by congruence.
        apply nth_error_Some in H. lia. }
    specialize (WL i li (Fin c) Eli Hc). pose proof (Forall_nth_error _ _ _ _ _ FL Eli) as Fli.
    rewrite map2_nth_error, NL, Eli. destruct li as [v| | |]; try discriminate.
    - simpl in WL. apply Rleb_true in WL. unfold xclip, xmax, xmin. cbn [xle].
      destruct (Rleb lo v) eqn:E.
      + exists v. apply Rleb_true in E. split; [reflexivity|]. split; [easy|]. split; [lra|].
        split; [specialize (A v WL C2); now rewrite Rmax_right in A|]. intros l' li' E1 E2. injection E1 as <-. rewrite Eli in E2.
        injection E2 as <-. simpl. apply Rleb_true. lra.
      + exists lo. apply Rleb_false in E. split; [reflexivity|]. do 3 (split; [easy|]). intros l' li' E1 E2. injection E1 as <-.
        rewrite Eli in E2. injection E2 as <-. simpl. apply Rleb_true. lra.
    - exists lo. split; [reflexivity|]. do 3 (split; [easy|]). intros l' li' E1 E2. injection E1 as <-.
      rewrite Eli in E2. now injection E2 as <-. }
  assert (U : exists up', nth_error (snd (f_create_cube_bounds center (Fin rc) (Some (mkFBounds bl bu)))) i = Some (Fin up') /\
    is_b64 (Fin up') /\ c <= up' /\ Rabs up' <= bpow radix2 1021 /\
    (forall u ui, bu = Some u -> nth_error u i = Some ui -> xle (Fin up') ui = true)).
  { cbn [f_create_cube_bounds snd]. destruct bu as [u|]; [|destruct bl; exists up; easy].
    specialize (WU u eq_refl). specialize (FU u eq_refl). apply Forall2_nth_error in WU as [Ln WU].
    destruct (nth_error u i) as [ui|] eqn:Eui.
    2:{ exfalso. apply nth_error_None in Eui. assert (nth_error center i <> None) by congruence.
        apply nth_error_Some in H. lia. }
    specialize (WU i (Fin c) ui Hc Eui). pose proof (Forall_nth_error _ _ _ _ _ FU Eui) as Fui.
    rewrite map2_nth_error, NU, Eui. destruct ui as [v| | |]; try discriminate.
    - simpl in WU. apply Rleb_true in WU. unfold xclip, xmax, xmin. cbn [xle].
      destruct (Rleb v up) eqn:E.
      + exists v. apply Rleb_true in E. split; [reflexivity|]. split; [easy|]. split; [lra|].
        split; [specialize (A' v WU); now rewrite Rmin_right in A'|]. intros l' li' E1 E2. injection E1 as <-. rewrite Eui in E2.
        injection E2 as <-. simpl. apply Rleb_true. lra.
      + exists up. apply Rleb_false in E. split; [reflexivity|]. do 3 (split; [easy|]). intros l' li' E1 E2. injection E1 as <-.
        rewrite Eui in E2. injection E2 as <-. simpl. apply Rleb_true. lra.
    - exists up. split; [reflexivity|]. do 3 (split; [easy|]). intros l' li' E1 E2. injection E1 as <-.
      rewrite Eui in E2. now injection E2 as <-. }
  destruct L as (lo' & L1 & L2 & L3 & L4 & L5), U as (up' & U1 & U2 & U3 & U4 & U5).
  exists lo', up'. do 7 (split; [easy|]). easy.
Qed.

Lemma xclip_between v lo up : v <> NaN -> lo <= up ->
  xle (Fin lo) (xclip v (Fin lo) (Fin up)) = true /\ xle (xclip v (Fin lo) (Fin up)) (Fin up) = true.
Proof.
  intros Hv H. unfold xclip, xmax, xmin. destruct v as [v| | |]; try congruence; cbn [xle].
  - destruct (Rleb v lo) eqn:E; cbn [xle].
    + destruct (Rleb up lo); cbn [xle]; rewrite !Rleb_true; lra.
    + apply Rleb_false in E. destruct (Rleb up v) eqn:E2; cbn [xle]; rewrite !Rleb_true;
        [|apply Rleb_false in E2]; lra.
  - rewrite !Rleb_true. lra.
  - destruct (Rleb up lo); cbn [xle]; rewrite !Rleb_true; lra.
Qed.

Lemma cube_entry_not_nan lo up a : Rabs lo <= bpow radix2 1021 -> Rabs up <= bpow radix2 1021 -> -1 <= a <= 1 ->
  fadd (fdiv (fmul (fsub (Fin up) (Fin lo)) (fadd (Fin a) (Fin 1))) (Fin 2)) (Fin lo) <> NaN.
Proof.
  intros Bl Bu Ha. pose proof (bpow_double 1021) as D. change (1021 + 1)%Z with 1022%Z in D.
  pose proof (bpow_double 1022) as D'. change (1022 + 1)%Z with 1023%Z in D'.
  pose proof (bpow_gt_0 radix2 1021).
  unfold fsub at 1. cbn [xsub xopp xadd flx].
  destruct (fl_bounded (up + - lo) 1022 ltac:(lia)) as (d & -> & _ & Bd).
  { revert Bl Bu. unfold Rabs. destruct (Rcase_abs lo), (Rcase_abs up), (Rcase_abs (up + - lo)); lra. }
  unfold fadd at 2. cbn [xadd flx].
  destruct (fl_bounded (a + 1) 1 ltac:(lia)) as (s & -> & _ & Bs).
  { simpl. apply Rabs_le. lra. }
  unfold fmul. cbn [xmul flx].
  destruct (fl_bounded (d * s) 1023 ltac:(lia)) as (m & -> & _ & Bm).
  { rewrite Rabs_mult. simpl (bpow radix2 1) in Bs. rewrite <- D'.
    pose proof (Rabs_pos d). pose proof (Rabs_pos s). nra. }
  unfold fdiv. cbn [xdiv]. rewrite (proj2 (Reqb_false 2 0)) by lra. cbn [flx].
  destruct (fl_bounded (m / 2) 1023 ltac:(lia)) as (h & -> & _ & _).
  { revert Bm. unfold Rabs. destruct (Rcase_abs m), (Rcase_abs (m / 2)); lra. }
  unfold fadd. cbn [xadd flx]. apply fl_not_nan.
Qed.

Lemma no_nan_fsub center b : (forall c, In c center -> exists v, c = Fin v) ->
  ~ In NaN b -> ~ In NaN (map2 fsub center b) /\ ~ In NaN (map2 fsub b center).
Proof.
  intros Hc Hb. split; intros H.
  - revert b Hb H. induction center as [|c center IH]; intros [|x b] Hb H; simpl in H; try easy.
    destruct H as [H|H].
    + destruct (Hc c) as [v ->]; [now left|]. unfold fsub in H. destruct x; cbn in H; try discriminate.
      * now apply fl_not_nan in H.
      * apply Hb. now left.
    + apply (IH) with (b := b); try easy; [intros; apply Hc; now right|]. intros ?. apply Hb. now right.
  - revert b Hb H. induction center as [|c center IH]; intros [|x b] Hb H; simpl in H; try easy.
    destruct H as [H|H].
    + destruct (Hc c) as [v ->]; [now left|]. unfold fsub in H. destruct x; cbn in H; try discriminate.
      * now apply fl_not_nan in H.
      * apply Hb. now left.
    + apply (IH) with (b := b); try easy; [intros; apply Hc; now right|]. intros ?. apply Hb. now right.
Qed.

Lemma within_not_nan_l l x : Forall2 (fun li xi => xle li xi = true) l x -> ~ In NaN l.
Proof. induction 1 as [|a c l k H F IH]; [easy|]. intros [->|E]; [destruct c; discriminate|easy]. Qed.
Lemma within_not_nan_u u x : Forall2 (fun xi ui => xle xi ui = true) x u -> ~ In NaN u.
Proof. induction 1 as [|a c l k H F IH]; [easy|]. intros [->|E]; [destruct a; discriminate|easy]. Qed.

(** C155 - points of the unit region are mapped to points within the bounds, in binary64
    arithmetic.  The center is within the bounds; the center and the radius of the cube are
    finite and far from overflow. *)
Theorem C155_mapped_points_in_bounds :
  forall cube_radius center r b reg u,
    is_b64 (Fin r) -> 0 <= r ->
    (exists rc, cube_radius (Fin r) (length center) = Fin rc /\ is_b64 (Fin rc) /\ 0 <= rc <= bpow radix2 1020) ->
    Forall (finite_b64 (bpow radix2 1020)) center ->
    within center b -> b64_bounds b ->
    f_make_region cube_radius center (Fin r) b = Ok reg ->
    length u = length center -> Forall unit_entry u ->
    within (f_map_from_unit reg u) b /\ length (f_map_from_unit reg u) = length center /\ ~ In NaN (f_map_from_unit reg u).
Proof.
  intros cube_radius center r b reg u Fr Hr (rc & Erc & Frc & Hrc) FC W Fb H Lu FU.
  assert (CF : forall i c, nth_error center i = Some c -> exists v, c = Fin v /\ is_b64 (Fin v) /\ Rabs v <= bpow radix2 1020).
  { intros i c E. apply (Forall_nth_error _ _ _ _ _ FC) in E as (v & -> & Q & Q'). now exists v. }
  assert (CN : forall c, In c center -> exists v, c = Fin v).
  { intros c Hc. apply In_nth_error in Hc as [i Hi]. destruct (CF _ _ Hi) as (v & -> & _). now exists v. }
  assert (UF : forall i a, nth_error u i = Some a -> exists v, a = Fin v /\ -1 <= v <= 1).
  { intros i a E. apply (Forall_nth_error _ _ _ _ _ FU) in E. now apply unit_fin. }
  unfold f_make_region in H. destruct (f_any_bounds_binding b center (Fin r)) as [[]|] eqn:B; try discriminate.
  - (* cube *)
    cbn [bind] in H. rewrite Erc in H. destruct (f_create_cube_bounds center (Fin rc) b) as [lo up] eqn:ECB.
    injection H as <-. unfold f_map_from_unit. cbn [fr_shape fr_cube_lower fr_cube_upper].
    assert (LB : forall i, (i < length center)%nat -> exists c l h a, nth_error center i = Some (Fin c) /\ nth_error lo i = Some (Fin l) /\
       nth_error up i = Some (Fin h) /\ nth_error u i = Some (Fin a) /\ -1 <= a <= 1 /\ l <= h /\ Rabs l <= bpow radix2 1021 /\ Rabs h <= bpow radix2 1021 /\
       match b with None => True | Some b =>
        (forall l' li, fb_lower b = Some l' -> nth_error l' i = Some li -> xle li (Fin l) = true) /\
        (forall u' ui, fb_upper b = Some u' -> nth_error u' i = Some ui -> xle (Fin h) ui = true) end).
    { intros i Hi. destruct (nth_error center i) as [c|] eqn:Ec; [|apply nth_error_None in Ec; lia].
      destruct (CF _ _ Ec) as (v & -> & Fv & Bv).
      destruct (nth_error u i) as [a|] eqn:Ea; [|apply nth_error_None in Ea; lia].
      destruct (UF _ _ Ea) as (w & -> & Hw).
      destruct (cube_bounds_entry center rc b i v Frc Hrc Ec Fv Bv W Fb) as (l & h & E1 & E2 & _ & _ & R & B1 & B2 & M).
      rewrite ECB in E1, E2. cbn [fst snd] in E1, E2. exists v, l, h, w. do 7 (split; [easy || lra|]). split; easy. }
    set (out := map2 _ _ _).
    assert (OUT : forall i x, nth_error out i = Some x -> (i < length center)%nat /\ exists l h,
       nth_error lo i = Some (Fin l) /\ nth_error up i = Some (Fin h) /\ xle (Fin l) x = true /\ xle x (Fin h) = true).
    { intros i x E. unfold out in E. rewrite map2_nth_error in E.
      destruct (nth_error u i) as [a|] eqn:Ea; [|discriminate].
      assert (Hi : (i < length center)%nat). { rewrite <- Lu. apply nth_error_Some. congruence. }
      split; [exact Hi|]. destruct (LB i Hi) as (c & l & h & a' & E1 & E2 & E3 & E4 & Ra & Rlh & B1 & B2 & _).
      rewrite E4 in Ea. injection Ea as <-.
      destruct (nth_error (combine lo up) i) as [[l' h']|] eqn:EC; [|discriminate].
      assert (l' = Fin l /\ h' = Fin h) as [-> ->].
      { pose proof EC as EC'. clear -EC E2 E3. revert i up EC E2 E3. induction lo as [|x lo IH]; intros i [|y up] EC E2 E3; destruct i; try discriminate.
        - simpl in *. split; congruence.
        - simpl in EC, E2, E3. eauto. }
      injection E as <-. exists l, h. do 2 (split; [easy|]).
      apply xclip_between; [now apply cube_entry_not_nan|easy]. }
    assert (LO : length out = length center).
    { unfold out. rewrite map2_length, combine_length.
      assert (forall i, (i < length center)%nat -> (i < length lo)%nat /\ (i < length up)%nat).
      { intros i Hi. destruct (LB i Hi) as (c & l & h & a & E1 & E2 & E3 & _). split; apply nth_error_Some; congruence. }
      assert (length center <= length lo /\ length center <= length up)%nat.
      { destruct (length center) eqn:Z; [lia|]. destruct (H n ltac:(lia)). lia. }
      lia. }
    split; [|split; [exact LO|]].
    + destruct b as [[bl bu]|]; [|exact I]. destruct W as [WL WU]. cbn [within fb_lower fb_upper] in *. split.
      * intros l E. specialize (WL l E). apply Forall2_nth_error. apply Forall2_nth_error in WL as [Ln WL]. split; [lia|].
        intros i li x Eli Ex. destruct (OUT i x Ex) as (Hi & l' & h' & E1 & E2 & G1 & G2).
        destruct (LB i Hi) as (c & l'' & h'' & a & _ & E3 & E4 & _ & _ & _ & _ & _ & M & _).
        rewrite E1 in E3. injection E3 as <-. apply xle_trans with (2 := G1). now apply (M l).
      * intros l E. specialize (WU l E). apply Forall2_nth_error. apply Forall2_nth_error in WU as [Ln WU]. split; [lia|].
        intros i x ui Ex Eui. destruct (OUT i x Ex) as (Hi & l' & h' & E1 & E2 & G1 & G2).
        destruct (LB i Hi) as (c & l'' & h'' & a & _ & E3 & E4 & _ & _ & _ & _ & _ & _ & M).
        rewrite E2 in E4. injection E4 as <-. apply xle_trans with (1 := G2). now apply (M l).
    + intros N. apply In_nth_error in N as [i N]. destruct (OUT i NaN N) as (_ & l & h & _ & _ & G & _). discriminate.
  - (* sphere *)
    cbn [bind] in H. destruct (f_create_cube_bounds center (Fin r) b) as [lo up]. injection H as <-.
    unfold f_map_from_unit. cbn [fr_shape fr_center fr_radius].
    set (out := map2 _ _ _).
    assert (OUT : forall i x, nth_error out i = Some x -> exists c p, nth_error center i = Some (Fin c) /\ x = fl (p + c) /\ - r <= p <= r).
    { intros i x E. unfold out in E. rewrite map2_nth_error in E.
      destruct (nth_error u i) as [a|] eqn:Ea; [|discriminate]. destruct (nth_error center i) as [c|] eqn:Ec; [|discriminate].
      destruct (CF _ _ Ec) as (v & -> & _). destruct (UF _ _ Ea) as (w & -> & Hw).
      injection E as <-. destruct (sphere_entry v r w Fr Hr Hw) as (p & E & Hp). exists v, p. easy. }
    assert (LO : length out = length center) by (unfold out; rewrite map2_length; lia).
    split; [|split; [exact LO|]].
    + destruct b as [[bl bu]|]; [|exact I]. destruct W as [WL WU], Fb as [FL FU2]. cbn [within fb_lower fb_upper] in *.
      unfold f_any_bounds_binding in B. cbn [fb_lower fb_upper] in B.
      destruct (f_has_any (mkFBounds bl bu)) eqn:HA.
      * assert (NB : (forall l, bl = Some l -> forall i li c, nth_error l i = Some li -> nth_error center i = Some c -> xle (fsub c li) (Fin r) = false)
                   /\ (forall l, bu = Some l -> forall i li c, nth_error l i = Some li -> nth_error center i = Some c -> xle (fsub li c) (Fin r) = false)).
        { split.
          - intros l -> i li c Eli Ec. cbn [bind] in B. destruct (np_min (map2 fsub center l)) as [m|] eqn:Em; [|discriminate]. cbn [bind] in B.
            destruct (xle m (Fin r)) eqn:X.
            { destruct bu as [u'|]; [destruct (np_min (map2 fsub u' center)); cbn [bind] in B; discriminate|cbn [bind] in B; discriminate]. }
            destruct (xle (fsub c li) (Fin r)) eqn:Y; [|reflexivity]. exfalso.
            assert (xle m (Fin r) = true); [|congruence].
            destruct (no_nan_fsub center l CN (within_not_nan_l _ _ (WL l eq_refl))) as [NN _].
            apply (proj2 (Prop_Region.np_min_le _ m r Em NN)). exists (fsub c li). split; [|easy].
            apply Prop_Region.In_map2. exists i, c, li. easy.
          - intros l -> i li c Eli Ec. cbn [bind] in B.
            destruct bl as [l0|].
            + destruct (np_min (map2 fsub center l0)) as [m0|] eqn:Em0; [|discriminate]. cbn [bind] in B.
              destruct (np_min (map2 fsub l center)) as [m|] eqn:Em; [|discriminate]. cbn [bind] in B.
              destruct (xle m0 (Fin r)); [discriminate|]. injection B as B.
              destruct (xle (fsub li c) (Fin r)) eqn:Y; [|reflexivity]. exfalso.
              assert (xle m (Fin r) = true); [|congruence].
              destruct (no_nan_fsub center l CN (within_not_nan_u _ _ (WU l eq_refl))) as [_ NN].
              apply (proj2 (Prop_Region.np_min_le _ m r Em NN)). exists (fsub li c). split; [|easy].
              apply Prop_Region.In_map2. exists i, li, c. easy.
            + cbn [bind] in B. destruct (np_min (map2 fsub l center)); discriminate. }
        destruct NB as [NL NU]. split.
        -- intros l E. apply Forall2_nth_error. pose proof (WL l E) as W'. apply Forall2_nth_error in W' as [Ln W']. split; [lia|].
           intros i li x Eli Ex. destruct (OUT i x Ex) as (c & p & Ec & -> & Hp).
           apply (not_binding_lower c r li Fr); try easy; [exact (W' i li (Fin c) Eli Ec)|exact (NL l E i li (Fin c) Eli Ec)|].
           exact (Forall_nth_error _ _ _ _ _ (FL l E) Eli).
        -- intros l E. apply Forall2_nth_error. pose proof (WU l E) as W'. apply Forall2_nth_error in W' as [Ln W']. split; [lia|].
           intros i x li Ex Eli. destruct (OUT i x Ex) as (c & p & Ec & -> & Hp).
           apply (not_binding_upper c r li Fr); try easy; [exact (W' i (Fin c) li Ec Eli)|exact (NU l E i li (Fin c) Eli Ec)|].
           exact (Forall_nth_error _ _ _ _ _ (FU2 l E) Eli).
      * unfold f_has_any in HA. apply orb_false_iff in HA as [HL HU]. cbn [fb_lower fb_upper] in HL, HU. split.
        -- intros l E. apply Forall2_nth_error. pose proof (WL l E) as W'. apply Forall2_nth_error in W' as [Ln W']. split; [lia|].
           intros i li x Eli Ex. destruct (OUT i x Ex) as (c & p & Ec & -> & Hp). specialize (W' i li (Fin c) Eli Ec).
           subst bl. cbn in HL. destruct li as [v| | |]; try discriminate.
           ++ exfalso. assert (existsb isfinite l = true); [|congruence]. apply existsb_exists. exists (Fin v). split; [|easy].
              now apply nth_error_In in Eli.
           ++ pose proof (fl_not_nan (p + c)). destruct (fl (p + c)); cbn; congruence.
        -- intros l E. apply Forall2_nth_error. pose proof (WU l E) as W'. apply Forall2_nth_error in W' as [Ln W']. split; [lia|].
           intros i x li Ex Eli. destruct (OUT i x Ex) as (c & p & Ec & -> & Hp). specialize (W' i (Fin c) li Ec Eli).
           subst bu. cbn in HU. destruct li as [v| | |]; try discriminate.
           ++ exfalso. assert (existsb isfinite l = true); [|congruence]. apply existsb_exists. exists (Fin v). split; [|easy].
              now apply nth_error_In in Eli.
           ++ pose proof (fl_not_nan (p + c)). destruct (fl (p + c)); cbn; congruence.
    + intros N. apply In_nth_error in N as [i N]. destruct (OUT i NaN N) as (c & p & _ & E & _). symmetry in E.
      now apply fl_not_nan in E.
Qed.

(** C155 - what the subproblem template returns for a cube is within the bounds, whatever the
    solver returned (even NaN): predictions at points with NaN are NaN.  For a sphere the point
    of the solver has to be in the unit cube. *)
Theorem C155_candidate_in_bounds :
  forall cube_radius center r b reg predict raw,
    is_b64 (Fin r) -> 0 <= r ->
    (exists rc, cube_radius (Fin r) (length center) = Fin rc /\ is_b64 (Fin rc) /\ 0 <= rc <= bpow radix2 1020) ->
    Forall (finite_b64 (bpow radix2 1020)) center ->
    within center b -> b64_bounds b ->
    f_make_region cube_radius center (Fin r) b = Ok reg ->
    length raw = length center ->
    (forall x, In NaN x -> predict x = NaN) ->
    fr_shape reg = Cube \/ Forall unit_entry raw ->
    within (fst (f_template reg predict raw)) b /\ ~ In NaN (fst (f_template reg predict raw)).
Proof.
  intros cube_radius center r b reg predict raw Fr Hr Erc FC W Fb H L HP HS.
  assert (EC : fr_center reg = center).
  { unfold f_make_region in H. destruct (f_any_bounds_binding _ _ _); [|discriminate]. cbn [bind] in H.
    destruct (f_create_cube_bounds _ _ _). now injection H as <-. }
  unfold f_template. set (raw' := match fr_shape reg with Sphere => raw | Cube => _ end).
  assert (L' : length raw' = length center).
  { unfold raw'. destruct (fr_shape reg); [easy|now rewrite map_length]. }
  destruct (xge _ _) eqn:X.
  - cbn [fst].
    assert (N : ~ In NaN raw').
    { intros N. rewrite (HP _ N) in X. unfold fsub in X. discriminate. }
    assert (U : Forall unit_entry raw').
    { destruct HS as [HS|HS].
      - unfold raw' in *. rewrite HS in *. apply Forall_forall. intros a Ha. apply in_map_iff in Ha as (z & <- & Hz).
        apply xclip_between; [|lra]. intros ->. apply N. apply in_map_iff. now exists NaN.
      - destruct (fr_shape reg) eqn:S; unfold raw'; [exact HS|].
        apply Forall_forall. intros a Ha. apply in_map_iff in Ha as (z & <- & Hz). apply xclip_between; [|lra]. intros ->.
        rewrite Forall_forall in HS. destruct (HS NaN Hz). discriminate. }
    destruct (C155_mapped_points_in_bounds _ _ _ _ _ raw' Fr Hr Erc FC W Fb H L' U) as (G & _ & G'). easy.
  - cbn [fst]. rewrite EC. split; [easy|]. intros N. rewrite Forall_forall in FC. destruct (FC NaN N) as (c & E & _). discriminate.
Qed.

(** * C156 *)

Lemma format_double x : generic_format radix2 b64_exp x -> generic_format radix2 b64_exp (2 * x).
Proof.
  intros F. apply FLT_format_generic in F; [|exact prec53]. destruct F as [f E B M].
  apply generic_format_FLT. exists (Float radix2 (Fnum f) (Fexp f + 1)).
  - rewrite E. unfold F2R. cbn [Fnum Fexp]. rewrite bpow_plus. change (bpow radix2 1) with 2. lra.
  - exact B.
  - simpl. lia.
Qed.

Lemma small_int_b64 k : (Z.abs k < 2 ^ 53)%Z -> is_b64 (Fin (IZR k)).
Proof.
  intros H. split; [now apply format_IZR|]. rewrite <- abs_IZR.
  apply Rlt_trans with (IZR (2 ^ 53)); [now apply IZR_lt|].
  change (IZR (2 ^ 53)) with (bpow radix2 53). apply bpow_lt. lia.
Qed.
Lemma unit_of_between lo up c : is_b64 (Fin lo) -> is_b64 (Fin up) -> lo <= c <= up -> lo < up ->
  Rabs lo <= bpow radix2 1021 -> Rabs up <= bpow radix2 1021 ->
  unit_entry (fsub (fdiv (fmul (Fin 2) (fsub (Fin c) (Fin lo))) (fsub (Fin up) (Fin lo))) (Fin 1)).
Proof.
  intros [Fl _] [Fu _] Hc Hlt Bl Bu. pose proof (bpow_double 1021) as D. change (1021 + 1)%Z with 1022%Z in D.
  pose proof (bpow_double 1022) as D'. change (1022 + 1)%Z with 1023%Z in D'.
  pose proof (bpow_gt_0 radix2 1021).
  assert (W : up - lo <= bpow radix2 1022).
  { revert Bl Bu. unfold Rabs. destruct (Rcase_abs lo), (Rcase_abs up); lra. }
  destruct (fl_small_le (up + - lo) (bpow radix2 1022) (big_is_b64 1022 ltac:(lia))) as [E2 B2]; [apply Rabs_le; lra|].
  destruct (fl_small_le (c + - lo) (bpow radix2 1022) (big_is_b64 1022 ltac:(lia))) as [E1 B1]; [apply Rabs_le; lra|].
  unfold fsub at 2 3. cbn [xsub xopp xadd flx]. rewrite E1, E2.
  assert (M : rnd (c + - lo) <= rnd (up + - lo)) by (apply rnd_mono; lra).
  assert (N : 0 <= rnd (c + - lo)) by (rewrite <- rnd_0; apply rnd_mono; lra).
  assert (P : 0 < rnd (up + - lo)).
  { assert (rnd (up + - lo) <> 0); [|lra]. intros Z.
    apply (round_plus_eq_0 radix2 b64_exp) in Z; try apply _; [lra|easy|now apply generic_format_opp]. }
  set (d1 := rnd (c + - lo)) in *. set (d2 := rnd (up + - lo)) in *.
  rewrite Rabs_pos_eq in B1, B2 by lra.
  unfold fmul. cbn [xmul flx].
  assert (F1 : generic_format radix2 b64_exp (2 * d1)) by apply format_double, rnd_format.
  rewrite (fl_fin (2 * d1)).
  2:{ split; [easy|]. rewrite Rabs_pos_eq by lra. apply Rle_lt_trans with (bpow radix2 1023); [lra|]. apply bpow_lt. lia. }
  unfold fdiv. cbn [xdiv]. rewrite (proj2 (Reqb_false d2 0)) by lra. cbn [flx].
  assert (Q0 : 0 <= 2 * d1 / d2) by (apply Rle_mult_inv_pos; lra).
  assert (Q : Rabs (2 * d1 / d2) <= bpow radix2 1).
  { rewrite Rabs_pos_eq by easy. simpl. apply (Rmult_le_reg_r d2); [lra|]. unfold Rdiv. rewrite Rmult_assoc, Rinv_l by lra. lra. }
  destruct (fl_small_le _ _ (big_is_b64 1 ltac:(lia)) Q) as [E3 B3]. rewrite E3.
  assert (0 <= rnd (2 * d1 / d2)) by (rewrite <- rnd_0; apply rnd_mono; easy).
  rewrite Rabs_pos_eq in B3 by easy. simpl in B3.
  unfold fsub. cbn [xsub xopp xadd flx]. split.
  - apply fl_ge; [apply (small_int_b64 (-1)); lia|lra].
  - apply fl_le; [apply (small_int_b64 1); lia|lra].
Qed.

(** C156 - in a cube the unit representation of the center, where the solvers start, lies in the
    unit cube.  Missing: cubes whose bounds coincide after rounding. *)
Theorem C156_center_in_unit_cube_partial :
  forall cube_radius center r b reg,
    (exists rc, cube_radius (Fin r) (length center) = Fin rc /\ is_b64 (Fin rc) /\ 0 <= rc <= bpow radix2 1020) ->
    Forall (finite_b64 (bpow radix2 1020)) center ->
    within center b -> b64_bounds b ->
    f_make_region cube_radius center (Fin r) b = Ok reg -> fr_shape reg = Cube ->
    Forall2 (fun l u => xlt l u = true) (fr_cube_lower reg) (fr_cube_upper reg) ->
    Forall unit_entry (f_map_to_unit reg center).
Proof.
  intros cube_radius center r b reg (rc & Erc & Frc & Hrc) FC W Fb H S LT.
  unfold f_make_region in H. destruct (f_any_bounds_binding b center (Fin r)) as [[]|]; try discriminate;
    cbn [bind] in H; [rewrite Erc in H|].
  2:{ destruct (f_create_cube_bounds _ _ _). injection H as <-. discriminate. }
  destruct (f_create_cube_bounds center (Fin rc) b) as [lo up] eqn:ECB. injection H as <-.
  cbn [fr_cube_lower fr_cube_upper] in LT. unfold f_map_to_unit. cbn [fr_shape fr_cube_lower fr_cube_upper].
  apply Forall_forall. intros x Hx. apply In_nth_error in Hx as [i Hx]. rewrite map2_nth_error in Hx.
  destruct (nth_error center i) as [c|] eqn:Ec; [|discriminate].
  destruct (nth_error (combine lo up) i) as [[l h]|] eqn:EC; [|discriminate]. injection Hx as <-.
  destruct (Forall_nth_error _ _ _ _ _ FC Ec) as (v & -> & Fv & Bv).
  destruct (cube_bounds_entry center rc b i v Frc Hrc Ec Fv Bv W Fb) as (l' & h' & E1 & E2 & F1 & F2 & R & B1 & B2 & _).
  rewrite ECB in E1, E2. cbn [fst snd] in E1, E2.
  assert (l = Fin l' /\ h = Fin h') as [-> ->].
  { clear -EC E1 E2. revert i up EC E1 E2. induction lo as [|x lo IH]; intros i [|y up] EC E1 E2; destruct i; try discriminate.
    - simpl in *. split; congruence.
    - simpl in EC, E1, E2. eauto. }
  apply Forall2_nth_error in LT as [_ LT]. specialize (LT i _ _ E1 E2). simpl in LT. apply Rltb_true in LT.
  now apply unit_of_between.
Qed.

(** C156 - in a sphere it is the origin. *)
Theorem C156_center_of_sphere :
  forall reg r, fr_shape reg = Sphere -> fr_radius reg = Fin r -> 0 < r ->
    Forall (fun c => exists v, c = Fin v) (fr_center reg) ->
    f_map_to_unit reg (fr_center reg) = repeat (Fin 0) (length (fr_center reg)).
Proof.
  intros reg r S R Hr F. unfold f_map_to_unit. rewrite S, R. induction F as [|c l [v ->] F IH]; [reflexivity|].
  simpl. f_equal; [|exact IH]. unfold fsub. cbn [xsub xopp xadd flx]. replace (v + - v) with 0 by lra.
  assert (Z : fl 0 = Fin 0) by (apply fl_fin, (small_int_b64 0); lia). rewrite Z.
  unfold fdiv. cbn [xdiv]. rewrite (proj2 (Reqb_false r 0)) by lra. cbn [flx]. unfold Rdiv. now rewrite Rmult_0_l.
Qed.

(** The default minimal radius, 1e-6 *)
Definition micro : R := rnd (/ 1000000).
Lemma micro_b64 : is_b64 (Fin micro) /\ 0 < micro /\ Rabs micro <= bpow radix2 (-19) /\ bpow radix2 (-20) <= micro.
Proof.
  assert (B : bpow radix2 (-20) <= / 1000000 <= bpow radix2 (-19)) by (simpl; lra).
  destruct (fl_small_le (/ 1000000) _ (big_is_b64 (-19) ltac:(lia))) as [E Q]; [rewrite Rabs_pos_eq; lra|].
  assert (L : bpow radix2 (-20) <= micro) by (apply rnd_ge_format; [apply format_bpow; lia|easy]).
  assert (P : 0 < bpow radix2 (-20)) by apply bpow_gt_0.
  assert (F : is_b64 (Fin micro)) by (unfold micro; rewrite <- E; apply fl_b64).
  split; [exact F|]. split; [lra|]. split; [exact Q|exact L].
Qed.

Definition two40 : R := bpow radix2 40.
Lemma absorbed40 p : Rabs p <= bpow radix2 (-19) -> rnd (p + two40) = two40.
Proof.
  intros H. assert (P : Rabs two40 = two40) by (apply Rabs_pos_eq, bpow_ge_0). apply absorbed.
  - apply format_bpow. lia.
  - rewrite P. apply bpow_le. lia.
  - rewrite P. apply Rle_lt_trans with (1 := H). unfold two40. rewrite <- bpow_plus. apply bpow_lt. lia.
Qed.
Lemma two40_b64 : is_b64 (Fin two40).
Proof. apply big_is_b64. lia. Qed.

(** C156 - at a lower bound of 2^40 (about 1.1e12) the cube of the default minimal radius 1e-6 is a
    single point after rounding, and the unit representation of the center is NaN. *)
Theorem C156_center_in_unit_cube_refuted :
  exists center b reg,
    Forall (finite_b64 (bpow radix2 1020)) center /\ within center b /\ b64_bounds b /\
    f_make_region (fun r _ => r) center (Fin micro) b = Ok reg /\ fr_shape reg = Cube /\
    f_map_to_unit reg center = [NaN].
Proof.
  destruct micro_b64 as (Fm & Pm & Bm & _).
  set (b := Some (mkFBounds (Some [Fin two40]) (Some [PInf]))).
  assert (A1 : fl (two40 + micro) = Fin two40).
  { rewrite Rplus_comm. unfold fl. rewrite (absorbed40 micro Bm).
    destruct two40_b64 as [_ Q]. now rewrite (proj2 (Rltb_true _ _) Q). }
  assert (Z : fl (two40 + - two40) = Fin 0).
  { replace (two40 + - two40) with 0 by lra. apply fl_fin, (small_int_b64 0). lia. }
  assert (A2 : fl (two40 + - micro) = Fin two40).
  { rewrite Rplus_comm. unfold fl. rewrite absorbed40 by now rewrite Rabs_Ropp.
    destruct two40_b64 as [_ Q]. now rewrite (proj2 (Rltb_true _ _) Q). }
  exists [Fin two40], b, (mkFRegion [Fin two40] (Fin micro) b Cube [Fin two40] [Fin two40]).
  split; [|split; [|split; [|split; [|split]]]].
  - constructor; [|constructor]. exists two40. split; [easy|]. split; [apply two40_b64|].
    unfold two40. rewrite Rabs_pos_eq by apply bpow_ge_0. apply bpow_le. lia.
  - split; intros l E; injection E as <-; constructor; try constructor. simpl. apply Rleb_true. lra.
  - split; intros l E; injection E as <-; constructor; try constructor; exact I || apply two40_b64.
  - unfold f_make_region, f_any_bounds_binding, b. cbn [f_has_any f_side_any_finite fb_lower fb_upper existsb isfinite orb map2 np_min bind fold_left].
    unfold fsub at 1. cbn [xsub xopp xadd flx]. rewrite Z. cbn [xle]. rewrite (proj2 (Rleb_true 0 micro)) by lra.
    cbn [bind]. unfold f_create_cube_bounds. cbn [map map2]. unfold fsub, fadd. cbn [xsub xopp xadd flx].
    rewrite A1, A2. unfold xclip, xmax, xmin. cbn [xle]. rewrite (proj2 (Rleb_true two40 two40)) by lra. reflexivity.
  - reflexivity.
  - unfold f_map_to_unit. cbn [fr_shape fr_cube_lower fr_cube_upper combine map2]. unfold fsub at 2 3.
    cbn [xsub xopp xadd flx]. rewrite Z. unfold fmul. cbn [xmul flx]. rewrite Rmult_0_r.
    rewrite (fl_fin 0) by (apply (small_int_b64 0); lia). unfold fdiv. cbn [xdiv].
    rewrite (proj2 (Reqb_true 0 0) eq_refl). reflexivity.
Qed.

(** * C157 *)

(** C157 - if a coordinate of the center is not too large compared to the radius, the unit vector
    of this coordinate is mapped to a point different from the center.  Missing: larger centers. *)
Theorem C157_sample_moves_partial :
  forall c r, is_b64 (Fin c) -> is_b64 (Fin r) -> bpow radix2 (-1022) <= Rabs c ->
    Rabs c * bpow radix2 (-52) <= r ->
    xlt (Fin c) (fadd (fmul (Fin 1) (Fin r)) (Fin c)) = true.
Proof.
  intros c r [Fc Bc] Fr Hc H.
  assert (P : 0 < Rabs c) by (pose proof (bpow_gt_0 radix2 (-1022)); lra).
  assert (R0 : 0 <= r) by (pose proof (bpow_gt_0 radix2 (-52)); nra).
  unfold fmul. cbn [xmul flx]. rewrite Rmult_1_l, (fl_fin r Fr). unfold fadd. cbn [xadd flx].
  assert (G : c < rnd (r + c)).
  { apply Rlt_le_trans with (succ radix2 b64_exp c).
    - apply succ_gt_id. intros ->. rewrite Rabs_R0 in P. lra.
    - apply rnd_ge_format; [apply generic_format_succ; [apply b64_valid|easy]|].
      apply Rle_trans with (1 := succ_le_plus_ulp radix2 b64_exp c).
      pose proof (ulp_FLT_le radix2 (-1074) 53 c Hc) as U.
      change (FLT_exp (-1074) 53) with b64_exp in U. change (1 - 53)%Z with (-52)%Z in U. lra. }
  unfold fl. destruct (Rltb _ _) eqn:E.
  - simpl. now apply Rltb_true.
  - apply Rltb_false in E. destruct (Rltb 0 (r + c)) eqn:S; [reflexivity|exfalso]. apply Rltb_false in S.
    pose proof (rnd_mono _ _ S) as N. rewrite rnd_0 in N. revert Bc E. unfold Rabs.
    destruct (Rcase_abs c), (Rcase_abs (rnd (r + c))); lra.
Qed.

(** C157 - if the radius is below the resolution of the coordinates of the center, all points of
    the unit sphere are mapped to the center: the sample consists of copies of the center. *)
Theorem C157_collapse :
  forall reg r u, fr_shape reg = Sphere -> fr_radius reg = Fin r -> is_b64 (Fin r) -> 0 <= r ->
    Forall (fun c => exists v, c = Fin v /\ is_b64 c /\ bpow radix2 (-1021) <= Rabs v /\ r < Rabs v * bpow radix2 (-54))
      (fr_center reg) ->
    length u = length (fr_center reg) -> Forall unit_entry u ->
    f_map_from_unit reg u = fr_center reg.
Proof.
  intros reg r u S R Fr Hr F L U. unfold f_map_from_unit. rewrite S, R.
  revert u L U. induction F as [|c l (v & -> & Fv & Lv & Sv) F IH]; intros [|a u] L U; try discriminate; [reflexivity|].
  inversion_clear U as [|? ? Ua U']. apply unit_fin in Ua as (w & -> & Hw). simpl. f_equal.
  - destruct (sphere_entry v r w Fr Hr Hw) as (p & E & Hp). rewrite E. unfold fl. rewrite absorbed; try easy.
    + destruct Fv as [_ B]. now rewrite (proj2 (Rltb_true _ _) B).
    + exact (proj1 Fv).
    + apply Rle_lt_trans with r; [|easy]. apply Rabs_le. lra.
  - apply IH; [now injection L|easy].
Qed.

(** C157 - with the default minimal radius this happens around the center 2^40. *)
Theorem C157_sample_moves_refuted :
  exists center reg,
    Forall (finite_b64 (bpow radix2 1020)) center /\
    f_make_region (fun r _ => r) center (Fin micro) None = Ok reg /\
    forall u, length u = length center -> Forall unit_entry u -> f_map_from_unit reg u = center.
Proof.
  destruct micro_b64 as (Fm & Pm & Bm & _).
  exists [Fin two40], (mkFRegion [Fin two40] (Fin micro) None Sphere [fsub (Fin two40) (Fin micro)] [fadd (Fin two40) (Fin micro)]).
  assert (P : Rabs two40 = two40) by (apply Rabs_pos_eq, bpow_ge_0). split; [|split].
  - constructor; [|constructor]. exists two40. split; [easy|]. split; [apply two40_b64|]. rewrite P. apply bpow_le. lia.
  - reflexivity.
  - intros u L U. set (reg := mkFRegion _ _ _ _ _ _). change [Fin two40] with (fr_center reg).
    apply (C157_collapse reg micro); try easy; [lra|]. constructor; [|constructor].
    exists two40. split; [easy|]. split; [apply two40_b64|]. rewrite P. split; [apply bpow_le; lia|].
    rewrite Rabs_pos_eq in Bm by lra. apply Rle_lt_trans with (1 := Bm). unfold two40. rewrite <- bpow_plus. apply bpow_lt. lia.
Qed.

(** * C158 *)

Lemma zero_b64 : is_b64 (Fin 0).
Proof. apply (small_int_b64 0). lia. Qed.

Lemma f_sum_ge t x :
  (forall a, In a x -> is_b64 a /\ xle (Fin 0) a = true) ->
  is_b64 (f_sum t x) /\ xle (Fin 0) (f_sum t x) = true /\
  forall i, In i (leaves t) -> xle (nth i x (Fin 0)) (f_sum t x) = true.
Proof.
  intros H. induction t as [i|t1 (F1 & N1 & G1) t2 (F2 & N2 & G2)]; simpl.
  - assert (K : is_b64 (nth i x (Fin 0)) /\ xle (Fin 0) (nth i x (Fin 0)) = true).
    { destruct (Nat.lt_ge_cases i (length x)) as [L|L].
      - apply H. now apply nth_In.
      - rewrite nth_overflow by easy. split; [apply zero_b64|]. simpl. apply Rleb_true. lra. }
    split; [easy|]. split; [easy|]. intros j [<-|[]]. apply xle_refl. intros E. rewrite E in K. destruct K. discriminate.
  - set (a := f_sum t1 x) in *. set (c := f_sum t2 x) in *.
    assert (K : is_b64 (fadd a c) /\ xle a (fadd a c) = true /\ xle c (fadd a c) = true).
    { destruct a as [a| | |]; try discriminate; destruct c as [c| | |]; try discriminate; try (split; [exact I|split; reflexivity]).
      unfold fadd. cbn [xadd flx]. simpl in N1, N2. apply Rleb_true in N1, N2.
      split; [apply fl_b64|]. split; apply fl_ge; try easy; lra. }
    destruct K as (K1 & K2 & K3). split; [easy|]. split; [exact (xle_trans (Fin 0) a _ N1 K2)|].
    intros i Hi. apply in_app_or in Hi as [Hi|Hi]; [exact (xle_trans _ a _ (G1 i Hi) K2)|exact (xle_trans _ c _ (G2 i Hi) K3)].
Qed.

Lemma square_b64 a : is_b64 (fmul (Fin a) (Fin a)) /\ xle (Fin 0) (fmul (Fin a) (Fin a)) = true.
Proof.
  unfold fmul. cbn [xmul flx]. split; [apply fl_b64|]. apply fl_ge; [apply zero_b64|nra].
Qed.

(** The norm is at least as large as every entry. *)
Lemma f_norm_2_ge t x m : (forall a, In a x -> exists v, a = Fin v /\ is_b64 a) ->
  (forall i, (i < length x)%nat -> In i (leaves t)) ->
  (exists w, In (Fin w) x /\ bpow radix2 (-500) <= Rabs w) -> m = f_norm_2 t x ->
  m = PInf \/ exists n, m = Fin n /\ 0 < n /\ forall v, In (Fin v) x -> Rabs v <= n.
Proof.
  intros F L (w & Hw & Bw) ->.
  set (sq := map (fun a => fmul a a) x).
  assert (SQ : forall a, In a sq -> is_b64 a /\ xle (Fin 0) a = true).
  { intros a Ha. apply in_map_iff in Ha as (z & <- & Hz). destruct (F z Hz) as (v & -> & _). apply square_b64. }
  destruct (f_sum_ge t sq SQ) as (FS & NS & GS).
  assert (G : forall v, In (Fin v) x -> xle (fmul (Fin v) (Fin v)) (f_sum t sq) = true).
  { intros v Hv. apply (In_nth _ _ (Fin 0)) in Hv as (i & Hi & E).
    assert (E' : nth i sq (Fin 0) = fmul (Fin v) (Fin v)).
    { unfold sq. rewrite nth_indep with (d' := fmul (Fin 0) (Fin 0)) by (now rewrite map_length).
      rewrite (map_nth (fun a => fmul a a)), E. reflexivity. }
    rewrite <- E'. apply GS, L, Hi. }
  unfold f_norm_2. fold sq. destruct (f_sum t sq) as [s| | |]; try discriminate; [|now left].
  right. simpl in NS. apply Rleb_true in NS. unfold fsqrt. cbn [xsqrt]. rewrite (proj2 (Rltb_false s 0)) by lra. cbn [flx].
  assert (K : forall v, In (Fin v) x -> bpow radix2 (-500) <= Rabs v -> Rabs v <= rnd (sqrt s)).
  { intros v Hv Bv. destruct (F _ Hv) as (v' & Ev & [Fv _]). injection Ev as <-.
    apply rnd_sqrt_square; [now apply generic_format_abs|easy|].
    specialize (G v Hv). unfold fmul in G. cbn [xmul flx] in G.
    replace (Rabs v * Rabs v) with (v * v) by (unfold Rabs; destruct (Rcase_abs v); ring).
    unfold fl in G. destruct (Rltb _ _).
    - simpl in G. now apply Rleb_true in G.
    - destruct (Rltb 0 (v * v)) eqn:P; [discriminate|]. apply Rltb_false in P.
      pose proof (bpow_gt_0 radix2 (-500)). revert Bv. unfold Rabs. destruct (Rcase_abs v); nra. }
  assert (Kw := K w Hw Bw). pose proof (bpow_gt_0 radix2 (-500)) as P5.
  assert (FIN : Rabs (rnd (sqrt s)) < b64_max).
  { assert (Bs : s < b64_max). { destruct FS as [_ B]. rewrite Rabs_pos_eq in B; lra. }
    apply Rle_lt_trans with (bpow radix2 512); [|apply bpow_lt; lia].
    apply rnd_abs_le; [apply format_bpow; lia|]. rewrite Rabs_pos_eq by apply sqrt_pos.
    rewrite <- (sqrt_square (bpow radix2 512)) by apply bpow_ge_0. apply sqrt_le_1_alt.
    rewrite <- bpow_plus. change (512 + 512)%Z with 1024%Z. fold b64_max. lra. }
  rewrite (fl_small _ FIN). exists (rnd (sqrt s)). split; [reflexivity|]. split; [lra|].
  intros v Hv. destruct (Rle_dec (bpow radix2 (-500)) (Rabs v)) as [C|C]; [now apply K|lra].
Qed.

Lemma f_norm_inf_ge x : (forall a, In a x -> exists v, a = Fin v) ->
  exists n, f_norm_inf x = Fin n /\ (forall v, In (Fin v) x -> Rabs v <= n) /\
    (n = 0 \/ exists v, In (Fin v) x /\ Rabs v = n).
Proof.
  intros F. unfold f_norm_inf.
  assert (G : forall m0, 0 <= m0 -> exists n, fold_left xmax (map xabs x) (Fin m0) = Fin n /\ m0 <= n /\
    (forall v, In (Fin v) x -> Rabs v <= n) /\ (n = m0 \/ exists v, In (Fin v) x /\ Rabs v = n)).
  { induction x as [|a x IH]; intros m0 H0; simpl.
    - exists m0. split; [easy|]. split; [lra|]. split; [easy|now left].
    - destruct (F a (or_introl eq_refl)) as [v ->]. cbn [xabs].
      assert (F' : forall a, In a x -> exists v, a = Fin v) by (intros; apply F; now right).
      destruct (Rleb m0 (Rabs v)) eqn:E.
      + apply Rleb_true in E. destruct (IH F' (Rabs v)) as (n & E1 & E2 & E3 & E4); [lra|].
        exists n. split; [exact E1|]. split; [lra|]. split.
        * intros w [Hw|Hw]; [injection Hw as <-; lra|now apply E3].
        * right. destruct E4 as [->|(w & Hw & Ew)]; [exists v|exists w]; split; auto.
      + apply Rleb_false in E. destruct (IH F' m0 H0) as (n & E1 & E2 & E3 & E4).
        exists n. split; [exact E1|]. split; [lra|]. split.
        * intros w [Hw|Hw]; [injection Hw as <-; lra|now apply E3].
        * destruct E4 as [->|(w & Hw & Ew)]; [now left|right; exists w; split; auto]. }
  destruct (G 0 ltac:(lra)) as (n & E1 & _ & E3 & E4). exists n. easy.
Qed.

Lemma div_unit v n : 0 < n -> Rabs v <= n -> unit_entry (fdiv (Fin v) (Fin n)).
Proof.
  intros Hn Hv. unfold fdiv. cbn [xdiv]. rewrite (proj2 (Reqb_false n 0)) by lra. cbn [flx].
  assert (- n <= v <= n) as [A B] by (revert Hv; unfold Rabs; destruct (Rcase_abs v); lra).
  split.
  - apply fl_ge; [apply (small_int_b64 (-1)); lia|]. apply (Rmult_le_reg_r n); [easy|].
    unfold Rdiv. rewrite Rmult_assoc, Rinv_l by lra. lra.
  - apply fl_le; [apply (small_int_b64 1); lia|]. apply (Rmult_le_reg_r n); [easy|].
    unfold Rdiv. rewrite Rmult_assoc, Rinv_l by lra. lra.
Qed.

(** C158 - a projected row lies in the unit cube, if one of its entries is not tiny (and, in a
    cube, not zero); in any order of summation.  Missing: rows whose squares underflow. *)
Theorem C158_projection_in_unit_cube_partial :
  forall t sh x,
    (forall a, In a x -> exists v, a = Fin v /\ is_b64 a) ->
    (forall i, (i < length x)%nat -> In i (leaves t)) ->
    (exists w, In (Fin w) x /\ match sh with Sphere => bpow radix2 (-500) <= Rabs w | Cube => w <> 0 end) ->
    Forall unit_entry (f_project_row t sh x) /\ length (f_project_row t sh x) = length x.
Proof.
  intros t sh x F L (w & Hw & Bw). unfold f_project_row. split; [|now rewrite map_length].
  apply Forall_forall. intros a Ha. apply in_map_iff in Ha as (z & <- & Hz). destruct (F z Hz) as (v & -> & _).
  destruct sh.
  - destruct (f_norm_2_ge t x _ F L (ex_intro _ w (conj Hw Bw)) eq_refl) as [->|(n & -> & Pn & G)].
    + unfold fdiv. cbn [xdiv flx]. rewrite (fl_fin 0 zero_b64). split; simpl; apply Rleb_true; lra.
    + apply div_unit; [easy|now apply G].
  - destruct (f_norm_inf_ge x) as (n & -> & G & _); [intros a Ha; destruct (F a Ha) as (u & -> & _); now exists u|].
    apply div_unit; [|now apply G]. apply Rlt_le_trans with (Rabs w); [now apply Rabs_pos_lt|now apply G].
Qed.

(** C158 - in a cube the projected row lies exactly on the hull: some entry is 1 or -1. *)
Theorem C158_cube_on_hull :
  forall t x,
    (forall a, In a x -> exists v, a = Fin v /\ is_b64 a) ->
    (exists w, In (Fin w) x /\ w <> 0) ->
    In (Fin 1) (f_project_row t Cube x) \/ In (Fin (-1)) (f_project_row t Cube x).
Proof.
  intros t x F (w & Hw & Nw). unfold f_project_row.
  destruct (f_norm_inf_ge x) as (n & -> & G & [->|(v & Hv & Ev)]); [intros a Ha; destruct (F a Ha) as (u & -> & _); now exists u| |].
  - specialize (G w Hw). pose proof (Rabs_pos_lt w Nw). lra.
  - assert (Pn : 0 < n). { apply Rlt_le_trans with (Rabs w); [now apply Rabs_pos_lt|now apply G]. }
    destruct (Rcase_abs v) as [C|C].
    + right. apply in_map_iff. exists (Fin v). split; [|easy]. rewrite (Rabs_left v C) in Ev.
      unfold fdiv. cbn [xdiv]. rewrite (proj2 (Reqb_false n 0)) by lra. cbn [flx].
      replace (v / n) with (-1) by (rewrite <- Ev; field; lra). apply fl_fin, (small_int_b64 (-1)). lia.
    + left. apply in_map_iff. exists (Fin v). split; [|easy]. rewrite (Rabs_pos_eq v) in Ev by lra.
      unfold fdiv. cbn [xdiv]. rewrite (proj2 (Reqb_false n 0)) by lra. cbn [flx].
      replace (v / n) with 1 by (rewrite <- Ev; field; lra). apply fl_fin, (small_int_b64 1). lia.
Qed.

(** C158 - hence the points of the hull samplers are within the bounds in binary64 arithmetic. *)
Theorem C158_hull_points_in_bounds_partial :
  forall cube_radius center r b reg t raw,
    is_b64 (Fin r) -> 0 <= r ->
    (exists rc, cube_radius (Fin r) (length center) = Fin rc /\ is_b64 (Fin rc) /\ 0 <= rc <= bpow radix2 1020) ->
    Forall (finite_b64 (bpow radix2 1020)) center ->
    within center b -> b64_bounds b ->
    f_make_region cube_radius center (Fin r) b = Ok reg ->
    length raw = length center ->
    (forall a, In a raw -> exists v, a = Fin v /\ is_b64 a) ->
    (forall i, (i < length raw)%nat -> In i (leaves t)) ->
    (exists w, In (Fin w) raw /\ match fr_shape reg with Sphere => bpow radix2 (-500) <= Rabs w | Cube => w <> 0 end) ->
    within (f_hull_row t reg raw) b.
Proof.
  intros cube_radius center r b reg t raw Fr Hr Erc FC W Fb H L F T Hw.
  destruct (C158_projection_in_unit_cube_partial t (fr_shape reg) raw F T Hw) as [U L'].
  exact (proj1 (C155_mapped_points_in_bounds _ _ _ _ _ _ Fr Hr Erc FC W Fb H (eq_trans L' L) U)).
Qed.

(** C158 - the squares of the row (2^-600) underflow: its norm is zero and the projection infinite. *)
Theorem C158_projection_in_unit_cube_refuted :
  exists t x, (forall a, In a x -> exists v, a = Fin v /\ is_b64 a /\ v <> 0) /\
    (forall i, (i < length x)%nat -> In i (leaves t)) /\
    f_project_row t Sphere x = [PInf].
Proof.
  exists (SLeaf 0), [Fin (bpow radix2 (-600))]. pose proof (bpow_gt_0 radix2 (-600)) as P. split; [|split].
  - intros a [<-|[]]. exists (bpow radix2 (-600)). split; [easy|]. split; [apply big_is_b64; lia|lra].
  - intros i Hi. simpl in *. lia.
  - assert (E : fl (bpow radix2 (-600) * bpow radix2 (-600)) = Fin 0).
    { rewrite <- bpow_plus. change (-600 + -600)%Z with (-1200)%Z.
      assert (Z : rnd (bpow radix2 (-1200)) = 0).
      { unfold rnd. apply round_N_small_pos with (ex := (-1199)%Z).
        - split; [apply bpow_le; lia|apply bpow_lt; lia].
        - unfold b64_exp, FLT_exp. lia. }
      unfold fl. rewrite Z, Rabs_R0, (proj2 (Rltb_true _ _) b64_max_pos). reflexivity. }
    unfold f_project_row, f_norm_2. cbn [f_sum map nth]. unfold fmul. cbn [xmul flx]. rewrite E.
    unfold fsqrt. cbn [xsqrt]. rewrite (proj2 (Rltb_false 0 0)) by lra. cbn [flx]. rewrite sqrt_0, (fl_fin 0 zero_b64).
    unfold fdiv. cbn [xdiv]. rewrite (proj2 (Reqb_true 0 0) eq_refl), (proj2 (Reqb_false (bpow radix2 (-600)) 0)) by lra.
    rewrite (proj2 (Rltb_true _ _) P). reflexivity.
Qed.

(** * C159 *)

Definition b64_options (o : radius_options) : Prop :=
  is_b64 (Fin (min_radius o)) /\ is_b64 (Fin (max_radius o)).

(** C159 - the updated radius lies within its limits in binary64 arithmetic, for every rho and step
    length. *)
Theorem C159_radius_in_limits :
  forall r rho step_length o inc,
    min_radius o <= max_radius o -> isfinite (max_radius_to_step_ratio o) = false ->
    xle (Fin (min_radius o)) (f_adjust_radius (Fin r) rho step_length o inc) = true /\
    xle (f_adjust_radius (Fin r) rho step_length o inc) (Fin (max_radius o)) = true.
Proof.
  intros r rho st o inc H1 H2. unfold f_adjust_radius.
  assert (N : forall a, fmul (Fin r) (Fin a) <> NaN) by (intros a; unfold fmul; cbn [xmul flx]; apply fl_not_nan).
  destruct (max_radius_to_step_ratio o); try discriminate; apply xclip_between; try easy;
    (destruct (_ && _); [apply N|destruct (_ || _); [discriminate|apply N]]).
Qed.

(** C159 - without a good rho a radius within the limits does not grow; after a rejected step (rho
    below rho_decrease) it is the rounded product with the shrinking factor, down to the minimum. *)
Theorem C159_no_growth :
  forall r rho step_length o inc,
    is_b64 (Fin r) -> 0 <= r -> min_radius o <= r <= max_radius o ->
    isfinite (max_radius_to_step_ratio o) = false -> 0 <= shrinking_factor o <= 1 ->
    xge rho (Fin (rho_increase o)) = false ->
    xle (f_adjust_radius (Fin r) rho step_length o inc) (Fin r) = true.
Proof.
  intros r rho st o inc F H0 Hr Hf Hs Hrho. unfold f_adjust_radius. rewrite Hrho. cbn [andb].
  assert (K : forall y, y <= r -> xle (xclip (Fin y) (Fin (min_radius o)) (Fin (max_radius o))) (Fin r) = true).
  { intros y Hy. unfold xclip, xmax, xmin. cbn [xle]. destruct (Rleb y (min_radius o)); cbn [xle];
      destruct (Rleb (max_radius o) _) eqn:E; cbn [xle]; apply Rleb_true; try apply Rleb_true in E; lra. }
  assert (K' : xle (xclip (if xge rho (Fin (rho_decrease o)) || inc then Fin r else fmul (Fin r) (Fin (shrinking_factor o)))
      (Fin (min_radius o)) (Fin (max_radius o))) (Fin r) = true).
  { destruct (_ || _); [apply K; lra|]. unfold fmul. cbn [xmul flx].
    destruct (fl_small_le (r * shrinking_factor o) r F) as [-> B]; [rewrite Rabs_pos_eq; nra|].
    apply K. revert B. unfold Rabs. destruct (Rcase_abs _); lra. }
  destruct (max_radius_to_step_ratio o); try discriminate; exact K'.
Qed.

(** The radius after [k] rejected steps *)
Fixpoint rejections (k : nat) (o : radius_options) (rho : xr) (r : xr) : xr :=
  match k with O => r | S k => rejections k o rho (f_adjust_radius r rho (Fin 0) o false) end.

(** C159 - with shrinking factor 1/2, [k] rejected steps bring every radius of at most 2^k minimal
    radii to the minimal radius exactly. *)
Theorem C159_reaches_minimum :
  forall k o rho r,
    b64_options o -> 0 < min_radius o -> shrinking_factor o = / 2 ->
    isfinite (max_radius_to_step_ratio o) = false ->
    xge rho (Fin (rho_increase o)) = false -> xge rho (Fin (rho_decrease o)) = false ->
    is_b64 (Fin r) -> min_radius o <= r <= max_radius o -> r <= 2 ^ k * min_radius o ->
    rejections k o rho (Fin r) = Fin (min_radius o).
Proof.
  intros k o rho r [Fm FM] Pm Hs Hf Hi Hd. revert r. induction k as [|k IH]; intros r Fr Hr Hk; cbn [rejections].
  - simpl in Hk. f_equal. lra.
  - assert (E : exists r', f_adjust_radius (Fin r) rho (Fin 0) o false = Fin r' /\ is_b64 (Fin r') /\
      min_radius o <= r' <= max_radius o /\ r' <= 2 ^ k * min_radius o).
    { unfold f_adjust_radius. rewrite Hi, Hd, Hs. cbn [andb orb]. unfold fmul. cbn [xmul flx].
      assert (Fk : r * / 2 <= 2 ^ k * min_radius o) by (simpl in Hk; lra).
      assert (M1 : 1 <= 2 ^ k) by (apply pow_R1_Rle; lra).
      assert (F2 : generic_format radix2 b64_exp (2 ^ k * min_radius o)).
      { clear -Fm. induction k as [|k IH]; [simpl; rewrite Rmult_1_l; apply Fm|].
        simpl. rewrite Rmult_assoc. now apply format_double. }
      assert (RL : rnd (r * / 2) <= 2 ^ k * min_radius o) by now apply rnd_le_format.
      destruct (fl_small_le (r * / 2) r Fr) as [EF B]; [rewrite Rabs_pos_eq; lra|].
      pose proof (fl_b64 (r * / 2)) as FF. rewrite EF in FF |- *.
      set (y := rnd (r * / 2)) in *.
      assert (Q : exists r', xclip (Fin y) (Fin (min_radius o)) (Fin (max_radius o)) = Fin r' /\ is_b64 (Fin r') /\
        min_radius o <= r' <= max_radius o /\ r' <= 2 ^ k * min_radius o).
      { assert (M2 : min_radius o <= 2 ^ k * min_radius o) by nra.
        assert (Yr : y <= r) by (revert B; unfold Rabs; destruct (Rcase_abs y); lra).
        unfold xclip, xmax, xmin. cbn [xle]. destruct (Rleb y (min_radius o)) eqn:E1; cbn [xle];
          destruct (Rleb (max_radius o) _) eqn:E2; eexists; (split; [reflexivity|]);
          try apply Rleb_true in E1; try apply Rleb_false in E1; try apply Rleb_true in E2; try apply Rleb_false in E2;
          (split; [assumption|lra]). }
      destruct (max_radius_to_step_ratio o); try discriminate; exact Q. }
    destruct E as (r' & -> & R0 & R1 & R2). now apply IH.
Qed.

(** * C160 *)

Lemma rnd_rel_lower x : 1 <= x -> x * (1 - bpow radix2 (-53)) <= rnd x.
Proof.
  intros H.
  destruct (Relative.relative_error_N_FLT_ex radix2 (-1074) 53 prec53 (fun z => negb (Z.even z)) x) as (e & He & E).
  - rewrite Rabs_pos_eq by lra. apply Rle_trans with (bpow radix2 0); [apply bpow_le; lia|]. simpl. lra.
  - change (round radix2 (FLT_exp (-1074) 53) (Znearest (fun z => negb (Z.even z))) x) with (rnd x) in E. rewrite E.
    apply Rmult_le_compat_l; [lra|].
    change (-53 + 1)%Z with (-52)%Z in He.
    assert (B : Rabs e <= bpow radix2 (-53)).
    { change (bpow radix2 (-53)) with (bpow radix2 (-1 + -52)). rewrite bpow_plus. change (bpow radix2 (-1)) with (/ 2). exact He. }
    revert B. unfold Rabs. destruct (Rcase_abs e); lra.
Qed.

(** C160 - the sample size is the smallest multiple of the batch size that is at least as large as
    the desired one, also when the quotient is rounded, for all sizes up to 2^53. *)
Theorem C160_next_multiple :
  forall n base, (0 <= n)%Z -> (1 <= base)%Z -> (n + base <= 2 ^ 53)%Z ->
    exists k, f_next_multiple n base = Fin (IZR (k * base)) /\ ((k - 1) * base < n <= k * base)%Z.
Proof.
  intros n b Hn Hb Hs.
  set (k := (- (- n / b))%Z).
  assert (K : ((k - 1) * b < n <= k * b)%Z).
  { unfold k. pose proof (Z.div_mod (- n) b ltac:(lia)). pose proof (Z.mod_pos_bound (- n) b ltac:(lia)). nia. }
  exists k. split; [|easy].
  assert (B1 : 1 <= IZR b) by (apply IZR_le; lia).
  assert (Q0 : IZR n / IZR b * IZR b = IZR n) by (field; lra).
  set (q := IZR n / IZR b) in *.
  assert (E : Zceil (rnd q) = k).
  { assert (Kp : (0 <= k)%Z) by nia.
    apply Zceil_imp. split.
    - destruct (Z.le_gt_cases k 1) as [C|C].
      + destruct (Z.eq_dec k 1) as [C1|C1].
        * rewrite C1. change (1 - 1)%Z with 0%Z. apply Rlt_le_trans with (bpow radix2 (-53)); [apply bpow_gt_0|].
          apply rnd_ge_format; [apply format_bpow; lia|].
          assert (N1 : 1 <= IZR n) by (apply IZR_le; lia).
          assert (B2 : IZR b <= bpow radix2 53). { change (bpow radix2 53) with (IZR (2 ^ 53)). apply IZR_le. lia. }
          apply (Rmult_le_reg_r (IZR b)); [lra|]. rewrite Q0. apply Rle_trans with (bpow radix2 (-53) * bpow radix2 53).
          { apply Rmult_le_compat_l; [apply bpow_ge_0|easy]. }
          rewrite <- bpow_plus. simpl. lra.
        * replace k with 0%Z in * by lia. assert (n = 0%Z) by lia. unfold q. replace (IZR n / IZR b) with 0; [|subst n; field; lra].
          rewrite rnd_0. apply IZR_lt. lia.
      + assert (J1 : 1 <= IZR (k - 1)) by (apply IZR_le; lia).
        assert (J2 : IZR (k - 1) * IZR b + 1 <= IZR n). { rewrite <- mult_IZR, <- plus_IZR. apply IZR_le. lia. }
        assert (J3 : IZR n * bpow radix2 (-53) < 1).
        { apply Rlt_le_trans with (bpow radix2 53 * bpow radix2 (-53)); [|rewrite <- bpow_plus; simpl; lra].
          apply Rmult_lt_compat_r; [apply bpow_gt_0|]. change (bpow radix2 53) with (IZR (2 ^ 53)). apply IZR_lt. lia. }
        assert (Q1 : 1 <= q). { apply (Rmult_le_reg_r (IZR b)); [lra|]. rewrite Q0. nra. }
        apply Rlt_le_trans with (q * (1 - bpow radix2 (-53))); [|now apply rnd_rel_lower].
        apply (Rmult_lt_reg_r (IZR b)); [lra|].
        replace (q * (1 - bpow radix2 (-53)) * IZR b) with (q * IZR b - q * IZR b * bpow radix2 (-53)) by ring.
        rewrite Q0. lra.
    - apply rnd_le_format; [apply format_IZR; nia|]. apply (Rmult_le_reg_r (IZR b)); [lra|]. rewrite Q0, <- mult_IZR.
      apply IZR_le. lia. }
  unfold f_next_multiple. fold q. rewrite E. unfold fmul. cbn [xmul flx]. rewrite <- mult_IZR. apply fl_fin, small_int_b64. nia.
Qed.

(** * Instances *)

Lemma dyadic_b64 k e x : (Z.abs k < 2 ^ 53)%Z -> (-1074 <= e <= 0)%Z -> x = IZR k * bpow radix2 e -> is_b64 (Fin x).
Proof.
  intros Hk He ->. split.
  - apply generic_format_FLT. exists (Float radix2 k e); [reflexivity|exact Hk|easy].
  - rewrite Rabs_mult, (Rabs_pos_eq (bpow radix2 e)) by apply bpow_ge_0. unfold b64_max.
    apply Rle_lt_trans with (bpow radix2 53); [|apply bpow_lt; lia].
    rewrite <- (Rmult_1_r (bpow radix2 53)). apply Rmult_le_compat; [apply Rabs_pos|apply bpow_ge_0| |].
    + rewrite <- abs_IZR. change (bpow radix2 53) with (IZR (2 ^ 53)). apply IZR_le. lia.
    + change 1 with (bpow radix2 0). apply bpow_le. lia.
Qed.
Ltac dyad k e := apply (dyadic_b64 k e); [reflexivity|lia|simpl; lra].

(** One dimension, the center 1/4 with radius 1, bounds -4 and 1/2: the upper bound binds. *)
Definition ex_bounds : option fbounds := Some (mkFBounds (Some [Fin (-4)]) (Some [Fin (/ 2)])).
Definition ex_region : fregion :=
  mkFRegion [Fin (/ 4)] (Fin 1) ex_bounds Cube [Fin (- (3 / 4))] [Fin (/ 2)].
Lemma ex_region_made : f_make_region (fun r _ => r) [Fin (/ 4)] (Fin 1) ex_bounds = Ok ex_region.
Proof.
  unfold f_make_region, f_any_bounds_binding, ex_bounds.
  cbn [f_has_any f_side_any_finite fb_lower fb_upper existsb isfinite orb map2 np_min bind fold_left].
  unfold fsub at 1 2. cbn [xsub xopp xadd flx].
  replace (/ 4 + - -4) with (17 / 4) by lra. rewrite (fl_fin (17 / 4)) by (dyad 17%Z (-2)%Z).
  replace (/ 2 + - / 4) with (/ 4) by lra. rewrite (fl_fin (/ 4)) by (dyad 1%Z (-2)%Z).
  cbn [xle]. rewrite (proj2 (Rleb_false (17 / 4) 1)), (proj2 (Rleb_true (/ 4) 1)) by lra.
  cbn [bind]. unfold f_create_cube_bounds. cbn [map map2]. unfold fsub, fadd. cbn [xsub xopp xadd flx].
  replace (/ 4 + - (1)) with (- (3 / 4)) by lra. rewrite (fl_fin (- (3 / 4))) by (dyad (-3)%Z (-2)%Z).
  replace (/ 4 + 1) with (5 / 4) by lra. rewrite (fl_fin (5 / 4)) by (dyad 5%Z (-2)%Z).
  unfold xclip, xmax, xmin. cbn [xle]. rewrite (proj2 (Rleb_false (- (3 / 4)) (-4))), (proj2 (Rleb_true (/ 2) (5 / 4))) by lra.
  reflexivity.
Qed.
Lemma ex_hyps : is_b64 (Fin 1) /\ 0 <= 1 /\
  (exists rc, (fun (r : xr) (_ : nat) => r) (Fin 1) (length [Fin (/ 4)]) = Fin rc /\ is_b64 (Fin rc) /\ 0 <= rc <= bpow radix2 1020) /\
  Forall (finite_b64 (bpow radix2 1020)) [Fin (/ 4)] /\ within [Fin (/ 4)] ex_bounds /\ b64_bounds ex_bounds.
Proof.
  assert (F1 : is_b64 (Fin 1)) by (apply (small_int_b64 1); lia).
  assert (B : 1 <= bpow radix2 1020) by (change 1 with (bpow radix2 0); apply bpow_le; lia).
  split; [easy|]. split; [lra|]. split; [exists 1; split; [reflexivity|]; split; [easy|lra]|]. split; [|split].
  - constructor; [|constructor]. exists (/ 4). split; [easy|]. split; [dyad 1%Z (-2)%Z|]. rewrite Rabs_pos_eq; lra.
  - split; intros l E; injection E as <-; constructor; try constructor; simpl; apply Rleb_true; lra.
  - split; intros l E; injection E as <-; (constructor; [|constructor]).
    + apply (small_int_b64 (-4)). lia.
    + dyad 1%Z (-1)%Z.
Qed.

(** C154: 2^-55 is lost beside 1, and 2^1023 + 2^1023 overflows. *)
Example C154_instance :
  fadd (Fin (bpow radix2 (-55))) (Fin 1) = Fin 1 /\ fadd (Fin (bpow radix2 1023)) (Fin (bpow radix2 1023)) = PInf.
Proof.
  assert (F1 : is_b64 (Fin 1)) by (apply (small_int_b64 1); lia).
  split; unfold fadd; cbn [xadd flx].
  - unfold fl. rewrite (absorbed 1 (bpow radix2 (-55))).
    + destruct F1 as [_ Q]. now rewrite (proj2 (Rltb_true _ _) Q).
    + apply F1.
    + rewrite Rabs_R1. change 1 with (bpow radix2 0). apply bpow_le. lia.
    + rewrite Rabs_R1, Rmult_1_l, Rabs_pos_eq by apply bpow_ge_0. apply bpow_lt. lia.
  - replace (bpow radix2 1023 + bpow radix2 1023) with (bpow radix2 1024).
    2: { change (bpow radix2 1024) with (bpow radix2 (1023 + 1)). rewrite bpow_plus. change (bpow radix2 1) with 2. lra. }
    unfold fl. rewrite rnd_bpow by lia. rewrite Rabs_pos_eq by apply bpow_ge_0. unfold b64_max.
    rewrite (proj2 (Rltb_false _ _)) by lra. now rewrite (proj2 (Rltb_true _ _) (bpow_gt_0 radix2 1024)).
Qed.

(** C155: the corner 1 of the unit cube is mapped into the bounds, to 1/2. *)
Example C155_instance :
  within (f_map_from_unit ex_region [Fin 1]) ex_bounds /\ f_map_from_unit ex_region [Fin 1] = [Fin (/ 2)].
Proof.
  destruct ex_hyps as (H1 & H2 & H3 & H4 & H5 & H6). split.
  - apply (C155_mapped_points_in_bounds (fun r _ => r) [Fin (/ 4)] 1 ex_bounds ex_region [Fin 1] H1 H2 H3 H4 H5 H6 ex_region_made eq_refl).
    constructor; [|constructor]. split; simpl; apply Rleb_true; lra.
  - unfold f_map_from_unit. cbn [ex_region fr_shape fr_cube_lower fr_cube_upper combine map2].
    unfold fsub, fadd, fmul, fdiv. cbn [xsub xopp xadd flx].
    replace (/ 2 + - - (3 / 4)) with (5 / 4) by lra. rewrite (fl_fin (5 / 4)) by (dyad 5%Z (-2)%Z).
    replace (1 + 1) with 2 by lra. rewrite (fl_fin 2) by (apply (small_int_b64 2); lia).
    cbn [xmul flx]. replace (5 / 4 * 2) with (5 / 2) by lra. rewrite (fl_fin (5 / 2)) by (dyad 5%Z (-1)%Z).
    cbn [xdiv]. rewrite (proj2 (Reqb_false 2 0)) by lra. cbn [flx].
    replace (5 / 2 / 2) with (5 / 4) by lra. rewrite (fl_fin (5 / 4)) by (dyad 5%Z (-2)%Z).
    cbn [xadd flx]. replace (5 / 4 + - (3 / 4)) with (/ 2) by lra. rewrite (fl_fin (/ 2)) by (dyad 1%Z (-1)%Z).
    unfold xclip, xmax, xmin. cbn [xle]. rewrite (proj2 (Rleb_false (/ 2) (- (3 / 4)))) by lra.
    rewrite (proj2 (Rleb_true (/ 2) (/ 2))) by lra. reflexivity.
Qed.
Example C155_candidate_instance :
  within (fst (f_template ex_region (fun x => match x with [Fin a] => fsub (Fin 0) (Fin a) | _ => NaN end) [Fin 7])) ex_bounds.
Proof.
  destruct ex_hyps as (H1 & H2 & H3 & H4 & H5 & H6).
  apply (C155_candidate_in_bounds (fun r _ => r) [Fin (/ 4)] 1 ex_bounds ex_region _ [Fin 7] H1 H2 H3 H4 H5 H6 ex_region_made eq_refl).
  - intros [|[| | |] [|]]; simpl; try easy. intros [K|[]]. discriminate.
  - now left.
Qed.

(** C156: the center of the region above in unit coordinates lies in the unit cube. *)
Example C156_instance : Forall unit_entry (f_map_to_unit ex_region [Fin (/ 4)]).
Proof.
  destruct ex_hyps as (H1 & H2 & H3 & H4 & H5 & H6).
  apply (C156_center_in_unit_cube_partial (fun r _ => r) [Fin (/ 4)] 1 ex_bounds ex_region H3 H4 H5 H6 ex_region_made eq_refl).
  constructor; [|constructor]. simpl. apply Rltb_true. lra.
Qed.

(** C157: around 1, a radius of 2^-52 is large enough and a radius of 2^-60 too small. *)
Example C157_instance :
  xlt (Fin 1) (fadd (fmul (Fin 1) (Fin (bpow radix2 (-52)))) (Fin 1)) = true /\
  f_map_from_unit (mkFRegion [Fin 1; Fin (-3)] (Fin (bpow radix2 (-60))) None Sphere [] []) [Fin 1; Fin (/ 2)]
  = [Fin 1; Fin (-3)].
Proof.
  assert (F1 : is_b64 (Fin 1)) by (apply (small_int_b64 1); lia).
  assert (F3 : is_b64 (Fin (-3))) by (apply (small_int_b64 (-3)); lia).
  assert (P1 : bpow radix2 (-1021) <= 1) by (change 1 with (bpow radix2 0); apply bpow_le; lia).
  assert (B : bpow radix2 (-60) < bpow radix2 (-54)) by (apply bpow_lt; lia).
  assert (A3 : Rabs (-3) = 3) by (rewrite Rabs_left; lra).
  split.
  - apply C157_sample_moves_partial; [easy|apply big_is_b64; lia| |rewrite Rabs_R1; lra].
    rewrite Rabs_R1. change 1 with (bpow radix2 0). apply bpow_le. lia.
  - apply (C157_collapse (mkFRegion [Fin 1; Fin (-3)] (Fin (bpow radix2 (-60))) None Sphere [] []) (bpow radix2 (-60)));
      try reflexivity.
    + apply big_is_b64. lia.
    + apply bpow_ge_0.
    + pose proof (bpow_gt_0 radix2 (-54)). constructor; [|constructor; [|constructor]]; eexists; (split; [reflexivity|]); (split; [easy|]);
        rewrite ?Rabs_R1, ?A3; lra.
    + constructor; [|constructor; [|constructor]]; split; simpl; apply Rleb_true; lra.
Qed.

(** C158: the row (3, 4), whose norm is 5, and the row (0, -2) in a cube. *)
Example C158_instance :
  Forall unit_entry (f_project_row (SNode (SLeaf 0) (SLeaf 1)) Sphere [Fin 3; Fin 4]) /\
  (In (Fin 1) (f_project_row (SLeaf 0) Cube [Fin 0; Fin (-2)]) \/ In (Fin (-1)) (f_project_row (SLeaf 0) Cube [Fin 0; Fin (-2)])) /\
  within (f_hull_row (SLeaf 0) ex_region [Fin 3]) ex_bounds.
Proof.
  assert (F3 : is_b64 (Fin 3)) by (apply (small_int_b64 3); lia).
  assert (F4 : is_b64 (Fin 4)) by (apply (small_int_b64 4); lia).
  assert (F2 : is_b64 (Fin (-2))) by (apply (small_int_b64 (-2)); lia).
  destruct ex_hyps as (H1 & H2 & H3 & H4 & H5 & H6).
  split; [|split].
  - apply C158_projection_in_unit_cube_partial.
    + intros a [<-|[<-|[]]]; eexists; split; easy.
    + simpl. lia.
    + exists 3. split; [now left|]. rewrite Rabs_pos_eq by lra.
      apply Rle_trans with (bpow radix2 0); [apply bpow_le; lia|simpl; lra].
  - apply C158_cube_on_hull.
    + intros a [<-|[<-|[]]]; eexists; split; try reflexivity; [apply zero_b64|easy].
    + exists (-2). split; [now right; left|lra].
  - apply (C158_hull_points_in_bounds_partial (fun r _ => r) [Fin (/ 4)] 1 ex_bounds ex_region (SLeaf 0) [Fin 3] H1 H2 H3 H4 H5 H6 ex_region_made eq_refl).
    + intros a [<-|[]]. eexists. split; easy.
    + simpl. lia.
    + exists 3. split; [now left|]. cbn. lra.
Qed.

(** C159: the default options as floats; 40 rejected steps bring the largest radius to the smallest. *)
Definition f_default_options : radius_options :=
  mkRadiusOptions micro 1000000 (rnd (/ 10)) (rnd (/ 10)) (/ 2) 2 (/ 2) PInf.
Example C159_instance :
  rejections 40 f_default_options (Fin 0) (Fin 1000000) = Fin micro /\
  xle (f_adjust_radius (Fin 1) NaN (Fin 1) f_default_options false) (Fin 1) = true /\
  xle (f_adjust_radius (Fin 1000000) (Fin 1) (Fin 1000000) f_default_options false) (Fin 1000000) = true.
Proof.
  destruct micro_b64 as (Fm & Pm & Bm & Lm). rewrite Rabs_pos_eq in Bm by lra.
  assert (U : bpow radix2 (-19) <= 1) by (change 1 with (bpow radix2 0); apply bpow_le; lia).
  assert (FM : is_b64 (Fin 1000000)) by (apply (small_int_b64 1000000); lia).
  assert (Q : 0 < rnd (/ 10)).
  { apply Rlt_le_trans with (bpow radix2 (-4)); [apply bpow_gt_0|]. apply rnd_ge_format; [apply format_bpow; lia|]. simpl. lra. }
  split; [|split].
  - change (Fin micro) with (Fin (min_radius f_default_options)). apply C159_reaches_minimum; try assumption; try (cbn; reflexivity).
    + split; easy.
    + unfold xge. cbn. apply Rleb_false. exact Q.
    + unfold xge. cbn. apply Rleb_false. exact Q.
    + cbn. lra.
    + cbn [min_radius f_default_options]. change (bpow radix2 (-20)) with (/ 1048576) in Lm.
      assert (1048576 * 1048576 <= 2 ^ 40) by (simpl; lra). nra.
  - apply C159_no_growth; try easy; try (cbn; lra). apply (small_int_b64 1). lia.
  - apply (proj2 (C159_radius_in_limits 1000000 (Fin 1) (Fin 1000000) f_default_options false ltac:(cbn; lra) eq_refl)).
Qed.

(** C160: for 10 evaluations in batches of 3 the quotient is rounded; the result is 12. *)
Example C160_instance : f_next_multiple 10 3 = Fin 12.
Proof.
  destruct (C160_next_multiple 10 3) as (k & -> & H); [lia..|]. replace k with 4%Z by lia. reflexivity.
Qed.
