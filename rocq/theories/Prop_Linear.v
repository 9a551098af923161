(** Properties C72 and C116: the linear trust-region solvers. *)
From Coq Require Import Reals List Arith Bool Lia Lra Psatz.
From Verif Require Import Base XR FVec LinearModel.
Import ListNotations.
Open Scope R_scope.

(** [x] respects the bounds. *)
Definition within (n : nat) (lo up : fbounds) (x : nat -> R) : Prop :=
  forall i, (i < n)%nat ->
    (forall l, lo i = Some l -> l <= x i) /\ (forall u, up i = Some u -> x i <= u).

(** * Steps to the boundary of the ball *)

Lemma fupd_eq v i a : fupd v i a i = a.
Proof. unfold fupd. now rewrite Nat.eqb_refl. Qed.
Lemma fupd_neq v i a k : k <> i -> fupd v i a k = v k.
Proof. unfold fupd. intros H. apply Nat.eqb_neq in H. now rewrite H. Qed.

Lemma fsq_line n x d s :
  fsq n (fadd x (fscale s d)) = fsq n x + 2 * s * fdot n d x + s * s * fsq n d.
Proof.
  unfold fsq. rewrite !fdot_add_l, !fdot_add_r, !fdot_scale_l, !fdot_scale_r.
  rewrite (fdot_comm n x d). ring.
Qed.

Lemma boundary_distance n x d r zt : 0 < zt -> 0 <= r -> fsq n x <= r * r -> zt <= fnorm n d ->
  let s := distance_to_boundary n x d r zt in
  (0 <= fdot n d x -> 0 <= s) /\ fsq n (fadd x (fscale s d)) = r * r.
Proof.
  intros Hz Hr Hx Hd s.
  assert (GP : 0 < fsq n d).
  { rewrite <- fnorm_sqr. nra. }
  unfold distance_to_boundary in s. cbv zeta in s. fold (fnorm n d) in s.
  destruct (Rltb (fnorm n d) zt) eqn:E; [apply Rltb_true in E; lra|]. clear E.
  set (gx := fdot n d x) in *. set (gg := fsq n d) in *. set (xx := fsq n x) in *.
  assert (D0 : 0 <= gx * gx + gg * (r * r - xx)) by nra.
  set (q := sqrt (gx * gx + gg * (r * r - xx))) in *.
  assert (ES : s = (q - gx) / gg) by (unfold s; now rewrite (Rmax_right 0 _ D0)). clearbody s.
  assert (Q : q * q = gx * gx + gg * (r * r - xx)) by (apply sqrt_sqrt; exact D0).
  assert (Q0 : 0 <= q) by apply sqrt_pos.
  assert (S1 : s * gg = q - gx) by (rewrite ES; field; lra).
  split.
  - intros G0. rewrite ES. apply Rmult_le_pos; [|left; now apply Rinv_0_lt_compat].
    assert (gx <= q) by nra. lra.
  - rewrite fsq_line. fold gx gg xx.
    assert (E : gg * (2 * s * gx + s * s * gg) = gg * (r * r - xx)) by nra.
    apply Rmult_eq_reg_l in E; lra.
Qed.

Lemma scan_spec xu lo up i it b j it' : scan_bounds xu lo up i it = (b, j, it') ->
  (b = None /\ forall k, In k (i :: it) -> at_upper (up k) (xu k) = false /\ at_lower (lo k) (xu k) = false) \/
  (exists pre a, i :: it = pre ++ j :: it' /\ b = Some a /\
     (up j = Some a /\ a <= xu j \/ lo j = Some a /\ xu j <= a)).
Proof.
  revert i. induction it as [|k it IH]; intros i; cbn [scan_bounds].
  all: destruct (at_upper (up i) (xu i)) eqn:E1.
  1,3: unfold at_upper in E1; destruct (up i) as [u|] eqn:Eu; [|discriminate];
       intros [= <- <- <-]; right; exists [], u; apply Rleb_true in E1; rewrite Eu; auto.
  all: destruct (at_lower (lo i) (xu i)) eqn:E2.
  1,3: unfold at_lower in E2; destruct (lo i) as [u|] eqn:Eu; [|discriminate];
       intros [= <- <- <-]; right; exists [], u; apply Rleb_true in E2; rewrite Eu; auto.
  - intros [= <- <- <-]. left. split; [easy|]. intros k [<-|[]]. auto.
  - intros H. destruct (IH _ H) as [[-> A]|(pre & a & E & B)].
    + left. split; [easy|]. intros k' [<-|Hk]; auto.
    + right. exists (i :: pre), a. split; [now rewrite E|exact B].
Qed.

(** * The invariant *)

Section Inv.
Variables (n : nat) (g : nat -> R) (lo up : fbounds) (r zt : R).
Hypotheses (Hz : 0 < zt) (Hr : 0 <= r).
(** The internal bounds: zero is strictly inside. *)
Hypotheses (Hlo : forall i l, lo i = Some l -> l <= - zt) (Hup : forall i u, up i = Some u -> zt <= u).
Let d0 := start_direction zt g.

Record linv (T : R) (x d : nat -> R) (it : list nat) : Prop := {
  li_T : 0 <= T;
  li_k : forall k, (k < n)%nat ->
    d k = d0 k /\ x k = T * d0 k \/ d k = 0 /\ d0 k <> 0 /\ 0 <= x k * d0 k;
  li_it : Forall (fun k => (k < n)%nat /\ d0 k <> 0 /\ d k = d0 k) it;
  li_nd : NoDup it;
  li_ball : fsq n x <= r * r
}.

Lemma linv_dot T x d it : linv T x d it -> fdot n d x = T * fsq n d.
Proof.
  intros H. unfold fsq, fdot. rewrite <- bsum_scal. apply bsum_ext. intros k Hk.
  destruct (li_k _ _ _ _ H k Hk) as [[-> ->]|[-> _]]; ring.
Qed.

Lemma linv_unconstr T x d it : linv T x d it -> zt <= fnorm n d ->
  let s := distance_to_boundary n x d r zt in
  0 <= s /\ fsq n (unconstrained_step n x d r zt) = r * r /\
  (forall k, (k < n)%nat -> d k = d0 k -> d0 k <> 0 -> unconstrained_step n x d r zt k = (T + s) * d0 k) /\
  (forall k, (k < n)%nat -> d k = 0 -> unconstrained_step n x d r zt k = x k).
Proof.
  intros H Hd s. destruct (boundary_distance n x d r zt Hz Hr (li_ball _ _ _ _ H) Hd) as [S1 S2].
  rewrite (linv_dot _ _ _ _ H) in S1. split; [|split; [exact S2|]].
  - apply S1. apply Rmult_le_pos; [apply (li_T _ _ _ _ H)|apply fsq_nonneg].
  - unfold unconstrained_step, fadd, fscale. fold s. split.
    + intros k Hk Ek Nk. destruct (li_k _ _ _ _ H k Hk) as [[_ ->]|[E0 _]]; [|congruence].
      rewrite Ek. ring.
    + intros k Hk ->. ring.
Qed.

Lemma linv_step T x d it pre i it' a : linv T x d it -> zt <= fnorm n d ->
  it = pre ++ i :: it' ->
  (up i = Some a /\ a <= unconstrained_step n x d r zt i \/
   lo i = Some a /\ unconstrained_step n x d r zt i <= a) ->
  exists T', 0 < T' /\ T' <= T + distance_to_boundary n x d r zt /\ a = T' * d0 i /\
    (0 < d0 i /\ up i = Some a \/ d0 i < 0 /\ lo i = Some a) /\
    linv T' (fst (constrained_step x d a i)) (snd (constrained_step x d a i)) it' /\
    (forall k, (k < n)%nat -> k <> i -> d k = 0 -> fst (constrained_step x d a i) k = x k) /\
    fst (constrained_step x d a i) i = a.
Proof.
  intros H Hd Ei Ha. destruct (linv_unconstr _ _ _ _ H Hd) as (S0 & S1 & S2 & S3).
  set (s := distance_to_boundary n x d r zt) in *.
  pose proof (li_it _ _ _ _ H) as FI. rewrite Forall_forall in FI.
  destruct (FI i) as (Hi & Ni & Di). { rewrite Ei. apply in_or_app. simpl; auto. }
  rewrite (S2 i Hi Di Ni) in Ha. pose proof (li_T _ _ _ _ H) as T0.
  assert (XI : x i = T * d0 i).
  { destruct (li_k _ _ _ _ H i Hi) as [[_ E]|[E _]]; [easy|congruence]. }
  assert (SG : 0 < d0 i /\ 0 < a /\ a <= (T + s) * d0 i /\ up i = Some a \/
               d0 i < 0 /\ a < 0 /\ (T + s) * d0 i <= a /\ lo i = Some a).
  { destruct Ha as [[Eu Ha]|[El Ha]].
    - left. pose proof (Hup _ _ Eu). assert (0 < d0 i); [|repeat split; auto; lra].
      destruct (Rlt_dec 0 (d0 i)); [easy|]. nra.
    - right. pose proof (Hlo _ _ El). assert (d0 i < 0); [|repeat split; auto; lra].
      destruct (Rlt_dec (d0 i) 0); [easy|]. nra. }
  set (T' := a / d0 i).
  assert (ET : a = T' * d0 i) by (unfold T'; field; exact Ni).
  assert (TP : 0 < T' /\ T' <= T + s).
  { rewrite ET in SG. destruct SG as [(A & B & C & _)|(A & B & C & _)]; split; nra. }
  exists T'. split; [easy|]. split; [easy|]. split; [exact ET|]. split; [tauto|].
  set (c := (a - x i) / d i).
  assert (EC : c = T' - T) by (unfold c; rewrite XI, Di, ET; field; exact Ni).
  assert (XN : forall k, fst (constrained_step x d a i) k = if Nat.eqb k i then a else x k + c * d k)
    by reflexivity.
  split; [|split].
  - split.
    + lra.
    + intros k Hk. rewrite XN. unfold constrained_step, snd, fupd.
      destruct (Nat.eqb k i) eqn:Ek.
      * apply Nat.eqb_eq in Ek. subst k. right. split; [easy|]. split; [easy|]. nra.
      * destruct (li_k _ _ _ _ H k Hk) as [[E1 E2]|(E1 & E2 & E3)].
        -- left. split; [easy|]. rewrite E1, E2, EC. ring.
        -- right. split; [easy|]. split; [easy|]. rewrite E1, Rmult_0_r, Rplus_0_r. easy.
    + apply Forall_forall. intros k Hk. pose proof (li_nd _ _ _ _ H) as ND. rewrite Ei in ND.
      apply NoDup_remove_2 in ND. destruct (FI k) as (K1 & K2 & K3).
      { rewrite Ei. apply in_or_app. simpl; auto. }
      split; [easy|]. split; [easy|]. unfold constrained_step, snd, fupd.
      destruct (Nat.eqb k i) eqn:Ek; [|easy]. apply Nat.eqb_eq in Ek. subst k.
      elim ND. apply in_or_app. auto.
    + pose proof (li_nd _ _ _ _ H) as ND. rewrite Ei in ND. clear -ND.
      induction pre as [|p pre IH]; simpl in ND; inversion ND; subst; auto.
    + replace (fsq n (fst (constrained_step x d a i))) with (fsq n (fadd x (fscale c d))).
      2:{ apply fsq_ext. intros k Hk. rewrite XN. unfold fadd, fscale.
          destruct (Nat.eqb k i) eqn:Ek; [|easy]. apply Nat.eqb_eq in Ek. subst k.
          rewrite EC, Di, XI, ET. ring. }
      rewrite fsq_line, (linv_dot _ _ _ _ H).
      unfold unconstrained_step in S1. fold s in S1. rewrite fsq_line, (linv_dot _ _ _ _ H) in S1.
      rewrite <- S1. pose proof (fsq_nonneg n d) as G0.
      assert (P : (T' - T) * (T' - T) + 2 * (T' - T) * T <= s * s + 2 * s * T) by nra.
      rewrite EC. nra.
  - intros k Hk Nk Dk. rewrite XN. apply Nat.eqb_neq in Nk. rewrite Nk, Dk. ring.
  - rewrite XN. now rewrite Nat.eqb_refl.
Qed.

Lemma linear_loop_ball k : forall T x d it y, linv T x d it ->
  linear_loop n lo up r zt k x d it = Ok y ->
  fsq n y <= r * r /\ forall i, (i < n)%nat -> 0 <= y i * d0 i /\ (d0 i = 0 -> y i = 0).
Proof.
  assert (SIGN : forall T x d it, linv T x d it ->
    forall i, (i < n)%nat -> 0 <= x i * d0 i /\ (d0 i = 0 -> x i = 0)).
  { intros T x d it H i Hi. pose proof (li_T _ _ _ _ H).
    destruct (li_k _ _ _ _ H i Hi) as [[_ ->]|(_ & N & P)]; [|tauto].
    split; [nra|]. intros ->. ring. }
  induction k as [|k IH]; intros T x d it y H; cbn [linear_loop].
  - intros [= <-]. split; [apply H|]. eapply SIGN; eauto.
  - destruct (Rltb (fnorm n d) zt) eqn:E.
    { intros [= <-]. split; [apply H|]. eapply SIGN; eauto. }
    apply Rltb_false in E. assert (Hd : zt <= fnorm n d) by lra. clear E.
    destruct it as [|i0 it0]; [discriminate|]. cbn [find_next_active_bound bind].
    destruct (scan_bounds (unconstrained_step n x d r zt) lo up i0 it0) as [[b i] it'] eqn:ES.
    destruct (scan_spec _ _ _ _ _ _ _ _ ES) as [[-> _]|(pre & a & Ei & -> & Ha)].
    + intros [= <-]. destruct (linv_unconstr _ _ _ _ H Hd) as (S0 & S1 & S2 & S3).
      split; [lra|]. intros i1 Hi. pose proof (li_T _ _ _ _ H).
      destruct (li_k _ _ _ _ H i1 Hi) as [[E1 E2]|(E1 & E2 & E3)].
      * destruct (Req_dec (d0 i1) 0) as [E0|E0].
        -- unfold unconstrained_step, fadd, fscale. rewrite E1, E2, E0. split; [|intros _]; nra.
        -- rewrite (S2 i1 Hi E1 E0). split; [nra|]. intros E3. rewrite E3. ring.
      * rewrite (S3 i1 Hi E1). tauto.
    + destruct (linv_step _ _ _ _ _ _ _ _ H Hd Ei Ha) as (T' & _ & _ & _ & _ & H' & _).
      unfold constrained_step at 1. apply (IH T'). exact H'.
Qed.
End Inv.

Lemma internal_lower_le zt lo i l : internal_lower zt lo i = Some l -> l <= - zt.
Proof. unfold internal_lower. destruct (lo i); [|discriminate]. intros [= <-]. apply Rmin_r. Qed.
Lemma internal_upper_ge zt up i u : internal_upper zt up i = Some u -> zt <= u.
Proof. unfold internal_upper. destruct (up i); [|discriminate]. intros [= <-]. apply Rmax_r. Qed.

Lemma active_spec n zt g k : 0 < zt -> In k (active_directions n zt g) <->
  (k < n)%nat /\ start_direction zt g k <> 0.
Proof.
  intros Hz. unfold active_directions, start_direction. rewrite filter_In, in_seq.
  destruct (Rltb (Rabs (- g k)) zt) eqn:E; simpl.
  - split; [intros [_ ?]; discriminate|]. intros [_ H]. now elim H.
  - apply Rltb_false in E. split; [intros [H _]; split; [lia|]|intros [H _]; split; [lia|easy]].
    intros H0. rewrite H0, Rabs_R0 in E. lra.
Qed.

Lemma linv_start n g r zt : 0 < zt -> 0 <= r ->
  linv n g r zt 0 fzero (start_direction zt g) (active_directions n zt g).
Proof.
  intros Hz Hr. split.
  - lra.
  - intros k _. left. split; [easy|]. unfold fzero. ring.
  - apply Forall_forall. intros k Hk. apply active_spec in Hk; tauto.
  - apply NoDup_filter, seq_NoDup.
  - unfold fsq. rewrite fdot_zero_l. nra.
Qed.

(** * C72 - the linear solver *)

(** Whatever the solver returns lies in the trust region and does not increase the model in
    any coordinate.  Missing: the bounds, and that it returns (see below). *)
Theorem C72_ball_and_descent_partial :
  forall n g lo up r zt x, 0 < zt -> 0 <= r ->
    minimize_trsbox_linear n g lo up r zt = Ok x ->
    fnorm n x <= r /\ (forall i, (i < n)%nat -> g i * x i <= 0) /\ fdot n g x <= 0.
Proof.
  intros n g lo up r zt x Hz Hr H.
  destruct (linear_loop_ball n g _ _ r zt Hz Hr (internal_lower_le zt lo) (internal_upper_ge zt up) _ _ _ _ _ _
    (linv_start n g r zt Hz Hr) H) as [B S].
  assert (SI : forall i, (i < n)%nat -> g i * x i <= 0).
  { intros i Hi. destruct (S i Hi) as [S1 S2]. unfold start_direction in S1, S2.
    destruct (Rltb (Rabs (- g i)) zt); [rewrite S2 by easy; lra|lra]. }
  split; [now apply fnorm_le_iff|]. split; [exact SI|].
  unfold fdot. rewrite <- (bsum_zero n). now apply bsum_le.
Qed.

(** The point that steepest descent reaches at time [t] satisfies the bounds of coordinate [k]. *)
Definition ray_inside (g : nat -> R) (lo up : fbounds) (k : nat) (t : R) : Prop :=
  (forall l, lo k = Some l -> l <= - t * g k) /\ (forall u, up k = Some u -> - t * g k <= u).

Section Ordered.
Variables (n : nat) (g : nat -> R) (lo up : fbounds) (r zt : R).
Hypotheses (Hz : 0 < zt) (Hr : 0 < r).
Hypotheses (Hlo : forall i l, lo i = Some l -> l <= - zt) (Hup : forall i u, up i = Some u -> zt <= u).
Hypothesis Hg : forall i, (i < n)%nat -> g i = 0 \/ zt <= Rabs (g i).
Hypothesis ORD : forall i j t, (i < j < n)%nat -> g i <> 0 -> 0 <= t ->
  ray_inside g lo up i t -> ray_inside g lo up j t.

Lemma start_eq i : (i < n)%nat -> start_direction zt g i = - g i.
Proof.
  intros Hi. unfold start_direction. destruct (Rltb (Rabs (- g i)) zt) eqn:E; [|easy].
  apply Rltb_true in E. rewrite Rabs_Ropp in E. destruct (Hg i Hi) as [->|H]; lra.
Qed.

(** A coordinate that has been fixed. *)
Definition fixed_at (T : R) (x : nat -> R) (k : nat) : Prop :=
  exists p, 0 < p <= T /\ x k = - p * g k /\
    (g k < 0 /\ up k = Some (x k) \/ 0 < g k /\ lo k = Some (x k)).

Record oinv (T : R) (x d : nat -> R) (it : list nat) : Prop := {
  oi_inv : linv n g r zt T x d it;
  oi_fixed : forall k, (k < n)%nat -> g k <> 0 -> ~ In k it -> fixed_at T x k /\ d k = 0;
  oi_sorted : forall a l1 l2, it = l1 ++ a :: l2 -> forall b, In b l2 -> (a < b)%nat;
  oi_inside : forall k, In k it -> ray_inside g lo up k T
}.

Lemma inactive_later T i j : (i < j < n)%nat -> g i <> 0 -> g j <> 0 -> 0 <= T ->
  at_upper (up i) (- T * g i) = false -> at_lower (lo i) (- T * g i) = false ->
  at_upper (up j) (- T * g j) = false /\ at_lower (lo j) (- T * g j) = false.
Proof.
  intros Hij Ni Nj HT U L.
  assert (EX : exists e, 0 < e /\ ray_inside g lo up i (T + e)).
  { unfold ray_inside, at_upper, at_lower in *.
    destruct (up i) as [u|]; [apply Rleb_false in U|]; destruct (lo i) as [l|]; try apply Rleb_false in L.
    - assert (A : 0 < Rabs (g i)) by now apply Rabs_pos_lt.
      set (m := Rmin (u + T * g i) (- T * g i - l)).
      assert (M : 0 < m) by (apply Rmin_glb_lt; lra).
      exists (m / Rabs (g i)). split; [now apply Rdiv_lt_0_compat|].
      pose proof (Rmin_l (u + T * g i) (- T * g i - l)). pose proof (Rmin_r (u + T * g i) (- T * g i - l)).
      fold m in H, H0.
      assert (B : - m <= m / Rabs (g i) * g i <= m).
      { unfold Rabs in *. destruct (Rcase_abs (g i)).
        - replace (m / - g i * g i) with (- m) by (field; easy). lra.
        - replace (m / g i * g i) with m by (field; easy). lra. }
      split; intros ? [= <-]; lra.
    - assert (A : 0 < Rabs (g i)) by now apply Rabs_pos_lt.
      set (m := u + T * g i). assert (M : 0 < m) by (unfold m; lra).
      exists (m / Rabs (g i)). split; [now apply Rdiv_lt_0_compat|].
      assert (B : - m <= m / Rabs (g i) * g i <= m).
      { unfold Rabs in *. destruct (Rcase_abs (g i)).
        - replace (m / - g i * g i) with (- m) by (field; easy). lra.
        - replace (m / g i * g i) with m by (field; easy). lra. }
      split; intros ? [= <-]; unfold m in *; lra.
    - assert (A : 0 < Rabs (g i)) by now apply Rabs_pos_lt.
      set (m := - T * g i - l). assert (M : 0 < m) by (unfold m; lra).
      exists (m / Rabs (g i)). split; [now apply Rdiv_lt_0_compat|].
      assert (B : - m <= m / Rabs (g i) * g i <= m).
      { unfold Rabs in *. destruct (Rcase_abs (g i)).
        - replace (m / - g i * g i) with (- m) by (field; easy). lra.
        - replace (m / g i * g i) with m by (field; easy). lra. }
      split; intros ? [= <-]; unfold m in *; lra.
    - exists 1. split; [lra|]. split; discriminate. }
  destruct EX as (e & He & RI). destruct (ORD i j (T + e) Hij Ni ltac:(lra) RI) as [R1 R2].
  split.
  - unfold at_upper. destruct (up j) as [u|] eqn:Eu; [|easy]. apply Rleb_false.
    specialize (R2 _ eq_refl). pose proof (Hup _ _ Eu). destruct (Rle_dec 0 (g j)); nra.
  - unfold at_lower. destruct (lo j) as [l|] eqn:Eu; [|easy]. apply Rleb_false.
    specialize (R1 _ eq_refl). pose proof (Hlo _ _ Eu). destruct (Rle_dec 0 (g j)); nra.
Qed.

(** What the solver returns: the projection of a point of the steepest descent ray that lies
    on the boundary of the ball, or all coordinates at their bounds. *)
Definition solved (y : nat -> R) : Prop :=
  exists T, 0 < T /\ fsq n y <= r * r /\
    (forall k, (k < n)%nat -> g k <> 0 ->
       fixed_at T y k \/ fsq n y = r * r /\ y k = - T * g k /\ ray_inside g lo up k T) /\
    (forall k, (k < n)%nat -> g k = 0 -> y k = 0).

Lemma ordered_loop k : forall T x d it, oinv T x d it -> (length it <= k)%nat ->
  (0 < T \/ x = fzero) ->
  exists y, linear_loop n lo up r zt k x d it = Ok y /\ solved y.
Proof.
  assert (ZERO : forall T x d it, oinv T x d it -> forall j, (j < n)%nat -> g j = 0 -> x j = 0).
  { intros T x d it H j Hk E. destruct (li_k _ _ _ _ _ _ _ _ (oi_inv _ _ _ _ H) j Hk) as [[_ ->]|[_ [N _]]].
    - rewrite start_eq by easy. rewrite E. ring.
    - rewrite start_eq in N by easy. elim N. rewrite E. ring. }
  assert (DONE : forall T x d, oinv T x d [] -> 0 < T \/ x = fzero -> solved x).
  { intros T x d H HT. exists (if Rlt_dec 0 T then T else 1).
    split; [destruct (Rlt_dec 0 T); lra|]. split; [apply (li_ball _ _ _ _ _ _ _ _ (oi_inv _ _ _ _ H))|].
    split; [|now apply (ZERO _ _ _ _ H)].
    intros j Hj Nj. left. destruct (oi_fixed _ _ _ _ H j Hj Nj ltac:(easy)) as [(p & P & Q) _].
    exists p. split; [|easy]. destruct (Rlt_dec 0 T); lra. }
  induction k as [|k IH]; intros T x d it H L HT.
  - destruct it; [|simpl in L; lia]. exists x. split; [reflexivity|]. now apply (DONE T _ d).
  - cbn [linear_loop]. pose proof (oi_inv _ _ _ _ H) as HI.
    pose proof (li_it _ _ _ _ _ _ _ _ HI) as FI. rewrite Forall_forall in FI.
    pose proof (li_T _ _ _ _ _ _ _ _ HI) as T0.
    destruct it as [|i0 it0].
    { assert (E : fnorm n d = 0).
      { rewrite <- (fnorm_zero n). apply fnorm_ext. intros j Hj. unfold fzero.
        destruct (Req_dec (g j) 0) as [E|E].
        - destruct (li_k _ _ _ _ _ _ _ _ HI j Hj) as [[-> _]|[-> _]]; [|easy].
          rewrite start_eq by easy. rewrite E. ring.
        - now apply (oi_fixed _ _ _ _ H j Hj E). }
      rewrite E. destruct (Rltb 0 zt) eqn:E2; [|apply Rltb_false in E2; lra].
      exists x. split; [reflexivity|]. now apply (DONE T _ d). }
    destruct (FI i0 ltac:(simpl; auto)) as (Hi0 & Ni0 & Di0). rewrite start_eq in Ni0, Di0 by easy.
    assert (Gi0 : g i0 <> 0) by (intros E; apply Ni0; rewrite E; ring).
    assert (Hd : zt <= fnorm n d).
    { eapply Rle_trans; [|apply (fabs_le_norm n d i0 Hi0)]. rewrite Di0, Rabs_Ropp.
      destruct (Hg i0 Hi0); [contradiction|easy]. }
    destruct (Rltb (fnorm n d) zt) eqn:E2; [apply Rltb_true in E2; lra|]. clear E2.
    destruct (linv_unconstr n g r zt Hz ltac:(lra) _ _ _ _ HI Hd) as (S0 & S1 & S2 & S3).
    set (s := distance_to_boundary n x d r zt) in *. set (xu := unconstrained_step n x d r zt) in *.
    assert (XU : forall j, In j (i0 :: it0) -> xu j = - (T + s) * g j /\ (j < n)%nat /\ g j <> 0).
    { intros j Hj. destruct (FI j Hj) as (J1 & J2 & J3). rewrite (S2 j J1 J3 J2), start_eq by easy.
      rewrite start_eq in J2 by easy. repeat split; [ring|easy|]. intros E. apply J2. rewrite E. ring. }
    assert (LATER : forall j, In j it0 -> (i0 < j)%nat) by (apply (oi_sorted _ _ _ _ H i0 [] it0 eq_refl)).
    cbn [find_next_active_bound bind].
    assert (AP : (exists a, scan_bounds xu lo up i0 it0 = (Some a, i0, it0) /\
                   (up i0 = Some a /\ a <= xu i0 \/ lo i0 = Some a /\ xu i0 <= a)) \/
                 ((exists j, scan_bounds xu lo up i0 it0 = (None, j, [])) /\
                  forall j, In j (i0 :: it0) -> at_upper (up j) (xu j) = false /\ at_lower (lo j) (xu j) = false)).
    { destruct (at_upper (up i0) (xu i0)) eqn:U.
      - left. destruct (up i0) as [u|] eqn:Eu; [|discriminate]. exists u. cbn in U.
        split; [|apply Rleb_true in U; auto]. destruct it0; cbn [scan_bounds]; rewrite Eu; cbn [at_upper]; now rewrite U.
      - destruct (at_lower (lo i0) (xu i0)) eqn:W.
        + left. destruct (lo i0) as [u|] eqn:Eu; [|discriminate]. exists u. cbn in W.
          split; [|apply Rleb_true in W; auto].
          destruct it0; cbn [scan_bounds]; rewrite U, Eu; cbn [at_lower]; now rewrite W.
        + right. assert (ALL : forall j, In j (i0 :: it0) -> at_upper (up j) (xu j) = false /\ at_lower (lo j) (xu j) = false).
          { intros j [<-|Hj]; [easy|]. destruct (XU j ltac:(simpl; auto)) as (E & J1 & J2). rewrite E.
            destruct (XU i0 ltac:(simpl; auto)) as (E0 & _). rewrite E0 in U, W.
            apply (inactive_later (T + s) i0 j); auto. lra. }
          split; [|exact ALL]. clear -ALL. revert i0 ALL.
          induction it0 as [|j it0 IHit]; intros i0 ALL; destruct (ALL i0 ltac:(simpl; auto)) as [U W];
            cbn [scan_bounds]; rewrite U, W; [eauto|]. apply IHit. intros j' Hj. apply ALL. now right. }
    destruct AP as [(a & -> & Ha)|((j & ->) & ALL)].
    + destruct (linv_step n g lo up r zt Hz ltac:(lra) Hlo Hup _ _ _ _ [] _ _ _ HI Hd eq_refl Ha)
        as (T' & TP & TL & EA & SG & H' & XS & XA).
      rewrite start_eq in EA, SG by easy.
      change (exists y, linear_loop n lo up r zt k (fst (constrained_step x d a i0))
        (snd (constrained_step x d a i0)) it0 = Ok y /\ solved y).
      apply (IH T'); [|simpl in L; lia|now left]. split.
      * exact H'.
      * assert (TT : T <= T').
        { destruct (oi_inside _ _ _ _ H i0 ltac:(simpl; auto)) as [R1 R2].
          destruct SG as [[A B]|[A B]]; [specialize (R2 _ B)|specialize (R1 _ B)]; nra. }
        intros j Hj Nj Ij. destruct (Nat.eq_dec j i0) as [->|NE].
        -- split; [|apply fupd_eq]. exists T'. rewrite XA. split; [lra|]. split; [lra|].
           destruct SG as [[A B]|[A B]]; [left|right]; (split; [lra|easy]).
        -- destruct (oi_fixed _ _ _ _ H j Hj Nj) as [(p & P & Q1 & Q2) Q3].
           { intros [E|Hin]; [now symmetry in E|contradiction]. }
           split; [|unfold constrained_step, snd; rewrite fupd_neq by easy; exact Q3].
           exists p. rewrite (XS j Hj NE Q3). split; [lra|]. auto.
      * intros b l1 l2 E. apply (oi_sorted _ _ _ _ H b (i0 :: l1) l2). now rewrite E.
      * intros j Hj. destruct (XU j ltac:(simpl; auto)) as (_ & J1 & _).
        apply (ORD i0 j T'); auto; [lra|].
        destruct SG as [[A B]|[A B]]; split; intros v Hv; try (rewrite B in Hv; injection Hv as <-; lra).
        -- pose proof (Hlo _ _ Hv). nra.
        -- pose proof (Hup _ _ Hv). nra.
    + exists xu. split; [reflexivity|].
      assert (TS : 0 < T + s).
      { destruct (Rle_lt_or_eq_dec 0 (T + s) ltac:(lra)) as [|E]; [easy|]. exfalso.
        assert (T = 0) by lra. destruct HT as [HT|HT]; [lra|].
        assert (Z : fsq n xu = 0); [|rewrite Z in S1; nra].
        unfold xu, unconstrained_step. replace (distance_to_boundary n x d r zt) with 0 by (unfold s in *; lra).
        rewrite HT, fsq_line. unfold fsq. rewrite fdot_zero_l. ring. }
      exists (T + s). split; [easy|]. split; [lra|]. split.
      * intros m Hm Nm. destruct (in_dec Nat.eq_dec m (i0 :: it0)) as [Hin|Hin].
        -- right. split; [easy|]. destruct (XU m Hin) as (E & _ & _). split; [lra|].
           destruct (ALL m Hin) as [U W]. rewrite E in U, W. split; intros v Hv.
           ++ rewrite Hv in W. cbn in W. apply Rleb_false in W. lra.
           ++ rewrite Hv in U. cbn in U. apply Rleb_false in U. lra.
        -- left. destruct (oi_fixed _ _ _ _ H m Hm Nm Hin) as [(p & P & Q1 & Q2) Q3].
           exists p. rewrite (S3 m Hm Q3). split; [lra|]. auto.
      * intros m Hm Em. unfold xu, unconstrained_step, fadd, fscale.
        rewrite (ZERO _ _ _ _ H m Hm Em).
        destruct (li_k _ _ _ _ _ _ _ _ HI m Hm) as [[-> _]|[-> _]]; [|ring].
        rewrite start_eq by easy. rewrite Em. ring.
Qed.

Lemma solved_within y : solved y -> within n lo up y.
Proof.
  intros (T & TP & _ & F & Z) i Hi. destruct (Req_dec (g i) 0) as [E|E].
  - rewrite (Z i Hi E). split; intros v Hv; [pose proof (Hlo _ _ Hv)|pose proof (Hup _ _ Hv)]; lra.
  - destruct (F i Hi E) as [(p & P & Q & [[A B]|[A B]])|(_ & -> & RI)]; [| |exact RI].
    + rewrite B. split; [|intros u [= <-]; lra]. intros l Hl. pose proof (Hlo _ _ Hl). nra.
    + rewrite B. split; [intros u [= <-]; lra|]. intros u Hu. pose proof (Hup _ _ Hu). nra.
Qed.

Lemma solved_optimal y : solved y -> forall z, within n lo up z -> fnorm n z <= r ->
  fdot n g y <= fdot n g z.
Proof.
  intros (T & TP & BY & F & Z) z Wz Bz.
  apply fnorm_le_iff in Bz; [|lra].
  assert (DEC : fsq n y = r * r \/ (forall k, (k < n)%nat -> g k <> 0 -> fixed_at T y k)).
  { destruct (Req_dec (fsq n y) (r * r)); [now left|right]. intros k Hk Nk.
    destruct (F k Hk Nk) as [|[? _]]; [easy|contradiction]. }
  assert (FX : forall k, (k < n)%nat -> fixed_at T y k -> (y k + T * g k) * (z k - y k) >= 0 /\ g k * (y k - z k) <= 0).
  { intros k Hk (p & P & Q & SG). destruct (Wz k Hk) as [W1 W2].
    destruct SG as [[A B]|[A B]].
    - specialize (W2 _ B). split; [|nra]. rewrite Q in *.
      assert (Y : - p * g k + T * g k <= 0) by nra. nra.
    - specialize (W1 _ B). split; [|nra]. rewrite Q in *.
      assert (Y : 0 <= - p * g k + T * g k) by nra. nra. }
  destruct DEC as [BE|ALL].
  - assert (S : 0 <= bsum n (fun k => (y k + T * g k) * (z k - y k))).
    { apply bsum_nonneg. intros k Hk. destruct (Req_dec (g k) 0) as [E|E].
      - rewrite (Z k Hk E), E. lra.
      - destruct (F k Hk E) as [Fx|(_ & -> & _)]; [destruct (FX k Hk Fx); lra|lra]. }
    assert (EQ : bsum n (fun k => (y k + T * g k) * (z k - y k))
      = fdot n y z - fsq n y + T * (fdot n g z - fdot n g y)).
    { unfold fsq, fdot. rewrite <- !bsum_minus, <- bsum_scal, <- bsum_plus. apply bsum_ext. intros; ring. }
    assert (YZ : 2 * fdot n y z <= fsq n y + fsq n z).
    { pose proof (fsq_nonneg n (fsub y z)) as N. unfold fsq in *.
      rewrite !fdot_sub_l, !fdot_sub_r, (fdot_comm n z y) in N. lra. }
    nra.
  - apply bsum_le. intros k Hk. destruct (Req_dec (g k) 0) as [E|E]; [rewrite E; lra|].
    destruct (FX k Hk (ALL k Hk E)). lra.
Qed.
End Ordered.

(** If zero is at least [zt] away from every bound, no gradient entry is non-zero but below
    [zt], and steepest descent leaves the bounds in the order of the coordinates, the solver
    returns a minimizer over the box and the ball.  Missing: other orders. *)
Theorem C72_ordered_coordinates_partial :
  forall n g lo up r zt, 0 < zt -> 0 < r ->
    (forall i l, lo i = Some l -> l <= - zt) -> (forall i u, up i = Some u -> zt <= u) ->
    (forall i, (i < n)%nat -> g i = 0 \/ zt <= Rabs (g i)) ->
    (forall i j t, (i < j < n)%nat -> g i <> 0 -> 0 <= t ->
       ray_inside g lo up i t -> ray_inside g lo up j t) ->
    exists x, minimize_trsbox_linear n g lo up r zt = Ok x /\
      within n lo up x /\ fnorm n x <= r /\
      forall z, within n lo up z -> fnorm n z <= r -> fdot n g x <= fdot n g z.
Proof.
  intros n g lo up r zt Hz Hr Hlo Hup Hg ORD.
  assert (IL : forall i, internal_lower zt lo i = lo i).
  { intros i. unfold internal_lower. destruct (lo i) eqn:E; [|easy]. f_equal.
    apply Rmin_left. eauto. }
  assert (IU : forall i, internal_upper zt up i = up i).
  { intros i. unfold internal_upper. destruct (up i) eqn:E; [|easy]. f_equal.
    apply Rmax_left. eauto. }
  assert (ORD' : forall i j t, (i < j < n)%nat -> g i <> 0 -> 0 <= t ->
    ray_inside g (internal_lower zt lo) (internal_upper zt up) i t ->
    ray_inside g (internal_lower zt lo) (internal_upper zt up) j t).
  { unfold ray_inside. intros i j t. rewrite !IL, !IU. apply ORD. }
  assert (O0 : oinv n g (internal_lower zt lo) (internal_upper zt up) r zt 0 fzero
                 (start_direction zt g) (active_directions n zt g)).
  { split.
    - apply linv_start; lra.
    - intros k Hk Nk Hin. elim Hin. apply active_spec; [easy|]. split; [easy|].
      rewrite (start_eq n g zt Hg k Hk). lra.
    - unfold active_directions. intros a l1 l2 E b Hb.
      assert (G : forall f m k l1 l2, filter f (seq m k) = l1 ++ a :: l2 -> In b l2 -> (a < b)%nat).
      { clear. intros f m k. revert m. induction k as [|k IH]; intros m l1 l2; simpl.
        - now destruct l1.
        - destruct (f m) eqn:Ef; [|apply IH]. destruct l1 as [|c l1]; simpl.
          + intros [= <- <-] Hb. apply filter_In in Hb as [Hb _]. apply in_seq in Hb. lia.
          + intros [= _ E]. now apply (IH _ _ _ E). }
      exact (G _ _ _ _ _ E Hb).
    - intros k _. split; intros v Hv.
      + apply internal_lower_le in Hv. lra.
      + apply internal_upper_ge in Hv. lra. }
  destruct (ordered_loop n g _ _ r zt Hz Hr (internal_lower_le zt lo) (internal_upper_ge zt up) Hg ORD'
    n _ _ _ _ O0) as (x & E & SO).
  { unfold active_directions. rewrite <- (seq_length n 0) at 2. generalize (seq 0 n). clear.
    induction l as [|a l IH]; simpl; [lia|]. destruct (negb _); simpl; lia. }
  { now right. }
  exists x. split; [exact E|].
  assert (WE : forall z, within n (internal_lower zt lo) (internal_upper zt up) z <-> within n lo up z).
  { intros z. unfold within. split; intros W i Hi; specialize (W i Hi); rewrite ?IL, ?IU in *; exact W. }
  split; [apply WE; eapply (solved_within n g _ _ r zt); eauto using internal_lower_le, internal_upper_ge|].
  split.
  - destruct SO as (T & _ & B & _). apply fnorm_le_iff; [lra|exact B].
  - intros z Wz Bz. eapply (solved_optimal n g _ _ r); eauto. now apply WE.
Qed.

Definition no_bound : fbounds := fun _ => None.
Definition bounds_of (l : list R) : fbounds := fun i => nth_error l i.
Definition vec_of (l : list R) : nat -> R := fun i => nth i l 0.

Example C72_ordered_instance : exists x,
  minimize_trsbox_linear 2 (vec_of [-3; -4]) no_bound (bounds_of [1; 100]) 10 (/ 1000) = Ok x /\
  within 2 no_bound (bounds_of [1; 100]) x /\ fnorm 2 x <= 10 /\
  forall z, within 2 no_bound (bounds_of [1; 100]) z -> fnorm 2 z <= 10 ->
    fdot 2 (vec_of [-3; -4]) x <= fdot 2 (vec_of [-3; -4]) z.
Proof.
  apply C72_ordered_coordinates_partial; try lra.
  - discriminate.
  - intros [|[|i]] u; cbn; try (intros [= <-]; lra). destruct i; discriminate.
  - intros [|[|i]] Hi; [| |lia]; right; cbn; rewrite Rabs_left; lra.
  - intros i j t Hij _ Ht [_ R]. assert (i = 0 /\ j = 1)%nat as [-> ->] by lia.
    specialize (R 1 eq_refl). cbn in R. split; [discriminate|]. intros u [= <-]. cbn. lra.
Qed.

(** ** The bounds are violated, or the solver raises *)

Lemma dist_value n x d r zt q : 0 < zt -> zt * zt <= fsq n d -> 0 <= q ->
  q * q = fdot n d x * fdot n d x + fsq n d * (r * r - fsq n x) ->
  distance_to_boundary n x d r zt = (q - fdot n d x) / fsq n d.
Proof.
  intros Hz Hd Hq E. unfold distance_to_boundary.
  destruct (Rltb (sqrt (fsq n d)) zt) eqn:C.
  - apply Rltb_true in C. assert (zt <= sqrt (fsq n d)); [|lra].
    rewrite <- (sqrt_square zt) by lra. now apply sqrt_le_1_alt.
  - rewrite <- E. rewrite Rmax_right by nra. now rewrite sqrt_square.
Qed.
Lemma norm_not_small n d zt : 0 < zt -> zt * zt <= fsq n d -> Rltb (fnorm n d) zt = false.
Proof.
  intros Hz H. apply Rltb_false. unfold fnorm. rewrite <- (sqrt_square zt) at 1 by lra.
  assert (sqrt (zt * zt) <= sqrt (fsq n d)); [now apply sqrt_le_1_alt|].
  rewrite sqrt_square in * by lra. lra.
Qed.
Ltac fsimpl := unfold fsq, fdot, fadd, fscale, fupd, fzero, start_direction, vec_of, bounds_of; cbn [bsum nth Nat.eqb].
Ltac decide_R :=
  repeat match goal with
  | |- context[Rltb ?a ?b] =>
      first [ replace (Rltb a b) with true by (symmetry; apply Rltb_true; unfold Rabs; repeat destruct (Rcase_abs _); lra)
            | replace (Rltb a b) with false by (symmetry; apply Rltb_false; unfold Rabs; repeat destruct (Rcase_abs _); lra) ]
  | |- context[Rleb ?a ?b] =>
      first [ replace (Rleb a b) with true by (symmetry; apply Rleb_true; lra)
            | replace (Rleb a b) with false by (symmetry; apply Rleb_false; lra) ]
  end.

(** Two parameters: the second bound is hit first and exhausts the iterator. *)
Theorem C72_raises_refuted : exists g up,
  (forall i u, up i = Some u -> 1 <= u) /\
  minimize_trsbox_linear 2 g no_bound up 10 (/ 1000) = Err StopIteration.
Proof.
  exists (vec_of [-3; -4]), (bounds_of [7; 4]). split.
  { intros [|[|i]] u; cbn; try (intros [= <-]; lra). destruct i; discriminate. }
  unfold minimize_trsbox_linear.
  set (lo := internal_lower _ _). set (up := internal_upper _ _). set (d := start_direction _ _).
  assert (D0 : d 0%nat = 3) by (unfold d; fsimpl; decide_R; lra).
  assert (D1 : d 1%nat = 4) by (unfold d; fsimpl; decide_R; lra).
  replace (active_directions 2 (/ 1000) (vec_of [-3; -4])) with [0%nat; 1%nat].
  2:{ unfold active_directions, vec_of; cbn [seq filter nth]. decide_R. reflexivity. }
  assert (SQ : fsq 2 d = 25) by (fsimpl; rewrite D0, D1; ring).
  cbn [linear_loop]. rewrite norm_not_small; [|lra|lra].
  assert (DI : distance_to_boundary 2 fzero d 10 (/ 1000) = 2).
  { rewrite (dist_value _ _ _ _ _ 50); rewrite ?SQ; try lra; fsimpl; try field. }
  assert (U : unconstrained_step 2 fzero d 10 (/ 1000) 0 = 6 /\ unconstrained_step 2 fzero d 10 (/ 1000) 1 = 8).
  { unfold unconstrained_step. rewrite DI. fsimpl. rewrite D0, D1. split; ring. }
  destruct U as [U0 U1].
  assert (UP : up 0%nat = Some 7 /\ up 1%nat = Some 4).
  { unfold up, internal_upper; fsimpl. cbn [nth_error]. split; f_equal; apply Rmax_left; lra. }
  destruct UP as [UP0 UP1].
  cbn [find_next_active_bound bind scan_bounds]. rewrite U0, U1, UP0, UP1. cbn [at_upper].
  replace (at_lower (lo 0%nat) 6) with false by reflexivity.
  decide_R. cbn [constrained_step linear_loop find_next_active_bound bind].
  rewrite norm_not_small; [reflexivity|lra|]. fsimpl. rewrite D0. lra.
Qed.

(** Three parameters: the first bound is skipped and violated after the step was extended
    along the second bound. *)
Theorem C72_outside_bounds_refuted : exists g up x,
  (forall i u, up i = Some u -> 1 <= u) /\
  minimize_trsbox_linear 3 g no_bound up 13 (/ 1000) = Ok x /\
  up 0%nat = Some 4 /\ x 0%nat = 36 / 5.
Proof.
  exists (vec_of [-3; -12; -4]), (bounds_of [4; 5; 100]).
  unfold minimize_trsbox_linear.
  set (lo := internal_lower _ _). set (up := internal_upper _ _). set (d := start_direction _ _).
  assert (D0 : d 0%nat = 3) by (unfold d; fsimpl; decide_R; lra).
  assert (D1 : d 1%nat = 12) by (unfold d; fsimpl; decide_R; lra).
  assert (D2 : d 2%nat = 4) by (unfold d; fsimpl; decide_R; lra).
  replace (active_directions 3 (/ 1000) (vec_of [-3; -12; -4])) with [0%nat; 1%nat; 2%nat].
  2:{ unfold active_directions, vec_of; cbn [seq filter nth]. decide_R. reflexivity. }
  assert (SQ : fsq 3 d = 169) by (fsimpl; rewrite D0, D1, D2; ring).
  cbn [linear_loop]. rewrite norm_not_small; [|lra|lra].
  assert (DI : distance_to_boundary 3 fzero d 13 (/ 1000) = 1).
  { rewrite (dist_value _ _ _ _ _ 169); rewrite ?SQ; try lra; fsimpl; try field. }
  assert (U : unconstrained_step 3 fzero d 13 (/ 1000) 0 = 3 /\ unconstrained_step 3 fzero d 13 (/ 1000) 1 = 12).
  { unfold unconstrained_step. rewrite DI. fsimpl. rewrite D0, D1. split; ring. }
  destruct U as [U0 U1].
  assert (UP : up 0%nat = Some 4 /\ up 1%nat = Some 5 /\ up 2%nat = Some 100).
  { unfold up, internal_upper; fsimpl. cbn [nth_error]. repeat split; f_equal; apply Rmax_left; lra. }
  destruct UP as (UP0 & UP1 & UP2).
  cbn [find_next_active_bound bind scan_bounds]. rewrite U0, U1, UP0, UP1. cbn [at_upper].
  replace (at_lower (lo 0%nat) 3) with false by reflexivity.
  decide_R. cbn [constrained_step].
  set (x1 := fupd (fadd _ _) _ _). set (d1 := fupd d 1 0).
  assert (X1 : x1 0%nat = 5 / 4 /\ x1 1%nat = 5 /\ x1 2%nat = 5 / 3).
  { unfold x1. fsimpl. rewrite D0, D1, D2. repeat split; field. }
  destruct X1 as (X10 & X11 & X12).
  assert (E1 : d1 0%nat = 3 /\ d1 1%nat = 0 /\ d1 2%nat = 4) by (unfold d1; fsimpl; auto).
  destruct E1 as (E10 & E11 & E12).
  assert (SQ1 : fsq 3 d1 = 25) by (fsimpl; rewrite E10, E11, E12; ring).
  assert (XS : fsq 3 x1 = (5/4) * (5/4) + 25 + (5/3) * (5/3)) by (fsimpl; rewrite X10, X11, X12; ring).
  assert (DX : fdot 3 d1 x1 = 125 / 12) by (fsimpl; rewrite E10, E11, E12, X10, X11, X12; field).
  assert (DI1 : distance_to_boundary 3 x1 d1 13 (/ 1000) = 119 / 60).
  { rewrite (dist_value _ _ _ _ _ 60); rewrite ?SQ1, ?DX, ?XS; try lra. }
  assert (V : unconstrained_step 3 x1 d1 13 (/ 1000) 0 = 36 / 5 /\ unconstrained_step 3 x1 d1 13 (/ 1000) 2 = 48 / 5).
  { unfold unconstrained_step. rewrite DI1. unfold fadd, fscale. rewrite X10, X12, E10, E12. split; field. }
  destruct V as [V0 V2].
  exists (unconstrained_step 3 x1 d1 13 (/ 1000)). split; [|split; [|split; [reflexivity|exact V0]]].
  { intros [|[|[|i]]] u; cbn; try (intros [= <-]; lra). destruct i; discriminate. }
  rewrite norm_not_small; [|lra|lra]. cbn [find_next_active_bound bind scan_bounds].
  rewrite V2, UP2. cbn [at_upper].
  replace (at_lower (lo 2%nat) (48 / 5)) with false by reflexivity. decide_R. reflexivity.
Qed.

(** One parameter with the center at its bound: the solution exceeds the bound by [zt]. *)
Theorem C72_center_at_bound_refuted :
  forall zt r, 0 < zt -> zt <= r -> zt <= 1 ->
  exists x, minimize_trsbox_linear 1 (vec_of [-1]) no_bound (bounds_of [0]) r zt = Ok x /\ x 0%nat = zt.
Proof.
  intros zt r Hz Hr H1. unfold minimize_trsbox_linear.
  set (lo := internal_lower _ _). set (up := internal_upper _ _). set (d := start_direction _ _).
  assert (AB : Rabs (- -1) = 1) by (rewrite Rabs_right; lra).
  assert (D0 : d 0%nat = 1).
  { unfold d; fsimpl. rewrite AB. destruct (Rltb 1 zt) eqn:E; [apply Rltb_true in E|]; lra. }
  replace (active_directions 1 zt (vec_of [-1])) with [0%nat].
  2:{ unfold active_directions, vec_of; cbn [seq filter nth]. rewrite AB.
      destruct (Rltb 1 zt) eqn:E; [apply Rltb_true in E; lra|]. reflexivity. }
  assert (SQ : fsq 1 d = 1) by (fsimpl; rewrite D0; ring).
  cbn [linear_loop]. rewrite norm_not_small; [|lra|nra].
  assert (DI : distance_to_boundary 1 fzero d r zt = r).
  { rewrite (dist_value _ _ _ _ _ r); rewrite ?SQ; try nra; fsimpl; try field. }
  assert (U0 : unconstrained_step 1 fzero d r zt 0 = r).
  { unfold unconstrained_step. rewrite DI. fsimpl. rewrite D0. ring. }
  assert (UP0 : up 0%nat = Some zt).
  { unfold up, internal_upper; fsimpl. cbn [nth_error]. f_equal; apply Rmax_right; lra. }
  cbn [find_next_active_bound bind scan_bounds]. rewrite U0, UP0. cbn [at_upper].
  destruct (Rleb zt r) eqn:E; [|apply Rleb_false in E; lra].
  eexists. split; [reflexivity|]. reflexivity.
Qed.

(** * C116 - improving the geometry *)

(** The point returned lies in the ball around the center, and the absolute value of the
    Lagrange polynomial there is at least that at the center. *)
Theorem C116_lagrange_polynomial :
  forall n c c0 g lo up r zt x, 0 < zt -> 0 <= r ->
    improve_geometry_trsbox_linear n c c0 g lo up r zt = Ok x ->
    fnorm n (fsub x c) <= r /\ Rabs c0 <= Rabs (c0 + fdot n g (fsub x c)).
Proof.
  intros n c c0 g lo up r zt x Hz Hr. unfold improve_geometry_trsbox_linear.
  destruct (existsb _ _); [discriminate|]. destruct (existsb _ _); [discriminate|].
  destruct (minimize_trsbox_linear n g _ _ r zt) as [a|] eqn:Ea; [|discriminate]. cbn [bind].
  destruct (minimize_trsbox_linear n (fopp g) _ _ r zt) as [b|] eqn:Eb; [|discriminate]. cbn [bind].
  apply C72_ball_and_descent_partial in Ea; auto. apply C72_ball_and_descent_partial in Eb; auto.
  destruct Ea as (A1 & _ & A2), Eb as (B1 & _ & B2). rewrite fdot_opp_l in B2.
  assert (S : forall y, feq n (fsub (fadd y c) c) y) by (intros y i _; unfold fsub, fadd; ring).
  assert (S0 : feq n g g) by (intros i _; reflexivity).
  destruct (Rleb _ _) eqn:E; intros [= <-];
    rewrite (fnorm_ext _ _ _ (S _)), (fdot_ext _ _ _ _ _ S0 (S _)); split; auto.
  - apply Rleb_true in E. unfold Rabs in *. repeat destruct (Rcase_abs _); lra.
  - apply Rleb_false in E. unfold Rabs in *. repeat destruct (Rcase_abs _); lra.
Qed.

Lemma linear_loop_err n lo up r zt k : forall x d it e,
  linear_loop n lo up r zt k x d it = Err e -> e = StopIteration.
Proof.
  induction k as [|k IH]; intros x d it e; cbn [linear_loop]; [discriminate|].
  destruct (Rltb _ _); [discriminate|]. destruct it as [|i it]; cbn [find_next_active_bound bind].
  - now intros [= <-].
  - destruct (scan_bounds _ _ _ _ _) as [[[b|] j] it']; [|discriminate].
    unfold constrained_step. apply IH.
Qed.

(** It raises ValueError exactly if the center violates the bounds by more than the
    threshold. *)
Theorem C116_value_error :
  forall n c c0 g lo up r zt,
    improve_geometry_trsbox_linear n c c0 g lo up r zt = Err ValueError <->
    exists i, (i < n)%nat /\ ((exists l, lo i = Some l /\ c i + zt < l) \/
                              (exists u, up i = Some u /\ u < c i - zt)).
Proof.
  intros n c c0 g lo up r zt. unfold improve_geometry_trsbox_linear.
  assert (EL : forall f, existsb f (seq 0 n) = true <-> exists i, (i < n)%nat /\ f i = true).
  { intros f. rewrite existsb_exists. split; intros (i & H & Hf); exists i; split; auto;
      [apply in_seq in H; lia|apply in_seq; lia]. }
  match goal with |- context[existsb ?f _] => destruct (existsb f (seq 0 n)) eqn:E1 end;
    [|match goal with |- context[existsb ?f _] => destruct (existsb f (seq 0 n)) eqn:E2 end].
  - split; [intros _|reflexivity]. apply EL in E1 as (i & Hi & Hf). exists i. split; [easy|]. left.
    destruct (lo i) as [l|]; [|discriminate]. exists l. split; [easy|]. now apply Rltb_true.
  - split; [intros _|reflexivity]. apply EL in E2 as (i & Hi & Hf). exists i. split; [easy|]. right.
    destruct (up i) as [l|]; [|discriminate]. exists l. split; [easy|]. now apply Rltb_true.
  - split.
    + intros H. exfalso.
      destruct (minimize_trsbox_linear n g _ _ r zt) as [a|] eqn:Ea; cbn [bind] in H.
      2:{ apply linear_loop_err in Ea. congruence. }
      destruct (minimize_trsbox_linear n (fopp g) _ _ r zt) as [b|] eqn:Eb; cbn [bind] in H.
      2:{ apply linear_loop_err in Eb. congruence. }
      destruct (Rleb _ _); discriminate.
    + intros (i & Hi & [(l & El & Hl)|(u & Eu & Hu)]); exfalso.
      * assert (true = false); [|discriminate]. rewrite <- E1. symmetry. apply EL. exists i. split; [easy|].
        rewrite El. now apply Rltb_true.
      * assert (true = false); [|discriminate]. rewrite <- E2. symmetry. apply EL. exists i. split; [easy|].
        rewrite Eu. now apply Rltb_true.
Qed.

(** Where both linear problems are solved (see C72), the point maximizes the absolute value of
    the Lagrange polynomial over the box and the ball. *)
Theorem C116_maximizes :
  forall n c c0 g lo up r zt, 0 < zt -> 0 < r ->
    (forall i l, lo i = Some l -> l <= c i - zt) -> (forall i u, up i = Some u -> c i + zt <= u) ->
    (forall i, (i < n)%nat -> g i = 0 \/ zt <= Rabs (g i)) ->
    (forall i j t, (i < j < n)%nat -> g i <> 0 ->
       ray_inside g (shift_bounds lo c) (shift_bounds up c) i t ->
       ray_inside g (shift_bounds lo c) (shift_bounds up c) j t) ->
    exists x, improve_geometry_trsbox_linear n c c0 g lo up r zt = Ok x /\
      within n lo up x /\ fnorm n (fsub x c) <= r /\
      forall z, within n lo up z -> fnorm n (fsub z c) <= r ->
        Rabs (c0 + fdot n g (fsub z c)) <= Rabs (c0 + fdot n g (fsub x c)).
Proof.
  intros n c c0 g lo up r zt Hz Hr Hlo Hup Hg ORD.
  set (lo' := shift_bounds lo c) in *. set (up' := shift_bounds up c) in *.
  assert (HL' : forall i l, lo' i = Some l -> l <= - zt).
  { intros i l. unfold lo', shift_bounds. destruct (lo i) eqn:E; [|discriminate]. intros [= <-].
    pose proof (Hlo _ _ E). lra. }
  assert (HU' : forall i l, up' i = Some l -> zt <= l).
  { intros i l. unfold up', shift_bounds. destruct (up i) eqn:E; [|discriminate]. intros [= <-].
    pose proof (Hup _ _ E). lra. }
  destruct (C72_ordered_coordinates_partial n g lo' up' r zt Hz Hr HL' HU' Hg) as (a & Ea & A1 & A2 & A3).
  { intros i j t Hij Ni _. now apply ORD. }
  destruct (C72_ordered_coordinates_partial n (fopp g) lo' up' r zt Hz Hr HL' HU') as (b & Eb & B1 & B2 & B3).
  { intros i Hi. unfold fopp. rewrite Rabs_Ropp. destruct (Hg i Hi) as [->|]; [left; ring|now right]. }
  { intros i j t Hij Ni _ RI. unfold ray_inside, fopp in *.
    assert (Gi : g i <> 0) by (intros E; apply Ni; rewrite E; ring).
    destruct (ORD i j (- t) Hij Gi) as [O1 O2].
    - split; intros v Hv; [apply RI in Hv|apply RI in Hv]; lra.
    - split; intros v Hv; [apply O1 in Hv|apply O2 in Hv]; lra. }
  unfold improve_geometry_trsbox_linear. fold lo' up'.
  match goal with |- context[existsb ?f _] => destruct (existsb f (seq 0 n)) eqn:E1 end.
  { exfalso. apply existsb_exists in E1 as (i & _ & H). destruct (lo i) as [l|] eqn:E; [|discriminate].
    apply Rltb_true in H. pose proof (Hlo _ _ E). lra. }
  match goal with |- context[existsb ?f _] => destruct (existsb f (seq 0 n)) eqn:E2 end.
  { exfalso. apply existsb_exists in E2 as (i & _ & H). destruct (up i) as [l|] eqn:E; [|discriminate].
    apply Rltb_true in H. pose proof (Hup _ _ E). lra. }
  clear E1 E2. rewrite Ea, Eb. cbn [bind].
  assert (S : forall y, feq n (fsub (fadd y c) c) y) by (intros y i _; unfold fsub, fadd; ring).
  assert (S0 : feq n g g) by (intros i _; reflexivity).
  assert (W1 : forall y, within n lo' up' y -> within n lo up (fadd y c)).
  { intros y W i Hi. destruct (W i Hi) as [P Q]. unfold lo', up', shift_bounds in P, Q. unfold fadd.
    split; intros v Hv; [rewrite Hv in P; specialize (P _ eq_refl)|rewrite Hv in Q; specialize (Q _ eq_refl)]; lra. }
  assert (W2 : forall z, within n lo up z -> within n lo' up' (fsub z c)).
  { intros z W i Hi. destruct (W i Hi) as [P Q]. unfold lo', up', shift_bounds, fsub.
    split; intros v Hv; [destruct (lo i); [|discriminate]; specialize (P _ eq_refl)
      |destruct (up i); [|discriminate]; specialize (Q _ eq_refl)]; injection Hv as <-; lra. }
  destruct (Rleb _ _) eqn:E; eexists; (split; [reflexivity|]); (split; [auto|]);
    rewrite (fnorm_ext _ _ _ (S _)), (fdot_ext _ _ _ _ _ S0 (S _)); (split; [easy|]);
    intros z Wz Bz; specialize (A3 _ (W2 _ Wz) Bz); specialize (B3 _ (W2 _ Wz) Bz);
    rewrite !fdot_opp_l in B3.
  - apply Rleb_true in E. unfold Rabs in *. repeat destruct (Rcase_abs _); lra.
  - apply Rleb_false in E. unfold Rabs in *. repeat destruct (Rcase_abs _); lra.
Qed.

Example C116_instance : exists x,
  improve_geometry_trsbox_linear 2 (vec_of [1; 2]) 5 (vec_of [-3; -4]) (bounds_of [0; -98])
    (bounds_of [2; 102]) 10 (/ 1000) = Ok x /\
  within 2 (bounds_of [0; -98]) (bounds_of [2; 102]) x /\ fnorm 2 (fsub x (vec_of [1; 2])) <= 10 /\
  forall z, within 2 (bounds_of [0; -98]) (bounds_of [2; 102]) z -> fnorm 2 (fsub z (vec_of [1; 2])) <= 10 ->
    Rabs (5 + fdot 2 (vec_of [-3; -4]) (fsub z (vec_of [1; 2])))
    <= Rabs (5 + fdot 2 (vec_of [-3; -4]) (fsub x (vec_of [1; 2]))).
Proof.
  apply C116_maximizes; try lra.
  - intros [|[|i]] u; cbn; try (intros [= <-]; lra). destruct i; discriminate.
  - intros [|[|i]] u; cbn; try (intros [= <-]; lra). destruct i; discriminate.
  - intros [|[|i]] Hi; [| |lia]; right; cbn; rewrite Rabs_left; lra.
  - intros i j t Hij _ [L R]. assert (i = 0 /\ j = 1)%nat as [-> ->] by lia.
    specialize (R _ eq_refl). specialize (L _ eq_refl). cbn in L, R.
    split; intros u [= <-]; cbn; lra.
Qed.
