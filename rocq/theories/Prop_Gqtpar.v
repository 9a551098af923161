(** Properties C67-C70, C109-C114 and the refutation of C56: the sphere solver gqtpar. *)
From Coq Require Import Reals List Arith ZArith Bool Lia Lra Psatz.
From Verif Require Import Base XR Vec FVec CgModel TrsboxModel GqtparModel GqtparProofs Prop_Cg.
Import ListNotations.
Open Scope R_scope.

Lemma Rabs_inv a b : Rabs a <= b -> - b <= a <= b.
Proof. intros H. pose proof (Rle_abs a). pose proof (Rle_abs (- a)). rewrite Rabs_Ropp in *. lra. Qed.

(** * Minimum and maximum of a vector *)

Lemma vmin_le n f i : (i < n)%nat -> vmin n f <= f i.
Proof.
  induction n as [|[|n] IH]; intros L; [lia| |].
  - replace i with O by lia. apply Rle_refl.
  - change (vmin (S (S n)) f) with (Rmin (vmin (S n) f) (f (S n))).
    destruct (Nat.eq_dec i (S n)) as [->|]; [apply Rmin_r|].
    eapply Rle_trans; [apply Rmin_l|]. apply IH. lia.
Qed.
Lemma vmax_ge n f i : (i < n)%nat -> f i <= vmax n f.
Proof.
  induction n as [|[|n] IH]; intros L; [lia| |].
  - replace i with O by lia. apply Rle_refl.
  - change (vmax (S (S n)) f) with (Rmax (vmax (S n) f) (f (S n))).
    destruct (Nat.eq_dec i (S n)) as [->|]; [apply Rmax_r|].
    eapply Rle_trans; [|apply Rmax_l]. apply IH. lia.
Qed.
Lemma vmin_attained n f : (0 < n)%nat -> exists i, (i < n)%nat /\ vmin n f = f i.
Proof.
  induction n as [|[|n] IH]; intros L; [lia| |].
  - exists O. split; [lia|easy].
  - change (vmin (S (S n)) f) with (Rmin (vmin (S n) f) (f (S n))).
    destruct (IH ltac:(lia)) as (i & Hi & E). unfold Rmin. destruct (Rle_dec _ _).
    + exists i. split; [lia|easy].
    + exists (S n). split; [lia|easy].
Qed.
Lemma vmax_attained n f : (0 < n)%nat -> exists i, (i < n)%nat /\ vmax n f = f i.
Proof.
  induction n as [|[|n] IH]; intros L; [lia| |].
  - exists O. split; [lia|easy].
  - change (vmax (S (S n)) f) with (Rmax (vmax (S n) f) (f (S n))).
    destruct (IH ltac:(lia)) as (i & Hi & E). unfold Rmax. destruct (Rle_dec _ _).
    + exists (S n). split; [lia|easy].
    + exists i. split; [lia|easy].
Qed.

Lemma row_sum_ge n H i : (i < n)%nat -> Rabs (H i i) <= row_sum n H i.
Proof. intros L. apply (bsum_term_le n (fun j => Rabs (H i j))); [|easy]. intros; apply Rabs_pos. Qed.
Lemma inf_norm_ge n H i : (i < n)%nat -> Rabs (H i i) <= inf_norm n H.
Proof.
  intros L. eapply Rle_trans; [exact (row_sum_ge n H i L)|]. unfold inf_norm.
  now apply (vmax_ge n (row_sum n H)).
Qed.
Lemma fro_sq_ge n H i : (i < n)%nat ->
  H i i * H i i <= bsum n (fun i => bsum n (fun j => H i j * H i j)).
Proof.
  intros L. eapply Rle_trans; [apply (bsum_term_le n (fun j => H i j * H i j)); [intros; nra|easy]|].
  apply (bsum_term_le n (fun i => bsum n (fun j => H i j * H i j))); [|easy].
  intros. apply bsum_nonneg. intros. nra.
Qed.
Lemma fro_norm_ge n H i : (i < n)%nat -> Rabs (H i i) <= fro_norm n H.
Proof.
  intros L. unfold fro_norm. rewrite <- sqrt_Rsqr_abs. apply sqrt_le_1_alt. unfold Rsqr. now apply fro_sq_ge.
Qed.
Lemma fro_norm_nonneg n H : 0 <= fro_norm n H.
Proof. apply sqrt_pos. Qed.

Lemma gersh_lower_le n H i : (i < n)%nat -> fst (gershgorin n H) <= H i i.
Proof.
  intros L. unfold gershgorin. cbn [fst].
  eapply Rle_trans; [now apply (vmin_le n _ i)|]. cbv beta. pose proof (row_sum_ge n H i L). lra.
Qed.
Lemma gersh_upper_ge n H i : (i < n)%nat -> H i i <= snd (gershgorin n H).
Proof.
  intros L. unfold gershgorin. cbn [snd].
  eapply Rle_trans; [|now apply (vmax_ge n _ i)]. cbv beta. pose proof (row_sum_ge n H i L). lra.
Qed.

(** * C67 *)

(** C67 - a new damping candidate lies in its bracket. *)
Theorem C67_candidate_in_bracket :
  forall lower upper, 0 <= lower -> lower <= upper ->
    lower <= new_lambda_candidate lower upper <= upper.
Proof.
  intros l u Hl Hu. unfold new_lambda_candidate.
  rewrite (Rmax_right 0) by nra. split.
  - eapply Rle_trans; [|apply Rmax_r]. nra.
  - apply Rmax_lub; [|nra]. rewrite <- (sqrt_square u) at 2 by lra. apply sqrt_le_1_alt. nra.
Qed.

(** C67 - the initial bracket is ordered and contains the first candidate. *)
Theorem C67_initial_bracket_ordered :
  forall n g H, (0 < n)%nat ->
    let L := initial_lambdas n g H in
    0 <= l_lo L /\ l_lo L <= l_hi L /\ l_lo L <= l_cand L <= l_hi L.
Proof.
  intros n g H Hn. unfold initial_lambdas.
  destruct (gershgorin n H) as (gl, gu) eqn:EG. cbv zeta. cbn [l_lo l_hi l_cand].
  set (gn := fnorm n g). set (fro := fro_norm n H). set (inf := inf_norm n H).
  set (lo := Rmax (Rmax 0 (- vmin n (fun i => H i i))) (gn - Rmin (Rmin gu fro) inf)).
  set (hi := Rmax 0 (gn + Rmin (Rmin (- gl) fro) inf)).
  assert (L0 : 0 <= lo) by (unfold lo; eapply Rle_trans; [apply Rmax_l|apply Rmax_l]).
  assert (Gn : 0 <= gn) by apply fnorm_nonneg.
  destruct (vmin_attained n (fun i => H i i) Hn) as (i & Hi & Ei). cbv beta in Ei.
  pose proof (gersh_lower_le n H i Hi) as A1. pose proof (gersh_upper_ge n H i Hi) as A2.
  rewrite EG in A1, A2. cbn [fst snd] in A1, A2.
  pose proof (fro_norm_ge n H i Hi) as A3. pose proof (inf_norm_ge n H i Hi) as A4.
  fold fro in A3. fold inf in A4.
  assert (Hh : lo <= hi).
  { unfold lo, hi. rewrite Ei.
    destruct (Rabs_inv (H i i) fro A3) as (A5 & A6). destruct (Rabs_inv (H i i) inf A4) as (A7 & A8).
    assert (B : - H i i <= Rmin (Rmin (- gl) fro) inf) by (repeat apply Rmin_glb; lra).
    assert (C : H i i <= Rmin (Rmin gu fro) inf) by (repeat apply Rmin_glb; lra).
    apply Rmax_lub; [apply Rmax_lub; [apply Rmax_l|]|]; (eapply Rle_trans; [|apply Rmax_r]); lra. }
  splits; try easy; destruct (Reqb lo 0) eqn:E.
  - apply Reqb_true in E. lra.
  - apply C67_candidate_in_bracket; easy.
  - lra.
  - apply C67_candidate_in_bracket; easy.
Qed.

(** An indefinite Hessian: the bracket is [1, 9/4] and the first candidate 3/2. *)
Definition H110 : fmat := fun i j =>
  match i, j with O, O => 19 / 4 | S O, S O => -1 | O, S O => 5 / 4 | S O, O => 5 / 4 | _, _ => 0 end.

Ltac babs := unfold Rabs; repeat destruct (Rcase_abs _); try lra.
Ltac rmm := repeat match goal with
  | |- context [Rmin ?a ?b] => first [rewrite (Rmin_left a b) by lra | rewrite (Rmin_right a b) by lra]
  | |- context [Rmax ?a ?b] => first [rewrite (Rmax_left a b) by lra | rewrite (Rmax_right a b) by lra]
  end.

Lemma fnorm_zero2 g : g 0%nat = 0 -> g 1%nat = 0 -> fnorm 2 g = 0.
Proof. intros A B. unfold fnorm, fsq, fdot. cbn [bsum]. rewrite A, B. replace (0 + 0 * 0 + 0 * 0) with 0 by ring. apply sqrt_0. Qed.

Lemma H110_lambdas g : g 0%nat = 0 -> g 1%nat = 0 -> initial_lambdas 2 g H110 = mkL (3 / 2) 1 (9 / 4).
Proof.
  intros G0 G1. unfold initial_lambdas, gershgorin. rewrite fnorm_zero2 by easy.
  unfold inf_norm, row_sum. cbn [vmin vmax bsum H110]. 
  replace (Rabs (19 / 4)) with (19 / 4) by (babs).
  replace (Rabs (5 / 4)) with (5 / 4) by (babs).
  replace (Rabs (-1)) with 1 by (babs).
  assert (F : 5 <= fro_norm 2 H110).
  { unfold fro_norm. rewrite <- (sqrt_square 5) by lra. apply sqrt_le_1_alt. cbn [bsum H110]. lra. }
  assert (F' : fro_norm 2 H110 <= 6).
  { unfold fro_norm. rewrite <- (sqrt_square 6) by lra. apply sqrt_le_1_alt. cbn [bsum H110]. lra. }
  set (fro := fro_norm 2 H110) in *. clearbody fro.
  rmm. destruct (Reqb _ _) eqn:E; [apply Reqb_true in E; lra|].
  f_equal; try lra. unfold new_lambda_candidate.
  replace (Rmax 0 _) with (3 / 2 * (3 / 2)).
  - rewrite sqrt_square by lra. rmm. lra.
  - rmm. lra.
Qed.

Example ex_C67 : let L := initial_lambdas 2 fzero H110 in l_lo L = 1 /\ l_cand L = 3 / 2 /\ l_hi L = 9 / 4.
Proof. rewrite H110_lambdas by easy. cbn [l_lo l_cand l_hi]. splits; lra. Qed.

(** * C68 *)

Lemma gersh_weighted n H x : fsymm n H ->
  bsum n (fun i => (H i i + Rabs (H i i) - row_sum n H i) * (x i * x i)) <= fdot n x (fmv n H x)
  <= bsum n (fun i => (H i i - Rabs (H i i) + row_sum n H i) * (x i * x i)).
Proof.
  intros S.
  assert (T : forall c : R, c * c = 1 ->
    c * fdot n x (fmv n H x)
    <= bsum n (fun i => (c * H i i - Rabs (H i i) + row_sum n H i) * (x i * x i))).
  { intros c Hc. rewrite fdot_fmv, <- bsum_scal.
    rewrite (bsum_ext n (fun i => (c * H i i - Rabs (H i i) + row_sum n H i) * (x i * x i))
      (fun i => bsum n (fun j => (if Nat.eqb j i then (c * H i i - Rabs (H i i)) * (x i * x i) else 0)
                                 + Rabs (H i j) * (x i * x i)))).
    2:{ intros i Hi. rewrite bsum_plus, bsum_single by easy. rewrite bsum_scal_r. fold (row_sum n H i). ring. }
    rewrite (bsum_ext n (fun i => bsum n _)
      (fun i => bsum n (fun j => (if Nat.eqb j i then (c * H i i - Rabs (H i i)) * (x i * x i) else 0))
                + bsum n (fun j => Rabs (H i j) * (x i * x i)))) by (intros; now rewrite bsum_plus).
    rewrite bsum_plus.
    assert (Sym : bsum n (fun i => bsum n (fun j => Rabs (H i j) * (x i * x i)))
                  = bsum n (fun i => bsum n (fun j => Rabs (H i j) * ((x i * x i + x j * x j) / 2)))).
    { rewrite (bsum_ext n (fun i => bsum n (fun j => Rabs (H i j) * ((x i * x i + x j * x j) / 2)))
        (fun i => / 2 * bsum n (fun j => Rabs (H i j) * (x i * x i)) + / 2 * bsum n (fun j => Rabs (H i j) * (x j * x j)))).
      - rewrite bsum_plus, !bsum_scal.
        rewrite (bsum_swap n n (fun i j => Rabs (H i j) * (x j * x j))).
        rewrite (bsum_ext n (fun j => bsum n (fun i => Rabs (H i j) * (x j * x j)))
          (fun i => bsum n (fun j => Rabs (H i j) * (x i * x i)))).
        + field.
        + intros i Hi. apply bsum_ext. intros j Hj. now rewrite (S i j).
      - intros i Hi. rewrite <- !bsum_scal, <- bsum_plus. apply bsum_ext. intros; field. }
    rewrite Sym, <- bsum_plus. apply bsum_le. intros i Hi. rewrite <- bsum_plus, <- bsum_scal.
    apply bsum_le. intros j Hj.
    assert (Q : c * (x i * H i j * x j) <= Rabs (H i j) * ((x i * x i + x j * x j) / 2)).
    { assert (A : c * (x i * H i j * x j) <= Rabs (H i j) * Rabs (x i * x j)).
      { eapply Rle_trans; [apply Rle_abs|]. rewrite !Rabs_mult.
        assert (Rabs c = 1). { assert (Rabs c * Rabs c = 1) by (rewrite <- Rabs_mult, Hc; apply Rabs_R1).
          pose proof (Rabs_pos c). nra. }
        rewrite H0. right. ring. }
      eapply Rle_trans; [exact A|]. apply Rmult_le_compat_l; [apply Rabs_pos|].
      apply Rabs_le. pose proof (Rle_0_sqr (x i - x j)) as D1. pose proof (Rle_0_sqr (x i + x j)) as D2.
      unfold Rsqr in D1, D2. split; lra. }
    destruct (Nat.eqb_spec j i) as [->|]; [|lra]. right. field. }
  split.
  - specialize (T (-1) ltac:(lra)).
    rewrite (bsum_ext n _ (fun i => - ((H i i + Rabs (H i i) - row_sum n H i) * (x i * x i)))) in T
      by (intros; ring).
    rewrite bsum_opp in T. lra.
  - specialize (T 1 ltac:(lra)).
    rewrite (bsum_ext n _ (fun i => (H i i - Rabs (H i i) + row_sum n H i) * (x i * x i))) in T
      by (intros; ring). lra.
Qed.

(** C68 - the Gershgorin bounds enclose the quadratic form. *)
Theorem C68_gershgorin_bounds :
  forall n H x, fsymm n H ->
    let (lower, upper) := gershgorin n H in
    lower * fsq n x <= bsum n (fun i => bsum n (fun j => x i * H i j * x j)) <= upper * fsq n x.
Proof.
  intros n H x S. unfold gershgorin. rewrite <- fdot_fmv.
  destruct (gersh_weighted n H x S) as (A & B). 
  change (fsq n x) with (bsum n (fun i => x i * x i)). rewrite <- !bsum_scal. split.
  - eapply Rle_trans; [|exact A]. apply bsum_le. intros i Hi. apply Rmult_le_compat_r; [nra|].
    apply (vmin_le n (fun i => H i i + Rabs (H i i) - row_sum n H i) i Hi).
  - eapply Rle_trans; [exact B|]. apply bsum_le. intros i Hi. apply Rmult_le_compat_r; [nra|].
    apply (vmax_ge n (fun i => H i i - Rabs (H i i) + row_sum n H i) i Hi).
Qed.

Example ex_C68 : gershgorin 2 H110 = (- (9 / 4), 6).
Proof.
  unfold gershgorin, row_sum. cbn [vmin vmax bsum H110].
  replace (Rabs (19 / 4)) with (19 / 4) by (babs).
  replace (Rabs (5 / 4)) with (5 / 4) by (babs).
  replace (Rabs (-1)) with 1 by (babs). rmm. f_equal; lra.
Qed.

(** * C69 *)

Lemma scalar_quadratic_ok n x d : fsq n x < 1 -> 0 < fsq n d ->
  exists ta tb, scalar_quadratic n x d = Ok (ta, tb) /\ ta < 0 < tb /\
    forall t, fsq n (fadd x (fscale t d)) - 1 = fsq n d * (t - ta) * (t - tb).
Proof.
  intros Hx Hd. unfold scalar_quadratic.
  fold (fsq n d). fold (fsq n x). set (a := fsq n d) in *. set (b := 2 * fdot n x d).
  set (c := fsq n x - 1). assert (Hc : c < 0) by (unfold c; lra).
  assert (Disc : 0 < b * b - 4 * a * c) by nra.
  unfold msqrt. destruct (Rltb (b * b - 4 * a * c) 0) eqn:E; [apply Rltb_true in E; lra|].
  cbn [bind]. set (sd := sqrt (b * b - 4 * a * c)).
  assert (Psd : 0 < sd) by now apply sqrt_lt_R0.
  assert (Esd : sd * sd = b * b - 4 * a * c) by (apply sqrt_sqrt; lra).
  assert (Q : forall t, fsq n (fadd x (fscale t d)) - 1 = a * (t * t) + b * t + c).
  { intros t. unfold fsq. rewrite fdot_add_l, !fdot_add_r, !fdot_scale_l, !fdot_scale_r.
    rewrite (fdot_comm n d x). fold (fsq n x) (fsq n d). fold a. unfold c, b. ring. }
  set (aux := b + (if Rltb b 0 then - sd else sd)).
  assert (Ea : aux <> 0). { unfold aux. destruct (Rltb b 0) eqn:Eb;
    [apply Rltb_true in Eb|apply Rltb_false in Eb]; lra. }
  assert (Ex : aux * aux = 2 * b * aux - 4 * a * c).
  { unfold aux. destruct (Rltb b 0); nra. }
  unfold div. destruct (Reqb (2 * a) 0) eqn:E1; [apply Reqb_true in E1; lra|].
  destruct (Reqb aux 0) eqn:E2; [apply Reqb_true in E2; easy|]. cbn [bind].
  set (ta := - aux / (2 * a)). set (tb := -2 * c / aux).
  assert (P : ta * tb = c / a) by (unfold ta, tb; field; split; lra).
  assert (Sm : ta + tb = - b / a).
  { unfold ta, tb. apply (Rmult_eq_reg_r (2 * a * aux)); [|nra].
    replace ((- aux / (2 * a) + -2 * c / aux) * (2 * a * aux)) with (- (aux * aux) - 4 * a * c)
      by (field; lra). replace (- b / a * (2 * a * aux)) with (- 2 * b * aux) by (field; lra). lra. }
  assert (Neg : ta * tb < 0).
  { rewrite P. unfold Rdiv. pose proof (Rinv_0_lt_compat a Hd). nra. }
  exists (Rmin ta tb), (Rmax ta tb). split; [easy|].
  assert (Fact : forall t, a * (t * t) + b * t + c = a * (t - ta) * (t - tb)).
  { intros t. replace (a * (t - ta) * (t - tb)) with (a * (t * t) - a * t * (ta + tb) + a * (ta * tb)) by ring.
    rewrite P, Sm. field. lra. }
  split.
  - unfold Rmin, Rmax. destruct (Rle_dec ta tb); split; nra.
  - intros t. rewrite Q, Fact. unfold Rmin, Rmax. destruct (Rle_dec ta tb); ring.
Qed.

(** C69 - the step to the boundary from an interior candidate: it ends on the unit sphere and no
    step to the sphere in this direction is shorter. *)
Theorem C69_smallest_step :
  forall tie n x z, fnorm n x < 1 -> (exists i, (i < n)%nat /\ z i <> 0) ->
    exists t, smallest_step_len tie n x z = Ok t /\
      fnorm n (fadd x (fscale t z)) = 1 /\
      forall t', fnorm n (fadd x (fscale t' z)) = 1 -> Rabs t <= Rabs t'.
Proof.
  intros tie n x z Hx (i & Hi & Hz).
  assert (Hx2 : fsq n x < 1). { rewrite <- fnorm_sqr. pose proof (fnorm_nonneg n x). nra. }
  assert (Hz2 : 0 < fsq n z) by now apply (fsq_pos n z i).
  destruct (scalar_quadratic_ok n x z Hx2 Hz2) as (ta & tb & E & (Na & Pb) & Q).
  assert (On : forall t, t = ta \/ t = tb -> fnorm n (fadd x (fscale t z)) = 1).
  { intros t Ht. unfold fnorm. replace (fsq n (fadd x (fscale t z))) with 1; [apply sqrt_1|].
    specialize (Q t). destruct Ht as [->| ->]; lra. }
  assert (Only : forall t, fnorm n (fadd x (fscale t z)) = 1 -> t = ta \/ t = tb).
  { intros t Ht. assert (fsq n (fadd x (fscale t z)) = 1) by (rewrite <- fnorm_sqr, Ht; lra).
    specialize (Q t). assert (Z : (t - ta) * (t - tb) = 0) by nra.
    apply Rmult_integral in Z as [Z|Z]; [left|right]; lra. }
  unfold smallest_step_len. rewrite E. cbn [bind].
  destruct (Rltb (Rabs tb) (Rabs ta)) eqn:B1.
  - apply Rltb_true in B1. exists tb. splits; [easy|auto|].
    intros t' Ht. destruct (Only t' Ht) as [->| ->]; lra.
  - apply Rltb_false in B1. destruct (Rltb (Rabs ta) (Rabs tb)) eqn:B2.
    + apply Rltb_true in B2. exists ta. splits; [easy|auto|].
      intros t' Ht. destruct (Only t' Ht) as [->| ->]; lra.
    + apply Rltb_false in B2. destruct (tie x z).
      * exists ta. splits; [easy|auto|]. intros t' Ht. destruct (Only t' Ht) as [->| ->]; lra.
      * exists tb. splits; [easy|auto|]. intros t' Ht. destruct (Only t' Ht) as [->| ->]; lra.
Qed.

(** From (1/2, 0) in direction (1, 0): the steps are -3/2 and 1/2. *)
Example ex_C69 : exists t, smallest_step_len (fun _ _ => true) 1 (fun _ => 1 / 2) (fun _ => 1) = Ok t /\ t = 1 / 2.
Proof.
  destruct (C69_smallest_step (fun _ _ => true) 1 (fun _ => 1 / 2) (fun _ => 1)) as (t & E & O & M).
  - unfold fnorm, fsq, fdot. cbn [bsum]. rewrite <- sqrt_1 at 3. apply sqrt_lt_1_alt. lra.
  - exists O. split; [lia|lra].
  - exists t. split; [easy|].
    assert (A : Rabs t <= Rabs (1 / 2)).
    { apply M. unfold fnorm, fsq, fdot, fadd, fscale. cbn [bsum]. 
      transitivity (sqrt 1); [f_equal; lra|apply sqrt_1]. }
    rewrite (Rabs_right (1 / 2)) in A by lra. apply Rabs_inv in A.
    assert (S : fsq 1 (fadd (fun _ => 1 / 2) (fscale t (fun _ => 1))) = 1) by (rewrite <- fnorm_sqr, O; lra).
    unfold fsq, fdot, fadd, fscale in S. cbn [bsum] in S. nra.
Qed.

(** * C70 *)

Lemma add_diag_symm n H l : fsymm n H -> fsymm n (add_diag H l).
Proof. intros S i j Hi Hj. unfold add_diag. rewrite (S i j) by easy. now rewrite Nat.eqb_sym. Qed.
Lemma fmv_add_diag n H l x i : (i < n)%nat -> fmv n (add_diag H l) x i = fmv n H x i + l * x i.
Proof.
  intros Hi. unfold fmv, add_diag.
  rewrite (bsum_ext n _ (fun j => H i j * x j + (if Nat.eqb j i then l * x i else 0))).
  - now rewrite bsum_plus, bsum_single.
  - intros j Hj. rewrite (Nat.eqb_sym j i). destruct (Nat.eqb_spec i j) as [->|]; ring.
Qed.
Lemma form_add_diag n H l x y :
  fdot n x (fmv n (add_diag H l) y) = fdot n x (fmv n H y) + l * fdot n x y.
Proof.
  transitivity (fdot n x (fadd (fmv n H y) (fscale l y))).
  - apply fdot_ext; [easy|]. intros i Hi. rewrite fmv_add_diag by easy. easy.
  - now rewrite fdot_add_r, fdot_scale_r.
Qed.
Lemma possemidef_le n H a b : a <= b -> possemidef n (add_diag H a) -> possemidef n (add_diag H b).
Proof.
  intros L P y. specialize (P y). rewrite form_add_diag in *. pose proof (fsq_nonneg n y).
  unfold fsq in *. nra.
Qed.

(** The optimality conditions of the subproblem on the unit ball. *)
Definition optimal_pair (n : nat) (g : fvec) (H : fmat) (x : fvec) (lam : R) : Prop :=
  0 <= lam /\ possemidef n (add_diag H lam) /\
  (forall i, (i < n)%nat -> bsum n (fun j => H i j * x j) + lam * x i = - g i) /\
  fnorm n x <= 1 /\ lam * (1 - fnorm n x) = 0.

(** C70 - the optimality conditions are sufficient for a global minimum over the unit ball. *)
Theorem C70_optimality :
  forall n g H x lam, fsymm n H -> optimal_pair n g H x lam ->
    forall y, fnorm n y <= 1 -> qval n g H x <= qval n g H y.
Proof.
  intros n g H x lam S (L & P & E & Nx & C) y Ny.
  set (d := fsub y x).
  assert (Ey : qval n g H y = qval n g H (fadd x (fscale 1 d))).
  { rewrite !qval_fdot. f_equal; [|f_equal].
    - apply fdot_ext; [easy|]. intros i _. unfold fadd, fscale, d, fsub. lra.
    - apply fdot_fmv_ext; intros i _; unfold fadd, fscale, d, fsub; lra. }
  rewrite Ey, qval_move by easy.
  assert (G : fdot n (fadd g (fmv n H x)) d = - lam * fdot n x d).
  { rewrite <- fdot_scale_l. apply fdot_ext; [|easy]. intros i Hi. unfold fadd, fscale, fmv.
    specialize (E i Hi). lra. }
  rewrite G. specialize (P d). rewrite form_add_diag in P.
  assert (Ds : fdot n x d + / 2 * fdot n d d = / 2 * (fsq n y - fsq n x)).
  { unfold d, fsq. rewrite !fdot_sub_r, !fdot_sub_l. rewrite (fdot_comm n y x). field. }
  assert (Z : lam * (fsq n y - fsq n x) <= 0).
  { destruct (Req_dec lam 0) as [->|Nz]; [lra|].
    assert (fnorm n x = 1) by (apply Rmult_integral in C as [?|?]; lra).
    rewrite <- !fnorm_sqr. pose proof (fnorm_nonneg n y) as Py. rewrite H0.
    assert (fnorm n y * fnorm n y <= 1) by nra. nra. }
  assert (Ds' : lam * fdot n x d + / 2 * (lam * fdot n d d) <= 0).
  { replace (lam * fdot n x d + / 2 * (lam * fdot n d d)) with (/ 2 * (lam * (fsq n y - fsq n x))); [lra|].
    transitivity (lam * (fdot n x d + / 2 * fdot n d d)); [rewrite Ds|]; ring. }
  lra.
Qed.

(** The interior point (1/2, 0) for a convex model and the boundary point (1, 0) for one with
    damping 1 are optimal pairs. *)
Definition diag2 (a d : R) : fmat := fun i j =>
  match i, j with O, O => a | S O, S O => d | _, _ => 0 end.
Definition vec2 (a b : R) : fvec := fun i => match i with O => a | S O => b | _ => 0 end.
Lemma diag2_symm a d : fsymm 2 (diag2 a d).
Proof. intros [|[|i]] [|[|j]] Hi Hj; easy || lia. Qed.
Lemma form_diag2 a d x y : fdot 2 x (fmv 2 (diag2 a d) y) = a * (x 0%nat * y 0%nat) + d * (x 1%nat * y 1%nat).
Proof. unfold fdot, fmv. cbn [bsum diag2]. ring. Qed.
Lemma fsq_2 x : fsq 2 x = x 0%nat * x 0%nat + x 1%nat * x 1%nat.
Proof. unfold fsq, fdot. cbn [bsum]. ring. Qed.
Lemma fnorm_2 x r : 0 <= r -> fsq 2 x = r * r -> fnorm 2 x = r.
Proof. intros P E. unfold fnorm. rewrite E. now apply sqrt_square. Qed.

Example ex_C70 : optimal_pair 2 (vec2 (-2) 0) (diag2 1 3) (vec2 1 0) 1.
Proof.
  split; [lra|]. split; [|split; [|split]].
  - intros y. rewrite form_add_diag, form_diag2. fold (fsq 2 y). rewrite fsq_2. nra.
  - intros [|[|i]] Hi; [| |lia]; cbn [bsum diag2 vec2]; lra.
  - rewrite (fnorm_2 _ 1); [lra|lra|]. rewrite fsq_2. cbn [vec2]. lra.
  - rewrite (fnorm_2 _ 1); [lra|lra|]. rewrite fsq_2. cbn [vec2]. lra.
Qed.

(** ** One pass with a fresh factorization *)

Lemma zero_threshold_nonneg n H : (0 < n)%nat -> 0 <= zero_threshold n H.
Proof.
  intros L. unfold zero_threshold.
  assert (0 <= inf_norm n H).
  { eapply Rle_trans; [apply (Rabs_pos (H 0%nat 0%nat))|]. now apply inf_norm_ge. }
  assert (0 <= INR n) by apply pos_INR. assert (0 <= EPS) by (unfold EPS; apply Rlt_le, Rinv_0_lt_compat; lra).
  apply Rmult_le_pos; [|easy]. now apply Rmult_le_pos.
Qed.

Lemma NNPP_exists n (z : fvec) : ~ (forall i, (i < n)%nat -> z i = 0) -> exists i, (i < n)%nat /\ z i <> 0.
Proof.
  induction n; intros A; [exfalso; apply A; lia|].
  destruct (Req_dec (z n) 0) as [E|N]; [|exists n; split; [lia|easy]].
  destruct IHn as (i & Hi & Ni).
  - intros B. apply A. intros i Hi. destruct (Nat.eq_dec i n) as [->|]; [easy|]. apply B. lia.
  - exists i. split; [lia|easy].
Qed.

(** The results of a successful pass: the candidate left or moved to the boundary. *)
Lemma update_within_cases tie n H o s x newton conv s' M :
  (0 < n)%nat -> fsymm n M -> chol n M = (q_u s, O) -> fnorm n x < 1 ->
  update_within tie n H o s x newton conv = Ok s' ->
  exists t z s_min,
    estimate_smallest_singular_value n (q_u s) = (s_min, z) /\
    fsq n z = 1 /\ s_min * s_min = fdot n z (fmv n M z) /\
    smallest_step_len tie n x z = Ok t /\ fnorm n (fadd x (fscale t z)) = 1 /\
    fdot n x (fmv n (q_hpl s) x) + l_cand (q_lam s) <> 0 /\
    let hard := Rleb (t * t * (s_min * s_min) / (fdot n x (fmv n (q_hpl s) x) + l_cand (q_lam s))) (k_hard o) in
    let lo := Rmax (l_lo (q_lam s)) (l_cand (q_lam s) - s_min * s_min) in
    q_x s' = (if hard then fadd x (fscale t z) else x) /\
    q_conv s' = (conv || hard)%bool /\
    q_u s' = q_u s /\ q_info s' = q_info s /\ q_hpl s' = add_diag H newton /\
    l_hi (q_lam s') = l_cand (q_lam s) /\
    ((snd (chol n (add_diag H newton)) = O /\ q_fact s' = true /\ l_cand (q_lam s') = newton /\
      l_lo (q_lam s') = lo) \/
     (snd (chol n (add_diag H newton)) <> O /\ q_fact s' = q_fact s /\ l_lo (q_lam s') = Rmax lo newton /\
      l_cand (q_lam s') = new_lambda_candidate (Rmax lo newton) (l_cand (q_lam s)))).
Proof.
  intros L S E Nx H0. pose proof (estimate_ok n M (q_u s) L S E) as EO.
  unfold update_within in H0.
  destruct (estimate_smallest_singular_value n (q_u s)) as (s_min, z) eqn:ES.
  destruct EO as (Z1 & Z2 & Z3).
  destruct (C69_smallest_step tie n x z Nx) as (t & Et & On & _).
  { destruct (Nat.eq_dec n 0); [lia|]. (* a unit vector has a non-zero entry *)
    apply NNPP_exists. intros A. assert (fsq n z = 0); [|lra].
    apply bsum_all_zero. intros i Hi. rewrite (A i Hi). lra. }
  exists t, z, s_min. rewrite Et in H0. cbn [bind] in H0. rewrite fdot_fvm in H0.
  unfold div in H0. destruct (Reqb _ 0) eqn:Q; [easy|]. apply Reqb_false in Q. cbn [bind] in H0.
  splits; try easy. cbv zeta in H0 |- *.
  destruct (snd (chol n (add_diag H newton))) eqn:Ec; injection H0 as <-; cbn [q_x q_conv q_u q_info q_hpl q_lam q_fact l_hi l_lo l_cand];
    splits; try easy.
  - left. easy.
  - right. easy.
Qed.

(** [w] of the Newton step: |w|^2 = x' M^-1 x *)
Lemma fwd_sq n M U x y : fsymm n M -> chol n M = (U, O) -> feq n (fmv n M y) x ->
  fsq n (fwd n U x) = fdot n x y.
Proof.
  intros S E Y. destruct (chol_ok n M U S E) as (T & P & F).
  assert (Fa : factor_of n M U) by now split.
  pose proof (fwd_solves n U x T P) as Hw. set (w := fwd n U x) in *.
  assert (Ew : feq n (fmv n U y) w).
  { assert (Z : forall i, (i < n)%nat -> fsub (fmv n U y) w i = 0).
    { intros i Hi.
      assert (D : forall k, (k < n)%nat -> bsum n (fun l => U l k * fsub (fmv n U y) w l) = 0).
      { intros k Hk. unfold fsub.
        rewrite (bsum_ext n _ (fun l => U l k * fmv n U y l - U l k * w l)) by (intros; ring).
        rewrite bsum_minus, Hw by easy. rewrite <- (Y k Hk).
        unfold fmv. rewrite (bsum_ext n (fun j => M k j * y j) (fun j => bsum n (fun l => U l k * (U l j * y j)))).
        - rewrite bsum_swap.
          rewrite (bsum_ext n (fun i0 => bsum n (fun j => U i0 k * (U i0 j * y j)))
             (fun l => U l k * bsum n (fun j => U l j * y j))) by (intros; now rewrite bsum_scal). lra.
        - intros j Hj. rewrite <- F by easy. rewrite <- bsum_scal_r. apply bsum_ext. intros; ring. }
      set (r := fsub (fmv n U y) w) in *. clearbody r.
      (* U^T r = 0 with a lower triangular matrix of positive diagonal *)
      assert (G : forall k, (k <= n)%nat -> forall i, (i < k)%nat -> r i = 0).
      { induction k; intros Hk j Hj; [lia|]. destruct (Nat.eq_dec j k) as [->|]; [|apply IHk; lia].
        specialize (D k Hk). rewrite (bsum_trunc (Datatypes.S k) n) in D.
        - rewrite bsum_S in D. rewrite bsum_all_zero in D by (intros l Hl; rewrite IHk by lia; lra).
          specialize (P k Hk). nra.
        - lia.
        - intros l Hl. rewrite T by lia. lra. }
      now apply (G n). }
    intros i Hi. specialize (Z i Hi). unfold fsub in Z. lra. }
  unfold fsq. rewrite <- (fdot_ext n _ w _ w Ew Ew), (factor_form n M U y y Fa), fdot_comm.
  now apply fdot_ext.
Qed.

Lemma fnorm_pos n x : 0 < fsq n x -> 0 < fnorm n x.
Proof. apply sqrt_lt_R0. Qed.

Lemma posdef_form_pos n M x : posdef n M -> 0 < fsq n x -> 0 < fdot n x (fmv n M x).
Proof.
  intros P Hx. apply P. apply NNPP_exists. intros A. assert (fsq n x = 0); [|lra].
  apply bsum_all_zero. intros i Hi. rewrite (A i Hi). lra.
Qed.

(** A successful pass with a non-zero gradient: the candidate is non-zero and the Newton step is
    lambda + |x|^2 / (x' M^-1 x) (|x| - 1). *)
Lemma newton_ok n M U g lam : (0 < n)%nat -> fsymm n M -> chol n M = (U, O) -> 0 < fnorm n g ->
  let x := cho_solve n U (fopp g) in
  0 < fsq n x /\
  forall y, feq n (fmv n M y) x ->
  0 < fdot n x y /\
  newton_step lam (fnorm n x) (fnorm n (fwd n U x)) = Ok (lam + fsq n x / fdot n x y * (fnorm n x - 1)).
Proof.
  intros L S E G x. pose proof (cho_solve_ok n M U (fopp g) S E) as Hx. fold x in Hx.
  assert (Px : 0 < fsq n x).
  { destruct (Rle_lt_or_eq_dec 0 (fsq n x) (fsq_nonneg _ _)) as [?|Z]; [easy|]. exfalso.
    assert (fsq n g = 0).
    { apply bsum_all_zero. intros i Hi. specialize (Hx i Hi). unfold fopp in Hx.
      assert (fmv n M x i = 0).
      { apply bsum_all_zero. intros j Hj. rewrite (fsq_zero n x) by easy. lra. }
      rewrite H in Hx. replace (g i) with 0 by lra. lra. }
    unfold fnorm in G. rewrite H, sqrt_0 in G. lra. }
  split; [easy|]. intros y Hy.
  pose proof (fwd_sq n M U x y S E Hy) as Ew.
  assert (PD : posdef n M) by (apply (factor_posdef n M U); now apply chol_ok).
  assert (Pw : 0 < fdot n x y).
  { rewrite fdot_comm, <- (fdot_ext n y y (fmv n M y) x ltac:(easy) Hy). apply posdef_form_pos; [easy|].
    destruct (Rle_lt_or_eq_dec 0 (fsq n y) (fsq_nonneg _ _)) as [?|Z]; [easy|]. exfalso.
    assert (fsq n x = 0); [|lra]. apply bsum_all_zero. intros i Hi. rewrite <- (Hy i Hi).
    replace (fmv n M y i) with 0; [lra|]. symmetry. apply bsum_all_zero. intros j Hj.
    rewrite (fsq_zero n y) by easy. lra. }
  split; [easy|]. unfold newton_step, div.
  assert (Nw : 0 < fnorm n (fwd n U x)) by (apply fnorm_pos; lra).
  destruct (Reqb _ 0) eqn:Q; [apply Reqb_true in Q; lra|]. cbn [bind]. f_equal. f_equal. f_equal.
  rewrite <- Ew, <- (fnorm_sqr n x), <- (fnorm_sqr n (fwd n U x)). field. lra.
Qed.

Lemma exists_inverse n M U x : fsymm n M -> chol n M = (U, O) -> exists y, feq n (fmv n M y) x.
Proof. intros S E. exists (cho_solve n U x). now apply (cho_solve_ok n M U x). Qed.

(** The pass of gqtpar in a state whose factor is that of the matrix M. *)
Lemma find_new_cases tie n g H o s s' M :
  (0 < n)%nat -> fsymm n M -> chol n M = (q_u s, O) -> 0 < fnorm n g ->
  find_new_candidate tie n g H o s = Ok s' ->
  exists x newton,
    feq n (fmv n M x) (fopp g) /\ 0 < fsq n x /\ x = cho_solve n (q_u s) (fopp g) /\
    newton_step (l_cand (q_lam s)) (fnorm n x) (fnorm n (fwd n (q_u s) x)) = Ok newton /\
    let conv := (q_conv s || (Rleb (fnorm n x) 1 && Reqb (l_cand (q_lam s)) 0))%bool in
    ((fnorm n x < 1 /\ update_within tie n H o s x newton conv = Ok s') \/
     (1 <= fnorm n x /\ q_x s' = x /\ q_u s' = q_u s /\ q_hpl s' = q_hpl s /\ q_fact s' = q_fact s /\
      q_info s' = q_info s /\ q_lam s' = mkL newton (l_cand (q_lam s)) (l_hi (q_lam s)) /\
      q_conv s' = (conv || Rleb (Rabs (fnorm n x - 1)) (k_easy o))%bool)).
Proof.
  intros L S E G H0. unfold find_new_candidate in H0. cbv zeta in H0.
  set (x := cho_solve n (q_u s) (fopp g)) in *.
  destruct (newton_ok n M (q_u s) g (l_cand (q_lam s)) L S E G) as (Px & Nw). fold x in Px, Nw.
  destruct (exists_inverse n M (q_u s) x S E) as (y & Hy). destruct (Nw y Hy) as (_ & En).
  rewrite En in H0. cbn [bind] in H0. exists x, (l_cand (q_lam s) + fsq n x / fdot n x y * (fnorm n x - 1)).
  splits; try easy.
  { now apply (cho_solve_ok n M). }
  cbv zeta. destruct (Rltb (fnorm n x) 1) eqn:B.
  - left. apply Rltb_true in B. easy.
  - right. apply Rltb_false in B. injection H0 as <-. splits; try easy; lra.
Qed.

Lemma pass_fresh tie n g H o s : q_fact s = false ->
  gq_pass tie n g H o s =
    let hpl := add_diag H (l_cand (q_lam s)) in
    let (U, info) := chol n hpl in
    let s1 := mkGq (q_x s) hpl U false info (q_lam s) (q_conv s) in
    match info with
    | O => if Rltb (zero_threshold n H) (fnorm n g) then find_new_candidate tie n g H o s1
           else Ok (check_interior n o s1)
    | S _ => update_unsuccessful n s1
    end.
Proof.
  intros F. unfold gq_pass, factorize. rewrite F. cbv zeta.
  destruct (chol n (add_diag H (l_cand (q_lam s)))) as (U, [|info]); easy.
Qed.

Lemma unsuccessful_conv n s s' : update_unsuccessful n s = Ok s' -> q_conv s' = q_conv s /\ q_x s' = q_x s.
Proof.
  unfold update_unsuccessful. destruct (singular_terms _ _ _ _) as (d, v). unfold div.
  destruct (Reqb _ 0); [easy|]. cbn [bind]. intros E. injection E as <-. easy.
Qed.

(** C70 - gqtpar's interior exit: if a pass with damping 0 and its own factorization stops at a
    point strictly inside the ball, that point minimizes the model over the ball. *)
Theorem C70_interior_exit :
  forall tie n g H o s s', (0 < n)%nat -> fsymm n H ->
    q_fact s = false -> q_conv s = false -> l_cand (q_lam s) = 0 -> zero_threshold n H < fnorm n g ->
    gq_pass tie n g H o s = Ok s' -> q_conv s' = true -> fnorm n (q_x s') < 1 ->
    forall y, fnorm n y <= 1 -> qval n g H (q_x s') <= qval n g H y.
Proof.
  intros tie n g H o s s' Ln S F C0 L0 G E C Nx.
  pose proof (zero_threshold_nonneg n H Ln) as Z.
  rewrite pass_fresh in E by easy. cbv zeta in E. rewrite L0 in E.
  pose proof (add_diag_symm n H 0 S) as S0.
  destruct (chol n (add_diag H 0)) as (U, info) eqn:EC. destruct info as [|info].
  - destruct (Rltb _ _) eqn:B; [|apply Rltb_false in B; lra].
    eapply (find_new_cases tie n g H o _ s' (add_diag H 0)) in E; try easy; [|lra].
    destruct E as (x & newton & Hx & Px & _ & _ & [(N1 & E)|(N1 & Ex & _)]).
    + assert (EC' : chol n (add_diag H 0) = (q_u (mkGq (q_x s) (add_diag H 0) U false 0 (q_lam s) (q_conv s)), O))
        by easy.
      destruct (update_within_cases _ _ _ _ _ _ _ _ _ _ Ln S0 EC' N1 E)
        as (t & z & sm & _ & _ & _ & _ & On & _ & Q). cbv zeta in Q. destruct Q as (Q & _).
      destruct (Rleb _ (k_hard o)).
      * rewrite Q in Nx. lra.
      * rewrite Q. apply (C70_optimality n g H x 0 S). split; [lra|]. split; [|split; [|split]].
        -- intros y. assert (PD : posdef n (add_diag H 0)) by (apply (factor_posdef _ _ U); now apply chol_ok).
           destruct (Rle_lt_or_eq_dec 0 (fsq n y) (fsq_nonneg _ _)) as [?|Zy].
           ++ apply Rlt_le, posdef_form_pos; easy.
           ++ right. symmetry. apply bsum_all_zero. intros i Hi. rewrite (fsq_zero n y) by easy. lra.
        -- intros i Hi. specialize (Hx i Hi). rewrite fmv_add_diag in Hx by easy. exact Hx.
        -- lra.
        -- lra.
    + rewrite Ex in Nx. lra.
  - destruct (unsuccessful_conv _ _ _ E) as (E1 & _). cbn [q_conv] in E1. congruence.
Qed.

(** * Explicit factors and estimates in dimension 2 *)

Lemma chol2 M : 0 < M 0%nat 0%nat ->
  0 < M 1%nat 1%nat - M 0%nat 1%nat * M 0%nat 1%nat / M 0%nat 0%nat ->
  exists U, chol 2 M = (U, O) /\ U 0%nat 0%nat = sqrt (M 0%nat 0%nat) /\
    U 0%nat 1%nat = M 0%nat 1%nat / sqrt (M 0%nat 0%nat) /\
    U 1%nat 1%nat = sqrt (M 1%nat 1%nat - M 0%nat 1%nat * M 0%nat 1%nat / M 0%nat 0%nat).
Proof.
  intros A D. unfold chol. cbn [fwd bsum]. cbv zeta.
  replace (M 0%nat 0%nat - 0) with (M 0%nat 0%nat) by lra.
  destruct (Rleb (M 0%nat 0%nat) 0) eqn:B; [apply Rleb_true in B; lra|].
  cbn [Nat.eqb Nat.ltb Nat.leb]. unfold upd. cbn [Nat.eqb].
  set (a := M 0%nat 0%nat) in *. set (b := M 0%nat 1%nat) in *. set (d := M 1%nat 1%nat) in *.
  assert (Ps : 0 < sqrt a) by now apply sqrt_lt_R0.
  assert (Es : sqrt a * sqrt a = a) by (apply sqrt_sqrt; lra).
  assert (Eq : d - (0 + (b - 0) / sqrt a * ((b - 0) / sqrt a)) = d - b * b / a).
  { rewrite <- Es at 3. field. lra. }
  clear B. destruct (Rleb (d - _) 0) eqn:B2; [apply Rleb_true in B2; lra|].
  eexists. split; [reflexivity|]. cbn [Nat.eqb Nat.ltb Nat.leb]. splits; try easy.
  - unfold Rdiv. ring.
  - now rewrite Eq.
Qed.

Lemma estimate2 U u0 u1 u2 w1 : U 0%nat 0%nat = u0 -> U 0%nat 1%nat = u1 -> U 1%nat 1%nat = u2 ->
  0 < u0 -> 0 < u2 ->
  w1 = (if Rleb (Rabs ((-1 - u1 / u0) / u2)) (Rabs ((1 - u1 / u0) / u2))
        then (1 - u1 / u0) / u2 else (-1 - u1 / u0) / u2) ->
  let v1 := w1 / u2 in let v0 := (/ u0 - u1 * v1) / u0 in
  fst (estimate_smallest_singular_value 2 U) * fst (estimate_smallest_singular_value 2 U)
  = (/ u0 * / u0 + w1 * w1) / (v0 * v0 + v1 * v1).
Proof.
  intros E0 E1 E2 P0 P2 W v1 v0.
  assert (I0 : 0 < / u0) by now apply Rinv_0_lt_compat.
  assert (I2 : 0 < / u2) by now apply Rinv_0_lt_compat.
  unfold estimate_smallest_singular_value. cbn [fst].
  set (w := fst (estimate_condition 2 2 U)).
  assert (Hw : w 0%nat = / u0 /\ w 1%nat = w1).
  { assert (St : exists w' p', estimate_condition 1 2 U = (w', p') /\ w' 0%nat = / u0 /\ p' 1%nat = u1 / u0).
    { clear W. cbn [estimate_condition Nat.sub bsum Nat.ltb Nat.leb Nat.add]. cbv zeta. unfold fzero. rewrite E0, E1.
      destruct (Rleb _ _) eqn:B.
      - eexists _, _. split; [reflexivity|]. unfold upd. cbn [Nat.eqb]. split; cbv beta iota; rewrite ?E1; unfold Rdiv; ring.
      - apply Rleb_false in B. exfalso. apply (Rlt_not_le _ _ B). right.
        rewrite <- (Rabs_Ropp ((-1 - 0) / u0)), <- (Rabs_Ropp (0 + u1 * ((-1 - 0) / u0))).
        f_equal; [f_equal; unfold Rdiv; ring|]. f_equal. f_equal. unfold Rdiv. ring. }
    destruct St as (w' & p' & St & Sw & Sp). unfold w.
    change (estimate_condition 2 2 U) with
      (let (w, p) := estimate_condition 1 2 U in
       let wp := (1 - p 1%nat) / U 1%nat 1%nat in
       let wm := (-1 - p 1%nat) / U 1%nat 1%nat in
       let pp := fun j => if Nat.ltb 1 j then p j + U 1%nat j * wp else p j in
       let pm := fun j => if Nat.ltb 1 j then p j + U 1%nat j * wm else p j in
       let tail (f : fvec) := bsum (2 - 2) (fun j => Rabs (f (2 + j)%nat)) in
       if Rleb (Rabs wm + tail pm) (Rabs wp + tail pp) then (upd w 1 wp, pp) else (upd w 1 wm, pm)).
    rewrite St. cbv zeta. rewrite Sp, E2. cbn [Nat.sub bsum]. rewrite !Rplus_0_r. rewrite W.
    destruct (Rleb (Rabs ((-1 - u1 / u0) / u2)) (Rabs ((1 - u1 / u0) / u2))); cbn [fst];
      unfold upd; cbn [Nat.eqb]; easy. }
  destruct Hw as (W0 & W1).
  set (v := bwd 2 2 U w).
  assert (Hv : v 0%nat = v0 /\ v 1%nat = v1).
  { unfold v. cbn [bwd Nat.sub bsum Nat.add]. unfold upd. cbn [Nat.eqb]. rewrite E0, E1, E2, W0, W1.
    unfold v0, v1. split; unfold Rdiv; ring. }
  destruct Hv as (V0 & V1).
  assert (Pv : 0 < v0 * v0 + v1 * v1).
  { assert (0 <> v1 \/ v1 = 0) as [Nz|Z] by (destruct (Req_dec v1 0); auto; left; lra); [nra|].
    assert (v0 = / u0 * / u0) by (unfold v0; rewrite Z; unfold Rdiv; ring). rewrite H, Z.
    assert (0 < / u0 * / u0) by nra. nra. }
  assert (Nv : 0 < fnorm 2 v).
  { apply fnorm_pos. rewrite fsq_2, V0, V1. easy. }
  replace (fnorm 2 w / fnorm 2 v * (fnorm 2 w / fnorm 2 v)) with (fsq 2 w / fsq 2 v).
  - rewrite !fsq_2, W0, W1, V0, V1. easy.
  - rewrite <- !fnorm_sqr. field. lra.
Qed.

(** * C113: the bracket contains the optimal damping factor *)

Lemma fro_op n H x : fsq n (fmv n H x) <= bsum n (fun i => bsum n (fun j => H i j * H i j)) * fsq n x.
Proof.
  unfold fsq at 1, fdot. rewrite <- bsum_scal_r. apply bsum_le. intros i Hi.
  exact (cauchy_schwarz_f_sq n (H i) x).
Qed.
Lemma fro_form n H x : Rabs (fdot n x (fmv n H x)) <= fro_norm n H * fsq n x.
Proof.
  eapply Rle_trans; [apply cauchy_schwarz_f|].
  assert (A : fnorm n (fmv n H x) <= fro_norm n H * fnorm n x).
  { unfold fnorm at 1. unfold fro_norm, fnorm. rewrite <- sqrt_mult_alt.
    - apply sqrt_le_1_alt, fro_op.
    - apply bsum_nonneg. intros. apply bsum_nonneg. intros. nra. }
  rewrite <- fnorm_sqr. pose proof (fnorm_nonneg n x). nra.
Qed.
Lemma inf_form n H x : (0 < n)%nat -> fsymm n H -> Rabs (fdot n x (fmv n H x)) <= inf_norm n H * fsq n x.
Proof.
  intros Ln S. destruct (gersh_weighted n H x S) as (A & B).
  assert (C : bsum n (fun i => row_sum n H i * (x i * x i)) <= inf_norm n H * fsq n x).
  { unfold fsq, fdot. rewrite <- bsum_scal. apply bsum_le. intros i Hi. apply Rmult_le_compat_r; [nra|].
    exact (vmax_ge n (row_sum n H) i Hi). }
  apply Rabs_le. split.
  - eapply Rle_trans; [|exact A]. rewrite <- (Ropp_involutive (bsum _ _)). apply Ropp_le_contravar.
    eapply Rle_trans; [|exact C]. rewrite <- bsum_opp. apply bsum_le. intros i Hi.
    pose proof (Rle_abs (- H i i)). rewrite Rabs_Ropp in *. nra.
  - eapply Rle_trans; [exact B|]. eapply Rle_trans; [|exact C]. apply bsum_le. intros i Hi.
    pose proof (Rle_abs (H i i)). nra.
Qed.

Lemma form_upper n H x : (0 < n)%nat -> fsymm n H ->
  fdot n x (fmv n H x) <= Rmin (Rmin (snd (gershgorin n H)) (fro_norm n H)) (inf_norm n H) * fsq n x.
Proof.
  intros Ln S. pose proof (C68_gershgorin_bounds n H x S) as G.
  destruct (gershgorin n H) as (gl, gu). cbn [snd]. rewrite <- fdot_fmv in G.
  pose proof (Rabs_inv _ _ (fro_form n H x)). pose proof (Rabs_inv _ _ (inf_form n H x Ln S)).
  unfold Rmin. destruct (Rle_dec gu _); destruct (Rle_dec _ _); lra.
Qed.
Lemma form_lower n H x : (0 < n)%nat -> fsymm n H ->
  - (Rmin (Rmin (- fst (gershgorin n H)) (fro_norm n H)) (inf_norm n H) * fsq n x) <= fdot n x (fmv n H x).
Proof.
  intros Ln S. pose proof (C68_gershgorin_bounds n H x S) as G.
  destruct (gershgorin n H) as (gl, gu). cbn [fst]. rewrite <- fdot_fmv in G.
  pose proof (Rabs_inv _ _ (fro_form n H x)). pose proof (Rabs_inv _ _ (inf_form n H x Ln S)).
  unfold Rmin. destruct (Rle_dec (- gl) _); destruct (Rle_dec _ _); lra.
Qed.

Lemma discr a b c : 0 <= a -> (forall t, 0 <= a * (t * t) + 2 * b * t + c) -> b * b <= a * c.
Proof.
  intros A Q. destruct (Req_dec a 0) as [->|N].
  - destruct (Req_dec b 0) as [->|Nb]; [lra|]. exfalso.
    specialize (Q (- (c + 1) / (2 * b))).
    replace (0 * (- (c + 1) / (2 * b) * (- (c + 1) / (2 * b))) + 2 * b * (- (c + 1) / (2 * b)) + c) with (-1) in Q
      by (field; easy). lra.
  - specialize (Q (- b / a)).
    replace (a * (- b / a * (- b / a)) + 2 * b * (- b / a) + c) with ((a * c - b * b) / a) in Q by (field; easy).
    apply (Rmult_le_compat_r a) in Q; [|easy].
    replace ((a * c - b * b) / a * a) with (a * c - b * b) in Q by (field; easy). lra.
Qed.

Lemma psd_cauchy n M x y : fsymm n M -> possemidef n M ->
  fdot n y (fmv n M x) * fdot n y (fmv n M x) <= fdot n y (fmv n M y) * fdot n x (fmv n M x).
Proof.
  intros S P. apply discr; [apply P|]. intros t. specialize (P (fadd x (fscale t y))).
  rewrite fdot_fmv_add_r, fdot_fmv_scale_r, (fdot_add_l n x (fscale t y) (fmv n M x)),
    (fdot_add_l n x (fscale t y) (fmv n M y)), !fdot_scale_l in P.
  rewrite (fdot_symm n x M y) in P by easy. lra.
Qed.

Lemma psd_op n M mu x : fsymm n M -> possemidef n M -> 0 <= mu ->
  (forall y, fdot n y (fmv n M y) <= mu * fsq n y) -> fnorm n (fmv n M x) <= mu * fnorm n x.
Proof.
  intros S P Mu B. pose proof (psd_cauchy n M x (fmv n M x) S P) as C.
  fold (fsq n (fmv n M x)) in C. set (q := fsq n (fmv n M x)) in *.
  pose proof (B (fmv n M x)) as B1. fold q in B1. pose proof (B x) as B2. pose proof (P x) as P1.
  pose proof (P (fmv n M x)) as P2.
  assert (Q0 : 0 <= q) by apply fsq_nonneg. pose proof (fsq_nonneg n x) as X0.
  assert (Q2 : q <= mu * mu * fsq n x).
  { destruct (Req_dec q 0) as [->|Nq]; [nra|].
    apply (Rmult_le_reg_l q); [lra|]. eapply Rle_trans; [exact C|].
    eapply Rle_trans; [apply Rmult_le_compat; [easy|easy|exact B1|exact B2]|]. right. ring. }
  unfold fnorm. fold q. rewrite <- (sqrt_square mu) by easy. rewrite <- sqrt_mult_alt by nra.
  now apply sqrt_le_1_alt.
Qed.

Definition unitv (k : nat) : fvec := fun i => if Nat.eqb i k then 1 else 0.
Lemma form_unit n H k : (k < n)%nat -> fdot n (unitv k) (fmv n H (unitv k)) = H k k.
Proof.
  intros L. unfold fdot. rewrite (bsum_ext n _ (fun i => if Nat.eqb i k then fmv n H (unitv k) k else 0)).
  - rewrite bsum_single by easy. unfold fmv, unitv.
    rewrite (bsum_ext n _ (fun j => if Nat.eqb j k then H k k else 0)); [now apply bsum_single|].
    intros j Hj. destruct (Nat.eqb_spec j k) as [->|]; ring.
  - intros i Hi. unfold unitv at 1. destruct (Nat.eqb_spec i k) as [->|]; ring.
Qed.
Lemma fsq_unit n k : (k < n)%nat -> fsq n (unitv k) = 1.
Proof.
  intros L. unfold fsq, fdot. rewrite (bsum_ext n _ (fun i => if Nat.eqb i k then 1 else 0)).
  - now apply bsum_single.
  - intros i Hi. unfold unitv. destruct (Nat.eqb_spec i k); ring.
Qed.

(** C113 - the initial bracket contains the damping factor of every solution. *)
Theorem C113_initial_bracket :
  forall n g H x lam, (0 < n)%nat -> fsymm n H -> optimal_pair n g H x lam ->
    let L := initial_lambdas n g H in l_lo L <= lam <= l_hi L.
Proof.
  intros n g H x lam Ln S (L0 & P & E & Nx & C). unfold initial_lambdas.
  pose proof (form_upper n H) as FU. pose proof (form_lower n H) as FL.
  destruct (gershgorin n H) as (gl, gu). cbn [fst snd] in FU, FL. cbv zeta. cbn [l_lo l_hi].
  set (mu := Rmin (Rmin gu (fro_norm n H)) (inf_norm n H)) in *.
  set (nu := Rmin (Rmin (- gl) (fro_norm n H)) (inf_norm n H)) in *.
  assert (D : forall i, (i < n)%nat -> - H i i <= lam).
  { intros i Hi. specialize (P (unitv i)). rewrite form_add_diag, form_unit in P by easy.
    fold (fsq n (unitv i)) in P. rewrite fsq_unit in P by easy. lra. }
  assert (Eg : feq n (fmv n (add_diag H lam) x) (fopp g)).
  { intros i Hi. rewrite fmv_add_diag by easy. unfold fopp. rewrite <- E by easy. easy. }
  assert (Sl := add_diag_symm n H lam S).
  split.
  - apply Rmax_lub; [apply Rmax_lub; [easy|]|].
    + destruct (vmin_attained n (fun i => H i i) Ln) as (i & Hi & Ei). cbv beta in Ei. rewrite Ei. now apply D.
    + assert (M0 : 0 <= mu + lam).
      { specialize (P (unitv 0)). rewrite form_add_diag in P. specialize (FU (unitv 0) Ln S).
        fold (fsq n (unitv 0)) in P. rewrite fsq_unit in P, FU by easy. lra. }
      assert (A : fnorm n (fmv n (add_diag H lam) x) <= (mu + lam) * fnorm n x).
      { apply psd_op; try easy. intros y. rewrite form_add_diag. specialize (FU y Ln S).
        fold (fsq n y). lra. }
      replace (fnorm n (fmv n (add_diag H lam) x)) with (fnorm n g) in A.
      * pose proof (fnorm_nonneg n x). nra.
      * transitivity (fnorm n (fopp g)); [|symmetry; now apply fnorm_ext].
        unfold fnorm, fsq. rewrite fdot_opp_l, fdot_opp_r. f_equal. lra.
  - destruct (Req_dec lam 0) as [->|Nz]; [apply Rmax_l|].
    assert (N1 : fnorm n x = 1) by (apply Rmult_integral in C as [?|?]; lra).
    eapply Rle_trans; [|apply Rmax_r].
    assert (S1 : fsq n x = 1) by (rewrite <- fnorm_sqr, N1; lra).
    assert (Q : fdot n x (fmv n H x) + lam = - fdot n g x).
    { transitivity (fdot n x (fmv n (add_diag H lam) x)).
      - rewrite form_add_diag. fold (fsq n x). rewrite S1. lra.
      - rewrite (fdot_ext n x x _ (fopp g)) by easy. rewrite fdot_opp_r. now rewrite fdot_comm. }
    specialize (FL x Ln S). rewrite S1 in FL.
    pose proof (cauchy_schwarz_f n g x) as CS. rewrite N1 in CS. apply Rabs_inv in CS. lra.
Qed.

Example ex_C113 : let L := initial_lambdas 2 (vec2 (-2) 0) (diag2 1 3) in l_lo L <= 1 <= l_hi L.
Proof. apply (C113_initial_bracket 2 _ _ (vec2 1 0) 1); [lia|apply diag2_symm|apply ex_C70]. Qed.

(** ** C112: a failing factorization *)

(** C112 - if the factorization of H + lambda I fails, the computed [delta] and [v] satisfy
    v' (B + delta e_k e_k') v = 0 and the new lower bound is valid: no smaller damping factor makes
    the Hessian positive semidefinite. *)
Theorem C112_unsuccessful_lower_bound :
  forall n H lam U k, fsymm n H -> chol n (add_diag H lam) = (U, S k) ->
    let (delta, v) := singular_terms n (add_diag H lam) U (S k) in
    bsum n (fun i => bsum n (fun j => v i * (add_diag H lam i j + (if Nat.eqb i k && Nat.eqb j k then delta else 0)) * v j)) = 0 /\
    0 <= delta /\ 0 < fnorm n v /\
    forall mu, possemidef n (add_diag H mu) -> lam + delta / (fnorm n v * fnorm n v) <= mu.
Proof.
  intros n H lam U k S E. pose proof (singular_terms_form n _ U k (add_diag_symm n H lam S) E) as Q.
  destruct (singular_terms n (add_diag H lam) U (Datatypes.S k)) as (delta, v).
  destruct Q as (D & F & V & V1 & L). split; [|split; [easy|split]].
  - rewrite fdot_fmv in F.
    rewrite (bsum_ext n _ (fun i => bsum n (fun j => v i * add_diag H lam i j * v j)
                                   + (if Nat.eqb i k then delta else 0))).
    + rewrite bsum_plus, F, bsum_single by easy. lra.
    + intros i Hi. destruct (Nat.eqb_spec i k) as [->|].
      * transitivity (bsum n (fun j => v k * add_diag H lam k j * v j + (if Nat.eqb j k then delta else 0))).
        -- apply bsum_ext. intros j Hj. cbn [andb]. destruct (Nat.eqb_spec j k) as [->|]; [rewrite V1|]; ring.
        -- now rewrite bsum_plus, bsum_single.
      * rewrite Rplus_0_r. apply bsum_ext. intros j Hj. cbn [andb]. ring.
  - apply fnorm_pos. lra.
  - intros mu P. specialize (P v). rewrite form_add_diag in P, F. rewrite fnorm_sqr. fold (fsq n v) in P, F.
    apply (Rmult_le_reg_r (fsq n v)); [lra|].
    replace ((lam + delta / fsq n v) * fsq n v) with (lam * fsq n v + delta) by (field; lra). lra.
Qed.

(** Factorizing H110 itself fails at its second pivot. *)
Example ex_C112 : exists U, chol 2 (add_diag H110 0) = (U, 2%nat).
Proof.
  destruct (chol 2 (add_diag H110 0)) as (U, info) eqn:E.
  assert (S : fsymm 2 (add_diag H110 0)).
  { apply add_diag_symm. intros [|[|i]] [|[|j]] Hi Hj; easy || lia. }
  destruct info as [|[|[|k]]].
  - exfalso. assert (P : posdef 2 (add_diag H110 0)) by (apply (factor_posdef _ _ U); now apply chol_ok).
    specialize (P (vec2 0 1)). rewrite form_add_diag in P. unfold fdot, fmv in P. cbn [bsum vec2 H110] in P.
    assert (Q : exists i, (i < 2)%nat /\ vec2 0 1 i <> 0) by (exists 1%nat; split; [lia|cbn [vec2]; lra]).
    specialize (P Q). lra.
  - exfalso. apply chol_fail in E as (_ & U0 & E0 & _ & _ & D). unfold add_diag in D. cbn [bsum H110 Nat.eqb] in D. lra.
  - now exists U.
  - exfalso. apply chol_fail in E as (L & _). lia.
Qed.

(** C112 - what a pass whose factorization fails does: never an error, the failed candidate becomes a
    lower bound of the bracket or more than that, the upper bound and the iterate stay. *)
Theorem C112_failed_pass :
  forall tie n g H o s U k, fsymm n H -> q_fact s = false -> chol n (add_diag H (l_cand (q_lam s))) = (U, S k) ->
    exists s' delta v, gq_pass tie n g H o s = Ok s' /\
      0 <= delta /\ v k = 1 /\ fdot n v (fmv n (add_diag H (l_cand (q_lam s))) v) = - delta /\
      l_lo (q_lam s') = Rmax (l_lo (q_lam s)) (l_cand (q_lam s) + delta / bsum n (fun i => v i * v i)) /\
      l_cand (q_lam s) <= l_lo (q_lam s') /\ l_hi (q_lam s') = l_hi (q_lam s) /\
      (0 <= l_lo (q_lam s) -> l_lo (q_lam s') <= l_hi (q_lam s) ->
         l_lo (q_lam s') <= l_cand (q_lam s') <= l_hi (q_lam s')) /\
      q_x s' = q_x s /\ q_conv s' = q_conv s.
Proof.
  intros tie n g H o s U k Sy Fa E. unfold gq_pass, factorize. rewrite Fa, E. cbn [q_info].
  unfold update_unsuccessful. cbn [q_hpl q_u q_info q_lam q_x q_conv q_fact].
  pose proof (singular_terms_form n _ U k (add_diag_symm n H _ Sy) E) as Q.
  destruct (singular_terms n (add_diag H (l_cand (q_lam s))) U (S k)) as (delta, v). destruct Q as (D & F & V & V1 & L).
  assert (NV : fnorm n v * fnorm n v = bsum n (fun i => v i * v i)).
  { rewrite fnorm_sqr. reflexivity. }
  rewrite NV. assert (P : 0 < bsum n (fun i => v i * v i)) by (change (0 < fsq n v); lra).
  unfold div. destruct (Reqb_spec (bsum n (fun i => v i * v i)) 0) as [Z|_]; [lra|]. cbn [bind].
  assert (Pd : 0 <= delta / bsum n (fun i => v i * v i)).
  { apply Rmult_le_pos; [easy|]. left. now apply Rinv_0_lt_compat. }
  set (q := delta / bsum n (fun i => v i * v i)) in *.
  eexists _, delta, v. split; [reflexivity|]. cbn [q_lam l_lo l_hi l_cand q_x q_conv].
  split; [easy|]. split; [easy|]. split; [easy|]. split; [easy|]. split.
  { apply Rle_trans with (l_cand (q_lam s) + q); [lra|apply Rmax_r]. }
  split; [easy|]. split; [|easy].
  intros L0 L1. apply C67_candidate_in_bracket; [|easy]. apply Rle_trans with (l_lo (q_lam s)); [easy|apply Rmax_l].
Qed.

(** ** The passes *)

Lemma optimal_below n g H xs ls lam x : fsymm n H -> optimal_pair n g H xs ls -> 0 <= lam ->
  possemidef n (add_diag H lam) -> feq n (fmv n (add_diag H lam) x) (fopp g) -> fnorm n x < 1 -> ls <= lam.
Proof.
  intros S (L0 & P & E & Nx & C) Lm PM Hx Nlt. destruct (Rle_lt_dec ls lam) as [?|G]; [easy|]. exfalso.
  assert (N1 : fnorm n xs = 1) by (apply Rmult_integral in C as [?|?]; lra).
  assert (S1 : fsq n xs = 1) by (rewrite <- fnorm_sqr, N1; lra).
  pose proof (PM (fsub x xs)) as Q.
  assert (A : feq n (fmv n (add_diag H lam) (fsub x xs)) (fscale (ls - lam) xs)).
  { intros i Hi. pose proof (Hx i Hi) as H1. rewrite fmv_add_diag in H1 by easy.
    rewrite fmv_add_diag by easy. specialize (E i Hi). unfold fopp in H1. unfold fscale, fsub.
    replace (fmv n H (fun i0 => x i0 - xs i0) i) with (fmv n H x i - fmv n H xs i).
    - unfold fmv in *. lra.
    - unfold fmv. rewrite <- bsum_minus. apply bsum_ext. intros; ring. }
  rewrite (fdot_ext n _ (fsub x xs) _ (fscale (ls - lam) xs)) in Q by easy.
  rewrite fdot_scale_r, fdot_sub_l in Q. fold (fsq n xs) in Q. rewrite S1 in Q.
  pose proof (cauchy_schwarz_f n x xs) as CS. rewrite N1 in CS. apply Rabs_inv in CS. nra.
Qed.

Lemma optimal_above n g H xs ls lam x : fsymm n H -> optimal_pair n g H xs ls ->
  feq n (fmv n (add_diag H lam) x) (fopp g) -> 1 <= fnorm n x -> lam <= ls.
Proof.
  intros S (L0 & P & E & Nx & C) Hx Nge. destruct (Rle_lt_dec lam ls) as [?|G]; [easy|]. exfalso.
  pose proof (P (fsub xs x)) as Q.
  assert (A : feq n (fmv n (add_diag H ls) (fsub xs x)) (fscale (lam - ls) x)).
  { intros i Hi. pose proof (Hx i Hi) as H1. rewrite fmv_add_diag in H1 by easy.
    rewrite fmv_add_diag by easy. specialize (E i Hi). unfold fopp in H1. unfold fscale, fsub.
    replace (fmv n H (fun i0 => xs i0 - x i0) i) with (fmv n H xs i - fmv n H x i).
    - unfold fmv in *. lra.
    - unfold fmv. rewrite <- bsum_minus. apply bsum_ext. intros; ring. }
  rewrite (fdot_ext n _ (fsub xs x) _ (fscale (lam - ls) x)) in Q by easy.
  rewrite fdot_scale_r, fdot_sub_l in Q. fold (fsq n x) in Q.
  pose proof (cauchy_schwarz_f n xs x) as CS. apply Rabs_inv in CS.
  pose proof (fnorm_sqr n x) as Ex. pose proof (fnorm_sqr n xs) as Exs. pose proof (fnorm_nonneg n xs) as Ns.
  assert (B1 : fsq n x <= fdot n xs x) by nra.
  assert (B2 : fnorm n x <= 1).
  { assert (fnorm n x * fnorm n x <= fnorm n xs * fnorm n x) by lra. nra. }
  assert (B3 : fnorm n x = 1) by lra. rewrite B3 in *.
  assert (B4 : fsq n (fsub xs x) <= 0).
  { unfold fsq. rewrite fdot_sub_l, !fdot_sub_r. rewrite (fdot_comm n x xs). fold (fsq n x) (fsq n xs).
    assert (fsq n xs <= 1) by nra. lra. }
  assert (B5 : fsq n (fsub xs x) = 0) by (pose proof (fsq_nonneg n (fsub xs x)); lra).
  assert (B6 : fsq n x = 0).
  { apply bsum_all_zero. intros i Hi. specialize (A i Hi).
    assert (fmv n (add_diag H ls) (fsub xs x) i = 0).
    { apply bsum_all_zero. intros j Hj. rewrite (fsq_zero n _ B5) by easy. lra. }
    rewrite H0 in A. unfold fscale in A. assert (x i = 0) by nra. rewrite H1. lra. }
  lra.
Qed.

Lemma posdef_semi n M : posdef n M -> possemidef n M.
Proof.
  intros PD y. destruct (Rle_lt_or_eq_dec 0 (fsq n y) (fsq_nonneg _ _)) as [?|Zy].
  - apply Rlt_le, posdef_form_pos; easy.
  - right. symmetry. apply bsum_all_zero. intros i Hi. rewrite (fsq_zero n y) by easy. lra.
Qed.

(** C113 - a pass that factorizes the Hessian of its own damping candidate keeps the damping
    factor of every solution in the bracket (non-zero gradient, candidate >= 0). *)
Theorem C113_fresh_pass_partial :
  forall tie n g H o s s' x lam, (0 < n)%nat -> fsymm n H ->
    zero_threshold n H < fnorm n g -> q_fact s = false -> 0 <= l_cand (q_lam s) ->
    optimal_pair n g H x lam ->
    l_lo (q_lam s) <= lam <= l_hi (q_lam s) ->
    gq_pass tie n g H o s = Ok s' ->
    l_lo (q_lam s') <= lam <= l_hi (q_lam s').
Proof.
  intros tie n g H o s s' xs ls Ln S G F Lc OP (B1 & B2) E.
  pose proof (zero_threshold_nonneg n H Ln) as Z.
  rewrite pass_fresh in E by easy. cbv zeta in E. set (lam := l_cand (q_lam s)) in *.
  pose proof (add_diag_symm n H lam S) as Sl.
  destruct (chol n (add_diag H lam)) as (U, info) eqn:EC. destruct info as [|k].
  - destruct (Rltb _ _) eqn:B; [|apply Rltb_false in B; lra].
    assert (PD : posdef n (add_diag H lam)) by (apply (factor_posdef _ _ U); now apply chol_ok).
    pose proof (posdef_semi _ _ PD) as PS.
    eapply (find_new_cases tie n g H o _ s' (add_diag H lam)) in E; try easy; [|lra].
    destruct E as (x & newton & Hx & Px & _ & _ & [(N1 & E)|(N1 & _ & _ & _ & _ & _ & El & _)]).
    + match type of E with update_within _ _ _ _ ?s0 _ _ _ = _ =>
        assert (EC' : chol n (add_diag H lam) = (q_u s0, O)) by easy end.
      destruct (update_within_cases _ _ _ _ _ _ _ _ _ _ Ln Sl EC' N1 E)
        as (t & z & sm & _ & Z1 & Z2 & _ & _ & _ & Q). cbv zeta in Q. cbn [q_lam] in Q. fold lam in Q.
      destruct Q as (_ & _ & _ & _ & _ & Q1 & Q2).
      assert (Lo : Rmax (l_lo (q_lam s)) (lam - sm * sm) <= ls).
      { apply Rmax_lub; [easy|]. destruct OP as (_ & P & _). specialize (P z).
        rewrite form_add_diag in P, Z2. fold (fsq n z) in P, Z2. rewrite Z1 in P, Z2. lra. }
      split.
      * destruct Q2 as [(_ & _ & _ & ->)|(Nf & _ & -> & _)]; [easy|]. apply Rmax_lub; [easy|].
        destruct (Rle_lt_dec newton ls) as [?|Lt]; [easy|]. exfalso. apply Nf.
        apply chol_posdef; [now apply add_diag_symm|]. intros y Hy. rewrite form_add_diag.
        destruct OP as (_ & P & _). specialize (P y). rewrite form_add_diag in P. fold (fsq n y) in P |- *.
        destruct Hy as (i & Hi & Ny). pose proof (fsq_pos n y i Hi Ny). nra.
      * rewrite Q1. cbn [q_lam]. now apply (optimal_below n g H xs ls lam x).
    + rewrite El. cbn [q_lam l_lo l_hi]. fold lam. split; [|easy]. now apply (optimal_above n g H xs ls lam x).
  - pose proof (C112_unsuccessful_lower_bound n H lam U k S EC) as Q. unfold update_unsuccessful in E.
    cbn [q_hpl q_u q_info q_lam] in E.
    destruct (singular_terms n (add_diag H lam) U (Datatypes.S k)) as (delta, v).
    destruct Q as (_ & _ & Nv & Q). unfold div in E.
    destruct (Reqb _ 0) eqn:Z0; [apply Reqb_true in Z0; nra|]. cbn [bind] in E. injection E as <-.
    cbn [q_lam l_lo l_hi]. split; [|easy]. apply Rmax_lub; [easy|]. fold lam. apply Q. apply OP.
Qed.
