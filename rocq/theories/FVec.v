(** Vectors and matrices as functions of their indices, with explicit dimensions, and finite
    sums.  A numpy array of shape (n,) is represented by a function of which only the
    entries with index < n are meaningful; shape errors do not exist in this
    representation. *)
From Coq Require Import Reals List Arith Lia Lra Psatz.
Import ListNotations.
Open Scope R_scope.

Notation fvec := (nat -> R) (only parsing).
Notation fmat := (nat -> nat -> R) (only parsing).

(** Sum of the first [n] values. *)
Fixpoint bsum (n : nat) (f : nat -> R) : R :=
  match n with O => 0 | S k => bsum k f + f k end.

Definition fdot (n : nat) (x y : fvec) : R := bsum n (fun i => x i * y i).
Definition fsq (n : nat) (x : fvec) : R := fdot n x x.
Definition fnorm (n : nat) (x : fvec) : R := sqrt (fsq n x).
Definition fadd (x y : fvec) : fvec := fun i => x i + y i.
Definition fsub (x y : fvec) : fvec := fun i => x i - y i.
Definition fscale (a : R) (x : fvec) : fvec := fun i => a * x i.
Definition fopp (x : fvec) : fvec := fun i => - x i.
Definition fzero : fvec := fun _ => 0.
(** Matrix times vector and vector times matrix. *)
Definition fmv (n : nat) (H : fmat) (x : fvec) : fvec := fun i => bsum n (fun j => H i j * x j).
Definition fvm (n : nat) (x : fvec) (H : fmat) : fvec := fun j => bsum n (fun i => x i * H i j).
Definition fsymm (n : nat) (H : fmat) : Prop :=
  forall i j, (i < n)%nat -> (j < n)%nat -> H i j = H j i.
(** Equality of the meaningful entries. *)
Definition feq (n : nat) (x y : fvec) : Prop := forall i, (i < n)%nat -> x i = y i.

Lemma bsum_ext n f g : (forall i, (i < n)%nat -> f i = g i) -> bsum n f = bsum n g.
Proof.
  intros H. induction n as [|n IH]; simpl; auto.
  rewrite IH by (intros; apply H; lia). rewrite H by lia. easy.
Qed.

Lemma bsum_plus n f g : bsum n (fun i => f i + g i) = bsum n f + bsum n g.
Proof. induction n as [|n IH]; simpl; [lra|]. rewrite IH. lra. Qed.
Lemma bsum_minus n f g : bsum n (fun i => f i - g i) = bsum n f - bsum n g.
Proof. induction n as [|n IH]; simpl; [lra|]. rewrite IH. lra. Qed.
Lemma bsum_scal n a f : bsum n (fun i => a * f i) = a * bsum n f.
Proof. induction n as [|n IH]; simpl; [lra|]. rewrite IH. lra. Qed.
Lemma bsum_scal_r n a f : bsum n (fun i => f i * a) = bsum n f * a.
Proof. induction n as [|n IH]; simpl; [lra|]. rewrite IH. lra. Qed.
Lemma bsum_opp n f : bsum n (fun i => - f i) = - bsum n f.
Proof. induction n as [|n IH]; simpl; [lra|]. rewrite IH. lra. Qed.
Lemma bsum_zero n : bsum n (fun _ => 0) = 0.
Proof. induction n as [|n IH]; simpl; lra. Qed.
Lemma bsum_all_zero n f : (forall i, (i < n)%nat -> f i = 0) -> bsum n f = 0.
Proof. intros H. rewrite (bsum_ext n f (fun _ => 0)); auto. apply bsum_zero. Qed.

Lemma bsum_swap n m (f : nat -> nat -> R) :
  bsum n (fun i => bsum m (fun j => f i j)) = bsum m (fun j => bsum n (fun i => f i j)).
Proof.
  induction n as [|n IH]; simpl.
  - now rewrite bsum_zero.
  - rewrite IH, bsum_plus. easy.
Qed.

Lemma bsum_nonneg n f : (forall i, (i < n)%nat -> 0 <= f i) -> 0 <= bsum n f.
Proof.
  intros H. induction n as [|n IH]; simpl; [lra|].
  specialize (IH ltac:(intros; apply H; lia)). specialize (H n ltac:(lia)). lra.
Qed.
Lemma bsum_le n f g : (forall i, (i < n)%nat -> f i <= g i) -> bsum n f <= bsum n g.
Proof.
  intros H. induction n as [|n IH]; simpl; [lra|].
  specialize (IH ltac:(intros; apply H; lia)). specialize (H n ltac:(lia)). lra.
Qed.
Lemma bsum_nonneg_zero n f : (forall i, (i < n)%nat -> 0 <= f i) -> bsum n f = 0 ->
  forall i, (i < n)%nat -> f i = 0.
Proof.
  intros H E. induction n as [|n IH]; intros i Hi; [lia|]. simpl in E.
  assert (0 <= bsum n f) by (apply bsum_nonneg; intros; apply H; lia).
  pose proof (H n ltac:(lia)).
  destruct (Nat.eq_dec i n) as [->|]; [lra|].
  apply IH; [intros; apply H; lia|lra|lia].
Qed.
Lemma bsum_term_le n f i : (forall j, (j < n)%nat -> 0 <= f j) -> (i < n)%nat -> f i <= bsum n f.
Proof.
  intros H Hi. induction n as [|n IH]; [lia|]. simpl.
  assert (0 <= bsum n f) by (apply bsum_nonneg; intros; apply H; lia).
  pose proof (H n ltac:(lia)).
  destruct (Nat.eq_dec i n) as [->|]; [lra|].
  specialize (IH ltac:(intros; apply H; lia) ltac:(lia)). lra.
Qed.
Lemma bsum_abs n f : Rabs (bsum n f) <= bsum n (fun i => Rabs (f i)).
Proof.
  induction n as [|n IH]; simpl; [rewrite Rabs_R0; lra|].
  eapply Rle_trans; [apply Rabs_triang|]. lra.
Qed.
Lemma bsum_single n k a : (k < n)%nat -> bsum n (fun i => if Nat.eqb i k then a else 0) = a.
Proof.
  intros Hk. induction n as [|n IH]; [lia|]. simpl.
  destruct (Nat.eqb_spec n k) as [->|].
  - rewrite bsum_all_zero; [lra|]. intros i Hi. destruct (Nat.eqb_spec i k); [lia|easy].
  - rewrite IH by lia. lra.
Qed.
Lemma bsum_shift n f : bsum (S n) f = f 0%nat + bsum n (fun i => f (S i)).
Proof. induction n as [|n IH]; simpl in *; [lra|]. rewrite IH. lra. Qed.
Lemma bsum_app n m f : bsum (n + m) f = bsum n f + bsum m (fun i => f (n + i)%nat).
Proof.
  induction m as [|m IH]; simpl.
  - rewrite Nat.add_0_r. lra.
  - rewrite Nat.add_succ_r. simpl. rewrite IH. lra.
Qed.

(** * Scalar product *)

Lemma fdot_ext n x x' y y' : feq n x x' -> feq n y y' -> fdot n x y = fdot n x' y'.
Proof. intros H1 H2. apply bsum_ext. intros i Hi. now rewrite H1, H2. Qed.
Lemma fdot_comm n x y : fdot n x y = fdot n y x.
Proof. apply bsum_ext. intros. lra. Qed.
Lemma fdot_add_l n x y z : fdot n (fadd x y) z = fdot n x z + fdot n y z.
Proof. unfold fdot, fadd. rewrite <- bsum_plus. apply bsum_ext. intros. lra. Qed.
Lemma fdot_add_r n x y z : fdot n x (fadd y z) = fdot n x y + fdot n x z.
Proof. unfold fdot, fadd. rewrite <- bsum_plus. apply bsum_ext. intros. lra. Qed.
Lemma fdot_sub_l n x y z : fdot n (fsub x y) z = fdot n x z - fdot n y z.
Proof. unfold fdot, fsub. rewrite <- bsum_minus. apply bsum_ext. intros. lra. Qed.
Lemma fdot_sub_r n x y z : fdot n x (fsub y z) = fdot n x y - fdot n x z.
Proof. unfold fdot, fsub. rewrite <- bsum_minus. apply bsum_ext. intros. lra. Qed.
Lemma fdot_scale_l n a x y : fdot n (fscale a x) y = a * fdot n x y.
Proof. unfold fdot, fscale. rewrite <- bsum_scal. apply bsum_ext. intros. lra. Qed.
Lemma fdot_scale_r n a x y : fdot n x (fscale a y) = a * fdot n x y.
Proof. unfold fdot, fscale. rewrite <- bsum_scal. apply bsum_ext. intros. lra. Qed.
Lemma fdot_opp_l n x y : fdot n (fopp x) y = - fdot n x y.
Proof. unfold fdot, fopp. rewrite <- bsum_opp. apply bsum_ext. intros. lra. Qed.
Lemma fdot_opp_r n x y : fdot n x (fopp y) = - fdot n x y.
Proof. unfold fdot, fopp. rewrite <- bsum_opp. apply bsum_ext. intros. lra. Qed.
Lemma fdot_zero_l n x : fdot n fzero x = 0.
Proof. apply bsum_all_zero. intros. unfold fzero. lra. Qed.
Lemma fdot_zero_r n x : fdot n x fzero = 0.
Proof. apply bsum_all_zero. intros. unfold fzero. lra. Qed.

Lemma fsq_nonneg n x : 0 <= fsq n x.
Proof. apply bsum_nonneg. intros. nra. Qed.
Lemma fsq_zero n x : fsq n x = 0 -> forall i, (i < n)%nat -> x i = 0.
Proof.
  intros H i Hi.
  assert (x i * x i = 0) by (apply (bsum_nonneg_zero n (fun i => x i * x i)); auto; intros; nra).
  nra.
Qed.
Lemma fnorm_nonneg n x : 0 <= fnorm n x.
Proof. apply sqrt_pos. Qed.
Lemma fnorm_sqr n x : fnorm n x * fnorm n x = fsq n x.
Proof. apply sqrt_sqrt, fsq_nonneg. Qed.
Lemma fnorm_le_iff n x r : 0 <= r -> (fnorm n x <= r <-> fsq n x <= r * r).
Proof.
  intros Hr. pose proof (fnorm_nonneg n x). rewrite <- fnorm_sqr. split; intros; nra.
Qed.
Lemma fnorm_zero n : fnorm n fzero = 0.
Proof. unfold fnorm, fsq. rewrite fdot_zero_l. apply sqrt_0. Qed.
Lemma fsq_scale n a x : fsq n (fscale a x) = a * a * fsq n x.
Proof. unfold fsq. rewrite fdot_scale_l, fdot_scale_r. lra. Qed.
Lemma fnorm_scale n a x : fnorm n (fscale a x) = Rabs a * fnorm n x.
Proof.
  unfold fnorm. rewrite fsq_scale, sqrt_mult_alt by nra.
  f_equal. replace (a * a) with (Rsqr a) by easy. apply sqrt_Rsqr_abs.
Qed.
Lemma fsq_ext n x y : feq n x y -> fsq n x = fsq n y.
Proof. intros H. now apply fdot_ext. Qed.
Lemma fnorm_ext n x y : feq n x y -> fnorm n x = fnorm n y.
Proof. intros H. unfold fnorm. now rewrite (fsq_ext n x y). Qed.
Lemma fsq_pos n x i : (i < n)%nat -> x i <> 0 -> 0 < fsq n x.
Proof.
  intros Hi Hx. assert (x i * x i <= fsq n x)
    by (apply (bsum_term_le n (fun i => x i * x i)); auto; intros; nra).
  nra.
Qed.

Lemma cauchy_schwarz_f_sq n x y : fdot n x y * fdot n x y <= fsq n x * fsq n y.
Proof.
  destruct (Req_dec (fsq n y) 0) as [Z|NZ].
  - assert (fdot n x y = 0).
    { apply bsum_all_zero. intros i Hi. rewrite (fsq_zero n y Z i Hi). lra. }
    rewrite H. pose proof (fsq_nonneg n x). nra.
  - pose proof (fsq_nonneg n y).
    pose proof (fsq_nonneg n (fsub (fscale (fsq n y) x) (fscale (fdot n x y) y))) as P.
    unfold fsq in P at 1. rewrite fdot_sub_l, !fdot_sub_r, !fdot_scale_l, !fdot_scale_r in P.
    rewrite (fdot_comm n y x) in P. fold (fsq n x) (fsq n y) in P.
    set (a := fsq n x) in *. set (b := fsq n y) in *. set (c := fdot n x y) in *.
    assert (0 <= b * (a * b - c * c)) by nra.
    assert (0 <= a * b - c * c); [|lra].
    apply Rmult_le_reg_l with b; [lra|]. lra.
Qed.
Lemma cauchy_schwarz_f n x y : Rabs (fdot n x y) <= fnorm n x * fnorm n y.
Proof.
  apply Rsqr_incr_0_var.
  - rewrite <- Rsqr_abs. unfold Rsqr. pose proof (cauchy_schwarz_f_sq n x y).
    replace (fnorm n x * fnorm n y * (fnorm n x * fnorm n y))
      with (fsq n x * fsq n y); auto.
    rewrite <- !fnorm_sqr. ring.
  - pose proof (fnorm_nonneg n x). pose proof (fnorm_nonneg n y). nra.
Qed.
Lemma fnorm_triangle n x y : fnorm n (fadd x y) <= fnorm n x + fnorm n y.
Proof.
  pose proof (fnorm_nonneg n x). pose proof (fnorm_nonneg n y).
  apply fnorm_le_iff; [lra|].
  unfold fsq. rewrite fdot_add_l, !fdot_add_r, (fdot_comm n y x).
  fold (fsq n x) (fsq n y). rewrite <- !fnorm_sqr.
  pose proof (cauchy_schwarz_f n x y). pose proof (Rle_abs (fdot n x y)). nra.
Qed.
Lemma fabs_le_norm n x i : (i < n)%nat -> Rabs (x i) <= fnorm n x.
Proof.
  intros Hi. apply Rsqr_incr_0_var; [|apply fnorm_nonneg].
  rewrite <- Rsqr_abs. unfold Rsqr. rewrite fnorm_sqr.
  apply (bsum_term_le n (fun i => x i * x i)); auto. intros. nra.
Qed.

(** * Matrices *)

Lemma fmv_add n H x y i : fmv n H (fadd x y) i = fmv n H x i + fmv n H y i.
Proof. unfold fmv, fadd. rewrite <- bsum_plus. apply bsum_ext. intros. lra. Qed.
Lemma fmv_scale n H a x i : fmv n H (fscale a x) i = a * fmv n H x i.
Proof. unfold fmv, fscale. rewrite <- bsum_scal. apply bsum_ext. intros. lra. Qed.
Lemma fmv_ext n H x y i : feq n x y -> fmv n H x i = fmv n H y i.
Proof. intros E. apply bsum_ext. intros j Hj. now rewrite E. Qed.
Lemma fmv_zero n H i : fmv n H fzero i = 0.
Proof. apply bsum_all_zero. intros. unfold fzero. lra. Qed.

(** x' H y as a double sum. *)
Lemma fdot_fmv n x H y :
  fdot n x (fmv n H y) = bsum n (fun i => bsum n (fun j => x i * H i j * y j)).
Proof.
  unfold fdot, fmv. apply bsum_ext. intros i _. rewrite <- bsum_scal.
  apply bsum_ext. intros. lra.
Qed.
Lemma fdot_fvm n x H y : fdot n (fvm n x H) y = fdot n x (fmv n H y).
Proof.
  rewrite fdot_fmv, bsum_swap. unfold fdot, fvm. apply bsum_ext. intros j _.
  rewrite <- bsum_scal_r. apply bsum_ext. intros. lra.
Qed.
Lemma fdot_symm n x H y : fsymm n H -> fdot n x (fmv n H y) = fdot n y (fmv n H x).
Proof.
  intros S. rewrite !fdot_fmv, bsum_swap. apply bsum_ext. intros i Hi.
  apply bsum_ext. intros j Hj. rewrite (S i j) by easy. lra.
Qed.
Lemma fdot_fmv_add_r n x H y z :
  fdot n x (fmv n H (fadd y z)) = fdot n x (fmv n H y) + fdot n x (fmv n H z).
Proof.
  rewrite <- fdot_add_r. apply fdot_ext; intros i Hi; auto. apply fmv_add.
Qed.
Lemma fdot_fmv_scale_r n x H a y :
  fdot n x (fmv n H (fscale a y)) = a * fdot n x (fmv n H y).
Proof.
  rewrite <- fdot_scale_r. apply fdot_ext; intros i Hi; auto. apply fmv_scale.
Qed.
Lemma fdot_fmv_ext n x x' H y y' : feq n x x' -> feq n y y' ->
  fdot n x (fmv n H y) = fdot n x' (fmv n H y').
Proof. intros E1 E2. apply fdot_ext; auto. intros i Hi. now apply fmv_ext. Qed.
