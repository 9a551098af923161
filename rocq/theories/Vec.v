(** Vectors as lists of reals (numpy 1d arrays).  Binary operations assume equal lengths,
    as numpy does apart from broadcasting. *)
From Coq Require Import Reals List Lra Lia Psatz.
From Verif Require Import Base XR.
Import ListNotations.
Open Scope R_scope.

Notation vec := (list R) (only parsing).

Definition vadd (x y : vec) : vec := map2 Rplus x y.
Definition vsub (x y : vec) : vec := map2 Rminus x y.
Definition vscale (a : R) (x : vec) : vec := map (Rmult a) x.
Definition vneg (x : vec) : vec := map Ropp x.
Definition vsum (x : vec) : R := fold_right Rplus 0 x.
Definition dot (x y : vec) : R := vsum (map2 Rmult x y).
Definition sumsq (x : vec) : R := dot x x.
(** np.linalg.norm *)
Definition norm (x : vec) : R := sqrt (sumsq x).
Definition dist (x y : vec) : R := norm (vsub x y).
Notation mat := (list (list R)) (only parsing).
Definition matvec (H : mat) (x : vec) : vec := map (fun r => dot r x) H.
Definition vzero (n : nat) : vec := repeat 0 n.

Lemma vadd_length x y : length x = length y -> length (vadd x y) = length x.
Proof. intros. unfold vadd. rewrite map2_length. lia. Qed.
Lemma vsub_length x y : length x = length y -> length (vsub x y) = length x.
Proof. intros. unfold vsub. rewrite map2_length. lia. Qed.
Lemma vscale_length a x : length (vscale a x) = length x.
Proof. apply map_length. Qed.
Lemma vneg_length x : length (vneg x) = length x.
Proof. apply map_length. Qed.
Lemma matvec_length H x : length (matvec H x) = length H.
Proof. apply map_length. Qed.

Lemma dot_comm x y : dot x y = dot y x.
Proof.
  unfold dot. revert y; induction x as [|a x IH]; destruct y as [|b y]; simpl; auto.
  rewrite IH. lra.
Qed.

Lemma dot_nil_r x : dot x [] = 0.
Proof. now destruct x. Qed.

Lemma dot_cons a x b y : dot (a :: x) (b :: y) = a * b + dot x y.
Proof. reflexivity. Qed.

Lemma dot_vadd_l x y z :
  length x = length y -> dot (vadd x y) z = dot x z + dot y z.
Proof.
  revert y z; induction x as [|a x IH]; destruct y as [|b y]; destruct z as [|c z];
    intros HL; simpl in HL; try discriminate; try (unfold dot; simpl; lra).
  simpl vadd. unfold vadd. simpl map2. rewrite !dot_cons.
  change (map2 Rplus x y) with (vadd x y). rewrite IH by lia. lra.
Qed.

Lemma dot_vadd_r x y z :
  length y = length z -> dot x (vadd y z) = dot x y + dot x z.
Proof. intros. rewrite dot_comm, dot_vadd_l by easy. now rewrite (dot_comm y), (dot_comm z). Qed.

Lemma dot_vscale_l a x y : dot (vscale a x) y = a * dot x y.
Proof.
  revert y; induction x as [|b x IH]; destruct y as [|c y]; try (unfold dot; simpl; lra).
  unfold vscale; simpl map. rewrite !dot_cons.
  change (map (Rmult a) x) with (vscale a x). rewrite IH. lra.
Qed.

Lemma dot_vscale_r a x y : dot x (vscale a y) = a * dot x y.
Proof. rewrite dot_comm, dot_vscale_l, dot_comm. easy. Qed.

Lemma dot_vneg_l x y : dot (vneg x) y = - dot x y.
Proof.
  revert y; induction x as [|b x IH]; destruct y as [|c y]; try (unfold dot; simpl; lra).
  unfold vneg; simpl map. rewrite !dot_cons.
  change (map Ropp x) with (vneg x). rewrite IH. lra.
Qed.

Lemma dot_vneg_r x y : dot x (vneg y) = - dot x y.
Proof. now rewrite dot_comm, dot_vneg_l, dot_comm. Qed.

Lemma dot_vsub_l x y z :
  length x = length y -> dot (vsub x y) z = dot x z - dot y z.
Proof.
  revert y z; induction x as [|a x IH]; destruct y as [|b y]; destruct z as [|c z];
    intros HL; simpl in HL; try discriminate; try (unfold dot; simpl; lra).
  unfold vsub. simpl map2. rewrite !dot_cons.
  change (map2 Rminus x y) with (vsub x y). rewrite IH by lia. lra.
Qed.

Lemma dot_vsub_r x y z :
  length y = length z -> dot x (vsub y z) = dot x y - dot x z.
Proof. intros. rewrite dot_comm, dot_vsub_l by easy. now rewrite (dot_comm y), (dot_comm z). Qed.

Lemma sumsq_nonneg x : 0 <= sumsq x.
Proof.
  unfold sumsq; induction x as [|a x IH]; [unfold dot; simpl; lra|].
  rewrite dot_cons. nra.
Qed.

Lemma norm_nonneg x : 0 <= norm x.
Proof. apply sqrt_pos. Qed.

Lemma norm_sqr x : norm x * norm x = sumsq x.
Proof. apply sqrt_sqrt, sumsq_nonneg. Qed.

Lemma sumsq_cons a x : sumsq (a :: x) = a * a + sumsq x.
Proof. reflexivity. Qed.

Lemma sumsq_zero_inv x : sumsq x = 0 -> forall a, In a x -> a = 0.
Proof.
  induction x as [|b x IH]; simpl; [easy|].
  rewrite sumsq_cons. intros H a [->|Ha]; pose proof (sumsq_nonneg x).
  - nra.
  - apply IH; auto. nra.
Qed.

Lemma sumsq_vzero n : sumsq (vzero n) = 0.
Proof.
  unfold vzero; induction n; simpl; [reflexivity|].
  rewrite sumsq_cons, IHn. lra.
Qed.

Lemma dist_nonneg x y : 0 <= dist x y.
Proof. apply norm_nonneg. Qed.

Lemma vsub_diag x : vsub x x = vzero (length x).
Proof.
  unfold vsub, vzero. induction x as [|a x IH]; simpl; auto.
  rewrite IH. f_equal. lra.
Qed.

Lemma dist_refl x : dist x x = 0.
Proof. unfold dist, norm. rewrite vsub_diag, sumsq_vzero. apply sqrt_0. Qed.

Lemma dist_sym x y : dist x y = dist y x.
Proof.
  unfold dist, norm. f_equal. unfold vsub.
  revert y; induction x as [|a x IH]; destruct y as [|b y]; simpl; auto.
  rewrite !sumsq_cons, IH. nra.
Qed.

Lemma abs_le_norm x a : In a x -> Rabs a <= norm x.
Proof.
  intros H. unfold norm. rewrite <- sqrt_Rsqr_abs. apply sqrt_le_1.
  - apply Rle_0_sqr.
  - apply sumsq_nonneg.
  - induction x as [|b x IH]; [destruct H|].
    rewrite sumsq_cons. unfold Rsqr in *. destruct H as [->|H].
    + pose proof (sumsq_nonneg x). nra.
    + specialize (IH H). nra.
Qed.

(** Cauchy-Schwarz. *)
Lemma cauchy_schwarz_sq x y : length x = length y -> dot x y * dot x y <= sumsq x * sumsq y.
Proof.
  intros HL.
  (* discriminant argument *)
  assert (Q : forall t, 0 <= sumsq x - 2 * t * dot x y + t * t * sumsq y).
  { intros t. pose proof (sumsq_nonneg (vsub x (vscale t y))) as H.
    unfold sumsq in H. rewrite dot_vsub_l in H by now rewrite vscale_length.
    rewrite !dot_vsub_r in H by now rewrite vscale_length.
    rewrite !dot_vscale_l, !dot_vscale_r in H. rewrite (dot_comm y x) in H.
    unfold sumsq. nra. }
  pose proof (sumsq_nonneg y) as Hy.
  destruct (Req_dec (sumsq y) 0) as [E|E].
  - assert (Z : dot x y = 0).
    { pose proof (sumsq_zero_inv y E) as H0. clear - H0 HL.
      revert x HL; induction y as [|b y IH]; intros x HL.
      - apply dot_nil_r.
      - destruct x as [|a x]; [reflexivity|]. rewrite dot_cons.
        rewrite (H0 b) by now left. rewrite IH.
        + lra. + intros; apply H0; now right. + simpl in HL; lia. }
    rewrite Z, E. lra.
  - specialize (Q (dot x y / sumsq y)).
    assert (P : 0 < sumsq y) by lra.
    replace (sumsq x - 2 * (dot x y / sumsq y) * dot x y
             + dot x y / sumsq y * (dot x y / sumsq y) * sumsq y)
      with (sumsq x - dot x y * dot x y / sumsq y) in Q by (field; lra).
    assert (K : dot x y * dot x y / sumsq y <= sumsq x) by lra.
    apply (Rmult_le_compat_r (sumsq y)) in K; [|lra].
    unfold Rdiv in K. rewrite Rmult_assoc, Rinv_l, Rmult_1_r in K by easy. lra.
Qed.

Lemma cauchy_schwarz x y : length x = length y -> Rabs (dot x y) <= norm x * norm y.
Proof.
  intros HL. pose proof (cauchy_schwarz_sq x y HL) as H.
  unfold norm. rewrite <- sqrt_mult by apply sumsq_nonneg.
  rewrite <- sqrt_Rsqr_abs. apply sqrt_le_1; unfold Rsqr.
  - nra. - apply Rmult_le_pos; apply sumsq_nonneg. - exact H.
Qed.

Lemma norm_triangle x y : length x = length y -> norm (vadd x y) <= norm x + norm y.
Proof.
  intros HL. apply Rsqr_incr_0_var.
  2: { pose proof (norm_nonneg x); pose proof (norm_nonneg y); lra. }
  unfold Rsqr. rewrite norm_sqr. unfold sumsq.
  rewrite dot_vadd_l, !dot_vadd_r by easy. rewrite (dot_comm y x).
  pose proof (cauchy_schwarz x y HL). pose proof (Rle_abs (dot x y)).
  pose proof (norm_sqr x) as Hx. pose proof (norm_sqr y) as Hy. unfold sumsq in *. nra.
Qed.

Lemma norm_vscale a x : norm (vscale a x) = Rabs a * norm x.
Proof.
  unfold norm, sumsq. rewrite dot_vscale_l, dot_vscale_r.
  replace (a * (a * dot x x)) with (Rsqr a * dot x x) by (unfold Rsqr; lra).
  rewrite sqrt_mult; [|apply Rle_0_sqr|apply sumsq_nonneg].
  now rewrite sqrt_Rsqr_abs.
Qed.
