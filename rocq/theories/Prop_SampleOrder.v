(** C208-C210: the order of the sample points does not matter for the fit; a point that is sampled k times
    with the same values counts like a point of weight k. *)
From Coq Require Import Reals List Arith Bool Lia Lra Permutation FunctionalExtensionality.
From Verif Require Import Base XR Vec FVec ModelsModel FitModel Prop_Fit LstsqProofs Prop_Geometry Prop_Poised DetProofs Prop_Frobenius Prop_Rotate.
Import ListNotations.
Open Scope R_scope.

Lemma min_norm_unique N p A b c d : is_min_norm_lstsq N p A b c -> is_min_norm_lstsq N p A b d ->
  forall j, (j < p)%nat -> c j = d j.
Proof.
  intros C D. set (v := fsub d c).
  assert (Z : forall i, (i < N)%nat -> bsum p (fun j => A i j * v j) = 0).
  { intros i Hi. unfold v, fsub. exact (lstsq_same_fit N p A b c d (proj1 C) (proj1 D) i Hi). }
  pose proof (min_norm_orthogonal _ _ _ _ _ v C Z) as E1. pose proof (min_norm_orthogonal _ _ _ _ _ v D Z) as E2.
  assert (V : fsq p v = 0) by (unfold fsq; unfold v at 1; rewrite fdot_sub_l; lra).
  intros j Hj. pose proof (fsq_zero p v V j Hj) as E. unfold v, fsub in E. lra.
Qed.

(** Two systems with the same sum of squared residuals have the same solution. *)
Lemma same_ssr lstsq N N' p A A' b b' : exact_lstsq lstsq ->
  (forall c, ssr N' p A' b' c = ssr N p A b c) -> forall j, (j < p)%nat -> lstsq N' p A' b' j = lstsq N p A b j.
Proof.
  intros LS E. apply (min_norm_unique N p A b); [|apply LS].
  assert (Q : forall c, is_lstsq N p A b c <-> is_lstsq N' p A' b' c).
  { intros c. unfold is_lstsq. split; intros H c'; specialize (H c'); rewrite !E in *; exact H. }
  destruct (LS N' p A' b') as [L M]. split; [now apply Q|]. intros c' H. apply M. now apply Q.
Qed.

Lemma bsum_perm N ls f : Permutation ls (seq 0 N) -> bsum N (fun r => f (nth r ls 0%nat)) = bsum N f.
Proof.
  intros P. pose proof (bsum_nth_perm 0%nat f _ _ P) as E. rewrite (Permutation_length P), seq_length in E.
  rewrite E. apply bsum_ext. intros r Hr. now rewrite seq_nth by easy.
Qed.

(** C208 - order.  For every order of the sample points (with their values and weights) the
    coefficients are the same, also if the model is not determined by the sample. *)
Theorem C208_sample_order :
  forall lstsq N n t (X : nat -> fvec) (y : fvec) w ls,
    exact_lstsq lstsq -> Permutation ls (seq 0 N) ->
    let X' i := X (nth i ls 0%nat) in
    let y' i := y (nth i ls 0%nat) in
    let w' := match w with Some w => Some (fun i => w (nth i ls 0%nat)) | None => None end in
    forall j, (j < n_features n t)%nat ->
    fit_ols lstsq N n t X' y' w' j = fit_ols lstsq N n t X y w j /\
    (forall p0 p1 p2, fit_tranquilo lstsq N n t X' y' w' p0 p1 p2 j = fit_tranquilo lstsq N n t X y w p0 p1 p2 j) /\
    (forall l1 l2, fit_ridge lstsq N n t X' y' w' l1 l2 j = fit_ridge lstsq N n t X y w l1 l2 j).
Proof.
  intros lstsq N n t X y w ls LS P X' y' w' j Hj.
  assert (W : exists F v, add_weighting (feature_matrix n t X) y w = (F, v) /\
     add_weighting (feature_matrix n t X') y' w' = ((fun i => F (nth i ls 0%nat)), fun i => v (nth i ls 0%nat))).
  { unfold w'. destruct w as [w|]; cbn [add_weighting]; eexists; eexists; split; reflexivity. }
  destruct W as (F & v & E1 & E2).
  split; [|split].
  - unfold fit_ols. rewrite E1, E2. apply (same_ssr lstsq); [exact LS| |exact Hj]. intros c. unfold ssr.
    exact (bsum_perm N ls (fun i => (bsum (n_features n t) (fun j => F i j * c j) - v i) ^ 2) P).
  - intros p0 p1 p2. unfold fit_tranquilo. rewrite E1, E2. cbv zeta. f_equal.
    apply (same_ssr lstsq); [exact LS| |exact Hj]. intros c. unfold ssr.
    exact (bsum_perm N ls (fun i => (bsum (n_features n t)
       (fun j => F i j * nth j (penalty_factors n (n_features n t) p0 p1 p2) 0 * c j) - v i) ^ 2) P).
  - intros l1 l2. unfold fit_ridge. rewrite E1, E2. cbv zeta.
    apply (same_ssr lstsq); [exact LS| |exact Hj]. intros c. unfold ssr. apply bsum_ext. intros i Hi. f_equal. f_equal.
    + apply bsum_ext. intros k Hk. rewrite (bsum_perm N ls (fun r => F r i * F r k) P). reflexivity.
    + exact (bsum_perm N ls (fun r => F r i * v r) P).
Qed.

(** The sum over a list of indices with repetitions is the sum weighted by the numbers of repetitions. *)
Lemma bsum_counts N f : forall ls, Forall (fun l => (l < N)%nat) ls ->
  bsum (length ls) (fun r => f (nth r ls 0%nat)) = bsum N (fun i => INR (count_occ Nat.eq_dec ls i) * f i).
Proof.
  induction ls as [|a ls IH]; intros H.
  - cbn [length bsum]. symmetry. apply bsum_all_zero. intros. cbn. ring.
  - inversion H as [|? ? Ha Hl]; subst. cbn [length]. rewrite bsum_shift. cbn [nth]. rewrite (IH Hl).
    rewrite <- (bsum_single N a (f a) Ha), <- bsum_plus. apply bsum_ext. intros i Hi. cbn [count_occ].
    destruct (Nat.eq_dec a i) as [->|Ne].
    + rewrite Nat.eqb_refl, S_INR. ring.
    + destruct (Nat.eqb_spec i a); [congruence|ring].
Qed.

(** C208 - repetitions.  Points that occur several times in the sample, each time with the same
    value, count like points weighted by the number of occurrences. *)
Theorem C208_repeated_points :
  forall lstsq N n t (X : nat -> fvec) (y : fvec) ls,
    exact_lstsq lstsq -> Forall (fun l => (l < N)%nat) ls ->
    let X' i := X (nth i ls 0%nat) in
    let y' i := y (nth i ls 0%nat) in
    let w i := INR (count_occ Nat.eq_dec ls i) in
    forall j, (j < n_features n t)%nat ->
    fit_ols lstsq (length ls) n t X' y' None j = fit_ols lstsq N n t X y (Some w) j /\
    (forall p0 p1 p2, fit_tranquilo lstsq (length ls) n t X' y' None p0 p1 p2 j
       = fit_tranquilo lstsq N n t X y (Some w) p0 p1 p2 j) /\
    (forall l1 l2, fit_ridge lstsq (length ls) n t X' y' None l1 l2 j = fit_ridge lstsq N n t X y (Some w) l1 l2 j).
Proof.
  intros lstsq N n t X y ls LS HF X' y' w j Hj.
  assert (SW : forall i, sqrt (w i) * sqrt (w i) = w i) by (intros i; apply sqrt_sqrt, pos_INR).
  split; [|split].
  - unfold fit_ols. cbn [add_weighting]. apply (same_ssr lstsq); [exact LS| |exact Hj]. intros c. unfold ssr.
    etransitivity; [exact (bsum_counts N (fun i => (bsum (n_features n t) (fun j => feature_matrix n t X i j * c j) - y i) ^ 2) ls HF)|].
    apply bsum_ext. intros i Hi. fold (w i).
    rewrite (bsum_ext (n_features n t) (fun j => feature_matrix n t X i j * sqrt (w i) * c j) (fun j => feature_matrix n t X i j * c j * sqrt (w i))) by (intros; ring).
    rewrite bsum_scal_r. rewrite <- (SW i) at 1. ring.
  - intros p0 p1 p2. unfold fit_tranquilo. cbn [add_weighting]. cbv zeta. f_equal.
    apply (same_ssr lstsq); [exact LS| |exact Hj]. intros c. unfold ssr.
    etransitivity; [exact (bsum_counts N (fun i => (bsum (n_features n t) (fun j => feature_matrix n t X i j *
       nth j (penalty_factors n (n_features n t) p0 p1 p2) 0 * c j) - y i) ^ 2) ls HF)|].
    apply bsum_ext. intros i Hi. fold (w i).
    rewrite (bsum_ext (n_features n t) (fun j => feature_matrix n t X i j * sqrt (w i) *
       nth j (penalty_factors n (n_features n t) p0 p1 p2) 0 * c j) (fun j => feature_matrix n t X i j *
       nth j (penalty_factors n (n_features n t) p0 p1 p2) 0 * c j * sqrt (w i))) by (intros; ring).
    rewrite bsum_scal_r. rewrite <- (SW i) at 1. ring.
  - intros l1 l2. unfold fit_ridge. cbn [add_weighting]. cbv zeta.
    apply (same_ssr lstsq); [exact LS| |exact Hj]. intros c. unfold ssr. apply bsum_ext. intros a Ha. f_equal. f_equal.
    + apply bsum_ext. intros k Hk.
      f_equal. f_equal. etransitivity; [exact (bsum_counts N (fun r => feature_matrix n t X r a * feature_matrix n t X r k) ls HF)|].
      apply bsum_ext. intros i _. fold (w i). rewrite <- (SW i) at 1. ring.
    + etransitivity; [exact (bsum_counts N (fun r => feature_matrix n t X r a * y r) ls HF)|].
      apply bsum_ext. intros i _. fold (w i). rewrite <- (SW i) at 1. ring.
Qed.

(** Three points in another order, and a sample of two points, the second one taken twice. *)
Example C208_instance :
  exact_lstsq min_norm_ls /\ Permutation [2%nat; 0%nat; 1%nat] (seq 0 3) /\
  Forall (fun l => (l < 2)%nat) [1%nat; 0%nat; 1%nat] /\ count_occ Nat.eq_dec [1%nat; 0%nat; 1%nat] 1%nat = 2%nat /\
  (0 < n_features 1 Linear)%nat.
Proof.
  split; [intros N p A b; apply min_norm_ls_ok|]. split; [|split; [|split]].
  - cbn. eapply perm_trans; [apply perm_swap|]. apply perm_skip. apply perm_swap.
  - repeat constructor.
  - reflexivity.
  - cbn. lia.
Qed.

(** * The fit of Powell *)

Lemma minimal_unique N n X y c c' : (n + 1 <= N)%nat -> first_points_independent n X ->
  interpolates N n X y c -> interpolates N n X y c' ->
  (forall d, interpolates N n X y d -> dot (second_order n c) (second_order n c) <= dot (second_order n d) (second_order n d)) ->
  (forall d, interpolates N n X y d -> dot (second_order n c') (second_order n c') <= dot (second_order n d) (second_order n d)) ->
  c = c'.
Proof.
  intros HN FI [L I] [L' I'] M M'.
  set (p := n_second_order_terms n).
  set (d := map (fun j => / 2 * (nth j c 0 + nth j c' 0)) (seq 0 (n_free_params n Quadratic))).
  assert (Ld : length d = n_free_params n Quadratic) by (unfold d; now rewrite map_length, seq_length).
  assert (Nd : forall j, (j < n_free_params n Quadratic)%nat -> nth j d 0 = / 2 * (nth j c 0 + nth j c' 0)).
  { intros j Hj. unfold d. rewrite nth_map_seq. destruct (Nat.ltb_spec j (n_free_params n Quadratic)); [easy|lia]. }
  assert (Id : interpolates N n X y d).
  { split; [exact Ld|]. intros i Hi. pose proof (I i Hi) as E. pose proof (I' i Hi) as E'.
    rewrite dot_features in * by easy.
    rewrite (bsum_ext (n + 1) _ (fun j => / 2 * (m_mat n X i j * nth j c 0 + m_mat n X i j * nth j c' 0)))
      by (intros j Hj; rewrite Nd by (cbn [n_free_params]; lia); ring).
    rewrite (bsum_ext (n_second_order_terms n) (fun l => n_mat n X i l * nth (n + 1 + l) d 0)
       (fun l => / 2 * (n_mat n X i l * nth (n + 1 + l) c 0 + n_mat n X i l * nth (n + 1 + l) c' 0)))
      by (intros j Hj; rewrite Nd by (cbn [n_free_params]; lia); ring).
    rewrite !bsum_scal, !bsum_plus. lra. }
  specialize (M d Id) as M1. specialize (M' d Id) as M2. rewrite !second_order_sum in M1, M2 by easy. fold p in M1, M2.
  set (u := fun l => nth (n + 1 + l) c 0) in *. set (v := fun l => nth (n + 1 + l) c' 0) in *.
  assert (Q : fsq p (fun l => nth (n + 1 + l) d 0) = / 4 * (fsq p u + 2 * fdot p u v + fsq p v)).
  { unfold fsq at 1. rewrite (fdot_ext p _ (fscale (/ 2) (fadd u v)) _ (fscale (/ 2) (fadd u v))) by
      (intros l Hl; unfold fscale, fadd, u, v; apply Nd; unfold p in Hl; cbn [n_free_params]; lia).
    rewrite fdot_scale_l, fdot_scale_r, fdot_add_l, !fdot_add_r, (fdot_comm p v u). unfold fsq. field. }
  rewrite Q in M1, M2.
  assert (D0 : fsq p (fsub u v) = fsq p u - 2 * fdot p u v + fsq p v).
  { unfold fsq. rewrite fdot_sub_l, !fdot_sub_r, (fdot_comm p v u). ring. }
  pose proof (fsq_nonneg p (fsub u v)) as D1.
  assert (D2 : fsq p (fsub u v) = 0) by lra.
  assert (Z : forall l, (l < p)%nat -> nth (n + 1 + l) c 0 = nth (n + 1 + l) c' 0).
  { intros l Hl. pose proof (fsq_zero p _ D2 l Hl) as E. unfold fsub, u, v in E. lra. }
  assert (D : forall j, (j < n + 1)%nat -> nth j c 0 - nth j c' 0 = 0).
  { apply (independent_columns n X FI). intros i Hi.
    rewrite (bsum_ext (n + 1) _ (fun k => m_mat n X i k * nth k c 0 - m_mat n X i k * nth k c' 0)) by (intros; ring).
    rewrite bsum_minus. pose proof (I i ltac:(lia)) as E1. pose proof (I' i ltac:(lia)) as E2.
    rewrite dot_features in E1, E2 by easy.
    rewrite (bsum_ext (n_second_order_terms n) _ (fun l => n_mat n X i l * nth (n + 1 + l) c' 0)) in E1
      by (intros l Hl; now rewrite (Z l Hl)). lra. }
  apply nth_ext with 0 0; [congruence|]. intros j Hj. rewrite L in Hj. cbn [n_free_params] in Hj.
  destruct (Nat.lt_ge_cases j (n + 1)) as [H|H]; [specialize (D j H); lra|].
  replace j with (n + 1 + (j - (n + 1)))%nat by lia. apply Z. unfold p. lia.
Qed.

Lemma interpolates_perm N n X y c ls : Permutation ls (seq 0 N) ->
  interpolates N n (fun i => X (nth i ls 0%nat)) (fun i => y (nth i ls 0%nat)) c <-> interpolates N n X y c.
Proof.
  intros P. pose proof (Permutation_length P) as L. rewrite seq_length in L.
  split; intros [Lc I]; (split; [exact Lc|]); intros i Hi.
  - assert (In i ls) as H by (apply (Permutation_in _ (Permutation_sym P)), in_seq; lia).
    destruct (In_nth ls i 0%nat H) as (r & Hr & <-). apply I. lia.
  - apply I. assert (In (nth i ls 0%nat) ls) as H by (apply nth_In; lia).
    apply (Permutation_in _ P), in_seq in H. lia.
Qed.

(** C209 - with more points than a linear model needs and fewer than a quadratic one, the fit of
    Powell is the same for two orders of the points.  Missing: orders in which the first n + 1 points
    lie on a hyperplane, for which it is false (below), and samples that no quadratic interpolates, for
    which it is false as well (C210). *)
Theorem C209_powell_order_partial :
  forall lstsq qr N n X y ls c0,
    exact_lstsq lstsq -> exact_qr qr -> (n + 1 < N < n_free_params n Quadratic)%nat ->
    Permutation ls (seq 0 N) ->
    let X' i := X (nth i ls 0%nat) in
    let y' i := y (nth i ls 0%nat) in
    first_points_independent n X -> first_points_independent n X' -> interpolates N n X y c0 ->
    fit_powell lstsq qr N n Quadratic X' y' = fit_powell lstsq qr N n Quadratic X y.
Proof.
  intros lstsq qr N n X y ls c0 LS QR HN P X' y' F F' I0.
  assert (I0' : interpolates N n X' y' c0) by now apply interpolates_perm.
  destruct (C165_smallest_second_order_coefficients_partial lstsq qr N n X y c0 LS QR HN F I0) as (c & -> & I & M).
  destruct (C165_smallest_second_order_coefficients_partial lstsq qr N n X' y' c0 LS QR HN F' I0') as (c' & -> & I' & M').
  f_equal. symmetry. apply (minimal_unique N n X y); auto; [lia|now apply (interpolates_perm N n X y c' ls P)|].
  intros d Id. apply M'. now apply interpolates_perm.
Qed.

(** C209 - other numbers of points: the order does not matter at all. *)
Theorem C209_powell_order_other_sizes :
  forall lstsq qr N n t X y ls,
    exact_lstsq lstsq -> (N <= n + 1)%nat \/ (n_free_params n t <= N)%nat -> Permutation ls (seq 0 N) ->
    fit_powell lstsq qr N n t (fun i => X (nth i ls 0%nat)) (fun i => y (nth i ls 0%nat))
    = fit_powell lstsq qr N n t X y.
Proof.
  intros lstsq qr N n t X y ls LS HN P. set (X' := fun i => X (nth i ls 0%nat)). set (y' := fun i => y (nth i ls 0%nat)).
  assert (O : forall t, map (fit_ols lstsq N n t X' y' None) (seq 0 (n_features n t))
            = map (fit_ols lstsq N n t X y None) (seq 0 (n_features n t))).
  { intros t'. apply map_ext_in. intros j Hj. apply in_seq in Hj.
    exact (proj1 (C208_sample_order lstsq N n t' X y None ls LS P j ltac:(lia))). }
  unfold fit_powell. rewrite !O. destruct (Nat.leb_spec N (n + 1)); [reflexivity|].
  assert (HL : (match t with Linear => (n + 1)%nat | Quadratic => (n + 1 + n_second_order_terms n)%nat end <= N)%nat).
  { destruct HN as [|HN]; [lia|]. destruct t; cbn [n_free_params] in HN; lia. }
  destruct (Nat.leb_spec (match t with Linear => (n + 1)%nat | Quadratic => (n + 1 + n_second_order_terms n)%nat end) N); [reflexivity|lia].
Qed.

(** C209 - four points in the plane: with (-1, 0), (0, 0), (1, 0) first, the linear function x_2 is
    fitted by zero, with the last two points exchanged by itself. *)
Theorem C209_powell_order_refuted :
  forall lstsq qr, exact_lstsq lstsq -> exact_qr qr ->
    let X := collinear_first in
    let y i := X i 1%nat in
    let ls := [0%nat; 1%nat; 3%nat; 2%nat] in
    Permutation ls (seq 0 4) /\
    fit_powell lstsq qr 4 2 Quadratic X y = Ok [0; 0; 0; 0; 0; 0] /\
    fit_powell lstsq qr 4 2 Quadratic (fun i => X (nth i ls 0%nat)) (fun i => y (nth i ls 0%nat)) = Ok [0; 0; 1; 0; 0; 0].
Proof.
  intros lstsq qr LS QR X y ls. split; [|split].
  - cbn. do 2 apply perm_skip. apply perm_swap.
  - exact (proj1 (proj2 (proj2 (C165_linear_functions_refuted lstsq qr LS QR)))).
  - set (X' := fun i => X (nth i ls 0%nat)).
    assert (FI : first_points_independent 2 X').
    { intros b v H. pose proof (H 0%nat ltac:(lia)) as H0. pose proof (H 1%nat ltac:(lia)) as H1.
      pose proof (H 2%nat ltac:(lia)) as H2. cbn in H0, H1, H2. split; [lra|].
      intros [|[|j]] Hj; [lra|lra|lia]. }
    pose proof (C165_linear_functions_partial lstsq qr 4 2 X' 0 (fun j => match j with O => 0 | _ => 1 end) LS QR
                  ltac:(cbn; lia) FI) as E.
    etransitivity; [|exact E]. f_equal. apply functional_extensionality. intros i. unfold y, X'. cbn [bsum]. ring.
Qed.

Example C209_instance :
  let ls := [1%nat; 2%nat; 3%nat; 0%nat] in
  exact_lstsq min_norm_ls /\ exact_qr (fun N A => gram_schmidt N A N) /\
  (2 + 1 < 4 < n_free_params 2 Quadratic)%nat /\ Permutation ls (seq 0 4) /\
  first_points_independent 2 skew_points /\ first_points_independent 2 (fun i => skew_points (nth i ls 0%nat)) /\
  interpolates 4 2 skew_points (fun i => skew_points i 0%nat ^ 2) [0; 1 / 5; 0; 4 / 5; - (2 / 5); 0].
Proof.
  intros ls. destruct C165_instance_solvers as [LS QR]. split; [exact LS|]. split; [exact QR|].
  split; [cbn; lia|]. split; [|split; [exact skew_independent|split; [|split; [reflexivity|]]]].
  - apply Permutation_sym. exact (Permutation_cons_append [1%nat; 2%nat; 3%nat] 0%nat).
  - intros b v H. pose proof (H 0%nat ltac:(lia)) as H0. pose proof (H 1%nat ltac:(lia)) as H1.
    pose proof (H 2%nat ltac:(lia)) as H2. cbn in H0, H1, H2. split; [lra|].
    intros [|[|j]] Hj; [lra|lra|lia].
  - intros i Hi. unfold dot. destruct i as [|[|[|[|i]]]]; [..|lia]; cbn; lra.
Qed.

(** * C210 *)

(** C210 - with more points than a linear model needs and fewer than a quadratic one, the fit of
    Powell passes through the first n + 1 points, if no hyperplane contains them; also if no
    quadratic passes through the whole sample. *)
Theorem C210_first_points :
  forall lstsq qr N n X y,
    exact_lstsq lstsq -> (n + 1 < N < n_free_params n Quadratic)%nat -> first_points_independent n X ->
    exists c, fit_powell lstsq qr N n Quadratic X y = Ok c /\ interpolates (n + 1) n X y c.
Proof.
  intros lstsq qr N n X y LS HN FI.
  destruct (powell_is lstsq qr N n X y HN) as (c & E & L & C1 & C2).
  exists c. split; [exact E|]. split; [exact L|]. intros i Hi. rewrite dot_features by exact L.
  set (alpha := fst (frobenius_coefs qr lstsq N n X y)) in *.
  set (s := snd (frobenius_coefs qr lstsq N n X y)) in *.
  set (rhs := fun i => y i - bsum (n_second_order_terms n) (fun l => n_mat n X i l * s l)).
  set (e := fun i => bsum (n + 1) (fun j => m_mat n X i j * alpha j) - rhs i).
  assert (TOP : forall i, (i < n + 1)%nat -> e i = 0).
  { pose proof (lstsq_normal _ _ _ _ _ (proj1 (LS (n + 1)%nat (n + 1)%nat (m_mat n X) rhs))) as Nm.
    change (lstsq (n + 1)%nat (n + 1)%nat (m_mat n X) rhs) with alpha in Nm.
    apply (fdet_rows_independent _ _ (kernel_det _ _ (independent_columns n X FI))).
    intros j Hj. specialize (Nm j Hj). rewrite <- Nm. apply bsum_ext. intros r _. unfold e. ring. }
  specialize (TOP i Hi). unfold e, rhs in TOP.
  rewrite (bsum_ext (n + 1) (fun j => m_mat n X i j * nth j c 0) (fun j => m_mat n X i j * alpha j))
    by (intros j Hj; now rewrite C1).
  rewrite (bsum_ext (n_second_order_terms n) (fun l => n_mat n X i l * nth (n + 1 + l) c 0) (fun l => n_mat n X i l * s l))
    by (intros l Hl; now rewrite C2). lra.
Qed.

(** C210 - a point that is evaluated twice with different values, first among the first n + 1 points
    and then after them: the fit takes the first value, the values are not averaged. *)
Theorem C210_repeated_point :
  forall lstsq qr N n X y i k,
    exact_lstsq lstsq -> (n + 1 < N < n_free_params n Quadratic)%nat -> first_points_independent n X ->
    (i < n + 1 <= k)%nat -> X k = X i ->
    exists c, fit_powell lstsq qr N n Quadratic X y = Ok c /\ dot c (feature_row n Quadratic (X k)) = y i.
Proof.
  intros lstsq qr N n X y i k LS HN FI [Hi Hk] E.
  destruct (C210_first_points lstsq qr N n X y LS HN FI) as (c & F & _ & I).
  exists c. split; [exact F|]. rewrite E. now apply I.
Qed.

(** C210 - so that the order of the two evaluations matters. *)
Theorem C210_order_of_evaluations :
  forall lstsq qr N n X y i k,
    exact_lstsq lstsq -> (n + 1 < N < n_free_params n Quadratic)%nat -> first_points_independent n X ->
    (i < n + 1 <= k)%nat -> X k = X i -> y k <> y i ->
    let exchanged l := if (l =? i)%nat then k else if (l =? k)%nat then i else l in
    fit_powell lstsq qr N n Quadratic (fun l => X (exchanged l)) (fun l => y (exchanged l))
    <> fit_powell lstsq qr N n Quadratic X y.
Proof.
  intros lstsq qr N n X y i k LS HN FI [Hi Hk] E D exchanged.
  assert (EX : (fun l => X (exchanged l)) = X).
  { apply functional_extensionality. intros l. unfold exchanged.
    destruct (Nat.eqb_spec l i) as [->|]; [exact E|]. destruct (Nat.eqb_spec l k) as [->|]; [now rewrite E|reflexivity]. }
  rewrite EX.
  destruct (C210_first_points lstsq qr N n X y LS HN FI) as (c & -> & _ & I).
  destruct (C210_first_points lstsq qr N n X (fun l => y (exchanged l)) LS HN FI) as (c' & -> & _ & I').
  intros H. injection H as ->. specialize (I i Hi). specialize (I' i Hi). cbn beta in I'.
  unfold exchanged in I'. rewrite Nat.eqb_refl in I'. congruence.
Qed.

(** The origin, (1, 0), (0, 1) and the origin again. *)
Example C210_instance :
  let X := points4 [(0, 0); (1, 0); (0, 1); (0, 0)] in
  exact_lstsq min_norm_ls /\ (2 + 1 < 4 < n_free_params 2 Quadratic)%nat /\ first_points_independent 2 X /\
  (0 < 2 + 1 <= 3)%nat /\ X 3%nat = X 0%nat.
Proof.
  intros X. destruct C165_instance_solvers as [LS QR]. split; [exact LS|]. split; [cbn; lia|]. split; [|split; [lia|reflexivity]].
  intros b v H. pose proof (H 0%nat ltac:(lia)) as H0. pose proof (H 1%nat ltac:(lia)) as H1.
  pose proof (H 2%nat ltac:(lia)) as H2. cbn in H0, H1, H2. split; [lra|]. intros [|[|j]] Hj; [lra|lra|lia].
Qed.
