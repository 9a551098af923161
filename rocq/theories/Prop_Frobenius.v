(** C165, C166: the quadratic fit of fit_powell for fewer points than coefficients. *)
From Coq Require Import Reals List Arith Bool Lia Lra Psatz.
From Verif Require Import Base XR Vec FVec ModelsModel FitModel Prop_Models Prop_Fit LstsqProofs
  GeometryModel Prop_Geometry Prop_Poised DetProofs.
Import ListNotations.
Open Scope R_scope.

(** * What is assumed of the two solvers *)

(** np.linalg.lstsq solves every system. *)
Definition exact_lstsq (lstsq : lstsq_oracle) : Prop :=
  forall N p A b, is_min_norm_lstsq N p A b (lstsq N p A b).

(** scipy.linalg.qr decomposes every matrix. *)
Definition exact_qr (qr : qr_oracle) : Prop := forall N A, is_qr N A (qr N A).

(** * The fit in terms of coefficients *)

(** The quadratic with coefficients [c] (intercept, linear terms, then the terms of
    x_i x_j for i <= j) takes the values [y] at the points. *)
Definition interpolates (N n : nat) (X : nat -> fvec) (y : fvec) (c : list R) : Prop :=
  length c = n_free_params n Quadratic /\
  forall i, (i < N)%nat -> dot c (feature_row n Quadratic (X i)) = y i.

(** The coefficients of the second order terms. *)
Definition second_order (n : nat) (c : list R) : list R := skipn (n + 1) c.

(** No hyperplane contains the first n + 1 points. *)
Definition first_points_independent (n : nat) (X : nat -> fvec) : Prop :=
  forall b v, (forall i, (i < n + 1)%nat -> b + bsum n (fun j => v j * X i j) = 0) ->
    b = 0 /\ forall j, (j < n)%nat -> v j = 0.

Lemma kernel_det n A : columns_independent n n A -> fdet n A <> 0.
Proof.
  intros CI Z. set (G := fprod n (fun i j => A j i) A).
  assert (SG : fsymm n G) by (intros i j _ _; unfold G, fprod; apply bsum_ext; intros; ring).
  assert (QG : forall x, DetProofs.quad n G x = bsum n (fun i => bsum n (fun k => A i k * x k) ^ 2)).
  { intros x. unfold DetProofs.quad, G, fprod.
    rewrite (bsum_ext n (fun i => x i * _) (fun i => bsum n (fun k => (A k i * x i) * bsum n (fun j => A k j * x j)))).
    - rewrite bsum_swap. apply bsum_ext. intros k _. rewrite bsum_scal_r. ring.
    - intros i _. rewrite (bsum_ext n (fun j => bsum n _ * x j) (fun j => bsum n (fun k => A k i * (A k j * x j)))).
      + rewrite bsum_swap, <- bsum_scal. apply bsum_ext. intros k _. rewrite bsum_scal. ring.
      + intros j _. rewrite <- bsum_scal_r. apply bsum_ext. intros; ring. }
  assert (PG : psd n G).
  { split; [easy|]. intros x. rewrite QG. apply bsum_nonneg. intros; apply pow2_ge_0. }
  destruct (psd_det n G PG) as [_ [x [[i [Hi Nx]] Qx]]].
  { unfold G. rewrite fdet_product, Z. ring. }
  apply Nx. apply (CI x); [|easy]. intros r Hr. rewrite QG in Qx.
  pose proof (bsum_nonneg_zero n _ ltac:(intros; apply pow2_ge_0) Qx r Hr) as E. cbv beta in E.
  destruct (Rmult_integral _ _ E); [easy|lra].
Qed.

Section Fit.
Variables (qr : qr_oracle) (lstsq : lstsq_oracle) (N n : nat) (X : nat -> fvec) (y : fvec).
Hypothesis LS : exact_lstsq lstsq.
Hypothesis HN : (n + 1 < N)%nat.
Let p := n_second_order_terms n.
Let k := (N - (n + 1))%nat.
Let Q := qr N (m_mat_pad n X).
Hypothesis QR : is_qr N (m_mat_pad n X) Q.

Lemma z_m j l : (j < n + 1)%nat -> (l < k)%nat -> bsum N (fun i => z_mat Q n i l * m_mat n X i j) = 0.
Proof.
  intros Hj Hl. unfold k in Hl. destruct QR as [O (T & UT & E)]. unfold z_mat.
  rewrite (bsum_ext N _ (fun i => bsum N (fun r => Q i (n + 1 + l)%nat * Q i r * T r j))).
  - rewrite bsum_swap. apply bsum_all_zero. intros r Hr. rewrite bsum_scal_r, O by lia.
    destruct (Nat.eqb_spec (n + 1 + l) r) as [<-|]; [|ring]. rewrite UT by lia. ring.
  - intros i Hi. specialize (E i j Hi ltac:(lia)). unfold m_mat_pad in E.
    destruct (Nat.ltb_spec j (n + 1)); [|lia]. rewrite E, <- bsum_scal. apply bsum_ext. intros; ring.
Qed.

(** An orthogonal matrix has no kernel. *)
Lemma q_rows c : (forall r, (r < N)%nat -> bsum N (fun i => c i * Q i r) = 0) -> forall i, (i < N)%nat -> c i = 0.
Proof.
  destruct QR as [O _]. apply fdet_rows_independent. intros Z.
  assert (D : fdet N (fprod N (fun r i => Q i r) Q) = 1).
  { rewrite <- (fdet_fid N). apply fdet_ext. intros i j Hi Hj. unfold fprod. rewrite O by easy. reflexivity. }
  rewrite fdet_product, Z in D. lra.
Qed.
Lemma q_spans e i : (i < N)%nat -> e i = bsum N (fun r => Q i r * bsum N (fun s => Q s r * e s)).
Proof.
  intros Hi. apply Rminus_diag_uniq.
  apply (q_rows (fun i => e i - bsum N (fun r => Q i r * bsum N (fun s => Q s r * e s)))); [|easy].
  intros r Hr. destruct QR as [O _].
  rewrite (bsum_ext N _ (fun i => Q i r * e i - bsum N (fun t => Q i r * Q i t * bsum N (fun s => Q s t * e s)))).
  - rewrite bsum_minus, bsum_swap.
    rewrite (bsum_ext N (fun j => bsum N (fun i => Q i r * Q i j * _))
       (fun j => if (j =? r)%nat then bsum N (fun s => Q s r * e s) else 0)).
    + rewrite bsum_single by easy. ring.
    + intros j Hj. rewrite bsum_scal_r, O by easy.
      destruct (Nat.eqb_spec r j) as [E|E]; destruct (Nat.eqb_spec j r) as [F|F]; try congruence; [subst j; ring|ring].
  - intros j _. rewrite Rmult_minus_distr_r. f_equal; [ring|]. rewrite <- bsum_scal_r.
    apply bsum_ext. intros; ring.
Qed.

(** A vector that is orthogonal to z_mat and vanishes on the first n + 1 points is zero. *)
Lemma top_determines e : columns_independent (n + 1) (n + 1) (m_mat n X) ->
  (forall l, (l < k)%nat -> bsum N (fun i => z_mat Q n i l * e i) = 0) ->
  (forall i, (i < n + 1)%nat -> e i = 0) -> forall i, (i < N)%nat -> e i = 0.
Proof.
  intros CI HZ HT. set (u := fun r => bsum N (fun s => Q s r * e s)).
  assert (U2 : forall r, (n + 1 <= r < N)%nat -> u r = 0).
  { intros r Hr. specialize (HZ (r - (n + 1))%nat ltac:(unfold k; lia)). unfold z_mat in HZ.
    now replace (n + 1 + (r - (n + 1)))%nat with r in HZ by lia. }
  assert (SP : forall i, (i < N)%nat -> e i = bsum (n + 1) (fun r => Q i r * u r)).
  { intros i Hi. rewrite (q_spans e i Hi). replace N with (n + 1 + k)%nat at 1 by (unfold k; lia).
    rewrite bsum_app. rewrite (bsum_all_zero k); [unfold u; ring|].
    intros r Hr. fold (u (n + 1 + r)%nat). rewrite U2 by (unfold k in Hr; lia). ring. }
  assert (DQ : fdet (n + 1) Q <> 0).
  { destruct QR as [_ (T & UT & E)]. intros Z. apply (kernel_det _ _ CI).
    rewrite (fdet_ext (n + 1) _ (fprod (n + 1) Q T)).
    - rewrite fdet_product, Z. ring.
    - intros i j Hi Hj. specialize (E i j ltac:(lia) ltac:(lia)). unfold m_mat_pad in E.
      destruct (Nat.ltb_spec j (n + 1)); [|lia]. rewrite E. unfold fprod.
      replace N with (n + 1 + k)%nat by (unfold k; lia). rewrite bsum_app.
      rewrite (bsum_all_zero k); [ring|]. intros r Hr. rewrite UT by lia. ring. }
  assert (U1 : forall r, (r < n + 1)%nat -> u r = 0).
  { apply (fdet_columns_independent _ _ DQ). intros i Hi. rewrite <- SP by lia. now apply HT. }
  intros i Hi. rewrite SP by easy. apply bsum_all_zero. intros r Hr. rewrite U1 by easy. ring.
Qed.

(** The second order coefficients satisfy the equations that are left when the linear terms are
    projected out, provided some quadratic does. *)
Variables (a : fvec) (c : fvec).
Hypothesis Hy : forall i, (i < N)%nat ->
  bsum (n + 1) (fun j => m_mat n X i j * a j) + bsum p (fun l => n_mat n X i l * c l) = y i.

Let n_z := n_z_mat Q N n X.
Let alpha := fst (frobenius_coefs qr lstsq N n X y).
Let s := snd (frobenius_coefs qr lstsq N n X y).
Let w := lstsq k k (fun i j => bsum p (fun l => n_z l i * n_z l j)) (fun j => bsum N (fun i => z_mat Q n i j * y i)).

Lemma s_is l : s l = bsum k (fun j => n_z l j * w j).
Proof. reflexivity. Qed.

Lemma z_y j : (j < k)%nat -> bsum N (fun i => z_mat Q n i j * y i) = bsum p (fun l => n_z l j * c l).
Proof.
  intros Hj. rewrite (bsum_ext N _ (fun i => bsum (n + 1) (fun r => a r * (z_mat Q n i j * m_mat n X i r))
     + bsum p (fun l => n_mat n X i l * Q i (n + 1 + j)%nat * c l))).
  - rewrite bsum_plus, bsum_swap. rewrite (bsum_all_zero (n + 1)).
    + rewrite bsum_swap, Rplus_0_l. apply bsum_ext. intros l _. now rewrite bsum_scal_r.
    + intros r Hr. rewrite bsum_scal, z_m by easy. ring.
  - intros i Hi. rewrite <- (Hy i Hi), Rmult_plus_distr_l, <- !bsum_scal. f_equal; apply bsum_ext; intros.
    + ring.
    + unfold z_mat. ring.
Qed.

Lemma s_solves j : (j < k)%nat -> bsum p (fun l => n_z l j * s l) = bsum p (fun l => n_z l j * c l).
Proof.
  set (G := fun i j => bsum p (fun l => n_z l i * n_z l j)).
  set (b := fun j => bsum N (fun i => z_mat Q n i j * y i)).
  set (r := fun i => bsum k (fun l => G i l * w l) - b i).
  assert (Er : forall i, (i < k)%nat -> r i = bsum p (fun l => n_z l i * (s l - c l))).
  { intros i Hi. unfold r, b. rewrite z_y by easy.
    rewrite (bsum_ext k _ (fun l => bsum p (fun q => n_z q i * (n_z q l * w l)))).
    - rewrite bsum_swap, <- bsum_minus. apply bsum_ext. intros l _. rewrite bsum_scal, <- s_is. ring.
    - intros l _. unfold G. rewrite <- bsum_scal_r. apply bsum_ext. intros; ring. }
  assert (Nm : forall j, (j < k)%nat -> bsum k (fun i => G i j * r i) = 0)
    by exact (lstsq_normal k k G b w (proj1 (LS k k G b))).
  (* n_z r = 0 *)
  assert (E1 : forall l, (l < p)%nat -> bsum k (fun i => n_z l i * r i) = 0).
  { intros l Hl. apply (fsq_zero p (fun l => bsum k (fun i => n_z l i * r i))); [|easy].
    unfold fsq, fdot.
    rewrite (bsum_ext p _ (fun l => bsum k (fun j => r j * bsum k (fun i => n_z l i * n_z l j * r i)))).
    - rewrite bsum_swap. apply bsum_all_zero. intros i Hi. rewrite bsum_scal, bsum_swap.
      rewrite (bsum_ext k _ (fun q => G q i * r q)); [rewrite (Nm i Hi); ring|].
      intros q Hq. unfold G. now rewrite bsum_scal_r.
    - intros q Hq. rewrite <- bsum_scal_r. apply bsum_ext. intros i Hi.
      rewrite (bsum_ext k (fun i0 => n_z q i0 * n_z q i * r i0) (fun i0 => n_z q i * (n_z q i0 * r i0))) by (intros; ring).
      rewrite bsum_scal. ring. }
  assert (E2 : forall i, (i < k)%nat -> r i = 0).
  { apply (fsq_zero k r). unfold fsq, fdot.
    rewrite (bsum_ext k _ (fun i => bsum p (fun l => (s l - c l) * (n_z l i * r i)))).
    - rewrite bsum_swap. apply bsum_all_zero. intros l Hl. rewrite bsum_scal, E1 by easy. ring.
    - intros i Hi. rewrite (Er i Hi) at 1. rewrite <- bsum_scal_r. apply bsum_ext. intros; ring. }
  intros Hj. specialize (E2 j Hj). rewrite (Er j Hj) in E2.
  rewrite (bsum_ext p _ (fun l => n_z l j * s l - n_z l j * c l)) in E2 by (intros; ring).
  rewrite bsum_minus in E2. lra.
Qed.

Lemma s_minimal : fsq p s <= fsq p c.
Proof.
  assert (O : bsum p (fun l => s l * (c l - s l)) = 0).
  { rewrite (bsum_ext p _ (fun l => bsum k (fun j => w j * (n_z l j * c l - n_z l j * s l)))).
    - rewrite bsum_swap. apply bsum_all_zero. intros j Hj. rewrite bsum_scal, bsum_minus, s_solves by easy. ring.
    - intros l _. rewrite (s_is l) at 1. rewrite <- bsum_scal_r. apply bsum_ext. intros; ring. }
  unfold fsq, fdot. rewrite (bsum_ext p (fun i => c i * c i)
     (fun i => s i * s i + (2 * (s i * (c i - s i)) + (c i - s i) * (c i - s i)))) by (intros; ring).
  rewrite !bsum_plus, bsum_scal, O.
  assert (0 <= bsum p (fun i => (c i - s i) * (c i - s i))) by (apply bsum_nonneg; intros; apply Rle_0_sqr). lra.
Qed.

Lemma fit_interpolates : columns_independent (n + 1) (n + 1) (m_mat n X) ->
  forall i, (i < N)%nat ->
    bsum (n + 1) (fun j => m_mat n X i j * alpha j) + bsum p (fun l => n_mat n X i l * s l) = y i.
Proof.
  intros CI. set (rhs := fun i => y i - bsum p (fun l => n_mat n X i l * s l)).
  set (e := fun i => bsum (n + 1) (fun j => m_mat n X i j * alpha j) - rhs i).
  assert (TOP : forall i, (i < n + 1)%nat -> e i = 0).
  { pose proof (lstsq_normal _ _ _ _ _ (proj1 (LS (n + 1)%nat (n + 1)%nat (m_mat n X) rhs))) as Nm.
    change (lstsq (n + 1)%nat (n + 1)%nat (m_mat n X) rhs) with alpha in Nm.
    apply (fdet_rows_independent _ _ (kernel_det _ _ CI)). intros j Hj. specialize (Nm j Hj).
    rewrite <- Nm. apply bsum_ext. intros i _. unfold e. ring. }
  assert (ALL : forall i, (i < N)%nat -> e i = 0).
  { apply top_determines; try easy. intros l Hl. unfold e, rhs.
    rewrite (bsum_ext N _ (fun i => bsum (n + 1) (fun j => alpha j * (z_mat Q n i l * m_mat n X i j))
        - (z_mat Q n i l * y i - bsum p (fun q => s q * (n_mat n X i q * Q i (n + 1 + l)%nat))))).
    - rewrite !bsum_minus, bsum_swap, (bsum_all_zero (n + 1)).
      + rewrite z_y by easy. rewrite <- s_solves by easy. rewrite bsum_swap.
        rewrite (bsum_ext p (fun j => bsum N _) (fun q => n_z q l * s q)); [ring|].
        intros q _. rewrite bsum_scal. unfold n_z, n_z_mat. ring.
      + intros j Hj. rewrite bsum_scal, z_m by easy. ring.
    - intros i _. rewrite !Rmult_minus_distr_l, <- !bsum_scal. f_equal; [apply bsum_ext; intros; ring|].
      f_equal. apply bsum_ext. intros; unfold z_mat; ring. }
  intros i Hi. specialize (ALL i Hi). unfold e, rhs in ALL. lra.
Qed.
End Fit.

(** * C165 *)

Lemma list_as_map (c : list R) : map (fun j => nth j c 0) (seq 0 (length c)) = c.
Proof.
  induction c as [|a c IH]; [reflexivity|]. cbn [length seq map nth]. f_equal.
  now rewrite <- seq_shift, map_map.
Qed.
Lemma dot_features n X i c : length c = n_free_params n Quadratic ->
  dot c (feature_row n Quadratic (X i))
  = bsum (n + 1) (fun j => m_mat n X i j * nth j c 0)
    + bsum (n_second_order_terms n) (fun l => n_mat n X i l * nth (n + 1 + l) c 0).
Proof.
  intros L. cbn [n_free_params] in L.
  assert (L2 : length (feature_row n Quadratic (X i)) = (n + 1 + n_second_order_terms n)%nat)
    by (rewrite n_features_row, n_features_free; reflexivity).
  transitivity (bsum (n + 1 + n_second_order_terms n) (fun j => m_mat n X i j * nth j c 0));
    [|exact (bsum_app (n + 1) (n_second_order_terms n) (fun j => m_mat n X i j * nth j c 0))].
  unfold m_mat, feature_matrix. rewrite (bsum_dot_fun _ (fun j => nth j c 0)) by easy.
  now rewrite <- L, list_as_map.
Qed.

Lemma second_order_sum n c : length c = n_free_params n Quadratic ->
  dot (second_order n c) (second_order n c) = fsq (n_second_order_terms n) (fun l => nth (n + 1 + l) c 0).
Proof.
  intros L. cbn [n_free_params] in L. unfold second_order, fsq, fdot.
  assert (Ls : length (skipn (n + 1) c) = n_second_order_terms n) by (rewrite skipn_length; lia).
  assert (NS : forall l, nth l (skipn (n + 1) c) 0 = nth (n + 1 + l) c 0).
  { intros l. rewrite <- (firstn_skipn (n + 1) c) at 2. rewrite app_nth2; rewrite firstn_length; [|lia]. f_equal. lia. }
  rewrite <- (bsum_ext _ (fun l => nth l (skipn (n + 1) c) 0 * nth l (skipn (n + 1) c) 0)) by (intros; now rewrite NS).
  rewrite (bsum_dot _ (fun l => nth l (skipn (n + 1) c) 0) (skipn (n + 1) c) Ls).
  now rewrite <- Ls, list_as_map.
Qed.

(** fit_powell between the linear and the just identified quadratic case. *)
Lemma powell_is lstsq qr N n X y : (n + 1 < N < n_free_params n Quadratic)%nat ->
  exists c, fit_powell lstsq qr N n Quadratic X y = Ok c /\ length c = n_free_params n Quadratic /\
    (forall j, (j < n + 1)%nat -> nth j c 0 = fst (frobenius_coefs qr lstsq N n X y) j) /\
    (forall l, (l < n_second_order_terms n)%nat -> nth (n + 1 + l) c 0 = snd (frobenius_coefs qr lstsq N n X y) l).
Proof.
  intros H. cbn [n_free_params] in *. unfold fit_powell.
  destruct (Nat.leb_spec N (n + 1)); [lia|]. destruct (Nat.leb_spec (n + 1 + n_second_order_terms n) N); [lia|].
  unfold fit_frobenius. change (n * (n + 1) / 2)%nat with (n_second_order_terms n).
  destruct (Nat.leb_spec N (n + 1)); [lia|]. destruct (Nat.leb_spec (n + n_second_order_terms n + 1) N); [lia|].
  destruct (frobenius_coefs qr lstsq N n X y) as [al s]. eexists. split; [reflexivity|].
  rewrite app_length, !map_length, !seq_length. split; [lia|]. cbn [fst snd]. split.
  - intros j Hj. rewrite app_nth1 by (rewrite map_length, seq_length; lia).
    rewrite nth_indep with (d' := al 0%nat) by (rewrite map_length, seq_length; lia).
    rewrite map_nth, seq_nth by lia. reflexivity.
  - intros l Hl. rewrite app_nth2; rewrite map_length, seq_length; [|lia].
    replace (n + 1 + l - (1 + n))%nat with l by lia.
    rewrite nth_indep with (d' := s 0%nat) by (rewrite map_length, seq_length; lia).
    rewrite map_nth, seq_nth by lia. reflexivity.
Qed.

Lemma independent_columns n X : first_points_independent n X -> columns_independent (n + 1) (n + 1) (m_mat n X).
Proof.
  intros H w Hw. destruct (H (w 0%nat) (fun j => w (S j))) as [W0 W1].
  - intros i Hi. rewrite <- (Hw i Hi). rewrite Nat.add_1_r, bsum_shift. unfold m_mat, feature_matrix, feature_row. cbn [nth].
    rewrite Rmult_1_l. f_equal. apply bsum_ext. intros j Hj. unfold quadratic_features.
    rewrite app_nth1 by (rewrite map_length, seq_length; easy).
    rewrite nth_indep with (d' := X i 0%nat) by (rewrite map_length, seq_length; easy).
    rewrite map_nth, seq_nth by easy. cbn. ring.
  - intros [|j] Hj; [easy|]. apply W1. lia.
Qed.

(** C165 - with more points than a linear model needs and fewer than a quadratic one, fit_powell
    returns, of all quadratics through the points, the one with the smallest sum of squared second
    order coefficients.  Missing: samples in which the first n + 1 points lie on a hyperplane (the
    linear terms are computed from these points only), for which it is false (below). *)
Theorem C165_smallest_second_order_coefficients_partial :
  forall lstsq qr N n X y c0,
    exact_lstsq lstsq -> exact_qr qr ->
    (n + 1 < N < n_free_params n Quadratic)%nat ->
    first_points_independent n X -> interpolates N n X y c0 ->
    exists c, fit_powell lstsq qr N n Quadratic X y = Ok c /\ interpolates N n X y c /\
      forall c', interpolates N n X y c' ->
        dot (second_order n c) (second_order n c) <= dot (second_order n c') (second_order n c').
Proof.
  intros lstsq qr N n X y c0 LS QR HN FI [L0 I0].
  destruct (powell_is lstsq qr N n X y HN) as (c & E & L & C1 & C2). exists c. split; [easy|].
  assert (HY : forall c, interpolates N n X y c -> forall i, (i < N)%nat ->
     bsum (n + 1) (fun j => m_mat n X i j * nth j c 0)
     + bsum (n_second_order_terms n) (fun l => n_mat n X i l * nth (n + 1 + l) c 0) = y i).
  { intros c' [L' I'] i Hi. rewrite <- (I' i Hi). symmetry. now apply dot_features. }
  assert (Hn : (n + 1 < N)%nat) by lia.
  split; [split; [easy|]|].
  - intros i Hi. rewrite dot_features by easy.
    rewrite <- (fit_interpolates qr lstsq N n X y LS Hn (QR N (m_mat_pad n X)) (fun j => nth j c0 0)
                 (fun l => nth (n + 1 + l) c0 0) (HY c0 (conj L0 I0)) (independent_columns n X FI) i Hi).
    f_equal; apply bsum_ext; intros j Hj; [now rewrite C1|now rewrite C2].
  - intros c' I'. pose proof (proj1 I') as L'. rewrite !second_order_sum by easy.
    rewrite (fsq_ext _ (fun l => nth (n + 1 + l) c 0) (snd (frobenius_coefs qr lstsq N n X y))) by (intros l Hl; now apply C2).
    apply (s_minimal qr lstsq N n X y LS Hn (QR N (m_mat_pad n X)) (fun j => nth j c' 0) (fun l => nth (n + 1 + l) c' 0)).
    now apply HY.
Qed.

(** C165 - in particular a linear function is fitted exactly, without second order terms. *)
Theorem C165_linear_functions_partial :
  forall lstsq qr N n X b v,
    exact_lstsq lstsq -> exact_qr qr ->
    (n + 1 < N < n_free_params n Quadratic)%nat ->
    first_points_independent n X ->
    fit_powell lstsq qr N n Quadratic X (fun i => b + bsum n (fun j => v j * X i j))
    = Ok (b :: map v (seq 0 n) ++ repeat 0 (n_second_order_terms n)).
Proof.
  intros lstsq qr N n X b v LS QR HN FI. set (y := fun i => b + bsum n (fun j => v j * X i j)).
  set (c0 := b :: map v (seq 0 n) ++ repeat 0 (n_second_order_terms n)).
  assert (L0 : length c0 = n_free_params n Quadratic).
  { unfold c0. cbn [length n_free_params]. rewrite app_length, map_length, seq_length, repeat_length. lia. }
  assert (S0 : second_order n c0 = repeat 0 (n_second_order_terms n)).
  { unfold second_order, c0. rewrite Nat.add_1_r. cbn [skipn].
    rewrite <- (seq_length n 0) at 1. rewrite <- (map_length v), skipn_app, skipn_all, Nat.sub_diag. reflexivity. }
  assert (I0 : interpolates N n X y c0).
  { split; [easy|]. intros i _. unfold c0, feature_row, quadratic_features. rewrite dot_cons, dot_app by now rewrite !map_length.
    rewrite dot_repeat0, <- (bsum_dot n (X i) (map v (seq 0 n))) by now rewrite map_length, seq_length.
    unfold y. rewrite (bsum_ext n (fun j => nth j (map v (seq 0 n)) 0 * X i j) (fun j => v j * X i j)); [ring|].
    intros j Hj. rewrite nth_indep with (d' := v 0%nat) by (rewrite map_length, seq_length; easy).
    now rewrite map_nth, seq_nth. }
  destruct (C165_smallest_second_order_coefficients_partial lstsq qr N n X y c0 LS QR HN FI I0)
    as (c & E & [L I] & M). rewrite E. f_equal.
  assert (Z : forall l, (l < n_second_order_terms n)%nat -> nth (n + 1 + l) c 0 = 0).
  { specialize (M c0 I0). rewrite S0, dot_repeat0, second_order_sum in M by easy.
    apply (fsq_zero _ (fun l => nth (n + 1 + l) c 0)). pose proof (fsq_nonneg (n_second_order_terms n) (fun l => nth (n + 1 + l) c 0)). lra. }
  assert (Z0 : forall l, (l < n_second_order_terms n)%nat -> nth (n + 1 + l) c0 0 = 0).
  { intros l Hl. rewrite <- (firstn_skipn (n + 1) c0). fold (second_order n c0). rewrite S0.
    rewrite app_nth2; rewrite firstn_length; [|lia]. apply nth_repeat. }
  assert (D : forall j, (j < n + 1)%nat -> nth j c 0 - nth j c0 0 = 0).
  { apply (independent_columns n X FI). intros i Hi.
    rewrite (bsum_ext (n + 1) _ (fun k => m_mat n X i k * nth k c 0 - m_mat n X i k * nth k c0 0)) by (intros; ring).
    rewrite bsum_minus. pose proof (I i ltac:(lia)) as E1. pose proof (proj2 I0 i ltac:(lia)) as E2.
    rewrite dot_features in E1, E2 by easy.
    rewrite (bsum_all_zero (n_second_order_terms n)) in E1 by (intros; rewrite Z by easy; ring).
    rewrite (bsum_all_zero (n_second_order_terms n)) in E2 by (intros; rewrite Z0 by easy; ring). lra. }
  apply nth_ext with 0 0; [congruence|]. intros j Hj. rewrite L in Hj. cbn [n_free_params] in Hj.
  destruct (Nat.lt_ge_cases j (n + 1)) as [H|H]; [specialize (D j H); lra|].
  replace j with (n + 1 + (j - (n + 1)))%nat by lia. rewrite Z, Z0 by lia. reflexivity.
Qed.

(** Both kinds of solvers exist. *)
Example C165_instance_solvers : exact_lstsq min_norm_ls /\ exact_qr (fun N A => gram_schmidt N A N).
Proof. split; [exact min_norm_ls_ok|exact gram_schmidt_qr]. Qed.

Definition points4 (l : list (R * R)) : nat -> fvec :=
  fun i j => let p := nth i l (0, 0) in match j with O => fst p | S O => snd p | _ => 0 end.

(** C165 - four points in the plane whose first three lie on a line.  The points do not lie on a
    line and the function x_2 is linear, but the fitted model is constantly zero. *)
Definition collinear_first : nat -> fvec := points4 [(-1, 0); (0, 0); (1, 0); (0, 1)].
Theorem C165_linear_functions_refuted :
  forall lstsq qr, exact_lstsq lstsq -> exact_qr qr ->
    let X := collinear_first in
    (forall b v, (forall i, (i < 4)%nat -> b + bsum 2 (fun j => v j * X i j) = 0) ->
       b = 0 /\ forall j, (j < 2)%nat -> v j = 0) /\
    interpolates 4 2 X (fun i => X i 1%nat) [0; 0; 1; 0; 0; 0] /\
    fit_powell lstsq qr 4 2 Quadratic X (fun i => X i 1%nat) = Ok [0; 0; 0; 0; 0; 0] /\
    ~ interpolates 4 2 X (fun i => X i 1%nat) [0; 0; 0; 0; 0; 0].
Proof.
  intros lstsq qr LS QR X. split; [|split; [|split]].
  - intros b v H. pose proof (H 0%nat ltac:(lia)) as H0. pose proof (H 1%nat ltac:(lia)) as H1.
    pose proof (H 3%nat ltac:(lia)) as H3. cbn in H0, H1, H3. split; [lra|].
    intros [|[|j]] Hj; [lra|lra|lia].
  - split; [reflexivity|]. intros i Hi. unfold dot. destruct i as [|[|[|[|i]]]]; [..|lia]; cbn; ring.
  - assert (HN : (2 + 1 < 4 < n_free_params 2 Quadratic)%nat) by (cbn; lia).
    destruct (powell_is lstsq qr 4 2 X (fun i => X i 1%nat) HN) as (c & E & L & C1 & C2). rewrite E. f_equal.
    assert (ES : forall l, (l < 3)%nat -> snd (frobenius_coefs qr lstsq 4 2 X (fun i => X i 1%nat)) l = 0).
    { apply (fsq_zero 3). apply Rle_antisym; [|apply fsq_nonneg].
      eapply Rle_trans; [apply (s_minimal qr lstsq 4 2 X (fun i => X i 1%nat) LS ltac:(lia) (QR 4%nat (m_mat_pad 2 X))
         (fun j => match j with 2%nat => 1 | _ => 0 end) (fun _ => 0))|].
      - intros i Hi. destruct i as [|[|[|[|i]]]]; [..|lia]; cbn; ring.
      - right. unfold fsq, fdot. apply bsum_all_zero. intros; ring. }
    assert (EA : forall l, (l < 3)%nat -> fst (frobenius_coefs qr lstsq 4 2 X (fun i => X i 1%nat)) l = 0).
    { apply (fsq_zero 3). apply Rle_antisym; [|apply fsq_nonneg].
      set (s := snd (frobenius_coefs qr lstsq 4 2 X (fun i => X i 1%nat))) in *.
      set (rhs := fun i => X i 1%nat - bsum 3 (fun a => n_mat 2 X i a * s a)).
      change (fsq 3 (lstsq 3%nat 3%nat (m_mat 2 X) rhs) <= 0).
      destruct (LS 3%nat 3%nat (m_mat 2 X) rhs) as [_ M]. eapply Rle_trans; [apply (M (fun _ => 0))|].
      - intros c'. apply Rle_trans with 0; [|apply bsum_nonneg; intros; apply pow2_ge_0]. right.
        apply bsum_all_zero. intros i Hi. rewrite (bsum_all_zero 3 (fun j => m_mat 2 X i j * 0)) by (intros; ring).
        unfold rhs. rewrite (bsum_all_zero 3 (fun a => n_mat 2 X i a * s a)) by (intros; rewrite ES by easy; ring).
        destruct i as [|[|[|i]]]; [..|lia]; cbn; ring.
      - right. unfold fsq, fdot. apply bsum_all_zero. intros; ring. }
    cbn in L. pose proof (C1 0%nat ltac:(lia)) as A0. pose proof (C1 1%nat ltac:(lia)) as A1. pose proof (C1 2%nat ltac:(lia)) as A2.
    pose proof (C2 0%nat ltac:(cbn; lia)) as B0. pose proof (C2 1%nat ltac:(cbn; lia)) as B1. pose proof (C2 2%nat ltac:(cbn; lia)) as B2.
    rewrite EA in A0, A1, A2 by lia. rewrite ES in B0, B1, B2 by lia.
    destruct c as [|a0 [|a1 [|a2 [|b0 [|b1 [|b2 [|]]]]]]]; try discriminate L. cbn in *. congruence.
  - intros [_ H]. specialize (H 3%nat ltac:(lia)). unfold dot in H. cbn in H. lra.
Qed.

(** * C166 *)

(** Sum of the squared entries. *)
Definition frobenius2 (n : nat) (h : fmat) : R := bsum n (fun i => bsum n (fun j => h i j ^ 2)).

Lemma assign_sum_sq n h p v : (fst p < n)%nat -> (snd p < n)%nat -> h (fst p) (snd p) = 0 ->
  frobenius2 n (assign h p v) = frobenius2 n h + v * v.
Proof.
  intros H1 H2 H0. unfold frobenius2.
  rewrite (bsum_ext n _ (fun i => bsum n (fun j => h i j ^ 2) + (if (i =? fst p)%nat then v * v else 0))).
  - now rewrite bsum_plus, bsum_single by easy.
  - intros i Hi. destruct (Nat.eqb_spec i (fst p)) as [->|N].
    + rewrite (bsum_ext n _ (fun j => h (fst p) j ^ 2 + (if (j =? snd p)%nat then v * v else 0))).
      * now rewrite bsum_plus, bsum_single by easy.
      * intros j Hj. destruct (Nat.eqb_spec j (snd p)) as [->|M].
        -- rewrite assign_same, H0. ring.
        -- rewrite assign_other by (destruct p; simpl in *; congruence). ring.
    + rewrite Rplus_0_r. apply bsum_ext. intros j Hj.
      now rewrite assign_other by (destruct p; simpl in *; congruence).
Qed.
Lemma assign_all_sum_sq n ps : forall vs h,
  NoDup ps -> (forall p, In p ps -> (fst p < n)%nat /\ (snd p < n)%nat) ->
  (forall p, In p ps -> h (fst p) (snd p) = 0) -> length vs = length ps ->
  frobenius2 n (assign_all h ps vs) = frobenius2 n h + dot vs vs.
Proof.
  induction ps as [|p ps IH]; intros [|v vs] h ND HB H0 HL; try discriminate.
  - unfold assign_all, dot. simpl. ring.
  - unfold assign_all. simpl. fold (assign_all (assign h p v) ps vs).
    inversion ND; subst. rewrite IH; auto.
    + rewrite assign_sum_sq; try (now apply HB; left). 2:{ apply H0. now left. }
      rewrite dot_cons. ring.
    + intros q Hq. apply HB. now right.
    + intros q Hq. rewrite assign_other; [apply H0; now right|].
      rewrite <- surjective_pairing. now intros ->.
Qed.

Lemma reshape_norm n vs h : reshape_square_terms_to_hess n vs = Ok h -> length vs = n_second_order_terms n ->
  2 * dot vs vs <= frobenius2 n h <= 4 * dot vs vs.
Proof.
  intros H HL. unfold reshape_square_terms_to_hess in H.
  rewrite triu_indices_quad_pairs, quad_pairs_length, HL, Nat.eqb_refl in H. cbn [bind] in H.
  injection H as <-. set (u := assign_all (fun _ _ => 0) (quad_pairs n) vs).
  assert (U0 : forall i j, (j < i)%nat -> u i j = 0).
  { intros i j Hij. unfold u. rewrite assign_all_notin; [easy|]. rewrite quad_pairs_In. simpl. lia. }
  assert (U : frobenius2 n u = dot vs vs).
  { unfold u. rewrite assign_all_sum_sq.
    - unfold frobenius2. rewrite bsum_all_zero; [ring|]. intros. apply bsum_all_zero. intros. ring.
    - apply quad_pairs_NoDup.
    - intros p Hp. apply quad_pairs_In in Hp. lia.
    - easy.
    - now rewrite quad_pairs_length. }
  set (m := fun i j => if (j <=? i)%nat then u j i else 0).
  assert (UM : frobenius2 n m = dot vs vs).
  { rewrite <- U. unfold frobenius2, m. rewrite bsum_swap. apply bsum_ext. intros i Hi. apply bsum_ext. intros j Hj.
    destruct (Nat.leb_spec i j); [easy|]. rewrite U0 by lia. ring. }
  assert (C : forall i j, 0 <= u i j * m i j).
  { intros i j. unfold m. destruct (Nat.leb_spec j i); [|lra]. destruct (Nat.eq_dec i j) as [->|]; [apply Rle_0_sqr|].
    rewrite (U0 i j) by lia. lra. }
  change (2 * dot vs vs <= frobenius2 n (fun i j => u i j + m i j) <= 4 * dot vs vs).
  assert (S1 : frobenius2 n u + frobenius2 n m <= frobenius2 n (fun i j => u i j + m i j)).
  { unfold frobenius2. rewrite <- bsum_plus. apply bsum_le. intros i Hi. rewrite <- bsum_plus. apply bsum_le. intros j Hj.
    specialize (C i j). simpl. lra. }
  assert (S2 : frobenius2 n (fun i j => u i j + m i j) <= 2 * frobenius2 n u + 2 * frobenius2 n m).
  { unfold frobenius2. rewrite <- !bsum_scal, <- bsum_plus. apply bsum_le. intros i Hi.
    rewrite <- !bsum_scal, <- bsum_plus. apply bsum_le. intros j Hj.
    pose proof (pow2_ge_0 (u i j - m i j)). simpl in *. lra. }
  rewrite U, UM in *. lra.
Qed.

(** C166 - the sum of squares of the Hessian of the fit is at most twice that of any other quadratic
    through the points.  Missing: "smallest", which the function's name and documentation claim and
    which is false (below). *)
Theorem C166_hessian_norm_partial :
  forall lstsq qr N n X y c c' m center radius vm vm' h h',
    exact_lstsq lstsq -> exact_qr qr ->
    (n + 1 < N < n_free_params n Quadratic)%nat ->
    first_points_independent n X ->
    fit_powell lstsq qr N n Quadratic X y = Ok c -> interpolates N n X y c' ->
    build_vmodel n m Quadratic (fun _ => c) center radius = Ok vm -> vm_h vm = Some h ->
    build_vmodel n m Quadratic (fun _ => c') center radius = Ok vm' -> vm_h vm' = Some h' ->
    frobenius2 n (h 0%nat) <= 2 * frobenius2 n (h' 0%nat).
Proof.
  intros lstsq qr N n X y c c' m center radius vm vm' h h' LS QR HN FI E I B Hh B' Hh'.
  destruct (C165_smallest_second_order_coefficients_partial lstsq qr N n X y c' LS QR HN FI I)
    as (c2 & E2 & [L _] & M). rewrite E in E2. injection E2 as <-. specialize (M c' I).
  assert (R0 : forall c vm h, length c = n_free_params n Quadratic -> build_vmodel n m Quadratic (fun _ => c) center radius = Ok vm ->
     vm_h vm = Some h -> 2 * dot (second_order n c) (second_order n c) <= frobenius2 n (h 0%nat)
       <= 4 * dot (second_order n c) (second_order n c)).
  { clear. intros c vm h L B Hh. unfold build_vmodel in B. fold (second_order n c) in B.
    destruct (reshape_square_terms_to_hess n (second_order n c)) as [h0|] eqn:R; [|discriminate].
    cbn [bind] in B. injection B as <-. cbn [vm_h] in Hh. injection Hh as <-.
    apply (reshape_norm n _ h0 R). unfold second_order. rewrite skipn_length, L. cbn [n_free_params]. lia. }
  destruct (R0 c vm h L B Hh) as [_ R1]. destruct (R0 c' vm' h' (proj1 I) B' Hh') as [R2 _]. lra.
Qed.

(** C166 - the points (0, 0), (1, 0), (0, 1), (-1, 1) and the function x_1 ^ 2: the fitted Hessian
    has the sum of squares 72 / 25, another quadratic through the points 24 / 9. *)
Definition skew_points : nat -> fvec := points4 [(0, 0); (1, 0); (0, 1); (-1, 1)].
Lemma skew_independent : first_points_independent 2 skew_points.
Proof.
  intros b v H. pose proof (H 0%nat ltac:(lia)) as H0. pose proof (H 1%nat ltac:(lia)) as H1.
  pose proof (H 2%nat ltac:(lia)) as H2. cbn in H0, H1, H2. split; [lra|]. intros [|[|j]] Hj; [lra|lra|lia].
Qed.
Lemma skew_values c : interpolates 4 2 skew_points (fun i => skew_points i 0%nat ^ 2) c ->
  exists a b p q r, c = [0; a; b; p; q; r] /\ a = 1 - p /\ b = - r /\ 2 * p - q = 2.
Proof.
  intros [L H]. cbn in L. destruct c as [|c0 [|a [|b [|p [|q [|r [|]]]]]]]; try discriminate L.
  pose proof (H 0%nat ltac:(lia)) as H0. pose proof (H 1%nat ltac:(lia)) as H1.
  pose proof (H 2%nat ltac:(lia)) as H2. pose proof (H 3%nat ltac:(lia)) as H3.
  unfold dot in H0, H1, H2, H3. cbn in H0, H1, H2, H3.
  assert (c0 = 0) as -> by lra. exists a, b, p, q, r. split; [easy|]. lra.
Qed.
Lemma hessian2 c0 a b p q r : exists vm h, build_vmodel 2 1 Quadratic (fun _ => [c0; a; b; p; q; r]) (fun _ => 0) (MScalar 1) = Ok vm /\
  vm_h vm = Some h /\ frobenius2 2 (h 0%nat) = 4 * p ^ 2 + 2 * q ^ 2 + 4 * r ^ 2.
Proof.
  eexists _, _. split; [reflexivity|]. split; [reflexivity|]. unfold frobenius2. cbn. ring.
Qed.
Theorem C166_smallest_hessian_refuted :
  forall lstsq qr, exact_lstsq lstsq -> exact_qr qr ->
    exists c c' vm vm' h h',
      fit_powell lstsq qr 4 2 Quadratic skew_points (fun i => skew_points i 0%nat ^ 2) = Ok c /\
      interpolates 4 2 skew_points (fun i => skew_points i 0%nat ^ 2) c' /\
      build_vmodel 2 1 Quadratic (fun _ => c) (fun _ => 0) (MScalar 1) = Ok vm /\ vm_h vm = Some h /\
      build_vmodel 2 1 Quadratic (fun _ => c') (fun _ => 0) (MScalar 1) = Ok vm' /\ vm_h vm' = Some h' /\
      frobenius2 2 (h' 0%nat) < frobenius2 2 (h 0%nat).
Proof.
  intros lstsq qr LS QR.
  set (c' := [0; 1 / 3; 0; 2 / 3; - (2 / 3); 0]). set (best := [0; 1 / 5; 0; 4 / 5; - (2 / 5); 0]).
  assert (I' : forall p q, 2 * p - q = 2 -> interpolates 4 2 skew_points (fun i => skew_points i 0%nat ^ 2) [0; 1 - p; 0; p; q; 0]).
  { intros p q H. split; [reflexivity|]. intros i Hi. unfold dot. destruct i as [|[|[|[|i]]]]; [..|lia]; cbn; lra. }
  assert (HN : (2 + 1 < 4 < n_free_params 2 Quadratic)%nat) by (cbn; lia).
  destruct (C165_smallest_second_order_coefficients_partial lstsq qr 4 2 skew_points _ _ LS QR HN skew_independent (I' (4 / 5) (- (2 / 5)) ltac:(lra)))
    as (c & E & I & M).
  specialize (M _ (I' (4 / 5) (- (2 / 5)) ltac:(lra))).
  destruct (skew_values c I) as (a & b & p & q & r & -> & Ea & Eb & Epq).
  unfold second_order, dot in M. cbn in M.
  assert (p = 4 / 5) as -> by nra. assert (q = - (2 / 5)) as -> by lra. assert (r = 0) as -> by nra.
  destruct (hessian2 0 a b (4 / 5) (- (2 / 5)) 0) as (vm & h & B & Hh & F).
  destruct (hessian2 0 (1 - 2 / 3) 0 (2 / 3) (- (2 / 3)) 0) as (vm' & h' & B' & Hh' & F').
  eexists _, _, vm, vm', h, h'. split; [exact E|]. split; [apply (I' (2 / 3) (- (2 / 3))); lra|].
  split; [exact B|]. split; [exact Hh|]. split; [exact B'|]. split; [exact Hh'|]. rewrite F, F'. lra.
Qed.

(** The hypotheses of the theorems are met by these points: the fit gives x_1 / 5 + 4 / 5 x_1 ^ 2 -
    2 / 5 x_1 x_2. *)
Example C165_instance :
  fit_powell min_norm_ls (fun N A => gram_schmidt N A N) 4 2 Quadratic skew_points (fun i => skew_points i 0%nat ^ 2)
  = Ok [0; 1 / 5; 0; 4 / 5; - (2 / 5); 0] /\
  fit_powell min_norm_ls (fun N A => gram_schmidt N A N) 4 2 Quadratic skew_points
    (fun i => 7 + bsum 2 (fun j => (match j with O => 2 | _ => 3 end) * skew_points i j))
  = Ok [7; 2; 3; 0; 0; 0].
Proof.
  assert (HN : (2 + 1 < 4 < n_free_params 2 Quadratic)%nat) by (cbn; lia).
  destruct C165_instance_solvers as [LS QR]. split.
  - assert (I' : interpolates 4 2 skew_points (fun i => skew_points i 0%nat ^ 2) [0; 1 / 5; 0; 4 / 5; - (2 / 5); 0]).
    { split; [reflexivity|]. intros i Hi. unfold dot. destruct i as [|[|[|[|i]]]]; [..|lia]; cbn; lra. }
    destruct (C165_smallest_second_order_coefficients_partial _ _ 4 2 skew_points _ _ LS QR HN skew_independent I') as (c & E & I & M).
    rewrite E. specialize (M _ I'). destruct (skew_values c I) as (a & b & p & q & r & -> & Ea & Eb & Epq).
    unfold second_order, dot in M. cbn in M.
    assert (p = 4 / 5) as -> by nra. assert (q = - (2 / 5)) as -> by lra. assert (r = 0) as -> by nra.
    assert (a = 1 / 5) as -> by lra. assert (b = 0) as -> by lra. reflexivity.
  - now rewrite (C165_linear_functions_partial _ _ 4 2 skew_points 7 (fun j => match j with O => 2 | _ => 3 end) LS QR HN skew_independent).
Qed.
