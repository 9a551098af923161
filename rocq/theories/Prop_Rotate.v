(** C207: the order and the orthogonal coordinates of the residuals do not matter. *)
From Coq Require Import Reals List Arith Bool Lia Lra Permutation.
From Verif Require Import Base XR FVec ModelsModel FitModel Prop_Fit LstsqProofs Prop_Geometry Prop_Frobenius.
Import ListNotations.
Open Scope R_scope.

(** * Least squares solutions of minimal norm are linear in the right hand side *)

Lemma min_norm_orthogonal N p A b c v : is_min_norm_lstsq N p A b c ->
  (forall i, (i < N)%nat -> bsum p (fun j => A i j * v j) = 0) -> fdot p c v = 0.
Proof.
  intros [L M] Z. destruct (Req_dec (fsq p v) 0) as [V|V].
  { unfold fdot. apply bsum_all_zero. intros j Hj. rewrite (fsq_zero p v V j Hj). ring. }
  assert (VP : 0 < fsq p v) by (pose proof (fsq_nonneg p v); lra).
  set (t := fdot p c v / fsq p v). assert (T : t * fsq p v = fdot p c v) by (unfold t; field; lra).
  assert (L' : is_lstsq N p A b (fsub c (fscale t v))).
  { intros c'. specialize (L c'). eapply Rle_trans; [|exact L]. apply Req_le. unfold ssr. apply bsum_ext. intros i Hi.
    f_equal. f_equal. rewrite (bsum_ext p _ (fun j => A i j * c j - t * (A i j * v j))).
    - rewrite bsum_minus, bsum_scal, (Z i Hi). ring.
    - intros j Hj. unfold fsub, fscale. ring. }
  specialize (M _ L'). unfold fsq in M at 2. rewrite fdot_sub_l, !fdot_sub_r, !fdot_scale_l, !fdot_scale_r in M.
  rewrite (fdot_comm p v c) in M. change (fdot p v v) with (fsq p v) in M. change (fdot p c c) with (fsq p c) in M.
  rewrite T in M. assert (Q : t * fdot p c v <= 0) by lra. rewrite <- T in Q.
  assert (t * t * fsq p v <= 0) by lra. 
  assert (T0 : t = 0).
  { destruct (Req_dec t 0) as [|T0]; [easy|]. pose proof (Rsqr_pos_lt t T0) as T2. unfold Rsqr in T2.
    assert (0 < t * t * fsq p v) by (apply Rmult_lt_0_compat; easy). lra. }
  rewrite <- T, T0. ring.
Qed.

Lemma lstsq_linear lstsq N p A m (a : fvec) (Y : nat -> fvec) y : exact_lstsq lstsq ->
  (forall i, (i < N)%nat -> y i = bsum m (fun l => a l * Y l i)) ->
  forall j, (j < p)%nat -> lstsq N p A y j = bsum m (fun l => a l * lstsq N p A (Y l) j).
Proof.
  intros LS HY. set (d := lstsq N p A y). set (c := fun j => bsum m (fun l => a l * lstsq N p A (Y l) j)).
  set (v := fsub d c).
  assert (AC : forall i, bsum p (fun k => A i k * c k) = bsum m (fun l => a l * bsum p (fun k => A i k * lstsq N p A (Y l) k))).
  { intros i. unfold c. rewrite (bsum_ext p _ (fun k => bsum m (fun l => a l * (A i k * lstsq N p A (Y l) k)))).
    - rewrite bsum_swap. apply bsum_ext. intros l _. now rewrite bsum_scal.
    - intros k _. rewrite <- bsum_scal. apply bsum_ext. intros; ring. }
  assert (AV : forall i, bsum p (fun k => A i k * v k) = bsum p (fun k => A i k * d k) - bsum p (fun k => A i k * c k)).
  { intros i. rewrite <- bsum_minus. apply bsum_ext. intros k _. unfold v, fsub. ring. }
  assert (NV : forall j, (j < p)%nat -> bsum N (fun i => A i j * bsum p (fun k => A i k * v k)) = 0).
  { intros j Hj. pose proof (lstsq_normal _ _ _ _ _ (proj1 (LS N p A y)) j Hj) as E. fold d in E.
    assert (F : bsum N (fun i => A i j * (bsum p (fun k => A i k * c k) - y i)) = 0).
    { rewrite (bsum_ext N _ (fun i => bsum m (fun l => a l * (A i j * (bsum p (fun k => A i k * lstsq N p A (Y l) k) - Y l i))))).
      - rewrite bsum_swap. apply bsum_all_zero. intros l _. rewrite bsum_scal.
        rewrite (lstsq_normal _ _ _ _ _ (proj1 (LS N p A (Y l))) j Hj). ring.
      - intros i Hi. rewrite AC, (HY i Hi), <- bsum_minus, <- bsum_scal. apply bsum_ext. intros; ring. }
    rewrite (bsum_ext N _ (fun i => A i j * (bsum p (fun k => A i k * d k) - y i)
                                    - A i j * (bsum p (fun k => A i k * c k) - y i))).
    - rewrite bsum_minus, E, F. ring.
    - intros i _. rewrite AV. ring. }
  assert (Z : forall i, (i < N)%nat -> bsum p (fun k => A i k * v k) = 0).
  { apply fsq_zero. unfold fsq, fdot.
    rewrite (bsum_ext N _ (fun i => bsum p (fun j => v j * (A i j * bsum p (fun k => A i k * v k))))).
    - rewrite bsum_swap. apply bsum_all_zero. intros j Hj. rewrite bsum_scal, (NV j Hj). ring.
    - intros i _. rewrite <- bsum_scal_r at 1. apply bsum_ext. intros; ring. }
  assert (D : fdot p d v = 0) by exact (min_norm_orthogonal _ _ _ _ _ v (LS N p A y) Z).
  assert (C : fdot p c v = 0).
  { unfold fdot, c. rewrite (bsum_ext p _ (fun j => bsum m (fun l => a l * (lstsq N p A (Y l) j * v j)))).
    - rewrite bsum_swap. apply bsum_all_zero. intros l _. rewrite bsum_scal.
      pose proof (min_norm_orthogonal _ _ _ _ _ v (LS N p A (Y l)) Z) as E. unfold fdot in E. rewrite E. ring.
    - intros j _. rewrite <- bsum_scal_r. apply bsum_ext. intros; ring. }
  assert (V : fsq p v = 0) by (unfold fsq; unfold v at 1; rewrite fdot_sub_l; lra).
  intros j Hj. pose proof (fsq_zero p v V j Hj) as E. unfold v, fsub in E. unfold c in E. lra.
Qed.

(** C207 - the fit.  The coefficients of a linear combination of residuals are that combination of
    their coefficients. *)
Theorem C207_fit :
  forall lstsq N n t X w m (a : fvec) (Y : nat -> fvec) y,
    exact_lstsq lstsq -> (forall i, (i < N)%nat -> y i = bsum m (fun l => a l * Y l i)) ->
    forall j, (j < n_features n t)%nat ->
    fit_ols lstsq N n t X y w j = bsum m (fun l => a l * fit_ols lstsq N n t X (Y l) w j) /\
    (forall p0 p1 p2, fit_tranquilo lstsq N n t X y w p0 p1 p2 j
       = bsum m (fun l => a l * fit_tranquilo lstsq N n t X (Y l) w p0 p1 p2 j)) /\
    (forall l1 l2, fit_ridge lstsq N n t X y w l1 l2 j
       = bsum m (fun l => a l * fit_ridge lstsq N n t X (Y l) w l1 l2 j)).
Proof.
  intros lstsq N n t X w m a Y y LS HY j Hj.
  assert (W : forall F, exists F' y' Y', (forall l, add_weighting F (Y l) w = (F', Y' l)) /\
            add_weighting F y w = (F', y') /\ forall i, (i < N)%nat -> y' i = bsum m (fun l => a l * Y' l i)).
  { intros F. destruct w as [w|]; cbn [add_weighting].
    - exists (fun i j => F i j * sqrt (w i)), (fun i => y i * sqrt (w i)), (fun l i => Y l i * sqrt (w i)).
      repeat split; auto. intros i Hi. rewrite (HY i Hi), <- bsum_scal_r. apply bsum_ext. intros; ring.
    - exists F, y, Y. auto. }
  destruct (W (feature_matrix n t X)) as (F & y' & Y' & E1 & E2 & E3).
  split; [|split].
  - unfold fit_ols. rewrite E2. rewrite (lstsq_linear lstsq N _ F m a Y' y' LS E3 j Hj).
    apply bsum_ext. intros l _. now rewrite E1.
  - intros p0 p1 p2. unfold fit_tranquilo. rewrite E2. cbv zeta.
    rewrite (lstsq_linear lstsq N _ _ m a Y' y' LS E3 j Hj). rewrite <- bsum_scal_r.
    apply bsum_ext. intros l _. rewrite E1. ring.
  - intros l1 l2. unfold fit_ridge. rewrite E2. cbv zeta.
    assert (R : forall k, (k < n_features n t)%nat -> bsum N (fun i => F i k * y' i)
              = bsum m (fun l => a l * bsum N (fun i => F i k * Y' l i))).
    { intros k _. rewrite (bsum_ext N _ (fun i => bsum m (fun l => a l * (F i k * Y' l i)))).
      - rewrite bsum_swap. apply bsum_ext. intros l _. now rewrite bsum_scal.
      - intros i Hi. rewrite (E3 i Hi), <- bsum_scal. apply bsum_ext. intros; ring. }
    rewrite (lstsq_linear lstsq _ _ _ m a (fun l j => bsum N (fun i => F i j * Y' l i)) _ LS R j Hj).
    apply bsum_ext. intros l _. now rewrite E1.
Qed.

Lemma frobenius_linear qr lstsq N n X m (a : fvec) (Y : nat -> fvec) y : exact_lstsq lstsq -> (n + 1 <= N)%nat ->
  (forall i, (i < N)%nat -> y i = bsum m (fun l => a l * Y l i)) ->
  (forall j, (j < n + 1)%nat -> fst (frobenius_coefs qr lstsq N n X y) j
     = bsum m (fun l => a l * fst (frobenius_coefs qr lstsq N n X (Y l)) j)) /\
  (forall b, snd (frobenius_coefs qr lstsq N n X y) b
     = bsum m (fun l => a l * snd (frobenius_coefs qr lstsq N n X (Y l)) b)).
Proof.
  intros LS HN HY.
  assert (SQ : forall b, snd (frobenius_coefs qr lstsq N n X y) b
     = bsum m (fun l => a l * snd (frobenius_coefs qr lstsq N n X (Y l)) b)).
  { intros b. unfold frobenius_coefs. cbv zeta. cbn [snd].
    set (k := (N - (n + 1))%nat). set (Q := qr N (m_mat_pad n X)). set (A := fun i j => bsum _ _).
    set (nz := n_z_mat Q N n X).
    assert (R : forall j, (j < k)%nat -> bsum N (fun i => z_mat Q n i j * y i)
              = bsum m (fun l => a l * bsum N (fun i => z_mat Q n i j * Y l i))).
    { intros j _. rewrite (bsum_ext N _ (fun i => bsum m (fun l => a l * (z_mat Q n i j * Y l i)))).
      - rewrite bsum_swap. apply bsum_ext. intros l _. now rewrite bsum_scal.
      - intros i Hi. rewrite (HY i Hi), <- bsum_scal. apply bsum_ext. intros; ring. }
    rewrite (bsum_ext k _ (fun j => bsum m (fun l => a l * (nz b j * lstsq k k A (fun j0 => bsum N (fun i => z_mat Q n i j0 * Y l i)) j)))).
    - rewrite bsum_swap. apply bsum_ext. intros l _. now rewrite bsum_scal.
    - intros j Hj. rewrite (lstsq_linear lstsq k k A m a (fun l j0 => bsum N (fun i => z_mat Q n i j0 * Y l i)) _ LS R j Hj).
      rewrite <- bsum_scal. apply bsum_ext. intros; ring. }
  split; [|exact SQ]. intros j Hj. unfold frobenius_coefs at 1. cbv zeta. cbn [fst].
  set (sq := snd (frobenius_coefs qr lstsq N n X y)) in *.
  set (Sq := fun l => snd (frobenius_coefs qr lstsq N n X (Y l))) in *.
  change (lstsq (n + 1)%nat (n + 1)%nat (m_mat n X)
            (fun i => y i - bsum (n_second_order_terms n) (fun b => n_mat n X i b * sq b)) j
          = bsum m (fun l => a l * lstsq (n + 1)%nat (n + 1)%nat (m_mat n X)
            (fun i => Y l i - bsum (n_second_order_terms n) (fun b => n_mat n X i b * Sq l b)) j)).
  apply (lstsq_linear lstsq (n + 1) (n + 1) (m_mat n X) m a
           (fun l i => Y l i - bsum (n_second_order_terms n) (fun b => n_mat n X i b * Sq l b)) _ LS); [|exact Hj].
  intros i Hi. rewrite (HY i) by lia.
  rewrite (bsum_ext (n_second_order_terms n) _ (fun b => bsum m (fun l => a l * (n_mat n X i b * Sq l b)))).
  - rewrite bsum_swap, <- bsum_minus. apply bsum_ext. intros l _. rewrite bsum_scal. ring.
  - intros b _. rewrite SQ. fold (Sq). rewrite <- bsum_scal. apply bsum_ext. intros; unfold Sq; ring.
Qed.

Lemma nth_map_seq (f : nat -> R) k j : nth j (map f (seq 0 k)) 0 = if (j <? k)%nat then f j else 0.
Proof.
  destruct (Nat.ltb_spec j k).
  - rewrite (nth_indep _ 0 (f 0%nat)) by (rewrite map_length, seq_length; lia). rewrite map_nth, seq_nth by lia. reflexivity.
  - apply nth_overflow. rewrite map_length, seq_length. lia.
Qed.

(** The same for the fit of Powell: the same exception for all residuals, or coefficients that are
    linear in the residuals. *)
Theorem C207_fit_powell :
  forall qr lstsq N n t X m (a : fvec) (Y : nat -> fvec) y,
    exact_lstsq lstsq -> (forall i, (i < N)%nat -> y i = bsum m (fun l => a l * Y l i)) ->
    (exists e, fit_powell lstsq qr N n t X y = Err e /\ forall l, fit_powell lstsq qr N n t X (Y l) = Err e) \/
    (exists c C, fit_powell lstsq qr N n t X y = Ok c /\ (forall l, fit_powell lstsq qr N n t X (Y l) = Ok (C l)) /\
       (forall l, length (C l) = length c) /\ forall j, nth j c 0 = bsum m (fun l => a l * nth j (C l) 0)).
Proof.
  intros qr lstsq N n t X m a Y y LS HY.
  assert (Z : forall f, (forall l, f l = 0) -> bsum m (fun l => a l * f l) = 0).
  { intros f F. apply bsum_all_zero. intros l _. rewrite F. ring. }
  assert (O : forall t j, nth j (map (fit_ols lstsq N n t X y None) (seq 0 (n_features n t))) 0
            = bsum m (fun l => a l * nth j (map (fit_ols lstsq N n t X (Y l) None) (seq 0 (n_features n t))) 0)).
  { intros t' j. rewrite nth_map_seq. rewrite (bsum_ext m _ (fun l => a l *
       (if (j <? n_features n t')%nat then fit_ols lstsq N n t' X (Y l) None j else 0))) by (intros; now rewrite nth_map_seq).
    destruct (Nat.ltb_spec j (n_features n t')) as [Hj|Hj].
    - now destruct (C207_fit lstsq N n t' X None m a Y y LS HY j Hj) as [-> _].
    - symmetry. now apply Z. }
  unfold fit_powell. set (nj := match t with Linear => _ | Quadratic => _ end).
  destruct (Nat.leb_spec N (n + 1)) as [L1|L1].
  { rewrite map_length, seq_length. set (e := (Z.of_nat nj - Z.of_nat (n_features n Linear))%Z).
    unfold zeros_z. destruct (e <? 0)%Z eqn:Ez; cbn [bind].
    { left. exists ValueError. split; [easy|]. intros l. rewrite map_length, seq_length. fold e. now rewrite Ez. }
    right. eexists. exists (fun l => map (fit_ols lstsq N n Linear X (Y l) None) (seq 0 (n_features n Linear)) ++ repeat 0 (Z.to_nat e)).
    split; [reflexivity|]. split; [|split].
    - intros l. rewrite map_length, seq_length. fold e. now rewrite Ez.
    - intros l. now rewrite !app_length, !map_length.
    - intros j. destruct (Nat.lt_ge_cases j (n_features n Linear)) as [Hj|Hj].
      + rewrite app_nth1 by (rewrite map_length, seq_length; lia). rewrite O. apply bsum_ext. intros l _.
        now rewrite app_nth1 by (rewrite map_length, seq_length; lia).
      + rewrite app_nth2 by (rewrite map_length, seq_length; lia). rewrite nth_repeat. symmetry. apply Z. intros l.
        rewrite app_nth2 by (rewrite map_length, seq_length; lia). apply nth_repeat. }
  destruct (Nat.leb_spec nj N) as [L2|L2].
  { right. eexists. exists (fun l => map (fit_ols lstsq N n t X (Y l) None) (seq 0 (n_features n t))).
    split; [reflexivity|]. split; [reflexivity|]. split; [intros l; now rewrite !map_length|]. intros j. apply O. }
  unfold fit_frobenius. destruct (Nat.leb_spec N (n + 1)); [lia|].
  destruct (_ <=? N)%nat; [left; exists ValueError; auto|].
  destruct (frobenius_linear qr lstsq N n X m a Y y LS ltac:(lia) HY) as [F1 F2].
  destruct (frobenius_coefs qr lstsq N n X y) as [c1 c2] eqn:E. cbn [fst snd] in F1, F2.
  right. set (p := n_second_order_terms n). eexists.
  exists (fun l => map (fst (frobenius_coefs qr lstsq N n X (Y l))) (seq 0 (1 + n)) ++
                   map (snd (frobenius_coefs qr lstsq N n X (Y l))) (seq 0 p)).
  split; [reflexivity|]. split.
  { intros l. destruct (frobenius_coefs qr lstsq N n X (Y l)). reflexivity. }
  split.
  { intros l. now rewrite !app_length, !map_length. }
  intros j. destruct (Nat.lt_ge_cases j (1 + n)) as [Hj|Hj].
  - rewrite app_nth1 by (rewrite map_length, seq_length; lia). rewrite nth_map_seq.
    destruct (Nat.ltb_spec j (1 + n)); [|lia]. rewrite F1 by lia. apply bsum_ext. intros l _.
    rewrite app_nth1 by (rewrite map_length, seq_length; lia). rewrite nth_map_seq.
    destruct (Nat.ltb_spec j (1 + n)); [reflexivity|lia].
  - rewrite app_nth2 by (rewrite map_length, seq_length; lia). rewrite nth_map_seq, map_length, seq_length.
    rewrite (bsum_ext m _ (fun l => a l * (if (j - (1 + n) <? p)%nat then snd (frobenius_coefs qr lstsq N n X (Y l)) (j - (1 + n))%nat else 0))).
    + destruct (_ <? p)%nat; [apply F2|]. symmetry. now apply Z.
    + intros l _. rewrite app_nth2 by (rewrite map_length, seq_length; lia). now rewrite nth_map_seq, map_length, seq_length.
Qed.

(** * Rotated residuals *)

(** The columns of Q, which has k rows and m columns, are orthonormal. *)
Definition isometry (m k : nat) (Q : fmat) : Prop :=
  forall l l', (l < m)%nat -> (l' < m)%nat -> bsum k (fun r => Q r l * Q r l') = if (l =? l')%nat then 1 else 0.

Lemma isometry_dot m k Q u v : isometry m k Q ->
  bsum k (fun r => bsum m (fun l => Q r l * u l) * bsum m (fun l => Q r l * v l)) = bsum m (fun l => u l * v l).
Proof.
  intros I.
  rewrite (bsum_ext k _ (fun r => bsum m (fun l => bsum m (fun l' => u l * v l' * (Q r l * Q r l'))))).
  - rewrite bsum_swap. apply bsum_ext. intros l Hl. rewrite bsum_swap.
    rewrite (bsum_ext m _ (fun l' => if (l' =? l)%nat then u l * v l else 0)).
    + now apply bsum_single.
    + intros l' Hl'. rewrite bsum_scal, (I l l' Hl Hl'). rewrite Nat.eqb_sym. destruct (Nat.eqb_spec l' l) as [->|]; ring.
  - intros r _. rewrite <- bsum_scal_r. apply bsum_ext. intros l _. rewrite <- bsum_scal. apply bsum_ext. intros; ring.
Qed.

(** C207 - rotation.  The least squares model is the same for residuals in other orthogonal
    coordinates. *)
Theorem C207_rotated_model :
  forall v v' Q, isometry (vm_m v) (vm_m v') Q ->
    vm_n v' = vm_n v -> vm_scale v' = vm_scale v -> vm_shift v' = vm_shift v ->
    (forall r, (r < vm_m v')%nat -> vm_c v' r = bsum (vm_m v) (fun l => Q r l * vm_c v l)) ->
    (forall r i, (r < vm_m v')%nat -> (i < vm_n v)%nat -> vm_g v' r i = bsum (vm_m v) (fun l => Q r l * vm_g v l i)) ->
    let s := aggregate_least_squares_linear v in let s' := aggregate_least_squares_linear v' in
    sm_c s' = sm_c s /\ (forall i, (i < vm_n v)%nat -> sm_g s' i = sm_g s i) /\
    (exists h h', sm_h s = Some h /\ sm_h s' = Some h' /\
       forall i j, (i < vm_n v)%nat -> (j < vm_n v)%nat -> h' i j = h i j) /\
    forall x, predict_scalar s' x = predict_scalar s x.
Proof.
  intros v v' Q I En Es Eh Ec Eg s s'.
  assert (A : sm_c s' = sm_c s).
  { unfold s, s'. cbn [aggregate_least_squares_linear sm_c]. unfold fdot.
    rewrite <- (isometry_dot (vm_m v) (vm_m v') Q (vm_c v) (vm_c v) I). apply bsum_ext. intros r Hr. now rewrite !(Ec r Hr). }
  assert (B : forall i, (i < vm_n v)%nat -> sm_g s' i = sm_g s i).
  { intros i Hi. unfold s, s'. cbn [aggregate_least_squares_linear sm_g]. f_equal.
    rewrite <- (isometry_dot (vm_m v) (vm_m v') Q (fun l => vm_g v l i) (vm_c v) I). apply bsum_ext. intros r Hr.
    now rewrite (Ec r Hr), (Eg r i Hr Hi). }
  set (h := fun i j => bsum (vm_m v) (fun k => 2 * vm_g v k i * vm_g v k j)).
  set (h' := fun i j => bsum (vm_m v') (fun k => 2 * vm_g v' k i * vm_g v' k j)).
  assert (C : forall i j, (i < vm_n v)%nat -> (j < vm_n v)%nat -> h' i j = h i j).
  { intros i j Hi Hj. unfold h, h'.
    rewrite (bsum_ext (vm_m v) _ (fun l => 2 * (vm_g v l i * vm_g v l j))) by (intros; ring).
    rewrite (bsum_ext (vm_m v') _ (fun l => 2 * (vm_g v' l i * vm_g v' l j))) by (intros; ring).
    rewrite !bsum_scal. f_equal.
    rewrite <- (isometry_dot (vm_m v) (vm_m v') Q (fun l => vm_g v l i) (fun l => vm_g v l j) I). apply bsum_ext. intros r Hr.
    now rewrite (Eg r i Hr Hi), (Eg r j Hr Hj). }
  split; [exact A|]. split; [exact B|]. split; [exists h, h'; repeat split; auto|].
  intros x. unfold predict_scalar. change (sm_h s) with (Some h). change (sm_h s') with (Some h').
  rewrite A. change (sm_n s') with (vm_n v'). change (sm_n s) with (vm_n v). rewrite En.
  rewrite (fdot_ext (vm_n v) x x (sm_g s') (sm_g s)) by easy. f_equal. f_equal.
  apply fdot_ext; [|easy]. intros j Hj. unfold fvm. apply bsum_ext. intros i Hi. now rewrite (C i j Hi Hj).
Qed.

(** The fit followed by the aggregation, for the rotated residuals. *)
Theorem C207_rotated_fit :
  forall lstsq N n m k Q X (Y : nat -> fvec) w center radius (fitter : fvec -> fvec),
    exact_lstsq lstsq -> isometry m k Q ->
    fitter = (fun y => fit_ols lstsq N n Linear X y w) \/
    (exists p0 p1 p2, fitter = fun y => fit_tranquilo lstsq N n Linear X y w p0 p1 p2) \/
    (exists l1 l2, fitter = fun y => fit_ridge lstsq N n Linear X y w l1 l2) ->
    let fitted y := map (fitter y) (seq 0 (n_features n Linear)) in
    let model m Y := let* v := build_vmodel n m Linear (fun l => fitted (Y l)) center radius in
                     Ok (aggregate_least_squares_linear v) in
    exists s s', model m Y = Ok s /\ model k (fun r i => bsum m (fun l => Q r l * Y l i)) = Ok s' /\
      forall x, predict_scalar s' x = predict_scalar s x.
Proof.
  intros lstsq N n m k Q X Y w center radius fitter LS I FC fitted model.
  eexists. eexists. split; [reflexivity|]. split; [reflexivity|].
  assert (L : n_features n Linear = Datatypes.S n).
  { unfold n_features, feature_row. cbn. now rewrite ?map_length, ?seq_length. }
  assert (E : forall y j, (j < Datatypes.S n)%nat -> nth j (fitted y) 0 = fitter y j).
  { intros y j Hj. unfold fitted. rewrite nth_map_seq, L. destruct (Nat.ltb_spec j (Datatypes.S n)); [easy|lia]. }
  assert (F : forall r j, (j < Datatypes.S n)%nat ->
            nth j (fitted (fun i => bsum m (fun l => Q r l * Y l i))) 0 = bsum m (fun l => Q r l * nth j (fitted (Y l)) 0)).
  { intros r j Hj. rewrite (E _ j Hj). rewrite (bsum_ext m _ (fun l => Q r l * fitter (Y l) j)) by (intros; now rewrite (E _ j Hj)).
    destruct (C207_fit lstsq N n Linear X w m (Q r) Y (fun i => bsum m (fun l => Q r l * Y l i)) LS (fun _ _ => eq_refl) j) as (F1 & F2 & F3);
      [rewrite L; lia|].
    destruct FC as [->|[(p0 & p1 & p2 & ->)|(l1 & l2 & ->)]]; [apply F1|apply F2|apply F3]. }
  intros x. eapply (C207_rotated_model (mkV n m _ _ None radius center) (mkV n k _ _ None radius center) Q); cbn; auto.
  - intros r _. apply (F r 0%nat). lia.
  - intros r i _ Hi. apply (F r (1 + i)%nat). lia.
Qed.

(** C207 - order.  The aggregated models do not depend on the order of the residuals. *)
Theorem C207_permuted_model :
  forall v v' ls, Permutation ls (seq 0 (vm_m v)) -> vm_m v' = vm_m v ->
    vm_n v' = vm_n v -> vm_scale v' = vm_scale v -> vm_shift v' = vm_shift v ->
    (forall r, vm_c v' r = vm_c v (nth r ls 0%nat)) ->
    (forall r i, vm_g v' r i = vm_g v (nth r ls 0%nat) i) ->
    match vm_h v, vm_h v' with
    | Some h, Some h' => forall r i j, h' r i j = h (nth r ls 0%nat) i j | None, None => True | _, _ => False end ->
    aggregate_sum v' = aggregate_sum v /\
    aggregate_information_equality_linear v' = aggregate_information_equality_linear v /\
    aggregate_least_squares_linear v' = aggregate_least_squares_linear v.
Proof.
  intros v v' ls P Em En Es Et Ec Eg Eh.
  assert (B : forall f : nat -> R, bsum (vm_m v) (fun r => f (nth r ls 0%nat)) = bsum (vm_m v) f).
  { intros f. pose proof (bsum_nth_perm 0%nat f _ _ P) as E. rewrite (Permutation_length P), seq_length in E.
    rewrite E. apply bsum_ext. intros r Hr. now rewrite seq_nth by easy. }
  assert (C0 : bsum (vm_m v) (vm_c v') = bsum (vm_m v) (vm_c v)).
  { rewrite <- (B (vm_c v)). apply bsum_ext. intros; apply Ec. }
  assert (G0 : (fun i => bsum (vm_m v) (fun r => vm_g v' r i)) = (fun i => bsum (vm_m v) (fun r => vm_g v r i))).
  { apply FunctionalExtensionality.functional_extensionality. intros i. rewrite <- (B (fun r => vm_g v r i)). apply bsum_ext. intros; apply Eg. }
  split; [|split].
  - unfold aggregate_sum. rewrite Em, En, Es, Et. destruct (vm_h v) as [h|], (vm_h v') as [h'|]; try easy.
    rewrite C0, G0. f_equal. f_equal. f_equal. apply FunctionalExtensionality.functional_extensionality. intros i.
    apply FunctionalExtensionality.functional_extensionality. intros j.
    rewrite <- (B (fun r => h r i j)). apply bsum_ext. intros; apply Eh.
  - unfold aggregate_information_equality_linear. rewrite Em, En, Es, Et, C0, G0. f_equal. f_equal.
    apply FunctionalExtensionality.functional_extensionality. intros i.
    apply FunctionalExtensionality.functional_extensionality. intros j. f_equal. f_equal.
    rewrite <- (B (fun r => vm_g v r i * vm_g v r j)). apply bsum_ext. intros. now rewrite !Eg.
  - unfold aggregate_least_squares_linear. rewrite Em, En, Es, Et. f_equal.
    + unfold fdot. rewrite <- (B (fun r => vm_c v r * vm_c v r)). apply bsum_ext. intros. now rewrite Ec.
    + apply FunctionalExtensionality.functional_extensionality. intros i. f_equal.
      rewrite <- (B (fun r => vm_g v r i * vm_c v r)). apply bsum_ext. intros. now rewrite Eg, Ec.
    + f_equal. apply FunctionalExtensionality.functional_extensionality. intros i.
      apply FunctionalExtensionality.functional_extensionality. intros j.
      rewrite <- (B (fun r => 2 * vm_g v r i * vm_g v r j)). apply bsum_ext. intros. now rewrite !Eg.
Qed.

(** A least squares solver as assumed exists; the rotation by (3/5, 4/5) of two residuals, and the
    embedding of one residual as two. *)
Example C207_instance :
  exact_lstsq min_norm_ls /\
  isometry 2 2 (fun r l => match r, l with O, O => 3 / 5 | O, _ => - (4 / 5) | _, O => 4 / 5 | _, _ => 3 / 5 end) /\
  isometry 1 2 (fun r _ => match r with O => 3 / 5 | _ => 4 / 5 end) /\
  Permutation [2%nat; 0%nat; 1%nat] (seq 0 3).
Proof.
  split; [intros N p A b; apply min_norm_ls_ok|]. split; [|split].
  - intros [|[|l]] [|[|l']] Hl Hl'; try lia; cbn; lra.
  - intros [|l] [|l'] Hl Hl'; try lia; cbn; lra.
  - cbn. eapply perm_trans; [apply perm_swap|]. apply perm_skip. apply perm_swap.
Qed.
