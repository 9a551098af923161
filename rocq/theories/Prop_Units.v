(** Property C192: gqtpar and the units of the criterion. *)
From Coq Require Import Reals List Arith ZArith Bool Lia Lra Psatz FunctionalExtensionality.
From Verif Require Import Base XR Vec FVec CgModel TrsboxModel Prop_Cg GqtparModel GqtparProofs Prop_Gqtpar Prop_Gqtpar2 Prop_GqtparFast.
Import ListNotations.
Open Scope R_scope.

Definition mscaled (a : R) (M : fmat) : fmat := fun i j => a * M i j.

(** * Linear algebra *)

Lemma bsum_scaled n a f : bsum n (fun i => a * f i) = a * bsum n f.
Proof. apply bsum_scal. Qed.
Lemma fdot_scaled n a c x y : fdot n (fscale a x) (fscale c y) = a * c * fdot n x y.
Proof. unfold fdot, fscale. rewrite <- bsum_scal. apply bsum_ext. intros. ring. Qed.
Lemma fnorm_scaled n a x : 0 <= a -> fnorm n (fscale a x) = a * fnorm n x.
Proof.
  intros P. unfold fnorm, fsq. rewrite fdot_scaled. rewrite sqrt_mult_alt by nra. now rewrite sqrt_square.
Qed.
Lemma upd_scaled a (f : fvec) k v : upd (fscale a f) k (a * v) = fscale a (upd f k v).
Proof. apply functional_extensionality. intros i. unfold upd, fscale. now destruct (i =? k)%nat. Qed.

Section Scale.
Variable b : R.
Hypothesis Pb : 0 < b.

Lemma fwd_scaled k U v c : fwd k (mscaled b U) (fscale c v) = fscale (c / b) (fwd k U v).
Proof.
  induction k as [|k IH]; [apply functional_extensionality; intros i; unfold fscale, fzero; cbn; unfold fzero; ring|].
  cbn [fwd]. rewrite IH, <- upd_scaled. f_equal. unfold fscale, mscaled.
  rewrite (bsum_ext k (fun l => b * U l k * (c / b * fwd k U v l)) (fun l => c * (U l k * fwd k U v l)))
    by (intros; field; lra).
  rewrite bsum_scal. unfold Rdiv. rewrite Rinv_mult. ring.
Qed.

Lemma bwd_scaled k m U v c : bwd k m (mscaled b U) (fscale c v) = fscale (c / b) (bwd k m U v).
Proof.
  induction k as [|k IH]; [apply functional_extensionality; intros i; unfold fscale, fzero; cbn; unfold fzero; ring|].
  cbn [bwd]. cbv zeta. rewrite IH, <- upd_scaled. f_equal. unfold fscale, mscaled.
  rewrite (bsum_ext k _ (fun l => c * (U (m - S k)%nat (S (m - S k) + l)%nat * bwd k m U v (S (m - S k) + l)%nat)))
    by (intros; field; lra).
  rewrite bsum_scal. unfold Rdiv. rewrite Rinv_mult. ring.
Qed.

Lemma cho_solve_scaled n U g : cho_solve n (mscaled b U) (fopp (fscale (b * b) g)) = cho_solve n U (fopp g).
Proof.
  unfold cho_solve. replace (fopp (fscale (b * b) g)) with (fscale (b * b) (fopp g))
    by (apply functional_extensionality; intros; unfold fscale, fopp; ring).
  rewrite fwd_scaled, bwd_scaled. apply functional_extensionality. intros i. unfold fscale. field. lra.
Qed.

(** The factor of a scaled matrix; after a failure the last diagonal entry holds the squared pivot. *)
Definition factor_scaled (U : fmat) (info : nat) : fmat :=
  fun i j => match info with
             | O => b * U i j
             | S c => if Nat.eqb i c && Nat.eqb j c then b * b * U i j else b * U i j
             end.

Lemma chol_scaled k M : chol k (mscaled (b * b) M) = (factor_scaled (fst (chol k M)) (snd (chol k M)), snd (chol k M)).
Proof.
  induction k as [|k IH].
  { cbn. f_equal. apply functional_extensionality. intros i. apply functional_extensionality. intros j. cbn. ring. }
  cbn [chol]. rewrite IH. destruct (chol k M) as (U, [|c]) eqn:E; cbn [fst snd]; [|reflexivity].
  change (factor_scaled U 0) with (mscaled b U).
  change (fun i => mscaled (b * b) M i k) with (fscale (b * b) (fun i => M i k)).
  rewrite fwd_scaled. replace (b * b / b) with b by (field; lra).
  set (u := fwd k U (fun i => M i k)).
  assert (D : mscaled (b * b) M k k - bsum k (fun l => fscale b u l * fscale b u l)
            = b * b * (M k k - bsum k (fun l => u l * u l))).
  { rewrite (bsum_ext k (fun l => fscale b u l * fscale b u l) (fun l => b * b * (u l * u l)))
      by (intros; unfold fscale; ring). rewrite bsum_scal. unfold mscaled. ring. }
  rewrite D. set (d := M k k - bsum k (fun l => u l * u l)).
  assert (B : Rleb (b * b * d) 0 = Rleb d 0).
  { destruct (Rleb_spec d 0), (Rleb_spec (b * b * d) 0); try easy; exfalso; assert (0 < b * b) by nra; nra. }
  rewrite B. destruct (Rleb_spec d 0) as [Hd|Hd]; cbn [fst snd].
  - f_equal. apply functional_extensionality. intros i. apply functional_extensionality. intros j.
    unfold factor_scaled, mscaled, fscale.
    destruct (Nat.eqb_spec j k) as [->|]; [|now rewrite andb_false_r].
    destruct (Nat.ltb_spec i k); [destruct (Nat.eqb_spec i k); [lia|reflexivity]|].
    destruct (Nat.eqb_spec i k); cbn [andb]; [reflexivity|ring].
  - f_equal. apply functional_extensionality. intros i. apply functional_extensionality. intros j.
    unfold factor_scaled, mscaled, fscale.
    destruct (Nat.eqb_spec j k); [|reflexivity]. destruct (Nat.ltb i k); [reflexivity|].
    destruct (Nat.eqb_spec i k); [|ring]. rewrite sqrt_mult_alt by nra. rewrite sqrt_square by lra. reflexivity.
Qed.

Lemma bwd_ext k m U U' v v' : (k <= m)%nat ->
  (forall i j, (i < m)%nat -> (j < m)%nat -> U i j = U' i j) -> (forall i, (i < m)%nat -> v i = v' i) ->
  bwd k m U v = bwd k m U' v'.
Proof.
  intros L HU Hv. induction k as [|k IH]; [reflexivity|]. cbn [bwd]. cbv zeta. rewrite IH by lia. f_equal.
  rewrite Hv, (HU (m - S k)%nat (m - S k)%nat) by lia. f_equal. f_equal. apply bsum_ext. intros l Hl. rewrite HU by lia. reflexivity.
Qed.

Lemma singular_scaled n M U k U' : (forall i j, ~ (i = k - 1 /\ j = k - 1)%nat -> U' i j = b * U i j) ->
  singular_terms n (mscaled (b * b) M) U' k = (b * b * fst (singular_terms n M U k), snd (singular_terms n M U k)).
Proof.
  intros HU. unfold singular_terms. cbv zeta. cbn [fst snd]. set (c := (k - 1)%nat) in *. f_equal.
  - rewrite (bsum_ext c _ (fun l => b * b * (U l c * U l c))) by (intros; rewrite !HU by lia; ring).
    rewrite bsum_scal. unfold mscaled. ring.
  - apply functional_extensionality. intros i. destruct (Nat.ltb i c); [|reflexivity].
    rewrite (bwd_ext c c U' (mscaled b U) _ (fscale b (fun l => - U l c))).
    + rewrite bwd_scaled. unfold fscale. field. lra.
    + lia.
    + intros i' j Hi Hj. unfold mscaled. apply HU. lia.
    + intros i' Hi. unfold fscale. rewrite HU by lia. ring.
Qed.

(** * Bounds of the damping factor *)

Lemma vmin_scaled n a f : 0 <= a -> vmin n (fun i => a * f i) = a * vmin n f.
Proof.
  intros P. destruct n as [|n]; [reflexivity|]. induction n as [|n IH]; [reflexivity|].
  change (Rmin (vmin (S n) (fun i => a * f i)) (a * f (S n)) = a * Rmin (vmin (S n) f) (f (S n))).
  rewrite IH. unfold Rmin. destruct (Rle_dec (vmin (S n) f) (f (S n))), (Rle_dec (a * vmin (S n) f) (a * f (S n))); try easy; nra.
Qed.
Lemma vmax_scaled n a f : 0 <= a -> vmax n (fun i => a * f i) = a * vmax n f.
Proof.
  intros P. destruct n as [|n]; [reflexivity|]. induction n as [|n IH]; [reflexivity|].
  change (Rmax (vmax (S n) (fun i => a * f i)) (a * f (S n)) = a * Rmax (vmax (S n) f) (f (S n))).
  rewrite IH. unfold Rmax. destruct (Rle_dec (vmax (S n) f) (f (S n))), (Rle_dec (a * vmax (S n) f) (a * f (S n))); try easy; nra.
Qed.
Lemma Rmax_scaled a x y : 0 <= a -> Rmax (a * x) (a * y) = a * Rmax x y.
Proof. intros P. unfold Rmax. destruct (Rle_dec x y), (Rle_dec (a * x) (a * y)); try easy; nra. Qed.
Lemma Rmin_scaled a x y : 0 <= a -> Rmin (a * x) (a * y) = a * Rmin x y.
Proof. intros P. unfold Rmin. destruct (Rle_dec x y), (Rle_dec (a * x) (a * y)); try easy; nra. Qed.

Lemma row_sum_scaled n a H i : 0 <= a -> row_sum n (mscaled a H) i = a * row_sum n H i.
Proof.
  intros P. unfold row_sum, mscaled. rewrite <- bsum_scal. apply bsum_ext. intros j _. rewrite Rabs_mult, (Rabs_right a) by lra. ring.
Qed.
Lemma inf_norm_scaled n a H : 0 <= a -> inf_norm n (mscaled a H) = a * inf_norm n H.
Proof.
  intros P. unfold inf_norm. rewrite <- vmax_scaled by easy. f_equal. apply functional_extensionality. intros i. now apply row_sum_scaled.
Qed.
Lemma fro_norm_scaled n a H : 0 <= a -> fro_norm n (mscaled a H) = a * fro_norm n H.
Proof.
  intros P. unfold fro_norm. transitivity (sqrt (a * a) * sqrt (bsum n (fun i => bsum n (fun j => H i j * H i j)))); [|now rewrite sqrt_square].
  rewrite <- sqrt_mult_alt by nra. f_equal.
  rewrite <- bsum_scal. apply bsum_ext. intros i _. rewrite <- bsum_scal. apply bsum_ext. intros j _. unfold mscaled. ring.
Qed.
Lemma gershgorin_scaled n a H : 0 <= a ->
  gershgorin n (mscaled a H) = (a * fst (gershgorin n H), a * snd (gershgorin n H)).
Proof.
  intros P. unfold gershgorin. cbn [fst snd]. rewrite <- vmin_scaled, <- vmax_scaled by easy.
  f_equal; f_equal; apply functional_extensionality; intros i; rewrite row_sum_scaled by easy; unfold mscaled;
    rewrite Rabs_mult, (Rabs_right a) by lra; ring.
Qed.

Lemma new_lambda_scaled a l u : 0 < a -> new_lambda_candidate (a * l) (a * u) = a * new_lambda_candidate l u.
Proof.
  intros P. unfold new_lambda_candidate. rewrite <- Rmax_scaled by lra. f_equal; [|ring].
  replace (a * l * (a * u)) with (a * a * (l * u)) by ring. replace 0 with (a * a * 0) at 1 by ring.
  rewrite Rmax_scaled by nra. rewrite sqrt_mult_alt by nra. now rewrite sqrt_square by lra.
Qed.

Definition scaled_lambdas (a : R) (L : lambdas) : lambdas := mkL (a * l_cand L) (a * l_lo L) (a * l_hi L).

Lemma Reqb_scaled a x : 0 < a -> Reqb (a * x) 0 = Reqb x 0.
Proof. intros P. unfold Reqb. destruct (Req_EM_T x 0), (Req_EM_T (a * x) 0); try easy; exfalso; nra. Qed.

Lemma initial_lambdas_scaled n a g H : 0 < a ->
  initial_lambdas n (fscale a g) (mscaled a H) = scaled_lambdas a (initial_lambdas n g H).
Proof.
  intros P. unfold initial_lambdas. rewrite fnorm_scaled, gershgorin_scaled, fro_norm_scaled, inf_norm_scaled by lra.
  destruct (gershgorin n H) as (gl, gu). cbn [fst snd]. cbv zeta.
  change (vmin n (fun i => mscaled a H i i)) with (vmin n (fun i => a * (fun i => H i i) i)). rewrite vmin_scaled by lra.
  set (mn := vmin n (fun i => H i i)). set (gn := fnorm n g). set (fr := fro_norm n H). set (inf := inf_norm n H).
  assert (E1 : Rmax (Rmax 0 (- (a * mn))) (a * gn - Rmin (Rmin (a * gu) (a * fr)) (a * inf))
             = a * Rmax (Rmax 0 (- mn)) (gn - Rmin (Rmin gu fr) inf)).
  { rewrite !Rmin_scaled by lra. replace (- (a * mn)) with (a * - mn) by ring. replace 0 with (a * 0) at 1 by ring.
    rewrite Rmax_scaled by lra. rewrite <- Rmult_minus_distr_l. now rewrite Rmax_scaled by lra. }
  assert (E2 : Rmax 0 (a * gn + Rmin (Rmin (- (a * gl)) (a * fr)) (a * inf)) = a * Rmax 0 (gn + Rmin (Rmin (- gl) fr) inf)).
  { replace (- (a * gl)) with (a * - gl) by ring. rewrite !Rmin_scaled by lra. rewrite <- Rmult_plus_distr_l.
    replace 0 with (a * 0) at 1 by ring. now rewrite Rmax_scaled by lra. }
  rewrite E1, E2, Reqb_scaled by easy. unfold scaled_lambdas. cbn [l_cand l_lo l_hi]. f_equal.
  destruct (Reqb _ 0); [ring|]. now apply new_lambda_scaled.
Qed.

Lemma add_diag_scaled a H lam : add_diag (mscaled a H) (a * lam) = mscaled a (add_diag H lam).
Proof. apply functional_extensionality. intros i. apply functional_extensionality. intros j. unfold add_diag, mscaled. ring. Qed.
Lemma zero_threshold_scaled n a H : 0 <= a -> zero_threshold n (mscaled a H) = a * zero_threshold n H.
Proof. intros P. unfold zero_threshold. rewrite inf_norm_scaled by easy. ring. Qed.

(** * The estimate of the smallest singular value *)

(** One step keeps the entries of w in proportion to 1/b if the same sign is chosen. *)
Lemma estimate_step k m U :
  fst (estimate_condition k m (mscaled b U)) = fscale (/ b) (fst (estimate_condition k m U)) ->
  snd (estimate_condition k m (mscaled b U)) = snd (estimate_condition k m U) ->
  k = O \/ (m <= S k)%nat ->
  fst (estimate_condition (S k) m (mscaled b U)) = fscale (/ b) (fst (estimate_condition (S k) m U)) /\
  snd (estimate_condition (S k) m (mscaled b U)) = snd (estimate_condition (S k) m U).
Proof.
  intros E1 E2 Hk. cbn [estimate_condition].
  destruct (estimate_condition k m (mscaled b U)) as (w', p') eqn:F'. destruct (estimate_condition k m U) as (w, p) eqn:F.
  cbn [fst snd] in E1, E2. subst w' p'. cbv zeta.
  set (wp := (1 - p k) / U k k). set (wm := (-1 - p k) / U k k).
  assert (W1 : (1 - p k) / mscaled b U k k = / b * wp) by (unfold wp, mscaled, Rdiv; rewrite Rinv_mult; ring).
  assert (W2 : (-1 - p k) / mscaled b U k k = / b * wm) by (unfold wm, mscaled, Rdiv; rewrite Rinv_mult; ring).
  rewrite W1, W2.
  assert (Q : forall u, (fun j => if Nat.ltb k j then p j + mscaled b U k j * (/ b * u) else p j)
                      = (fun j => if Nat.ltb k j then p j + U k j * u else p j)).
  { intros u. apply functional_extensionality. intros j. destruct (Nat.ltb k j); [|reflexivity]. unfold mscaled. field. lra. }
  rewrite !Q.
  assert (Q' : forall u, (fun j => Rabs (if Nat.ltb k (S k + j) then p (S k + j)%nat + mscaled b U k (S k + j)%nat * (/ b * u) else p (S k + j)%nat))
                       = (fun j => Rabs (if Nat.ltb k (S k + j) then p (S k + j)%nat + U k (S k + j)%nat * u else p (S k + j)%nat))).
  { intros u. apply functional_extensionality. intros j. f_equal. destruct (Nat.ltb k (S k + j)); [|reflexivity]. unfold mscaled. field. lra. }
  rewrite !Q'.
  assert (P : 0 < / b) by now apply Rinv_0_lt_compat.
  rewrite !Rabs_mult, !(Rabs_right (/ b)) by lra.
  assert (C : Rleb (/ b * Rabs wm + bsum (m - S k) (fun j => Rabs (if Nat.ltb k (S k + j) then p (S k + j)%nat + U k (S k + j)%nat * wm else p (S k + j)%nat)))
                   (/ b * Rabs wp + bsum (m - S k) (fun j => Rabs (if Nat.ltb k (S k + j) then p (S k + j)%nat + U k (S k + j)%nat * wp else p (S k + j)%nat)))
            = Rleb (Rabs wm + bsum (m - S k) (fun j => Rabs (if Nat.ltb k (S k + j) then p (S k + j)%nat + U k (S k + j)%nat * wm else p (S k + j)%nat)))
                   (Rabs wp + bsum (m - S k) (fun j => Rabs (if Nat.ltb k (S k + j) then p (S k + j)%nat + U k (S k + j)%nat * wp else p (S k + j)%nat)))).
  { destruct Hk as [-> | Hk].
    - cbn in F. injection F as <- <-.
      assert (M : wm = - wp) by (unfold wm, wp, fzero, Rdiv; ring). rewrite M, Rabs_Ropp.
      set (t1 := bsum _ _). set (t2 := bsum _ _).
      assert (T : t1 = t2).
      { unfold t1, t2. apply bsum_ext. intros j _. cbn [Nat.ltb Nat.leb Nat.add]. unfold fzero.
        rewrite <- (Rabs_Ropp (0 + _ * - wp)). f_equal. ring. }
      rewrite T.
      match goal with |- Rleb ?a ?a' = Rleb ?c ?c' => destruct (Rleb_spec a a'), (Rleb_spec c c') end; try easy; exfalso; lra.
    - replace (m - S k)%nat with O by lia. cbn [bsum].
      match goal with |- Rleb ?a ?a' = Rleb ?c ?c' => destruct (Rleb_spec a a'), (Rleb_spec c c') end; try easy; exfalso; nra. }
  cbv beta. rewrite C. match goal with |- context [if ?c then _ else _] => destruct c end; cbn [fst snd]; now rewrite upd_scaled.
Qed.

Lemma estimate_scaled n U : (n <= 2)%nat ->
  estimate_smallest_singular_value n (mscaled b U)
  = (b * fst (estimate_smallest_singular_value n U), snd (estimate_smallest_singular_value n U)).
Proof.
  intros Hn.
  assert (E : forall m k, (m <= 2)%nat -> (k <= m)%nat ->
            fst (estimate_condition k m (mscaled b U)) = fscale (/ b) (fst (estimate_condition k m U)) /\
            snd (estimate_condition k m (mscaled b U)) = snd (estimate_condition k m U)).
  { intros m k Hm. induction k as [|k IH]; intros Hk.
    - split; [|reflexivity]. cbn. apply functional_extensionality. intros i. unfold fscale, fzero. ring.
    - destruct IH as [I1 I2]; [lia|]. apply estimate_step; try easy. lia. }
  destruct (E n n Hn (Nat.le_refl _)) as [E1 _]. unfold estimate_smallest_singular_value. cbv zeta. cbn [fst snd].
  rewrite E1. rewrite bwd_scaled. assert (P : 0 < / b) by now apply Rinv_0_lt_compat.
  assert (P' : 0 < / b / b) by (unfold Rdiv; nra).
  rewrite !fnorm_scaled by lra. f_equal.
  - unfold Rdiv. rewrite !Rinv_mult, !Rinv_inv. generalize (/ fnorm n (bwd n n U (fst (estimate_condition n n U)))). intros r. field. lra.
  - apply functional_extensionality. intros i. unfold fscale. unfold Rdiv. rewrite !Rinv_mult, !Rinv_inv.
    generalize (/ fnorm n (bwd n n U (fst (estimate_condition n n U)))). intros r. field. lra.
Qed.

(** * Passes *)

Definition same_up_to_scale (s s' : gq) : Prop :=
  q_x s' = q_x s /\ q_fact s' = q_fact s /\ q_conv s' = q_conv s /\ q_lam s' = scaled_lambdas (b * b) (q_lam s) /\
  (q_fact s = true -> q_hpl s' = mscaled (b * b) (q_hpl s) /\ q_u s' = mscaled b (q_u s) /\ q_info s' = q_info s).

Definition related (r r' : res gq) : Prop :=
  match r, r' with Ok s, Ok s' => same_up_to_scale s s' | Err e, Err e' => e' = e | _, _ => False end.

Lemma div_scaled c d x y : 0 < d -> div (c * x) (d * y) = match div x y with Ok q => Ok (c / d * q) | Err e => Err e end.
Proof.
  intros P. unfold div. rewrite Reqb_scaled by easy. destruct (Reqb y 0); [reflexivity|]. f_equal.
  unfold Rdiv. rewrite Rinv_mult. ring.
Qed.

Lemma Rleb_scaled a x y : 0 < a -> Rleb (a * x) (a * y) = Rleb x y.
Proof. intros P. destruct (Rleb_spec x y), (Rleb_spec (a * x) (a * y)); try easy; exfalso; nra. Qed.
Lemma Rltb_scaled a x y : 0 < a -> Rltb (a * x) (a * y) = Rltb x y.
Proof. intros P. destruct (Rltb_spec x y), (Rltb_spec (a * x) (a * y)); try easy; exfalso; nra. Qed.

Lemma bb : 0 < b * b.
Proof. nra. Qed.

Lemma fvm_scaled n a x M : fvm n x (mscaled a M) = fscale a (fvm n x M).
Proof.
  apply functional_extensionality. intros j. unfold fvm, fscale, mscaled. rewrite <- bsum_scal. apply bsum_ext. intros. ring.
Qed.
Lemma fdot_scaled_l n a x y : fdot n (fscale a x) y = a * fdot n x y.
Proof. unfold fdot, fscale. rewrite <- bsum_scal. apply bsum_ext. intros. ring. Qed.

Lemma update_within_scaled tie n H o s s' x newton conv : (n <= 2)%nat ->
  q_fact s' = q_fact s -> q_fact s = false -> q_info s' = q_info s -> q_lam s' = scaled_lambdas (b * b) (q_lam s) ->
  q_hpl s' = mscaled (b * b) (q_hpl s) -> q_u s' = mscaled b (q_u s) ->
  related (update_within tie n H o s x newton conv)
          (update_within tie n (mscaled (b * b) H) o s' x (b * b * newton) conv).
Proof.
  intros Hn E0 E0' E1 E2 E3 E4. unfold update_within. rewrite E1, E2, E3, E4, E0, estimate_scaled by easy.
  destruct (estimate_smallest_singular_value n (q_u s)) as (sm, z). cbn [fst snd].
  destruct (smallest_step_len tie n x z) as [t|e]; [|reflexivity]. cbn [bind].
  rewrite fvm_scaled, fdot_scaled_l. cbn [scaled_lambdas l_cand l_lo l_hi].
  set (lam := q_lam s).
  replace (t * t * (b * sm * (b * sm))) with (b * b * (t * t * (sm * sm))) by ring.
  rewrite <- Rmult_plus_distr_l, div_scaled by apply bb.
  destruct (div _ _) as [q|e]; [|reflexivity]. cbn [bind]. replace (b * b / (b * b) * q) with q by (field; lra).
  rewrite add_diag_scaled, chol_scaled. cbn [snd].
  replace (Rmax (b * b * l_lo lam) (b * b * l_cand lam - b * sm * (b * sm)))
    with (b * b * Rmax (l_lo lam) (l_cand lam - sm * sm)) by (rewrite <- Rmax_scaled by nra; f_equal; ring).
  destruct (snd (chol n (add_diag H newton))); unfold related, same_up_to_scale; cbn [q_x q_fact q_conv q_lam q_hpl q_u q_info].
  - repeat split; easy.
  - rewrite E0'. rewrite Rmax_scaled by nra. rewrite new_lambda_scaled by apply bb. repeat split; easy.
Qed.

Lemma pass_scaled tie n g H o s s' : (n <= 2)%nat -> same_up_to_scale s s' ->
  related (gq_pass tie n g H o s) (gq_pass tie n (fscale (b * b) g) (mscaled (b * b) H) o s').
Proof.
  intros Hn (X1 & X2 & X3 & X4 & X5). unfold gq_pass.
  (* the factor that the pass reads *)
  assert (F : exists x hpl hpl' U U' info lam conv,
            factorize n H s = mkGq x hpl U false info lam conv /\
            factorize n (mscaled (b * b) H) s' = mkGq x hpl' U' false info (scaled_lambdas (b * b) lam) conv /\
            hpl' = mscaled (b * b) hpl /\ (info = O -> U' = mscaled b U) /\
            (forall i j, ~ (i = info - 1 /\ j = info - 1)%nat -> U' i j = b * U i j)).
  { unfold factorize. rewrite X2. destruct (q_fact s).
    - destruct (X5 eq_refl) as (Y1 & Y2 & Y3). do 8 eexists. split; [reflexivity|]. rewrite X1, X3, X4, Y3.
      split; [reflexivity|]. split; [exact Y1|]. rewrite Y2. split; [reflexivity|]. intros; reflexivity.
    - rewrite X4. cbn [scaled_lambdas l_cand]. rewrite add_diag_scaled, chol_scaled.
      destruct (chol n (add_diag H (l_cand (q_lam s)))) as (U, info). cbn [fst snd]. do 8 eexists. split; [reflexivity|].
      rewrite X1, X3. split; [reflexivity|]. split; [reflexivity|]. split; [now intros ->|].
      intros i j N. unfold factor_scaled. destruct info as [|c]; [reflexivity|].
      replace (S c - 1)%nat with c in N by lia.
      destruct (Nat.eqb_spec i c), (Nat.eqb_spec j c); cbn [andb]; try reflexivity. now elim N. }
  destruct F as (x & hpl & hpl' & U & U' & info & lam & conv & F1 & F2 & F3 & F4 & F5). rewrite F1, F2. cbn [q_info].
  pose proof bb as P.
  destruct info as [|c].
  - specialize (F4 eq_refl). subst hpl' U'. rewrite zero_threshold_scaled, fnorm_scaled by lra. rewrite Rltb_scaled by easy.
    destruct (Rltb (zero_threshold n H) (fnorm n g)).
    + unfold find_new_candidate. cbn [q_u q_lam q_conv]. rewrite cho_solve_scaled.
      set (y := cho_solve n U (fopp g)).
      replace (fwd n (mscaled b U) y) with (fscale (/ b) (fwd n U y)).
      2: { replace y with (fscale 1 y) at 2 by (apply functional_extensionality; intros; unfold fscale; ring).
           rewrite fwd_scaled. f_equal. field. lra. }
      assert (Pi : 0 < / b) by now apply Rinv_0_lt_compat.
      rewrite fnorm_scaled by lra. cbn [scaled_lambdas l_cand l_lo l_hi].
      assert (N : newton_step (b * b * l_cand lam) (fnorm n y) (/ b * fnorm n (fwd n U y))
                = match newton_step (l_cand lam) (fnorm n y) (fnorm n (fwd n U y)) with Ok v => Ok (b * b * v) | Err e => Err e end).
      { unfold newton_step. replace (fnorm n y) with (1 * fnorm n y) at 1 by ring. rewrite div_scaled by easy.
        destruct (div _ _); [|reflexivity]. cbn [bind]. f_equal. field. lra. }
      rewrite N. destruct (newton_step (l_cand lam) (fnorm n y) (fnorm n (fwd n U y))) as [v|e]; cbn [bind]; [|reflexivity].
      rewrite Reqb_scaled by easy.
      destruct (Rltb (fnorm n y) 1).
      * apply update_within_scaled; easy.
      * cbn [related]. unfold same_up_to_scale. cbn [q_x q_fact q_conv q_lam q_hpl q_u q_info]. repeat split; easy.
    + unfold check_interior. cbn [q_u q_lam q_conv q_x q_hpl q_fact q_info]. rewrite estimate_scaled by easy.
      destruct (estimate_smallest_singular_value n U) as (sm, z). cbn [fst snd scaled_lambdas l_cand l_lo l_hi].
      rewrite Reqb_scaled by easy.
      replace (4 * (b * sm * (b * sm))) with (b * b * (4 * (sm * sm))) by ring.
      replace (k_hard o * (b * b * l_cand lam)) with (b * b * (k_hard o * l_cand lam)) by ring. rewrite Rleb_scaled by easy.
      replace (Rmax (b * b * l_lo lam) (b * b * l_hi lam - b * sm * (b * sm)))
        with (b * b * Rmax (l_lo lam) (l_hi lam - sm * sm)) by (rewrite <- Rmax_scaled by nra; f_equal; ring).
      rewrite new_lambda_scaled by easy.
      cbn [related]. unfold same_up_to_scale. cbn [q_x q_fact q_conv q_lam q_hpl q_u q_info]. repeat split; easy.
  - subst hpl'. unfold update_unsuccessful. cbn [q_u q_lam q_conv q_x q_hpl q_fact q_info].
    rewrite (singular_scaled n hpl U (S c) U' F5).
    destruct (singular_terms n hpl U (S c)) as (dl, v). cbn [fst snd].
    replace (fnorm n v * fnorm n v) with (1 * (fnorm n v * fnorm n v)) at 2 by ring.
    rewrite div_scaled by lra. destruct (div _ _) as [q|e]; [|reflexivity]. cbn [bind].
    cbn [scaled_lambdas l_cand l_lo l_hi].
    replace (b * b * l_cand lam + b * b / 1 * q) with (b * b * (l_cand lam + q)) by field.
    rewrite Rmax_scaled by nra. rewrite new_lambda_scaled by easy.
    cbn [related]. unfold same_up_to_scale. cbn [q_x q_fact q_conv q_lam q_hpl q_u q_info]. repeat split; easy.
Qed.

Lemma loop_scaled tie n g H o k : (n <= 2)%nat -> forall s s', same_up_to_scale s s' ->
  related (gq_loop tie k n g H o s) (gq_loop tie k n (fscale (b * b) g) (mscaled (b * b) H) o s').
Proof.
  intros Hn. induction k as [|k IH]; intros s s' R; [exact R|]. cbn [gq_loop].
  pose proof (pass_scaled tie n g H o s s' Hn R) as P.
  destruct (gq_pass tie n g H o s) as [u|e], (gq_pass tie n _ _ o s') as [u'|e']; cbn [related] in P; try easy.
  cbn [bind]. pose proof P as (_ & _ & Y3 & _). rewrite Y3. destruct (q_conv u); [exact P|]. now apply IH.
Qed.
End Scale.

(** * C192 *)

(** Multiplying a model with at most two parameters by a positive number does not change gqtpar's
    step, its success flag or its error; the value of the model is multiplied. *)
Theorem C192_units_partial tie n (g : fvec) (H : fmat) x0 o maxiter a : 0 < a -> (n <= 2)%nat ->
  gqtpar tie n (fun i => a * g i) (fun i j => a * H i j) x0 o maxiter
  = match gqtpar tie n g H x0 o maxiter with
    | Ok r => Ok (mkGqr (g_x r) (a * g_criterion r) (g_success r))
    | Err e => Err e
    end.
Proof.
  intros Pa Hn. pose proof (sqrt_lt_R0 a Pa) as Pb. set (b := sqrt a) in *.
  assert (E : a = b * b) by (symmetry; apply sqrt_sqrt; lra). rewrite E.
  change (fun i => b * b * g i) with (fscale (b * b) g). change (fun i j => b * b * H i j) with (mscaled (b * b) H).
  unfold gqtpar. destruct (Nat.eqb n 0); [reflexivity|].
  assert (R : same_up_to_scale b (gq_init n g H x0) (gq_init n (fscale (b * b) g) (mscaled (b * b) H) x0)).
  { unfold gq_init, same_up_to_scale. cbn [q_x q_fact q_conv q_lam q_hpl q_u q_info]. rewrite initial_lambdas_scaled by nra. repeat split; easy. }
  pose proof (loop_scaled b Pb tie n g H o maxiter Hn _ _ R) as P.
  destruct (gq_loop tie maxiter n g H o _) as [u|e], (gq_loop tie maxiter n (fscale _ _) _ o _) as [u'|e']; cbn [related] in P; try easy.
  - cbn [bind]. destruct (Nat.eqb maxiter 0); [reflexivity|]. destruct P as (Y1 & _ & Y3 & _). rewrite Y1, Y3. f_equal. cbn [g_x g_criterion g_success].
    f_equal. rewrite fvm_scaled, !fdot_scaled_l. field.
  - cbn [bind]. now rewrite P.
Qed.

(** Seven times the model 1/2 (x^2 + y^2) - 0.65 (x - y): the same point on the sphere. *)
Example C192_instance tie x0 k : exists r t,
  gqtpar tie 2 (fun i => 7 * g186 i) (fun i j => 7 * I2 i j) x0 default_gopts (S k) = Ok r /\ g_success r = true /\
  g_x r 0%nat = 65 / 100 + t * / sqrt 2 /\ g_x r 1%nat = - (65 / 100) + t * / sqrt 2 /\ t * t = 31 / 200.
Proof.
  destruct (run186 tie x0 k) as (r & t & E & S & X0 & X1 & T & _).
  rewrite C192_units_partial, E by (lra || lia). do 2 eexists. split; [reflexivity|]. cbn [g_x g_success]. repeat split; eauto.
Qed.

(** * Three parameters *)

(** The first pass of a model whose minimizer (1/2, 0, 0) is inside of the region, when the test for
    the hard case holds: the minimizer is moved to the boundary. *)
Lemma first_pass tie (g : fvec) (H U : fmat) z sm q x0 k :
  l_cand (initial_lambdas 3 g H) = 0 -> chol 3 H = (U, O) -> zero_threshold 3 H < fnorm 3 g ->
  cho_solve 3 U (fopp g) 0%nat = 1 / 2 -> cho_solve 3 U (fopp g) 1%nat = 0 -> cho_solve 3 U (fopp g) 2%nat = 0 ->
  U 0%nat 0%nat <> 0 -> estimate_smallest_singular_value 3 U = (sm, z) -> fsq 3 z = 1 ->
  H 0%nat 0%nat = 4 * q -> 0 < q -> 3 / 4 * (sm * sm) <= 1 / 5 * q ->
  exists r t, gqtpar tie 3 g H x0 default_gopts (S k) = Ok r /\ g_success r = true /\ t <> 0 /\
    g_x r 0%nat = 1 / 2 + t * z 0%nat /\ g_x r 1%nat = t * z 1%nat /\ g_x r 2%nat = t * z 2%nat.
Proof.
  intros L0 EC Th X0 X1 X2 U0 Es Zs Hq Pq Hs.
  assert (AD : add_diag H 0 = H) by (apply functional_extensionality; intros i; apply functional_extensionality; intros j; unfold add_diag; ring).
  unfold gqtpar. cbn [Nat.eqb gq_loop]. unfold gq_pass, factorize. cbn [gq_init q_fact q_lam q_x q_conv q_info]. rewrite L0, AD, EC.
  cbn [q_info]. destruct (Rltb_spec (zero_threshold 3 H) (fnorm 3 g)) as [_|B]; [|lra].
  unfold find_new_candidate. cbv zeta. cbn [q_lam q_u q_conv q_hpl q_fact q_info]. rewrite L0.
  set (xc := cho_solve 3 U (fopp g)) in *.
  assert (Xs : fsq 3 xc = 1 / 4) by (unfold fsq, fdot; cbn [bsum]; rewrite X0, X1, X2; lra).
  assert (Nc : fnorm 3 xc = 1 / 2).
  { unfold fnorm. rewrite Xs. replace (1 / 4) with (1 / 2 * (1 / 2)) by lra. apply sqrt_square. lra. }
  assert (W0 : fwd 3 U xc 0%nat = 1 / 2 / U 0%nat 0%nat).
  { cbn [fwd bsum]. unfold upd. cbn [Nat.eqb]. rewrite X0. unfold Rdiv. ring. }
  assert (Pw : 0 < fnorm 3 (fwd 3 U xc)).
  { unfold fnorm. apply sqrt_lt_R0. apply (fsq_pos 3 _ 0%nat); [lia|]. rewrite W0. unfold Rdiv.
    pose proof (Rinv_neq_0_compat _ U0). nra. }
  unfold newton_step, div at 1. destruct (Reqb (fnorm 3 (fwd 3 U xc)) 0) eqn:B0; [apply Reqb_true in B0; lra|]. cbn [bind].
  rewrite Nc. destruct (Rltb_spec (1 / 2) 1) as [_|B]; [|lra].
  unfold update_within. cbn [q_lam q_u q_conv q_hpl q_fact q_info]. rewrite L0, Es.
  assert (Hx2 : fsq 3 xc < 1) by lra. assert (Hz : 0 < fsq 3 z) by lra.
  destruct (scalar_quadratic_ok 3 xc z Hx2 Hz) as (ta & tb & Eq & (Na & Pb) & Q).
  assert (Pr : ta * tb = - (3 / 4)).
  { specialize (Q 0). replace (fsq 3 (fadd xc (fscale 0 z))) with (fsq 3 xc) in Q.
    - nra.
    - unfold fsq, fdot, fadd, fscale. apply bsum_ext. intros. ring. }
  assert (Et : exists t, smallest_step_len tie 3 xc z = Ok t /\ t <> 0 /\ t * t <= 3 / 4).
  { unfold smallest_step_len. rewrite Eq. cbn [bind]. rewrite (Rabs_left ta), (Rabs_right tb) by lra.
    destruct (Rltb_spec tb (- ta)); [exists tb; repeat split; nra|].
    destruct (Rltb_spec (- ta) tb); [exists ta; repeat split; nra|].
    destruct (tie xc z); [exists ta|exists tb]; repeat split; nra. }
  destruct Et as (t & -> & Tn & Tt). cbn [bind].
  assert (Qf : fdot 3 (fvm 3 xc H) xc = q).
  { unfold fdot, fvm. cbn [bsum]. rewrite X0, X1, X2, Hq. lra. }
  rewrite Qf. unfold div. destruct (Reqb (q + 0) 0) eqn:B2; [apply Reqb_true in B2; lra|]. cbn [bind].
  assert (B3 : Rleb (t * t * (sm * sm) / (q + 0)) (k_hard default_gopts) = true).
  { apply Rleb_true. cbn [k_hard default_gopts]. replace (q + 0) with q by ring. apply (Rmult_le_reg_r q); [easy|].
    unfold Rdiv. rewrite Rmult_assoc, Rinv_l by lra. nra. }
  rewrite B3. rewrite !orb_true_r. set (nw := 0 + _).
  exists (mkGqr (fadd xc (fscale t z)) (fdot 3 g (fadd xc (fscale t z)) + 1 / 2 * fdot 3 (fvm 3 (fadd xc (fscale t z)) H) (fadd xc (fscale t z))) true), t.
  split; [destruct (snd (chol 3 (add_diag H nw))); reflexivity|]. cbn [g_success g_x]. unfold fadd, fscale. rewrite X0, X1, X2.
  repeat split; try easy; ring.
Qed.

(** H = U^T U with U = (1 1/2 3/2; 0 1 1; 0 0 1/10) and g = - H (1/2, 0, 0). *)
Definition U192 : fmat := fun i j =>
  match i, j with
  | 0%nat, 0%nat => 1 | 0%nat, 1%nat => 1 / 2 | 0%nat, 2%nat => 3 / 2
  | 1%nat, 1%nat => 1 | 1%nat, 2%nat => 1
  | 2%nat, 2%nat => 1 / 10
  | _, _ => 0
  end.
Definition H192 : fmat := fun i j =>
  match i, j with
  | 0%nat, 0%nat => 1 | 0%nat, 1%nat => 1 / 2 | 0%nat, 2%nat => 3 / 2
  | 1%nat, 0%nat => 1 / 2 | 1%nat, 1%nat => 5 / 4 | 1%nat, 2%nat => 7 / 4
  | 2%nat, 0%nat => 3 / 2 | 2%nat, 1%nat => 7 / 4 | 2%nat, 2%nat => 163 / 50
  | _, _ => 0
  end.
Definition g192 : fvec := fun i => match i with 0%nat => - (1 / 2) | 1%nat => - (1 / 4) | 2%nat => - (3 / 4) | _ => 0 end.

Lemma chol192 : chol 3 H192 = (U192, O).
Proof.
  assert (C1 : chol 1 H192 = (fun i j => if Nat.eqb i 0 && Nat.eqb j 0 then 1 else 0, O)).
  { cbn [chol fwd bsum]. cbn [H192]. destruct (Rleb_spec (1 - 0) 0); [lra|]. f_equal.
    apply functional_extensionality. intros i. apply functional_extensionality. intros j.
    destruct j as [|j]; [|now rewrite andb_false_r]. destruct i as [|i]; [|reflexivity]. cbn. rewrite Rminus_0_r. apply sqrt_1. }
  assert (C2 : chol 2 H192 = (fun i j => if Nat.ltb i 2 && Nat.ltb j 2 then U192 i j else 0, O)).
  { cbn [chol] in C1 |- *. rewrite C1. cbn [fwd bsum]. unfold upd. cbn [Nat.eqb andb H192]. 
    match goal with |- context [Rleb ?d 0] => replace d with 1 by lra end. destruct (Rleb_spec 1 0); [lra|]. f_equal.
    apply functional_extensionality. intros i. apply functional_extensionality. intros j.
    destruct i as [|[|i]], j as [|[|j]]; cbn; try reflexivity; try lra. apply sqrt_1. }
  cbn [chol] in C2 |- *. rewrite C2. cbn [fwd bsum]. unfold upd. cbn [Nat.eqb Nat.ltb Nat.leb andb H192 U192].
  match goal with |- context [Rleb ?d 0] => replace d with (1 / 10 * (1 / 10)) by lra end.
  destruct (Rleb_spec (1 / 10 * (1 / 10)) 0); [lra|]. f_equal.
  apply functional_extensionality. intros i. apply functional_extensionality. intros j.
  destruct i as [|[|[|i]]], j as [|[|[|j]]]; cbn; try reflexivity; try lra. apply sqrt_square. lra.
Qed.

Lemma estimate192 U w0 w1 w2 v0 v1 v2 :
  (exists p, estimate_condition 3 3 U = (upd (upd (upd fzero 0 w0) 1 w1) 2 w2, p)) ->
  v2 = w2 / U 2%nat 2%nat -> v1 = (w1 - U 1%nat 2%nat * v2) / U 1%nat 1%nat ->
  v0 = (w0 - (U 0%nat 1%nat * v1 + U 0%nat 2%nat * v2)) / U 0%nat 0%nat -> v2 <> 0 ->
  exists sm z c, estimate_smallest_singular_value 3 U = (sm, z) /\ c <> 0 /\ fsq 3 z = 1 /\
    z 0%nat = c * v0 /\ z 1%nat = c * v1 /\ z 2%nat = c * v2 /\
    sm * sm * (v0 * v0 + v1 * v1 + v2 * v2) = w0 * w0 + w1 * w1 + w2 * w2.
Proof.
  intros (p & E) E2 E1 E0 N. unfold estimate_smallest_singular_value. rewrite E. cbn [fst].
  set (w := upd (upd (upd fzero 0 w0) 1 w1) 2 w2). set (v := bwd 3 3 U w).
  assert (V2 : v 2%nat = v2).
  { unfold v. cbn [bwd bsum Nat.sub Nat.add]. unfold upd. cbn [Nat.eqb]. rewrite E2. unfold w, upd. cbn [Nat.eqb]. now rewrite Rminus_0_r. }
  assert (V1 : v 1%nat = v1).
  { unfold v. cbn [bwd bsum Nat.sub Nat.add]. unfold upd. cbn [Nat.eqb]. rewrite E1, E2. unfold w, upd. cbn [Nat.eqb]. now rewrite Rminus_0_r, Rplus_0_l. }
  assert (V0 : v 0%nat = v0).
  { unfold v. cbn [bwd bsum Nat.sub Nat.add]. unfold upd. cbn [Nat.eqb]. rewrite E0, E1, E2. unfold w, upd. cbn [Nat.eqb]. now rewrite !Rminus_0_r, !Rplus_0_l. }
  assert (Pv : 0 < fsq 3 v) by (apply (fsq_pos 3 v 2%nat); [lia|now rewrite V2]).
  assert (Pn : 0 < fnorm 3 v) by now apply sqrt_lt_R0.
  assert (Sv : fsq 3 v = v0 * v0 + v1 * v1 + v2 * v2) by (unfold fsq, fdot; cbn [bsum]; rewrite V0, V1, V2; ring).
  assert (Sw : fsq 3 w = w0 * w0 + w1 * w1 + w2 * w2) by (unfold fsq, fdot, w, upd; cbn [bsum Nat.eqb]; ring).
  do 2 eexists. exists (/ fnorm 3 v). split; [reflexivity|]. split; [now apply Rinv_neq_0_compat, Rgt_not_eq|].
  unfold fscale at 2 3 4. rewrite V0, V1, V2. repeat split.
  - unfold fsq. rewrite fdot_scaled. fold (fsq 3 v). rewrite <- (fnorm_sqr 3 v). field. lra.
  - rewrite <- Sv, <- Sw, <- !fnorm_sqr. field. lra.
Qed.

Lemma est_step3 U k w p wp wm :
  estimate_condition k 3 U = (w, p) -> (1 - p k) / U k k = wp -> (-1 - p k) / U k k = wm ->
  estimate_condition (S k) 3 U =
    (let next u := fun j => if Nat.ltb k j then p j + U k j * u else p j in
     if Rleb (Rabs wm + bsum (3 - S k) (fun j => Rabs (next wm (S k + j)%nat)))
             (Rabs wp + bsum (3 - S k) (fun j => Rabs (next wp (S k + j)%nat)))
     then (upd w k wp, next wp) else (upd w k wm, next wm)).
Proof. intros E <- <-. cbn [estimate_condition]. now rewrite E. Qed.

Ltac est_decide :=
  cbv zeta; cbn [Nat.sub bsum Nat.add Nat.ltb Nat.leb];
  match goal with |- context [Rleb ?a ?c] =>
    let L := fresh "L" in
    destruct (Rleb_spec a c) as [L|L];
    unfold Rabs in L; repeat match goal with H : context [Rcase_abs ?x] |- _ => destruct (Rcase_abs x) end; try lra
  end.

Lemma estimate192_plain : exists p, estimate_condition 3 3 U192 = (upd (upd (upd fzero 0 1) 1 (1 / 2)) 2 (-30), p).
Proof.
  assert (E1 : exists p, estimate_condition 1 3 U192 = (upd fzero 0 1, p) /\ p 1%nat = 1 / 2 /\ p 2%nat = 3 / 2).
  { rewrite (est_step3 U192 0 fzero fzero 1 (-1)); [|reflexivity|cbn; unfold fzero; lra|cbn; unfold fzero; lra].
    unfold fzero at 1 2 3 4. cbn [U192]. est_decide; eexists; (split; [reflexivity|]); unfold fzero; cbn; lra. }
  destruct E1 as (p1 & E1 & P11 & P12).
  assert (E2 : exists p, estimate_condition 2 3 U192 = (upd (upd fzero 0 1) 1 (1 / 2), p) /\ p 2%nat = 2).
  { rewrite (est_step3 U192 1 _ _ (1 / 2) (- (3 / 2)) E1); [|rewrite P11; cbn; lra|rewrite P11; cbn; lra].
    cbn [Nat.sub bsum Nat.add Nat.ltb Nat.leb U192]. rewrite P12. est_decide. eexists. split; [reflexivity|]. cbn. lra. }
  destruct E2 as (p2 & E2 & P22).
  rewrite (est_step3 U192 2 _ _ (-10) (-30) E2); [|rewrite P22; cbn; lra|rewrite P22; cbn; lra].
  est_decide. eexists. reflexivity.
Qed.

Lemma estimate192_scaled : exists p,
  estimate_condition 3 3 (mscaled (1 / 3) U192) = (upd (upd (upd fzero 0 3) 1 (- (9 / 2))) 2 30, p).
Proof.
  assert (E1 : exists p, estimate_condition 1 3 (mscaled (1 / 3) U192) = (upd fzero 0 3, p) /\ p 1%nat = 1 / 2 /\ p 2%nat = 3 / 2).
  { rewrite (est_step3 (mscaled (1 / 3) U192) 0 fzero fzero 3 (-3)); [|reflexivity|unfold mscaled; cbn; unfold fzero; field|unfold mscaled; cbn; unfold fzero; field].
    unfold fzero at 1 2 3 4, mscaled. cbn [U192]. est_decide; eexists; (split; [reflexivity|]); unfold fzero; cbn; lra. }
  destruct E1 as (p1 & E1 & P11 & P12).
  assert (E2 : exists p, estimate_condition 2 3 (mscaled (1 / 3) U192) = (upd (upd fzero 0 3) 1 (- (9 / 2)), p) /\ p 2%nat = 0).
  { rewrite (est_step3 (mscaled (1 / 3) U192) 1 _ _ (3 / 2) (- (9 / 2)) E1); [|rewrite P11; unfold mscaled; cbn; field|rewrite P11; unfold mscaled; cbn; field].
    unfold mscaled. cbn [Nat.sub bsum Nat.add Nat.ltb Nat.leb U192]. rewrite P12. est_decide. eexists. split; [reflexivity|]. cbn. lra. }
  destruct E2 as (p2 & E2 & P22).
  rewrite (est_step3 (mscaled (1 / 3) U192) 2 _ _ 30 (-30) E2); [|rewrite P22; unfold mscaled; cbn; field|rewrite P22; unfold mscaled; cbn; field].
  est_decide. eexists. reflexivity.
Qed.

Lemma cand192 : l_cand (initial_lambdas 3 g192 H192) = 0.
Proof.
  assert (Gn : fnorm 3 g192 <= 1).
  { unfold fnorm. apply Rle_trans with (sqrt 1); [|rewrite sqrt_1; lra]. apply sqrt_le_1_alt.
    unfold fsq, fdot. cbn [bsum g192]. lra. }
  assert (Ef : 1 <= fro_norm 3 H192).
  { unfold fro_norm. cbn [bsum H192]. apply Rle_trans with (sqrt 1); [rewrite sqrt_1; lra|]. apply sqrt_le_1_alt. lra. }
  unfold initial_lambdas. destruct (gershgorin 3 H192) as (gl, gu) eqn:Ge. cbv zeta. cbn [l_cand].
  assert (Gu : 1 <= gu).
  { unfold gershgorin, row_sum in Ge. injection Ge as _ <-. cbn [vmax bsum H192]. rewrite !Rabs_right by lra.
    eapply Rle_trans; [|apply Rmax_r]. lra. }
  assert (In : 1 <= inf_norm 3 H192).
  { unfold inf_norm, row_sum. cbn [vmax bsum H192]. rewrite !Rabs_right by lra. eapply Rle_trans; [|apply Rmax_r]. lra. }
  assert (Lo : Rmax (Rmax 0 (- vmin 3 (fun i => H192 i i))) (fnorm 3 g192 - Rmin (Rmin gu (fro_norm 3 H192)) (inf_norm 3 H192)) = 0).
  { assert (Mn : 1 <= vmin 3 (fun i => H192 i i)) by (cbn [vmin H192]; repeat apply Rmin_glb; lra).
    assert (Mi : 1 <= Rmin (Rmin gu (fro_norm 3 H192)) (inf_norm 3 H192)) by (repeat apply Rmin_glb; lra).
    rewrite (Rmax_left 0) by lra. apply Rmax_left. lra. }
  rewrite Lo. unfold Reqb. destruct (Req_EM_T 0 0); [reflexivity|lra].
Qed.

Lemma threshold192 : zero_threshold 3 H192 < fnorm 3 g192.
Proof.
  assert (I : inf_norm 3 H192 <= 7).
  { unfold inf_norm, row_sum. cbn [vmax bsum H192]. rewrite !Rabs_right by lra. repeat apply Rmax_lub; lra. }
  assert (G : 1 / 2 <= fnorm 3 g192).
  { unfold fnorm. replace (1 / 2) with (sqrt (1 / 2 * (1 / 2))) by (apply sqrt_square; lra). apply sqrt_le_1_alt.
    unfold fsq, fdot. cbn [bsum g192]. lra. }
  unfold zero_threshold, EPS. cbn [INR]. lra.
Qed.

(** Three parameters - with the default options gqtpar returns another step for one ninth of the
    model g^T x + 1/2 x^T H x; H is positive definite and gqtpar reports success for both. *)
Theorem C192_three_parameters_refuted :
  exists g H, (forall i j, H i j = H j i) /\ (forall x, (exists i, (i < 3)%nat /\ x i <> 0) -> 0 < fdot 3 (fvm 3 x H) x) /\
  forall tie x0 k, exists r r',
    gqtpar tie 3 g H x0 default_gopts (S k) = Ok r /\
    gqtpar tie 3 (fun i => 1 / 9 * g i) (fun i j => 1 / 9 * H i j) x0 default_gopts (S k) = Ok r' /\
    g_success r = true /\ g_success r' = true /\ (g_x r 1%nat <> g_x r' 1%nat \/ g_x r 2%nat <> g_x r' 2%nat).
Proof.
  exists g192, H192. split; [|split].
  - intros [|[|[|i]]] [|[|[|j]]]; reflexivity.
  - intros x (i & Hi & Nx). unfold fdot, fvm. cbn [bsum H192].
    set (a := x 0%nat). set (c := x 1%nat). set (d := x 2%nat).
    assert (Sq : 0 + (0 + a * 1 + c * (1 / 2) + d * (3 / 2)) * a + (0 + a * (1 / 2) + c * (5 / 4) + d * (7 / 4)) * c
               + (0 + a * (3 / 2) + c * (7 / 4) + d * (163 / 50)) * d
               = (a + c / 2 + 3 / 2 * d) * (a + c / 2 + 3 / 2 * d) + (c + d) * (c + d) + d * d / 100) by field.
    rewrite Sq. clear Sq.
    pose proof (Rle_0_sqr (a + c / 2 + 3 / 2 * d)) as Q1. pose proof (Rle_0_sqr (c + d)) as Q2. pose proof (Rle_0_sqr d) as Q3. unfold Rsqr in *.
    destruct (Req_dec d 0) as [Zd|Nd]; [|assert (0 < d * d) by nra; lra].
    destruct (Req_dec (c + d) 0) as [Zc|Nc]; [|assert (0 < (c + d) * (c + d)) by nra; lra].
    destruct (Req_dec (a + c / 2 + 3 / 2 * d) 0) as [Za|Na]; [|assert (0 < (a + c / 2 + 3 / 2 * d) * (a + c / 2 + 3 / 2 * d)) by nra; lra].
    exfalso. destruct i as [|[|[|i]]]; [| | |lia]; apply Nx; fold a c d; lra.
  - intros tie x0 k.
    assert (S0 : forall i, cho_solve 3 U192 (fopp g192) i = match i with 0%nat => 1 / 2 | _ => 0 end).
    { intros i. unfold cho_solve. cbn [fwd bwd bsum Nat.sub Nat.add]. unfold upd, fopp, fzero.
      destruct i as [|[|[|i]]]; cbn [Nat.eqb U192 g192]; try lra. }
    destruct (estimate192 U192 1 (1 / 2) (-30) (1203 / 4) (601 / 2) (-300) estimate192_plain) as (sm & z & c & Es & Nc & Zs & Z0 & Z1 & Z2 & Sm); cbn [U192]; try lra.
    destruct (first_pass tie g192 H192 U192 z sm (1 / 4) x0 k) as (r & t & Er & Sr & Nt & R0 & R1 & R2);
      try rewrite S0; try exact cand192; try exact chol192; try exact threshold192; try exact Es; try exact Zs; cbn [U192 H192]; try lra.
    assert (P3 : 0 < 1 / 3) by lra.
    assert (C9 : chol 3 (mscaled (1 / 3 * (1 / 3)) H192) = (mscaled (1 / 3) U192, O)).
    { rewrite (chol_scaled (1 / 3) P3), chol192. reflexivity. }
    destruct (estimate192 (mscaled (1 / 3) U192) 3 (- (9 / 2)) 30 (- (3537 / 4)) (- (1827 / 2)) 900 estimate192_scaled) as (sm' & z' & c' & Es' & Nc' & Zs' & Z0' & Z1' & Z2' & Sm'); unfold mscaled; cbn [U192]; try lra; try field.
    destruct (first_pass tie (fscale (1 / 3 * (1 / 3)) g192) (mscaled (1 / 3 * (1 / 3)) H192) (mscaled (1 / 3) U192) z' sm' (1 / 36) x0 k) as (r' & t' & Er' & Sr' & Nt' & R0' & R1' & R2');
      try (rewrite (cho_solve_scaled (1 / 3) P3), S0); try exact C9; try exact Es'; try exact Zs'; try (unfold mscaled; cbn [U192 H192]; lra).
    { rewrite initial_lambdas_scaled by lra. cbn [scaled_lambdas l_cand]. rewrite cand192. ring. }
    { rewrite zero_threshold_scaled, fnorm_scaled by lra. pose proof threshold192. nra. }
    exists r, r'. split; [exact Er|]. split.
    { rewrite <- Er'. f_equal; [apply functional_extensionality; intros i; unfold fscale; lra|].
      apply functional_extensionality; intros i; apply functional_extensionality; intros j; unfold mscaled; lra. }
    split; [exact Sr|]. split; [exact Sr'|].
    destruct (Req_dec (g_x r 1%nat) (g_x r' 1%nat)) as [E1|]; [|now left]. right. intros E2.
    rewrite R1, R1', Z1, Z1' in E1. rewrite R2, R2', Z2, Z2' in E2.
    assert (t * c = 0) by nra. apply Rmult_integral in H as [H|H]; auto.
Qed.
