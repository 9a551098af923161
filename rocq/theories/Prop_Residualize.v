(** C212: the fit of the residuals of an old model (residualize = True). *)
From Coq Require Import Reals List Arith Bool Lia Lra FunctionalExtensionality.
From Verif Require Import Base XR Vec FVec ModelsModel FitModel Prop_Models Prop_Fit LstsqProofs Prop_Geometry Prop_Frobenius.
Import ListNotations.
Open Scope R_scope.

Lemma map2_map_ext {A B C D} (f : B -> C -> D) (f' : A -> C -> D) (g : A -> B) : (forall x y, f (g x) y = f' x y) ->
  forall l k, map2 f (map g l) k = map2 f' l k.
Proof. intros E. induction l as [|a l IH]; intros [|b k]; cbn; try reflexivity. now rewrite E, IH. Qed.

(** C212 - the fitter gets the differences between the values and the predictions of the old model
    at the sample points, and the new model is the sum of the old model and the fitted one, as
    functions of the parameters. *)
Theorem C212_sum_of_old_and_fitted_model :
  forall clip fitter n m t center r s old xs ys vm,
    r <> 0 -> s <> 0 -> vm_scale old = MScalar s -> vm_n old = n -> vm_m old = m ->
    (forall h k, vm_h old = Some h -> (k < m)%nat -> fsymm n (h k)) ->
    (t = Linear -> vm_h old = None) ->
    fitter_template clip fitter n m t true center (MScalar r) old xs ys = Ok vm ->
    let old_value z k := predict_vector old (to_unit (vm_shift old) (MScalar s) z) k in
    exists coef,
      fitter (map (to_unit center (MScalar r)) xs)
             (map2 (fun x y => map2 xsub y (map (fun k => Fin (old_value x k)) (seq 0 m))) xs (clip ys)) = Ok coef /\
      ((forall k, length (coef k) = n_free_params n t) ->
       forall z k, (k < m)%nat ->
         predict_vector vm (to_unit center (MScalar r) z) k
         = old_value z k + dot (coef k) (feature_row n t (to_unit center (MScalar r) z))).
Proof.
  intros clip fitter n m t center r s old xs ys vm Hr Hs ES En Em HS HT H old_value.
  unfold fitter_template in H. destruct (move_vmodel old center (MScalar r)) as [arg om] eqn:EM.
  destruct (C38_moved_vector_model_predicts_the_same old r s center arg om) as (_ & M1 & M2 & M3 & M4 & M5); auto.
  { intros h k E K. rewrite En. rewrite Em in K. now apply HS. }
  rewrite Em in M5. fold old_value in M5.
  change (map (fun (x : fvec) i => (x i - center i) / scale_at (MScalar r) i) xs) with (map (to_unit center (MScalar r)) xs) in H.
  rewrite (map2_map_ext _ (fun x y => map2 xsub y (map (fun k => Fin (old_value x k)) (seq 0 m)))) in H.
  2:{ intros x y. f_equal. apply map_ext_in. intros k Hk. apply in_seq in Hk. f_equal. apply M5. lia. }
  destruct (fitter _ _) as [coef|] eqn:EF; [|discriminate]. cbn [bind] in H.
  exists coef. split; [reflexivity|]. intros HL z k Hk.
  destruct (C42_fitted_model_predicts_features_times_coefs n m t coef center (MScalar r) HL) as (fm & EB & P & _ & S1 & S2).
  rewrite EB in H. cbn [bind] in H.
  assert (Fn : vm_n fm = n /\ (vm_h fm = None -> t = Linear)).
  { unfold build_vmodel in EB. destruct t; [injection EB as <-; easy|].
    destruct (reshape_square_terms_to_hess n (skipn (n + 1) (coef 0%nat))); [|discriminate].
    injection EB as <-. easy. }
  destruct Fn as [Fn Fh].
  assert (OH : vm_h old = None -> vm_h om = None).
  { intros E. unfold move_vmodel, shift_vmodel, scale_vmodel in EM. cbn [vm_h] in EM. rewrite E in EM. injection EM as _ <-. reflexivity. }
  rewrite (C40_sum_of_vector_models_partial fm om vm) by (congruence || auto || exact H).
  rewrite P, M5 by exact Hk. unfold old_value. ring.
Qed.

(** * The coefficients *)

Lemma dot_fun_sum p (a b : fvec) l : length l = p ->
  dot (map (fun j => a j + b j) (seq 0 p)) l = dot (map a (seq 0 p)) l + dot (map b (seq 0 p)) l.
Proof.
  intros H. rewrite <- !(bsum_dot_fun p) by exact H. rewrite <- bsum_plus. apply bsum_ext. intros; ring.
Qed.

Section Change.
Variables (N n : nat) (t : model_type) (X : nat -> fvec) (y : fvec) (w : option fvec) (old : fvec).
Let p := n_free_params n t.
(** The value of the model with coefficients [c] at sample point i. *)
Definition fitted_value (c : fvec) (i : nat) : R := dot (map c (seq 0 (n_free_params n t))) (feature_row n t (X i)).
Definition residuals : fvec := fun i => y i - fitted_value old i.

Lemma residual_error c : fit_error N n t X residuals w c = fit_error N n t X y w (fun j => old j + c j).
Proof.
  unfold fit_error. apply bsum_ext. intros i Hi. unfold residuals, fitted_value.
  rewrite dot_fun_sum by (symmetry; apply C41_free_params_match_features). f_equal. ring.
Qed.
Lemma residual_error_back c : fit_error N n t X y w c = fit_error N n t X residuals w (fun j => c j - old j).
Proof.
  rewrite residual_error. f_equal. apply functional_extensionality. intros j. ring.
Qed.
End Change.

Lemma exact_answers lstsq N q A b : exact_lstsq lstsq -> answers is_min_norm_lstsq lstsq N q A b.
Proof.
  intros LS A' b' EA Eb. specialize (LS N q A' b').
  assert (S : forall c, ssr N q A' b' c = ssr N q A b c).
  { intros c. unfold ssr. apply bsum_ext. intros i Hi. rewrite Eb by exact Hi. f_equal. f_equal.
    apply bsum_ext. intros j Hj. now rewrite EA. }
  destruct LS as [L M]. split.
  - intros c'. rewrite <- !S. apply L.
  - intros c' H. apply M. intros d. rewrite !S. apply H.
Qed.

(** C212 - least change, tranquilo.  The new coefficients fit the sample as well as possible, and among
    those coefficients the penalised change of the old ones is smallest. *)
Theorem C212_least_change_tranquilo :
  forall lstsq N n t X y w old pI pL pS,
    exact_lstsq lstsq -> 0 < pI -> 0 < pL -> 0 < pS ->
    (forall i, (i < N)%nat -> 0 <= weight_at w i) ->
    let y_res i := y i - dot (map old (seq 0 (n_free_params n t))) (feature_row n t (X i)) in
    let new j := old j + fit_tranquilo lstsq N n t X y_res w pI pL pS j in
    (forall c, fit_error N n t X y w new <= fit_error N n t X y w c) /\
    (forall c, fit_error N n t X y w c <= fit_error N n t X y w new ->
       bsum (n_free_params n t) (fun j => (penalty_at n pI pL pS j * (new j - old j)) ^ 2)
       <= bsum (n_free_params n t) (fun j => (penalty_at n pI pL pS j * (c j - old j)) ^ 2)).
Proof.
  intros lstsq N n t X y w old pI pL pS LS HI HL HS Hw y_res new.
  destruct (add_weighting (feature_matrix n t X) y_res w) as [Fw yw] eqn:E.
  destruct (C43_fit_tranquilo_minimizes_penalty_weighted_norm lstsq N n t X y_res w pI pL pS _ Fw yw HI HL HS Hw E
              (exact_answers _ _ _ _ _ LS) eq_refl) as [A B].
  change y_res with (residuals n t X y old) in *. set (r := fit_tranquilo lstsq N n t X (residuals n t X y old) w pI pL pS) in *.
  assert (EN : fit_error N n t X y w new = fit_error N n t X (residuals n t X y old) w r)
    by (symmetry; apply residual_error).
  split.
  - intros c. rewrite EN, (residual_error_back N n t X y w old c). apply A.
  - intros c H. rewrite EN, (residual_error_back N n t X y w old c) in H. specialize (B _ H). cbn beta in B.
    rewrite (bsum_ext (n_free_params n t) (fun j => (penalty_at n pI pL pS j * (new j - old j)) ^ 2)
      (fun j => (penalty_at n pI pL pS j * r j) ^ 2)) by (intros j _; unfold new; ring). exact B.
Qed.

(** C212 - least change, ols. *)
Theorem C212_least_change_ols :
  forall lstsq N n t X y w old,
    exact_lstsq lstsq -> (forall i, (i < N)%nat -> 0 <= weight_at w i) ->
    let y_res i := y i - dot (map old (seq 0 (n_free_params n t))) (feature_row n t (X i)) in
    let new j := old j + fit_ols lstsq N n t X y_res w j in
    (forall c, fit_error N n t X y w new <= fit_error N n t X y w c) /\
    (forall c, fit_error N n t X y w c <= fit_error N n t X y w new ->
       bsum (n_free_params n t) (fun j => (new j - old j) ^ 2) <= bsum (n_free_params n t) (fun j => (c j - old j) ^ 2)).
Proof.
  intros lstsq N n t X y w old LS Hw y_res new.
  destruct (add_weighting (feature_matrix n t X) y_res w) as [Fw yw] eqn:E.
  unfold new. unfold fit_ols. rewrite E, n_features_free.
  pose proof (LS N (n_free_params n t) Fw yw) as [A B]. set (r := lstsq N (n_free_params n t) Fw yw) in *.
  assert (ER : forall c, ssr N (n_free_params n t) Fw yw c = fit_error N n t X (residuals n t X y old) w c)
    by (intros c; now apply (add_weighting_ssr N n t X y_res w)).
  assert (EN : fit_error N n t X y w (fun j => old j + r j) = fit_error N n t X (residuals n t X y old) w r)
    by (symmetry; apply residual_error).
  assert (A' : forall c, fit_error N n t X y w (fun j => old j + r j) <= fit_error N n t X y w c).
  { intros c. rewrite EN, (residual_error_back N n t X y w old c), <- !ER. apply A. }
  split; [exact A'|]. intros c H.
  rewrite (bsum_ext (n_free_params n t) (fun j => (old j + r j - old j) ^ 2) (fun j => r j * r j)) by (intros; ring).
  eapply Rle_trans; [apply (B (fun j => c j - old j))|].
  - intros d. rewrite !ER, <- (residual_error_back N n t X y w old c), residual_error.
    eapply Rle_trans; [exact H|apply A'].
  - right. unfold fsq, fdot. apply bsum_ext. intros; ring.
Qed.

(** C212 - if the sample determines the model, residualizing does not change the fit by ols. *)
Theorem C212_determined :
  forall lstsq N n t X y w old,
    exact_lstsq lstsq -> (forall i, (i < N)%nat -> 0 < weight_at w i) ->
    (forall c : fvec, (forall i, (i < N)%nat -> dot (map c (seq 0 (n_free_params n t))) (feature_row n t (X i)) = 0) ->
       forall j, (j < n_free_params n t)%nat -> c j = 0) ->
    let y_res i := y i - dot (map old (seq 0 (n_free_params n t))) (feature_row n t (X i)) in
    forall j, (j < n_free_params n t)%nat ->
    old j + fit_ols lstsq N n t X y_res w j = fit_ols lstsq N n t X y w j.
Proof.
  intros lstsq N n t X y w old LS Hw D y_res j Hj.
  assert (Hw' : forall i, (i < N)%nat -> 0 <= weight_at w i) by (intros i Hi; left; auto).
  destruct (C212_least_change_ols lstsq N n t X y w old LS Hw') as [A _].
  fold y_res in A. set (new := fun j => old j + fit_ols lstsq N n t X y_res w j) in A. change (new j = fit_ols lstsq N n t X y w j).
  destruct (add_weighting (feature_matrix n t X) y w) as [Fw yw] eqn:E.
  unfold fit_ols. rewrite E, n_features_free.
  pose proof (LS N (n_free_params n t) Fw yw) as [B _]. set (r := lstsq N (n_free_params n t) Fw yw) in *.
  assert (ER : forall c, ssr N (n_free_params n t) Fw yw c = fit_error N n t X y w c)
    by (intros c; now apply (add_weighting_ssr N n t X y w)).
  assert (A' : is_lstsq N (n_free_params n t) Fw yw new) by (intros c; rewrite !ER; apply A).
  pose proof (lstsq_same_fit _ _ _ _ _ _ B A') as Z.
  apply Rminus_diag_uniq. apply (D (fun j => new j - r j)); [|exact Hj].
  intros i Hi. specialize (Z i Hi). specialize (Hw i Hi).
  rewrite <- (bsum_dot_fun (n_free_params n t)) by (symmetry; apply C41_free_params_match_features).
  destruct w as [w|]; cbn [add_weighting weight_at] in *; injection E as <- <-; [|exact Z].
  rewrite (bsum_ext (n_free_params n t) _ (fun k => sqrt (w i) * (nth k (feature_row n t (X i)) 0 * (new k - r k)))) in Z
    by (intros k _; unfold feature_matrix; ring).
  rewrite bsum_scal in Z. apply Rmult_integral in Z. destruct Z as [Z|Z]; [|exact Z].
  pose proof (sqrt_lt_R0 (w i) Hw). lra.
Qed.

(** C212 - such a fit succeeds whenever the fitter does. *)
Theorem C212_succeeds :
  forall clip fitter n m t center r s old xs ys,
    r <> 0 -> s <> 0 -> vm_scale old = MScalar s -> vm_n old = n -> vm_m old = m ->
    (forall h k, vm_h old = Some h -> (k < m)%nat -> fsymm n (h k)) ->
    (t = Quadratic -> vm_h old <> None) ->
    (forall sample values, exists coef, fitter sample values = Ok coef /\ forall k, length (coef k) = n_free_params n t) ->
    exists vm, fitter_template clip fitter n m t true center (MScalar r) old xs ys = Ok vm.
Proof.
  intros clip fitter n m t center r s old xs ys Hr Hs ES En Em HS HT HF.
  unfold fitter_template. destruct (move_vmodel old center (MScalar r)) as [arg om] eqn:EM.
  destruct (C38_moved_vector_model_predicts_the_same old r s center arg om) as (_ & M1 & M2 & M3 & M4 & _); auto.
  { intros h k E K. rewrite En. rewrite Em in K. now apply HS. }
  match goal with |- context [fitter ?a ?b] => destruct (HF a b) as (coef & -> & HL) end. cbn [bind].
  destruct (C42_fitted_model_predicts_features_times_coefs n m t coef center (MScalar r) HL) as (fm & EB & _ & _ & S1 & S2).
  rewrite EB. cbn [bind].
  assert (Fn : vm_n fm = n /\ (vm_h fm <> None -> t = Quadratic)).
  { unfold build_vmodel in EB. destruct t; [injection EB as <-; split; [reflexivity|cbn; congruence]|].
    destruct (reshape_square_terms_to_hess n (skipn (n + 1) (coef 0%nat))); [|discriminate]. injection EB as <-. easy. }
  destruct Fn as [Fn Fh].
  unfold add_models_vector. rewrite S1, S2, M4, Fn.
  assert (A1 : allclose n center (vm_shift om) = true).
  { apply forallb_forall. intros i Hi. apply in_seq in Hi. rewrite En in M3. rewrite M3 by lia. apply isclose_default_refl. }
  rewrite A1. cbn [negb allclose_scale].
  rewrite isclose_default_refl. cbn [negb].
  destruct (vm_h fm) as [h1|] eqn:H1; [|eexists; reflexivity].
  destruct (vm_h om) as [h2|] eqn:H2; [eexists; reflexivity|].
  exfalso. apply HT; [apply Fh; discriminate|].
  destruct (vm_h old) as [h|] eqn:EO; [|reflexivity].
  unfold move_vmodel, shift_vmodel, scale_vmodel in EM. cbn [vm_h] in EM. rewrite EO in EM. injection EM as _ <-. discriminate.
Qed.

(** One point only: the fit of the value 2 at 0 changes the old model 1 + 3 x to 2 + 3 x. *)
Example C212_instance_one_point :
  let old j := nth j [1; 3] 0 in
  let new j := old j + fit_ols min_norm_ls 1 1 Linear (fun _ _ => 0) (fun _ => 2 - dot (map old (seq 0 2)) [1; 0]) None j in
  new 0%nat = 2 /\ new 1%nat = 3.
Proof.
  intros old new.
  destruct (C212_least_change_ols min_norm_ls 1 1 Linear (fun _ _ => 0) (fun _ => 2) None old (proj1 C165_instance_solvers)) as [A B].
  { intros. cbn. lra. }
  assert (A' : forall c, fit_error 1 1 Linear (fun _ _ => 0) (fun _ => 2) None new <= fit_error 1 1 Linear (fun _ _ => 0) (fun _ => 2) None c)
    by exact A.
  assert (B' : forall c, fit_error 1 1 Linear (fun _ _ => 0) (fun _ => 2) None c <= fit_error 1 1 Linear (fun _ _ => 0) (fun _ => 2) None new ->
     bsum 2 (fun j => (new j - old j) ^ 2) <= bsum 2 (fun j => (c j - old j) ^ 2)) by exact B.
  clear A B. rename A' into A, B' into B. clearbody new.
  specialize (A (fun j => nth j [2; 3] 0)). unfold fit_error, dot in A. cbn in A.
  assert (E0 : new 0%nat = 2).
  { set (u := new 0%nat) in *. assert ((u - 2) * (u - 2) <= 0) by lra. pose proof (Rle_0_sqr (u - 2)) as Q. unfold Rsqr in Q.
    assert (Z : (u - 2) * (u - 2) = 0) by lra. apply Rmult_integral in Z. lra. }
  split; [exact E0|].
  specialize (B (fun j => nth j [2; 3] 0)). unfold fit_error, dot in B. cbn in B. rewrite E0 in B.
  assert (Q : (new 1%nat - 3) * (new 1%nat - 3) <= 0) by (specialize (B ltac:(lra)); unfold old in B; cbn in B; lra).
  pose proof (Rle_0_sqr (new 1%nat - 3)) as Q2. unfold Rsqr in Q2.
  assert (Z : (new 1%nat - 3) * (new 1%nat - 3) = 0) by lra. apply Rmult_integral in Z. lra.
Qed.

(** An old model 1 + x around 0 with radius 1, and a sample of two points for the determined case. *)
Example C212_instance :
  let old := mkV 1 1 (fun _ => 1) (fun _ _ => 1) None (MScalar 1) (fun _ => 0) in
  (exists vm, fitter_template (fun y => y) (fun _ _ => Ok (fun _ => [1; 2])) 1 1 Linear true (fun _ => 5) (MScalar 2) old
     [fun _ => 5] [[Fin 3]] = Ok vm) /\
  (forall c : fvec, (forall i, (i < 2)%nat -> dot (map c (seq 0 (n_free_params 1 Linear))) (feature_row 1 Linear (fun _ => INR i)) = 0) ->
     forall j, (j < n_free_params 1 Linear)%nat -> c j = 0).
Proof.
  intros old. split.
  - apply (C212_succeeds _ _ 1 1 Linear _ 2 1 old); try easy; try lra.
    intros sample values. exists (fun _ => [1; 2]). split; [reflexivity|]. intros; reflexivity.
  - intros c H. pose proof (H 0%nat ltac:(lia)) as H0. pose proof (H 1%nat ltac:(lia)) as H1.
    unfold dot in H0, H1. cbn in H0, H1. intros [|[|j]] Hj; [lra|lra|cbn in Hj; lia].
Qed.
