(** C211: the fit of averaged evaluations and the fit of all evaluations. *)
From Coq Require Import Reals List Arith Bool Lia Lra FunctionalExtensionality.
From Verif Require Import Base XR FVec ModelsModel FitModel Prop_Fit LstsqProofs Prop_Geometry Prop_Frobenius Prop_Rotate
  Prop_SampleOrder.
Import ListNotations.
Open Scope R_scope.

(** Evaluation r is one of the point with index [nth r ls 0]; its value is [v r]. *)
Definition n_evals (ls : list nat) (i : nat) : R := INR (count_occ Nat.eq_dec ls i).
Definition total (ls : list nat) (v : fvec) (i : nat) : R :=
  bsum (length ls) (fun r => if (nth r ls 0 =? i)%nat then v r else 0).
(** The average over the evaluations of point i. (history.py:188-190) *)
Definition average (ls : list nat) (v : fvec) (i : nat) : R := total ls v i / n_evals ls i.

Lemma total_average ls v i : n_evals ls i * average ls v i = total ls v i.
Proof.
  unfold average. destruct (Req_dec (n_evals ls i) 0) as [Z|Z]; [|now field].
  rewrite Z, Rmult_0_l. unfold total. symmetry. apply bsum_all_zero. intros r Hr.
  destruct (Nat.eqb_spec (nth r ls 0%nat) i) as [E|]; [|reflexivity]. exfalso.
  assert (In i ls) as H by (rewrite <- E; now apply nth_In).
  apply (count_occ_In Nat.eq_dec) in H. unfold n_evals in Z. apply (INR_eq _ 0) in Z. lia.
Qed.

Lemma bsum_grouped N ls g v : Forall (fun l => (l < N)%nat) ls ->
  bsum (length ls) (fun r => g (nth r ls 0%nat) * v r) = bsum N (fun i => n_evals ls i * (g i * average ls v i)).
Proof.
  intros HF.
  rewrite (bsum_ext N _ (fun i => bsum (length ls) (fun r => if (i =? nth r ls 0)%nat then g (nth r ls 0%nat) * v r else 0))).
  - rewrite bsum_swap. apply bsum_ext. intros r Hr. symmetry. apply bsum_single.
    rewrite Forall_forall in HF. apply HF. now apply nth_In.
  - intros i Hi. replace (n_evals ls i * (g i * average ls v i)) with (g i * total ls v i) by (rewrite <- total_average; ring).
    unfold total. rewrite <- bsum_scal. apply bsum_ext. intros r Hr. rewrite (Nat.eqb_sym i).
    destruct (Nat.eqb_spec (nth r ls 0%nat) i) as [->|]; ring.
Qed.

(** The squared distances of all evaluations to a function of the points: those of the averages,
    weighted by the numbers of evaluations, and a remainder that does not depend on the function. *)
Lemma spread N ls v g : Forall (fun l => (l < N)%nat) ls ->
  bsum (length ls) (fun r => (g (nth r ls 0%nat) - v r) ^ 2)
  = bsum N (fun i => n_evals ls i * (g i - average ls v i) ^ 2)
    + (bsum (length ls) (fun r => v r * v r) - bsum N (fun i => n_evals ls i * (average ls v i * average ls v i))).
Proof.
  intros HF.
  rewrite (bsum_ext (length ls) _ (fun r => (g (nth r ls 0%nat) * g (nth r ls 0%nat) - 2 * (g (nth r ls 0%nat) * v r)) + v r * v r)) by (intros; ring).
  rewrite bsum_plus, bsum_minus, bsum_scal, (bsum_grouped N ls g v) by exact HF.
  rewrite (bsum_counts N (fun i => g i * g i) ls HF).
  rewrite (bsum_ext N (fun i => n_evals ls i * (g i - average ls v i) ^ 2)
    (fun i => (n_evals ls i * (g i * g i) - 2 * (n_evals ls i * (g i * average ls v i))) + n_evals ls i * (average ls v i * average ls v i))) by (intros; ring).
  rewrite bsum_plus, bsum_minus, bsum_scal. unfold n_evals. ring.
Qed.

Lemma affine_ssr lstsq N N' p A A' b b' a k : exact_lstsq lstsq -> 0 < a ->
  (forall c, ssr N' p A' b' c = a * ssr N p A b c + k) -> forall j, (j < p)%nat -> lstsq N' p A' b' j = lstsq N p A b j.
Proof.
  intros LS Ha E. apply (min_norm_unique N p A b); [|apply LS].
  assert (Q : forall c, is_lstsq N p A b c <-> is_lstsq N' p A' b' c).
  { intros c. unfold is_lstsq. split; intros H c'; specialize (H c'); rewrite ?E in *.
    - apply Rplus_le_compat_r, Rmult_le_compat_l; [lra|exact H].
    - apply (Rmult_le_reg_l a); [exact Ha|lra]. }
  destruct (LS N' p A' b') as [L M]. split; [now apply Q|]. intros c' H. apply M. now apply Q.
Qed.

(** C211 - the fit of all evaluations is the fit of the averages weighted by the numbers of
    evaluations. *)
Theorem C211_weighted_averages :
  forall lstsq N n t (X : nat -> fvec) ls (v : fvec),
    exact_lstsq lstsq -> Forall (fun l => (l < N)%nat) ls ->
    let X' r := X (nth r ls 0%nat) in
    let y i := average ls v i in
    let w i := n_evals ls i in
    forall j, (j < n_features n t)%nat ->
    fit_ols lstsq (length ls) n t X' v None j = fit_ols lstsq N n t X y (Some w) j /\
    (forall p0 p1 p2, fit_tranquilo lstsq (length ls) n t X' v None p0 p1 p2 j
       = fit_tranquilo lstsq N n t X y (Some w) p0 p1 p2 j) /\
    (forall l1 l2, fit_ridge lstsq (length ls) n t X' v None l1 l2 j = fit_ridge lstsq N n t X y (Some w) l1 l2 j).
Proof.
  intros lstsq N n t X ls v LS HF X' y w j Hj.
  assert (SW : forall i, sqrt (w i) * sqrt (w i) = w i) by (intros i; apply sqrt_sqrt, pos_INR).
  split; [|split].
  - unfold fit_ols. cbn [add_weighting]. eapply (affine_ssr lstsq _ _ _ _ _ _ _ 1); [exact LS|lra| |exact Hj]. intros c. unfold ssr.
    etransitivity; [exact (spread N ls v (fun i => bsum (n_features n t) (fun j => feature_matrix n t X i j * c j)) HF)|].
    f_equal. rewrite Rmult_1_l. apply bsum_ext. intros i Hi. fold (w i) (y i).
    rewrite (bsum_ext (n_features n t) (fun j => feature_matrix n t X i j * sqrt (w i) * c j) (fun j => feature_matrix n t X i j * c j * sqrt (w i))) by (intros; ring).
    rewrite bsum_scal_r. rewrite <- (SW i) at 1. ring.
  - intros p0 p1 p2. unfold fit_tranquilo. cbn [add_weighting]. cbv zeta. f_equal.
    eapply (affine_ssr lstsq _ _ _ _ _ _ _ 1); [exact LS|lra| |exact Hj]. intros c. unfold ssr.
    etransitivity; [exact (spread N ls v (fun i => bsum (n_features n t) (fun j => feature_matrix n t X i j *
       nth j (penalty_factors n (n_features n t) p0 p1 p2) 0 * c j)) HF)|].
    f_equal. rewrite Rmult_1_l. apply bsum_ext. intros i Hi. fold (w i) (y i).
    rewrite (bsum_ext (n_features n t) (fun j => feature_matrix n t X i j * sqrt (w i) *
       nth j (penalty_factors n (n_features n t) p0 p1 p2) 0 * c j) (fun j => feature_matrix n t X i j *
       nth j (penalty_factors n (n_features n t) p0 p1 p2) 0 * c j * sqrt (w i))) by (intros; ring).
    rewrite bsum_scal_r. rewrite <- (SW i) at 1. ring.
  - intros l1 l2. unfold fit_ridge. cbn [add_weighting]. cbv zeta.
    apply (same_ssr lstsq); [exact LS| |exact Hj]. intros c. unfold ssr. apply bsum_ext. intros a Ha. f_equal. f_equal.
    + apply bsum_ext. intros k Hk.
      f_equal. f_equal. etransitivity; [exact (bsum_counts N (fun r => feature_matrix n t X r a * feature_matrix n t X r k) ls HF)|].
      apply bsum_ext. intros i _. fold (n_evals ls i). fold (w i). rewrite <- (SW i) at 1. ring.
    + etransitivity; [exact (bsum_grouped N ls (fun r => feature_matrix n t X r a) v HF)|].
      apply bsum_ext. intros i _. fold (w i) (y i). rewrite <- (SW i) at 1. ring.
Qed.

(** C211 - if all points are evaluated equally often, no weights are needed (for the two fitters
    without a penalty on the scale of the values). *)
Theorem C211_equal_evaluations :
  forall lstsq N n t (X : nat -> fvec) ls (v : fvec) K,
    exact_lstsq lstsq -> Forall (fun l => (l < N)%nat) ls ->
    (0 < K)%nat -> (forall i, (i < N)%nat -> count_occ Nat.eq_dec ls i = K) ->
    let X' r := X (nth r ls 0%nat) in
    let y i := average ls v i in
    forall j, (j < n_features n t)%nat ->
    fit_ols lstsq (length ls) n t X' v None j = fit_ols lstsq N n t X y None j /\
    (forall p0 p1 p2, fit_tranquilo lstsq (length ls) n t X' v None p0 p1 p2 j = fit_tranquilo lstsq N n t X y None p0 p1 p2 j).
Proof.
  intros lstsq N n t X ls v K LS HF HK HC X' y j Hj.
  assert (K0 : 0 < INR K) by (apply lt_0_INR; lia).
  split; [|intros p0 p1 p2; unfold fit_tranquilo; cbn [add_weighting]; cbv zeta; f_equal].
  - unfold fit_ols. cbn [add_weighting]. eapply (affine_ssr lstsq _ _ _ _ _ _ _ (INR K)); [exact LS|exact K0| |exact Hj]. intros c. unfold ssr.
    etransitivity; [exact (spread N ls v (fun i => bsum (n_features n t) (fun j => feature_matrix n t X i j * c j)) HF)|].
    f_equal. rewrite <- bsum_scal. apply bsum_ext. intros i Hi. unfold n_evals. now rewrite HC.
  - eapply (affine_ssr lstsq _ _ _ _ _ _ _ (INR K)); [exact LS|exact K0| |exact Hj]. intros c. unfold ssr.
    etransitivity; [exact (spread N ls v (fun i => bsum (n_features n t) (fun j => feature_matrix n t X i j *
       nth j (penalty_factors n (n_features n t) p0 p1 p2) 0 * c j)) HF)|].
    f_equal. rewrite <- bsum_scal. apply bsum_ext. intros i Hi. unfold n_evals. now rewrite HC.
Qed.

(** C211 - for ridge the penalties have to grow with the number of evaluations. *)
Theorem C211_equal_evaluations_ridge :
  forall lstsq N n t (X : nat -> fvec) ls (v : fvec) K l1 l2,
    exact_lstsq lstsq -> Forall (fun l => (l < N)%nat) ls ->
    (0 < K)%nat -> (forall i, (i < N)%nat -> count_occ Nat.eq_dec ls i = K) ->
    forall j, (j < n_features n t)%nat ->
    fit_ridge lstsq (length ls) n t (fun r => X (nth r ls 0%nat)) v None (INR K * l1) (INR K * l2) j
    = fit_ridge lstsq N n t X (average ls v) None l1 l2 j.
Proof.
  intros lstsq N n t X ls v K l1 l2 LS HF HK HC j Hj.
  assert (K0 : 0 < INR K) by (apply lt_0_INR; lia).
  unfold fit_ridge. cbn [add_weighting]. cbv zeta.
  eapply (affine_ssr lstsq _ _ _ _ _ _ _ (INR K * INR K) 0); [exact LS|now apply Rmult_lt_0_compat| |exact Hj].
  intros c. unfold ssr. rewrite Rplus_0_r, <- bsum_scal. apply bsum_ext. intros a Ha.
  assert (G : forall f : nat -> R, bsum N (fun i => n_evals ls i * f i) = INR K * bsum N f).
  { intros f. rewrite <- bsum_scal. apply bsum_ext. intros i Hi. unfold n_evals. now rewrite HC. }
  assert (E1 : forall k, bsum (length ls) (fun r => feature_matrix n t (fun r => X (nth r ls 0%nat)) r a * feature_matrix n t (fun r => X (nth r ls 0%nat)) r k)
     = INR K * bsum N (fun i => feature_matrix n t X i a * feature_matrix n t X i k)).
  { intros k. rewrite <- G. exact (bsum_counts N (fun r => feature_matrix n t X r a * feature_matrix n t X r k) ls HF). }
  assert (E2 : bsum (length ls) (fun r => feature_matrix n t (fun r => X (nth r ls 0%nat)) r a * v r)
     = INR K * bsum N (fun i => feature_matrix n t X i a * average ls v i)).
  { rewrite <- G. exact (bsum_grouped N ls (fun r => feature_matrix n t X r a) v HF). }
  assert (E3 : ridge_penalty n (n_features n t) (INR K * l1) (INR K * l2) a = INR K * ridge_penalty n (n_features n t) l1 l2 a).
  { unfold ridge_penalty. destruct (a <? 1)%nat; [ring|]. destruct (a <? n + 1)%nat; reflexivity. }
  rewrite E2, (bsum_ext (n_features n t) _ (fun k => INR K * ((bsum N (fun i => feature_matrix n t X i a * feature_matrix n t X i k)
     + (if (a =? k)%nat then ridge_penalty n (n_features n t) l1 l2 a else 0)) * c k))).
  - rewrite bsum_scal. ring.
  - intros k Hk. rewrite E1, E3. destruct (a =? k)%nat; ring.
Qed.

(** C211 - otherwise the fit of the averages without weights, which is the one of the optimizer, is
    not the fit of all evaluations: -1, 0 and 1 with averages 0, 0 and 1, the last of two evaluations. *)
Definition three_points : nat -> fvec := fun i _ => INR i - 1.
Theorem C211_unequal_evaluations :
  forall lstsq, exact_lstsq lstsq ->
    let ls := [0%nat; 1%nat; 2%nat; 2%nat] in
    let v r := nth r [0; 0; 0; 2] 0 in
    Forall (fun l => (l < 3)%nat) ls /\
    fit_ols lstsq 3 1 Linear three_points (average ls v) None 0%nat = 1 / 3 /\
    fit_ols lstsq 4 1 Linear (fun r => three_points (nth r ls 0%nat)) v None 0%nat = 4 / 11.
Proof.
  intros lstsq LS ls v. split; [repeat constructor|].
  assert (A : average ls v 0%nat = 0 /\ average ls v 1%nat = 0 /\ average ls v 2%nat = 1)
    by (unfold average, total, n_evals, ls, v; cbn; repeat split; field).
  destruct A as (A0 & A1 & A2). unfold fit_ols; cbn [add_weighting]. split.
  - pose proof (lstsq_normal _ _ _ _ _ (proj1 (LS 3%nat (n_features 1 Linear) (feature_matrix 1 Linear three_points) (average ls v)))) as Nm.
    set (c := lstsq _ _ _ _) in *. pose proof (Nm 0%nat ltac:(cbn; lia)) as E0. pose proof (Nm 1%nat ltac:(cbn; lia)) as E1.
    unfold feature_matrix, feature_row, three_points in E0, E1. cbn in E0, E1. rewrite A0, A1, A2 in E0, E1. lra.
  - pose proof (lstsq_normal _ _ _ _ _ (proj1 (LS 4%nat (n_features 1 Linear) (feature_matrix 1 Linear (fun r => three_points (nth r ls 0%nat))) v))) as Nm.
    set (c := lstsq _ _ _ _) in *. pose proof (Nm 0%nat ltac:(cbn; lia)) as E0. pose proof (Nm 1%nat ltac:(cbn; lia)) as E1.
    unfold feature_matrix, feature_row, three_points in E0, E1. cbn in E0, E1. lra.
Qed.

Example C211_instance :
  exact_lstsq min_norm_ls /\ Forall (fun l => (l < 2)%nat) [0%nat; 1%nat; 1%nat; 0%nat] /\
  (forall i, (i < 2)%nat -> count_occ Nat.eq_dec [0%nat; 1%nat; 1%nat; 0%nat] i = 2%nat) /\
  average [0%nat; 1%nat; 1%nat; 0%nat] (fun r => INR r) 0%nat = 3 / 2.
Proof.
  split; [exact (proj1 C165_instance_solvers)|]. split; [repeat constructor|]. split.
  - intros [|[|i]] Hi; [reflexivity|reflexivity|lia].
  - unfold average, total, n_evals. cbn. field.
Qed.

(** * The two forms of the model data *)

(** The point of each evaluation, for the lists of evaluations of the points k, k + 1, ... *)
Fixpoint labels (k : nat) (E : list (list R)) : list nat :=
  match E with [] => [] | e :: E => repeat k (length e) ++ labels (S k) E end.

Lemma labels_length E : forall k, length (labels k E) = length (concat E).
Proof. induction E as [|e E IH]; intros k; [reflexivity|]. cbn. now rewrite !app_length, repeat_length, IH. Qed.

Lemma labels_bound E : forall k, Forall (fun l => (l < k + length E)%nat) (labels k E).
Proof.
  induction E as [|e E IH]; intros k; cbn [labels length]; [constructor|]. apply Forall_app. split.
  - apply Forall_forall. intros l H. apply repeat_spec in H. lia.
  - eapply Forall_impl; [|apply IH]. cbn. intros; lia.
Qed.

Lemma map_labels {A} (X : nat -> A) E : forall k,
  map X (labels k E) = concat (map (fun ie => map (fun _ => X (fst ie)) (snd ie)) (combine (seq k (length E)) E)).
Proof.
  induction E as [|e E IH]; intros k; [reflexivity|]. cbn [labels length seq combine map concat fst snd].
  rewrite map_app, IH. f_equal. induction e as [|a e IHe]; [reflexivity|]. cbn. now rewrite IHe.
Qed.

Lemma count_repeat k i m : count_occ Nat.eq_dec (repeat k m) i = if (k =? i)%nat then m else 0%nat.
Proof.
  induction m as [|m IH]; cbn; [now destruct (k =? i)%nat|]. rewrite IH.
  destruct (Nat.eq_dec k i), (Nat.eqb_spec k i); congruence.
Qed.

Lemma count_labels E : forall k i,
  count_occ Nat.eq_dec (labels k E) i = if (k <=? i)%nat then length (nth (i - k) E []) else 0%nat.
Proof.
  induction E as [|e E IH]; intros k i; cbn [labels].
  - destruct (i - k)%nat, (k <=? i)%nat; reflexivity.
  - rewrite count_occ_app, count_repeat, IH.
    destruct (Nat.eqb_spec k i) as [->|Ne].
    + rewrite Nat.sub_diag, Nat.leb_refl. destruct (Nat.leb_spec (S i) i); [lia|]. cbn. lia.
    + destruct (Nat.leb_spec k i), (Nat.leb_spec (S k) i); try lia.
      replace (i - k)%nat with (S (i - S k)) by lia. reflexivity.
Qed.

Lemma bsum_list l : bsum (length l) (fun r => nth r l 0) = fold_right Rplus 0 l.
Proof. induction l as [|a l IH]; [reflexivity|]. cbn [length fold_right]. rewrite bsum_shift. cbn [nth]. now rewrite IH. Qed.

Lemma total_labels E : forall k i,
  total (labels k E) (fun r => nth r (concat E) 0) i = if (k <=? i)%nat then fold_right Rplus 0 (nth (i - k) E []) else 0.
Proof.
  induction E as [|e E IH]; intros k i; cbn [labels concat].
  - unfold total. cbn. destruct (i - k)%nat, (k <=? i)%nat; reflexivity.
  - unfold total. rewrite app_length, repeat_length, bsum_app.
    rewrite (bsum_ext (length e) _ (fun r => (if (k =? i)%nat then 1 else 0) * nth r e 0)).
    2:{ intros r Hr. rewrite !app_nth1 by (rewrite ?repeat_length; easy).
        rewrite (repeat_spec (length e) k (nth r (repeat k (length e)) 0%nat)) by (apply nth_In; now rewrite repeat_length).
        destruct (k =? i)%nat; ring. }
    rewrite (bsum_ext (length (labels (S k) E)) _
       (fun r => if (nth r (labels (S k) E) 0 =? i)%nat then nth r (concat E) 0 else 0)).
    2:{ intros r Hr. rewrite !app_nth2 by (rewrite ?repeat_length; lia). rewrite repeat_length.
        now replace (length e + r - length e)%nat with r by lia. }
    rewrite bsum_scal, bsum_list. specialize (IH (S k) i). unfold total in IH. rewrite IH.
    destruct (Nat.eqb_spec k i) as [->|Ne].
    + rewrite Nat.sub_diag, Nat.leb_refl. destruct (Nat.leb_spec (S i) i); [lia|]. cbn. ring.
    + destruct (Nat.leb_spec k i), (Nat.leb_spec (S k) i); try lia; [|ring].
      replace (i - k)%nat with (S (i - S k)) by lia. cbn [nth]. ring.
Qed.

(** C211 - in the form of the two results of get_model_data (C08): [E] has the evaluations of the
    points, the first of the first point and so on. *)
Theorem C211_model_data :
  forall lstsq n t (X : nat -> fvec) (E : list (list R)),
    exact_lstsq lstsq ->
    let N := length E in
    let all_xs := concat (map (fun ie => map (fun _ => X (fst ie)) (snd ie)) (combine (seq 0 N) E)) in
    let all_values := concat E in
    let n_of i := INR (length (nth i E [])) in
    let mean i := fold_right Rplus 0 (nth i E []) / n_of i in
    let X' r := nth r all_xs (X 0%nat) in
    let v r := nth r all_values 0 in
    length all_xs = length all_values /\
    forall j, (j < n_features n t)%nat ->
    fit_ols lstsq (length all_values) n t X' v None j = fit_ols lstsq N n t X mean (Some n_of) j /\
    (forall p0 p1 p2, fit_tranquilo lstsq (length all_values) n t X' v None p0 p1 p2 j
       = fit_tranquilo lstsq N n t X mean (Some n_of) p0 p1 p2 j) /\
    (forall l1 l2, fit_ridge lstsq (length all_values) n t X' v None l1 l2 j
       = fit_ridge lstsq N n t X mean (Some n_of) l1 l2 j).
Proof.
  intros lstsq n t X E LS N all_xs all_values n_of mean X' v.
  assert (EX : all_xs = map X (labels 0 E)) by (symmetry; apply map_labels).
  split; [rewrite EX, map_length; apply labels_length|]. intros j Hj.
  assert (E1 : X' = fun r => X (nth r (labels 0 E) 0%nat)).
  { apply functional_extensionality. intros r. unfold X'. rewrite EX. apply map_nth. }
  assert (E2 : n_of = fun i => n_evals (labels 0 E) i).
  { apply functional_extensionality. intros i. unfold n_evals, n_of. rewrite count_labels. cbn [Nat.leb]. now rewrite Nat.sub_0_r. }
  assert (E3 : mean = fun i => average (labels 0 E) v i).
  { apply functional_extensionality. intros i. unfold mean, average. rewrite E2. f_equal.
    unfold v, all_values. rewrite total_labels. cbn [Nat.leb]. now rewrite Nat.sub_0_r. }
  rewrite E1, E2, E3. unfold all_values. rewrite <- (labels_length E 0).
  exact (C211_weighted_averages lstsq N n t X (labels 0 E) v LS (labels_bound E 0) j Hj).
Qed.
