(** C61 - C66, C106 - C108: the bounded Newton trust-region solver. *)
From Coq Require Import Reals List Arith ZArith Bool Lia Lra Psatz FunctionalExtensionality.
From Verif Require Import Base XR FVec CgModel TrsboxModel BntrModel.
Import ListNotations.
Open Scope R_scope.

Definition in_box (n : nat) (lower upper x : fvec) : Prop := forall i, (i < n)%nat -> lower i <= x i <= upper i.

Ltac rb := repeat match goal with
  | H : context [Rleb ?a ?b] |- _ => destruct (Rleb_spec a b)
  | |- context [Rleb ?a ?b] => destruct (Rleb_spec a b)
  | H : context [Rltb ?a ?b] |- _ => destruct (Rltb_spec a b)
  | |- context [Rltb ?a ?b] => destruct (Rltb_spec a b)
  | H : context [Reqb ?a ?b] |- _ => destruct (Reqb_spec a b)
  | |- context [Reqb ?a ?b] => destruct (Reqb_spec a b)
  end.

Lemma clip_x_box n lower upper x :
  (forall i, (i < n)%nat -> lower i <= upper i) -> in_box n lower upper (clip_x lower upper x).
Proof. intros L i Hi. specialize (L i Hi). unfold clip_x. rb; lra. Qed.

(** * C62 *)

Lemma sqrt_sum_pos a b : a <> 0 \/ b <> 0 -> 0 < sqrt (a * a + b * b).
Proof. intros H. apply sqrt_lt_R0. nra. Qed.
Lemma sqrt_sum_sqr a b : sqrt (a * a + b * b) * sqrt (a * a + b * b) = a * a + b * b.
Proof. apply sqrt_sqrt. nra. Qed.

(** Sign of the Fischer-Burmeister function. *)
Lemma fb_sign a b :
  (0 < a /\ 0 < b -> fb_scalar a b < 0) /\ (a < 0 \/ b < 0 -> 0 < fb_scalar a b) /\
  (0 <= a -> 0 <= b -> a * b = 0 -> fb_scalar a b = 0).
Proof.
  pose proof (sqrt_sum_sqr a b) as S. pose proof (sqrt_pos (a * a + b * b)) as P.
  set (s := sqrt (a * a + b * b)) in *.
  unfold fb_scalar. fold s.
  destruct (Rleb_spec (a + b) 0) as [L|L].
  - splits.
    + lra.
    + intros [N|N].
      * destruct (Rlt_dec 0 s) as [|Z]; [lra|]. assert (s = 0) by lra. nra.
      * destruct (Rlt_dec 0 s) as [|Z]; [lra|]. assert (s = 0) by lra. nra.
    + intros A B _. assert (a = 0) by lra. assert (b = 0) by lra. subst a b. nra.
  - assert (0 < s + (a + b)) by lra.
    assert (I : 0 < / (s + (a + b))) by (apply Rinv_0_lt_compat; lra).
    unfold Rdiv. splits.
    + intros [A B]. assert (0 < a * b) by nra.
      replace (- 2 * a * b * / (s + (a + b))) with (- (2 * (a * b) * / (s + (a + b)))) by ring.
      assert (0 < 2 * (a * b) * / (s + (a + b))) by (apply Rmult_lt_0_compat; lra). lra.
    + intros N. assert (a * b < 0).
      { destruct N as [N|N]; [assert (0 < b) by lra|assert (0 < a) by lra]; nra. }
      replace (- 2 * a * b * / (s + (a + b))) with ((- 2 * (a * b)) * / (s + (a + b))) by ring.
      apply Rmult_lt_0_compat; lra.
    + intros A B C. replace (- 2 * a * b * / (s + (a + b))) with ((- 2 * (a * b)) * / (s + (a + b))) by ring.
      rewrite C. ring.
Qed.

Lemma fb_zero a b : fb_scalar a b = 0 <-> 0 <= a /\ 0 <= b /\ a * b = 0.
Proof.
  destruct (fb_sign a b) as (A & B & C). split.
  - intros E. assert (0 <= a). { apply Rnot_lt_le. intros ?. specialize (B (or_introl H)). lra. }
    assert (0 <= b). { apply Rnot_lt_le. intros K. specialize (B (or_intror K)). lra. }
    splits; auto. destruct H as [H|H]; [|subst a; ring]. destruct H0 as [H0|H0]; [|subst b; ring].
    specialize (A (conj H H0)). lra.
  - intros (? & ? & ?). auto.
Qed.
Lemma fb_nonneg a b : 0 <= fb_scalar a b <-> ~ (0 < a /\ 0 < b).
Proof.
  destruct (fb_sign a b) as (A & B & C). split.
  - intros E K. specialize (A K). lra.
  - intros K. destruct (Rlt_dec a 0) as [L|L]; [left; auto|]. destruct (Rlt_dec b 0) as [L'|L']; [left; auto|].
    right. symmetry. apply C; try lra. destruct (Req_dec a 0) as [->|]; [ring|]. destruct (Req_dec b 0) as [->|]; [ring|].
    exfalso. apply K. lra.
Qed.

(** C62.  At a feasible point the measure used for convergence vanishes iff the first-order
    conditions hold: a parameter that can still move up has a non-negative derivative, one that
    can still move down a non-positive one. *)
Theorem C62_measure_zero_iff_KKT n lower upper x g :
  in_box n lower upper x ->
  fnorm n (fb_direction lower upper x g) = 0 <->
  (forall i, (i < n)%nat -> lower i < upper i -> (x i < upper i -> 0 <= g i) /\ (lower i < x i -> g i <= 0)).
Proof.
  intros B. split.
  - intros Z i Hi L.
    assert (Z' : fsq n (fb_direction lower upper x g) = 0) by (rewrite <- fnorm_sqr, Z; ring).
    pose proof (fsq_zero _ _ Z' i Hi) as E. unfold fb_direction in E.
    destruct (Reqb_spec (lower i) (upper i)) as [Q|Q]; [lra|].
    apply fb_zero in E. destruct E as (E1 & E2 & E3). apply fb_nonneg in E1. specialize (B i Hi). split.
    + intros K. apply Rnot_lt_le. intros N. apply E1. lra.
    + intros K. assert (W : fb_scalar (upper i - x i) (- g i) = 0) by nra. apply fb_zero in W. lra.
  - intros K. unfold fnorm. replace (fsq n (fb_direction lower upper x g)) with 0; [apply sqrt_0|].
    symmetry. unfold fsq, fdot. apply bsum_all_zero. intros i Hi.
    enough (E : fb_direction lower upper x g i = 0) by (rewrite E; ring).
    unfold fb_direction. specialize (B i Hi). destruct (Reqb_spec (lower i) (upper i)) as [Q|Q]; [lra|].
    destruct (K i Hi ltac:(lra)) as [K1 K2].
    apply fb_zero. splits.
    + apply fb_nonneg. intros [A1 A2]. specialize (K1 ltac:(lra)). lra.
    + lra.
    + destruct (Req_dec (lower i) (x i)) as [Q'|Q']; [rewrite Q'; ring|].
      specialize (K2 ltac:(lra)). enough (fb_scalar (upper i - x i) (- g i) = 0) as -> by ring.
      apply fb_zero. splits; try lra.
      destruct (Req_dec (upper i) (x i)) as [Q2|Q2]; [rewrite Q2; ring|].
      specialize (K1 ltac:(lra)). assert (g i = 0) by lra. rewrite H. ring.
Qed.

(** The hypotheses hold and both sides are decided non-trivially: at the upper bound with a negative
    derivative the measure vanishes, at the lower bound it does not. *)
Example ex_C62 :
  let lower := fun _ : nat => -1 in let upper := fun _ : nat => 1 in let g := fun _ : nat => -2 in
  fnorm 2 (fb_direction lower upper (fun _ => 1) g) = 0 /\
  fnorm 2 (fb_direction lower upper (fun _ => -1) g) <> 0.
Proof.
  intros lower upper g. split.
  - apply C62_measure_zero_iff_KKT; [intros i _; unfold lower, upper; lra|].
    intros i _ _. unfold lower, upper, g. split; lra.
  - rewrite C62_measure_zero_iff_KKT by (intros i _; unfold lower, upper; lra).
    intros K. destruct (K 0%nat ltac:(lia)) as [K1 _]; unfold lower, upper, g in *; [lra|]. specialize (K1 ltac:(lra)). lra.
Qed.

(** * C63 *)

Definition count4 (a b c d : bool) : nat := Nat.b2n a + Nat.b2n b + Nat.b2n c + Nat.b2n d.
Definition mem (i : nat) (l : list nat) : bool := existsb (Nat.eqb i) l.
Lemma mem_inactive n l u f i : (i < n)%nat -> mem i (inactive_of n l u f) = negb (f i || l i || u i).
Proof.
  intros Hi. unfold mem, inactive_of.
  destruct (negb (f i || l i || u i)) eqn:E.
  - apply existsb_exists. exists i. split; [|apply Nat.eqb_refl]. apply filter_In. split; auto. apply in_seq. lia.
  - apply not_true_is_false. intros K. apply existsb_exists in K. destruct K as (j & J & Q). apply Nat.eqb_eq in Q. subst j.
    apply filter_In in J. destruct J. congruence.
Qed.

(** C63, numba version: exactly one of the four classes, for every point, gradient and bounds. *)
Theorem C63_partition_fast n lower upper x g i : (i < n)%nat ->
  let a := active_fast n lower upper x g in
  count4 (ab_lower a i) (ab_upper a i) (ab_fixed a i) (mem i (ab_inactive a)) = 1%nat.
Proof.
  intros Hi. cbn [active_fast ab_lower ab_upper ab_fixed ab_inactive]. rewrite mem_inactive by auto.
  destruct (Rleb (x i) (lower i) && Rltb 0 (g i)), (Rleb (upper i) (x i) && Rltb (g i) 0), (Reqb (lower i) (upper i)); easy.
Qed.

(** C63, numpy version: a parameter that is not fixed is in exactly one of the classes, and a fixed one
    is never inactive.  Missing: a fixed one may also be listed as active lower or upper, see
    [C63_partition_refuted]. *)
Theorem C63_partition_partial n lower upper x g i : (i < n)%nat ->
  let a := active_sets n lower upper x g in
  (ab_fixed a i = false ->
   count4 (ab_lower a i) (ab_upper a i) (ab_fixed a i) (mem i (ab_inactive a)) = 1%nat) /\
  (ab_fixed a i = true -> mem i (ab_inactive a) = false) /\
  ab_lower a i && ab_upper a i = false.
Proof.
  intros Hi. cbn [active_sets ab_lower ab_upper ab_fixed ab_inactive]. rewrite mem_inactive by auto.
  rb; cbn; splits; try easy; try lra.
Qed.
Theorem C63_partition_refuted :
  exists n lower upper x g i, (i < n)%nat /\ in_box n lower upper x /\
  let a := active_sets n lower upper x g in
  count4 (ab_lower a i) (ab_upper a i) (ab_fixed a i) (mem i (ab_inactive a)) = 2%nat.
Proof.
  exists 1%nat, (fun _ => 3), (fun _ => 3), (fun _ => 3), (fun _ => 1), 0%nat.
  split; [lia|]. split; [intros ? _; lra|]. cbn [active_sets ab_lower ab_upper ab_fixed ab_inactive].
  rewrite mem_inactive by lia. rb; cbn; try lra. easy.
Qed.

(** The overlap is harmless: the sets of inactive parameters and, at feasible points, the steps of both
    versions agree. *)
Lemma inactive_same n lower upper x g :
  ab_inactive (active_fast n lower upper x g) = ab_inactive (active_sets n lower upper x g).
Proof.
  cbn [active_fast active_sets ab_inactive]. unfold inactive_of. apply filter_ext. intros i.
  destruct (Rleb (x i) (lower i) && Rltb 0 (g i)), (Rleb (upper i) (x i) && Rltb (g i) 0), (Reqb (lower i) (upper i)); easy.
Qed.
Theorem C63_versions_same_step n lower upper x g step i :
  lower i <= x i <= upper i ->
  full_step lower upper x (active_fast n lower upper x g) step i =
  full_step lower upper x (active_sets n lower upper x g) step i.
Proof.
  intros B. unfold full_step. rewrite inactive_same. cbn [active_fast active_sets ab_lower ab_upper ab_fixed].
  rb; cbn; try lra; easy.
Qed.

(** * C66 *)

Lemma clip_radius_range r : min_radius <= clip_radius r <= max_radius.
Proof.
  unfold clip_radius. assert (min_radius < max_radius). { unfold min_radius, max_radius. lra. }
  unfold Rmin, Rmax. repeat destruct (Rle_dec _ _); lra.
Qed.
Lemma min_radius_pos : 0 < min_radius.
Proof. unfold min_radius. apply Rinv_0_lt_compat. lra. Qed.

(** C66.  The radius after an update is within its limits, and after a rejected step it is at most a
    quarter of the old one or equal to the lower limit; in particular strictly smaller unless it was at
    the lower limit already. *)
Theorem C66_update_radius fast f predicted actual norm radius r acc :
  update_radius_cg fast f predicted actual norm radius = Ok (r, acc) ->
  min_radius <= radius <= max_radius ->
  min_radius <= r <= max_radius /\
  (acc = false -> (r <= / 4 * radius \/ r = min_radius) /\ (r < radius \/ (r = min_radius /\ radius = min_radius))).
Proof.
  intros U Hr. pose proof min_radius_pos as P.
  assert (K : r = clip_radius (/ 4 * Rmin radius norm) /\ acc = false \/ acc = true /\ exists q, r = clip_radius q).
  { unfold update_radius_cg in U. destruct (Rltb predicted 0); [inversion U; auto|].
    destruct (if Rleb (Rabs actual) _ && Rleb (Rabs predicted) _ then Ok (Fin 1) else divm fast actual predicted) as [k|e];
      cbn [bind] in U; [|discriminate].
    destruct (xlt k (Fin (/ 10 ^ 4))); inversion U; eauto. }
  destruct K as [[-> ->]|[-> [q ->]]].
  - split; [apply clip_radius_range|]. intros _.
    assert (Q : / 4 * Rmin radius norm <= / 4 * radius) by (pose proof (Rmin_l radius norm); lra).
    unfold clip_radius. set (z := / 4 * Rmin radius norm) in *. clearbody z.
    unfold Rmin, Rmax. repeat destruct (Rle_dec _ _); lra.
  - split; [apply clip_radius_range|discriminate].
Qed.

(** The methods only matter through their results for radii within the limits. *)
Definition agree (m1 m2 : cgmethod) : Prop := forall n g H r l u,
  min_radius <= r <= max_radius -> m1 n g H r l u = m2 n g H r l u.

Lemma cg_phase_step_agree m1 m2 n lower upper g H act x radius :
  agree m1 m2 -> min_radius <= radius <= max_radius ->
  cg_phase_step m1 n lower upper g H act x radius = cg_phase_step m2 n lower upper g H act x radius.
Proof.
  intros A Hr. unfold cg_phase_step. destruct (ab_inactive act); auto.
  rewrite (A _ _ _ radius) by auto.
  destruct (m2 _ _ _ radius _ _); cbn [bind]; auto.
  pose proof min_radius_pos. destruct (Reqb_spec radius 0); [lra|]. easy.
Qed.

(** What one pass does to the state. *)
Lemma bntr_pass_inv fast method n lin H lower upper t niter maxiter x_old f_old s s' acc stop :
  bntr_pass fast method n lin H lower upper t niter maxiter x_old f_old s = Ok (s', acc, stop) ->
  exists cg_step step norm r,
    cg_phase_step method n lower upper (bs_g s) H (bs_act s) (bs_x s) (bs_radius s) = Ok (cg_step, step, norm) /\
    let x := clip_x lower upper (fadd (bs_x s) cg_step) in
    let f := eval_crit n x lin H in
    update_radius_cg fast f (predicted_reduction n (bs_g s) H (bs_act s) cg_step step) (f_old - f) norm (bs_radius s) = Ok (r, acc) /\
    bs_radius s' = r /\
    (acc = true -> bs_x s' = x /\ bs_f s' = f /\ stop = false /\ bs_g s' = fadd lin (fmv n H x) /\
                   bs_act s' = get_active fast n lower upper x (fadd lin (fmv n H x))) /\
    (acc = false -> bs_x s' = x_old /\ bs_f s' = f_old /\ (stop = true <-> r = bs_radius s) /\
                    bs_g s' = bs_g s /\ bs_act s' = bs_act s).
Proof.
  unfold bntr_pass. intros E.
  destruct (cg_phase_step _ _ _ _ _ _ _ _ _) as [[[c st] nm]|] eqn:C; cbn [bind] in E; [|discriminate].
  destruct (update_radius_cg _ _ _ _ _ _) as [[r a]|] eqn:U; cbn [bind] in E; [|discriminate].
  exists c, st, nm, r. split; auto. cbn zeta.
  destruct a.
  - destruct (check_convergence _ _ _ _ _ _ _ _ _ _ _) as [cv rs]. inversion E; subst. cbn. splits; auto; try easy.
  - destruct (Reqb_spec r (bs_radius s)) as [Q|Q].
    + inversion E; subst. cbn. splits; auto; try easy.
    + destruct (check_convergence _ _ _ _ _ _ _ _ _ _ _) as [cv rs]. inversion E; subst. cbn. splits; auto; try easy.
Qed.

Lemma bntr_pass_agree fast m1 m2 n lin H lower upper t niter maxiter x_old f_old s :
  agree m1 m2 -> min_radius <= bs_radius s <= max_radius ->
  bntr_pass fast m1 n lin H lower upper t niter maxiter x_old f_old s =
  bntr_pass fast m2 n lin H lower upper t niter maxiter x_old f_old s.
Proof. intros A Hr. unfold bntr_pass. rewrite (cg_phase_step_agree m1 m2) by auto. easy. Qed.

Lemma bntr_pass_radius fast method n lin H lower upper t niter maxiter x_old f_old s s' acc stop :
  bntr_pass fast method n lin H lower upper t niter maxiter x_old f_old s = Ok (s', acc, stop) ->
  min_radius <= bs_radius s <= max_radius -> min_radius <= bs_radius s' <= max_radius.
Proof.
  intros E Hr. apply bntr_pass_inv in E. destruct E as (c & st & nm & r & _ & U & -> & _).
  apply C66_update_radius in U; tauto.
Qed.

Lemma bntr_inner_agree fuel fast m1 m2 n lin H lower upper t niter maxiter x_old f_old : forall s,
  agree m1 m2 -> min_radius <= bs_radius s <= max_radius ->
  bntr_inner fuel fast m1 n lin H lower upper t niter maxiter x_old f_old s =
  bntr_inner fuel fast m2 n lin H lower upper t niter maxiter x_old f_old s /\
  (forall s', bntr_inner fuel fast m2 n lin H lower upper t niter maxiter x_old f_old s = Ok s' ->
              min_radius <= bs_radius s' <= max_radius).
Proof.
  induction fuel as [|fuel IH]; intros s A Hr; cbn [bntr_inner]; [easy|].
  rewrite (bntr_pass_agree fast m1 m2) by auto.
  destruct (bntr_pass fast m2 n lin H lower upper t niter maxiter x_old f_old s) as [[[s1 acc] stop]|] eqn:E; cbn [bind]; [|easy].
  apply bntr_pass_radius in E; auto.
  destruct (stop || acc || bs_conv s1); [|auto]. split; auto. intros s' Q. inversion Q; subst; auto.
Qed.

Lemma bntr_outer_agree k fuel fast m1 m2 n lin H lower upper t maxiter : forall niter last s,
  agree m1 m2 -> (bs_conv s = false -> min_radius <= bs_radius s <= max_radius) ->
  bntr_outer k fuel fast m1 n lin H lower upper t niter maxiter last s =
  bntr_outer k fuel fast m2 n lin H lower upper t niter maxiter last s.
Proof.
  induction k as [|k IH]; intros niter last s A Hr; cbn [bntr_outer]; [easy|].
  destruct (bs_conv s); [easy|]. specialize (Hr eq_refl).
  destruct (bntr_inner_agree fuel fast m1 m2 n lin H lower upper t niter maxiter (bs_x s) (bs_f s) s A Hr) as [-> R].
  destruct (bntr_inner fuel fast m2 n lin H lower upper t niter maxiter (bs_x s) (bs_f s) s) as [s1|]; cbn [bind]; [|easy].
  apply IH; auto.
Qed.

(** Facts about the preliminary phase. *)
Lemma preliminary_inv fast n lin H lower upper t k_gd x s :
  preliminary fast n lin H lower upper t k_gd x = Ok s ->
  (bs_conv s = false -> min_radius <= bs_radius s <= max_radius) /\
  ((bs_x s = x /\ bs_f s = eval_crit n x lin H) \/ exists y, bs_x s = clip_x lower upper y) /\
  bs_g s = fadd lin (fmv n H (bs_x s)) /\
  bs_f s <= eval_crit n x lin H.
Proof.
  unfold preliminary. intros E.
  destruct (check_convergence _ _ _ _ _ _ _ _ _ _ _) as [cv rs].
  destruct cv.
  - inversion E; subst; cbn. splits; try easy; auto. lra.
  - destruct (gd_loop _ _ _ _ _ _ _ _ _ _ _) as [d|]; cbn [bind] in E; [|discriminate].
    destruct (Rltb_spec (gd_fmin d) (eval_crit n x lin H)) as [L|L].
    + destruct (check_convergence _ _ _ _ _ _ _ _ _ _ _) as [cv' rs']. inversion E; subst; clear E. cbn.
      destruct cv'; cbn; splits; try easy; eauto; try lra. intros _. apply clip_radius_range.
    + inversion E; subst; clear E. cbn. splits; try easy; auto; try lra. intros _. apply clip_radius_range.
Qed.

(** C66.  Every radius handed to the conjugate gradient method is within the limits: the result of
    bntr does not depend on what the method does outside. *)
Theorem C66_radius_within_limits fuel fast m1 m2 n lin H lower upper x0 t maxiter k_gd :
  (forall k g M r l u, / 10 ^ 10 <= r <= 10 ^ 10 -> m1 k g M r l u = m2 k g M r l u) ->
  bntr fuel fast m1 n lin H lower upper x0 t maxiter k_gd = bntr fuel fast m2 n lin H lower upper x0 t maxiter k_gd.
Proof.
  intros A. unfold bntr. destruct (preliminary fast n lin H lower upper t k_gd x0) as [s|] eqn:E; cbn [bind]; [|easy].
  apply preliminary_inv in E. rewrite (bntr_outer_agree _ fuel fast m1 m2); tauto || auto.
Qed.

(** * C61 *)

(** An outcome of the inner or outer loop satisfies whatever the start satisfies and every accepted step
    establishes. *)
Lemma bntr_inner_ind (P : fvec -> R -> Prop) fuel fast method n lin H lower upper t niter maxiter x_old f_old :
  P x_old f_old ->
  (forall s s' stop, bntr_pass fast method n lin H lower upper t niter maxiter x_old f_old s = Ok (s', true, stop) ->
     bs_f s' = eval_crit n (bs_x s') lin H -> P (bs_x s') (bs_f s')) ->
  forall s s', P (bs_x s) (bs_f s) ->
  bntr_inner fuel fast method n lin H lower upper t niter maxiter x_old f_old s = Ok s' -> P (bs_x s') (bs_f s').
Proof.
  intros P0 PA. induction fuel as [|fuel IH]; intros s s' Ps; cbn [bntr_inner]; [easy|].
  destruct (bntr_pass _ _ _ _ _ _ _ _ _ _ _ _ _) as [[[s1 acc] stop]|] eqn:E; cbn [bind]; [|easy].
  assert (P1 : P (bs_x s1) (bs_f s1)).
  { pose proof E as E'. apply bntr_pass_inv in E. destruct E as (c & st & nm & r & _ & _ & _ & A & B).
    destruct acc.
    - apply (PA s s1 stop E'). destruct (A eq_refl) as (-> & -> & _). easy.
    - destruct (B eq_refl) as (-> & -> & _). easy. }
  destruct (stop || acc || bs_conv s1); [|eauto]. intros Q. inversion Q; subst; auto.
Qed.
Lemma bntr_outer_ind (P : fvec -> R -> Prop) k fuel fast method n lin H lower upper t maxiter :
  (forall niter x_old f_old s s' stop, P x_old f_old ->
     bntr_pass fast method n lin H lower upper t niter maxiter x_old f_old s = Ok (s', true, stop) ->
     bs_f s' = eval_crit n (bs_x s') lin H -> P (bs_x s') (bs_f s')) ->
  forall niter last s s' l', P (bs_x s) (bs_f s) ->
  bntr_outer k fuel fast method n lin H lower upper t niter maxiter last s = Ok (s', l') -> P (bs_x s') (bs_f s').
Proof.
  intros PA. induction k as [|k IH]; intros niter last s s' l' Ps; cbn [bntr_outer].
  { intros Q; inversion Q; subst; auto. }
  destruct (bs_conv s); [intros Q; inversion Q; subst; auto|].
  destruct (bntr_inner _ _ _ _ _ _ _ _ _ _ _ _ _ _) as [s1|] eqn:E; cbn [bind]; [|easy].
  apply IH. eapply bntr_inner_ind with (P := P) in E; eauto.
Qed.
Lemma bntr_ind (P : fvec -> R -> Prop) fuel fast method n lin H lower upper x0 t maxiter k_gd r :
  (forall s, preliminary fast n lin H lower upper t k_gd x0 = Ok s -> P (bs_x s) (bs_f s)) ->
  (forall niter x_old f_old s s' stop, P x_old f_old ->
     bntr_pass fast method n lin H lower upper t niter maxiter x_old f_old s = Ok (s', true, stop) ->
     bs_f s' = eval_crit n (bs_x s') lin H -> P (bs_x s') (bs_f s')) ->
  bntr fuel fast method n lin H lower upper x0 t maxiter k_gd = Ok r -> P (br_x r) (br_criterion r).
Proof.
  intros P0 PA. unfold bntr. destruct (preliminary _ _ _ _ _ _ _ _ _) as [s|]; cbn [bind]; [|easy].
  destruct (bntr_outer _ _ _ _ _ _ _ _ _ _ _ _ _ _) as [[s1 l1]|] eqn:E; cbn [bind]; [|easy].
  intros Q. destruct (get l1); cbn [bind] in Q; [|discriminate]. inversion Q; subst; cbn.
  eapply bntr_outer_ind with (P := P) in E; eauto.
Qed.

(** C61.  The returned point is within the bounds, for every model, start point within the bounds,
    conjugate gradient method, option values and both versions. *)
Theorem C61_bntr_feasible fuel fast method n lin H lower upper x0 t maxiter k_gd r :
  (forall i, (i < n)%nat -> lower i <= x0 i <= upper i) ->
  bntr fuel fast method n lin H lower upper x0 t maxiter k_gd = Ok r ->
  forall i, (i < n)%nat -> lower i <= br_x r i <= upper i.
Proof.
  intros B E. assert (L : forall i, (i < n)%nat -> lower i <= upper i) by (intros i Hi; specialize (B i Hi); lra).
  apply (bntr_ind (fun x _ => in_box n lower upper x)) in E; auto.
  - intros s S. apply preliminary_inv in S. destruct S as (_ & [[-> _]|[y ->]] & _); auto. apply clip_x_box; auto.
  - intros niter x_old f_old s s' stop _ S _. apply bntr_pass_inv in S.
    destruct S as (c & st & nm & q & _ & _ & _ & A & _). destruct (A eq_refl) as (-> & _). apply clip_x_box; auto.
Qed.

Lemma bntr_pass_fuel fast method n lin H lower upper t niter maxiter x_old f_old s e :
  (forall k g M r l u, method k g M r l u <> Err OutOfFuel) -> min_radius <= bs_radius s <= max_radius ->
  bntr_pass fast method n lin H lower upper t niter maxiter x_old f_old s = Err e -> e <> OutOfFuel.
Proof.
  intros M Hr. unfold bntr_pass.
  destruct (cg_phase_step _ _ _ _ _ _ _ _ _) as [[[c st] nm]|e'] eqn:C; cbn [bind].
  - destruct (update_radius_cg _ _ _ _ _ _) as [[r a]|e'] eqn:U; cbn [bind].
    + destruct a; [|destruct (Reqb _ _)]; try destruct (check_convergence _ _ _ _ _ _ _ _ _ _ _); easy.
    + intros Q'; inversion Q'; subst e'. revert U; unfold update_radius_cg, divm, div.
      destruct (Rltb _ _); [easy|]. destruct (Rleb _ _ && Rleb _ _), fast; cbn [bind];
      repeat match goal with |- context [Reqb ?a ?b] => destruct (Reqb a b) | |- context [xlt ?a ?b] => destruct (xlt a b) end;
      cbn [bind]; repeat match goal with |- context [xlt ?a ?b] => destruct (xlt a b) end; congruence.
  - intros Q'; inversion Q'; subst e'. revert C; unfold cg_phase_step.
    destruct (ab_inactive (bs_act s)); [destruct (n <=? 1)%nat; congruence|].
    match goal with |- context [method ?a ?b ?c ?d ?e ?f] => pose proof (M a b c d e f); destruct (method a b c d e f) end;
      cbn [bind]; [|congruence].
    pose proof min_radius_pos; destruct (Reqb_spec (bs_radius s) 0); [lra|]; easy.
Qed.

(** C61, termination: 35 passes of the inner loop are always enough, whatever the method returns. *)
Lemma bntr_inner_fuel fast method n lin H lower upper t niter maxiter x_old f_old :
  (forall k g M r l u, method k g M r l u <> Err OutOfFuel) ->
  forall j fuel s, (j < fuel)%nat -> min_radius <= bs_radius s <= max_radius -> bs_radius s <= 4 ^ j * min_radius ->
  bntr_inner fuel fast method n lin H lower upper t niter maxiter x_old f_old s <> Err OutOfFuel.
Proof.
  intros M. induction j as [|j IH]; intros fuel s F Hr Hj; (destruct fuel as [|fuel]; [lia|]); cbn [bntr_inner].
  all: destruct (bntr_pass _ _ _ _ _ _ _ _ _ _ _ _ _) as [[[s1 acc] stop]|e] eqn:E; cbn [bind].
  2, 4: (apply bntr_pass_fuel in E; auto; congruence).
  all: destruct (stop || acc || bs_conv s1) eqn:K; [easy|]; apply orb_false_iff in K; destruct K as [K _];
       apply orb_false_iff in K; destruct K as [-> ->];
       apply bntr_pass_inv in E; destruct E as (c & st & nm & r & _ & U & Er & _ & B);
       apply C66_update_radius in U; auto; destruct U as [U1 U2]; destruct (U2 eq_refl) as [U3 U4];
       destruct (B eq_refl) as (_ & _ & St & _).
  - exfalso. simpl in Hj. assert (r = bs_radius s) by lra. apply St in H0. discriminate.
  - apply IH; [lia|rewrite Er; auto|]. rewrite Er.
    assert (1 <= 4 ^ j) by (apply pow_R1_Rle; lra). pose proof min_radius_pos. simpl in Hj.
    destruct U3 as [U3| ->]; nra.
Qed.

Lemma radius_bound_35 r : r <= max_radius -> r <= 4 ^ 34 * min_radius.
Proof. unfold max_radius, min_radius. lra. Qed.

Lemma gd_loop_no_fuel k fast n lin H lower upper f0 gp idx : forall s,
  gd_loop k fast n lin H lower upper f0 gp idx s <> Err OutOfFuel.
Proof.
  induction k as [|k IH]; intros s; cbn [gd_loop]; [easy|].
  destruct (gd_pass fast n lin H lower upper f0 gp idx s) as [s1|e] eqn:E; cbn [bind]; [auto|].
  intros Q. inversion Q; subst e. revert E. unfold gd_pass, update_radius_gd, divm, div, finite.
  destruct fast; cbn [bind];
    repeat match goal with
           | |- context [let* _ := (if ?b then _ else _) in _] => destruct b; cbn [bind]
           | |- context [match xdiv ?a ?b with _ => _ end] => destruct (xdiv a b); cbn [bind]
           | |- context [if Rleb ?a ?b && ?c then _ else _] => destruct (Rleb a b && c); cbn [bind]
           | |- context [if Reqb ?a ?b then _ else _] => destruct (Reqb a b); cbn [bind]
           | |- context [choose_tau ?a ?b ?c] => destruct (choose_tau a b c) as [[] ?]; cbn [bind]
           end; easy.
Qed.

Theorem C61_bntr_terminates fuel fast method n lin H lower upper x0 t maxiter k_gd :
  (forall k g M r l u, method k g M r l u <> Err OutOfFuel) -> (35 <= fuel)%nat ->
  bntr fuel fast method n lin H lower upper x0 t maxiter k_gd <> Err OutOfFuel.
Proof.
  intros M F. unfold bntr.
  destruct (preliminary fast n lin H lower upper t k_gd x0) as [s|e] eqn:E; cbn [bind].
  - assert (K : forall k niter last s, (bs_conv s = false -> min_radius <= bs_radius s <= max_radius) ->
      bntr_outer k fuel fast method n lin H lower upper t niter maxiter last s <> Err OutOfFuel).
    { induction k as [|k IH]; intros niter last s0 Hr; cbn [bntr_outer]; [easy|].
      destruct (bs_conv s0); [easy|]. specialize (Hr eq_refl).
      pose proof (bntr_inner_fuel fast method n lin H lower upper t niter maxiter (bs_x s0) (bs_f s0) M 34 fuel s0 ltac:(lia) Hr
                    (radius_bound_35 _ (proj2 Hr))) as N.
      destruct (bntr_inner_agree fuel fast method method n lin H lower upper t niter maxiter (bs_x s0) (bs_f s0) s0
                  ltac:(intros ? ? ? ? ? ? _; easy) Hr) as [_ R].
      destruct (bntr_inner _ _ _ _ _ _ _ _ _ _ _ _ _ _) as [s1|e]; cbn [bind]; [|congruence]. apply IH. auto. }
    apply preliminary_inv in E. destruct E as [Hr _].
    specialize (K (Z.to_nat (maxiter + 1)) 0%Z None s Hr).
    destruct (bntr_outer _ _ _ _ _ _ _ _ _ _ _ _ _ _) as [[s1 l1]|e]; cbn [bind]; [|congruence].
    destruct l1; cbn; easy.
  - intros Q. inversion Q; subst e. revert E. unfold preliminary.
    destruct (check_convergence _ _ _ _ _ _ _ _ _ _ _) as [cv rs]. destruct cv; [easy|].
    match goal with |- context [gd_loop ?a ?b ?c ?d ?e ?f ?g ?h ?i ?j ?k] =>
      pose proof (gd_loop_no_fuel a b c d e f g h i j k) as N; destruct (gd_loop a b c d e f g h i j k) end; cbn [bind].
    + easy.
    + congruence.
Qed.

Lemma div_nf a b : div a b <> Err OutOfFuel.
Proof. unfold div. destruct (Reqb b 0); easy. Qed.
Lemma tb_uncon_nf a b c d e : tb_unconstrained_step a b c d e <> Err OutOfFuel.
Proof.
  unfold tb_unconstrained_step, msqrt, div. destruct (Rltb _ 0); cbn [bind]; [easy|].
  destruct (Rleb 0 d); (destruct (Reqb _ 0); cbn [bind]; [easy|]); (destruct (Rleb e 0); [easy|]);
    destruct (Reqb e 0); easy.
Qed.
(** The three methods satisfy the hypothesis of [C61_bntr_terminates]. *)
Theorem C61_methods_terminate :
  (forall ga gr k g M r l u, method_cg ga gr k g M r l u <> Err OutOfFuel) /\
  (forall pinv k g M r l u, method_stcg pinv k g M r l u <> Err OutOfFuel) /\
  (forall k g M r l u, method_trsbox k g M r l u <> Err OutOfFuel).
Proof.
  splits.
  - intros ga gr n g M r l u. unfold method_cg, minimize_trust_cg. generalize (cg_init g). generalize (n * 2)%nat.
    induction n0 as [|k IH]; intros s; cbn [cg_loop]; [easy|].
    assert (N : cg_step n M r (cg_stop_tol n g ga gr) s <> Err OutOfFuel).
    { unfold cg_step, cg_distance_to_boundary, cg_update. destruct (Rleb _ _); [easy|].
      unfold msqrt. destruct (Rltb _ 0); cbn [bind]; [easy|]. unfold div at 1. destruct (Reqb _ _); cbn [bind]; [easy|].
      destruct (Rltb _ _); [|easy]. destruct (Rltb _ _); [easy|]. unfold div. destruct (Reqb _ _); cbn [bind]; easy. }
    destruct (cg_step _ _ _ _ s) as [[]|]; cbn [bind]; [easy|auto|congruence].
  - intros pinv n g M r l u. unfold method_stcg, minimize_trust_stcg.
    destruct (st_check _ _ _ _ _ _) as [cv dv].
    assert (L : forall k nr tt dt mi s, st_loop k n M r nr tt dt mi s <> Err OutOfFuel).
    { induction k as [|k IH]; intros; cbn [st_loop]; [easy|].
      assert (N : st_step n M r nr tt dt mi s <> Err OutOfFuel).
      { unfold st_step, st_to_boundary. unfold div at 1. destruct (Reqb _ _); cbn [bind]; [easy|].
        destruct (_ && _); [destruct (Rltb _ _); [|easy]|].
        - unfold msqrt. destruct (Rltb _ 0); cbn [bind]; [easy|]. unfold div. destruct (Reqb _ _); cbn [bind]; easy.
        - destruct (st_check _ _ _ _ _ _) as [c d]. destruct (c || d); [easy|].
          unfold div at 1. destruct (Reqb _ _); cbn [bind]; [easy|]. destruct (Rleb _ _); [easy|]. destruct (_ <=? _)%nat; [easy|].
          destruct (Rleb _ _); [|easy]. destruct (_ && _); [|easy].
          unfold msqrt. destruct (Rltb _ 0); cbn [bind]; [easy|]. unfold div. destruct (Reqb _ _); cbn [bind]; easy. }
      destruct (st_step _ _ _ _ _ _ _ s) as [[]|]; cbn [bind]; [easy|auto|congruence]. }
    destruct (Rleb _ _); cbn [bind]; [|apply L]. unfold st_first_step, msqrt.
    destruct (_ && _); [|destruct (negb _)].
    + destruct (Rltb _ 0); cbn [bind]; [easy|apply L].
    + destruct (Rleb _ _); cbn [bind]; [apply L|]. destruct (Rltb _ 0); cbn [bind]; [easy|apply L].
    + cbn [bind]. apply L.
  - intros n g M r l u. unfold method_trsbox, minimize_trust_trsbox.
    assert (L1 : forall k s, tb_main k n M l u s <> Err OutOfFuel).
    { induction k as [|k IH]; intros; cbn [tb_main]; [easy|].
      assert (N : tb_pass n M l u s <> Err OutOfFuel).
      { unfold tb_pass.
        destruct (Reqb (fdot n _ _) 0); [easy|].
        destruct (get (if Reqb (tb_beta s) 0 then _ else _)) as [?|e] eqn:G; cbn [bind];
          [|intros Q; inversion Q; subst; revert G; unfold get; destruct (if Reqb _ _ then _ else _); congruence].
        destruct (get (if (tb_niter s =? 0)%nat then _ else _)) as [?|e] eqn:G'; cbn [bind];
          [|intros Q; inversion Q; subst; revert G'; unfold get; destruct (if (_ =? _)%nat then _ else _); congruence].
        destruct (_ || _); [easy|]. destruct (Rleb _ 0); [easy|].
        match goal with |- context [tb_unconstrained_step ?a ?b ?c ?d ?e] =>
          pose proof (tb_uncon_nf a b c d e) as NU; destruct (tb_unconstrained_step a b c d e) as [[sl0 dist]|] end;
          cbn [bind]; [|congruence].
        destruct (Rleb sl0 (/ 10 ^ 30)); [easy|].
        destruct (tb_constrained_step _ _ _ _ _ _) as [sl [a'|]].
        { match goal with |- context [Rleb (tb_delta s - ?a) 0] => destruct (Rleb (tb_delta s - a) 0) end; easy. }
        destruct (Rleb dist sl); [easy|]. destruct (_ || _); [easy|].
        unfold get. destruct (if Rltb 0 sl then Some _ else _); cbn [bind]; [|easy].
        match goal with |- context [div ?a ?b] => pose proof (div_nf a b) as ND; destruct (div a b) end; cbn [bind]; [easy|congruence]. }
      destruct (tb_pass _ _ _ _ s) as [[]|]; cbn [bind]; [easy|auto|congruence]. }
    assert (L2 : forall x s b nf, tb_bound_on_tangent n x s b l u nf <> Err OutOfFuel).
    { intros x s b nf. unfold tb_bound_on_tangent. generalize (mkTan b None nf 1 false). generalize 0%nat.
      generalize n at 1. induction n0 as [|k IH]; intros i t; cbn [tn_loop]; [easy|].
      assert (N : tn_one x s l u i t <> Err OutOfFuel).
      { unfold tn_one, msqrt, div. destruct (free _ _); [|easy]. destruct (Rleb _ 0); [easy|]. destruct (Rleb _ 0); [easy|].
        destruct (Rltb 0 _); cbn [bind]; [destruct (Rltb _ 0); cbn [bind]; [easy|]; destruct (Rltb _ _); cbn [bind];
          [destruct (Reqb _ 0); cbn [bind]; [easy|]|]|];
        (destruct (Rltb 0 _); [|easy]); (destruct (Rltb _ 0); cbn [bind]; [easy|]); (destruct (Rltb _ _); [|easy]);
        (destruct (Reqb _ 0); easy). }
      destruct (tn_one _ _ _ _ _ t) as [t'|]; cbn [bind]; [|congruence]. destruct (tn_reached t'); [easy|auto]. }
    assert (L3 : forall k xr s, tb_alt_inner k n M l u xr s <> Err OutOfFuel).
    { induction k as [|k IH]; intros; cbn [tb_alt_inner]; [easy|].
      assert (N : tb_alt_pass n M l u xr s <> Err OutOfFuel).
      { unfold tb_alt_pass. destruct (Rleb _ _); [easy|]. unfold msqrt. destruct (Rltb _ 0); cbn [bind]; [easy|].
        destruct (Reqb _ 0); [easy|].
        match goal with |- context [tb_bound_on_tangent ?a ?b ?c ?d ?e ?f ?h] =>
          pose proof (L2 b c d h) as L2'; destruct (tb_bound_on_tangent a b c d e f h) as [t|] end; cbn [bind]; [|congruence].
        destruct (tn_reached t); [easy|].
        match goal with |- context [an_loop ?a ?b] => destruct (an_loop a b) as [am ai ao ap an] end. cbn [an_idx an_next an_prev an_max].
        destruct ai as [idx|]; [|easy].
        destruct (idx =? _)%nat.
        - unfold div. destruct (Reqb _ 0); cbn [bind]; [easy|]. destruct (Rleb _ 0); [easy|].
          destruct (tn_act t) as [[]|]; [easy|]. destruct (Rleb _ _); easy.
        - unfold get. destruct an; cbn [bind]; [|easy]. destruct ap; cbn [bind]; [|easy].
          unfold tb_update_tangent, div. destruct (Reqb _ 0); cbn [bind]; [easy|]. destruct (Reqb _ 0); cbn [bind]; [easy|].
          destruct (Rleb _ 0); [easy|].
          destruct (tn_act t) as [[]|]; destruct (Rleb _ _); easy. }
      destruct (tb_alt_pass _ _ _ _ _ s) as [[]|]; cbn [bind]; [easy|auto|congruence]. }
    assert (L4 : forall k i x b g tt nf, tb_alt_outer k i n M l u x b g tt nf <> Err OutOfFuel).
    { induction k as [|k IH]; intros; cbn [tb_alt_outer]; [easy|]. destruct (_ <=? _)%nat; [easy|].
      match goal with |- context [tb_alt_inner ?a ?b ?c ?d ?e ?f ?h] =>
        pose proof (L3 a f h); destruct (tb_alt_inner a b c d e f h) as [[rs' al']|] end; cbn [bind]; [|congruence].
      destruct rs'; [apply IH|easy]. }
    match goal with |- context [tb_main ?a ?b ?c ?d ?e ?f] => pose proof (L1 a f); destruct (tb_main a b c d e f) as [[na' st']|] end;
      cbn [bind]; [|congruence]. destruct na'; [apply L4|easy].
Qed.

(** * C64 *)

(** C64, the part which holds: an accepted step increases the model value by at most
    max(1, |f| * EPSILON), and not at all if the change is larger than that.  Missing: changes up to 1
    are accepted whatever their sign, see [C64_accepted_step_refuted]. *)
Theorem C64_accepted_step_partial fast f predicted f_old norm radius r :
  update_radius_cg fast f predicted (f_old - f) norm radius = Ok (r, true) ->
  let tol := Rmax 1 (Rabs f * EPSILON) in
  f <= f_old + tol /\ (tol < Rabs (f_old - f) -> f < f_old).
Proof.
  intros U tol.
  enough (K : Rabs (f_old - f) <= tol \/ 0 <= f_old - f).
  { assert (0 < tol) by (unfold tol; pose proof (Rmax_l 1 (Rabs f * EPSILON)); lra).
    split.
    - destruct K as [K|K]; [|lra]. revert K. unfold Rabs. destruct (Rcase_abs _); lra.
    - intros T. destruct K as [K|K]; [lra|]. destruct K as [K|K]; [lra|]. rewrite <- K, Rabs_R0 in T. lra. }
  unfold update_radius_cg in U. fold tol in U. destruct (Rltb_spec predicted 0) as [P|P]; [discriminate|].
  destruct (Rleb_spec (Rabs (f_old - f)) tol) as [L|L]; [auto|]. cbn [andb] in U. right.
  assert (E4 : 0 < / 10 ^ 4) by (apply Rinv_0_lt_compat; lra).
  unfold divm in U. destruct fast.
  - unfold div in U. destruct (Reqb_spec predicted 0) as [Q|Q]; cbn [bind] in U; [discriminate|].
    cbn [xlt] in U. destruct (Rltb_spec ((f_old - f) / predicted) (/ 10 ^ 4)) as [B|B]; [discriminate|].
    apply Rnot_lt_le in B. assert (0 < predicted) by lra.
    assert (0 <= (f_old - f) / predicted) by lra.
    replace (f_old - f) with ((f_old - f) / predicted * predicted) by (field; lra). nra.
  - cbn [bind xdiv] in U. destruct (Reqb_spec predicted 0) as [Q|Q]; cbn [bind] in U.
    + destruct (Reqb_spec (f_old - f) 0) as [Z|Z]; [lra|].
      destruct (Rltb_spec 0 (f_old - f)); [lra|]. cbn [xlt] in U. discriminate.
    + cbn [xlt] in U. destruct (Rltb_spec ((f_old - f) / predicted) (/ 10 ^ 4)) as [B|B]; [discriminate|].
      apply Rnot_lt_le in B. assert (0 < predicted) by lra.
      assert (0 <= (f_old - f) / predicted) by lra.
      replace (f_old - f) with ((f_old - f) / predicted * predicted) by (field; lra). nra.
Qed.

Lemma eval_crit_1 x g H : eval_crit 1 x g H = g 0%nat * x 0%nat + / 2 * (x 0%nat * H 0%nat 0%nat * x 0%nat).
Proof. unfold eval_crit, fdot, fvm. cbn [bsum]. ring. Qed.
Lemma eval_crit_2 x g H : eval_crit 2 x g H =
  g 0%nat * x 0%nat + g 1%nat * x 1%nat +
  / 2 * ((x 0%nat * H 0%nat 0%nat + x 1%nat * H 1%nat 0%nat) * x 0%nat + (x 0%nat * H 0%nat 1%nat + x 1%nat * H 1%nat 1%nat) * x 1%nat).
Proof. unfold eval_crit, fdot, fvm. cbn [bsum]. ring. Qed.

Definition w_lin : fvec := fun _ => - / 4.
Definition w_H : fmat := fun i j => if (i =? j)%nat then 9 / 32 else - (7 / 32).
Definition w_lower : fvec := fun _ => -1.
Definition w_upper : fvec := fun i => if (i =? 0)%nat then 1 else 10.

Lemma w_method : exists y, method_cg (/ 10) 0 2%nat (sub_vec [0%nat; 1%nat] (fadd w_lin (fmv 2 w_H fzero)))
    (sub_mat [0%nat; 1%nat] w_H) 100 (sub_vec [0%nat; 1%nat] w_lower) (sub_vec [0%nat; 1%nat] w_upper) = Ok y /\
  y 0%nat = 4 /\ y 1%nat = 4.
Proof.
  set (g := sub_vec [0%nat; 1%nat] (fadd w_lin (fmv 2 w_H fzero))).
  set (M := sub_mat [0%nat; 1%nat] w_H).
  assert (G0 : g 0%nat = - / 4) by (hcompute; lra). assert (G1 : g 1%nat = - / 4) by (hcompute; lra).
  assert (M00 : M 0%nat 0%nat = 9 / 32) by (hcompute; lra). assert (M01 : M 0%nat 1%nat = - (7 / 32)) by (hcompute; lra).
  assert (M10 : M 1%nat 0%nat = - (7 / 32)) by (hcompute; lra). assert (M11 : M 1%nat 1%nat = 9 / 32) by (hcompute; lra).
  clearbody g M. unfold method_cg, minimize_trust_cg. cbn [Nat.mul Nat.add cg_loop]. unfold cg_step.
  cbn [cg_init cg_r cg_x cg_d].
  assert (NG : fdot 2 g g = / 8) by (unfold fdot; cbn [bsum]; rewrite G0, G1; lra).
  assert (ST : cg_stop_tol 2 g (/ 10) 0 = / 10) by (unfold cg_stop_tol; rewrite Rmult_0_l; apply Rmax_left; lra).
  rewrite ST.
  assert (SG : / 10 < fnorm 2 g).
  { unfold fnorm, fsq. rewrite NG. rewrite <- (sqrt_square (/ 10)) by lra. apply sqrt_lt_1; lra. }
  destruct (Rleb_spec (fnorm 2 g) (/ 10)) as [B|_]; [lra|].
  unfold cg_distance_to_boundary.
  assert (D1 : fdot 2 fzero fzero = 0) by apply fdot_zero_l.
  assert (D2 : fdot 2 fzero (fopp g) = 0) by apply fdot_zero_l.
  assert (D3 : fdot 2 (fopp g) (fopp g) = / 8) by (unfold fdot, fopp; cbn [bsum]; rewrite G0, G1; lra).
  rewrite D1, D2, D3. unfold msqrt, div at 1. destruct (Rltb_spec (0 * 0 + / 8 * (100 * 100 - 0)) 0); [lra|]. cbn [bind].
  destruct (Reqb_spec (/ 8) 0); [lra|]. cbn [bind].
  assert (SQ : fdot 2 (fvm 2 (fopp g) M) (fopp g) = / 128).
  { unfold fdot, fopp, fvm. cbn [bsum]. rewrite G0, G1, M00, M01, M10, M11. lra. }
  rewrite SQ, NG. destruct (Rltb_spec 0 (/ 128)); [|lra].
  assert (S2 : 2 < sqrt (0 * 0 + / 8 * (100 * 100 - 0))).
  { rewrite <- (sqrt_square 2) at 1 by lra. apply sqrt_lt_1; lra. }
  destruct (Rltb_spec ((- 0 + sqrt (0 * 0 + / 8 * (100 * 100 - 0))) / / 8) (/ 8 / / 128)) as [B|_].
  { exfalso. revert B. replace (/ 8 / / 128) with 16 by lra. unfold Rdiv. rewrite Rinv_inv. lra. }
  replace (/ 8 / / 128) with 16 by lra.
  unfold cg_update. cbn [cg_init cg_x cg_r cg_d]. unfold div. rewrite NG.
  destruct (Reqb_spec (/ 8) 0); [lra|]. cbn [bind cg_r cg_x cg_d].
  set (res' := fadd g (fscale 16 (fmv 2 M (fopp g)))).
  assert (R0 : res' 0%nat = 0). { unfold res', fadd, fscale, fmv, fopp. cbn [bsum]. rewrite G0, G1, M00, M01. lra. }
  assert (R1 : res' 1%nat = 0). { unfold res', fadd, fscale, fmv, fopp. cbn [bsum]. rewrite G0, G1, M10, M11. lra. }
  assert (NR : fnorm 2 res' = 0).
  { unfold fnorm, fsq, fdot. cbn [bsum]. rewrite R0, R1. replace (0 + 0 * 0 + 0 * 0) with 0 by ring. apply sqrt_0. }
  rewrite NR. destruct (Rleb_spec 0 (/ 10)); [|lra]. eexists. split; [reflexivity|].
  unfold fadd, fscale, fzero, fopp. rewrite G0, G1. lra.
Qed.

(** C64 is false: both versions accept, and return, a point that is worse than their start point. *)
Theorem C64_accepted_step_refuted fast :
  exists r, bntr 35 fast (method_cg (/ 10) 0) 2 w_lin w_H w_lower w_upper fzero (mkTols 0 0 0) 0 0 = Ok r /\
    in_box 2 w_lower w_upper fzero /\ eval_crit 2 (br_x r) w_lin w_H > eval_crit 2 fzero w_lin w_H.
Proof.
  assert (B0 : in_box 2 w_lower w_upper fzero).
  { intros i _. unfold w_lower, w_upper, fzero. destruct (i =? 0)%nat; lra. }
  unfold bntr, preliminary.
  assert (CC : check_convergence 2 w_lin w_lower w_upper (mkTols 0 0 0) fzero (eval_crit 2 fzero w_lin w_H)
      (fadd w_lin (fmv 2 w_H fzero)) false 0 None = (false, 0%nat)).
  { unfold check_convergence. cbn [gtol_abs gtol_rel gtol_scaled].
    set (gn := fnorm 2 (fb_direction _ _ _ _)). assert (0 <= gn) by apply fnorm_nonneg.
    assert (N : gn <> 0).
    { unfold gn. rewrite C62_measure_zero_iff_KKT by apply B0. intros K.
      destruct (K 0%nat ltac:(lia)) as [K1 _]; [hcompute; lra|]. specialize (K1 ltac:(hcompute; lra)).
      revert K1. hcompute. lra. }
    assert (NL : fnorm 2 w_lin = sqrt (/ 8)). { unfold fnorm, fsq. f_equal. hcompute. lra. }
    assert (NP : 0 < sqrt (/ 8)) by (apply sqrt_lt_R0; lra). rewrite NL.
    destruct (Rltb_spec gn 0); [lra|].
    assert (F0 : eval_crit 2 fzero w_lin w_H = 0) by (rewrite eval_crit_2; unfold fzero; ring). rewrite F0.
    destruct (Reqb_spec 0 0); [|lra]. cbn [negb andb].
    destruct (Reqb_spec (sqrt (/ 8)) 0); [lra|]. cbn [negb andb].
    destruct (Rltb_spec (gn / sqrt (/ 8)) 0) as [Q|Q].
    { exfalso. assert (0 < / sqrt (/ 8)) by (apply Rinv_0_lt_compat; lra). unfold Rdiv in Q. nra. }
    destruct (Reqb_spec gn 0); [contradiction|]. easy. }
  rewrite CC. cbn [gd_loop bind gd_fmin gd_radius gd_low].
  assert (F0 : eval_crit 2 fzero w_lin w_H = 0) by (rewrite eval_crit_2; unfold fzero; ring). rewrite F0.
  destruct (Rltb_spec 0 0); [lra|]. cbn [bs_conv bs_x bs_f bs_g bs_act bs_reason bs_radius].
  assert (R100 : clip_radius (Rmax 100 0) = 100).
  { unfold clip_radius, min_radius, max_radius, Rmin, Rmax. repeat destruct (Rle_dec _ _); lra. }
  rewrite R100. change (Z.to_nat (0 + 1)) with 1%nat. cbn [bntr_outer bs_conv bntr_inner bs_x bs_f].
  unfold bntr_pass. cbn [bs_conv bs_x bs_f bs_g bs_act bs_reason bs_radius].
  set (act := get_active fast 2 w_lower w_upper fzero w_lin).
  assert (IA : ab_inactive act = [0%nat; 1%nat]).
  { transitivity (ab_inactive (active_sets 2 w_lower w_upper fzero w_lin)).
    { unfold act, get_active. destruct fast; [apply inactive_same|easy]. }
    unfold active_sets, inactive_of, w_lower, w_upper, w_lin, fzero. cbn [ab_inactive seq filter Nat.eqb].
    rb; cbn [andb orb negb]; try lra; try easy. }
  assert (AF : forall i, (i < 2)%nat -> ab_fixed act i = false /\ ab_lower act i = false /\ ab_upper act i = false).
  { intros i Hi. assert (J : i = 0%nat \/ i = 1%nat) by lia. unfold act, get_active. destruct fast; unfold active_fast, active_sets;
      cbn [ab_fixed ab_lower ab_upper]; unfold w_lower, w_upper, w_lin, fzero; destruct J as [-> | ->]; cbn [Nat.eqb];
      rb; cbn [andb orb negb]; try lra; try easy. }
  unfold cg_phase_step. rewrite IA. destruct w_method as (y & Y & Y0 & Y1).
  cbn [length]. rewrite Y. cbn [bind]. destruct (Reqb_spec 100 0); [lra|]. cbn [bind].
  set (cs := full_step w_lower w_upper fzero act y).
  assert (C0 : cs 0%nat = 4 /\ cs 1%nat = 4).
  { unfold cs, full_step, scatter. destruct (AF 0%nat) as (-> & -> & ->); [lia|]. destruct (AF 1%nat) as (-> & -> & ->); [lia|].
    rewrite IA. cbn. auto. }
  set (x := clip_x w_lower w_upper (fadd fzero cs)).
  assert (X : x 0%nat = 1 /\ x 1%nat = 4).
  { unfold x, clip_x, fadd, fzero, w_lower, w_upper. destruct C0 as [-> ->]. cbn [Nat.eqb]. split; rb; lra. }
  assert (FX : eval_crit 2 x w_lin w_H = 17 / 64).
  { rewrite eval_crit_2. destruct X as [-> ->]. unfold w_lin, w_H. cbn [Nat.eqb]. lra. }
  assert (PR : predicted_reduction 2 (fadd w_lin (fmv 2 w_H fzero)) w_H act cs y = 1).
  { unfold predicted_reduction. rewrite IA. cbn [length Nat.eqb]. rewrite eval_crit_2. rewrite Y0, Y1.
    unfold sub_vec, sub_mat, fadd, fmv, fzero, w_lin, w_H. cbn [nth Nat.eqb bsum]. lra. }
  rewrite FX, PR.
  assert (U : exists q, update_radius_cg fast (17 / 64) 1 (0 - 17 / 64) (fnorm 2 y) 100 = Ok (q, true)).
  { unfold update_radius_cg. destruct (Rltb_spec 1 0); [lra|].
    assert (T : 1 <= Rmax 1 (Rabs (17 / 64) * EPSILON)) by apply Rmax_l.
    set (tol := Rmax 1 _) in *. clearbody tol.
    destruct (Rleb_spec (Rabs (0 - 17 / 64)) tol) as [L|L].
    2:{ exfalso. apply L. unfold Rabs. destruct (Rcase_abs _); lra. }
    destruct (Rleb_spec (Rabs 1) tol) as [L'|L'].
    2:{ exfalso. apply L'. rewrite Rabs_R1. lra. }
    cbn [andb bind xlt]. destruct (Rltb_spec 1 (/ 10 ^ 4)) as [Q|Q]; [lra|]. eauto. }
  destruct U as [q ->]. cbn [bind]. clear CC.
  destruct (check_convergence _ _ _ _ _ _ _ _ _ _ _) as [cv rs]. cbn [bind orb bs_conv].
  eexists. split; [reflexivity|]. split; [apply B0|]. cbn [br_x bs_x]. rewrite FX. lra.
Qed.

(** * C65 *)

(** C65, the part which holds: the reported criterion is the model value at the reported point as
    soon as one conjugate gradient step has been accepted.  Otherwise point and criterion are those
    of the preliminary phase; they belong together if that phase found no better point.  Missing: the
    gradient descent found a better value, see [C65_criterion_refuted]. *)
Theorem C65_criterion_partial fuel fast method n lin H lower upper x0 t maxiter k_gd r :
  bntr fuel fast method n lin H lower upper x0 t maxiter k_gd = Ok r ->
  br_criterion r = eval_crit n (br_x r) lin H \/
  exists s, preliminary fast n lin H lower upper t k_gd x0 = Ok s /\ br_x r = bs_x s /\ br_criterion r = bs_f s /\
            bs_f s < eval_crit n x0 lin H /\ (0 < k_gd)%nat.
Proof.
  intros E.
  apply (bntr_ind (fun x f => f = eval_crit n x lin H \/
    exists s, preliminary fast n lin H lower upper t k_gd x0 = Ok s /\ x = bs_x s /\ f = bs_f s /\
              bs_f s < eval_crit n x0 lin H /\ (0 < k_gd)%nat)) in E; auto.
  intros s S. pose proof S as S'. unfold preliminary in S'.
  destruct (check_convergence _ _ _ _ _ _ _ _ _ _ _) as [cv rs] in S'. destruct cv; [inversion S'; subst; cbn; auto|].
  destruct (gd_loop _ _ _ _ _ _ _ _ _ _ _) as [d|] eqn:G in S'; cbn [bind] in S'; [|discriminate].
  destruct (Rltb_spec (gd_fmin d) (eval_crit n x0 lin H)) as [L|L].
  - right. exists s. splits; auto.
    + destruct (check_convergence _ _ _ _ _ _ _ _ _ _ _) as [cv' rs'] in S'. inversion S'; subst. cbn.
      destruct cv'; cbn; auto.
    + destruct k_gd; [|lia]. cbn [gd_loop] in G. inversion G; subst d. cbn in L. lra.
  - left. inversion S'; subst. cbn. easy.
Qed.

Definition v_lin : fvec := fun _ => -1.
Definition v_H : fmat := fun _ _ => / 200.
Definition v_lower : fvec := fun _ => -250.
Definition v_upper : fvec := fun _ => 250.

Lemma Rpower_lt1 x y : 0 < x < 1 -> 0 < y -> Rpower x y < 1.
Proof.
  intros Hx Hy. unfold Rpower. rewrite <- exp_0. apply exp_increasing.
  assert (ln x < 0) by (rewrite <- ln_1; apply ln_increasing; lra). nra.
Qed.
Lemma EPSILON_lt : 0 < EPSILON < / 2.
Proof.
  unfold EPSILON. split; [apply exp_pos|].
  apply Rle_lt_trans with (Rpower (/ 2 ^ 52) (/ 2)).
  - unfold Rpower. apply Rlt_le, exp_increasing.
    assert (ln (/ 2 ^ 52) < 0). { rewrite <- ln_1. apply ln_increasing; [apply Rinv_0_lt_compat; lra|lra]. }
    nra.
  - rewrite Rpower_sqrt by (apply Rinv_0_lt_compat; lra). rewrite <- (sqrt_square (/ 2)) by lra. apply sqrt_lt_1; lra.
Qed.

Lemma fnorm_1 x : fnorm 1 x = Rabs (x 0%nat).
Proof. unfold fnorm, fsq, fdot. cbn [bsum]. replace (0 + x 0%nat * x 0%nat) with (Rsqr (x 0%nat)) by (unfold Rsqr; ring). apply sqrt_Rsqr_abs. Qed.

(** Value of the Fischer-Burmeister direction at an interior point with one parameter where the box is
    symmetric and wide is not computed; only whether it is small matters. *)
Lemma inactive_1 fast lower upper x g : lower 0%nat < x 0%nat < upper 0%nat ->
  ab_inactive (get_active fast 1 lower upper x g) = [0%nat].
Proof.
  intros B. transitivity (ab_inactive (active_sets 1 lower upper x g)).
  { unfold get_active. destruct fast; [apply inactive_same|easy]. }
  unfold active_sets, inactive_of. cbn [ab_inactive seq filter]. rb; cbn [andb orb negb]; try lra; easy.
Qed.

Lemma fb_small_v : fnorm 1 (fb_direction v_lower v_upper fzero (fadd v_lin (fmv 1 v_H fzero))) >= / 2.
Proof.
  rewrite fnorm_1. unfold fb_direction, v_lower, v_upper, fadd, v_lin, fmv, fzero. cbn [bsum].
  destruct (Reqb_spec (-250) 250); [lra|].
  replace (250 - 0) with 250 by lra. replace (- (-1 + (0 + v_H 0%nat 0%nat * 0))) with 1 by lra. replace (0 - -250) with 250 by lra.
  set (a := fb_scalar 250 1).
  assert (A : -1 <= a <= - (9 / 10)).
  { unfold a, fb_scalar. destruct (Rleb_spec (250 + 1) 0); [lra|].
    set (q := sqrt (250 * 250 + 1 * 1)). assert (Q : 250 <= q <= 251).
    { unfold q. split.
      - rewrite <- (sqrt_square 250) at 1 by lra. apply sqrt_le_1; lra.
      - rewrite <- (sqrt_square 251) by lra. apply sqrt_le_1; lra. }
    clearbody q. assert (P : 0 < q + (250 + 1)) by lra. split.
    - apply Rmult_le_reg_r with (q + (250 + 1)); auto. unfold Rdiv. rewrite Rmult_assoc, Rinv_l by lra. lra.
    - apply Rmult_le_reg_r with (q + (250 + 1)); auto. unfold Rdiv. rewrite Rmult_assoc, Rinv_l by lra. lra. }
  clearbody a.
  enough (/ 2 <= fb_scalar a 250). { unfold Rabs. destruct (Rcase_abs _); lra. }
  unfold fb_scalar. destruct (Rleb_spec (a + 250) 0); [lra|].
  set (q := sqrt (a * a + 250 * 250)). assert (Q : 250 <= q <= 251).
  { unfold q. split.
    - rewrite <- (sqrt_square 250) at 1 by lra. apply sqrt_le_1; nra.
    - rewrite <- (sqrt_square 251) by lra. apply sqrt_le_1; nra. }
  clearbody q. assert (P : 0 < q + (a + 250)) by lra.
  apply Rmult_le_reg_r with (q + (a + 250)); auto. unfold Rdiv. rewrite Rmult_assoc, Rinv_l by lra. nra.
Qed.

(** One pass of the gradient descent phase on this model: from 0 to 100, radius divided by 16. *)
Lemma v_gd fast : exists d,
  gd_loop 1 fast 1 v_lin v_H v_lower v_upper 0 (project_gradient [0%nat] (fadd v_lin (fmv 1 v_H fzero))) [0%nat] (mkGd fzero 0 0 100 0) = Ok d /\
  gd_x d 0%nat = 100 /\ gd_fmin d = -75 /\ gd_step d = 100.
Proof.
  set (gp := project_gradient _ _).
  assert (GP : gp 0%nat = -1). { unfold gp, project_gradient, scatter, sub_vec, fadd, fmv, v_lin, fzero. cbn. lra. }
  assert (GN : fnorm 1 gp = 1). { rewrite fnorm_1, GP. unfold Rabs. destruct (Rcase_abs _); lra. }
  cbn [gd_loop]. unfold gd_pass. rewrite GN. cbn [gd_radius gd_x gd_fmin gd_step gd_low].
  assert (D1 : forall a, divm fast a 1 = Ok (Fin a)).
  { intros a. unfold divm, div, xdiv. destruct (Reqb_spec 1 0); [lra|]. destruct fast; cbn [bind]; do 2 f_equal; field. }
  rewrite D1. cbn [bind finite].
  set (x := clip_x v_lower v_upper (fsub fzero (fscale 100 gp))).
  assert (X : x 0%nat = 100). { unfold x, clip_x, fsub, fscale, fzero, v_lower, v_upper. rewrite GP. rb; lra. }
  assert (FX : eval_crit 1 x v_lin v_H = -75). { rewrite eval_crit_1, X. unfold v_lin, v_H. lra. }
  rewrite FX. cbn [length].
  assert (SQ : fdot 1 (fvm 1 (sub_vec [0%nat] (fsub x fzero)) (sub_mat [0%nat] v_H)) (sub_vec [0%nat] (fsub x fzero)) = 50).
  { unfold fdot, fvm, sub_vec, sub_mat, fsub, fzero, v_H. cbn [bsum nth]. rewrite X. lra. }
  rewrite SQ. replace (1 * 1) with 1 by ring. rewrite D1. cbn [bind finite].
  replace (100 * (1 - / 2 * 100 * 50)) with (-249900) by lra.
  assert (U : update_radius_gd fast 100 0 (-249900) (0 - -75) 1 = Ok (100 * / 16, 0)).
  { unfold update_radius_gd. replace (0 - -75) with 75 by lra.
    destruct EPSILON_lt as [E0 E1].
    destruct (Rleb_spec (Rabs 75) EPSILON) as [Q|Q]. { exfalso. rewrite Rabs_right in Q; lra. }
    cbn [andb].
    assert (DV : forall a b, b <> 0 -> divm fast a b = Ok (Fin (a / b))).
    { intros a b Hb. unfold divm, div, xdiv. destruct (Reqb_spec b 0); [contradiction|]. destruct fast; easy. }
    rewrite !DV by lra. cbn [bind].
    replace (75 / -249900) with (- (1 / 3332)) by lra.
    replace (/ 4 * 1 * 100 / (/ 4 * 1 * 100 + 3 / 4 * -249900 - 75)) with (- (1 / 7499)) by lra.
    replace (/ 4 * 1 * 100 / (/ 4 * 1 * 100 - 5 / 4 * -249900 + 75)) with (1 / 12499) by lra.
    unfold choose_tau. cbn [xlt]. destruct (Rltb_spec (1 / 12499) (- (1 / 7499))); [lra|].
    destruct (Rltb_spec (- (1 / 7499)) (1 / 12499)); [|lra]. cbn [xsub xopp xadd xabs xle xgt xlt xge].
    rewrite Rabs_left by lra.
    rb; try lra. cbn [bind finite]. easy. }
  rewrite U. cbn [bind]. destruct (Rltb_spec (-75) 0); [|lra].
  eexists. split; [reflexivity|]. cbn. rewrite X. lra.
Qed.

(** C65 is false: for the model - x + x^2/400 on [-250, 250] both versions report the criterion -75 at
    the point 200 whose model value is -100. *)
Theorem C65_criterion_refuted fast method fuel maxiter : (0 <= maxiter)%Z ->
  exists r, bntr fuel fast method 1 v_lin v_H v_lower v_upper fzero (mkTols (/ 10) 0 0) maxiter 1 = Ok r /\
    br_criterion r = -75 /\ br_x r 0%nat = 200 /\ eval_crit 1 (br_x r) v_lin v_H = -100.
Proof.
  intros HM. unfold bntr, preliminary.
  assert (F0 : eval_crit 1 fzero v_lin v_H = 0) by (rewrite eval_crit_1; unfold fzero; ring). rewrite F0.
  assert (CC : check_convergence 1 v_lin v_lower v_upper (mkTols (/ 10) 0 0) fzero 0
      (fadd v_lin (fmv 1 v_H fzero)) false 0 None = (false, 0%nat)).
  { unfold check_convergence. cbn [gtol_abs gtol_rel gtol_scaled]. pose proof fb_small_v as FB.
    set (gn := fnorm 1 (fb_direction _ _ _ _)) in *.
    assert (NL : fnorm 1 v_lin = 1). { rewrite fnorm_1. unfold v_lin, Rabs. destruct (Rcase_abs _); lra. } rewrite NL.
    destruct (Rltb_spec gn (/ 10)); [lra|]. destruct (Reqb_spec 0 0); [|lra]. cbn [negb andb].
    destruct (Reqb_spec 1 0); [lra|]. cbn [negb andb]. replace (gn / 1) with gn by field.
    destruct (Rltb_spec gn 0); [lra|]. destruct (Reqb_spec gn 0); [lra|]. easy. }
  rewrite CC. rewrite inactive_1 by (unfold v_lower, v_upper, fzero; lra).
  destruct (v_gd fast) as (d & -> & DX & DF & DS). cbn [bind]. rewrite DF.
  destruct (Rltb_spec (-75) 0); [|lra].
  set (x := clip_x v_lower v_upper _).
  assert (X : x 0%nat = 200).
  { unfold x, clip_x, fsub, fscale, v_lower, v_upper. rewrite DX, DS.
    replace (project_gradient [0%nat] (fadd v_lin (fmv 1 v_H fzero)) 0%nat) with (-1)
      by (unfold project_gradient, scatter, sub_vec, fadd, fmv, v_lin, fzero; cbn; lra). rb; lra. }
  clear CC.
  assert (C2 : forall gp, gp 0%nat = 0 ->
    check_convergence 1 v_lin v_lower v_upper (mkTols (/ 10) 0 0) x (-75) gp false 0 None = (true, 1%nat)).
  { intros gp G. unfold check_convergence. cbn [gtol_abs].
    assert (Z : fnorm 1 (fb_direction v_lower v_upper x gp) = 0).
    { apply C62_measure_zero_iff_KKT.
      - intros i Hi. assert (i = 0%nat) by lia. subst i. rewrite X. unfold v_lower, v_upper. lra.
      - intros i Hi _. assert (i = 0%nat) by lia. subst i. rewrite G. lra. }
    rewrite Z. destruct (Rltb_spec 0 (/ 10)); [easy|lra]. }
  rewrite C2.
  2:{ rewrite inactive_1 by (rewrite X; unfold v_lower, v_upper; lra).
      unfold project_gradient, scatter, sub_vec, fadd, fmv, v_lin, v_H. cbn. rewrite X. lra. }
  cbn [bs_conv]. replace (Z.to_nat (maxiter + 1)) with (S (Z.to_nat maxiter)) by lia. cbn [bntr_outer bs_conv bind get].
  eexists. split; [reflexivity|]. cbn [br_x br_criterion bs_x bs_f]. splits; auto.
  rewrite eval_crit_1, X. unfold v_lin, v_H. lra.
Qed.

(** * C106: radius updates of the gradient descent phase *)

(** C106, the part which holds: if the model decreases by less than half of a positive prediction the
    radius shrinks.  Missing: poor agreement because the decrease is larger than predicted, see
    [C106_poor_agreement_refuted]. *)
Theorem C106_poor_agreement_partial fast radius low predicted actual gn r l :
  0 < radius -> 0 < gn -> EPSILON < predicted -> actual < predicted / 2 ->
  update_radius_gd fast radius low predicted actual gn = Ok (r, l) -> r < radius /\ l = low.
Proof.
  intros Hr Hg Hp Ha U. destruct EPSILON_lt as [E0 _]. unfold update_radius_gd in U.
  destruct (Rleb_spec (Rabs predicted) EPSILON) as [Q|_]. { rewrite Rabs_right in Q; lra. }
  rewrite andb_false_r in U.
  set (num := / 4 * gn * radius) in *. assert (N : 0 < num) by (unfold num; nra). clearbody num.
  assert (DV : forall a b, b <> 0 -> divm fast a b = Ok (Fin (a / b))).
  { intros a b Hb. unfold divm, div, xdiv. destruct (Reqb_spec b 0); [contradiction|]. destruct fast; easy. }
  rewrite (DV actual), (DV num (num + 3 / 4 * predicted - actual)) in U by lra. cbn [bind] in U.
  assert (K : actual / predicted < / 2).
  { apply Rmult_lt_reg_r with predicted; [lra|]. unfold Rdiv. rewrite Rmult_assoc, Rinv_l by lra. lra. }
  set (kappa := actual / predicted) in *. clearbody kappa.
  assert (T1 : 0 < num / (num + 3 / 4 * predicted - actual) < 1).
  { assert (P : num < num + 3 / 4 * predicted - actual) by lra. split.
    - apply Rmult_lt_0_compat; [lra|apply Rinv_0_lt_compat; lra].
    - apply Rmult_lt_reg_r with (num + 3 / 4 * predicted - actual); [lra|].
      unfold Rdiv. rewrite Rmult_assoc, Rinv_l by lra. lra. }
  set (t1 := num / (num + 3 / 4 * predicted - actual)) in *. clearbody t1.
  assert (T2 : exists t2, divm fast num (num - 5 / 4 * predicted + actual) = Ok t2 /\
                 (t2 = PInf \/ exists v, t2 = Fin v /\ (v < 0 \/ 1 < v)) \/
               divm fast num (num - 5 / 4 * predicted + actual) = Err ZeroDivisionError).
  { set (den := num - 5 / 4 * predicted + actual). assert (DL : den < num) by (unfold den; lra). clearbody den.
    destruct (Req_dec den 0) as [Z|Z].
    - exists PInf. unfold divm, div, xdiv. destruct (Reqb_spec den 0); [|contradiction]. destruct fast; [right; easy|].
      left. split; auto. destruct (Reqb_spec num 0); [lra|]. destruct (Rltb_spec 0 num); [easy|lra].
    - exists (Fin (num / den)). left. split; [apply DV; auto|]. right. eexists. split; [reflexivity|].
      destruct (Rlt_dec den 0) as [L|L].
      + left. apply Rmult_lt_reg_r with (- den); [lra|]. unfold Rdiv. replace (num * / den * - den) with (- num * (/ den * den)) by ring.
        rewrite Rinv_l by lra. lra.
      + right. apply Rmult_lt_reg_r with den; [lra|]. unfold Rdiv. rewrite Rmult_assoc, Rinv_l by lra. lra. }
  destruct T2 as (t2 & [[E C]|E]); rewrite E in U; cbn [bind] in U; [|discriminate]. clear E.
  assert (CT : exists tau, choose_tau (Fin kappa) (Fin t1) t2 = (Fin tau, false) /\ tau < 1).
  { unfold choose_tau. cbn [xsub xopp xadd xabs xle].
    destruct (Rleb_spec (Rabs (kappa + - (1))) (35 / 100)) as [Q|_]; [rewrite Rabs_left in Q; lra|].
    destruct (Rleb_spec (Rabs (kappa + - (1))) (/ 2)) as [Q|_]; [rewrite Rabs_left in Q; lra|].
    destruct C as [-> |(v & -> & V)].
    - cbn [xlt xgt xge xle]. destruct (Rltb_spec 1 t1); [lra|]. cbn [xlt xgt xge xle andb orb].
      destruct (Rltb_spec t1 (/ 16)); cbn [andb orb]; [eexists; split; [reflexivity|lra]|].
      destruct (Rleb_spec (/ 16) t1); [|lra]. destruct (Rltb_spec t1 1); [|lra]. cbn [andb orb]. eexists; split; [reflexivity|lra].
    - cbn [xlt xgt xge xle].
      destruct (Rltb_spec v t1), (Rltb_spec t1 v); cbn [xlt xgt xge xle]; rb; cbn [andb orb]; try lra;
        eexists; (split; [reflexivity|lra]). }
  destruct CT as (tau & CT & TL). rewrite CT in U. cbn [bind finite] in U. inversion U; subst. split; [nra|easy].
Qed.

(** C106 is false: with 60 percent more decrease than predicted the agreement is poor (|kappa - 1| > 1/2) but the
    radius is multiplied by 20/3; a test of tau_2 where tau_1 is meant. *)
Theorem C106_poor_agreement_refuted fast :
  exists radius low predicted actual gn r l,
    0 < radius /\ 0 < gn /\ EPSILON < predicted /\ Rabs (actual / predicted - 1) > / 2 /\
    update_radius_gd fast radius low predicted actual gn = Ok (r, l) /\ r > 6 * radius.
Proof.
  exists 1, 0, 1, (8 / 5), 4. destruct EPSILON_lt as [E0 E1].
  assert (U : update_radius_gd fast 1 0 1 (8 / 5) 4 = Ok (1 * (20 / 3), 0)).
  { unfold update_radius_gd. destruct (Rleb_spec (Rabs (8 / 5)) EPSILON) as [Q|_]. { rewrite Rabs_right in Q; lra. }
    cbn [andb].
    assert (DV : forall a b, b <> 0 -> divm fast a b = Ok (Fin (a / b))).
    { intros a b Hb. unfold divm, div, xdiv. destruct (Reqb_spec b 0); [contradiction|]. destruct fast; easy. }
    rewrite !DV by lra. cbn [bind]. replace (8 / 5 / 1) with (8 / 5) by lra.
    replace (/ 4 * 4 * 1 / (/ 4 * 4 * 1 + 3 / 4 * 1 - 8 / 5)) with (20 / 3) by lra.
    replace (/ 4 * 4 * 1 / (/ 4 * 4 * 1 - 5 / 4 * 1 + 8 / 5)) with (20 / 27) by lra.
    unfold choose_tau. cbn [xlt xsub xopp xadd xabs xle xgt xge]. rewrite (Rabs_right (8 / 5 + - (1))) by lra.
    destruct (Rltb_spec (20 / 27) (20 / 3)); [|lra]. destruct (Rltb_spec (20 / 3) (20 / 27)); [lra|].
    cbn [xlt xsub xopp xadd xabs xle xgt xge]. rb; cbn [andb orb]; try lra. easy. }
  do 2 eexists. splits; try exact U; try lra. rewrite Rabs_right; lra.
Qed.

(** C106 - the radius update of the inner method: the step is accepted exactly if the ratio of
    actual and predicted reduction is at least 1e-4, the radius is reduced after a rejected
    step and after marginal agreement, kept after reasonable agreement or if the step was in
    the interior, and enlarged after good agreement; always between 1e-10 and 1e10. *)
Theorem C106_cg_radius_update :
  forall fast f predicted actual norm radius r accept,
    / 10 ^ 10 <= radius <= 10 ^ 10 -> 0 < predicted ->
    Rmax 1 (Rabs f * EPSILON) < Rmax (Rabs actual) predicted ->
    update_radius_cg fast f predicted actual norm radius = Ok (r, accept) ->
    let kappa := actual / predicted in
    (accept = true <-> / 10 ^ 4 <= kappa) /\
    (accept = false -> r = Rmax (/ 4 * Rmin radius norm) (/ 10 ^ 10)) /\
    (accept = true -> norm <> radius -> r = radius) /\
    (accept = true -> norm = radius ->
       (kappa < / 4 -> r = Rmax (/ 2 * radius) (/ 10 ^ 10)) /\
       (/ 4 <= kappa < / 2 -> r = radius) /\
       (/ 2 <= kappa < 9 / 10 -> r = Rmin (2 * radius) (10 ^ 10)) /\
       (9 / 10 <= kappa -> r = Rmin (4 * radius) (10 ^ 10))).
Proof.
  intros fast f p a norm radius r acc R P T U kappa. unfold update_radius_cg in U.
  destruct (Rltb_spec p 0); [lra|].
  assert (E : Rleb (Rabs a) (Rmax 1 (Rabs f * EPSILON)) && Rleb (Rabs p) (Rmax 1 (Rabs f * EPSILON)) = false).
  { set (t := Rmax 1 (Rabs f * EPSILON)) in *. destruct (Rleb_spec (Rabs a) t); [|easy].
    destruct (Rleb_spec (Rabs p) t); [|easy]. rewrite (Rabs_right p) in * by lra.
    unfold Rmax in T. destruct (Rle_dec (Rabs a) p); lra. }
  rewrite E in U. clear E T.
  replace (divm fast a p) with (Ok (Fin kappa)) in U.
  2:{ unfold divm, div, xdiv. destruct (Reqb_spec p 0); [lra|]. now destruct fast. }
  cbn [bind xlt] in U. clearbody kappa. unfold clip_radius, min_radius, max_radius in U.
  assert (B10 : 0 < / 10 ^ 10) by (apply Rinv_0_lt_compat, pow_lt; lra).
  assert (M : / 10 ^ 10 <= 10 ^ 10) by lra.
  assert (I4 : 0 < / 10 ^ 4 < / 4).
  { split; [apply Rinv_0_lt_compat, pow_lt; lra|]. apply Rinv_lt_contravar; lra. }
  set (lo := / 10 ^ 10) in *. set (hi := 10 ^ 10) in *. set (eta := / 10 ^ 4) in *. clearbody lo hi eta.
  pose proof (Rmin_l radius norm).
  destruct (Rltb_spec kappa eta).
  - injection U as <- <-. split; [split; [discriminate|lra]|]. split; [intros _|split; discriminate].
    apply Rmin_left. apply Rmax_lub; [|lra]. pose proof (Rmin_l radius norm). lra.
  - injection U as <- <-. split; [split; [intros _; lra|easy]|]. split; [discriminate|].
    assert (KEEP : Rmin (Rmax radius lo) hi = radius) by (rewrite Rmax_left, Rmin_left; lra).
    destruct (Reqb_spec norm radius); (split; [intros _ N|intros _ N]); try easy.
    split; [|split; [|split]]; intros K;
      (destruct (Rltb_spec kappa (/ 4)); [|destruct (Rltb_spec kappa (/ 2)); [|destruct (Rltb_spec kappa (9 / 10))]]);
      try lra; try easy.
    + apply Rmin_left. apply Rmax_lub; lra.
    + f_equal. apply Rmax_left. lra.
    + f_equal. apply Rmax_left. lra.
Qed.
Example ex_C106_cg : update_radius_cg false 0 4 1 1 1 = Ok (1, true) /\
  / 10 ^ 10 <= 1 <= 10 ^ 10 /\ Rmax 1 (Rabs 0 * EPSILON) < Rmax (Rabs 1) 4.
Proof.
  assert (T : Rmax 1 (Rabs 0 * EPSILON) = 1) by (rewrite Rabs_R0, Rmult_0_l; apply Rmax_left; lra).
  assert (B : / 10 ^ 10 <= 1 <= 10 ^ 10).
  { split; [|lra]. apply Rle_trans with (/ 1); [|lra]. apply Rinv_le_contravar; lra. }
  split; [|split; [exact B|]].
  - unfold update_radius_cg. rewrite T, (Rabs_right 1), (Rabs_right 4) by lra.
    destruct (Rltb_spec 4 0); [lra|]. destruct (Rleb_spec 4 1); [lra|]. rewrite andb_false_r.
    replace (divm false 1 4) with (Ok (Fin (1 / 4))).
    2:{ unfold divm, xdiv. destruct (Reqb_spec 4 0); [lra|easy]. }
    cbn [bind xlt]. destruct (Rltb_spec (1 / 4) (/ 10 ^ 4)) as [L|_].
    { exfalso. assert (/ 10 ^ 4 < / 4) by (apply Rinv_lt_contravar; lra). lra. }
    destruct (Reqb_spec 1 1); [|lra]. destruct (Rltb_spec (1 / 4) (/ 4)); [lra|].
    destruct (Rltb_spec (1 / 4) (/ 2)); [|lra]. unfold clip_radius, min_radius, max_radius.
    rewrite Rmax_left, Rmin_left by lra. reflexivity.
  - rewrite T, (Rabs_right 1), Rmax_right by lra. lra.
Qed.

(** * C107 *)

Definition z_H : fmat := fun _ _ => / 50.
Definition z_lower : fvec := fun _ => -1.
Definition z_upper : fvec := fun _ => 1.

Lemma fb_small_z : fnorm 1 (fb_direction z_lower z_upper fzero (fadd v_lin (fmv 1 z_H fzero))) > / 2.
Proof.
  rewrite fnorm_1. unfold fb_direction, z_lower, z_upper, fadd, v_lin, fmv, fzero. cbn [bsum].
  destruct (Reqb_spec (-1) 1); [lra|].
  replace (1 - 0) with 1 by lra. replace (- (-1 + (0 + z_H 0%nat 0%nat * 0))) with 1 by lra. replace (0 - -1) with 1 by lra.
  set (a := fb_scalar 1 1).
  assert (A : -6 / 10 <= a <= - (55 / 100)).
  { unfold a, fb_scalar. destruct (Rleb_spec (1 + 1) 0); [lra|].
    set (q := sqrt (1 * 1 + 1 * 1)). assert (Q : 14 / 10 <= q <= 15 / 10).
    { unfold q. split.
      - rewrite <- (sqrt_square (14 / 10)) at 1 by lra. apply sqrt_le_1; lra.
      - rewrite <- (sqrt_square (15 / 10)) by lra. apply sqrt_le_1; lra. }
    clearbody q. assert (P : 0 < q + (1 + 1)) by lra. split.
    - apply Rmult_le_reg_r with (q + (1 + 1)); auto. unfold Rdiv. rewrite Rmult_assoc. rewrite Rmult_assoc, Rinv_l by lra. lra.
    - apply Rmult_le_reg_r with (q + (1 + 1)); auto. unfold Rdiv. rewrite Rmult_assoc. rewrite Rmult_assoc, Rinv_l by lra. lra. }
  clearbody a.
  enough (/ 2 < fb_scalar a 1). { unfold Rabs. destruct (Rcase_abs _); lra. }
  unfold fb_scalar. destruct (Rleb_spec (a + 1) 0); [lra|].
  set (q := sqrt (a * a + 1 * 1)). assert (Q : 0 <= q <= 12 / 10).
  { unfold q. split; [apply sqrt_pos|].
    rewrite <- (sqrt_square (12 / 10)) by lra. apply sqrt_le_1; nra. }
  clearbody q. assert (P : 0 < q + (a + 1)) by lra.
  apply Rmult_lt_reg_r with (q + (a + 1)); auto. unfold Rdiv. rewrite Rmult_assoc, Rinv_l by lra. nra.
Qed.

(** C107 is false of bntr_fast: for the convex model - x + x^2/100 on [-1, 1], started at 0 with any
    number of gradient descent steps and any tolerances up to 1/2, the predicted reduction of the first
    gradient descent step is exactly zero and the solver raises ZeroDivisionError. *)
Theorem C107_fast_raises_refuted fuel method ga gr gs maxiter k_gd :
  ga <= / 2 -> gs <= / 2 -> (0 < k_gd)%nat ->
  bntr fuel true method 1 v_lin z_H z_lower z_upper fzero (mkTols ga gr gs) maxiter k_gd = Err ZeroDivisionError.
Proof.
  intros Ha Hs Hk. unfold bntr, preliminary.
  assert (F0 : eval_crit 1 fzero v_lin z_H = 0) by (rewrite eval_crit_1; unfold fzero; ring). rewrite F0.
  assert (CC : check_convergence 1 v_lin z_lower z_upper (mkTols ga gr gs) fzero 0
      (fadd v_lin (fmv 1 z_H fzero)) false 0 None = (false, 0%nat)).
  { unfold check_convergence. cbn [gtol_abs gtol_rel gtol_scaled]. pose proof fb_small_z as FB.
    set (gn := fnorm 1 (fb_direction _ _ _ _)) in *.
    assert (NL : fnorm 1 v_lin = 1). { rewrite fnorm_1. unfold v_lin, Rabs. destruct (Rcase_abs _); lra. } rewrite NL.
    destruct (Rltb_spec gn ga); [lra|]. destruct (Reqb_spec 0 0); [|lra]. cbn [negb andb].
    destruct (Reqb_spec 1 0); [lra|]. cbn [negb andb]. replace (gn / 1) with gn by field.
    destruct (Rltb_spec gn gs); [lra|]. destruct (Reqb_spec gn 0); [lra|]. easy. }
  rewrite CC. rewrite (inactive_1 true) by (unfold z_lower, z_upper, fzero; lra).
  destruct k_gd as [|k]; [lia|]. cbn [gd_loop].
  set (gp := project_gradient _ _).
  assert (GP : gp 0%nat = -1). { unfold gp, project_gradient, scatter, sub_vec, fadd, fmv, v_lin, fzero. cbn. lra. }
  assert (GN : fnorm 1 gp = 1). { rewrite fnorm_1, GP. unfold Rabs. destruct (Rcase_abs _); lra. }
  unfold gd_pass. rewrite GN. cbn [gd_radius gd_x gd_fmin gd_step gd_low].
  assert (D1 : forall a, divm true a 1 = Ok (Fin a)).
  { intros a. unfold divm, div. destruct (Reqb_spec 1 0); [lra|]. cbn [bind]; do 2 f_equal; field. }
  rewrite D1. cbn [bind finite].
  set (x := clip_x z_lower z_upper (fsub fzero (fscale 100 gp))).
  assert (X : x 0%nat = 1). { unfold x, clip_x, fsub, fscale, fzero, z_lower, z_upper. rewrite GP. rb; lra. }
  assert (FX : eval_crit 1 x v_lin z_H = - (99 / 100)). { rewrite eval_crit_1, X. unfold v_lin, z_H. lra. }
  rewrite FX. cbn [length].
  assert (SQ : fdot 1 (fvm 1 (sub_vec [0%nat] (fsub x fzero)) (sub_mat [0%nat] z_H)) (sub_vec [0%nat] (fsub x fzero)) = / 50).
  { unfold fdot, fvm, sub_vec, sub_mat, fsub, fzero, z_H. cbn [bsum nth]. rewrite X. lra. }
  rewrite SQ. replace (1 * 1) with 1 by ring. rewrite D1. cbn [bind finite].
  replace (100 * (1 - / 2 * 100 * / 50)) with 0 by lra.
  unfold update_radius_gd. destruct EPSILON_lt as [E0 E1].
  destruct (Rleb_spec (Rabs (0 - - (99 / 100))) EPSILON) as [Q|_]. { rewrite Rabs_right in Q; lra. }
  cbn [andb]. unfold divm at 1, div. destruct (Reqb_spec 0 0); [|lra]. reflexivity.
Qed.

(** The part which holds: the numpy version raises it only if the conjugate gradient method does. *)
Lemma gd_loop_numpy k n lin H lower upper f0 gp idx : forall s,
  gd_loop k false n lin H lower upper f0 gp idx s <> Err ZeroDivisionError.
Proof.
  induction k as [|k IH]; intros s; cbn [gd_loop]; [easy|].
  assert (N : gd_pass false n lin H lower upper f0 gp idx s <> Err ZeroDivisionError).
  { unfold gd_pass, update_radius_gd, divm. cbn [bind]. unfold finite.
    destruct (xdiv _ _); cbn [bind]; try easy. destruct (xdiv _ (Fin (_ * _))); cbn [bind]; try easy.
    destruct (_ && _); cbn [bind]; destruct (choose_tau _ _ _) as [[] ?]; cbn [bind]; easy. }
  destruct (gd_pass _ _ _ _ _ _ _ _ _ s) as [s1|]; cbn [bind]; [auto|congruence].
Qed.
Theorem C107_numpy_never_divides_by_zero_partial fuel method n lin H lower upper x0 t maxiter k_gd :
  (forall k g M r l u, method k g M r l u <> Err ZeroDivisionError) ->
  bntr fuel false method n lin H lower upper x0 t maxiter k_gd <> Err ZeroDivisionError.
Proof.
  intros M. unfold bntr.
  assert (P : preliminary false n lin H lower upper t k_gd x0 <> Err ZeroDivisionError).
  { unfold preliminary. destruct (check_convergence _ _ _ _ _ _ _ _ _ _ _) as [cv rs]. destruct cv; [easy|].
    match goal with |- context [gd_loop ?a ?b ?c ?d ?e ?f ?g ?h ?i ?j ?k] =>
      pose proof (gd_loop_numpy a c d e f g h i j k) as N; destruct (gd_loop a b c d e f g h i j k) end; cbn [bind];
      [easy|congruence]. }
  destruct (preliminary _ _ _ _ _ _ _ _ _) as [s|]; cbn [bind]; [|congruence].
  assert (PA : forall niter x_old f_old s, bntr_pass false method n lin H lower upper t niter maxiter x_old f_old s <> Err ZeroDivisionError).
  { intros niter x_old f_old s1. unfold bntr_pass.
    assert (C : cg_phase_step method n lower upper (bs_g s1) H (bs_act s1) (bs_x s1) (bs_radius s1) <> Err ZeroDivisionError).
    { unfold cg_phase_step. destruct (ab_inactive (bs_act s1)); [destruct (n <=? 1)%nat; easy|].
      match goal with |- context [method ?a ?b ?c (bs_radius s1) ?e ?f] =>
        pose proof (M a b c (bs_radius s1) e f); destruct (method a b c (bs_radius s1) e f) end; cbn [bind]; [|congruence].
      destruct (Reqb _ _); cbn [bind]; [|easy]. destruct (Rltb _ _); cbn [bind]; [easy|].
      match goal with |- context [method ?a ?b ?c ?d ?e ?f] =>
        pose proof (M a b c d e f); destruct (method a b c d e f) end; cbn [bind]; [|congruence].
      destruct (Reqb _ _); easy. }
    destruct (cg_phase_step _ _ _ _ _ _ _ _ _) as [[[c st] nm]|]; cbn [bind]; [|congruence].
    assert (U : forall f p a nm r, update_radius_cg false f p a nm r <> Err ZeroDivisionError).
    { intros. unfold update_radius_cg. destruct (Rltb _ _); [easy|]. destruct (_ && _); cbn [bind divm]; destruct (xlt _ _); easy. }
    match goal with |- context [update_radius_cg ?a ?b ?c ?d ?e ?f] =>
      pose proof (U b c d e f); destruct (update_radius_cg a b c d e f) as [[r a']|] end; cbn [bind]; [|congruence].
    destruct a'; [|destruct (Reqb _ _)]; try destruct (check_convergence _ _ _ _ _ _ _ _ _ _ _); easy. }
  assert (IN : forall niter x_old f_old fuel s, bntr_inner fuel false method n lin H lower upper t niter maxiter x_old f_old s <> Err ZeroDivisionError).
  { intros niter x_old f_old fu. induction fu as [|fu IH]; intros s1; cbn [bntr_inner]; [easy|].
    specialize (PA niter x_old f_old s1).
    destruct (bntr_pass _ _ _ _ _ _ _ _ _ _ _ _ _) as [[[s2 acc] stop]|]; cbn [bind]; [|congruence].
    destruct (stop || acc || bs_conv s2); [easy|auto]. }
  assert (OU : forall k niter last s, bntr_outer k fuel false method n lin H lower upper t niter maxiter last s <> Err ZeroDivisionError).
  { induction k as [|k IH]; intros niter last s1; cbn [bntr_outer]; [easy|]. destruct (bs_conv s1); [easy|].
    match goal with |- context [bntr_inner ?a ?b ?c ?d ?e ?f ?g ?h ?i ?j ?k ?l ?m ?o] =>
      pose proof (IN j l m a o); destruct (bntr_inner a b c d e f g h i j k l m o) end; cbn [bind]; [auto|congruence]. }
  specialize (OU (Z.to_nat (maxiter + 1)) 0%Z None s).
  destruct (bntr_outer _ _ _ _ _ _ _ _ _ _ _ _ _ _) as [[s1 l1]|]; cbn [bind]; [|congruence].
  destruct l1; easy.
Qed.

(** * C108: the two versions agree *)

Definition act_sim (lower upper x : fvec) (a1 a2 : active) : Prop :=
  ab_inactive a1 = ab_inactive a2 /\ forall step, full_step lower upper x a1 step = full_step lower upper x a2 step.
Definition sim (lower upper : fvec) (s1 s2 : bst) : Prop :=
  bs_x s1 = bs_x s2 /\ bs_f s1 = bs_f s2 /\ bs_g s1 = bs_g s2 /\ bs_radius s1 = bs_radius s2 /\
  bs_conv s1 = bs_conv s2 /\ bs_reason s1 = bs_reason s2 /\ act_sim lower upper (bs_x s1) (bs_act s1) (bs_act s2).
Definition boxed (lower upper x : fvec) : Prop := forall i, lower i <= x i <= upper i.

Lemma act_sim_get n lower upper x g : boxed lower upper x ->
  act_sim lower upper x (active_fast n lower upper x g) (active_sets n lower upper x g).
Proof.
  intros B. split; [apply inactive_same|]. intros step. apply functional_extensionality. intros i.
  apply C63_versions_same_step. auto.
Qed.
Lemma divm_fast a b v : divm true a b = Ok v -> divm false a b = Ok v.
Proof. unfold divm, div, xdiv. destruct (Reqb b 0); cbn [bind]; congruence. Qed.
Lemma clip_boxed lower upper x : boxed lower upper fzero \/ (forall i, lower i <= upper i) -> boxed lower upper (clip_x lower upper x).
Proof.
  intros L i. assert (lower i <= upper i). { destruct L as [L|L]; [specialize (L i); unfold fzero in L; lra|auto]. }
  unfold clip_x. rb; lra.
Qed.

Lemma gd_loop_fast k n lin H lower upper f0 gp idx : forall s d,
  gd_loop k true n lin H lower upper f0 gp idx s = Ok d -> gd_loop k false n lin H lower upper f0 gp idx s = Ok d.
Proof.
  induction k as [|k IH]; intros s d; cbn [gd_loop]; [easy|].
  destruct (gd_pass true n lin H lower upper f0 gp idx s) as [s1|] eqn:E; cbn [bind]; [|easy].
  assert (E' : gd_pass false n lin H lower upper f0 gp idx s = Ok s1).
  { revert E. unfold gd_pass, update_radius_gd.
    destruct (divm true (gd_radius s) _) as [v1|] eqn:V1; cbn [bind]; [|easy]. rewrite (divm_fast _ _ _ V1). cbn [bind].
    destruct (finite v1); cbn [bind]; [|easy].
    destruct (divm true _ (fnorm n gp * fnorm n gp)) as [v2|] eqn:V2; cbn [bind]; [|easy]. rewrite (divm_fast _ _ _ V2). cbn [bind].
    destruct (finite v2) as [r2|]; cbn [bind]; [|easy].
    set (c := _ && _). destruct c; cbn [bind].
    - destruct (divm true _ (_ + _ - _)) as [v3|] eqn:V3; cbn [bind]; [|easy]. rewrite (divm_fast _ _ _ V3). cbn [bind].
      destruct (divm true _ (_ - _ + _)) as [v4|] eqn:V4; cbn [bind]; [|easy]. rewrite (divm_fast _ _ _ V4). cbn [bind]. easy.
    - destruct (divm true (f0 - _) _) as [v5|] eqn:V5; cbn [bind]; [|easy]. rewrite (divm_fast _ _ _ V5). cbn [bind].
      destruct (divm true _ (_ + _ - _)) as [v3|] eqn:V3; cbn [bind]; [|easy]. rewrite (divm_fast _ _ _ V3). cbn [bind].
      destruct (divm true _ (_ - _ + _)) as [v4|] eqn:V4; cbn [bind]; [|easy]. rewrite (divm_fast _ _ _ V4). cbn [bind]. easy. }
  rewrite E'. cbn [bind]. apply IH.
Qed.

Lemma preliminary_fast n lin H lower upper t k_gd x s1 : boxed lower upper x ->
  preliminary true n lin H lower upper t k_gd x = Ok s1 ->
  exists s2, preliminary false n lin H lower upper t k_gd x = Ok s2 /\ sim lower upper s1 s2 /\ boxed lower upper (bs_x s1).
Proof.
  intros B. assert (L : forall i, lower i <= upper i) by (intros i; specialize (B i); lra).
  unfold preliminary. change (get_active true) with active_fast. change (get_active false) with active_sets.
  rewrite inactive_same.
  destruct (check_convergence _ _ _ _ _ _ _ _ _ _ _) as [cv rs]. destruct cv.
  - intros Q. inversion Q; subst; clear Q. eexists. split; [reflexivity|]. unfold sim. cbn [bs_x bs_f bs_g bs_act bs_radius bs_conv bs_reason].
    splits; auto; apply act_sim_get; auto.
  - destruct (gd_loop k_gd true _ _ _ _ _ _ _ _ _) as [d|] eqn:G; cbn [bind]; [|easy]. rewrite (gd_loop_fast _ _ _ _ _ _ _ _ _ _ _ G). cbn [bind].
    destruct (Rltb _ _).
    + rewrite inactive_same. set (y := clip_x lower upper _). assert (BY : boxed lower upper y) by (apply clip_boxed; auto).
      destruct (check_convergence _ _ _ _ _ _ _ _ _ _ _) as [cv' rs']. intros Q. inversion Q; subst; clear Q.
      eexists. split; [reflexivity|]. unfold sim. destruct cv'; cbn [bs_x bs_f bs_g bs_act bs_radius bs_conv bs_reason]; splits; auto; apply act_sim_get; auto.
    + intros Q. inversion Q; subst; clear Q. eexists. split; [reflexivity|]. unfold sim. cbn [bs_x bs_f bs_g bs_act bs_radius bs_conv bs_reason].
      splits; auto; apply act_sim_get; auto.
Qed.

Lemma update_radius_fast f p a nm r o : update_radius_cg true f p a nm r = Ok o -> update_radius_cg false f p a nm r = Ok o.
Proof.
  unfold update_radius_cg. destruct (Rltb p 0); [easy|]. set (c := _ && _). destruct c; [easy|].
  destruct (divm true a p) as [v|] eqn:V; cbn [bind]; [|easy]. rewrite (divm_fast _ _ _ V). easy.
Qed.

Lemma bntr_pass_fast method n lin H lower upper t niter maxiter f_old s1 s2 s1' acc stop :
  sim lower upper s1 s2 -> (forall i, lower i <= upper i) -> boxed lower upper (bs_x s1) ->
  bntr_pass true method n lin H lower upper t niter maxiter (bs_x s1) f_old s1 = Ok (s1', acc, stop) ->
  exists s2', bntr_pass false method n lin H lower upper t niter maxiter (bs_x s2) f_old s2 = Ok (s2', acc, stop) /\
    sim lower upper s1' s2' /\ boxed lower upper (bs_x s1') /\ (acc = false -> bs_x s1' = bs_x s1).
Proof.
  intros (EX & EF & EG & ER & EC & EN & A1 & A2) L B.
  unfold bntr_pass, cg_phase_step, predicted_reduction. rewrite <- EX, <- EG, <- ER, <- EC, <- EN, <- A1.
  destruct s1 as [x f g r a c rs]. destruct s2 as [x2 f2 g2 r2 a2 c2 rs2]. cbn [bs_x bs_f bs_g bs_act bs_radius bs_conv bs_reason] in *.
  subst x2 f2 g2 r2 c2 rs2.
  assert (K : forall cs st nm,
    bind (update_radius_cg true (eval_crit n (clip_x lower upper (fadd x cs)) lin H)
       (- (if (length (ab_inactive a) =? n)%nat then eval_crit (length (ab_inactive a)) st (sub_vec (ab_inactive a) g) (sub_mat (ab_inactive a) H)
           else eval_crit (length (ab_inactive a)) (sub_vec (ab_inactive a) cs) (sub_vec (ab_inactive a) g) (sub_mat (ab_inactive a) H)))
       (f_old - eval_crit n (clip_x lower upper (fadd x cs)) lin H) nm r)
     (fun '(radius, accept) =>
      if accept then
        let '(conv, reason) := check_convergence n lin lower upper t (clip_x lower upper (fadd x cs)) (eval_crit n (clip_x lower upper (fadd x cs)) lin H)
           (fadd lin (fmv n H (clip_x lower upper (fadd x cs)))) c rs (Some (niter, maxiter)) in
        Ok (mkBst (clip_x lower upper (fadd x cs)) (eval_crit n (clip_x lower upper (fadd x cs)) lin H) (fadd lin (fmv n H (clip_x lower upper (fadd x cs)))) radius
              (get_active true n lower upper (clip_x lower upper (fadd x cs)) (fadd lin (fmv n H (clip_x lower upper (fadd x cs))))) conv reason, true, false)
      else if Reqb radius r then Ok (mkBst x f_old g radius a true rs, false, true)
      else let '(conv, reason) := check_convergence n lin lower upper t x f_old g c rs (Some (niter, maxiter)) in
           Ok (mkBst x f_old g radius a conv reason, false, false)) = Ok (s1', acc, stop) ->
    exists s2',
    bind (update_radius_cg false (eval_crit n (clip_x lower upper (fadd x cs)) lin H)
       (- (if (length (ab_inactive a) =? n)%nat then eval_crit (length (ab_inactive a)) st (sub_vec (ab_inactive a) g) (sub_mat (ab_inactive a) H)
           else eval_crit (length (ab_inactive a)) (sub_vec (ab_inactive a) cs) (sub_vec (ab_inactive a) g) (sub_mat (ab_inactive a) H)))
       (f_old - eval_crit n (clip_x lower upper (fadd x cs)) lin H) nm r)
     (fun '(radius, accept) =>
      if accept then
        let '(conv, reason) := check_convergence n lin lower upper t (clip_x lower upper (fadd x cs)) (eval_crit n (clip_x lower upper (fadd x cs)) lin H)
           (fadd lin (fmv n H (clip_x lower upper (fadd x cs)))) c rs (Some (niter, maxiter)) in
        Ok (mkBst (clip_x lower upper (fadd x cs)) (eval_crit n (clip_x lower upper (fadd x cs)) lin H) (fadd lin (fmv n H (clip_x lower upper (fadd x cs)))) radius
              (get_active false n lower upper (clip_x lower upper (fadd x cs)) (fadd lin (fmv n H (clip_x lower upper (fadd x cs))))) conv reason, true, false)
      else if Reqb radius r then Ok (mkBst x f_old g radius a2 true rs, false, true)
      else let '(conv, reason) := check_convergence n lin lower upper t x f_old g c rs (Some (niter, maxiter)) in
           Ok (mkBst x f_old g radius a2 conv reason, false, false)) = Ok (s2', acc, stop) /\
    sim lower upper s1' s2' /\ boxed lower upper (bs_x s1') /\ (acc = false -> bs_x s1' = x)).
  { intros cs st nm. set (y := clip_x lower upper (fadd x cs)). assert (BY : boxed lower upper y) by (apply clip_boxed; auto).
    destruct (update_radius_cg true _ _ _ _ _) as [[q ac]|] eqn:U; cbn [bind]; [|easy]. rewrite (update_radius_fast _ _ _ _ _ _ U). cbn [bind].
    destruct ac.
    - destruct (check_convergence _ _ _ _ _ _ _ _ _ _ _) as [cv rs']. intros Q. inversion Q; subst; clear Q.
      eexists. split; [reflexivity|]. unfold sim. cbn [bs_x bs_f bs_g bs_act bs_radius bs_conv bs_reason]. splits; auto; try easy.
      all: apply act_sim_get; auto.
    - destruct (Reqb q r); [|destruct (check_convergence _ _ _ _ _ _ _ _ _ _ _) as [cv rs']]; intros Q; inversion Q; subst; clear Q;
      (eexists; split; [reflexivity|]); unfold sim, act_sim; cbn [bs_x bs_f bs_g bs_act bs_radius bs_conv bs_reason]; splits; auto. }
  destruct (ab_inactive a) as [|i idx] eqn:IA.
  - destruct (n <=? 1)%nat; cbn [bind]; [|easy]. rewrite <- A2. apply K.
  - destruct (method _ _ _ _ _ _) as [st|]; cbn [bind]; [|easy].
    destruct (if Reqb r 0 then _ else _) as [[st' nm']|]; cbn [bind]; [|easy]. rewrite <- A2. apply K.
Qed.

(** C108.  Whenever bntr_fast returns, bntr returns the same (bounds are taken to hold for all indices, also
    the meaningless ones). *)
Theorem C108_bntr_fast_agrees fuel method n lin H lower upper x0 t maxiter k_gd r :
  (forall i, lower i <= x0 i <= upper i) ->
  bntr fuel true method n lin H lower upper x0 t maxiter k_gd = Ok r ->
  bntr fuel false method n lin H lower upper x0 t maxiter k_gd = Ok r.
Proof.
  intros B. assert (L : forall i, lower i <= upper i) by (intros i; specialize (B i); lra).
  unfold bntr. destruct (preliminary true _ _ _ _ _ _ _ _) as [s1|] eqn:P; cbn [bind]; [|easy].
  apply preliminary_fast in P; auto. destruct P as (s2 & -> & S & BS). cbn [bind].
  assert (IN : forall niter f_old fuel s1 s2 s1', sim lower upper s1 s2 -> boxed lower upper (bs_x s1) ->
    bntr_inner fuel true method n lin H lower upper t niter maxiter (bs_x s1) f_old s1 = Ok s1' ->
    exists s2', bntr_inner fuel false method n lin H lower upper t niter maxiter (bs_x s2) f_old s2 = Ok s2' /\
      sim lower upper s1' s2' /\ boxed lower upper (bs_x s1')).
  { intros niter f_old fu. induction fu as [|fu IH]; intros u1 u2 u1' SU BU; cbn [bntr_inner]; [easy|].
    destruct (bntr_pass true _ _ _ _ _ _ _ _ _ _ _ u1) as [[[w1 acc] stop]|] eqn:E; cbn [bind]; [|easy].
    apply bntr_pass_fast with (s2 := u2) in E; auto. destruct E as (w2 & -> & SW & BW & XW). cbn [bind].
    assert (EC : bs_conv w1 = bs_conv w2) by apply SW. rewrite <- EC.
    destruct (stop || acc || bs_conv w1) eqn:K.
    - intros Q; inversion Q; subst. eauto.
    - apply orb_false_iff in K. destruct K as [K _]. apply orb_false_iff in K. destruct K as [-> ->].
      specialize (XW eq_refl). assert (X2 : bs_x w2 = bs_x u2). { destruct SW as [<- _]. destruct SU as [<- _]. easy. }
      rewrite <- XW, <- X2. apply IH; auto. }
  assert (OU : forall k niter last s1 s2 s1' l, sim lower upper s1 s2 -> boxed lower upper (bs_x s1) ->
    bntr_outer k fuel true method n lin H lower upper t niter maxiter last s1 = Ok (s1', l) ->
    exists s2', bntr_outer k fuel false method n lin H lower upper t niter maxiter last s2 = Ok (s2', l) /\ sim lower upper s1' s2').
  { induction k as [|k IH]; intros niter last u1 u2 u1' l SU BU; cbn [bntr_outer].
    - intros Q; inversion Q; subst. eauto.
    - assert (EC : bs_conv u1 = bs_conv u2) by apply SU. rewrite <- EC. destruct (bs_conv u1).
      + intros Q; inversion Q; subst. eauto.
      + assert (EF : bs_f u1 = bs_f u2) by apply SU. rewrite <- EF.
        destruct (bntr_inner _ true _ _ _ _ _ _ _ _ _ _ _ u1) as [w1|] eqn:E; cbn [bind]; [|easy].
        apply IN with (s2 := u2) in E; auto. destruct E as (w2 & -> & SW & BW). cbn [bind]. apply IH; auto. }
  destruct (bntr_outer _ _ true _ _ _ _ _ _ _ _ _ _ s1) as [[w1 l]|] eqn:E; cbn [bind]; [|easy].
  apply OU with (s2 := s2) in E; auto. destruct E as (w2 & -> & SW). cbn [bind].
  destruct SW as (<- & <- & _ & _ & <- & <- & _). easy.
Qed.

(** Examples: the witness of C65 is a run satisfying the hypotheses of C61, C66 and C108. *)
Example ex_C61 : exists r, bntr 35 true (method_cg 0 0) 1 v_lin v_H v_lower v_upper fzero (mkTols (/ 10) 0 0) 20 1 = Ok r /\
  bntr 35 false (method_cg 0 0) 1 v_lin v_H v_lower v_upper fzero (mkTols (/ 10) 0 0) 20 1 = Ok r /\
  v_lower 0%nat <= br_x r 0%nat <= v_upper 0%nat /\ br_x r 0%nat = 200.
Proof.
  destruct (C65_criterion_refuted true (method_cg 0 0) 35 20 ltac:(lia)) as (r & E & _ & X & _).
  exists r. splits; [exact E| | | |exact X].
  - apply C108_bntr_fast_agrees; [|exact E]. intros i. unfold v_lower, v_upper, fzero. lra.
  - eapply (C61_bntr_feasible _ _ _ 1); [|exact E|lia]. intros i _. unfold v_lower, v_upper, fzero. lra.
  - eapply (C61_bntr_feasible _ _ _ 1); [|exact E|lia]. intros i _. unfold v_lower, v_upper, fzero. lra.
Qed.
Example ex_C66 : exists r, update_radius_cg true 0 2 (-3) 1 8 = Ok (r, false) /\ r = / 4.
Proof.
  eexists. split.
  - unfold update_radius_cg, divm, div. destruct (Rltb_spec 2 0); [lra|].
    replace (Rmax 1 (Rabs 0 * EPSILON)) with 1 by (rewrite Rabs_R0, Rmult_0_l, Rmax_left; lra).
    destruct (Rleb_spec (Rabs (-3)) 1) as [Q|_]; [rewrite Rabs_left in Q; lra|]. cbn [andb].
    destruct (Reqb_spec 2 0); [lra|]. cbn [bind xlt]. destruct (Rltb_spec (-3 / 2) (/ 10 ^ 4)) as [_|Q]; [reflexivity|].
    exfalso. apply Q. assert (0 < / 10 ^ 4) by (apply Rinv_0_lt_compat; lra). lra.
  - unfold clip_radius, min_radius, max_radius, Rmin, Rmax. repeat destruct (Rle_dec _ _); lra.
Qed.
