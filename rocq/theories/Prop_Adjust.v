(** Properties C20-C23 and C32-C35. *)
From Coq Require Import Reals List ZArith Bool Lra Lia Psatz.
From Verif Require Import Base XR Vec AdjustModel.
Import ListNotations.
Open Scope R_scope.

Lemma clip_range x lo hi : lo <= hi -> lo <= clip x lo hi <= hi.
Proof.
  intros. unfold clip. split.
  - apply Rmin_glb; [easy|apply Rmax_r].
  - apply Rmin_l.
Qed.

(** C20 - the updated radius lies within its limits. *)
Theorem C20_radius_in_limits :
  forall radius rho step_length o inc,
    min_radius o <= max_radius o -> isfinite (max_radius_to_step_ratio o) = false ->
    min_radius o <= adjust_radius radius rho step_length o inc <= max_radius o.
Proof.
  intros radius rho step o inc H1 H2. unfold adjust_radius.
  destruct (max_radius_to_step_ratio o); try discriminate; now apply clip_range.
Qed.

Example ex_C20 :
  min_radius default_radius_options <= max_radius default_radius_options /\
  isfinite (max_radius_to_step_ratio default_radius_options) = false.
Proof. split; [simpl; lra|reflexivity]. Qed.

(** "rho >= t" for a possibly infinite or NaN rho. *)
Definition rho_ge (rho : xr) (t : R) : Prop :=
  match rho with Fin r => t <= r | PInf => True | NInf | NaN => False end.

Lemma xge_rho rho t : xge rho (Fin t) = true <-> rho_ge rho t.
Proof. destruct rho; simpl; try easy. apply Rleb_true. Qed.

Lemma large_step_iff step radius l : 0 < radius ->
  xge (xdiv (Fin step) (Fin radius)) (Fin l) = true <-> l * radius <= step.
Proof.
  intros H. simpl. destruct (Reqb_spec radius 0); [lra|]. simpl. rewrite Rleb_true.
  split; intros.
  - apply (Rmult_le_compat_r radius) in H0; [|lra].
    unfold Rdiv in H0. rewrite Rmult_assoc, Rinv_l, Rmult_1_r in H0; lra.
  - apply (Rmult_le_reg_r radius); [lra|].
    unfold Rdiv. rewrite Rmult_assoc, Rinv_l, Rmult_1_r; lra.
Qed.

(** C21 - which way the radius moves. *)
Theorem C21_radius_direction :
  forall radius rho step_length o inc,
    0 < radius -> isfinite (max_radius_to_step_ratio o) = false ->
    exists raw,
      adjust_radius radius rho step_length o inc
        = Rmin (max_radius o) (Rmax raw (min_radius o)) /\
      (rho_ge rho (rho_increase o) /\ large_step o * radius <= step_length ->
         raw = radius * expansion_factor o) /\
      (~ (rho_ge rho (rho_increase o) /\ large_step o * radius <= step_length) ->
       rho_ge rho (rho_decrease o) \/ inc = true -> raw = radius) /\
      (~ (rho_ge rho (rho_increase o) /\ large_step o * radius <= step_length) ->
       ~ (rho_ge rho (rho_decrease o) \/ inc = true) -> raw = radius * shrinking_factor o).
Proof.
  intros radius rho step o inc Hr Hf.
  exists (raw_radius radius rho step o inc).
  split.
  { unfold adjust_radius. destruct (max_radius_to_step_ratio o); try discriminate; easy. }
  unfold raw_radius.
  rewrite <- (large_step_iff step radius) by easy.
  rewrite <- !xge_rho.
  set (a := xge rho (Fin (rho_increase o))).
  set (b := xge (xdiv (Fin step) (Fin radius)) (Fin (large_step o))).
  set (c := xge rho (Fin (rho_decrease o))).
  destruct a, b, c, inc; simpl; intuition congruence.
Qed.

(** C21, consequence: without a good rho a radius inside the limits never grows; and with
    default-like factors an expansion never shrinks it. *)
Theorem C21_no_growth_after_bad_step :
  forall radius rho step_length o inc,
    0 < radius -> isfinite (max_radius_to_step_ratio o) = false ->
    min_radius o <= radius <= max_radius o ->
    shrinking_factor o <= 1 ->
    ~ (rho_ge rho (rho_increase o) /\ large_step o * radius <= step_length) ->
    adjust_radius radius rho step_length o inc <= radius.
Proof.
  intros radius rho step o inc Hr Hf Hlim Hs Hn.
  destruct (C21_radius_direction radius rho step o inc Hr Hf) as (raw & E & H1 & H2 & H3).
  rewrite E.
  assert (raw <= radius).
  { destruct (xge rho (Fin (rho_decrease o))) eqn:D.
    - rewrite H2; [lra|easy|]. left. now apply xge_rho.
    - destruct inc.
      + rewrite H2; [lra|easy|now right].
      + rewrite H3; [nra|easy|]. intros [H|H]; [|discriminate].
        apply xge_rho in H. congruence. }
  apply Rle_trans with (Rmax raw (min_radius o)); [apply Rmin_r|].
  apply Rmax_lub; lra.
Qed.

(** With the default options: a rejected step (rho = -inf or NaN, step length 0) with an
    unchanged number of evaluations halves the radius, down to the minimum. *)
Theorem C21_default_rejection_halves :
  forall radius rho,
    min_radius default_radius_options <= radius <= max_radius default_radius_options ->
    ~ rho_ge rho (/ 10) ->
    adjust_radius radius rho 0 default_radius_options false
    = Rmax (radius / 2) (/ 1000000).
Proof.
  intros radius rho [H1 H2] Hr. cbn [min_radius max_radius default_radius_options] in *.
  assert (0 < radius) by lra.
  destruct (C21_radius_direction radius rho 0 default_radius_options false)
    as (raw & E & _ & _ & H3); [easy|easy|].
  rewrite E, H3; cbn [min_radius max_radius shrinking_factor rho_increase rho_decrease
                      default_radius_options] in *.
  - rewrite Rmin_right.
    + reflexivity.
    + apply Rmax_lub; lra.
  - tauto.
  - intros [?|?]; [tauto|discriminate].
Qed.

(** C22 - full statement: with a finite max_radius_to_step_ratio the radius stays
    >= min_radius.  True if the step is not too small: *)
Theorem C22_radius_positive_with_ratio_partial :
  forall radius rho step_length o inc r,
    max_radius_to_step_ratio o = Fin r ->
    min_radius o <= max_radius o -> min_radius o <= step_length * r ->
    min_radius o <= adjust_radius radius rho step_length o inc <= max_radius o.
Proof.
  intros radius rho step o inc r Hr H1 H2. unfold adjust_radius. rewrite Hr.
  assert (H : min_radius o <= Rmin (max_radius o) (step * r)) by now apply Rmin_glb.
  pose proof (clip_range (raw_radius radius rho step o inc) _ _ H).
  pose proof (Rmin_l (max_radius o) (step * r)). lra.
Qed.

(** ... false otherwise: every rejected step (step length 0) sets the radius to 0. *)
Theorem C22_radius_positive_with_ratio_refuted :
  forall radius rho o inc r,
    max_radius_to_step_ratio o = Fin r -> 0 <= min_radius o -> 0 <= max_radius o ->
    adjust_radius radius rho 0 o inc = 0.
Proof.
  intros radius rho o inc r Hr H1 H2. unfold adjust_radius, clip. rewrite Hr.
  rewrite Rmult_0_l, (Rmin_right (max_radius o) 0) by easy.
  apply Rmin_left. apply Rle_trans with (min_radius o); [easy|apply Rmax_r].
Qed.

Example C22_witness :
  let o := mkRadiusOptions (/ 1000000) 1000000 (/ 10) (/ 10) (/ 2) 2 (/ 2) (Fin 10) in
  adjust_radius 1 NInf 0 o false < min_radius o.
Proof.
  simpl. rewrite (C22_radius_positive_with_ratio_refuted 1 NInf _ false 10); simpl; lra || easy.
Qed.

(** C23 - full statement: the default initial radius lies in [min_radius, max_radius].
    True for start vectors of moderate size: *)
Lemma max_abs_spec x : (forall a, In a x -> Rabs a <= max_abs x) /\
  (x = [] \/ exists a, In a x /\ max_abs x = Rabs a).
Proof.
  induction x as [|b x [IH1 IH2]]; simpl.
  - split; [easy|now left].
  - split.
    + intros a [->|Ha]; [apply Rmax_l|].
      eapply Rle_trans; [apply IH1; easy|apply Rmax_r].
    + right. destruct IH2 as [->|(a & Ha & E)].
      * exists b. split; [now left|]. simpl. apply Rmax_left. apply Rabs_pos.
      * destruct (Rle_dec (Rabs b) (max_abs x)).
        -- exists a. split; [now right|]. rewrite Rmax_right; easy.
        -- exists b. split; [now left|]. apply Rmax_left. lra.
Qed.

Theorem C23_default_radius_usable_partial :
  forall x a, In a x -> / 100000 <= Rabs a ->
    (forall b, In b x -> Rabs b <= 10000000) ->
    min_radius default_radius_options <= default_initial_radius x
      <= max_radius default_radius_options.
Proof.
  intros x a Ha H1 H2. unfold default_initial_radius. simpl.
  destruct (max_abs_spec x) as [M1 M2].
  specialize (M1 a Ha). destruct M2 as [->|(b & Hb & E)]; [destruct Ha|].
  specialize (H2 b Hb). lra.
Qed.

Example ex_C23 : min_radius default_radius_options <= default_initial_radius [3; -5; 0]
      <= max_radius default_radius_options.
Proof.
  apply (C23_default_radius_usable_partial _ 3); simpl; auto.
  - rewrite Rabs_right; lra.
  - intros b [<-|[<-|[<-|[]]]]; unfold Rabs; destruct (Rcase_abs _); lra.
Qed.

(** ... false for the zero vector (radius 0), in every dimension. *)
Theorem C23_default_radius_usable_refuted :
  forall n, default_initial_radius (repeat 0 n) = 0.
Proof.
  intros n. unfold default_initial_radius.
  replace (max_abs (repeat 0 n)) with 0; [lra|].
  induction n; simpl; auto. rewrite <- IHn, Rabs_R0. symmetry. apply Rmax_left. lra.
Qed.

(** More than the share [s] of the simulated rhos is larger than [t]. *)
Definition share_exceeds (rho_noise : list xr) (t s : R) : Prop :=
  rho_noise <> [] /\
  s * INR (length rho_noise) < INR (length (filter (fun r => xgt r (Fin t)) rho_noise)).

Lemma share_above_iff rn t s :
  xgt (share_above t rn) (Fin s) = true <-> share_exceeds rn t s.
Proof.
  unfold share_above, share_exceeds.
  destruct rn as [|r0 rn'].
  - simpl. destruct (Reqb_spec 0 0); [|lra]. destruct (Reqb_spec 0 0); [|lra].
    split; [easy|]. intros [H _]. easy.
  - set (rn := r0 :: rn'). assert (P : 0 < INR (length rn)) by (apply lt_0_INR; simpl; lia).
    assert (rn <> []) by discriminate. clearbody rn.
    cbn [xdiv xgt xlt]. destruct (Reqb_spec (INR (length rn)) 0); [lra|].
    cbn [xgt xlt]. rewrite Rltb_true. split.
    + intros H'. split; [easy|]. apply (Rmult_lt_compat_r (INR (length rn))) in H'; [|easy].
      unfold Rdiv in H'. rewrite Rmult_assoc, Rinv_l, Rmult_1_r in H'; lra.
    + intros [_ H']. apply (Rmult_lt_reg_r (INR (length rn))); [easy|].
      unfold Rdiv. rewrite Rmult_assoc, Rinv_l, Rmult_1_r; lra.
Qed.

(** C34 - number of evaluations per point. *)
Theorem C34_n_evals_adjustment :
  forall n rho rho_noise o n' increased,
    (min_n_evals o <= n <= max_n_evals o)%Z ->
    adjust_n_evals n rho rho_noise o = (n', increased) ->
    (min_n_evals o <= n' <= max_n_evals o)%Z /\
    (n - 1 <= n' <= n + 1)%Z /\
    (increased = true <-> n' = n + 1)%Z /\
    (n' = n - 1 <-> min_n_evals o < n /\
                    share_exceeds rho_noise (high_rho o) (min_share_high_rho o))%Z /\
    (n' = n + 1 <-> n < max_n_evals o /\
                    ~ share_exceeds rho_noise (high_rho o) (min_share_high_rho o) /\
                    ~ share_exceeds rho_noise (low_rho o) (min_share_low_rho o) /\
                    ~ rho_ge rho (good_rho_threshold o))%Z.
Proof.
  intros n rho rn o n' inc Hn. unfold adjust_n_evals.
  rewrite <- !share_above_iff, <- xge_rho.
  destruct (xgt (share_above (high_rho o) rn) _);
  destruct (xgt (share_above (low_rho o) rn) _);
  destruct (xge rho (Fin (good_rho_threshold o))); simpl;
  intros H; injection H as <- <-;
  match goal with |- context [(n <? ?m)%Z] => destruct (Z.ltb_spec n m) end;
  repeat split; try discriminate; try lia; intuition (lia || congruence).
Qed.

Example ex_C34 :
  let o := mkNoiseOptions (6/10) (1/10) (7/10) (9/10) 1 30 (1/10) in
  (min_n_evals o <= 5 <= max_n_evals o)%Z /\
  adjust_n_evals 5 (Fin 0) [Fin 0; NaN; PInf] o = (6, true)%Z.
Proof.
  simpl. split; [lia|]. unfold adjust_n_evals, share_above. simpl.
  destruct (Rltb_spec (6/10) 0); [lra|].
  destruct (Rltb_spec (1/10) 0); [lra|]. simpl.
  destruct (Reqb_spec (1 + 1 + 1) 0); [lra|]. simpl.
  destruct (Rltb_spec (7/10) (1 / (1 + 1 + 1))); [lra|].
  destruct (Rltb_spec (9/10) (1 / (1 + 1 + 1))); [lra|].
  destruct (Rleb_spec (1/10) 0); [lra|]. reflexivity.
Qed.

(** C35 - next_multiple. *)
Lemma ceilR_spec x : IZR (ceilR x) - 1 < x <= IZR (ceilR x).
Proof.
  unfold ceilR. rewrite opp_IZR.
  destruct (base_Int_part (- x)) as [H1 H2]. lra.
Qed.

Theorem C35_next_multiple :
  forall n base, (0 < base)%Z ->
    (base | next_multiple n base)%Z /\
    (n <= next_multiple n base < n + base)%Z /\
    next_multiple 0 base = 0%Z.
Proof.
  assert (B : forall n base, (0 < base)%Z -> (n <= next_multiple n base < n + base)%Z).
  { intros n base Hb. unfold next_multiple.
    pose proof (ceilR_spec (IZR n / IZR base)) as [H1 H2].
    set (k := ceilR (IZR n / IZR base)) in *.
    assert (P : 0 < IZR base) by now apply IZR_lt.
    assert (E : IZR n = IZR n / IZR base * IZR base) by (field; lra).
    set (q := IZR n / IZR base) in *. clearbody q k.
    split.
    - apply le_IZR. rewrite mult_IZR, E. apply Rmult_le_compat_r; lra.
    - apply lt_IZR. rewrite mult_IZR, plus_IZR, E.
      replace (q * IZR base + IZR base) with ((q + 1) * IZR base) by ring.
      apply Rmult_lt_compat_r; lra. }
  intros n base Hb. split; [|split].
  - exists (ceilR (IZR n / IZR base)). reflexivity.
  - now apply B.
  - destruct (B 0%Z base Hb) as [H1 H2]. unfold next_multiple in *.
    set (k := ceilR (IZR 0 / IZR base)) in *. clearbody k.
    assert (k = 0 \/ k <= -1 \/ 1 <= k)%Z as [->|[?|?]] by lia; nia.
Qed.

(** C32 - limits of the acceptance sample sizes.  [existing_n1] is an integer count, sigma
    and the quantile sum are finite; the expected improvement may be infinite. *)
Lemma xclip_fin x lo hi : x <> NaN -> lo <= hi ->
  exists r, xclip x (Fin lo) (Fin hi) = Fin r /\ lo <= r <= hi.
Proof.
  intros Hx H. unfold xclip, xmin, xmax. destruct x as [a| | |]; [| | |easy].
  - simpl. destruct (Rleb_spec a lo).
    + simpl. destruct (Rleb_spec hi lo); eexists; split; try reflexivity; lra.
    + simpl. destruct (Rleb_spec hi a); eexists; split; try reflexivity; lra.
  - simpl. eexists; split; [reflexivity|lra].
  - simpl. destruct (Rleb_spec hi lo); eexists; split; try reflexivity; lra.
Qed.

Lemma ceilR_range x a b : IZR a <= x <= IZR b -> (a <= ceilR x <= b)%Z.
Proof.
  intros [H1 H2]. pose proof (ceilR_spec x) as [H3 H4]. split.
  - apply le_IZR. lra.
  - assert (ceilR x < b + 1)%Z; [|lia]. apply lt_IZR. rewrite plus_IZR. lra.
Qed.

Lemma factor_finite z m : m <> NaN -> xle (Fin (/ 100000000)) m = true ->
  exists f, compute_factor (Fin z) m = Fin f /\ 0 <= f /\
            (forall r, m = Fin r -> f = (z / r) * (z / r)).
Proof.
  intros Hm Hle. unfold compute_factor. destruct m as [r| | |]; simpl in *; try easy.
  - apply Rleb_true in Hle. destruct (Reqb_spec r 0); [lra|]. simpl.
    destruct (Reqb_spec r 0); [lra|]. unfold xsquare. simpl.
    eexists; split; [reflexivity|]. split; [nra|]. intros r' H. now injection H as <-.
  - unfold xsquare. simpl. eexists; split; [reflexivity|]. split; [nra|]. discriminate.
Qed.

Lemma sizes_not_nan s f n :
  0 <= s -> 0 <= f -> 0 <= n ->
  let n1o := s * (s + s) * f in
  n > n1o ->
  xmul (xsquare (Fin s)) (xdiv (Fin 1) (xsub (xdiv (Fin 1) (Fin f))
                                 (xdiv (xsquare (Fin s)) (Fin n)))) <> NaN.
Proof.
  intros Hs Hf Hn n1o Hgt. unfold n1o in Hgt.
  assert (Pn : 0 < n) by nra.
  unfold xsquare. simpl. destruct (Reqb_spec n 0); [lra|].
  destruct (Reqb_spec f 0) as [->|Nf].
  - destruct (Reqb_spec 1 0); [lra|].
    destruct (Rltb_spec 0 1); [|lra]. simpl. discriminate.
  - simpl. assert (Pf : 0 < f) by lra.
    assert (Q : 0 < 1 / f - s * s / n).
    { assert (s * s / n < 1 / f).
      { apply (Rmult_lt_reg_r (f * n)); [nra|].
        replace (s * s / n * (f * n)) with (s * s * f) by (field; lra).
        replace (1 / f * (f * n)) with n by (field; lra). nra. }
      lra. }
    replace (1 / f + - (s * s / n)) with (1 / f - s * s / n) by lra.
    destruct (Reqb_spec (1 / f - s * s / n) 0); [lra|]. simpl. discriminate.
Qed.

Theorem C32_acceptance_sample_sizes_in_limits :
  forall s existing ei z n_min n_max,
    0 <= s -> (0 <= existing)%Z -> ei <> NaN -> (0 <= n_min <= n_max)%Z ->
    exists n1 n2,
      get_acceptance_sample_sizes (Fin s) existing ei (Fin z) n_min n_max = Ok (n1, n2) /\
      (0 <= n1)%Z /\ (existing + n1 <= Z.max n_max existing)%Z /\
      (n_min <= n2 <= n_max)%Z.
Proof.
  intros s existing ei z n_min n_max Hs He Hei Hn.
  unfold get_acceptance_sample_sizes.
  assert (CL : xclip ei (Fin (/ 100000000)) PInf <> NaN /\
               xle (Fin (/ 100000000)) (xclip ei (Fin (/ 100000000)) PInf) = true).
  { unfold xclip, xmin, xmax. destruct ei as [e| | |]; simpl; try easy.
    - destruct (Rleb_spec e (/ 100000000)); simpl; split; try discriminate;
        apply Rleb_true; lra.
    - split; [discriminate|]. apply Rleb_true; lra. }
  destruct CL as [C1 C2].
  set (m := xclip ei (Fin (/ 100000000)) PInf) in *. clearbody m.
  destruct (factor_finite z m C1 C2) as (f & Ef & Pf & _).
  assert (Pe : 0 <= IZR existing) by now apply IZR_le.
  assert (NN : fst (optimal_sample_sizes (Fin s) (Fin s) (Fin (IZR existing)) m (Fin z)) <> NaN
            /\ snd (optimal_sample_sizes (Fin s) (Fin s) (Fin (IZR existing)) m (Fin z)) <> NaN).
  { unfold optimal_sample_sizes. rewrite Ef. cbn [xadd xmul xle].
    destruct (Rleb_spec (IZR existing) (s * (s + s) * f)).
    - cbn [fst snd]. split; simpl; discriminate.
    - cbn [fst snd]. split; [discriminate|]. apply sizes_not_nan; auto. lra. }
  destruct (optimal_sample_sizes _ _ _ _ _) as [n1r n2r]. cbn [fst snd] in NN.
  destruct NN as [N1 N2].
  destruct (xclip_fin n1r 0 (IZR (Z.max 0 (n_max - existing))) N1) as (r1 & E1 & B1).
  { apply IZR_le. lia. }
  destruct (xclip_fin n2r (IZR n_min) (IZR n_max) N2) as (r2 & E2 & B2).
  { apply IZR_le. lia. }
  rewrite E1, E2. simpl.
  exists (ceilR r1), (ceilR r2). split; [reflexivity|].
  apply (ceilR_range r1 0) in B1. apply ceilR_range in B2. lia.
Qed.

(** If the noise level is NaN (see C77) the noisy decider raises. *)
Theorem C32_nan_noise_raises :
  forall existing ei z n_min n_max,
    get_acceptance_sample_sizes NaN existing ei (Fin z) n_min n_max = Err ValueError.
Proof.
  intros. unfold get_acceptance_sample_sizes, optimal_sample_sizes.
  set (m := xclip ei _ _). set (f := compute_factor _ m).
  assert (M : forall x, xmul NaN x = NaN) by (intros []; reflexivity).
  assert (C : forall lo hi, xclip NaN lo hi = NaN)
    by (intros [] []; reflexivity).
  unfold xsquare. simpl xadd. rewrite !M. simpl xle. cbv iota.
  rewrite C.
  destruct (xclip_fin (Fin 0) 0 (IZR (Z.max 0 (n_max - existing)))) as (r & -> & _);
    [discriminate|apply IZR_le; lia|reflexivity].
Qed.

(** C33 - the raw sizes attain exactly the requested power. *)
Theorem C33_raw_sample_sizes_power :
  forall s m z existing n1 n2,
    0 < s -> / 100000000 <= m -> z <> 0 -> 0 <= existing ->
    optimal_sample_sizes (Fin s) (Fin s) (Fin existing) (Fin m) (Fin z) = (Fin n1, Fin n2) ->
    0 <= n1 /\ 0 < existing + n1 /\ 0 < n2 /\
    s * s / (existing + n1) + s * s / n2 = (m / z) * (m / z).
Proof.
  intros s m z existing n1 n2 Hs Hm Hz He. unfold optimal_sample_sizes, compute_factor.
  cbn [xeq]. destruct (Reqb_spec m 0); [lra|].
  cbn [xdiv]. destruct (Reqb_spec m 0); [lra|].
  unfold xsquare. cbn [xmul xadd xle xsub xopp].
  assert (Pm : 0 < m) by lra.
  set (f := z / m * (z / m)).
  assert (Pf : 0 < f).
  { unfold f. assert (z / m <> 0). { unfold Rdiv. apply Rmult_integral_contrapositive_currified; [easy|]. apply Rinv_neq_0_compat; lra. } nra. }
  assert (Ff : 1 / f = m / z * (m / z)) by (unfold f; field; lra).
  destruct (Rleb_spec existing (s * (s + s) * f)).
  - intros H. injection H as <- <-.
    assert (0 < s * (s + s) * f) by (apply Rmult_lt_0_compat; nra).
    repeat split; try lra.
    rewrite <- Ff. field. split; lra.
  - cbn [xdiv]. assert (0 < existing). { assert (0 < s * (s + s) * f) by (apply Rmult_lt_0_compat; nra). lra. }
    destruct (Reqb_spec existing 0); [lra|]. destruct (Reqb_spec f 0); [lra|].
    unfold xsub; cbn [xopp xadd].
    assert (Q : 0 < 1 / f - s * s / existing).
    { assert (s * s / existing < 1 / f).
      { apply (Rmult_lt_reg_r (f * existing)); [nra|].
        replace (s * s / existing * (f * existing)) with (s * s * f) by (field; lra).
        replace (1 / f * (f * existing)) with existing by (field; lra). nra. }
      lra. }
    replace (1 / f + - (s * s / existing)) with (1 / f - s * s / existing) by lra.
    destruct (Reqb_spec (1 / f - s * s / existing) 0); [lra|]. cbn [xmul].
    intros E. injection E as <- <-. rewrite Rplus_0_r.
    repeat split; try lra.
    + apply Rmult_lt_0_compat; [nra|]. unfold Rdiv. rewrite Rmult_1_l.
      now apply Rinv_0_lt_compat.
    + rewrite <- Ff.
      set (q := 1 / f - s * s / existing) in *.
      replace (s * s / (s * s * (1 / q))) with q by (field; lra).
      unfold q. lra.
Qed.

Example ex_C33 : exists n1 n2,
  optimal_sample_sizes (Fin 1) (Fin 1) (Fin 3) (Fin 1) (Fin 2) = (Fin n1, Fin n2).
Proof.
  unfold optimal_sample_sizes, compute_factor, xsquare. cbn [xeq].
  destruct (Reqb_spec 1 0); [lra|]. cbn [xdiv]. destruct (Reqb_spec 1 0); [lra|].
  cbn [xmul xadd xle xsub xopp]. destruct (Rleb_spec 3 (1 * (1 + 1) * (2 / 1 * (2 / 1)))); [|lra].
  eauto.
Qed.
