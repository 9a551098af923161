(** Properties C174 to C176: the acceptance decision in binary64 arithmetic. *)
From Coq Require Import Reals List Arith ZArith Bool Lia Lra Psatz Permutation.
From Flocq Require Import Core Relative Plus_error.
From Verif Require Import Base XR Vec VolumeModel AdjustModel FloatModel FloatProofs Prop_Float FloatAcceptModel.
Import ListNotations.
Open Scope R_scope.

(** * C174 - which candidates are accepted *)

(** The rounded difference of two floats has the sign of the difference. *)
Lemma rnd_diff_sign u v : generic_format radix2 b64_exp u -> generic_format radix2 b64_exp v ->
  (rnd (v - u) <= 0 <-> v <= u) /\ (rnd (v - u) = 0 <-> v = u).
Proof.
  intros Fu Fv.
  assert (Z : rnd (v - u) = 0 -> v = u).
  { intros H. unfold rnd, Rminus in H.
    apply round_plus_eq_0 in H; auto with typeclass_instances; try lra.
    now apply generic_format_opp. }
  split; split; intros H.
  - destruct (Rle_or_lt v u) as [|Hl]; [easy|].
    assert (0 <= rnd (v - u)) by (rewrite <- rnd_0; apply rnd_mono; lra).
    assert (rnd (v - u) = 0) by lra. apply Z in H1. lra.
  - rewrite <- rnd_0. apply rnd_mono. lra.
  - auto.
  - subst. rewrite Rminus_diag_eq by reflexivity. apply rnd_0.
Qed.

Lemma f_mean_one v : is_b64 v -> f_mean (SLeaf 0) [v] = v.
Proof.
  intros Fv. unfold f_mean. cbn [f_sum nth length INR]. unfold fdiv.
  destruct v as [v| | |]; cbn [xdiv].
  - destruct (Reqb_spec 1 0); [lra|]. cbn [flx]. replace (v / 1) with v by lra. now apply fl_fin.
  - rewrite (proj2 (Rleb_true 0 1)) by lra. reflexivity.
  - rewrite (proj2 (Rltb_false 1 0)) by lra. reflexivity.
  - reflexivity.
Qed.

(** The rounded improvement. *)
Lemma fsub_cases u v : is_b64 (Fin u) -> is_b64 (Fin v) ->
  (xopp (fsub (Fin v) (Fin u)) = Fin (rnd (u - v)) /\ Rabs (rnd (u - v)) < b64_max) \/
  (xopp (fsub (Fin v) (Fin u)) = PInf /\ b64_max <= rnd (u - v) /\ v < u) \/
  (xopp (fsub (Fin v) (Fin u)) = NInf /\ rnd (u - v) <= - b64_max /\ u < v).
Proof.
  intros Fu Fv. unfold fsub. cbn [xsub xopp xadd flx]. unfold fl.
  assert (E : rnd (v + - u) = - rnd (u - v)) by (rewrite <- rnd_opp; f_equal; lra).
  rewrite E, Rabs_Ropp. destruct (Rltb (Rabs (rnd (u - v))) b64_max) eqn:B.
  - left. cbn [xopp]. apply Rltb_true in B. split; [f_equal; lra|easy].
  - right. apply Rltb_false in B. pose proof b64_max_pos.
    destruct (Rltb 0 (v + - u)) eqn:C; cbn [xsign_inf xopp].
    + apply Rltb_true in C. right. split; [easy|].
      assert (rnd (u - v) <= 0) by (rewrite <- rnd_0; apply rnd_mono; lra).
      rewrite Rabs_left1 in B by easy. split; lra.
    + apply Rltb_false in C. left. split; [easy|].
      assert (0 <= rnd (u - v)) by (rewrite <- rnd_0; apply rnd_mono; lra).
      rewrite Rabs_pos_eq in B by easy. split; [lra|].
      destruct (Req_dec u v) as [->|]; [|lra].
      rewrite Rminus_diag_eq, rnd_0 in B by reflexivity. lra.
Qed.

Lemma accepted_iff u v e mi : is_b64 (Fin u) -> is_b64 (Fin v) -> Rabs mi < b64_max ->
  fd_accepted (f_decide (Fin v) (Fin u) (Fin u) e mi) = true <-> mi <= rnd (u - v).
Proof.
  intros Fu Fv Hm. unfold f_decide. cbn [isfinite fd_accepted].
  apply Rabs_def2 in Hm as [M1 M2].
  destruct (fsub_cases u v Fu Fv) as [[-> B]|[(-> & B & C)|(-> & B & C)]]; unfold xge; cbn [xle].
  - now rewrite Rleb_true.
  - split; intros; [lra|easy].
  - split; intros; [easy|lra].
Qed.

(** With [min_improvement] 0, its default, the decision of the classic decider is not affected by
    rounding: a finite candidate is accepted iff its value is not larger than the current one. *)
Theorem C174_no_minimum : forall u v e,
  is_b64 (Fin u) -> is_b64 (Fin v) ->
  let d := f_accept_simple (SLeaf 0) [Fin v] (Fin u) e 0 in
  (fd_accepted d = true <-> v <= u) /\
  fd_fval d = Fin (Rmin v u).
Proof.
  intros u v e Fu Fv. cbv zeta. unfold f_accept_simple. rewrite f_mean_one by easy.
  assert (A : fd_accepted (f_decide (Fin v) (Fin u) (Fin u) e 0) = true <-> v <= u).
  { rewrite accepted_iff by (try rewrite Rabs_R0; auto using b64_max_pos).
    destruct (rnd_diff_sign u v (proj1 Fu) (proj1 Fv)) as [S _].
    rewrite <- S. replace (v - u) with (- (u - v)) by lra. rewrite rnd_opp. lra. }
  split; [exact A|]. unfold f_decide in *. cbn [isfinite fd_accepted fd_fval] in *.
  destruct (xge _ _) eqn:X.
  - f_equal. apply proj1 in A. specialize (A eq_refl). rewrite Rmin_left; easy.
  - f_equal. destruct (Rle_or_lt v u) as [H|H]; [apply A in H; discriminate|]. rewrite Rmin_right; lra.
Qed.

(** With another minimum: accepted values are not larger than the current one, improvements of at
    least the minimum are accepted, and the improvement of an accepted value is at least the
    minimum up to half the distance to the next smaller float. *)
Theorem C174_minimum_partial : forall u v e mi,
  is_b64 (Fin u) -> is_b64 (Fin v) -> is_b64 (Fin mi) ->
  let d := f_accept_simple (SLeaf 0) [Fin v] (Fin u) e mi in
  (mi <= u - v -> fd_accepted d = true) /\
  (fd_accepted d = true -> fd_fval d = Fin v /\ (pred radix2 b64_exp mi + mi) / 2 <= u - v /\ (0 <= mi -> v <= u)).
Proof.
  intros u v e mi Fu Fv Fm. cbv zeta. unfold f_accept_simple. rewrite f_mean_one by easy.
  pose proof (accepted_iff u v e mi Fu Fv (proj2 Fm)) as A. split.
  - intros H. apply A. now apply rnd_ge_format; [apply Fm|].
  - intros H. split.
    + unfold f_decide in *. cbn [isfinite fd_accepted fd_fval] in *. now rewrite H.
    + apply A in H. split.
      * destruct (Rle_or_lt ((pred radix2 b64_exp mi + mi) / 2) (u - v)) as [|L]; [easy|].
        assert (Q : rnd (u - v) <= pred radix2 b64_exp mi).
        { apply round_N_down.
          - apply generic_format_pred; auto with typeclass_instances. apply Fm.
          - rewrite succ_pred; auto with typeclass_instances. apply Fm. }
        destruct (Req_dec mi 0) as [->|Hz].
        -- rewrite pred_0 in *. pose proof (ulp_ge_0 radix2 b64_exp 0).
           assert (0 < ulp radix2 b64_exp 0).
           { unfold b64_exp. rewrite ulp_FLT_0; [apply bpow_gt_0|exact prec53]. }
           lra.
        -- pose proof (pred_lt_id radix2 b64_exp mi Hz). lra.
      * intros Hm. destruct (rnd_diff_sign u v (proj1 Fu) (proj1 Fv)) as [S _]. apply S.
        replace (v - u) with (- (u - v)) by lra. rewrite rnd_opp. lra.
Qed.

(** 2^53 and its predecessor 2^53 - 1. *)
Definition two53 : R := bpow radix2 53.
Lemma two53_b64 : is_b64 (Fin two53).
Proof. apply big_is_b64. lia. Qed.
Lemma two53_ge : 4 <= two53.
Proof. unfold two53. change 4 with (bpow radix2 2). apply bpow_le. lia. Qed.
Lemma quarter_b64 : is_b64 (Fin (/ 4)).
Proof. apply (dyadic_b64 1 (-2)); [lia|lia|]. simpl. lra. Qed.

(** The improvement from 2^53 to 1/4 is less than 2^53, but is rounded to 2^53. *)
Theorem C174_minimum_refuted : exists u v mi,
  is_b64 (Fin u) /\ is_b64 (Fin v) /\ is_b64 (Fin mi) /\
  fd_accepted (f_accept_simple (SLeaf 0) [Fin v] (Fin u) (Fin 1) mi) = true /\ u - v < mi.
Proof.
  exists two53, (/ 4), two53. split; [apply two53_b64|]. split; [apply quarter_b64|]. split; [apply two53_b64|].
  split; [|lra]. unfold f_accept_simple. rewrite f_mean_one by apply quarter_b64.
  apply accepted_iff; [apply two53_b64|apply quarter_b64|apply two53_b64|].
  apply round_N_up; [apply two53_b64|].
  unfold two53. rewrite pred_bpow.
  change (b64_exp 53) with 0%Z. simpl (bpow radix2 0). lra.
Qed.

(** A candidate one unit in the last place below 1 is accepted, one above is not; with minimum
    1/4 the value 1/2 is accepted. *)
Example C174_instance :
  fd_accepted (f_accept_simple (SLeaf 0) [Fin (1 - bpow radix2 (-53))] (Fin 1) (Fin 1) 0) = true /\
  fd_accepted (f_accept_simple (SLeaf 0) [Fin (1 + bpow radix2 (-52))] (Fin 1) (Fin 1) 0) = false /\
  fd_accepted (f_accept_simple (SLeaf 0) [Fin (/ 2)] (Fin 1) (Fin 1) (/ 4)) = true.
Proof.
  assert (B1 : is_b64 (Fin 1)) by apply (small_int_b64 1 ltac:(lia)).
  assert (Q52 : 1 = IZR (2 ^ 52) * bpow radix2 (-52)) by (simpl; lra).
  assert (Q53 : 1 = IZR (2 ^ 53) * bpow radix2 (-53)) by (simpl; lra).
  assert (B2 : is_b64 (Fin (1 - bpow radix2 (-53)))).
  { apply (dyadic_b64 (2 ^ 53 - 1) (-53)); [lia|lia|]. rewrite minus_IZR. lra. }
  assert (B3 : is_b64 (Fin (1 + bpow radix2 (-52)))).
  { apply (dyadic_b64 (2 ^ 52 + 1) (-52)); [lia|lia|]. rewrite plus_IZR. lra. }
  assert (B4 : is_b64 (Fin (/ 2))) by (apply (dyadic_b64 1 (-1)); [lia|lia|]; simpl; lra).
  pose proof (bpow_gt_0 radix2 (-53)). pose proof (bpow_gt_0 radix2 (-52)).
  split; [|split].
  - apply C174_no_minimum; [easy|easy|lra].
  - destruct (C174_no_minimum 1 (1 + bpow radix2 (-52)) (Fin 1) B1 B3) as [[A _] _].
    destruct (fd_accepted _); [|easy]. specialize (A eq_refl). lra.
  - apply C174_minimum_partial; [easy|easy|apply quarter_b64|lra].
Qed.

(** * C175 - rho *)

Lemma fdiv_fin a e : e <> 0 -> fdiv (Fin a) (Fin e) = fl (a / e).
Proof. intros H. unfold fdiv. cbn [xdiv]. destruct (Reqb_spec e 0); easy. Qed.

Lemma zero_le_fl x : 0 <= x -> xle (Fin 0) (fl x) = true.
Proof. intros. apply fl_ge; [apply zero_b64|easy]. Qed.
Lemma fl_le_zero x : x <= 0 -> xle (fl x) (Fin 0) = true.
Proof. intros. apply fl_le; [apply zero_b64|easy]. Qed.

(** rho is never NaN and does not have the wrong sign; a threshold reached by the ratio of the
    rounded improvement and the expected improvement is reached by rho. *)
Theorem C175_rho_sign_partial : forall u v e mi,
  is_b64 (Fin u) -> is_b64 (Fin v) -> is_b64 (Fin e) -> 0 <= e ->
  let rho := fd_rho (f_accept_simple (SLeaf 0) [Fin v] (Fin u) (Fin e) mi) in
  rho <> NaN /\
  (0 < e -> v <= u -> xge rho (Fin 0) = true) /\
  (0 < e -> u <= v -> xge (Fin 0) rho = true) /\
  (e = 0 -> rho = if Rltb v u then PInf else NInf) /\
  (forall t, is_b64 (Fin t) -> 0 <= t -> 0 < e -> t * e <= rnd (u - v) -> xge rho (Fin t) = true).
Proof.
  intros u v e mi Fu Fv Fe He. cbv zeta. unfold f_accept_simple. rewrite f_mean_one by easy.
  unfold f_decide. cbn [isfinite fd_rho].
  destruct (rnd_diff_sign u v (proj1 Fu) (proj1 Fv)) as [_ Sz].
  assert (Sn : rnd (v - u) = - rnd (u - v)) by (rewrite <- rnd_opp; f_equal; lra).
  assert (Sg : v < u -> 0 < rnd (u - v)).
  { intros L. assert (0 <= rnd (u - v)) by (rewrite <- rnd_0; apply rnd_mono; lra).
    destruct (Req_dec (rnd (u - v)) 0) as [Q|]; [|lra]. rewrite Q in Sn. assert (v = u) by (apply Sz; lra). lra. }
  assert (Sl : u <= v -> rnd (u - v) <= 0) by (intros; rewrite <- rnd_0; apply rnd_mono; lra).
  unfold f_calculate_rho. cbn [xeq].
  destruct (Reqb_spec e 0) as [E0|E0]; cbn [andb].
  - subst e. assert (T : (if xgt (xopp (fsub (Fin v) (Fin u))) (Fin 0) then PInf else NInf) = if Rltb v u then PInf else NInf).
    { destruct (Rltb v u) eqn:L; [apply Rltb_true in L|apply Rltb_false in L];
        destruct (fsub_cases u v Fu Fv) as [[-> B]|[(-> & B & C)|(-> & B & C)]]; unfold xgt; cbn [xlt]; try easy; try lra.
      - rewrite (proj2 (Rltb_true _ _)); [easy|]. now apply Sg.
      - rewrite (proj2 (Rltb_false _ _)); [easy|]. now apply Sl. }
    rewrite T. split; [destruct (Rltb v u); discriminate|].
    repeat split; intros; try lra.
  - assert (P : 0 < e) by lra.
    assert (Pi : 0 < / e) by now apply Rinv_0_lt_compat.
    destruct (fsub_cases u v Fu Fv) as [[-> B]|[(-> & B & C)|(-> & B & C)]].
    + rewrite fdiv_fin by easy. split; [apply fl_not_nan|]. unfold xge. split; [|split; [|split]].
      * intros _ L. apply zero_le_fl. destruct L as [L| ->]; [specialize (Sg L); unfold Rdiv; nra|].
        rewrite Rminus_diag_eq, rnd_0 by reflexivity. unfold Rdiv. lra.
      * intros _ L. apply fl_le_zero. specialize (Sl L). unfold Rdiv. nra.
      * intros; lra.
      * intros t Ft _ _ Ht. apply fl_ge; [easy|]. apply Rmult_le_reg_r with e; [easy|].
        unfold Rdiv. rewrite Rmult_assoc, Rinv_l by lra. lra.
    + unfold fdiv. cbn [xdiv]. rewrite (proj2 (Rleb_true 0 e)) by lra. cbn.
      repeat split; try discriminate; intros; try lra; easy.
    + unfold fdiv. cbn [xdiv]. rewrite (proj2 (Rltb_false e 0)) by lra. cbn.
      pose proof b64_max_pos.
      split; [discriminate|]. split; [intros; lra|]. split; [easy|]. split; [intros; lra|].
      intros t _ Ft _ Ht. exfalso. nra.
Qed.

(** The sign can be lost: the improvement 2^-1074 over an expectation of 4 has rho 0. *)
Theorem C175_rho_sign_refuted : exists u v e,
  is_b64 (Fin u) /\ is_b64 (Fin v) /\ is_b64 (Fin e) /\ 0 < e /\ v < u /\
  fd_rho (f_accept_simple (SLeaf 0) [Fin v] (Fin u) (Fin e) 0) = Fin 0.
Proof.
  exists (bpow radix2 (-1074)), 0, 4.
  assert (Fu : is_b64 (Fin (bpow radix2 (-1074)))) by (apply big_is_b64; lia).
  pose proof zero_b64 as Fz.
  split; [easy|]. split; [easy|]. split; [apply (small_int_b64 4); lia|]. split; [lra|].
  pose proof (bpow_gt_0 radix2 (-1074)) as P. split; [easy|].
  unfold f_accept_simple. rewrite f_mean_one by easy. unfold f_decide. cbn [isfinite fd_rho].
  unfold f_calculate_rho. cbn [xeq]. destruct (Reqb_spec 4 0); [lra|]. cbn [andb].
  assert (E : rnd (bpow radix2 (-1074) - 0) = bpow radix2 (-1074)) by (rewrite Rminus_0_r; apply rnd_id, Fu).
  assert (M : bpow radix2 (-1074) < b64_max) by (apply bpow_lt; lia).
  pose proof b64_max_pos.
  destruct (fsub_cases _ _ Fu Fz) as [[-> B]|[(-> & B & C)|(-> & B & C)]]; rewrite E in *; try lra.
  rewrite fdiv_fin by easy.
  assert (Z : rnd (bpow radix2 (-1074) / 4) = 0).
  { apply Rle_antisym.
    - apply round_N_down; [apply Fz|]. rewrite succ_0.
      assert (U : ulp radix2 b64_exp 0 = bpow radix2 (-1074)) by (apply ulp_FLT_0, prec53).
      rewrite U. lra.
    - rewrite <- rnd_0 at 1. apply rnd_mono. lra. }
  rewrite fl_small; rewrite Z; [easy|]. now rewrite Rabs_R0.
Qed.

(** Without overflow and underflow rho is the ratio up to a relative error of 2^-52. *)
Theorem C175_rho_accuracy : forall u v e mi,
  is_b64 (Fin u) -> is_b64 (Fin v) -> is_b64 (Fin e) -> 0 < e ->
  Rabs (u - v) <= bpow radix2 1023 ->
  bpow radix2 (-1021) <= Rabs ((u - v) / e) <= bpow radix2 1022 ->
  exists rho, fd_rho (f_accept_simple (SLeaf 0) [Fin v] (Fin u) (Fin e) mi) = Fin rho /\
    Rabs (rho - (u - v) / e) <= bpow radix2 (-52) * Rabs ((u - v) / e).
Proof.
  intros u v e mi Fu Fv Fe He B1 [B2 B3].
  unfold f_accept_simple. rewrite f_mean_one by easy. unfold f_decide. cbn [isfinite fd_rho].
  unfold f_calculate_rho. cbn [xeq]. destruct (Reqb_spec e 0); [lra|]. cbn [andb].
  set (q := (u - v) / e) in *. set (h := bpow radix2 (-53)).
  assert (Hh : 0 < h) by apply bpow_gt_0. assert (Hh4 : h < / 4) by (unfold h; simpl; lra).
  assert (H52 : bpow radix2 (-52) = 2 * h) by (unfold h; simpl; lra).
  assert (Uro : u_ro radix2 53 = h) by (unfold u_ro, h; simpl; lra).
  (* the difference *)
  destruct (FLT_plus_error_N_ex radix2 (-1074) 53 (fun z => negb (Z.even z)) u (- v)) as (d1 & D1 & E1).
  { exact (proj1 Fu). } { apply generic_format_opp. exact (proj1 Fv). }
  rewrite Uro in D1. change (rnd (u + - v) = (u + - v) * (1 + d1)) in E1. fold (u - v) in E1.
  assert (C1 : Rabs (rnd (u - v)) < b64_max).
  { apply Rle_lt_trans with (bpow radix2 1023); [|apply bpow_lt; lia].
    apply rnd_abs_le; [apply format_bpow; lia|easy]. }
  destruct (fsub_cases u v Fu Fv) as [[-> _]|[(_ & X & _)|(_ & X & _)]].
  2,3: apply Rabs_def2 in C1; lra.
  rewrite fdiv_fin by easy.
  assert (Eq : rnd (u - v) / e = q * (1 + d1)) by (rewrite E1; unfold q; field; lra).
  assert (Dh : Rabs d1 <= h).
  { eapply Rle_trans; [exact D1|]. apply Rmult_le_reg_r with (1 + h); [lra|].
    unfold Rdiv. rewrite Rmult_assoc, Rinv_l by lra. nra. }
  assert (Dh' : - h <= d1 <= h) by (split; [pose proof (Rle_abs (- d1)); rewrite Rabs_Ropp in *; lra|pose proof (Rle_abs d1); lra]).
  assert (A1 : Rabs (q * (1 + d1)) = Rabs q * (1 + d1)) by (rewrite Rabs_mult, (Rabs_pos_eq (1 + d1)); lra).
  pose proof (bpow_gt_0 radix2 (-1022)) as P22.
  assert (D22 : bpow radix2 (-1021) = 2 * bpow radix2 (-1022)) by (rewrite bpow_double; easy).
  assert (D23 : bpow radix2 1023 = 2 * bpow radix2 1022) by (rewrite bpow_double; easy).
  assert (Q0 : 0 < Rabs q) by lra.
  destruct (relative_error_N_FLT_ex radix2 (-1074) 53 prec53 (fun z => negb (Z.even z)) (q * (1 + d1))) as (d2 & D2 & E2).
  { rewrite A1. apply Rle_trans with (Rabs q * / 2); [|apply Rmult_le_compat_l; lra]. 
    change (-1074 + 53 - 1)%Z with (-1022)%Z. lra. }
  assert (Hd2 : Rabs d2 <= h) by (eapply Rle_trans; [exact D2|]; unfold h; simpl; lra).
  change (rnd (q * (1 + d1)) = q * (1 + d1) * (1 + d2)) in E2.
  exists (rnd (q * (1 + d1))). rewrite Eq. split.
  - apply fl_small. apply Rle_lt_trans with (bpow radix2 1023); [|apply bpow_lt; lia].
    apply rnd_abs_le; [apply format_bpow; lia|]. rewrite A1, D23. nra.
  - rewrite E2. replace (q * (1 + d1) * (1 + d2) - q) with (q * (d1 + d2 + d1 * d2)) by ring.
    rewrite Rabs_mult, (Rmult_comm (Rabs q)). apply Rmult_le_compat_r; [lra|].
    rewrite H52. 
    assert (T : Rabs (d1 + d2 + d1 * d2) <= Rabs d1 * (1 + h) + h).
    { eapply Rle_trans; [apply Rabs_triang|]. rewrite Rabs_mult.
      pose proof (Rabs_triang d1 d2). pose proof (Rabs_pos d1). nra. }
    assert (K : Rabs d1 * (1 + h) <= h).
    { apply Rle_trans with (h / (1 + h) * (1 + h)); [apply Rmult_le_compat_r; lra|]. right. field. lra. }
    lra.
Qed.

(** A rejected candidate shrinks the radius also in binary64, for the default minimum 0 and a
    positive [rho_decrease]. *)
Theorem C175_rejection_shrinks : forall u v e r s o,
  is_b64 (Fin u) -> is_b64 (Fin v) -> is_b64 (Fin e) -> 0 <= e ->
  0 < rho_decrease o -> 0 < rho_increase o -> max_radius_to_step_ratio o = PInf ->
  let d := f_accept_simple (SLeaf 0) [Fin v] (Fin u) (Fin e) 0 in
  fd_accepted d = false ->
  f_adjust_radius r (fd_rho d) s o false =
    xclip (fmul r (Fin (shrinking_factor o))) (Fin (min_radius o)) (Fin (max_radius o)).
Proof.
  intros u v e r s o Fu Fv Fe He Hd Hi Hm. cbv zeta. intros R.
  destruct (C174_no_minimum u v (Fin e) Fu Fv) as [A _].
  assert (L : u < v).
  { destruct (Rle_or_lt v u) as [H|H]; [|easy]. apply A in H. congruence. }
  destruct (C175_rho_sign_partial u v e 0 Fu Fv Fe He) as (N & _ & S & Z & _).
  assert (P : xge (Fin 0) (fd_rho (f_accept_simple (SLeaf 0) [Fin v] (Fin u) (Fin e) 0)) = true).
  { destruct (Rle_lt_or_eq_dec 0 e He) as [H|H]; [apply S; lra|].
    rewrite Z by easy. rewrite (proj2 (Rltb_false v u)) by lra. easy. }
  unfold f_adjust_radius. rewrite Hm.
  destruct (fd_rho _) as [rho| | |]; try easy; unfold xge in *; cbn [xle] in *.
  - apply Rleb_true in P. rewrite (proj2 (Rleb_false (rho_increase o) rho)), (proj2 (Rleb_false (rho_decrease o) rho)) by lra.
    reflexivity.
Qed.


(** A candidate of value 3 at the value 2, with expected improvement 1: rejected, rho is -1. *)
Example C175_instance :
  let d := f_accept_simple (SLeaf 0) [Fin 3] (Fin 2) (Fin 1) 0 in
  fd_accepted d = false /\ xge (Fin 0) (fd_rho d) = true /\
  exists rho, fd_rho d = Fin rho /\ Rabs (rho - -1) <= bpow radix2 (-52).
Proof.
  cbv zeta.
  assert (B1 : is_b64 (Fin 1)) by apply (small_int_b64 1 ltac:(lia)).
  assert (B2 : is_b64 (Fin 2)) by apply (small_int_b64 2 ltac:(lia)).
  assert (B3 : is_b64 (Fin 3)) by apply (small_int_b64 3 ltac:(lia)).
  split; [|split].
  - destruct (C174_no_minimum 2 3 (Fin 1) B2 B3) as [[A _] _]. destruct (fd_accepted _); [|easy]. specialize (A eq_refl). lra.
  - destruct (C175_rho_sign_partial 2 3 1 0 B2 B3 B1 ltac:(lra)) as (_ & _ & S & _). apply S; lra.
  - assert (E : Rabs ((2 - 3) / 1) = 1) by (replace ((2 - 3) / 1) with (-(1)) by lra; rewrite Rabs_Ropp; apply Rabs_R1).
    destruct (C175_rho_accuracy 2 3 1 0 B2 B3 B1) as (rho & Q & B); [lra| | |].
    + replace (2 - 3) with (-(1)) by lra. rewrite Rabs_Ropp, Rabs_R1. change 1 with (bpow radix2 0). apply bpow_le. lia.
    + rewrite E. split; change 1 with (bpow radix2 0); apply bpow_le; lia.
    + exists rho. split; [easy|]. rewrite E in B. replace ((2 - 3) / 1) with (-1) in B by lra. lra.
Qed.

(** * C176 - the mean of several values *)

Definition rsum (xs : list R) : R := fold_right Rplus 0 xs.
Fixpoint depth (t : sum_tree) : nat :=
  match t with SLeaf _ => 0%nat | SNode a b => S (Nat.max (depth a) (depth b)) end.

(** 2^-53 *)
Definition unit_roundoff : R := bpow radix2 (-53).
Lemma unit_roundoff_pos : 0 < unit_roundoff.
Proof. apply bpow_gt_0. Qed.

Definition leaf_sum (f : R -> R) (t : sum_tree) (xs : list R) : R :=
  rsum (map (fun i => f (nth i xs 0)) (leaves t)).
Lemma rsum_app xs ys : rsum (xs ++ ys) = rsum xs + rsum ys.
Proof. unfold rsum. induction xs as [|x xs IH]; cbn [app fold_right]; lra. Qed.
Lemma leaf_sum_node f a b xs : leaf_sum f (SNode a b) xs = leaf_sum f a xs + leaf_sum f b xs.
Proof. unfold leaf_sum. cbn [leaves]. now rewrite map_app, rsum_app. Qed.
Lemma leaf_sum_abs_ge t xs : Rabs (leaf_sum (fun x => x) t xs) <= leaf_sum Rabs t xs.
Proof.
  unfold leaf_sum, rsum. induction (leaves t) as [|i l IH]; cbn [map fold_right]; [rewrite Rabs_R0; lra|].
  eapply Rle_trans; [apply Rabs_triang|]. lra.
Qed.
Lemma leaf_sum_perm f t xs : Permutation (leaves t) (seq 0 (length xs)) -> leaf_sum f t xs = rsum (map f xs).
Proof.
  intros P. unfold leaf_sum.
  assert (Q : Permutation (map (fun i => f (nth i xs 0)) (leaves t)) (map f xs)).
  { etransitivity; [apply Permutation_map; exact P|]. clear P.
    replace (map f xs) with (map (fun i => f (nth i xs 0)) (seq 0 (length xs))); [reflexivity|].
    rewrite <- (map_map (fun i => nth i xs 0) f). f_equal.
    induction xs as [|x xs IH]; [easy|]. cbn [length seq map nth]. f_equal.
    rewrite <- seq_shift, map_map. exact IH. }
  revert Q. generalize (map (fun i => f (nth i xs 0)) (leaves t)) (map f xs).
  intros l k Q. unfold rsum. induction Q; cbn [fold_right] in *; lra.
Qed.

Lemma fadd_fin_inv a b s : fadd a b = Fin s -> exists x y, a = Fin x /\ b = Fin y /\ s = rnd (x + y).
Proof.
  unfold fadd. destruct a as [x| | |], b as [y| | |]; cbn [xadd flx]; try discriminate.
  intros H. exists x, y. split; [easy|]. split; [easy|]. unfold fl in H.
  destruct (Rltb _ _); [congruence|]. destruct (Rltb 0 (x + y)); discriminate.
Qed.

Lemma f_sum_b64 t xs : Forall (fun x => is_b64 (Fin x)) xs -> is_b64 (f_sum t (map Fin xs)).
Proof.
  intros F. induction t as [i|a IHa b IHb]; cbn [f_sum].
  - change (Fin 0) with (Fin 0). rewrite map_nth.
    destruct (Nat.lt_ge_cases i (length xs)) as [L|L].
    + rewrite Forall_forall in F. apply F. now apply nth_In.
    + rewrite nth_overflow by easy. apply zero_b64.
  - unfold fadd. destruct (xadd _ _); cbn [flx]; try easy. apply fl_b64.
Qed.

Lemma f_sum_error t xs s : Forall (fun x => is_b64 (Fin x)) xs -> f_sum t (map Fin xs) = Fin s ->
  Rabs (s - leaf_sum (fun x => x) t xs) <= ((1 + unit_roundoff) ^ depth t - 1) * leaf_sum Rabs t xs.
Proof.
  intros F. revert s. induction t as [i|a IHa b IHb]; intros s H.
  - cbn [f_sum] in H. rewrite map_nth in H. injection H as H. unfold leaf_sum, rsum. cbn [leaves map fold_right depth pow].
    rewrite H. replace (s - (s + 0)) with 0 by lra. rewrite Rabs_R0. lra.
  - cbn [f_sum] in H. apply fadd_fin_inv in H as (x & y & Ha & Hb & Hs).
    specialize (IHa x Ha). specialize (IHb y Hb).
    pose proof (f_sum_b64 a xs F) as Fa. pose proof (f_sum_b64 b xs F) as Fb. rewrite Ha in Fa. rewrite Hb in Fb.
    rewrite !leaf_sum_node. pose proof (leaf_sum_abs_ge a xs) as Pa. pose proof (leaf_sum_abs_ge b xs) as Pb.
    set (A := leaf_sum (fun x => x) a xs) in *. set (B := leaf_sum (fun x => x) b xs) in *.
    set (A' := leaf_sum Rabs a xs) in *. set (B' := leaf_sum Rabs b xs) in *.
    pose proof unit_roundoff_pos as Hu. set (h := unit_roundoff) in *.
    destruct (FLT_plus_error_N_ex radix2 (-1074) 53 (fun z => negb (Z.even z)) x y (proj1 Fa) (proj1 Fb)) as (d & D & E).
    change (rnd (x + y) = (x + y) * (1 + d)) in E.
    assert (Uro : u_ro radix2 53 = h) by (unfold u_ro, h, unit_roundoff; simpl; lra).
    rewrite Uro in D.
    assert (Dh : Rabs d <= h).
    { eapply Rle_trans; [exact D|]. apply Rmult_le_reg_r with (1 + h); [lra|].
      unfold Rdiv. rewrite Rmult_assoc, Rinv_l by lra. nra. }
    rewrite Hs, E. cbn [depth]. set (m := Nat.max (depth a) (depth b)).
    set (K := (1 + h) ^ m).
    assert (Ka : (1 + h) ^ depth a <= K) by (apply Rle_pow; [lra|apply Nat.le_max_l]).
    assert (Kb : (1 + h) ^ depth b <= K) by (apply Rle_pow; [lra|apply Nat.le_max_r]).
    assert (K1 : 1 <= K) by (apply pow_R1_Rle; lra).
    change ((1 + h) ^ S m) with ((1 + h) * K).
    assert (Ta : Rabs (x - A) <= (K - 1) * A') by (pose proof (Rabs_pos A); nra).
    assert (Tb : Rabs (y - B) <= (K - 1) * B') by (pose proof (Rabs_pos B); nra).
    replace ((x + y) * (1 + d) - (A + B)) with ((x - A) * (1 + d) + (y - B) * (1 + d) + (A + B) * d) by ring.
    assert (T1 : Rabs (1 + d) <= 1 + h) by (eapply Rle_trans; [apply Rabs_triang|]; rewrite Rabs_R1; lra).
    eapply Rle_trans; [apply Rabs_triang|]. 
    assert (U1 : Rabs ((x - A) * (1 + d) + (y - B) * (1 + d)) <= (K - 1) * (A' + B') * (1 + h)).
    { eapply Rle_trans; [apply Rabs_triang|]. rewrite !Rabs_mult.
      pose proof (Rabs_pos (x - A)). pose proof (Rabs_pos (y - B)). pose proof (Rabs_pos (1 + d)).
      assert (Rabs (x - A) * Rabs (1 + d) <= (K - 1) * A' * (1 + h)) by (apply Rmult_le_compat; easy).
      assert (Rabs (y - B) * Rabs (1 + d) <= (K - 1) * B' * (1 + h)) by (apply Rmult_le_compat; easy).
      lra. }
    assert (U2 : Rabs ((A + B) * d) <= (A' + B') * h).
    { rewrite Rabs_mult. apply Rmult_le_compat; try apply Rabs_pos; [|easy].
      eapply Rle_trans; [apply Rabs_triang|]. lra. }
    lra.
Qed.

(** Each rounding to nearest has a relative error of at most 2^-53 and, for tiny numbers, an absolute
    error of at most 2^-1075. *)
Lemma rnd_error x : Rabs (rnd x - x) <= unit_roundoff * Rabs x + bpow radix2 (-1075).
Proof.
  destruct (error_N_FLT radix2 (-1074) 53 prec53 (fun z => negb (Z.even z)) x) as (e & n & E & N & _ & Q).
  change (rnd x = x * (1 + e) + n) in Q. rewrite Q.
  replace (x * (1 + e) + n - x) with (x * e + n) by ring.
  eapply Rle_trans; [apply Rabs_triang|]. rewrite Rabs_mult, Rmult_comm.
  apply Rplus_le_compat.
  - apply Rmult_le_compat_r; [apply Rabs_pos|]. eapply Rle_trans; [exact E|]. unfold unit_roundoff. simpl. lra.
  - eapply Rle_trans; [exact N|]. change (-1074)%Z with (-1075 + 1)%Z. rewrite bpow_plus. simpl (bpow radix2 1). lra.
Qed.

(** The computed mean, if finite, is the mean up to the rounding errors along the longest path of
    additions and of the division. *)
Theorem C176_mean_accuracy : forall t xs m,
  xs <> [] -> Forall (fun x => is_b64 (Fin x)) xs ->
  Permutation (leaves t) (seq 0 (length xs)) ->
  f_mean t (map Fin xs) = Fin m ->
  let n := INR (length xs) in
  Rabs (m - rsum xs / n) <=
    ((1 + bpow radix2 (-53)) ^ S (depth t) - 1) * (rsum (map Rabs xs) / n) + bpow radix2 (-1075).
Proof.
  intros t xs m Hne F P H. cbv zeta. fold unit_roundoff.
  pose proof unit_roundoff_pos as Hu. set (h := unit_roundoff) in *.
  assert (Hn : 0 < INR (length xs)) by (apply lt_0_INR; destruct xs; [easy|cbn; lia]).
  unfold f_mean in H. rewrite map_length in H. set (n := INR (length xs)) in *.
  destruct (f_sum t (map Fin xs)) as [s| | |] eqn:S.
  2: { unfold fdiv in H. cbn [xdiv] in H. rewrite (proj2 (Rleb_true 0 n)) in H by lra. discriminate. }
  2: { unfold fdiv in H. cbn [xdiv] in H. rewrite (proj2 (Rltb_false n 0)) in H by lra. discriminate. }
  2: { discriminate. }
  rewrite fdiv_fin in H by lra.
  assert (M : m = rnd (s / n)).
  { unfold fl in H. destruct (Rltb _ _); [congruence|]. destruct (Rltb 0 (s / n)); discriminate. }
  pose proof (f_sum_error t xs s F S) as E. rewrite !(leaf_sum_perm _ t xs P) in E. rewrite map_id in E.
  fold h in E. pose proof (rnd_error (s / n)) as R. rewrite <- M in R. fold h in R.
  pose proof (leaf_sum_abs_ge t xs) as G. rewrite !(leaf_sum_perm _ t xs P), map_id in G.
  set (X := rsum xs) in *. set (Y := rsum (map Rabs xs)) in *. set (K := (1 + h) ^ depth t) in *.
  assert (K1 : 1 <= K) by (apply pow_R1_Rle; lra).
  change ((1 + h) ^ Datatypes.S (depth t)) with ((1 + h) * K).
  assert (In : 0 < / n) by now apply Rinv_0_lt_compat.
  assert (D1 : Rabs (s / n - X / n) <= (K - 1) * (Y / n)).
  { unfold Rdiv. rewrite <- Rmult_minus_distr_r, Rabs_mult, (Rabs_pos_eq (/ n)), <- Rmult_assoc by lra.
    apply Rmult_le_compat_r; lra. }
  assert (D2 : Rabs (X / n) <= Y / n).
  { unfold Rdiv. rewrite Rabs_mult, (Rabs_pos_eq (/ n)) by lra. apply Rmult_le_compat_r; lra. }
  set (x := X / n) in *. set (y := Y / n) in *. set (q := s / n) in *.
  assert (D3 : Rabs q <= K * y).
  { replace q with ((q - x) + x) by ring. eapply Rle_trans; [apply Rabs_triang|]. lra. }
  replace (m - x) with ((m - q) + (q - x)) by ring.
  eapply Rle_trans; [apply Rabs_triang|].
  assert (h * Rabs q <= h * (K * y)) by (apply Rmult_le_compat_l; lra). lra.
Qed.

(** One value is its own mean, and the mean of two values is between them. *)
Theorem C176_mean_between_partial : forall a b,
  is_b64 (Fin a) -> is_b64 (Fin b) -> a <= b ->
  Rabs (2 * a) < b64_max -> Rabs (2 * b) < b64_max ->
  f_mean (SLeaf 0) [Fin a] = Fin a /\
  exists m, f_mean (SNode (SLeaf 0) (SLeaf 1)) [Fin a; Fin b] = Fin m /\ is_b64 (Fin m) /\ a <= m <= b.
Proof.
  intros a b Fa Fb L Ba Bb. split; [now apply f_mean_one|].
  unfold f_mean. cbn [f_sum nth length]. unfold fadd. cbn [xadd flx].
  assert (G : 2 * a <= rnd (a + b) <= 2 * b).
  { split; [apply rnd_ge_format|apply rnd_le_format]; try lra; apply format_double; [apply Fa|apply Fb]. }
  assert (B : Rabs (rnd (a + b)) < b64_max).
  { apply Rabs_def2 in Ba, Bb. apply Rabs_def1; lra. }
  rewrite fl_small by easy. change (INR 2) with 2. rewrite fdiv_fin by lra.
  assert (H : a <= rnd (rnd (a + b) / 2) <= b).
  { split; [apply rnd_ge_format|apply rnd_le_format]; try lra; [apply Fa|apply Fb]. }
  assert (B' : Rabs (rnd (rnd (a + b) / 2)) < b64_max).
  { destruct Fa as [_ Fa], Fb as [_ Fb]. apply Rabs_def2 in Fa, Fb. apply Rabs_def1; lra. }
  rewrite fl_small by easy. exists (rnd (rnd (a + b) / 2)). split; [easy|]. split; [|easy].
  split; [apply rnd_format|easy].
Qed.

Lemma rnd_at p k x : (0 <= p)%Z -> bpow radix2 (p + 52) <= x < bpow radix2 (p + 53) ->
  Rabs (x * bpow radix2 (- p) - IZR k) < / 2 -> rnd x = IZR k * bpow radix2 p.
Proof.
  intros Hp Hx Hk. unfold rnd, round.
  assert (M : mag radix2 x = (p + 53)%Z :> Z).
  { apply mag_unique_pos. replace (p + 53 - 1)%Z with (p + 52)%Z by lia. easy. }
  assert (C : cexp radix2 b64_exp x = p).
  { unfold cexp. rewrite M. unfold b64_exp, FLT_exp. lia. }
  unfold scaled_mantissa. rewrite C. unfold F2R. cbn [Fnum Fexp].
  now rewrite (Znearest_imp _ _ _ Hk).
Qed.

(** numpy adds the first eight of ten values pairwise and then the last two. *)
Definition pairwise10 : sum_tree :=
  SNode (SNode (SNode (SNode (SNode (SLeaf 0) (SLeaf 1)) (SNode (SLeaf 2) (SLeaf 3)))
                      (SNode (SNode (SLeaf 4) (SLeaf 5)) (SNode (SLeaf 6) (SLeaf 7)))) (SLeaf 8)) (SLeaf 9).
Definition odd_value : R := 8608178863725569.

Lemma odd_value_b64 : is_b64 (Fin odd_value).
Proof. apply (small_int_b64 8608178863725569). reflexivity. Qed.

Ltac at_exp q k :=
  apply (rnd_at q k); [lia|simpl; lra|
    match goal with |- Rabs ?e < _ => let r := fresh in set (r := e); simpl in r; apply Rabs_def1; unfold r; lra end].

Lemma pairwise10_mean : f_mean pairwise10 (repeat (Fin odd_value) 10) = Fin (odd_value + 1).
Proof.
  assert (D : forall k, (0 <= k <= 10)%Z -> rnd (odd_value * bpow radix2 k + odd_value * bpow radix2 k) = odd_value * bpow radix2 (k + 1)).
  { intros k Hk. replace (odd_value * bpow radix2 k + odd_value * bpow radix2 k) with (odd_value * bpow radix2 (k + 1))
      by (rewrite <- bpow_double; lra).
    apply rnd_id. apply generic_format_FLT. exists (Float radix2 8608178863725569 (k + 1)); [easy|reflexivity|cbn; lia]. }
  assert (E2 : rnd (odd_value + odd_value) = odd_value * 2) by (generalize (D 0%Z ltac:(lia)); simpl; now rewrite Rmult_1_r).
  assert (E4 : rnd (odd_value * 2 + odd_value * 2) = odd_value * 4) by exact (D 1%Z ltac:(lia)).
  assert (E8 : rnd (odd_value * 4 + odd_value * 4) = odd_value * 8) by exact (D 2%Z ltac:(lia)).
  assert (E9 : rnd (odd_value * 8 + odd_value) = 77473609773530128).
  { transitivity (IZR 4842100610845633 * bpow radix2 4); [|simpl; lra]. unfold odd_value. at_exp 4%Z 4842100610845633%Z. }
  assert (E10 : rnd (77473609773530128 + odd_value) = 86081788637255696).
  { transitivity (IZR 5380111789828481 * bpow radix2 4); [|simpl; lra]. unfold odd_value. at_exp 4%Z 5380111789828481%Z. }
  assert (E11 : rnd (86081788637255696 / 10) = odd_value + 1).
  { transitivity (IZR 8608178863725570 * bpow radix2 0); [|unfold odd_value; simpl; lra]. at_exp 0%Z 8608178863725570%Z. }
  assert (M : forall x, 0 <= x <= bpow radix2 60 -> Rabs x < b64_max).
  { intros x [A B]. rewrite Rabs_pos_eq by easy. apply Rle_lt_trans with (1 := B). apply bpow_lt. lia. }
  assert (S : forall x y, rnd x = y -> 0 <= y <= bpow radix2 60 -> fl x = Fin y).
  { intros x y <- B. apply fl_small. now apply M. }
  unfold f_mean, pairwise10. cbn [f_sum nth repeat length]. unfold fadd. cbn [xadd flx].
  rewrite !(S _ _ E2) by (unfold odd_value; simpl; lra). cbn [xadd flx].
  rewrite !(S _ _ E4) by (unfold odd_value; simpl; lra). cbn [xadd flx].
  rewrite !(S _ _ E8) by (unfold odd_value; simpl; lra). cbn [xadd flx].
  rewrite (S _ _ E9) by (simpl; lra). cbn [xadd flx].
  rewrite (S _ _ E10) by (simpl; lra).
  replace (INR 10) with 10 by (simpl; lra). rewrite fdiv_fin by lra.
  apply S; [exact E11|]. unfold odd_value. simpl. lra.
Qed.

(** The mean of ten equal values can be larger than each of them. *)
Theorem C176_mean_between_refuted : exists v m,
  is_b64 (Fin v) /\ f_mean pairwise10 (repeat (Fin v) 10) = Fin m /\ v < m.
Proof. exists odd_value, (odd_value + 1). split; [apply odd_value_b64|]. split; [apply pairwise10_mean|lra]. Qed.

(** Hence the naive noisy decider, which evaluates the candidate ten times, can reject a candidate
    whose values all equal the current value, with a negative rho; exactly, it is accepted. *)
Theorem C176_constant_criterion_refuted : exists v,
  is_b64 (Fin v) /\
  let d := f_accept_simple pairwise10 (repeat (Fin v) 10) (Fin v) (Fin 1) 0 in
  fd_accepted d = false /\ exists rho, fd_rho d = Fin rho /\ rho < 0.
Proof.
  exists odd_value. split; [apply odd_value_b64|]. cbv zeta. unfold f_accept_simple. rewrite pairwise10_mean.
  assert (Fm : is_b64 (Fin (odd_value + 1))).
  { unfold odd_value. rewrite <- plus_IZR. apply small_int_b64. reflexivity. }
  assert (E : rnd (odd_value - (odd_value + 1)) = -1).
  { replace (odd_value - (odd_value + 1)) with (IZR (-1)) by lra. apply rnd_IZR. lia. }
  pose proof b64_max_pos. assert (1 < b64_max) by (change 1 with (bpow radix2 0); apply bpow_lt; lia).
  unfold f_decide. cbn [isfinite fd_accepted fd_rho].
  destruct (fsub_cases odd_value (odd_value + 1) odd_value_b64 Fm) as [[-> B]|[(_ & B & _)|(_ & B & _)]];
    rewrite E in *; try lra.
  split.
  - unfold xge. cbn [xle]. apply Rleb_false. lra.
  - exists (-1). split; [|lra]. unfold f_calculate_rho. cbn [xeq]. destruct (Reqb_spec 1 0); [lra|]. cbn [andb].
    rewrite fdiv_fin by lra. replace (-1 / 1) with (-1) by lra. apply fl_fin. apply (small_int_b64 (-1)). lia.
Qed.

(** The mean of 1 and 3 is between them; the bound for the ten equal values. *)
Example C176_instance :
  (exists m, f_mean (SNode (SLeaf 0) (SLeaf 1)) [Fin 1; Fin 3] = Fin m /\ 1 <= m <= 3) /\
  (forall m, f_mean pairwise10 (map Fin (repeat odd_value 10)) = Fin m ->
    Rabs (m - odd_value) <= ((1 + bpow radix2 (-53)) ^ 6 - 1) * odd_value + bpow radix2 (-1075)).
Proof.
  split.
  - assert (M : bpow radix2 3 < b64_max) by (apply bpow_lt; lia). simpl in M.
    destruct (C176_mean_between_partial 1 3) as (_ & m & E & _ & B).
    1: apply (small_int_b64 1); lia. 1: apply (small_int_b64 3); lia. 1: lra.
    1,2: rewrite Rabs_pos_eq; lra.
    now exists m.
  - intros m H.
    pose proof (C176_mean_accuracy pairwise10 (repeat odd_value 10) m) as T.
    assert (P : 0 < odd_value) by (unfold odd_value; lra).
    cbn [repeat length depth pairwise10 Nat.max map] in T, H. unfold rsum in T. cbn [fold_right] in T.
    rewrite !(Rabs_pos_eq odd_value) in T by lra.
    replace (INR 10) with 10 in T by (simpl; lra).
    match type of T with context [Rabs (m - ?x)] => replace x with odd_value in T by lra end.
    apply T; [discriminate| |reflexivity|exact H].
    repeat constructor; apply odd_value_b64.
Qed.
