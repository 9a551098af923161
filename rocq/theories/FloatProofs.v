(** Rounding to binary64: order, exactness, and the comparison with Flocq's IEEE 754 operations. *)
From Coq Require Import Reals List Arith ZArith Bool Lia Lra Psatz.
From Flocq Require Import Core Relative BinarySingleNaN.
From Verif Require Import Base XR FloatModel.
Import ListNotations.
Open Scope R_scope.

#[export] Instance prec53 : Prec_gt_0 53.
Proof. reflexivity. Qed.
#[export] Instance b64_valid : Valid_exp b64_exp.
Proof. apply FLT_exp_valid. exact prec53. Qed.
#[export] Instance b64_mono : Monotone_exp b64_exp.
Proof. apply FLT_exp_monotone. Qed.

Lemma rnd_mono x y : x <= y -> rnd x <= rnd y.
Proof. intros. unfold rnd. now apply round_le; [apply b64_valid|apply valid_rnd_N|]. Qed.
Lemma rnd_id x : generic_format radix2 b64_exp x -> rnd x = x.
Proof. intros. unfold rnd. apply round_generic; [apply valid_rnd_N|easy]. Qed.
Lemma rnd_0 : rnd 0 = 0.
Proof. unfold rnd. apply round_0. apply valid_rnd_N. Qed.
Lemma rnd_opp x : rnd (- x) = - rnd x.
Proof. unfold rnd. apply round_NE_opp. Qed.
Lemma rnd_format x : generic_format radix2 b64_exp (rnd x).
Proof. unfold rnd. apply generic_format_round; [apply b64_valid|apply valid_rnd_N]. Qed.

Lemma format_bpow e : (-1074 <= e)%Z -> generic_format radix2 b64_exp (bpow radix2 e).
Proof. intros. apply generic_format_bpow. unfold b64_exp, FLT_exp. lia. Qed.
Lemma rnd_bpow e : (-1074 <= e)%Z -> rnd (bpow radix2 e) = bpow radix2 e.
Proof. intros. now apply rnd_id, format_bpow. Qed.
Lemma format_IZR k : (Z.abs k < 2 ^ 53)%Z -> generic_format radix2 b64_exp (IZR k).
Proof.
  intros H. apply generic_format_FLT. exists (Float radix2 k 0).
  - unfold F2R. simpl. lra.
  - exact H.
  - simpl. lia.
Qed.
Lemma rnd_IZR k : (Z.abs k < 2 ^ 53)%Z -> rnd (IZR k) = IZR k.
Proof. intros. now apply rnd_id, format_IZR. Qed.

Lemma rnd_le_format x y : generic_format radix2 b64_exp y -> x <= y -> rnd x <= y.
Proof. intros F H. rewrite <- (rnd_id y F). now apply rnd_mono. Qed.
Lemma rnd_ge_format x y : generic_format radix2 b64_exp x -> x <= y -> x <= rnd y.
Proof. intros F H. rewrite <- (rnd_id x F). now apply rnd_mono. Qed.
Lemma rnd_abs_le x y : generic_format radix2 b64_exp y -> Rabs x <= y -> Rabs (rnd x) <= y.
Proof.
  intros F H. apply Rabs_le.
  assert (- y <= x <= y) as [A B] by (revert H; unfold Rabs; destruct (Rcase_abs x); lra). split.
  - apply rnd_ge_format; [now apply generic_format_opp|easy].
  - now apply rnd_le_format.
Qed.

Lemma b64_max_pos : 0 < b64_max.
Proof. apply bpow_gt_0. Qed.

(** * [fl] *)

Lemma fl_fin x : is_b64 (Fin x) -> fl x = Fin x.
Proof. intros [F B]. unfold fl. rewrite (rnd_id x F), (proj2 (Rltb_true _ _) B). reflexivity. Qed.
Lemma fl_small x : Rabs (rnd x) < b64_max -> fl x = Fin (rnd x).
Proof. intros B. unfold fl. now rewrite (proj2 (Rltb_true _ _) B). Qed.
Lemma fl_small_le x y : is_b64 (Fin y) -> Rabs x <= y -> fl x = Fin (rnd x) /\ Rabs (rnd x) <= y.
Proof.
  intros [F B] H. pose proof (rnd_abs_le x y F H). split; [|easy]. apply fl_small.
  apply Rle_lt_trans with y; [easy|]. revert B. unfold Rabs. destruct (Rcase_abs y); lra.
Qed.
Lemma fl_not_nan x : fl x <> NaN.
Proof. unfold fl. destruct (Rltb _ _); [discriminate|]. destruct (Rltb 0 x); discriminate. Qed.

Lemma fl_b64 x : is_b64 (fl x).
Proof.
  unfold fl. destruct (Rltb _ _) eqn:E; [|destruct (Rltb 0 x); exact I].
  apply Rltb_true in E. split; [apply rnd_format|easy].
Qed.

Lemma fl_mono x y : x <= y -> xle (fl x) (fl y) = true.
Proof.
  intros H. pose proof (rnd_mono x y H) as M. pose proof b64_max_pos as P.
  unfold fl. destruct (Rltb (Rabs (rnd x)) b64_max) eqn:E1, (Rltb (Rabs (rnd y)) b64_max) eqn:E2.
  - simpl. now apply Rleb_true.
  - apply Rltb_true in E1. apply Rltb_false in E2. destruct (Rltb 0 y) eqn:S; [reflexivity|exfalso].
    apply Rltb_false in S. pose proof (rnd_mono y 0 S) as N. rewrite rnd_0 in N.
    revert E1 E2. unfold Rabs. destruct (Rcase_abs (rnd x)), (Rcase_abs (rnd y)); lra.
  - apply Rltb_true in E2. apply Rltb_false in E1. destruct (Rltb 0 x) eqn:S; [exfalso|reflexivity].
    apply Rltb_true in S. assert (N : rnd 0 <= rnd x) by (apply rnd_mono; lra). rewrite rnd_0 in N.
    revert E1 E2. unfold Rabs. destruct (Rcase_abs (rnd x)), (Rcase_abs (rnd y)); lra.
  - destruct (Rltb 0 x) eqn:S.
    + apply Rltb_true in S. rewrite (proj2 (Rltb_true 0 y)) by lra. reflexivity.
    + destruct (Rltb 0 y); reflexivity.
Qed.

Lemma fl_ge x y : is_b64 (Fin x) -> x <= y -> xle (Fin x) (fl y) = true.
Proof. intros F H. rewrite <- (fl_fin x F). now apply fl_mono. Qed.
Lemma fl_le x y : is_b64 (Fin y) -> x <= y -> xle (fl x) (Fin y) = true.
Proof. intros F H. rewrite <- (fl_fin y F). now apply fl_mono. Qed.

(** * The comparison with IEEE 754 *)

Definition to_xr (f : binary_float 53 1024) : xr :=
  match f with
  | B754_zero _ => Fin 0
  | B754_infinity s => if s then NInf else PInf
  | B754_nan => NaN
  | B754_finite _ _ _ _ => Fin (B2R f)
  end.

#[export] Instance prec53_emax : Prec_lt_emax 53 1024.
Proof. reflexivity. Qed.

Lemma to_xr_finite f : is_finite f = true -> to_xr f = Fin (B2R f).
Proof. destruct f; easy. Qed.
Lemma to_xr_overflow f s : B2SF f = binary_overflow 53 1024 mode_NE s -> to_xr f = xsign_inf (negb s).
Proof. intros H. destruct f as [| [] | |[]], s; simpl in H |- *; try discriminate; reflexivity. Qed.
Lemma Bsign_R (f : binary_float 53 1024) : is_finite f = true ->
  if Bsign f then B2R f <= 0 else 0 <= B2R f.
Proof.
  destruct f as [s|s| |s m e H]; try discriminate; intros _; simpl.
  - destruct s; lra.
  - destruct s; unfold F2R; simpl.
    + assert (0 < bpow radix2 e) by apply bpow_gt_0. assert (IZR (Z.neg m) < 0) by (apply IZR_lt; lia). nra.
    + assert (0 < bpow radix2 e) by apply bpow_gt_0. assert (0 < IZR (Z.pos m)) by (apply IZR_lt; lia). nra.
Qed.
Lemma finite_nonzero s m e H : B2R (B754_finite s m e H : binary_float 53 1024) <> 0.
Proof.
  simpl. unfold F2R. simpl. assert (0 < bpow radix2 e) by apply bpow_gt_0.
  assert (IZR (cond_Zopp s (Z.pos m)) <> 0) by (apply not_0_IZR; destruct s; simpl; lia).
  apply Rmult_integral_contrapositive_currified; [easy|lra].
Qed.
Lemma Bsign_finite s m e H : Rltb 0 (B2R (B754_finite s m e H : binary_float 53 1024)) = negb s
  /\ Rltb (B2R (B754_finite s m e H : binary_float 53 1024)) 0 = s
  /\ Rleb 0 (B2R (B754_finite s m e H : binary_float 53 1024)) = negb s
  /\ Reqb (B2R (B754_finite s m e H : binary_float 53 1024)) 0 = false.
Proof.
  pose proof (Bsign_R (B754_finite s m e H) eq_refl) as S. pose proof (finite_nonzero s m e H) as N.
  simpl Bsign in S. set (r := B2R _) in *. destruct s; simpl.
  - repeat split; [apply Rltb_false|apply Rltb_true|apply Rleb_false|apply Reqb_false]; lra.
  - repeat split; [apply Rltb_true|apply Rltb_false|apply Rleb_true|apply Reqb_false]; lra.
Qed.

Lemma rnd_round x : round radix2 (SpecFloat.fexp 53 1024) (round_mode mode_NE) x = rnd x.
Proof. reflexivity. Qed.
Lemma Rlt_bool_Rltb x y : Rlt_bool x y = Rltb x y.
Proof. destruct (Rlt_bool_spec x y); symmetry; [now apply Rltb_true|now apply Rltb_false]. Qed.

Lemma fl_result f x s :
  (if Rlt_bool (Rabs (rnd x)) (bpow radix2 1024) then B2R f = rnd x /\ is_finite f = true
   else B2SF f = binary_overflow 53 1024 mode_NE s) ->
  (b64_max <= Rabs (rnd x) -> Rltb 0 x = negb s) -> fl x = to_xr f.
Proof.
  intros H S. rewrite Rlt_bool_Rltb in H. unfold fl. fold b64_max in H.
  destruct (Rltb (Rabs (rnd x)) b64_max) eqn:E.
  - destruct H as [H1 H2]. now rewrite (to_xr_finite f H2), H1.
  - apply Rltb_false in E. rewrite (to_xr_overflow _ _ H), S by easy. reflexivity.
Qed.

Lemma overflow_nonzero x : b64_max <= Rabs (rnd x) -> x <> 0.
Proof. intros H ->. rewrite rnd_0, Rabs_R0 in H. pose proof b64_max_pos. lra. Qed.

Lemma fadd_finite x y : is_finite x = true -> is_finite y = true ->
  fl (B2R x + B2R y) = to_xr (Bplus mode_NE x y).
Proof.
  intros Hx Hy. pose proof (Bplus_correct 53 1024 _ _ mode_NE x y Hx Hy) as C.
  rewrite rnd_round in C. apply (fl_result _ _ (Bsign x)).
  - destruct (Rlt_bool _ _); easy.
  - intros O. rewrite Rlt_bool_Rltb in C. fold b64_max in C. rewrite (proj2 (Rltb_false _ _) O) in C.
    destruct C as [_ C]. apply overflow_nonzero in O.
    pose proof (Bsign_R x Hx) as Sx. pose proof (Bsign_R y Hy) as Sy. rewrite <- C in Sy.
    destruct (Bsign x); simpl; [apply Rltb_false|apply Rltb_true]; lra.
Qed.
Lemma fmul_finite x y : is_finite x = true -> is_finite y = true ->
  fl (B2R x * B2R y) = to_xr (Bmult mode_NE x y).
Proof.
  intros Hx Hy. pose proof (Bmult_correct 53 1024 _ _ mode_NE x y) as C.
  rewrite rnd_round in C. apply (fl_result _ _ (xorb (Bsign x) (Bsign y))).
  - destruct (Rlt_bool _ _); [|easy]. rewrite Hx, Hy in C. easy.
  - intros O. apply overflow_nonzero in O.
    pose proof (Bsign_R x Hx) as Sx. pose proof (Bsign_R y Hy) as Sy.
    destruct (Bsign x), (Bsign y); simpl; [apply Rltb_true|apply Rltb_false|apply Rltb_false|apply Rltb_true]; nra.
Qed.
Lemma fdiv_finite x y : is_finite x = true -> is_finite y = true -> B2R y <> 0 ->
  fl (B2R x / B2R y) = to_xr (Bdiv mode_NE x y).
Proof.
  intros Hx Hy Ny. pose proof (Bdiv_correct 53 1024 _ _ mode_NE x y Ny) as C.
  rewrite rnd_round in C. apply (fl_result _ _ (xorb (Bsign x) (Bsign y))).
  - destruct (Rlt_bool _ _); [|easy]. rewrite Hx in C. easy.
  - intros O. apply overflow_nonzero in O.
    pose proof (Bsign_R x Hx) as Sx. pose proof (Bsign_R y Hy) as Sy.
    assert (0 < B2R y -> 0 < / B2R y) by apply Rinv_0_lt_compat.
    assert (B2R y < 0 -> / B2R y < 0) by apply Rinv_lt_0_compat.
    unfold Rdiv in *.
    destruct (Bsign x), (Bsign y); simpl; [apply Rltb_true|apply Rltb_false|apply Rltb_false|apply Rltb_true];
      try (assert (0 < / B2R y) by lra); try (assert (/ B2R y < 0) by lra); nra.
Qed.

Lemma fadd_ieee x y : fadd (to_xr x) (to_xr y) = to_xr (Bplus mode_NE x y).
Proof.
  destruct (is_finite x) eqn:Hx, (is_finite y) eqn:Hy.
  - rewrite (to_xr_finite x), (to_xr_finite y) by easy. now apply fadd_finite.
  - destruct y as [|[]| |]; try discriminate; destruct x as [|[]| |]; try discriminate; reflexivity.
  - destruct x as [|[]| |]; try discriminate; destruct y as [|[]| |]; try discriminate; reflexivity.
  - destruct x as [|[]| |]; try discriminate; destruct y as [|[]| |]; try discriminate; reflexivity.
Qed.
Lemma to_xr_opp x : xopp (to_xr x) = to_xr (Bopp x).
Proof.
  destruct x as [|[]| |s m e H]; try reflexivity.
  - simpl. f_equal. lra.
  - simpl. f_equal. rewrite <- F2R_Zopp. destruct s; reflexivity.
Qed.
Lemma fsub_ieee x y : fsub (to_xr x) (to_xr y) = to_xr (Bminus mode_NE x y).
Proof.
  assert (E : Bminus mode_NE x y = Bplus mode_NE x (Bopp y)).
  { destruct x as [[]|[]| |], y as [[]|[]| |]; reflexivity. }
  rewrite E. unfold fsub, xsub. rewrite to_xr_opp. apply fadd_ieee.
Qed.
Lemma fmul_ieee x y : fmul (to_xr x) (to_xr y) = to_xr (Bmult mode_NE x y).
Proof.
  destruct (is_finite x) eqn:Hx, (is_finite y) eqn:Hy.
  - rewrite (to_xr_finite x), (to_xr_finite y) by easy. now apply fmul_finite.
  - destruct x as [s|s| |s m e H]; try discriminate.
    + destruct y as [|[]| |]; try discriminate; unfold fmul; cbn [to_xr xmul];
        try rewrite (proj2 (Reqb_true 0 0) eq_refl); reflexivity.
    + rewrite (to_xr_finite (B754_finite s m e H)) by easy. destruct (Bsign_finite s m e H) as (P & N & _ & Z).
      destruct y as [|[]| |]; try discriminate; unfold fmul; cbn [to_xr xmul]; try rewrite Z; try rewrite P; try rewrite N;
        try reflexivity; destruct s; reflexivity.
  - destruct y as [s|s| |s m e H]; try discriminate.
    + destruct x as [|[]| |]; try discriminate; unfold fmul; cbn [to_xr xmul];
        try rewrite (proj2 (Reqb_true 0 0) eq_refl); reflexivity.
    + rewrite (to_xr_finite (B754_finite s m e H)) by easy. destruct (Bsign_finite s m e H) as (P & N & _ & Z).
      destruct x as [|[]| |]; try discriminate; unfold fmul; cbn [to_xr xmul]; try rewrite Z; try rewrite P; try rewrite N;
        try reflexivity; destruct s; reflexivity.
  - destruct x as [|[]| |]; try discriminate; destruct y as [|[]| |]; try discriminate; reflexivity.
Qed.
Lemma fdiv_ieee x y : y <> B754_zero true -> fdiv (to_xr x) (to_xr y) = to_xr (Bdiv mode_NE x y).
Proof.
  intros Ny. destruct (is_finite x) eqn:Hx, (is_finite y) eqn:Hy.
  - destruct y as [s|s| |s m e H]; try discriminate.
    + destruct s; [congruence|]. destruct x as [s|s| |s m e H]; try discriminate.
      * unfold fdiv. cbn [to_xr xdiv]. rewrite (proj2 (Reqb_true 0 0) eq_refl). reflexivity.
      * rewrite (to_xr_finite (B754_finite s m e H)) by easy. destruct (Bsign_finite s m e H) as (P & N & _ & Z).
        unfold fdiv. cbn [to_xr xdiv]. rewrite (proj2 (Reqb_true 0 0) eq_refl), Z, P. destruct s; reflexivity.
    + rewrite (to_xr_finite x), (to_xr_finite (B754_finite s m e H)) by easy.
      unfold fdiv. cbn [xdiv]. destruct (Bsign_finite s m e H) as (_ & _ & _ & Z). rewrite Z.
      apply fdiv_finite; try easy. apply finite_nonzero.
  - rewrite (to_xr_finite x Hx). destruct y as [|[]| |]; try discriminate; unfold fdiv; cbn [to_xr xdiv flx];
      try (rewrite fl_fin by (split; [apply generic_format_0|rewrite Rabs_R0; apply b64_max_pos]));
      destruct x; try discriminate; reflexivity.
  - destruct y as [s|s| |s m e H]; try discriminate.
    + destruct s; [congruence|]. destruct x as [|[]| |]; try discriminate; unfold fdiv; cbn [to_xr xdiv];
        try rewrite (proj2 (Rleb_true 0 0)) by lra; try rewrite (proj2 (Rltb_false 0 0)) by lra; reflexivity.
    + rewrite (to_xr_finite (B754_finite s m e H)) by easy. destruct (Bsign_finite s m e H) as (P & N & L & Z).
      destruct x as [|[]| |]; try discriminate; unfold fdiv; cbn [to_xr xdiv]; try rewrite L; try rewrite N;
        destruct s; reflexivity.
  - destruct x as [|[]| |]; try discriminate; destruct y as [|[]| |]; try discriminate; reflexivity.
Qed.
Lemma fsqrt_ieee x : fsqrt (to_xr x) = to_xr (Bsqrt mode_NE x).
Proof.
  destruct (Bsqrt_correct 53 1024 _ _ mode_NE x) as (V & F & _). rewrite rnd_round in V.
  destruct x as [s|[]| |s m e H]; try reflexivity.
  - unfold fsqrt. cbn [to_xr xsqrt]. rewrite (proj2 (Rltb_false 0 0)) by lra. cbn [flx].
    rewrite sqrt_0, fl_fin by (split; [apply generic_format_0|rewrite Rabs_R0; apply b64_max_pos]). reflexivity.
  - destruct (Bsign_finite s m e H) as (P & N & _ & _). unfold fsqrt.
    rewrite (to_xr_finite (B754_finite s m e H)) by easy. cbn [xsqrt]. rewrite N. destruct s; [reflexivity|].
    cbn [flx]. rewrite to_xr_finite, V by easy. apply fl_small. rewrite <- V.
    apply abs_B2R_lt_emax.
Qed.

Lemma xle_ieee x y : xle (to_xr x) (to_xr y) = Bleb x y.
Proof.
  destruct (is_finite x) eqn:Hx, (is_finite y) eqn:Hy.
  - rewrite (to_xr_finite x), (to_xr_finite y), Bleb_correct by easy. simpl.
    destruct (Rle_bool_spec (B2R x) (B2R y)); [now apply Rleb_true|now apply Rleb_false].
  - destruct y as [|[]| |]; try discriminate; destruct x as [[]|[]| |[]]; try discriminate; reflexivity.
  - destruct x as [|[]| |]; try discriminate; destruct y as [[]|[]| |[]]; try discriminate; reflexivity.
  - destruct x as [|[]| |]; try discriminate; destruct y as [|[]| |]; try discriminate; reflexivity.
Qed.

Lemma to_xr_b64 f : is_b64 (to_xr f).
Proof.
  destruct f as [s|[]| |s m e H]; try exact I.
  - split; [apply generic_format_0|rewrite Rabs_R0; apply b64_max_pos].
  - rewrite to_xr_finite by easy. split; [|apply abs_B2R_lt_emax].
    exact (generic_format_B2R 53 1024 (B754_finite s m e H)).
Qed.

(** * Neighbours *)

Lemma round_N_up u v : generic_format radix2 b64_exp u -> (pred radix2 b64_exp u + u) / 2 < v -> u <= rnd v.
Proof. intros F H. apply round_N_ge_midp; [apply b64_valid|easy|lra]. Qed.
Lemma round_N_down u v : generic_format radix2 b64_exp u -> v < (u + succ radix2 b64_exp u) / 2 -> rnd v <= u.
Proof. intros F H. apply round_N_le_midp; [apply b64_valid|easy|lra]. Qed.

Lemma succ_gt_rel x : 0 < x -> x * bpow radix2 (-53) < succ radix2 b64_exp x - x.
Proof.
  intros H. rewrite succ_eq_pos by lra. 
  pose proof (ulp_FLT_gt radix2 (-1074) 53 x) as U. rewrite (Rabs_pos_eq x) in U by lra.
  change (FLT_exp (-1074) 53) with b64_exp in U. change (- (53))%Z with (-53)%Z in U. lra.
Qed.
Lemma succ_le_rel x : bpow radix2 (-1022) <= x -> succ radix2 b64_exp x - x <= x * bpow radix2 (-52).
Proof.
  intros H. assert (0 < x) by (pose proof (bpow_gt_0 radix2 (-1022)); lra). rewrite succ_eq_pos by lra.
  pose proof (ulp_FLT_le radix2 (-1074) 53 x) as U. rewrite (Rabs_pos_eq x) in U by lra.
  change (FLT_exp (-1074) 53) with b64_exp in U. change (-1074 + 53 - 1)%Z with (-1022)%Z in U. specialize (U H).
  change (1 - 53)%Z with (-52)%Z in U. lra.
Qed.
Lemma pred_le_rel x : generic_format radix2 b64_exp x -> bpow radix2 (-1021) <= x ->
  pred radix2 b64_exp x <= x - x * bpow radix2 (-53).
Proof.
  intros F H. assert (P : 0 < x) by (pose proof (bpow_gt_0 radix2 (-1021)); lra).
  set (p := pred radix2 b64_exp x).
  assert (Fp : generic_format radix2 b64_exp p) by (apply generic_format_pred; [apply b64_valid|easy]).
  assert (E : p + ulp radix2 b64_exp p = x) by (apply pred_plus_ulp; [apply b64_valid|easy|easy]).
  assert (Hp : bpow radix2 (-1022) <= p).
  { apply pred_ge_gt; try easy; [apply b64_valid|apply format_bpow; lia|].
    apply Rlt_le_trans with (2 := H). apply bpow_lt. lia. }
  assert (P0 : 0 < p) by (pose proof (bpow_gt_0 radix2 (-1022)); lra).
  assert (M : x <= bpow radix2 (mag radix2 p)).
  { rewrite <- (succ_pred radix2 b64_exp x) by easy. fold p. apply succ_le_lt; try easy; [apply b64_valid| |].
    - apply generic_format_bpow. unfold b64_exp, FLT_exp.
      assert (-1022 < mag radix2 p)%Z. { apply mag_gt_bpow. rewrite Rabs_pos_eq; lra. } lia.
    - rewrite <- (Rabs_pos_eq p) at 1 by lra. apply bpow_mag_gt. }
  assert (U : ulp radix2 b64_exp p = bpow radix2 (mag radix2 p - 53)).
  { rewrite ulp_neq_0 by lra. unfold cexp, b64_exp, FLT_exp. f_equal.
    assert (-1022 < mag radix2 p)%Z. { apply mag_gt_bpow. rewrite Rabs_pos_eq; lra. } lia. }
  unfold Z.sub in U. rewrite bpow_plus in U. pose proof (bpow_gt_0 radix2 (-53)).
  change (- (53))%Z with (-53)%Z in U. nra.
Qed.

(** A number much smaller than [c] is lost when added to it. *)
Lemma absorbed_pos c p : generic_format radix2 b64_exp c -> bpow radix2 (-1021) <= c ->
  Rabs p < c * bpow radix2 (-54) -> rnd (p + c) = c.
Proof.
  intros F H Hp. assert (P : 0 < c) by (pose proof (bpow_gt_0 radix2 (-1021)); lra).
  assert (B : bpow radix2 (-53) = 2 * bpow radix2 (-54)).
  { change 2 with (bpow radix2 1). rewrite <- bpow_plus. reflexivity. }
  assert (- (c * bpow radix2 (-54)) < p < c * bpow radix2 (-54)) as [A1 A2].
  { revert Hp. unfold Rabs. destruct (Rcase_abs p); lra. }
  apply Rle_antisym.
  - apply round_N_down; [easy|]. pose proof (succ_gt_rel c P). nra.
  - apply round_N_up; [easy|]. pose proof (pred_le_rel c F H). nra.
Qed.
Lemma absorbed c p : generic_format radix2 b64_exp c -> bpow radix2 (-1021) <= Rabs c ->
  Rabs p < Rabs c * bpow radix2 (-54) -> rnd (p + c) = c.
Proof.
  intros F H Hp. destruct (Rcase_abs c) as [N|N].
  - rewrite (Rabs_left c N) in H, Hp.
    assert (E : rnd (- p + - c) = - c).
    { apply absorbed_pos; [now apply generic_format_opp|easy|now rewrite Rabs_Ropp]. }
    replace (- p + - c) with (- (p + c)) in E by ring. rewrite rnd_opp in E. lra.
  - rewrite (Rabs_pos_eq c) in H, Hp by lra. now apply absorbed_pos.
Qed.

(** * The root of a square *)

Lemma rnd_square_ge x : bpow radix2 (-500) <= x ->
  x * x / (1 + bpow radix2 (-53)) <= rnd (x * x).
Proof.
  intros H. pose proof (bpow_gt_0 radix2 (-500)) as P5. assert (0 < x) by lra.
  destruct (relative_error_N_FLT'_ex radix2 (-1074) 53 prec53 (fun n => negb (Z.even n)) (x * x))
    as (eps & eta & He & Ht & Hz & E).
  change (round radix2 (FLT_exp (-1074) 53) (Znearest (fun n => negb (Z.even n))) (x * x)) with (rnd (x * x)) in E.
  assert (Hu : u_ro radix2 53 = bpow radix2 (-53)).
  { unfold u_ro. replace (/ 2) with (bpow radix2 (-1)) by (simpl; lra). rewrite <- bpow_plus. reflexivity. }
  rewrite Hu in He. set (u := bpow radix2 (-53)) in *.
  assert (U : 0 < u) by apply bpow_gt_0.
  assert (X2 : bpow radix2 (-1000) <= x * x).
  { change (-1000)%Z with (-500 + -500)%Z. rewrite bpow_plus. apply Rmult_le_compat; lra. }
  assert (Q : 0 < u / (1 + u)) by (apply Rdiv_lt_0_compat; lra).
  assert (EQ : x * x / (1 + u) = x * x - x * x * (u / (1 + u))) by (field; lra). rewrite EQ, E.
  apply Rmult_integral in Hz. destruct Hz as [Z|Z].
  - rewrite Z. assert (Rabs eta <= x * x * (u / (1 + u))).
    { apply Rle_trans with (1 := Ht).
      apply Rle_trans with (bpow radix2 (-1000) * bpow radix2 (-54)).
      - rewrite <- bpow_plus. replace (/ 2) with (bpow radix2 (-1)) by (simpl; lra). rewrite <- bpow_plus.
        apply bpow_le. lia.
      - apply Rmult_le_compat; [apply bpow_ge_0|apply bpow_ge_0|easy|].
        apply (Rmult_le_reg_r (1 + u)); [lra|]. unfold Rdiv. rewrite Rmult_assoc, Rinv_l, Rmult_1_r by lra.
        assert (u < 1). { unfold u. change 1 with (bpow radix2 0). apply bpow_lt. lia. }
        assert (bpow radix2 (-54) * 2 = u).
        { change 2 with (bpow radix2 1). rewrite <- bpow_plus. reflexivity. }
        pose proof (bpow_gt_0 radix2 (-54)). nra. }
    revert H1. unfold Rabs. destruct (Rcase_abs eta); lra.
  - rewrite Z. assert (- (u / (1 + u)) <= eps). { revert He. unfold Rabs. destruct (Rcase_abs eps); lra. }
    assert (0 < x * x) by nra. nra.
Qed.

Lemma rnd_sqrt_square x y : generic_format radix2 b64_exp x -> bpow radix2 (-500) <= x ->
  rnd (x * x) <= y -> x <= rnd (sqrt y).
Proof.
  intros F H Hy. pose proof (bpow_gt_0 radix2 (-500)) as P5. assert (P : 0 < x) by lra.
  pose proof (rnd_square_ge x H) as S. set (u := bpow radix2 (-53)) in *.
  assert (U : 0 < u) by apply bpow_gt_0.
  assert (U1 : u < 1). { unfold u. change 1 with (bpow radix2 0). apply bpow_lt. lia. }
  apply round_N_up; [easy|].
  assert (H' : bpow radix2 (-1021) <= x) by (apply Rle_trans with (2 := H); apply bpow_le; lia).
  pose proof (pred_le_rel x F H') as Q. fold u in Q.
  apply Rle_lt_trans with (x * (1 - u / 2)); [lra|].
  assert (Y : x * x / (1 + u) <= y) by lra.
  apply Rlt_le_trans with (sqrt (x * x / (1 + u))); [|now apply sqrt_le_1_alt].
  apply Rsqr_incrst_0; [|nra|apply sqrt_pos].
  rewrite Rsqr_sqrt by (apply Rlt_le, Rdiv_lt_0_compat; nra).
  unfold Rsqr. apply (Rmult_lt_reg_r (1 + u)); [lra|].
  unfold Rdiv at 3. rewrite (Rmult_assoc (x * x)), Rinv_l, Rmult_1_r by lra.
  assert (0 < x * x) by nra.
  assert ((1 - u / 2) * (1 - u / 2) * (1 + u) < 1) by nra. nra.
Qed.
