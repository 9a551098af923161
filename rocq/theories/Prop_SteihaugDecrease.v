(** C206: the decrease of the model by the Steihaug-Toint solver. *)
From Coq Require Import Reals List Arith ZArith Bool Lia Lra Psatz.
From Verif Require Import Base XR FVec CgModel Prop_Cg Prop_Gqtpar Prop_NearOptimal.
Import ListNotations.
Open Scope R_scope.

Lemma to_boundary x p dp R nd P : 0 < P -> nd <= R ->
  exists sg, st_to_boundary x p dp R nd P = Ok (fadd x (fscale sg p)) /\
    0 <= sg /\ 0 <= dp + sg * P /\ nd + sg * (2 * dp + sg * P) = R.
Proof.
  intros HP Hn. unfold st_to_boundary, msqrt, div.
  assert (A : 0 <= dp * dp + P * (R - nd)) by nra.
  destruct (Rltb_spec (dp * dp + P * (R - nd)) 0); [lra|]. cbn [bind].
  destruct (Reqb_spec P 0); [lra|]. cbn [bind].
  set (s := sqrt (dp * dp + P * (R - nd))).
  assert (S2 : s * s = dp * dp + P * (R - nd)) by (apply sqrt_sqrt; exact A).
  assert (S0 : 0 <= s) by apply sqrt_pos.
  set (sg := (s - dp) / P). assert (E : sg * P = s - dp) by (unfold sg; field; lra).
  exists sg. split; [reflexivity|]. split; [|split].
  - unfold sg. apply Rmult_le_pos; [|apply Rlt_le, Rinv_0_lt_compat; lra].
    destruct (Rle_lt_dec dp s); [lra|]. assert (s * s < dp * dp) by nra. nra.
  - lra.
  - apply (Rmult_eq_reg_r P); [|lra].
    replace ((nd + sg * (2 * dp + sg * P)) * P) with (nd * P + (sg * P) * (2 * dp + sg * P)) by ring.
    rewrite E. nra.
Qed.

(** A vector at least as good as all points of the ball on the ray from x along p. *)
Definition best (n : nat) (g : fvec) (H : fmat) (R : R) (x p y : fvec) : Prop :=
  forall t, 0 <= t -> fsq n (fadd x (fscale t p)) <= R -> qval n g H y <= qval n g H (fadd x (fscale t p)).

Definition inv (n : nat) (g : fvec) (H : fmat) (radius : R) (s : sts) : Prop :=
  st_ok n H radius s /\ feq n (st_res s) (fopp (fadd g (fmv n H (st_x s)))) /\
  fdot n (fadd g (fmv n H (st_x s))) (st_p s) = - st_rz s /\ 0 < st_rz s.

Lemma fsq_ray n x p t : fsq n (fadd x (fscale t p)) = fdot n x x + t * (2 * fdot n x p + t * fdot n p p).
Proof.
  unfold fsq. rewrite fdot_add_l, !fdot_add_r, !fdot_scale_l, !fdot_scale_r. rewrite (fdot_comm n p x). ring.
Qed.

Lemma fsq_ext n x y : feq n x y -> fsq n x = fsq n y.
Proof. intros E. unfold fsq. now apply fdot_ext. Qed.
Lemma qval_ext n g H x y : feq n x y -> qval n g H x = qval n g H y.
Proof. intros E. rewrite !qval_fdot. rewrite (fdot_ext n g g x y), (fdot_fmv_ext n x y H x y E E); easy. Qed.

Lemma step_best n g H radius norm_r0 ttol divtol max_iter s : fsymm n H -> 0 < radius -> inv n g H radius s ->
  exists o, st_step n H radius norm_r0 ttol divtol max_iter s = Ok o /\
    match o with
    | inl y => best n g H (radius * radius) (st_x s) (st_p s) y
    | inr s' => best n g H (radius * radius) (st_x s) (st_p s) (st_x s') /\ inv n g H radius s'
    end.
Proof.
  intros Sy Hr ((O1 & O2 & O3 & O4 & O5 & O6) & I1 & I2 & I3). unfold st_step.
  set (x := st_x s) in *. set (p := st_p s) in *. set (k := st_kappa s) in *. set (rz := st_rz s) in *.
  assert (Hp : 0 < fdot n p p) by (apply (kappa_pos_p n H); lra).
  unfold div at 1. destruct (Reqb_spec k 0); [lra|]. cbn [bind].
  destruct (Reqb_spec radius 0); [lra|]. cbn [negb andb].
  set (al := rz / k) in *. assert (AK : al * k = rz) by (unfold al; field; lra).
  assert (AP : 0 < al) by (unfold al; now apply Rdiv_lt_0_compat).
  assert (Q : forall t, qval n g H (fadd x (fscale t p)) = qval n g H x - t * rz + / 2 * (t * t) * k).
  { intros t. rewrite qval_move by easy. rewrite I2, O4. ring. }
  rewrite O1, O2, O3. rewrite <- fsq_ray. change (fdot n x x) with (fsq n x) in *.
  set (x1 := fadd x (fscale al p)).
  destruct (Rleb_spec (radius * radius) (fsq n x1)) as [B|B].
  - destruct (Rltb_spec 0 (fdot n p p)); [|lra].
    destruct (to_boundary x p (fdot n x p) (radius * radius) (fsq n x) _ Hp O6) as (sg & -> & S0 & S1 & S2).
    cbn [bind]. eexists. split; [reflexivity|]. cbn beta iota.
    unfold x1 in B. rewrite fsq_ray in B. change (fdot n x x) with (fsq n x) in B.
    set (P := fdot n p p) in *. set (dp := fdot n x p) in *.
    assert (SA : sg <= al).
    { destruct (Rle_lt_dec sg al) as [|L]; [easy|]. exfalso.
      assert (D : (sg - al) * (2 * dp + (sg + al) * P) <= 0) by lra.
      assert (D2 : 2 * dp + (sg + al) * P <= 0).
      { destruct (Rle_lt_dec (2 * dp + (sg + al) * P) 0) as [|W]; [easy|].
        assert (0 < (sg - al) * (2 * dp + (sg + al) * P)) by (apply Rmult_lt_0_compat; lra). lra. }
      assert (0 < sg * P) by (apply Rmult_lt_0_compat; lra).
      assert (al * (2 * dp + al * P) < 0); [|lra].
      assert (0 < al * - (2 * dp + al * P)); [|lra]. apply Rmult_lt_0_compat; lra. }
    intros t T0 TB. rewrite fsq_ray in TB. change (fdot n x x) with (fsq n x) in TB. fold dp P in TB.
    assert (TS : t <= sg).
    { destruct (Rle_lt_dec t sg) as [|L]; [easy|]. exfalso.
      assert (0 < (t - sg) * (2 * (dp + sg * P) + (t - sg) * P)); [|lra].
      apply Rmult_lt_0_compat; [lra|]. assert (0 < (t - sg) * P) by (apply Rmult_lt_0_compat; lra). lra. }
    rewrite !Q. rewrite <- AK.
    assert (0 <= (sg - t) * (2 * al - sg - t) * k); [|lra].
    repeat apply Rmult_le_pos; lra.
  - set (r1 := fsub (st_res s) (fscale al (fmv n H p))). cbn zeta.
    assert (R1 : feq n r1 (fopp (fadd g (fmv n H x1)))).
    { intros i Hi. unfold r1, fsub. rewrite (I1 i Hi). unfold fopp, fadd at 1 2, fscale at 1.
      unfold x1. rewrite fmv_add, fmv_scale. ring. }
    assert (BX : best n g H (radius * radius) x p x1).
    { intros t T0 _. unfold x1. rewrite !Q. rewrite <- AK.
      assert (0 <= (t - al) * (t - al) * k); [|lra]. apply Rmult_le_pos; [apply Rle_0_sqr|lra]. }
    assert (X1 : fsq n x1 <= radius * radius) by lra.
    destruct (st_check _ _ _ _ _ _) as [cv dv].
    destruct (cv || dv); [eexists; split; [reflexivity|exact BX]|].
    unfold div. destruct (Reqb_spec rz 0); [lra|]. cbn [bind].
    set (rz1 := fdot n r1 r1). set (be := rz1 / rz).
    destruct (Rleb_spec (Rabs be) 0) as [|Nb]; [eexists; split; [reflexivity|exact BX]|].
    assert (Z1 : 0 < rz1).
    { pose proof (fsq_nonneg n r1) as N. change (fsq n r1) with rz1 in N. destruct (Req_dec rz1 0) as [E|]; [|lra].
      elim Nb. unfold be. rewrite E. unfold Rdiv. rewrite Rmult_0_l, Rabs_R0. lra. }
    destruct (max_iter <=? st_iter s)%nat; [eexists; split; [reflexivity|exact BX]|].
    set (p1 := fadd r1 (fscale be p)).
    assert (D1 : fdot n (fadd g (fmv n H x1)) p1 = - rz1).
    { assert (G : feq n (fadd g (fmv n H x1)) (fopp r1)).
      { intros i Hi. unfold fopp. rewrite (R1 i Hi). unfold fopp. ring. }
      rewrite (fdot_ext n _ _ p1 p1 G) by easy. rewrite fdot_opp_l. f_equal.
      unfold p1. rewrite fdot_add_r, fdot_scale_r. fold rz1.
      assert (fdot n r1 p = 0) as ->; [|ring]. unfold r1. rewrite fdot_sub_l, fdot_scale_l.
      rewrite (fdot_ext n (st_res s) _ p p I1) by easy. rewrite fdot_opp_l, I2.
      rewrite (fdot_comm n (fmv n H p) p), <- O4. lra. }
    destruct (Rleb_spec (fdot n p1 (fmv n H p1)) 0) as [K|K].
    + destruct (Rltb_spec 0 (fdot n p1 p1)) as [PP|]; [|eexists; split; [reflexivity|exact BX]].
      destruct (to_boundary x1 p1 (fdot n x1 p1) (radius * radius) (fdot n x1 x1) _ PP X1) as (sg & -> & S0 & _ & _).
      cbn [bind]. eexists. split; [reflexivity|]. cbn beta iota.
      intros t T0 TB. eapply Rle_trans; [|apply (BX t T0 TB)]. rewrite qval_move by easy. rewrite D1.
      assert (0 <= sg * rz1) by (apply Rmult_le_pos; lra).
      assert (0 <= sg * sg * - fdot n p1 (fmv n H p1)) by (apply Rmult_le_pos; [apply Rle_0_sqr|lra]). lra.
    + cbn [bind]. eexists. split; [reflexivity|]. cbn beta iota. cbn [st_x]. split; [exact BX|].
      unfold inv, st_ok. cbn [st_norm_d st_x st_dp st_p st_norm_p st_kappa st_res st_rz].
      splits; try easy; lra.
Qed.

Lemma loop_best n g H radius norm_r0 ttol divtol max_iter : fsymm n H -> 0 < radius ->
  forall k s, inv n g H radius s ->
  exists y, st_loop k n H radius norm_r0 ttol divtol max_iter s = Ok y /\ qval n g H y <= qval n g H (st_x s) /\
    ((0 < k)%nat -> best n g H (radius * radius) (st_x s) (st_p s) y).
Proof.
  intros Sy Hr. induction k as [|k IH]; intros s I; cbn [st_loop].
  { eexists. split; [reflexivity|]. split; [apply Rle_refl|lia]. }
  destruct (step_best n g H radius norm_r0 ttol divtol max_iter s Sy Hr I) as (o & -> & B). cbn [bind].
  assert (Z : forall y, best n g H (radius * radius) (st_x s) (st_p s) y -> qval n g H y <= qval n g H (st_x s)).
  { intros y By. specialize (By 0 (Rle_refl 0)). rewrite fsq_ray in By. rewrite qval_move in By by easy.
    destruct I as ((_ & _ & _ & _ & _ & O6) & _). unfold fsq in O6. lra. }
  destruct o as [y|s'].
  - exists y. auto.
  - destruct B as [B I']. destruct (IH s' I') as (y & -> & L & _). exists y. split; [reflexivity|].
    assert (By : best n g H (radius * radius) (st_x s) (st_p s) y).
    { intros t T0 TB. eapply Rle_trans; [exact L|]. now apply B. }
    auto.
Qed.

(** C206 - the Cauchy decrease.  If the pseudo-inverse solves for the gradient (it lies in the range
    of the Hessian) and the curvature along the gradient is positive, then the solver returns a
    vector at least as good as every multiple of the gradient inside the ball. *)
Theorem C206_cauchy_decrease_partial :
  forall pinv n g H radius,
    fsymm n H -> 0 < radius ->
    (forall i, (i < n)%nat -> fmv n H (fmv n (pinv n H) g) i = g i) ->
    0 < bsum n (fun i => bsum n (fun j => g i * H i j * g j)) ->
    exists x, minimize_trust_stcg pinv n g H radius = Ok x /\
      forall t, 0 <= t -> fnorm n (fscale (- t) g) <= radius -> qval n g H x <= qval n g H (fscale (- t) g).
Proof.
  intros pinv n g H radius Sy Hr HP HK. rewrite <- fdot_fmv in HK.
  unfold minimize_trust_stcg. cbv zeta.
  set (p := fmv n H (fmv n (pinv n H) (fopp g))).
  assert (EP : feq n p (fopp g)).
  { assert (Ez : feq n (fmv n (pinv n H) (fopp g)) (fscale (-1) (fmv n (pinv n H) g))).
    { intros i Hi. unfold fscale. rewrite <- fmv_scale. apply fmv_ext. intros j Hj. unfold fopp, fscale. ring. }
    intros i Hi. unfold p. rewrite (fmv_ext n H _ _ i Ez), fmv_scale, (HP i Hi). unfold fopp. ring. }
  assert (EK : fdot n p (fmv n H p) = fdot n g (fmv n H g)).
  { rewrite (fdot_fmv_ext n p (fopp g) H p (fopp g) EP EP).
    rewrite (fdot_fmv_ext n (fopp g) (fscale (-1) g) H (fopp g) (fscale (-1) g)) by (intros i _; unfold fopp, fscale; ring).
    rewrite fdot_fmv_scale_r, fdot_scale_l. ring. }
  assert (EG : fdot n (fopp g) (fopp g) = fsq n g) by (rewrite fdot_opp_l, fdot_opp_r; unfold fsq; ring).
  assert (Gp : 0 < fsq n g) by (apply (kappa_pos_p n H g HK)).
  destruct (st_check _ _ _ _ _ _) as [cv dv]. rewrite EK. destruct (Rleb_spec (fdot n g (fmv n H g)) 0); [lra|]. cbn [bind].
  assert (I : inv n g H radius (mkSt fzero (fopp g) p (fdot n (fopp g) (fopp g)) (fdot n g (fmv n H g)) 0 0 (fdot n p p) cv dv 1)).
  { assert (Z0 : feq n (fadd g (fmv n H fzero)) g).
    { intros i Hi. unfold fadd. rewrite (fmv_zero n H i). ring. }
    unfold inv, st_ok. cbn [st_norm_d st_x st_dp st_p st_norm_p st_kappa st_res st_rz].
    splits; try easy.
    - now rewrite fdot_zero_l.
    - now rewrite fdot_zero_l.
    - unfold fsq. rewrite fdot_zero_l. nra.
    - intros i Hi. unfold fopp. now rewrite (Z0 i Hi).
    - rewrite EG. rewrite (fdot_ext n _ _ _ _ Z0 EP), fdot_opp_r. reflexivity.
    - rewrite EG. exact Gp. }
  destruct (loop_best n g H radius (sqrt (fdot n (fopp g) (fopp g)))
     (Rmax (/ 10 ^ 5 * sqrt (fdot n (fopp g) (fopp g))) (/ 10 ^ 50)) 10000 (Nat.min n (Z.to_nat 10000)) Sy Hr
     (Nat.min n (Z.to_nat 10000)) _ I) as (x & E & _ & B).
  exists x. split; [exact E|]. cbn [st_x st_p] in B.
  assert (N : (0 < Nat.min n (Z.to_nat 10000))%nat).
  { destruct n as [|m]; [cbn in Gp; lra|]. apply Nat.min_glb_lt; lia. }
  specialize (B N). intros t T0 T1.
  assert (ER : feq n (fadd fzero (fscale t p)) (fscale (- t) g)).
  { intros i Hi. unfold fadd, fzero, fscale. rewrite (EP i Hi). unfold fopp. ring. }
  specialize (B t T0). rewrite (fsq_ext n _ _ ER) in B. rewrite (qval_ext n g H _ _ ER) in B. apply B.
  apply fnorm_le_iff in T1; lra.
Qed.

(** With a bound beta on the curvature along the gradient. *)
Theorem C206_decrease_bound_partial :
  forall pinv n g H radius beta,
    fsymm n H -> 0 < radius ->
    (forall i, (i < n)%nat -> fmv n H (fmv n (pinv n H) g) i = g i) ->
    0 < bsum n (fun i => bsum n (fun j => g i * H i j * g j)) <= beta * bsum n (fun i => g i * g i) ->
    exists x, minimize_trust_stcg pinv n g H radius = Ok x /\
      qval n g H x <= - (/ 2 * fnorm n g * Rmin radius (fnorm n g / beta)).
Proof.
  intros pinv n g H radius beta Sy Hr HP [K1 K2].
  destruct (C206_cauchy_decrease_partial pinv n g H radius Sy Hr HP K1) as (x & E & B). exists x. split; [exact E|].
  rewrite <- fdot_fmv in K1, K2. change (bsum n (fun i => g i * g i)) with (fsq n g) in K2.
  assert (Gp : 0 < fsq n g) by (apply (kappa_pos_p n H g K1)).
  assert (Np : 0 < fnorm n g) by (apply sqrt_lt_R0; exact Gp).
  assert (Hb : 0 < beta).
  { destruct (Rle_lt_dec beta 0); [|easy]. assert (beta * fsq n g <= 0) by nra. lra. }
  destruct (cauchy_point n g H radius beta (Rlt_le _ _ Hr) Np Hb K2) as (t & T0 & T1 & T2).
  eapply Rle_trans; [now apply (B t)|exact T2].
Qed.

(** The gradient must lie in the range of the Hessian.  The first direction is the projection of -g
    on that range, but its step length is computed from g: with g = (1, 2), H = diag(1, 0), whose
    pseudo-inverse is H itself, and radius 3 the solver returns (-3, 0), where the model is worse
    than at the center. *)
Theorem C206_cauchy_decrease_refuted :
  forall pinv, (forall i j, (i < 2)%nat -> (j < 2)%nat -> pinv 2%nat (diag2 1 0) i j = diag2 1 0 i j) ->
    exists x, minimize_trust_stcg pinv 2 (vec2 1 2) (diag2 1 0) 3 = Ok x /\
      x 0%nat = -3 /\ x 1%nat = 0 /\
      0 < bsum 2 (fun i => bsum 2 (fun j => vec2 1 2 i * diag2 1 0 i j * vec2 1 2 j)) /\
      qval 2 (vec2 1 2) (diag2 1 0) fzero < qval 2 (vec2 1 2) (diag2 1 0) x.
Proof.
  intros pinv HP. unfold minimize_trust_stcg. cbv zeta.
  set (g := vec2 1 2). set (H := diag2 1 0) in *.
  set (z := fmv 2 (pinv 2%nat H) (fopp g)).
  assert (Z0 : z 0%nat = -1).
  { unfold z, fmv. cbn [bsum]. rewrite !HP by lia. unfold H, g, fopp, vec2, diag2. simpl. lra. }
  assert (Z1 : z 1%nat = 0).
  { unfold z, fmv. cbn [bsum]. rewrite !HP by lia. unfold H, g, fopp, vec2, diag2. simpl. lra. }
  set (p := fmv 2 H z).
  assert (P0 : p 0%nat = -1) by (unfold p, fmv; cbn [bsum]; rewrite Z0, Z1; unfold H, diag2; simpl; lra).
  assert (P1 : p 1%nat = 0) by (unfold p, fmv; cbn [bsum]; rewrite Z0, Z1; unfold H, diag2; simpl; lra).
  assert (PP : fdot 2 p p = 1) by (unfold fdot; cbn [bsum]; rewrite P0, P1; lra).
  assert (KK : fdot 2 p (fmv 2 H p) = 1) by (unfold fdot, fmv; cbn [bsum]; rewrite P0, P1; unfold H, diag2; simpl; lra).
  assert (GG : fdot 2 (fopp g) (fopp g) = 5) by (unfold fdot, g, fopp, vec2; simpl; lra).
  rewrite PP, KK, GG. destruct (st_check _ _ _ _ _ _) as [cv dv].
  destruct (Rleb_spec 1 0); [lra|]. cbn [bind].
  assert (Ek : Nat.min 2 (Z.to_nat 10000) = 2%nat) by (apply Nat.min_l; lia). rewrite Ek.
  cbn [st_loop]. unfold st_step at 1. cbn [st_rz st_kappa st_norm_d st_dp st_norm_p st_x st_p].
  unfold div at 1. destruct (Reqb_spec 1 0); [lra|]. cbn [bind]. destruct (Reqb_spec 3 0); [lra|]. cbn [negb andb].
  destruct (Rleb_spec (3 * 3) (0 + 5 / 1 * (2 * 0 + 5 / 1 * 1))) as [_|N]; [|elim N; lra].
  destruct (Rltb_spec 0 1); [|lra].
  unfold st_to_boundary, msqrt. destruct (Rltb_spec (0 * 0 + 1 * (3 * 3 - 0)) 0); [lra|]. cbn [bind].
  unfold div. destruct (Reqb_spec 1 0); [lra|]. cbn [bind].
  assert (SQ : sqrt (0 * 0 + 1 * (3 * 3 - 0)) = 3).
  { replace (0 * 0 + 1 * (3 * 3 - 0)) with (3 * 3) by lra. apply sqrt_square. lra. }
  rewrite SQ. eexists. split; [reflexivity|].
  set (x := fadd fzero (fscale ((3 - 0) / 1) p)).
  assert (X0 : x 0%nat = -3) by (unfold x, fadd, fzero, fscale; rewrite P0; lra).
  assert (X1 : x 1%nat = 0) by (unfold x, fadd, fzero, fscale; rewrite P1; lra).
  split; [exact X0|]. split; [exact X1|]. split.
  - unfold g, H, vec2, diag2. simpl. lra.
  - unfold qval. cbn [bsum]. rewrite X0, X1. unfold g, H, vec2, diag2, fzero. simpl. lra.
Qed.

(** Gradient (2, 1), Hessian diag(2, -1), its inverse, radius 1. *)
Example C206_instance : exists pinv x,
  fsymm 2 (diag2 2 (-1)) /\
  (forall i, (i < 2)%nat -> fmv 2 (diag2 2 (-1)) (fmv 2 (pinv 2%nat (diag2 2 (-1))) (vec2 2 1)) i = vec2 2 1 i) /\
  bsum 2 (fun i => bsum 2 (fun j => vec2 2 1 i * diag2 2 (-1) i j * vec2 2 1 j)) = 7 /\
  minimize_trust_stcg pinv 2 (vec2 2 1) (diag2 2 (-1)) 1 = Ok x /\
  qval 2 (vec2 2 1) (diag2 2 (-1)) x <= - / 2.
Proof.
  set (pinv := fun (_ : nat) (_ : fmat) => diag2 (/ 2) (-1)). exists pinv.
  set (g := vec2 2 1). set (H := diag2 2 (-1)).
  assert (S : fsymm 2 H).
  { intros i j Hi Hj. unfold H, diag2. destruct i as [|[|]]; destruct j as [|[|]]; try lia; reflexivity. }
  assert (P : forall i, (i < 2)%nat -> fmv 2 H (fmv 2 (pinv 2%nat H) g) i = g i).
  { intros i Hi. destruct i as [|[|]]; try lia; unfold fmv, pinv, H, g, diag2, vec2; simpl; lra. }
  assert (K : bsum 2 (fun i => bsum 2 (fun j => g i * H i j * g j)) = 7) by (unfold g, H, diag2, vec2; simpl; lra).
  destruct (C206_cauchy_decrease_partial pinv 2 g H 1 S ltac:(lra) P ltac:(rewrite K; lra)) as (x & E & B).
  exists x. repeat (split; [easy|]). eapply Rle_trans; [apply (B (/ 4))|].
  - lra.
  - apply fnorm_le_iff; [lra|]. unfold fsq, fdot, fscale, g, vec2. simpl. lra.
  - unfold qval, fscale, g, H, vec2, diag2. simpl. lra.
Qed.
