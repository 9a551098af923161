(** C205: the decrease of the model by trsbox. *)
From Coq Require Import Reals List Arith ZArith Bool Lia Lra Psatz FunctionalExtensionality.
From Verif Require Import Base XR FVec CgModel Prop_Cg TrsboxModel TrsboxProofs.
Import ListNotations.
Open Scope R_scope.

(** * The tracked reduction never falls *)

Lemma tb_pass_total n H lower upper s o : tb_pass n H lower upper s = Ok o ->
  tb_total s <= tb_total (match o with TbStop _ s' => s' | TbNext s' => s' end).
Proof.
  unfold tb_pass. cbv zeta. intros E.
  destruct (Reqb (fdot n _ _) 0); [injection E as <-; apply Rle_refl|].
  destruct (get (if Reqb (tb_beta s) 0 then _ else _)) as [G|]; [|discriminate]. cbn [bind] in E.
  destruct (get (if (tb_niter s =? 0)%nat then _ else _)) as [v|]; [|discriminate]. cbn [bind] in E.
  match type of E with (if ?c then _ else _) = _ => destruct c end; [injection E as <-; apply Rle_refl|].
  match type of E with (if ?c then _ else _) = _ => destruct c end; [injection E as <-; apply Rle_refl|].
  match type of E with bind ?r _ = _ => destruct r as [[st dist]|] end; [|discriminate]. cbn [bind] in E.
  match type of E with (if ?c then _ else _) = _ => destruct c end; [injection E as <-; apply Rle_refl|].
  destruct (tb_constrained_step n _ _ lower upper st) as [sl act].
  set (red := if Rltb 0 sl then Rmax _ 0 else 0) in E.
  assert (Hr : 0 <= red) by (unfold red; destruct (Rltb 0 sl); [apply Rmax_r|lra]).
  destruct act as [k|].
  - match type of E with (if ?c then _ else _) = _ => destruct c end; injection E as <-; cbn [tb_total]; lra.
  - match type of E with (if ?c then _ else _) = _ => destruct c end; [injection E as <-; cbn [tb_total]; lra|].
    match type of E with (if ?c then _ else _) = _ => destruct c end; [injection E as <-; cbn [tb_total]; lra|].
    destruct (get (if Rltb 0 sl then _ else _)) as [old|]; [|discriminate]. cbn [bind] in E.
    destruct (div _ old) as [beta|]; [|discriminate]. cbn [bind] in E. injection E as <-. cbn [tb_total]. lra.
Qed.

Lemma tb_main_total n H lower upper k : forall s a s', tb_main k n H lower upper s = Ok (a, s') ->
  tb_total s <= tb_total s'.
Proof.
  induction k as [|k IH]; intros s a s' E; cbn [tb_main] in E.
  - injection E as _ <-. apply Rle_refl.
  - destruct (tb_pass n H lower upper s) as [o|] eqn:EP; [|discriminate]. cbn [bind] in E.
    apply tb_pass_total in EP. destruct o as [al s1|s1].
    + injection E as _ <-. exact EP.
    + eapply Rle_trans; [exact EP|]. eapply IH; eauto.
Qed.

Lemma tb_alt_pass_total n H lower upper xr s o : tb_alt_pass n H lower upper xr s = Ok o ->
  al_total s <= al_total (match o with AltStop _ s' => s' | AltNext s' => s' end).
Proof.
  unfold tb_alt_pass. cbv zeta. intros E.
  match type of E with (if ?c then _ else _) = _ => destruct c end; [injection E as <-; apply Rle_refl|].
  destruct (msqrt _) as [root|]; [|discriminate]. cbn [bind] in E.
  destruct (Reqb root 0); [discriminate|].
  match type of E with bind ?r _ = _ => destruct r as [t|] end; [|discriminate]. cbn [bind] in E.
  destruct (tn_reached t); [injection E as <-; apply Rle_refl|].
  match type of E with match ?a with _ => _ end = _ => destruct a as [idx|] end;
    [|injection E as <-; apply Rle_refl].
  match type of E with bind ?r _ = _ => destruct r as [tg|] end; [|discriminate]. cbn [bind] in E.
  match type of E with (if Rleb ?r 0 then _ else _) = _ => set (red := r) in E; destruct (Rleb_spec red 0) as [L|L] end;
    [injection E as <-; apply Rle_refl|].
  destruct (tn_act t) as [[k bd]|].
  - match type of E with (if ?c then _ else _) = _ => destruct c end; [injection E as <-; cbn [al_total]; lra|].
    match type of E with (if ?c then _ else _) = _ => destruct c end; injection E as <-; cbn [al_total]; lra.
  - match type of E with (if ?c then _ else _) = _ => destruct c end; injection E as <-; cbn [al_total]; lra.
Qed.

Lemma tb_alt_inner_total n H lower upper xr k : forall s r s',
  tb_alt_inner k n H lower upper xr s = Ok (r, s') -> al_total s <= al_total s'.
Proof.
  induction k as [|k IH]; intros s a s' E; cbn [tb_alt_inner] in E.
  - injection E as _ <-. apply Rle_refl.
  - destruct (tb_alt_pass n H lower upper xr s) as [o|] eqn:EP; [|discriminate]. cbn [bind] in E.
    apply tb_alt_pass_total in EP. destruct o as [al s1|s1].
    + injection E as _ <-. exact EP.
    + eapply Rle_trans; [exact EP|]. eapply IH; eauto.
Qed.

Section Box.
Variables (n : nat) (H : fmat) (lower upper g : fvec) (radius : R).
Hypothesis Hbox : forall i, (i < n)%nat -> lower i <= 0 <= upper i.
Hypothesis Hsym : fsymm n H.

Lemma qval_feq x y : feq n x y -> qval n g H x = qval n g H y.
Proof.
  intros E. rewrite !qval_fdot. f_equal; [|f_equal].
  - apply fdot_ext; [easy|]. exact E.
  - apply fdot_fmv_ext; exact E.
Qed.

Lemma value_apply x b gx total : AI n H lower upper g radius x b gx total ->
  qval n g H (tb_apply_bounds x b lower upper) = - total /\
  qval n g H (tb_apply_bounds (tb_apply_bounds x b lower upper) b lower upper) = - total.
Proof.
  intros (I & A & _ & (_ & _ & T3)). pose proof (apply_bounds_id n lower upper x b I A) as E1.
  pose proof (tb_apply_twice n lower upper x b I A) as E2.
  assert (Q : qval n g H (tb_apply_bounds x b lower upper) = - total) by (rewrite (qval_feq _ _ E1); auto).
  split; [exact Q|]. now rewrite (qval_feq _ _ E2).
Qed.

Lemma alt_outer_value inner k : forall x b gx total nf y, AI n H lower upper g radius x b gx total ->
  tb_alt_outer k inner n H lower upper x b gx total nf = Ok y -> qval n g H y <= - total.
Proof.
  induction k as [|k IH]; intros x b gx total nf y A E; cbn [tb_alt_outer] in E.
  - injection E as <-. apply Req_le. eapply value_apply; eauto.
  - destruct (n <=? S nf)%nat.
    + injection E as <-. apply Req_le. eapply value_apply; eauto.
    + match type of E with context [tb_alt_inner inner n H lower upper ?xr ?st] =>
        destruct (tb_alt_inner_spec n H lower upper g radius Hbox xr inner st) as (r & s' & EI & Q);
        [|pose proof (tb_alt_inner_total n H lower upper xr inner st r s' EI) as T; rewrite EI in E] end.
      * split; cbn [al_x al_b al_g al_total al_xgrad al_gred al_hred]; easy.
      * cbn [bind] in E. cbn [al_total] in T. destruct r.
        -- specialize (IH _ _ _ _ _ _ Q E). lra.
        -- injection E as <-. apply Rle_trans with (- al_total s'); [|lra]. apply Req_le.
           eapply value_apply; eauto.
Qed.

(** The model value of the result is at most minus the reduction after the first pass. *)
Lemma trsbox_value o x : (0 < n)%nat ->
  tb_pass n H lower upper (tb_init n g lower upper radius) = Ok o ->
  minimize_trust_trsbox n g H radius lower upper = Ok x ->
  qval n g H x <= - tb_total (match o with TbStop _ s' => s' | TbNext s' => s' end).
Proof.
  intros Hn EP E. unfold minimize_trust_trsbox in E.
  destruct (tb_main_spec n H lower upper g radius (100 * (n * n)) _
              (tb_init_MI n H lower upper g radius Hbox)) as (a & s & EM & A).
  rewrite EM in E. cbn [bind] in E.
  assert (T : tb_total (match o with TbStop _ s' => s' | TbNext s' => s' end) <= tb_total s).
  { destruct (100 * (n * n))%nat as [|k] eqn:K; [destruct n; [lia|discriminate]|].
    cbn [tb_main] in EM. rewrite EP in EM. cbn [bind] in EM. destruct o as [al s1|s1].
    - injection EM as _ <-. apply Rle_refl.
    - eapply tb_main_total; eauto. }
  destruct a.
  - pose proof (alt_outer_value _ _ _ _ _ _ _ _ A E). lra.
  - injection E as <-. destruct (value_apply _ _ _ _ A) as [-> _]. lra.
Qed.

(** The steepest descent direction, without the parameters that are at a bound and would leave
    the box. *)
Definition descent : fvec := fun i =>
  if Rleb (upper i) 0 && Rleb (g i) 0 then 0 else if Rleb 0 (lower i) && Rleb 0 (g i) then 0 else - g i.
Definition on_ray (t : R) : Prop :=
  0 <= t /\ fnorm n (fscale t descent) <= radius /\
  forall i, (i < n)%nat -> lower i <= fscale t descent i <= upper i.

Lemma qval_ray t : qval n g H (fscale t descent) =
  - (t * (fsq n descent - / 2 * t * fdot n descent (fmv n H descent))).
Proof.
  rewrite qval_fdot. rewrite fdot_fmv_scale_r, fdot_scale_l, !fdot_scale_r.
  replace (fdot n g descent) with (- fsq n descent); [field|].
  unfold fsq, fdot. rewrite <- bsum_opp. apply bsum_ext. intros i _. unfold descent.
  destruct (Rleb (upper i) 0 && Rleb (g i) 0); [ring|]. destruct (Rleb 0 (lower i) && Rleb 0 (g i)); ring.
Qed.

Lemma first_pass : 0 < radius -> 0 < fsq n descent ->
  / 10 ^ 30 * fnorm n descent < radius ->
  / 10 ^ 30 * fdot n descent (fmv n H descent) < fsq n descent ->
  exists o, tb_pass n H lower upper (tb_init n g lower upper radius) = Ok o /\
    forall t, on_ray t ->
      t * (fsq n descent - / 2 * t * fdot n descent (fmv n H descent))
        <= tb_total (match o with TbStop _ s' => s' | TbNext s' => s' end).
Proof.
  intros Hr HP T1 T2. unfold tb_pass. cbv zeta.
  set (b := tb_b (tb_init n g lower upper radius)).
  cbn [tb_init tb_beta tb_g tb_gp tb_niter tb_gsq tb_gsq0 tb_delta tb_total tb_x tb_nfixed tb_maxiter].
  destruct (Reqb_spec 0 0) as [_|C]; [|now elim C]. cbn [Nat.eqb].
  set (gp := fun i : nat => if free b i then - g i else 0).
  assert (GE : gp = descent).
  { apply functional_extensionality. intros i. unfold gp, descent, free, b. cbn [tb_init tb_b].
    destruct (Rleb (upper i) 0 && Rleb (g i) 0); [reflexivity|].
    destruct (Rleb 0 (lower i) && Rleb 0 (g i)); reflexivity. }
  assert (GF : forall i, free b i = false -> descent i = 0).
  { intros i F. rewrite <- GE. unfold gp. now rewrite F. }
  rewrite GE. clear GE gp. set (p := descent) in *.
  change (fdot n p p) with (fsq n p). set (P := fsq n p) in *.
  assert (MP : mask b p = p) by now apply mask_zero_off.
  rewrite !(mdot_mask n b p), MP, (mdot_mask n b fzero). rewrite fdot_zero_r, fdot_zero_r. rewrite Rminus_0_r.
  set (gHg := fdot n p (fmv n H p)) in *.
  destruct (Reqb_spec P 0); [lra|]. cbn [get bind].
  assert (R2 : 0 < radius * radius) by nra.
  assert (P6 : 0 < / 10 ^ 6) by (apply Rinv_0_lt_compat, pow_lt; lra).
  assert (P61 : / 10 ^ 6 < 1) by (rewrite <- Rinv_1; apply Rinv_lt_contravar; [rewrite Rmult_1_l; apply pow_lt; lra|]; lra).
  destruct (Rleb_spec P (Rmin (/ 10 ^ 6 * P) (/ 10 ^ 18))) as [L|_].
  { pose proof (Rmin_l (/ 10 ^ 6 * P) (/ 10 ^ 18)). nra. }
  destruct (Rleb_spec (P * (radius * radius)) (Rmin (/ 10 ^ 6 * (0 * 0)) (/ 10 ^ 18))) as [L|_].
  { pose proof (Rmin_l (/ 10 ^ 6 * (0 * 0)) (/ 10 ^ 18)). assert (0 < P * (radius * radius)) by nra. lra. }
  cbn [orb]. destruct (Rleb_spec (radius * radius) 0) as [L|_]; [lra|].
  (* the unconstrained step *)
  unfold tb_unconstrained_step, msqrt.
  assert (PR : 0 < P * (radius * radius) + 0 * 0) by nra.
  destruct (Rltb_spec (P * (radius * radius) + 0 * 0) 0); [lra|]. cbn [bind].
  destruct (Rleb_spec 0 0) as [_|C]; [|lra].
  assert (SQ : sqrt (P * (radius * radius) + 0 * 0) = fnorm n p * radius).
  { rewrite Rmult_0_l, Rplus_0_r. rewrite sqrt_mult by lra. rewrite sqrt_square by lra. reflexivity. }
  rewrite SQ, Rplus_0_r.
  assert (NP : 0 < fnorm n p) by (apply sqrt_lt_R0; exact HP).
  assert (NP2 : fnorm n p * fnorm n p = P) by apply fnorm_sqr.
  unfold div at 1. destruct (Reqb_spec (fnorm n p * radius) 0) as [C|_]; [nra|]. cbn [bind].
  set (dist := radius * radius / (fnorm n p * radius)).
  assert (ED : dist * fnorm n p = radius) by (unfold dist; field; lra).
  assert (Dpos : 0 < dist) by (unfold dist; apply Rdiv_lt_0_compat; nra).
  assert (E30 : 0 < / 10 ^ 30) by (apply Rinv_0_lt_compat, pow_lt; lra).
  assert (ST : exists st, (if Rleb gHg 0 then Ok (dist, dist)
             else let* q := div P gHg in Ok (Rmin dist q, dist)) = Ok (st, dist) /\ / 10 ^ 30 < st <= dist /\
             (0 < gHg -> st * gHg <= P) /\ (st < dist -> 0 < gHg /\ st * gHg = P)).
  { assert (D30 : / 10 ^ 30 < dist).
    { apply (Rmult_lt_reg_r (fnorm n p)); [easy|]. rewrite ED. exact T1. }
    destruct (Rleb_spec gHg 0) as [L|L].
    - exists dist. split; [easy|]. split; [lra|]. split; [lra|lra].
    - apply Rnot_le_lt in L || idtac. unfold div. destruct (Reqb_spec gHg 0); [lra|]. cbn [bind].
      exists (Rmin dist (P / gHg)). split; [easy|].
      assert (EQ : P / gHg * gHg = P) by (field; lra).
      split; [split; [|apply Rmin_l]|split].
      + apply Rmin_glb_lt; [easy|]. apply (Rmult_lt_reg_r gHg); [lra|]. rewrite EQ. exact T2.
      + intros _. rewrite <- EQ at 2. apply Rmult_le_compat_r; [lra|apply Rmin_r].
      + intros LT. split; [lra|]. revert LT. unfold Rmin. destruct (Rle_dec dist (P / gHg)); [lra|]. intros _. exact EQ. }
  destruct ST as (st & -> & [St1 St2] & Q2 & Q3). cbn [bind].
  destruct (Rleb_spec st (/ 10 ^ 30)) as [L|_]; [lra|].
  pose proof (constrained_step_spec n H lower upper g fzero p st) as CS.
  destruct (tb_constrained_step n fzero p lower upper st) as [sl act]. destruct CS as (C1 & C2 & C3).
  set (red := if Rltb 0 sl then Rmax (sl * (P - / 2 * sl * gHg)) 0 else 0).
  (* the value at every point of the ray *)
  assert (RAY : forall t, on_ray t -> t * (P - / 2 * t * gHg) <= 0 + red).
  { intros t (Ht & Nt & Bt). fold p in Nt, Bt. rewrite Rplus_0_l.
    assert (LD : t <= dist).
    { apply (Rmult_le_reg_r (fnorm n p)); [easy|]. rewrite ED. rewrite fnorm_scale in Nt.
      rewrite Rabs_pos_eq in Nt by easy. lra. }
    assert (UP : t <= sl -> t * (P - / 2 * t * gHg) <= sl * (P - / 2 * sl * gHg)).
    { intros L. assert (0 <= (sl - t) * (P - / 2 * (sl + t) * gHg)); [|nra].
      apply Rmult_le_pos; [lra|]. destruct (Rle_lt_dec gHg 0) as [W|W]; [nra|]. specialize (Q2 W).
      assert ((sl + t) * gHg <= 2 * (st * gHg)); [|lra]. assert (sl + t <= 2 * st) by lra. nra. }
    assert (MAIN : t * (P - / 2 * t * gHg) <= sl * (P - / 2 * sl * gHg) /\ (sl <= 0 -> t = 0)).
    { destruct act as [k|].
      - destruct C3 as (K1 & K2 & K3). specialize (Bt k K1). unfold fscale in Bt.
        assert (L : t <= sl).
        { rewrite K3. unfold constr, fzero. rewrite !Rminus_0_r.
          destruct (Rltb_spec 0 (p k)) as [Z|Z].
          - apply (Rmult_le_reg_r (p k)); [easy|]. unfold Rdiv. rewrite Rmult_assoc, Rinv_l, Rmult_1_r by easy. lra.
          - apply (Rmult_le_reg_r (- p k)); [lra|].
            replace (lower k / p k * - p k) with (- lower k) by (field; easy). lra. }
        split; [now apply UP|lra].
      - subst sl. split; [|lra]. destruct (Rle_lt_dec dist st) as [D|D]; [apply UP; lra|].
        destruct (Q3 D) as [W1 W2].
        assert (0 <= / 2 * gHg * ((t - st) * (t - st))); [|nra].
        apply Rmult_le_pos; [lra|]. apply Rle_0_sqr. }
    destruct MAIN as [M1 M2]. unfold red. destruct (Rltb_spec 0 sl) as [L|L].
    - eapply Rle_trans; [exact M1|apply Rmax_l].
    - rewrite (M2 ltac:(lra)). lra. }
  destruct act as [k|].
  - match goal with |- context [if ?c then Ok (TbStop true ?u) else Ok (TbNext ?u)] =>
      destruct c; [exists (TbStop true u)|exists (TbNext u)] end; (split; [reflexivity|]); exact RAY.
  - match goal with |- context [if ?c then Ok (TbStop true ?u) else _] =>
      destruct c; [exists (TbStop true u); split; [reflexivity|exact RAY]|] end.
    match goal with |- context [if ?c then Ok (TbStop false ?u) else _] =>
      destruct c; [exists (TbStop false u); split; [reflexivity|exact RAY]|] end.
    subst sl. destruct (Rltb_spec 0 st) as [_|C]; [|lra]. cbn [get bind]. unfold div.
    destruct (Reqb_spec P 0); [lra|]. cbn [bind]. eexists. split; [reflexivity|exact RAY].
Qed.

Lemma first_pass_stops : 0 < radius -> fsq n descent = 0 \/ radius <= / 10 ^ 30 * fnorm n descent ->
  tb_pass n H lower upper (tb_init n g lower upper radius) = Ok (TbStop false (tb_init n g lower upper radius)).
Proof.
  intros Hr T0. unfold tb_pass. cbv zeta.
  set (s0 := tb_init n g lower upper radius). set (b := tb_b s0).
  change (tb_beta s0) with 0. change (tb_niter s0) with 0%nat. change (tb_delta s0) with (radius * radius).
  change (tb_total s0) with 0. change (tb_g s0) with g. change (tb_x s0) with fzero. change (tb_nfixed s0) with 0%nat.
  destruct (Reqb_spec 0 0) as [_|C]; [|now elim C]. cbn [Nat.eqb].
  set (gp := fun i : nat => if free b i then - g i else 0).
  assert (GE : gp = descent).
  { apply functional_extensionality. intros i. unfold gp, descent, free, b, s0. cbn [tb_init tb_b].
    destruct (Rleb (upper i) 0 && Rleb (g i) 0); [reflexivity|].
    destruct (Rleb 0 (lower i) && Rleb 0 (g i)); reflexivity. }
  assert (GF : forall i, free b i = false -> descent i = 0).
  { intros i F. rewrite <- GE. unfold gp. now rewrite F. }
  rewrite GE. clear GE gp. set (p := descent) in *.
  change (fdot n p p) with (fsq n p). set (P := fsq n p) in *.
  assert (MP : mask b p = p) by now apply mask_zero_off.
  rewrite !(mdot_mask n b p), MP, (mdot_mask n b fzero). rewrite fdot_zero_r, fdot_zero_r. rewrite Rminus_0_r.
  set (gHg := fdot n p (fmv n H p)) in *.
  destruct (Reqb_spec P 0) as [|PN]; [reflexivity|]. cbn [get bind].
  destruct T0 as [T0|T1]; [now elim PN|].
  assert (HP : 0 < P) by (pose proof (fsq_nonneg n p); unfold P in *; lra).
  assert (R2 : 0 < radius * radius) by nra.
  destruct (_ || _); [reflexivity|].
  destruct (Rleb_spec (radius * radius) 0) as [L|_]; [lra|].
  unfold tb_unconstrained_step, msqrt.
  assert (PR : 0 < P * (radius * radius) + 0 * 0) by nra.
  destruct (Rltb_spec (P * (radius * radius) + 0 * 0) 0); [lra|]. cbn [bind].
  destruct (Rleb_spec 0 0) as [_|C]; [|lra].
  assert (SQ : sqrt (P * (radius * radius) + 0 * 0) = fnorm n p * radius).
  { rewrite Rmult_0_l, Rplus_0_r. rewrite sqrt_mult by lra. rewrite sqrt_square by lra. reflexivity. }
  rewrite SQ, Rplus_0_r.
  assert (NP : 0 < fnorm n p) by (apply sqrt_lt_R0; exact HP).
  unfold div at 1. destruct (Reqb_spec (fnorm n p * radius) 0) as [C|_]; [nra|]. cbn [bind].
  set (dist := radius * radius / (fnorm n p * radius)).
  assert (ED : dist * fnorm n p = radius) by (unfold dist; field; lra).
  assert (D30 : dist <= / 10 ^ 30).
  { apply (Rmult_le_reg_r (fnorm n p)); [easy|]. rewrite ED. exact T1. }
  destruct (Rleb_spec gHg 0) as [L|L]; cbn [bind].
  - destruct (Rleb_spec dist (/ 10 ^ 30)); [reflexivity|lra].
  - unfold div. destruct (Reqb_spec gHg 0); [lra|]. cbn [bind].
    destruct (Rleb_spec (Rmin dist (P / gHg)) (/ 10 ^ 30)) as [_|C]; [reflexivity|].
    elim C. eapply Rle_trans; [apply Rmin_l|exact D30].
Qed.

Lemma stopped_zero x : 0 < radius -> fsq n descent = 0 \/ radius <= / 10 ^ 30 * fnorm n descent ->
  minimize_trust_trsbox n g H radius lower upper = Ok x -> forall i, (i < n)%nat -> x i = 0.
Proof.
  intros Hr T E. pose proof (first_pass_stops Hr T) as F.
  pose proof (tb_init_MI n H lower upper g radius Hbox) as [I A _ _ _ _ _].
  pose proof (apply_bounds_id n lower upper _ _ I A) as Z.
  unfold minimize_trust_trsbox in E.
  assert (EM : tb_main (100 * (n * n)) n H lower upper (tb_init n g lower upper radius)
            = Ok (false, tb_init n g lower upper radius)).
  { destruct (100 * (n * n))%nat; [reflexivity|]. cbn [tb_main]. rewrite F. reflexivity. }
  rewrite EM in E. cbn [bind] in E. injection E as <-. intros i Hi. exact (Z i Hi).
Qed.

Lemma ray_starts : 0 < radius -> exists t, 0 < t /\ on_ray t /\ t * fdot n descent (fmv n H descent) <= fsq n descent \/
  fsq n descent = 0.
Proof.
  intros Hr. destruct (Req_dec (fsq n descent) 0) as [Z|Z]; [exists 0; now right|].
  assert (HP : 0 < fsq n descent) by (pose proof (fsq_nonneg n descent); lra).
  assert (NP : 0 < fnorm n descent) by (apply sqrt_lt_R0; exact HP).
  assert (BX : forall m, (m <= n)%nat -> exists t, 0 < t /\ forall s i, 0 <= s <= t -> (i < m)%nat ->
              lower i <= s * descent i <= upper i).
  { induction m as [|m IH]; intros Hm; [exists 1; split; [lra|lia]|].
    destruct IH as (t & Ht & IH); [lia|].
    assert (exists u, 0 < u /\ forall s, 0 <= s <= u -> lower m <= s * descent m <= upper m) as (u & Hu & U).
    { specialize (Hbox m ltac:(lia)). unfold descent.
      destruct (Rleb_spec (upper m) 0) as [L1|L1]; destruct (Rleb_spec (g m) 0) as [L2|L2]; cbn [andb];
        [exists 1; split; [lra|]; intros s Hs; rewrite Rmult_0_r; lra| | |];
        (destruct (Rleb_spec 0 (lower m)) as [L3|L3]; destruct (Rleb_spec 0 (g m)) as [L4|L4]; cbn [andb];
          [exists 1; split; [lra|]; intros s Hs; rewrite Rmult_0_r; lra| | |]).
      all: try (destruct (Req_dec (g m) 0) as [E|E];
                [exists 1; split; [lra|]; intros s Hs; rewrite E, Ropp_0, Rmult_0_r; lra|]).
      all: try (exfalso; lra).
      all: try (exists (- lower m / g m); assert (G : 0 < g m) by lra; split;
                [apply Rdiv_lt_0_compat; lra|]; intros s Hs;
                assert (s * g m <= - lower m) by
                  (apply Rle_trans with (- lower m / g m * g m); [apply Rmult_le_compat_r; lra|apply Req_le; field; lra]);
                assert (0 <= s * g m) by (apply Rmult_le_pos; lra); lra).
      all: (exists (upper m / - g m); assert (G : 0 < - g m) by lra; split;
                [apply Rdiv_lt_0_compat; lra|]; intros s Hs;
                assert (s * - g m <= upper m) by
                  (apply Rle_trans with (upper m / - g m * - g m); [apply Rmult_le_compat_r; lra|apply Req_le; field; lra]);
                assert (0 <= s * - g m) by (apply Rmult_le_pos; lra); lra). }
    exists (Rmin t u). split; [now apply Rmin_glb_lt|]. intros s i Hs Hi.
    pose proof (Rmin_l t u). pose proof (Rmin_r t u).
    destruct (Nat.eq_dec i m) as [->|N]; [apply U; lra|apply IH; [lra|lia]]. }
  destruct (BX n (le_n n)) as (t & Ht & B).
  assert (CV : exists u, 0 < u /\ forall s, 0 <= s <= u -> s * fdot n descent (fmv n H descent) <= fsq n descent).
  { destruct (Rle_lt_dec (fdot n descent (fmv n H descent)) 0) as [W|W].
    - exists 1. split; [lra|]. intros s Hs. nra.
    - exists (fsq n descent / fdot n descent (fmv n H descent)). split; [now apply Rdiv_lt_0_compat|].
      intros s Hs. apply Rle_trans with (fsq n descent / fdot n descent (fmv n H descent) * fdot n descent (fmv n H descent));
        [apply Rmult_le_compat_r; lra|apply Req_le; field; lra]. }
  destruct CV as (u & Hu & CV). set (w := Rmin t (Rmin u (radius / fnorm n descent))).
  assert (W0 : 0 < w).
  { unfold w. repeat apply Rmin_glb_lt; try easy. now apply Rdiv_lt_0_compat. }
  assert (W1 : w <= t) by apply Rmin_l.
  assert (W2 : w <= u) by (eapply Rle_trans; [apply Rmin_r|apply Rmin_l]).
  assert (W3 : w <= radius / fnorm n descent) by (eapply Rle_trans; [apply Rmin_r|apply Rmin_r]).
  exists w. left. split; [easy|]. split; [|apply CV; lra]. split; [lra|]. split.
  - rewrite fnorm_scale, Rabs_pos_eq by lra.
    apply Rle_trans with (radius / fnorm n descent * fnorm n descent); [apply Rmult_le_compat_r; lra|].
    apply Req_le. field. lra.
  - intros i Hi. apply B; [lra|easy].
Qed.
End Box.

(** If the first step is not shorter than the threshold 1e-30 of trsbox (in multiples of the
    direction), the result is at least as good as every feasible point on the ray of steepest
    descent. *)
Theorem C205_cauchy_decrease_partial :
  forall n g H radius lower upper x,
    (forall i, (i < n)%nat -> lower i <= 0 <= upper i) -> fsymm n H -> 0 < radius ->
    let p := descent lower upper g in
    / 10 ^ 30 * fnorm n p < radius ->
    / 10 ^ 30 * fdot n p (fmv n H p) < fsq n p \/ fsq n p = 0 ->
    minimize_trust_trsbox n g H radius lower upper = Ok x ->
    forall t, 0 <= t -> fnorm n (fscale t p) <= radius ->
      (forall i, (i < n)%nat -> lower i <= t * p i <= upper i) ->
      qval n g H x <= qval n g H (fscale t p).
Proof.
  intros n g H radius lower upper x B S Hr p T1 T2 E t Ht Nt Bt.
  rewrite (qval_ray n H lower upper g). fold p.
  destruct (Rle_lt_dec (fsq n p) 0) as [Z|Z].
  - assert (Z0 : fsq n p = 0) by (pose proof (fsq_nonneg n p); lra).
    assert (F : feq n p fzero) by (intros i Hi; now apply (fsq_zero n p Z0)).
    rewrite Z0. replace (fdot n p (fmv n H p)) with 0.
    + destruct (trsbox_spec n H lower upper g radius B) as (y & Ey & _ & _ & Q).
      rewrite E in Ey. injection Ey as <-. specialize (Q S). lra.
    + symmetry. rewrite (fdot_ext n p fzero (fmv n H p) (fmv n H p)) by easy. apply fdot_zero_l.
  - destruct T2 as [T2|T2]; [|lra].
    assert (Hn : (0 < n)%nat) by (destruct n; [cbn in Z; lra|lia]).
    destruct (first_pass n H lower upper g radius Hr Z T1 T2) as (o & Eo & RAY).
    pose proof (trsbox_value n H lower upper g radius B S o x Hn Eo E) as V.
    specialize (RAY t (conj Ht (conj Nt Bt))). fold p in RAY. lra.
Qed.

(** With the curvature known, the decrease grows with every feasible length of the step. *)
Theorem C205_decrease_bound_partial :
  forall n g H radius lower upper x,
    (forall i, (i < n)%nat -> lower i <= 0 <= upper i) -> fsymm n H -> 0 < radius ->
    let p := descent lower upper g in
    / 10 ^ 30 * fnorm n p < radius ->
    / 10 ^ 30 * fdot n p (fmv n H p) < fsq n p \/ fsq n p = 0 ->
    minimize_trust_trsbox n g H radius lower upper = Ok x ->
    (forall t, 0 <= t -> fnorm n (fscale t p) <= radius ->
       (forall i, (i < n)%nat -> lower i <= t * p i <= upper i) ->
       t * fdot n p (fmv n H p) <= fsq n p -> qval n g H x <= - (/ 2 * t * fsq n p)) /\
    (qval n g H x = 0 <-> forall i, (i < n)%nat -> p i = 0).
Proof.
  intros n g H radius lower upper x B S Hr p T1 T2 E.
  pose proof (C205_cauchy_decrease_partial n g H radius lower upper x B S Hr T1 T2 E) as C. fold p in C.
  assert (D : forall t, 0 <= t -> fnorm n (fscale t p) <= radius ->
       (forall i, (i < n)%nat -> lower i <= t * p i <= upper i) ->
       t * fdot n p (fmv n H p) <= fsq n p -> qval n g H x <= - (/ 2 * t * fsq n p)).
  { intros t Ht Nt Bt Ct. eapply Rle_trans; [now apply (C t)|]. unfold p. rewrite (qval_ray n H lower upper g).
    fold p. assert (0 <= t * (fsq n p - t * fdot n p (fmv n H p))); [|lra].
    apply Rmult_le_pos; lra. }
  split; [exact D|]. split.
  - intros Q. apply fsq_zero. destruct (ray_starts n H lower upper g radius B Hr) as (t & [(Ht & (H0 & Nt & Bt) & Ct)|Z]);
      [|exact Z]. specialize (D t H0 Nt Bt Ct). fold p in Ct. pose proof (fsq_nonneg n p). nra.
  - intros Z. assert (Z0 : fsq n p = 0).
    { unfold fsq, fdot. apply bsum_all_zero. intros i Hi. rewrite (Z i Hi). ring. }
    pose proof (stopped_zero n H lower upper g radius B x Hr (or_introl Z0) E) as X.
    rewrite (qval_feq n H g x fzero) by exact X. rewrite qval_fdot, !fdot_zero_r, fdot_zero_l. lra.
Qed.

(** The two thresholds are needed: a region below the first one is not left at all, so the returned
    point is the center although each multiple of the descent direction is better. *)
Theorem C205_cauchy_decrease_refuted :
  (forall n g H radius lower upper x,
    (forall i, (i < n)%nat -> lower i <= 0 <= upper i) -> 0 < radius ->
    radius <= / 10 ^ 30 * fnorm n (descent lower upper g) ->
    minimize_trust_trsbox n g H radius lower upper = Ok x -> forall i, (i < n)%nat -> x i = 0) /\
  exists n g H radius lower upper x t,
    (forall i, (i < n)%nat -> lower i < 0 < upper i) /\ fsymm n H /\ 0 < radius /\
    minimize_trust_trsbox n g H radius lower upper = Ok x /\
    0 <= t /\ fnorm n (fscale t (descent lower upper g)) <= radius /\
    (forall i, (i < n)%nat -> lower i <= t * descent lower upper g i <= upper i) /\
    qval n g H (fscale t (descent lower upper g)) < qval n g H x.
Proof.
  split.
  - intros n g H radius lower upper x B Hr L E. apply (stopped_zero n H lower upper g radius B x Hr); auto.
  - assert (P30 : 0 < / 10 ^ 30) by (apply Rinv_0_lt_compat, pow_lt; lra).
    assert (P31 : / 10 ^ 30 < 1) by (rewrite <- Rinv_1; apply Rinv_lt_contravar; [rewrite Rmult_1_l; apply pow_lt; lra|apply Rlt_pow_R1; [lra|lia]]).
    set (r := / 10 ^ 30) in *.
    set (g := (fun _ => -1) : fvec). set (H := (fun _ _ => 0) : fmat).
    set (lo := (fun _ => -1) : fvec). set (up := (fun _ => 1) : fvec).
    assert (D : forall i, descent lo up g i = 1).
    { intros i. unfold descent, lo, up, g. destruct (Rleb_spec 1 0); [lra|]. cbn [andb].
      destruct (Rleb_spec 0 (-1)); [lra|]. cbn [andb]. ring. }
    assert (B : forall i, (i < 1)%nat -> lo i <= 0 <= up i) by (intros; unfold lo, up; lra).
    assert (N1 : fnorm 1 (descent lo up g) = 1).
    { unfold fnorm, fsq, fdot. cbn [bsum]. rewrite D. rewrite Rplus_0_l || rewrite Rplus_0_r. rewrite Rmult_1_l. apply sqrt_1. }
    destruct (trsbox_spec 1 H lo up g r B) as (x & E & _).
    assert (X : forall i, (i < 1)%nat -> x i = 0).
    { apply (stopped_zero 1 H lo up g r B x P30); [|exact E]. right. rewrite N1. unfold r. lra. }
    exists 1%nat, g, H, r, lo, up, x, r. repeat split; try (unfold lo, up; lra); try easy; try lra.
    + rewrite fnorm_scale, N1, Rabs_pos_eq by lra. lra.
    + rewrite D. unfold lo. lra.
    + rewrite D. unfold up. lra.
    + rewrite (qval_feq 1 H g x fzero) by exact X. rewrite qval_ray, qval_fdot.
      rewrite !fdot_zero_r, fdot_zero_l. rewrite <- (fnorm_sqr 1 (descent lo up g)), N1.
      unfold fmv, fdot, H. cbn [bsum]. rewrite !D. nra.
Qed.

(** The region of radius one around zero and the box from -2 to one half: the step goes to the bound. *)
Example C205_instance :
  let g := (fun _ => -1) : fvec in let H := (fun _ _ => 0) : fmat in
  let lo := (fun _ => -2) : fvec in let up := (fun _ => / 2) : fvec in
  (forall i, (i < 1)%nat -> lo i <= 0 <= up i) /\ fsymm 1 H /\
  / 10 ^ 30 * fnorm 1 (descent lo up g) < 1 /\
  / 10 ^ 30 * fdot 1 (descent lo up g) (fmv 1 H (descent lo up g)) < fsq 1 (descent lo up g) /\
  exists x, minimize_trust_trsbox 1 g H 1 lo up = Ok x /\ qval 1 g H x <= - / 4.
Proof.
  intros g H lo up.
  assert (P31 : / 10 ^ 30 < 1) by (rewrite <- Rinv_1; apply Rinv_lt_contravar; [rewrite Rmult_1_l; apply pow_lt; lra|apply Rlt_pow_R1; [lra|lia]]).
  assert (D : forall i, descent lo up g i = 1).
  { intros i. unfold descent, lo, up, g. destruct (Rleb_spec (/ 2) 0); [lra|]. cbn [andb].
    destruct (Rleb_spec 0 (-2)); [lra|]. cbn [andb]. ring. }
  assert (B : forall i, (i < 1)%nat -> lo i <= 0 <= up i) by (intros; unfold lo, up; lra).
  assert (F1 : fsq 1 (descent lo up g) = 1) by (unfold fsq, fdot; cbn [bsum]; rewrite D; ring).
  assert (N1 : fnorm 1 (descent lo up g) = 1) by (unfold fnorm; rewrite F1; apply sqrt_1).
  assert (C0 : fdot 1 (descent lo up g) (fmv 1 H (descent lo up g)) = 0)
    by (unfold fmv, fdot, H; cbn [bsum]; rewrite !D; ring).
  assert (S : fsymm 1 H) by (intros i j _ _; reflexivity).
  split; [exact B|]. split; [exact S|]. split; [rewrite N1; lra|]. split; [rewrite C0, F1; lra|].
  destruct (trsbox_spec 1 H lo up g 1 B) as (x & E & _). exists x. split; [exact E|].
  destruct (C205_decrease_bound_partial 1 g H 1 lo up x B S ltac:(lra)) as [DB _]; [rewrite N1; lra|left; rewrite C0, F1; lra|exact E|].
  specialize (DB (/ 2)). rewrite F1, C0 in DB. eapply Rle_trans; [apply DB|lra]; try lra.
  - rewrite fnorm_scale, N1, Rabs_pos_eq by lra. lra.
  - intros i _. rewrite D. unfold lo, up. lra.
Qed.
