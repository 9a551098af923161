(** Properties C138 and C139: the numba version of trsbox. *)
From Coq Require Import Reals List Arith ZArith Bool Lia Lra Psatz.
From Verif Require Import Base XR FVec CgModel Prop_Cg TrsboxModel TrsboxProofs Prop_Trsbox TrsboxFastModel.
Import ListNotations.
Open Scope R_scope.

(** Same entries or the same error. *)
Definition same_outcome (n : nat) (a b : res fvec) : Prop :=
  match a, b with
  | Ok x, Ok y => forall i, (i < n)%nat -> x i = y i
  | Err e, Err e' => e = e'
  | _, _ => False
  end.

Lemma tbf_apply_bounds_eq x x' b lower upper i :
  lower i <= upper i -> x i = x' i -> tbf_apply_bounds x b lower upper i = tb_apply_bounds x' b lower upper i.
Proof.
  intros L E. unfold tbf_apply_bounds, tb_apply_bounds. rewrite E.
  destruct (Z.eqb (b i) 1) eqn:E1; [reflexivity|]. destruct (Z.eqb (b i) (-1)); [reflexivity|].
  destruct (Rleb_spec (x' i) (lower i)).
  - rewrite Rmax_left by lra. now rewrite Rmin_left by lra.
  - rewrite Rmax_right by lra. destruct (Rleb_spec (upper i) (x' i)).
    + now rewrite Rmin_right by lra.
    + now rewrite Rmin_left by lra.
Qed.

Lemma tbf_unconstrained_step_eq a b c d e : tbf_unconstrained_step a b c d e = tb_unconstrained_step a b c d e.
Proof.
  unfold tbf_unconstrained_step, tb_unconstrained_step. destruct (msqrt _) as [temp|]; cbn [bind]; [|reflexivity].
  destruct (if Rleb 0 d then _ else _) as [dist|]; cbn [bind]; [|reflexivity].
  destruct (Rleb e 0); [reflexivity|]. destruct (div b e) as [q|]; cbn [bind]; [|reflexivity].
  destruct (Rleb_spec dist q); [now rewrite Rmin_left|]. now rewrite Rmin_right by lra.
Qed.

Lemma Rleb_min_and a b c : Rleb a (Rmin b c) = Rleb a b && Rleb a c.
Proof.
  destruct (Rleb_spec a (Rmin b c)) as [h|h].
  - pose proof (Rmin_l b c). pose proof (Rmin_r b c).
    destruct (Rleb_spec a b); [|lra]. destruct (Rleb_spec a c); [reflexivity|lra].
  - destruct (Rleb_spec a b); [|reflexivity]. destruct (Rleb_spec a c); [|reflexivity].
    exfalso. revert h. unfold Rmin. destruct (Rle_dec b c); lra.
Qed.

(** the passes of both versions agree; as long as the caller's array is still in use nothing moved *)
Definition same_pass (s : tbs) (alias : bool) (a : res tbfout) (b : res tbout) : Prop :=
  match a, b with
  | Ok (TbfStop alt s1 al), Ok (TbStop alt' s2) =>
      alt = alt' /\ s1 = s2 /\ (al = true -> alias = true /\ tb_x s1 = tb_x s /\ tb_g s1 = tb_g s)
  | Ok (TbfNext s1 al), Ok (TbNext s2) =>
      s1 = s2 /\ (al = true -> alias = true /\ tb_x s1 = tb_x s /\ tb_g s1 = tb_g s)
  | Err e, Err e' => e = e'
  | _, _ => False
  end.

Lemma tbf_pass_same n H lower upper s alias :
  same_pass s alias (tbf_pass n H lower upper s alias) (tb_pass n H lower upper s).
Proof.
  unfold tbf_pass, tb_pass.
  destruct (Reqb (fdot n _ _) 0). { cbn. tauto. }
  destruct (get (if Reqb (tb_beta s) 0 then _ else _)) as [gsq|]; cbn [bind]; [|reflexivity].
  destruct (get (if (tb_niter s =? 0)%nat then _ else _)) as [g0|]; cbn [bind]; [|reflexivity].
  rewrite <- !Rleb_min_and. destruct (_ || _). { cbn. tauto. }
  destruct (Rleb (tb_delta s - _) 0). { cbn. tauto. }
  rewrite tbf_unconstrained_step_eq.
  destruct (tb_unconstrained_step _ _ _ _ _) as [[sl dist]|]; cbn [bind]; [|reflexivity].
  destruct (Rleb sl _). { cbn. tauto. }
  destruct (tb_constrained_step _ _ _ _ _ _) as [sl' act].
  destruct (Rltb 0 sl').
  - destruct act as [k|].
    + destruct (Rleb (tb_delta s - _) 0); cbn; splits; easy.
    + destruct (Rleb dist sl'). { cbn; splits; easy. }
      destruct (_ || _). { cbn; splits; easy. }
      destruct (get _) as [old|]; cbn [bind]; [|reflexivity]. destruct (div _ _); cbn; [|reflexivity]. splits; easy.
  - destruct act as [k|].
    + destruct (Rleb (tb_delta s - _) 0); cbn; splits; easy.
    + destruct (Rleb dist sl'). { cbn; splits; easy. }
      destruct (_ || _). { cbn; splits; easy. }
      destruct (get _) as [old|]; cbn [bind]; [|reflexivity]. destruct (div _ _); cbn; [|reflexivity]. splits; easy.
Qed.

Lemma tbf_main_same k n H lower upper s alias :
  match tbf_main k n H lower upper s alias, tb_main k n H lower upper s with
  | Ok (alt, s1, al), Ok (alt', s2) =>
      alt = alt' /\ s1 = s2 /\ (al = true -> alias = true /\ tb_x s1 = tb_x s /\ tb_g s1 = tb_g s)
  | Err e, Err e' => e = e'
  | _, _ => False
  end.
Proof.
  revert s alias. induction k as [|k IH]; intros s alias; cbn [tbf_main tb_main]; [tauto|].
  pose proof (tbf_pass_same n H lower upper s alias) as P.
  destruct (tbf_pass n H lower upper s alias) as [[alt s1 al|s1 al]|e];
    destruct (tb_pass n H lower upper s) as [[alt' s2|s2]|e']; cbn [bind same_pass] in *; try tauto.
  - destruct P as (<- & Q). specialize (IH s1 al).
    destruct (tbf_main k n H lower upper s1 al) as [[[a t] al']|]; destruct (tb_main k n H lower upper s1) as [[a' t']|]; try tauto.
    destruct IH as (Ea & Et & IH). splits; [exact Ea|exact Et|]. intros E. destruct (IH E) as (E1 & E2 & E3).
    destruct (Q E1) as (F1 & F2 & F3). splits; congruence.
Qed.

(** the inner loop of the alternative step *)
Lemma tbf_alt_pass_same n H lower upper xr s :
  snd (tbf_alt_pass true n H lower upper xr s) = tb_alt_pass n H lower upper xr s.
Proof.
  unfold tbf_alt_pass, tb_alt_pass. destruct (Rleb _ (/ 10 ^ 4 * _)); [reflexivity|].
  destruct (msqrt _) as [root|]; cbn [bind]; [|reflexivity]. destruct (Reqb root 0); [reflexivity|].
  assert (T : forall x d b nf, tbf_bound_on_tangent true n x d b lower upper nf = tb_bound_on_tangent n x d b lower upper nf).
  { intros x d b nf. unfold tbf_bound_on_tangent, tb_bound_on_tangent. destruct (tn_loop _ _ _ _ _ _ _) as [t|]; cbn [bind]; [|reflexivity].
    now destruct (tn_act t). }
  rewrite T. destruct (tb_bound_on_tangent _ _ _ _ _ _ _) as [t|]; cbn [bind]; [|reflexivity].
  destruct (tn_reached t); [reflexivity|]. destruct (an_idx _) as [idx|]; [|reflexivity].
  destruct (if (idx =? _)%nat then _ else _) as [tg|]; cbn [bind]; [|reflexivity].
  destruct (Rleb _ 0); [reflexivity|]. cbn [snd]. reflexivity.
Qed.
Lemma tbf_alt_inner_same k n H lower upper xr s :
  snd (tbf_alt_inner k true n H lower upper xr s) = tb_alt_inner k n H lower upper xr s.
Proof.
  revert s. induction k as [|k IH]; intros s; cbn [tbf_alt_inner tb_alt_inner]; [reflexivity|].
  rewrite <- tbf_alt_pass_same. destruct (tbf_alt_pass true n H lower upper xr s) as [g [[r s'|s']|e]]; cbn [snd bind]; [reflexivity| |reflexivity].
  apply IH.
Qed.
Lemma tbf_alt_outer_same k inner n H lower upper x b g total nf :
  (forall i, (i < n)%nat -> lower i <= upper i) ->
  same_outcome n (snd (tbf_alt_outer k true inner n H lower upper x b g total nf))
                 (tb_alt_outer k inner n H lower upper x b g total nf).
Proof.
  intros B. revert x b g total nf. induction k as [|k IH]; intros x b g total nf; cbn [tbf_alt_outer tb_alt_outer].
  { cbn. intros i Hi. now apply tbf_apply_bounds_eq; [apply B|]. }
  destruct (n <=? S nf)%nat.
  { cbn. intros i Hi. apply tbf_apply_bounds_eq; [now apply B|]. now apply tbf_apply_bounds_eq; [apply B|]. }
  rewrite <- tbf_alt_inner_same.
  destruct (tbf_alt_inner _ _ _ _ _ _ _ _) as [g' [[[|] s']|e]]; cbn [snd bind]; [apply IH| |reflexivity].
  cbn. intros i Hi. now apply tbf_apply_bounds_eq; [apply B|].
Qed.

(** C138 - compiled, the numba version computes what the numpy version computes: the same point or
    the same error, for every gradient, Hessian, radius and every box whose lower bounds do not
    exceed its upper bounds. *)
Theorem C138_compiled_agrees :
  forall n g H radius lower upper,
    (forall i, (i < n)%nat -> lower i <= upper i) ->
    same_outcome n (snd (minimize_trust_trsbox_fast true n g H radius lower upper))
                   (minimize_trust_trsbox n g H radius lower upper).
Proof.
  intros n g H radius lower upper B. unfold minimize_trust_trsbox_fast, minimize_trust_trsbox.
  pose proof (tbf_main_same (100 * (n * n)) n H lower upper (tb_init n g lower upper radius) true) as P.
  destruct (tbf_main _ _ _ _ _ _ _) as [[[alt s1] al]|e]; destruct (tb_main _ _ _ _ _ _) as [[alt' s2]|e']; try tauto.
  destruct P as (<- & <- & _). cbn [bind]. destruct alt.
  - pose proof (tbf_alt_outer_same (100 * (n * n)) (100 * (n * n)) n H lower upper (tb_x s1) (tb_b s1) (tb_g s1) (tb_total s1) (tb_nfixed s1) B) as Q.
    destruct (tbf_alt_outer _ _ _ _ _ _ _ _ _ _ _ _) as [c r]. cbn [snd] in *. exact Q.
  - cbn. intros i Hi. now apply tbf_apply_bounds_eq; [apply B|].
Qed.

(** C138 - hence, on a box around the origin, the compiled version never raises, and its result is
    in the box and in the ball. *)
Theorem C138_compiled_feasible :
  forall n g H radius lower upper,
    (forall i, (i < n)%nat -> lower i <= 0 <= upper i) -> 0 <= radius ->
    exists x, snd (minimize_trust_trsbox_fast true n g H radius lower upper) = Ok x /\
      (forall i, (i < n)%nat -> lower i <= x i <= upper i) /\ fnorm n x <= radius.
Proof.
  intros n g H radius lower upper B Hr.
  destruct (C60_trsbox_in_box n g H radius lower upper B) as (y & E & I).
  pose proof (C104_trsbox_within_radius n g H radius lower upper y B Hr E) as N.
  pose proof (C138_compiled_agrees n g H radius lower upper) as A. rewrite E in A.
  destruct (snd (minimize_trust_trsbox_fast true n g H radius lower upper)) as [x|e].
  2:{ exfalso. apply A. intros i Hi. destruct (B i Hi). lra. }
  exists x. cbn in A. assert (A' : forall i, (i < n)%nat -> x i = y i).
  { apply A. intros i Hi. destruct (B i Hi). lra. }
  splits; [reflexivity| |].
  - intros i Hi. rewrite A' by exact Hi. now apply I.
  - now rewrite (fnorm_ext n x y A').
Qed.

(** C139 - the caller's gradient array is never changed, although the alternative step updates its
    gradient in place: for every input, also when an exception is raised, interpreted or compiled. *)
Theorem C139_gradient_untouched :
  forall compiled n g H radius lower upper,
    fst (minimize_trust_trsbox_fast compiled n g H radius lower upper) = g.
Proof.
  intros compiled n g H radius lower upper. unfold minimize_trust_trsbox_fast.
  pose proof (tbf_main_same (100 * (n * n)) n H lower upper (tb_init n g lower upper radius) true) as P.
  destruct (tbf_main _ _ _ _ _ _ _) as [[[alt s1] al]|e]; [|reflexivity].
  destruct (tb_main _ _ _ _ _ _) as [[alt' s2]|e']; [|easy]. destruct P as (_ & _ & P).
  destruct alt; [|reflexivity]. destruct al.
  2:{ now destruct (tbf_alt_outer _ _ _ _ _ _ _ _ _ _ _ _) as [c r]. }
  destruct (P eq_refl) as (_ & X & G). cbn [tb_init tb_x tb_g] in X, G. rewrite X, G.
  assert (Q : forall k inner b total nf, fst (tbf_alt_outer k compiled inner n H lower upper fzero b g total nf) = g).
  { intros [|k] inner b total nf; cbn [tbf_alt_outer]; [reflexivity|]. destruct (n <=? S nf)%nat; [reflexivity|].
    assert (Z : forall m f, mdot m b fzero f = 0).
    { intros m f. unfold mdot, fzero. induction m as [|m IH]; cbn [bsum]; [reflexivity|].
      rewrite IH. destruct (free b m); ring. }
    rewrite !Z. destruct inner as [|inner]; cbn [tbf_alt_inner]; [reflexivity|].
    unfold tbf_alt_pass. cbn [al_gred al_xgrad al_total al_g al_b].
    destruct (Rleb_spec (mdot n b g g * 0 - 0 * 0) (/ 10 ^ 4 * (total * total))) as [h|h]; [reflexivity|].
    exfalso. assert (0 < / 10 ^ 4) by (apply Rinv_0_lt_compat, pow_lt; lra).
    pose proof (Rle_0_sqr total) as S. unfold Rsqr in S. nra. }
  specialize (Q (100 * (n * n))%nat (100 * (n * n))%nat (tb_b s1) (tb_total s1) (tb_nfixed s1)).
  destruct (tbf_alt_outer _ _ _ _ _ _ _ _ _ _ _ _) as [c r]. exact Q.
Qed.

(** C138 - interpreted (for instance with NUMBA_DISABLE_JIT=1) it either raises UnboundLocalError
    or computes the same. *)
Theorem C138_interpreted_partial :
  forall n g H radius lower upper,
    snd (minimize_trust_trsbox_fast false n g H radius lower upper) = Err UnboundLocalError \/
    minimize_trust_trsbox_fast false n g H radius lower upper = minimize_trust_trsbox_fast true n g H radius lower upper.
Proof.
  intros n g H radius lower upper. unfold minimize_trust_trsbox_fast.
  destruct (tbf_main _ _ _ _ _ _ _) as [[[[|] s1] al]|e]; [|now right|now right].
  assert (P : forall xr s, snd (tbf_alt_pass false n H lower upper xr s) = Err UnboundLocalError \/
     tbf_alt_pass false n H lower upper xr s = tbf_alt_pass true n H lower upper xr s).
  { intros xr s. unfold tbf_alt_pass. destruct (Rleb _ (/ 10 ^ 4 * _)); [now right|].
    destruct (msqrt _) as [root|]; [|now right]. destruct (Reqb root 0); [now right|].
    unfold tbf_bound_on_tangent. destruct (tn_loop _ _ _ _ _ _ _) as [t|]; cbn [bind]; [|now right].
    destruct (tn_act t) as [a|]; [now right|now left]. }
  assert (I : forall k xr s, snd (tbf_alt_inner k false n H lower upper xr s) = Err UnboundLocalError \/
     tbf_alt_inner k false n H lower upper xr s = tbf_alt_inner k true n H lower upper xr s).
  { induction k as [|k IH]; intros xr s; cbn [tbf_alt_inner]; [now right|].
    destruct (P xr s) as [E|E].
    - left. destruct (tbf_alt_pass false n H lower upper xr s) as [c r]. cbn [snd] in E. now subst r.
    - rewrite E. destruct (tbf_alt_pass true n H lower upper xr s) as [c [[r s'|s']|e]]; [now right| |now right]. apply IH. }
  assert (O : forall k inner x b g total nf,
     snd (tbf_alt_outer k false inner n H lower upper x b g total nf) = Err UnboundLocalError \/
     tbf_alt_outer k false inner n H lower upper x b g total nf = tbf_alt_outer k true inner n H lower upper x b g total nf).
  { induction k as [|k IH]; intros inner x b g' total nf; cbn [tbf_alt_outer]; [now right|].
    destruct (n <=? S nf)%nat; [now right|].
    match goal with |- context [tbf_alt_inner inner false n H lower upper ?xr ?s] => destruct (I inner xr s) as [E|E] end.
    - left. destruct (tbf_alt_inner inner false n H lower upper _ _) as [c r]. cbn [snd] in E. now subst r.
    - rewrite E. destruct (tbf_alt_inner inner true n H lower upper _ _) as [c [[[|] s']|e]]; [apply IH|now right|now right]. }
  destruct (O (100 * (n * n))%nat (100 * (n * n))%nat (tb_x s1) (tb_b s1) (tb_g s1) (tb_total s1) (tb_nfixed s1)) as [E|E].
  - left. destruct (tbf_alt_outer _ false _ _ _ _ _ _ _ _ _ _) as [c r]. exact E.
  - right. now rewrite E.
Qed.

(** C138 - and it does raise: two parameters, gradient (3, 4), curvature -1 in the second one,
    radius 5, box [-100, 100]^2.  The conjugate gradient step ends on the boundary at (-3, -4) and
    the alternative step is not restricted by any bound. *)
Definition w_g : fvec := fun i => if (i =? 0)%nat then 3 else 4.
Definition w_H : fmat := fun i j => if (i =? 1)%nat && (j =? 1)%nat then -1 else 0.

Theorem C138_interpreted_refuted :
  snd (minimize_trust_trsbox_fast false 2 w_g w_H 5 (fun _ => -100) (fun _ => 100)) = Err UnboundLocalError.
Proof.
  unfold minimize_trust_trsbox_fast. set (k := (100 * (2 * 2))%nat).
  assert (Ek : k = S 399) by reflexivity. rewrite Ek. generalize 399%nat. intros m. clear k Ek.
  set (lo := fun _ : nat => -100). set (up := fun _ : nat => 100).
  assert (P2 : 0 < / 10 ^ 6 < 1 /\ 0 < / 10 ^ 18 < 1 /\ 0 < / 10 ^ 30 < 1 /\ 0 < / 10 ^ 4 < / 100).
  { splits; try (apply Rinv_0_lt_compat, pow_lt; lra); try (rewrite <- Rinv_1; apply Rinv_lt_contravar; [|]; simpl; lra).
    apply Rinv_lt_contravar; simpl; lra. }
  set (s0 := tb_init 2 w_g lo up 5).
  assert (F0 : forall i, free (tb_b s0) i = true).
  { intros i. unfold s0, tb_init, lo, up, free. cbn [tb_b]. destruct (Rleb_spec 100 0); [lra|]. destruct (Rleb_spec 0 (-100)); [lra|]. reflexivity. }
  assert (MD : forall f h, mdot 2 (tb_b s0) f h = f 0%nat * h 0%nat + f 1%nat * h 1%nat).
  { intros f h. unfold mdot. cbn [bsum]. rewrite !F0. ring. }
  assert (G0 : w_g 0%nat = 3) by reflexivity. assert (G1 : w_g 1%nat = 4) by reflexivity.
  assert (HM : forall x i, fmv 2 w_H x i = if (i =? 1)%nat then - x 1%nat else 0).
  { intros x i. unfold fmv, w_H. cbn [bsum]. destruct (i =? 1)%nat; cbn; ring. }
  assert (H0 : forall x, fmv 2 w_H x 0%nat = 0) by (intros x; now rewrite HM).
  assert (H1 : forall x, fmv 2 w_H x 1%nat = - x 1%nat) by (intros x; now rewrite HM).
  cbn [tbf_main]. unfold tbf_pass.
  change (tb_beta s0) with 0. change (tb_niter s0) with 0%nat. change (tb_delta s0) with (5 * 5).
  change (tb_total s0) with 0. change (tb_g s0) with w_g. change (tb_x s0) with fzero. change (tb_nfixed s0) with 0%nat.
  destruct (Reqb_spec 0 0); [|lra].
  set (gp := fun i : nat => if free (tb_b s0) i then - w_g i else 0).
  assert (P0 : gp 0%nat = -3) by (unfold gp; rewrite F0, G0; lra).
  assert (P1 : gp 1%nat = -4) by (unfold gp; rewrite F0, G1; lra).
  assert (D1 : fdot 2 gp gp = 25) by (unfold fdot; cbn [bsum]; rewrite P0, P1; lra).
  rewrite D1. destruct (Reqb_spec 25 0); [lra|]. cbn [Nat.eqb get bind].
  destruct (Rleb_spec 25 (/ 10 ^ 18)); [lra|]. rewrite andb_false_r.
  destruct (Rleb_spec (25 * (5 * 5)) (/ 10 ^ 18)); [lra|]. rewrite andb_false_r. cbn [orb].
  rewrite !MD, !H0, !H1, !P0, !P1. assert (Z0 : forall i, fzero i = 0) by reflexivity. rewrite !Z0.
  match goal with |- context [tbf_unconstrained_step ?r 25 25 ?a ?b] =>
    replace a with 0 by lra; replace b with (-16) by lra; replace r with 25 by lra end.
  destruct (Rleb_spec 25 0); [lra|].
  assert (U : tbf_unconstrained_step 25 25 25 0 (-16) = Ok (1, 1)).
  { unfold tbf_unconstrained_step, msqrt, div. destruct (Rltb_spec (25 * 25 + 0 * 0) 0); [lra|]. cbn [bind].
    replace (25 * 25 + 0 * 0) with (25 * 25) by lra. rewrite sqrt_square by lra.
    destruct (Rleb_spec 0 0); [|lra]. destruct (Reqb_spec (25 + 0) 0); [lra|]. cbn [bind].
    destruct (Rleb_spec (-16) 0); [|lra]. replace (25 / (25 + 0)) with 1 by lra. reflexivity. }
  rewrite U. cbn [bind]. destruct (Rleb_spec 1 (/ 10 ^ 30)); [lra|].
  assert (C : tb_constrained_step 2 fzero gp lo up 1 = (1, None)).
  { unfold tb_constrained_step. cbn [seq fold_left]. unfold tb_constr_one. rewrite P0, P1. unfold lo, up, fzero.
    destruct (Reqb_spec (-3) 0); [lra|]. destruct (Rltb_spec 0 (-3)); [lra|]. destruct (Rltb_spec ((-100 - 0) / -3) 1); [lra|].
    destruct (Reqb_spec (-4) 0); [lra|]. destruct (Rltb_spec 0 (-4)); [lra|]. destruct (Rltb_spec ((-100 - 0) / -4) 1); [lra|]. reflexivity. }
  rewrite C. destruct (Rltb_spec 0 1); [|lra]. destruct (Rleb_spec 1 1); [|lra]. cbn [bind].
  cbn [tb_x tb_b tb_g tb_total tb_nfixed].
  set (x := fadd fzero (fscale 1 gp)). set (g' := fadd w_g (fscale 1 (fmv 2 w_H gp))).
  assert (X0 : x 0%nat = -3) by (unfold x, fadd, fscale, fzero; rewrite P0; lra).
  assert (X1 : x 1%nat = -4) by (unfold x, fadd, fscale, fzero; rewrite P1; lra).
  assert (Y0 : g' 0%nat = 3) by (unfold g', fadd, fscale; rewrite H0, G0; lra).
  assert (Y1 : g' 1%nat = 8) by (unfold g', fadd, fscale; rewrite H1, G1, P1; lra).
  match goal with |- context [Rmax ?a 0] => replace (Rmax a 0) with 33 by (rewrite Rmax_left; lra) end.
  cbn [tbf_alt_outer]. change (2 <=? 1)%nat with false. cbn [tbf_alt_inner].
  unfold tbf_alt_pass. cbn [al_gred al_xgrad al_total al_g al_b al_x al_nfixed].
  rewrite !MD, !X0, !X1, !Y0, !Y1.
  match goal with |- context [Rleb ?a ?b] => destruct (Rleb_spec a b); [lra|] end.
  match goal with |- context [msqrt ?a] => replace a with (12 * 12) by lra end.
  unfold msqrt. destruct (Rltb_spec (12 * 12) 0); [lra|]. rewrite sqrt_square by lra.
  destruct (Reqb_spec 12 0); [lra|].
  set (dir := fun i : nat => if free (tb_b s0) i then _ else 0).
  assert (E0 : dir 0%nat = 4) by (unfold dir; rewrite F0, X0, Y0; lra).
  assert (E1 : dir 1%nat = -3) by (unfold dir; rewrite F0, X1, Y1; lra).
  assert (T : tbf_bound_on_tangent false 2 x dir (tb_b s0) lo up 0 = Err UnboundLocalError).
  { unfold tbf_bound_on_tangent. cbn [tn_loop].
    assert (T1 : forall i t, tn_b t = tb_b s0 -> x i * x i + dir i * dir i < 100 * 100 -> -100 < x i < 100 ->
       tn_one x dir lo up i t = Ok t).
    { intros i t Eb S I. unfold tn_one. rewrite Eb, F0. unfold lo, up.
      destruct (Rleb_spec (x i - -100) 0); [lra|]. destruct (Rleb_spec (100 - x i) 0); [lra|].
      destruct (Rltb_spec 0 (x i * x i + dir i * dir i - -100 * -100)); [lra|]. cbn [bind].
      destruct (Rltb_spec 0 (x i * x i + dir i * dir i - 100 * 100)); [lra|]. reflexivity. }
    rewrite T1; [|reflexivity|rewrite X0, E0; lra|rewrite X0; lra]. cbn [bind tn_reached].
    rewrite T1; [|reflexivity|rewrite X1, E1; lra|rewrite X1; lra]. reflexivity. }
  rewrite T. reflexivity.
Qed.

(** Example: on the input of ex_C60 the compiled version returns the bound 1/2 and leaves the
    caller's gradient -1 alone. *)
Example ex_C138 : exists x,
  minimize_trust_trsbox_fast true 1 (fun _ => -1) (fun _ _ => 0) 1 (fun _ => -2) (fun _ => 1/2) = ((fun _ => -1), Ok x) /\
  x 0%nat = 1/2.
Proof.
  destruct ex_C60 as (y & E & Y).
  pose proof (C138_compiled_agrees 1 (fun _ => -1) (fun _ _ => 0) 1 (fun _ => -2) (fun _ => 1/2)) as A. rewrite E in A.
  pose proof (C139_gradient_untouched true 1 (fun _ => -1) (fun _ _ => 0) 1 (fun _ => -2) (fun _ => 1/2)) as G.
  destruct (minimize_trust_trsbox_fast true 1 _ _ _ _ _) as [c [x|e]]; cbn [fst snd same_outcome] in *.
  2:{ exfalso. apply A. intros. lra. }
  subst c. exists x. split; [reflexivity|]. rewrite A; [exact Y| |lia]. intros. lra.
Qed.
