(** Correctness of the dense linear algebra of GqtparModel.v. *)
From Coq Require Import Reals List Arith ZArith Bool Lia Lra Psatz.
From Verif Require Import Base XR FVec CgModel TrsboxModel GqtparModel.
Import ListNotations.
Open Scope R_scope.

Lemma bsum_S n f : bsum (S n) f = bsum n f + f n.
Proof. reflexivity. Qed.

Lemma bsum_trunc c n f : (c <= n)%nat -> (forall i, (c <= i < n)%nat -> f i = 0) -> bsum n f = bsum c f.
Proof.
  intros L H. replace n with (c + (n - c))%nat by lia. rewrite bsum_app, (bsum_all_zero (n - c)); [lra|].
  intros i Hi. apply H. lia.
Qed.

Definition upper_tri (n : nat) (U : fmat) : Prop := forall i j, (j < i)%nat -> (i < n)%nat -> U i j = 0.
Definition pos_diag (n : nat) (U : fmat) : Prop := forall i, (i < n)%nat -> 0 < U i i.
Definition posdef (n : nat) (M : fmat) : Prop :=
  forall y, (exists i, (i < n)%nat /\ y i <> 0) -> 0 < fdot n y (fmv n M y).
Definition possemidef (n : nat) (M : fmat) : Prop := forall y, 0 <= fdot n y (fmv n M y).

Lemma fwd_upd k U b i : (i < k)%nat -> fwd (S k) U b i = fwd k U b i.
Proof. intros L. cbn [fwd]. unfold upd. destruct (Nat.eqb_spec i k); [lia|easy]. Qed.
Lemma fwd_stable k m U b i : (i < k)%nat -> (k <= m)%nat -> fwd m U b i = fwd k U b i.
Proof. intros L. induction 1; [easy|]. rewrite fwd_upd by lia. easy. Qed.

Lemma fwd_spec k U b : (forall i, (i < k)%nat -> U i i <> 0) ->
  forall i, (i < k)%nat -> bsum (S i) (fun l => U l i * fwd k U b l) = b i.
Proof.
  induction k; intros D i Hi; [lia|].
  destruct (Nat.eq_dec i k) as [->|Ne].
  - rewrite bsum_S.
    replace (bsum k (fun l => U l k * fwd (S k) U b l)) with (bsum k (fun l => U l k * fwd k U b l)).
    + cbn [fwd]. unfold upd at 1. rewrite Nat.eqb_refl. field. apply D. lia.
    + apply bsum_ext. intros l Hl. now rewrite fwd_upd.
  - rewrite <- (IHk (fun i H => D i (Nat.lt_lt_succ_r _ _ H)) i) by lia.
    apply bsum_ext. intros l Hl. rewrite fwd_upd by lia. easy.
Qed.

Lemma fwd_ext k U U' b b' : (forall i j, (i <= j)%nat -> (j < k)%nat -> U i j = U' i j) ->
  (forall i, (i < k)%nat -> b i = b' i) -> forall i, (i < k)%nat -> fwd k U b i = fwd k U' b' i.
Proof.
  induction k; intros HU Hb i Hi; [lia|].
  destruct (Nat.eq_dec i k) as [->|Ne].
  - cbn [fwd]. unfold upd. rewrite Nat.eqb_refl. rewrite Hb, HU by lia. f_equal. f_equal.
    apply bsum_ext. intros l Hl. rewrite HU by lia. f_equal. apply IHk; try lia.
    + intros; apply HU; lia. + intros; apply Hb; lia.
  - rewrite !fwd_upd by lia. apply IHk; try lia. + intros; apply HU; lia. + intros; apply Hb; lia.
Qed.

Lemma bwd_upd k m U b i : (S k <= m)%nat -> (m - k <= i)%nat -> bwd (S k) m U b i = bwd k m U b i.
Proof. intros L Hi. cbn [bwd]. unfold upd. destruct (Nat.eqb_spec i (m - S k)); [lia|easy]. Qed.

Lemma bwd_spec k m U b : (k <= m)%nat -> (forall i, (i < m)%nat -> U i i <> 0) ->
  forall i, (m - k <= i < m)%nat ->
  U i i * bwd k m U b i + bsum (m - S i) (fun l => U i (S i + l)%nat * bwd k m U b (S i + l)%nat) = b i.
Proof.
  induction k; intros L D i Hi; [lia|].
  destruct (Nat.eq_dec i (m - S k)) as [->|Ne].
  - replace (m - S (m - S k))%nat with k by lia.
    rewrite (bsum_ext k _ (fun l => U (m - S k)%nat (S (m - S k) + l)%nat
                                    * bwd k m U b (S (m - S k) + l)%nat)).
    + cbn [bwd]. unfold upd at 1. rewrite Nat.eqb_refl. field. apply D. lia.
    + intros l Hl. rewrite bwd_upd by lia. easy.
  - rewrite <- (IHk ltac:(lia) D i) by lia. rewrite bwd_upd by lia. f_equal.
    apply bsum_ext. intros l Hl. rewrite bwd_upd by lia. easy.
Qed.

Lemma fwd_solves n U b : upper_tri n U -> pos_diag n U ->
  forall i, (i < n)%nat -> bsum n (fun l => U l i * fwd n U b l) = b i.
Proof.
  intros T P i Hi. rewrite <- (fwd_spec n U b) with (i := i).
  - apply bsum_trunc; [lia|]. intros j Hj. rewrite T by lia. lra.
  - intros j Hj. specialize (P j Hj). lra.
  - easy.
Qed.

Lemma bwd_solves n U b : upper_tri n U -> pos_diag n U -> feq n (fmv n U (bwd n n U b)) b.
Proof.
  intros T P i Hi. unfold fmv. rewrite <- (bwd_spec n n U b) with (i := i); try lia.
  - replace n with (S i + (n - S i))%nat at 1 by lia. rewrite bsum_app, bsum_S.
    rewrite bsum_all_zero; [lra|]. intros j Hj. rewrite T by lia. lra.
  - intros j Hj. specialize (P j Hj). lra.
Qed.

(** [fwd]/[bwd] on the leading block only read the leading block. *)
Lemma bwd_ext k m U U' b b' : (k <= m)%nat ->
  (forall i j, (i <= j)%nat -> (j < m)%nat -> U i j = U' i j) ->
  (forall i, (i < m)%nat -> b i = b' i) ->
  forall i, (m - k <= i < m)%nat -> bwd k m U b i = bwd k m U' b' i.
Proof.
  induction k; intros L HU Hb i Hi; [lia|].
  destruct (Nat.eq_dec i (m - S k)) as [->|Ne].
  - cbn [bwd]. unfold upd. rewrite Nat.eqb_refl. rewrite Hb, HU by lia. f_equal. f_equal.
    apply bsum_ext. intros l Hl. rewrite HU by lia. f_equal. apply IHk; try lia; easy.
  - rewrite !bwd_upd by lia. apply IHk; try lia; easy.
Qed.

(** * The factorization *)

Definition factor_of (n : nat) (M U : fmat) : Prop :=
  upper_tri n U /\ pos_diag n U /\
  forall i j, (i < n)%nat -> (j < n)%nat -> bsum n (fun l => U l i * U l j) = M i j.

(** Entries below the diagonal, in rows or in columns not reached are zero. *)
Lemma chol_zero_row M : forall k U info, chol k M = (U, info) -> forall i j, (k <= i)%nat -> U i j = 0.
Proof.
  induction k; intros U info E i j Hi.
  - injection E as <- <-. easy.
  - cbn [chol] in E. destruct (chol k M) as (V, f) eqn:EV. destruct f.
    + cbv zeta in E. destruct (Rleb _ 0); injection E as <- <-;
      (destruct (Nat.eqb_spec j k);
        [destruct (Nat.ltb_spec i k); [lia|]; destruct (Nat.eqb_spec i k); [lia|easy]
        |apply (IHk V O eq_refl); lia]).
    + injection E as <- <-. apply (IHk V (S f) eq_refl). lia.
Qed.
Lemma chol_zero_col M : forall k U info, chol k M = (U, info) -> forall i j, (k <= j)%nat -> U i j = 0.
Proof.
  induction k; intros U info E i j Hj.
  - injection E as <- <-. easy.
  - cbn [chol] in E. destruct (chol k M) as (V, f) eqn:EV. destruct f.
    + cbv zeta in E. destruct (Rleb _ 0); injection E as <- <-;
      (destruct (Nat.eqb_spec j k); [lia|]; apply (IHk V O eq_refl); lia).
    + injection E as <- <-. apply (IHk V (S f) eq_refl). lia.
Qed.
Lemma chol_zero_low M : forall k U info, chol k M = (U, info) -> forall i j, (j < i)%nat -> U i j = 0.
Proof.
  induction k; intros U info E i j Hi.
  - injection E as <- <-. easy.
  - cbn [chol] in E. destruct (chol k M) as (V, f) eqn:EV. destruct f.
    + cbv zeta in E. destruct (Rleb _ 0); injection E as <- <-;
      (destruct (Nat.eqb_spec j k);
        [destruct (Nat.ltb_spec i k); [lia|]; destruct (Nat.eqb_spec i k); [lia|easy]
        |apply (IHk V O eq_refl); lia]).
    + injection E as <- <-. apply (IHk V (S f) eq_refl). lia.
Qed.

Lemma chol_ok k M U : fsymm k M -> chol k M = (U, O) -> factor_of k M U.
Proof.
  revert U. induction k; intros U S E.
  - injection E as <-. split; [|split]; intros ? **; lia.
  - split; [intros i j Hj Hi; now apply (chol_zero_low _ _ _ _ E)|].
    cbn [chol] in E. destruct (chol k M) as (U0, info) eqn:E0. destruct info as [|info]; [|easy].
    destruct (IHk U0 ltac:(intros i j Hi Hj; apply S; lia) eq_refl) as (T & P & F).
    set (u := fwd k U0 (fun i => M i k)) in *. cbv zeta in E.
    destruct (Rleb (M k k - bsum k (fun l => u l * u l)) 0) eqn:B; [easy|].
    apply Rleb_false in B. assert (Bp : 0 < M k k - bsum k (fun l => u l * u l)) by lra.
    injection E as <-.
    assert (Hu : forall i, (i < k)%nat -> bsum k (fun l => U0 l i * u l) = M i k)
      by (intros i Hi; exact (fwd_solves _ _ (fun q => M q _) T P i Hi)).
    split.
    + intros i Hi. destruct (Nat.eqb_spec i k) as [->|].
      * rewrite Nat.ltb_irrefl. now apply sqrt_lt_R0.
      * apply P. lia.
    + intros i j Hi Hj. rewrite bsum_S. rewrite Nat.ltb_irrefl, Nat.eqb_refl.
      assert (Zr : forall j, U0 k j = 0) by (intros; now apply (chol_zero_row _ _ _ _ E0)).
      destruct (Nat.eqb_spec i k) as [->|Ni]; destruct (Nat.eqb_spec j k) as [->|Nj].
      * rewrite sqrt_sqrt by lra.
        rewrite (bsum_ext k _ (fun l => u l * u l)); [lra|].
        intros l Hl. destruct (Nat.ltb_spec l k); [easy|lia].
      * rewrite (bsum_ext k _ (fun l => U0 l j * u l)).
        -- rewrite Hu by lia. rewrite (S k j) by lia. rewrite Zr. lra.
        -- intros l Hl. destruct (Nat.ltb_spec l k); [lra|lia].
      * rewrite (bsum_ext k _ (fun l => U0 l i * u l)).
        -- rewrite Hu by lia. rewrite Zr. lra.
        -- intros l Hl. destruct (Nat.ltb_spec l k); [lra|lia].
      * rewrite F by lia. rewrite Zr. lra.
Qed.

(** A failing factorization stopped at the first pivot that is not positive. *)
Lemma chol_fail M : forall k U c, chol k M = (U, S c) ->
  (c < k)%nat /\ exists U0, chol c M = (U0, O) /\
    (forall i j, (j < c)%nat -> U i j = U0 i j) /\
    (forall l, (l < c)%nat -> U l c = fwd c U0 (fun i => M i c) l) /\
    M c c - bsum c (fun l => U l c * U l c) <= 0.
Proof.
  induction k; intros U c E; [easy|]. cbn [chol] in E.
  destruct (chol k M) as (V, f) eqn:EV. destruct f as [|f].
  - cbv zeta in E. destruct (Rleb _ 0) eqn:B; [|easy]. injection E as <- <-.
    apply Rleb_true in B. split; [lia|]. exists V. split; [easy|]. split; [|split].
    + intros i j Hj. destruct (Nat.eqb_spec j k); [lia|easy].
    + intros l Hl. rewrite Nat.eqb_refl. destruct (Nat.ltb_spec l k); [easy|lia].
    + rewrite (bsum_ext k _ (fun l => fwd k V (fun i => M i k) l * fwd k V (fun i => M i k) l)); [easy|].
      intros l Hl. rewrite Nat.eqb_refl. destruct (Nat.ltb_spec l k); [easy|lia].
  - injection E as <- <-. destruct (IHk V f eq_refl) as (L & R). split; [lia|easy].
Qed.

(** |U y|^2 = y' M y *)
Lemma factor_form n M U x y : factor_of n M U ->
  fdot n (fmv n U x) (fmv n U y) = fdot n x (fmv n M y).
Proof.
  intros (_ & _ & F). unfold fdot, fmv.
  rewrite (bsum_ext n (fun i => x i * bsum n (fun j => M i j * y j))
    (fun i => bsum n (fun l => bsum n (fun j => U l i * x i * (U l j * y j))))).
  - rewrite bsum_swap. apply bsum_ext. intros l Hl. rewrite <- bsum_scal_r. apply bsum_ext.
    intros i Hi. now rewrite bsum_scal, (Rmult_comm (U l i)).
  - intros i Hi. rewrite bsum_swap, <- bsum_scal. apply bsum_ext. intros j Hj. rewrite <- F by easy.
    rewrite <- bsum_scal_r, <- bsum_scal. apply bsum_ext. intros; ring.
Qed.

Lemma upper_injective n U y : upper_tri n U -> pos_diag n U -> (forall i, (i < n)%nat -> fmv n U y i = 0) ->
  forall i, (i < n)%nat -> y i = 0.
Proof.
  intros T P H.
  assert (G : forall d i, (n - d <= i < n)%nat -> y i = 0).
  { induction d; intros i Hi; [lia|]. destruct (Nat.eq_dec i (n - S d)) as [->|]; [|apply IHd; lia].
    specialize (H (n - S d)%nat ltac:(lia)). unfold fmv in H.
    set (i := (n - S d)%nat) in *.
    replace n with (S i + (n - S i))%nat in H by (subst i; lia).
    rewrite bsum_app, bsum_S in H. rewrite bsum_all_zero in H by (intros j Hj; rewrite T by lia; lra).
    rewrite bsum_all_zero in H by (intros j Hj; rewrite IHd by (subst i; lia); lra).
    specialize (P i ltac:(lia)). nra. }
  intros i Hi. apply (G n). lia.
Qed.

Lemma factor_posdef n M U : factor_of n M U -> posdef n M.
Proof.
  intros F y (i & Hi & Ny). rewrite <- (factor_form n M U y y F).
  destruct (Rle_lt_or_eq_dec 0 (fsq n (fmv n U y)) (fsq_nonneg _ _)) as [L|E]; [easy|].
  exfalso. apply Ny. destruct F as (T & P & _).
  apply (upper_injective n U y T P); [|easy]. intros j Hj. apply (fsq_zero n); [easy|easy].
Qed.

(** ** The direction of non-positive curvature of a failing factorization *)

Lemma fdot_trunc c n x y : (c <= n)%nat -> (forall i, (c <= i < n)%nat -> x i = 0) -> fdot n x y = fdot c x y.
Proof. intros L Z. apply bsum_trunc; [easy|]. intros i Hi. rewrite Z by easy. lra. Qed.

Lemma quad_lead n c M v : (c < n)%nat -> fsymm n M ->
  (forall i, (c < i < n)%nat -> v i = 0) -> v c = 1 ->
  fdot n v (fmv n M v) = fdot c v (fmv c M v) + 2 * fdot c v (fun i => M i c) + M c c.
Proof.
  intros L Sy Z V1. rewrite (fdot_trunc (S c)) by (try lia; intros; apply Z; lia).
  unfold fdot at 1. rewrite bsum_S. rewrite V1, Rmult_1_l.
  assert (Tm : forall i, fmv n M v i = fmv c M v i + M i c).
  { intros i. unfold fmv. rewrite (bsum_trunc (S c) n) by (try lia; intros j Hj; rewrite Z by lia; lra).
    rewrite bsum_S, V1. lra. }
  rewrite Tm. rewrite (bsum_ext c _ (fun i => v i * fmv c M v i + v i * M i c))
    by (intros; rewrite Tm; ring). rewrite bsum_plus. fold (fdot c v (fmv c M v)).
  fold (fdot c v (fun i => M i c)).
  replace (fmv c M v c) with (fdot c v (fun i => M i c)); [lra|].
  unfold fmv, fdot. apply bsum_ext. intros i Hi. rewrite (Sy c i) by lia. ring.
Qed.

Lemma singular_terms_form n M U c : fsymm n M -> chol n M = (U, S c) ->
  let (delta, v) := singular_terms n M U (S c) in
  0 <= delta /\ fdot n v (fmv n M v) = - delta /\ 1 <= fsq n v /\ v c = 1 /\ (c < n)%nat.
Proof.
  intros Sy E. destruct (chol_fail _ _ _ _ E) as (L & U0 & E0 & EU & Eu & D).
  unfold singular_terms. cbn [Nat.sub]. rewrite Nat.sub_0_r.
  set (b := bwd c c U (fun l => - U l c)).
  set (v := fun i => if (i <? c)%nat then b i else if (i =? c)%nat then 1 else 0).
  assert (S0 : fsymm c M) by (intros i j Hi Hj; apply Sy; lia).
  destruct (chol_ok c M U0 S0 E0) as (T & P & F).
  assert (Fa : factor_of c M U0) by now split.
  set (u := fwd c U0 (fun i => M i c)).
  assert (Hu : forall i, (i < c)%nat -> bsum c (fun l => U0 l i * u l) = M i c)
    by (intros i Hi; exact (fwd_solves _ _ (fun q => M q _) T P i Hi)).
  assert (Hb : feq c (fmv c U0 v) (fopp u)).
  { intros i Hi. transitivity (fmv c U0 (bwd c c U0 (fopp u)) i).
    - apply fmv_ext. intros j Hj. unfold v. destruct (Nat.ltb_spec j c); [|lia]. unfold b.
      apply bwd_ext; try lia.
      + intros; apply EU; lia.
      + intros l Hl. unfold fopp. rewrite Eu by easy. easy.
    - now apply bwd_solves. }
  assert (Vc : v c = 1) by (unfold v; now rewrite Nat.ltb_irrefl, Nat.eqb_refl).
  assert (Vz : forall i, (c < i < n)%nat -> v i = 0).
  { intros i Hi. unfold v. destruct (Nat.ltb_spec i c); [lia|]. destruct (Nat.eqb_spec i c); [lia|easy]. }
  assert (EUu : bsum c (fun l => U l c * U l c) = fsq c u).
  { apply bsum_ext. intros l Hl. now rewrite Eu. }
  rewrite EUu in *. split; [lra|]. split; [|split; [|split]].
  - rewrite (quad_lead n c M v) by easy.
    rewrite <- (factor_form c M U0 v v Fa).
    replace (fdot c (fmv c U0 v) (fmv c U0 v)) with (fsq c u).
    2:{ rewrite (fdot_ext c _ (fopp u) _ (fopp u)) by easy. rewrite fdot_opp_l, fdot_opp_r. unfold fsq. lra. }
    replace (fdot c v (fun i => M i c)) with (- fsq c u); [lra|].
    transitivity (fdot c (fmv c U0 v) u).
    + rewrite (fdot_ext c _ (fopp u) _ u) by easy. now rewrite fdot_opp_l.
    + rewrite fdot_comm, <- fdot_fvm, fdot_comm. unfold fdot. apply bsum_ext. intros i Hi. f_equal.
      rewrite <- Hu by easy. unfold fvm. apply bsum_ext. intros; ring.
  - unfold fsq, fdot. replace 1 with (v c * v c) by (rewrite Vc; lra).
    apply (bsum_term_le n (fun i => v i * v i)); [|easy]. intros; nra.
  - easy.
  - easy.
Qed.

Lemma chol_posdef n M : fsymm n M -> (snd (chol n M) = O <-> posdef n M).
Proof.
  intros S. destruct (chol n M) as (U, info) eqn:E. cbn [snd]. split.
  - intros ->. apply (factor_posdef n M U). now apply chol_ok.
  - intros PD. destruct info as [|c]; [easy|]. exfalso.
    pose proof (singular_terms_form n M U c S E) as H.
    destruct (singular_terms n M U (Datatypes.S c)) as (delta, v).
    destruct H as (D & Q & _ & Vc & L). assert (0 < fdot n v (fmv n M v)).
    { apply PD. exists c. split; [easy|]. rewrite Vc. lra. }
    lra.
Qed.

Lemma cho_solve_ok n M U b : fsymm n M -> chol n M = (U, O) -> feq n (fmv n M (cho_solve n U b)) b.
Proof.
  intros S E i Hi. destruct (chol_ok n M U S E) as (T & P & F).
  pose proof (bwd_solves n U (fwd n U b) T P) as HB. fold (cho_solve n U b) in HB.
  set (x := cho_solve n U b) in *.
  rewrite <- (fwd_solves n U b T P i Hi).
  rewrite (bsum_ext n (fun l => U l i * fwd n U b l) (fun l => U l i * fmv n U x l))
    by (intros l Hl; now rewrite HB).
  unfold fmv. rewrite (bsum_ext n (fun j => M i j * x j) (fun j => bsum n (fun l => U l i * (U l j * x j)))).
  - rewrite bsum_swap. apply bsum_ext. intros l Hl. now rewrite bsum_scal.
  - intros j Hj. rewrite <- F by easy. rewrite <- bsum_scal_r. apply bsum_ext. intros; ring.
Qed.

(** ** The singular value estimate *)

Lemma estimate_condition_stable m U : forall k i, (k <= i)%nat -> fst (estimate_condition k m U) i = 0.
Proof.
  induction k; intros i Hi; [easy|]. cbn [estimate_condition].
  destruct (estimate_condition k m U) as (w, p) eqn:E. cbv zeta.
  destruct (Rleb _ _); cbn [fst]; unfold upd; (destruct (Nat.eqb_spec i k); [lia|]); apply IHk; lia.
Qed.
Lemma estimate_condition_prefix m U : forall k i, (i < k)%nat ->
  fst (estimate_condition k m U) i = fst (estimate_condition (S i) m U) i.
Proof.
  induction k; intros i Hi; [lia|]. destruct (Nat.eq_dec i k) as [->|]; [easy|].
  rewrite <- IHk by lia. cbn [estimate_condition].
  destruct (estimate_condition k m U) as (w, p) eqn:E. cbv zeta.
  destruct (Rleb _ _); cbn [fst]; unfold upd; (destruct (Nat.eqb_spec i k); [lia|easy]).
Qed.
Lemma estimate_w0 n U : (0 < n)%nat -> 0 < U 0%nat 0%nat -> fst (estimate_condition n n U) 0%nat <> 0.
Proof.
  intros L P. rewrite estimate_condition_prefix by easy. cbn [estimate_condition].
  cbv zeta. destruct (Rleb _ _); cbn [fst]; unfold upd; cbn [Nat.eqb]; unfold fzero;
    intros H; apply Rmult_integral in H as [H|H]; try lra;
    pose proof (Rinv_0_lt_compat _ P); lra.
Qed.

(** The estimate is a unit vector z with |U z| = s; hence s is never below the smallest singular
    value of U. *)
Lemma estimate_ok n M U : (0 < n)%nat -> fsymm n M -> chol n M = (U, O) ->
  let (s, z) := estimate_smallest_singular_value n U in
  fsq n z = 1 /\ s * s = fdot n z (fmv n M z) /\ 0 <= s.
Proof.
  intros L S E. destruct (chol_ok n M U S E) as (T & P & F).
  assert (Fa : factor_of n M U) by now split.
  unfold estimate_smallest_singular_value. set (w := fst (estimate_condition n n U)).
  set (v := bwd n n U w). pose proof (bwd_solves n U w T P) as HB. fold v in HB.
  assert (Pv : 0 < fsq n v).
  { destruct (Rle_lt_or_eq_dec 0 (fsq n v) (fsq_nonneg _ _)) as [?|Z]; [easy|]. exfalso.
    assert (w 0%nat <> 0) by (apply estimate_w0; [easy|now apply P]).
    apply H. rewrite <- HB by easy. unfold fmv. apply bsum_all_zero. intros j Hj.
    rewrite (fsq_zero n v) by easy. lra. }
  assert (Nv : 0 < fnorm n v) by (now apply sqrt_lt_R0).
  assert (Iv : 0 < / fnorm n v) by (now apply Rinv_0_lt_compat).
  split; [|split].
  - rewrite fsq_scale. rewrite <- fnorm_sqr. field. lra.
  - rewrite <- (factor_form n M U _ _ Fa).
    rewrite (fdot_ext n _ (fscale (/ fnorm n v) w) _ (fscale (/ fnorm n v) w)).
    + rewrite fdot_scale_l, fdot_scale_r. fold (fsq n w). rewrite <- fnorm_sqr. unfold Rdiv. ring.
    + intros i Hi. rewrite fmv_scale. unfold fscale. now rewrite HB.
    + intros i Hi. rewrite fmv_scale. unfold fscale. now rewrite HB.
  - apply Rmult_le_pos; [apply fnorm_nonneg|lra].
Qed.
