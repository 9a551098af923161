(** Property C136: the steps of bntr. *)
From Coq Require Import Reals List Arith ZArith Bool Lia Lra Psatz FunctionalExtensionality.
From Verif Require Import Base XR Vec FVec CgModel TrsboxModel BntrModel Prop_Trsbox Prop_Bntr.
Import ListNotations.
Open Scope R_scope.

Section C136.
Variables (fast : bool) (method : cgmethod) (n : nat) (lin : fvec) (H : fmat) (lower upper : fvec) (t : tols)
  (maxiter : Z) (k_gd : nat) (x0 : fvec).

(** The states of the solver between the passes of its inner loop. *)
Inductive pass_state : bst -> Prop :=
| ps_start s : preliminary fast n lin H lower upper t k_gd x0 = Ok s -> pass_state s
| ps_pass s niter s' acc stop : pass_state s -> bs_conv s = false ->
    bntr_pass fast method n lin H lower upper t niter maxiter (bs_x s) (bs_f s) s = Ok (s', acc, stop) ->
    pass_state s'.

(** Every result of bntr is the point of such a state. *)
Lemma inner_state fuel niter : forall s s', pass_state s -> bs_conv s = false ->
  bntr_inner fuel fast method n lin H lower upper t niter maxiter (bs_x s) (bs_f s) s = Ok s' -> pass_state s'.
Proof.
  induction fuel as [|fuel IH]; intros s s' PS NC E; [discriminate|]. cbn [bntr_inner] in E.
  destruct (bntr_pass _ _ _ _ _ _ _ _ _ _ _ _ _) as [[[s1 acc] stop]|] eqn:P; [|discriminate]. cbn [bind] in E.
  assert (PS1 : pass_state s1) by (eapply ps_pass; eauto).
  destruct (stop || acc || bs_conv s1) eqn:B; [now injection E as <-|].
  apply orb_false_elim in B as [B C]. apply orb_false_elim in B as [_ ->].
  apply bntr_pass_inv in P as (c & st & nm & r & _ & _ & _ & _ & A). destruct (A eq_refl) as (E1 & E2 & _).
  rewrite <- E1, <- E2 in E. exact (IH s1 s' PS1 C E).
Qed.
Lemma outer_state fuel k : forall niter last s s' l', pass_state s ->
  bntr_outer k fuel fast method n lin H lower upper t niter maxiter last s = Ok (s', l') -> pass_state s'.
Proof.
  induction k as [|k IH]; intros niter last s s' l' PS E; cbn [bntr_outer] in E; [now injection E as <- _|].
  destruct (bs_conv s) eqn:C; [now injection E as <- _|].
  destruct (bntr_inner _ _ _ _ _ _ _ _ _ _ _ _ _ _) as [s1|] eqn:I; [|discriminate]. cbn [bind] in E.
  apply (IH _ _ _ _ _ (inner_state _ _ _ _ PS C I) E).
Qed.
Theorem result_state fuel r : bntr fuel fast method n lin H lower upper x0 t maxiter k_gd = Ok r ->
  exists s, pass_state s /\ br_x r = bs_x s /\ br_criterion r = bs_f s.
Proof.
  unfold bntr. destruct (preliminary _ _ _ _ _ _ _ _ _) as [s|] eqn:P; [|discriminate]. cbn [bind].
  destruct (bntr_outer _ _ _ _ _ _ _ _ _ _ _ _ _ _) as [[s' l]|] eqn:O; [|discriminate]. cbn [bind].
  destruct (get l); [|discriminate]. cbn [bind]. intros [= <-]. exists s'. split; [|easy].
  eapply outer_state; [|exact O]. now apply ps_start.
Qed.

(** A parameter that the solver does not move: fixed, or at a bound with the gradient pointing
    outwards. *)
Definition binding (x g : fvec) (i : nat) : Prop :=
  lower i = upper i \/ (x i = lower i /\ 0 < g i) \/ (x i = upper i /\ g i < 0).
Definition gradient (x : fvec) : fvec := fun i => lin i + bsum n (fun j => H i j * x j).
Definition model_value (x : fvec) : R := eval_crit n x lin H.

Hypothesis BOX : forall i, lower i <= x0 i <= upper i.
Hypothesis ZERO : forall i, x0 i = 0.

Lemma ordered i : lower i <= upper i.
Proof. pose proof (BOX i). lra. Qed.
Lemma clip_x_all x i : lower i <= clip_x lower upper x i <= upper i.
Proof. apply (clip_x_box (S i) lower upper x); [intros; apply ordered|lia]. Qed.

Definition consistent (s : bst) : Prop :=
  (forall i, lower i <= bs_x s i <= upper i) /\ bs_g s = gradient (bs_x s) /\
  bs_act s = get_active fast n lower upper (bs_x s) (bs_g s) /\
  (bs_conv s = false -> min_radius <= bs_radius s <= max_radius).

Lemma state_consistent s : pass_state s -> consistent s.
Proof.
  induction 1 as [s P|s niter s' acc stop PS IH NC P].
  - unfold preliminary in P.
    assert (G0 : fadd lin (fmv n H x0) = lin).
    { apply functional_extensionality. intros i. unfold fadd, fmv. rewrite bsum_all_zero; [lra|].
      intros j _. rewrite ZERO. ring. }
    destruct (check_convergence _ _ _ _ _ _ _ _ _ _ _) as [cv rs]. destruct cv.
    + injection P as <-. unfold consistent; cbn. rewrite G0. split; [easy|]. split; [symmetry; exact G0|]. easy.
    + destruct (gd_loop _ _ _ _ _ _ _ _ _ _ _) as [d|]; cbn [bind] in P; [|discriminate].
      destruct (Rltb (gd_fmin d) _).
      * destruct (check_convergence _ _ _ _ _ _ _ _ _ _ _) as [cv' rs']. injection P as <-.
        unfold consistent. destruct cv'; cbn; (split; [intros; apply clip_x_all|]); split; try easy; split; try easy.
        intros _. apply clip_radius_range.
      * injection P as <-. unfold consistent; cbn. rewrite G0. split; [easy|]. split; [symmetry; exact G0|]. split; [easy|].
        intros _. apply clip_radius_range.
  - destruct IH as (B & G & A & R).
    pose proof (bntr_pass_radius _ _ _ _ _ _ _ _ _ _ _ _ _ _ _ _ P (R NC)) as R'.
    apply bntr_pass_inv in P as (c & st & nm & r & _ & _ & _ & YES & NO). unfold consistent. destruct acc.
    + destruct (YES eq_refl) as (-> & _ & _ & -> & ->). split; [intros; apply clip_x_all|]. split; [easy|]. split; [easy|].
      intros _. apply R'.
    + destruct (NO eq_refl) as (-> & _ & _ & -> & ->). split; [easy|]. split; [easy|]. split; [easy|].
      intros _. apply R'.
Qed.

(** The index set of the restricted problem. *)
Lemma inactive_spec x g i : (forall i, lower i <= x i <= upper i) ->
  In i (ab_inactive (get_active fast n lower upper x g)) <-> (i < n)%nat /\ ~ binding x g i.
Proof.
  intros B. pose proof (B i) as Bi. unfold binding, get_active.
  destruct fast; unfold active_fast, active_sets; cbn [ab_inactive]; unfold inactive_of; rewrite filter_In, in_seq;
    (split; [intros [Hi K]; split; [lia|]|intros [Hi K]; split; [lia|]]);
    destruct (Rleb (x i) (lower i)) eqn:E1, (Rltb 0 (g i)) eqn:E2, (Rleb (upper i) (x i)) eqn:E3, (Rltb (g i) 0) eqn:E4,
      (Reqb (lower i) (upper i)) eqn:E5; cbn in *; try discriminate; try reflexivity; rb; try lra;
    exfalso; apply K; lra.
Qed.
Lemma inactive_nodup x g : NoDup (ab_inactive (get_active fast n lower upper x g)).
Proof. unfold get_active; destruct fast; cbn; apply NoDup_filter, seq_NoDup. Qed.

Lemma full_step_binding x g step i : (forall i, lower i <= x i <= upper i) -> (i < n)%nat -> binding x g i ->
  full_step lower upper x (get_active fast n lower upper x g) step i = 0.
Proof.
  intros B Hi K. pose proof (B i) as Bi. unfold binding, get_active, full_step in *.
  destruct fast; unfold active_fast, active_sets; cbn [ab_inactive ab_fixed ab_upper ab_lower];
    destruct (Rleb (x i) (lower i)) eqn:E1, (Rltb 0 (g i)) eqn:E2, (Rleb (upper i) (x i)) eqn:E3, (Rltb (g i) 0) eqn:E4,
      (Reqb (lower i) (upper i)) eqn:E5; cbn in *; rb; lra.
Qed.
Lemma index_of_nth idx : NoDup idx -> forall k, (k < length idx)%nat -> index_of (nth k idx 0%nat) idx = Some k.
Proof.
  induction idx as [|j idx IH]; intros ND k Hk; cbn in Hk; [lia|]. inversion_clear ND as [|? ? NI ND'].
  destruct k as [|k]; cbn [nth index_of]; [now rewrite Nat.eqb_refl|].
  destruct (Nat.eqb_spec (nth k idx 0%nat) j) as [E|].
  - destruct NI. rewrite <- E. apply nth_In. lia.
  - now rewrite IH by (assumption || lia).
Qed.
Lemma full_step_free x g step k : (forall i, lower i <= x i <= upper i) ->
  let idx := ab_inactive (get_active fast n lower upper x g) in (k < length idx)%nat ->
  full_step lower upper x (get_active fast n lower upper x g) step (nth k idx 0%nat) = step k.
Proof.
  intros B idx Hk. assert (I : In (nth k idx 0%nat) idx) by now apply nth_In.
  pose proof I as F. unfold idx in F at 2. unfold get_active in F.
  assert (N : forall l u f, In (nth k idx 0%nat) (inactive_of n l u f) ->
    f (nth k idx 0%nat) = false /\ l (nth k idx 0%nat) = false /\ u (nth k idx 0%nat) = false).
  { intros l u f K. unfold inactive_of in K. apply filter_In in K as [_ K]. destruct (f _), (l _), (u _); try discriminate; easy. }
  unfold full_step.
  assert (Q : ab_fixed (get_active fast n lower upper x g) (nth k idx 0%nat) = false /\
    ab_lower (get_active fast n lower upper x g) (nth k idx 0%nat) = false /\
    ab_upper (get_active fast n lower upper x g) (nth k idx 0%nat) = false).
  { unfold get_active. destruct fast; apply N; exact F. }
  destruct Q as (-> & -> & ->). unfold scatter. fold idx. rewrite index_of_nth; [easy|apply inactive_nodup|easy].
Qed.

Lemma bsum_pick j F : (j < n)%nat -> bsum n F = F j + bsum n (fun i => if (i =? j)%nat then 0 else F i).
Proof.
  intros Hj. rewrite (bsum_ext n F (fun i => (if (i =? j)%nat then F j else 0) + (if (i =? j)%nat then 0 else F i))).
  - rewrite bsum_plus. f_equal. clear - Hj. revert Hj. generalize (F j). induction n as [|m IH]; intros c Hj; [lia|]. cbn [bsum].
    destruct (Nat.eqb_spec m j) as [->|].
    + rewrite bsum_all_zero; [lra|]. intros i Hi. destruct (Nat.eqb_spec i j); [lia|easy].
    + rewrite IH by lia. lra.
  - intros i Hi. destruct (Nat.eqb_spec i j) as [->|]; lra.
Qed.
Lemma bsum_indices idx : NoDup idx -> (forall i, In i idx -> (i < n)%nat) -> forall F,
  (forall i, (i < n)%nat -> ~ In i idx -> F i = 0) -> bsum n F = bsum (length idx) (fun k => F (nth k idx 0%nat)).
Proof.
  induction idx as [|j idx IH]; intros ND L F Z.
  - cbn. apply bsum_all_zero. intros. now apply Z.
  - inversion_clear ND as [|? ? NI ND']. cbn [length]. rewrite bsum_shift. cbn [nth].
    rewrite (bsum_pick j) by (apply L; now left). f_equal.
    rewrite IH; [|easy|intros; apply L; now right|].
    + apply bsum_ext. intros k Hk. destruct (Nat.eqb_spec (nth k idx 0%nat) j) as [E|]; [|easy].
      destruct NI. rewrite <- E. now apply nth_In.
    + intros i Hi K. destruct (Nat.eqb_spec i j) as [->|]; [easy|]. apply Z; [easy|]. intros [->|]; easy.
Qed.

(** The value of the model along a step, for a symmetric matrix. *)
Lemma model_change x d : (forall i j, (i < n)%nat -> (j < n)%nat -> H i j = H j i) ->
  model_value (fun i => x i + d i) - model_value x = eval_crit n d (gradient x) H.
Proof.
  intros S. unfold model_value, eval_crit, gradient, fdot, fvm.
  assert (C : bsum n (fun i => bsum n (fun j => d j * H j i) * x i) = bsum n (fun i => d i * bsum n (fun j => H i j * x j))).
  { rewrite (bsum_ext n _ (fun i => bsum n (fun j => d j * H j i * x i)))
      by (intros; rewrite <- bsum_scal_r; apply bsum_ext; intros; ring).
    rewrite bsum_swap. apply bsum_ext. intros i Hi. rewrite <- bsum_scal. apply bsum_ext. intros; ring. }
  assert (C' : bsum n (fun i => bsum n (fun j => x j * H j i) * d i) = bsum n (fun i => d i * bsum n (fun j => H i j * x j))).
  { apply bsum_ext. intros i Hi. rewrite Rmult_comm. f_equal. apply bsum_ext. intros j Hj. rewrite (S j i) by easy. ring. }
  rewrite (bsum_ext n (fun i => lin i * (x i + d i)) (fun i => lin i * x i + lin i * d i)) by (intros; ring).
  rewrite (bsum_ext n (fun i => bsum n (fun j => (x j + d j) * H j i) * (x i + d i))
    (fun i => bsum n (fun j => x j * H j i) * x i + bsum n (fun j => x j * H j i) * d i +
              (bsum n (fun j => d j * H j i) * x i + bsum n (fun j => d j * H j i) * d i))).
  2:{ intros i Hi. rewrite (bsum_ext n _ (fun j => x j * H j i + d j * H j i)) by (intros; ring). rewrite bsum_plus. ring. }
  rewrite (bsum_ext n (fun i => (lin i + bsum n (fun j => H i j * x j)) * d i)
    (fun i => lin i * d i + d i * bsum n (fun j => H i j * x j))) by (intros; ring).
  rewrite !bsum_plus, C, C'. lra.
Qed.

(** A step that vanishes outside idx is worth what the restricted problem says. *)
Lemma restricted_value idx d g : NoDup idx -> (forall i, In i idx -> (i < n)%nat) -> (forall i, (i < n)%nat -> ~ In i idx -> d i = 0) ->
  eval_crit n d g H = eval_crit (length idx) (sub_vec idx d) (sub_vec idx g) (sub_mat idx H).
Proof.
  intros ND L Z. unfold eval_crit, fdot, fvm, sub_vec, sub_mat. f_equal.
  - rewrite (bsum_indices idx); [easy|easy|easy|]; intros i Hi K; rewrite Z by easy; ring.
  - f_equal. rewrite (bsum_indices idx); [|easy|easy|intros i Hi K; rewrite Z by easy; ring].
    apply bsum_ext. intros k Hk. f_equal. rewrite (bsum_indices idx); [easy|easy|easy|].
    intros i Hi K. rewrite Z by easy. ring.
Qed.

Theorem C136_pass s niter s' acc stop : pass_state s -> bs_conv s = false ->
  bntr_pass fast method n lin H lower upper t niter maxiter (bs_x s) (bs_f s) s = Ok (s', acc, stop) ->
  exists idx step y,
    let x := bs_x s in
    let x' i := Rmin (upper i) (Rmax (lower i) (y i)) in
    NoDup idx /\ (forall i, In i idx <-> (i < n)%nat /\ ~ binding x (gradient x) i) /\
    (idx <> [] ->
       method (length idx) (fun k => gradient x (nth k idx 0%nat))
         (fun k l => H (nth k idx 0%nat) (nth l idx 0%nat)) (bs_radius s)
         (fun k => lower (nth k idx 0%nat)) (fun k => upper (nth k idx 0%nat)) = Ok step) /\
    (forall i, (i < n)%nat -> binding x (gradient x) i -> y i = x i) /\
    (forall k, (k < length idx)%nat -> y (nth k idx 0%nat) = x (nth k idx 0%nat) + step k) /\
    (acc = true -> bs_x s' = x' /\ bs_f s' = model_value x') /\
    (acc = false -> bs_x s' = x /\ bs_f s' = bs_f s) /\
    ((forall i j, (i < n)%nat -> (j < n)%nat -> H i j = H j i) -> idx <> [] ->
       update_radius_cg fast (model_value x') (model_value x - model_value y) (bs_f s - model_value x')
         (fnorm (length idx) step) (bs_radius s) = Ok (bs_radius s', acc)).
Proof.
  intros PS NC P. destruct (state_consistent s PS) as (B & G & A & R). specialize (R NC).
  apply bntr_pass_inv in P as (c & st & nm & r & C & U & <- & YES & NO).
  rewrite A in *. rewrite G in *. set (x := bs_x s) in *. set (g := gradient x) in *.
  set (idx := ab_inactive (get_active fast n lower upper x g)) in *.
  exists idx, st, (fadd x c). cbv zeta.
  assert (CE : c = full_step lower upper x (get_active fast n lower upper x g) st /\
    (idx <> [] -> method (length idx) (sub_vec idx g) (sub_mat idx H) (bs_radius s) (sub_vec idx lower) (sub_vec idx upper) = Ok st
      /\ nm = fnorm (length idx) st)).
  { unfold cg_phase_step in C. fold idx in C. destruct idx as [|i0 idx'] eqn:EI.
    - destruct (n <=? 1)%nat; [|discriminate]. injection C as <- <- <-. easy.
    - destruct (method _ _ _ _ _ _) as [st0|] eqn:M; [|discriminate]. cbn [bind] in C.
      assert (RZ : Reqb (bs_radius s) 0 = false).
      { unfold Reqb. destruct (Req_EM_T _ _) as [K|]; [|easy]. rewrite K in R. unfold min_radius in R. lra. }
      rewrite RZ in C. cbn [bind] in C. injection C as <- <- <-. easy. }
  destruct CE as [CE M].
  assert (XC : clip_x lower upper (fadd x c) = fun i => Rmin (upper i) (Rmax (lower i) (fadd x c i))).
  { apply functional_extensionality. intros i. pose proof (ordered i). unfold clip_x, Rmin, Rmax. cbv zeta.
    destruct (Rle_dec (lower i) (fadd x c i)), (Rleb (fadd x c i) (lower i)) eqn:?;
      repeat match goal with |- context [Rle_dec ?a ?b] => destruct (Rle_dec a b) end;
      repeat match goal with |- context [Rleb ?a ?b] => destruct (Rleb a b) eqn:? end; rb; lra. }
  rewrite <- XC. fold (model_value (clip_x lower upper (fadd x c))) in *.
  split; [apply inactive_nodup|]. split; [intros; now apply inactive_spec|]. split; [intros NE; apply (M NE)|].
  split; [|split; [|split; [|split]]].
  - intros i Hi K. unfold fadd. rewrite CE, full_step_binding by easy. lra.
  - intros k Hk. unfold fadd. rewrite CE. unfold idx. rewrite full_step_free by easy. lra.
  - intros ->. destruct (YES eq_refl) as (-> & -> & _). easy.
  - intros ->. destruct (NO eq_refl) as (-> & -> & _). easy.
  - intros S NE. destruct (M NE) as [_ <-].
    replace (model_value x - model_value (fadd x c)) with (predicted_reduction n g H (get_active fast n lower upper x g) c st); [exact U|].
    unfold predicted_reduction. fold idx. pose proof (model_change x c S) as MC. fold g in MC.
    change (fun i => x i + c i) with (fadd x c) in MC.
    assert (Q : eval_crit (length idx) (sub_vec idx c) (sub_vec idx g) (sub_mat idx H) = eval_crit n c g H).
    { symmetry. apply restricted_value; [apply inactive_nodup| |].
      - intros i I. now apply inactive_spec in I.
      - intros i Hi NI. rewrite CE. apply full_step_binding; [easy..|].
        destruct (Req_EM_T (lower i) (upper i)); [now left|].
        destruct (Req_EM_T (x i) (lower i)), (Rlt_dec 0 (g i)), (Req_EM_T (x i) (upper i)), (Rlt_dec (g i) 0);
          unfold binding; try tauto; exfalso; apply NI, inactive_spec; auto; split; auto; unfold binding; tauto. }
    destruct (length idx =? n)%nat; [|lra].
    enough (eval_crit (length idx) st (sub_vec idx g) (sub_mat idx H) = eval_crit (length idx) (sub_vec idx c) (sub_vec idx g) (sub_mat idx H)) by lra.
    assert (Z : forall k, (k < length idx)%nat -> sub_vec idx c k = st k).
    { intros k Hk. unfold sub_vec. rewrite CE. unfold idx. now apply full_step_free. }
    unfold eval_crit, fdot, fvm. f_equal.
    + apply bsum_ext. intros k Hk. now rewrite Z.
    + f_equal. apply bsum_ext. intros k Hk. rewrite Z by easy. f_equal. apply bsum_ext. intros j Hj. now rewrite Z.
Qed.

(** What bntr returns is the point and the value of such a state. *)
Theorem C136_result fuel r : bntr fuel fast method n lin H lower upper x0 t maxiter k_gd = Ok r ->
  exists s, pass_state s /\ br_x r = bs_x s /\ br_criterion r = bs_f s.
Proof. apply result_state. Qed.
End C136.

Definition e_lin : fvec := fun i => match i with O => -1 | _ => 1 end.
Definition e_lower : fvec := fun i => match i with O => -1 | _ => 0 end.
Definition e_H : fmat := fun _ _ => 0.
Definition e_upper : fvec := fun _ => 1.
Definition e_tols := mkTols 0 0 (-1).
Definition e_descent : cgmethod := fun _ g _ _ _ _ => Ok (fun k => - g k).
Lemma check_convergence_none lower upper x f g lin n iter : check_convergence n lin lower upper e_tols x f g false 0 iter =
  match iter with Some (k, m) => if Z.eqb k m then (false, 6%nat) else (false, 0%nat) | None => (false, 0%nat) end.
Proof.
  unfold check_convergence. cbn [gtol_abs gtol_rel gtol_scaled e_tols].
  assert (P : 0 <= fnorm n (fb_direction lower upper x g)) by apply sqrt_pos.
  assert (P0 : 0 <= fnorm n lin) by apply sqrt_pos.
  destruct (Rltb_spec (fnorm n (fb_direction lower upper x g)) 0); [lra|].
  destruct (Rltb_spec (Rabs (fnorm n (fb_direction lower upper x g) / f)) 0) as [L|_].
  { pose proof (Rabs_pos (fnorm n (fb_direction lower upper x g) / f)). lra. }
  rewrite andb_false_r. destruct (Reqb_spec (fnorm n lin) 0) as [|N]; [easy|]. cbn [negb andb].
  destruct (Rltb_spec (fnorm n (fb_direction lower upper x g) / fnorm n lin) (-1)) as [L|_].
  { assert (0 <= fnorm n (fb_direction lower upper x g) / fnorm n lin).
    { apply Rmult_le_pos; [easy|]. left. apply Rinv_0_lt_compat. lra. } lra. }
  destruct (Reqb_spec (-1) 0); [lra|]. now rewrite andb_false_r.
Qed.
Example ex_C136 : exists s s',
  pass_state false e_descent 2 e_lin e_H e_lower e_upper e_tols 20 0 fzero s /\ bs_conv s = false /\
  bntr_pass false e_descent 2 e_lin e_H e_lower e_upper e_tols 0 20 (bs_x s) (bs_f s) s = Ok (s', true, false) /\
  bs_x s' 0%nat = 1 /\ bs_x s' 1%nat = 0 /\
  binding e_lower e_upper (bs_x s) (gradient 2 e_lin e_H (bs_x s)) 1 /\
  ~ binding e_lower e_upper (bs_x s) (gradient 2 e_lin e_H (bs_x s)) 0.
Proof.
  assert (IDX : ab_inactive (get_active false 2 e_lower e_upper fzero e_lin) = [0%nat]).
  { cbn [get_active active_sets ab_inactive]. unfold inactive_of. cbn [seq filter]. unfold e_lower, e_upper, e_lin, fzero. cbn.
    destruct (Reqb_spec (-1) 1); [lra|]. destruct (Reqb_spec 0 1); [lra|]. destruct (Rleb_spec 0 (-1)); [lra|].
    destruct (Rleb_spec 1 0); [lra|]. destruct (Rleb_spec 0 0); [|lra]. destruct (Rltb_spec 0 1); [|lra]. reflexivity. }
  set (act := get_active false 2 e_lower e_upper fzero e_lin) in *.
  set (s := mkBst fzero (eval_crit 2 fzero e_lin e_H) (fadd e_lin (fmv 2 e_H fzero)) (clip_radius (Rmax 100 0)) act false 0).
  assert (P : preliminary false 2 e_lin e_H e_lower e_upper e_tols 0 fzero = Ok s).
  { unfold preliminary. rewrite check_convergence_none. cbn [gd_loop bind gd_fmin gd_radius gd_low].
    destruct (Rltb_spec (eval_crit 2 fzero e_lin e_H) (eval_crit 2 fzero e_lin e_H)); [lra|]. reflexivity. }
  assert (RA : bs_radius s = 100).
  { unfold s. cbn [bs_radius]. unfold clip_radius, min_radius, max_radius. rewrite (Rmax_left 100 0) by lra.
    rewrite Rmax_left, Rmin_left; [lra|lra|]. apply Rle_trans with 1; [|lra]. rewrite <- Rinv_1. apply Rinv_le_contravar; lra. }
  assert (PS : pass_state false e_descent 2 e_lin e_H e_lower e_upper e_tols 20 0 fzero s) by now apply ps_start.
  set (st := fun k : nat => - sub_vec [0%nat] (bs_g s) k).
  assert (S0 : st 0%nat = 1) by (unfold st, sub_vec, s; hcompute; lra).
  set (c := full_step e_lower e_upper fzero act st).
  assert (C0 : c 0%nat = 1).
  { assert (A0 : ab_fixed act 0%nat = false /\ ab_upper act 0%nat = false /\ ab_lower act 0%nat = false).
    { unfold act, e_lower, e_upper, e_lin, fzero. cbn. destruct (Reqb_spec (-1) 1); [lra|]. destruct (Rleb_spec 1 0); [lra|].
      destruct (Rleb_spec 0 (-1)); [lra|]. easy. }
    destruct A0 as (A1 & A2 & A3). unfold c, full_step, scatter. rewrite A1, A2, A3, IDX. exact S0. }
  assert (C1 : c 1%nat = 0).
  { unfold c, full_step, act. cbn [get_active active_sets ab_fixed ab_upper ab_lower].
    unfold e_lower, e_upper, e_lin, fzero. destruct (Reqb_spec 0 1); [lra|]. destruct (Rleb_spec 1 0); [lra|].
    destruct (Rleb_spec 0 0); [|lra]. destruct (Rltb_spec 0 1); cbn; lra. }
  assert (ST : cg_phase_step e_descent 2 e_lower e_upper (bs_g s) e_H act fzero 100 = Ok (c, st, fnorm 1 st)).
  { unfold cg_phase_step. rewrite IDX. cbn [length e_descent bind]. destruct (Reqb_spec 100 0); [lra|]. reflexivity. }
  set (x := clip_x e_lower e_upper (fadd fzero c)).
  assert (X0 : x 0%nat = 1).
  { unfold x, clip_x, fadd, fzero. rewrite C0. unfold e_lower, e_upper. destruct (Rleb_spec (0 + 1) (-1)); [lra|].
    destruct (Rleb_spec 1 (0 + 1)); lra. }
  assert (X1 : x 1%nat = 0).
  { unfold x, clip_x, fadd, fzero. rewrite C1. unfold e_lower, e_upper. destruct (Rleb_spec (0 + 0) 0); [|lra].
    destruct (Rleb_spec 1 0); lra. }
  assert (F : eval_crit 2 x e_lin e_H = -1).
  { unfold eval_crit, fdot, fvm, e_lin, e_H. cbn [bsum]. rewrite X0, X1. lra. }
  assert (PR : predicted_reduction 2 (bs_g s) e_H act c st = 1).
  { unfold predicted_reduction. rewrite IDX. cbn [length Nat.eqb]. unfold eval_crit, fdot, fvm, sub_vec, sub_mat, e_H. cbn [bsum nth].
    rewrite C0. unfold s. hcompute. lra. }
  assert (U : exists r, update_radius_cg false (-1) 1 (bs_f s - -1) (fnorm 1 st) 100 = Ok (r, true)).
  { unfold s. cbn [bs_f]. replace (eval_crit 2 fzero e_lin e_H - -1) with 1 by (hcompute; lra).
    unfold update_radius_cg. destruct (Rltb_spec 1 0); [lra|]. rewrite (Rabs_right 1) by lra.
    destruct (Rleb_spec 1 (Rmax 1 (Rabs (-1) * EPSILON))) as [_|N]; [|destruct N; apply Rmax_l]. cbn [andb bind xlt].
    destruct (Rltb_spec 1 (/ 10 ^ 4)) as [L|_]; [|eexists; reflexivity].
    exfalso. assert (/ 10 ^ 4 < / 1) by (apply Rinv_lt_contravar; lra). lra. }
  destruct U as [r U].
  exists s. eexists. split; [exact PS|]. split; [reflexivity|]. split.
  { unfold bntr_pass. rewrite RA. change (bs_act s) with act. change (bs_x s) with fzero. rewrite ST. cbn [bind]. fold x.
    rewrite F, PR, U. cbn [bind]. change (bs_conv s) with false. change (bs_reason s) with 0%nat. rewrite check_convergence_none.
    cbn [Z.eqb]. reflexivity. }
  cbn [bs_x s]. split; [exact X0|]. split; [exact X1|]. split.
  - right; left. unfold gradient, e_lin, e_lower, e_H, fzero. cbn. lra.
  - unfold binding, gradient, e_lin, e_lower, e_upper, e_H, fzero. cbn. lra.
Qed.

(** * C137: bntr with the conjugate gradient method trsbox *)

(** The bounds are handed to trsbox as they are, not relative to the point the step starts from
    (bntr.py:437-444, bntr_fast.py:622-629): a step of trsbox therefore respects the box only
    relative to the point 0. *)

(** At the starting point 0 the step needs no clipping. *)
Theorem C137_first_step_partial m g (H : fmat) radius lower upper step : (forall i, (i < m)%nat -> lower i <= 0 <= upper i) ->
  method_trsbox m g H radius lower upper = Ok step -> forall i, (i < m)%nat -> lower i <= 0 + step i <= upper i.
Proof.
  intros B E i Hi. unfold method_trsbox in E. destruct (C60_trsbox_in_box m g H radius lower upper B) as (y & E' & I).
  rewrite E in E'. injection E' as <-. specialize (I i Hi). lra.
Qed.

(** The model - x + 3/4 x^2 on [0, 1] *)
Definition u_lin : fvec := fun _ => -1.
Definition u_H : fmat := fun _ _ => 3 / 2.
Definition u_lower : fvec := fun _ => 0.
Definition u_upper : fvec := fun _ => 1.

Lemma fb_one : -1 <= fb_scalar 1 1 <= - / 2.
Proof.
  unfold fb_scalar. destruct (Rleb_spec (1 + 1) 0); [lra|].
  set (q := sqrt (1 * 1 + 1 * 1)). assert (Q : 1 <= q <= 2).
  { unfold q. split.
    - rewrite <- (sqrt_square 1) at 1 by lra. apply sqrt_le_1; lra.
    - rewrite <- (sqrt_square 2) by lra. apply sqrt_le_1; lra. }
  clearbody q. assert (P : 0 < q + (1 + 1)) by lra. split; apply Rmult_le_reg_r with (q + (1 + 1)); auto;
    unfold Rdiv; rewrite Rmult_assoc, Rinv_l by lra; lra.
Qed.
Lemma u_not_converged t x f g reason iter : gtol_abs t <= / 10 -> gtol_rel t <= / 10 -> gtol_scaled t <= / 10 ->
  (x 0%nat = 0 /\ g 0%nat = -1 /\ f = 0) \/ (x 0%nat = 1 /\ g 0%nat = / 2 /\ f = - / 4) ->
  fst (check_convergence 1 u_lin u_lower u_upper t x f g false reason iter) = false.
Proof.
  intros T1 T2 T3 C. unfold check_convergence.
  assert (G : / 2 <= fnorm 1 (fb_direction u_lower u_upper x g)).
  { rewrite fnorm_1. unfold fb_direction, u_lower, u_upper. destruct (Reqb_spec 0 1); [lra|]. pose proof fb_one as FB.
    destruct C as [(-> & -> & _)|(-> & -> & _)].
    - replace (1 - 0) with 1 by lra. replace (- -1) with 1 by lra. replace (0 - 0) with 0 by lra. set (a := fb_scalar 1 1) in *. clearbody a.
      unfold fb_scalar. destruct (Rleb_spec (a + 0) 0); [|lra].
      assert (0 <= sqrt (a * a + 0 * 0)) by apply sqrt_pos. rewrite Rabs_right; lra.
    - replace (1 - 1) with 0 by lra. replace (1 - 0) with 1 by lra.
      assert (E : fb_scalar 0 (- / 2) = 1).
      { unfold fb_scalar. destruct (Rleb_spec (0 + - / 2) 0); [|lra].
        replace (0 * 0 + - / 2 * - / 2) with (/ 2 * / 2) by lra. rewrite sqrt_square; lra. }
      rewrite E. rewrite Rabs_left; lra. }
  set (gn := fnorm 1 (fb_direction u_lower u_upper x g)) in *. clearbody gn.
  assert (NL : fnorm 1 u_lin = 1). { rewrite fnorm_1. unfold u_lin. rewrite Rabs_left; lra. } rewrite NL.
  destruct (Rltb_spec gn (gtol_abs t)); [lra|].
  assert (R : negb (Reqb f 0) && Rltb (Rabs (gn / f)) (gtol_rel t) = false).
  { destruct C as [(_ & _ & ->)|(_ & _ & ->)].
    - destruct (Reqb_spec 0 0); [easy|lra].
    - replace (gn / - / 4) with (- (4 * gn)) by (field). rewrite Rabs_left by lra.
      destruct (Rltb_spec (- - (4 * gn)) (gtol_rel t)); [lra|apply andb_false_r]. }
  rewrite R. destruct (Reqb_spec 1 0); [lra|]. cbn [negb andb]. replace (gn / 1) with gn by field.
  destruct (Rltb_spec gn (gtol_scaled t)); [lra|]. destruct (Reqb_spec gn 0); [lra|]. cbn [andb].
  destruct iter as [[k m]|]; [destruct (k =? m)%Z|]; easy.
Qed.
Lemma u_active fast x g : (x 0%nat = 0 /\ g 0%nat = -1) \/ (x 0%nat = 1 /\ g 0%nat = / 2) ->
  let a := get_active fast 1 u_lower u_upper x g in
  ab_inactive a = [0%nat] /\ ab_fixed a 0%nat = false /\ ab_lower a 0%nat = false /\ ab_upper a 0%nat = false.
Proof.
  intros C. unfold get_active. destruct fast; unfold active_fast, active_sets, inactive_of; cbn [ab_inactive ab_fixed ab_lower ab_upper seq filter];
    unfold u_lower, u_upper; destruct C as [(-> & ->)|(-> & ->)];
    rb; cbn [andb orb negb]; try lra; easy.
Qed.
Lemma u_gd fast : exists d,
  gd_loop 1 fast 1 u_lin u_H u_lower u_upper 0 (project_gradient [0%nat] (fadd u_lin (fmv 1 u_H fzero))) [0%nat] (mkGd fzero 0 0 100 0) = Ok d /\
  gd_x d 0%nat = 1 /\ gd_fmin d = - / 4 /\ gd_step d = 100 /\ gd_radius d = 25 / 4 /\ gd_low d = 0.
Proof.
  set (gp := project_gradient _ _).
  assert (GP : gp 0%nat = -1). { unfold gp, project_gradient, scatter, sub_vec, fadd, fmv, u_lin, fzero. cbn. lra. }
  assert (GN : fnorm 1 gp = 1). { rewrite fnorm_1, GP. rewrite Rabs_left; lra. }
  cbn [gd_loop]. unfold gd_pass. rewrite GN. cbn [gd_radius gd_x gd_fmin gd_step gd_low].
  assert (DV : forall a b, b <> 0 -> divm fast a b = Ok (Fin (a / b))).
  { intros a b Hb. unfold divm, div, xdiv. destruct (Reqb_spec b 0); [contradiction|]. destruct fast; easy. }
  assert (D1 : forall a, divm fast a 1 = Ok (Fin a)).
  { intros a. rewrite DV by lra. do 2 f_equal. field. }
  rewrite D1. cbn [bind finite].
  set (x := clip_x u_lower u_upper (fsub fzero (fscale 100 gp))).
  assert (X : x 0%nat = 1). { unfold x, clip_x, fsub, fscale, fzero, u_lower, u_upper. rewrite GP. rb; lra. }
  assert (FX : eval_crit 1 x u_lin u_H = - / 4). { rewrite eval_crit_1, X. unfold u_lin, u_H. lra. }
  rewrite FX. cbn [length].
  assert (SQ : fdot 1 (fvm 1 (sub_vec [0%nat] (fsub x fzero)) (sub_mat [0%nat] u_H)) (sub_vec [0%nat] (fsub x fzero)) = 3 / 2).
  { unfold fdot, fvm, sub_vec, sub_mat, fsub, fzero, u_H. cbn [bsum nth]. rewrite X. lra. }
  rewrite SQ. replace (1 * 1) with 1 by ring. rewrite D1. cbn [bind finite].
  replace (100 * (1 - / 2 * 100 * (3 / 2))) with (-7400) by lra.
  assert (U : update_radius_gd fast 100 0 (-7400) (0 - - / 4) 1 = Ok (100 * / 16, 0)).
  { unfold update_radius_gd. replace (0 - - / 4) with (/ 4) by lra.
    destruct EPSILON_lt as [E0 E1].
    destruct (Rleb_spec (Rabs (-7400)) EPSILON) as [Q|Q]. { exfalso. rewrite Rabs_left in Q; lra. }
    rewrite andb_false_r.
    rewrite !DV by lra. cbn [bind].
    replace (/ 4 / -7400) with (- (1 / 29600)) by lra.
    replace (/ 4 * 1 * 100 / (/ 4 * 1 * 100 + 3 / 4 * -7400 - / 4)) with (- (100 / 22101)) by lra.
    replace (/ 4 * 1 * 100 / (/ 4 * 1 * 100 - 5 / 4 * -7400 + / 4)) with (100 / 37101) by lra.
    unfold choose_tau. cbn [xlt]. destruct (Rltb_spec (100 / 37101) (- (100 / 22101))); [lra|].
    destruct (Rltb_spec (- (100 / 22101)) (100 / 37101)); [|lra]. cbn [xsub xopp xadd xabs xle xgt xlt xge].
    rewrite Rabs_left by lra.
    rb; try lra. cbn [bind finite]. easy. }
  rewrite U. cbn [bind]. destruct (Rltb_spec (- / 4) 0); [|lra].
  eexists. split; [reflexivity|]. cbn. rewrite X. lra.
Qed.

(** The step of trsbox in the second half of the box: none. *)
Lemma u_trsbox g (H : fmat) r lower upper : 0 <= g 0%nat -> lower 0%nat = 0 -> 0 < upper 0%nat ->
  exists step, method_trsbox 1%nat g H r lower upper = Ok step /\ step 0%nat = 0.
Proof.
  intros G L U. unfold method_trsbox, minimize_trust_trsbox. replace (100 * (1 * 1))%nat with (S 99) by reflexivity.
  set (s := tb_init 1 g lower upper r).
  assert (B : tb_b s 0%nat = (-1)%Z).
  { unfold s, tb_init. cbn [tb_b]. rewrite L. destruct (Rleb_spec (upper 0%nat) 0); [lra|]. destruct (Rleb_spec 0 0); [|lra].
    destruct (Rleb_spec 0 (g 0%nat)); [easy|lra]. }
  generalize 99%nat as k. intros k. cbn [tb_main]. unfold tb_pass.
  match goal with |- context [Reqb ?a 0] => assert (Z : a = 0) end.
  { unfold fdot, free. cbn [bsum]. rewrite B. cbn. lra. }
  rewrite Z. destruct (Reqb_spec 0 0); [|lra]. cbn [bind]. eexists. split; [reflexivity|].
  unfold tb_apply_bounds. now rewrite B.
Qed.

Definition stuck (s : bst) : Prop :=
  bs_x s 0%nat = 1 /\ bs_f s = - / 4 /\ bs_conv s = false /\ bs_g s 0%nat = / 2 /\ min_radius <= bs_radius s <= max_radius /\
  ab_inactive (bs_act s) = [0%nat] /\ ab_fixed (bs_act s) 0%nat = false /\ ab_lower (bs_act s) 0%nat = false /\
  ab_upper (bs_act s) 0%nat = false.
Lemma u_pass fast t niter maxiter s : gtol_abs t <= / 10 -> gtol_rel t <= / 10 -> gtol_scaled t <= / 10 -> stuck s ->
  exists s', bntr_pass fast method_trsbox 1 u_lin u_H u_lower u_upper t niter maxiter (bs_x s) (bs_f s) s = Ok (s', true, false) /\ stuck s'.
Proof.
  intros T1 T2 T3 (X & F & C & G & R & A1 & A2 & A3 & A4).
  destruct (u_trsbox (sub_vec [0%nat] (bs_g s)) (sub_mat [0%nat] u_H) (bs_radius s) (sub_vec [0%nat] u_lower) (sub_vec [0%nat] u_upper))
    as (step & E & S0); [unfold sub_vec; cbn [nth]; lra|easy|unfold sub_vec, u_upper; lra|].
  assert (MR : 0 < min_radius) by (unfold min_radius; apply Rinv_0_lt_compat, pow_lt; lra).
  assert (N : fnorm 1 step = 0) by (rewrite fnorm_1, S0; apply Rabs_R0).
  set (c := full_step u_lower u_upper (bs_x s) (bs_act s) step).
  assert (C0 : c 0%nat = 0). { unfold c, full_step, scatter. rewrite A1, A2, A3, A4. exact S0. }
  set (x := clip_x u_lower u_upper (fadd (bs_x s) c)).
  assert (X' : x 0%nat = 1). { unfold x, clip_x, fadd, u_lower, u_upper. rewrite X, C0. rb; lra. }
  assert (G' : fadd u_lin (fmv 1 u_H x) 0%nat = / 2). { unfold fadd, fmv, u_lin, u_H. cbn [bsum]. rewrite X'. lra. }
  assert (F' : eval_crit 1 x u_lin u_H = - / 4). { rewrite eval_crit_1, X'. unfold u_lin, u_H. lra. }
  unfold bntr_pass, cg_phase_step. rewrite A1. cbn [length]. rewrite E. cbn [bind]. rewrite N.
  destruct (Reqb_spec (bs_radius s) 0) as [Q|_]; [lra|]. cbn [bind]. fold c. fold x. rewrite F', F.
  assert (P : predicted_reduction 1 (bs_g s) u_H (bs_act s) c step = 0).
  { unfold predicted_reduction. rewrite A1. cbn [length Nat.eqb]. rewrite eval_crit_1, S0. ring. }
  rewrite P. replace (- / 4 - - / 4) with 0 by lra.
  assert (U : update_radius_cg fast (- / 4) 0 0 0 (bs_radius s) = Ok (clip_radius (bs_radius s), true)).
  { unfold update_radius_cg. destruct (Rltb_spec 0 0); [lra|]. rewrite Rabs_R0.
    destruct (Rleb_spec 0 (Rmax 1 (Rabs (- / 4) * EPSILON))) as [_|Q].
    2:{ destruct Q. apply Rle_trans with 1; [lra|apply Rmax_l]. }
    cbn [andb bind xlt]. destruct (Rltb_spec 1 (/ 10 ^ 4)) as [L|_].
    { exfalso. assert (/ 10 ^ 4 < / 1) by (apply Rinv_lt_contravar; lra). lra. }
    destruct (Reqb_spec 0 (bs_radius s)) as [Q|_]; [lra|easy]. }
  rewrite U. cbn [bind]. rewrite C.
  assert (NC := u_not_converged t x (- / 4) (fadd u_lin (fmv 1 u_H x)) (bs_reason s) (Some (niter, maxiter)) T1 T2 T3
    (or_intror (conj X' (conj G' eq_refl)))).
  destruct (check_convergence _ _ _ _ _ _ _ _ _ _ _) as [cv rs]. cbn in NC. subst cv.
  eexists. split; [reflexivity|].
  destruct (u_active fast x (fadd u_lin (fmv 1 u_H x)) (or_intror (conj X' G'))) as (B1 & B2 & B3 & B4).
  unfold stuck. cbn [bs_x bs_f bs_conv bs_g bs_radius bs_act]. splits; auto; apply clip_radius_range.
Qed.
Lemma u_outer fast t maxiter fuel k : gtol_abs t <= / 10 -> gtol_rel t <= / 10 -> gtol_scaled t <= / 10 -> forall niter last s, stuck s ->
  exists s' l, bntr_outer k (S fuel) fast method_trsbox 1 u_lin u_H u_lower u_upper t niter maxiter last s = Ok (s', l) /\ stuck s' /\
    (last <> None \/ k <> 0%nat -> l <> None).
Proof.
  intros T1 T2 T3. induction k as [|k IH]; intros niter last s ST; cbn [bntr_outer].
  - exists s, last. split; [easy|]. split; [easy|]. intros [|]; [easy|congruence].
  - replace (bs_conv s) with false by (symmetry; apply ST). cbn [bntr_inner].
    destruct (u_pass fast t niter maxiter s T1 T2 T3 ST) as (s1 & -> & ST1). cbn [bind orb].
    destruct (IH (niter + 1)%Z (Some niter) s1 ST1) as (s' & l & -> & ST' & L).
    exists s', l. split; [easy|]. split; [easy|]. intros _. apply L. now left.
Qed.

(** bntr with trsbox does not get to the minimizer of a strictly convex model, however many iterations
    are allowed: it stops moving at the upper bound 1, where the gradient is 1/2 and the lower bound is
    far away. *)
Theorem C137_minimizer_refuted fast fuel t maxiter : (0 <= maxiter)%Z ->
  gtol_abs t <= / 10 -> gtol_rel t <= / 10 -> gtol_scaled t <= / 10 ->
  exists r, bntr (S fuel) fast method_trsbox 1 u_lin u_H u_lower u_upper fzero t maxiter 1 = Ok r /\
    br_success r = false /\ br_x r 0%nat = 1 /\ u_lin 0%nat + u_H 0%nat 0%nat * br_x r 0%nat = / 2 /\
    u_lower 0%nat < 2 / 3 < br_x r 0%nat /\ eval_crit 1 (fun _ => 2 / 3) u_lin u_H < eval_crit 1 (br_x r) u_lin u_H.
Proof.
  intros HM T1 T2 T3. unfold bntr, preliminary.
  assert (F0 : eval_crit 1 fzero u_lin u_H = 0) by (rewrite eval_crit_1; unfold fzero; ring). rewrite F0.
  assert (G0 : fadd u_lin (fmv 1 u_H fzero) 0%nat = -1) by (unfold fadd, fmv, u_lin, fzero; cbn [bsum]; lra).
  assert (NC := u_not_converged t fzero 0 (fadd u_lin (fmv 1 u_H fzero)) 0 None T1 T2 T3 (or_introl (conj eq_refl (conj G0 eq_refl)))).
  destruct (check_convergence _ _ _ _ _ _ _ _ _ _ _) as [cv rs]. cbn in NC. subst cv.
  destruct (u_active fast fzero u_lin (or_introl (conj eq_refl eq_refl))) as (A1 & _). rewrite A1.
  destruct (u_gd fast) as (d & -> & DX & DF & DS & DR & DL). cbn [bind]. rewrite DF.
  destruct (Rltb_spec (- / 4) 0); [|lra].
  set (x := clip_x u_lower u_upper _).
  assert (X : x 0%nat = 1).
  { unfold x, clip_x, fsub, fscale, u_lower, u_upper. rewrite DX, DS.
    replace (project_gradient [0%nat] (fadd u_lin (fmv 1 u_H fzero)) 0%nat) with (-1)
      by (unfold project_gradient, scatter, sub_vec; cbn [index_of Nat.eqb nth]; lra). rb; lra. }
  assert (G' : fadd u_lin (fmv 1 u_H x) 0%nat = / 2). { unfold fadd, fmv, u_lin, u_H. cbn [bsum]. rewrite X. lra. }
  destruct (u_active fast x (fadd u_lin (fmv 1 u_H x)) (or_intror (conj X G'))) as (B1 & B2 & B3 & B4).
  set (act := get_active fast 1 u_lower u_upper x (fadd u_lin (fmv 1 u_H x))) in *.
  assert (GP : project_gradient (ab_inactive act) (fadd u_lin (fmv 1 u_H x)) 0%nat = / 2).
  { rewrite B1. exact G'. }
  assert (NC := u_not_converged t x (- / 4) (project_gradient (ab_inactive act) (fadd u_lin (fmv 1 u_H x))) rs None T1 T2 T3
    (or_intror (conj X (conj GP eq_refl)))).
  destruct (check_convergence _ _ _ _ _ _ _ _ _ _ _) as [cv rs']. cbn in NC. subst cv. cbn [bs_conv bs_x bs_f bs_g bs_act bs_reason].
  edestruct (u_outer fast t maxiter fuel (Z.to_nat (maxiter + 1)) T1 T2 T3 0%Z None) as (s' & l & E & ST & L).
  2:{ rewrite E. cbn [bind]. destruct l as [l|]; [|destruct L; [right; lia|easy]]. cbn [get bind].
      destruct ST as (SX & _ & SC & _). eexists. split; [reflexivity|]. cbn [br_x br_success]. splits; auto.
      - rewrite SX. unfold u_lin, u_H. lra.
      - unfold u_lower. lra.
      - rewrite SX. lra.
      - rewrite !eval_crit_1, SX. unfold u_lin, u_H. lra. }
  unfold stuck. cbn [bs_x bs_f bs_conv bs_g bs_radius bs_act]. splits; auto; apply clip_radius_range.
Qed.
Example ex_C137 : (forall i, (i < 1)%nat -> -2 <= 0 <= 1 / 2) /\ exists step,
  method_trsbox 1%nat (fun _ => -1) (fun _ _ => 0) 1 (fun _ => -2) (fun _ => 1/2) = Ok step /\ 0 + step 0%nat = 1/2.
Proof. split; [intros; lra|]. destruct ex_C60 as (x & E & X). exists x. split; [exact E|lra]. Qed.
