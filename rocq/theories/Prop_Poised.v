(** Properties of poisedness.py: Lagrange polynomials, the poisedness constant and its
    improvement. *)
From Coq Require Import Reals List Arith ZArith Bool Lia Lra Psatz.
From Verif Require Import Base XR Vec FVec FitModel SubproblemModel PoisednessModel Prop_Fit.
Import ListNotations.
Open Scope R_scope.

(** * Linear algebra of the basis matrix *)

(** The rows (columns) of the first [N] rows and [p] columns are linearly independent. *)
Definition rows_independent (N p : nat) (B : fmat) : Prop :=
  forall c, (forall k, (k < p)%nat -> bsum N (fun i => c i * B i k) = 0) ->
    forall i, (i < N)%nat -> c i = 0.
Definition columns_independent (N p : nat) (B : fmat) : Prop :=
  forall w, (forall i, (i < N)%nat -> bsum p (fun k => B i k * w k) = 0) ->
    forall k, (k < p)%nat -> w k = 0.

Definition gram (N : nat) (B : fmat) : fmat := fun a b => bsum N (fun r => B r a * B r b).
Lemma gram_symm N p B : fsymm p (gram N B).
Proof. intros i j _ _. unfold gram. apply bsum_ext. intros. lra. Qed.

(** What is used of the pseudo inverse P of M = BᵀB: P is symmetric (as M is) and
    M P M = M. *)
Definition pinv_correct (N p : nat) (B P : fmat) : Prop :=
  fsymm p P /\
  forall a d, (a < p)%nat -> (d < p)%nat ->
    bsum p (fun b => bsum p (fun c => gram N B a b * P b c * gram N B c d)) = gram N B a d.

Section Gram.
Variables (N p : nat) (B P : fmat).
Let M := gram N B.
Hypothesis PS : fsymm p P.
Hypothesis MPM : forall a d, (a < p)%nat -> (d < p)%nat ->
  bsum p (fun b => bsum p (fun c => M a b * P b c * M c d)) = M a d.

(** Column [k] of P M - I. *)
Definition wcol (k : nat) : fvec := fun a => bsum p (fun b => P a b * M b k) - (if (a =? k)%nat then 1 else 0).

Lemma M_wcol k a : (k < p)%nat -> (a < p)%nat -> bsum p (fun b => M a b * wcol k b) = 0.
Proof.
  intros Hk Ha. unfold wcol.
  rewrite (bsum_ext p _ (fun b => bsum p (fun c => M a b * P b c * M c k)
                                  - (if (b =? k)%nat then M a k else 0))).
  - rewrite bsum_minus, MPM, bsum_single by easy. lra.
  - intros b Hb. rewrite Rmult_minus_distr_l, <- bsum_scal. f_equal.
    + apply bsum_ext. intros. lra.
    + destruct (Nat.eqb_spec b k) as [->|]; lra.
Qed.

Lemma B_wcol k i : (k < p)%nat -> (i < N)%nat -> bsum p (fun a => B i a * wcol k a) = 0.
Proof.
  intros Hk Hi. set (e := fun i => bsum p (fun a => B i a * wcol k a)).
  change (e i = 0). apply (fsq_zero N e); [|easy]. unfold fsq, fdot.
  rewrite (bsum_ext N _ (fun i => bsum p (fun a => wcol k a * (B i a * e i)))).
  - rewrite bsum_swap. apply bsum_all_zero. intros a Ha. rewrite bsum_scal.
    rewrite (bsum_ext N _ (fun i => bsum p (fun b => B i a * B i b * wcol k b))).
    + rewrite bsum_swap.
      rewrite (bsum_ext p _ (fun b => M a b * wcol k b)).
      * rewrite M_wcol by easy. lra.
      * intros b Hb. now rewrite bsum_scal_r.
    + intros r Hr. unfold e. rewrite <- bsum_scal. apply bsum_ext. intros. lra.
  - intros r Hr. unfold e at 1. rewrite <- bsum_scal_r. apply bsum_ext. intros. lra.
Qed.

(** B P Bᵀ is the identity if the rows are independent. *)
Lemma lagrange_delta i j : rows_independent N p B -> (i < N)%nat -> (j < N)%nat ->
  bsum p (fun b => bsum p (fun a => B i a * P a b) * B j b) = if (i =? j)%nat then 1 else 0.
Proof.
  intros RI Hi Hj.
  set (Q := fun j => bsum p (fun b => bsum p (fun a => B i a * P a b) * B j b)).
  assert (E : Q j - (if (i =? j)%nat then 1 else 0) = 0).
  { apply (RI (fun j => Q j - (if (i =? j)%nat then 1 else 0))); [|easy]. intros k Hk.
    rewrite (bsum_ext N _ (fun j => Q j * B j k - (if (j =? i)%nat then B i k else 0))).
    - rewrite bsum_minus, bsum_single by easy.
      pose proof (B_wcol k i Hk Hi) as W. unfold wcol in W.
      rewrite (bsum_ext p _ (fun a => bsum p (fun b => B i a * P a b * M b k)
                 - (if (a =? k)%nat then B i k else 0))) in W.
      + rewrite bsum_minus, bsum_single in W by easy.
        rewrite <- W. f_equal. unfold Q.
        rewrite (bsum_ext N _ (fun j => bsum p (fun b => bsum p (fun a => B i a * P a b) * B j b * B j k)))
          by (intros; now rewrite bsum_scal_r).
        rewrite bsum_swap. rewrite (bsum_swap p p (fun a b => B i a * P a b * M b k)).
        apply bsum_ext. intros b Hb. rewrite bsum_scal_r. unfold M, gram.
        rewrite <- bsum_scal. apply bsum_ext. intros. lra.
      + intros a Ha. rewrite Rmult_minus_distr_l, <- bsum_scal. f_equal.
        * apply bsum_ext. intros. lra.
        * destruct (Nat.eqb_spec a k) as [->|]; lra.
    - intros r Hr. rewrite (Nat.eqb_sym i r). destruct (Nat.eqb_spec r i) as [->|]; lra. }
  fold (Q j). lra.
Qed.

(** P M and M P are the identity if the columns are independent. *)
Lemma PM_identity a k : columns_independent N p B -> (a < p)%nat -> (k < p)%nat ->
  bsum p (fun b => P a b * M b k) = if (a =? k)%nat then 1 else 0.
Proof.
  intros CI Ha Hk. enough (wcol k a = 0) by (unfold wcol in *; lra).
  apply (CI (wcol k)); [|easy]. intros i Hi. now apply B_wcol.
Qed.
Lemma MP_identity a k : columns_independent N p B -> (a < p)%nat -> (k < p)%nat ->
  bsum p (fun b => M a b * P b k) = if (a =? k)%nat then 1 else 0.
Proof.
  intros CI Ha Hk. rewrite (bsum_ext p _ (fun b => P k b * M b a)).
  - rewrite PM_identity by easy. now rewrite Nat.eqb_sym.
  - intros b Hb. unfold M. rewrite (PS b k), (gram_symm N p B a b) by easy. lra.
Qed.

(** Every vector is the combination of the rows with the values of the Lagrange
    polynomials. *)
Lemma lagrange_span (f : fvec) k : columns_independent N p B -> (k < p)%nat ->
  bsum N (fun j => bsum p (fun b => bsum p (fun a => B j a * P a b) * f b) * B j k) = f k.
Proof.
  intros CI Hk.
  rewrite (bsum_ext N _ (fun j => bsum p (fun b => f b * bsum p (fun a => B j k * B j a * P a b)))).
  - rewrite bsum_swap.
    rewrite (bsum_ext p _ (fun b => if (b =? k)%nat then f k else 0)).
    + now apply bsum_single.
    + intros b Hb. rewrite bsum_scal, bsum_swap.
      rewrite (bsum_ext p _ (fun a => M k a * P a b)) by (intros; now rewrite bsum_scal_r).
      rewrite MP_identity by easy. rewrite (Nat.eqb_sym k b).
      destruct (Nat.eqb_spec b k) as [->|]; lra.
  - intros j Hj. rewrite <- bsum_scal_r. apply bsum_ext. intros b Hb.
    rewrite Rmult_comm, (Rmult_comm (bsum _ _)), <- !Rmult_assoc, (Rmult_comm _ (f b)), Rmult_assoc.
    f_equal. rewrite <- bsum_scal. apply bsum_ext. intros. lra.
Qed.
End Gram.

Lemma dot_bsum_nth (l k : list R) : length l = length k ->
  dot l k = bsum (length l) (fun i => nth i l 0 * nth i k 0).
Proof.
  revert k; induction l as [|a l IH]; intros [|b k] L; try discriminate; [reflexivity|].
  injection L as L. rewrite dot_cons, IH by easy. simpl length. now rewrite bsum_shift.
Qed.
Lemma features_length n x : length (scaled_polynomial_features n x) = n_basis n.
Proof. unfold n_basis, scaled_polynomial_features. now rewrite !app_length, !map_length. Qed.
Lemma lagrange_poly_length pinv n sample i : length (lagrange_poly pinv n sample i) = n_basis n.
Proof. unfold lagrange_poly. now rewrite map_length, seq_length. Qed.
Lemma nth_map_seq (f : nat -> R) p b : (b < p)%nat -> nth b (map f (seq 0 p)) 0 = f b.
Proof.
  intros H. rewrite (nth_indep _ 0 (f 0%nat)) by now rewrite map_length, seq_length.
  rewrite map_nth, seq_nth by easy. easy.
Qed.

(** Value at the point with features [f]. *)
Lemma lagrange_dot pinv n sample i f : length f = n_basis n ->
  dot (lagrange_poly pinv n sample i) f
  = bsum (n_basis n) (fun b => bsum (n_basis n) (fun a => basis_mat n sample i a *
      pinv (n_basis n) (gram (length sample) (basis_mat n sample)) a b) * nth b f 0).
Proof.
  intros L. rewrite dot_bsum_nth by (rewrite lagrange_poly_length; easy).
  rewrite lagrange_poly_length. apply bsum_ext. intros b Hb. f_equal.
  unfold lagrange_poly. now rewrite nth_map_seq.
Qed.

(** * C128 *)

(** The polynomial with coefficients [poly] in the basis of scaled features. *)
Definition poly_at (n : nat) (poly : list R) (x : vec) : R :=
  dot poly (scaled_polynomial_features n (fun_of x)).
(** The matrix of features of a sample. *)
Definition features_of (n : nat) (sample : list vec) : fmat :=
  fun i k => nth k (scaled_polynomial_features n (fun_of (nth i sample []))) 0.
(** The pseudo inverse computed for this sample is correct. *)
Definition pinv_correct_at (pinv : pinv_oracle) (n : nat) (sample : list vec) : Prop :=
  let B := features_of n sample in
  pinv_correct (length sample) (n_basis n) B
    (pinv (n_basis n) (fun a b => bsum (length sample) (fun r => B r a * B r b))).

(** C128 - if the features of the sample points are linearly independent, polynomial [i] is one
    at point [i] and zero at all other points. *)
Theorem C128_one_at_own_point_zero_elsewhere :
  forall pinv n sample i j,
    pinv_correct_at pinv n sample ->
    rows_independent (length sample) (n_basis n) (features_of n sample) ->
    (i < length sample)%nat -> (j < length sample)%nat ->
    poly_at n (lagrange_poly pinv n sample i) (nth j sample [])
    = if (i =? j)%nat then 1 else 0.
Proof.
  intros pinv n sample i j PI RI Hi Hj. unfold poly_at.
  rewrite lagrange_dot by apply features_length.
  destruct PI as [PS MPM].
  now apply (lagrange_delta (length sample) (n_basis n) (basis_mat n sample)).
Qed.

(** C128 - if the sample determines quadratic polynomials, every quadratic polynomial is the
    sum of the Lagrange polynomials weighted with its values at the sample points. *)
Theorem C128_reproduction :
  forall pinv n sample c x,
    pinv_correct_at pinv n sample ->
    columns_independent (length sample) (n_basis n) (features_of n sample) ->
    length c = n_basis n ->
    bsum (length sample) (fun i => poly_at n c (nth i sample []) * poly_at n (lagrange_poly pinv n sample i) x)
    = poly_at n c x.
Proof.
  intros pinv n sample c x PI CI Lc.
  destruct PI as [PS MPM].
  unfold poly_at. rewrite (dot_bsum_nth c (scaled_polynomial_features n (fun_of x)))
    by now rewrite features_length.
  rewrite Lc.
  rewrite (bsum_ext (n_basis n) _ (fun k => bsum (length sample) (fun j => nth k c 0 *
     (bsum (n_basis n) (fun b => bsum (n_basis n) (fun a => basis_mat n sample j a *
      pinv (n_basis n) (gram (length sample) (basis_mat n sample)) a b)
      * nth b (scaled_polynomial_features n (fun_of x)) 0) * basis_mat n sample j k)))).
  - rewrite bsum_swap. apply bsum_ext. intros i Hi.
    rewrite (lagrange_dot pinv n sample i) by apply features_length.
    rewrite (dot_bsum_nth c) by now rewrite features_length. rewrite Lc, <- bsum_scal_r.
    apply bsum_ext. intros k Hk.
    change (nth k (scaled_polynomial_features n (fun_of (nth i sample []))) 0) with (basis_mat n sample i k).
    ring.
  - intros k Hk. rewrite bsum_scal. f_equal.
    now rewrite (lagrange_span (length sample) (n_basis n) (basis_mat n sample) _ PS MPM
             (fun b => nth b (scaled_polynomial_features n (fun_of x)) 0)).
Qed.

(** * C129 *)

Lemma poisedness_loop_spec mz n sh polys : forall idx best out,
  poisedness_loop mz n sh polys idx best = Ok out ->
  exists xs, length xs = length polys /\
    (forall j poly x, nth_error polys j = Some poly -> nth_error xs j = Some x ->
       mz sh (eval_neg_absolute_value n poly) (repeat 0 n) = Ok x /\
       eval_absolute_value n poly x <= fst out) /\
    fst best <= fst out /\
    (out = best \/
     exists j poly x, snd out = Some (x, (idx + j)%nat) /\ nth_error polys j = Some poly /\
       nth_error xs j = Some x /\ fst out = eval_absolute_value n poly x /\ fst best < fst out /\
       forall j' poly' x', (j' < j)%nat -> nth_error polys j' = Some poly' -> nth_error xs j' = Some x' ->
         eval_absolute_value n poly' x' < fst out).
Proof.
  induction polys as [|poly polys IH]; intros idx best out H; cbn [poisedness_loop] in H.
  - injection H as <-. exists []. split; [easy|]. split; [|split; [lra|now left]]. intros [|j]; discriminate.
  - destruct (mz _ _ _) as [x|] eqn:E; [|discriminate]. cbn [bind] in H.
    apply IH in H as (xs & L & A & F & D). clear IH.
    set (v := eval_absolute_value n poly x) in *.
    exists (x :: xs). split; [simpl; congruence|].
    destruct (Rltb_spec (fst best) v) as [Lt|Ge]; cbn [fst] in F.
    + split; [|split; [lra|]].
      * intros [|j] q y Hq Hy; [|now apply (A j)]. injection Hq as <-. injection Hy as <-. easy.
      * right. destruct D as [->|(j & q & y & D1 & D2 & D3 & D4 & D5 & D6)].
        -- exists 0%nat, poly, x. rewrite Nat.add_0_r. splits; try easy. 
        -- exists (S j), q, y. cbn [fst] in D5. splits; try easy; [now rewrite D1, <- plus_n_Sm|lra|].
           intros [|j'] q' y' Hj Hq Hy; [|eapply D6; eauto; lia]. injection Hq as <-. injection Hy as <-. easy.
    + split; [|split; [lra|]].
      * intros [|j] q y Hq Hy; [|now apply (A j)]. injection Hq as <-. injection Hy as <-. split; [easy|]. fold v. lra.
      * destruct D as [->|(j & q & y & D1 & D2 & D3 & D4 & D5 & D6)]; [now left|]. right.
        exists (S j), q, y. splits; try easy; [now rewrite D1, <- plus_n_Sm|].
        intros [|j'] q' y' Hj Hq Hy; [|eapply D6; eauto; lia]. injection Hq as <-. injection Hy as <-. fold v. lra.
Qed.

Lemma nth_error_polys pinv n sample j : (j < length sample)%nat ->
  nth_error (map (lagrange_poly pinv n sample) (seq 0 (length sample))) j = Some (lagrange_poly pinv n sample j).
Proof.
  intros H. rewrite nth_error_map, nth_error_nth' with (d := 0%nat) by now rewrite seq_length.
  now rewrite seq_nth.
Qed.

(** C129 - the constant is the largest of the absolute values at the points returned by the
    optimizer, one per polynomial; argmax and idx_max are the point and the polynomial that
    attain it, the first in case of ties; the constant is positive. *)
Theorem C129_largest_value :
  forall pinv mz n sample sh l a i,
    get_poisedness_constant pinv mz n sample sh = Ok (l, a, i) ->
    (i < length sample)%nat /\
    exists xs : list vec, length xs = length sample /\ nth_error xs i = Some a /\
      (forall j x, nth_error xs j = Some x ->
         mz sh (fun x => - Rabs (poly_value n (lagrange_poly pinv n sample j) (fun_of x))) (repeat 0 n) = Ok x /\
         Rabs (poly_value n (lagrange_poly pinv n sample j) (fun_of x)) <= l /\
         ((j < i)%nat -> Rabs (poly_value n (lagrange_poly pinv n sample j) (fun_of x)) < l)) /\
      l = Rabs (poly_value n (lagrange_poly pinv n sample i) (fun_of a)) /\ 0 < l.
Proof.
  intros pinv mz n sample sh l a i H. unfold get_poisedness_constant in H.
  destruct (match sh with POther => _ | _ => _ end); [|discriminate]. cbn [bind] in H.
  destruct (poisedness_loop _ _ _ _ _ _) as [[l' o]|] eqn:E; [|discriminate]. cbn [bind fst snd] in H.
  destruct o as [[a' i']|]; [|discriminate]. injection H as -> -> ->.
  apply poisedness_loop_spec in E as (xs & L & A & F & [D|(j & poly & x & D1 & D2 & D3 & D4 & D5 & D6)]).
  { discriminate. }
  cbn [fst snd] in *. injection D1 as <- ->. simpl Nat.add in *.
  rewrite map_length, seq_length in L.
  assert (Hi : (j < length sample)%nat).
  { apply nth_error_Some. assert (nth_error xs j <> None) by congruence.
    apply nth_error_Some in H. apply nth_error_Some. lia. }
  rewrite nth_error_polys in D2 by easy. injection D2 as <-.
  split; [easy|]. exists xs. split; [easy|]. split; [easy|]. split; [|split; [exact D4|lra]].
  intros k y Hy. assert (Hk : (k < length sample)%nat).
  { assert (nth_error xs k <> None) by congruence. apply nth_error_Some in H. lia. }
  pose proof (nth_error_polys pinv n sample k Hk) as Pk.
  destruct (A k _ y Pk Hy) as [A1 A2]. split; [exact A1|]. split; [exact A2|].
  intros Hlt. exact (D6 k _ y Hlt Pk Hy).
Qed.

Lemma poisedness_loop_total mz n sh (x : nat -> vec) polys : forall idx best,
  (forall j poly, nth_error polys j = Some poly ->
     mz sh (eval_neg_absolute_value n poly) (repeat 0 n) = Ok (x j)) ->
  exists out, poisedness_loop mz n sh polys idx best = Ok out.
Proof.
  revert x. induction polys as [|poly polys IH]; intros x idx best H; cbn [poisedness_loop]; [eauto|].
  rewrite (H 0%nat) by easy. cbn [bind]. apply (IH (fun j => x (S j))). intros j q Hq. now apply (H (S j)).
Qed.

(** C129 - when the optimizer does not raise, the function raises UnboundLocalError exactly if
    all polynomials vanish at the returned points; in particular for an empty sample. *)
Theorem C129_unbound_argmax :
  forall pinv mz n sample sh (x : nat -> vec), sh <> POther ->
    (forall j, (j < length sample)%nat ->
       mz sh (fun x => - Rabs (poly_value n (lagrange_poly pinv n sample j) (fun_of x))) (repeat 0 n)
       = Ok (x j)) ->
    (get_poisedness_constant pinv mz n sample sh = Err UnboundLocalError <->
     forall j, (j < length sample)%nat ->
       poly_value n (lagrange_poly pinv n sample j) (fun_of (x j)) = 0).
Proof.
  intros pinv mz n sample sh x NS H.
  assert (G : forall j poly, nth_error (map (lagrange_poly pinv n sample) (seq 0 (length sample))) j = Some poly ->
     (j < length sample)%nat /\ poly = lagrange_poly pinv n sample j).
  { intros j poly Hj. assert (j < length sample)%nat.
    { assert (X : nth_error (map (lagrange_poly pinv n sample) (seq 0 (length sample))) j <> None) by congruence.
      apply nth_error_Some in X. now rewrite map_length, seq_length in X. }
    rewrite nth_error_polys in Hj by easy. split; congruence. }
  destruct (poisedness_loop_total mz n sh x (map (lagrange_poly pinv n sample) (seq 0 (length sample))) 0 (0, None))
    as [out E].
  { intros j poly Hj. apply G in Hj as [Hj ->]. now apply H. }
  unfold get_poisedness_constant.
  replace (match sh with POther => Err ValueError | _ => Ok tt end) with (Ok tt) by (now destruct sh).
  cbn [bind]. rewrite E. cbn [bind].
  apply poisedness_loop_spec in E as (xs & L & A & F & D). rewrite map_length, seq_length in L. cbn [fst snd] in *.
  assert (V : forall j, (j < length sample)%nat -> exists y, nth_error xs j = Some y /\ y = x j /\
             eval_absolute_value n (lagrange_poly pinv n sample j) y <= fst out).
  { intros j Hj. destruct (nth_error xs j) as [y|] eqn:Ey; [|apply nth_error_None in Ey; lia].
    exists y. split; [easy|]. destruct (A j _ y (nth_error_polys pinv n sample j Hj) Ey) as [A1 A2].
    split; [|easy]. pose proof (H j Hj) as Hx. unfold eval_neg_absolute_value, eval_absolute_value in A1.
    rewrite Hx in A1. congruence. }
  destruct D as [->|(j & poly & y & D1 & D2 & D3 & D4 & D5 & D6)].
  - cbn [snd]. split; [intros _|easy]. intros j Hj. destruct (V j Hj) as (y & _ & -> & W).
    cbn [fst] in W. unfold eval_absolute_value in W.
    pose proof (Rabs_pos (poly_value n (lagrange_poly pinv n sample j) (fun_of (x j)))).
    destruct (Req_dec (poly_value n (lagrange_poly pinv n sample j) (fun_of (x j))) 0) as [|NZ]; [easy|].
    apply Rabs_pos_lt in NZ. lra.
  - rewrite D1. split; [discriminate|]. intros Z. exfalso.
    apply G in D2 as [Hj ->]. destruct (V j Hj) as (y' & Ey & -> & _). rewrite Ey in D3. injection D3 as <-.
    unfold eval_absolute_value in D4. rewrite Z in D4 by easy. rewrite Rabs_R0 in D4. lra.
Qed.

(** * C130 *)

(** The region of the shape: unit ball or unit cube. *)
Definition in_shape (sh : pshape) (x : vec) : Prop :=
  match sh with
  | PSphere => norm x <= 1
  | PCube => forall a, In a x -> -1 <= a <= 1
  | POther => False
  end.
(** Whenever the optimizer returns, it returns a point of the region where the absolute value of
    the polynomial is largest. *)
Definition global_maximizer (mz : constrained_minimizer) : Prop :=
  forall n sh poly x,
    mz sh (fun x => - Rabs (poly_value n poly (fun_of x))) (repeat 0 n) = Ok x ->
    length x = n /\ in_shape sh x /\
    forall y, length y = n -> in_shape sh y ->
      Rabs (poly_value n poly (fun_of y)) <= Rabs (poly_value n poly (fun_of x)).

Lemma poly_value_at pinv n sample j y : (n <= 2)%nat ->
  poly_value n (lagrange_poly pinv n sample j) (fun_of y) = poly_at n (lagrange_poly pinv n sample j) y.
Proof.
  intros Hn. apply C45_poly_value_partial; [easy|]. now rewrite lagrange_poly_length, features_length.
Qed.

(** C130 - up to two parameters, with a global optimizer, the result is the poisedness constant:
    the maximum of |L_i(x)| over all i and all points x of the region, attained at idx_max and
    argmax; and it is at least one for a sample of points of the region with independent
    features.  Missing: more than two parameters, where this is false (below). *)
Theorem C130_poisedness_constant_partial :
  forall pinv mz n sample sh l a i, (n <= 2)%nat ->
    global_maximizer mz ->
    get_poisedness_constant pinv mz n sample sh = Ok (l, a, i) ->
    (forall j y, (j < length sample)%nat -> length y = n -> in_shape sh y ->
       Rabs (poly_at n (lagrange_poly pinv n sample j) y) <= l) /\
    (i < length sample)%nat /\ length a = n /\ in_shape sh a /\
    l = Rabs (poly_at n (lagrange_poly pinv n sample i) a) /\
    (pinv_correct_at pinv n sample ->
     rows_independent (length sample) (n_basis n) (features_of n sample) ->
     (forall y, In y sample -> length y = n /\ in_shape sh y) -> 1 <= l).
Proof.
  intros pinv mz n sample sh l a i Hn GM H.
  apply C129_largest_value in H as (Hi & xs & L & Ea & A & El & Pl).
  assert (U : forall j y, (j < length sample)%nat -> length y = n -> in_shape sh y ->
       Rabs (poly_at n (lagrange_poly pinv n sample j) y) <= l).
  { intros j y Hj Ly Sy. destruct (nth_error xs j) as [x|] eqn:Ex; [|apply nth_error_None in Ex; lia].
    destruct (A j x Ex) as (A1 & A2 & _). destruct (GM _ _ _ _ A1) as (_ & _ & G).
    rewrite <- poly_value_at by easy. specialize (G y Ly Sy). lra. }
  destruct (A i a Ea) as (A1 & _ & _). destruct (GM _ _ _ _ A1) as (La & Sa & _).
  split; [exact U|]. split; [easy|]. split; [easy|]. split; [easy|].
  split; [now rewrite <- poly_value_at|].
  intros PC RI IN. destruct (IN (nth i sample [])) as [Ly Sy]; [now apply nth_In|].
  specialize (U i (nth i sample []) Hi Ly Sy).
  rewrite C128_one_at_own_point_zero_elsewhere, Nat.eqb_refl, Rabs_R1 in U; easy.
Qed.

(** * C131 *)

Definition set_row (A : fmat) (i : nat) (u : fvec) : fmat := fun r => if (r =? i)%nat then u else A r.
(** Alternating multilinear functions of the first [N] rows, with [p] entries each: for N = p
    the multiples of the determinant. *)
Record volume_form (N p : nat) (D : fmat -> R) : Prop := {
  vf_ext : forall A B, (forall i k, (i < N)%nat -> (k < p)%nat -> A i k = B i k) -> D A = D B;
  vf_add : forall A i u v, (i < N)%nat ->
    D (set_row A i (fun k => u k + v k)) = D (set_row A i u) + D (set_row A i v);
  vf_scale : forall A i a u, (i < N)%nat ->
    D (set_row A i (fun k => a * u k)) = a * D (set_row A i u);
  vf_alt : forall A i j, (i < N)%nat -> (j < N)%nat -> i <> j ->
    (forall k, (k < p)%nat -> A i k = A j k) -> D A = 0
}.

Lemma vf_bsum N p D A i m c (U : fmat) : volume_form N p D -> (i < N)%nat ->
  D (set_row A i (fun k => bsum m (fun j => c j * U j k))) = bsum m (fun j => c j * D (set_row A i (U j))).
Proof.
  intros V Hi. induction m as [|m IH]; simpl.
  - rewrite (vf_ext N p D V _ (set_row A i (fun k => 0 * 0))).
    + rewrite (vf_scale N p D V A i 0 (fun _ => 0)) by easy. lra.
    + intros r k Hr Hk. unfold set_row. destruct (r =? i)%nat; [lra|easy].
  - rewrite (vf_add N p D V), IH by easy. f_equal.
    now rewrite (vf_scale N p D V A i (c m) (U m)).
Qed.

(** Replacing row [i] by a combination of all rows multiplies the volume by the coefficient of
    row [i]. *)
Lemma vf_replace N p D A i c : volume_form N p D -> (i < N)%nat ->
  D (set_row A i (fun k => bsum N (fun j => c j * A j k))) = c i * D A.
Proof.
  intros V Hi. rewrite (vf_bsum N p) by easy.
  rewrite (bsum_ext N _ (fun j => if (j =? i)%nat then c i * D A else 0)).
  - now apply bsum_single.
  - intros j Hj. destruct (Nat.eqb_spec j i) as [->|Ne].
    + f_equal. apply (vf_ext N p D V). intros r k _ _. unfold set_row.
      destruct (Nat.eqb_spec r i) as [->|]; easy.
    + rewrite (vf_alt N p D V _ i j); [lra|easy|easy|congruence|]. intros k _. unfold set_row.
      rewrite Nat.eqb_refl. destruct (Nat.eqb_spec j i); [easy|easy].
Qed.

Lemma set_point_length s i x : length (set_point s i x) = length s.
Proof. revert i; induction s as [|y s IH]; intros [|i]; simpl; auto. Qed.
Lemma nth_set_point s i x r : (i < length s)%nat ->
  nth r (set_point s i x) [] = if (r =? i)%nat then x else nth r s [].
Proof.
  revert i r; induction s as [|y s IH]; intros [|i] [|r] H; simpl in *; try lia; try easy.
  apply IH. lia.
Qed.
Lemma In_set_point s i x y : In y (set_point s i x) -> y = x \/ In y s.
Proof.
  revert i; induction s as [|z s IH]; intros [|i] H; simpl in *; try easy.
  - destruct H as [<-|H]; auto.
  - destruct H as [<-|H]; auto. apply IH in H. tauto.
Qed.

Lemma features_of_set_point n s i x r k : (i < length s)%nat ->
  features_of n (set_point s i x) r k
  = set_row (features_of n s) i (fun k => nth k (scaled_polynomial_features n (fun_of x)) 0) r k.
Proof.
  intros H. unfold features_of, set_row. rewrite nth_set_point by easy.
  now destruct (r =? i)%nat.
Qed.

(** The features of any point as combination of those of the sample. *)
Lemma features_span pinv n s x k :
  pinv_correct_at pinv n s -> columns_independent (length s) (n_basis n) (features_of n s) ->
  (k < n_basis n)%nat ->
  nth k (scaled_polynomial_features n (fun_of x)) 0
  = bsum (length s) (fun j => poly_at n (lagrange_poly pinv n s j) x * features_of n s j k).
Proof.
  intros PC CI Hk. symmetry. destruct PC as [PS MPM].
  rewrite <- (lagrange_span (length s) (n_basis n) (features_of n s) _ PS MPM
        (fun b => nth b (scaled_polynomial_features n (fun_of x)) 0) k CI Hk).
  apply bsum_ext. intros j Hj. f_equal. unfold poly_at.
  now rewrite lagrange_dot by apply features_length.
Qed.

Lemma replace_volume pinv n s i x D :
  pinv_correct_at pinv n s -> columns_independent (length s) (n_basis n) (features_of n s) ->
  volume_form (length s) (n_basis n) D -> (i < length s)%nat ->
  D (features_of n (set_point s i x)) = poly_at n (lagrange_poly pinv n s i) x * D (features_of n s).
Proof.
  intros PC CI V Hi.
  rewrite <- (vf_replace _ _ D (features_of n s) i (fun j => poly_at n (lagrange_poly pinv n s j) x) V Hi).
  apply (vf_ext _ _ D V). intros r k Hr Hk. rewrite features_of_set_point by easy. unfold set_row.
  destruct (r =? i)%nat; [|easy]. now apply features_span.
Qed.

Lemma replace_columns pinv n s i x :
  pinv_correct_at pinv n s -> columns_independent (length s) (n_basis n) (features_of n s) ->
  (i < length s)%nat -> poly_at n (lagrange_poly pinv n s i) x <> 0 ->
  columns_independent (length s) (n_basis n) (features_of n (set_point s i x)).
Proof.
  intros PC CI Hi NZ w H. apply CI.
  assert (R : forall r, (r < length s)%nat -> r <> i -> bsum (n_basis n) (fun k => features_of n s r k * w k) = 0).
  { intros r Hr Nr. rewrite <- (H r Hr). apply bsum_ext. intros k Hk. f_equal.
    rewrite features_of_set_point by easy. unfold set_row. now destruct (Nat.eqb_spec r i). }
  intros r Hr. destruct (Nat.eq_dec r i) as [->|Nr]; [|now apply R].
  pose proof (H i Hi) as Hx.
  rewrite (bsum_ext (n_basis n) _ (fun k => bsum (length s) (fun j =>
      poly_at n (lagrange_poly pinv n s j) x * (features_of n s j k * w k)))) in Hx.
  - rewrite bsum_swap in Hx.
    rewrite (bsum_ext (length s) _ (fun j => if (j =? i)%nat then poly_at n (lagrange_poly pinv n s i) x *
         bsum (n_basis n) (fun k => features_of n s i k * w k) else 0)) in Hx.
    + rewrite bsum_single in Hx by easy. apply Rmult_integral in Hx as [?|?]; easy.
    + intros j Hj. rewrite bsum_scal. destruct (Nat.eqb_spec j i) as [->|Nj]; [easy|].
      rewrite R by easy. lra.
  - intros k Hk. rewrite features_of_set_point by easy. unfold set_row. rewrite Nat.eqb_refl.
    rewrite (features_span pinv n s x k) by easy. rewrite <- bsum_scal_r. apply bsum_ext. intros. ring.
Qed.

Lemma replace_rows pinv n s i x :
  pinv_correct_at pinv n s -> columns_independent (length s) (n_basis n) (features_of n s) ->
  rows_independent (length s) (n_basis n) (features_of n s) ->
  (i < length s)%nat -> poly_at n (lagrange_poly pinv n s i) x <> 0 ->
  rows_independent (length s) (n_basis n) (features_of n (set_point s i x)).
Proof.
  intros PC CI RI Hi NZ c H.
  set (Lx := fun j => poly_at n (lagrange_poly pinv n s j) x).
  assert (E : forall j, (j < length s)%nat -> c i * Lx j + (if (j =? i)%nat then 0 else c j) = 0).
  { apply (RI (fun j => c i * Lx j + (if (j =? i)%nat then 0 else c j))).
    intros k Hk. transitivity (bsum (length s) (fun j => c j * features_of n (set_point s i x) j k)); [|now apply H].
    rewrite (bsum_ext (length s) (fun j => c j * features_of n (set_point s i x) j k)
      (fun j => (if (j =? i)%nat then c i * bsum (length s) (fun j => Lx j * features_of n s j k) else 0)
                + (if (j =? i)%nat then 0 else c j) * features_of n s j k)).
    - rewrite bsum_plus, bsum_single by easy. rewrite <- bsum_scal, <- bsum_plus.
      apply bsum_ext. intros. ring.
    - intros j Hj. rewrite features_of_set_point by easy. unfold set_row.
      destruct (Nat.eqb_spec j i) as [->|Nj]; [|lra].
      rewrite (features_span pinv n s x k) by easy. fold (Lx i). unfold Lx. lra. }
  assert (C0 : c i = 0).
  { specialize (E i Hi). rewrite Nat.eqb_refl, Rplus_0_r in E.
    apply Rmult_integral in E as [?|?]; [easy|]. now unfold Lx in *. }
  intros j Hj. specialize (E j Hj). rewrite C0 in E. destruct (Nat.eqb_spec j i) as [Ej|]; [now rewrite Ej|]. lra.
Qed.

(** C131 - bookkeeping, in any dimension: one lambda per iteration, the number of points is
    unchanged, at most one point per iteration is replaced, and every point of the result is an
    original one or one returned by the optimizer. *)
Theorem C131_replacements :
  forall pinv mz n k sample sh s' ls,
    improve_poisedness pinv mz n sample sh k = Ok (s', ls) ->
    length ls = k /\ length s' = length sample /\
    (exists changed : list nat, (length changed <= k)%nat /\
       forall r, ~ In r changed -> nth_error s' r = nth_error sample r) /\
    (forall y, In y s' -> In y sample \/
       exists poly, mz sh (fun x => - Rabs (poly_value n poly (fun_of x))) (repeat 0 n) = Ok y).
Proof.
  intros pinv mz n k. induction k as [|k IH]; intros sample sh s' ls H; cbn [improve_poisedness] in H.
  - injection H as <- <-. split; [easy|]. split; [easy|]. split; [|tauto]. exists []. split; [simpl; lia|easy].
  - destruct (get_poisedness_constant _ _ _ _ _) as [[[l a] i]|] eqn:E; [|discriminate]. cbn [bind fst snd] in H.
    destruct (improve_poisedness _ _ _ _ _ _) as [[s2 ls2]|] eqn:E2; [|discriminate]. cbn [bind] in H.
    injection H as <- <-. apply IH in E2 as (L1 & L2 & (ch & C1 & C2) & IN).
    apply C129_largest_value in E as (Hi & xs & Lx & Ea & A & _).
    rewrite set_point_length in L2. split; [simpl; congruence|]. split; [easy|]. split.
    + exists (i :: ch). split; [simpl; lia|]. intros r Hr. rewrite C2 by (intros X; apply Hr; now right).
      assert (Nr : r <> i) by (intros ->; apply Hr; now left). clear -Nr.
      revert r i Nr. induction sample as [|y s IHs]; intros [|r] [|i] Nr; try easy.
      simpl. apply IHs. congruence.
    + intros y Hy. apply IN in Hy as [Hy|Hy]; [|now right]. apply In_set_point in Hy as [->|Hy]; [|now left].
      right. exists (lagrange_poly pinv n sample i). now apply A.
Qed.

(** Before each of the iterations the pseudo inverse is correct. *)
Definition pinv_correct_along (pinv : pinv_oracle) (mz : constrained_minimizer) (n : nat)
    (sample : list vec) (sh : pshape) (k : nat) : Prop :=
  forall k' s ls, (k' < k)%nat -> improve_poisedness pinv mz n sample sh k' = Ok (s, ls) ->
    pinv_correct_at pinv n s.

(** C131 - up to two parameters, each iteration multiplies the volume spanned by the features of
    the sample by its lambda.  Missing: more than two parameters, where the polynomials that are
    maximized are not the Lagrange polynomials (C45). *)
Theorem C131_volume_times_lambda_partial :
  forall pinv mz n k sample sh s' ls D, (n <= 2)%nat ->
    volume_form (length sample) (n_basis n) D ->
    columns_independent (length sample) (n_basis n) (features_of n sample) ->
    pinv_correct_along pinv mz n sample sh k ->
    improve_poisedness pinv mz n sample sh k = Ok (s', ls) ->
    Rabs (D (features_of n s')) = fold_right Rmult 1 ls * Rabs (D (features_of n sample)).
Proof.
  intros pinv mz n k. induction k as [|k IH]; intros sample sh s' ls D Hn V CI PC H.
  - injection H as <- <-. simpl. lra.
  - pose proof (PC 0%nat sample [] ltac:(lia) eq_refl) as PC0.
    cbn [improve_poisedness] in H.
    destruct (get_poisedness_constant _ _ _ _ _) as [[[l a] i]|] eqn:E; [|discriminate]. cbn [bind fst snd] in H.
    destruct (improve_poisedness _ _ _ _ _ _) as [[s2 ls2]|] eqn:E2; [|discriminate]. cbn [bind] in H.
    injection H as <- <-.
    assert (PC' : pinv_correct_along pinv mz n (set_point sample i a) sh k).
    { intros k' s3 ls3 Hk E3. apply (PC (S k') s3 (l :: ls3)); [lia|]. cbn [improve_poisedness].
      rewrite E. cbn [bind fst snd]. rewrite E3. reflexivity. }
    apply C129_largest_value in E as (Hi & xs & Lx & Ea & A & El & Pl).
    rewrite poly_value_at in El by easy.
    assert (NZ : poly_at n (lagrange_poly pinv n sample i) a <> 0).
    { intros Z. rewrite Z, Rabs_R0 in El. lra. }
    apply (IH _ _ _ _ D Hn) in E2.
    + rewrite E2. rewrite (replace_volume pinv) by easy. rewrite Rabs_mult, <- El. simpl. ring.
    + now rewrite set_point_length.
    + rewrite set_point_length. now apply (replace_columns pinv).
    + easy.
Qed.

(** C131 - with a global optimizer and an initial sample of points of the region with
    independent features, the lambdas are at least one, so that no iteration makes the volume
    smaller, and all points stay in the region. *)
Theorem C131_volume_never_decreases_partial :
  forall pinv mz n k sample sh s' ls D, (n <= 2)%nat ->
    volume_form (length sample) (n_basis n) D ->
    columns_independent (length sample) (n_basis n) (features_of n sample) ->
    rows_independent (length sample) (n_basis n) (features_of n sample) ->
    (forall y, In y sample -> length y = n /\ in_shape sh y) ->
    global_maximizer mz ->
    pinv_correct_along pinv mz n sample sh k ->
    improve_poisedness pinv mz n sample sh k = Ok (s', ls) ->
    (forall l, In l ls -> 1 <= l) /\
    Rabs (D (features_of n sample)) <= Rabs (D (features_of n s')) /\
    (forall y, In y s' -> length y = n /\ in_shape sh y).
Proof.
  intros pinv mz n k sample sh s' ls D Hn V CI RI IN GM PC H.
  assert (G : (forall l, In l ls -> 1 <= l) /\ (forall y, In y s' -> length y = n /\ in_shape sh y)).
  { clear D V. revert sample s' ls CI RI IN PC H. induction k as [|k IH]; intros sample s' ls CI RI IN PC H.
    - injection H as <- <-. split; easy.
    - pose proof (PC 0%nat sample [] ltac:(lia) eq_refl) as PC0.
      cbn [improve_poisedness] in H.
      destruct (get_poisedness_constant _ _ _ _ _) as [[[l a] i]|] eqn:E; [|discriminate]. cbn [bind fst snd] in H.
      destruct (improve_poisedness _ _ _ _ _ _) as [[s2 ls2]|] eqn:E2; [|discriminate]. cbn [bind] in H.
      injection H as <- <-.
      assert (PC' : pinv_correct_along pinv mz n (set_point sample i a) sh k).
      { intros k' s3 ls3 Hk E3. apply (PC (S k') s3 (l :: ls3)); [lia|]. cbn [improve_poisedness].
        rewrite E. cbn [bind fst snd]. rewrite E3. reflexivity. }
      apply (C130_poisedness_constant_partial _ _ _ _ _ _ _ _ Hn GM) in E as (_ & Hi & La & Sa & El & L1).
      specialize (L1 PC0 RI IN).
      assert (NZ : poly_at n (lagrange_poly pinv n sample i) a <> 0).
      { intros Z. rewrite Z, Rabs_R0 in El. lra. }
      apply IH in E2 as [G1 G2]; try easy.
      + split; [|easy]. intros l' [<-|Hl]; [easy|now apply G1].
      + rewrite set_point_length. now apply (replace_columns pinv).
      + rewrite set_point_length. now apply (replace_rows pinv).
      + intros y Hy. apply In_set_point in Hy as [->|Hy]; [easy|now apply IN]. }
  destruct G as [G1 G2]. split; [exact G1|]. split; [|exact G2].
  rewrite (C131_volume_times_lambda_partial _ _ _ _ _ _ _ _ D Hn V CI PC H).
  assert (F : 1 <= fold_right Rmult 1 ls).
  { clear -G1. induction ls as [|l ls IH]; simpl; [lra|].
    assert (1 <= l) by (apply G1; now left). assert (1 <= fold_right Rmult 1 ls) by (apply IH; intros; apply G1; now right). nra. }
  pose proof (Rabs_pos (D (features_of n sample))). nra.
Qed.

(** * C130 is false from three parameters on *)

Definition ex_point : vec := [7/10; 0; 7/10].
Definition ex_features : list R := [1; 7/10; 0; 7/10; 49/200; 0; 49/100; 0; 0; 49/200].
Definition ex_S : R := bsum 10 (fun k => nth k ex_features 0 * nth k ex_features 0).
Lemma ex_S_val : ex_S = 234015 / 100000.
Proof. unfold ex_S, ex_features. cbn [bsum nth]. lra. Qed.
Lemma ex_features_eq : scaled_polynomial_features 3 (fun_of ex_point) = ex_features.
Proof.
  unfold scaled_polynomial_features, ex_features, ex_point, fun_of.
  change (poly_pairs 3) with [(0, 0); (0, 1); (0, 2); (1, 1); (1, 2); (2, 2)]%nat.
  unfold poly_term. cbn [seq map nth app fst snd Nat.eqb]. repeat (apply f_equal2; [lra|]). reflexivity.
Qed.
(** The pseudo inverse of a matrix of rank one with this trace. *)
Definition ex_pinv : pinv_oracle := fun _ M a b => M a b / (ex_S * ex_S).

Lemma ex_basis k : basis_mat 3 [ex_point] 0 k = nth k ex_features 0.
Proof. unfold basis_mat. cbn [nth]. now rewrite ex_features_eq. Qed.

Lemma ex_lagrange : lagrange_poly ex_pinv 3 [ex_point] 0 = map (fun v => v / ex_S) ex_features.
Proof.
  unfold lagrange_poly. change (n_basis 3) with 10%nat.
  rewrite (map_ext_in _ (fun b => nth b ex_features 0 / ex_S)).
  - unfold ex_features. reflexivity.
  - intros b _. rewrite (bsum_ext 10 _ (fun a => (nth a ex_features 0 * nth a ex_features 0)
                                   * (nth b ex_features 0 / (ex_S * ex_S)))).
    + rewrite bsum_scal_r. fold ex_S. pose proof ex_S_val. field. lra.
    + intros a _. unfold ex_pinv. cbn [length bsum]. rewrite !ex_basis. unfold Rdiv. ring.
Qed.

Lemma ex_poly_value x : poly_value 3 (map (fun v => v / ex_S) ex_features) x
  = (1 + 7/10 * x 0%nat + 7/10 * x 2%nat + 49/400 * x 0%nat ^ 2 + 49/200 * x 1%nat ^ 2
     + 49/400 * x 2%nat ^ 2) / ex_S.
Proof.
  rewrite C45_poly_value_column_major_partial by reflexivity.
  change (coef_pairs 3) with [(0, 0); (0, 1); (1, 1); (0, 2); (1, 2); (2, 2)]%nat.
  unfold ex_features, poly_term. cbn [seq map app fst snd Nat.eqb].
  rewrite !dot_cons. change (dot [] []) with 0. pose proof ex_S_val. field. lra.
Qed.

Lemma ex_value_bound x : length x = 3%nat -> norm x <= 1 ->
  Rabs (poly_value 3 (map (fun v => v / ex_S) ex_features) (fun_of x)) < 1.
Proof.
  intros L N. destruct x as [|a [|b [|c [|? ?]]]]; try discriminate.
  assert (Q : a * a + b * b + c * c <= 1).
  { assert (sumsq [a; b; c] <= 1).
    { unfold norm in N. rewrite <- sqrt_1 in N. apply sqrt_le_0 in N; [easy| |lra].
      unfold sumsq, dot. cbn. nra. }
    unfold sumsq, dot in H. cbn in H. lra. }
  rewrite ex_poly_value. unfold fun_of. cbn [nth]. rewrite ex_S_val.
  clear L N.
  pose proof (Rle_0_sqr (a - c)) as S1. pose proof (Rle_0_sqr a) as S2. pose proof (Rle_0_sqr b) as S3.
  pose proof (Rle_0_sqr c) as S4. unfold Rsqr in *.
  assert (A1 : (a + c) * (a + c) <= 2) by lra.
  assert (A2 : a + c < 1415/1000) by (apply Rnot_le_lt; intros W; nra).
  assert (A3 : -1415/1000 < a + c) by (apply Rnot_le_lt; intros W; nra).
  apply Rabs_def1; lra.
Qed.

(** C130 is false for three parameters: a sample of one point of the ball, a correct pseudo
    inverse, any optimizer that returns points of the ball: the result is below one, although
    the Lagrange polynomial is one at the sample point. *)
Theorem C130_poisedness_constant_refuted :
  exists pinv y,
    length y = 3%nat /\ in_shape PSphere y /\ pinv_correct_at pinv 3 [y] /\
    rows_independent 1 (n_basis 3) (features_of 3 [y]) /\
    poly_at 3 (lagrange_poly pinv 3 [y] 0) y = 1 /\
    (forall mz l a i,
       (forall f x0 x, mz PSphere f x0 = Ok x -> length x = 3%nat /\ in_shape PSphere x) ->
       get_poisedness_constant pinv mz 3 [y] PSphere = Ok (l, a, i) -> l < 1) /\
    (exists mz l a i,
       (forall f x0 x, mz PSphere f x0 = Ok x -> length x = 3%nat /\ in_shape PSphere x) /\
       get_poisedness_constant pinv mz 3 [y] PSphere = Ok (l, a, i)).
Proof.
  assert (SH : in_shape PSphere ex_point).
  { simpl. unfold norm. rewrite <- sqrt_1. apply sqrt_le_1_alt. unfold sumsq, dot, ex_point. cbn. lra. }
  assert (F : forall k, features_of 3 [ex_point] 0 k = nth k ex_features 0) by exact ex_basis.
  pose proof ex_S_val as SV.
  assert (G : forall a b, gram 1 (features_of 3 [ex_point]) a b = nth a ex_features 0 * nth b ex_features 0).
  { intros a b. unfold gram. cbn [bsum]. rewrite !F. lra. }
  assert (PC : pinv_correct_at ex_pinv 3 [ex_point]).
  { unfold pinv_correct_at, pinv_correct. cbv zeta. change (length [ex_point]) with 1%nat.
    fold (gram 1 (features_of 3 [ex_point])). change (n_basis 3) with 10%nat. split.
    - intros a b _ _. unfold ex_pinv. rewrite !G. unfold Rdiv. ring.
    - intros a d _ _. rewrite G.
      rewrite (bsum_ext 10 _ (fun b => (nth b ex_features 0 * nth b ex_features 0)
                * (nth a ex_features 0 * nth d ex_features 0 / ex_S))).
      + rewrite bsum_scal_r. fold ex_S. field. lra.
      + intros b _. rewrite (bsum_ext 10 _ (fun c => (nth c ex_features 0 * nth c ex_features 0)
                * (nth b ex_features 0 * nth b ex_features 0 * (nth a ex_features 0 * nth d ex_features 0)
                   / (ex_S * ex_S)))).
        * rewrite bsum_scal_r. fold ex_S. field. lra.
        * intros c _. unfold ex_pinv. rewrite !G. field. lra. }
  assert (RI : rows_independent 1 (n_basis 3) (features_of 3 [ex_point])).
  { intros c H i Hi. replace i with 0%nat by lia. specialize (H 0%nat ltac:(change (n_basis 3) with 10%nat; lia)).
    cbn [bsum] in H. rewrite F in H. cbn [nth ex_features] in H. unfold ex_features in H. cbn [nth] in H. lra. }
  exists ex_pinv, ex_point. split; [reflexivity|]. split; [exact SH|]. split; [exact PC|]. split; [exact RI|].
  split.
  { exact (C128_one_at_own_point_zero_elsewhere ex_pinv 3 [ex_point] 0 0 PC RI ltac:(simpl; lia) ltac:(simpl; lia)). }
  split.
  - intros mz l a i FE H. apply C129_largest_value in H as (Hi & xs & L & Ea & A & El & _).
    simpl in Hi. replace i with 0%nat in * by lia. rewrite ex_lagrange in El.
    destruct (A 0%nat a Ea) as (A1 & _ & _). destruct (FE _ _ _ A1) as [La Sa].
    rewrite El. now apply ex_value_bound.
  - exists (fun _ _ _ => Ok ex_point). do 3 eexists. split.
    + intros f x0 x [= <-]. split; [reflexivity|exact SH].
    + unfold get_poisedness_constant. cbn [bind length seq map poisedness_loop fst].
      rewrite ex_lagrange. unfold eval_absolute_value. rewrite ex_poly_value.
      match goal with |- context [Rltb 0 (Rabs ?v)] => assert (V : 0 < v) end.
      { rewrite SV. unfold fun_of, ex_point. cbn [nth]. lra. }
      match goal with |- context [Rltb 0 (Rabs ?v)] => destruct (Rltb_spec 0 (Rabs v)) as [|Q] end.
      * cbn [bind snd fst]. reflexivity.
      * exfalso. apply Q. apply Rabs_pos_lt. lra.
Qed.

(** * Examples *)

(** One parameter, the points -1, 0 and 1 in the unit interval. *)
Definition ex_line3 : list vec := [[-1]; [0]; [1]].
Definition ex_pinv3 : pinv_oracle := fun _ _ a b =>
  nth b (nth a [[1; 0; -2]; [0; 1/2; 0]; [-2; 0; 6]] []) 0.
Lemma ex_basis3 i k : (i < 3)%nat -> (k < 3)%nat ->
  features_of 1 ex_line3 i k = nth k (nth i [[1; -1; 1/2]; [1; 0; 0]; [1; 1; 1/2]] []) 0.
Proof.
  intros Hi Hk. unfold features_of, scaled_polynomial_features, ex_line3, fun_of.
  change (poly_pairs 1) with [(0, 0)%nat]. unfold poly_term.
  destruct i as [|[|[|?]]]; try lia; destruct k as [|[|[|?]]]; try lia; cbn [nth seq map app fst snd Nat.eqb]; lra.
Qed.
Ltac small i := destruct i as [|[|[|?]]]; try lia.
Example ex_C128 : pinv_correct_at ex_pinv3 1 ex_line3 /\
  rows_independent 3 (n_basis 1) (features_of 1 ex_line3) /\
  columns_independent 3 (n_basis 1) (features_of 1 ex_line3).
Proof.
  change (n_basis 1) with 3%nat. split; [|split].
  - unfold pinv_correct_at, pinv_correct. change (n_basis 1) with 3%nat. change (length ex_line3) with 3%nat. split.
    + intros a b Ha Hb. unfold ex_pinv3. small a; small b; cbn [nth]; lra.
    + assert (G : forall a b, (a < 3)%nat -> (b < 3)%nat -> gram 3 (features_of 1 ex_line3) a b
                = nth b (nth a [[3; 0; 1]; [0; 2; 0]; [1; 0; 1/2]] []) 0).
      { intros a b Ha Hb. unfold gram. cbn [bsum]. rewrite !ex_basis3 by lia. small a; small b; cbn [nth]; lra. }
      intros a d Ha Hd. cbn [bsum]. rewrite !G by lia. unfold ex_pinv3. small a; small d; cbn [nth]; lra.
  - intros c H i Hi. pose proof (H 0%nat ltac:(lia)) as H0. pose proof (H 1%nat ltac:(lia)) as H1.
    pose proof (H 2%nat ltac:(lia)) as H2. cbn [bsum] in *. rewrite !ex_basis3 in * by lia. cbn [nth] in *.
    small i; lra.
  - intros c H i Hi. pose proof (H 0%nat ltac:(lia)) as H0. pose proof (H 1%nat ltac:(lia)) as H1.
    pose proof (H 2%nat ltac:(lia)) as H2. cbn [bsum] in *. rewrite !ex_basis3 in * by lia. cbn [nth] in *.
    small i; lra.
Qed.

(** An optimizer on the interval that recognizes three polynomials by their values and fails
    for all others. *)
Definition ex_mz : constrained_minimizer := fun sh f x0 =>
  match sh, x0 with
  | PCube, [_] =>
      let is a b c := Reqb (- f [-1]) a && Reqb (- f [0]) b && Reqb (- f [1]) c in
      if is 1 0 0 then Ok [-1] else if is 0 1 0 then Ok [0] else if is 0 0 1 then Ok [1]
      else Err ValueError
  | _, _ => Err ValueError
  end.
Lemma poly_value_1 poly : exists c g h, forall x, poly_value 1 poly (fun_of [x]) = c + g * x + h * (x * x).
Proof.
  exists (nth 0 poly 0), (nth 1 poly 0), (reshape_coef_to_square_terms 1 (skipn 2 poly) 0%nat 0%nat / 2).
  intros x. unfold poly_value, fdot, fvm, fun_of. cbn [bsum nth]. change (1 + 1)%nat with 2%nat. simpl Nat.add. field.
Qed.
Lemma Rabs_eq_cases a b : 0 < b -> Rabs a = b -> a = b \/ a = - b.
Proof. intros Hb H. unfold Rabs in H. destruct (Rcase_abs a); lra. Qed.
Lemma Rabs_eq_0 a : Rabs a = 0 -> a = 0.
Proof. intros H. unfold Rabs in H. destruct (Rcase_abs a); lra. Qed.
Lemma Rabs_le_iff a b : - b <= a <= b -> Rabs a <= b.
Proof. intros H. unfold Rabs. destruct (Rcase_abs a); lra. Qed.
Example ex_global : global_maximizer ex_mz.
Proof.
  intros n sh poly x H. unfold ex_mz in H. destruct sh; try discriminate.
  destruct n as [|[|n]]; try discriminate. cbn [repeat] in H.
  destruct (poly_value_1 poly) as (c & g & h & PV). rewrite !PV, !Ropp_involutive in H.
  assert (IN : forall y, length y = 1%nat -> in_shape PCube y -> exists z, y = [z] /\ -1 <= z <= 1).
  { intros [|z [|? ?]] L S; try discriminate. exists z. split; [easy|]. apply S. now left. }
  assert (SH : forall z, -1 <= z <= 1 -> in_shape PCube [z]).
  { intros z Hz a [<-|[]]. easy. }
  destruct (Reqb_spec (Rabs (c + g * -1 + h * (-1 * -1))) 1) as [E1|]; cbn [andb] in H.
  - destruct (Reqb_spec (Rabs (c + g * 0 + h * (0 * 0))) 0) as [E2|]; cbn [andb] in H.
    + destruct (Reqb_spec (Rabs (c + g * 1 + h * (1 * 1))) 0) as [E3|]; cbn [andb] in H.
      * injection H as <-. split; [easy|]. split; [apply SH; lra|].
        intros y Ly Sy. destruct (IN y Ly Sy) as (z & -> & Hz). rewrite !PV.
        rewrite E1. apply Rabs_eq_0 in E2. apply Rabs_eq_0 in E3.
        apply Rabs_eq_cases in E1; [|lra]. apply Rabs_le_iff. assert (c = 0) by lra. assert (g = - h) by lra. subst.
        destruct E1; [assert (h = 1/2) by lra|assert (h = -1/2) by lra]; subst; nra.
      * destruct (Reqb_spec (Rabs (c + g * -1 + h * (-1 * -1))) 0) as [|]; [lra|discriminate].
    + destruct (Reqb_spec (Rabs (c + g * -1 + h * (-1 * -1))) 0) as [|]; [lra|discriminate].
  - destruct (Reqb_spec (Rabs (c + g * -1 + h * (-1 * -1))) 0) as [E1|]; cbn [andb] in H; [|discriminate].
    apply Rabs_eq_0 in E1.
    destruct (Reqb_spec (Rabs (c + g * 0 + h * (0 * 0))) 1) as [E2|].
    + destruct (Reqb_spec (Rabs (c + g * 1 + h * (1 * 1))) 0) as [E3|]; cbn [andb] in H.
      * injection H as <-. split; [easy|]. split; [apply SH; lra|].
        intros y Ly Sy. destruct (IN y Ly Sy) as (z & -> & Hz). rewrite !PV.
        rewrite E2. apply Rabs_eq_0 in E3. apply Rabs_eq_cases in E2; [|lra]. apply Rabs_le_iff.
        assert (g = 0) by lra. assert (h = - c) by lra. subst. destruct E2; [assert (c = 1) by lra|assert (c = -1) by lra]; subst; nra.
      * destruct (Reqb_spec (Rabs (c + g * 0 + h * (0 * 0))) 0) as [|]; [lra|discriminate].
    + destruct (Reqb_spec (Rabs (c + g * 0 + h * (0 * 0))) 0) as [E2|]; cbn [andb] in H; [|discriminate].
      destruct (Reqb_spec (Rabs (c + g * 1 + h * (1 * 1))) 1) as [E3|]; [|discriminate].
      injection H as <-. split; [easy|]. split; [apply SH; lra|].
      intros y Ly Sy. destruct (IN y Ly Sy) as (z & -> & Hz). rewrite !PV.
      rewrite E3. apply Rabs_eq_0 in E2. apply Rabs_eq_cases in E3; [|lra]. apply Rabs_le_iff.
      assert (c = 0) by lra. assert (g = h) by lra. subst. destruct E3; [assert (h = 1/2) by lra|assert (h = -1/2) by lra]; subst; nra.
Qed.

Lemma ex_values3 j x : (j < 3)%nat ->
  poly_value 1 (lagrange_poly ex_pinv3 1 ex_line3 j) (fun_of [x])
  = nth j [x * (x - 1) / 2; 1 - x * x; x * (x + 1) / 2] 0.
Proof.
  intros Hj. rewrite C45_poly_value_partial; [|lia|now rewrite lagrange_poly_length, features_length].
  rewrite lagrange_dot by apply features_length. change (n_basis 1) with 3%nat.
  unfold scaled_polynomial_features. change (poly_pairs 1) with [(0, 0)%nat]. unfold poly_term, fun_of.
  change (basis_mat 1 ex_line3) with (features_of 1 ex_line3). cbn [bsum].
  rewrite !ex_basis3 by lia. unfold ex_pinv3. small j; cbn [nth seq map app fst snd Nat.eqb]; lra.
Qed.

(** The first polynomial attains the constant one at -1. *)
Example ex_C129 : get_poisedness_constant ex_pinv3 ex_mz 1 ex_line3 PCube = Ok (1, [-1], 0%nat).
Proof.
  assert (R : forall j, (j < 3)%nat -> ex_mz PCube (eval_neg_absolute_value 1 (lagrange_poly ex_pinv3 1 ex_line3 j)) [0]
       = Ok (nth j ex_line3 [])).
  { intros j Hj. unfold ex_mz, eval_neg_absolute_value, eval_absolute_value.
    rewrite !Ropp_involutive, !ex_values3 by easy.
    assert (A0 : Rabs (0 / 2) = 0) by (replace (0 / 2) with 0 by lra; apply Rabs_R0).
    small j; cbn [nth ex_line3].
    - replace (-1 * (-1 - 1) / 2) with 1 by lra. replace (0 * (0 - 1) / 2) with 0 by lra. replace (1 * (1 - 1) / 2) with 0 by lra.
      rewrite Rabs_R0, Rabs_R1. destruct (Reqb_spec 1 1); [|lra]. destruct (Reqb_spec 0 0); [|lra]. reflexivity.
    - replace (1 - -1 * -1) with 0 by lra. replace (1 - 0 * 0) with 1 by lra. replace (1 - 1 * 1) with 0 by lra.
      rewrite Rabs_R0, Rabs_R1. destruct (Reqb_spec 1 1); [|lra]. destruct (Reqb_spec 0 0); [|lra].
      destruct (Reqb_spec 0 1); [lra|]. reflexivity.
    - replace (-1 * (-1 + 1) / 2) with 0 by lra. replace (0 * (0 + 1) / 2) with 0 by lra. replace (1 * (1 + 1) / 2) with 1 by lra.
      rewrite Rabs_R0, Rabs_R1. destruct (Reqb_spec 1 1); [|lra]. destruct (Reqb_spec 0 0); [|lra].
      destruct (Reqb_spec 0 1); [lra|]. reflexivity. }
  unfold get_poisedness_constant. change (length ex_line3) with 3%nat. cbn [bind seq map poisedness_loop repeat fst].
  rewrite !R by lia. cbn [bind ex_line3 nth]. unfold eval_absolute_value. fold ex_line3. rewrite !ex_values3 by lia. cbn [nth].
  replace (-1 * (-1 - 1) / 2) with 1 by lra. replace (1 - 0 * 0) with 1 by lra. replace (1 * (1 + 1) / 2) with 1 by lra.
  rewrite Rabs_R1. destruct (Rltb_spec 0 1); [|lra]. cbn [fst]. destruct (Rltb_spec 1 1); [lra|]. cbn [fst].
  destruct (Rltb_spec 1 1); [lra|]. reflexivity.
Qed.

(** The 3 x 3 determinant is a volume form, and the sample is not changed by improving it. *)
Definition det3 (A : fmat) : R :=
  A 0%nat 0%nat * (A 1%nat 1%nat * A 2%nat 2%nat - A 1%nat 2%nat * A 2%nat 1%nat)
  - A 0%nat 1%nat * (A 1%nat 0%nat * A 2%nat 2%nat - A 1%nat 2%nat * A 2%nat 0%nat)
  + A 0%nat 2%nat * (A 1%nat 0%nat * A 2%nat 1%nat - A 1%nat 1%nat * A 2%nat 0%nat).
Example ex_C131 : volume_form 3 (n_basis 1) det3 /\ det3 (features_of 1 ex_line3) = 1 /\
  (forall y, In y ex_line3 -> length y = 1%nat /\ in_shape PCube y) /\
  improve_poisedness ex_pinv3 ex_mz 1 ex_line3 PCube 2 = Ok (ex_line3, [1; 1]) /\
  pinv_correct_along ex_pinv3 ex_mz 1 ex_line3 PCube 2.
Proof.
  assert (I : improve_poisedness ex_pinv3 ex_mz 1 ex_line3 PCube 2 = Ok (ex_line3, [1; 1])).
  { cbn [improve_poisedness]. rewrite ex_C129. cbn [bind fst snd set_point ex_line3]. fold ex_line3.
    rewrite ex_C129. reflexivity. }
  assert (I1 : improve_poisedness ex_pinv3 ex_mz 1 ex_line3 PCube 1 = Ok (ex_line3, [1])).
  { cbn [improve_poisedness]. rewrite ex_C129. reflexivity. }
  split; [|split; [|split; [|split; [exact I|]]]].
  - change (n_basis 1) with 3%nat. constructor.
    + intros A B H. unfold det3. now rewrite !H by lia.
    + intros A i u v Hi. unfold det3, set_row. small i; cbn [Nat.eqb]; ring.
    + intros A i a u Hi. unfold det3, set_row. small i; cbn [Nat.eqb]; ring.
    + intros A i j Hi Hj N H. pose proof (H 0%nat ltac:(lia)). pose proof (H 1%nat ltac:(lia)). pose proof (H 2%nat ltac:(lia)).
      unfold det3. small i; small j; try congruence; rewrite ?H0, ?H1, ?H2; ring.
  - unfold det3. rewrite !ex_basis3 by lia. cbn [nth]. lra.
  - intros y [<-|[<-|[<-|[]]]]; (split; [easy|]); intros a [<-|[]]; lra.
  - intros k' s ls Hk H. destruct k' as [|[|k']]; [| |lia].
    + injection H as <- <-. apply ex_C128.
    + rewrite I1 in H. injection H as <- <-. apply ex_C128.
Qed.
