(** Least squares solvers exist: one that solves every system, and one that gives the solution of
    smallest norm; QR decompositions exist.  They show that what is assumed about np.linalg.lstsq
    and scipy.linalg.qr can be met. *)
From Coq Require Import Reals List Arith Bool Lia Lra Psatz.
From Verif Require Import Base XR Vec FVec ModelsModel FitModel Prop_Fit.
Import ListNotations.
Open Scope R_scope.

(** Successive projections: the component of a new column that is orthogonal to the previous ones
    gets the coefficient of the projection onto it. *)
Fixpoint ls (N p : nat) (A : fmat) (y : fvec) : fvec :=
  match p with
  | O => fzero
  | S q =>
      let ca := ls N q A (fun i => A i q) in
      let cy := ls N q A y in
      let ra i := A i q - bsum q (fun j => A i j * ca j) in
      let ry i := y i - bsum q (fun j => A i j * cy j) in
      let beta := fdot N ry ra / fdot N ra ra in
      fun j => if (j <? q)%nat then cy j - beta * ca j else beta
  end.

Lemma ls_residual N q A y i :
  y i - bsum (S q) (fun j => A i j * ls N (S q) A y j) =
  (y i - bsum q (fun j => A i j * ls N q A y j)) -
  fdot N (fun i => y i - bsum q (fun j => A i j * ls N q A y j))
         (fun i => A i q - bsum q (fun j => A i j * ls N q A (fun i => A i q) j)) /
  fdot N (fun i => A i q - bsum q (fun j => A i j * ls N q A (fun i => A i q) j))
         (fun i => A i q - bsum q (fun j => A i j * ls N q A (fun i => A i q) j)) *
  (A i q - bsum q (fun j => A i j * ls N q A (fun i => A i q) j)).
Proof.
  cbn [ls]. set (ca := ls N q A (fun i => A i q)). set (cy := ls N q A y).
  set (beta := _ / _). cbn [bsum]. rewrite Nat.ltb_irrefl.
  rewrite (bsum_ext q _ (fun j => A i j * cy j - beta * (A i j * ca j))).
  - rewrite bsum_minus, bsum_scal. ring.
  - intros j Hj. apply Nat.ltb_lt in Hj. rewrite Hj. ring.
Qed.

(** The normal equations. *)
Lemma ls_normal N p A : forall y j, (j < p)%nat ->
  bsum N (fun i => A i j * (y i - bsum p (fun k => A i k * ls N p A y k))) = 0.
Proof.
  induction p as [|q IH]; intros y j Hj; [lia|].
  rewrite (bsum_ext N _ (fun i => A i j *
     ((y i - bsum q (fun j => A i j * ls N q A y j)) -
      fdot N (fun i => y i - bsum q (fun j => A i j * ls N q A y j))
             (fun i => A i q - bsum q (fun j => A i j * ls N q A (fun i => A i q) j)) /
      fdot N (fun i => A i q - bsum q (fun j => A i j * ls N q A (fun i => A i q) j))
             (fun i => A i q - bsum q (fun j => A i j * ls N q A (fun i => A i q) j)) *
      (A i q - bsum q (fun j => A i j * ls N q A (fun i => A i q) j))))).
  2: intros i _; now rewrite ls_residual.
  pose proof (IH y) as Iy. pose proof (IH (fun i => A i q)) as Ia. clear IH.
  set (ca := ls N q A (fun i => A i q)) in *. set (cy := ls N q A y) in *.
  set (ra := fun i => A i q - bsum q (fun j => A i j * ca j)) in *.
  set (ry := fun i => y i - bsum q (fun j => A i j * cy j)) in *.
  assert (Iy' : forall j, (j < q)%nat -> bsum N (fun i => A i j * ry i) = 0) by exact Iy.
  assert (Ia' : forall j, (j < q)%nat -> bsum N (fun i => A i j * ra i) = 0) by exact Ia.
  set (beta := fdot N ry ra / fdot N ra ra).
  assert (Split : bsum N (fun i => A i j * (ry i - beta * ra i)) =
                  bsum N (fun i => A i j * ry i) - beta * bsum N (fun i => A i j * ra i)).
  { rewrite <- bsum_scal, <- bsum_minus. apply bsum_ext. intros; ring. }
  change (bsum N (fun i => A i j * (ry i - beta * ra i)) = 0). rewrite Split.
  assert (Jq : (j < q)%nat \/ j = q) by lia. destruct Jq as [Hq| ->].
  - rewrite (Iy' j Hq), (Ia' j Hq). ring.
  - (* the new column is its projection plus ra *)
    assert (P : forall r, (forall k, (k < q)%nat -> bsum N (fun i => A i k * r i) = 0) ->
                bsum N (fun i => A i q * r i) = fdot N r ra).
    { intros r Hr. unfold fdot, ra.
      rewrite (bsum_ext N (fun i => r i * _) (fun i => A i q * r i - bsum q (fun k => ca k * (A i k * r i)))).
      - rewrite bsum_minus, bsum_swap.
        rewrite (bsum_ext q (fun j => bsum N _) (fun _ => 0)).
        + rewrite bsum_zero. ring.
        + intros k Hk. rewrite bsum_scal, Hr by easy. ring.
      - intros i _. rewrite Rmult_minus_distr_l. f_equal; [ring|].
        rewrite <- bsum_scal. apply bsum_ext. intros; ring. }
    rewrite (P ry Iy'), (P ra Ia').
    unfold beta. destruct (Req_dec (fdot N ra ra) 0) as [Z|Z]; [|field; exact Z].
    rewrite Z. assert (fdot N ry ra = 0) as ->; [|unfold Rdiv; ring].
    unfold fdot. rewrite (bsum_ext N _ (fun _ => 0)); [apply bsum_zero|].
    intros i Hi. assert (ra i = 0) as ->; [|ring].
    pose proof (fsq_zero N ra) as Q. unfold fsq in Q. now apply Q.
Qed.

Lemma ls_ok N p A y : is_lstsq N p A y (ls N p A y).
Proof.
  intros c'. unfold ssr. set (c := ls N p A y).
  set (r := fun i => y i - bsum p (fun k => A i k * c k)).
  set (e := fun i => bsum p (fun k => A i k * (c' k - c k))).
  assert (Cross : bsum N (fun i => r i * e i) = 0).
  { unfold e. rewrite (bsum_ext N _ (fun i => bsum p (fun k => (c' k - c k) * (A i k * r i)))).
    - rewrite bsum_swap. apply bsum_all_zero. intros k Hk. rewrite bsum_scal.
      change (bsum N (fun i => A i k * r i)) with (bsum N (fun i => A i k * (y i - bsum p (fun k => A i k * c k)))).
      unfold c. rewrite ls_normal by easy. ring.
    - intros i _. rewrite <- bsum_scal. apply bsum_ext. intros; ring. }
  rewrite (bsum_ext N (fun i => (bsum p (fun j => A i j * c' j) - y i) ^ 2)
             (fun i => (r i ^ 2 + e i ^ 2) - 2 * (r i * e i))).
  - rewrite bsum_minus, bsum_plus, bsum_scal, Cross.
    rewrite (bsum_ext N (fun i => (bsum p (fun j => A i j * c j) - y i) ^ 2) (fun i => r i ^ 2)).
    + assert (0 <= bsum N (fun i => e i ^ 2)) by (apply bsum_nonneg; intros; apply pow2_ge_0). lra.
    + intros i _. unfold r. ring.
  - intros i _. unfold r, e. rewrite (bsum_ext p (fun k => A i k * (c' k - c k)) (fun k => A i k * c' k - A i k * c k)) by (intros; ring).
    rewrite bsum_minus. ring.
Qed.


(** The minimum norm solution: the projection of a solution onto the row space. *)
Definition min_norm_ls (N p : nat) (A : fmat) (b : fvec) : fvec :=
  let z := ls p N (fun j i => A i j) (ls N p A b) in
  fun j => bsum N (fun i => A i j * z i).

Lemma min_norm_ls_fitted N p A b i : (i < N)%nat ->
  bsum p (fun j => A i j * min_norm_ls N p A b j) = bsum p (fun j => A i j * ls N p A b j).
Proof.
  intros Hi. pose proof (ls_normal p N (fun j i => A i j) (ls N p A b) i Hi) as E. cbv beta in E.
  rewrite (bsum_ext p _ (fun j => A i j * ls N p A b j - A i j * min_norm_ls N p A b j)) in E
    by (intros; unfold min_norm_ls; ring).
  rewrite bsum_minus in E. lra.
Qed.

(** Two least squares solutions have the same fitted values. *)
Lemma lstsq_same_fit N p A b c c' : is_lstsq N p A b c -> is_lstsq N p A b c' ->
  forall i, (i < N)%nat -> bsum p (fun j => A i j * (c' j - c j)) = 0.
Proof.
  intros H H'. pose proof (lstsq_normal _ _ _ _ _ H) as E. pose proof (lstsq_normal _ _ _ _ _ H') as E'.
  set (e := fun i => bsum p (fun j => A i j * (c' j - c j))).
  intros i Hi. change (e i = 0). apply (fsq_zero N e); [|easy]. unfold fsq, fdot.
  rewrite (bsum_ext N _ (fun i => bsum p (fun j => (c' j - c j) * (A i j * e i)))).
  - rewrite bsum_swap. apply bsum_all_zero. intros j Hj. rewrite bsum_scal.
    rewrite (bsum_ext N _ (fun i => A i j * (bsum p (fun k => A i k * c' k) - b i)
                                  - A i j * (bsum p (fun k => A i k * c k) - b i))).
    + rewrite bsum_minus, E, E' by easy. ring.
    + intros r _. unfold e. rewrite (bsum_ext p _ (fun k => A r k * c' k - A r k * c k)) by (intros; ring).
      rewrite bsum_minus. ring.
  - intros r _. unfold e at 1. rewrite <- bsum_scal_r. apply bsum_ext. intros; ring.
Qed.

Theorem min_norm_ls_ok N p A b : is_min_norm_lstsq N p A b (min_norm_ls N p A b).
Proof.
  assert (L : is_lstsq N p A b (min_norm_ls N p A b)).
  { intros c'. unfold ssr. rewrite (bsum_ext N _ (fun i => (bsum p (fun j => A i j * ls N p A b j) - b i) ^ 2)).
    - apply (ls_ok N p A b c').
    - intros i Hi. now rewrite min_norm_ls_fitted. }
  split; [easy|]. intros c' H'. pose proof (lstsq_same_fit _ _ _ _ _ _ L H') as E.
  set (c := min_norm_ls N p A b) in *.
  assert (O : bsum p (fun j => c j * (c' j - c j)) = 0).
  { unfold c at 1, min_norm_ls. set (z := ls p N _ _).
    rewrite (bsum_ext p _ (fun j => bsum N (fun i => z i * (A i j * (c' j - c j))))).
    - rewrite bsum_swap. apply bsum_all_zero. intros i Hi. rewrite bsum_scal, E by easy. ring.
    - intros j _. rewrite <- bsum_scal_r. apply bsum_ext. intros; ring. }
  unfold fsq, fdot.
  rewrite (bsum_ext p (fun i => c' i * c' i)
     (fun i => c i * c i + (2 * (c i * (c' i - c i)) + (c' i - c i) * (c' i - c i)))) by (intros; ring).
  rewrite !bsum_plus, bsum_scal, O.
  assert (0 <= bsum p (fun i => (c' i - c i) * (c' i - c i))) by (apply bsum_nonneg; intros; apply Rle_0_sqr). lra.
Qed.

(** [Q] is the first factor of a QR decomposition of the N by N matrix [A]. *)
Definition is_qr (N : nat) (A Q : fmat) : Prop :=
  (forall j k, (j < N)%nat -> (k < N)%nat -> bsum N (fun i => Q i j * Q i k) = if (j =? k)%nat then 1 else 0) /\
  exists T : fmat, (forall k j, (j < k)%nat -> T k j = 0) /\
    forall i j, (i < N)%nat -> (j < N)%nat -> A i j = bsum N (fun k => Q i k * T k j).

(** * QR decompositions exist *)

Section QR.
Variable N : nat.

Definition orthonormal (j : nat) (P : fmat) : Prop :=
  forall a b, (a < j)%nat -> (b < j)%nat -> bsum N (fun i => P i a * P i b) = if (a =? b)%nat then 1 else 0.

(** The part of [v] that is orthogonal to the first [j] columns. *)
Definition remainder (P : fmat) (j : nat) (v : fvec) : fvec :=
  fun i => v i - bsum j (fun r => P i r * bsum N (fun s => P s r * v s)).
Definition unit_vector (i : nat) : fvec := fun s => if (s =? i)%nat then 1 else 0.
Definition new_dir (P : fmat) (j : nat) (v : fvec) : fvec :=
  if Reqb (fsq N (remainder P j v)) 0
  then match find (fun i => negb (Reqb (fsq N (remainder P j (unit_vector i))) 0)) (seq 0 N) with
       | Some i => remainder P j (unit_vector i)
       | None => fzero
       end
  else remainder P j v.
(** Gram-Schmidt; a dependent column is replaced by some new direction. *)
Fixpoint gram_schmidt (A : fmat) (j : nat) : fmat :=
  match j with
  | O => fun _ _ => 0
  | S q => let P := gram_schmidt A q in
           let d := new_dir P q (fun i => A i q) in
           fun i r => if (r =? q)%nat then / fnorm N d * d i else P i r
  end.

Lemma remainder_orthogonal P j v a : orthonormal j P -> (a < j)%nat ->
  bsum N (fun i => P i a * remainder P j v i) = 0.
Proof.
  intros O Ha. unfold remainder.
  rewrite (bsum_ext N _ (fun i => P i a * v i - bsum j (fun r => P i a * P i r * bsum N (fun s => P s r * v s)))).
  - rewrite bsum_minus, bsum_swap.
    rewrite (bsum_ext j (fun r => bsum N _) (fun r => if (r =? a)%nat then bsum N (fun s => P s a * v s) else 0)).
    + rewrite bsum_single by easy. ring.
    + intros r Hr. rewrite bsum_scal_r, O by easy.
      destruct (Nat.eqb_spec a r) as [E|E]; destruct (Nat.eqb_spec r a) as [F|F]; try congruence; [subst r; ring|ring].
  - intros i _. rewrite Rmult_minus_distr_l, <- bsum_scal. f_equal. apply bsum_ext. intros; ring.
Qed.

Lemma bsum_const m (x : R) : bsum m (fun _ => x) = INR m * x.
Proof. induction m as [|m IH]; [simpl; ring|]. cbn [bsum]. rewrite IH, S_INR. ring. Qed.

Lemma some_direction P j : orthonormal j P -> (j < N)%nat ->
  exists i, find (fun i => negb (Reqb (fsq N (remainder P j (unit_vector i))) 0)) (seq 0 N) = Some i.
Proof.
  intros O Hj. destruct (find _ _) as [i|] eqn:F; [now exists i|]. exfalso.
  assert (Z : forall i, (i < N)%nat -> 1 = bsum j (fun r => P i r * P i r)).
  { intros i Hi. pose proof (find_none _ _ F i ltac:(apply in_seq; lia)) as E. cbv beta in E.
    apply negb_false_iff, Reqb_true in E. pose proof (fsq_zero N _ E i Hi) as E'. unfold remainder, unit_vector in E'.
    rewrite Nat.eqb_refl in E'.
    rewrite (bsum_ext j _ (fun r => P i r * P i r)) in E'; [lra|].
    intros r Hr. f_equal. rewrite (bsum_ext N _ (fun s => if (s =? i)%nat then P i r else 0)).
    - now apply bsum_single.
    - intros s _. destruct (Nat.eqb_spec s i) as [->|]; ring. }
  assert (S1 : bsum N (fun _ => 1) = bsum N (fun i => bsum j (fun r => P i r * P i r))) by (apply bsum_ext; auto).
  rewrite bsum_swap, (bsum_ext j _ (fun _ => 1)) in S1.
  - rewrite !bsum_const, !Rmult_1_r in S1. apply INR_eq in S1. lia.
  - intros r Hr. rewrite O by easy. now rewrite Nat.eqb_refl.
Qed.

Lemma new_dir_ok P j v : orthonormal j P -> (j < N)%nat ->
  fsq N (new_dir P j v) <> 0 /\ forall a, (a < j)%nat -> bsum N (fun i => P i a * new_dir P j v i) = 0.
Proof.
  intros O Hj. unfold new_dir. destruct (Reqb (fsq N (remainder P j v)) 0) eqn:E.
  - destruct (some_direction P j O Hj) as [i Fi]. rewrite Fi. apply find_some in Fi as [_ Fi]. split.
    + intros Z. rewrite Z in Fi. apply negb_true_iff, Reqb_false in Fi. now apply Fi.
    + intros a Ha. now apply remainder_orthogonal.
  - split; [now apply Reqb_false|]. intros a Ha. now apply remainder_orthogonal.
Qed.

Lemma unit_length d : fsq N d <> 0 -> bsum N (fun i => (/ fnorm N d * d i) * (/ fnorm N d * d i)) = 1.
Proof.
  intros D. pose proof (fsq_nonneg N d) as P. pose proof (fnorm_sqr N d) as E.
  assert (F : fnorm N d <> 0) by (intros Z; rewrite Z in E; lra).
  rewrite (bsum_ext N _ (fun i => / fnorm N d * / fnorm N d * (d i * d i))) by (intros; ring).
  rewrite bsum_scal. change (bsum N (fun i => d i * d i)) with (fsq N d). rewrite <- E. now field.
Qed.

Lemma gram_schmidt_orthonormal A j : (j <= N)%nat -> orthonormal j (gram_schmidt A j).
Proof.
  induction j as [|q IH]; intros Hj; [intros a b Ha; lia|]. specialize (IH ltac:(lia)).
  cbn [gram_schmidt]. set (P := gram_schmidt A q) in *. set (d := new_dir P q (fun i => A i q)).
  destruct (new_dir_ok P q (fun i => A i q) IH ltac:(lia)) as [D O]. fold d in D, O.
  assert (O' : forall a, (a < q)%nat -> bsum N (fun i => P i a * (/ fnorm N d * d i)) = 0).
  { intros a Ha. rewrite (bsum_ext N _ (fun i => / fnorm N d * (P i a * d i))) by (intros; ring).
    rewrite bsum_scal, O by easy. ring. }
  intros a b Ha Hb. destruct (Nat.eqb_spec a q) as [->|Na], (Nat.eqb_spec b q) as [->|Nb].
  - rewrite Nat.eqb_refl. now apply unit_length.
  - destruct (Nat.eqb_spec q b); [congruence|]. rewrite (bsum_ext N _ (fun i => P i b * (/ fnorm N d * d i))) by (intros; ring).
    apply O'. lia.
  - destruct (Nat.eqb_spec a q); [congruence|]. apply O'. lia.
  - apply IH; lia.
Qed.

Lemma gram_schmidt_stable A j m i r : (r < j)%nat -> (j <= m)%nat -> gram_schmidt A m i r = gram_schmidt A j i r.
Proof.
  intros Hr. induction 1 as [|m Hm IH]; [easy|]. cbn [gram_schmidt].
  destruct (Nat.eqb_spec r m); [lia|]. exact IH.
Qed.

Lemma gram_schmidt_spans A q i : (q < N)%nat -> (i < N)%nat ->
  let Q := gram_schmidt A (S q) in
  A i q = bsum (S q) (fun r => Q i r * bsum N (fun s => Q s r * A s q)).
Proof.
  intros Hq Hi Q. pose proof (gram_schmidt_orthonormal A (S q) Hq) as OQ. fold Q in OQ.
  pose proof (gram_schmidt_orthonormal A q ltac:(lia)) as OP.
  set (P := gram_schmidt A q) in *. set (v := fun i => A i q).
  assert (PQ : forall i r, (r < q)%nat -> Q i r = P i r) by (intros; apply gram_schmidt_stable; lia).
  assert (V : forall i, A i q = remainder P q v i + bsum q (fun r => Q i r * bsum N (fun s => Q s r * A s q))).
  { intros s. unfold remainder, v.
    rewrite (bsum_ext q (fun r => Q s r * _) (fun r => P s r * bsum N (fun t => P t r * A t q))); [ring|].
    intros r Hr. rewrite PQ by easy. f_equal. apply bsum_ext. intros t _. now rewrite PQ. }
  cbn [bsum].
  assert (B : bsum N (fun s => Q s q * A s q) = bsum N (fun s => Q s q * remainder P q v s)).
  { rewrite (bsum_ext N (fun s => Q s q * A s q) (fun s => Q s q * remainder P q v s
        + bsum q (fun r => Q s q * Q s r * bsum N (fun t => Q t r * A t q)))).
    - rewrite bsum_plus, bsum_swap, (bsum_all_zero q); [ring|]. intros r Hr. rewrite bsum_scal_r, OQ by lia.
      destruct (Nat.eqb_spec q r); [lia|]. ring.
    - intros s _. rewrite (V s) at 1. rewrite Rmult_plus_distr_l, <- bsum_scal. f_equal. apply bsum_ext. intros; ring. }
  rewrite B. rewrite (V i) at 1. rewrite Rplus_comm. f_equal.
  assert (NQ : forall i, Q i q = / fnorm N (new_dir P q v) * new_dir P q v i).
  { intros s. unfold Q. cbn [gram_schmidt]. now rewrite Nat.eqb_refl. }
  destruct (Req_dec (fsq N (remainder P q v)) 0) as [Z|Z].
  - rewrite (fsq_zero N _ Z i Hi). rewrite bsum_all_zero; [ring|].
    intros s Hs. rewrite (fsq_zero N _ Z s Hs). ring.
  - assert (ND : new_dir P q v = remainder P q v).
    { unfold new_dir. destruct (Reqb _ 0) eqn:E; [apply Reqb_true in E; contradiction|reflexivity]. }
    pose proof (fsq_nonneg N (remainder P q v)) as Pn. pose proof (fnorm_sqr N (remainder P q v)) as E.
    assert (F : fnorm N (remainder P q v) <> 0) by (intros Z0; rewrite Z0 in E; lra).
    rewrite (bsum_ext N _ (fun s => / fnorm N (remainder P q v) * (remainder P q v s * remainder P q v s))).
    + rewrite bsum_scal. change (bsum N (fun s => remainder P q v s * remainder P q v s)) with (fsq N (remainder P q v)).
      rewrite <- E, NQ, ND. now field.
    + intros s _. rewrite NQ, ND. ring.
Qed.
End QR.

Theorem gram_schmidt_qr N A : is_qr N A (gram_schmidt N A N).
Proof.
  split; [now apply gram_schmidt_orthonormal|]. set (Q := gram_schmidt N A N).
  exists (fun k j => if (k <=? j)%nat then bsum N (fun s => Q s k * A s j) else 0). split.
  { intros k j H. destruct (Nat.leb_spec k j); [lia|easy]. }
  intros i j Hi Hj. rewrite (gram_schmidt_spans N A j i Hj Hi).
  assert (SPL : forall f, bsum N f = bsum (S j) f + bsum (N - S j) (fun i => f (S j + i)%nat))
    by (intros f; rewrite <- bsum_app; f_equal; lia).
  etransitivity; [|symmetry; apply SPL]. rewrite (bsum_all_zero (N - S j)).
  - rewrite Rplus_0_r. apply bsum_ext. intros r Hr. destruct (Nat.leb_spec r j); [|lia].
    unfold Q. rewrite (gram_schmidt_stable N A (S j) N i r) by lia. f_equal. apply bsum_ext. intros s _.
    now rewrite (gram_schmidt_stable N A (S j) N s r) by lia.
  - intros r Hr. destruct (Nat.leb_spec (S j + r) j); [lia|ring].
Qed.
