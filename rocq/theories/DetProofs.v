(** The determinant of GeometryModel is the determinant: it is alternating and multilinear in
    the rows, the only such function up to a factor, multiplicative, and non-negative for
    positive semi-definite matrices. *)
From Coq Require Import Reals List Arith Bool Lia Lra Psatz.
From Verif Require Import Base XR Vec FVec GeometryModel Prop_Geometry Prop_Poised.
Open Scope R_scope.

Definition skip (j c : nat) : nat := if (c <? j)%nat then c else S c.
Lemma minor_skip A j r c : minor A j r c = A (S r) (skip j c).
Proof. reflexivity. Qed.

Lemma fdet_S n A : fdet (S n) A = bsum (S n) (fun j => (-1) ^ j * A 0%nat j * fdet n (minor A j)).
Proof. reflexivity. Qed.

(** * Multilinear and alternating *)

Lemma minor_set_row A i u j n r c : (r < n)%nat -> (c < n)%nat ->
  minor (set_row A (S i) u) j r c = set_row (minor A j) i (fun c => u (skip j c)) r c.
Proof. intros _ _. unfold minor, set_row. simpl. now destruct (r =? i)%nat. Qed.
Lemma fdet_add n : forall A i u v, (i < n)%nat ->
  fdet n (set_row A i (fun k => u k + v k)) = fdet n (set_row A i u) + fdet n (set_row A i v).
Proof.
  induction n as [|n IH]; intros A i u v Hi; [lia|]. cbn [fdet]. rewrite <- bsum_plus.
  apply bsum_ext. intros j Hj. destruct i as [|i].
  - change (set_row A 0 (fun k => u k + v k) 0%nat j) with (u j + v j).
    change (set_row A 0 u 0%nat j) with (u j). change (set_row A 0 v 0%nat j) with (v j).
    rewrite (fdet_ext n (minor (set_row A 0 u) j) (minor A j)) by reflexivity.
    rewrite (fdet_ext n (minor (set_row A 0 v) j) (minor A j)) by reflexivity.
    rewrite (fdet_ext n (minor (set_row A 0 (fun k => u k + v k)) j) (minor A j)) by reflexivity. ring.
  - change (set_row A (S i) (fun k => u k + v k) 0%nat j) with (A 0%nat j).
    change (set_row A (S i) u 0%nat j) with (A 0%nat j). change (set_row A (S i) v 0%nat j) with (A 0%nat j).
    rewrite !(fdet_ext n (minor (set_row A (S i) _) j) _ (fun r c Hr Hc => minor_set_row A i _ j n r c Hr Hc)).
    rewrite (IH (minor A j) i (fun c => u (skip j c)) (fun c => v (skip j c))) by lia. ring.
Qed.
Lemma fdet_row_scale n : forall A i a u, (i < n)%nat ->
  fdet n (set_row A i (fun k => a * u k)) = a * fdet n (set_row A i u).
Proof.
  induction n as [|n IH]; intros A i a u Hi; [lia|]. cbn [fdet]. rewrite <- bsum_scal.
  apply bsum_ext. intros j Hj. destruct i as [|i].
  - change (set_row A 0 (fun k => a * u k) 0%nat j) with (a * u j). change (set_row A 0 u 0%nat j) with (u j).
    rewrite (fdet_ext n (minor (set_row A 0 u) j) (minor A j)) by reflexivity.
    rewrite (fdet_ext n (minor (set_row A 0 (fun k => a * u k)) j) (minor A j)) by reflexivity. ring.
  - change (set_row A (S i) (fun k => a * u k) 0%nat j) with (A 0%nat j).
    change (set_row A (S i) u 0%nat j) with (A 0%nat j).
    rewrite !(fdet_ext n (minor (set_row A (S i) _) j) _ (fun r c Hr Hc => minor_set_row A i _ j n r c Hr Hc)).
    rewrite (IH (minor A j) i a (fun c => u (skip j c))) by lia. ring.
Qed.

Lemma bsum_cancel n (f : nat -> nat -> R) :
  (forall j l, (j <= l)%nat -> (l < n)%nat -> f (S l) j = - f j l) ->
  bsum (S n) (fun j => bsum n (fun l => f j l)) = 0.
Proof.
  induction n as [|n IH]; intros H; [simpl; lra|].
  cbn [bsum].
  change (bsum n (fun j => bsum n (fun l => f j l) + f j n) + (bsum n (fun k => f n k) + f n n))
    with (bsum (S n) (fun j => bsum n (fun l => f j l) + f j n)).
  rewrite bsum_plus, IH by (intros; apply H; lia).
  change (bsum n (fun l => f (S n) l) + f (S n) n) with (bsum (S n) (fun l => f (S n) l)).
  rewrite Rplus_0_l, <- bsum_plus. apply bsum_all_zero. intros j Hj. rewrite (H j n) by lia. lra.
Qed.

Lemma skip_skip j l c : (j <= l)%nat -> skip (S l) (skip j c) = skip j (skip l c).
Proof.
  intros H. unfold skip.
  destruct (Nat.ltb_spec c j), (Nat.ltb_spec c l); try lia.
  - destruct (Nat.ltb_spec c (S l)), (Nat.ltb_spec c j); lia.
  - destruct (Nat.ltb_spec (S c) (S l)), (Nat.ltb_spec c j); lia.
  - destruct (Nat.ltb_spec (S c) (S l)), (Nat.ltb_spec (S c) j); lia.
Qed.

Lemma fdet_first_two n A : (forall k, (k < S (S n))%nat -> A 0%nat k = A 1%nat k) -> fdet (S (S n)) A = 0.
Proof.
  intros H. change (fdet (S (S n)) A) with (bsum (S (S n)) (fun j => (-1) ^ j * A 0%nat j * fdet (S n) (minor A j))).
  rewrite (bsum_ext _ _ (fun j => bsum (S n) (fun l =>
     (-1) ^ j * A 0%nat j * ((-1) ^ l * A 1%nat (skip j l) * fdet n (minor (minor A j) l)))))
    by (intros j Hj; cbn [fdet]; now rewrite <- bsum_scal).
  apply bsum_cancel. intros j l Hjl Hl.
  rewrite (fdet_ext n (minor (minor A (S l)) j) (minor (minor A j) l)).
  - replace (skip (S l) j) with j by (unfold skip; destruct (Nat.ltb_spec j (S l)); lia).
    replace (skip j l) with (S l) by (unfold skip; destruct (Nat.ltb_spec l j); lia).
    rewrite <- !H by lia. simpl pow. ring.
  - intros r c _ _. rewrite !minor_skip. f_equal. now apply skip_skip.
Qed.

(** Antisymmetry from the vanishing on equal rows. *)
Definition swap_rows (A : fmat) (i j : nat) : fmat :=
  fun r => if (r =? i)%nat then A j else if (r =? j)%nat then A i else A r.
Lemma vf_swap N p D A i j : volume_form N p D -> (i < N)%nat -> (j < N)%nat -> i <> j ->
  D (swap_rows A i j) = - D A.
Proof.
  intros V Hi Hj Ne.
  set (w := fun u v => set_row (set_row A i u) j v).
  assert (Z : forall u, D (w u u) = 0).
  { intros u. apply (vf_alt N p D V _ i j Hi Hj Ne). intros k _. unfold w, set_row.
    rewrite Nat.eqb_refl. destruct (Nat.eqb_spec i j); [easy|]. now rewrite Nat.eqb_refl. }
  assert (X : forall u v x y, (forall k, (k < p)%nat -> u k = x k /\ v k = y k) -> D (w u v) = D (w x y)).
  { intros u v x y H. apply (vf_ext N p D V). intros r k _ Hk. unfold w, set_row.
    destruct (r =? j)%nat; [now apply H|]. destruct (r =? i)%nat; [now apply H|easy]. }
  assert (AR : forall u x y, D (w u (fun k => x k + y k)) = D (w u x) + D (w u y)).
  { intros. unfold w. now apply (vf_add N p D V). }
  assert (CM : forall u v, D (w u v) = D (set_row (set_row A j v) i u)).
  { intros. apply (vf_ext N p D V). intros r k _ _. unfold w, set_row.
    destruct (Nat.eqb_spec r j), (Nat.eqb_spec r i); congruence. }
  assert (AL : forall x y v, D (w (fun k => x k + y k) v) = D (w x v) + D (w y v)).
  { intros. rewrite !CM. now apply (vf_add N p D V). }
  pose proof (Z (fun k => A i k + A j k)) as E. rewrite AL, !AR, !Z in E.
  replace (D A) with (D (w (A i) (A j))).
  - replace (D (swap_rows A i j)) with (D (w (A j) (A i))); [lra|].
    apply (vf_ext N p D V). intros r k _ _. unfold w, set_row, swap_rows.
    destruct (Nat.eqb_spec r j), (Nat.eqb_spec r i); congruence.
  - apply (vf_ext N p D V). intros r k _ _. unfold w, set_row.
    destruct (Nat.eqb_spec r j), (Nat.eqb_spec r i); congruence.
Qed.

Theorem fdet_volume_form n : volume_form n n (fdet n).
Proof.
  induction n as [|n IH].
  - constructor; intros; try lia. reflexivity.
  - assert (ALT : forall A i j, (i < n)%nat -> (j < n)%nat -> i <> j ->
      (forall k, (k < S n)%nat -> A (S i) k = A (S j) k) -> fdet (S n) A = 0).
    { intros A i j Hi Hj Ne H. rewrite fdet_S. apply bsum_all_zero. intros l Hl.
      rewrite (vf_alt n n (fdet n) IH (minor A l) i j) by
        (try assumption; intros k Hk; rewrite !minor_skip; apply H; unfold skip; destruct (k <? l)%nat; lia). ring. }
    assert (ALT0 : forall A j, (j < n)%nat -> (forall k, (k < S n)%nat -> A 0%nat k = A (S j) k) -> fdet (S n) A = 0).
    { intros A j Hj H. destruct j as [|j]; [destruct n; [lia|]; now apply fdet_first_two|].
      destruct n as [|n]; [lia|].
      assert (E : fdet (S (S n)) (swap_rows A 1 (S (S j))) = - fdet (S (S n)) A).
      { rewrite (fdet_S (S n) A), (fdet_S (S n) (swap_rows _ _ _)), <- bsum_opp. apply bsum_ext. intros l Hl.
        change (swap_rows A 1 (S (S j)) 0%nat l) with (A 0%nat l).
        rewrite (vf_ext _ _ _ IH (minor (swap_rows A 1 (S (S j))) l) (swap_rows (minor A l) 0 (S j))).
        - rewrite (vf_swap _ _ _ (minor A l) 0 (S j) IH) by lia. ring.
        - intros r c _ _. rewrite minor_skip. unfold swap_rows.
          destruct r as [|r]; [reflexivity|]. change (S (S r) =? 1)%nat with false. change (S r =? 0)%nat with false.
          cbn iota. change (S (S r) =? S (S j))%nat with (S r =? S j)%nat.
          destruct (S r =? S j)%nat; reflexivity. }
      assert (Z : fdet (S (S n)) (swap_rows A 1 (S (S j))) = 0).
      { apply fdet_first_two. intros k Hk. change (swap_rows A 1 (S (S j)) 0%nat k) with (A 0%nat k).
        change (swap_rows A 1 (S (S j)) 1%nat k) with (A (S (S j)) k). now apply H. }
      lra. }
    constructor.
    + intros A B H. now apply fdet_ext.
    + intros. now apply fdet_add.
    + intros. now apply fdet_row_scale.
    + intros A i j Hi Hj Ne H. destruct i as [|i], j as [|j]; [easy| | |].
      * apply (ALT0 A j); [lia|easy].
      * apply (ALT0 A i); [lia|]. intros k Hk. symmetry. now apply H.
      * apply (ALT A i j); [lia|lia|lia|easy].
Qed.

(** Adding multiples of row [i] to the other rows. *)
Lemma vf_elim N p D A i c : volume_form N p D -> (i < N)%nat ->
  D (fun r k => if (r =? i)%nat then A i k else A r k + c r * A i k) = D A.
Proof.
  intros V Hi.
  set (F := fun m => (fun r k => if (r =? i)%nat then A i k
                                 else if (r <? m)%nat then A r k + c r * A i k else A r k) : fmat).
  assert (E : forall m, (m <= N)%nat -> D (F m) = D A).
  { induction m as [|m IH]; intros Hm.
    - apply (vf_ext N p D V). intros r k _ _. unfold F.
      destruct (Nat.eqb_spec r i) as [->|]; [easy|]. now destruct (Nat.ltb_spec r 0); [lia|].
    - rewrite <- IH by lia. destruct (Nat.eq_dec m i) as [->|Ne].
      + apply (vf_ext N p D V). intros r k _ _. unfold F. destruct (Nat.eqb_spec r i); [easy|].
        destruct (Nat.ltb_spec r i), (Nat.ltb_spec r (S i)); try lia; easy.
      + rewrite (vf_ext N p D V (F (S m)) (set_row (F m) m (fun k => A m k + c m * A i k))).
        * rewrite (vf_add N p D V _ m (A m) (fun k => c m * A i k)), (vf_scale N p D V _ m (c m) (A i)) by lia.
          rewrite (vf_alt N p D V (set_row (F m) m (A i)) m i).
          -- rewrite Rmult_0_r, Rplus_0_r. apply (vf_ext N p D V). intros r k _ _. unfold set_row, F.
             destruct (Nat.eqb_spec r m) as [->|]; [|easy]. destruct (Nat.eqb_spec m i); [easy|].
             destruct (Nat.ltb_spec m m); [lia|easy].
          -- lia. -- easy. -- easy.
          -- intros k _. unfold set_row, F. rewrite Nat.eqb_refl.
             destruct (Nat.eqb_spec i m); [easy|]. now rewrite Nat.eqb_refl.
        * intros r k _ _. unfold set_row, F. destruct (Nat.eqb_spec r m) as [->|].
          -- destruct (Nat.eqb_spec m i); [easy|]. destruct (Nat.ltb_spec m (S m)); [easy|lia].
          -- destruct (Nat.eqb_spec r i); [easy|].
             destruct (Nat.ltb_spec r (S m)), (Nat.ltb_spec r m); try lia; easy. }
  rewrite <- (E N) by lia. apply (vf_ext N p D V). intros r k Hr _. unfold F.
  destruct (Nat.eqb_spec r i); [easy|]. destruct (Nat.ltb_spec r N); [easy|lia].
Qed.

(** * Uniqueness *)

Definition fid : fmat := fun r c => if (r =? c)%nat then 1 else 0.
Definition unskip (j c : nat) : nat := if (c <? j)%nat then c else pred c.
Definition insert_unit (j : nat) (M : fmat) : fmat :=
  fun r c => match r with O => fid j c | S r => if (c =? j)%nat then 0 else M r (unskip j c) end.

Lemma bsum_fid n k f : (k < n)%nat -> bsum n (fun j => f j * fid j k) = f k.
Proof.
  intros Hk. transitivity (bsum n (fun i => if (i =? k)%nat then f k else 0)).
  - apply bsum_ext. intros i Hi. unfold fid. destruct (Nat.eqb_spec i k) as [->|]; lra.
  - now apply bsum_single.
Qed.
Lemma bsum_fid_l n k f : (k < n)%nat -> bsum n (fun j => fid k j * f j) = f k.
Proof.
  intros Hk. transitivity (bsum n (fun i => if (i =? k)%nat then f k else 0)).
  - apply bsum_ext. intros i Hi. unfold fid. rewrite Nat.eqb_sym. destruct (Nat.eqb_spec i k) as [->|]; lra.
  - now apply bsum_single.
Qed.

Lemma insert_volume_form n D j : (j < S n)%nat -> volume_form (S n) (S n) D ->
  volume_form n n (fun M => D (insert_unit j M)).
Proof.
  intros Hj V.
  assert (US : forall k, (k < S n)%nat -> k <> j -> (unskip j k < n)%nat).
  { intros k Hk Ne. unfold unskip. destruct (Nat.ltb_spec k j); lia. }
  assert (SR : forall A i u, D (insert_unit j (set_row A i u))
     = D (set_row (insert_unit j A) (S i) (fun k => if (k =? j)%nat then 0 else u (unskip j k)))).
  { intros A i u. apply (vf_ext _ _ _ V). intros r k _ _. unfold set_row. destruct r as [|r]; [reflexivity|].
    cbn [insert_unit]. change (S r =? S i)%nat with (r =? i)%nat. now destruct (r =? i)%nat. }
  constructor.
  - intros A B H. apply (vf_ext _ _ _ V). intros [|r] k Hr Hk; [reflexivity|]. cbn [insert_unit].
    destruct (Nat.eqb_spec k j); [easy|]. apply H; [lia|now apply US].
  - intros A i u v Hi. rewrite !SR, <- (vf_add _ _ _ V) by lia. apply (vf_ext _ _ _ V). intros r k _ _.
    unfold set_row. destruct (r =? S i)%nat; [|easy]. destruct (k =? j)%nat; lra.
  - intros A i a u Hi. rewrite !SR, <- (vf_scale _ _ _ V) by lia. apply (vf_ext _ _ _ V). intros r k _ _.
    unfold set_row. destruct (r =? S i)%nat; [|easy]. destruct (k =? j)%nat; lra.
  - intros A i l Hi Hl Ne H. apply (vf_alt _ _ _ V _ (S i) (S l)); try lia. intros k Hk. cbn [insert_unit].
    destruct (Nat.eqb_spec k j); [easy|]. apply H. now apply US.
Qed.

Ltac nat_cases := repeat match goal with
  | |- context [(?a <? ?b)%nat] => destruct (Nat.ltb_spec a b); try lia
  | |- context [(?a =? ?b)%nat] => destruct (Nat.eqb_spec a b); try lia
  end; try lia; try lra.
Lemma insert_fid n D j : (j < S n)%nat -> volume_form (S n) (S n) D ->
  D (insert_unit j fid) = (-1) ^ j * D fid.
Proof.
  intros Hj V. induction j as [|j IH].
  - rewrite Rmult_1_l. apply (vf_ext _ _ _ V). intros [|r] k _ _; [reflexivity|]. cbn [insert_unit].
    destruct (Nat.eqb_spec k 0) as [->|]; [reflexivity|]. unfold fid, unskip. destruct k; [easy|]. reflexivity.
  - replace ((-1) ^ S j * D fid) with (- ((-1) ^ j * D fid)) by (simpl; ring). rewrite <- IH by lia.
    rewrite <- (vf_swap _ _ _ (insert_unit j fid) 0 (S j) V) by lia. apply (vf_ext _ _ _ V).
    intros r k _ _. unfold swap_rows. destruct r as [|r].
    + change (0 =? 0)%nat with true. cbn iota. cbn [insert_unit]. unfold fid, unskip. nat_cases.
    + change (S r =? 0)%nat with false. cbn iota. change (S r =? S j)%nat with (r =? j)%nat.
      destruct (Nat.eqb_spec r j) as [->|]; cbn [insert_unit]; unfold fid, unskip; nat_cases.
Qed.

Theorem volume_form_unique n : forall D A, volume_form n n D -> D A = D fid * fdet n A.
Proof.
  induction n as [|n IH]; intros D A V.
  - simpl. rewrite Rmult_1_r. apply (vf_ext _ _ _ V). intros; lia.
  - rewrite fdet_S, <- bsum_scal.
    rewrite (vf_ext _ _ _ V A (set_row A 0 (fun k => bsum (S n) (fun j => A 0%nat j * fid j k)))).
    2:{ intros r k _ Hk. unfold set_row. destruct (Nat.eqb_spec r 0) as [->|]; [|easy]. now rewrite bsum_fid. }
    rewrite (vf_bsum _ _ _ _ _ _ _ _ V) by lia. apply bsum_ext. intros j Hj.
    assert (E : D (set_row A 0 (fid j)) = D (insert_unit j (minor A j))).
    { rewrite <- (vf_elim _ _ _ (set_row A 0 (fid j)) 0 (fun r => - A r j) V) by lia.
      apply (vf_ext _ _ _ V). intros [|r] k _ Hk; [reflexivity|]. change (S r =? 0)%nat with false. cbn iota.
      change (set_row A 0 (fid j) (S r) k) with (A (S r) k). change (set_row A 0 (fid j) 0%nat k) with (fid j k).
      cbn [insert_unit]. unfold fid. rewrite Nat.eqb_sym. destruct (Nat.eqb_spec k j) as [->|Ne]; [lra|].
      rewrite minor_skip. replace (skip j (unskip j k)) with k; [lra|]. unfold skip, unskip.
      destruct (Nat.ltb_spec k j); [destruct (Nat.ltb_spec k j)|destruct (Nat.ltb_spec (pred k) j)]; lia. }
    rewrite E, (IH (fun M => D (insert_unit j M)) (minor A j) (insert_volume_form n D j Hj V)).
    cbv beta. rewrite (insert_fid n D j Hj V). ring.
Qed.

Lemma fdet_fid n : fdet n fid = 1.
Proof.
  induction n as [|n IH]; [reflexivity|]. rewrite fdet_S, bsum_shift.
  rewrite (bsum_all_zero n) by (intros i Hi; change (fid 0 (S i)) with 0; ring).
  rewrite (fdet_ext n (minor fid 0) fid) by reflexivity. rewrite IH. unfold fid. simpl. lra.
Qed.

(** * Products *)

Definition fprod (n : nat) (A B : fmat) : fmat := fun r c => bsum n (fun k => A r k * B k c).
Theorem fdet_product n A B : fdet n (fprod n A B) = fdet n A * fdet n B.
Proof.
  assert (V : volume_form n n (fun A => fdet n (fprod n A B))).
  { pose proof (fdet_volume_form n) as V.
    assert (SR : forall A i u, fdet n (fprod n (set_row A i u) B)
       = fdet n (set_row (fprod n A B) i (fun c => bsum n (fun k => u k * B k c)))).
    { intros A0 i u. apply fdet_ext. intros r c _ _. unfold set_row, fprod. now destruct (r =? i)%nat. }
    constructor.
    - intros A0 B0 H. apply fdet_ext. intros r c Hr Hc. unfold fprod. apply bsum_ext. intros k Hk. now rewrite H.
    - intros A0 i u v Hi. rewrite !SR, <- fdet_add by easy. apply fdet_ext. intros r c _ _. unfold set_row.
      destruct (r =? i)%nat; [|easy]. rewrite <- bsum_plus. apply bsum_ext. intros. lra.
    - intros A0 i a u Hi. rewrite !SR, <- fdet_row_scale by easy. apply fdet_ext. intros r c _ _. unfold set_row.
      destruct (r =? i)%nat; [|easy]. rewrite <- bsum_scal. apply bsum_ext. intros. lra.
    - intros A0 i j Hi Hj Ne H. apply (vf_alt _ _ _ V _ i j); try easy. intros k Hk. unfold fprod.
      apply bsum_ext. intros l Hl. now rewrite H. }
  rewrite (volume_form_unique n _ A V). rewrite (fdet_ext n (fprod n fid B) B); [ring|].
  intros r c Hr Hc. unfold fprod. now apply (bsum_fid_l n r (fun k => B k c)).
Qed.

Lemma fdet_zero_column n : forall A i, (i < n)%nat -> (forall r, (r < n)%nat -> A r i = 0) -> fdet n A = 0.
Proof.
  induction n as [|n IH]; intros A i Hi H; [lia|]. rewrite fdet_S. apply bsum_all_zero. intros j Hj.
  destruct (Nat.eq_dec j i) as [->|Ne]; [rewrite H by lia; ring|].
  rewrite (IH (minor A j) (unskip j i)); [ring| |].
  - unfold unskip. destruct (Nat.ltb_spec i j); lia.
  - intros r Hr. rewrite minor_skip. replace (skip j (unskip j i)) with i; [apply H; lia|]. unfold skip, unskip.
    destruct (Nat.ltb_spec i j); [destruct (Nat.ltb_spec i j)|destruct (Nat.ltb_spec (pred i) j)]; lia.
Qed.

(** * Independence *)

Theorem fdet_rows_independent n A : fdet n A <> 0 -> rows_independent n n A.
Proof.
  intros NZ c H i Hi. pose proof (vf_replace n n (fdet n) A i c (fdet_volume_form n) Hi) as E.
  rewrite (fdet_ext n _ (set_row A i (fun k => 0 * 0))) in E.
  - rewrite (fdet_row_scale n A i 0 (fun _ => 0)) in E by easy.
    destruct (Rmult_integral (c i) (fdet n A)); [lra|easy|easy].
  - intros r k _ Hk. unfold set_row. destruct (r =? i)%nat; [|easy]. rewrite H by easy. lra.
Qed.

Theorem fdet_columns_independent n A : fdet n A <> 0 -> columns_independent n n A.
Proof.
  intros NZ w H i Hi. destruct (Req_dec (w i) 0) as [Z|W]; [easy|]. exfalso.
  set (B := (fun r c => if (c =? i)%nat then w r else fid r c) : fmat).
  assert (P : fdet n (fprod n A B) = 0).
  { apply (fdet_zero_column n _ i Hi). intros r Hr. unfold fprod, B. rewrite Nat.eqb_refl. now apply H. }
  rewrite fdet_product in P. apply Rmult_integral in P as [P|P]; [easy|].
  pose proof (fdet_volume_form n) as V.
  assert (E : fdet n B = w i * fdet n (set_row B i (fid i))).
  { rewrite <- fdet_row_scale by easy. apply fdet_ext. intros r c _ _. unfold set_row, B.
    destruct (Nat.eqb_spec r i) as [->|]; [|easy]. unfold fid.
    destruct (Nat.eqb_spec c i) as [->|]; [rewrite Nat.eqb_refl; lra|].
    destruct (Nat.eqb_spec i c); [congruence|lra]. }
  enough (E1 : fdet n (set_row B i (fid i)) = 1) by (rewrite E1 in E; lra).
  rewrite <- (vf_elim _ _ _ (set_row B i (fid i)) i (fun r => - w r) V Hi).
  rewrite <- (fdet_fid n). apply fdet_ext.
  intros r c _ _. unfold set_row, B. rewrite Nat.eqb_refl. destruct (Nat.eqb_spec r i) as [->|]; [easy|].
  unfold fid. destruct (Nat.eqb_spec c i) as [->|].
  - rewrite Nat.eqb_refl. destruct (Nat.eqb_spec r i); [easy|lra].
  - destruct (Nat.eqb_spec i c); [congruence|lra].
Qed.

(** * Positive semi-definite matrices *)

Definition quad (n : nat) (A : fmat) (x : fvec) : R := bsum n (fun i => x i * bsum n (fun j => A i j * x j)).
Definition psd (n : nat) (A : fmat) : Prop := fsymm n A /\ forall x, 0 <= quad n A x.

Lemma quad_line n A x y t : fsymm n A ->
  quad n A (fun i => x i + t * y i)
  = quad n A x + 2 * t * bsum n (fun i => y i * bsum n (fun j => A i j * x j)) + t * t * quad n A y.
Proof.
  intros S. unfold quad.
  assert (C : bsum n (fun i => x i * bsum n (fun j => A i j * y j)) = bsum n (fun i => y i * bsum n (fun j => A i j * x j))).
  { rewrite (bsum_ext n _ (fun i => bsum n (fun j => x i * A i j * y j)))
      by (intros; rewrite <- bsum_scal; apply bsum_ext; intros; ring).
    rewrite bsum_swap. apply bsum_ext. intros j Hj. rewrite <- bsum_scal. apply bsum_ext. intros i Hi.
    rewrite (S i j) by easy. ring. }
  rewrite (bsum_ext n _ (fun i => x i * bsum n (fun j => A i j * x j)
     + (t * (x i * bsum n (fun j => A i j * y j)) + (t * (y i * bsum n (fun j => A i j * x j))
     + t * t * (y i * bsum n (fun j => A i j * y j)))))).
  - rewrite !bsum_plus, !bsum_scal, C. ring.
  - intros i Hi. rewrite (bsum_ext n (fun j => A i j * (x j + t * y j)) (fun j => A i j * x j + t * (A i j * y j)))
      by (intros; ring). rewrite bsum_plus, bsum_scal. ring.
Qed.

(** A vector on which the form vanishes is in the kernel. *)
Lemma psd_kernel n A x : psd n A -> quad n A x = 0 ->
  forall i, (i < n)%nat -> bsum n (fun j => A i j * x j) = 0.
Proof.
  intros [S P] Z.
  set (y := fun i => bsum n (fun j => A i j * x j)).
  assert (Y : bsum n (fun i => y i * y i) = 0).
  { pose proof (bsum_nonneg n (fun i => y i * y i) ltac:(intros; cbv beta; nra)) as Y0.
    set (q := quad n A y). assert (Q : 0 <= q) by apply P. set (s := bsum n (fun i => y i * y i)) in *.
    assert (L : forall t, 0 <= 2 * t * s + t * t * q).
    { intros t. pose proof (P (fun i => x i + t * y i)) as H. rewrite (quad_line n A x y t S), Z in H.
      fold q in H. change (bsum n (fun i => y i * bsum n (fun j => A i j * x j))) with s in H. lra. }
    destruct (Req_dec s 0) as [|Ns]; [easy|]. exfalso. assert (0 < s) by lra.
    pose proof (L (- (s / (q + 1)))) as H1. assert (Q1 : 0 < q + 1) by lra.
    assert (D : s / (q + 1) * (q + 1) = s) by (field; lra). set (t := s / (q + 1)) in *.
    assert (T : 0 < t) by (apply Rdiv_lt_0_compat; lra). nra. }
  intros i Hi. pose proof (bsum_nonneg_zero n (fun i => y i * y i) ltac:(intros; cbv beta; nra) Y i Hi) as E.
  cbv beta in E. change (y i = 0). nra.
Qed.

Theorem psd_det n : forall A, psd n A ->
  0 <= fdet n A /\ (fdet n A = 0 -> exists x, (exists i, (i < n)%nat /\ x i <> 0) /\ quad n A x = 0).
Proof.
  induction n as [|n IH]; intros A PA; [simpl; split; [lra|intros; lra]|].
  destruct PA as [SA P].
  assert (Q0 : quad (S n) A (fid 0) = A 0%nat 0%nat).
  { unfold quad. rewrite (bsum_fid_l (S n) 0) by lia. rewrite (bsum_ext (S n) _ (fun j => fid 0 j * A 0%nat j)) by (intros; ring).
    now rewrite (bsum_fid_l (S n) 0) by lia. }
  pose proof (P (fid 0)) as A00. rewrite Q0 in A00. destruct A00 as [A00|A00].
  - set (a := A 0%nat 0%nat) in *.
    set (C := (fun i j => A (S i) (S j) - A (S i) 0%nat / a * A 0%nat (S j)) : fmat).
    assert (DE : fdet (S n) A = a * fdet n C).
    { rewrite <- (vf_elim _ _ _ A 0 (fun r => - (A r 0%nat / a)) (fdet_volume_form (S n))) by lia.
      set (E := (fun r k => if (r =? 0)%nat then A 0%nat k else A r k + - (A r 0%nat / a) * A 0%nat k) : fmat).
      rewrite fdet_S, bsum_shift. rewrite (bsum_all_zero n).
      - rewrite (fdet_ext n (minor E 0) C).
        + change (E 0%nat 0%nat) with a. simpl. ring.
        + intros r c _ _. change (A (S r) (S c) + - (A (S r) 0%nat / a) * A 0%nat (S c) = C r c). unfold C. ring.
      - intros j Hj. rewrite (fdet_zero_column n (minor E (S j)) 0); [ring|lia|].
        intros r _. change (A (S r) 0%nat + - (A (S r) 0%nat / a) * a = 0). field. lra. }
    assert (QE : forall y, quad n C y = quad (S n) A (fun i => match i with O => - (bsum n (fun j => A 0%nat (S j) * y j) / a) | S i => y i end)).
    { intros y. set (b := bsum n (fun j => A 0%nat (S j) * y j)). set (q := bsum n (fun i => y i * bsum n (fun j => A (S i) (S j) * y j))).
      transitivity (q - b * b / a).
      - unfold quad, C. rewrite (bsum_ext n _ (fun i => y i * bsum n (fun j => A (S i) (S j) * y j) - (A 0%nat (S i) * y i) * (b / a))).
        + rewrite bsum_minus, bsum_scal_r. fold q b. field. lra.
        + intros i Hi. rewrite (bsum_ext n _ (fun j => A (S i) (S j) * y j - A (S i) 0%nat / a * (A 0%nat (S j) * y j))) by (intros; ring).
          rewrite bsum_minus, bsum_scal. fold b. rewrite (SA (S i) 0%nat) by lia. field. lra.
      - unfold quad. rewrite bsum_shift, bsum_shift. fold b a.
        rewrite (bsum_ext n _ (fun i => y i * bsum n (fun j => A (S i) (S j) * y j) + (A 0%nat (S i) * y i) * - (b / a))).
        + rewrite bsum_plus, bsum_scal_r. fold q b. field. lra.
        + intros i Hi. rewrite bsum_shift. rewrite (SA (S i) 0%nat) by lia. ring. }
    assert (PC : psd n C).
    { split.
      - intros i j Hi Hj. unfold C. rewrite (SA (S i) (S j)), (SA (S i) 0%nat), (SA (S j) 0%nat) by lia. field. lra.
      - intros y. rewrite QE. apply P. }
    destruct (IH C PC) as [I1 I2]. rewrite DE. split; [nra|]. intros Z.
    apply Rmult_integral in Z as [Z|Z]; [lra|]. destruct (I2 Z) as (y & (i & Hi & Ny) & Qy).
    eexists. split; [|rewrite QE in Qy; exact Qy]. exists (S i). split; [lia|exact Ny].
  - assert (Z : fdet (S n) A = 0).
    { rewrite fdet_S. apply bsum_all_zero. intros j Hj.
      pose proof (psd_kernel (S n) A (fid 0) (conj SA P) ltac:(congruence) j Hj) as K.
      rewrite (bsum_ext (S n) _ (fun k => fid 0 k * A j k)) in K by (intros; ring).
      rewrite (bsum_fid_l (S n) 0) in K by lia. rewrite (SA 0%nat j), K by lia. ring. }
    rewrite Z. split; [lra|]. intros _. exists (fid 0). split; [|congruence].
    exists 0%nat. split; [lia|]. unfold fid. simpl. lra.
Qed.

(** * Monotonicity *)

Definition schur (A : fmat) : fmat :=
  fun i j => A (S i) (S j) - A (S i) 0%nat / A 0%nat 0%nat * A 0%nat (S j).
Definition fcons (a : R) (y : fvec) : fvec := fun i => match i with O => a | S i => y i end.

Lemma schur_det n A : A 0%nat 0%nat <> 0 -> fdet (S n) A = A 0%nat 0%nat * fdet n (schur A).
Proof.
  intros NZ. set (a := A 0%nat 0%nat) in *.
  rewrite <- (vf_elim _ _ _ A 0 (fun r => - (A r 0%nat / a)) (fdet_volume_form (S n))) by lia.
  set (E := (fun r k => if (r =? 0)%nat then A 0%nat k else A r k + - (A r 0%nat / a) * A 0%nat k) : fmat).
  rewrite fdet_S, bsum_shift. rewrite (bsum_all_zero n).
  - rewrite (fdet_ext n (minor E 0) (schur A)).
    + change (E 0%nat 0%nat) with a. simpl. ring.
    + intros r c _ _. change (A (S r) (S c) + - (A (S r) 0%nat / a) * A 0%nat (S c) = schur A r c). unfold schur. fold a. ring.
  - intros j Hj. rewrite (fdet_zero_column n (minor E (S j)) 0); [ring|lia|].
    intros r _. change (A (S r) 0%nat + - (A (S r) 0%nat / a) * a = 0). now field.
Qed.
Lemma schur_quad n A x0 y : fsymm (S n) A -> A 0%nat 0%nat <> 0 ->
  let s := x0 + bsum n (fun j => A 0%nat (S j) * y j) / A 0%nat 0%nat in
  quad (S n) A (fcons x0 y) = A 0%nat 0%nat * (s * s) + quad n (schur A) y.
Proof.
  intros SA NZ. set (a := A 0%nat 0%nat) in *. set (b := bsum n (fun j => A 0%nat (S j) * y j)). intros s.
  set (q := bsum n (fun i => y i * bsum n (fun j => A (S i) (S j) * y j))).
  assert (E : quad n (schur A) y = q - b * b / a).
  { unfold quad, schur. rewrite (bsum_ext n _ (fun i => y i * bsum n (fun j => A (S i) (S j) * y j) - (A 0%nat (S i) * y i) * (b / a))).
    - rewrite bsum_minus, bsum_scal_r. fold q b. now field.
    - intros i Hi. rewrite (bsum_ext n _ (fun j => A (S i) (S j) * y j - A (S i) 0%nat / a * (A 0%nat (S j) * y j))) by (intros; unfold a; ring).
      rewrite bsum_minus, bsum_scal. fold b. rewrite (SA (S i) 0%nat) by lia. now field. }
  rewrite E. unfold quad. rewrite bsum_shift, bsum_shift. cbn [fcons]. fold b a.
  rewrite (bsum_ext n _ (fun i => y i * bsum n (fun j => A (S i) (S j) * y j) + (A 0%nat (S i) * y i) * x0)).
  - rewrite bsum_plus, bsum_scal_r. fold q b. unfold s. now field.
  - intros i Hi. rewrite bsum_shift. cbn [fcons]. rewrite (SA (S i) 0%nat) by lia. ring.
Qed.

Theorem psd_det_monotone n : forall A B, psd n A -> fsymm n B ->
  (forall x, quad n A x <= quad n B x) -> fdet n A <= fdet n B.
Proof.
  induction n as [|n IH]; intros A B PA SB LE; [simpl; lra|].
  assert (PB : psd (S n) B) by (split; [easy|]; intros x; eapply Rle_trans; [apply PA|apply LE]).
  assert (Q0 : forall M, quad (S n) M (fid 0) = M 0%nat 0%nat).
  { intros M. unfold quad. rewrite (bsum_fid_l (S n) 0) by lia. rewrite (bsum_ext (S n) _ (fun j => fid 0 j * M 0%nat j)) by (intros; ring).
    now rewrite (bsum_fid_l (S n) 0) by lia. }
  pose proof (proj2 PA (fid 0)) as A00. pose proof (LE (fid 0)) as AB. rewrite Q0 in A00. rewrite !Q0 in AB.
  destruct A00 as [A00|A00].
  - rewrite (schur_det n A), (schur_det n B) by lra. destruct PA as [SA PA], PB as [_ PB].
    assert (SC : forall M, fsymm (S n) M -> M 0%nat 0%nat <> 0 -> fsymm n (schur M)).
    { intros M SM NZ i j Hi Hj. unfold schur. rewrite (SM (S i) (S j)), (SM (S i) 0%nat), (SM (S j) 0%nat) by lia. now field. }
    set (mn := fun (M : fmat) y => fcons (- (bsum n (fun j => M 0%nat (S j) * y j) / M 0%nat 0%nat)) y).
    assert (MN : forall M y, fsymm (S n) M -> M 0%nat 0%nat <> 0 -> quad (S n) M (mn M y) = quad n (schur M) y).
    { intros M y SM NZ. unfold mn. rewrite (schur_quad n M _ y SM NZ). field. easy. }
    assert (PC : psd n (schur A)).
    { split; [apply SC; [easy|lra]|]. intros y. rewrite <- MN by (easy || lra). apply PA. }
    assert (L : fdet n (schur A) <= fdet n (schur B)).
    { apply IH; [easy|apply SC; [easy|lra]|]. intros y. rewrite <- (MN B y) by (easy || lra).
      eapply Rle_trans; [|apply LE]. 
      pose proof (schur_quad n A (- (bsum n (fun j => B 0%nat (S j) * y j) / B 0%nat 0%nat)) y SA ltac:(lra)) as E.
      cbv zeta in E. fold (mn B y) in E. rewrite E.
      set (s := - (_ / _) + _ / _). pose proof (Rle_0_sqr s). unfold Rsqr in *. nra. }
    destruct (psd_det n _ PC) as [N _]. nra.
  - assert (Z : fdet (S n) A = 0).
    { destruct PA as [SA PA]. rewrite fdet_S. apply bsum_all_zero. intros j Hj.
      pose proof (psd_kernel (S n) A (fid 0) (conj SA PA) (eq_trans (Q0 A) (eq_sym A00)) j Hj) as K.
      rewrite (bsum_ext (S n) _ (fun k => fid 0 k * A j k)) in K by (intros; ring).
      rewrite (bsum_fid_l (S n) 0) in K by lia. rewrite (SA 0%nat j), K by lia. ring. }
    rewrite Z. now apply psd_det.
Qed.
