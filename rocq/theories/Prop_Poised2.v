(** C131 with three parameters: the volume collapses. *)
From Coq Require Import Reals List Arith ZArith Bool Lia Lra Psatz.
From Verif Require Import Base XR Vec FVec FitModel SubproblemModel PoisednessModel Prop_Fit Prop_Poised
  GeometryModel DetProofs.
Import ListNotations.
Open Scope R_scope.

(** * An inverse is a pseudo inverse *)

Lemma inverse_pinv n B C : (forall i j, (i < n)%nat -> (j < n)%nat -> fprod n B C i j = fid i j) ->
  pinv_correct n n B (fun a b => bsum n (fun j => C a j * C b j)).
Proof.
  intros H. split.
  - intros i j _ _. apply bsum_ext. intros. lra.
  - intros a d Ha Hd. unfold gram.
    transitivity (bsum n (fun r => B r a * bsum n (fun j => fprod n B C r j * bsum n (fun s => fprod n B C s j * B s d)))).
    + transitivity (bsum n (fun b => bsum n (fun c => bsum n (fun r => bsum n (fun j => bsum n (fun s =>
        B r a * (B r b * C b j) * (B s c * C c j) * B s d)))))).
      { apply bsum_ext. intros b _. apply bsum_ext. intros c _.
        rewrite Rmult_assoc, <- bsum_scal_r. apply bsum_ext. intros r _.
        rewrite (Rmult_comm (bsum n (fun j => C b j * C c j))), <- Rmult_assoc, <- bsum_scal.
        apply bsum_ext. intros j _. rewrite <- (bsum_scal n (B r a * B r b)), <- bsum_scal_r.
        apply bsum_ext. intros s _. ring. }
      transitivity (bsum n (fun r => bsum n (fun j => bsum n (fun s => bsum n (fun b => bsum n (fun c =>
        B r a * (B r b * C b j) * (B s c * C c j) * B s d)))))).
      { transitivity (bsum n (fun b => bsum n (fun r => bsum n (fun j => bsum n (fun s => bsum n (fun c =>
          B r a * (B r b * C b j) * (B s c * C c j) * B s d)))))).
        - apply bsum_ext. intros b _. rewrite bsum_swap. apply bsum_ext. intros r _.
          rewrite bsum_swap. apply bsum_ext. intros j _. apply bsum_swap.
        - rewrite bsum_swap. apply bsum_ext. intros r _. rewrite bsum_swap. apply bsum_ext. intros j _.
          apply bsum_swap. }
      apply bsum_ext. intros r _. rewrite <- bsum_scal. apply bsum_ext. intros j _.
      rewrite <- !bsum_scal. apply bsum_ext. intros s _. unfold fprod.
      transitivity (bsum n (fun b => B r a * (B r b * C b j) * (bsum n (fun c => B s c * C c j) * B s d))).
      { apply bsum_ext. intros b _. rewrite <- bsum_scal_r, <- bsum_scal. apply bsum_ext. intros c _. ring. }
      rewrite <- (bsum_scal_r n (bsum n (fun k => B s k * C k j) * B s d)), <- bsum_scal.
      apply bsum_ext. intros b _. ring.
    + apply bsum_ext. intros r Hr. f_equal.
      transitivity (bsum n (fun j => fid r j * B j d)).
      * apply bsum_ext. intros j Hj. rewrite H by easy. f_equal.
        transitivity (bsum n (fun s => B s d * fid s j)); [|exact (bsum_fid n j (fun s => B s d) Hj)].
        apply bsum_ext. intros s Hs. rewrite H by easy. lra.
      * exact (bsum_fid_l n r (fun j => B j d) Hr).
Qed.

(** * The sample *)

Definition s131 : list vec :=
  [[0; 0; 0]; [1; 0; 0]; [-1; 0; 0]; [0; 1; 0]; [0; -1; 0]; [0; 0; 1]; [0; 0; -1];
   [1; 1; 0]; [0; 1; 1]; [1 / 10; 1 / 2; 1 / 10]].
Definition c131 : list (list R) :=
  [[1; 0; 0; 0; -2; 1; -83; -2; 1; -2];
   [0; 1/2; 0; 0; 1; -1; -1/2; 0; 0; 0];
   [0; -1/2; 0; 0; 1; 0; 9/2; 0; 0; 0];
   [0; 0; 1/2; 0; 0; -1; -55/2; 1; -1; 0];
   [0; 0; -1/2; 0; 0; 0; 25/2; 1; 0; 0];
   [0; 0; 0; 1/2; 0; 0; -1/2; 0; -1; 1];
   [0; 0; 0; -1/2; 0; 0; 9/2; 0; 0; 1];
   [0; 0; 0; 0; 0; 1; -5; 0; 0; 0];
   [0; 0; 0; 0; 0; 0; -5; 0; 1; 0];
   [0; 0; 0; 0; 0; 0; 100; 0; 0; 0]].
Definition n131 : fmat := fun a j => nth a (nth j c131 []) 0.
Definition pinv131 : pinv_oracle := fun _ _ a b => bsum 10 (fun j => n131 a j * n131 b j).

Lemma features3 a b c : scaled_polynomial_features 3 (fun_of [a; b; c]) =
  [1; a; b; c; 1 / 2 * a ^ 2; a * b; a * c; 1 / 2 * b ^ 2; b * c; 1 / 2 * c ^ 2].
Proof. reflexivity. Qed.

Lemma inverse131 i j : (i < 10)%nat -> (j < 10)%nat -> fprod 10 (features_of 3 s131) n131 i j = fid i j.
Proof.
  intros Hi Hj. unfold fprod, features_of, s131.
  do 10 (destruct i as [|i]; [cbn [nth]; rewrite features3;
    do 10 (destruct j as [|j]; [unfold n131, c131, fid; cbn; lra|]); lia|]). lia.
Qed.

Lemma det131 : fdet 10 (features_of 3 s131) <> 0.
Proof.
  intros Z. pose proof (fdet_product 10 (features_of 3 s131) n131) as P. rewrite Z, Rmult_0_l in P.
  rewrite (vf_ext _ _ _ (fdet_volume_form 10) _ fid) in P; [rewrite fdet_fid in P; lra|].
  intros. now apply inverse131.
Qed.

Lemma lagrange131 i : (i < 10)%nat -> lagrange_poly pinv131 3 s131 i = nth i c131 [].
Proof.
  intros Hi. unfold lagrange_poly. change (n_basis 3) with 10%nat. change (basis_mat 3 s131) with (features_of 3 s131).
  transitivity (map (fun b => n131 b i) (seq 0 10)).
  - apply map_ext_in. intros b Hb. unfold pinv131.
    transitivity (bsum 10 (fun a => bsum 10 (fun j => features_of 3 s131 i a * n131 a j * n131 b j))).
    { apply bsum_ext. intros a _. rewrite <- bsum_scal. apply bsum_ext. intros j _. ring. }
    rewrite bsum_swap.
    transitivity (bsum 10 (fun j => fid i j * n131 b j)); [|exact (bsum_fid_l 10 i (fun j => n131 b j) Hi)].
    apply bsum_ext. intros j Hj. rewrite bsum_scal_r. f_equal. now apply inverse131.
  - do 10 (destruct i as [|i]; [reflexivity|]). lia.
Qed.

(** The polynomial that is maximized: the coefficients of x0 * x2 and x1 ^ 2 / 2 are exchanged. *)
Lemma poly_value3 c0 c1 c2 c3 c4 c5 c6 c7 c8 c9 x y z :
  poly_value 3 [c0; c1; c2; c3; c4; c5; c6; c7; c8; c9] (fun_of [x; y; z]) =
  c0 + c1 * x + c2 * y + c3 * z + 1 / 2 * c4 * x ^ 2 + c5 * (x * y) + 1 / 2 * c6 * y ^ 2 + c7 * (x * z) + c8 * (y * z)
  + 1 / 2 * c9 * z ^ 2.
Proof.
  unfold poly_value, fdot, fvm, reshape_coef_to_square_terms, assign; simpl.
  unfold fun_of; simpl. field.
Qed.

(** For each polynomial a point of the cube where its absolute value is largest, and this value. *)
Definition best131 : list (R * vec) :=
  [(93/2, [1; -1; 1]); (7/4, [1; -1; 0]); (13/4, [-1; 1; 0]); (61/4, [-1; -1; 0]); (31/4, [1; -1; 1]);
   (7/4, [0; -1; 1]); (13/4, [0; 1; -1]); (7/2, [-1; 1; 0]); (7/2, [0; 1; -1]); (50, [0; 1; 0])].
(** The absolute values of the polynomials at (2, 1, 0); they are pairwise different. *)
Definition probe131 : list R := [85/2; 3/4; 13/4; 61/4; 23/4; 1/4; 9/4; 1/2; 5/2; 50].
(** An optimizer that knows the answer for these ten polynomials and fails for all others. *)
Definition mz131 : constrained_minimizer := fun _ f _ =>
  fold_right (fun pb rest => if Req_EM_T (f [2; 1; 0]) (- fst pb) then Ok (snd pb) else rest)
    (Err ValueError) (combine probe131 (map snd best131)).

Lemma bound131 i x y z : (i < 10)%nat -> -1 <= x <= 1 -> -1 <= y <= 1 -> -1 <= z <= 1 ->
  Rabs (poly_value 3 (nth i c131 []) (fun_of [x; y; z])) <= fst (nth i best131 (0, [])).
Proof.
  intros Hi X Y Z.
  assert (0 <= (1 - x) * (1 - y)) by nra. assert (0 <= (1 - x) * (1 + y)) by nra.
  assert (0 <= (1 + x) * (1 - y)) by nra. assert (0 <= (1 + x) * (1 + y)) by nra.
  assert (0 <= (1 - z) * (1 - y)) by nra. assert (0 <= (1 - z) * (1 + y)) by nra.
  assert (0 <= (1 + z) * (1 - y)) by nra. assert (0 <= (1 + z) * (1 + y)) by nra.
  assert (0 <= (1 - x) * (1 - z)) by nra. assert (0 <= (1 - x) * (1 + z)) by nra.
  assert (0 <= (1 + x) * (1 - z)) by nra. assert (0 <= (1 + x) * (1 + z)) by nra.
  assert (0 <= x ^ 2 <= 1) by nra. assert (0 <= y ^ 2 <= 1) by nra. assert (0 <= z ^ 2 <= 1) by nra.
  do 10 (destruct i as [|i]; [unfold c131; cbn [nth best131 fst]; rewrite poly_value3; apply Rabs_le; try (split; nra)|]).
  lia.
Qed.

Lemma attained131 i : (i < 10)%nat ->
  Rabs (poly_value 3 (nth i c131 []) (fun_of (snd (nth i best131 (0, []))))) = fst (nth i best131 (0, [])) /\
  length (snd (nth i best131 (0, []))) = 3%nat /\ in_shape PCube (snd (nth i best131 (0, []))).
Proof.
  intros Hi.
  do 10 (destruct i as [|i]; [unfold c131; cbn [nth best131 fst snd]; rewrite poly_value3;
    split; [unfold Rabs; destruct (Rcase_abs _); lra|split; [reflexivity|]];
    intros a Ha; simpl in Ha; repeat (destruct Ha as [<-|Ha]; [lra|]); easy|]).
  lia.
Qed.

Lemma mz_finds131 i sh x0 : (i < 10)%nat ->
  mz131 sh (fun x => - Rabs (poly_value 3 (nth i c131 []) (fun_of x))) x0 = Ok (snd (nth i best131 (0, []))).
Proof.
  intros Hi. unfold mz131.
  assert (E : Rabs (poly_value 3 (nth i c131 []) (fun_of [2; 1; 0])) = nth i probe131 0).
  { do 10 (destruct i as [|i]; [unfold c131; cbn [nth probe131]; rewrite poly_value3;
      unfold Rabs; destruct (Rcase_abs _); lra|]). lia. }
  rewrite E. clear E.
  do 10 (destruct i as [|i]; [cbn [nth probe131 best131 map combine fold_right fst snd];
    repeat (destruct (Req_EM_T _ _) as [Q|Q]; [try reflexivity; exfalso; lra|try (exfalso; apply Q; reflexivity); clear Q])|]).
  lia.
Qed.

Lemma loop131 polys idx best : fst best < 50 ->
  (forall p, In p polys -> exists x,
     mz131 PCube (eval_neg_absolute_value 3 p) (repeat 0 3) = Ok x /\ eval_absolute_value 3 p x < 50) ->
  poisedness_loop mz131 3 PCube (polys ++ [nth 9 c131 []]) idx best
  = Ok (50, Some ([0; 1; 0], (idx + length polys)%nat)).
Proof.
  revert idx best. induction polys as [|p l IH]; intros idx best Hb H.
  - cbn [app poisedness_loop].
    replace (mz131 PCube (eval_neg_absolute_value 3 (nth 9 c131 [])) (repeat 0 3)) with (Ok [0; 1; 0])
      by (symmetry; exact (mz_finds131 9 PCube _ ltac:(lia))).
    cbn [bind]. unfold eval_absolute_value.
    replace (Rabs (poly_value 3 (nth 9 c131 []) (fun_of [0; 1; 0]))) with 50
      by (symmetry; exact (proj1 (attained131 9 ltac:(lia)))).
    rewrite (proj2 (Rltb_true _ _) Hb). now rewrite Nat.add_0_r.
  - destruct (H p (or_introl eq_refl)) as (x & E & V). cbn [app poisedness_loop]. rewrite E. cbn [bind].
    rewrite IH.
    + cbn [length]. now rewrite Nat.add_succ_comm.
    + destruct (Rltb _ _); easy.
    + intros q Hq. apply H. now right.
Qed.

Lemma polys131 : map (lagrange_poly pinv131 3 s131) (seq 0 10) = firstn 9 c131 ++ [nth 9 c131 []].
Proof.
  transitivity (map (fun i => nth i c131 []) (seq 0 10)); [|reflexivity].
  apply map_ext_in. intros i Hi. apply in_seq in Hi. apply lagrange131. lia.
Qed.

(** C131 - with three parameters the volume can collapse: for a sample in the cube with a non-zero feature
    determinant, an exact pseudo inverse and an optimizer that maximizes each of the ten polynomials
    exactly, one iteration reports the constant 50 and replaces the last point by a point that
    is already in the sample, so that the determinant becomes zero. *)
Theorem C131_volume_refuted :
  exists pinv mz sample sh s',
    length sample = n_basis 3 /\
    fdet (n_basis 3) (features_of 3 sample) <> 0 /\
    pinv_correct_at pinv 3 sample /\
    (forall y, In y sample -> length y = 3%nat /\ in_shape sh y) /\
    (forall i, (i < length sample)%nat -> exists x,
       mz sh (fun x => - Rabs (poly_value 3 (lagrange_poly pinv 3 sample i) (fun_of x))) (repeat 0 3) = Ok x /\
       length x = 3%nat /\ in_shape sh x /\
       forall y, length y = 3%nat -> in_shape sh y ->
         Rabs (poly_value 3 (lagrange_poly pinv 3 sample i) (fun_of y))
         <= Rabs (poly_value 3 (lagrange_poly pinv 3 sample i) (fun_of x))) /\
    improve_poisedness pinv mz 3 sample sh 1 = Ok (s', [50]) /\
    fdet (n_basis 3) (features_of 3 s') = 0.
Proof.
  exists pinv131, mz131, s131, PCube, (set_point s131 9 [0; 1; 0]).
  change (n_basis 3) with 10%nat. split; [reflexivity|]. split; [exact det131|].
  split; [|split; [|split; [|split]]].
  - unfold pinv_correct_at. exact (inverse_pinv 10 _ _ inverse131).
  - intros y Hy. split.
    + simpl in Hy. repeat (destruct Hy as [<-|Hy]; [reflexivity|]); easy.
    + intros a Ha. simpl in Hy. repeat (destruct Hy as [<-|Hy];
        [simpl in Ha; repeat (destruct Ha as [<-|Ha]; [lra|]); easy|]); easy.
  - intros i Hi. change (length s131) with 10%nat in Hi. rewrite lagrange131 by easy.
    exists (snd (nth i best131 (0, []))). split; [now apply mz_finds131|].
    destruct (attained131 i Hi) as (V & L & I). split; [exact L|]. split; [exact I|].
    intros y Ly Iy. rewrite V. destruct y as [|a [|b [|c [|]]]]; try discriminate.
    apply bound131; try easy; apply Iy; simpl; tauto.
  - cbn [improve_poisedness]. unfold get_poisedness_constant. cbn [bind].
    change (length s131) with 10%nat. rewrite polys131, loop131.
    + reflexivity.
    + simpl. lra.
    + intros p Hp. apply (In_nth _ _ []) in Hp as (i & Hi & <-). change (length (firstn 9 c131)) with 9%nat in Hi.
      assert (E : nth i (firstn 9 c131) [] = nth i c131 []).
      { do 9 (destruct i as [|i]; [reflexivity|]). lia. }
      rewrite E. exists (snd (nth i best131 (0, []))). split; [apply (mz_finds131 i); lia|].
      unfold eval_absolute_value. rewrite (proj1 (attained131 i ltac:(lia))).
      do 9 (destruct i as [|i]; [simpl; lra|]). lia.
  - apply (vf_alt _ _ _ (fdet_volume_form 10) _ 3 9); try lia. intros k _. reflexivity.
Qed.
