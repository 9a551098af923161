(** Properties C177 and C178: criteria that the models can represent. *)
From Coq Require Import Reals List Arith ZArith Bool Lia Lra Psatz.
From Verif Require Import Base XR Vec FVec HistoryModel HistorySpec HistoryProofs LogSpec LogProofs WrapModel VolumeModel
  RegionModel Prop_Region ModelsModel Prop_Models FitModel Prop_Fit Prop_Poised SubproblemModel Prop_Subproblem SampleModel AcceptModel
  AcceptProofs Prop_Accept AdjustModel MainModel MainProofs MainPhases MainLoop Prop_Main Prop_Main2 Prop_Main3 Prop_Main4 Prop_Step
  BuiltinModel GqtparModel Prop_Gqtpar2 Prop_Builtin Prop_Builtin2 LstsqProofs Prop_Reject.
Import ListNotations.
Open Scope R_scope.

(** * Polynomials *)

(** A polynomial of degree one or two: a linear combination of 1, the coordinates and (for
    quadratic models) their products. *)
Definition polynomial (n : nat) (t : model_type) (q : fvec -> R) : Prop :=
  exists coef, length coef = n_free_params n t /\ forall x, q x = dot coef (feature_row n t x).

(** The sample lies on no curve of the degree of the model: a polynomial that vanishes on the
    sample vanishes everywhere. *)
Definition determining (n : nat) (t : model_type) (xs : list vec) : Prop :=
  forall q, polynomial n t q -> (forall x, In x xs -> q (fun_of x) = 0) -> forall x, q x = 0.

Lemma dot_scal_l a c v : dot (map (Rmult a) c) v = a * dot c v.
Proof. revert v. induction c as [|x c IH]; intros [|y v]; cbn [map]; rewrite ?dot_cons, ?IH; unfold dot; cbn; try lra. Qed.
Lemma dot_add_l c d v : length c = length d -> dot (map2 Rplus c d) v = dot c v + dot d v.
Proof.
  revert d v. induction c as [|x c IH]; intros [|z d] [|y v] L; try discriminate; cbn [map2]; rewrite ?dot_nil_r; [unfold dot; cbn; lra|unfold dot; cbn; lra|lra|].
  rewrite !dot_cons, IH by (injection L; auto). lra.
Qed.

Lemma poly_ext n t p q : (forall x, p x = q x) -> polynomial n t p -> polynomial n t q.
Proof. intros E (c & L & H). exists c. split; [easy|]. intros x. now rewrite <- E. Qed.
Lemma poly_scal n t a q : polynomial n t q -> polynomial n t (fun x => a * q x).
Proof.
  intros (c & L & H). exists (map (Rmult a) c). rewrite map_length. split; [easy|]. intros x.
  now rewrite dot_scal_l, H.
Qed.
Lemma poly_add n t p q : polynomial n t p -> polynomial n t q -> polynomial n t (fun x => p x + q x).
Proof.
  intros (c & L & H) (d & L' & H'). exists (map2 Rplus c d). rewrite map2_length, L, L', Nat.min_id. split; [easy|].
  intros x. rewrite dot_add_l by congruence. now rewrite H, H'.
Qed.

Lemma dot_unit k v : dot (map (fun j => if (j =? k)%nat then 1 else 0) (seq 0 (length v))) v = nth k v 0.
Proof.
  assert (G : forall a v, dot (map (fun j => if (j =? k)%nat then 1 else 0) (seq a (length v))) v =
                          if (a <=? k)%nat then nth (k - a) v 0 else 0).
  { intros a w. revert a. induction w as [|x w IH]; intros a; cbn [length seq map].
    - rewrite dot_nil_r. destruct (a <=? k)%nat; [|easy]. now destruct (k - a)%nat.
    - rewrite dot_cons, IH. destruct (Nat.leb_spec a k), (Nat.leb_spec (S a) k), (Nat.eqb_spec a k); try lia; try lra.
      + replace (k - a)%nat with (S (k - S a)) by lia. cbn [nth]. lra.
      + replace (k - a)%nat with 0%nat by lia. cbn [nth]. lra. }
  rewrite G. cbn [Nat.leb]. now rewrite Nat.sub_0_r.
Qed.
Lemma poly_feature n t k : polynomial n t (fun x => nth k (feature_row n t x) 0).
Proof.
  exists (map (fun j => if (j =? k)%nat then 1 else 0) (seq 0 (n_free_params n t))). rewrite map_length, seq_length. split; [easy|].
  intros x. rewrite <- dot_unit. now rewrite C41_free_params_match_features with (x := x).
Qed.
Lemma poly_const n t a : polynomial n t (fun _ => a).
Proof.
  apply (poly_ext n t (fun x => a * nth 0 (feature_row n t x) 0)); [intros; cbn; lra|].
  apply poly_scal, poly_feature.
Qed.
Lemma poly_coord n t i : (i < n)%nat -> polynomial n t (fun x => x i).
Proof.
  intros Hi. apply (poly_ext n t (fun x => nth (S i) (feature_row n t x) 0)); [|apply poly_feature].
  intros x. unfold feature_row, quadratic_features. cbn [nth].
  destruct t; [|rewrite app_nth1 by now rewrite map_length, seq_length];
    rewrite nth_indep with (d' := x 0%nat) by (now rewrite map_length, seq_length); now rewrite map_nth, seq_nth.
Qed.
Lemma poly_prod n i j : In (i, j) (quad_pairs n) -> polynomial n Quadratic (fun x => x i * x j).
Proof.
  intros H. apply In_nth_error in H as [k Hk].
  apply (poly_ext n Quadratic (fun x => nth (S (n + k)) (feature_row n Quadratic x) 0)); [|apply poly_feature].
  intros x. unfold feature_row, quadratic_features. cbn [nth].
  rewrite app_nth2, map_length, seq_length by (rewrite map_length, seq_length; lia).
  replace (n + k - n)%nat with k by lia.
  apply nth_error_nth. rewrite nth_error_map, Hk. reflexivity.
Qed.

Lemma poly_features n t (fs : list (fvec -> R)) coef : Forall (polynomial n t) fs ->
  polynomial n t (fun u => dot coef (map (fun f => f u) fs)).
Proof.
  intros F. revert coef. induction F as [|f fs Hf F IH]; intros coef.
  - apply (poly_ext n t (fun _ => 0)); [|apply poly_const]. intros u. now destruct coef.
  - destruct coef as [|a coef].
    + apply (poly_ext n t (fun _ => 0)); [easy|apply poly_const].
    + apply (poly_ext n t (fun u => a * f u + dot coef (map (fun f => f u) fs))); [easy|].
      apply poly_add; [now apply poly_scal|apply IH].
Qed.

(** Polynomials stay polynomials when each coordinate is shifted and scaled. *)
Lemma poly_affine n t q a b : polynomial n t q -> polynomial n t (fun u => q (fun i => a i + b i * u i)).
Proof.
  intros (c & L & H).
  set (g := fun i (u : fvec) => a i + b i * u i).
  assert (Gc : forall i, (i < n)%nat -> polynomial n t (g i)).
  { intros i Hi. apply poly_add; [apply poly_const|apply poly_scal, (poly_coord n t i Hi)]. }
  assert (Lin : Forall (polynomial n t) (map g (seq 0 n))).
  { apply Forall_map, Forall_forall. intros i Hi. apply in_seq in Hi. apply Gc. lia. }
  assert (Pr : t = Quadratic -> Forall (polynomial n t) (map (fun p u => g (fst p) u * g (snd p) u) (quad_pairs n))).
  { intros ->. apply Forall_map, Forall_forall. intros [i j] Hp. cbn [fst snd].
    assert (Hij : (i < n)%nat /\ (j < n)%nat).
    { unfold quad_pairs in Hp. apply in_flat_map in Hp as (k & Hk & Hp). apply in_map_iff in Hp as (l & E & Hl).
      injection E as <- <-. apply in_seq in Hk, Hl. lia. }
    apply (poly_ext n Quadratic (fun u => a i * a j + (a i * b j * u j + (a j * b i * u i + b i * b j * (u i * u j))))).
    { intros u. unfold g. ring. }
    apply poly_add; [apply poly_const|]. apply poly_add; [apply poly_scal, poly_coord; easy|].
    apply poly_add; apply poly_scal; [now apply poly_coord|now apply poly_prod]. }
  destruct t.
  - apply (poly_ext n Linear (fun u => dot c (map (fun f => f u) ((fun _ => 1) :: map g (seq 0 n))))).
    + intros u. rewrite H. unfold feature_row. cbn [map]. rewrite map_map. reflexivity.
    + apply poly_features. constructor; [apply poly_const|easy].
  - apply (poly_ext n Quadratic (fun u => dot c (map (fun f => f u) ((fun _ => 1) :: map g (seq 0 n) ++
             map (fun p u => g (fst p) u * g (snd p) u) (quad_pairs n))))).
    + intros u. rewrite H. unfold feature_row, quadratic_features. cbn [map]. rewrite map_app, !map_map. reflexivity.
    + apply poly_features. constructor; [apply poly_const|]. apply Forall_app. split; [easy|]. now apply Pr.
Qed.

(** * Regressions of exact data *)

Lemma bsum_sq_zero N f : bsum N (fun i => f i ^ 2) <= 0 -> forall i, (i < N)%nat -> f i = 0.
Proof.
  induction N as [|N IH]; intros H i Hi; [lia|]. cbn [bsum] in H.
  assert (0 <= bsum N (fun i => f i ^ 2)) by (clear; induction N; cbn [bsum]; [lra|]; pose proof (pow2_ge_0 (f N)); lra).
  pose proof (pow2_ge_0 (f N)). destruct (Nat.eq_dec i N) as [->|].
  - apply Rsqr_0_uniq. unfold Rsqr. lra.
  - apply IH; [lra|lia].
Qed.

(** If the data can be fitted exactly, a least squares solution fits them exactly. *)
Lemma lstsq_exact N p A b c c' : is_lstsq N p A b c ->
  (forall i, (i < N)%nat -> bsum p (fun j => A i j * c' j) = b i) ->
  forall i, (i < N)%nat -> bsum p (fun j => A i j * c j) = b i.
Proof.
  intros H E i Hi.
  assert (Z : ssr N p A b c' = 0).
  { unfold ssr. clear -E. induction N as [|N IH]; [easy|]. cbn [bsum]. rewrite IH by (intros; apply E; lia).
    rewrite E by lia. lra. }
  specialize (H c'). rewrite Z in H. unfold ssr in H.
  pose proof (bsum_sq_zero N (fun i => bsum p (fun j => A i j * c j) - b i) H i Hi) as Q. cbv beta in Q. lra.
Qed.

Section Fit.
Variables (X : externals) (ch : choices) (n : nat).
Hypothesis LS : forall N p A b, is_lstsq N p A b (e_lstsq X N p A b).
Let t := ch_type ch.

(** Fitters that fit exactly if they can, and enough points for powell. *)
Definition exact_fitter (N : nat) : Prop :=
  match ch_fitter ch with
  | FitOls => True
  | FitTranquilo a b c => 0 < a /\ 0 < b /\ 0 < c
  | FitPowell => (n_free_params n t <= N)%nat
  | FitRidge _ _ => False
  end.

Lemma ols_exact N S y coef : length coef = n_free_params n t ->
  (forall i, (i < N)%nat -> y i = dot coef (feature_row n t (S i))) ->
  forall i, (i < N)%nat ->
    dot (map (fit_ols (e_lstsq X) N n t S y None) (seq 0 (n_features n t))) (feature_row n t (S i)) = y i.
Proof.
  intros L E i Hi. unfold fit_ols, add_weighting.
  assert (D : forall c, bsum (n_features n t) (fun j => feature_matrix n t S i j * c j) =
                        dot (map c (seq 0 (n_features n t))) (feature_row n t (S i))).
  { intros c. rewrite <- (bsum_dot_fun (n_features n t)) by apply n_features_row. apply bsum_ext. intros j Hj. unfold feature_matrix. lra. }
  rewrite <- D. apply (lstsq_exact N _ _ _ _ (fun j => nth j coef 0)); [apply LS| |easy].
  intros k Hk. rewrite E by easy. rewrite n_features_free, <- L.
  rewrite dot_bsum_nth by (rewrite L; apply C41_free_params_match_features).
  apply bsum_ext. intros j Hj. unfold feature_matrix. lra.
Qed.

Lemma penalty_pos a b c j : 0 < a -> 0 < b -> 0 < c -> (j < n_free_params n t)%nat ->
  0 < nth j (penalty_factors n (n_free_params n t) a b c) 0.
Proof.
  intros Ha Hb Hc Hj. unfold penalty_factors.
  assert (L : (1 + n <= n_free_params n t)%nat) by (destruct t; cbn; lia).
  assert (I : forall z, 0 < z -> 0 < 1 / z) by (intros; apply Rdiv_lt_0_compat; lra).
  cbn [app]. destruct j as [|j]; [cbn; auto|]. cbn [nth].
  destruct (Nat.ltb_spec j n).
  - rewrite app_nth1 by now rewrite repeat_length.
    rewrite (nth_indep _ 0 (1 / b)) by now rewrite repeat_length. rewrite nth_repeat. auto.
  - rewrite app_nth2, repeat_length by (rewrite repeat_length; lia).
    rewrite (nth_indep _ 0 (1 / c)) by (rewrite repeat_length; lia). rewrite nth_repeat. auto.
Qed.

Lemma tranquilo_exact N S y coef a b c : 0 < a -> 0 < b -> 0 < c -> length coef = n_free_params n t ->
  (forall i, (i < N)%nat -> y i = dot coef (feature_row n t (S i))) ->
  forall i, (i < N)%nat ->
    dot (map (fit_tranquilo (e_lstsq X) N n t S y None a b c) (seq 0 (n_features n t))) (feature_row n t (S i)) = y i.
Proof.
  intros Ha Hb Hc L E i Hi. rewrite n_features_free, C43_fitted_values_of_rescaled_regression.
  set (F := fun i j => nth j (feature_row n t (S i)) 0 * nth j (penalty_factors n (n_free_params n t) a b c) 0).
  apply (lstsq_exact N _ F y _ (fun j => nth j coef 0 / nth j (penalty_factors n (n_free_params n t) a b c) 0)); [apply LS| |easy].
  intros k Hk. rewrite E by easy. rewrite dot_bsum_nth by (rewrite L; apply C41_free_params_match_features).
  rewrite L. apply bsum_ext. intros j Hj. unfold F. pose proof (penalty_pos a b c j Ha Hb Hc Hj). field. lra.
Qed.

Lemma raw_exact xs Y coef : exact_fitter (length xs) ->
  (forall k, length (coef k) = n_free_params n t) ->
  (forall k i, (i < length xs)%nat -> nth k (nth i Y []) 0 = dot (coef k) (feature_row n t (nth i xs fzero))) ->
  exists c, raw_fitter X ch n xs (map (map Fin) Y) = Ok c /\ (forall k, length (c k) = n_free_params n t) /\
    forall k i, (i < length xs)%nat -> dot (c k) (feature_row n t (nth i xs fzero)) = nth k (nth i Y []) 0.
Proof.
  intros EF LC H. destruct (raw_fitter_total X ch n xs Y) as (c & E & Lc). exists c. split; [easy|]. split; [easy|].
  intros k i Hi. unfold raw_fitter in E. rewrite all_rows_fin_map in E. cbv beta zeta in E. unfold exact_fitter in EF. fold t in E.
  destruct (ch_fitter ch) as [|l2 l3| |a b c'].
  - injection E as <-. apply (ols_exact _ (fun i => nth i xs fzero) (fun i => nth k (nth i Y []) 0) (coef k)); auto.
  - easy.
  - assert (P : fit_powell (e_lstsq X) (e_qr X) (length xs) n t (fun i => nth i xs fzero) (fun i => nth k (nth i Y []) 0) =
      Ok (map (fit_ols (e_lstsq X) (length xs) n t (fun i => nth i xs fzero) (fun i => nth k (nth i Y []) 0) None)
              (seq 0 (n_features n t)))).
    { unfold fit_powell. destruct (Nat.leb_spec (length xs) (n + 1)) as [Hs|Hs].
      - assert (T : feature_row n Linear = feature_row n t).
        { destruct t; [easy|]. cbn [n_free_params] in EF. destruct n as [|n']; [easy|].
          exfalso. rewrite <- quad_pairs_length in EF. unfold quad_pairs in EF. cbn [seq flat_map map Nat.sub app length] in EF. lia. }
        rewrite map_length, seq_length. unfold fit_ols, add_weighting, feature_matrix, n_features. rewrite T.
        replace (length (feature_row n t (fun _ => 0))) with (n_free_params n t) by (apply C41_free_params_match_features).
        replace (Z.of_nat _ - Z.of_nat _)%Z with 0%Z by (destruct t; cbn; lia). cbn. now rewrite app_nil_r.
      - destruct (Nat.leb_spec (match t with Quadratic => n + 1 + n_second_order_terms n | Linear => n + 1 end) (length xs)) as [|Q];
          [easy|]. exfalso. unfold n_free_params in EF. destruct t; lia. }
    destruct (fit_powell _ _ _ _ _ _ (fun i => nth 0 (nth i Y []) 0)) as [l0|] eqn:E0; [|discriminate]. cbn [bind] in E. injection E as <-.
    rewrite P. apply (ols_exact _ (fun i => nth i xs fzero) (fun i => nth k (nth i Y []) 0) (coef k)); auto.
  - injection E as <-. destruct EF as (A & B & C).
    apply (tranquilo_exact _ (fun i => nth i xs fzero) (fun i => nth k (nth i Y []) 0) (coef k)); auto.
Qed.
End Fit.

(** * C177 - models of polynomial criteria *)

Lemma feature_row_local n t x y : (forall i, (i < n)%nat -> x i = y i) -> feature_row n t x = feature_row n t y.
Proof.
  intros H. assert (E : map x (seq 0 n) = map y (seq 0 n)).
  { apply map_ext_in. intros i Hi. apply in_seq in Hi. apply H. lia. }
  unfold feature_row, quadratic_features. destruct t; [now rewrite E|]. f_equal. rewrite E. f_equal.
  apply map_ext_in. intros [i j] Hp. unfold quad_pairs in Hp. apply in_flat_map in Hp as (k & Hk & Hp).
  apply in_map_iff in Hp as (l & [= <- <-] & Hl). apply in_seq in Hk, Hl. cbn [fst snd]. rewrite !H by lia. reflexivity.
Qed.
Lemma poly_local n t q x y : polynomial n t q -> (forall i, (i < n)%nat -> x i = y i) -> q x = q y.
Proof. intros (c & _ & H) E. now rewrite !H, (feature_row_local n t x y E). Qed.

Lemma clip_rows_exact m (Y : list (list R)) : Forall (fun y => length y = m) Y ->
  clip_rows m (map (map Fin) Y) = map (map Fin) Y.
Proof.
  intros FY. unfold clip_rows.
  assert (C : forall k, (k < m)%nat ->
    nth k (clip_relative (map (fun k => map (fun y => nth k y NaN) (map (map Fin) Y)) (seq 0 m))) [] =
    map (fun y => Fin (nth k y 0)) Y).
  { intros k Hk. destruct (C46_clip_relative_finite (map (fun k => map (fun y => nth k y NaN) (map (map Fin) Y)) (seq 0 m))) as [_ H].
    specialize (H k (map (fun y => nth k y NaN) (map (map Fin) Y))).
    destruct H as (out & E & L & _ & V).
    { rewrite nth_error_map. rewrite (nth_error_nth_default _ (seq 0 m) k 0%nat) by now rewrite seq_length. now rewrite seq_nth. }
    rewrite (nth_error_nth _ _ _ E). apply nth_error_ext. intros i. rewrite nth_error_map.
    rewrite !map_length in L. destruct (nth_error Y i) as [y|] eqn:Ey.
    - apply V. rewrite !nth_error_map, Ey. cbn [option_map]. f_equal.
      rewrite Forall_forall in FY. apply nth_error_In in Ey. apply FY in Ey.
      rewrite (nth_indep _ NaN (Fin 0)) by (rewrite map_length; lia). now rewrite map_nth.
    - apply nth_error_None in Ey. cbn [option_map]. apply nth_error_None. lia. }
  apply nth_error_ext. intros i. rewrite !nth_error_map.
  destruct (nth_error Y i) as [y|] eqn:Ey.
  - assert (Hi : (i < length Y)%nat) by (apply nth_error_Some; congruence).
    rewrite (nth_error_nth_default _ (seq 0 _) i 0%nat) by now rewrite seq_length, map_length.
    rewrite seq_nth by now rewrite map_length. cbn [Nat.add option_map]. f_equal.
    rewrite Forall_forall in FY. pose proof (FY y (nth_error_In _ _ Ey)) as Ly.
    apply nth_error_ext. intros k. rewrite !nth_error_map. destruct (Nat.ltb_spec k m) as [Hk|Hk].
    + rewrite (nth_error_nth_default _ (seq 0 m) k 0%nat) by now rewrite seq_length. rewrite seq_nth by easy. cbn [Nat.add option_map].
      rewrite C by easy. rewrite (nth_error_nth_default _ y k 0) by lia. cbn [option_map]. f_equal.
      apply nth_error_nth. rewrite nth_error_map, Ey. reflexivity.
    + assert (nth_error (seq 0 m) k = None) as -> by (apply nth_error_None; rewrite seq_length; lia).
      assert (nth_error y k = None) as -> by (apply nth_error_None; lia). reflexivity.
  - apply nth_error_None in Ey. cbn [option_map].
    assert (nth_error (seq 0 (length (map (map Fin) Y))) i = None) as -> by (apply nth_error_None; rewrite seq_length, map_length; lia). reflexivity.
Qed.

(** Unit coordinates as used by the fitters. *)
Lemma to_unit_effective reg x i : misshapen reg = false -> degenerate reg = false -> length x = length (r_center reg) ->
  (i < length x)%nat ->
  scale_at (scale_of (effective_radius reg)) i <> 0 /\
  fun_of (map_to_unit reg x) i =
    (fun_of x i - fun_of (effective_center reg) i) / scale_at (scale_of (effective_radius reg)) i.
Proof.
  intros M D L Hi. apply misshapen_false in M as [M1 M2]. unfold degenerate in D.
  unfold effective_radius, effective_center, map_to_unit, fun_of. destruct (r_shape reg).
  - cbn [scale_of scale_at]. split.
    + intros E. rewrite E in D. destruct (Reqb_spec 0 0); [discriminate|]. lra.
    + unfold map_to_unit_sphere. rewrite map2_nth with (a := 0) (b := 0); auto; lia.
  - cbn [scale_of scale_at]. unfold fun_of.
    rewrite map2_nth with (a := 0) (b := 0) by lia.
    rewrite map2_nth with (a := 0) (b := 0) by lia.
    set (l := nth i (r_cube_lower reg) 0). set (u := nth i (r_cube_upper reg) 0).
    assert (NE : u - l <> 0).
    { intros E. apply Bool.not_true_iff_false in D. apply D. apply existsb_exists. exists (l, u). split.
      - unfold l, u. rewrite <- combine_nth by congruence. apply nth_In. rewrite combine_length. lia.
      - rewrite E. now destruct (Reqb_spec 0 0). }
    split; [intros E; apply NE; lra|].
    unfold map_to_unit_cube. rewrite map2_nth with (a := 0) (b := (0, 0)) by (rewrite ?combine_length; lia).
    rewrite combine_nth by congruence. fold l u. field. lra.
Qed.

(** ols, tranquilo and powell (with enough points) find the criterion. *)
Theorem C177_fit_is_exact :
  forall X ch n m reg old xs q,
    (forall N p A b, is_lstsq N p A b (e_lstsq X N p A b)) ->
    ch_residualize ch = false ->
    length (r_center reg) = n -> misshapen reg = false -> degenerate reg = false ->
    xs <> [] -> Forall (fun x => length x = n) xs -> exact_fitter ch n (length xs) ->
    (forall k, (k < m)%nat -> polynomial n (ch_type ch) (q k)) ->
    determining n (ch_type ch) xs ->
    exists v,
      builtin_fit X ch n m xs (map (fun x => map (fun k => Fin (q k (fun_of x))) (seq 0 m)) xs) reg old = Ok (VmOk v) /\
      vm_n v = n /\ vm_m v = m /\ (ch_type ch = Quadratic <-> vm_h v <> None) /\
      forall x k, length x = n -> (k < m)%nat ->
        predict_vector v (fun_of (map_to_unit reg x)) k = q k (fun_of x).
Proof.
  intros X ch n m reg old xs q LS NR Lc M D NE FX EF PQ DET.
  set (t := ch_type ch) in *.
  set (cen := fun_of (effective_center reg)). set (sc := scale_at (scale_of (effective_radius reg))).
  set (un := fun (x : fvec) i => (x i - cen i) / sc i).
  assert (NZ : forall i, (i < n)%nat -> sc i <> 0).
  { intros i Hi. apply (to_unit_effective reg (r_center reg) i M D); congruence. }
  assert (UN : forall x i, length x = n -> (i < n)%nat -> fun_of (map_to_unit reg x) i = un (fun_of x) i).
  { intros x i Lx Hi. apply (to_unit_effective reg x i M D); congruence. }
  set (q' := fun k x => if (k <? m)%nat then q k x else 0).
  assert (PQ' : forall k, polynomial n t (q' k)).
  { intros k. unfold q'. destruct (Nat.ltb_spec k m); [now apply PQ|apply poly_const]. }
  set (Y := map (fun x => map (fun k => q k (fun_of x)) (seq 0 m)) xs).
  assert (EY : map (fun x => map (fun k => Fin (q k (fun_of x))) (seq 0 m)) xs = map (map Fin) Y).
  { unfold Y. rewrite map_map. apply map_ext. intros x. now rewrite map_map. }
  assert (FY : Forall (fun y => length y = m) Y).
  { apply Forall_map, Forall_forall. intros x _. now rewrite map_length, seq_length. }
  set (xu := map un (map fun_of xs)).
  assert (LU : length xu = length xs) by (unfold xu; now rewrite !map_length).
  assert (NU : forall i, (i < length xs)%nat -> nth i xu fzero = un (fun_of (nth i xs []))).
  { intros i Hi. apply nth_error_nth. unfold xu. rewrite !nth_error_map. now rewrite (nth_error_nth_default _ xs i []) by easy. }
  assert (NYk : forall k i, (i < length xs)%nat -> nth k (nth i Y []) 0 = q' k (fun_of (nth i xs []))).
  { intros k i Hi. unfold Y. erewrite (nth_error_nth (map _ xs)) by (rewrite nth_error_map, (nth_error_nth_default _ xs i []) by easy; reflexivity).
    unfold q'. destruct (Nat.ltb_spec k m).
    - apply nth_error_nth. rewrite nth_error_map, (nth_error_nth_default _ (seq 0 m) k 0%nat) by now rewrite seq_length.
      now rewrite seq_nth.
    - apply nth_overflow. rewrite map_length, seq_length. lia. }
  (* the criterion in unit coordinates *)
  assert (PU : forall k, polynomial n t (fun u => q' k (fun i => cen i + sc i * u i))) by (intros k; now apply poly_affine).
  set (back := fun (x : fvec) => fun i => cen i + sc i * un x i).
  assert (BK : forall k x, q' k (back x) = q' k x).
  { intros k x. apply (poly_local n t _ _ _ (PQ' k)). intros i Hi. unfold back, un. field. now apply NZ. }
  assert (CF : exists coef, forall k, length (coef k) = n_free_params n t /\
     forall u, q' k (fun i => cen i + sc i * u i) = dot (coef k) (feature_row n t u)).
  { assert (G : forall j, exists coef, forall k, (k < j)%nat -> length (coef k) = n_free_params n t /\
       forall u, q' k (fun i => cen i + sc i * u i) = dot (coef k) (feature_row n t u)).
    { induction j as [|j [cf IH]]; [exists (fun _ => []); lia|]. destruct (PU j) as (c & L & H).
      exists (fun k => if (k =? j)%nat then c else cf k). intros k Hk. destruct (Nat.eqb_spec k j) as [->|]; [easy|apply IH; lia]. }
    destruct (G m) as [cf H]. exists (fun k => if (k <? m)%nat then cf k else repeat 0 (n_free_params n t)).
    intros k. destruct (Nat.ltb_spec k m) as [Hk|Hk]; [now apply H|]. split; [apply repeat_length|].
    intros u. rewrite dot_repeat0. unfold q'. destruct (Nat.ltb_spec k m); [lia|easy]. }
  destruct CF as [coef HC].
  destruct (raw_exact X ch n LS xu Y coef) as (c & RF & LF & HF).
  { now rewrite LU. } { intros k; apply HC. }
  { intros k i Hi. rewrite LU in Hi. fold t. rewrite NYk, NU by easy.
    transitivity (q' k (back (fun_of (nth i xs [])))); [symmetry; apply BK|]. apply HC. }
  fold t in LF, HF.
  assert (FP : forall o, exists v, fit_proper X ch n m xs (map (map Fin) Y) reg o = Ok v /\
    vm_n v = n /\ vm_m v = m /\ (t = Quadratic <-> vm_h v <> None) /\
    forall x k, length x = n -> (k < m)%nat -> predict_vector v (fun_of (map_to_unit reg x)) k = q k (fun_of x)).
  { intros o. destruct (build_total n m t c (fun_of (effective_center reg)) (scale_of (effective_radius reg)) (LF 0%nat))
      as (v & EV & V1 & V2 & _ & _ & V5).
    assert (FT : fit_proper X ch n m xs (map (map Fin) Y) reg o = Ok v).
    { unfold fit_proper, fitter_template. rewrite NR, clip_rows_exact by easy. cbv zeta.
      change (map (fun x i => (x i - fun_of (effective_center reg) i) / scale_at (scale_of (effective_radius reg)) i) (map fun_of xs))
        with xu. rewrite RF. exact EV. }
    exists v. split; [exact FT|]. split; [easy|]. split; [easy|]. split; [easy|].
    unfold fit_proper in FT. rewrite NR in FT.
    apply C42_fitter_template_predicts_features_times_coefs in FT as (c' & E' & PR).
    rewrite clip_rows_exact in E' by easy.
    change (map (fun x i => (x i - fun_of (effective_center reg) i) / scale_at (scale_of (effective_radius reg)) i) (map fun_of xs))
        with xu in E'. rewrite RF in E'. injection E' as <-. destruct (PR LF) as (_ & _ & PR').
    intros x k Lx Hk. rewrite PR'.
    fold t. rewrite (feature_row_local n t _ (un (fun_of x))) by (intros i Hi; now apply UN).
    assert (Z : forall x, dot (c k) (feature_row n t (un x)) - q' k x = 0).
    { apply DET.
      - apply (poly_ext n t (fun x => (dot (c k) (feature_row n t (fun i => - cen i / sc i + / sc i * x i))) + (-1) * q' k x)).
        + intros y. rewrite (feature_row_local n t (fun i => - cen i / sc i + / sc i * y i) (un y)); [lra|].
          intros i Hi. unfold un. field. now apply NZ.
        + apply poly_add; [|now apply poly_scal].
          apply (poly_affine n t (fun u => dot (c k) (feature_row n t u))). now exists (c k).
      - intros y Hy. apply In_nth with (d := []) in Hy as (i & Hi & <-).
        rewrite <- NU by easy. rewrite HF, NYk by lia. lra. }
    specialize (Z (fun_of x)). unfold q' in Z. destruct (Nat.ltb_spec k m); [lra|lia]. }
  rewrite EY. unfold builtin_fit. rewrite D, NR. destruct xs as [|x0 xs']; [easy|].
  destruct old as [o|j].
  - destruct (FP o) as (v & E & R). rewrite E. exists v. split; [reflexivity|exact R].
  - destruct (FP (mkV n j (fun _ => 0) (fun _ _ => 0) None (MScalar 1) fzero)) as (v & E & R). rewrite E.
    exists v. split; [reflexivity|exact R].
Qed.

(** The aggregator that belongs to the criterion type; with the type of the vector models for which
    it is exact. *)
Definition exact_aggregator (ft : functype) (ch : choices) : Prop :=
  match ft with
  | Scalar => ch_aggregator ch = AggIdentity
  | Likelihood => ch_aggregator ch = AggSum /\ ch_type ch = Quadratic
  | LeastSquares => ch_aggregator ch = AggLeastSquares /\ ch_type ch = Linear
  end.

Lemma sum_fin m (y : nat -> R) : fold_right xadd (Fin 0) (map (fun k => Fin (y k)) (seq 0 m)) = Fin (bsum m y).
Proof.
  assert (G : forall a, fold_right xadd (Fin 0) (map (fun k => Fin (y k)) (seq a m)) = Fin (bsum m (fun k => y (a + k)%nat))).
  { induction m as [|m IH]; intros a; [reflexivity|]. cbn [seq map fold_right]. rewrite IH. cbn [xadd].
    rewrite bsum_shift. f_equal. f_equal; [f_equal; lia|]. apply bsum_ext. intros k _. f_equal. lia. }
  now rewrite G.
Qed.

(** The scalar model is the value of the criterion. *)
Theorem C177_model_is_exact :
  forall X ch ft n w reg old xs q,
    (forall N p A b, is_lstsq N p A b (e_lstsq X N p A b)) ->
    ch_residualize ch = false -> exact_aggregator ft ch ->
    length (r_center reg) = n -> misshapen reg = false -> degenerate reg = false ->
    xs <> [] -> Forall (fun x => length x = n) xs -> exact_fitter ch n (length xs) ->
    (forall k, (k < ft_w ft w)%nat -> polynomial n (ch_type ch) (q k)) ->
    determining n (ch_type ch) xs ->
    exists v s,
      builtin_fit X ch n (ft_w ft w) xs (map (fun x => map (fun k => Fin (q k (fun_of x))) (seq 0 (ft_w ft w))) xs) reg old
        = Ok v /\
      builtin_agg ch v = Ok (Some s) /\ sm_n s = n /\
      forall x, length x = n ->
        Fin (predict_scalar s (fun_of (map_to_unit reg x))) =
        spec_fval ft (map (fun k => Fin (q k (fun_of x))) (seq 0 (ft_w ft w))).
Proof.
  intros X ch ft n w reg old xs q LS NR AG Lc M D NE FX EF PQ DET.
  destruct (C177_fit_is_exact X ch n (ft_w ft w) reg old xs q LS NR Lc M D NE FX EF PQ DET) as (v & E & V1 & V2 & V3 & P).
  exists (VmOk v). cbn [builtin_agg]. unfold aggregate. destruct ft; cbn [exact_aggregator ft_w spec_fval] in *.
  - rewrite AG. destruct (aggregate_identity v) as [s|e] eqn:EA.
    2:{ unfold aggregate_identity in EA. rewrite V2 in EA. discriminate. }
    exists s. split; [exact E|]. split; [reflexivity|]. pose proof (C36_identity_predicts_entry v s EA) as [_ PI].
    assert (sm_n s = vm_n v) as -> by (unfold aggregate_identity in EA; rewrite V2 in EA; injection EA as <-; reflexivity).
    split; [easy|]. intros x Lx. rewrite PI, P by lia. reflexivity.
  - destruct AG as [-> AL]. destruct (aggregate_sum v) as [s|e] eqn:EA.
    2:{ unfold aggregate_sum in EA. destruct (vm_h v) eqn:Hh; [discriminate|]. exfalso. apply V3 in AL. easy. }
    exists s. split; [exact E|]. split; [reflexivity|]. pose proof (C36_sum_predicts_sum v s EA) as PI.
    assert (sm_n s = vm_n v) as -> by (unfold aggregate_sum in EA; destruct (vm_h v); [|discriminate]; injection EA as <-; reflexivity).
    split; [easy|]. intros x Lx. rewrite PI, V2. rewrite sum_fin. f_equal. apply bsum_ext. intros k Hk. now apply P.
  - destruct AG as [-> AL].
    exists (aggregate_least_squares_linear v). split; [exact E|]. split; [reflexivity|]. split; [exact V1|].
    intros x Lx. rewrite C36_least_squares_predicts_sum_of_squares.
    2:{ destruct (vm_h v) eqn:Hh; [|easy]. exfalso. assert (ch_type ch = Quadratic) by (apply V3; discriminate). congruence. }
    assert (G : forall l, fold_right (fun x s => xadd (xmul x x) s) (Fin 0) (map (fun k => Fin (q k (fun_of x))) l) =
                fold_right xadd (Fin 0) (map (fun k => Fin (q k (fun_of x) * q k (fun_of x))) l)).
    { induction l as [|a l IH]; [reflexivity|]. cbn [map fold_right]. now rewrite IH. }
    rewrite G, (sum_fin w (fun k => q k (fun_of x) * q k (fun_of x))). f_equal. rewrite V2. apply bsum_ext.
    intros k Hk. now rewrite !P.
Qed.

(** * The expected improvement *)

Lemma solve_decrease X ch d s reg sub c rad b :
  ext_dims d X -> length c = d -> proper_region c rad b reg -> builtin_solve X ch (Some s) reg = Ok sub ->
  exists e, sub_ei sub = Fin e /\ 0 <= e /\ length (sub_x sub) = d /\
    e = predict_scalar s (fun_of (map_to_unit reg (r_center reg))) - predict_scalar s (fun_of (map_to_unit reg (sub_x sub))).
Proof.
  intros ED L (Hr & Hc & BD & IB & NF & MK). unfold builtin_solve.
  destruct (make_region_inv _ _ _ _ MK) as (x0 & _ & Ec & Er & _).
  assert (Lc : length (r_center reg) = d) by congruence.
  destruct (misshapen reg) eqn:M; [discriminate|]. cbn [orb].
  destruct (Nat.eqb_spec (sm_n s) (length (r_center reg))) as [N|]; [|discriminate]. cbn [negb].
  unfold solve_proper. destruct (degenerate reg) eqn:DG; [discriminate|].
  destruct (solve_subproblem _ _ _ _ _ _ _) as [q|] eqn:E; [|discriminate]. cbn [bind].
  destruct (all_fin (s_x q)) as [v|] eqn:EF; [|discriminate]. apply all_fin_inv in EF.
  intros [= <-]. cbn [sub_ei sub_x].
  pose proof (C53_improvement_nonnegative _ _ _ _ _ _ _ _ E) as NN.
  apply solve_cases in E as (rw & DV & E). cbv zeta in E.
  apply (delivered_dim X ch d ED) in DV; [|congruence|easy]. destruct DV as (u & EU & LU).
  assert (INJ : forall x, map Fin v = map Fin x -> v = x).
  { intros x H. assert (A : all_fin (map Fin v) = all_fin (map Fin x)) by (now rewrite H).
    rewrite !all_fin_map in A. now injection A. }
  assert (EO : xmap_to_unit reg (r_center reg) = map Fin (map_to_unit reg (r_center reg))).
  { unfold xmap_to_unit, map_to_unit. unfold degenerate in DG. destruct (r_shape reg).
    - unfold map_to_unit_sphere. apply map2_finite. intros a c' _. cbn [xdiv]. now rewrite DG.
    - unfold map_to_unit_cube. apply map2_finite. intros a [l u'] Hb. cbn [xdiv].
      destruct (Reqb (u' - l) 0) eqn:B; [|reflexivity].
      assert (T : existsb (fun '(l, u) => Reqb (u - l) 0) (combine (r_cube_lower reg) (r_cube_upper reg)) = true).
      { apply existsb_exists. exists (l, u'). auto. }
      congruence. }
  apply misshapen_false in M as [M1 M2].
  assert (LO : length (map_to_unit reg (r_center reg)) = sm_n s).
  { unfold map_to_unit, map_to_unit_cube, map_to_unit_sphere. destruct (r_shape reg); rewrite map2_length, ?combine_length; lia. }
  rewrite EO in E.
  assert (FY : exists y, match r_shape reg with
             | Cube => map (fun a => xclip a (Fin (-1)) (Fin 1)) (raw_x rw)
             | Sphere => raw_x rw end = map Fin y /\ length y = sm_n s /\
             (r_shape reg = Cube -> Forall (fun u => -1 <= u <= 1) y)).
  { rewrite EU. destruct (r_shape reg); [exists u; easy|].
    exists (map (fun a => clip a (-1) 1) u). rewrite !map_map, map_length. split; [|split; [easy|]].
    - apply map_ext. intros a. unfold xclip, xmin, xmax, xle, clip, Rmin, Rmax, Rleb.
      repeat (destruct Rle_dec; cbn); try reflexivity; try (f_equal; lra).
    - intros _. apply Forall_map, Forall_forall. intros a _. unfold clip, Rmin, Rmax. repeat destruct Rle_dec; lra. }
  destruct FY as (y & EY & LY & CY). rewrite EY in E.
  rewrite (predict_x_fin s y LY), (predict_x_fin s _ LO) in E.
  destruct E as (_ & _ & [(_ & Es & E & _)|(_ & Es & E & _)]); rewrite E in *; cbn in NN.
  - apply Rleb_true in NN. cbn. eexists. split; [reflexivity|]. split; [exact NN|].
    assert (EV : v = map_from_unit reg y).
    { apply INJ. rewrite <- EF, Es. unfold xmap_from_unit, map_from_unit. destruct (r_shape reg).
      - unfold map_from_unit_sphere. clear. generalize (r_center reg). induction y as [|a y IH]; intros [|c0 c]; try reflexivity.
        cbn [map map2]. now rewrite IH.
      - unfold map_from_unit_cube, vclip. clear. generalize (r_cube_upper reg) as up. generalize (r_cube_lower reg) as lo.
        induction y as [|a y IH]; intros [|l lo] [|q up]; try reflexivity.
        cbn [map map2 combine]. rewrite IH. f_equal. cbn [xmul xadd]. rewrite xdiv_fin by lra. cbn [xadd].
        unfold xclip, xmin, xmax. simpl. unfold Rmin, Rmax.
        destruct (Rleb_spec ((q - l) * (a + 1) / 2 + l) l), (Rle_dec ((q - l) * (a + 1) / 2 + l) l); try easy;
        match goal with |- context [Rleb q ?b] => destruct (Rleb_spec q b), (Rle_dec q b) end; easy. }
    assert (EB : map_to_unit reg v = y /\ length v = d).
    { rewrite EV. destruct (r_shape reg) eqn:S.
      - split; [apply (C16_unit_maps_inverse_sphere reg S ltac:(lra) y ltac:(lia))|].
        unfold map_from_unit, map_from_unit_sphere. rewrite S, map2_length. lia.
      - split.
        + apply (C16_unit_maps_inverse_cube reg S ltac:(congruence)); [|lia|now apply CY].
          intros i l u' H1 H2. apply (C14_cube_not_degenerate c rad b reg Hr Hc BD IB NF MK S i l u' H1 H2).
        + unfold map_from_unit, vclip, map_from_unit_cube. rewrite S, !map2_length, !combine_length. lia. }
    destruct EB as [EB LV]. split; [exact LV|]. rewrite EB. lra.
  - exists 0. split; [reflexivity|]. split; [lra|]. assert (v = r_center reg) as -> by (apply INJ; congruence).
    split; [exact Lc|]. lra.
Qed.

(** * Examples *)

(** The points of the first iteration of the example run of C142 are not on a line. *)
Lemma ex_determining : determining 2 Linear ex_pts.
Proof.
  intros q (coef & L & H) Z x.
  destruct coef as [|a [|b [|c [|]]]]; try discriminate L.
  pose proof (Z [0; 0] ltac:(now left)) as Z0. pose proof (Z [1; 0] ltac:(right; now left)) as Z1.
  pose proof (Z [0; 1] ltac:(right; right; now left)) as Z2.
  rewrite H in *. unfold feature_row, fun_of in *. cbn [map seq app nth] in *.
  repeat rewrite dot_cons in *. rewrite !dot_nil_r in *. 
  assert (a = 0) by lra. assert (b = 0) by lra. assert (c = 0) by lra. subst. lra.
Qed.

(** Its residuals are linear. *)
Definition ex_q (k : nat) (x : fvec) : R :=
  match k with 0%nat | 1%nat => (x 0%nat - 27 / 25) / 2 | _ => x 1%nat end.
Lemma ex_q_res x : map (fun k => Fin (ex_q k (fun_of x))) (seq 0 3) = map Fin (ex_res x).
Proof. reflexivity. Qed.
Lemma ex_q_poly k : polynomial 2 Linear (ex_q k).
Proof.
  destruct k as [|[|k]].
  1,2: exists [- (27 / 50); 1 / 2; 0]; split; [reflexivity|]; intros x; unfold feature_row, ex_q; cbn [map seq];
    repeat rewrite dot_cons; rewrite dot_nil_r; lra.
  exists [0; 0; 1]. split; [reflexivity|]. intros x. unfold feature_row, ex_q. cbn [map seq].
  repeat rewrite dot_cons. rewrite dot_nil_r. lra.
Qed.

(** C177 instance: four points, three residuals; the aggregated model at (0.5, 0) is the sum of
    squares there. *)
Example C177_instance : exists v s,
  builtin_fit (ex_ext ls) ls_choices 2 3 ex_pts (map (fun x => map Fin (ex_res x)) ex_pts) reg56 (VmBad 3) = Ok v /\
  builtin_agg ls_choices v = Ok (Some s) /\
  predict_scalar s (fun_of (map_to_unit reg56 [1 / 2; 0])) = 2 * (29 / 100) ^ 2.
Proof.
  assert (DG : degenerate reg56 = false).
  { unfold degenerate. cbn [reg56 r_shape r_radius]. destruct (Reqb 1 0) eqn:Z; [apply Reqb_true in Z; lra|easy]. }
  destruct (C177_model_is_exact (ex_ext ls) ls_choices LeastSquares 2 3 reg56 (VmBad 3) ex_pts ex_q) as (v & s & E1 & E2 & _ & P).
  - intros N p A b. apply ls_ok.
  - reflexivity.
  - now split.
  - reflexivity.
  - reflexivity.
  - exact DG.
  - discriminate.
  - repeat constructor.
  - exact I.
  - intros k _. apply ex_q_poly.
  - exact ex_determining.
  - exists v, s. split; [exact E1|]. split; [exact E2|].
    specialize (P [1 / 2; 0] eq_refl). cbn [ft_w] in P. rewrite ex_q_res in P.
    set (a := predict_scalar _ _) in *. cbn in P. injection P as ->. lra.
Qed.

(** The ridge fitter is not exact, also for determining points: for the criterion x at 0 and 1, the
    fitted value at 0 is 1/3. *)
Definition ridge_choices : choices :=
  mkChoices Linear (FitRidge 1 1) false AggIdentity FilKeep (ch_sampler ls_choices) (ch_sphere ls_choices)
    (ch_cube ls_choices) true DecClassic 3 3 false 100 true.
Definition ridge_reg : region := mkRegion [0] 1 None Sphere [-1] [1].

Lemma ridge_determining : determining 1 Linear [[0]; [1]].
Proof.
  intros q (coef & L & H) Z x.
  destruct coef as [|a [|b [|]]]; try discriminate L.
  pose proof (Z [0] ltac:(now left)) as Z0. pose proof (Z [1] ltac:(right; now left)) as Z1.
  rewrite H in *. unfold feature_row, fun_of in *. cbn [map seq app nth] in *.
  repeat rewrite dot_cons in *. rewrite !dot_nil_r in *.
  assert (a = 0) by lra. assert (b = 0) by lra. subst. lra.
Qed.

Theorem C177_ridge_is_not_exact :
  forall lstsq, (forall N p A b, is_lstsq N p A b (lstsq N p A b)) ->
  determining 1 Linear [[0]; [1]] /\ polynomial 1 Linear (fun x => x 0%nat) /\
  exists v, builtin_fit (ex_ext lstsq) ridge_choices 1 1 [[0]; [1]] [[Fin 0]; [Fin 1]] ridge_reg (VmBad 1) = Ok (VmOk v) /\
    predict_vector v (fun_of (map_to_unit ridge_reg [0])) 0 = 1 / 3.
Proof.
  intros lstsq LS. split; [exact ridge_determining|]. split.
  { exists [0; 1]. split; [reflexivity|]. intros x. unfold feature_row. cbn [map seq]. repeat rewrite dot_cons. rewrite dot_nil_r. lra. }
  unfold builtin_fit.
  assert (DG : degenerate ridge_reg = false).
  { unfold degenerate. cbn [ridge_reg r_shape r_radius]. destruct (Reqb 1 0) eqn:Z; [apply Reqb_true in Z; lra|easy]. }
  rewrite DG. cbn [ch_residualize ridge_choices].
  unfold fit_proper, fitter_template. cbn [ch_residualize ridge_choices ch_type].
  assert (CL : clip_rows 1 [[Fin 0]; [Fin 1]] = [[Fin 0]; [Fin 1]]).
  { unfold clip_rows, clip_relative, clip_column. cbn [map seq nth length].
    repeat match goal with |- context [penalties ?l] => destruct (penalties l) end. cbn [map nth]. reflexivity. }
  rewrite CL. cbn [effective_center effective_radius ridge_reg r_shape r_center r_radius scale_of scale_at].
  unfold raw_fitter. cbn [ch_fitter ridge_choices ch_type].
  change [[Fin 0]; [Fin 1]] with (map (map Fin) [[0]; [1]]).
  rewrite all_rows_fin_map. cbn [bind build_vmodel].
  eexists. split; [reflexivity|].
  unfold predict_vector. cbn [vm_n vm_m vm_c vm_g vm_h map length e_lstsq ex_ext].
  change (n_features 1 Linear) with 2%nat. cbn [seq map nth Nat.add].
  match goal with |- context [fit_ridge lstsq 2 1 Linear ?S0 ?y0 None 1 1] => set (S := S0); set (y := y0) end.
  set (c := fit_ridge lstsq 2 1 Linear S y None 1 1).
  assert (C : c 0%nat = 1 / 3 /\ c 1%nat = 1 / 3).
  { assert (P : exists A u, c = lstsq 2%nat 2%nat A u /\ A 0%nat 0%nat = 2 /\ A 0%nat 1%nat = 1 /\ A 1%nat 0%nat = 1 /\
      A 1%nat 1%nat = 2 /\ u 0%nat = 1 /\ u 1%nat = 1).
    { eexists _, _. split; [reflexivity|].
      unfold feature_matrix, feature_row, S, y, ridge_penalty, fun_of. cbn [bsum map seq nth Nat.eqb Nat.ltb Nat.leb].
      change (1 + 1)%nat with 2%nat. cbv iota. splits; lra. }
    destruct P as (A & u & -> & P1 & P2 & P3 & P4 & P5 & P6).
    assert (Q : forall i, (i < 2)%nat -> bsum 2 (fun j => A i j * lstsq 2%nat 2%nat A u j) = u i).
    { apply (lstsq_exact 2 2 A u _ (fun _ => 1 / 3)); [apply LS|].
      intros [|[|i]] Hi; [| |lia]; cbn [bsum]; rewrite ?P1, ?P2, ?P3, ?P4, ?P5, ?P6; lra. }
    pose proof (Q 0%nat ltac:(lia)) as Q0. pose proof (Q 1%nat ltac:(lia)) as Q1. cbn [bsum] in Q0, Q1.
    rewrite P1, P2, P5 in Q0. rewrite P3, P4, P6 in Q1. split; lra. }
  destruct C as [C0 C1]. rewrite C0. unfold fdot, fun_of. cbn [bsum map_to_unit ridge_reg r_shape r_center r_radius map2 map nth].

  unfold map_to_unit_sphere. cbn [map2 map nth]. lra.
Qed.

(** * C178 - steps with exact models *)

(** If the criterion is a polynomial of the degree of the models, every iteration whose final model
    points determine such polynomials has an exact model: the expected improvement is the actual one,
    a step with a positive expected improvement has rho 1, and a step is accepted iff its expected
    improvement is at least [min_improvement]. *)
Theorem C178_exact_steps :
  forall X ch ft d w crit n_cores O pad x r0 b h r f q,
    valid_run ft d w (builtin_components X ch d (ft_w ft w) crit n_cores) O pad x r0 b h r ->
    deterministic (builtin_components X ch d (ft_w ft w) crit n_cores) f ->
    noisy O = false -> n_evals_per_point0 O = 1%Z -> (n_evals_at_start O <= 1)%Z -> ch_decider ch = DecClassic ->
    ext_dims d X -> (forall N p A b, is_lstsq N p A b (e_lstsq X N p A b)) ->
    ch_residualize ch = false -> exact_aggregator ft ch -> bounds_dim d b -> no_fixed b ->
    (forall y, length y = d -> recorded (f y) = map (fun k => Fin (q k (fun_of y))) (seq 0 (ft_w ft w))) ->
    (forall k, (k < ft_w ft w)%nat -> polynomial d (ch_type ch) (q k)) ->
    forall k s s' pts, nth_error (res_states r) k = Some s -> nth_error (res_states r) (S k) = Some s' ->
    region_of d b (st_region s') ->
    get_xs_many h (map Z.of_nat (st_model_indices s')) = Ok pts -> pts <> [] ->
    determining d (ch_type ch) pts -> exact_fitter ch d (length pts) ->
    exists model sub e u,
      st_model s' = Some model /\
      (forall y, length y = d ->
         Fin (predict_scalar model (fun_of (map_to_unit (st_region s') y))) = value ft f y) /\
      builtin_solve X ch (st_model s') (st_region s') = Ok sub /\ sub_ei sub = Fin e /\ 0 <= e /\
      value ft f (st_x s) = Fin u /\ value ft f (sub_x sub) = Fin (u - e) /\
      (0 < e -> st_rho s' = Fin 1) /\ (e = 0 -> st_rho s' = NInf) /\
      (st_accepted s' = true <-> min_improvement O <= e).
Proof.
  intros X ch ft d w crit n_cores O pad x r0 b h r f q V DF HQ HN HS HC ED LS NR AG BD HNF RE PQ k s s' pts H1 H2 RO GX NP DET EF.
  set (K := builtin_components X ch d (ft_w ft w) crit n_cores) in *.
  pose proof (vr_d _ _ _ _ _ _ _ _ _ _ _ V) as Hd0.
  assert (HK : forall t v, k_decider K t v = Classic) by (intros t v; cbn; unfold builtin_decider; now rewrite HC).
  destruct (C163_iteration _ _ _ _ _ _ K _ _ _ _ _ _ _ _ V DF HQ HN HS HK k s s' H1 H2)
    as (sub & SV & _ & RH & _).
  cbn [K builtin_components k_solve] in SV.
  assert (FD : exists old v, k_fit K pts (map (fun y => map (fun k => Fin (q k (fun_of y))) (seq 0 (ft_w ft w))) pts) (st_region s') old
     = Ok v /\ k_agg K v = Ok (st_model s') /\ Forall (fun y => length y = d) pts /\ r_center (st_region s') = st_x s).
  { open_run V. destruct (Z.ltb_spec 1 (n_evals_at_start O)) as [Hs|_]; [lia|]. simpl in MF0.
    assert (HD : forall t v, no_reevaluation (k_decider K t v) /\ k_decider K t v <> NaiveNoisy).
    { intros t v. rewrite HK. split; [exact I|discriminate]. }
    pose proof (det_start _ _ _ _ _ _ K O _ _ _ _ L0 MF0 T0 I0 F0 HN) as DI.
    destruct (chain_inv _ _ _ _ _ _ _ _ _ CH DI) as [_ DL].
    { intros a ap c LK. apply (det_step _ _ _ _ _ HQ HD _ _ _ LK). }
    rewrite RS in H1, H2.
    destruct (consecutive _ _ _ _ _ st0 _ _ _ CH (agrees_refl _)) as [CS _].
    destruct (CS k s s' H1 H2) as (a & c & Hl & LK & (G1 & _ & G3 & _)).
    destruct (DL _ _ (nth_error_In _ _ Hl)) as ((P1 & P2 & _) & _ & TA).
    destruct (chain_prefix _ _ _ _ _ _ _ _ CH) as (_ & _ & PF).
    destruct (PF _ _ (nth_error_In _ _ Hl)) as (c' & LK' & (X1 & EX1) & _). clear LK c. rename LK' into LK, c' into c.
    destruct (lk_ok _ _ _ _ _ _ _ _ LK) as [D HI].
    pose proof (io_work _ _ _ _ _ _ _ _ _ HI) as WK.
    destruct (gw_fit _ _ _ _ _ _ _ _ _ WK) as (h1 & xs & fv & _ & KF & KA & -> & ->).
    rewrite (io_ap _ _ _ _ _ _ _ _ _ HI) in *.
    cbn [update_state st_model st_region st_model_indices] in *.
    destruct GZ as (GL & _). rewrite Hz in GL. destruct (lk_a _ _ _ _ _ _ _ _ LK) as (GA & _ & [AP AC]).
    set (Xm := n_X a ++ i_X1 D ++ i_X3 D) in *. set (Em := n_E a ++ i_E1 D ++ i_E3 D) in *.
    assert (EZ : n_X z = Xm ++ i_X2 D ++ X1).
    { rewrite EX1, (io_X _ _ _ _ _ _ _ _ _ HI). unfold Xm. now rewrite <- !app_assoc. }
    assert (EP : pts = map (fun i => nth i Xm []) (w_indices (i_wk D))).
    { apply (xs_many_exact ft d w h (n_X z) (n_E z)) in GX; [|exact GL| |].
      - rewrite GX, EZ. apply map_nth_app. exact (gw_lt _ _ _ _ _ _ _ _ _ WK).
      - rewrite EZ. intros Q. apply app_eq_nil in Q as [Q _]. unfold Xm in Q. apply app_eq_nil in Q as [Q _].
        rewrite Q in AP. now destruct (st_index (n_st a)).
      - eapply Forall_impl; [|exact (gw_lt _ _ _ _ _ _ _ _ _ WK)]. intros i Hi. rewrite EZ, app_length. cbv beta in Hi. fold Xm in Hi. apply Nat.lt_lt_add_r, Hi. }
    destruct (haslog_dims _ _ _ _ _ _ GL) as (FZ & _).
    assert (DX : Forall (fun y => length y = d) Xm) by (rewrite EZ in FZ; now apply Forall_app in FZ as [FZ _]).
    exists (st_vector_model (n_st a)), (f_vm (w_fit (i_wk D))). split; [|split; [exact KA|split]].
    - rewrite EP, map_map. rewrite <- KF. f_equal. apply map_ext_in. intros i Hi.
      assert (Hlt : (i < length Xm)%nat) by (pose proof (gw_lt _ _ _ _ _ _ _ _ _ WK) as F; rewrite Forall_forall in F; auto).
      set (y := nth i Xm []).
      assert (Ly : length y = d) by (rewrite Forall_forall in DX; apply DX, nth_In; easy).
      symmetry.
      assert (TM : true_evals (k_crit K) (n_X c) Em).
      { pose proof (io_true _ _ _ _ _ _ _ _ _ HI) as TT. rewrite (io_X _ _ _ _ _ _ _ _ _ HI) in *.
        unfold Em. apply true_evals_app.
        - now apply true_evals_more.
        - intros j vj Hj. apply TT. apply in_or_app. now left. }
      pose proof (mean_const (map (fun k => q k (fun_of y)) (seq 0 (ft_w ft w))) (evals_of i Em)) as MC.
      rewrite map_length, seq_length, map_map in MC. apply MC.
      + pose proof (gw_n _ _ _ _ _ _ _ _ _ WK i Hi) as Q. fold Em in Q. rewrite P1 in Q. intros Z. rewrite Z in Q. cbn in Q. lia.
      + intros v Hv. apply evals_of_In in Hv. destruct (TM i v Hv) as (y' & Hy & TE).
        assert (y' = y) as ->.
        { assert (XC : n_X c = Xm ++ i_X2 D) by (rewrite (io_X _ _ _ _ _ _ _ _ _ HI); unfold Xm; now rewrite <- !app_assoc).
          rewrite XC, nth_error_app1 in Hy by easy. apply nth_error_nth with (d := []) in Hy. now symmetry. }
        rewrite <- RE by easy.
        destruct TE as (hh & args & cores & outs & j & o & E & Lo & Ha & Ho & ->).
        rewrite (DF hh args cores) in E. injection E as <-. rewrite nth_error_map, Ha in Ho. now injection Ho as <-.
    - rewrite EP. apply Forall_map, Forall_forall. intros i Hi. pose proof (gw_lt _ _ _ _ _ _ _ _ _ WK) as F.
      rewrite Forall_forall in F, DX. apply DX, nth_In. now apply F.
    - rewrite AC. congruence. }
  destruct FD as (old & v & KF & KA & FP & RC). cbn [K builtin_components k_fit k_agg] in KF, KA.
  destruct (region_proper d b Hd0 BD HNF (st_region s') RO) as (rad & PR & _ & Lc & MS & DG).
  destruct (C177_model_is_exact X ch ft d w (st_region s') old pts q LS NR AG Lc MS DG NP FP EF PQ DET)
    as (v' & m & E1 & E2 & _ & PM).
  rewrite KF in E1. injection E1 as <-. rewrite KA in E2. injection E2 as E2. rewrite E2 in SV.
  destruct (solve_decrease X ch d m (st_region s') sub _ rad b ED Lc PR SV) as (e & EE & Pe & Ls & De).
  assert (VL : forall y, length y = d -> Fin (predict_scalar m (fun_of (map_to_unit (st_region s') y))) = value ft f y).
  { intros y Ly. rewrite PM by easy. unfold value. now rewrite RE. }
  set (u := predict_scalar m (fun_of (map_to_unit (st_region s') (r_center (st_region s'))))) in *.
  assert (VU : value ft f (st_x s) = Fin u) by (rewrite <- RC; symmetry; now apply VL).
  assert (VS : value ft f (sub_x sub) = Fin (u - e)) by (rewrite <- VL by easy; f_equal; lra).
  destruct (RH u (u - e) e VU VS EE) as [(R1 & R2 & R3) AC].
  exists m, sub, e, u. rewrite E2. split; [easy|]. split; [exact VL|]. split; [exact SV|]. split; [exact EE|]. split; [exact Pe|].
  split; [exact VU|]. split; [exact VS|]. split; [|split].
  - intros He. rewrite R1 by lra. f_equal. field. lra.
  - intros ->. apply R3; lra.
  - rewrite AC. split; lra.
Qed.

(** C178 instance: the run of C142 with one iteration: the step to (1.08, 0) has expected and actual
    improvement 2 * 0.54^2, rho is 1 and the step is accepted. *)
Definition ex_f142 (x : vec) : outcome := Ret (VV (map Fin (ex_res x))).

Example C178_instance : exists h r s s',
  tranquilo (builtin_components (ex_ext ls) ls_choices 2 3 ex_crit142 1) (ls_config 1) LeastSquares 0 [0; 0] 1 (Some b56)
    = (h, Ok r) /\
  res_states r = [s; s'] /\ st_rho s' = Fin 1 /\ st_accepted s' = true.
Proof.
  destruct (run_142 ls ls_ok) as (h & r & i & y & E & _ & _ & _ & s & s' & RS & Sx & Sr & Si & GX & SU).
  assert (V : valid_run LeastSquares 2 3 (builtin_components (ex_ext ls) ls_choices 2 3 ex_crit142 1) (ls_config 1) 0 [0; 0] 1
    (Some b56) h r).
  { constructor; try easy; try lia. apply C140_builtin_components_good; [apply ex_ext_dims|apply ex_crit142_good]. }
  assert (RO : region_of 2 (Some b56) reg56).
  { exists [0; 0], 1. pose proof reg56_proper as PR. unfold proper_region in PR. decompose [and] PR. auto. }
  destruct (C178_exact_steps (ex_ext ls) ls_choices LeastSquares 2 3 ex_crit142 1 (ls_config 1) 0 [0; 0] 1 (Some b56) h r
    ex_f142 ex_q V) with (k := 0%nat) (s := s) (s' := s') (pts := ex_pts)
    as (m & sub & e & u & _ & _ & SV & _ & Pe & VU & VS & R1 & _ & AC);
    rewrite ?RS, ?Sr, ?Si; try easy.
  - apply ex_ext_dims.
  - intros. apply ls_ok.
  - apply b56_ok.
  - apply b56_ok.
  - intros k _. apply ex_q_poly.
  - apply ex_determining.
  - exists h, r, s, s'. split; [exact E|]. split; [exact RS|]. rewrite Sr in SV. rewrite (SU _ SV) in VS.
    rewrite Sx in VU. cbn in VU, VS. injection VU as VU. injection VS as VS.
    split; [apply R1; lra|apply AC; cbn; lra].
Qed.
