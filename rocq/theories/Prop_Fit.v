(** Properties C41-C47: features, regressions, reconstruction of models and clipping. *)
From Coq Require Import Reals List Arith ZArith Bool Lia Lra Psatz.
From Verif Require Import Base XR Vec FVec ModelsModel FitModel Prop_Models.
Import ListNotations.
Open Scope R_scope.

(** * Index sets *)

Lemma quad_pairs_In n p : In p (quad_pairs n) <-> (fst p <= snd p < n)%nat.
Proof.
  unfold quad_pairs. rewrite in_flat_map. destruct p as [a b]; simpl. split.
  - intros (i & Hi & H). apply in_map_iff in H as (j & [= -> ->] & H).
    apply in_seq in H. apply in_seq in Hi. lia.
  - intros H. exists a. split; [apply in_seq; lia|]. apply in_map_iff. exists b.
    split; [easy|]. apply in_seq. lia.
Qed.

Lemma NoDup_app A (l k : list A) :
  NoDup l -> NoDup k -> (forall a, In a l -> ~ In a k) -> NoDup (l ++ k).
Proof.
  induction l as [|a l IH]; simpl; intros Hl Hk H; [easy|].
  inversion Hl; subst. constructor.
  - rewrite in_app_iff. intros [?|?]; [easy|]. now apply (H a (or_introl eq_refl)).
  - apply IH; auto.
Qed.
Lemma NoDup_flat_map A B (f : A -> list B) l :
  NoDup l -> (forall a, In a l -> NoDup (f a)) ->
  (forall a b x, In a l -> In b l -> In x (f a) -> In x (f b) -> a = b) ->
  NoDup (flat_map f l).
Proof.
  induction l as [|a l IH]; simpl; intros Hl Hf Hd; [constructor|].
  inversion Hl; subst. apply NoDup_app; auto.
  - apply IH; auto. intros b c x Hb Hc. apply Hd; auto.
  - intros x Hx H. apply in_flat_map in H as (b & Hb & H).
    assert (a = b) by (apply (Hd a b x); auto). now subst.
Qed.
Lemma NoDup_map_pair A B (a : A) (l : list B) : NoDup l -> NoDup (map (fun j => (a, j)) l).
Proof.
  intros H. induction H; simpl; constructor; auto.
  rewrite in_map_iff. intros (y & [= ->] & Hy). easy.
Qed.
Lemma NoDup_map_pair' A B (a : A) (l : list B) : NoDup l -> NoDup (map (fun j => (j, a)) l).
Proof.
  intros H. induction H; simpl; constructor; auto.
  rewrite in_map_iff. intros (y & [= ->] & Hy). easy.
Qed.

Lemma quad_pairs_NoDup n : NoDup (quad_pairs n).
Proof.
  apply NoDup_flat_map; [apply seq_NoDup| |].
  - intros a _. apply NoDup_map_pair, seq_NoDup.
  - intros a b x _ _ Ha Hb. apply in_map_iff in Ha as (? & <- & _).
    apply in_map_iff in Hb as (? & [= ->] & _). easy.
Qed.

(** The enumeration of np.triu_indices is that of the feature loop. *)
Lemma filter_leb_seq a b i : (a <= i)%nat -> (i <= a + b)%nat ->
  filter (fun j => (i <=? j)%nat) (seq a b) = seq i (a + b - i).
Proof.
  revert a; induction b as [|b IH]; intros a Ha Hb; simpl.
  - now replace (a + 0 - i)%nat with 0%nat by lia.
  - destruct (Nat.leb_spec i a).
    + assert (i = a) by lia; subst. replace (a + S b - a)%nat with (S b) by lia. simpl. f_equal.
      clear IH Hb Ha H. assert (G : forall c, (a < c)%nat -> filter (fun j => (a <=? j)%nat) (seq c b) = seq c b).
      { induction b; intros c Hc; simpl; [easy|]. destruct (Nat.leb_spec a c); [|lia]. f_equal.
        apply IHb. lia. }
      apply G. lia.
    + rewrite IH by lia. f_equal. lia.
Qed.
Lemma filter_map_swap A B (f : B -> bool) (g : A -> B) l :
  filter f (map g l) = map g (filter (fun a => f (g a)) l).
Proof. induction l; simpl; [easy|]. destruct (f (g a)); simpl; now rewrite IHl. Qed.
Lemma filter_list_prod A B (f : A * B -> bool) l k :
  filter f (list_prod l k) = flat_map (fun a => filter f (map (fun b => (a, b)) k)) l.
Proof. induction l; simpl; [easy|]. now rewrite filter_app, IHl. Qed.
Lemma flat_map_ext_in A B (f g : A -> list B) l :
  (forall a, In a l -> f a = g a) -> flat_map f l = flat_map g l.
Proof. induction l; simpl; intros H; [easy|]. rewrite H, IHl; auto. Qed.

Lemma triu_indices_quad_pairs n : triu_indices n = quad_pairs n.
Proof.
  unfold triu_indices, quad_pairs. rewrite filter_list_prod. apply flat_map_ext_in.
  intros i Hi. apply in_seq in Hi. rewrite filter_map_swap. simpl. f_equal.
  rewrite filter_leb_seq by lia. f_equal.
Qed.

Lemma length_flat_map A B (f : A -> list B) l :
  length (flat_map f l) = list_sum (map (fun a => length (f a)) l).
Proof. induction l; simpl; [easy|]. now rewrite app_length, IHl. Qed.

Lemma quad_pairs_length n : length (quad_pairs n) = n_second_order_terms n.
Proof.
  unfold quad_pairs, n_second_order_terms. rewrite length_flat_map.
  rewrite (map_ext _ (fun i => (n - i)%nat)).
  2:{ intros i. now rewrite map_length, seq_length. }
  assert (G : forall k, (k <= n)%nat ->
     (2 * list_sum (map (fun i => (n - i)%nat) (seq (n - k) k)) = k * (k + 1))%nat).
  { induction k as [|k IH]; intros Hk; [reflexivity|]. simpl seq. simpl map.
    cbn [list_sum fold_right]. change (fold_right Nat.add 0%nat) with list_sum.
    replace (S (n - S k)) with (n - k)%nat by lia. specialize (IH ltac:(lia)). lia. }
  specialize (G n (le_n n)). rewrite Nat.sub_diag in G.
  apply Nat.div_unique_exact; lia.
Qed.

(** * C41 *)

Lemma n_features_row n t x : length (feature_row n t x) = n_features n t.
Proof.
  unfold n_features, feature_row, quadratic_features. destruct t; simpl;
    rewrite ?app_length, ?map_length; reflexivity.
Qed.

(** C41 - n_free_params is the number of feature columns. *)
Theorem C41_free_params_match_features :
  forall n t x, n_free_params n t = length (feature_row n t x).
Proof.
  intros n t x. unfold n_free_params, feature_row, quadratic_features. destruct t; simpl.
  - rewrite map_length, seq_length. lia.
  - rewrite app_length, !map_length, seq_length, quad_pairs_length. lia.
Qed.

(** C41 - second order terms are the interactions and the squares. *)
Theorem C41_second_order_terms :
  forall n, n_second_order_terms n = (n_interactions n + n)%nat.
Proof.
  intros n. unfold n_second_order_terms, n_interactions.
  destruct n as [|n]; [reflexivity|].
  replace (S n * (S n + 1))%nat with (S n * (S n - 1) + S n * 2)%nat by lia.
  now rewrite Nat.div_add.
Qed.

Example ex_C41 : n_free_params 3 Quadratic = 10%nat /\ n_interactions 3 = 3%nat /\
  feature_row 2 Quadratic (fun i => match i with O => 2 | _ => 5 end)
  = [1; 2; 5; 2 * 2; 2 * 5; 5 * 5].
Proof. split; [reflexivity|]. split; reflexivity. Qed.

(** * Matrices assembled from coefficients *)

Definition upd (h : fmat) (pv : (nat * nat) * R) : fmat := assign h (fst pv) (snd pv).

Lemma assign_same h p v : assign h p v (fst p) (snd p) = v.
Proof. unfold assign. now rewrite !Nat.eqb_refl. Qed.
Lemma assign_other h p v i j : (i, j) <> p -> assign h p v i j = h i j.
Proof.
  intros H. unfold assign. destruct (Nat.eqb_spec i (fst p)), (Nat.eqb_spec j (snd p)); try easy.
  subst. destruct p. easy.
Qed.

Lemma assign_all_notin ps : forall vs h i j, ~ In (i, j) ps -> assign_all h ps vs i j = h i j.
Proof.
  unfold assign_all. induction ps as [|p ps IH]; intros [|v vs] h i j H; try easy.
  simpl. rewrite IH by (simpl in H; tauto). apply assign_other. simpl in H. intros E. apply H. now left.
Qed.

(** Sum over a matrix assembled from (position, value) pairs. *)
Lemma assign_bsum n h p v (w : fmat) : (fst p < n)%nat -> (snd p < n)%nat ->
  h (fst p) (snd p) = 0 ->
  bsum n (fun i => bsum n (fun j => assign h p v i j * w i j))
  = bsum n (fun i => bsum n (fun j => h i j * w i j)) + v * w (fst p) (snd p).
Proof.
  intros H1 H2 H0.
  rewrite (bsum_ext n _ (fun i => bsum n (fun j => h i j * w i j)
             + (if (i =? fst p)%nat then v * w (fst p) (snd p) else 0))).
  - rewrite bsum_plus, bsum_single by easy. reflexivity.
  - intros i Hi. destruct (Nat.eqb_spec i (fst p)) as [->|N].
    + rewrite (bsum_ext n _ (fun j => h (fst p) j * w (fst p) j
             + (if (j =? snd p)%nat then v * w (fst p) (snd p) else 0))).
      * rewrite bsum_plus, bsum_single by easy. reflexivity.
      * intros j Hj. destruct (Nat.eqb_spec j (snd p)) as [->|M].
        -- rewrite assign_same, H0. lra.
        -- rewrite assign_other by (destruct p; simpl in *; congruence). lra.
    + rewrite Rplus_0_r. apply bsum_ext. intros j Hj.
      rewrite assign_other by (destruct p; simpl in *; congruence). easy.
Qed.

Lemma assign_all_bsum n (w : fmat) ps : forall vs h,
  NoDup ps -> (forall p, In p ps -> (fst p < n)%nat /\ (snd p < n)%nat) ->
  (forall p, In p ps -> h (fst p) (snd p) = 0) -> length vs = length ps ->
  bsum n (fun i => bsum n (fun j => assign_all h ps vs i j * w i j))
  = bsum n (fun i => bsum n (fun j => h i j * w i j)) + dot vs (map (fun p => w (fst p) (snd p)) ps).
Proof.
  induction ps as [|p ps IH]; intros [|v vs] h ND HB H0 HL; try discriminate.
  - unfold assign_all, dot. simpl. lra.
  - unfold assign_all. simpl. fold (assign_all (assign h p v) ps vs).
    inversion ND; subst. rewrite IH; auto.
    + rewrite assign_bsum; try (now apply HB; left). 2:{ apply H0. now left. }
      rewrite dot_cons. lra.
    + intros q Hq. apply HB. now right.
    + intros q Hq. rewrite assign_other; [apply H0; now right|].
      rewrite <- surjective_pairing. now intros ->.
Qed.

(** * C42 *)

(** Splitting a dot product along the blocks of a feature vector. *)
Lemma dot_app a b c d : length a = length c -> dot (a ++ b) (c ++ d) = dot a c + dot b d.
Proof.
  revert c; induction a as [|x a IH]; intros [|y c] H; try discriminate; simpl.
  - unfold dot at 2. simpl. lra.
  - rewrite !dot_cons, IH by (simpl in H; lia). lra.
Qed.
Lemma bsum_dot n (x : fvec) c : length c = n ->
  bsum n (fun i => nth i c 0 * x i) = dot c (map x (seq 0 n)).
Proof.
  revert n x; induction c as [|a c IH]; intros n x <-; [reflexivity|]. simpl length.
  rewrite bsum_shift. cbn [seq map nth]. rewrite dot_cons. f_equal.
  rewrite <- seq_shift, map_map. now rewrite <- IH.
Qed.

Lemma nth_firstn_lt {A} k (l : list A) i d : (i < k)%nat -> nth i (firstn k l) d = nth i l d.
Proof.
  revert l i; induction k as [|k IH]; intros [|a l] [|i] H; simpl; auto; try lia.
  apply IH. lia.
Qed.

Lemma split_coef n (c : list R) : (n + 1 <= length c)%nat ->
  c = nth 0 c 0 :: firstn n (skipn 1 c) ++ skipn (n + 1) c.
Proof.
  destruct c as [|a c]; simpl length; intros H; [lia|]. simpl nth. f_equal.
  replace (skipn (n + 1) (a :: c)) with (skipn n c) by (now rewrite Nat.add_comm).
  simpl. now rewrite firstn_skipn.
Qed.

Lemma reshape_hess_value n vs h x : reshape_square_terms_to_hess n vs = Ok h ->
  length vs = n_second_order_terms n ->
  / 2 * bsum n (fun i => bsum n (fun j => h i j * x i * x j))
  = dot vs (map (fun p => x (fst p) * x (snd p)) (quad_pairs n)).
Proof.
  intros H HL. unfold reshape_square_terms_to_hess in H.
  rewrite triu_indices_quad_pairs, quad_pairs_length, HL, Nat.eqb_refl in H. cbn [bind] in H.
  injection H as <-. set (u := assign_all (fun _ _ => 0) (quad_pairs n) vs).
  assert (U0 : forall i j, (j < i)%nat -> u i j = 0).
  { intros i j Hij. unfold u. rewrite assign_all_notin; [easy|].
    rewrite quad_pairs_In. simpl. lia. }
  assert (S1 : bsum n (fun i => bsum n (fun j => (if (j <=? i)%nat then u j i else 0) * x i * x j))
             = bsum n (fun i => bsum n (fun j => u i j * (x i * x j)))).
  { rewrite bsum_swap. apply bsum_ext. intros i Hi. apply bsum_ext. intros j Hj.
    destruct (Nat.leb_spec i j); [lra|]. rewrite U0 by lia. lra. }
  rewrite (bsum_ext n _ (fun i => bsum n (fun j => u i j * (x i * x j))
      + bsum n (fun j => (if (j <=? i)%nat then u j i else 0) * x i * x j))).
  2:{ intros i Hi. rewrite <- bsum_plus. apply bsum_ext. intros. lra. }
  rewrite bsum_plus, S1. unfold u.
  rewrite (assign_all_bsum n (fun i j => x i * x j)).
  - rewrite (bsum_all_zero n (fun i => bsum n (fun j => 0 * (x i * x j)))).
    + lra.
    + intros i _. apply bsum_all_zero. intros. lra.
  - apply quad_pairs_NoDup.
  - intros p Hp. apply quad_pairs_In in Hp. lia.
  - easy.
  - now rewrite quad_pairs_length.
Qed.

Lemma reshape_hess_symm n vs h : reshape_square_terms_to_hess n vs = Ok h ->
  forall i j, h i j = h j i.
Proof.
  intros H i j. unfold reshape_square_terms_to_hess in H.
  destruct (if (_ =? _)%nat then _ else _) as [ws|]; [|discriminate]. cbn [bind] in H. injection H as <-.
  set (u := assign_all _ _ ws).
  assert (U0 : forall i j, (j < i)%nat -> u i j = 0).
  { intros a b Hab. unfold u. rewrite assign_all_notin; [easy|].
    rewrite triu_indices_quad_pairs, quad_pairs_In. simpl. lia. }
  destruct (Nat.leb_spec i j), (Nat.leb_spec j i); try lia; try lra.
  - rewrite (U0 j i) by lia. lra.
  - rewrite (U0 i j) by lia. lra.
Qed.

(** C42 - a model built from coefficients predicts "features times coefficients", for every
    residual, and its square terms are symmetric. *)
Theorem C42_fitted_model_predicts_features_times_coefs :
  forall n m t coef center radius,
    (forall k, length (coef k) = n_free_params n t) ->
    exists vm, build_vmodel n m t coef center radius = Ok vm /\
      (forall k x, predict_vector vm x k = dot (coef k) (feature_row n t x)) /\
      (forall h k i j, vm_h vm = Some h -> h k i j = h k j i) /\
      vm_shift vm = center /\ vm_scale vm = radius.
Proof.
  intros n m t coef center radius HL. unfold build_vmodel.
  assert (LIN : forall k x,
     bsum n (fun i => nth (1 + i) (coef k) 0 * x i) = dot (firstn n (skipn 1 (coef k))) (map x (seq 0 n))).
  { intros k x. rewrite <- bsum_dot.
    - apply bsum_ext. intros i Hi. rewrite nth_firstn_lt by easy.
      specialize (HL k). destruct (coef k); simpl; [|easy].
      now destruct i.
    - rewrite firstn_length, skipn_length, HL. unfold n_free_params. destruct t; lia. }
  destruct t.
  - eexists. split; [reflexivity|]. split; [|easy]. intros k x.
    rewrite predict_vector_value. unfold value_v, quad. cbn [vm_h vm_n vm_c vm_g].
    rewrite (bsum_all_zero n (fun i => bsum n (fun j => 0 * x i * x j)))
      by (intros; apply bsum_all_zero; intros; lra).
    cbn [vm_c vm_g]. rewrite LIN. pose proof (HL k) as Hk. cbn [n_free_params] in Hk.
    rewrite (split_coef n (coef k)) at 3 by lia. unfold feature_row. rewrite dot_cons.
    rewrite <- (app_nil_r (map x (seq 0 n))) at 2. rewrite dot_app.
    + rewrite dot_nil_r. lra.
    + rewrite firstn_length, skipn_length, map_length, seq_length. lia.
  - assert (OK : forall k, exists h, reshape_square_terms_to_hess n (skipn (n + 1) (coef k)) = Ok h).
    { intros k. unfold reshape_square_terms_to_hess.
      rewrite triu_indices_quad_pairs, quad_pairs_length.
      replace (length _) with (n_second_order_terms n).
      2:{ rewrite skipn_length, HL. simpl. lia. }
      rewrite Nat.eqb_refl. simpl. eauto. }
    destruct (OK 0%nat) as [h0 E0]. rewrite E0. cbn [bind]. eexists. split; [reflexivity|].
    split; [|split; [|easy]].
    + intros k x. rewrite predict_vector_value. unfold value_v, quad. cbn [vm_h vm_n vm_c vm_g].
      destruct (OK k) as [h E]. rewrite E, LIN.
      rewrite (reshape_hess_value n _ h x E).
      2:{ rewrite skipn_length, HL. simpl. lia. }
      pose proof (HL k) as Hk. cbn [n_free_params] in Hk.
      rewrite (split_coef n (coef k)) at 4 by lia. unfold feature_row, quadratic_features.
      rewrite dot_cons, dot_app.
      * lra.
      * rewrite firstn_length, skipn_length, map_length, seq_length. lia.
    + intros h k i j [= <-]. destruct (OK k) as [hk E]. rewrite E.
      now apply (reshape_hess_symm n _ hk E).
Qed.

(** The wrong number of square coefficients is never silently accepted, apart from numpy's
    broadcasting of a single one. *)
Theorem C42_wrong_number_of_coefficients_raises :
  forall n m coef center radius,
    length (skipn (n + 1) (coef 0%nat)) <> n_second_order_terms n ->
    length (skipn (n + 1) (coef 0%nat)) <> 1%nat ->
    build_vmodel n m Quadratic coef center radius = Err ValueError.
Proof.
  intros n m coef center radius H1 H2. unfold build_vmodel, reshape_square_terms_to_hess.
  rewrite triu_indices_quad_pairs, quad_pairs_length.
  destruct (Nat.eqb_spec (length (skipn (n + 1) (coef 0%nat))) (n_second_order_terms n)); [easy|].
  destruct (skipn (n + 1) (coef 0%nat)) as [|v [|v' l]]; try reflexivity. easy.
Qed.

Example ex_C42 : exists vm, build_vmodel 2 1 Quadratic (fun _ => [7; 1; 2; 3; 4; 5]) (fun _ => 0) (MScalar 1) = Ok vm
  /\ forall x y, predict_vector vm (fun i => match i with O => x | _ => y end) 0
                 = 7 + x + 2 * y + 3 * x * x + 4 * x * y + 5 * y * y.
Proof.
  destruct (C42_fitted_model_predicts_features_times_coefs 2 1 Quadratic
              (fun _ => [7; 1; 2; 3; 4; 5]) (fun _ => 0) (MScalar 1)) as (vm & E & P & _).
  - easy.
  - exists vm. split; [easy|]. intros x y. rewrite P. unfold dot. simpl. ring.
Qed.

(** C42 for the whole fitter: without residualizing, the fitted model predicts features
    times coefficients in the unit coordinates of the region it was fitted in. *)
Theorem C42_fitter_template_predicts_features_times_coefs :
  forall clip fitter n m t center radius old xs ys vm,
    fitter_template clip fitter n m t false center radius old xs ys = Ok vm ->
    exists coef,
      fitter (map (fun x i => (x i - center i) / scale_at radius i) xs) (clip ys) = Ok coef /\
      ((forall k, length (coef k) = n_free_params n t) ->
       vm_shift vm = center /\ vm_scale vm = radius /\
       forall k x, predict_vector vm x k = dot (coef k) (feature_row n t x)).
Proof.
  intros clip fitter n m t center radius old xs ys vm H. unfold fitter_template in H.
  destruct (fitter _ _) as [coef|] eqn:E; [|discriminate]. cbn [bind] in H.
  exists coef. split; [easy|]. intros HL.
  destruct (C42_fitted_model_predicts_features_times_coefs n m t coef center radius HL)
    as (vm' & E' & P & _ & S1 & S2).
  rewrite H in E'. injection E' as <-. easy.
Qed.

(** * C43 *)

(** Sum of squared residuals of the linear system A c = b. *)
Definition ssr (N p : nat) (A : fmat) (b c : fvec) : R :=
  bsum N (fun i => (bsum p (fun j => A i j * c j) - b i) ^ 2).
Definition is_lstsq (N p : nat) (A : fmat) (b c : fvec) : Prop :=
  forall c', ssr N p A b c <= ssr N p A b c'.
(** The documented behaviour of np.linalg.lstsq. *)
Definition is_min_norm_lstsq (N p : nat) (A : fmat) (b c : fvec) : Prop :=
  is_lstsq N p A b c /\ forall c', is_lstsq N p A b c' -> fsq p c <= fsq p c'.

(** The oracle solves the system (A, b), however the entries outside the matrix look like. *)
Definition answers (P : nat -> nat -> fmat -> fvec -> fvec -> Prop) (lstsq : lstsq_oracle)
    (N p : nat) (A : fmat) (b : fvec) : Prop :=
  forall A' b', (forall i j, (i < N)%nat -> (j < p)%nat -> A' i j = A i j) ->
    (forall i, (i < N)%nat -> b' i = b i) -> P N p A b (lstsq N p A' b').

(** Sample weight and penalty of a coefficient. *)
Definition weight_at (w : option fvec) (i : nat) : R :=
  match w with None => 1 | Some w => w i end.
Definition penalty_at (n : nat) (p_intercept p_linear p_square : R) (j : nat) : R :=
  if (j =? 0)%nat then p_intercept else if (j <=? n)%nat then p_linear else p_square.

(** Weighted sum of squared errors of the model with coefficients [c] on the sample. *)
Definition fit_error (N n : nat) (t : model_type) (X : nat -> fvec) (y : fvec)
    (w : option fvec) (c : fvec) : R :=
  bsum N (fun i => weight_at w i *
     (dot (map c (seq 0 (n_free_params n t))) (feature_row n t (X i)) - y i) ^ 2).

Lemma n_features_free n t : n_features n t = n_free_params n t.
Proof. unfold n_features. now rewrite (C41_free_params_match_features n t (fun _ => 0)). Qed.

Lemma bsum_dot_fun p c l : length l = p -> bsum p (fun j => nth j l 0 * c j) = dot (map c (seq 0 p)) l.
Proof. intros H. now rewrite (bsum_dot p c l H), dot_comm. Qed.

(** The weighted system in function form. *)
Lemma add_weighting_ssr N n t X y w Fw yw c :
  (forall i, (i < N)%nat -> 0 <= weight_at w i) ->
  add_weighting (feature_matrix n t X) y w = (Fw, yw) ->
  ssr N (n_free_params n t) Fw yw c = fit_error N n t X y w c.
Proof.
  intros Hw E. unfold ssr, fit_error. apply bsum_ext. intros i Hi.
  assert (L : bsum (n_free_params n t) (fun j => feature_matrix n t X i j * c j)
            = dot (map c (seq 0 (n_free_params n t))) (feature_row n t (X i))).
  { unfold feature_matrix. apply bsum_dot_fun. now rewrite n_features_row, n_features_free. }
  rewrite <- L. specialize (Hw i Hi). destruct w as [w|]; injection E as <- <-; cbn [weight_at] in *.
  - rewrite (bsum_ext _ _ (fun j => feature_matrix n t X i j * c j * sqrt (w i)))
      by (intros; lra).
    rewrite bsum_scal_r. set (B := bsum _ _). rewrite <- Rmult_minus_distr_r, Rpow_mult_distr.
    rewrite (pow2_sqrt (w i)) by easy. lra.
  - lra.
Qed.

Lemma factors_nth n p a b c j : (n + 1 <= p)%nat -> (j < p)%nat ->
  nth j (penalty_factors n p a b c) 0 = 1 / penalty_at n a b c j.
Proof.
  intros Hp Hj. unfold penalty_factors, penalty_at.
  destruct j as [|j]; [reflexivity|]. simpl app. cbn [nth]. replace (S j =? 0)%nat with false by easy.
  destruct (Nat.leb_spec (S j) n).
  - rewrite app_nth1 by (rewrite repeat_length; lia). rewrite nth_indep with (d' := 1 / b)
      by (rewrite repeat_length; lia). apply nth_repeat.
  - rewrite app_nth2; rewrite repeat_length; [|lia].
    rewrite nth_indep with (d' := 1 / c) by (rewrite repeat_length; lia). apply nth_repeat.
Qed.

Lemma ssr_ext N p A A' b b' c c' :
  (forall i j, (i < N)%nat -> (j < p)%nat -> A i j * c j = A' i j * c' j) ->
  (forall i, (i < N)%nat -> b i = b' i) -> ssr N p A b c = ssr N p A' b' c'.
Proof.
  intros HA Hb. unfold ssr. apply bsum_ext. intros i Hi. rewrite (Hb i Hi). do 2 f_equal.
  apply bsum_ext. intros j Hj. now apply HA.
Qed.

(** C43 - fit_tranquilo returns a minimizer of the weighted sum of squared errors, and of
    all minimizers (in particular: of all interpolating coefficient vectors) the one with
    the smallest penalty-weighted norm, provided the inner solver returns the minimum norm
    solution of the rescaled problem. *)
Theorem C43_fit_tranquilo_minimizes_penalty_weighted_norm :
  forall lstsq N n t X y w pI pL pS coef Fw yw,
    0 < pI -> 0 < pL -> 0 < pS ->
    (forall i, (i < N)%nat -> 0 <= weight_at w i) ->
    add_weighting (feature_matrix n t X) y w = (Fw, yw) ->
    answers is_min_norm_lstsq lstsq N (n_free_params n t)
            (fun i j => Fw i j / penalty_at n pI pL pS j) yw ->
    coef = fit_tranquilo lstsq N n t X y w pI pL pS ->
    (forall c, fit_error N n t X y w coef <= fit_error N n t X y w c) /\
    (forall c, fit_error N n t X y w c <= fit_error N n t X y w coef ->
       bsum (n_free_params n t) (fun j => (penalty_at n pI pL pS j * coef j) ^ 2)
       <= bsum (n_free_params n t) (fun j => (penalty_at n pI pL pS j * c j) ^ 2)).
Proof.
  intros lstsq N n t X y w pI pL pS coef Fw yw HI HL HS Hw E HA ->.
  assert (HP : forall j, 0 < penalty_at n pI pL pS j).
  { intros j. unfold penalty_at. destruct (_ =? _)%nat; [easy|]. now destruct (_ <=? _)%nat. }
  assert (Hpn : (n + 1 <= n_free_params n t)%nat) by (destruct t; simpl; lia).
  unfold fit_tranquilo. rewrite E, n_features_free.
  set (p := n_free_params n t) in *. set (pen := penalty_at n pI pL pS) in *.
  set (fac := penalty_factors n p pI pL pS).
  assert (HF : forall j, (j < p)%nat -> nth j fac 0 = 1 / pen j).
  { intros j Hj. now apply factors_nth. }
  specialize (HA (fun i j => Fw i j * nth j fac 0) yw).
  destruct HA as [A1 A2].
  { intros i j _ Hj. rewrite HF by easy. lra. }
  { easy. }
  set (raw := lstsq N p (fun i j => Fw i j * nth j fac 0) yw) in *.
  assert (Q : forall c, ssr N p (fun i j => Fw i j / pen j) yw (fun j => pen j * c j)
                        = fit_error N n t X y w c).
  { intros c. rewrite <- (add_weighting_ssr N n t X y w Fw yw c Hw E). apply ssr_ext; [|easy].
    intros i j _ _. field. specialize (HP j). lra. }
  assert (R0 : feq p raw (fun j => pen j * (raw j * nth j fac 0))).
  { intros j Hj. rewrite HF by easy. field. specialize (HP j). lra. }
  assert (R1 : ssr N p (fun i j => Fw i j / pen j) yw raw
               = fit_error N n t X y w (fun j => raw j * nth j fac 0)).
  { rewrite <- Q. apply ssr_ext; [|easy]. intros i j _ Hj. now rewrite (R0 j Hj) at 1. }
  split.
  - intros c. rewrite <- R1, <- (Q c). apply A1.
  - intros c Hc. rewrite <- R1, <- (Q c) in Hc.
    specialize (A2 (fun j => pen j * c j)).
    assert (A3 : fsq p raw <= fsq p (fun j => pen j * c j)).
    { apply A2. intros c'. eapply Rle_trans; [exact Hc|]. apply A1. }
    rewrite (fsq_ext p raw _ R0) in A3. unfold fsq, fdot in A3.
    rewrite (bsum_ext p (fun j => (pen j * (raw j * nth j fac 0)) ^ 2)
       (fun j => pen j * (raw j * nth j fac 0) * (pen j * (raw j * nth j fac 0)))) by (intros; simpl; lra).
    rewrite (bsum_ext p (fun j => (pen j * c j) ^ 2) (fun j => pen j * c j * (pen j * c j)))
      by (intros; simpl; lra).
    exact A3.
Qed.

(** C43 - its fitted values are those of the rescaled regression. *)
Theorem C43_fitted_values_of_rescaled_regression :
  forall lstsq N n t X y pI pL pS i,
    let p := n_free_params n t in
    let scaled := fun i j => nth j (feature_row n t (X i)) 0
                             * nth j (penalty_factors n p pI pL pS) 0 in
    dot (map (fit_tranquilo lstsq N n t X y None pI pL pS) (seq 0 p)) (feature_row n t (X i))
    = bsum p (fun j => scaled i j * lstsq N p scaled y j).
Proof.
  intros lstsq N n t X y pI pL pS i p scaled.
  rewrite <- bsum_dot_fun by (rewrite n_features_row; apply n_features_free).
  unfold fit_tranquilo, add_weighting, feature_matrix. rewrite n_features_free. fold p.
  apply bsum_ext. intros j Hj. unfold scaled. lra.
Qed.

(** Example: one sample (x = 1, y = 2), linear model, slopes penalized twice as strongly
    as the intercept: coefficients 8/5 and 2/5. *)
Definition ex_lstsq : lstsq_oracle := fun _ _ _ _ j => match j with O => 8/5 | _ => 4/5 end.
Example ex_C43_answers :
  answers is_min_norm_lstsq ex_lstsq 1 2
    (fun i j => feature_matrix 1 Linear (fun _ _ => 1) i j / penalty_at 1 1 2 3 j) (fun _ => 2).
Proof.
  intros A' b' _ _. unfold ex_lstsq. split.
  - intros c'. unfold ssr, feature_matrix, penalty_at. simpl.
    match goal with |- ?a <= _ => replace a with 0 by field end.
    rewrite Rmult_1_r, Rplus_0_l. apply Rle_0_sqr.
  - intros c' Hc. specialize (Hc (fun j => match j with O => 8/5 | _ => 4/5 end)).
    unfold ssr, feature_matrix, penalty_at in Hc. simpl in Hc. unfold fsq, fdot. simpl.
    set (a := c' 0%nat) in *. set (b := c' 1%nat) in *.
    match type of Hc with ?l <= ?r =>
      replace r with 0 in Hc by field;
      replace l with ((a + b / 2 - 2) * (a + b / 2 - 2)) in Hc by field end.
    assert (a + b / 2 - 2 = 0) by nra.
    assert (a = 2 - b / 2) as -> by lra.
    pose proof (pow2_ge_0 (b - 4 / 5)). simpl in *. lra.
Qed.
Example ex_C43 : let coef := fit_tranquilo ex_lstsq 1 1 Linear (fun _ _ => 1) (fun _ => 2) None 1 2 3 in
  coef 0%nat = 8/5 /\ coef 1%nat = 2/5.
Proof. unfold fit_tranquilo, ex_lstsq, penalty_factors. simpl. lra. Qed.

(** * C100: ridge regression *)

Lemma lstsq_normal N p A b c : is_lstsq N p A b c ->
  forall j, (j < p)%nat -> bsum N (fun i => A i j * (bsum p (fun k => A i k * c k) - b i)) = 0.
Proof.
  intros H j Hj. set (r := fun i => bsum p (fun k => A i k * c k) - b i).
  set (B := bsum N (fun i => A i j * r i)). set (S := bsum N (fun i => A i j * A i j)).
  assert (HS : 0 <= S) by (apply bsum_nonneg; intros; nra).
  assert (G : forall t, 0 <= 2 * t * B + t * t * S).
  { intros t. specialize (H (fun k => c k + (if (k =? j)%nat then t else 0))).
    unfold ssr in H.
    rewrite (bsum_ext N (fun i => (bsum p (fun k => A i k * (c k + (if (k =? j)%nat then t else 0))) - b i) ^ 2)
       (fun i => r i ^ 2 + (2 * t * (A i j * r i) + t * t * (A i j * A i j)))) in H.
    - rewrite !bsum_plus, !bsum_scal in H. fold B S in H. fold r in H.
      change (bsum N (fun i => (bsum p (fun k => A i k * c k) - b i) ^ 2))
        with (bsum N (fun i => r i ^ 2)) in H. lra.
    - intros i Hi.
      rewrite (bsum_ext p _ (fun k => A i k * c k + (if (k =? j)%nat then A i j * t else 0))).
      + rewrite bsum_plus, bsum_single by easy. unfold r. ring.
      + intros k Hk. destruct (Nat.eqb_spec k j) as [->|]; lra. }
  specialize (G (- B / (S + 1))).
  assert (E : 2 * (- B / (S + 1)) * B + (- B / (S + 1)) * (- B / (S + 1)) * S
            = - (B * B) * (S + 2) / ((S + 1) * (S + 1))) by (field; lra).
  rewrite E in G.
  destruct (Req_dec B 0) as [E0|N0]; [exact E0|exfalso].
  assert (0 < B * B) by nra.
  assert (0 < B * B * (S + 2) / ((S + 1) * (S + 1))).
  { apply Rdiv_lt_0_compat; nra. }
  unfold Rdiv in *. nra.
Qed.

Lemma is_lstsq_ext N p A A' b b' c :
  (forall i j, (i < N)%nat -> (j < p)%nat -> A i j = A' i j) ->
  (forall i, (i < N)%nat -> b i = b' i) -> is_lstsq N p A b c -> is_lstsq N p A' b' c.
Proof.
  intros HA Hb H c'. rewrite <- (ssr_ext N p A A' b b' c c), <- (ssr_ext N p A A' b b' c' c');
    auto; intros; now rewrite HA.
Qed.

(** Solutions of the regularized normal equations minimize the penalized objective. *)
Lemma ridge_solution N p (F : fmat) (y pen c : fvec) :
  (forall j, (j < p)%nat -> 0 <= pen j) ->
  is_lstsq p p (fun j k => bsum N (fun i => F i j * F i k) + (if (j =? k)%nat then pen j else 0))
           (fun j => bsum N (fun i => F i j * y i)) c ->
  forall c', ssr N p F y c + bsum p (fun j => pen j * c j ^ 2)
             <= ssr N p F y c' + bsum p (fun j => pen j * c' j ^ 2).
Proof.
  intros Hpen H.
  set (M := fun j k => bsum N (fun i => F i j * F i k) + (if (j =? k)%nat then pen j else 0)) in *.
  set (b := fun j => bsum N (fun i => F i j * y i)) in *.
  set (r := fun j => bsum p (fun k => M j k * c k) - b j).
  (* action of M *)
  assert (MV : forall v j, (j < p)%nat ->
     bsum p (fun k => M j k * v k) = bsum N (fun i => F i j * bsum p (fun k => F i k * v k)) + pen j * v j).
  { intros v j Hj. unfold M.
    rewrite (bsum_ext p _ (fun k => bsum N (fun i => F i j * F i k * v k)
                                    + (if (k =? j)%nat then pen j * v j else 0))).
    - rewrite bsum_plus, bsum_single, bsum_swap by easy. f_equal.
      apply bsum_ext. intros i Hi. rewrite <- bsum_scal. apply bsum_ext. intros. lra.
    - intros k Hk. rewrite Rmult_plus_distr_r, bsum_scal_r. f_equal.
      rewrite Nat.eqb_sym. destruct (Nat.eqb_spec k j) as [->|]; lra. }
  assert (MS : forall j k, (j < p)%nat -> (k < p)%nat -> M j k = M k j).
  { intros j k _ _. unfold M. f_equal.
    - apply bsum_ext. intros. lra.
    - rewrite Nat.eqb_sym. destruct (Nat.eqb_spec k j) as [->|]; lra. }
  (* M r = 0 *)
  assert (MR : forall j, (j < p)%nat -> bsum p (fun k => M j k * r k) = 0).
  { intros j Hj. rewrite <- (lstsq_normal p p M b c H j Hj). apply bsum_ext. intros k Hk.
    rewrite (MS j k) by easy. reflexivity. }
  (* r' M r = |F r|^2 + sum pen r^2 *)
  assert (QF : forall v, bsum p (fun j => v j * bsum p (fun k => M j k * v k))
       = bsum N (fun i => bsum p (fun k => F i k * v k) ^ 2) + bsum p (fun j => pen j * v j ^ 2)).
  { intros v. rewrite (bsum_ext p _ (fun j => v j * bsum N (fun i => F i j * bsum p (fun k => F i k * v k))
                                     + pen j * v j ^ 2)).
    2:{ intros j Hj. rewrite MV by easy. simpl. lra. }
    rewrite bsum_plus. f_equal.
    rewrite (bsum_ext p _ (fun j => bsum N (fun i => F i j * v j * bsum p (fun k => F i k * v k)))).
    2:{ intros j Hj. rewrite <- bsum_scal. apply bsum_ext. intros. lra. }
    rewrite bsum_swap. apply bsum_ext. intros i Hi. rewrite bsum_scal_r. simpl. lra. }
  assert (FR : forall i, (i < N)%nat -> bsum p (fun k => F i k * r k) = 0).
  { assert (Z : bsum N (fun i => bsum p (fun k => F i k * r k) ^ 2) + bsum p (fun j => pen j * r j ^ 2) = 0).
    { rewrite <- QF. apply bsum_all_zero. intros j Hj. rewrite MR by easy. lra. }
    assert (Z1 : 0 <= bsum N (fun i => bsum p (fun k => F i k * r k) ^ 2))
      by (apply bsum_nonneg; intros; apply pow2_ge_0).
    assert (Z2 : 0 <= bsum p (fun j => pen j * r j ^ 2)).
    { apply bsum_nonneg. intros j Hj. apply Rmult_le_pos; [now apply Hpen|apply pow2_ge_0]. }
    intros i Hi.
    assert (Z3 : bsum N (fun i => bsum p (fun k => F i k * r k) ^ 2) = 0) by lra.
    pose proof (bsum_nonneg_zero N _ (fun i _ => pow2_ge_0 _) Z3 i Hi) as Z4. simpl in Z4. nra. }
  assert (R0 : forall j, (j < p)%nat -> r j = 0).
  { apply fsq_zero. unfold fsq, fdot.
    rewrite (bsum_ext p _ (fun j => r j * bsum p (fun k => M j k * c k) - r j * b j))
      by (intros; unfold r at 2; lra).
    rewrite bsum_minus.
    replace (bsum p (fun j => r j * bsum p (fun k => M j k * c k))) with 0.
    - replace (bsum p (fun j => r j * b j)) with 0; [lra|]. symmetry.
      rewrite (bsum_ext p _ (fun j => bsum N (fun i => F i j * r j * y i))).
      2:{ intros j Hj. unfold b. rewrite <- bsum_scal. apply bsum_ext. intros. lra. }
      rewrite bsum_swap. apply bsum_all_zero. intros i Hi. rewrite bsum_scal_r, FR by easy. lra.
    - symmetry.
      rewrite (bsum_ext p _ (fun j => bsum p (fun k => M k j * r j * c k))).
      2:{ intros j Hj. rewrite <- bsum_scal. apply bsum_ext. intros k Hk. rewrite (MS j k) by easy. lra. }
      rewrite bsum_swap. apply bsum_all_zero. intros k Hk. rewrite bsum_scal_r, MR by easy. lra. }
  (* convexity *)
  intros c'. set (d := fun j => c' j - c j).
  assert (EQ : ssr N p F y c' + bsum p (fun j => pen j * c' j ^ 2)
      = ssr N p F y c + bsum p (fun j => pen j * c j ^ 2)
        + (bsum N (fun i => bsum p (fun k => F i k * d k) ^ 2) + bsum p (fun j => pen j * d j ^ 2))
        + 2 * bsum p (fun j => d j * r j)).
  { rewrite <- QF.
    assert (S' : ssr N p F y c' = ssr N p F y c + bsum N (fun i => bsum p (fun k => F i k * d k) ^ 2)
        + 2 * bsum N (fun i => bsum p (fun k => F i k * d k) * (bsum p (fun k => F i k * c k) - y i))).
    { unfold ssr. rewrite <- bsum_scal, <- !bsum_plus. apply bsum_ext. intros i Hi.
      rewrite (bsum_ext p (fun j => F i j * c' j) (fun j => F i j * c j + F i j * d j))
        by (intros; unfold d; lra).
      rewrite bsum_plus. ring. }
    assert (P' : bsum p (fun j => pen j * c' j ^ 2) = bsum p (fun j => pen j * c j ^ 2)
        + bsum p (fun j => pen j * d j ^ 2) + 2 * bsum p (fun j => d j * (pen j * c j))).
    { rewrite <- bsum_scal, <- !bsum_plus. apply bsum_ext. intros. unfold d. ring. }
    assert (D' : bsum p (fun j => d j * r j)
        = bsum N (fun i => bsum p (fun k => F i k * d k) * (bsum p (fun k => F i k * c k) - y i))
          + bsum p (fun j => d j * (pen j * c j))).
    { rewrite (bsum_ext p _ (fun j => bsum N (fun i => F i j * d j * (bsum p (fun k => F i k * c k) - y i))
                                     + d j * (pen j * c j))).
      - rewrite bsum_plus. f_equal. rewrite bsum_swap. apply bsum_ext. intros i Hi.
        now rewrite bsum_scal_r.
      - intros j Hj. unfold r, b. rewrite MV by easy.
        rewrite (bsum_ext N (fun i => F i j * d j * _) (fun i => d j * (F i j * bsum p (fun k => F i k * c k))
           - d j * (F i j * y i))) by (intros; lra).
        rewrite bsum_minus, !bsum_scal. lra. }
    rewrite S', P', QF, D'. lra. }
  rewrite EQ.
  replace (bsum p (fun j => d j * r j)) with 0
    by (symmetry; apply bsum_all_zero; intros j Hj; rewrite R0 by easy; lra).
  assert (0 <= bsum N (fun i => bsum p (fun k => F i k * d k) ^ 2))
      by (apply bsum_nonneg; intros; apply pow2_ge_0).
  assert (0 <= bsum p (fun j => pen j * d j ^ 2)).
  { apply bsum_nonneg. intros j Hj. apply Rmult_le_pos; [now apply Hpen|apply pow2_ge_0]. }
  lra.
Qed.

(** C100 - fit_ridge returns the minimizer of the weighted squared errors plus the
    penalized squared coefficients; the intercept is not penalized.  The inner solver only
    has to return some least squares solution. *)
Theorem C100_fit_ridge_minimizes_penalized_error :
  forall lstsq N n t X y w l2l l2s coef Fw yw,
    0 <= l2l -> 0 <= l2s ->
    (forall i, (i < N)%nat -> 0 <= weight_at w i) ->
    add_weighting (feature_matrix n t X) y w = (Fw, yw) ->
    answers is_lstsq lstsq (n_free_params n t) (n_free_params n t)
      (fun j k => bsum N (fun i => Fw i j * Fw i k)
                  + (if (j =? k)%nat then penalty_at n 0 l2l l2s j else 0))
      (fun j => bsum N (fun i => Fw i j * yw i)) ->
    coef = fit_ridge lstsq N n t X y w l2l l2s ->
    forall c,
      fit_error N n t X y w coef
        + bsum (n_free_params n t) (fun j => penalty_at n 0 l2l l2s j * coef j ^ 2)
      <= fit_error N n t X y w c
        + bsum (n_free_params n t) (fun j => penalty_at n 0 l2l l2s j * c j ^ 2).
Proof.
  intros lstsq N n t X y w l2l l2s coef Fw yw Hl Hs Hw E HA -> c.
  unfold fit_ridge. rewrite E, n_features_free. set (p := n_free_params n t) in *.
  rewrite <- !(add_weighting_ssr N n t X y w Fw yw _ Hw E).
  apply ridge_solution.
  - intros j Hj. unfold penalty_at. destruct (_ =? _)%nat; [lra|]. now destruct (_ <=? _)%nat.
  - apply HA.
    + intros j k Hj Hk. f_equal. destruct (j =? k)%nat; [|easy].
      unfold ridge_penalty, penalty_at.
      destruct (Nat.ltb_spec j 1), (Nat.eqb_spec j 0); try lia; try lra.
      destruct (Nat.ltb_spec j (n + 1)), (Nat.leb_spec j n); try lia; lra.
    + easy.
Qed.

(** Example: one sample x = 1, y = 2 and slope penalty 1; the solution is intercept 2 and
    slope 0 (the normal equations are (1 1; 1 2) c = (2; 2)). *)
Example ex_C100 :
  answers is_lstsq (fun _ _ _ _ j => match j with O => 2 | _ => 0 end) 2 2
    (fun j k => bsum 1 (fun i => feature_matrix 1 Linear (fun _ _ => 1) i j
                                 * feature_matrix 1 Linear (fun _ _ => 1) i k)
                + (if (j =? k)%nat then penalty_at 1 0 1 1 j else 0))
    (fun j => bsum 1 (fun i => feature_matrix 1 Linear (fun _ _ => 1) i j * 2)).
Proof.
  intros A' b' _ _ c'. apply Rle_trans with 0.
  - right. unfold ssr, feature_matrix, penalty_at. simpl. ring.
  - apply bsum_nonneg. intros. apply pow2_ge_0.
Qed.

(** * C44 *)

(** C44 - for every sample size, dimension and model type fit_powell returns as many
    coefficients as the model has free parameters; it never raises. *)
Theorem C44_powell_never_raises :
  forall lstsq qr N n t X y,
    exists coef, fit_powell lstsq qr N n t X y = Ok coef /\ length coef = n_free_params n t.
Proof.
  intros lstsq qr N n t X y. unfold fit_powell.
  assert (Q : (n * (n + 1) / 2)%nat = n_second_order_terms n) by reflexivity.
  destruct (Nat.leb_spec N (n + 1)).
  - rewrite map_length, seq_length, n_features_free. cbn [n_free_params].
    unfold zeros_z.
    destruct (Z.ltb_spec (Z.of_nat (match t with Linear => n + 1 | Quadratic => n + 1 + n_second_order_terms n end)%nat - Z.of_nat (n + 1)) 0).
    + destruct t; lia.
    + cbn [bind]. eexists. split; [reflexivity|].
      rewrite app_length, map_length, seq_length, repeat_length.
      destruct t; cbn [n_free_params]; lia.
  - destruct (Nat.leb_spec (match t with Linear => n + 1 | Quadratic => n + 1 + n_second_order_terms n end)%nat N).
    + eexists. split; [reflexivity|]. now rewrite map_length, seq_length, n_features_free.
    + destruct t; [lia|]. unfold fit_frobenius. rewrite Q.
      destruct (Nat.leb_spec N (n + 1)); [lia|].
      destruct (Nat.leb_spec (n + n_second_order_terms n + 1) N); [lia|].
      eexists. split; [reflexivity|]. rewrite app_length, !map_length, !seq_length.
      cbn [n_free_params]. lia.
Qed.

(** The three regimes of fit_powell by sample size. *)
Example ex_C44 : forall lstsq qr X y,
  (exists a b, fit_powell lstsq qr 3 2 Quadratic X y = Ok [a; b; lstsq 3%nat 3%nat (feature_matrix 2 Linear X) y 2%nat; 0; 0; 0])
  /\ let frob := frobenius_coefs qr lstsq 5 2 X y in
     fit_powell lstsq qr 5 2 Quadratic X y
     = Ok [fst frob 0%nat; fst frob 1%nat; fst frob 2%nat; snd frob 0%nat; snd frob 1%nat; snd frob 2%nat].
Proof. intros. split; [eexists _, _|]; reflexivity. Qed.

(** * C45 *)

Lemma poly_pairs_quad_pairs n : poly_pairs n = quad_pairs n.
Proof.
  unfold poly_pairs, quad_pairs. apply flat_map_ext_in. intros i Hi. apply in_seq in Hi.
  replace (n - i)%nat with (S (n - (i + 1))) by lia. simpl. f_equal. f_equal.
  now rewrite Nat.add_comm.
Qed.

(** C45 - for up to two parameters, the rebuilt polynomial is the polynomial whose
    coefficients belong to the features.  Missing: more than two parameters, where this is
    false (below). *)
Theorem C45_poly_value_partial :
  forall n poly x, (n <= 2)%nat -> length poly = length (scaled_polynomial_features n x) ->
    poly_value n poly x = dot poly (scaled_polynomial_features n x).
Proof.
  intros n poly x Hn HL.
  destruct n as [|[|[|n]]]; try lia; unfold scaled_polynomial_features in *; simpl in HL;
  repeat (destruct poly as [|? poly]; try discriminate);
  unfold poly_value, dot, fdot, fvm, reshape_coef_to_square_terms, assign, poly_term; simpl; field.
Qed.

Lemma coef_pairs_In n p : In p (coef_pairs n) <-> (fst p <= snd p < n)%nat.
Proof.
  unfold coef_pairs. rewrite in_flat_map. destruct p as [a b]; simpl. split.
  - intros (j & Hj & H). apply in_map_iff in H as (i & [= -> ->] & H).
    apply in_seq in H. apply in_seq in Hj. lia.
  - intros H. exists b. split; [apply in_seq; lia|]. apply in_map_iff. exists a.
    split; [easy|]. apply in_seq. lia.
Qed.
Lemma coef_pairs_NoDup n : NoDup (coef_pairs n).
Proof.
  apply NoDup_flat_map; [apply seq_NoDup| |].
  - intros a _. apply NoDup_map_pair', seq_NoDup.
  - intros a b x _ _ Ha Hb. apply in_map_iff in Ha as (? & <- & _).
    apply in_map_iff in Hb as (? & [= ->] & _). easy.
Qed.
Lemma coef_pairs_length n : length (coef_pairs n) = length (poly_pairs n).
Proof.
  rewrite poly_pairs_quad_pairs.
  apply Nat.le_antisymm; (apply NoDup_incl_length; [apply coef_pairs_NoDup || apply quad_pairs_NoDup|]);
    intros p Hp.
  - apply quad_pairs_In. now apply coef_pairs_In.
  - apply coef_pairs_In. now apply quad_pairs_In.
Qed.

Definition upd2 (mat : fmat) (pv : nat * nat * R) : fmat :=
  assign (assign mat (fst pv) (snd pv)) (snd (fst pv), fst (fst pv)) (snd pv).

Lemma upd2_bsum n h p v (x : fvec) : (fst p <= snd p < n)%nat ->
  h (fst p) (snd p) = 0 -> h (snd p) (fst p) = 0 ->
  bsum n (fun i => bsum n (fun j => upd2 h (p, v) i j * (x i * x j)))
  = bsum n (fun i => bsum n (fun j => h i j * (x i * x j))) + 2 * (v * poly_term x p).
Proof.
  intros Hp H1 H2. unfold upd2, poly_term. cbn [fst snd].
  destruct (Nat.eqb_spec (fst p) (snd p)) as [E|N].
  - rewrite <- E. rewrite (bsum_ext n _ (fun i => bsum n (fun j => assign h p v i j * (x i * x j)))).
    + rewrite (assign_bsum n h p v (fun i j => x i * x j)) by (lia || easy). rewrite <- E. simpl. lra.
    + intros i Hi. apply bsum_ext. intros j Hj. f_equal.
      unfold assign. cbn [fst snd]. rewrite <- E.
      now destruct ((i =? fst p)%nat && (j =? fst p)%nat).
  - rewrite (assign_bsum n _ _ v (fun i j => x i * x j)); cbn [fst snd]; try lia.
    + rewrite (assign_bsum n h p v (fun i j => x i * x j)) by (lia || easy). simpl. lra.
    + rewrite assign_other; [easy|]. destruct p; cbn [fst snd] in *. congruence.
Qed.

Lemma upd2_other h p v i j : (i, j) <> p -> (j, i) <> p -> upd2 h (p, v) i j = h i j.
Proof.
  intros H1 H2. unfold upd2. cbn [fst snd]. rewrite !assign_other; auto.
  destruct p; cbn [fst snd]. congruence.
Qed.

Lemma fold_upd2_bsum n (x : fvec) ps : forall vs h,
  NoDup ps -> (forall p, In p ps -> (fst p <= snd p < n)%nat) ->
  (forall p, In p ps -> h (fst p) (snd p) = 0 /\ h (snd p) (fst p) = 0) ->
  length vs = length ps ->
  bsum n (fun i => bsum n (fun j => fold_left upd2 (combine ps vs) h i j * (x i * x j)))
  = bsum n (fun i => bsum n (fun j => h i j * (x i * x j))) + 2 * dot vs (map (poly_term x) ps).
Proof.
  induction ps as [|p ps IH]; intros [|v vs] h ND HB H0 HL; try discriminate.
  - unfold dot. simpl. lra.
  - cbn [combine fold_left map]. inversion ND; subst. rewrite IH; auto.
    + rewrite upd2_bsum by (try apply HB; try apply H0; now left). rewrite dot_cons. lra.
    + intros q Hq. apply HB. now right.
    + intros q Hq. destruct (H0 q (or_intror Hq)) as [G1 G2].
      pose proof (HB q (or_intror Hq)). pose proof (HB p (or_introl eq_refl)).
      split; rewrite upd2_other; auto; try (rewrite <- surjective_pairing; now intros ->).
      * destruct p as [a b], q as [c d]. cbn [fst snd] in *. intros [= -> ->].
        assert (a = b) by lia. subst. easy.
      * destruct p as [a b], q as [c d]. cbn [fst snd] in *. intros [= -> ->].
        assert (a = b) by lia. subst. easy.
Qed.

(** What the rebuilt polynomial is, in every dimension: coefficients are matched with the
    column-major enumeration of the second order terms. *)
Theorem C45_poly_value_column_major_partial :
  forall n poly x, length poly = length (scaled_polynomial_features n x) ->
    poly_value n poly x
    = dot poly ([1] ++ map x (seq 0 n) ++ map (poly_term x) (coef_pairs n)).
Proof.
  intros n poly x HL. unfold scaled_polynomial_features in HL.
  rewrite !app_length, !map_length, seq_length, <- coef_pairs_length in HL. simpl length in HL.
  unfold poly_value.
  rewrite quad_form.
  assert (SQ : bsum n (fun i => bsum n (fun j =>
            reshape_coef_to_square_terms n (skipn (n + 1) poly) i j * x i * x j))
          = 2 * dot (skipn (n + 1) poly) (map (poly_term x) (coef_pairs n))).
  { rewrite (bsum_ext n _ (fun i => bsum n (fun j =>
       fold_left upd2 (combine (coef_pairs n) (skipn (n + 1) poly)) (fun _ _ => 0) i j * (x i * x j)))).
    - rewrite fold_upd2_bsum.
      + rewrite (bsum_all_zero n (fun i => bsum n (fun j => 0 * (x i * x j)))); [lra|].
        intros i _. apply bsum_all_zero. intros. lra.
      + apply coef_pairs_NoDup.
      + intros p Hp. now apply coef_pairs_In.
      + easy.
      + rewrite skipn_length. lia.
    - intros i _. apply bsum_ext. intros j _. unfold reshape_coef_to_square_terms, upd2. lra. }
  rewrite SQ.
  transitivity (dot (nth 0 poly 0 :: firstn n (skipn 1 poly) ++ skipn (n + 1) poly)
                    ([1] ++ map x (seq 0 n) ++ map (poly_term x) (coef_pairs n))).
  2:{ now rewrite <- (split_coef n poly) by lia. }
  cbn [app]. rewrite dot_cons, dot_app.
  - unfold fdot. rewrite (bsum_ext n _ (fun i => nth i (firstn n (skipn 1 poly)) 0 * x i)).
    + rewrite bsum_dot by (rewrite firstn_length, skipn_length; lia). lra.
    + intros i Hi. f_equal. rewrite nth_firstn_lt by easy. destruct poly; [simpl in HL; lia|easy].
  - rewrite firstn_length, skipn_length, map_length, seq_length. lia.
Qed.

Lemma dot_repeat0 k l : dot (repeat 0 k) l = 0.
Proof.
  revert l; induction k as [|k IH]; intros [|a l]; try reflexivity. simpl repeat.
  rewrite dot_cons, IH. lra.
Qed.

(** C45 is false in every dimension from three on: the coefficient of x0 * x2 is used as
    that of x1 * x1 / 2. *)
Theorem C45_poly_value_refuted :
  forall n, (3 <= n)%nat -> exists poly x,
    length poly = length (scaled_polynomial_features n x) /\
    poly_value n poly x <> dot poly (scaled_polynomial_features n x).
Proof.
  intros n Hn. destruct n as [|[|[|k]]]; try lia. set (n := S (S (S k))) in *.
  set (x := fun i : nat => if (i =? 1)%nat then 1 else 0).
  assert (EP : exists rp, poly_pairs n = (0, 0)%nat :: (0, 1)%nat :: (0, 2)%nat :: rp).
  { unfold n, poly_pairs. simpl. eexists. reflexivity. }
  assert (EC : exists rc, coef_pairs n = (0, 0)%nat :: (0, 1)%nat :: (1, 1)%nat :: rc).
  { unfold n, coef_pairs. simpl. eexists. reflexivity. }
  destruct EP as [rp EP]. destruct EC as [rc EC].
  assert (LL : length rc = length rp).
  { pose proof (coef_pairs_length n) as L. rewrite EP, EC in L. simpl in L. lia. }
  set (poly := repeat 0 (n + 1) ++ [0; 0; 1] ++ repeat 0 (length rp)).
  assert (HL : length poly = length (scaled_polynomial_features n x)).
  { unfold poly, scaled_polynomial_features. rewrite EP.
    rewrite !app_length, !repeat_length, !map_length, seq_length. simpl. lia. }
  exists poly, x. split; [exact HL|].
  rewrite C45_poly_value_column_major_partial by exact HL.
  unfold scaled_polynomial_features. rewrite EP, EC. unfold poly.
  assert (A : forall rest, length rest = length rp -> forall p,
     dot (repeat 0 (n + 1) ++ [0; 0; 1] ++ repeat 0 (length rp))
         ([1] ++ map x (seq 0 n) ++ map (poly_term x) ((0, 0)%nat :: (0, 1)%nat :: p :: rest))
     = poly_term x p).
  { intros rest _ p. rewrite (app_assoc [1]). rewrite dot_app.
    - rewrite dot_repeat0. cbn [map app]. rewrite !dot_cons, dot_repeat0. lra.
    - rewrite repeat_length, app_length, map_length, seq_length. simpl. lia. }
  rewrite !A by easy. unfold poly_term, x. simpl. lra.
Qed.

(** * C46 *)

(** C46 - only finite values, finite entries unchanged, same shape. *)
Theorem C46_clip_relative_finite :
  forall cols,
    length (clip_relative cols) = length cols /\
    forall k col, nth_error cols k = Some col ->
      exists out, nth_error (clip_relative cols) k = Some out /\ length out = length col /\
        (forall i v, nth_error out i = Some v -> exists r, v = Fin r) /\
        (forall i r, nth_error col i = Some (Fin r) -> nth_error out i = Some (Fin r)).
Proof.
  intros cols. unfold clip_relative. split; [apply map_length|]. intros k col Hk.
  exists (clip_column col). rewrite nth_error_map, Hk. split; [easy|].
  unfold clip_column. destruct (penalties col) as [pos neg]. split; [apply map_length|].
  split.
  - intros i v H. rewrite nth_error_map in H. destruct (nth_error col i) as [u|]; [|discriminate].
    simpl in H. injection H as <-. destruct u; eauto.
  - intros i r H. rewrite nth_error_map, H. reflexivity.
Qed.

(** * C47 *)

Lemma big_pos : 1 < big.
Proof. unfold big. apply IZR_lt. reflexivity. Qed.

Lemma masked_min_le col : forall a,
  fold_left (fun a v => match v with Fin r => Rmin a r | _ => a end) col a <= a.
Proof.
  induction col as [|v col IH]; intros a; simpl; [lra|].
  eapply Rle_trans; [apply IH|]. destruct v; try lra. apply Rmin_l.
Qed.
Lemma masked_max_ge col : forall a,
  a <= fold_left (fun a v => match v with Fin r => Rmax a r | _ => a end) col a.
Proof.
  induction col as [|v col IH]; intros a; simpl; [lra|].
  eapply Rle_trans; [|apply IH]. destruct v; try lra. apply Rmax_l.
Qed.
Lemma masked_min_lb col : forall a r, In (Fin r) col ->
  fold_left (fun a v => match v with Fin r => Rmin a r | _ => a end) col a <= r.
Proof.
  induction col as [|v col IH]; intros a r []; simpl.
  - subst. eapply Rle_trans; [apply masked_min_le|]. apply Rmin_r.
  - now apply IH.
Qed.
Lemma masked_max_ub col : forall a r, In (Fin r) col ->
  r <= fold_left (fun a v => match v with Fin r => Rmax a r | _ => a end) col a.
Proof.
  induction col as [|v col IH]; intros a r []; simpl.
  - subst. eapply Rle_trans; [|apply masked_max_ge]. apply Rmax_r.
  - now apply IH.
Qed.
Lemma masked_min_In col : forall a,
  fold_left (fun a v => match v with Fin r => Rmin a r | _ => a end) col a = a \/
  In (Fin (fold_left (fun a v => match v with Fin r => Rmin a r | _ => a end) col a)) col.
Proof.
  induction col as [|v col IH]; intros a; simpl; [now left|].
  destruct v; try (destruct (IH a); [now left|now (right; right)]).
  destruct (IH (Rmin a r)) as [E|E]; [|now (right; right)]. rewrite E.
  unfold Rmin. destruct (Rle_dec a r); [now left|]. right. now left.
Qed.
Lemma masked_max_In col : forall a,
  fold_left (fun a v => match v with Fin r => Rmax a r | _ => a end) col a = a \/
  In (Fin (fold_left (fun a v => match v with Fin r => Rmax a r | _ => a end) col a)) col.
Proof.
  induction col as [|v col IH]; intros a; simpl; [now left|].
  destruct v; try (destruct (IH a); [now left|now (right; right)]).
  destruct (IH (Rmax a r)) as [E|E]; [|now (right; right)]. rewrite E.
  unfold Rmax. destruct (Rle_dec a r); [|now left]. right. now left.
Qed.

(** C47 - penalties are beyond all finite entries.  Proved for columns with at least two
    different finite values, and for columns without finite values that have both kinds of
    infinity.  Missing: columns whose finite values are all equal, where it is false
    (below). *)
Theorem C47_clip_order_partial :
  forall col out i a b,
    out = clip_column col ->
    (exists r r', In (Fin r) col /\ In (Fin r') col /\ r <> r') ->
    nth_error out i = Some (Fin a) ->
    ((nth_error col i = Some PInf \/ nth_error col i = Some NaN) -> In (Fin b) col -> b < a) /\
    (nth_error col i = Some NInf -> In (Fin b) col -> a < b).
Proof.
  intros col out i a b -> (r & r' & Hr & Hr' & N) Ha. unfold clip_column, penalties in Ha.
  set (mn := masked_min col) in *. set (mx := masked_max col) in *.
  assert (mn <= r /\ mn <= r') as [] by (split; now apply masked_min_lb).
  assert (r <= mx /\ r' <= mx) as [] by (split; now apply masked_max_ub).
  assert (D : mn < mx) by lra.
  unfold Rsign in Ha. destruct (Rltb_spec 0 (mx - mn)); [|lra].
  rewrite nth_error_map in Ha. rewrite !Rmult_1_r in Ha.
  split; intros Hi Hb.
  - pose proof (masked_max_ub col (- big) b Hb) as B. change (b <= mx) in B.
    destruct Hi as [Hi|Hi]; rewrite Hi in Ha; simpl in Ha; injection Ha as <-; lra.
  - pose proof (masked_min_lb col big b Hb) as B. change (mn <= b) in B.
    rewrite Hi in Ha. simpl in Ha. injection Ha as <-. lra.
Qed.

(** C47 - for columns with at least two different finite values the penalties are the documented
    ones: the largest (smallest) finite entry plus (minus) twice the range plus one.  Missing:
    the other columns (below).  [big] = 1e300 is the sentinel of the code. *)
Theorem C47_penalty_values_partial :
  forall col i a lo hi,
    In (Fin lo) col -> In (Fin hi) col -> lo < hi ->
    (forall b, In (Fin b) col -> lo <= b <= hi) -> - big <= lo -> hi <= big ->
    nth_error (clip_column col) i = Some (Fin a) ->
    ((nth_error col i = Some PInf \/ nth_error col i = Some NaN) -> a = hi + 2 * (hi - lo) + 1) /\
    (nth_error col i = Some NInf -> a = lo - 2 * (hi - lo) - 1).
Proof.
  intros col i a lo hi Hlo Hhi LT B B1 B2 Ha. unfold clip_column, penalties in Ha.
  assert (Emn : masked_min col = lo).
  { apply Rle_antisym; [now apply masked_min_lb|].
    destruct (masked_min_In col big) as [E|E]; [unfold masked_min; rewrite E; lra|apply B in E; apply E]. }
  assert (Emx : masked_max col = hi).
  { apply Rle_antisym; [|now apply masked_max_ub].
    destruct (masked_max_In col (- big)) as [E|E]; [unfold masked_max; rewrite E; lra|apply B in E; apply E]. }
  rewrite Emn, Emx in Ha. unfold Rsign in Ha. destruct (Rltb_spec 0 (hi - lo)); [|lra].
  rewrite nth_error_map in Ha.
  split; [intros [H|H]|intros H]; rewrite H in Ha; simpl in Ha; injection Ha as <-; lra.
Qed.

Example ex_C47 : let col := [Fin 1; PInf; Fin 3; NaN; NInf] in
  In (Fin 1) col /\ In (Fin 3) col /\ (forall b, In (Fin b) col -> 1 <= b <= 3).
Proof. simpl. split; [tauto|]. split; [tauto|]. intros b [H|[H|[H|[H|[H|[]]]]]]; try discriminate; injection H as <-; lra. Qed.

(** For a column without finite values: +inf and NaN end up above, -inf below. *)
Theorem C47_all_infinite_partial :
  forall col out i j a b,
    out = clip_column col -> (forall r, ~ In (Fin r) col) ->
    nth_error out i = Some (Fin a) -> nth_error out j = Some (Fin b) ->
    (nth_error col i = Some PInf \/ nth_error col i = Some NaN) ->
    nth_error col j = Some NInf -> b < a.
Proof.
  intros col out i j a b -> NF Ha Hb Hi Hj. unfold clip_column, penalties in *.
  assert (E1 : masked_min col = big).
  { destruct (masked_min_In col big) as [E|E]; [exact E|]. now apply NF in E. }
  assert (E2 : masked_max col = - big).
  { destruct (masked_max_In col (- big)) as [E|E]; [exact E|]. now apply NF in E. }
  rewrite E1, E2 in *. pose proof big_pos.
  unfold Rsign in *. destruct (Rltb_spec 0 (- big - big)); [lra|].
  destruct (Rltb_spec (- big - big) 0); [|lra].
  rewrite nth_error_map in Ha, Hb.
  rewrite Hj in Hb. simpl in Hb. injection Hb as <-.
  destruct Hi as [Hi|Hi]; rewrite Hi in Ha; simpl in Ha; injection Ha as <-; lra.
Qed.

(** Exactly which columns with equal finite values go wrong: +inf becomes 1 whatever the
    finite value is (if it is within +-1e300). *)
Theorem C47_constant_column_refuted :
  forall c, Rabs c < big -> clip_column [Fin c; PInf; NInf] = [Fin c; Fin 1; Fin (-1)].
Proof.
  intros c Hc. apply Rabs_def2 in Hc.
  assert (E1 : masked_min [Fin c; PInf; NInf] = c).
  { unfold masked_min. cbn [fold_left]. apply Rmin_right. lra. }
  assert (E2 : masked_max [Fin c; PInf; NInf] = c).
  { unfold masked_max. cbn [fold_left]. apply Rmax_right. lra. }
  unfold clip_column, penalties. rewrite E1, E2.
  replace (c - c) with 0 by lra. unfold Rsign.
  destruct (Rltb_spec 0 0); [lra|]. cbn [map].
  do 2 f_equal; [|f_equal]; f_equal; lra.
Qed.

(** In particular [10, +inf] is clipped to [10, 1]: the infinite value looks better. *)
Theorem C47_clip_order_refuted :
  exists col i a b, nth_error (clip_column col) i = Some (Fin a) /\
    nth_error col i = Some PInf /\ In (Fin b) col /\ a < b.
Proof.
  exists [Fin 10; PInf; NInf], 1%nat, 1, 10.
  rewrite C47_constant_column_refuted.
  - splits; try reflexivity; try lra. now left.
  - rewrite Rabs_right by lra. unfold big. apply IZR_lt. reflexivity.
Qed.

Example ex_C46 : clip_column [Fin 1; PInf; Fin 3; NaN; NInf] = [Fin 1; Fin 8; Fin 3; Fin 8; Fin (-4)].
Proof.
  pose proof big_pos as B.
  assert (B3 : 3 < big) by (unfold big; apply IZR_lt; reflexivity).
  assert (E1 : masked_min [Fin 1; PInf; Fin 3; NaN; NInf] = 1).
  { unfold masked_min. cbn [fold_left]. rewrite (Rmin_right big 1), Rmin_left by lra. easy. }
  assert (E2 : masked_max [Fin 1; PInf; Fin 3; NaN; NInf] = 3).
  { unfold masked_max. cbn [fold_left]. rewrite (Rmax_right (- big) 1), Rmax_right by lra. easy. }
  unfold clip_column, penalties. rewrite E1, E2. unfold Rsign.
  destruct (Rltb_spec 0 (3 - 1)); [|lra]. cbn [map]. repeat f_equal; lra.
Qed.
