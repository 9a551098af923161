(** C145-C150: the computations behind the diagnostic plots. *)
From Coq Require Import String Reals List Arith ZArith Bool Lia Lra Psatz Sorting.Sorted.
From Verif Require Import Base XR Vec HistoryModel VolumeModel RegionModel FilterModel GeometryModel
  Prop_Cluster VisualizeModel.
Import ListNotations.
Open Scope R_scope.

(** * C145 - the points of a square region *)

(** Row [i] of [xs] is a vector of numbers, each at most [r] away from the one of [p]. *)
Definition near (xs : list (list xr)) (p : vec) (r : R) (i : nat) : Prop :=
  exists row, nth_error xs i = Some row /\
    forall j v c, nth_error row j = Some v -> nth_error p j = Some c ->
      exists a, v = Fin a /\ Rabs (a - c) <= r.

Lemma fold_success (P : nat -> bool) l : forall b,
  fold_left (fun success j => if P j then false else success) l b = true <->
  b = true /\ forall j, In j l -> P j = false.
Proof.
  induction l as [|j l IH]; intros b; simpl; [intuition|].
  rewrite IH. destruct (P j) eqn:E; split.
  - now intros [H _].
  - intros [_ H]. rewrite (H j) in E by auto. discriminate.
  - intros [Hb H]. split; [easy|]. intros k [<-|Hk]; auto.
  - intros [Hb H]. split; auto.
Qed.

Lemma row_inside_iff p r row : length row = length p ->
  row_inside (map (fun c => c - r) p) (map (fun c => c + r) p) row = true <->
  forall j v c, nth_error row j = Some v -> nth_error p j = Some c ->
      exists a, v = Fin a /\ Rabs (a - c) <= r.
Proof.
  intros HL. unfold row_inside. rewrite (fold_success (fun j => _)). split.
  - intros [_ H] j v c Hv Hc.
    assert (Hj : (j < length row)%nat) by (apply nth_error_Some; congruence).
    specialize (H j ltac:(apply in_seq; lia)).
    rewrite (nth_error_nth _ _ NaN Hv) in H.
    rewrite (nth_error_nth (map (fun c => c - r) p) j 0 (map_nth_error _ _ _ Hc)) in H.
    rewrite (nth_error_nth (map (fun c => c + r) p) j 0 (map_nth_error _ _ _ Hc)) in H.
    apply orb_false_iff in H as [H _]. apply negb_false_iff, andb_true_iff in H as [H1 H2].
    destruct v; simpl in H1, H2; try discriminate. exists r0. split; [easy|].
    rewrite Rleb_true in H1, H2. apply Rabs_le. lra.
  - intros H. split; [easy|]. intros j Hj. apply in_seq in Hj.
    destruct (nth_error row j) as [v|] eqn:Hv; [|apply nth_error_None in Hv; lia].
    destruct (nth_error p j) as [c|] eqn:Hc; [|apply nth_error_None in Hc; lia].
    rewrite (nth_error_nth _ _ NaN Hv).
    rewrite (nth_error_nth (map (fun c => c - r) p) j 0 (map_nth_error _ _ _ Hc)).
    rewrite (nth_error_nth (map (fun c => c + r) p) j 0 (map_nth_error _ _ _ Hc)).
    destruct (H j v c Hv Hc) as (a & -> & Ha). cbn [xle isnan].
    assert (- r <= a - c <= r) by (pose proof (Rle_abs (a - c)); pose proof (Rle_abs (- (a - c))) as Q;
      rewrite Rabs_Ropp in Q; lra).
    rewrite (proj2 (Rleb_true _ _)) by lra. rewrite (proj2 (Rleb_true _ _)) by lra. reflexivity.
Qed.

Lemma fold_collect (P : nat -> bool) l : forall acc,
  fold_left (fun out i => if P i then out ++ [i] else out) l acc = acc ++ filter P l.
Proof.
  induction l as [|i l IH]; intros acc; simpl; [now rewrite app_nil_r|].
  rewrite IH. destruct (P i); [now rewrite <- app_assoc|easy].
Qed.

Lemma filter_seq_sorted (P : nat -> bool) : forall n a, StronglySorted lt (filter P (seq a n)).
Proof.
  induction n as [|n IH]; intros a; simpl; [constructor|].
  destruct (P a); [|apply IH]. constructor; [apply IH|].
  apply Forall_forall. intros x Hx. apply filter_In in Hx as [Hx _]. apply in_seq in Hx. lia.
Qed.

(** All rows have the length of the center, as in a numpy array.  The result lists, in
    increasing order and without repetition, exactly the rows in the region; a row with a NaN
    or an infinite entry is never in it. *)
Theorem C145_indices_in_square_region :
  forall xs center radius, Forall (fun row => length row = length center) xs ->
    let out := find_indices_in_trust_region xs center radius in
    StronglySorted lt out /\ forall i, In i out <-> near xs center radius i.
Proof.
  intros xs p r HF out. unfold out, find_indices_in_trust_region. rewrite fold_collect. simpl.
  split; [apply filter_seq_sorted|]. intros i. rewrite filter_In, in_seq. unfold near. split.
  - intros [Hi H]. destruct (nth_error xs i) as [row|] eqn:E; [|apply nth_error_None in E; lia].
    exists row. split; [easy|]. rewrite (nth_error_nth _ _ [] E) in H.
    apply row_inside_iff; [|easy]. rewrite Forall_forall in HF. eapply HF, nth_error_In, E.
  - intros (row & E & H).
    assert (Hi : (i < length xs)%nat) by (apply nth_error_Some; congruence). split; [lia|].
    rewrite (nth_error_nth _ _ [] E). apply row_inside_iff; [|easy].
    rewrite Forall_forall in HF. eapply HF, nth_error_In, E.
Qed.

Example C145_instance :
  find_indices_in_trust_region [[Fin 0; Fin 1]; [Fin 0; NaN]; [Fin 3; Fin 0]; [PInf; Fin 0]; [Fin (-2); Fin 2]]
    [0; 0] 2 = [0; 4]%nat.
Proof.
  unfold find_indices_in_trust_region, row_inside. cbn -[Rleb].
  repeat match goal with |- context[Rleb ?a ?b] =>
    first [rewrite (proj2 (Rleb_true a b)) by lra|rewrite (proj2 (Rleb_false a b)) by lra] end.
  reflexivity.
Qed.

(** * C146 - the search for a point *)

Definition start_radius : R := / 10 ^ 100.
Fixpoint search_radius (k : nat) : R :=
  match k with O => start_radius | S k' => sqrt (search_radius k') end.

Lemma start_radius_range : 0 < start_radius < 1.
Proof.
  unfold start_radius. assert (H : 1 < 10 ^ 100) by (apply Rlt_pow_R1; [lra|lia]).
  split; [apply Rinv_0_lt_compat; lra|]. rewrite <- Rinv_1. apply Rinv_lt_contravar; lra.
Qed.
Lemma search_radius_range k : start_radius <= search_radius k < 1.
Proof.
  pose proof start_radius_range as [H0 H1]. induction k as [|k [L U]]; simpl; [lra|].
  assert (Hp : 0 < search_radius k) by lra.
  pose proof (sqrt_lt_R0 _ Hp) as Hs. pose proof (sqrt_sqrt (search_radius k) ltac:(lra)) as Hq.
  split; nra.
Qed.
Lemma search_radius_sq k : search_radius (S k) * search_radius (S k) = search_radius k.
Proof.
  simpl. apply sqrt_sqrt. pose proof (search_radius_range k). pose proof start_radius_range. lra.
Qed.
Lemma search_radius_pow k : search_radius k ^ (2 ^ k) = start_radius.
Proof.
  induction k as [|k IH]; [simpl; ring|].
  replace (2 ^ S k)%nat with (2 * 2 ^ k)%nat by (simpl; lia).
  rewrite pow_mult. replace (search_radius (S k) ^ 2) with (search_radius k); [easy|].
  rewrite <- search_radius_sq. ring.
Qed.
Lemma search_radius_mono k : search_radius k <= search_radius (S k).
Proof.
  pose proof (search_radius_range (S k)). pose proof start_radius_range. rewrite <- (search_radius_sq k). nra.
Qed.
Lemma search_radius_grows delta : delta < 1 -> exists k, delta <= search_radius k.
Proof.
  intros H. pose proof start_radius_range as [H0 H1].
  destruct (Rle_dec delta 0) as [Hd|Hd]; [exists O; pose proof (search_radius_range 0); lra|].
  apply Rnot_le_lt in Hd.
  destruct (pow_lt_1_zero delta ltac:(rewrite Rabs_right; lra) start_radius H0) as [N HN].
  exists N. destruct (Rle_dec delta (search_radius N)) as [|C]; [easy|]. exfalso.
  apply Rnot_le_lt in C.
  assert (Hge : (2 ^ N >= N)%nat).
  { assert (N < 2 ^ N)%nat by (apply Nat.pow_gt_lin_r; lia). lia. }
  specialize (HN _ Hge). rewrite Rabs_right in HN by (apply Rle_ge, pow_le; lra).
  rewrite <- (search_radius_pow N) in HN.
  assert (search_radius N ^ 2 ^ N <= delta ^ 2 ^ N).
  { apply pow_incr. pose proof (search_radius_range N). lra. }
  lra.
Qed.

Lemma near_mono xs p r r' i : r <= r' -> near xs p r i -> near xs p r' i.
Proof.
  intros H (row & E & HN). exists row. split; [easy|]. intros j v c Hv Hc.
  destruct (HN j v c Hv Hc) as (a & -> & Ha). exists a. split; [easy|lra].
Qed.

(** The answer at radius [r]. *)
Definition answer (xs : list (list xr)) (p : vec) (r : R) (f : found) : Prop :=
  exists i, near xs p r i /\ (forall j, near xs p r j -> (i <= j)%nat) /\
    (f = FArray [i] /\ (forall j, near xs p r j -> j = i) \/
     f = FScalar i /\ exists j, j <> i /\ near xs p r j).

Lemma answer_cases xs p r : Forall (fun row => length row = length p) xs ->
  match find_indices_in_trust_region xs p r with
  | [] => forall i, ~ near xs p r i
  | [i] => answer xs p r (FArray [i])
  | i :: _ => answer xs p r (FScalar i)
  end.
Proof.
  intros HF. destruct (C145_indices_in_square_region xs p r HF) as [S I].
  destruct (find_indices_in_trust_region xs p r) as [|i [|j l]].
  - intros i Hi. now apply I in Hi.
  - exists i. split; [apply I; simpl; auto|].
    split; [intros j Hj; apply I in Hj as [<-|[]]; auto|]. left. split; [easy|].
    intros j Hj. now apply I in Hj as [<-|[]].
  - inversion S as [|? ? S' F]; subst. rewrite Forall_forall in F. exists i.
    split; [apply I; simpl; auto|]. split.
    + intros k Hk. apply I in Hk as [<-|Hk]; [auto|]. apply Nat.lt_le_incl, F, Hk.
    + right. split; [easy|]. exists j. split; [|apply I; simpl; auto].
      specialize (F j (or_introl eq_refl)). lia.
Qed.

Lemma find_index_round xs p : Forall (fun row => length row = length p) xs -> forall fuel k f,
  find_index_from fuel xs p (search_radius k) = Ok f ->
  exists m, answer xs p (search_radius (k + m)) f /\
    (m = O \/ forall i, ~ near xs p (search_radius (k + (m - 1))) i).
Proof.
  intros HF. induction fuel as [|fuel IH]; intros k f H; [discriminate|].
  cbn [find_index_from] in H. pose proof (answer_cases xs p (search_radius k) HF) as A.
  destruct (find_indices_in_trust_region xs p (search_radius k)) as [|i [|j l]] eqn:E.
  - change (sqrt (search_radius k)) with (search_radius (S k)) in H.
    destruct (IH _ _ H) as (m & A1 & A2). exists (S m).
    replace (k + S m)%nat with (S k + m)%nat by lia. split; [easy|]. right.
    destruct A2 as [->|A2]; [now replace (k + (1 - 1))%nat with k by lia|].
    destruct m as [|m]; [now replace (k + (1 - 1))%nat with k by lia|].
    intros i Hi. apply (A2 i). now replace (S k + (S m - 1))%nat with (k + (S (S m) - 1))%nat by lia.
  - injection H as <-. exists O. rewrite Nat.add_0_r. auto.
  - injection H as <-. exists O. rewrite Nat.add_0_r. auto.
Qed.

(** If the search ends, there is a radius [r] in [1e-100, 1) such that the result is the only
    row within [r] of the point, as an array, or the first one of several, without array; and
    no row is within [r * r], unless [r] is the first radius 1e-100. *)
Theorem C146_found :
  forall xs point fuel f, Forall (fun row => length row = length point) xs ->
    find_index fuel xs point = Ok f ->
    exists r i, / 10 ^ 100 <= r < 1 /\ near xs point r i /\
      (forall j, near xs point r j -> (i <= j)%nat) /\
      (f = FArray [i] /\ (forall j, near xs point r j -> j = i) \/
       f = FScalar i /\ exists j, j <> i /\ near xs point r j) /\
      (r = / 10 ^ 100 \/ forall j, ~ near xs point (r * r) j).
Proof.
  intros xs p fuel f HF H. unfold find_index in H.
  destruct (find_index_round xs p HF fuel 0 f H) as (m & (i & A1 & A2 & A3) & A4).
  exists (search_radius (0 + m)), i. split; [apply search_radius_range|].
  split; [easy|]. split; [easy|]. split; [easy|].
  destruct A4 as [->|A4]; [now left|]. destruct m as [|m]; [now left|]. right.
  cbn [plus] in *. rewrite search_radius_sq. now replace m with (S m - 1)%nat by lia.
Qed.

Lemma find_index_ends xs p : Forall (fun row => length row = length p) xs -> forall m k,
  (exists i, near xs p (search_radius (k + m)) i) ->
  exists f, forall fuel, (m < fuel)%nat -> find_index_from fuel xs p (search_radius k) = Ok f.
Proof.
  intros HF. induction m as [|m IH]; intros k [i Hi];
    pose proof (answer_cases xs p (search_radius k) HF) as A.
  - rewrite Nat.add_0_r in Hi.
    destruct (find_indices_in_trust_region xs p (search_radius k)) as [|a [|b l]] eqn:E;
      [now apply A in Hi| |]; eexists; intros [|fuel] Hf; try lia; cbn [find_index_from]; rewrite E;
      reflexivity.
  - destruct (find_indices_in_trust_region xs p (search_radius k)) as [|a [|b l]] eqn:E.
    + destruct (IH (S k)) as [f Hf].
      { exists i. now replace (S k + m)%nat with (k + S m)%nat by lia. }
      exists f. intros [|fuel] HH; [lia|]. cbn [find_index_from]. rewrite E.
      change (sqrt (search_radius k)) with (search_radius (S k)). apply Hf. lia.
    + eexists. intros [|fuel] HH; [lia|]. cbn [find_index_from]. rewrite E. reflexivity.
    + eexists. intros [|fuel] HH; [lia|]. cbn [find_index_from]. rewrite E. reflexivity.
Qed.

(** The search ends exactly if some row is less than 1 away from the point in all entries. *)
Theorem C146_ends :
  forall xs point, Forall (fun row => length row = length point) xs ->
    (exists f n, forall fuel, (n < fuel)%nat -> find_index fuel xs point = Ok f) <->
    exists i delta, delta < 1 /\ near xs point delta i.
Proof.
  intros xs p HF. split.
  - intros (f & n & H). destruct (C146_found xs p (S n) f HF (H (S n) (Nat.lt_succ_diag_r n)))
      as (r & i & Hr & Hn & _). exists i, r. split; [lra|easy].
  - intros (i & delta & Hd & Hn). destruct (search_radius_grows delta Hd) as [k Hk].
    destruct (find_index_ends xs p HF k 0) as [f Hf].
    { exists i. eapply near_mono; [|exact Hn]. exact Hk. }
    exists f, k. exact Hf.
Qed.

(** Otherwise it never ends: every number of rounds is too small. *)
Theorem C146_does_not_end :
  forall xs point, Forall (fun row => length row = length point) xs ->
    (forall i delta, delta < 1 -> ~ near xs point delta i) ->
    forall fuel, find_index fuel xs point = Err OutOfFuel.
Proof.
  intros xs p HF HN fuel. unfold find_index. change (/ 10 ^ 100) with (search_radius 0).
  generalize 0%nat as k. induction fuel as [|fuel IH]; intros k; [easy|]. cbn [find_index_from].
  pose proof (answer_cases xs p (search_radius k) HF) as A.
  destruct (find_indices_in_trust_region xs p (search_radius k)) as [|a [|b l]] eqn:E.
  - change (sqrt (search_radius k)) with (search_radius (S k)). apply IH.
  - destruct A as (i & Hi & _). exfalso. eapply HN; [|exact Hi]. apply search_radius_range.
  - destruct A as (i & Hi & _). exfalso. eapply HN; [|exact Hi]. apply search_radius_range.
Qed.

(** The row that is found need not be the nearest one. *)
Lemma find_far a b : 0 < a -> a * a < b -> b < a ->
  find_index_from 2 [[Fin a]; [Fin b]] [0] (a * a) = Ok (FScalar 0).
Proof.
  intros Ha Hb Hab. cbn [find_index_from].
  replace (sqrt (a * a)) with a by (symmetry; apply sqrt_square; lra).
  unfold find_indices_in_trust_region, row_inside. cbn -[Rleb].
  rewrite (proj2 (Rleb_true (0 - a * a) a)), (proj2 (Rleb_true (0 - a * a) b)) by nra.
  rewrite (proj2 (Rleb_false a (0 + a * a))), (proj2 (Rleb_false b (0 + a * a))) by nra.
  cbn -[Rleb].
  rewrite (proj2 (Rleb_true (0 - a) a)), (proj2 (Rleb_true (0 - a) b)) by nra.
  rewrite (proj2 (Rleb_true a (0 + a))), (proj2 (Rleb_true b (0 + a))) by nra. reflexivity.
Qed.

Theorem C146_nearest_refuted :
  exists (a b : R), 0 < b < a /\
    find_index 2 [[Fin a]; [Fin b]] [0] = Ok (FScalar 0).
Proof.
  exists (/ 10 ^ 50), (/ 10 ^ 60).
  assert (H50 : 0 < 10 ^ 50) by (apply pow_lt; lra).
  assert (H60 : 10 ^ 50 < 10 ^ 60) by (apply Rlt_pow; [lra|lia]).
  assert (H100 : 10 ^ 60 < 10 ^ 100) by (apply Rlt_pow; [lra|lia]).
  assert (E : / 10 ^ 50 * / 10 ^ 50 = / 10 ^ 100).
  { rewrite <- Rinv_mult. now rewrite <- pow_add. }
  assert (B1 : / 10 ^ 60 < / 10 ^ 50) by (apply Rinv_lt_contravar; [nra|easy]).
  assert (B2 : / 10 ^ 100 < / 10 ^ 60) by (apply Rinv_lt_contravar; [nra|easy]).
  split; [split; [apply Rinv_0_lt_compat; lra|easy]|].
  unfold find_index. rewrite <- E. apply find_far; [apply Rinv_0_lt_compat; lra|lra|easy].
Qed.

(** Instances: one row equal to the point; no row closer than 1. *)
Example C146_instance :
  (exists f n, forall fuel, (n < fuel)%nat -> find_index fuel [[Fin 3; Fin 4]; [Fin 1; Fin 2]] [1; 2] = Ok f) /\
  (forall fuel, find_index fuel [[Fin 3; Fin 4]; [NaN; Fin 2]] [1; 2] = Err OutOfFuel).
Proof.
  split.
  - apply C146_ends; [repeat constructor|]. exists 1%nat, 0. split; [lra|].
    exists [Fin 1; Fin 2]. split; [easy|]. intros [|[|j]] v c Hv Hc; simpl in Hv, Hc.
    + injection Hv as <-. injection Hc as <-. exists 1. split; [easy|]. rewrite Rminus_diag_eq, Rabs_R0; lra.
    + injection Hv as <-. injection Hc as <-. exists 2. split; [easy|]. rewrite Rminus_diag_eq, Rabs_R0; lra.
    + destruct j; discriminate.
  - apply C146_does_not_end; [repeat constructor|]. intros [|[|i]] delta Hd (row & E & H); simpl in E.
    + injection E as <-. destruct (H 0%nat (Fin 3) 1 eq_refl eq_refl) as (a & Ha & Hb).
      injection Ha as <-. rewrite Rabs_right in Hb; lra.
    + injection E as <-. destruct (H 0%nat NaN 1 eq_refl eq_refl) as (a & Ha & _). discriminate.
    + destruct i; discriminate.
Qed.

(** * C147 - the points of the states of other optimizers *)

Lemma near_refl xs p i r : 0 <= r -> nth_error xs i = Some (map Fin p) -> near xs p r i.
Proof.
  intros Hr E. exists (map Fin p). split; [easy|]. intros j v c Hv Hc.
  rewrite (map_nth_error _ _ _ Hc) in Hv. injection Hv as <-. exists c. split; [easy|].
  rewrite Rminus_diag_eq, Rabs_R0; lra.
Qed.

(** The point is a row, and no other row is within 1e-100 of it. *)
Definition evaluated_once (xs : list (list xr)) (p : vec) : Prop :=
  exists i, nth_error xs i = Some (map Fin p) /\ forall j, near xs p (/ 10 ^ 100) j -> j = i.
(** The point is a row, and also another one. *)
Definition evaluated_twice (xs : list (list xr)) (p : vec) : Prop :=
  exists i j, i <> j /\ nth_error xs i = Some (map Fin p) /\ nth_error xs j = Some (map Fin p).

Lemma find_exact fuel xs p : Forall (fun row => length row = length p) xs ->
  (exists i, near xs p (/ 10 ^ 100) i) ->
  exists f, find_index (S fuel) xs p = Ok f /\ answer xs p (/ 10 ^ 100) f.
Proof.
  intros HF [i Hi]. unfold find_index. cbn [find_index_from].
  pose proof (answer_cases xs p (/ 10 ^ 100) HF) as A.
  destruct (find_indices_in_trust_region xs p (/ 10 ^ 100)) as [|a [|b l]]; [now apply A in Hi| |];
    eexists; (split; [reflexivity|exact A]).
Qed.

Lemma start_nonneg : 0 <= / 10 ^ 100.
Proof. apply Rlt_le, start_radius_range. Qed.

Lemma find_once fuel xs p : Forall (fun row => length row = length p) xs -> evaluated_once xs p ->
  exists i, find_index (S fuel) xs p = Ok (FArray [i]) /\ nth_error xs i = Some (map Fin p).
Proof.
  intros HF (i & E & U). pose proof (near_refl xs p i _ start_nonneg E) as Hi.
  destruct (find_exact fuel xs p HF (ex_intro _ i Hi)) as (f & Ef & k & K1 & K2 & [[-> K3]|[-> (j & J1 & J2)]]).
  - exists k. split; [easy|]. now rewrite (U k K1).
  - exfalso. apply J1. now rewrite (U j J2), (U k K1).
Qed.

Lemma find_twice fuel xs p : Forall (fun row => length row = length p) xs -> evaluated_twice xs p ->
  exists i, find_index (S fuel) xs p = Ok (FScalar i).
Proof.
  intros HF (i & j & NE & Ei & Ej).
  pose proof (near_refl xs p i _ start_nonneg Ei) as Hi. pose proof (near_refl xs p j _ start_nonneg Ej) as Hj.
  destruct (find_exact fuel xs p HF (ex_intro _ i Hi)) as (f & Ef & k & K1 & K2 & [[-> K3]|[-> _]]).
  - exfalso. apply NE. now rewrite (K3 i Hi), (K3 j Hj).
  - eauto.
Qed.

Definition concat_found fuel xs := (fun (acc : res (list nat)) (point : list R) =>
      let* model_indices := acc in
      let* f := find_index fuel xs point in
      match f with
      | FArray l => Ok (model_indices ++ l)
      | FScalar _ => Err ValueError
      end).

Lemma get_model_indices_eq fuel xs pts :
  get_model_indices fuel xs pts = fold_left (concat_found fuel xs) pts (Ok []).
Proof. reflexivity. Qed.

Lemma concat_found_err fuel xs e pts : fold_left (concat_found fuel xs) pts (Err e) = Err e.
Proof. induction pts; auto. Qed.

Lemma model_indices_once fuel xs pts : 
  Forall (fun p => Forall (fun row => length row = length p) xs /\ evaluated_once xs p) pts ->
  exists is, get_model_indices (S fuel) xs pts = Ok is /\
    Forall2 (fun p i => nth_error xs i = Some (map Fin p)) pts is.
Proof.
  rewrite get_model_indices_eq.
  intros H. enough (G : forall acc, exists is, fold_left (concat_found (S fuel) xs) pts (Ok acc) = Ok (acc ++ is) /\
      Forall2 (fun p i => nth_error xs i = Some (map Fin p)) pts is) by exact (G []).
  induction H as [|p pts [HF HE] H IH]; intros acc.
  - exists []. rewrite app_nil_r. split; [easy|constructor].
  - cbn [fold_left]. destruct (find_once fuel xs p HF HE) as (i & Ei & Hi).
    unfold concat_found at 2. cbn [bind]. rewrite Ei. cbn [bind].
    destruct (IH (acc ++ [i])) as (is & E & F). exists (i :: is). rewrite E, <- app_assoc.
    split; [easy|]. now constructor.
Qed.

Lemma model_indices_twice fuel xs pts :
  Forall (fun p => Forall (fun row => length row = length p) xs /\ (evaluated_once xs p \/ evaluated_twice xs p)) pts ->
  Exists (evaluated_twice xs) pts -> get_model_indices (S fuel) xs pts = Err ValueError.
Proof.
  rewrite get_model_indices_eq.
  intros H X. enough (G : forall acc, fold_left (concat_found (S fuel) xs) pts (Ok acc) = Err ValueError)
    by exact (G []).
  induction H as [|p pts [HF HE] H IH]; intros acc; [inversion X|]. cbn [fold_left].
  destruct HE as [HE|HE].
  - destruct (find_once fuel xs p HF HE) as (i & Ei & Hi).
    unfold concat_found at 2. cbn [bind]. rewrite Ei. cbn [bind]. apply IH.
    inversion X as [? ? Q|]; subst; [|easy]. exfalso.
    destruct (find_twice fuel xs p HF Q) as (k & Ek). congruence.
  - destruct (find_twice fuel xs p HF HE) as (i & Ei).
    unfold concat_found at 2. cbn [bind]. rewrite Ei. cbn [bind]. apply concat_found_err.
Qed.

Lemma mapM_Forall2 {A B} (f : A -> res B) (Q : A -> B -> Prop) l :
  (forall a, In a l -> exists b, f a = Ok b /\ Q a b) ->
  exists bs, mapM f l = Ok bs /\ Forall2 Q l bs.
Proof.
  induction l as [|a l IH]; intros H; [exists []; split; [easy|constructor]|].
  destruct (H a (or_introl eq_refl)) as (b & Eb & Qb).
  destruct IH as (bs & E & F); [intros x Hx; apply H; simpl; auto|].
  exists (b :: bs). simpl. rewrite Eb. simpl. rewrite E. simpl. split; [easy|now constructor].
Qed.

(** The params of the result are an array with rows of length [d]; the model points and the
    accepted point of a state have length [d]. *)
Definition state_dims (d : nat) (s : vstate) : Prop :=
  Forall (fun p => length p = d) (v_model_points s) /\ length (v_x s) = d.

(** If every model point and every accepted point was evaluated exactly once, all of them are
    located in the history, and nothing else in the result is changed. *)
Theorem C147_points_located_partial :
  forall fuel r d s0 rest,
    (vr_algorithm r = "nag_pybobyqa" \/ vr_algorithm r = "nag_dfols")%string ->
    vr_states r = s0 :: rest -> Forall (fun row => length row = d) (vr_params r) ->
    Forall (state_dims d) rest ->
    Forall (fun s => Forall (evaluated_once (vr_params r)) (v_x s :: v_model_points s)) rest ->
    exists rest', process_results (S fuel) r = Ok (mkVResult (vr_algorithm r) (vr_params r) (s0 :: rest')) /\
      Forall2 (fun s s' =>
        s' = mkVState (v_center s) (v_radius s) (v_x s) (v_rho s) (v_model_points s)
               (v_model_indices s') (v_model_indices s') (v_old_used s) (v_discarded s) (v_index s') /\
        Forall2 (fun p i => nth_error (vr_params r) i = Some (map Fin p)) (v_model_points s) (v_model_indices s') /\
        nth_error (vr_params r) (v_index s') = Some (map Fin (v_x s))) rest rest'.
Proof.
  intros fuel r d s0 rest HA HS HP HD HO. unfold process_results.
  assert (HN : nag (vr_algorithm r) = true) by (unfold nag; destruct HA as [-> | ->]; reflexivity).
  rewrite HN, HS.
  destruct (mapM_Forall2 (process_state (S fuel) (vr_params r))
    (fun s s' => s' = mkVState (v_center s) (v_radius s) (v_x s) (v_rho s) (v_model_points s)
               (v_model_indices s') (v_model_indices s') (v_old_used s) (v_discarded s) (v_index s') /\
        Forall2 (fun p i => nth_error (vr_params r) i = Some (map Fin p)) (v_model_points s) (v_model_indices s') /\
        nth_error (vr_params r) (v_index s') = Some (map Fin (v_x s))) rest) as (rest' & E & F).
  { intros s Hs. rewrite Forall_forall in HD, HO. destruct (HD s Hs) as [D1 D2]. specialize (HO s Hs).
    inversion HO as [|? ? O1 O2]; subst.
    destruct (model_indices_once fuel (vr_params r) (v_model_points s)) as (is & Ei & Fi).
    { rewrite Forall_forall in D1, O2. apply Forall_forall. intros p Hp. rewrite (D1 p Hp). auto. }
    destruct (find_once fuel (vr_params r) (v_x s)) as (i & Ej & Fj); [easy|easy|].
    unfold process_state. rewrite Ei. cbn [bind]. rewrite Ej. cbn [bind]. eexists. split; [reflexivity|].
    cbn. auto. }
  exists rest'. rewrite E. cbn [bind]. auto.
Qed.

(** If a model point or the accepted point was evaluated twice, there is an exception. *)
Theorem C147_points_located_refuted :
  forall fuel r d s0 s rest,
    (vr_algorithm r = "nag_pybobyqa" \/ vr_algorithm r = "nag_dfols")%string ->
    vr_states r = s0 :: s :: rest -> Forall (fun row => length row = d) (vr_params r) ->
    state_dims d s ->
    Forall (fun p => evaluated_once (vr_params r) p \/ evaluated_twice (vr_params r) p)
      (v_x s :: v_model_points s) ->
    (Exists (evaluated_twice (vr_params r)) (v_model_points s) ->
       process_results (S fuel) r = Err ValueError) /\
    (Forall (evaluated_once (vr_params r)) (v_model_points s) -> evaluated_twice (vr_params r) (v_x s) ->
       process_results (S fuel) r = Err IndexError).
Proof.
  intros fuel r d s0 s rest HA HS HP [D1 D2] HO. unfold process_results.
  assert (HN : nag (vr_algorithm r) = true) by (unfold nag; destruct HA as [-> | ->]; reflexivity).
  rewrite HN, HS. inversion HO as [|? ? O1 O2]; subst. split.
  - intros HX. cbn [mapM]. unfold process_state at 1. rewrite model_indices_twice; [easy| |easy].
    rewrite Forall_forall in D1, O2. apply Forall_forall. intros p Hp. rewrite (D1 p Hp). auto.
  - intros HX HT. cbn [mapM]. unfold process_state at 1.
    destruct (model_indices_once fuel (vr_params r) (v_model_points s)) as (is & Ei & Fi).
    { rewrite Forall_forall in D1, HX. apply Forall_forall. intros p Hp. rewrite (D1 p Hp). auto. }
    rewrite Ei. cbn [bind]. destruct (find_twice fuel (vr_params r) (v_x s)) as (i & Ej); [easy|easy|].
    now rewrite Ej.
Qed.

(** All other results, also those of optimizers that are not supported, are returned as they
    are, without exception. *)
Theorem C147_other_optimizers :
  forall fuel r, vr_algorithm r <> "nag_pybobyqa"%string -> vr_algorithm r <> "nag_dfols"%string ->
    process_results fuel r = Ok r.
Proof.
  intros fuel r H1 H2. unfold process_results, nag.
  rewrite (proj2 (String.eqb_neq _ _) H1), (proj2 (String.eqb_neq _ _) H2). cbn [orb].
  now destruct (_ || _).
Qed.

(** Two evaluations, at 0 and 1, and a state with model point 1 and accepted point 0; the same
    with a second evaluation at 1. *)
Definition ex_vstate (x : vec) (pts : list vec) : vstate :=
  mkVState [0] 1 x (Fin 0) pts [] [] [] None 0.
Lemma near_far xs p i row a c : nth_error xs i = Some row -> nth_error row 0 = Some (Fin a) ->
  nth_error p 0 = Some c -> 1 <= Rabs (a - c) -> ~ near xs p (/ 10 ^ 100) i.
Proof.
  intros Hi Ha Hc Hd (row' & E & H). rewrite Hi in E. injection E as <-.
  destruct (H 0%nat _ _ Ha Hc) as (b & Hb & Hr). injection Hb as <-.
  pose proof start_radius_range as [_ Q]. unfold start_radius in Q. lra.
Qed.
Example C147_instance :
  let xs := [[Fin 0]; [Fin 1]] in
  (exists s', process_results 1 (mkVResult "nag_dfols" xs [ex_vstate [0] []; ex_vstate [0] [[1]]]) =
     Ok (mkVResult "nag_dfols" xs [ex_vstate [0] []; s']) /\ v_model_indices s' = [1%nat] /\ v_index s' = 0%nat) /\
  process_results 1 (mkVResult "nag_dfols" (xs ++ [[Fin 1]]) [ex_vstate [0] []; ex_vstate [0] [[1]]]) = Err ValueError.
Proof.
  intros xs.
  assert (O1 : forall l, (forall j row, nth_error l j = Some row -> row = [Fin 1]) -> evaluated_once ([Fin 0] :: l) [0]).
  { intros l Hl. exists 0%nat. split; [easy|]. intros [|j] Hj; [easy|]. exfalso.
    destruct (nth_error l j) as [row|] eqn:E.
    - pose proof (Hl _ _ E) as ->. revert Hj. apply (near_far _ _ _ [Fin 1] 1 0); auto.
      rewrite Rabs_right; lra.
    - destruct Hj as (row & Er & _). simpl in Er. congruence. }
  split.
  - destruct (C147_points_located_partial 0 (mkVResult "nag_dfols" xs [ex_vstate [0] []; ex_vstate [0] [[1]]])
      1 (ex_vstate [0] []) [ex_vstate [0] [[1]]]) as (rest' & E & F).
    + now right.
    + easy.
    + repeat constructor.
    + repeat constructor.
    + apply Forall_cons; [|constructor]. cbn [vr_params v_x ex_vstate v_model_points].
      apply Forall_cons; [|apply Forall_cons; [|constructor]].
      * apply O1. intros [|[|j]] row H; simpl in H; try discriminate. now injection H as <-.
      * exists 1%nat. split; [easy|]. intros [|[|j]] Hj; [exfalso|easy|exfalso].
        -- revert Hj. apply (near_far _ _ _ [Fin 0] 0 1); auto. rewrite Rabs_left; lra.
        -- destruct Hj as (row & Er & _). simpl in Er. destruct j; discriminate.
    + inversion F as [|? s' ? ? (F1 & F2 & F3) F4]; subst. inversion F4; subst. exists s'.
      split; [exact E|]. cbn [vr_params ex_vstate v_model_points v_x] in F2, F3.
      inversion F2 as [|? i ? ? G1 G2 G3 G4]; subst. inversion G2; subst.
      assert (i = 1%nat) as ->.
      { destruct i as [|[|i]]; simpl in G1; try easy; [injection G1; lra|destruct i; discriminate]. }
      split; [easy|]. destruct (v_index s') as [|[|i]]; simpl in F3; try easy; [injection F3; lra|destruct i; discriminate].
  - apply (C147_points_located_refuted 0 (mkVResult "nag_dfols" (xs ++ [[Fin 1]]) _) 1
      (ex_vstate [0] []) (ex_vstate [0] [[1]]) []).
    + now right.
    + easy.
    + repeat constructor.
    + repeat constructor.
    + cbn [vr_params v_x ex_vstate v_model_points].
      apply Forall_cons; [|apply Forall_cons; [|constructor]].
      * left. apply O1. intros [|[|j]] row H; simpl in H; try (destruct j; discriminate); now injection H as <-.
      * right. exists 1%nat, 2%nat. auto.
    + constructor. exists 1%nat, 2%nat. auto.
Qed.

(** * C148 - the columns of the figure *)

Lemma mapM_iff {A B} (f : A -> res B) l : forall bs,
  mapM f l = Ok bs <-> Forall2 (fun a b => f a = Ok b) l bs.
Proof.
  induction l as [|a l IH]; intros bs; simpl.
  - split; [now intros [= <-]|inversion 1; easy].
  - split.
    + destruct (f a) as [b|] eqn:E; simpl; [|discriminate].
      destruct (mapM f l) as [bs'|] eqn:E'; simpl; [|discriminate]. intros [= <-].
      constructor; [easy|]. now apply IH.
    + inversion 1 as [|? b ? bs' Hb HF]; subst. rewrite Hb. simpl.
      apply IH in HF. now rewrite HF.
Qed.

Lemma F2_length {A B} (Q : A -> B -> Prop) l k : Forall2 Q l k -> length l = length k.
Proof. induction 1; simpl; auto. Qed.

Lemma vlookup_In {A} (d : list (string * A)) k a : vlookup d k = Some a -> In (k, a) d.
Proof.
  induction d as [|[k' a'] d IH]; simpl; [discriminate|].
  destruct (String.eqb_spec k k') as [->|]; [intros [= ->]; auto|auto].
Qed.
Lemma vlookup_None {A} (d : list (string * A)) k : vlookup d k = None <-> ~ In k (map fst d).
Proof.
  induction d as [|[k' a'] d IH]; simpl; [intuition|].
  destruct (String.eqb_spec k k') as [->|N]; [split; [discriminate|tauto]|].
  rewrite IH. intuition congruence.
Qed.

(** C148 - an iteration z >= 0 denotes the state z, and z < 0 the state z counted from the end; all
    others raise an IndexError. *)
Theorem C148_iteration :
  forall states z,
    (forall s, state_at states z = Ok s <->
       exists before after, states = before ++ s :: after /\
         (z = Z.of_nat (length before) \/ z = (- Z.of_nat (length (s :: after)))%Z)) /\
    (forall e, state_at states z = Err e -> e = IndexError).
Proof.
  intros states z. unfold state_at. split.
  - intros s. split.
    + destruct ((0 <=? _)%Z && _) eqn:E; [|discriminate]. apply andb_prop in E as [E1 E2].
      apply Z.leb_le in E1. apply Z.ltb_lt in E2.
      destruct (nth_error states _) as [s'|] eqn:N; [|discriminate]. intros K. injection K as <-.
      apply nth_error_split in N as (b & a & -> & L). exists b, a. split; [easy|].
      rewrite app_length in *. cbn [length] in *. destruct (Z.ltb_spec z 0); [right|left]; lia.
    + intros (b & a & -> & Z).
      assert (L : (if (z <? 0)%Z then (z + Z.of_nat (length (b ++ s :: a)))%Z else z) = Z.of_nat (length b)).
      { rewrite app_length. destruct Z as [-> | ->].
        - destruct (Z.ltb_spec (Z.of_nat (length b)) 0); lia.
        - destruct (Z.ltb_spec (- Z.of_nat (length (s :: a))) 0); cbn [length] in *; lia. }
      rewrite L, Nat2Z.id, nth_error_app2, Nat.sub_diag by lia. cbn [nth_error].
      rewrite app_length. cbn [length].
      destruct (Z.leb_spec 0 (Z.of_nat (length b))); [|lia].
      destruct (Z.ltb_spec (Z.of_nat (length b)) (Z.of_nat (length b + S (length a)))); [reflexivity|lia].
  - intros e. destruct (_ && _); [|congruence]. destruct (nth_error _ _); congruence.
Qed.
Example C148_iteration_instance : forall s0 s1 s2,
  state_at [s0; s1; s2] (-2) = Ok s1 /\ state_at [s0; s1; s2] 2 = Ok s2 /\ state_at [s0; s1; s2] (-4) = Err IndexError.
Proof. intros s0 s1 s2. split; [|split; reflexivity]. apply C148_iteration. exists [s0], [s2]. auto. Qed.


(** One iteration of several results: a column per result, with its name, the processed result
    and the state of the iteration. *)
Theorem C148_one_iteration :
  forall fuel digits d z cols, d <> [] ->
    columns fuel digits (RDict d) (IInt z) = Ok cols <->
    Forall2 (fun kv col => exists r s, process_results fuel (snd kv) = Ok r /\
       state_at (vr_states r) z = Ok s /\ col = (fst kv, r, s)) d cols.
Proof.
  intros fuel digits d z cols HN. unfold columns, prepare.
  assert (L : forall k, In k (map fst d) -> vlookup (map (fun kv => (fst kv, z)) d) k = Some z).
  { intros k. clear. induction d as [|[k' a] d IH]; simpl; [easy|].
    destruct (String.eqb_spec k k') as [->|N]; [easy|]. intros [->|H]; [easy|auto]. }
  split.
  - destruct (mapM _ d) as [p|] eqn:E; [|discriminate]. apply mapM_iff in E. cbn [bind].
    assert (LP : length p = length d) by (symmetry; eapply F2_length, E).
    destruct (Nat.eqb_spec (length p) 0) as [Z|_]; [destruct d; [easy|simpl in LP; lia]|].
    rewrite mapM_iff. intros F. revert L E cols F. clear. generalize (map (fun kv : string * vresult => (fst kv, z)) d).
    intros its. revert p. induction d as [|[k r] d IH]; intros p L E cols F.
    + inversion E; subst. inversion F; subst. constructor.
    + inversion E as [|? [k' r'] ? p' E1 E2]; subst. inversion F as [|? c ? cols' F1 F2]; subst.
      cbn [fst snd] in *. destruct (process_results fuel r) as [r1|] eqn:Er; [|discriminate].
      cbn [bind] in E1. injection E1 as <- <-. rewrite L in F1 by (simpl; auto).
      destruct (state_at (vr_states r1) z) as [s|] eqn:Es; [|discriminate]. cbn [bind] in F1. injection F1 as <-.
      constructor; [exists r1, s; auto|]. eapply IH; eauto. intros k0 H0. apply L. simpl. auto.
  - intros F.
    assert (E : exists p, mapM (fun kv => let* r := process_results fuel (snd kv) in Ok (fst kv, r)) d = Ok p /\
       Forall2 (fun (q : string * vresult) c => (match vlookup (map (fun kv => (fst kv, z)) d) (fst q) with
          | None => Err KeyError
          | Some z0 => let* s := state_at (vr_states (snd q)) z0 in Ok (fst q, snd q, s) end) = Ok c) p cols).
    { revert L. generalize (map (fun kv : string * vresult => (fst kv, z)) d) as its. intros its L. clear HN.
      induction F as [|[k r] c d cols (r1 & s & E1 & E2 & ->) F IH]; [exists []; split; [easy|constructor]|].
      destruct IH as (p & Ep & Fp); [intros k0 H0; apply L; simpl; auto|].
      exists ((k, r1) :: p). cbn [mapM fst snd] in *. rewrite E1. cbn [bind]. rewrite Ep. cbn [bind].
      split; [easy|]. constructor; [|easy]. cbn [fst snd]. rewrite L by (simpl; auto). rewrite E2. easy. }
    destruct E as (p & -> & Fp). cbn [bind].
    assert (LP : length p = length d) by (rewrite (F2_length _ _ _ Fp); symmetry; eapply F2_length, F).
    destruct (Nat.eqb_spec (length p) 0) as [Z|_]; [destruct d; [easy|simpl in LP; lia]|].
    now apply mapM_iff.
Qed.

Lemma dict_set_spec {A} (d : list (string * A)) k a : NoDup (map fst d) ->
  NoDup (map fst (dict_set d k a)) /\
  (forall k' b, In (k', b) (dict_set d k a) -> (k', b) = (k, a) \/ In (k', b) d) /\
  (forall k', In k' (map fst (dict_set d k a)) <-> k' = k \/ In k' (map fst d)).
Proof.
  intros ND. unfold dict_set. destruct (vlookup d k) as [b|] eqn:E.
  - assert (M : map fst (map (fun kv => if (k =? fst kv)%string then (fst kv, a) else kv) d) = map fst d).
    { rewrite map_map. apply map_ext. intros [k' v]. simpl. now destruct (k =? k')%string. }
    rewrite M. split; [easy|]. split.
    + intros k' v H. apply in_map_iff in H as ([k1 v1] & H & Hin). cbn [fst] in H.
      destruct (String.eqb_spec k k1) as [->|_]; injection H as <- <-; auto.
    + intros k'. split; [auto|]. intros [->|H]; [|easy]. apply vlookup_In in E.
      change k with (fst (k, b)). now apply in_map.
  - apply vlookup_None in E. rewrite map_app. cbn [map fst]. split.
    + apply NoDup_rev in ND. rewrite <- (rev_involutive (map fst d ++ [k])). apply NoDup_rev.
      rewrite rev_app_distr. simpl. constructor; [now rewrite <- in_rev|easy].
    + split.
      * intros k' v H. apply in_app_or in H as [H|[H|[]]]; auto.
      * intros k'. rewrite in_app_iff. simpl. intuition.
Qed.

Lemma dict_display_spec {A} (l : list (string * A)) :
  NoDup (map fst (dict_display l)) /\
  (forall k a, In (k, a) (dict_display l) -> In (k, a) l) /\
  (forall k, In k (map fst (dict_display l)) <-> In k (map fst l)).
Proof.
  unfold dict_display.
  enough (G : forall acc, NoDup (map fst acc) ->
    let d := fold_left (fun d kv => dict_set d (fst kv) (snd kv)) l acc in
    NoDup (map fst d) /\ (forall k (a : A), In (k, a) d -> In (k, a) acc \/ In (k, a) l) /\
    (forall k, In k (map fst d) <-> In k (map fst acc) \/ In k (map fst l))).
  { destruct (G [] (NoDup_nil _)) as (G1 & G2 & G3). split; [easy|]. split.
    - intros k a H. destruct (G2 k a H) as [[]|]; easy.
    - intros k. rewrite G3. simpl. tauto. }
  induction l as [|[k0 a0] l IH]; intros acc ND; cbn [fold_left].
  - split; [easy|]. split; [auto|]. simpl. tauto.
  - destruct (dict_set_spec acc k0 a0 ND) as (S1 & S2 & S3). cbn [fst snd].
    destruct (IH _ S1) as (I1 & I2 & I3). split; [easy|]. split.
    + intros k a H. destruct (I2 k a H) as [H'|H']; [|simpl; auto].
      destruct (S2 k a H') as [[= -> ->]|]; simpl; auto.
    + intros k. rewrite I3, S3. simpl. intuition.
Qed.

Lemma NoDup_functional {A} (d : list (string * A)) k a : NoDup (map fst d) -> In (k, a) d ->
  vlookup d k = Some a.
Proof.
  induction d as [|[k' a'] d IH]; simpl; [easy|]. intros ND H. inversion ND; subst.
  destruct (String.eqb_spec k k') as [->|N].
  - destruct H as [[= ->]|H]; [easy|]. exfalso. apply H2. change k' with (fst (k', a)). now apply in_map.
  - destruct H as [[= -> ->]|H]; [easy|auto].
Qed.

(** Several iterations of one result: a column per different iteration. *)
Theorem C148_several_iterations :
  forall fuel digits r l cols, (forall a b, digits a = digits b -> a = b) -> l <> [] ->
    columns fuel digits (RSingle r) (IList l) = Ok cols ->
    exists r', process_results fuel r = Ok r' /\ NoDup (map (fun c => fst (fst c)) cols) /\
      forall name r'' s, In (name, r'', s) cols <->
        exists z, In z l /\ name = ("iteration " ++ digits z)%string /\ r'' = r' /\
          state_at (vr_states r') z = Ok s.
Proof.
  intros fuel digits r l cols HD HN. unfold columns, prepare.
  destruct (process_results fuel r) as [r'|] eqn:ER; [|discriminate]. cbn [bind].
  destruct (dict_display_spec (map (fun z => (case_name digits z, r')) l)) as (A1 & A2 & A3).
  destruct (dict_display_spec (map (fun z => (case_name digits z, z)) l)) as (B1 & B2 & B3).
  set (rs := dict_display (map (fun z => (case_name digits z, r')) l)) in *.
  set (its := dict_display (map (fun z => (case_name digits z, z)) l)) in *.
  destruct (length rs =? 0)%nat; [discriminate|]. rewrite mapM_iff. intros F.
  assert (Hits : forall z, In z l -> vlookup its (case_name digits z) = Some z).
  { intros z Hz. apply NoDup_functional; [easy|].
    assert (Hk : In (case_name digits z) (map fst its)).
    { apply B3. rewrite map_map. simpl. now apply (in_map (case_name digits)). }
    apply in_map_iff in Hk as ([k z'] & Hk & Hin). simpl in Hk. subst k.
    pose proof (B2 _ _ Hin) as Hin'. apply in_map_iff in Hin' as (z2 & Hz2 & _).
    injection Hz2 as E2 E3. subst z2. apply HD in E2. now subst z'. }
  assert (Hrs : forall k q, In (k, q) rs -> q = r' /\ exists z, In z l /\ k = case_name digits z).
  { intros k q H. apply A2 in H. apply in_map_iff in H as (z & [= <- <-] & Hz). eauto. }
  exists r'. split; [easy|].
  assert (Names : map (fun c : string * vresult * vstate => fst (fst c)) cols = map fst rs).
  { revert F. clear. generalize rs as q. induction cols as [|c cols IH]; intros q F; inversion F as [|[k r0] ? q' ? F1 F2]; subst; [easy|].
    simpl. rewrite (IH _ F2). f_equal. cbn [fst snd] in F1.
    destruct (vlookup its k); [|discriminate]. destruct (state_at _ _); [|discriminate]. now injection F1 as <-. }
  split; [now rewrite Names|]. intros name r'' s. split.
  - intros H. apply In_nth_error in H as [n Hn].
    assert (Hq : exists q, nth_error rs n = Some q /\ match vlookup its (fst q) with
          | None => Err KeyError
          | Some z => let* s := state_at (vr_states (snd q)) z in Ok (fst q, snd q, s) end = Ok (name, r'', s)).
    { clear - F Hn. revert n Hn. induction F as [|q c rs cols F1 F IH]; intros [|n] Hn; try discriminate.
      - injection Hn as ->. exists q. auto.
      - apply (IH n Hn). }
    destruct Hq as ([k q] & Hq & Hc). cbn [fst snd] in Hc. apply nth_error_In in Hq.
    destruct (Hrs _ _ Hq) as (-> & z & Hz & ->). rewrite (Hits z Hz) in Hc.
    destruct (state_at (vr_states r') z) as [s'|] eqn:Es; [|discriminate]. injection Hc as <- <- <-.
    exists z. auto.
  - intros (z & Hz & -> & -> & Es).
    assert (Hk : In (case_name digits z) (map fst rs)).
    { apply A3. rewrite map_map. simpl. now apply (in_map (case_name digits)). }
    apply in_map_iff in Hk as ([k q] & Hk & Hin). simpl in Hk. subst k.
    destruct (Hrs _ _ Hin) as (-> & _). apply In_nth_error in Hin as [n Hn].
    assert (Hc : exists c, nth_error cols n = Some c /\ match vlookup its (case_name digits z) with
          | None => Err KeyError
          | Some z0 => let* s := state_at (vr_states r') z0 in Ok (case_name digits z, r', s) end = Ok c).
    { clear - F Hn. revert n Hn. induction F as [|q c rs cols F1 F IH]; intros [|n] Hn; try discriminate.
      - injection Hn as ->. exists c. split; [easy|exact F1].
      - apply (IH n Hn). }
    destruct Hc as (c & Hc & E). rewrite (Hits z Hz), Es in E. cbn [bind] in E. injection E as <-.
    eapply nth_error_In, Hc.
Qed.

(** Iterations by case: the results are shown as they are given. *)
Theorem C148_iterations_by_case :
  forall fuel digits d its cols, d <> [] ->
    columns fuel digits (RDict d) (IDict its) = Ok cols <->
    Forall2 (fun kv col => exists z s, vlookup its (fst kv) = Some z /\
       state_at (vr_states (snd kv)) z = Ok s /\ col = (fst kv, snd kv, s)) d cols.
Proof.
  intros fuel digits d its cols HN. unfold columns, prepare. cbn [bind].
  destruct (Nat.eqb_spec (length d) 0) as [Z|_]; [now destruct d|]. rewrite mapM_iff.
  assert (G : forall (kv : string * vresult) c,
    match vlookup its (fst kv) with
    | None => Err KeyError
    | Some z => let* s := state_at (vr_states (snd kv)) z in Ok (fst kv, snd kv, s) end = Ok c <->
    exists z s, vlookup its (fst kv) = Some z /\ state_at (vr_states (snd kv)) z = Ok s /\ c = (fst kv, snd kv, s)).
  { intros kv c. destruct (vlookup its (fst kv)) as [z|].
    - destruct (state_at (vr_states (snd kv)) z) as [s|e] eqn:Es; cbn [bind]; split.
      + intros [= <-]. eauto 6.
      + intros (z' & s' & [= <-] & E & ->). congruence.
      + discriminate.
      + intros (z' & s' & [= <-] & E & ->). congruence.
    - split; [discriminate|]. now intros (z & s & H & _). }
  clear HN. split; (induction 1 as [|kv c ? ? H F IH]; [constructor|constructor; [now apply G|exact IH]]).
Qed.

(** The other combinations are rejected. *)
Theorem C148_rejected :
  forall fuel digits,
    (forall r z, columns fuel digits (RSingle r) (IInt z) = Err TypeError) /\
    (forall d l, d <> [] -> columns fuel digits (RDict d) (IList l) = Err TypeError) /\
    (forall its, columns fuel digits (RDict []) its = Err ZeroDivisionError) /\
    (forall r r', process_results fuel r = Ok r' ->
       columns fuel digits (RSingle r) (IList []) = Err ZeroDivisionError).
Proof.
  intros fuel digits. split; [easy|]. split; [now intros [|]|]. split; [now intros [| |]|].
  intros r r' H. unfold columns, prepare. rewrite H. reflexivity.
Qed.

(** In the last documented form the results of the nag optimizers are not processed: the
    state that is shown has none of the located indices. *)
Theorem C148_processed_refuted :
  exists r s s',
    let d := [("a", r)]%string in
    columns 1 (fun _ => ""%string) (RDict d) (IInt 1) = Ok [("a"%string, mkVResult (vr_algorithm r) (vr_params r) [hd s (vr_states r); s'], s')] /\
    columns 1 (fun _ => ""%string) (RDict d) (IDict [("a"%string, 1%Z)]) = Ok [("a"%string, r, s)] /\
    v_model_indices s' = [1%nat] /\ v_model_indices s = [].
Proof.
  destruct C147_instance as [(s' & E & I1 & I2) _].
  set (r := mkVResult "nag_dfols" [[Fin 0]; [Fin 1]] [ex_vstate [0] []; ex_vstate [0] [[1]]]) in E.
  exists r, (ex_vstate [0] [[1]]), s'. cbn zeta. split; [|split; [|split; [easy|reflexivity]]].
  - apply C148_one_iteration; [easy|]. constructor; [|constructor].
    eexists. exists s'. split; [exact E|]. split; reflexivity.
  - apply C148_iterations_by_case; [easy|]. constructor; [|constructor].
    exists 1%Z. eexists. split; [reflexivity|]. split; reflexivity.
Qed.

(** Instance: a list with a repeated iteration gives one column for each of the two states. *)
Example C148_instance :
  let digits z := if (z =? 0)%Z then "0"%string else if (z =? 1)%Z then "1"%string else "?"%string in
  let r := mkVResult "tranquilo" [[Fin 0]] [ex_vstate [0] []; ex_vstate [2] []] in
  columns 1 digits (RSingle r) (IList [1; 0; 1]%Z) =
    Ok [("iteration 1"%string, r, ex_vstate [2] []); ("iteration 0"%string, r, ex_vstate [0] [])].
Proof. reflexivity. Qed.

(** * C149 - the data of the line plots *)

(** Values that are not NaN are moved to [-1, 3], values in that range and NaN are unchanged. *)
Theorem C149_rhos :
  forall rhos, Forall2 (fun r c =>
      (r = NaN -> c = NaN) /\ (r <> NaN -> exists a, c = Fin a /\ -1 <= a <= 3) /\
      (forall a, r = Fin a -> -1 <= a <= 3 -> c = r)) rhos (clip_rhos rhos).
Proof.
  induction rhos as [|r rhos IH]; [constructor|]. constructor; [|exact IH].
  destruct r as [r| | |]; cbn [isnan]; (split; [easy|]).
  - unfold xclip, xmax, xmin. cbn [xle].
    destruct (Rleb_spec r (-1)) as [H|H]; cbn [xle].
    + destruct (Rleb_spec 3 (-1)); [lra|]. split; [intros _; exists (-1); split; [easy|lra]|].
      intros a [= <-] Ha. f_equal. lra.
    + destruct (Rleb_spec 3 r).
      * split; [intros _; exists 3; split; [easy|lra]|]. intros a [= <-] Ha. f_equal. lra.
      * split; [intros _; exists r; split; [easy|lra]|]. auto.
  - cbn. split; [intros _; exists 3; split; [easy|lra]|discriminate].
  - unfold xclip, xmax, xmin. cbn [xle]. destruct (Rleb_spec 3 (-1)); [lra|].
    split; [intros _; exists (-1); split; [easy|lra]|discriminate].
  - split; [easy|discriminate].
Qed.

Example C149_rhos_instance : clip_rhos [NaN; Fin 2; Fin 7; NInf] = [NaN; Fin 2; Fin 3; Fin (-1)].
Proof.
  unfold clip_rhos, xclip, xmax, xmin. cbn -[Rleb].
  rewrite (proj2 (Rleb_false 2 (-1))), (proj2 (Rleb_false 7 (-1))) by lra. cbn -[Rleb].
  rewrite (proj2 (Rleb_false 3 2)), (proj2 (Rleb_true 3 7)), (proj2 (Rleb_false 3 (-1))) by lra.
  reflexivity.
Qed.

Lemma take_rows_iff {A} (history : list A) is rows :
  take_rows history is = Ok rows <-> Forall2 (fun i row => nth_error history i = Some row) is rows.
Proof.
  unfold take_rows. rewrite mapM_iff. unfold nth_res.
  split; intros F; induction F as [|i row is rows H F IH]; constructor; auto.
  - destruct (nth_error history i); [now injection H as <-|discriminate].
  - now rewrite H.
Qed.

Lemma dist_self x : dist x x = 0.
Proof.
  unfold dist, norm. replace (sumsq (vsub x x)) with 0; [apply sqrt_0|].
  unfold sumsq, vsub. induction x as [|a x IH]; [reflexivity|].
  cbn [map2]. rewrite dot_cons, <- IH. ring.
Qed.

Lemma scaled_radius_nonneg r dim s : 0 <= r -> 0 <= get_radius_after_volume_scaling r dim s.
Proof.
  intros H. unfold get_radius_after_volume_scaling. apply Rmult_le_pos; [easy|].
  unfold Rpower. apply Rlt_le, exp_pos.
Qed.

(** The ratio of clusters to points is positive and at most 1.  It is 1 exactly if all points
    of the model are further apart than the cluster radius. *)
Theorem C149_cluster_ratio :
  forall history dim f s, (1 <= f)%nat -> 0 <= v_radius s -> v_model_indices s <> [] ->
    Forall (fun i => (i < length history)%nat) (v_model_indices s) ->
    let n := length (v_model_indices s) in
    let eps := v_radius s * Rpower (1 / INR (f * n)) (1 / INR dim) in
    exists ratio, cluster_ratio history dim f s = Ok ratio /\ 0 < ratio <= 1 /\
      (ratio = 1 <-> forall a b i j, (a < b)%nat -> nth_error (v_model_indices s) a = Some i ->
          nth_error (v_model_indices s) b = Some j ->
          eps < dist (nth i history []) (nth j history [])).
Proof.
  intros history dim f s Hf Hr HN HI n eps. unfold cluster_ratio. fold n.
  assert (HT : exists rows, take_rows history (v_model_indices s) = Ok rows).
  { clear - HI. induction HI as [|i is H HI [rows IH]]; [exists []; easy|].
    destruct (nth_error history i) as [row|] eqn:E; [|apply nth_error_None in E; lia].
    exists (row :: rows). apply take_rows_iff. constructor; [easy|]. now apply take_rows_iff. }
  destruct HT as [rows HT]. rewrite HT. cbn [bind]. apply take_rows_iff in HT.
  pose proof (F2_length _ _ _ HT) as LR. fold n in LR.
  assert (Hn : (1 <= n)%nat) by (unfold n; destruct (v_model_indices s); [easy|simpl; lia]).
  destruct (Nat.eqb_spec (f * n) 0) as [Z|_]; [nia|].
  fold (get_radius_after_volume_scaling (v_radius s) dim (1 / INR (f * n))) in eps.
  set (D := fun i j : nat => dist (nth i rows []) (nth j rows [])).
  destruct (C51_cluster (length rows) D eps) as (labels & centers & EC & HL & HC & HK & ND & SEP).
  { intros i j _ _. apply dist_sym. }
  { intros i _. apply dist_self. }
  { now apply scaled_radius_nonneg. }
  fold eps. rewrite EC. cbn [bind].
  assert (Hin : forall c, In c centers -> (c < n)%nat).
  { intros c Hc. apply In_nth_error in Hc as [k Hk]. apply HK in Hk.
    rewrite LR, <- HL. apply nth_error_Some. congruence. }
  assert (LC : (length centers <= n)%nat).
  { rewrite <- (seq_length n 0). apply NoDup_incl_length; [easy|]. intros c Hc. apply in_seq.
    specialize (Hin c Hc). lia. }
  assert (LC1 : (1 <= length centers)%nat).
  { destruct (HC 0%nat) as (k & c & _ & Hk & _); [lia|].
    assert (k < length centers)%nat by (apply nth_error_Some; congruence). lia. }
  assert (Hn' : 0 < INR n) by (apply lt_0_INR; lia).
  eexists. split; [reflexivity|].
  assert (HR : 0 < INR (length centers) / INR n <= 1).
  { apply le_INR in LC. apply le_INR in LC1. change (INR 1) with 1 in LC1. split.
    - apply Rdiv_lt_0_compat; lra.
    - apply (Rmult_le_reg_r (INR n)); [easy|]. unfold Rdiv. rewrite Rmult_assoc, Rinv_l by lra. lra. }
  split; [exact HR|].
  assert (HD : forall a i, nth_error (v_model_indices s) a = Some i -> nth a rows [] = nth i history []).
  { clear - HT. induction HT as [|i0 row is rows H HT IH]; intros [|a] i Hi; try discriminate.
    - injection Hi as <-. simpl. symmetry. now apply nth_error_nth.
    - now apply IH. }
  assert (HEQ : INR (length centers) / INR n = 1 <-> length centers = n).
  { split.
    - intros H. apply INR_eq. apply (f_equal (fun x => x * INR n)) in H. unfold Rdiv in H.
      rewrite Rmult_assoc, Rinv_l in H by lra. lra.
    - intros ->. unfold Rdiv. apply Rinv_r. lra. }
  rewrite HEQ. split.
  - intros E a b i j Hab Ha Hb.
    assert (All : forall p, (p < n)%nat -> In p centers).
    { assert (IC : incl (seq 0 n) centers).
      { apply NoDup_length_incl; [easy|now rewrite seq_length, E|].
        intros c Hc. apply in_seq. specialize (Hin c Hc). lia. }
      intros p Hp. apply IC, in_seq. lia. }
    assert (Hb' : (b < n)%nat) by (unfold n; apply nth_error_Some; congruence).
    rewrite <- (HD _ _ Ha), <- (HD _ _ Hb). apply SEP; try apply All; lia.
  - intros H. apply Nat.le_antisymm; [easy|]. rewrite <- (seq_length n 0) at 1.
    apply NoDup_incl_length; [apply seq_NoDup|]. intros p Hp. apply in_seq in Hp.
    destruct (HC p) as (k & c & _ & Hk & Hc & Hd); [lia|].
    destruct (Nat.eq_dec c p) as [<-|NE]; [eapply nth_error_In, Hk|]. exfalso.
    assert (G : forall a b, (a < b)%nat -> (b < n)%nat -> eps < D a b).
    { intros a b Hab Hb.
      destruct (nth_error (v_model_indices s) a) as [i|] eqn:Ea; [|apply nth_error_None in Ea; fold n in Ea; lia].
      destruct (nth_error (v_model_indices s) b) as [j|] eqn:Eb; [|apply nth_error_None in Eb; fold n in Eb; lia].
      unfold D. rewrite (HD _ _ Ea), (HD _ _ Eb). now apply (H a b). }
    destruct (Nat.lt_ge_cases c p) as [Hlt|Hge].
    + specialize (G c p Hlt ltac:(lia)). lra.
    + specialize (G p c ltac:(lia) ltac:(lia)). unfold D in G, Hd. rewrite dist_sym in G. lra.
Qed.

(** Without model points the ratio raises. *)
Theorem C149_no_points :
  forall history dim f s, v_model_indices s = [] ->
    cluster_ratio history dim f s = Err ZeroDivisionError.
Proof. intros history dim f s H. unfold cluster_ratio. rewrite H. simpl. now rewrite Nat.mul_0_r. Qed.

Example C149_cluster_instance :
  exists ratio, cluster_ratio [[0]; [7]; [1]] 1 1 (mkVState [0] 1 [0] (Fin 0) [] [0; 2]%nat [] [] None 0) = Ok ratio /\
    ratio = 1.
Proof.
  destruct (C149_cluster_ratio [[0]; [7]; [1]] 1 1 (mkVState [0] 1 [0] (Fin 0) [] [0; 2]%nat [] [] None 0))
    as (ratio & E & _ & H); cbn; try lra; try lia; try easy.
  { repeat constructor. }
  exists ratio. split; [exact E|]. apply H. cbn [v_model_indices v_radius].
  intros a b i j Hab Ha Hb.
  assert (a = 0%nat /\ b = 1%nat) as [-> ->].
  { destruct b as [|[|b]]; [lia| |destruct b; discriminate]. destruct a; [auto|lia]. }
  injection Ha as <-. injection Hb as <-. cbn [nth length Nat.mul Nat.add].
  replace (1 / INR 1) with 1 by (simpl; field). rewrite Rpower_1 by (simpl; lra).
  unfold dist, norm, vsub, sumsq. cbn [map2]. rewrite dot_cons.
  replace ((0 - 1) * (0 - 1) + dot [] []) with (1 * 1) by (unfold dot; simpl; ring).
  rewrite sqrt_square by lra. simpl. lra.
Qed.

Lemma norm_inf_nonneg v : 0 <= norm_inf v.
Proof.
  destruct v as [|a v]; simpl; [lra|]. eapply Rle_trans; [apply Rabs_pos|apply Rmax_l].
Qed.
Lemma norm_inf_le v : norm_inf v <= norm v.
Proof.
  unfold norm, sumsq. induction v as [|a v IH]; simpl.
  - apply sqrt_pos.
  - rewrite dot_cons.
    assert (D0 : forall u, 0 <= dot u u).
    { intros u. unfold dot. induction u as [|b u IHu]; simpl; [lra|]. pose proof (Rle_0_sqr b) as Q. unfold Rsqr in Q. lra. }
    specialize (D0 v). pose proof (Rle_0_sqr a) as Qa. unfold Rsqr in Qa. apply Rmax_lub.
    + rewrite <- sqrt_Rsqr_abs. apply sqrt_le_1_alt. unfold Rsqr. lra.
    + eapply Rle_trans; [exact IH|]. apply sqrt_le_1_alt. lra.
Qed.

Lemma fold_Rmin_spec l : forall a, fold_left Rmin l a <= a /\ Forall (fun b => fold_left Rmin l a <= b) l /\
  (fold_left Rmin l a = a \/ In (fold_left Rmin l a) l).
Proof.
  induction l as [|b l IH]; intros a; simpl; [split; [lra|auto]|].
  destruct (IH (Rmin a b)) as (I1 & I2 & I3). pose proof (Rmin_l a b). pose proof (Rmin_r a b).
  split; [lra|]. split; [constructor; [lra|easy]|].
  destruct I3 as [E|I3]; [|auto]. rewrite E. unfold Rmin. destruct (Rle_dec a b); auto.
Qed.
Lemma fold_Rmax_spec l : forall a, a <= fold_left Rmax l a /\ Forall (fun b => b <= fold_left Rmax l a) l /\
  (fold_left Rmax l a = a \/ In (fold_left Rmax l a) l).
Proof.
  induction l as [|b l IH]; intros a; simpl; [split; [lra|auto]|].
  destruct (IH (Rmax a b)) as (I1 & I2 & I3). pose proof (Rmax_l a b). pose proof (Rmax_r a b).
  split; [lra|]. split; [constructor; [lra|easy]|].
  destruct I3 as [E|I3]; [|auto]. rewrite E. unfold Rmax. destruct (Rle_dec a b); auto.
Qed.
Lemma array_min_spec l m : array_min l = Ok m -> In m l /\ Forall (fun b => m <= b) l.
Proof.
  destruct l as [|a l]; simpl; [discriminate|]. intros [= <-].
  destruct (fold_Rmin_spec l a) as (H1 & H2 & H3). split; [destruct H3; auto|]. now constructor.
Qed.
Lemma array_max_spec l m : array_max l = Ok m -> In m l /\ Forall (fun b => b <= m) l.
Proof.
  destruct l as [|a l]; simpl; [discriminate|]. intros [= <-].
  destruct (fold_Rmax_spec l a) as (H1 & H2 & H3). split; [destruct H3; auto|]. now constructor.
Qed.

(** The distances of the model points from the center in units of the radius.  Those in the
    maximum norm are never larger; the common range of both axes starts at the smallest
    distance in the maximum norm, ends at the largest euclidean distance and contains all
    distances. *)
Theorem C149_distances :
  forall history s, 0 < v_radius s -> v_model_indices s <> [] ->
    Forall (fun i => (i < length history)%nat) (v_model_indices s) ->
    exists sq inf lo hi, distances history s = Ok (sq, inf) /\ distance_range sq inf = Ok (lo, hi) /\
      Forall2 (fun i a => a * v_radius s = dist (nth i history []) (v_center s)) (v_model_indices s) sq /\
      Forall2 (fun b a => 0 <= b <= a) inf sq /\
      In lo inf /\ In hi sq /\ Forall (fun a => lo <= a <= hi) (sq ++ inf).
Proof.
  intros history s Hr HN HI. unfold distances.
  assert (HT : exists rows, take_rows history (v_model_indices s) = Ok rows).
  { clear - HI. induction HI as [|i is H HI [rows IH]]; [exists []; easy|].
    destruct (nth_error history i) as [row|] eqn:E; [|apply nth_error_None in E; lia].
    exists (row :: rows). apply take_rows_iff. constructor; [easy|]. now apply take_rows_iff. }
  destruct HT as [rows HT]. rewrite HT. cbn [bind]. apply take_rows_iff in HT.
  set (sq := map (fun p => norm (vsub p (v_center s)) / v_radius s) rows).
  set (inf := map (fun p => norm_inf (vsub p (v_center s)) / v_radius s) rows).
  assert (HP : Forall2 (fun b a => 0 <= b <= a) inf sq).
  { unfold inf, sq. clear - Hr. induction rows as [|p rows IH]; simpl; constructor; [|exact IH].
    assert (Hi : 0 < / v_radius s) by now apply Rinv_0_lt_compat.
    pose proof (norm_inf_nonneg (vsub p (v_center s))). pose proof (norm_inf_le (vsub p (v_center s))).
    unfold Rdiv. split; [nra|]. apply Rmult_le_compat_r; lra. }
  assert (NE : rows <> []) by (inversion HT; subst; congruence).
  destruct (array_min inf) as [mi|] eqn:E1; [|unfold inf in E1; destruct rows; [easy|discriminate]].
  destruct (array_min sq) as [ms|] eqn:E2; [|unfold sq in E2; destruct rows; [easy|discriminate]].
  destruct (array_max inf) as [xi|] eqn:E3; [|unfold inf in E3; destruct rows; [easy|discriminate]].
  destruct (array_max sq) as [xs|] eqn:E4; [|unfold sq in E4; destruct rows; [easy|discriminate]].
  destruct (array_min_spec _ _ E1) as [M1 M2]. destruct (array_min_spec _ _ E2) as [N1 N2].
  destruct (array_max_spec _ _ E3) as [X1 X2]. destruct (array_max_spec _ _ E4) as [Y1 Y2].
  rewrite Forall_forall in M2, N2, X2, Y2.
  assert (L : mi <= ms).
  { clear - HP N1 M2. induction HP as [|b a inf sq H HP IH]; [easy|]. destruct N1 as [<-|N1].
    - specialize (M2 b (or_introl eq_refl)). lra.
    - apply IH; [intros x Hx; apply M2; simpl; auto|easy]. }
  assert (U : xi <= xs).
  { clear - HP X1 Y2. induction HP as [|b a inf sq H HP IH]; [easy|]. destruct X1 as [<-|X1].
    - specialize (Y2 a (or_introl eq_refl)). lra.
    - apply IH; [easy|]. intros x Hx. apply Y2. simpl. auto. }
  exists sq, inf, mi, xs. split; [easy|]. split.
  { unfold distance_range. rewrite E1, E2, E3, E4. cbn [bind]. now rewrite Rmin_left, Rmax_right. }
  split.
  { unfold sq. clear - HT Hr. induction HT as [|i row is rows H HT IH]; simpl; constructor; [|exact IH].
    rewrite (nth_error_nth _ _ [] H). unfold dist. field. lra. }
  split; [easy|]. split; [easy|]. split; [easy|].
  apply Forall_forall. intros a Ha. apply in_app_or in Ha as [Ha|Ha].
  - specialize (N2 a Ha). specialize (Y2 a Ha). lra.
  - specialize (M2 a Ha). specialize (X2 a Ha). lra.
Qed.

Example C149_distances_instance :
  exists sq inf lo hi, let s := mkVState [0; 0] 2 [0; 0] (Fin 0) [] [1]%nat [] [] None 0 in
    distances [[0; 0]; [3; 4]] s = Ok (sq, inf) /\ distance_range sq inf = Ok (lo, hi) /\ hi * 2 = 5.
Proof.
  destruct (C149_distances [[0; 0]; [3; 4]] (mkVState [0; 0] 2 [0; 0] (Fin 0) [] [1]%nat [] [] None 0))
    as (sq & inf & lo & hi & E1 & E2 & F & _ & _ & I & _); cbn; try lra; try easy.
  { repeat constructor. }
  exists sq, inf, lo, hi. split; [exact E1|]. split; [exact E2|].
  inversion F as [|? a ? ? Ha F']; subst. inversion F'; subst. destruct I as [<-|[]].
  cbn in Ha. rewrite Ha. unfold dist, norm, vsub, sumsq, dot. simpl.
  replace ((3 - 0) * (3 - 0) + ((4 - 0) * (4 - 0) + 0)) with (5 * 5) by ring. apply sqrt_square. lra.
Qed.

(** * C150 - the legend *)

Lemma existsb_eqb k l : existsb (String.eqb k) l = true <-> In k l.
Proof.
  rewrite existsb_exists. split.
  - intros (x & Hx & E). apply String.eqb_eq in E. now subst.
  - intros H. exists k. split; [easy|apply String.eqb_refl].
Qed.

Lemma combine_map_l {A B C} (f : A -> B) l : forall k : list C,
  combine (map f l) k = map (fun p => (f (fst p), snd p)) (combine l k).
Proof. induction l as [|a l IH]; intros [|c k]; simpl; auto. now rewrite IH. Qed.

Lemma legend_fold traces : forall names out, (forall n, In n names <-> In n (map fst out)) ->
  snd (fold_left disable_legend_if_duplicate traces (names, out)) =
  out ++ map (fun p => (fst (snd p), if existsb (String.eqb (fst (snd p))) (map fst out ++ map fst (firstn (fst p) traces))
                                     then false else snd (snd p)))
             (combine (seq 0 (length traces)) traces).
Proof.
  induction traces as [|[n b] traces IH]; intros names out HI; [simpl; now rewrite app_nil_r|].
  cbn [fold_left disable_legend_if_duplicate fst].
  set (b' := if existsb (String.eqb n) (map fst out) then false else b).
  assert (E : (if existsb (String.eqb n) names then (names, out ++ [(n, false)]) else (names ++ [n], out ++ [(n, b)])) =
              (if existsb (String.eqb n) names then names else names ++ [n], out ++ [(n, b')])).
  { unfold b'. assert (existsb (String.eqb n) names = existsb (String.eqb n) (map fst out)) as <-.
    { apply eq_true_iff_eq. rewrite !existsb_eqb. apply HI. }
    now destruct (existsb (String.eqb n) names). }
  rewrite E, IH.
  - cbn [length seq combine map fst snd firstn]. rewrite app_nil_r. fold b'. rewrite <- app_assoc. f_equal.
    cbn [app]. f_equal. rewrite <- seq_shift. rewrite (map_app fst out). cbn [map fst].
    rewrite (combine_map_l S). rewrite map_map. apply map_ext. intros [k [n1 b1]]. cbn [fst snd firstn map].
    now rewrite <- app_assoc.
  - intros m. rewrite map_app, in_app_iff. cbn [map fst In].
    destruct (existsb (String.eqb n) names) eqn:EN.
    + apply existsb_eqb in EN. rewrite HI. rewrite HI in EN. intuition. now subst.
    + rewrite in_app_iff, HI. simpl. tauto.
Qed.

Lemma nth_error_combine_seq {A} (l : list A) k a : nth_error l k = Some a -> forall s,
  nth_error (combine (seq s (length l)) l) k = Some ((s + k)%nat, a).
Proof.
  revert k. induction l as [|x l IH]; intros [|k] H s; try discriminate; simpl.
  - injection H as ->. now rewrite Nat.add_0_r.
  - rewrite (IH k H). f_equal. f_equal. lia.
Qed.

Lemma map_fst_combine {A B} (l : list A) : forall k : list B, length l = length k -> map fst (combine l k) = l.
Proof. induction l as [|a l IH]; intros [|b k] H; try discriminate; simpl; auto. now rewrite IH by auto. Qed.
Lemma map_snd_combine {A B} (l : list A) : forall k : list B, length l = length k -> map snd (combine l k) = k.
Proof. induction l as [|a l IH]; intros [|b k] H; try discriminate; simpl; auto. now rewrite IH by auto. Qed.

(** Names and order of the traces are unchanged.  The first trace of each name is shown in the
    legend as before, all later ones of the same name are not. *)
Theorem C150_legend :
  forall traces, let out := clean_legend_duplicates traces in
    map fst out = map fst traces /\
    forall k n b, nth_error traces k = Some (n, b) ->
      ((forall j b', (j < k)%nat -> nth_error traces j <> Some (n, b')) -> nth_error out k = Some (n, b)) /\
      ((exists j b', (j < k)%nat /\ nth_error traces j = Some (n, b')) -> nth_error out k = Some (n, false)).
Proof.
  intros traces out. unfold out, clean_legend_duplicates. rewrite legend_fold; [|now simpl].
  cbn [app map]. split.
  { rewrite map_map. cbn [fst].
    transitivity (map fst (map snd (combine (seq 0 (length traces)) traces))); [now rewrite map_map|].
    now rewrite map_snd_combine by apply seq_length. }
  intros k n b H. rewrite (map_nth_error _ _ _ (nth_error_combine_seq traces k _ H 0)). cbn [fst snd plus].
  assert (HI : existsb (String.eqb n) (map fst (firstn k traces)) = true <->
    exists j b', (j < k)%nat /\ nth_error traces j = Some (n, b')).
  { rewrite existsb_eqb. split.
    - intros Hin. apply in_map_iff in Hin as ([m b'] & E & Hin). simpl in E. subst m.
      apply In_nth_error in Hin as [j Hj].
      assert (Hk : (j < k)%nat).
      { assert (HL : (j < length (firstn k traces))%nat) by (apply nth_error_Some; congruence).
        rewrite firstn_length in HL. lia. }
      exists j, b'. split; [easy|]. rewrite <- Hj.
      rewrite <- (firstn_skipn k traces) at 1. rewrite nth_error_app1; [easy|].
      apply nth_error_Some. congruence.
    - intros (j & b' & Hj & E). apply in_map_iff. exists (n, b'). split; [easy|].
      rewrite <- (firstn_skipn k traces) in E. rewrite nth_error_app1 in E; [eapply nth_error_In, E|].
      rewrite firstn_length. assert (k < length traces)%nat by (apply nth_error_Some; congruence). lia. }
  split.
  - intros HN. destruct (existsb (String.eqb n) (map fst (firstn k traces))); [|easy]. exfalso.
    destruct (proj1 HI eq_refl) as (j & b' & Hj & E). now apply (HN j b').
  - intros HX. now rewrite (proj2 HI HX).
Qed.

(** Hence no name is shown twice. *)
Theorem C150_shown_once :
  forall traces j k n, (j < k)%nat ->
    nth_error (clean_legend_duplicates traces) j = Some (n, true) ->
    nth_error (clean_legend_duplicates traces) k <> Some (n, true).
Proof.
  intros traces j k n Hjk Hj Hk. destruct (C150_legend traces) as [HL H].
  assert (HN : forall i m b, nth_error (clean_legend_duplicates traces) i = Some (m, b) ->
    exists b', nth_error traces i = Some (m, b')).
  { intros i m b Hi. apply (map_nth_error fst) in Hi. rewrite HL in Hi. cbn [fst] in Hi.
    rewrite nth_error_map in Hi. destruct (nth_error traces i) as [[m' b']|]; [|discriminate].
    injection Hi as <-. eauto. }
  destruct (HN _ _ _ Hj) as [bj Ej]. destruct (HN _ _ _ Hk) as [bk Ek].
  destruct (H _ _ _ Ek) as [_ B]. rewrite B in Hk by (exists j, bj; auto). discriminate.
Qed.

Example C150_instance :
  clean_legend_duplicates [("new", true); ("old", false); ("new", true); ("old", true)]%string =
    [("new", true); ("old", false); ("new", false); ("old", false)]%string.
Proof. reflexivity. Qed.

(** A name whose first trace is hidden does not appear in the legend at all. *)
Theorem C150_every_name_shown_refuted :
  exists traces n, In (n, true) traces /\ ~ In (n, true) (clean_legend_duplicates traces).
Proof. exists [("a", false); ("a", true)]%string, "a"%string. split; [simpl; auto|]. simpl. intuition discriminate. Qed.

(** * C144 - the frame of the sample points *)

Lemma set_case_ok labels c (df : frame) : (forall l, In l labels -> In l (map (fun r => fst (fst r)) df)) ->
  set_case labels c df =
  Ok (map (fun r => if existsb (Nat.eqb (fst (fst r))) labels then (fst r, Some c) else r) df).
Proof.
  intros H. unfold set_case. rewrite (proj2 (forallb_forall _ _)); [easy|]. intros l Hl.
  apply existsb_exists. specialize (H l Hl). apply in_map_iff in H as (r & E & Hr).
  exists r. split; [easy|]. now rewrite E, Nat.eqb_refl.
Qed.
Lemma set_case_labels labels c (df : frame) :
  map fst (map (fun r => if existsb (Nat.eqb (fst (fst r))) labels then (fst r, Some c) else r) df) = map fst df.
Proof.
  rewrite map_map. apply map_ext. intros [r o]. cbn [fst]. now destruct (existsb _ _).
Qed.
Lemma existsb_In i l : existsb (Nat.eqb i) l = true <-> In i l.
Proof.
  rewrite existsb_exists. split.
  - intros (x & Hx & E). apply Nat.eqb_eq in E. now subst.
  - intros H. exists i. split; [easy|apply Nat.eqb_refl].
Qed.

(** Labels that partition the points: every row of the frame is a model point or a discarded
    point, in this order, with its position in the history, and exactly one of the three cases. *)
Theorem C144_frame :
  forall s history discarded, v_discarded s = Some discarded \/ v_discarded s = None /\ discarded = [] ->
    Forall (fun i => (i < length history)%nat) (v_model_indices s ++ discarded) ->
    (forall i, In i (v_model_indices s) <-> In i (v_new_indices s) \/ In i (v_old_used s)) ->
    (forall i, ~ (In i (v_new_indices s) /\ In i (v_old_used s))) ->
    (forall i, ~ (In i (v_model_indices s) /\ In i discarded)) ->
    exists df, get_sample_points s history = Ok df /\
      map (fun r => fst (fst r)) df = v_model_indices s ++ discarded /\
      forall i p c, In (i, p, c) df ->
        nth_error history i = Some p /\
        (c = Some CNew /\ In i (v_new_indices s) \/ c = Some CExisting /\ In i (v_old_used s) \/
         c = Some CDiscarded /\ In i discarded).
Proof.
  intros s history dc HD HI HP HX HY. unfold get_sample_points.
  replace (match v_discarded s with Some l => l | None => [] end) with dc
    by (destruct HD as [->|[-> ->]]; reflexivity).
  assert (HT : forall is, Forall (fun i => (i < length history)%nat) is ->
    exists rows, take_rows history is = Ok rows /\ Forall2 (fun i row => nth_error history i = Some row) is rows).
  { intros is H. induction H as [|i is H _ (rows & IH & IH')]; [exists []; split; [easy|constructor]|].
    destruct (nth_error history i) as [row|] eqn:E; [|apply nth_error_None in E; lia].
    exists (row :: rows). split; [apply take_rows_iff|]; now constructor. }
  apply Forall_app in HI as [HI1 HI2].
  destruct (HT _ HI1) as (cur & -> & F1). destruct (HT _ HI2) as (dis & -> & F2). cbn [bind].
  pose proof (Forall2_app F1 F2) as F. clear F1 F2 HT.
  set (all := v_model_indices s ++ dc) in *. set (rows := cur ++ dis) in *.
  pose proof (F2_length _ _ _ F) as HL.
  set (df0 := combine (combine all rows) (repeat None (length all)) : frame).
  assert (L0 : map fst df0 = combine all rows).
  { unfold df0. apply map_fst_combine. rewrite combine_length, repeat_length. lia. }
  assert (LB : forall df : frame, map fst df = combine all rows -> map (fun r => fst (fst r)) df = all).
  { intros df E. transitivity (map fst (map fst df)); [now rewrite map_map|]. rewrite E. now apply map_fst_combine. }
  assert (LIn : forall df : frame, map fst df = combine all rows -> forall i, In i all ->
            In i (map (fun r => fst (fst r)) df)) by (intros df E i Hi; now rewrite (LB df E)).
  rewrite (set_case_ok (v_new_indices s)).
  2:{ intros l Hl. apply LIn; [easy|]. apply in_or_app. left. apply HP. auto. }
  cbn [bind]. rewrite (set_case_ok (v_old_used s)).
  2:{ intros l Hl. apply LIn; [now rewrite set_case_labels|]. apply in_or_app. left. apply HP. auto. }
  cbn [bind]. rewrite (set_case_ok dc).
  2:{ intros l Hl. apply LIn; [now rewrite !set_case_labels|]. apply in_or_app. auto. }
  eexists. split; [reflexivity|].
  set (df := map _ (map _ (map _ df0))).
  assert (LF : map fst df = combine all rows) by (unfold df; now rewrite !set_case_labels).
  split; [now apply LB|]. intros i p c Hin.
  assert (Hip : In (i, p) (combine all rows)).
  { rewrite <- LF. change (i, p) with (fst (i, p, c)). now apply in_map. }
  split.
  { clear - F Hip. induction F as [|a b all rows H F IH]; [easy|]. destruct Hip as [[= <- <-]|Hip]; auto. }
  assert (Hi : In i all) by (eapply in_combine_l, Hip).
  unfold df in Hin. rewrite !map_map in Hin. apply in_map_iff in Hin as ([[i0 p0] o] & E & _).
  cbn [fst] in E.
  destruct (existsb (Nat.eqb i0) (v_new_indices s)) eqn:E1; cbn [fst] in E;
  destruct (existsb (Nat.eqb i0) (v_old_used s)) eqn:E2; cbn [fst] in E;
  destruct (existsb (Nat.eqb i0) dc) eqn:E3; cbn [fst] in E; injection E as E4 E5 E6; subst i0;
  try (apply existsb_In in E1); try (apply existsb_In in E2); try (apply existsb_In in E3); auto.
  exfalso. apply in_app_or in Hi as [Hi|Hi].
  - apply HP in Hi as [Hi|Hi]; apply existsb_In in Hi; congruence.
  - apply existsb_In in Hi. congruence.
Qed.

Example C144_frame_instance :
  get_sample_points (mkVState [] 0 [] NaN [] [3; 0]%nat [3]%nat [0]%nat (Some [1]%nat) 0)
    [[Fin 5]; [Fin 6]; [Fin 7]; [Fin 8]] =
  Ok [(3%nat, [Fin 8], Some CNew); (0%nat, [Fin 5], Some CExisting); (1%nat, [Fin 6], Some CDiscarded)].
Proof. reflexivity. Qed.
