(** C214: the variance estimate depends on the noise only, not on the values of the criterion. *)
From Coq Require Import Reals List Arith ZArith Bool Lia Lra Sorted.
From Verif Require Import Base XR Vec HistoryModel HistorySpec HistoryProofs MainPhases FVec VarianceModel Prop_Variance.
Import ListNotations.
Open Scope R_scope.

Lemma sorted_same : forall l k, StronglySorted lt l -> StronglySorted lt k -> (forall i, In i l <-> In i k) -> l = k.
Proof.
  induction l as [|a l IH]; intros [|c k] Sl Sk H.
  - reflexivity.
  - exfalso. apply (proj2 (H c)). now left.
  - exfalso. apply (proj1 (H a)). now left.
  - inversion Sl as [|? ? Sl' Fl]; subst. inversion Sk as [|? ? Sk' Fk]; subst. rewrite Forall_forall in Fl, Fk.
    assert (a = c).
    { destruct (proj1 (H a) ltac:(now left)) as [E|E]; [easy|]. destruct (proj2 (H c) ltac:(now left)) as [E'|E']; [easy|].
      specialize (Fl _ E'). specialize (Fk _ E). lia. }
    subst c. f_equal. apply IH; [easy|easy|]. intros i. split; intros Hi.
    + destruct (proj1 (H i) ltac:(now right)) as [<-|E]; [|exact E]. specialize (Fl _ Hi). lia.
    + destruct (proj2 (H i) ltac:(now right)) as [<-|E]; [|exact E]. specialize (Fk _ Hi). lia.
Qed.

Lemma rsum_affine a b l : rsum (map (fun v => b + a * v) l) = INR (length l) * b + a * rsum l.
Proof.
  induction l as [|x l IH]; unfold rsum in *; [cbn; ring|]. cbn [map fold_right length]. rewrite IH, S_INR. ring.
Qed.
Lemma mean_affine a b l : l <> [] -> mean (map (fun v => b + a * v) l) = b + a * mean l.
Proof.
  intros H. unfold mean. rewrite rsum_affine, map_length.
  assert (0 < INR (length l)) by (apply lt_0_INR; destruct l; [easy|cbn; lia]). field. lra.
Qed.
Lemma rsum_scal {A} a (f : A -> R) l : rsum (map (fun x => a * f x) l) = a * rsum (map f l).
Proof. induction l as [|x l IH]; unfold rsum in *; cbn; [ring|]. rewrite IH. ring. Qed.
Lemma sample_variance_affine a b l : l <> [] ->
  sample_variance (map (fun v => b + a * v) l) = a * a * sample_variance l.
Proof.
  intros H. unfold sample_variance. rewrite mean_affine, map_map, map_length by exact H.
  rewrite (map_ext _ (fun x => (a * a) * ((x - mean l) * (x - mean l)))) by (intros; ring).
  rewrite rsum_scal. unfold Rdiv. ring.
Qed.

(** C214 - two histories with the same points.  The values of the second one are those of the first one
    times [a], with a number [b i] added at each point that may differ between the points.  The estimate
    is multiplied by [a]^2. *)
Theorem C214_level_and_scale :
  forall ft pad pad' d w ops ops' h h' center radius factor min_n_evals (vals : nat -> list R) a (b : nat -> R),
    d <> 0%nat -> w <> 0%nat ->
    Forall (good_op ft d w) ops -> run (hist_init ft pad) ops = Some h ->
    Forall (good_op ft d w) ops' -> run (hist_init ft pad') ops' = Some h' ->
    log_xs ops' = log_xs ops ->
    (exists i, near (log_xs ops) center (radius * factor) i /\ (2 <= length (evals_of i (log_evals ops)))%nat) ->
    (2 <= min_n_evals)%Z ->
    (forall i, near (log_xs ops) center (radius * factor) i ->
       map (spec_fval ft) (evals_of i (log_evals ops)) = map Fin (vals i) /\
       map (spec_fval ft) (evals_of i (log_evals ops')) = map (fun v => Fin (b i + a * v)) (vals i)) ->
    exists v, estimate_variance h center radius factor min_n_evals = Ok (Fin v) /\
              estimate_variance h' center radius factor min_n_evals = Ok (Fin (a * a * v)).
Proof.
  intros ft pad pad' d w ops ops' h h' center radius factor mn vals a b Hd Hw G Ru G' Ru' EX T Hm HV.
  set (close := near (log_xs ops) center (radius * factor)) in *.
  assert (NN : forall i, close i -> length (evals_of i (log_evals ops')) = length (evals_of i (log_evals ops)) /\
                         length (vals i) = length (evals_of i (log_evals ops))).
  { intros i C. destruct (HV i C) as [E E']. apply (f_equal (@length _)) in E, E'. rewrite !map_length in E, E'. lia. }
  destruct (C76_weighted_mean ft pad d w ops h Hd Hw G Ru center radius factor mn T Hm vals) as (is & U & _ & _ & EV).
  { intros i C. exact (proj1 (HV i C)). }
  destruct (C76_weighted_mean ft pad' d w ops' h' Hd Hw G' Ru' center radius factor mn) with
    (vals := fun i => map (fun v => b i + a * v) (vals i)) as (is' & U' & _ & _ & EV').
  { destruct T as (i & C & N). exists i. rewrite EX. split; [exact C|]. destruct (NN i C). lia. }
  { exact Hm. }
  { intros i C. rewrite EX in C. rewrite map_map. exact (proj2 (HV i C)). }
  pose proof (used_two d w ops Hd Hw center radius factor mn T Hm is U) as N2.
  assert (IC : forall i, In i is -> close i) by (intros i Hi; now apply U in Hi).
  destruct U as (NI & SS & IS), U' as (_ & SS' & IS'). rewrite EX in IS'. fold close in IS, IS'.
  assert (is' = is) as ->.
  { apply sorted_same; [easy|easy|]. intros i. rewrite IS, IS'. split; intros [C [H|H]]; (split; [exact C|]).
    - left. destruct (NN i C). lia.
    - right. intros j Cj. specialize (H j Cj). destruct (NN i C), (NN j Cj). lia.
    - left. destruct (NN i C). lia.
    - right. intros j Cj. specialize (H j Cj). destruct (NN i C), (NN j Cj). lia. }
  eexists. split; [exact EV|]. rewrite EV'. do 2 f_equal.
  assert (W : forall i, In i is -> weight ops' is i = weight ops is i).
  { intros i Hi. unfold weight. rewrite (proj1 (NN i (IC i Hi))).
    rewrite (map_ext_in (fun j => length (evals_of j (log_evals ops'))) (fun j => length (evals_of j (log_evals ops))) is); [reflexivity|].
    intros j Hj. exact (proj1 (NN j (IC j Hj))). }
  rewrite (map_ext_in _ (fun i => a * a * (weight ops is i * sample_variance (vals i)))).
  - exact (rsum_scal (a * a) (fun i => weight ops is i * sample_variance (vals i)) is).
  - intros i Hi. rewrite (W i Hi), sample_variance_affine; [ring|].
    intros E. destruct (NN i (IC i Hi)) as [_ L]. rewrite E in L. cbn in L. specialize (N2 i Hi). lia.
Qed.

Lemma sample_covariance_affine a a' b b' ps : ps <> [] ->
  sample_covariance (map (fun p => (b + a * fst p, b' + a' * snd p)) ps) = a * a' * sample_covariance ps.
Proof.
  intros H. unfold sample_covariance. rewrite !map_map, map_length. cbn [fst snd].
  rewrite <- (map_map fst (fun v => b + a * v)), <- (map_map snd (fun v => b' + a' * v)).
  rewrite !mean_affine by (destruct ps; [easy|discriminate]).
  rewrite (map_ext _ (fun p => (a * a') * ((fst p - mean (map fst ps)) * (snd p - mean (map snd ps))))) by (intros; ring).
  rewrite rsum_scal. unfold Rdiv. ring.
Qed.

(** C214 - the covariance matrix, for vector valued criteria: component p is multiplied by [a p], and
    [b i p] is added to it at point i. *)
Theorem C214_covariance :
  forall legacy ft pad pad' d w ops ops' h h' center radius factor min_n_evals (rows : nat -> list (list R)) a (b : nat -> nat -> R),
    d <> 0%nat -> w <> 0%nat ->
    Forall (good_op ft d w) ops -> run (hist_init ft pad) ops = Some h ->
    Forall (good_op ft d w) ops' -> run (hist_init ft pad') ops' = Some h' ->
    log_xs ops' = log_xs ops ->
    (exists i, near (log_xs ops) center (radius * factor) i /\ (2 <= length (evals_of i (log_evals ops)))%nat) ->
    (2 <= min_n_evals)%Z ->
    let dim := ft_w ft w in
    (forall i, near (log_xs ops) center (radius * factor) i ->
       evals_of i (log_evals ops) = map (map Fin) (rows i) /\
       evals_of i (log_evals ops') = map (fun r => map (fun p => Fin (b i p + a p * nth p r 0)) (seq 0 dim)) (rows i)) ->
    exists C : nat -> nat -> R,
      estimate_covariance legacy h center radius factor min_n_evals
        = Ok (map (fun p => map (fun q => Fin (C p q)) (seq 0 dim)) (seq 0 dim)) /\
      estimate_covariance legacy h' center radius factor min_n_evals
        = Ok (map (fun p => map (fun q => Fin (a p * a q * C p q)) (seq 0 dim)) (seq 0 dim)).
Proof.
  intros legacy ft pad pad' d w ops ops' h h' center radius factor mn rows a b Hd Hw G Ru G' Ru' EX T Hm dim HV.
  set (close := near (log_xs ops) center (radius * factor)) in *.
  assert (NN : forall i, close i -> length (evals_of i (log_evals ops')) = length (evals_of i (log_evals ops)) /\
                         length (rows i) = length (evals_of i (log_evals ops))).
  { intros i C. destruct (HV i C) as [E E']. apply (f_equal (@length _)) in E, E'. rewrite !map_length in E, E'. lia. }
  destruct (C118_covariance_partial ft pad d w ops h Hd Hw G Ru center radius factor mn T Hm legacy rows) as (is & C & U & EV & EC & _).
  { intros i Ci. exact (proj1 (HV i Ci)). }
  destruct (C118_covariance_partial ft pad' d w ops' h' Hd Hw G' Ru' center radius factor mn) with (legacy := legacy)
    (rows := fun i => map (fun r => map (fun p => b i p + a p * nth p r 0) (seq 0 dim)) (rows i)) as (is' & C' & U' & EV' & EC' & _).
  { destruct T as (i & Ci & N). exists i. rewrite EX. split; [exact Ci|]. destruct (NN i Ci). lia. }
  { exact Hm. }
  { intros i Ci. rewrite EX in Ci. rewrite map_map. etransitivity; [exact (proj2 (HV i Ci))|].
    apply map_ext. intros r. now rewrite map_map. }
  pose proof (used_two d w ops Hd Hw center radius factor mn T Hm is U) as N2.
  assert (IC : forall i, In i is -> close i) by (intros i Hi; now apply U in Hi).
  destruct U as (NI & SS & IS), U' as (_ & SS' & IS'). rewrite EX in IS'. fold close in IS, IS'.
  assert (is' = is) as ->.
  { apply sorted_same; [easy|easy|]. intros i. rewrite IS, IS'. split; intros [Ci [H|H]]; (split; [exact Ci|]).
    - left. destruct (NN i Ci). lia.
    - right. intros j Cj. specialize (H j Cj). destruct (NN i Ci), (NN j Cj). lia.
    - left. destruct (NN i Ci). lia.
    - right. intros j Cj. specialize (H j Cj). destruct (NN i Ci), (NN j Cj). lia. }
  exists C. split; [exact EV|]. rewrite EV'. f_equal. fold dim.
  assert (W : forall i, In i is -> weight ops' is i = weight ops is i).
  { intros i Hi. unfold weight. rewrite (proj1 (NN i (IC i Hi))).
    rewrite (map_ext_in (fun j => length (evals_of j (log_evals ops'))) (fun j => length (evals_of j (log_evals ops))) is); [reflexivity|].
    intros j Hj. exact (proj1 (NN j (IC j Hj))). }
  apply map_ext_in. intros p Hp. apply in_seq in Hp. apply map_ext_in. intros q Hq. apply in_seq in Hq. f_equal.
  rewrite EC, EC'.
  rewrite (map_ext_in _ (fun i => a p * a q * (weight ops is i * sample_covariance (column_pairs (rows i) p q)))).
  - exact (rsum_scal (a p * a q) (fun i => weight ops is i * sample_covariance (column_pairs (rows i) p q)) is).
  - intros i Hi. rewrite (W i Hi). rewrite <- Rmult_assoc, (Rmult_comm _ (weight ops is i)), Rmult_assoc. f_equal.
    rewrite <- (sample_covariance_affine (a p) (a q) (b i p) (b i q)).
    + f_equal. unfold column_pairs. rewrite !map_map. apply map_ext. intros r. cbn [fst snd].
      assert (X : forall j, (j < dim)%nat -> nth j (map (fun p => b i p + a p * nth p r 0) (seq 0 dim)) 0 = b i j + a j * nth j r 0).
      { intros j Hj. rewrite nth_indep with (d' := b i 0%nat + a 0%nat * nth 0 r 0) by now rewrite map_length, seq_length.
        rewrite (map_nth (fun p => b i p + a p * nth p r 0) (seq 0 dim) 0%nat j). now rewrite seq_nth. }
      now rewrite !X by lia.
    + intros E. apply (f_equal (@length _)) in E. unfold column_pairs in E. rewrite map_length in E. cbn in E.
      destruct (NN i (IC i Hi)) as [_ L]. specialize (N2 i Hi). lia.
Qed.

(** Two points, the second evaluated three times. *)
Definition shift_ops (l : list R) : list op :=
  [OpXs (X2 [[0]; [1]]); OpEvals [0; 1; 1; 1]%Z (map (fun v => VS (Fin v)) l)].
Lemma shift_ops_good l : Forall (good_op Scalar 1 1) (shift_ops l).
Proof.
  constructor; [|constructor; [|constructor]].
  - repeat constructor.
  - split; [repeat constructor; lia|]. split; [|discriminate].
    apply Forall_map, Forall_forall. intros x _. cbn. easy.
Qed.
(** The values 1 and 2, 4, 6, and the values 10 + 2 * 1 and - 3 + 2 * 2, - 3 + 2 * 4, - 3 + 2 * 6. *)
Example C214_instance : exists h h',
  run (hist_init Scalar 0) (shift_ops [1; 2; 4; 6]) = Some h /\
  run (hist_init Scalar 0) (shift_ops [10 + 2 * 1; - 3 + 2 * 2; - 3 + 2 * 4; - 3 + 2 * 6]) = Some h' /\
  exists v, estimate_variance h [0] 1 3 3 = Ok (Fin v) /\ estimate_variance h' [0] 1 3 3 = Ok (Fin (2 * 2 * v)).
Proof.
  destruct (run (hist_init Scalar 0) (shift_ops [1; 2; 4; 6])) as [h|] eqn:Hr; [|exfalso; revert Hr; hcompute; discriminate].
  destruct (run (hist_init Scalar 0) (shift_ops [10 + 2 * 1; - 3 + 2 * 2; - 3 + 2 * 4; - 3 + 2 * 6])) as [h'|] eqn:Hr';
    [|exfalso; revert Hr'; hcompute; discriminate].
  exists h, h'. split; [easy|]. split; [easy|].
  apply (C214_level_and_scale Scalar 0 0 1 1 _ _ h h' [0] 1 3 3%Z
     (fun i => match i with O => [1] | _ => [2; 4; 6] end) 2 (fun i => match i with O => 10 | _ => - 3 end)
     ltac:(easy) ltac:(easy) (shift_ops_good _) Hr (shift_ops_good _) Hr'); try reflexivity; try lia.
  - exists 1%nat. split; [now apply near_two; right|]. apply Nat.leb_le; reflexivity.
  - intros i Hi. apply near_two in Hi as [->| ->]; split; reflexivity.
Qed.

(** Two residuals; the first one is replaced by - 2 r and the second one by 5 + 3 r at the second point. *)
Definition vector_ops (l : list (list R)) : list op :=
  [OpXs (X2 [[0]; [1]]); OpEvals [0; 1; 1]%Z (map (fun v => VV (map Fin v)) l)].
Example C214_covariance_instance : exists h h' (C : nat -> nat -> R),
  run (hist_init LeastSquares 0) (vector_ops [[1; 3]; [2; 0]; [4; 6]]) = Some h /\
  run (hist_init LeastSquares 0) (vector_ops [[0 + - 2 * 1; 5 + 3 * 3]; [0 + - 2 * 2; 5 + 3 * 0]; [0 + - 2 * 4; 5 + 3 * 6]]) = Some h' /\
  estimate_covariance true h [0] 1 3 2 = Ok [[Fin (C 0 0)%nat; Fin (C 0 1)%nat]; [Fin (C 1 0)%nat; Fin (C 1 1)%nat]] /\
  estimate_covariance true h' [0] 1 3 2
    = Ok [[Fin (-2 * -2 * C 0%nat 0%nat); Fin (-2 * 3 * C 0%nat 1%nat)]; [Fin (3 * -2 * C 1%nat 0%nat); Fin (3 * 3 * C 1%nat 1%nat)]].
Proof.
  destruct (run (hist_init LeastSquares 0) (vector_ops [[1; 3]; [2; 0]; [4; 6]])) as [h|] eqn:Hr;
    [|exfalso; revert Hr; hcompute; discriminate].
  destruct (run (hist_init LeastSquares 0) (vector_ops [[0 + - 2 * 1; 5 + 3 * 3]; [0 + - 2 * 2; 5 + 3 * 0]; [0 + - 2 * 4; 5 + 3 * 6]])) as [h'|] eqn:Hr';
    [|exfalso; revert Hr'; hcompute; discriminate].
  assert (G : forall l, length l = 3%nat -> Forall (fun v => length v = 2%nat) l -> Forall (good_op LeastSquares 1 2) (vector_ops l)).
  { intros l L F. constructor; [|constructor; [|constructor]].
    - repeat constructor.
    - split; [repeat constructor; lia|]. split; [|discriminate].
      apply Forall_map, (Forall_impl _ (P := fun v => length v = 2%nat)); [|exact F]. intros v E. cbn. now rewrite map_length. }
  set (l1 := [[1; 3]; [2; 0]; [4; 6]]) in *.
  set (l2 := [[0 + - 2 * 1; 5 + 3 * 3]; [0 + - 2 * 2; 5 + 3 * 0]; [0 + - 2 * 4; 5 + 3 * 6]]) in *.
  assert (L1 : length l1 = 3%nat) by reflexivity. assert (L2 : length l2 = 3%nat) by reflexivity.
  assert (F1 : Forall (fun v => length v = 2%nat) l1) by repeat constructor.
  assert (F2 : Forall (fun v => length v = 2%nat) l2) by repeat constructor.
  destruct (C214_covariance true LeastSquares 0 0 1 2 _ _ h h' [0] 1 3 2%Z
     (fun i => match i with O => [[1; 3]] | _ => [[2; 0]; [4; 6]] end)
     (fun p => match p with O => -2 | _ => 3 end) (fun _ p => match p with O => 0 | _ => 5 end)
     ltac:(easy) ltac:(easy) (G _ L1 F1) Hr (G _ L2 F2) Hr')
    as (C & E & E'); try reflexivity; try lia.
  - exists 1%nat. split; [now apply near_two; right|]. apply Nat.leb_le; reflexivity.
  - intros i Hi. apply near_two in Hi as [->| ->]; split; reflexivity.
  - exists h, h', C. now repeat split.
Qed.
