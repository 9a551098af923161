(** Properties C76, C77 and C118: the variance estimator. *)
From Coq Require Import Reals List Arith ZArith Bool Lia Lra Psatz Sorted.
From Verif Require Import Base XR Vec HistoryModel HistorySpec HistoryProofs MainPhases FVec VarianceModel.
Import ListNotations.
Open Scope R_scope.

(** * The statistics *)

Definition rsum (l : list R) : R := fold_right Rplus 0 l.
Definition mean (l : list R) : R := rsum l / INR (length l).
(** unbiased sample variance and covariance *)
Definition sample_variance (l : list R) : R :=
  rsum (map (fun x => (x - mean l) * (x - mean l)) l) / (INR (length l) - 1).
Definition sample_covariance (ps : list (R * R)) : R :=
  rsum (map (fun p => (fst p - mean (map fst ps)) * (snd p - mean (map snd ps))) ps) / (INR (length ps) - 1).

(** The point [i] was stored within distance [rho] of the center. *)
Definition near (X : list vec) (center : vec) (rho : R) (i : nat) : Prop :=
  exists x, nth_error X i = Some x /\ dist x center <= rho.

Lemma xmean_fin l : l <> [] -> xmean (map Fin l) = Fin (mean l).
Proof.
  intros Hl. unfold xmean. rewrite xsum_fin, map_length. cbn [xdiv].
  destruct (Reqb (INR (length l)) 0) eqn:E; [|reflexivity].
  apply Reqb_true in E. assert (0 < INR (length l)) by (apply lt_0_INR; destruct l; [easy|simpl; lia]). lra.
Qed.
Lemma INR_pred n : (2 <= n)%nat -> INR (n - 1) = INR n - 1 /\ 0 < INR n - 1.
Proof.
  intros H. rewrite minus_INR by lia. change (INR 1) with 1. split; [easy|].
  assert (INR 2 <= INR n) by now apply le_INR. simpl in H0. lra.
Qed.
Lemma np_var_fin l : (2 <= length l)%nat -> np_var (map Fin l) = Fin (sample_variance l).
Proof.
  intros Hl. destruct (INR_pred _ Hl) as [E1 E2]. unfold np_var. rewrite xmean_fin by (destruct l; [simpl in Hl; lia|easy]).
  rewrite map_map, map_length, E1.
  rewrite (map_ext _ (fun x => Fin ((x - mean l) * (x - mean l)))) by (intros; reflexivity).
  rewrite <- (map_map (fun x => (x - mean l) * (x - mean l)) Fin), xsum_fin. cbn [xdiv].
  destruct (Reqb _ 0) eqn:E; [apply Reqb_true in E; lra|]. reflexivity.
Qed.
Lemma np_var_one x : np_var [Fin x] = NaN.
Proof.
  unfold np_var. change [Fin x] with (map Fin [x]). rewrite xmean_fin by easy. unfold mean. cbn.
  replace (x - (x + 0) / 1) with 0 by field. replace (0 * 0 + 0) with 0 by ring.
  assert (R0 : Reqb 0 0 = true) by now apply Reqb_true. 
  unfold Rminus. replace (x + - ((x + 0) / 1)) with 0 by field. replace (0 * 0 + 0) with 0 by ring. now rewrite R0.
Qed.
Lemma np_var_nil : np_var [] = NaN.
Proof.
  unfold np_var. cbn. assert (R0 : Reqb 0 0 = true) by now apply Reqb_true. now rewrite R0.
Qed.
Lemma sample_variance_nonneg l : (2 <= length l)%nat -> 0 <= sample_variance l.
Proof.
  intros Hl. destruct (INR_pred _ Hl) as [_ E2]. unfold sample_variance.
  apply Rmult_le_pos; [|left; now apply Rinv_0_lt_compat].
  generalize (mean l). intros m. clear. induction l as [|a l IH]; unfold rsum in *; simpl; [lra|]. pose proof (Rle_0_sqr (a - m)) as S. unfold Rsqr in S. lra.
Qed.

(** * C76 *)

Section Selection.
Variables (ft : functype) (pad : R) (d w : nat) (ops : list op) (h : hist).
Hypothesis Hd : d <> 0%nat.
Hypothesis Hw : w <> 0%nat.
Hypothesis Hg : Forall (good_op ft d w) ops.
Hypothesis Hrun : run (hist_init ft pad) ops = Some h.
Variables (center : vec) (radius factor : R) (min_n_evals : Z).

Notation X := (log_xs ops).
Notation E := (log_evals ops).
Notation n i := (length (evals_of i E)).
Notation close := (near X center (radius * factor)).

Lemma mapM_ok {A B} (f : A -> res B) (g : A -> B) l :
  (forall a, In a l -> f a = Ok (g a)) -> mapM f l = Ok (map g l).
Proof.
  induction l as [|a l IH]; intros H; [easy|]. simpl. rewrite H by now left. simpl.
  rewrite IH by (intros; apply H; now right). reflexivity.
Qed.
Lemma max_ge (l : list nat) a : In a l -> (a <= fold_right Nat.max 0 l)%nat.
Proof. induction l as [|b l IH]; simpl; [easy|]. intros [->|H]; [lia|specialize (IH H); lia]. Qed.
Lemma max_in (l : list nat) : l <> [] -> In (fold_right Nat.max 0%nat l) l.
Proof.
  induction l as [|b l IH]; [easy|]. intros _. simpl. destruct l as [|c l]; [left; simpl; lia|].
  specialize (IH ltac:(easy)). destruct (Nat.max_spec b (fold_right Nat.max 0%nat (c :: l))) as [[_ ->]|[_ ->]]; auto.
Qed.
Lemma ge_cutoff l a : In a l ->
  (Z.min (Z.of_nat (fold_right Nat.max 0%nat l)) min_n_evals <=? Z.of_nat a)%Z = true <->
  (min_n_evals <= Z.of_nat a)%Z \/ (forall b, In b l -> (b <= a)%nat).
Proof.
  intros Ha. rewrite Z.leb_le. split.
  - intros H. destruct (Z.le_gt_cases min_n_evals (Z.of_nat a)) as [L|L]; [now left|]. right.
    intros b Hb. pose proof (max_ge l b Hb). lia.
  - intros [H|H]; [lia|]. assert (l <> []) by now destruct l. specialize (H _ (max_in l H0)). lia.
Qed.

(** The selected points: those close points with at least [min_n_evals] evaluations, or with
    the most evaluations of all close points; the weights. *)
Theorem C76_selection :
  (exists i, close i /\ (1 <= n i)%nat) -> (1 <= min_n_evals)%Z ->
  exists is, select_and_weigh h center radius factor min_n_evals
      = Ok (is, map (fun i => Fin (INR (n i) / INR (fold_right Nat.add 0%nat (map (fun i => n i) is)))) is) /\
    is <> [] /\ StronglySorted lt is /\
    (forall i, In i is <-> close i /\ ((min_n_evals <= Z.of_nat (n i))%Z \/ forall j, close j -> (n j <= n i)%nat)) /\
    (forall i, In i is -> (1 <= n i)%nat) /\
    (0 < fold_right Nat.add 0%nat (map (fun i => n i) is))%nat.
Proof.
  intros (i0 & C0 & N0) Hm.
  destruct (run_rep ft pad d w ops h Hd Hw Hg Hrun) as [HR Hft].
  assert (HE : E <> []) by (intros E0; rewrite E0 in N0; simpl in N0; lia).
  destruct (q_region _ _ _ _ _ center (radius * factor) HR HE) as (all & Ea & Sa & Ia).
  assert (HX : forall i, In i all -> (i < length X)%nat).
  { intros i Hi. apply Ia in Hi as (x & Hx & _). apply nth_error_Some. congruence. }
  unfold select_and_weigh. rewrite Ea. cbn [bind].
  rewrite (mapM_ok _ (fun i => (i, n i))).
  2:{ intros i Hi. rewrite (q_fvals_one _ _ _ _ _ HR) by auto. cbn [bind]. now rewrite map_length. }
  cbn [bind]. set (P i := (Z.min (Z.of_nat (fold_right Nat.max 0%nat (map (fun i => n i) all))) min_n_evals <=? Z.of_nat (n i))%Z).
  assert (NA : all <> []) by (apply Ia in C0; now destruct all).
  destruct (map (fun i => (i, n i)) all) as [|p0 l0] eqn:Em; [destruct all; [easy|discriminate]|]. rewrite <- Em.
  assert (M1 : map snd (map (fun i => (i, n i)) all) = map (fun i => n i) all) by (rewrite map_map; apply map_ext; easy).
  rewrite M1.
  assert (FM : forall (Q : nat * nat -> bool) l, filter Q (map (fun i => (i, n i)) l)
    = map (fun i => (i, n i)) (filter (fun i => Q (i, n i)) l)).
  { intros Q. induction l as [|a l IH]; [easy|]. simpl. destruct (Q (a, n a)); simpl; now rewrite IH. }
  rewrite !FM. cbn [fst snd]. rewrite !map_map. cbn [fst snd]. rewrite map_id. fold P.
  set (is := filter P all).
  assert (F2 : filter (fun i => existsb (Nat.eqb i) is) all = is).
  { apply filter_ext_in. intros i Hi. unfold is. destruct (P i) eqn:EP.
    - apply existsb_exists. exists i. split; [now apply filter_In|apply Nat.eqb_refl].
    - destruct (existsb _ _) eqn:Ex; [|easy]. apply existsb_exists in Ex as (j & Hj & Ej).
      apply Nat.eqb_eq in Ej. subst j. apply filter_In in Hj. destruct Hj; congruence. }
  rewrite F2. exists is.
  assert (EI : forall i, In i all <-> close i) by (intros i; apply Ia).
  assert (IS : forall i, In i is <-> close i /\ ((min_n_evals <= Z.of_nat (n i))%Z \/ forall j, close j -> (n j <= n i)%nat)).
  { intros i. unfold is. rewrite filter_In, EI. split; intros [C H]; split; auto.
    - unfold P in H. apply ge_cutoff in H; [|now apply (in_map (fun i => n i)), EI]. destruct H as [H|H]; [now left|]. right.
      intros j Hj. apply H. apply (in_map (fun i => n i)). now apply EI.
    - unfold P. apply ge_cutoff; [now apply (in_map (fun i => n i)), EI|]. destruct H as [H|H]; [now left|]. right.
      intros b Hb. apply in_map_iff in Hb as (j & <- & Hj). apply H. now apply EI. }
  assert (N1 : forall i, In i is -> (1 <= n i)%nat).
  { intros i Hi. apply IS in Hi as [_ [H|H]]; [lia|]. specialize (H i0 C0). lia. }
  assert (NI : is <> []).
  { intros E0. pose proof (max_in (map (fun i => n i) all) ltac:(now destruct all)) as HM.
    apply in_map_iff in HM as (i & Hn & Hi). assert (HI : In i is).
    { apply IS. split; [now apply EI|]. right. intros j Hj. rewrite Hn. apply max_ge.
      apply (in_map (fun i => n i)). now apply EI. }
    rewrite E0 in HI. destruct HI. }
  split; [|split; [exact NI|split; [|split; [exact IS|split; [exact N1|]]]]].
  - f_equal. f_equal. apply map_ext_in. intros i Hi. cbn [xdiv].
    destruct (Reqb _ 0) eqn:E0; [|easy]. exfalso. apply Reqb_true in E0.
    destruct is as [|j is']; [easy|]. specialize (N1 j ltac:(now left)). cbn [map fold_right] in E0.
    rewrite plus_INR in E0. assert (1 <= INR (n j)) by (change 1 with (INR 1); now apply le_INR).
    pose proof (pos_INR (fold_right Nat.add 0%nat (map (fun i => n i) is'))). lra.
  - unfold is. generalize P. clear -Sa. intros Q. induction Sa as [|a l Sl IH F]; [constructor|]. simpl. destruct (Q a); [|easy].
    constructor; [easy|]. apply Forall_forall. intros b Hb. apply filter_In in Hb as [Hb _].
    rewrite Forall_forall in F. now apply F.
  - destruct is as [|j is']; [easy|]. specialize (N1 j ltac:(now left)). simpl. lia.
Qed.
End Selection.

(** Weights are non-negative and sum to one. *)
Lemma weights_sum (ns : list nat) : (0 < fold_right Nat.add 0 ns)%nat ->
  rsum (map (fun k => INR k / INR (fold_right Nat.add 0%nat ns)) ns) = 1 /\
  Forall (fun k => 0 <= INR k / INR (fold_right Nat.add 0%nat ns)) ns.
Proof.
  intros H. assert (P : 0 < INR (fold_right Nat.add 0%nat ns)) by now apply lt_0_INR. split.
  - assert (G : forall l, rsum (map (fun k => INR k / INR (fold_right Nat.add 0%nat ns)) l)
      = INR (fold_right Nat.add 0%nat l) / INR (fold_right Nat.add 0%nat ns)).
    { unfold rsum. induction l as [|a l IH]; cbn [map fold_right]; [simpl; field; lra|].
      rewrite IH, plus_INR. field. lra. }
    rewrite G. field. lra.
  - apply Forall_forall. intros k _. apply Rmult_le_pos; [apply pos_INR|left; now apply Rinv_0_lt_compat].
Qed.

Section Estimate.
Variables (ft : functype) (pad : R) (d w : nat) (ops : list op) (h : hist).
Hypothesis Hd : d <> 0%nat.
Hypothesis Hw : w <> 0%nat.
Hypothesis Hg : Forall (good_op ft d w) ops.
Hypothesis Hrun : run (hist_init ft pad) ops = Some h.
Variables (center : vec) (radius factor : R) (min_n_evals : Z).

Notation X := (log_xs ops).
Notation E := (log_evals ops).
Notation n i := (length (evals_of i E)).
Notation close := (near X center (radius * factor)).
Notation total is := (fold_right Nat.add 0%nat (map (fun i => n i) is)).

(** The general form of the estimates. *)
Lemma estimate_general :
  (exists i, close i /\ (1 <= n i)%nat) -> (1 <= min_n_evals)%Z ->
  exists is, is <> [] /\ StronglySorted lt is /\
    (forall i, In i is <-> close i /\ ((min_n_evals <= Z.of_nat (n i))%Z \/ forall j, close j -> (n j <= n i)%nat)) /\
    (forall i, In i is -> (1 <= n i)%nat) /\ (0 < total is)%nat /\
    estimate_variance h center radius factor min_n_evals
      = Ok (xsum (map (fun i => xmul (Fin (INR (n i) / INR (total is)))
                     (np_var (map (spec_fval ft) (evals_of i E)))) is)) /\
    forall legacy, estimate_covariance legacy h center radius factor min_n_evals
      = Ok (map (fun a => map (fun b => xsum (map (fun i => xmul (Fin (INR (n i) / INR (total is)))
             (cov_entry legacy (evals_of i E) a b)) is)) (seq 0 (ft_w ft w))) (seq 0 (ft_w ft w))).
Proof.
  intros H0 Hm. destruct (C76_selection ft pad d w ops h Hd Hw Hg Hrun center radius factor min_n_evals H0 Hm)
    as (is & ES & NI & SS & IS & N1 & T).
  destruct (run_rep ft pad d w ops h Hd Hw Hg Hrun) as [HR Hft].
  assert (HE : E <> []).
  { destruct H0 as (i0 & _ & N0). intros E0. rewrite E0 in N0. simpl in N0. lia. }
  assert (HX : Forall (fun i => (i < length X)%nat) is).
  { apply Forall_forall. intros i Hi. apply IS in Hi as [(x & Hx & _) _]. apply nth_error_Some. congruence. }
  assert (ND : NoDup is) by now apply StronglySorted_lt_NoDup.
  exists is. split; [exact NI|]. split; [exact SS|]. split; [exact IS|]. split; [exact N1|]. split; [exact T|].
  assert (CM : forall A B (f : nat -> A) (g : nat -> B) l, combine (map f l) (map g l) = map (fun i => (f i, g i)) l).
  { intros A B f g. induction l as [|a l IH]; [easy|]. simpl. now rewrite IH. }
  split.
  - unfold estimate_variance. rewrite ES. cbn [bind]. rewrite (q_fvals_many _ _ _ _ _ HR) by auto. cbn [bind].
    rewrite dict_of_nodup by now apply nodup_map_fst_pair. rewrite map_map. cbn [snd]. rewrite CM, map_map. cbn [fst snd].
    now rewrite Hft.
  - intros legacy. unfold estimate_covariance. rewrite ES. cbn [bind]. rewrite (q_fvecs_many _ _ _ _ _ HR) by auto. cbn [bind].
    rewrite dict_of_nodup by now apply nodup_map_fst_pair. rewrite map_map. cbn [snd].
    assert (W : fvecs_width h = ft_w ft w).
    { unfold fvecs_width. destruct (rep_fvecs _ _ _ _ _ HR) as [H1 H2].
      destruct (h_fvecs h) as [b|]; [exact H2|]. cbn in H1. destruct E; [easy|discriminate]. }
    rewrite W, CM. f_equal. apply map_ext. intros a. apply map_ext. intros b. rewrite map_map. reflexivity.
Qed.

Hypothesis two_evals : exists i, close i /\ (2 <= n i)%nat.
Hypothesis min_two : (2 <= min_n_evals)%Z.

(** The points that are used, and the weight of a point. *)
Definition used (is : list nat) : Prop :=
  is <> [] /\ StronglySorted lt is /\
  forall i, In i is <-> close i /\ ((min_n_evals <= Z.of_nat (n i))%Z \/ forall j, close j -> (n j <= n i)%nat).
Definition weight (is : list nat) (i : nat) : R := INR (n i) / INR (total is).

Lemma used_two is : used is -> forall i, In i is -> (2 <= n i)%nat.
Proof.
  intros (_ & _ & IS) i Hi. apply IS in Hi as [_ [H|H]]; [lia|]. destruct two_evals as (j & C & N).
  specialize (H j C). lia.
Qed.
Lemma used_weights is : used is -> rsum (map (weight is) is) = 1 /\ Forall (fun i => 0 <= weight is i) is.
Proof.
  intros U. assert (T : (0 < total is)%nat).
  { pose proof (used_two is U) as N. destruct U as (NI & _). destruct is as [|i is]; [easy|].
    specialize (N i ltac:(now left)). simpl. lia. }
  destruct (weights_sum (map (fun i => n i) is) T) as [A B]. rewrite map_map in A. split; [exact A|].
  rewrite Forall_map in B. exact B.
Qed.
Lemma weighted_fin is (f : nat -> xr) (g : nat -> R) : (forall i, In i is -> f i = Fin (g i)) ->
  forall c, xsum (map (fun i => xmul (Fin (c i)) (f i)) is) = Fin (rsum (map (fun i => c i * g i) is)).
Proof.
  intros H c. rewrite (map_ext_in _ (fun i => Fin (c i * g i))).
  - rewrite <- (map_map (fun i => c i * g i) Fin). apply xsum_fin.
  - intros i Hi. now rewrite (H i Hi).
Qed.
Lemma weighted_nonneg (c g : nat -> R) is : Forall (fun i => 0 <= c i) is -> (forall i, In i is -> 0 <= g i) ->
  0 <= rsum (map (fun i => c i * g i) is).
Proof.
  unfold rsum. induction 1 as [|i is Hc _ IH]; intros Hg'; simpl; [lra|].
  specialize (IH (fun j Hj => Hg' j (or_intror Hj))). specialize (Hg' i (or_introl eq_refl)). nra.
Qed.

(** The estimate is the weighted mean of the sample variances. *)
Theorem C76_weighted_mean : forall vals : nat -> list R,
  (forall i, close i -> map (spec_fval ft) (evals_of i E) = map Fin (vals i)) ->
  exists is, used is /\
    rsum (map (weight is) is) = 1 /\ Forall (fun i => 0 <= weight is i) is /\
    estimate_variance h center radius factor min_n_evals
      = Ok (Fin (rsum (map (fun i => weight is i * sample_variance (vals i)) is))).
Proof.
  intros vals HV. destruct estimate_general as (is & NI & SS & IS & N1 & T & EV & _).
  { destruct two_evals as (i & C & N). exists i. split; [easy|lia]. } { lia. }
  assert (U : used is) by (split; [easy|split; easy]). exists is. split; [exact U|].
  destruct (used_weights is U) as [W1 W2]. split; [exact W1|]. split; [exact W2|].
  rewrite EV. f_equal. apply (weighted_fin is _ (fun i => sample_variance (vals i))).
  intros i Hi. pose proof (used_two is U i Hi) as N. apply IS in Hi as [C _]. rewrite (HV i C). apply np_var_fin.
  rewrite <- (map_length Fin (vals i)), <- (HV i C), map_length. exact N.
Qed.

(** Hence it is finite and not negative. *)
Theorem C77_finite_partial : forall vals : nat -> list R,
  (forall i, close i -> map (spec_fval ft) (evals_of i E) = map Fin (vals i)) ->
  exists v, estimate_variance h center radius factor min_n_evals = Ok (Fin v) /\ 0 <= v.
Proof.
  intros vals HV. destruct (C76_weighted_mean vals HV) as (is & U & _ & W & EV). eexists. split; [exact EV|].
  apply weighted_nonneg; [exact W|]. intros i Hi. apply sample_variance_nonneg.
  pose proof (used_two is U i Hi) as N. destruct U as (_ & _ & IS). apply IS in Hi as [C _].
  rewrite <- (map_length Fin (vals i)), <- (HV i C), map_length. exact N.
Qed.

(** * C118 - the covariance matrix *)

Definition column_pairs (rows : list (list R)) (a b : nat) : list (R * R) :=
  map (fun r => (nth a r 0, nth b r 0)) rows.

Lemma col_fin rows a m : Forall (fun r => length r = m) rows -> (a < m)%nat ->
  col (map (map Fin) rows) a = map Fin (map (fun r => nth a r 0) rows).
Proof.
  intros F Ha. unfold col. rewrite !map_map. apply map_ext_in. intros r Hr. rewrite Forall_forall in F.
  rewrite (nth_indep _ _ (Fin 0)) by (rewrite map_length, (F r Hr); exact Ha). now rewrite map_nth.
Qed.
Lemma cov_entry_fin legacy rows a b m : Forall (fun r => length r = m) rows -> (a < m)%nat -> (b < m)%nat ->
  (2 <= length rows)%nat ->
  cov_entry legacy (map (map Fin) rows) a b = Fin (sample_covariance (column_pairs rows a b)).
Proof.
  intros F Ha Hb L. destruct (INR_pred _ L) as [E1 E2].
  assert (G : cov_entry legacy (map (map Fin) rows) a b =
    let l := col (map (map Fin) rows) a in let k := col (map (map Fin) rows) b in
    xmul (xsum (map (fun xy => xmul (xsub (fst xy) (xmean l)) (xsub (snd xy) (xmean k))) (combine l k)))
         (xdiv (Fin 1) (Fin (INR (length l - 1))))).
  { destruct rows as [|r1 [|r2 rows]]; [simpl in L; lia|simpl in L; lia|reflexivity]. }
  rewrite G. cbv zeta. rewrite !(col_fin rows _ m) by auto.
  set (l := map (fun r => nth a r 0) rows). set (k := map (fun r => nth b r 0) rows).
  assert (Ll : length l = length rows) by apply map_length. assert (Lk : length k = length rows) by apply map_length.
  rewrite !xmean_fin by (intros Z; rewrite Z in *; simpl in *; lia).
  assert (CM : combine (map Fin l) (map Fin k) = map (fun p => (Fin (fst p), Fin (snd p))) (column_pairs rows a b)).
  { unfold l, k, column_pairs. clear. induction rows as [|r rows IH]; [easy|]. simpl. now rewrite IH. }
  rewrite CM, map_map. cbn [fst snd].
  rewrite (map_ext _ (fun p => Fin ((fst p - mean l) * (snd p - mean k)))) by (intros; reflexivity).
  rewrite <- (map_map (fun p => (fst p - mean l) * (snd p - mean k)) Fin), xsum_fin, map_length, Ll, E1. cbn [xdiv].
  destruct (Reqb _ 0) eqn:E0; [apply Reqb_true in E0; lra|]. cbn [xmul]. f_equal. unfold sample_covariance.
  assert (P1 : map fst (column_pairs rows a b) = l) by (unfold column_pairs, l; now rewrite map_map).
  assert (P2 : map snd (column_pairs rows a b) = k) by (unfold column_pairs, k; now rewrite map_map).
  assert (P3 : length (column_pairs rows a b) = length rows) by apply map_length.
  rewrite P1, P2, P3. unfold rsum, Rdiv. now rewrite Rmult_1_l.
Qed.

Lemma covariance_sym rows a b :
  sample_covariance (column_pairs rows a b) = sample_covariance (column_pairs rows b a).
Proof.
  unfold sample_covariance, column_pairs. rewrite !map_map, !map_length. cbn [fst snd]. f_equal. f_equal.
  apply map_ext. intros r. ring.
Qed.
Lemma covariance_psd rows m (v : nat -> R) : (2 <= length rows)%nat ->
  0 <= bsum m (fun a => bsum m (fun b => v a * v b * sample_covariance (column_pairs rows a b))).
Proof.
  intros L. destruct (INR_pred _ L) as [_ E2]. set (mu a := mean (map (fun r => nth a r 0) rows)).
  assert (G : forall rs, bsum m (fun a => bsum m (fun b => v a * v b *
      (rsum (map (fun r => (nth a r 0 - mu a) * (nth b r 0 - mu b)) rs) / (INR (length rows) - 1))))
    = rsum (map (fun r => Rsqr (bsum m (fun a => v a * (nth a r 0 - mu a)))) rs) / (INR (length rows) - 1)).
  { clear - E2. induction rs as [|r rs IH]; unfold rsum in *; cbn [map fold_right].
    - rewrite (bsum_all_zero m); [field; lra|]. intros a _. apply bsum_all_zero. intros b _. field. lra.
    - rewrite Rdiv_plus_distr, <- IH. 
      rewrite (bsum_ext m _ (fun a => bsum m (fun b => v a * (nth a r 0 - mu a) * (v b * (nth b r 0 - mu b)) / (INR (length rows) - 1))
        + bsum m (fun b => v a * v b *
      (fold_right Rplus 0 (map (fun r => (nth a r 0 - mu a) * (nth b r 0 - mu b)) rs) / (INR (length rows) - 1))))).
      + rewrite bsum_plus. f_equal. unfold Rsqr.
        rewrite (bsum_ext m _ (fun a => v a * (nth a r 0 - mu a) * (bsum m (fun b => v b * (nth b r 0 - mu b)) / (INR (length rows) - 1)))).
        * rewrite bsum_scal_r. unfold Rdiv. ring.
        * intros a _. unfold Rdiv. rewrite <- Rmult_assoc. rewrite <- bsum_scal, <- bsum_scal_r. apply bsum_ext. intros b _. ring.
      + intros a _. rewrite <- bsum_plus. apply bsum_ext. intros b _. field. lra. }
  rewrite (bsum_ext m _ (fun a => bsum m (fun b => v a * v b *
      (rsum (map (fun r => (nth a r 0 - mu a) * (nth b r 0 - mu b)) rows) / (INR (length rows) - 1))))).
  - rewrite G. apply Rmult_le_pos; [|left; now apply Rinv_0_lt_compat]. generalize rows. unfold rsum.
    induction rows0 as [|r rs IH]; simpl; [lra|]. pose proof (Rle_0_sqr (bsum m (fun a => v a * (nth a r 0 - mu a)))). lra.
  - intros a _. apply bsum_ext. intros b _. f_equal. unfold sample_covariance, column_pairs.
    rewrite !map_map, !map_length. reflexivity.
Qed.

(** The estimate is the weighted mean of the sample covariance matrices; it is symmetric and
    positive semidefinite. *)
Theorem C118_covariance_partial : forall (legacy : bool) (rows : nat -> list (list R)),
  (forall i, close i -> evals_of i E = map (map Fin) (rows i)) ->
  exists is (C : nat -> nat -> R), used is /\
    estimate_covariance legacy h center radius factor min_n_evals
      = Ok (map (fun a => map (fun b => Fin (C a b)) (seq 0 (ft_w ft w))) (seq 0 (ft_w ft w))) /\
    (forall a b, C a b = rsum (map (fun i => weight is i * sample_covariance (column_pairs (rows i) a b)) is)) /\
    (forall a b, C a b = C b a) /\
    (forall m v, 0 <= bsum m (fun a => bsum m (fun b => v a * v b * C a b))).
Proof.
  intros legacy rows HV. destruct estimate_general as (is & NI & SS & IS & N1 & T & _ & EC).
  { destruct two_evals as (i & C & N). exists i. split; [easy|lia]. } { lia. }
  assert (U : used is) by (split; [easy|split; easy]).
  destruct (used_weights is U) as [W1 W2].
  assert (L2 : forall i, In i is -> (2 <= length (rows i))%nat).
  { intros i Hi. pose proof (used_two is U i Hi) as N. apply IS in Hi as [C _].
    rewrite <- (map_length (map Fin) (rows i)), <- (HV i C). exact N. }
  exists is, (fun a b => rsum (map (fun i => weight is i * sample_covariance (column_pairs (rows i) a b)) is)).
  split; [exact U|]. split; [|split; [easy|split]].
  - rewrite EC. f_equal. apply map_ext_in. intros a Ha. apply map_ext_in. intros b Hb. apply in_seq in Ha, Hb.
    apply (weighted_fin is _ (fun i => sample_covariance (column_pairs (rows i) a b))).
    intros i Hi. assert (C : close i) by now apply IS. rewrite (HV i C).
    apply cov_entry_fin with (m := ft_w ft w); [|lia|lia|now apply L2].
    destruct (run_rep ft pad d w ops h Hd Hw Hg Hrun) as [HR _]. pose proof (rep_ew _ _ _ _ _ HR) as FW.
    apply Forall_forall. intros r Hr. rewrite <- (map_length Fin r).
    assert (Hin : In (map Fin r) (evals_of i E)) by (rewrite (HV i C); now apply in_map).
    unfold evals_of in Hin. apply in_map_iff in Hin as (e & <- & He). apply filter_In in He as [He _].
    rewrite Forall_forall in FW. now apply FW.
  - intros a b. f_equal. apply map_ext. intros i. now rewrite covariance_sym.
  - intros m v.
    assert (G : forall l, (forall i, In i l -> (2 <= length (rows i))%nat) -> Forall (fun i => 0 <= weight is i) l ->
      0 <= bsum m (fun a => bsum m (fun b => v a * v b *
        rsum (map (fun i => weight is i * sample_covariance (column_pairs (rows i) a b)) l)))).
    { induction l as [|i l IH]; intros HL HW; unfold rsum in *; cbn [map fold_right].
      - right. symmetry. apply bsum_all_zero. intros a _. apply bsum_all_zero. intros b _. ring.
      - inversion HW as [|? ? Wi Wl]; subst. specialize (IH (fun j Hj => HL j (or_intror Hj)) Wl).
        pose proof (covariance_psd (rows i) m v (HL i (or_introl eq_refl))) as PS.
        rewrite (bsum_ext m _ (fun a => weight is i * bsum m (fun b => v a * v b * sample_covariance (column_pairs (rows i) a b))
          + bsum m (fun b => v a * v b *
          fold_right Rplus 0 (map (fun i => weight is i * sample_covariance (column_pairs (rows i) a b)) l)))).
        + rewrite bsum_plus, bsum_scal. nra.
        + intros a _. rewrite <- bsum_scal, <- bsum_plus. apply bsum_ext. intros b _. ring. }
    now apply G.
Qed.
End Estimate.

(** If no point of the region was evaluated more than once, the estimate is NaN, although all
    evaluations are finite. *)
Lemma xsum_nan l : In NaN l -> xsum l = NaN.
Proof.
  induction l as [|a l IH]; [easy|]. intros [->|H]; [reflexivity|]. simpl. rewrite (IH H). now destruct a.
Qed.
Theorem C77_single_evaluations :
  forall ft pad d w ops h center radius factor min_n_evals,
    d <> 0%nat -> w <> 0%nat -> Forall (good_op ft d w) ops -> run (hist_init ft pad) ops = Some h ->
    (1 <= min_n_evals)%Z ->
    (forall i, near (log_xs ops) center (radius * factor) i ->
       length (evals_of i (log_evals ops)) = 0%nat \/
       exists x, map (spec_fval ft) (evals_of i (log_evals ops)) = [Fin x]) ->
    (exists i, near (log_xs ops) center (radius * factor) i /\ (1 <= length (evals_of i (log_evals ops)))%nat) ->
    estimate_variance h center radius factor min_n_evals = Ok NaN.
Proof.
  intros ft pad d w ops h center radius factor m Hd Hw Hg Hrun Hm H1 H0.
  destruct (estimate_general ft pad d w ops h Hd Hw Hg Hrun center radius factor m H0 Hm)
    as (is & NI & _ & IS & N1 & _ & EV & _).
  rewrite EV. f_equal. apply xsum_nan. destruct is as [|i is]; [easy|]. left.
  assert (Hi : In i (i :: is)) by now left. specialize (N1 i Hi). apply IS in Hi as [C _].
  destruct (H1 i C) as [Z|[x Ex]]; [lia|]. rewrite Ex, np_var_one. reflexivity.
Qed.

(** Two points, the second evaluated three times. *)
Definition var_ops : list op :=
  [OpXs (X2 [[0]; [1]]);
   OpEvals [0; 1; 1; 1]%Z [VV [Fin 1; Fin 0]; VV [Fin 2; Fin 0]; VV [Fin 4; Fin 1]; VV [Fin 6; Fin 2]]].
Definition single_ops : list op :=
  [OpXs (X2 [[0]; [1]]); OpEvals [0; 1]%Z [VV [Fin 1; Fin 3]; VV [Fin 2; Fin 0]]].

Lemma var_good ops : In ops [var_ops; single_ops] -> Forall (good_op LeastSquares 1 2) ops.
Proof.
  intros [<-|[<-|[]]]; repeat constructor; try (intros z [<-|[]]); try lia; try discriminate.
Qed.
Lemma dist1 a b : dist [a] [b] = Rabs (a - b).
Proof.
  unfold dist, norm, sumsq. cbn. replace ((a - b) * (a - b) + 0) with (Rsqr (a - b)) by (unfold Rsqr; ring).
  apply sqrt_Rsqr_abs.
Qed.
Lemma near_two i : near [[0]; [1]] [0] (1 * 3) i <-> i = 0%nat \/ i = 1%nat.
Proof.
  unfold near. split.
  - intros (x & Hx & _). destruct i as [|[|i]]; auto. destruct i; discriminate.
  - intros [->| ->]; eexists; (split; [reflexivity|]); rewrite dist1; unfold Rabs; destruct (Rcase_abs _); lra.
Qed.

Theorem C77_nan_variance_refuted : exists h,
  run (hist_init LeastSquares 0) single_ops = Some h /\
  (exists i, near (log_xs single_ops) [0] (1 * 3) i /\ (1 <= length (evals_of i (log_evals single_ops)))%nat) /\
  Forall (fun e => Forall (fun v => isfinite v = true) (snd e)) (log_evals single_ops) /\
  estimate_variance h [0] 1 3 3 = Ok NaN.
Proof.
  destruct (run (hist_init LeastSquares 0) single_ops) as [h|] eqn:Hr; [|exfalso; revert Hr; hcompute; discriminate].
  exists h. split; [easy|].
  assert (N : exists i, near (log_xs single_ops) [0] (1 * 3) i /\ (1 <= length (evals_of i (log_evals single_ops)))%nat).
  { exists 0%nat. split; [now apply near_two; left|]. apply Nat.leb_le; reflexivity. }
  split; [exact N|]. split; [repeat constructor|].
  apply (C77_single_evaluations LeastSquares 0 1 2 single_ops h [0] 1 3 3); try easy.
  - apply var_good. right. now left.
  - intros i Hi. right. apply near_two in Hi as [->| ->]; cbn; eexists; reflexivity.
Qed.

(** Up to numpy 2.1: the covariance estimate from points evaluated once is finite, but it is
    the variance between the components of the residual vector. *)
Theorem C118_single_evaluations_refuted : exists h,
  run (hist_init LeastSquares 0) single_ops = Some h /\
  estimate_covariance true h [0] 1 3 3 = Ok [[Fin 2; Fin 2]; [Fin 2; Fin 2]].
Proof.
  destruct (run (hist_init LeastSquares 0) single_ops) as [h|] eqn:Hr; [|exfalso; revert Hr; hcompute; discriminate].
  exists h. split; [easy|].
  destruct (estimate_general LeastSquares 0 1 2 single_ops h ltac:(easy) ltac:(easy)
    ltac:(apply var_good; right; now left) Hr [0] 1 3 3%Z) as (is & NI & SS & IS & N1 & _ & _ & EC).
  { exists 0%nat. split; [now apply near_two; left|]. apply Nat.leb_le; reflexivity. } { lia. }
  assert (Eis : is = [0; 1]%nat).
  { assert (A : forall i, In i is <-> i = 0%nat \/ i = 1%nat).
    { intros i. rewrite IS. rewrite (near_two i). split; [tauto|]. intros H. split; [exact H|]. right.
      intros j Hj. apply near_two in Hj. destruct H as [->| ->], Hj as [->| ->]; apply Nat.leb_le; reflexivity. }
    destruct is as [|a is]; [easy|]. inversion SS as [|? ? S1 F1]; subst. rewrite Forall_forall in F1.
    assert (a = 0)%nat.
    { destruct (proj1 (A a) ltac:(now left)) as [|E1]; [easy|]. subst a.
      destruct (proj2 (A 0%nat) ltac:(now left)) as [E|E]; [lia|]. specialize (F1 _ E). lia. }
    subst a. f_equal. destruct is as [|b is].
    { destruct (proj2 (A 1%nat) ltac:(now right)) as [E|[]]; lia. }
    assert (b = 1)%nat.
    { specialize (F1 b ltac:(now left)). destruct (proj1 (A b) ltac:(right; now left)); lia. }
    subst b. f_equal. destruct is as [|c is]; [easy|]. exfalso. inversion S1 as [|? ? S2 F2]; subst.
    rewrite Forall_forall in F2. specialize (F2 c ltac:(now left)).
    destruct (proj1 (A c) ltac:(right; right; now left)); lia. }
  subst is. rewrite EC. clear.
  assert (E1 : forall x y a b, cov_entry true [[Fin x; Fin y]] a b = Fin ((x - y) * (x - y) / 2)).
  { intros x y a b. cbn [cov_entry]. change [Fin x; Fin y] with (map Fin [x; y]). rewrite xmean_fin by easy.
    cbn [map combine fst snd length Nat.sub INR xdiv xsub xopp xadd xmul xsum].
    destruct (Reqb 1 0) eqn:E0; [apply Reqb_true in E0; lra|]. cbn [xmul]. f_equal. unfold mean, rsum. cbn [fold_right length INR]. field. }
  assert (V0 : evals_of 0 (log_evals single_ops) = [[Fin 1; Fin 3]]) by reflexivity.
  assert (V1 : evals_of 1 (log_evals single_ops) = [[Fin 2; Fin 0]]) by reflexivity.
  cbn [ft_w seq map]. rewrite V0, V1. rewrite !E1. cbn [length fold_right Nat.add xmul xsum xadd].
  assert (W : INR 1 / INR 2 * ((1 - 3) * (1 - 3) / 2) + (INR 1 / INR 2 * ((2 - 0) * (2 - 0) / 2) + 0) = 2) by (simpl; field).
  now rewrite W.
Qed.

Example C76_instance : exists h v,
  run (hist_init LeastSquares 0) var_ops = Some h /\
  estimate_variance h [0] 1 3 3 = Ok (Fin v) /\ 0 <= v.
Proof.
  destruct (run (hist_init LeastSquares 0) var_ops) as [h|] eqn:Hr; [|exfalso; revert Hr; hcompute; discriminate].
  destruct (C77_finite_partial LeastSquares 0 1 2 var_ops h ltac:(easy) ltac:(easy)
    ltac:(apply var_good; now left) Hr [0] 1 3 3%Z) with
    (vals := fun i => match i with O => [1 * 1 + (0 * 0 + 0)] | _ => [2 * 2 + (0 * 0 + 0); 4 * 4 + (1 * 1 + 0); 6 * 6 + (2 * 2 + 0)] end)
    as (v & E & P).
  - exists 1%nat. split; [now apply near_two; right|]. apply Nat.leb_le; reflexivity.
  - lia.
  - intros i Hi. apply near_two in Hi as [->| ->]; reflexivity.
  - exists h, v. auto.
Qed.
Example C118_instance : exists h, run (hist_init LeastSquares 0) var_ops = Some h /\
  exists C : nat -> nat -> R, estimate_covariance true h [0] 1 3 3
    = Ok [[Fin (C 0%nat 0%nat); Fin (C 0%nat 1%nat)]; [Fin (C 1%nat 0%nat); Fin (C 1%nat 1%nat)]].
Proof.
  destruct (run (hist_init LeastSquares 0) var_ops) as [h|] eqn:Hr; [|exfalso; revert Hr; hcompute; discriminate].
  exists h. split; [easy|].
  destruct (C118_covariance_partial LeastSquares 0 1 2 var_ops h ltac:(easy) ltac:(easy)
    ltac:(apply var_good; now left) Hr [0] 1 3 3%Z) with (legacy := true)
    (rows := fun i => match i with O => [[1; 0]] | _ => [[2; 0]; [4; 1]; [6; 2]] end) as (is & C & _ & E & _).
  - exists 1%nat. split; [now apply near_two; right|]. apply Nat.leb_le; reflexivity.
  - lia.
  - intros i Hi. apply near_two in Hi as [->| ->]; reflexivity.
  - exists C. exact E.
Qed.
