(** Properties C167-C170: the line search decider with special values; which points count as being on
    the border of the trust region. *)
From Coq Require Import Reals List Arith ZArith Bool Lia Lra.
From Verif Require Import Base XR Vec HistoryModel HistorySpec HistoryProofs WrapModel WrapProofs
  VolumeModel RegionModel AdjustModel AcceptModel LogSpec LogProofs Prop_Region Prop_Volume
  Prop_Adjust AcceptProofs Prop_Accept.
Import ListNotations.
Open Scope nat_scope.

(** The situation in which the main loop calls the decider with batches of [bs] points. *)
Record line_search_call (ft : functype) (d w : nat) (h : hist) (X : list vec) (E : list (nat * list xr))
    (crit : criterion) (sample : sampler) (sub : subsol) (st : cur) (rf : R) (bs : nat) : Prop := {
  lc_log : haslog ft d w h X E;
  lc_crit : good_criterion ft w crit;
  lc_sampler : good_sampler d sample;
  lc_evals : E <> [];
  lc_batch : 1 < bs;
  lc_sub : length (sub_x sub) = d;
  lc_x : length (c_x st) = d;
  lc_bounds : two_sided (r_bounds (c_region st)) /\ bounds_dim d (r_bounds (c_region st))
}.

Lemma run_raw ft d w h X E crit sample sub st rf bs n_cores mi :
  line_search_call ft d w h X E crit sample sub st rf bs ->
  exists h' newX vals,
    length newX = bs - 1 /\ length vals = bs /\
    haslog ft d w h' (X ++ sub_x sub :: newX) (E ++ combine (seq (length X) bs) vals) /\
    genuine crit (X ++ sub_x sub :: newX) (combine (seq (length X) bs) vals) /\
    (exists spec, newX = (if is_on_border (c_region st) (sub_x sub) (/ 10)
         then sample_on_line (c_x st) (sub_x sub) (generate_alpha_grid bs) else []) ++ spec) /\
    let value := fun j => mean_of ft (length X + j) (E ++ combine (seq (length X) bs) vals) in
    let rho := calculate_rho (xopp (xsub (value 0) (c_fval st))) (sub_ei sub) in
    (forall j, j < bs -> exists v, nth_error vals j = Some v /\ value j = spec_fval ft v /\ ~ In NaN v) /\
    (ft <> Likelihood -> forall j, j < bs -> value j <> NaN) /\
    run_decider crit n_cores (LineSearch sample rf bs) sub st mi h =
      (h', match idxmin (map (fun j => (length X + j, value j)) (seq 1 (bs - 1))) with
           | Err e => Err e
           | Ok (i, v) =>
               if xlt v (value 0)
               then Ok (finish (nth (i - length X) (sub_x sub :: newX) []) v i rho
                          (xge (xopp (xsub v (c_fval st))) (Fin mi)) st 1)
               else Ok (finish (sub_x sub) (value 0) (length X) rho
                          (xge (xopp (xsub (value 0) (c_fval st))) (Fin mi)) st 1)
           end).
Proof.
  intros [H1 H2 H3 H4 H5 H6 H7 [H8 H9]].
  destruct (accept_line_search_raw ft d w h X E crit n_cores sample sub st rf mi bs H1 H2
    (good_sampler_ready d sample sub st rf H3 H6) H4 H5 H6 H7 H8 H9)
    as (h' & newX & vals & A1 & A2 & A3 & A4 & A5 & A6 & (m & spec & A7 & _) & A8).
  exists h', newX, vals. split; [easy|]. split; [easy|]. split; [easy|]. split; [easy|].
  split; [now exists spec|]. cbv zeta in *. destruct A8 as (V1 & V2 & R).
  split; [|split; [|exact R]].
  - intros j Hj. destruct (V1 j Hj) as (v & Hv & Ev). exists v. split; [easy|]. split; [easy|].
    apply A4. now apply nth_error_In in Hv.
  - intros NL. apply V2. apply (likelihood_nan_free ft w crit H2); [apply H1|easy].
Qed.

Lemma idxmin_all_nan l : (forall i v, In (i, v) l -> v = NaN) -> idxmin l = Err ValueError.
Proof.
  intros H. unfold idxmin. assert (G : idxmin_from None l = None); [|now rewrite G].
  induction l as [|[i v] l IH]; [easy|]. cbn. rewrite (H i v) by now left. apply IH.
  intros j u Hin. apply (H j u). now right.
Qed.
Lemma idxmin_some l i v : In (i, v) l -> v <> NaN -> exists p, idxmin l = Ok p.
Proof.
  intros Hin Hv. unfold idxmin. assert (G : forall best, idxmin_from best l <> None).
  { induction l as [|[j u] l IH]; [easy|]. intros best. cbn. destruct Hin as [Eq|Hin]; [|now apply IH].
    injection Eq as -> ->. apply idxmin_from_some. destruct v; try easy; destruct best as [[k b]|]; try easy;
      now destruct (xlt _ b). }
  destruct (idxmin_from None l) as [p|] eqn:E; [now exists p|]. now elim (G None).
Qed.
Lemma idxmin_spec l i v : idxmin l = Ok (i, v) ->
  v <> NaN /\ In (i, v) l /\ forall j u, In (j, u) l -> u = NaN \/ xle v u = true.
Proof.
  unfold idxmin. destruct (idxmin_from None l) as [p|] eqn:E; [|discriminate]. intros H. injection H as ->.
  destruct (idxmin_from_spec _ _ _ _ E I) as (A & [B|B] & C & _); [|discriminate]. easy.
Qed.
Lemma in_table (X : list vec) (value : nat -> xr) bs i v :
  In (i, v) (map (fun j => (length X + j, value j)) (seq 1 (bs - 1))) <->
  exists j, 1 <= j < bs /\ i = length X + j /\ v = value j.
Proof.
  rewrite in_map_iff. split.
  - intros (j & Eq & Hin). injection Eq as <- <-. apply in_seq in Hin. exists j. split; [lia|easy].
  - intros (j & Hj & -> & ->). exists j. split; [easy|]. apply in_seq. lia.
Qed.

(** * C167 *)

(** When the decider raises: exactly if the values of all points other than the candidate are NaN. *)
Theorem C167_when_the_line_search_raises :
  forall ft d w h X E crit sample sub st rf bs n_cores mi,
    line_search_call ft d w h X E crit sample sub st rf bs ->
    exists h' newX newE res,
      haslog ft d w h' (X ++ sub_x sub :: newX) (E ++ newE) /\ length newX = bs - 1 /\
      genuine crit (X ++ sub_x sub :: newX) newE /\ map fst newE = seq (length X) bs /\
      run_decider crit n_cores (LineSearch sample rf bs) sub st mi h = (h', res) /\
      (res = Err ValueError <-> forall j, 1 <= j < bs -> mean_of ft (length X + j) (E ++ newE) = NaN) /\
      (res <> Err ValueError -> exists a, res = Ok a).
Proof.
  intros ft d w h X E crit sample sub st rf bs nc mi HC.
  destruct (run_raw _ _ _ _ _ _ _ _ _ _ _ _ nc mi HC) as (h' & newX & vals & L1 & L2 & HL & G & _ & R).
  cbv zeta in R. destruct R as (_ & _ & R). set (newE := combine (seq (length X) bs) vals) in *.
  exists h', newX, newE. eexists. split; [exact HL|]. split; [exact L1|]. split; [exact G|].
  split; [apply combine_fst; rewrite seq_length; lia|]. split; [exact R|].
  set (value := fun j => mean_of ft (length X + j) (E ++ newE)) in *.
  change (map (fun j => (length X + j, mean_of ft (length X + j) (E ++ newE))) (seq 1 (bs - 1)))
    with (map (fun j => (length X + j, value j)) (seq 1 (bs - 1))).
  set (tbl := map (fun j => (length X + j, value j)) (seq 1 (bs - 1))).
  destruct (idxmin tbl) as [[i v]|e] eqn:EI.
  - split.
    + split.
      * destruct (xlt v _); discriminate.
      * intros N. exfalso. destruct (idxmin_spec _ _ _ EI) as (Hv & Hin & _).
        apply in_table in Hin as (j & Hj & _ & Ev). apply Hv. rewrite Ev. now apply N.
    + intros _. destruct (xlt v _); eauto.
  - assert (N : forall j, 1 <= j < bs -> value j = NaN).
    { intros j Hj. destruct (value j) eqn:EV; try easy;
        destruct (idxmin_some tbl (length X + j) (value j)) as [p EP];
        try (apply in_table; now exists j); try congruence. }
    rewrite idxmin_all_nan in EI.
    + injection EI as <-. split; [easy|]. intros H. now elim H.
    + intros i v Hin. apply in_table in Hin as (j & Hj & _ & ->). now apply N.
Qed.

(** C167 - the line search returns a decision for scalar and least squares criteria, whatever they
    return. *)
Theorem C167_line_search_decides_partial :
  forall ft d w h X E crit sample sub st rf bs n_cores mi,
    line_search_call ft d w h X E crit sample sub st rf bs -> ft <> Likelihood ->
    exists h' a, run_decider crit n_cores (LineSearch sample rf bs) sub st mi h = (h', Ok a).
Proof.
  intros ft d w h X E crit sample sub st rf bs nc mi HC NL.
  destruct (run_raw _ _ _ _ _ _ _ _ _ _ _ _ nc mi HC) as (h' & newX & vals & _ & _ & _ & _ & _ & R).
  cbv zeta in R. destruct R as (_ & NN & R). exists h'. rewrite R.
  pose proof (lc_batch _ _ _ _ _ _ _ _ _ _ _ _ HC) as Hb.
  edestruct (idxmin_some (map (fun j => (length X + j, mean_of ft (length X + j) (E ++ combine (seq (length X) bs) vals)))
               (seq 1 (bs - 1))) (length X + 1)) as [[i v] EI].
  - apply (in_table X (fun j => mean_of ft (length X + j) (E ++ combine (seq (length X) bs) vals))).
    exists 1. split; [lia|]. split; reflexivity.
  - cbv beta. apply (NN NL 1). lia.
  - rewrite EI. destruct (xlt v _); eauto.
Qed.

(** * Examples: one parameter, current point 0 with value 5, candidate 1 on the border of the trust
    region, batches of two points: the line search evaluates 2. *)
Definition reg1 : region := mkRegion [0%R] 1 None Sphere [0 - 1]%R [0 + 1]%R.
Definition st1 : cur := mkCur 0 [0%R] (Fin 5) reg1.
Definition sub1 : subsol := mkSub [1%R] (Fin 1).
(** The criterion returns [u] at points below 2 and [v] above. *)
Definition two_crit (u v : val) : criterion :=
  fun _ args _ => Ok (map (fun x => Ret (if Rleb 2 (hd 0%R x) then v else u)) args).

Lemma reg1_made : make_region [0%R] 1 None = Ok reg1.
Proof. reflexivity. Qed.
Lemma reg1_border : is_on_border reg1 [1%R] (/ 10) = true.
Proof.
  unfold is_on_border, reg1, isclose. cbn [r_shape r_center r_radius].
  assert (D : dist [1%R] [0%R] = 1%R).
  { unfold dist, norm. cbn. match goal with |- sqrt ?a = _ => replace a with (1 * 1)%R by ring end.
    apply sqrt_square. lra. }
  rewrite D. apply Rleb_true. rewrite Rminus_diag_eq, Rabs_R0, Rabs_R1 by easy. lra.
Qed.
Lemma two_crit_good ft w u v : promised ft w (Ret u) -> promised ft w (Ret v) ->
  good_criterion ft w (two_crit u v).
Proof.
  intros Hu Hv h args cores _. eexists. split; [reflexivity|]. split; [apply map_length|].
  apply Forall_map, Forall_forall. intros x _. now destruct (Rleb 2 (hd 0%R x)).
Qed.
Lemma haslog_lik : exists h, haslog Likelihood 1 2 h [[0%R]] [(0, [Fin 2; Fin 3])].
Proof.
  assert (E : exists h, run (hist_init Likelihood 0%R) [OpXs (X1 [0%R]); OpEvals [0%Z] [VV [Fin 2; Fin 3]]] = Some h).
  { eexists. hcompute. reflexivity. }
  destruct E as [h E]. exists h. split; [easy|]. split; [easy|].
  exists 0%R. eexists. split; [|split; [exact E|split; reflexivity]].
  repeat constructor; try lia. discriminate.
Qed.
Lemma call1 ft w h E u v : haslog ft 1 w h [[0%R]] E -> E <> [] -> promised ft w (Ret u) -> promised ft w (Ret v) ->
  line_search_call ft 1 w h [[0%R]] E (two_crit u v) center_sampler sub1 st1 1 2.
Proof.
  intros HL HE Hu Hv. constructor; try easy; [now apply two_crit_good|apply center_sampler_good|lia].
Qed.
(** The values of the candidate and of the point of the line search. *)
Lemma values1 ft w h E u v newX vals : haslog ft 1 w h [[0%R]] E ->
  length newX = 1 -> length vals = 2 ->
  genuine (two_crit u v) ([[0%R]] ++ [1%R] :: newX) (combine (seq 1 2) vals) ->
  (exists spec, newX = (if is_on_border reg1 [1%R] (/ 10)
     then sample_on_line [0%R] [1%R] (generate_alpha_grid 2) else []) ++ spec) ->
  newX = [[2%R]] /\ vals = [recorded (Ret u); recorded (Ret v)].
Proof.
  intros HL L1 L2 (h0 & cores & outs & C & M) (spec & ->). rewrite reg1_border in *.
  destruct vals as [|a [|b [|]]]; try discriminate.
  assert (spec = []) by (destruct spec; [easy|cbn in L1; lia]). subst spec.
  cbn in C. injection C as <-. cbn [map combine seq snd] in M.
  assert (X2 : (0 + 2 * 1 * (1 - 0) = 2)%R) by ring. cbn [map2] in M. rewrite X2 in M.
  assert (R1 : Rleb 2 1 = false) by (apply Rleb_false; lra).
  assert (R2 : Rleb 2 2 = true) by (apply Rleb_true; lra). rewrite R1, R2 in M. injection M as -> ->.
  split; [|reflexivity]. cbn. now rewrite X2.
Qed.

(** C167 - false for likelihoods: a point of the line search with contributions +inf and -inf stops
    the optimization, although the candidate improves the criterion from 5 to 1. *)
Theorem C167_line_search_decides_refuted :
  exists d w h X E crit sample sub st rf bs h',
    line_search_call Likelihood d w h X E crit sample sub st rf bs /\
    make_region (c_x st) (r_radius (c_region st)) None = Ok (c_region st) /\
    run_decider crit 1 (LineSearch sample rf bs) sub st 0 h = (h', Err ValueError) /\
    c_fval st = Fin 5 /\ get_fvals_one h' 1%Z = Ok [Fin 1].
Proof.
  destruct haslog_lik as [h HL].
  assert (HC : line_search_call Likelihood 1 2 h [[0%R]] [(0, [Fin 2; Fin 3])]
     (two_crit (VV [Fin 0; Fin 1]) (VV [PInf; NInf])) center_sampler sub1 st1 1 2) by now apply call1.
  destruct (run_raw _ _ _ _ _ _ _ _ _ _ _ _ 1 0%R HC) as (h' & newX & vals & L1 & L2 & HL' & G & SP & R).
  destruct (values1 _ _ _ _ _ _ _ _ HL L1 L2 G SP) as [-> ->].
  exists 1, 2, h, [[0%R]], [(0, [Fin 2; Fin 3])]. do 6 eexists. exists h'. split; [exact HC|].
  split; [reflexivity|]. split; [|split; [reflexivity|]].
  - cbv zeta in R. destruct R as (_ & _ & ->). reflexivity.
  - change 1%Z with (Z.of_nat 1).
    destruct (haslog_rep _ _ _ _ _ _ HL') as [HR HF].
    rewrite (q_fvals_one _ _ _ _ _ HR 1 ltac:(discriminate)) by (cbn; lia). rewrite HF.
    cbn. repeat f_equal. ring.
Qed.

(** The hypotheses of C167 and C168 are met by a call with a finite criterion. *)
Example C167_instance : exists h,
  line_search_call Scalar 1 1 h [[0%R]] [(0, [Fin 5])] (two_crit (VS (Fin 6)) (VS (Fin 1))) center_sampler sub1 st1 1 2 /\
  Scalar <> Likelihood.
Proof. destruct (haslog_single 0 (Fin 5)) as [h HL]. exists h. split; [now apply call1|discriminate]. Qed.

(** * C168 *)

(** C168 - an improvement by at least min_improvement at any point of the batch leads to acceptance
    of a point that is at least as good, if there is no value -inf in the batch (never for least
    squares problems). *)
Theorem C168_improvements_are_taken_partial :
  forall ft d w h X E crit sample sub st rf bs n_cores mi,
    line_search_call ft d w h X E crit sample sub st rf bs -> ft <> Likelihood ->
    exists h' newX newE a,
      run_decider crit n_cores (LineSearch sample rf bs) sub st mi h = (h', Ok a) /\
      haslog ft d w h' (X ++ sub_x sub :: newX) (E ++ newE) /\ length newX = bs - 1 /\
      genuine crit (X ++ sub_x sub :: newX) newE /\ map fst newE = seq (length X) bs /\
      ((ft = Scalar -> forall j, j < bs -> mean_of ft (length X + j) (E ++ newE) <> NInf) ->
       forall j v f, j < bs -> mean_of ft (length X + j) (E ++ newE) = Fin v -> c_fval st = Fin f ->
         (v <= f - mi)%R ->
         a_accepted a = true /\ exists u, a_fval a = Fin u /\ (u <= v)%R).
Proof.
  intros ft d w h X E crit sample sub st rf bs nc mi HC NL.
  destruct (run_raw _ _ _ _ _ _ _ _ _ _ _ _ nc mi HC) as (h' & newX & vals & L1 & L2 & HL & G & _ & R).
  cbv zeta in R. destruct R as (VV & NN & R). specialize (NN NL).
  set (newE := combine (seq (length X) bs) vals) in *.
  set (value := fun j => mean_of ft (length X + j) (E ++ newE)) in *.
  pose proof (lc_batch _ _ _ _ _ _ _ _ _ _ _ _ HC) as Hb.
  change (map (fun j => (length X + j, mean_of ft (length X + j) (E ++ newE))) (seq 1 (bs - 1)))
    with (map (fun j => (length X + j, value j)) (seq 1 (bs - 1))) in R.
  set (tbl := map (fun j => (length X + j, value j)) (seq 1 (bs - 1))) in *.
  destruct (idxmin_some tbl (length X + 1) (value 1)) as [[i m] EI].
  { apply in_table. exists 1. split; [lia|easy]. }
  { apply NN. lia. }
  rewrite EI in R. destruct (idxmin_spec _ _ _ EI) as (Hm & Hin & Hmin).
  apply in_table in Hin as (jm & Hjm & -> & Em).
  assert (CH : exists x c k rho, (k < bs) /\ c = value k /\ (forall j, j < bs -> xle c (value j) = true) /\
     run_decider crit nc (LineSearch sample rf bs) sub st mi h =
       (h', Ok (finish x c (length X + k) rho (xge (xopp (xsub c (c_fval st))) (Fin mi)) st 1))).
  { assert (B : forall j, 1 <= j < bs -> xle m (value j) = true).
    { intros j Hj. destruct (Hmin (length X + j) (value j)) as [N|?]; [apply in_table; now exists j| |easy].
      exfalso. apply (NN j); [lia|exact N]. }
    destruct (xlt m (value 0)) eqn:LT.
    - do 4 eexists. split; [|split; [exact Em|split; [|change (mean_of ft (length X + 0) (E ++ newE)) with (value 0) in R; rewrite LT in R; exact R]]]; [lia|].
      intros j Hj. destruct j as [|j]; [now apply xlt_xle|apply B; lia].
    - exists (sub_x sub), (value 0), 0. eexists. split; [lia|]. split; [easy|]. split.
      + intros j Hj. destruct j as [|j]; [apply xle_refl; apply NN; lia|].
        eapply xle_trans; [|apply (B (S j)); lia].
        destruct (xle (value 0) m) eqn:LE; [easy|]. apply xle_false_lt in LE; [congruence| |easy].
        apply NN. lia.
      + change (mean_of ft (length X + 0) (E ++ newE)) with (value 0) in R. rewrite LT in R. rewrite Nat.add_0_r. exact R. }
  destruct CH as (x & c & k & rho & Hk & Ec & Hc & R2).
  exists h', newX, newE. eexists. split; [exact R2|]. split; [exact HL|]. split; [exact L1|]. split; [exact G|].
  split; [apply combine_fst; rewrite seq_length; lia|].
  intros NI j v f Hj Ev Ef Hv. fold (value j) in Ev.
  assert (LV : xle c (Fin v) = true) by (rewrite <- Ev; now apply Hc).
  assert (CN : c <> NInf).
  { rewrite Ec. destruct ft; [now apply NI|now elim NL|].
    destruct (VV k Hk) as (l & _ & EV & Nl). change (mean_of LeastSquares (length X + k) (E ++ newE)) with (value k) in EV.
    rewrite EV. cbn [spec_fval]. clear -Nl.
    assert (P : let s := fold_right (fun x s => xadd (xmul x x) s) (Fin 0) l in s <> NInf /\ s <> NaN); [|apply P].
    induction l as [|a l IH]; cbn [fold_right]; [easy|]. destruct IH as [I1 I2]; [intros H; apply Nl; now right|].
    assert (a <> NaN) by (intros ->; apply Nl; now left).
    destruct a, (fold_right _ _ l); cbn in *; split; try discriminate; congruence. }
  destruct c as [u| | |]; try easy.
  cbn [xle] in LV. apply Rleb_true in LV. rewrite Ef.
  assert (AC : xge (xopp (xsub (Fin u) (Fin f))) (Fin mi) = true).
  { unfold xge. cbn. apply Rleb_true. lra. }
  rewrite AC. unfold finish, get_acceptance_result. cbn. split; [easy|]. exists u. now split.
Qed.

(** C168 - false in general: a value -inf at a point of the line search makes the decider reject the
    batch, although the candidate improves the criterion from 5 to 1. *)
Theorem C168_improvements_are_taken_refuted :
  exists d w h X E crit sample sub st rf bs h' a,
    line_search_call Scalar d w h X E crit sample sub st rf bs /\
    make_region (c_x st) (r_radius (c_region st)) None = Ok (c_region st) /\
    run_decider crit 1 (LineSearch sample rf bs) sub st 0 h = (h', Ok a) /\
    c_fval st = Fin 5 /\ get_fvals_one h' 1%Z = Ok [Fin 1] /\
    a_accepted a = false /\ a_fval a = Fin 5 /\ a_rho a = NInf.
Proof.
  destruct (haslog_single 0 (Fin 5)) as [h HL].
  assert (HC : line_search_call Scalar 1 1 h [[0%R]] [(0, [Fin 5])]
     (two_crit (VS (Fin 1)) (VS NInf)) center_sampler sub1 st1 1 2) by now apply call1.
  destruct (run_raw _ _ _ _ _ _ _ _ _ _ _ _ 1 0%R HC) as (h' & newX & vals & L1 & L2 & HL' & G & SP & R).
  destruct (values1 _ _ _ _ _ _ _ _ HL L1 L2 G SP) as [-> ->].
  cbv zeta in R. destruct R as (_ & _ & R).
  assert (V0 : mean_of Scalar (length [[0%R]] + 0) ([(0, [Fin 5])] ++ combine (seq (length [[0%R]]) 2)
     [recorded (Ret (VS (Fin 1))); recorded (Ret (VS NInf))]) = Fin 1) by (apply xmean_one).
  assert (V1 : mean_of Scalar (length [[0%R]] + 1) ([(0, [Fin 5])] ++ combine (seq (length [[0%R]]) 2)
     [recorded (Ret (VS (Fin 1))); recorded (Ret (VS NInf))]) = NInf) by (apply xmean_one).
  cbn [Nat.sub seq map] in R, V0, V1. rewrite V0, V1 in R. cbn [idxmin idxmin_from xlt xle] in R.
  exists 1, 1, h, [[0%R]], [(0, [Fin 5])]. do 6 eexists. exists h'. eexists. split; [exact HC|].
  split; [reflexivity|]. split; [exact R|]. split; [easy|]. split; [|easy].
  change 1%Z with (Z.of_nat 1). destruct (haslog_rep _ _ _ _ _ _ HL') as [HR HF].
  rewrite (q_fvals_one _ _ _ _ _ HR 1 ltac:(discriminate)) by (cbn; lia). now rewrite HF.
Qed.

(** * C169 *)

(** C169 - with the other deciders an accepted step has a rho of at least min_improvement / expected
    improvement. *)
Theorem C169_rho_of_accepted_steps_partial :
  forall ft d w h X E crit n_cores D sub st mi h' a e,
    haslog ft d w h X E -> admissible ft d w crit D sub st X E ->
    (forall s rf bs, D <> LineSearch s rf bs) ->
    run_decider crit n_cores D sub st mi h = (h', Ok a) ->
    sub_ei sub = Fin e -> (0 < e)%R -> a_accepted a = true ->
    xge (a_rho a) (Fin (mi / e)) = true.
Proof.
  intros ft d w h X E crit nc D sub st mi h' a e HL AD NL R Ee He Ha.
  destruct (decider_form _ _ _ _ _ _ _ nc _ _ _ mi HL AD)
    as (h1 & newX & newE & n & k & cx & n1 & n2 & _ & _ & _ & _ & K0 & _ & _ & _ & F).
  assert (k = 0) by (destruct D; try apply K0; now elim (NL sample radius_factor batch_size)). subst k.
  cbv zeta in F. destruct F as [_ R2]. rewrite R in R2. injection R2 as _ ->.
  rewrite Nat.add_0_r in *. set (v := mean_of ft (length X) (E ++ newE)) in *.
  set (ref := reference ft D st (E ++ newE)) in *. unfold finish in *.
  destruct v as [c| | |]; cbn [isfinite] in *; try discriminate.
  cbn [get_acceptance_result a_rho a_accepted] in *. rewrite Ee. unfold calculate_rho.
  assert (Z : xeq (Fin e) (Fin 0) = false) by (cbn; apply Reqb_false; lra). rewrite Z. cbn [andb].
  destruct ref as [f| | |]; cbn in Ha |- *; try discriminate.
  - apply Rleb_true in Ha. assert (Z' : Reqb e 0 = false) by (apply Reqb_false; lra). rewrite Z'.
    unfold xge. cbn. apply Rleb_true. unfold Rdiv. apply Rmult_le_compat_r; [|lra].
    left. now apply Rinv_0_lt_compat.
  - destruct (Rleb_spec 0 e); [|lra]. destruct (Reqb_spec e 0); [lra|]. reflexivity.
Qed.
Example C169_instance : exists h,
  haslog Scalar 1 1 h [[0%R]] [(0, [Fin 5])] /\ admissible Scalar 1 1 (const_crit (Fin 1)) Classic sub1 st1 [[0%R]] [(0, [Fin 5])] /\
  exists h' a, run_decider (const_crit (Fin 1)) 1 Classic sub1 st1 1 h = (h', Ok a) /\ a_accepted a = true /\
    xge (a_rho a) (Fin (1 / 1)) = true.
Proof.
  destruct (haslog_single 0 (Fin 5)) as [h HL]. exists h. split; [exact HL|].
  assert (AD : admissible Scalar 1 1 (const_crit (Fin 1)) Classic sub1 st1 [[0%R]] [(0, [Fin 5])])
    by (split; [apply const_crit_good|now split]).
  split; [exact AD|].
  destruct (decider_form _ _ _ _ _ _ _ 1 _ _ _ 1%R HL AD)
    as (h1 & newX & newE & n & k & cx & n1 & n2 & HL1 & G & _ & _ & [-> L] & AV & MF & _ & F).
  cbv zeta in F. destruct F as [_ R2]. exists h1. eexists. split; [exact R2|].
  assert (V : mean_of Scalar (length [[0%R]] + 0) ([(0, [Fin 5])] ++ newE) = Fin 1).
  { unfold mean_of. rewrite fvals_of_app. destruct AV as [-> ->]. cbn [repeat app length Nat.add] in MF |- *.
    assert (FV := const_crit_genuine (Fin 1) _ _ ltac:(discriminate) G 1).
    destruct newE as [|[i v] [|]]; try discriminate. injection MF as ->.
    cbn in FV |- *. rewrite FV. apply xmean_one. }
  assert (AC : a_accepted (finish cx (mean_of Scalar (length [[0%R]] + 0) ([(0, [Fin 5])] ++ newE)) (length [[0%R]] + 0)
    (calculate_rho (xopp (xsub (mean_of Scalar (length [[0%R]]) ([(0, [Fin 5])] ++ newE))
       (reference Scalar Classic st1 ([(0, [Fin 5])] ++ newE)))) (sub_ei sub1))
    (xge (xopp (xsub (mean_of Scalar (length [[0%R]] + 0) ([(0, [Fin 5])] ++ newE))
       (reference Scalar Classic st1 ([(0, [Fin 5])] ++ newE)))) (Fin 1)) st1 n) = true).
  { rewrite V. unfold finish. cbn. apply Rleb_true. lra. }
  split; [exact AC|].
  eapply (C169_rho_of_accepted_steps_partial Scalar 1 1 h [[0%R]] [(0, [Fin 5])] _ 1 Classic sub1 st1 1 h1 _ 1);
    try eassumption; try reflexivity; [discriminate|lra].
Qed.

(** C169 - false for the line search: its rho is that of the candidate.  Here the candidate is worse than
    the current point, the accepted point of the line search improves the criterion from 5 to 1 with
    a step of twice the radius, and the default options halve the radius. *)
Theorem C169_rho_of_accepted_steps_refuted :
  exists d w h X E crit sample sub st rf bs h' a,
    line_search_call Scalar d w h X E crit sample sub st rf bs /\
    make_region (c_x st) (r_radius (c_region st)) None = Ok (c_region st) /\
    sub_ei sub = Fin 1 /\
    run_decider crit 1 (LineSearch sample rf bs) sub st 0 h = (h', Ok a) /\
    a_accepted a = true /\ c_fval st = Fin 5 /\ a_fval a = Fin 1 /\ a_rho a = Fin (-1) /\
    (a_step_length a = 2 * r_radius (c_region st))%R /\
    adjust_radius (r_radius (c_region st)) (a_rho a) (a_step_length a) default_radius_options false =
      (r_radius (c_region st) / 2)%R.
Proof.
  destruct (haslog_single 0 (Fin 5)) as [h HL].
  assert (HC : line_search_call Scalar 1 1 h [[0%R]] [(0, [Fin 5])]
     (two_crit (VS (Fin 6)) (VS (Fin 1))) center_sampler sub1 st1 1 2) by now apply call1.
  destruct (run_raw _ _ _ _ _ _ _ _ _ _ _ _ 1 0%R HC) as (h' & newX & vals & L1 & L2 & HL' & G & SP & R).
  destruct (values1 _ _ _ _ _ _ _ _ HL L1 L2 G SP) as [-> ->].
  cbv zeta in R. destruct R as (_ & _ & R).
  assert (V0 : mean_of Scalar (length [[0%R]] + 0) ([(0, [Fin 5])] ++ combine (seq (length [[0%R]]) 2)
     [recorded (Ret (VS (Fin 6))); recorded (Ret (VS (Fin 1)))]) = Fin 6) by (apply xmean_one).
  assert (V1 : mean_of Scalar (length [[0%R]] + 1) ([(0, [Fin 5])] ++ combine (seq (length [[0%R]]) 2)
     [recorded (Ret (VS (Fin 6))); recorded (Ret (VS (Fin 1)))]) = Fin 1) by (apply xmean_one).
  cbn [Nat.sub seq map] in R, V0, V1. rewrite V0, V1 in R. cbn [idxmin idxmin_from] in R.
  assert (LT : xlt (Fin 1) (Fin 6) = true) by (cbn; apply Rltb_true; lra). rewrite LT in R.
  cbn [c_fval st1 sub_ei sub1] in R.
  assert (RH : calculate_rho (xopp (xsub (Fin 6) (Fin 5))) (Fin 1) = Fin (-1)).
  { unfold calculate_rho. assert (Z : Reqb 1 0 = false) by (apply Reqb_false; lra). cbn. rewrite Z. cbn. f_equal. lra. }
  rewrite RH in R.
  assert (AC : xge (xopp (xsub (Fin 1) (Fin 5))) (Fin 0) = true) by (unfold xge; cbn; apply Rleb_true; lra).
  rewrite AC in R.
  exists 1, 1, h, [[0%R]], [(0, [Fin 5])]. do 6 eexists. exists h'. eexists. split; [exact HC|].
  split; [reflexivity|]. split; [reflexivity|]. split; [exact R|]. cbn [finish isfinite get_acceptance_result a_accepted a_fval a_rho a_step_length c_x st1 c_region reg1 r_radius length Nat.add Nat.sub nth sub_x sub1].
  do 4 (split; [reflexivity|]).
  assert (SL : dist [2%R] [0%R] = (2 * 1)%R).
  { unfold dist, norm. cbn. match goal with |- sqrt ?x = _ => replace x with (2 * 2)%R by ring end.
    rewrite sqrt_square; lra. }
  split; [exact SL|].
  destruct (C21_radius_direction 1 (Fin (-1)) (dist [2%R] [0%R]) default_radius_options false ltac:(lra) eq_refl)
    as (raw & -> & _ & _ & H3). cbn [max_radius min_radius shrinking_factor rho_increase rho_decrease default_radius_options] in *.
  rewrite H3.
  - rewrite Rmax_left by lra. rewrite Rmin_right by lra. lra.
  - intros [H _]. cbn in H. lra.
  - intros [H|H]; [cbn in H; lra|discriminate].
Qed.

(** * C170 *)

(** C170 - a point of a spherical region counts as being on the border if and only if its distance to
    the sphere is at most a tenth of the radius (plus 1e-8): 10 percent in both directions. *)
Theorem C170_border_partial :
  forall reg x, r_shape reg = Sphere -> (0 < r_radius reg)%R ->
    (is_on_border reg x (/ 10) = true <->
     (- (/ 100000000 + r_radius reg / 10) <= dist x (r_center reg) - r_radius reg <= / 100000000 + r_radius reg / 10)%R).
Proof.
  intros reg x S Hr. unfold is_on_border, isclose. rewrite S, Rleb_true, (Rabs_pos_eq (r_radius reg)) by lra.
  split.
  - unfold Rabs. destruct (Rcase_abs _); lra.
  - intros H. apply Rabs_le. lra.
Qed.
Example C170_instance : is_on_border reg1 [1%R] (/ 10) = true /\ is_on_border reg1 [0%R] (/ 10) = false.
Proof.
  split; [exact reg1_border|]. apply not_true_iff_false. rewrite C170_border_partial by (cbn; lra || reflexivity).
  assert (D : dist [0%R] [0%R] = 0%R).
  { unfold dist, norm. cbn. match goal with |- sqrt ?x = _ => replace x with 0%R by ring end. apply sqrt_0. }
  cbn [reg1 r_center r_radius]. rewrite D. lra.
Qed.

(** C170 - false for regions that are cubes: the tolerance is relative to the coordinates of the
    faces of the cube, not to its size.  With the bounds 99 and 200 and radius 2 the center 100 of
    the region itself counts as being on the border. *)
Theorem C170_border_refuted :
  exists b c r reg,
    two_sided b /\ bounds_dim 1 b /\ in_bounds b [c] /\ (0 < r)%R /\
    b = Some (mkBounds (Some [Some (c - r / 2)%R]) (Some [Some (c + 50 * r)%R])) /\
    make_region [c] r b = Ok reg /\ r_shape reg = Cube /\ r_center reg = [c] /\
    (forall l u, r_cube_lower reg = [l] -> r_cube_upper reg = [u] -> l < c < u)%R /\
    is_on_border reg [c] (/ 10) = true.
Proof.
  set (b := Some (mkBounds (Some [Some (100 - 2 / 2)%R]) (Some [Some (100 + 50 * 2)%R]))).
  assert (T2 : two_sided b) by easy.
  assert (BD : bounds_dim 1 b) by (split; intros l H; injection H as <-; reflexivity).
  assert (IB : in_bounds b [100%R]).
  { split; intros l i xi li Hl Hi Hli; injection Hl as <-;
      destruct i as [|[|i]]; simpl in *; try discriminate;
      injection Hi as <-; injection Hli as <-; lra. }
  destruct (C18_one_sided_bounds_partial [100%R] 2 b) as [reg MR]; auto; [easy|].
  destruct (make_region_inv _ _ _ _ MR) as (bv & BV & RC & RR & RB & RS & RL).
  assert (Sh : r_shape reg = Cube).
  { rewrite RS. destruct bv; auto. exfalso.
    assert (NB : near_bound b [100%R] 2%R).
    { left. exists [Some (100 - 2 / 2)%R], 0, 100%R, (100 - 2 / 2)%R. repeat split. lra. }
    apply binding_iff in BV. apply BV in NB. discriminate. }
  destruct (C19_cube_radius_at_most_sphere_radius 2 1 ltac:(lra) ltac:(lia)) as [P1 P2].
  exists b, 100%R, 2%R, reg. split; [easy|]. split; [easy|]. split; [easy|]. split; [lra|]. split; [easy|].
  split; [easy|]. split; [easy|]. split; [easy|].
  rewrite Sh in RL. unfold get_cube_bounds, create_cube_bounds, b in RL.
  cbn [length map map2 clip_lower clip_upper] in RL.
  set (rc := get_radius_of_cube_with_volume_of_sphere 2 1 None) in *. injection RL as RL RU.
  split.
  - intros l u. rewrite RL, RU. intros Hl Hu. injection Hl as <-. injection Hu as <-.
    unfold Rmax, Rmin. destruct (Rle_dec _ _), (Rle_dec _ _); lra.
  - unfold is_on_border. rewrite Sh, RL. apply orb_true_iff. left. cbn. rewrite orb_false_r.
    unfold isclose. apply Rleb_true. unfold Rmax. destruct (Rle_dec _ _); rewrite !Rabs_pos_eq; lra.
Qed.
