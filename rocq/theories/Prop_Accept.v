(** Properties C24-C31: acceptance decisions. *)
From Coq Require Import Reals List Arith ZArith Bool Lia Lra.
From Verif Require Import Base XR Vec HistoryModel HistorySpec HistoryProofs WrapModel
  WrapProofs VolumeModel RegionModel AdjustModel AcceptModel LogSpec LogProofs Prop_Region
  Prop_Adjust AcceptProofs.
Import ListNotations.
Open Scope nat_scope.

(** * Specification *)

(** The candidate value [cf] is finite and improves on the current value [s] by at least
    [mi]. *)
Definition enough (s cf : xr) (mi : R) : Prop :=
  match cf, s with
  | Fin c, Fin v => (c <= v - mi)%R
  | Fin _, PInf => True
  | _, _ => False
  end.

(** rho for current value [s], candidate value [c] and expected improvement [e]. *)
Definition rho_is (s c e : R) (rho : xr) : Prop :=
  (e <> 0 -> rho = Fin ((s - c) / e))%R /\
  (e = 0 -> c < s -> rho = PInf)%R /\
  (e = 0 -> s <= c -> rho = NInf)%R.

(** What the caller of a decider has to respect. *)
Definition admissible (ft : functype) (d w : nat) (crit : criterion) (D : decider)
    (sub : subsol) (st : cur) (X : list vec) (E : list (nat * list xr)) : Prop :=
  good_criterion ft w crit /\ length (sub_x sub) = d /\
  match D with
  | Classic | NaiveNoisy => True
  | LineSearch sample rf bs =>
      1 <= bs /\ (ft = Likelihood -> nan_free ft crit) /\ sampler_ready d sample sub st rf /\ E <> [] /\
      length (c_x st) = d /\
      two_sided (r_bounds (c_region st)) /\ bounds_dim d (r_bounds (c_region st))
  | Noisy var z n_min n_max =>
      (exists s, var = Fin s /\ (0 <= s)%R) /\ sub_ei sub <> NaN /\ (1 <= n_min <= n_max)%Z /\
      c_index st < length X /\ E <> []
  end.

(** The value a candidate is compared with: the noisy decider evaluates the current point
    again and uses the mean of all its evaluations. *)
Definition reference (ft : functype) (D : decider) (st : cur) (E' : list (nat * list xr)) : xr :=
  match D with
  | Noisy _ _ _ _ => mean_of ft (c_index st) E'
  | _ => c_fval st
  end.

(** Number of new evaluations of the current point and of new points: [n1], [n2]. *)
Definition advertised (ft : functype) (D : decider) (sub : subsol) (st : cur)
    (E : list (nat * list xr)) (n1 n2 : nat) : Prop :=
  match D with
  | Classic => n1 = 0 /\ n2 = 1
  | NaiveNoisy => n1 = 0 /\ n2 = 10
  | LineSearch _ _ bs => n1 = 0 /\ n2 = bs
  | Noisy var z n_min n_max =>
      get_acceptance_sample_sizes (xsqrt var) (Z.of_nat (length (evals_of (c_index st) E)))
        (sub_ei sub) (Fin z) n_min n_max = Ok (Z.of_nat n1, Z.of_nat n2)
  end.

(** * The common form of all deciders *)

Lemma decider_form : forall ft d w h X E crit n_cores D sub st mi,
  haslog ft d w h X E -> admissible ft d w crit D sub st X E ->
  exists h' newX newE n k cx n1 n2,
    haslog ft d w h' (X ++ newX) (E ++ newE) /\ genuine crit (X ++ newX) newE /\
    nth_error newX k = Some cx /\ nth_error newX 0 = Some (sub_x sub) /\
    (match D with LineSearch _ _ _ => True | _ => k = 0 /\ length newX = 1 end) /\
    advertised ft D sub st E n1 n2 /\
    map fst newE = repeat (c_index st) n1 ++
      (match D with LineSearch _ _ _ => seq (length X) n2 | _ => repeat (length X) n2 end) /\
    (match D with LineSearch _ _ _ => length newX = n2 | _ => True end) /\
    let value := fun i => mean_of ft i (E ++ newE) in
    let ref := reference ft D st (E ++ newE) in
    (forall j, j < length newX ->
       j = k \/ xle (value (length X + k)) (value (length X + j)) = true) /\
    run_decider crit n_cores D sub st mi h =
      (h', Ok (finish cx (value (length X + k)) (length X + k)
                 (calculate_rho (xopp (xsub (value (length X)) ref)) (sub_ei sub))
                 (xge (xopp (xsub (value (length X + k)) ref)) (Fin mi)) st n)).
Proof.
  intros ft d w h X E crit n_cores D sub st mi HL (HC & Hx & HD).
  assert (BD : Forall (fun e => fst e < length X) E) by apply (haslog_dims _ _ _ _ _ _ HL).
  assert (SIMPLE : forall n, 0 < n ->
     exists h' newE, haslog ft d w h' (X ++ [sub_x sub]) (E ++ newE) /\
       genuine crit (X ++ [sub_x sub]) newE /\
       map fst newE = repeat (length X) n /\
       let value := fun i => mean_of ft i (E ++ newE) in
       accept_simple crit n_cores sub st mi n h =
       (h', Ok (finish (sub_x sub) (value (length X)) (length X)
                 (calculate_rho (xopp (xsub (value (length X)) (c_fval st))) (sub_ei sub))
                 (xge (xopp (xsub (value (length X)) (c_fval st))) (Fin mi)) st n))).
  { intros n Hn.
    destruct (accept_simple_exact _ _ _ _ _ _ crit n_cores sub st mi n HL HC Hx Hn)
      as (h' & vals & LV & _ & L' & G & R).
    exists h', (combine (repeat (length X) n) vals). split; [easy|]. split; [easy|].
    split; [apply combine_fst; rewrite repeat_length; lia|]. cbv beta zeta in *.
    assert (EV : mean_of ft (length X) (E ++ combine (repeat (length X) n) vals)
                 = xmean (map (spec_fval ft) vals)).
    { unfold mean_of. rewrite fvals_of_app. unfold fvals_of.
      rewrite (evals_of_fresh _ _ (length X)) by auto. simpl.
      rewrite <- LV. now rewrite evals_of_repeat. }
    rewrite EV. exact R. }
  destruct D as [| |sample rf bs|var z n_min n_max].
  - destruct (SIMPLE 1) as (h' & newE & L' & G & F & R); [lia|].
    exists h', [sub_x sub], newE, 1, 0, (sub_x sub), 0, 1.
    rewrite !Nat.add_0_r. cbv beta zeta in *. simpl reference. simpl advertised.
    repeat (split; [auto|]); [|exact R].
    intros j Hj. simpl in Hj. left. lia.
  - destruct (SIMPLE 10) as (h' & newE & L' & G & F & R); [lia|].
    exists h', [sub_x sub], newE, 10, 0, (sub_x sub), 0, 10.
    rewrite !Nat.add_0_r. cbv beta zeta in *. simpl reference. simpl advertised.
    repeat (split; [auto|]); [|exact R].
    intros j Hj. simpl in Hj. left. lia.
  - destruct HD as (Hbs & HN & HS & HE & Hcx & T2 & BDim).
    assert (Hw : w <> 0) by apply HL.
    apply (likelihood_nan_free ft w crit HC Hw) in HN.
    destruct (Nat.eq_dec bs 1) as [->|Hbs1].
    + destruct (SIMPLE 1) as (h' & newE & L' & G & F & R); [lia|].
      exists h', [sub_x sub], newE, 1, 0, (sub_x sub), 0, 1.
      rewrite !Nat.add_0_r. cbv beta zeta in *. simpl reference. simpl advertised.
      repeat (split; [auto|]); [|exact R].
      intros j Hj. simpl in Hj. left. lia.
    + destruct (accept_line_search_exact _ _ _ _ _ _ crit n_cores sample sub st rf mi bs
                  HL HC HN HS HE) as
        (h' & new_xs & vals & k & cx & N1 & N2 & N3 & N4 & L' & G & _ & Hk & Hcx' & Hmin & R);
        auto; [lia|].
      exists h', (sub_x sub :: new_xs), (combine (seq (length X) bs) vals), 1, k, cx, 0, bs.
      cbv beta zeta in *. simpl reference. simpl advertised. simpl length.
      repeat (split; [auto|]).
      * simpl. apply combine_fst. rewrite seq_length. lia.
      * rewrite N1. lia.
      * intros j Hj. right. apply Hmin. lia.
      * rewrite Nat.add_0_r in R. exact R.
  - destruct HD as ((s & -> & Hs) & Hei & Hn & Hc & HE).
    destruct (accept_noisy_exact _ _ _ _ _ _ crit n_cores sub st s mi z n_min n_max
                HL HC Hx Hc HE Hs Hei Hn)
      as (h' & v1 & v2 & n1 & n2 & SZ & LV1 & LV2 & _ & _ & L' & G & R).
    set (newE := combine (repeat (c_index st) (length v1)) v1
         ++ combine (repeat (length X) (length v2)) v2) in *.
    exists h', [sub_x sub], newE, (Z.to_nat n2), 0, (sub_x sub), (length v1), (length v2).
    rewrite !Nat.add_0_r. cbv beta zeta in *. simpl reference.
    assert (F1 : mean_of ft (c_index st) (E ++ newE)
                 = xmean (fvals_of ft (c_index st) E ++ map (spec_fval ft) v1)).
    { unfold mean_of, newE. rewrite !fvals_of_app. unfold fvals_of at 2 3.
      rewrite evals_of_repeat, evals_of_repeat_other by lia. simpl. now rewrite app_nil_r. }
    assert (F2 : mean_of ft (length X) (E ++ newE) = xmean (map (spec_fval ft) v2)).
    { unfold mean_of, newE. rewrite !fvals_of_app. unfold fvals_of.
      rewrite evals_of_repeat, evals_of_repeat_other by lia.
      rewrite (evals_of_fresh _ _ (length X)) by auto. reflexivity. }
    split; [easy|]. split; [easy|]. split; [easy|]. split; [easy|]. split; [auto|].
    split. { simpl. destruct (Rleb_spec 0 s); [|lra]. rewrite LV1, LV2, <- SZ.
             unfold fvals_of. now rewrite map_length. }
    split. { unfold newE. rewrite map_app. f_equal; apply combine_fst; apply repeat_length. }
    split; [easy|]. rewrite F1, F2. split; [|exact R].
    intros j Hj. simpl in Hj. left. lia.
Qed.

(** Decision logic of [finish]. *)
Lemma finish_accepted cx cf ci rho s mi st n :
  a_accepted (finish cx cf ci rho (xge (xopp (xsub cf s)) (Fin mi)) st n) = true
  <-> enough s cf mi.
Proof.
  unfold finish, enough. destruct cf as [c| | |]; simpl; try (split; [discriminate|easy]).
  unfold xge. destruct s as [v| | |]; simpl; try (split; [discriminate|easy]); try tauto.
  rewrite Rleb_true. split; intros; lra.
Qed.

Lemma finish_cases cx cf ci rho acc st n :
  let r := finish cx cf ci rho acc st n in
  (a_accepted r = true /\ acc = true /\ isfinite cf = true /\ a_x r = cx /\ a_fval r = cf /\
   a_index r = ci) \/
  (a_accepted r = false /\ a_x r = c_x st /\ a_fval r = c_fval st /\ a_index r = c_index st).
Proof.
  unfold finish. destruct (isfinite cf); [destruct acc|]; simpl; auto 8.
Qed.

(** * C24 *)

(** C24 - accepted if and only if the mean value of the candidate is finite and improves on
    the current value by at least min_improvement (all four deciders; the last one compares
    with the mean of all evaluations of the current point, see [reference]; for the line
    search see C29 as well). *)
Theorem C24_accepted_iff_improvement :
  forall ft d w h X E crit n_cores D sub st mi,
    haslog ft d w h X E -> admissible ft d w crit D sub st X E ->
    (D = Classic \/ D = NaiveNoisy) ->
    exists h' newE acc,
      run_decider crit n_cores D sub st mi h = (h', Ok acc) /\
      haslog ft d w h' (X ++ [sub_x sub]) (E ++ newE) /\
      (a_accepted acc = true <-> enough (c_fval st) (mean_of ft (length X) (E ++ newE)) mi).
Proof.
  intros ft d w h X E crit n_cores D sub st mi HL HA HD.
  destruct (decider_form _ _ _ _ _ _ crit n_cores D sub st mi HL HA)
    as (h' & newX & newE & n & k & cx & n1 & n2 & L' & G & Hk & H0 & HK & _ & _ & _ & _ & R).
  assert (newX = [sub_x sub] /\ k = 0) as [-> ->].
  { destruct HD; subst D; destruct HK as [-> HK1]; split; auto;
      destruct newX as [|a [|]]; simpl in *; try discriminate; congruence. }
  exists h', newE. eexists. split; [exact R|]. split; [easy|].
  rewrite finish_accepted, Nat.add_0_r. destruct HD; subst D; reflexivity.
Qed.

(** The same for the noisy decider and the line search, with the value used there. *)
Theorem C24_accepted_iff_improvement_all :
  forall ft d w h X E crit n_cores D sub st mi,
    haslog ft d w h X E -> admissible ft d w crit D sub st X E ->
    exists h' newX newE acc,
      run_decider crit n_cores D sub st mi h = (h', Ok acc) /\
      haslog ft d w h' (X ++ newX) (E ++ newE) /\
      (a_accepted acc = true <->
       exists i, length X <= i < length X + length newX /\
         enough (reference ft D st (E ++ newE)) (mean_of ft i (E ++ newE)) mi /\
         forall j, length X <= j < length X + length newX ->
           xle (mean_of ft i (E ++ newE)) (mean_of ft j (E ++ newE)) = true).
Proof.
  intros ft d w h X E crit n_cores D sub st mi HL HA.
  destruct (decider_form _ _ _ _ _ _ crit n_cores D sub st mi HL HA)
    as (h' & newX & newE & n & k & cx & n1 & n2 & L' & G & Hk & H0 & HK & _ & _ & _ & HM & R).
  exists h', newX, newE. eexists. split; [exact R|]. split; [easy|].
  rewrite finish_accepted.
  assert (LK : k < length newX) by (apply nth_error_Some; congruence).
  split.
  - intros HE. exists (length X + k). split; [lia|]. split; [easy|].
    intros j Hj. destruct (HM (j - length X)) as [HN|HN]; [lia| |].
    + replace j with (length X + k) by lia. apply xle_refl. intros HN'.
      rewrite HN' in HE. destruct HE.
    + now replace (length X + (j - length X)) with j in HN by lia.
  - intros (i & Hi & HE & Hmin).
    destruct (HM (i - length X)) as [HN|HN]; [lia| |].
    + now replace (length X + k) with i by lia.
    + replace (length X + (i - length X)) with i in HN by lia.
      specialize (Hmin (length X + k) ltac:(lia)).
      set (a := mean_of ft i (E ++ newE)) in *. set (b := mean_of ft (length X + k) (E ++ newE)) in *.
      clearbody a b. unfold enough in *.
      destruct a as [a| | |], b as [b| | |]; simpl in *; try easy; try contradiction.
      rewrite Rleb_true in *.
      replace b with a by lra. exact HE.
Qed.

(** * C25 *)

(** C25 - a rejection returns the old point, value and index and a step of length 0.  No
    hypothesis about history, criterion or options. *)
Theorem C25_rejection_keeps_point :
  forall crit n_cores D sub st mi h h' acc,
    run_decider crit n_cores D sub st mi h = (h', Ok acc) ->
    a_accepted acc = false ->
    a_x acc = c_x st /\ a_fval acc = c_fval st /\ a_index acc = c_index st /\
    a_step_length acc = 0%R.
Proof.
  assert (FIN : forall cx cf ci rho ac st n (h h' : hist) acc,
    (h, Ok (finish cx cf ci rho ac st n)) = (h', Ok acc) -> a_accepted acc = false ->
    a_x acc = c_x st /\ a_fval acc = c_fval st /\ a_index acc = c_index st /\
    a_step_length acc = 0%R).
  { intros cx cf ci rho ac st n h h' acc Eq. injection Eq as <- <-. unfold finish.
    destruct (isfinite cf); [destruct ac|]; simpl; try discriminate; intros _;
      rewrite dist_refl; auto. }
  assert (SI : forall crit n_cores sub st mi n h h' acc,
    accept_simple crit n_cores sub st mi n h = (h', Ok acc) -> a_accepted acc = false ->
    a_x acc = c_x st /\ a_fval acc = c_fval st /\ a_index acc = c_index st /\
    a_step_length acc = 0%R).
  { intros crit n_cores sub st mi n h h' acc H. unfold accept_simple in H.
    apply mbind_inv in H as (h1 & i & _ & H). apply mbind_inv in H as (h2 & [] & _ & H).
    apply mbind_inv in H as (h3 & fv & _ & H). eapply FIN; exact H. }
  intros crit n_cores D sub st mi h h' acc H.
  destruct D as [| |sample rf bs|var z n_min n_max]; simpl in H.
  - eapply SI; exact H.
  - eapply SI; exact H.
  - unfold accept_classic_line_search in H. destruct (bs =? 1); [eapply SI; exact H|].
    apply mbind_inv in H as (h1 & i & _ & H). apply mbind_inv in H as (h2 & s & _ & H).
    apply mbind_inv in H as (h3 & nx & _ & H). apply mbind_inv in H as (h4 & ni & _ & H).
    apply mbind_inv in H as (h5 & u & _ & H). apply mbind_inv in H as (h6 & cf & _ & H).
    apply mbind_inv in H as (h7 & nf & _ & H). apply mbind_inv in H as (h8 & [bi bf] & _ & H).
    apply mbind_inv in H as (h9 & [[cx cf'] ci] & _ & H). eapply FIN; exact H.
  - unfold accept_noisy in H.
    apply mbind_inv in H as (h1 & i & _ & H). apply mbind_inv in H as (h2 & ex & _ & H).
    apply mbind_inv in H as (h3 & sz & _ & H). apply mbind_inv in H as (h4 & u & _ & H).
    apply mbind_inv in H as (h5 & cu & _ & H). apply mbind_inv in H as (h6 & ca & _ & H).
    eapply FIN; exact H.
Qed.

(** C25 - an accepted result is a new history entry: x is the parameter vector stored
    under index, fval the mean of the evaluations recorded for it, and the step length the
    distance from the old point. *)
Theorem C25_accepted_is_history_entry :
  forall ft d w h X E crit n_cores D sub st mi,
    haslog ft d w h X E -> admissible ft d w crit D sub st X E ->
    exists h' newX newE acc,
      run_decider crit n_cores D sub st mi h = (h', Ok acc) /\
      haslog ft d w h' (X ++ newX) (E ++ newE) /\
      (a_accepted acc = true ->
         length X <= a_index acc /\
         nth_error (X ++ newX) (a_index acc) = Some (a_x acc) /\
         get_xs_one h' (Z.of_nat (a_index acc)) = Ok (a_x acc) /\
         a_fval acc = mean_of ft (a_index acc) (E ++ newE) /\
         a_step_length acc = dist (a_x acc) (c_x st)).
Proof.
  intros ft d w h X E crit n_cores D sub st mi HL HA.
  destruct (decider_form _ _ _ _ _ _ crit n_cores D sub st mi HL HA)
    as (h' & newX & newE & n & k & cx & n1 & n2 & L' & G & Hk & H0 & HK & _ & _ & _ & HM & R).
  exists h', newX, newE. eexists. split; [exact R|]. split; [easy|].
  assert (NX : nth_error (X ++ newX) (length X + k) = Some cx).
  { rewrite nth_error_app2 by lia. now replace (length X + k - length X) with k by lia. }
  unfold finish. destruct (isfinite _); [|discriminate].
  set (b := xge _ _). clearbody b. destruct b; [|discriminate].
  intros _. simpl. split; [lia|]. split; [easy|]. split; [|auto].
  now apply (xs_one_log _ _ _ _ _ _ _ _ L').
Qed.

(** * C26 *)

(** C26 - whatever the deciders accept is finite.  No hypothesis about history, criterion
    or options. *)
Theorem C26_accepted_value_is_finite :
  forall crit n_cores D sub st mi h h' acc,
    run_decider crit n_cores D sub st mi h = (h', Ok acc) ->
    a_accepted acc = true -> exists c, a_fval acc = Fin c.
Proof.
  assert (FIN : forall cx cf ci rho ac st n (h h' : hist) acc,
    (h, Ok (finish cx cf ci rho ac st n)) = (h', Ok acc) -> a_accepted acc = true ->
    exists c, a_fval acc = Fin c).
  { intros cx cf ci rho ac st n h h' acc Eq. injection Eq as <- <-. unfold finish.
    destruct cf; simpl; try discriminate. intros ->. eauto. }
  assert (SI : forall crit n_cores sub st mi n h h' acc,
    accept_simple crit n_cores sub st mi n h = (h', Ok acc) -> a_accepted acc = true ->
    exists c, a_fval acc = Fin c).
  { intros crit n_cores sub st mi n h h' acc H. unfold accept_simple in H.
    apply mbind_inv in H as (h1 & i & _ & H). apply mbind_inv in H as (h2 & [] & _ & H).
    apply mbind_inv in H as (h3 & fv & _ & H). eapply FIN; exact H. }
  intros crit n_cores D sub st mi h h' acc H.
  destruct D as [| |sample rf bs|var z n_min n_max]; simpl in H.
  - eapply SI; exact H.
  - eapply SI; exact H.
  - unfold accept_classic_line_search in H. destruct (bs =? 1); [eapply SI; exact H|].
    apply mbind_inv in H as (h1 & i & _ & H). apply mbind_inv in H as (h2 & s & _ & H).
    apply mbind_inv in H as (h3 & nx & _ & H). apply mbind_inv in H as (h4 & ni & _ & H).
    apply mbind_inv in H as (h5 & u & _ & H). apply mbind_inv in H as (h6 & cf & _ & H).
    apply mbind_inv in H as (h7 & nf & _ & H). apply mbind_inv in H as (h8 & [bi bf] & _ & H).
    apply mbind_inv in H as (h9 & [[cx cf'] ci] & _ & H). eapply FIN; exact H.
  - unfold accept_noisy in H.
    apply mbind_inv in H as (h1 & i & _ & H). apply mbind_inv in H as (h2 & ex & _ & H).
    apply mbind_inv in H as (h3 & sz & _ & H). apply mbind_inv in H as (h4 & u & _ & H).
    apply mbind_inv in H as (h5 & cu & _ & H). apply mbind_inv in H as (h6 & ca & _ & H).
    eapply FIN; exact H.
Qed.

(** C26 - if no new point has a finite value, the decision is a rejection with
    rho = -inf. *)
Theorem C26_nonfinite_candidates_rejected :
  forall ft d w h X E crit n_cores D sub st mi,
    haslog ft d w h X E -> admissible ft d w crit D sub st X E ->
    exists h' newX newE acc,
      run_decider crit n_cores D sub st mi h = (h', Ok acc) /\
      haslog ft d w h' (X ++ newX) (E ++ newE) /\ newX <> [] /\
      ((forall i, length X <= i < length X + length newX ->
          forall c, mean_of ft i (E ++ newE) <> Fin c) ->
       a_accepted acc = false /\ a_rho acc = NInf).
Proof.
  intros ft d w h X E crit n_cores D sub st mi HL HA.
  destruct (decider_form _ _ _ _ _ _ crit n_cores D sub st mi HL HA)
    as (h' & newX & newE & n & k & cx & n1 & n2 & L' & G & Hk & H0 & HK & _ & _ & _ & HM & R).
  exists h', newX, newE. eexists. split; [exact R|]. split; [easy|].
  assert (LK : k < length newX) by (apply nth_error_Some; congruence).
  split; [intros ->; simpl in LK; lia|].
  intros NF. unfold finish.
  destruct (mean_of ft (length X + k) (E ++ newE)) as [c| | |] eqn:V; simpl; auto.
  exfalso. apply (NF (length X + k) ltac:(lia) c V).
Qed.

(** * C27 *)

(** C27 - calculate_rho. *)
Theorem C27_rho_formula :
  (forall a e, (e <> 0)%R -> exists r, calculate_rho (Fin a) (Fin e) = Fin r /\ (r * e = a)%R) /\
  (forall a e r, (0 < e)%R -> calculate_rho (Fin a) (Fin e) = Fin r ->
     (0 < r <-> 0 < a)%R /\ (r < 0 <-> a < 0)%R /\ (r = 0 <-> a = 0)%R) /\
  (forall a, calculate_rho (Fin a) (Fin 0) = if Rlt_dec 0 a then PInf else NInf) /\
  (forall a e, a <> NaN -> (0 <= e)%R -> calculate_rho a (Fin e) <> NaN) /\
  (forall e, (0 <= e)%R -> calculate_rho PInf (Fin e) = PInf) /\
  (forall e, (0 <= e)%R -> calculate_rho NInf (Fin e) = NInf).
Proof.
  assert (A : forall a e, (e <> 0)%R -> calculate_rho (Fin a) (Fin e) = Fin (a / e)).
  { intros a e He. unfold calculate_rho. simpl. destruct (Reqb_spec e 0); [easy|]. simpl.
    now destruct (Reqb_spec e 0). }
  assert (Z : forall a, calculate_rho (Fin a) (Fin 0) = if Rlt_dec 0 a then PInf else NInf).
  { intros a. unfold calculate_rho, xgt. simpl. destruct (Reqb_spec 0 0); [|easy]. simpl.
    unfold Rltb. now destruct (Rlt_dec 0 a). }
  assert (P : forall e, (0 <= e)%R -> calculate_rho PInf (Fin e) = PInf).
  { intros e He. unfold calculate_rho, xgt. simpl. destruct (Reqb_spec e 0); simpl; auto.
    destruct (Rleb_spec 0 e); easy. }
  assert (N : forall e, (0 <= e)%R -> calculate_rho NInf (Fin e) = NInf).
  { intros e He. unfold calculate_rho, xgt. simpl. destruct (Reqb_spec e 0); simpl; auto.
    destruct (Rltb_spec e 0); [lra|easy]. }
  split; [|split; [|split; [|split; [|split]]]]; auto.
  - intros a e He. exists (a / e)%R. split; auto. field. exact He.
  - intros a e r He H. rewrite A in H by lra. injection H as <-.
    assert (I : (0 < / e)%R) by now apply Rinv_0_lt_compat.
    unfold Rdiv. split; [|split]; split; intros H; try nra.
  - intros a e Ha He. destruct a as [a| | |]; [|rewrite P by easy; discriminate|
      rewrite N by easy; discriminate|easy].
    destruct (Req_dec e 0) as [->|Hne]; [rewrite Z; destruct (Rlt_dec 0 a); discriminate|].
    rewrite A by easy. discriminate.
Qed.

(** C27 - the rho that the deciders report for finite values: actual over expected
    improvement of the subproblem's candidate (index [length X]). *)
Theorem C27_deciders_report_rho :
  forall ft d w h X E crit n_cores D sub st mi,
    haslog ft d w h X E -> admissible ft d w crit D sub st X E ->
    exists h' newX newE acc,
      run_decider crit n_cores D sub st mi h = (h', Ok acc) /\
      haslog ft d w h' (X ++ newX) (E ++ newE) /\ nth_error newX 0 = Some (sub_x sub) /\
      forall s c e,
        reference ft D st (E ++ newE) = Fin s -> mean_of ft (length X) (E ++ newE) = Fin c ->
        sub_ei sub = Fin e ->
        (forall i, mean_of ft i (E ++ newE) <> NInf) ->
        rho_is s c e (a_rho acc).
Proof.
  intros ft d w h X E crit n_cores D sub st mi HL HA.
  destruct (decider_form _ _ _ _ _ _ crit n_cores D sub st mi HL HA)
    as (h' & newX & newE & n & k & cx & n1 & n2 & L' & G & Hk & H0 & HK & _ & _ & _ & HM & R).
  exists h', newX, newE. eexists. split; [exact R|]. split; [easy|]. split; [easy|].
  intros s c e Hs Hc He HI. rewrite Hs, Hc, He.
  assert (FK : exists v, mean_of ft (length X + k) (E ++ newE) = Fin v).
  { assert (0 < length newX) by (apply nth_error_Some; congruence).
    destruct (HM 0) as [<-|HN]; [lia| |].
    - rewrite Nat.add_0_r. eauto.
    - rewrite Nat.add_0_r, Hc in HN.
      specialize (HI (length X + k)).
      destruct (mean_of ft (length X + k) (E ++ newE)) as [v| | |]; simpl in *; try discriminate;
        [eauto|congruence]. }
  destruct FK as [v ->]. unfold finish. cbn [isfinite get_acceptance_result a_rho].
  unfold xsub. cbn [xadd xopp].
  destruct C27_rho_formula as (F1 & _ & F2 & _). unfold rho_is.
  split; [|split].
  - intros Hne. destruct (F1 (- (c + - s))%R e Hne) as (r & -> & Hr). f_equal.
    apply Rmult_eq_reg_r with e; auto. rewrite Hr. field. exact Hne.
  - intros -> Hlt. rewrite F2. destruct (Rlt_dec 0 _); [easy|lra].
  - intros -> Hle. rewrite F2. destruct (Rlt_dec 0 _); [lra|easy].
Qed.

(** * C28 *)

(** C28 - the evaluations spent: [n2] of new points (one candidate; for the line search one
    evaluation of each of [n2] new points) and, for the noisy decider only, [n1] of the
    current point, with [n1], [n2] as advertised. *)
Theorem C28_exact_number_of_evaluations :
  forall ft d w h X E crit n_cores D sub st mi,
    haslog ft d w h X E -> admissible ft d w crit D sub st X E ->
    exists h' newX newE acc n1 n2,
      run_decider crit n_cores D sub st mi h = (h', Ok acc) /\
      haslog ft d w h' (X ++ newX) (E ++ newE) /\
      advertised ft D sub st E n1 n2 /\
      length newE = n1 + n2 /\ h_nfun h' = h_nfun h + (n1 + n2) /\
      nth_error newX 0 = Some (sub_x sub) /\
      genuine crit (X ++ newX) newE /\
      match D with
      | LineSearch _ _ _ => length newX = n2 /\ map fst newE = seq (length X) n2
      | _ => length newX = 1 /\
             map fst newE = repeat (c_index st) n1 ++ repeat (length X) n2
      end.
Proof.
  intros ft d w h X E crit n_cores D sub st mi HL HA.
  destruct (decider_form _ _ _ _ _ _ crit n_cores D sub st mi HL HA)
    as (h' & newX & newE & n & k & cx & n1 & n2 & L' & G & Hk & H0 & HK & AD & MF & LN & HM & R).
  exists h', newX, newE. eexists. exists n1, n2. split; [exact R|]. split; [easy|].
  split; [easy|].
  assert (LE : length newE = n1 + n2).
  { rewrite <- (map_length fst newE), MF, app_length, repeat_length.
    destruct D; rewrite ?repeat_length, ?seq_length; reflexivity. }
  split; [easy|].
  split. { destruct (haslog_dims _ _ _ _ _ _ HL) as (_ & _ & _ & -> & _).
           destruct (haslog_dims _ _ _ _ _ _ L') as (_ & _ & _ & -> & _).
           rewrite app_length. lia. }
  split; [easy|]. split; [easy|].
  destruct D; try (split; [apply HK|easy]).
  split; [easy|]. destruct AD as [-> ->]. exact MF.
Qed.

(** * C29 *)

(** C29 - the line search: the accepted value is minimal among all values of the batch and
    improves on the current value by at least min_improvement; rho is that of the
    subproblem's own candidate, the first point of the batch. *)
Theorem C29_line_search_accepts_best_of_batch :
  forall ft d w h X E crit n_cores sample rf bs sub st mi,
    haslog ft d w h X E ->
    admissible ft d w crit (LineSearch sample rf bs) sub st X E ->
    exists h' newX newE acc,
      run_decider crit n_cores (LineSearch sample rf bs) sub st mi h = (h', Ok acc) /\
      haslog ft d w h' (X ++ newX) (E ++ newE) /\ length newX = bs /\
      nth_error newX 0 = Some (sub_x sub) /\
      (a_accepted acc = true ->
         enough (c_fval st) (a_fval acc) mi /\
         length X <= a_index acc < length X + bs /\
         a_fval acc = mean_of ft (a_index acc) (E ++ newE) /\
         (forall j, length X <= j < length X + bs ->
            xle (a_fval acc) (mean_of ft j (E ++ newE)) = true) /\
         (forall s c e, c_fval st = Fin s -> mean_of ft (length X) (E ++ newE) = Fin c ->
            sub_ei sub = Fin e -> rho_is s c e (a_rho acc))).
Proof.
  intros ft d w h X E crit n_cores sample rf bs sub st mi HL HA.
  destruct (decider_form _ _ _ _ _ _ crit n_cores _ sub st mi HL HA)
    as (h' & newX & newE & n & k & cx & n1 & n2 & L' & G & Hk & H0 & _ & AD & MF & LN & HM & R).
  destruct AD as [-> ->].
  exists h', newX, newE. eexists. split; [exact R|]. split; [easy|]. split; [easy|].
  split; [easy|]. intros HAcc. pose proof HAcc as HE. apply finish_accepted in HE.
  assert (LK : k < length newX) by (apply nth_error_Some; congruence).
  simpl reference in *.
  destruct (finish_cases cx (mean_of ft (length X + k) (E ++ newE)) (length X + k)
      (calculate_rho (xopp (xsub (mean_of ft (length X) (E ++ newE)) (c_fval st))) (sub_ei sub))
      (xge (xopp (xsub (mean_of ft (length X + k) (E ++ newE)) (c_fval st))) (Fin mi)) st n)
    as [(_ & _ & FI & _ & FV & FX)|(Hr & _)]; [|congruence].
  rewrite FV, FX. split; [easy|]. split; [lia|]. split; [easy|]. split.
  - intros j Hj. destruct (HM (j - length X)) as [HN|HN]; [lia| |].
    + replace j with (length X + k) by lia. apply xle_refl. intros HN'.
      rewrite HN' in HE. destruct HE.
    + now replace (length X + (j - length X)) with j in HN by lia.
  - intros s c e Hs Hc He. unfold finish. rewrite FI. cbn [get_acceptance_result a_rho].
    rewrite Hs, Hc, He. unfold xsub. cbn [xadd xopp].
    destruct C27_rho_formula as (F1 & _ & F2 & _). unfold rho_is.
    split; [|split].
    + intros Hne. destruct (F1 (- (c + - s))%R e Hne) as (r & -> & Hr). f_equal.
      apply Rmult_eq_reg_r with e; auto. rewrite Hr. field. exact Hne.
    + intros -> Hlt. rewrite F2. destruct (Rlt_dec 0 _); [easy|lra].
    + intros -> Hle. rewrite F2. destruct (Rlt_dec 0 _); [lra|easy].
Qed.

(** * C30 *)

(** C30 - full statement: every point evaluated by the line-search decider satisfies the
    bounds.  True if the candidate and the sampler's points do and the longest extrapolation
    beyond the candidate - by 2, 4 or 8, if the candidate lies on the border of the trust
    region at all - stays within the bounds.  Missing: the extrapolated points are not
    clipped. *)
Theorem C30_line_search_points_in_bounds_partial :
  forall ft d w h X E crit n_cores sample rf bs sub st mi,
    haslog ft d w h X E ->
    admissible ft d w crit (LineSearch sample rf bs) sub st X E ->
    let b := r_bounds (c_region st) in
    in_bounds b (sub_x sub) -> in_bounds b (c_x st) ->
    (forall h reg n m xs, r_bounds reg = b -> sample h reg n m = Ok xs ->
       Forall (in_bounds b) xs) ->
    (is_on_border (c_region st) (sub_x sub) (/ 10) = false \/ bs = 1 \/
     in_bounds b (map2 (fun s c => s + 2 ^ (Nat.min bs 4 - 1) * (c - s))%R
                       (c_x st) (sub_x sub))) ->
    exists h' newX newE acc,
      run_decider crit n_cores (LineSearch sample rf bs) sub st mi h = (h', Ok acc) /\
      haslog ft d w h' (X ++ newX) (E ++ newE) /\ length newX = bs /\
      Forall (in_bounds b) newX.
Proof.
  intros ft d w h X E crit n_cores sample rf bs sub st mi HL HA b IC IX IS CASE.
  destruct (Nat.eq_dec bs 1) as [->|Hbs1].
  - destruct (decider_form _ _ _ _ _ _ crit n_cores _ sub st mi HL HA)
      as (h' & newX & newE & n & k & cx & n1 & n2 & L' & G & Hk & H0 & _ & AD & MF & LN & HM & R).
    destruct AD as [-> ->]. exists h', newX, newE. eexists. split; [exact R|].
    split; [easy|]. split; [easy|].
    destruct newX as [|a [|]]; simpl in *; try discriminate. injection H0 as ->. auto.
  - destruct HA as (HC & Hx & Hbs & HN & HS & HE & Hcx & T2 & BDim).
    assert (Hw : w <> 0) by apply HL. apply (likelihood_nan_free ft w crit HC Hw) in HN.
    destruct (accept_line_search_exact _ _ _ _ _ _ crit n_cores sample sub st rf mi bs
                  HL HC HN HS HE) as
        (h' & new_xs & vals & k & cx & N1 & N2 & N3 & N4 & L' & G & (m & spec & NX & SP)
         & Hk & Hcx' & Hmin & R);
        auto; [lia|].
    exists h', (sub_x sub :: new_xs), (combine (seq (length X) bs) vals). eexists.
    split; [exact R|]. split; [easy|]. split; [simpl; lia|].
    constructor; [easy|]. rewrite NX. apply Forall_app. split.
    + destruct (is_on_border (c_region st) (sub_x sub) (/ 10)); [|constructor].
      destruct CASE as [CASE|[CASE|CASE]]; [discriminate|lia|].
      unfold sample_on_line. apply Forall_map, Forall_forall. intros a Ha.
      unfold generate_alpha_grid in Ha. apply in_map_iff in Ha as (j & <- & Hj).
      apply in_seq in Hj.
      assert (P1 : (1 <= 2 ^ j)%R) by (apply pow_R1_Rle; lra).
      assert (P2 : (2 ^ j <= 2 ^ (Nat.min bs 4 - 1))%R) by (apply Rle_pow; [lra|lia]).
      set (t := (2 ^ j)%R) in *. set (T := (2 ^ (Nat.min bs 4 - 1))%R) in *.
      clearbody t T.
      destruct b as [B|]; [|exact I]. destruct IX as [IX1 IX2], CASE as [C1 C2].
      assert (CO : forall i xi, nth_error (map2 (fun s c => (s + t * (c - s))%R) (c_x st) (sub_x sub)) i = Some xi ->
        exists s y, nth_error (c_x st) i = Some s /\
          nth_error (map2 (fun s c => (s + T * (c - s))%R) (c_x st) (sub_x sub)) i = Some y /\
          xi = ((1 - t / T) * s + t / T * y)%R).
      { intros i xi Hi. rewrite map2_nth_error in *.
        destruct (nth_error (c_x st) i) as [s|]; [|discriminate].
        destruct (nth_error (sub_x sub) i) as [c|]; [|discriminate].
        injection Hi as <-. eexists _, _. split; [easy|]. split; [easy|].
        field. lra. }
      assert (Q : (0 <= t / T <= 1)%R).
      { split; [apply Rmult_le_pos; [lra|left; apply Rinv_0_lt_compat; lra]|].
        apply Rmult_le_reg_r with T; [lra|]. unfold Rdiv. rewrite Rmult_assoc, Rinv_l by lra. lra. }
      split.
      * intros l i xi li Hl Hxi Hli. destruct (CO i xi Hxi) as (s & y & Hs & Hy & ->).
        pose proof (IX1 l i s li Hl Hs Hli). pose proof (C1 l i y li Hl Hy Hli). nra.
      * intros l i xi li Hl Hxi Hli. destruct (CO i xi Hxi) as (s & y & Hs & Hy & ->).
        pose proof (IX2 l i s li Hl Hs Hli). pose proof (C2 l i y li Hl Hy Hli). nra.
    + destruct SP as [->|(h1 & reg & MR & SP)]; [constructor|].
      eapply IS; [|exact SP].
      now destruct (make_region_inv _ _ _ _ MR) as (_ & _ & _ & _ & RB & _).
Qed.

(** Data for the instances below: one parameter, one point with one evaluation. *)
Lemma haslog_single x v : exists h, haslog Scalar 1 1 h [[x]] [(0, [v])].
Proof.
  assert (E : exists h, run (hist_init Scalar 0%R) [OpXs (X1 [x]); OpEvals [0%Z] [VS v]] = Some h).
  { eexists. hcompute. reflexivity. }
  destruct E as [h E]. exists h. split; [easy|]. split; [easy|].
  exists 0%R. eexists. split; [|split; [exact E|split; reflexivity]].
  repeat constructor; try lia. discriminate.
Qed.

(** A criterion that always returns [v]. *)
Definition const_crit (v : xr) : criterion :=
  fun _ args _ => Ok (map (fun _ => Ret (VS v)) args).

Lemma const_crit_good v : good_criterion Scalar 1 (const_crit v).
Proof.
  intros h args cores _. eexists. split; [reflexivity|].
  split; [apply map_length|]. apply Forall_map, Forall_forall. easy.
Qed.

Lemma const_crit_genuine v X newE : v <> NaN -> genuine (const_crit v) X newE ->
  forall i, fvals_of Scalar i newE = repeat v (length (evals_of i newE)).
Proof.
  intros Hv (h & cores & outs & C & M) i. injection C as <-.
  unfold fvals_of, evals_of. rewrite map_map in M.
  assert (Hs : forall e, In e newE -> snd e = [v]).
  { rewrite map_map in M. clear h cores i. induction newE as [|e newE IH]; intros e' []; simpl in M.
    - subst e'. injection M as M _. rewrite M. destruct v; simpl; congruence.
    - injection M as _ M. auto. }
  clear M. induction newE as [|e newE IH]; simpl; auto.
  assert (IH' := IH ltac:(intros; apply Hs; simpl; auto)).
  destruct (fst e =? i); simpl; auto.
  rewrite (Hs e) by (simpl; auto). simpl. f_equal. exact IH'.
Qed.

(** A sampler that returns the center of the region, as often as requested. *)
Definition center_sampler : sampler := fun _ reg n _ => Ok (repeat (r_center reg) n).
Lemma center_sampler_good d : good_sampler d center_sampler.
Proof.
  intros h reg n m Hc. eexists. split; [reflexivity|]. split; [apply repeat_length|].
  apply Forall_forall. intros x Hx. apply repeat_spec in Hx. now subst x.
Qed.

(** One parameter with bounds [-10, 1]. *)
Definition ex_bounds := Some (mkBounds (Some [Some (-10)%R]) (Some [Some 1%R])).
Lemma ex_bounds_ok : two_sided ex_bounds /\ bounds_dim 1 ex_bounds.
Proof.
  split; [easy|]. split; intros l H; injection H as <-; reflexivity.
Qed.

(** C30 - violated: current point 0.99, upper bound 1, candidate 1 (on the border of the
    trust region); the line search evaluates 1.01. *)
Theorem C30_line_search_points_in_bounds_refuted :
  exists ft d w h X E crit n_cores sample rf bs sub st mi,
    haslog ft d w h X E /\
    admissible ft d w crit (LineSearch sample rf bs) sub st X E /\
    in_bounds (r_bounds (c_region st)) (sub_x sub) /\
    in_bounds (r_bounds (c_region st)) (c_x st) /\
    Forall (in_bounds (r_bounds (c_region st))) X /\
    make_region (c_x st) (r_radius (c_region st)) (r_bounds (c_region st)) = Ok (c_region st) /\
    exists h' newX newE acc,
      run_decider crit n_cores (LineSearch sample rf bs) sub st mi h = (h', Ok acc) /\
      haslog ft d w h' (X ++ newX) (E ++ newE) /\
      exists x, In x newX /\ ~ in_bounds (r_bounds (c_region st)) x.
Proof.
  destruct ex_bounds_ok as [T2 BD].
  destruct (C18_one_sided_bounds_partial [99/100]%R (1/2)%R ex_bounds) as [reg MR]; auto; [easy|].
  destruct (haslog_single (99/100) (Fin 5)) as [h HL].
  set (st := mkCur 0 [99/100]%R (Fin 5) reg).
  set (sub := mkSub [1%R] (Fin 1)).
  destruct (make_region_inv _ _ _ _ MR) as (bv & BV & RC & RR & RB & RS & _).
  assert (Sh : r_shape reg = Cube).
  { rewrite RS. destruct bv; auto. exfalso.
    assert (NB : near_bound ex_bounds [99/100]%R (1/2)%R).
    { right. exists [Some 1%R], 0, (99/100)%R, 1%R. repeat split. lra. }
    apply binding_iff in BV. apply BV in NB. discriminate. }
  assert (IB : forall x, (-10 <= x <= 1)%R -> in_bounds ex_bounds [x]).
  { intros x Hx. split; intros l i xi li Hl Hi Hli; injection Hl as <-;
      destruct i as [|[|i]]; simpl in *; try discriminate;
      injection Hi as <-; injection Hli as <-; lra. }
  destruct (C14_cube_inside_bounds_contains_center [99/100]%R (1/2)%R ex_bounds reg ltac:(lra) ltac:(easy) BD
              (IB (99/100)%R ltac:(lra)) MR Sh) as (_ & IU & _ & VU & _).
  destruct (region_cube_length [99/100]%R (1/2)%R ex_bounds reg BD MR) as [_ LU].
  destruct (r_cube_upper reg) as [|u [|]] eqn:EU; simpl in LU; try lia.
  assert (Hu : (99/100 <= u <= 1)%R).
  { split; [apply (VU 0); reflexivity|].
    destruct IU as [_ IU]. exact (IU [Some 1%R] 0 u 1%R eq_refl eq_refl eq_refl). }
  assert (OB : is_on_border reg [1%R] (/10) = true).
  { unfold is_on_border. rewrite Sh, EU. apply orb_true_iff. right.
    unfold map2, existsb. cbn. rewrite orb_false_r. apply Rleb_true.
    rewrite !Rabs_pos_eq; lra. }
  assert (AD : admissible Scalar 1 1 (const_crit (Fin 7)) (LineSearch center_sampler 1 2) sub st
                 [[99/100]%R] [(0, [Fin 5])]).
  { split; [apply const_crit_good|]. split; [easy|]. split; [lia|].
    split; [discriminate|]. split; [apply good_sampler_ready; [apply center_sampler_good|reflexivity]|].
    simpl. rewrite RB. repeat split; auto; try easy; apply BD. }
  exists Scalar, 1, 1, h, [[99/100]%R], [(0, [Fin 5])], (const_crit (Fin 7)), 1,
    center_sampler, 1%R, 2, sub, st, 0%R.
  split; [easy|]. split; [easy|]. cbn [c_region st sub_x sub c_x]. rewrite RB, RR.
  split; [apply IB; lra|]. split; [apply IB; lra|].
  split; [constructor; auto; apply IB; lra|]. split; [easy|].
  destruct AD as (HC & Hx & Hbs & HN & HS & HE & Hcx & T2' & BDim).
  destruct (accept_line_search_exact _ _ _ _ _ _ (const_crit (Fin 7)) 1 center_sampler sub st 1 0 2
                  HL HC (likelihood_nan_free Scalar 1 (const_crit (Fin 7)) HC ltac:(lia) HN) HS HE) as
        (h' & new_xs & vals & k & cx & N1 & N2 & N3 & N4 & L' & G & (m & spec & NX & _)
         & Hk & Hcx' & Hmin & R); auto.
  exists h', (sub_x sub :: new_xs), (combine (seq 1 2) vals). eexists.
  split; [exact R|]. split; [exact L'|].
  cbn [c_region st sub_x sub] in NX. rewrite OB in NX. cbn in NX.
  exists [99/100 + 2 * 1 * (1 - 99/100)]%R. split.
  - rewrite NX. simpl. auto.
  - intros [_ H]. specialize (H [Some 1%R] 0 _ 1%R eq_refl eq_refl eq_refl). lra.
Qed.

(** * C31 *)

(** C31 - full statement: the value reported for the state after the noisy decider is the
    mean of all evaluations of the state's index.  True if the candidate is accepted, or if
    the current point was not evaluated again. *)
Theorem C31_reported_value_is_mean_partial :
  forall ft d w h X E crit n_cores D sub st mi,
    haslog ft d w h X E -> admissible ft d w crit D sub st X E ->
    c_index st < length X -> c_fval st = mean_of ft (c_index st) E ->
    exists h' newX newE acc n1 n2,
      run_decider crit n_cores D sub st mi h = (h', Ok acc) /\
      haslog ft d w h' (X ++ newX) (E ++ newE) /\
      advertised ft D sub st E n1 n2 /\
      (a_accepted acc = true \/ n1 = 0 -> a_fval acc = mean_of ft (a_index acc) (E ++ newE)).
Proof.
  intros ft d w h X E crit n_cores D sub st mi HL HA Hc Hf.
  destruct (decider_form _ _ _ _ _ _ crit n_cores D sub st mi HL HA)
    as (h' & newX & newE & n & k & cx & n1 & n2 & L' & G & Hk & H0 & HK & AD & MF & LN & HM & R).
  exists h', newX, newE. eexists. exists n1, n2. split; [exact R|]. split; [easy|].
  split; [easy|].
  match goal with |- context [finish ?a ?b ?c ?e ?f ?g ?i] =>
    destruct (finish_cases a b c e f g i) as [(_ & _ & _ & _ & FV & FX)|(Hr & _ & FV & FX)]
  end; rewrite FV, FX; [auto|].
  rewrite Hr. intros [|Hn]; [discriminate|]. subst n1. rewrite Hf.
  unfold mean_of. f_equal. unfold fvals_of. f_equal. rewrite evals_of_app.
  assert (Z : evals_of (c_index st) newE = []).
  { unfold evals_of. rewrite <- (map_id newE). simpl in MF.
    assert (NI : ~ In (c_index st) (map fst newE)).
    { rewrite MF. intros Hin. destruct D; try (apply repeat_spec in Hin; lia).
      apply in_seq in Hin. lia. }
    clear -NI. induction newE as [|e newE IH]; simpl in *; auto.
    destruct (Nat.eqb_spec (fst e) (c_index st)); [tauto|auto]. }
  rewrite Z. now rewrite app_nil_r.
Qed.

Lemma ceilR_int z : ceilR (IZR z) = z.
Proof.
  pose proof (ceilR_spec (IZR z)) as [H1 H2].
  apply le_IZR in H2.
  assert (IZR (ceilR (IZR z)) < IZR (z + 1))%R by (rewrite plus_IZR; lra).
  apply lt_IZR in H. lia.
Qed.

(** C31 - violated: the current point has one evaluation (0); seven more (all 1) are drawn,
    the candidate (1) is rejected.  The state still reports 0, the mean is 7/8. *)
Theorem C31_reported_value_is_mean_refuted :
  exists ft d w h X E crit n_cores D sub st mi,
    haslog ft d w h X E /\ admissible ft d w crit D sub st X E /\
    nth_error X (c_index st) = Some (c_x st) /\
    c_fval st = mean_of ft (c_index st) E /\
    exists h' newX newE acc,
      run_decider crit n_cores D sub st mi h = (h', Ok acc) /\
      haslog ft d w h' (X ++ newX) (E ++ newE) /\
      a_accepted acc = false /\ a_index acc = c_index st /\
      a_fval acc = Fin 0 /\ mean_of ft (a_index acc) (E ++ newE) = Fin (7 / 8).
Proof.
  destruct (haslog_single 0 (Fin 0)) as [h HL].
  assert (MR : make_region [0%R] 1 None = Ok (mkRegion [0%R] 1 None Sphere [0 - 1]%R [0 + 1]%R))
    by reflexivity.
  set (reg := mkRegion [0%R] 1 None Sphere [0 - 1]%R [0 + 1]%R) in *.
  set (st := mkCur 0 [0%R] (Fin 0) reg).
  set (sub := mkSub [1%R] (Fin 1)).
  set (D := Noisy (Fin 1) 2 4 50).
  assert (AD : admissible Scalar 1 1 (const_crit (Fin 1)) D sub st [[0%R]] [(0, [Fin 0])]).
  { split; [apply const_crit_good|]. split; [easy|]. split; [exists 1%R; split; [easy|lra]|].
    split; [discriminate|]. split; [lia|]. split; [simpl; lia|discriminate]. }
  exists Scalar, 1, 1, h, [[0%R]], [(0, [Fin 0])], (const_crit (Fin 1)), 1, D, sub, st, 0%R.
  split; [easy|]. split; [easy|]. split; [easy|].
  split. { unfold mean_of, fvals_of. simpl. rewrite xmean_one. reflexivity. }
  destruct (decider_form _ _ _ _ _ _ (const_crit (Fin 1)) 1 D sub st 0 HL AD)
    as (h' & newX & newE & n & k & cx & n1 & n2 & L' & G & Hk & H0 & HK & AV & MF & LN & HM & R).
  assert (SZ : n1 = 7 /\ n2 = 8).
  { unfold advertised, D in AV. cbn [xsqrt sub_ei sub] in AV.
    destruct (Rleb_spec 0 1); [|lra]. rewrite sqrt_1 in AV.
    cbn [st c_index evals_of filter map fst Nat.eqb length] in AV.
    unfold get_acceptance_sample_sizes, optimal_sample_sizes, compute_factor, xclip in AV.
    change (Z.of_nat 1) with 1%Z in AV.
    assert (M : xmin PInf (xmax (Fin 1) (Fin (/ 100000000))) = Fin 1).
    { unfold xmax, xmin. simpl. destruct (Rleb_spec 1 (/100000000)); simpl; [lra|easy]. }
    rewrite M in AV. cbn [xeq] in AV. destruct (Reqb_spec 1 0) in AV; [lra|].
    unfold xdiv, xsquare in AV. destruct (Reqb_spec 1 0) in AV; [lra|].
    cbn [xadd xmul xle] in AV.
    destruct (Rleb_spec 1 (1 * (1 + 1) * (2 / 1 * (2 / 1)))) in AV; [|lra].
    unfold xsub in AV. cbn [xadd xopp] in AV.
    replace (1 * (1 + 1) * (2 / 1 * (2 / 1)) + - (1))%R with 7%R in AV by field.
    replace (1 * (1 + 1) * (2 / 1 * (2 / 1)))%R with 8%R in AV by field.
    unfold xmin, xmax in AV. cbn [xle] in AV. cbn [Z.max Z.sub Z.opp Z.add Z.pos_sub Z.compare
      Pos.compare Pos.compare_cont Z.succ_double Z.pred_double Z.double Pos.pred_double Pos.sub] in AV.
    destruct (Rleb_spec 7 0) in AV; [lra|]. destruct (Rleb_spec 8 4) in AV; [lra|].
    change (Z.max 0 (50 - 1)) with 49%Z in AV.
    cbn [xle] in AV.
    destruct (Rleb_spec 49 7) in AV; [lra|]. destruct (Rleb_spec 50 8) in AV; [lra|].
    simpl int_ceil in AV. rewrite !ceilR_int in AV. simpl in AV. injection AV as A1 A2.
    lia. }
  destruct SZ as [-> ->]. destruct HK as [-> HK].
  exists h', newX, newE. eexists. split; [exact R|]. split; [easy|].
  assert (EV : forall i, length (evals_of i newE) = if i =? 0 then 7 else if i =? 1 then 8 else 0).
  { intros i. rewrite <- (map_length (fun v => i) (evals_of i newE)).
    assert (Q : forall l : list (nat * list xr), length (evals_of i l) = count_occ Nat.eq_dec (map fst l) i).
    { unfold evals_of. induction l as [|e l IH]; simpl; auto.
      destruct (Nat.eqb_spec (fst e) i), (Nat.eq_dec (fst e) i); simpl; congruence. }
    rewrite map_length, Q, MF. destruct i as [|[|i]]; reflexivity. }
  assert (M0 : mean_of Scalar 0 ([(0, [Fin 0])] ++ newE) = Fin (7/8)).
  { unfold mean_of. rewrite fvals_of_app, (const_crit_genuine (Fin 1) _ _ ltac:(easy) G), EV.
    unfold fvals_of, xmean. simpl. destruct (Reqb_spec (1+1+1+1+1+1+1+1) 0); [lra|].
    f_equal. lra. }
  assert (M1 : mean_of Scalar 1 ([(0, [Fin 0])] ++ newE) = Fin 1).
  { unfold mean_of. rewrite fvals_of_app, (const_crit_genuine (Fin 1) _ _ ltac:(easy) G), EV.
    unfold fvals_of, xmean. simpl. destruct (Reqb_spec (1+1+1+1+1+1+1+1) 0); [lra|].
    f_equal. lra. }
  cbn [length Nat.add reference D st c_index] in *. rewrite M0, M1.
  assert (REJ : xge (xopp (xsub (Fin 1) (Fin (7 / 8)))) (Fin 0) = false).
  { unfold xge, xsub. simpl. apply Rleb_false. lra. }
  rewrite REJ. cbn. repeat split; auto.
Qed.

(** * Instances *)

(** With current value 5 a candidate of value 1 is accepted, with current value 0 it is
    rejected, and one of value +inf is rejected even if the current value is +inf. *)
Example ex_C24 :
  exists h, haslog Scalar 1 1 h [[3%R]] [(0, [Fin 5])] /\
  let reg := mkRegion [3%R] 1 None Sphere [3 - 1]%R [3 + 1]%R in
  let sub := mkSub [4%R] (Fin 2) in
  let go := fun D v cur => exists h' acc,
     run_decider (const_crit v) 1 D sub (mkCur 0 [3%R] cur reg) 0 h = (h', Ok acc) /\
     exists newE, haslog Scalar 1 1 h' [[3%R]; [4%R]] ([(0, [Fin 5])] ++ newE) in
  go Classic (Fin 1) (Fin 5) /\ go NaiveNoisy (Fin 1) (Fin 0) /\ go Classic PInf PInf /\
  enough (Fin 5) (Fin 1) 0 /\ ~ enough (Fin 0) (Fin 1) 0 /\ ~ enough PInf PInf 0.
Proof.
  destruct (haslog_single 3 (Fin 5)) as [h HL]. exists h. split; [easy|].
  cbv zeta.
  assert (AD : forall D v cur, (D = Classic \/ D = NaiveNoisy) ->
     admissible Scalar 1 1 (const_crit v) D (mkSub [4%R] (Fin 2))
       (mkCur 0 [3%R] cur (mkRegion [3%R] 1 None Sphere [3 - 1]%R [3 + 1]%R)) [[3%R]] [(0, [Fin 5])]).
  { intros D v cu HD. split; [apply const_crit_good|]. split; [easy|].
    destruct HD; subst D; exact I. }
  split; [|split; [|split; [|split; [|split]]]].
  - destruct (C24_accepted_iff_improvement _ _ _ _ _ _ _ 1 _ _ _ 0 HL
      (AD Classic (Fin 1) (Fin 5) (or_introl eq_refl)) (or_introl eq_refl)) as (h' & newE & acc & R & L & _).
    exists h', acc. split; [exact R|]. exists newE. exact L.
  - destruct (C24_accepted_iff_improvement _ _ _ _ _ _ _ 1 _ _ _ 0 HL
      (AD NaiveNoisy (Fin 1) (Fin 0) (or_intror eq_refl)) (or_intror eq_refl)) as (h' & newE & acc & R & L & _).
    exists h', acc. split; [exact R|]. exists newE. exact L.
  - destruct (C24_accepted_iff_improvement _ _ _ _ _ _ _ 1 _ _ _ 0 HL
      (AD Classic PInf PInf (or_introl eq_refl)) (or_introl eq_refl)) as (h' & newE & acc & R & L & _).
    exists h', acc. split; [exact R|]. exists newE. exact L.
  - simpl. lra.
  - simpl. lra.
  - simpl. auto.
Qed.

(** All four deciders are admissible in one situation. *)
Example ex_admissible :
  let reg := mkRegion [3%R] 1 None Sphere [3 - 1]%R [3 + 1]%R in
  let st := mkCur 0 [3%R] (Fin 5) reg in
  let sub := mkSub [4%R] (Fin 2) in
  forall D, In D [Classic; NaiveNoisy; LineSearch center_sampler 1 4; Noisy (Fin 1) 2 4 50] ->
    admissible Scalar 1 1 (const_crit (Fin 1)) D sub st [[3%R]] [(0, [Fin 5])].
Proof.
  intros reg st sub D HD. split; [apply const_crit_good|]. split; [easy|].
  destruct HD as [<-|[<-|[<-|[<-|[]]]]]; try exact I.
  - split; [lia|]. split; [discriminate|]. split; [apply good_sampler_ready; [apply center_sampler_good|reflexivity]|].
    repeat split; easy.
  - split; [exists 1%R; split; [easy|lra]|]. repeat split; try easy. simpl. lia.
Qed.
