(** Effect of the history primitives on the log, and queries in terms of the log. *)
From Coq Require Import Reals List Arith ZArith Bool Lia Sorted.
From Verif Require Import Base XR Vec HistoryModel HistorySpec HistoryProofs WrapModel
  WrapProofs AcceptModel LogSpec Prop_Wrap.
Import ListNotations.
Open Scope nat_scope.

Lemma haslog_rep ft d w h X E : haslog ft d w h X E ->
  Rep d (ft_w ft w) h X E /\ h_ft h = ft.
Proof.
  intros (Hd & Hw & pad & ops & Hg & Hrun & <- & <-). now apply run_rep with (pad := pad).
Qed.

Lemma haslog_init ft pad d w : d <> 0 -> w <> 0 -> haslog ft d w (hist_init ft pad) [] [].
Proof.
  intros Hd Hw. split; [easy|]. split; [easy|]. exists pad, []. repeat split; auto.
Qed.

Lemma haslog_add_xs ft d w h X E arg : haslog ft d w h X E ->
  Forall (fun r => length r = d) (rows_of arg) ->
  exists h', add_xs h arg = (h', Ok (fresh_indices (length X) arg)) /\
             haslog ft d w h' (X ++ rows_of arg) E.
Proof.
  intros HL Hr. destruct (haslog_rep _ _ _ _ _ _ HL) as [HR Hft].
  destruct (add_xs_rep _ _ _ _ _ arg HR Hr) as (h' & E1 & _).
  exists h'. split; [easy|].
  destruct HL as (Hd & Hw & pad & ops & Hg & Hrun & <- & <-).
  split; [easy|]. split; [easy|]. exists pad, (ops ++ [OpXs arg]).
  split; [|split; [|split]].
  - apply Forall_app. split; [easy|]. repeat constructor. exact Hr.
  - rewrite (run_app _ _ _ _ Hrun). simpl. now rewrite E1.
  - rewrite log_xs_app. simpl. now rewrite app_nil_r.
  - rewrite log_evals_app. simpl. now rewrite app_nil_r.
Qed.

Lemma m_add_x_log ft d w h X E x : haslog ft d w h X E -> length x = d ->
  exists h', m_add_x x h = (h', Ok (length X)) /\ haslog ft d w h' (X ++ [x]) E.
Proof.
  intros HL Hx. unfold m_add_x.
  assert (d <> 0) by apply HL.
  destruct x as [|x0 x]; [simpl in Hx; lia|].
  destruct (haslog_add_xs _ _ _ _ _ _ (X1 (x0 :: x)) HL) as (h' & -> & HL').
  - simpl. auto.
  - exists h'. split; [reflexivity|exact HL'].
Qed.

Lemma m_add_xs_log ft d w h X E xs : haslog ft d w h X E ->
  Forall (fun x => length x = d) xs ->
  exists h', m_add_xs xs h = (h', Ok (seq (length X) (length xs))) /\
             haslog ft d w h' (X ++ xs) E.
Proof.
  intros HL Hx. unfold m_add_xs.
  destruct (haslog_add_xs _ _ _ _ _ _ (X2 xs) HL Hx) as (h' & -> & HL').
  exists h'. auto.
Qed.

(** Evaluating keeps the points and appends exactly the requested evaluations. *)
Lemma m_eval_log ft d w h X E crit n_cores info :
  haslog ft d w h X E -> good_criterion ft w crit ->
  Forall (fun p => fst p < length X) info -> 0 < list_sum (map snd info) ->
  exists h' vals,
    m_eval crit n_cores info h = (h', Ok tt) /\
    length vals = list_sum (map snd info) /\
    Forall (fun v => length v = ft_w ft w) vals /\
    (forall v, In v vals -> ~ In NaN v) /\
    (exists outs, crit h (map (fun i => nth i X []) (expand info))
                    (Nat.min n_cores (list_sum (map snd info))) = Ok outs /\
                  vals = map recorded outs) /\
    haslog ft d w h' X (E ++ combine (expand info) vals).
Proof.
  intros HL HC Hi Hpos.
  destruct HL as (Hd & Hw & pad & ops & Hg & Hrun & <- & <-).
  set (args := flat_map (fun p => repeat (nth (fst p) (log_xs ops) []) (snd p)) info).
  assert (Ea : args = map (fun i => nth i (log_xs ops) []) (expand info)).
  { unfold args, expand. clear. induction info as [|[i n] info IH]; simpl; auto.
    rewrite map_app, IH. f_equal. clear. induction n; simpl; auto. now f_equal. }
  assert (La : length args = list_sum (map snd info)).
  { rewrite Ea, map_length. apply expand_length. }
  destruct (HC h args (Nat.min n_cores (list_sum (map snd info)))) as (outs & HO & LO & PO).
  { intros Hn. rewrite Hn in La. simpl in La. lia. }
  destruct (C10_wrapped_criterion_exact ft pad d w ops h (crit h) n_cores info outs Hd Hw Hg
              Hrun Hi Hpos HO) as (h' & ops' & E1 & _ & _ & R1 & G1 & LX & LE).
  { lia. }
  { easy. }
  exists h', (map recorded outs). unfold m_eval. rewrite E1.
  split; [reflexivity|]. split; [rewrite map_length; lia|].
  split; [|split; [|split]].
  - apply Forall_map. eapply Forall_impl; [|exact PO].
    intros o Ho. destruct ft, o as [[[]|l]|]; simpl in *; try easy; now rewrite map_length.
  - intros v Hv Hn. apply in_map_iff in Hv as (o & <- & _).
    destruct o as [[[]|l]|]; simpl in Hn; try (destruct Hn as [H|[]]; discriminate).
    apply in_map_iff in Hn as (z & Hz & _). destruct z; discriminate.
  - exists outs. split; [|reflexivity]. rewrite <- HO. f_equal. symmetry. exact Ea.
  - split; [easy|]. split; [easy|]. exists pad, ops'. repeat split; auto.
Qed.

Lemma m_fvals_log ft d w h X E i : haslog ft d w h X E -> E <> [] -> i < length X ->
  m_fvals i h = (h, Ok (fvals_of ft i E)).
Proof.
  intros HL HE Hi. destruct (haslog_rep _ _ _ _ _ _ HL) as [HR Hft].
  unfold m_fvals, mquery. rewrite (q_fvals_one _ _ _ _ _ HR i HE Hi). now rewrite Hft.
Qed.

Lemma fvals_many_log ft d w h X E is : haslog ft d w h X E -> E <> [] ->
  Forall (fun i => i < length X) is -> NoDup is ->
  get_fvals_many h (map Z.of_nat is) = Ok (map (fun i => (i, fvals_of ft i E)) is).
Proof.
  intros HL HE Hi ND. destruct (haslog_rep _ _ _ _ _ _ HL) as [HR Hft].
  rewrite (q_fvals_many _ _ _ _ _ HR is HE Hi), Hft. f_equal.
  apply dict_of_nodup. rewrite map_map. simpl. now rewrite map_id.
Qed.

Lemma xs_one_log ft d w h X E i x : haslog ft d w h X E -> nth_error X i = Some x ->
  get_xs_one h (Z.of_nat i) = Ok x.
Proof.
  intros HL Hx. destruct (haslog_rep _ _ _ _ _ _ HL) as [HR _].

  rewrite (q_xs_one _ _ _ _ _ HR i) by (apply nth_error_Some; congruence).
  unfold nth_res. now rewrite Hx.
Qed.

Lemma mapM_nth_res A (X : list A) is : Forall (fun i => i < length X) is ->
  exists xs, mapM (nth_res X) is = Ok xs /\ length xs = length is /\ incl xs X /\
             (forall k i, nth_error is k = Some i -> nth_error xs k = nth_error X i).
Proof.
  induction 1 as [|i is Hi _ (xs & E & L & I & N)]; simpl.
  - exists []. repeat split; auto; try easy. intros [|k]; discriminate.
  - unfold nth_res at 1. destruct (nth_error X i) as [x|] eqn:Ex.
    + simpl. rewrite E. simpl. exists (x :: xs). repeat split; simpl; auto.
      * intros z [<-|Hz]; [eapply nth_error_In; eauto|auto].
      * intros [|k] j Hj; simpl in *; [congruence|auto].
    + apply nth_error_None in Ex. lia.
Qed.

Lemma xs_many_log ft d w h X E is : haslog ft d w h X E -> X <> [] ->
  Forall (fun i => i < length X) is ->
  exists xs, get_xs_many h (map Z.of_nat is) = Ok xs /\ length xs = length is /\ incl xs X /\
             (forall k i, nth_error is k = Some i -> nth_error xs k = nth_error X i).
Proof.
  intros HL HX Hi. destruct (haslog_rep _ _ _ _ _ _ HL) as [HR _].
  rewrite (q_xs_many _ _ _ _ _ HR is HX Hi). now apply mapM_nth_res.
Qed.

Lemma region_log ft d w h X E center radius : haslog ft d w h X E -> E <> [] ->
  exists is, get_x_indices_in_region h center radius = Ok is /\ StronglySorted lt is /\
    Forall (fun i => i < length X) is /\
    forall i, In i is <-> exists x, nth_error X i = Some x /\ (dist x center <= radius)%R.
Proof.
  intros HL HE. destruct (haslog_rep _ _ _ _ _ _ HL) as [HR _].
  destruct (q_region _ _ _ _ _ center radius HR HE) as (is & E1 & S & H).
  exists is. repeat split; auto; try apply H.
  apply Forall_forall. intros i Hi. apply H in Hi as (x & Hx & _).
  apply nth_error_Some. congruence.
Qed.

Lemma haslog_dims ft d w h X E : haslog ft d w h X E ->
  Forall (fun x => length x = d) X /\ Forall (fun e => length (snd e) = ft_w ft w) E /\
  Forall (fun e => fst e < length X) E /\ h_nfun h = length E /\ h_nxs h = length X.
Proof.
  intros HL. destruct (haslog_rep _ _ _ _ _ _ HL) as [HR _].
  destruct HR; auto.
Qed.

(** Evaluations of one point after appending. *)
Lemma evals_of_app A i (E E' : list (nat * A)) :
  evals_of i (E ++ E') = evals_of i E ++ evals_of i E'.
Proof. unfold evals_of. now rewrite filter_app, map_app. Qed.

Lemma evals_of_fresh A i n (E : list (nat * A)) :
  Forall (fun e => fst e < n) E -> n <= i -> evals_of i E = [].
Proof.
  intros H Hi. unfold evals_of. induction H as [|e E He _ IH]; simpl; auto.
  destruct (Nat.eqb_spec (fst e) i); [lia|auto].
Qed.

Lemma evals_of_repeat A i (vs : list A) :
  evals_of i (combine (repeat i (length vs)) vs) = vs.
Proof.
  unfold evals_of. induction vs as [|v vs IH]; simpl; auto.
  rewrite Nat.eqb_refl. simpl. now rewrite IH.
Qed.

Lemma evals_of_repeat_other A i j n (vs : list A) : i <> j ->
  evals_of i (combine (repeat j n) vs) = [].
Proof.
  intros H. unfold evals_of. revert n. induction vs as [|v vs IH]; intros [|n]; simpl; auto.
  destruct (Nat.eqb_spec j i); [congruence|apply IH].
Qed.
