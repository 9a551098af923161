(** Properties C01-C09 and C99: the history container. *)
From Coq Require Import Reals List Arith ZArith Bool Lia Lra Sorted.
From Verif Require Import Base XR Vec HistoryModel HistorySpec HistoryProofs.
Import ListNotations.
Open Scope nat_scope.

(** C01 - parameter vectors round trip; indices are fresh and consecutive. *)
Theorem C01_history_xs_round_trip :
  forall ft pad d w ops h,
    d <> 0 -> w <> 0 -> Forall (good_op ft d w) ops ->
    run (hist_init ft pad) ops = Some h ->
    get_n_xs h = length (log_xs ops) /\
    (log_xs ops <> [] -> get_xs_all h = Ok (log_xs ops)) /\
    (forall i x, nth_error (log_xs ops) i = Some x -> get_xs_one h (Z.of_nat i) = Ok x) /\
    (forall arg, Forall (fun r => length r = d) (rows_of arg) ->
       exists h', add_xs h arg = (h', Ok (fresh_indices (length (log_xs ops)) arg)) /\
                  run (hist_init ft pad) (ops ++ [OpXs arg]) = Some h').
Proof.
  intros ft pad d w ops h Hd Hw Hg Hrun.
  destruct (run_rep ft pad d w ops h Hd Hw Hg Hrun) as [HR Hft].
  split; [apply (rep_nxs _ _ _ _ _ HR)|].
  split; [apply (q_xs_all _ _ _ _ _ HR)|].
  split.
  - intros i x Hi. rewrite (q_xs_one _ _ _ _ _ HR).
    + unfold nth_res. now rewrite Hi.
    + apply nth_error_Some. congruence.
  - intros arg Harg. destruct (add_xs_rep _ _ _ _ _ arg HR Harg) as (h' & E & _ & _ & _).
    exists h'. split; [exact E|].
    clear -Hrun E. revert Hrun E. generalize (fresh_indices (length (log_xs ops)) arg).
    intros r Hrun E. revert Hrun. generalize (hist_init ft pad).
    induction ops as [|o ops IH]; simpl; intros h0 Hrun.
    + injection Hrun as ->. now rewrite E.
    + destruct (step h0 o); [auto|discriminate].
Qed.

(** C02 - evaluations are returned per point in call order. *)
Theorem C02_history_evals_round_trip :
  forall ft pad d w ops h,
    d <> 0 -> w <> 0 -> Forall (good_op ft d w) ops ->
    run (hist_init ft pad) ops = Some h -> log_evals ops <> [] ->
    (forall i, i < length (log_xs ops) ->
       get_fvecs_one h (Z.of_nat i) = Ok (evals_of i (log_evals ops)) /\
       get_fvals_one h (Z.of_nat i) = Ok (map (spec_fval ft) (evals_of i (log_evals ops)))) /\
    (forall is, NoDup is -> Forall (fun i => i < length (log_xs ops)) is ->
       get_fvecs_many h (map Z.of_nat is)
       = Ok (map (fun i => (i, evals_of i (log_evals ops))) is)).
Proof.
  intros ft pad d w ops h Hd Hw Hg Hrun HE.
  destruct (run_rep ft pad d w ops h Hd Hw Hg Hrun) as [HR Hft].
  split.
  - intros i Hi. split.
    + now apply (q_fvecs_one _ _ _ _ _ HR).
    + rewrite <- Hft. now apply (q_fvals_one _ _ _ _ _ HR).
  - intros is HN Hi. rewrite (q_fvecs_many _ _ _ _ _ HR) by easy.
    now rewrite dict_of_nodup by now apply nodup_map_fst_pair.
Qed.

(** C03 - exact counters; whatever is returned was put in before, never padding, for any
    index argument. *)
Theorem C03_history_counts_and_no_padding :
  forall ft pad d w ops h,
    d <> 0 -> w <> 0 -> Forall (good_op ft d w) ops ->
    run (hist_init ft pad) ops = Some h ->
    get_n_fun h = length (log_evals ops) /\
    (log_evals ops <> [] ->
       exists counts, get_n_evals h (map Z.of_nat (seq 0 (get_n_xs h))) = Ok counts /\
         map fst counts = seq 0 (get_n_xs h) /\
         list_sum (map snd counts) = get_n_fun h) /\
    (forall zs out, get_xs_many h zs = Ok out -> Forall (fun x => In x (log_xs ops)) out) /\
    (forall zs out, get_fvecs_many h zs = Ok out ->
       Forall (fun kv => Forall (fun v => In (fst kv, v) (log_evals ops)) (snd kv)) out) /\
    (forall zs out, get_fvals_many h zs = Ok out ->
       Forall (fun kv => Forall (fun y => exists v, In (fst kv, v) (log_evals ops)
                                               /\ y = spec_fval ft v) (snd kv)) out).
Proof.
  intros ft pad d w ops h Hd Hw Hg Hrun.
  destruct (run_rep ft pad d w ops h Hd Hw Hg Hrun) as [HR Hft].
  split; [apply (rep_nfun _ _ _ _ _ HR)|].
  assert (NE : forall A (arr : option (list A)) (f : list xr -> A) zs out,
     holds arr (map f (map snd (log_evals ops))) ->
     extract_many arr h zs = Ok out ->
     Forall (fun kv => Forall (fun y => exists v, In (fst kv, v) (log_evals ops)
                                               /\ y = f v) (snd kv)) out).
  { intros A arr f zs out Harr Hx.
    destruct (log_evals ops) as [|e0 E0] eqn:EE.
    - (* nothing recorded: every entry is empty *)
      destruct arr as [rows|]; [|discriminate].
      unfold extract_many in Hx.
      destruct (mapM (norm_index (h_nxs h)) zs) as [is|] eqn:EI; [|discriminate].
      cbn [bind] in Hx.
      destruct (mapM _ is) as [items|] eqn:EM; [|discriminate].
      cbn [bind] in Hx. injection Hx as <-.
      apply Forall_forall. intros kv Hkv. apply dict_of_In in Hkv.
      apply mapM_ok_Forall2 in EM.
      assert (Hex : exists i, In i is /\ match nth_error (h_map h) i with
                | None => Err KeyError
                | Some fs => let* vs := mapM (nth_res (firstn (h_nfun h) rows)) fs in Ok (i, vs)
                end = Ok kv).
      { clear -EM Hkv. induction EM; [destruct Hkv|].
        destruct Hkv as [->|H']; [exists x; simpl; auto|].
        destruct (IHEM H') as (i & Hi & Hi2). exists i. simpl; auto. }
      destruct Hex as (i & Hi & Hv).
      assert (i < length (log_xs ops)).
      { apply mapM_ok_Forall2 in EI. clear -EI Hi HR. induction EI; [destruct Hi|].
        destruct Hi as [->|Hi]; auto. apply norm_index_inv in H.
        rewrite (rep_nxs _ _ _ _ _ HR) in H. tauto. }
      rewrite (rep_map _ _ _ _ _ HR i) in Hv by easy. simpl in Hv. injection Hv as <-.
      constructor.
    - destruct (extract_many_norm _ _ _ _ _ Hx) as (is & _ & Hlt & Eq).
      rewrite Eq in Hx. rewrite (rep_nxs _ _ _ _ _ HR) in Hlt.
      rewrite (extract_items _ _ _ _ _ HR _ _ f) in Hx; auto; [|discriminate].
      injection Hx as <-. apply Forall_forall. intros kv Hkv.
      apply dict_of_In in Hkv. apply in_map_iff in Hkv. destruct Hkv as (i & <- & _).
      simpl. apply Forall_map. apply Forall_forall. intros v Hv.
      exists v. split; [apply evals_of_In in Hv; exact Hv|easy]. }
  split; [|split; [|split]].
  - intros HE. unfold get_n_evals.
    rewrite (rep_nxs _ _ _ _ _ HR : get_n_xs h = _).
    rewrite (q_fvals_many _ _ _ _ _ HR); auto.
    2: { apply Forall_forall. intros i Hi. apply in_seq in Hi. lia. }
    cbn [bind]. rewrite dict_of_nodup by (apply nodup_map_fst_pair, seq_NoDup).
    eexists; split; [reflexivity|].
    rewrite !map_map. simpl. rewrite map_id. split; [easy|].
    unfold get_n_fun. rewrite (rep_nfun _ _ _ _ _ HR).
    rewrite <- (evals_of_sum _ (log_evals ops) (length (log_xs ops))).
    + f_equal. apply map_ext. intros; now rewrite map_length.
    + apply (rep_ei _ _ _ _ _ HR).
  - intros zs out Hx. pose proof (q_xs_many_any _ _ _ _ _ _ _ HR Hx) as F.
    clear -F. induction F; constructor; auto. destruct H as (i & Hi & _).
    eapply nth_error_In; eauto.
  - intros zs out Hx.
    pose proof (NE _ (fvecs_rows h) (fun x => x) zs out (holds_fvecs _ _ _ _ _ HR) Hx) as F.
    eapply Forall_impl; [|exact F]. intros kv. apply Forall_impl.
    intros v (u & Hu & ->). easy.
  - intros zs out Hx. rewrite <- Hft.
    exact (NE _ (h_fvals h) _ zs out (rep_fvals _ _ _ _ _ HR) Hx).
Qed.

(** C04 - fvals are the aggregate of fvecs, for every point and whatever the index. *)
Theorem C04_history_fvals_aggregate_fvecs :
  forall ft pad d w ops h,
    d <> 0 -> w <> 0 -> Forall (good_op ft d w) ops ->
    run (hist_init ft pad) ops = Some h -> log_evals ops <> [] ->
    forall i, i < length (log_xs ops) ->
    exists vs, get_fvecs_one h (Z.of_nat i) = Ok vs /\
      get_fvals_one h (Z.of_nat i) = Ok (map (spec_fval ft) vs).
Proof.
  intros ft pad d w ops h Hd Hw Hg Hrun HE i Hi.
  destruct (C02_history_evals_round_trip ft pad d w ops h Hd Hw Hg Hrun HE) as [H _].
  destruct (H i Hi) as [H1 H2]. eauto.
Qed.

(** C05 - rejected calls (index too large, wrong number of evaluations) change nothing.
    This holds for every history object, reachable or not. *)
Theorem C05_rejected_add_evals_no_effect :
  forall h zs ev,
    (forall z, In z zs -> (z >= Z.of_nat (get_n_xs h))%Z ->
       add_evals h zs ev = (h, Err ValueError)) /\
    (forall w, zs <> [] -> ev <> [] -> Forall (good_eval (h_ft h) w) ev ->
       length ev <> length zs -> exists e, add_evals h zs ev = (h, Err e)).
Proof.
  intros h zs ev. split.
  - intros z. apply add_evals_bad_index.
  - intros w H1 H2 H3 H4.
    destruct (add_evals_bad_length h w zs ev H1 H2 H3 H4) as [H|H]; eauto.
Qed.

(** C06 - full statement: whenever [add_evals] raises, the history is unchanged for all
    later queries.  True for non-negative indices: *)
Theorem C06_failed_add_evals_atomic_partial :
  forall ft pad d w ops h zs ev h' e,
    d <> 0 -> w <> 0 -> Forall (good_op ft d w) ops ->
    run (hist_init ft pad) ops = Some h ->
    Forall (fun z => (0 <= z)%Z) zs ->
    add_evals h zs ev = (h', Err e) -> h' = h.
Proof.
  intros ft pad d w ops h zs ev h' e Hd Hw Hg Hrun Hz.
  destruct (run_rep ft pad d w ops h Hd Hw Hg Hrun) as [HR Hft].
  apply add_evals_err_nonneg; auto.
  now rewrite (rep_lenm _ _ _ _ _ HR), (rep_nxs _ _ _ _ _ HR).
Qed.

Definition c06_ops : list op :=
  [OpXs (X2 [[1%R]; [2%R]]); OpEvals [0%Z] [VS (Fin 10)]].

(** ... but false in general: after a failing call with index list [0; -1], an evaluation
    recorded later for point 1 is reported as an evaluation of point 0. *)
Theorem C06_failed_add_evals_atomic_refuted :
  exists pad h h1 h2 h2',
    run (hist_init Scalar pad) c06_ops = Some h /\
    add_evals h [0%Z; (-1)%Z] [VS (Fin 20); VS (Fin 30)] = (h1, Err KeyError) /\
    add_evals h1 [1%Z] [VS (Fin 99)] = (h2, Ok tt) /\
    add_evals h [1%Z] [VS (Fin 99)] = (h2', Ok tt) /\
    get_fvals_one h2' 0%Z = Ok [Fin 10] /\
    get_fvals_one h2 0%Z = Ok [Fin 10; Fin 99].
Proof.
  exists 0%R. do 4 eexists.
  splits; hcompute; reflexivity.
Qed.

(** C07 - the region query is exact and sorted (hence duplicate free). *)
Theorem C07_region_query_exact :
  forall ft pad d w ops h center radius,
    d <> 0 -> w <> 0 -> Forall (good_op ft d w) ops ->
    run (hist_init ft pad) ops = Some h ->
    (log_evals ops = [] -> get_x_indices_in_region h center radius = Ok []) /\
    (log_evals ops <> [] ->
     exists is, get_x_indices_in_region h center radius = Ok is /\
       StronglySorted lt is /\
       forall i, In i is <-> exists x, nth_error (log_xs ops) i = Some x /\
                              (sqrt (sumsq (map2 Rminus x center)) <= radius)%R).
Proof.
  intros ft pad d w ops h center radius Hd Hw Hg Hrun.
  destruct (run_rep ft pad d w ops h Hd Hw Hg Hrun) as [HR Hft].
  split.
  - intros HE. unfold get_x_indices_in_region. rewrite (rep_nfun _ _ _ _ _ HR), HE.
    reflexivity.
  - intros HE. exact (q_region _ _ _ _ _ center radius HR HE).
Qed.

(** C08 - model data. *)
Theorem C08_model_data_aligned :
  forall ft pad d w ops h is,
    d <> 0 -> w <> 0 -> Forall (good_op ft d w) ops ->
    run (hist_init ft pad) ops = Some h -> log_evals ops <> [] ->
    NoDup is -> Forall (fun i => i < length (log_xs ops)) is ->
    (exists xs fvecs, get_model_data h (map Z.of_nat is) true = Ok (xs, fvecs) /\
       length xs = length is /\ length fvecs = length is /\
       forall k i, nth_error is k = Some i ->
         nth_error xs k = nth_error (log_xs ops) i /\
         exists m, nth_error fvecs k = Some m /\
           length m = ft_w ft w /\
           forall j, j < ft_w ft w -> nth j m NaN =
             xdiv (fold_right xadd (Fin 0)
                     (map (fun v => nth j v NaN) (evals_of i (log_evals ops))))
                  (Fin (INR (length (evals_of i (log_evals ops)))))) /\
    (is <> [] ->
       get_model_data h (map Z.of_nat is) false
       = Ok (flat_map (fun i => map (fun _ => nth i (log_xs ops) [])
                                    (evals_of i (log_evals ops))) is,
             flat_map (fun i => evals_of i (log_evals ops)) is)).
Proof.
  intros ft pad d w ops h is Hd Hw Hg Hrun HE HN Hi.
  destruct (run_rep ft pad d w ops h Hd Hw Hg Hrun) as [HR Hft].
  split.
  - rewrite (q_model_data_avg _ _ _ _ _ is HR) by easy.
    do 2 eexists. split; [reflexivity|]. rewrite !map_length.
    split; [easy|]. split; [easy|].
    intros k i Hk. rewrite (map_nth_error _ _ _ Hk). split.
    + symmetry. apply nth_error_nth'. rewrite Forall_forall in Hi.
      apply Hi. eapply nth_error_In; eauto.
    + rewrite (map_nth_error _ _ _ Hk). eexists; split; [reflexivity|].
      unfold mean_rows. rewrite map_length, seq_length. split; [easy|].
      intros j Hj.
      rewrite (nth_indep _ NaN (xmean (col (evals_of i (log_evals ops)) 0)))
        by now rewrite map_length, seq_length.
      rewrite (map_nth (fun j => xmean (col (evals_of i (log_evals ops)) j))).
      rewrite seq_nth by easy. simpl. unfold xmean, col. rewrite map_length.
      f_equal.
  - intros Hne. now apply (q_model_data_raw _ _ _ _ _ is HR).
Qed.

(** C09 - full statement: as many xs as fvecs for every valid index list.
    True for duplicate-free lists: *)
Theorem C09_model_data_lengths_partial :
  forall ft pad d w ops h is,
    d <> 0 -> w <> 0 -> Forall (good_op ft d w) ops ->
    run (hist_init ft pad) ops = Some h -> log_evals ops <> [] ->
    NoDup is -> Forall (fun i => i < length (log_xs ops)) is ->
    exists xs fvecs, get_model_data h (map Z.of_nat is) true = Ok (xs, fvecs) /\
       length xs = length fvecs.
Proof.
  intros ft pad d w ops h is Hd Hw Hg Hrun HE HN Hi.
  destruct (C08_model_data_aligned ft pad d w ops h is Hd Hw Hg Hrun HE HN Hi)
    as [(xs & fvecs & H1 & H2 & H3 & _) _].
  exists xs, fvecs. split; [easy|congruence].
Qed.

Theorem C09_model_data_lengths_refuted :
  exists pad h xs fvecs,
    run (hist_init Scalar pad) c06_ops = Some h /\
    get_model_data h [0%Z; 0%Z] true = Ok (xs, fvecs) /\
    length xs = 2 /\ length fvecs = 1.
Proof.
  exists 0%R. do 3 eexists.
  split; [hcompute; reflexivity|].
  split; [hcompute; reflexivity|]. split; reflexivity.
Qed.

(** C99 - full statement: parameter vectors of a wrong length are rejected without effect.
    True unless the wrong length is one: *)
Theorem C99_wrong_length_x_rejected_partial :
  forall ft pad d w ops h x,
    d <> 0 -> w <> 0 -> Forall (good_op ft d w) ops ->
    run (hist_init ft pad) ops = Some h -> log_xs ops <> [] ->
    length x <> d -> length x <> 1 -> x <> [] ->
    add_xs h (X1 x) = (h, Err ValueError).
Proof.
  intros ft pad d w ops h x Hd Hw Hg Hrun HX H1 H2 H3.
  destruct (run_rep ft pad d w ops h Hd Hw Hg Hrun) as [HR Hft].
  unfold add_xs. cbn [rectangular forallb negb length Nat.eqb orb row_width].
  destruct (Nat.eqb_spec (length x) 0) as [Z0|_].
  { apply length_zero_iff_nil in Z0. contradiction. }
  unfold add_entries2.
  pose proof (rep_xs _ _ _ _ _ HR) as [G1 G2].
  destruct (h_xs h) as [b|]; [|simpl in G1; contradiction]. simpl alloc2.
  destruct (Nat.eqb_spec (length x) 0) as [Z0|_].
  { apply length_zero_iff_nil in Z0. contradiction. }
  simpl. unfold fit_row. rewrite G2.
  destruct (Nat.eqb_spec (length x) d); [contradiction|].
  destruct x as [|a [|c x]]; simpl in *; congruence.
Qed.

(** ... false for length one: the number is silently broadcast to a full vector. *)
Theorem C99_wrong_length_x_rejected_refuted :
  exists pad h h',
    run (hist_init Scalar pad) [OpXs (X1 [1%R; 2%R])] = Some h /\
    add_xs h (X1 [5%R]) = (h', Ok (IOne 1)) /\
    get_xs_one h' 1%Z = Ok [5%R; 5%R].
Proof.
  exists 0%R. do 2 eexists. splits; hcompute; reflexivity.
Qed.

(** * Non-trivial instances of the hypotheses *)

Definition ex_ops : list op :=
  [OpXs (X1 [1%R; 2%R]); OpEvals [0%Z] [VV [Fin 1; Fin 2; Fin 3]];
   OpXs (X2 [[3%R; 4%R]; [5%R; 6%R]]);
   OpEvals [2%Z; 0%Z; 2%Z] [VV [Fin 4; Fin 5; Fin 6]; VV [Fin 7; PInf; Fin 9];
                            VV [Fin 1; Fin 1; Fin 1]];
   OpXs (X2 [])].

Example ex_ops_good : Forall (good_op LeastSquares 2 3) ex_ops.
Proof. repeat constructor; simpl; try lia; discriminate. Qed.

Example ex_ops_run : exists h, run (hist_init LeastSquares 0%R) ex_ops = Some h /\
  get_fvecs_one h 2%Z = Ok [[Fin 4; Fin 5; Fin 6]; [Fin 1; Fin 1; Fin 1]] /\
  get_fvecs_one h 1%Z = Ok [].
Proof. eexists. splits; hcompute; reflexivity. Qed.

Example ex_C05 : exists h, run (hist_init LeastSquares 0%R) ex_ops = Some h /\
  add_evals h [3%Z] [VV [Fin 1; Fin 2; Fin 3]] = (h, Err ValueError) /\
  add_evals h [0%Z] [VV [Fin 1; Fin 2; Fin 3]; VV [Fin 1; Fin 2; Fin 3]] = (h, Err ValueError).
Proof. eexists. splits; hcompute; reflexivity. Qed.
