(** Properties C10-C13: the wrapped criterion. *)
From Coq Require Import Reals List Arith ZArith Bool Lia Lra.
From Verif Require Import Base XR Vec HistoryModel HistorySpec HistoryProofs
  WrapModel WrapProofs VolumeModel RegionModel AdjustModel AcceptModel LogSpec.
Import ListNotations.
Open Scope nat_scope.

Lemma recorded_vec o : vec_of (clip_val (replace_traceback o)) = recorded o.
Proof. destruct o as [[[]|l]|]; simpl; auto. Qed.

Lemma promised_good ft w o : promised ft w o ->
  good_eval ft w (clip_val (replace_traceback o)).
Proof. destruct ft, o as [[]|]; simpl; try easy; intros; now rewrite map_length. Qed.

Lemma promised_homogeneous ft w outs : Forall (promised ft w) outs ->
  homogeneous (map (fun o => clip_val (replace_traceback o)) outs).
Proof.
  intros H. destruct ft.
  - left. apply Forall_map. eapply Forall_impl; [|exact H].
    intros [[]|]; simpl; easy.
  - right. apply Forall_map. eapply Forall_impl; [|exact H].
    intros [[]|]; simpl; easy.
  - right. apply Forall_map. eapply Forall_impl; [|exact H].
    intros [[]|]; simpl; easy.
Qed.

Lemma run_app h ops o h1 : run h ops = Some h1 -> run h (ops ++ [o]) = step h1 o.
Proof.
  revert h; induction ops as [|p ops IH]; simpl; intros h H.
  - injection H as ->. now destruct (step h1 o).
  - destruct (step h p); [auto|discriminate].
Qed.
Lemma log_xs_app o1 o2 : log_xs (o1 ++ o2) = log_xs o1 ++ log_xs o2.
Proof.
  induction o1 as [|[|] o1 IH]; simpl; auto. now rewrite IH, app_assoc.
Qed.
Lemma log_evals_app o1 o2 : log_evals (o1 ++ o2) = log_evals o1 ++ log_evals o2.
Proof.
  induction o1 as [|[|] o1 IH]; simpl; auto. now rewrite IH, app_assoc.
Qed.

(** C10 - exactly the requested evaluations are made and recorded.  The result is again
    the history of a call log, so C01-C08 apply to it. *)
Theorem C10_wrapped_criterion_exact :
  forall ft pad d w ops h batch n_cores info outs,
    d <> 0 -> w <> 0 -> Forall (good_op ft d w) ops ->
    run (hist_init ft pad) ops = Some h ->
    Forall (fun p => fst p < length (log_xs ops)) info ->
    let total := list_sum (map snd info) in
    let requested := flat_map (fun p => repeat (fst p) (snd p)) info in
    let args := flat_map (fun p => repeat (nth (fst p) (log_xs ops) []) (snd p)) info in
    0 < total ->
    batch args (Nat.min n_cores total) = Ok outs ->
    length outs = total -> Forall (promised ft w) outs ->
    exists h' ops',
      wrapped_criterion batch n_cores h (map (fun p => (Z.of_nat (fst p), snd p)) info)
        = (h', Ok tt, [(args, Nat.min n_cores total)]) /\
      length args = total /\
      get_n_fun h' = get_n_fun h + total /\
      run (hist_init ft pad) ops' = Some h' /\ Forall (good_op ft d w) ops' /\
      log_xs ops' = log_xs ops /\
      log_evals ops' = log_evals ops ++ combine requested (map recorded outs).
Proof.
  intros ft pad d w ops h batch n_cores info outs Hd Hw Hg Hrun Hi total requested args
    Hpos Hb HL Hp.
  destruct (run_rep ft pad d w ops h Hd Hw Hg Hrun) as [HR Hft].
  assert (Hne : info <> []) by (intros ->; simpl in *; unfold total in Hpos; simpl in *; lia).
  assert (Ea : args = map (fun i => nth i (log_xs ops) []) (expand info)).
  { unfold args, expand. clear. induction info as [|[i n] info IH]; simpl; auto.
    rewrite map_app, IH. f_equal. clear. induction n; simpl; auto. now f_equal. }
  assert (La : length args = total).
  { rewrite Ea, map_length. apply expand_length. }
  rewrite <- Hft in HR, Hp.
  destruct (wrapped_ok d w h (log_xs ops) (log_evals ops) batch n_cores info outs HR Hne Hi)
    as (h' & E1 & F1 & R1).
  - rewrite <- Ea, La. exact Hb.
  - rewrite <- Ea, La. exact HL.
  - eapply Forall_impl; [|exact Hp]. intros o Ho. now apply promised_good.
  - eapply promised_homogeneous. exact Hp.
  - exists h', (ops ++ [OpEvals (map Z.of_nat (expand info))
                               (map (fun o => clip_val (replace_traceback o)) outs)]).
    rewrite <- Ea, La in E1. split; [exact E1|]. split; [easy|].
    split.
    { unfold get_n_fun. rewrite (rep_nfun _ _ _ _ _ R1), (rep_nfun _ _ _ _ _ HR).
      rewrite app_length, combine_length, map_length, HL, expand_length. fold total. lia. }
    split.
    { rewrite (run_app _ _ _ _ Hrun). simpl.
      rewrite (wrapped_args _ _ _ _ _ _ _ _ HR Hne Hi) in E1. cbv zeta in E1.
      rewrite <- Ea, La, Hb in E1.
      destruct (add_evals h _ _) as [h1 r1]. injection E1 as -> ->. reflexivity. }
    split.
    { apply Forall_app. split; [easy|]. repeat constructor.
      - apply Forall_map, Forall_forall. intros. lia.
      - apply Forall_map. rewrite <- Hft. eapply Forall_impl; [|exact Hp].
        intros o Ho. now apply promised_good.
      - intros Hz. destruct outs; [reflexivity|]. exfalso.
        apply map_eq_nil in Hz. pose proof (expand_length _ info) as L.
        rewrite Hz in L. simpl in *. unfold total in *. lia. }
    split.
    { rewrite log_xs_app. simpl. now rewrite app_nil_r. }
    { rewrite log_evals_app. simpl. rewrite app_nil_r, map_Znat_id, map_map.
      f_equal. unfold requested. fold (expand info). f_equal.
      apply map_ext. intros. apply recorded_vec. }
Qed.

(** C10 - the empty request does nothing. *)
Theorem C10_empty_request_no_effect :
  forall batch n_cores h, wrapped_criterion batch n_cores h [] = (h, Ok tt, []).
Proof. reflexivity. Qed.

(** C11 - scalar criteria: whatever the batch returns or raises, the evaluation is stored,
    exceptions and NaN as +inf, everything else as it is; no NaN in the new entries. *)
Theorem C11_scalar_failures_become_inf :
  forall pad d ops h batch n_cores info outs,
    d <> 0 -> Forall (good_op Scalar d 1) ops ->
    run (hist_init Scalar pad) ops = Some h ->
    Forall (fun p => fst p < length (log_xs ops)) info ->
    let requested := flat_map (fun p => repeat (fst p) (snd p)) info in
    let args := flat_map (fun p => repeat (nth (fst p) (log_xs ops) []) (snd p)) info in
    0 < list_sum (map snd info) ->
    batch args (Nat.min n_cores (list_sum (map snd info))) = Ok outs ->
    length outs = list_sum (map snd info) ->
    Forall (fun o => o = Raised \/ exists x, o = Ret (VS x)) outs ->
    exists h' calls,
      wrapped_criterion batch n_cores h (map (fun p => (Z.of_nat (fst p), snd p)) info)
        = (h', Ok tt, calls) /\
      forall i, i < length (log_xs ops) ->
        exists new,
          get_fvals_one h' (Z.of_nat i)
            = Ok (map (spec_fval Scalar) (evals_of i (log_evals ops)) ++ new) /\
          ~ In NaN new /\
          new = map (fun o => match o with
                              | Ret (VS (Fin r)) => Fin r
                              | Ret (VS NInf) => NInf
                              | _ => PInf end)
                    (evals_of i (combine requested outs)).
Proof.
  intros pad d ops h batch n_cores info outs Hd Hg Hrun Hi requested args Hpos Hb HL Hp.
  assert (Hp' : Forall (promised Scalar 1) outs).
  { eapply Forall_impl; [|exact Hp]. intros o [->|[x ->]]; simpl; auto. }
  destruct (C10_wrapped_criterion_exact Scalar pad d 1 ops h batch n_cores info outs
              Hd ltac:(lia) Hg Hrun Hi Hpos Hb HL Hp')
    as (h' & ops' & E1 & La & N1 & R1 & G1 & LX & LE).
  exists h'. eexists. split; [exact E1|].
  intros i Hlt. rewrite <- LX in Hlt.
  assert (NE : log_evals ops' <> []).
  { intros H. rewrite H in LE. symmetry in LE. apply app_eq_nil in LE. destruct LE as [_ LE].
    assert (L0 : length (combine requested (map recorded outs)) = 0)
      by (fold requested in LE; rewrite LE; easy).
    rewrite combine_length, map_length, HL in L0.
    replace (length requested) with (list_sum (map snd info)) in L0; [lia|].
    symmetry. apply expand_length. }
  destruct (run_rep Scalar pad d 1 ops' h' Hd ltac:(lia) G1 R1) as [HR Hft].
  rewrite (q_fvals_one _ _ _ _ _ HR) by easy. rewrite Hft, LE.
  fold requested. eexists. split.
  { unfold evals_of at 1. rewrite filter_app, map_app, map_app. reflexivity. }
  fold (evals_of i (combine requested (map recorded outs))).
  assert (Q : map (spec_fval Scalar) (evals_of i (combine requested (map recorded outs)))
    = map (fun o => match o with
                              | Ret (VS (Fin r)) => Fin r
                              | Ret (VS NInf) => NInf
                              | _ => PInf end)
                    (evals_of i (combine requested outs))).
  { clear -Hp. generalize requested. induction Hp as [|o outs Ho _ IH]; intros [|r req];
      simpl; auto. unfold evals_of in *. simpl. destruct (r =? i); simpl; [|apply IH].
    rewrite IH. f_equal. destruct Ho as [->|[x ->]]; simpl; auto. now destruct x. }
  split.
  - fold (evals_of i (combine requested (map recorded outs))) in Q. 
    unfold evals_of in Q |- *. rewrite Q. rewrite in_map_iff. intros (o & H & _).
    destruct o as [[[]|]|]; discriminate.
  - exact Q.
Qed.

(** C12 - full statement: failures of vector-valued criteria are recorded as a penalty and
    the call succeeds.  It is false: as soon as a batch has at least two evaluations, any
    single failure makes the call raise ValueError - for every history and criterion. *)
Theorem C12_vector_failure_recorded_refuted :
  forall ft pad d w ops h batch n_cores info outs,
    ft <> Scalar ->
    d <> 0 -> w <> 0 -> Forall (good_op ft d w) ops ->
    run (hist_init ft pad) ops = Some h ->
    Forall (fun p => fst p < length (log_xs ops)) info ->
    let args := flat_map (fun p => repeat (nth (fst p) (log_xs ops) []) (snd p)) info in
    2 <= list_sum (map snd info) ->
    batch args (Nat.min n_cores (list_sum (map snd info))) = Ok outs ->
    length outs = list_sum (map snd info) -> In Raised outs ->
    exists calls,
    wrapped_criterion batch n_cores h (map (fun p => (Z.of_nat (fst p), snd p)) info)
    = (h, Err ValueError, calls).
Proof.
  intros ft pad d w ops h batch n_cores info outs Hs Hd Hw Hg Hrun Hi args H2 Hb HL HR0.
  destruct (run_rep ft pad d w ops h Hd Hw Hg Hrun) as [HR Hft].
  assert (Hne : info <> []) by (intros ->; simpl in *; lia).
  assert (Ea : args = map (fun i => nth i (log_xs ops) []) (expand info)).
  { unfold args, expand. clear. induction info as [|[i n] info IH]; simpl; auto.
    rewrite map_app, IH. f_equal. clear. induction n; simpl; auto. now f_equal. }
  assert (La : length args = list_sum (map snd info)).
  { rewrite Ea, map_length. apply expand_length. }
  fold (zinfo info).
  rewrite (wrapped_args _ _ _ _ _ _ _ _ HR Hne Hi). cbv zeta.
  rewrite <- Ea, La, Hb.
  rewrite (failing_vector_batch ft h _ _ PInf); auto.
  - eexists; reflexivity.
  - apply in_map_iff. exists Raised. auto.
  - rewrite map_length, expand_length. easy.
  - rewrite !map_length, expand_length. easy.
Qed.

(** A concrete instance: a least-squares criterion that fails at one of two points. *)
Example C12_witness :
  exists h, run (hist_init LeastSquares 0%R)
    [OpXs (X2 [[1%R]; [2%R]]); OpEvals [0%Z] [VV [Fin 1; Fin 2]]] = Some h /\
  wrapped_criterion (fun args _ => Ok [Ret (VV [Fin 3; Fin 4]); Raised]) 1 h
     [(0%Z, 1); (1%Z, 1)]
  = (h, Err ValueError, [([[1%R]; [2%R]], 1)]).
Proof. eexists. split; hcompute; reflexivity. Qed.

(** What remains true: a batch consisting of a single failing evaluation is recorded, once
    vectors are in the history, as a vector of +inf with value +inf (numpy broadcasting). *)
Theorem C12_vector_failure_recorded_partial :
  forall ft pad d w ops h batch n_cores i,
    ft <> Scalar ->
    d <> 0 -> w <> 0 -> Forall (good_op ft d w) ops ->
    run (hist_init ft pad) ops = Some h ->
    log_evals ops <> [] -> i < length (log_xs ops) ->
    batch [nth i (log_xs ops) []] (Nat.min n_cores 1) = Ok [Raised] ->
    exists h' calls,
      wrapped_criterion batch n_cores h [(Z.of_nat i, 1)] = (h', Ok tt, calls) /\
      get_fvecs_one h' (Z.of_nat i)
        = Ok (evals_of i (log_evals ops) ++ [repeat PInf w]) /\
      get_fvals_one h' (Z.of_nat i)
        = Ok (map (spec_fval ft) (evals_of i (log_evals ops)) ++ [PInf]).
Proof.
  intros ft pad d w ops h batch n_cores i Hs Hd Hw Hg Hrun HE Hi Hb.
  destruct (run_rep ft pad d w ops h Hd Hw Hg Hrun) as [HR Hft].
  assert (Ww : ft_w ft w = w) by (destruct ft; easy). rewrite Ww in HR.
  pose proof (wrapped_args d w h (log_xs ops) (log_evals ops) batch n_cores [(i, 1)] HR
                ltac:(discriminate) ltac:(constructor; auto)) as EQ.
  change [(Z.of_nat i, 1)] with (zinfo [(i, 1)]). rewrite EQ. clear EQ.
  cbv zeta. cbn [expand flat_map repeat fst snd app map length]. rewrite Hb.
  cbn [map replace_traceback clip_val nan_to_inf].
  set (E := log_evals ops) in *. set (X := log_xs ops) in *.
  (* the call stores a broadcast row *)
  assert (AE : exists h', add_evals h [Z.of_nat i] [VS PInf] = (h', Ok tt) /\
     Rep d w h' X (E ++ [(i, repeat PInf w)]) /\ h_ft h' = ft).
  { unfold add_evals. rewrite (rep_nxs _ _ _ _ _ HR). simpl forallb.
    destruct (Z.ltb_spec (Z.of_nat i) (Z.of_nat (length X))); [|lia].
    cbn [andb negb length Nat.eqb].
    assert (TF : to_fvecs (h_ft h) [VS PInf] = Ok (1, [[PInf]])).
    { rewrite Hft. destruct ft; easy. }
    rewrite TF. cbn [length Nat.eqb negb].
    pose proof (rep_fvecs _ _ _ _ _ HR) as [G1 G2].
    destruct (h_fvecs h) as [b|] eqn:Eb.
    2: { simpl in G1. destruct E; [easy|discriminate]. }
    (* compare with storing the full row *)
    destruct (add_entries2_holds xr NaN (Some b) (map snd E) [repeat PInf w] w Hw
                (conj G1 G2)) as (b' & Eb' & Hb').
    { constructor; [apply repeat_length|constructor]. }
    rewrite map_length in Eb'.
    assert (EB2 : add_entries2 NaN (Some b) 1 [[PInf]] (h_nfun h) = Ok b').
    { rewrite <- Eb', (rep_nfun _ _ _ _ _ HR). unfold add_entries2.
      cbn [alloc2 mapM length Nat.eqb].
      destruct (Nat.eqb_spec w 0); [easy|].
      unfold fit_row. rewrite repeat_length, G2, Nat.eqb_refl.
      cbn [length]. destruct (Nat.eqb_spec 1 w); [rewrite <- e; easy|easy]. }
    rewrite EB2.
    assert (AG : aggregate (h_ft h) [[PInf]] = [PInf]).
    { rewrite Hft. destruct ft; easy. }
    rewrite AG.
    pose proof (add_entries1_holds xr NaN (h_fvals h) _ [PInf]
                  (rep_fvals _ _ _ _ _ HR)) as HV.
    rewrite !map_length in HV.
    destruct (map_append_all_ok (h_map h) [Z.of_nat i] (h_nfun h) 1) as (m & Em & Lm & Nm).
    { rewrite (rep_lenm _ _ _ _ _ HR). constructor; [lia|constructor]. }
    { easy. }
    rewrite Em. eexists. split; [reflexivity|]. split; [|simpl; exact Hft].
    assert (SV : spec_fval (h_ft h) (repeat PInf w) = PInf).
    { rewrite Hft. destruct w as [|w']; [easy|]. destruct ft; [easy| |]; simpl.
      - clear. induction w'; simpl; auto. now rewrite IHw'.
      - clear. induction w'; simpl; auto. now rewrite IHw'. }
    destruct HR. constructor; simpl; auto.
    - rewrite app_length. simpl. lia.
    - rewrite map_app. exact Hb'.
    - rewrite !map_app. simpl map. rewrite SV, rep_nfun. exact HV.
    - lia.
    - intros j Hj. rewrite (Nm _ [repeat PInf w] j) by easy.
      rewrite rep_map by easy. simpl map. rewrite Nat2Z.id.
      rewrite pos_from_app, rep_nfun. easy.
    - apply Forall_app. split; auto. constructor; [apply repeat_length|constructor].
    - apply Forall_app. split; auto. }
  destruct AE as (h' & E1 & R1 & F1). rewrite E1.
  exists h'. eexists. split; [reflexivity|].
  assert (NE : E ++ [(i, repeat PInf w)] <> []) by now destruct E.
  rewrite (q_fvecs_one _ _ _ _ _ R1) by easy.
  rewrite (q_fvals_one _ _ _ _ _ R1) by easy.
  assert (EO : evals_of i (E ++ [(i, repeat PInf w)]) = evals_of i E ++ [repeat PInf w]).
  { unfold evals_of. rewrite filter_app, map_app. simpl. now rewrite Nat.eqb_refl. }
  rewrite EO, map_app. split; [easy|]. rewrite F1. f_equal. f_equal. simpl.
  f_equal. destruct w as [|w']; [easy|]. destruct ft; [easy| |]; simpl.
  - clear. induction w'; simpl; auto. now rewrite IHw'.
  - clear. induction w'; simpl; auto. now rewrite IHw'.
Qed.

(** C13 - full statement: no NaN among the values if there is none among the evaluations.
    True for scalar and least-squares functions, and for likelihoods whose contributions
    do not contain infinities of both signs. *)
Theorem C13_fvals_not_nan_partial :
  forall ft v, ~ In NaN v -> v <> [] ->
    (ft = Likelihood -> ~ (In PInf v /\ In NInf v)) ->
    spec_fval ft v <> NaN.
Proof.
  intros ft v Hn Hne HL. destruct ft; simpl.
  - destruct v; [easy|]. simpl in *. intros ->. apply Hn. now left.
  - specialize (HL eq_refl).
    assert (G : forall v, ~ In NaN v -> ~ (In PInf v /\ In NInf v) ->
       let s := fold_right xadd (Fin 0) v in
       s <> NaN /\ (s = PInf -> In PInf v) /\ (s = NInf -> In NInf v)).
    { clear. induction v as [|a v IH]; simpl; intros H1 H2.
      - repeat split; discriminate.
      - destruct IH as (I1 & I2 & I3); [tauto|tauto|].
        destruct a, (fold_right xadd (Fin 0) v); simpl;
          repeat split; intros; try discriminate; try tauto; exfalso; tauto. }
    now apply G.
  - assert (G : forall v, ~ In NaN v ->
       let s := fold_right (fun x s => xadd (xmul x x) s) (Fin 0) v in
       s <> NaN /\ s <> NInf).
    { clear. induction v as [|a v IH]; simpl; intros H1.
      - split; discriminate.
      - destruct IH as (I1 & I2); [tauto|].
        destruct a, (fold_right (fun x s => xadd (xmul x x) s) (Fin 0) v); simpl;
          split; try discriminate; try congruence; tauto. }
    now apply G.
Qed.

(** ... false for likelihoods: contributions +inf and -inf give a stored NaN. *)
Theorem C13_fvals_not_nan_refuted :
  exists h h' calls,
    run (hist_init Likelihood 0%R) [OpXs (X1 [1%R])] = Some h /\
    wrapped_criterion (fun _ _ => Ok [Ret (VV [PInf; NInf])]) 1 h [(0%Z, 1)]
      = (h', Ok tt, calls) /\
    get_fvals_one h' 0%Z = Ok [NaN] /\ get_fvecs_one h' 0%Z = Ok [[PInf; NInf]].
Proof. do 3 eexists. splits; hcompute; reflexivity. Qed.

(** Non-trivial instance of the hypotheses of C10/C11. *)
Example ex_C10 :
  let batch := fun (args : list (list R)) (n : nat) =>
     Ok [Ret (VS (Fin 3)); Raised; Ret (VS NaN)] in
  exists h, run (hist_init Scalar 0%R) [OpXs (X2 [[1%R]; [2%R]])] = Some h /\
  exists h', wrapped_criterion batch 4 h [(1%Z, 2); (0%Z, 1)]
    = (h', Ok tt, [([[2%R]; [2%R]; [1%R]], 3)]) /\
  get_fvals_one h' 1%Z = Ok [Fin 3; PInf] /\ get_fvals_one h' 0%Z = Ok [PInf].
Proof.
  eexists. split; [hcompute; reflexivity|]. eexists.
  splits; hcompute; reflexivity.
Qed.
