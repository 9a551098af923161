(** Properties C85-C89: the current point, stopping rules and the stagnation loops. *)
From Coq Require Import Reals List Arith ZArith Bool Lia Lra Sorting.Sorted.
From Verif Require Import Base XR Vec FVec HistoryModel HistorySpec HistoryProofs WrapModel WrapProofs
  VolumeModel RegionModel AdjustModel AcceptModel FilterModel LogSpec LogProofs Prop_Region
  Prop_Adjust AcceptProofs Prop_Accept Prop_Filter MainModel MainProofs MainPhases MainLoop
  MainProgress Prop_Main Prop_Main2.
Import ListNotations.
Open Scope nat_scope.

(** * C85 - the current point stays in the model *)

(** The radius of the trust region in which an iteration works. *)
Lemma radius_nonneg VM SM CV ft d w (K : components VM SM CV) O pad x r0 b h r :
  valid_run ft d w K O pad x r0 b h r -> (0 <= r0)%R ->
  (0 <= min_radius (radius_o O) <= max_radius (radius_o O))%R ->
  max_radius_to_step_ratio (radius_o O) = PInf ->
  forall k s, nth_error (res_states r) (S k) = Some s -> (0 <= r_radius (st_region s))%R.
Proof.
  intros V Hr HR HM [|k] s Hs.
  - open_run V. rewrite RS in Hs. change (nth_error (map snd l) 0 = Some s) in Hs.
    rewrite nth_error_map in Hs.
    destruct (nth_error l 0) as [[a ap]|] eqn:Hk; [|discriminate]. simpl in Hs. injection Hs as <-.
    destruct (chain_links _ _ _ _ _ _ _ _ CH _ _ _ Hk) as (c & LK & _).
    destruct (lk_ok _ _ _ _ _ _ _ _ LK) as [D HD]. rewrite (io_ap _ _ _ _ _ _ _ _ _ HD).
    cbn [update_state st_region]. destruct l as [|[a' ap'] l]; [discriminate|].
    injection Hk as <- <-. inversion CH; subst. cbn [n_st].
    now apply make_region_center in MR as (_ & -> & _).
  - pose proof (C82_radius_within_limits _ _ _ _ _ _ _ _ _ _ _ _ _ _ V (proj2 HR) HM k s Hs). lra.
Qed.

Definition uses_filter {VM SM CV} (K : components VM SM CV)
    (f : list vec -> list nat -> fstate -> Z -> res (list vec * list nat)) : Prop :=
  forall h st target n xs is,
    k_filter K h st target n xs is = f xs is (fstate_of st) target.

Lemma filters_keep VM SM CV (K : components VM SM CV) :
  uses_filter K (fun xs is _ _ => Ok (keep_all xs is)) \/
  uses_filter K (fun _ _ st _ => Ok (discard_all st)) \/
  (exists factor, (1 <= factor)%R /\
     uses_filter K (fun xs is st target => drop_excess xs is st target factor)) ->
  keeps_current K.
Proof.
  intros HK h st target n xs is xs' is' HL ND Ht Hr HI HF.
  destruct HK as [HK|[HK|(f & Hf & HK)]]; rewrite HK in HF.
  - now injection HF as <- <-.
  - injection HF as <- <-. simpl. auto.
  - unfold drop_excess in HF.
    set (k := Z.to_nat (Z.max 0 (Z.of_nat (length xs) - Int_part (IZR target * f)))) in *.
    assert (Hx : 0 < length xs).
    { destruct xs; [destruct HI|simpl; lia]. }
    assert (k < length xs).
    { unfold k. assert (1 <= Int_part (IZR target * f))%Z; [|lia].
      destruct (base_Int_part (IZR target * f)) as [B1 B2].
      assert (1 <= IZR target)%R by now apply (IZR_le 1).
      assert (1 <= IZR target * f)%R by nra.
      assert (0 < Int_part (IZR target * f))%Z; [|lia]. apply lt_IZR. lra. }
    exact (C49_current_point_is_kept (fstate_of st) xs is k xs' is' HL ND Hr H HI HF).
Qed.

(** [s] is the state at the start of an iteration (its accepted point is the current point of
    the iteration), [s'] the state it appends. *)
Theorem C85_current_point_in_model :
  forall VM SM CV ft d w (K : components VM SM CV) O pad x r0 b h r,
    valid_run ft d w K O pad x r0 b h r ->
    uses_filter K (fun xs is _ _ => Ok (keep_all xs is)) \/
    uses_filter K (fun _ _ st _ => Ok (discard_all st)) \/
    (exists factor, (1 <= factor)%R /\
       uses_filter K (fun xs is st target => drop_excess xs is st target factor)) ->
    (0 <= r0)%R -> (0 <= search_radius_factor O)%R -> (1 <= target_sample_size O)%Z ->
    (0 <= min_radius (radius_o O) <= max_radius (radius_o O))%R ->
    max_radius_to_step_ratio (radius_o O) = PInf ->
    forall k s s', nth_error (res_states r) k = Some s -> nth_error (res_states r) (S k) = Some s' ->
      In (st_index s) (st_model_indices s') /\
      forall h' idx xs fvecs old, In (EvFit h' idx xs fvecs old) (st_events s') -> In (st_index s) idx.
Proof.
  intros VM SM CV ft d w K O pad x r0 b h r V HF Hr0 Hs Ht HR HM k s s' H1 H2.
  pose proof (radius_nonneg _ _ _ _ _ _ _ _ _ _ _ _ _ _ V Hr0 HR HM k s' H2) as Hr.
  apply filters_keep in HF. open_run V. rewrite RS in H1, H2.
  destruct (consecutive _ _ _ _ _ st0 _ _ _ CH (agrees_refl _)) as [CS _].
  destruct (CS k s s' H1 H2) as (a & c & Hl & LK & (_ & G1 & _)).
  destruct (lk_ok _ _ _ _ _ _ _ _ LK) as [D HD].
  rewrite (io_ap _ _ _ _ _ _ _ _ _ HD) in *.
  cbn [update_state st_events st_region st_model_indices] in *. rewrite <- G1.
  destruct (io_cur _ _ _ _ _ _ _ _ _ HD Hr Hs Ht HF) as [C1 C2]. split; [easy|].
  intros h' idx xs fvecs old Hin. rewrite Forall_forall in C2. exact (C2 _ Hin).
Qed.

Example C85_instance : exists h r,
  valid_run Scalar 1 1 (ex_components (fun c => c / 2)%R (fun _ _ => Classic) center_sampler ex_crit)
    (ex_config 5 false true) 0 [3%R] 1 None h r /\ length (res_states r) = 6 /\
  uses_filter (ex_components (fun c => c / 2)%R (fun _ _ => Classic) center_sampler ex_crit)
    (fun xs is _ _ => Ok (keep_all xs is)).
Proof.
  destruct (ex_five (fun c => c / 2)%R None) as (h & r & V & L & _); cbn; auto.
  exists h, r. split; [easy|]. split; [easy|]. intros h' st target n xs is. reflexivity.
Qed.

(** * C86 - convergence *)

Lemma nth_map2_minus (x y : vec) i : length x = length y ->
  nth i (map2 Rminus x y) 0%R = (nth i x 0 - nth i y 0)%R.
Proof.
  revert y i. induction x as [|a x IH]; intros [|c y] [|i] L; simpl; try discriminate; try lra.
  apply IH. simpl in L. lia.
Qed.
Lemma norm2_fnorm (v : vec) : norm2 v = fnorm (length v) (fun i => nth i v 0%R).
Proof.
  unfold norm2, fnorm, fsq, fdot. f_equal.
  assert (G : forall (v : vec) k (g : nat -> R), (forall i, i < length v -> g (k + i) = nth i v 0%R) ->
    (bsum (k + length v) (fun i => g i * g i) = bsum k (fun i => g i * g i) + fold_right (fun a s => a * a + s) 0 v)%R).
  { clear. induction v as [|a v IH]; intros k g Hg; simpl.
    - rewrite Nat.add_0_r. lra.
    - replace (k + S (length v)) with (S k + length v) by lia. rewrite IH.
      + simpl. pose proof (Hg 0 ltac:(simpl; lia)) as H0. rewrite Nat.add_0_r in H0. rewrite H0. simpl. lra.
      + intros i Hi. replace (S k + i) with (k + S i) by lia. rewrite Hg; [reflexivity|simpl; lia]. }
  pose proof (G v 0 (fun i => nth i v 0%R) ltac:(auto)) as H. simpl in H. rewrite H. lra.
Qed.
Lemma nth_map2_rel (x y z : vec) i : length x = length y -> length z = length x ->
  nth i (map2 (fun a c => a / Rmax (Rabs c) 1)%R (map2 Rminus x y) z) 0%R
  = ((nth i x 0 - nth i y 0) / Rmax (Rabs (nth i z 0)) 1)%R.
Proof.
  assert (Z : (0 = 0 / Rmax (Rabs 0) 1)%R) by (unfold Rdiv; ring).
  revert y z i. induction x as [|a x IH]; intros [|c y] [|e z] [|i] L1 L2; simpl; try discriminate;
    rewrite ?Rminus_0_r; auto.
Qed.

(** The six documented criteria with their messages, in the order of their priority: [f0],
    [x0] belong to the last accepted point before the iteration, [f1], [x1] to the new one,
    [g] is the norm of the gradient of the current model. *)
Definition criteria (d : nat) (o : conv_options) (f0 f1 g : R) (x0 x1 : nat -> R)
    : list (message * Prop) :=
  [ (MsgGtolRel, g / Rmax g 1 <= gtol_rel o);
    (MsgGtolAbs, g <= gtol_abs o);
    (MsgFtolRel, Rabs (f0 - f1) / Rmax (Rabs f0) 1 <= ftol_rel o);
    (MsgFtolAbs, Rabs (f0 - f1) <= ftol_abs o);
    (MsgXtolRel, fnorm d (fun i => (x0 i - x1 i) / Rmax (Rabs (x0 i)) 1) <= xtol_rel o);
    (MsgXtolAbs, fnorm d (fun i => x0 i - x1 i) <= xtol_abs o) ]%R.

Lemma py_max1_fin a : py_max1 (Fin a) = Fin (Rmax a 1).
Proof.
  unfold py_max1, xgt, xlt. cbn. destruct (Rltb a 1) eqn:E.
  - apply Rltb_true in E. rewrite Rmax_right; [easy|lra].
  - apply Rltb_false in E. rewrite Rmax_left; [easy|lra].
Qed.
Lemma xdiv_max1 a c : xdiv (Fin a) (Fin (Rmax c 1)) = Fin (a / Rmax c 1).
Proof.
  unfold xdiv. pose proof (Rmax_r c 1). destruct (Reqb (Rmax c 1) 0) eqn:E; [|reflexivity].
  apply Reqb_true in E. lra.
Qed.

Theorem C86_convergence_criteria :
  forall VM SM CV (K : components VM SM CV) old new o d f0 f1 g,
    st_fval old = Fin f0 -> st_fval new = Fin f1 -> k_gnorm K (st_model new) = Fin g ->
    length (st_x old) = d -> length (st_x new) = d ->
    let crits := criteria d o f0 f1 g (fun i => nth i (st_x old) 0%R) (fun i => nth i (st_x new) 0%R) in
    (* converged exactly if some criterion holds *)
    (fst (is_converged K old new o) = true <-> exists m P, In (m, P) crits /\ P) /\
    (* the message is that of the first criterion that holds *)
    (forall i m P, nth_error crits i = Some (m, P) -> P ->
       (forall j m' P', j < i -> nth_error crits j = Some (m', P') -> ~ P') ->
       is_converged K old new o = (true, Some m)) /\
    (fst (is_converged K old new o) = false -> snd (is_converged K old new o) = None).
Proof.
  intros VM SM CV K old new o d f0 f1 g H0 H1 Hg L0 L1 crits.
  assert (N1 : norm2 (map2 Rminus (st_x old) (st_x new))
    = fnorm d (fun i => nth i (st_x old) 0 - nth i (st_x new) 0)%R).
  { rewrite norm2_fnorm, map2_length, L0, L1, Nat.min_id. unfold fnorm, fsq, fdot. f_equal.
    apply bsum_ext. intros i _. rewrite nth_map2_minus by congruence. reflexivity. }
  assert (N2 : norm2 (map2 (fun a c => a / Rmax (Rabs c) 1)%R (map2 Rminus (st_x old) (st_x new)) (st_x old))
    = fnorm d (fun i => (nth i (st_x old) 0 - nth i (st_x new) 0) / Rmax (Rabs (nth i (st_x old) 0)) 1)%R).
  { rewrite norm2_fnorm, !map2_length, L0, L1, !Nat.min_id. unfold fnorm, fsq, fdot. f_equal.
    apply bsum_ext. intros i _. rewrite nth_map2_rel by congruence. reflexivity. }
  unfold is_converged. rewrite H0, H1, Hg, N1, N2. cbn [xsub xadd xopp xabs].
  rewrite !py_max1_fin, !xdiv_max1. unfold xle.
  change (f0 + - f1)%R with (f0 - f1)%R.
  unfold crits, criteria.
  repeat match goal with |- context[Rleb ?a ?c] =>
    let E := fresh "E" in destruct (Rleb a c) eqn:E;
      [apply Rleb_true in E|apply Rleb_false in E] end.
  all: split; [|split; [|try discriminate; reflexivity]].
  all: try (split; [intros _; eexists _, _; split; [|eassumption]; simpl; tauto|reflexivity]).
  all: try (intros i m P Hn HP First;
    do 6 (destruct i as [|i]; [simpl in Hn; injection Hn as <- <-;
      first [reflexivity | exfalso; lra
            | exfalso; apply (First 0 _ _ ltac:(lia) eq_refl); assumption
            | exfalso; apply (First 1 _ _ ltac:(lia) eq_refl); assumption
            | exfalso; apply (First 2 _ _ ltac:(lia) eq_refl); assumption
            | exfalso; apply (First 3 _ _ ltac:(lia) eq_refl); assumption
            | exfalso; apply (First 4 _ _ ltac:(lia) eq_refl); assumption ]|]);
    destruct i; discriminate).
  split; [discriminate|]. intros (m & P & Hin & HP). exfalso. simpl in Hin.
  repeat destruct Hin as [Hin|Hin]; try easy; injection Hin as <- <-; lra.
Qed.

Lemma is_converged_msg VM SM CV (K : components VM SM CV) old new o m :
  is_converged K old new o = (true, m) -> exists m', m = Some m' /\ m' <> MsgMaxEval.
Proof.
  unfold is_converged. repeat (match goal with |- context[xle ?a ?b] => destruct (xle a b) end;
    [intros [= <-]; eexists; split; [reflexivity|discriminate]|]). discriminate.
Qed.

(** The loop reports convergence exactly when the last two states are an accepted step that
    meets a criterion, and it stops at the first such step; never if convergence checks are
    disabled. *)
Theorem C86_loop_reports_convergence :
  forall VM SM CV ft d w (K : components VM SM CV) O pad x r0 b h r,
    valid_run ft d w K O pad x r0 b h r ->
    (res_converged r = true -> disable (conv_o O) = false /\
       exists pre old new m, res_states r = pre ++ [old; new] /\ st_accepted new = true /\
         is_converged K old new (conv_o O) = (true, Some m) /\ res_message r = Some m) /\
    (disable (conv_o O) = false ->
     forall i old new, nth_error (res_states r) i = Some old ->
       nth_error (res_states r) (S i) = Some new -> st_accepted new = true ->
       fst (is_converged K old new (conv_o O)) = true ->
       res_converged r = true /\ length (res_states r) = S (S i)) /\
    (res_converged r = false -> res_message r = None \/ res_message r = Some MsgMaxEval).
Proof.
  intros VM SM CV ft d w K O pad x r0 b h r V. open_run V. split; [|split].
  - intros HC. destruct EN as [_ E|pre old new E1 E2 E3 E4 E5 E6|_ _ _ E]; try congruence.
    split; [easy|]. pose proof E5 as E5'. apply is_converged_msg in E5' as (m & Em & _).
    exists pre, old, new, m. rewrite <- Em. auto.
  - intros HD i old new H1 H2 HA HC.
    assert (Hl : S i < length (res_states r)) by (apply nth_error_Some; congruence).
    assert (C : forall P : Prop, P -> (P -> False) -> False) by auto.
    destruct (res_converged r) eqn:ER.
    + split; [easy|]. destruct (Nat.eq_dec (length (res_states r)) (S (S i))); [easy|].
      rewrite (NC i old new ltac:(left; lia) H1 H2 HA HD) in HC. discriminate.
    + rewrite (NC i old new ltac:(right; easy) H1 H2 HA HD) in HC. discriminate.
  - intros HC. destruct EN; auto; congruence.
Qed.

(** Two pairs of states: a step from 2 to 1 with values 4 and 1 does not meet any tolerance
    (all are 1/1000, the gradient has norm one); values 4 and 3.999 meet the relative and the
    absolute one, the former is reported. *)
Definition ex_state (f x : R) : state unit unit :=
  mkState (mkRegion [x] 1 None Sphere [x] [x]) [] tt tt 0 [x] 0 [x]
    (Fin f) (Fin 1) true [] [] [] None None None None [].
Example C86_instance :
  let K := ex_components (fun c => c / 2)%R (fun _ _ => Classic) center_sampler ex_crit in
  let o := conv_o (ex_config 5 false false) in
  fst (is_converged K (ex_state 4 2) (ex_state 1 1) o) = false /\
  is_converged K (ex_state 4 2) (ex_state (4 - 1/1000) 1) o = (true, Some MsgFtolRel).
Proof.
  cbv zeta. set (o := conv_o _). set (K := ex_components _ _ _ _).
  assert (M1 : Rmax 1 1 = 1%R) by (apply Rmax_left; lra).
  assert (M4 : Rmax (Rabs 4) 1 = 4%R) by (rewrite Rabs_right, Rmax_left; lra).
  assert (M2 : Rmax (Rabs 2) 1 = 2%R) by (rewrite Rabs_right, Rmax_left; lra).
  assert (N1 : forall a, (0 <= a)%R -> sqrt (0 + a * a) = a).
  { intros a Ha. rewrite Rplus_0_l. now apply sqrt_square. }
  split.
  - destruct (C86_convergence_criteria _ _ _ K (ex_state 4 2) (ex_state 1 1) o 1 4 1 1
      eq_refl eq_refl eq_refl eq_refl eq_refl) as ([C _] & _).
    destruct (fst (is_converged K (ex_state 4 2) (ex_state 1 1) o)); [|easy].
    destruct (C eq_refl) as (m & P & Hin & HP). exfalso. cbn [o ex_config conv_o criteria gtol_rel gtol_abs
      ftol_rel ftol_abs xtol_rel xtol_abs In] in Hin.
    rewrite M1, M4 in Hin. unfold fnorm, fsq, fdot in Hin. cbn [bsum nth ex_state st_x] in Hin.
    rewrite M2 in Hin. replace (4 - 1)%R with 3%R in Hin by lra. rewrite (Rabs_right 3) in Hin by lra.
    rewrite !N1 in Hin by lra.
    repeat destruct Hin as [Hin|Hin]; try easy; injection Hin as <- <-; lra.
  - destruct (C86_convergence_criteria _ _ _ K (ex_state 4 2) (ex_state (4 - 1/1000) 1) o 1 4 (4 - 1/1000) 1
      eq_refl eq_refl eq_refl eq_refl eq_refl) as (_ & C & _).
    assert (A : Rabs (4 - (4 - 1/1000)) = (1/1000)%R) by (rewrite Rabs_right; lra).
    eapply (C 2); [reflexivity| |].
    + rewrite A, M4. cbn. lra.
    + intros [|[|j]] m' P' Hj Hn; simpl in Hn; try lia; injection Hn as <- <-; rewrite ?M1; cbn; lra.
Qed.

(** * C87 - a reason for stopping *)

(** Without message the limit of iterations has been reached... *)
Theorem C87_message_partial :
  forall VM SM CV ft d w (K : components VM SM CV) O pad x r0 b h r,
    valid_run ft d w K O pad x r0 b h r ->
    (res_message r = None -> length (res_states r) = S (max_iter (stop_o O)) /\ res_converged r = false) /\
    (res_message r = Some MsgMaxEval -> (max_eval (stop_o O) <= Z.of_nat (get_n_fun h))%Z) /\
    (forall m, res_message r = Some m -> m <> MsgMaxEval -> res_converged r = true).
Proof.
  intros VM SM CV ft d w K O pad x r0 b h r V. open_run V.
  assert (LS : length (res_states r) = S (length l)) by (rewrite RS; simpl; now rewrite map_length).
  destruct EN as [E1 E2 E3|pre old new E1 E2 E3 E4 E5 E6|E1 E2 E3 E4]; rewrite LS.
  - repeat split; intros; congruence.
  - apply is_converged_msg in E5 as (m & -> & Hm). repeat split; intros; congruence.
  - repeat split; intros; congruence.
Qed.

Example C87_instance : exists h r,
  valid_run Scalar 1 1 (ex_components (fun c => c / 2)%R (fun _ _ => Classic) center_sampler ex_crit)
    (ex_config 5 false true) 0 [3%R] 1 None h r /\ res_message r = None.
Proof.
  destruct (ex_five (fun c => c / 2)%R None) as (h & r & V & _ & L & _); cbn; auto. eauto.
Qed.

(** ... and then no reason is reported, although the run has stopped. *)
Theorem C87_no_message_refuted :
  exists (K : components unit unit unit) O x h r,
    valid_run Scalar 1 1 K O 0 x 1 None h r /\ length (res_states r) = S (max_iter (stop_o O)) /\
    res_message r = None.
Proof.
  destruct (ex_five (fun c => c / 2)%R None) as (h & r & V & L & M & _); cbn; auto.
  do 5 eexists. split; [exact V|]. split; [exact L|exact M].
Qed.

(** * C88 - ignored options *)

Definition with_max_time (O : config) (t : xr) : config :=
  mkConfig (noisy O) (conv_o O) (mkStop (max_iter (stop_o O)) (max_eval (stop_o O)) t) (radius_o O)
    (noise_o O) (batch_size O) (target_sample_size O) (stag_o O) (search_radius_factor O)
    (n_evals_per_point0 O) (n_evals_at_start O) (min_improvement O).
Definition with_conv_radius (O : config) (m : R) : config :=
  let o := conv_o O in
  mkConfig (noisy O) (mkConv (disable o) (ftol_abs o) (gtol_abs o) (xtol_abs o) (ftol_rel o)
      (gtol_rel o) (xtol_rel o) m) (stop_o O) (radius_o O)
    (noise_o O) (batch_size O) (target_sample_size O) (stag_o O) (search_radius_factor O)
    (n_evals_per_point0 O) (n_evals_at_start O) (min_improvement O).

(** The whole run, with its final history, does not depend on stopping_max_time ... *)
Theorem C88_max_time_refuted :
  forall VM SM CV (K : components VM SM CV) O t ft pad x r0 b,
    tranquilo K (with_max_time O t) ft pad x r0 b = tranquilo K O ft pad x r0 b.
Proof. reflexivity. Qed.

(** ... nor on convergence_min_trust_region_radius ... *)
Theorem C88_min_trust_region_radius_refuted :
  forall VM SM CV (K : components VM SM CV) O m ft pad x r0 b,
    tranquilo K (with_conv_radius O m) ft pad x r0 b = tranquilo K O ft pad x r0 b.
Proof. reflexivity. Qed.

(** A run of five iterations within zero seconds, with a minimal radius of 1000 while the
    radius is one at the start. *)
Example C88_instance : exists h r,
  valid_run Scalar 1 1 (ex_components (fun c => c / 2)%R (fun _ _ => Classic) center_sampler ex_crit)
    (with_conv_radius (with_max_time (ex_config 5 false true) (Fin 0)) 1000) 0 [3%R] 1 None h r /\
  length (res_states r) = 6.
Proof.
  destruct (ex_five (fun c => c / 2)%R None) as (h & r & V & L & _); cbn; auto.
  exists h, r. split; [|easy]. destruct V. split; auto.
Qed.

(** * C89 - the stagnation loops *)

(** The log of every iteration consists of the search for points, one call of the sampler and
    a fit; then one fit for each point dropped, all with at least target_sample_size points;
    then at most max(1, max_trials) resampling trials, each of which asks the sampler of that
    trial for sample_increment points of the current trust region. *)
Theorem C89_stagnation_loops :
  forall VM SM CV ft d w (K : components VM SM CV) O pad x r0 b h r,
    valid_run ft d w K O pad x r0 b h r ->
    forall k s, nth_error (res_states r) (S k) = Some s ->
    exists h1 found h2 n xs fit evs2 evs3,
      st_events s = [EvFound h1 found; EvSample h2 n xs; fit] ++ evs2 ++ evs3 /\
      is_fit fit = true /\
      (forall e, In e evs2 -> exists h' idx ys fvecs old, e = EvFit h' idx ys fvecs old /\
         (target_sample_size O <= Z.of_nat (length idx))%Z) /\
      length (filter is_sample evs3) <= Nat.max 1 (max_trials (stag_o O)) /\
      (forall h' m ys, In (EvSample h' m ys) evs3 -> m = sample_increment (stag_o O) /\
         exists j model_xs, k_sample K k (S j) h' (st_region s) m model_xs = Ok ys).
Proof.
  intros VM SM CV ft d w K O pad x r0 b h r V k s Hs. open_run V.
  rewrite RS in Hs. change (nth_error (map snd l) k = Some s) in Hs. rewrite nth_error_map in Hs.
  destruct (nth_error l k) as [[a ap]|] eqn:Hk; [|discriminate]. simpl in Hs. injection Hs as <-.
  destruct (chain_links _ _ _ _ _ _ _ _ CH _ _ _ Hk) as (c & LK & _).
  assert (NT : n_t a = k).
  { clear -CH Hk. assert (G : forall i s0 l z, chain ft d w K O s0 l z -> forall a ap, nth_error l i = Some (a, ap) ->
      n_t a = i + n_t s0); [|now rewrite (G _ _ _ _ CH _ _ Hk), Nat.add_0_r].
    induction i as [|i IH]; intros s0 l0 z0 C a0 ap0 H; destruct C as [|s0 ap1 b1 l1 c1 LK C]; try discriminate.
    - now injection H as <- <-.
    - simpl in H. rewrite (IH _ _ _ C _ _ H), (lk_t _ _ _ _ _ _ _ _ LK). lia. }
  destruct (lk_ok _ _ _ _ _ _ _ _ LK) as [D HD]. rewrite (io_ap _ _ _ _ _ _ _ _ _ HD).
  cbn [update_state st_events st_region].
  pose proof (io_first _ _ _ _ _ _ _ _ _ HD) as FF.
  destruct (ff_events _ _ _ _ _ _ _ _ _ _ _ _ _ _ _ FF) as (h1 & xs & fv & o & E1).
  rewrite (io_events _ _ _ _ _ _ _ _ _ HD), E1.
  do 6 eexists. exists (i_evs2 D), (i_evs3 D). split; [reflexivity|]. split; [reflexivity|]. splits.
  - intros e He. pose proof (io_big _ _ _ _ _ _ _ _ _ HD) as B. rewrite Forall_forall in B.
    specialize (B _ He). destruct e; try easy. cbn in B. do 5 eexists. split; [reflexivity|exact B].
  - apply (io_trials _ _ _ _ _ _ _ _ _ HD).
  - intros h' m ys Hin. destruct (io_increment _ _ _ _ _ _ _ _ _ HD _ _ _ Hin) as (I1 & j & mx & I2).
    split; [easy|]. rewrite NT in I2. eauto.
Qed.

Example C89_instance : exists h r,
  valid_run Scalar 1 1 (ex_components (fun c => c / 2)%R (fun _ _ => Classic) center_sampler ex_crit)
    (ex_config 5 false true) 0 [3%R] 1 None h r /\ exists s, nth_error (res_states r) 5 = Some s.
Proof.
  destruct (ex_five (fun c => c / 2)%R None) as (h & r & V & L & _); cbn; auto. exists h, r. split; [easy|].
  destruct (nth_error (res_states r) 5) eqn:E; eauto. apply nth_error_None in E. lia.
Qed.
