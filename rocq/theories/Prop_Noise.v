(** Properties of the simulation of rho under noise (rho_noise.py). *)
From Coq Require Import Reals List Arith ZArith Bool Lia Lra.
From Verif Require Import Base XR Vec FVec VolumeModel RegionModel ModelsModel SubproblemModel AcceptModel
  AdjustModel NoiseModel Prop_Region Prop_Subproblem.
Import ListNotations.
Open Scope R_scope.

Lemma blocks_length {A} k n (l : list A) : length (blocks k n l) = k.
Proof. revert l; induction k as [|k IH]; intros l; simpl; [easy|]. now rewrite IH. Qed.

Lemma nth_error_blocks {A} k n (l : list A) d : (d < k)%nat ->
  nth_error (blocks k n l) d = Some (firstn n (skipn (d * n) l)).
Proof.
  revert l d; induction k as [|k IH]; intros l d H; [lia|]. destruct d as [|d]; [reflexivity|].
  simpl blocks. simpl nth_error. rewrite IH by lia. f_equal. f_equal.
  assert (SK : forall a (k : list A), skipn (d * n) (skipn a k) = skipn (a + d * n) k).
  { induction a as [|a IHa]; intros k'; [reflexivity|]. destruct k'; [now rewrite !skipn_nil|]. apply IHa. }
  apply SK.
Qed.

(** * C124 *)

(** C124 - there is one rho per draw; draw [d] uses rows [d * n_samples] to
    [(d + 1) * n_samples - 1] of the noise, added to the values of the vector model at the
    sample points, and nothing else of the noise. *)
Theorem C124_one_rho_per_draw :
  forall fit agg sub normal k ig xs vm old reg cov rhos,
    simulate_rho_noise fit agg sub normal k ig xs vm old reg cov = Ok rhos ->
    length rhos = k /\
    exists M, agg vm = Ok M /\
    forall d, (d < k)%nat ->
      let noise := normal (if ig then diag_diag cov else cov) (k * length xs)%nat in
      let draw := firstn (length xs) (skipn (d * length xs) noise) in
      exists vm' M' s,
        fit xs (map2 (map2 Rplus)
                  (map (fun x => map (predict_vector vm (fun_of (map_to_unit reg x))) (seq 0 (vm_m vm))) xs)
                  draw) reg old = Ok vm' /\
        agg vm' = Ok M' /\ sub M' reg = Ok s /\
        nth_error rhos d = Some (calculate_rho
          (xsub (predict_x M (xmap_to_unit reg (r_center reg))) (predict_x M (s_x_unit s)))
          (s_improvement s)).
Proof.
  intros fit agg sub normal k ig xs vm old reg cov rhos H.
  unfold simulate_rho_noise in H. destruct (agg vm) as [M|] eqn:EM; [|discriminate]. cbn [bind] in H.
  split.
  - rewrite (mapM_ok_length _ _ H). apply blocks_length.
  - exists M. split; [easy|]. intros d Hd. cbv zeta.
    apply mapM_ok_Forall2 in H.
    set (noise := normal _ _) in *.
    pose proof (nth_error_blocks k (length xs) noise d Hd) as B.
    assert (F : exists rho, nth_error rhos d = Some rho /\
      one_draw fit agg sub xs (true_fvecs vm reg xs) M
        (predict_x M (xmap_to_unit reg (r_center reg))) old reg
        (firstn (length xs) (skipn (d * length xs) noise)) = Ok rho).
    { clear Hd. set (bl := firstn (length xs) (skipn (d * length xs) noise)) in *. clearbody bl.
      set (bs := blocks k (length xs) noise) in *. clearbody bs. clear -H B. revert d B. induction H as [|a rho l rs E _ IH]; intros [|d] B; try discriminate.
      - injection B as <-. exists rho. easy.
      - apply IH in B. exact B. }
    destruct F as (rho & Er & F). rewrite Er. unfold one_draw in F.
    destruct (fit _ _ _ _) as [vm'|] eqn:E1; [|discriminate]. cbn [bind] in F.
    destruct (agg vm') as [M'|] eqn:E2; [|discriminate]. cbn [bind] in F.
    destruct (sub M' reg) as [s|] eqn:E3; [|discriminate]. cbn [bind] in F.
    exists vm', M', s. split; [easy|]. split; [easy|]. split; [easy|].
    injection F as <-. f_equal. f_equal.
    destruct (predict_x M (s_x_unit s)), (predict_x M (xmap_to_unit reg (r_center reg)));
      try reflexivity. simpl. f_equal. lra.
Qed.

(** * C125 *)

(** C125 - with ignore_corelation (the default) only the variances matter. *)
Theorem C125_only_variances :
  forall fit agg sub normal k xs vm old reg cov cov',
    length cov = length cov' ->
    (forall i, (i < length cov)%nat -> nth i (nth i cov []) 0 = nth i (nth i cov' []) 0) ->
    simulate_rho_noise fit agg sub normal k true xs vm old reg cov
    = simulate_rho_noise fit agg sub normal k true xs vm old reg cov'.
Proof.
  intros fit agg sub normal k xs vm old reg cov cov' L E. unfold simulate_rho_noise.
  replace (diag_diag cov') with (diag_diag cov); [easy|]. unfold diag_diag. rewrite <- L.
  apply map_ext_in. intros i Hi. apply map_ext_in. intros j Hj. apply in_seq in Hi.
  destruct (Nat.eqb_spec i j) as [<-|]; [|easy]. apply E. lia.
Qed.

(** C125 - the matrix handed to the generator is diagonal and has the variances of the
    given matrix on its diagonal. *)
Theorem C125_diagonal :
  forall cov i j, (i < length cov)%nat -> (j < length cov)%nat ->
    nth j (nth i (diag_diag cov) []) 0 = if (i =? j)%nat then nth i (nth i cov []) 0 else 0.
Proof.
  intros cov i j Hi Hj. unfold diag_diag.
  rewrite (nth_indep _ _ (map (fun j => if (0 =? j)%nat then nth j (nth 0 cov []) 0 else 0) (seq 0 (length cov))))
    by now rewrite map_length, seq_length.
  rewrite (map_nth (fun i => map (fun j => if (i =? j)%nat then nth j (nth i cov []) 0 else 0) (seq 0 (length cov)))).
  rewrite seq_nth by easy. simpl Nat.add.
  rewrite (nth_indep _ _ (if (i =? 0)%nat then nth 0 (nth i cov []) 0 else 0))
    by now rewrite map_length, seq_length.
  rewrite (map_nth (fun j => if (i =? j)%nat then nth j (nth i cov []) 0 else 0)).
  rewrite seq_nth by easy. simpl Nat.add. destruct (Nat.eqb_spec i j) as [->|]; easy.
Qed.

(** * C126 *)

(** No noise: a zero covariance matrix, for which the generator draws zeros. *)
Definition zero_noise (normal : normal_oracle) (m : nat) (cov : list (list R)) : Prop :=
  cov = repeat (repeat 0 m) m /\
  forall size, normal cov size = repeat (repeat 0 m) size.

Lemma diag_diag_zero m : diag_diag (repeat (repeat 0 m) m) = repeat (repeat 0 m) m.
Proof.
  unfold diag_diag. rewrite repeat_length.
  assert (Z : forall i j, nth j (nth i (repeat (repeat 0 m) m) []) 0 = 0).
  { intros i j. destruct (nth_in_or_default i (repeat (repeat 0 m) m) []) as [H|H].
    - apply repeat_spec in H. rewrite H. apply nth_repeat.
    - rewrite H. now destruct j. }
  assert (G : forall (A : Type) (f : nat -> A) a k s, (forall i, f i = a) -> map f (seq s k) = repeat a k).
  { intros A f a k. induction k as [|k IH]; intros s E; simpl; [easy|]. now rewrite E, IH. }
  apply G. intros i. apply G. intros j. rewrite Z. now destruct (i =? j)%nat.
Qed.

Lemma blocks_repeat {A} (a : A) k n : blocks k n (repeat a (k * n)) = repeat (repeat a n) k.
Proof.
  induction k as [|k IH]; [reflexivity|]. simpl Nat.mul. rewrite repeat_app. simpl.
  assert (F : forall x y : list A, length x = n -> firstn n (x ++ y) = x /\ skipn n (x ++ y) = y).
  { clear IH. intros x y <-. split; [induction x; simpl; [reflexivity|now f_equal]|now induction x]. }
  destruct (F (repeat a n) (repeat a (k * n))) as [-> ->]; [apply repeat_length|]. now rewrite IH.
Qed.

Lemma map2_plus_zero m (l : list R) : length l = m -> map2 Rplus l (repeat 0 m) = l.
Proof.
  intros <-. induction l as [|a l IH]; [reflexivity|]. simpl. rewrite IH. f_equal. lra.
Qed.
Lemma add_zero_noise vm reg xs :
  map2 (map2 Rplus) (true_fvecs vm reg xs) (repeat (repeat 0 (vm_m vm)) (length xs))
  = true_fvecs vm reg xs.
Proof.
  induction xs as [|x xs IH]; [reflexivity|]. unfold true_fvecs in *. cbn [map length repeat map2]. rewrite IH. f_equal.
  apply map2_plus_zero. now rewrite map_length, seq_length.
Qed.

(** The two models are the same function. *)
Definition same_function (n : nat) (M M' : smodel) : Prop :=
  sm_n M = n /\ sm_n M' = n /\
  forall v, length v = n -> predict_scalar M (fun_of v) = predict_scalar M' (fun_of v).

(** C126 - without noise, if the fitter reproduces the model from its values at the sample,
    all simulated rhos are equal to one, unless the subsolver does not find an improvement:
    then they are minus infinity. *)
Theorem C126_without_noise_rho_is_one :
  forall fit agg ss cs fs fc retry normal k ig xs vm old c r b reg cov M vm' M' rhos,
    proper_region c r b reg ->
    zero_noise normal (vm_m vm) cov ->
    agg vm = Ok M ->
    fit xs (map (fun x => map (predict_vector vm (fun_of (map_to_unit reg x))) (seq 0 (vm_m vm))) xs)
        reg old = Ok vm' ->
    agg vm' = Ok M' -> same_function (length c) M M' ->
    (forall rw, delivered M' reg ss cs fs fc retry rw ->
       exists v, raw_x rw = map Fin v /\ length v = length c) ->
    (0 < k)%nat ->
    simulate_rho_noise fit agg (fun m g => solve_subproblem m g ss cs fs fc retry) normal
      k ig xs vm old reg cov = Ok rhos ->
    exists s, solve_subproblem M' reg ss cs fs fc retry = Ok s /\
      ((s_improvement s = Fin 0 /\ rhos = repeat NInf k) \/
       (exists e, s_improvement s = Fin e /\ 0 < e /\ rhos = repeat (Fin 1) k)).
Proof.
  intros fit agg ss cs fs fc retry normal k ig xs vm old c r b reg cov M vm' M' rhos
    P (EZ & Z) EM EF EM' (N & N' & SF) FIN Hk H.
  unfold simulate_rho_noise in H. rewrite EM in H. cbn [bind] in H.
  assert (EC : (if ig then diag_diag cov else cov) = cov).
  { destruct ig; [|easy]. rewrite EZ. apply diag_diag_zero. }
  rewrite EC, Z, blocks_repeat in H.
  set (tf := true_fvecs vm reg xs) in *.
  set (zero_draw := repeat (repeat 0 (vm_m vm)) (length xs)) in *.
  assert (SOL : exists s, solve_subproblem M' reg ss cs fs fc retry = Ok s).
  { destruct k as [|k]; [lia|]. simpl in H. unfold one_draw at 1 in H.
    rewrite (add_zero_noise vm reg xs : map2 (map2 Rplus) tf zero_draw = tf) in H.
    unfold tf, true_fvecs in H. rewrite EF in H. cbn [bind] in H. rewrite EM' in H. cbn [bind] in H.
    destruct (solve_subproblem M' reg ss cs fs fc retry) as [s|e]; [eauto|discriminate]. }
  destruct SOL as [s ES]. exists s. split; [easy|].
  assert (RH : rhos = repeat (calculate_rho
      (xopp (xsub (predict_x M (s_x_unit s)) (predict_x M (xmap_to_unit reg (r_center reg)))))
      (s_improvement s)) k).
  { clear Hk. revert rhos H. induction k as [|k IH]; intros rhos H; simpl in H.
    - now injection H as <-.
    - unfold one_draw at 1 in H.
      rewrite (add_zero_noise vm reg xs : map2 (map2 Rplus) tf zero_draw = tf) in H.
      unfold tf at 1 in H. unfold true_fvecs in H at 1. rewrite EF in H. cbn [bind] in H.
      rewrite EM' in H. cbn [bind] in H. rewrite ES in H. cbn [bind] in H.
      destruct (mapM _ _) as [rest|] eqn:ER; [|discriminate]. cbn [bind] in H. injection H as <-.
      rewrite (IH rest eq_refl). reflexivity. }
  clear H. destruct (old_unit c r b reg P) as (v0 & Ev & Lv & _ & _).
  apply solve_cases in ES as (rw & DV & H). cbv zeta in H.
  destruct (FIN rw DV) as (w & Ew & Lw). rewrite Ev in RH, H.
  assert (Y : exists y, match r_shape reg with Sphere => raw_x rw
                     | Cube => map (fun a => xclip a (Fin (-1)) (Fin 1)) (raw_x rw) end = map Fin y
                     /\ length y = length c).
  { rewrite Ew. destruct (r_shape reg); [eauto|].
    exists (map (fun a => Rmin 1 (Rmax a (-1))) w). rewrite !map_map, map_length. split; [|easy].
    apply map_ext. intros a. destruct (xclip_range (Fin a)) as (q & Eq & _); [easy|].
    rewrite Eq. f_equal. unfold xclip, xmin, xmax in Eq. cbn in Eq.
    unfold Rmin, Rmax, Rleb in *. repeat destruct Rle_dec; cbn in Eq; try (injection Eq as <-); try lra.
    all: unfold Rltb, Rleb in Eq; repeat destruct Rle_dec; repeat destruct Rlt_dec; cbn in Eq; injection Eq as <-; lra. }
  destruct Y as (y & Ey & Ly). rewrite Ey in H.
  rewrite !predict_x_fin in H by lia. rewrite (predict_x_fin M v0) in RH by lia.
  destruct H as (_ & _ & [(X & _ & EI & _ & EX)|(_ & _ & EI & _ & EX)]).
  - rewrite EX, EI in RH. rewrite predict_x_fin in RH by lia.
    rewrite <- !SF in * by lia. rewrite EI.
    set (a := predict_scalar M (fun_of y)) in *. set (a0 := predict_scalar M (fun_of v0)) in *.
    cbn [xsub xopp xadd] in *. cbn [xle] in X. apply Rleb_true in X.
    destruct (Req_dec (- (a + - a0)) 0) as [E0|N0].
    + left. split; [now rewrite E0|]. rewrite RH. f_equal. unfold calculate_rho. rewrite E0.
      cbn [xeq xgt xlt]. destruct (Reqb_spec 0 0); [|lra]. destruct (Rltb_spec 0 0); [lra|]. easy.
    + right. exists (- (a + - a0)). split; [easy|]. split; [lra|]. rewrite RH. f_equal.
      unfold calculate_rho. cbn [xeq]. destruct (Reqb_spec (- (a + - a0)) 0); [lra|]. cbn [andb].
      rewrite xdiv_fin by easy. f_equal. field. lra.
  - left. split; [easy|]. rewrite RH, EI, EX. rewrite predict_x_fin by lia.
    f_equal. unfold calculate_rho. cbn [xsub xopp xadd xeq xgt xlt].
    destruct (Reqb_spec 0 0); [|lra].
    destruct (Rltb_spec 0 (- (predict_scalar M (fun_of v0) + - predict_scalar M (fun_of v0)))); [lra|easy].
Qed.

(** * C127 *)

Lemma share_above_all t a k : (0 < k)%nat -> xgt a (Fin t) = true -> share_above t (repeat a k) = Fin 1.
Proof.
  intros Hk H. unfold share_above. rewrite repeat_length.
  assert (E : length (filter (fun r => xgt r (Fin t)) (repeat a k)) = k).
  { clear Hk. induction k as [|k IH]; [easy|]. cbn [repeat filter]. rewrite H. cbn [length]. now rewrite IH. }
  rewrite E. assert (INR k <> 0) by (apply not_0_INR; lia). rewrite xdiv_fin by easy.
  f_equal. now field.
Qed.
Lemma share_above_none t a k : (0 < k)%nat -> xgt a (Fin t) = false -> share_above t (repeat a k) = Fin 0.
Proof.
  intros Hk H. unfold share_above. rewrite repeat_length.
  assert (E : length (filter (fun r => xgt r (Fin t)) (repeat a k)) = 0%nat).
  { clear Hk. induction k as [|k IH]; [easy|]. cbn [repeat filter]. now rewrite H. }
  rewrite E. assert (INR k <> 0) by (apply not_0_INR; lia). rewrite xdiv_fin by easy.
  f_equal. simpl. now field.
Qed.

(** C127 - without noise and with a reproducing fitter, the number of evaluations per point is
    decreased (down to its minimum), provided the subsolver improves the simulated model.
    Missing: the other case, in which it is increased (below). *)
Theorem C127_noise_free_decrease_partial :
  forall fit agg ss cs fs fc retry normal k ig xs vm old c r b reg cov M vm' M' rhos o n_evals rho s,
    proper_region c r b reg ->
    zero_noise normal (vm_m vm) cov ->
    agg vm = Ok M ->
    fit xs (map (fun x => map (predict_vector vm (fun_of (map_to_unit reg x))) (seq 0 (vm_m vm))) xs)
        reg old = Ok vm' ->
    agg vm' = Ok M' -> same_function (length c) M M' ->
    (forall rw, delivered M' reg ss cs fs fc retry rw ->
       exists v, raw_x rw = map Fin v /\ length v = length c) ->
    (0 < k)%nat ->
    simulate_rho_noise fit agg (fun m g => solve_subproblem m g ss cs fs fc retry) normal
      k ig xs vm old reg cov = Ok rhos ->
    high_rho o < 1 -> min_share_high_rho o < 1 ->
    solve_subproblem M' reg ss cs fs fc retry = Ok s -> s_improvement s <> Fin 0 ->
    adjust_n_evals n_evals rho rhos o
    = (Z.max (n_evals - 1) (min_n_evals o), (n_evals <? Z.max (n_evals - 1) (min_n_evals o))%Z).
Proof.
  intros fit agg ss cs fs fc retry normal k ig xs vm old c r b reg cov M vm' M' rhos o n_evals rho s
    P Z EM EF EM' SF FIN Hk H HH HS ES NI.
  destruct (C126_without_noise_rho_is_one _ _ _ _ _ _ _ _ _ _ _ _ _ _ _ _ _ _ _ _ _ _
              P Z EM EF EM' SF FIN Hk H) as (s' & ES' & C).
  rewrite ES in ES'. injection ES' as <-. destruct C as [[C _]|(e & _ & _ & ->)]; [easy|].
  unfold adjust_n_evals.
  rewrite (share_above_all (high_rho o) (Fin 1) k) by (easy || (cbn [xgt xlt]; now apply Rltb_true)).
  cbn [xgt xlt]. apply Rltb_true in HS. now rewrite HS.
Qed.

Definition ex_flat (c : R) : vmodel :=
  mkV 1 1 (fun _ => 0) (fun _ _ => c) (Some (fun _ _ _ => 0)) (MScalar 2) (fun _ => 5).
Definition ex_normal : normal_oracle := fun _ size => repeat [0] size.
Definition ex_corner : solver := fun _ _ lo _ => Ok (mkRaw (map Fin lo) (Some 1%nat) (Some true)).
Definition ex_fallback : fallback := fun _ x => Ok (mkRaw x None None).

Lemma ex_old_unit : xmap_to_unit ex_ball (r_center ex_ball) = [Fin 0].
Proof.
  destruct (old_unit _ _ _ _ ex_ball_proper) as (v & Ev & _ & _ & Hv). rewrite (Hv eq_refl) in Ev. exact Ev.
Qed.

Lemma ex_simulate c k : 0 <= c ->
  simulate_rho_noise (fun _ _ _ _ => Ok (ex_flat c)) aggregate_identity
    (fun m g => solve_subproblem m g ex_corner ex_corner ex_fallback ex_fallback true) ex_normal
    k true [[3]; [5]] (ex_flat c) (ex_flat c) ex_ball [[0]]
  = Ok (repeat (if Reqb c 0 then NInf else Fin 1) k).
Proof.
  intros Hc. unfold simulate_rho_noise. change (aggregate_identity (ex_flat c))
    with (Ok (mkS 1 0 (fun _ => c) (Some (fun _ _ => 0)) (MScalar 2) (fun _ => 5))).
  set (M := mkS 1 0 (fun _ => c) (Some (fun _ _ => 0)) (MScalar 2) (fun _ => 5)).
  cbn [bind]. rewrite ex_old_unit.
  assert (P0 : predict_x M [Fin 0] = Fin 0).
  { change [Fin 0] with (map Fin [0]). rewrite predict_x_fin by reflexivity. f_equal.
    unfold predict_scalar, M, fun_of, fdot, fvm. cbn. lra. }
  assert (P1 : predict_x M [Fin (-1)] = Fin (- c)).
  { change [Fin (-1)] with (map Fin [-1]). rewrite predict_x_fin by reflexivity. f_equal.
    unfold predict_scalar, M, fun_of, fdot, fvm. cbn. lra. }
  assert (S : solve_subproblem M ex_ball ex_corner ex_corner ex_fallback ex_fallback true
            = Ok (mkRes (xmap_from_unit ex_ball [Fin (-1)]) (Fin c) (Some 1%nat) (Some true) [Fin (-1)] Sphere)).
  { unfold solve_subproblem. rewrite ex_old_unit.
    cbn [r_shape ex_ball ex_corner map bind raw_x raw_n_iterations raw_success].
    rewrite P0, P1. cbn [xsub xopp xadd xle]. destruct (Rleb_spec 0 (- (- c + - 0))); [|lra].
    do 3 f_equal. lra. }
  rewrite P0.
  assert (O : forall dr, one_draw (fun _ _ _ _ => Ok (ex_flat c)) aggregate_identity
     (fun m g => solve_subproblem m g ex_corner ex_corner ex_fallback ex_fallback true)
     [[3]; [5]] (true_fvecs (ex_flat c) ex_ball [[3]; [5]]) M (Fin 0) (ex_flat c) ex_ball dr
     = Ok (if Reqb c 0 then NInf else Fin 1)).
  { intros dr. unfold one_draw. cbn [bind].
    change (aggregate_identity (ex_flat c)) with (Ok M). cbn [bind]. rewrite S.
    cbn [bind s_x_unit s_improvement]. rewrite P1. unfold calculate_rho.
    cbn [xsub xopp xadd xeq xgt xlt]. destruct (Reqb_spec c 0) as [->|N].
    - destruct (Rltb_spec 0 (- (- 0 + - 0))); [lra|]. reflexivity.
    - cbn [andb]. rewrite xdiv_fin by easy. do 2 f_equal. field. easy. }
  assert (G : forall bl, length bl = k -> mapM (one_draw (fun _ _ _ _ => Ok (ex_flat c)) aggregate_identity
     (fun m g => solve_subproblem m g ex_corner ex_corner ex_fallback ex_fallback true)
     [[3]; [5]] (true_fvecs (ex_flat c) ex_ball [[3]; [5]]) M (Fin 0) (ex_flat c) ex_ball) bl
     = Ok (repeat (if Reqb c 0 then NInf else Fin 1) k)).
  { intros bl <-. induction bl as [|a bl IH]; [reflexivity|]. cbn [mapM length repeat].
    rewrite O. cbn [bind]. now rewrite IH. }
  apply G. apply blocks_length.
Qed.

Lemma ex_zero_noise : zero_noise ex_normal 1 [[0]].
Proof. split; [reflexivity|]. intros size. reflexivity. Qed.

(** C127 is false without the restriction: a surrogate model that is flat in the region (for
    instance at a stationary point of a linear model), no noise at all, a fitter that
    reproduces the model, the default options: every simulated rho is minus infinity and the
    number of evaluations per point is increased. *)
Theorem C127_noise_free_increase_refuted :
  let o := mkNoiseOptions (6/10) (1/10) (7/10) (9/10) 1 30 (1/10) in
  exists fit ss fb c r b reg vm M rhos,
    proper_region c r b reg /\ zero_noise ex_normal (vm_m vm) [[0]] /\
    aggregate_identity vm = Ok M /\
    (forall xs ys old, fit xs ys reg old = Ok vm) /\
    (forall x, predict_scalar M x = 0) /\
    simulate_rho_noise fit aggregate_identity (fun m g => solve_subproblem m g ss ss fb fb true) ex_normal
      100 true [[3]; [5]] vm vm reg [[0]] = Ok rhos /\
    adjust_n_evals 1 (Fin 0) rhos o = (2, true)%Z.
Proof.
  intros o. exists (fun _ _ _ _ => Ok (ex_flat 0)), ex_corner, ex_fallback, [5], 2, None, ex_ball, (ex_flat 0).
  eexists. eexists. split; [exact ex_ball_proper|]. split; [exact ex_zero_noise|]. split; [reflexivity|].
  split; [easy|]. split.
  { intros x. unfold predict_scalar, fdot, fvm. cbn. lra. }
  split; [apply ex_simulate; lra|]. destruct (Reqb_spec 0 0); [|lra].
  unfold adjust_n_evals. rewrite !share_above_none by (lia || reflexivity).
  unfold o. cbn [high_rho low_rho min_share_high_rho min_share_low_rho good_rho_threshold max_n_evals xgt xge xlt xle].
  destruct (Rltb_spec (7/10) 0); [lra|]. destruct (Rltb_spec (9/10) 0); [lra|].
  destruct (Rleb_spec (1/10) 0); [lra|]. reflexivity.
Qed.

(** * Examples *)

(** The model x -> x, one hundred draws: all rhos are one. *)
Example ex_C126 : exists M' s rhos,
  proper_region [5] 2 None ex_ball /\ zero_noise ex_normal (vm_m (ex_flat 1)) [[0]] /\
  aggregate_identity (ex_flat 1) = Ok M' /\ same_function 1 M' M' /\
  (forall rw, delivered M' ex_ball ex_corner ex_corner ex_fallback ex_fallback true rw ->
       exists v, raw_x rw = map Fin v /\ length v = 1%nat) /\
  simulate_rho_noise (fun _ _ _ _ => Ok (ex_flat 1)) aggregate_identity
    (fun m g => solve_subproblem m g ex_corner ex_corner ex_fallback ex_fallback true) ex_normal
    3 true [[3]; [5]] (ex_flat 1) (ex_flat 1) ex_ball [[0]] = Ok rhos /\
  rhos = [Fin 1; Fin 1; Fin 1] /\
  solve_subproblem M' ex_ball ex_corner ex_corner ex_fallback ex_fallback true = Ok s.
Proof.
  do 3 eexists. split; [exact ex_ball_proper|]. split; [exact ex_zero_noise|].
  split; [reflexivity|]. split; [easy|]. split.
  { intros rw D. unfold delivered in D. rewrite ex_old_unit in D. cbn [r_shape ex_ball] in D.
    destruct D as [D|(_ & (e & D) & _)]; [|discriminate]. unfold ex_corner in D. injection D as <-.
    exists [-1]. easy. }
  split; [apply ex_simulate; lra|]. split; [now destruct (Reqb_spec 1 0); [lra|]|].
  unfold solve_subproblem. rewrite ex_old_unit.
  cbn [r_shape ex_ball ex_corner map bind raw_x raw_n_iterations raw_success].
  change [Fin 0] with (map Fin [0]). change [Fin (-1)] with (map Fin [-1]).
  rewrite !predict_x_fin by reflexivity. cbn [xsub xopp xadd xle].
  match goal with |- context [Rleb ?a ?b] => destruct (Rleb_spec a b) as [L|L] end; [reflexivity|].
  exfalso. apply L. unfold predict_scalar, fun_of, fdot, fvm. cbn. lra.
Qed.
(** Two covariance matrices with the same variances. *)
Example ex_C125 : diag_diag [[2; 5]; [7; 3]] = [[2; 0]; [0; 3]].
Proof. reflexivity. Qed.
