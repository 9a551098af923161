(** Property C183: translating the problem translates the run. *)
From Coq Require Import Reals List Arith ZArith Bool Lia Lra Sorted.
From Verif Require Import Base XR Vec FVec HistoryModel HistorySpec HistoryProofs WrapModel WrapProofs
  VolumeModel RegionModel AdjustModel AcceptModel FilterModel SubproblemModel
  LogSpec LogProofs Prop_Region Prop_Adjust AcceptProofs Prop_Accept Prop_Filter
  MainModel MainProofs MainPhases MainLoop Prop_Main Prop_Main2 Prop_Shift.
Import ListNotations.
Open Scope R_scope.

Lemma Forall2_reverse {A B} (P : A -> B -> Prop) l l' : Forall2 P l l' -> Forall2 P (rev l) (rev l').
Proof. induction 1 as [|a a' l l' H _ IH]; cbn; [constructor|]. apply Forall2_app; auto. Qed.

Section Loop.
Context {VM SM CV VM' SM' CV' : Type}.
Variables (c : vec) (d : nat) (b : option bounds).
Hypothesis Hd : d <> 0%nat.
(** How models and covariance estimates of both problems are related. *)
Variables (RV : VM -> VM' -> Prop) (RS : SM -> SM' -> Prop) (RC : CV -> CV' -> Prop).

Notation hrel := (hrel c d).
Notation points := (points d).
Notation rpoints := (rpoints c d).
Notation rpoint := (rpoint c d).
Notation sim := (sim c d).
Notation rregion := (rregion c d b).

(** States of both runs (the ghost log is not compared). *)
Record rstate (st : state VM SM) (st' : state VM' SM') : Prop := {
  rs_region : rregion (st_region st) (st_region st');
  rs_model_indices : st_model_indices st' = st_model_indices st;
  rs_model : RS (st_model st) (st_model st');
  rs_vector_model : RV (st_vector_model st) (st_vector_model st');
  rs_candidate_index : st_candidate_index st' = st_candidate_index st;
  rs_candidate_x : rpoint (st_candidate_x st) (st_candidate_x st');
  rs_index : st_index st' = st_index st;
  rs_x : rpoint (st_x st) (st_x st');
  rs_fval : st_fval st' = st_fval st;
  rs_rho : st_rho st' = st_rho st;
  rs_accepted : st_accepted st' = st_accepted st;
  rs_new : st_new_indices st' = st_new_indices st;
  rs_used : st_old_indices_used st' = st_old_indices_used st;
  rs_discarded : st_old_indices_discarded st' = st_old_indices_discarded st;
  rs_step : st_step_length st' = st_step_length st;
  rs_rel_step : st_relative_step_length st' = st_relative_step_length st;
  rs_n : st_n_evals_per_point st' = st_n_evals_per_point st;
  rs_n_acc : st_n_evals_acceptance st' = st_n_evals_acceptance st
}.

Definition ropt {A B} (P : A -> B -> Prop) (o : option A) (o' : option B) : Prop :=
  match o, o' with Some a, Some a' => P a a' | None, None => True | _, _ => False end.

(** The components of the translated problem do the same with translated arguments. *)
Record translated (K : components VM SM CV) (K' : components VM' SM' CV') : Prop := {
  t_crit : rcrit c d (k_crit K) (k_crit K');
  t_cores : k_cores K' = k_cores K;
  t_init : forall fvec reg reg', rregion reg reg' -> RV (k_init K fvec reg) (k_init K' fvec reg');
  t_fit : forall xs xs' fv reg reg' v v', rpoints xs xs' -> rregion reg reg' -> RV v v' ->
    rres RV (k_fit K xs fv reg v) (k_fit K' xs' fv reg' v');
  t_agg : forall v v', RV v v' -> rres RS (k_agg K v) (k_agg K' v');
  t_solve : forall s s' reg reg', RS s s' -> rregion reg reg' ->
    rres (rsub c d) (k_solve K s reg) (k_solve K' s' reg');
  t_gnorm : forall s s', RS s s' -> k_gnorm K' s' = k_gnorm K s;
  t_sample : forall t j, rsampler c d b (k_sample K t j) (k_sample K' t j);
  t_filter : forall h h' st st' target n xs xs' is, hrel h h' -> rstate st st' -> rpoints xs xs' ->
    length xs = length is -> NoDup is ->
    rres (fun p p' => rpoints (fst p) (fst p') /\ snd p' = snd p)
      (k_filter K h st target n xs is) (k_filter K' h' st' target n xs' is);
  t_decider : forall t v, rdecider c d b (k_decider K t v) (k_decider K' t v);
  t_variance : forall h h' reg reg', hrel h h' -> rregion reg reg' ->
    rres eq (k_variance K h reg) (k_variance K' h' reg');
  t_cov : forall h h' reg reg', hrel h h' -> rregion reg reg' ->
    rres RC (k_cov K h reg) (k_cov K' h' reg');
  t_rho_noise : forall t xs xs' v v' old old' reg reg' cv cv', rpoints xs xs' -> RV v v' -> RV old old' ->
    rregion reg reg' -> ropt RC cv cv' ->
    rres eq (k_rho_noise K t xs v old reg cv) (k_rho_noise K' t xs' v' old' reg' cv')
}.

Variables (K : components VM SM CV) (K' : components VM' SM' CV') (O : config).
Hypothesis T : translated K K'.
(** The relative change of the parameters is not a stopping rule, or the problem is not moved. *)
Hypothesis HX : (disable (conv_o O) = true \/ xtol_rel (conv_o O) <= 0) \/ Forall (eq 0) c.

(** * One iteration *)

Record rfitted (f : fitted (VM:=VM) (SM:=SM)) (f' : fitted (VM:=VM') (SM:=SM')) : Prop := {
  rf_vm : RV (f_vm f) (f_vm f');
  rf_sm : RS (f_sm f) (f_sm f');
  rf_sub : rsub c d (f_sub f) (f_sub f');
  rf_rel : f_rel f' = f_rel f
}.
Record rwork (w : work (VM:=VM) (SM:=SM)) (w' : work (VM:=VM') (SM:=SM')) : Prop := {
  rw_xs : rpoints (w_xs w) (w_xs w');
  rw_indices : w_indices w' = w_indices w;
  rw_fit : rfitted (w_fit w) (w_fit w')
}.

Lemma sim_evaluate info : sim eq (evaluate K info) (evaluate K' info).
Proof. unfold evaluate. rewrite (t_cores _ _ T). apply sim_eval, (t_crit _ _ T). Qed.

Lemma sim_any {A B} (q : hist -> A) (q' : hist -> B) : sim (fun _ _ => True) (mquery (fun h => Ok (q h))) (mquery (fun h => Ok (q' h))).
Proof. apply sim_query. now intros. Qed.

Lemma sim_fit st st' is : rstate st st' -> sim rfitted (fit_and_solve K st is) (fit_and_solve K' st' is).
Proof.
  intros R. unfold fit_and_solve. eapply sim_bind; [apply sim_query; intros h h' H; exact (get_model_data_rel c d h h' _ _ H)|].
  intros [xs fv] [xs' fv'] [X E]. cbn [fst snd] in *. subst fv'.
  eapply sim_bind; [apply sim_any|]. intros ev ev' _.
  eapply sim_bind; [apply sim_lift, (t_fit _ _ T); [exact X|exact (rs_region _ _ R)|exact (rs_vector_model _ _ R)]|]. intros v v' V.
  eapply sim_bind; [apply sim_lift, (t_agg _ _ T), V|]. intros s s' S.
  eapply sim_bind; [apply sim_lift, (t_solve _ _ T _ _ _ _ S (rs_region _ _ R))|]. intros sb sb' SB.
  apply sim_ret. constructor; cbn [f_vm f_sm f_sub f_rel]; auto.
  rewrite (rdist c d _ _ _ _ (proj1 SB) (rs_x _ _ R)). now destruct (rs_region _ _ R) as [-> _].
Qed.

Lemma rindices_NoDup h x r is : get_x_indices_in_region h x r = Ok is -> NoDup is.
Proof.
  unfold get_x_indices_in_region. destruct (h_nfun h =? 0)%nat; [intros [= <-]; constructor|].
  destruct (get_xs_all h); [|easy]. intros [= <-].
  pose proof (select_indices_sorted (map (fun x0 => Rleb (dist x0 x) r) a)) as S.
  induction S as [|i l S IH F]; constructor; auto. intros Hi. apply (proj1 (Forall_forall _ _) F) in Hi. lia.
Qed.
Lemma get_xs_many_length h zs xs : get_xs_many h zs = Ok xs -> length xs = length zs.
Proof. unfold get_xs_many. destruct (get_xs_all h); [|easy]. apply mapM_ok_length. Qed.

(** A query together with what its result satisfies. *)
Lemma sim_query_with {A B} (P : A -> B -> Prop) (q : hist -> res A) (q' : hist -> res B) (Q : A -> Prop) :
  (forall h h', hrel h h' -> rres P (q h) (q' h')) -> (forall h a, q h = Ok a -> Q a) ->
  sim (fun a a' => P a a' /\ Q a) (mquery q) (mquery q').
Proof.
  intros H HQ h h' R. split; [easy|]. cbn. specialize (H h h' R). specialize (HQ h).
  destruct (q h), (q' h'); cbn in *; auto.
Qed.

Lemma sim_additional is n : sim eq (mquery (fun h => get_additional_eval_info is h n)) (mquery (fun h => get_additional_eval_info is h n)).
Proof.
  apply sim_query. intros h h' H. apply rres_eq. unfold get_additional_eval_info.
  now rewrite (get_n_evals_rel c d h h' _ H).
Qed.
Lemma sim_sample t j reg reg' k xs xs' : rregion reg reg' -> rpoints xs xs' ->
  sim rpoints (mquery (fun h => k_sample K t j h reg k xs)) (mquery (fun h => k_sample K' t j h reg' k xs')).
Proof. intros G X. apply sim_query. intros h h' H. now apply (t_sample _ _ T). Qed.
Lemma sim_xs is : sim rpoints (mquery (fun h => get_xs_many h is)) (mquery (fun h => get_xs_many h is)).
Proof. apply sim_query. intros h h' H. now apply get_xs_many_rel. Qed.

Lemma rpoints_length xs xs' : rpoints xs xs' -> length xs' = length xs.
Proof. intros [-> _]. apply map_length. Qed.

Lemma sim_first t st st' n : rstate st st' ->
  sim (fun p p' => rwork (fst p) (fst p') /\ snd p' = snd p) (first_model K O t st n) (first_model K' O t st' n).
Proof.
  intros R. unfold first_model.
  replace (r_radius (st_region st')) with (r_radius (st_region st)) by (destruct (rs_region _ _ R) as [-> _]; easy).
  eapply sim_bind; [apply sim_lift, (replace_radius_rel c d b), (rs_region _ _ R)|]. intros sr sr' SR.
  eapply (sim_bind _ _ (fun a a' => eq a a' /\ NoDup a)).
  { apply sim_query_with.
    - intros h h' H. apply rres_eq. destruct SR as [-> _]. cbn [r_center r_radius shift_region].
      now apply get_indices_rel with (d := d).
    - intros h a. apply rindices_NoDup. }
  intros is ? [<- ND]. eapply sim_bind; [apply sim_any|]. intros ev1 ev1' _.
  eapply (sim_bind _ _ (fun xs xs' => rpoints xs xs' /\ length xs = length is)).
  { apply sim_query_with; [intros h h' H; now apply get_xs_many_rel|].
    intros h a E. apply get_xs_many_length in E. now rewrite map_length in E. }
  intros xs xs' [X LX]. eapply sim_bind.
  { apply sim_query. intros h h' H. exact (t_filter _ _ T h h' st st' _ _ xs xs' is H R X LX ND). }
  intros [mx mi] [mx' mi'] [MX E]. cbn [fst snd] in *. subst mi'.
  eapply sim_bind; [apply sim_additional|]. intros ad ? <-.
  unfold zlen. rewrite (rpoints_length _ _ MX).
  eapply sim_bind; [apply sim_sample; [exact (rs_region _ _ R)|exact MX]|]. intros nx nx' NX.
  eapply sim_bind; [apply sim_any|]. intros ev2 ev2' _.
  eapply sim_bind; [exact (sim_add_xs c d Hd _ _ NX)|]. intros ni ? <-.
  eapply sim_bind; [apply sim_evaluate|]. intros _ _ _.
  eapply sim_bind; [apply sim_xs|]. intros ax ax' AX.
  eapply sim_bind; [apply sim_fit, R|]. intros f f' F. apply sim_ret. cbn [fst snd]. split; [|easy].
  now constructor.
Qed.

Lemma drop_rel st st' xs xs' is n : rstate st st' -> rpoints xs xs' ->
  rres (fun p p' => rpoints (fst p) (fst p') /\ snd p' = snd p)
    (drop_worst_points xs is (fstate_of st) n) (drop_worst_points xs' is (fstate_of st') n).
Proof.
  intros R [-> P]. unfold fstate_of. rewrite (rs_index _ _ R). destruct (rs_x _ _ R) as [-> _].
  replace (r_radius (st_region st')) with (r_radius (st_region st)) by (destruct (rs_region _ _ R) as [-> _]; easy).
  rewrite drop_worst_points_shift. apply rres_map. intros [a i] E. cbn. split; [|easy]. split; [easy|].
  eapply points_incl; [exact P|]. eapply drop_worst_points_incl, E.
Qed.

Lemma sim_drop_loop fuel : forall st st' w w', rstate st st' -> rwork w w' ->
  sim rwork (drop_loop K O fuel st w) (drop_loop K' O fuel st' w').
Proof.
  induction fuel as [|fuel IH]; intros st st' w w' R W; cbn [drop_loop]; unfold zlen;
    rewrite (rf_rel _ _ (rw_fit _ _ W)), (rpoints_length _ _ (rw_xs _ _ W)); (destruct (_ && _); [|now apply sim_ret]).
  - intros h h' H. now split.
  - rewrite (rw_indices _ _ W). eapply sim_bind; [apply sim_lift, (drop_rel _ _ _ _ _ _ R (rw_xs _ _ W))|].
    intros [mx mi] [mx' mi'] [MX E]. cbn [fst snd] in *. subst mi'.
    eapply sim_bind; [apply sim_fit, R|]. intros f f' F. apply IH; [easy|]. now constructor.
Qed.
Lemma sim_drop st st' w w' : rstate st st' -> rwork w w' -> sim rwork (drop_phase K O st w) (drop_phase K' O st' w').
Proof.
  intros R W. unfold drop_phase, zlen. rewrite (rpoints_length _ _ (rw_xs _ _ W)).
  destruct (_ <? _)%Z; [|now apply sim_ret]. now apply sim_drop_loop.
Qed.

Lemma sim_trial t j st st' n w w' : rstate st st' -> rwork w w' ->
  sim rwork (trial K O t j st n w) (trial K' O t j st' n w').
Proof.
  intros R W. unfold trial. rewrite (rw_indices _ _ W), (rpoints_length _ _ (rw_xs _ _ W)).
  eapply (sim_bind _ _ (fun p p' => rpoints (fst p) (fst p') /\ snd p' = snd p)).
  { apply sim_lift. destruct (_ && _); [exact (drop_rel _ _ _ _ _ _ R (rw_xs _ _ W))|]. cbn. split; [apply (rw_xs _ _ W)|easy]. }
  intros [mx mi] [mx' mi'] [MX E]. cbn [fst snd] in *. subst mi'.
  eapply sim_bind; [apply sim_sample; [exact (rs_region _ _ R)|exact MX]|]. intros nx nx' NX.
  eapply sim_bind; [apply sim_any|]. intros ev2 ev2' _.
  eapply sim_bind; [exact (sim_add_xs c d Hd _ _ NX)|]. intros ni ? <-.
  eapply sim_bind; [apply sim_evaluate|]. intros _ _ _.
  eapply sim_bind; [apply sim_xs|]. intros ax ax' AX.
  eapply sim_bind; [apply sim_fit, R|]. intros f f' F. apply sim_ret. now constructor.
Qed.
Lemma sim_stag_loop fuel t : forall j st st' n w w', rstate st st' -> rwork w w' ->
  sim rwork (stag_loop K O fuel t j st n w) (stag_loop K' O fuel t j st' n w').
Proof.
  induction fuel as [|fuel IH]; intros j st st' n w w' R W; cbn [stag_loop]; rewrite (rf_rel _ _ (rw_fit _ _ W));
    (destruct (xlt _ _); [|now apply sim_ret]).
  - intros h h' H. now split.
  - eapply sim_bind; [now apply sim_trial|]. intros w1 w1' W1. destruct (_ <=? _)%nat; [now apply sim_ret|]. now apply IH.
Qed.

Lemma sim_noise st st' : rstate st st' ->
  sim (fun p p' => fst p' = fst p /\ ropt RC (snd p) (snd p')) (noise_estimates K O st) (noise_estimates K' O st').
Proof.
  intros R. unfold noise_estimates. destruct (noisy O); [|now apply sim_ret].
  eapply sim_bind; [apply sim_query; intros h h' H; exact (t_variance _ _ T h h' _ _ H (rs_region _ _ R))|]. intros v ? <-.
  eapply sim_bind; [apply sim_query; intros h h' H; exact (t_cov _ _ T h h' _ _ H (rs_region _ _ R))|]. intros cv cv' C.
  now apply sim_ret.
Qed.

Lemma update_state_rel st st' w w' old a a' n : rstate st st' -> rwork w w' -> racc c d a a' ->
  rstate (update_state st w old a n) (update_state st' w' old a' n).
Proof.
  intros R W (AX & AF & AI & AR & AA & AS & ARS & ACI & ACX & AN).
  unfold update_state. rewrite (rw_indices _ _ W), AF, AI, AR, AA, AS, ARS, ACI, AN.
  constructor; cbn [st_region st_model_indices st_model st_vector_model st_candidate_index st_candidate_x st_index st_x
    st_fval st_rho st_accepted st_new_indices st_old_indices_used st_old_indices_discarded st_step_length
    st_relative_step_length st_n_evals_per_point st_n_evals_acceptance]; auto.
  - apply R.
  - apply (rf_sm _ _ (rw_fit _ _ W)).
  - apply R.
Qed.
Lemma with_region_rel st st' reg reg' : rstate st st' -> rregion reg reg' ->
  rstate (with_region st reg) (with_region st' reg').
Proof. intros R G. destruct R. constructor; assumption. Qed.

Lemma sim_adapt t st st' w w' cv cv' rho n : rstate st st' -> rwork w w' -> ropt RC cv cv' ->
  sim eq (adapt_n_evals K O t st w cv rho n) (adapt_n_evals K' O t st' w' cv' rho n).
Proof.
  intros R W C. unfold adapt_n_evals. destruct (noisy O); [|now apply sim_ret].
  eapply sim_bind; [apply sim_lift, (t_rho_noise _ _ T); [apply W|apply (rf_vm _ _ (rw_fit _ _ W))|apply R|apply R|exact C]|].
  intros l ? <-. now apply sim_ret.
Qed.

Definition riter (p : state VM SM * state VM SM * Z) (p' : state VM' SM' * state VM' SM' * Z) : Prop :=
  rstate (fst (fst p)) (fst (fst p')) /\ rstate (snd (fst p)) (snd (fst p')) /\ snd p' = snd p.

Lemma sim_iteration t st st' n : rstate st st' -> sim riter (iteration K O t st n) (iteration K' O t st' n).
Proof.
  intros R. unfold iteration. eapply sim_bind; [apply sim_first, R|]. intros [w0 old] [w0' old'] [W0 E].
  cbn [fst snd] in *. subst old'. eapply sim_bind; [now apply sim_drop|]. intros w1 w1' W1.
  eapply sim_bind; [now apply sim_stag_loop|]. intros w w' W.
  eapply sim_bind; [now apply sim_noise|]. intros [v cv] [v' cv'] [E C]. cbn [fst snd] in *. subst v'.
  rewrite (t_cores _ _ T). eapply sim_bind.
  { apply (sim_decider c d b Hd); [apply (t_crit _ _ T)|apply (t_decider _ _ T)|apply (rf_sub _ _ (rw_fit _ _ W))|].
    unfold cur_of, rcur. cbn. split; [apply R|]. split; [apply R|]. split; [apply R|apply R]. }
  intros a a' A. pose proof (update_state_rel _ _ _ _ old _ _ n R W A) as U.
  pose proof A as (AX & AF & AI & AR & AA & AS & ARS & ACI & ACX & AN). rewrite AR, AS.
  eapply sim_bind; [now apply sim_adapt|]. intros [n1 inc] ? <-. cbn [fst snd].
  replace (r_radius (st_region (update_state st' w' old a' n))) with (r_radius (st_region (update_state st w old a n)))
    by (destruct (rs_region _ _ U) as [-> _]; easy).
  eapply sim_bind; [apply sim_lift, (replace_center_radius_rel c d b); [apply (rs_region _ _ U)|exact AX]|].
  intros g g' G. apply sim_ret. split; [exact U|]. split; [|easy]. now apply with_region_rel.
Qed.

(** * Convergence *)

Lemma norm2_sq v : 0 <= fold_right (fun a s => a * a + s) 0 v.
Proof. induction v as [|a v IH]; cbn; [lra|]. nra. Qed.
Lemma norm2_zero v : norm2 v <= 0 <-> Forall (fun a => a = 0) v.
Proof.
  unfold norm2. pose proof (norm2_sq v) as P. split.
  - intros H. assert (E : fold_right (fun a s => a * a + s) 0 v = 0).
    { apply sqrt_eq_0; [easy|]. pose proof (sqrt_pos (fold_right (fun a s => a * a + s) 0 v)). lra. }
    clear H P. induction v as [|a v IH]; [constructor|]. cbn in E. pose proof (norm2_sq v). constructor; [nra|].
    apply IH. nra.
  - intros F. replace (fold_right (fun a s => a * a + s) 0 v) with 0; [rewrite sqrt_0; lra|].
    clear P. induction F as [|a v -> _ IH]; cbn; [easy|]. rewrite <- IH. lra.
Qed.
Lemma relative_zero v y : length y = length v ->
  (Forall (fun a => a = 0) (map2 (fun a b => a / Rmax (Rabs b) 1) v y) <-> Forall (fun a => a = 0) v).
Proof.
  revert y; induction v as [|a v IH]; destruct y as [|z y]; cbn; intros L; try discriminate; [easy|].
  assert (M : 0 < Rmax (Rabs z) 1) by (pose proof (Rmax_r (Rabs z) 1); lra).
  split; intros F; inversion F as [|? ? E Q]; subst; constructor.
  - apply (f_equal (fun t => t * Rmax (Rabs z) 1)) in E. unfold Rdiv in E. rewrite Rmult_assoc, Rinv_l in E by lra. lra.
  - apply (IH y); [lia|easy].
  - unfold Rdiv. now rewrite Rmult_0_l.
  - apply (IH y); [lia|easy].
Qed.
Lemma relative_change v y y' t : length y = length v -> length y' = length v -> t <= 0 ->
  xle (Fin (norm2 (map2 (fun a b => a / Rmax (Rabs b) 1) v y))) (Fin t) =
  xle (Fin (norm2 (map2 (fun a b => a / Rmax (Rabs b) 1) v y'))) (Fin t).
Proof.
  intros L L' Ht. cbn [xle].
  assert (N : forall u, 0 <= norm2 u) by (intros; apply sqrt_pos).
  pose proof (N (map2 (fun a b => a / Rmax (Rabs b) 1) v y)). pose proof (N (map2 (fun a b => a / Rmax (Rabs b) 1) v y')).
  pose proof (relative_zero v y L) as Z. pose proof (relative_zero v y' L') as Z'. rewrite <- norm2_zero in Z, Z'.
  destruct (Rleb_spec (norm2 (map2 (fun a b => a / Rmax (Rabs b) 1) v y)) t) as [A|A],
    (Rleb_spec (norm2 (map2 (fun a b => a / Rmax (Rabs b) 1) v y')) t) as [A'|A']; try easy; exfalso.
  - assert (norm2 (map2 (fun a b => a / Rmax (Rabs b) 1) v y') <= 0) by (apply Z', Z; lra). lra.
  - assert (norm2 (map2 (fun a b => a / Rmax (Rabs b) 1) v y) <= 0) by (apply Z, Z'; lra). lra.
Qed.

Lemma converged_rel st st' nw nw' : disable (conv_o O) = false -> rstate st st' -> rstate nw nw' ->
  is_converged K' st' nw' (conv_o O) = is_converged K st nw (conv_o O).
Proof.
  intros Ds R N. unfold is_converged.
  rewrite (rs_fval _ _ R), (rs_fval _ _ N), (t_gnorm _ _ T _ _ (rs_model _ _ N)).
  destruct (rs_x _ _ R) as [E L], (rs_x _ _ N) as [E' L'].
  assert (D : map2 Rminus (st_x st') (st_x nw') = map2 Rminus (st_x st) (st_x nw)).
  { rewrite E, E'. apply map2_shift_diff. intros. lra. }
  rewrite D. destruct HX as [[HX'|HX']|HX']; [congruence| |now rewrite E, shift_zero].
  rewrite (relative_change (map2 Rminus (st_x st) (st_x nw)) (st_x st') (st_x st)).
  - reflexivity.
  - rewrite E, shift_length, map2_length. lia.
  - rewrite map2_length. lia.
  - exact HX'.
Qed.

Lemma last_two_rel l l' : Forall2 rstate l l' ->
  rres (fun p p' => rstate (fst p) (fst p') /\ rstate (snd p) (snd p')) (last_two l) (last_two l').
Proof.
  intros F. unfold last_two. assert (G : Forall2 rstate (rev l) (rev l')) by now apply Forall2_reverse.
  destruct G as [|a a' l1 l1' A G]; [easy|]. destruct G as [|a2 a2' l2 l2' A2 G]; [easy|]. cbn. auto.
Qed.

Lemma check_rel ac l l' cv msg : Forall2 rstate l l' ->
  rres eq (check_convergence K O ac l cv msg) (check_convergence K' O ac l' cv msg).
Proof.
  intros F. unfold check_convergence. destruct ac; cbn [andb]; [|easy].
  destruct (disable (conv_o O)) eqn:Ds in |- *; cbn [negb]; [easy|].
  eapply rres_bind; [now apply last_two_rel|]. intros [o n] [o' n'] [A B]. cbn [fst snd] in *.
  rewrite (converged_rel _ _ _ _ Ds A B). now destruct (is_converged K o n (conv_o O)).
Qed.

(** * Results *)

(** The same result, translated. *)
Record rresult (r : result VM SM) (r' : result VM' SM') : Prop := {
  rr_x : rpoint (solution_x r) (solution_x r');
  rr_criterion : solution_criterion r' = solution_criterion r;
  rr_states : Forall2 rstate (res_states r) (res_states r');
  rr_message : res_message r' = res_message r;
  rr_converged : res_converged r' = res_converged r
}.

Lemma make_result_rel st st' l l' cv msg : rstate st st' -> Forall2 rstate l l' ->
  rresult (make_result st l cv msg) (make_result st' l' cv msg).
Proof. intros R F. constructor; cbn; auto; apply R. Qed.

Lemma sim_loop k : forall t st st' n l l' cv msg, rstate st st' -> Forall2 rstate l l' ->
  sim rresult (loop K O k t st n l cv msg) (loop K' O k t st' n l' cv msg).
Proof.
  induction k as [|k IH]; intros t st st' n l l' cv msg R F; cbn [loop].
  - apply sim_ret. now apply make_result_rel.
  - eapply sim_bind; [now apply sim_iteration|]. intros [[ap s1] n1] [[ap' s1'] n1'] (A & S1 & E). cbn [fst snd] in *.
    subst n1'. assert (F' : Forall2 rstate (l ++ [ap]) (l' ++ [ap'])) by (apply Forall2_app; auto).
    rewrite (rs_accepted _ _ A). eapply sim_bind; [apply sim_lift, check_rel, F'|]. intros [[cv1 msg1] stop] ? <-.
    destruct stop; [apply sim_ret; now apply make_result_rel|].
    eapply (sim_bind _ _ eq). { apply sim_query. intros h h' H. cbn. unfold get_n_fun. now destruct H as (_ & _ & _ & _ & -> & _). }
    intros nf ? <-. destruct (_ <=? _)%Z; [apply sim_ret; now apply make_result_rel|]. now apply IH.
Qed.

Lemma sim_initial x x' reg reg' : rpoint x x' -> rregion reg reg' ->
  sim rstate (initial_state K O x reg) (initial_state K' O x' reg').
Proof.
  intros X G. unfold initial_state. eapply sim_bind; [apply sim_evaluate|]. intros _ _ _.
  eapply (sim_bind _ _ eq). { apply sim_query. intros h h' H. apply rres_eq. now apply get_fvecs_one_rel with (c := c) (d := d). }
  intros fv ? <-. eapply (sim_bind _ _ eq). { apply sim_query. intros h h' H. cbn. now rewrite (fvecs_width_rel c d h h' H). }
  intros iv ? <-. pose proof (t_init _ _ T iv _ _ G) as V.
  eapply sim_bind; [apply sim_lift, (t_agg _ _ T _ _ V)|]. intros s s' S. eapply sim_bind; [apply sim_fvals|]. intros fl ? <-.
  apply sim_ret. constructor; cbn; auto.
Qed.

Lemma sim_internal x x' reg reg' : rpoint x x' -> rregion reg reg' ->
  sim rresult (internal_tranquilo K O x reg) (internal_tranquilo K' O x' reg').
Proof.
  intros X G. unfold internal_tranquilo. eapply sim_bind; [now apply sim_initial|]. intros st st' R. apply sim_loop; auto.
Qed.

Lemma sim_tranquilo ft pad pad' x r0 : length x = d ->
  let run := tranquilo K O ft pad x r0 b in
  let run' := tranquilo K' O ft pad' (shift c x) r0 (shift_bounds c b) in
  hrel (fst run) (fst run') /\ rres rresult (snd run) (snd run').
Proof.
  intros L. cbn zeta. unfold tranquilo. assert (X : rpoint x (shift c x)) by now split.
  assert (S : sim rresult (do _ <- m_add_x x; do reg <- mlift (make_region x r0 b); internal_tranquilo K O x reg)
    (do _ <- m_add_x (shift c x); do reg <- mlift (make_region (shift c x) r0 (shift_bounds c b)); internal_tranquilo K' O (shift c x) reg)).
  { eapply sim_bind; [exact (sim_add_x c d Hd _ _ X)|]. intros _ _ _.
    eapply sim_bind; [apply sim_lift, (make_region_rel c d b _ _ _ X)|]. intros g g' G. now apply sim_internal. }
  apply S. now apply hrel_init.
Qed.
End Loop.
