(** The phases of one iteration of the main loop. *)
From Coq Require Import Reals List Arith ZArith Bool Lia Lra Sorting.Sorted.
From Verif Require Import Base XR Vec HistoryModel HistorySpec HistoryProofs WrapModel WrapProofs
  VolumeModel RegionModel AdjustModel AcceptModel FilterModel LogSpec LogProofs Prop_Region
  Prop_Adjust AcceptProofs Prop_Accept Prop_Filter MainModel MainProofs.
Import ListNotations.
Open Scope nat_scope.

(** What is assumed of the components, for dimension [d], functype [ft] and evaluation width
    [w]: results have the right shape, and the sample filter returns some of the points it was
    given (or the current point), each with its own index and at most once. *)
Record good_components {VM SM CV} (ft : functype) (d w : nat) (K : components VM SM CV) : Prop := {
  gk_crit : good_criterion ft w (k_crit K);
  gk_sample : forall t j, sampler_dim d (k_sample K t j);
  gk_solve : forall sm reg s, length (r_center reg) = d -> k_solve K sm reg = Ok s ->
               length (sub_x s) = d;
  gk_filter : forall h st target n xs is xs' is',
    length xs = length is -> NoDup is -> k_filter K h st target n xs is = Ok (xs', is') ->
    length xs' = length is' /\ NoDup is' /\
    incl (combine xs' is') ((st_x st, st_index st) :: combine xs is);
  gk_decider : forall t v, decider_dim d (k_decider K t v)
}.

Section Phases.
Context {VM SM CV : Type}.
Variables (ft : functype) (d w : nat) (K : components VM SM CV) (O : config).
Hypothesis GK : good_components ft d w K.

(** The state belongs to the history with points [X]. *)
Definition at_point (X : list vec) (st : state VM SM) : Prop :=
  nth_error X (st_index st) = Some (st_x st) /\ r_center (st_region st) = st_x st.

(** The points and evaluations available when the model was fitted, and what was fitted. *)
Definition fit_ok (st : state VM SM) (n : Z) (ev : event VM) : Prop :=
  match ev with
  | EvFit h idx xs fvecs old =>
      old = st_vector_model st /\
      exists X E, haslog ft d w h X E /\ E <> [] /\ NoDup idx /\ Forall (fun i => i < length X) idx /\
        (forall i, In i idx -> (n <= Z.of_nat (length (evals_of i E)))%Z) /\
        xs = map (fun i => nth i X []) idx /\
        fvecs = map (fun i => mean_rows (ft_w ft w) (evals_of i E)) idx
  | EvSample h _ xs => Forall (fun x => length x = d) xs
  | EvFound h is => exists X E, haslog ft d w h X E /\ StronglySorted lt is /\
        forall i, In i is <-> exists x, nth_error X i = Some x /\
           (dist x (st_x st) <= search_radius_factor O * r_radius (st_region st))%R
  end.

Definition sampled (ev : event VM) : list vec :=
  match ev with EvSample _ _ xs => xs | _ => [] end.
Definition all_sampled (evs : list (event VM)) : list vec := concat (map sampled evs).
Definition is_sample (ev : event VM) : bool :=
  match ev with EvSample _ _ _ => true | _ => false end.
Definition is_fit (ev : event VM) : bool :=
  match ev with EvFit _ _ _ _ _ => true | _ => false end.
Definition has_cur (st : state VM SM) (ev : event VM) : Prop :=
  match ev with EvFit _ idx _ _ _ => In (st_index st) idx | _ => True end.

(** The fit is that of the last entry of the log: the model comes from the fitter and the
    aggregator, given the data of the model indices and the vector model of the state. *)
Definition fitted_by (st : state VM SM) (X : list vec) (E : list (nat * list xr)) (idx : list nat)
    (f : fitted (VM:=VM) (SM:=SM)) : Prop :=
  exists h xs fvecs, f_event f = EvFit h idx xs fvecs (st_vector_model st) /\
    k_fit K xs fvecs (st_region st) (st_vector_model st) = Ok (f_vm f) /\ k_agg K (f_vm f) = Ok (f_sm f) /\
    xs = map (fun i => nth i X []) idx /\ fvecs = map (fun i => mean_rows (ft_w ft w) (evals_of i E)) idx.

(** A fit with at least as many points as the target sample size. *)
Definition big_fit (ev : event VM) : Prop :=
  match ev with EvFit _ idx _ _ _ => (target_sample_size O <= zlen idx)%Z | _ => False end.

(** Model points and model indices fit together and to the history. *)
Record good_work (st : state VM SM) (X : list vec) (E : list (nat * list xr)) (n : Z)
    (wk : work (VM:=VM) (SM:=SM)) : Prop := {
  gw_nodup : NoDup (w_indices wk);
  gw_lt : Forall (fun i => i < length X) (w_indices wk);
  gw_xs : w_xs wk = map (fun i => nth i X []) (w_indices wk);
  gw_n : forall i, In i (w_indices wk) -> (n <= Z.of_nat (length (evals_of i E)))%Z;
  gw_dim : length (sub_x (f_sub (w_fit wk))) = d;
  gw_solve : k_solve K (f_sm (w_fit wk)) (st_region st) = Ok (f_sub (w_fit wk));
  gw_fit : fitted_by st X E (w_indices wk) (w_fit wk);
  gw_last : exists evs, w_events wk = evs ++ [f_event (w_fit wk)]
}.

Lemma evals_more i (E E' : list (nat * list xr)) n :
  (n <= Z.of_nat (length (evals_of i E)))%Z -> (n <= Z.of_nat (length (evals_of i (E ++ E'))))%Z.
Proof. rewrite evals_of_app, app_length. lia. Qed.

Lemma map_nth_app (X X' : list vec) idx : Forall (fun i => i < length X) idx ->
  map (fun i => nth i (X ++ X') []) idx = map (fun i => nth i X []) idx.
Proof.
  intros H. apply map_ext_in. intros i Hi. rewrite Forall_forall in H. apply app_nth1. auto.
Qed.

Lemma at_point_more X X' st : at_point X st -> at_point (X ++ X') st.
Proof.
  intros [H1 H2]. split; [|easy]. rewrite nth_error_app1; [easy|]. apply nth_error_Some. congruence.
Qed.

Lemma at_point_dim h X E st : haslog ft d w h X E -> at_point X st ->
  length (r_center (st_region st)) = d /\ length (st_x st) = d /\ st_index st < length X.
Proof.
  intros HL [H1 H2]. destruct (haslog_dims _ _ _ _ _ _ HL) as (F & _).
  rewrite Forall_forall in F. pose proof (F _ (nth_error_In _ _ H1)).
  split; [congruence|]. split; [easy|]. apply nth_error_Some. congruence.
Qed.

Lemma xs_many_exact h X E is xs : haslog ft d w h X E -> X <> [] ->
  Forall (fun i => i < length X) is -> get_xs_many h (map Z.of_nat is) = Ok xs ->
  xs = map (fun i => nth i X []) is.
Proof.
  intros HL HX Hi H. destruct (xs_many_log _ _ _ _ _ _ is HL HX Hi) as (xs' & E1 & L & _ & N).
  rewrite H in E1. injection E1 as <-. apply nth_error_ext. intros k.
  rewrite nth_error_map. destruct (nth_error is k) as [i|] eqn:Ek.
  - rewrite (N _ _ Ek). simpl. apply nth_error_nth_default. rewrite Forall_forall in Hi.
    apply Hi. now apply nth_error_In in Ek.
  - simpl. apply nth_error_None. apply nth_error_None in Ek. lia.
Qed.

Lemma fit_and_solve_inv st idx h X E n h' f :
  haslog ft d w h X E -> E <> [] -> at_point X st -> NoDup idx ->
  Forall (fun i => i < length X) idx ->
  (forall i, In i idx -> (n <= Z.of_nat (length (evals_of i E)))%Z) ->
  fit_and_solve K st idx h = (h', Ok f) ->
  h' = h /\ length (sub_x (f_sub f)) = d /\ fit_ok st n (f_event f) /\
  sampled (f_event f) = [] /\ is_sample (f_event f) = false /\ is_fit (f_event f) = true /\
  (In (st_index st) idx -> has_cur st (f_event f)) /\
  k_solve K (f_sm f) (st_region st) = Ok (f_sub f) /\ fitted_by st X E idx f.
Proof.
  intros HL HE HA ND HI HN H. unfold fit_and_solve in H.
  destruct (haslog_rep _ _ _ _ _ _ HL) as [HR _].
  inv_bind H. rewrite (q_model_data_avg _ _ _ _ _ idx HR HE ND HI) in E0. injection E0 as <-.
  inv_bind H. injection E0 as <-. inv_bind H. inv_bind H. inv_bind H.
  apply mret_inv in H as [-> ->]. cbn [f_sub f_event fst snd].
  destruct (at_point_dim _ _ _ _ HL HA) as (D1 & _).
  split; [easy|]. split; [now apply (gk_solve _ _ _ _ GK _ _ _ D1 E2)|].
  split; [cbn; split; [easy|]; exists X, E; auto 10|].
  do 4 (split; [cbn; auto|]). split; [easy|]. unfold fitted_by. cbn. eauto 10.
Qed.

(** The model points and what has been added since [X], [E]. *)
Record phase (st : state VM SM) (n : Z) (X : list vec) (E : list (nat * list xr))
    (evs0 : list (event VM)) (h' : hist) (newX : list vec) (newE : list (nat * list xr))
    (evs : list (event VM)) (wk : work (VM:=VM) (SM:=SM)) : Prop := {
  ph_log : haslog ft d w h' (X ++ newX) (E ++ newE);
  ph_true : true_evals (k_crit K) (X ++ newX) newE;
  ph_newX : newX = all_sampled evs;
  ph_work : good_work st (X ++ newX) (E ++ newE) n wk;
  ph_events : w_events wk = evs0 ++ evs;
  ph_ok : Forall (fit_ok st n) evs
}.

Lemma drop_worst_inv (fs : fstate) xs idx k xs' idx' : length xs = length idx ->
  drop_worst_points xs idx fs k = Ok (xs', idx') ->
  k <= length xs /\ length xs' = length xs - k /\ length idx' = length xs' /\
  subseq (combine xs' idx') (combine xs idx).
Proof.
  intros HL H. destruct (le_lt_dec k (length xs)) as [Hk|Hk].
  - destruct (C48_drop_worst_points_removes_n fs xs idx k HL Hk) as (x2 & i2 & E & L1 & L2 & S).
    rewrite H in E. injection E as <- <-. auto.
  - rewrite (C48_too_many_to_drop_raises fs xs idx k HL Hk) in H. discriminate.
Qed.

Lemma subseq_incl {A} (l k : list A) : subseq l k -> incl l k.
Proof. induction 1; intros x Hx; simpl in *; auto. destruct Hx; auto. Qed.
Lemma subseq_map {A B} (f : A -> B) l k : subseq l k -> subseq (map f l) (map f k).
Proof. induction 1; simpl; constructor; auto. Qed.
Lemma subseq_nodup {A} (l k : list A) : subseq l k -> NoDup k -> NoDup l.
Proof.
  induction 1; intros ND; auto; apply NoDup_cons_iff in ND as [N1 N2]; auto.
  constructor; auto. intros H1. apply N1. now apply (subseq_incl _ _ H).
Qed.

(** A selection of aligned points is aligned. *)
Lemma aligned_sub (X : list vec) xs idx xs' idx' :
  length xs' = length idx' -> xs = map (fun i => nth i X []) idx ->
  incl (combine xs' idx') (combine xs idx) ->
  xs' = map (fun i => nth i X []) idx' /\ incl idx' idx.
Proof.
  intros L -> HI. split.
  - apply nth_error_ext. intros k. rewrite nth_error_map.
    destruct (nth_error idx' k) as [i|] eqn:Ek.
    + destruct (nth_error xs' k) as [x|] eqn:Ex.
      * assert (In (x, i) (combine xs' idx')).
        { apply nth_error_In with k. now rewrite nth_error_combine, Ex, Ek. }
        apply HI in H. apply In_nth_error in H as [m Hm]. rewrite nth_error_combine, nth_error_map in Hm.
        destruct (nth_error idx m); [|discriminate]. simpl in Hm. injection Hm as <- <-. reflexivity.
      * apply nth_error_None in Ex. assert (k < length idx') by (apply nth_error_Some; congruence). lia.
    + simpl. apply nth_error_None. apply nth_error_None in Ek. lia.
  - intros i Hi. apply In_nth_error in Hi as [k Hk].
    destruct (nth_error xs' k) as [x|] eqn:Ex.
    + assert (In (x, i) (combine xs' idx')).
      { apply nth_error_In with k. now rewrite nth_error_combine, Ex, Hk. }
      apply HI in H. now apply in_combine_r in H.
    + apply nth_error_None in Ex. assert (k < length idx') by (apply nth_error_Some; congruence). lia.
Qed.

Lemma cur_pair (X : list vec) st idx xs : at_point X st -> xs = map (fun i => nth i X []) idx ->
  In (st_index st) idx -> In (st_x st, st_index st) (combine xs idx).
Proof.
  intros [HA _] -> H. apply In_nth_error in H as [k Hk]. apply nth_error_In with k.
  rewrite nth_error_combine, nth_error_map, Hk. simpl. f_equal. f_equal.
  now apply nth_error_nth.
Qed.

(** Dropping points from aligned model points. *)
Lemma drop_aligned (X : list vec) st xs idx k xs' idx' :
  xs = map (fun i => nth i X []) idx -> NoDup idx ->
  drop_worst_points xs idx (fstate_of st) k = Ok (xs', idx') ->
  xs' = map (fun i => nth i X []) idx' /\ NoDup idx' /\ incl idx' idx /\
  length xs' = length xs - k /\
  (at_point X st -> (0 <= r_radius (st_region st))%R -> k < length xs -> In (st_index st) idx ->
   In (st_index st) idx').
Proof.
  intros Hx ND H. assert (HL : length xs = length idx) by (subst; apply map_length).
  destruct (drop_worst_inv _ _ _ _ _ _ HL H) as (Hk & L1 & L2 & S).
  destruct (aligned_sub X xs idx xs' idx' ltac:(lia) Hx (subseq_incl _ _ S)) as [A1 A2].
  split; [easy|]. split.
  { apply subseq_nodup with idx; auto. apply (subseq_map snd) in S.
    rewrite !combine_snd in S; auto. }
  split; [easy|]. split; [easy|].
  intros HA Hr Hlt HI.
  assert (C := C49_current_point_is_kept (fstate_of st) xs idx k xs' idx' HL ND Hr Hlt).
  cbn [f_x f_index fstate_of] in C.
  specialize (C (cur_pair X st idx xs HA Hx HI) H). now apply in_combine_r in C.
Qed.

Lemma NoDup_app' {A} (a b : list A) : NoDup a -> NoDup b ->
  (forall i, In i a -> In i b -> False) -> NoDup (a ++ b).
Proof.
  induction 1 as [|x a Hx _ IH]; intros Hb D; simpl; auto. constructor.
  - intros H. apply in_app_or in H as [H|H]; [easy|]. apply (D x); simpl; auto.
  - apply IH; auto. intros i Ha Hb'. apply (D i); simpl; auto.
Qed.

(** * The dropping loop *)
Lemma drop_loop_inv st n : forall fuel wk h X E h' wk',
  haslog ft d w h X E -> E <> [] -> at_point X st -> good_work st X E n wk ->
  drop_loop K O fuel st wk h = (h', Ok wk') ->
  h' = h /\
  exists evs, phase st n X E (w_events wk) h' [] [] evs wk' /\
    Forall (fun e => is_sample e = false) evs /\ incl (w_indices wk') (w_indices wk) /\
    Forall big_fit evs /\
    ((0 <= r_radius (st_region st))%R -> (1 <= target_sample_size O)%Z ->
     In (st_index st) (w_indices wk) -> In (st_index st) (w_indices wk') /\ Forall (has_cur st) evs).
Proof.
  induction fuel as [|fuel IH]; intros wk h X E h' wk' HL HE HA HW H; cbn [drop_loop] in H.
  all: destruct (xlt (f_rel (w_fit wk)) (Fin (min_relative_step_keep (stag_o O)))
           && (target_sample_size O <? zlen (w_xs wk))%Z) eqn:C.
  1: discriminate.
  2: {
    inv_bind H. destruct a as [xs' idx'].
    destruct HW as [W1 W2 W3 W4 W5 _ _ _].
    destruct (drop_aligned X st _ _ _ _ _ W3 W1 E0) as (A1 & A2 & A3 & A4 & A5).
    apply mbind_inv in H as (h2 & f & E2 & H).
    assert (I' : Forall (fun i => i < length X) idx').
    { apply Forall_forall. rewrite Forall_forall in W2. auto. }
    destruct (fit_and_solve_inv st idx' _ X E n _ _ HL HE HA A2 I' ltac:(auto) E2)
      as (-> & D1 & F1 & F2 & F3 & _ & F4 & SV & FB).
    assert (W' : good_work st X E n (mkWork xs' idx' f (w_events wk ++ [f_event f]))).
    { split; cbn; eauto. }
    destruct (IH _ _ _ _ _ _ HL HE HA W' H) as (-> & evs & P & NS & SB & LE & CU).
    split; [easy|]. exists (f_event f :: evs).
    cbn [w_events w_indices] in *.
    split.
    { destruct P as [P1 P2 P3 P4 P5 P6]. split; auto.
      - unfold all_sampled in *. simpl. rewrite F2. exact P3.
      - rewrite P5, <- app_assoc. reflexivity. }
    split; [now constructor|]. split; [eauto using incl_tran|].
    apply andb_prop in C as [_ C]. apply Z.ltb_lt in C. unfold zlen in C.
    assert (length (w_indices wk) = length (w_xs wk)) by (rewrite W3, map_length; easy).
    assert (length idx' = length xs') by (rewrite A1, map_length; easy).
    split.
    { constructor; [|easy]. destruct FB as (? & ? & ? & -> & _). cbn. unfold zlen. lia. }
    intros Hr Ht HI. assert (HI' : In (st_index st) idx') by (apply A5; auto; lia).
    destruct (CU Hr Ht HI') as [CU1 CU2]. split; auto. }
  all: apply mret_inv in H as [-> ->]; split; [easy|]; exists [].
  all: split; [split; rewrite ?app_nil_r; auto; intros i v []|].
  all: split; [constructor|split; [apply incl_refl|split; [constructor|auto]]].
Qed.

Lemma drop_phase_inv st n wk h X E h' wk' :
  haslog ft d w h X E -> E <> [] -> at_point X st -> good_work st X E n wk ->
  drop_phase K O st wk h = (h', Ok wk') ->
  h' = h /\
  exists evs, phase st n X E (w_events wk) h' [] [] evs wk' /\
    Forall (fun e => is_sample e = false) evs /\ incl (w_indices wk') (w_indices wk) /\
    Forall big_fit evs /\
    ((0 <= r_radius (st_region st))%R -> (1 <= target_sample_size O)%Z ->
     In (st_index st) (w_indices wk) -> In (st_index st) (w_indices wk') /\ Forall (has_cur st) evs).
Proof.
  unfold drop_phase. intros HL HE HA HW H. destruct (_ <? _)%Z.
  - eapply drop_loop_inv; eauto.
  - apply mret_inv in H as [-> ->]. split; [easy|]. exists [].
    split; [split; rewrite ?app_nil_r; auto; intros i v []|].
    split; [constructor|split; [apply incl_refl|split; [constructor|auto]]].
Qed.

(** * Evaluating new points *)
Lemma evaluate_inv info h X E h' :
  haslog ft d w h X E -> evaluate K info h = (h', Ok tt) ->
  Forall (fun p => fst p < length X) info ->
  exists newE, haslog ft d w h' X (E ++ newE) /\ true_evals (k_crit K) X newE /\
    map fst newE = expand (map (fun kv => (fst kv, Z.to_nat (snd kv))) info) /\
    forall i, length (evals_of i newE)
              = list_sum (map (fun kv => Z.to_nat (snd kv)) (filter (fun p => fst p =? i) info)).
Proof.
  intros HL H HI. unfold evaluate in H.
  destruct (m_eval_inv _ _ _ _ _ _ _ _ _ _ HL (gk_crit _ _ _ _ GK) H) as (vals & LV & L2 & T2).
  { apply Forall_map. eapply Forall_impl; [|exact HI]. auto. }
  set (info' := map _ info) in *. exists (combine (expand info') vals).
  assert (MF : map fst (combine (expand info') vals) = expand info').
  { apply combine_fst. rewrite expand_length. lia. }
  repeat (split; [easy|]). intros i. rewrite evals_of_length, MF, count_occ_expand.
  unfold info'. clear. induction info as [|[k v] info IH]; simpl; auto.
  destruct (k =? i); simpl; auto.
Qed.

(** Evaluations [n] for each of the fresh indices [seq (length X) m]. *)
Lemma filter_seq_map (n : Z) a m i :
  list_sum (map (fun kv => Z.to_nat (snd kv)) (filter (fun p => fst p =? i)
     (map (fun i => (i, n)) (seq a m))))
  = if (a <=? i) && (i <? a + m) then Z.to_nat n else 0.
Proof.
  revert a. induction m as [|m IH]; intros a; simpl.
  - destruct (Nat.leb_spec a i), (Nat.ltb_spec i (a + 0)); simpl; auto; lia.
  - specialize (IH (S a)). destruct (Nat.eqb_spec a i) as [->|N]; simpl; rewrite IH.
    + destruct (Nat.leb_spec (S i) i); [lia|]. destruct (Nat.leb_spec i i); [|lia].
      destruct (Nat.ltb_spec i (i + S m)); simpl; lia.
    + destruct (Nat.leb_spec (S a) i), (Nat.leb_spec a i), (Nat.ltb_spec i (S a + m)),
        (Nat.ltb_spec i (a + S m)); simpl; auto; lia.
Qed.

Lemma map_fst_pairs A B (n : B) (l : list A) : map fst (map (fun i => (i, n)) l) = l.
Proof. rewrite map_map. simpl. apply map_id. Qed.

Lemma sum_pairs (n : Z) (l : list nat) :
  length (expand (map (fun kv => (fst kv, Z.to_nat (snd kv))) (map (fun i => (i, n)) l)))
  = Z.to_nat n * length l.
Proof.
  rewrite expand_length, !map_map. simpl. induction l; simpl; lia.
Qed.

(** * One resampling trial *)
Lemma trial_inv st n t j wk h X E h' wk' :
  haslog ft d w h X E -> E <> [] -> at_point X st -> good_work st X E n wk ->
  trial K O t j st n wk h = (h', Ok wk') ->
  exists newX newE evs,
    phase st n X E (w_events wk) h' newX newE evs wk' /\
    length (filter is_sample evs) = 1 /\ length newE = Z.to_nat n * length newX /\
    map fst newE = expand (map (fun kv => (fst kv, Z.to_nat (snd kv)))
                      (map (fun i => (i, n)) (seq (length X) (length newX)))) /\
    (exists h1 m, In (EvSample h1 (sample_increment (stag_o O)) newX) evs /\
       k_sample K t (S j) h1 (st_region st) (sample_increment (stag_o O)) m = Ok newX) /\
    ((0 <= r_radius (st_region st))%R ->
     In (st_index st) (w_indices wk) -> In (st_index st) (w_indices wk') /\ Forall (has_cur st) evs).
Proof.
  intros HL HE HA HW H. unfold trial in H.
  destruct (at_point_dim _ _ _ _ HL HA) as (D1 & _ & Hi).
  destruct HW as [W1 W2 W3 W4 W5].
  inv_bind H. destruct a as [xs1 idx1].
  assert (DR : xs1 = map (fun i => nth i X []) idx1 /\ NoDup idx1 /\ incl idx1 (w_indices wk) /\
     ((0 <= r_radius (st_region st))%R -> In (st_index st) (w_indices wk) -> In (st_index st) idx1)).
  { destruct (stag_drop (stag_o O) && (sample_increment (stag_o O) <? length (w_xs wk))) eqn:C.
    - destruct (drop_aligned X st _ _ _ _ _ W3 W1 E0) as (A1 & A2 & A3 & A4 & A5).
      apply andb_prop in C as [_ C]. apply Nat.ltb_lt in C. auto 8.
    - injection E0 as <- <-. auto using incl_refl. }
  destruct DR as (A1 & A2 & A3 & A5).
  inv_bind H. rename E1 into ES. inv_bind H. injection E1 as <-.
  pose proof (gk_sample _ _ _ _ GK t (S j) _ _ _ _ _ D1 ES) as DX.
  destruct (m_add_xs_log _ _ _ _ _ _ a HL DX) as (h2 & E3 & L2).
  apply mbind_inv in H as (h2' & is & E3' & H). rewrite E3 in E3'. injection E3' as <- <-.
  set (new := seq (length X) (length a)) in *.
  rewrite dict_of_nodup in H by (rewrite map_fst_pairs; apply seq_NoDup).
  apply mbind_inv in H as (h3 & [] & E4 & H).
  assert (LA : length (X ++ a) = length X + length a) by apply app_length.
  destruct (evaluate_inv _ _ _ _ _ L2 E4) as (newE & L3 & T3 & MF & CE).
  { apply Forall_map, Forall_forall. intros i Hi'. apply in_seq in Hi'. simpl. lia. }
  inv_bind H. unfold concatenate_indices in *.
  assert (HXa : X ++ a <> []) by (intros Hz; apply app_eq_nil in Hz as [-> _]; simpl in Hi; lia).
  assert (I1 : Forall (fun i => i < length X) idx1).
  { apply Forall_forall. rewrite Forall_forall in W2. auto. }
  assert (I2 : Forall (fun i => i < length (X ++ a)) (idx1 ++ new)).
  { apply Forall_app. split; apply Forall_forall; intros i Hi'.
    - rewrite Forall_forall in I1. specialize (I1 _ Hi'). lia.
    - apply in_seq in Hi'. lia. }
  apply (xs_many_exact _ _ _ _ _ L3 HXa I2) in E1.
  apply mbind_inv in H as (h4 & f & E5 & H).
  assert (ND : NoDup (idx1 ++ new)).
  { apply NoDup_app'; [easy|apply seq_NoDup|].
    intros i Hi1 Hi2. rewrite Forall_forall in I1. specialize (I1 _ Hi1). apply in_seq in Hi2. lia. }
  assert (HN : forall i, In i (idx1 ++ new) -> (n <= Z.of_nat (length (evals_of i (E ++ newE))))%Z).
  { intros i Hi'. apply in_app_or in Hi' as [Hi'|Hi'].
    - apply evals_more. auto.
    - rewrite evals_of_app, app_length, CE. unfold new. rewrite filter_seq_map.
      apply in_seq in Hi'. destruct (Nat.leb_spec (length X) i); [|lia].
      destruct (Nat.ltb_spec i (length X + length a)); [|lia]. simpl. lia. }
  assert (NE : E ++ newE <> []) by (destruct E; [easy|discriminate]).
  destruct (fit_and_solve_inv st _ _ _ _ n _ _ L3 NE (at_point_more _ _ _ HA) ND I2 HN E5)
    as (-> & F0 & F1 & F2 & F3 & _ & F4 & SV & FB).
  apply mret_inv in H as [-> ->].
  set (ev := EvSample h (sample_increment (stag_o O)) a) in *.
  exists a, newE, [ev; f_event f].
  split.
  { split; cbn [w_events]; auto.
    - unfold all_sampled. simpl. rewrite F2. simpl. now rewrite app_nil_r.
    - split; cbn; auto. exists (w_events wk ++ [ev]). now rewrite <- app_assoc. }
  split; [simpl; rewrite F3; reflexivity|].
  split. { rewrite <- (map_length fst newE), MF, sum_pairs. unfold new. now rewrite seq_length. }
  split; [exact MF|].
  split. { exists h, xs1. split; [simpl; auto|easy]. }
  intros Hr HI. cbn [w_indices]. split; [apply in_or_app; auto|].
  constructor; [easy|]. constructor; [|constructor]. apply F4. apply in_or_app; auto.
Qed.

Definition evaluated_new (n : Z) (X : list vec) (newX : list vec) (newE : list (nat * list xr)) : Prop :=
  map fst newE = expand (map (fun kv => (fst kv, Z.to_nat (snd kv)))
                      (map (fun i => (i, n)) (seq (length X) (length newX)))).

Lemma expand_app (a b : list (nat * nat)) : expand (a ++ b) = expand a ++ expand b.
Proof. unfold expand. apply flat_map_app. Qed.

(** The samplers of this iteration produced the new points. *)
Definition from_samplers (t : nat) (st : state VM SM) (x : vec) : Prop :=
  exists j h m n xs, k_sample K t j h (st_region st) n m = Ok xs /\ In x xs.

Lemma stag_loop_inv st n t : forall fuel j wk h X E h' wk',
  haslog ft d w h X E -> E <> [] -> at_point X st -> good_work st X E n wk ->
  stag_loop K O fuel t j st n wk h = (h', Ok wk') ->
  exists newX newE evs,
    phase st n X E (w_events wk) h' newX newE evs wk' /\
    length (filter is_sample evs) <= fuel /\ evaluated_new n X newX newE /\
    (forall x, In x newX -> from_samplers t st x) /\
    (forall h1 k xs, In (EvSample h1 k xs) evs -> k = sample_increment (stag_o O) /\
       exists j m, k_sample K t (S j) h1 (st_region st) k m = Ok xs) /\
    ((0 <= r_radius (st_region st))%R ->
     In (st_index st) (w_indices wk) -> In (st_index st) (w_indices wk') /\ Forall (has_cur st) evs).
Proof.
  induction fuel as [|fuel IH]; intros j wk h X E h' wk' HL HE HA HW H; cbn [stag_loop] in H.
  all: destruct (xlt (f_rel (w_fit wk)) (Fin (min_relative_step (stag_o O)))) eqn:C.
  1: discriminate.
  2: {
    apply mbind_inv in H as (h1 & w1 & E1 & H).
    destruct (trial_inv _ _ _ _ _ _ _ _ _ _ HL HE HA HW E1)
      as (X1 & EE1 & evs1 & P1 & N1 & L1 & M1 & (hs & m & S1 & S2) & C1).
    assert (ONE : forall hh k xs, In (EvSample hh k xs) evs1 ->
      (EvSample hh k xs : event VM) = EvSample hs (sample_increment (stag_o O)) X1).
    { intros hh k xs Hin. assert (G : forall l : list (event VM), length (filter is_sample l) = 1 -> forall a b,
         In a l -> In b l -> is_sample a = true -> is_sample b = true -> a = b).
      { clear. intros l Hl a b Ha Hb Ea Eb.
        assert (In a (filter is_sample l)) by now apply filter_In.
        assert (In b (filter is_sample l)) by now apply filter_In.
        destruct (filter is_sample l) as [|x [|]]; simpl in *; try lia. destruct H, H0; try easy. congruence. }
      apply (G evs1); auto. }
    destruct (max_trials (stag_o O) <=? S j).
    - apply mret_inv in H as [-> ->]. exists X1, EE1, evs1. split; [easy|]. split; [lia|].
      split; [easy|]. split; [|split; [|easy]].
      + intros x Hx. exists (S j), hs, m, (sample_increment (stag_o O)), X1. auto.
      + intros hh k xs Hin. apply ONE in Hin. injection Hin as -> -> ->. split; [easy|]. eauto.
    - destruct P1 as [P1 P2 P3 P4 P5 P6].
      assert (NE : E ++ EE1 <> []) by (destruct E; [easy|discriminate]).
      destruct (IH _ _ _ _ _ _ _ P1 NE (at_point_more _ _ _ HA) P4 H)
        as (X2 & EE2 & evs2 & Q & N2 & M2 & FS2 & SS2 & C2).
      destruct Q as [Q1 Q2 Q3 Q4 Q5 Q6].
      exists (X1 ++ X2), (EE1 ++ EE2), (evs1 ++ evs2).
      split.
      { split; rewrite ?app_assoc; auto.
        - apply true_evals_app; auto. now apply true_evals_more.
        - unfold all_sampled in *. rewrite map_app, concat_app. congruence.
        - rewrite Q5, P5. now rewrite <- app_assoc.
        - apply Forall_app. auto. }
      split; [rewrite filter_app, app_length; lia|].
      split.
      { unfold evaluated_new in *. rewrite map_app, M1, M2, app_length, app_length, seq_app.
        rewrite !map_app, expand_app. reflexivity. }
      split.
      { intros x Hx. apply in_app_or in Hx as [Hx|Hx]; auto.
        exists (S j), hs, m, (sample_increment (stag_o O)), X1. auto. }
      split.
      { intros hh k xs Hin. apply in_app_or in Hin as [Hin|Hin]; [|eapply SS2; eauto].
        apply ONE in Hin. injection Hin as -> -> ->. split; [easy|]. eauto. }
      intros Hr HI. destruct (C1 Hr HI) as [C11 C12]. destruct (C2 Hr C11) as [C21 C22].
      split; auto. apply Forall_app. auto. }
  all: apply mret_inv in H as [-> ->]; exists [], [], [].
  all: split; [split; rewrite ?app_nil_r; auto; intros i v []|].
  all: split; [simpl; lia|split; [reflexivity|split; [intros x []|split; [intros ? ? ? []|auto]]]].
Qed.

Lemma stag_phase_inv st n t wk h X E h' wk' :
  haslog ft d w h X E -> E <> [] -> at_point X st -> good_work st X E n wk ->
  stag_phase K O t st n wk h = (h', Ok wk') ->
  exists newX newE evs,
    phase st n X E (w_events wk) h' newX newE evs wk' /\
    length (filter is_sample evs) <= Nat.max 1 (max_trials (stag_o O)) /\
    evaluated_new n X newX newE /\
    (forall x, In x newX -> from_samplers t st x) /\
    (forall h1 k xs, In (EvSample h1 k xs) evs -> k = sample_increment (stag_o O) /\
       exists j m, k_sample K t (S j) h1 (st_region st) k m = Ok xs) /\
    ((0 <= r_radius (st_region st))%R ->
     In (st_index st) (w_indices wk) -> In (st_index st) (w_indices wk') /\ Forall (has_cur st) evs).
Proof. intros. unfold stag_phase in *. eapply stag_loop_inv; eauto. Qed.

(** * The first model *)

(** The filter keeps the current point if it is there. *)
Definition keeps_current : Prop :=
  forall h st target n xs is xs' is',
    length xs = length is -> NoDup is -> (1 <= target)%Z -> (0 <= r_radius (st_region st))%R ->
    In (st_x st, st_index st) (combine xs is) ->
    k_filter K h st target n xs is = Ok (xs', is') -> In (st_x st, st_index st) (combine xs' is').

(** Additional evaluations of existing points. *)
Definition additional_info (E : list (nat * list xr)) (n : Z) (idx : list nat) : list (nat * Z) :=
  filter (fun kv => (0 <? snd kv)%Z)
    (map (fun i => (i, (n - Z.of_nat (length (evals_of i E)))%Z)) idx).

Lemma additional_exact h X E idx n r : haslog ft d w h X E -> E <> [] -> NoDup idx ->
  Forall (fun i => i < length X) idx ->
  get_additional_eval_info idx h n = Ok r -> r = additional_info E n idx.
Proof.
  intros HL HE ND HI H. unfold get_additional_eval_info, get_n_evals in H.
  rewrite (fvals_many_log _ _ _ _ _ _ idx HL HE HI ND) in H. cbn [bind] in H.
  injection H as <-. unfold additional_info. f_equal. rewrite !map_map. apply map_ext.
  intros i. simpl. unfold fvals_of. now rewrite map_length.
Qed.

Lemma additional_keys E n idx i z : In (i, z) (additional_info E n idx) -> In i idx.
Proof.
  unfold additional_info. intros H. apply filter_In in H as [H _].
  apply in_map_iff in H as (j & Hj & H). now injection Hj as -> _.
Qed.
Lemma additional_nodup E n idx : NoDup idx -> NoDup (map fst (additional_info E n idx)).
Proof.
  unfold additional_info. induction 1 as [|i idx Hi _ IH]; simpl; [constructor|].
  destruct (0 <? _)%Z; auto. simpl. constructor; auto. intros H.
  apply in_map_iff in H as ([j z] & Hj & H). simpl in Hj. subst j.
  now apply (additional_keys E n idx i z) in H.
Qed.
Lemma additional_enough E n idx i : In i idx ->
  (n <= Z.of_nat (length (evals_of i E)) +
        Z.of_nat (list_sum (map (fun kv => Z.to_nat (snd kv))
                     (filter (fun p => (fst p =? i)%nat) (additional_info E n idx)))))%Z.
Proof.
  intros Hi. destruct (Z.leb_spec (n - Z.of_nat (length (evals_of i E))) 0) as [Hn|Hn]; [lia|].
  assert (In (i, (n - Z.of_nat (length (evals_of i E)))%Z) (additional_info E n idx)).
  { unfold additional_info. apply filter_In. split; [|now apply Z.ltb_lt].
    apply in_map_iff. exists i. auto. }
  assert (In (Z.to_nat (n - Z.of_nat (length (evals_of i E))))
             (map (fun kv : nat * Z => Z.to_nat (snd kv))
                (filter (fun p => (fst p =? i)%nat) (additional_info E n idx)))).
  { apply in_map_iff. eexists. split; [|apply filter_In; split; [exact H|]]; simpl; auto.
    apply Nat.eqb_refl. }
  apply list_sum_In in H0. lia.
Qed.

Lemma StronglySorted_lt_NoDup l : StronglySorted lt l -> NoDup l.
Proof.
  induction 1 as [|a l _ IH Ha]; constructor; auto. intros H. rewrite Forall_forall in Ha.
  specialize (Ha _ H). lia.
Qed.

Record first_facts (st : state VM SM) (n : Z) (t : nat) (h : hist) (X : list vec)
    (E : list (nat * list xr)) (newX : list vec) (newE : list (nat * list xr))
    (evs : list (event VM)) (wk : work (VM:=VM) (SM:=SM)) (old : list nat) (fxs : list vec)
    (idx : list nat) : Prop := {
  ff_old : forall i, In i old <-> exists x, nth_error X i = Some x /\
     (dist x (st_x st) <= search_radius_factor O * r_radius (st_region st))%R;
  ff_sorted : StronglySorted lt old;
  ff_filter : k_filter K h st (target_sample_size O) n (map (fun i => nth i X []) old) old = Ok (fxs, idx);
  ff_idx : w_indices wk = idx ++ seq (length X) (length newX);
  ff_sub : incl idx (st_index st :: old);
  ff_len : length fxs = length idx;
  ff_nodup : NoDup idx;
  ff_sample : k_sample K t 0 h (st_region st)
      (Z.to_nat (next_multiple (Z.max 0 (target_sample_size O - zlen fxs)) (batch_size O))) fxs = Ok newX;
  ff_evals : map fst newE = expand (map (fun kv => (fst kv, Z.to_nat (snd kv)))
      (map (fun i => (i, n)) (seq (length X) (length newX)) ++ additional_info E n idx));
  ff_events : exists h1 xs fv o, evs = [EvFound h old;
      EvSample h (Z.to_nat (next_multiple (Z.max 0 (target_sample_size O - zlen fxs)) (batch_size O))) newX;
      EvFit h1 (w_indices wk) xs fv o];
  ff_cur : (0 <= r_radius (st_region st))%R -> (0 <= search_radius_factor O)%R ->
     (1 <= target_sample_size O)%Z -> keeps_current ->
     In (st_index st) (w_indices wk) /\ Forall (has_cur st) evs
}.

Lemma first_model_inv st n t h X E h' wk old :
  haslog ft d w h X E -> E <> [] -> at_point X st ->
  first_model K O t st n h = (h', Ok (wk, old)) ->
  exists newX newE evs fxs idx,
    phase st n X E [] h' newX newE evs wk /\
    first_facts st n t h X E newX newE evs wk old fxs idx.
Proof.
  intros HL HE HA H. unfold first_model in H.
  destruct (at_point_dim _ _ _ _ HL HA) as (D1 & D2 & Hi).
  inv_bind H. rename a into sr. rename E0 into ER. unfold replace_radius in ER.
  apply make_region_center in ER as (RC & RR & _).
  inv_bind H. rename E0 into EI.
  destruct (region_log _ _ _ _ _ _ (r_center sr) (r_radius sr) HL HE) as (is & Q1 & Q2 & Q3 & Q4).
  rewrite Q1 in EI. injection EI as <-. rewrite RC, RR, (proj2 HA) in Q4.
  inv_bind H. injection E0 as <-.
  assert (HX : X <> []) by (intros ->; simpl in Hi; lia).
  inv_bind H. rename E0 into EX. apply (xs_many_exact _ _ _ _ _ HL HX Q3) in EX. subst a.
  inv_bind H. rename E0 into EF. destruct a as [fxs idx].
  assert (NDo : NoDup is) by now apply StronglySorted_lt_NoDup.
  destruct (gk_filter _ _ _ _ GK _ _ _ _ _ _ _ _ (map_length _ _) NDo EF) as (LF & NDf & IF).
  destruct (aligned_sub X (st_x st :: map (fun i => nth i X []) is) (st_index st :: is) fxs idx LF)
    as [AF SF]; [|exact IF|].
  { simpl. f_equal. symmetry. apply nth_error_nth. apply HA. }
  assert (I1 : Forall (fun i => i < length X) idx).
  { apply Forall_forall. intros i Hi'. apply SF in Hi' as [<-|Hi']; [easy|].
    rewrite Forall_forall in Q3. auto. }
  inv_bind H. rename E0 into EA. apply (additional_exact _ _ _ _ _ _ HL HE NDf I1) in EA. subst a.
  set (nn := Z.to_nat _) in H.
  inv_bind H. rename E0 into ES. rename a into newX.
  pose proof (gk_sample _ _ _ _ GK t 0 _ _ _ _ _ D1 ES) as DX.
  inv_bind H. injection E0 as <-.
  destruct (m_add_xs_log _ _ _ _ _ _ newX HL DX) as (h2 & E3 & L2).
  apply mbind_inv in H as (h2' & is' & E3' & H). rewrite E3 in E3'. injection E3' as <- <-.
  set (new := seq (length X) (length newX)) in *.
  assert (LA : length (X ++ newX) = length X + length newX) by apply app_length.
  rewrite dict_of_nodup in H by (rewrite map_fst_pairs; apply seq_NoDup).
  rewrite dict_update_fresh in H.
  2:{ now apply additional_nodup. }
  2:{ intros k Hk Hk2. rewrite map_fst_pairs in Hk2. apply in_seq in Hk2.
      apply in_map_iff in Hk as ([k' z] & <- & Hk). apply additional_keys in Hk. simpl in *.
      rewrite Forall_forall in I1. specialize (I1 _ Hk). lia. }
  apply mbind_inv in H as (h3 & [] & E4 & H).
  destruct (evaluate_inv _ _ _ _ _ L2 E4) as (newE & L3 & T3 & MF & CE).
  { apply Forall_app. split.
    - apply Forall_map, Forall_forall. intros i Hi'. apply in_seq in Hi'. simpl. lia.
    - apply Forall_forall. intros [i z] Hiz. apply additional_keys in Hiz. simpl.
      rewrite Forall_forall in I1. specialize (I1 _ Hiz). lia. }
  unfold concatenate_indices in H.
  inv_bind H.
  assert (HXa : X ++ newX <> []) by (destruct X; [easy|discriminate]).
  assert (I2 : Forall (fun i => i < length (X ++ newX)) (idx ++ new)).
  { apply Forall_app. split; apply Forall_forall; intros i Hi'.
    - rewrite Forall_forall in I1. specialize (I1 _ Hi'). lia.
    - apply in_seq in Hi'. lia. }
  apply (xs_many_exact _ _ _ _ _ L3 HXa I2) in E0. subst a.
  apply mbind_inv in H as (h4 & f & E5 & H).
  assert (ND : NoDup (idx ++ new)).
  { apply NoDup_app'; [easy|apply seq_NoDup|].
    intros i Hi1 Hi2. rewrite Forall_forall in I1. specialize (I1 _ Hi1). apply in_seq in Hi2. lia. }
  assert (HN : forall i, In i (idx ++ new) -> (n <= Z.of_nat (length (evals_of i (E ++ newE))))%Z).
  { intros i Hi'. rewrite evals_of_app, app_length, CE. rewrite filter_app, map_app, list_sum_app.
    unfold new. rewrite filter_seq_map.
    apply in_app_or in Hi' as [Hi'|Hi'].
    - pose proof (additional_enough E n idx i Hi'). lia.
    - apply in_seq in Hi'. destruct (Nat.leb_spec (length X) i); [|lia].
      destruct (Nat.ltb_spec i (length X + length newX)); [|lia]. simpl. lia. }
  assert (NE : E ++ newE <> []) by (destruct E; [easy|discriminate]).
  pose proof E5 as E6.
  destruct (fit_and_solve_inv st _ _ _ _ n _ _ L3 NE (at_point_more _ _ _ HA) ND I2 HN E5)
    as (-> & F0 & F1 & F2 & F3 & _ & F4 & SV & FB).
  apply mret_inv in H as [-> H]. injection H as -> ->.
  exists newX, newE, [EvFound h is; EvSample h nn newX; f_event f], fxs, idx.
  split.
  { split; cbn [w_events]; auto.
    - unfold all_sampled. simpl. rewrite F2. simpl. now rewrite app_nil_r.
    - split; cbn; auto. exists [EvFound h is; EvSample h nn newX]. reflexivity.
    - constructor; [|constructor; [exact DX|constructor; [exact F1|constructor]]].
      exists X, E. auto. }
  split; auto.
  - unfold fit_and_solve in E6. inv_bind E6. inv_bind E6. injection E1 as <-. inv_bind E6. inv_bind E6.
    inv_bind E6. apply mret_inv in E6 as [_ ->]. cbn [f_event w_indices]. do 4 eexists. reflexivity.
  - intros Hr Hf Ht HK. cbn [w_indices].
    assert (C : In (st_index st) idx).
    { assert (CI : In (st_x st, st_index st) (combine fxs idx)).
      { eapply HK; [| |exact Ht|exact Hr| |exact EF]; [apply map_length|easy|].
        apply (cur_pair X); auto. apply Q4. exists (st_x st). split; [apply HA|].
        rewrite dist_refl. now apply Rmult_le_pos. }
      now apply in_combine_r in CI. }
    split; [apply in_or_app; auto|]. constructor; [easy|]. constructor; [easy|].
    constructor; [|constructor]. apply F4. apply in_or_app; auto.
Qed.

(** * One iteration *)

Lemma noise_estimates_inv st h h' r : noise_estimates K O st h = (h', Ok r) ->
  h' = h /\ (noisy O = false -> r = (None, None)) /\
  (noisy O = true -> exists v cov, r = (Some v, Some cov) /\ k_variance K h (st_region st) = Ok v /\
     k_cov K h (st_region st) = Ok cov).
Proof.
  unfold noise_estimates. destruct (noisy O).
  - intros H. inv_bind H. inv_bind H. apply mret_inv in H as [-> ->]. split; [easy|]. split; [easy|]. intros _. eauto.
  - intros H. apply mret_inv in H as [-> ->]. split; [easy|]. split; easy.
Qed.

Record iter_facts (t : nat) (st : state VM SM) (n : Z) (h : hist) (X : list vec)
    (E : list (nat * list xr)) (h' : hist) (st1 st2 : state VM SM) (n' : Z)
    (* after the model phase *) (hm : hist) (newX1 : list vec) (newE1 : list (nat * list xr))
    (wk : work (VM:=VM) (SM:=SM)) (old : list nat) (evs : list (event VM))
    (* acceptance *) (var : option xr) (newX2 : list vec) (newE2 : list (nat * list xr))
    (acc : acceptance) (incr : bool) : Prop := {
  it_phase : phase st n X E [] hm newX1 newE1 evs wk;
  it_log : haslog ft d w h' (X ++ newX1 ++ newX2) (E ++ newE1 ++ newE2);
  it_decided : decided ft (k_crit K) (k_decider K t var) (f_sub (w_fit wk)) (cur_of st)
                 (min_improvement O) (X ++ newX1) newX2 (E ++ newE1) newE2 acc;
  it_st1 : st1 = update_state st wk old acc n;
  it_region : exists reg, st2 = with_region st1 reg /\
     make_region (a_x acc) (adjust_radius (r_radius (st_region st)) (a_rho acc) (a_step_length acc)
                              (radius_o O) incr) (r_bounds (st_region st)) = Ok reg;
  it_quiet : noisy O = false -> n' = n /\ incr = false /\ var = None;
  it_noise : noisy O = true -> exists v cov rho_noise, var = Some v /\ k_variance K hm (st_region st) = Ok v /\
    k_cov K hm (st_region st) = Ok cov /\
    k_rho_noise K t (w_xs wk) (f_vm (w_fit wk)) (st_vector_model st) (st_region st) (Some cov) = Ok rho_noise /\
    (n', incr) = adjust_n_evals n (a_rho acc) rho_noise (noise_o O)
}.

Lemma iteration_inv t st n h X E h' st1 st2 n' :
  haslog ft d w h X E -> E <> [] -> at_point X st ->
  iteration K O t st n h = (h', Ok (st1, st2, n')) ->
  exists hm X1 E1 evs1 w0 old fxs idx evs2 w1 X3 E3 evs3 wk var X2 E2 acc incr,
    phase st n X E [] hm X1 E1 evs1 w0 /\
    first_facts st n t h X E X1 E1 evs1 w0 old fxs idx /\
    phase st n (X ++ X1) (E ++ E1) evs1 hm [] [] evs2 w1 /\
    Forall (fun e => is_sample e = false) evs2 /\ incl (w_indices w1) (w_indices w0) /\
    Forall big_fit evs2 /\
    ((0 <= r_radius (st_region st))%R -> (1 <= target_sample_size O)%Z ->
      In (st_index st) (w_indices w0) -> In (st_index st) (w_indices w1) /\ Forall (has_cur st) evs2) /\
    length (filter is_sample evs3) <= Nat.max 1 (max_trials (stag_o O)) /\
    evaluated_new n (X ++ X1) X3 E3 /\
    (forall x, In x X3 -> from_samplers t st x) /\
    (forall h1 k xs, In (EvSample h1 k xs) evs3 -> k = sample_increment (stag_o O) /\
       exists j m, k_sample K t (S j) h1 (st_region st) k m = Ok xs) /\
    ((0 <= r_radius (st_region st))%R ->
     In (st_index st) (w_indices w1) -> In (st_index st) (w_indices wk) /\ Forall (has_cur st) evs3) /\
    X3 = all_sampled evs3 /\
    exists hm', iter_facts t st n h X E h' st1 st2 n' hm' (X1 ++ X3) (E1 ++ E3) wk old
      (evs1 ++ evs2 ++ evs3) var X2 E2 acc incr.
Proof.
  intros HL HE HA H. unfold iteration in H.
  apply mbind_inv in H as (hm & [w0 old] & EF & H).
  destruct (first_model_inv _ _ _ _ _ _ _ _ _ HL HE HA EF) as (X1 & E1 & evs1 & fxs & idx & P1 & FF).
  apply mbind_inv in H as (h2 & w1 & ED & H).
  assert (NE1 : E ++ E1 <> []) by (destruct E; [easy|discriminate]).
  destruct (drop_phase_inv st n _ _ _ _ _ _ (ph_log _ _ _ _ _ _ _ _ _ _ P1) NE1 (at_point_more _ _ _ HA)
     (ph_work _ _ _ _ _ _ _ _ _ _ P1) ED) as (-> & evs2 & P2 & NS & SB & LE & C2).
  rewrite (ph_events _ _ _ _ _ _ _ _ _ _ P1) in P2. cbn [app] in P2.
  apply mbind_inv in H as (h3 & wk & EG & H).
  pose proof (ph_work _ _ _ _ _ _ _ _ _ _ P2) as W2.
  rewrite !app_nil_r in W2.
  destruct (stag_phase_inv st n t _ _ _ _ _ _ (ph_log _ _ _ _ _ _ _ _ _ _ P1) NE1 (at_point_more _ _ _ HA)
     W2 EG) as (X3 & E3 & evs3 & P3 & NT & EV & FS & SS & C3).
  rewrite (ph_events _ _ _ _ _ _ _ _ _ _ P2) in P3.
  apply mbind_inv in H as (h4 & nz & EN & H).
  apply noise_estimates_inv in EN as (-> & QN & QE).
  apply mbind_inv in H as (h5 & acc & EA & H).
  pose proof (ph_log _ _ _ _ _ _ _ _ _ _ P3) as L3.
  assert (NE3 : (E ++ E1) ++ E3 <> []) by (destruct E; [easy|discriminate]).
  destruct (decider_inv _ _ _ _ _ _ _ _ _ _ (cur_of st) _ _ _ L3 (gk_crit _ _ _ _ GK)
    (gw_dim _ _ _ _ _ (ph_work _ _ _ _ _ _ _ _ _ _ P3))
    (proj1 (at_point_more _ X3 _ (at_point_more _ X1 _ HA))) NE3
    (gk_decider _ _ _ _ GK _ _) EA) as (X2 & E2 & L4 & DC).
  apply mbind_inv in H as (h6 & [nn incr] & EAD & H).
  assert (QA : h6 = h5 /\ (noisy O = false -> nn = n /\ incr = false) /\
    (noisy O = true -> exists rn, k_rho_noise K t (w_xs wk) (f_vm (w_fit wk)) (st_vector_model st) (st_region st) (snd nz) = Ok rn /\
       (nn, incr) = adjust_n_evals n (a_rho acc) rn (noise_o O))).
  { unfold adapt_n_evals in EAD. destruct (noisy O).
    - inv_bind EAD. apply mret_inv in EAD as [-> EAD]. split; [easy|]. split; [easy|]. intros _. eauto.
    - apply mret_inv in EAD as [-> EAD]. injection EAD as -> ->. split; [easy|]. split; easy. }
  destruct QA as (-> & QA & QB).
  inv_bind H. apply mret_inv in H as [-> H]. injection H as -> -> ->.
  cbn [fst snd update_state st_region] in *.
  exists hm, X1, E1, evs1, w0, old, fxs, idx, evs2, w1, X3, E3, evs3, wk, (fst nz), X2, E2, acc, incr.
  repeat (split; [assumption|]).
  split; [exact (ph_newX _ _ _ _ _ _ _ _ _ _ P3)|].
  exists h3. split; auto.
  - pose proof (ph_newX _ _ _ _ _ _ _ _ _ _ P1) as N1.
    pose proof (ph_newX _ _ _ _ _ _ _ _ _ _ P2) as N2.
    pose proof (ph_newX _ _ _ _ _ _ _ _ _ _ P3) as N3.
    destruct P1, P2, P3. split; rewrite ?app_assoc; auto.
    + apply true_evals_app; auto. now apply true_evals_more.
    + unfold all_sampled in *. rewrite !map_app, !concat_app, <- N1, <- N2, <- N3.
      now rewrite app_nil_r.
    + repeat (apply Forall_app; split); auto.
  - clear -L4. repeat rewrite <- app_assoc in L4. repeat rewrite <- app_assoc. exact L4.
  - clear -DC. repeat rewrite <- app_assoc in DC. repeat rewrite <- app_assoc. exact DC.
  - exists a. split; [reflexivity|]. exact E0.
  - intros Hq. destruct (QA Hq) as [-> ->]. rewrite (QN Hq). auto.
  - intros Hq. destruct (QE Hq) as (v & cov & En & EV1 & EC1). destruct (QB Hq) as (rn & ER & EJ).
    exists v, cov, rn. rewrite En in *. auto.
Qed.

End Phases.
