(** C202-C204: what the diagnostic plots show. *)
From Coq Require Import String Reals List Arith ZArith Bool Lia Lra Psatz Sorting.Sorted.
From Verif Require Import Base XR Vec HistoryModel HistorySpec HistoryProofs WrapModel WrapProofs
  VolumeModel RegionModel AdjustModel AcceptModel FilterModel GeometryModel LogSpec LogProofs AcceptProofs
  Prop_Adjust Prop_Accept MainModel MainProofs MainPhases MainLoop MainProgress Prop_Main Prop_Main2
  Prop_Builtin2 VisualizeModel Prop_Visualize Prop_Visualize2 PlotModel.
Import ListNotations.
Open Scope R_scope.

(** * C202 - the line plots over the iterations *)

(** A line over the states with a value for each of them, and a marker whose value is the one of
    the line at the state [s] of the iteration [z]. *)
Definition drawn {A} (val : nat -> vstate -> A -> Prop) (states : list vstate) (z : Z) (s : vstate)
    (line : list (Z * A)) (marker : Z * A) : Prop :=
  length line = length states /\
  (forall k s', nth_error states k = Some s' ->
     exists a, nth_error line k = Some (Z.of_nat k, a) /\ val k s' a) /\
  fst marker = z /\
  exists k, nth_error states k = Some s /\
    (z = Z.of_nat k \/ z = Z.of_nat k - Z.of_nat (length states))%Z /\
    nth_error line k = Some (Z.of_nat k, snd marker).

Lemma index_line_length A (y : list A) : length (index_line y) = length y.
Proof. unfold index_line. rewrite combine_length, map_length, seq_length. lia. Qed.

Lemma nth_error_combine A B (l : list A) : forall (m : list B) k a b,
  nth_error l k = Some a -> nth_error m k = Some b -> nth_error (combine l m) k = Some (a, b).
Proof.
  induction l as [|a' l IH]; intros [|b' m] [|k] a b; cbn; try discriminate; [congruence|].
  apply IH.
Qed.

Lemma index_line_nth A (y : list A) k a :
  nth_error y k = Some a -> nth_error (index_line y) k = Some (Z.of_nat k, a).
Proof.
  intros H. unfold index_line. apply nth_error_combine; [|easy].
  assert (Hk : (k < length y)%nat) by (apply nth_error_Some; congruence).
  rewrite nth_error_map, (nth_error_nth' _ 0%nat) by now rewrite seq_length.
  now rewrite seq_nth.
Qed.

Lemma index_line_In A (y : list A) z a : In (z, a) (index_line y) ->
  exists k, z = Z.of_nat k /\ nth_error y k = Some a.
Proof.
  intros H. apply In_nth_error in H as [k H].
  assert (Hk : (k < length y)%nat) by (rewrite <- (index_line_length _ y); apply nth_error_Some; congruence).
  destruct (nth_error y k) as [b|] eqn:E; [|apply nth_error_None in E; lia].
  rewrite (index_line_nth _ _ _ _ E) in H. injection H as <- <-. eauto.
Qed.

Lemma state_at_index states z s : state_at states z = Ok s ->
  exists k, norm_index (length states) z = Ok k /\ nth_error states k = Some s /\
    (z = Z.of_nat k \/ z = Z.of_nat k - Z.of_nat (length states))%Z.
Proof.
  unfold state_at, norm_index. destruct (Z.ltb_spec z 0) as [Hz|Hz].
  - destruct (Z.leb_spec 0 z); [lia|]. cbn [andb].
    destruct (Z.leb_spec 0 (z + Z.of_nat (length states))); [|discriminate].
    destruct (Z.leb_spec (- Z.of_nat (length states)) z); [|lia].
    destruct (Z.ltb_spec (z + Z.of_nat (length states)) (Z.of_nat (length states))); [|discriminate].
    cbn [andb]. destruct (nth_error states (Z.to_nat (z + Z.of_nat (length states)))) eqn:E; [|discriminate].
    intros [= <-]. eexists. split; [reflexivity|]. split; [easy|]. right. lia.
  - destruct (Z.leb_spec 0 z); [|lia]. cbn [andb].
    destruct (Z.ltb_spec z (Z.of_nat (length states))); [|discriminate].
    destruct (nth_error states (Z.to_nat z)) eqn:E; [|discriminate].
    intros [= <-]. eexists. split; [reflexivity|]. split; [easy|]. left. lia.
Qed.

Lemma line_drawn A (val : nat -> vstate -> A -> Prop) states (y : list A) z s :
  length y = length states ->
  (forall k s', nth_error states k = Some s' -> exists a, nth_error y k = Some a /\ val k s' a) ->
  state_at states z = Ok s ->
  exists line marker, plot_line_with_highlighted_point y z = Ok (line, marker) /\
    drawn val states z s line marker.
Proof.
  intros HL HV HS. apply state_at_index in HS as (k & HK & HN & HZ).
  destruct (HV k s HN) as (a & Ha & Va). unfold plot_line_with_highlighted_point.
  rewrite HL, HK. cbn [bind]. unfold nth_res. rewrite Ha. cbn [bind].
  exists (index_line y), (z, a). split; [easy|]. unfold drawn.
  rewrite index_line_length. split; [easy|]. split; [|split; [easy|]].
  - intros k' s' Hk'. destruct (HV _ _ Hk') as (a' & Ha' & Va'). exists a'. split; [|easy].
    now apply index_line_nth.
  - exists k. split; [easy|]. split; [easy|]. cbn [snd]. now apply index_line_nth.
Qed.

Theorem C202_radii :
  forall states z s, state_at states z = Ok s ->
    exists line marker, plot_radii states z = Ok (line, marker) /\
      drawn (fun _ s' a => a = v_radius s') states z s line marker /\ marker = (z, v_radius s).
Proof.
  intros states z s HS. unfold plot_radii.
  destruct (line_drawn _ (fun _ s' a => a = v_radius s') states (map v_radius states) z s)
    as (line & marker & HP & HD); [apply map_length| |easy|].
  { intros k s' Hk. exists (v_radius s'). now rewrite nth_error_map, Hk. }
  exists line, marker. split; [easy|]. split; [easy|].
  destruct HD as (_ & HV & HZ & k & Hk & _ & HM). destruct (HV k s Hk) as (a & Ha & ->).
  rewrite HM in Ha. injection Ha as Ha. destruct marker as [z' a']. cbn in *. congruence.
Qed.

(** Ratios of the improvements, moved to [-1, 3]. *)
Theorem C202_rhos :
  forall states z s, state_at states z = Ok s ->
    exists line marker, plot_rhos states z = Ok (line, marker) /\
      drawn (fun _ s' a => (v_rho s' = NaN -> a = NaN) /\
          (v_rho s' <> NaN -> exists c, a = Fin c /\ -1 <= c <= 3) /\
          (forall c, v_rho s' = Fin c -> -1 <= c <= 3 -> a = Fin c)) states z s line marker.
Proof.
  intros states z s HS. apply line_drawn; [|  |easy].
  - unfold clip_rhos. now rewrite !map_length.
  - intros k s' Hk. unfold clip_rhos. rewrite !nth_error_map, Hk. cbn [option_map].
    eexists. split; [reflexivity|].
    pose proof (C149_rhos [v_rho s']) as F. unfold clip_rhos in F. cbn [map] in F.
    inversion F as [|? ? ? ? (F1 & F2 & F3) _]; subst. split; [exact F1|]. split; [exact F2|].
    intros c Hc Hb. rewrite <- Hc. now apply (F3 c).
Qed.

Lemma take_rows_total A (history : list A) is :
  Forall (fun i => (i < length history)%nat) is -> exists rows, take_rows history is = Ok rows.
Proof.
  intros F. induction F as [|i is H F [rows IH]]; [exists []; easy|].
  destruct (nth_error history i) as [row|] eqn:E; [|apply nth_error_None in E; lia].
  exists (row :: rows). apply take_rows_iff. constructor; [easy|]. now apply take_rows_iff.
Qed.

Lemma mapM_total A B (f : A -> res B) l : (forall a, In a l -> exists b, f a = Ok b) ->
  exists bs, mapM f l = Ok bs.
Proof.
  induction l as [|a l IH]; intros H; [exists []; easy|].
  destruct (H a (or_introl eq_refl)) as [b Hb].
  destruct IH as [bs IH]; [intros a' Ha'; apply H; now right|].
  exists (b :: bs). apply mapM_iff. constructor; [easy|]. now apply mapM_iff.
Qed.

Lemma F2_length A B (Q : A -> B -> Prop) l m : Forall2 Q l m -> length l = length m.
Proof. induction 1; cbn; congruence. Qed.

Lemma Forall2_nth_l A B (Q : A -> B -> Prop) l m : Forall2 Q l m -> forall k a,
  nth_error l k = Some a -> exists b, nth_error m k = Some b /\ Q a b.
Proof.
  induction 1 as [|a b l m H F IH]; intros [|k] a'; cbn; try discriminate; [|apply IH].
  intros [= <-]. eauto.
Qed.

(** The sample of a state: the rows of its model points. *)
Definition sample_of (history : list vec) (s : vstate) (sample : list vec) : Prop :=
  Forall2 (fun i p => nth_error history i = Some p) (v_model_indices s) sample.

Theorem C202_fekete :
  forall region_of history states z s,
    (forall s', In s' states -> Forall (fun i => (i < length history)%nat) (v_model_indices s')) ->
    state_at states z = Ok s ->
    exists line marker, plot_fekete_criterion region_of history states z = Ok (line, marker) /\
      drawn (fun k s' a => (k = 0%nat -> a = NaN) /\
          (0 < k -> exists sample, sample_of history s' sample /\
             a = log_d_quality_calculator sample (region_of s'))%nat) states z s line marker.
Proof.
  intros region_of history states z s HI HS.
  unfold plot_fekete_criterion, get_fekete_criterion.
  set (f := fun s0 : vstate => _).
  destruct (mapM_total _ _ f (tl states)) as [out Hout].
  { intros s' Hs'. unfold f. destruct (take_rows_total _ history (v_model_indices s')) as [rows ->].
    - apply HI. destruct states; [easy|]. now right.
    - cbn [bind]. eauto. }
  rewrite Hout. cbn [bind]. apply mapM_iff in Hout.
  assert (NE : states <> []).
  { intros ->. apply state_at_index in HS as (k & _ & Hk & _). now destruct k. }
  apply line_drawn; [| |easy].
  - cbn [length]. rewrite <- (F2_length _ _ _ _ _ Hout). destruct states; easy.
  - intros k s' Hk. destruct states as [|s0 states]; [easy|]. cbn [tl] in Hout. destruct k as [|k].
    + exists NaN. split; [easy|]. split; [easy|lia].
    + cbn in Hk |- *. destruct (Forall2_nth_l _ _ _ _ _ Hout k s' Hk) as (a & Ha & Hf).
      exists a. split; [easy|]. split; [easy|]. intros _. unfold f in Hf.
      destruct (take_rows history (v_model_indices s')) as [rows|] eqn:ER; [|discriminate].
      cbn [bind] in Hf. injection Hf as <-. exists rows. split; [|easy]. now apply take_rows_iff.
Qed.

Theorem C202_cluster_ratios :
  forall history dim states z s,
    (forall s', In s' states -> 0 <= v_radius s' /\ v_model_indices s' <> [] /\
       Forall (fun i => (i < length history)%nat) (v_model_indices s')) ->
    state_at states z = Ok s ->
    exists plots, plot_clusters_points_ratio history dim states z = Ok plots /\
      Forall2 (fun f plot =>
        drawn (fun k s' a => (k = 0%nat -> a = None) /\
          ((0 < k)%nat -> exists ratio, a = Some ratio /\ 0 < ratio <= 1 /\
             (ratio = 1 <-> forall a b i j, (a < b)%nat -> nth_error (v_model_indices s') a = Some i ->
                nth_error (v_model_indices s') b = Some j ->
                v_radius s' * Rpower (1 / INR (f * length (v_model_indices s'))) (1 / INR dim)
                  < dist (nth i history []) (nth j history []))))
          states z s (fst plot) (snd plot)) [1; 2; 10]%nat plots.
Proof.
  intros history dim states z s HI HS. unfold plot_clusters_points_ratio.
  set (g := fun f : nat => _).
  set (V := fun f : nat => _).
  assert (G : forall f, (1 <= f)%nat -> exists plot, g f = Ok plot /\ V f plot).
  { intros f Hf. unfold g, V, cluster_ratios.
    destruct (mapM_total _ _ (cluster_ratio history dim f) (tl states)) as [out Hout].
    { intros s' Hs'. destruct (HI s') as (H1 & H2 & H3); [destruct states; [easy|now right]|].
      destruct (C149_cluster_ratio history dim f s' Hf H1 H2 H3) as (a & Ha & _). eauto. }
    rewrite Hout. cbn [bind]. apply mapM_iff in Hout.
    assert (NE : states <> []).
    { intros ->. apply state_at_index in HS as (k & _ & Hk & _). now destruct k. }
    set (val := fun (k : nat) (s' : vstate) (a : option R) => _).
    destruct (line_drawn _ val states (None :: map Some out) z s) as (line & marker & HP & HD); [| |easy|].
    - cbn [length]. rewrite map_length, <- (F2_length _ _ _ _ _ Hout). destruct states; easy.
    - intros k s' Hk. destruct states as [|s0 states]; [easy|]. cbn [tl] in Hout. destruct k as [|k].
      + exists None. split; [easy|]. split; [easy|lia].
      + cbn in Hk |- *. destruct (Forall2_nth_l _ _ _ _ _ Hout k s' Hk) as (a & Ha & Hr).
        exists (Some a). rewrite nth_error_map, Ha. split; [easy|]. split; [easy|]. intros _.
        destruct (HI s') as (H1 & H2 & H3); [right; eapply nth_error_In; eauto|].
        destruct (C149_cluster_ratio history dim f s' Hf H1 H2 H3) as (a' & Ha' & HB).
        rewrite Hr in Ha'. injection Ha' as <-. exists a. split; [easy|]. exact HB.
    - exists (line, marker). split; [exact HP|exact HD]. }
  destruct (G 1%nat) as (p1 & G1 & V1); [lia|]. destruct (G 2%nat) as (p2 & G2 & V2); [lia|].
  destruct (G 10%nat) as (p3 & G3 & V3); [lia|]. exists [p1; p2; p3]. split.
  - apply mapM_iff. repeat (constructor; [assumption|]). constructor.
  - repeat (constructor; [assumption|]). constructor.
Qed.

(** An iteration counted from the start is highlighted on the line. *)
Theorem C202_marker_on_line_partial :
  forall A val states z s (line : list (Z * A)) marker,
    drawn val states z s line marker -> (0 <= z)%Z -> In marker line.
Proof.
  intros A val states z s line marker (HL & _ & HZ & k & Hk & HE & HM) H.
  assert (k < length states)%nat by (apply nth_error_Some; congruence).
  assert (z = Z.of_nat k) by lia. destruct marker as [z' a]. cbn [fst snd] in *. subst z'.
  rewrite H1. eapply nth_error_In, HM.
Qed.

(** An iteration counted from the end selects a state, but its marker is drawn to the left of the
    line. *)
Theorem C202_marker_on_line_refuted :
  forall states z s, (z < 0)%Z -> state_at states z = Ok s ->
    exists line marker, plot_radii states z = Ok (line, marker) /\ marker = (z, v_radius s) /\
      forall x a, In (x, a) line -> (fst marker < x)%Z.
Proof.
  intros states z s Hz HS. destruct (C202_radii states z s HS) as (line & marker & HP & HD & ->).
  exists line, (z, v_radius s). split; [easy|]. split; [easy|]. intros x a Hin. cbn [fst].
  destruct HD as (HL & HV & _). apply In_nth_error in Hin as [k Hk].
  assert (k < length line)%nat by (apply nth_error_Some; congruence).
  destruct (nth_error states k) as [s'|] eqn:E; [|apply nth_error_None in E; lia].
  destruct (HV k s' E) as (b & Hb & _). rewrite Hk in Hb. injection Hb as -> _. lia.
Qed.

Example C202_instance :
  let s0 := mkVState [0] 1 [0] NaN [] [] [] [] None 0 in
  let s1 := mkVState [0] 2 [0] (Fin 5) [] [0; 1]%nat [] [] None 0 in
  plot_radii [s0; s1] 1 = Ok ([(0%Z, 1); (1%Z, 2)], (1%Z, 2)) /\
  plot_radii [s0; s1] (-1) = Ok ([(0%Z, 1); (1%Z, 2)], ((-1)%Z, 2)) /\
  state_at [s0; s1] (-1) = Ok s1 /\
  (exists plots, plot_clusters_points_ratio [[0]; [7]] 1 [s1; s1] 1 = Ok plots /\ length plots = 3%nat) /\
  exists q, plot_fekete_criterion (fun _ => mkRegion [0] 1 None Sphere [0 - 1] [0 + 1]) [[0]; [7]] [s0; s1] 1 =
    Ok ([(0%Z, NaN); (1%Z, q)], (1%Z, q)).
Proof.
  intros s0 s1. repeat (split; [reflexivity|]). split.
  - destruct (C202_cluster_ratios [[0]; [7]] 1 [s1; s1] 1 s1) as (plots & HP & F).
    + intros s' [<-|[<-|[]]]; cbn; (split; [lra|]); (split; [easy|]); repeat constructor.
    + reflexivity.
    + exists plots. split; [easy|]. now rewrite <- (F2_length _ _ _ _ _ F).
  - eexists. unfold plot_fekete_criterion, get_fekete_criterion. cbn -[log_d_quality_calculator].
    reflexivity.
Qed.

(** * C203 - the criterion plot *)

Lemma markers_iff history is out :
  markers history is = Ok out <->
  map fst out = is /\ Forall (fun m => nth_error history (fst m) = Some (snd m)) out.
Proof.
  unfold markers. split.
  - destruct (take_rows history is) as [rows|] eqn:E; [|discriminate]. cbn [bind]. intros [= <-].
    apply take_rows_iff in E. induction E as [|i row is rows H F [IH1 IH2]]; cbn; [auto|].
    split; [now rewrite IH1|]. constructor; auto.
  - intros [<- F]. rewrite (proj2 (take_rows_iff history (map fst out) (map snd out))).
    + cbn [bind]. f_equal. clear. induction out as [|[i v] out IH]; cbn; congruence.
    + induction F; cbn; constructor; auto.
Qed.

Lemma markers_total history is : Forall (fun i => (i < length history)%nat) is ->
  exists out, markers history is = Ok out.
Proof. intros F. unfold markers. destruct (take_rows_total _ _ _ F) as [rows ->]. cbn. eauto. Qed.

(** The indices that are marked. *)
Definition marked (s : vstate) (i : nat) : Prop :=
  In i (v_old_used s) \/ In i (v_new_indices s) \/
  (exists l, v_discarded s = Some l /\ In i l) \/ i = v_index s.

Theorem C203_markers :
  forall history s t, plot_criterion history s = Ok t ->
    (forall x a, In (x, a) (ct_line t) <-> exists k, x = Z.of_nat k /\ nth_error history k = Some a) /\
    map fst (ct_existing t) = v_old_used s /\ map fst (ct_new t) = v_new_indices s /\
    map fst (ct_discarded t) = match v_discarded s with Some l => l | None => [] end /\
    fst (ct_current t) = v_index s /\
    forall i a, In (i, a) (ct_existing t ++ ct_new t ++ ct_discarded t ++ [ct_current t]) ->
      In (Z.of_nat i, a) (ct_line t).
Proof.
  intros history s t H. unfold plot_criterion in H.
  destruct (markers history (v_old_used s)) as [e|] eqn:E1; [|discriminate]. cbn [bind] in H.
  destruct (markers history (v_new_indices s)) as [n|] eqn:E2; [|discriminate]. cbn [bind] in H.
  destruct (markers history (match v_discarded s with Some l => l | None => [] end)) as [d|] eqn:E3;
    [|discriminate]. cbn [bind] in H.
  unfold nth_res in H. destruct (nth_error history (v_index s)) as [c|] eqn:E4; [|discriminate].
  cbn [bind] in H. injection H as <-. cbn [ct_line ct_existing ct_new ct_discarded ct_current fst].
  apply markers_iff in E1 as [M1 F1]. apply markers_iff in E2 as [M2 F2]. apply markers_iff in E3 as [M3 F3].
  assert (L : forall i a, nth_error history i = Some a -> In (Z.of_nat i, a) (index_line history)).
  { intros i a Hi. apply (nth_error_In _ i). now apply index_line_nth. }
  split; [|repeat (split; [easy|])].
  - intros x a. split; [apply index_line_In|]. intros (k & -> & Hk). now apply L.
  - intros i a Hin. apply L. rewrite !in_app_iff in Hin. rewrite Forall_forall in F1, F2, F3.
    destruct Hin as [Hin|[Hin|[Hin|[Hin|[]]]]];
      [apply (F1 _ Hin)|apply (F2 _ Hin)|apply (F3 _ Hin)|]. now injection Hin as <- <-.
Qed.

(** The plot raises exactly if an index is not the one of an evaluation. *)
Theorem C203_raises :
  forall history s,
    ((exists t, plot_criterion history s = Ok t) <-> forall i, marked s i -> (i < length history)%nat) /\
    (forall e, plot_criterion history s = Err e -> e = IndexError).
Proof.
  intros history s.
  assert (ME : forall is e, markers history is = Err e -> e = IndexError).
  { intros is e. unfold markers, take_rows. destruct (mapM (nth_res history) is) as [|e'] eqn:E; [discriminate|].
    cbn [bind]. intros [= <-]. revert e' E. induction is as [|i is IH]; intros e' E; cbn in E; [discriminate|].
    unfold nth_res in E at 1. destruct (nth_error history i); cbn [bind] in E; [|now injection E as <-].
    destruct (mapM (nth_res history) is) as [|e2]; cbn [bind] in E; [discriminate|].
    injection E as <-. now apply IH. }
  split.
  - split.
    + intros [t H] i Hi. destruct (C203_markers history s t H) as (HL & M1 & M2 & M3 & M4 & MA).
      assert (exists a, In (Z.of_nat i, a) (ct_line t)) as [a Ha].
      { assert (In i (map fst (ct_existing t ++ ct_new t ++ ct_discarded t ++ [ct_current t]))) as Hin.
        { rewrite !map_app, !in_app_iff, M1, M2, M3. cbn [map In]. rewrite M4.
          destruct Hi as [Hi|[Hi|[(l & -> & Hi)| ->]]]; auto. }
        apply in_map_iff in Hin as ([i' a] & <- & Hin). exists a. cbn [fst]. now apply MA. }
      apply HL in Ha as (k & Hk & Hn). apply Nat2Z.inj in Hk. subst k. apply nth_error_Some. congruence.
    + intros H. unfold plot_criterion.
      destruct (markers_total history (v_old_used s)) as [e ->].
      { apply Forall_forall. intros i Hi. apply H. now left. }
      cbn [bind]. destruct (markers_total history (v_new_indices s)) as [n ->].
      { apply Forall_forall. intros i Hi. apply H. right. now left. }
      cbn [bind]. destruct (markers_total history (match v_discarded s with Some l => l | None => [] end)) as [d ->].
      { apply Forall_forall. intros i Hi. apply H. right. right. left.
        destruct (v_discarded s) as [l|]; [eauto|easy]. }
      cbn [bind]. unfold nth_res. destruct (nth_error history (v_index s)) as [c|] eqn:E; [cbn; eauto|].
      apply nth_error_None in E. specialize (H (v_index s) ltac:(right; right; now right)). lia.
  - intros e H. unfold plot_criterion in H.
    destruct (markers history (v_old_used s)) as [?|] eqn:E1; cbn [bind] in H;
      [|injection H as <-; now apply (ME _ _ E1)].
    destruct (markers history (v_new_indices s)) as [?|] eqn:E2; cbn [bind] in H;
      [|injection H as <-; now apply (ME _ _ E2)].
    destruct (markers history (match v_discarded s with Some l => l | None => [] end)) as [?|] eqn:E3;
      cbn [bind] in H; [|injection H as <-; now apply (ME _ _ E3)].
    unfold nth_res in H. destruct (nth_error history (v_index s)); cbn [bind] in H; [discriminate|].
    now injection H as <-.
Qed.

Lemma xs_one_bound h i y : get_xs_one h (Z.of_nat i) = Ok y -> (i < h_nxs h)%nat.
Proof.
  unfold get_xs_one, get_xs_all. destruct (h_xs h) as [b|]; [|discriminate]. cbn [bind].
  unfold norm_index. set (n := length _).
  assert (n <= h_nxs h)%nat by (unfold n; rewrite firstn_length; lia).
  destruct (Z.leb_spec 0 (Z.of_nat i)); [|lia].
  destruct (Z.ltb_spec (Z.of_nat i) (Z.of_nat n)); cbn [andb]; [lia|].
  destruct (Z.ltb_spec (Z.of_nat i) 0); [lia|]. rewrite andb_false_r. discriminate.
Qed.

(** For the runs of C143 all plots of the criterion can be drawn, and every model point of the
    state is marked exactly once, as new or as existing. *)
Theorem C203_run :
  forall VM SM CV ft d w (K : components VM SM CV) O pad x r0 b h r,
    valid_run ft d w K O pad x r0 b h r ->
    noisy O = false -> n_evals_per_point0 O = 1%Z -> (n_evals_at_start O <= 1)%Z ->
    (forall t v, no_reevaluation (k_decider K t v) /\ k_decider K t v <> NaiveNoisy) ->
    forall history s v, length history = h_nfun h -> In s (res_states r) ->
      v_new_indices v = st_new_indices s -> v_old_used v = st_old_indices_used s ->
      v_discarded v = Some (st_old_indices_discarded s) -> v_index v = st_index s ->
      exists t, plot_criterion history v = Ok t /\
        NoDup (map fst (ct_existing t ++ ct_new t)) /\
        forall i, In i (map fst (ct_existing t ++ ct_new t)) <-> In i (st_model_indices s).
Proof.
  intros VM SM CV ft d w K O pad x r0 b h r V HQ HN HS HD history s v HL Hs V2 V3 V4 V5.
  destruct (run_in_order _ _ _ _ _ _ _ _ _ _ _ _ _ _ V HQ HN HS HD) as (X & E & HLog & HO & HB).
  destruct (haslog_rep _ _ _ _ _ _ HLog) as [HR _].
  assert (LX : length history = length X).
  { rewrite HL. destruct (C143_evaluated_in_order _ _ _ _ _ _ _ _ _ _ _ _ _ _ V HQ HN HS HD) as (-> & _).
    apply (rep_nxs _ _ _ _ _ HR). }
  destruct (C83_index_sets _ _ _ _ _ _ _ _ _ _ _ _ _ _ V) as [I1 _].
  specialize (I1 s Hs) as (SN & SO & _ & DJ & PT). specialize (HB s Hs). rewrite Forall_forall in HB.
  destruct (C78_states_are_consistent _ _ _ _ _ _ _ _ _ _ _ _ _ _ V) as [CX _].
  destruct (CX s Hs) as [CX' _]. apply xs_one_bound in CX'. rewrite (rep_nxs _ _ _ _ _ HR) in CX'.
  destruct (proj2 (proj1 (C203_raises history v))) as [t Ht].
  { intros i. unfold marked. rewrite V2, V3, V4, V5, LX. intros [Hi|[Hi|[(l & [= <-] & Hi)| ->]]]; [| | |easy];
      apply HB; apply in_app_iff; [left|left|right; easy]; apply PT; auto. }
  exists t. split; [easy|]. destruct (C203_markers history v t Ht) as (_ & M1 & M2 & _).
  rewrite map_app, M1, M2, V2, V3. split.
  - apply NoDup_app'; [now apply StronglySorted_lt_NoDup|now apply StronglySorted_lt_NoDup|].
    intros i H1 H2. apply (DJ i). auto.
  - intros i. rewrite in_app_iff, PT. tauto.
Qed.

Example C203_instance :
  (exists h r, valid_run Scalar 1 1 (ex_components (fun c => c / 2)%R (fun _ _ => Classic) center_sampler ex_crit)
    (ex_config 5 false true) 0 [3%R] 1 None h r /\ (2 <= length (res_states r))%nat /\
    forall s, In s (res_states r) -> exists t, plot_criterion (repeat (Fin 0) (h_nfun h))
      (mkVState [] 0 [] NaN [] [] (st_new_indices s) (st_old_indices_used s)
         (Some (st_old_indices_discarded s)) (st_index s)) = Ok t) /\
  plot_criterion [Fin 3; Fin 2; PInf] (mkVState [0] 1 [0] NaN [] [] [2]%nat [1]%nat None 1) =
    Ok (mkCriterionTraces [(0%Z, Fin 3); (1%Z, Fin 2); (2%Z, PInf)] [(1%nat, Fin 2)] [(2%nat, PInf)] [] (1%nat, Fin 2)) /\
  plot_criterion [Fin 3; Fin 2; PInf] (mkVState [0] 1 [0] NaN [] [] [3]%nat [1]%nat None 1) = Err IndexError.
Proof.
  split; [|split; reflexivity].
  destruct (ex_run (fun c => c / 2)%R (fun _ _ => Classic) 4 false true None 3 1) as (h & r & V & L);
    cbn; auto.
  exists h, r. split; [easy|]. split; [easy|]. intros s Hs.
  destruct (C203_run _ _ _ _ _ _ _ _ _ _ _ _ _ _ V eq_refl eq_refl ltac:(cbn; lia)
    ltac:(intros; split; [exact I|discriminate]) (repeat (Fin 0) (h_nfun h)) s
    (mkVState [] 0 [] NaN [] [] (st_new_indices s) (st_old_indices_used s)
         (Some (st_old_indices_discarded s)) (st_index s)) (repeat_length _ _) Hs eq_refl eq_refl eq_refl eq_refl)
    as (t & Ht & _). eauto.
Qed.

(** * C204 - the plot of the sample points *)

(** Two parameters: the circle is the smallest axis-parallel box around the ball of the trust
    region (plotly draws the ellipse inscribed in the box), and the points are drawn at their
    coordinates. *)
Theorem C204_two_parameters_partial :
  forall points s c0 c1, length (v_x s) = 2%nat -> v_center s = [c0; c1] -> 0 <= v_radius s ->
    Forall (fun p => length p = 2%nat) points ->
    exists x0 y0 x1 y1 scatter, plot_sample_points points s = Ok (SPCircle x0 y0 x1 y1 scatter) /\
      x1 - x0 = 2 * v_radius s /\ y1 - y0 = 2 * v_radius s /\
      (forall a b, dist [a; b] (v_center s) <= v_radius s -> x0 <= a <= x1 /\ y0 <= b <= y1) /\
      points = map (fun ab => [fst ab; snd ab]) scatter.
Proof.
  intros points s c0 c1 Hx Hc Hr HP. unfold plot_sample_points. rewrite Hx, Hc. cbn [Nat.leb].
  unfold nth_res at 1 2. cbn [nth_error bind].
  set (f := fun p : vec => _).
  destruct (mapM_total _ _ f points) as [scatter HS].
  { intros p Hp. rewrite Forall_forall in HP. specialize (HP p Hp). unfold f.
    destruct p as [|a [|b [|]]]; try discriminate. cbn. eauto. }
  rewrite HS. cbn [bind]. do 5 eexists. split; [reflexivity|]. split; [ring|]. split; [ring|]. split.
  - intros a b H. unfold dist, norm, vsub, sumsq in H. cbn [map2] in H. rewrite !dot_cons in H.
    unfold dot in H. cbn in H. rewrite Rplus_0_r in H.
    assert (Q : (a - c0) * (a - c0) + (b - c1) * (b - c1) <= v_radius s * v_radius s).
    { pose proof (Rle_0_sqr (a - c0)) as S1. pose proof (Rle_0_sqr (b - c1)) as S2. unfold Rsqr in S1, S2.
      rewrite <- (sqrt_sqrt ((a - c0) * (a - c0) + (b - c1) * (b - c1))) by lra.
      apply Rmult_le_compat; try apply sqrt_pos; easy. }
    pose proof (Rle_0_sqr (a - c0)) as S1. pose proof (Rle_0_sqr (b - c1)) as S2. unfold Rsqr in S1, S2.
    assert (Rabs (a - c0) <= v_radius s).
    { apply Rsqr_incr_0_var; [|easy]. rewrite <- Rsqr_abs. unfold Rsqr. lra. }
    assert (Rabs (b - c1) <= v_radius s).
    { apply Rsqr_incr_0_var; [|easy]. rewrite <- Rsqr_abs. unfold Rsqr. lra. }
    pose proof (Rle_abs (a - c0)). pose proof (Rle_abs (- (a - c0))). rewrite Rabs_Ropp in *.
    pose proof (Rle_abs (b - c1)). pose proof (Rle_abs (- (b - c1))). rewrite Rabs_Ropp in *. lra.
  - apply mapM_iff in HS. clear - HS HP. induction HS as [|p ab points scatter H F IH]; [easy|].
    inversion HP as [|? ? H1 H2]; subst. cbn [map]. rewrite <- IH by easy. f_equal. unfold f in H.
    destruct p as [|a [|b [|]]]; try discriminate. cbn in H. now injection H as <-.
Qed.

(** One parameter: the branch for at most two parameters reads a second coordinate of the center
    and raises. *)
Theorem C204_one_parameter_refuted :
  forall points s c, length (v_x s) = 1%nat -> v_center s = [c] ->
    plot_sample_points points s = Err IndexError.
Proof. intros points s c Hx Hc. unfold plot_sample_points. now rewrite Hx, Hc. Qed.

Lemma abs_correlation_spec a b q : length a = length b -> abs_correlation a b = Some q -> 0 <= q <= 1.
Proof.
  intros HL. unfold abs_correlation. set (da := map _ a). set (db := map _ b).
  assert (LD : length da = length db) by (unfold da, db; now rewrite !map_length).
  destruct (Reqb_spec (sumsq da * sumsq db) 0) as [|N]; [discriminate|]. intros [= <-].
  split; [apply Rabs_pos|]. pose proof (sumsq_nonneg da). pose proof (sumsq_nonneg db).
  assert (P : 0 < sumsq da * sumsq db) by (assert (0 <= sumsq da * sumsq db) by nra; lra).
  pose proof (sqrt_lt_R0 _ P) as SP. unfold Rdiv. rewrite Rabs_mult.
  rewrite (Rabs_pos_eq (/ _)) by (left; now apply Rinv_0_lt_compat).
  apply (Rmult_le_reg_r (sqrt (sumsq da * sumsq db))); [easy|].
  rewrite Rmult_assoc, Rinv_l, Rmult_1_r, Rmult_1_l by lra.
  eapply Rle_trans; [apply cauchy_schwarz; exact LD|]. unfold norm. rewrite <- sqrt_mult by easy. lra.
Qed.

Lemma abs_correlation_affine a alpha beta : alpha <> 0 ->
  (exists u v, In u a /\ In v a /\ u <> v) ->
  abs_correlation a (map (fun u => alpha * u + beta) a) = Some 1.
Proof.
  intros HA (u & v & Hu & Hv & N). set (b := map (fun u => alpha * u + beta) a). unfold abs_correlation.
  assert (NE : INR (length a) <> 0) by (destruct a; [easy|apply not_0_INR; discriminate]).
  set (m := vsum a / INR (length a)).
  assert (MB : vsum b / INR (length b) = alpha * m + beta).
  { assert (VS : vsum b = alpha * vsum a + beta * INR (length a)).
    { unfold b. clear. induction a as [|c a IH]; [cbn; ring|]. cbn [map vsum fold_right length] in *.
      rewrite S_INR. unfold vsum in IH. rewrite IH. ring. }
    unfold b at 2. rewrite map_length, VS. unfold m. now field. }
  rewrite MB. set (da := map (fun w => w - m) a).
  assert (DB : map (fun w => w - (alpha * m + beta)) b = vscale alpha da).
  { unfold b, da, vscale. rewrite !map_map. apply map_ext. intros w. ring. }
  rewrite DB. unfold sumsq at 2 4. rewrite dot_vscale_r, dot_vscale_r, dot_vscale_l.
  fold (sumsq da).
  assert (P : 0 < sumsq da).
  { destruct (sumsq_nonneg da) as [|Q]; [easy|]. symmetry in Q.
    pose proof (sumsq_zero_inv da Q (u - m) (in_map _ _ _ Hu)).
    pose proof (sumsq_zero_inv da Q (v - m) (in_map _ _ _ Hv)). lra. }
  assert (E : sumsq da * (alpha * (alpha * sumsq da)) = (alpha * sumsq da) * (alpha * sumsq da)) by ring.
  assert (NZ : alpha * sumsq da <> 0) by (apply Rmult_integral_contrapositive; split; lra).
  rewrite E. destruct (Reqb_spec (alpha * sumsq da * (alpha * sumsq da)) 0) as [Z|_].
  { apply Rmult_integral in Z. tauto. }
  f_equal. fold (Rsqr (alpha * sumsq da)). rewrite sqrt_Rsqr_abs.
  unfold Rdiv. rewrite Rabs_mult, Rabs_inv, Rabs_Rabsolu. apply Rinv_r. now apply Rabs_no_R0.
Qed.

Lemma constant_column l c : (forall u, In u l -> u = c) ->
  sumsq (map (fun v => v - vsum l / INR (length l)) l) = 0.
Proof.
  intros H. destruct l as [|u l]; [reflexivity|].
  assert (M : vsum (u :: l) / INR (length (u :: l)) = c).
  { assert (V : vsum (u :: l) = c * INR (length (u :: l))).
    { revert H. generalize (u :: l). intros k H. induction k as [|v k IH]; [cbn; ring|].
      cbn [length]. rewrite S_INR. cbn [vsum fold_right]. fold (vsum k). rewrite IH, (H v).
      - ring.
      - now left.
      - intros w Hw. apply H. now right. }
    rewrite V. field. apply not_0_INR. discriminate. }
  rewrite M. clear M. revert H. generalize (u :: l). intros k H. induction k as [|v k IH]; [reflexivity|].
  cbn [map]. rewrite sumsq_cons, IH, (H v); [ring|now left|]. intros w Hw. apply H. now right.
Qed.

Lemma constant_missing a b :
  (exists c, forall u, In u a -> u = c) \/ (exists c, forall u, In u b -> u = c) ->
  abs_correlation a b = None.
Proof.
  intros H. unfold abs_correlation.
  match goal with |- (if Reqb ?p 0 then _ else _) = _ => destruct (Reqb_spec p 0) as [|N]; [easy|] end. elim N.
  destruct H as [[c H]|[c H]]; rewrite (constant_column _ _ H); ring.
Qed.

(** More than two parameters: the heat map has one row and one column per parameter, entries on
    and above the diagonal are left out.  All entries are in the range [0, 1] of the colours; the
    entry of two parameters in an exact affine relation is 1; the entry of a parameter that is the
    same in all points is missing. *)
Theorem C204_heat_map :
  forall points s n, (2 < length (v_x s))%nat -> n = length (v_x s) ->
    exists z, plot_sample_points points s = Ok (SPHeatmap z) /\ length z = n /\
      forall i, (i < n)%nat -> exists row, nth_error z i = Some row /\ length row = n /\
        forall j, (j < n)%nat -> exists q, nth_error row j = Some q /\
          ((i <= j)%nat -> q = None) /\ (forall a, q = Some a -> 0 <= a <= 1) /\
          ((exists c, forall p, In p points -> nth i p 0 = c) \/
           (exists c, forall p, In p points -> nth j p 0 = c) -> q = None) /\
          (forall alpha beta p p', (j < i)%nat -> alpha <> 0 -> In p points -> In p' points ->
             nth i p 0 <> nth i p' 0 ->
             (forall p, In p points -> nth j p 0 = alpha * nth i p 0 + beta) -> q = Some 1).
Proof.
  intros points s n Hn En. unfold plot_sample_points. rewrite <- En in *.
  destruct (Nat.leb_spec n 2); [lia|]. eexists. split; [reflexivity|]. unfold correlations.
  set (column := fun j : nat => map (fun p => nth j p 0) points).
  split; [now rewrite map_length, seq_length|]. intros i Hi.
  rewrite nth_error_map, (nth_error_nth' _ 0%nat), seq_nth by now rewrite ?seq_length.
  cbn [option_map Nat.add]. eexists. split; [reflexivity|]. split; [now rewrite map_length, seq_length|].
  intros j Hj. rewrite nth_error_map, (nth_error_nth' _ 0%nat), seq_nth by now rewrite ?seq_length.
  cbn [option_map Nat.add]. eexists. split; [reflexivity|].
  assert (IC : forall k u, In u (column k) <-> exists p, nth k p 0 = u /\ In p points).
  { intros k u. apply in_map_iff. }
  split; [|split; [|split]].
  - intros H1. destruct (Nat.ltb_spec j i); [lia|easy].
  - intros a. destruct (j <? i)%nat; [|discriminate]. apply abs_correlation_spec.
    unfold column. now rewrite !map_length.
  - intros H1. destruct (j <? i)%nat; [|easy]. apply constant_missing.
    destruct H1 as [(c & H1)|(c & H1)]; [left|right]; exists c;
      intros u Hu; apply IC in Hu as (p & <- & Hp); now apply H1.
  - intros alpha beta p p' Hji HA Hp Hp' N H1. destruct (Nat.ltb_spec j i); [|lia].
    change (abs_correlation (column i) (column j) = Some 1).
    replace (column j) with (map (fun u => alpha * u + beta) (column i)).
    + apply abs_correlation_affine; [easy|]. exists (nth i p 0), (nth i p' 0).
      split; [apply IC; eauto|]. split; [apply IC; eauto|easy].
    + unfold column. rewrite map_map. apply map_ext_in. intros q Hq. symmetry. now apply H1.
Qed.

Example C204_instance :
  (exists x0 y0 x1 y1, plot_sample_points [[1; 2]] (mkVState [0; 0] 3 [0; 0] NaN [] [] [] [] None 0) =
     Ok (SPCircle x0 y0 x1 y1 [(1, 2)])) /\
  plot_sample_points [[1]] (mkVState [0] 3 [0] NaN [] [] [] [] None 0) = Err IndexError /\
  exists z row, plot_sample_points [[1; 2; 0]; [2; 4; 0]] (mkVState [0; 0; 0] 3 [0; 0; 0] NaN [] [] [] [] None 0)
      = Ok (SPHeatmap z) /\ nth_error z 1 = Some row /\ nth_error row 0 = Some (Some 1).
Proof.
  split; [|split; [reflexivity|]]. { do 4 eexists. reflexivity. }
  destruct (C204_heat_map [[1; 2; 0]; [2; 4; 0]] (mkVState [0; 0; 0] 3 [0; 0; 0] NaN [] [] [] [] None 0) 3)
    as (z & HP & _ & HZ); [cbn; lia|easy|]. destruct (HZ 1%nat) as (row & Hrow & _ & HR); [lia|].
  destruct (HR 0%nat) as (q & Hq & _ & _ & _ & HA); [lia|]. exists z, row. split; [easy|]. split; [easy|].
  rewrite Hq. f_equal. apply (HA (/ 2) 0 [1; 2; 0] [2; 4; 0]); [lia|lra|now left|now right; left|cbn; lra|].
  intros p [<-|[<-|[]]]; cbn; field.
Qed.
