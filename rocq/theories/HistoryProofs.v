From Coq Require Import Reals List Arith ZArith Bool Lia.
From Verif Require Import Base XR Vec HistoryModel HistorySpec.
Import ListNotations.
Open Scope nat_scope.

(** * Buffers *)

Lemma write_at_firstn A (arr new : list A) p :
  p <= length arr ->
  firstn (p + length new) (write_at arr new p) = firstn p arr ++ new.
Proof.
  intros H. unfold write_at. rewrite app_assoc, firstn_app.
  rewrite app_length, firstn_length, Nat.min_l by easy.
  rewrite Nat.sub_diag, firstn_O, app_nil_r.
  apply firstn_all2. rewrite app_length, firstn_length. lia.
Qed.

Lemma write_at_length A (arr new : list A) p :
  p + length new <= length arr -> length (write_at arr new p) = length arr.
Proof.
  intros H. unfold write_at. rewrite !app_length, firstn_length, skipn_length. lia.
Qed.

(** A 1d buffer holds [X] in its first [length X] cells. *)
Definition holds {A} (arr : option (list A)) (X : list A) : Prop :=
  match arr with
  | None => X = []
  | Some a => firstn (length X) a = X /\ length X <= length a
  end.

Lemma firstn_app_ext A (a b : list A) n : n <= length a -> firstn n (a ++ b) = firstn n a.
Proof.
  intros. rewrite firstn_app. replace (n - length a) with 0 by lia.
  now rewrite firstn_O, app_nil_r.
Qed.

Lemma extend_holds A (pad : A) a X n :
  firstn (length X) a = X -> length X <= length a ->
  firstn (length X) (extend pad a (length X) n) = X /\
  length X + n <= length (extend pad a (length X) n).
Proof.
  intros H1 H2. unfold extend.
  destruct (Nat.ltb_spec (length a) (length X + n)).
  - split.
    + now rewrite firstn_app_ext.
    + rewrite app_length, repeat_length. lia.
  - split; [easy|lia].
Qed.

Lemma alloc1_holds A (pad : A) arr X :
  holds arr X -> firstn (length X) (alloc1 pad arr) = X /\ length X <= length (alloc1 pad arr).
Proof. destruct arr; simpl; auto. intros ->. simpl. split; [easy|lia]. Qed.

Lemma add_entries1_holds A (pad : A) arr X new :
  holds arr X ->
  holds (Some (add_entries1 pad arr new (length X))) (X ++ new).
Proof.
  intros H. unfold add_entries1.
  apply (alloc1_holds A pad) in H. destruct H as [H1 H2].
  destruct (extend_holds A pad _ X (length new) H1 H2) as [H3 H4].
  simpl. rewrite app_length. split.
  - rewrite write_at_firstn by lia. now rewrite H3.
  - rewrite write_at_length by lia. lia.
Qed.

Definition holds2 {A} (w : nat) (arr : option (buf A)) (X : list (list A)) : Prop :=
  holds (option_map b_rows arr) X /\
  match arr with None => True | Some b => b_width b = w end.

Lemma fit_rows_same A w (new : list (list A)) :
  Forall (fun r => length r = w) new -> mapM (fit_row w) new = Ok new.
Proof.
  induction 1 as [|r new Hr _ IH]; simpl; [easy|].
  unfold fit_row at 1. rewrite Hr, Nat.eqb_refl. simpl. now rewrite IH.
Qed.

Lemma add_entries2_holds A (pad : A) arr X new w :
  w <> 0 ->
  holds2 w arr X -> Forall (fun r => length r = w) new ->
  exists b, add_entries2 pad arr w new (length X) = Ok b /\
            holds2 w (Some b) (X ++ new).
Proof.
  intros Hw [H Hb] Hnew. unfold add_entries2.
  assert (Ha : firstn (length X) (b_rows (alloc2 pad arr w)) = X
               /\ length X <= length (b_rows (alloc2 pad arr w))
               /\ b_width (alloc2 pad arr w) = w).
  { destruct arr; simpl in *; [tauto|]. subst X. simpl. repeat split; lia. }
  destruct Ha as (H1 & H2 & Hwa). rewrite Hwa.
  destruct (extend_holds _ (repeat pad w) _ X (length new) H1 H2) as [H3 H4].
  destruct (Nat.eqb_spec w 0); [easy|].
  rewrite fit_rows_same by easy. simpl.
  eexists; split; [reflexivity|]. split; [|reflexivity]. simpl.
  rewrite app_length. split.
  - rewrite write_at_firstn by lia. now rewrite H3.
  - rewrite write_at_length by lia. lia.
Qed.

(** * Index map *)

Fixpoint pos_from {A} (k i : nat) (E : list (nat * A)) : list nat :=
  match E with
  | [] => []
  | e :: E' => if fst e =? i then k :: pos_from (S k) i E' else pos_from (S k) i E'
  end.

Lemma pos_from_app A k i (E E' : list (nat * A)) :
  pos_from k i (E ++ E') = pos_from k i E ++ pos_from (k + length E) i E'.
Proof.
  revert k; induction E as [|e E IH]; intros k; simpl.
  - now rewrite Nat.add_0_r.
  - rewrite IH. replace (k + S (length E)) with (S k + length E) by lia.
    now destruct (fst e =? i).
Qed.

Lemma pos_from_nth A B (f : A -> B) k i (E : list (nat * A)) rows :
  (forall j e, nth_error E j = Some e -> nth_error rows (k + j) = Some (f (snd e))) ->
  mapM (nth_res rows) (pos_from k i E) = Ok (map f (evals_of i E)).
Proof.
  revert k; induction E as [|e E IH]; intros k H; simpl; [easy|].
  unfold evals_of. simpl. destruct (fst e =? i) eqn:He.
  - simpl. unfold nth_res at 1.
    specialize (H 0 e eq_refl) as H0. rewrite Nat.add_0_r in H0. rewrite H0. simpl.
    rewrite (IH (S k)).
    + easy.
    + intros j e' Hj. specialize (H (S j) e' Hj). now rewrite Nat.add_succ_r in H.
  - apply (IH (S k)). intros j e' Hj. specialize (H (S j) e' Hj).
    now rewrite Nat.add_succ_r in H.
Qed.

Lemma map_append_ok m x f :
  (0 <= x < Z.of_nat (length m))%Z ->
  exists m', map_append m x f = Ok m' /\ length m' = length m /\
    forall i, nth_error m' i =
      match nth_error m i with
      | Some fs => Some (if Z.to_nat x =? i then fs ++ [f] else fs)
      | None => None end.
Proof.
  intros Hx. unfold map_append.
  destruct (Z.ltb_spec x 0); [lia|].
  assert (L : Z.to_nat x < length m) by lia.
  destruct (nth_error m (Z.to_nat x)) as [fs|] eqn:E.
  2: { apply nth_error_None in E. lia. }
  eexists; split; [reflexivity|].
  assert (LF : length (firstn (Z.to_nat x) m) = Z.to_nat x) by (rewrite firstn_length; lia).
  split.
  - rewrite app_length. cbn [length]. rewrite LF, skipn_length. lia.
  - intros i. generalize dependent (Z.to_nat x). intros p L E LF.
    destruct (Nat.lt_trichotomy i p) as [C|[C|C]].
    + rewrite nth_error_app1 by (rewrite LF; lia).
      destruct (Nat.eqb_spec p i); [lia|].
      clear -C. revert p m C; induction i; destruct p, m; simpl; intros; try lia; auto.
      apply IHi; lia.
    + subst i. rewrite nth_error_app2 by (rewrite LF; lia).
      rewrite LF, Nat.sub_diag. simpl. now rewrite E, Nat.eqb_refl.
    + rewrite nth_error_app2 by (rewrite LF; lia). rewrite LF.
      destruct (Nat.eqb_spec p i); [lia|].
      destruct (i - p) as [|q] eqn:Q; [lia|]. cbn [nth_error].
      replace (nth_error (skipn (S p) m) q) with (nth_error m i).
      * now destruct (nth_error m i).
      * replace i with (S p + q) by lia. clear.
        generalize (S p). intros n. revert m; induction n; intros m; simpl; [easy|].
        destruct m; simpl; [now destruct q|apply IHn].
Qed.

Lemma map_append_all_ok m zs k n :
  Forall (fun z => (0 <= z < Z.of_nat (length m))%Z) zs -> n = length zs ->
  exists m', map_append_all m (combine zs (seq k n)) = (m', Ok tt) /\
    length m' = length m /\
    forall A (vs : list A) i, length vs = length zs ->
      nth_error m' i =
      match nth_error m i with
      | Some fs => Some (fs ++ pos_from k i (combine (map Z.to_nat zs) vs))
      | None => None end.
Proof.
  intros H ->. revert m k H; induction zs as [|z zs IH]; intros m k H; simpl.
  - exists m. repeat split. intros A vs i _. destruct (nth_error m i); auto.
    now rewrite app_nil_r.
  - inversion H as [|? ? Hz Hzs]; subst.
    destruct (map_append_ok m z k Hz) as (m1 & E1 & L1 & N1). rewrite E1.
    destruct (IH m1 (S k)) as (m2 & E2 & L2 & N2); [now rewrite L1|].
    exists m2. rewrite E2. split; [easy|]. split; [lia|].
    intros A vs i Hvs. destruct vs as [|v vs]; [discriminate|]. simpl in Hvs.
    rewrite (N2 A vs i) by lia. rewrite N1. simpl.
    destruct (nth_error m i); auto. f_equal.
    destruct (Z.to_nat z =? i); [|easy]. now rewrite <- app_assoc.
Qed.

(** * The representation invariant *)

Record Rep (d w : nat) (h : hist) (X : list (list R)) (E : list (nat * list xr)) : Prop := {
  rep_d : d <> 0;
  rep_w : w <> 0;
  rep_sc : h_ft h = Scalar -> w = 1;
  rep_nxs : h_nxs h = length X;
  rep_nfun : h_nfun h = length E;
  rep_xs : holds2 d (h_xs h) X;
  rep_fvecs : holds2 w (h_fvecs h) (map snd E);
  rep_fvals : holds (h_fvals h) (map (spec_fval (h_ft h)) (map snd E));
  rep_lenm : length (h_map h) = length X;
  rep_map : forall i, i < length X -> nth_error (h_map h) i = Some (pos_from 0 i E);
  rep_xw : Forall (fun r => length r = d) X;
  rep_ew : Forall (fun e => length (snd e) = w) E;
  rep_ei : Forall (fun e => fst e < length X) E
}.

Definition ft_w (ft : functype) (w : nat) : nat :=
  match ft with Scalar => 1 | _ => w end.

Lemma rep_init ft pad d w :
  d <> 0 -> w <> 0 -> Rep d (ft_w ft w) (hist_init ft pad) [] [].
Proof.
  intros Hd Hw. constructor; simpl; auto; try easy.
  - destruct ft; simpl; lia.
  - intros ->. easy.
Qed.

Lemma rows_rect d (rows : list (list R)) :
  Forall (fun r => length r = d) rows -> rectangular rows = true.
Proof.
  destruct 1 as [|r rows Hr Hrs]; simpl; [easy|].
  apply forallb_forall. rewrite Forall_forall in Hrs. intros s Hs.
  apply Nat.eqb_eq. now rewrite Hr, (Hrs s).
Qed.

Definition arg_rows (arg : xs_arg) := match arg with X1 x => [x] | X2 xs => xs end.

Lemma add_xs_rep d w h X E arg :
  Rep d w h X E -> Forall (fun r => length r = d) (rows_of arg) ->
  exists h', add_xs h arg = (h', Ok (fresh_indices (length X) arg)) /\
             h_ft h' = h_ft h /\ h_nfun h' = h_nfun h /\
             Rep d w h' (X ++ rows_of arg) E.
Proof.
  intros HR Hrows. unfold add_xs. fold (arg_rows arg).
  destruct (rows_of arg) as [|r0 rs] eqn:ER.
  - assert (A : arg = X1 [] \/ arg = X2 []).
    { destruct arg as [[|]|]; simpl in ER; subst; auto; discriminate. }
    destruct A as [-> | ->]; simpl; rewrite app_nil_r; eauto 6.
  - assert (A : arg_rows arg = rows_of arg).
    { destruct arg as [[|]|]; simpl in ER; auto; discriminate. }
    rewrite A, ER. rewrite (rows_rect d) by easy.
    assert (Hw0 : row_width (r0 :: rs) = d).
    { simpl. inversion Hrows; auto. }
    rewrite Hw0. pose proof (rep_d _ _ _ _ _ HR) as Hd.
    cbn [length Nat.eqb orb negb].
    destruct (Nat.eqb_spec d 0) as [?|_]; [lia|].
    rewrite (rep_nxs _ _ _ _ _ HR).
    destruct (add_entries2_holds R (h_pad h) (h_xs h) X (r0 :: rs) d Hd
                (rep_xs _ _ _ _ _ HR) Hrows) as (b & Eb & Hb).
    rewrite Eb. eexists. split.
    { f_equal. f_equal. destruct arg as [[|]|xs]; simpl in *; subst; auto; discriminate. }
    split; [reflexivity|]. split; [reflexivity|].
    destruct HR. constructor; simpl; auto.
    + rewrite app_length. simpl. lia.
    + rewrite !app_length. simpl. rewrite repeat_length. lia.
    + intros i Hi. rewrite app_length in Hi. simpl in Hi.
      destruct (Nat.lt_ge_cases i (length X)) as [C|C].
      * rewrite nth_error_app1 by lia. auto.
      * rewrite nth_error_app2 by lia. rewrite rep_lenm0.
        change ([] :: repeat [] (length rs)) with (repeat (@nil nat) (S (length rs))).
        rewrite nth_error_repeat_lt by lia. f_equal.
        clear -rep_ei0 C. generalize 0.
        induction rep_ei0 as [|e E He _ IH]; intros k; simpl; auto.
        destruct (Nat.eqb_spec (fst e) i); [lia|auto].
    + apply Forall_app; auto.
    + rewrite app_length. eapply Forall_impl; [|exact rep_ei0]. simpl; intros; lia.
Qed.

(** Conversion of the evaluations. *)
Lemma all_scalars_ok ev :
  Forall (fun v => match v with VS _ => True | _ => False end) ev ->
  all_scalars ev = Ok (concat (map vec_of ev)).
Proof.
  unfold all_scalars. induction 1 as [|v ev Hv _ IH]; simpl; [easy|].
  destruct v; [|easy]. simpl. rewrite IH. easy.
Qed.

Lemma all_vectors_inv ev rows : all_vectors ev = Ok rows -> rows = map vec_of ev.
Proof.
  unfold all_vectors. revert rows. induction ev as [|v ev IH]; simpl; intros rows H.
  - now injection H as <-.
  - destruct v; simpl in H; [discriminate|].
    destruct (mapM _ ev); simpl in H; [|discriminate]. injection H as <-.
    f_equal. now apply IH.
Qed.

Lemma all_scalars_inv ev l : all_scalars ev = Ok l -> map vec_of ev = map (fun x => [x]) l.
Proof.
  unfold all_scalars. revert l. induction ev as [|v ev IH]; simpl; intros l H.
  - now injection H as <-.
  - destruct v; simpl in H; [|discriminate].
    destruct (mapM _ ev); simpl in H; [|discriminate]. injection H as <-.
    simpl. f_equal. now apply IH.
Qed.

Lemma concat_singletons A (rows : list (list A)) :
  Forall (fun r => length r = 1) rows -> map (fun x => [x]) (concat rows) = rows.
Proof.
  induction 1 as [|r rows Hr _ IH]; simpl; [easy|].
  destruct r as [|a [|]]; try discriminate. simpl. now rewrite IH.
Qed.

(** If the conversion succeeds on good evaluations, it yields one row per evaluation. *)
Lemma to_fvecs_good ft w ev p :
  ev <> [] -> Forall (good_eval ft w) ev -> to_fvecs ft ev = Ok p ->
  p = (ft_w ft w, map vec_of ev).
Proof.
  intros Hne Hg. unfold to_fvecs.
  destruct (as_array ev) as [a|] eqn:EA; simpl; [|discriminate].
  unfold as_array in EA.
  assert (SHAPE : forall rows, rows = map vec_of ev ->
            ft <> Scalar -> Forall (fun r => length r = w) rows ->
            (row_width rows, rows) = (w, map vec_of ev)).
  { intros rows Er _ Hf. subst. destruct ev as [|v ev]; [easy|]. simpl.
    simpl in Hf. inversion Hf; subst. easy. }
  destruct ev as [|[x|l] ev]; [easy| |].
  - destruct (all_scalars (VS x :: ev)) as [l|] eqn:ES; simpl in EA; [|discriminate].
    injection EA as <-. apply all_scalars_inv in ES.
    destruct ft.
    + intros H; injection H as <-. simpl ft_w. now rewrite <- ES.
    + inversion Hg as [|? ? H1 _]; destruct H1.
    + inversion Hg as [|? ? H1 _]; destruct H1.
  - destruct (all_vectors (VV l :: ev)) as [rows|] eqn:ES; simpl in EA; [|discriminate].
    destruct (rectangular rows); [|discriminate].
    injection EA as <-. pose proof ES as ES'. apply all_vectors_inv in ES.
    assert (F : Forall (fun r => length r = ft_w ft w) rows).
    { subst rows. clear -Hg ES'. apply Forall_map. rewrite Forall_forall in *.
      intros v Hv. specialize (Hg v Hv).
      destruct ft, v; simpl in *; auto; contradiction. }
    destruct ft.
    + intros H; injection H as <-. simpl ft_w in *.
      rewrite concat_singletons by easy. now rewrite ES.
    + intros H; injection H as <-. now apply SHAPE.
    + intros H; injection H as <-. now apply SHAPE.
Qed.

Lemma aggregate_spec ft rows :
  (ft = Scalar -> Forall (fun r => length r = 1) rows) ->
  aggregate ft rows = map (spec_fval ft) rows.
Proof.
  destruct ft; simpl; intros H.
  - specialize (H eq_refl). induction H as [|r rows Hr _ IH]; simpl; auto.
    destruct r as [|a [|]]; try discriminate. simpl. now rewrite IH.
  - apply map_ext. intros r. induction r; simpl; auto.
  - apply map_ext. intros r. induction r as [|a r IH]; simpl; auto.
    simpl in IH. now rewrite IH.
Qed.

Lemma good_vec ft w v : good_eval ft w v -> length (vec_of v) = ft_w ft w.
Proof. destruct ft, v; simpl; auto; contradiction. Qed.

Lemma map_snd_combine A B (l : list A) (k : list B) :
  length l = length k -> map snd (combine l k) = k.
Proof.
  revert k; induction l; destruct k; simpl; intros; try lia; auto.
  f_equal. apply IHl; lia.
Qed.

(** Effect of a successful [add_evals] with non-negative indices. *)
Lemma add_evals_rep d w h X E zs ev h' :
  Rep d (ft_w (h_ft h) w) h X E ->
  Forall (fun z => (0 <= z)%Z) zs -> Forall (good_eval (h_ft h) w) ev ->
  (zs = [] -> ev = []) ->
  add_evals h zs ev = (h', Ok tt) ->
  Rep d (ft_w (h_ft h) w) h' X (E ++ combine (map Z.to_nat zs) (map vec_of ev)) /\
  h_ft h' = h_ft h /\ length ev = length zs /\
  Forall (fun z => (z < Z.of_nat (length X))%Z) zs.
Proof.
  intros HR Hpos Hgood Hempty. unfold add_evals.
  destruct (forallb _ zs) eqn:EB; simpl; [|intros H; discriminate].
  assert (Hlt : Forall (fun z => (z < Z.of_nat (length X))%Z) zs).
  { rewrite forallb_forall in EB. apply Forall_forall. intros z Hz.
    specialize (EB z Hz). apply Z.ltb_lt in EB. rewrite (rep_nxs _ _ _ _ _ HR) in EB. lia. }
  destruct (Nat.eqb_spec (length zs) 0) as [Z0|NZ].
  { intros H; injection H as <-. apply length_zero_iff_nil in Z0. subst zs.
    rewrite (Hempty eq_refl). simpl. rewrite app_nil_r. auto. }
  destruct ev as [|v0 ev0].
  { simpl. unfold to_fvecs. simpl.
    destruct (h_ft h); cbn [length map concat aggregate Nat.eqb].
    - destruct (Nat.eqb_spec (length zs) 0); [lia|]; intros H; discriminate.
    - destruct (length zs =? 1); intros H; discriminate.
    - destruct (length zs =? 1); intros H; discriminate. }
  assert (Hne : v0 :: ev0 <> []) by discriminate.
  remember (v0 :: ev0) as ev eqn:Eev. clear v0 ev0 Eev.
  destruct (to_fvecs (h_ft h) ev) as [p|] eqn:ET; [|intros H; discriminate].
  apply (to_fvecs_good _ w) in ET; [|exact Hne|exact Hgood]. subst p.
  destruct (Nat.eqb_spec (length zs) (length (map vec_of ev))) as [EL|NL];
    simpl negb; cbv iota; [|intros H; discriminate].
  set (w' := ft_w (h_ft h) w) in *.
  assert (Hrows : Forall (fun r => length r = w') (map vec_of ev)).
  { apply Forall_map. eapply Forall_impl; [|exact Hgood]. intros v Hv. now apply good_vec. }
  rewrite (rep_nfun _ _ _ _ _ HR).
  destruct (add_entries2_holds xr NaN (h_fvecs h) (map snd E) (map vec_of ev) w'
              (rep_w _ _ _ _ _ HR) (rep_fvecs _ _ _ _ _ HR) Hrows) as (b & Eb & Hb).
  rewrite map_length in Eb. rewrite Eb.
  pose proof (add_entries1_holds xr NaN (h_fvals h) _
     (aggregate (h_ft h) (map vec_of ev)) (rep_fvals _ _ _ _ _ HR)) as Hv.
  rewrite !map_length in Hv.
  destruct (map_append_all_ok (h_map h) zs (length E) (length zs)) as (m & Em & Lm & Nm).
  { rewrite (rep_lenm _ _ _ _ _ HR). apply Forall_forall. intros z Hz.
    rewrite Forall_forall in Hpos, Hlt. split; auto. }
  { easy. }
  rewrite Em. intros H. injection H as <-.
  rewrite map_length in EL.
  split; [|repeat split; auto].
  assert (MS : map snd (combine (map Z.to_nat zs) (map vec_of ev)) = map vec_of ev).
  { apply map_snd_combine. now rewrite !map_length. }
  destruct HR. constructor; simpl; auto.
  - rewrite app_length, combine_length, !map_length. lia.
  - rewrite map_app, MS. exact Hb.
  - rewrite !map_app, MS.
    rewrite aggregate_spec in Hv |- *.
    + exact Hv.
    + intros Hs. eapply Forall_impl; [|exact Hrows]. simpl. unfold w'. rewrite Hs. easy.
    + intros Hs. eapply Forall_impl; [|exact Hrows]. simpl. unfold w'. rewrite Hs. easy.
  - lia.
  - intros i Hi. rewrite (Nm _ (map vec_of ev) i).
    + rewrite rep_map0 by easy. now rewrite pos_from_app.
    + rewrite map_length. lia.
  - apply Forall_app; split; auto. apply Forall_forall. intros [i v] Hin.
    apply in_combine_r in Hin. rewrite Forall_forall in Hrows. simpl. auto.
  - apply Forall_app; split; auto. apply Forall_forall. intros [i v] Hin.
    apply in_combine_l in Hin. apply in_map_iff in Hin. destruct Hin as (z & Ez & Hz).
    rewrite Forall_forall in Hlt, Hpos. specialize (Hlt z Hz). specialize (Hpos z Hz).
    simpl. lia.
Qed.

(** A call with valid arguments succeeds. *)
Definition homogeneous (ev : list val) : Prop :=
  Forall (fun v => match v with VS _ => True | VV _ => False end) ev \/
  Forall (fun v => match v with VV _ => True | VS _ => False end) ev.

Lemma all_vectors_ok ev :
  Forall (fun v => match v with VV _ => True | VS _ => False end) ev ->
  all_vectors ev = Ok (map vec_of ev).
Proof.
  unfold all_vectors. induction 1 as [|v ev Hv _ IH]; simpl; [easy|].
  destruct v; [easy|]. simpl. rewrite IH. easy.
Qed.

Lemma rect_same A w (rows : list (list A)) :
  Forall (fun r => length r = w) rows -> rectangular rows = true.
Proof.
  destruct 1 as [|r rows Hr Hrs]; simpl; [easy|].
  apply forallb_forall. rewrite Forall_forall in Hrs. intros s Hs.
  apply Nat.eqb_eq. now rewrite Hr, (Hrs s).
Qed.

Lemma to_fvecs_total ft w ev :
  ev <> [] -> Forall (good_eval ft w) ev -> homogeneous ev ->
  to_fvecs ft ev = Ok (ft_w ft w, map vec_of ev).
Proof.
  intros Hne Hg Hh.
  assert (EX : exists p, to_fvecs ft ev = Ok p).
  { unfold to_fvecs, as_array. destruct ev as [|[x|l] ev]; [easy| |].
    - destruct Hh as [Hh|Hh]; [|inversion Hh; contradiction].
      rewrite all_scalars_ok by easy. simpl. destruct ft; eauto.
    - destruct Hh as [Hh|Hh]; [inversion Hh; contradiction|].
      rewrite all_vectors_ok by easy. cbn [bind].
      rewrite (rect_same _ (ft_w ft w)).
      + simpl. destruct ft; eauto.
      + apply Forall_map. eapply Forall_impl; [|exact Hg]. intros v Hv. now apply good_vec. }
  destruct EX as [p Ep]. rewrite Ep. f_equal. eapply to_fvecs_good; eauto.
Qed.

Lemma add_evals_ok d w h X E zs ev :
  Rep d (ft_w (h_ft h) w) h X E ->
  Forall (fun z => (0 <= z < Z.of_nat (length X))%Z) zs ->
  length ev = length zs -> Forall (good_eval (h_ft h) w) ev -> homogeneous ev ->
  exists h', add_evals h zs ev = (h', Ok tt) /\
    h_ft h' = h_ft h /\
    Rep d (ft_w (h_ft h) w) h' X (E ++ combine (map Z.to_nat zs) (map vec_of ev)).
Proof.
  intros HR Hz HL Hg Hh.
  assert (EX : exists h', add_evals h zs ev = (h', Ok tt)).
  { unfold add_evals. rewrite (rep_nxs _ _ _ _ _ HR).
    assert (B : forallb (fun x => (x <? Z.of_nat (length X))%Z) zs = true).
    { apply forallb_forall. rewrite Forall_forall in Hz. intros z Hin.
      apply Z.ltb_lt. now apply Hz. }
    rewrite B. simpl.
    destruct (Nat.eqb_spec (length zs) 0) as [Z0|NZ]; [eauto|].
    assert (Hne : ev <> []) by (intros ->; simpl in HL; lia).
    rewrite (to_fvecs_total _ w) by easy.
    rewrite map_length, HL, Nat.eqb_refl. simpl negb. cbv iota.
    assert (Hrows : Forall (fun r => length r = ft_w (h_ft h) w) (map vec_of ev)).
    { apply Forall_map. eapply Forall_impl; [|exact Hg]. intros v Hv. now apply good_vec. }
    rewrite (rep_nfun _ _ _ _ _ HR).
    destruct (add_entries2_holds xr NaN (h_fvecs h) (map snd E) (map vec_of ev) _
              (rep_w _ _ _ _ _ HR) (rep_fvecs _ _ _ _ _ HR) Hrows) as (b & Eb & Hb).
    rewrite map_length in Eb. rewrite Eb.
    destruct (map_append_all_ok (h_map h) zs (length E) (length zs)) as (m & Em & _ & _).
    { rewrite (rep_lenm _ _ _ _ _ HR). easy. }
    { easy. }
    rewrite Em. eauto. }
  destruct EX as [h' Eh]. exists h'. split; [easy|].
  destruct (add_evals_rep d w h X E zs ev h' HR) as (H1 & H2 & _); auto.
  - eapply Forall_impl; [|exact Hz]. simpl; intros; lia.
  - intros ->. now destruct ev.
Qed.

(** * Refinement of the call log *)

Lemma run_rep ft pad d w ops h :
  d <> 0 -> w <> 0 -> Forall (good_op ft d w) ops ->
  run (hist_init ft pad) ops = Some h ->
  Rep d (ft_w ft w) h (log_xs ops) (log_evals ops) /\ h_ft h = ft.
Proof.
  intros Hd Hw Hg.
  assert (G : forall ops h0 X E, h_ft h0 = ft -> Rep d (ft_w ft w) h0 X E ->
     Forall (good_op ft d w) ops -> run h0 ops = Some h ->
     Rep d (ft_w ft w) h (X ++ log_xs ops) (E ++ log_evals ops) /\ h_ft h = ft).
  { clear ops Hg. induction ops as [|o ops IH]; intros h0 X E Hft HR Hg; simpl.
    - intros H; injection H as <-. now rewrite !app_nil_r.
    - apply Forall_cons_iff in Hg. destruct Hg as [Ho Hops].
      destruct o as [arg|zs ev]; simpl.
      + destruct (add_xs_rep d _ h0 X E arg HR Ho) as (h1 & E1 & F1 & _ & R1).
        rewrite E1. simpl. intros H. rewrite app_assoc. apply (IH h1); auto. congruence.
      + destruct Ho as (Ho1 & Ho2 & Ho3).
        destruct (add_evals h0 zs ev) as [h1 [u|e]] eqn:E1; simpl; [|discriminate].
        destruct u. intros H.
        rewrite <- Hft in HR, Ho2.
        destruct (add_evals_rep d w h0 X E zs ev h1 HR Ho1 Ho2 Ho3 E1) as (R1 & F1 & _).
        rewrite app_assoc. apply (IH h1); auto; [congruence|]. now rewrite <- Hft. }
  intros H.
  specialize (G ops (hist_init ft pad) [] [] eq_refl (rep_init ft pad d w Hd Hw) Hg H).
  exact G.
Qed.

(** * Queries on a represented history *)

Section Queries.
Variables (d w : nat) (h : hist) (X : list (list R)) (E : list (nat * list xr)).
Hypothesis HR : Rep d w h X E.

Lemma q_xs_all : X <> [] -> get_xs_all h = Ok X.
Proof.
  intros HX. unfold get_xs_all. pose proof (rep_xs _ _ _ _ _ HR) as [H _].
  rewrite (rep_nxs _ _ _ _ _ HR).
  destruct (h_xs h); simpl in H; [|contradiction]. now destruct H as [-> _].
Qed.

Lemma norm_index_nat n i : i < n -> norm_index n (Z.of_nat i) = Ok i.
Proof.
  intros. unfold norm_index.
  destruct (Z.leb_spec 0 (Z.of_nat i)); [|lia].
  destruct (Z.ltb_spec (Z.of_nat i) (Z.of_nat n)); [|lia]. simpl.
  now rewrite Nat2Z.id.
Qed.

Lemma norm_index_inv n z i : norm_index n z = Ok i ->
  i < n /\ (z = Z.of_nat i \/ z = (Z.of_nat i - Z.of_nat n)%Z).
Proof.
  unfold norm_index. intros H.
  destruct ((0 <=? z) && (z <? Z.of_nat n))%Z eqn:B1.
  - apply andb_prop in B1. rewrite Z.leb_le, Z.ltb_lt in B1. injection H as <-. lia.
  - destruct ((- Z.of_nat n <=? z) && (z <? 0))%Z eqn:B2; [|discriminate].
    apply andb_prop in B2. rewrite Z.leb_le, Z.ltb_lt in B2. injection H as <-. lia.
Qed.

Lemma q_xs_one i : i < length X -> get_xs_one h (Z.of_nat i) = nth_res X i.
Proof.
  intros Hi. unfold get_xs_one. rewrite q_xs_all by (intros ->; simpl in Hi; lia).
  simpl. rewrite norm_index_nat by easy. easy.
Qed.

Lemma q_xs_many is : X <> [] -> Forall (fun i => i < length X) is ->
  get_xs_many h (map Z.of_nat is) = mapM (nth_res X) is.
Proof.
  intros HX Hi. unfold get_xs_many. rewrite q_xs_all by easy.
  simpl. rewrite mapM_map. apply mapM_ext. intros i Hin. rewrite Forall_forall in Hi.
  now rewrite norm_index_nat by auto.
Qed.

Lemma firstn_nth_error A n (l : list A) i : i < n -> nth_error (firstn n l) i = nth_error l i.
Proof. revert n l; induction i; destruct n, l; simpl; intros; try lia; auto. apply IHi; lia. Qed.

Lemma extract_items A (arr : option (list A)) (f : list xr -> A) is :
  E <> [] -> holds arr (map f (map snd E)) ->
  Forall (fun i => i < length X) is ->
  extract_many arr h (map Z.of_nat is)
  = Ok (dict_of (map (fun i => (i, map f (evals_of i E))) is)).
Proof.
  intros HE Harr His. unfold extract_many.
  destruct arr as [rows|].
  2: { simpl in Harr. destruct E; simpl in Harr; [easy|discriminate]. }
  rewrite (rep_nxs _ _ _ _ _ HR), (rep_nfun _ _ _ _ _ HR).
  rewrite mapM_map.
  rewrite (mapM_ext _ (fun i => Ok i)).
  2: { intros i Hin. rewrite Forall_forall in His. now rewrite norm_index_nat by auto. }
  rewrite mapM_Ok. cbn [bind]. rewrite map_id.
  rewrite (mapM_ext _ (fun i => Ok (i, map f (evals_of i E)))).
  { rewrite mapM_Ok. easy. }
  intros i Hin. rewrite Forall_forall in His.
  rewrite (rep_map _ _ _ _ _ HR i) by auto.
  simpl in Harr. rewrite !map_length in Harr. destruct Harr as [Hf Hl].
  rewrite (pos_from_nth _ _ f 0 i E).
  - easy.
  - intros j e Hj. simpl. rewrite Hf.
    rewrite map_map. now rewrite (map_nth_error (fun x => f (snd x)) j E Hj).
Qed.

Lemma extract_single A (arr : option (list A)) (f : list xr -> A) i :
  E <> [] -> holds arr (map f (map snd E)) -> i < length X ->
  extract_one arr h (Z.of_nat i) = Ok (map f (evals_of i E)).
Proof.
  intros HE Harr Hi. unfold extract_one.
  pose proof (extract_items A arr f [i] HE Harr) as H. simpl in H. rewrite H by auto.
  simpl. destruct (Z.ltb_spec (Z.of_nat i) 0); [lia|].
  now rewrite Nat2Z.id, Nat.eqb_refl.
Qed.

Lemma holds_fvecs : holds (fvecs_rows h) (map (fun x => x) (map snd E)).
Proof. rewrite map_id. apply (rep_fvecs _ _ _ _ _ HR). Qed.

Lemma q_fvecs_one i : E <> [] -> i < length X ->
  get_fvecs_one h (Z.of_nat i) = Ok (evals_of i E).
Proof.
  intros HE Hi. unfold get_fvecs_one.
  rewrite (extract_single _ _ (fun x => x)); auto using holds_fvecs. now rewrite map_id.
Qed.

Lemma q_fvals_one i : E <> [] -> i < length X ->
  get_fvals_one h (Z.of_nat i) = Ok (map (spec_fval (h_ft h)) (evals_of i E)).
Proof.
  intros HE Hi. unfold get_fvals_one.
  apply extract_single; auto. apply (rep_fvals _ _ _ _ _ HR).
Qed.

Lemma q_fvecs_many is : E <> [] -> Forall (fun i => i < length X) is ->
  get_fvecs_many h (map Z.of_nat is) = Ok (dict_of (map (fun i => (i, evals_of i E)) is)).
Proof.
  intros HE Hi. unfold get_fvecs_many.
  rewrite (extract_items _ _ (fun x => x)); auto using holds_fvecs.
  f_equal. f_equal. apply map_ext. intros; now rewrite map_id.
Qed.

Lemma q_fvals_many is : E <> [] -> Forall (fun i => i < length X) is ->
  get_fvals_many h (map Z.of_nat is)
  = Ok (dict_of (map (fun i => (i, map (spec_fval (h_ft h)) (evals_of i E))) is)).
Proof.
  intros HE Hi. unfold get_fvals_many.
  apply extract_items; auto. apply (rep_fvals _ _ _ _ _ HR).
Qed.
End Queries.

Lemma dict_set_fresh A (d : dict A) k v :
  ~ In k (map fst d) -> dict_set d k v = d ++ [(k, v)].
Proof.
  induction d as [|[k' v'] d IH]; simpl; intros H; auto.
  destruct (Nat.eqb_spec k k'); [subst; tauto|]. now rewrite IH by tauto.
Qed.

Lemma dict_of_nodup A (l : list (nat * A)) : NoDup (map fst l) -> dict_of l = l.
Proof.
  unfold dict_of. intros H.
  assert (G : forall acc, NoDup (map fst (acc ++ l)) ->
    fold_left (fun d kv => dict_set d (fst kv) (snd kv)) l acc = acc ++ l).
  { clear H. induction l as [|[k v] l IH]; intros acc H; simpl.
    - now rewrite app_nil_r.
    - rewrite dict_set_fresh.
      + rewrite IH.
        * now rewrite <- app_assoc.
        * now rewrite <- app_assoc.
      + rewrite map_app in H. simpl in H. apply NoDup_remove_2 in H.
        intros Hin. apply H. apply in_or_app. now left. }
  exact (G [] H).
Qed.

Lemma dict_get_dict_set A (d : dict A) k v j :
  dict_get (dict_set d k v) j = if j =? k then Some v else dict_get d j.
Proof.
  induction d as [|[k' v'] d IH]; simpl.
  - reflexivity.
  - destruct (Nat.eqb_spec k k'); simpl.
    + subst k'. now destruct (j =? k).
    + rewrite IH. destruct (Nat.eqb_spec j k'); [|reflexivity].
      destruct (Nat.eqb_spec j k); congruence.
Qed.

Lemma dict_get_of_gen A (f : nat -> A) is i acc :
  dict_get (fold_left (fun d kv => dict_set d (fst kv) (snd kv))
                      (map (fun k => (k, f k)) is) acc) i
  = if existsb (Nat.eqb i) is then Some (f i) else dict_get acc i.
Proof.
  revert acc; induction is as [|k is IH]; intros acc; simpl; auto.
  rewrite IH, dict_get_dict_set. destruct (Nat.eqb_spec i k); simpl.
  - subst. now destruct (existsb _ is).
  - reflexivity.
Qed.

Lemma dict_get_of A (f : nat -> A) is i :
  In i is -> dict_get (dict_of (map (fun k => (k, f k)) is)) i = Some (f i).
Proof.
  intros H. unfold dict_of. rewrite dict_get_of_gen.
  replace (existsb (Nat.eqb i) is) with true; [easy|].
  symmetry. apply existsb_exists. exists i. split; [easy|apply Nat.eqb_refl].
Qed.

(** Counting: the evaluations are distributed over the points. *)
Lemma evals_of_sum A (E : list (nat * A)) n :
  Forall (fun e => fst e < n) E ->
  list_sum (map (fun i => length (evals_of i E)) (seq 0 n)) = length E.
Proof.
  induction 1 as [|e E He _ IH].
  - unfold evals_of. simpl. induction (seq 0 n); simpl; auto.
  - simpl length. rewrite <- IH. clear IH.
    assert (S1 : forall l, list_sum (map (fun i => length (evals_of i (e :: E))) l)
              = list_sum (map (fun i => length (evals_of i E)) l)
                + count_occ Nat.eq_dec l (fst e)).
    { intros l. induction l as [|i l IHl]; simpl; auto.
      unfold evals_of at 1. simpl. fold (evals_of i E).
      destruct (Nat.eqb_spec (fst e) i).
      - simpl. fold (evals_of i E). subst i.
        destruct (Nat.eq_dec (fst e) (fst e)); [|easy]. 
        rewrite IHl. unfold evals_of. lia.
      - destruct (Nat.eq_dec i (fst e)); [congruence|]. rewrite IHl.
        unfold evals_of. lia. }
    rewrite S1.
    assert (C : count_occ Nat.eq_dec (seq 0 n) (fst e) = 1).
    { apply NoDup_count_occ'; [apply seq_NoDup|]. apply in_seq. lia. }
    rewrite C. lia.
Qed.

(** Region query. *)
Lemma select_indices_spec (mask : list bool) i :
  In i (select_indices mask) <-> nth_error mask i = Some true.
Proof.
  unfold select_indices.
  assert (G : forall k, In i (map fst (filter snd (combine (seq k (length mask)) mask)))
    <-> k <= i /\ nth_error mask (i - k) = Some true).
  { induction mask as [|b mask IH]; intros k; simpl.
    - split; [easy|]. intros [_ H]. now destruct (i - k).
    - destruct b; simpl; rewrite IH.
      + split.
        * intros [->|[H1 H2]].
          -- split; [lia|]. now rewrite Nat.sub_diag.
          -- split; [lia|]. replace (i - k) with (S (i - S k)) by lia. easy.
        * intros [H1 H2]. destruct (Nat.eq_dec k i); [now left|right].
          split; [lia|]. replace (i - k) with (S (i - S k)) in H2 by lia. easy.
      + split.
        * intros [H1 H2].
          split; [lia|]. replace (i - k) with (S (i - S k)) by lia. easy.
        * intros [H1 H2]. destruct (Nat.eq_dec k i).
          -- subst. rewrite Nat.sub_diag in H2. discriminate.
          -- split; [lia|]. replace (i - k) with (S (i - S k)) in H2 by lia. easy. }
  rewrite (G 0). rewrite Nat.sub_0_r. split; [tauto|]. split; [lia|easy].
Qed.

From Coq Require Import Sorted.
Lemma select_indices_sorted mask : StronglySorted lt (select_indices mask).
Proof.
  unfold select_indices.
  assert (G : forall k, StronglySorted lt (map fst (filter snd (combine (seq k (length mask)) mask)))
     /\ Forall (fun i => k <= i) (map fst (filter snd (combine (seq k (length mask)) mask)))).
  { induction mask as [|b mask IH]; intros k; simpl.
    - split; constructor.
    - destruct (IH (S k)) as [H1 H2]. destruct b; simpl.
      + split.
        * constructor; auto.
        * constructor; auto. eapply Forall_impl; [|exact H2]. simpl; intros; lia.
      + split; auto. eapply Forall_impl; [|exact H2]. simpl; intros; lia. }
  apply (G 0).
Qed.

Lemma q_region d w h X E center radius :
  Rep d w h X E -> E <> [] ->
  exists is, get_x_indices_in_region h center radius = Ok is /\
    StronglySorted lt is /\
    forall i, In i is <-> exists x, nth_error X i = Some x /\ (dist x center <= radius)%R.
Proof.
  intros HR HE. unfold get_x_indices_in_region.
  rewrite (rep_nfun _ _ _ _ _ HR).
  destruct (Nat.eqb_spec (length E) 0) as [Z0|_].
  { apply length_zero_iff_nil in Z0. contradiction. }
  assert (HX : X <> []).
  { intros ->. pose proof (rep_ei _ _ _ _ _ HR) as F. destruct E as [|e E']; [easy|].
    inversion F; simpl in *; lia. }
  rewrite (q_xs_all _ _ _ _ _ HR HX). simpl.
  eexists; split; [reflexivity|]. split; [apply select_indices_sorted|].
  intros i. rewrite select_indices_spec, nth_error_map.
  change (@nth_error vec X i) with (@nth_error (list R) X i).
  destruct (nth_error X i) as [x|]; simpl.
  - split.
    + intros H. assert (H1 : Rleb (dist x center) radius = true) by congruence. apply Rleb_true in H1. eauto.
    + intros (x1 & Hx & H). injection Hx as <-. f_equal. now apply Rleb_true.
  - split; [easy|]. now intros (x' & Hx & _).
Qed.

(** * Arbitrary index arguments *)

Lemma norm_index_neg n i : i < n -> norm_index n (Z.of_nat i - Z.of_nat n) = Ok i.
Proof.
  intros. unfold norm_index.
  destruct (Z.leb_spec 0 (Z.of_nat i - Z.of_nat n)); [lia|]. simpl.
  destruct (Z.leb_spec (- Z.of_nat n) (Z.of_nat i - Z.of_nat n)); [|lia].
  destruct (Z.ltb_spec (Z.of_nat i - Z.of_nat n) 0); [|lia]. simpl.
  f_equal. lia.
Qed.

Lemma extract_many_norm A (arr : option (list A)) h zs out :
  extract_many arr h zs = Ok out ->
  exists is, mapM (norm_index (h_nxs h)) zs = Ok is /\
    Forall (fun i => i < h_nxs h) is /\
    extract_many arr h zs = extract_many arr h (map Z.of_nat is).
Proof.
  unfold extract_many. destruct arr as [rows|]; [|discriminate].
  destruct (mapM (norm_index (h_nxs h)) zs) as [is|] eqn:EI; [|discriminate].
  simpl. intros _. exists is.
  assert (F : Forall (fun i => i < h_nxs h) is).
  { apply mapM_ok_Forall2 in EI. clear -EI. induction EI; constructor; auto.
    now apply norm_index_inv in H. }
  split; [easy|]. split; [easy|].
  rewrite mapM_map. rewrite (mapM_ext _ (fun i => Ok i) is).
  - now rewrite mapM_Ok, map_id.
  - intros i Hi. rewrite Forall_forall in F. now rewrite norm_index_nat by auto.
Qed.

Lemma dict_set_In A (d : dict A) k v kv :
  In kv (dict_set d k v) -> kv = (k, v) \/ In kv d.
Proof.
  induction d as [|[k' v'] d IH]; simpl.
  - intros [<-|[]]; auto.
  - destruct (k =? k'); simpl.
    + intros [<-|H]; auto.
    + intros [<-|H]; auto. apply IH in H. tauto.
Qed.

Lemma dict_of_In A (l : list (nat * A)) kv : In kv (dict_of l) -> In kv l.
Proof.
  unfold dict_of.
  assert (G : forall acc, In kv (fold_left (fun d kv => dict_set d (fst kv) (snd kv)) l acc)
            -> In kv acc \/ In kv l).
  { induction l as [|[k v] l IH]; intros acc H; simpl in *; [auto|].
    apply IH in H. destruct H as [H|H]; [|auto].
    apply dict_set_In in H. simpl in H. destruct H as [->|H]; auto. }
  intros H. destruct (G [] H) as [[]|]; auto.
Qed.

Lemma evals_of_In A i (E : list (nat * A)) v : In v (evals_of i E) <-> In (i, v) E.
Proof.
  unfold evals_of. rewrite in_map_iff. split.
  - intros ([j u] & <- & H). apply filter_In in H. simpl in *.
    destruct H as [H1 H2]. apply Nat.eqb_eq in H2. now subst.
  - intros H. exists (i, v). split; auto. apply filter_In. split; auto. simpl.
    apply Nat.eqb_refl.
Qed.

Lemma q_xs_many_any d w h X E zs out :
  Rep d w h X E -> get_xs_many h zs = Ok out ->
  Forall2 (fun z x => exists i, nth_error X i = Some x /\
     (z = Z.of_nat i \/ z = Z.of_nat i - Z.of_nat (length X))%Z) zs out.
Proof.
  intros HR. unfold get_xs_many, get_xs_all.
  rewrite (rep_nxs _ _ _ _ _ HR). pose proof (rep_xs _ _ _ _ _ HR) as [H _].
  destruct (h_xs h) as [b|]; [|discriminate]. simpl in H. destruct H as [H _].
  cbn [bind]. rewrite H. intros HM. apply mapM_ok_Forall2 in HM.
  eapply Forall2_impl; [|exact HM]. cbv beta. intros z x Hz.
  destruct (norm_index (length X) z) as [i|] eqn:EN; [|discriminate].
  cbn [bind] in Hz. unfold nth_res in Hz.
  destruct (nth_error X i) eqn:E1; [|discriminate]. injection Hz as ->.
  apply norm_index_inv in EN. exists i. tauto.
Qed.

Lemma add_evals_err_nonneg h zs ev h' e :
  length (h_map h) = h_nxs h -> Forall (fun z => (0 <= z)%Z) zs ->
  add_evals h zs ev = (h', Err e) -> h' = h.
Proof.
  intros Hm Hz. unfold add_evals.
  destruct (forallb _ zs) eqn:EB; simpl; [|congruence].
  destruct (length zs =? 0); [congruence|].
  destruct (to_fvecs _ _) as [[w fv]|]; [|congruence].
  destruct (length zs =? length fv); simpl; [|congruence].
  destruct (add_entries2 _ _ _ _ _) as [b|]; [|congruence].
  destruct (map_append_all_ok (h_map h) zs (h_nfun h) (length zs)) as (m & Em & _ & _).
  - rewrite Hm. rewrite forallb_forall in EB. apply Forall_forall. intros z Hin.
    rewrite Forall_forall in Hz. specialize (EB z Hin). apply Z.ltb_lt in EB. auto.
  - easy.
  - rewrite Em. intros H. discriminate.
Qed.

Lemma add_evals_bad_index h zs ev z :
  In z zs -> (z >= Z.of_nat (h_nxs h))%Z -> add_evals h zs ev = (h, Err ValueError).
Proof.
  intros Hin Hz. unfold add_evals.
  replace (forallb (fun x => (x <? Z.of_nat (h_nxs h))%Z) zs) with false; [easy|].
  symmetry. apply not_true_is_false. rewrite forallb_forall. intros H.
  specialize (H z Hin). apply Z.ltb_lt in H. lia.
Qed.

Lemma add_evals_bad_length h w zs ev :
  zs <> [] -> ev <> [] -> Forall (good_eval (h_ft h) w) ev -> length ev <> length zs ->
  add_evals h zs ev = (h, Err ValueError) \/ exists e, add_evals h zs ev = (h, Err e).
Proof.
  intros Hzs Hev Hg HL. unfold add_evals.
  destruct (forallb _ zs); simpl; [|auto].
  destruct (Nat.eqb_spec (length zs) 0) as [Z0|_].
  { apply length_zero_iff_nil in Z0. contradiction. }
  destruct (to_fvecs (h_ft h) ev) as [p|] eqn:ET; [|eauto].
  apply (to_fvecs_good _ w) in ET; auto. subst p.
  rewrite map_length. destruct (Nat.eqb_spec (length zs) (length ev)); [congruence|]. auto.
Qed.

Lemma nodup_map_fst_pair A (f : nat -> A) is :
  NoDup is -> NoDup (map fst (map (fun i => (i, f i)) is)).
Proof. intros. rewrite map_map. simpl. now rewrite map_id. Qed.

Lemma mapM_nth_res A (X : list A) is def :
  Forall (fun i => i < length X) is -> mapM (nth_res X) is = Ok (map (fun i => nth i X def) is).
Proof.
  induction 1 as [|i is Hi _ IH]; simpl; auto.
  unfold nth_res at 1. rewrite (nth_error_nth' X def) by easy. simpl. now rewrite IH.
Qed.

Lemma rep_each_flat A B (f : nat -> A) (g : nat -> list B) is :
  rep_each (map f is) (map (fun i => length (g i)) is)
  = flat_map (fun i => map (fun _ => f i) (g i)) is.
Proof.
  induction is as [|i is IH]; simpl; auto. rewrite IH. f_equal.
  induction (g i); simpl; auto. now f_equal.
Qed.

Lemma q_model_data_avg d w h X E is :
  Rep d w h X E -> E <> [] -> NoDup is -> Forall (fun i => i < length X) is ->
  get_model_data h (map Z.of_nat is) true
  = Ok (map (fun i => nth i X []) is,
        map (fun i => mean_rows w (evals_of i E)) is).
Proof.
  intros HR HE HN Hi. unfold get_model_data.
  assert (HX : X <> []).
  { intros ->. pose proof (rep_ei _ _ _ _ _ HR) as F. destruct E as [|e E']; [easy|].
    inversion F; simpl in *; lia. }
  rewrite (q_xs_many _ _ _ _ _ HR) by easy.
  rewrite (mapM_nth_res _ _ _ []) by easy. cbn [bind].
  rewrite (q_fvecs_many _ _ _ _ _ HR) by easy. cbn [bind].
  rewrite dict_of_nodup by now apply nodup_map_fst_pair.
  f_equal. f_equal. rewrite map_map. simpl.
  apply map_ext. intros i. f_equal. unfold fvecs_width.
  pose proof (rep_fvecs _ _ _ _ _ HR) as [H1 H2].
  destruct (h_fvecs h); [easy|]. simpl in H1. destruct E; [easy|discriminate].
Qed.

Lemma q_model_data_raw d w h X E is :
  Rep d w h X E -> E <> [] -> NoDup is -> is <> [] -> Forall (fun i => i < length X) is ->
  get_model_data h (map Z.of_nat is) false
  = Ok (flat_map (fun i => map (fun _ => nth i X []) (evals_of i E)) is,
        flat_map (fun i => evals_of i E) is).
Proof.
  intros HR HE HN Hne Hi. unfold get_model_data.
  assert (HX : X <> []).
  { intros ->. pose proof (rep_ei _ _ _ _ _ HR) as F. destruct E as [|e E']; [easy|].
    inversion F; simpl in *; lia. }
  rewrite (q_xs_many _ _ _ _ _ HR) by easy.
  rewrite (mapM_nth_res _ _ _ []) by easy. cbn [bind].
  rewrite (q_fvecs_many _ _ _ _ _ HR) by easy. cbn [bind].
  rewrite dict_of_nodup by now apply nodup_map_fst_pair.
  destruct is as [|i0 is0]; [easy|].
  remember (i0 :: is0) as is eqn:Eis.
  assert (NM : map (fun i => (i, evals_of i E)) is <> []) by (subst; discriminate).
  destruct (map (fun i => (i, evals_of i E)) is) eqn:EM; [easy|]. rewrite <- EM.
  clear EM p l NM. rewrite !map_map. simpl.
  unfold np_repeat. rewrite !map_length, Nat.eqb_refl. cbn [bind].
  f_equal. f_equal.
  - apply rep_each_flat.
  - now rewrite flat_map_concat_map.
Qed.
