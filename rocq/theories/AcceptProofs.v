(** Exact effect of the acceptance deciders on the log of the history. *)
From Coq Require Import Reals List Arith ZArith Bool Lia Lra.
From Verif Require Import Base XR Vec HistoryModel HistorySpec HistoryProofs WrapModel
  WrapProofs VolumeModel RegionModel AdjustModel AcceptModel LogSpec LogProofs Prop_Region
  Prop_Adjust.
Import ListNotations.
Open Scope nat_scope.

Lemma mbind_ok A B (m : M A) (f : A -> M B) h h' a :
  m h = (h', Ok a) -> mbind m f h = f a h'.
Proof. intros E. unfold mbind. now rewrite E. Qed.

Lemma mbind_inv A B (m : M A) (f : A -> M B) h h' b :
  mbind m f h = (h', Ok b) -> exists h1 a, m h = (h1, Ok a) /\ f a h1 = (h', Ok b).
Proof.
  unfold mbind. destruct (m h) as [h1 [a|e]]; intros H; [eauto|discriminate].
Qed.

Lemma expand_one (i n : nat) : expand [(i, n)] = repeat i n.
Proof. unfold expand. simpl. apply app_nil_r. Qed.

Lemma expand_ones is : expand (map (fun i : nat => (i, 1)) is) = is.
Proof. unfold expand. induction is as [|i is IH]; simpl; auto. now f_equal. Qed.

Lemma sum_ones A (is : list A) : list_sum (map snd (map (fun i => (i, 1)) is)) = length is.
Proof. induction is; simpl; auto. Qed.

Lemma fvals_of_app ft i E E' : fvals_of ft i (E ++ E') = fvals_of ft i E ++ fvals_of ft i E'.
Proof. unfold fvals_of. now rewrite evals_of_app, map_app. Qed.

Lemma combine_nonnil A B (l : list A) (k : list B) : l <> [] -> k <> [] -> combine l k <> [].
Proof. destruct l, k; simpl; congruence. Qed.

Lemma combine_fst A B (a : list A) (b : list B) : length a = length b ->
  map fst (combine a b) = a.
Proof.
  revert b. induction a as [|x a IH]; intros [|y b] H; simpl in *; try discriminate; auto.
  f_equal. apply IH. congruence.
Qed.
Lemma combine_snd A B (a : list A) (b : list B) : length a = length b ->
  map snd (combine a b) = b.
Proof.
  revert b. induction a as [|x a IH]; intros [|y b] H; simpl in *; try discriminate; auto.
  f_equal. apply IH. congruence.
Qed.

Lemma genuine_combine crit X h cores is (vals : list (list xr)) outs :
  length is = length vals ->
  crit h (map (fun i => nth i X []) is) cores = Ok outs -> vals = map recorded outs ->
  genuine crit X (combine is vals).
Proof.
  intros L C V. exists h, cores, outs. rewrite combine_snd by easy. split; [|easy].
  rewrite <- C. f_equal. rewrite <- (combine_fst _ _ is vals L) at 2.
  rewrite map_map. reflexivity.
Qed.

(** * accept_simple *)
Theorem accept_simple_exact : forall ft d w h X E crit n_cores sub st mi n,
  haslog ft d w h X E -> good_criterion ft w crit ->
  length (sub_x sub) = d -> 0 < n ->
  exists h' vals,
    length vals = n /\
    (forall v, In v vals -> ~ In NaN v) /\
    haslog ft d w h' (X ++ [sub_x sub]) (E ++ combine (repeat (length X) n) vals) /\
    genuine crit (X ++ [sub_x sub]) (combine (repeat (length X) n) vals) /\
    let cf := xmean (map (spec_fval ft) vals) in
    accept_simple crit n_cores sub st mi n h =
      (h', Ok (finish (sub_x sub) cf (length X)
                 (calculate_rho (xopp (xsub cf (c_fval st))) (sub_ei sub))
                 (xge (xopp (xsub cf (c_fval st))) (Fin mi)) st n)).
Proof.
  intros ft d w h X E crit n_cores sub st mi n HL HC Hx Hn.
  destruct (m_add_x_log _ _ _ _ _ _ (sub_x sub) HL Hx) as (h1 & E1 & L1).
  destruct (m_eval_log _ _ _ _ _ _ crit n_cores [(length X, n)] L1 HC)
    as (h2 & vals & E2 & LV & _ & NN & (outs & HO & EO) & L2).
  { repeat constructor. rewrite app_length. simpl. lia. }
  { simpl. lia. }
  rewrite expand_one in L2, HO. simpl in LV. rewrite Nat.add_0_r in LV.
  exists h2, vals. split; [easy|]. split; [easy|]. split; [easy|].
  split. { eapply genuine_combine; eauto. rewrite repeat_length. auto. }
  unfold accept_simple.
  rewrite (mbind_ok _ _ _ _ _ _ _ E1), (mbind_ok _ _ _ _ _ _ _ E2).
  assert (E3 : m_fvals (length X) h2 = (h2, Ok (map (spec_fval ft) vals))).
  { rewrite (m_fvals_log _ _ _ _ _ _ (length X) L2).
    - f_equal. f_equal. rewrite fvals_of_app.
      unfold fvals_of at 1. rewrite (evals_of_fresh _ _ (length X)) by
        (auto; apply (haslog_dims _ _ _ _ _ _ HL)).
      unfold fvals_of. rewrite <- LV at 1. now rewrite evals_of_repeat.
    - intros H0. apply app_eq_nil in H0 as [_ H0]. revert H0.
      apply combine_nonnil; [destruct n; simpl; [lia|discriminate]|].
      destruct vals; [simpl in LV; lia|discriminate].
    - rewrite app_length. simpl. lia. }
  now rewrite (mbind_ok _ _ _ _ _ _ _ E3).
Qed.

(** * accept_noisy *)
Theorem accept_noisy_exact : forall ft d w h X E crit n_cores sub st s mi z n_min n_max,
  haslog ft d w h X E -> good_criterion ft w crit ->
  length (sub_x sub) = d -> c_index st < length X -> E <> [] ->
  (0 <= s)%R -> sub_ei sub <> NaN -> (1 <= n_min <= n_max)%Z ->
  exists h' v1 v2 n1 n2,
    get_acceptance_sample_sizes (Fin (sqrt s))
      (Z.of_nat (length (fvals_of ft (c_index st) E))) (sub_ei sub) (Fin z) n_min n_max
      = Ok (n1, n2) /\
    Z.of_nat (length v1) = n1 /\ Z.of_nat (length v2) = n2 /\ (n_min <= n2 <= n_max)%Z /\
    (forall v, In v (v1 ++ v2) -> ~ In NaN v) /\
    haslog ft d w h' (X ++ [sub_x sub])
      (E ++ combine (repeat (c_index st) (length v1)) v1
         ++ combine (repeat (length X) (length v2)) v2) /\
    genuine crit (X ++ [sub_x sub])
      (combine (repeat (c_index st) (length v1)) v1
         ++ combine (repeat (length X) (length v2)) v2) /\
    let cf := xmean (map (spec_fval ft) v2) in
    let sf := xmean (fvals_of ft (c_index st) E ++ map (spec_fval ft) v1) in
    accept_noisy crit n_cores sub st (Fin s) mi z n_min n_max h =
      (h', Ok (finish (sub_x sub) cf (length X)
                 (calculate_rho (xopp (xsub cf sf)) (sub_ei sub))
                 (xge (xopp (xsub cf sf)) (Fin mi)) st (Z.to_nat n2))).
Proof.
  intros ft d w h X E crit n_cores sub st s mi z n_min n_max HL HC Hx Hc HE Hs Hei Hn.
  destruct (m_add_x_log _ _ _ _ _ _ (sub_x sub) HL Hx) as (h1 & E1 & L1).
  set (ex := fvals_of ft (c_index st) E).
  destruct (C32_acceptance_sample_sizes_in_limits (sqrt s) (Z.of_nat (length ex)) (sub_ei sub)
              z n_min n_max) as (n1 & n2 & Hsz & P1 & _ & P2);
    [apply sqrt_pos|lia|easy|lia|].
  destruct (m_eval_log _ _ _ _ _ _ crit n_cores
              [(c_index st, Z.to_nat n1); (length X, Z.to_nat n2)] L1 HC)
    as (h2 & vals & E2 & LV & _ & NN & (outs & HO & EO) & L2).
  { repeat constructor; rewrite app_length; simpl; lia. }
  { simpl. lia. }
  simpl in LV. rewrite Nat.add_0_r in LV.
  set (v1 := firstn (Z.to_nat n1) vals). set (v2 := skipn (Z.to_nat n1) vals).
  assert (EV : vals = v1 ++ v2) by (symmetry; apply firstn_skipn).
  assert (LV1 : length v1 = Z.to_nat n1) by (unfold v1; rewrite firstn_length; lia).
  assert (LV2 : length v2 = Z.to_nat n2) by (unfold v2; rewrite skipn_length; lia).
  assert (GC : genuine crit (X ++ [sub_x sub])
      (combine (expand [(c_index st, Z.to_nat n1); (length X, Z.to_nat n2)]) vals)).
  { eapply genuine_combine; eauto. rewrite expand_length, LV. simpl. lia. }
  replace (combine (expand [(c_index st, Z.to_nat n1); (length X, Z.to_nat n2)]) vals)
    with (combine (repeat (c_index st) (length v1)) v1
            ++ combine (repeat (length X) (length v2)) v2) in L2, GC.
  2:{ rewrite EV, LV1, LV2. unfold expand. simpl. rewrite app_nil_r.
      assert (G : forall (a b : list nat) (c e : list (list xr)), length a = length c ->
                combine a c ++ combine b e = combine (a ++ b) (c ++ e)).
      { induction a; intros b c e; destruct c; simpl; try discriminate; auto.
        intros Hl. f_equal. apply IHa. congruence. }
      apply G. rewrite repeat_length. lia. }
  exists h2, v1, v2, n1, n2. split; [exact Hsz|].
  split; [lia|]. split; [lia|]. split; [easy|]. split; [now rewrite <- EV|].
  split; [easy|]. split; [easy|].
  unfold accept_noisy.
  rewrite (mbind_ok _ _ _ _ _ _ _ E1).
  assert (Hlt : c_index st < length (X ++ [sub_x sub])) by (rewrite app_length; simpl; lia).
  rewrite (mbind_ok _ _ _ _ _ _ _ (m_fvals_log _ _ _ _ _ _ (c_index st) L1 HE Hlt)).
  fold ex.
  assert (Esz : mlift (get_acceptance_sample_sizes (xsqrt (Fin s)) (Z.of_nat (length ex))
                         (sub_ei sub) (Fin z) n_min n_max) h1 = (h1, Ok (n1, n2))).
  { unfold mlift, xsqrt. destruct (Rleb_spec 0 s); [|lra]. now rewrite Hsz. }
  rewrite (mbind_ok _ _ _ _ _ _ _ Esz). cbn [fst snd].
  rewrite (mbind_ok _ _ _ _ _ _ _ E2).
  assert (NE : E ++ combine (repeat (c_index st) (length v1)) v1 ++
               combine (repeat (length X) (length v2)) v2 <> []).
  { intros H0. apply app_eq_nil in H0 as [H0 _]. auto. }
  rewrite (mbind_ok _ _ _ _ _ _ _ (m_fvals_log _ _ _ _ _ _ (c_index st) L2 NE Hlt)).
  assert (Hlt' : length X < length (X ++ [sub_x sub])) by (rewrite app_length; simpl; lia).
  rewrite (mbind_ok _ _ _ _ _ _ _ (m_fvals_log _ _ _ _ _ _ (length X) L2 NE Hlt')).
  assert (F1 : fvals_of ft (c_index st) (E ++ combine (repeat (c_index st) (length v1)) v1 ++
                 combine (repeat (length X) (length v2)) v2) = ex ++ map (spec_fval ft) v1).
  { rewrite !fvals_of_app. fold ex. f_equal. unfold fvals_of.
    rewrite evals_of_repeat, evals_of_repeat_other by lia. simpl. now rewrite app_nil_r. }
  assert (F2 : fvals_of ft (length X) (E ++ combine (repeat (c_index st) (length v1)) v1 ++
                 combine (repeat (length X) (length v2)) v2) = map (spec_fval ft) v2).
  { rewrite !fvals_of_app. unfold fvals_of.
    rewrite evals_of_repeat, evals_of_repeat_other by lia.
    rewrite (evals_of_fresh _ _ (length X)) by
        (auto; apply (haslog_dims _ _ _ _ _ _ HL)). reflexivity. }
  rewrite F1, F2. reflexivity.
Qed.

(** * accept_classic_line_search *)

(** The sampler delivers what it is asked for. *)
Definition good_sampler (d : nat) (sample : sampler) : Prop :=
  forall h reg n model_xs, length (r_center reg) = d ->
    exists xs, sample h reg n model_xs = Ok xs /\ length xs = n /\
               Forall (fun x => length x = d) xs.

(** The same for the search region around the candidate only. *)
Definition sampler_ready (d : nat) (sample : sampler) (sub : subsol) (st : cur) (rf : R) : Prop :=
  forall h reg n model_xs,
    make_region (sub_x sub) (rf * r_radius (c_region st)) (r_bounds (c_region st)) = Ok reg ->
    exists xs, sample h reg n model_xs = Ok xs /\ length xs = n /\
               Forall (fun x => length x = d) xs.

Lemma good_sampler_ready d sample sub st rf : good_sampler d sample -> length (sub_x sub) = d ->
  sampler_ready d sample sub st rf.
Proof.
  intros H L h reg n m M. apply H. destruct (make_region_inv _ _ _ _ M) as (_ & _ & -> & _). exact L.
Qed.

(** The criterion yields no NaN values. *)
Definition nan_free (ft : functype) (crit : criterion) : Prop :=
  forall h args cores outs, args <> [] -> crit h args cores = Ok outs ->
    Forall (fun o => spec_fval ft (recorded o) <> NaN) outs.

(** Only sums of likelihood contributions can be NaN: the wrapper records NaN as +inf. *)
Lemma likelihood_nan_free ft w crit : good_criterion ft w crit -> w <> 0 ->
  (ft = Likelihood -> nan_free ft crit) -> nan_free ft crit.
Proof.
  intros HC Hw HL. destruct ft; [|now apply HL|];
    intros h args cores outs NE E; destruct (HC h args cores NE) as (outs' & E' & _ & F);
    rewrite E in E'; injection E' as <-; (eapply Forall_impl; [|exact F]).
  - intros [[[]|]|] P; cbn in *; try discriminate; destruct P.
  - intros [[|l]|] P; cbn in P |- *; try contradiction. clear.
    assert (G : let s := fold_right (fun x s => xadd (xmul x x) s) (Fin 0)
                           (map (fun x => match x with NaN => PInf | _ => x end) l) in
                s <> NaN /\ s <> NInf); [|apply G].
    induction l as [|a l [I1 I2]]; cbn [map fold_right]; [now split|].
    destruct a, (fold_right _ _ _); cbn in *; split; try discriminate; congruence.
Qed.

Lemma idxmin_from_spec l : forall best i v,
  idxmin_from best l = Some (i, v) ->
  match best with Some (_, b) => b <> NaN | None => True end ->
  v <> NaN /\
  (In (i, v) l \/ best = Some (i, v)) /\
  (forall j u, In (j, u) l -> u = NaN \/ xle v u = true) /\
  match best with Some (_, b) => xle v b = true | None => True end.
Proof.
  induction l as [|[j u] l IH]; intros best i v Hx Hb; simpl in Hx.
  - subst best. split; [easy|]. split; [auto|]. split; [easy|]. now apply xle_refl.
  - assert (CASE : (u = NaN /\ idxmin_from best l = Some (i, v)) \/
                   (u <> NaN /\ exists k b', idxmin_from (Some (k, b')) l = Some (i, v) /\
                      b' <> NaN /\ xle b' u = true /\
                      match best with Some (_, b) => xle b' b = true | None => True end /\
                      (k = j /\ b' = u \/ best = Some (k, b')))).
    { destruct (isnan u) eqn:Nu.
      - left. destruct u; try discriminate. auto.
      - right. assert (Hu : u <> NaN) by (destruct u; discriminate || easy). split; [easy|].
        assert (Hx' : idxmin_from (match best with
                          | None => Some (j, u)
                          | Some (_, b) => if xlt u b then Some (j, u) else best end) l
                      = Some (i, v)) by (destruct u; auto; discriminate).
        clear Hx. destruct best as [[k b]|].
        + destruct (xlt u b) eqn:Lt.
          * exists j, u. split; [easy|]. split; [easy|]. split; [now apply xle_refl|].
            split; [now apply xlt_xle|auto].
          * exists k, b. split; [easy|]. split; [easy|].
            split; [|split; [now apply xle_refl|auto]].
            destruct (xle b u) eqn:L; auto. apply xle_false_lt in L; auto. congruence.
        + exists j, u. split; [easy|]. split; [easy|]. split; [now apply xle_refl|auto]. }
    destruct CASE as [[-> H]|(Hu & k & b' & H & Hb' & Lu & Lb & Wh)].
    + destruct (IH _ _ _ H Hb) as (A1 & A2 & A3 & A4). split; [easy|].
      split; [simpl; tauto|]. split; [|easy].
      intros j' u' [Eq|Hin]; [injection Eq as <- <-; auto|eauto].
    + destruct (IH _ _ _ H Hb') as (A1 & A2 & A3 & A4). split; [easy|].
      split; [|split].
      * destruct A2 as [A2|A2]; [simpl; tauto|]. injection A2 as -> ->.
        destruct Wh as [[-> ->]|Wh]; simpl; auto.
      * intros j' u' [Eq|Hin]; [injection Eq as <- <-|eauto].
        right. eapply xle_trans; eauto.
      * destruct best as [[kb b]|]; auto. eapply xle_trans; eauto.
Qed.

Lemma idxmin_from_some l best : best <> None -> idxmin_from best l <> None.
Proof.
  revert best. induction l as [|[i v] l IH]; intros best Hb; simpl; auto.
  apply IH. destruct best as [[k b]|]; [|congruence].
  destruct v; try congruence; match goal with |- context [if ?c then _ else _] => destruct c end;
    congruence.
Qed.

Lemma idxmin_ok l : l <> [] -> (forall i v, In (i, v) l -> v <> NaN) ->
  exists i v, idxmin l = Ok (i, v) /\ In (i, v) l /\
              (forall j u, In (j, u) l -> xle v u = true).
Proof.
  intros Hl Hn. unfold idxmin.
  destruct (idxmin_from None l) as [[i v]|] eqn:Hi.
  - destruct (idxmin_from_spec _ _ _ _ Hi I) as (A1 & A2 & A3 & _).
    exists i, v. split; [easy|]. split; [now destruct A2|].
    intros j u Hin. destruct (A3 _ _ Hin); auto. exfalso. subst u. eapply Hn; eauto.
  - exfalso. destruct l as [|[i v] l]; [easy|]. simpl in Hi.
    destruct v; try (eapply idxmin_from_some; [|exact Hi]; discriminate).
    apply (Hn i NaN); simpl; auto.
Qed.

Lemma alpha_grid_length b : length (generate_alpha_grid b) = Nat.min b 4 - 1.
Proof. unfold generate_alpha_grid. now rewrite map_length, seq_length. Qed.

Lemma xmean_one v : xmean [v] = v.
Proof.
  unfold xmean. simpl. destruct v as [r| | |]; simpl; auto.
  - destruct (Reqb_spec 1 0); [lra|]. f_equal. field.
  - destruct (Rleb_spec 0 1); simpl; auto; lra.
  - destruct (Rltb_spec 1 0); simpl; auto; lra.
Qed.

Lemma evals_of_seq A n k (vs : list A) j : j < length vs -> length vs = k ->
  exists v, nth_error vs j = Some v /\ evals_of (n + j) (combine (seq n k) vs) = [v].
Proof.
  unfold evals_of. revert n k j. induction vs as [|v vs IH]; intros n k j Hj Hk; simpl in *.
  - lia.
  - destruct k as [|k]; [lia|]. simpl. destruct j as [|j].
    + exists v. split; [easy|]. rewrite Nat.add_0_r, Nat.eqb_refl. simpl. f_equal.
      pose proof (evals_of_fresh) as _. clear -vs. 
      assert (G : forall m, n < m -> map snd (filter (fun p => fst p =? n) (combine (seq m k) vs)) = []).
      { revert k. induction vs; intros k m Hm; destruct k; simpl; auto.
        destruct (Nat.eqb_spec m n); [lia|]. apply IHvs. lia. }
      apply G. lia.
    + destruct (Nat.eqb_spec n (n + S j)); [lia|].
      destruct (IH (S n) k j) as (u & Hu & Hf); [lia|lia|].
      exists u. split; [easy|]. rewrite <- Hf. f_equal. f_equal.
      now replace (S n + j) with (n + S j) by lia.
Qed.

(** Values of the points of the batch: point [length X + k] has the k-th value. *)
Lemma batch_values ft X E vals j :
  Forall (fun e => fst e < length (X : list vec)) E -> j < length vals ->
  exists v, nth_error vals j = Some v /\
    fvals_of ft (length X + j) (E ++ combine (seq (length X) (length vals)) vals)
    = [spec_fval ft v].
Proof.
  intros HE Hj. destruct (evals_of_seq _ (length X) (length vals) vals j Hj eq_refl)
    as (v & Hv & Hf).
  exists v. split; [easy|]. unfold fvals_of. rewrite evals_of_app.
  rewrite (evals_of_fresh _ _ (length X)) by (auto; lia). simpl. now rewrite Hf.
Qed.

(** The decider whatever the criterion returns: only the minimum of the new values can fail. *)
Theorem accept_line_search_raw : forall ft d w h X E crit n_cores sample sub st rf mi bs,
  haslog ft d w h X E -> good_criterion ft w crit ->
  sampler_ready d sample sub st rf -> E <> [] -> 1 < bs ->
  length (sub_x sub) = d -> length (c_x st) = d ->
  two_sided (r_bounds (c_region st)) -> bounds_dim d (r_bounds (c_region st)) ->
  exists h' (new_xs : list vec) vals,
    length new_xs = bs - 1 /\ length vals = bs /\
    Forall (fun x => length x = d) new_xs /\
    (forall v, In v vals -> ~ In NaN v) /\
    haslog ft d w h' (X ++ sub_x sub :: new_xs)
      (E ++ combine (seq (length X) bs) vals) /\
    genuine crit (X ++ sub_x sub :: new_xs) (combine (seq (length X) bs) vals) /\
    (exists m (spec : list vec), new_xs =
        (if is_on_border (c_region st) (sub_x sub) (/ 10)
         then sample_on_line (c_x st) (sub_x sub) (generate_alpha_grid bs) else []) ++ spec /\
        (spec = [] \/ exists h1 reg, make_region (sub_x sub) (rf * r_radius (c_region st))
                           (r_bounds (c_region st)) = Ok reg /\
                         sample h1 reg (length spec) m = Ok spec)) /\
    let value := fun j => mean_of ft (length X + j) (E ++ combine (seq (length X) bs) vals) in
    let rho := calculate_rho (xopp (xsub (value 0) (c_fval st))) (sub_ei sub) in
    (forall j, j < bs -> exists v, nth_error vals j = Some v /\ value j = spec_fval ft v) /\
    (nan_free ft crit -> forall j, j < bs -> value j <> NaN) /\
    accept_classic_line_search crit n_cores sample sub st rf mi bs h =
      (h', match idxmin (map (fun j => (length X + j, value j)) (seq 1 (bs - 1))) with
           | Err e => Err e
           | Ok (i, v) =>
               if xlt v (value 0)
               then Ok (finish (nth (i - length X) (sub_x sub :: new_xs) []) v i rho
                          (xge (xopp (xsub v (c_fval st))) (Fin mi)) st 1)
               else Ok (finish (sub_x sub) (value 0) (length X) rho
                          (xge (xopp (xsub (value 0) (c_fval st))) (Fin mi)) st 1)
           end).
Proof.
  intros ft d w h X E crit n_cores sample sub st rf mi bs HL HC HS HE Hbs Hx Hcx T2 BD.
  unfold accept_classic_line_search.
  destruct (Nat.eqb_spec bs 1) as [->|_]; [lia|].
  destruct (m_add_x_log _ _ _ _ _ _ (sub_x sub) HL Hx) as (h1 & E1 & L1).
  rewrite (mbind_ok _ _ _ _ _ _ _ E1).
  set (ls := if is_on_border (c_region st) (sub_x sub) (/ 10)
             then Some (sample_on_line (c_x st) (sub_x sub) (generate_alpha_grid bs))
             else None).
  set (lsl := match ls with Some l => l | None => [] end).
  assert (Els : lsl = if is_on_border (c_region st) (sub_x sub) (/ 10)
         then sample_on_line (c_x st) (sub_x sub) (generate_alpha_grid bs) else [])
    by (unfold lsl, ls; destruct (is_on_border _ _ _); reflexivity).
  assert (Lls : match ls with None => 0 | Some l => length l end = length lsl)
    by (unfold lsl; destruct ls; reflexivity).
  assert (Lle : length lsl <= bs - 1).
  { rewrite Els. destruct (is_on_border _ _ _); simpl; [|lia].
    unfold sample_on_line. rewrite map_length, alpha_grid_length. lia. }
  assert (Fls : Forall (fun x => length x = d) lsl).
  { rewrite Els. destruct (is_on_border _ _ _); [|constructor].
    unfold sample_on_line. apply Forall_map, Forall_forall. intros a _.
    rewrite map2_length. rewrite Hx, Hcx. lia. }
  rewrite Lls. clear Lls.
  (* the speculative sample *)
  assert (SP : exists m (spec : list vec),
     length spec = bs - 1 - length lsl /\ Forall (fun x => length x = d) spec /\
     (spec = [] \/ exists h1 reg, make_region (sub_x sub) (rf * r_radius (c_region st))
                           (r_bounds (c_region st)) = Ok reg /\
                         sample h1 reg (length spec) m = Ok spec) /\
     (do speculative_xs <-
       (if (0 <? Z.of_nat bs - 1 - Z.of_nat (length lsl))%Z
        then do s <- generate_speculative_sample sample (sub_x sub) (c_region st)
                       (Z.to_nat (Z.of_nat bs - 1 - Z.of_nat (length lsl))) ls rf;
             mret (Some s)
        else mret None);
      mlift (consolidate ls speculative_xs)) h1 = (h1, Ok (lsl ++ spec))).
  { destruct (Z.ltb_spec 0 (Z.of_nat bs - 1 - Z.of_nat (length lsl)))%Z as [Hz|Hz].
    - destruct (binding_ok (r_bounds (c_region st)) (sub_x sub) (rf * r_radius (c_region st)) T2)
        as [bv Hbv].
      { now rewrite Hx. }
      { intros H0. rewrite H0 in Hx. simpl in Hx. destruct HL as (Hd & _). congruence. }
      assert (MR : exists reg, make_region (sub_x sub) (rf * r_radius (c_region st))
                      (r_bounds (c_region st)) = Ok reg).
      { unfold make_region, get_shape. rewrite Hbv. eexists. reflexivity. }
      destruct MR as [reg MR].
      destruct (make_region_inv _ _ _ _ MR) as (_ & _ & RC & _).
      destruct (region_log _ _ _ _ _ _ (r_center reg) (r_radius reg) L1 HE)
        as (is & Q1 & _ & Bis & _).
      destruct (xs_many_log _ _ _ _ _ _ is L1) as (oxs & Q2 & _); [|easy|].
      { intros H0. apply app_eq_nil in H0 as [_ H0]. discriminate. }
      set (n := Z.to_nat (Z.of_nat bs - 1 - Z.of_nat (length lsl))).
      set (m := match ls with Some l => oxs ++ l | None => oxs end).
      destruct (HS h1 reg n m MR) as (spec & S1 & S2 & S3).
      exists m, spec. split; [transitivity n; [exact S2|unfold n; lia]|]. split; [easy|].
      split; [right; exists h1, reg; rewrite S2; auto|].
      assert (G : generate_speculative_sample sample (sub_x sub) (c_region st) n ls rf h1
                  = (h1, Ok spec)).
      { unfold generate_speculative_sample, replace_center_radius.
        rewrite MR.
        rewrite (mbind_ok _ _ (mlift (Ok reg)) _ h1 h1 reg) by reflexivity.
        erewrite mbind_ok by (unfold mquery; now rewrite Q1).
        erewrite mbind_ok by (unfold mquery; now rewrite Q2).
        unfold mquery. now rewrite <- S1. }
      unfold mbind at 1 2. rewrite G. unfold mret, mlift, lsl.
      destruct ls; reflexivity.
    - exists [], []. split; [simpl; lia|]. split; [constructor|]. split; [auto|].
      rewrite app_nil_r. unfold mbind, mret, mlift. unfold lsl in *.
      destruct ls as [l|]; [reflexivity|simpl in Hz; lia]. }
  destruct SP as (m & spec & Lsp & Fsp & Wsp & SP).
  set (new_xs := lsl ++ spec) in *.
  assert (Lnew : length new_xs = bs - 1) by (unfold new_xs; rewrite app_length; lia).
  assert (Fnew : Forall (fun x => length x = d) new_xs) by (apply Forall_app; auto).
  destruct (m_add_xs_log _ _ _ _ _ _ new_xs L1 Fnew) as (h2 & E2 & L2).
  rewrite <- app_assoc in L2. simpl in L2.
  rewrite app_length in E2. simpl in E2. rewrite Lnew in E2.
  set (new_is := seq (length X + 1) (bs - 1)) in *.
  assert (Info : (length X, 1) :: map (fun i => (i, 1)) new_is
                 = map (fun i => (i, 1)) (seq (length X) bs)).
  { replace bs with (S (bs - 1)) by lia. simpl.
    unfold new_is. now rewrite Nat.add_1_r. }
  destruct (m_eval_log _ _ _ _ _ _ crit n_cores
              ((length X, 1) :: map (fun i => (i, 1)) new_is) L2 HC)
    as (h3 & vals & E3 & LV & _ & NN & (outs & HO & EO) & L3).
  { rewrite Info. apply Forall_map, Forall_forall. intros i Hi. apply in_seq in Hi. simpl.
    rewrite app_length. simpl. lia. }
  { rewrite Info, sum_ones, seq_length. lia. }
  rewrite Info in LV, L3, HO. rewrite sum_ones, seq_length in LV. rewrite expand_ones in L3, HO.
  set (E' := E ++ combine (seq (length X) bs) vals) in *.
  assert (NE : E' <> []).
  { intros H0. apply app_eq_nil in H0 as [H0 _]. auto. }
  set (value := fun j => mean_of ft (length X + j) E').
  assert (VV : forall j, j < bs -> exists v, nth_error vals j = Some v /\ value j = spec_fval ft v).
  { intros j Hj. destruct (batch_values ft X E vals j) as (v & Hv & Hf); [|lia|].
    - apply (haslog_dims _ _ _ _ _ _ HL).
    - exists v. split; [easy|]. rewrite LV in Hf. unfold value, mean_of, E'. rewrite Hf. apply xmean_one. }
  (* the best point of the others *)
  assert (LX : length (X ++ sub_x sub :: new_xs) = length X + bs).
  { rewrite app_length. simpl. lia. }
  assert (Bnew : Forall (fun i => i < length (X ++ sub_x sub :: new_xs)) new_is).
  { apply Forall_forall. intros i Hi. apply in_seq in Hi. rewrite LX. lia. }
  pose proof (fvals_many_log _ _ _ _ _ _ new_is L3 NE Bnew (seq_NoDup _ _)) as QF.
  set (tbl := map (fun kv : nat * list xr => (fst kv, xmean (snd kv)))
                  (map (fun i => (i, fvals_of ft i E')) new_is)).
  assert (HT : forall i v, In (i, v) tbl <-> exists j, i = length X + j /\ 1 <= j < bs /\ v = value j).
  { intros i v. unfold tbl. rewrite map_map, in_map_iff. simpl. split.
    - intros (i' & Eq & Hin). injection Eq as <- <-. apply in_seq in Hin.
      exists (i' - length X). replace (length X + (i' - length X)) with i' by lia.
      split; [easy|]. split; [lia|]. unfold value.
      now replace (length X + (i' - length X)) with i' by lia.
    - intros (j & -> & Hj & ->). exists (length X + j). split; [easy|]. apply in_seq. lia. }
  assert (NTH : forall j, j < bs -> exists x, nth_error (sub_x sub :: new_xs) j = Some x).
  { intros j Hj. destruct (nth_error (sub_x sub :: new_xs) j) eqn:Hj'; eauto.
    apply nth_error_None in Hj'. simpl in Hj'. lia. }
  assert (ET : tbl = map (fun j => (length X + j, value j)) (seq 1 (bs - 1))).
  { unfold tbl, new_is. rewrite map_map. cbn [fst snd].
    rewrite (Nat.add_comm (length X) 1), <- (map_id (seq (1 + length X) (bs - 1))).
    assert (SQ : seq (1 + length X) (bs - 1) = map (fun j => length X + j) (seq 1 (bs - 1))).
    { clear. generalize (bs - 1). generalize 1. intros a n. revert a.
      induction n as [|n IHn]; intros a; cbn [seq map]; [easy|]. f_equal; [lia|]. now rewrite <- IHn. }
    rewrite SQ, map_id, map_map. reflexivity. }
  exists h3, new_xs, vals.
  split; [easy|]. split; [easy|]. split; [easy|]. split; [easy|]. split; [exact L3|].
  split. { eapply genuine_combine; eauto. rewrite seq_length. auto. }
  split. { exists m, spec. rewrite <- Els. auto. }
  cbv zeta. fold E'. fold value. split; [exact VV|].
  split.
  { intros HN j Hj. destruct (VV j Hj) as (v & Hv & EV). unfold value in EV. rewrite EV.
    assert (NA : map (fun i => nth i (X ++ sub_x sub :: new_xs) []) (seq (length X) bs) <> [])
      by (destruct bs; [lia|discriminate]).
    pose proof (HN _ _ _ _ NA HO) as HN'. rewrite Forall_forall in HN'.
    apply nth_error_In in Hv. rewrite EO in Hv.
    apply in_map_iff in Hv as (o & <- & Hin). now apply HN'. }
  (* the run *)
  assert (FLAT : forall A B C (m1 : M A) (f : A -> M B) (g : B -> M C) hh,
            mbind m1 (fun a => mbind (f a) g) hh = mbind (mbind m1 f) g hh).
  { intros. unfold mbind. destruct (m1 hh) as [? []]; reflexivity. }
  rewrite FLAT.
  rewrite (mbind_ok _ _ _ _ _ _ _ SP).
  rewrite (mbind_ok _ _ _ _ _ _ _ E2).
  rewrite (mbind_ok _ _ _ _ _ _ _ E3).
  erewrite mbind_ok by (apply (m_fvals_log _ _ _ _ _ _ _ L3 NE); rewrite LX; lia).
  erewrite mbind_ok by (unfold mquery; now rewrite QF).
  fold tbl.
  assert (V0eq : xmean (fvals_of ft (length X) E') = value 0)
    by (unfold value, mean_of; now rewrite Nat.add_0_r).
  rewrite V0eq. change (mean_of ft (length X + 0) E') with (value 0).
  match goal with |- context [idxmin (map ?g (seq 1 (bs - 1)))] =>
    change (map g (seq 1 (bs - 1))) with (map (fun j => (length X + j, value j)) (seq 1 (bs - 1))) end.
  rewrite <- ET.
  destruct (idxmin tbl) as [[bi bv]|e] eqn:IM; [|reflexivity].
  rewrite (mbind_ok _ _ (mlift (Ok _)) _ h3 h3 _ eq_refl).
  cbv iota beta. destruct (xlt bv (value 0)); [|reflexivity].
  assert (Hin : In (bi, bv) tbl).
  { unfold idxmin in IM. destruct (idxmin_from None tbl) as [p|] eqn:IF; [|discriminate].
    injection IM as ->. now destruct (idxmin_from_spec _ _ _ _ IF I) as (_ & [?|?] & _). }
  apply HT in Hin as (jb & -> & Hjb & ->). replace (length X + jb - length X) with jb by lia.
  destruct (NTH jb ltac:(lia)) as [cx Hcx'].
  assert (XO : get_xs_one h3 (Z.of_nat (length X + jb)) = Ok cx).
  { apply (xs_one_log _ _ _ _ _ _ _ _ L3). rewrite nth_error_app2 by lia.
    now replace (length X + jb - length X) with jb by lia. }
  rewrite (nth_error_nth _ _ [] Hcx'). unfold mbind, mquery, mret. now rewrite XO.
Qed.

Theorem accept_line_search_exact : forall ft d w h X E crit n_cores sample sub st rf mi bs,
  haslog ft d w h X E -> good_criterion ft w crit -> nan_free ft crit ->
  sampler_ready d sample sub st rf -> E <> [] -> 1 < bs ->
  length (sub_x sub) = d -> length (c_x st) = d ->
  two_sided (r_bounds (c_region st)) -> bounds_dim d (r_bounds (c_region st)) ->
  exists h' (new_xs : list vec) vals k cx,
    length new_xs = bs - 1 /\ length vals = bs /\
    Forall (fun x => length x = d) new_xs /\
    (forall v, In v vals -> ~ In NaN v) /\
    haslog ft d w h' (X ++ sub_x sub :: new_xs)
      (E ++ combine (seq (length X) bs) vals) /\
    genuine crit (X ++ sub_x sub :: new_xs) (combine (seq (length X) bs) vals) /\
    (exists m (spec : list vec), new_xs =
        (if is_on_border (c_region st) (sub_x sub) (/ 10)
         then sample_on_line (c_x st) (sub_x sub) (generate_alpha_grid bs) else []) ++ spec /\
        (spec = [] \/ exists h1 reg, make_region (sub_x sub) (rf * r_radius (c_region st))
                           (r_bounds (c_region st)) = Ok reg /\
                         sample h1 reg (length spec) m = Ok spec)) /\
    let value := fun j => mean_of ft (length X + j) (E ++ combine (seq (length X) bs) vals) in
    k < bs /\ nth_error (sub_x sub :: new_xs) k = Some cx /\
    (forall j, j < bs -> value j <> NaN /\ xle (value k) (value j) = true) /\
    accept_classic_line_search crit n_cores sample sub st rf mi bs h =
      (h', Ok (finish cx (value k) (length X + k)
                 (calculate_rho (xopp (xsub (value 0) (c_fval st))) (sub_ei sub))
                 (xge (xopp (xsub (value k) (c_fval st))) (Fin mi)) st 1)).
Proof.
  intros ft d w h X E crit n_cores sample sub st rf mi bs HL HC HN HS HE Hbs Hx Hcx T2 BD.
  destruct (accept_line_search_raw ft d w h X E crit n_cores sample sub st rf mi bs HL HC HS HE Hbs Hx Hcx T2 BD)
    as (h3 & new_xs & vals & A1 & A2 & A3 & A4 & A5 & A6 & A7 & A8). cbv zeta in A8.
  set (E' := E ++ combine (seq (length X) bs) vals) in *.
  set (value := fun j => mean_of ft (length X + j) E') in *.
  destruct A8 as (_ & VV & ER). specialize (VV HN).
  set (tbl := map (fun j => (length X + j, value j)) (seq 1 (bs - 1))) in *.
  assert (HT : forall i v, In (i, v) tbl <-> exists j, i = length X + j /\ 1 <= j < bs /\ v = value j).
  { intros i v. unfold tbl. rewrite in_map_iff. split.
    - intros (j & Eq & Hin). injection Eq as <- <-. apply in_seq in Hin. exists j. split; [easy|]. split; [lia|easy].
    - intros (j & -> & Hj & ->). exists j. split; [easy|]. apply in_seq. lia. }
  destruct (idxmin_ok tbl) as (bi & bv & IM & Hin & Hmin).
  { intros H0. assert (Hin : In (length X + 1, value 1) tbl) by (apply HT; exists 1; repeat split; lia).
    rewrite H0 in Hin. destruct Hin. }
  { intros i v Hin. apply HT in Hin as (j & _ & Hj & ->).
    apply VV; lia. }
  apply HT in Hin as (jb & -> & Hjb & ->).
  assert (NTH : forall j, j < bs -> exists x, nth_error (sub_x sub :: new_xs) j = Some x).
  { intros j Hj. destruct (nth_error (sub_x sub :: new_xs) j) eqn:Hj'; eauto.
    apply nth_error_None in Hj'. simpl in Hj'. lia. }
  set (k := if xlt (value jb) (value 0) then jb else 0).
  assert (Hk : k < bs) by (unfold k; destruct (xlt _ _); lia).
  destruct (NTH k Hk) as [cx Hcx'].
  exists h3, new_xs, vals, k, cx.
  do 7 (split; [easy|]).
  cbv zeta. fold E'. fold value. split; [easy|]. split; [easy|].
  split.
  { intros j Hj. split; [now apply VV|].
    assert (V0 : value 0 <> NaN) by (apply VV; lia).
    assert (Vb : value jb <> NaN) by (apply VV; lia).
    assert (K0 : xle (value k) (value 0) = true /\ xle (value k) (value jb) = true).
    { unfold k. destruct (xlt (value jb) (value 0)) eqn:Lt.
      - split; [now apply xlt_xle|now apply xle_refl].
      - split; [now apply xle_refl|].
        destruct (xle (value 0) (value jb)) eqn:Le; auto.
        apply xle_false_lt in Le; auto. congruence. }
    destruct (Nat.eq_dec j 0) as [->|Hj0]; [easy|].
    eapply xle_trans; [apply K0|]. apply (Hmin (length X + j)). apply HT. exists j.
    split; [easy|]. split; [lia|easy]. }
  rewrite ER, IM. f_equal. unfold k in Hcx' |- *. replace (length X + jb - length X) with jb by lia.
  destruct (xlt (value jb) (value 0)).
  - now rewrite (nth_error_nth _ _ [] Hcx').
  - cbn in Hcx'. injection Hcx' as <-. now rewrite Nat.add_0_r.
Qed.
