(** Invariants of the phases of the main loop (partial correctness: statements about runs that
    do not raise). *)
From Coq Require Import Reals List Arith ZArith Bool Lia Lra.
From Verif Require Import Base XR Vec HistoryModel HistorySpec HistoryProofs WrapModel WrapProofs
  VolumeModel RegionModel AdjustModel AcceptModel FilterModel LogSpec LogProofs Prop_Region
  Prop_Adjust AcceptProofs Prop_Accept Prop_Filter MainModel.
Import ListNotations.
Open Scope nat_scope.

(** [v] is what the criterion returned (as recorded) for the argument [x] in some call. *)
Definition true_eval (crit : criterion) (x : vec) (v : list xr) : Prop :=
  exists h args cores outs k o,
    crit h args cores = Ok outs /\ length outs = length args /\
    nth_error args k = Some x /\ nth_error outs k = Some o /\ v = recorded o.
Definition true_evals (crit : criterion) (X : list vec) (E : list (nat * list xr)) : Prop :=
  forall i v, In (i, v) E -> exists x, nth_error X i = Some x /\ true_eval crit x v.

Lemma true_evals_app crit X E1 E2 :
  true_evals crit X E1 -> true_evals crit X E2 -> true_evals crit X (E1 ++ E2).
Proof. intros H1 H2 i v Hi. apply in_app_or in Hi as [Hi|Hi]; auto. Qed.
Lemma true_evals_more crit X X' E : true_evals crit X E -> true_evals crit (X ++ X') E.
Proof.
  intros H i v Hi. destruct (H i v Hi) as (x & Hx & T). exists x. split; [|easy].
  rewrite nth_error_app1; [easy|]. apply nth_error_Some. congruence.
Qed.

Lemma nth_error_nth_default A (l : list A) i d : i < length l -> nth_error l i = Some (nth i l d).
Proof. intros H. now apply nth_error_nth'. Qed.

Lemma expand_zero info : list_sum (map (@snd nat nat) info) = 0 -> expand info = [].
Proof.
  unfold expand. induction info as [|[i n] info IH]; simpl; auto. intros H.
  assert (n = 0) by lia. subst. simpl. apply IH. lia.
Qed.

Lemma m_eval_inv ft d w h X E crit n_cores info h' :
  haslog ft d w h X E -> good_criterion ft w crit ->
  m_eval crit n_cores info h = (h', Ok tt) ->
  Forall (fun p => fst p < length X) info ->
  exists vals, length vals = list_sum (map snd info) /\
    haslog ft d w h' X (E ++ combine (expand info) vals) /\
    true_evals crit X (combine (expand info) vals).
Proof.
  intros HL HC H Hi.
  destruct (Nat.eq_dec (list_sum (map snd info)) 0) as [Z|Z].
  - exists []. rewrite Z. split; [easy|]. rewrite (expand_zero _ Z). simpl. rewrite app_nil_r.
    split; [|intros i v []].
    assert (h' = h); [|now subst].
    unfold m_eval, wrapped_criterion in H. destruct info as [|p info]; [now injection H|].
    cbn [map] in H. revert H. set (zs := _ :: map fst _). set (ns := snd _ :: map snd _).
    assert (Zn : list_sum ns = 0).
    { unfold ns. rewrite map_map. simpl. simpl in Z. rewrite <- Z. f_equal. }
    assert (RE : forall A (l : list A) n, list_sum n = 0 -> rep_each l n = []).
    { clear. intros A l. induction l as [|a l IH]; intros [|k n]; simpl; auto. intros H.
      assert (k = 0) by lia. subst. simpl. apply IH. lia. }
    destruct (get_xs_many h zs) as [xs|e]; cbn [bind]; [|discriminate].
    assert (NP : forall A (l : list A) r, np_repeat l ns = Ok r -> r = []).
    { intros A l r. unfold np_repeat. destruct (_ =? _).
      - intros [= <-]. now apply RE.
      - destruct ns as [|k [|]]; try discriminate. intros [= <-]. apply RE.
        simpl in Zn. assert (k = 0) by lia. subst. clear. induction (length l); simpl; auto. }
    destruct (np_repeat xs ns) as [a|e]; [|discriminate].
    destruct (crit h a _) as [o|e]; [|discriminate].
    destruct (np_repeat zs ns) as [z|e] eqn:En; [|discriminate].
    apply NP in En. subst z. unfold add_evals. simpl. now intros [= <-].
  - destruct (m_eval_log _ _ _ _ _ _ crit n_cores info HL HC Hi ltac:(lia))
      as (h2 & vals & E2 & LV & _ & NN & (outs & HO & EO) & L2).
    rewrite H in E2. injection E2 as <-.
    exists vals. split; [easy|]. split; [easy|].
    intros i v Hiv. apply In_nth_error in Hiv as [k Hk].
    rewrite nth_error_combine in Hk.
    destruct (nth_error (expand info) k) as [i'|] eqn:E1; [|discriminate].
    destruct (nth_error vals k) as [v'|] eqn:E3; [|discriminate].
    injection Hk as -> ->.
    assert (Hlt : i < length X).
    { apply nth_error_In in E1. unfold expand in E1. apply in_flat_map in E1 as (p & Hp & Hr).
      apply repeat_spec in Hr. subst. rewrite Forall_forall in Hi. now apply Hi. }
    exists (nth i X []). split; [now apply nth_error_nth_default|].
    rewrite EO in E3. rewrite nth_error_map in E3.
    destruct (nth_error outs k) as [o|] eqn:E4; [|discriminate]. injection E3 as <-.
    unfold true_eval. exists h, (map (fun i => nth i X []) (expand info)),
      (Nat.min n_cores (list_sum (map snd info))), outs, k, o.
    split; [easy|]. split.
    { rewrite map_length, expand_length, <- LV, EO, map_length. reflexivity. }
    split; [|split; easy]. now rewrite nth_error_map, E1.
Qed.

(** * Deciders *)

(** Samplers return vectors of the right length. *)
Definition sampler_dim (d : nat) (s : sampler) : Prop :=
  forall h reg n m xs, length (r_center reg) = d -> s h reg n m = Ok xs ->
    Forall (fun x => length x = d) xs.
Definition decider_dim (d : nat) (D : decider) : Prop :=
  match D with LineSearch s _ _ => sampler_dim d s | _ => True end.

Lemma idxmin_In l p : idxmin l = Ok p -> In p l.
Proof.
  unfold idxmin. destruct (idxmin_from None l) as [q|] eqn:E; [|discriminate]. intros [= <-].
  assert (G : forall l best q, idxmin_from best l = Some q -> In q l \/ best = Some q).
  { clear. induction l as [|[i v] l IH]; simpl; intros best q H; auto.
    apply IH in H as [H|H]; auto.
    destruct v; auto; try (destruct best as [[j b]|]; [destruct (xlt _ b)|]; auto; injection H as <-; auto). }
  destruct (G _ _ _ E); [easy|discriminate].
Qed.

(** The effect of [finish], whatever it is given. *)
Lemma finish_facts cx cf ci rho acc st n (X newX : list vec) :
  nth_error X (c_index st) = Some (c_x st) ->
  length X <= ci -> nth_error (X ++ newX) ci = Some cx ->
  let a := finish cx cf ci rho acc st n in
  nth_error (X ++ newX) (a_candidate_index a) = Some (a_candidate_x a) /\
  a_step_length a = dist (a_x a) (c_x st) /\
  (a_accepted a = true -> acc = true /\ isfinite cf = true /\ a_x a = cx /\ a_fval a = cf /\
     a_index a = ci) /\
  (a_accepted a = false -> a_x a = c_x st /\ a_fval a = c_fval st /\ a_index a = c_index st) /\
  (a_candidate_index a = c_index st /\ a_candidate_x a = c_x st \/ length X <= a_candidate_index a).
Proof.
  intros Hc Hl Hn. cbv zeta.
  assert (Hc' : nth_error (X ++ newX) (c_index st) = Some (c_x st)).
  { rewrite nth_error_app1; [easy|]. apply nth_error_Some. congruence. }
  unfold finish. destruct (isfinite cf); [destruct acc|]; cbn; repeat split; auto; try discriminate.
Qed.

Definition not_line_search (D : decider) : Prop :=
  match D with LineSearch _ _ _ => False | _ => True end.

Record decided (ft : functype) (crit : criterion) (D : decider) (sub : subsol) (st : cur) (mi : R)
    (X newX : list vec) (E newE : list (nat * list xr)) (acc : acceptance) : Prop := {
  dc_true : true_evals crit (X ++ newX) newE;
  dc_first : nth_error newX 0 = Some (sub_x sub);
  dc_idx : forall i, In i (map fst newE) -> i = c_index st \/ length X <= i;
  dc_cur : (match D with Noisy _ _ _ _ => False | _ => True end) -> ~ In (c_index st) (map fst newE);
  dc_newX : not_line_search D -> newX = [sub_x sub];
  dc_classic : D = Classic -> map fst newE = [length X];
  dc_naive : D = NaiveNoisy -> map fst newE = repeat (length X) 10;
  dc_line : forall s rf bs, D = LineSearch s rf bs -> map fst newE = seq (length X) (length newX);
  dc_noisy : forall var z n_min n_max, D = Noisy var z n_min n_max ->
    exists n1 n2, get_acceptance_sample_sizes (xsqrt var) (Z.of_nat (length (evals_of (c_index st) E)))
        (sub_ei sub) (Fin z) n_min n_max = Ok (n1, n2) /\
      length (evals_of (c_index st) newE) = Z.to_nat n1 /\ length (evals_of (length X) newE) = Z.to_nat n2;
  dc_cand : nth_error (X ++ newX) (a_candidate_index acc) = Some (a_candidate_x acc);
  dc_step : a_step_length acc = dist (a_x acc) (c_x st);
  dc_acc : a_accepted acc = true ->
    length X <= a_index acc /\ nth_error (X ++ newX) (a_index acc) = Some (a_x acc) /\
    a_fval acc = mean_of ft (a_index acc) (E ++ newE) /\ isfinite (a_fval acc) = true /\
    xge (xopp (xsub (a_fval acc) (reference ft D st (E ++ newE)))) (Fin mi) = true;
  dc_rej : a_accepted acc = false ->
    a_x acc = c_x st /\ a_fval acc = c_fval st /\ a_index acc = c_index st;
  dc_yes : D = Classic -> isfinite (mean_of ft (length X) (E ++ newE)) = true ->
    xge (xopp (xsub (mean_of ft (length X) (E ++ newE)) (c_fval st))) (Fin mi) = true ->
    a_accepted acc = true;
  dc_cand_new : a_candidate_index acc = c_index st /\ a_candidate_x acc = c_x st \/
    length X <= a_candidate_index acc;
  dc_rho : a_accepted acc = true \/
      not_line_search D /\ isfinite (mean_of ft (length X) (E ++ newE)) = true ->
    a_rho acc = calculate_rho (xopp (xsub (mean_of ft (length X) (E ++ newE)) (reference ft D st (E ++ newE))))
                  (sub_ei sub);
  dc_rho_inf : not_line_search D -> isfinite (mean_of ft (length X) (E ++ newE)) = false ->
    a_rho acc = NInf
}.

Lemma mlift_inv A (r : res A) h h' a : mlift r h = (h', Ok a) -> h' = h /\ r = Ok a.
Proof. unfold mlift. intros [= <- ->]. auto. Qed.
Lemma mquery_inv A (f : hist -> res A) h h' a : mquery f h = (h', Ok a) -> h' = h /\ f h = Ok a.
Proof. unfold mquery. intros [= <- ->]. auto. Qed.
Lemma mret_inv A (a b : A) h h' : mret a h = (h', Ok b) -> h' = h /\ b = a.
Proof. unfold mret. intros [= <- ->]. auto. Qed.

(** Inversion of monadic code, one command at a time. *)
Ltac inv_bind H :=
  let h1 := fresh "h" in let a := fresh "a" in let E := fresh "E" in
  apply mbind_inv in H as (h1 & a & E & H);
  try (apply mlift_inv in E as [-> E]);
  try (apply mquery_inv in E as [-> E]).

Lemma accept_simple_inv ft d w h X E crit n_cores sub st mi n h' acc D :
  haslog ft d w h X E -> good_criterion ft w crit -> length (sub_x sub) = d ->
  nth_error X (c_index st) = Some (c_x st) -> 0 < n ->
  (D = Classic /\ n = 1 \/ D = NaiveNoisy /\ n = 10 \/ exists s rf, D = LineSearch s rf 1 /\ n = 1) ->
  accept_simple crit n_cores sub st mi n h = (h', Ok acc) ->
  exists newX newE, haslog ft d w h' (X ++ newX) (E ++ newE) /\
    decided ft crit D sub st mi X newX E newE acc.
Proof.
  intros HL HC Hx Hst Hn HD H. unfold accept_simple in H.
  destruct (m_add_x_log _ _ _ _ _ _ (sub_x sub) HL Hx) as (h1 & E1 & L1).
  apply mbind_inv in H as (h1' & ci & E1' & H). rewrite E1 in E1'. injection E1' as <- <-.
  apply mbind_inv in H as (h2 & [] & E2 & H).
  destruct (m_eval_inv _ _ _ _ _ _ _ _ _ _ L1 HC E2 ltac:(repeat constructor; simpl; rewrite app_length; simpl; lia))
    as (vals & LV & L2 & T2).
  rewrite expand_one in L2, T2. simpl in LV. rewrite Nat.add_0_r in LV.
  apply mbind_inv in H as (h3 & fv & E3 & H).
  set (newE := combine (repeat (length X) n) vals) in *.
  assert (NE : E ++ newE <> []).
  { intros H0. apply app_eq_nil in H0 as [_ H0]. revert H0.
    apply combine_nonnil; [destruct n; simpl; [lia|discriminate]|].
    destruct vals; [simpl in LV; lia|discriminate]. }
  assert (LX : length X < length (X ++ [sub_x sub])) by (rewrite app_length; simpl; lia).
  rewrite (m_fvals_log _ _ _ _ _ _ (length X) L2 NE LX) in E3.
  injection E3 as <- <-. apply mret_inv in H as [-> ->].
  exists [sub_x sub], newE. split; [easy|].
  assert (MF : map fst newE = repeat (length X) n).
  { unfold newE. apply combine_fst. now rewrite repeat_length. }
  assert (Hcx : c_index st < length X) by (apply nth_error_Some; congruence).
  destruct (finish_facts (sub_x sub) (mean_of ft (length X) (E ++ newE)) (length X)
    (calculate_rho (xopp (xsub (mean_of ft (length X) (E ++ newE)) (c_fval st))) (sub_ei sub))
    (xge (xopp (xsub (mean_of ft (length X) (E ++ newE)) (c_fval st))) (Fin mi)) st n X [sub_x sub])
    as (F1 & F2 & F3 & F4 & F5); auto.
  { rewrite nth_error_app2, Nat.sub_diag; auto. }
  unfold mean_of in F1, F2, F3, F4, F5. fold (mean_of ft (length X) (E ++ newE)) in *.
  assert (HR : reference ft D st (E ++ newE) = c_fval st).
  { destruct HD as [[-> _]|[[-> _]|(s & rf & -> & _)]]; reflexivity. }
  split; auto.
  - intros i Hi. rewrite MF in Hi. apply repeat_spec in Hi. lia.
  - intros _ Hi. rewrite MF in Hi. apply repeat_spec in Hi. lia.
  - intros ->. destruct HD as [[_ ->]|[[? _]|(s & rf & ? & _)]]; try discriminate. exact MF.
  - intros ->. destruct HD as [[? _]|[[_ ->]|(s & rf & ? & _)]]; try discriminate. exact MF.
  - intros s0 rf0 bs0 ->. destruct HD as [[? _]|[[? _]|(s & rf & ? & ->)]]; try discriminate. exact MF.
  - intros var z lo hi ->. destruct HD as [[? _]|[[? _]|(s & rf & ? & _)]]; discriminate.
  - intros Ha. destruct (F3 Ha) as (A1 & A2 & A3 & A4 & A5). rewrite HR.
    fold newE in A3, A4, A5. rewrite A5, A4, A3. split; [lia|]. split.
    { rewrite nth_error_app2, Nat.sub_diag; auto. }
    split; [reflexivity|]. split; [exact A2|exact A1].
  - intros _ Hf Hx'. fold (mean_of ft (length X) (E ++ newE)). unfold finish.
    now rewrite Hf, Hx'.
  - fold (mean_of ft (length X) (E ++ newE)). rewrite HR. unfold finish.
    destruct (isfinite _) eqn:Hf; [easy|]. cbn. intros [?|[_ ?]]; discriminate.
  - fold (mean_of ft (length X) (E ++ newE)). intros _ Hf. unfold finish. now rewrite Hf.
Qed.

Lemma sample_sizes_min s k ei z lo hi r : (lo <= hi)%Z ->
  get_acceptance_sample_sizes s k ei z lo hi = Ok r -> (lo <= snd r)%Z.
Proof.
  intros Hl. unfold get_acceptance_sample_sizes. destruct (optimal_sample_sizes _ _ _ _ _) as [a c].
  destruct (int_ceil (xclip a _ _)) as [n1|]; [|discriminate]. cbn [bind].
  assert (F : c = NaN \/ exists q, xclip c (Fin (IZR lo)) (Fin (IZR hi)) = Fin q /\ (IZR lo <= q <= IZR hi)%R).
  { destruct c; [right|right|right|now left]; (apply xclip_fin; [discriminate|now apply IZR_le]). }
  destruct F as [->|(q & -> & Q)]; [cbn; discriminate|].
  cbn [int_ceil bind]. intros [= <-]. cbn [snd]. apply ceilR_range in Q. lia.
Qed.
Lemma evals_of_combine_repeat i j n m (vals : list (list xr)) : i <> j -> length vals = n + m ->
  length (evals_of i (combine (repeat i n ++ repeat j m) vals)) = n /\
  length (evals_of j (combine (repeat i n ++ repeat j m) vals)) = m.
Proof.
  intros Hij. revert vals. induction n as [|n IH]; intros vals L; cbn [repeat app].
  - cbn [Nat.add] in L. subst m. induction vals as [|v vals IH]; [easy|].
    cbn [length repeat combine]. unfold evals_of in *. cbn [filter fst]. rewrite Nat.eqb_refl.
    destruct (Nat.eqb_spec j i); [congruence|]. cbn [map length]. destruct IH as [IH1 IH2]. now rewrite IH1, IH2.
  - destruct vals as [|v vals]; [discriminate|]. cbn [combine]. unfold evals_of in *. cbn [filter fst].
    rewrite Nat.eqb_refl. destruct (Nat.eqb_spec i j); [easy|]. cbn [map length].
    destruct (IH vals) as [IH1 IH2]; [cbn in L; lia|]. now rewrite IH1, IH2.
Qed.

Lemma accept_noisy_inv ft d w h X E crit n_cores sub st var mi z n_min n_max h' acc :
  haslog ft d w h X E -> good_criterion ft w crit -> length (sub_x sub) = d ->
  nth_error X (c_index st) = Some (c_x st) -> E <> [] ->
  accept_noisy crit n_cores sub st var mi z n_min n_max h = (h', Ok acc) ->
  exists newX newE, haslog ft d w h' (X ++ newX) (E ++ newE) /\
    decided ft crit (Noisy var z n_min n_max) sub st mi X newX E newE acc.
Proof.
  intros HL HC Hx Hst HE H. unfold accept_noisy in H.
  destruct (m_add_x_log _ _ _ _ _ _ (sub_x sub) HL Hx) as (h1 & E1 & L1).
  apply mbind_inv in H as (h1' & ci & E1' & H). rewrite E1 in E1'. injection E1' as <- <-.
  apply mbind_inv in H as (h2 & ex & E2 & H). rename E2 into EX.
  assert (Hcx' : c_index st < length (X ++ [sub_x sub])).
  { rewrite app_length. assert (c_index st < length X) by (apply nth_error_Some; congruence). lia. }
  rewrite (m_fvals_log _ _ _ _ _ _ (c_index st) L1 HE Hcx') in EX. injection EX as <- <-.
  apply mbind_inv in H as (h2 & sz & E2 & H). apply mlift_inv in E2 as [-> SZ]. unfold fvals_of in SZ. rewrite map_length in SZ.
  apply mbind_inv in H as (h2 & [] & E2 & H).
  assert (Hcx : c_index st < length X) by (apply nth_error_Some; congruence).
  destruct (m_eval_inv _ _ _ _ _ _ _ _ _ _ L1 HC E2 ltac:(repeat constructor; simpl; rewrite app_length; simpl; lia))
    as (vals & LV & L2 & T2).
  set (newE := combine _ vals) in *.
  assert (NE : E ++ newE <> []) by (destruct E; [easy|discriminate]).
  assert (LX : length X < length (X ++ [sub_x sub])) by (rewrite app_length; simpl; lia).
  apply mbind_inv in H as (h3 & f1 & E3 & H).
  rewrite (m_fvals_log _ _ _ _ _ _ (c_index st) L2 NE ltac:(lia)) in E3. injection E3 as <- <-.
  apply mbind_inv in H as (h3 & f1 & E3 & H).
  rewrite (m_fvals_log _ _ _ _ _ _ (length X) L2 NE LX) in E3. injection E3 as <- <-.
  apply mret_inv in H as [-> ->].
  exists [sub_x sub], newE. split; [easy|].
  fold (mean_of ft (length X) (E ++ newE)). fold (mean_of ft (c_index st) (E ++ newE)).
  match goal with |- decided _ _ _ _ _ _ _ _ _ _ (finish _ ?cf _ ?rho ?ac _ ?n) =>
    destruct (finish_facts (sub_x sub) cf (length X) rho ac st n X [sub_x sub])
      as (F1 & F2 & F3 & F4 & F5); auto end.
  { rewrite nth_error_app2, Nat.sub_diag; auto. }
  split; auto; try easy.
  - intros i Hi. apply in_map_iff in Hi as ([i' v] & <- & Hi). apply in_combine_l in Hi.
    unfold expand in Hi. apply in_flat_map in Hi as (p & Hp & Hi). apply repeat_spec in Hi.
    simpl. subst i'. destruct Hp as [<-|[<-|[]]]; simpl; auto.
  - intros var' z' lo hi [= <- <- <- <-]. exists (fst sz), (snd sz). split; [rewrite SZ; now destruct sz|].
    unfold newE, expand. cbn [flat_map fst snd]. rewrite app_nil_r. apply evals_of_combine_repeat; [lia|].
    rewrite LV. cbn. lia.
  - intros Ha. destruct (F3 Ha) as (A1 & A2 & A3 & A4 & A5). rewrite A3, A4, A5.
    split; [lia|]. split; [rewrite nth_error_app2, Nat.sub_diag; auto|]. auto.
  - unfold finish. destruct (isfinite _) eqn:Hf; [easy|]. cbn. intros [?|[_ ?]]; discriminate.
  - intros _ Hf. unfold finish. now rewrite Hf.
Qed.

Lemma make_region_center c r b reg : make_region c r b = Ok reg ->
  r_center reg = c /\ r_radius reg = r /\ r_bounds reg = b.
Proof.
  unfold make_region. destruct (get_shape c r b) as [sh|]; [|discriminate]. cbn [bind].
  destruct (get_cube_bounds c r b sh) as [lo up]. intros [= <-]. auto.
Qed.

Lemma line_search_inv ft d w h X E crit n_cores s sub st rf mi bs h' acc :
  haslog ft d w h X E -> good_criterion ft w crit -> length (sub_x sub) = d ->
  nth_error X (c_index st) = Some (c_x st) -> E <> [] -> sampler_dim d s ->
  accept_classic_line_search crit n_cores s sub st rf mi bs h = (h', Ok acc) ->
  exists newX newE, haslog ft d w h' (X ++ newX) (E ++ newE) /\
    decided ft crit (LineSearch s rf bs) sub st mi X newX E newE acc.
Proof.
  intros HL HC Hx Hst HE HS H. unfold accept_classic_line_search in H.
  destruct (Nat.eqb_spec bs 1) as [->|Hbs].
  { eapply accept_simple_inv; eauto. right. right. eauto. }
  assert (Hcd : length (c_x st) = d).
  { destruct (haslog_dims _ _ _ _ _ _ HL) as (F & _). rewrite Forall_forall in F. apply F.
    now apply nth_error_In in Hst. }
  destruct (m_add_x_log _ _ _ _ _ _ (sub_x sub) HL Hx) as (h1 & E1 & L1).
  apply mbind_inv in H as (h1' & ci & E1' & H). rewrite E1 in E1'. injection E1' as <- <-.
  set (ls := if is_on_border (c_region st) (sub_x sub) (/ 10)
             then Some (sample_on_line (c_x st) (sub_x sub) (generate_alpha_grid bs)) else None) in *.
  assert (Dls : match ls with Some l => Forall (fun x => length x = d) l | None => True end).
  { unfold ls. destruct (is_on_border _ _ _); [|easy]. unfold sample_on_line.
    apply Forall_map, Forall_forall. intros a _. rewrite map2_length. lia. }
  apply mbind_inv in H as (h2 & sp & E2 & H).
  assert (Esp : h2 = h1 /\ match sp with Some l => Forall (fun x => length x = d) l | None => True end).
  { destruct (_ <? _)%Z.
    - apply mbind_inv in E2 as (h3 & s0 & E3 & E2). apply mret_inv in E2 as [-> ->].
      unfold generate_speculative_sample in E3.
      inv_bind E3. inv_bind E3. inv_bind E3. apply mquery_inv in E3 as [-> E3].
      split; [easy|]. eapply HS; [|exact E3]. 
      unfold replace_center_radius in E0. now apply make_region_center in E0 as (-> & _).
    - apply mret_inv in E2 as [-> ->]. auto. }
  destruct Esp as [-> Dsp]. clear E2.
  apply mbind_inv in H as (h2 & nx & E2 & H). apply mlift_inv in E2 as [-> E2].
  assert (Dn : Forall (fun x => length x = d) nx).
  { unfold consolidate in E2. destruct ls, sp; try discriminate; injection E2 as <-; auto.
    apply Forall_app. auto. }
  destruct (m_add_xs_log _ _ _ _ _ _ nx L1 Dn) as (h2 & E3 & L2).
  apply mbind_inv in H as (h2' & is & E3' & H). rewrite E3 in E3'. injection E3' as <- <-.
  rewrite <- app_assoc in L2. cbn [app] in L2.
  rewrite app_length in H. cbn [length] in H.
  set (newX := sub_x sub :: nx) in *.
  set (new_is := seq (length X + 1) (length nx)) in *.
  assert (Info : (length X, 1) :: map (fun i => (i, 1)) new_is
                 = map (fun i => (i, 1)) (seq (length X) (length newX))).
  { unfold newX. simpl. unfold new_is. now rewrite Nat.add_1_r. }
  apply mbind_inv in H as (h3 & [] & E4 & H). rewrite Info in E4.
  assert (LXn : length (X ++ newX) = length X + length newX) by apply app_length.
  destruct (m_eval_inv _ _ _ _ _ _ _ _ _ _ L2 HC E4
    ltac:(apply Forall_map, Forall_forall; intros i Hi; apply in_seq in Hi; simpl; lia))
    as (vals & LV & L3 & T3).
  rewrite expand_ones in L3, T3. rewrite sum_ones, seq_length in LV.
  set (newE := combine _ vals) in *.
  assert (MF : map fst newE = seq (length X) (length newX)).
  { unfold newE. apply combine_fst. now rewrite seq_length. }
  assert (NE : E ++ newE <> []) by (destruct E; [easy|discriminate]).
  assert (LnX : length newX = S (length nx)) by reflexivity.
  apply mbind_inv in H as (h4 & f1 & E5 & H).
  rewrite (m_fvals_log _ _ _ _ _ _ (length X) L3 NE ltac:(lia)) in E5. injection E5 as <- <-.
  inv_bind H. inv_bind H.
  rewrite (fvals_many_log _ _ _ _ _ _ new_is L3 NE) in E0.
  2:{ apply Forall_forall. intros i Hi. apply in_seq in Hi. lia. }
  2:{ apply seq_NoDup. }
  injection E0 as <-. rewrite map_map in E5. cbn [fst snd] in E5.
  apply idxmin_In in E5. destruct a0 as [bi bf].
  apply in_map_iff in E5 as (bi' & Eb & Hbi). injection Eb as -> <-. apply in_seq in Hbi.
  fold (mean_of ft (length X) (E ++ newE)) in H. fold (mean_of ft bi (E ++ newE)) in H.
  apply mbind_inv in H as (h5 & chosen & E6 & H).
  assert (CH : exists ci cx, h5 = h3 /\ chosen = (cx, mean_of ft ci (E ++ newE), ci) /\
                 length X <= ci /\ nth_error (X ++ newX) ci = Some cx).
  { destruct (xlt _ _) eqn:XL.
    - inv_bind E6. apply mret_inv in E6 as [-> ->]. exists bi, a.
      split; [easy|]. split; [easy|]. split; [lia|].
      destruct (nth_error (X ++ newX) bi) as [x|] eqn:Ex.
      + rewrite (xs_one_log _ _ _ _ _ _ bi x L3 Ex) in E0. congruence.
      + apply nth_error_None in Ex. lia.
    - apply mret_inv in E6 as [-> ->]. exists (length X), (sub_x sub).
      split; [easy|]. split; [easy|]. split; [lia|].
      rewrite nth_error_app2, Nat.sub_diag; auto. }
  destruct CH as (ci & cx & -> & -> & Hci & Hcx).
  apply mret_inv in H as [-> ->].
  exists newX, newE. split; [easy|].
  match goal with |- decided _ _ _ _ _ _ _ _ _ _ (finish _ ?cf _ ?rho ?ac _ ?n) =>
    destruct (finish_facts cx cf ci rho ac st n X newX)
      as (F1 & F2 & F3 & F4 & F5); auto end.
  assert (Hci' : c_index st < length X) by (apply nth_error_Some; congruence).
  split; auto; try easy.
  - intros i Hi. rewrite MF in Hi. apply in_seq in Hi. lia.
  - intros _ Hi. rewrite MF in Hi. apply in_seq in Hi. lia.
  - intros Ha. destruct (F3 Ha) as (A1 & A2 & A3 & A4 & A5). rewrite A3, A4, A5. auto.
  - intros [Ha|[[] _]]. revert Ha. unfold finish. destruct (isfinite _); [easy|]. discriminate.
Qed.

Lemma decider_inv ft d w h X E crit n_cores D sub st mi h' acc :
  haslog ft d w h X E -> good_criterion ft w crit -> length (sub_x sub) = d ->
  nth_error X (c_index st) = Some (c_x st) -> E <> [] -> decider_dim d D ->
  run_decider crit n_cores D sub st mi h = (h', Ok acc) ->
  exists newX newE, haslog ft d w h' (X ++ newX) (E ++ newE) /\
    decided ft crit D sub st mi X newX E newE acc.
Proof.
  intros HL HC Hx Hst HE HD H. destruct D; simpl in H.
  - eapply accept_simple_inv; eauto.
  - eapply accept_simple_inv with (n := 10); eauto; try lia.
  - eapply line_search_inv; eauto.
  - eapply accept_noisy_inv; eauto.
Qed.

(** * Counting evaluations *)

Lemma evals_of_length A i (E : list (nat * A)) :
  length (evals_of i E) = count_occ Nat.eq_dec (map fst E) i.
Proof.
  unfold evals_of. rewrite map_length. induction E as [|[j v] E IH]; simpl; auto.
  destruct (Nat.eqb_spec j i), (Nat.eq_dec j i); simpl; congruence.
Qed.

Lemma count_occ_expand info i :
  count_occ Nat.eq_dec (expand info) i = list_sum (map snd (filter (fun p => fst p =? i) info)).
Proof.
  unfold expand. induction info as [|[j n] info IH]; simpl; auto.
  rewrite count_occ_app, IH. destruct (Nat.eqb_spec j i) as [->|N]; simpl.
  - f_equal. clear. induction n; simpl; auto. destruct (Nat.eq_dec i i); congruence.
  - rewrite (proj1 (count_occ_not_In Nat.eq_dec _ _)); [easy|]. intros H. apply repeat_spec in H. congruence.
Qed.

Lemma list_sum_In l a : In a l -> a <= list_sum l.
Proof. induction l as [|b l IH]; intros []; simpl; [lia|]. specialize (IH H). lia. Qed.

Lemma dict_update_fresh A (e d : dict A) : NoDup (map fst e) ->
  (forall k, In k (map fst e) -> ~ In k (map fst d)) -> dict_update d e = d ++ e.
Proof.
  unfold dict_update. revert d. induction e as [|[k v] e IH]; intros d ND H; simpl.
  - now rewrite app_nil_r.
  - simpl in ND. apply NoDup_cons_iff in ND as [N1 N2].
    rewrite dict_set_fresh by (apply H; simpl; auto).
    rewrite IH; auto.
    + now rewrite <- app_assoc.
    + intros k' Hk'. rewrite map_app, in_app_iff. simpl.
      intros [I|[I|[]]]; [|now subst]. apply (H k'); simpl; auto.
Qed.
