(** Properties C48-C50 and C101: dropping points. *)
From Coq Require Import Reals List Arith ZArith Bool Lia Lra Psatz.
From Verif Require Import Base XR Vec FVec HistoryModel FilterModel.
Import ListNotations.
Open Scope R_scope.

(** * Arrays *)

Definition skip_at (k i : nat) : nat := if (i <? k)%nat then i else S i.

Lemma np_delete_nth_error {A} (l : list A) k i :
  nth_error (np_delete l k) i = nth_error l (skip_at k i).
Proof.
  unfold np_delete, skip_at. revert k i; induction l as [|a l IH]; intros k i.
  - rewrite firstn_nil. simpl. destruct (i <? k)%nat, i; reflexivity.
  - destruct k as [|k]; [reflexivity|]. cbn [firstn app]. destruct i as [|i]; [reflexivity|].
    cbn [nth_error]. change (skipn (S (S k)) (a :: l)) with (skipn (S k) l). rewrite IH.
    change (S i <? S k)%nat with (i <? k)%nat. now destruct (i <? k)%nat.
Qed.
Lemma np_delete_length {A} (l : list A) k : (k < length l)%nat ->
  length (np_delete l k) = pred (length l).
Proof. intros H. unfold np_delete. rewrite app_length, firstn_length, skipn_length. lia. Qed.
Lemma np_delete_map {A B} (f : A -> B) l k : np_delete (map f l) k = map f (np_delete l k).
Proof. unfold np_delete. now rewrite map_app, firstn_map, skipn_map. Qed.
Lemma np_delete_combine {A B} (l : list A) (m : list B) k : length l = length m ->
  np_delete (combine l m) k = combine (np_delete l k) (np_delete m k).
Proof.
  unfold np_delete. revert m k; induction l as [|a l IH]; intros [|b m] k H; try discriminate.
  - now rewrite !firstn_nil.
  - destruct k as [|k]; [reflexivity|]. cbn [combine firstn app skipn]. f_equal.
    now apply IH; injection H.
Qed.
Lemma np_delete_split {A} (l : list A) k a : nth_error l k = Some a ->
  exists l1 l2, l = l1 ++ a :: l2 /\ np_delete l k = l1 ++ l2.
Proof.
  intros H. apply nth_error_split in H as (l1 & l2 & -> & <-). exists l1, l2. split; [easy|].
  unfold np_delete. rewrite firstn_app, firstn_all, Nat.sub_diag, app_nil_r. f_equal.
  replace (S (length l1)) with (length (l1 ++ [a])) by (rewrite app_length; simpl; lia).
  replace (l1 ++ a :: l2) with ((l1 ++ [a]) ++ l2) by (now rewrite <- app_assoc).
  rewrite skipn_app, skipn_all, Nat.sub_diag. reflexivity.
Qed.

Lemma argbest_from_spec {A} (better : A -> A -> bool) :
  (forall a, better a a = false) ->
  (forall a b c, better a b = true -> better b c = true -> better a c = true) ->
  forall l i best b pre, length pre = i -> nth_error pre best = Some b ->
    (forall q, In q pre -> better q b = false) ->
    exists b', nth_error (pre ++ l) (argbest_from better l i best b) = Some b' /\
      forall q, In q (pre ++ l) -> better q b' = false.
Proof.
  intros Irr Tr. induction l as [|a l IH]; intros i best b pre HL HB HQ; cbn [argbest_from].
  - exists b. rewrite app_nil_r. now split.
  - replace (pre ++ a :: l) with ((pre ++ [a]) ++ l) by (now rewrite <- app_assoc).
    destruct (better a b) eqn:E.
    + apply IH.
      * rewrite app_length. simpl. lia.
      * rewrite nth_error_app2 by lia. now rewrite HL, Nat.sub_diag.
      * intros q Hq. apply in_app_or in Hq as [Hq|[<-|[]]]; [|apply Irr].
        destruct (better q a) eqn:Eq; [|easy]. rewrite <- (HQ q Hq). symmetry.
        now apply (Tr q a b).
    + apply IH.
      * rewrite app_length. simpl. lia.
      * rewrite nth_error_app1; [easy|]. apply nth_error_Some. now rewrite HB.
      * intros q Hq. apply in_app_or in Hq as [Hq|[<-|[]]]; auto.
Qed.
Lemma argbest_spec {A} (better : A -> A -> bool) l k :
  (forall a, better a a = false) ->
  (forall a b c, better a b = true -> better b c = true -> better a c = true) ->
  argbest better l = Ok k ->
  exists b, nth_error l k = Some b /\ forall q, In q l -> better q b = false.
Proof.
  intros Irr Tr H. destruct l as [|a l]; [discriminate|]. injection H as <-.
  apply (argbest_from_spec better Irr Tr l 1 0 a [a]); auto.
  intros q [<-|[]]. apply Irr.
Qed.
Lemma argbest_ok {A} (better : A -> A -> bool) l : l <> [] -> exists k, argbest better l = Ok k.
Proof. destruct l; [easy|]. eexists. reflexivity. Qed.

Lemma argmax_spec l k : argmax l = Ok k -> exists b, nth_error l k = Some b /\ forall q, In q l -> q <= b.
Proof.
  intros H. apply argbest_spec in H as (b & Hb & H).
  - exists b. split; [easy|]. intros q Hq. specialize (H q Hq). now apply Rltb_false in H.
  - intros a. apply Rltb_false. lra.
  - intros a b c Ha Hb. apply Rltb_true in Ha, Hb. apply Rltb_true. lra.
Qed.
Lemma xlt_irrefl a : xlt a a = false.
Proof. destruct a; try reflexivity. simpl. apply Rltb_false. lra. Qed.
Lemma xlt_trans a b c : xlt a b = true -> xlt b c = true -> xlt a c = true.
Proof.
  destruct a, b, c; simpl; intros H1 H2; try discriminate; try reflexivity.
  apply Rltb_true in H1, H2. apply Rltb_true. lra.
Qed.
Lemma argmin_spec l k : argmin l = Ok k ->
  exists b, nth_error l k = Some b /\ forall q, In q l -> xlt q b = false.
Proof. intros H. apply argbest_spec in H; auto using xlt_irrefl. exact xlt_trans. Qed.

(** * The distance matrix *)

Lemma mapi_from_nth_error {A B} (f : nat -> A -> B) l : forall s i,
  nth_error (mapi_from s f l) i = option_map (f (s + i)%nat) (nth_error l i).
Proof.
  induction l as [|a l IH]; intros s [|i]; simpl; auto; [now rewrite Nat.add_0_r|].
  rewrite IH. now rewrite Nat.add_succ_r.
Qed.
Lemma mapi_from_length {A B} (f : nat -> A -> B) l : forall s, length (mapi_from s f l) = length l.
Proof. induction l; intros s; simpl; auto. Qed.

Lemma pairwise_length xs : length (pairwise xs) = length xs.
Proof. apply mapi_from_length. Qed.
Lemma pairwise_row xs i row : nth_error (pairwise xs) i = Some row ->
  exists x, nth_error xs i = Some x /\ length row = length xs /\
    forall j, nth_error row j = option_map (fun y => if (i =? j)%nat then PInf else Fin (dist x y))
                                           (nth_error xs j).
Proof.
  unfold pairwise. rewrite mapi_from_nth_error. destruct (nth_error xs i) as [x|]; [|discriminate].
  simpl. intros [= <-]. exists x. split; [easy|]. split; [apply mapi_from_length|].
  intros j. now rewrite mapi_from_nth_error.
Qed.

Lemma nth_error_concat {A} n (L : list (list A)) : (0 < n)%nat ->
  (forall r, In r L -> length r = n) -> forall k,
  nth_error (concat L) k
  = match nth_error L (k / n) with Some row => nth_error row (k mod n) | None => None end.
Proof.
  intros Hn. induction L as [|r L IH]; intros HL k.
  - simpl. now destruct k, (_ / n)%nat.
  - simpl concat. pose proof (HL r (or_introl eq_refl)) as Hr.
    destruct (lt_dec k n) as [Hk|Hk].
    + rewrite nth_error_app1 by lia. rewrite Nat.div_small, Nat.mod_small by lia. reflexivity.
    + rewrite nth_error_app2 by lia. rewrite IH by (intros; apply HL; now right). rewrite Hr.
      assert (E : k = (k - n + 1 * n)%nat) by lia.
      assert (E1 : (k / n = S ((k - n) / n))%nat) by (rewrite E at 1; rewrite Nat.div_add by lia; lia).
      assert (E2 : (k mod n = (k - n) mod n)%nat) by (rewrite E at 1; now rewrite Nat.mod_add by lia).
      rewrite E1, E2. reflexivity.
Qed.
Lemma length_concat {A} n (L : list (list A)) :
  (forall r, In r L -> length r = n) -> length (concat L) = (length L * n)%nat.
Proof.
  induction L as [|r L IH]; simpl; intros H; [easy|].
  rewrite app_length, IH, (H r) by auto. lia.
Qed.

Lemma skip_at_inj k i j : skip_at k i = skip_at k j -> i = j.
Proof. unfold skip_at. destruct (Nat.ltb_spec i k), (Nat.ltb_spec j k); lia. Qed.

Lemma pairwise_delete xs k :
  map (fun row => np_delete row k) (np_delete (pairwise xs) k) = pairwise (np_delete xs k).
Proof.
  apply nth_error_ext. intros i. rewrite nth_error_map, np_delete_nth_error.
  unfold pairwise. rewrite !mapi_from_nth_error, np_delete_nth_error.
  destruct (nth_error xs (skip_at k i)) as [x|]; [|reflexivity]. simpl. f_equal.
  apply nth_error_ext. intros j. rewrite np_delete_nth_error.
  rewrite !mapi_from_nth_error, np_delete_nth_error.
  destruct (nth_error xs (skip_at k j)) as [y|]; [|reflexivity]. simpl. f_equal.
  destruct (Nat.eqb_spec (skip_at k i) (skip_at k j)) as [E|E].
  - apply skip_at_inj in E. subst. now rewrite Nat.eqb_refl.
  - destruct (Nat.eqb_spec i j); [now subst|reflexivity].
Qed.

(** * One point at a time *)

(** Dropping one point with all distances computed afresh. *)
Definition drop_one (st : fstate) (s : list (list R) * list nat) : res (list (list R) * list nat) :=
  drop_worst_points (fst s) (snd s) st 1.
Fixpoint iterate {A} (f : A -> res A) (n : nat) (a : A) : res A :=
  match n with O => Ok a | S n => let* b := f a in iterate f n b end.

Definition dists_of (st : fstate) (xs : list (list R)) : list R := map (fun x => dist x (f_x st)) xs.
Definition any_outside (st : fstate) (xs : list (list R)) : bool :=
  existsb (fun d => Rltb (f_radius st) d) (dists_of st xs).

Lemma any_outside_delete st xs k : any_outside st xs = false -> any_outside st (np_delete xs k) = false.
Proof.
  unfold any_outside. intros H. destruct (existsb _ (dists_of st (np_delete xs k))) eqn:E; [|easy].
  apply existsb_exists in E as (d & Hd & E). rewrite <- H. symmetry. apply existsb_exists.
  exists d. split; [|easy]. unfold dists_of in *. rewrite <- np_delete_map in Hd.
  apply In_nth_error in Hd as [i Hi]. rewrite np_delete_nth_error in Hi.
  now apply nth_error_In in Hi.
Qed.

Lemma drop_one_outside st xs idx : any_outside st xs = true ->
  drop_one st (xs, idx)
  = (let* k := argmax (dists_of st xs) in Ok (np_delete xs k, np_delete idx k)).
Proof.
  intros H. unfold drop_one, drop_worst_points. cbn [fst snd drop_outside].
  change (map (fun x => dist x (f_x st)) xs) with (dists_of st xs).
  unfold any_outside in H. rewrite H. destruct (argmax _) as [k|]; reflexivity.
Qed.
Lemma drop_one_inside st xs idx : any_outside st xs = false ->
  drop_one st (xs, idx) = drop_inside 1 (f_index st) xs idx (dists_of st xs) (pairwise xs).
Proof.
  intros H. unfold drop_one, drop_worst_points. cbn [fst snd drop_outside].
  change (map (fun x => dist x (f_x st)) xs) with (dists_of st xs).
  unfold any_outside in H. rewrite H. reflexivity.
Qed.

Lemma drop_inside_iterate st : forall m xs idx, any_outside st xs = false ->
  drop_inside m (f_index st) xs idx (dists_of st xs) (pairwise xs) = iterate (drop_one st) m (xs, idx).
Proof.
  induction m as [|m IH]; intros xs idx H; [reflexivity|].
  cbn [iterate]. rewrite drop_one_inside by easy. cbn [drop_inside].
  destruct (argmin _) as [k|]; [|reflexivity]. cbn [bind].
  destruct (nth_res idx _) as [a|]; [|reflexivity]. cbn [bind].
  destruct (nth_res idx _) as [b|]; [|reflexivity]. cbn [bind].
  destruct (nth_res (dists_of st xs) _) as [da|]; [|reflexivity]. cbn [bind].
  destruct (nth_res (dists_of st xs) _) as [db|]; [|reflexivity]. cbn [bind].
  set (q := if (a =? f_index st)%nat then _ else _).
  rewrite pairwise_delete. unfold dists_of at 1. rewrite np_delete_map.
  change (map (fun x => dist x (f_x st)) (np_delete xs q)) with (dists_of st (np_delete xs q)).
  apply IH. now apply any_outside_delete.
Qed.

(** The bookkeeping of the loops is equivalent to dropping one point at a time. *)
Lemma drop_worst_points_iterate st : forall n xs idx,
  drop_worst_points xs idx st n = iterate (drop_one st) n (xs, idx).
Proof.
  intros n xs idx. destruct n as [|n']; [reflexivity|]. unfold drop_worst_points.
  generalize (S n') as n. clear n'. change (map (fun x => dist x (f_x st)) xs) with (dists_of st xs).
  intros n. revert xs idx. induction n as [|m IH]; intros xs idx; [reflexivity|].
  cbn [drop_outside iterate]. fold (any_outside st xs).
  destruct (any_outside st xs) eqn:E.
  - rewrite drop_one_outside by easy. destruct (argmax _) as [k|]; [|reflexivity]. cbn [bind].
    rewrite <- IH. unfold dists_of. now rewrite np_delete_map.
  - cbn [bind]. rewrite drop_inside_iterate by easy. reflexivity.
Qed.

(** C101 - distances are computed once and maintained incrementally; this is equivalent to
    recomputing them: dropping a + b points is dropping a points and then b points. *)
Theorem C101_dropping_composes :
  forall st xs idx a b,
    drop_worst_points xs idx st (a + b)
    = match drop_worst_points xs idx st a with
      | Ok (xs', idx') => drop_worst_points xs' idx' st b
      | Err e => Err e
      end.
Proof.
  intros st xs idx a b. rewrite !drop_worst_points_iterate. revert xs idx.
  induction a as [|a IH]; intros xs idx.
  - simpl. now rewrite drop_worst_points_iterate.
  - cbn [Nat.add iterate]. destruct (drop_one st (xs, idx)) as [[xs' idx']|]; [|reflexivity].
    cbn [bind]. apply IH.
Qed.

(** * What one step does *)

Definition at_ (l : list (list R * nat)) (i : nat) (p : list R * nat) : Prop := nth_error l i = Some p.
Definition outside (st : fstate) (p : list R * nat) : Prop := f_radius st < dist (fst p) (f_x st).

Definition step (st : fstate) (P P' : list (list R * nat)) : Prop :=
  exists k p, nth_error P k = Some p /\ P' = np_delete P k /\
   ((outside st p /\ forall q, In q P -> dist (fst q) (f_x st) <= dist (fst p) (f_x st)) \/
    ((forall q, In q P -> ~ outside st q) /\
     ((2 <= length P)%nat ->
        exists i j pi pj, i <> j /\ nth_error P i = Some pi /\ nth_error P j = Some pj /\
         (forall i' j' qi qj, i' <> j' -> nth_error P i' = Some qi -> nth_error P j' = Some qj ->
            dist (fst pi) (fst pj) <= dist (fst qi) (fst qj)) /\
         ((k = j /\ snd pi = f_index st) \/
          (k = i /\ snd pi <> f_index st /\ snd pj = f_index st) \/
          (snd pi <> f_index st /\ snd pj <> f_index st /\
           ((k = i /\ dist (fst pi) (f_x st) < dist (fst pj) (f_x st)) \/
            (k = j /\ dist (fst pj) (f_x st) <= dist (fst pi) (f_x st)))))))).

Lemma nth_res_ok {A} (l : list A) i : (i < length l)%nat -> exists a, nth_res l i = Ok a /\ nth_error l i = Some a.
Proof.
  intros H. unfold nth_res. destruct (nth_error l i) eqn:E; [eauto|].
  apply nth_error_None in E. lia.
Qed.
Lemma nth_error_combine {A B} (l : list A) (m : list B) i :
  nth_error (combine l m) i
  = match nth_error l i, nth_error m i with Some a, Some b => Some (a, b) | _, _ => None end.
Proof.
  revert m i; induction l as [|a l IH]; intros [|b m] [|i]; try reflexivity.
  - simpl. now destruct (nth_error l i).
  - cbn [combine nth_error]. apply IH.
Qed.

Lemma drop_one_step st xs idx : length xs = length idx -> (0 < length xs)%nat ->
  exists xs' idx', drop_one st (xs, idx) = Ok (xs', idx') /\
    length xs' = length idx' /\ length xs' = pred (length xs) /\
    step st (combine xs idx) (combine xs' idx').
Proof.
  intros HL HN. set (P := combine xs idx).
  assert (LP : length P = length xs) by (unfold P; rewrite combine_length; lia).
  assert (PX : forall i x, nth_error xs i = Some x -> exists a, nth_error P i = Some (x, a)).
  { intros i x Hx. unfold P. rewrite nth_error_combine, Hx.
    destruct (nth_error idx i) eqn:E; [eauto|]. apply nth_error_None in E.
    assert (i < length xs)%nat by (apply nth_error_Some; congruence). lia. }
  assert (PI : forall i p, nth_error P i = Some p -> nth_error xs i = Some (fst p) /\ nth_error idx i = Some (snd p)).
  { intros i p Hp. unfold P in Hp. rewrite nth_error_combine in Hp.
    destruct (nth_error xs i), (nth_error idx i); try discriminate. injection Hp as <-. easy. }
  destruct (any_outside st xs) eqn:E.
  - rewrite drop_one_outside by easy.
    assert (NE : dists_of st xs <> []) by (intros Q; apply map_eq_nil in Q; subst; simpl in HN; lia).
    destruct (argbest_ok (fun a b => Rltb b a) (dists_of st xs) NE) as [k Hk].
    change (argmax (dists_of st xs) = Ok k) in Hk. rewrite Hk. cbn [bind].
    apply argmax_spec in Hk as (b & Hb & Hmax).
    assert (KL : (k < length xs)%nat).
    { replace (length xs) with (length (dists_of st xs)) by apply map_length.
      apply nth_error_Some. now rewrite Hb. }
    unfold dists_of in Hb. rewrite nth_error_map in Hb.
    destruct (nth_error xs k) as [x|] eqn:Hx; [|discriminate]. simpl in Hb. injection Hb as <-.
    destruct (PX k x Hx) as [a Ha].
    eexists _, _. split; [reflexivity|]. split; [|split].
    + rewrite !np_delete_length by lia. lia.
    + now rewrite np_delete_length.
    + exists k, (x, a). split; [easy|]. split; [now rewrite <- np_delete_combine|]. left.
      assert (M : forall q, In q P -> dist (fst q) (f_x st) <= dist x (f_x st)).
      { intros q Hq. apply Hmax. apply in_map_iff. exists (fst q). split; [easy|].
        apply In_nth_error in Hq as [i Hi]. apply PI in Hi as [Hi _]. now apply nth_error_In in Hi. }
      split; [|exact M]. apply existsb_exists in E as (d & Hd & E). apply Rltb_true in E.
      apply in_map_iff in Hd as (y & <- & Hy). apply In_nth_error in Hy as [i Hi].
      destruct (PX i y Hi) as [c Hc]. apply nth_error_In in Hc. apply M in Hc. simpl in Hc.
      unfold outside. simpl. lra.
  - rewrite drop_one_inside by easy. cbn [drop_inside].
    set (n := length xs) in *.
    assert (ROW : forall r, In r (pairwise xs) -> length r = n).
    { intros r Hr. apply In_nth_error in Hr as [i Hi]. apply pairwise_row in Hi. now destruct Hi as (? & _ & ? & _). }
    assert (LC : length (concat (pairwise xs)) = (n * n)%nat).
    { rewrite (length_concat n) by easy. now rewrite pairwise_length. }
    assert (NE : concat (pairwise xs) <> []).
    { intros Q. rewrite Q in LC. simpl in LC. nia. }
    destruct (argbest_ok xlt _ NE) as [k Hk]. change (argmin (concat (pairwise xs)) = Ok k) in Hk.
    rewrite Hk. cbn [bind]. rewrite pairwise_length. fold n.
    apply argmin_spec in Hk as (b & Hb & Hmin).
    assert (KL : (k < n * n)%nat) by (rewrite <- LC; apply nth_error_Some; now rewrite Hb).
    set (i := (k / n)%nat). set (j := (k mod n)%nat).
    assert (Hi : (i < n)%nat) by (apply Nat.div_lt_upper_bound; lia).
    assert (Hj : (j < n)%nat) by (apply Nat.mod_upper_bound; lia).
    destruct (nth_res_ok idx i) as (ai & -> & Ai); [lia|].
    destruct (nth_res_ok idx j) as (aj & -> & Aj); [lia|]. cbn [bind].
    assert (LD : length (dists_of st xs) = n) by apply map_length.
    destruct (nth_res_ok (dists_of st xs) i) as (di & -> & Di); [lia|].
    destruct (nth_res_ok (dists_of st xs) j) as (dj & -> & Dj); [lia|]. cbn [bind].
    set (q := if (ai =? f_index st)%nat then _ else _).
    assert (Q : (q = i \/ q = j) /\ (q < n)%nat).
    { unfold q. destruct (_ =? _)%nat; [tauto|]. destruct (_ =? _)%nat; [tauto|].
      destruct (Rltb di dj); tauto. }
    destruct Q as [Qij Qn].
    eexists _, _. split; [reflexivity|]. split; [|split].
    + rewrite !np_delete_length by lia. lia.
    + now rewrite np_delete_length.
    + destruct (nth_error P q) as [p|] eqn:Hp.
      2:{ apply nth_error_None in Hp. lia. }
      exists q, p. split; [easy|]. split; [now rewrite <- np_delete_combine|]. right. split.
      * intros r Hr O. unfold outside in O. apply In_nth_error in Hr as [c Hc].
        apply PI in Hc as [Hc _]. unfold any_outside in E.
        assert (existsb (fun d => Rltb (f_radius st) d) (dists_of st xs) = true); [|congruence].
        apply existsb_exists. exists (dist (fst r) (f_x st)). split; [|now apply Rltb_true].
        apply in_map_iff. exists (fst r). split; [easy|]. now apply nth_error_In in Hc.
      * intros H2. rewrite LP in H2.
        assert (ENT : forall a c x y, nth_error xs a = Some x -> nth_error xs c = Some y ->
            In (if (a =? c)%nat then PInf else Fin (dist x y)) (concat (pairwise xs))).
        { intros a c x y Ha Hc. apply in_concat.
          destruct (nth_error (pairwise xs) a) as [row|] eqn:Er.
          - exists row. split; [now apply nth_error_In in Er|].
            apply pairwise_row in Er as (x' & Hx' & _ & Hrow). rewrite Ha in Hx'. injection Hx' as <-.
            specialize (Hrow c). rewrite Hc in Hrow. simpl in Hrow. now apply nth_error_In in Hrow.
          - apply nth_error_None in Er. rewrite pairwise_length in Er.
            assert (a < length xs)%nat by (apply nth_error_Some; congruence). lia. }
        rewrite (nth_error_concat n) in Hb by easy. fold i j in Hb.
        destruct (nth_error (pairwise xs) i) as [row|] eqn:Er; [|discriminate].
        apply pairwise_row in Er as (xi & Hxi & _ & Hrow). rewrite Hrow in Hb.
        destruct (nth_error xs j) as [xj|] eqn:Hxj; [|discriminate]. simpl in Hb. injection Hb as Hb.
        assert (IJ : i <> j).
        { intros IJ. rewrite IJ, Nat.eqb_refl in Hb. subst b.
          destruct (nth_error xs 0) as [x0|] eqn:H0; [|apply nth_error_None in H0; fold n in H0; lia].
          destruct (nth_error xs 1) as [x1|] eqn:H1; [|apply nth_error_None in H1; fold n in H1; lia].
          specialize (Hmin _ (ENT 0%nat 1%nat x0 x1 H0 H1)). discriminate Hmin. }
        assert (B : b = Fin (dist xi xj)).
        { rewrite <- Hb. destruct (Nat.eqb_spec i j); [easy|reflexivity]. }
        unfold dists_of in Di, Dj. rewrite nth_error_map, Hxi in Di. rewrite nth_error_map, Hxj in Dj.
        simpl in Di, Dj. injection Di as <-. injection Dj as <-.
        exists i, j, (xi, ai), (xj, aj). cbn [fst snd]. split; [easy|].
        split; [unfold P; now rewrite nth_error_combine, Hxi, Ai|].
        split; [unfold P; now rewrite nth_error_combine, Hxj, Aj|]. split.
        -- intros i' j' qi qj N Hi' Hj'. apply PI in Hi' as [Hi' _]. apply PI in Hj' as [Hj' _].
           specialize (Hmin _ (ENT i' j' _ _ Hi' Hj')).
           destruct (Nat.eqb_spec i' j'); [easy|]. rewrite B in Hmin. simpl in Hmin.
           now apply Rltb_false in Hmin.
        -- unfold q. destruct (Nat.eqb_spec ai (f_index st)); [now left|].
           destruct (Nat.eqb_spec aj (f_index st)); [now right; left|]. right; right.
           split; [easy|]. split; [easy|].
           destruct (Rltb_spec (dist xi (f_x st)) (dist xj (f_x st))); [now left|].
           right. split; [easy|]. lra.
Qed.

(** Several steps. *)
Inductive steps (st : fstate) : nat -> list (list R * nat) -> list (list R * nat) -> Prop :=
| steps_0 P : steps st 0 P P
| steps_S n P P1 P' : step st P P1 -> steps st n P1 P' -> steps st (S n) P P'.

Lemma drop_worst_points_steps st : forall n xs idx,
  length xs = length idx -> (n <= length xs)%nat ->
  exists xs' idx', drop_worst_points xs idx st n = Ok (xs', idx') /\
    length xs' = (length xs - n)%nat /\ length idx' = length xs' /\
    steps st n (combine xs idx) (combine xs' idx').
Proof.
  intros n xs idx HL HN. rewrite drop_worst_points_iterate. revert xs idx HL HN.
  induction n as [|n IH]; intros xs idx HL HN.
  - exists xs, idx. splits; try easy; [lia|constructor].
  - cbn [iterate]. destruct (drop_one_step st xs idx HL ltac:(lia)) as (x1 & i1 & -> & L1 & L2 & S1).
    cbn [bind]. destruct (IH x1 i1 L1 ltac:(lia)) as (x2 & i2 & -> & L3 & L4 & S2).
    exists x2, i2. splits; try easy; [lia|]. econstructor; eauto.
Qed.

(** * C48 *)

(** [subseq l k]: l is obtained from k by deleting entries. *)
Inductive subseq {A} : list A -> list A -> Prop :=
| sub_nil : subseq [] []
| sub_keep a l k : subseq l k -> subseq (a :: l) (a :: k)
| sub_skip a l k : subseq l k -> subseq l (a :: k).

Lemma subseq_refl {A} (l : list A) : subseq l l.
Proof. induction l; constructor; auto. Qed.
Lemma subseq_trans {A} (l k m : list A) : subseq l k -> subseq k m -> subseq l m.
Proof.
  intros H1 H2. revert l H1; induction H2; intros l' H1; auto.
  - inversion H1; subst; constructor; auto.
  - constructor. auto.
Qed.
Lemma subseq_delete {A} (l1 : list A) a l2 : subseq (l1 ++ l2) (l1 ++ a :: l2).
Proof. induction l1; simpl; constructor; auto. apply subseq_refl. Qed.
Lemma steps_subseq st n P P' : steps st n P P' -> subseq P' P.
Proof.
  induction 1; [apply subseq_refl|]. eapply subseq_trans; eauto.
  destruct H as (k & p & Hk & -> & _). apply np_delete_split in Hk as (l1 & l2 & -> & ->).
  apply subseq_delete.
Qed.

(** C48 - dropping n points returns a subsequence of the (point, index) pairs that is
    shorter by n; it never raises when there are enough points. *)
Theorem C48_drop_worst_points_removes_n :
  forall st xs idx n, length xs = length idx -> (n <= length xs)%nat ->
    exists xs' idx', drop_worst_points xs idx st n = Ok (xs', idx') /\
      length xs' = (length xs - n)%nat /\ length idx' = length xs' /\
      subseq (combine xs' idx') (combine xs idx).
Proof.
  intros st xs idx n HL HN.
  destruct (drop_worst_points_steps st n xs idx HL HN) as (xs' & idx' & E & L1 & L2 & S).
  exists xs', idx'. splits; try easy. now apply steps_subseq in S.
Qed.

(** C48 - drop_excess keeps at most floor(target_size * n_max_factor) points, all of them
    if there are not more. *)
Theorem C48_drop_excess_bound :
  forall st xs idx target factor bound, length xs = length idx ->
    0 <= IZR target * factor -> (IZR bound <= IZR target * factor < IZR bound + 1) ->
    exists xs' idx', drop_excess xs idx st target factor = Ok (xs', idx') /\
      length idx' = length xs' /\
      Z.of_nat (length xs') = Z.min (Z.of_nat (length xs)) bound /\
      subseq (combine xs' idx') (combine xs idx) /\
      ((Z.of_nat (length xs) <= bound)%Z -> xs' = xs /\ idx' = idx).
Proof.
  intros st xs idx target factor bound HL H0 [HB1 HB2].
  assert (EB : Int_part (IZR target * factor) = bound).
  { destruct (base_Int_part (IZR target * factor)) as [I1 I2].
    assert (Int_part (IZR target * factor) < bound + 1)%Z by (apply lt_IZR; rewrite plus_IZR; lra).
    assert (bound < Int_part (IZR target * factor) + 1)%Z by (apply lt_IZR; rewrite plus_IZR; lra).
    lia. }
  assert (B0 : (0 <= bound)%Z).
  { assert (-1 < bound)%Z; [|lia]. apply lt_IZR. lra. }
  unfold drop_excess. rewrite EB.
  set (n := Z.to_nat (Z.max 0 (Z.of_nat (length xs) - bound))).
  destruct (C48_drop_worst_points_removes_n st xs idx n HL) as (xs' & idx' & E & L1 & L2 & S);
    [unfold n; lia|].
  exists xs', idx'. splits; try easy.
  - rewrite L1. unfold n. lia.
  - intros Hle. assert (N0 : n = 0%nat) by (unfold n; lia). rewrite N0 in E. simpl in E.
    injection E as <- <-. easy.
Qed.

(** Without enough points the code raises (argmin of an empty sequence). *)
Theorem C48_too_many_to_drop_raises :
  forall st xs idx n, length xs = length idx -> (length xs < n)%nat ->
    drop_worst_points xs idx st n = Err ValueError.
Proof.
  intros st xs idx n HL HN.
  replace n with (length xs + S (n - length xs - 1))%nat by lia.
  rewrite C101_dropping_composes.
  destruct (C48_drop_worst_points_removes_n st xs idx (length xs) HL (le_n _)) as (xs' & idx' & -> & L1 & L2 & _).
  rewrite Nat.sub_diag in L1. destruct xs' as [|]; [|discriminate]. destruct idx'; [|discriminate].
  reflexivity.
Qed.

(** * C49 *)

Lemma np_delete_In {A} (l : list A) k a p : In a l -> nth_error l k = Some p -> a <> p -> In a (np_delete l k).
Proof.
  intros Ha Hk N. apply np_delete_split in Hk as (l1 & l2 & -> & ->).
  apply in_or_app. apply in_app_or in Ha as [?|[?|?]]; auto. now subst.
Qed.
Lemma np_delete_incl {A} (l : list A) k a : In a (np_delete l k) -> In a l.
Proof.
  intros H. apply In_nth_error in H as [i Hi]. rewrite np_delete_nth_error in Hi.
  now apply nth_error_In in Hi.
Qed.
Lemma np_delete_NoDup {A} (l : list A) k : NoDup l -> NoDup (np_delete l k).
Proof.
  intros H. destruct (nth_error l k) as [p|] eqn:E.
  - apply np_delete_split in E as (l1 & l2 & -> & ->). now apply NoDup_remove_1 in H.
  - apply nth_error_None in E. unfold np_delete.
    rewrite firstn_all2, skipn_all2, app_nil_r by lia. easy.
Qed.

Lemma dist_self x : dist x x = 0.
Proof.
  unfold dist, norm, sumsq. replace (dot (vsub x x) (vsub x x)) with 0; [apply sqrt_0|].
  unfold dot, vsub. induction x; simpl; [easy|]. rewrite <- IHx. lra.
Qed.

Lemma step_keeps_center st P P' x0 : step st P P' -> 0 <= f_radius st -> (2 <= length P)%nat ->
  NoDup (map snd P) -> In (x0, f_index st) P -> x0 = f_x st -> In (x0, f_index st) P'.
Proof.
  intros (k & p & Hk & -> & R) Hr HL ND HI Hx.
  apply np_delete_In with (p := p); auto. intros Ep. subst p x0.
  destruct R as [[O _]|[_ R]].
  - unfold outside in O. simpl in O. rewrite dist_self in O. lra.
  - destruct (R HL) as (i & j & pi & pj & IJ & Hi & Hj & _ & C).
    destruct C as [[-> Es]|[(-> & N & _)|(N1 & N2 & [[-> _]|[-> _]])]].
    + rewrite Hk in Hj. injection Hj as <-.
      assert (i = j); [|easy].
      apply (proj1 (NoDup_nth_error (map snd P)) ND).
      * rewrite map_length. apply nth_error_Some. congruence.
      * rewrite !nth_error_map, Hi, Hk. simpl. now f_equal.
    + rewrite Hk in Hi. injection Hi as <-. now simpl in N.
    + rewrite Hk in Hi. injection Hi as <-. now simpl in N1.
    + rewrite Hk in Hj. injection Hj as <-. now simpl in N2.
Qed.

(** C49 - the current point survives as long as not all points are dropped. *)
Theorem C49_current_point_is_kept :
  forall st xs idx n xs' idx',
    length xs = length idx -> NoDup idx -> 0 <= f_radius st -> (n < length xs)%nat ->
    In (f_x st, f_index st) (combine xs idx) ->
    drop_worst_points xs idx st n = Ok (xs', idx') ->
    In (f_x st, f_index st) (combine xs' idx').
Proof.
  intros st xs idx n xs' idx' HL ND Hr HN HI H.
  destruct (drop_worst_points_steps st n xs idx HL ltac:(lia)) as (x2 & i2 & E & _ & _ & S).
  rewrite H in E. injection E as <- <-.
  assert (ND' : NoDup (map snd (combine xs idx))).
  { replace (map snd (combine xs idx)) with idx; [easy|]. clear -HL.
    revert idx HL; induction xs; intros [|]; simpl; intros; try discriminate; auto.
    f_equal. apply IHxs. lia. }
  assert (HN' : (n < length (combine xs idx))%nat) by (rewrite combine_length; lia).
  remember (combine xs idx) as P. remember (combine xs' idx') as P'. clear HeqP HeqP' H HN.
  induction S as [|n P P1 P' S1 S2 IH]; auto.
  assert (L1 : length P1 = pred (length P)).
  { destruct S1 as (k & p & Hk & -> & _). apply np_delete_length. apply nth_error_Some. congruence. }
  apply IH.
  - eapply step_keeps_center; eauto. lia.
  - destruct S1 as (k & p & Hk & -> & _). rewrite <- np_delete_map. now apply np_delete_NoDup.
  - lia.
Qed.

(** * C50 *)

Lemma In_dec_pair (a : list R * nat) l : In a l \/ ~ In a l.
Proof.
  destruct (in_dec (fun p q : list R * nat => ltac:(decide equality; [apply Nat.eq_dec|apply list_eq_dec; apply Req_EM_T]))
    a l); auto.
Qed.

(** C50 - every removed point is at least as far away from the current point as every
    remaining point outside the trustregion.  So points inside the trustregion are removed
    only when no outside point is left, and outside points in the order of decreasing
    distance. *)
Theorem C50_removed_points_are_farthest :
  forall st xs idx n xs' idx' a b,
    length xs = length idx -> (n <= length xs)%nat ->
    drop_worst_points xs idx st n = Ok (xs', idx') ->
    In a (combine xs idx) -> ~ In a (combine xs' idx') ->
    In b (combine xs' idx') -> f_radius st < dist (fst b) (f_x st) ->
    f_radius st < dist (fst a) (f_x st) /\ dist (fst b) (f_x st) <= dist (fst a) (f_x st).
Proof.
  intros st xs idx n xs' idx' a b HL HN H Ha Na Hb Ob.
  destruct (drop_worst_points_steps st n xs idx HL HN) as (x2 & i2 & E & _ & _ & S).
  rewrite H in E. injection E as <- <-.
  assert (G : dist (fst b) (f_x st) <= dist (fst a) (f_x st)); [|split; [lra|easy]].
  remember (combine xs idx) as P. remember (combine xs' idx') as P'.
  clear HeqP HeqP' H HN HL.
  induction S as [|n P P1 P' S1 S2 IH]; [easy|].
  destruct (In_dec_pair a P1) as [H1|H1]; [now apply IH|].
  assert (HbP1 : In b P1).
  { apply steps_subseq in S2. clear -S2 Hb. induction S2; simpl in *; tauto. }
  destruct S1 as (k & p & Hk & -> & R).
  assert (EA : a = p).
  { destruct (In_dec_pair a [p]) as [[<-|[]]|N]; [easy|]. exfalso. apply H1.
    apply np_delete_In with (p := p); auto. intros ->. apply N. now left. }
  subst p. apply np_delete_incl in HbP1.
  destruct R as [[_ M]|[I _]]; [now apply M|]. now apply I in Ob.
Qed.

(** C50 - how a point inside is chosen when no point is outside: it belongs to a closest
    pair; it is the partner of the current point, or the one closer to the current point. *)
Theorem C50_interior_rule :
  forall st xs idx xs' idx',
    length xs = length idx -> (2 <= length xs)%nat ->
    (forall x, In x xs -> dist x (f_x st) <= f_radius st) ->
    drop_worst_points xs idx st 1 = Ok (xs', idx') ->
    exists i j xi xj ai aj k,
      i <> j /\ nth_error (combine xs idx) i = Some (xi, ai) /\
      nth_error (combine xs idx) j = Some (xj, aj) /\
      (forall i' j' y z, i' <> j' -> nth_error xs i' = Some y -> nth_error xs j' = Some z ->
         dist xi xj <= dist y z) /\
      combine xs' idx' = firstn k (combine xs idx) ++ skipn (S k) (combine xs idx) /\
      (k = i \/ k = j) /\
      (ai = f_index st -> k = j) /\
      (ai <> f_index st -> aj = f_index st -> k = i) /\
      (ai <> f_index st -> aj <> f_index st ->
         (dist xi (f_x st) < dist xj (f_x st) -> k = i) /\
         (dist xj (f_x st) < dist xi (f_x st) -> k = j)).
Proof.
  intros st xs idx xs' idx' HL H2 HI H.
  destruct (drop_worst_points_steps st 1 xs idx HL ltac:(lia)) as (x2 & i2 & E & _ & _ & S).
  rewrite H in E. injection E as <- <-.
  inversion S as [|? ? P1 ? (k & p & Hk & EP & R) S2]; subst. inversion S2; subst.
  destruct R as [[O _]|[_ R]].
  - exfalso. apply nth_error_In in Hk. destruct p as [x a]. apply in_combine_l in Hk.
    unfold outside in O. simpl in O. specialize (HI x Hk). lra.
  - destruct R as (i & j & [xi ai] & [xj aj] & IJ & Hi & Hj & Hm & C); [rewrite combine_length; lia|].
    cbn [fst snd] in *.
    exists i, j, xi, xj, ai, aj, k. split; [easy|]. split; [easy|]. split; [easy|]. split.
    { intros i' j' y z N Hy Hz.
      assert (G : forall c u, nth_error xs c = Some u -> exists v, nth_error (combine xs idx) c = Some (u, v)).
      { intros c u Hc. rewrite nth_error_combine, Hc. destruct (nth_error idx c) eqn:Ec; [eauto|].
        apply nth_error_None in Ec. assert (c < length xs)%nat by (apply nth_error_Some; congruence). lia. }
      destruct (G _ _ Hy) as [v Hv]. destruct (G _ _ Hz) as [w Hw].
      apply (Hm i' j' (y, v) (z, w) N Hv Hw). }
    split; [reflexivity|].
    destruct C as [[-> Es]|[(-> & N & Es)|(N1 & N2 & [[-> D]|[-> D]])]];
      (split; [tauto|]); (split; [tauto|]); (split; [tauto|]); intros; try tauto; split; intros; try lra; easy.
Qed.

(** Example: current point 0 (index 7) with radius 2, points 0, 1, 1.5, 5, 3. *)
Definition ex_fstate : fstate := mkF [0] 7 2.
Definition ex_xs : list (list R) := [[0]; [1]; [3 / 2]; [5]; [3]].
Lemma dist1 a b : dist [a] [b] = Rabs (a - b).
Proof.
  unfold dist, norm, sumsq, dot, vsub. simpl. rewrite Rplus_0_r.
  replace ((a - b) * (a - b)) with (Rsqr (a - b)) by (unfold Rsqr; lra). apply sqrt_Rsqr_abs.
Qed.
Example ex_C48 : drop_worst_points ex_xs [7; 8; 9; 10; 11]%nat ex_fstate 2
  = Ok ([[0]; [1]; [3 / 2]], [7; 8; 9]%nat).
Proof.
  assert (D : dists_of ex_fstate ex_xs = [0; 1; 3/2; 5; 3]).
  { unfold dists_of, ex_xs. cbn [map f_x ex_fstate]. rewrite !dist1.
    repeat (f_equal; [rewrite Rabs_right; lra|]). f_equal. rewrite Rabs_right; lra. }
  unfold drop_worst_points. change (map _ ex_xs) with (dists_of ex_fstate ex_xs). rewrite D.
  assert (B : forall a b, a < b -> Rltb a b = true) by (intros; now apply Rltb_true).
  assert (B' : forall a b, b <= a -> Rltb a b = false) by (intros; now apply Rltb_false).
  cbn [drop_outside existsb f_radius ex_fstate].
  rewrite (B' 2 0), (B' 2 1), (B' 2 (3/2)), (B 2 5) by lra. cbn [orb].
  unfold argmax, argbest. cbn [argbest_from].
  rewrite (B 0 1), (B 1 (3/2)), (B (3/2) 5), (B' 5 3) by lra. cbn [bind].
  unfold np_delete. cbn [firstn skipn app existsb ex_xs].
  rewrite (B' 2 0), (B' 2 1), (B' 2 (3/2)), (B 2 3) by lra. cbn [orb].
  unfold argmax, argbest. cbn [argbest_from].
  rewrite (B 0 1), (B 1 (3/2)), (B (3/2) 3) by lra. cbn [bind]. reflexivity.
Qed.
