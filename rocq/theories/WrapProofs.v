From Coq Require Import Reals List Arith ZArith Bool Lia Lra.
From Verif Require Import Base XR Vec HistoryModel HistorySpec HistoryProofs WrapModel.
Import ListNotations.
Open Scope nat_scope.

Definition expand {A} (info : list (A * nat)) : list A :=
  flat_map (fun p => repeat (fst p) (snd p)) info.

Lemma rep_each_expand A B (f : A -> B) (info : list (A * nat)) :
  rep_each (map (fun p => f (fst p)) info) (map snd info) = map f (expand info).
Proof.
  unfold expand. induction info as [|[a n] info IH]; simpl; auto.
  rewrite map_app, IH. f_equal. clear. induction n; simpl; auto. now f_equal.
Qed.

Lemma expand_length A (info : list (A * nat)) :
  length (expand info) = list_sum (map snd info).
Proof.
  unfold expand. induction info as [|[a n] info IH]; simpl; auto.
  rewrite app_length, repeat_length. lia.
Qed.

Lemma expand_In A (info : list (A * nat)) a : In a (expand info) -> In a (map fst info).
Proof.
  unfold expand. rewrite in_flat_map. intros ([b n] & H1 & H2). simpl in H2.
  apply repeat_spec in H2. subst. now apply (in_map fst) in H1.
Qed.

Lemma expand_map A B (f : A -> B) (info : list (A * nat)) :
  expand (map (fun p => (f (fst p), snd p)) info) = map f (expand info).
Proof.
  unfold expand. induction info as [|[a n] info IH]; simpl; auto.
  rewrite map_app, IH. f_equal. clear. induction n; simpl; auto. now f_equal.
Qed.

Definition zinfo (info : list (nat * nat)) : list (Z * nat) :=
  map (fun p => (Z.of_nat (fst p), snd p)) info.

Lemma np_repeat_info A (info : list (A * nat)) B (f : A -> B) :
  np_repeat (map (fun p => f (fst p)) info) (map snd info) = Ok (map f (expand info)).
Proof.
  unfold np_repeat. rewrite !map_length, Nat.eqb_refl. now rewrite rep_each_expand.
Qed.

Lemma wrapped_unfold batch n_cores h info xs :
  info <> [] -> get_xs_many h (map fst info) = Ok xs -> 
  wrapped_criterion batch n_cores h info =
  match np_repeat xs (map snd info) with
  | Err e => (h, Err e, [])
  | Ok arguments =>
      let cores := Nat.min n_cores (length arguments) in
      let calls := [(arguments, cores)] in
      match batch arguments cores with
      | Err e => (h, Err e, calls)
      | Ok raw_evals =>
          let '(h', r) := add_evals h (expand info)
             (map (fun o => clip_val (replace_traceback o)) raw_evals) in
          (h', r, calls)
      end
  end.
Proof.
  intros Hne Hx. unfold wrapped_criterion.
  destruct info as [|p info0] eqn:EI; [easy|]. rewrite <- EI in *.
  rewrite Hx. cbn [bind]. destruct (np_repeat xs (map snd info)) as [args|]; [|easy].
  cbv zeta. destruct (batch args _) as [outs|]; [|easy].
  replace (np_repeat (map fst info) (map snd info)) with (Ok (expand info)).
  - reflexivity.
  - symmetry. pose proof (np_repeat_info _ info _ (fun x => x)) as H.
    rewrite map_id in H. exact H.
Qed.

(** Arguments and calls, and the effect on the history. *)
Lemma wrapped_args d w h X E batch n_cores info :
  Rep d w h X E -> info <> [] -> Forall (fun p => fst p < length X) info ->
  wrapped_criterion batch n_cores h (zinfo info) =
  let args := map (fun i => nth i X []) (expand info) in
  let cores := Nat.min n_cores (length args) in
  match batch args cores with
  | Err e => (h, Err e, [(args, cores)])
  | Ok raw_evals =>
      let '(h', r) := add_evals h (map Z.of_nat (expand info))
         (map (fun o => clip_val (replace_traceback o)) raw_evals) in
      (h', r, [(args, cores)])
  end.
Proof.
  intros HR Hne Hi.
  assert (HX : X <> []).
  { intros ->. destruct info as [|p info]; [easy|]. inversion Hi; simpl in *; lia. }
  assert (Hx : get_xs_many h (map fst (zinfo info))
               = Ok (map (fun p => nth (fst p) X []) info)).
  { unfold zinfo. rewrite map_map. simpl.
    rewrite <- (map_map fst Z.of_nat).
    rewrite (q_xs_many _ _ _ _ _ HR); auto.
    - rewrite (mapM_nth_res _ _ _ []); [now rewrite map_map|]. now apply Forall_map.
    - now apply Forall_map. }
  assert (Hzne : zinfo info <> []) by now destruct info.
  rewrite (wrapped_unfold batch n_cores h (zinfo info) _ Hzne Hx).
  assert (Hs : map snd (zinfo info) = map snd info).
  { unfold zinfo. rewrite map_map. reflexivity. }
  rewrite Hs, (np_repeat_info _ info _ (fun i => nth i X [])). cbv zeta.
  assert (He : expand (zinfo info) = map Z.of_nat (expand info)).
  { unfold zinfo. apply expand_map. }
  now rewrite He.
Qed.

Lemma map_Znat_id l : map Z.to_nat (map Z.of_nat l) = l.
Proof. rewrite map_map. rewrite <- (map_id l) at 2. apply map_ext. intros. apply Nat2Z.id. Qed.

Lemma wrapped_ok d w h X E batch n_cores info outs :
  Rep d (ft_w (h_ft h) w) h X E ->
  info <> [] -> Forall (fun p => fst p < length X) info ->
  let args := map (fun i => nth i X []) (expand info) in
  batch args (Nat.min n_cores (length args)) = Ok outs ->
  length outs = length args ->
  Forall (fun o => good_eval (h_ft h) w (clip_val (replace_traceback o))) outs ->
  homogeneous (map (fun o => clip_val (replace_traceback o)) outs) ->
  exists h',
    wrapped_criterion batch n_cores h (zinfo info)
    = (h', Ok tt, [(args, Nat.min n_cores (length args))]) /\
    h_ft h' = h_ft h /\
    Rep d (ft_w (h_ft h) w) h' X
      (E ++ combine (expand info)
                    (map (fun o => vec_of (clip_val (replace_traceback o))) outs)).
Proof.
  intros HR Hne Hi args Hb HL Hg Hh.
  rewrite (wrapped_args _ _ _ _ _ _ _ _ HR Hne Hi). cbv zeta. fold args.
  rewrite Hb.
  destruct (add_evals_ok d w h X E (map Z.of_nat (expand info))
             (map (fun o => clip_val (replace_traceback o)) outs) HR)
    as (h' & E1 & F1 & R1).
  - apply Forall_map. apply Forall_forall. intros i Hin. apply expand_In in Hin.
    rewrite Forall_forall in Hi. apply in_map_iff in Hin. destruct Hin as (p & <- & Hp).
    specialize (Hi p Hp). lia.
  - rewrite !map_length, HL. unfold args. now rewrite map_length.
  - now apply Forall_map.
  - exact Hh.
  - exists h'. rewrite E1. split; [easy|]. split; [easy|].
    rewrite map_Znat_id, map_map in R1. exact R1.
Qed.

(** Vector-valued criteria: a batch of at least two evaluations with a failure raises. *)
Lemma in_mapM_err A B (f : A -> res B) l a e :
  In a l -> f a = Err e -> exists e', mapM f l = Err e'.
Proof.
  induction l as [|b l IH]; simpl; [easy|]. intros [->|H] He.
  - rewrite He. simpl; eauto.
  - destruct (IH H He) as [e' He']. destruct (f b); simpl; [|eauto].
    rewrite He'. simpl; eauto.
Qed.

Lemma all_vectors_err l x : In (VS x) l -> all_vectors l = Err ValueError.
Proof.
  unfold all_vectors. induction l as [|v l IH]; simpl; [easy|].
  intros [->|H]; [easy|]. destruct v; [easy|]. simpl. now rewrite IH.
Qed.

Lemma all_scalars_err_is l e : all_scalars l = Err e -> e = ValueError.
Proof.
  unfold all_scalars. induction l as [|v l IH]; simpl; [easy|].
  destruct v; simpl; [|congruence]. destruct (mapM _ l); simpl; [easy|].
  intros H; injection H as <-. now apply IH.
Qed.

Lemma failing_vector_batch ft h zs l x :
  h_ft h = ft -> ft <> Scalar -> In (VS x) l -> 2 <= length zs ->
  length l = length zs ->
  add_evals h zs l = (h, Err ValueError).
Proof.
  intros Hft Hs Hin Hz HL. unfold add_evals.
  destruct (forallb _ zs); simpl; [|easy].
  destruct (Nat.eqb_spec (length zs) 0); [lia|].
  rewrite Hft. unfold to_fvecs, as_array.
  destruct l as [|[y|v] l]; [destruct Hin| |].
  - destruct (all_scalars (VS y :: l)) as [s|e] eqn:ES.
    + cbn [bind]. assert (length s = length zs).
      { rewrite <- HL. unfold all_scalars in ES. now apply mapM_ok_length in ES. }
      destruct ft; [easy| |]; simpl; destruct (Nat.eqb_spec (length zs) 1); try lia; easy.
    + cbn [bind]. apply all_scalars_err_is in ES. now subst.
  - rewrite (all_vectors_err _ x) by easy. easy.
Qed.
