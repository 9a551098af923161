(** Property C216: the model the first iteration starts from. *)
From Coq Require Import Reals List ZArith Bool Lra Lia.
From Verif Require Import Base XR Vec FVec VolumeModel RegionModel HistoryModel SubproblemModel ModelsModel FitModel SampleModel BuiltinModel Prop_Builtin Prop_Builtin2.
Import ListNotations.
Open Scope R_scope.

Lemma fdot_zero_l n x : fdot n (fun _ => 0) x = 0.
Proof. unfold fdot. apply bsum_all_zero. intros; ring. Qed.

(** The value of a criterion with the given residuals or contributions. *)
Definition total_value (a : aggregator_choice) (l : list R) : R :=
  match a with
  | AggIdentity => nth 0 l 0
  | AggLeastSquares => fold_right (fun v s => v * v + s) 0 l
  | _ => fold_right Rplus 0 l
  end.
Lemma bsum_nth (f : R -> R) : forall l, bsum (length l) (fun k => f (nth k l 0)) = fold_right (fun v s => f v + s) 0 l.
Proof.
  induction l as [|a l IH]; [reflexivity|]. cbn [length fold_right]. rewrite bsum_shift. cbn [nth]. now rewrite IH.
Qed.

Lemma bsum_fun_of l : bsum (length l) (fun_of l) = fold_right Rplus 0 l.
Proof. exact (bsum_nth (fun v => v) l). Qed.

(** C216 - the initial model predicts the mean values at the start point everywhere, and the criterion made of
    them; its center and scale are those of the initial region. *)
Theorem C216_initial_model :
  forall (ch : choices) n l reg,
    (ch_aggregator ch = AggIdentity -> length l = 1%nat) ->
    exists v s, builtin_init n (map Fin l) reg = VmOk v /\ builtin_agg ch (VmOk v) = Ok (Some s) /\
      vm_m v = length l /\
      (forall i, vm_shift v i = nth i (r_center reg) 0) /\ vm_scale v = MScalar (r_radius reg) /\
      (forall i, sm_shift s i = nth i (r_center reg) 0) /\ sm_scale s = MScalar (r_radius reg) /\
      (forall x k, predict_vector v x k = nth k l 0) /\
      (forall x, predict_scalar s x = total_value (ch_aggregator ch) l).
Proof.
  intros ch n l reg HL. unfold builtin_init. rewrite all_fin_map, map_length.
  exists (mkV n (length l) (fun_of l) (fun _ _ => 0) (Some (fun _ _ _ => 0)) (MScalar (r_radius reg)) (fun_of (r_center reg))).
  assert (Q : forall H : fmat, (forall i j, H i j = 0) -> forall x, fdot n (fvm n x H) x = 0).
  { intros H Z x. unfold fdot. apply bsum_all_zero. intros i _. unfold fvm.
    rewrite bsum_all_zero; [ring|]. intros j _. rewrite Z. ring. }
  assert (G : forall g : fvec, (forall i, g i = 0) -> forall x, fdot n x g = 0).
  { intros g Z x. unfold fdot. apply bsum_all_zero. intros i _. rewrite Z. ring. }
  assert (PV : forall x k, predict_vector (mkV n (length l) (fun_of l) (fun _ _ => 0) (Some (fun _ _ _ => 0))
                        (MScalar (r_radius reg)) (fun_of (r_center reg))) x k = nth k l 0).
  { intros x k. unfold predict_vector. cbn [vm_h vm_n vm_g vm_c]. rewrite fdot_zero_l, Q by easy. unfold fun_of. lra. }
  assert (BZ : forall f : nat -> R, (forall k, f k = 0) -> bsum (length l) f = 0) by (intros f Z; now apply bsum_all_zero).
  unfold builtin_agg, aggregate. destruct (ch_aggregator ch) eqn:E.
  - specialize (HL eq_refl). unfold aggregate_identity. cbn [vm_m]. rewrite (proj2 (Nat.eqb_eq _ _) HL). cbn [bind].
    eexists. repeat (split; [reflexivity|]). split; [exact PV|].
    intros x. unfold predict_scalar. cbn [sm_n sm_g sm_c sm_h vm_n vm_m vm_c vm_g vm_h total_value]. rewrite G, Q by easy. unfold fun_of. lra.
  - unfold aggregate_sum. cbn [vm_h bind].
    eexists. repeat (split; [reflexivity|]). split; [exact PV|].
    intros x. unfold predict_scalar. cbn [sm_n sm_g sm_c sm_h vm_n vm_m vm_c vm_g vm_h total_value]. rewrite G, Q by (intros; now apply BZ).
    rewrite bsum_fun_of. lra.
  - unfold aggregate_information_equality_linear, aggregate_least_squares_linear. cbn [bind]. eexists. repeat (split; [reflexivity|]). split; [exact PV|].
    intros x. unfold predict_scalar. cbn [sm_n sm_g sm_c sm_h vm_n vm_m vm_c vm_g vm_h total_value].
    rewrite G by (intros; now apply BZ). rewrite Q by (intros; rewrite BZ by (intros; ring); lra).
    rewrite bsum_fun_of. lra.
  - unfold aggregate_information_equality_linear, aggregate_least_squares_linear. cbn [bind]. eexists. repeat (split; [reflexivity|]). split; [exact PV|].
    intros x. unfold predict_scalar. cbn [sm_n sm_g sm_c sm_h vm_n vm_m vm_c vm_g vm_h total_value].
    rewrite G by (intros; rewrite BZ by (intros; ring); ring). rewrite Q by (intros; apply BZ; intros; ring).
    unfold fdot, fun_of. rewrite (bsum_nth (fun v => v * v)). lra.
Qed.

(** Residuals 1 and 3 at the start point: the initial model predicts 10 everywhere. *)
Example C216_instance : exists v s, builtin_init 2 [Fin 1; Fin 3] (mkRegion [0; 1] 2 None Sphere [] []) = VmOk v /\
  builtin_agg ls_choices (VmOk v) = Ok (Some s) /\ forall x, predict_scalar s x = 10.
Proof.
  destruct (C216_initial_model ls_choices 2 [1; 3] (mkRegion [0; 1] 2 None Sphere [] [])) as (v & s & E & A & _ & _ & _ & _ & _ & _ & P);
    [discriminate|].
  exists v, s. split; [exact E|]. split; [exact A|]. intros x. rewrite P. cbn. lra.
Qed.
