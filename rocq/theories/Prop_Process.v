(** Properties of process_arguments (C97, C122, C123). *)
From Coq Require Import Reals List Arith ZArith Bool String Lia Lra.
From Verif Require Import Base XR Vec RegionModel ModelsModel AdjustModel MainModel MainProgress
  OptionsModel ComponentModel ProcessModel Prop_Options Prop_Component.
Import ListNotations.
Open Scope string_scope.

Ltac inv_bind H :=
  repeat match type of H with
  | bind ?m _ = Ok _ =>
      let E := fresh "E" in
      destruct m eqn:E; cbn [bind] in H; [|discriminate H]
  end.

Section C97.
Variable conv : conversions.
Variable body : string -> sdict -> res pyval.

(** ** C97: what acceptance guarantees *)
Theorem C97_accepted_partial : forall a p, process_arguments conv body a = Ok p ->
  (o_n_cores p <= o_batch_size p)%Z /\
  (1 <= o_n_evals_at_start p)%Z /\
  (1 <= o_n_evals_per_point p)%Z /\
  (o_search_radius_factor p = NaN \/ xlt (Fin 0) (o_search_radius_factor p) = true) /\
  ((o_functype p = "scalar" /\ o_model_type p = "quadratic") \/
   (o_functype p = "least_squares" /\ o_model_type p = "linear") \/
   (o_functype p = "likelihood" /\ o_model_type p = "linear")).
Proof.
  intros a p H; unfold process_arguments in H; inv_bind H.
  injection H as <-; cbn [o_n_cores o_batch_size o_n_evals_at_start o_n_evals_per_point
    o_search_radius_factor o_functype o_model_type].
  split; [|split; [|split; [|split]]].
  - match goal with E : process_batch_size _ _ _ = Ok _ |- _ => rename E into Hb end.
    unfold process_batch_size in Hb.
    assert (K : forall v z n, (let* b := as_number v in
       if xlt b (Fin (IZR n)) then Err ValueError else as_int conv v) = Ok z -> (n <= z)%Z).
    { clear; intros v z n Hv.
      destruct v; cbn in Hv; try discriminate.
      - destruct (Rltb (if b then 1 else 0) (IZR n)) eqn:L; [discriminate|].
        apply Rltb_false in L; unfold as_int in Hv; cbn in Hv; injection Hv as <-.
        apply le_IZR; destruct b; lra.
      - destruct (Rltb (IZR z0) (IZR n)) eqn:L; [discriminate|].
        apply Rltb_false in L; unfold as_int in Hv; cbn in Hv; injection Hv as <-.
        apply le_IZR; lra.
      - destruct (xlt x (Fin (IZR n))) eqn:L; [discriminate|].
        unfold as_int in Hv; destruct x as [r| | |]; cbn in Hv, L; try discriminate.
        injection Hv as <-; apply Rltb_false in L.
        unfold truncate; destruct (Rleb 0 r) eqn:Lr.
        + destruct (base_Int_part r); assert (n < Int_part r + 1)%Z; [|lia].
          apply lt_IZR; rewrite plus_IZR; lra.
        + apply Rleb_false in Lr; destruct (base_Int_part (- r)).
          apply le_IZR; rewrite opp_IZR; lra.
      - destruct (xlt x (Fin (IZR n))) eqn:L; [discriminate|].
        unfold as_int in Hv; destruct x as [r| | |]; cbn in Hv, L; try discriminate.
        injection Hv as <-; apply Rltb_false in L.
        unfold truncate; destruct (Rleb 0 r) eqn:Lr.
        + destruct (base_Int_part r); assert (n < Int_part r + 1)%Z; [|lia].
          apply lt_IZR; rewrite plus_IZR; lra.
        + apply Rleb_false in Lr; destruct (base_Int_part (- r)).
          apply le_IZR; rewrite opp_IZR; lra. }
    destruct (a_batch_size a) eqn:Ea; try (apply K in Hb; exact Hb).
    injection Hb as <-; unfold get_default_batch_size; lia.
  - match goal with E : process_n_evals_at_start _ _ _ = Ok _ |- _ => rename E into Hb end.
    unfold process_n_evals_at_start in Hb; inv_bind Hb.
    destruct (_ <? 1)%Z eqn:L in Hb; [discriminate|]; injection Hb as <-; apply Z.ltb_ge in L; exact L.
  - match goal with E : process_n_evals_per_point _ _ _ _ = Ok _ |- _ => rename E into Hb end.
    unfold process_n_evals_per_point in Hb; inv_bind Hb.
    destruct (_ <? 1)%Z eqn:L in Hb; [discriminate|]; injection Hb as <-; apply Z.ltb_ge in L; exact L.
  - match goal with E : process_search_radius_factor _ _ _ = Ok _ |- _ => rename E into Hb end.
    unfold process_search_radius_factor in Hb; inv_bind Hb.
    destruct (xle _ _) eqn:L in Hb; [discriminate|]; injection Hb as <-.
    match goal with |- ?x = NaN \/ _ => destruct x as [r| | |]; cbn in L |- * end; try discriminate;
      try (right; reflexivity); [|left; reflexivity].
    right; apply Rltb_true; apply Rleb_false in L; exact L.
  - match goal with E : get_default_aggregator _ _ = Ok _ |- _ => rename E into Hb end.
    match type of Hb with get_default_aggregator _ ?m = _ => set (s := m) in * end.
    unfold get_default_aggregator in Hb.
    destruct (String.eqb_spec (a_functype a) "scalar") as [F1|_];
      destruct (String.eqb_spec (a_functype a) "least_squares") as [F2|_];
      destruct (String.eqb_spec (a_functype a) "likelihood") as [F3|_];
      destruct (String.eqb_spec s "quadratic") as [M1|_];
      destruct (String.eqb_spec s "linear") as [M2|_]; cbn in Hb; try discriminate; auto; congruence.
Qed.

(** The factor NaN passes the test [out <= 0] and is accepted. *)
Definition with_search_radius_factor (a : arguments) (v : pyval) : arguments :=
  mkArguments (a_functype a) (a_x a) (a_lower_bounds a) (a_upper_bounds a) (a_noisy a)
    (a_disable_convergence a) (a_ftol_abs a) (a_gtol_abs a) (a_xtol_abs a) (a_ftol_rel a)
    (a_gtol_rel a) (a_xtol_rel a) (a_min_trust_region_radius a) (a_max_eval a) (a_max_iter a)
    (a_max_time a) (a_batch_evaluator a) (a_n_cores a) (a_batch_size a) (a_sample_size a)
    (a_model_type a) v (a_n_evals_per_point a) (a_n_evals_at_start a) (a_seed a)
    (a_radius_options a) (a_stagnation_options a) (a_noise_adaptation_options a) (a_sampler a)
    (a_sampler_options a) (a_sample_filter a) (a_sample_filter_options a) (a_model_fitter a)
    (a_model_fitter_options a) (a_cube_subsolver a) (a_sphere_subsolver a)
    (a_retry_with_fallback a) (a_subsolver_options a) (a_acceptance_decider a)
    (a_acceptance_decider_options a) (a_variance_estimator a) (a_variance_estimator_options a)
    (a_infinity_handler a) (a_residualize a).

(** The defaults with arbitrary [noisy] and [n_cores] *)
Definition basic_arguments (functype : string) (x : vec) (lower upper : option (list (option R)))
  (noisy : bool) (n_cores : Z) : arguments :=
  mkArguments functype x lower upper (PBool noisy) (PBool false)
    (flt 0) (flt 0) (flt 0) (flt (2 / 1000000000)) (flt (/ 100000000)) (flt (/ 100000000)) (flt 0)
    (PInt 2000) (PInt 200) (PFloat PInf) (Some (NStr "joblib")) (PInt n_cores) PNone SizeNone None
    PNone PNone PNone (PInt 925408) UNone UNone UNone
    (NStr "optimal_hull") UNone None UNone None UNone (NStr "bntr_fast") (NStr "gqtpar_fast")
    (PBool true) UNone None UNone (NStr "classic") UNone (NStr "relative") PNone.

Lemma basic_is_default : forall functype x lo up,
  basic_arguments functype x lo up false 1 = default_arguments functype x lo up.
Proof. reflexivity. Qed.

Definition known_functype (s : string) : Prop :=
  s = "scalar" \/ s = "least_squares" \/ s = "likelihood".

(** What the defaults are, for every starting point, every number of cores and with or without
    noise: see C123. *)
Definition derived_defaults (functype : string) (x : vec) (noisy : bool) (n_cores : Z)
  (reg : region) (p : processed) : Prop :=
  let n := Z.of_nat (List.length x) in
  let scalar := String.eqb functype "scalar" in
  o_x p = x /\ o_noisy p = noisy /\ o_batch_size p = n_cores /\ o_n_cores p = n_cores /\
  o_trustregion p = Some reg /\
  o_model_type p = (if scalar then "quadratic" else "linear") /\
  o_target_sample_size p = (if scalar then 2 * n + 1
                            else if noisy || (1 <? n_cores)%Z then n + 1 else n + 2)%Z /\
  o_n_evals_per_point p = 1%Z /\ o_n_evals_at_start p = (if noisy then 5 else 1)%Z /\
  o_search_radius_factor p = Fin (if scalar then 425 / 100 else 5)%R /\
  o_radius_options p = RadiusOptions (/ 10 * max_abs x) /\
  o_noise_adaptation_options p = NoiseAdaptationOptions /\
  o_stagnation_options p = StagnationOptions
    (if noisy || (1 <? n_cores)%Z then 0 else 125 / 1000) (negb noisy) /\
  fi_residualize (o_fit_model p) = (scalar && negb (List.length x <=? 1)%nat).

Lemma fitter_choice : forall (x : vec), x <> [] ->
  get_default_model_fitter "quadratic" (2 * Z.of_nat (List.length x) + 1) x =
  Ok (if (List.length x <=? 1)%nat then "ols" else "tranquilo").
Proof.
  intros x Hx; unfold get_default_model_fitter; cbn [model_type_of String.eqb bind orb].
  change (model_type_of "quadratic") with (Ok Quadratic); cbn [bind].
  f_equal. unfold n_free_params.
  destruct x as [|a x]; [contradiction|]; cbn [List.length].
  set (n := List.length x).
  assert (E : (Z.of_nat (n_second_order_terms (S n)) * 2 = Z.of_nat (S n) * (Z.of_nat (S n) + 1))%Z).
  { unfold n_second_order_terms.
    assert (Hev : exists k, (S n * (S n + 1) = 2 * k)%nat).
    { destruct (Nat.Even_or_Odd (S n)) as [(k & ->)|(k & ->)]; [exists (k * (2 * k + 1))%nat; lia|].
      exists ((2 * k + 1) * (k + 1))%nat; lia. }
    destruct Hev as (k & Hk); rewrite Hk.
    replace (2 * k)%nat with (k * 2)%nat by lia; rewrite Nat.div_mul by discriminate; lia. }
  destruct (Nat.leb_spec (S n) 1) as [L|L];
    match goal with |- context [(?u <=? ?v)%Z] => destruct (Z.leb_spec u v) as [Lz|Lz] end;
    try reflexivity; exfalso; nia.
Qed.

Theorem C97_basic_accepted : forall functype x lo up noisy n_cores reg,
  known_functype functype -> x <> [] ->
  make_region x (/ 10 * max_abs x) (Some (mkBounds lo up)) = Ok reg ->
  exists p, process_arguments conv body (basic_arguments functype x lo up noisy n_cores) = Ok p /\
            derived_defaults functype x noisy n_cores reg p.
Proof.
  intros functype x lo up noisy n_cores reg Hft Hx Hreg.
  destruct (proj1 (proj2 (C121_builtins_partial conv body)) "optimal_hull" ltac:(cbn; tauto)
              UNone SamplerOptions eq_refl) as (gs & _ & Hs & _).
  destruct (C121_subsolvers_partial conv body "gqtpar_fast" "bntr_fast" (PBool true) UNone
              SubsolverOptions ltac:(cbn; tauto) ltac:(cbn; tauto) eq_refl)
    as (gss & _ & _ & Hss & _).
  assert (Hf : forall b, exists g, get_sample_filter conv body (NStr (get_default_sample_filter b))
                          UNone = Ok g).
  { intros b; destruct (proj1 (C121_builtins_partial conv body) (get_default_sample_filter b))
      with (user := UNone) (options := FilterOptions) as (g & _ & Hg & _); [|reflexivity|exists g; exact Hg].
    unfold get_default_sample_filter; destruct (1 <? b)%Z; cbn; tauto. }
  destruct (Hf n_cores) as (gf & Hgf).
  assert (Hd : forall b, exists g, get_acceptance_decider conv body
                          (NStr (get_default_acceptance_decider b)) UNone = Ok g).
  { intros b; destruct (proj2 (proj2 (proj2 (proj2 (C121_builtins_partial conv body))))
      (get_default_acceptance_decider b)) with (user := UNone) (options := AcceptanceOptions)
      as (g & _ & Hg & _); [|reflexivity|exists g; exact Hg].
    destruct b; cbn; tauto. }
  destruct (Hd noisy) as (gd & Hgd).
  destruct (proj1 (proj2 (proj2 (proj2 (C121_builtins_partial conv body)))) "classic"
              ltac:(cbn; tauto) UNone VarianceEstimatorOptions eq_refl) as (gv & _ & Hv & _).
  assert (Hraw : forall s, In s ["ols"; "tranquilo"] -> exists g, get_raw_fitter conv body (NStr s)
                          UNone = Ok g).
  { intros s Hs'; destruct (proj1 (proj2 (proj2 (C121_builtins_partial conv body))) s)
      with (user := UNone) (options := FitterOptions) as (g & _ & Hg & _); [|reflexivity|exists g; exact Hg].
    cbn in Hs' |- *; tauto. }
  set (n := Z.of_nat (List.length x)).
  set (mt := get_default_model_type functype).
  set (size := get_default_sample_size mt x noisy n_cores).
  assert (Hfit : exists s, get_default_model_fitter mt size x = Ok s /\ In s ["ols"; "tranquilo"] /\
            String.eqb s "tranquilo" = (String.eqb functype "scalar" && negb (List.length x <=? 1)%nat)).
  { unfold size, mt; destruct Hft as [->|[->| ->]].
    - change (get_default_model_type "scalar") with "quadratic".
      change (get_default_sample_size "quadratic" x noisy n_cores)
        with (2 * Z.of_nat (List.length x) + 1)%Z.
      rewrite (fitter_choice x Hx); eexists; split; [reflexivity|].
      destruct (List.length x <=? 1)%nat; cbn; auto.
    - exists "ols"; split; [reflexivity|cbn; auto].
    - exists "ols"; split; [reflexivity|cbn; auto]. }
  destruct Hfit as (fs & Hfs & Hfin & Hres).
  destruct (Hraw fs Hfin) as (gr & Hgr).
  assert (Hgf' : get_fitter conv body (NStr fs) UNone mt (String.eqb fs "tranquilo") (NStr "relative")
            = Ok (mkFitter gr mt (NStr "clip_relative") (String.eqb fs "tranquilo"))).
  { unfold get_fitter; rewrite Hgr; reflexivity. }
  assert (Hagg : exists ag, get_default_aggregator functype mt = Ok ag /\ get_aggregator ag = Ok ag).
  { unfold mt; destruct Hft as [->|[->| ->]]; eexists; split; reflexivity. }
  destruct Hagg as (ag & Hag1 & Hag2).
  assert (Hmt : process_model_type None functype = Ok mt).
  { unfold mt; destruct Hft as [->|[->| ->]]; reflexivity. }
  assert (Hck : check_functype functype = Ok tt) by (destruct Hft as [->|[->| ->]]; reflexivity).
  assert (Hrad : get_default_radius_options x = Ok (RadiusOptions (/ 10 * max_abs x))).
  { destruct x; [contradiction|reflexivity]. }
  assert (Hsf : process_search_radius_factor conv PNone functype =
                Ok (Fin (get_default_search_radius_factor functype))).
  { unfold process_search_radius_factor; cbn [bind xle].
    destruct (Rleb _ 0) eqn:L; [|reflexivity].
    apply Rleb_true in L; unfold get_default_search_radius_factor in L.
    destruct (String.eqb functype "scalar"); lra. }
  assert (Hpp : process_n_evals_per_point conv PNone noisy NoiseAdaptationOptions = Ok 1%Z).
  { destruct noisy; reflexivity. }
  assert (Hps : process_n_evals_at_start conv PNone noisy = Ok (if noisy then 5 else 1)%Z).
  { destruct noisy; reflexivity. }
  eexists; split.
  - unfold process_arguments, basic_arguments.
    cbn [a_functype a_x a_lower_bounds a_upper_bounds a_noisy a_disable_convergence a_ftol_abs
      a_gtol_abs a_xtol_abs a_ftol_rel a_gtol_rel a_xtol_rel a_min_trust_region_radius a_max_eval
      a_max_iter a_max_time a_batch_evaluator a_n_cores a_batch_size a_sample_size a_model_type
      a_search_radius_factor a_n_evals_per_point a_n_evals_at_start a_seed a_radius_options
      a_stagnation_options a_noise_adaptation_options a_sampler a_sampler_options a_sample_filter
      a_sample_filter_options a_model_fitter a_model_fitter_options a_cube_subsolver
      a_sphere_subsolver a_retry_with_fallback a_subsolver_options a_acceptance_decider
      a_acceptance_decider_options a_variance_estimator a_variance_estimator_options
      a_infinity_handler a_residualize].
    change (as_bool conv (PBool noisy)) with (Ok noisy).
    change (as_number (PInt n_cores)) with (Ok (Fin (IZR n_cores))).
    change (as_bool conv (PBool false)) with (Ok false).
    repeat match goal with
    | |- context [as_float conv (flt ?r)] => change (as_float conv (flt r)) with (Ok (Fin r))
    end.
    change (as_float conv (PFloat PInf)) with (Ok PInf).
    change (as_int conv (PInt 200)) with (Ok 200%Z).
    change (as_int conv (PInt 2000)) with (Ok 2000%Z).
    change (as_int conv (PInt n_cores)) with (Ok n_cores).
    change (process_seed (PInt 925408)) with (Ok 925408%Z).
    cbn [bind].
    rewrite Hps; cbn [bind update_option_bundle].
    rewrite Hpp; cbn [bind].
    rewrite Hsf; cbn [bind process_batch_size].
    change (get_default_batch_size n_cores) with n_cores.
    rewrite Hrad; cbn [bind].
    rewrite Hmt; cbn [bind process_sample_size or_default].
    fold size.
    cbn [process_model_fitter]; rewrite Hfs; cbn [bind process_residualize].
    rewrite Hck; cbn [bind].
    change (process_batch_evaluator (Some (NStr "joblib"))) with (@Ok name_or_func (NStr "joblib")).
    cbn [bind].
    change (slookup (RadiusOptions (/ 10 * max_abs x)) "initial_radius")
      with (Some (PNpFloat (Fin (/ 10 * max_abs x)))).
    cbv iota beta. rewrite Hreg; cbn [bind].
    rewrite Hs; cbn [bind]. rewrite Hss; cbn [bind]. rewrite Hgf; cbn [bind].
    rewrite Hgf'; cbn [bind]. rewrite Hag1; cbn [bind]. rewrite Hag2; cbn [bind].
    rewrite Hv; cbn [bind]. rewrite Hgd; cbn [bind]. reflexivity.
  - unfold derived_defaults.
    cbn [o_x o_noisy o_batch_size o_n_cores o_trustregion o_model_type o_target_sample_size
      o_n_evals_per_point o_n_evals_at_start o_search_radius_factor o_radius_options
      o_noise_adaptation_options o_stagnation_options o_fit_model fi_residualize].
    split; [reflexivity|]; split; [reflexivity|]; split; [reflexivity|]; split; [reflexivity|].
    split; [reflexivity|].
    split; [unfold mt; destruct Hft as [->|[->| ->]]; reflexivity|].
    split.
    { unfold size, mt; destruct Hft as [->|[->| ->]]; reflexivity. }
    split; [reflexivity|]; split; [reflexivity|].
    split; [unfold get_default_search_radius_factor; destruct (String.eqb functype "scalar"); reflexivity|].
    split; [reflexivity|]; split; [reflexivity|].
    split; [|exact Hres].
    unfold get_default_stagnation_options; destruct noisy; [reflexivity|].
    destruct (1 <? n_cores)%Z; reflexivity.
Qed.

(** The defaults are accepted for every supported function type, starting point and pair of
    bounds (given both or not at all). *)
Theorem C97_defaults_accepted : forall functype x lo up,
  known_functype functype -> x <> [] ->
  (lo = None /\ up = None) \/
  (exists l u, lo = Some l /\ up = Some u /\ List.length l = List.length x /\
               List.length u = List.length x) ->
  exists p, process_arguments conv body (default_arguments functype x lo up) = Ok p.
Proof.
  intros functype x lo up Hft Hx Hb.
  assert (Hreg : exists reg, make_region x (/ 10 * max_abs x) (Some (mkBounds lo up)) = Ok reg).
  { unfold make_region, get_shape.
    assert (E : exists t, any_bounds_binding (Some (mkBounds lo up)) x (/ 10 * max_abs x) = Ok t).
    { unfold any_bounds_binding.
      destruct (has_any (mkBounds lo up)) eqn:Hany; [|exists false; reflexivity].
      destruct Hb as [[-> ->]|(l & u & -> & -> & Hl & Hu)]; [discriminate|].
      cbn [b_lower b_upper].
      destruct x as [|c x]; [contradiction|].
      destruct l as [|l0 l]; [discriminate|]; destruct u as [|u0 u]; [discriminate|].
      cbn [map2 np_min bind].
      match goal with |- context [if ?t then _ else _] => destruct t end; cbn; eexists; reflexivity. }
    destruct E as (t & ->); cbn [bind].
    match goal with |- context [get_cube_bounds ?a ?b ?c ?d] => destruct (get_cube_bounds a b c d) end.
    eexists; reflexivity. }
  destruct Hreg as (reg & Hreg).
  destruct (C97_basic_accepted functype x lo up false 1 reg Hft Hx Hreg) as (p & Hp & _).
  rewrite basic_is_default in Hp; exists p; exact Hp.
Qed.

(** ** C123: the derived defaults *)
Lemma accepted_facts : forall a p, process_arguments conv body a = Ok p ->
  o_functype p = a_functype a /\
  exists d ro, get_default_radius_options (a_x a) = Ok d /\
    update_option_bundle conv d (a_radius_options a) = Ok ro /\
    forall r, slookup ro "initial_radius" = Some (PNpFloat (Fin r)) ->
      exists reg, make_region (a_x a) r (Some (mkBounds (a_lower_bounds a) (a_upper_bounds a))) = Ok reg.
Proof.
  intros a p H; unfold process_arguments in H; inv_bind H.
  injection H as <-; split; [reflexivity|].
  match goal with E : get_default_radius_options _ = Ok ?d, E2 : update_option_bundle conv ?d _ = Ok ?o
    |- _ => exists d, o; split; [reflexivity|]; split; [exact E2|] end.
  intros r Hr.
  match goal with E : match slookup _ "initial_radius" with _ => _ end = Ok _ |- _ =>
    rewrite Hr in E; rename E into Er end.
  destruct (make_region _ r _) as [reg|e]; [exists reg; reflexivity|discriminate].
Qed.

Theorem C123_derived_defaults : forall functype x lo up noisy n_cores p,
  process_arguments conv body (basic_arguments functype x lo up noisy n_cores) = Ok p ->
  x <> [] /\
  exists reg, make_region x (/ 10 * max_abs x) (Some (mkBounds lo up)) = Ok reg /\
              derived_defaults functype x noisy n_cores reg p.
Proof.
  intros functype x lo up noisy n_cores p Hp.
  destruct (accepted_facts _ _ Hp) as (E & d & ro & Hd & Hro & Hreg).
  unfold basic_arguments in E, Hd, Hro, Hreg.
  cbn [a_functype a_x a_lower_bounds a_upper_bounds a_radius_options] in E, Hd, Hro, Hreg.
  assert (Hx : x <> []) by (intros ->; discriminate).
  split; [exact Hx|].
  assert (Ho : get_default_radius_options x = Ok (RadiusOptions (/ 10 * max_abs x)))
    by (destruct x; [contradiction|reflexivity]).
  rewrite Ho in Hd; injection Hd as <-; injection Hro as <-.
  destruct (Hreg _ eq_refl) as (reg & Hr).
  pose proof (C97_accepted_partial _ _ Hp) as (_ & _ & _ & _ & H).
  assert (Hft : known_functype functype) by (rewrite E in H; unfold known_functype; tauto).
  destruct (C97_basic_accepted functype x lo up noisy n_cores reg Hft Hx Hr) as (p' & Hp' & Hd).
  assert (p' = p) by congruence; subst p'; exists reg; auto.
Qed.

(** Ordinary least squares is only chosen if the model is determined by the target sample:
    there are at least as many points as free parameters of the model. *)
Theorem C123_fit_determined : forall functype x lo up noisy n_cores p mt,
  process_arguments conv body (basic_arguments functype x lo up noisy n_cores) = Ok p ->
  model_type_of (o_model_type p) = Ok mt ->
  fi_residualize (o_fit_model p) = true \/
  (Z.of_nat (n_free_params (List.length x) mt) <= o_target_sample_size p)%Z.
Proof.
  intros functype x lo up noisy n_cores p mt Hp Hmt.
  destruct (C123_derived_defaults _ _ _ _ _ _ _ Hp) as (Hx & reg & _ & Hd).
  destruct Hd as (_ & _ & _ & _ & _ & Hm & Hs & _ & _ & _ & _ & _ & _ & Hres).
  rewrite Hres, Hs; rewrite Hm in Hmt.
  destruct (String.eqb functype "scalar"); cbn in Hmt; injection Hmt as <-.
  - destruct (Nat.leb_spec (List.length x) 1) as [L|L]; [right|left; reflexivity].
    destruct x as [|a [|b x]]; [contradiction| |cbn in L; lia].
    cbn; lia.
  - right; cbn [n_free_params].
    destruct (noisy || (1 <? n_cores)%Z); unfold n_free_params; cbn; lia.
Qed.

(** ** C97: the values given by the user are the ones used, and the aggregator fits the function *)
Theorem C97_values_used : forall a p, process_arguments conv body a = Ok p ->
  o_x p = a_x a /\ o_functype p = a_functype a /\
  (forall z, a_max_iter a = PInt z -> so_max_iter (o_stop p) = z) /\
  (forall z, a_max_eval a = PInt z -> so_max_eval (o_stop p) = z) /\
  (forall v, a_max_time a = PFloat v -> so_max_time (o_stop p) = v) /\
  (forall v, a_ftol_abs a = PFloat v -> co_ftol_abs (o_conv p) = v) /\
  (forall v, a_gtol_abs a = PFloat v -> co_gtol_abs (o_conv p) = v) /\
  (forall v, a_xtol_abs a = PFloat v -> co_xtol_abs (o_conv p) = v) /\
  (forall v, a_ftol_rel a = PFloat v -> co_ftol_rel (o_conv p) = v) /\
  (forall v, a_gtol_rel a = PFloat v -> co_gtol_rel (o_conv p) = v) /\
  (forall v, a_xtol_rel a = PFloat v -> co_xtol_rel (o_conv p) = v) /\
  (forall v, a_min_trust_region_radius a = PFloat v -> co_min_radius (o_conv p) = v) /\
  (forall v, a_disable_convergence a = PBool v -> co_disable (o_conv p) = v) /\
  (forall v, a_noisy a = PBool v -> o_noisy p = v) /\
  (forall z, a_n_cores a = PInt z -> o_n_cores p = z) /\
  (forall z, a_n_evals_at_start a = PInt z -> o_n_evals_at_start p = z) /\
  (forall z, a_n_evals_per_point a = PInt z -> o_n_evals_per_point p = z) /\
  (forall v, a_search_radius_factor a = PFloat v -> o_search_radius_factor p = v) /\
  (forall z, a_batch_size a = PInt z -> o_batch_size p = z) /\
  (forall z, a_sample_size a = SizeVal (PInt z) -> o_target_sample_size p = z) /\
  (forall m, a_model_type a = Some m -> o_model_type p = m) /\
  (forall z, a_seed a = PInt z -> o_sampling_seed p = z /\ o_simulation_seed p = (z + 1000)%Z) /\
  o_aggregate_model p = (if String.eqb (o_functype p) "scalar" then "identity"
                         else if String.eqb (o_functype p) "least_squares" then "least_squares_linear"
                         else "information_equality_linear").
Proof.
  intros a p H. pose proof (C97_accepted_partial _ _ H) as (_ & _ & _ & _ & K).
  unfold process_arguments in H; inv_bind H. injection H as <-.
  cbn [o_functype o_model_type] in K.
  cbn [o_x o_functype o_stop so_max_iter so_max_eval so_max_time o_conv co_ftol_abs co_gtol_abs co_xtol_abs
    co_ftol_rel co_gtol_rel co_xtol_rel co_min_radius co_disable o_noisy o_n_cores o_n_evals_at_start
    o_n_evals_per_point o_search_radius_factor o_batch_size o_target_sample_size o_model_type
    o_sampling_seed o_simulation_seed o_aggregate_model].
  repeat match goal with |- _ /\ _ => split end; try reflexivity;
    try (let v := fresh "v" in let E := fresh "Ev" in intros v E;
         match goal with
         | F : as_int _ _ = Ok ?z |- ?z = _ => rewrite E in F
         | F : as_float _ _ = Ok ?z |- ?z = _ => rewrite E in F
         | F : as_bool _ _ = Ok ?z |- ?z = _ => rewrite E in F
         end;
         match goal with F : _ = Ok ?z |- ?z = ?v => now injection F end).
  - intros z Ev. match goal with F : process_n_evals_at_start _ _ _ = Ok _ |- _ => rewrite Ev in F; cbn in F;
      destruct (z <? 1)%Z; [discriminate|now injection F] end.
  - intros z Ev. match goal with F : process_n_evals_per_point _ _ _ _ = Ok _ |- _ => rewrite Ev in F; cbn in F;
      destruct (z <? 1)%Z; [discriminate|now injection F] end.
  - intros v Ev. match goal with F : process_search_radius_factor _ _ _ = Ok _ |- _ => rewrite Ev in F;
      unfold process_search_radius_factor, as_float in F; cbn [convert bind] in F;
      destruct (xle v (Fin 0)); [discriminate|now injection F] end.
  - intros z Ev. match goal with F : process_batch_size _ _ _ = Ok _ |- _ => rewrite Ev in F;
      unfold process_batch_size, as_int in F; cbn [as_number convert bind] in F;
      destruct (xlt _ _); [discriminate|now injection F] end.
  - intros z Ev. match goal with F : process_sample_size _ _ _ _ _ _ = Ok _ |- _ => rewrite Ev in F; now injection F end.
  - intros m Ev. match goal with F : process_model_type _ _ = Ok _ |- _ => rewrite Ev in F;
      unfold process_model_type in F; destruct (smember m _); [now injection F|discriminate] end.
  - intros z Ev. match goal with F : process_seed _ = Ok _ |- _ => rewrite Ev in F; cbn in F;
      destruct (z <? 0)%Z; [discriminate|injection F as F] end. subst. split; reflexivity.
  - match goal with F : get_default_aggregator _ _ = Ok _, G : get_aggregator _ = Ok _ |- _ =>
      unfold get_aggregator in G; destruct (smember _ _) in G; [|discriminate]; injection G as <-;
      unfold get_default_aggregator in F; destruct K as [[K1 K2]|[[K1 K2]|[K1 K2]]]; rewrite K1, K2 in *; now injection F end.
Qed.

(** An unknown model type is a ValueError, whatever the rest. *)
Definition with_model_type (a : arguments) (m : string) : arguments :=
  mkArguments (a_functype a) (a_x a) (a_lower_bounds a) (a_upper_bounds a) (a_noisy a)
    (a_disable_convergence a) (a_ftol_abs a) (a_gtol_abs a) (a_xtol_abs a) (a_ftol_rel a)
    (a_gtol_rel a) (a_xtol_rel a) (a_min_trust_region_radius a) (a_max_eval a) (a_max_iter a)
    (a_max_time a) (a_batch_evaluator a) (a_n_cores a) (a_batch_size a) (a_sample_size a)
    (Some m) (a_search_radius_factor a) (a_n_evals_per_point a) (a_n_evals_at_start a) (a_seed a)
    (a_radius_options a) (a_stagnation_options a) (a_noise_adaptation_options a) (a_sampler a)
    (a_sampler_options a) (a_sample_filter a) (a_sample_filter_options a) (a_model_fitter a)
    (a_model_fitter_options a) (a_cube_subsolver a) (a_sphere_subsolver a)
    (a_retry_with_fallback a) (a_subsolver_options a) (a_acceptance_decider a)
    (a_acceptance_decider_options a) (a_variance_estimator a) (a_variance_estimator_options a)
    (a_infinity_handler a) (a_residualize a).
Theorem C97_unknown_model_type : forall a p m,
  process_arguments conv body a = Ok p -> m <> "linear" -> m <> "quadratic" ->
  process_arguments conv body (with_model_type a m) = Err ValueError.
Proof.
  intros a p m H N1 N2. unfold process_arguments in H; inv_bind H. clear H.
  unfold process_arguments, with_model_type.
  cbn [a_functype a_x a_lower_bounds a_upper_bounds a_noisy a_disable_convergence a_ftol_abs
      a_gtol_abs a_xtol_abs a_ftol_rel a_gtol_rel a_xtol_rel a_min_trust_region_radius a_max_eval
      a_max_iter a_max_time a_batch_evaluator a_n_cores a_batch_size a_sample_size a_model_type
      a_search_radius_factor a_n_evals_per_point a_n_evals_at_start a_seed a_radius_options
      a_noise_adaptation_options].
  repeat match goal with F : ?t = Ok ?v |- context [bind ?t _] => rewrite F; cbn [bind] end.
  unfold process_model_type. cbn [smember existsb].
  destruct (String.eqb_spec m "linear") as [F|_]; [contradiction|].
  destruct (String.eqb_spec m "quadratic") as [F|_]; [contradiction|]. reflexivity.
Qed.
End C97.

Example C97_instance : exists p,
  process_arguments no_conversions (fun _ _ => Err (UserError 0))
    (default_arguments "least_squares" [1; -3]%R None None) = Ok p /\
  o_target_sample_size p = 4%Z /\ o_batch_size p = 1%Z.
Proof.
  destruct (C97_defaults_accepted no_conversions (fun _ _ => Err (UserError 0)) "least_squares" [1; -3]%R None None) as (p & Hp).
  - right; left; reflexivity.
  - discriminate.
  - left; auto.
  - exists p; split; [exact Hp|].
    rewrite <- basic_is_default in Hp.
    destruct (C123_derived_defaults _ _ _ _ _ _ _ _ _ Hp) as (_ & reg & _ & Hd).
    destruct Hd as (_ & _ & Hb & _ & _ & _ & Hs & _); split; [exact Hs|exact Hb].
Qed.

Example C97_values_instance : exists p,
  process_arguments no_conversions (fun _ _ => Err (UserError 0))
    (default_arguments "least_squares" [1; -3]%R None None) = Ok p /\
  so_max_eval (o_stop p) = 2000%Z /\ so_max_iter (o_stop p) = 200%Z /\ o_simulation_seed p = 926408%Z /\
  o_aggregate_model p = "least_squares_linear".
Proof.
  destruct C97_instance as (p & Hp & _). exists p. split; [exact Hp|].
  destruct (C97_values_used _ _ _ _ Hp) as (_ & Ef & Ei & Ee & _ & _ & _ & _ & _ & _ & _ & _ & _ & _ & _ & _ & _ & _ & _ & _ & _ & Es & Ea).
  split; [apply Ee; reflexivity|]. split; [apply Ei; reflexivity|]. split; [apply (Es 925408%Z eq_refl)|].
  rewrite Ea, Ef. reflexivity.
Qed.
Example C97_unknown_model_type_instance :
  process_arguments no_conversions (fun _ _ => Err (UserError 0))
    (with_model_type (default_arguments "least_squares" [1; -3]%R None None) "cubic") = Err ValueError.
Proof.
  destruct C97_instance as (p & Hp & _). apply (C97_unknown_model_type _ _ _ p "cubic" Hp); discriminate.
Qed.

Theorem C97_nan_search_radius_refuted : exists p,
  process_arguments no_conversions (fun _ _ => Err (UserError 0))
    (with_search_radius_factor (default_arguments "least_squares" [1; -3]%R None None)
       (PFloat NaN)) = Ok p /\
  o_search_radius_factor p = NaN /\ xlt (Fin 0) (o_search_radius_factor p) = false.
Proof. eexists; split; [cbn; reflexivity|split; reflexivity]. Qed.

(** ** C122: accepted arguments meet the requirements of the main loop *)
(** With the defaults, with or without noise and for any positive number of cores, the main loop
    receives a configuration as needed by the theorems about it (C115). *)
Theorem C122_defaults_partial : forall conv body functype x lo up noisy n_cores p m,
  process_arguments conv body (basic_arguments functype x lo up noisy n_cores) = Ok p ->
  (1 <= n_cores)%Z ->
  exists O, config_of p m = Some O /\ good_config O /\
    radius_o O = default_radius_options /\ max_iter (stop_o O) = 200%nat /\
    max_eval (stop_o O) = 2000%Z.
Proof.
  intros conv body functype x lo up noisy n_cores p m Hp Hn.
  destruct (C123_derived_defaults _ _ _ _ _ _ _ _ _ Hp) as (Hx & reg & Hreg & Hd).
  assert (Hcs : o_conv p = mkConvOpts false (Fin 0) (Fin 0) (Fin 0) (Fin (2 / 1000000000))
                  (Fin (/ 100000000)) (Fin (/ 100000000)) (Fin 0) /\
                o_stop p = mkStopOpts 200 2000 PInf).
  { clear -Hp.
    assert (G : forall a p, process_arguments conv body a = Ok p ->
      (forall b v, a_disable_convergence a = PBool b -> co_disable (o_conv p) = v -> b = v) /\
      (forall r, a_ftol_abs a = flt r -> co_ftol_abs (o_conv p) = Fin r) /\
      (forall r, a_gtol_abs a = flt r -> co_gtol_abs (o_conv p) = Fin r) /\
      (forall r, a_xtol_abs a = flt r -> co_xtol_abs (o_conv p) = Fin r) /\
      (forall r, a_ftol_rel a = flt r -> co_ftol_rel (o_conv p) = Fin r) /\
      (forall r, a_gtol_rel a = flt r -> co_gtol_rel (o_conv p) = Fin r) /\
      (forall r, a_xtol_rel a = flt r -> co_xtol_rel (o_conv p) = Fin r) /\
      (forall r, a_min_trust_region_radius a = flt r -> co_min_radius (o_conv p) = Fin r) /\
      (forall z, a_max_iter a = PInt z -> so_max_iter (o_stop p) = z) /\
      (forall z, a_max_eval a = PInt z -> so_max_eval (o_stop p) = z) /\
      (forall r, a_max_time a = PFloat r -> so_max_time (o_stop p) = r)).
    { clear; intros a p H; unfold process_arguments in H; inv_bind H; injection H as <-.
      cbn [o_conv o_stop co_disable co_ftol_abs co_gtol_abs co_xtol_abs co_ftol_rel co_gtol_rel
        co_xtol_rel co_min_radius so_max_iter so_max_eval so_max_time].
      split; [intros ? ? Ev <-|].
      { rewrite Ev in *; match goal with E : as_bool conv (PBool _) = Ok _ |- _ =>
          cbn in E; injection E as <-; reflexivity end. }
      assert (HF : forall v r x, as_float conv v = Ok x -> v = flt r -> x = Fin r)
        by (intros v r x HE ->; cbn in HE; injection HE as <-; reflexivity).
      assert (HZ : forall v r x, as_int conv v = Ok x -> v = PInt r -> x = r)
        by (intros v r x HE ->; cbn in HE; injection HE as <-; reflexivity).
      assert (HT : forall v r x, as_float conv v = Ok x -> v = PFloat r -> x = r)
        by (intros v r x HE ->; cbn in HE; injection HE as <-; reflexivity).
      split; [intros ? Ev; eapply HF; [|exact Ev]; eassumption|].
      split; [intros ? Ev; eapply HF; [|exact Ev]; eassumption|].
      split; [intros ? Ev; eapply HF; [|exact Ev]; eassumption|].
      split; [intros ? Ev; eapply HF; [|exact Ev]; eassumption|].
      split; [intros ? Ev; eapply HF; [|exact Ev]; eassumption|].
      split; [intros ? Ev; eapply HF; [|exact Ev]; eassumption|].
      split; [intros ? Ev; eapply HF; [|exact Ev]; eassumption|].
      split; [intros ? Ev; eapply HZ; [|exact Ev]; eassumption|].
      split; [intros ? Ev; eapply HZ; [|exact Ev]; eassumption|].
      intros ? Ev; eapply HT; [|exact Ev]; eassumption. }
    destruct (G _ _ Hp) as (G0 & G1 & G2 & G3 & G4 & G5 & G6 & G7 & G8 & G9 & G10).
    split.
    - destruct (o_conv p) as [c0 c1 c2 c3 c4 c5 c6 c7].
      cbn [co_disable co_ftol_abs co_gtol_abs co_xtol_abs co_ftol_rel co_gtol_rel co_xtol_rel
        co_min_radius] in *.
      rewrite <- (G0 _ _ eq_refl eq_refl), (G1 _ eq_refl), (G2 _ eq_refl), (G3 _ eq_refl),
        (G4 _ eq_refl), (G5 _ eq_refl), (G6 _ eq_refl), (G7 _ eq_refl); reflexivity.
    - destruct (o_stop p) as [s0 s1 s2]; cbn [so_max_iter so_max_eval so_max_time] in *.
      rewrite (G8 _ eq_refl), (G9 _ eq_refl), (G10 _ eq_refl); reflexivity. }
  destruct Hcs as [Hc Hs].
  destruct Hd as (_ & Hno & Hb & _ & _ & _ & Hsz & Hpp & _ & Hsr & Hrad & Hna & Hst & _).
  unfold config_of; rewrite Hc, Hrad, Hna, Hst, Hsr, Hs.
  cbn [obind conv_of fin co_ftol_abs co_gtol_abs co_xtol_abs co_ftol_rel co_gtol_rel co_xtol_rel
    co_min_radius co_disable].
  change (radius_of (RadiusOptions (/ 10 * max_abs x))) with (Some default_radius_options).
  cbn [obind].
  set (nz := noise_of NoiseAdaptationOptions); cbv in nz; subst nz; cbn [obind].
  match goal with |- context [stagnation_of ?o] => set (st := stagnation_of o) end.
  assert (Hst' : exists s, st = Some s) by (unfold st; cbn; eexists; reflexivity).
  destruct Hst' as (s & ->); cbn [obind].
  eexists; split; [reflexivity|]; split; [|split; [reflexivity|split; reflexivity]].
  rewrite Hno, Hb, Hsz, Hpp.
  split; cbn [batch_size target_sample_size n_evals_per_point0 MainModel.noisy noise_o
    min_n_evals max_n_evals].
  - exact Hn.
  - assert (0 < Z.of_nat (List.length x))%Z by (destruct x; [contradiction|cbn; lia]).
    destruct (String.eqb functype "scalar"); [lia|]; destruct (noisy || (1 <? n_cores)%Z); lia.
  - lia.
  - intros _; lia.
Qed.

(** In general the accepted arguments do not: zero or negative numbers of cores and sample sizes
    are accepted. *)
Definition with_cores_and_size (a : arguments) (n_cores : pyval) (s : sample_size_arg) : arguments :=
  mkArguments (a_functype a) (a_x a) (a_lower_bounds a) (a_upper_bounds a) (a_noisy a)
    (a_disable_convergence a) (a_ftol_abs a) (a_gtol_abs a) (a_xtol_abs a) (a_ftol_rel a)
    (a_gtol_rel a) (a_xtol_rel a) (a_min_trust_region_radius a) (a_max_eval a) (a_max_iter a)
    (a_max_time a) (a_batch_evaluator a) n_cores (a_batch_size a) s
    (a_model_type a) (a_search_radius_factor a) (a_n_evals_per_point a) (a_n_evals_at_start a)
    (a_seed a)
    (a_radius_options a) (a_stagnation_options a) (a_noise_adaptation_options a) (a_sampler a)
    (a_sampler_options a) (a_sample_filter a) (a_sample_filter_options a) (a_model_fitter a)
    (a_model_fitter_options a) (a_cube_subsolver a) (a_sphere_subsolver a)
    (a_retry_with_fallback a) (a_subsolver_options a) (a_acceptance_decider a)
    (a_acceptance_decider_options a) (a_variance_estimator a) (a_variance_estimator_options a)
    (a_infinity_handler a) (a_residualize a).

Lemma five_not_le_zero : Rleb 5 0 = false.
Proof. destruct (Rleb 5 0) eqn:L; [apply Rleb_true in L; lra|reflexivity]. Qed.

Theorem C122_cores_refuted : exists p O,
  process_arguments no_conversions (fun _ _ => Err (UserError 0))
    (with_cores_and_size (default_arguments "least_squares" [1; -3]%R None None) (PInt 0) SizeNone)
    = Ok p /\
  config_of p 0 = Some O /\ batch_size O = 0%Z /\ ~ good_config O.
Proof.
  eexists; eexists; split; [cbn; rewrite five_not_le_zero; reflexivity|]; split; [reflexivity|].
  split; [reflexivity|]; intros [H _ _ _]; apply H; reflexivity.
Qed.

Theorem C122_sample_size_refuted : exists p O,
  process_arguments no_conversions (fun _ _ => Err (UserError 0))
    (with_cores_and_size (default_arguments "least_squares" [1; -3]%R None None) (PInt 1)
       (SizeVal (PInt (-3)))) = Ok p /\
  config_of p 0 = Some O /\ target_sample_size O = (-3)%Z /\ ~ good_config O.
Proof.
  eexists; eexists; split; [cbn; rewrite five_not_le_zero; reflexivity|]; split; [reflexivity|].
  split; [reflexivity|]; intros [_ H _ _]; apply H; reflexivity.
Qed.

(** A stopping limit of infinity, as allowed for the time limit, is rejected for the numbers of
    iterations and evaluations. *)
Theorem C122_infinite_limit_refuted : forall conv body a p,
  a_max_eval a = PFloat PInf \/ a_max_iter a = PFloat PInf ->
  process_arguments conv body a <> Ok p.
Proof.
  intros conv body a p H E; unfold process_arguments in E; inv_bind E.
  destruct H as [H|H]; rewrite H in *;
    match goal with K : as_int conv (PFloat PInf) = Ok _ |- _ => discriminate K end.
Qed.

Example C122_instance : exists p O,
  process_arguments no_conversions (fun _ _ => Err (UserError 0))
    (basic_arguments "scalar" [1; -3]%R None None true 4) = Ok p /\
  config_of p 0 = Some O /\ good_config O /\ target_sample_size O = 5%Z.
Proof.
  destruct (make_region [1; -3]%R (/ 10 * max_abs [1; -3]%R) (Some (mkBounds None None))) as [reg|] eqn:Hr.
  2:{ cbn in Hr; discriminate. }
  destruct (C97_basic_accepted no_conversions (fun _ _ => Err (UserError 0)) "scalar" [1; -3]%R
              None None true 4 reg ltac:(left; reflexivity) ltac:(discriminate) Hr) as (p & Hp & Hd).
  destruct (C122_defaults_partial _ _ _ _ _ _ _ _ _ 0 Hp ltac:(lia)) as (O & HO & HG & _).
  exists p, O; split; [exact Hp|]; split; [exact HO|]; split; [exact HG|].
  destruct Hd as (_ & _ & _ & _ & _ & _ & Hs & _).
  revert HO; unfold config_of.
  destruct (conv_of _); [|discriminate]; destruct (radius_of _); [|discriminate].
  destruct (noise_of _); [|discriminate]; destruct (stagnation_of _); [|discriminate].
  destruct (fin _); [|discriminate]; cbn [obind].
  intros HO; injection HO as <-; cbn [target_sample_size]; rewrite Hs; reflexivity.
Qed.

(** ** The accepted number of evaluations per point lies within the adaptation limits when it
    is the default *)
Theorem C123_n_evals_default : forall conv body a p,
  process_arguments conv body a = Ok p -> a_n_evals_per_point a = PNone -> o_noisy p = true ->
  exists z, int_field (o_noise_adaptation_options p) "min_n_evals" = Ok z /\
            o_n_evals_per_point p = z /\ (1 <= z)%Z.
Proof.
  intros conv body a p H Hn Hno; unfold process_arguments in H; inv_bind H.
  injection H as <-.
  cbn [o_noise_adaptation_options o_n_evals_per_point o_noisy] in *.
  match goal with E : process_n_evals_per_point _ _ _ _ = Ok _ |- _ => rename E into Hp end.
  unfold process_n_evals_per_point in Hp; rewrite Hn in Hp; subst.
  unfold get_default_n_evals_per_point in Hp.
  destruct (int_field _ _) as [z|] eqn:Ei in Hp; cbn [bind] in Hp; [|discriminate].
  exists z; split; [exact Ei|].
  destruct (z <? 1)%Z eqn:L; [discriminate|].
  injection Hp as <-; apply Z.ltb_ge in L; auto.
Qed.
