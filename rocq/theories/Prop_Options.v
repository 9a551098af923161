(** Properties of option bundles (C95, C119). *)
From Coq Require Import Reals List Arith ZArith Bool String Lia Lra.
From Verif Require Import Base XR Vec OptionsModel.
Import ListNotations.
Open Scope string_scope.

(** ** Dictionaries *)
Lemma slookup_map_fst : forall {A B} (f : string -> A -> B) (d : list (string * A)) k,
  slookup (map (fun kv => (fst kv, f (fst kv) (snd kv))) d) k = option_map (f k) (slookup d k).
Proof.
  intros A B f d k; induction d as [|[k' v] d IH]; [reflexivity|].
  cbn. destruct (String.eqb_spec k k') as [->|]; [reflexivity|exact IH].
Qed.

Lemma slookup_In : forall {A} (d : list (string * A)) k v, slookup d k = Some v -> In (k, v) d.
Proof.
  intros A d k v; induction d as [|[k' w] d IH]; cbn; [discriminate|].
  destruct (String.eqb_spec k k') as [->|]; intros H.
  - injection H as ->; left; reflexivity.
  - right; auto.
Qed.

Lemma slookup_none : forall {A} (d : list (string * A)) k,
  slookup d k = None <-> ~ In k (map fst d).
Proof.
  intros A d k; induction d as [|[k' w] d IH]; cbn; [tauto|].
  destruct (String.eqb_spec k k') as [->|Hn]; split; intros H.
  - discriminate.
  - exfalso; apply H; left; reflexivity.
  - intros [E|E]; [congruence|]; apply IH in H; contradiction.
  - apply IH; intros E; apply H; right; exact E.
Qed.

Lemma smem_In : forall {A} (d : list (string * A)) k, smem k d = true <-> In k (map fst d).
Proof.
  intros A d k; unfold smem; destruct (slookup d k) eqn:E; split; intros H; try easy.
  - apply slookup_In in E; apply (in_map fst) in E; exact E.
  - apply slookup_none in E; contradiction.
Qed.

Lemma NoDup_slookup : forall {A} (d : list (string * A)) k v,
  NoDup (map fst d) -> In (k, v) d -> slookup d k = Some v.
Proof.
  intros A d k v; induction d as [|[k' w] d IH]; cbn; [easy|].
  intros Hnd [E|Hin]; inversion Hnd; subst.
  - injection E as -> ->; rewrite String.eqb_refl; reflexivity.
  - destruct (String.eqb_spec k k') as [->|]; [|auto].
    exfalso; apply H1; apply (in_map fst) in Hin; exact Hin.
Qed.

Lemma typed_lookup : forall {A B} (g : string -> A -> res B) (d : list (string * A)) typed,
  mapM (fun kv => let* v := g (fst kv) (snd kv) in Ok (fst kv, v)) d = Ok typed ->
  map fst typed = map fst d /\
  forall k, match slookup d k with
            | None => slookup typed k = None
            | Some v => exists w, slookup typed k = Some w /\ g k v = Ok w
            end.
Proof.
  intros A B g d; induction d as [|[k0 v0] d IH]; intros typed H; cbn in H.
  - injection H as <-; split; [reflexivity|]; intros k; reflexivity.
  - destruct (g k0 v0) as [w|e] eqn:Hg; cbn in H; [|discriminate].
    destruct (mapM _ d) as [t|e] eqn:Hm; cbn in H; [|discriminate].
    injection H as <-.
    destruct (IH t eq_refl) as [Hk Hl]; split; [cbn; rewrite Hk; reflexivity|].
    intros k; cbn. destruct (String.eqb_spec k k0) as [->|]; [|apply Hl].
    exists w; split; [reflexivity|exact Hg].
Qed.

Lemma mapM_error_elim : forall {A B} (f : A -> res B) l e,
  mapM f l = Err e -> exists a, In a l /\ f a = Err e.
Proof.
  intros A B f l e; induction l as [|a l IH]; cbn; [discriminate|].
  destruct (f a) as [b|e'] eqn:Hf; cbn.
  - destruct (mapM f l) eqn:Hm; cbn; [discriminate|].
    intros H; injection H as ->; destruct (IH eq_refl) as (x & Hx & Hfx); exists x; auto.
  - intros H; injection H as ->; exists a; auto.
Qed.

(** ** Conversions keep the type of the default *)
Lemma convert_type : forall conv t v w, convert conv t v = Ok w -> type_of w = t.
Proof.
  intros conv t v w H.
  destruct t, v; cbn in H; try discriminate;
    try (injection H as <-; reflexivity);
    match goal with H : bind ?m _ = Ok _ |- _ => destruct m; cbn in H; [|discriminate] end;
    injection H as <-; reflexivity.
Qed.

Lemma isinstance_type : forall v, isinstance v (type_of v) = true.
Proof. destruct v; reflexivity. Qed.

(** ** C95 *)
Section C95.
Variable conv : conversions.

(** Without user options the defaults are returned unchanged. *)
Theorem C95_none : forall defaults, update_option_bundle conv defaults UNone = Ok defaults.
Proof. reflexivity. Qed.

(** Unknown fields are rejected with a ValueError, whatever else is given. *)
Theorem C95_unknown_field : forall defaults d k v,
  In (k, v) d -> ~ In k (map fst defaults) ->
  update_option_bundle conv defaults (UDict d) = Err ValueError /\
  update_option_bundle conv defaults (UTuple d) = Err ValueError.
Proof.
  intros defaults d k v Hin Hn.
  assert (H : existsb (fun kv => negb (smem (fst kv) defaults)) d = true).
  { apply existsb_exists; exists (k, v); split; [exact Hin|]; cbn.
    destruct (smem k defaults) eqn:E; [|reflexivity].
    apply smem_In in E; contradiction. }
  split; cbn; rewrite H; reflexivity.
Qed.

(** On success the fields are those of the defaults, in the same order; fields the user did not
    give keep the default value; a given field has the user's value if the default is None or
    the value has the type of the default already, and otherwise the value converted to that
    type. *)
Theorem C95_exact_replacement : forall defaults d out,
  update_option_bundle conv defaults (UDict d) = Ok out ->
  map fst out = map fst defaults /\
  (forall k v, In (k, v) d -> In k (map fst out)) /\
  forall k dv, slookup defaults k = Some dv ->
    match slookup d k with
    | None => slookup out k = Some dv
    | Some v => exists w, slookup out k = Some w /\
        (dv = PNone \/ isinstance v (type_of dv) = true -> w = v) /\
        (dv <> PNone -> isinstance v (type_of dv) = false ->
           type_of w = type_of dv /\ convert conv (type_of dv) v = Ok w)
    end.
Proof.
  intros defaults d out H; cbn in H.
  destruct (existsb _ d) eqn:Hex; [discriminate|].
  destruct (mapM _ d) as [typed|e] eqn:Hm; cbn in H; [|discriminate].
  injection H as <-.
  destruct (typed_lookup (typed_option conv defaults) d typed Hm) as [Hk Hl].
  assert (Hmap : map fst (map (fun kv => (fst kv, match slookup typed (fst kv) with
             | Some w => w | None => snd kv end)) defaults) = map fst defaults).
  { rewrite map_map; apply map_ext; intros a; reflexivity. }
  split; [exact Hmap|]; split.
  { intros k v Hin; rewrite Hmap.
    destruct (smem k defaults) eqn:E; [apply smem_In in E; exact E|].
    assert (existsb (fun kv => negb (smem (fst kv) defaults)) d = true); [|congruence].
    apply existsb_exists; exists (k, v); split; [exact Hin|cbn; rewrite E; reflexivity]. }
  intros k dv Hdv.
  pose proof (slookup_map_fst (fun k v => match slookup typed k with Some w => w | None => v end)
                defaults k) as Hlk; cbv beta in Hlk.
  rewrite Hlk, Hdv; cbn [option_map].
  specialize (Hl k); destruct (slookup d k) as [v|].
  - destruct Hl as (w & Hw & Hg); rewrite Hw; exists w; split; [reflexivity|].
    unfold typed_option in Hg; rewrite Hdv in Hg; split.
    + intros [->|Hi]; [rewrite orb_true_r in Hg|rewrite Hi in Hg; cbn in Hg];
        injection Hg as <-; reflexivity.
    + intros Hn Hi; rewrite Hi in Hg; cbn in Hg.
      destruct dv; try (exfalso; apply Hn; reflexivity);
        split; try exact Hg; apply convert_type in Hg; exact Hg.
  - rewrite Hl; reflexivity.
Qed.

(** Known fields whose values convert are always accepted; if all fields are known, the only
    errors are those of the conversions. *)
Theorem C95_accepted : forall defaults d,
  (forall k v, In (k, v) d -> exists dv, slookup defaults k = Some dv /\
     (dv = PNone \/ isinstance v (type_of dv) = true \/
      exists w, convert conv (type_of dv) v = Ok w)) ->
  exists out, update_option_bundle conv defaults (UDict d) = Ok out.
Proof.
  intros defaults d H; cbn.
  assert (Hex : existsb (fun kv => negb (smem (fst kv) defaults)) d = false).
  { apply not_true_is_false; intros E; apply existsb_exists in E.
    destruct E as ([k v] & Hin & Hb); cbn in Hb.
    destruct (H k v Hin) as (dv & Hdv & _).
    unfold smem in Hb; rewrite Hdv in Hb; discriminate. }
  rewrite Hex.
  destruct (mapM _ d) as [typed|e] eqn:Hm; [eexists; reflexivity|].
  exfalso; apply mapM_error_elim in Hm; destruct Hm as ([k v] & Hin & He); cbn in He.
  destruct (H k v Hin) as (dv & Hdv & Hc).
  unfold typed_option in He; rewrite Hdv in He.
  destruct (isinstance v (type_of dv)) eqn:Hi; [discriminate|].
  destruct dv; try discriminate; destruct Hc as [Hc|[Hc|(w & Hw)]]; try discriminate;
    cbn [orb type_of] in He, Hw; rewrite Hw in He; discriminate.
Qed.

Theorem C95_conversion_error : forall defaults d e,
  (forall k v, In (k, v) d -> In k (map fst defaults)) ->
  update_option_bundle conv defaults (UDict d) = Err e ->
  exists k v dv, In (k, v) d /\ slookup defaults k = Some dv /\ dv <> PNone /\
    isinstance v (type_of dv) = false /\ convert conv (type_of dv) v = Err e.
Proof.
  intros defaults d e Hk H; cbn in H.
  assert (Hex : existsb (fun kv => negb (smem (fst kv) defaults)) d = false).
  { apply not_true_is_false; intros E; apply existsb_exists in E.
    destruct E as ([k v] & Hin & Hb); cbn in Hb.
    apply Hk in Hin; apply smem_In in Hin; rewrite Hin in Hb; discriminate. }
  rewrite Hex in H.
  destruct (mapM _ d) as [typed|e'] eqn:Hm; cbn in H; [discriminate|].
  injection H as ->.
  apply mapM_error_elim in Hm; destruct Hm as ([k v] & Hin & He); cbn in He.
  unfold typed_option in He.
  destruct (slookup defaults k) as [dv|] eqn:Hdv.
  2:{ apply slookup_none in Hdv; exfalso; apply Hdv; apply (Hk k v Hin). }
  exists k, v, dv; split; [exact Hin|]; split; [exact Hdv|].
  destruct (isinstance v (type_of dv)) eqn:Hi; [discriminate|].
  destruct dv; try discriminate; cbn [orb type_of] in *;
    (split; [discriminate|]; split; [reflexivity|]);
    match type of He with bind ?m _ = _ => destruct m; cbn in He; congruence end.
Qed.

(** A NamedTuple is treated like the dictionary of its fields; updating with the result again
    changes nothing. *)
Theorem C95_tuple : forall defaults d,
  update_option_bundle conv defaults (UTuple d) = update_option_bundle conv defaults (UDict d).
Proof. reflexivity. Qed.

Theorem C95_idempotent : forall defaults d out,
  NoDup (map fst defaults) ->
  update_option_bundle conv defaults (UDict d) = Ok out ->
  update_option_bundle conv defaults (UTuple out) = Ok out.
Proof.
  intros defaults d out Hnd H.
  destruct (C95_exact_replacement defaults d out H) as (Hk & _ & Hrep).
  destruct (C95_accepted defaults out) as (out2 & H2).
  { intros k v Hin.
    assert (Hko : In k (map fst defaults)) by (rewrite <- Hk; apply (in_map fst) in Hin; exact Hin).
    destruct (slookup defaults k) as [dv|] eqn:Hdv; [|apply slookup_none in Hdv; contradiction].
    exists dv; split; [reflexivity|].
    assert (Hv : slookup out k = Some v) by (apply NoDup_slookup; [rewrite Hk; exact Hnd|exact Hin]).
    specialize (Hrep k dv Hdv); destruct (slookup d k) as [u|].
    - destruct Hrep as (w & Hw & Hkeep & Hconv).
      assert (w = v) by congruence; subst w.
      destruct (isinstance u (type_of dv)) eqn:Hi.
      + rewrite (Hkeep (or_intror eq_refl)); right; left; exact Hi.
      + assert (dv = PNone \/ dv <> PNone) as [E|Hn]
          by (destruct dv; (left; reflexivity) || (right; discriminate)); [left; exact E|].
        destruct (Hconv Hn eq_refl) as [Ht _]; right; left; rewrite <- Ht; apply isinstance_type.
    - assert (dv = v) by congruence; subst dv; right; left; apply isinstance_type. }
  rewrite C95_tuple, H2; f_equal.
  destruct (C95_exact_replacement defaults out out2 H2) as (Hk2 & _ & Hrep2).
  assert (Hkk : map fst out2 = map fst out) by congruence.
  (* two association lists with the same distinct keys and the same lookups are equal *)
  assert (Hext : forall k, In k (map fst out) -> slookup out2 k = slookup out k).
  { intros k Hin.
    destruct (slookup defaults k) as [dv|] eqn:Hdv.
    2:{ apply slookup_none in Hdv; rewrite Hk in Hin; contradiction. }
    specialize (Hrep2 k dv Hdv).
    destruct (slookup out k) as [v|] eqn:Hv; [|apply slookup_none in Hv; contradiction].
    destruct Hrep2 as (w & Hw & Hkeep & Hconv).
    rewrite Hw; f_equal; apply Hkeep.
    specialize (Hrep k dv Hdv); destruct (slookup d k) as [u|].
    - destruct Hrep as (w' & Hw' & Hkeep' & Hconv').
      assert (w' = v) by congruence; subst w'.
      destruct (isinstance u (type_of dv)) eqn:Hi.
      + rewrite (Hkeep' (or_intror eq_refl)); right; exact Hi.
      + assert (dv = PNone \/ dv <> PNone) as [E|Hn]
          by (destruct dv; (left; reflexivity) || (right; discriminate)); [left; exact E|].
        destruct (Hconv' Hn eq_refl) as [Ht _]; right; rewrite <- Ht; apply isinstance_type.
    - assert (dv = v) by congruence; subst dv; right; apply isinstance_type. }
  clear -Hkk Hext Hnd Hk; revert out2 Hkk Hext.
  assert (Hno : NoDup (map fst out)) by (rewrite Hk; exact Hnd); clear Hk Hnd.
  induction out as [|[k v] out IH]; intros [|[k2 v2] out2] Hkk Hext; cbn in Hkk; try discriminate;
    [reflexivity|].
  injection Hkk as Ek Hkk; subst k2; cbn in Hno; apply NoDup_cons_iff in Hno.
  destruct Hno as [Hnotin Hno].
  pose proof (Hext k (or_introl eq_refl)) as E; cbn in E; rewrite String.eqb_refl in E.
  injection E as ->; f_equal; apply IH; [exact Hno|exact Hkk|].
  intros k' Hin; specialize (Hext k' (or_intror Hin)); cbn in Hext.
  destruct (String.eqb_spec k' k) as [Ek|_]; [|exact Hext].
  exfalso; apply Hnotin; rewrite <- Ek; exact Hin.
Qed.

(** int() of a float rounds towards zero; infinite and NaN values raise; numbers and booleans
    become floats of the same value. *)
Theorem C95_int_conversion : forall r, exists z,
  convert conv TInt (PFloat (Fin r)) = Ok (PInt z) /\
  (Rabs (IZR z) <= Rabs r < Rabs (IZR z) + 1)%R /\ (0 <= IZR z * r)%R.
Proof.
  intros r; exists (truncate r); split; [reflexivity|]; unfold truncate.
  destruct (Rleb 0 r) eqn:E.
  - apply Rleb_true in E.
    destruct (base_Int_part r) as [H1 H2].
    assert (0 <= IZR (Int_part r))%R.
    { apply IZR_le. assert (IZR (-1) < IZR (Int_part r))%R by lra. apply lt_IZR in H; lia. }
    rewrite !Rabs_pos_eq by lra; split; [lra|]; apply Rmult_le_pos; lra.
  - apply Rleb_false in E.
    destruct (base_Int_part (- r)) as [H1 H2]; rewrite opp_IZR.
    assert (0 <= IZR (Int_part (- r)))%R.
    { apply IZR_le. assert (IZR (-1) < IZR (Int_part (- r)))%R by lra. apply lt_IZR in H; lia. }
    rewrite Rabs_Ropp, (Rabs_pos_eq (IZR _)) by lra; rewrite Rabs_left by lra.
    split; [lra|]; replace (- IZR (Int_part (- r)) * r)%R with (IZR (Int_part (- r)) * - r)%R by ring.
    apply Rmult_le_pos; lra.
Qed.

Theorem C95_number_conversion :
  (forall z, convert conv TFloat (PInt z) = Ok (PFloat (Fin (IZR z)))) /\
  (forall b, convert conv TFloat (PBool b) = Ok (PFloat (Fin (if b then 1 else 0)))) /\
  (forall x, convert conv TNpFloat (PFloat x) = Ok (PNpFloat x)) /\
  convert conv TInt (PFloat NaN) = Err ValueError /\
  convert conv TInt (PFloat PInf) = Err OverflowError /\
  convert conv TInt (PFloat NInf) = Err OverflowError /\
  (forall t, t = TInt \/ t = TFloat -> convert conv t PNone = Err TypeError).
Proof.
  split; [reflexivity|]; split; [reflexivity|]; split; [reflexivity|]; split; [reflexivity|].
  split; [reflexivity|]; split; [reflexivity|]; intros t [-> | ->]; reflexivity.
Qed.
End C95.

(** A concrete update: an integer is converted, a string kept, the rest unchanged. *)
Definition no_conversions : conversions :=
  mkConversions (fun _ => Err TypeError) (fun _ => Err ValueError) (fun _ => Err ValueError)
    (fun _ => Err TypeError).
Example C95_instance :
  update_option_bundle no_conversions FilterOptions
    (UDict [("strictness", PInt 2); ("shape", PStr "cube")]) =
  Ok [("strictness", PFloat (Fin 2)); ("shape", PStr "cube"); ("n_max_factor", PInt 3)] /\
  update_option_bundle no_conversions FilterOptions (UDict [("strictnes", PInt 2)])
    = Err ValueError /\
  update_option_bundle no_conversions FilterOptions (UDict [("strictness", PStr "abc")])
    = Err ValueError /\
  NoDup (map fst FilterOptions).
Proof.
  split; [reflexivity|]; split; [reflexivity|]; split; [reflexivity|].
  repeat constructor; cbn; intuition discriminate.
Qed.

(** ** C119: numbers given as options keep their value *)
(** Holds for float options given any number and for integer options given an integer. *)
Definition number_value (v : pyval) : option xr :=
  match v with
  | PInt z => Some (Fin (IZR z)) | PFloat x | PNpFloat x => Some x | _ => None
  end.

Theorem C119_numeric_options_partial : forall conv defaults d out k dv v x,
  update_option_bundle conv defaults (UDict d) = Ok out ->
  slookup defaults k = Some dv -> slookup d k = Some v -> number_value v = Some x ->
  type_of dv = TFloat \/ type_of dv = TNpFloat \/ (type_of dv = TInt /\ type_of v = TInt) ->
  exists w, slookup out k = Some w /\ number_value w = Some x.
Proof.
  intros conv defaults d out k dv v x H Hdv Hv Hx Ht.
  destruct (C95_exact_replacement conv defaults d out H) as (_ & _ & Hrep).
  specialize (Hrep k dv Hdv); rewrite Hv in Hrep.
  destruct Hrep as (w & Hw & Hkeep & Hconv); exists w; split; [exact Hw|].
  destruct (isinstance v (type_of dv)) eqn:Hi.
  - rewrite (Hkeep (or_intror eq_refl)); exact Hx.
  - assert (Hn : dv <> PNone) by (intros ->; cbn in Ht; intuition discriminate).
    destruct (Hconv Hn eq_refl) as [_ Hc].
    destruct Ht as [E|[E|[E E2]]]; rewrite E in *.
    + destruct v; cbn in Hx; try discriminate; cbn in Hc; injection Hc as <-; exact Hx.
    + destruct v; cbn in Hx; try discriminate; cbn in Hc; injection Hc as <-; exact Hx.
    + destruct v; try discriminate.
Qed.

Lemma truncate_half : truncate (1 / 2) = 0%Z.
Proof.
  unfold truncate; destruct (Rleb 0 (1 / 2)) eqn:E.
  - destruct (base_Int_part (1 / 2)) as [H1 H2].
    assert (Int_part (1 / 2) < 1)%Z by (apply lt_IZR; lra).
    assert (-1 < Int_part (1 / 2))%Z by (apply lt_IZR; lra).
    lia.
  - apply Rleb_false in E; lra.
Qed.

(** The default of the sampler option [hardness], annotated as a float, is the integer 1: a
    hardness of 0.5 silently becomes 0. *)
Theorem C119_hardness_refuted : forall conv, exists out,
  update_option_bundle conv SamplerOptions (UDict [("hardness", PFloat (Fin (1 / 2)))]) = Ok out /\
  slookup out "hardness" = Some (PInt 0).
Proof.
  intros conv; eexists; split.
  - cbn. rewrite truncate_half; reflexivity.
  - reflexivity.
Qed.

(** The string "False" for a boolean option becomes True. *)
Theorem C119_false_string_refuted : forall conv noisy batch_size, exists out,
  update_option_bundle conv (get_default_stagnation_options noisy batch_size)
    (UDict [("drop", PStr "False")]) = Ok out /\
  slookup out "drop" = Some (PBool true).
Proof.
  intros conv noisy b; unfold get_default_stagnation_options.
  destruct noisy; [eexists; split; reflexivity|].
  destruct (1 <? b)%Z; eexists; split; reflexivity.
Qed.

(** None for the initial radius becomes NaN, because np.float64(None) is NaN. *)
Theorem C119_none_radius_refuted : forall conv r, exists out,
  update_option_bundle conv (RadiusOptions r) (UDict [("initial_radius", PNone)]) = Ok out /\
  slookup out "initial_radius" = Some (PNpFloat NaN).
Proof. intros conv r; eexists; split; reflexivity. Qed.

Example C119_instance :
  update_option_bundle no_conversions (RadiusOptions (/ 2))
    (UDict [("initial_radius", PInt 3); ("max_radius", PFloat PInf)]) =
  Ok [("initial_radius", PNpFloat (Fin 3)); ("min_radius", flt (/ 1000000));
      ("max_radius", PFloat PInf); ("rho_decrease", flt (/ 10)); ("rho_increase", flt (/ 10));
      ("shrinking_factor", flt (/ 2)); ("expansion_factor", flt 2); ("large_step", flt (/ 2));
      ("max_radius_to_step_ratio", PFloat PInf)].
Proof. reflexivity. Qed.
