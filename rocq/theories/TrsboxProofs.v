(** Proofs about the trsbox solver. *)
From Coq Require Import Reals List Arith ZArith Bool Lia Lra Psatz FunctionalExtensionality.
From Verif Require Import Base XR FVec CgModel Prop_Cg TrsboxModel.
Import ListNotations.
Open Scope R_scope.

(** * Masked vectors *)

Definition mask (b : nat -> Z) (f : fvec) : fvec := fun i => if free b i then f i else 0.
Definition fixedsq (n : nat) (b : nat -> Z) (f : fvec) : R := bsum n (fun i => if free b i then 0 else f i * f i).

Lemma mdot_mask n b f g : mdot n b f g = fdot n (mask b f) g.
Proof. apply bsum_ext. intros i _. unfold mask. destruct (free b i); lra. Qed.
Lemma mdot_mask2 n b f g : mdot n b f g = fdot n (mask b f) (mask b g).
Proof. apply bsum_ext. intros i _. unfold mask. destruct (free b i); lra. Qed.
Lemma mdot_comm n b f g : mdot n b f g = mdot n b g f.
Proof. apply bsum_ext. intros i _. destruct (free b i); lra. Qed.
Lemma fsq_split n b f : fsq n f = mdot n b f f + fixedsq n b f.
Proof.
  unfold fsq, fdot, mdot, fixedsq. rewrite <- bsum_plus. apply bsum_ext. intros i _.
  destruct (free b i); lra.
Qed.
Lemma fixedsq_nonneg n b f : 0 <= fixedsq n b f.
Proof. apply bsum_nonneg. intros i _. destruct (free b i); nra. Qed.
Lemma mdot_nonneg n b f : 0 <= mdot n b f f.
Proof. apply bsum_nonneg. intros i _. destruct (free b i); nra. Qed.
Lemma upd_same {A} (f : nat -> A) k v : upd f k v k = v.
Proof. unfold upd. now rewrite Nat.eqb_refl. Qed.
Lemma upd_other {A} (f : nat -> A) k v i : i <> k -> upd f k v i = f i.
Proof. intros. unfold upd. now destruct (Nat.eqb_spec i k). Qed.
Lemma mdot_upd n b k v f g : (k < n)%nat -> free b k = true -> v <> 0%Z ->
  mdot n (upd b k v) f g = mdot n b f g - f k * g k.
Proof.
  intros Hk Hf Hv. unfold mdot.
  replace (f k * g k) with (bsum n (fun i => if (i =? k)%nat then f k * g k else 0)) by now apply bsum_single.
  rewrite <- bsum_minus. apply bsum_ext. intros i _. unfold free, upd in *.
  destruct (Nat.eqb_spec i k) as [->|]; [|lra]. rewrite Hf.
  destruct (Z.eqb_spec v 0); [easy|]. lra.
Qed.
Lemma fixedsq_upd n b k v f : (k < n)%nat -> free b k = true -> v <> 0%Z ->
  fixedsq n (upd b k v) f = fixedsq n b f + f k * f k.
Proof.
  intros Hk Hf Hv. pose proof (fsq_split n b f) as A. pose proof (fsq_split n (upd b k v) f) as B.
  rewrite (mdot_upd n b k v f f Hk Hf Hv) in B. lra.
Qed.
Lemma fadd_scale0 x d : fadd x (fscale 0 d) = x.
Proof. apply functional_extensionality. intros i. unfold fadd, fscale. lra. Qed.
Lemma mask_zero_off b f : (forall i, free b i = false -> f i = 0) -> mask b f = f.
Proof.
  intros H. apply functional_extensionality. intros i. unfold mask. destruct (free b i) eqn:E; [easy|].
  symmetry. now apply H.
Qed.
Lemma fixedsq_move n b x d a : (forall i, free b i = false -> d i = 0) ->
  fixedsq n b (fadd x (fscale a d)) = fixedsq n b x.
Proof.
  intros Z. apply bsum_ext. intros i _. destruct (free b i) eqn:E; [easy|]. unfold fadd, fscale. rewrite Z by easy. ring.
Qed.
Lemma mdot_move n b x d a : (forall i, free b i = false -> d i = 0) ->
  mdot n b (fadd x (fscale a d)) (fadd x (fscale a d))
  = mdot n b x x + 2 * a * mdot n b d x + a * a * fdot n d d.
Proof.
  intros Z. unfold mdot, fdot.
  rewrite <- (bsum_scal n (a * a)), <- (bsum_scal n (2 * a)), <- !bsum_plus. apply bsum_ext. intros i _.
  destruct (free b i) eqn:E; unfold fadd, fscale; [ring|]. rewrite Z by easy. ring.
Qed.

(** * The main loop *)

Section Box.
Variables (n : nat) (H : fmat) (lower upper g0 : fvec) (radius : R).
Hypothesis Hbox : forall i, (i < n)%nat -> lower i <= 0 <= upper i.

Definition inbox (x : fvec) : Prop := forall i, (i < n)%nat -> lower i <= x i <= upper i.
Definition atbound (x : fvec) (b : nat -> Z) : Prop := forall i, (i < n)%nat ->
  b i = 0%Z \/ (b i = (-1)%Z /\ x i = lower i) \/ (b i = 1%Z /\ x i = upper i).
(** value of the model and gradient along the iteration *)
Definition tracked (x g : fvec) (total : R) : Prop :=
  feq n g (fadd g0 (fmv n H x)) /\ 0 <= total /\ (fsymm n H -> qval n g0 H x = - total).

Lemma apply_bounds_id x b : inbox x -> atbound x b -> feq n (tb_apply_bounds x b lower upper) x.
Proof.
  intros I A i Hi. specialize (I i Hi). specialize (A i Hi). unfold tb_apply_bounds.
  destruct A as [E|[[E ->]|[E ->]]]; rewrite E; cbn [Z.eqb Pos.eqb]; try easy.
  rewrite Rmax_right by lra. now rewrite Rmin_left by lra.
Qed.

Lemma unconstrained_step_spec raw G P gx gHg : 0 < raw -> 0 < P -> 0 < G ->
  exists st dist, tb_unconstrained_step raw G P gx gHg = Ok (st, dist) /\ 0 < dist /\ 0 < st <= dist /\
    (forall a, 0 <= a <= dist -> P * (a * a) + 2 * a * gx <= raw) /\
    (0 < gHg -> st * gHg <= G) /\ (st < dist -> 0 < gHg /\ st * gHg = G).
Proof.
  intros Hr HP HG. unfold tb_unconstrained_step, msqrt.
  assert (A : 0 < P * raw + gx * gx) by nra.
  destruct (Rltb_spec (P * raw + gx * gx) 0); [lra|]. cbn [bind].
  set (t := sqrt (P * raw + gx * gx)).
  assert (Ht : t * t = P * raw + gx * gx) by (apply sqrt_sqrt; lra).
  assert (Ht0 : 0 < t) by (apply sqrt_lt_R0; lra).
  assert (B : Rabs gx < t).
  { apply Rsqr_incrst_0; [|apply Rabs_pos|lra]. unfold Rsqr. rewrite Ht, <- Rabs_mult, Rabs_right by nra. nra. }
  assert (B' : - t < gx < t) by (unfold Rabs in B; destruct (Rcase_abs gx); lra).
  assert (D : exists dist, (if Rleb 0 gx then div raw (t + gx) else div (t - gx) P) = Ok dist /\ P * dist = t - gx).
  { destruct (Rleb_spec 0 gx); unfold div.
    - destruct (Reqb_spec (t + gx) 0); [lra|]. eexists. split; [reflexivity|].
      apply Rmult_eq_reg_r with (t + gx); [|lra].
      replace (P * (raw / (t + gx)) * (t + gx)) with (P * raw) by (field; lra). nra.
    - destruct (Reqb_spec P 0); [lra|]. eexists. split; [reflexivity|]. field. lra. }
  destruct D as (dist & -> & ED). cbn [bind].
  assert (Hd : 0 < dist) by nra.
  assert (Q : forall a, 0 <= a <= dist -> P * (a * a) + 2 * a * gx <= raw).
  { intros a [a1 a2]. apply Rmult_le_reg_r with P; [easy|].
    assert (P * a <= t - gx) by nra. assert (0 <= P * a) by nra. nra. }
  destruct (Rleb_spec gHg 0) as [L|L].
  - exists dist, dist. splits; try easy; try lra.
  - unfold div. destruct (Reqb_spec gHg 0); [lra|]. cbn [bind]. exists (Rmin dist (G / gHg)), dist.
    assert (0 < G / gHg) by (apply Rdiv_lt_0_compat; lra).
    assert (E : G / gHg * gHg = G) by (field; lra).
    splits; try easy; try lra.
    + apply Rmin_glb_lt; lra.
    + apply Rmin_l.
    + intros _. apply Rle_trans with (G / gHg * gHg); [|lra]. apply Rmult_le_compat_r; [lra|apply Rmin_r].
    + unfold Rmin. destruct (Rle_dec dist (G / gHg)); lra.
Qed.

Definition constr (x gp : fvec) (i : nat) : R :=
  if Rltb 0 (gp i) then (upper i - x i) / gp i else (lower i - x i) / gp i.
Lemma constrained_step_spec x gp st :
  let '(sl, act) := tb_constrained_step n x gp lower upper st in
  sl <= st /\ (forall i, (i < n)%nat -> gp i <> 0 -> sl <= constr x gp i) /\
  match act with
  | None => sl = st
  | Some k => (k < n)%nat /\ gp k <> 0 /\ sl = constr x gp k
  end.
Proof.
  unfold tb_constrained_step.
  assert (Gn : forall m, let '(sl, act) := fold_left (tb_constr_one x gp lower upper) (seq 0 m) (st, None) in
    sl <= st /\ (forall i, (i < m)%nat -> gp i <> 0 -> sl <= constr x gp i) /\
    match act with None => sl = st | Some k => (k < m)%nat /\ gp k <> 0 /\ sl = constr x gp k end).
  { induction m as [|m IH].
    - simpl. splits; try easy. lra.
    - rewrite seq_S, fold_left_app. cbn [Nat.add]. cbn [fold_left].
      destruct (fold_left _ _ _) as [sl act]. destruct IH as (I1 & I2 & I3). unfold tb_constr_one.
      destruct (Reqb_spec (gp m) 0) as [Z|Z].
      + splits; [easy| |].
        * intros i Hi Hg. apply I2; [|easy]. destruct (Nat.eq_dec i m); [now subst|lia].
        * destruct act; [|easy]. intuition.
      + fold (constr x gp m). destruct (Rltb_spec (constr x gp m) sl) as [L|L].
        * splits; [lra| |lia|easy|easy].
          intros i Hi Hg. destruct (Nat.eq_dec i m) as [->|]; [lra|].
          specialize (I2 i ltac:(lia) Hg). lra.
        * splits; [easy| |].
          -- intros i Hi Hg. destruct (Nat.eq_dec i m) as [->|]; [lra|]. apply I2; [lia|easy].
          -- destruct act; [|easy]. intuition. }
  apply Gn.
Qed.

Record MI (s : tbs) : Prop := {
  mi_box : inbox (tb_x s);
  mi_bound : atbound (tb_x s) (tb_b s);
  mi_free : mdot n (tb_b s) (tb_x s) (tb_x s) <= tb_delta s;
  mi_delta : tb_delta s + fixedsq n (tb_b s) (tb_x s) = radius * radius;
  mi_track : tracked (tb_x s) (tb_g s) (tb_total s);
  mi_beta : tb_beta s <> 0 -> tb_gsq s = Some (mdot n (tb_b s) (tb_g s) (tb_g s)) /\
      mdot n (tb_b s) (tb_gp s) (tb_g s) = 0;
  mi_init : (tb_niter s <> 0)%nat -> exists v, tb_gsq0 s = Some v /\ 0 <= v
}.

Lemma constr_nonneg x gp i : inbox x -> (i < n)%nat -> gp i <> 0 -> 0 <= constr x gp i.
Proof.
  intros I Hi Z. specialize (I i Hi). unfold constr. destruct (Rltb_spec 0 (gp i)).
  - apply Rmult_le_pos; [lra|]. apply Rlt_le, Rinv_0_lt_compat. easy.
  - replace ((lower i - x i) / gp i) with ((x i - lower i) * / - gp i) by (field; lra).
    apply Rmult_le_pos; [lra|]. apply Rlt_le, Rinv_0_lt_compat. lra.
Qed.
Lemma constr_step x gp i a : inbox x -> (i < n)%nat -> 0 <= a -> (gp i <> 0 -> a <= constr x gp i) ->
  lower i <= fadd x (fscale a gp) i <= upper i.
Proof.
  intros I Hi Ha C. specialize (I i Hi). unfold fadd, fscale.
  destruct (Req_dec (gp i) 0) as [->|Z]; [lra|]. specialize (C Z). unfold constr in C.
  destruct (Rltb_spec 0 (gp i)) as [L|L].
  - apply (Rmult_le_compat_r (gp i)) in C; [|lra].
    replace ((upper i - x i) / gp i * gp i) with (upper i - x i) in C by (field; lra). nra.
  - apply (Rmult_le_compat_r (- gp i)) in C; [|lra].
    replace ((lower i - x i) / gp i * - gp i) with (x i - lower i) in C by (field; lra). nra.
Qed.
Lemma constr_hit x gp i : gp i <> 0 ->
  fadd x (fscale (constr x gp i) gp) i = if Rleb 0 (gp i) then upper i else lower i.
Proof.
  intros Z. unfold fadd, fscale, constr. destruct (Rltb_spec 0 (gp i)), (Rleb_spec 0 (gp i)); try lra; field; easy.
Qed.

Lemma tracked_step x g total gp a G gHg :
  tracked x g total -> fdot n gp g = - G -> fdot n gp (fmv n H gp) = gHg ->
  0 <= a -> 0 <= a * (G - / 2 * a * gHg) ->
  tracked (fadd x (fscale a gp)) (fadd g (fscale a (fmv n H gp))) (total + Rmax (a * (G - / 2 * a * gHg)) 0).
Proof.
  intros (T1 & T2 & T3) EG EH Ha Hp. rewrite Rmax_left by lra. split; [|split].
  - intros i Hi. unfold fadd at 1. rewrite (T1 i Hi). unfold fadd at 1 2. rewrite fmv_add, fmv_scale. unfold fscale. lra.
  - lra.
  - intros S. rewrite qval_move by easy. rewrite (T3 S), EH.
    replace (fdot n (fadd g0 (fmv n H x)) gp) with (- G).
    + field.
    + rewrite <- EG. rewrite fdot_comm. apply fdot_ext; [|easy]. intros i Hi. now apply T1.
Qed.

Lemma tb_pass_spec s : MI s -> exists o, tb_pass n H lower upper s = Ok o /\
  match o with TbStop _ s' => MI s' \/ (inbox (tb_x s') /\ atbound (tb_x s') (tb_b s') /\
      fsq n (tb_x s') <= radius * radius /\ tracked (tb_x s') (tb_g s') (tb_total s'))
  | TbNext s' => MI s' end.
Proof.
  intros M. unfold tb_pass. set (b := tb_b s).
  set (gp := fun i : nat => if free b i then if Reqb (tb_beta s) 0 then - tb_g s i
                  else tb_beta s * tb_gp s i - tb_g s i else 0).
  assert (Zgp : forall i, free b i = false -> gp i = 0) by (intros i E; unfold gp; now rewrite E).
  change (fdot n gp gp) with (fsq n gp). set (P := fsq n gp).
  destruct (Reqb_spec P 0) as [EP|EP]; [eexists; split; [reflexivity|now left]|].
  assert (HP : 0 < P) by (pose proof (fsq_nonneg n gp); unfold P in *; lra).
  set (G := mdot n b (tb_g s) (tb_g s)).
  assert (GP0 : mask b gp = gp) by now apply mask_zero_off.
  assert (Egp : fdot n gp (tb_g s) = - G /\ (if Reqb (tb_beta s) 0 then Some P else tb_gsq s) = Some G).
  { destruct (Reqb_spec (tb_beta s) 0) as [E|E].
    - split.
      + unfold G, mdot, fdot. rewrite <- bsum_opp. apply bsum_ext. intros i _. unfold gp.
        destruct (free b i); [|lra]. destruct (Reqb_spec (tb_beta s) 0); [lra|easy].
      + f_equal. unfold P, G, fsq, mdot, fdot. apply bsum_ext. intros i _. unfold gp.
        destruct (free b i); [|lra]. destruct (Reqb_spec (tb_beta s) 0); [lra|easy].
    - destruct (mi_beta s M E) as [E1 E2]. split; [|exact E1].
      transitivity (tb_beta s * mdot n b (tb_gp s) (tb_g s) - G); [|unfold b; rewrite E2; lra].
      unfold G, mdot, fdot. rewrite <- bsum_scal, <- bsum_minus. apply bsum_ext. intros i _. unfold gp.
      destruct (free b i); [|lra]. destruct (Reqb_spec (tb_beta s) 0); [easy|ring]. }
  destruct Egp as [Egp Egsq]. rewrite Egsq. cbn [get bind].
  assert (HG0 : 0 <= G) by apply mdot_nonneg.
  assert (Ei : exists v, (if (tb_niter s =? 0)%nat then Some G else tb_gsq0 s) = Some v /\ 0 <= v).
  { destruct (Nat.eqb_spec (tb_niter s) 0); [eauto|]. now apply (mi_init s M). }
  destruct Ei as (v & -> & Hv). cbn [get bind].
  set (mx := if Reqb (tb_beta s) 0 then _ else _).
  match goal with |- context [if ?c then Ok (TbStop false s) else _] => destruct c eqn:EC end;
    [eexists; split; [reflexivity|now left]|].
  assert (HG : 0 < G).
  { apply orb_false_iff in EC. destruct EC as [EC _]. apply Rleb_false in EC.
    assert (0 <= Rmin (/ 10 ^ 6 * v) (/ 10 ^ 18)); [|lra]. apply Rmin_glb.
    - apply Rmult_le_pos; [|easy]. apply Rlt_le, Rinv_0_lt_compat, pow_lt. lra.
    - apply Rlt_le, Rinv_0_lt_compat, pow_lt. lra. }
  clear EC. set (x := tb_x s) in *.
  set (raw := tb_delta s - mdot n b x x).
  destruct (Rleb_spec raw 0) as [Lr|Lr]; [eexists; split; [reflexivity|now left]|].
  apply Rnot_le_lt in Lr.
  set (hg := fmv n H gp). set (gx := mdot n b gp x). set (gHg := mdot n b gp hg).
  assert (EH : fdot n gp (fmv n H gp) = gHg) by (unfold gHg; rewrite mdot_mask, GP0; easy).
  destruct (unconstrained_step_spec raw G P gx gHg Lr HP HG) as (st & dist & -> & Hd & Hst & Q1 & Q2 & Q3).
  cbn [bind]. destruct (Rleb_spec st (/ 10 ^ 30)) as [L|L]; [eexists; split; [reflexivity|now left]|].
  pose proof (constrained_step_spec x gp st) as CS.
  destruct (tb_constrained_step n x gp lower upper st) as [sl act]. destruct CS as (C1 & C2 & C3).
  pose proof (mi_box s M) as Ibox. fold x in Ibox.
  assert (Hsl : 0 <= sl).
  { destruct act as [k|]; [|lra]. destruct C3 as (K1 & K2 & ->). now apply constr_nonneg. }
  assert (Emv : forall d : fvec, (if Rltb 0 sl then fadd x (fscale sl d) else x) = fadd x (fscale sl d)).
  { intros d. destruct (Rltb_spec 0 sl); [easy|]. replace sl with 0 by lra. now rewrite fadd_scale0. }
  assert (Emg : forall d : fvec, (if Rltb 0 sl then fadd (tb_g s) (fscale sl d) else tb_g s) = fadd (tb_g s) (fscale sl d)).
  { intros d. destruct (Rltb_spec 0 sl); [easy|]. replace sl with 0 by lra. now rewrite fadd_scale0. }
  rewrite Emv, Emg.
  assert (Hred : 0 <= sl * (G - / 2 * sl * gHg)).
  { apply Rmult_le_pos; [easy|]. destruct (Rle_lt_dec gHg 0) as [W|W]; [nra|]. specialize (Q2 W). nra. }
  assert (Ered : (if Rltb 0 sl then Rmax (sl * (G - / 2 * sl * gHg)) 0 else 0) = Rmax (sl * (G - / 2 * sl * gHg)) 0).
  { destruct (Rltb_spec 0 sl); [easy|]. replace sl with 0 by lra. rewrite Rmax_left; lra. }
  rewrite Ered. set (red := Rmax (sl * (G - / 2 * sl * gHg)) 0).
  set (x' := fadd x (fscale sl gp)). set (g' := fadd (tb_g s) (fscale sl hg)).
  assert (Tr : tracked x' g' (tb_total s + red)).
  { unfold x', g', red, hg. apply tracked_step; try easy. apply (mi_track s M). }
  assert (Ibox' : inbox x').
  { intros i Hi. apply constr_step; try easy. intros Z. now apply C2. }
  assert (Hfree : mdot n b x' x' <= tb_delta s).
  { unfold x'. rewrite mdot_move by easy. fold gx. change (fdot n gp gp) with P.
    specialize (Q1 sl ltac:(lra)). unfold raw in Q1. lra. }
  assert (Hfix : fixedsq n b x' = fixedsq n b x) by (apply fixedsq_move; easy).
  assert (Hab : forall i, (i < n)%nat -> free b i = false ->
            (b i = (-1)%Z /\ x' i = lower i) \/ (b i = 1%Z /\ x' i = upper i)).
  { intros i Hi F. assert (Ex : x' i = x i) by (unfold x', fadd, fscale; rewrite (Zgp i F); lra).
    rewrite Ex. pose proof (mi_bound s M i Hi) as A. fold b x in A. unfold free in F. apply Z.eqb_neq in F. tauto. }
  assert (Hinit : forall w : option R, exists v0, Some v = Some v0 /\ 0 <= v0) by (intros; eauto).
  destruct act as [k|].
  - destruct C3 as (K1 & K2 & K3).
    assert (Fk : free b k = true) by (destruct (free b k) eqn:F; [easy|]; now apply Zgp in F).
    set (vb := if Rleb 0 (gp k) then 1%Z else (-1)%Z).
    assert (Hvb : vb <> 0%Z) by (unfold vb; destruct (Rleb 0 (gp k)); easy).
    assert (AB' : atbound x' (upd b k vb)).
    { intros i Hi. destruct (Nat.eq_dec i k) as [->|Ne].
      - rewrite upd_same. right. unfold vb, x'. rewrite K3, constr_hit by easy.
        destruct (Rleb 0 (gp k)); [right|left]; easy.
      - rewrite upd_other by easy. destruct (free b i) eqn:F.
        + left. now apply Z.eqb_eq.
        + right. now apply Hab. }
    assert (Hf' : mdot n (upd b k vb) x' x' <= tb_delta s - x' k * x' k) by (rewrite mdot_upd by easy; lra).
    assert (Hd' : tb_delta s - x' k * x' k + fixedsq n (upd b k vb) x' = radius * radius).
    { rewrite fixedsq_upd by easy. rewrite Hfix. pose proof (mi_delta s M) as Md. fold b x in Md. lra. }
    match goal with |- context [TbStop true ?t] => set (s' := t) end.
    assert (M' : MI s').
    { split; cbn [tb_x tb_b tb_g tb_gp tb_total tb_delta tb_beta tb_niter tb_gsq tb_gsq0 s'].
      - exact Ibox'.
      - exact AB'.
      - exact Hf'.
      - exact Hd'.
      - exact Tr.
      - intros W. now elim W.
      - eauto. }
    destruct (Rleb_spec (tb_delta s - x' k * x' k) 0) as [D|D]; eexists; (split; [reflexivity|]); [left|]; exact M'.
  - subst sl.
    assert (AB' : atbound x' b).
    { intros i Hi. destruct (free b i) eqn:F; [left; now apply Z.eqb_eq|right; now apply Hab]. }
    assert (Hrad : fsq n x' <= radius * radius).
    { rewrite (fsq_split n b x'), Hfix. pose proof (mi_delta s M) as Md. fold b x in Md. lra. }
    destruct (Rleb_spec dist st) as [D|D].
    { eexists. split; [reflexivity|]. right. cbn [tb_x tb_b tb_g tb_total]. now splits. }
    match goal with |- context [if ?c then Ok (TbStop false ?t) else _] => destruct c end.
    { eexists. split; [reflexivity|]. right. cbn [tb_x tb_b tb_g tb_total]. now splits. }
    destruct (Rltb_spec 0 st); [|lra]. cbn [get bind]. unfold div. destruct (Reqb_spec G 0); [lra|]. cbn [bind].
    eexists. split; [reflexivity|].
    split; cbn [tb_x tb_b tb_g tb_gp tb_total tb_delta tb_beta tb_niter tb_gsq tb_gsq0]; try easy.
    + rewrite Hfix. apply (mi_delta s M).
    + intros _. split; [easy|]. unfold g'. rewrite mdot_mask, GP0, fdot_add_r, fdot_scale_r, Egp. unfold hg. rewrite EH.
      destruct (Q3 ltac:(lra)) as [_ ->]. lra.
    + eauto.
Qed.

Definition AI (x : fvec) (b : nat -> Z) (g : fvec) (total : R) : Prop :=
  inbox x /\ atbound x b /\ fsq n x <= radius * radius /\ tracked x g total.
Lemma MI_AI s : MI s -> AI (tb_x s) (tb_b s) (tb_g s) (tb_total s).
Proof.
  intros M. unfold AI. splits; try apply M. rewrite (fsq_split n (tb_b s)). pose proof (mi_free s M). pose proof (mi_delta s M). lra.
Qed.
Lemma tb_main_spec k : forall s, MI s -> exists alt s', tb_main k n H lower upper s = Ok (alt, s') /\
  AI (tb_x s') (tb_b s') (tb_g s') (tb_total s').
Proof.
  induction k as [|k IH]; intros s M; cbn [tb_main].
  - exists false, s. split; [easy|]. now apply MI_AI.
  - destruct (tb_pass_spec s M) as (o & -> & Q). cbn [bind]. destruct o as [a s'|s'].
    + exists a, s'. split; [easy|]. destruct Q as [Q|Q]; [now apply MI_AI|exact Q].
    + now apply IH.
Qed.

Lemma tb_init_MI : MI (tb_init n g0 lower upper radius).
Proof.
  assert (A : atbound fzero (tb_b (tb_init n g0 lower upper radius))).
  { intros i Hi. cbn [tb_init tb_b]. specialize (Hbox i Hi). unfold fzero.
    destruct (Rleb_spec (upper i) 0); cbn [andb].
    - destruct (Rleb_spec (g0 i) 0); [right; right; split; [easy|lra]|].
      destruct (Rleb_spec 0 (lower i)); [|now left]. cbn [andb]. destruct (Rleb 0 (g0 i)); [|now left].
      right; left; split; [easy|lra].
    - destruct (Rleb_spec 0 (lower i)); [|now left]. cbn [andb]. destruct (Rleb 0 (g0 i)); [|now left].
      right; left; split; [easy|lra]. }
  assert (Z1 : forall b, mdot n b fzero fzero = 0).
  { intros b. apply bsum_all_zero. intros i _. unfold fzero. destruct (free b i); lra. }
  assert (Z2 : forall b, fixedsq n b fzero = 0).
  { intros b. apply bsum_all_zero. intros i _. unfold fzero. destruct (free b i); lra. }
  split; try exact A; cbn [tb_init tb_x tb_b tb_g tb_gp tb_total tb_delta tb_beta tb_niter tb_gsq tb_gsq0].
  - intros i Hi. unfold fzero. now apply Hbox.
  - rewrite Z1. nra.
  - rewrite Z2. lra.
  - split; [|split].
    + intros i Hi. unfold fadd. rewrite fmv_zero. lra.
    + lra.
    + intros _. rewrite qval_fdot, !fdot_zero_r, fdot_zero_l. lra.
  - now intros [].
  - now intros [].
Qed.

(** * Rotations *)

Lemma cosine_sine t : cosine_of t * cosine_of t + sine_of t * sine_of t = 1.
Proof. unfold cosine_of, sine_of. field. nra. Qed.

Lemma rotate_lower l x s t : l <= 0 -> l < x -> 0 <= t ->
  (0 < x * x + s * s - l * l -> t * (sqrt (x * x + s * s - l * l) - s) <= x - l) ->
  l <= cosine_of t * x + sine_of t * s.
Proof.
  intros Hl Hx Ht C. destruct (Rlt_le_dec 0 (x * x + s * s - l * l)) as [D|D].
  - specialize (C D). set (r := sqrt (x * x + s * s - l * l)) in *.
    assert (R1 : r * r = x * x + s * s - l * l) by (apply sqrt_sqrt; lra).
    assert (R0 : 0 <= r) by apply sqrt_pos.
    assert (E1 : (t * r) * (t * r) <= (t * s + (x - l)) * (t * s + (x - l))).
    { assert (0 <= t * r) by nra. assert (t * r <= t * s + (x - l)) by lra. nra. }
    assert (E2 : (x - l) * (t * t * (x + l) - 2 * t * s - (x - l)) <= 0).
    { replace ((x - l) * (t * t * (x + l) - 2 * t * s - (x - l)))
        with (t * t * (x * x + s * s - l * l) - (t * s + (x - l)) * (t * s + (x - l))) by ring.
      rewrite <- R1. lra. }
    assert (E3 : t * t * (x + l) - 2 * t * s - (x - l) <= 0) by nra.
    assert (Hp : 0 < 1 + t * t) by nra.
    replace (cosine_of t * x + sine_of t * s) with (((1 - t * t) * x + 2 * t * s) / (1 + t * t))
      by (unfold cosine_of, sine_of; field; lra).
    apply Rmult_le_reg_r with (1 + t * t); [easy|].
    replace (((1 - t * t) * x + 2 * t * s) / (1 + t * t) * (1 + t * t)) with ((1 - t * t) * x + 2 * t * s) by (field; lra).
    nra.
  - pose proof (cosine_sine t) as E. set (c := cosine_of t) in *. set (w := sine_of t) in *.
    assert (Q : (c * x + w * s) * (c * x + w * s) <= l * l).
    { assert (Q0 : (c * x + w * s) * (c * x + w * s) + (c * s - w * x) * (c * s - w * x) = (c * c + w * w) * (x * x + s * s)) by ring.
      rewrite E in Q0. pose proof (Rle_0_sqr (c * s - w * x)) as Q1. unfold Rsqr in Q1. lra. }
    nra.
Qed.
Lemma rotate_hit l x s r : l < x -> r * r = x * x + s * s - l * l -> 0 < r - s ->
  cosine_of ((x - l) / (r - s)) * x + sine_of ((x - l) / (r - s)) * s = l.
Proof.
  intros Hx R1 Hs. set (t := (x - l) / (r - s)). assert (Et : t * (r - s) = x - l) by (unfold t; field; lra).
  assert (E2 : (x - l) * (t * t * (x + l) - 2 * t * s - (x - l)) = 0).
  { replace ((x - l) * (t * t * (x + l) - 2 * t * s - (x - l)))
      with (t * t * (x * x + s * s - l * l) - (t * s + (x - l)) * (t * s + (x - l))) by ring.
    rewrite <- R1, <- Et. ring. }
  assert (E3 : t * t * (x + l) - 2 * t * s - (x - l) = 0) by nra.
  assert (Hp : 0 < 1 + t * t) by nra. unfold cosine_of, sine_of.
  apply Rmult_eq_reg_r with (1 + t * t); [|lra].
  replace (((1 - t * t) / (1 + t * t) * x + 2 * t / (1 + t * t) * s) * (1 + t * t))
    with ((1 - t * t) * x + 2 * t * s) by (field; lra). nra.
Qed.
Lemma rotate_upper u x s t : 0 <= u -> x < u -> 0 <= t ->
  (0 < x * x + s * s - u * u -> t * (sqrt (x * x + s * s - u * u) + s) <= u - x) ->
  cosine_of t * x + sine_of t * s <= u.
Proof.
  intros Hu Hx Ht C. pose proof (rotate_lower (- u) (- x) (- s) t) as L.
  replace (- x * - x + - s * - s - - u * - u) with (x * x + s * s - u * u) in L by ring.
  assert (- u <= cosine_of t * - x + sine_of t * - s); [|lra]. apply L; [lra|lra|easy|].
  intros D. specialize (C D). replace (sqrt (x * x + s * s - u * u) - - s) with (sqrt (x * x + s * s - u * u) + s) by ring. lra.
Qed.
Lemma rotate_hit_upper u x s r : x < u -> r * r = x * x + s * s - u * u -> 0 < r + s ->
  cosine_of ((u - x) / (r + s)) * x + sine_of ((u - x) / (r + s)) * s = u.
Proof.
  intros Hx R1 Hs. pose proof (rotate_hit (- u) (- x) (- s) r) as L.
  replace (- x - - u) with (u - x) in L by ring. replace (r - - s) with (r + s) in L by ring.
  assert (cosine_of ((u - x) / (r + s)) * - x + sine_of ((u - x) / (r + s)) * - s = - u); [|lra].
  apply L; [lra| |lra]. rewrite R1. ring.
Qed.

(** * The bound on the tangent *)

Definition low_ok (x s : fvec) (t : R) (i : nat) : Prop :=
  lower i < x i < upper i /\
  (0 < x i * x i + s i * s i - lower i * lower i ->
     t * (sqrt (x i * x i + s i * s i - lower i * lower i) - s i) <= x i - lower i) /\
  (0 < x i * x i + s i * s i - upper i * upper i ->
     t * (sqrt (x i * x i + s i * s i - upper i * upper i) + s i) <= upper i - x i).
(** the active bound is hit exactly at the tangent [t] *)
Definition act_ok (x s : fvec) (b : nat -> Z) (t : R) (a : option (nat * Z)) : Prop :=
  match a with
  | None => True
  | Some (k, v) => (k < n)%nat /\ free b k = true /\
      ((v = (-1)%Z /\ cosine_of t * x k + sine_of t * s k = lower k) \/
       (v = 1%Z /\ cosine_of t * x k + sine_of t * s k = upper k))
  end.
Definition tn_ok (x s : fvec) (b : nat -> Z) (m : nat) (t : tangent) : Prop :=
  if tn_reached t then
    exists k v, tn_b t = upd b k v /\ (k < n)%nat /\ free b k = true /\
      ((v = (-1)%Z /\ x k = lower k) \/ (v = 1%Z /\ x k = upper k))
  else tn_b t = b /\ 0 < tn_bound t <= 1 /\
    (forall i, (i < m)%nat -> free b i = true -> low_ok x s (tn_bound t) i) /\
    act_ok x s b (tn_bound t) (tn_act t).

Lemma low_ok_smaller x s t t' i : 0 <= t' <= t -> low_ok x s t i -> low_ok x s t' i.
Proof.
  intros Ht (A & B & C). split; [easy|]. split; intros D.
  - specialize (B D). destruct (Rle_lt_dec (sqrt (x i * x i + s i * s i - lower i * lower i) - s i) 0); nra.
  - specialize (C D). destruct (Rle_lt_dec (sqrt (x i * x i + s i * s i - upper i * upper i) + s i) 0); nra.
Qed.

Lemma tn_one_spec x s b m t : inbox x -> (m < n)%nat -> tn_reached t = false -> tn_ok x s b m t ->
  exists t', tn_one x s lower upper m t = Ok t' /\ tn_ok x s b (S m) t'.
Proof.
  intros I Hm Hr T. unfold tn_ok in T. rewrite Hr in T. destruct T as (Eb & Hb & T & A).
  unfold tn_one. rewrite Eb. specialize (I m Hm).
  destruct (free b m) eqn:F.
  2:{ exists t. split; [easy|]. unfold tn_ok. rewrite Hr. splits; try easy.
      intros i Hi Fi. apply T; [|easy]. destruct (Nat.eq_dec i m); [congruence|lia]. }
  destruct (Rleb_spec (x m - lower m) 0) as [L|L].
  { eexists. split; [reflexivity|]. unfold tn_ok. cbn [tn_reached tn_b]. exists m, (-1)%Z. splits; try easy. left. split; [easy|lra]. }
  destruct (Rleb_spec (upper m - x m) 0) as [U|U].
  { eexists. split; [reflexivity|]. unfold tn_ok. cbn [tn_reached tn_b]. exists m, 1%Z. splits; try easy. right. split; [easy|lra]. }
  set (dl := x m * x m + s m * s m - lower m * lower m). set (du := x m * x m + s m * s m - upper m * upper m).
  (* lower part *)
  assert (L1 : exists t1, (if Rltb 0 dl then
          let* r := msqrt dl in
          if Rltb (x m - lower m) (tn_bound t * (r - s m)) then
            let* bd := div (x m - lower m) (r - s m) in
            Ok (mkTan b (Some (m, (-1)%Z)) (tn_nfixed t) bd false)
          else Ok t
        else Ok t) = Ok t1 /\
      tn_reached t1 = false /\ tn_b t1 = b /\ 0 < tn_bound t1 <= 1 /\ tn_bound t1 <= tn_bound t /\
      (0 < dl -> tn_bound t1 * (sqrt dl - s m) <= x m - lower m) /\ act_ok x s b (tn_bound t1) (tn_act t1)).
  { destruct (Rltb_spec 0 dl) as [D|D].
    - unfold msqrt. destruct (Rltb_spec dl 0); [lra|]. cbn [bind].
      destruct (Rltb_spec (x m - lower m) (tn_bound t * (sqrt dl - s m))) as [B|B].
      + assert (Hs : 0 < sqrt dl - s m) by nra. unfold div. destruct (Reqb_spec (sqrt dl - s m) 0); [lra|]. cbn [bind].
        eexists. split; [reflexivity|]. cbn [tn_reached tn_b tn_bound tn_act].
        assert (P : 0 < (x m - lower m) / (sqrt dl - s m)) by (apply Rdiv_lt_0_compat; lra).
        assert (E : (x m - lower m) / (sqrt dl - s m) * (sqrt dl - s m) = x m - lower m) by (field; lra).
        assert (LE : (x m - lower m) / (sqrt dl - s m) <= tn_bound t) by (apply Rmult_le_reg_r with (sqrt dl - s m); lra).
        splits; try easy; try lra. unfold act_ok. splits; try easy. left. split; [easy|].
        apply rotate_hit; [lra| |easy]. apply sqrt_sqrt. fold dl. lra.
      + exists t. splits; try easy; try lra.
    - exists t. splits; try easy; try lra. }
  destruct L1 as (t1 & -> & R1 & B1 & P1 & M1 & S1 & A1). cbn [bind]. rewrite B1.
  destruct (Rltb_spec 0 du) as [D|D].
  - unfold msqrt. destruct (Rltb_spec du 0); [lra|]. cbn [bind].
    destruct (Rltb_spec (upper m - x m) (tn_bound t1 * (sqrt du + s m))) as [B|B].
    + assert (Hs : 0 < sqrt du + s m) by nra. unfold div. destruct (Reqb_spec (sqrt du + s m) 0); [lra|]. cbn [bind].
      eexists. split; [reflexivity|]. unfold tn_ok. cbn [tn_reached tn_b tn_bound tn_act].
      assert (P : 0 < (upper m - x m) / (sqrt du + s m)) by (apply Rdiv_lt_0_compat; lra).
      assert (E : (upper m - x m) / (sqrt du + s m) * (sqrt du + s m) = upper m - x m) by (field; lra).
      assert (LE : (upper m - x m) / (sqrt du + s m) <= tn_bound t1) by (apply Rmult_le_reg_r with (sqrt du + s m); lra).
      splits; try easy; try lra.
      * intros i Hi Fi. destruct (Nat.eq_dec i m) as [->|Ne].
        -- split; [lra|]. fold dl du. split; [|lra]. intros Dl. specialize (S1 Dl).
           destruct (Rle_lt_dec (sqrt dl - s m) 0); nra.
        -- apply low_ok_smaller with (tn_bound t); [lra|]. apply T; [lia|easy].
      * unfold act_ok. splits; try easy. right. split; [easy|].
        apply rotate_hit_upper; [lra| |easy]. apply sqrt_sqrt. fold du. lra.
    + exists t1. split; [easy|]. unfold tn_ok. rewrite R1. splits; try easy; try lra.
      intros i Hi Fi. destruct (Nat.eq_dec i m) as [->|Ne].
      * split; [lra|]. fold dl du. split; [easy|lra].
      * apply low_ok_smaller with (tn_bound t); [lra|]. apply T; [lia|easy].
  - exists t1. split; [easy|]. unfold tn_ok. rewrite R1. splits; try easy; try lra.
    intros i Hi Fi. destruct (Nat.eq_dec i m) as [->|Ne].
    * split; [lra|]. fold dl du. split; [easy|lra].
    * apply low_ok_smaller with (tn_bound t); [lra|]. apply T; [lia|easy].
Qed.

Lemma tn_loop_spec x s b : inbox x -> forall k m t, (m + k = n)%nat -> tn_reached t = false -> tn_ok x s b m t ->
  exists t', tn_loop k m x s lower upper t = Ok t' /\ tn_ok x s b n t'.
Proof.
  intros I. induction k as [|k IH]; intros m t Hm Hr T; cbn [tn_loop].
  - exists t. split; [easy|]. now replace n with m by lia.
  - destruct (tn_one_spec x s b m t I ltac:(lia) Hr T) as (t' & -> & T'). cbn [bind].
    destruct (tn_reached t') eqn:R'.
    + exists t'. split; [easy|]. unfold tn_ok in *. now rewrite R' in *.
    + apply IH; [lia|easy|easy].
Qed.
Lemma tangent_spec x s b nf : inbox x ->
  exists t, tb_bound_on_tangent n x s b lower upper nf = Ok t /\ tn_ok x s b n t.
Proof.
  intros I. unfold tb_bound_on_tangent. apply tn_loop_spec; try easy.
  unfold tn_ok. cbn [tn_reached tn_b tn_bound tn_act]. splits; try easy; try lra.
Qed.

(** * The scan over the angles *)

Definition an_ok (red : nat -> R) (m : nat) (a : angles) : Prop :=
  0 <= an_max a /\ (forall i, (i < m)%nat -> red i <= an_max a) /\ an_old a <= an_max a /\
  match an_idx a with
  | None => True
  | Some k => (k < m)%nat /\ an_max a = red k /\ 0 < an_max a /\
      (exists p, an_prev a = Some p /\ p < an_max a) /\
      ((k < m - 1)%nat -> exists q, an_next a = Some q /\ q <= an_max a)
  end.
Lemma an_loop_spec red m : an_ok red m (an_loop red m).
Proof.
  unfold an_loop. induction m as [|m IH].
  - simpl. unfold an_ok. simpl. splits; try easy; try lra.
  - rewrite seq_S, fold_left_app. cbn [fold_left Nat.add]. set (a := fold_left _ _ _) in *. clearbody a.
    destruct IH as (I1 & I2 & I3 & I4). unfold an_one, an_ok.
    destruct (Rltb_spec (an_max a) (red m)) as [L|L].
    + cbn [an_max an_idx an_old an_prev an_next]. splits; try lra; try lia.
      * intros i Hi. destruct (Nat.eq_dec i m) as [->|]; [lra|]. specialize (I2 i ltac:(lia)). lra.
      * exists (an_old a). split; [easy|lra].
    + assert (L' : red m <= an_max a) by lra.
      assert (Hall : forall i, (i < S m)%nat -> red i <= an_max a).
      { intros i Hi. destruct (Nat.eq_dec i m) as [->|]; [easy|]. apply I2. lia. }
      destruct (an_idx a) as [k|].
      * destruct I4 as (K1 & K2 & K3 & K4 & K5). destruct (Nat.eqb_spec m (k + 1)) as [E|E];
          cbn [an_max an_idx an_old an_prev an_next]; splits; try easy; try lia.
        -- intros _. eauto.
        -- intros _. apply K5. lia.
      * destruct (m =? 0)%nat; cbn [an_max an_idx an_old an_prev an_next]; splits; easy.
Qed.

Lemma n_angles_ge bound : 0 < bound -> (3 <= n_angles bound)%nat.
Proof.
  intros Hb. unfold n_angles. assert (3 <= Int_part (17 * bound + 31 / 10))%Z; [|lia].
  destruct (base_Int_part (17 * bound + 31 / 10)) as [_ A].
  assert (2 < Int_part (17 * bound + 31 / 10))%Z; [|lia]. apply lt_IZR. lra.
Qed.

Lemma tangent_choice red bound a idx : 0 < bound <= 1 -> a = an_loop red (n_angles bound) -> an_idx a = Some idx ->
  exists tg, (if (idx =? n_angles bound - 1)%nat then div (bound * (INR (n_angles bound - 1) + 1)) (INR (n_angles bound))
                 else let* next := get (an_next a) in
                      let* prev := get (an_prev a) in
                      tb_update_tangent idx bound (n_angles bound) next prev (an_max a)) = Ok tg /\
    0 <= tg <= bound /\ ((idx =? n_angles bound - 1)%nat = true -> tg = bound).
Proof.
  intros Hb Ea Ei. pose proof (an_loop_spec red (n_angles bound)) as A. rewrite <- Ea in A.
  destruct A as (I1 & I2 & I3 & I4). rewrite Ei in I4. destruct I4 as (K1 & K2 & K3 & (p & Ep & Hp) & K5).
  pose proof (n_angles_ge bound ltac:(lra)) as N3. set (N := n_angles bound) in *. clearbody N.
  assert (HN : 3 <= INR N) by (apply le_INR in N3; simpl in N3; lra).
  unfold div. destruct (Nat.eqb_spec idx (N - 1)) as [E|E].
  - destruct (Reqb_spec (INR N) 0); [lra|]. eexists. split; [reflexivity|].
    replace (INR (N - 1) + 1) with (INR N) by (rewrite minus_INR by lia; simpl; lra).
    replace (bound * INR N / INR N) with bound by (field; lra). split; [lra|easy].
  - destruct (K5 ltac:(lia)) as (q & Eq & Hq). rewrite Eq, Ep. cbn [get bind]. unfold tb_update_tangent, div.
    destruct (Reqb_spec (2 * an_max a - p - q) 0); [lra|]. cbn [bind].
    destruct (Reqb_spec (INR N) 0); [lra|]. eexists. split; [reflexivity|].
    set (r := (q - p) / (2 * an_max a - p - q)).
    assert (Er : r * (2 * an_max a - p - q) = q - p) by (unfold r; field; lra).
    assert (Hr : -1 <= r <= 1) by nra.
    assert (Hi : 0 <= INR idx) by apply pos_INR.
    assert (Hi2 : INR idx + 2 <= INR N).
    { assert (idx + 2 <= N)%nat by lia. apply le_INR in H0. rewrite plus_INR in H0. simpl in H0. lra. }
    split; [|easy]. split.
    + apply Rmult_le_pos; [|apply Rlt_le, Rinv_0_lt_compat; lra]. apply Rmult_le_pos; lra.
    + apply Rmult_le_reg_r with (INR N); [lra|].
      replace (bound * (INR idx + 1 + / 2 * r) / INR N * INR N) with (bound * (INR idx + 1 + / 2 * r)) by (field; lra).
      apply Rmult_le_compat_l; lra.
Qed.

(** * One pass of the alternative step *)

Record LI (xred : R) (s : alt) : Prop := {
  li_ai : AI (al_x s) (al_b s) (al_g s) (al_total s);
  li_xred : xred = mdot n (al_b s) (al_x s) (al_x s);
  li_xgrad : al_xgrad s = mdot n (al_b s) (al_x s) (al_g s);
  li_gred : al_gred s = mdot n (al_b s) (al_g s) (al_g s);
  li_hred : feq n (al_hred s) (fmv n H (mask (al_b s) (al_x s)))
}.

Lemma atbound_upd x b k v : atbound x b ->
  ((v = (-1)%Z /\ x k = lower k) \/ (v = 1%Z /\ x k = upper k)) -> atbound x (upd b k v).
Proof.
  intros A V i Hi. destruct (Nat.eq_dec i k) as [->|Ne].
  - rewrite upd_same. right. destruct V as [[-> V]|[-> V]]; [left|right]; easy.
  - rewrite upd_other by easy. now apply A.
Qed.

Lemma direction_spec b x g xx xg gg root : xx = mdot n b x x -> xg = mdot n b x g -> gg = mdot n b g g ->
  0 < root -> root * root = gg * xx - xg * xg ->
  let d : fvec := fun i => if free b i then (xg * x i - xx * g i) / root else 0 in
  mdot n b x d = 0 /\ mdot n b d d = xx /\ mdot n b g d = - root.
Proof.
  intros E1 E2 E3 Hr Er d.
  assert (D : forall f, mdot n b f d = / root * (xg * mdot n b f x - xx * mdot n b f g)).
  { intros f. unfold mdot. rewrite <- (bsum_scal n xg), <- (bsum_scal n xx), <- bsum_minus, <- bsum_scal.
    apply bsum_ext. intros i _. unfold d. destruct (free b i); [field; lra|lra]. }
  rewrite !D, (mdot_comm n b d x), (mdot_comm n b d g), !D, (mdot_comm n b g x), <- E1, <- E2, <- E3.
  splits.
  - field. lra.
  - apply Rmult_eq_reg_r with (root * root); [|nra].
    replace (/ root * (xg * (/ root * (xg * xx - xx * xg)) - xx * (/ root * (xg * xg - xx * gg))) * (root * root))
      with (xx * (gg * xx - xg * xg)) by (field; lra). rewrite Er. ring.
  - apply Rmult_eq_reg_r with root; [|lra].
    replace (/ root * (xg * xg - xx * gg) * root) with (- (gg * xx - xg * xg)) by (field; lra). rewrite <- Er. ring.
Qed.

Lemma sine_cos1 t : cosine_of t - 1 = - t * sine_of t.
Proof. unfold cosine_of, sine_of. field. nra. Qed.

Lemma qval_rotate x g total xm d c w t sHs xHx xHs xg sn :
  tracked x g total -> fsymm n H ->
  fdot n g xm = xg -> fdot n g d = sn ->
  fdot n d (fmv n H d) = sHs -> fdot n xm (fmv n H xm) = xHx -> fdot n xm (fmv n H d) = xHs ->
  c = cosine_of t -> w = sine_of t ->
  qval n g0 H (fadd x (fadd (fscale (c - 1) xm) (fscale w d)))
  = - (total + tb_new_reduction t w sHs xHx xHs xg sn).
Proof.
  intros (T1 & _ & T3) S E1 E2 E3 E4 E5 -> ->.
  set (y := fadd (fscale (cosine_of t - 1) xm) (fscale (sine_of t) d)).
  transitivity (qval n g0 H (fadd x (fscale 1 y))).
  { f_equal. apply functional_extensionality. intros i. unfold fadd at 1 2, fscale at 1. ring. }
  rewrite qval_move by easy. rewrite (T3 S).
  replace (fdot n (fadd g0 (fmv n H x)) y) with (fdot n g y).
  2:{ apply fdot_ext; [|easy]. intros i Hi. now apply T1. }
  unfold y. rewrite fdot_add_r, !fdot_scale_r, E1, E2.
  rewrite fdot_fmv_add_r, !fdot_fmv_scale_r, !fdot_add_l, !fdot_scale_l, E3, E4, E5.
  rewrite (fdot_symm n d H xm S), E5, sine_cos1. unfold tb_new_reduction. field.
Qed.

Lemma tb_alt_pass_spec xred s : LI xred s -> exists o, tb_alt_pass n H lower upper xred s = Ok o /\
  match o with AltStop _ s' => AI (al_x s') (al_b s') (al_g s') (al_total s') | AltNext s' => LI xred s' end.
Proof.
  intros [(I & A & Rd & Tr) Exx Exg Egg Eh]. unfold tb_alt_pass.
  set (b := al_b s) in *. set (x := al_x s) in *. set (g := al_g s) in *.
  set (raw := al_gred s * xred - al_xgrad s * al_xgrad s).
  destruct (Rleb_spec raw (/ 10 ^ 4 * (al_total s * al_total s))) as [L|L].
  { eexists. split; [reflexivity|]. now unfold AI; splits. }
  assert (Hraw : 0 < raw).
  { assert (0 <= / 10 ^ 4 * (al_total s * al_total s)); [|lra].
    apply Rmult_le_pos; [|nra]. apply Rlt_le, Rinv_0_lt_compat, pow_lt. lra. }
  unfold msqrt. destruct (Rltb_spec raw 0); [lra|]. cbn [bind]. set (root := sqrt raw).
  assert (Hroot : 0 < root) by (apply sqrt_lt_R0; easy).
  assert (Er : root * root = raw) by (apply sqrt_sqrt; lra).
  destruct (Reqb_spec root 0); [lra|].
  set (dir := fun i : nat => if free b i then (al_xgrad s * x i - xred * g i) / root else 0).
  destruct (direction_spec b x g xred (al_xgrad s) (al_gred s) root Exx Exg Egg Hroot Er) as (D1 & D2 & D3).
  fold dir in D1, D2, D3.
  assert (Zd : forall i, free b i = false -> dir i = 0) by (intros i F; unfold dir; now rewrite F).
  assert (Md : mask b dir = dir) by now apply mask_zero_off.
  destruct (tangent_spec x dir b (al_nfixed s) I) as (t & -> & T). cbn [bind]. unfold tn_ok in T.
  destruct (tn_reached t).
  { destruct T as (k & v & E & Hk & Fk & V). eexists. split; [reflexivity|]. cbn [al_x al_b al_g al_total].
    unfold AI; splits; try easy. rewrite E. apply atbound_upd; easy. }
  destruct T as (Eb & Hb & T & Ac). rewrite Eb.
  set (hs := fmv n H dir). set (sHs := mdot n b dir hs). set (xHs := mdot n b x hs). set (xHx := mdot n b x (al_hred s)).
  set (red := fun i : nat => tb_new_reduction (tn_bound t * (INR i + 1) / INR (n_angles (tn_bound t))) _ sHs xHx xHs (al_xgrad s) (- root)).
  set (an := an_loop red (n_angles (tn_bound t))).
  destruct (an_idx an) as [idx|] eqn:Ei; [|eexists; split; [reflexivity|]; now unfold AI; splits].
  destruct (tangent_choice red (tn_bound t) an idx Hb eq_refl Ei) as (tg & -> & Htg & Elast). cbn [bind].
  destruct (Rleb_spec (tb_new_reduction tg (sine_of tg) sHs xHx xHs (al_xgrad s) (- root)) 0) as [Ln|Ln];
    [eexists; split; [reflexivity|]; now unfold AI; splits|].
  set (rd := tb_new_reduction tg (sine_of tg) sHs xHx xHs (al_xgrad s) (- root)) in *.
  set (c := cosine_of tg). set (w := sine_of tg). pose proof (cosine_sine tg) as CS. fold c w in CS.
  set (xm := mask b x).
  set (x' := fun i : nat => if free b i then c * x i + w * dir i else x i).
  set (g' := fadd g (fadd (fscale (c - 1) (al_hred s)) (fscale w hs))).
  assert (Ex' : x' = fadd x (fadd (fscale (c - 1) xm) (fscale w dir))).
  { apply functional_extensionality. intros i. unfold x', fadd, fscale, xm, mask. destruct (free b i) eqn:F; [ring|].
    rewrite (Zd i F). ring. }
  assert (I' : inbox x').
  { intros i Hi. unfold x'. destruct (free b i) eqn:F; [|now apply I].
    destruct (low_ok_smaller x dir (tn_bound t) tg i Htg (T i Hi F)) as (B1 & B2 & B3).
    specialize (Hbox i Hi). split; [apply rotate_lower|apply rotate_upper]; tauto || lra. }
  assert (AB0 : forall i, (i < n)%nat -> free b i = false ->
            (b i = (-1)%Z /\ x' i = lower i) \/ (b i = 1%Z /\ x' i = upper i)).
  { intros i Hi F. unfold x'. rewrite F. specialize (A i Hi). unfold free in F. apply Z.eqb_neq in F. tauto. }
  assert (AB' : atbound x' b).
  { intros i Hi. destruct (free b i) eqn:F; [left; now apply Z.eqb_eq|right; now apply AB0]. }
  assert (Sq : mdot n b x' x' = xred).
  { transitivity (c * c * mdot n b x x + 2 * (c * w) * mdot n b x dir + w * w * mdot n b dir dir).
    - unfold mdot. rewrite <- (bsum_scal n (c * c)), <- (bsum_scal n (2 * (c * w))), <- (bsum_scal n (w * w)), <- !bsum_plus.
      apply bsum_ext. intros i _. unfold x'. destruct (free b i); ring.
    - rewrite D1, D2, <- Exx. transitivity ((c * c + w * w) * xred); [ring|rewrite CS; ring]. }
  assert (Rd' : fsq n x' <= radius * radius).
  { rewrite (fsq_split n b x'), Sq. rewrite (fsq_split n b x) in Rd.
    replace (fixedsq n b x') with (fixedsq n b x); [lra|]. apply bsum_ext. intros i _. unfold x'. now destruct (free b i). }
  assert (Tr' : tracked x' g' (al_total s + rd)).
  { split; [|split].
    - intros i Hi. rewrite Ex'. unfold g'. unfold fadd at 1. destruct Tr as (T1 & _). rewrite (T1 i Hi).
      unfold fadd at 1 2 3. rewrite !fmv_add, !fmv_scale. unfold fscale. rewrite (Eh i Hi). unfold hs. fold xm. lra.
    - destruct Tr as (_ & T2 & _). lra.
    - intros S. rewrite Ex'. unfold rd. apply qval_rotate with (g := g); try easy.
      + unfold xm. rewrite Exg, mdot_comm, (mdot_comm n b g x), mdot_mask. apply fdot_comm.
      + rewrite <- D3, (mdot_comm n b g dir), mdot_mask, Md. apply fdot_comm.
      + unfold sHs, hs. now rewrite mdot_mask, Md.
      + unfold xHx. rewrite mdot_mask. fold xm. apply fdot_ext; [easy|]. intros i Hi. symmetry. now apply Eh.
      + unfold xHs, hs. now rewrite mdot_mask. }
  assert (Hm' : feq n (fadd (fscale c (al_hred s)) (fscale w hs)) (fmv n H (mask b x'))).
  { replace (mask b x') with (fadd (fscale c xm) (fscale w dir)).
    - intros i Hi. rewrite fmv_add, !fmv_scale. unfold fadd, fscale. rewrite (Eh i Hi). easy.
    - apply functional_extensionality. intros i. unfold mask, x', fadd, fscale, xm, mask.
      destruct (free b i) eqn:F; [ring|]. rewrite (Zd i F). ring. }
  assert (Stop : AI x' b g' (al_total s + rd)) by now unfold AI; splits.
  assert (Next : forall nf, LI xred (mkAlt x' b g' (al_total s + rd) nf (mdot n b x' g') (mdot n b g' g')
                   (fadd (fscale c (al_hred s)) (fscale w hs))))
    by (intros nf; split; cbn [al_x al_b al_g al_total al_xgrad al_gred al_hred]; try easy; symmetry; exact Sq).
  destruct (tn_act t) as [[k v]|].
  - destruct (idx =? n_angles (tn_bound t) - 1)%nat eqn:El.
    + specialize (Elast eq_refl). eexists. split; [reflexivity|]. cbn [al_x al_b al_g al_total].
      destruct Ac as (Hk & Fk & V).
      match goal with |- AI ?y _ _ _ => change y with x' end.
      unfold AI; splits; try easy. apply atbound_upd; [easy|].
      assert (Ek : x' k = cosine_of (tn_bound t) * x k + sine_of (tn_bound t) * dir k).
      { unfold x', c, w. rewrite Elast. destruct (free b k); easy. }
      now rewrite Ek.
    + match goal with |- context [if ?q then _ else _] => destruct q end; eexists; (split; [reflexivity|]); easy.
  - match goal with |- context [if ?q then _ else _] => destruct q end; eexists; (split; [reflexivity|]); easy.
Qed.

Lemma tb_alt_inner_spec xred k : forall s, LI xred s -> exists r s', tb_alt_inner k n H lower upper xred s = Ok (r, s') /\
  AI (al_x s') (al_b s') (al_g s') (al_total s').
Proof.
  induction k as [|k IH]; intros s L; cbn [tb_alt_inner].
  - exists false, s. split; [easy|apply L].
  - destruct (tb_alt_pass_spec xred s L) as (o & -> & Q). cbn [bind]. destruct o as [r s'|s']; eauto.
Qed.

(** the final vector *)
Definition final (y : fvec) : Prop :=
  inbox y /\ fsq n y <= radius * radius /\ (fsymm n H -> qval n g0 H y <= 0).
Lemma final_apply x b g total : AI x b g total -> final (tb_apply_bounds x b lower upper).
Proof.
  intros (I & A & Rd & (_ & T2 & T3)). pose proof (apply_bounds_id x b I A) as E. unfold final; splits.
  - intros i Hi. rewrite (E i Hi). now apply I.
  - now rewrite (fsq_ext n _ _ E).
  - intros S. replace (qval n g0 H (tb_apply_bounds x b lower upper)) with (qval n g0 H x).
    + rewrite (T3 S). lra.
    + rewrite !qval_fdot. f_equal; [|f_equal].
      * apply fdot_ext; [easy|]. intros i Hi. symmetry. now apply E.
      * apply fdot_fmv_ext; intros i Hi; symmetry; now apply E.
Qed.
Lemma tb_apply_twice x b : inbox x -> atbound x b ->
  feq n (tb_apply_bounds (tb_apply_bounds x b lower upper) b lower upper) (tb_apply_bounds x b lower upper).
Proof.
  intros I A. pose proof (apply_bounds_id x b I A) as E. apply apply_bounds_id.
  - intros i Hi. rewrite (E i Hi). now apply I.
  - intros i Hi. rewrite (E i Hi). now apply A.
Qed.
Lemma final_feq x y : feq n y x -> final x -> final y.
Proof.
  intros E (I & Rd & Q). unfold final; splits.
  - intros i Hi. rewrite (E i Hi). now apply I.
  - now rewrite (fsq_ext n _ _ E).
  - intros S. replace (qval n g0 H y) with (qval n g0 H x); [auto|].
    rewrite !qval_fdot. f_equal; [|f_equal].
    * apply fdot_ext; [easy|]. intros i Hi. symmetry. now apply E.
    * apply fdot_fmv_ext; intros i Hi; symmetry; now apply E.
Qed.

Lemma tb_alt_outer_spec inner k : forall x b g total nf, AI x b g total ->
  exists y, tb_alt_outer k inner n H lower upper x b g total nf = Ok y /\ final y.
Proof.
  induction k as [|k IH]; intros x b g total nf A; cbn [tb_alt_outer].
  - eexists. split; [reflexivity|]. eapply final_apply; eauto.
  - destruct (n <=? S nf)%nat.
    + eexists. split; [reflexivity|]. eapply final_feq; [|eapply final_apply; eauto].
      apply tb_apply_twice; apply A.
    + match goal with |- context [tb_alt_inner inner n H lower upper ?xr ?st] =>
        destruct (tb_alt_inner_spec xr inner st) as (r & s' & -> & Q) end.
      * split; cbn [al_x al_b al_g al_total al_xgrad al_gred al_hred]; easy.
      * cbn [bind]. destruct r; [now apply IH|]. eexists. split; [reflexivity|]. eapply final_apply; eauto.
Qed.

Theorem trsbox_spec : exists y, minimize_trust_trsbox n g0 H radius lower upper = Ok y /\ final y.
Proof.
  unfold minimize_trust_trsbox.
  destruct (tb_main_spec (100 * (n * n)) _ tb_init_MI) as (a & s & -> & A). cbn [bind]. destruct a.
  - now apply tb_alt_outer_spec.
  - eexists. split; [reflexivity|]. eapply final_apply; eauto.
Qed.
End Box.
