(** Properties C132 (geometry.py) and C133, C134 (exploration_sample.py). *)
From Coq Require Import Reals List Arith ZArith Bool Lia Lra Psatz Permutation.
From Verif Require Import Base XR Vec FVec VolumeModel RegionModel SubproblemModel GeometryModel
  Prop_Region.
Import ListNotations.
Open Scope R_scope.

(** * C132 *)

Lemma fdet_ext n : forall A B, (forall i j, (i < n)%nat -> (j < n)%nat -> A i j = B i j) -> fdet n A = fdet n B.
Proof.
  induction n as [|n IH]; intros A B H; [reflexivity|]. cbn [fdet]. apply bsum_ext. intros j Hj.
  rewrite H by lia. f_equal. apply IH. intros r c Hr Hc. unfold minor.
  apply H; [lia|]. destruct (c <? j)%nat; lia.
Qed.
Lemma fdet_scale n a : forall A, fdet n (fun i j => a * A i j) = a ^ n * fdet n A.
Proof.
  induction n as [|n IH]; intros A; [simpl; lra|]. cbn [fdet]. rewrite <- bsum_scal. apply bsum_ext. intros j Hj.
  change (minor (fun i j => a * A i j) j) with (fun r c => a * minor A j r c). rewrite IH. simpl pow. ring.
Qed.
Lemma ln_pow a n : 0 < a -> ln (a ^ n) = INR n * ln a.
Proof.
  intros Ha. induction n as [|n IH]; [simpl; rewrite ln_1; lra|].
  simpl pow. rewrite ln_mult by (auto; now apply pow_lt). rewrite IH, S_INR. lra.
Qed.

(** C132 - the result is the logarithm of the determinant of XᵀX, where the rows of X are the
    points of the sample in unit coordinates; minus infinity if the determinant is zero. *)
Theorem C132_log_of_determinant :
  forall sample reg, sample <> [] ->
    let X := fun r k => nth k (map_to_unit reg (nth r sample [])) 0 in
    let det := fdet (length (r_center reg)) (fun a b => bsum (length sample) (fun r => X r a * X r b)) in
    (0 < det -> log_d_quality_calculator sample reg = Fin (ln det)) /\
    (det = 0 -> log_d_quality_calculator sample reg = NInf).
Proof.
  intros sample reg NE X det. unfold log_d_quality_calculator.
  set (n := length sample). set (p := length (r_center reg)) in *.
  assert (Hn : 0 < INR n) by (apply lt_0_INR; unfold n; destruct sample; [easy|simpl; lia]).
  assert (E : fdet p (fun a b => xtx (map (map_to_unit reg) sample) a b / INR (length (map (map_to_unit reg) sample)))
              = (/ INR n) ^ p * det).
  { unfold det. rewrite <- fdet_scale. apply fdet_ext. intros a b _ _. rewrite map_length. fold n.
    unfold Rdiv. rewrite Rmult_comm. f_equal. unfold xtx. rewrite map_length. apply bsum_ext. intros r Hr.
    unfold X, fun_of. rewrite !(nth_indep (map (map_to_unit reg) sample) [] (map_to_unit reg [])) by now rewrite map_length.
    now rewrite !map_nth. }
  assert (NM : map (map_to_unit reg) sample <> []) by (destruct sample; easy).
  destruct (map (map_to_unit reg) sample) as [|pt pts] eqn:EM; [easy|]. clear NM.
  rewrite E. rewrite <- EM, map_length. fold n.
  assert (Q : 0 < (/ INR n) ^ p) by (apply pow_lt; now apply Rinv_0_lt_compat).
  split; intros D.
  - unfold xlog. destruct (Rltb_spec 0 (INR n)); [|easy].
    destruct (Rltb_spec 0 ((/ INR n) ^ p * det)) as [|W]; [|exfalso; apply W; now apply Rmult_lt_0_compat].
    cbn [xmul xadd]. f_equal. rewrite ln_mult by easy. rewrite ln_pow by now apply Rinv_0_lt_compat.
    rewrite ln_Rinv by easy. lra.
  - rewrite D, Rmult_0_r. unfold xlog. destruct (Rltb_spec 0 (INR n)); [|easy].
    destruct (Rltb_spec 0 0); [lra|]. destruct (Reqb_spec 0 0); [|lra]. reflexivity.
Qed.

Lemma bsum_nth_perm {A} (d : A) (f : A -> R) l k : Permutation l k ->
  bsum (length l) (fun r => f (nth r l d)) = bsum (length k) (fun r => f (nth r k d)).
Proof.
  assert (S : forall l, bsum (length l) (fun r => f (nth r l d)) = fold_right Rplus 0 (map f l)).
  { induction l0 as [|a l0 IH]; [reflexivity|]. simpl length. rewrite bsum_shift. simpl. now rewrite IH. }
  intros P. rewrite !S. clear S. induction P; simpl; lra.
Qed.

(** C132 - the order of the points does not matter. *)
Theorem C132_order_irrelevant :
  forall sample sample' reg, Permutation sample sample' ->
    log_d_quality_calculator sample reg = log_d_quality_calculator sample' reg.
Proof.
  intros s s' reg P. unfold log_d_quality_calculator.
  assert (P' : Permutation (map (map_to_unit reg) s) (map (map_to_unit reg) s')) by now apply Permutation_map.
  set (k := map (map_to_unit reg) s) in *. set (k' := map (map_to_unit reg) s') in *. clearbody k k'.
  assert (L : length k = length k') by now apply Permutation_length.
  assert (E : forall a b, xtx k a b = xtx k' a b).
  { intros a b. unfold xtx. exact (bsum_nth_perm [] (fun v => fun_of v a * fun_of v b) k k' P'). }
  destruct k as [|a k], k' as [|b k']; try discriminate; [reflexivity|].
  rewrite <- L. f_equal. f_equal. apply fdet_ext. intros i j _ _. now rewrite E.
Qed.

(** * C133 *)

(** Points of the unit cube, one row per point. *)
Definition unit_sampler (draw : sampler) : Prop :=
  forall m d n s, draw m d n = Ok s ->
    length s = n /\ forall row, In row s -> length row = d /\ forall q, In q row -> 0 <= q <= 1.

Definition finite_bound (b : option R) : res R := match b with Some r => Ok r | None => Err ValueError end.
Lemma finite_bounds_map l : mapM finite_bound (map Some l) = Ok l.
Proof. induction l as [|a l IH]; [reflexivity|]. simpl. now rewrite IH. Qed.
Lemma finite_bounds_inv b l : mapM finite_bound b = Ok l -> b = map Some l.
Proof.
  revert l; induction b as [|a b IH]; intros l H; simpl in H; [now injection H as <-|].
  destruct a as [r|]; [|discriminate]. cbn [finite_bound bind] in H.
  destruct (mapM finite_bound b) as [l'|]; [|discriminate]. injection H as <-. simpl. now rewrite (IH l').
Qed.
Lemma mapM_finite_err b e : mapM finite_bound b = Err e -> e = ValueError /\ In None b.
Proof.
  induction b as [|a b IH]; intros H; simpl in H; [discriminate|].
  destruct a as [r|]; cbn [finite_bound bind] in H; [|injection H as <-; split; [easy|now left]].
  destruct (mapM finite_bound b); [discriminate|]. injection H as <-. destruct IH as [-> ?]; [easy|]. split; [easy|now right].
Qed.

(** C133 - uniform samples: one row per requested point, all entries finite and within the
    bounds; consistent bounds are necessary. *)
Theorem C133_uniform_within_bounds :
  forall draw x lower upper n m s,
    unit_sampler draw -> length lower = length upper ->
    draw_exploration_sample draw x lower upper n Uniform m = Ok s ->
    exists lo up, lower = map Some lo /\ upper = map Some up /\
      (forall i l u, nth_error lo i = Some l -> nth_error up i = Some u -> l < u) /\
      length s = n /\
      forall row, In row s -> length row = length lower /\
        forall i v l u, nth_error row i = Some v -> nth_error lo i = Some l -> nth_error up i = Some u ->
          exists r, v = Fin r /\ l <= r <= u.
Proof.
  intros draw x lower upper n m s US LL H. unfold draw_exploration_sample in H.
  fold finite_bound in H.
  destruct (match m with OtherMethod => _ | _ => _ end); [|discriminate]. cbn [bind] in H.
  destruct (mapM finite_bound lower) as [lo|] eqn:E1; [|discriminate]. cbn [bind] in H.
  destruct (mapM finite_bound upper) as [up|] eqn:E2; [|discriminate]. cbn [bind] in H.
  destruct (draw m (length lo) n) as [q|] eqn:Eq; [|discriminate]. cbn [bind] in H.
  unfold qmc_scale in H. destruct (forallb _ q) eqn:E3; [|discriminate]. cbn [negb] in H.
  destruct (forallb _ (combine lo up)) eqn:E4; [|discriminate]. cbn [negb bind] in H. injection H as <-.
  apply finite_bounds_inv in E1, E2. exists lo, up. split; [easy|]. split; [easy|].
  destruct (US _ _ _ _ Eq) as [Ln U].
  assert (LU : length lo = length up) by (subst; now rewrite !map_length in LL).
  rewrite forallb_forall in E4. split; [|split].
  - intros i l u Hl Hu. specialize (E4 (l, u)). cbv beta iota in E4. apply Rltb_true. apply E4.
    clear -Hl Hu. revert i up Hl Hu. induction lo as [|a lo IH]; intros [|i] [|b up] Hl Hu; try discriminate; simpl in *.
    + left. congruence.
    + right. eapply IH; eauto.
  - now rewrite !map_length.
  - intros row Hr. apply in_map_iff in Hr as (row1 & <- & Hr). apply in_map_iff in Hr as (row0 & <- & Hr).
    destruct (U row0 Hr) as [Lr Ur]. split.
    { rewrite map_length, map2_length, combine_length. subst. rewrite map_length. lia. }
    intros i v l u Hv Hl Hu. rewrite nth_error_map in Hv.
    destruct (nth_error (map2 _ row0 (combine lo up)) i) as [r|] eqn:Er; [|discriminate]. injection Hv as <-.
    exists r. split; [easy|].
    assert (LT : In (l, u) (combine lo up)).
    { clear -Hl Hu. revert i up Hl Hu. induction lo as [|a lo IH]; intros [|i] [|b up] Hl Hu; try discriminate; simpl in *.
      - left. congruence.
      - right. eapply IH; eauto. }
    apply E4 in LT. apply Rltb_true in LT.
    assert (EX : exists t, nth_error row0 i = Some t /\ r = t * (u - l) + l).
    { clear -Er Hl Hu. revert i row0 up Er Hl Hu. induction lo as [|a lo IH]; intros [|i] [|t row0] [|b up] Er Hl Hu;
        try discriminate; simpl in *.
      - injection Hl as ->. injection Hu as ->. injection Er as <-. eauto.
      - eapply IH; eauto. }
    destruct EX as (t & Ht & ->). apply nth_error_In in Ht. apply Ur in Ht. nra.
Qed.

(** C133 - inconsistent bounds are rejected when sampling uniformly. *)
Theorem C133_uniform_rejects_inconsistent_bounds :
  forall draw x lo up n m i l u,
    length lo = length up -> nth_error lo i = Some l -> nth_error up i = Some u -> u <= l ->
    is_ok (draw_exploration_sample draw x (map Some lo) (map Some up) n Uniform m) = false.
Proof.
  intros draw x lo up n m i l u LL Hl Hu Hlu. unfold draw_exploration_sample. fold finite_bound.
  destruct (match m with OtherMethod => _ | _ => _ end); [|easy]. cbn [bind].
  rewrite !finite_bounds_map. cbn [bind]. destruct (draw m (length lo) n) as [q|]; [|easy]. cbn [bind].
  unfold qmc_scale. destruct (forallb _ q); [|easy]. cbn [negb].
  destruct (forallb _ (combine lo up)) eqn:E; [|easy]. exfalso.
  rewrite forallb_forall in E. assert (LT : In (l, u) (combine lo up)).
  { clear -Hl Hu. revert i up Hl Hu. induction lo as [|a lo IH]; intros [|i] [|b up] Hl Hu; try discriminate; simpl in *.
    - left. congruence.
    - right. eapply IH; eauto. }
  apply E in LT. apply Rltb_true in LT. lra.
Qed.

(** C133 - unknown methods and distributions and infinite bounds are rejected with ValueError,
    before anything is drawn. *)
Theorem C133_invalid_arguments :
  forall draw x lower upper n d m,
    m = OtherMethod \/ d = OtherDistribution \/ In None lower \/ In None upper ->
    draw_exploration_sample draw x lower upper n d m = Err ValueError.
Proof.
  intros draw x lower upper n d m H. unfold draw_exploration_sample. fold finite_bound.
  destruct m; try reflexivity; (destruct d; try reflexivity); cbn [bind];
  destruct H as [H|[H|H]]; try discriminate;
  (destruct (mapM finite_bound lower) as [lo|e] eqn:E1;
     [|destruct (mapM_finite_err _ _ E1) as [-> _]; reflexivity]);
  cbn [bind]; apply finite_bounds_inv in E1;
  (destruct (mapM finite_bound upper) as [up|e] eqn:E2;
     [|destruct (mapM_finite_err _ _ E2) as [-> _]; reflexivity]);
  apply finite_bounds_inv in E2; exfalso; subst;
  destruct H as [H|H]; apply in_map_iff in H as (? & ? & _); discriminate.
Qed.

Lemma triang_range q c loc scale : 0 <= q <= 1 -> 0 <= c <= 1 -> 0 < scale ->
  exists r, triang_ppf q (Fin c) loc scale = Fin r /\ loc <= r <= loc + scale.
Proof.
  intros Hq Hc Hs. unfold triang_ppf.
  destruct (Rleb_spec 0 c); [|lra]. destruct (Rleb_spec c 1); [|lra].
  destruct (Rltb_spec 0 scale); [|lra]. destruct (Rleb_spec 0 q); [|lra]. destruct (Rleb_spec q 1); [|lra].
  cbn [andb]. eexists. split; [reflexivity|].
  destruct (Rltb_spec q c).
  - assert (0 <= sqrt (c * q)) by apply sqrt_pos.
    assert (sqrt (c * q) <= 1) by (apply (Rle_trans _ (sqrt 1)); [|rewrite sqrt_1; lra]; apply sqrt_le_1_alt; apply (Rle_trans _ (1 * 1)); [apply Rmult_le_compat; lra|lra]). split; [|].
    all: match goal with H : 0 <= sqrt ?z, H' : sqrt ?z <= 1 |- _ => clear -H H' Hs; set (w := sqrt z) in *; clearbody w; nra end.
  - assert (0 <= sqrt ((1 - c) * (1 - q))) by apply sqrt_pos.
    assert (sqrt ((1 - c) * (1 - q)) <= 1) by (apply (Rle_trans _ (sqrt 1)); [|rewrite sqrt_1; lra]; apply sqrt_le_1_alt; apply (Rle_trans _ (1 * 1)); [apply Rmult_le_compat; lra|lra]). split; [|].
    all: match goal with H : 0 <= sqrt ?z, H' : sqrt ?z <= 1 |- _ => clear -H H' Hs; set (w := sqrt z) in *; clearbody w; nra end.
Qed.

(** C133 - triangular samples are finite and within the bounds if the start vector is.
    Missing: start vectors outside of the bounds and inconsistent bounds, for which NaN is
    returned (below). *)
Theorem C133_triangular_within_bounds_partial :
  forall draw x lo up n m s,
    unit_sampler draw ->
    length lo = length x -> length up = length x ->
    (forall i v l u, nth_error x i = Some v -> nth_error lo i = Some l -> nth_error up i = Some u ->
       l < u /\ l <= v <= u) ->
    draw_exploration_sample draw x (map Some lo) (map Some up) n Triangular m = Ok s ->
    length s = n /\
    forall row, In row s -> length row = length x /\
      forall i v l u, nth_error row i = Some v -> nth_error lo i = Some l -> nth_error up i = Some u ->
        exists r, v = Fin r /\ l <= r <= u.
Proof.
  intros draw x lo up n m s US L1 L2 B H. unfold draw_exploration_sample in H.
  fold finite_bound in H.
  destruct (match m with OtherMethod => _ | _ => _ end); [|discriminate]. cbn [bind] in H.
  rewrite !finite_bounds_map in H. cbn [bind] in H.
  destruct (draw m (length lo) n) as [q|] eqn:Eq; [|discriminate]. cbn [bind] in H. injection H as <-.
  destruct (US _ _ _ _ Eq) as [Ln U]. split; [now rewrite map_length|].
  intros row Hr. apply in_map_iff in Hr as (row0 & <- & Hr). destruct (U row0 Hr) as [Lr Ur]. split.
  { rewrite map2_length, !combine_length. lia. }
  intros i v l u Hv Hl Hu.
  assert (EX : exists t xi, nth_error row0 i = Some t /\ nth_error x i = Some xi /\
     v = triang_ppf t (xdiv (Fin (xi - l)) (Fin (u - l))) l (u - l)).
  { clear -Hv Hl Hu. revert i row0 x up Hv Hl Hu. induction lo as [|a lo IH]; intros [|i] [|t row0] [|xi x] [|b up] Hv Hl Hu;
        try discriminate; simpl in *.
    - injection Hl as ->. injection Hu as ->. injection Hv as <-. eauto.
    - eapply IH; eauto. }
  destruct EX as (t & xi & Ht & Hx & ->). destruct (B i xi l u Hx Hl Hu) as [B1 B2].
  apply nth_error_In in Ht. apply Ur in Ht.
  unfold xdiv. destruct (Reqb_spec (u - l) 0); [lra|].
  destruct (triang_range t ((xi - l) / (u - l)) l (u - l)) as (r & -> & Hr'); [easy| |lra|].
  - split.
    + apply Rmult_le_pos; [lra|]. apply Rlt_le, Rinv_0_lt_compat. lra.
    + apply Rmult_le_reg_r with (u - l); [lra|]. unfold Rdiv. rewrite Rmult_assoc, Rinv_l by lra. lra.
  - exists r. split; [easy|]. lra.
Qed.

(** C133 is false for the triangular distribution without that restriction: if the start vector
    is outside of the bounds, or the bounds are equal, NaN is returned and no error raised. *)
Theorem C133_triangular_nan_refuted :
  forall draw m n s, draw m 1%nat n = Ok s -> m <> OtherMethod -> unit_sampler draw ->
  forall x l u, l = u \/ x < l \/ u < x ->
    draw_exploration_sample draw [x] [Some l] [Some u] n Triangular m = Ok (repeat [NaN] n).
Proof.
  intros draw m n s Es Hm US x l u C. unfold draw_exploration_sample. cbn [mapM bind].
  replace (match m with OtherMethod => Err ValueError | _ => Ok tt end) with (Ok tt) by now destruct m.
  cbn [bind]. change (length [l]) with 1%nat. rewrite Es. cbn [bind]. f_equal.
  destruct (US _ _ _ _ Es) as [<- U].
  assert (E : forall q, triang_ppf q (xdiv (Fin (x - l)) (Fin (u - l))) l (u - l) = NaN).
  { intros q. unfold xdiv. destruct (Reqb_spec (u - l) 0) as [Z|NZ].
    - destruct (Reqb (x - l) 0); [reflexivity|]. now destruct (Rltb 0 (x - l)).
    - unfold triang_ppf. destruct (Rleb_spec 0 ((x - l) / (u - l))) as [A|]; [|reflexivity].
      destruct (Rleb_spec ((x - l) / (u - l)) 1) as [B|]; [|reflexivity].
      destruct (Rltb_spec 0 (u - l)) as [P|]; [|reflexivity]. exfalso.
      assert (A' : 0 * (u - l) <= (x - l) / (u - l) * (u - l)) by (apply Rmult_le_compat_r; lra).
      assert (B' : (x - l) / (u - l) * (u - l) <= 1 * (u - l)) by (apply Rmult_le_compat_r; lra).
      unfold Rdiv in *. rewrite Rmult_assoc, Rinv_l in A', B' by easy. lra. }
  clear Es. induction s as [|row s IH]; [reflexivity|]. cbn [map length repeat]. rewrite IH by (intros; apply U; now right).
  f_equal. destruct (U row (or_introl eq_refl)) as [L _]. destruct row as [|q [|? ?]]; try discriminate.
  cbn [map2 combine]. now rewrite E.
Qed.

(** * C134 *)

(** The start vectors of the multistart fallback (fallback_subsolvers.py:43-52). *)
Definition multistart_values (draw : sampler) (x_candidate : vec) : res (list (list xr)) :=
  draw_exploration_sample draw x_candidate (map (fun _ => Some (-1)) x_candidate)
    (map (fun _ => Some 1) x_candidate) 100 Uniform Sobol.

(** C134 - they are one hundred finite points of the cube, whatever the candidate is. *)
Theorem C134_multistart_values_in_cube :
  forall draw x s, unit_sampler draw -> multistart_values draw x = Ok s ->
    exists starts : list vec, s = map (map Fin) starts /\ length starts = 100%nat /\
      forall y, In y starts -> length y = length x /\ forall a, In a y -> -1 <= a <= 1.
Proof.
  intros draw x s US H. unfold multistart_values in H.
  assert (E1 : map (fun _ => Some (-1)) x = map Some (map (fun _ => -1) x)) by now rewrite map_map.
  assert (E2 : map (fun _ => Some 1) x = map Some (map (fun _ => 1) x)) by now rewrite map_map.
  assert (LL : length (map (fun _ : R => Some (-1)) x) = length (map (fun _ : R => Some 1) x))
    by now rewrite !map_length.
  set (n := 100%nat) in *. clearbody n.
  destruct (C133_uniform_within_bounds draw x (map (fun _ => Some (-1)) x) (map (fun _ => Some 1) x)
              n Sobol s US LL H) as (lo & up & Hlo & Hup & _ & Ln & IN). clear LL.
  rewrite E1 in Hlo. rewrite E2 in Hup.
  assert (INJ : forall a b : vec, map Some a = map Some b -> a = b).
  { induction a as [|p a IH]; intros [|q b] Q; try discriminate; [easy|]. injection Q as -> Q. f_equal. now apply IH. }
  apply INJ in Hlo, Hup. subst lo up. clear H INJ E1 E2. rewrite map_length in IN.
  revert n Ln IN. induction s as [|row s IH]; intros n Ln IN.
  - exists []. split; [easy|]. split; [now simpl in *|easy].
  - destruct n as [|n]; [discriminate|]. injection Ln as Ln.
    destruct (IH n Ln) as (st & -> & L & P); [intros; apply IN; now right|].
    destruct (IN row (or_introl eq_refl)) as [Lr V].
    assert (R : exists y, row = map Fin y /\ forall a, In a y -> -1 <= a <= 1).
    { clear -Lr V. revert x Lr V. induction row as [|v row IH]; intros [|c x] Lr V; try discriminate.
      - exists []. split; easy.
      - injection Lr as Lr. destruct (V 0%nat v (-1) 1 eq_refl eq_refl eq_refl) as (r & -> & Hr).
        destruct (IH x Lr) as (y & -> & Hy).
        { intros i v l u H1 H2 H3. apply (V (S i) v l u); easy. }
        exists (r :: y). split; [easy|]. intros a [<-|Ha]; [easy|now apply Hy]. }
    destruct R as (y & -> & Hy). exists (y :: st). split; [easy|]. split; [simpl; congruence|].
    intros z [<-|Hz]; [|now apply P]. split; [now rewrite map_length in Lr|easy].
Qed.

(** * Examples *)

(** Three points of the plane. *)
Example ex_C132 : let reg := mkRegion [0; 0] 1 None Sphere [-1; -1] [1; 1] in
  log_d_quality_calculator [[1; 0]; [0; 1]; [1; 1]] reg = Fin (ln 3).
Proof.
  intros reg. destruct (C132_log_of_determinant [[1; 0]; [0; 1]; [1; 1]] reg) as [H _]; [easy|].
  cbn in H.
  match type of H with 0 < ?d -> _ => assert (D : d = 3) by (unfold Rdiv; field) end.
  rewrite D in H. apply H. lra.
Qed.
(** A point and its multiple: determinant zero. *)
Example ex_C132_zero : let reg := mkRegion [0; 0] 1 None Sphere [-1; -1] [1; 1] in
  log_d_quality_calculator [[1; 2]; [2; 4]] reg = NInf.
Proof.
  intros reg. destruct (C132_log_of_determinant [[1; 2]; [2; 4]] reg) as [_ H]; [easy|].
  cbn in H. apply H. unfold Rdiv. field.
Qed.

(** A sampler that repeats the center of the cube. *)
Definition ex_draw : sampler := fun _ d n => Ok (repeat (repeat (1/2) d) n).
Example ex_unit_sampler : unit_sampler ex_draw.
Proof.
  intros m d n s [= <-]. split; [apply repeat_length|]. intros row H. apply repeat_spec in H as ->.
  split; [apply repeat_length|]. intros q H. apply repeat_spec in H as ->. lra.
Qed.
Example ex_C133 : exists r,
  draw_exploration_sample ex_draw [2] [Some 0] [Some 8] 2 Uniform Halton = Ok [[Fin 4]; [Fin 4]] /\
  draw_exploration_sample ex_draw [2] [Some 0] [Some 8] 1 Triangular Halton = Ok [[Fin r]] /\ 2 < r < 8.
Proof.
  exists (0 + (8 - 0) * (1 - sqrt ((1 - (2 - 0) / (8 - 0)) * (1 - 1 / 2)))). split; [|split].
  - unfold draw_exploration_sample, ex_draw. cbn [bind mapM length repeat]. unfold qmc_scale.
    cbn [forallb combine map map2]. destruct (Rleb_spec 0 (1/2)); [|lra]. destruct (Rleb_spec (1/2) 1); [|lra].
    destruct (Rltb_spec 0 8); [|lra]. cbn [andb negb bind map]. replace (1 / 2 * (8 - 0) + 0) with 4 by lra. reflexivity.
  - unfold draw_exploration_sample, ex_draw. cbn [bind mapM length repeat map map2 combine].
    unfold xdiv. destruct (Reqb_spec (8 - 0) 0); [lra|]. unfold triang_ppf.
    destruct (Rleb_spec 0 ((2 - 0) / (8 - 0))); [|lra]. destruct (Rleb_spec ((2 - 0) / (8 - 0)) 1); [|lra].
    destruct (Rltb_spec 0 (8 - 0)); [|lra]. destruct (Rleb_spec 0 (1/2)); [|lra]. destruct (Rleb_spec (1/2) 1); [|lra].
    cbn [andb]. destruct (Rltb_spec (1/2) ((2 - 0) / (8 - 0))); [lra|]. reflexivity.
  - replace ((1 - (2 - 0) / (8 - 0)) * (1 - 1 / 2)) with (3/8) by lra.
    assert (1/2 < sqrt (3/8) < 3/4).
    { split.
      - replace (1/2) with (sqrt (1/4)) by (apply sqrt_lem_1; lra). apply sqrt_lt_1; lra.
      - replace (3/4) with (sqrt (9/16)) by (apply sqrt_lem_1; lra). apply sqrt_lt_1; lra. }
    lra.
Qed.
Example ex_C134 : exists s, multistart_values ex_draw [3; 0] = Ok s /\ length s = 100%nat /\ hd [] s = [Fin 0; Fin 0].
Proof.
  unfold multistart_values, draw_exploration_sample, ex_draw. cbn [bind mapM map length].
  unfold qmc_scale. cbn [combine forallb].
  assert (F : forall n, forallb (forallb (fun u => Rleb 0 u && Rleb u 1)) (repeat (repeat (1/2) 2) n) = true).
  { assert (F0 : forallb (fun u => Rleb 0 u && Rleb u 1) (repeat (1/2) 2) = true).
    { cbn [repeat forallb]. destruct (Rleb_spec 0 (1/2)); [|lra]. destruct (Rleb_spec (1/2) 1); [|lra]. easy. }
    intros n. induction n as [|n IH]; [easy|].
    change (repeat (repeat (1/2) 2) (S n)) with (repeat (1/2) 2 :: repeat (repeat (1/2) 2) n).
    change (forallb (fun u => Rleb 0 u && Rleb u 1) (repeat (1/2) 2)
            && forallb (forallb (fun u => Rleb 0 u && Rleb u 1)) (repeat (repeat (1/2) 2) n) = true).
    now rewrite F0, IH. }
  rewrite F. destruct (Rltb_spec (-1) 1); [|lra]. cbn [negb andb bind]. eexists. split; [reflexivity|].
  split; [now rewrite !map_length, repeat_length|]. cbn [repeat map hd map2]. repeat f_equal; lra.
Qed.
