(** Properties C186-C188: the numba versions of the sphere solvers gqtpar and Steihaug-Toint, and
    the estimate of the smallest singular value. *)
From Coq Require Import Reals List Arith ZArith Bool Lia Lra Psatz.
From Verif Require Import Base XR Vec FVec RegionModel ModelsModel SubproblemModel Prop_Subproblem
  CgModel TrsboxModel GqtparModel GqtparProofs Prop_Cg Prop_Gqtpar Prop_Gqtpar2 GqtparFastModel.
Import ListNotations.
Open Scope R_scope.

Lemma pymax_Rmax a b : pymax a b = Rmax a b.
Proof.
  unfold pymax. destruct (Rltb a b) eqn:E; [apply Rltb_true in E|apply Rltb_false in E].
  - rewrite Rmax_right; lra.
  - rewrite Rmax_left; lra.
Qed.
Lemma pymin_Rmin a b : pymin a b = Rmin a b.
Proof.
  unfold pymin. destruct (Rltb b a) eqn:E; [apply Rltb_true in E|apply Rltb_false in E].
  - rewrite Rmin_right; lra.
  - rewrite Rmin_left; lra.
Qed.
Lemma diag_min_vmin n H : diag_min n H = vmin n (fun i => H i i).
Proof.
  induction n as [|n IH]; [easy|]. destruct n; [easy|].
  change (pymin (diag_min (S n) H) (H (S n) (S n)) = Rmin (vmin (S n) (fun i => H i i)) (H (S n) (S n))).
  now rewrite pymin_Rmin, IH.
Qed.
Lemma new_lambda_same lo hi : new_lambda_fast lo hi = new_lambda_candidate lo hi.
Proof. unfold new_lambda_fast, new_lambda_candidate. now rewrite !pymax_Rmax. Qed.

Lemma initial_same n g H :
  initial_lambdas_fast n g H =
  let l := initial_lambdas n g H in (l_cand l, l_lo l, l_hi l).
Proof.
  unfold initial_lambdas_fast, initial_lambdas. destruct (gershgorin n H) as (gl, gu). cbv zeta.
  cbn [l_cand l_lo l_hi]. now rewrite !pymax_Rmax, !pymin_Rmin, new_lambda_same, diag_min_vmin.
Qed.

Lemma singular_same n U M k : (1 <= k)%nat ->
  fst (singular_terms_fast n U M k) = fst (singular_terms n M U k) /\
  feq n (snd (singular_terms_fast n U M k)) (snd (singular_terms n M U k)).
Proof.
  intros K. unfold singular_terms_fast, singular_terms. cbn [fst snd]. split; [easy|].
  intros i Hi. destruct (Nat.eqb_spec k 1) as [->|Nk].
  - cbn [Nat.sub]. unfold upd, fzero. now destruct (Nat.eqb_spec i 0) as [->|].
  - destruct (Nat.ltb_spec i (k - 1)); [easy|]. unfold upd, fzero. easy.
Qed.

(** * The step to the sphere *)

(** The tie break of the model of gqtpar that the order of np.roots amounts to. *)
Definition tie_of (lower_first : R -> R -> R -> bool) (n : nat) : fvec -> fvec -> bool :=
  fun x z => lower_first (fdot n z z) (fdot n (fscale 2 x) z) (fdot n x x - 1).

Lemma smallest_step_same lf n x z : fsq n x < 1 -> 0 < fsq n z ->
  smallest_step_fast lf n x z = smallest_step_len (tie_of lf n) n x z.
Proof.
  intros Hx Hz. destruct (scalar_quadratic_ok n x z Hx Hz) as (ta & tb & E & (Na & Pb) & Q).
  unfold smallest_step_len, smallest_step_fast. rewrite E. cbn [bind].
  assert (Q0 := Q 0). assert (Q1 := Q 1).
  assert (P : forall t, fsq n (fadd x (fscale t z)) = fsq n x + t * (2 * fdot n x z) + t * t * fsq n z).
  { intros t. unfold fsq. rewrite fdot_add_l, !fdot_add_r, !fdot_scale_l, !fdot_scale_r.
    rewrite (fdot_comm n z x). ring. }
  rewrite P in Q0, Q1. unfold tie_of. fold (fsq n z) (fsq n x). rewrite fdot_scale_l.
  set (a := fsq n z) in *. set (b := 2 * fdot n x z) in *. set (c := fsq n x - 1) in *.
  assert (Ec : c = a * (ta * tb)) by (unfold c; nra).
  assert (Eb : b = - a * (ta + tb)) by nra.
  unfold np_roots. destruct (Reqb a 0) eqn:Ea; [apply Reqb_true in Ea; lra|].
  assert (D : b * b - 4 * a * c = (a * (tb - ta)) * (a * (tb - ta))) by (rewrite Eb, Ec; ring).
  unfold msqrt. rewrite D. destruct (Rltb _ 0) eqn:El; [apply Rltb_true in El; nra|]. cbn [bind].
  rewrite sqrt_square by nra.
  replace ((- b - a * (tb - ta)) / (2 * a)) with ta by (rewrite Eb; field; lra).
  replace ((- b + a * (tb - ta)) / (2 * a)) with tb by (rewrite Eb; field; lra).
  rewrite (Rmin_left ta tb), (Rmax_right ta tb) by lra.
  destruct (lf a b c); cbv beta iota.
  - destruct (Rleb (Rabs ta) (Rabs tb)) eqn:B; [apply Rleb_true in B|apply Rleb_false in B].
    + destruct (Rltb (Rabs tb) (Rabs ta)) eqn:B1; [apply Rltb_true in B1; lra|].
      now destruct (Rltb (Rabs ta) (Rabs tb)).
    + destruct (Rltb (Rabs tb) (Rabs ta)) eqn:B1; [easy|apply Rltb_false in B1; lra].
  - destruct (Rleb (Rabs tb) (Rabs ta)) eqn:B; [apply Rleb_true in B|apply Rleb_false in B].
    + destruct (Rltb (Rabs tb) (Rabs ta)) eqn:B1; [easy|].
      destruct (Rltb (Rabs ta) (Rabs tb)) eqn:B2; [apply Rltb_true in B2; lra|easy].
    + destruct (Rltb (Rabs tb) (Rabs ta)) eqn:B1; [apply Rltb_true in B1; lra|].
      destruct (Rltb (Rabs ta) (Rabs tb)) eqn:B2; [easy|apply Rltb_false in B2; lra].
Qed.

(** Two steps of equal length: the direction is orthogonal to the candidate. *)
Lemma step_tie tie1 tie2 n x z t1 t2 : fsq n x < 1 -> 0 < fsq n z ->
  smallest_step_len tie1 n x z = Ok t1 -> smallest_step_len tie2 n x z = Ok t2 ->
  t1 = t2 \/ (t2 = - t1 /\ fdot n x z = 0 /\ tie1 x z <> tie2 x z).
Proof.
  intros Hx Hz. destruct (scalar_quadratic_ok n x z Hx Hz) as (ta & tb & E & (Na & Pb) & Q).
  unfold smallest_step_len. rewrite E. cbn [bind].
  assert (Q0 := Q 0). assert (Q1 := Q 1).
  assert (P : forall t, fsq n (fadd x (fscale t z)) = fsq n x + t * (2 * fdot n x z) + t * t * fsq n z).
  { intros t. unfold fsq. rewrite fdot_add_l, !fdot_add_r, !fdot_scale_l, !fdot_scale_r.
    rewrite (fdot_comm n z x). ring. }
  rewrite P in Q0, Q1.
  destruct (Rltb (Rabs tb) (Rabs ta)) eqn:B1; [intros A B; left; congruence|].
  destruct (Rltb (Rabs ta) (Rabs tb)) eqn:B2; [intros A B; left; congruence|].
  apply Rltb_false in B1, B2. rewrite (Rabs_left ta), (Rabs_right tb) in B1, B2 by lra.
  assert (O : tb = - ta) by lra.
  assert (Z : fdot n x z = 0) by (subst tb; clear - Q0 Q1; nra).
  destruct (tie1 x z), (tie2 x z); intros A B; injection A as <-; injection B as <-;
    (now left) || (right; splits; [lra|easy|easy]).
Qed.

(** * One pass *)

(** The variables of gqtpar_fast as a state of gqtpar. *)
Definition of_fast (s : gqf) : gq :=
  mkGq (f_x s) (f_hpl s) (f_u s) (f_already s) (f_info s) (mkL (f_lam s) (f_lower s) (f_upper s)) (f_conv s).

(** The factor in use is one of H + c I for some c. *)
Definition factored (n : nat) (H : fmat) (s : gq) : Prop :=
  q_fact s = true -> q_info s = O /\ exists c, chol n (add_diag H c) = (q_u s, O).

Definition mapres {A B} (f : A -> B) (r : res A) : res B := match r with Ok a => Ok (f a) | Err e => Err e end.

Lemma within_same lf n H o x U hpl already lam lower upper info xs newton conv M :
  (0 < n)%nat -> fsymm n M -> chol n M = (U, O) -> fnorm n x < 1 ->
  update_within (tie_of lf n) n H o (mkGq xs hpl U already info (mkL lam lower upper) conv) x newton conv
  = mapres (fun '(x, hpl, already, lam, lower, upper, conv) =>
              mkGq x hpl U already info (mkL lam lower upper) conv)
      (update_within_fast lf n x H U hpl already lam lower newton o conv).
Proof.
  intros Ln S E Nx. pose proof (estimate_ok n M U Ln S E) as EO.
  unfold update_within, update_within_fast. cbn [q_lam q_u q_hpl q_info q_fact l_cand l_lo].
  destruct (estimate_smallest_singular_value n U) as (s_min, z) eqn:ES.
  destruct EO as (Z1 & _ & _).
  assert (Hx2 : fsq n x < 1). { rewrite <- fnorm_sqr. pose proof (fnorm_nonneg n x). nra. }
  rewrite smallest_step_same by (easy || lra).
  destruct (smallest_step_len (tie_of lf n) n x z) as [t|e]; [|easy]. cbn [bind].
  destruct (div (t * t * (s_min * s_min)) (fdot n (fvm n x hpl) x + lam)) as [r|e]; [|easy]. cbn [bind].
  rewrite !new_lambda_same, !pymax_Rmax.
  change (mat_plus H (mat_times newton eye)) with (add_diag H newton).
  destruct (Rleb r (k_hard o)); destruct (snd (chol n (add_diag H newton))) as [|k]; cbn [Nat.eqb mapres];
    rewrite ?orb_true_r, ?orb_false_r; easy.
Qed.

Lemma find_new_same lf n g H o U hpl already lam lower upper info xs conv M :
  (0 < n)%nat -> fsymm n M -> chol n M = (U, O) ->
  find_new_candidate (tie_of lf n) n g H o (mkGq xs hpl U already info (mkL lam lower upper) conv)
  = mapres (fun '(x, hpl, already, lam, lower, upper, conv) =>
              mkGq x hpl U already info (mkL lam lower upper) conv)
      (find_new_candidate_fast lf n g H U hpl already lam lower upper o conv).
Proof.
  intros Ln S E. unfold find_new_candidate, find_new_candidate_fast. cbv zeta.
  cbn [q_lam q_u q_hpl q_info q_fact q_conv l_cand l_hi].
  change newton_step_fast with newton_step.
  set (x := cho_solve n U (fopp g)).
  destruct (newton_step lam (fnorm n x) (fnorm n (fwd n U x))) as [newton|e]; [|easy]. cbn [bind].
  replace (conv || Rleb (fnorm n x) 1 && Reqb lam 0)%bool
    with (if (Rleb (fnorm n x) 1 && Reqb lam 0)%bool then true else conv)
    by (destruct (Rleb (fnorm n x) 1 && Reqb lam 0)%bool, conv; easy).
  set (cv := if (Rleb (fnorm n x) 1 && Reqb lam 0)%bool then true else conv).
  destruct (Rltb (fnorm n x) 1) eqn:B.
  - apply Rltb_true in B. rewrite <- (within_same lf n H o x U hpl already lam lower upper info xs newton cv M) by easy.
    easy.
  - cbn [mapres]. f_equal. f_equal. destruct (Rleb _ (k_easy o)), cv; easy.
Qed.

Lemma body_same lf n g H o s : (0 < n)%nat -> fsymm n H -> factored n H (of_fast s) ->
  mapres of_fast (gqf_body lf n g H o (fnorm n g) (INR n * EPS * inf_norm n H) s)
  = gq_pass (tie_of lf n) n g H o (of_fast s).
Proof.
  intros Ln Sy Fa. destruct s as [x hpl U al info lam lower upper conv].
  unfold factored, of_fast in Fa. cbn [q_fact q_info q_u f_already f_info f_u] in Fa.
  unfold gqf_body, gq_pass, factorize, of_fast.
  cbn [f_x f_hpl f_u f_already f_info f_lam f_lower f_upper f_conv q_x q_hpl q_u q_fact q_info q_lam q_conv l_cand l_lo l_hi].
  fold (zero_threshold n H). unfold add_lambda_and_factorize.
  change (mat_plus H (mat_times lam eye)) with (add_diag H lam).
  set (cur := if al then (false, hpl, U, info) else _).
  assert (C : exists hp u inf, cur = (false, hp, u, inf) /\
     (if al then mkGq x hpl U false info (mkL lam lower upper) conv
      else let (U0, info0) := chol n (add_diag H lam) in
           mkGq x (add_diag H lam) U0 false info0 (mkL lam lower upper) conv)
     = mkGq x hp u false inf (mkL lam lower upper) conv /\
     (inf = O -> exists c, chol n (add_diag H c) = (u, O))).
  { unfold cur. destruct al.
    - exists hpl, U, info. splits; try easy. intros _. now apply Fa.
    - destruct (chol n (add_diag H lam)) as (U0, info0) eqn:EC. exists (add_diag H lam), U0, info0.
      splits; try easy. intros ->. now exists lam. }
  destruct C as (hp & u & inf & -> & -> & Fc). cbn [q_info].
  destruct inf as [|k]; cbn [Nat.eqb andb].
  - destruct (Fc eq_refl) as (c & EC). pose proof (add_diag_symm n H c Sy) as Sc.
    destruct (Rltb (zero_threshold n H) (fnorm n g)) eqn:B.
    + rewrite (find_new_same lf n g H o u hp false lam lower upper O x conv (add_diag H c)) by easy.
      destruct (find_new_candidate_fast lf n g H u hp false lam lower upper o conv)
        as [((((((a1, a2), a3), a4), a5), a6), a7)|e]; easy.
    + apply Rltb_false in B. destruct (Rleb (fnorm n g) (zero_threshold n H)) eqn:B1;
        [|apply Rleb_false in B1; lra].
      unfold check_interior, check_interior_fast.
      cbn [q_x q_hpl q_u q_fact q_info q_lam q_conv l_cand l_lo l_hi].
      destruct (estimate_smallest_singular_value n u) as (sm, z). cbv zeta.
      replace (2 * 2 * (sm * sm)) with (4 * (sm * sm)) by ring.
      destruct (Reqb lam 0), (Rleb (4 * (sm * sm)) (k_hard o * lam)); cbn [mapres];
        rewrite new_lambda_same, pymax_Rmax, ?orb_true_r, ?orb_false_r; easy.
  - unfold update_unsuccessful, update_unsuccessful_fast. cbn [q_x q_hpl q_u q_fact q_info q_lam q_conv l_cand l_lo l_hi].
    destruct (singular_same n u hp (S k) ltac:(lia)) as (S1 & S2).
    destruct (singular_terms_fast n u hp (S k)) as (d1, v1). destruct (singular_terms n hp u (S k)) as (d2, v2).
    cbn [fst snd] in S1, S2. rewrite S1, (fnorm_ext n v1 v2 S2).
    destruct (div d2 (fnorm n v2 * fnorm n v2)) as [q|e]; [|easy]. cbn [bind mapres].
    now rewrite new_lambda_same, pymax_Rmax.
Qed.

(** * Two tie breaks: the passes differ at most in the sign of the last step *)

Definition twin (tie1 tie2 : fvec -> fvec -> bool) (n : nat) (g : fvec) (H : fmat) (s1 s2 : gq) : Prop :=
  s1 = s2 \/
  (q_conv s1 = true /\ q_conv s2 = true /\
   exists x c t z, feq n (fmv n (add_diag H c) x) (fopp g) /\ fdot n x z = 0 /\ tie1 x z <> tie2 x z /\
     q_x s1 = fadd x (fscale t z) /\ q_x s2 = fadd x (fscale (- t) z)).

Lemma pass_twin tie1 tie2 n g H o s : (0 < n)%nat -> fsymm n H -> factored n H s ->
  match gq_pass tie1 n g H o s, gq_pass tie2 n g H o s with
  | Ok s1, Ok s2 => twin tie1 tie2 n g H s1 s2 /\ factored n H s1
  | Err e1, Err e2 => e1 = e2
  | _, _ => False
  end.
Proof.
  intros Ln Sy Fa. unfold gq_pass. cbv zeta.
  assert (FI : q_fact (factorize n H s) = false /\
    (q_info (factorize n H s) = O -> exists c, chol n (add_diag H c) = (q_u (factorize n H s), O))).
  { unfold factorize. destruct (q_fact s) eqn:F.
    - cbn. splits; try easy. intros _. now destruct (Fa F).
    - destruct (chol n (add_diag H (l_cand (q_lam s)))) as (U, info) eqn:EC. cbn. splits; try easy.
      intros ->. now exists (l_cand (q_lam s)). }
  destruct FI as (F1 & FC). set (s1 := factorize n H s) in *. clearbody s1.
  destruct (q_info s1) eqn:EI.
  - destruct (FC eq_refl) as (c & EC). pose proof (add_diag_symm n H c Sy) as Sc.
    destruct (Rltb (zero_threshold n H) (fnorm n g)) eqn:B.
    + unfold find_new_candidate. cbv zeta. set (x := cho_solve n (q_u s1) (fopp g)).
      pose proof (cho_solve_ok n _ (q_u s1) (fopp g) Sc EC) as Hx. fold x in Hx.
      destruct (newton_step _ _ _) as [newton|e]; [|easy]. cbn [bind].
      destruct (Rltb (fnorm n x) 1) eqn:B1; [|split; [now left|intros Q; cbn in Q; congruence]].
      apply Rltb_true in B1. unfold update_within.
      pose proof (estimate_ok n _ (q_u s1) Ln Sc EC) as EO.
      destruct (estimate_smallest_singular_value n (q_u s1)) as (sm, z) eqn:ES. destruct EO as (Z1 & _ & _).
      assert (Hx2 : fsq n x < 1). { rewrite <- fnorm_sqr. pose proof (fnorm_nonneg n x). nra. }
      assert (Nz : exists i, (i < n)%nat /\ z i <> 0).
      { apply NNPP_exists. intros A. assert (fsq n z = 0); [|lra].
        apply bsum_all_zero. intros i Hi. rewrite (A i Hi). lra. }
      destruct (C69_smallest_step tie1 n x z B1 Nz) as (t1 & T1 & _).
      destruct (C69_smallest_step tie2 n x z B1 Nz) as (t2 & T2 & _).
      rewrite T1, T2. cbn [bind].
      assert (Zp : 0 < fsq n z) by lra.
      destruct (step_tie tie1 tie2 n x z t1 t2 Hx2 Zp T1 T2) as [<-|(-> & O & Nt)].
      * destruct (div _ _) as [r|e]; [|easy]. cbn [bind].
        destruct (snd (chol n (add_diag H newton))) eqn:En; (split; [now left|]);
          intros Q; cbn in Q |- *; [|congruence]. split; [easy|]. now exists c.
      * replace (- t1 * - t1) with (t1 * t1) by ring.
        destruct (div _ _) as [r|e]; [|easy]. cbn [bind].
        destruct (snd (chol n (add_diag H newton))) eqn:En;
          (split; [|intros Q; cbn in Q |- *; [(split; [easy|]; now exists c) || congruence]]).
        all: destruct (Rleb r (k_hard o)) eqn:Bh; [right|left; easy].
        all: cbn [q_conv q_x]; rewrite !orb_true_r; splits; try easy; exists x, c, t1, z; easy.
    + split; [now left|]. intros Q. unfold check_interior in Q.
      destruct (estimate_smallest_singular_value n (q_u s1)). cbn in Q. congruence.
  - unfold update_unsuccessful. destruct (singular_terms _ _ _ _) as (d, v).
    destruct (div _ _) as [q|e]; [|easy]. cbn [bind]. split; [now left|]. intros Q. cbn in Q. congruence.
Qed.

Lemma loop_twin tie1 tie2 n g H o k s : (0 < n)%nat -> fsymm n H -> factored n H s ->
  match gq_loop tie1 k n g H o s, gq_loop tie2 k n g H o s with
  | Ok s1, Ok s2 => twin tie1 tie2 n g H s1 s2
  | Err e1, Err e2 => e1 = e2
  | _, _ => False
  end.
Proof.
  intros Ln Sy. revert s. induction k as [|k IH]; intros s Fa; [now left|].
  cbn [gq_loop]. pose proof (pass_twin tie1 tie2 n g H o s Ln Sy Fa) as P.
  destruct (gq_pass tie1 n g H o s) as [s1|e1], (gq_pass tie2 n g H o s) as [s2|e2]; try easy.
  cbn [bind]. destruct P as ([<-|T] & F1).
  - destruct (q_conv s1); [now left|]. now apply IH.
  - pose proof T as (C1 & C2 & _). rewrite C1, C2. now right.
Qed.

Lemma pass_factored tie n g H o s s' : (0 < n)%nat -> fsymm n H -> factored n H s ->
  gq_pass tie n g H o s = Ok s' -> factored n H s'.
Proof.
  intros Ln Sy Fa E. pose proof (pass_twin tie tie n g H o s Ln Sy Fa) as P. rewrite E in P. easy.
Qed.

Lemma loop_same lf n g H o k s : (0 < n)%nat -> fsymm n H -> factored n H (of_fast s) ->
  mapres of_fast (gqf_loop lf k n g H o (fnorm n g) (INR n * EPS * inf_norm n H) s)
  = gq_loop (tie_of lf n) k n g H o (of_fast s).
Proof.
  intros Ln Sy. revert s. induction k as [|k IH]; intros s Fa; [easy|]. cbn [gqf_loop gq_loop].
  rewrite <- body_same by easy.
  pose proof (body_same lf n g H o s Ln Sy Fa) as B.
  destruct (gqf_body _ _ _ _ _ _ _ s) as [s1|e]; [|easy]. cbn [bind mapres] in *.
  change (q_conv (of_fast s1)) with (f_conv s1). destruct (f_conv s1); [easy|].
  apply IH. symmetry in B. now apply (pass_factored _ n g H o) in B.
Qed.

Lemma fast_same lf n g H x0 o maxiter : fsymm n H ->
  gqtpar_fast lf n g H x0 o maxiter = gqtpar (tie_of lf n) n g H x0 o maxiter.
Proof.
  intros Sy. unfold gqtpar_fast, gqtpar. destruct (Nat.eqb_spec n 0) as [|Ln]; [easy|].
  rewrite initial_same. cbv beta iota zeta.
  match goal with |- context [gqf_loop _ _ _ _ _ _ _ _ ?s] => set (s0 := s) end.
  assert (E0 : of_fast s0 = gq_init n g H x0).
  { unfold of_fast, gq_init, s0. cbn [f_x f_hpl f_u f_already f_info f_lam f_lower f_upper f_conv].
    now destruct (initial_lambdas n g H). }
  rewrite <- E0, <- loop_same; [|lia|easy|intros Q; easy].
  destruct (gqf_loop _ _ _ _ _ _ _ _ s0) as [s|e]; [|easy]. cbn [bind mapres].
  destruct (Nat.eqb maxiter 0); [easy|]. unfold of_fast. cbn [q_x q_conv]. f_equal. f_equal.
  f_equal. rewrite !fdot_fvm, fdot_scale_l. easy.
Qed.

(** The two ends of a chord through a stationary point of the damped model, orthogonal to it, have
    the same model value and norm. *)
Lemma mirror n g H x c t z : fsymm n H -> feq n (fmv n (add_diag H c) x) (fopp g) -> fdot n x z = 0 ->
  let y1 := fadd x (fscale t z) in let y2 := fadd x (fscale (- t) z) in
  fdot n g y1 + 1 / 2 * fdot n y1 (fmv n H y1) = fdot n g y2 + 1 / 2 * fdot n y2 (fmv n H y2) /\
  fnorm n y1 = fnorm n y2.
Proof.
  intros Sy E O y1 y2.
  assert (G : fdot n g z + fdot n z (fmv n H x) = 0).
  { transitivity (fdot n z (fun i => g i + fmv n H x i)).
    { rewrite (fdot_comm n g z). unfold fdot. rewrite <- bsum_plus. apply bsum_ext. intros; ring. }
    transitivity (fdot n z (fscale (- c) x)); [|rewrite fdot_scale_r, fdot_comm, O; ring].
    apply fdot_ext; [easy|]. intros i Hi. specialize (E i Hi). rewrite fmv_add_diag in E by easy.
    unfold fopp in E. unfold fscale. lra. }
  assert (Q : forall r, fdot n g (fadd x (fscale r z)) + 1 / 2 * fdot n (fadd x (fscale r z)) (fmv n H (fadd x (fscale r z)))
     = fdot n g x + 1 / 2 * fdot n x (fmv n H x) + 1 / 2 * (r * r) * fdot n z (fmv n H z)).
  { intros r. rewrite fdot_add_r, fdot_scale_r.
    assert (L : forall y, fdot n y (fmv n H (fadd x (fscale r z))) = fdot n y (fmv n H x) + r * fdot n y (fmv n H z)).
    { intros y. rewrite <- fdot_scale_r, <- fdot_add_r. apply fdot_ext; [easy|]. intros i Hi.
      unfold fmv, fadd, fscale. rewrite <- bsum_scal, <- bsum_plus. apply bsum_ext. intros; ring. }
    rewrite L, !fdot_add_l, !fdot_scale_l.
    replace (fdot n x (fmv n H z)) with (fdot n z (fmv n H x)) by now apply fdot_symm.
    nra. }
  split.
  - unfold y1, y2. rewrite !Q. ring.
  - unfold fnorm. f_equal. unfold y1, y2, fsq. rewrite !fdot_add_l, !fdot_add_r, !fdot_scale_l, !fdot_scale_r.
    rewrite (fdot_comm n z x), O. ring.
Qed.

(** C186 - gqtpar_fast against gqtpar, for every order in which np.roots may list two roots and
    every tie break of gqtpar: both fail with the same error or both return a result with the same
    model value, the same norm and the same success flag. *)
Theorem C186_same_value :
  forall lower_first tie n g H x0 o maxiter, fsymm n H ->
    match gqtpar_fast lower_first n g H x0 o maxiter, gqtpar tie n g H x0 o maxiter with
    | Ok r1, Ok r2 => g_criterion r1 = g_criterion r2 /\ fnorm n (g_x r1) = fnorm n (g_x r2) /\
                      g_success r1 = g_success r2
    | Err e1, Err e2 => e1 = e2
    | _, _ => False
    end.
Proof.
  intros lf tie n g H x0 o maxiter Sy. rewrite fast_same by easy. unfold gqtpar.
  destruct (Nat.eqb_spec n 0) as [|Ln]; [easy|].
  pose proof (loop_twin (tie_of lf n) tie n g H o maxiter (gq_init n g H x0) ltac:(lia) Sy ltac:(intros Q; easy)) as T.
  destruct (gq_loop (tie_of lf n) maxiter n g H o (gq_init n g H x0)) as [s1|e1],
    (gq_loop tie maxiter n g H o (gq_init n g H x0)) as [s2|e2]; try easy. cbn [bind].
  destruct (Nat.eqb maxiter 0); [easy|]. cbn [g_criterion g_x g_success].
  destruct T as [<-|(C1 & C2 & x & c & t & z & E & O & _ & X1 & X2)]; [easy|].
  destruct (mirror n g H x c t z Sy E O) as (M1 & M2).
  rewrite !fdot_fvm, X1, X2, C1, C2. easy.
Qed.

(** C186, the part that holds for the returned point - if np.roots lists the lower of two roots of
    equal size first, gqtpar_fast returns the result of gqtpar, which takes the lower one. *)
Theorem C186_same_point_partial :
  forall lower_first n g H x0 o maxiter, fsymm n H ->
    (forall a c, lower_first a 0 c = true) ->
    gqtpar_fast lower_first n g H x0 o maxiter = gqtpar (fun _ _ => true) n g H x0 o maxiter.
Proof.
  intros lf n g H x0 o maxiter Sy L. rewrite fast_same by easy. unfold gqtpar.
  destruct (Nat.eqb_spec n 0) as [|Ln]; [easy|].
  pose proof (loop_twin (tie_of lf n) (fun _ _ => true) n g H o maxiter (gq_init n g H x0)
    ltac:(lia) Sy ltac:(intros Q; easy)) as T.
  destruct (gq_loop (tie_of lf n) maxiter n g H o (gq_init n g H x0)) as [s1|e1],
    (gq_loop (fun _ _ => true) maxiter n g H o (gq_init n g H x0)) as [s2|e2]; try easy; [|cbn; congruence].
  destruct T as [<-|(_ & _ & x & c & t & z & _ & O & N & _)]; [easy|]. exfalso. apply N.
  unfold tie_of. rewrite fdot_scale_l, O, Rmult_0_r. apply L.
Qed.

(** ** Two runs that end at different points *)

Definition I2 : fmat := diag2 1 1.
Definition g186 : fvec := vec2 (- (65 / 100)) (65 / 100).

Lemma estimate_unit2 U : U 0%nat 0%nat = 1 -> U 0%nat 1%nat = 0 -> U 1%nat 1%nat = 1 ->
  exists s z, estimate_smallest_singular_value 2 U = (s, z) /\ z 0%nat = / sqrt 2 /\ z 1%nat = / sqrt 2 /\ s = 1.
Proof.
  intros E0 E1 E2.
  assert (Hw : fst (estimate_condition 2 2 U) 0%nat = 1 /\ fst (estimate_condition 2 2 U) 1%nat = 1).
  { cbn [estimate_condition Nat.sub bsum Nat.ltb Nat.leb Nat.add]. cbv zeta. unfold fzero. rewrite E0, E1.
    replace ((-1 - 0) / 1) with (-1) by field. replace ((1 - 0) / 1) with 1 by field.
    rewrite !Rmult_0_l, !Rplus_0_r, Rabs_R0, Rabs_R1. replace (Rabs (-1)) with 1 by (rewrite Rabs_left; lra).
    assert (B : Rleb 1 1 = true) by (apply Rleb_true; lra).
    rewrite ?Rplus_0_r, B. cbv beta iota. rewrite E1, E2, Rmult_0_l, !Rplus_0_r.
    replace ((-1 - 0) / 1) with (-1) by field. replace ((1 - 0) / 1) with 1 by field.
    rewrite Rabs_R1. replace (Rabs (-1)) with 1 by (rewrite Rabs_left; lra). rewrite B.
    cbn [fst]. unfold upd. cbn [Nat.eqb]. easy. }
  destruct Hw as (W0 & W1). unfold estimate_smallest_singular_value.
  set (w := fst (estimate_condition 2 2 U)) in *.
  assert (Hv : bwd 2 2 U w 0%nat = 1 /\ bwd 2 2 U w 1%nat = 1).
  { cbn [bwd Nat.sub bsum Nat.add]. unfold upd. cbn [Nat.eqb]. rewrite E0, E1, E2, W0, W1. split; field. }
  destruct Hv as (V0 & V1). set (v := bwd 2 2 U w) in *.
  assert (S2 : 0 < sqrt 2) by (apply sqrt_lt_R0; lra).
  assert (Nv : fnorm 2 v = sqrt 2) by (unfold fnorm; rewrite fsq_2, V0, V1; f_equal; lra).
  assert (Nw : fnorm 2 w = sqrt 2) by (unfold fnorm; rewrite fsq_2, W0, W1; f_equal; lra).
  eexists _, _. split; [reflexivity|]. unfold fscale. rewrite Nv, Nw, V0, V1. splits; field; lra.
Qed.

Lemma chol_unit2 : exists U, chol 2 (add_diag I2 0) = (U, O) /\
  U 0%nat 0%nat = 1 /\ U 0%nat 1%nat = 0 /\ U 1%nat 1%nat = 1.
Proof.
  assert (E00 : add_diag I2 0 0%nat 0%nat = 1) by (unfold add_diag, I2; cbn; lra).
  assert (E01 : add_diag I2 0 0%nat 1%nat = 0) by (unfold add_diag, I2; cbn; lra).
  assert (E11 : add_diag I2 0 1%nat 1%nat = 1) by (unfold add_diag, I2; cbn; lra).
  destruct (chol2 (add_diag I2 0)) as (U & E & U0 & U1 & U2); [rewrite ?E00, ?E01, ?E11; lra..|].
  exists U. rewrite E00 in U0, U1, U2. rewrite E01 in U1, U2. rewrite E11 in U2. rewrite sqrt_1 in U0, U1.
  splits; try easy; [rewrite U1; lra|]. rewrite U2. replace (1 - 0 * 0 / 1) with 1 by lra. apply sqrt_1.
Qed.

(** The run of gqtpar for the unit matrix and the gradient (-0.65, 0.65), default options: the
    first pass moves the Newton point (0.65, -0.65) along (1, 1) / sqrt 2 to the unit sphere. *)
Lemma run186 tie x0 k : exists r t,
  gqtpar tie 2 g186 I2 x0 default_gopts (S k) = Ok r /\ g_success r = true /\
  g_x r 0%nat = 65 / 100 + t * / sqrt 2 /\ g_x r 1%nat = - (65 / 100) + t * / sqrt 2 /\
  t * t = 31 / 200 /\
  ((forall x z, tie x z = true) -> t < 0) /\ ((forall x z, tie x z = false) -> 0 < t).
Proof.
  assert (S2 : 0 < sqrt 2) by (apply sqrt_lt_R0; lra).
  assert (Q2 : sqrt 2 * sqrt 2 = 2) by (apply sqrt_sqrt; lra).
  assert (Sy : fsymm 2 I2) by apply diag2_symm.
  assert (Gs : fsq 2 g186 = 169 / 200) by (rewrite fsq_2; cbn; lra).
  assert (Gn : fnorm 2 g186 < 1).
  { unfold fnorm. rewrite Gs, <- sqrt_1. apply sqrt_lt_1_alt. lra. }
  assert (Gp : 1 / 2 <= fnorm 2 g186).
  { unfold fnorm. rewrite Gs. rewrite <- (sqrt_square (1 / 2)) by lra. apply sqrt_le_1_alt. lra. }
  assert (Inf : inf_norm 2 I2 = 1) by (unfold I2; rewrite inf_diag2 by lra; rmm; lra).
  assert (Zt : zero_threshold 2 I2 <= / 1000000) by (apply zero_threshold_small; lra).
  assert (L0 : l_cand (initial_lambdas 2 g186 I2) = 0).
  { unfold initial_lambdas.
    assert (Ge : gershgorin 2 I2 = (1, 1)).
    { unfold gershgorin, row_sum. cbn [vmin vmax bsum]. unfold I2. cbn [diag2].
      rewrite !Rabs_R1, Rabs_R0. f_equal; rmm; lra. }
    assert (Ef : 1 <= fro_norm 2 I2).
    { unfold fro_norm. cbn [bsum]. unfold I2. cbn [diag2].
      apply Rle_trans with (sqrt 1); [rewrite sqrt_1; lra|]. apply sqrt_le_1_alt. lra. }
    rewrite Ge, Inf. cbv zeta.
    assert (Lo : Rmax (Rmax 0 (- vmin 2 (fun i => I2 i i))) (fnorm 2 g186 - Rmin (Rmin 1 (fro_norm 2 I2)) 1) = 0).
    { cbn [vmin]. unfold I2 at 1 2. cbn [diag2]. rmm; lra. }
    rewrite Lo. destruct (Reqb 0 0) eqn:B; [easy|apply Reqb_false in B; lra]. }
  destruct chol_unit2 as (U & EC & U0 & U1 & U2).
  pose proof (add_diag_symm 2 I2 0 Sy) as Sy'.
  assert (PD0 : posdef 2 (add_diag I2 0)) by (apply (factor_posdef _ _ U); now apply chol_ok).
  unfold gqtpar. cbn [Nat.eqb gq_loop]. rewrite pass_fresh by easy. cbv zeta.
  cbn [gq_init q_lam q_x q_conv]. rewrite L0, EC.
  destruct (Rltb _ _) eqn:B; [|apply Rltb_false in B; lra]. clear B.
  assert (Ex : feq 2 (cho_solve 2 U (fopp g186)) (vec2 (65 / 100) (- (65 / 100)))).
  { apply (solve_unique 2 (add_diag I2 0)); [easy|]. intros i Hi.
    rewrite (cho_solve_ok 2 (add_diag I2 0) _ (fopp g186) Sy' EC) by easy. unfold fopp.
    destruct i as [|[|i]]; [| |lia]; unfold fmv, add_diag, I2; cbn [bsum vec2 diag2 Nat.eqb g186]; lra. }
  destruct (newton_ok 2 (add_diag I2 0) U g186 0 ltac:(lia) Sy' EC ltac:(lra)) as (Px & Nw).
  unfold find_new_candidate. cbv zeta. cbn [q_lam q_u q_conv q_hpl q_fact q_info]. rewrite L0.
  set (xc := cho_solve 2 U (fopp g186)) in *.
  pose proof (Ex 0%nat ltac:(lia)) as X0. pose proof (Ex 1%nat ltac:(lia)) as X1. cbn [vec2] in X0, X1.
  destruct (exists_inverse 2 (add_diag I2 0) U xc Sy' EC) as (y & Hy). destruct (Nw y Hy) as (_ & En).
  assert (Xs : fsq 2 xc = 169 / 200) by (rewrite fsq_2, X0, X1; lra).
  assert (Nc : fnorm 2 xc < 1).
  { unfold fnorm. rewrite Xs, <- sqrt_1. apply sqrt_lt_1_alt. lra. }
  rewrite En. cbn [bind]. destruct (Rltb (fnorm 2 xc) 1) eqn:B1; [|apply Rltb_false in B1; lra].
  unfold update_within. cbn [q_lam q_u q_conv q_hpl q_fact q_info]. rewrite L0.
  destruct (estimate_unit2 U U0 U1 U2) as (s & z & -> & Z0 & Z1 & ->).
  assert (Zs : fsq 2 z = 1).
  { rewrite fsq_2, Z0, Z1. replace (/ sqrt 2 * / sqrt 2) with (/ (sqrt 2 * sqrt 2)) by (field; lra). rewrite Q2. lra. }
  assert (Hx2 : fsq 2 xc < 1) by lra. assert (Hz : 0 < fsq 2 z) by lra.
  destruct (scalar_quadratic_ok 2 xc z Hx2 Hz) as (ta & tb & Eq & (Na & Pb) & Q).
  assert (O : fdot 2 xc z = 0) by (unfold fdot; cbn [bsum]; rewrite X0, X1, Z0, Z1; ring).
  assert (P : forall t, fsq 2 (fadd xc (fscale t z)) = 169 / 200 + t * t).
  { intros t. unfold fsq. rewrite fdot_add_l, !fdot_add_r, !fdot_scale_l, !fdot_scale_r.
    rewrite (fdot_comm 2 z xc), O. fold (fsq 2 xc) (fsq 2 z). rewrite Xs, Zs. ring. }
  assert (T1 : tb = - ta) by (pose proof (Q 0) as A; pose proof (Q 1) as A'; rewrite P in A, A'; nra).
  assert (T2 : ta * ta = 31 / 200) by (pose proof (Q 0) as A; rewrite P, T1 in A; nra).
  assert (Et : exists t, smallest_step_len tie 2 xc z = Ok t /\ t * t = 31 / 200 /\
    ((forall x z, tie x z = true) -> t < 0) /\ ((forall x z, tie x z = false) -> 0 < t)).
  { unfold smallest_step_len. rewrite Eq. cbn [bind]. rewrite T1, Rabs_Ropp.
    destruct (Rltb (Rabs ta) (Rabs ta)) eqn:BB; [apply Rltb_true in BB; lra|].
    destruct (tie xc z) eqn:Ti.
    - exists ta. splits; try easy. intros A. rewrite A in Ti. easy.
    - exists (- ta). splits; try easy; [lra|intros A; rewrite A in Ti; easy|intros _; lra]. }
  destruct Et as (t & -> & Tt & Tl & Tr). cbn [bind].
  assert (Qf : fdot 2 (fvm 2 xc (add_diag I2 0)) xc = 169 / 200).
  { rewrite fdot_fvm. unfold fdot, fmv, add_diag, I2. cbn [bsum diag2 Nat.eqb]. rewrite X0, X1. lra. }
  rewrite Qf, Tt. unfold div. destruct (Reqb _ 0) eqn:B2; [apply Reqb_true in B2; lra|]. cbn [bind].
  destruct (Rleb _ (k_hard default_gopts)) eqn:B3; [|apply Rleb_false in B3; cbn [k_hard default_gopts] in B3; lra].
  set (nw := 0 + _). rewrite !orb_true_r.
  destruct (snd (chol 2 (add_diag I2 nw))); cbn [bind q_conv];
    (eexists _, t; split; [reflexivity|]; cbn [g_x g_success q_x]; unfold fadd, fscale;
     rewrite X0, X1, Z0, Z1; splits; easy).
Qed.

(** C186, the returned point - with an order of np.roots that lists the greater of two opposite
    roots first gqtpar_fast returns another point than gqtpar, with the default options. *)
Theorem C186_same_point_refuted :
  exists lower_first n g H x0, fsymm n H /\
    forall k, exists r1 r2,
      gqtpar_fast lower_first n g H x0 default_gopts (S k) = Ok r1 /\
      gqtpar (fun _ _ => true) n g H x0 default_gopts (S k) = Ok r2 /\
      g_success r1 = true /\ g_success r2 = true /\ g_criterion r1 = g_criterion r2 /\
      1 / 2 < g_x r1 0%nat - g_x r2 0%nat.
Proof.
  exists (fun _ _ _ => false), 2%nat, g186, I2, fzero.
  assert (Sy : fsymm 2 I2) by apply diag2_symm. split; [easy|]. intros k.
  destruct (run186 (tie_of (fun _ _ _ => false) 2) fzero k) as (r1 & t1 & E1 & C1 & X1 & _ & T1 & _ & P1).
  destruct (run186 (fun _ _ => true) fzero k) as (r2 & t2 & E2 & C2 & X2 & _ & T2 & P2 & _).
  pose proof (C186_same_value (fun _ _ _ => false) (fun _ _ => true) 2 g186 I2 fzero default_gopts (S k) Sy) as V.
  exists r1, r2. rewrite fast_same in V |- * by easy. rewrite E1, E2 in V.
  splits; try easy. rewrite X1, X2.
  assert (A : 0 < t1) by (apply P1; easy). assert (B : t2 < 0) by (apply P2; easy).
  assert (S2 : 0 < sqrt 2) by (apply sqrt_lt_R0; lra).
  assert (Q2 : sqrt 2 * sqrt 2 = 2) by (apply sqrt_sqrt; lra).
  assert (L2 : sqrt 2 < 3 / 2) by nra.
  assert (t2 = - t1) by nra. subst t2.
  assert (39 / 100 < t1) by nra.
  assert (I : sqrt 2 * / sqrt 2 = 1) by (field; lra).
  assert (2 / 3 < / sqrt 2) by nra. nra.
Qed.

(** The hypotheses of C186 are met by the same data. *)
Example C186_instance : forall k, exists r,
  gqtpar_fast (fun _ b _ => Reqb b 0) 2 g186 I2 fzero default_gopts (S k) = Ok r /\ g_success r = true /\
  g_x r 0%nat < 1 / 2.
Proof.
  intros k. assert (Sy : fsymm 2 I2) by apply diag2_symm.
  rewrite C186_same_point_partial; [|easy|].
  - destruct (run186 (fun _ _ => true) fzero k) as (r & t & E & C & X & _ & T & P & _).
    exists r. splits; try easy. rewrite X. assert (B : t < 0) by (apply P; easy).
    assert (S2 : 0 < sqrt 2) by (apply sqrt_lt_R0; lra).
    assert (Q2 : sqrt 2 * sqrt 2 = 2) by (apply sqrt_sqrt; lra).
    assert (L2 : sqrt 2 < 3 / 2) by nra.
    assert (t < - (39 / 100)) by nra.
    assert (I : sqrt 2 * / sqrt 2 = 1) by (field; lra).
    assert (2 / 3 < / sqrt 2) by nra. nra.
  - intros a c. apply Reqb_true. easy.
Qed.

(** * C187 *)

(** C187 - the numba version of Steihaug-Toint returns a vector exactly when minimize_trust_stcg
    does, and the same one.  (Where a division by zero stops the model, the numba version raises
    and numpy continues with NaN.) *)
Theorem C187_stcg_fast_same_result :
  forall pinv n g H radius x,
    minimize_trust_stcg_fast pinv n g H radius = Ok x <-> minimize_trust_stcg pinv n g H radius = Ok x.
Proof.
  intros pinv n g H radius x.
  assert (E : minimize_trust_stcg_fast pinv n g H radius = minimize_trust_stcg pinv n g H radius).
  { unfold minimize_trust_stcg_fast, minimize_trust_stcg. cbv zeta.
    set (a := / 10 ^ 5 * _). set (b := / 10 ^ 50).
    replace (if Rleb b a then a else b) with (Rmax a b); [easy|].
    destruct (Rleb b a) eqn:B; [apply Rleb_true in B; apply Rmax_left; lra|].
    apply Rleb_false in B. apply Rmax_right. lra. }
  now rewrite E.
Qed.

(** Gradient -1, Hessian 2, radius 1: both return 1/2. *)
Example C187_instance : exists x,
  minimize_trust_stcg_fast (fun _ _ _ _ => 1 / 2) 1 (fun _ => -1) (fun _ _ => 2) 1 = Ok x /\ x 0%nat = 1 / 2.
Proof.
  unfold minimize_trust_stcg_fast. cbv zeta.
  set (r := fopp (fun _ => -1)). assert (R0 : r 0%nat = 1) by (unfold r, fopp; lra).
  assert (RR : fdot 1 r r = 1) by (unfold fdot; cbn [bsum]; rewrite R0; lra). rewrite RR, sqrt_1.
  assert (T5 : / 10 ^ 5 < 1 / 2 /\ 0 < / 10 ^ 5).
  { split; [|apply Rinv_0_lt_compat; lra]. apply (Rmult_lt_reg_r (10 ^ 5)); [lra|]. rewrite Rinv_l; lra. }
  assert (T50 : / 10 ^ 50 <= / 10 ^ 5) by (apply Rinv_le_contravar; lra).
  destruct (Rleb (/ 10 ^ 50) (/ 10 ^ 5 * 1)) eqn:B; [|apply Rleb_false in B; lra].
  set (tol := / 10 ^ 5 * 1). assert (Tl : 0 < tol < 1 / 2) by (unfold tol; lra).
  unfold st_check at 1. destruct (Rleb 1 tol) eqn:B1; [apply Rleb_true in B1; lra|].
  destruct (Rleb (10000 * 1) 1) eqn:B2; [apply Rleb_true in B2; lra|].
  set (z := fmv 1 (fun _ _ => 1 / 2) r).
  assert (P0 : fmv 1 (fun _ _ => 2) z 0%nat = 1) by (unfold z, fmv; cbn [bsum]; rewrite R0; lra).
  set (p := fmv 1 (fun _ _ => 2) z) in *.
  assert (K : fdot 1 p (fmv 1 (fun _ _ => 2) p) = 2) by (unfold fdot, fmv; cbn [bsum]; rewrite P0; lra).
  assert (NP : fdot 1 p p = 1) by (unfold fdot; cbn [bsum]; rewrite P0; lra).
  rewrite K, NP. destruct (Rleb 2 0) eqn:B3; [apply Rleb_true in B3; lra|]. cbn [bind].
  replace (Nat.min 1 (Z.to_nat 10000)) with 1%nat by (apply eq_sym, Nat.min_l; apply (Z2Nat.inj_le 1 10000); lia).
  cbn [st_loop]. unfold st_step.
  cbn [st_x st_res st_p st_rz st_kappa st_dp st_norm_d st_norm_p st_conv st_div st_iter]. cbv zeta.
  unfold div at 1. destruct (Reqb 2 0) eqn:B4; [apply Reqb_true in B4; lra|]. cbn [bind].
  destruct (Rleb (1 * 1) (0 + 1 / 2 * (2 * 0 + 1 / 2 * 1))) eqn:B5; [apply Rleb_true in B5; lra|].
  rewrite andb_false_r.
  set (x := fadd fzero (fscale (1 / 2) p)).
  set (rs := fsub r (fscale (1 / 2) (fmv 1 (fun _ _ => 2) p))).
  assert (N0 : fnorm 1 rs = 0).
  { unfold fnorm. replace (fsq 1 rs) with 0; [apply sqrt_0|].
    unfold fsq, fdot. cbn [bsum]. unfold rs, fsub, fscale, fmv. cbn [bsum]. rewrite R0, P0. lra. }
  unfold st_check. rewrite N0. destruct (Rleb 0 tol) eqn:B6; [|apply Rleb_false in B6; lra].
  cbn [orb bind]. exists x. split; [easy|]. unfold x, fadd, fscale, fzero. rewrite P0. lra.
Qed.

(** * C188 *)

Lemma condition_inv m U : pos_diag m U -> forall k, (k <= m)%nat ->
  (forall j, (k <= j < m)%nat ->
     snd (estimate_condition k m U) j = bsum k (fun l => U l j * fst (estimate_condition k m U) l)) /\
  (forall i, (i < k)%nat ->
     let r := bsum (S i) (fun l => U l i * fst (estimate_condition k m U) l) in r = 1 \/ r = -1).
Proof.
  intros P. induction k as [|k IH]; intros Hk.
  - split; [easy|lia].
  - destruct (IH ltac:(lia)) as (I1 & I2). clear IH. cbn [estimate_condition].
    destruct (estimate_condition k m U) as (w, p) eqn:E. cbn [fst snd] in I1, I2. cbv zeta.
    pose proof (P k ltac:(lia)) as Pk.
    match goal with |- context [Rleb ?a ?b] => generalize (Rleb a b) end. intros bb.
    assert (G : forall e, e = 1 \/ e = -1 -> let wk := (e - p k) / U k k in
      (forall j, (S k <= j < m)%nat ->
        (if Nat.ltb k j then p j + U k j * wk else p j) = bsum (S k) (fun l => U l j * upd w k wk l)) /\
      (forall i, (i < S k)%nat -> let r := bsum (S i) (fun l => U l i * upd w k wk l) in r = 1 \/ r = -1)).
    { intros e He wk.
      assert (Up : forall i j, (i <= k)%nat -> bsum i (fun l => U l j * upd w k wk l) = bsum i (fun l => U l j * w l)).
      { intros i j Hi. apply bsum_ext. intros l Hl. unfold upd. destruct (Nat.eqb_spec l k); [lia|easy]. }
      split.
      - intros j Hj. destruct (Nat.ltb_spec k j); [|lia]. rewrite bsum_S, Up by lia.
        unfold upd. rewrite Nat.eqb_refl, I1 by lia. easy.
      - intros i Hi. cbv zeta. destruct (Nat.eq_dec i k) as [->|Nk].
        + rewrite bsum_S, Up, <- I1 by lia. unfold upd. rewrite Nat.eqb_refl. unfold wk.
          replace (p k + U k k * ((e - p k) / U k k)) with e by (field; lra). easy.
        + rewrite Up by lia. apply I2. lia. }
    destruct bb; cbn [fst snd]; [apply (G 1)|apply (G (-1))]; lra.
Qed.

(** C188 - the estimate of the smallest singular value of an upper triangular matrix U with positive
    diagonal: w solves U^T w = e for signs e, z is a unit vector that U maps to a vector of length
    s > 0, no lower bound on the lengths of images of unit vectors exceeds s, and s is small when w
    is long: s |w| <= sqrt n. *)
Theorem C188_singular_value_estimate :
  forall n U, (0 < n)%nat ->
    (forall i j, (j < i)%nat -> (i < n)%nat -> U i j = 0) -> (forall i, (i < n)%nat -> 0 < U i i) ->
    let w := fst (estimate_condition n n U) in
    let (s, z) := estimate_smallest_singular_value n U in
    (exists e, (forall i, (i < n)%nat -> e i = 1 \/ e i = -1) /\
       forall i, (i < n)%nat -> bsum n (fun l => U l i * w l) = e i) /\
    fnorm n z = 1 /\ fnorm n (fmv n U z) = s /\ 0 < s /\ s * fnorm n w <= sqrt (INR n) /\
    (forall sigma, (forall y, fnorm n y = 1 -> sigma <= fnorm n (fmv n U y)) -> sigma <= s).
Proof.
  intros n U Ln T P w. unfold estimate_smallest_singular_value. fold w.
  set (v := bwd n n U w). pose proof (bwd_solves n U w T P) as HB. fold v in HB.
  assert (W0 : w 0%nat <> 0) by (apply estimate_w0; [easy|now apply P]).
  assert (Pw : 0 < fsq n w) by now apply (fsq_pos n w 0%nat).
  assert (Pv : 0 < fsq n v).
  { destruct (Rle_lt_or_eq_dec 0 (fsq n v) (fsq_nonneg _ _)) as [?|Z]; [easy|]. exfalso.
    apply W0. rewrite <- HB by easy. unfold fmv. apply bsum_all_zero. intros j Hj.
    rewrite (fsq_zero n v) by easy. lra. }
  assert (Nv : 0 < fnorm n v) by (now apply sqrt_lt_R0).
  assert (Nw : 0 < fnorm n w) by (now apply sqrt_lt_R0).
  assert (Iv : 0 < / fnorm n v) by (now apply Rinv_0_lt_compat).
  destruct (condition_inv n U P n (le_n n)) as (_ & C). fold w in C.
  set (e := fun i => bsum n (fun l => U l i * w l)).
  assert (He : forall i, (i < n)%nat -> e i = 1 \/ e i = -1).
  { intros i Hi. unfold e. rewrite (bsum_trunc (S i) n).
    - now apply C.
    - lia.
    - intros l Hl. rewrite T by lia. ring. }
  assert (Nz : fnorm n (fscale (/ fnorm n v) v) = 1).
  { rewrite fnorm_scale, Rabs_right by lra. field. lra. }
  assert (NU : fnorm n (fmv n U (fscale (/ fnorm n v) v)) = fnorm n w / fnorm n v).
  { rewrite (fnorm_ext n _ (fscale (/ fnorm n v) w)).
    - rewrite fnorm_scale, Rabs_right by lra. unfold Rdiv. ring.
    - intros i Hi. rewrite fmv_scale. unfold fscale. now rewrite HB. }
  splits.
  - exists e. split; [easy|]. easy.
  - easy.
  - easy.
  - apply Rmult_lt_0_compat; easy.
  - (* |w|^2 = w' U v = e' v <= |e| |v| *)
    assert (Ew : fsq n w = fdot n e v).
    { unfold fsq, fdot, e. transitivity (bsum n (fun l => w l * fmv n U v l)).
      { apply bsum_ext. intros l Hl. now rewrite HB. }
      transitivity (bsum n (fun l => bsum n (fun i => U l i * w l * v i))).
      - apply bsum_ext. intros l Hl. unfold fmv. rewrite <- bsum_scal. apply bsum_ext. intros; ring.
      - rewrite bsum_swap. apply bsum_ext. intros i Hi. rewrite <- bsum_scal_r. apply bsum_ext. intros; ring. }
    assert (Ee : fnorm n e = sqrt (INR n)).
    { unfold fnorm. f_equal. unfold fsq, fdot.
      rewrite (bsum_ext n _ (fun _ => 1)).
      - clear. induction n as [|n IH]; [easy|]. rewrite bsum_S, S_INR, IH. lra.
      - intros i Hi. destruct (He i Hi) as [-> | ->]; lra. }
    pose proof (cauchy_schwarz_f n e v) as CS. pose proof (Rle_abs (fdot n e v)) as RA.
    rewrite Ee in CS. rewrite <- Ew, <- fnorm_sqr in RA, CS.
    replace (fnorm n w / fnorm n v * fnorm n w) with (fnorm n w * fnorm n w * / fnorm n v) by (unfold Rdiv; ring).
    apply (Rmult_le_reg_r (fnorm n v)); [easy|]. rewrite Rmult_assoc, Rinv_l by lra. lra.
  - intros sigma Hs. rewrite <- NU. now apply Hs.
Qed.

(** A matrix with a small singular value: U = ((1, 1), (0, 1/10)) maps (1, -1) / sqrt 2 to a vector
    of length less than 1/10; the hypotheses hold and the estimate is below 1/10. *)
Definition U188 : fmat := fun i j => if Nat.eqb i j then (if Nat.eqb i 0 then 1 else 1 / 10) else if Nat.ltb i j then 1 else 0.

Example C188_instance :
  let (s, z) := estimate_smallest_singular_value 2 U188 in fnorm 2 (fmv 2 U188 z) = s /\ s < 1 / 10.
Proof.
  pose proof (C188_singular_value_estimate 2 U188 ltac:(lia)) as T. cbv zeta in T.
  assert (Lo : forall i j, (j < i)%nat -> (i < 2)%nat -> U188 i j = 0).
  { intros i j A B. unfold U188. destruct (Nat.eqb_spec i j); [lia|]. destruct (Nat.ltb_spec i j); [lia|easy]. }
  assert (Di : forall i, (i < 2)%nat -> 0 < U188 i i).
  { intros i A. unfold U188. rewrite Nat.eqb_refl. destruct (Nat.eqb i 0); lra. }
  specialize (T Lo Di).
  pose proof (estimate2 U188 1 1 (1 / 10) (-20) eq_refl eq_refl eq_refl ltac:(lra) ltac:(lra)) as E2.
  destruct (estimate_smallest_singular_value 2 U188) as (s, z). cbn [fst] in E2.
  destruct T as (_ & _ & T3 & T4 & _). split; [easy|].
  assert (S2 : s * s = (/ 1 * / 1 + -20 * -20) / ((/ 1 - 1 * (-20 / (1 / 10))) / 1 * ((/ 1 - 1 * (-20 / (1 / 10))) / 1) + -20 / (1 / 10) * (-20 / (1 / 10)))).
  { apply E2. replace ((-1 - 1 / 1) / (1 / 10)) with (-20) by field. replace ((1 - 1 / 1) / (1 / 10)) with 0 by field.
    rewrite Rabs_R0, Rabs_left by lra. destruct (Rleb (- -20) 0) eqn:B; [apply Rleb_true in B; lra|easy]. }
  replace ((/ 1 * / 1 + -20 * -20) / _) with (401 / 80401) in S2 by field. nra.
Qed.
