(** Model of subsolvers/bntr.py and subsolvers/bntr_fast.py.  No proofs.

    Vectors are functions of their index.  Real arithmetic is exact; ratios that may have a zero
    denominator are computed by [divm]: the numpy version (fast = false) continues with inf or
    NaN, the numba version (fast = true) raises ZeroDivisionError.  If a radius or a step length
    of the gradient descent phase becomes infinite or NaN the model stops with ValueError
    (nothing is claimed about the code in that case).

    Otherwise the two versions differ only in the representation of the active sets (index
    arrays / boolean masks); see [active_fast] for the one difference in the sets. *)
From Coq Require Import Reals List Arith ZArith Bool.
From Verif Require Import Base XR FVec CgModel TrsboxModel.
Import ListNotations.
Open Scope R_scope.

(** A division: of numpy floats (bntr.py:804-889) or compiled (bntr_fast.py:1019-1108) *)
Definition divm (fast : bool) (a b : R) : res xr :=
  if fast then let* q := div a b in Ok (Fin q) else Ok (xdiv (Fin a) (Fin b)).
(** No lines of its own: a radius that is not finite, bntr.py:661-665, leaves the model *)
Definition finite (a : xr) : res R := match a with Fin r => Ok r | _ => Err ValueError end.

(** bntr.py:14: np.finfo(float).eps ** (2 / 3) *)
Definition EPSILON : R := Rpower (/ 2 ^ 52) (2 / 3).

(** * Small pieces *)

(** bntr.py:928-946 *)
Definition eval_crit (n : nat) (x g : fvec) (H : fmat) : R := fdot n g x + / 2 * fdot n (fvm n x H) x.

(** bntr.py:757-762 and bntr_fast.py:967-974, bound_tol = 0 *)
Definition clip_x (lower upper x : fvec) : fvec := fun i =>
  let y := if Rleb (x i) (lower i) then lower i else x i in
  if Rleb (upper i) y then upper i else y.

(** bntr.py:906-925 *)
Definition fb_scalar (a b : R) : R :=
  if Rleb (a + b) 0 then sqrt (a * a + b * b) - (a + b)
  else - 2 * a * b / (sqrt (a * a + b * b) + (a + b)).
(** bntr.py:892-903 *)
Definition fb_direction (lower upper x g : fvec) : fvec := fun i =>
  if Reqb (lower i) (upper i) then lower i - x i
  else fb_scalar (fb_scalar (upper i - x i) (- g i)) (x i - lower i).

(** bntr.py:668-689; the index sets as predicates, [inactive] also as the sorted index array. *)
Record active := mkAct { ab_lower : nat -> bool; ab_upper : nat -> bool; ab_fixed : nat -> bool; ab_inactive : list nat }.
(** bntr.py:679 and bntr_fast.py:887-909 *)
Definition inactive_of (n : nat) (l u f : nat -> bool) : list nat :=
  filter (fun i => negb (f i || l i || u i)) (seq 0 n).
(** bntr.py:668-689 *)
Definition active_sets (n : nat) (lower upper x g : fvec) : active :=
  let l i := Rleb (x i) (lower i) && Rltb 0 (g i) in
  let u i := Rleb (upper i) (x i) && Rltb (g i) 0 in
  let f i := Reqb (lower i) (upper i) in
  mkAct l u f (inactive_of n l u f).
(** bntr_fast.py:888-910; if / elif / elif, so the sets are disjoint. *)
Definition active_fast (n : nat) (lower upper x g : fvec) : active :=
  let l i := Rleb (x i) (lower i) && Rltb 0 (g i) in
  let u i := negb (l i) && (Rleb (upper i) (x i) && Rltb (g i) 0) in
  let f i := negb (l i) && negb (u i) && Reqb (lower i) (upper i) in
  mkAct l u f (inactive_of n l u f).
(** bntr.py:668-689 or bntr_fast.py:887-909 *)
Definition get_active (fast : bool) := if fast then active_fast else active_sets.

(** v[inactive] and H[inactive][:, inactive] (bntr.py:692-698) *)
Definition sub_vec (idx : list nat) (v : fvec) : fvec := fun k => v (nth k idx 0%nat).
(** hessian[inactive, :][:, inactive]: bntr.py:692-698 *)
Definition sub_mat (idx : list nat) (H : fmat) : fmat := fun k j => H (nth k idx 0%nat) (nth j idx 0%nat).
(** No lines of its own: the position of an entry in the list of indices, see scatter *)
Fixpoint index_of (i : nat) (l : list nat) : option nat :=
  match l with
  | [] => None
  | j :: l => if (i =? j)%nat then Some 0%nat else option_map S (index_of i l)
  end.
(** z = zeros(n); z[inactive] = v (bntr.py:783-784) *)
Definition scatter (idx : list nat) (v : fvec) : fvec := fun i =>
  match index_of i idx with Some k => v k | None => 0 end.

(** bntr.py:765-772, bntr_fast.py:978-984 *)
Definition project_gradient (idx : list nat) (g : fvec) : fvec := scatter idx (sub_vec idx g).

(** bntr.py:775-801, bntr_fast.py:987-1017 *)
Definition full_step (lower upper x : fvec) (a : active) (step : fvec) : fvec := fun i =>
  if ab_fixed a i then 0
  else if ab_upper a i then upper i - x i
  else if ab_lower a i then lower i - x i
  else scatter (ab_inactive a) step i.

(** The three tolerances: bntr.py:25-40 *)
Record tols := mkTols { gtol_abs : R; gtol_rel : R; gtol_scaled : R }.
(** bntr.py:701-754, bntr_fast.py:920-964.  The reason is numbered as in bntr_fast.py, 0 is "Continue iterating.".
    [iter] is None or (niter, maxiter). *)
Definition check_convergence (n : nat) (lin lower upper : fvec) (t : tols) (x : fvec) (f : R) (g : fvec)
    (converged : bool) (reason : nat) (iter : option (Z * Z)) : bool * nat :=
  let gn := fnorm n (fb_direction lower upper x g) in
  let gn0 := fnorm n lin in
  if Rltb gn (gtol_abs t) then (true, 1%nat)
  else if negb (Reqb f 0) && Rltb (Rabs (gn / f)) (gtol_rel t) then (true, 2%nat)
  else if negb (Reqb gn0 0) && Rltb (gn / gn0) (gtol_scaled t) then (true, 3%nat)
  else if negb (Reqb gn0 0) && Reqb gn 0 && Reqb (gtol_scaled t) 0 then (true, 4%nat)
  else match iter with
       | Some (k, m) => if Z.eqb k m then (converged, 6%nat) else (converged, reason)
       | None => (converged, reason)
       end.

(** bntr.py:105 and 260 *)
Definition min_radius : R := / 10 ^ 10.
(** bntr.py:106 and 261 *)
Definition max_radius : R := 10 ^ 10.
(** np.clip of a radius: bntr.py:370-374, 455-459 and 661-665 *)
Definition clip_radius (r : R) : R := Rmin (Rmax r min_radius) max_radius.

(** bntr.py:612-665, bntr_fast.py:826-885.  kappa may be infinite in the numpy version. *)
Definition update_radius_cg (fast : bool) (f_cand predicted actual norm radius : R) : res (R * bool) :=
  let reject := Ok (clip_radius (/ 4 * Rmin radius norm), false) in
  if Rltb predicted 0 then reject else
  let tol := Rmax 1 (Rabs f_cand * EPSILON) in
  let* kappa := if Rleb (Rabs actual) tol && Rleb (Rabs predicted) tol then Ok (Fin 1)
                else divm fast actual predicted in
  if xlt kappa (Fin (/ 10 ^ 4)) then reject else
  let radius' :=
    if Reqb norm radius then
      if xlt kappa (Fin (/ 4)) then / 2 * radius
      else if xlt kappa (Fin (/ 2)) then radius
      else if xlt kappa (Fin (9 / 10)) then 2 * radius
      else 4 * radius
    else radius in
  Ok (clip_radius radius', true).

(** bntr.py:804-889, bntr_fast.py:1020-1108 *)
Definition choose_tau (kappa tau_1 tau_2 : xr) : xr * bool :=
  let tau_min := if xlt tau_2 tau_1 then tau_2 else tau_1 in
  let tau_max := if xlt tau_1 tau_2 then tau_2 else tau_1 in
  let d := xabs (xsub kappa (Fin 1)) in
  let c r := Fin r in
  if xle d (c (35/100)) then
    ((if xlt tau_max (c 1) then c 2 else if xgt tau_max (c 5) then c 5 else tau_max), true)
  else if xle d (c (/ 2)) then
    ((if xlt tau_max (c (/ 2)) then c (/ 2) else if xgt tau_max (c 2) then c 2 else tau_max), true)
  else
    ((if xgt tau_min (c 1) then c (/ 2)
      else if xlt tau_max (c (/ 16)) then c (/ 16)
      else if xlt tau_min (c (/ 16)) && xge tau_max (c 1) then c (/ 16)
      else if xge tau_1 (c (/ 16)) && xlt tau_1 (c 1) && (xlt tau_2 (c (/ 16)) || xge tau_2 (c 1)) then tau_1
      else if xge tau_2 (c (/ 16)) && xlt tau_2 (c 1) && (xlt tau_1 (c (/ 16)) || xge tau_2 (c 1)) then tau_2
      else tau_max), false).
(** bntr.py:804-889; bntr_fast.py:1019-1108 *)
Definition update_radius_gd (fast : bool) (radius low predicted actual gn : R) : res (R * R) :=
  let* kappa := if Rleb (Rabs actual) EPSILON && Rleb (Rabs predicted) EPSILON then Ok (Fin 1)
                else divm fast actual predicted in
  let num := / 4 * gn * radius in
  let* tau_1 := divm fast num (num + 3 / 4 * predicted - actual) in
  let* tau_2 := divm fast num (num - 5 / 4 * predicted + actual) in
  let '(tau, raise_low) := choose_tau kappa tau_1 tau_2 in
  let* t := finite tau in
  Ok (radius * t, if raise_low then Rmax low radius else low).

(** * Gradient descent phase *)

(** bntr.py:543-609, bntr_fast.py:742-823 *)
Record gds := mkGd { gd_x : fvec; gd_fmin : R; gd_step : R; gd_radius : R; gd_low : R }.
(** One pass of the loop: bntr.py:563-607 *)
Definition gd_pass (fast : bool) (n : nat) (lin : fvec) (H : fmat) (lower upper : fvec) (f0 : R) (gp : fvec)
    (idx : list nat) (s : gds) : res gds :=
  let gn := fnorm n gp in
  let* st := divm fast (gd_radius s) gn in
  let* st := finite st in
  let x := clip_x lower upper (fsub (gd_x s) (fscale st gp)) in
  let f := eval_crit n x lin H in
  let diff := fsub x (gd_x s) in
  let better := Rltb f (gd_fmin s) in
  let m := length idx in
  let xi := sub_vec idx diff in
  let square_terms := fdot m (fvm m xi (sub_mat idx H)) xi in
  let* q := divm fast (/ 2 * gd_radius s * square_terms) (gn * gn) in
  let* q := finite q in
  let predicted := gd_radius s * (gn - q) in
  let* (radius, low) := update_radius_gd fast (gd_radius s) (gd_low s) predicted (f0 - f) gn in
  Ok (mkGd x (if better then f else gd_fmin s) (if better then st else gd_step s) radius low).
(** The loop: bntr.py:563-607 *)
Fixpoint gd_loop (k : nat) (fast : bool) (n : nat) (lin : fvec) (H : fmat) (lower upper : fvec) (f0 : R) (gp : fvec)
    (idx : list nat) (s : gds) : res gds :=
  match k with
  | O => Ok s
  | S k => let* s := gd_pass fast n lin H lower upper f0 gp idx s in
           gd_loop k fast n lin H lower upper f0 gp idx s
  end.

(** The variables of the main loop: bntr.py:110-119 *)
Record bst := mkBst {
  bs_x : fvec; bs_f : R; bs_g : fvec; bs_radius : R; bs_act : active; bs_conv : bool; bs_reason : nat
}.

(** bntr.py:241-385, bntr_fast.py:345-531 *)
Definition preliminary (fast : bool) (n : nat) (lin : fvec) (H : fmat) (lower upper : fvec) (t : tols) (k_gd : nat)
    (x : fvec) : res bst :=
  let f := eval_crit n x lin H in
  let act := get_active fast n lower upper x lin in
  let g := fadd lin (fmv n H x) in
  let gp := project_gradient (ab_inactive act) g in
  let '(conv, reason) := check_convergence n lin lower upper t x f g false 0 None in
  if conv then Ok (mkBst x f g 100 act conv reason) else
  let* s := gd_loop k_gd fast n lin H lower upper f gp (ab_inactive act) (mkGd x f 0 100 0) in
  let b :=
    if Rltb (gd_fmin s) f then
      let x' := clip_x lower upper (fsub (gd_x s) (fscale (gd_step s) gp)) in
      let g' := fadd lin (fmv n H x') in
      let act' := get_active fast n lower upper x' g' in
      let gp' := project_gradient (ab_inactive act') g' in
      let '(conv, reason) := check_convergence n lin lower upper t x' (gd_fmin s) gp' conv reason None in
      mkBst x' (gd_fmin s) g' (gd_radius s) act' conv reason
    else mkBst x f g (gd_radius s) act conv reason in
  Ok (if bs_conv b then b
      else mkBst (bs_x b) (bs_f b) (bs_g b) (clip_radius (Rmax (gd_radius s) (gd_low s))) (bs_act b) false (bs_reason b)).

(** * Conjugate gradient phase *)

(** The conjugate gradient method: dimension, gradient, Hessian, radius, bounds.  The three
    built-in ones: (bntr.py:388-402) *)
Definition cgmethod := nat -> fvec -> fmat -> R -> fvec -> fvec -> res fvec.
(** _conjugate_gradient.py:5-65 as called in bntr.py:388-450 *)
Definition method_cg (ga gr : R) : cgmethod := fun m g H r _ _ => minimize_trust_cg m g H r ga gr.
(** _steihaug_toint.py:5-146 as called in bntr.py:388-450 *)
Definition method_stcg (pinv : nat -> fmat -> fmat) : cgmethod := fun m g H r _ _ => minimize_trust_stcg pinv m g H r.
(** _trsbox.py:5-193 as called in bntr.py:388-450 *)
Definition method_trsbox : cgmethod := fun m g H r l u => minimize_trust_trsbox m g H r l u.

(** bntr.py:388-510, bntr_fast.py:534-689.  Without inactive parameters the code assigns a vector of length n to an
    empty selection, which numpy refuses unless n is 0 or 1. *)
Definition cg_phase_step (method : cgmethod) (n : nat) (lower upper : fvec) (g : fvec) (H : fmat) (act : active)
    (x : fvec) (radius : R) : res (fvec * fvec * R) :=
  let idx := ab_inactive act in
  match idx with
  | [] =>
      let step := clip_x lower upper x in
      let norm := fnorm n step in
      if (n <=? 1)%nat then Ok (full_step lower upper x act step, step, norm) else Err ValueError
  | _ =>
      let m := length idx in
      let solve r := method m (sub_vec idx g) (sub_mat idx H) r (sub_vec idx lower) (sub_vec idx upper) in
      let* step := solve radius in
      let norm := fnorm m step in
      let* (step, norm) :=
        if Reqb radius 0 then
          if Rltb 0 norm then Ok (step, norm)
          else let* step := solve (clip_radius 100) in
               let norm := fnorm m step in
               if Reqb norm 0 then Err ValueError else Ok (step, norm)
        else Ok (step, norm) in
      Ok (full_step lower upper x act step, step, norm)
  end.

(** bntr.py:513-540, bntr_fast.py:692-739 *)
Definition predicted_reduction (n : nat) (g : fvec) (H : fmat) (act : active) (cg_step step : fvec) : R :=
  let idx := ab_inactive act in
  let m := length idx in
  - (if (m =? n)%nat then eval_crit m step (sub_vec idx g) (sub_mat idx H)
     else eval_crit m (sub_vec idx cg_step) (sub_vec idx g) (sub_mat idx H)).

(** bntr.py:139-220, bntr_fast.py:127-342, one pass of the inner loop from the state [s]; x_old and f_old are the point
    and value at the start of the outer iteration [niter].  Result: new state, accepted?, leave
    the inner loop because the radius did not change? *)
Definition bntr_pass (fast : bool) (method : cgmethod) (n : nat) (lin : fvec) (H : fmat) (lower upper : fvec) (t : tols)
    (niter maxiter : Z) (x_old : fvec) (f_old : R) (s : bst) : res (bst * bool * bool) :=
  let* (cg_step, step, norm) :=
    cg_phase_step method n lower upper (bs_g s) H (bs_act s) (bs_x s) (bs_radius s) in
  let x := clip_x lower upper (fadd (bs_x s) cg_step) in
  let predicted := predicted_reduction n (bs_g s) H (bs_act s) cg_step step in
  let f := eval_crit n x lin H in
  let* (radius, accept) := update_radius_cg fast f predicted (f_old - f) norm (bs_radius s) in
  if accept then
    let g := fadd lin (fmv n H x) in
    let act := get_active fast n lower upper x g in
    let '(conv, reason) := check_convergence n lin lower upper t x f g (bs_conv s) (bs_reason s) (Some (niter, maxiter)) in
    Ok (mkBst x f g radius act conv reason, true, false)
  else if Reqb radius (bs_radius s)
  then Ok (mkBst x_old f_old (bs_g s) radius (bs_act s) true (bs_reason s), false, true)
  else
    let '(conv, reason) := check_convergence n lin lower upper t x_old f_old (bs_g s) (bs_conv s) (bs_reason s) (Some (niter, maxiter)) in
    Ok (mkBst x_old f_old (bs_g s) radius (bs_act s) conv reason, false, false).

(** bntr.py:138: while not accept_step and not converged *)
Fixpoint bntr_inner (fuel : nat) (fast : bool) (method : cgmethod) (n : nat) (lin : fvec) (H : fmat)
    (lower upper : fvec) (t : tols) (niter maxiter : Z) (x_old : fvec) (f_old : R) (s : bst) : res bst :=
  match fuel with
  | O => Err OutOfFuel
  | S fuel =>
      let* (s, accept, stop) := bntr_pass fast method n lin H lower upper t niter maxiter x_old f_old s in
      if stop || accept || bs_conv s then Ok s
      else bntr_inner fuel fast method n lin H lower upper t niter maxiter x_old f_old s
  end.

(** bntr.py:130-220: for niter in range(maxiter + 1); the last value of niter is returned. *)
Fixpoint bntr_outer (k : nat) (fuel : nat) (fast : bool) (method : cgmethod) (n : nat) (lin : fvec) (H : fmat)
    (lower upper : fvec) (t : tols) (niter maxiter : Z) (last : option Z) (s : bst) : res (bst * option Z) :=
  match k with
  | O => Ok (s, last)
  | S k =>
      if bs_conv s then Ok (s, Some niter) else
      let* s := bntr_inner fuel fast method n lin H lower upper t niter maxiter (bs_x s) (bs_f s) s in
      bntr_outer k fuel fast method n lin H lower upper t (niter + 1) maxiter (Some niter) s
  end.

(** The returned dictionary: bntr.py:230-236 *)
Record bres := mkBres { br_x : fvec; br_criterion : R; br_n_iterations : Z; br_success : bool; br_message : nat }.
(** bntr.py:25-238, bntr_fast.py:17-342.  niter is undefined for a negative maxiter. *)
Definition bntr (fuel : nat) (fast : bool) (method : cgmethod) (n : nat) (lin : fvec) (H : fmat) (lower upper x0 : fvec)
    (t : tols) (maxiter : Z) (k_gd : nat) : res bres :=
  let* s := preliminary fast n lin H lower upper t k_gd x0 in
  let* (s, last) := bntr_outer (Z.to_nat (maxiter + 1)) fuel fast method n lin H lower upper t 0 maxiter None s in
  let* niter := get last in
  Ok (mkBres (bs_x s) (bs_f s) niter (bs_conv s) (bs_reason s)).
