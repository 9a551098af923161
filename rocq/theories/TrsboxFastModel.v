(** Model of subsolvers/_trsbox_fast.py, the numba version of trsbox.  No proofs.  Exact real
    arithmetic, as in TrsboxModel.v.

    Two aspects in which this file differs from _trsbox.py are modelled explicitly.
    - _calc_upper_bound_on_tangent returns index_active_bound and active_bound although they are
      assigned only when a bound restricts the tangent.  Compiled code hands back a zero-filled
      array record (of size 0); Python raises UnboundLocalError.  The flag [compiled] chooses.
    - _update_candidate_vectors_and_reduction_alt_step adds to gradient_candidate in place
      (`+=`), and gradient_candidate starts out as the array model_gradient of the caller.  The
      flag [alias] says whether it still is that array; the model returns the final content of the
      caller's array beside the result.

    Arrays of length one (total_reduction, raw_distance, distance_to_boundary) are numbers here,
    curve_min is left out, and functions whose text is the same in both files are those of
    TrsboxModel.v. *)
From Coq Require Import Reals List Arith ZArith Bool.
From Verif Require Import Base XR FVec CgModel TrsboxModel.
Import ListNotations.
Open Scope R_scope.

(** _trsbox_fast.py:357-376 *)
Definition tbf_apply_bounds (x : fvec) (b : nat -> Z) (lower upper : fvec) : fvec := fun i =>
  let new := if Rleb (x i) (lower i) then lower i
             else if Rleb (upper i) (x i) then upper i else x i in
  let new := if Z.eqb (b i) (-1) then lower i else new in
  if Z.eqb (b i) 1 then upper i else new.

(** _trsbox_fast.py:379-397 *)
Definition tbf_unconstrained_step (raw_distance gradient_sumsq projected_sumsq g_x g_hess_g : R) : res (R * R) :=
  let* temp := msqrt (projected_sumsq * raw_distance + g_x * g_x) in
  let* dist := if Rleb 0 g_x then div raw_distance (temp + g_x) else div (temp - g_x) projected_sumsq in
  if Rleb g_hess_g 0 then Ok (dist, dist)
  else let* q := div gradient_sumsq g_hess_g in
       if Rleb dist q then Ok (dist, dist) else Ok (q, dist).

(** _trsbox_fast.py:73-177: one pass of the main loop.  Second component of the state: is
    gradient_candidate still the caller's array.  _update_candidate_vectors_and_reduction (400-446)
    builds a new gradient_candidate. *)
Inductive tbfout := TbfStop (alt : bool) (s : tbs) (alias : bool) | TbfNext (s : tbs) (alias : bool).
(** One pass of the main loop: _trsbox_fast.py:73-177 *)
Definition tbf_pass (n : nat) (H : fmat) (lower upper : fvec) (s : tbs) (alias : bool) : res tbfout :=
  let b := tb_b s in
  let gp : fvec := fun i =>
    if free b i then if Reqb (tb_beta s) 0 then - tb_g s i else tb_beta s * tb_gp s i - tb_g s i
    else 0 in
  let projected_sumsq := fdot n gp gp in
  let stop alt := Ok (TbfStop alt s alias) in
  if Reqb projected_sumsq 0 then stop false else
  let gsq := if Reqb (tb_beta s) 0 then Some projected_sumsq else tb_gsq s in
  let maxiter := if Reqb (tb_beta s) 0
    then (Z.of_nat (tb_niter s) + Z.of_nat n - Z.of_nat (tb_nfixed s))%Z else tb_maxiter s in
  let gsq0 := if (tb_niter s =? 0)%nat then gsq else tb_gsq0 s in
  let* gradient_sumsq := get gsq in
  let* initial := get gsq0 in
  if (Rleb gradient_sumsq (/ 10 ^ 6 * initial) && Rleb gradient_sumsq (/ 10 ^ 18))
     || (Rleb (gradient_sumsq * tb_delta s) (/ 10 ^ 6 * (tb_total s * tb_total s))
         && Rleb (gradient_sumsq * tb_delta s) (/ 10 ^ 18))
  then stop false else
  let hess_g := fmv n H gp in
  let g_x := mdot n b gp (tb_x s) in
  let g_hess_g := mdot n b gp hess_g in
  let raw_distance := tb_delta s - mdot n b (tb_x s) (tb_x s) in
  if Rleb raw_distance 0 then stop true else
  let* (step_len, distance_to_boundary) :=
    tbf_unconstrained_step raw_distance gradient_sumsq projected_sumsq g_x g_hess_g in
  if Rleb step_len (/ 10 ^ 30) then stop false else
  let '(step_len, active) := tb_constrained_step n (tb_x s) gp lower upper step_len in
  let moved := Rltb 0 step_len in
  let alias := if moved then false else alias in
  let x := if moved then fadd (tb_x s) (fscale step_len gp) else tb_x s in
  let g := if moved then fadd (tb_g s) (fscale step_len hess_g) else tb_g s in
  let reduction := if moved then Rmax (step_len * (gradient_sumsq - / 2 * step_len * g_hess_g)) 0 else 0 in
  let total := tb_total s + reduction in
  let niter := if moved then S (tb_niter s) else tb_niter s in
  let gsqold := if moved then Some gradient_sumsq else tb_gsqold s in
  let gradient_sumsq := if moved then mdot n b g g else gradient_sumsq in
  match active with
  | Some k =>
      let b' := upd b k (if Rleb 0 (gp k) then 1%Z else (-1)%Z) in
      let delta := tb_delta s - x k * x k in
      let s' := mkTb x b' gp g total delta 0 niter (S (tb_nfixed s)) maxiter
                  (Some gradient_sumsq) (Some initial) gsqold in
      if Rleb delta 0 then Ok (TbfStop true s' alias) else Ok (TbfNext s' alias)
  | None =>
      let s' beta := mkTb x b gp g total (tb_delta s) beta niter (tb_nfixed s) maxiter
                  (Some gradient_sumsq) (Some initial) gsqold in
      if Rleb distance_to_boundary step_len then Ok (TbfStop true (s' (tb_beta s)) alias) else
      if Z.eqb (Z.of_nat niter) maxiter || Rleb reduction (/ 10 ^ 6 * total)
      then Ok (TbfStop false (s' (tb_beta s)) alias) else
      let* old := get gsqold in
      let* beta := div gradient_sumsq old in
      Ok (TbfNext (s' beta) alias)
  end.

(** The main loop: _trsbox_fast.py:73-177 *)
Fixpoint tbf_main (k : nat) (n : nat) (H : fmat) (lower upper : fvec) (s : tbs) (alias : bool) : res (bool * tbs * bool) :=
  match k with
  | O => Ok (false, s, alias)
  | S k => let* o := tbf_pass n H lower upper s alias in
           match o with
           | TbfStop alt s' al => Ok (alt, s', al)
           | TbfNext s' al => tbf_main k n H lower upper s' al
           end
  end.

(** _trsbox_fast.py:472-527; the loop is that of _trsbox.py, the returned names may be unbound. *)
Definition tbf_bound_on_tangent (compiled : bool) (n : nat) (x s : fvec) (b : nat -> Z)
    (lower upper : fvec) (nfixed : nat) : res tangent :=
  let* t := tn_loop n 0 x s lower upper (mkTan b None nfixed 1 false) in
  match tn_act t with
  | None => if compiled then Ok t else Err UnboundLocalError
  | Some _ => Ok t
  end.

(** _trsbox_fast.py:234-343: one pass of the inner loop of the alternative step.  First component:
    the content of the array gradient_candidate when the pass ends (normally or not). *)
Definition tbf_alt_pass (compiled : bool) (n : nat) (H : fmat) (lower upper : fvec) (x_reduced : R) (s : alt)
  : fvec * res altout :=
  let b := al_b s in
  let same (r : res altout) := (al_g s, r) in
  let raw := al_gred s * x_reduced - al_xgrad s * al_xgrad s in
  if Rleb raw (/ 10 ^ 4 * (al_total s * al_total s)) then same (Ok (AltStop false s)) else
  match msqrt raw with Err e => same (Err e) | Ok root =>
  if Reqb root 0 then same (Err ZeroDivisionError) else
  let dir : fvec := fun i => if free b i then (al_xgrad s * al_x s i - x_reduced * al_g s i) / root else 0 in
  let s_norm := - root in
  match tbf_bound_on_tangent compiled n (al_x s) dir b lower upper (al_nfixed s) with
  | Err e => same (Err e)
  | Ok t =>
  let b := tn_b t in
  let with_b := mkAlt (al_x s) b (al_g s) (al_total s) (tn_nfixed t) (al_xgrad s) (al_gred s) (al_hred s) in
  if tn_reached t then same (Ok (AltStop true with_b)) else
  let hess_s := fmv n H dir in
  let s_hess_s := mdot n b dir hess_s in
  let x_hess_s := mdot n b (al_x s) hess_s in
  let x_hess_x := mdot n b (al_x s) (al_hred s) in
  let n_ang := n_angles (tn_bound t) in
  let red i :=
    let tg := tn_bound t * (INR i + 1) / INR n_ang in
    tb_new_reduction tg (sine_of tg) s_hess_s x_hess_x x_hess_s (al_xgrad s) s_norm in
  let a := an_loop red n_ang in
  match an_idx a with
  | None => same (Ok (AltStop false with_b))
  | Some idx =>
      let last := (idx =? n_ang - 1)%nat in
      match (if last then div (tn_bound t * (INR (n_ang - 1) + 1)) (INR n_ang)
             else let* next := get (an_next a) in
                  let* prev := get (an_prev a) in
                  tb_update_tangent idx (tn_bound t) n_ang next prev (an_max a)) with
      | Err e => same (Err e)
      | Ok tg =>
      let cosine := cosine_of tg in
      let sine := sine_of tg in
      let reduction := tb_new_reduction tg sine s_hess_s x_hess_x x_hess_s (al_xgrad s) s_norm in
      if Rleb reduction 0 then same (Ok (AltStop false with_b)) else
      (* _update_candidate_vectors_and_reduction_alt_step, 575-611: in place *)
      let g := fadd (al_g s) (fadd (fscale (cosine - 1) (al_hred s)) (fscale sine hess_s)) in
      let x : fvec := fun i => if free b i then cosine * al_x s i + sine * dir i else al_x s i in
      let hred := fadd (fscale cosine (al_hred s)) (fscale sine hess_s) in
      let total := al_total s + reduction in
      let s' b nf := mkAlt x b g total nf (mdot n b x g) (mdot n b g g) hred in
      (g, match tn_act t, last with
      | Some (k, bd), true =>
          Ok (AltStop true (mkAlt x (upd b k bd) g total (S (tn_nfixed t)) (mdot n b x g) (mdot n b g g) hred))
      | _, _ => if Rleb reduction (/ 100 * total) then Ok (AltStop false (s' b (tn_nfixed t)))
                else Ok (AltNext (s' b (tn_nfixed t)))
      end)
      end
  end
  end end.

(** The inner loop: _trsbox_fast.py:234-343 *)
Fixpoint tbf_alt_inner (k : nat) (compiled : bool) (n : nat) (H : fmat) (lower upper : fvec) (x_reduced : R) (s : alt)
  : fvec * res (bool * alt) :=
  match k with
  | O => (al_g s, Ok (false, s))
  | S k => match tbf_alt_pass compiled n H lower upper x_reduced s with
           | (g, Err e) => (g, Err e)
           | (g, Ok (AltStop r s')) => (g, Ok (r, s'))
           | (_, Ok (AltNext s')) => tbf_alt_inner k compiled n H lower upper x_reduced s'
           end
  end.

(** _trsbox_fast.py:199-354.  First component: final content of the array gradient_candidate. *)
Fixpoint tbf_alt_outer (k : nat) (compiled : bool) (inner n : nat) (H : fmat) (lower upper : fvec)
    (x : fvec) (b : nat -> Z) (g : fvec) (total : R) (nfixed : nat) : fvec * res fvec :=
  match k with
  | O => (g, Ok (tbf_apply_bounds x b lower upper))
  | S k =>
      if (n <=? S nfixed)%nat
      then (g, Ok (tbf_apply_bounds (tbf_apply_bounds x b lower upper) b lower upper)) else
      let search : fvec := fun i => if free b i then x i else 0 in
      match tbf_alt_inner inner compiled n H lower upper (mdot n b x x)
          (mkAlt x b g total nfixed (mdot n b x g) (mdot n b g g) (fmv n H search)) with
      | (g', Err e) => (g', Err e)
      | (g', Ok (true, s)) =>
          tbf_alt_outer k compiled inner n H lower upper (al_x s) (al_b s) (al_g s) (al_total s) (al_nfixed s)
      | (g', Ok (false, s)) => (g', Ok (tbf_apply_bounds (al_x s) (al_b s) lower upper))
      end
  end.

(** _trsbox_fast.py:6-196.  First component: the content of the caller's array model_gradient
    afterwards. *)
Definition minimize_trust_trsbox_fast (compiled : bool) (n : nat) (g : fvec) (H : fmat) (radius : R)
    (lower upper : fvec) : fvec * res fvec :=
  let max_iter := (100 * (n * n))%nat in
  match tbf_main max_iter n H lower upper (tb_init n g lower upper radius) true with
  | Err e => (g, Err e)
  | Ok (need_alt, s, alias) =>
      if need_alt then
        let '(content, r) :=
          tbf_alt_outer max_iter compiled max_iter n H lower upper (tb_x s) (tb_b s) (tb_g s) (tb_total s) (tb_nfixed s) in
        (if alias then content else g, r)
      else (g, Ok (tbf_apply_bounds (tb_x s) (tb_b s) lower upper))
  end.
