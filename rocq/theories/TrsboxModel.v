(** Model of subsolvers/_trsbox.py (the numba version _trsbox_fast.py is in TrsboxFastModel.v).
    No proofs.  Exact real arithmetic; vectors are functions of their index, [n] is the
    dimension; x_bounded is a function into Z with values -1, 0, 1.

    The variable curve_min is never read for the result and is left out.  Local variables which
    Python leaves undefined until their first assignment are options; reading them too early is
    UnboundLocalError. *)
From Coq Require Import Reals List Arith ZArith Bool.
From Verif Require Import Base XR FVec CgModel.
Import ListNotations.
Open Scope R_scope.

(** The use of a variable that may be unbound, e.g. _trsbox.py:72-173 *)
Definition get {A} (o : option A) : res A := match o with Some a => Ok a | None => Err UnboundLocalError end.

(** x_bounded == 0: _trsbox.py:73-75 *)
Definition free (b : nat -> Z) (i : nat) : bool := Z.eqb (b i) 0.
(** f[x_bounded == 0] @ g[x_bounded == 0] (_trsbox.py:219-223) *)
Definition mdot (n : nat) (b : nat -> Z) (f g : fvec) : R :=
  bsum n (fun i => if free b i then f i * g i else 0).
(** f[k] = v, e.g. _trsbox.py:56-57 *)
Definition upd {A} (f : nat -> A) (k : nat) (v : A) : nat -> A := fun i => if (i =? k)%nat then v else f i.

(** _trsbox.py:351-363; np.clip(lower, x, upper) is minimum(maximum(lower, x), upper). *)
Definition tb_apply_bounds (x : fvec) (b : nat -> Z) (lower upper : fvec) : fvec := fun i =>
  if Z.eqb (b i) 1 then upper i else if Z.eqb (b i) (-1) then lower i
  else Rmin (Rmax (lower i) (x i)) (upper i).

(** _trsbox.py:366-382 *)
Definition tb_unconstrained_step (raw_distance gradient_sumsq projected_sumsq g_x g_hess_g : R) : res (R * R) :=
  let* temp := msqrt (projected_sumsq * raw_distance + g_x * g_x) in
  let* dist := if Rleb 0 g_x then div raw_distance (temp + g_x) else div (temp - g_x) projected_sumsq in
  if Rleb g_hess_g 0 then Ok (dist, dist)
  else let* q := div gradient_sumsq g_hess_g in Ok (Rmin dist q, dist).

(** _trsbox.py:433-456 *)
Definition tb_constr_one (x gp lower upper : fvec) (acc : R * option nat) (i : nat) : R * option nat :=
  let '(step_len, act) := acc in
  if Reqb (gp i) 0 then acc else
  let c := if Rltb 0 (gp i) then (upper i - x i) / gp i else (lower i - x i) / gp i in
  if Rltb c step_len then (c, Some i) else acc.
(** _trsbox.py:385-430 *)
Definition tb_constrained_step (n : nat) (x gp lower upper : fvec) (step_len : R) : R * option nat :=
  fold_left (tb_constr_one x gp lower upper) (seq 0 n) (step_len, None).

(** The variables of the main loop: _trsbox.py:49-69 *)
Record tbs := mkTb {
  tb_x : fvec; tb_b : nat -> Z; tb_gp : fvec; tb_g : fvec; tb_total : R; tb_delta : R; tb_beta : R;
  tb_niter : nat; tb_nfixed : nat; tb_maxiter : Z;
  tb_gsq : option R; tb_gsq0 : option R; tb_gsqold : option R
}.
(** leave the loop with need_alt_trust_step, or go on (_trsbox.py:72-173) *)
Inductive tbout := TbStop (alt : bool) (s : tbs) | TbNext (s : tbs).

(** _trsbox.py:73-177: one pass of the main loop (73-86 new direction, 88-100 stopping, 102-117
    unconstrained step, 119-146 constrained step and update, 148-160 a bound became active,
    162-177). *)
Definition tb_pass (n : nat) (H : fmat) (lower upper : fvec) (s : tbs) : res tbout :=
  let b := tb_b s in
  let gp : fvec := fun i =>
    if free b i then if Reqb (tb_beta s) 0 then - tb_g s i else tb_beta s * tb_gp s i - tb_g s i
    else 0 in
  let projected_sumsq := fdot n gp gp in
  let stop alt := Ok (TbStop alt s) in
  if Reqb projected_sumsq 0 then stop false else
  let gsq := if Reqb (tb_beta s) 0 then Some projected_sumsq else tb_gsq s in
  let maxiter := if Reqb (tb_beta s) 0
    then (Z.of_nat (tb_niter s) + Z.of_nat n - Z.of_nat (tb_nfixed s))%Z else tb_maxiter s in
  let gsq0 := if (tb_niter s =? 0)%nat then gsq else tb_gsq0 s in
  let* gradient_sumsq := get gsq in
  let* initial := get gsq0 in
  if Rleb gradient_sumsq (Rmin (/ 10 ^ 6 * initial) (/ 10 ^ 18))
     || Rleb (gradient_sumsq * tb_delta s) (Rmin (/ 10 ^ 6 * (tb_total s * tb_total s)) (/ 10 ^ 18))
  then stop false else
  let hess_g := fmv n H gp in
  let g_x := mdot n b gp (tb_x s) in
  let g_hess_g := mdot n b gp hess_g in
  let raw_distance := tb_delta s - mdot n b (tb_x s) (tb_x s) in
  if Rleb raw_distance 0 then stop true else
  let* (step_len, distance_to_boundary) :=
    tb_unconstrained_step raw_distance gradient_sumsq projected_sumsq g_x g_hess_g in
  if Rleb step_len (/ 10 ^ 30) then stop false else
  let '(step_len, active) := tb_constrained_step n (tb_x s) gp lower upper step_len in
  (* _update_candidate_vectors_and_reduction, 385-431 *)
  let moved := Rltb 0 step_len in
  let x := if moved then fadd (tb_x s) (fscale step_len gp) else tb_x s in
  let g := if moved then fadd (tb_g s) (fscale step_len hess_g) else tb_g s in
  let reduction := if moved then Rmax (step_len * (gradient_sumsq - / 2 * step_len * g_hess_g)) 0 else 0 in
  let total := tb_total s + reduction in
  let niter := if moved then S (tb_niter s) else tb_niter s in
  let gsqold := if moved then Some gradient_sumsq else tb_gsqold s in
  let gradient_sumsq := if moved then mdot n b g g else gradient_sumsq in
  match active with
  | Some k =>
      let b' := upd b k (if Rleb 0 (gp k) then 1%Z else (-1)%Z) in
      let delta := tb_delta s - x k * x k in
      let s' := mkTb x b' gp g total delta 0 niter (S (tb_nfixed s)) maxiter
                  (Some gradient_sumsq) (Some initial) gsqold in
      if Rleb delta 0 then Ok (TbStop true s') else Ok (TbNext s')
  | None =>
      let s' beta := mkTb x b gp g total (tb_delta s) beta niter (tb_nfixed s) maxiter
                  (Some gradient_sumsq) (Some initial) gsqold in
      if Rleb distance_to_boundary step_len then Ok (TbStop true (s' (tb_beta s))) else
      if Z.eqb (Z.of_nat niter) maxiter || Rleb reduction (/ 10 ^ 6 * total) then Ok (TbStop false (s' (tb_beta s))) else
      let* old := get gsqold in
      let* beta := div gradient_sumsq old in
      Ok (TbNext (s' beta))
  end.

(** The main loop: _trsbox.py:72-173 *)
Fixpoint tb_main (k : nat) (n : nat) (H : fmat) (lower upper : fvec) (s : tbs) : res (bool * tbs) :=
  match k with
  | O => Ok (false, s)
  | S k => let* o := tb_pass n H lower upper s in
           match o with TbStop alt s' => Ok (alt, s') | TbNext s' => tb_main k n H lower upper s' end
  end.

(** * The alternative step *)

(** _trsbox.py:457-515.  Result: x_bounded, index_active_bound with its active_bound,
    n_fixed_variables, bound_on_tangent, free_variable_reached_bound.  [break] ends the loop. *)
Record tangent := mkTan {
  tn_b : nat -> Z; tn_act : option (nat * Z); tn_nfixed : nat; tn_bound : R; tn_reached : bool
}.
(** One pass of the loop in _trsbox.py:457-515 *)
Definition tn_one (x s lower upper : fvec) (i : nat) (t : tangent) : res tangent :=
  if free (tn_b t) i then
    let lc := x i - lower i in
    let uc := upper i - x i in
    if Rleb lc 0 then Ok (mkTan (upd (tn_b t) i (-1)%Z) (tn_act t) (S (tn_nfixed t)) (tn_bound t) true)
    else if Rleb uc 0 then Ok (mkTan (upd (tn_b t) i 1%Z) (tn_act t) (S (tn_nfixed t)) (tn_bound t) true)
    else
      let ssq := x i * x i + s i * s i in
      let dl := ssq - lower i * lower i in
      let* t :=
        if Rltb 0 dl then
          let* r := msqrt dl in
          let sl := r - s i in
          if Rltb lc (tn_bound t * sl) then
            let* bd := div lc sl in
            Ok (mkTan (tn_b t) (Some (i, (-1)%Z)) (tn_nfixed t) bd false)
          else Ok t
        else Ok t in
      let du := ssq - upper i * upper i in
      if Rltb 0 du then
        let* r := msqrt du in
        let su := r + s i in
        if Rltb uc (tn_bound t * su) then
          let* bd := div uc su in
          Ok (mkTan (tn_b t) (Some (i, 1%Z)) (tn_nfixed t) bd false)
        else Ok t
      else Ok t
  else Ok t.
(** The loop in _trsbox.py:457-515 *)
Fixpoint tn_loop (k i : nat) (x s lower upper : fvec) (t : tangent) : res tangent :=
  match k with
  | O => Ok t
  | S k => let* t := tn_one x s lower upper i t in
           if tn_reached t then Ok t else tn_loop k (S i) x s lower upper t
  end.
(** _trsbox.py:457-515 *)
Definition tb_bound_on_tangent (n : nat) (x s : fvec) (b : nat -> Z) (lower upper : fvec) (nfixed : nat) : res tangent :=
  tn_loop n 0 x s lower upper (mkTan b None nfixed 1 false).

(** _trsbox.py:614-620 *)
Definition tb_new_reduction (t sine s_hess_s x_hess_x x_hess_s x_grad s_norm : R) : R :=
  let raw := s_hess_s + t * (t * x_hess_x - 2 * x_hess_s) in
  sine * (t * x_grad - s_norm - / 2 * sine * raw).
(** _trsbox.py:536 *)
Definition sine_of (t : R) : R := 2 * t / (1 + t * t).
(** _trsbox.py:297 *)
Definition cosine_of (t : R) : R := (1 - t * t) / (1 + t * t).

(** _trsbox.py:517-558, the loop over the angles; [red i] is the reduction at the i-th angle. *)
Record angles := mkAng { an_max : R; an_idx : option nat; an_old : R; an_prev : option R; an_next : option R }.
(** One pass of the loop: _trsbox.py:534-548 *)
Definition an_one (red : nat -> R) (a : angles) (i : nat) : angles :=
  let new := red i in
  if Rltb (an_max a) new then mkAng new (Some i) new (Some (an_old a)) (an_next a)
  else if match an_idx a with None => (i =? 0)%nat | Some k => (i =? k + 1)%nat end
       then mkAng (an_max a) (an_idx a) new (an_prev a) (Some new)
       else mkAng (an_max a) (an_idx a) new (an_prev a) (an_next a).
(** The loop: _trsbox.py:526-548 *)
Definition an_loop (red : nat -> R) (n : nat) : angles :=
  fold_left (an_one red) (seq 0 n) (mkAng 0 None 0 None None).
(** int(17 * bound_on_tangent + 3.1), the argument being positive (_trsbox.py:532) *)
Definition n_angles (bound : R) : nat := Z.to_nat (Int_part (17 * bound + 31 / 10)).

(** _trsbox.py:622-639 *)
Definition tb_update_tangent (idx : nat) (bound : R) (n_ang : nat) (next prev max : R) : res R :=
  let* raw := div (next - prev) (2 * max - prev - next) in
  div (bound * ((INR idx + 1) + / 2 * raw)) (INR n_ang).

(** The variables of the inner loop: _trsbox.py:216-227 *)
Record alt := mkAlt {
  al_x : fvec; al_b : nat -> Z; al_g : fvec; al_total : R; al_nfixed : nat;
  al_xgrad : R; al_gred : R; al_hred : fvec
}.
(** [AltStop restart s]: leave the inner loop (_trsbox.py:229-338) *)
Inductive altout := AltStop (restart : bool) (s : alt) | AltNext (s : alt).

(** _trsbox.py:227-340: one pass of the inner loop of the alternative step. *)
Definition tb_alt_pass (n : nat) (H : fmat) (lower upper : fvec) (x_reduced : R) (s : alt) : res altout :=
  let b := al_b s in
  let raw := al_gred s * x_reduced - al_xgrad s * al_xgrad s in
  if Rleb raw (/ 10 ^ 4 * (al_total s * al_total s)) then Ok (AltStop false s) else
  (* _compute_new_search_direction_and_norm, 597-611 *)
  let* root := msqrt raw in
  if Reqb root 0 then Err ZeroDivisionError else
  let dir : fvec := fun i => if free b i then (al_xgrad s * al_x s i - x_reduced * al_g s i) / root else 0 in
  let s_norm := - root in
  let* t := tb_bound_on_tangent n (al_x s) dir b lower upper (al_nfixed s) in
  let b := tn_b t in
  let with_b := mkAlt (al_x s) b (al_g s) (al_total s) (tn_nfixed t) (al_xgrad s) (al_gred s) (al_hred s) in
  if tn_reached t then Ok (AltStop true with_b) else
  let hess_s := fmv n H dir in
  let s_hess_s := mdot n b dir hess_s in
  let x_hess_s := mdot n b (al_x s) hess_s in
  let x_hess_x := mdot n b (al_x s) (al_hred s) in
  let n_ang := n_angles (tn_bound t) in
  let red i :=
    let tg := tn_bound t * (INR i + 1) / INR n_ang in
    tb_new_reduction tg (sine_of tg) s_hess_s x_hess_x x_hess_s (al_xgrad s) s_norm in
  let a := an_loop red n_ang in
  match an_idx a with
  | None => Ok (AltStop false with_b)
  | Some idx =>
      let last := (idx =? n_ang - 1)%nat in
      let* tg := if last then div (tn_bound t * (INR (n_ang - 1) + 1)) (INR n_ang)
                 else let* next := get (an_next a) in
                      let* prev := get (an_prev a) in
                      tb_update_tangent idx (tn_bound t) n_ang next prev (an_max a) in
      let cosine := cosine_of tg in
      let sine := sine_of tg in
      let reduction := tb_new_reduction tg sine s_hess_s x_hess_x x_hess_s (al_xgrad s) s_norm in
      if Rleb reduction 0 then Ok (AltStop false with_b) else
      (* _update_candidate_vectors_and_reduction_alt_step, 560-595 *)
      let g := fadd (al_g s) (fadd (fscale (cosine - 1) (al_hred s)) (fscale sine hess_s)) in
      let x : fvec := fun i => if free b i then cosine * al_x s i + sine * dir i else al_x s i in
      let hred := fadd (fscale cosine (al_hred s)) (fscale sine hess_s) in
      let total := al_total s + reduction in
      let s' b nf := mkAlt x b g total nf (mdot n b x g) (mdot n b g g) hred in
      match tn_act t, last with
      | Some (k, bd), true =>
          Ok (AltStop true (mkAlt x (upd b k bd) g total (S (tn_nfixed t)) (mdot n b x g) (mdot n b g g) hred))
      | _, _ => if Rleb reduction (/ 100 * total) then Ok (AltStop false (s' b (tn_nfixed t)))
                else Ok (AltNext (s' b (tn_nfixed t)))
      end
  end.

(** The inner loop: _trsbox.py:229-338 *)
Fixpoint tb_alt_inner (k : nat) (n : nat) (H : fmat) (lower upper : fvec) (x_reduced : R) (s : alt) : res (bool * alt) :=
  match k with
  | O => Ok (false, s)
  | S k => let* o := tb_alt_pass n H lower upper x_reduced s in
           match o with AltStop r s' => Ok (r, s') | AltNext s' => tb_alt_inner k n H lower upper x_reduced s' end
  end.

(** _trsbox.py:196-348.  [x], [b], [g], [total], [nfixed] are the state of the outer loop. *)
Fixpoint tb_alt_outer (k : nat) (inner n : nat) (H : fmat) (lower upper : fvec)
    (x : fvec) (b : nat -> Z) (g : fvec) (total : R) (nfixed : nat) : res fvec :=
  match k with
  | O => Ok (tb_apply_bounds x b lower upper)
  | S k =>
      if (n <=? S nfixed)%nat
      then Ok (tb_apply_bounds (tb_apply_bounds x b lower upper) b lower upper) else
      let search : fvec := fun i => if free b i then x i else 0 in
      let* (restart, s) := tb_alt_inner inner n H lower upper (mdot n b x x)
          (mkAlt x b g total nfixed (mdot n b x g) (mdot n b g g) (fmv n H search)) in
      if restart then tb_alt_outer k inner n H lower upper (al_x s) (al_b s) (al_g s) (al_total s) (al_nfixed s)
      else Ok (tb_apply_bounds (al_x s) (al_b s) lower upper)
  end.

(** _trsbox.py:5-193.  max_iter is 100 * n**2 in both places. *)
Definition tb_init (n : nat) (g lower upper : fvec) (radius : R) : tbs :=
  let b i := if Rleb (upper i) 0 && Rleb (g i) 0 then 1%Z
             else if Rleb 0 (lower i) && Rleb 0 (g i) then (-1)%Z else 0%Z in
  mkTb fzero b fzero g 0 (radius * radius) 0 0 0 (Z.of_nat (100 * (n * n))) None None None.
(** _trsbox.py:5-193 *)
Definition minimize_trust_trsbox (n : nat) (g : fvec) (H : fmat) (radius : R) (lower upper : fvec) : res fvec :=
  let max_iter := (100 * (n * n))%nat in
  let* (need_alt, s) := tb_main max_iter n H lower upper (tb_init n g lower upper radius) in
  if need_alt
  then tb_alt_outer max_iter max_iter n H lower upper (tb_x s) (tb_b s) (tb_g s) (tb_total s) (tb_nfixed s)
  else Ok (tb_apply_bounds (tb_x s) (tb_b s) lower upper).
