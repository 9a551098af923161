(** Model of tranquilo.py: the main loop.  No proofs. *)
From Coq Require Import Reals List Arith ZArith Bool.
From Verif Require Import Base XR Vec HistoryModel WrapModel VolumeModel RegionModel AdjustModel
  AcceptModel FilterModel.
Import ListNotations.
Open Scope nat_scope.

(** * Options *)

(** options.py:109-114 *)
Record stop_options := mkStop { max_iter : nat; max_eval : Z; max_time : xr }.

(** options.py:117-127 *)
Record conv_options := mkConv {
  disable : bool;
  ftol_abs : R; gtol_abs : R; xtol_abs : R;
  ftol_rel : R; gtol_rel : R; xtol_rel : R;
  conv_min_radius : R
}.

(** options.py:156-161 *)
Record stagnation_options := mkStag {
  min_relative_step_keep : R;
  stag_drop : bool;
  min_relative_step : R;
  sample_increment : nat;
  max_trials : nat
}.

(** The arguments of _internal_tranquilo that are numbers or option bundles,
    tranquilo.py:27-52; [min_improvement] belongs to the options of the decider. *)
Record config := mkConfig {
  noisy : bool;
  conv_o : conv_options;
  stop_o : stop_options;
  radius_o : radius_options;
  noise_o : noise_options;
  batch_size : Z;
  target_sample_size : Z;
  stag_o : stagnation_options;
  search_radius_factor : R;
  n_evals_per_point0 : Z;
  n_evals_at_start : Z;
  min_improvement : R
}.

(** tranquilo.py:495-506 and 381, in the order of the code. *)
Inductive message :=
| MsgGtolRel | MsgGtolAbs | MsgFtolRel | MsgFtolAbs | MsgXtolRel | MsgXtolAbs | MsgMaxEval.

Section Loop.
(** Vector models, scalar models and noise covariances are only passed around. *)
Context {VM SM CV : Type}.

(** What happened within one iteration (a ghost log, not in the code): the indices found in
    the search region, the calls of the sampler and the calls of the fitter, each with the
    history at that time; for the fitter the model indices, the model data and [old_model].
    (No lines of its own: the calls in tranquilo.py:95-395) *)
Inductive event :=
| EvFound (h : hist) (indices : list nat)
| EvSample (h : hist) (n_points : nat) (xs : list vec)
| EvFit (h : hist) (indices : list nat) (xs : list vec) (fvecs : list (list xr)) (old : VM).

(** tranquilo.py:398-481; [st_events] is the ghost log of the iteration. *)
Record state := mkState {
  st_region : region;
  st_model_indices : list nat;
  st_model : SM;
  st_vector_model : VM;
  st_candidate_index : nat;
  st_candidate_x : vec;
  st_index : nat;
  st_x : vec;
  st_fval : xr;
  st_rho : xr;
  st_accepted : bool;
  st_new_indices : list nat;
  st_old_indices_used : list nat;
  st_old_indices_discarded : list nat;
  st_step_length : option R;
  st_relative_step_length : option xr;
  st_n_evals_per_point : option Z;
  st_n_evals_acceptance : option nat;
  st_events : list event
}.

(** The other arguments of _internal_tranquilo: the components.  They are arbitrary functions
    of their arguments.  Components that use random numbers or evaluate the criterion also get
    the number of the iteration (and of the trial within it) and the history, so that two
    calls may give different results.
    - [k_init]: the constructor call VectorModel(...) of tranquilo.py:62-68, a function of
      [_init_fvec] and the trust region;
    - [k_gnorm]: np.linalg.norm(model.linear_terms);
    - [k_decider]: the decider with its options, given the noise variance (None if not noisy);
    - a subproblem solution with infinite or NaN entries is not expressible in [subsol]. *)
Record components := mkComp {
  k_crit : criterion;
  k_cores : nat;
  k_init : list xr -> region -> VM;
  k_fit : list vec -> list (list xr) -> region -> VM -> res VM;
  k_agg : VM -> res SM;
  k_solve : SM -> region -> res subsol;
  k_gnorm : SM -> xr;
  k_sample : nat -> nat -> sampler;
  k_filter : hist -> state -> Z -> Z -> list vec -> list nat -> res (list vec * list nat);
  k_decider : nat -> option xr -> decider;
  k_variance : hist -> region -> res xr;
  k_cov : hist -> region -> res CV;
  k_rho_noise : nat -> list vec -> VM -> VM -> region -> option CV -> res (list xr)
}.

Variable K : components.
Variable O : config.

(** The parts of the state read by filter_points.py:drop_worst_points. (tranquilo.py:108-115) *)
Definition fstate_of (st : state) : fstate :=
  mkF (st_x st) (st_index st) (r_radius (st_region st)).

(** The parts of the state read by the deciders. (tranquilo.py:295-305) *)
Definition cur_of (st : state) : cur :=
  mkCur (st_index st) (st_x st) (st_fval st) (st_region st).

(** len(xs): tranquilo.py:130 *)
Definition zlen {A} (l : list A) : Z := Z.of_nat (length l).

(** np.unique: sorted, without repetitions. (tranquilo.py:314-316) *)
Fixpoint insert_nat (i : nat) (l : list nat) : list nat :=
  match l with
  | [] => [i]
  | j :: l' => if i <? j then i :: l else if i =? j then l else j :: insert_nat i l'
  end.
(** np.unique inside np.setdiff1d and np.intersect1d: tranquilo.py:314-316 *)
Definition np_unique (l : list nat) : list nat := fold_right insert_nat [] l.
(** i in l, inside np.setdiff1d and np.intersect1d: tranquilo.py:314-316 *)
Definition mem_nat (i : nat) (l : list nat) : bool := existsb (Nat.eqb i) l.
(** np.setdiff1d: tranquilo.py:314 and 316 *)
Definition setdiff1d (a b : list nat) : list nat :=
  np_unique (filter (fun i => negb (mem_nat i b)) a).
(** np.intersect1d: tranquilo.py:315 *)
Definition intersect1d (a b : list nat) : list nat :=
  np_unique (filter (fun i => mem_nat i b) a).

(** tranquilo.py:514-517 *)
Definition concatenate_indices (first second : list nat) : list nat := first ++ second.

(** tranquilo.py:520-538 *)
Definition get_additional_eval_info (model_indices : list nat) (h : hist) (n : Z)
    : res (dict Z) :=
  let* existing := get_n_evals h (map Z.of_nat model_indices) in
  Ok (filter (fun kv => (0 <? snd kv)%Z)
             (map (fun kv => (fst kv, (n - Z.of_nat (snd kv))%Z)) existing)).

(** dict.update (tranquilo.py:143) *)
Definition dict_update {A} (d e : dict A) : dict A :=
  fold_left (fun d kv => dict_set d (fst kv) (snd kv)) e d.

(** evaluate_criterion(eval_info); the numbers of evaluations are positive. (tranquilo.py:58) *)
Definition evaluate (info : dict Z) : M unit :=
  m_eval (k_crit K) (k_cores K) (map (fun kv => (fst kv, Z.to_nat (snd kv))) info).

(** The result of fitting a model and solving the subproblem. (tranquilo.py:150-170) *)
Record fitted := mkFitted {
  f_vm : VM;
  f_sm : SM;
  f_sub : subsol;
  f_rel : xr;
  f_event : event
}.

(** tranquilo.py:150-170, repeated in 189-211 and 244-266. *)
Definition fit_and_solve (st : state) (model_indices : list nat) : M fitted :=
  do data <- mquery (fun h => get_model_data h (map Z.of_nat model_indices) true);
  do ev <- mquery (fun h => Ok (EvFit h model_indices (fst data) (snd data) (st_vector_model st)));
  do vm <- mlift (k_fit K (fst data) (snd data) (st_region st) (st_vector_model st));
  do sm <- mlift (k_agg K vm);
  do sub <- mlift (k_solve K sm (st_region st));
  mret (mkFitted vm sm sub
          (xdiv (Fin (dist (sub_x sub) (st_x st))) (Fin (r_radius (st_region st)))) ev).

(** model_xs, model_indices, the last fit, and the log so far. (tranquilo.py:133-270) *)
Record work := mkWork {
  w_xs : list vec;
  w_indices : list nat;
  w_fit : fitted;
  w_events : list event
}.

(** tranquilo.py:100-170: find, filter, sample and evaluate points and fit the first model.
    The second component is [old_indices]. *)
Definition first_model (t : nat) (st : state) (n_evals : Z) : M (work * list nat) :=
  do search_region <- mlift (replace_radius (st_region st)
                               (search_radius_factor O * r_radius (st_region st))%R);
  do old_indices <- mquery (fun h => get_x_indices_in_region h (r_center search_region)
                                                              (r_radius search_region));
  do ev1 <- mquery (fun h => Ok (EvFound h old_indices));
  do old_xs <- mquery (fun h => get_xs_many h (map Z.of_nat old_indices));
  do filtered <- mquery (fun h => k_filter K h st (target_sample_size O) n_evals old_xs old_indices);
  let '(model_xs, model_indices) := filtered in
  do additional <- mquery (fun h => get_additional_eval_info model_indices h n_evals);
  let n_new := Z.to_nat (next_multiple (Z.max 0 (target_sample_size O - zlen model_xs)) (batch_size O)) in
  do new_xs <- mquery (fun h => k_sample K t 0 h (st_region st) n_new model_xs);
  do ev2 <- mquery (fun h => Ok (EvSample h n_new new_xs));
  do new_indices <- m_add_xs new_xs;
  do _ <- evaluate (dict_update (dict_of (map (fun i => (i, n_evals)) new_indices)) additional);
  let model_indices := concatenate_indices model_indices new_indices in
  do model_xs <- mquery (fun h => get_xs_many h (map Z.of_nat model_indices));
  do f <- fit_and_solve st model_indices;
  mret (mkWork model_xs model_indices f [ev1; ev2; f_event f], old_indices).

(** tranquilo.py:178-211, the loop that drops points.  Every pass removes one of the points,
    so [length model_xs] passes are enough (proved). *)
Fixpoint drop_loop (fuel : nat) (st : state) (w : work) : M work :=
  if xlt (f_rel (w_fit w)) (Fin (min_relative_step_keep (stag_o O)))
     && (target_sample_size O <? zlen (w_xs w))%Z
  then
    match fuel with
    | 0 => mfail OutOfFuel
    | S fuel' =>
        do kept <- mlift (drop_worst_points (w_xs w) (w_indices w) (fstate_of st) 1);
        let '(model_xs, model_indices) := kept in
        do f <- fit_and_solve st model_indices;
        drop_loop fuel' st (mkWork model_xs model_indices f (w_events w ++ [f_event f]))
    end
  else mret w.

(** tranquilo.py:177 *)
Definition drop_phase (st : state) (w : work) : M work :=
  if (target_sample_size O <? zlen (w_xs w))%Z then drop_loop (length (w_xs w)) st w else mret w.

(** tranquilo.py:219-266, one trial of the resampling loop. *)
Definition trial (t j : nat) (st : state) (n_evals : Z) (w : work) : M work :=
  let n_to_drop := sample_increment (stag_o O) in
  do kept <- mlift
    (if stag_drop (stag_o O) && (n_to_drop <? length (w_xs w))
     then drop_worst_points (w_xs w) (w_indices w) (fstate_of st) n_to_drop
     else Ok (w_xs w, w_indices w));
  let '(model_xs, model_indices) := kept in
  do new_xs <- mquery (fun h => k_sample K t (S j) h (st_region st) n_to_drop model_xs);
  do ev <- mquery (fun h => Ok (EvSample h n_to_drop new_xs));
  do new_indices <- m_add_xs new_xs;
  do _ <- evaluate (dict_of (map (fun i => (i, n_evals)) new_indices));
  let model_indices := concatenate_indices model_indices new_indices in
  do model_xs <- mquery (fun h => get_xs_many h (map Z.of_nat model_indices));
  do f <- fit_and_solve st model_indices;
  mret (mkWork model_xs model_indices f (w_events w ++ [ev; f_event f])).

(** tranquilo.py:217-270; [j] is sample_counter.  [max 1 max_trials] passes are enough. *)
Fixpoint stag_loop (fuel : nat) (t j : nat) (st : state) (n_evals : Z) (w : work) : M work :=
  if xlt (f_rel (w_fit w)) (Fin (min_relative_step (stag_o O))) then
    match fuel with
    | 0 => mfail OutOfFuel
    | S fuel' =>
        do w' <- trial t j st n_evals w;
        if max_trials (stag_o O) <=? S j then mret w' else stag_loop fuel' t (S j) st n_evals w'
    end
  else mret w.
(** The stagnation loop with its number of trials: tranquilo.py:215-270 *)
Definition stag_phase (t : nat) (st : state) (n_evals : Z) (w : work) : M work :=
  stag_loop (Nat.max 1 (max_trials (stag_o O))) t 0 st n_evals w.

(** tranquilo.py:276-289 *)
Definition noise_estimates (st : state) : M (option xr * option CV) :=
  if noisy O then
    do v <- mquery (fun h => k_variance K h (st_region st));
    do c <- mquery (fun h => k_cov K h (st_region st));
    mret (Some v, Some c)
  else mret (None, None).

(** tranquilo.py:311-319 *)
Definition update_state (st : state) (w : work) (old_indices : list nat) (a : acceptance)
    (n_evals : Z) : state :=
  mkState (st_region st) (w_indices w) (f_sm (w_fit w)) (st_vector_model st)
    (a_candidate_index a) (a_candidate_x a) (a_index a) (a_x a) (a_fval a) (a_rho a)
    (a_accepted a)
    (setdiff1d (w_indices w) old_indices)
    (intersect1d (w_indices w) old_indices)
    (setdiff1d old_indices (w_indices w))
    (Some (a_step_length a)) (Some (a_relative_step_length a)) (Some n_evals)
    (Some (a_n_evals a)) (w_events w).

(** state._replace(trustregion=...) (tranquilo.py:364-368) *)
Definition with_region (st : state) (reg : region) : state :=
  mkState reg (st_model_indices st) (st_model st) (st_vector_model st) (st_candidate_index st)
    (st_candidate_x st) (st_index st) (st_x st) (st_fval st) (st_rho st) (st_accepted st)
    (st_new_indices st) (st_old_indices_used st) (st_old_indices_discarded st)
    (st_step_length st) (st_relative_step_length st) (st_n_evals_per_point st)
    (st_n_evals_acceptance st) (st_events st).

(** tranquilo.py:327-348: the new number of evaluations and whether it has increased. *)
Definition adapt_n_evals (t : nat) (st : state) (w : work) (cov : option CV) (rho : xr)
    (n_evals : Z) : M (Z * bool) :=
  if noisy O then
    do noise <- mlift (k_rho_noise K t (w_xs w) (f_vm (w_fit w)) (st_vector_model st)
                         (st_region st) cov);
    mret (adjust_n_evals n_evals rho noise (noise_o O))
  else mret (n_evals, false).

(** tranquilo.py:96-368, one iteration: the state that is appended to [states], the state for
    the next iteration, and the new number of evaluations per point. *)
Definition iteration (t : nat) (st : state) (n_evals : Z) : M (state * state * Z) :=
  do first <- first_model t st n_evals;
  let '(w0, old_indices) := first in
  do w1 <- drop_phase st w0;
  do w <- stag_phase t st n_evals w1;
  do noise <- noise_estimates st;
  do a <- run_decider (k_crit K) (k_cores K) (k_decider K t (fst noise)) (f_sub (w_fit w))
            (cur_of st) (min_improvement O);
  let st1 := update_state st w old_indices a n_evals in
  do adapted <- adapt_n_evals t st1 w (snd noise) (a_rho a) n_evals;
  let new_radius := adjust_radius (r_radius (st_region st1)) (a_rho a) (a_step_length a)
                      (radius_o O) (snd adapted) in
  do new_region <- mlift (replace_center_radius (st_region st1) (a_x a) new_radius);
  mret (st1, with_region st1 new_region, fst adapted).

(** np.linalg.norm (tranquilo.py:169 and 489-491) *)
Definition norm2 (v : vec) : R := sqrt (fold_right (fun a s => (a * a + s)%R) 0%R v).

(** max(a, 1) of two floats: Python keeps the first argument unless 1 > a.
    (tranquilo.py:488 and 492) *)
Definition py_max1 (a : xr) : xr := if xgt (Fin 1) a then Fin 1 else a.

(** tranquilo.py:484-511 *)
Definition is_converged (old new : state) (o : conv_options) : bool * option message :=
  let f_change_abs := xabs (xsub (st_fval old) (st_fval new)) in
  let f_change_rel := xdiv f_change_abs (py_max1 (xabs (st_fval old))) in
  let diff := map2 Rminus (st_x old) (st_x new) in
  let x_change_abs := Fin (norm2 diff) in
  let x_change_rel := Fin (norm2 (map2 (fun a b => a / Rmax (Rabs b) 1)%R diff (st_x old))) in
  let g_norm_abs := k_gnorm K (st_model new) in
  let g_norm_rel := xdiv g_norm_abs (py_max1 g_norm_abs) in
  if xle g_norm_rel (Fin (gtol_rel o)) then (true, Some MsgGtolRel)
  else if xle g_norm_abs (Fin (gtol_abs o)) then (true, Some MsgGtolAbs)
  else if xle f_change_rel (Fin (ftol_rel o)) then (true, Some MsgFtolRel)
  else if xle f_change_abs (Fin (ftol_abs o)) then (true, Some MsgFtolAbs)
  else if xle x_change_rel (Fin (xtol_rel o)) then (true, Some MsgXtolRel)
  else if xle x_change_abs (Fin (xtol_abs o)) then (true, Some MsgXtolAbs)
  else (false, None).

(** states[-2:] (tranquilo.py:485) *)
Definition last_two (states : list state) : res (state * state) :=
  match rev states with
  | new :: old :: _ => Ok (old, new)
  | _ => Err ValueError
  end.

(** tranquilo.py:387-393; [res_converged] is the local variable at the end of the loop,
    [res_history] is the history returned by the monad. *)
Record result := mkResult {
  solution_x : vec;
  solution_criterion : xr;
  res_states : list state;
  res_message : option message;
  res_converged : bool
}.
(** The returned dictionary: tranquilo.py:387-395 *)
Definition make_result (st : state) (states : list state) (converged : bool)
    (msg : option message) : result :=
  mkResult (st_x st) (st_fval st) states msg converged.

(** tranquilo.py:374-377 *)
Definition check_convergence (accepted : bool) (states : list state) (converged : bool)
    (msg : option message) : res (bool * option message * bool) :=
  if accepted && negb (disable (conv_o O)) then
    let* (old, new) := last_two states in
    let '(c, m) := is_converged old new (conv_o O) in
    Ok (c, m, c)
  else Ok (converged, msg, false).

(** tranquilo.py:94-382; [k] is the number of iterations left, [t] the current one.  [stop]
    is the break of line 377. *)
Fixpoint loop (k t : nat) (st : state) (n_evals : Z) (states : list state) (converged : bool)
    (msg : option message) : M result :=
  match k with
  | 0 => mret (make_result st states converged msg)
  | S k' =>
      do it <- iteration t st n_evals;
      let '(appended, st', n_evals') := it in
      let states' := states ++ [appended] in
      do chk <- mlift (check_convergence (st_accepted appended) states' converged msg);
      let '(converged', msg', stop) := chk in
      if stop then mret (make_result st' states' converged' msg') else
      do n_fun <- mquery (fun h => Ok (get_n_fun h));
      if (max_eval (stop_o O) <=? Z.of_nat n_fun)%Z
      then mret (make_result st' states' false (Some MsgMaxEval))
      else loop k' (S t) st' n_evals' states' converged' msg'
  end.

(** tranquilo.py:53-89 *)
Definition initial_state (x : vec) (reg : region) : M state :=
  do _ <- evaluate [(0, if (1 <? n_evals_at_start O)%Z
                        then next_multiple (n_evals_at_start O) (batch_size O) else 1%Z)];
  do fvecs <- mquery (fun h => get_fvecs_one h 0%Z);
  do init_fvec <- mquery (fun h => Ok (mean_rows (fvecs_width h) fvecs));
  let vm := k_init K init_fvec reg in
  do sm <- mlift (k_agg K vm);
  do fvals <- m_fvals 0;
  mret (mkState reg [0] sm vm 0 x 0 x (xmean fvals) NaN true [0] [] [] None None None None []).

(** tranquilo.py:27-395, given the trust region and the history created in
    process_arguments.py:182-195 (the history contains the start point). *)
Definition internal_tranquilo (x : vec) (reg : region) : M result :=
  do st <- initial_state x reg;
  loop (max_iter (stop_o O)) 0 st (n_evals_per_point0 O) [st] false None.

(** process_arguments.py:182-195 followed by the call in tranquilo.py:24. *)
Definition tranquilo (ft : functype) (pad : R) (x : vec) (initial_radius : R) (b : option bounds)
    : hist * res result :=
  (do _ <- m_add_x x;
   do reg <- mlift (make_region x initial_radius b);
   internal_tranquilo x reg) (hist_init ft pad).

End Loop.
Arguments event : clear implicits.
Arguments state : clear implicits.
Arguments components : clear implicits.
Arguments result : clear implicits.
