(** Model of the computations of /repo/src/tranquilo/visualize.py: everything but the calls of
    plotly and pandas that draw.  No proofs here. *)
From Coq Require Import Reals List Arith ZArith Bool String.
From Verif Require Import Base XR Vec HistoryModel VolumeModel RegionModel FilterModel GeometryModel.
Import ListNotations.
Open Scope R_scope.

(** * Points in a square region *)

(** visualize.py:561-567, the loop over j: a row is in the region unless one of its entries is
    not between the limits.  Rows and limits have the same length (numba does not check it). *)
Definition row_inside (lower upper : vec) (row : list xr) : bool :=
  fold_left (fun success j =>
      let value := nth j row NaN in
      if negb (xle (Fin (nth j lower 0)) value && xle value (Fin (nth j upper 0))) || isnan value
      then false else success)
    (seq 0 (List.length row)) true.

(** visualize.py:540-571 *)
Definition find_indices_in_trust_region (xs : list (list xr)) (center : vec) (radius : R) : list nat :=
  let upper := map (fun c => c + radius) center in
  let lower := map (fun c => c - radius) center in
  fold_left (fun out i => if row_inside lower upper (nth i xs []) then out ++ [i] else out)
    (seq 0 (List.length xs)) [].

(** The result of [_find_index]: an array, or (visualize.py:583) one of its entries *)
Inductive found := FArray (l : list nat) | FScalar (i : nat).

(** visualize.py:574-583; the radius of each round is the square root of the last one. *)
Fixpoint find_index_from (fuel : nat) (xs : list (list xr)) (point : vec) (radius : R) : res found :=
  match fuel with
  | O => Err OutOfFuel
  | S fuel' =>
      match find_indices_in_trust_region xs point radius with
      | [] => find_index_from fuel' xs point (sqrt radius)
      | [i] => Ok (FArray [i])
      | i :: _ => Ok (FScalar i)
      end
  end.
(** visualize.py:574-583 *)
Definition find_index (fuel : nat) (xs : list (list xr)) (point : vec) : res found :=
  find_index_from fuel xs point (/ 10 ^ 100).

(** visualize.py:586-590; np.concatenate refuses arrays without dimension *)
Definition get_model_indices (fuel : nat) (xs : list (list xr)) (model_points : list vec) : res (list nat) :=
  fold_left (fun acc point =>
      let* model_indices := acc in
      let* f := find_index fuel xs point in
      match f with
      | FArray l => Ok (model_indices ++ l)
      | FScalar _ => Err ValueError
      end) model_points (Ok []).

(** * States and results *)

(** The attributes of a state that are read.  [v_discarded] is None if the state has no
    attribute old_indices_discarded. (tranquilo.py:398-481) *)
Record vstate := mkVState {
  v_center : vec;
  v_radius : R;
  v_x : vec;
  v_rho : xr;
  v_model_points : list vec;
  v_model_indices : list nat;
  v_new_indices : list nat;
  v_old_used : list nat;
  v_discarded : option (list nat);
  v_index : nat
}.
(** An OptimizeResult: the algorithm, the history of parameters and criterion values, the
    states. (visualize.py:84-87) *)
Record vresult := mkVResult {
  vr_algorithm : string;
  vr_params : list (list xr);
  vr_states : list vstate
}.

(** visualize.py:523-530 *)
Definition replace_indices (s : vstate) (model_indices new_indices : list nat) (index : nat) : vstate :=
  mkVState (v_center s) (v_radius s) (v_x s) (v_rho s) (v_model_points s) model_indices new_indices
    (v_old_used s) (v_discarded s) index.

(** visualize.py:522-530; a numpy scalar cannot be indexed *)
Definition process_state (fuel : nat) (xs : list (list xr)) (s : vstate) : res vstate :=
  let* model_indices := get_model_indices fuel xs (v_model_points s) in
  let* new_indices := get_model_indices fuel xs (v_model_points s) in
  let* f := find_index fuel xs (v_x s) in
  match f with
  | FArray (i :: _) => Ok (replace_indices s model_indices new_indices i)
  | FArray [] => Err IndexError
  | FScalar _ => Err IndexError
  end.

(** visualize.py:520 *)
Definition nag (algorithm : string) : bool :=
  String.eqb algorithm "nag_pybobyqa" || String.eqb algorithm "nag_dfols".

(** visualize.py:516-537; the exception in the last branch is created but not raised *)
Definition process_results (fuel : nat) (r : vresult) : res vresult :=
  if nag (vr_algorithm r) then
    match vr_states r with
    | [] => Ok r
    | s :: rest =>
        let* rest' := mapM (process_state fuel (vr_params r)) rest in
        Ok (mkVResult (vr_algorithm r) (vr_params r) (s :: rest'))
    end
  else if String.eqb (vr_algorithm r) "tranquilo" || String.eqb (vr_algorithm r) "tranquilo_ls"
  then Ok r
  else Ok r.

(** * visualize_tranquilo: which results are shown *)

(** The arguments; a dictionary has distinct keys (visualize.py:55-62) *)
Inductive vresults := RSingle (r : vresult) | RDict (d : list (string * vresult)).
(** The argument iterations: visualize.py:56-62 *)
Inductive viterations := IInt (z : Z) | IList (l : list Z) | IDict (d : list (string * Z)).

(** d[k]: visualize.py:83-84 *)
Fixpoint vlookup {A} (d : list (string * A)) (k : string) : option A :=
  match d with
  | [] => None
  | (k', a) :: d' => if String.eqb k k' then Some a else vlookup d' k
  end.

(** f"iteration [z]"; the decimal digits, an injective function (visualize.py:61-62) *)
Definition case_name (digits : Z -> string) (z : Z) : string := ("iteration " ++ digits z)%string.

(** A dictionary display: later items replace earlier ones with the same key
    (visualize.py:61-62) *)
Definition dict_set {A} (d : list (string * A)) (k : string) (a : A) : list (string * A) :=
  match vlookup d k with
  | None => d ++ [(k, a)]
  | Some _ => map (fun kv => if String.eqb k (fst kv) then (fst kv, a) else kv) d
  end.
(** A dict comprehension: visualize.py:57-62 *)
Definition dict_display {A} (l : list (string * A)) : list (string * A) :=
  fold_left (fun d kv => dict_set d (fst kv) (snd kv)) l [].

(** visualize.py:55-62: the results by case, and the iterations by case.  An OptimizeResult is
    not iterable.  A list of iterations for a dictionary of results cannot be indexed by the
    name of a case (visualize.py:84); the keys of a dictionary of iterations for one result
    become iterations themselves and cannot index the list of states (visualize.py:85): both
    are TypeErrors if the dictionary is not empty. *)
Definition prepare (fuel : nat) (digits : Z -> string) (rs : vresults) (its : viterations)
    : res (list (string * vresult) * list (string * Z)) :=
  match its, rs with
  | IInt z, RDict d =>
      let* processed := mapM (fun kv => let* r := process_results fuel (snd kv) in Ok (fst kv, r)) d in
      Ok (processed, map (fun kv => (fst kv, z)) d)
  | IInt _, RSingle _ => Err TypeError
  | IList l, RSingle r =>
      let* r' := process_results fuel r in
      Ok (dict_display (map (fun z => (case_name digits z, r')) l),
          dict_display (map (fun z => (case_name digits z, z)) l))
  | IDict l, RSingle r =>
      let* r' := process_results fuel r in
      match l with [] => Ok ([], []) | _ => Err TypeError end
  | IDict l, RDict d => Ok (d, l)
  | IList _, RDict [] => Ok ([], [])
  | IList _, RDict _ => Err TypeError
  end.

(** states[iteration] (visualize.py:85) *)
Definition state_at (states : list vstate) (iteration : Z) : res vstate :=
  let n := Z.of_nat (List.length states) in
  let i := if (iteration <? 0)%Z then (iteration + n)%Z else iteration in
  if (0 <=? i)%Z && (i <? n)%Z
  then match nth_error states (Z.to_nat i) with Some s => Ok s | None => Err IndexError end
  else Err IndexError.

(** visualize.py:64-85: one column of the figure per case; without cases the division by the
    number of columns fails *)
Definition columns (fuel : nat) (digits : Z -> string) (rs : vresults) (its : viterations)
    : res (list (string * vresult * vstate)) :=
  let* (results, iterations) := prepare fuel digits rs its in
  if (List.length results =? 0)%nat then Err ZeroDivisionError else
  mapM (fun kv =>
      match vlookup iterations (fst kv) with
      | None => Err KeyError
      | Some z => let* s := state_at (vr_states (snd kv)) z in Ok (fst kv, snd kv, s)
      end) results.

(** * The data of the plots *)

(** visualize.py:288-289: rhos[~isna] = clip(rhos[~isna], -1, 3) *)
Definition clip_rhos (rhos : list xr) : list xr :=
  map (fun r => if isnan r then r else xclip r (Fin (-1)) (Fin 3)) rhos.

(** history[indices] (visualize.py:333 and 438) *)
Definition take_rows {A} (history : list A) (indices : list nat) : res (list A) :=
  mapM (nth_res history) indices.

(** visualize.py:331-340: the ratio of the numbers of clusters and points of one state; [f] is
    the factor in the scaling. *)
Definition cluster_ratio (history : list vec) (dim : nat) (f : nat) (s : vstate) : res R :=
  let n_points := List.length (v_model_indices s) in
  let* points := take_rows history (v_model_indices s) in
  if (f * n_points =? 0)%nat then Err ZeroDivisionError else
  let scaling := 1 / INR (f * n_points) in
  let radius := get_radius_after_volume_scaling (v_radius s) dim scaling in
  let* (_, centers) := cluster (List.length points)
                         (fun i j => dist (nth i points []) (nth j points [])) radius in
  Ok (INR (List.length centers) / INR n_points).
(** visualize.py:329-340 *)
Definition cluster_ratios (history : list vec) (dim : nat) (f : nat) (states : list vstate)
    : res (list (option R)) :=
  let* rs := mapM (cluster_ratio history dim f) (tl states) in Ok (None :: map Some rs).

(** np.linalg.norm(v, ord=np.inf) (visualize.py:383-390) *)
Definition norm_inf (v : vec) : R := fold_right (fun a m => Rmax (Rabs a) m) 0 v.

(** visualize.py:374-391; the radius is not zero *)
Definition distances (history : list vec) (s : vstate) : res (list R * list R) :=
  let* points := take_rows history (v_model_indices s) in
  Ok (map (fun p => norm (vsub p (v_center s)) / v_radius s) points,
      map (fun p => norm_inf (vsub p (v_center s)) / v_radius s) points).
(** ndarray.min() and max(); an empty array has none (visualize.py:411-412) *)
Definition array_min (l : list R) : res R :=
  match l with [] => Err ValueError | a :: l' => Ok (fold_left Rmin l' a) end.
(** ndarray.max(): visualize.py:412 *)
Definition array_max (l : list R) : res R :=
  match l with [] => Err ValueError | a :: l' => Ok (fold_left Rmax l' a) end.
(** visualize.py:411-412 *)
Definition distance_range (sq inf : list R) : res (R * R) :=
  let* min_inf := array_min inf in
  let* min_sq := array_min sq in
  let* max_inf := array_max inf in
  let* max_sq := array_max sq in
  Ok (Rmin min_inf min_sq, Rmax max_inf max_sq).

(** * The frame of sample points, visualize.py:437-457 *)

Inductive vcase := CNew | CExisting | CDiscarded.
(** A row: its label in the index, the point, and the entry of column "case" (None: NaN)
    (visualize.py:442-451) *)
Definition frame := list (nat * list xr * option vcase).

(** df.loc[labels, "case"] = c; unknown labels raise KeyError, all rows with one of the labels
    are changed (visualize.py:452-456) *)
Definition set_case (labels : list nat) (c : vcase) (df : frame) : res frame :=
  if forallb (fun l => existsb (fun r => Nat.eqb l (fst (fst r))) df) labels
  then Ok (map (fun r => if existsb (Nat.eqb (fst (fst r))) labels then (fst r, Some c) else r) df)
  else Err KeyError.

(** visualize.py:437-457 *)
Definition get_sample_points (s : vstate) (history : list (list xr)) : res frame :=
  let discarded := match v_discarded s with Some l => l | None => [] end in
  let* current_points := take_rows history (v_model_indices s) in
  let* discarded_points := take_rows history discarded in
  let df := combine (combine (v_model_indices s ++ discarded) (current_points ++ discarded_points))
              (repeat None (List.length (v_model_indices s ++ discarded))) in
  let* df := set_case (v_new_indices s) CNew df in
  let* df := set_case (v_old_used s) CExisting df in
  set_case discarded CDiscarded df.

(** * The legend, visualize.py:502-513 *)

(** A trace: its name and whether it is shown in the legend (visualize.py:505-510) *)
Definition disable_legend_if_duplicate (acc : list string * list (string * bool)) (trace : string * bool)
    : list string * list (string * bool) :=
  let '(trace_names, out) := acc in
  if existsb (String.eqb (fst trace)) trace_names
  then (trace_names, out ++ [(fst trace, false)])
  else (trace_names ++ [fst trace], out ++ [trace]).
(** visualize.py:502-513 *)
Definition clean_legend_duplicates (traces : list (string * bool)) : list (string * bool) :=
  snd (fold_left disable_legend_if_duplicate traces ([], [])).
