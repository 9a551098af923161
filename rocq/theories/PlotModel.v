(** Model of the data of the plots of /repo/src/tranquilo/visualize.py: the coordinates of the
    lines, markers, circles and heat maps that are handed to plotly, without colours, titles and
    axes.  No proofs here. *)
From Coq Require Import Reals List Arith ZArith Bool String.
From Verif Require Import Base XR Vec HistoryModel RegionModel GeometryModel VisualizeModel.
Import ListNotations.
Open Scope R_scope.

(** go.Scatter(x=np.arange(len(y)), y=y): the points of a line (visualize.py:120-124, 272-273,
    290-291, 306-307, 342-344) *)
Definition index_line {A} (y : list A) : list (Z * A) :=
  combine (map Z.of_nat (seq 0 (List.length y))) y.

(** visualize.py:460-499 with x=np.arange(len(y)), as in all its calls: the line, and the
    highlighted point.  Negative indices count from the end. *)
Definition plot_line_with_highlighted_point {A} (y : list A) (highlighted_point : Z)
    : res (list (Z * A) * (Z * A)) :=
  let* i := norm_index (List.length y) highlighted_point in
  let* v := nth_res y i in
  Ok (index_line y, (highlighted_point, v)).

(** visualize.py:270-283 *)
Definition plot_radii (states : list vstate) (iteration : Z) : res (list (Z * R) * (Z * R)) :=
  plot_line_with_highlighted_point (map v_radius states) iteration.

(** visualize.py:286-300 *)
Definition plot_rhos (states : list vstate) (iteration : Z) : res (list (Z * xr) * (Z * xr)) :=
  plot_line_with_highlighted_point (clip_rhos (map v_rho states)) iteration.

(** visualize.py:423-434.  [region_of] is the attribute trustregion, of which the states of
    VisualizeModel keep only center and radius. *)
Definition get_fekete_criterion (region_of : vstate -> region) (history : list vec)
    (states : list vstate) : res (list xr) :=
  let* out := mapM (fun s =>
      let* sample := take_rows history (v_model_indices s) in
      Ok (log_d_quality_calculator sample (region_of s))) (tl states) in
  Ok (NaN :: out).

(** visualize.py:303-316 *)
Definition plot_fekete_criterion (region_of : vstate -> region) (history : list vec)
    (states : list vstate) (iteration : Z) : res (list (Z * xr) * (Z * xr)) :=
  let* fekete := get_fekete_criterion region_of history states in
  plot_line_with_highlighted_point fekete iteration.

(** visualize.py:319-371: a line and a highlighted point for each of the factors 1, 2 and 10;
    the missing first ratio is None. *)
Definition plot_clusters_points_ratio (history : list vec) (dim : nat) (states : list vstate)
    (iteration : Z) : res (list (list (Z * option R) * (Z * option R))) :=
  mapM (fun f =>
      let* ratios := cluster_ratios history dim f states in
      plot_line_with_highlighted_point ratios iteration) [1; 2; 10]%nat.

(** The traces of the criterion plot, in the order in which they are added
    (visualize.py:120, 132, 145, 158, 174) *)
Record criterion_traces := mkCriterionTraces {
  ct_line : list (Z * xr);
  ct_existing : list (nat * xr);
  ct_new : list (nat * xr);
  ct_discarded : list (nat * xr);
  ct_current : nat * xr
}.

(** Markers at some indices: y=history[indices], x=indices (visualize.py:132-135, 145-148,
    158-163) *)
Definition markers (history : list xr) (indices : list nat) : res (list (nat * xr)) :=
  let* values := take_rows history indices in Ok (combine indices values).

(** visualize.py:119-198 *)
Definition plot_criterion (history : list xr) (s : vstate) : res criterion_traces :=
  let* existing := markers history (v_old_used s) in
  let* new := markers history (v_new_indices s) in
  let* discarded := markers history (match v_discarded s with Some l => l | None => [] end) in
  let* current := nth_res history (v_index s) in
  Ok (mkCriterionTraces (index_line history) existing new discarded (v_index s, current)).

(** The correlation of two columns in absolute value (visualize.py:244): NaN (None) if one of
    the columns is constant.  pandas.DataFrame.corr with its default method and without missing
    values. *)
Definition abs_correlation (a b : vec) : option R :=
  let mean l := vsum l / INR (List.length l) in
  let da := map (fun v => v - mean a) a in
  let db := map (fun v => v - mean b) b in
  if Reqb (sumsq da * sumsq db) 0 then None
  else Some (Rabs (dot da db / sqrt (sumsq da * sumsq db))).

(** visualize.py:243-247: the entries strictly below the diagonal, the others are masked; the
    points are the rows, the parameters the columns. *)
Definition correlations (points : list vec) (dim : nat) : list (list (option R)) :=
  let column j := map (fun p => nth j p 0) points in
  map (fun i => map (fun j => if (j <? i)%nat then abs_correlation (column i) (column j) else None)
         (seq 0 dim)) (seq 0 dim).

(** The plot of the sample points: the box of the circle together with the first two coordinates
    of the points, or the heat map (visualize.py:201-267) *)
Inductive sample_plot :=
| SPCircle (x0 y0 x1 y1 : R) (scatter : list (R * R))
| SPHeatmap (z : list (list (option R))).

(** visualize.py:201-267 on the finite points of the frame of sample points.  A center of
    length one has no entry 1. *)
Definition plot_sample_points (points : list vec) (s : vstate) : res sample_plot :=
  if (List.length (v_x s) <=? 2)%nat then
    let* c0 := nth_res (v_center s) 0 in
    let* c1 := nth_res (v_center s) 1 in
    let r := v_radius s in
    let* scatter := mapM (fun p => let* a := nth_res p 0 in let* b := nth_res p 1 in Ok (a, b)) points in
    Ok (SPCircle (c0 - r) (c1 - r) (c0 + r) (c1 + r) scatter)
  else Ok (SPHeatmap (correlations points (List.length (v_x s)))).
