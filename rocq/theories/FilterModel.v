(** Model of filter_points.py and clustering.py.  No proofs. *)
From Coq Require Import Reals List Arith ZArith Bool.
From Verif Require Import Base XR Vec FVec HistoryModel VolumeModel.
Import ListNotations.
Open Scope R_scope.

(** np.delete(l, k) for a position k inside the array.
    (used in filter_points.py:88-90 and 107-111) *)
Definition np_delete {A} (l : list A) (k : nat) : list A := firstn k l ++ skipn (S k) l.

(** np.argmax / np.argmin: position of the first best entry, ValueError if there is none.
    (used in filter_points.py:87 and 98) *)
Fixpoint argbest_from {A} (better : A -> A -> bool) (l : list A) (i best : nat) (b : A) : nat :=
  match l with
  | [] => best
  | a :: l' => if better a b then argbest_from better l' (S i) i a
               else argbest_from better l' (S i) best b
  end.
(** np.argmax and np.argmin of an array: filter_points.py:87 and 98 *)
Definition argbest {A} (better : A -> A -> bool) (l : list A) : res nat :=
  match l with [] => Err ValueError | a :: l' => Ok (argbest_from better l' 1 0 a) end.
(** np.argmax: filter_points.py:87 *)
Definition argmax (l : list R) : res nat := argbest (fun a b => Rltb b a) l.
(** np.argmin of the distances, infinite on the diagonal: filter_points.py:95-98 *)
Definition argmin (l : list xr) : res nat := argbest xlt l.

(** The parts of the state used by the filters: x, index and the radius.
    (tranquilo.py:398-481) *)
Record fstate := mkF { f_x : list R; f_index : nat; f_radius : R }.

(** filter_points.py:45-50 *)
Definition discard_all (st : fstate) : list (list R) * list nat := ([f_x st], [f_index st]).
(** filter_points.py:49-50 *)
Definition keep_all (xs : list (list R)) (indices : list nat) := (xs, indices).

(** filter_points.py:80-92: the loop over points outside the trustregion; [m] is the
    number of points that still have to be dropped. *)
Fixpoint drop_outside (m : nat) (radius : R) (xs : list (list R)) (indices : list nat)
    (dists : list R) : res (nat * list (list R) * list nat * list R) :=
  match m with
  | O => Ok (O, xs, indices, dists)
  | S m' =>
      if existsb (fun d => Rltb radius d) dists then
        let* k := argmax dists in
        drop_outside m' radius (np_delete xs k) (np_delete indices k) (np_delete dists k)
      else Ok (m, xs, indices, dists)
  end.

(** squareform(pdist(xs)) with infinite diagonal, filter_points.py:95-96 *)
Fixpoint mapi_from {A B} (i : nat) (f : nat -> A -> B) (l : list A) : list B :=
  match l with [] => [] | a :: l' => f i a :: mapi_from (S i) f l' end.
(** filter_points.py:94-95 *)
Definition pairwise (xs : list (list R)) : list (list xr) :=
  mapi_from 0 (fun i x => mapi_from 0 (fun j y => if (i =? j)%nat then PInf else Fin (dist x y)) xs) xs.

(** filter_points.py:98-116 *)
Fixpoint drop_inside (m : nat) (index : nat) (xs : list (list R)) (indices : list nat)
    (dists : list R) (pdists : list (list xr)) : res (list (list R) * list nat) :=
  match m with
  | O => Ok (xs, indices)
  | S m' =>
      let* k := argmin (concat pdists) in
      let i := (k / length pdists)%nat in
      let j := (k mod length pdists)%nat in
      let* index_i := nth_res indices i in
      let* index_j := nth_res indices j in
      let* dist_i := nth_res dists i in
      let* dist_j := nth_res dists j in
      let drop_index :=
        if (index_i =? index)%nat then j
        else if (index_j =? index)%nat then i
        else if Rltb dist_i dist_j then i else j in
      drop_inside m' index (np_delete xs drop_index) (np_delete indices drop_index)
        (np_delete dists drop_index)
        (map (fun row => np_delete row drop_index) (np_delete pdists drop_index))
  end.

(** filter_points.py:63-118 *)
Definition drop_worst_points (xs : list (list R)) (indices : list nat) (st : fstate)
    (n_to_drop : nat) : res (list (list R) * list nat) :=
  match n_to_drop with
  | O => Ok (xs, indices)
  | S _ =>
      let dists := map (fun x => dist x (f_x st)) xs in
      let* (m, xs, indices, dists) := drop_outside n_to_drop (f_radius st) xs indices dists in
      match m with
      | O => Ok (xs, indices)
      | S _ => drop_inside m (f_index st) xs indices dists (pairwise xs)
      end
  end.

(** filter_points.py:53-61 *)
Definition drop_excess (xs : list (list R)) (indices : list nat) (st : fstate)
    (target_size : Z) (n_max_factor : R) : res (list (list R) * list nat) :=
  let filter_target_size := Int_part (IZR target_size * n_max_factor) in
  let n_to_drop := Z.to_nat (Z.max 0 (Z.of_nat (length xs) - filter_target_size)) in
  drop_worst_points xs indices st n_to_drop.

(** * clustering.py *)

(** The variables of [_cluster]; labels of points, -1 for unlabelled.  [centers] is the
    filled part of the array of the same name (its length is cluster_counter).
    (clustering.py:35-78) *)
Record cl := mkCl {
  cl_labels : nat -> Z;
  cl_centers : list nat;
  cl_n_labeled : nat
}.
(** labels[i] = v: clustering.py:35-78 *)
Definition set_label (l : nat -> Z) (i : nat) (v : Z) : nat -> Z :=
  fun j => if (j =? i)%nat then v else l j.

(** clustering.py:52-55 *)
Definition n_neighbors (n : nat) (d : fmat) (eps : R) (labels : nat -> Z) (i : nat) : nat :=
  length (filter (fun j => ((labels j <? 0)%Z && negb (j =? i)%nat && Rleb (d i j) eps)) (seq 0 n)).

(** clustering.py:50-63, one pass of the loop over i; the second and third components are
    candidate_center and max_n_neighbors.  Writing behind the end of [centers] is an
    IndexError. *)
Definition scan_point (n : nat) (d : fmat) (eps : R) (acc : res (cl * nat * nat)) (i : nat)
    : res (cl * nat * nat) :=
  let* (s, cand, best) := acc in
  if (cl_labels s i <? 0)%Z then
    let k := n_neighbors n d eps (cl_labels s) i in
    if (k =? 0)%nat then
      if (length (cl_centers s) <? n)%nat then
        Ok (mkCl (set_label (cl_labels s) i (Z.of_nat (length (cl_centers s))))
                 (cl_centers s ++ [i]) (S (cl_n_labeled s)), cand, best)
      else Err IndexError
    else if (best <? k)%nat then Ok (s, i, k) else Ok (s, cand, best)
  else Ok (s, cand, best).

(** clustering.py:70-73 *)
Definition label_neighbor (d : fmat) (eps : R) (counter : nat) (i : nat) (s : cl) (j : nat) : cl :=
  if (cl_labels s j <? 0)%Z && Rleb (d i j) eps then
    mkCl (set_label (cl_labels s) j (Z.of_nat counter)) (cl_centers s) (S (cl_n_labeled s))
  else s.

(** clustering.py:43-78 *)
Fixpoint cluster_loop (fuel : nat) (n : nat) (d : fmat) (eps : R) (s : cl) : res cl :=
  if (cl_n_labeled s <? n)%nat then
    match fuel with
    | O => Err OutOfFuel
    | S fuel' =>
        let* (s, cand, _) := fold_left (scan_point n d eps) (seq 0 n) (Ok (s, (2 * n)%nat, O)) in
        if (cl_n_labeled s <? n)%nat then
          if (cand <? n)%nat then
            let counter := length (cl_centers s) in
            let s' := fold_left (label_neighbor d eps counter cand) (seq 0 n) s in
            if (counter <? n)%nat then
              cluster_loop fuel' n d eps (mkCl (cl_labels s') (cl_centers s' ++ [cand]) (cl_n_labeled s'))
            else Err IndexError
          else Err IndexError
        else Ok s
    end
  else Ok s.

(** clustering.py:34-78 for [n] points: (labels, centers).  The loop labels at least one
    point per round, [n] rounds suffice (proved in Prop_Filter.v). *)
Definition cluster (n : nat) (d : fmat) (eps : R) : res (list Z * list nat) :=
  let* s := cluster_loop n n d eps (mkCl (fun _ => (-1)%Z) [] O) in
  Ok (map (cl_labels s) (seq 0 n), cl_centers s).

(** filter_points.py:121-135, for the only supported cluster shape. *)
Definition keep_cluster_centers (xs : list (list R)) (indices : list nat) (st : fstate)
    (dim : nat) (target_size : R) (strictness : R) : res (list (list R) * list nat) :=
  let cluster_radius := get_radius_after_volume_scaling (f_radius st) dim (strictness / target_size) in
  let* (_, centers) := cluster (length xs) (fun i j => dist (nth i xs []) (nth j xs [])) cluster_radius in
  let* xs' := mapM (nth_res xs) centers in
  let* indices' := mapM (nth_res indices) centers in
  Ok (xs', indices').
