(** Model of /repo/src/tranquilo/history.py.  No proofs here. *)
From Coq Require Import Reals List Arith ZArith Bool.
From Verif Require Import Base XR Vec.
Import ListNotations.
Open Scope nat_scope.

(** history.py:14-33 - the three admissible functypes; any other string raises ValueError
    at construction (this is [parse_functype] below). *)
Inductive functype := Scalar | Likelihood | LeastSquares.

(** A 2d numpy buffer: number of columns and the rows. (history.py:217-234) *)
Record buf (A : Type) := mkBuf { b_width : nat; b_rows : list (list A) }.
Arguments mkBuf {A}. Arguments b_width {A}. Arguments b_rows {A}.

(** history.py:14-22 - the attributes of a History object.
    - [h_pad] stands for the NaN entries with which [xs] is padded; it is an arbitrary
      real because coordinates are reals (theorems hold for every value of it);
    - [h_map] is the dict [index_mapper]; its keys are always 0..n_xs-1, inserted in this
      order, so it is represented by the list of its values. *)
Record hist := mkHist {
  h_ft : functype;
  h_pad : R;
  h_xs : option (buf R);
  h_fvecs : option (buf xr);
  h_fvals : option (list xr);
  h_nxs : nat;
  h_nfun : nat;
  h_map : list (list nat)
}.

(** history.py:14-22 *)
Definition hist_init (ft : functype) (pad : R) : hist :=
  mkHist ft pad None None None 0 0 [].

(** history.py:24-29 - [aggregate] on a 2d array, row by row.  For "scalar" the array has
    exactly one column and is flattened. *)
Definition agg_row (ft : functype) (row : list xr) : xr :=
  match ft with
  | Scalar => match row with [x] => x | _ => NaN end
  | Likelihood => xsum row
  | LeastSquares => xsum (map xsquare row)
  end.
(** history.py:14-33 (the function self.aggregate), used in line 97 *)
Definition aggregate (ft : functype) (rows : list (list xr)) : list xr :=
  match ft with
  | Scalar => concat rows
  | _ => map (agg_row ft) rows
  end.

(** history.py:219 - initial number of rows of a buffer, 1_000. *)
Definition initial_rows : nat := 10 * 100.

(** [arr[position : position + len(new)] = new] for a slice inside [arr]. (history.py:232) *)
Definition write_at {A} (arr new : list A) (position : nat) : list A :=
  firstn position arr ++ new ++ skipn (position + length new) arr.

(** history.py:218-220 - allocate a buffer on first use. *)
Definition alloc1 {A} (pad : A) (arr : option (list A)) : list A :=
  match arr with None => repeat pad initial_rows | Some a => a end.
(** A buffer before the first entries: history.py:218-220 *)
Definition alloc2 {A} (pad : A) (arr : option (buf A)) (w : nat) : buf A :=
  match arr with
  | None => mkBuf w (repeat (repeat pad w) initial_rows)
  | Some a => a
  end.

(** history.py:224-230 - extension of the rows by [max(len(arr), n_new)] padding rows. *)
Definition extend {A} (padrow : A) (rows : list A) (position n_new : nat) : list A :=
  if length rows <? position + n_new
  then rows ++ repeat padrow (Nat.max (length rows) n_new)
  else rows.

(** history.py:217-234 for 1d arrays. *)
Definition add_entries1 {A} (pad : A) (arr : option (list A)) (new : list A)
    (position : nat) : list A :=
  write_at (extend pad (alloc1 pad arr) position (length new)) new position.

(** numpy assignment broadcasts a row of length one to the width of the buffer; every
    other width mismatch raises ValueError. (history.py:232) *)
Definition fit_row {A} (width : nat) (row : list A) : res (list A) :=
  if length row =? width then Ok row
  else match row with
       | [x] => Ok (repeat x width)
       | _ => Err ValueError
       end.

(** history.py:217-234 for 2d arrays; [new] is rectangular with [w] columns.
    Simplified: rows of width zero (for which numpy's broadcasting rules are peculiar)
    always raise ValueError here; [add_xs] returns before this point for them. *)
Definition add_entries2 {A} (pad : A) (arr : option (buf A)) (w : nat)
    (new : list (list A)) (position : nat) : res (buf A) :=
  let arr := alloc2 pad arr w in
  let rows := extend (repeat pad (b_width arr)) (b_rows arr) position (length new) in
  if w =? 0 then Err ValueError else
  let* fitted := mapM (fit_row (b_width arr)) new in
  Ok (mkBuf (b_width arr) (write_at rows fitted position)).

(** Argument of [add_xs]: a 1d array, or a 2d array / list of 1d arrays. (history.py:39-40) *)
Inductive xs_arg := X1 (x : list R) | X2 (xs : list (list R)).

(** Result of [add_xs]: a scalar index or an array of indices. (history.py:57-67) *)
Inductive idx_res := IOne (i : nat) | IMany (l : list nat).

(** All rows have the length of the first one ([np.array] on a ragged list raises).
    (history.py:48) *)
Definition rectangular {A} (rows : list (list A)) : bool :=
  match rows with
  | [] => true
  | r :: rs => forallb (fun s => length s =? length r) rs
  end.
(** xs.shape[1]: history.py:219 *)
Definition row_width {A} (rows : list (list A)) : nat :=
  match rows with [] => 0 | r :: _ => length r end.

(** history.py:35-67.  [np.atleast_2d] turns a 1d argument into one row. *)
Definition add_xs (h : hist) (arg : xs_arg) : hist * res idx_res :=
  let rows := match arg with X1 x => [x] | X2 xs => xs end in
  if negb (rectangular rows) then (h, Err ValueError) else
  if (length rows =? 0) || (row_width rows =? 0) then (h, Ok (IMany [])) else
  let n_new := length rows in
  match add_entries2 (h_pad h) (h_xs h) (row_width rows) rows (h_nxs h) with
  | Err e => (h, Err e)
  | Ok b =>
      let indices := seq (h_nxs h) n_new in
      let h' := mkHist (h_ft h) (h_pad h) (Some b) (h_fvecs h) (h_fvals h)
                       (h_nxs h + n_new) (h_nfun h)
                       (h_map h ++ repeat [] n_new) in
      (h', Ok (match arg with X1 _ => IOne (h_nxs h) | X2 _ => IMany indices end))
  end.

(** One evaluation result: a scalar or a 1d array. (history.py:75-76) *)
Inductive val := VS (x : xr) | VV (l : list xr).

(** [np.asarray] on a list of evaluations: all scalars, or all vectors of one length;
    ragged input raises ValueError (numpy >= 1.24). (history.py:92-95) *)
Inductive arr := A1 (l : list xr) | A2 (w : nat) (rows : list (list xr)).

(** np.reshape(evals, (-1, 1)) of scalars: history.py:93 *)
Definition all_scalars (l : list val) : res (list xr) :=
  mapM (fun v => match v with VS x => Ok x | VV _ => Err ValueError end) l.
(** np.atleast_2d of vectors: history.py:95 *)
Definition all_vectors (l : list val) : res (list (list xr)) :=
  mapM (fun v => match v with VV x => Ok x | VS _ => Err ValueError end) l.
(** history.py:92-95 *)
Definition as_array (evals : list val) : res arr :=
  match evals with
  | VV _ :: _ =>
      let* rows := all_vectors evals in
      if rectangular rows then Ok (A2 (row_width rows) rows) else Err ValueError
  | _ => let* l := all_scalars evals in Ok (A1 l)
  end.

(** history.py:92-95 - [np.reshape(evals, (-1, 1))] resp. [np.atleast_2d(evals)];
    returns the number of columns and the rows. *)
Definition to_fvecs (ft : functype) (evals : list val) : res (nat * list (list xr)) :=
  let* a := as_array evals in
  match ft, a with
  | Scalar, A1 l => Ok (1, map (fun x => [x]) l)
  | Scalar, A2 _ rows => Ok (1, map (fun x => [x]) (concat rows))
  | _, A1 l => Ok (length l, [l])
  | _, A2 w rows => Ok (w, rows)
  end.

(** [index_mapper[x].append(f)]; a key that is not in the dict raises KeyError.
    (history.py:107-108) *)
Definition map_append (m : list (list nat)) (x : Z) (f : nat) : res (list (list nat)) :=
  if (x <? 0)%Z then Err KeyError else
  match nth_error m (Z.to_nat x) with
  | None => Err KeyError
  | Some fs => Ok (firstn (Z.to_nat x) m ++ (fs ++ [f]) :: skipn (S (Z.to_nat x)) m)
  end.

(** history.py:107-108 - the loop over [zip(x_indices, f_indices)]; on KeyError the dict
    keeps the entries appended so far. *)
Fixpoint map_append_all (m : list (list nat)) (pairs : list (Z * nat))
    : list (list nat) * res unit :=
  match pairs with
  | [] => (m, Ok tt)
  | (x, f) :: rest =>
      match map_append m x f with
      | Err e => (m, Err e)
      | Ok m' => map_append_all m' rest
      end
  end.

(** history.py:69-110.  [x_indices] is the flattened [np.atleast_1d] argument. *)
Definition add_evals (h : hist) (x_indices : list Z) (evals : list val)
    : hist * res unit :=
  if negb (forallb (fun x => (x <? Z.of_nat (h_nxs h))%Z) x_indices)
  then (h, Err ValueError) else
  let n_new := length x_indices in
  if n_new =? 0 then (h, Ok tt) else
  match to_fvecs (h_ft h) evals with
  | Err e => (h, Err e)
  | Ok (w, fvecs) =>
      let fvals := aggregate (h_ft h) fvecs in
      if negb (n_new =? length fvecs) then (h, Err ValueError) else
      match add_entries2 NaN (h_fvecs h) w fvecs (h_nfun h) with
      | Err e => (h, Err e)
      | Ok b =>
          let v := add_entries1 NaN (h_fvals h) fvals (h_nfun h) in
          let f_indices := seq (h_nfun h) n_new in
          let '(m, r) := map_append_all (h_map h) (combine x_indices f_indices) in
          match r with
          | Err e =>
              (mkHist (h_ft h) (h_pad h) (h_xs h) (Some b) (Some v)
                      (h_nxs h) (h_nfun h) m, Err e)
          | Ok _ =>
              (mkHist (h_ft h) (h_pad h) (h_xs h) (Some b) (Some v)
                      (h_nxs h) (h_nfun h + n_new) m, Ok tt)
          end
      end
  end.

(** numpy's integer indexing into an axis of length [n]; negative indices count from the
    end. (history.py:128 and 259) *)
Definition norm_index (n : nat) (z : Z) : res nat :=
  if ((0 <=? z) && (z <? Z.of_nat n))%Z then Ok (Z.to_nat z)
  else if ((- Z.of_nat n <=? z) && (z <? 0))%Z then Ok (Z.to_nat (z + Z.of_nat n))
  else Err IndexError.

(** Indexing by a position from 0 on, IndexError outside: history.py:128 and 259 *)
Definition nth_res {A} (l : list A) (i : nat) : res A :=
  match nth_error l i with Some a => Ok a | None => Err IndexError end.

(** history.py:112-130 with x_indices=None.  [None[:0]] raises TypeError. *)
Definition get_xs_all (h : hist) : res (list (list R)) :=
  match h_xs h with
  | None => Err TypeError
  | Some b => Ok (firstn (h_nxs h) (b_rows b))
  end.
(** history.py:112-130 with a list or array of integers. *)
Definition get_xs_many (h : hist) (zs : list Z) : res (list (list R)) :=
  let* out := get_xs_all h in
  mapM (fun z => let* i := norm_index (length out) z in nth_res out i) zs.
(** history.py:112-130 with a scalar. *)
Definition get_xs_one (h : hist) (z : Z) : res (list R) :=
  let* out := get_xs_all h in
  let* i := norm_index (length out) z in nth_res out i.

(** Python dict (insertion ordered) with natural number keys.
    (index_mapper and the results of history.py:237-270) *)
Definition dict (A : Type) := list (nat * A).
(** d[k] = v: history.py:60 *)
Fixpoint dict_set {A} (d : dict A) (k : nat) (v : A) : dict A :=
  match d with
  | [] => [(k, v)]
  | (k', v') :: d' => if k =? k' then (k, v) :: d' else (k', v') :: dict_set d' k v
  end.
(** d[k] or d.get(k): history.py:108 *)
Fixpoint dict_get {A} (d : dict A) (k : nat) : option A :=
  match d with
  | [] => None
  | (k', v') :: d' => if k =? k' then Some v' else dict_get d' k
  end.
(** A dict comprehension: history.py:178 *)
Definition dict_of {A} (l : list (nat * A)) : dict A :=
  fold_left (fun d kv => dict_set d (fst kv) (snd kv)) l [].

(** history.py:259-261 - the dict comprehension. *)
Definition extract_many {A} (arr : option (list A)) (h : hist) (zs : list Z)
    : res (dict (list A)) :=
  match arr with
  | None => Err TypeError
  | Some rows =>
      let rows := firstn (h_nfun h) rows in
      let* indices := mapM (norm_index (h_nxs h)) zs in
      let* items := mapM (fun i =>
        match nth_error (h_map h) i with
        | None => Err KeyError
        | Some fs => let* vs := mapM (nth_res rows) fs in Ok (i, vs)
        end) indices in
      Ok (dict_of items)
  end.
(** history.py:255-264 - the scalar case; [out[x_indices[0]]] uses the index as passed. *)
Definition extract_one {A} (arr : option (list A)) (h : hist) (z : Z) : res (list A) :=
  let* out := extract_many arr h [z] in
  if (z <? 0)%Z then Err KeyError else
  match dict_get out (Z.to_nat z) with Some v => Ok v | None => Err KeyError end.

(** self.fvecs: history.py:147 *)
Definition fvecs_rows (h : hist) : option (list (list xr)) :=
  option_map b_rows (h_fvecs h).

(** history.py:132-152 *)
Definition get_fvecs_many (h : hist) (zs : list Z) := extract_many (fvecs_rows h) h zs.
(** get_fvecs for one index: history.py:132-152 *)
Definition get_fvecs_one (h : hist) (z : Z) := extract_one (fvecs_rows h) h z.
(** history.py:154-174 *)
Definition get_fvals_many (h : hist) (zs : list Z) := extract_many (h_fvals h) h zs.
(** get_fvals for one index: history.py:154-174 *)
Definition get_fvals_one (h : hist) (z : Z) := extract_one (h_fvals h) h z.

(** history.py:176-179; for a scalar argument [.items()] on an array raises. *)
Definition get_n_evals (h : hist) (zs : list Z) : res (dict nat) :=
  let* fvals := get_fvals_many h zs in
  Ok (map (fun kv => (fst kv, length (snd kv))) fvals).

(** np.mean(rows, axis=0): column sums divided by the number of rows; the mean of zero
    rows is NaN (numpy warns).  All rows have [w] entries. (history.py:189) *)
Definition col (rows : list (list xr)) (j : nat) : list xr :=
  map (fun r => nth j r NaN) rows.
(** np.mean of a 1d array: history.py:189 *)
Definition xmean (l : list xr) : xr := xdiv (xsum l) (Fin (INR (length l))).
(** np.mean(rows, axis=0): history.py:189 *)
Definition mean_rows (w : nat) (rows : list (list xr)) : list xr :=
  map (fun j => xmean (col rows j)) (seq 0 w).

(** self.fvecs.shape[1]: history.py:147 *)
Definition fvecs_width (h : hist) : nat :=
  match h_fvecs h with None => 0 | Some b => b_width b end.

(** np.repeat(xs, n_obs, axis=0): the repetitions must match the rows or be a single
    number. (history.py:194) *)
Definition np_repeat {A} (xs : list A) (n : list nat) : res (list A) :=
  if length xs =? length n then Ok (rep_each xs n)
  else match n with
       | [k] => Ok (rep_each xs (repeat k (length xs)))
       | _ => Err ValueError
       end.

(** history.py:181-196; a scalar index is turned into a one-element list first. *)
Definition get_model_data (h : hist) (zs : list Z) (average : bool)
    : res (list (list R) * list (list xr)) :=
  let* raw_xs := get_xs_many h zs in
  let* raw_fvecs := get_fvecs_many h zs in
  if average then
    Ok (raw_xs, map (fun kv => mean_rows (fvecs_width h) (snd kv)) raw_fvecs)
  else
    match raw_fvecs with
    | [] => Err ValueError
    | _ =>
        let* xs := np_repeat raw_xs (map (fun kv => length (snd kv)) raw_fvecs) in
        Ok (xs, concat (map snd raw_fvecs))
    end.

(** history.py:198-202 *)
Definition get_n_fun (h : hist) : nat := h_nfun h.
(** history.py:201-202 *)
Definition get_n_xs (h : hist) : nat := h_nxs h.

(** [np.arange(len(mask))[mask]] (history.py:210) *)
Definition select_indices (mask : list bool) : list nat :=
  map fst (filter snd (combine (seq 0 (length mask)) mask)).

(** history.py:204-211.  Only center and radius of the region are used. *)
Definition get_x_indices_in_region (h : hist) (center : list R) (radius : R)
    : res (list nat) :=
  if h_nfun h =? 0 then Ok [] else
  let* xs := get_xs_all h in
  let mask := map (fun x => Rleb (dist x center) radius) xs in
  Ok (select_indices mask).
