(** Model of /repo/src/tranquilo/utilities.py and weighting.py.  No proofs here. *)
From Coq Require Import Reals List Arith ZArith Bool String Ascii.
From Verif Require Import Base XR OptionsModel ComponentModel.
Import ListNotations.
Open Scope string_scope.
Open Scope list_scope.

(** * utilities.get_rng *)

(** A seed: an instance of np.random.Generator (of type [G]), or some other python value
    (utilities.py:47-52) *)
Inductive seed (G : Type) := SGenerator (g : G) | SValue (v : pyval).
Arguments SGenerator {G} g.
Arguments SValue {G} v.

(** utilities.py:36-53.  [default_rng] is np.random.default_rng with its argument, None or an
    integer; it raises ValueError for negative integers.  bool is a subclass of int. *)
Definition get_rng {G} (default_rng : option Z -> G) (s : seed G) : res G :=
  match s with
  | SGenerator g => Ok g
  | SValue v =>
      match v with
      | PNone => Ok (default_rng None)
      | _ =>
          if isinstance v TInt then
            match v with
            | PInt z => if (z <? 0)%Z then Err ValueError else Ok (default_rng (Some z))
            | PBool b => Ok (default_rng (Some (if b then 1 else 0)%Z))
            | _ => Err TypeError
            end
          else Err TypeError
      end
  end.

(** * utilities.propose_alternatives *)

(** The order of strings by code points (used in utilities.py:29-31) *)
Fixpoint string_leb (a b : string) : bool :=
  match a, b with
  | EmptyString, _ => true
  | String _ _, EmptyString => false
  | String x a', String y b' =>
      if (nat_of_ascii x <? nat_of_ascii y)%nat then true
      else if (nat_of_ascii y <? nat_of_ascii x)%nat then false
      else string_leb a' b'
  end.
(** Tuples (score, string) are compared lexicographically (used in utilities.py:29-31) *)
Definition scored_geb (a b : R * string) : bool :=
  if Rltb (fst b) (fst a) then true
  else if Rltb (fst a) (fst b) then false
  else string_leb (snd b) (snd a).

(** heapq.nlargest(n, l) is sorted(l, reverse=True)[:n] (inside utilities.py:29-31) *)
Fixpoint insert_scored (x : R * string) (l : list (R * string)) : list (R * string) :=
  match l with
  | [] => [x]
  | y :: l' => if scored_geb x y then x :: l else y :: insert_scored x l'
  end.
(** Sorting inside difflib.get_close_matches: utilities.py:29-31 *)
Definition sort_scored (l : list (R * string)) : list (R * string) := fold_right insert_scored [] l.
(** heapq.nlargest inside difflib.get_close_matches: utilities.py:29-31 *)
Definition nlargest (n : nat) (l : list (R * string)) : list (R * string) := firstn n (sort_scored l).

(** difflib.get_close_matches(word, possibilities, n, cutoff) for an integer n and a cutoff in
    [0, 1].  [ratio word x] is SequenceMatcher.ratio(); the two quick upper bounds on it that
    are tested first never change the result. (utilities.py:29-31) *)
Definition get_close_matches (ratio : string -> string -> R) (word : string)
    (possibilities : list string) (n : Z) (cutoff : R) : res (list string) :=
  if (n <=? 0)%Z then Err ValueError else
  let scored := map (fun x => (ratio word x, x)) possibilities in
  let result := filter (fun p => Rleb cutoff (fst p)) scored in
  Ok (map snd (nlargest (Z.to_nat n) result)).

(** utilities.py:6-33 *)
Definition propose_alternatives (ratio : string -> string -> R) (requested : string)
    (possibilities : list string) (number : Z) : res (list string) :=
  let number := Z.min number (Z.of_nat (List.length possibilities)) in
  get_close_matches ratio requested possibilities number 0%R.

(** * weighting.py *)

(** weighting.py:26-27 *)
Definition no_weights : pyfun :=
  mkFun [mkParam "xs" false None; mkParam "trustregion" false None; mkParam "bounds" false None]
    (fun _ => Ok PNone).

(** weighting.py:4-23.  The weighter is a string, a callable, or something else; a dictionary
    lookup of an unknown name is a KeyError. *)
Definition get_sample_weighter (weighter : name_or_func) (bounds : pyval) : res pycallable :=
  let* f := match weighter with
            | NStr s => match slookup [("no_weights", no_weights)] s with
                        | Some f => Ok f
                        | None => Err KeyError
                        end
            | NFun _ f => Ok f
            | NOther => Err TypeError
            end in
  Ok (partial_call f [("bounds", bounds)]).
