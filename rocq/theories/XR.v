(** Extended reals: the values of a float, without rounding, overflow and signed zeros.
    Used wherever the modelled code can meet infinities or NaN. *)
From Coq Require Import Reals List Lra Bool.
From Verif Require Import Base.
Import ListNotations.
Open Scope R_scope.

Inductive xr := Fin (r : R) | PInf | NInf | NaN.

(** Decidable comparison of reals (from the classical axioms of Coq.Reals). *)
Definition Rleb (x y : R) : bool := if Rle_dec x y then true else false.
Definition Rltb (x y : R) : bool := if Rlt_dec x y then true else false.
Definition Reqb (x y : R) : bool := if Req_EM_T x y then true else false.

Lemma Rleb_true x y : Rleb x y = true <-> x <= y.
Proof. unfold Rleb; destruct (Rle_dec x y); split; auto; discriminate || contradiction. Qed.
Lemma Rleb_false x y : Rleb x y = false <-> y < x.
Proof. unfold Rleb; destruct (Rle_dec x y); split; intros; try discriminate; auto; lra. Qed.
Lemma Rltb_true x y : Rltb x y = true <-> x < y.
Proof. unfold Rltb; destruct (Rlt_dec x y); split; auto; discriminate || contradiction. Qed.
Lemma Rltb_false x y : Rltb x y = false <-> y <= x.
Proof. unfold Rltb; destruct (Rlt_dec x y); split; intros; try discriminate; auto; lra. Qed.
Lemma Reqb_true x y : Reqb x y = true <-> x = y.
Proof. unfold Reqb; destruct (Req_EM_T x y); split; auto; discriminate || contradiction. Qed.
Lemma Reqb_false x y : Reqb x y = false <-> x <> y.
Proof. unfold Reqb; destruct (Req_EM_T x y); split; intros; try discriminate; auto; contradiction. Qed.

Lemma Rleb_spec x y : reflect (x <= y) (Rleb x y).
Proof. unfold Rleb; destruct (Rle_dec x y); constructor; auto. Qed.
Lemma Rltb_spec x y : reflect (x < y) (Rltb x y).
Proof. unfold Rltb; destruct (Rlt_dec x y); constructor; auto. Qed.
Lemma Reqb_spec x y : reflect (x = y) (Reqb x y).
Proof. unfold Reqb; destruct (Req_EM_T x y); constructor; auto. Qed.

(** IEEE-754 comparisons: anything involving NaN is false. *)
Definition xle (a b : xr) : bool :=
  match a, b with
  | NaN, _ | _, NaN => false
  | NInf, _ | _, PInf => true
  | Fin x, Fin y => Rleb x y
  | PInf, _ | _, NInf => false
  end.
Definition xlt (a b : xr) : bool :=
  match a, b with
  | NaN, _ | _, NaN => false
  | Fin x, Fin y => Rltb x y
  | NInf, NInf | PInf, _ | _, NInf => false
  | NInf, _ | _, PInf => true
  end.
Definition xge a b := xle b a.
Definition xgt a b := xlt b a.
Definition xeq (a b : xr) : bool :=
  match a, b with
  | Fin x, Fin y => Reqb x y
  | PInf, PInf | NInf, NInf => true
  | _, _ => false
  end.

Definition isfinite (a : xr) : bool := match a with Fin _ => true | _ => false end.
Definition isnan (a : xr) : bool := match a with NaN => true | _ => false end.

Definition xopp (a : xr) : xr :=
  match a with Fin x => Fin (- x) | PInf => NInf | NInf => PInf | NaN => NaN end.
Definition xadd (a b : xr) : xr :=
  match a, b with
  | NaN, _ | _, NaN => NaN
  | Fin x, Fin y => Fin (x + y)
  | PInf, NInf | NInf, PInf => NaN
  | PInf, _ | _, PInf => PInf
  | NInf, _ | _, NInf => NInf
  end.
Definition xsub (a b : xr) : xr := xadd a (xopp b).
Definition xsign_inf (pos : bool) : xr := if pos then PInf else NInf.
Definition xmul (a b : xr) : xr :=
  match a, b with
  | NaN, _ | _, NaN => NaN
  | Fin x, Fin y => Fin (x * y)
  | PInf, PInf | NInf, NInf => PInf
  | PInf, NInf | NInf, PInf => NInf
  | PInf, Fin x | Fin x, PInf =>
      if Reqb x 0 then NaN else xsign_inf (Rltb 0 x)
  | NInf, Fin x | Fin x, NInf =>
      if Reqb x 0 then NaN else xsign_inf (Rltb x 0)
  end.
(** Division; [x / 0] is modelled as in numpy (+-inf, or NaN for 0/0) with a positive
    zero. *)
Definition xdiv (a b : xr) : xr :=
  match a, b with
  | NaN, _ | _, NaN => NaN
  | Fin x, Fin y =>
      if Reqb y 0 then (if Reqb x 0 then NaN else xsign_inf (Rltb 0 x)) else Fin (x / y)
  | Fin _, (PInf | NInf) => Fin 0
  | (PInf | NInf), (PInf | NInf) => NaN
  | PInf, Fin y => xsign_inf (Rleb 0 y)
  | NInf, Fin y => xsign_inf (Rltb y 0)
  end.

Definition xsquare a := xmul a a.
Definition xabs (a : xr) : xr :=
  match a with Fin x => Fin (Rabs x) | PInf | NInf => PInf | NaN => NaN end.
Fixpoint xsum (l : list xr) : xr :=
  match l with [] => Fin 0 | a :: l' => xadd a (xsum l') end.

(** np.maximum / np.minimum propagate NaN. *)
Definition xmax (a b : xr) : xr :=
  match a, b with NaN, _ | _, NaN => NaN | _, _ => if xle a b then b else a end.
Definition xmin (a b : xr) : xr :=
  match a, b with NaN, _ | _, NaN => NaN | _, _ => if xle a b then a else b end.
(** np.clip(a, lo, hi) = minimum(hi, maximum(a, lo)). *)
Definition xclip (a lo hi : xr) : xr := xmin hi (xmax a lo).

Lemma xle_refl a : a <> NaN -> xle a a = true.
Proof. destruct a; simpl; intros; try congruence. apply Rleb_true; lra. Qed.

Lemma xle_trans a b c : xle a b = true -> xle b c = true -> xle a c = true.
Proof.
  destruct a, b, c; simpl; intros; try congruence.
  rewrite Rleb_true in *. lra.
Qed.

Lemma xlt_le_trans a b c : xlt a b = true -> xle b c = true -> xlt a c = true.
Proof.
  destruct a, b, c; simpl; intros; try congruence.
  rewrite Rleb_true, Rltb_true in *. lra.
Qed.

Lemma xle_not_nan_l a b : xle a b = true -> a <> NaN.
Proof. destruct a, b; simpl; congruence. Qed.
Lemma xle_not_nan_r a b : xle a b = true -> b <> NaN.
Proof. destruct a, b; simpl; congruence. Qed.

Lemma xle_total a b : a <> NaN -> b <> NaN -> xle a b = true \/ xle b a = true.
Proof.
  destruct a, b; simpl; intros; auto; try congruence.
  rewrite !Rleb_true. lra.
Qed.

Lemma xlt_xle a b : xlt a b = true -> xle a b = true.
Proof. destruct a, b; simpl; auto. rewrite Rltb_true, Rleb_true; lra. Qed.

Lemma xle_false_lt a b : a <> NaN -> b <> NaN -> xle a b = false -> xlt b a = true.
Proof.
  destruct a, b; simpl; intros; auto; try congruence.
  rewrite Rleb_false in *. now apply Rltb_true.
Qed.

Lemma xsum_app l k : xsum (l ++ k) = xadd (xsum l) (xsum k).
Proof.
  induction l as [|a l IH]; simpl.
  - destruct (xsum k); simpl; auto. f_equal; lra.
  - rewrite IH. destruct a, (xsum l), (xsum k); simpl; auto. f_equal; lra.
Qed.

Lemma xsum_fin l : xsum (map Fin l) = Fin (fold_right Rplus 0 l).
Proof. induction l as [|a l IH]; simpl; auto. now rewrite IH. Qed.

(** Computation that leaves real arithmetic alone. *)
Ltac hcompute := cbv -[IZR Rplus Rmult Rminus Ropp Rinv Rdiv sqrt Rabs Reqb Rleb Rltb].
Ltac splits := repeat match goal with |- _ /\ _ => split end.
