(** Errors as values, list helpers shared by all models. *)
From Coq Require Import List Arith ZArith Lia Bool.
Import ListNotations.
Set Implicit Arguments.

(** Python exceptions that the modelled code can raise.  [OutOfFuel] is never a Python
    exception; it marks a loop model that ran out of fuel. *)
Inductive err :=
| ValueError | TypeError | KeyError | IndexError | AttributeError
| UnboundLocalError | StopIteration | LinAlgError | ZeroDivisionError
| OverflowError | NotImplementedError
| UserError (n : nat) | OutOfFuel.

Inductive res (A : Type) :=
| Ok (a : A)
| Err (e : err).
Arguments Ok {A} a.
Arguments Err {A} e.

Definition bind {A B} (m : res A) (f : A -> res B) : res B :=
  match m with Ok a => f a | Err e => Err e end.

Notation "'let*' x ':=' m 'in' k" := (bind m (fun x => k))
  (at level 200, x pattern, right associativity).

Definition is_ok {A} (m : res A) : bool :=
  match m with Ok _ => true | Err _ => false end.

(** Element-wise map of a partial function; the first failure wins. *)
Fixpoint mapM {A B} (f : A -> res B) (l : list A) : res (list B) :=
  match l with
  | [] => Ok []
  | a :: l' => let* b := f a in let* bs := mapM f l' in Ok (b :: bs)
  end.

Lemma mapM_ok_length A B (f : A -> res B) l bs :
  mapM f l = Ok bs -> length bs = length l.
Proof.
  revert bs; induction l as [|a l IH]; simpl; intros bs H.
  - now injection H as <-.
  - destruct (f a) as [b|e]; simpl in H; [|discriminate].
    destruct (mapM f l) as [bs'|e]; simpl in H; [|discriminate].
    injection H as <-. simpl. now rewrite (IH bs').
Qed.

Lemma mapM_ok_Forall2 A B (f : A -> res B) l bs :
  mapM f l = Ok bs <-> Forall2 (fun a b => f a = Ok b) l bs.
Proof.
  split.
  - revert bs; induction l as [|a l IH]; simpl; intros bs H.
    + injection H as <-. constructor.
    + destruct (f a) as [b|e] eqn:E; simpl in H; [|discriminate].
      destruct (mapM f l) as [bs'|e]; simpl in H; [|discriminate].
      injection H as <-. constructor; auto.
  - induction 1 as [|a b l bs Hab _ IH]; simpl; [easy|].
    now rewrite Hab; simpl; rewrite IH.
Qed.

Lemma mapM_map A B C (f : B -> res C) (g : A -> B) l :
  mapM f (map g l) = mapM (fun a => f (g a)) l.
Proof. induction l as [|a l IH]; simpl; [easy|]. now rewrite IH. Qed.

Lemma mapM_ext A B (f g : A -> res B) l :
  (forall a, In a l -> f a = g a) -> mapM f l = mapM g l.
Proof.
  induction l as [|a l IH]; simpl; intros H; [easy|].
  rewrite H by auto. destruct (g a); simpl; [|easy].
  rewrite IH; auto.
Qed.

Lemma mapM_Ok A B (f : A -> B) l : mapM (fun a => Ok (f a)) l = Ok (map f l).
Proof. induction l as [|a l IH]; simpl; [easy|]. now rewrite IH. Qed.

(** [len(l)]-safe pairing of two lists (Python [zip]). *)
Definition zip {A B} (l : list A) (k : list B) : list (A * B) := combine l k.

Fixpoint map2 {A B C} (f : A -> B -> C) (l : list A) (k : list B) : list C :=
  match l, k with
  | a :: l', b :: k' => f a b :: map2 f l' k'
  | _, _ => []
  end.

Lemma map2_length A B C (f : A -> B -> C) l k :
  length (map2 f l k) = Nat.min (length l) (length k).
Proof.
  revert k; induction l as [|a l IH]; destruct k; simpl; auto.
Qed.

Lemma map2_nth_error A B C (f : A -> B -> C) l k i :
  nth_error (map2 f l k) i =
  match nth_error l i, nth_error k i with
  | Some a, Some b => Some (f a b) | _, _ => None end.
Proof.
  revert k i; induction l as [|a l IH]; destruct k as [|b k]; destruct i; simpl; auto.
  - now destruct (nth_error l i).
Qed.

Lemma map2_nth A B C (f : A -> B -> C) l k i a b c :
  i < length l -> i < length k ->
  nth i (map2 f l k) c = f (nth i l a) (nth i k b).
Proof.
  revert k i; induction l as [|x l IH]; destruct k as [|y k]; destruct i; simpl;
    intros; try lia; auto. apply IH; lia.
Qed.

Lemma nth_error_ext A (l k : list A) :
  (forall i, nth_error l i = nth_error k i) -> l = k.
Proof.
  revert k; induction l as [|a l IH]; destruct k as [|b k]; intros H; auto.
  - now specialize (H 0).
  - now specialize (H 0).
  - f_equal. + specialize (H 0); simpl in H; congruence.
    + apply IH. intros i. apply (H (S i)).
Qed.

Lemma nth_error_repeat_lt A (a : A) n i : i < n -> nth_error (repeat a n) i = Some a.
Proof. revert i; induction n; destruct i; simpl; intros; try lia; auto. apply IHn; lia. Qed.

(** [flat_map (fun (a,n) => repeat a n)]: numpy's [np.repeat(xs, reps, axis=0)] for
    argument lists of equal length. *)
Fixpoint rep_each {A} (l : list A) (n : list nat) : list A :=
  match l, n with
  | a :: l', k :: n' => repeat a k ++ rep_each l' n'
  | _, _ => []
  end.

Lemma rep_each_length A (l : list A) n :
  length l = length n -> length (rep_each l n) = list_sum n.
Proof.
  revert n; induction l as [|a l IH]; destruct n as [|k n]; simpl; intros H; try lia.
  rewrite app_length, repeat_length, IH; lia.
Qed.

Lemma rep_each_map A B (f : A -> B) l n : rep_each (map f l) n = map f (rep_each l n).
Proof.
  revert n; induction l as [|a l IH]; destruct n as [|k n]; simpl; auto.
  rewrite IH, map_app. f_equal. now induction k; simpl; [|f_equal].
Qed.

Lemma rep_each_In A (l : list A) n a : In a (rep_each l n) -> In a l.
Proof.
  revert n; induction l as [|b l IH]; destruct n as [|k n]; simpl; auto; [easy|].
  intros H; apply in_app_iff in H; destruct H as [H|H].
  - apply repeat_spec in H. auto.
  - eauto.
Qed.

Lemma Forall2_impl A B (P Q : A -> B -> Prop) l k :
  (forall a b, P a b -> Q a b) -> Forall2 P l k -> Forall2 Q l k.
Proof. intros H. induction 1; constructor; auto. Qed.
