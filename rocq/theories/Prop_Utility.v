(** C151-C153: seeds, proposals for misspelt names, sample weights. *)
From Coq Require Import String Reals List Arith ZArith Bool Lia Lra Permutation Sorting.Sorted.
From Verif Require Import Base XR OptionsModel ComponentModel UtilityModel.
Import ListNotations.
Open Scope list_scope.

(** * C151 - random number generators *)

Theorem C151_get_rng :
  forall G (default_rng : option Z -> G) s g,
    get_rng default_rng s = Ok g <->
    s = SGenerator g \/ s = SValue PNone /\ g = default_rng None \/
    (exists z, s = SValue (PInt z) /\ (0 <= z)%Z /\ g = default_rng (Some z)) \/
    (exists b, s = SValue (PBool b) /\ g = default_rng (Some (if b then 1 else 0)%Z)).
Proof.
  intros G dr [g'|v] g; simpl.
  - split; [intros [= ->]; auto|]. intros [[= ->]|[[H _]|[(z & H & _)|(b & H & _)]]]; easy.
  - destruct v; simpl.
    + split; [intros [= <-]; auto|]. intros [H|[[_ ->]|[(z & H & _)|(b & H & _)]]]; easy.
    + split; [intros [= <-]; right; right; right; eauto|].
      intros [H|[[H _]|[(z & H & _)|(b' & H & ->)]]]; try easy. now injection H as ->.
    + destruct (Z.ltb_spec z 0) as [Hz|Hz].
      * split; [easy|]. intros [H|[[H _]|[(z' & H & H1 & _)|(b & H & _)]]]; try easy.
        injection H as ->. lia.
      * split; [intros [= <-]; right; right; left; eauto|].
        intros [H|[[H _]|[(z' & H & H1 & ->)|(b & H & _)]]]; try easy. now injection H as ->.
    + split; [easy|]. intros [H|[[H _]|[(z' & H & _)|(b & H & _)]]]; easy.
    + split; [easy|]. intros [H|[[H _]|[(z' & H & _)|(b & H & _)]]]; easy.
    + split; [easy|]. intros [H|[[H _]|[(z' & H & _)|(b & H & _)]]]; easy.
    + split; [easy|]. intros [H|[[H _]|[(z' & H & _)|(b & H & _)]]]; easy.
Qed.

(** Everything else is rejected: negative integers by numpy, other types by the check. *)
Theorem C151_rejected :
  forall G (default_rng : option Z -> G) s e,
    get_rng default_rng s = Err e ->
    exists v, s = SValue v /\
      (e = ValueError /\ (exists z, v = PInt z /\ (z < 0)%Z) \/
       e = TypeError /\ v <> PNone /\ (forall z, v <> PInt z) /\ (forall b, v <> PBool b)).
Proof.
  intros G dr [g'|v] e; simpl; [easy|]. intros H. exists v. split; [easy|].
  destruct v; simpl in H; try easy; try (injection H as <-; right; repeat split; easy).
  destruct (Z.ltb_spec z 0); [|easy]. injection H as <-. left. eauto.
Qed.

Example C151_instance :
  get_rng (fun o => o) (SGenerator (Some 5%Z)) = Ok (Some 5%Z) /\
  get_rng (fun o => o) (SValue (PInt 42)) = Ok (Some 42%Z) /\
  get_rng (fun o => o) (SValue PNone) = Ok None /\
  get_rng (fun o => o) (SValue (PInt (-1))) = Err ValueError /\
  get_rng (fun o => o) (SValue (PStr "1"%string)) = Err TypeError.
Proof. repeat split. Qed.

(** * C152 - proposals *)

Definition non_increasing (l : list R) : Prop := StronglySorted (fun a b => b <= a)%R l.

Lemma insert_scored_perm x l : Permutation (insert_scored x l) (x :: l).
Proof.
  induction l as [|y l IH]; simpl; [auto|]. destruct (scored_geb x y); [auto|].
  rewrite IH. apply perm_swap.
Qed.
Lemma sort_scored_perm l : Permutation (sort_scored l) l.
Proof. induction l as [|x l IH]; simpl; [auto|]. rewrite insert_scored_perm. now constructor. Qed.

Lemma scored_geb_true a b : scored_geb a b = true -> (fst b <= fst a)%R.
Proof.
  unfold scored_geb. destruct (Rltb (fst b) (fst a)) eqn:E1; [apply Rltb_true in E1; lra|].
  destruct (Rltb (fst a) (fst b)) eqn:E2; [easy|]. apply Rltb_false in E2. easy.
Qed.
Lemma scored_geb_false a b : scored_geb a b = false -> (fst a <= fst b)%R.
Proof.
  unfold scored_geb. destruct (Rltb (fst b) (fst a)) eqn:E1; [easy|].
  apply Rltb_false in E1. easy.
Qed.

Lemma insert_scored_sorted x l :
  StronglySorted (fun a b => fst b <= fst a)%R l -> StronglySorted (fun a b => fst b <= fst a)%R (insert_scored x l).
Proof.
  induction l as [|y l IH]; intros H; simpl; [repeat constructor|].
  apply StronglySorted_inv in H as [H1 H2]. destruct (scored_geb x y) eqn:E.
  - apply scored_geb_true in E. constructor; [now constructor|]. constructor; [easy|].
    eapply Forall_impl; [|exact H2]. intros z Hz. simpl in Hz. lra.
  - apply scored_geb_false in E. constructor; [auto|].
    eapply Permutation_Forall; [symmetry; apply insert_scored_perm|]. now constructor.
Qed.
Lemma sort_scored_sorted l : StronglySorted (fun a b => fst b <= fst a)%R (sort_scored l).
Proof. induction l; simpl; [constructor|]. now apply insert_scored_sorted. Qed.

Lemma SS_app A (Q : A -> A -> Prop) l k : StronglySorted Q (l ++ k) ->
  StronglySorted Q l /\ forall a b, In a l -> In b k -> Q a b.
Proof.
  induction l as [|x l IH]; simpl; intros H; [split; [constructor|easy]|].
  apply StronglySorted_inv in H as [H1 H2]. destruct (IH H1) as [I1 I2]. apply Forall_app in H2 as [H2 H3].
  split; [now constructor|]. intros a b [<-|Ha] Hb; [|auto]. rewrite Forall_forall in H3. auto.
Qed.

(** The requested number of names (or all of them), each at most as often as it is among the
    possibilities, the most similar ones, in the order of their similarity. *)
Theorem C152_proposals :
  forall ratio requested possibilities number,
    (forall a b, 0 <= ratio a b)%R -> (0 < number)%Z -> possibilities <> [] ->
    exists l rest, propose_alternatives ratio requested possibilities number = Ok l /\
      length l = Nat.min (Z.to_nat number) (length possibilities) /\
      Permutation possibilities (l ++ rest) /\
      non_increasing (map (ratio requested) l) /\
      forall a b, In a l -> In b rest -> (ratio requested b <= ratio requested a)%R.
Proof.
  intros ratio req poss number HR HN HP.
  set (sc := map (fun x => (ratio req x, x)) poss).
  set (k := Z.to_nat (Z.min number (Z.of_nat (length poss)))).
  assert (F : filter (fun p : R * string => Rleb 0 (fst p)) sc = sc).
  { unfold sc. clear - HR. induction poss as [|x poss IH]; simpl; [easy|].
    replace (Rleb 0 (ratio req x)) with true by (symmetry; apply Rleb_true, HR). now rewrite IH. }
  assert (LS : length (sort_scored sc) = length poss).
  { rewrite (Permutation_length (sort_scored_perm sc)). apply map_length. }
  assert (SP : Permutation poss (map snd (sort_scored sc))).
  { rewrite (sort_scored_perm sc). unfold sc. rewrite map_map. simpl. now rewrite map_id. }
  assert (SF : forall p, In p (sort_scored sc) -> fst p = ratio req (snd p)).
  { intros p Hp. apply (Permutation_in _ (sort_scored_perm sc)) in Hp. apply in_map_iff in Hp as (x & <- & _). easy. }
  exists (map snd (firstn k (sort_scored sc))), (map snd (skipn k (sort_scored sc))).
  pose proof (sort_scored_sorted sc) as SS. rewrite <- (firstn_skipn k (sort_scored sc)) in SS.
  apply SS_app in SS as [S1 S2].
  assert (IF : forall p, In p (firstn k (sort_scored sc)) -> In p (sort_scored sc)).
  { intros p Hp. rewrite <- (firstn_skipn k). apply in_or_app. auto. }
  assert (IK : forall p, In p (skipn k (sort_scored sc)) -> In p (sort_scored sc)).
  { intros p Hp. rewrite <- (firstn_skipn k). apply in_or_app. auto. }
  split; [|split; [|split; [|split]]].
  - unfold propose_alternatives, get_close_matches.
    destruct (Z.leb_spec (Z.min number (Z.of_nat (length poss))) 0) as [H|_].
    { destruct poss; [easy|]. simpl length in H. lia. }
    fold sc. rewrite F. reflexivity.
  - rewrite map_length, firstn_length, LS. unfold k. lia.
  - rewrite <- map_app, firstn_skipn. exact SP.
  - unfold non_increasing. rewrite map_map. revert S1 IF. generalize (firstn k (sort_scored sc)).
    induction l as [|p l IH]; intros S1 IF; simpl; [constructor|].
    apply StronglySorted_inv in S1 as [S1 S3]. constructor; [apply IH; auto; intros q Hq; apply IF; now right|].
    apply Forall_map. rewrite Forall_forall in *. intros q Hq. specialize (S3 q Hq).
    rewrite <- !SF; [easy| |]; apply IF; simpl; auto.
  - intros a b Ha Hb. apply in_map_iff in Ha as (p & <- & Hp). apply in_map_iff in Hb as (q & <- & Hq).
    specialize (S2 p q Hp Hq). rewrite <- !SF; auto.
Qed.

(** Without possibilities, or if no proposals are requested, there is an exception. *)
Theorem C152_rejected :
  forall ratio requested possibilities number e,
    propose_alternatives ratio requested possibilities number = Err e <->
    e = ValueError /\ (possibilities = [] \/ (number <= 0)%Z).
Proof.
  intros ratio req poss number e. unfold propose_alternatives, get_close_matches.
  destruct (Z.leb_spec (Z.min number (Z.of_nat (length poss))) 0) as [H|H].
  - split; [|intros [-> _]; easy]. intros [= <-]. split; [easy|]. destruct poss; [auto|].
    simpl length in H. right. lia.
  - split; [easy|]. intros [_ [->|Hn]]; simpl in *; lia.
Qed.

Example C152_instance : exists l,
  propose_alternatives (fun _ b => if String.eqb b "qr" then 1 else 0)%R "q" ["ols"; "qr"; "ridge"]%string 1 = Ok l /\
  l = ["qr"%string].
Proof.
  set (ratio := fun _ b => if String.eqb b "qr" then 1%R else 0%R).
  destruct (C152_proposals ratio "q" ["ols"; "qr"; "ridge"]%string 1) as (l & rest & H & HL & HP & _ & HB).
  - intros a b. unfold ratio. destruct (String.eqb b "qr"); lra.
  - lia.
  - discriminate.
  - exists l. split; [exact H|]. destruct l as [|a [|]]; try discriminate. f_equal.
    assert (Hq : In "qr"%string ([a] ++ rest)) by (eapply Permutation_in; [exact HP|simpl; auto]).
    destruct Hq as [Hq|Hq]; [easy|]. specialize (HB a _ (or_introl eq_refl) Hq).
    unfold ratio in HB. simpl in HB. destruct (String.eqb_spec a "qr") as [E|E]; [exact E|lra].
Qed.

(** * C153 - sample weights *)

(** The only built-in weighter gives no weights, for all samples and regions and bounds; other
    names and objects that are not callable are rejected. *)
Theorem C153_built_in :
  forall bounds, exists weighter, get_sample_weighter (NStr "no_weights") bounds = Ok weighter /\
    forall xs region, weighter [xs; region] [] = Ok PNone /\
      weighter [xs] [("trustregion"%string, region)] = Ok PNone /\
      weighter [] [("xs"%string, xs); ("trustregion"%string, region)] = Ok PNone.
Proof. intros bounds. eexists. split; [reflexivity|]. intros xs region. repeat split. Qed.

Theorem C153_rejected :
  forall weighter bounds e, get_sample_weighter weighter bounds = Err e <->
    e = KeyError /\ (exists s, weighter = NStr s /\ s <> "no_weights"%string) \/
    e = TypeError /\ weighter = NOther.
Proof.
  intros [s| |] bounds e; unfold get_sample_weighter.
  - cbn [slookup]. destruct (String.eqb_spec s "no_weights") as [->|N]; cbn [bind].
    + split; [easy|]. intros [[_ (s' & H & N)]|[_ H]]; [injection H as <-; now elim N|easy].
    + split; [intros [= <-]; left; split; [easy|]; exists s; split; [easy|congruence]|].
      intros [[-> _]|[_ H]]; easy.
  - cbn [bind]. split; [easy|]. intros [[_ (s' & H & _)]|[_ H]]; easy.
  - cbn [bind]. split; [intros [= <-]; auto|]. intros [[_ (s' & H & _)]|[-> _]]; easy.
Qed.

(** A weighter of the user is called with the bounds as keyword argument. *)
Theorem C153_user :
  forall has_name sig body bounds xs region,
    sig = [mkParam "xs" false None; mkParam "trustregion" false None; mkParam "bounds" false None]%string ->
    exists weighter, get_sample_weighter (NFun has_name (mkFun sig body)) bounds = Ok weighter /\
      weighter [xs; region] [] =
      body [("xs", xs); ("trustregion", region); ("bounds", bounds)]%string.
Proof. intros hn sig body bounds xs region ->. eexists. split; reflexivity. Qed.

Example C153_instance : exists w1 w2,
  get_sample_weighter (NStr "no_weights") (PObj 1) = Ok w1 /\ w1 [PObj 2; PObj 3] [] = Ok PNone /\
  get_sample_weighter (NFun true (mkFun (pf_sig no_weights) (fun d => match slookup d "bounds" with
     Some v => Ok v | None => Err KeyError end))) (PObj 1) = Ok w2 /\
  w2 [PObj 2; PObj 3] [] = Ok (PObj 1) /\
  get_sample_weighter (NStr "weights") (PObj 1) = Err KeyError.
Proof. eexists _, _. split; [reflexivity|]. split; [reflexivity|]. split; [reflexivity|]. split; reflexivity. Qed.
