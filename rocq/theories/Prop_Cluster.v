(** Properties C51 and C52: clustering. *)
From Coq Require Import Reals List Arith ZArith Bool Lia Lra Psatz.
From Verif Require Import Base XR Vec FVec HistoryModel VolumeModel FilterModel Prop_Filter.
Import ListNotations.
Open Scope R_scope.

Lemma filter_length_le {A} (f : A -> bool) l : (length (filter f l) <= length l)%nat.
Proof. induction l; simpl; [lia|]. destruct (f a); simpl; lia. Qed.

Section Cluster.
Variables (n : nat) (d : fmat) (eps : R).
Hypothesis Hsym : forall i j, (i < n)%nat -> (j < n)%nat -> d i j = d j i.
Hypothesis Hdiag : forall i, (i < n)%nat -> d i i = 0.
Hypothesis Heps : 0 <= eps.

Definition labelled (L : nat -> Z) (p : nat) : bool := negb (L p <? 0)%Z.
Definition n_lab (L : nat -> Z) : nat := length (filter (labelled L) (seq 0 n)).

Record inv (s : cl) : Prop := mkInv {
  inv_lab : forall p, (p < n)%nat -> (0 <= cl_labels s p)%Z ->
    exists k c, cl_labels s p = Z.of_nat k /\ nth_error (cl_centers s) k = Some c /\ d c p <= eps;
  inv_cen : forall k c, nth_error (cl_centers s) k = Some c -> (c < n)%nat /\ cl_labels s c = Z.of_nat k;
  inv_far : forall p c, (p < n)%nat -> (cl_labels s p < 0)%Z -> In c (cl_centers s) -> eps < d c p;
  inv_sep : forall k k' c c', k <> k' -> nth_error (cl_centers s) k = Some c ->
    nth_error (cl_centers s) k' = Some c' -> eps < d c c';
  inv_num : cl_n_labeled s = n_lab (cl_labels s)
}.

Lemma filter_length_change (f g : nat -> bool) p l : NoDup l -> In p l ->
  f p = false -> g p = true -> (forall q, q <> p -> g q = f q) ->
  length (filter g l) = S (length (filter f l)).
Proof.
  intros ND HI Hf Hg E. induction l as [|a l IH]; [easy|]. inversion ND; subst. simpl.
  destruct HI as [->|HI].
  - rewrite Hf, Hg. simpl. f_equal. f_equal. apply filter_ext_in. intros q Hq. apply E. congruence.
  - rewrite E by congruence. destruct (f a); simpl; rewrite IH; auto.
Qed.
Lemma n_lab_set L p v : (p < n)%nat -> (L p < 0)%Z -> (0 <= v)%Z -> n_lab (set_label L p v) = S (n_lab L).
Proof.
  intros Hp Hl Hv. apply filter_length_change with (p := p).
  - apply seq_NoDup.
  - apply in_seq. lia.
  - unfold labelled. apply Z.ltb_lt in Hl. now rewrite Hl.
  - unfold labelled, set_label. rewrite Nat.eqb_refl. destruct (Z.ltb_spec v 0); [lia|easy].
  - intros q Hq. unfold labelled, set_label. destruct (Nat.eqb_spec q p); easy.
Qed.

Lemma n_lab_lt s p : (p < n)%nat -> (cl_labels s p < 0)%Z -> (n_lab (cl_labels s) < n)%nat.
Proof.
  intros Hp Hl. unfold n_lab.
  assert (H : forall l, In p l -> (length (filter (labelled (cl_labels s)) l) < length l)%nat).
  { induction l as [|a l IH]; [easy|]. intros [->|HI]; simpl.
    - unfold labelled at 1. apply Z.ltb_lt in Hl. rewrite Hl. simpl.
      pose proof (filter_length_le (labelled (cl_labels s)) l). lia.
    - specialize (IH HI). destruct (labelled _ a); simpl; lia. }
  specialize (H (seq 0 n)). rewrite seq_length in H. apply H. apply in_seq. lia.
Qed.
Lemma n_lab_all s p : (n <= n_lab (cl_labels s))%nat -> (p < n)%nat -> (0 <= cl_labels s p)%Z.
Proof.
  intros H Hp. destruct (Z.lt_ge_cases (cl_labels s p) 0) as [L|L]; [|easy].
  pose proof (n_lab_lt s p Hp L). lia.
Qed.
Lemma n_lab_ex s : (n_lab (cl_labels s) < n)%nat -> exists p, (p < n)%nat /\ (cl_labels s p < 0)%Z.
Proof.
  unfold n_lab. intros H.
  destruct (existsb (fun p => cl_labels s p <? 0)%Z (seq 0 n)) eqn:E.
  - apply existsb_exists in E as (p & Hp & E). exists p. apply in_seq in Hp. split; [lia|]. now apply Z.ltb_lt.
  - exfalso. assert (G : filter (labelled (cl_labels s)) (seq 0 n) = seq 0 n).
    { clear H. induction (seq 0 n) as [|a l IH]; [easy|]. simpl in *. apply orb_false_iff in E as [E1 E2].
      unfold labelled at 1. rewrite E1. simpl. f_equal. auto. }
    rewrite G, seq_length in H. lia.
Qed.

Lemma inv_nodup s : inv s -> NoDup (cl_centers s).
Proof.
  intros I. apply NoDup_nth_error. intros i j Hi E.
  destruct (nth_error (cl_centers s) i) as [c|] eqn:Ei.
  - symmetry in E. pose proof (inv_cen s I _ _ Ei) as [_ A]. pose proof (inv_cen s I _ _ E) as [_ B]. lia.
  - apply nth_error_None in Ei. lia.
Qed.
Lemma inv_centers_le s : inv s -> (length (cl_centers s) <= n_lab (cl_labels s))%nat.
Proof.
  intros I. apply NoDup_incl_length; [now apply inv_nodup|]. intros c Hc.
  apply In_nth_error in Hc as [k Hk]. apply (inv_cen s I) in Hk as [H1 H2].
  apply filter_In. split; [apply in_seq; lia|]. unfold labelled. rewrite H2.
  destruct (Z.ltb_spec (Z.of_nat k) 0); [lia|easy].
Qed.

(** Adding a cluster with center [c] and members given by [L']. *)
Lemma inv_add s c L' : inv s -> (c < n)%nat -> (cl_labels s c < 0)%Z ->
  (forall p, (p < n)%nat -> L' p = if ((cl_labels s p <? 0)%Z && Rleb (d c p) eps) then Z.of_nat (length (cl_centers s))
                                   else cl_labels s p) ->
  inv (mkCl L' (cl_centers s ++ [c]) (n_lab L')).
Proof.
  intros I Hc Hl HL. set (C := cl_centers s) in *.
  assert (OLD : forall p, (p < n)%nat -> (0 <= cl_labels s p)%Z -> L' p = cl_labels s p).
  { intros p Hp H. rewrite HL by easy. destruct (Z.ltb_spec (cl_labels s p) 0); [lia|easy]. }
  assert (LC : L' c = Z.of_nat (length C)).
  { rewrite HL by easy. apply Z.ltb_lt in Hl. rewrite Hl, Hdiag by easy. simpl.
    destruct (Rleb_spec 0 eps); [easy|lra]. }
  assert (CEN : forall k x, nth_error (C ++ [c]) k = Some x ->
     (nth_error C k = Some x /\ (k < length C)%nat) \/ (k = length C /\ x = c)).
  { intros k x H. destruct (lt_dec k (length C)).
    - rewrite nth_error_app1 in H by easy. auto.
    - rewrite nth_error_app2 in H by lia.
      destruct (k - length C)%nat as [|[|]] eqn:E; simpl in H; try discriminate.
      injection H as <-. right. split; [lia|easy]. }
  constructor; cbn [cl_labels cl_centers cl_n_labeled]; [| | | |reflexivity].
  - intros p Hp. rewrite HL by easy.
    destruct (Z.ltb_spec (cl_labels s p) 0) as [A|A]; simpl.
    + destruct (Rleb_spec (d c p) eps); [|lia]. intros _. exists (length C), c. split; [easy|].
      split; [|easy]. rewrite nth_error_app2, Nat.sub_diag by lia. easy.
    + intros _. destruct (inv_lab s I p Hp A) as (k & x & E1 & E2 & E3). exists k, x.
      split; [easy|]. split; [|easy]. rewrite nth_error_app1; [easy|]. apply nth_error_Some. fold C in E2. congruence.
  - intros k x H. apply CEN in H as [[H _]|[-> ->]]; [|easy].
    apply (inv_cen s I) in H as [H1 H2]. split; [easy|]. rewrite OLD; lia.
  - intros p x Hp. rewrite HL by easy.
    destruct (Z.ltb_spec (cl_labels s p) 0) as [A|A]; simpl; [|lia].
    destruct (Rleb_spec (d c p) eps) as [B|B]; [lia|]. intros _ Hx. apply in_app_or in Hx as [Hx|[<-|[]]].
    + now apply (inv_far s I).
    + lra.
  - intros k k' x x' N H H'.
    apply CEN in H as [[H Hk]|[-> ->]]; apply CEN in H' as [[H' Hk']|[-> ->]].
    + now apply (inv_sep s I k k').
    + apply (inv_far s I); try easy. now apply nth_error_In in H.
    + pose proof (inv_cen s I _ _ H') as [Q _]. rewrite Hsym by easy.
      apply (inv_far s I); try easy. now apply nth_error_In in H'.
    + easy.
Qed.

Lemma n_neighbors_0 L i : n_neighbors n d eps L i = 0%nat ->
  forall j, (j < n)%nat -> (L j < 0)%Z -> j <> i -> eps < d i j.
Proof.
  unfold n_neighbors. intros H j Hj Hl N.
  destruct (Rle_lt_dec (d i j) eps) as [A|A]; [|easy]. exfalso.
  assert (G : In j (filter (fun j => ((L j <? 0)%Z && negb (j =? i)%nat && Rleb (d i j) eps)) (seq 0 n))).
  { apply filter_In. split; [apply in_seq; lia|]. apply Z.ltb_lt in Hl. rewrite Hl.
    apply Nat.eqb_neq in N. rewrite N. simpl. destruct (Rleb_spec (d i j) eps); [easy|lra]. }
  destruct (filter _ _); [easy|discriminate].
Qed.

(** The scan over the first points. *)
Lemma scan_inv : forall l pre s cand best,
  seq 0 n = pre ++ l -> inv s ->
  (forall p, In p pre -> (cl_labels s p < 0)%Z -> (0 < best)%nat) ->
  ((0 < best)%nat -> In cand pre /\ (cl_labels s cand < 0)%Z) ->
  exists s' cand' best',
    fold_left (scan_point n d eps) l (Ok (s, cand, best)) = Ok (s', cand', best') /\ inv s' /\
    (cl_n_labeled s <= cl_n_labeled s')%nat /\
    (forall p, (p < n)%nat -> (cl_labels s' p < 0)%Z -> (0 < best')%nat) /\
    ((0 < best')%nat -> (cand' < n)%nat /\ (cl_labels s' cand' < 0)%Z).
Proof.
  induction l as [|i l IH]; intros pre s cand best HS I HB HC.
  - rewrite app_nil_r in HS. subst pre. exists s, cand, best. splits; try easy.
    + intros p Hp. apply HB. apply in_seq. lia.
    + intros H. apply HC in H as [H1 H2]. apply in_seq in H1. split; [lia|easy].
  - assert (Hi : (i < n)%nat).
    { assert (In i (seq 0 n)) by (rewrite HS; apply in_or_app; right; now left). apply in_seq in H. lia. }
    assert (HS' : seq 0 n = (pre ++ [i]) ++ l) by (now rewrite <- app_assoc).
    assert (Npre : ~ In i pre).
    { pose proof (seq_NoDup n 0) as ND. rewrite HS in ND. apply NoDup_remove_2 in ND.
      intros H. apply ND. apply in_or_app. now left. }
    cbn [fold_left]. unfold scan_point at 2. cbn [bind].
    destruct (Z.ltb_spec (cl_labels s i) 0) as [Li|Li].
    + destruct (Nat.eqb_spec (n_neighbors n d eps (cl_labels s) i) 0) as [K|K].
      * assert (LT : (length (cl_centers s) < n)%nat).
        { pose proof (inv_centers_le s I). pose proof (n_lab_lt s i Hi Li). lia. }
        apply Nat.ltb_lt in LT. rewrite LT.
        assert (NL : S (cl_n_labeled s) = n_lab (set_label (cl_labels s) i (Z.of_nat (length (cl_centers s))))).
        { rewrite n_lab_set by lia. now rewrite (inv_num s I). }
        rewrite NL.
        destruct (IH (pre ++ [i]) (mkCl (set_label (cl_labels s) i (Z.of_nat (length (cl_centers s))))
                 (cl_centers s ++ [i]) (n_lab (set_label (cl_labels s) i (Z.of_nat (length (cl_centers s))))))
                 cand best HS') as (s' & cand' & best' & E & I' & M & R1 & R2).
        -- apply inv_add; try easy. intros p Hp. unfold set_label.
           destruct (Nat.eqb_spec p i) as [->|N].
           ++ apply Z.ltb_lt in Li. rewrite Li, Hdiag by easy. simpl.
              destruct (Rleb_spec 0 eps); [easy|lra].
           ++ destruct (Z.ltb_spec (cl_labels s p) 0) as [Lp|Lp]; [|easy]. simpl.
              pose proof (n_neighbors_0 _ _ K p Hp Lp N).
              destruct (Rleb_spec (d i p) eps); [lra|easy].
        -- intros p Hp. cbn [cl_labels]. unfold set_label. destruct (Nat.eqb_spec p i) as [->|N]; [lia|].
           apply in_app_or in Hp as [Hp|[Hp|[]]]; [|now subst]. now apply HB.
        -- intros H. apply HC in H as [H1 H2]. split; [apply in_or_app; now left|].
           cbn [cl_labels]. unfold set_label. destruct (Nat.eqb_spec cand i); [now subst|easy].
        -- exists s', cand', best'. splits; try easy. cbn [cl_n_labeled] in M. lia.
      * assert (KK : (0 < n_neighbors n d eps (cl_labels s) i)%nat) by lia.
        destruct (Nat.ltb_spec best (n_neighbors n d eps (cl_labels s) i)) as [B|B].
        -- apply (IH (pre ++ [i])); try easy.
           intros _. split; [apply in_or_app; right; now left|easy].
        -- apply (IH (pre ++ [i])); try easy.
           ++ intros p _ _. lia.
           ++ intros H. apply HC in H as [H1 H2]. split; [apply in_or_app; now left|easy].
    + apply (IH (pre ++ [i])); try easy.
      * intros p Hp Lp. apply in_app_or in Hp as [Hp|[<-|[]]]; [eauto|lia].
      * intros H. apply HC in H as [H1 H2]. split; [apply in_or_app; now left|easy].
Qed.

Lemma label_neighbors_spec c counter : forall l s, NoDup l -> (forall p, In p l -> (p < n)%nat) ->
  cl_n_labeled s = n_lab (cl_labels s) ->
  let s' := fold_left (label_neighbor d eps counter c) l s in
  cl_centers s' = cl_centers s /\ cl_n_labeled s' = n_lab (cl_labels s') /\
  forall p, cl_labels s' p = if existsb (Nat.eqb p) l && (cl_labels s p <? 0)%Z && Rleb (d c p) eps then Z.of_nat counter
                             else cl_labels s p.
Proof.
  induction l as [|j l IH]; intros s ND Hl N; cbn [fold_left].
  - now splits.
  - inversion ND as [|? ? Nj ND']; subst.
    assert (Hj : (j < n)%nat) by (apply Hl; now left).
    set (s1 := label_neighbor d eps counter c s j).
    assert (N1 : cl_n_labeled s1 = n_lab (cl_labels s1)).
    { unfold s1, label_neighbor. destruct (Z.ltb_spec (cl_labels s j) 0); [|easy]. simpl.
      destruct (Rleb (d c j) eps); [|easy]. cbn [cl_n_labeled cl_labels]. rewrite n_lab_set by lia. lia. }
    destruct (IH s1 ND' ltac:(intros; apply Hl; now right) N1) as (E1 & E2 & E3). cbv zeta in E1, E2, E3.
    split; [|split; [exact E2|]].
    + rewrite E1. unfold s1, label_neighbor. now destruct (_ && _).
    + intros p. rewrite E3. cbn [existsb].
      assert (NE : existsb (Nat.eqb j) l = false).
      { destruct (existsb (Nat.eqb j) l) eqn:E; [|easy]. apply existsb_exists in E as (q & Hq & E).
        apply Nat.eqb_eq in E. now subst. }
      assert (L1 : cl_labels s1 p = if (p =? j)%nat && (cl_labels s p <? 0)%Z && Rleb (d c p) eps
                                    then Z.of_nat counter else cl_labels s p).
      { unfold s1, label_neighbor.
        destruct (Nat.eqb_spec p j) as [->|Q]; simpl.
        - destruct ((cl_labels s j <? 0)%Z && Rleb (d c j) eps); [|easy]. cbn [cl_labels].
          unfold set_label. now rewrite Nat.eqb_refl.
        - destruct ((cl_labels s j <? 0)%Z && Rleb (d c j) eps); [|easy]. cbn [cl_labels].
          unfold set_label. destruct (Nat.eqb_spec p j); easy. }
      rewrite L1. destruct (Nat.eqb_spec p j) as [->|Q]; simpl; [|easy].
      rewrite NE. simpl. easy.
Qed.

Lemma cluster_loop_inv : forall fuel s, inv s -> (n - cl_n_labeled s <= fuel)%nat ->
  exists s', cluster_loop fuel n d eps s = Ok s' /\ inv s' /\ (n <= cl_n_labeled s')%nat.
Proof.
  assert (DONE : forall fuel s, inv s -> (n <= cl_n_labeled s)%nat ->
    exists s', cluster_loop fuel n d eps s = Ok s' /\ inv s' /\ (n <= cl_n_labeled s')%nat).
  { intros fuel s I H. exists s. assert (E : (cl_n_labeled s <? n)%nat = false) by (apply Nat.ltb_ge; lia).
    split; [|easy]. destruct fuel; cbn [cluster_loop]; now rewrite E. }
  induction fuel as [|fuel IH]; intros s I HF; [apply DONE; [easy|lia]|].
  destruct (Nat.ltb_spec (cl_n_labeled s) n) as [H|H]; [|now apply DONE].
  cbn [cluster_loop]. apply Nat.ltb_lt in H as H'. rewrite H'.
  destruct (scan_inv (seq 0 n) [] s (2 * n)%nat 0%nat eq_refl I) as (s1 & cand & best & -> & I1 & M & R1 & R2);
    [easy|lia|]. cbn [bind].
  destruct (Nat.ltb_spec (cl_n_labeled s1) n) as [H1|H1]; [|now exists s1].
  assert (HP : exists p, (p < n)%nat /\ (cl_labels s1 p < 0)%Z).
  { apply n_lab_ex. now rewrite <- (inv_num s1 I1). }
  destruct HP as (p & Hp & Lp). specialize (R1 p Hp Lp). destruct (R2 R1) as [Hc Lc].
  apply Nat.ltb_lt in Hc as Hc'. rewrite Hc'.
  assert (LT : (length (cl_centers s1) < n)%nat).
  { pose proof (inv_centers_le s1 I1). pose proof (inv_num s1 I1). lia. }
  apply Nat.ltb_lt in LT. rewrite LT.
  destruct (label_neighbors_spec cand (length (cl_centers s1)) (seq 0 n) s1) as (E1 & E2 & E3).
  { apply seq_NoDup. }
  { intros q Hq. apply in_seq in Hq. lia. }
  { apply (inv_num s1 I1). }
  cbv zeta in E1, E2, E3. set (s2 := fold_left _ _ _) in *. rewrite E1, E2.
  assert (I2 : inv (mkCl (cl_labels s2) (cl_centers s1 ++ [cand]) (n_lab (cl_labels s2)))).
  { apply inv_add; try easy. intros q Hq. rewrite E3.
    assert (EX : existsb (Nat.eqb q) (seq 0 n) = true).
    { apply existsb_exists. exists q. split; [apply in_seq; lia|apply Nat.eqb_refl]. }
    now rewrite EX. }
  apply IH; [easy|]. cbn [cl_n_labeled].
  assert (G : (n_lab (cl_labels s1) < n_lab (cl_labels s2))%nat).
  { unfold n_lab. assert (In cand (seq 0 n)) by (apply in_seq; lia).
    assert (S1 : forall l, (length (filter (labelled (cl_labels s1)) l) <= length (filter (labelled (cl_labels s2)) l))%nat /\
      (In cand l -> (length (filter (labelled (cl_labels s1)) l) < length (filter (labelled (cl_labels s2)) l))%nat)).
    { induction l as [|a l [IHa IHb]]; [easy|].
      assert (MON : labelled (cl_labels s1) a = true -> labelled (cl_labels s2) a = true).
      { unfold labelled. intros HA. rewrite E3. destruct (Z.ltb_spec (cl_labels s1 a) 0); [easy|].
        rewrite andb_false_r. simpl. destruct (Z.ltb_spec (cl_labels s1 a) 0); [lia|easy]. }
      simpl. split.
      - destruct (labelled (cl_labels s1) a); [rewrite MON by easy|]; simpl; [lia|].
        destruct (labelled (cl_labels s2) a); simpl; lia.
      - intros [->|HI].
        + assert (A1 : labelled (cl_labels s1) cand = false).
          { unfold labelled. apply Z.ltb_lt in Lc. now rewrite Lc. }
          assert (A2 : labelled (cl_labels s2) cand = true).
          { unfold labelled. rewrite E3.
            assert (EX : existsb (Nat.eqb cand) (seq 0 n) = true).
            { apply existsb_exists. exists cand. split; [easy|apply Nat.eqb_refl]. }
            apply Z.ltb_lt in Lc. rewrite EX, Lc, Hdiag by easy. simpl.
            destruct (Rleb_spec 0 eps); [|lra]. destruct (Z.ltb_spec (Z.of_nat (length (cl_centers s1))) 0); [lia|easy]. }
          rewrite A1, A2. simpl. lia.
        + specialize (IHb HI).
          destruct (labelled (cl_labels s1) a); [rewrite MON by easy|]; simpl; [lia|].
          destruct (labelled (cl_labels s2) a); simpl; lia. }
    now apply S1. }
  rewrite (inv_num s1 I1) in M. lia.
Qed.

End Cluster.

(** C51 - the clustering terminates without exception; every point is assigned to exactly
    one cluster whose center is at most epsilon away; every center is assigned to its own
    cluster; different centers are different points more than epsilon apart. *)
Theorem C51_cluster :
  forall n (d : nat -> nat -> R) eps,
    (forall i j, (i < n)%nat -> (j < n)%nat -> d i j = d j i) ->
    (forall i, (i < n)%nat -> d i i = 0) -> 0 <= eps ->
    exists labels centers, cluster n d eps = Ok (labels, centers) /\ length labels = n /\
      (forall p, (p < n)%nat -> exists k c, nth_error labels p = Some (Z.of_nat k) /\
         nth_error centers k = Some c /\ (c < n)%nat /\ d c p <= eps) /\
      (forall k c, nth_error centers k = Some c -> nth_error labels c = Some (Z.of_nat k)) /\
      NoDup centers /\
      (forall c c', In c centers -> In c' centers -> c <> c' -> eps < d c c').
Proof.
  intros n d eps Hs Hd He.
  destruct (cluster_loop_inv n d eps Hs Hd He n (mkCl (fun _ => (-1)%Z) [] O)) as (s & E & I & N).
  - constructor; cbn [cl_labels cl_centers cl_n_labeled].
    + lia.
    + intros k c H. destruct k; discriminate.
    + easy.
    + intros k k' c c' _ H. destruct k; discriminate.
    + unfold n_lab. induction (seq 0 n); easy.
  - cbn [cl_n_labeled]. lia.
  - unfold cluster. rewrite E. cbn [bind].
    assert (LAB : forall p, (p < n)%nat -> nth_error (map (cl_labels s) (seq 0 n)) p = Some (cl_labels s p)).
    { intros p Hp. rewrite nth_error_map.
      rewrite (nth_error_nth' (seq 0 n) 0%nat) by (rewrite seq_length; lia). simpl.
      now rewrite seq_nth by lia. }
    exists (map (cl_labels s) (seq 0 n)), (cl_centers s). split; [easy|].
    split; [now rewrite map_length, seq_length|].
    split.
    { intros p Hp. rewrite LAB by easy.
      assert (L : (0 <= cl_labels s p)%Z).
      { apply (n_lab_all n s p); [|easy]. now rewrite <- (inv_num n d eps s I). }
      destruct (inv_lab n d eps s I p Hp L) as (k & c & E1 & E2 & E3).
      exists k, c. splits; try easy; [now rewrite E1|]. now apply (inv_cen n d eps s I) in E2. }
    split.
    { intros k c H. apply (inv_cen n d eps s I) in H as [H1 H2]. rewrite LAB by easy. now rewrite H2. }
    split; [eapply inv_nodup; eauto|].
    intros c c' Hc Hc' Ne. apply In_nth_error in Hc as [k Hk]. apply In_nth_error in Hc' as [k' Hk'].
    apply (inv_sep n d eps s I k k'); try easy. intros ->. congruence.
Qed.

(** Example: three points 0, 1/3 and 1 on a line, epsilon = 1/3. *)
Definition line (i : nat) : R := match i with 0%nat => 0 | 1%nat => 1 / 3 | _ => 1 end.
Example ex_C51 : cluster 3 (fun i j => Rabs (line i - line j)) (1 / 3) = Ok ([1; 1; 0]%Z, [2; 0]%nat).
Proof.
  set (dd := fun i j : nat => Rabs _).
  assert (D : forall a b, (a < 3)%nat -> (b < 3)%nat -> Rleb (dd a b) (1/3) =
      match a, b with 0, 0 | 0, 1 | 1, 0 | 1, 1 => true | 0, _ | 1, _ | _, 0 | _, 1 => false | _, _ => true end%nat).
  { intros a b _ _. unfold dd. destruct a as [|[|a]]; destruct b as [|[|b]]; cbn [line];
      (apply Rleb_true || apply Rleb_false); unfold Rabs; destruct (Rcase_abs _); lra. }
  pose proof (D 0%nat 0%nat ltac:(lia) ltac:(lia)) as D00. pose proof (D 0%nat 1%nat ltac:(lia) ltac:(lia)) as D01.
  pose proof (D 0%nat 2%nat ltac:(lia) ltac:(lia)) as D02. pose proof (D 1%nat 0%nat ltac:(lia) ltac:(lia)) as D10.
  pose proof (D 1%nat 1%nat ltac:(lia) ltac:(lia)) as D11. pose proof (D 1%nat 2%nat ltac:(lia) ltac:(lia)) as D12.
  pose proof (D 2%nat 0%nat ltac:(lia) ltac:(lia)) as D20. pose proof (D 2%nat 1%nat ltac:(lia) ltac:(lia)) as D21.
  pose proof (D 2%nat 2%nat ltac:(lia) ltac:(lia)) as D22. clearbody dd.
  unfold cluster. cbn [length cluster_loop cl_n_labeled Nat.ltb Nat.leb seq].
  unfold scan_point, n_neighbors. cbn [fold_left bind cl_labels Z.ltb Z.compare seq filter negb andb Nat.eqb length].
  rewrite ?D00, ?D01, ?D02, ?D10, ?D11, ?D12, ?D20, ?D21, ?D22. cbn.
  unfold label_neighbor. cbn.
  rewrite ?D00, ?D01, ?D02, ?D10, ?D11, ?D12, ?D20, ?D21, ?D22. cbn.
  reflexivity.
Qed.

(** * C52 *)

Lemma dist_sym x y : dist x y = dist y x.
Proof.
  unfold dist, norm, sumsq. f_equal. unfold dot, vsub.
  revert y; induction x as [|a x IH]; intros [|b y]; simpl; try easy. rewrite IH. lra.
Qed.

Lemma mapM_nth_res {A} (l : list A) ks : (forall k, In k ks -> (k < length l)%nat) ->
  exists r, mapM (nth_res l) ks = Ok r /\ length r = length ks /\
    forall i k, nth_error ks i = Some k -> nth_error r i = nth_error l k.
Proof.
  induction ks as [|k ks IH]; intros H.
  - exists []. splits; try easy. intros [|]; discriminate.
  - destruct IH as (r & E & L & R); [intros; apply H; now right|].
    destruct (nth_res_ok l k (H k (or_introl eq_refl))) as (a & Ea & Ha).
    exists (a :: r). cbn [mapM]. rewrite Ea. cbn [bind]. rewrite E. cbn [bind].
    splits; [easy|simpl; lia|]. intros [|i] q; simpl; [intros [= <-]; easy|apply R].
Qed.

Lemma keep_cluster_centers_spec xs indices st dim target strictness eps :
  length xs = length indices -> 0 <= f_radius st ->
  eps = f_radius st * Rpower (strictness / target) (1 / INR dim) ->
  exists xs' indices', keep_cluster_centers xs indices st dim target strictness = Ok (xs', indices') /\
    length xs' = length indices' /\
    (forall q, In q (combine xs' indices') -> In q (combine xs indices)) /\
    (forall p, In p (combine xs indices) ->
       exists q, In q (combine xs' indices') /\ dist (fst q) (fst p) <= eps).
Proof.
  intros HL Hr Heps. unfold keep_cluster_centers, get_radius_after_volume_scaling. rewrite <- Heps.
  assert (E0 : 0 <= eps).
  { rewrite Heps. apply Rmult_le_pos; [easy|]. unfold Rpower. apply Rlt_le, exp_pos. }
  destruct (C51_cluster (length xs) (fun i j => dist (nth i xs []) (nth j xs [])) eps) as
    (labels & centers & -> & LL & A & B & ND & SEP).
  { intros; apply dist_sym. }
  { intros; apply dist_self. }
  { easy. }
  cbn [bind].
  assert (LT : forall k, In k centers -> (k < length xs)%nat).
  { intros c Hc. apply In_nth_error in Hc as [k Hk]. apply B in Hk. rewrite <- LL.
    apply nth_error_Some. congruence. }
  destruct (mapM_nth_res xs centers LT) as (xs' & -> & L1 & R1).
  destruct (mapM_nth_res indices centers) as (idx' & -> & L2 & R2); [now rewrite <- HL|].
  cbn [bind]. exists xs', idx'. split; [easy|]. split; [lia|].
  assert (PAIR : forall i k, nth_error centers i = Some k ->
     nth_error (combine xs' idx') i = nth_error (combine xs indices) k).
  { intros i k Hk. rewrite !nth_error_combine, (R1 _ _ Hk), (R2 _ _ Hk). reflexivity. }
  split.
  - intros q Hq. apply In_nth_error in Hq as [i Hi].
    destruct (nth_error centers i) as [k|] eqn:Ek.
    + rewrite (PAIR _ _ Ek) in Hi. now apply nth_error_In in Hi.
    + apply nth_error_None in Ek.
      assert (i < length (combine xs' idx'))%nat by (apply nth_error_Some; congruence).
      rewrite combine_length in H. lia.
  - intros p Hp. apply In_nth_error in Hp as [i Hi].
    assert (Hil : (i < length xs)%nat).
    { assert (i < length (combine xs indices))%nat by (apply nth_error_Some; congruence).
      rewrite combine_length in H. lia. }
    destruct (A i Hil) as (k & c & _ & Hk & Hc & D).
    destruct (nth_error (combine xs indices) c) as [q|] eqn:Eq.
    + exists q. split; [rewrite <- (PAIR _ _ Hk) in Eq; now apply nth_error_In in Eq|].
      rewrite nth_error_combine in Hi, Eq.
      destruct (nth_error xs i) as [xi|] eqn:Ei; [|discriminate].
      destruct (nth_error indices i); [|discriminate].
      destruct (nth_error xs c) as [xc|] eqn:Ec; [|discriminate].
      destruct (nth_error indices c); [|discriminate].
      injection Hi as <-. injection Eq as <-. cbn [fst].
      apply nth_error_nth with (d := []) in Ei, Ec. now rewrite <- Ei, <- Ec.
    + apply nth_error_None in Eq. rewrite combine_length in Eq. lia.
Qed.

(** C52, what holds: a point within the cluster radius of the current point is kept. *)
Theorem C52_a_close_point_is_kept_partial :
  forall xs indices st dim target strictness eps,
    length xs = length indices -> 0 <= f_radius st ->
    eps = f_radius st * Rpower (strictness / target) (1 / INR dim) ->
    In (f_x st, f_index st) (combine xs indices) ->
    exists xs' indices' q,
      keep_cluster_centers xs indices st dim target strictness = Ok (xs', indices') /\
      In q (combine xs' indices') /\ In q (combine xs indices) /\ dist (fst q) (f_x st) <= eps.
Proof.
  intros xs indices st dim target strictness eps HL Hr He HI.
  destruct (keep_cluster_centers_spec xs indices st dim target strictness eps HL Hr He)
    as (xs' & indices' & E & _ & A & B).
  destruct (B _ HI) as (q & Hq & D). exists xs', indices', q. splits; auto.
Qed.

(** C52, what holds: the current point itself is kept if no other point is within the cluster
    radius. *)
Theorem C52_isolated_center_is_kept_partial :
  forall xs indices st dim target strictness,
    length xs = length indices -> 0 <= f_radius st ->
    In (f_x st, f_index st) (combine xs indices) ->
    (forall q, In q (combine xs indices) ->
       dist (fst q) (f_x st) <= f_radius st * Rpower (strictness / target) (1 / INR dim) ->
       q = (f_x st, f_index st)) ->
    exists xs' indices',
      keep_cluster_centers xs indices st dim target strictness = Ok (xs', indices') /\
      In (f_x st, f_index st) (combine xs' indices').
Proof.
  intros xs indices st dim target strictness HL Hr HI HQ.
  destruct (C52_a_close_point_is_kept_partial xs indices st dim target strictness _ HL Hr eq_refl HI)
    as (xs' & indices' & q & E & Hq & Hq' & D).
  exists xs', indices'. split; [easy|]. now rewrite <- (HQ q Hq' D).
Qed.

(** C52 fails in general: with three equidistant points the middle one has most neighbours,
    so it becomes the only cluster center, and the trustregion center 0 is dropped. *)
Theorem C52_center_kept_refuted :
  exists xs indices st target strictness,
    length xs = length indices /\ NoDup indices /\ 0 < f_radius st /\ 0 < strictness /\ 0 < target /\
    (forall x, In x xs -> length x = 1%nat /\ dist x (f_x st) <= f_radius st) /\
    In (f_x st, f_index st) (combine xs indices) /\
    exists xs' indices',
      keep_cluster_centers xs indices st 1 target strictness = Ok (xs', indices') /\
      ~ In (f_index st) indices' /\ ~ In (f_x st) xs'.
Proof.
  exists [[0]; [1 / 3]; [2 / 3]], [0; 1; 2]%nat, (mkF [0] 0%nat 1), 3, 1. cbn [f_x f_index f_radius].
  split; [easy|]. split; [repeat constructor; simpl; lia|]. split; [lra|]. split; [lra|]. split; [lra|].
  split.
  { intros x [<-|[<-|[<-|[]]]]; (split; [easy|]); rewrite dist1; unfold Rabs; destruct (Rcase_abs _); lra. }
  split; [now left|].
  exists [[1 / 3]], [1]%nat. split; [|split; [simpl; lia|]].
  2:{ intros [H|[]]. injection H. lra. }
  unfold keep_cluster_centers, get_radius_after_volume_scaling. cbn [f_radius].
  replace (1 * Rpower (1 / 3) (1 / INR 1)) with (1 / 3).
  2:{ simpl INR. replace (1 / 1) with 1 by lra. rewrite Rpower_1 by lra. lra. }
  set (dd := fun i j : nat => dist _ _).
  assert (D : forall a b, (a < 3)%nat -> (b < 3)%nat -> Rleb (dd a b) (1/3) =
      match a, b with 0, 2 | 2, 0 => false | _, _ => true end%nat).
  { intros a b Ha Hb. unfold dd. destruct a as [|[|[|]]]; try lia; destruct b as [|[|[|]]]; try lia; cbn [nth]; rewrite dist1;
      (apply Rleb_true || apply Rleb_false); unfold Rabs; destruct (Rcase_abs _); lra. }
  pose proof (D 0%nat 0%nat ltac:(lia) ltac:(lia)) as D00. pose proof (D 0%nat 1%nat ltac:(lia) ltac:(lia)) as D01.
  pose proof (D 0%nat 2%nat ltac:(lia) ltac:(lia)) as D02. pose proof (D 1%nat 0%nat ltac:(lia) ltac:(lia)) as D10.
  pose proof (D 1%nat 1%nat ltac:(lia) ltac:(lia)) as D11. pose proof (D 1%nat 2%nat ltac:(lia) ltac:(lia)) as D12.
  pose proof (D 2%nat 0%nat ltac:(lia) ltac:(lia)) as D20. pose proof (D 2%nat 1%nat ltac:(lia) ltac:(lia)) as D21.
  pose proof (D 2%nat 2%nat ltac:(lia) ltac:(lia)) as D22. clearbody dd.
  unfold cluster. cbn [length cluster_loop cl_n_labeled Nat.ltb Nat.leb seq].
  unfold scan_point, n_neighbors. cbn [fold_left bind cl_labels Z.ltb Z.compare seq filter negb andb Nat.eqb length].
  rewrite ?D00, ?D01, ?D02, ?D10, ?D11, ?D12, ?D20, ?D21, ?D22. cbn.
  unfold label_neighbor. cbn.
  rewrite ?D00, ?D01, ?D02, ?D10, ?D11, ?D12, ?D20, ?D21, ?D22. cbn.
  reflexivity.
Qed.
