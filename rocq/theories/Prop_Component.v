(** Properties of get_component and the built-in components (C96, C120, C121). *)
From Coq Require Import Reals List Arith ZArith Bool String Lia Lra.
From Verif Require Import Base XR OptionsModel ComponentModel Prop_Options.
Import ListNotations.
Open Scope string_scope.
Open Scope list_scope.

(** ** Lookups *)
Lemma slookup_app : forall {A} (a b : list (string * A)) k,
  slookup (a ++ b) k = match slookup a k with Some v => Some v | None => slookup b k end.
Proof.
  intros A a b k; induction a as [|[k' v] a IH]; cbn; [reflexivity|].
  destruct (String.eqb k k'); [reflexivity|exact IH].
Qed.

Lemma slookup_filter : forall {A} (p : string -> bool) (d : list (string * A)) k,
  slookup (filter (fun kv => p (fst kv)) d) k = if p k then slookup d k else None.
Proof.
  intros A p d k; induction d as [|[k' v] d IH]; cbn; [destruct (p k); reflexivity|].
  destruct (p k') eqn:Hp; cbn; rewrite IH; destruct (String.eqb_spec k k') as [->|]; try reflexivity;
    rewrite Hp; reflexivity.
Qed.

Lemma slookup_smerge : forall a b k,
  slookup (smerge a b) k = match slookup b k with Some w => Some w | None => slookup a k end.
Proof.
  intros a b k; unfold smerge; rewrite slookup_app.
  pose proof (slookup_map_fst (fun k v => match slookup b k with Some w => w | None => v end) a k)
    as H; cbv beta in H; rewrite H.
  rewrite (slookup_filter (fun k => negb (smem k a)) b k); unfold smem.
  destruct (slookup a k); cbn; destruct (slookup b k); reflexivity.
Qed.

Lemma smember_In : forall k l, smember k l = true <-> In k l.
Proof.
  intros k l; unfold smember; rewrite existsb_exists; split.
  - intros (x & Hx & E); apply String.eqb_eq in E; subst; exact Hx.
  - intros H; exists k; split; [exact H|apply String.eqb_refl].
Qed.

Lemma smerge_keys : forall (P : string -> Prop) a b,
  (forall kv, In kv a -> P (fst kv)) -> (forall kv, In kv b -> P (fst kv)) ->
  forall kv, In kv (smerge a b) -> P (fst kv).
Proof.
  intros P a b Ha Hb kv H; unfold smerge in H; apply in_app_or in H; destruct H as [H|H].
  - apply in_map_iff in H; destruct H as (x & <- & Hx); cbn; apply Ha; exact Hx.
  - apply filter_In in H; apply Hb; apply H.
Qed.

Lemma slookup_combine_nth : forall (sig : list string) (args : list pyval) i k,
  NoDup sig -> nth_error sig i = Some k ->
  slookup (combine (firstn (List.length args) sig) args) k = nth_error args i.
Proof.
  intros sig args i k Hnd; revert args i; induction sig as [|s sig IH]; intros args i Hi.
  - destruct i; discriminate.
  - apply NoDup_cons_iff in Hnd; destruct Hnd as [Hni Hnd].
    destruct args as [|a args]; [destruct i; reflexivity|].
    cbn [List.length firstn combine slookup].
    destruct i as [|i].
    + cbn in Hi; injection Hi as ->; rewrite String.eqb_refl; reflexivity.
    + change (nth_error sig i = Some k) in Hi.
      destruct (String.eqb_spec k s) as [E|_].
      * exfalso; apply Hni; rewrite <- E; apply nth_error_In in Hi; exact Hi.
      * change (slookup (combine (firstn (List.length args) sig) args) k = nth_error args i).
        apply IH; assumption.
Qed.

(** ** C96 *)
Section C96.
Variable conv : conversions.

(** The function a name or a callable stands for *)
Definition resolves (nf : name_or_func) (func_dict : list (string * pyfun)) (f : pyfun) : Prop :=
  nf = NFun true f \/ exists s, nf = NStr s /\ slookup func_dict s = Some f.

Lemma get_function_resolves : forall nf d f, get_function nf d = Ok f <-> resolves nf d f.
Proof.
  intros nf d f; unfold resolves; destruct nf as [s|[|] g|]; cbn; split; intros H.
  - right; exists s; destruct (slookup d s); [injection H as <-; auto|discriminate].
  - destruct H as [H|(s' & H & E)]; [discriminate|]; injection H as ->; rewrite E; reflexivity.
  - injection H as <-; left; reflexivity.
  - destruct H as [H|(s' & H & E)]; [injection H as ->; reflexivity|discriminate].
  - discriminate.
  - destruct H as [H|(s' & H & E)]; discriminate.
  - discriminate.
  - destruct H as [H|(s' & H & E)]; discriminate.
Qed.

(** The value of the [i]-th parameter: keyword argument, positional argument, option, default. *)
Definition argument_value (args : list pyval) (kwargs options : sdict) (i : nat) (p : param)
  : option pyval :=
  match slookup kwargs (p_name p) with
  | Some v => Some v
  | None => match nth_error args i with
            | Some v => Some v
            | None => match slookup options (p_name p) with
                      | Some v => Some v
                      | None => p_default p
                      end
            end
  end.

Lemma mapM_nth : forall {A B} (f : A -> res B) l bs,
  List.length bs = List.length l ->
  (forall i a, nth_error l i = Some a -> exists b, nth_error bs i = Some b /\ f a = Ok b) ->
  mapM f l = Ok bs.
Proof.
  intros A B f l; induction l as [|a l IH]; intros bs Hl H.
  - destruct bs; [reflexivity|discriminate].
  - destruct bs as [|b bs]; [discriminate|]; cbn in Hl; injection Hl as Hl; cbn.
    destruct (H 0%nat a eq_refl) as (b' & Hb' & Hf); cbn in Hb'; injection Hb' as <-.
    rewrite Hf; cbn; rewrite (IH bs Hl); [reflexivity|].
    intros i a' Hi; destruct (H (S i) a' Hi) as (b' & Hb' & Hf'); exists b'; split; assumption.
Qed.

Lemma mapM_nth_err : forall {A B} (f : A -> res B) l e,
  (forall a, In a l -> (exists b, f a = Ok b) \/ f a = Err e) ->
  (exists a, In a l /\ f a = Err e) -> mapM f l = Err e.
Proof.
  intros A B f l e; induction l as [|a l IH]; intros Hall (x & Hin & Hx); [destruct Hin|].
  cbn; destruct (Hall a (or_introl eq_refl)) as [(b & Hb)|Ha]; [|rewrite Ha; reflexivity].
  rewrite Hb; cbn. destruct Hin as [->|Hin]; [congruence|].
  rewrite IH; [reflexivity| |exists x; auto].
  intros y Hy; apply Hall; right; exact Hy.
Qed.

Lemma wrapper_lookup : forall f options args kwargs i p,
  NoDup (signature f) -> nth_error (pf_sig f) i = Some p ->
  slookup (smerge (filter (fun kv => smember (fst kv) (signature f)) options)
             (filter (fun kv => smember (fst kv) (signature f))
                (smerge (combine (firstn (List.length args) (signature f)) args) kwargs)))
    (p_name p) =
  match slookup kwargs (p_name p) with
  | Some v => Some v
  | None => match nth_error args i with
            | Some v => Some v
            | None => slookup options (p_name p)
            end
  end.
Proof.
  intros f options args kwargs i p Hnd Hi.
  assert (Hsig : nth_error (signature f) i = Some (p_name p)) by (apply map_nth_error; exact Hi).
  assert (Hin : smember (p_name p) (signature f) = true)
    by (apply smember_In; apply nth_error_In in Hsig; exact Hsig).
  rewrite slookup_smerge.
  rewrite !(slookup_filter (fun k => smember k (signature f))), Hin.
  rewrite slookup_smerge, (slookup_combine_nth _ args i _ Hnd Hsig).
  destruct (slookup kwargs (p_name p)); [reflexivity|].
  destruct (nth_error args i); reflexivity.
Qed.

(** The constructed component passes to the function exactly one value per parameter of its
    signature: the keyword argument, else the positional argument, else the option, else the
    parameter's own default.  Arguments that are not in the signature are dropped.  A parameter
    without any value raises a TypeError. *)
Theorem C96_call : forall nf func_dict defaults user roh mandatory g f,
  get_component conv nf func_dict (Some defaults) user roh HIgnore mandatory = Ok g ->
  resolves nf func_dict f -> NoDup (signature f) ->
  exists options, update_option_bundle conv defaults user = Ok options /\
  forall args kwargs,
    (forall bound, List.length bound = List.length (pf_sig f) ->
       (forall i p, nth_error (pf_sig f) i = Some p ->
          exists v, argument_value args kwargs options i p = Some v /\
                    nth_error bound i = Some (p_name p, v)) ->
       g args kwargs = pf_body f bound) /\
    ((exists i p, nth_error (pf_sig f) i = Some p /\ argument_value args kwargs options i p = None) ->
       g args kwargs = Err TypeError).
Proof.
  intros nf fd defaults user roh mandatory g f H Hf Hnd.
  apply get_function_resolves in Hf; unfold get_component in H; rewrite Hf in H; cbn in H.
  destruct (update_option_bundle conv defaults user) as [options|e]; cbn in H; [|discriminate].
  exists options; split; [reflexivity|].
  set (valid := filter (fun kv => smember (fst kv) (signature f)) options) in *.
  assert (Hg : g = add_redundant_argument_handling (partial_call f valid) (signature f) false).
  { destruct roh; cbn in H.
    1,2: destruct (fail_if_mandatory_argument_is_missing mandatory (signature f)); cbn in H;
      [injection H as <-; reflexivity|discriminate].
    destruct (filter (fun kv => negb (smember (fst kv) (signature f))) options); cbn in H;
      [|discriminate].
    destruct (fail_if_mandatory_argument_is_missing mandatory (signature f)); cbn in H;
      [injection H as <-; reflexivity|discriminate]. }
  subst g; intros args kwargs; unfold add_redundant_argument_handling; cbn [andb].
  set (rt := filter (fun kv => smember (fst kv) (signature f))
               (smerge (combine (firstn (List.length args) (signature f)) args) kwargs)).
  unfold partial_call, python_call.
  replace (List.length (positional_names f) <? List.length (@nil pyval))%nat with false
    by (symmetry; apply Nat.ltb_ge; cbn; lia).
  replace (combine (positional_names f) (@nil pyval)) with (@nil (string * pyval))
    by (destruct (positional_names f); reflexivity).
  replace (existsb (fun kv => smem (fst kv) (@nil (string * pyval))) (smerge valid rt)) with false.
  2:{ symmetry; apply not_true_is_false; intros E; apply existsb_exists in E.
      destruct E as (x & _ & E); discriminate. }
  replace (existsb (fun kv => negb (smember (fst kv) (signature f))) (smerge valid rt)) with false.
  2:{ symmetry; apply not_true_is_false; intros E; apply existsb_exists in E.
      destruct E as (x & Hx & E).
      assert (K : smember (fst x) (signature f) = true).
      { apply (smerge_keys (fun k => smember k (signature f) = true) valid rt); [| |exact Hx];
          intros kv Hkv; apply filter_In in Hkv; apply Hkv. }
      rewrite K in E; discriminate. }
  cbn [app].
  assert (Hstep : forall i p, nth_error (pf_sig f) i = Some p ->
    (match slookup (smerge valid rt) (p_name p) with
     | Some v => Ok (p_name p, v)
     | None => match p_default p with Some v => Ok (p_name p, v) | None => Err TypeError end
     end) = match argument_value args kwargs options i p with
            | Some v => Ok (p_name p, v) | None => Err TypeError end).
  { intros i p Hi; unfold valid, rt; rewrite (wrapper_lookup f options args kwargs i p Hnd Hi).
    unfold argument_value.
    destruct (slookup kwargs (p_name p)); [reflexivity|].
    destruct (nth_error args i); [reflexivity|].
    destruct (slookup options (p_name p)); [reflexivity|].
    destruct (p_default p); reflexivity. }
  split.
  - intros bound Hlen Hb.
    erewrite mapM_nth; [reflexivity|exact Hlen|].
    intros i p Hi; destruct (Hb i p Hi) as (v & Hv & Hn); exists (p_name p, v); split; [exact Hn|].
    rewrite (Hstep i p Hi), Hv; reflexivity.
  - intros (i & p & Hi & Hv).
    erewrite mapM_nth_err; [reflexivity| |].
    + intros q Hq; apply In_nth_error in Hq; destruct Hq as (j & Hj).
      rewrite (Hstep j q Hj); destruct (argument_value args kwargs options j q); [|right; reflexivity].
      left; eexists; reflexivity.
    + exists p; split; [apply nth_error_In in Hi; exact Hi|].
      rewrite (Hstep i p Hi), Hv; reflexivity.
Qed.

(** Missing mandatory arguments, unknown names and invalid objects raise at construction. *)
Theorem C96_mandatory : forall nf func_dict defaults user roh rah mandatory f m,
  resolves nf func_dict f -> In m mandatory -> ~ In m (signature f) ->
  exists e, get_component conv nf func_dict defaults user roh rah mandatory = Err e.
Proof.
  intros nf fd defaults user roh rah mandatory f m Hf Hm Hn.
  apply get_function_resolves in Hf; unfold get_component; rewrite Hf; cbn.
  destruct (get_valid_options conv defaults user (signature f) roh) as [v|e]; cbn;
    [|eexists; reflexivity].
  assert (E : fail_if_mandatory_argument_is_missing mandatory (signature f) = Err ValueError).
  { unfold fail_if_mandatory_argument_is_missing.
    destruct (filter _ mandatory) eqn:Ef; [|reflexivity].
    assert (K : In m (filter (fun a => negb (smember a (signature f))) mandatory)).
    { apply filter_In; split; [exact Hm|].
      destruct (smember m (signature f)) eqn:Es; [|reflexivity].
      apply smember_In in Es; contradiction. }
    rewrite Ef in K; destruct K. }
  rewrite E; eexists; reflexivity.
Qed.

Theorem C96_mandatory_value_error : forall nf func_dict defaults user rah mandatory f m options,
  resolves nf func_dict f -> In m mandatory -> ~ In m (signature f) ->
  update_option_bundle conv defaults user = Ok options ->
  get_component conv nf func_dict (Some defaults) user HIgnore rah mandatory = Err ValueError.
Proof.
  intros nf fd defaults user rah mandatory f m options Hf Hm Hn Ho.
  destruct (C96_mandatory nf fd (Some defaults) user HIgnore rah mandatory f m Hf Hm Hn) as (e & He).
  rewrite He; f_equal.
  apply get_function_resolves in Hf; unfold get_component in He; rewrite Hf in He; cbn in He.
  rewrite Ho in He; cbn in He.
  unfold fail_if_mandatory_argument_is_missing in He.
  destruct (filter _ mandatory); cbn in He; [discriminate|congruence].
Qed.

Theorem C96_unknown_name : forall s func_dict defaults user roh rah mandatory,
  ~ In s (map fst func_dict) ->
  get_component conv (NStr s) func_dict defaults user roh rah mandatory = Err ValueError.
Proof.
  intros s fd defaults user roh rah mandatory H; unfold get_component; cbn.
  apply slookup_none in H; rewrite H; reflexivity.
Qed.

Theorem C96_not_callable : forall func_dict defaults user roh rah mandatory,
  get_component conv NOther func_dict defaults user roh rah mandatory = Err TypeError.
Proof. reflexivity. Qed.

(** Components whose name is known, whose options are valid and whose mandatory arguments are
    all present are constructed; invalid options are reported as by [update_option_bundle]. *)
Theorem C96_constructed : forall nf func_dict defaults user rah mandatory f options,
  resolves nf func_dict f ->
  update_option_bundle conv defaults user = Ok options ->
  (forall m, In m mandatory -> In m (signature f)) ->
  exists g, get_component conv nf func_dict (Some defaults) user HIgnore rah mandatory = Ok g.
Proof.
  intros nf fd defaults user rah mandatory f options Hf Ho Hm.
  apply get_function_resolves in Hf; unfold get_component; rewrite Hf; cbn; rewrite Ho; cbn.
  assert (E : fail_if_mandatory_argument_is_missing mandatory (signature f) = Ok tt).
  { unfold fail_if_mandatory_argument_is_missing.
    destruct (filter _ mandatory) as [|a l] eqn:Ef; [reflexivity|].
    assert (K : In a (filter (fun a => negb (smember a (signature f))) mandatory))
      by (rewrite Ef; left; reflexivity).
    apply filter_In in K; destruct K as [K1 K2]; apply Hm in K1; apply smember_In in K1.
    rewrite K1 in K2; discriminate. }
  rewrite E; eexists; reflexivity.
Qed.

Theorem C96_invalid_options : forall nf func_dict defaults user roh rah mandatory f e,
  resolves nf func_dict f ->
  update_option_bundle conv defaults user = Err e ->
  get_component conv nf func_dict (Some defaults) user roh rah mandatory = Err e.
Proof.
  intros nf fd defaults user roh rah mandatory f e Hf Ho.
  apply get_function_resolves in Hf; unfold get_component; rewrite Hf; cbn; rewrite Ho; reflexivity.
Qed.

(** Redundant options raise if that is requested and are dropped otherwise; redundant runtime
    arguments raise a TypeError if that is requested. *)
Theorem C96_raise_redundant_option : forall nf func_dict defaults rah mandatory f k v,
  resolves nf func_dict f -> In (k, v) defaults -> ~ In k (signature f) ->
  get_component conv nf func_dict (Some defaults) UNone HRaise rah mandatory = Err ValueError.
Proof.
  intros nf fd defaults rah mandatory f k v Hf Hin Hn.
  apply get_function_resolves in Hf; unfold get_component; rewrite Hf; cbn.
  destruct (filter (fun kv => negb (smember (fst kv) (signature f))) defaults) eqn:Ef; [|reflexivity].
  exfalso.
  assert (K : In (k, v) (filter (fun kv => negb (smember (fst kv) (signature f))) defaults)).
  { apply filter_In; split; [exact Hin|]; cbn.
    destruct (smember k (signature f)) eqn:Es; [|reflexivity].
    apply smember_In in Es; contradiction. }
  rewrite Ef in K; destruct K.
Qed.

Theorem C96_raise_redundant_argument : forall nf func_dict defaults user roh mandatory g f args kwargs k v,
  get_component conv nf func_dict (Some defaults) user roh HRaise mandatory = Ok g ->
  resolves nf func_dict f -> slookup kwargs k = Some v -> ~ In k (signature f) ->
  g args kwargs = Err TypeError.
Proof.
  intros nf fd defaults user roh mandatory g f args kwargs k v H Hf Hk Hn.
  apply get_function_resolves in Hf; unfold get_component in H; rewrite Hf in H; cbn in H.
  destruct (update_option_bundle conv defaults user) as [options|e]; cbn in H; [|discriminate].
  assert (Hg : exists valid, g = partial_call f valid).
  { destruct roh; cbn in H.
    3: destruct (filter (fun kv => negb (smember (fst kv) (signature f))) options); cbn in H;
      [|discriminate].
    all: destruct (fail_if_mandatory_argument_is_missing mandatory (signature f)); cbn in H;
      [injection H as <-; eexists; reflexivity|discriminate]. }
  destruct Hg as (valid & ->); unfold partial_call, python_call.
  destruct (_ <? _)%nat; [reflexivity|].
  destruct (existsb _ _); [reflexivity|].
  assert (E : existsb (fun kv => negb (smember (fst kv) (signature f))) (smerge valid kwargs) = true).
  { apply existsb_exists; exists (k, v); split.
    - apply slookup_In; rewrite slookup_smerge, Hk; reflexivity.
    - cbn; destruct (smember k (signature f)) eqn:Es; [|reflexivity].
      apply smember_In in Es; contradiction. }
  rewrite E; reflexivity.
Qed.
End C96.

(** A user-written sampler with one option: positional, keyword, option and default values
    all play a role, and the redundant arguments are dropped. *)
Definition user_function : pyfun :=
  mkFun [req "a"; req "b"; opt "c" (PInt 3); kw "min_n_evals"]
    (fun bound => match bound with
                  | [("a", PInt a); ("b", PInt b); ("c", PInt c); ("min_n_evals", PInt m)] =>
                      Ok (PInt (1000 * a + 100 * b + 10 * c + m))
                  | _ => Err (UserError 0)
                  end).
Example C96_instance : exists g,
  get_component no_conversions (NFun true user_function) [] (Some VarianceEstimatorOptions)
    (UDict [("min_n_evals", PFloat (Fin 2))]) HIgnore HIgnore ["a"] = Ok g /\
  g [PInt 7; PInt 8] [("a", PInt 1); ("unknown", PStr "x")]
    = Ok (PInt (1000 + 800 + 30 + truncate 2)) /\
  g [PInt 7; PInt 8; PInt 9; PInt 5; PInt 6] [] = Ok (PInt 7895) /\
  g [] [("a", PInt 1)] = Err TypeError /\
  NoDup (signature user_function).
Proof.
  eexists; split; [reflexivity|]; split; [reflexivity|]; split; [reflexivity|].
  split; [reflexivity|].
  repeat constructor; cbn; intuition discriminate.
Qed.

(** ** C120: the documented values of the optional arguments of get_component work *)
(** With redundant_argument_handling = "warn" a component that receives a redundant argument
    raises an AttributeError instead of warning, whatever the function does. *)
Theorem C120_warn_refuted : forall conv nf func_dict defaults user roh mandatory g f args kwargs k v,
  get_component conv nf func_dict (Some defaults) user roh HWarn mandatory = Ok g ->
  resolves nf func_dict f -> slookup kwargs k = Some v -> ~ In k (signature f) ->
  g args kwargs = Err AttributeError.
Proof.
  intros conv nf fd defaults user roh mandatory g f args kwargs k v H Hf Hk Hn.
  apply get_function_resolves in Hf; unfold get_component in H; rewrite Hf in H; cbn in H.
  destruct (update_option_bundle conv defaults user) as [options|e]; cbn in H; [|discriminate].
  assert (Hg : exists valid, g = add_redundant_argument_handling (partial_call f valid)
                                   (signature f) true).
  { destruct roh; cbn in H.
    3: destruct (filter (fun kv => negb (smember (fst kv) (signature f))) options); cbn in H;
      [|discriminate].
    all: destruct (fail_if_mandatory_argument_is_missing mandatory (signature f)); cbn in H;
      [injection H as <-; eexists; reflexivity|discriminate]. }
  destruct Hg as (valid & ->); unfold add_redundant_argument_handling.
  set (all := smerge _ kwargs).
  assert (K : In (k, v) (filter (fun kv => negb (smember (fst kv) (signature f))) all)).
  { apply filter_In; split.
    - apply slookup_In; unfold all; rewrite slookup_smerge, Hk; reflexivity.
    - cbn; destruct (smember k (signature f)) eqn:Es; [|reflexivity].
      apply smember_In in Es; contradiction. }
  destruct (filter (fun kv => negb (smember (fst kv) (signature f))) all); [destruct K|].
  reflexivity.
Qed.

Example C120_warn_instance : exists g,
  get_component no_conversions (NFun true user_function) [] (Some VarianceEstimatorOptions)
    UNone HIgnore HWarn [] = Ok g /\
  g [] [("a", PInt 1); ("b", PInt 2)] = Ok (PInt 1233) /\
  g [] [("a", PInt 1); ("b", PInt 2); ("unknown", PInt 0)] = Err AttributeError.
Proof. eexists; split; [reflexivity|]; split; reflexivity. Qed.

(** default_options = None, the default of get_component, always raises an AttributeError for a
    function that is found. *)
Theorem C120_no_default_options_refuted : forall conv nf func_dict user roh rah mandatory f,
  resolves nf func_dict f ->
  get_component conv nf func_dict None user roh rah mandatory = Err AttributeError.
Proof.
  intros conv nf fd user roh rah mandatory f Hf.
  apply get_function_resolves in Hf; unfold get_component; rewrite Hf; reflexivity.
Qed.

(** A callable without a name (a functools.partial, an instance with __call__) is rejected. *)
Theorem C120_nameless_callable_refuted : forall conv f func_dict defaults user roh rah mandatory,
  get_component conv (NFun false f) func_dict defaults user roh rah mandatory = Err AttributeError.
Proof. reflexivity. Qed.

(** ** C121: every built-in component can be selected and is callable in the main loop *)
Section C121.
Variable conv : conversions.
Variable body : string -> sdict -> res pyval.

(** If each parameter of a function has a keyword argument, an option or a default, then a call
    with keyword arguments only reaches its body with all parameters bound. *)
Lemma component_reaches_body : forall nf func_dict defaults roh mandatory g f kwargs user options,
  get_component conv nf func_dict (Some defaults) user roh HIgnore mandatory = Ok g ->
  resolves nf func_dict f -> NoDup (signature f) ->
  update_option_bundle conv defaults user = Ok options ->
  (forall p, In p (pf_sig f) ->
     smem (p_name p) kwargs = true \/ smem (p_name p) options = true \/ p_default p <> None) ->
  exists bound, g [] kwargs = pf_body f bound /\ map fst bound = signature f /\
    forall k v, In (k, v) bound -> smem k kwargs = true -> slookup kwargs k = Some v.
Proof.
  intros nf fd defaults roh mandatory g f kwargs user options H Hf Hnd Ho Hall.
  destruct (C96_call conv nf fd defaults user roh mandatory g f H Hf Hnd) as (o2 & Ho2 & Hcall).
  assert (o2 = options) by congruence; subst o2.
  set (val := fun p => match argument_value [] kwargs options 0 p with
                       | Some v => v | None => PNone end).
  exists (map (fun p => (p_name p, val p)) (pf_sig f)).
  assert (Hnil : forall i p, argument_value [] kwargs options i p = argument_value [] kwargs options 0 p).
  { intros i p; unfold argument_value; destruct i; reflexivity. }
  split; [|split].
  - apply Hcall; [apply map_length|].
    intros i p Hi; exists (val p); split; [|apply map_nth_error with (f := fun p => (p_name p, val p)); exact Hi].
    rewrite Hnil; unfold val.
    assert (Hp : argument_value [] kwargs options 0 p <> None).
    { unfold argument_value; destruct (Hall p (nth_error_In _ _ Hi)) as [K|[K|K]]; unfold smem in K.
      - destruct (slookup kwargs (p_name p)); discriminate.
      - destruct (slookup kwargs (p_name p)); [discriminate|]; cbn.
        destruct (slookup options (p_name p)); discriminate.
      - destruct (slookup kwargs (p_name p)); [discriminate|]; cbn.
        destruct (slookup options (p_name p)); [discriminate|exact K]. }
    destruct (argument_value [] kwargs options 0 p); [reflexivity|contradiction].
  - unfold signature; rewrite map_map; reflexivity.
  - intros k v Hin Hm; apply in_map_iff in Hin; destruct Hin as (p & E & _).
    injection E as <- <-; unfold val, argument_value; unfold smem in Hm.
    destruct (slookup kwargs (p_name p)); [reflexivity|discriminate].
Qed.

(** The keyword arguments with which the main loop calls the components
    (tranquilo.py:108-115, 133-138, 229-234, 277-286, 295-305; fit_models.py:124;
    solve_subproblem.py:190-205). *)
Definition filter_call := ["xs"; "indices"; "state"; "target_size"; "history"; "n_evals_per_point"].
Definition sampler_call := ["trustregion"; "n_points"; "existing_xs"; "rng"].
Definition fitter_call := ["x"; "y"; "weights"; "model_type"].
Definition solver_call := ["model"; "x_candidate"; "lower_bounds"; "upper_bounds"].
Definition fallback_call := ["model"; "x_candidate"].
Definition variance_call := ["trustregion"; "history"; "model_type"].
Definition decider_call := ["subproblem_solution"; "state"; "wrapped_criterion"; "noise_variance";
  "history"; "search_radius_factor"; "batch_size"; "sample_points"; "rng"].

(** [g] called with exactly the keywords [keys], whatever their values, runs the function
    [fname] with one value for each of its parameters, the keywords' values among them. *)
Definition callable_with (g : pycallable) (keys : list string) (fname : string) : Prop :=
  forall kwargs, map fst kwargs = keys -> exists bound,
    g [] kwargs = body fname bound /\
    (forall k v, In (k, v) bound -> smem k kwargs = true -> slookup kwargs k = Some v).

Lemma options_fields : forall defaults user options,
  update_option_bundle conv defaults user = Ok options -> map fst options = map fst defaults.
Proof.
  intros defaults [|d|d|] options H.
  - cbn in H; injection H as <-; reflexivity.
  - apply C95_exact_replacement in H; apply H.
  - rewrite C95_tuple in H; apply C95_exact_replacement in H; apply H.
  - discriminate.
Qed.

(** A computable sufficient condition *)
Definition selectable (func_dict : list (string * pyfun)) (defaults : sdict) (mandatory keys : list string)
  (s fname : string) (ps : list param) : Prop :=
  slookup func_dict s = Some (builtin body fname ps) /\
  (NoDup (map p_name ps)) /\
  forallb (fun m => smember m (map p_name ps)) mandatory = true /\
  forallb (fun p => smember (p_name p) keys || smember (p_name p) (map fst defaults)
                    || match p_default p with Some _ => true | None => false end) ps = true.

Lemma selectable_ok : forall func_dict defaults mandatory keys s fname ps,
  selectable func_dict defaults mandatory keys s fname ps ->
  forall user options, update_option_bundle conv defaults user = Ok options ->
  exists g, get_component conv (NStr s) func_dict (Some defaults) user HIgnore HIgnore mandatory = Ok g
    /\ callable_with g keys fname.
Proof.
  intros fd defaults mandatory keys s fname ps (Hs & Hnd & Hm & Hall) user options Ho.
  assert (Hf : resolves (NStr s) fd (builtin body fname ps)) by (right; exists s; auto).
  destruct (C96_constructed conv (NStr s) fd defaults user HIgnore mandatory _ options Hf Ho) as (g & Hg).
  { intros m Hin; rewrite forallb_forall in Hm; apply smember_In; apply (Hm m Hin). }
  exists g; split; [exact Hg|].
  intros kwargs Hk.
  destruct (component_reaches_body (NStr s) fd defaults HIgnore mandatory g _ kwargs user options
              Hg Hf Hnd Ho) as (bound & Hb & _ & Hv).
  { intros p Hp; rewrite forallb_forall in Hall; specialize (Hall p Hp).
    apply orb_true_iff in Hall; destruct Hall as [Hall|Hd].
    - apply orb_true_iff in Hall; destruct Hall as [Hkw|Hopt].
      + left; apply smem_In; rewrite Hk; apply smember_In; exact Hkw.
      + right; left; apply smem_In; rewrite (options_fields _ _ _ Ho); apply smember_In; exact Hopt.
    - right; right; destruct (p_default p); [discriminate|discriminate]. }
  exists bound; split; [exact Hb|exact Hv].
Qed.

Ltac solve_selectable :=
  split; [reflexivity|]; split; [repeat constructor; cbn; intuition discriminate|];
  split; reflexivity.

(** All built-in components but two can be selected by name with any valid options, and the
    calls of the main loop reach their bodies with every parameter bound. *)
Theorem C121_builtins_partial :
  (forall s, In s ["discard_all"; "keep_all"; "clustering"; "drop_excess"] ->
     forall user options, update_option_bundle conv FilterOptions user = Ok options ->
     exists g fname, get_sample_filter conv body (NStr s) user = Ok g /\
       callable_with g filter_call fname) /\
  (forall s, In s ["random_interior"; "random_hull"; "optimal_hull"] ->
     forall user options, update_option_bundle conv SamplerOptions user = Ok options ->
     exists g fname, get_sampler conv body (NStr s) user = Ok g /\
       callable_with g sampler_call fname) /\
  (forall s, In s ["ols"; "ridge"; "powell"; "tranquilo"] ->
     forall user options, update_option_bundle conv FitterOptions user = Ok options ->
     exists g fname, get_raw_fitter conv body (NStr s) user = Ok g /\
       callable_with g fitter_call fname) /\
  (forall s, In s ["classic"] ->
     forall user options, update_option_bundle conv VarianceEstimatorOptions user = Ok options ->
     exists g fname, get_variance_estimator conv body (NStr s) user = Ok g /\
       callable_with g variance_call fname) /\
  (forall s, In s ["classic"; "naive_noisy"; "noisy"; "classic_line_search"] ->
     forall user options, update_option_bundle conv AcceptanceOptions user = Ok options ->
     exists g fname, get_acceptance_decider conv body (NStr s) user = Ok g /\
       callable_with g decider_call fname).
Proof.
  split; [|split; [|split; [|split]]]; intros s Hs user options Ho.
  - destruct Hs as [<-|[<-|[<-|[<-|[]]]]];
      (edestruct selectable_ok as (g & Hg & Hc); [|exact Ho|exists g; eexists; split; [exact Hg|exact Hc]]);
      solve_selectable.
  - destruct Hs as [<-|[<-|[<-|[]]]];
      (edestruct selectable_ok as (g & Hg & Hc); [|exact Ho|exists g; eexists; split; [exact Hg|exact Hc]]);
      solve_selectable.
  - destruct Hs as [<-|[<-|[<-|[<-|[]]]]];
      (edestruct selectable_ok as (g & Hg & Hc); [|exact Ho|exists g; eexists; split; [exact Hg|exact Hc]]);
      solve_selectable.
  - destruct Hs as [<-|[]];
      (edestruct selectable_ok as (g & Hg & Hc); [|exact Ho|exists g; eexists; split; [exact Hg|exact Hc]]);
      solve_selectable.
  - destruct Hs as [<-|[<-|[<-|[<-|[]]]]];
      (edestruct selectable_ok as (g & Hg & Hc); [|exact Ho|exists g; eexists; split; [exact Hg|exact Hc]]);
      solve_selectable.
Qed.

Theorem C121_subsolvers_partial : forall sphere cube retry user options,
  In sphere ["gqtpar"; "gqtpar_fast"; "fallback_reparametrized"; "fallback_inscribed_cube";
             "fallback_norm_constraint"] ->
  In cube ["bntr"; "bntr_fast"] ->
  update_option_bundle conv SubsolverOptions user = Ok options ->
  exists ss fs fc, get_subsolver conv body (NStr sphere) (NStr cube) retry user = Ok ss /\
    callable_with (ss_sphere ss) solver_call fs /\ callable_with (ss_cube ss) solver_call fc /\
    callable_with (ss_fallback_sphere ss) fallback_call "robust_sphere_solver_inscribed_cube" /\
    callable_with (ss_fallback_cube ss) fallback_call "robust_cube_solver" /\
    ss_retry ss = retry.
Proof.
  intros sphere cube retry user options Hs Hc Ho.
  assert (H1 : exists g fs, get_component conv (NStr sphere) (built_in_sphere_solvers body)
            (Some SubsolverOptions) user HIgnore HIgnore ["model"; "x_candidate"] = Ok g /\
            callable_with g solver_call fs).
  { destruct Hs as [<-|[<-|[<-|[<-|[<-|[]]]]]];
      (edestruct selectable_ok as (g & Hg & Hc'); [|exact Ho|exists g; eexists; split; [exact Hg|exact Hc']]);
      solve_selectable. }
  assert (H2 : exists g fc, get_component conv (NStr cube) (built_in_cube_solvers body)
            (Some SubsolverOptions) user HIgnore HIgnore
            ["model"; "x_candidate"; "lower_bounds"; "upper_bounds"] = Ok g /\
            callable_with g solver_call fc).
  { destruct Hc as [<-|[<-|[]]];
      (edestruct selectable_ok as (g & Hg & Hc'); [|exact Ho|exists g; eexists; split; [exact Hg|exact Hc']]);
      solve_selectable. }
  assert (H3 : exists g, get_component conv (NStr "fallback_inscribed_cube")
            (built_in_sphere_solvers body) (Some SubsolverOptions) UNone HIgnore HIgnore
            ["model"; "x_candidate"] = Ok g /\
            callable_with g fallback_call "robust_sphere_solver_inscribed_cube").
  { eapply selectable_ok; [|reflexivity]; solve_selectable. }
  assert (H4 : exists g, get_component conv (NStr "fallback_cube")
            (built_in_cube_solvers body) (Some SubsolverOptions) UNone HIgnore HIgnore
            ["model"; "x_candidate"] = Ok g /\
            callable_with g fallback_call "robust_cube_solver").
  { eapply selectable_ok; [|reflexivity]; solve_selectable. }
  destruct H1 as (g1 & fs & E1 & C1), H2 as (g2 & fc & E2 & C2), H3 as (g3 & E3 & C3),
    H4 as (g4 & E4 & C4).
  exists (mkSubsolver g1 g2 g3 g4 retry), fs, fc; unfold get_subsolver.
  rewrite E1; cbn [bind]; rewrite E2; cbn [bind]; rewrite E3; cbn [bind]; rewrite E4; cbn [bind].
  split; [reflexivity|]; split; [exact C1|]; split; [exact C2|]; split; [exact C3|].
  split; [exact C4|reflexivity].
Qed.

(** The two documented built-in cube solvers "fallback_cube" and "fallback_multistart" can never
    be selected: their signatures lack the mandatory arguments lower_bounds and upper_bounds. *)
Theorem C121_cube_solver_refuted : forall sphere cube retry user,
  In cube ["fallback_cube"; "fallback_multistart"] ->
  exists e, get_subsolver conv body sphere (NStr cube) retry user = Err e.
Proof.
  intros sphere cube retry user Hc; unfold get_subsolver.
  destruct (get_component conv sphere _ _ _ _ _ _) as [g|e]; cbn [bind]; [|eexists; reflexivity].
  assert (H : exists e, get_component conv (NStr cube) (built_in_cube_solvers body)
            (Some SubsolverOptions) user HIgnore HIgnore
            ["model"; "x_candidate"; "lower_bounds"; "upper_bounds"] = Err e).
  { destruct Hc as [<-|[<-|[]]].
    - apply (C96_mandatory conv) with (f := builtin body "robust_cube_solver"
        [req "model"; req "x_candidate"; opt "radius" (flt 1)]) (m := "lower_bounds").
      + right; eexists; split; reflexivity.
      + cbn; tauto.
      + cbn; intuition discriminate.
    - apply (C96_mandatory conv) with (f := builtin body "robust_cube_solver_multistart"
        [req "model"; req "x_candidate"]) (m := "lower_bounds").
      + right; eexists; split; reflexivity.
      + cbn; tauto.
      + cbn; intuition discriminate. }
  destruct H as (e & ->); eexists; reflexivity.
Qed.

Example C121_cube_solver_instance :
  get_subsolver conv body (NStr "gqtpar") (NStr "fallback_cube") (PBool true) UNone
    = Err ValueError.
Proof. reflexivity. Qed.
End C121.

(** A call of the default sample filter as in the main loop *)
Example C121_instance : exists g,
  get_sample_filter no_conversions (fun name bound => if String.eqb name "drop_excess"
      then match slookup bound "n_max_factor" with Some v => Ok v | None => Err KeyError end
      else Err (UserError 0)) (NStr "drop_excess") UNone = Ok g /\
  g [] [("xs", PObj 0); ("indices", PObj 1); ("state", PObj 2); ("target_size", PInt 5);
        ("history", PObj 3); ("n_evals_per_point", PInt 1)] = Ok (PInt 3).
Proof. eexists; split; reflexivity. Qed.
