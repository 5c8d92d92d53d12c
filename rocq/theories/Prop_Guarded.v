(** C127: attributes of models, compiled models and components. *)
From Coq Require Import Ascii String.
From Verif Require Import Base Namespace NamespaceProofs Guarded.
From Coq Require Import List.
Import ListNotations.
Open Scope list_scope.

(** the names that the protection itself uses *)
Definition hidden (kind : okind) : list str := [flag_name kind; s2l "_cid_to_cname"].
Definition leaves_hidden (kind : okind) (cls : str -> option cattr) (ps : list op) : Prop :=
  (forall k v, In (Set_ k v) ps -> ~ In k (hidden kind)) /\ (forall k t, cls k = Some (CProp (Some t)) -> ~ In t (hidden kind)).

Lemma has_put cls o k v : hasattr cls o k = true -> forall j, hasattr cls (put o k v) j = hasattr cls o j.
Proof.
  intros H j. unfold hasattr in *. rewrite get_put. destruct (str_eqb_spec j k) as [->|]; [|reflexivity].
  destruct (get o k); [reflexivity|]. now rewrite H.
Qed.

(** a compiled model: everything is refused and nothing changes *)
Theorem C127_compiled : forall cls o ps, initialized KCompiled o = true ->
  run KCompiled cls o ps = (o, map (fun _ => Some AttributeError) ps).
Proof.
  intros cls o ps I. induction ps as [|p ps IH]; [reflexivity|]. cbn [run map].
  assert (step KCompiled cls o p = Err AttributeError) as ->; [|now rewrite IH].
  destruct p as [k v|k]; cbn [step].
  - unfold setattr. cbn [refuses]. now rewrite I.
  - unfold delattr. rewrite I. cbn [andb]. unfold hasattr. destruct (get o k) eqn:Eg; [reflexivity|]. destruct (cls k) as [[|]|] eqn:Ec; reflexivity.
Qed.
Print Assumptions C127_compiled.

(** deletion is always refused *)
Theorem C127_delete : forall kind cls o k, initialized kind o = true -> delattr kind cls o k = Err AttributeError.
Proof.
  intros kind cls o k I. unfold delattr. rewrite I. cbn [andb]. unfold hasattr. destruct (get o k); [reflexivity|]. destruct (cls k) as [[|]|]; reflexivity.
Qed.
Print Assumptions C127_delete.

(** one step: refused, or a write to an attribute that exists and is not protected *)
Lemma step_cases kind cls o p : initialized kind o = true ->
  step kind cls o p = Err AttributeError \/
  exists k v j, p = Set_ k v /\ (j = k \/ cls k = Some (CProp (Some j))) /\ refuses kind cls o j = false /\ refuses kind cls o k = false /\ step kind cls o p = Ok (put o j v).
Proof.
  intros I. destruct p as [k v|k]; cbn [step]; [|left; now apply C127_delete]. unfold setattr. destruct (refuses kind cls o k) eqn:Er; [now left|].
  destruct (cls k) as [[w|[t|]]|] eqn:Ec.
  - right. exists k, v, k. repeat split; auto.
  - unfold set_plain. destruct (refuses kind cls o t) eqn:Et; [now left|]. right. exists k, v, t. repeat split; auto.
  - now left.
  - right. exists k, v, k. repeat split; auto.
Qed.
Lemma hidden_same kind o j v : ~ In j (hidden kind) -> initialized kind (put o j v) = initialized kind o /\ comp_names (put o j v) = comp_names o.
Proof.
  intros N. cbn in N. unfold initialized, comp_names. rewrite !get_put.
  destruct (str_eqb_spec (flag_name kind) j) as [<-|]; [contradiction N; now left|].
  destruct (str_eqb_spec (s2l "_cid_to_cname") j) as [<-|]; [contradiction N; right; now left|]. now split.
Qed.

(** models and components: whatever is assigned and deleted, there are the same attributes; every assignment to a name that does not exist is
    refused; and the components of a model stay *)
Theorem C127_history : forall kind cls ps o, kind <> KCompiled -> initialized kind o = true -> leaves_hidden kind cls ps ->
  let '(o', out) := run kind cls o ps in
  (forall k, hasattr cls o' k = hasattr cls o k) /\ length out = length ps /\
  (forall i k v, nth_error ps i = Some (Set_ k v) -> hasattr cls o k = false -> nth_error out i = Some (Some AttributeError)) /\
  (forall i k, nth_error ps i = Some (Del k) -> nth_error out i = Some (Some AttributeError)) /\
  (kind = KModel -> (forall c, In c (comp_names o) -> get o' c = get o c) /\
     forall i c v, In c (comp_names o) -> nth_error ps i = Some (Set_ c v) -> nth_error out i = Some (Some AttributeError)).
Proof.
  intros kind cls ps. induction ps as [|p ps IH]; intros o NK I (H1 & H2); cbn [run].
  - split; [reflexivity|]. split; [reflexivity|]. split; [intros [|i]; discriminate|]. split; [intros [|i]; discriminate|]. intros _. split; [reflexivity|]. intros [|i]; discriminate.
  - assert (H' : leaves_hidden kind cls ps) by (split; [intros k v Hk; apply (H1 k v); now right|exact H2]).
    destruct (step_cases kind cls o p I) as [E|(k & v & j & -> & Hj & Rj & Rk & E)]; rewrite E.
    + specialize (IH o NK I H'). destruct (run kind cls o ps) as (o2, l). destruct IH as (A & B & C & D & F).
      split; [exact A|]. split; [cbn; now rewrite B|]. split; [|split].
      * intros [|i] k v Hi Hk; [reflexivity|]. exact (C i k v Hi Hk).
      * intros [|i] k Hi; [reflexivity|]. exact (D i k Hi).
      * intros Em. destruct (F Em) as (F1 & F2). split; [exact F1|]. intros [|i] c v Hc Hi; [reflexivity|]. exact (F2 i c v Hc Hi).
    + assert (Nj : ~ In j (hidden kind)) by (destruct Hj as [->|Hj]; [apply (H1 k v); now left|exact (H2 k j Hj)]).
      destruct (hidden_same kind o j v Nj) as (S1 & S2).
      assert (Hex : forall x, refuses kind cls o x = false -> hasattr cls o x = true /\ (kind = KModel -> ~ In x (comp_names o))).
      { intros x Rx. destruct kind; cbn [refuses] in Rx; [|congruence|]; rewrite I in Rx; cbn [andb] in Rx.
        - apply Bool.orb_false_iff in Rx as (Rx1 & Rx2). split; [now destruct (hasattr cls o x)|]. intros _ Hx. destruct (in_dec str_eq_dec x (comp_names o)); [discriminate|easy].
        - split; [now destruct (hasattr cls o x)|discriminate]. }
      destruct (Hex j Rj) as (X1 & X2). destruct (Hex k Rk) as (Y1 & Y2).
      assert (I' : initialized kind (put o j v) = true) by now rewrite S1.
      specialize (IH (put o j v) NK I' H'). destruct (run kind cls (put o j v) ps) as (o2, l). destruct IH as (A & B & C & D & F).
      pose proof (has_put cls o j v X1) as HP.
      split; [intros x; now rewrite A, HP|]. split; [cbn; now rewrite B|]. split; [|split].
      * intros [|i] x w Hi Hx; cbn [nth_error] in *; [injection Hi as <- <-; congruence|]. apply (C i x w Hi). now rewrite HP.
      * intros [|i] x Hi; [discriminate|]. exact (D i x Hi).
      * intros Em. destruct (F Em) as (F1 & F2). split.
        -- intros c Hc. rewrite F1 by (rewrite S2; exact Hc). rewrite get_put. destruct (str_eqb_spec c j) as [->|]; [|reflexivity]. contradiction (X2 Em).
        -- intros [|i] c w Hc Hi; cbn [nth_error] in *; [injection Hi as <- <-; contradiction (Y2 Em)|]. apply (F2 i c w); [rewrite S2; exact Hc|exact Hi].
Qed.
Print Assumptions C127_history.

(** ** an accepted assignment is seen *)
Theorem C127_takes_effect : forall kind cls o k v, kind <> KCompiled -> initialized kind o = true -> hasattr cls o k = true ->
  (kind = KModel -> ~ In k (comp_names o)) -> cls k = None \/ (exists w, cls k = Some (CPlain w)) ->
  exists o', setattr kind cls o k v = Ok o' /\ get o' k = Some v /\ forall j, j <> k -> get o' j = get o j.
Proof.
  intros kind cls o k v NK I Hh Hc Hp. exists (put o k v).
  assert (R : refuses kind cls o k = false).
  { destruct kind; cbn [refuses]; [|congruence|]; rewrite I, Hh; cbn [andb negb orb]; [|reflexivity]. destruct (in_dec str_eq_dec k (comp_names o)); [|reflexivity]. now contradiction Hc. }
  split; [unfold setattr; rewrite R; destruct Hp as [->|(w & ->)]; reflexivity|]. split.
  - rewrite get_put. destruct (str_eqb_spec k k); [reflexivity|easy].
  - intros j Nj. rewrite get_put. destruct (str_eqb_spec j k); [easy|reflexivity].
Qed.
Print Assumptions C127_takes_effect.

(** an accepted assignment to a property is stored where its setter stores it; a property without setter refuses *)
Theorem C127_property : forall kind cls o k v, kind <> KCompiled -> initialized kind o = true ->
  (cls k = Some (CProp None) -> setattr kind cls o k v = Err AttributeError) /\
  forall t, cls k = Some (CProp (Some t)) -> hasattr cls o t = true -> (kind = KModel -> ~ In k (comp_names o) /\ ~ In t (comp_names o)) ->
  exists o', setattr kind cls o k v = Ok o' /\ get o' t = Some v /\ forall j, j <> t -> get o' j = get o j.
Proof.
  intros kind cls o k v NK I. split.
  - intros E. unfold setattr. rewrite E. destruct (refuses kind cls o k); reflexivity.
  - intros t E Ht Hc.
    assert (R : forall x, hasattr cls o x = true -> (kind = KModel -> ~ In x (comp_names o)) -> refuses kind cls o x = false).
    { intros x Hx Hn. destruct kind; cbn [refuses]; [|congruence|]; rewrite I, Hx; cbn [andb negb orb]; [|reflexivity]. destruct (in_dec str_eq_dec x (comp_names o)); [|reflexivity]. now contradiction Hn. }
    assert (Hk : hasattr cls o k = true) by (unfold hasattr; rewrite E; destruct (get o k); reflexivity).
    exists (put o t v). split; [|split].
    + unfold setattr, set_plain. rewrite R; [|exact Hk|intros Em; now apply Hc]. rewrite E, R; [reflexivity|exact Ht|intros Em; now apply Hc].
    + rewrite get_put. destruct (str_eqb_spec t t); [reflexivity|easy].
    + intros j Nj. rewrite get_put. destruct (str_eqb_spec j t); [easy|reflexivity].
Qed.
Print Assumptions C127_property.

(** ** the protection of a model can be switched off by an assignment: the flag is an attribute as any other *)
Definition ex_obj : attrs := [(s2l "_cid_to_cname", VNames [s2l "PowerLaw"]); (s2l "PowerLaw", VOther 1); (s2l "_name", VOther 2); (s2l "_Model__initialized", VBool true)].
Definition ex_cls (k : str) : option cattr := if str_eqb k (s2l "name") then Some (CProp (Some (s2l "_name"))) else if str_eqb k (s2l "type") then Some (CProp None) else None.
Theorem C127_switch_off_refuted : exists cls o ps c o', initialized KModel o = true /\ In c (comp_names o) /\ hasattr cls o (s2l "anything") = false /\
  fst (run KModel cls o ps) = o' /\ get o' c <> get o c /\ hasattr cls o' (s2l "anything") = true.
Proof.
  exists ex_cls, ex_obj, [Set_ (s2l "_Model__initialized") (VBool false); Set_ (s2l "PowerLaw") (VOther 7); Set_ (s2l "anything") (VOther 8)], (s2l "PowerLaw").
  eexists. split; [reflexivity|]. split; [now left|]. split; [reflexivity|]. split; [reflexivity|]. split; [cbn; congruence|reflexivity].
Qed.
Print Assumptions C127_switch_off_refuted.
Example C127_ex : initialized KModel ex_obj = true /\
  leaves_hidden KModel ex_cls [Set_ (s2l "PowerLaw") (VOther 7); Set_ (s2l "name") (VOther 3); Set_ (s2l "nmae") (VOther 4); Del (s2l "_name"); Set_ (s2l "type") (VOther 5)] /\
  snd (run KModel ex_cls ex_obj [Set_ (s2l "PowerLaw") (VOther 7); Set_ (s2l "name") (VOther 3); Set_ (s2l "nmae") (VOther 4); Del (s2l "_name"); Set_ (s2l "type") (VOther 5)]) =
    [Some AttributeError; None; Some AttributeError; Some AttributeError; Some AttributeError].
Proof.
  split; [reflexivity|]. split; [|reflexivity]. split.
  - intros k v H. cbn in H. repeat (destruct H as [H|H]; [try (injection H as <- <-); try discriminate; cbn; intuition discriminate|]). easy.
  - intros k t. unfold ex_cls. destruct (str_eqb k (s2l "name")); [intros E; injection E as <-; cbn; intuition discriminate|]. destruct (str_eqb k (s2l "type")); discriminate.
Qed.
