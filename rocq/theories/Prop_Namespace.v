(** C33: labels *)
From Coq Require Import Ascii String.
From Verif Require Import Base BaseFacts Namespace NamespaceProofs.
Open Scope list_scope.

(** what [build_namespace] does, for every list of names: the k-th occurrence of a name
    gets the suffix of [k] *)
Theorem C33_numbering : forall names latex prime i, i < length names ->
  nth i (build_namespace names latex prime) [] =
  nth i names [] ++ suffix latex prime (occ (firstn (S i) names) (nth i names [])).
Proof. intros. rewrite nth_build by assumption. now rewrite nth_numbering. Qed.
Print Assumptions C33_numbering.

(** False as stated: two components [X] and one class called [X_2] *)
Theorem C33_components_refuted : exists names, ~ NoDup (build_namespace names false false).
Proof.
  exists [s2l "X"; s2l "X"; s2l "X_2"]. intros H.
  replace (build_namespace _ _ _) with [s2l "X"; s2l "X_2"; s2l "X_2"] in H by reflexivity.
  inversion H as [|? ? _ H2]; inversion H2 as [|? ? H3 _]; apply H3; now left.
Qed.
Print Assumptions C33_components_refuted.
(** ... auxiliary parameters [a], [a'], [a] *)
Theorem C33_parameters_refuted : exists names, ~ NoDup (build_namespace names false true).
Proof.
  exists [s2l "a"; s2l "a'"; s2l "a"]. intros H.
  replace (build_namespace _ _ _) with [s2l "a"; s2l "a'"; s2l "a'"] in H by reflexivity.
  inversion H as [|? ? _ H2]; inversion H2 as [|? ? H3 _]; apply H3; now left.
Qed.
Print Assumptions C33_parameters_refuted.

(** Unique when no name itself looks like a numbered (primed) duplicate.  Missing from
    C33: names that do. *)
Theorem C33_components_partial : forall names, Forall (fun s => ~ looks_numbered s) names ->
  NoDup (build_namespace names false false).
Proof. intros. now apply build_nodup, unambiguous_num. Qed.
Print Assumptions C33_components_partial.
Theorem C33_aux_parameters_partial : forall names latex, Forall (fun s => ~ ends_with_prime s) names ->
  NoDup (build_namespace names latex true).
Proof. intros. now apply build_nodup, unambiguous_prime. Qed.
Print Assumptions C33_aux_parameters_partial.
(** labels of the components of a joint fit, [component_number[data1+data2]] *)
Theorem C33_fit_components_partial : forall comps,
  Forall (fun p => ~ In bracket (fst p) /\ ~ looks_numbered (fst p)) comps -> NoDup (fit_names comps).
Proof. exact fit_names_nodup. Qed.
Print Assumptions C33_fit_components_partial.
(** names of all parameters of a model *)
Theorem C33_all_parameters_partial : forall aux assigned,
  Forall (fun s => ~ ends_with_prime s /\ ~ In dot s) aux ->
  NoDup assigned -> Forall (fun p => ~ In dot (snd p)) assigned ->
  NoDup (param_names aux assigned).
Proof. exact param_names_nodup. Qed.
Print Assumptions C33_all_parameters_partial.

Example C33_ex : Forall (fun s => ~ looks_numbered s) [s2l "PowerLaw"; s2l "TBAbs"; s2l "PowerLaw"]
  /\ build_namespace [s2l "PowerLaw"; s2l "TBAbs"; s2l "PowerLaw"] false false
     = [s2l "PowerLaw"; s2l "TBAbs"; s2l "PowerLaw_2"].
Proof.
  split; [|reflexivity].
  assert (G : forall s, ~ In underscore s -> ~ looks_numbered s).
  { intros s H (b & k & _ & ->). apply H. apply in_or_app. right. now left. }
  repeat constructor; apply G; cbn; unfold underscore; intuition discriminate.
Qed.
Example C33_fit_ex : fit_names [(s2l "PL", s2l "d1"); (s2l "PL", s2l "d1"); (s2l "PL", []); (s2l "BB", s2l "d1+d2")]
  = [s2l "PL[d1]"; s2l "PL_2[d1]"; s2l "PL"; s2l "BB[d1+d2]"].
Proof. reflexivity. Qed.
