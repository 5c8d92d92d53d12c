(** C44, C50: vectors and dictionaries of parameters, and requests for parameters. *)
From Verif Require Import Base Expr Composite CompositeProofs Namespace NamespaceProofs ModelInfo ModelInfoProofs ModelInfoProofs2 CompileProofs Prop_Compile HelperNames HelperNamesProofs.
From Coq Require Import Ascii List.
Import ListNotations.
Open Scope list_scope.

(** ** C44: the two forms of a parameter vector, for any list of distinct names *)
(** The bijections are those of numpyro: [T n] maps the real line onto the support [dom n] of the prior of
    parameter [n], and [U n] is its inverse. *)
Section C44.
Context {V : Type}.
Implicit Types (T U : str -> V -> V) (free : list str) (arr : list V) (d : list (str * V)).

Theorem C44_array : forall free arr, NoDup free -> length arr = length free ->
  exists d, arr_to_dic free arr = Ok d /\ dic_to_arr free d = Ok arr /\
  forall k n v, nth_error free k = Some n -> nth_error arr k = Some v -> get d n = Some v.
Proof.
  intros free arr N L. exists (combine free arr). rewrite arr_to_dic_eq by exact N. rewrite L, Nat.eqb_refl. split; [reflexivity|]. split; [now apply mapR_get_combine|].
  intros k n v Hn Hv. apply get_nodup; [now rewrite combine_keys|]. clear N L. revert arr k Hn Hv. induction free as [|x free IH]; intros [|y arr] [|k] Hn Hv; try discriminate.
  - cbn in *. left. congruence.
  - right. eapply IH; eauto.
Qed.

(** the vector of a dictionary holds at place [k] the value of the [k]-th name, however the dictionary was
    built; a missing name is an error *)
Theorem C44_dictionary : forall free d,
  (forall arr, dic_to_arr free d = Ok arr <-> Forall2 (fun n v => get d n = Some v) free arr) /\
  (forall e, dic_to_arr free d = Err e <-> e = KeyError /\ exists n, In n free /\ get d n = None) /\
  (forall d', (forall n, In n free -> get d n = get d' n) -> dic_to_arr free d = dic_to_arr free d').
Proof.
  intros free d. unfold dic_to_arr. split; [|split].
  - intros arr. split.
    + intros H. apply mapR_inv in H. induction H as [|n v l l' E F IH]; constructor; [|exact IH]. destruct (get d n); [cbn in E; congruence|discriminate].
    + induction 1 as [|n v l l' E F IH]; [reflexivity|]. cbn [mapR]. rewrite E. cbn [opt_res bind]. now rewrite IH.
  - intros e. induction free as [|n l IH]; cbn [mapR].
    + split; [discriminate|]. intros (_ & n & [] & _).
    + destruct (get d n) as [v|] eqn:E; cbn [opt_res bind].
      * destruct (mapR _ l) as [r|e']; cbn [bind].
        -- split; [discriminate|]. intros (-> & m & [<-|Hm] & Hg); [congruence|]. assert (H : Ok r = Err KeyError) by (apply IH; eauto). discriminate.
        -- split; [intros H; injection H as ->; destruct (proj1 IH eq_refl) as (-> & m & Hm & Hg); split; [reflexivity|]; exists m; split; [now right|exact Hg]|].
           intros (-> & m & [<-|Hm] & Hg); [congruence|]. assert (H : @Err (list V) e' = Err KeyError) by (apply IH; eauto). exact H.
      * split; [intros H; injection H as <-; split; [reflexivity|]; exists n; split; [now left|exact E]|]. now intros (-> & _).
  - intros d' H. apply mapR_ext. intros n Hn. now rewrite H.
Qed.

(** to unconstrained space and back *)
Theorem C44_inverse : forall T U (dom : str -> V -> Prop) free arr, NoDup free -> length arr = length free ->
  (forall n x, dom n (T n x)) -> (forall n x, U n (T n x) = x) -> (forall n y, dom n y -> T n (U n y) = y) ->
  (* unconstrained -> constrained -> unconstrained *)
  (exists d, unconstr_arr_to_constr_dic free (Build_bijections T U) arr = Ok d /\ constr_dic_to_unconstr_arr free (Build_bijections T U) d = Ok arr /\ (forall n v, In (n, v) d -> dom n v)) /\
  (* constrained -> unconstrained -> constrained *)
  (Forall2 dom free arr ->
   exists u d, constr_arr_to_unconstr_arr free (Build_bijections T U) arr = Ok u /\ unconstr_arr_to_constr_dic free (Build_bijections T U) u = Ok d /\ dic_to_arr free d = Ok arr).
Proof.
  intros T U dom free arr N L D1 I1 I2. split.
  - unfold unconstr_arr_to_constr_dic, constr_dic_to_unconstr_arr, constr_arr_to_unconstr_arr, constr_arr_to_unconstr_dic. cbn [to_support from_support].
    rewrite arr_to_dic_eq by exact N. rewrite L, Nat.eqb_refl. cbn [bind]. eexists. split; [reflexivity|]. split.
    + rewrite transform_combine. set (a := map _ (combine free arr)). assert (La : length a = length free) by (unfold a; rewrite map_length, combine_length; lia).
      unfold dic_to_arr at 1. rewrite mapR_get_combine by assumption. cbn [bind]. rewrite arr_to_dic_eq by exact N. rewrite La, Nat.eqb_refl. cbn [bind].
      rewrite transform_combine. set (b := map _ (combine free a)). assert (Eb : b = arr).
      { unfold b, a. clear -L I1. revert arr L. induction free as [|n free IH]; intros [|v arr] L; cbn in L; try lia; [reflexivity|]. cbn. rewrite I1. f_equal. apply IH. lia. }
      rewrite Eb. unfold dic_to_arr. now apply mapR_get_combine.
    + intros n v H. unfold transform in H. apply in_map_iff in H as ([k x] & E & _). cbn in E. injection E as <- <-. apply D1.
  - intros F. unfold unconstr_arr_to_constr_dic, constr_arr_to_unconstr_arr, constr_arr_to_unconstr_dic. cbn [to_support from_support].
    rewrite arr_to_dic_eq by exact N. rewrite L, Nat.eqb_refl. cbn [bind].
    rewrite transform_combine. set (a := map _ (combine free arr)). assert (La : length a = length free) by (unfold a; rewrite map_length, combine_length; lia).
    unfold dic_to_arr at 1. rewrite mapR_get_combine by assumption. do 2 eexists. split; [reflexivity|]. rewrite arr_to_dic_eq by exact N. rewrite La, Nat.eqb_refl. cbn [bind].
    split; [reflexivity|]. rewrite transform_combine. set (b := map _ (combine free a)). assert (Eb : b = arr).
    { unfold b, a. clear -F I2. induction F as [|n v free arr H F IH]; [reflexivity|]. cbn. rewrite I2 by exact H. now f_equal. }
    rewrite Eb. now apply mapR_get_combine.
Qed.
End C44.
Print Assumptions C44_array.
Print Assumptions C44_dictionary.
Print Assumptions C44_inverse.

(** ** the names of the parameters of a model *)
Record labelled (bname cname : nat -> str) (comps : list comp) : Prop := {
  lb_names : good_names bname cname comps;
  lb_slots : NoDup (slots_of comps);
  lb_comp : forall c, In c comps -> cname (c_id c) <> [] }.

Section Sess.
Variables (kind : nat -> pkind) (bname cname : nat -> str) (ops : list hop) (h : heap) (comps : list comp).
Hypothesis S : session ops h comps.
Hypothesis L : labelled bname cname comps.
Lemma use_session : exists dead, hinv (ops_params ops) dead h /\ model_ok h comps /\ coherent (ops_params ops) /\ (forall c, In c comps -> ~ In (c_id c) dead) /\
  NoDup (map snd (mi_name (the_info kind h bname cname comps))).
Proof.
  destruct (session_inv _ _ _ S) as (dead & I & D). exists dead. split; [exact I|]. split; [exact (se_model _ _ _ S)|]. split; [exact (se_objects _ _ _ S)|].
  split; [exact D|]. exact (Fnames kind bname cname ops h comps S (lb_names _ _ _ L)).
Qed.
End Sess.

(** the names: every free and every composed parameter has exactly one, free parameters come in the order of the table *)
Theorem C44_names : forall kind bname cname ops h comps, session ops h comps -> labelled bname cname comps ->
  exists mi pn, get_model_info kind h bname cname comps = Ok mi /\ helper_names kind cname comps mi = Ok pn /\
  NoDup (pn_all pn) /\ NoDup (pn_free pn) /\ NoDup (pn_determ pn) /\
  (forall n, In n (pn_free pn) <-> exists i, In i (mi_sample mi) /\ name_of mi i = n) /\
  (forall n, In n (pn_determ pn) <-> exists i, In i (mi_determ mi) /\ name_of mi i = n) /\
  (forall n, In n (pn_all pn) <-> In n (pn_free pn) \/ In n (pn_determ pn)) /\ (forall n, In n (pn_free pn) -> ~ In n (pn_determ pn)) /\
  length (pn_free pn) = length (mi_sample mi) /\
  exists f g, pn_free pn = filter f (pn_all pn) /\ pn_determ pn = filter g (pn_all pn).
Proof.
  intros kind bname cname ops h comps S [G Ls Lc]. destruct (use_session kind bname cname ops h comps S (Build_labelled _ _ _ G Ls Lc)) as (dead & I & M & O & D & N).
  set (mi := the_info kind h bname cname comps) in *. exists mi, (the_names kind h bname cname comps). split; [exact (mi_eq kind bname cname ops h comps S)|].
  split; [eapply helper_names_eq; eauto|].
  assert (Na : NoDup (map (name_of mi) (row_ids kind h bname cname comps))) by (eapply all_nodup; eauto).
  assert (Rin : forall i, In i (row_ids kind h bname cname comps) <-> In i (mi_sample mi) \/ In i (mi_determ mi)) by (intros i; eapply row_ids_in; eauto).
  assert (Nap : NoDup (map (name_of mi) (mi_sample mi) ++ map (name_of mi) (mi_determ mi))) by (eapply names_app_nodup; eauto).
  assert (F1 : forall n, In n (pn_free (the_names kind h bname cname comps)) <-> In n (map (name_of mi) (mi_sample mi))) by (intros n; eapply free_in; eauto).
  assert (F2 : forall n, In n (pn_determ (the_names kind h bname cname comps)) <-> In n (map (name_of mi) (mi_determ mi))).
  { intros n. cbn [pn_determ the_names]. rewrite filter_In, mem_spec. fold mi. split; [tauto|]. intros H. split; [|exact H]. apply in_map_iff in H as (i & <- & Hi). apply in_map, Rin. now right. }
  split; [exact Na|]. split; [now apply NoDup_filter|]. split; [now apply NoDup_filter|].
  split; [intros n; rewrite F1, in_map_iff; split; intros (i & A & B); eauto|]. split; [intros n; rewrite F2, in_map_iff; split; intros (i & A & B); eauto|].
  split; [|split; [|split]].
  - intros n. rewrite F1, F2. cbn [pn_all the_names]. fold mi. rewrite !in_map_iff. split.
    + intros (i & E & Hi). apply Rin in Hi as [Hi|Hi]; [left|right]; eauto.
    + intros [(i & E & Hi)|(i & E & Hi)]; exists i; (split; [exact E|]); apply Rin; tauto.
  - intros n. rewrite F1, F2. intros A B. clear -Nap A B. induction (map (name_of mi) (mi_sample mi)) as [|x l IH]; [easy|]. cbn [List.app] in Nap. inversion Nap as [|? ? N1 N2]; subst.
    destruct A as [<-|A]; [|now apply IH]. apply N1, in_app_iff. now right.
  - assert (Nf : NoDup (pn_free (the_names kind h bname cname comps))) by now apply NoDup_filter.
    assert (Ns : NoDup (map (name_of mi) (mi_sample mi))).
    { clear -Nap. induction (map (name_of mi) (mi_sample mi)) as [|x l IH]; [constructor|]. cbn [List.app] in Nap. inversion Nap as [|? ? N1 N2]; subst. constructor; [|auto]. intros K. apply N1, in_app_iff. now left. }
    rewrite <- (map_length (name_of mi) (mi_sample mi)). apply Nat.le_antisymm; apply NoDup_incl_length; try assumption; intros n; apply F1.
  - exists (fun n => mem n (map (name_of mi) (mi_sample mi))), (fun n => mem n (map (name_of mi) (mi_determ mi))). split; reflexivity.
Qed.
Print Assumptions C44_names.

(** the values of all parameters of the model at a vector of unconstrained values: named in the order of [pn_all],
    each free parameter gets its own entry through its own bijection, and every numbered row of the table gets the
    value of the object its slot holds *)
Theorem C44_values : forall kind bname cname ops h comps, session ops h comps -> labelled bname cname comps ->
  forall mi pn, get_model_info kind h bname cname comps = Ok mi -> helper_names kind cname comps mi = Ok pn ->
  forall V (A : alg V) (dflt : nat -> V) T arr, length arr = length (pn_free pn) ->
  exists d, params_of A dflt T mi pn arr = Ok d /\ params_array A dflt T mi pn arr = Ok (map snd d) /\ map fst d = pn_all pn /\
  (forall n v, In (n, v) (combine (pn_free pn) arr) -> get d n = Some (T n v)) /\
  (forall env, (forall i, kind i = KFixed -> env i = dflt i) ->
     (forall i n v, names_id mi n i -> In (n, v) (combine (pn_free pn) arr) -> env i = T n v) ->
     forall k s p n t c, nth_error (slots_of comps) k = Some s -> nth_error (mi_setup mi) k = Some (n, (t, c)) -> (c = Free \/ c = Composed) ->
     h_slot h s = Some p -> get d n = Some (psem A env p)).
Proof.
  intros kind bname cname ops h comps S L mi pn Emi Epn V A dflt T arr Hl.
  destruct (use_session kind bname cname ops h comps S L) as (dead & I & M & O & D & N). destruct L as [G Ls Lc].
  assert (mi = the_info kind h bname cname comps) as -> by (pose proof (mi_eq kind bname cname ops h comps S); congruence). set (mi := the_info kind h bname cname comps) in *.
  assert (pn = the_names kind h bname cname comps) as -> by (assert (helper_names kind cname comps mi = Ok (the_names kind h bname cname comps)) by (eapply helper_names_eq; eauto); congruence).
  destruct (params_of_eq kind h bname cname comps _ dead O I M D Ls N A dflt T arr Hl) as (d & E & Ek & Eg). fold mi in E. exists d. split; [exact E|].
  assert (Na : NoDup (pn_all (the_names kind h bname cname comps))) by (cbn [pn_all the_names]; eapply all_nodup; eauto).
  assert (Nf : NoDup (pn_free (the_names kind h bname cname comps))) by (eapply free_nodup; eauto).
  split.
  { unfold params_array. rewrite arr_to_dic_eq by exact Nf. rewrite Hl, Nat.eqb_refl. cbn [bind]. unfold dic_to_arr. rewrite mapR_get_combine by assumption. cbn [bind]. rewrite E. cbn [bind].
    assert (Q : d = combine (map fst d) (map snd d)) by (clear; induction d as [|[? ?] d IH]; [reflexivity|]; cbn; now rewrite <- IH).
    rewrite <- Ek. transitivity (mapR (fun n => opt_res KeyError (get (combine (map fst d) (map snd d)) n)) (map fst d)); [now rewrite <- Q|].
    apply mapR_get_combine; [now rewrite Ek|now rewrite !map_length]. }
  split; [exact Ek|].
  assert (Fr : forall n v, In (n, v) (combine (pn_free (the_names kind h bname cname comps)) arr) -> get d n = Some (T n v)).
  { intros n v H. rewrite Eg. { eapply get_site_free; eauto. } apply in_combine_l in H. cbn [pn_free the_names] in H. apply filter_In in H. apply H. }
  split; [exact Fr|].
  intros env H1 H2 k s p n t c Hs Ht Hc Hp.
  assert (HIn : In s (slots_of comps)) by (eapply nth_error_In; eauto).
  assert (Es : slot_param h s = p) by (unfold slot_param; now rewrite Hp).
  unfold mi in Ht. cbn [mi_setup the_info] in Ht. rewrite map_map, nth_error_map, Hs in Ht. cbn [option_map] in Ht. injection Ht as Ht.
  pose proof (row_fst kind h cname comps s) as F. rewrite Ht in F. cbn [fst] in F.
  destruct (cp_held h comps (ops_params ops) dead I M s HIn) as (r & Ecp).
  assert (r = s /\ setup_class kind p = c) as (-> & Ec).
  { unfold row_val in Ht. rewrite Ecp in Ht. rewrite Es in Ht. destruct (slot_eqb_spec s r) as [Er|Er]; cbn [fst] in Ht; injection Ht as E1 E2 E3; [split; [now symmetry|exact E3]|]. subst c. destruct Hc; discriminate. }
  assert (Hn : name_of mi (pid p) = n). { rewrite F, <- Es. unfold mi. eapply slot_name; eauto. }
  assert (Hall : In n (pn_all (the_names kind h bname cname comps))).
  { rewrite <- Hn. cbn [pn_all the_names]. fold mi. apply in_map. unfold row_ids. apply in_app_iff. left. apply in_flat_map. exists s. split; [exact HIn|].
    unfold slot_id. rewrite Ecp, slot_eqb_refl, Es, Ec. destruct Hc as [->| ->]; now left. }
  rewrite (Eg n Hall).
  assert (SampEnv : forall i, In i (mi_sample mi) -> env i = T (name_of mi i) (uval kind h bname cname comps dflt arr (name_of mi i))).
  { intros i Hi. apply (H2 i (name_of mi i)); [now split|].
    assert (In (name_of mi i) (pn_free (the_names kind h bname cname comps))) as K by (eapply free_in; eauto; now apply in_map).
    pose proof (get_u_some kind h bname cname comps _ dead O I M Ls N dflt arr Hl _ K) as Q. now apply get_in in Q. }
  destruct Hc as [->| ->].
  - (* free *)
    assert (exists i, p = PBase i /\ kind i = KFree) as (i & -> & Ki) by (pose proof (setup_class_role kind p) as R; rewrite Ec in R; exact R).
    cbn [pid psem] in *. assert (Hi : In i (mi_sample mi)). { unfold mi. eapply Fsample; eauto. split; [exact Ki|]. exists (PBase i). split; [now exists s|constructor]. }
    assert (In n (pn_free (the_names kind h bname cname comps))) as K by (eapply free_in; eauto; rewrite <- Hn; now apply in_map).
    pose proof (get_u_some kind h bname cname comps _ dead O I M Ls N dflt arr Hl _ K) as Q. apply get_in in Q.
    rewrite (get_site_free kind h bname cname comps _ dead O I M D Ls N A dflt T arr Hl n _ Q). f_equal. rewrite (SampEnv i Hi), Hn. reflexivity.
  - assert (Hdet : In (pid p) (mi_determ mi)).
    { unfold mi. cbn [mi_determ the_info]. apply somes_in. rewrite map_map. apply in_map_iff. exists s. split; [|exact HIn]. unfold row_val. rewrite Ecp, slot_eqb_refl, Es, Ec. reflexivity. }
    rewrite <- Hn. etransitivity; [exact (get_site_determ kind h bname cname comps _ dead O I M D Ls N A dflt T arr (pid p) Hdet)|]. f_equal.
    assert (Edp : det_param kind h bname cname comps (pid p) = p).
    { unfold det_param. cbn [mi_info the_info]. erewrite (info_get h comps _ dead O I M p p); [reflexivity| |constructor]. rewrite <- Es. now apply in_map. }
    rewrite Edp. apply psem_pvalue. intros i Hi. unfold overlay. rewrite (site_ids_get kind h bname cname comps dflt T arr i). fold mi.
    destruct (existsb (Nat.eqb i) (mi_sample mi)) eqn:Es'.
    + apply existsb_eqb in Es'. symmetry. now apply SampEnv.
    + assert (kind i = KFixed) as Kf.
      { destruct (composed_facts kind p Ec) as (_ & Ni). specialize (Ni i Hi). destruct (kind i) eqn:Ki; [|reflexivity|congruence].
        exfalso. assert (In i (mi_sample mi)) as Q. { unfold mi. eapply Fsample; eauto. split; [exact Ki|]. exists p. split; [now exists s|now apply part_leaf]. }
        apply existsb_eqb in Q. congruence. }
      rewrite (H1 i Kf). destruct (existsb (Nat.eqb i) (mi_fixed mi)); reflexivity.
Qed.
Print Assumptions C44_values.

(** the initial vector of a fit: the default of the [k]-th free parameter at place [k] *)
Theorem C44_defaults : forall kind bname cname ops h comps, session ops h comps -> labelled bname cname comps ->
  forall mi pn, get_model_info kind h bname cname comps = Ok mi -> helper_names kind cname comps mi = Ok pn ->
  forall V (dflt : nat -> V), exists arr, default_arr dflt mi pn = Ok arr /\ length arr = length (pn_free pn) /\
  forall n v i, In (n, v) (combine (pn_free pn) arr) -> names_id mi n i -> v = dflt i.
Proof.
  intros kind bname cname ops h comps S L mi pn Emi Epn V dflt.
  destruct (use_session kind bname cname ops h comps S L) as (dead & I & M & O & D & N). destruct L as [G Ls Lc].
  assert (mi = the_info kind h bname cname comps) as -> by (pose proof (mi_eq kind bname cname ops h comps S); congruence). set (mi := the_info kind h bname cname comps) in *.
  assert (pn = the_names kind h bname cname comps) as -> by (assert (helper_names kind cname comps mi = Ok (the_names kind h bname cname comps)) by (eapply helper_names_eq; eauto); congruence).
  unfold default_arr.
  assert (Ed : fold_left (fun d i => put d (name_of mi i) (dflt i)) (mi_sample mi) [] = map (fun i => (name_of mi i, dflt i)) (mi_sample mi)).
  { assert (Q : forall l acc, fold_left (fun d i => put d (name_of mi i) (dflt i)) l acc = fold_left (fun d p => put d (fst p) (snd p)) (map (fun i => (name_of mi i, dflt i)) l) acc).
    { induction l as [|i l IH]; intros acc; [reflexivity|]. cbn [fold_left map fst snd]. apply IH. }
    rewrite Q, fold_put_dict; [reflexivity|]. cbn [List.app]. rewrite map_map. cbn [fst].
    apply inj_nodup; [|unfold mi; cbn [mi_sample the_info]; apply dedup_nil]. intros i j Hi Hj. eapply row_ids_inj; eauto; eapply row_ids_in; eauto. }
  rewrite Ed. set (dd := map (fun i => (name_of mi i, dflt i)) (mi_sample mi)).
  assert (Nk : NoDup (map fst dd)).
  { unfold dd. rewrite map_map. cbn [fst]. apply inj_nodup; [|unfold mi; cbn [mi_sample the_info]; apply dedup_nil]. intros i j Hi Hj. eapply row_ids_inj; eauto; eapply row_ids_in; eauto. }
  assert (P : forall n, In n (pn_free (the_names kind h bname cname comps)) -> exists i, In i (mi_sample mi) /\ name_of mi i = n /\ get dd n = Some (dflt i)).
  { intros n Hn. eapply free_in in Hn; eauto. apply in_map_iff in Hn as (i & E & Hi). fold mi in E, Hi. exists i. split; [exact Hi|]. split; [exact E|]. apply get_nodup; [exact Nk|].
    unfold dd. apply in_map_iff. exists i. now rewrite E. }
  set (g := fun n => match get dd n with Some v => v | None => dflt 0 end).
  exists (map g (pn_free (the_names kind h bname cname comps))). split; [|split].
  - unfold dic_to_arr. apply mapR_ok. intros n Hn. destruct (P n Hn) as (i & _ & _ & E). unfold g. now rewrite E.
  - apply map_length.
  - intros n v i H [Hi En]. assert (Hn : In n (pn_free (the_names kind h bname cname comps))) by (now apply in_combine_l in H).
    assert (v = g n). { clear -H. induction (pn_free (the_names kind h bname cname comps)) as [|x l IH]; [easy|]. cbn [map combine] in H. destruct H as [H|H]; [congruence|auto]. }
    subst v. destruct (P n Hn) as (j & Hj & Ej & E). unfold g. rewrite E.
    assert (i = j) as ->; [|reflexivity]. eapply row_ids_inj; eauto; [eapply row_ids_in; eauto..|]. fold mi. congruence.
Qed.
Print Assumptions C44_defaults.

(** ** C50 *)
Section C50.
Variables (kind : nat -> pkind) (bname cname : nat -> str) (ops : list hop) (h : heap) (comps : list comp).
Hypothesis S : session ops h comps.
Hypothesis L : labelled bname cname comps.
Variables (mi : minfo) (pn : pnames).
Hypothesis Emi : get_model_info kind h bname cname comps = Ok mi.
Hypothesis Epn : helper_names kind cname comps mi = Ok pn.
Lemma having_spec c n : c = Forwarded \/ c = Fixed \/ c = Integrated -> (having (mi_setup mi) c n = true <-> exists t, In (n, (t, c)) (mi_setup mi)).
Proof.
  intros Hc. unfold having. rewrite existsb_exists. split.
  - intros ([n' [t c']] & H & E). cbn [fst snd] in E. apply andb_true_iff in E as (E1 & E2). destruct (str_eqb_spec n n') as [<-|]; [|discriminate].
    exists t. destruct Hc as [->|[->| ->]]; destruct c'; try discriminate; exact H.
  - intros (t & H). exists (n, (t, c)). split; [exact H|]. cbn [fst snd]. destruct (str_eqb_spec n n); [|congruence]. destruct Hc as [->|[->| ->]]; reflexivity.
Qed.
Lemma all_facts : NoDup (pn_all pn) /\ (forall n t c, In (n, (t, c)) (mi_setup mi) -> (In n (pn_all pn) <-> c = Free \/ c = Composed)) /\
  (forall n t c t' c', In (n, (t, c)) (mi_setup mi) -> In (n, (t', c')) (mi_setup mi) -> t = t' /\ c = c') /\
  NoDup (pn_interest pn) /\ (exists rest, pn_all pn = pn_interest pn ++ rest).
Proof.
  destruct (use_session kind bname cname ops h comps S L) as (dead & I & M & O & D & N). destruct L as [[G1 G2 G3] Ls Lc].
  assert (mi = the_info kind h bname cname comps) as -> by (pose proof (mi_eq kind bname cname ops h comps S); congruence).
  assert (pn = the_names kind h bname cname comps) as -> by (assert (helper_names kind cname comps (the_info kind h bname cname comps) = Ok (the_names kind h bname cname comps)) by (eapply helper_names_eq; eauto); congruence).
  assert (Na : NoDup (pn_all (the_names kind h bname cname comps))) by (cbn [pn_all the_names]; eapply all_nodup; eauto).
  split; [exact Na|]. split; [|split; [|split]].
  - intros n t c H. rewrite <- has_idx_cases. cbn [pn_all the_names]. eapply all_setup; eauto.
  - intros n t c t' c' H H'. eapply setup_fun; eauto.
  - cbn [pn_all pn_interest the_names] in *. unfold row_ids in Na. rewrite map_app in Na. clear -Na.
    match type of Na with NoDup (?a ++ _) => induction a as [|x l IH] end; [constructor|]. cbn [List.app] in Na. inversion Na as [|? ? N1 N2]; subst. constructor; [|auto]. intros K. apply N1, in_app_iff. now left.
  - cbn [pn_all pn_interest the_names]. unfold row_ids. rewrite map_app. eexists. reflexivity.
Qed.
Lemma not_having c n : In n (pn_all pn) -> c = Forwarded \/ c = Fixed \/ c = Integrated -> having (mi_setup mi) c n = false.
Proof.
  intros Hn Hc. rewrite <- not_true_iff_false, having_spec by exact Hc. intros (t & H). destruct all_facts as (_ & A & _). apply (A _ _ _ H) in Hn. destruct Hc as [->|[->| ->]]; destruct Hn; discriminate.
Qed.
Lemma filter_nil {X} (f : X -> bool) l : (forall x, In x l -> f x = false) -> filter f l = [].
Proof. induction l as [|x l IH]; intros H; [reflexivity|]. cbn [filter]. rewrite (H x) by now left. apply IH. intros y Hy. apply H. now right. Qed.
Lemma finish_all params : NoDup params -> (forall n, In n params -> In n (pn_all pn)) -> finish pn (mi_setup mi) params = Accept (filter (fun n => mem n params) (pn_all pn)).
Proof.
  intros Nd H. unfold finish. rewrite (filter_nil (having (mi_setup mi) Forwarded)), (filter_nil (having (mi_setup mi) Fixed)), (filter_nil (having (mi_setup mi) Integrated)); try (intros x Hx; apply not_having; auto).
  rewrite sorted_index_spec; [|apply all_facts|exact Nd].
  assert (forallb (fun n => mem n (pn_all pn)) params = true) as ->; [|reflexivity]. apply forallb_forall. intros n Hn. now apply mem_spec, H.
Qed.
(** what a rejection says, for requested names that all exist *)
Lemma finish_cases params : NoDup params -> (forall n, In n params -> In n (pn_all pn) \/ In n (map fst (mi_setup mi))) ->
  match finish pn (mi_setup mi) params with
  | Accept l => (forall n, In n params -> In n (pn_all pn)) /\ l = filter (fun n => mem n params) (pn_all pn)
  | Reject (Linked l) => l <> [] /\ forall n t, In (n, t) l <-> In n params /\ In (n, (t, Forwarded)) (mi_setup mi)
  | Reject (AreFixed l) => l <> [] /\ forall n, In n l <-> In n params /\ exists t, In (n, (t, Fixed)) (mi_setup mi)
  | Reject (AreIntegrated l) => l <> [] /\ forall n, In n l <-> In n params /\ exists t, In (n, (t, Integrated)) (mi_setup mi)
  | Reject _ => False
  end.
Proof.
  intros Nd H. unfold finish.
  assert (Hf : forall c, c = Forwarded \/ c = Fixed \/ c = Integrated -> forall n, In n (filter (having (mi_setup mi) c) params) <-> In n params /\ exists t, In (n, (t, c)) (mi_setup mi)).
  { intros c Hc n. now rewrite filter_In, having_spec. }
  destruct all_facts as (Na & Fa & Ff & _).
  destruct (filter (having (mi_setup mi) Forwarded) params) as [|n0 l0] eqn:E0.
  2:{ rewrite <- E0. split; [rewrite E0; discriminate|]. intros n t. rewrite in_map_iff. split.
      - intros (m & E & Hm). apply Hf in Hm as (Hm & t' & Ht); [|tauto]. injection E as -> Et. split; [exact Hm|].
        assert (get (mi_setup mi) n <> None) as Q. { intros Q. assert (In n (map fst (mi_setup mi))) as K by (apply in_map_iff; exists (n, (t', Forwarded)); now split).
          clear -Q K. induction (mi_setup mi) as [|[a b] l IH]; [easy|]. cbn in Q, K. destruct (str_eqb_spec n a) as [->|X]; [discriminate|]. destruct K as [K|K]; [congruence|auto]. }
        unfold target in *; destruct (get (mi_setup mi) n) as [[t2 c2]|] eqn:G; [|congruence]. subst t. apply get_in in G. destruct (Ff _ _ _ _ _ G Ht) as (-> & ->). exact Ht.
      - intros (Hm & Ht). exists n. split; [|apply Hf; [tauto|]; eauto].
        assert (get (mi_setup mi) n <> None) as Q. { intros Q. assert (In n (map fst (mi_setup mi))) as K by (apply in_map_iff; exists (n, (t, Forwarded)); now split).
          clear -Q K. induction (mi_setup mi) as [|[a b] l IH]; [easy|]. cbn in Q, K. destruct (str_eqb_spec n a) as [->|X]; [discriminate|]. destruct K as [K|K]; [congruence|auto]. }
        unfold target in *; destruct (get (mi_setup mi) n) as [[t2 c2]|] eqn:G; [|congruence]. apply get_in in G. destruct (Ff _ _ _ _ _ G Ht) as (-> & ->). reflexivity. }
  destruct (filter (having (mi_setup mi) Fixed) params) as [|n1 l1] eqn:E1.
  2:{ rewrite <- E1. split; [rewrite E1; discriminate|]. intros n. apply Hf. tauto. }
  destruct (filter (having (mi_setup mi) Integrated) params) as [|n2 l2] eqn:E2.
  2:{ rewrite <- E2. split; [rewrite E2; discriminate|]. intros n. apply Hf. tauto. }
  assert (Ha : forall n, In n params -> In n (pn_all pn)).
  { intros n Hn. destruct (H n Hn) as [Q|Q]; [exact Q|]. apply in_map_iff in Q as ([n' [t c]] & En & Q). cbn in En. subst n'. apply (Fa _ _ _ Q).
    destruct c; [exfalso|exfalso|exfalso|tauto|tauto].
    - assert (In n (filter (having (mi_setup mi) Forwarded) params)) as K by (apply Hf; [tauto|]; eauto). now rewrite E0 in K.
    - assert (In n (filter (having (mi_setup mi) Integrated) params)) as K by (apply Hf; [tauto|]; eauto). now rewrite E2 in K.
    - assert (In n (filter (having (mi_setup mi) Fixed) params)) as K by (apply Hf; [tauto|]; eauto). now rewrite E1 in K. }
  rewrite sorted_index_spec by assumption.
  assert (forallb (fun n => mem n (pn_all pn)) params = true) as ->; [|split; [exact Ha|reflexivity]]. apply forallb_forall. intros n Hn. now apply mem_spec, Ha.
Qed.
Lemma set_of_spec l : NoDup (set_of l) /\ forall n, In n (set_of l) <-> In n l.
Proof. unfold set_of. split; [apply NoDup_nodup|intros n; apply nodup_In]. Qed.
Lemma check_eq r : check_params pn (mi_setup mi) r =
  match r with
  | RNone => finish pn (mi_setup mi) (set_of (pn_interest pn))
  | RStr n => if (mem n (pn_all pn) || mem n (map fst (mi_setup mi)))%bool then finish pn (mi_setup mi) [n] else Reject (NotExist [n])
  | RIter l => if forallb (fun n => mem n (pn_all pn) || mem n (map fst (mi_setup mi)))%bool (set_of l) then finish pn (mi_setup mi) (set_of l)
               else Reject (NotExist (filter (fun n => negb (mem n (pn_all pn))) (set_of l)))
  | ROther => Reject NotParams
  end.
Proof. reflexivity. Qed.
Lemma exists_spec n : (mem n (pn_all pn) || mem n (map fst (mi_setup mi)))%bool = true <-> In n (pn_all pn) \/ In n (map fst (mi_setup mi)).
Proof. now rewrite orb_true_iff, !mem_spec. Qed.
End C50.

(** the names a request asks for *)
Definition requested (pn : pnames) (r : request) (n : str) : Prop :=
  match r with RNone => In n (pn_interest pn) | RStr m => n = m | RIter l => In n l | ROther => False end.

(** a request is accepted iff it is a name or a list of names and every name is one of the parameters that vary; the
    result is the canonical list of names cut down to the requested ones *)
Theorem C50_accepts : forall kind bname cname ops h comps, session ops h comps -> labelled bname cname comps ->
  forall mi pn, get_model_info kind h bname cname comps = Ok mi -> helper_names kind cname comps mi = Ok pn ->
  forall r l, check_params pn (mi_setup mi) r = Accept l <->
    r <> ROther /\ (forall n, requested pn r n -> In n (pn_all pn)) /\
    NoDup l /\ (forall n, In n l <-> requested pn r n) /\ exists f, l = filter f (pn_all pn).
Proof.
  intros kind bname cname ops h comps S L mi pn Emi Epn r l. rewrite (check_eq mi pn r).
  destruct (all_facts kind bname cname ops h comps S L mi pn Emi Epn) as (Na & Fa & Ff & Ni & (rest & Ei)).
  assert (U : forall f g : str -> bool, (forall n, In n (filter f (pn_all pn)) <-> In n (filter g (pn_all pn))) -> filter f (pn_all pn) = filter g (pn_all pn)).
  { intros f g H. apply filter_ext_in. intros n Hn. specialize (H n). rewrite !filter_In in H. destruct (f n), (g n); try reflexivity; exfalso; [destruct (proj1 H (conj Hn eq_refl))|destruct (proj2 H (conj Hn eq_refl))]; discriminate. }
  assert (F : forall (P : str -> Prop) params, NoDup params -> (forall n, In n params <-> P n) -> (forall n, P n -> In n (pn_all pn) \/ In n (map fst (mi_setup mi))) ->
    (finish pn (mi_setup mi) params = Accept l <-> (forall n, P n -> In n (pn_all pn)) /\ NoDup l /\ (forall n, In n l <-> P n) /\ exists f, l = filter f (pn_all pn))).
  { intros P params Nd HP He. split.
    - intros E. pose proof (finish_cases kind bname cname ops h comps S L mi pn Emi Epn params Nd) as C. rewrite E in C.
      destruct C as (C1 & ->); [intros n Hn; apply He; now apply HP|]. split; [intros n Hn; apply C1; now apply HP|]. split; [now apply NoDup_filter|]. split; [|eauto].
      intros n. rewrite filter_In, mem_spec, HP. split; [tauto|]. intros Hn. split; [apply C1; now apply HP|exact Hn].
    - intros (Ha & Nl & Hl & f & ->). etransitivity; [apply (finish_all kind bname cname ops h comps S L mi pn Emi Epn params Nd)|].
      + intros n Hn. apply Ha. now apply HP.
      + f_equal. apply U. intros n. rewrite (Hl n), filter_In, mem_spec, HP. split; [tauto|]. intros Hn. split; [now apply Ha|exact Hn]. }
  destruct r as [|n|lr|]; cbn [requested].
  - destruct (set_of_spec (pn_interest pn)) as (Sn & Si).
    etransitivity; [apply (F (fun n => In n (pn_interest pn)) _ Sn Si)|].
    + intros n Hn. left. rewrite Ei. apply in_app_iff. now left.
    + split; [intros H; split; [discriminate|exact H]|tauto].
  - destruct (mem n (pn_all pn) || mem n (map fst (mi_setup mi)))%bool eqn:E.
    + apply exists_spec in E. etransitivity; [apply (F (fun m => m = n) [n])|].
      * constructor; [easy|constructor].
      * intros m. cbn. intuition congruence.
      * intros m ->. exact E.
      * split; [intros H; split; [discriminate|exact H]|tauto].
    + split; [discriminate|]. intros (_ & H & _). specialize (H n eq_refl). assert (mem n (pn_all pn) = true) as Q by now apply mem_spec. rewrite Q in E. discriminate.
  - destruct (set_of_spec lr) as (Sn & Si). destruct (forallb _ (set_of lr)) eqn:E.
    + rewrite forallb_forall in E. etransitivity; [apply (F (fun m => In m lr) _ Sn Si)|].
      * intros m Hm. apply exists_spec, E. now apply Si.
      * split; [intros H; split; [discriminate|exact H]|tauto].
    + split; [discriminate|]. intros (_ & H & _). exfalso. rewrite <- not_true_iff_false in E. apply E, forallb_forall. intros m Hm. apply exists_spec. left. apply H. now apply Si.
  - split; [discriminate|]. now intros (H & _).
Qed.
Print Assumptions C50_accepts.

(** what a rejection reports: exactly the linked names with their targets, or exactly the fixed names, or exactly the
    integrated ones; an unknown single name.  A list with an unknown name is rejected as such, and all its unknown
    names are reported. *)
Theorem C50_rejects_partial : forall kind bname cname ops h comps, session ops h comps -> labelled bname cname comps ->
  forall mi pn, get_model_info kind h bname cname comps = Ok mi -> helper_names kind cname comps mi = Ok pn ->
  forall r e, check_params pn (mi_setup mi) r = Reject e ->
  let known n := In n (pn_all pn) \/ In n (map fst (mi_setup mi)) in
  match e with
  | NotParams => r = ROther
  | NotExist l => (exists n, requested pn r n /\ ~ known n) /\ (forall n, In n l -> requested pn r n) /\ (forall n, requested pn r n -> ~ known n -> In n l) /\ (forall n, r = RStr n -> l = [n])
  | Linked l => l <> [] /\ forall n t, In (n, t) l <-> requested pn r n /\ In (n, (t, Forwarded)) (mi_setup mi)
  | AreFixed l => l <> [] /\ forall n, In n l <-> requested pn r n /\ exists t, In (n, (t, Fixed)) (mi_setup mi)
  | AreIntegrated l => l <> [] /\ forall n, In n l <-> requested pn r n /\ exists t, In (n, (t, Integrated)) (mi_setup mi)
  | NoIndex => False
  end.
Proof.
  intros kind bname cname ops h comps S L mi pn Emi Epn r e. rewrite (check_eq mi pn r). intros H known.
  destruct (all_facts kind bname cname ops h comps S L mi pn Emi Epn) as (Na & Fa & Ff & Ni & (rest & Ei)).
  assert (C : forall params, NoDup params -> (forall n, In n params <-> requested pn r n) -> (forall n, requested pn r n -> known n) -> _) by
    (intros params Nd HP HK; exact (finish_cases kind bname cname ops h comps S L mi pn Emi Epn params Nd (fun n Hn => HK n (proj1 (HP n) Hn)))).
  assert (K : forall params, NoDup params -> (forall n, In n params <-> requested pn r n) -> (forall n, requested pn r n -> known n) -> finish pn (mi_setup mi) params = Reject e ->
    match e with
  | NotParams => r = ROther
  | NotExist l => (exists n, requested pn r n /\ ~ known n) /\ (forall n, In n l -> requested pn r n) /\ (forall n, requested pn r n -> ~ known n -> In n l) /\ (forall n, r = RStr n -> l = [n])
  | Linked l => l <> [] /\ forall n t, In (n, t) l <-> requested pn r n /\ In (n, (t, Forwarded)) (mi_setup mi)
  | AreFixed l => l <> [] /\ forall n, In n l <-> requested pn r n /\ exists t, In (n, (t, Fixed)) (mi_setup mi)
  | AreIntegrated l => l <> [] /\ forall n, In n l <-> requested pn r n /\ exists t, In (n, (t, Integrated)) (mi_setup mi)
  | NoIndex => False
  end).
  { intros params Nd HP HK E. specialize (C params Nd HP HK). rewrite E in C. destruct e as [l| |l|l|l|]; try contradiction; destruct C as (C1 & C2); (split; [exact C1|]).
    - intros n t. now rewrite C2, HP.
    - intros n. now rewrite C2, HP.
    - intros n. now rewrite C2, HP. }
  destruct r as [|n|lr|]; cbn [requested] in *.
  - destruct (set_of_spec (pn_interest pn)) as (Sn & Si). apply (K _ Sn Si); [|exact H]. intros n Hn. left. rewrite Ei. apply in_app_iff. now left.
  - destruct (mem n (pn_all pn) || mem n (map fst (mi_setup mi)))%bool eqn:E.
    + apply exists_spec in E. apply (K [n]); [constructor; [easy|constructor]|intros m; cbn; intuition congruence|intros m ->; exact E|exact H].
    + injection H as <-. assert (~ known n) by (unfold known; rewrite <- exists_spec; congruence).
      split; [now exists n|]. split; [intros m [<-|[]]; reflexivity|]. split; [intros m -> _; now left|]. intros m Em. congruence.
  - destruct (set_of_spec lr) as (Sn & Si). destruct (forallb _ (set_of lr)) eqn:E.
    + rewrite forallb_forall in E. apply (K _ Sn Si); [|exact H]. intros m Hm. apply exists_spec, E. now apply Si.
    + injection H as <-. split; [|split; [|split]].
      * assert (Q : exists m, In m (set_of lr) /\ (mem m (pn_all pn) || mem m (map fst (mi_setup mi)))%bool = false).
        { clear -E. induction (set_of lr) as [|x l IH]; [discriminate|]. cbn [forallb] in E. apply andb_false_iff in E as [E|E]; [exists x; split; [now left|exact E]|].
          destruct (IH E) as (m & A & B). exists m. split; [now right|exact B]. }
        destruct Q as (m & A & B). exists m. split; [now apply Si|]. unfold known. rewrite <- exists_spec. congruence.
      * intros m Hm. apply filter_In in Hm as (Hm & _). now apply Si.
      * intros m Hm Hk. apply filter_In. split; [now apply Si|]. apply negb_true_iff, not_true_iff_false. rewrite mem_spec. intros Q. apply Hk. now left.
      * discriminate.
  - now injection H as <-.
Qed.
Print Assumptions C50_rejects_partial.

(** ** the hypotheses are met by the model of Prop_Compile *)
Example ex_labelled : labelled ex_names ex_cname ex_comps.
Proof.
  constructor; [exact ex_good_names|apply ex_unshared|]. intros c H. cbn in H. destruct H as [<-|[<-|[]]]; discriminate.
Qed.
Definition ex_mi : minfo := the_info ex_kind ex_heap ex_names ex_cname ex_comps.
Definition ex_pn : pnames := the_names ex_kind ex_heap ex_names ex_cname ex_comps.
Lemma ex_mi_eq : get_model_info ex_kind ex_heap ex_names ex_cname ex_comps = Ok ex_mi.
Proof. exact (mi_eq ex_kind ex_names ex_cname ex_ops ex_heap ex_comps ex_session). Qed.
Lemma ex_pn_eq : helper_names ex_kind ex_cname ex_comps ex_mi = Ok ex_pn.
Proof. reflexivity. Qed.
Example C44_ex : pn_all ex_pn = [s2l "PowerLaw.T"; s2l "PowerLaw.K"; s2l "BlackBody.T"] /\ pn_free ex_pn = [s2l "PowerLaw.T"; s2l "PowerLaw.K"] /\ pn_determ ex_pn = [s2l "BlackBody.T"].
Proof. repeat split; reflexivity. Qed.
Example C50_ex : check_params ex_pn (mi_setup ex_mi) (RIter [s2l "BlackBody.T"; s2l "PowerLaw.T"; s2l "BlackBody.T"]) = Accept [s2l "PowerLaw.T"; s2l "BlackBody.T"] /\
  check_params ex_pn (mi_setup ex_mi) (RStr (s2l "BlackBody.K")) = Reject (Linked [(s2l "BlackBody.K", s2l "PowerLaw.K")]).
Proof. split; reflexivity. Qed.

(** Refuted: "every rejected name is reported with the right reason".  A list with one misspelt name also reports the
    linked (and fixed, and integrated) names of the list as "not exist" ... *)
Theorem C50_reason_refuted : exists kind bname cname ops h comps mi pn, session ops h comps /\ labelled bname cname comps /\
  get_model_info kind h bname cname comps = Ok mi /\ helper_names kind cname comps mi = Ok pn /\
  exists l n l', check_params pn (mi_setup mi) (RIter l) = Reject (NotExist l') /\ In n l' /\ (exists t, In (n, (t, Forwarded)) (mi_setup mi)) /\
  check_params pn (mi_setup mi) (RStr n) = Reject (Linked [(n, s2l "PowerLaw.K")]).
Proof.
  exists ex_kind, ex_names, ex_cname, ex_ops, ex_heap, ex_comps, ex_mi, ex_pn. split; [exact ex_session|]. split; [exact ex_labelled|]. split; [exact ex_mi_eq|]. split; [exact ex_pn_eq|].
  exists [s2l "Powerlaw.K"; s2l "BlackBody.K"], (s2l "BlackBody.K"). eexists. split; [reflexivity|]. split; [cbn; tauto|]. split; [|reflexivity].
  exists (s2l "PowerLaw.K"). cbn. tauto.
Qed.
Print Assumptions C50_reason_refuted.
(** ... and a fixed parameter that is only used inside composite parameters is said not to exist, although the
    printed table of the model lists it under that name *)
Theorem C50_fixed_aux_refuted : exists kind bname cname ops h comps mi pn i, session ops h comps /\ labelled bname cname comps /\
  get_model_info kind h bname cname comps = Ok mi /\ helper_names kind cname comps mi = Ok pn /\
  uses h comps i /\ kind i = KFixed /\ In (false, [], name_of mi i) (info_table kind cname comps mi) /\
  check_params pn (mi_setup mi) (RStr (name_of mi i)) = Reject (NotExist [name_of mi i]).
Proof.
  exists ex_kind, ex_names, ex_cname, ex_ops, ex_heap, ex_comps, ex_mi, ex_pn, 4%nat. split; [exact ex_session|]. split; [exact ex_labelled|]. split; [exact ex_mi_eq|]. split; [exact ex_pn_eq|].
  split; [exists (2, T), ex_linked; split; [cbn; tauto|]; split; [reflexivity|]; apply part_leaf; cbn; tauto|]. split; [reflexivity|]. split; [cbn; tauto|]. reflexivity.
Qed.
Print Assumptions C50_fixed_aux_refuted.
