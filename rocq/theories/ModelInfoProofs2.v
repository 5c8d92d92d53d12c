(** [get_model_info] on heaps that satisfy the tracker invariant. *)
From Verif Require Import Base Expr Composite CompositeProofs Namespace NamespaceProofs ModelInfo ModelInfoProofs.
From Coq Require Import Ascii List.
Import ListNotations.
Open Scope list_scope.

Lemma existsb_eqb i l : existsb (Nat.eqb i) l = true <-> In i l.
Proof.
  rewrite existsb_exists. split; [intros (x & H & E); apply Nat.eqb_eq in E; now subst|].
  intros H. exists i. split; [exact H|apply Nat.eqb_refl].
Qed.
Lemma mapR_ok {A B} (f : A -> res B) (g : A -> B) l : (forall x, In x l -> f x = Ok (g x)) -> mapR f l = Ok (map g l).
Proof.
  induction l as [|x l IH]; intros H; [reflexivity|]. cbn [mapR map]. rewrite H by now left. cbn [bind].
  rewrite IH by (intros; apply H; now right). reflexivity.
Qed.
Lemma part_leaf p i : part (PBase i) p <-> In i (leaves p).
Proof.
  induction p as [j|j o l r IHl IHr|j f args IH] using param_ind'; cbn [leaves].
  - split; [intros H; inversion H; now left|intros [->|[]]; constructor].
  - rewrite in_app_iff, <- IHl, <- IHr. split; [intros H; inversion H; subst; tauto|].
    intros [H|H]; [now apply part_l|now apply part_r].
  - rewrite in_flat_map. rewrite Forall_forall in IH. split.
    + intros H. inversion H; subst. exists a. rewrite <- IH; auto.
    + intros (a & Ha & Hi). apply part_a with a; [exact Ha|]. now apply IH.
Qed.
Lemma get_comp_param_some l cids s : get_comp_param l cids = Some s -> In s l /\ In (fst s) cids.
Proof. unfold get_comp_param. intros H. apply find_some in H as (A & B). rewrite existsb_eqb in B. tauto. Qed.
Lemma get_comp_param_ex l cids s : In s l -> In (fst s) cids -> exists s', get_comp_param l cids = Some s'.
Proof.
  intros A B. unfold get_comp_param. destruct (find _ l) eqn:E; [eauto|]. pose proof (find_none _ _ E s A) as X.
  cbn in X. apply existsb_eqb in B. congruence.
Qed.
Lemma slots_of_in comps s : In s (slots_of comps) -> In (fst s) (map c_id comps).
Proof.
  unfold slots_of. rewrite in_flat_map. intros (c & Hc & H). apply in_map_iff in H as (n & <- & _). cbn [fst]; now apply in_map.
Qed.
Lemma dedup_nil l : NoDup (dedup_in [] l) /\ forall x, In x (dedup_in [] l) <-> In x l.
Proof. destruct (dedup_in_spec l [] (NoDup_nil _)) as (A & B). split; [exact A|]. intros x. rewrite B. cbn. tauto. Qed.
Lemma same_set_spec a b : (forall x, In x a <-> In x b) -> same_set a b = true.
Proof.
  intros H. unfold same_set. rewrite andb_true_iff, !forallb_forall. split; intros x Hx; apply existsb_eqb; now apply H.
Qed.
Lemma somes_in {A} (l : list (option A)) x : In x (somes l) <-> In (Some x) l.
Proof.
  unfold somes. rewrite in_flat_map. split; [intros ([y|] & H & X); [destruct X as [->|[]]; exact H|easy]|]. intros H. exists (Some x). split; [exact H|now left].
Qed.
Lemma dget_names_comp (f : nat -> option slot) (g : slot -> str) (info : list (nat * param)) i s : In i (map fst info) -> f i = Some s ->
  dget (flat_map (fun e => match f (fst e) with Some s => [(fst e, g s)] | None => [] end) info) i = Some (g s).
Proof.
  induction info as [|[j q] info IH]; [easy|]. cbn [map fst In flat_map]. intros H E. rewrite dget_app.
  destruct (Nat.eqb_spec i j) as [->|N].
  - rewrite E. cbn [dget]. now rewrite Nat.eqb_refl.
  - destruct H as [H|H]; [congruence|]. rewrite (IH H E). destruct (f j); [|reflexivity]. cbn [dget].
    destruct (Nat.eqb_spec i j); [congruence|reflexivity].
Qed.
Lemma map_fst_combine {A B} (a : list A) : forall (b : list B), length a = length b -> map fst (combine a b) = a.
Proof. induction a as [|x a IH]; intros [|y b] H; cbn in *; try lia; [reflexivity|]. f_equal. apply IH. lia. Qed.
Lemma map_snd_combine {A B} (a : list A) : forall (b : list B), length a = length b -> map snd (combine a b) = b.
Proof. induction a as [|x a IH]; intros [|y b] H; cbn in *; try lia; [reflexivity|]. f_equal. apply IH. lia. Qed.

(** a well-formed model over a heap *)
Record model_ok (h : heap) (comps : list comp) : Prop := {
  mo_ne : slots_of comps <> [];
  mo_set : forall s, In s (slots_of comps) -> exists p, h_slot h s = Some p;
  mo_all : forall s p, h_slot h s = Some p -> In (fst s) (map c_id comps) -> In s (slots_of comps) }.

(** parameters of the model: those held by a component of it *)
Definition held (h : heap) (comps : list comp) (p : param) : Prop := exists s, In s (slots_of comps) /\ h_slot h s = Some p.

Section MI.
Variables (kind : nat -> pkind) (h : heap) (bname cname : nat -> str) (comps : list comp).
Variables (ps : list param) (dead : list nat).
Hypothesis Hco : coherent ps.
Hypothesis Hh : hinv ps dead h.
Hypothesis Hm : model_ok h comps.
Hypothesis Hdead : forall c, In c comps -> ~ In (c_id c) dead.

Let cids := map c_id comps.
Let cp i := get_comp_param (h_trk h i) cids.
Definition slot_param (s : slot) : param := match h_slot h s with Some p => p | None => PBase 0 end.
Let pars := map slot_param (slots_of comps).
Let info := fold_left (fun d p => dunion d (pinfo p)) pars [].
Let aux := filter (fun e => match cp (fst e) with Some _ => false | None => negb (is_comp (snd e)) end) info.
Let names_aux := combine (map fst aux) (build_namespace (map (fun e => bname (fst e)) aux) false true).
Let names_comp := flat_map (fun e => match cp (fst e) with Some s => [(fst e, dotted (cname (fst s)) (snd s))] | None => [] end) info.
Let names := names_aux ++ names_comp.

Lemma slot_param_ok s : In s (slots_of comps) -> h_slot h s = Some (slot_param s).
Proof. intros H. destruct (mo_set _ _ Hm s H) as (p & E). unfold slot_param. now rewrite E. Qed.
Lemma params_info_eq : params_info h comps = Ok info.
Proof.
  unfold params_info. rewrite (mapR_ok _ slot_param); [reflexivity|]. intros s H. now rewrite (slot_param_ok s H).
Qed.
Lemma pars_in p : In p pars <-> held h comps p.
Proof.
  unfold pars, held. rewrite in_map_iff. split.
  - intros (s & <- & H). exists s. split; [exact H|now apply slot_param_ok].
  - intros (s & H & E). exists s. split; [|exact H]. unfold slot_param. now rewrite E.
Qed.
Lemma pars_ps p : In p pars -> In p ps.
Proof. rewrite pars_in. intros (s & _ & E). exact (hi_ps _ _ _ Hh _ _ E). Qed.
Lemma info_in i q : In (i, q) info -> pid q = i /\ exists p, In p pars /\ part q p.
Proof. apply (params_info_ok pars). Qed.
Lemma info_nodup : NoDup (map fst info).
Proof. apply (params_info_ok pars). Qed.
Lemma info_complete q p : In p pars -> part q p -> In (pid q, q) info.
Proof.
  intros Hp Hq. destruct (params_info_ok pars) as (_ & A & B). pose proof (B q p Hp Hq) as H. apply in_map_iff in H as ([i q'] & E & H).
  cbn in E. subst i. destruct (A _ _ H) as (E & p' & Hp' & Hq').
  assert (q' = q) by (apply (Hco p' p); auto using pars_ps). now subst.
Qed.
Lemma info_get q p : In p pars -> part q p -> dget info (pid q) = Some q.
Proof. intros Hp Hq. apply dget_nodup; [apply info_nodup|]. eapply info_complete; eauto. Qed.
Lemma info_spec i q : In (i, q) info <-> pid q = i /\ exists p, held h comps p /\ part q p.
Proof.
  split.
  - intros H. apply info_in in H as (E & p & Hp & Hq). split; [exact E|]. exists p. now rewrite <- pars_in.
  - intros (<- & p & Hp & Hq). apply pars_in in Hp. eapply info_complete; eauto.
Qed.

(** the record found by the tracker points at a slot of the model holding the parameter *)
Lemma cp_some i s : cp i = Some s -> In s (slots_of comps) /\ pid (slot_param s) = i.
Proof.
  intros H. apply get_comp_param_some in H as (H1 & H2).
  assert (Hd : ~ In (fst s) dead). { unfold cids in H2. apply in_map_iff in H2 as (c & <- & Hc). now apply Hdead. }
  destruct (hi_bwd _ _ _ Hh _ _ H1 Hd) as (p & E & E2). unfold slot_param. rewrite E. split; [|exact E2].
  exact (mo_all _ _ Hm _ _ E H2).
Qed.
Lemma cp_held s : In s (slots_of comps) -> exists s', cp (pid (slot_param s)) = Some s'.
Proof.
  intros H. apply get_comp_param_ex with s; [|now apply slots_of_in]. apply (hi_fwd _ _ _ Hh). now apply slot_param_ok.
Qed.
Lemma cp_slot s s' : In s (slots_of comps) -> cp (pid (slot_param s)) = Some s' ->
  In s' (slots_of comps) /\ slot_param s' = slot_param s.
Proof.
  intros H E. apply cp_some in E as (H' & E). split; [exact H'|].
  apply (Hco (slot_param s') (slot_param s)); auto using part_refl; apply pars_ps; unfold pars; now apply in_map.
Qed.

Lemma names_get i s : In i (map fst info) -> cp i = Some s -> dget names i = Some (dotted (cname (fst s)) (snd s)).
Proof.
  intros Hi Hs. unfold names. rewrite dget_app.
  assert (dget names_aux i = None) as ->.
  { apply dget_none. unfold names_aux. rewrite map_fst_combine; [|now rewrite build_length, !map_length].
    rewrite in_map_iff. intros ([j q] & E & H). cbn in E. subst j. apply filter_In in H as (_ & H). cbn [fst] in H. rewrite Hs in H. discriminate. }
  unfold names_comp. now apply (dget_names_comp cp (fun s => dotted (cname (fst s)) (snd s))).
Qed.

(** what the specification says about a row of the table *)
Definition setup_class (p : param) : psetup :=
  if pinterval kind p then Integrated else if pfixed kind p then Fixed else if is_comp p then Composed else Free.
Definition row_val (s : slot) : (str * (str * psetup)) * option nat * option nat :=
  let mp := dotted (cname (fst s)) (snd s) in
  let p := slot_param s in
  match cp (pid p) with
  | Some r => if slot_eqb s r then ((mp, (mp, setup_class p)),
                 match setup_class p with Free => Some (pid p) | _ => None end,
                 match setup_class p with Composed => Some (pid p) | _ => None end)
              else ((mp, (dotted (cname (fst r)) (snd r), Forwarded)), None, None)
  | None => ((mp, (mp, Free)), None, None)
  end.
Lemma row_eq s : In s (slots_of comps) -> row kind h cname cids names info s = Ok (row_val s).
Proof.
  intros H. unfold row. rewrite (slot_param_ok s H). cbn [opt_res bind].
  assert (Hp : In (slot_param s) pars) by (unfold pars; now apply in_map).
  rewrite (info_get (slot_param s) (slot_param s) Hp (part_refl _)). cbn [opt_res bind].
  destruct (cp_held s H) as (r & E). unfold row_val. change (get_comp_param _ cids) with (cp (pid (slot_param s))). rewrite E. cbn [opt_res bind].
  destruct (slot_eqb s r) eqn:Es; cbn [negb].
  - unfold setup_class. destruct (is_comp (slot_param s)) eqn:Ec, (pinterval kind (slot_param s)), (pfixed kind (slot_param s)); reflexivity.
  - rewrite (names_get _ r); [reflexivity| |exact E]. apply in_map_iff. exists (pid (slot_param s), slot_param s).
    split; [reflexivity|]. now apply info_complete with (slot_param s); [|constructor].
Qed.

Definition sample_order : list nat :=
  somes (map (fun r => snd (fst r)) (map row_val (slots_of comps))) ++ map fst (filter (fun e => negb (pfixed kind (snd e))) aux).
Lemma order_sample i :
  In i sample_order <-> kind i = KFree /\ exists p, held h comps p /\ part (PBase i) p.
Proof.
  assert (Free_iff : forall p, setup_class p = Free <-> exists j, p = PBase j /\ kind j = KFree).
  { intros [j|j o l r|j f args]; unfold setup_class; cbn [is_comp pid].
    - cbn [pinterval pfixed]. destruct (kind j) eqn:E; split; try discriminate; try (intros (k & X & Y); injection X as <-; congruence).
      intros _. now exists j.
    - destruct (pinterval kind _); [split; [discriminate|intros (k & X & _); discriminate]|].
      destruct (pfixed kind _); split; (discriminate || intros (k & X & _); discriminate).
    - destruct (pinterval kind _); [split; [discriminate|intros (k & X & _); discriminate]|].
      destruct (pfixed kind _); split; (discriminate || intros (k & X & _); discriminate). }
  unfold sample_order. rewrite in_app_iff, somes_in, map_map, !in_map_iff. split.
  - intros [(s & E & Hs)|([j q] & E & Hf)].
    + unfold row_val in E. destruct (cp _) as [r|]; [|discriminate]. destruct (slot_eqb s r); [|discriminate]. cbn [fst snd] in E.
      destruct (setup_class (slot_param s)) eqn:Ec; try discriminate. apply Free_iff in Ec as (k & Ep & Hk). injection E as <-. rewrite Ep.
      split; [exact Hk|]. exists (slot_param s). split; [exists s; split; [exact Hs|now apply slot_param_ok]|]. rewrite Ep. constructor.
    + cbn in E. subst j. apply filter_In in Hf as (Ha & Hf). apply filter_In in Ha as (Hi & Ha). cbn [fst snd] in *.
      destruct (cp i); [discriminate|]. apply info_spec in Hi as (E & p & Hp & Hq). destruct q as [j|?|?]; [|discriminate..]. cbn in E, Hf. subst j.
      split; [destruct (kind i); [reflexivity|discriminate..]|]. exists p. now split.
  - intros (Hk & p & Hp & Hq). destruct (cp i) as [r|] eqn:Er.
    + left. destruct (cp_some _ _ Er) as (Hr & Ei). exists r. split; [|exact Hr].
      assert (Ep : slot_param r = PBase i).
      { apply (Hco (slot_param r) p); auto using part_refl; [apply pars_ps; unfold pars; now apply in_map|]. apply pars_ps. now apply pars_in. }
      unfold row_val. rewrite Ei, Er. rewrite slot_eqb_refl. cbn [fst snd].
      assert (setup_class (slot_param r) = Free) as -> by (apply Free_iff; eauto). reflexivity.
    + right. exists (i, PBase i). split; [reflexivity|]. apply filter_In. split.
      * apply filter_In. split; [|cbn [fst snd]; now rewrite Er]. apply info_spec. split; [reflexivity|]. eauto.
      * cbn. now rewrite Hk.
Qed.

Definition the_info : minfo :=
  {| mi_info := info; mi_cp := map fst (filter (fun e => match cp (fst e) with Some _ => true | None => false end) info);
     mi_name := names; mi_sample := dedup_in [] sample_order;
     mi_fixed := map fst (filter (fun e => match dget names (fst e) with Some _ => true | None => false end && pfixed kind (snd e) && negb (pinterval kind (snd e)))%bool info);
     mi_integrate := map fst (filter (fun e => pinterval kind (snd e) && negb (is_comp (snd e)))%bool info);
     mi_determ := somes (map snd (map row_val (slots_of comps)));
     mi_setup := map (fun r => fst (fst r)) (map row_val (slots_of comps)) |}.
Lemma get_model_info_eq : get_model_info kind h bname cname comps = Ok the_info.
Proof.
  unfold get_model_info.
  assert (G : forall B (l : list slot) (x y : B), l <> [] -> match l with [] => x | _ => y end = y) by (intros B [|? ?] x y X; [congruence|reflexivity]).
  rewrite G by exact (mo_ne _ _ Hm).
  rewrite params_info_eq. cbn [bind].
  change (fun i : nat => get_comp_param (h_trk h i) (map c_id comps)) with cp.
  rewrite (mapR_ok _ row_val) by (intros s Hs; now apply row_eq). cbn [bind].
  match goal with |- context [same_set ?a ?b] => assert (same_set a b = true) as -> end; [|reflexivity].
  apply same_set_spec. intros i. etransitivity; [apply order_sample|]. rewrite in_map_iff. split.
  - intros (Hk & p & Hp & Hq). exists (i, PBase i). split; [reflexivity|]. apply filter_In. split; [apply info_spec; split; [reflexivity|eauto]|].
    cbn. now rewrite Hk.
  - intros ([j q] & E & H). cbn in E. subst j. apply filter_In in H as (H & Hf). apply info_spec in H as (E & p & Hp & Hq).
    destruct q as [j|?|?]; [|discriminate..]. cbn in E, Hf. subst j. split; [destruct (kind i); [reflexivity|discriminate..]|eauto].
Qed.

(** fixed base parameters of the model have an entry in [fixed] *)
Lemma fixed_base i p : held h comps p -> part (PBase i) p -> (In i (mi_fixed the_info) <-> kind i = KFixed).
Proof.
  intros Hp Hq. pose proof Hp as Hp'. apply pars_in in Hp'.
  assert (Hin : In (i, PBase i) info) by (apply info_spec; split; [reflexivity|eauto]).
  cbn [mi_fixed the_info]. rewrite in_map_iff. split.
  - intros ([j q] & E & H). cbn in E. subst j. apply filter_In in H as (H & Hf). pose proof (info_get (PBase i) p Hp' Hq) as G. cbn [pid] in G.
    apply (dget_nodup _ _ _ info_nodup) in H. assert (q = PBase i) by congruence. subst q. cbn [fst snd pfixed pinterval] in Hf.
    destruct (kind i); [|reflexivity|]; rewrite ?andb_false_r in Hf; discriminate.
  - intros Hk. exists (i, PBase i). split; [reflexivity|]. apply filter_In. split; [exact Hin|]. cbn [fst snd pfixed pinterval]. rewrite Hk.
    rewrite andb_true_r, andb_true_r. destruct (dget names i) eqn:E; [reflexivity|]. apply dget_none in E. contradiction E.
    unfold names. rewrite map_app, in_app_iff. destruct (cp i) as [s|] eqn:Es.
    + right. unfold names_comp. apply in_map_iff. exists (i, dotted (cname (fst s)) (snd s)). split; [reflexivity|]. apply in_flat_map.
      exists (i, PBase i). split; [exact Hin|]. cbn [fst]. rewrite Es. now left.
    + left. unfold names_aux. rewrite map_fst_combine by now rewrite build_length, !map_length. apply in_map_iff. exists (i, PBase i).
      split; [reflexivity|]. apply filter_In. split; [exact Hin|]. cbn [fst snd]. now rewrite Es.
Qed.
Lemma cp_keys s : In s (slots_of comps) -> existsb (Nat.eqb (pid (slot_param s))) (mi_cp the_info) = true.
Proof.
  intros H. apply existsb_eqb. cbn [mi_cp the_info]. apply in_map_iff. exists (pid (slot_param s), slot_param s). split; [reflexivity|].
  apply filter_In. destruct (cp_held s H) as (r & E). cbn [fst]. rewrite E. split; [|reflexivity].
  apply info_spec. split; [reflexivity|]. exists (slot_param s). split; [|constructor]. exists s. split; [exact H|now apply slot_param_ok].
Qed.
Lemma comp_value_eq {V} (A : alg V) dflt m s p : In s (slots_of comps) -> h_slot h s = Some p ->
  comp_value A dflt h the_info m s = Ok (pvalue A (overlay dflt the_info m) dflt p).
Proof.
  intros H E. unfold comp_value. rewrite E. cbn [opt_res bind]. pose proof (cp_keys s H) as K. unfold slot_param in K. rewrite E in K. rewrite K.
  cbn [mi_info the_info]. rewrite (info_get p p); [reflexivity| |constructor]. apply pars_in. now exists s.
Qed.

(** names *)
Lemma mi_names_nodup : (forall c c', In c comps -> In c' comps -> cname (c_id c) = cname (c_id c') -> c_id c = c_id c') ->
  (forall c n, In c comps -> In n (c_params c) -> ~ In dot n) ->
  (forall i, ~ ends_with_prime (bname i) /\ ~ In dot (bname i)) -> NoDup (map snd names).
Proof.
  intros Hc Hn Hb. unfold names. rewrite map_app.
  replace (map snd names_aux) with (build_namespace (map (fun e => bname (fst e)) aux) false true) by (unfold names_aux; rewrite map_snd_combine; [reflexivity|now rewrite build_length, !map_length]).
  set (asg := flat_map (fun e : nat * param => match cp (fst e) with Some s => [(cname (fst s), snd s)] | None => [] end) info).
  assert (map snd names_comp = map (fun p => fst p ++ dot :: snd p) asg) as ->.
  { unfold names_comp, asg. generalize info. intros l. induction l as [|e l IH]; [reflexivity|]. cbn [flat_map]. rewrite !map_app, IH. f_equal.
    destruct (cp (fst e)); reflexivity. }
  change (NoDup (param_names (map (fun e => bname (fst e)) aux) asg)). 
  apply param_names_nodup.
  - apply Forall_forall. intros x Hx. apply in_map_iff in Hx as (e & <- & _). apply Hb.
  - assert (Hs : forall i s, cp i = Some s -> In s (slots_of comps)) by (intros i s X; apply cp_some in X; tauto).
    assert (Inj : forall i j s, cp i = Some s -> cp j = Some s -> i = j).
    { intros i j s A B. apply cp_some in A, B. destruct A, B. congruence. }
    assert (Inj2 : forall s s', In s (slots_of comps) -> In s' (slots_of comps) -> (cname (fst s), snd s) = (cname (fst s'), snd s') -> s = s').
    { intros [c n] [c' n'] A B E. cbn in E. injection E as E1 E2. apply slots_of_in in A, B. cbn in A, B.
      apply in_map_iff in A as (x & <- & A), B as (y & <- & B). rewrite (Hc x y A B E1). congruence. }
    unfold asg. pose proof info_nodup as Nd. revert Nd. generalize info. intros l. induction l as [|[i q] l IH]; intros Nd; [constructor|].
    cbn [map fst] in Nd. inversion Nd as [|? ? N1 N2]; subst. cbn [flat_map fst]. apply NoDup_app_disj; [|now apply IH|].
    + destruct (cp i); [constructor; [easy|constructor]|constructor].
    + intros x Hx Hy. destruct (cp i) as [s|] eqn:Es; [|easy]. destruct Hx as [<-|[]]. apply in_flat_map in Hy as ([j q'] & Hj & Hy). cbn [fst] in Hy.
      destruct (cp j) as [s'|] eqn:Es'; [|easy]. destruct Hy as [Hy|[]]. apply (Inj2 s' s) in Hy; [|eauto..]. subst s'.
      assert (i = j) by eauto. subst j. apply N1. apply in_map_iff. now exists (i, q').
  - apply Forall_forall. intros [c n] Hx. unfold asg in Hx. apply in_flat_map in Hx as (e & _ & Hx). destruct (cp (fst e)) as [s|] eqn:Es; [|easy].
    destruct Hx as [Hx|[]]. injection Hx as <- <-. apply cp_some in Es as (Hs & _). unfold slots_of in Hs. apply in_flat_map in Hs as (x & Hx & Hs).
    apply in_map_iff in Hs as (n & <- & Hn'). cbn. eapply Hn; eauto.
Qed.
(** base parameters of the model have a name *)
Lemma named_base i p : held h comps p -> part (PBase i) p -> In i (map fst names).
Proof.
  intros Hp Hq. assert (Hin : In (i, PBase i) info) by (apply info_spec; split; [reflexivity|eauto]).
  unfold names. rewrite map_app, in_app_iff. destruct (cp i) as [s|] eqn:Es.
  + right. unfold names_comp. apply in_map_iff. exists (i, dotted (cname (fst s)) (snd s)). split; [reflexivity|]. apply in_flat_map.
    exists (i, PBase i). split; [exact Hin|]. cbn [fst]. rewrite Es. now left.
  + left. unfold names_aux. rewrite map_fst_combine by now rewrite build_length, !map_length. apply in_map_iff. exists (i, PBase i).
    split; [reflexivity|]. apply filter_In. split; [exact Hin|]. cbn [fst snd]. now rewrite Es.
Qed.
End MI.
