(** [compile] and the three forms of argument (C34). *)
From Verif Require Import Base Expr Composite CompositeProofs Namespace NamespaceProofs ModelInfo ModelInfoProofs ModelInfoProofs2.
From Coq Require Import Ascii List.
Import ListNotations.
Open Scope list_scope.

Lemma put_fresh {V} (d : list (str * V)) k v : ~ In k (map fst d) -> put d k v = d ++ [(k, v)].
Proof.
  induction d as [|[k' v'] d IH]; cbn [put map fst In List.app]; [reflexivity|]. intros H. destruct (str_eqb_spec k k') as [->|N]; [tauto|].
  rewrite IH by tauto. reflexivity.
Qed.
Lemma put_same {V} (d : list (str * V)) k v : get d k = Some v -> put d k v = d.
Proof.
  induction d as [|[k' v'] d IH]; cbn [put get]; [discriminate|]. destruct (str_eqb_spec k k') as [->|N]; [congruence|]. intros H. now rewrite IH.
Qed.
Lemma get_in {V} (d : list (str * V)) k v : get d k = Some v -> In (k, v) d.
Proof.
  induction d as [|[k' v'] d IH]; cbn [get]; [discriminate|]. destruct (str_eqb_spec k k') as [->|N]; [intros E; injection E as ->; now left|].
  intros E. right. auto.
Qed.
Lemma get_none {V} (d : list (str * V)) k : ~ In k (map fst d) -> get d k = None.
Proof.
  induction d as [|[k' v'] d IH]; cbn [get map fst In]; [reflexivity|]. intros H. destruct (str_eqb_spec k k') as [->|N]; [tauto|]. apply IH. tauto.
Qed.
Lemma get_nodup {V} (d : list (str * V)) k v : NoDup (map fst d) -> In (k, v) d -> get d k = Some v.
Proof.
  induction d as [|[k' v'] d IH]; intros H Hin; [easy|]. cbn [map fst] in H. inversion H as [|? ? H1 H2]; subst. cbn [get].
  destruct (str_eqb_spec k k') as [->|N].
  - destruct Hin as [E|Hin]; [congruence|]. contradiction H1. apply in_map_iff. now exists (k', v).
  - destruct Hin as [E|Hin]; [congruence|]. auto.
Qed.

Section Names.
Variable nm : nat -> str.
Definition pairs (l : list nat) : list (str * nat) := map (fun i => (nm i, i)) l.
Definition inj_on (l : list nat) : Prop := forall i j, In i l -> In j l -> nm i = nm j -> i = j.
Lemma pairs_keys l : map fst (pairs l) = map nm l.
Proof. unfold pairs. rewrite map_map. reflexivity. Qed.
Lemma inj_nodup l : inj_on l -> NoDup l -> NoDup (map nm l).
Proof.
  intros I. induction 1 as [|x l Hx Hl IH]; [constructor|]. cbn [map]. constructor.
  - intros H. apply in_map_iff in H as (y & E & Hy). assert (x = y) by (apply I; [now left|now right|easy]). congruence.
  - apply IH. intros i j Hi Hj. apply I; now right.
Qed.
Lemma fold_put_names ids : forall acc, inj_on (acc ++ ids) -> NoDup acc ->
  fold_left (fun d i => put d (nm i) i) ids (pairs acc) = pairs (dedup_in acc ids).
Proof.
  induction ids as [|i ids IH]; intros acc I Nd; cbn [fold_left dedup_in]; [reflexivity|].
  destruct (existsb (Nat.eqb i) acc) eqn:E.
  - apply existsb_eqb in E. rewrite put_same.
    + change (fold_left _ ids acc) with (dedup_in acc ids). apply IH; [|exact Nd]. intros a b Ha Hb. apply I; rewrite in_app_iff in *; cbn [In]; tauto.
    + apply get_nodup; [rewrite pairs_keys; apply inj_nodup; [|exact Nd]; intros a b Ha Hb; apply I; apply in_app_iff; now left|].
      unfold pairs. apply in_map_iff. now exists i.
  - assert (N : ~ In i acc) by (rewrite <- existsb_eqb; congruence). rewrite put_fresh.
    + replace (pairs acc ++ [(nm i, i)]) with (pairs (acc ++ [i])) by (unfold pairs; now rewrite map_app).
      change (fold_left _ ids (acc ++ [i])) with (dedup_in (acc ++ [i]) ids). apply IH.
      * rewrite <- app_assoc. exact I.
      * apply NoDup_app_disj; [exact Nd|constructor; [easy|constructor]|]. intros x Hx [<-|[]]. contradiction.
    + rewrite pairs_keys, in_map_iff. intros (j & E2 & Hj). assert (j = i) by (apply I; [apply in_app_iff; now left|apply in_app_iff; right; now left|exact E2]). congruence.
Qed.
Lemma fold_put_pairs l : forall acc, inj_on (acc ++ l) -> NoDup (acc ++ l) ->
  fold_left (fun d p => put d (fst p) (snd p)) (pairs l) (pairs acc) = pairs (acc ++ l).
Proof.
  induction l as [|i l IH]; intros acc I Nd; cbn [fold_left pairs map]; [now rewrite app_nil_r|]. cbn [fst snd].
  change (map (fun i => (nm i, i)) l) with (pairs l). change (map (fun i => (nm i, i)) acc) with (pairs acc).
  rewrite put_fresh.
  - replace (pairs acc ++ [(nm i, i)]) with (pairs (acc ++ [i])) by (unfold pairs; now rewrite map_app).
    replace (acc ++ i :: l) with ((acc ++ [i]) ++ l) in I, Nd |- * by (rewrite <- app_assoc; reflexivity). apply IH; assumption.
  - rewrite pairs_keys, in_map_iff. intros (j & E & Hj). apply NoDup_remove_2 in Nd. apply Nd.
    assert (j = i) by (apply I; [apply in_app_iff; now left|apply in_app_iff; right; now left|exact E]). subst j. apply in_app_iff. now left.
Qed.
(** the id -> value dict made from a name -> value mapping *)
Lemma dget_mapping {V} (d : list (str * V)) l i : dget (flat_map (fun kv => match get d (fst kv) with Some v => [(snd kv, v)] | None => [] end) (pairs l)) i
  = if existsb (Nat.eqb i) l then get d (nm i) else None.
Proof.
  unfold pairs. induction l as [|j l IH]; [reflexivity|]. cbn [map flat_map fst snd existsb]. rewrite dget_app.
  destruct (Nat.eqb_spec i j) as [->|N]; cbn [orb].
  - destruct (get d (nm j)) as [v|] eqn:E; cbn [dget]; [now rewrite Nat.eqb_refl|]. rewrite IH. now destruct (existsb _ _).
  - destruct (get d (nm j)); cbn [dget]; [destruct (Nat.eqb_spec i j); [congruence|]|]; exact IH.
Qed.
Lemma get_combine {V} (vs : list V) : forall l i, inj_on l -> length vs = length l -> NoDup l -> In i l ->
  get (combine (map nm l) vs) (nm i) = dget (combine l vs) i.
Proof.
  induction vs as [|v vs IH]; intros [|j l] i I Hl Nd Hi; cbn in Hl; try lia; try easy. cbn [map combine get dget].
  inversion Nd; subst. destruct (Nat.eqb_spec i j) as [->|N].
  - destruct (str_eqb_spec (nm j) (nm j)); [reflexivity|congruence].
  - destruct Hi as [->|Hi]; [congruence|]. destruct (str_eqb_spec (nm i) (nm j)) as [E|_]; [apply I in E; [congruence|now right|now left]|].
    apply IH; auto. intros a b Ha Hb. apply I; now right.
Qed.
End Names.

Lemma dedup_length l : length (dedup_in [] l) <= length l.
Proof. destruct (dedup_nil l) as (A & B). apply NoDup_incl_length; [exact A|]. intros x. apply B. Qed.
Lemma dedup_dup l : ~ NoDup l -> length (dedup_in [] l) < length l.
Proof.
  intros H. destruct (Nat.lt_ge_cases (length (dedup_in [] l)) (length l)) as [|G]; [assumption|]. contradiction H.
  destruct (dedup_nil l) as (A & B). apply (NoDup_incl_NoDup A G). intros x. apply B.
Qed.
Lemma dedup_acc l : forall acc, NoDup (acc ++ l) -> dedup_in acc l = acc ++ l.
Proof.
  induction l as [|x l IH]; intros acc H; unfold dedup_in; cbn [fold_left]; [now rewrite app_nil_r|].
  assert (existsb (Nat.eqb x) acc = false) as ->.
  { destruct (existsb _ acc) eqn:E; [|reflexivity]. apply existsb_eqb in E. apply NoDup_remove_2 in H. contradiction H. apply in_app_iff. now left. }
  change (dedup_in (acc ++ [x]) l = acc ++ x :: l). rewrite IH; rewrite <- app_assoc; [reflexivity|exact H].
Qed.
Lemma dedup_id l : NoDup l -> dedup_in [] l = l.
Proof. intros H. now rewrite dedup_acc. Qed.

Section Compile.
Variables (kind : nat -> pkind) (h : heap) (comps : list comp) (mi : minfo).
(** facts proved for [get_model_info] in ModelInfoProofs2 *)
Hypothesis Hset : forall s, In s (slots_of comps) -> exists p, h_slot h s = Some p.
Hypothesis Hsample : forall i, In i (mi_sample mi) <-> kind i = KFree /\ exists p, held h comps p /\ part (PBase i) p.
Hypothesis Hnames : NoDup (map snd (mi_name mi)).
Hypothesis Hkeys : NoDup (map fst (mi_name mi)).
Hypothesis Hnamed : forall i p, held h comps p -> part (PBase i) p -> In i (map fst (mi_name mi)).

Let ns := flat_map (fun s => match h_slot h s with Some p => nodes p | None => [] end) (slots_of comps).
Definition ids := fst (compile_ids h mi comps).
Definition fids := snd (compile_ids h mi comps).
Lemma ns_in i : In i ns <-> exists p, held h comps p /\ part (PBase i) p.
Proof.
  unfold ns. rewrite in_flat_map. split.
  - intros (s & Hs & H). destruct (h_slot h s) as [p|] eqn:E; [|easy]. apply nodes_spec in H. exists p. split; [now exists s|now apply part_leaf].
  - intros (p & (s & Hs & E) & H). exists s. split; [exact Hs|]. rewrite E. apply nodes_spec. now apply part_leaf.
Qed.
Lemma ids_in i : In i ids <-> In i (mi_sample mi).
Proof.
  unfold ids, compile_ids. cbn [fst]. change (flat_map _ _) with ns. rewrite filter_In, existsb_eqb, ns_in, Hsample. tauto.
Qed.
Lemma fids_in i : In i fids -> In i ns /\ ~ In i (mi_sample mi).
Proof.
  unfold fids, compile_ids. cbn [snd]. change (flat_map _ _) with ns. rewrite filter_In, andb_true_iff, negb_true_iff. intros (A & B & _). split; [exact A|].
  rewrite <- existsb_eqb. congruence.
Qed.
Lemma name_inj i j : In i (map fst (mi_name mi)) -> In j (map fst (mi_name mi)) -> name_of mi i = name_of mi j -> i = j.
Proof.
  intros Hi Hj. unfold name_of. destruct (dget_some_key _ _ Hi) as (a & Ea), (dget_some_key _ _ Hj) as (b & Eb). rewrite Ea, Eb. intros <-.
  apply dget_in in Ea, Eb. revert Hnames Ea Eb. clear. generalize (mi_name mi). intros l. induction l as [|[k v] l IH]; [easy|].
  cbn [map snd]. intros Nd. inversion Nd as [|? ? N1 N2]; subst. intros [E|A] [F|B].
  - congruence.
  - injection E as <- <-. contradiction N1. apply in_map_iff. now exists (j, v).
  - injection F as <- <-. contradiction N1. apply in_map_iff. now exists (i, v).
  - auto.
Qed.
Lemma all_inj : inj_on (name_of mi) (ids ++ fids).
Proof.
  assert (G : forall i, In i (ids ++ fids) -> In i (map fst (mi_name mi))).
  { intros i Hi. assert (In i ns) as H. { apply in_app_iff in Hi as [Hi|Hi]; [|now apply fids_in]. apply ids_in, Hsample in Hi. now apply ns_in. }
    apply ns_in in H as (p & A & B). eauto. }
  intros i j Hi Hj. apply name_inj; auto.
Qed.
Lemma inj_sub l l' : inj_on (name_of mi) l' -> incl l l' -> inj_on (name_of mi) l.
Proof. intros I H i j Hi Hj. apply I; auto. Qed.
Lemma compile_eq : compile h mi comps =
  {| cm_params_id := ids; cm_pname_to_pid := pairs (name_of mi) (dedup_in [] ids);
     cm_all := pairs (name_of mi) (dedup_in [] ids ++ dedup_in [] fids); cm_info := mi |}.
Proof.
  pose proof all_inj as I. unfold compile. rewrite (surjective_pairing (compile_ids h mi comps)). fold ids fids. unfold name_dict.
  change (@nil (str * nat)) with (pairs (name_of mi) []).
  rewrite !fold_put_names; try constructor; cbn [List.app]; try (eapply inj_sub; [exact I|]; intros x Hx; apply in_app_iff; tauto).
  f_equal. destruct (dedup_nil ids) as (A1 & B1), (dedup_nil fids) as (A2 & B2). apply fold_put_pairs.
  - eapply inj_sub; [exact I|]. intros x. rewrite !in_app_iff, B1, B2. tauto.
  - apply NoDup_app_disj; auto. intros x. rewrite B1, B2, ids_in. intros H1 H2. now apply fids_in in H2.
Qed.
Lemma params_name_eq : params_name (compile h mi comps) = map (name_of mi) (dedup_in [] ids).
Proof. rewrite compile_eq. unfold params_name. cbn [cm_pname_to_pid]. apply pairs_keys. Qed.

Context {V : Type} (A : alg V) (dflt : nat -> V).
Lemma existsb_app_ids i : existsb (Nat.eqb i) (dedup_in [] ids ++ dedup_in [] fids) = (existsb (Nat.eqb i) ids || existsb (Nat.eqb i) fids)%bool.
Proof.
  rewrite existsb_app. destruct (dedup_nil ids) as (_ & B1), (dedup_nil fids) as (_ & B2). f_equal; apply eq_true_iff_eq; rewrite !existsb_eqb; auto.
Qed.
(** the mapping built from a full name -> value dict *)
Lemma prepare_map vs : length vs = length (dedup_in [] ids) ->
  exists m, prepare dflt (compile h mi comps) (AMap (combine (params_name (compile h mi comps)) vs)) = Ok m /\
  forall i, m i = dget (combine (dedup_in [] ids) vs) i.
Proof.
  intros Hl. rewrite params_name_eq, compile_eq. unfold prepare. cbn [cm_all cm_pname_to_pid].
  set (l := flat_map _ _).
  assert (G : forall i, dget l i = dget (combine (dedup_in [] ids) vs) i).
  { intros i. unfold l. rewrite dget_mapping, existsb_app_ids. destruct (dedup_nil ids) as (N1 & B1), (dedup_nil fids) as (N2 & B2). pose proof all_inj as I.
    destruct (existsb (Nat.eqb i) ids) eqn:E1; cbn [orb].
    - apply existsb_eqb in E1. apply get_combine; auto; [|now apply B1]. eapply inj_sub; [exact I|]. intros x Hx. apply in_app_iff. left. now apply B1.
    - assert (dget (combine (dedup_in [] ids) vs) i = None) as ->.
      { apply dget_none. rewrite map_fst_combine by lia. rewrite B1, <- existsb_eqb. congruence. }
      destruct (existsb (Nat.eqb i) fids) eqn:E2; [|reflexivity]. apply get_none. rewrite map_fst_combine by (rewrite map_length; lia).
      rewrite in_map_iff. intros (j & E & Hj). apply B1 in Hj. apply existsb_eqb in E2.
      assert (j = i) by (apply I; [apply in_app_iff; now left|apply in_app_iff; now right|exact E]). subst j.
      apply fids_in in E2 as (_ & E2). apply E2. now apply ids_in. }
  destruct (pairs (name_of mi) (dedup_in [] ids)) as [|x r] eqn:Ep.
  - exists (dget l). destruct l; auto.
  - exists (dget l). split; [|exact G]. destruct l as [|y l'] eqn:El; [|reflexivity]. exfalso.
    destruct (dedup_in [] ids) as [|i0 r0]; [discriminate|]. destruct vs as [|v vs]; [discriminate|]. pose proof (G i0) as X. cbn [dget combine] in X. rewrite Nat.eqb_refl in X. discriminate.
Qed.
Lemma prepare_seq vs : NoDup ids -> length vs = length (dedup_in [] ids) ->
  prepare dflt (compile h mi comps) (ASeq vs) = Ok (dget (combine (dedup_in [] ids) vs)).
Proof.
  intros Nd. rewrite (dedup_id _ Nd). intros Hl. rewrite compile_eq. unfold prepare. cbn [cm_pname_to_pid cm_params_id].
  rewrite (dedup_id _ Nd). unfold pairs. rewrite map_length, Hl, Nat.eqb_refl. reflexivity.
Qed.
Lemma prepare_seq_dup vs : ~ NoDup ids -> prepare dflt (compile h mi comps) (ASeq vs) = Err ValueError.
Proof.
  intros Nd. pose proof (dedup_dup _ Nd) as L. rewrite compile_eq. unfold prepare. cbn [cm_pname_to_pid cm_params_id]. unfold pairs. rewrite map_length.
  destruct (Nat.eqb_spec (length vs) (length (dedup_in [] ids))) as [E|]; [|reflexivity]. cbn [negb].
  destruct (Nat.eqb_spec (length ids) (length vs)); [lia|reflexivity].
Qed.

(** no free parameter is used by two component parameters *)
Definition unshared : Prop := forall s s' p p' i, In s (slots_of comps) -> In s' (slots_of comps) ->
  h_slot h s = Some p -> h_slot h s' = Some p' -> kind i = KFree -> part (PBase i) p -> part (PBase i) p' -> s = s'.
Lemma ids_flat : ids = flat_map (fun s => filter (fun i => existsb (Nat.eqb i) (mi_sample mi)) (match h_slot h s with Some p => nodes p | None => [] end)) (slots_of comps).
Proof.
  unfold ids, compile_ids. cbn [fst]. generalize (slots_of comps). intros l. induction l as [|s l IH]; [reflexivity|]. cbn [flat_map]. rewrite filter_app, IH. reflexivity.
Qed.
Lemma slot_ids i s p : In s (slots_of comps) -> h_slot h s = Some p ->
  (In i (filter (fun i => existsb (Nat.eqb i) (mi_sample mi)) (nodes p)) <-> kind i = KFree /\ part (PBase i) p).
Proof.
  intros Hs E. rewrite filter_In, existsb_eqb, Hsample, (proj2 (nodes_spec p)), part_leaf. split; [tauto|]. intros (Hk & Hl).
  split; [exact Hl|]. split; [exact Hk|]. exists p. split; [now exists s|now apply part_leaf].
Qed.
Lemma flat_nodup {X Y} (f : X -> list Y) l : NoDup l -> (forall x, In x l -> NoDup (f x)) ->
  (forall x y i, In x l -> In y l -> In i (f x) -> In i (f y) -> x = y) -> NoDup (flat_map f l).
Proof.
  induction 1 as [|x l Hx Hl IH]; intros H1 H2; [constructor|]. cbn [flat_map]. apply NoDup_app_disj.
  - apply H1. now left.
  - apply IH; [intros; apply H1; now right|intros a b i Ha Hb; apply H2; now right].
  - intros i Hi Hj. apply in_flat_map in Hj as (y & Hy & Hj). assert (x = y) by (apply (H2 x y i); auto; [now left|now right]). congruence.
Qed.
Lemma unshared_nodup : NoDup (slots_of comps) -> unshared -> NoDup ids.
Proof.
  intros Nd U. rewrite ids_flat. apply flat_nodup; [exact Nd| |].
  - intros s Hs. apply NoDup_filter. destruct (h_slot h s) as [p|]; [apply nodes_spec|constructor].
  - intros s s' i Hs Hs' Hi Hj. destruct (Hset s Hs) as (p & E), (Hset s' Hs') as (p' & E'). rewrite E in Hi. rewrite E' in Hj.
    apply (slot_ids i s p Hs E) in Hi as (Hk & Hi). apply (slot_ids i s' p' Hs' E') in Hj as (_ & Hj). eapply U; eauto.
Qed.
Lemma flat_dup {X Y} (f : X -> list Y) l x y i : In x l -> In y l -> x <> y -> In i (f x) -> In i (f y) -> ~ NoDup (flat_map f l).
Proof.
  intros Hx Hy N Hi Hj. induction l as [|a l IH]; [easy|]. cbn [flat_map]. intros Nd.
  assert (D : forall b, In b l -> In i (f b) -> ~ In i (f a)).
  { intros b Hb Hib Hia. revert Nd Hia. generalize (f a). intros L. induction L as [|c L IHL]; [easy|]. cbn [List.app]. intros Nd. inversion Nd; subst.
    intros [->|K]; [|now apply IHL]. apply H1. apply in_app_iff. right. apply in_flat_map. now exists b. }
  destruct Hx as [->|Hx], Hy as [->|Hy]; [congruence|exact (D y Hy Hj Hi)|exact (D x Hx Hi Hj)|].
  apply IH; auto. revert Nd. generalize (f a). intros L. induction L as [|c L IHL]; [easy|]. cbn. intros Nd. inversion Nd. auto.
Qed.
Lemma shared_dup s s' p p' i : In s (slots_of comps) -> In s' (slots_of comps) -> s <> s' ->
  h_slot h s = Some p -> h_slot h s' = Some p' -> kind i = KFree -> part (PBase i) p -> part (PBase i) p' -> ~ NoDup ids.
Proof.
  intros Hs Hs' N E E' Hk H1 H2. rewrite ids_flat. apply (flat_dup _ _ s s' i Hs Hs' N).
  - rewrite E. now apply (slot_ids i s p).
  - rewrite E'. now apply (slot_ids i s' p').
Qed.
End Compile.
