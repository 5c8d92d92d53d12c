(** Lemmas behind C44, C50. *)
From Verif Require Import Base Expr Composite CompositeProofs Namespace NamespaceProofs ModelInfo ModelInfoProofs ModelInfoProofs2 CompileProofs HelperNames.
From Coq Require Import Ascii List Sorting.Sorted Permutation.
Import ListNotations.
Open Scope list_scope.

Lemma mem_spec n l : mem n l = true <-> In n l.
Proof.
  unfold mem. rewrite existsb_exists. split; [intros (x & H & E); destruct (str_eqb_spec n x); congruence|].
  intros H. exists n. split; [exact H|]. now destruct (str_eqb_spec n n).
Qed.
Lemma index_of_in l n : In n l -> exists k, index_of l n = Some k /\ nth_error l k = Some n.
Proof.
  induction l as [|x l IH]; [easy|]. intros H. cbn [index_of]. destruct (str_eqb_spec n x) as [->|N]; [now exists O|].
  destruct H as [->|H]; [congruence|]. destruct (IH H) as (k & -> & E). now exists (S k).
Qed.
Lemma index_of_none l n : ~ In n l -> index_of l n = None.
Proof.
  induction l as [|x l IH]; [easy|]. intros H. cbn [index_of In] in *. destruct (str_eqb_spec n x) as [->|N]; [tauto|]. rewrite IH; tauto.
Qed.

(** ** sorting by position *)
Section Sort.
Variable key : str -> nat.
Lemma insert_perm x l : Permutation (insert_by key x l) (x :: l).
Proof.
  induction l as [|y l IH]; [reflexivity|]. cbn [insert_by]. destruct (key x <=? key y)%nat; [reflexivity|].
  rewrite IH. apply perm_swap.
Qed.
Lemma sort_perm l : Permutation (sort_by key l) l.
Proof. induction l as [|x l IH]; [reflexivity|]. cbn [sort_by fold_right]. rewrite insert_perm. now constructor. Qed.
Definition le_key a b := (key a <= key b)%nat.
Lemma insert_sorted x l : StronglySorted le_key l -> StronglySorted le_key (insert_by key x l).
Proof.
  induction 1 as [|y l Hl IH Hy]; [constructor; constructor|]. cbn [insert_by]. destruct (Nat.leb_spec (key x) (key y)) as [L|L].
  - constructor; [now constructor|]. constructor; [exact L|]. eapply Forall_impl; [|exact Hy]. intros a. unfold le_key. lia.
  - constructor; [exact IH|]. apply Forall_forall. intros a Ha. apply (Permutation_in _ (insert_perm x l)) in Ha as [<-|Ha]; [unfold le_key; lia|].
    rewrite Forall_forall in Hy. now apply Hy.
Qed.
Lemma sort_sorted l : StronglySorted le_key (sort_by key l).
Proof. induction l as [|x l IH]; [constructor|]. cbn [sort_by fold_right]. now apply insert_sorted. Qed.
(** two duplicate-free sorted lists with the same elements are equal when the key is injective on them *)
Lemma sorted_unique l : forall l', StronglySorted le_key l -> StronglySorted le_key l' -> NoDup l -> NoDup l' ->
  (forall a b, In a l -> In b l -> key a = key b -> a = b) -> (forall x, In x l <-> In x l') -> l = l'.
Proof.
  induction l as [|x l IH]; intros l' S S' N N' I H.
  - destruct l' as [|y l']; [reflexivity|]. destruct (proj2 (H y)); now left.
  - destruct l' as [|y l']; [destruct (proj1 (H x)); now left|].
    inversion S as [|? ? S1 S2]; subst. inversion S' as [|? ? S1' S2']; subst. inversion N as [|? ? N1 N2]; subst. inversion N' as [|? ? N1' N2']; subst.
    rewrite Forall_forall in S2, S2'.
    assert (x = y).
    { destruct (proj1 (H x)) as [E|Hx]; [now left|congruence|]. destruct (proj2 (H y)) as [E|Hy]; [now left|congruence|].
      apply I; [now left|now right|]. specialize (S2 y Hy). specialize (S2' x Hx). unfold le_key in *. lia. }
    subst y. f_equal. apply IH; try assumption.
    + intros a b Ha Hb. apply I; now right.
    + intros z. specialize (H z). cbn [In] in H. split; intros Hz; [destruct (proj1 H (or_intror Hz)) as [<-|]|destruct (proj2 H (or_intror Hz)) as [<-|]]; tauto.
Qed.
End Sort.

Lemma filter_sorted {X} (R : X -> X -> Prop) f l : StronglySorted R l -> StronglySorted R (filter f l).
Proof.
  induction 1 as [|x l Hl IH Hx]; [constructor|]. cbn [filter]. destruct (f x); [|exact IH]. constructor; [exact IH|].
  rewrite Forall_forall in *. intros y Hy. apply filter_In in Hy. now apply Hx.
Qed.
Lemma index_sorted names : NoDup names -> StronglySorted (le_key (fun n => match index_of names n with Some k => k | None => O end)) names.
Proof.
  intros N. assert (G : forall pre suf, names = pre ++ suf -> StronglySorted (le_key (fun n => match index_of names n with Some k => k | None => O end)) suf).
  2:{ now apply (G []). }
  intros pre suf. revert pre. induction suf as [|x suf IH]; intros pre E; [constructor|]. constructor; [apply (IH (pre ++ [x])); now rewrite <- app_assoc|].
  apply Forall_forall. intros y Hy. unfold le_key.
  assert (P : forall pre x suf, ~ In x pre -> index_of (pre ++ x :: suf) x = Some (length pre)).
  { clear. induction pre as [|z pre IH]; intros x suf H; cbn [List.app index_of length].
    - now destruct (str_eqb_spec x x).
    - cbn [In] in H. destruct (str_eqb_spec x z) as [->|]; [tauto|]. rewrite IH by tauto. reflexivity. }
  apply in_split in Hy as (a & b & ->). subst names.
  assert (N1 : ~ In x pre). { intros K. apply NoDup_remove_2 in N. apply N, in_app_iff. now left. }
  rewrite (P pre x _ N1). replace (pre ++ x :: a ++ y :: b) with ((pre ++ x :: a) ++ y :: b) in N |- * by (rewrite <- app_assoc; reflexivity).
  assert (N2 : ~ In y (pre ++ x :: a)). { intros K. apply NoDup_remove_2 in N. apply N, in_app_iff. now left. }
  rewrite (P _ y _ N2). rewrite app_length. cbn [length]. lia.
Qed.
Lemma sorted_index_spec names l : NoDup names -> NoDup l ->
  sorted_index names l = if forallb (fun n => mem n names) l then Ok (filter (fun n => mem n l) names) else Err ValueError.
Proof.
  intros N Nl. unfold sorted_index. destruct (forallb (fun n => mem n names) l) eqn:E.
  - rewrite forallb_forall in E. rewrite (mapR_ok _ (fun n => match index_of names n with Some k => k | None => O end)).
    2:{ intros x Hx. apply E, mem_spec in Hx. destruct (index_of_in _ _ Hx) as (k & -> & _). reflexivity. }
    cbn [bind]. f_equal. apply sorted_unique with (key := fun n => match index_of names n with Some k => k | None => O end).
    + apply sort_sorted.
    + apply filter_sorted, index_sorted, N.
    + eapply Permutation_NoDup; [symmetry; apply sort_perm|exact Nl].
    + now apply NoDup_filter.
    + intros a b Ha Hb. apply (Permutation_in _ (sort_perm _ l)), E, mem_spec, index_of_in in Ha as (i & -> & Ha).
      apply (Permutation_in _ (sort_perm _ l)), E, mem_spec, index_of_in in Hb as (j & -> & Hb). intros ->. congruence.
    + intros x. rewrite filter_In, mem_spec. split.
      * intros H. apply (Permutation_in _ (sort_perm _ l)) in H. split; [now apply mem_spec, E|exact H].
      * intros [_ H]. now apply (Permutation_in _ (Permutation_sym (sort_perm _ l))).
  - assert (G : mapR (fun n => opt_res ValueError (index_of names n)) l = Err ValueError); [|now rewrite G].
    clear Nl. induction l as [|x l IH]; [discriminate|]. cbn [forallb] in E. cbn [mapR]. destruct (mem x names) eqn:M.
    + apply mem_spec, index_of_in in M as (k & -> & _). cbn [opt_res bind]. rewrite IH; [reflexivity|exact E].
    + rewrite index_of_none; [reflexivity|]. rewrite <- mem_spec. congruence.
Qed.

(** ** dictionaries *)
Lemma fold_put_dict {V} (l : list (str * V)) : forall acc, NoDup (map fst (acc ++ l)) -> fold_left (fun d p => put d (fst p) (snd p)) l acc = acc ++ l.
Proof.
  induction l as [|[k v] l IH]; intros acc N; [now rewrite app_nil_r|]. cbn [fold_left fst snd]. rewrite put_fresh.
  - rewrite IH; rewrite <- app_assoc; [reflexivity|exact N].
  - intros H. rewrite map_app in N. cbn [map fst] in N. apply NoDup_remove_2 in N. apply N, in_app_iff. now left.
Qed.
Lemma combine_keys {X Y} (a : list X) : forall (b : list Y), length b = length a -> map fst (combine a b) = a.
Proof. intros b H. apply map_fst_combine. lia. Qed.
Lemma arr_to_dic_eq {V} free (arr : list V) : NoDup free -> arr_to_dic free arr = if (length arr =? length free)%nat then Ok (combine free arr) else Err AssertionError.
Proof.
  intros N. unfold arr_to_dic. destruct (Nat.eqb_spec (length arr) (length free)) as [E|E]; [|reflexivity]. f_equal.
  rewrite fold_put_dict; [reflexivity|]. cbn [List.app]. now rewrite combine_keys.
Qed.
Lemma mapR_get_combine {V} free : NoDup free -> forall (arr : list V), length arr = length free ->
  mapR (fun n => opt_res KeyError (get (combine free arr) n)) free = Ok arr.
Proof.
  induction 1 as [|x free Hx N IH]; intros [|v arr] H; cbn [length] in H; try lia; [reflexivity|]. cbn [mapR combine get].
  assert (str_eqb x x = true) as E by (now destruct (str_eqb_spec x x)). rewrite E. cbn [opt_res bind].
  assert (G : mapR (fun n => opt_res KeyError (if str_eqb n x then Some v else get (combine free arr) n)) free = Ok arr); [|now rewrite G].
  rewrite <- IH by lia. generalize (combine free arr). intros d. revert Hx. clear. induction free as [|z l IH]; intros H; [reflexivity|].
  cbn [mapR In] in *. destruct (str_eqb_spec z x); [tauto|]. now rewrite IH by tauto.
Qed.
Lemma mapR_inv {X Y} (f : X -> res Y) l : forall r, mapR f l = Ok r -> Forall2 (fun x y => f x = Ok y) l r.
Proof.
  induction l as [|x l IH]; intros r H; cbn [mapR] in H; [injection H as <-; constructor|].
  destruct (f x) as [y|] eqn:E; [|discriminate]. cbn [bind] in H. destruct (mapR f l) as [ys|]; [|discriminate]. cbn [bind] in H. injection H as <-.
  constructor; [exact E|]. now apply IH.
Qed.
Lemma mapR_ext {X Y} (f g : X -> res Y) l : (forall x, In x l -> f x = g x) -> mapR f l = mapR g l.
Proof.
  induction l as [|x l IH]; intros H; [reflexivity|]. cbn [mapR]. rewrite (H x) by now left. destruct (g x); [|reflexivity]. cbn [bind].
  rewrite IH; [reflexivity|]. intros z Hz. apply H. now right.
Qed.
Lemma get_transform {V} (T : str -> V -> V) d n : get (transform T d) n = option_map (T n) (get d n).
Proof.
  unfold transform. induction d as [|[k v] d IH]; [reflexivity|]. cbn [map fst snd get]. destruct (str_eqb_spec n k) as [->|]; [reflexivity|exact IH].
Qed.
Lemma transform_combine {V} (T : str -> V -> V) free : forall arr, transform T (combine free arr) = combine free (map (fun p => T (fst p) (snd p)) (combine free arr)).
Proof. induction free as [|x free IH]; intros [|v arr]; [reflexivity..|]. cbn. f_equal. apply IH. Qed.

(** ** the names of a model *)
Section Names.
Variables (kind : nat -> pkind) (h : heap) (bname cname : nat -> str) (comps : list comp).
Variables (ps : list param) (dead : list nat).
Hypothesis Hco : coherent ps.
Hypothesis Hh : hinv ps dead h.
Hypothesis Hm : model_ok h comps.
Hypothesis Hdead : forall c, In c comps -> ~ In (c_id c) dead.
Hypothesis Hslots : NoDup (slots_of comps).
Hypothesis Hcn : forall c, In c comps -> cname (c_id c) <> [].
Let mi := the_info kind h bname cname comps.
Hypothesis Hnames : NoDup (map snd (mi_name mi)).
Let cp i := get_comp_param (h_trk h i) (map c_id comps).

(** ids of the numbered rows *)
Definition slot_id (s : slot) : list nat :=
  match cp (pid (slot_param h s)) with
  | Some r => if slot_eqb s r then if has_idx (setup_class kind (slot_param h s)) then [pid (slot_param h s)] else [] else []
  | None => []
  end.
Definition aux_list := filter (fun e => match cp (fst e) with Some _ => false | None => negb (is_comp (snd e)) end) (mi_info mi).
Definition row_ids : list nat := flat_map slot_id (slots_of comps) ++ map fst (filter (fun e => negb (pfixed kind (snd e))) aux_list).

Lemma in_info_pid s : In s (slots_of comps) -> In (pid (slot_param h s)) (map fst (mi_info mi)).
Proof.
  intros Hs. apply in_map_iff. exists (pid (slot_param h s), slot_param h s). split; [reflexivity|].
  unfold mi. cbn [mi_info the_info]. eapply info_spec; eauto. split; [reflexivity|]. exists (slot_param h s). split; [|constructor].
  exists s. split; [exact Hs|]. eapply slot_param_ok; eauto.
Qed.
Lemma slot_name s : In s (slots_of comps) -> cp (pid (slot_param h s)) = Some s -> name_of mi (pid (slot_param h s)) = dotted (cname (fst s)) (snd s).
Proof.
  intros Hs E. unfold name_of, mi. cbn [mi_name the_info].
  erewrite names_get; [reflexivity|exact (in_info_pid s Hs)|exact E].
Qed.
Lemma slots_cname s : In s (slots_of comps) -> cname (fst s) <> [].
Proof. intros H. apply slots_of_in in H. apply in_map_iff in H as (c & <- & Hc). now apply Hcn. Qed.
Lemma table_eq : info_table kind cname comps mi =
  map (fun s => (has_idx (snd (snd (fst (fst (row_val kind h cname comps s))))), cname (fst s), snd s)) (slots_of comps) ++
  map (fun e => (negb (pfixed kind (snd e)), [], name_of mi (fst e))) aux_list.
Proof.
  unfold info_table. f_equal.
  - unfold mi. cbn [mi_setup the_info]. rewrite map_map. generalize (slots_of comps). intros l. induction l as [|s l IH]; [reflexivity|]. cbn [map combine fst snd]. now rewrite IH.
  - f_equal. unfold aux_list. apply filter_ext_in. intros [i p] Hi. cbn [fst snd].
    destruct (cp i) as [s|] eqn:E.
    + assert (existsb (Nat.eqb i) (mi_cp mi) = true) as ->; [|reflexivity]. apply existsb_eqb. unfold mi. cbn [mi_cp the_info]. apply in_map_iff.
      exists (i, p). split; [reflexivity|]. apply filter_In. split; [exact Hi|]. cbn [fst]. unfold cp in E. now rewrite E.
    + assert (existsb (Nat.eqb i) (mi_cp mi) = false) as ->; [|reflexivity]. rewrite <- not_true_iff_false, existsb_eqb. unfold mi. cbn [mi_cp the_info]. rewrite in_map_iff.
      intros ([j q] & <- & H). apply filter_In in H as (_ & H). cbn [fst] in H. cbn [fst] in E. unfold cp in E. rewrite E in H. discriminate.
Qed.
Lemma flat_map_map {X Y Z} (f : X -> Y) (g : Y -> list Z) l : flat_map g (map f l) = flat_map (fun x => g (f x)) l.
Proof. induction l as [|x l IH]; [reflexivity|]. cbn. now rewrite IH. Qed.
Lemma flat_map_ext_in' {X Y} (f g : X -> list Y) l : (forall x, In x l -> f x = g x) -> flat_map f l = flat_map g l.
Proof. induction l as [|x l IH]; intros H; [reflexivity|]. cbn. rewrite (H x) by now left. f_equal. apply IH. intros y Hy. apply H. now right. Qed.
Lemma map_flat_map {X Y Z} (f : Y -> Z) (g : X -> list Y) l : map f (flat_map g l) = flat_map (fun x => map f (g x)) l.
Proof. induction l as [|x l IH]; [reflexivity|]. cbn. now rewrite map_app, IH. Qed.
Lemma slot_row s : In s (slots_of comps) ->
  (if has_idx (snd (snd (fst (fst (row_val kind h cname comps s))))) then [dotted (cname (fst s)) (snd s)] else []) = map (name_of mi) (slot_id s).
Proof.
  intros Hs. unfold row_val, slot_id. destruct (cp_held h comps ps dead Hh Hm s Hs) as (r & E). fold (cp (pid (slot_param h s))) in E |- *. rewrite E.
  destruct (slot_eqb_spec s r) as [<-|N]; cbn [fst snd has_idx]; [|reflexivity].
  destruct (has_idx (setup_class kind (slot_param h s))); [|reflexivity]. cbn [map]. now rewrite slot_name.
Qed.
Lemma all_eq : flat_map (fun r : bool * str * str => let '(idx, c, p) := r in if idx then [match c with [] => p | _ => dotted c p end] else []) (info_table kind cname comps mi)
  = map (name_of mi) row_ids.
Proof.
  rewrite table_eq, flat_map_app. unfold row_ids. rewrite map_app. f_equal.
  - rewrite flat_map_map, map_flat_map. apply flat_map_ext_in'. intros s Hs. rewrite <- slot_row by exact Hs.
    pose proof (slots_cname s Hs). destruct (cname (fst s)); [congruence|reflexivity].
  - rewrite flat_map_map. induction aux_list as [|e l IH]; [reflexivity|]. cbn [flat_map filter]. rewrite IH. destruct (pfixed kind (snd e)); reflexivity.
Qed.
Lemma interest_eq : flat_map (fun r : bool * str * str => let '(idx, c, p) := r in match idx, c with true, _ :: _ => [dotted c p] | _, _ => [] end) (info_table kind cname comps mi)
  = map (name_of mi) (flat_map slot_id (slots_of comps)).
Proof.
  rewrite table_eq, flat_map_app, <- (app_nil_r (map (name_of mi) _)). f_equal.
  - rewrite flat_map_map, map_flat_map. apply flat_map_ext_in'. intros s Hs. rewrite <- slot_row by exact Hs.
    pose proof (slots_cname s Hs). destruct (cname (fst s)); [congruence|]. now destruct (has_idx _).
  - rewrite flat_map_map. induction aux_list as [|e l IH]; [reflexivity|]. cbn [flat_map]. rewrite IH. destruct (negb _); reflexivity.
Qed.

Lemma slot_id_cp s i : In i (slot_id s) -> cp i = Some s /\ i = pid (slot_param h s) /\ has_idx (setup_class kind (slot_param h s)) = true.
Proof.
  unfold slot_id. destruct (cp _) as [r|] eqn:E; [|easy]. destruct (slot_eqb_spec s r) as [<-|]; [|easy].
  destruct (has_idx _) eqn:E2; [|easy]. intros [<-|[]]. auto.
Qed.
Lemma row_ids_nodup : NoDup row_ids.
Proof.
  unfold row_ids. apply NoDup_app_disj.
  - apply flat_nodup; [exact Hslots| |].
    + intros s Hs. unfold slot_id. destruct (cp _); [|constructor]. destruct (slot_eqb _ _); [|constructor]. destruct (has_idx _); [|constructor]. constructor; [easy|constructor].
    + intros s s' i _ _ A B. apply slot_id_cp in A as (A & _), B as (B & _). congruence.
  - pose proof (info_nodup h comps) as N. unfold aux_list, mi. cbn [mi_info the_info].
    revert N. generalize (fold_left (fun d p => dunion d (pinfo p)) (map (slot_param h) (slots_of comps)) []). intros l N.
    assert (P : forall (f : nat * param -> bool) (l : list (nat * param)), NoDup (map fst l) -> NoDup (map fst (filter f l))).
    { clear. intros f. induction l as [|e l IH]; intros N; [constructor|]. cbn [map filter] in *. inversion N as [|? ? N1 N2]; subst. destruct (f e); [|auto]. cbn [map].
      constructor; [|auto]. intros K. apply N1. apply in_map_iff in K as (x & E & K). apply filter_In in K as (K & _). apply in_map_iff. now exists x. }
    now apply P, P.
  - intros i Hi Hj. apply in_flat_map in Hi as (s & _ & Hi). apply slot_id_cp in Hi as (Hi & _).
    apply in_map_iff in Hj as (e & <- & He). apply filter_In in He as (He & _). apply filter_In in He as (_ & He). rewrite Hi in He. discriminate.
Qed.
Lemma row_ids_named i : In i row_ids -> In i (map fst (mi_name mi)).
Proof.
  unfold row_ids. rewrite in_app_iff. intros [H|H].
  - apply in_flat_map in H as (s & Hs & Hi). apply slot_id_cp in Hi as (E & -> & _). unfold mi. cbn [mi_name the_info].
    assert (D : dget (mi_name mi) (pid (slot_param h s)) <> None).
    { unfold mi. cbn [mi_name the_info]. erewrite names_get; [discriminate|exact (in_info_pid s Hs)|exact E]. }
    destruct (in_dec Nat.eq_dec (pid (slot_param h s)) (map fst (mi_name mi))) as [K|K]; [exact K|]. apply dget_none in K. contradiction.
  - apply in_map_iff in H as ([j q] & <- & He). apply filter_In in He as (He & _). apply filter_In in He as (He & Hc). cbn [fst snd] in *.
    unfold mi in He. cbn [mi_info the_info] in He. eapply info_spec in He; eauto. destruct He as (E & p & Hp & Hq). destruct q as [j'|?|?]; [|destruct (cp j); discriminate..].
    cbn in E. subst j'. unfold mi. cbn [mi_name the_info]. eapply named_base; eauto.
Qed.
Lemma row_ids_inj : inj_on (name_of mi) row_ids.
Proof. intros i j Hi Hj. apply name_inj; auto using row_ids_named. Qed.
Lemma all_nodup : NoDup (map (name_of mi) row_ids).
Proof. apply inj_nodup; [exact row_ids_inj|exact row_ids_nodup]. Qed.

Lemma has_idx_cases c : has_idx c = true <-> c = Free \/ c = Composed.
Proof. destruct c; cbn; intuition discriminate. Qed.
Lemma row_ids_in i : In i row_ids <-> In i (mi_sample mi) \/ In i (mi_determ mi).
Proof.
  assert (Hs : In i (mi_sample mi) <-> In i (sample_order kind h cname comps)) by (unfold mi; cbn [mi_sample the_info]; apply dedup_nil). rewrite Hs. clear Hs.
  unfold row_ids, sample_order.
  change (filter (fun e => match get_comp_param (h_trk h (fst e)) (map c_id comps) with Some _ => false | None => negb (is_comp (snd e)) end) _) with aux_list.
  generalize (map fst (filter (fun e => negb (pfixed kind (snd e))) aux_list)). intros al.
  rewrite !in_app_iff, in_flat_map, somes_in, map_map, in_map_iff. change (mi_determ mi) with (somes (map snd (map (row_val kind h cname comps) (slots_of comps)))). rewrite somes_in, map_map, in_map_iff.
  split.
  - intros [(s & Hs & Hi)|H]; [|tauto]. apply slot_id_cp in Hi as (E & -> & Hc). apply has_idx_cases in Hc as [Hc|Hc]; [left; left|right]; exists s; (split; [|exact Hs]);
    unfold row_val; fold (cp (pid (slot_param h s))); rewrite E, slot_eqb_refl; cbn [fst snd]; now rewrite Hc.
  - intros [[(s & E & Hs)|H]|(s & E & Hs)]; [left|tauto|left]; exists s; (split; [exact Hs|]); unfold row_val in E; unfold slot_id; fold (cp (pid (slot_param h s))) in E;
    destruct (cp (pid (slot_param h s))) as [r|]; try discriminate; destruct (slot_eqb s r); try discriminate; cbn [fst snd] in E;
    destruct (setup_class kind (slot_param h s)); try discriminate; injection E as <-; now left.
Qed.
Lemma determ_nodup : NoDup (mi_determ mi).
Proof.
  assert (mi_determ mi = flat_map (fun s => match snd (row_val kind h cname comps s) with Some i => [i] | None => [] end) (slots_of comps)) as ->.
  { unfold mi. cbn [mi_determ the_info]. unfold somes. now rewrite flat_map_map, flat_map_map. }
  apply flat_nodup; [exact Hslots| |].
  - intros s _. destruct (snd _); [constructor; [easy|constructor]|constructor].
  - intros s s' i _ _ A B.
    assert (P : forall s, In i (match snd (row_val kind h cname comps s) with Some i => [i] | None => [] end) -> cp i = Some s).
    { intros t. unfold row_val. fold (cp (pid (slot_param h t))). destruct (cp (pid (slot_param h t))) as [r|] eqn:E; [|easy].
      destruct (slot_eqb_spec t r) as [<-|]; [|easy]. cbn [snd]. destruct (setup_class kind (slot_param h t)); try easy. intros [<-|[]]. exact E. }
    apply P in A, B. congruence.
Qed.
Lemma sample_nodup : NoDup (mi_sample mi).
Proof. unfold mi. cbn [mi_sample the_info]. apply dedup_nil. Qed.
Lemma prior_eq : map fst (name_dict mi (mi_sample mi)) = map (name_of mi) (mi_sample mi).
Proof.
  unfold name_dict. change (@nil (str * nat)) with (pairs (name_of mi) []). rewrite fold_put_names.
  - rewrite pairs_keys. f_equal. apply dedup_id, sample_nodup.
  - cbn [List.app]. intros i j Hi Hj. apply row_ids_inj; apply row_ids_in; now left.
  - constructor.
Qed.

Definition the_names : pnames :=
  let all := map (name_of mi) row_ids in
  {| pn_free := filter (fun n => mem n (map (name_of mi) (mi_sample mi))) all;
     pn_determ := filter (fun n => mem n (map (name_of mi) (mi_determ mi))) all;
     pn_interest := map (name_of mi) (flat_map slot_id (slots_of comps)); pn_all := all |}.
Lemma helper_names_eq : helper_names kind cname comps mi = Ok the_names.
Proof.
  unfold helper_names. cbv zeta. rewrite all_eq, interest_eq, prior_eq.
  assert (Is : forall x, In x (mi_sample mi) -> In x row_ids) by (intros x Hx; apply row_ids_in; tauto).
  assert (Id : forall x, In x (mi_determ mi) -> In x row_ids) by (intros x Hx; apply row_ids_in; tauto).
  assert (N1 : NoDup (map (name_of mi) (mi_sample mi))) by (apply inj_nodup; [intros i j Hi Hj; apply row_ids_inj; auto|apply sample_nodup]).
  assert (N2 : NoDup (map (name_of mi) (mi_determ mi))) by (apply inj_nodup; [intros i j Hi Hj; apply row_ids_inj; auto|apply determ_nodup]).
  assert (M1 : forallb (fun n => mem n (map (name_of mi) row_ids)) (map (name_of mi) (mi_sample mi)) = true).
  { apply forallb_forall. intros n Hn. apply mem_spec. apply in_map_iff in Hn as (i & <- & Hi). apply in_map. auto. }
  assert (M2 : forallb (fun n => mem n (map (name_of mi) row_ids)) (map (name_of mi) (mi_determ mi)) = true).
  { apply forallb_forall. intros n Hn. apply mem_spec. apply in_map_iff in Hn as (i & <- & Hi). apply in_map. auto. }
  rewrite (sorted_index_spec _ _ all_nodup N1), M1. cbn [bind]. rewrite (sorted_index_spec _ _ all_nodup N2), M2. cbn [bind].
  match goal with |- context [if ?c then _ else _] => assert (c = true) as -> end; [|reflexivity].
  apply andb_true_iff. split; apply forallb_forall; intros n Hn; apply mem_spec.
  - apply in_app_iff in Hn as [Hn|Hn]; apply filter_In in Hn; tauto.
  - apply in_app_iff. rewrite !filter_In, !mem_spec. apply in_map_iff in Hn as (i & <- & Hi).
    assert (In (name_of mi i) (map (name_of mi) row_ids)) by now apply in_map.
    apply row_ids_in in Hi as [Hi|Hi]; [left|right]; (split; [assumption|now apply in_map]).
Qed.

(** ** labels *)
Hypothesis Hc : forall c c', In c comps -> In c' comps -> cname (c_id c) = cname (c_id c') -> c_id c = c_id c'.
Hypothesis Hp : forall c n, In c comps -> In n (c_params c) -> ~ In dot n.
Hypothesis Hb : forall i, ~ ends_with_prime (bname i) /\ ~ In dot (bname i).
Lemma slot_nodot s : In s (slots_of comps) -> ~ In dot (snd s).
Proof. intros H. unfold slots_of in H. apply in_flat_map in H as (c & Hin & H). apply in_map_iff in H as (n & <- & Hn). cbn. eauto. Qed.
Lemma label_inj s s' : In s (slots_of comps) -> In s' (slots_of comps) -> dotted (cname (fst s)) (snd s) = dotted (cname (fst s')) (snd s') -> s = s'.
Proof.
  intros H H' E. unfold dotted in E. apply dotted_inj in E as (E1 & E2); [|now apply slot_nodot..].
  pose proof (slots_of_in _ _ H) as K. pose proof (slots_of_in _ _ H') as K'. apply in_map_iff in K as (c & Ec & Kc), K' as (c' & Ec' & Kc').
  rewrite <- Ec, <- Ec' in E1. apply Hc in E1; [|assumption..]. destruct s, s'; cbn in *. congruence.
Qed.
Lemma aux_nodot e : In e aux_list -> ~ In dot (name_of mi (fst e)).
Proof.
  intros He. unfold name_of, mi. cbn [mi_name the_info]. rewrite dget_app.
  set (al := filter _ _). change al with aux_list.
  destruct (dget_some_key (combine (map fst aux_list) (build_namespace (map (fun e => bname (fst e)) aux_list) false true)) (fst e)) as (v & Ev).
  { rewrite map_fst_combine by now rewrite build_length, !map_length. now apply in_map. }
  rewrite Ev. apply dget_in, in_combine_r, In_build in Ev as (a & n & Ha & ->). apply in_map_iff in Ha as (x & <- & _).
  intros K. apply in_app_iff in K as [K|K]; [now apply (Hb (fst x))|]. unfold suffix in K. apply repeat_spec in K. discriminate.
Qed.
Lemma setup_in n t c : In (n, (t, c)) (mi_setup mi) <-> exists s, In s (slots_of comps) /\ fst (fst (row_val kind h cname comps s)) = (n, (t, c)).
Proof.
  unfold mi. cbn [mi_setup the_info]. rewrite map_map, in_map_iff. split; intros (s & A & B); exists s; split; assumption.
Qed.
Lemma row_fst s : fst (fst (fst (row_val kind h cname comps s))) = dotted (cname (fst s)) (snd s).
Proof. unfold row_val. destruct (get_comp_param _ _) as [r|]; [|reflexivity]. destruct (slot_eqb s r); reflexivity. Qed.
Lemma all_setup n t c : In (n, (t, c)) (mi_setup mi) -> (In n (map (name_of mi) row_ids) <-> has_idx c = true).
Proof.
  intros H. apply setup_in in H as (s & Hs & E). pose proof (row_fst s) as F. rewrite E in F. cbn [fst] in F. subst n.
  pose proof (slot_row s Hs) as R. rewrite E in R. cbn [fst snd] in R. split.
  - intros K. apply in_map_iff in K as (i & En & Hi). unfold row_ids in Hi. apply in_app_iff in Hi as [Hi|Hi].
    + apply in_flat_map in Hi as (s' & Hs' & Hi). pose proof Hi as Hi'. apply slot_id_cp in Hi' as (E1 & E2 & E3). subst i. rewrite (slot_name s' Hs' E1) in En.
      apply label_inj in En; [|assumption..]. subst s'. destruct (has_idx c); [reflexivity|]. destruct (slot_id s); [easy|discriminate].
    + apply in_map_iff in Hi as (e & <- & He). apply filter_In in He as (He & _). exfalso. apply (aux_nodot e He). rewrite En. apply in_app_iff. right. now left.
  - intros K. rewrite K in R. unfold row_ids. rewrite map_app, in_app_iff. left. rewrite map_flat_map. apply in_flat_map. exists s. split; [exact Hs|].
    rewrite <- R. now left.
Qed.
(** a label determines its entry *)
Lemma setup_fun n t c t' c' : In (n, (t, c)) (mi_setup mi) -> In (n, (t', c')) (mi_setup mi) -> t = t' /\ c = c'.
Proof.
  intros H H'. apply setup_in in H as (s & Hs & E), H' as (s' & Hs' & E'). pose proof (row_fst s) as F. pose proof (row_fst s') as F'. rewrite E in F. rewrite E' in F'. cbn [fst] in F, F'.
  assert (s = s') by (apply label_inj; [assumption..|congruence]). subst s'. rewrite E in E'. now injection E' as <- <-.
Qed.

(** ** values of all parameters *)
Lemma pname_to_pid_get i : In i (map fst (mi_name mi)) -> get (pname_to_pid mi) (name_of mi i) = Some i.
Proof.
  intros Hi. unfold pname_to_pid.
  assert (G : forall l, fold_left (fun d e => put d (snd e) (fst e)) l [] = fold_left (fun d p => put d (fst p) (snd p)) (map (fun e : nat * str => (snd e, fst e)) l) []).
  { intros l. generalize (@nil (str * nat)). induction l as [|e l IH]; intros acc; [reflexivity|]. cbn [fold_left map fst snd]. apply IH. }
  rewrite G, fold_put_dict; cbn [List.app]; [|rewrite map_map; exact Hnames]. apply get_nodup; [rewrite map_map; exact Hnames|].
  unfold name_of. destruct (dget_some_key _ _ Hi) as (v & Ev). rewrite Ev. apply dget_in in Ev. apply in_map_iff. now exists (i, v).
Qed.

Lemma determ_slot i : In i (mi_determ mi) -> exists s, In s (slots_of comps) /\ cp i = Some s /\ i = pid (slot_param h s) /\ setup_class kind (slot_param h s) = Composed.
Proof.
  unfold mi. cbn [mi_determ the_info]. rewrite somes_in, map_map, in_map_iff. intros (s & E & Hs). exists s. split; [exact Hs|].
  unfold row_val in E. fold (cp (pid (slot_param h s))) in E. destruct (cp (pid (slot_param h s))) as [r|] eqn:Er; [|discriminate].
  destruct (slot_eqb_spec s r) as [<-|]; [|discriminate]. cbn [snd] in E. destruct (setup_class kind (slot_param h s)) eqn:Ec; try discriminate. injection E as <-. auto.
Qed.
Lemma composed_facts p : setup_class kind p = Composed -> is_comp p = true /\ forall i, In i (leaves p) -> kind i <> KInterval.
Proof.
  unfold setup_class. destruct (pinterval kind p) eqn:EI; [discriminate|]. destruct (pfixed kind p); [discriminate|]. destruct (is_comp p); [|discriminate]. intros _. split; [reflexivity|].
  intros i Hi K. assert (pinterval kind p = true); [|congruence]. clear EI. revert Hi.
  induction p as [j|j o l r IHl IHr|j f args IH] using param_ind'; cbn [pinterval leaves]; intros Hi.
  - destruct Hi as [<-|[]]. now rewrite K.
  - apply in_app_iff in Hi as [Hi|Hi]; [rewrite IHl|rewrite IHr, orb_true_r]; auto.
  - apply in_flat_map in Hi as (a & Ha & Hi). apply existsb_exists. exists a. split; [exact Ha|]. rewrite Forall_forall in IH. now apply IH.
Qed.
Lemma determ_get i : In i (mi_determ mi) -> exists s, In s (slots_of comps) /\ i = pid (slot_param h s) /\ setup_class kind (slot_param h s) = Composed /\
  (if existsb (Nat.eqb i) (mi_cp mi) then dget (mi_info mi) i else None) = Some (slot_param h s).
Proof.
  intros Hi. destruct (determ_slot i Hi) as (s & Hs & Ecp & -> & Ec). exists s. split; [exact Hs|]. split; [reflexivity|]. split; [exact Ec|].
  pose proof (cp_keys kind h bname cname comps ps dead Hco Hh Hm s Hs) as K. fold mi in K. rewrite K.
  unfold mi. cbn [mi_info the_info]. eapply info_get with (p := slot_param h s); eauto; [|constructor]. now apply in_map.
Qed.
Lemma sample_iff i : In i (mi_sample mi) <-> kind i = KFree /\ exists p, held h comps p /\ part (PBase i) p.
Proof. unfold mi. cbn [mi_sample the_info]. rewrite (proj2 (dedup_nil _)). eapply order_sample; eauto. Qed.
Lemma sample_determ i : In i (mi_sample mi) -> ~ In i (mi_determ mi).
Proof.
  intros H1 H2. apply sample_iff in H1 as (_ & p & (s' & Hs' & E') & Hq). destruct (determ_slot i H2) as (s & Hs & _ & Ei & Ec). apply composed_facts in Ec as (Ec & _).
  assert (slot_param h s = PBase i); [|rewrite H in Ec; discriminate].
  pose proof (slot_param_ok h comps Hm s Hs) as E. apply (Hco (slot_param h s) p); auto using part_refl; eapply hi_ps; eauto.
Qed.
Lemma names_app_nodup : NoDup (map (name_of mi) (mi_sample mi) ++ map (name_of mi) (mi_determ mi)).
Proof.
  rewrite <- map_app. apply inj_nodup.
  - intros i j Hi Hj. apply row_ids_inj; apply row_ids_in; now apply in_app_iff.
  - apply NoDup_app_disj; [apply sample_nodup|apply determ_nodup|exact sample_determ].
Qed.
Lemma named_rows i : In i (mi_sample mi) \/ In i (mi_determ mi) -> In i (map fst (mi_name mi)).
Proof. intros H. apply row_ids_named, row_ids_in, H. Qed.

Lemma free_nodup : NoDup (pn_free the_names).
Proof. cbn [pn_free the_names]. apply NoDup_filter, all_nodup. Qed.
Lemma free_in n : In n (pn_free the_names) <-> In n (map (name_of mi) (mi_sample mi)).
Proof.
  cbn [pn_free the_names]. rewrite filter_In, mem_spec. split; [tauto|]. intros H. split; [|exact H].
  apply in_map_iff in H as (i & <- & Hi). apply in_map, row_ids_in. now left.
Qed.
Section Val.
Context {V : Type} (A : alg V) (dflt : nat -> V) (T : str -> V -> V) (arr : list V).
Hypothesis Hlen : length arr = length (pn_free the_names).
Let u := combine (pn_free the_names) arr.
Definition uval (n : str) : V := match get u n with Some v => v | None => dflt 0%nat end.
Lemma get_u n v : In (n, v) u -> get u n = Some v.
Proof. intros H. apply get_nodup; [|exact H]. unfold u. rewrite combine_keys by exact Hlen. exact free_nodup. Qed.
Lemma get_u_some n : In n (pn_free the_names) -> get u n = Some (uval n).
Proof.
  intros H. unfold uval. destruct (get u n) as [v|] eqn:E; [reflexivity|exfalso].
  assert (Hk : In n (map fst u)) by (unfold u; rewrite combine_keys; assumption). apply in_map_iff in Hk as ([n' v] & En & Hv). cbn in En. subst n'. apply get_u in Hv. congruence.
Qed.
Definition site_ids : list (nat * V) := map (fun i => (i, T (name_of mi i) (uval (name_of mi i)))) (mi_sample mi).
Definition det_param (i : nat) : param := match dget (mi_info mi) i with Some p => p | None => PBase 0 end.
Definition site_list : list (str * V) :=
  map (fun n => (n, T n (uval n))) (map (name_of mi) (mi_sample mi)) ++
  map (fun i => (name_of mi i, pvalue A (overlay dflt mi (dget site_ids)) dflt (det_param i))) (mi_determ mi).
Lemma param_sites_eq : param_sites A dflt T mi u = Ok site_list.
Proof.
  unfold param_sites. rewrite prior_eq. rewrite (mapR_ok _ (fun n => (n, T n (uval n)))).
  2:{ intros n Hn. rewrite get_u_some; [reflexivity|]. now apply free_in. }
  cbn [bind]. rewrite map_map.
  assert (E : mapR (fun nv => bind (opt_res KeyError (get (pname_to_pid mi) (fst nv))) (fun i => Ok (i, snd nv))) (map (fun i => (name_of mi i, T (name_of mi i) (uval (name_of mi i)))) (mi_sample mi)) = Ok site_ids).
  { unfold site_ids. assert (P : forall i, In i (mi_sample mi) -> get (pname_to_pid mi) (name_of mi i) = Some i) by (intros i Hi; apply pname_to_pid_get, named_rows; now left).
    revert P. generalize (mi_sample mi). intros l. induction l as [|i l IH]; intros P; [reflexivity|]. cbn [map mapR fst snd]. rewrite (P i) by now left. cbn [opt_res bind].
    rewrite IH; [reflexivity|]. intros j Hj. apply P. now right. }
  rewrite E. cbn [bind].
  rewrite (mapR_ok _ (fun i => (name_of mi i, pvalue A (overlay dflt mi (dget site_ids)) dflt (det_param i)))); [cbn [bind]; unfold site_list; now rewrite map_map|].
  intros i Hi. unfold determ_value, det_param. destruct (determ_get i Hi) as (s & _ & _ & _ & G). rewrite G. cbn [opt_res bind].
  destruct (existsb _ _); [|discriminate]. now rewrite G.
Qed.
Lemma site_keys : map fst site_list = map (name_of mi) (mi_sample mi) ++ map (name_of mi) (mi_determ mi).
Proof. unfold site_list. rewrite map_app, !map_map. reflexivity. Qed.
Lemma get_site n : In n (map (name_of mi) row_ids) -> exists v, get site_list n = Some v.
Proof.
  intros H. apply in_map_iff in H as (i & <- & Hi). apply row_ids_in in Hi.
  assert (In (name_of mi i) (map fst site_list)) as K by (rewrite site_keys, in_app_iff; destruct Hi; [left|right]; now apply in_map).
  apply in_map_iff in K as ([n v] & E & K). cbn in E. subst n. exists v. apply get_nodup; [rewrite site_keys; exact names_app_nodup|exact K].
Qed.
Lemma params_of_eq : exists d, params_of A dflt T mi the_names arr = Ok d /\ map fst d = pn_all the_names /\ (forall n, In n (pn_all the_names) -> get d n = get site_list n).
Proof.
  unfold params_of. rewrite arr_to_dic_eq by exact free_nodup. rewrite Hlen, Nat.eqb_refl. cbn [bind]. fold u. rewrite param_sites_eq. cbn [bind]. unfold get_params.
  set (g := fun n => match get site_list n with Some v => v | None => dflt 0%nat end).
  rewrite (mapR_ok _ (fun n => (n, g n))).
  2:{ intros n Hn. unfold g. destruct (get_site n Hn) as (v & ->). reflexivity. }
  eexists. split; [reflexivity|]. split; [rewrite map_map; cbn [fst]; apply map_id|].
  intros n Hn. destruct (get_site n Hn) as (v & E). rewrite E. apply get_nodup; [rewrite map_map; cbn [fst]; rewrite map_id; apply all_nodup|].
  apply in_map_iff. exists n. split; [|exact Hn]. unfold g. now rewrite E.
Qed.
Lemma get_site_free n v : In (n, v) u -> get site_list n = Some (T n v).
Proof.
  intros H. assert (Hn : In n (pn_free the_names)). { unfold u in H. now apply in_combine_l in H. }
  pose proof (get_u n v H) as Hv. pose proof (get_u_some n Hn) as Hv2. assert (Ev : uval n = v) by congruence.
  apply get_nodup; [rewrite site_keys; exact names_app_nodup|]. unfold site_list. apply in_app_iff. left. apply in_map_iff. exists n. rewrite Ev. split; [reflexivity|]. now apply free_in.
Qed.
Lemma get_site_determ i : In i (mi_determ mi) -> get site_list (name_of mi i) = Some (pvalue A (overlay dflt mi (dget site_ids)) dflt (det_param i)).
Proof.
  intros H. apply get_nodup; [rewrite site_keys; exact names_app_nodup|]. unfold site_list. apply in_app_iff. right. apply in_map_iff. now exists i.
Qed.
Lemma site_ids_get i : dget site_ids i = if existsb (Nat.eqb i) (mi_sample mi) then Some (T (name_of mi i) (uval (name_of mi i))) else None.
Proof.
  unfold site_ids. generalize (mi_sample mi). intros l. induction l as [|j l IH]; [reflexivity|]. cbn [map dget existsb]. destruct (Nat.eqb_spec i j) as [->|]; [reflexivity|exact IH].
Qed.
End Val.
End Names.
