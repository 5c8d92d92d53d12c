From Coq Require Import Ascii String Decimal DecimalNat.
From Verif Require Import Base BaseFacts Namespace.
Open Scope list_scope.

Lemma str_eqb_spec a b : reflect (a = b) (str_eqb a b).
Proof. unfold str_eqb. destruct (str_eq_dec a b); now constructor. Qed.
Lemma str_in_spec a l : str_in a l = true <-> In a l.
Proof.
  unfold str_in. rewrite existsb_exists. split.
  - intros (x & H & E). destruct (str_eqb_spec a x); congruence.
  - intros H. exists a. split; [exact H|]. now destruct (str_eqb_spec a a).
Qed.

Lemma uint_str_inj u : forall v, uint_str u = uint_str v -> u = v.
Proof. induction u; destruct v; cbn; intros H; try discriminate; inversion H; f_equal; auto. Qed.
Lemma nat_str_inj n m : nat_str n = nat_str m -> n = m.
Proof.
  intros H. apply uint_str_inj in H. rewrite <- (Unsigned.of_to n), <- (Unsigned.of_to m). now rewrite H.
Qed.
Definition is_digit (c : ascii) : Prop := In c (s2l "0123456789").
Lemma uint_digits u : Forall is_digit (uint_str u).
Proof. induction u; cbn; constructor; auto; unfold is_digit; cbn; tauto. Qed.
Lemma digit_not c u : ~ is_digit c -> ~ In c (uint_str u).
Proof. intros H K. pose proof (uint_digits u) as F. rewrite Forall_forall in F. auto. Qed.
Lemma under_not_digit : ~ is_digit underscore.
Proof. unfold is_digit, underscore; cbn. intuition discriminate. Qed.

Lemma split_last (c : ascii) x y x' y' : ~ In c y -> ~ In c y' -> x ++ c :: y = x' ++ c :: y' -> x = x' /\ y = y'.
Proof.
  intros H H' E. apply app_eq_app in E. destruct E as [l [[-> E]|[-> E]]].
  - destruct l as [|d l]; cbn in E.
    + inversion E. rewrite app_nil_r. auto.
    + inversion E; subst. exfalso. apply H'. apply in_or_app. right. now left.
  - destruct l as [|d l]; cbn in E.
    + inversion E. rewrite app_nil_r. auto.
    + inversion E; subst. exfalso. apply H. apply in_or_app. right. now left.
Qed.
Lemma split_first (c : ascii) x y x' y' : ~ In c x -> ~ In c x' -> x ++ c :: y = x' ++ c :: y' -> x = x' /\ y = y'.
Proof.
  revert x'. induction x as [|a x IH]; intros [|b x'] H H' E; cbn in *; inversion E; subst.
  - auto.
  - exfalso. apply H'. now left.
  - exfalso. apply H. now left.
  - destruct (IH x') as [-> ->]; auto.
Qed.

(** ** the counting loop numbers the occurrences *)
Definition numbering (names : list str) : list nat :=
  map (fun i => occ (firstn (S i) names) (nth i names [])) (seq 0 (length names)).

Lemma get_put {V} d k (v : V) k' : get (put d k v) k' = if str_eqb k' k then Some v else get d k'.
Proof.
  induction d as [|[a w] d IH]; cbn.
  - destruct (str_eqb_spec k' k); reflexivity.
  - destruct (str_eqb_spec k a); cbn.
    + subst a. destruct (str_eqb_spec k' k); reflexivity.
    + rewrite IH. destruct (str_eqb_spec k' a), (str_eqb_spec k' k); subst; congruence.
Qed.

Lemma occ_app l1 l2 x : occ (l1 ++ l2) x = occ l1 x + occ l2 x.
Proof. apply count_occ_app. Qed.
Lemma occ_one x : occ [x] x = 1.
Proof. unfold occ. cbn. destruct (str_eq_dec x x); congruence. Qed.
Lemma occ_pos l x : In x l <-> 0 < occ l x.
Proof. unfold occ. rewrite (count_occ_In str_eq_dec). lia. Qed.

Lemma numbering_snoc l x : numbering (l ++ [x]) = numbering l ++ [occ (l ++ [x]) x].
Proof.
  unfold numbering. rewrite app_length. cbn [length]. rewrite Nat.add_1_r, seq_S, map_app. cbn [map].
  f_equal.
  - apply map_ext_in. intros i Hi. apply in_seq in Hi. rewrite app_nth1 by lia.
    rewrite firstn_app. replace (S i - length l) with 0 by lia. rewrite firstn_O, app_nil_r. reflexivity.
  - cbn [Nat.add]. rewrite app_nth2, Nat.sub_diag by lia. cbn [nth].
    rewrite firstn_all2 by (rewrite app_length; cbn; lia). reflexivity.
Qed.

Lemma count_loop names :
  exists ns counter, fold_left count_step names ([], [], []) = (ns, counter, numbering names) /\
  (forall x, In x ns <-> In x names) /\
  (forall x, In x names -> get counter x = Some (occ names x)).
Proof.
  induction names as [|x names IH] using rev_ind.
  - exists [], []. cbn. repeat split; auto; tauto.
  - destruct IH as (ns & counter & E & Hns & Hc). rewrite fold_left_app. cbn [fold_left]. rewrite E.
    unfold count_step. rewrite numbering_snoc.
    destruct (str_in x ns) eqn:Ein.
    + apply str_in_spec in Ein. apply Hns in Ein. rewrite (Hc x Ein).
      assert (Hx : occ (names ++ [x]) x = S (occ names x)).
      { rewrite occ_app. unfold occ at 2. cbn. destruct (str_eq_dec x x); [lia|congruence]. }
      exists ns, (put counter x (S (occ names x))). rewrite Hx. split; [reflexivity|]. split.
      * intros y. rewrite Hns, in_app_iff. cbn. intuition congruence.
      * intros y Hy. rewrite get_put. destruct (str_eqb_spec y x) as [->|Ne]; [congruence|].
        rewrite in_app_iff in Hy. cbn in Hy. destruct Hy as [Hy|[Hy|[]]]; [|congruence].
        rewrite Hc by exact Hy. f_equal. rewrite occ_app. unfold occ at 3. cbn.
        destruct (str_eq_dec x y); [congruence|lia].
    + assert (Hn : ~ In x names) by (rewrite <- Hns, <- str_in_spec; congruence).
      assert (Hx : occ (names ++ [x]) x = 1).
      { rewrite occ_app. unfold occ at 2. cbn. destruct (str_eq_dec x x); [|congruence].
        rewrite occ_pos in Hn. lia. }
      exists (ns ++ [x]), (put counter x 1). rewrite Hx. split; [reflexivity|]. split.
      * intros y. rewrite !in_app_iff, Hns. tauto.
      * intros y Hy. rewrite get_put. destruct (str_eqb_spec y x) as [->|Ne]; [now rewrite Hx|].
        rewrite in_app_iff in Hy. cbn in Hy. destruct Hy as [Hy|[Hy|[]]]; [|congruence].
        rewrite Hc by exact Hy. f_equal. rewrite occ_app. unfold occ at 3. cbn.
        destruct (str_eq_dec x y); [congruence|lia].
Qed.

Lemma suffixes_n_spec names : suffixes_n names = numbering names.
Proof. unfold suffixes_n. destruct (count_loop names) as (ns & c & -> & _). reflexivity. Qed.
Lemma numbering_length names : length (numbering names) = length names.
Proof. unfold numbering. now rewrite map_length, seq_length. Qed.
Lemma nth_numbering names i : i < length names -> nth i (numbering names) 0 = occ (firstn (S i) names) (nth i names []).
Proof.
  intros H. unfold numbering. set (f := fun i => occ (firstn (S i) names) (nth i names [])).
  rewrite (nth_indep _ 0 (f 0)) by (rewrite map_length, seq_length; lia).
  rewrite (map_nth f), seq_nth by lia. reflexivity.
Qed.
Lemma firstn_S_nth l i : i < length l -> firstn (S i) l = firstn i l ++ [nth i l ([] : str)].
Proof.
  revert i. induction l as [|x l IH]; cbn; intros i H; [lia|].
  destruct i as [|i]; [reflexivity|]. cbn. f_equal. apply IH. lia.
Qed.
Lemma numbering_pos names i : i < length names -> 1 <= nth i (numbering names) 0.
Proof.
  intros H. rewrite nth_numbering by exact H. rewrite firstn_S_nth by exact H.
  rewrite occ_app. unfold occ at 2. cbn. destruct (str_eq_dec (nth i names []) (nth i names [])); [lia|congruence].
Qed.
Lemma occ_firstn_mono l x i j : i <= j -> occ (firstn i l) x <= occ (firstn j l) x.
Proof.
  intros H. assert (E : firstn j l = firstn i (firstn j l) ++ skipn i (firstn j l)) by (symmetry; apply firstn_skipn).
  rewrite E, occ_app, firstn_firstn. replace (Nat.min i j) with i by lia. lia.
Qed.
(** two occurrences of the same name get different numbers *)
Lemma numbering_distinct names i j : i < j -> j < length names -> nth i names [] = nth j names [] ->
  nth i (numbering names) 0 < nth j (numbering names) 0.
Proof.
  intros Hij Hj E. rewrite (nth_numbering names i), (nth_numbering names j) by lia. rewrite E.
  rewrite (firstn_S_nth names j) by lia. rewrite occ_app.
  pose proof (occ_firstn_mono names (nth j names []) (S i) j ltac:(lia)).
  rewrite occ_one. lia.
Qed.

Lemma nth_build names latex prime i : i < length names ->
  nth i (build_namespace names latex prime) [] = nth i names [] ++ suffix latex prime (nth i (numbering names) 0).
Proof.
  intros H. unfold build_namespace. rewrite suffixes_n_spec.
  set (f := fun p : str * nat => fst p ++ suffix latex prime (snd p)).
  assert (L : length (combine names (numbering names)) = length names) by (rewrite combine_length, numbering_length; lia).
  rewrite (nth_indep _ [] (f ([], 0))) by (rewrite map_length, L; lia).
  rewrite map_nth, combine_nth by (now rewrite numbering_length). reflexivity.
Qed.
Lemma build_length names latex prime : length (build_namespace names latex prime) = length names.
Proof. unfold build_namespace. rewrite map_length, suffixes_n_spec, combine_length, numbering_length. lia. Qed.

(** generic: distinctness from injectivity on (name, number) *)
Lemma NoDup_by_nth {A} (d : A) l : (forall i j, i < j -> j < length l -> nth i l d <> nth j l d) -> NoDup l.
Proof.
  intros H. apply (proj2 (NoDup_nth l d)). intros i j Hi Hj E.
  destruct (lt_eq_lt_dec i j) as [[L|Q]|L]; [exfalso; now apply (H i j)|exact Q|exfalso; apply (H j i); auto].
Qed.

Definition unambiguous (names : list str) (latex prime : bool) : Prop :=
  forall a b n m, In a names -> In b names -> 1 <= n -> 1 <= m ->
    a ++ suffix latex prime n = b ++ suffix latex prime m -> a = b /\ n = m.

Lemma build_nodup names latex prime : unambiguous names latex prime -> NoDup (build_namespace names latex prime).
Proof.
  intros U. apply (NoDup_by_nth []). rewrite build_length. intros i j Hij Hj E.
  rewrite (nth_build names latex prime i), (nth_build names latex prime j) in E by lia.
  apply U in E; try (apply nth_In; lia); try (apply numbering_pos; lia).
  destruct E as [E1 E2]. pose proof (numbering_distinct names i j Hij Hj E1). lia.
Qed.

Lemma repeat_quote_S k : repeat quote (S k) = repeat quote k ++ [quote].
Proof. cbn. apply repeat_cons. Qed.
Lemma repeat_quote_app a b n m : ~ ends_with_prime a -> ~ ends_with_prime b ->
  a ++ repeat quote n = b ++ repeat quote m -> a = b /\ n = m.
Proof.
  revert m. induction n as [|n IH]; intros m Ha Hb E.
  - cbn in E. rewrite app_nil_r in E. destruct m as [|m]; [cbn in E; rewrite app_nil_r in E; auto|].
    exfalso. apply Ha. exists (b ++ repeat quote m). now rewrite <- app_assoc, <- repeat_quote_S.
  - destruct m as [|m].
    + exfalso. apply Hb. exists (a ++ repeat quote n). rewrite <- app_assoc, <- repeat_quote_S.
      rewrite E. cbn. now rewrite app_nil_r.
    + rewrite !repeat_quote_S, !app_assoc in E. apply app_inj_tail in E. destruct E as [E _].
      destruct (IH m Ha Hb E). split; congruence.
Qed.

Lemma unambiguous_prime names latex : Forall (fun s => ~ ends_with_prime s) names -> unambiguous names latex true.
Proof.
  rewrite Forall_forall. intros H a b n m Ha Hb Hn Hm E. unfold suffix in E.
  apply repeat_quote_app in E; auto. destruct E as [-> E]. split; [reflexivity|lia].
Qed.

Lemma unambiguous_num names : Forall (fun s => ~ looks_numbered s) names -> unambiguous names false false.
Proof.
  rewrite Forall_forall. intros H a b n m Ha Hb Hn Hm E. unfold suffix in E.
  destruct (Nat.ltb_spec 1 n), (Nat.ltb_spec 1 m).
  - apply split_last in E; try (apply digit_not, under_not_digit).
    destruct E as [-> E]. apply nat_str_inj in E. auto.
  - rewrite app_nil_r in E. exfalso. apply (H b Hb). exists a, n. split; [lia|auto].
  - rewrite app_nil_r in E. exfalso. apply (H a Ha). exists b, m. split; [lia|auto].
  - rewrite !app_nil_r in E. split; [exact E|lia].
Qed.

(** ** labels of a fit *)
Definition bracket : ascii := "["%char.
Definition fit_name1 (c d : str) (n : nat) : str :=
  add_suffix1 false (add_suffix1 true c (if 1 <? n then nat_str n else [])) d.
Lemma nat_str_nonempty n : 1 < n -> nat_str n <> [].
Proof.
  intros H E. assert (E' : nat_str n = uint_str Nil) by exact E. apply uint_str_inj in E'.
  pose proof (Unsigned.of_to n) as Q. rewrite E' in Q. cbn in Q. lia.
Qed.
Lemma sub_suffix c n : add_suffix1 true c (if 1 <? n then nat_str n else []) = c ++ suffix false false n.
Proof.
  unfold suffix. destruct (Nat.ltb_spec 1 n) as [H|H]; cbn [add_suffix1].
  - pose proof (nat_str_nonempty n H). unfold add_suffix1. destruct (nat_str n); [congruence|reflexivity].
  - now rewrite app_nil_r.
Qed.

Lemma fit_names_nth comps i : i < length comps ->
  nth i (fit_names comps) [] =
  fit_name1 (fst (nth i comps ([], []))) (snd (nth i comps ([], [])))
            (nth i (numbering (map (fun p => fst p ++ snd p) comps)) 0).
Proof.
  intros H. unfold fit_names, add_suffix, suffix_num. rewrite suffixes_n_spec.
  set (key := map (fun p : str * str => fst p ++ snd p) comps).
  assert (LK : length key = length comps) by (unfold key; now rewrite map_length).
  set (nums := numbering key). assert (LN : length nums = length comps) by (unfold nums; now rewrite numbering_length).
  set (g := fun p : str * str => add_suffix1 true (fst p) (snd p)).
  set (f := fun p : str * str => add_suffix1 false (fst p) (snd p)).
  set (h := fun n => if 1 <? n then nat_str n else []).
  assert (L1 : length (map g (combine (map fst comps) (map h nums))) = length comps).
  { rewrite map_length, combine_length, !map_length, LN. lia. }
  rewrite (nth_indep _ [] (f ([], []))) by (rewrite map_length, combine_length, L1, map_length; lia).
  rewrite map_nth, combine_nth by (rewrite L1, map_length; reflexivity).
  unfold f at 1. cbn [fst snd]. unfold fit_name1. f_equal.
  - rewrite (nth_indep _ [] (g ([], []))) by (rewrite L1; lia). rewrite map_nth.
    rewrite combine_nth by (rewrite !map_length, LN; reflexivity). unfold g at 1. cbn [fst snd].
    f_equal.
    + change (@nil ascii) with (fst (@nil ascii, @nil ascii)) at 1. now rewrite map_nth.
    + change (@nil ascii) with (h 0) at 1. now rewrite map_nth.
  - change (@nil ascii) with (snd (@nil ascii, @nil ascii)) at 1. now rewrite map_nth.
Qed.

Lemma suffix_no_bracket n : ~ In bracket (suffix false false n).
Proof.
  unfold suffix. destruct (1 <? n); [|auto]. intros [H|H]; [discriminate|].
  revert H. apply digit_not. unfold is_digit, bracket; cbn. intuition discriminate.
Qed.

Lemma fit_name1_inj c d n c' d' n' : ~ In bracket c -> ~ In bracket c' ->
  ~ looks_numbered c -> ~ looks_numbered c' -> 1 <= n -> 1 <= n' ->
  fit_name1 c d n = fit_name1 c' d' n' -> c = c' /\ d = d' /\ n = n'.
Proof.
  intros Bc Bc' Lc Lc' Hn Hn' E. unfold fit_name1 in E. rewrite !sub_suffix in E.
  assert (X : ~ In bracket (c ++ suffix false false n)).
  { rewrite in_app_iff. pose proof (suffix_no_bracket n). tauto. }
  assert (X' : ~ In bracket (c' ++ suffix false false n')).
  { rewrite in_app_iff. pose proof (suffix_no_bracket n'). tauto. }
  assert (Y : c ++ suffix false false n = c' ++ suffix false false n' /\ d = d').
  { destruct d as [|x d], d' as [|x' d']; cbn [add_suffix1] in E.
    - auto.
    - exfalso. apply X. rewrite E. apply in_or_app. right. now left.
    - exfalso. apply X'. rewrite <- E. apply in_or_app. right. now left.
    - apply split_first in E; auto. destruct E as [E1 E2]. split; [exact E1|].
      change ((x :: d) ++ ["]"%char] = (x' :: d') ++ ["]"%char]) in E2. apply app_inj_tail in E2. tauto. }
  destruct Y as [Y ->].
  assert (U : unambiguous [c; c'] false false).
  { apply unambiguous_num. repeat constructor; auto. }
  apply U in Y; cbn; auto. destruct Y; auto.
Qed.

Lemma fit_names_length comps : length (fit_names comps) = length comps.
Proof.
  unfold fit_names, add_suffix, suffix_num. rewrite suffixes_n_spec.
  repeat (rewrite ?map_length, ?combine_length, ?numbering_length). lia.
Qed.

Lemma fit_names_nodup comps :
  Forall (fun p => ~ In bracket (fst p) /\ ~ looks_numbered (fst p)) comps -> NoDup (fit_names comps).
Proof.
  rewrite Forall_forall. intros H. apply (NoDup_by_nth []). rewrite fit_names_length. intros i j Hij Hj E.
  rewrite (fit_names_nth comps i), (fit_names_nth comps j) in E by lia.
  set (key := map (fun p : str * str => fst p ++ snd p) comps) in *.
  assert (LK : length key = length comps) by (unfold key; now rewrite map_length).
  destruct (H (nth i comps ([], [])) (nth_In comps ([], []) (Nat.lt_trans _ _ _ Hij Hj))) as [B1 L1].
  destruct (H (nth j comps ([], [])) (nth_In comps ([], []) Hj)) as [B2 L2].
  apply fit_name1_inj in E; auto; try (apply numbering_pos; lia).
  destruct E as (E1 & E2 & E3).
  assert (EK : nth i key [] = nth j key []).
  { unfold key. set (f := fun p : str * str => fst p ++ snd p).
    change (@nil ascii) with (f ([], [])). rewrite !map_nth. unfold f. now rewrite E1, E2. }
  pose proof (numbering_distinct key i j Hij ltac:(lia) EK). lia.
Qed.

(** ** parameter names *)
Definition dot : ascii := "."%char.
Lemma dotted_inj a p b q : ~ In dot p -> ~ In dot q -> a ++ dot :: p = b ++ dot :: q -> a = b /\ p = q.
Proof. intros; now apply (split_last dot). Qed.
Lemma NoDup_app_disj {A} (l1 l2 : list A) : NoDup l1 -> NoDup l2 -> (forall x, In x l1 -> ~ In x l2) -> NoDup (l1 ++ l2).
Proof.
  induction 1 as [|x l Hx _ IH]; cbn; intros H2 HD; [exact H2|].
  constructor; [|apply IH; auto]. rewrite in_app_iff. intros [K|K]; [auto|]. now apply (HD x (or_introl eq_refl)).
Qed.
Lemma In_build names latex prime x : In x (build_namespace names latex prime) ->
  exists a n, In a names /\ x = a ++ suffix latex prime n.
Proof.
  intros H. apply (In_nth _ _ []) in H. destruct H as (i & Hi & <-). rewrite build_length in Hi.
  rewrite nth_build by exact Hi. eauto using nth_In.
Qed.
Lemma param_names_nodup aux assigned :
  Forall (fun s => ~ ends_with_prime s /\ ~ In dot s) aux ->
  NoDup assigned -> Forall (fun p => ~ In dot (snd p)) assigned ->
  NoDup (param_names aux assigned).
Proof.
  intros HA HN HD. rewrite Forall_forall in HA, HD. unfold param_names. apply NoDup_app_disj.
  - apply build_nodup, unambiguous_prime. apply Forall_forall. intros x Hx. now apply HA.
  - clear HA. induction HN as [|[c p] l Hx HN IH]; cbn; [constructor|]. constructor.
    + intros H. apply in_map_iff in H. destruct H as ([c' p'] & E & Hin). cbn in E. symmetry in E.
      apply dotted_inj in E; [|apply (HD (c, p)); now left|apply (HD (c', p')); now right].
      destruct E as [-> ->]. auto.
    + apply IH. intros x H. apply HD. now right.
  - intros x H1 H2. apply In_build in H1. destruct H1 as (a & n & Ha & ->).
    apply in_map_iff in H2. destruct H2 as ([c p] & E & Hin). cbn in E.
    apply (proj2 (HA a Ha)). unfold suffix in E.
    assert (Hdot : In dot (a ++ repeat quote (n - 1))) by (rewrite <- E; apply in_or_app; right; now left).
    apply in_app_iff in Hdot. destruct Hdot as [Hd|Hd]; [exact Hd|]. apply repeat_spec in Hd. discriminate.
Qed.
