From Verif Require Import Base.

Lemma slice_0 {A} (l : list A) j : slice 0 j l = firstn j l.
Proof. unfold slice; simpl; now rewrite Nat.sub_0_r. Qed.

Lemma slice_cons {A} (x : A) l i j : slice (S i) (S j) (x :: l) = slice i j l.
Proof. reflexivity. Qed.

Lemma slice_length {A} (l : list A) i j : j <= length l -> length (slice i j l) = j - i.
Proof. intros H; unfold slice; rewrite firstn_length, skipn_length; lia. Qed.

Lemma slice_app {A} (l : list A) i j k :
  i <= j -> j <= k -> slice i j l ++ slice j k l = slice i k l.
Proof.
  revert i j k; induction l as [|x l IH]; intros i j k Hij Hjk.
  - unfold slice; rewrite !skipn_nil, !firstn_nil; reflexivity.
  - destruct i as [|i].
    + rewrite !slice_0. destruct j as [|j].
      * now rewrite slice_0.
      * destruct k as [|k]; [lia|]. rewrite slice_cons; simpl.
        rewrite <- (slice_0 l j), <- (slice_0 l k). now rewrite IH by lia.
    + destruct j as [|j]; [lia|]. destruct k as [|k]; [lia|].
      rewrite !slice_cons. apply IH; lia.
Qed.

Lemma slice_all {A} (l : list A) n : length l <= n -> slice 0 n l = l.
Proof. intros; rewrite slice_0; now apply firstn_all2. Qed.

Lemma slice_nil_eq {A} (l : list A) i : slice i i l = [].
Proof. unfold slice; now rewrite Nat.sub_diag. Qed.

Lemma slice_S {A} (l : list A) i j d : i <= j -> j < length l ->
  slice i (S j) l = slice i j l ++ [nth j l d].
Proof.
  intros Hij Hj. rewrite <- (slice_app l i j (S j)) by lia. f_equal.
  unfold slice. replace (S j - j) with 1 by lia.
  clear Hij. revert j Hj; induction l as [|x l IH]; intros j Hj; simpl in *; [lia|].
  destruct j as [|j]; [reflexivity|]. simpl. apply IH; lia.
Qed.

Lemma sumZ_app l1 l2 : sumZ (l1 ++ l2) = (sumZ l1 + sumZ l2)%Z.
Proof. induction l1; simpl; lia. Qed.

Lemma sumZ_nonneg l : Forall (fun x => 0 <= x)%Z l -> (0 <= sumZ l)%Z.
Proof. induction 1; simpl; lia. Qed.

Lemma Forall_slice {A} (P : A -> Prop) l i j : Forall P l -> Forall P (slice i j l).
Proof.
  intros H; unfold slice. apply Forall_forall; intros x Hx.
  rewrite Forall_forall in H. apply H.
  assert (In x (skipn i l)).
  { rewrite <- (firstn_skipn (j - i) (skipn i l)). apply in_or_app; now left. }
  rewrite <- (firstn_skipn i l). apply in_or_app; now right.
Qed.

(** ** flatnonzero *)
Lemma fnz_ge k l x : In x (fnz k l) -> k <= x.
Proof.
  revert k; induction l as [|b l IH]; simpl; intros k H; [easy|].
  destruct b; simpl in H; [destruct H as [H|H]; [lia|]|]; apply IH in H; lia.
Qed.
Lemma fnz_lt k l x : In x (fnz k l) -> x < k + length l.
Proof.
  revert k; induction l as [|b l IH]; simpl; intros k H; [easy|].
  destruct b; simpl in H; [destruct H as [H|H]; [lia|]|]; apply IH in H; lia.
Qed.
Lemma fnz_sorted k l : StronglySorted lt (fnz k l).
Proof.
  revert k; induction l as [|b l IH]; simpl; intros k; [constructor|].
  destruct b; [|apply IH]. constructor; [apply IH|].
  apply Forall_forall; intros x Hx; apply fnz_ge in Hx; lia.
Qed.
Lemma fnz_in k l x : In x (fnz k l) <-> k <= x < k + length l /\ nth (x - k) l false = true.
Proof.
  revert k; induction l as [|b l IH]; intros k; cbn [fnz length]; [simpl; lia|].
  destruct b; cbn [In]; rewrite IH; split.
  - intros [H|[H1 H2]].
    + subst x. rewrite Nat.sub_diag. simpl; split; [lia|reflexivity].
    + split; [lia|]. replace (x - k) with (S (x - S k)) by lia. exact H2.
  - intros [H1 H2]. destruct (Nat.eq_dec k x) as [E|E]; [now left|right].
    split; [lia|]. replace (x - k) with (S (x - S k)) in H2 by lia. exact H2.
  - intros [H1 H2]. split; [lia|]. replace (x - k) with (S (x - S k)) by lia. exact H2.
  - intros [H1 H2]. destruct (Nat.eq_dec k x) as [E|E].
    + subst x; rewrite Nat.sub_diag in H2; discriminate.
    + split; [lia|]. replace (x - k) with (S (x - S k)) in H2 by lia. exact H2.
Qed.

Lemma sorted_ext (l1 l2 : list nat) :
  StronglySorted lt l1 -> StronglySorted lt l2 -> (forall x, In x l1 <-> In x l2) -> l1 = l2.
Proof.
  intros H1; revert l2; induction H1 as [|a l1 H1 IH Ha]; intros l2 H2 Hi.
  - destruct l2 as [|b l2]; [reflexivity|]. destruct (proj2 (Hi b)); now left.
  - destruct H2 as [|b l2 H2 Hb]. { destruct (proj1 (Hi a)); now left. }
    rewrite Forall_forall in Ha, Hb.
    assert (a = b) as ->.
    { destruct (proj1 (Hi a) (or_introl eq_refl)) as [E|E]; [auto|].
      destruct (proj2 (Hi b) (or_introl eq_refl)) as [E'|E']; [auto|].
      apply Ha in E'; apply Hb in E; lia. }
    f_equal. apply IH; [exact H2|]. intros x; split; intros Hx.
    + destruct (proj1 (Hi x) (or_intror Hx)) as [E|E]; [|exact E].
      subst; apply Ha in Hx; lia.
    + destruct (proj2 (Hi x) (or_intror Hx)) as [E|E]; [|exact E].
      subst; apply Hb in Hx; lia.
Qed.

Lemma flags_of_length idx n : length (flags_of idx n) = n.
Proof. unfold flags_of; now rewrite map_length, seq_length. Qed.

Lemma flags_of_nth idx n k : k < n ->
  nth k (flags_of idx n) 0%Z = (if existsb (Nat.eqb k) idx then 1 else -1)%Z.
Proof.
  intros H; unfold flags_of.
  set (f := fun k : nat => if existsb (Nat.eqb k) idx then 1%Z else (-1)%Z).
  rewrite (nth_indep _ _ (f 0)) by (now rewrite map_length, seq_length).
  rewrite map_nth, seq_nth by exact H. reflexivity.
Qed.

Lemma existsb_eqb_In k idx : existsb (Nat.eqb k) idx = true <-> In k idx.
Proof.
  rewrite existsb_exists; split.
  - intros (x & Hx & E); apply Nat.eqb_eq in E; now subst.
  - intros H; exists k; split; [exact H|apply Nat.eqb_refl].
Qed.

Lemma starts_flags_of idx n :
  StronglySorted lt idx -> Forall (fun i => i < n) idx -> starts (flags_of idx n) = idx.
Proof.
  intros Hs Hb. apply sorted_ext; [apply fnz_sorted|exact Hs|].
  intros x. unfold starts, flatnonzero. rewrite fnz_in, map_length, flags_of_length.
  rewrite Nat.sub_0_r, Nat.add_0_l.
  rewrite Forall_forall in Hb. split.
  - intros [[_ Hx] H].
    rewrite (nth_indep _ _ (negb (Z.eqb 0 (-1)))) in H by (rewrite map_length, flags_of_length; lia).
    rewrite (map_nth (fun f => negb (f =? -1)%Z)), flags_of_nth in H by lia.
    destruct (existsb (Nat.eqb x) idx) eqn:E; [now apply existsb_eqb_In|discriminate].
  - intros H. specialize (Hb _ H). split; [lia|].
    rewrite (nth_indep _ _ (negb (Z.eqb 0 (-1)))) by (rewrite map_length, flags_of_length; lia).
    rewrite (map_nth (fun f => negb (f =? -1)%Z)), flags_of_nth by lia.
    apply existsb_eqb_In in H; now rewrite H.
Qed.

(** ** flags and groups *)
Lemma ogip_spec {A} (fl : list Z) (xs : list A) k :
  length fl = length xs ->
  let l := fnz k (map (fun f => negb (Z.eqb f (-1))) fl) in
  let n := k + length xs in
  ogip fl xs = (firstn (hd n l - k) xs,
                map (fun p => slice (fst p - k) (snd p - k) xs) (pairs l n)).
Proof.
  revert xs k; induction fl as [|f fl IH]; intros [|x xs] k Hl; simpl in Hl; try discriminate.
  { simpl. now rewrite Nat.sub_diag || rewrite Nat.add_0_r, Nat.sub_diag. }
  injection Hl as Hl. cbn [map fnz ogip].
  specialize (IH xs (S k) Hl). cbv zeta in IH.
  set (l := fnz (S k) (map (fun f => negb (f =? -1)%Z) fl)) in *.
  assert (Hge : forall y, In y l -> S k <= y) by (intros y Hy; eapply fnz_ge; exact Hy).
  assert (Hlt : forall y, In y l -> y < S k + length xs).
  { intros y Hy. apply fnz_lt in Hy. rewrite map_length in Hy. lia. }
  cbv zeta. cbn [length].
  replace (k + S (length xs)) with (S k + length xs) by lia.
  rewrite IH. cbn [fst snd].
  assert (Hh : S k <= hd (S k + length xs) l).
  { destruct l as [|a l']; [simpl; lia|]. apply Hge; now left. }
  assert (Hmap : forall m, (forall y, In y m -> S k <= y) ->
     map (fun p => slice (fst p - k) (snd p - k) (x :: xs)) (pairs m (S k + length xs)) =
     map (fun p => slice (fst p - S k) (snd p - S k) xs) (pairs m (S k + length xs))).
  { induction m as [|a m IHm]; intros Hm; [reflexivity|]. cbn [pairs map].
    rewrite IHm by (intros y Hy; apply Hm; now right). f_equal. cbn [fst snd].
    assert (S k <= a) by (apply Hm; now left).
    assert (S k <= hd (S k + length xs) m).
    { destruct m; [simpl; lia|]. apply Hm; right; now left. }
    replace (a - k) with (S (a - S k)) by lia.
    replace (hd (S k + length xs) m - k) with (S (hd (S k + length xs) m - S k)) by lia.
    apply slice_cons. }
  destruct (f =? -1)%Z eqn:E; cbn [negb].
  - rewrite Hmap by exact Hge. f_equal.
    replace (hd (S k + length xs) l - k) with (S (hd (S k + length xs) l - S k)) by lia.
    reflexivity.
  - cbn [hd pairs map fst snd]. rewrite Nat.sub_diag. rewrite Hmap by exact Hge.
    f_equal. f_equal.
    replace (hd (S k + length xs) l - k) with (S (hd (S k + length xs) l - S k)) by lia.
    reflexivity.
Qed.

Lemma groups_reduceat {A} (fl : list Z) (xs : list A) :
  length fl = length xs -> groups fl xs = reduceat (fun g => g) xs (starts fl).
Proof.
  intros H. unfold groups. rewrite (ogip_spec fl xs 0 H). cbn [snd].
  unfold reduceat, starts, flatnonzero. rewrite Nat.add_0_l.
  apply map_ext; intros [a b]; cbn [fst snd]. now rewrite !Nat.sub_0_r.
Qed.

Lemma reduceat_map {A B} (f : list A -> B) xs idx :
  reduceat f xs idx = map f (reduceat (fun g => g) xs idx).
Proof. unfold reduceat; rewrite map_map; now apply map_ext. Qed.

Lemma reduceat_groups {A B} (f : list A -> B) (fl : list Z) (xs : list A) :
  length fl = length xs -> reduceat f xs (starts fl) = map f (groups fl xs).
Proof. intros H; rewrite reduceat_map, groups_reduceat; auto. Qed.

Lemma groups_concat {A} (fl : list Z) (xs : list A) :
  length fl = length xs -> fst (ogip fl xs) ++ concat (groups fl xs) = xs.
Proof.
  revert xs; induction fl as [|f fl IH]; intros [|x xs] H; simpl in H; try discriminate; [reflexivity|].
  injection H as H. specialize (IH xs H). unfold groups in *. cbn [ogip].
  destruct (ogip fl xs) as [pre gs]; cbn [fst snd] in *.
  destruct (f =? -1)%Z; cbn [fst snd concat app]; now rewrite IH.
Qed.

Lemma groups_nonempty {A} (fl : list Z) (xs : list A) :
  Forall (fun g => g <> []) (groups fl xs).
Proof.
  revert xs; induction fl as [|f fl IH]; intros [|x xs]; try (constructor).
  specialize (IH xs). unfold groups in *. cbn [ogip].
  destruct (ogip fl xs) as [pre gs]; cbn [snd] in *.
  destruct (f =? -1)%Z; cbn [snd]; [exact IH|constructor; [discriminate|exact IH]].
Qed.

Lemma valid_no_orphans {A} (fl : list Z) (xs : list A) :
  valid_flags fl (length xs) -> fst (ogip fl xs) = [].
Proof.
  intros (Hl & _ & Hh). destruct fl as [|f fl]; destruct xs as [|x xs]; try reflexivity.
  destruct Hh as [Hh|Hh]; [discriminate|]. simpl in Hh; subst f. cbn [ogip].
  now destruct (ogip fl xs).
Qed.

Lemma groups_partition {A} (fl : list Z) (xs : list A) :
  valid_flags fl (length xs) -> concat (groups fl xs) = xs.
Proof.
  intros H. rewrite <- (groups_concat fl xs) at 2 by apply H.
  now rewrite (valid_no_orphans fl xs H).
Qed.

(** index lists of the shape every routine must produce *)
Definition good_idx (idx : list nat) (n : nat) : Prop :=
  StronglySorted lt idx /\ Forall (fun i => i < n) idx /\ (n = 0 \/ hd_error idx = Some 0).

Lemma good_idx_flags idx n : good_idx idx n -> valid_flags (flags_of idx n) n.
Proof.
  intros (Hs & Hb & Hh). split; [apply flags_of_length|]. split.
  - apply Forall_forall; intros f Hf. unfold flags_of in Hf.
    apply in_map_iff in Hf as (k & E & _). destruct (existsb _ _); subst; auto.
  - destruct Hh as [Hh|Hh]; [now left|]. destruct n as [|n]; [now left|]. right.
    destruct idx as [|i idx]; [discriminate|]. injection Hh as ->. reflexivity.
Qed.

Lemma good_idx_groups {A} idx (xs : list A) : good_idx idx (length xs) ->
  groups (flags_of idx (length xs)) xs = reduceat (fun g => g) xs idx.
Proof.
  intros (Hs & Hb & _). rewrite groups_reduceat by apply flags_of_length.
  now rewrite starts_flags_of.
Qed.

(** sorted pairs *)
Lemma pairs_bounds idx n p : StronglySorted lt idx -> Forall (fun i => i < n) idx ->
  In p (pairs idx n) -> fst p < snd p /\ snd p <= n /\ In (fst p) idx.
Proof.
  intros Hs; revert p; induction Hs as [|a l Hs IH Ha]; intros p Hb Hp; [easy|].
  inversion Hb as [|? ? Han Hb']; subst. cbn [pairs] in Hp. destruct Hp as [Hp|Hp].
  - subst p; cbn [fst snd]. destruct l as [|b l]; cbn [hd].
    + split; [lia|]. split; [lia|now left].
    + inversion Ha; inversion Hb'; subst. split; [lia|]. split; [lia|now left].
  - destruct (IH p Hb' Hp) as (H1 & H2 & H3). split; [exact H1|]. split; [exact H2|now right].
Qed.

Lemma pairs_length idx n : length (pairs idx n) = length idx.
Proof. induction idx; simpl; auto. Qed.

Lemma pairs_app idx a n : pairs (idx ++ [a]) n = pairs idx a ++ [(a, n)].
Proof.
  induction idx as [|i idx IH]; [reflexivity|]. cbn [app pairs]. rewrite IH.
  destruct idx; reflexivity.
Qed.

(** ** bins *)
Lemma starts_sorted fl : StronglySorted lt (starts fl).
Proof. apply fnz_sorted. Qed.
Lemma starts_bound fl : Forall (fun i => i < length fl) (starts fl).
Proof.
  apply Forall_forall; intros x Hx. apply fnz_lt in Hx. rewrite map_length in Hx. lia.
Qed.
Lemma starts_hd fl n : valid_flags fl n -> n = 0 \/ hd_error (starts fl) = Some 0.
Proof.
  intros (Hl & Hf & Hh). destruct Hh as [Hh|Hh]; [now left|].
  destruct fl as [|f fl]; [now left|]. right. simpl in Hh. subst f. reflexivity.
Qed.
Lemma starts_good fl n : valid_flags fl n -> good_idx (starts fl) n.
Proof.
  intros H. split; [apply starts_sorted|]. split.
  - destruct H as (<- & _). apply starts_bound.
  - now apply starts_hd.
Qed.

Lemma groups_length {A} fl (xs : list A) : length fl = length xs ->
  length (groups fl xs) = length (starts fl).
Proof. intros H. rewrite groups_reduceat by exact H. unfold reduceat. now rewrite map_length, pairs_length. Qed.

Lemma slice_seq i j k n : i <= j -> j <= n -> slice i j (seq k n) = seq (k + i) (j - i).
Proof.
  intros Hi Hj. unfold slice.
  assert (Hs : forall i k n, i <= n -> skipn i (seq k n) = seq (k + i) (n - i)).
  { induction i0 as [|i0 IH]; intros k0 n0 H0; simpl.
    - now rewrite Nat.add_0_r, Nat.sub_0_r.
    - destruct n0 as [|n0]; [lia|]. simpl. rewrite IH by lia. f_equal; lia. }
  assert (Hf : forall m k n, m <= n -> firstn m (seq k n) = seq k m).
  { induction m as [|m IH]; intros k0 n0 H0; simpl; [reflexivity|].
    destruct n0 as [|n0]; [lia|]. simpl. now rewrite IH by lia. }
  rewrite Hs by lia. apply Hf. lia.
Qed.

Lemma last_seq k n d : 0 < n -> last (seq k n) d = k + n - 1.
Proof.
  revert k; induction n as [|n IH]; intros k H; [lia|]. destruct n as [|n]; [simpl; lia|].
  change (seq k (S (S n))) with (k :: seq (S k) (S n)).
  change (last (k :: seq (S k) (S n)) d) with (last (seq (S k) (S n)) d).
  rewrite IH by lia. lia.
Qed.

Lemma bins_pairs fl : bins fl = pairs (starts fl) (length fl).
Proof.
  unfold bins. rewrite groups_reduceat by (now rewrite seq_length).
  unfold reduceat. rewrite seq_length, map_map.
  rewrite <- (map_id (pairs (starts fl) (length fl))) at 2.
  apply map_ext_in. intros [a b] Hp.
  apply pairs_bounds in Hp as (H1 & H2 & _); [|apply starts_sorted|apply starts_bound].
  cbn [fst snd] in *. rewrite slice_seq by lia. cbn [Nat.add].
  destruct (b - a) as [|m] eqn:E; [lia|]. rewrite last_seq by lia. cbn [seq hd]. f_equal. lia.
Qed.

Lemma bins_flags_of idx n : good_idx idx n -> bins (flags_of idx n) = pairs idx n.
Proof.
  intros (H1 & H2 & _). rewrite bins_pairs, flags_of_length. now rewrite starts_flags_of.
Qed.

Lemma groups_bins {A} fl (xs : list A) : length fl = length xs ->
  groups fl xs = map (fun p => slice (fst p) (snd p) xs) (bins fl).
Proof.
  intros H. rewrite groups_reduceat by exact H. unfold reduceat. now rewrite bins_pairs, H.
Qed.
