From Verif Require Import Base BaseFacts Grouping GroupingProofs.

Definition const_idx (n c : nat) : list nat := map (fun q => q * c) (seq 0 (n / c)).

Lemma In_const_idx n c k : c <> 0 -> k < n ->
  (In k (const_idx n c) <-> k mod c = 0 /\ (n mod c = 0 \/ k <> n - n mod c)).
Proof.
  intros Hc Hk. unfold const_idx. rewrite in_map_iff.
  pose proof (Nat.div_mod n c Hc) as Dn. pose proof (Nat.mod_upper_bound n c Hc) as Bn.
  pose proof (Nat.div_mod k c Hc) as Dk. pose proof (Nat.mod_upper_bound k c Hc) as Bk.
  split.
  - intros (q & <- & Hq). apply in_seq in Hq. split.
    + apply Nat.mod_mul, Hc.
    + right. nia.
  - intros (Hm & Ho). exists (k / c). split; [rewrite Nat.mul_comm; lia|]. apply in_seq. split; [lia|].
    simpl. destruct (le_lt_dec (n / c) (k / c)) as [Hle|Hlt]; [|exact Hlt].
    exfalso. assert (k / c <= n / c) by (apply Nat.div_le_mono; lia).
    assert (E : k / c = n / c) by lia. rewrite E in Dk. lia.
Qed.

Lemma const_idx_sorted n c : c <> 0 -> StronglySorted lt (const_idx n c).
Proof.
  intros Hc. unfold const_idx. generalize 0 as s. induction (n / c) as [|m IH]; intros s; simpl; [constructor|].
  constructor; [apply IH|]. apply Forall_forall; intros x Hx.
  apply in_map_iff in Hx as (q & <- & Hq). apply in_seq in Hq. nia.
Qed.

Lemma const_idx_bound n c : c <> 0 -> Forall (fun i => i < n) (const_idx n c).
Proof.
  intros Hc. apply Forall_forall; intros x Hx. unfold const_idx in Hx.
  apply in_map_iff in Hx as (q & <- & Hq). apply in_seq in Hq.
  pose proof (Nat.div_mod n c Hc). nia.
Qed.

Lemma group_const_flags n c : c <> 0 ->
  group_const n c = Ok (flags_of (const_idx n c) n, true).
Proof.
  intros Hc. unfold group_const. destruct (Nat.eqb_spec c 0); [congruence|].
  f_equal. f_equal. unfold flags_of.
  set (f := fun k => if k mod c =? 0 then 1%Z else (-1)%Z).
  assert (Hn : forall k, k < n -> nth k (map f (seq 0 n)) 0%Z = f k).
  { intros k Hk. rewrite (nth_indep _ _ (f 0)) by (now rewrite map_length, seq_length).
    rewrite map_nth, seq_nth by exact Hk. reflexivity. }
  destruct (Nat.eqb_spec (n mod c) 0) as [E|E]; apply map_ext_in; intros k Hk; apply in_seq in Hk;
    rewrite ?Hn by lia; unfold f; pose proof (In_const_idx n c k Hc ltac:(lia)) as Hi;
    destruct (existsb (Nat.eqb k) (const_idx n c)) eqn:Ex.
  - apply existsb_eqb_In in Ex. destruct (Nat.eqb_spec (k mod c) 0); [reflexivity|tauto].
  - destruct (Nat.eqb_spec (k mod c) 0); [|reflexivity].
    assert (In k (const_idx n c)) by tauto. apply existsb_eqb_In in H. congruence.
  - apply existsb_eqb_In in Ex. destruct (Nat.eqb_spec k (n - n mod c)); [tauto|].
    destruct (Nat.eqb_spec (k mod c) 0); [reflexivity|tauto].
  - destruct (Nat.eqb_spec k (n - n mod c)); [reflexivity|].
    destruct (Nat.eqb_spec (k mod c) 0); [|reflexivity].
    assert (In k (const_idx n c)) by tauto. apply existsb_eqb_In in H. congruence.
Qed.

Lemma const_idx_good n c : 0 < c <= n -> good_idx (const_idx n c) n.
Proof.
  intros Hc. split; [apply const_idx_sorted; lia|]. split; [apply const_idx_bound; lia|]. right.
  unfold const_idx. assert (1 <= n / c) by (apply Nat.div_le_lower_bound; lia).
  destruct (n / c) as [|m]; [lia|]. reflexivity.
Qed.

Lemma pairs_mul c n s m : 
  map (fun p => snd p - fst p) (pairs (map (fun q => q * c) (seq s (S m))) n) =
  repeat c m ++ [n - (s + m) * c].
Proof.
  revert s; induction m as [|m IH]; intros s; [simpl; f_equal; lia|].
  change (seq s (S (S m))) with (s :: seq (S s) (S m)). cbn [map pairs].
  rewrite IH. cbn [hd map seq fst snd repeat app].
  f_equal; [simpl; lia|]. f_equal. f_equal. lia.
Qed.

Lemma group_const_sizes n c : 0 < c <= n ->
  exists fl, group_const n c = Ok (fl, true) /\ valid_flags fl n /\
    forall A (xs : list A), length xs = n ->
      map (@length A) (groups fl xs) = repeat c (n / c - 1) ++ [c + n mod c].
Proof.
  intros Hc. exists (flags_of (const_idx n c) n).
  pose proof (const_idx_good n c Hc) as Hg.
  split; [apply group_const_flags; lia|]. split; [apply good_idx_flags, Hg|].
  intros A xs <-. rewrite good_idx_groups by exact Hg. unfold reduceat. rewrite map_map.
  set (n := length xs) in *.
  transitivity (map (fun p => snd p - fst p) (pairs (const_idx n c) n)).
  { apply map_ext_in; intros p Hp. apply pairs_bounds in Hp as (H1 & H2 & _); [|apply Hg|apply Hg].
    apply slice_length. exact H2. }
  unfold const_idx. assert (1 <= n / c) by (apply Nat.div_le_lower_bound; lia).
  pose proof (Nat.div_mod n c ltac:(lia)).
  destruct (n / c) as [|m]; [lia|]. rewrite pairs_mul. replace (S m - 1) with m by lia.
  f_equal. f_equal. simpl. nia.
Qed.

(** the short-segment corner: no group start at all *)
Lemma group_const_short n c : n < c -> group_const n c = Ok (repeat (-1)%Z n, true).
Proof.
  intros H. rewrite group_const_flags by lia. unfold const_idx. rewrite Nat.div_small by lia.
  unfold flags_of. f_equal. f_equal. simpl. generalize 0 as s.
  induction n as [|n IH]; intros s; simpl; [reflexivity|]. f_equal. apply IH; lia.
Qed.

Lemma groups_all_minus {A} n (xs : list A) : groups (repeat (-1)%Z n) xs = [].
Proof.
  unfold groups. revert xs; induction n as [|n IH]; intros [|x xs]; try reflexivity.
  cbn [repeat ogip]. specialize (IH xs). destruct (ogip (repeat (-1)%Z n) xs) as [pre gs].
  cbn [Z.eqb Z.opp Pos.eqb snd] in *. exact IH.
Qed.
