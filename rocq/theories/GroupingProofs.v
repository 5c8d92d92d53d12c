From Verif Require Import Base BaseFacts Grouping.

(** * The greedy scan *)

(** no prefix of the bin starting at [a] and ending strictly before [b] passes *)
Definition none_before (ok : nat -> nat -> bool) (a b : nat) : Prop :=
  forall c, a < c -> c < b -> ok a c = false.

(** shape of the index list after a scan up to (excluding) channel [i]:
    closed bins are minimal and pass, the open bin starts at [start] *)
Definition closed_ok (ok : nat -> nat -> bool) (idx : list nat) (n : nat) : Prop :=
  Forall (fun p => ok (fst p) (snd p) = true /\ none_before ok (fst p) (snd p))
         (removelast (pairs idx n)).

Inductive scan_inv (ok : nat -> nat -> bool) (start i : nat) (idx : list nat) : Prop :=
| scan_inv_intro pre :
    idx = pre ++ [start] ->
    StronglySorted lt idx ->
    hd_error idx = Some 0 ->
    start <= i ->
    Forall (fun p => ok (fst p) (snd p) = true /\ none_before ok (fst p) (snd p)) (pairs pre start) ->
    none_before ok start (S i) ->
    scan_inv ok start i idx.

(** what the scan guarantees *)
Definition scan_result (ok : nat -> nat -> bool) (idx : list nat) (n : nat) : Prop :=
  good_idx idx n /\ 
  exists pre last,
    idx = pre ++ [last] /\
    Forall (fun p => ok (fst p) (snd p) = true /\ none_before ok (fst p) (snd p)) (pairs pre last) /\
    ((none_before ok last n /\ (ok last n = true \/ pre = []))
     \/ (exists m, last < m < n /\ ok last m = true /\ none_before ok last m /\
          none_before ok m (S n))).

Lemma SSorted_app_inv l1 (l2 : list nat) : StronglySorted lt (l1 ++ l2) ->
  StronglySorted lt l1 /\ StronglySorted lt l2 /\ (forall x y, In x l1 -> In y l2 -> x < y).
Proof.
  induction l1 as [|a l1 IH]; simpl; intros H.
  - split; [constructor|]. split; [exact H|]. intros x y [].
  - inversion H as [|? ? H1 H2]; subst. destruct (IH H1) as (A & B & C).
    rewrite Forall_forall in H2. split; [|split].
    + constructor; [exact A|]. apply Forall_forall; intros x Hx; apply H2, in_or_app; now left.
    + exact B.
    + intros x y [->|Hx] Hy; [apply H2, in_or_app; now right|now apply C].
Qed.

Lemma SSorted_snoc l (a : nat) : StronglySorted lt l -> (forall x, In x l -> x < a) ->
  StronglySorted lt (l ++ [a]).
Proof.
  induction 1 as [|b l H IH Hb]; intros Ha; simpl; [repeat constructor|].
  constructor; [apply IH; intros; apply Ha; now right|].
  apply Forall_app; split; [exact Hb|]. constructor; [apply Ha; now left|constructor].
Qed.

Lemma removelast_snoc {A} (l : list A) x : removelast (l ++ [x]) = l.
Proof. apply removelast_last. Qed.

Lemma good_idx_of_sorted idx n : StronglySorted lt idx -> hd_error idx = Some 0 ->
  (forall x, In x idx -> x < n) -> good_idx idx n.
Proof.
  intros H1 H2 H3. split; [exact H1|]. split; [now apply Forall_forall|now right].
Qed.

Lemma sig_loop_spec ok k : forall i start idx n,
  scan_inv ok start i idx -> n = i + k -> 0 < k ->
  scan_result ok (sig_loop ok k i (n - 1) start idx) n.
Proof.
  induction k as [|k IH]; intros i start idx n Hinv Hn Hk; [lia|].
  destruct Hinv as [pre Eidx Hs Hh Hsi Hcl Hno]. cbn [sig_loop].
  assert (Hlast : forall x, In x idx -> x <= start).
  { intros x Hx. rewrite Eidx in Hx, Hs. apply in_app_or in Hx as [Hx|[Hx|[]]]; [|lia].
    apply SSorted_app_inv in Hs as (_ & _ & Hc). specialize (Hc x start Hx (or_introl eq_refl)). lia. }
  destruct (i =? n - 1) eqn:Ei.
  - apply Nat.eqb_eq in Ei. assert (k = 0) by lia. subst k. assert (En : n = S i) by lia. clear Hn Ei. subst n.
    destruct (negb (ok start (S i)) && (1 <? length idx))%bool eqn:Eb.
    + apply andb_true_iff in Eb as (Eb & El). apply negb_true_iff in Eb. apply Nat.ltb_lt in El.
      rewrite Eidx, removelast_snoc.
      destruct (rev pre) as [|m rp] eqn:Er.
      { assert (pre = []) by (rewrite <- (rev_involutive pre), Er; reflexivity). subst pre.
        rewrite Eidx in El; simpl in El; lia. }
      assert (Ep : pre = rev rp ++ [m]) by (rewrite <- (rev_involutive pre), Er; reflexivity).
      rewrite Eidx in Hs. pose proof (SSorted_app_inv _ _ Hs) as (Hsp & _ & Hlt).
      assert (Hm : m < start).
      { apply Hlt; [rewrite Ep; apply in_or_app; right; now left|now left]. }
      assert (Hcl' := Hcl). rewrite Ep, pairs_app in Hcl'.
      apply Forall_app in Hcl' as (Hcl1 & Hcl2). apply Forall_inv in Hcl2. cbn [fst snd] in Hcl2.
      split.
      * apply good_idx_of_sorted; [exact Hsp| |].
        { rewrite Eidx in Hh. destruct pre; [destruct (rev rp); discriminate|exact Hh]. }
        { intros x Hx. specialize (Hlt x start Hx (or_introl eq_refl)). lia. }
      * exists (rev rp), m. split; [exact Ep|]. split; [exact Hcl1|].
        right. exists start. split; [lia|]. split; [apply Hcl2|]. split; [apply Hcl2|].
        intros c Hc1 Hc2. destruct (Nat.eq_dec c (S i)) as [->|]; [exact Eb|]. apply Hno; lia.
    + split.
      * apply good_idx_of_sorted; [exact Hs|exact Hh|]. intros x Hx; apply Hlast in Hx; lia.
      * exists pre, start. split; [exact Eidx|]. split; [exact Hcl|]. left.
        split; [exact Hno|]. apply andb_false_iff in Eb as [Eb|Eb].
        -- left. now apply negb_false_iff in Eb.
        -- right. apply Nat.ltb_ge in Eb. rewrite Eidx, app_length in Eb. simpl in Eb.
           destruct pre; [reflexivity|simpl in Eb; lia].
  - apply Nat.eqb_neq in Ei. destruct (ok start (S i)) eqn:Eo.
    + apply IH; [|lia|lia]. apply scan_inv_intro with (pre := idx).
      * reflexivity.
      * apply SSorted_snoc; [exact Hs|]. intros x Hx; apply Hlast in Hx; lia.
      * destruct idx; [discriminate|exact Hh].
      * lia.
      * rewrite Eidx, pairs_app. apply Forall_app; split; [exact Hcl|].
        constructor; [|constructor]. cbn [fst snd]. split; [exact Eo|exact Hno].
      * intros c H1 H2; lia.
    + apply IH; [|lia|lia]. apply scan_inv_intro with (pre := pre); try assumption; [lia|].
      intros c H1 H2. destruct (Nat.eq_dec c (S i)) as [->|]; [exact Eo|]. apply Hno; lia.
Qed.

Lemma sig_scan_spec ok n : 0 < n -> scan_result ok (sig_scan ok n) n.
Proof.
  intros Hn. unfold sig_scan. apply sig_loop_spec; [|lia|exact Hn].
  apply scan_inv_intro with (pre := []); try reflexivity.
  - repeat constructor.
  - constructor.
  - intros c H1 H2; lia.
Qed.

(** * [group_min] is the scan with the count test *)
Definition ok_min (data : list Z) (n : Z) (a b : nat) : bool := (n <=? sumZ (slice a b data))%Z.

Lemma skipn_cons_inv {A} (l : list A) i x r d : skipn i l = x :: r ->
  i < length l /\ nth i l d = x /\ skipn (S i) l = r.
Proof.
  revert i; induction l as [|y l IH]; intros [|i] H; simpl in H; try discriminate.
  - injection H as -> ->. split; [simpl; lia|]. split; reflexivity.
  - destruct (IH i H) as (A1 & A2 & A3). split; [simpl; lia|]. split; [exact A2|exact A3].
Qed.

Lemma min_loop_sig data n : forall rest i start idx,
  start <= i -> skipn i data = rest ->
  min_loop rest i (length data - 1) n (sumZ (slice start i data)) idx =
  sig_loop (ok_min data n) (length rest) i (length data - 1) start idx.
Proof.
  induction rest as [|x rest IH]; intros i start idx Hsi Hd; [reflexivity|].
  cbn [min_loop sig_loop length].
  destruct (skipn_cons_inv data i x rest 0%Z Hd) as (Hlt & Hx & HdS).
  assert (Esum : (sumZ (slice start i data) + x)%Z = sumZ (slice start (S i) data)).
  { rewrite (slice_S data start i 0%Z) by lia. rewrite sumZ_app, Hx; simpl; lia. }
  rewrite Esum. unfold ok_min at 1 2.
  set (S1 := sumZ (slice start (S i) data)).
  assert (Hneg : (S1 <? n)%Z = negb (n <=? S1)%Z) by (destruct (Z.ltb_spec S1 n); destruct (Z.leb_spec n S1); simpl; lia).
  destruct (i =? length data - 1) eqn:Ei.
  - rewrite Hneg. reflexivity.
  - destruct (n <=? S1)%Z eqn:Eo.
    + rewrite <- (IH (S i) (S i) (idx ++ [S i])); [|lia|exact HdS].
      now rewrite slice_nil_eq.
    + rewrite <- (IH (S i) start idx); [reflexivity|lia|exact HdS].
Qed.

Lemma min_loop_scan data n :
  min_loop data 0 (length data - 1) n 0%Z [0] = sig_scan (ok_min data n) (length data).
Proof.
  unfold sig_scan. rewrite <- (min_loop_sig data n data 0 0 [0]); [reflexivity|lia|reflexivity].
Qed.


(** * Consequences of the scan *)
Definition mono_right (ok : nat -> nat -> bool) (n : nat) : Prop :=
  forall a b c, a < b -> b <= c -> c <= n -> ok a b = true -> ok a c = true.
Definition mono (ok : nat -> nat -> bool) (n : nat) : Prop :=
  forall a b a' b', a' <= a -> a < b -> b <= b' -> b' <= n -> ok a b = true -> ok a' b' = true.

Lemma mono_mono_right ok n : mono ok n -> mono_right ok n.
Proof. intros H a b c H1 H2 H3; apply H; lia. Qed.

Lemma scan_all_ok ok idx n : 0 < n -> mono_right ok n -> scan_result ok idx n ->
  ok 0 n = true -> Forall (fun p => ok (fst p) (snd p) = true) (pairs idx n).
Proof.
  intros Hn Hm ((Hs & Hb & Hh) & pre & last & -> & Hcl & Hend) Htot.
  rewrite pairs_app. apply Forall_app; split.
  - eapply Forall_impl; [|exact Hcl]. intros p [H _]; exact H.
  - constructor; [|constructor]. cbn [fst snd]. destruct Hend as [(_ & [H|H])|(m & Hm1 & Hm2 & _)].
    + exact H.
    + subst pre. simpl in Hh. destruct Hh as [Hh|Hh]; [lia|]. injection Hh as ->. exact Htot.
    + apply (Hm last m n); try lia; exact Hm2.
Qed.

Lemma scan_minimal ok idx n : scan_result ok idx n ->
  Forall (fun p => ok (fst p) (snd p) = true /\ none_before ok (fst p) (snd p)) (removelast (pairs idx n)).
Proof.
  intros (_ & pre & last & -> & Hcl & _). rewrite pairs_app, removelast_snoc. exact Hcl.
Qed.

Lemma scan_optimal_aux ok n : mono ok n -> forall pre last s,
  hd_error (pre ++ [last]) = Some s ->
  Forall (fun p => ok (fst p) (snd p) = true /\ none_before ok (fst p) (snd p)) (pairs pre last) ->
  ((none_before ok last n /\ (ok last n = true \/ pre = []))
     \/ (exists m, last < m < n /\ ok last m = true /\ none_before ok last m /\
          none_before ok m (S n))
   \/ none_before ok last n) ->
  forall cs s', StronglySorted lt (s' :: cs) -> Forall (fun i => i < n) (s' :: cs) -> s <= s' ->
  Forall (fun p => ok (fst p) (snd p) = true) (pairs (s' :: cs) n) ->
  length (s' :: cs) <= length (pre ++ [last]).
Proof.
  intros Hm. induction pre as [|p0 pre IH]; intros last s Hh Hcl Hend cs s' Hs Hb Hss Hok.
  - simpl in Hh. injection Hh as <-.
    destruct cs as [|t cs]; [simpl; lia|exfalso].
    inversion Hs as [|? ? Hs1 Hs2]; subst. inversion Hs2; subst.
    inversion Hb as [|? ? Hb1 Hb2]; subst. inversion Hb2 as [|? ? Hb3 Hb4]; subst.
    cbn [pairs hd] in Hok. inversion Hok as [|? ? Ho1 Ho2]; subst. cbn [fst snd] in Ho1.
    inversion Ho2 as [|? ? Ho3 _]; subst. cbn [fst snd] in Ho3.
    set (u := hd n cs) in *.
    assert (Hu : t < u /\ u <= n).
    { subst u. destruct cs as [|u cs]; simpl; [lia|]. inversion Hs1 as [|? ? ? Hs4]; subst.
      inversion Hs4; subst. inversion Hb4; subst. lia. }
    assert (Hst : ok last t = true) by (apply (Hm s' t last t); try lia; exact Ho1).
    assert (Hnb : none_before ok last n -> False).
    { intros H. rewrite H in Hst by lia. discriminate. }
    destruct Hend as [(H & _)|[(m & Hm1 & Hm2 & Hm3 & Hm4)|H]]; [tauto| |tauto].
    assert (m <= t).
    { destruct (le_lt_dec m t) as [|Hlt]; [assumption|]. rewrite Hm3 in Hst by lia. discriminate. }
    assert (Hmu : ok m u = true) by (apply (Hm t u m u); try lia; exact Ho3).
    rewrite Hm4 in Hmu by lia. discriminate.
  - simpl in Hh. injection Hh as ->.
    destruct cs as [|t cs]; [simpl; lia|].
    cbn [pairs] in Hcl. inversion Hcl as [|? ? Hc1 Hc2]; subst. cbn [fst snd] in Hc1.
    destruct Hc1 as (Hc1 & Hc1').
    cbn [pairs hd] in Hok. inversion Hok as [|? ? Ho1 Ho2]; subst. cbn [fst snd] in Ho1.
    inversion Hs as [|? ? Hs1 Hs2]; subst. inversion Hs2; subst.
    inversion Hb as [|? ? Hb1 Hb2]; subst. inversion Hb2 as [|? ? Hb3 Hb4]; subst.
    assert (Hst : ok s t = true) by (apply (Hm s' t s t); try lia; exact Ho1).
    set (g := hd last pre) in *.
    assert (Hgt : g <= t).
    { destruct (le_lt_dec g t) as [|Hlt]; [assumption|]. rewrite Hc1' in Hst by lia. discriminate. }
    cbn [app length]. apply le_n_S.
    change (S (length cs)) with (length (t :: cs)).
    apply (IH last g); try assumption.
    + subst g. destruct pre; reflexivity.
    + destruct Hend as [(Hx1 & _)|[H|H]]; auto.
Qed.

Lemma scan_optimal ok n idx : mono ok n -> 0 < n -> scan_result ok idx n ->
  forall idx', good_idx idx' n -> Forall (fun p => ok (fst p) (snd p) = true) (pairs idx' n) ->
  length idx' <= length idx.
Proof.
  intros Hm Hn ((Hs & Hb & Hh) & pre & last & -> & Hcl & Hend) idx' (Hs' & Hb' & Hh') Hok.
  destruct Hh as [Hh|Hh]; [lia|]. destruct Hh' as [Hh'|Hh']; [lia|].
  destruct idx' as [|s' cs]; [discriminate|]. injection Hh' as ->.
  eapply scan_optimal_aux with (s := 0); try eassumption; [|lia].
  destruct Hend as [H|H]; auto.
Qed.

(** * group_min *)
Lemma ok_min_mono data n : Forall (fun x => 0 <= x)%Z data -> mono (ok_min data n) (length data).
Proof.
  intros Hd a b a' b' H1 H2 H3 H4. unfold ok_min. rewrite !Z.leb_le. intros H.
  rewrite <- (slice_app data a' a b') by lia. rewrite <- (slice_app data a b b') by lia.
  rewrite !sumZ_app.
  pose proof (sumZ_nonneg _ (Forall_slice _ _ a' a Hd)).
  pose proof (sumZ_nonneg _ (Forall_slice _ _ b b' Hd)). lia.
Qed.

Lemma group_min_inv data n fl s : group_min data n = Ok (fl, s) ->
  (0 < n)%Z /\ 0 < length data /\
  let idx := sig_scan (ok_min data n) (length data) in
  fl = flags_of idx (length data) /\
  s = forallb (fun p => ok_min data n (fst p) (snd p)) (pairs idx (length data)).
Proof.
  intros H.
  assert (Hne : data <> []).
  { intros ->. unfold group_min in H. destruct (n <=? 0)%Z; discriminate. }
  assert (Hn : (0 < n)%Z).
  { unfold group_min in H. destruct (Z.leb_spec n 0); [discriminate|assumption]. }
  assert (E : group_min data n =
    Ok (flags_of (min_loop data 0 (length data - 1) n 0%Z [0]) (length data),
        forallb (fun s => n <=? s)%Z (reduceat sumZ data (min_loop data 0 (length data - 1) n 0%Z [0])))).
  { unfold group_min. destruct (Z.leb_spec n 0); [lia|]. destruct data; [congruence|reflexivity]. }
  rewrite E in H. injection H as <- <-. split; [assumption|].
  split; [destruct data; [congruence|simpl; lia]|].
  cbv zeta. rewrite min_loop_scan. split; [reflexivity|].
  unfold reduceat. set (L := pairs _ _). clearbody L. clear.
  induction L as [|p L IH]; [reflexivity|]. cbn [map forallb]. rewrite IH. reflexivity.
Qed.

Lemma forallb_Forall {A} (f : A -> bool) l : forallb f l = true <-> Forall (fun x => f x = true) l.
Proof. rewrite forallb_forall, Forall_forall. reflexivity. Qed.

Lemma groups_of_idx {A} (xs : list A) (P : list A -> Prop) idx :
  good_idx idx (length xs) ->
  Forall P (groups (flags_of idx (length xs)) xs) <->
  Forall (fun p => P (slice (fst p) (snd p) xs)) (pairs idx (length xs)).
Proof.
  intros H. rewrite good_idx_groups by exact H. unfold reduceat. now rewrite Forall_map.
Qed.

Lemma group_min_valid data n fl s : group_min data n = Ok (fl, s) -> valid_flags fl (length data).
Proof.
  intros H. apply group_min_inv in H as (Hn & Hl & -> & _).
  apply good_idx_flags. apply (sig_scan_spec _ _ Hl).
Qed.

Lemma group_min_success data n fl s : group_min data n = Ok (fl, s) ->
  (s = true <-> Forall (fun g => n <= sumZ g)%Z (groups fl data)).
Proof.
  intros H. apply group_min_inv in H as (Hn & Hl & -> & ->).
  rewrite groups_of_idx by apply (sig_scan_spec _ _ Hl).
  rewrite forallb_Forall. split; apply Forall_impl; intros p; unfold ok_min; lia.
Qed.

Lemma sumZ_concat (gs : list (list Z)) : sumZ (concat gs) = sumZ (map sumZ gs).
Proof. induction gs; simpl; [reflexivity|]. rewrite sumZ_app; lia. Qed.

Lemma group_min_total data n fl s : group_min data n = Ok (fl, s) ->
  Forall (fun x => 0 <= x)%Z data -> (s = true <-> (n <= sumZ data)%Z).
Proof.
  intros H Hd. split; intros Hs.
  - pose proof (proj1 (group_min_success _ _ _ _ H) Hs) as Hg.
    pose proof (groups_partition fl data (group_min_valid _ _ _ _ H)) as Hp.
    apply group_min_inv in H as (Hn & Hl & _).
    assert (E : sumZ data = sumZ (map sumZ (groups fl data))) by (rewrite <- sumZ_concat, Hp; reflexivity).
    rewrite E. clear E.
    destruct (groups fl data) as [|g gs]; [simpl in Hp; subst data; simpl in Hl; lia|].
    inversion Hg as [|? ? Hg1 Hg2]; subst. simpl.
    assert (0 <= sumZ (map sumZ gs))%Z.
    { apply sumZ_nonneg. rewrite Forall_map. eapply Forall_impl; [|exact Hg2]. intros; simpl in *; lia. }
    lia.
  - apply group_min_inv in H as (Hn & Hl & -> & ->). apply forallb_Forall.
    apply scan_all_ok; try assumption.
    + apply mono_mono_right, ok_min_mono, Hd.
    + apply sig_scan_spec, Hl.
    + unfold ok_min. rewrite slice_all by lia. now apply Z.leb_le.
Qed.

Lemma removelast_slice {A} (l : list A) a b : a < b -> b <= length l ->
  removelast (slice a b l) = slice a (b - 1) l.
Proof.
  intros H1 H2. destruct b as [|b]; [lia|].
  destruct l as [|d l']; [simpl in H2; lia|]. set (l := d :: l') in *.
  rewrite (slice_S l a b d) by lia. rewrite removelast_snoc. f_equal. lia.
Qed.

Lemma removelast_map {A B} (f : A -> B) l : removelast (map f l) = map f (removelast l).
Proof. induction l as [|a [|b l] IH]; try reflexivity. cbn [map removelast] in *. now rewrite IH. Qed.

Lemma In_removelast {A} (l : list A) x : In x (removelast l) -> In x l.
Proof.
  induction l as [|a [|b l] IH]; cbn [removelast]; [easy|easy|].
  intros [->|H]; [now left|right; apply IH, H].
Qed.

Lemma group_min_minimal data n fl s : group_min data n = Ok (fl, s) ->
  Forall (fun g => n <= sumZ g /\ sumZ (removelast g) < n)%Z (removelast (groups fl data)).
Proof.
  intros H. apply group_min_inv in H as (Hn & Hl & -> & _).
  pose proof (sig_scan_spec (ok_min data n) _ Hl) as Hr.
  rewrite good_idx_groups by apply Hr. unfold reduceat. rewrite removelast_map, Forall_map.
  apply Forall_forall; intros p Hp.
  pose proof (scan_minimal _ _ _ Hr) as Hmn. rewrite Forall_forall in Hmn.
  destruct (Hmn p Hp) as (H1 & H2). apply In_removelast in Hp.
  apply pairs_bounds in Hp as (H3 & H4 & _); [|apply Hr|apply Hr].
  split; [unfold ok_min in H1; lia|].
  rewrite removelast_slice by lia.
  destruct (Nat.eq_dec (snd p - 1) (fst p)) as [E|E].
  - rewrite E, slice_nil_eq. simpl. lia.
  - specialize (H2 (snd p - 1) ltac:(lia) ltac:(lia)). unfold ok_min in H2. lia.
Qed.

Lemma group_min_optimal data n fl s : group_min data n = Ok (fl, s) ->
  Forall (fun x => 0 <= x)%Z data ->
  forall fl', valid_flags fl' (length data) -> Forall (fun g => n <= sumZ g)%Z (groups fl' data) ->
  length (groups fl' data) <= length (groups fl data).
Proof.
  intros H Hd fl' Hv Hg. pose proof (group_min_valid _ _ _ _ H) as Hv0.
  apply group_min_inv in H as (Hn & Hl & Efl & _).
  rewrite !groups_length by (first [apply Hv|apply Hv0]).
  pose proof (sig_scan_spec (ok_min data n) _ Hl) as Hr.
  subst fl. rewrite starts_flags_of by apply Hr.
  apply (scan_optimal (ok_min data n) (length data)); try assumption.
  - now apply ok_min_mono.
  - now apply starts_good.
  - rewrite groups_reduceat in Hg by apply Hv. unfold reduceat in Hg. rewrite Forall_map in Hg.
    eapply Forall_impl; [|exact Hg]. intros p; unfold ok_min; lia.
Qed.

Lemma group_min_defined data n : (0 < n)%Z -> data <> [] -> exists fl s, group_min data n = Ok (fl, s).
Proof.
  intros Hn Hd. unfold group_min. destruct (Z.leb_spec n 0); [lia|].
  destruct data; [congruence|]. eauto.
Qed.
