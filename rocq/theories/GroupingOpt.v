From Verif Require Import Base BaseFacts Grouping GroupingProofs.

(** * Resolution-limited bins *)
Definition bint_ok (bint : list nat) : Prop := Forall (fun b => 1 <= b) bint.

Lemma bint_ge1 bint k : bint_ok bint -> k < length bint -> 1 <= nth k bint 0.
Proof. intros H Hk. unfold bint_ok in H. rewrite Forall_forall in H. apply H, nth_In, Hk. Qed.

Lemma fold_min_spec (f : nat -> nat) ks : forall j0,
  let j := fold_left (fun j k => Nat.min j (f k)) ks j0 in
  j <= j0 /\ (forall k, In k ks -> j <= f k) /\ (j = j0 \/ exists k, In k ks /\ j = f k).
Proof.
  induction ks as [|k ks IH]; intros j0; cbn [fold_left].
  - split; [lia|]. split; [intros k []|now left].
  - specialize (IH (Nat.min j0 (f k))). cbv zeta in *. destruct IH as (H1 & H2 & H3).
    set (j := fold_left _ _ _) in *. split; [lia|]. split.
    + intros k' [->|Hk']; [lia|auto].
    + destruct H3 as [H3|(k' & Hk' & H3)].
      * destruct (Nat.min_spec j0 (f k)) as [(_ & E)|(_ & E)]; rewrite E in H3;
          [now left|right; exists k; split; [now left|exact H3]].
      * right; exists k'; split; [now right|exact H3].
Qed.

Lemma opt_end_spec bint i : bint_ok bint -> i < length bint ->
  let n := length bint in
  let e := opt_end bint (n - 1) i in
  i <= e < n /\
  (forall k, i <= k <= e -> S e <= k + nth k bint 0) /\
  (S e = n \/ exists k, i <= k <= e /\ k + nth k bint 0 = S e).
Proof.
  intros Hb Hi. cbv zeta. unfold opt_end.
  set (n := length bint) in *. set (j0 := Nat.min (n - 1) (i + nth i bint 0 - 1)).
  pose proof (bint_ge1 bint i Hb Hi) as Hbi.
  assert (Hj0 : i <= j0 <= n - 1) by (subst j0; lia).
  destruct (fold_min_spec (fun k => k + nth k bint 0 - 1) (seq (S i) (j0 - i)) j0) as (H1 & H2 & H3).
  set (e := fold_left _ _ _) in *.
  assert (Hin : forall k, S i <= k <= j0 -> In k (seq (S i) (j0 - i))) by (intros; apply in_seq; lia).
  assert (Hi_e : i <= e).
  { destruct H3 as [H3|(k & Hk & H3)]; [lia|]. apply in_seq in Hk.
    pose proof (bint_ge1 bint k Hb ltac:(lia)). lia. }
  split; [lia|]. split.
  - intros k Hk. destruct (Nat.eq_dec k i) as [->|].
    + subst j0. lia.
    + specialize (H2 k (Hin k ltac:(lia))). pose proof (bint_ge1 bint k Hb ltac:(lia)). lia.
  - destruct H3 as [H3|(k & Hk & H3)].
    + rewrite H3. subst j0. destruct (Nat.min_spec (n - 1) (i + nth i bint 0 - 1)) as [(_ & E)|(_ & E)]; rewrite E in *.
      * left; lia.
      * right. exists i. lia.
    + apply in_seq in Hk. pose proof (bint_ge1 bint k Hb ltac:(lia)).
      right. exists k. lia.
Qed.

(** * The scan *)
Section Scan.
Variable bint : list nat.
Variable ext : nat -> nat -> option nat.
Let n := length bint.
Let oe := opt_end bint (n - 1).
Hypothesis Hbint : bint_ok bint.
Hypothesis Hext : forall i j j', i <= j < n -> ext i j = Some j' -> j <= j' < n.

Definition closed (p : nat * nat) : Prop := ext (fst p) (oe (fst p)) = Some (snd p - 1) /\ fst p < snd p.

Definition opt_result (idx : list nat) : Prop :=
  good_idx idx n /\
  (n = 0 /\ idx = [] \/
   exists pre last, idx = pre ++ [last] /\ Forall closed (pairs pre last) /\
     (closed (last, n)
      \/ (pre = [] /\ last = 0 /\ ext 0 (oe 0) = None)
      \/ exists m, last < m < n /\ closed (last, m) /\ ext m (oe m) = None)).

(** loop invariant: bins closed so far, next bin starts at [i] *)
Definition opt_inv (i : nat) (idx : list nat) : Prop :=
  i <= n /\ StronglySorted lt (idx ++ [i]) /\ hd_error (idx ++ [i]) = Some 0 /\
  Forall closed (pairs idx i).

Lemma opt_inv_good i idx : opt_inv i idx -> 0 < n -> i = n -> good_idx idx n.
Proof.
  intros (Hi & Hs & Hh & Hc) Hn ->. apply good_idx_of_sorted.
  - apply SSorted_app_inv in Hs; tauto.
  - destruct idx; [simpl in Hh; injection Hh; lia|exact Hh].
  - intros x Hx. apply SSorted_app_inv in Hs as (_ & _ & H). apply H; [exact Hx|now left].
Qed.

Lemma opt_loop_spec fuel : forall i idx, opt_inv i idx -> n - i < fuel ->
  exists idx', opt_loop fuel bint ext n i idx = Ok idx' /\ opt_result idx'.
Proof.
  induction fuel as [|fuel IH]; intros i idx Hinv Hf; [lia|].
  cbn [opt_loop]. destruct (Nat.leb_spec n i) as [Hle|Hlt].
  - exists idx. split; [reflexivity|].
    assert (i = n) by (destruct Hinv; lia). subst i.
    destruct (Nat.eq_dec n 0) as [E0|E0].
    { destruct Hinv as (_ & Hs & Hh & _). destruct idx as [|a idx].
      - split; [|left; split; [exact E0|reflexivity]].
        split; [constructor|]. split; [constructor|now left].
      - exfalso. simpl in Hh. injection Hh as ->. simpl in Hs. inversion Hs as [|? ? _ Hs2]; subst.
        rewrite Forall_forall in Hs2. assert (Hin : In n (idx ++ [n])) by (apply in_or_app; right; now left). specialize (Hs2 n Hin). lia. }
    assert (Hg := opt_inv_good n idx Hinv ltac:(lia) eq_refl).
    split; [exact Hg|right].
    destruct Hinv as (_ & Hs & Hh & Hc).
    destruct (rev idx) as [|l rp] eqn:Er.
    { assert (idx = []) by (rewrite <- (rev_involutive idx), Er; reflexivity). subst idx.
      simpl in Hh. injection Hh; lia. }
    assert (Ep : idx = rev rp ++ [l]) by (rewrite <- (rev_involutive idx), Er; reflexivity).
    exists (rev rp), l. split; [exact Ep|]. rewrite Ep, pairs_app in Hc. apply Forall_app in Hc as (H1 & H2).
    split; [exact H1|]. left. now apply Forall_inv in H2.
  - destruct (opt_end_spec bint i Hbint Hlt) as (He & _ & _). fold n in He. fold (oe i) in He.
    change (opt_end bint (n - 1) i) with (oe i).
    destruct Hinv as (Hi & Hs & Hh & Hc).
    assert (Hsn : forall x, In x idx -> x < i).
    { intros x Hx. apply SSorted_app_inv in Hs as (_ & _ & H). apply H; [exact Hx|now left]. }
    destruct (ext i (oe i)) as [j|] eqn:Ej.
    + apply (Hext i (oe i) j) in Ej as Hj; [|exact He].
      destruct (Nat.ltb_spec (n - 1) j) as [Hbad|Hgd]; [lia|].
      apply IH; [|lia]. split; [lia|]. split; [|split].
      * apply SSorted_snoc; [exact Hs|]. intros x Hx. apply in_app_or in Hx as [Hx|[Hx|[]]]; [apply Hsn in Hx|]; lia.
      * destruct idx; exact Hh.
      * rewrite pairs_app. apply Forall_app; split; [exact Hc|]. constructor; [|constructor].
        split; cbn [fst snd]; [|lia]. rewrite Ej. f_equal. lia.
    + destruct (Nat.ltb_spec 1 (length (idx ++ [i]))) as [Hl|Hl].
      * exists idx. rewrite removelast_snoc. split; [reflexivity|].
        destruct (rev idx) as [|l rp] eqn:Er.
        { assert (idx = []) by (rewrite <- (rev_involutive idx), Er; reflexivity). subst idx. simpl in Hl; lia. }
        assert (Ep : idx = rev rp ++ [l]) by (rewrite <- (rev_involutive idx), Er; reflexivity).
        split.
        { apply good_idx_of_sorted.
          - apply SSorted_app_inv in Hs; tauto.
          - destruct idx; [destruct (rev rp); discriminate|exact Hh].
          - intros x Hx; apply Hsn in Hx; lia. }
        right. exists (rev rp), l. split; [exact Ep|].
        rewrite Ep, pairs_app in Hc. apply Forall_app in Hc as (H1 & H2). apply Forall_inv in H2.
        split; [exact H1|]. right; right. exists i. split; [|split; [exact H2|exact Ej]].
        assert (l < i) by (apply Hsn; rewrite Ep; apply in_or_app; right; now left). lia.
      * exists (idx ++ [i]). split; [reflexivity|].
        rewrite app_length in Hl; simpl in Hl. destruct idx as [|a idx]; [|simpl in Hl; lia].
        simpl in Hh. injection Hh as ->.
        split; [apply good_idx_of_sorted; [repeat constructor|reflexivity|intros x [<-|[]]; lia]|].
        right. exists [], 0. split; [reflexivity|]. split; [constructor|]. right; left.
        split; [reflexivity|]. split; [reflexivity|exact Ej].
Qed.

Lemma opt_scan_spec : exists idx, opt_scan bint ext n = Ok idx /\ opt_result idx.
Proof.
  unfold opt_scan. apply opt_loop_spec; [|lia].
  split; [lia|]. split; [repeat constructor|]. split; [reflexivity|constructor].
Qed.
End Scan.

(** * Extension steps *)
(** [ext] looks for the smallest end [>= j] passing [ok] *)
Definition ext_spec (ok : nat -> nat -> bool) (ext : nat -> nat -> option nat) (n : nat) : Prop :=
  forall i j, i <= j < n ->
    match ext i j with
    | Some j' => j <= j' < n /\ ok i (S j') = true /\ forall c, j <= c < j' -> ok i (S c) = false
    | None => forall c, j <= c < n -> ok i (S c) = false
    end.

Lemma ext_sig_spec ok n : ext_spec ok (ext_sig ok n) n.
Proof.
  intros i j Hij. unfold ext_sig.
  assert (H : forall k j, n = j + k ->
    match ext_sig_loop ok k i j with
    | Some j' => j <= j' < n /\ ok i (S j') = true /\ forall c, j <= c < j' -> ok i (S c) = false
    | None => forall c, j <= c < n -> ok i (S c) = false
    end).
  { induction k as [|k IH]; intros j0 Hn; cbn [ext_sig_loop]; [intros; lia|].
    destruct (ok i (S j0)) eqn:E.
    - split; [lia|]. split; [exact E|]. intros; lia.
    - specialize (IH (S j0) ltac:(lia)). destruct (ext_sig_loop ok k i (S j0)) as [j'|].
      + destruct IH as (H1 & H2 & H3). split; [lia|]. split; [exact H2|].
        intros c Hc. destruct (Nat.eq_dec c j0) as [->|]; [exact E|apply H3; lia].
      + intros c Hc. destruct (Nat.eq_dec c j0) as [->|]; [exact E|apply IH; lia]. }
  apply H. lia.
Qed.

Lemma find_first_cumsum (p : Z -> bool) l : forall acc,
  match find_first p (cumsumZ acc l) with
  | Some m => m < length l /\ p (acc + sumZ (firstn (S m) l))%Z = true /\
              forall c, c < m -> p (acc + sumZ (firstn (S c) l))%Z = false
  | None => forall c, c < length l -> p (acc + sumZ (firstn (S c) l))%Z = false
  end.
Proof.
  induction l as [|x l IH]; intros acc; cbn [cumsumZ find_first]; [simpl; intros; lia|].
  destruct (p (acc + x)%Z) eqn:E.
  - split; [simpl; lia|]. split; [|intros; lia]. cbn. now rewrite Z.add_0_r.
  - specialize (IH (acc + x)%Z). destruct (find_first p (cumsumZ (acc + x) l)) as [m|]; cbn [option_map].
    + destruct IH as (H1 & H2 & H3). split; [simpl; lia|]. split.
      * cbn [firstn sumZ fold_right] in *. rewrite Z.add_assoc. exact H2.
      * intros [|c] Hc; [cbn; now rewrite Z.add_0_r|].
        specialize (H3 c ltac:(lia)). cbn [firstn sumZ fold_right] in *. rewrite Z.add_assoc. exact H3.
    + intros [|c] Hc; [cbn; now rewrite Z.add_0_r|].
      specialize (IH c ltac:(simpl in Hc; lia)). cbn [firstn sumZ fold_right] in *. rewrite Z.add_assoc. exact IH.
Qed.

Lemma ext_min_spec bc nmin : ext_spec (ok_min bc nmin) (ext_min bc nmin) (length bc).
Proof.
  intros i j Hij. unfold ext_min.
  assert (Hs : forall c, j + S c < length bc ->
     sumZ (slice i (S (j + S c)) bc) = (sumZ (slice i (S j) bc) + sumZ (firstn (S c) (skipn (S j) bc)))%Z).
  { intros c Hc. rewrite <- (slice_app bc i (S j) (S (j + S c))) by lia. rewrite sumZ_app. f_equal.
    unfold slice at 1. replace (S (j + S c) - S j) with (S c) by lia. reflexivity. }
  set (cts := sumZ (slice i (S j) bc)) in *.
  destruct (Z.ltb_spec cts nmin) as [Hlt|Hge].
  - pose proof (find_first_cumsum (fun s => (nmin - cts <=? s)%Z) (skipn (S j) bc) 0%Z) as H.
    rewrite skipn_length in H.
    assert (H0 : ok_min bc nmin i (S j) = false) by (unfold ok_min; fold cts; lia).
    destruct (find_first _ _) as [m|].
    + destruct H as (H1 & H2 & H3). split; [lia|]. split.
      * unfold ok_min. replace (S (j + m + 1)) with (S (j + S m)) by lia. rewrite Hs by lia. lia.
      * intros c Hc. destruct (Nat.eq_dec c j) as [->|]; [exact H0|].
        specialize (H3 (c - j - 1) ltac:(lia)). unfold ok_min.
        replace (S c) with (S (j + S (c - j - 1))) by lia. rewrite Hs by lia. lia.
    + intros c Hc. destruct (Nat.eq_dec c j) as [->|]; [exact H0|].
      specialize (H (c - j - 1) ltac:(lia)). unfold ok_min.
      replace (S c) with (S (j + S (c - j - 1))) by lia. rewrite Hs by lia. lia.
  - split; [lia|]. split; [unfold ok_min; fold cts; lia|]. intros; lia.
Qed.

Lemma ext_spec_bounds ok ext n : ext_spec ok ext n ->
  forall i j j', i <= j < n -> ext i j = Some j' -> j <= j' < n.
Proof. intros H i j j' Hij E. specialize (H i j Hij). rewrite E in H. tauto. Qed.

(** what a test-driven optimal scan guarantees about its bins *)
Definition opt_bin_ok (bint : list nat) (ok : nat -> nat -> bool) (p : nat * nat) : Prop :=
  let e := opt_end bint (length bint - 1) (fst p) in
  S e <= snd p /\ ok (fst p) (snd p) = true /\
  forall c, S e <= c -> c < snd p -> ok (fst p) c = false.

Lemma closed_bin_ok bint ok ext p : bint_ok bint -> ext_spec ok ext (length bint) ->
  fst p < length bint -> closed bint ext p -> opt_bin_ok bint ok p.
Proof.
  intros Hb He Hp (H1 & H2). unfold opt_bin_ok. cbv zeta.
  destruct (opt_end_spec bint (fst p) Hb Hp) as (Hoe & _).
  specialize (He (fst p) _ Hoe). rewrite H1 in He. destruct He as (A & B & C).
  set (e := opt_end _ _ _) in *. split; [lia|].
  replace (S (snd p - 1)) with (snd p) in B by lia. split; [exact B|].
  intros c Hc1 Hc2. specialize (C (c - 1) ltac:(lia)). now replace (S (c - 1)) with c in C by lia.
Qed.

Lemma pairs_fst_lt pre last n p : StronglySorted lt (pre ++ [last]) -> last < n ->
  In p (pairs pre last) -> fst p < n.
Proof.
  intros Hs Hl Hp.
  assert (In (fst p) pre).
  { clear Hs. revert Hp. generalize last. induction pre as [|a pre IH]; intros l Hp; [easy|].
    cbn [pairs] in Hp. destruct Hp as [<-|Hp]; [now left|right; eapply IH; eassumption]. }
  apply SSorted_app_inv in Hs as (_ & _ & Hc). specialize (Hc (fst p) last H (or_introl eq_refl)). lia.
Qed.

Lemma opt_result_bins bint ok ext idx : bint_ok bint -> ext_spec ok ext (length bint) ->
  opt_result bint ext idx ->
  Forall (opt_bin_ok bint ok) (removelast (pairs idx (length bint))) /\
  (mono_right ok (length bint) -> 0 < length bint -> ok 0 (length bint) = true ->
   Forall (fun p => ok (fst p) (snd p) = true) (pairs idx (length bint))).
Proof.
  intros Hb He ((Hs & Hbd & Hh) & Hr). destruct Hr as [(E0 & ->)|(pre & last & -> & Hc & Hend)].
  { split; [constructor|]. intros _ H _; lia. }
  set (n := length bint) in *.
  assert (Hl : last < n).
  { rewrite Forall_forall in Hbd. apply Hbd. apply in_or_app; right; now left. }
  assert (Hcl : Forall (opt_bin_ok bint ok) (pairs pre last)).
  { rewrite Forall_forall in *. intros p Hp. eapply closed_bin_ok; try eassumption.
    - eapply pairs_fst_lt; eassumption.
    - now apply Hc. }
  rewrite pairs_app, removelast_snoc. split; [exact Hcl|].
  intros Hm Hn Htot. apply Forall_app; split.
  - eapply Forall_impl; [|exact Hcl]. intros p (_ & H & _); exact H.
  - constructor; [|constructor]. cbn [fst snd]. destruct Hend as [H|[(-> & -> & H)|(m & Hm1 & H & _)]].
    + apply closed_bin_ok with (ok := ok) in H; [apply H|exact Hb|exact He|exact Hl].
    + exact Htot.
    + apply closed_bin_ok with (ok := ok) in H; [|exact Hb|exact He|exact Hl].
      apply (Hm last m n); try lia. apply H.
Qed.

(** plain optimal binning: closed bins are exactly the maximal ones *)
Definition ext_id (i j : nat) : option nat := Some j.

Lemma opt_plain_bins bint idx : bint_ok bint -> opt_result bint ext_id idx ->
  Forall (fun p =>
    (forall k, fst p <= k < snd p -> snd p <= k + nth k bint 0) /\
    (snd p = length bint \/ exists k, fst p <= k < snd p /\ k + nth k bint 0 = snd p))
    (pairs idx (length bint)).
Proof.
  intros Hb ((Hs & Hbd & Hh) & Hr). destruct Hr as [(E0 & ->)|(pre & last & -> & Hc & Hend)]; [constructor|].
  set (n := length bint) in *.
  assert (Hl : last < n).
  { rewrite Forall_forall in Hbd. apply Hbd. apply in_or_app; right; now left. }
  assert (Hcl : forall p, fst p < n -> closed bint ext_id p ->
    (forall k, fst p <= k < snd p -> snd p <= k + nth k bint 0) /\
    (snd p = n \/ exists k, fst p <= k < snd p /\ k + nth k bint 0 = snd p)).
  { intros p Hp (H1 & H2). destruct (opt_end_spec bint (fst p) Hb Hp) as (A & B & C).
    unfold ext_id in H1. injection H1 as H1. fold n in A, B, C, H1.
    set (e := opt_end bint (n - 1) (fst p)) in *.
    assert (E : snd p = S e) by lia. rewrite E. split.
    - intros k Hk. apply B. lia.
    - destruct C as [C|(k & Hk & C)]; [now left|right]. exists k. lia. }
  rewrite pairs_app. apply Forall_app; split.
  - rewrite Forall_forall in *. intros p Hp. apply Hcl; [eapply pairs_fst_lt; eassumption|now apply Hc].
  - constructor; [|constructor]. destruct Hend as [H|[(_ & _ & H)|(m & _ & _ & H)]]; [|discriminate|discriminate].
    apply Hcl; [exact Hl|exact H].
Qed.

(** * group_opt *)
Lemma group_opt_plain bint : bint_ok bint ->
  exists fl, group_opt bint None = Ok (fl, true) /\ valid_flags fl (length bint) /\
  Forall (fun p =>
    (forall k, fst p <= k < snd p -> snd p <= k + nth k bint 0) /\
    (snd p = length bint \/ exists k, fst p <= k < snd p /\ k + nth k bint 0 = snd p)) (bins fl).
Proof.
  intros Hb. unfold group_opt.
  destruct (opt_scan_spec bint ext_id Hb) as (idx & E & Hr).
  { intros i j j' Hij E. injection E as <-. lia. }
  change (fun _ j : nat => Some j) with ext_id. rewrite E. cbn [bind].
  eexists. split; [reflexivity|]. pose proof (proj1 Hr) as Hg. split; [apply good_idx_flags, Hg|].
  rewrite bins_flags_of by exact Hg. now apply opt_plain_bins.
Qed.

Lemma group_opt_min_defined bint bc nmin : bint_ok bint -> length bc = length bint ->
  exists fl s, group_opt bint (Some (bc, nmin)) = Ok (fl, s).
Proof.
  intros Hb Hl. unfold group_opt.
  destruct (opt_scan_spec bint (ext_min bc nmin) Hb) as (idx & E & Hr).
  { apply (ext_spec_bounds (ok_min bc nmin)). rewrite <- Hl. apply ext_min_spec. }
  rewrite E. cbn [bind]. eauto.
Qed.

Lemma group_opt_min bint bc nmin fl s : bint_ok bint -> length bc = length bint ->
  group_opt bint (Some (bc, nmin)) = Ok (fl, s) ->
  valid_flags fl (length bint) /\
  (s = true <-> Forall (fun g => nmin <= sumZ g)%Z (groups fl bc)) /\
  Forall (opt_bin_ok bint (ok_min bc nmin)) (removelast (bins fl)) /\
  (Forall (fun x => 0 <= x)%Z bc -> 0 < length bc -> (nmin <= sumZ bc)%Z -> s = true).
Proof.
  intros Hb Hl. unfold group_opt.
  assert (He : ext_spec (ok_min bc nmin) (ext_min bc nmin) (length bint)) by (rewrite <- Hl; apply ext_min_spec).
  destruct (opt_scan_spec bint (ext_min bc nmin) Hb (ext_spec_bounds _ _ _ He)) as (idx & E & Hr).
  rewrite E. cbn [bind]. intros H. injection H as <- <-.
  pose proof (proj1 Hr) as Hg.
  destruct (opt_result_bins bint _ _ idx Hb He Hr) as (H1 & H2).
  assert (Hsucc : forallb (fun s => nmin <=? s)%Z (reduceat sumZ bc idx) = true <->
     Forall (fun p => ok_min bc nmin (fst p) (snd p) = true) (pairs idx (length bint))).
  { rewrite forallb_Forall. unfold reduceat. rewrite Forall_map, Hl. reflexivity. }
  split; [apply good_idx_flags, Hg|]. split; [|split].
  - rewrite Hsucc. rewrite <- Hl in *. rewrite groups_of_idx by exact Hg.
    split; apply Forall_impl; intros p; unfold ok_min; lia.
  - rewrite bins_flags_of by exact Hg. exact H1.
  - intros Hnn H0 Htot. rewrite Hsucc. apply H2; [|lia|].
    + rewrite <- Hl. now apply mono_mono_right, ok_min_mono.
    + unfold ok_min. rewrite <- Hl, slice_all by lia. lia.
Qed.

(** * group_optsig (lima/gv) *)
Lemma group_optsig_spec bint ok okf : bint_ok bint ->
  exists fl s, group_optsig bint ok okf = Ok (fl, s) /\
  valid_flags fl (length bint) /\
  (s = true <-> Forall (fun p => okf (fst p) (snd p) = true) (bins fl)) /\
  Forall (opt_bin_ok bint ok) (removelast (bins fl)).
Proof.
  intros Hb. unfold group_optsig.
  pose proof (ext_sig_spec ok (length bint)) as He.
  destruct (opt_scan_spec bint (ext_sig ok (length bint)) Hb (ext_spec_bounds _ _ _ He)) as (idx & E & Hr).
  rewrite E. cbn [bind]. eexists; eexists; split; [reflexivity|].
  pose proof (proj1 Hr) as Hg. split; [apply good_idx_flags, Hg|].
  rewrite bins_flags_of by exact Hg. split; [apply forallb_Forall|].
  now apply (opt_result_bins bint ok _ idx Hb He Hr).
Qed.

(** * group_sig (lima/gv/normal shape) *)
Lemma group_sig_spec ok okf nd fl s : group_sig ok okf nd = Ok (fl, s) ->
  0 < nd /\ valid_flags fl nd /\
  (s = true <-> Forall (fun p => okf (fst p) (snd p) = true) (bins fl)) /\
  Forall (fun p => ok (fst p) (snd p) = true /\ none_before ok (fst p) (snd p)) (removelast (bins fl)).
Proof.
  unfold group_sig. destruct (Nat.eqb_spec nd 0) as [|Hn]; [discriminate|].
  intros H. injection H as <- <-.
  pose proof (sig_scan_spec ok nd ltac:(lia)) as Hr. pose proof (proj1 Hr) as Hg.
  split; [lia|]. split; [apply good_idx_flags, Hg|]. rewrite bins_flags_of by exact Hg.
  split; [apply forallb_Forall|]. now apply scan_minimal.
Qed.
