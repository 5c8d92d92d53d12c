(** Lemmas behind C15-C19, C22, C23. *)
From Coq Require Import Permutation.
From Verif Require Import RBase BaseFacts Grouping Scale ScaleProofs Significance Data DataProofs DataState.

(** ** Energy intervals *)
Definition separated (a b : R * R) : Prop := snd a < fst b \/ snd b < fst a.
Definition before (a b : R * R) : Prop := snd a < fst b.
Definition ranges_ok (er : erange) : Prop :=
  er <> [] /\ Forall (fun a => fst a < snd a) er /\ ForallOrdPairs separated er.

Lemma insert_perm x l : Permutation (insert_range x l) (x :: l).
Proof.
  induction l as [|y l IH]; cbn [insert_range]; [reflexivity|].
  destruct (Rleb (fst x) (fst y)); [reflexivity|]. rewrite IH. apply perm_swap.
Qed.
Lemma sort_perm er : Permutation (sort_erange er) er.
Proof.
  induction er as [|x er IH]; [reflexivity|]. change (sort_erange (x :: er)) with (insert_range x (sort_erange er)).
  rewrite insert_perm. now constructor.
Qed.
Definition fst_le (a b : R * R) : Prop := fst a <= fst b.
Lemma insert_sorted x l : StronglySorted fst_le l -> StronglySorted fst_le (insert_range x l).
Proof.
  unfold fst_le. induction 1 as [|y l Hl IH Hy]; cbn [insert_range]; [repeat constructor|].
  destruct (Rleb_spec (fst x) (fst y)) as [H|H].
  - constructor; [now constructor|]. constructor; [exact H|].
    eapply Forall_impl; [|exact Hy]. cbn. intros z Hz. lra.
  - constructor; [exact IH|]. apply (Permutation_Forall (Permutation_sym (insert_perm x l))).
    constructor; [lra|exact Hy].
Qed.
Lemma sort_sorted er : StronglySorted fst_le (sort_erange er).
Proof.
  induction er as [|x er IH]; [constructor|]. change (sort_erange (x :: er)) with (insert_range x (sort_erange er)).
  now apply insert_sorted.
Qed.
Lemma FOP_perm l l' : Permutation l l' -> ForallOrdPairs separated l -> ForallOrdPairs separated l'.
Proof.
  induction 1 as [|x l l' P IH|x y l|l l' l'' P1 IH1 P2 IH2]; intros H; auto.
  - inversion H; subst. constructor; [now apply (Permutation_Forall P)|auto].
  - inversion H as [|? ? Hx H']; subst. inversion H' as [|? ? Hy H'']; subst. inversion Hx as [|? ? Hxy Hx']; subst.
    constructor; [constructor; [|exact Hy]|constructor; [exact Hx'|exact H'']]. unfold separated in *; tauto.
Qed.
Lemma increasing_flatten l :
  strictly_increasing (flatten l) = true <-> Forall (fun a => fst a < snd a) l /\ StronglySorted before l.
Proof.
  induction l as [|[a b] l IH]; [split; [repeat constructor|reflexivity]|].
  change (flatten ((a, b) :: l)) with (a :: b :: flatten l).
  change (strictly_increasing (a :: b :: flatten l)) with (Rltb a b && strictly_increasing (b :: flatten l))%bool.
  rewrite andb_true_iff, Rltb_true.
  assert (E : strictly_increasing (b :: flatten l) = true <->
              Forall (before (a, b)) l /\ Forall (fun a => fst a < snd a) l /\ StronglySorted before l).
  { destruct l as [|[c d] l].
    - split; [repeat constructor|reflexivity].
    - change (flatten ((c, d) :: l)) with (c :: d :: flatten l) in *.
      change (strictly_increasing (b :: c :: d :: flatten l)) with (Rltb b c && strictly_increasing (c :: d :: flatten l))%bool.
      rewrite andb_true_iff, Rltb_true, IH. split.
      + intros (H1 & H2 & H3). split; [|tauto]. inversion H3 as [|? ? _ Hb]; subst. inversion H2 as [|? ? Hcd _]; subst. cbn in Hcd.
        constructor; [exact H1|]. eapply Forall_impl; [|exact Hb]. unfold before; cbn [fst snd]; intros; lra.
      + intros (H1 & H2). inversion H1; subst. unfold before in *; cbn in *. tauto. }
  rewrite E. split.
  - intros (H1 & H2 & H3 & H4). split; constructor; auto.
  - intros (H1 & H2). inversion H1; inversion H2; subst. cbn in *. tauto.
Qed.
Lemma sorted_separated l : Forall (fun a => fst a < snd a) l -> StronglySorted fst_le l ->
  (ForallOrdPairs separated l <-> StronglySorted before l).
Proof.
  intros Hl Hs. induction Hs as [|x l Hs IH Hx]; [split; constructor|].
  inversion Hl as [|? ? Hx1 Hl']; subst. specialize (IH Hl'). split; intros H; inversion H; subst; constructor; try tauto.
  - rewrite Forall_forall in *. intros y Hy. specialize (Hx y Hy). specialize (Hl' y Hy).
    match goal with X : forall z, In z l -> separated x z |- _ => specialize (X y Hy) as [X|X] end; unfold before, fst_le in *; lra.
  - eapply Forall_impl; [|eassumption]. intros y Hy. now left.
Qed.

Lemma check_erange_ok er er' : check_erange er = Ok er' <->
  ranges_ok er /\ er' = sort_erange er.
Proof.
  unfold check_erange, ranges_ok. destruct er as [|x er0] eqn:E0; [split; [discriminate|intros ((H & _) & _); congruence]|].
  assert (Hne : er <> []) by congruence. rewrite <- E0. clear E0 x er0.
  destruct (existsb (fun p => Rleb (snd p - fst p) 0) er) eqn:E1.
  - split; [discriminate|]. intros ((_ & H & _) & _). apply existsb_exists in E1 as (p & Hp & E1).
    apply Rleb_true in E1. rewrite Forall_forall in H. specialize (H p Hp). lra.
  - assert (Hl : Forall (fun a => fst a < snd a) er).
    { apply Forall_forall. intros p Hp. destruct (Rlt_dec (fst p) (snd p)) as [|Hn]; [assumption|].
      assert (existsb (fun p => Rleb (snd p - fst p) 0) er = true)
        by (apply existsb_exists; exists p; split; [exact Hp|apply Rleb_true; lra]). congruence. }
    assert (Hl' : Forall (fun a => fst a < snd a) (sort_erange er))
      by (apply (Permutation_Forall (Permutation_sym (sort_perm er))); exact Hl).
    cbv zeta. destruct (strictly_increasing (flatten (sort_erange er))) eqn:E2; cbn [negb].
    + apply increasing_flatten in E2 as (_ & E2).
      apply (sorted_separated _ Hl' (sort_sorted er)) in E2. apply (FOP_perm _ _ (sort_perm er)) in E2.
      split; [intros H; injection H as <-|intros (_ & ->); reflexivity]. tauto.
    + split; [discriminate|]. intros ((_ & _ & H) & _).
      apply (FOP_perm _ _ (Permutation_sym (sort_perm er))) in H.
      apply (sorted_separated _ Hl' (sort_sorted er)) in H.
      assert (strictly_increasing (flatten (sort_erange er)) = true) by (apply increasing_flatten; tauto). congruence.
Qed.

Lemma sort_before er : ranges_ok er -> StronglySorted before (sort_erange er).
Proof.
  intros (_ & Hl & Hp).
  apply sorted_separated; [|apply sort_sorted|].
  - now apply (Permutation_Forall (Permutation_sym (sort_perm er))).
  - now apply (FOP_perm _ _ (Permutation_sym (sort_perm er))).
Qed.

(** ** Sums over groups *)
Lemma no_orphans_hd {A} fl (xs : list A) : hd 0%Z fl <> (-1)%Z -> fst (ogip fl xs) = [].
Proof.
  destruct fl as [|f fl]; destruct xs as [|x xs]; try reflexivity. cbn [hd ogip]. intros H.
  destruct (ogip fl xs). destruct (Z.eqb_spec f (-1)); [contradiction|reflexivity].
Qed.
Lemma bins_cover fl n : length fl = n -> hd 0%Z fl <> (-1)%Z -> concat (map idx (bins fl)) = seq 0 n.
Proof.
  intros H1 H2. rewrite <- (groups_idx fl n H1).
  pose proof (groups_concat fl (seq 0 n)) as H. rewrite (no_orphans_hd _ _ H2) in H. apply H.
  now rewrite seq_length.
Qed.
Lemma csum_total fl good x n : length fl = n -> hd 0%Z fl <> (-1)%Z ->
  rsum (map (csum good x) (bins fl)) = rsum (map (at_ x) (filter (isgood good) (seq 0 n))).
Proof.
  intros H1 H2. rewrite <- (bins_cover fl n H1 H2). unfold csum.
  induction (bins fl) as [|p l IH]; [reflexivity|].
  change (concat (map idx (p :: l))) with (idx p ++ concat (map idx l)).
  rewrite filter_app, map_app, rsum_app. rewrite <- IH. reflexivity.
Qed.
Lemma sq_nonneg x : 0 <= sq x.
Proof. unfold sq. nra. Qed.
Lemma csum_sq_nonneg good x p : 0 <= csum good (map sq x) p.
Proof.
  unfold csum. apply rsum_nonneg, Forall_forall. intros y Hy. apply in_map_iff in Hy as (k & <- & _).
  destruct (Nat.lt_ge_cases k (length x)) as [Hk|Hk].
  - replace 0 with (sq 0) by (unfold sq; lra). rewrite map_nth. replace (sq 0) with 0 by (unfold sq; lra). apply sq_nonneg.
  - rewrite nth_overflow by (rewrite map_length; lia). lra.
Qed.
Lemma c_err_sq s good p : sq (c_err s good p) = csum good (map sq (s_errors s)) p.
Proof. unfold c_err, sq at 1. apply sqrt_sqrt, csum_sq_nonneg. Qed.

(** the groups are consecutive *)
Lemma pairs_sorted l n : StronglySorted lt l -> Forall (fun i => i < n)%nat l ->
  StronglySorted (fun p q => snd p <= fst q)%nat (pairs l n).
Proof.
  induction 1 as [|a l Hl IH Ha]; intros Hb; cbn [pairs]; [constructor|].
  inversion Hb; subst. constructor; [now apply IH|]. apply Forall_forall. intros q Hq. cbn [snd].
  assert (Hin : In (fst q) l) by (destruct (pairs_bounds l n q Hl) as (_ & _ & Hin); assumption).
  destruct l as [|c l]; [easy|]. cbn [hd]. destruct Hin as [->|Hin]; [lia|].
  inversion Hl as [|? ? _ Hc]; subst. rewrite Forall_forall in Hc. specialize (Hc _ Hin). lia.
Qed.
Lemma SS_filter {A} (R : A -> A -> Prop) f l : StronglySorted R l -> StronglySorted R (filter f l).
Proof.
  induction 1 as [|x l Hl IH Hx]; [constructor|]. cbn [filter]. destruct (f x); [|exact IH].
  constructor; [exact IH|]. rewrite Forall_forall in *. intros y Hy. apply filter_In in Hy. now apply Hx.
Qed.
Lemma bins_sorted fl : StronglySorted (fun p q => snd p <= fst q)%nat (bins fl).
Proof. rewrite bins_pairs. apply pairs_sorted; [apply starts_sorted|apply starts_bound]. Qed.
Lemma SS_map_inv {A B} (f : A -> B) (R : B -> B -> Prop) l :
  StronglySorted (fun x y => R (f x) (f y)) l -> StronglySorted R (map f l).
Proof.
  induction 1 as [|x l Hl IH Hx]; [constructor|]. cbn [map]. constructor; [exact IH|].
  rewrite Forall_forall in *. intros y Hy. apply in_map_iff in Hy as (z & <- & Hz). now apply Hx.
Qed.

(** ** Folding *)
(** photon model [p] (one value per photon bin) folded into channel [k] *)
Definition fold_model (p : list R) (rows : list (list R)) (k : nat) : R :=
  rsum (zip2 (fun m row => m * nth k row 0) p rows).
Lemma nth_map_seq (f : nat -> R) n k : (k < n)%nat -> nth k (map f (seq 0 n)) 0 = f k.
Proof.
  intros H. rewrite (nth_indep _ 0 (f 0%nat)) by (rewrite map_length, seq_length; lia).
  rewrite map_nth, seq_nth by lia. f_equal.
Qed.
Lemma csum_zero good n q : csum good (map (fun _ => 0) (seq 0 n)) q = 0.
Proof.
  unfold csum. apply rsum_zeros. intros k _. destruct (Nat.lt_ge_cases k n).
  - exact (nth_map_seq (fun _ => 0) n k H).
  - apply nth_overflow. rewrite map_length, seq_length. lia.
Qed.
Lemma csum_ext good x y q : (forall k, isgood good k = true -> (fst q <= k < snd q)%nat -> nth k x 0 = nth k y 0) ->
  csum good x q = csum good y q.
Proof.
  intros H. unfold csum. f_equal. apply map_ext_in. intros k Hk. apply filter_In in Hk as (Hk & Hg).
  apply in_idx in Hk. auto.
Qed.
Lemma csum_fold good p rows n q : (snd q <= n)%nat -> 
  csum good (map (fold_model p rows) (seq 0 n)) q = rsum (zip2 (fun m row => m * csum good row q) p rows).
Proof.
  intros Hq. revert rows. induction p as [|m p IH]; intros rows.
  - cbn [zip2]. change (rsum []) with 0. apply csum_zero.
  - destruct rows as [|row rows]; [apply csum_zero|]. cbn [zip2].
    change (rsum (?a :: ?l)) with (a + rsum l). rewrite <- IH. unfold csum.
    rewrite <- rsum_mult, <- rsum_plus. f_equal. apply map_ext_in. intros k Hk.
    apply filter_In in Hk as (Hk & _). apply in_idx in Hk. rewrite !nth_map_seq by lia. reflexivity.
Qed.
Lemma fold_grouped good p rows n L j : (j < length L)%nat -> Forall (fun q => (snd q <= n)%nat) L ->
  fold_model p (map (fun row => map (csum good row) L) rows) j =
  csum good (map (fold_model p rows) (seq 0 n)) (nth j L (0, 0)%nat).
Proof.
  intros Hj HL. rewrite csum_fold by (rewrite Forall_forall in HL; now apply HL, nth_In).
  unfold fold_model. f_equal. revert rows; induction p as [|m p IH]; intros [|row rows]; try reflexivity.
  cbn [map zip2]. rewrite IH. f_equal. f_equal.
  rewrite (nth_indep _ 0 (csum good row (0,0)%nat)) by (now rewrite map_length). apply map_nth.
Qed.
