(** C114: what an ensemble sampler samples and stores. *)
From Coq Require Import Ascii String ZArith Permutation.
From Verif Require Import RBase Base Namespace NamespaceProofs CompileProofs HelperData HelperDataProofs Nested Prop_Nested EnsembleProb.
From Coq Require Import List Lra Psatz Lia.
Import ListNotations.
Open Scope list_scope.
Open Scope R_scope.

Definition sizes (t : tree) : list (str * nat) := map (fun e => (fst e, length (snd e))) t.
(** two dictionaries of the same sites and sizes, in any order *)
Definition alike (t t' : tree) : Prop := Permutation (sizes t) (sizes t').
Definition dimension (t : tree) : nat := fold_right (fun e n => (length (snd e) + n)%nat) 0%nat t.

Lemma bind_inv {A B} (x : res A) (f : A -> res B) y : bind x f = Ok y -> exists a, x = Ok a /\ f a = Ok y.
Proof. destruct x; cbn; [eauto|discriminate]. Qed.
Lemma dim_app t t' : dimension (t ++ t') = (dimension t + dimension t')%nat.
Proof. induction t as [|e t IH]; cbn; [reflexivity|]. fold (dimension (t ++ t')). rewrite IH. unfold dimension. lia. Qed.
Lemma dim_perm t t' : Permutation t t' -> dimension t = dimension t'.
Proof.
  induction 1 as [|x l l' P IH|x y l|l l' l'' P1 IH1 P2 IH2]; [reflexivity| |cbn; lia|congruence]. cbn. unfold dimension in IH. lia.
Qed.
Lemma flat_len t : length (flat_map snd t) = dimension t.
Proof. induction t as [|[k x] t IH]; cbn; [reflexivity|]. rewrite app_length, IH. reflexivity. Qed.
Lemma flat_fill t : forall v, length v = dimension t -> flat_map snd (fill t v) = v.
Proof.
  induction t as [|[k x] t IH]; intros v H; cbn in *; [now destruct v|]. rewrite IH; [apply firstn_skipn|]. rewrite skipn_length. unfold dimension. lia.
Qed.
Lemma sizes_fill t : forall v, length v = dimension t -> sizes (fill t v) = sizes t.
Proof.
  induction t as [|[k x] t IH]; intros v H; cbn in *; [reflexivity|]. unfold sizes in IH. rewrite IH by (rewrite skipn_length; unfold dimension; lia).
  rewrite firstn_length, Nat.min_l by lia. reflexivity.
Qed.
Lemma fill_flat t : forall t', sizes t = sizes t' -> fill t (flat_map snd t') = t'.
Proof.
  induction t as [|[k x] t IH]; intros [|[k' x'] t'] H; try discriminate; [reflexivity|]. cbn in H. injection H as -> L H. cbn.
  rewrite L, firstn_app, Nat.sub_diag, firstn_all, firstn_O, app_nil_r. rewrite skipn_app, Nat.sub_diag, skipn_all, skipn_O. cbn [app]. rewrite IH by exact H. reflexivity.
Qed.
Lemma sorted_sizes t : sorted_items (sizes t) = sizes (sorted_items t).
Proof.
  induction t as [|e t IH]; [reflexivity|]. cbn [sizes map sorted_items fold_right]. fold (sizes t). fold (sorted_items (sizes t)). fold (sorted_items t). rewrite IH. clear.
  induction (sorted_items t) as [|y l IH]; [reflexivity|]. cbn [sizes map insert_str fst]. destruct (str_leb (fst e) (fst y)); [reflexivity|]. cbn [map]. f_equal. exact IH.
Qed.
Lemma str_leb_antisym a : forall b, str_leb a b = true -> str_leb b a = true -> a = b.
Proof.
  induction a as [|x a IH]; intros [|y b] H H'; try discriminate; [reflexivity|]. cbn in H, H'. destruct (N.ltb_spec (N_of_ascii x) (N_of_ascii y)), (N.ltb_spec (N_of_ascii y) (N_of_ascii x)); try lia; try discriminate.
  assert (E : N_of_ascii x = N_of_ascii y) by lia. apply (f_equal ascii_of_N) in E. rewrite !ascii_N_embedding in E. subst. f_equal. now apply IH.
Qed.
Lemma str_leb_trans a : forall b c, str_leb a b = true -> str_leb b c = true -> str_leb a c = true.
Proof.
  induction a as [|x a IH]; intros [|y b] [|z c] H H'; try discriminate; try reflexivity. cbn in *.
  destruct (N.ltb_spec (N_of_ascii x) (N_of_ascii y)), (N.ltb_spec (N_of_ascii y) (N_of_ascii x)), (N.ltb_spec (N_of_ascii y) (N_of_ascii z)), (N.ltb_spec (N_of_ascii z) (N_of_ascii y)), (N.ltb_spec (N_of_ascii x) (N_of_ascii z)), (N.ltb_spec (N_of_ascii z) (N_of_ascii x)); try lia; try discriminate; try reflexivity.
  eapply IH; eassumption.
Qed.
(** sorting does not depend on the order when the keys are distinct *)
Lemma sorted_unique {V} (l : list (str * V)) : forall m, Permutation l m -> NoDup (map fst l) ->
  Sorted.Sorted (fun a b => str_leb (fst a) (fst b) = true) l -> Sorted.Sorted (fun a b => str_leb (fst a) (fst b) = true) m -> l = m.
Proof.
  induction l as [|x l IH]; intros m P N S1 S2; [apply Permutation_nil in P; now subst|].
  assert (Tr : Relations_1.Transitive (fun a b : str * V => str_leb (fst a) (fst b) = true)) by (intros a b c; apply str_leb_trans).
  apply Sorted.Sorted_StronglySorted in S1; [|exact Tr]. destruct m as [|y m]; [apply Permutation_sym, Permutation_nil in P; discriminate|].
  pose proof S2 as S2'. apply Sorted.Sorted_StronglySorted in S2'; [|exact Tr]. inversion S1 as [|? ? S1a S1b]; subst. inversion S2' as [|? ? S2a S2b]; subst.
  assert (E : x = y).
  { destruct (Permutation_in y (Permutation_sym P) (or_introl eq_refl)) as [E|E]; [exact E|].
    destruct (Permutation_in x P (or_introl eq_refl)) as [E'|E']; [now symmetry|]. rewrite Forall_forall in S1b, S2b.
    assert (K : fst x = fst y) by (apply str_leb_antisym; [now apply S1b|now apply S2b]). inversion N as [|? ? N1 N2]; subst. exfalso. apply N1. rewrite K. exact (in_map fst _ _ E). }
  subst y. f_equal. apply IH; [now apply Permutation_cons_inv in P|now inversion N| |].
  - now apply Sorted.StronglySorted_Sorted.
  - now apply Sorted.StronglySorted_Sorted.
Qed.
Lemma get_perm {V} (l m : list (str * V)) k : Permutation l m -> NoDup (map fst l) -> get l k = get m k.
Proof.
  intros P N. assert (N' : NoDup (map fst m)) by (eapply Permutation_NoDup; [apply Permutation_map, P|exact N]).
  destruct (get l k) as [v|] eqn:E.
  - symmetry. apply get_nodup; [exact N'|]. eapply Permutation_in; [exact P|]. now apply get_in.
  - destruct (get m k) as [v|] eqn:E'; [|reflexivity]. exfalso. apply get_in in E'. apply (Permutation_in _ (Permutation_sym P)) in E'. rewrite (get_nodup _ _ _ N E') in E. discriminate.
Qed.
Lemma fst_sizes t : map fst (sizes t) = map fst t.
Proof. unfold sizes. rewrite map_map. reflexivity. Qed.

(** the vector of a walker and the dictionary of free parameters are the same thing: none of the entries is lost or moved *)
Theorem C114_ravel : forall init : tree, NoDup (map fst init) ->
  (forall v, length v = dimension init -> alike init (unravel init v) /\ ravel (unravel init v) = v) /\
  (forall t, alike init t -> length (ravel t) = dimension init /\ forall k, get (unravel init (ravel t)) k = get t k).
Proof.
  intros init N. assert (D : dimension (sorted_items init) = dimension init) by (apply dim_perm, sorted_perm).
  assert (Ns : NoDup (map fst (sorted_items init))) by (eapply Permutation_NoDup; [apply Permutation_map, Permutation_sym, sorted_perm|exact N]). split.
  - intros v L. unfold unravel. assert (Sz : sizes (fill (sorted_items init) v) = sizes (sorted_items init)) by (apply sizes_fill; congruence). split.
    + unfold alike. rewrite Sz. apply Permutation_map, Permutation_sym, sorted_perm.
    + unfold ravel. rewrite sorted_id; [apply flat_fill; congruence|].
      assert (S : Sorted.Sorted (fun a b => str_leb (fst a) (fst b) = true) (sizes (sorted_items init))) by (rewrite <- sorted_sizes; apply sorted_sorted).
      rewrite <- Sz in S. clear - S. remember (sizes _) as z eqn:E. revert E. generalize (fill (sorted_items init) v). induction S as [|a z S IH H]; intros t E; destruct t as [|e t]; try discriminate; [constructor|].
      cbn in E. injection E as -> ->. constructor; [now apply IH|]. destruct t as [|e' t]; [constructor|]. cbn in H. inversion H; subst. constructor. assumption.
  - intros t A. assert (Nt : NoDup (map fst t)). { rewrite <- fst_sizes. eapply Permutation_NoDup; [apply Permutation_map, A|]. now rewrite fst_sizes. }
    assert (E : sizes (sorted_items init) = sizes (sorted_items t)).
    { rewrite <- !sorted_sizes. apply sorted_unique; try apply sorted_sorted.
      - etransitivity; [apply sorted_perm|]. etransitivity; [exact A|]. apply Permutation_sym, sorted_perm.
      - eapply Permutation_NoDup; [apply Permutation_map, Permutation_sym, sorted_perm|]. now rewrite fst_sizes. }
    split.
    + unfold ravel. rewrite flat_len, <- D. clear - E. revert E. generalize (sorted_items t). induction (sorted_items init) as [|[k x] l IH]; intros [|[k' x'] m] E; try discriminate; [reflexivity|].
      cbn in E. injection E as _ L E. cbn. rewrite L. f_equal. now apply IH.
    + intros k. unfold unravel, ravel. rewrite fill_flat by exact E. apply get_perm; [apply sorted_perm|].
      eapply Permutation_NoDup; [apply Permutation_map, Permutation_sym, sorted_perm|exact Nt].
Qed.
Print Assumptions C114_ravel.

(** the fields of a sample: every site of the model once, the free parameters first and in their order *)
Theorem C114_names : forall init samples : tree, NoDup (map fst init) -> NoDup (map fst samples) -> incl (map fst init) (map fst samples) ->
  NoDup (blobs_names init samples) /\ (forall n, In n (blobs_names init samples) <-> In n (map fst samples)) /\
  firstn (length init) (blobs_names init samples) = map fst init.
Proof.
  intros init samples N1 N2 I. unfold blobs_names, params_names, deterministic_names. set (f := fun n => negb (str_in n (params_names init))).
  assert (Fs : forall n, In n (filter f (map fst samples)) <-> In n (map fst samples) /\ ~ In n (map fst init)).
  { intros n. rewrite filter_In. unfold f, params_names. split; intros (A & B); (split; [exact A|]).
    - intros C. apply str_in_spec in C. rewrite C in B. discriminate.
    - destruct (str_in n (map fst init)) eqn:E; [|reflexivity]. apply str_in_spec in E. contradiction. }
  split; [|split].
  - assert (G : forall a b : list str, NoDup a -> NoDup b -> (forall x, In x a -> ~ In x b) -> NoDup (a ++ b)).
    { induction a as [|x a IH]; intros b A B C; [exact B|]. inversion A; subst. cbn. constructor; [|apply IH; try assumption; intros y Hy; apply C; now right].
      rewrite in_app_iff. intros [E|E]; [contradiction|]. exact (C x (or_introl eq_refl) E). }
    apply G; [exact N1|now apply NoDup_filter|]. intros x Hx Hf. apply Fs in Hf. tauto.
  - intros n. rewrite in_app_iff, Fs. split; [intros [H|(H & _)]; [now apply I|exact H]|]. intros H. destruct (in_dec (list_eq_dec ascii_dec) n (map fst init)); tauto.
  - rewrite firstn_app, map_length, Nat.sub_diag, firstn_O, app_nil_r. apply firstn_all2. rewrite map_length. lia.
Qed.
Print Assumptions C114_names.

Section Prob.
Variables (potential : tree -> num) (post : tree -> tree) (init : tree).
(** the sites of the model do not depend on the values *)
Hypothesis Sites : forall z, map fst (post z) = map fst (post init).
Hypothesis Nodup : NoDup (map fst init).
Hypothesis NodupS : NoDup (map fst (post init)).
Hypothesis Free : incl (map fst init) (map fst (post init)).
Let run := log_prob_with_blobs potential post init.

(** walker by walker: the negative potential of the point, and in every field the value of that site at the point of the
    same walker; other walkers have no influence *)
Theorem C114_record : forall ignore_nan zs, exists l, run ignore_nan zs = Ok l /\ length l = length zs /\
  forall i z, nth_error zs i = Some z -> exists r, nth_error l i = Some r /\
    (forall u, potential (unravel init z) = Fin u -> fst r = Fin (- u)) /\
    (forall n, In n (map fst (post init)) -> field post init r n = get (post (unravel init z)) n /\ get (post (unravel init z)) n <> None).
Proof.
  intros ig zs. destruct (C114_names init (post init) Nodup NodupS Free) as (Nn & Ni & _). fold (names post init) in Nn, Ni.
  assert (P : forall z, exists bl, prob_of potential post init z = Ok (log_prob potential (unravel init z), bl) /\
    Forall2 (fun n v => get (post (unravel init z)) n = Some v) (names post init) bl).
  { intros z. unfold prob_of. cbv zeta. set (t := unravel init z).
    assert (A : exists bl, Forall2 (fun n v => get (post t) n = Some v) (names post init) bl).
    { assert (B : forall n, In n (names post init) -> exists v, get (post t) n = Some v).
      { intros n Hn. apply Ni in Hn. rewrite <- (Sites t) in Hn. apply in_map_iff in Hn as ([k v] & <- & H). exists v. apply get_nodup; [now rewrite Sites|exact H]. }
      clear - B. induction (names post init) as [|n l IH]; [exists []; constructor|]. destruct (B n ltac:(now left)) as (v & Hv). destruct IH as (bl & Hb); [intros m Hm; apply B; now right|].
      exists (v :: bl). now constructor. }
    destruct A as (bl & F). exists bl. split; [|exact F]. rewrite (mapE_ok _ _ bl); [reflexivity|]. clear - F. induction F as [|n v l bl E F IH]; constructor; [now rewrite E|exact IH]. }
  assert (M : exists l0, mapE (prob_of potential post init) zs = Ok l0 /\ Forall2 (fun z r => fst r = log_prob potential (unravel init z) /\ Forall2 (fun n v => get (post (unravel init z)) n = Some v) (names post init) (snd r)) zs l0).
  { clear - P. induction zs as [|z zs IH]; [exists []; split; [reflexivity|constructor]|]. destruct (P z) as (bl & E & F). destruct IH as (l0 & E0 & F0).
    exists ((log_prob potential (unravel init z), bl) :: l0). split; [cbn [mapE]; rewrite E; cbn [bind]; rewrite E0; reflexivity|]. constructor; [split; [reflexivity|exact F]|exact F0]. }
  destruct M as (l0 & E0 & F0). unfold run, log_prob_with_blobs. rewrite E0. cbn [bind]. eexists. split; [reflexivity|].
  assert (Ll : length l0 = length zs) by (clear - F0; induction F0; cbn; congruence). split; [now rewrite map_length|].
  intros i z Hz. assert (Hr : exists r, nth_error l0 i = Some r /\ fst r = log_prob potential (unravel init z) /\ Forall2 (fun n v => get (post (unravel init z)) n = Some v) (names post init) (snd r)).
  { clear - F0 Hz. revert i Hz. induction F0 as [|z' r zs l0 E F IH]; intros [|i] Hz; try discriminate; cbn [nth_error] in *; [injection Hz as ->; exists r; tauto|now apply IH]. }
  destruct Hr as ([lp bl] & Hr & R1 & R2). cbn [fst snd] in R1, R2. eexists. split; [exact (map_nth_error _ _ _ Hr)|]. cbn [fst]. split.
  - intros u Hu. rewrite R1. unfold log_prob. rewrite Hu. destruct ig; reflexivity.
  - intros n Hn. apply Ni in Hn. unfold field. cbn [snd]. clear - R2 Nn Hn. revert Nn Hn. induction R2 as [|m v l bl E F IH]; intros Nn Hn; [destruct Hn|]. cbn [combine get].
    inversion Nn; subst. destruct (str_eqb_spec n m) as [->|Ne]; [rewrite E; split; [reflexivity|discriminate]|]. destruct Hn as [->|Hn]; [congruence|]. now apply IH.
Qed.
Print Assumptions C114_record.

(** a log probability that is no number is kept, unless it is to be ignored: then no walker has one *)
Theorem C114_nan : forall ignore_nan zs l, run ignore_nan zs = Ok l -> forall i z r, nth_error zs i = Some z -> nth_error l i = Some r ->
  (ignore_nan = false -> (fst r = NaN <-> potential (unravel init z) = NaN)) /\
  (ignore_nan = true -> fst r <> NaN /\ (fst r = NegInf <-> potential (unravel init z) = NaN)).
Proof.
  intros ig zs l H i z r Hz Hr. unfold run, log_prob_with_blobs in H. apply bind_inv in H as (l0 & E & H). injection H as <-. apply mapE_inv in E.
  rewrite nth_error_map in Hr. destruct (nth_error l0 i) as [[lp bl]|] eqn:E0; [|discriminate]. injection Hr as <-.
  assert (R : prob_of potential post init z = Ok (lp, bl)).
  { clear - E Hz E0. revert i Hz E0. induction E as [|a b zs l0 F E IH]; intros [|i] Hz E0; try discriminate; cbn [nth_error] in *; [congruence|eapply IH; eassumption]. }
  unfold prob_of in R. cbv zeta in R. apply bind_inv in R as (b' & _ & R). assert (lp = log_prob potential (unravel init z)) by congruence. subst lp. unfold log_prob. cbn [fst].
  destruct ig; (split; [try discriminate|try discriminate]); intros _; destruct (potential (unravel init z)); cbn; (split; [split|split]) || split; try discriminate; try reflexivity; try split; try discriminate; try reflexivity.
Qed.
Print Assumptions C114_nan.
End Prob.
(** ... and what it becomes is minus infinity, not the number -1e300 of the documentation, while a probability of zero
    becomes a number: the points where the model fails rank below the points of probability zero *)
Theorem C114_nan_value_refuted : nan_to_num NaN = NegInf /\ nan_to_num NaN <> Fin (- 10 ^ 300) /\ exists x, nan_to_num NegInf = Fin x.
Proof. split; [reflexivity|]. split; [discriminate|]. eexists. reflexivity. Qed.
Print Assumptions C114_nan_value_refuted.

(** ** moves *)
Lemma permutations2_spec n a b : In (a, b) (permutations2 n) <-> (a < n /\ b < n /\ a <> b)%nat.
Proof.
  unfold permutations2. rewrite in_flat_map. split.
  - intros (i & Hi & H). apply in_map_iff in H as (j & E & H). injection E as -> ->. apply filter_In in H as (H & F). apply in_seq in Hi, H. destruct (Nat.eqb_spec b a); [discriminate|]. lia.
  - intros (A & B & C). exists a. split; [apply in_seq; lia|]. apply in_map_iff. exists b. split; [reflexivity|]. apply filter_In. split; [apply in_seq; lia|]. destruct (Nat.eqb_spec b a); [lia|reflexivity].
Qed.
Lemma permutations2_nodup n : NoDup (permutations2 n).
Proof.
  unfold permutations2. generalize (seq_NoDup n 0). set (S := filter). assert (F : forall i, NoDup (S nat (fun j => negb (j =? i)%nat) (seq 0 n))) by (intros i; apply NoDup_filter, seq_NoDup).
  clearbody S. generalize (seq 0 n) at 1 3. intros l. induction l as [|i l IH]; intros N; [constructor|]. inversion N; subst. cbn [flat_map].
  assert (G : forall a b : list (nat * nat), NoDup a -> NoDup b -> (forall x, In x a -> ~ In x b) -> NoDup (a ++ b)).
  { induction a as [|x a IHa]; intros b A B C; [exact B|]. inversion A; subst. cbn. constructor; [|apply IHa; try assumption; intros y Hy; apply C; now right].
    rewrite in_app_iff. intros [E|E]; [contradiction|]. exact (C x (or_introl eq_refl) E). }
  apply G; [|now apply IH|].
  - apply FinFun.Injective_map_NoDup; [intros x y E; now injection E|apply F].
  - intros x Hx Hx'. apply in_map_iff in Hx as (j & <- & _). apply in_flat_map in Hx' as (i' & Hi' & H). apply in_map_iff in H as (j' & E & _). injection E as -> _. contradiction.
Qed.
Lemma permutations2_length n : length (permutations2 n) = (n * (n - 1))%nat.
Proof.
  unfold permutations2. assert (F : forall i, In i (seq 0 n) -> length (map (fun j => (i, j)) (filter (fun j => negb (j =? i)%nat) (seq 0 n))) = (n - 1)%nat).
  { intros i Hi. rewrite map_length. assert (G : forall l, NoDup l -> In i l -> length (filter (fun j => negb (j =? i)%nat) l) = (length l - 1)%nat).
    { induction l as [|x l IH]; intros N Hl; [destruct Hl|]. inversion N; subst. cbn [filter]. destruct (Nat.eqb_spec x i) as [->|Ne]; cbn [negb].
      - cbn [length]. rewrite Nat.sub_succ, Nat.sub_0_r. f_equal. clear - H1. induction l as [|y l IH]; [reflexivity|]. cbn [filter]. destruct (Nat.eqb_spec y i) as [->|]; [exfalso; apply H1; now left|]. cbn [negb]. f_equal. apply IH. intros C. apply H1. now right.
      - destruct Hl as [->|Hl]; [congruence|]. cbn [length]. rewrite IH by assumption. destruct l; [destruct Hl|]. cbn. lia. }
    rewrite G; [now rewrite seq_length|apply seq_NoDup|exact Hi]. }
  assert (G : forall l, (forall i, In i l -> In i (seq 0 n)) -> length (flat_map (fun i => map (fun j => (i, j)) (filter (fun j => negb (j =? i)%nat) (seq 0 n))) l) = (length l * (n - 1))%nat).
  { induction l as [|i l IH]; intros H; [reflexivity|]. cbn [flat_map]. rewrite app_length, F by (apply H; now left). cbn [length]. rewrite IH; [lia|]. intros j Hj. apply H. now right. }
  rewrite G by auto. now rewrite seq_length.
Qed.

(** what the generator may draw: [k] different numbers below [a] *)
Definition draws_well (choice : nat -> nat -> list nat) : Prop := forall a k, (k <= a)%nat -> length (choice a k) = k /\ NoDup (choice a k) /\ forall i, In i (choice a k) -> (i < a)%nat.
(** the moves that a history of calls can make of a new one *)
Inductive used (tune : bool) (mu0 : R) : move -> Prop :=
| used_new : used tune mu0 (new_move tune mu0)
| used_call choice m X mu : used tune mu0 m -> used tune mu0 (snd (get_direction choice m X mu)).
Definition cached (tune : bool) (mu0 : R) (m : move) : Prop := m_tune m = tune /\ m_mu0 m = mu0 /\
  forall k, m_nsamples m = Some k -> m_perms m = permutations2 k /\ m_nperms m = length (permutations2 k).
Lemma used_cached tune mu0 m : used tune mu0 m -> cached tune mu0 m.
Proof.
  induction 1 as [|choice m X mu U (A & B & C)]; [repeat split; discriminate|]. unfold get_direction. cbv zeta. cbn [snd]. unfold prepared.
  destruct (m_nsamples m) as [k|] eqn:E; [destruct (Nat.eqb_spec k (length X)) as [->|]|].
  - split; [exact A|]. split; [exact B|]. intros k Hk. rewrite E in Hk. now apply C.
  - cbn. split; [exact A|]. split; [exact B|]. intros k' Hk. injection Hk as <-. split; reflexivity.
  - cbn. split; [exact A|]. split; [exact B|]. intros k' Hk. injection Hk as <-. split; reflexivity.
Qed.
Lemma used_prepared tune mu0 m n : used tune mu0 m -> let m' := prepared m n in m_tune m' = tune /\ m_mu0 m' = mu0 /\ m_perms m' = permutations2 n /\ m_nperms m' = length (permutations2 n).
Proof.
  intros U. apply used_cached in U as (A & B & C). unfold prepared. destruct (m_nsamples m) as [k|] eqn:E; [destruct (Nat.eqb_spec k n) as [->|]|]; cbn.
  - destruct (C n eq_refl) as (C1 & C2). tauto.
  - tauto.
  - tauto.
Qed.
(** a move that was used before, with any numbers of walkers, moves like a new one *)
Theorem C114_move_history : forall choice tune mu0 m X mu, used tune mu0 m -> fst (get_direction choice m X mu) = fst (get_direction choice (new_move tune mu0) X mu).
Proof.
  intros choice tune mu0 m X mu U. destruct (used_prepared _ _ _ (length X) U) as (A & B & C & D). destruct (used_prepared _ _ _ (length X) (used_new tune mu0)) as (A' & B' & C' & D').
  unfold get_direction. cbv zeta. cbn [fst]. rewrite A, B, C, D, A', B', C', D'. reflexivity.
Qed.
Print Assumptions C114_move_history.
(** one direction per walker, the scaled difference of two different walkers, no two directions of the same ordered pair;
    refused exactly when there are not two walkers *)
Theorem C114_move : forall choice tune mu0 m X mu, draws_well choice -> used tune mu0 m ->
  ((exists r, fst (get_direction choice m X mu) = Ok r) <-> (2 <= length X)%nat) /\
  forall dirs flag, fst (get_direction choice m X mu) = Ok (dirs, flag) -> flag = tune /\ length dirs = length X /\
  exists pairs, length pairs = length X /\ NoDup pairs /\
    forall i, (i < length X)%nat -> let '(a, b) := nth i pairs (0, 0)%nat in (a < length X /\ b < length X /\ a <> b)%nat /\
      nth i dirs [] = map (fun '(x, y) => 2 * (if tune then mu else mu0) * (x - y)) (combine (nth a X []) (nth b X [])).
Proof.
  intros choice tune mu0 m X mu W U. destruct (used_prepared _ _ _ (length X) U) as (A & B & C & D). set (n := length X) in *.
  assert (K : (2 <= n)%nat <-> (n <> 0 /\ n <= length (permutations2 n))%nat). { rewrite permutations2_length. split; [intros H; split; [lia|nia]|intros (H1 & H2)]. destruct n as [|[|k]]; [lia|cbn in H2; lia|lia]. }
  unfold get_direction. cbv zeta. cbn [fst]. fold n. rewrite A, B, C, D. split.
  - rewrite K. destruct (Nat.eqb_spec n 0) as [E|E]; [split; [intros (? & ?); discriminate|tauto]|]. destruct (Nat.ltb_spec (length (permutations2 n)) n) as [L|L]; [split; [intros (? & ?); discriminate|lia]|].
    split; [intros _; split; [exact E|exact L]|intros _; eauto].
  - intros dirs flag H. destruct (Nat.eqb_spec n 0) as [E|E]; [discriminate|]. destruct (Nat.ltb_spec (length (permutations2 n)) n) as [L|L]; [discriminate|].
    destruct (W _ _ L) as (W1 & W2 & W3). set (pairs := map (fun i => nth i (permutations2 n) (0, 0)%nat) (choice (length (permutations2 n)) n)) in *.
    assert (Lp : length pairs = n) by (unfold pairs; now rewrite map_length).
    assert (dirs = map (fun '(a, b) => map (fun '(x, y) => 2 * (if tune then mu else mu0) * (x - y)) (combine (nth a X []) (nth b X []))) pairs /\ flag = tune) as (-> & ->) by (split; congruence).
    split; [reflexivity|]. split; [now rewrite map_length|]. exists pairs. split; [exact Lp|]. split.
    + unfold pairs. pose proof (permutations2_nodup n) as Np. clear - W2 W3 Np. induction (choice _ n) as [|i l IH]; [constructor|]. inversion W2; subst. cbn [map]. constructor; [|apply IH; [assumption|intros j Hj; apply W3; now right]].
      intros Hin. apply in_map_iff in Hin as (j & E & Hj). assert (i = j); [|now subst]. symmetry. apply (proj1 (NoDup_nth _ (0, 0)%nat) Np); [apply W3; now right|apply W3; now left|exact E].
    + intros i Hi. destruct (nth i pairs (0, 0)%nat) as [a b] eqn:Ep. split.
      * apply permutations2_spec. assert (Hin : In (a, b) pairs) by (rewrite <- Ep; apply nth_In; lia). unfold pairs in Hin. apply in_map_iff in Hin as (j & <- & Hj). apply nth_In. now apply W3.
      * set (f := fun '(a, b) => _). rewrite (nth_indep _ [] (f (0, 0)%nat)) by (rewrite map_length; lia). rewrite map_nth, Ep. reflexivity.
Qed.
Print Assumptions C114_move.

(** ** instances *)
Definition ex_init : tree := [(s2l "b", [1; 2]); (s2l "a", [0])].
Definition ex_samples (z : tree) : tree := [(s2l "a", match get z (s2l "a") with Some v => v | None => [] end); (s2l "b", match get z (s2l "b") with Some v => v | None => [] end); (s2l "c", [7])].
Example C114_ex : exists l, log_prob_with_blobs (fun z => match get z (s2l "a") with Some [x] => Fin x | _ => NaN end) ex_samples ex_init false [[3; 4; 5]; [6; 7; 8]] = Ok l /\ length l = 2%nat /\
  ravel (unravel ex_init [3; 4; 5]) = [3; 4; 5].
Proof.
  assert (N : NoDup (map fst ex_init)) by (repeat constructor; cbn; intuition discriminate).
  destruct (C114_record (fun z => match get z (s2l "a") with Some [x] => Fin x | _ => NaN end) ex_samples ex_init) with (ignore_nan := false) (zs := [[3; 4; 5]; [6; 7; 8]]) as (l & E & L & _).
  - reflexivity.
  - exact N.
  - repeat constructor; cbn; intuition discriminate.
  - intros n [<-|[<-|[]]]; cbn; tauto.
  - exists l. split; [exact E|]. split; [exact L|]. now apply (proj1 (C114_ravel ex_init N)).
Qed.
Example C114_move_ex : draws_well (fun a k => seq 0 k) /\ exists dirs, fst (get_direction (fun a k => seq 0 k) (new_move true 1) [[1]; [2]; [4]] 1) = Ok (dirs, true) /\ length dirs = 3%nat.
Proof.
  assert (W : draws_well (fun a k => seq 0 k)) by (intros a k H; split; [apply seq_length|]; split; [apply seq_NoDup|]; intros i Hi; apply in_seq in Hi; lia). split; [exact W|].
  destruct (C114_move (fun a k => seq 0 k) true 1 (new_move true 1) [[1]; [2]; [4]] 1 W (used_new _ _)) as (A & B). destruct (proj2 A) as ([dirs flag] & E); [cbn; lia|].
  destruct (B dirs flag E) as (-> & L & _). exists dirs. split; [exact E|exact L].
Qed.
