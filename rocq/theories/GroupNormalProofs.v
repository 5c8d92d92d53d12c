(** Gaussian-data significance grouping, optimal Gaussian binning, and the
    agreement of candidate and final background ratios. *)
From Verif Require Import RBase BaseFacts Gibbs Grouping GroupingProofs GroupingOpt Scale ScaleProofs
  Significance SignificanceProofs GroupSigProofs.

Definition ok_normal (c e : list R) (sig : R) (a b : nat) : bool :=
  (Rleb 0 (rsum (slice a b c) - sig * sqrt (rsum (slice a b (map sq e)))) &&
   Rltb 0 (rsum (slice a b (map sq e))))%bool.

Lemma sq_nonneg x : 0 <= sq x.
Proof. unfold sq. apply Rle_0_sqr. Qed.
Lemma sum_sq_nonneg a b e : 0 <= rsum (slice a b (map sq e)).
Proof. apply rsum_nonneg, Forall_slice. rewrite Forall_map, Forall_forall. intros; apply sq_nonneg. Qed.

Lemma normal_loop_sig c e sig : length c = length e -> forall rest i start idx,
  (start <= i)%nat -> skipn i (combine c e) = rest ->
  normal_loop rest i (length c - 1) sig (rsum (slice start i c)) (rsum (slice start i (map sq e))) idx =
  sig_loop (ok_normal c e sig) (length rest) i (length c - 1) start idx.
Proof.
  intros HL. induction rest as [|(d, x) rest IH]; intros i start idx Hsi Hd; [reflexivity|].
  cbn [normal_loop sig_loop length].
  destruct (skipn_cons_inv (combine c e) i (d, x) rest (0, 0) Hd) as (Hlt & Hx & HdS).
  rewrite combine_length, <- HL, Nat.min_id in Hlt. rewrite combine_nth in Hx by exact HL. injection Hx as Hx1 Hx2.
  assert (Ec : rsum (slice start i c) + d = rsum (slice start (S i) c)).
  { rewrite (slice_S c start i 0) by lia. rewrite rsum_app, Hx1; simpl; lra. }
  assert (Ee : rsum (slice start i (map sq e)) + x * x = rsum (slice start (S i) (map sq e))).
  { rewrite (slice_S (map sq e) start i 0) by (rewrite ?map_length; lia). rewrite rsum_app.
    rewrite (nth_indep _ 0 (sq 0)) by (rewrite map_length; lia). rewrite map_nth, Hx2. simpl. unfold sq. lra. }
  rewrite Ec, Ee. unfold ok_normal at 1 2.
  pose proof (sum_sq_nonneg start (S i) e) as Hv.
  set (S1 := rsum (slice start (S i) c)). set (V := rsum (slice start (S i) (map sq e))) in *.
  set (X := S1 - sig * sqrt V).
  assert (Hneg : (Rltb X 0 || Reqb V 0)%bool = negb (Rleb 0 X && Rltb 0 V)).
  { destruct (Rltb_spec X 0), (Reqb_spec V 0), (Rleb_spec 0 X), (Rltb_spec 0 V); simpl; try reflexivity; lra. }
  destruct (i =? length c - 1) eqn:Ei.
  - rewrite Hneg. reflexivity.
  - destruct (Rleb 0 X && Rltb 0 V)%bool eqn:Eo.
    + rewrite <- (IH (S i) (S i) (idx ++ [S i])); [|lia|exact HdS]. now rewrite !slice_nil_eq.
    + rewrite <- (IH (S i) start idx); [reflexivity|lia|exact HdS].
Qed.

Lemma normal_loop_scan c e sig : length c = length e ->
  normal_loop (combine c e) 0 (length c - 1) sig 0 0 [0%nat] = sig_scan (ok_normal c e sig) (length c).
Proof.
  intros HL. unfold sig_scan.
  replace (length c) with (length (combine c e)) at 2 by (rewrite combine_length; lia).
  rewrite <- (normal_loop_sig c e sig HL (combine c e) 0 0 [0%nat]); [|lia|reflexivity].
  now rewrite !slice_nil_eq.
Qed.

Lemma bin_var_slice e a b : bin_var e a b = rsum (slice a b (map sq e)).
Proof. unfold bin_var. now rewrite slice_map. Qed.

(** counts/uncertainty of the bin is at least [sig] *)
Definition reaches (c e : list R) (sig : R) (a b : nat) : Prop :=
  sig * sqrt (bin_var e a b) <= bin_cts c a b.

Lemma ok_normal_P c e sig a b : ok_normal c e sig a b = true <-> reaches c e sig a b /\ 0 < bin_var e a b.
Proof.
  unfold ok_normal, reaches. rewrite bin_var_slice. unfold bin_cts.
  rewrite andb_true_iff, Rleb_true, Rltb_true. split; intros (A & B); split; lra.
Qed.
Lemma normal_okf_P c e sig a b : normal_okf c e sig a b = true <-> reaches c e sig a b.
Proof. unfold normal_okf, reaches. rewrite bin_var_slice. unfold bin_cts. rewrite Rleb_true. split; lra. Qed.

Lemma group_sig_normal_spec c e sig fl s : group_sig_normal c e sig = Ok (fl, s) ->
  0 < sig /\ length c = length e /\ valid_flags fl (length c) /\
  (s = true <-> Forall (fun p => reaches c e sig (fst p) (snd p)) (bins fl)) /\
  Forall (fun p => reaches c e sig (fst p) (snd p) /\ 0 < bin_var e (fst p) (snd p) /\
     forall k, (fst p < k < snd p)%nat -> ~ (reaches c e sig (fst p) k /\ 0 < bin_var e (fst p) k)) (removelast (bins fl)).
Proof.
  unfold group_sig_normal. destruct (Nat.eqb_spec (length c) (length e)) as [HL|]; [|discriminate].
  cbn [negb]. destruct (Rleb_spec sig 0) as [|Hs]; [discriminate|].
  destruct c as [|c0 c']; [discriminate|]. set (c := c0 :: c') in *.
  rewrite normal_loop_scan by exact HL. intros H. injection H as <- <-.
  assert (Hn : (0 < length c)%nat) by (simpl; lia).
  pose proof (sig_scan_spec (ok_normal c e sig) (length c) Hn) as Hr. pose proof (proj1 Hr) as Hg.
  split; [lra|]. split; [exact HL|]. split; [apply good_idx_flags, Hg|].
  rewrite bins_flags_of by exact Hg. split.
  - rewrite forallb_Forall, !Forall_forall. split; intros HF p Hp; specialize (HF p Hp); now apply normal_okf_P.
  - pose proof (scan_minimal _ _ _ Hr) as Hm. rewrite Forall_forall in *. intros p Hp. destruct (Hm p Hp) as (A & B).
    apply ok_normal_P in A as (A1 & A2). split; [exact A1|]. split; [exact A2|].
    intros k Hk HP. apply ok_normal_P in HP. rewrite (B k) in HP by lia. discriminate.
Qed.

(** C06: a zero-variance segment is reported as a success *)
Lemma group_sig_normal_zero_success sig : 0 < sig ->
  exists fl, group_sig_normal [0] [0] sig = Ok (fl, true) /\ bins fl = [(0, 1)%nat] /\ bin_var [0] 0 1 = 0.
Proof.
  intros Hs. unfold group_sig_normal. cbn [length Nat.eqb negb].
  destruct (Rleb_spec sig 0); [lra|]. cbn [combine normal_loop length Nat.sub Nat.eqb Nat.ltb Nat.leb andb].
  rewrite andb_false_r. cbn [pairs hd forallb fst snd flags_of map seq existsb Nat.eqb orb].
  assert (E : normal_okf [0] [0] sig 0 1 = true).
  { apply normal_okf_P. unfold reaches, bin_var, bin_cts, slice, sq. simpl.
    replace (0 * 0 + 0) with 0 by lra. rewrite sqrt_0. lra. }
  rewrite E. eexists. split; [reflexivity|]. split; [reflexivity|].
  unfold bin_var, slice, sq. simpl. lra.
Qed.

(** ** optimal Gaussian binning *)
Lemma sqrt_add_le x y : 0 <= x -> 0 <= y -> sqrt (x + y) <= sqrt x + sqrt y.
Proof.
  intros Hx Hy. pose proof (sqrt_pos x). pose proof (sqrt_pos y).
  rewrite <- (sqrt_Rsqr (sqrt x + sqrt y)) by lra. apply sqrt_le_1_alt.
  unfold Rsqr. rewrite Rmult_plus_distr_l, !Rmult_plus_distr_r, !sqrt_sqrt by assumption. nra.
Qed.

Lemma find_first_nth {A} (p : A -> bool) (d : A) l m : find_first p l = Some m ->
  (m < length l)%nat /\ p (nth m l d) = true.
Proof.
  revert m; induction l as [|x l IH]; intros m H; [discriminate|]. cbn [find_first] in H.
  destruct (p x) eqn:E.
  - injection H as <-. simpl. split; [lia|exact E].
  - destruct (find_first p l) as [k|]; [|discriminate]. injection H as <-.
    destruct (IH k eq_refl). simpl. split; [lia|assumption].
Qed.

Lemma length_cumsumR l : forall acc, length (cumsumR acc l) = length l.
Proof. induction l as [|x l IH]; intros acc; simpl; [reflexivity|now rewrite IH]. Qed.

Lemma ext_normal_sound c e sig n : length c = n -> length e = n -> 0 < sig -> forall i j j', (i <= j < n)%nat ->
  ext_normal c e sig i j = Some j' -> (j <= j' < n)%nat /\ ok_normal c e sig i (S j') = true.
Proof.
  intros Hc He Hsg i j j' Hij. unfold ext_normal.
  set (cts := rsum (slice i (S j) c)). set (V := rsum (slice i (S j) (map sq e))).
  assert (HV : 0 <= V) by apply sum_sq_nonneg.
  destruct (Rltb_spec (cts - sig * sqrt V) 0) as [H1|H1]; cbn [orb].
  2: destruct (Reqb_spec (sqrt V) 0) as [H2|H2].
  3:{ intros H. injection H as <-. split; [lia|]. apply ok_normal_P. unfold reaches, bin_cts. rewrite bin_var_slice.
      fold cts V. split; [lra|]. destruct (Req_dec V 0) as [E|]; [|lra]. rewrite E, sqrt_0 in H2. lra. }
  all: destruct (find_first _ _) as [m|] eqn:E; [|discriminate]; intros H; injection H as <-;
    apply (find_first_nth _ (0, 0)) in E as (Hm & HE);
    rewrite combine_length, !map_length, !length_cumsumR, !skipn_length, map_length in Hm;
    rewrite combine_nth in HE by (rewrite !map_length, !length_cumsumR, !skipn_length, map_length; lia);
    cbn [fst snd] in HE;
    (assert (Hm1 : (m < length (cumsumR 0 (skipn (S j) c)))%nat) by (rewrite length_cumsumR, skipn_length; lia));
    (assert (Hm2 : (m < length (cumsumR 0 (skipn (S j) (map sq e))))%nat) by (rewrite length_cumsumR, skipn_length, map_length; lia));
    rewrite (nth_indep _ 0 ((fun t => cts + t) 0)) in HE by (rewrite map_length; exact Hm1);
    rewrite (nth_indep (map (fun t => sqrt V + sqrt t) _) 0 ((fun t => sqrt V + sqrt t) 0)) in HE by (rewrite map_length; exact Hm2);
    rewrite (map_nth (fun t => cts + t)), (map_nth (fun t => sqrt V + sqrt t)) in HE;
    rewrite !nth_cumsumR in HE by (rewrite skipn_length, ?map_length; lia);
    rewrite !Rplus_0_l in HE;
    (split; [lia|]);
    apply ok_normal_P; unfold reaches, bin_cts; rewrite bin_var_slice;
    (assert (Sc : rsum (slice i (S (j + m + 1)) c) = cts + rsum (firstn (S m) (skipn (S j) c))) by
      (unfold cts; rewrite <- (slice_app c i (S j) (S (j + m + 1))) by lia; rewrite rsum_app;
       f_equal; unfold slice at 1; do 2 f_equal; lia));
    (assert (Sv : rsum (slice i (S (j + m + 1)) (map sq e)) = V + rsum (firstn (S m) (skipn (S j) (map sq e)))) by
      (unfold V; rewrite <- (slice_app (map sq e) i (S j) (S (j + m + 1))) by lia; rewrite rsum_app;
       f_equal; unfold slice at 1; do 2 f_equal; lia));
    rewrite Sc, Sv;
    set (V2 := rsum (firstn (S m) (skipn (S j) (map sq e)))) in *;
    (assert (HV2 : 0 <= V2) by
      (unfold V2; apply rsum_nonneg; replace (firstn (S m) (skipn (S j) (map sq e)))
         with (slice (S j) (S j + S m) (map sq e)) by (unfold slice; f_equal; lia);
       apply Forall_slice; rewrite Forall_map, Forall_forall; intros; apply sq_nonneg));
    apply andb_true_iff in HE as (HE1 & HE2); apply Rleb_true in HE1; apply Rltb_true in HE2;
    pose proof (Rmult_le_compat_l sig _ _ (Rlt_le _ _ Hsg) (sqrt_add_le V V2 HV HV2)) as HQ; split; [lra|];
    destruct (Req_dec (V + V2) 0) as [E0|]; [|lra];
    assert (EV : V = 0) by lra; assert (EV2 : V2 = 0) by lra; rewrite EV, EV2, sqrt_0 in HE2; lra.
Qed.

Lemma group_optsig_normal_spec fwhm net c e sig :
  length fwhm = length net -> length net = length c -> length c = length e -> 0 < sig ->
  exists fl s, group_optsig_normal fwhm net c e sig = Ok (fl, s) /\
  valid_flags fl (length c) /\
  (s = true <-> Forall (fun p => reaches c e sig (fst p) (snd p)) (bins fl)) /\
  Forall (fun p => (exists en, natural_end (calc_optimal_binning fwhm net) (fst p) en /\ (en <= snd p)%nat) /\
                   reaches c e sig (fst p) (snd p) /\ 0 < bin_var e (fst p) (snd p)) (removelast (bins fl)).
Proof.
  intros L1 L2 L3 Hs. unfold group_optsig_normal. rewrite L1, L2, L3, !Nat.eqb_refl. cbn [negb andb].
  destruct (Rleb_spec sig 0); [lra|]. unfold group_optsig_normal_b.
  pose proof (calc_length fwhm net) as HC. pose proof (calc_bint_ok fwhm net) as Hb.
  set (bint := calc_optimal_binning fwhm net) in *.
  assert (He : forall i j j', (i <= j < length bint)%nat -> ext_normal c e sig i j = Some j' ->
     (j <= j' < length bint)%nat /\ ok_normal c e sig i (S j') = true).
  { apply ext_normal_sound; congruence || lra. }
  destruct (opt_scan_spec bint (ext_normal c e sig) Hb) as (idx & E & Hr).
  { intros i j j' H H'. exact (proj1 (He i j j' H H')). }
  rewrite E. cbn [bind]. eexists; eexists; split; [reflexivity|].
  pose proof (proj1 Hr) as Hg. split; [rewrite <- L3, <- L2, <- L1, <- HC; apply good_idx_flags, Hg|].
  rewrite bins_flags_of by exact Hg. split.
  { rewrite forallb_Forall, !Forall_forall. split; intros HF p Hp; specialize (HF p Hp); now apply normal_okf_P. }
  destruct Hr as ((Hss & Hbd & Hh) & Hr). destruct Hr as [(E0 & ->)|(pre & last & -> & Hcl & _)]; [constructor|].
  rewrite pairs_app, removelast_snoc.
  assert (Hl : (last < length bint)%nat).
  { rewrite Forall_forall in Hbd. apply Hbd. apply in_or_app; right; now left. }
  rewrite Forall_forall in *. intros p Hp.
  assert (Hf : (fst p < length bint)%nat) by (eapply pairs_fst_lt; eassumption).
  destruct (Hcl p Hp) as (H1 & H2). destruct (opt_end_spec bint (fst p) Hb Hf) as (Hoe & _).
  destruct (He _ _ _ Hoe H1) as (A & B). replace (S (snd p - 1)) with (snd p) in B by lia.
  apply ok_normal_P in B. split; [|exact B].
  eexists; split; [apply opt_end_natural; assumption|lia].
Qed.
