(** C39-C42 *)
From Verif Require Import RBase Gibbs Likelihood LikelihoodProofs.

(** ** C39.  [ll_poisson n mu] is log Poisson(n; mu) up to a constant in mu;
    [supported m b'] excludes only the backgrounds of zero likelihood. *)
Theorem C39_wstat_nonneg : forall s n m a, 0 < s -> 0 <= n -> 0 <= m -> 0 < a ->
  0 <= wstat_background s n m a /\ (0 < m -> 0 < wstat_background s n m a).
Proof. exact wstat_nonneg. Qed.
Print Assumptions C39_wstat_nonneg.
Theorem C39_wstat_optimal : forall s n m a b', 0 < s -> 0 <= n -> 0 <= m -> 0 < a ->
  supported m b' ->
  let b := wstat_background s n m a in
  ll_poisson n (s + a * b') + ll_poisson m b' <= ll_poisson n (s + a * b) + ll_poisson m b.
Proof. exact wstat_optimal. Qed.
Print Assumptions C39_wstat_optimal.

(** ** C40 *)
Theorem C40_pgstat_nonneg : forall s n B sg a, 0 < s -> 0 <= n -> 0 < sg -> 0 < a ->
  0 <= pgstat_background s n B sg a.
Proof. intros s n B sg a Hs Hn Hg Ha. exact (proj1 (pgstat_spec s n B sg a Hs Hn Hg Ha)). Qed.
Print Assumptions C40_pgstat_nonneg.
Theorem C40_pgstat_optimal : forall s n B sg a b', 0 < s -> 0 <= n -> 0 < sg -> 0 < a -> 0 <= b' ->
  let b := pgstat_background s n B sg a in
  ll_poisson n (s + a * b') + ll_normal B b' sg <= ll_poisson n (s + a * b) + ll_normal B b sg.
Proof. exact pgstat_optimal. Qed.
Print Assumptions C40_pgstat_optimal.
(** on the level of the fitted deviance: in every channel, for every photon
    model [u], no admissible background lowers it *)
Theorem C40_profile_deviance : forall ds c u b, (ds_stat ds = Wstat \/ ds_stat ds = Pgstat) -> chan_wf (ds_stat ds) c ->
  match ds_stat ds with Wstat => supported (ch_b c) b | _ => 0 <= b end ->
  neg_double (loglike_chan ds c u) <= dev_with_background ds c u b.
Proof. exact profile_deviance. Qed.
Print Assumptions C40_profile_deviance.
Example C40_ex : let c := {| ch_n := 5; ch_nerr := 1; ch_b := 3; ch_berr := 1; ch_ratio := 1/2; ch_row := [1; 2]; ch_area := 1 |} in
  chan_wf Wstat c /\ chan_wf Pgstat c /\ chan_wf Chi2 c /\ chan_wf Cstat c /\ supported (ch_b c) 2.
Proof. cbn. repeat split; try lra. left. lra. Qed.

(** ** C41 *)
Theorem C41_deviance_nonneg : forall dss, 0 <= dev_total dss.
Proof. exact dev_total_nonneg. Qed.
Print Assumptions C41_deviance_nonneg.
Theorem C41_point_nonneg : forall ds u, Forall (fun d => 0 <= d) (dev_point ds u).
Proof. exact dev_point_nonneg. Qed.
Print Assumptions C41_point_nonneg.
Theorem C41_totals : forall dss,
  dev_total dss = rsum (map (fun p => dev_group (fst p) (snd p)) dss) /\
  dev_total dss = rsum (concat (map (fun p => dev_point (fst p) (snd p)) dss)) /\
  forall ds u, dev_group ds u = rsum (dev_point ds u).
Proof. intros dss. split; [exact (dev_total_sum dss)|]. split; [exact (dev_total_channels dss)|exact dev_group_sum]. Qed.
Print Assumptions C41_totals.
(** specification of the expected counts of a channel: exposure x area x folded photon
    model, plus the scaled background for pstat; every number is kept within the
    range given in the code *)
Definition bounded (lo hi x : R) : R := Rmax lo (Rmin hi x).
Fixpoint fold_counts (row u : list R) : R :=
  match row, u with r :: row', x :: u' => r * bounded (/ 10 ^ 300) (10 ^ 300) x + fold_counts row' u' | _, _ => 0 end.
Definition expected (ds : dataset) (c : channel) (u : list R) : R :=
  let src := ds_exposure ds * (ch_area c * fold_counts (ch_row c) u) in
  bounded (/ 10 ^ 30) (10 ^ 15)
    (match ds_stat ds with Pstat => src + ch_ratio c * ch_b c | _ => src end).
Lemma clip_bounded lo hi x : lo <= hi -> clip lo hi x = bounded lo hi x.
Proof. intros H. unfold clip, bounded, Rmin, Rmax. repeat destruct Rle_dec; lra. Qed.
Lemma tiny_lt : / 10 ^ 30 <= 10 ^ 15.
Proof. apply Rle_trans with 1; [|apply pow_R1_Rle; lra]. rewrite <- Rinv_1. apply Rinv_le_contravar; [lra|apply pow_R1_Rle; lra]. Qed.
Lemma tiny300_lt : / 10 ^ 300 <= 10 ^ 300.
Proof. apply Rle_trans with 1; [|apply pow_R1_Rle; lra]. rewrite <- Rinv_1. apply Rinv_le_contravar; [lra|apply pow_R1_Rle; lra]. Qed.
Lemma fold_counts_dot row : forall u, dot row (map (clip tiny300 (10 ^ 300)) u) = fold_counts row u.
Proof.
  induction row as [|r row IH]; intros [|x u]; try reflexivity. cbn [map fold_counts]. rewrite <- IH.
  change (dot (r :: row) (clip tiny300 (10 ^ 300) x :: map (clip tiny300 (10 ^ 300)) u))
    with (r * clip tiny300 (10 ^ 300) x + dot row (map (clip tiny300 (10 ^ 300)) u)).
  rewrite (clip_bounded tiny300 (10 ^ 300) x tiny300_lt). reflexivity.
Qed.
Lemma on_model_expected ds c u : In (ds_stat ds) [Chi2; Cstat; Pstat] -> on_model ds c u = expected ds c u.
Proof.
  intros H. unfold on_model, expected, source_counts, rate_counts. rewrite fold_counts_dot. unfold tiny.
  destruct (ds_stat ds); try (cbn in H; intuition discriminate); rewrite clip_bounded by exact tiny_lt; f_equal; ring.
Qed.
(** zero deviance exactly when every channel's data are the expected counts *)
Theorem C41_zero_iff_perfect : forall dss,
  Forall (fun p => In (ds_stat (fst p)) [Chi2; Cstat; Pstat] /\ Forall (chan_wf (ds_stat (fst p))) (ds_chans (fst p))) dss ->
  (dev_total dss = 0 <->
   Forall (fun p => Forall (fun c => ch_n c = expected (fst p) c (snd p)) (ds_chans (fst p))) dss).
Proof.
  intros dss H. rewrite (dev_total_zero dss H). rewrite !Forall_forall. rewrite Forall_forall in H.
  split; intros K p Hp; specialize (K p Hp); rewrite Forall_forall in *; intros c Hc; specialize (K c Hc); destruct (H p Hp) as (Hs & _).
  - now rewrite <- on_model_expected.
  - now rewrite on_model_expected.
Qed.
Print Assumptions C41_zero_iff_perfect.
(** the deviance of a channel in closed form *)
Theorem C41_formula : forall ds c u, chan_wf (ds_stat ds) c ->
  let n := ch_n c in let mu := expected ds c u in
  match ds_stat ds with
  | Chi2 => neg_double (loglike_chan ds c u) = ((n - mu) / ch_nerr c) ^ 2
  | Cstat | Pstat => neg_double (loglike_chan ds c u) = 2 * (mu - n + xlogy n (n / mu))
  | _ => True
  end.
Proof.
  intros ds c u Hw. cbv zeta. assert (P : 0 < expected ds c u).
  { unfold expected, bounded. eapply Rlt_le_trans; [|apply Rmax_l]. apply Rinv_0_lt_compat, pow_lt. lra. }
  destruct (ds_stat ds) eqn:E; try exact I; unfold loglike_chan, loglike_on, neg_double; rewrite E.
  - rewrite on_model_expected by (rewrite E; cbn; tauto). unfold normal_logp. replace (-0.5) with (- (1 / 2)) by lra.
    set (z := (ch_n c - expected ds c u) / ch_nerr c). field.
  - rewrite on_model_expected by (rewrite E; cbn; tauto). rewrite poisson_logp_gibbs; [lra|exact Hw|exact P].
  - rewrite on_model_expected by (rewrite E; cbn; tauto). rewrite poisson_logp_gibbs; [lra|exact Hw|exact P].
Qed.
Print Assumptions C41_formula.
(** with a profiled background, zero means: data = source + ratio * background data *)
Theorem C41_wstat_zero : forall ds c u, ds_stat ds = Wstat -> chan_wf Wstat c ->
  (loglike_chan ds c u = 0 <-> ch_n c = source_counts ds c u + ch_ratio c * ch_b c).
Proof. exact wstat_dev_zero. Qed.
Print Assumptions C41_wstat_zero.
Theorem C41_pgstat_zero : forall ds c u, ds_stat ds = Pgstat -> chan_wf Pgstat c ->
  (loglike_chan ds c u = 0 <-> 0 <= ch_b c /\ ch_n c = source_counts ds c u + ch_ratio c * ch_b c).
Proof. exact pgstat_dev_zero. Qed.
Print Assumptions C41_pgstat_zero.
(** the saturated terms are removed exactly and the clip at 0 is never active *)
Theorem C41_poisson_exact : forall n mu, 0 <= n -> 0 < mu ->
  poisson_logp n mu = ll_poisson n mu - ll_poisson n n /\ poisson_logp_sparse n mu = poisson_logp n mu.
Proof. intros n mu Hn Hm. split; [exact (poisson_logp_exact n mu Hn Hm)|exact (poisson_sparse_dense n mu Hn)]. Qed.
Print Assumptions C41_poisson_exact.

(** ** C42 *)
Theorem C42_residual_deviance : forall dss, rsum (map (fun r => r * r) (residual dss)) = dev_total dss.
Proof. exact residual_deviance. Qed.
Print Assumptions C42_residual_deviance.
