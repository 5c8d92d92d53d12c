(** C98: the sign shown with a residual says on which side of the fitted model the
    data point lies. *)
From Verif Require Import RBase Gibbs Likelihood LikelihoodProofs Signs.
From Coq Require Import Lra Psatz Lia List. Import ListNotations.
Open Scope R_scope.

(** ** Specification *)
(** counts inside the range to which the likelihood clips its model *)
Definition in_range (x : R) : Prop := tiny <= x <= 10 ^ 15.
(** a channel the likelihood is defined on, with its model inside the clips *)
Definition regular (ds : dataset) (c : channel) (u : list R) : Prop :=
  chan_wf (ds_stat ds) c /\ in_range (rate_counts ds c u) /\
  match ds_stat ds with
  | Pstat => in_range (rate_counts ds c u + ch_ratio c * ch_b c)
  | Pgstat => 0 <= ch_b c
  | _ => True
  end.
(** the sign is + exactly when the counts reach the counts the fitted model
    (source plus background) predicts, and - otherwise *)
Definition sign_right (s counts predicted : R) : Prop :=
  (s = 1 /\ predicted <= counts) \/ (s = -1 /\ counts < predicted).

Lemma clip_id lo hi x : lo <= x <= hi -> clip lo hi x = x.
Proof. intros (H1 & H2). unfold clip. rewrite Rmax_left by lra. apply Rmin_left; lra. Qed.

Lemma side_pgstat s n B sg a : 0 < s -> 0 <= n -> 0 < sg -> 0 < a -> 0 <= B ->
  (s <= n - a * B <-> s + a * pgstat_background s n B sg a <= n).
Proof.
  intros Hs Hn Hg Ha HB.
  destruct (pgstat_spec s n B sg a Hs Hn Hg Ha) as (B0 & Sc). cbv zeta in Sc.
  set (b := pgstat_background s n B sg a) in *. clearbody b.
  assert (Hv : 0 < sg * sg) by nra. set (v := sg * sg) in *. clearbody v.
  set (mu := s + a * b) in *. assert (Hmu : 0 < mu) by (unfold mu; nra).
  assert (E : ((n / mu - 1) * a + (B - b) / v) * (mu * v) = (n - mu) * a * v + (B - b) * mu) by (field; lra).
  assert (Hmv : 0 < mu * v) by nra.
  assert (Hav : 0 < a * v) by nra.
  destruct Sc as [Sc|(Hb & Sc)].
  - rewrite Sc in E. rewrite Rmult_0_l in E.
    split; intros H.
    + destruct (Rle_or_lt mu n) as [|Hlt]; [assumption|]. exfalso.
      assert (b < B). { destruct (Rlt_or_le b B) as [|Hge]; [assumption|]. exfalso. nra. }
      assert (a * b < a * B) by nra. unfold mu in *. lra.
    + assert (B <= b). { destruct (Rle_or_lt B b) as [|Hlt]; [assumption|]. exfalso.
        assert (0 < (B - b) * mu) by nra. assert (0 <= (n - mu) * a * v) by (apply Rmult_le_pos; [apply Rmult_le_pos|]; lra). lra. }
      assert (a * B <= a * b) by nra. unfold mu in *. lra.
  - assert (L : (n - mu) * a * v + (B - b) * mu <= 0) by (rewrite <- E; nra).
    subst b. replace mu with s in * by (unfold mu; ring). rewrite Rminus_0_r in L.
    split; intros H; [nra|].
    assert (0 <= (n - s) * (a * v)) by nra. assert (0 <= B * s) by nra.
    assert (n - s = 0) by nra. assert (B = 0) by nra. nra.
Qed.

Lemma side_wstat s n m a : 0 < s -> 0 <= n -> 0 <= m -> 0 < a ->
  (s <= n - a * m <-> s + a * wstat_background s n m a <= n).
Proof.
  intros Hs Hn Hm Ha. unfold wstat_background. cbv zeta.
  destruct (Reqb_spec n 0) as [En|En].
  { subst n. assert (0 <= m / (1 + a)) by (apply Rmult_le_pos; [lra|left; apply Rinv_0_lt_compat; lra]). split; intros; nra. }
  destruct (Reqb_spec m 0) as [Em|Em].
  { subst m. destruct (Rleb_spec s (a / (a + 1) * n)) as [H|H].
    - assert (E : s + a * (n / (1 + a) - s / a) = a / (a + 1) * n) by (field; lra). rewrite E.
      assert (E2 : a / (a + 1) * n = n - n / (a + 1)) by (field; lra).
      assert (0 <= n / (a + 1)) by (apply Rmult_le_pos; [lra|left; apply Rinv_0_lt_compat; lra]).
      split; intros; lra.
    - split; intros; lra. }
  assert (HA : 0 < a * (a + 1)) by nra. assert (Hf : 0 < m * s) by nra.
  destruct (quad_root (a * (a + 1)) (a * (n + m) - (a + 1) * s) (m * s) HA (Rlt_le _ _ Hf)) as (_ & Q & P).
  specialize (P Hf). cbv zeta in P, Q.
  replace (4 * (a * (a + 1)) * (m * s)) with (4 * a * (a + 1) * m * s) in P, Q by ring.
  replace (2 * (a * (a + 1))) with (2 * a * (a + 1)) in P, Q by ring.
  match goal with |- context [s + a * ?x] => set (b := x) in * end. clearbody b.
  assert (K : a * b * (s + a * b - n) + (b - m) * (s + a * b) = 0) by nra.
  set (mu := s + a * b) in *. assert (Hmu : 0 < mu) by (unfold mu; nra). assert (Hab : 0 < a * b) by nra.
  split; intros H.
  - destruct (Rle_or_lt mu n) as [|Hlt]; [assumption|]. exfalso.
    assert (b < m) by nra. assert (a * b < a * m) by nra. unfold mu in *. lra.
  - assert (m <= b) by (destruct (Rle_or_lt m b) as [|Hlt]; [assumption|]; exfalso; nra).
    assert (a * m <= a * b) by nra. unfold mu in *. lra.
Qed.

Lemma sign_counts ds width c u net : 0 < ds_exposure ds -> 0 < width ->
  sign (net * unit_of ds width) (ce_model ds width c u) = (if Rleb (rate_counts ds c u) net then 1 else -1).
Proof.
  intros He Hw. unfold sign, ce_model, unit_of, rate_counts.
  set (r := dot _ _ * ch_area c).
  assert (E : net * (1 / (width * ds_exposure ds)) = (net / ds_exposure ds) / width) by (field; lra).
  rewrite E.
  assert (K : r / width <= net / ds_exposure ds / width <-> r * ds_exposure ds <= net).
  { unfold Rdiv. assert (0 < / width) by now apply Rinv_0_lt_compat.
    assert (I : net = net * / ds_exposure ds * ds_exposure ds) by (field; lra).
    split; intros H0.
    - apply Rmult_le_reg_r in H0; [|assumption]. rewrite I. apply Rmult_le_compat_r; lra.
    - apply Rmult_le_compat_r; [lra|]. apply (Rmult_le_reg_r (ds_exposure ds)); [assumption|]. lra. }
  destruct (Rleb_spec (r / width) (net / ds_exposure ds / width)) as [H|H];
  destruct (Rleb_spec (r * ds_exposure ds) net) as [H'|H']; try reflexivity; exfalso; [apply K in H; lra|apply K in H'; lra].
Qed.

Lemma side_all ds c u : regular ds c u ->
  (rate_counts ds c u <= observed_net (ds_stat ds) c <-> on_model ds c u <= ch_n c).
Proof.
  intros (Hw & Hr & Hx). unfold on_model, source_counts, observed_net.
  assert (Hpos : 0 < rate_counts ds c u) by (pose proof tiny_pos; destruct Hr; lra).
  destruct (ds_stat ds) eqn:Es; cbn [chan_wf profiled] in *; cbv zeta; rewrite ?(clip_id _ _ _ Hr).
  - reflexivity.
  - reflexivity.
  - rewrite (clip_id _ _ _ Hx). split; intros; lra.
  - destruct Hw as (H1 & H2 & H3). now apply side_pgstat.
  - destruct Hw as (H1 & H2 & H3). now apply side_wstat.
Qed.

(** ** Theorems *)
(** observed data: in every channel, for all five statistics, the sign is that of
    counts minus the model of the likelihood (profiled background included), although
    it is computed from the net spectrum and the source model alone *)
Theorem C98_observed ds width c u : regular ds c u -> 0 < ds_exposure ds -> 0 < width ->
  sign_right (sign_observed ds width c u) (ch_n c) (on_model ds c u).
Proof.
  intros Hr He Hw. unfold sign_observed, ce_data. rewrite sign_counts by assumption.
  pose proof (side_all ds c u Hr) as S.
  destruct (Rleb_spec (rate_counts ds c u) (observed_net (ds_stat ds) c)) as [H|H]; [left|right]; (split; [reflexivity|]).
  - tauto.
  - destruct (Rlt_or_le (ch_n c) (on_model ds c u)) as [|H']; [assumption|]. apply S in H'. lra.
Qed.
Print Assumptions C98_observed.

(** simulated data (bootstrap and posterior predictive): the same, except for pstat *)
Theorem C98_simulated ds width c u : regular ds c u -> ds_stat ds <> Pstat -> 0 < ds_exposure ds -> 0 < width ->
  sign_right (sign_simulated ds width c u) (ch_n c) (on_model ds c u).
Proof.
  intros Hr Hp He Hw.
  assert (E : sign_simulated ds width c u = sign_observed ds width c u).
  { unfold sign_simulated, sign_observed, ce_sim, ce_data. f_equal. f_equal.
    unfold simulated_net, observed_net. destruct (ds_stat ds); try congruence; ring. }
  rewrite E. now apply C98_observed.
Qed.
Print Assumptions C98_simulated.

(** for pstat the background is not subtracted from the simulated counts: the sign is
    that of counts minus the source alone, so every simulated channel whose counts lie
    between the source and the source plus background gets the wrong sign *)
Theorem C98_pstat_refuted ds width c u : regular ds c u -> ds_stat ds = Pstat -> 0 < ds_exposure ds -> 0 < width ->
  rate_counts ds c u <= ch_n c < rate_counts ds c u + ch_ratio c * ch_b c ->
  sign_simulated ds width c u = 1 /\ sign_observed ds width c u = -1 /\
  ch_n c < on_model ds c u /\ ~ sign_right (sign_simulated ds width c u) (ch_n c) (on_model ds c u).
Proof.
  intros (Hwf & Hr & Hx) Es He Hw (L1 & L2).
  assert (On : on_model ds c u = rate_counts ds c u + ch_ratio c * ch_b c).
  { unfold on_model. rewrite Es in *. now apply clip_id. }
  assert (Ss : sign_simulated ds width c u = 1).
  { unfold sign_simulated, ce_sim. rewrite sign_counts by assumption. rewrite Es. cbn [simulated_net].
    destruct (Rleb_spec (rate_counts ds c u) (ch_n c - 0 * 0)); [reflexivity|lra]. }
  assert (So : sign_observed ds width c u = -1).
  { unfold sign_observed, ce_data. rewrite sign_counts by assumption. rewrite Es. cbn [observed_net].
    destruct (Rleb_spec (rate_counts ds c u) (ch_n c - ch_ratio c * ch_b c)); [lra|reflexivity]. }
  rewrite On, Ss. repeat split; try assumption. intros [(_ & H)|(H & _)]; lra.
Qed.
Print Assumptions C98_pstat_refuted.

(** the hypothesis [0 <= ch_b] cannot be dropped for pgstat (whose background counts
    may be negative): whatever the other numbers are, counts below the source model
    but above it after the negative background is subtracted are shown as + *)
Theorem C98_negative_background_refuted ds width c u :
  chan_wf Pgstat c -> ds_stat ds = Pgstat -> in_range (rate_counts ds c u) ->
  0 < ds_exposure ds -> 0 < width ->
  ch_n c < rate_counts ds c u <= ch_n c - ch_ratio c * ch_b c ->
  sign_observed ds width c u = 1 /\ ch_n c < on_model ds c u.
Proof.
  intros (Hn & Hg & Ha) Es Hr He Hw (H1 & H2).
  assert (Hpos : 0 < rate_counts ds c u) by (pose proof tiny_pos; destruct Hr; lra).
  split.
  - unfold sign_observed, ce_data. rewrite sign_counts by assumption. rewrite Es. cbn [observed_net].
    destruct (Rleb_spec (rate_counts ds c u) (ch_n c - ch_ratio c * ch_b c)); [reflexivity|lra].
  - unfold on_model, source_counts. rewrite Es. cbv zeta. rewrite (clip_id _ _ _ Hr). cbn [profiled].
    destruct (pgstat_spec _ _ (ch_b c) _ _ Hpos Hn Hg Ha) as (B0 & _). nra.
Qed.
Print Assumptions C98_negative_background_refuted.

(** ** The hypotheses are met *)
Definition ex_chan (n b : R) : channel :=
  {| ch_n := n; ch_nerr := 1; ch_b := b; ch_berr := 1; ch_ratio := 1; ch_row := [1]; ch_area := 1 |}.
Definition ex_ds (st : stat) : dataset := {| ds_stat := st; ds_exposure := 1; ds_chans := [] |}.
Lemma ex_rate st n b : rate_counts (ex_ds st) (ex_chan n b) [2] = 2.
Proof.
  unfold rate_counts, dot. cbn [ex_ds ex_chan ch_row ch_area ds_exposure map].
  rewrite clip_id. 2:{ unfold tiny300. split.
    - apply Rle_trans with 1; [|lra]. rewrite <- Rinv_1. apply Rinv_le_contravar; [lra|]. apply pow_R1_Rle; lra.
    - apply Rle_trans with (10 ^ 1); [lra|]. apply Rle_pow; [lra|lia]. }
  unfold rmul2, rsum; simpl. ring.
Qed.
Lemma ex_range x : 1 <= x <= 10 -> in_range x.
Proof.
  intros H. split.
  - unfold tiny. apply Rle_trans with 1; [|lra]. rewrite <- Rinv_1. apply Rinv_le_contravar; [lra|]. apply pow_R1_Rle; lra.
  - apply Rle_trans with (10 ^ 1); [lra|]. apply Rle_pow; [lra|lia].
Qed.
Example C98_ex_regular : forall st, regular (ex_ds st) (ex_chan 3 4) [2].
Proof.
  intros st. unfold regular. rewrite ex_rate. cbn [ex_ds ds_stat ex_chan ch_b ch_ratio].
  split; [destruct st; cbn; lra|]. split; [apply ex_range; lra|]. destruct st; try exact I; [apply ex_range; lra|lra].
Qed.
Example C98_ex_pstat : sign_simulated (ex_ds Pstat) 1 (ex_chan 3 4) [2] = 1 /\ 3 < on_model (ex_ds Pstat) (ex_chan 3 4) [2].
Proof.
  destruct (C98_pstat_refuted (ex_ds Pstat) 1 (ex_chan 3 4) [2]) as (H1 & _ & H2 & _);
    [apply C98_ex_regular|reflexivity|cbn; lra|lra|rewrite ex_rate; cbn; lra|]. split; assumption.
Qed.
Example C98_ex_negative : sign_observed (ex_ds Pgstat) 1 (ex_chan 1 (-4)) [2] = 1 /\ 1 < on_model (ex_ds Pgstat) (ex_chan 1 (-4)) [2].
Proof.
  apply C98_negative_background_refuted; [cbn; lra|reflexivity|rewrite ex_rate; apply ex_range; lra|cbn; lra|lra|rewrite ex_rate; cbn; lra].
Qed.
