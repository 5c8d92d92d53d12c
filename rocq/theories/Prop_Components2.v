(** Theorems for C56-C59: Band and Compt, signs, quadrature error, documented formulas. *)
From Coquelicot Require Import Coquelicot.
From Verif Require Import RBase ModelAlg ModelAlgProofs Components ComponentSpec ComponentProofs ComponentShapes ComponentQuad Prop_Components.
From Coq Require Import List Lia Lra Psatz.
Import ListNotations.
Open Scope R_scope.

(** ** C56 Band functions and Compt *)
(** the documented Band function, when [alpha - beta] is not below [1 / Ec] *)
Theorem C56_band_documented_partial : forall alpha beta Ec K e, 0 < Ec -> 0 < e -> 1 / Ec <= alpha - beta ->
  band alpha beta Ec K e = d_band alpha beta Ec K e.
Proof. exact band_documented. Qed.
Print Assumptions C56_band_documented_partial.
(** and it is continuous there, the break included *)
Theorem C56_band_continuous_partial : forall alpha beta Ec K e, 0 < Ec -> 0 < e -> 1 / Ec <= alpha - beta ->
  continuous (band alpha beta Ec K) e.
Proof. exact band_continuous. Qed.
Print Assumptions C56_band_continuous_partial.
(** outside that region the code moves the break to 1 keV and the spectrum jumps there *)
Theorem C56_band_refuted : forall alpha beta Ec K, 0 < Ec -> 0 < K -> alpha - beta < 1 / Ec ->
  ~ continuous (band alpha beta Ec K) 1.
Proof. exact band_jump. Qed.
Print Assumptions C56_band_refuted.
(** for [0 < alpha - beta < 1 / Ec], where the documentation defines a continuous spectrum,
    the code differs from it *)
Theorem C56_band_documented_refuted : exists alpha beta Ec K e,
  acomp_range (Band alpha beta Ec K) /\ beta < alpha /\ 0 < e /\ band alpha beta Ec K e <> d_band alpha beta Ec K e.
Proof.
  exists (-2), (-2 - / 20), 10, 1, 1.
  split. { unfold acomp_range, K_rng, rng. assert (10 ^ 10 = 10000000000) by (cbn; lra). assert (10 ^ 4 = 10000) by (cbn; lra). rewrite H, H0. repeat split; lra. }
  split; [lra|]. split; [lra|]. rewrite band_clamped by lra. destruct (Rlt_dec 1 1); [lra|].
  unfold d_band. destruct (Rlt_dec 1 ((-2 - (-2 - / 20)) * 10)); [lra|]. intros E. rewrite !Rmult_1_l in E. unfold Rpower in E.
  rewrite <- !exp_plus in E. apply exp_inv in E.
  replace ((-2 - (-2 - / 20)) * 10 / 100) with (1 / 200) in E by lra.
  replace (-2 - (-2 - / 20)) with (1 / 20) in E by lra.
  assert (L1 : ln (1 / 200) = - ln 2 - ln 100) by (replace 200 with (2 * 100) by lra; rewrite ln_div, ln_mult, ln_1 by lra; ring).
  assert (L2 : ln (1 / 100) = - ln 100) by (rewrite ln_div, ln_1 by lra; ring).
  rewrite L1, L2 in E.
  assert (0 < ln 2) by (rewrite <- ln_1; apply ln_increasing; lra).
  assert (ln 100 > 1). { rewrite <- (ln_exp 1). apply ln_increasing; [apply exp_pos|]. pose proof exp_le_3. lra. }
  assert (ln 2 <= 1) by (pose proof (ln_le_sub1 2 ltac:(lra)); lra). lra.
Qed.
Print Assumptions C56_band_documented_refuted.
(** [BandEp] is [Band] with [Ec = Ep / (2 + alpha)], and is the documented function *)
Theorem C56_band_ep_partial : forall alpha beta Ep K e, -2 < alpha -> 0 < Ep -> 0 < e -> (2 + alpha) / Ep <= alpha - beta ->
  band_ep alpha beta Ep K e = band alpha beta (Ep / (2 + alpha)) K e /\
  band_ep alpha beta Ep K e = d_band_ep alpha beta Ep K e.
Proof. intros. split; [apply band_ep_is_band|apply band_ep_documented]; lra. Qed.
Print Assumptions C56_band_ep_partial.
(** [Ep] is where [E^2 N(E)] peaks, when there is a peak ([beta < -2]) *)
Theorem C56_band_ep_peak : forall alpha beta Ep K e, -2 < alpha -> beta < -2 -> 0 < Ep -> 0 < K -> 0 < e ->
  (2 + alpha) / Ep <= alpha - beta ->
  e ^ 2 * band_ep alpha beta Ep K e <= Ep ^ 2 * band_ep alpha beta Ep K Ep.
Proof.
  intros alpha beta Ep K e Ha Hb HE HK He H. rewrite !band_ep_is_band by lra.
  pose proof (band_peak alpha beta (Ep / (2 + alpha)) K e Ha Hb ltac:(apply Rdiv_lt_0_compat; lra) HK He) as P.
  replace ((2 + alpha) * (Ep / (2 + alpha))) with Ep in P by (field; lra). apply P.
  replace (1 / (Ep / (2 + alpha))) with ((2 + alpha) / Ep) by (field; lra). exact H.
Qed.
Print Assumptions C56_band_ep_peak.
Theorem C56_compt_peak_partial : forall alpha Ep K e, alpha <= 2 -> 0 < Ep -> 0 < K -> 0 < e ->
  e ^ 2 * compt alpha Ep K e <= Ep ^ 2 * compt alpha Ep K Ep.
Proof. exact compt_peak. Qed.
Print Assumptions C56_compt_peak_partial.
(** for [alpha > 2], which the configured range (up to 10) allows, [Ep] is the lowest
    point of the energy spectrum *)
Theorem C56_compt_peak_refuted : forall alpha Ep K, 2 < alpha -> 0 < Ep -> 0 < K ->
  (forall e, 0 < e -> Ep ^ 2 * compt alpha Ep K Ep <= e ^ 2 * compt alpha Ep K e) /\
  Ep ^ 2 * compt alpha Ep K Ep < (2 * Ep) ^ 2 * compt alpha Ep K (2 * Ep).
Proof.
  intros alpha Ep K Ha HE HK. split; [intros e He; now apply compt_trough|].
  rewrite !compt_log by lra. apply Rmult_lt_compat_l; [exact HK|]. apply exp_increasing. rewrite ln_mult by lra.
  replace ((2 - alpha) * Ep / Ep) with (2 - alpha) by (field; lra).
  replace ((2 - alpha) * (2 * Ep) / Ep) with (2 * (2 - alpha)) by (field; lra).
  assert (ln 2 < 1).
  { apply exp_lt_inv. rewrite exp_ln by lra. pose proof (exp_ineq1 1 ltac:(lra)). lra. }
  nra.
Qed.
Print Assumptions C56_compt_peak_refuted.
Example C56_witness : 1 / 300 <= -1 - -2 /\ (2 + -1) / 300 <= -1 - - (5 / 2) /\ - (5 / 2) < -2 /\ acomp_range (Compt 3 15 1).
Proof.
  repeat split; try lra; cbn; unfold K_rng, rng;
    assert (10 ^ 10 = 10000000000) by (cbn; lra); assert (10 ^ 4 = 10000) by (cbn; lra); assert (10 ^ 2 = 100) by (cbn; lra); lra.
Qed.

(** ** C57 signs *)
(** every built-in additive component, with its parameters inside the configured ranges,
    returns one non-negative value per bin, with either integration method *)
Theorem C57_additive_nonneg_partial : forall m c g, acomp_range c -> acomp_ok c -> egrid g ->
  length (acomp_eval m c g) = (length g - 1)%nat /\ Forall (fun x => 0 <= x) (acomp_eval m c g).
Proof.
  intros m c g HR HO Hg. split; [|now apply acomp_nonneg].
  unfold acomp_eval. destruct (acomp_fn c) as [k|f] eqn:E.
  - rewrite integrate_bins. apply bins_length.
  - destruct c; cbn [acomp_fn] in E; try discriminate; injection E as <-.
    + apply broken_length.
    + unfold lorentz. now rewrite map_length, anaint_bins, bins_length.
    + unfold power_law. now rewrite map_length, powerlaw_bins, bins_length.
    + unfold pl_flux. now rewrite map_length, powerlaw_bins, bins_length.
    + unfold pl_flux. now rewrite map_length, powerlaw_bins, bins_length.
Qed.
Print Assumptions C57_additive_nonneg_partial.
(** absorption components never amplify and never reverse a spectrum: values in [0, 1];
    [ExpFac] never attenuates *)
Theorem C57_multiplicative_partial : forall m c g, mcomp_range c -> mcomp_ok c -> egrid g ->
  length (mcomp_eval m c g) = (length g - 1)%nat /\
  Forall (fun x => if attenuates c then 0 <= x <= 1 else 1 <= x) (mcomp_eval m c g).
Proof.
  intros m c g HR HO Hg. split.
  - unfold mcomp_eval. destruct m; cbn [integrate]; [rewrite trapz_bins|rewrite simpson_bins]; apply bins_length.
  - pose proof (fun e => mcomp_sign c e HR HO) as H. unfold mcomp_eval. destruct (attenuates c).
    + apply mean_between; [exact Hg|]. intros e He. specialize (H e He). lra.
    + assert (Forall (fun x => 1 <= x) (integrate m false (mcomp_fn c) g)); [|assumption].
      destruct m; cbn [integrate]; [rewrite trapz_bins|rewrite simpson_bins]; apply bins_forall; intros i Hi;
        destruct (egrid_bin g i Hg Hi) as [A B];
        pose proof (H _ A) as C1; pose proof (H (nth (S i) g 0) ltac:(lra)) as C2;
        pose proof (H (1 / 2 * (nth i g 0 + nth (S i) g 0)) ltac:(lra)) as C3; lra.
Qed.
Print Assumptions C57_multiplicative_partial.
Lemma oma_nonzero a : (if negb (Reqb a 1) then 1 - a else 1) <> 0.
Proof. destruct (Reqb_spec a 1); cbn [negb]; lra. Qed.
(** no formula divides by zero when the parameters are in their ranges, except for a zero
    line width, a zero edge energy or a flux band off the positive axis *)
Theorem C57_no_division_by_zero_partial : forall e, 0 < e ->
  (forall c, acomp_range c -> acomp_ok c -> Forall (fun d => d <> 0) (adivs c e)) /\
  (forall c, mcomp_range c -> mcomp_ok c -> Forall (fun d => d <> 0) (mdivs c e)).
Proof.
  intros e He. split.
  - intros c HR HO. destruct c; cbn [adivs acomp_range acomp_ok] in *.
    + destruct HR as (_ & _ & [H _] & _). repeat constructor; lra.
    + destruct HR as ([H1 _] & _ & [H2 _] & _). repeat constructor; [lra|].
      apply Rgt_not_eq. apply Rdiv_lt_0_compat; lra.
    + destruct HR as (_ & H & _). apply rng_pos in H. pose proof (Rpower_pos (e / Eb) alpha). repeat constructor; lra.
    + destruct HR as (H & _). apply rng_pos in H. repeat constructor; [lra| |].
      * apply Rgt_not_eq. repeat apply Rmult_lt_0_compat; lra.
      * apply Rgt_not_eq. unfold expm1. destruct (Rleb 50 (e / kT)); apply expm1_pos; [lra|now apply Rdiv_lt_0_compat].
    + destruct HR as (H & _). apply rng_pos in H. repeat constructor; [lra|].
      apply Rgt_not_eq. unfold expm1. destruct (Rleb 50 (e / kT)); apply expm1_pos; [lra|now apply Rdiv_lt_0_compat].
    + destruct HR as (_ & H & _). apply rng_pos in H. constructor; [lra|]. constructor; [apply oma_nonzero|]. constructor; [apply oma_nonzero|constructor].
    + destruct HR as (_ & H & _). apply rng_pos in H. repeat constructor; lra.
    + destruct HR as (_ & H & _). apply rng_pos in H. repeat constructor; lra.
    + destruct HR as (_ & [H _] & _). repeat constructor. apply pow_nonzero. lra.
    + destruct HR as (H1 & H2 & _). apply rng_pos in H1. apply rng_pos in H2. pose proof PI_RGT_0.
      assert (0 < atan (2 * El / sigma)) by (rewrite <- atan_0; apply atan_increasing, Rdiv_lt_0_compat; lra). repeat constructor; lra.
    + destruct HR as ([H _] & _). repeat constructor; lra.
    + destruct HR as (H & _). apply rng_pos in H. repeat constructor; lra.
    + constructor; [apply oma_nonzero|constructor].
    + constructor; [apply oma_nonzero|]. constructor; [|constructor]. rewrite pl2_nth. apply Rgt_not_eq. now apply pl_int_pos.
    + constructor; [apply oma_nonzero|]. constructor; [apply oma_nonzero|]. constructor; [|constructor].
      rewrite pl2_nth. apply Rgt_not_eq. apply Rmult_lt_0_compat; [now apply pl_int_pos|].
      unfold keV_to_erg. apply Rdiv_lt_0_compat; [lra|apply pow_lt; lra].
    + destruct HR as (_ & H1 & _ & H2 & _). apply rng_pos in H1. apply rng_pos in H2. repeat constructor; lra.
  - intros c HR HO. destruct c; cbn [mdivs mcomp_range mcomp_ok] in *.
    + repeat constructor; lra.
    + repeat constructor; lra.
    + constructor.
    + pose proof PI_RGT_0. assert (0 < sqrt (2 * PI)) by (apply sqrt_lt_R0; lra). repeat constructor; [|lra].
      apply Rmult_integral_contrapositive_currified; lra.
    + destruct HR as [_ H]. apply rng_pos in H. repeat constructor; lra.
    + constructor.
Qed.
Print Assumptions C57_no_division_by_zero_partial.
(** the configured ranges do admit those values *)
Theorem C57_no_division_by_zero_refuted : exists c c' d,
  acomp_range c /\ mcomp_range c' /\ mcomp_range d /\
  In 0 (adivs c 1) /\ In 0 (mdivs c' 1) /\ In 0 (mdivs d 1).
Proof.
  exists (Gauss 6 0 1), (GAbs 1 0 1), (Edge 0 1).
  assert (10 ^ 10 = 10000000000) by (cbn; lra). assert (10 ^ 6 = 1000000) by (cbn; lra).
  repeat split; cbn [acomp_range mcomp_range adivs mdivs]; unfold K_rng, rng; try rewrite H; try rewrite H0; try lra.
  - left. cbn. ring.
  - right. left. reflexivity.
  - left. reflexivity.
Qed.
Print Assumptions C57_no_division_by_zero_refuted.
Example C57_witness : acomp_range (Gauss 6 (1 / 10) 1) /\ acomp_ok (Gauss 6 (1 / 10) 1) /\ mcomp_range (Edge 7 1) /\ mcomp_ok (Edge 7 1) /\ egrid [1; 2; 4].
Proof.
  assert (10 ^ 10 = 10000000000) by (cbn; lra). assert (10 ^ 6 = 1000000) by (cbn; lra).
  repeat split; cbn [acomp_range mcomp_range acomp_ok mcomp_ok]; unfold K_rng, rng; try rewrite H; try rewrite H0; try lra; apply egrid_example.
Qed.

(** ** C58 numerical integration *)
(** Let [c] be monotone over the grid and [I] its true integral over the whole grid.
    The total of the bins differs from [I] by at most half (trapz) or a third (simpson)
    of the widest bin times the total variation *)
Theorem C58_total_error : forall m (c : R -> R) (w I : R) a g, egrid (a :: g) ->
  (forall i, (S i < length (a :: g))%nat -> nth (S i) (a :: g) 0 - nth i (a :: g) 0 <= w) ->
  monotone c a (last (a :: g) 0) -> is_RInt c a (last (a :: g) 0) I ->
  Rabs (rsum (integrate m true c (a :: g)) - I) <=
    match m with Trapz => 1 / 2 | Simpson => 1 / 3 end * w * Rabs (c a - c (last (a :: g) 0)).
Proof.
  intros m c w I a g Hg Hw M HI. apply total_err; try assumption.
  rewrite diff_bins. now apply bins_forall.
Qed.
Print Assumptions C58_total_error.
(** per bin *)
Theorem C58_bin_error : forall m (c : R -> R) g i (I : R), egrid g -> (S i < length g)%nat ->
  monotone c (nth i g 0) (nth (S i) g 0) -> is_RInt c (nth i g 0) (nth (S i) g 0) I ->
  Rabs (nth i (integrate m true c g) 0 - I) <=
    match m with Trapz => 1 / 2 | Simpson => 1 / 3 end * (nth (S i) g 0 - nth i g 0) * Rabs (c (nth i g 0) - c (nth (S i) g 0)).
Proof.
  intros m c g i I Hg Hi M HI. rewrite integrate_bins, bins_nth by exact Hi.
  destruct (egrid_bin g i Hg Hi). pose proof (qstep_err m c (nth i g 0) (nth (S i) g 0) I ltac:(lra) M HI) as P. destruct m; exact P.
Qed.
Print Assumptions C58_bin_error.
(** components the bound applies to on every positive grid *)
Theorem C58_decreasing_components : forall a b, 0 < a ->
  (forall alpha Ec K, 0 <= alpha -> 0 < Ec -> 0 < K -> monotone (cutoff_pl alpha Ec K) a b) /\
  (forall kT K, 0 < kT -> 0 < K -> monotone (ottb kT K) a b) /\
  (forall Ec K, 0 < Ec -> 0 < K -> monotone (otts Ec K) a b) /\
  (forall alpha Eb K, 0 <= alpha -> 0 < Eb -> 0 < K -> monotone (bent_pl alpha Eb K) a b).
Proof.
  intros a b Ha. repeat split; intros; left.
  - now apply cutoff_dec. - now apply ottb_dec. - now apply otts_dec. - now apply bent_dec.
Qed.
Print Assumptions C58_decreasing_components.
Lemma wsum_scale k u : forall v, rsum (map2 Rmult (map (Rmult k) u) v) = k * rsum (map2 Rmult u v).
Proof.
  induction u as [|x u IH]; intros [|y v]; cbn [map map2 rsum fold_right]; try ring.
  specialize (IH v). unfold rsum in IH. rewrite IH. ring.
Qed.
(** the energy flux of an exact, non-negative, continuous spectrum [N] (the photon bins
    weighted with geometric mid energies) is within a factor [q] of the true energy flux,
    [q^2] being the largest ratio of neighbouring grid energies *)
Theorem C58_energy_flux : forall (N : R -> R) f q a g (M : R), 1 <= q -> egrid (a :: g) -> (1 <= length g)%nat ->
  (forall i, (S i < length (a :: g))%nat -> nth (S i) (a :: g) 0 <= q ^ 2 * nth i (a :: g) 0) ->
  (forall x, 0 < x -> continuous N x) -> (forall x, 0 < x -> 0 <= N x) -> exact N f ->
  is_RInt (fun x => 1602176634 / 10 ^ 18 * x * N x) a (last (a :: g) 0) M ->
  M / q <= flux true f (a :: g) <= q * M.
Proof.
  intros N f q a g M Hq Hg Hlen Hr HC HP Hf HM. destruct (Hf _ Hg) as [HL HI]. fold keV_to_erg in HM.
  assert (Hk : 0 < keV_to_erg) by (unfold keV_to_erg; apply Rdiv_lt_0_compat; [lra|apply pow_lt; lra]).
  assert (Inc : forall l, egrid l -> increasing l).
  { induction l as [|x [|y l] IH]; intros H; cbn [increasing]; trivial.
    split; [destruct (egrid_head x y l H); lra|]. apply IH. now apply egrid_tail in H. }
  rewrite flux_energy; [|now apply Inc|exact HL].
  assert (Hz : a <= last (a :: g) 0) by now apply egrid_last.
  assert (Ha : 0 < a) by (apply (proj1 Hg 0%nat); cbn; lia).
  destruct (continuous_ex_RInt (fun x => x * N x) a (last (a :: g) 0) Ha Hz) as [M0 HM0].
  { intros x Hx. apply continuous_xN. now apply HC. }
  assert (EM : M = keV_to_erg * M0).
  { rewrite <- (is_RInt_unique _ _ _ _ HM). apply is_RInt_unique.
    eapply is_RInt_ext; [|exact (is_RInt_scalR _ _ _ keV_to_erg _ HM0)]. intros x _. cbv beta. rewrite Rmult_assoc. reflexivity. }
  destruct (energy_total N q (f (a :: g)) g a M0 Hq Hg Hr HC HP (conj HL HI) HM0) as [L U].
  unfold weights. rewrite wsum_scale, EM. split.
  - unfold Rdiv in *. rewrite Rmult_assoc. apply Rmult_le_compat_l; lra.
  - replace (q * (keV_to_erg * M0)) with (keV_to_erg * (q * M0)) by ring. apply Rmult_le_compat_l; lra.
Qed.
Print Assumptions C58_energy_flux.
(** on the logarithmic grid of [n] energies that the flux methods build from [emin] to [emax]:
    within a factor [(emax / emin)^(1 / (2 (n - 1)))] *)
Lemma geom_nth a b n i : (i < n)%nat -> nth i (geomspace a b n) 0 = a * exp (INR i * (ln (b / a) / INR (n - 1))).
Proof.
  intros H. unfold geomspace.
  rewrite (nth_indep _ 0 (a * exp (INR 0 * (ln (b / a) / INR (n - 1))))) by (rewrite map_length, seq_length; lia).
  rewrite (map_nth (fun i => a * exp (INR i * (ln (b / a) / INR (n - 1))))). now rewrite seq_nth.
Qed.
Lemma last_nth {A} (l : list A) d : last l d = nth (length l - 1) l d.
Proof.
  induction l as [|x [|y l] IH]; try reflexivity. change (last (x :: y :: l) d) with (last (y :: l) d). rewrite IH.
  cbn [length]. replace (S (S (length l)) - 1)%nat with (S (S (length l) - 1)) by lia. reflexivity.
Qed.
Theorem C58_energy_flux_on_grid : forall (N : R -> R) f emin emax n (M : R), 0 < emin < emax -> (2 <= n)%nat ->
  (forall x, 0 < x -> continuous N x) -> (forall x, 0 < x -> 0 <= N x) -> exact N f ->
  is_RInt (fun x => 1602176634 / 10 ^ 18 * x * N x) emin emax M ->
  let q := Rpower (emax / emin) (1 / (2 * INR (n - 1))) in
  M / q <= flux true f (mk_grid true emin emax n) <= q * M.
Proof.
  intros N f emin emax n M He Hn HC HP Hf HM q. cbn [mk_grid].
  set (d := ln (emax / emin) / INR (n - 1)).
  assert (Hn0 : 0 < INR (n - 1)) by (apply lt_0_INR; lia).
  assert (Hr : 1 < emax / emin) by (apply (Rmult_lt_reg_r emin); [lra|]; unfold Rdiv; rewrite Rmult_assoc, Rinv_l; lra).
  assert (Hl : 0 < ln (emax / emin)) by (rewrite <- ln_1; apply ln_increasing; lra).
  assert (Hd : 0 < d) by (unfold d; now apply Rdiv_lt_0_compat).
  assert (Hq : q ^ 2 = exp d).
  { unfold q, Rpower. replace (exp (1 / (2 * INR (n - 1)) * ln (emax / emin)) ^ 2)
      with (exp (1 / (2 * INR (n - 1)) * ln (emax / emin)) * exp (1 / (2 * INR (n - 1)) * ln (emax / emin))) by ring.
    rewrite <- exp_plus. f_equal. unfold d. field. lra. }
  assert (Hq1 : 1 <= q).
  { unfold q, Rpower. apply Rle_trans with (exp 0); [rewrite exp_0; lra|]. apply exp_le. apply Rmult_le_pos; [|lra].
    apply Rlt_le, Rdiv_lt_0_compat; lra. }
  assert (Len : length (geomspace emin emax n) = n) by (unfold geomspace; now rewrite map_length, seq_length).
  assert (Hstep : forall i, (S i < n)%nat -> nth (S i) (geomspace emin emax n) 0 = exp d * nth i (geomspace emin emax n) 0).
  { intros i Hi. rewrite !geom_nth by lia. fold d. rewrite S_INR, Rmult_plus_distr_r, exp_plus, Rmult_1_l. ring. }
  assert (Hpos : forall i, (i < n)%nat -> 0 < nth i (geomspace emin emax n) 0).
  { intros i Hi. rewrite geom_nth by exact Hi. apply Rmult_lt_0_compat; [lra|apply exp_pos]. }
  assert (Hg : egrid (geomspace emin emax n)).
  { unfold egrid. rewrite Len. split; [exact Hpos|]. intros i Hi. rewrite Hstep by exact Hi.
    assert (1 < exp d) by (pose proof (exp_ineq1 d ltac:(lra)); lra). pose proof (Hpos i ltac:(lia)). nra. }
  assert (H0 : nth 0 (geomspace emin emax n) 0 = emin) by (rewrite geom_nth by lia; cbn [INR]; rewrite Rmult_0_l, exp_0; ring).
  assert (HL : last (geomspace emin emax n) 0 = emax).
  { rewrite last_nth, Len, geom_nth by lia. replace (INR (n - 1) * (ln (emax / emin) / INR (n - 1))) with (ln (emax / emin)) by (field; lra).
    rewrite exp_ln by lra. field. lra. }
  destruct (geomspace emin emax n) as [|a g] eqn:E; [cbn in Len; lia|]. cbn [nth] in H0. subst a.
  apply (C58_energy_flux N f q emin g M Hq1 Hg); try assumption.
  - cbn [length] in Len. lia.
  - intros i Hi. rewrite Len in Hi. rewrite Hstep by exact Hi. rewrite Hq. lra.
  - now rewrite HL.
Qed.
Print Assumptions C58_energy_flux_on_grid.
Example C58_witness : monotone (ottb 30 1) 1 4 /\ (exists I : R, is_RInt (ottb 30 1) 1 4 I) /\ last [1; 2; 4] 0 = 4 /\
  (forall i, (S i < length [1; 2; 4])%nat -> nth (S i) [1; 2; 4] 0 <= 2 ^ 2 * nth i [1; 2; 4] 0).
Proof.
  split; [left; apply ottb_dec; lra|]. split.
  - apply (ex_RInt_continuous (V:=R_CompleteNormedModule)). intros x Hx. rewrite Rmin_left, Rmax_right in Hx by lra.
    apply continuous_lift. unfold ottb. auto_derive. lra.
  - split; [reflexivity|]. intros i Hi. cbn [length] in Hi. do 2 (destruct i as [|i]; [cbn; lra|]). lia.
Qed.

(** ** C59 documented formulas *)
Theorem C59_additive_documented : forall e, 0 < e ->
  (forall alpha Eb K, bent_pl alpha Eb K e = d_bent_pl alpha Eb K e) /\
  (forall alpha Ec K, cutoff_pl alpha Ec K e = d_cutoff_pl alpha Ec K e) /\
  (forall alpha Ep K, compt alpha Ep K e = d_compt alpha Ep K e) /\
  (forall El sigma K, 0 < sigma -> gauss El sigma K e = d_gauss El sigma K e) /\
  (forall kT K, 0 < kT -> ottb kT K e = d_ottb kT K e) /\
  (forall Ec K, otts Ec K e = d_otts Ec K e).
Proof.
  intros e He. split; [intros; apply bent_documented|]. split; [intros; apply cutoff_documented|].
  split; [intros; apply compt_documented|]. split; [intros; now apply gauss_documented|].
  split; [intros; now apply ottb_documented|]. intros; apply otts_documented.
Qed.
Print Assumptions C59_additive_documented.
Theorem C59_multiplicative_documented : forall e, 0 < e ->
  (forall Ec D, edge Ec D e = d_edge Ec D e) /\
  (forall Ec, exp_abs Ec e = d_exp_abs Ec e) /\
  (forall A f Ec, exp_fac A f Ec e = d_exp_fac A f Ec e) /\
  (forall El sigma tau, 0 < sigma -> gabs El sigma tau e = d_gabs El sigma tau e) /\
  (forall Ec Ef, high_e_cut Ec Ef e = d_high_e_cut Ec Ef e).
Proof.
  intros e He. split; [intros; apply edge_documented|]. split; [intros; apply exp_abs_documented|].
  split; [intros; apply exp_fac_documented|]. split; [intros; now apply gabs_documented|]. intros; apply high_documented.
Qed.
Print Assumptions C59_multiplicative_documented.
(** blackbodies: below [50 kT] the value is the documented one up to a relative 1e-4
    (exactly it above [1e-4 kT]); from [50 kT] on it is 0, where the documented value is
    less than 1e-13 of the Rayleigh-Jeans value *)
Theorem C59_blackbody : forall kT K e, 0 < kT -> 0 < K -> 0 < e ->
  (e < 50 * kT -> d_blackbody kT K e <= blackbody kT K e <= d_blackbody kT K e * (1 + 1 / 10 ^ 4)) /\
  (1 / 10 ^ 4 * kT < e < 50 * kT -> blackbody kT K e = d_blackbody kT K e) /\
  (50 * kT <= e -> blackbody kT K e = 0 /\
     0 < d_blackbody kT K e <= 80525 / 10000 * K * e / kT ^ 3 * (1 / 10 ^ 13)).
Proof.
  intros kT K e Hk HK He. rewrite d_blackbody_rj, blackbody_code by assumption.
  assert (Hx : 0 < e / kT) by now apply Rdiv_lt_0_compat.
  assert (Hr : 0 < 80525 / 10000 * K * e / (kT * kT * kT)) by (apply Rdiv_lt_0_compat; repeat apply Rmult_lt_0_compat; lra).
  assert (Ee : e = e / kT * kT) by (field; lra).
  split; [|split].
  - intros H. apply bb_code_close; [exact Hr|]. split; [exact Hx|]. apply (Rmult_lt_reg_r kT); [exact Hk|]. lra.
  - intros [H1 H2]. unfold bb_code. replace (Rleb (e / kT) bb_lo) with false.
    + replace (Rleb 50 (e / kT)) with false; [reflexivity|]. symmetry. apply Rleb_false. apply (Rmult_lt_reg_r kT); lra.
    + symmetry. apply Rleb_false. unfold bb_lo. apply (Rmult_lt_reg_r kT); lra.
  - intros H. assert (H50 : 50 <= e / kT) by (apply (Rmult_le_reg_r kT); lra).
    pose proof bb_lo_val. split.
    + unfold bb_code. replace (Rleb (e / kT) bb_lo) with false by (symmetry; apply Rleb_false; lra).
      replace (Rleb 50 (e / kT)) with true by (symmetry; now apply Rleb_true). reflexivity.
    + pose proof (exp_big _ H50). pose proof (expm1_pos (e / kT) Hx).
      assert (0 < (e / kT) / (exp (e / kT) - 1)) by now apply Rdiv_lt_0_compat.
      split; [now apply Rmult_lt_0_compat|]. replace (kT ^ 3) with (kT * kT * kT) by ring. apply Rmult_le_compat_l; lra.
Qed.
Print Assumptions C59_blackbody.
Theorem C59_blackbody_rad : forall kT K e, 0 < kT -> 0 < K -> 0 < e ->
  (e < 50 * kT -> d_blackbody_rad kT K e <= blackbody_rad kT K e <= d_blackbody_rad kT K e * (1 + 1 / 10 ^ 4)) /\
  (1 / 10 ^ 4 * kT < e < 50 * kT -> blackbody_rad kT K e = d_blackbody_rad kT K e) /\
  (50 * kT <= e -> blackbody_rad kT K e = 0 /\
     0 < d_blackbody_rad kT K e <= 10344 / 10 ^ 7 * K * e * kT * (1 / 10 ^ 13)).
Proof.
  intros kT K e Hk HK He. rewrite d_blackbody_rad_rj, blackbody_rad_code by assumption.
  assert (Hx : 0 < e / kT) by now apply Rdiv_lt_0_compat.
  assert (H7 : 0 < 10344 / 10 ^ 7) by (apply Rdiv_lt_0_compat; [lra|apply pow_lt; lra]).
  assert (Hr : 0 < 10344 / 10 ^ 7 * K * e * kT) by (repeat apply Rmult_lt_0_compat; lra).
  assert (Ee : e = e / kT * kT) by (field; lra).
  split; [|split].
  - intros H. apply bb_code_close; [exact Hr|]. split; [exact Hx|]. apply (Rmult_lt_reg_r kT); [exact Hk|]. lra.
  - intros [H1 H2]. unfold bb_code. replace (Rleb (e / kT) bb_lo) with false.
    + replace (Rleb 50 (e / kT)) with false; [reflexivity|]. symmetry. apply Rleb_false. apply (Rmult_lt_reg_r kT); lra.
    + symmetry. apply Rleb_false. unfold bb_lo. apply (Rmult_lt_reg_r kT); lra.
  - intros H. assert (H50 : 50 <= e / kT) by (apply (Rmult_le_reg_r kT); lra).
    pose proof bb_lo_val. split.
    + unfold bb_code. replace (Rleb (e / kT) bb_lo) with false by (symmetry; apply Rleb_false; lra).
      replace (Rleb 50 (e / kT)) with true by (symmetry; now apply Rleb_true). reflexivity.
    + pose proof (exp_big _ H50). pose proof (expm1_pos (e / kT) Hx).
      assert (0 < (e / kT) / (exp (e / kT) - 1)) by now apply Rdiv_lt_0_compat.
      split; [now apply Rmult_lt_0_compat|]. apply Rmult_le_compat_l; lra.
Qed.
Print Assumptions C59_blackbody_rad.
(** the smoothly broken power law has the documented shape (up to a factor
    [exp (rho e^-30)] where the code saturates) but its amplitude is off by [4^rho Eb^alpha1] *)
Theorem C59_smoothly_broken_partial : forall alpha1 Eb alpha2 rho K E, 0 < Eb -> 0 < E -> 0 < rho -> 0 < K ->
  let k := Rpower 4 rho * Rpower Eb alpha1 in
  k * d_smoothly_broken_pl alpha1 Eb alpha2 rho K E <= smoothly_broken_pl alpha1 Eb alpha2 rho K E
    <= k * d_smoothly_broken_pl alpha1 Eb alpha2 rho K E * exp (rho * exp (-30)).
Proof.
  intros alpha1 Eb alpha2 rho K E HEb HE Hr HK k. unfold k. rewrite <- sbpl_shape_documented by assumption. now apply sbpl_close.
Qed.
Print Assumptions C59_smoothly_broken_partial.
Theorem C59_smoothly_broken_refuted : exists alpha1 Eb alpha2 rho K E,
  acomp_range (SmoothlyBrokenPL alpha1 Eb alpha2 rho K) /\ 0 < E /\
  20 * d_smoothly_broken_pl alpha1 Eb alpha2 rho K E <= smoothly_broken_pl alpha1 Eb alpha2 rho K E.
Proof.
  (* the default parameters *)
  exists 1, 5, 2, 1, 1, 5.
  split. { unfold acomp_range, K_rng, rng. assert (10 ^ 10 = 10000000000) by (cbn; lra). assert (10 ^ 6 = 1000000) by (cbn; lra). assert (10 ^ 2 = 100) by (cbn; lra).
    rewrite H, H0, H1. repeat split; lra. }
  split; [lra|].
  destruct (C59_smoothly_broken_partial 1 5 2 1 1 5 ltac:(lra) ltac:(lra) ltac:(lra) ltac:(lra)) as [P _].
  rewrite !Rpower_1 in P by lra. lra.
Qed.
Print Assumptions C59_smoothly_broken_refuted.
Example C59_witness : 0 < 3 /\ 1 / 10 ^ 4 * 3 < 6 < 50 * 3.
Proof. cbn. lra. Qed.
