(** C111: the residuals of the observed data. *)
From Coq Require Import Ascii String.
From Verif Require Import RBase Base Gibbs Likelihood LikelihoodProofs Namespace HelperData Data Posterior Residuals Signs LooPit ShownResiduals Prop_Signs Prop_Posterior Prop_Residuals.
From Coq Require Import List Lra Psatz Lia ZArith.
Import ListNotations.
Open Scope list_scope.
Open Scope R_scope.

(** ** Specification *)
(** the counts of a channel and those the fitted model predicts for it are compared: the residual is negative exactly
    when the data are below the model *)
Definition right_side (r counts predicted : R) : Prop := (r < 0 <-> counts < predicted).
(** distance in standard deviations *)
Definition sigmas (data model sd : R) : R := (data - model) / sd.

Section Mle.
Variables (q cdf : R -> R).
Variables (ds : dataset) (k : chan_data) (row : list R) (area : R) (u : list R).
Variables (random : bool) (v v' : R) (pits : R * R).
Let st := ds_stat ds.
Let c := channel_of st k row area.
Let fit := fitted_by ds (k_width k) c u.
(** what [residuals(word)] of a maximum likelihood fit says about the channel *)
Let residuals (word : string) := residuals_mle q cdf st (Signs.ce_data ds (k_width k) c) (s2l word) random v v' pits k fit.
Hypothesis reg : regular ds c u.
Hypothesis expo : 0 < ds_exposure ds.
Hypothesis wid : 0 < k_width k.

Lemma the_sign : sign_right (Signs.sign (Signs.ce_data ds (k_width k) c) (f_ce fit)) (ch_n c) (on_model ds c u).
Proof. exact (C98_observed ds (k_width k) c u reg expo wid). Qed.

Lemma source_pos : 0 < source_counts ds c u.
Proof. apply clip_tiny_pos. Qed.

Lemma dev_zero_side : loglike_chan ds c u = 0 -> ch_n c = on_model ds c u \/ (with_back st = true /\ on_model ds c u <= ch_n c).
Proof.
  destruct reg as (W & Rg & X). intros H. unfold st in *. pose proof (loglike_simple_zero ds c u W) as Z.
  pose proof source_pos as Ps.
  destruct (ds_stat ds) eqn:E; try (left; apply Z; exact H).
  - right. split; [reflexivity|]. pose proof (pgstat_dev_zero ds c u E W) as P. apply P in H as (Hb & Hn).
    unfold on_model. rewrite E. cbn [profiled]. destruct W as (W1 & W2 & W3).
    apply (proj1 (side_pgstat (source_counts ds c u) (ch_n c) (ch_b c) (ch_berr c) (ch_ratio c) Ps W1 W2 W3 X)). lra.
  - right. split; [reflexivity|]. pose proof (wstat_dev_zero ds c u E W) as P. apply P in H as Hn.
    unfold on_model. rewrite E. cbn [profiled]. destruct W as (W1 & W2 & W3).
    apply (proj1 (side_wstat (source_counts ds c u) (ch_n c) (ch_b c) (ch_ratio c) Ps W1 W2 W3)). lra.
Qed.

(** deviance residuals: the square is the deviance of the channel, the sign tells the side *)
Theorem C111_deviance : exists r, residuals "rd" = Ok (Value (Some r)) /\ r * r = neg_double (loglike_chan ds c u) /\
  right_side r (ch_n c) (on_model ds c u).
Proof.
  pose proof (loglike_chan_nonpos ds c u) as N. set (d := neg_double (loglike_chan ds c u)).
  assert (Hd : 0 <= d) by (unfold d, neg_double; lra).
  unfold residuals, residuals_mle. change (parse_rtype (s2l "rd")) with (Some RD). unfold deviance_point.
  change (f_dev fit) with d. destruct (Rltb_spec d 0); [lra|]. eexists. split; [reflexivity|].
  pose proof (sqrt_sqrt d Hd) as Q. pose proof (sqrt_pos d) as Q0.
  pose proof the_sign as S. set (sg := Signs.sign _ _) in *.
  split; [destruct S as [(-> & _)|(-> & _)]; nra|]. unfold right_side. destruct S as [(-> & L)|(-> & L)].
  - split; intros; lra.
  - split; [intros _; exact L|intros _]. assert (0 < sqrt d); [|lra]. apply sqrt_lt_R0. destruct (Rle_lt_or_eq_dec 0 d Hd) as [|E]; [assumption|].
    exfalso. assert (Z : loglike_chan ds c u = 0) by (unfold d, neg_double in E; lra). destruct (dev_zero_side Z) as [H|(_ & H)]; lra.
Qed.

(** the standard deviation used for the counts and for the background *)
Let sd_on := if spec_normal st then k_net_err k else sqrt (on_model ds c u).
Let sd_off := if back_normal st then k_back_err k else sqrt (off_model ds c u).
Let z_on := sigmas (ch_n c) (on_model ds c u) sd_on.
Let z_off := sigmas (k_back k) (off_model ds c u) sd_off.

Lemma on_pos : 0 < on_model ds c u.
Proof.
  destruct reg as (W & _). unfold on_model. pose proof source_pos as P. destruct (ds_stat ds) eqn:E; try exact P; try apply clip_tiny_pos.
  - cbv zeta. cbn [profiled]. destruct W as (W1 & W2 & W3).
    pose proof (proj1 (pgstat_spec _ _ (ch_b c) _ _ P W1 W2 W3)). nra.
  - cbv zeta. cbn [profiled]. destruct W as (W1 & W2 & W3).
    pose proof (proj1 (wstat_nonneg _ _ _ _ P W1 W2 W3)). nra.
Qed.
Lemma sd_on_pos : 0 < sd_on.
Proof.
  unfold sd_on. pose proof on_pos. destruct reg as (W & _). unfold st in *. destruct (ds_stat ds) eqn:E; cbn [spec_normal]; try (now apply sqrt_lt_R0).
  exact W.
Qed.

(** Pearson residuals: without a profiled background the distance between counts and model in standard deviations;
    with one, the distances of counts and background in quadrature, with the sign of the counts; a number whenever
    the background model of a W-statistic channel is not 0 *)
Theorem C111_pearson : (st = Likelihood.Wstat -> 0 < off_model ds c u) ->
  exists r, residuals "rp" = Ok (Value (Some r)) /\
  (with_back st = false -> r = z_on) /\ (with_back st = true -> r * r = z_on * z_on + z_off * z_off) /\
  right_side r (ch_n c) (on_model ds c u).
Proof.
  intros Hw. unfold residuals, residuals_mle. change (parse_rtype (s2l "rp")) with (Some RP).
  pose proof sd_on_pos as P1. pose proof on_pos as P0. pose proof the_sign as S. set (sg := Signs.sign _ _) in *.
  assert (En : (if spec_normal st then k_net k else IZR (k_spec k)) = ch_n c) by reflexivity.
  assert (E1 : pearson_residuals (if spec_normal st then k_net k else IZR (k_spec k)) (f_on fit) (if spec_normal st then Some (k_net_err k) else None) = Some z_on).
  { rewrite En. change (f_on fit) with (on_model ds c u). unfold pearson_residuals, z_on, sigmas, sd_on in *.
    destruct (spec_normal st); cbv zeta; (match goal with |- context [Reqb ?a 0] => destruct (Reqb_spec a 0); [lra|reflexivity] end). }
  assert (Zs : (z_on < 0 <-> ch_n c < on_model ds c u)).
  { unfold z_on, sigmas. split; intros H.
    - destruct (Rlt_or_le (ch_n c) (on_model ds c u)) as [|L]; [assumption|]. exfalso.
      assert (0 <= (ch_n c - on_model ds c u) / sd_on) by (apply Rmult_le_pos; [lra|left; now apply Rinv_0_lt_compat]). lra.
    - assert (0 < (on_model ds c u - ch_n c) / sd_on) by (apply Rdiv_lt_0_compat; lra).
      replace ((ch_n c - on_model ds c u) / sd_on) with (- ((on_model ds c u - ch_n c) / sd_on)) by (field; lra). lra. }
  unfold pearson_point. cbv zeta. rewrite E1. destruct (with_back st) eqn:B.
  - assert (P2 : 0 < sd_off).
    { unfold sd_off. destruct (back_normal st) eqn:Bn.
      - destruct reg as (W & _). unfold st in *. destruct (ds_stat ds) eqn:Es; try discriminate. now destruct W as (_ & W & _).
      - apply sqrt_lt_R0. apply Hw. unfold st in *. destruct (ds_stat ds); try discriminate. reflexivity. }
    assert (E2 : pearson_residuals (k_back k) (f_off fit) (if back_normal st then Some (k_back_err k) else None) = Some z_off).
    { change (f_off fit) with (off_model ds c u). unfold pearson_residuals, z_off, sigmas, sd_off in *.
      destruct (back_normal st); cbv zeta; (match goal with |- context [Reqb ?a 0] => destruct (Reqb_spec a 0); [lra|reflexivity] end). }
    rewrite E2. eexists. split; [reflexivity|]. set (m := z_on * z_on + z_off * z_off).
    assert (Hm : 0 <= m) by (unfold m; nra). pose proof (sqrt_sqrt m Hm). pose proof (sqrt_pos m).
    split; [discriminate|]. split; [intros _; destruct S as [(-> & _)|(-> & _)]; nra|]. unfold right_side.
    destruct S as [(-> & L)|(-> & L)]; [split; intros; lra|]. split; [intros _; exact L|intros _].
    assert (0 < sqrt m); [|lra]. apply sqrt_lt_R0. unfold m. apply Zs in L. nra.
  - exists z_on. split; [reflexivity|]. split; [reflexivity|]. split; [discriminate|exact Zs].
Qed.

(** W statistic: the residual is not a number exactly for channels without background counts and with few counts
    for their source, a/(a+1) n <= s *)
Theorem C111_wstat_nan_refuted : st = Likelihood.Wstat ->
  (residuals "rp" = Ok (Value None) <->
   k_back k = 0 /\ k_ratio k / (k_ratio k + 1) * ch_n c <= source_counts ds c u).
Proof.
  intros Es. pose proof source_pos as P. pose proof reg as (W & _). unfold st in *. rewrite Es in W. destruct W as (W1 & W2 & W3).
  assert (Hoff : off_model ds c u = 0 <-> k_back k = 0 /\ k_ratio k / (k_ratio k + 1) * ch_n c <= source_counts ds c u).
  { change (k_back k) with (ch_b c). change (k_ratio k) with (ch_ratio c). unfold off_model. rewrite Es. cbn [profiled].
    set (s := source_counts ds c u) in *. set (n := ch_n c) in *. set (b := ch_b c) in *. set (a := ch_ratio c) in *.
    pose proof (proj2 (wstat_nonneg s n b a P W1 W2 W3)) as Pb. split.
    - intros H. assert (Hb : b = 0) by (destruct (Rle_lt_or_eq_dec 0 b W2) as [L|]; [specialize (Pb L); lra|lra]).
      split; [exact Hb|]. unfold wstat_background in H. cbv zeta in H. destruct (Reqb_spec n 0) as [En|En]; [rewrite En; lra|].
      destruct (Reqb_spec b 0); [|lra]. destruct (Rleb_spec s (a / (a + 1) * n)) as [L|L]; [|lra].
      assert (Hs : s = a / (a + 1) * n). { assert (Q : (n / (1 + a) - s / a) * a = a / (a + 1) * n - s) by (field; lra). rewrite H in Q. lra. } lra.
    - intros (Hb & L). unfold wstat_background. cbv zeta. destruct (Reqb_spec n 0) as [En|En]; [rewrite Hb; field; lra|].
      destruct (Reqb_spec b 0); [|lra]. destruct (Rleb_spec s (a / (a + 1) * n)) as [L'|L']; [|reflexivity].
      replace s with (a / (a + 1) * n) by lra. field. lra. }
  rewrite <- Hoff. split.
  - intros H. destruct (Req_EM_T (off_model ds c u) 0) as [|N]; [assumption|]. exfalso.
    assert (0 < off_model ds c u).
    { assert (0 <= off_model ds c u); [|lra]. unfold off_model. rewrite Es. cbn [profiled]. now apply wstat_nonneg. }
    destruct (C111_pearson (fun _ => H0)) as (r & E & _). rewrite H in E. discriminate.
  - intros H. unfold residuals, residuals_mle. change (parse_rtype (s2l "rp")) with (Some RP). unfold pearson_point. cbv zeta. unfold st. rewrite Es. cbn [with_back back_normal spec_normal].
    change (f_off fit) with (off_model ds c u). rewrite H. unfold pearson_residuals at 2. rewrite sqrt_0. destruct (Reqb_spec 0 0); [|lra].
    now destruct (pearson_residuals _ _ _).
Qed.

(** chi2: the three kinds of residuals are the same number, the distance in standard deviations, even where the
    distribution function is rounded to 0 or 1 *)
Theorem C111_chi2_same : st = Likelihood.Chi2 -> (forall z, cdf z = 0 \/ cdf z = 1 \/ (0 < cdf z < 1 /\ q (cdf z) = z)) ->
  let z := sigmas (k_net k) (on_model ds c u) (k_net_err k) in
  residuals "rd" = Ok (Value (Some z)) /\ residuals "rp" = Ok (Value (Some z)) /\
  residuals "rq" = Ok (Quantile (Some z, false, false)).
Proof.
  intros Es Hc z. split; [|split].
  - destruct C111_deviance as (r & E & S & Sd). rewrite E. do 3 f_equal.
    assert (D : neg_double (loglike_chan ds c u) = z * z).
    { unfold neg_double, loglike_chan, loglike_on. unfold st in *. rewrite Es. unfold normal_logp, z, sigmas.
      replace (ch_n c) with (k_net k) by (unfold c, channel_of; cbn [ch_n]; now rewrite Es). change (ch_nerr c) with (k_net_err k).
      replace (-0.5) with (- (1 / 2)) by lra. cbv zeta. field. pose proof sd_on_pos as P. unfold sd_on, st in P. rewrite Es in P. cbn [spec_normal] in P. lra. }
    rewrite D in S. unfold right_side in Sd.
    destruct C111_pearson as (r' & E' & F & _ & Sd'); [intros K; rewrite Es in K; discriminate|].
    assert (Er : r' = z). { rewrite F by (now rewrite Es). unfold z_on, z, sd_on, sigmas, c, channel_of. cbn [ch_n]. rewrite Es. reflexivity. }
    unfold right_side in Sd'. rewrite Er in Sd'.
    assert (H : (r - z) * (r + z) = 0) by nra. apply Rmult_integral in H as [H|H]; [lra|].
    assert (Er2 : r = - z) by lra. destruct (Rtotal_order z 0) as [L|[L|L]]; [|lra|].
    + assert (r < 0) by tauto. lra. 
    + assert (z < 0) by (apply Sd', Sd; lra). lra.
  - destruct C111_pearson as (r' & E' & F & _); [intros K; rewrite Es in K; discriminate|]. rewrite E'. rewrite F by (now rewrite Es).
    unfold z_on, z, sd_on, sigmas, c, channel_of. cbn [ch_n]. rewrite Es. reflexivity.
  - unfold residuals, residuals_mle. change (parse_rtype (s2l "rq")) with (Some RQ). unfold quantile_point. rewrite Es.
    unfold quantile_chi2. cbv zeta. change ((k_net k - f_on fit) / k_net_err k) with z. do 2 f_equal. f_equal. f_equal.
    destruct (Hc z) as [H|[H|(H1 & H2)]].
    + rewrite H. destruct (Reqb_spec 0 0); [reflexivity|lra].
    + rewrite H. destruct (Reqb_spec 1 0); [lra|]. destruct (Reqb_spec 1 1); [reflexivity|lra].
    + destruct (Reqb_spec (cdf z) 0); [lra|]. destruct (Reqb_spec (cdf z) 1); [lra|]. cbn [orb]. unfold ppf.
      destruct (Rltb_spec 0 (cdf z)); [|lra]. destruct (Rltb_spec (cdf z) 1); [|lra]. cbn [andb]. now rewrite H2.
Qed.
End Mle.
Print Assumptions C111_deviance.
Print Assumptions C111_pearson.
Print Assumptions C111_wstat_nan_refuted.
Print Assumptions C111_chi2_same.

(** every other word is refused *)
Lemma parse_words : forall w, parse_rtype w = None <-> ~ In w [s2l "rd"; s2l "rp"; s2l "rq"].
Proof.
  intros w. unfold parse_rtype. destruct (NamespaceProofs.str_eqb_spec w (s2l "rd")) as [->|N1]; [split; [discriminate|intros H; exfalso; apply H; now left]|].
  destruct (NamespaceProofs.str_eqb_spec w (s2l "rp")) as [->|N2]; [split; [discriminate|intros H; exfalso; apply H; right; now left]|].
  destruct (NamespaceProofs.str_eqb_spec w (s2l "rq")) as [->|N3]; [split; [discriminate|intros H; exfalso; apply H; right; right; now left]|].
  split; [intros _ [H|[H|[H|[]]]]; congruence|reflexivity].
Qed.
Theorem C111_words : forall w, ~ In w [s2l "rd"; s2l "rp"; s2l "rq"] <->
  (forall q cdf st ced random u u' pits k f, residuals_mle q cdf st ced w random u u' pits k f = Err RuntimeError) /\
  (forall q st ced random mle ppc u nc nd pits k lw draws best, residuals_post q st ced w random mle ppc u nc nd pits k lw draws best = Err AssertionError) /\
  (forall q st ced random levels ppc u nc nd pits k lw draws best, shown_post q st ced w random levels ppc u nc nd pits k lw draws best = Err ValueError).
Proof.
  intros w. rewrite <- parse_words. split.
  - intros H. unfold residuals_mle, residuals_post, shown_post. rewrite H. repeat split; reflexivity.
  - intros (_ & _ & H). specialize (H (fun x => x) Likelihood.Chi2 0 false [] false 0 1%nat 1%nat (0, 0)
      {| k_spec := 0; k_net := 0; k_net_err := 0; k_back := 0; k_back_err := 0; k_ratio := 0; k_width := 0 |} [] []
      {| f_ce := 0; f_on := 0; f_off := 0; f_dev := 0 |}).
    unfold shown_post, residuals_post in H. destruct (parse_rtype w) as [[]|]; try reflexivity; cbn [filter] in H; discriminate.
Qed.
Print Assumptions C111_words.

(** ** posteriors *)
(** the weighted mean of one number per draw *)
Definition weighted_mean (lw v : list R) : R := rsum (map (fun i => exp (nth i lw 0) * nth i v 0) (seq 0 (length v))).
Definition weights (lw : list R) (draws : list fitted) : Prop := length lw = length draws /\ rsum (map exp lw) = 1.

Lemma loo_mean lw v : length lw = length v -> loo_expectation lw v = weighted_mean lw v.
Proof. intros H. exact (proj1 (C68_loo lw v H)). Qed.
Lemma loo_between lw v lo hi : length lw = length v -> rsum (map exp lw) = 1 -> Forall (fun x => lo <= x <= hi) v -> lo <= weighted_mean lw v <= hi.
Proof. intros H W F. rewrite <- loo_mean by exact H. exact (proj2 (C68_loo lw v H) W lo hi F). Qed.
Lemma loo_nan_some lw v : loo_expectation_nan lw (map Some v) = loo_expectation lw v.
Proof. unfold loo_expectation_nan, loo_expectation. f_equal. revert v. induction lw as [|l lw IH]; intros [|x v]; try reflexivity. cbn [map zip2]. now rewrite IH. Qed.
Lemma loo_nan_none lw (n : nat) : loo_expectation_nan lw (repeat None n) = 0.
Proof. unfold loo_expectation_nan. revert n. induction lw as [|l lw IH]; intros [|n]; try reflexivity. cbn [repeat zip2]. cbn [rsum fold_right]. rewrite Rplus_0_l. apply IH. Qed.
Lemma sign_two d m : Signs.sign d m = 1 /\ m <= d \/ Signs.sign d m = -1 /\ d < m.
Proof. unfold Signs.sign. destruct (Rleb_spec m d); [left|right]; split; try reflexivity; lra. Qed.

Lemma filter_false {A} (l : list A) : filter (fun _ => false) l = [].
Proof. induction l; [reflexivity|assumption]. Qed.

Section Post.
Variables (q : R -> R) (st : stat) (ced : R) (k : chan_data) (lw : list R) (draws : list fitted) (best : fitted).
Variables (random : bool) (v : R) (nchain ndraw : nat) (pits : R * R) (levels : list R).
Let shown_as (word : string) (ppc : bool) := shown_post q st ced (s2l word) random levels ppc v nchain ndraw pits k lw draws best.
Let mean_ce := weighted_mean lw (map f_ce draws).

(** which fit the points belong to: without a predictive check, the mean over the posterior draws that leave the channel
    out; with one (and a band to compare with), the best fit; nothing is ever missing *)
Theorem C111_which : forall ppc, levels <> [] ->
  shown_as "rd" ppc = Ok (Value (if ppc then deviance_point (Signs.sign ced (f_ce best)) (f_dev best) else deviance_loo ced lw draws)) /\
  shown_as "rp" ppc = Ok (Value (if ppc then pearson_point st k (Signs.sign ced (f_ce best)) best else pearson_loo st ced k lw draws)) /\
  shown_as "rq" ppc = Ok (Quantile (quantile_post q random v nchain ndraw pits)).
Proof.
  intros ppc H. unfold shown_as, shown_post. 
  change (parse_rtype (s2l "rd")) with (Some RD). change (parse_rtype (s2l "rp")) with (Some RP). change (parse_rtype (s2l "rq")) with (Some RQ).
  change (str_eqb (s2l "rd") (s2l "rq")) with false. change (str_eqb (s2l "rp") (s2l "rq")) with false. change (str_eqb (s2l "rq") (s2l "rq")) with true.
  destruct levels as [|l ls]; [congruence|]. destruct ppc; cbn [andb negb filter]; unfold residuals_post;
  change (parse_rtype (s2l "rd")) with (Some RD); change (parse_rtype (s2l "rp")) with (Some RP); change (parse_rtype (s2l "rq")) with (Some RQ); cbv iota.
  - split; [reflexivity|split; reflexivity].
  - rewrite (filter_false ls). split; [reflexivity|split; reflexivity].
Qed.

Hypothesis W : weights lw draws.
(** deviance: the square is the mean deviance of the draws, so between the smallest and the largest; the sign compares
    the data with the mean model *)
Theorem C111_loo_deviance : (forall f, In f draws -> 0 <= f_dev f) ->
  exists r, deviance_loo ced lw draws = Some r /\ r * r = weighted_mean lw (map f_dev draws) /\
  (forall lo hi, (forall f, In f draws -> lo <= f_dev f <= hi) -> lo <= r * r <= hi) /\
  (mean_ce <= ced -> 0 <= r) /\ (ced < mean_ce -> r <= 0).
Proof.
  destruct W as (L & N). intros P. assert (Ld : length lw = length (map f_dev draws)) by (now rewrite map_length).
  assert (Lc : length lw = length (map f_ce draws)) by (now rewrite map_length).
  assert (B : forall lo hi, (forall f, In f draws -> lo <= f_dev f <= hi) -> lo <= weighted_mean lw (map f_dev draws) <= hi).
  { intros lo hi F. apply loo_between; [exact Ld|exact N|]. rewrite Forall_map, Forall_forall. exact F. }
  assert (M : 0 <= weighted_mean lw (map f_dev draws)).
  { assert (G : exists hi, forall f, In f draws -> f_dev f <= hi).
    { clear. induction draws as [|f l (hi & IH)]; [exists 0; intros f []|]. exists (Rmax (f_dev f) hi). intros g [->|H]; [apply Rmax_l|].
      eapply Rle_trans; [apply IH, H|apply Rmax_r]. }
    destruct G as (hi & G). apply (B 0 hi). intros f Hf. split; [apply P, Hf|apply G, Hf]. }
  unfold deviance_loo, deviance_point, sign_loo. rewrite loo_mean by exact Ld. rewrite (loo_mean lw (map f_ce draws)) by exact Lc. fold mean_ce.
  set (m := weighted_mean lw (map f_dev draws)) in *. destruct (Rltb_spec m 0); [lra|]. eexists. split; [reflexivity|].
  pose proof (sqrt_sqrt m M) as Q. pose proof (sqrt_pos m) as Q0.
  assert (S : Signs.sign ced mean_ce * sqrt m * (Signs.sign ced mean_ce * sqrt m) = m).
  { destruct (sign_two ced mean_ce) as [(-> & _)|(-> & _)]; nra. }
  split; [exact S|]. split; [intros lo hi F; rewrite S; now apply B|]. split; intros H.
  - destruct (sign_two ced mean_ce) as [(-> & _)|(-> & K)]; lra.
  - destruct (sign_two ced mean_ce) as [(-> & K)|(-> & _)]; lra.
Qed.

(** Pearson: if the residual of every draw is a number, the size is the mean size of the residuals of the draws *)
Theorem C111_loo_pearson : forall size : fitted -> R,
  (forall f, In f draws -> exists r, pearson_point st k 1 f = Some r /\ size f = Rabs r) ->
  exists r, pearson_loo st ced k lw draws = Some r /\ Rabs r = weighted_mean lw (map size draws) /\
  (forall lo hi, (forall f, In f draws -> lo <= size f <= hi) -> lo <= Rabs r <= hi) /\
  (mean_ce <= ced -> 0 <= r) /\ (ced < mean_ce -> r <= 0).
Proof.
  destruct W as (L & N). intros size P. unfold pearson_loo, sign_loo. rewrite (loo_mean lw (map f_ce draws)) by (now rewrite map_length). fold mean_ce.
  set (sg := Signs.sign ced mean_ce). assert (Sg : sg = 1 \/ sg = -1) by (unfold sg; destruct (sign_two ced mean_ce) as [(-> & _)|(-> & _)]; tauto).
  assert (E : map (fun f => option_map Rabs (pearson_point st k sg f)) draws = map Some (map size draws)).
  { rewrite map_map. apply map_ext_in. intros f Hf. destruct (P f Hf) as (r & E & ->). revert E. unfold pearson_point. cbv zeta.
    destruct (with_back st); [|intros ->; reflexivity].
    destruct (pearson_residuals _ _ _) as [a|]; [|discriminate]. destruct (pearson_residuals _ _ _) as [b|]; [|discriminate].
    intros H. injection H as <-. cbn [option_map]. f_equal. rewrite !Rabs_mult. destruct Sg as [->| ->]; [reflexivity|]. replace (Rabs (-1)) with (Rabs 1) by (rewrite (Rabs_left (-1)) by lra; rewrite Rabs_R1; lra). reflexivity. }
  cbv zeta. rewrite E, loo_nan_some, loo_mean by (now rewrite map_length). set (m := weighted_mean lw (map size draws)).
  assert (B : forall lo hi, (forall f, In f draws -> lo <= size f <= hi) -> lo <= m <= hi).
  { intros lo hi F. apply loo_between; [now rewrite map_length|exact N|]. rewrite Forall_map, Forall_forall. exact F. }
  assert (M : 0 <= m).
  { assert (G : exists hi, forall f, In f draws -> size f <= hi).
    { clear. induction draws as [|f l (hi & IH)]; [exists 0; intros f []|]. exists (Rmax (size f) hi). intros g [->|H]; [apply Rmax_l|].
      eapply Rle_trans; [apply IH, H|apply Rmax_r]. }
    destruct G as (hi & G). apply (B 0 hi). intros f Hf. split; [|apply G, Hf]. destruct (P f Hf) as (r & _ & ->). apply Rabs_pos. }
  exists (m * sg). split; [reflexivity|]. assert (A : Rabs (m * sg) = m).
  { rewrite Rabs_mult, (Rabs_pos_eq m M). destruct Sg as [->| ->]; [rewrite Rabs_R1|rewrite Rabs_left by lra]; ring. }
  rewrite A. split; [reflexivity|]. split; [exact B|]. unfold sg. split; intros H.
  - destruct (sign_two ced mean_ce) as [(-> & _)|(-> & K)]; lra.
  - destruct (sign_two ced mean_ce) as [(-> & K)|(-> & _)]; lra.
Qed.

(** a posterior that is one point shows the residuals of the fit at that point *)
Theorem C111_concentrated : (forall f, In f draws -> f = best) -> 0 <= f_dev best ->
  (forall r, pearson_point st k (Signs.sign ced (f_ce best)) best = Some r ->
     pearson_loo st ced k lw draws = Some (Rabs r * Signs.sign ced (f_ce best))) /\
  deviance_loo ced lw draws = deviance_point (Signs.sign ced (f_ce best)) (f_dev best).
Proof.
  destruct W as (L & N). intros P D.
  assert (C : forall g : fitted -> R, weighted_mean lw (map g draws) = g best).
  { intros g. assert (g best <= weighted_mean lw (map g draws) <= g best); [|lra]. apply loo_between; [now rewrite map_length|exact N|].
    rewrite Forall_map, Forall_forall. intros f Hf. rewrite (P f Hf). lra. }
  assert (M : loo_expectation lw (map f_ce draws) = f_ce best) by (rewrite loo_mean by (now rewrite map_length); apply C).
  split.
  - intros r H. unfold pearson_loo, sign_loo. rewrite M. cbv zeta.
    assert (E : map (fun f => option_map Rabs (pearson_point st k (Signs.sign ced (f_ce best)) f)) draws = map Some (map (fun _ => Rabs r) draws)).
    { rewrite map_map. apply map_ext_in. intros f Hf. rewrite (P f Hf), H. reflexivity. }
    rewrite E, loo_nan_some, loo_mean by (now rewrite map_length). rewrite (C (fun _ => Rabs r)). reflexivity.
  - unfold deviance_loo, sign_loo. rewrite M. rewrite loo_mean by (now rewrite map_length). now rewrite C.
Qed.
End Post.
Print Assumptions C111_which.
Print Assumptions C111_loo_deviance.
Print Assumptions C111_loo_pearson.
Print Assumptions C111_concentrated.

(** W statistic: draws whose residual is not a number are left out of the mean; if that is so for all of them (no
    background counts, source above a/(a+1) n), the residual shown is 0 whatever the counts *)
Theorem C111_wstat_loo_refuted : forall ced k lw draws, k_back k = 0 -> (forall f, In f draws -> f_off f = 0) ->
  pearson_loo Likelihood.Wstat ced k lw draws = Some 0.
Proof.
  intros ced k lw draws B P. unfold pearson_loo. cbv zeta. set (sg := sign_loo ced lw draws). clearbody sg.
  assert (E : map (fun f => option_map Rabs (pearson_point Likelihood.Wstat k sg f)) draws = repeat None (length draws)).
  { induction draws as [|f l IH]; [reflexivity|]. cbn [map length repeat]. rewrite IH by (intros g Hg; apply P; now right). f_equal.
    unfold pearson_point. cbn [with_back back_normal spec_normal]. cbv zeta. rewrite (P f) by now left. unfold pearson_residuals at 2. rewrite sqrt_0.
    destruct (Reqb_spec 0 0); [|lra]. now destruct (pearson_residuals _ _ _). }
  rewrite E, loo_nan_none. f_equal. ring.
Qed.
Print Assumptions C111_wstat_loo_refuted.

(** ** quantile residuals of a posterior *)
(** a number for two or more draws; marked as upper limit exactly if the transform is 0 and as lower limit exactly if it is 1 *)
Theorem C111_quantile : forall q (random : bool) u nchain ndraw (pits : R * R), (2 <= nchain * ndraw)%nat ->
  0 <= fst pits <= snd pits -> snd pits <= 1 -> 0 <= u < 1 ->
  let pit := if random then fst pits + u * (snd pits - fst pits) else snd pits in
  exists (r : R) (lower upper : bool), quantile_post q random u nchain ndraw pits = (Some r, lower, upper) /\
  (upper = true <-> pit = 0) /\ (lower = true <-> pit = 1) /\
  (0 < pit < 1 -> r = q pit) /\ (pit = 0 -> r = q (1 / INR (nchain * ndraw))) /\ (pit = 1 -> r = q (1 - 1 / INR (nchain * ndraw))).
Proof.
  intros q random u nc nd pits H B1 B2 Hu pit. unfold quantile_post, quantile_sim. set (n := (nc * nd)%nat) in *.
  assert (Pn : 2 <= INR n) by (apply le_INR in H; cbn in H; lra).
  assert (I1 : 0 < 1 / INR n <= 1 / 2).
  { split; [apply Rdiv_lt_0_compat; lra|]. unfold Rdiv. rewrite !Rmult_1_l. apply Rinv_le_contravar; lra. }
  unfold uniform. fold pit. assert (Bp : 0 <= pit <= 1) by (unfold pit; destruct random; nra).
  destruct (Reqb_spec pit 0) as [E|E]; [|destruct (Reqb_spec pit 1) as [E1|E1]].
  - unfold ppf. destruct (Rltb_spec 0 (1 / INR n)); [|lra]. destruct (Rltb_spec (1 / INR n) 1); [|lra]. cbn [andb].
    exists (q (1 / INR n)), false, true. split; [reflexivity|]. split; [tauto|]. split; [split; intros; [discriminate|lra]|]. split; [lra|]. split; [reflexivity|lra].
  - unfold ppf. destruct (Rltb_spec 0 (1 - 1 / INR n)); [|lra]. destruct (Rltb_spec (1 - 1 / INR n) 1); [|lra]. cbn [andb].
    exists (q (1 - 1 / INR n)), true, false. split; [reflexivity|]. split; [split; intros; [discriminate|lra]|]. split; [tauto|]. split; [lra|]. split; [lra|reflexivity].
  - unfold ppf. destruct (Rltb_spec 0 pit); [|lra]. destruct (Rltb_spec pit 1); [|lra]. cbn [andb].
    exists (q pit), false, false. split; [reflexivity|]. split; [split; intros; [discriminate|lra]|]. split; [split; intros; [discriminate|lra]|]. split; [reflexivity|]. split; lra.
Qed.
Print Assumptions C111_quantile.
(** at the best fit: the exact transform of the Poisson count for cstat and pstat, never flagged; for pgstat and
    wstat the simulated transform, and where it is 0 or 1 the quantile of one in ten thousand, flagged *)
Theorem C111_quantile_mle : forall q cdf st ced (random : bool) u u' (pits : R * R) k f, st <> Likelihood.Chi2 ->
  (0 <= k_spec k)%Z -> 0 < f_on f -> 0 <= fst pits <= snd pits -> snd pits <= 1 -> 0 < u < 1 ->
  let poisson := match st with Likelihood.Cstat | Likelihood.Pstat => true | _ => false end in
  let bounds := if poisson then pit_poisson (k_spec k) (f_on f) else pits in
  let pit := if random then fst bounds + u * (snd bounds - fst bounds) else snd bounds in
  exists (r : R) (lower upper : bool), residuals_mle q cdf st ced (s2l "rq") random u u' pits k f = Ok (Quantile (Some r, lower, upper)) /\
  (upper = true <-> pit = 0) /\ (lower = true <-> pit = 1) /\ (poisson = true -> 0 < pit < 1) /\
  (0 < pit < 1 -> r = q pit) /\ (pit = 0 -> r = q (1 / 10000)) /\ (pit = 1 -> r = q (1 - 1 / 10000)).
Proof.
  intros q cdf st ced random u u' pits k f Hs Hk Hf B1 B2 Hu poisson bounds pit. unfold residuals_mle. cbv zeta. change (parse_rtype (s2l "rq")) with (Some RQ). cbv iota beta.
  assert (Sim : forall b : R * R, b = bounds -> poisson = false -> exists (r : R) (lower upper : bool), quantile_sim q random u nsim_mle b = (Some r, lower, upper) /\
    (upper = true <-> pit = 0) /\ (lower = true <-> pit = 1) /\ (poisson = true -> 0 < pit < 1) /\
    (0 < pit < 1 -> r = q pit) /\ (pit = 0 -> r = q (1 / 10000)) /\ (pit = 1 -> r = q (1 - 1 / 10000))).
  { intros b -> P. assert (N : INR nsim_mle = 10000) by (unfold nsim_mle; rewrite INR_IZR_INZ, Z2Nat.id by lia; reflexivity).
    assert (Eb : bounds = pits) by (unfold bounds; now rewrite P).
    destruct (C111_quantile q random u nsim_mle 1 bounds) as (r & lo & up & E & X1 & X2 & X3 & X4 & X5).
    - apply INR_le. rewrite mult_INR, N. cbn. lra.
    - rewrite Eb. assumption.
    - rewrite Eb. assumption.
    - lra.
    - assert (M : INR (nsim_mle * 1) = 10000) by (rewrite mult_INR, N; cbn; lra). rewrite M in X4, X5. fold pit in X1, X2, X3, X4, X5.
      unfold quantile_post in E. exists r, lo, up. split; [rewrite <- E; f_equal; lia|]. split; [exact X1|]. split; [exact X2|]. split; [congruence|]. split; [exact X3|]. split; [exact X4|exact X5]. }
  assert (Poi : bounds = pit_poisson (k_spec k) (f_on f) -> exists r : R, quantile_cstat q random (k_spec k) (f_on f) u u' = Some r /\ 0 < pit < 1 /\ r = q pit).
  { intros Eb. assert (P : 0 < pit < 1).
    { pose proof (C79_pit (Z.to_nat (k_spec k)) (f_on f) Hf) as A. rewrite Z2Nat.id in A by lia. unfold pit. rewrite Eb. destruct (pit_poisson (k_spec k) (f_on f)) as [lo hi].
      destruct A as (_ & _ & A1 & A2 & _). cbn [fst snd]. destruct random; split; nra. }
    exists (q pit). split; [|split; [exact P|reflexivity]]. unfold quantile_cstat, uniform. cbv zeta. rewrite <- Eb. fold pit.
    destruct (Reqb_spec pit 0); [lra|]. destruct (Reqb_spec pit 1); [lra|]. cbn [orb]. unfold ppf. destruct (Rltb_spec 0 pit); [|lra]. destruct (Rltb_spec pit 1); [|lra]. reflexivity. }
  destruct st; try congruence; cbn [quantile_point];
  try (destruct (Poi eq_refl) as (r & -> & P & Er); exists r, false, false; split; [reflexivity|]; split; [split; [discriminate|lra]|]; split; [split; [discriminate|lra]|]; split; [tauto|]; split; [tauto|]; split; lra);
  (destruct (Sim pits eq_refl eq_refl) as (r & lo & up & -> & X); exists r, lo, up; split; [reflexivity|exact X]).
Qed.
Print Assumptions C111_quantile_mle.

(** order: where the transform is a fraction of the simulations and not randomised, a larger transform never has the
    smaller residual *)
Definition increasing (q : R -> R) : Prop := forall a b, 0 < a -> a < b -> b < 1 -> q a < q b.
Theorem C111_order : forall q n i j u p p', increasing q -> (2 <= n)%nat -> (i <= j <= n)%nat ->
  exists r r' l h l' h', quantile_sim q false u n (p, INR i / INR n) = (Some r, l, h) /\
  quantile_sim q false u n (p', INR j / INR n) = (Some r', l', h') /\ r <= r'.
Proof.
  intros q n i j u p p' Q Hn (Hij & Hjn).
  assert (Pn : 2 <= INR n) by (apply le_INR in Hn; cbn in Hn; lra).
  assert (V : forall i, (i <= n)%nat -> exists l h, quantile_sim q false u n (p, INR i / INR n) = (Some (q (INR (Nat.max 1 (Nat.min i (n - 1))) / INR n)), l, h)
                                          /\ forall p', quantile_sim q false u n (p', INR i / INR n) = quantile_sim q false u n (p, INR i / INR n)).
  { clear - Pn Hn. intros i Hi. assert (I1 : 0 < 1 / INR n <= 1 / 2).
    { split; [apply Rdiv_lt_0_compat; lra|]. unfold Rdiv. rewrite !Rmult_1_l. apply Rinv_le_contravar; lra. }
    unfold quantile_sim. cbn [snd fst]. destruct (Nat.eq_dec i 0) as [->|N0].
    { replace (INR 0 / INR n) with 0 by (cbn; field; lra). destruct (Reqb_spec 0 0); [|lra]. replace (Nat.max 1 (Nat.min 0 (n - 1))) with 1%nat by lia.
      change (INR 1) with 1. unfold ppf. destruct (Rltb_spec 0 (1 / INR n)); [|lra]. destruct (Rltb_spec (1 / INR n) 1); [|lra]. cbn [andb]. eauto. }
    destruct (Nat.eq_dec i n) as [->|Nn].
    { replace (INR n / INR n) with 1 by (field; lra). destruct (Reqb_spec 1 0); [lra|]. destruct (Reqb_spec 1 1); [|lra].
      replace (Nat.max 1 (Nat.min n (n - 1))) with (n - 1)%nat by lia. rewrite minus_INR by lia. change (INR 1) with 1.
      replace ((INR n - 1) / INR n) with (1 - 1 / INR n) by (field; lra).
      unfold ppf. destruct (Rltb_spec 0 (1 - 1 / INR n)); [|lra]. destruct (Rltb_spec (1 - 1 / INR n) 1); [|lra]. cbn [andb]. eauto. }
    assert (A : 0 < INR i / INR n) by (apply Rdiv_lt_0_compat; [apply lt_0_INR; lia|lra]).
    assert (B : INR i / INR n < 1). { apply (Rmult_lt_reg_r (INR n)); [lra|]. replace (INR i / INR n * INR n) with (INR i) by (field; lra). rewrite Rmult_1_l. apply lt_INR. lia. }
    destruct (Reqb_spec (INR i / INR n) 0); [lra|]. destruct (Reqb_spec (INR i / INR n) 1); [lra|].
    replace (Nat.max 1 (Nat.min i (n - 1))) with i by lia. unfold ppf. destruct (Rltb_spec 0 (INR i / INR n)); [|lra].
    destruct (Rltb_spec (INR i / INR n) 1); [|lra]. cbn [andb]. eauto. }
  destruct (V i ltac:(lia)) as (l & h & E & _). destruct (V j Hjn) as (l' & h' & E' & F').
  do 2 eexists. exists l, h, l', h'. split; [exact E|]. split; [rewrite F'; exact E'|].
  set (a := Nat.max 1 (Nat.min i (n - 1))). set (b := Nat.max 1 (Nat.min j (n - 1))).
  assert (Hab : (1 <= a)%nat /\ (a <= b)%nat /\ (b <= n - 1)%nat) by (unfold a, b; lia). destruct Hab as (H1 & H2 & H3).
  destruct (Nat.eq_dec a b) as [->|N]; [lra|]. left. apply Q.
  - apply Rdiv_lt_0_compat; [apply lt_0_INR; lia|lra].
  - apply Rmult_lt_compat_r; [apply Rinv_0_lt_compat; lra|]. apply lt_INR. lia.
  - apply (Rmult_lt_reg_r (INR n)); [lra|]. replace (INR b / INR n * INR n) with (INR b) by (field; lra). rewrite Rmult_1_l. apply lt_INR. lia.
Qed.
Print Assumptions C111_order.

(** for weighted or randomised transforms this fails: a transform below 1/nsim has a lower residual than the
    transform 0, which belongs to smaller data *)
Theorem C111_order_refuted : forall q nchain ndraw u p, increasing q -> (2 <= nchain * ndraw)%nat -> 0 < p < 1 / INR (nchain * ndraw) ->
  exists r0 r, quantile_post q false u nchain ndraw (0, 0) = (Some r0, false, true) /\
  quantile_post q false u nchain ndraw (0, p) = (Some r, false, false) /\ r < r0.
Proof.
  intros q nc nd u p Q H (H1 & H2). set (n := (nc * nd)%nat) in *.
  assert (Pn : 2 <= INR n) by (apply le_INR in H; cbn in H; lra).
  assert (I1 : 0 < 1 / INR n <= 1 / 2).
  { split; [apply Rdiv_lt_0_compat; lra|]. unfold Rdiv. rewrite !Rmult_1_l. apply Rinv_le_contravar; lra. }
  exists (q (1 / INR n)), (q p). unfold quantile_post, quantile_sim. fold n. cbn [fst snd]. unfold ppf.
  destruct (Reqb_spec 0 0); [|lra]. destruct (Rltb_spec 0 (1 / INR n)); [|lra]. destruct (Rltb_spec (1 / INR n) 1); [|lra].
  destruct (Reqb_spec p 0); [lra|]. destruct (Reqb_spec p 1); [lra|]. destruct (Rltb_spec 0 p); [|lra]. destruct (Rltb_spec p 1); [|lra]. cbn [andb].
  split; [reflexivity|]. split; [reflexivity|]. apply Q; lra.
Qed.
Print Assumptions C111_order_refuted.

(** ** instances *)
(** the transform of the posterior does take such values: two draws of weights 1/4 and 3/4, the first not above the data *)
Example C111_order_ex : increasing (fun x => x) /\ loo_pit1 [ln (1 / 4); ln (3 / 4)] [1; 3] 2 = 1 / 4 /\ 0 < 1 / 4 < 1 / INR (1 * 2).
Proof.
  split; [intros a b _ H _; exact H|]. split.
  - unfold loo_pit1. cbn [combine filter fst snd]. destruct (Rleb_spec 1 2); [|lra]. destruct (Rleb_spec 3 2); [lra|].
    cbn [map fst rsum fold_right]. rewrite exp_ln by lra. rewrite Rplus_0_r. apply Rmin_right. lra.
  - cbn. split; lra.
Qed.
(** a chi2 channel with net counts 5 +- 2 and a model of 3 counts, and a W-statistic channel with one count, no background
    counts and a source of 3 counts: its Pearson residual is not a number *)
Definition ex_ds (st : stat) : dataset := {| ds_stat := st; ds_exposure := 1; ds_chans := [] |}.
Definition ex_k (n : Z) : chan_data := {| k_spec := n; k_net := 5; k_net_err := 2; k_back := 0; k_back_err := 1; k_ratio := 1; k_width := 1 |}.
Lemma ex_rate st n : rate_counts (ex_ds st) (channel_of st (ex_k n) [1] 1) [3] = 3.
Proof.
  unfold rate_counts. cbn [channel_of ch_row ch_area map ex_ds ds_exposure]. rewrite (clip_id tiny300 (10 ^ 300) 3).
  - unfold dot. cbn. lra.
  - unfold tiny300. assert (1 <= 10 ^ 300) by (apply pow_R1_Rle; lra). assert (10 <= 10 ^ 300). { change (10 ^ 300) with (10 * 10 ^ 299). assert (1 <= 10 ^ 299) by (apply pow_R1_Rle; lra). lra. }
    assert (/ 10 ^ 300 <= / 1) by (apply Rinv_le_contravar; lra). rewrite Rinv_1 in *. split; lra.
Qed.
Lemma ex_range : in_range 3.
Proof.
  unfold in_range, tiny. assert (1 <= 10 ^ 30) by (apply pow_R1_Rle; lra). assert (/ 10 ^ 30 <= / 1) by (apply Rinv_le_contravar; lra).
  rewrite Rinv_1 in *. split; [lra|]. change (10 ^ 15) with (10 * 10 ^ 14). assert (1 <= 10 ^ 14) by (apply pow_R1_Rle; lra). lra.
Qed.
Example C111_chi2_ex : regular (ex_ds Likelihood.Chi2) (channel_of Likelihood.Chi2 (ex_k 0) [1] 1) [3] /\
  sigmas (k_net (ex_k 0)) (on_model (ex_ds Likelihood.Chi2) (channel_of Likelihood.Chi2 (ex_k 0) [1] 1) [3]) (k_net_err (ex_k 0)) = 1.
Proof.
  split.
  - unfold regular. rewrite ex_rate. cbn [ds_stat ex_ds]. split; [cbn; lra|]. split; [exact ex_range|exact I].
  - unfold on_model, source_counts. cbn [ds_stat ex_ds]. rewrite ex_rate. rewrite (clip_id _ _ 3 ex_range). unfold sigmas. cbn. lra.
Qed.
Example C111_wstat_ex : regular (ex_ds Likelihood.Wstat) (channel_of Likelihood.Wstat (ex_k 1) [1] 1) [3] /\
  forall q cdf r v v' p, residuals_mle q cdf Likelihood.Wstat (Signs.ce_data (ex_ds Likelihood.Wstat) 1 (channel_of Likelihood.Wstat (ex_k 1) [1] 1)) (s2l "rp") r v v' p (ex_k 1)
     (fitted_by (ex_ds Likelihood.Wstat) 1 (channel_of Likelihood.Wstat (ex_k 1) [1] 1) [3]) = Ok (Value None).
Proof.
  assert (G : regular (ex_ds Likelihood.Wstat) (channel_of Likelihood.Wstat (ex_k 1) [1] 1) [3]).
  { unfold regular. rewrite ex_rate. cbn [ds_stat ex_ds]. split; [cbn; repeat split; lra|]. split; [exact ex_range|exact I]. }
  split; [exact G|]. intros q cdf r v v' p.
  apply (proj2 (C111_wstat_nan_refuted q cdf (ex_ds Likelihood.Wstat) (ex_k 1) [1] 1 [3] r v v' p G Rlt_0_1 Rlt_0_1 eq_refl)).
  split; [reflexivity|]. unfold source_counts. change (ds_stat (ex_ds Likelihood.Wstat)) with Likelihood.Wstat. rewrite (ex_rate Likelihood.Wstat 1). rewrite (clip_id _ _ 3 ex_range). cbn. lra.
Qed.
(** and one with ten counts: the residual of the mean posterior is shown as 0 *)
Example C111_loo_ex : let f := {| f_ce := 6; f_on := 6; f_off := 0; f_dev := 2 |} in
  weights [ln (1 / 4); ln (3 / 4)] [f; f] /\ pearson_loo Likelihood.Wstat 10 (ex_k 10) [ln (1 / 4); ln (3 / 4)] [f; f] = Some 0 /\
  pearson_loo Likelihood.Cstat 10 (ex_k 10) [ln (1 / 4); ln (3 / 4)] [f; f] <> Some 0.
Proof.
  intros f. assert (Wt : weights [ln (1 / 4); ln (3 / 4)] [f; f]). { split; [reflexivity|]. cbn. rewrite !exp_ln by lra. lra. }
  split; [exact Wt|]. split; [apply C111_wstat_loo_refuted; [reflexivity|intros g [<-|[<-|[]]]; reflexivity]|].
  assert (E : pearson_point Likelihood.Cstat (ex_k 10) (Signs.sign 10 (f_ce f)) f = Some ((10 - 6) / sqrt 6)).
  { unfold pearson_point. cbn [spec_normal with_back]. unfold pearson_residuals. cbn [f_on f k_spec ex_k]. destruct (Reqb_spec (sqrt 6) 0) as [Z|Z]; [|reflexivity].
    pose proof (sqrt_lt_R0 6). lra. }
  destruct (C111_concentrated Likelihood.Cstat 10 (ex_k 10) _ [f; f] f Wt) as (H & _); [intros g [<-|[<-|[]]]; reflexivity|cbn; lra|].
  rewrite (H _ E). assert (P : 0 < (10 - 6) / sqrt 6) by (apply Rdiv_lt_0_compat; [lra|apply sqrt_lt_R0; lra]).
  rewrite Rabs_pos_eq by lra. destruct (sign_two 10 (f_ce f)) as [(-> & _)|(-> & _)]; intros K; injection K; lra.
Qed.
