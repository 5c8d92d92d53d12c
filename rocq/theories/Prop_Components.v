(** Theorems for C53-C59: shifts and the built-in spectral components.
    Specification: ComponentSpec.v ([integrates], [averages], [egrid] and the documented
    formulas [d_*]). *)
From Coquelicot Require Import Coquelicot.
From Verif Require Import RBase ModelAlg ModelAlgProofs Components ComponentSpec ComponentProofs ComponentShapes ComponentQuad.
From Coq Require Import List Lia Lra Psatz.
Import ListNotations.
Open Scope R_scope.

(** a model function that computes exact bin integrals (means) on every energy grid *)
Definition exact (N : R -> R) (f : spectrum) : Prop := forall g, egrid g -> integrates N g (f g).
Definition exact_mean (M : R -> R) (f : spectrum) : Prop := forall g, egrid g -> averages M g (f g).

Lemma nth_scale k g i : nth i (scale_grid k g) 0 = k * nth i g 0.
Proof. unfold scale_grid. rewrite <- (map_nth (Rmult k) g 0 i). now rewrite Rmult_0_r. Qed.
Lemma egrid_scale k g : 0 < k -> egrid g -> egrid (scale_grid k g).
Proof.
  intros Hk [H1 H2]. unfold egrid. assert (L : length (scale_grid k g) = length g) by apply map_length. rewrite L.
  split; intros i Hi; rewrite ?nth_scale.
  - apply Rmult_lt_0_compat; auto.
  - apply Rmult_lt_compat_l; auto.
Qed.
Lemma scale_int N k a b (l : R) : 0 < k -> is_RInt N (k * a) (k * b) l -> is_RInt (fun e => N (k * e)) a b (l / k).
Proof.
  intros Hk H. replace (k * a) with (k * a + 0) in H by ring. replace (k * b) with (k * b + 0) in H by ring.
  apply (is_RInt_comp_lin N k 0 a b) in H. apply (is_RInt_scalR _ _ _ (/ k)) in H.
  replace (l / k) with (/ k * l) by (unfold Rdiv; ring).
  eapply is_RInt_ext; [|exact H]. intros x _. cbv beta. change scal with Rmult. unfold scal; cbn. unfold mult; cbn.
  replace (k * x + 0) with (k * x) by ring. rewrite <- Rmult_assoc, Rinv_l by lra. ring.
Qed.

(** ** C53 redshift and velocity shift *)
(** the redshifted additive model, bin by bin: [1/(1+z)] times the integral over the
    rest-frame bin, i.e. the integral over the bin of [N((1+z) e)] *)
Theorem C53_zashift : forall z N f g, -1 < z -> exact N f -> egrid g ->
  integrates (fun e => N ((1 + z) * e)) g (zashift z f g) /\
  forall i, (S i < length g)%nat ->
    is_RInt N ((1 + z) * nth i g 0) ((1 + z) * nth (S i) g 0) ((1 + z) * nth i (zashift z f g) 0).
Proof.
  intros z N f g Hz Hf Hg. assert (Hk : 0 < 1 + z) by lra.
  destruct (Hf _ (egrid_scale (1 + z) g Hk Hg)) as [HL HI].
  assert (L : length (scale_grid (1 + z) g) = length g) by apply map_length. rewrite L in *.
  assert (E : forall i, (S i < length g)%nat -> nth i (zashift z f g) 0 = nth i (f (scale_grid (1 + z) g)) 0 / (1 + z)).
  { intros i Hi. unfold zashift. rewrite (nth_indep _ 0 (0 / (1 + z))) by (rewrite map_length; lia).
    apply (map_nth (fun v => v / (1 + z))). }
  split.
  - split; [unfold zashift; rewrite map_length; exact HL|]. intros i Hi. rewrite E by exact Hi.
    apply scale_int; [exact Hk|]. specialize (HI i Hi). now rewrite !nth_scale in HI.
  - intros i Hi. rewrite E by exact Hi. specialize (HI i Hi). rewrite !nth_scale in HI.
    replace ((1 + z) * (nth i (f (scale_grid (1 + z) g)) 0 / (1 + z))) with (nth i (f (scale_grid (1 + z) g)) 0) by (field; lra).
    exact HI.
Qed.
Print Assumptions C53_zashift.
(** a redshifted multiplicative model is the mean of [M((1+z) e)] over the bin *)
Theorem C53_zmshift : forall z M f g, -1 < z -> exact_mean M f -> egrid g ->
  averages (fun e => M ((1 + z) * e)) g (zmshift z f g).
Proof.
  intros z M f g Hz Hf Hg. assert (Hk : 0 < 1 + z) by lra.
  destruct (Hf _ (egrid_scale (1 + z) g Hk Hg)) as [HL HI].
  assert (L : length (scale_grid (1 + z) g) = length g) by apply map_length. rewrite L in *.
  split; [exact HL|]. intros i Hi. specialize (HI i Hi). rewrite !nth_scale in HI. apply scale_int in HI; [|exact Hk].
  unfold zmshift.
  match type of HI with is_RInt _ _ _ ?v => match goal with |- is_RInt _ _ _ ?w => replace w with v; [exact HI|field; lra] end end.
Qed.
Print Assumptions C53_zmshift.
(** velocity shifts, [|v| <= 10000 km/s]: the additive model is integrated over the
    shifted bin (no division by the factor), the multiplicative one averaged over it *)
Theorem C53_velocity : forall v N f g, rng (-10 ^ 4) v (10 ^ 4) -> egrid g ->
  let k := 1 - v / (299792458 / 1000) in 0 < k /\
  (exact N f -> forall i, (S i < length g)%nat ->
     is_RInt N (k * nth i g 0) (k * nth (S i) g 0) (nth i (vshift v f g) 0)) /\
  (exact_mean N f -> averages (fun e => N (k * e)) g (vshift v f g)).
Proof.
  intros v N f g [V1 V2] Hg k.
  assert (Hk : 0 < k).
  { unfold k. assert (10 ^ 4 = 10000) by (cbn; lra). rewrite H in *. unfold Rdiv. lra. }
  assert (L : length (scale_grid k g) = length g) by apply map_length.
  split; [exact Hk|]. split.
  - intros Hf i Hi. destruct (Hf _ (egrid_scale k g Hk Hg)) as [HL HI]. rewrite L in *. specialize (HI i Hi). now rewrite !nth_scale in HI.
  - intros Hf. destruct (Hf _ (egrid_scale k g Hk Hg)) as [HL HI]. rewrite L in *.
    split; [exact HL|]. intros i Hi. specialize (HI i Hi). rewrite !nth_scale in HI. apply scale_int in HI; [|exact Hk].
    unfold vshift. fold light in k. fold k.
    match type of HI with is_RInt _ _ _ ?v => match goal with |- is_RInt _ _ _ ?w => replace w with v; [exact HI|field; lra] end end.
Qed.
Print Assumptions C53_velocity.
(** shifts compose multiplicatively, and redshift 0 is the identity *)
Theorem C53_compose : forall z1 z2 f g, -1 < z1 -> -1 < z2 ->
  zashift z1 (zashift z2 f) g = zashift ((1 + z1) * (1 + z2) - 1) f g /\
  zmshift z1 (zmshift z2 f) g = zmshift ((1 + z1) * (1 + z2) - 1) f g /\
  zashift 0 f g = f g /\ zmshift 0 f g = f g.
Proof.
  intros z1 z2 f g H1 H2.
  assert (S2 : forall a b, scale_grid a (scale_grid b g) = scale_grid (b * a) g).
  { intros a b. unfold scale_grid. rewrite map_map. apply map_ext. intros; ring. }
  assert (S1 : scale_grid (1 + 0) g = g).
  { unfold scale_grid. rewrite <- (map_id g) at 2. apply map_ext. intros; ring. }
  unfold zashift, zmshift. rewrite S2, S1.
  replace (1 + ((1 + z1) * (1 + z2) - 1)) with ((1 + z1) * (1 + z2)) by ring.
  split; [|repeat split; try reflexivity].
  - rewrite map_map. apply map_ext. intros x. field. lra.
  - rewrite <- (map_id (f g)) at 2. apply map_ext. intros x. unfold Rdiv. rewrite Rplus_0_r, Rinv_1. ring.
Qed.
Print Assumptions C53_compose.
(** shifting a numerically integrated component is integrating the shifted continuum *)
Theorem C53_numerical : forall z m c g, -1 < z ->
  zashift z (integrate m true c) g = integrate m true (fun e => c ((1 + z) * e)) g /\
  zmshift z (integrate m false c) g = integrate m false (fun e => c ((1 + z) * e)) g.
Proof.
  intros z m c g Hz. unfold zashift, zmshift, scale_grid.
  destruct m; cbn [integrate]; rewrite ?trapz_bins, ?simpson_bins, ?bins_map, ?map_bins; split; apply bins_ext; intros i Hi; try (field; lra); try reflexivity.
  - replace (1 / 2 * ((1 + z) * nth i g 0 + (1 + z) * nth (S i) g 0)) with ((1 + z) * (1 / 2 * (nth i g 0 + nth (S i) g 0))) by ring. field; lra.
  - replace (1 / 2 * ((1 + z) * nth i g 0 + (1 + z) * nth (S i) g 0)) with ((1 + z) * (1 / 2 * (nth i g 0 + nth (S i) g 0))) by ring. reflexivity.
Qed.
Print Assumptions C53_numerical.

Lemma egrid_example : egrid [1; 2; 4].
Proof.
  split; intros i Hi; cbn [length] in Hi.
  - do 3 (destruct i as [|i]; [cbn; lra|]). lia.
  - do 2 (destruct i as [|i]; [cbn; lra|]). lia.
Qed.
(** the hypotheses are met: a power law is exact *)
Lemma exact_power_law alpha K : exact (fun E => K * Rpower E (- alpha)) (power_law alpha K).
Proof. intros g Hg. unfold power_law. now apply integrates_scal, powerlaw_integrates. Qed.
Example C53_witness : exact (fun E => 3 * Rpower E (- 2)) (power_law 2 3) /\ egrid [1; 2; 4] /\ -1 < 1.
Proof. split; [apply exact_power_law|]. split; [apply egrid_example|lra]. Qed.

(** ** C54 components with an analytical integral *)
Theorem C54_power_law : forall alpha K g, egrid g -> integrates (d_power_law alpha K) g (power_law alpha K g).
Proof. intros alpha K g Hg. exact (exact_power_law alpha K g Hg). Qed.
Print Assumptions C54_power_law.
(** [PLPhFlux]: a power law whose photon flux over [emin, emax] is [F] *)
Theorem C54_photon_flux_norm : forall emin emax alpha F g, 0 < emin < emax -> egrid g ->
  exists k, integrates (d_power_law alpha k) g (pl_flux false emin emax alpha F g) /\
            is_RInt (d_power_law alpha k) emin emax F.
Proof.
  intros emin emax alpha F g He Hg. unfold pl_flux. rewrite pl2_nth.
  pose proof (pl_int_pos alpha emin emax He) as P. pose proof (powerlaw_step alpha emin emax ltac:(lra) ltac:(lra)) as Q.
  set (f := if Req_EM_T alpha 1 then _ else _) in *. exists (F / f). split.
  - now apply integrates_scal, powerlaw_integrates.
  - replace F with (F / f * f) at 2 by (field; lra). now apply is_RInt_scalR.
Qed.
Print Assumptions C54_photon_flux_norm.
(** [PLEnFlux]: a power law whose energy flux over [emin, emax] (in erg) is [F] *)
Theorem C54_energy_flux_norm : forall emin emax alpha F g, 0 < emin < emax -> egrid g ->
  exists k, integrates (d_power_law alpha k) g (pl_flux true emin emax alpha F g) /\
            is_RInt (fun E => (1602176634 / 10 ^ 18 * E) * d_power_law alpha k E) emin emax F.
Proof.
  intros emin emax alpha F g He Hg. unfold pl_flux. rewrite pl2_nth.
  pose proof (pl_int_pos (alpha - 1) emin emax He) as P. pose proof (powerlaw_step (alpha - 1) emin emax ltac:(lra) ltac:(lra)) as Q.
  set (f := if Req_EM_T (alpha - 1) 1 then _ else _) in *.
  assert (Hk : 0 < keV_to_erg) by (unfold keV_to_erg; apply Rdiv_lt_0_compat; [lra|apply pow_lt; lra]).
  exists (F / (f * keV_to_erg)). split.
  - now apply integrates_scal, powerlaw_integrates.
  - apply (is_RInt_scalR _ _ _ (F / (f * keV_to_erg) * keV_to_erg)) in Q.
    replace (F / (f * keV_to_erg) * keV_to_erg * f) with F in Q by (field; split; lra).
    eapply is_RInt_ext; [|exact Q].
    intros x Hx. rewrite Rmin_left, Rmax_right in Hx by lra. cbv beta. unfold d_power_law. fold keV_to_erg.
    replace (Rpower x (- (alpha - 1))) with (x * Rpower x (- alpha)).
    + match goal with |- ?a = ?b => change (@eq R a b) end. ring.
    + rewrite <- (Rpower_1 x) at 1 by lra. rewrite <- Rpower_plus. f_equal. ring.
Qed.
Print Assumptions C54_energy_flux_norm.
(** [Lorentz]: the line profile normalised to [K] photons on the half line *)
Theorem C54_lorentz : forall El sigma K g, 0 < sigma -> 0 < El -> egrid g ->
  exists Fnorm, 0 < Fnorm /\
    improper (fun E => 1 / ((E - El) ^ 2 + (sigma / 2) ^ 2)) Fnorm /\
    integrates (fun E => K / Fnorm / ((E - El) ^ 2 + (sigma / 2) ^ 2)) g (lorentz El sigma K g) /\
    improper (fun E => K / Fnorm / ((E - El) ^ 2 + (sigma / 2) ^ 2)) K.
Proof.
  intros El s K g Hs HE Hg. exists (2 / s * (PI / 2 + atan (2 * El / s))).
  assert (Hat : 0 < atan (2 * El / s)) by (rewrite <- atan_0; apply atan_increasing, Rdiv_lt_0_compat; lra).
  pose proof PI_RGT_0. assert (P : 0 < 2 / s * (PI / 2 + atan (2 * El / s))).
  { apply Rmult_lt_0_compat; [apply Rdiv_lt_0_compat; lra|lra]. }
  split; [exact P|]. pose proof (profile_improper El s Hs) as Q. split; [|split].
  - intros eps He. destruct (Q eps He) as [T0 HT]. exists T0. intros T A B. destruct (HT T A B) as (I & HI & HE'). exists I. split; [|exact HE'].
    eapply is_RInt_ext; [|exact HI]. intros x _. unfold profile, Rdiv. now rewrite Rmult_1_l.
  - now apply lorentz_integrates.
  - apply (improper_scal (K / (2 / s * (PI / 2 + atan (2 * El / s))))) in Q.
    replace (K / (2 / s * (PI / 2 + atan (2 * El / s))) * (2 / s * (PI / 2 + atan (2 * El / s)))) with K in Q by (field; lra).
    exact Q.
Qed.
Print Assumptions C54_lorentz.
Lemma diff_nth g i : (S i < length g)%nat -> nth i (diff g) 0 = nth (S i) g 0 - nth i g 0.
Proof. intros H. rewrite diff_bins. now rewrite bins_nth. Qed.
Theorem C54_constant : forall f g, averages (fun _ => f) g (constant f g).
Proof.
  intros f g. split; [apply repeat_length|]. intros i Hi. unfold constant. rewrite (nth_indep (repeat f (length g - 1)) 0 f) by (rewrite repeat_length; lia). rewrite nth_repeat.
  exact (is_RInt_const (V:=R_NormedModule) _ _ f).
Qed.
Print Assumptions C54_constant.
(** [PLAbs] is the mean of the documented power law, except at [alpha = 1] *)
Theorem C54_pl_abs_partial : forall alpha K g, alpha <> 1 -> egrid g ->
  exists r, pl_abs alpha K g = Some r /\ averages (d_power_law alpha K) g r.
Proof.
  intros alpha K g Ha Hg. unfold pl_abs. destruct (Reqb_spec (1 - alpha) 0) as [E|E]; [exfalso; lra|].
  eexists. split; [reflexivity|]. rewrite anaint_bins, diff_bins, map2_bins. apply averages_bins. intros i Hi.
  destruct (egrid_bin g i Hg Hi) as [A B]. set (a := nth i g 0) in *. set (b := nth (S i) g 0) in *.
  pose proof (powerlaw_step alpha a b ltac:(lra) ltac:(lra)) as Q. destruct (Req_EM_T alpha 1); [lra|].
  apply (is_RInt_scalR _ _ _ K) in Q.
  match goal with |- is_RInt _ _ _ ?v => match type of Q with is_RInt _ _ _ ?w => replace v with w; [exact Q|] end end.
  field. split; lra.
Qed.
Print Assumptions C54_pl_abs_partial.
Theorem C54_pl_abs_refuted : exists alpha K g, 0 <= alpha <= 5 /\ 0 <= K <= 100 /\ egrid g /\
  (exists r, averages (d_power_law alpha K) g r) /\ pl_abs alpha K g = None.
Proof.
  exists 1, 1, [1; 2; 4]. split; [lra|]. split; [lra|]. split; [apply egrid_example|]. split.
  - exists (map2 Rdiv (powerlaw_integral 1 [1; 2; 4]) (diff [1; 2; 4])).
    rewrite powerlaw_bins, diff_bins, map2_bins. apply averages_bins. intros i Hi.
    destruct (egrid_bin _ i egrid_example Hi) as [A B].
    set (a := nth i [1; 2; 4] 0) in *. set (b := nth (S i) [1; 2; 4] 0) in *.
    pose proof (powerlaw_step 1 a b ltac:(lra) ltac:(lra)) as Q. apply (is_RInt_scalR _ _ _ 1) in Q.
    match goal with |- is_RInt _ _ _ ?v => match type of Q with is_RInt _ _ _ ?w => replace v with w; [exact Q|] end end.
    destruct (Req_EM_T 1 1); [|lra]. field. lra.
  - unfold pl_abs. destruct (Reqb_spec (1 - 1) 0); [reflexivity|lra].
Qed.
Print Assumptions C54_pl_abs_refuted.
Example C54_witness : egrid [1; 2; 4] /\ 0 < 1 < 10 /\ (2 : R) <> 1.
Proof. split; [apply egrid_example|]. split; lra. Qed.

(** ** C55 broken power law: each bin is the documented integral divided by [Eb], and only
    for bins that do not contain the break *)
Theorem C55_integral_partial : forall alpha1 Eb alpha2 K g i, 0 < Eb -> egrid g -> (S i < length g)%nat ->
  nth (S i) g 0 <= Eb \/ Eb < nth i g 0 ->
  is_RInt (d_broken_pl alpha1 Eb alpha2 K) (nth i g 0) (nth (S i) g 0) (Eb * nth i (broken_pl alpha1 Eb alpha2 K g) 0).
Proof.
  intros a1 Eb a2 K g i HE Hg Hi Hb. rewrite broken_nth by assumption. cbv zeta.
  destruct (egrid_bin g i Hg Hi) as [A B]. set (a := nth i g 0) in *. set (b := nth (S i) g 0) in *.
  rewrite <- Rmult_assoc, (Rmult_comm Eb K), Rmult_assoc.
  eapply is_RInt_ext; [|apply is_RInt_scalR, (scaled_pl (if Rle_dec a Eb then a1 else a2)); lra].
  intros x Hx. rewrite Rmin_left, Rmax_right in Hx by lra. cbv beta. unfold d_broken_pl.
  destruct Hb as [Hb|Hb]; destruct (Rle_dec a Eb); try lra; destruct (Rle_dec x Eb); try lra; reflexivity.
Qed.
Print Assumptions C55_integral_partial.
Theorem C55_length : forall alpha1 Eb alpha2 K g, length (broken_pl alpha1 Eb alpha2 K g) = (length g - 1)%nat.
Proof. exact broken_length. Qed.
Print Assumptions C55_length.
(** the default break energy, 5 keV, and a bin below it *)
Theorem C55_integral_refuted : exists alpha1 Eb alpha2 K g, acomp_range (BrokenPL alpha1 Eb alpha2 K) /\ egrid g /\
  ~ integrates (d_broken_pl alpha1 Eb alpha2 K) g (broken_pl alpha1 Eb alpha2 K g).
Proof.
  exists 0, 5, 2, 1, [1; 2; 4].
  assert (HR : acomp_range (BrokenPL 0 5 2 1)).
  { unfold acomp_range, K_rng, rng. assert (10 ^ 10 = 10000000000) by (cbn; lra). assert (10 ^ 6 = 1000000) by (cbn; lra). assert (10 ^ 2 = 100) by (cbn; lra).
    rewrite H, H0, H1. repeat split; try lra. }
  split; [exact HR|]. split; [apply egrid_example|]. intros [_ H].
  specialize (H 0%nat ltac:(cbn; lia)).
  pose proof (C55_integral_partial 0 5 2 1 [1; 2; 4] 0 ltac:(lra) egrid_example ltac:(cbn; lia) ltac:(left; cbn; lra)) as Q.
  assert (E : nth 0 (broken_pl 0 5 2 1 [1; 2; 4]) 0 = 5 * nth 0 (broken_pl 0 5 2 1 [1; 2; 4]) 0).
  { rewrite <- (is_RInt_unique _ _ _ _ H) at 1. now apply is_RInt_unique. }
  rewrite broken_nth in E by (try lra; cbn; lia). cbv zeta in E. rewrite pl2_nth in E.
  set (al := if Rle_dec (nth 0 [1; 2; 4] 0) 5 then 0 else 2) in *.
  assert (P := pl_int_pos al (nth 0 [1; 2; 4] 0 / 5) (nth 1 [1; 2; 4] 0 / 5) ltac:(cbn; lra)). lra.
Qed.
Print Assumptions C55_integral_refuted.
(** even with [Eb = 1] (no missing factor) the bin containing the break is wrong *)
Theorem C55_break_bin_refuted : exists alpha1 alpha2 K g, egrid g /\
  ~ integrates (d_broken_pl alpha1 1 alpha2 K) g (broken_pl alpha1 1 alpha2 K g).
Proof.
  exists 0, 2, 1, [1; 2; 4]. split; [apply egrid_example|]. intros [_ H]. specialize (H 0%nat ltac:(cbn; lia)).
  cbn [nth] in H. rewrite broken_nth in H by (try lra; cbn; lia). cbv zeta in H. cbn [nth] in H.
  destruct (Rle_dec 1 1); [|lra].
  (* the code: integral of 1 over [1,2]; the truth: integral of E^-2 *)
  assert (Q : is_RInt (d_broken_pl 0 1 2 1) 1 2 (1 * nth 0 (powerlaw_integral 2 [1 / 1; 2 / 1]) 0)).
  { replace (1 * nth 0 (powerlaw_integral 2 [1 / 1; 2 / 1]) 0) with (1 * (1 * nth 0 (powerlaw_integral 2 [1 / 1; 2 / 1]) 0)) by ring.
    eapply is_RInt_ext; [|apply is_RInt_scalR, (scaled_pl 2 1 1 2); lra].
    intros x Hx. rewrite Rmin_left, Rmax_right in Hx by lra. cbv beta. unfold d_broken_pl. destruct (Rle_dec x 1); [lra|reflexivity]. }
  assert (E : 1 * nth 0 (powerlaw_integral 0 [1 / 1; 2 / 1]) 0 = 1 * nth 0 (powerlaw_integral 2 [1 / 1; 2 / 1]) 0).
  { rewrite <- (is_RInt_unique _ _ _ _ H). now apply is_RInt_unique. }
  rewrite !pl2_nth in E. destruct (Req_EM_T 0 1); [lra|]. destruct (Req_EM_T 2 1); [lra|].
  replace (1 / 1) with 1 in E by field. replace (2 / 1) with 2 in E by field.
  replace (1 - 0) with 1 in E by ring. replace (1 - 2) with (- (1)) in E by ring.
  rewrite !Rpower_Ropp, !Rpower_1 in E by lra.
  replace (/ 2 / - (1) - / 1 / - (1)) with (1 / 2) in E by field. lra.
Qed.
Print Assumptions C55_break_bin_refuted.
Example C55_witness : 0 < 5 /\ egrid [1; 2; 4] /\ (nth 1 [1; 2; 4] 0 <= 5 \/ 5 < nth 0 [1; 2; 4] 0).
Proof. split; [lra|]. split; [apply egrid_example|]. left. cbn. lra. Qed.
