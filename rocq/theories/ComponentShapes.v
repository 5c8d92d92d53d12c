(** Shapes of the built-in components: documented formulas, sign, peaks, quadrature error. *)
From Coquelicot Require Import Coquelicot.
From Verif Require Import RBase ModelAlg ModelAlgProofs Components ComponentSpec ComponentProofs.
From Coq Require Import List Lia Lra Psatz.
Import ListNotations.
Open Scope R_scope.

(** ** logarithms and powers *)
Lemma ln_div x y : 0 < x -> 0 < y -> ln (x / y) = ln x - ln y.
Proof. intros Hx Hy. unfold Rdiv. rewrite ln_mult; [|exact Hx|now apply Rinv_0_lt_compat]. now rewrite ln_Rinv. Qed.
Lemma ln_le_sub1 x : 0 < x -> ln x <= x - 1.
Proof.
  intros H. destruct (Req_dec x 1) as [->|n]; [rewrite ln_1; lra|].
  assert (1 + ln x <= exp (ln x)).
  { destruct (Req_dec (ln x) 0) as [E|E]; [rewrite E, exp_0; lra|]. left. now apply exp_ineq1. }
  rewrite exp_ln in H0 by exact H. lra.
Qed.

(** ** documented formulas *)
Lemma band_documented alpha beta Ec K e : 0 < Ec -> 0 < e -> 1 / Ec <= alpha - beta ->
  band alpha beta Ec K e = d_band alpha beta Ec K e.
Proof.
  intros HE He Hab. unfold band, d_band.
  assert (P : 0 < 1 / Ec) by (apply Rdiv_lt_0_compat; lra).
  replace (Rltb (alpha - beta) (1 / Ec)) with false by (symmetry; apply Rltb_false; lra).
  unfold Rltb. replace (Ec * (alpha - beta)) with ((alpha - beta) * Ec) by ring.
  f_equal. destruct (Rlt_dec e ((alpha - beta) * Ec)).
  - unfold Rpower. rewrite <- exp_plus. f_equal; ring.
  - unfold Rpower. rewrite <- !exp_plus. f_equal; ring.
Qed.
Lemma band_ep_is_band alpha beta Ep K e : 0 < 2 + alpha -> 0 < Ep -> 0 < e -> (2 + alpha) / Ep <= alpha - beta ->
  band_ep alpha beta Ep K e = band alpha beta (Ep / (2 + alpha)) K e.
Proof.
  intros Ha HE He Hab. unfold band_ep, band.
  replace (1 / (Ep / (2 + alpha))) with ((2 + alpha) / Ep) by (field; lra).
  replace (Rltb (alpha - beta) ((2 + alpha) / Ep)) with false by (symmetry; apply Rltb_false; lra).
  now rewrite (Rmult_comm (Ep / (2 + alpha))).
Qed.
Lemma band_ep_documented alpha beta Ep K e : 0 < 2 + alpha -> 0 < Ep -> 0 < e -> (2 + alpha) / Ep <= alpha - beta ->
  band_ep alpha beta Ep K e = d_band_ep alpha beta Ep K e.
Proof.
  intros Ha HE He Hab. rewrite band_ep_is_band by assumption.
  rewrite band_documented; try assumption.
  - unfold d_band, d_band_ep. f_equal.
    replace ((alpha - beta) * (Ep / (2 + alpha))) with ((alpha - beta) * Ep / (2 + alpha)) by (unfold Rdiv; ring).
    replace ((alpha - beta) * Ep / (2 + alpha) / 100) with ((alpha - beta) * Ep / ((2 + alpha) * 100)) by (field; lra).
    replace (e / (Ep / (2 + alpha))) with ((2 + alpha) * e / Ep) by (field; lra). reflexivity.
  - apply Rdiv_lt_0_compat; lra.
  - replace (1 / (Ep / (2 + alpha))) with ((2 + alpha) / Ep) by (field; lra). exact Hab.
Qed.
(** below [1 / Ec] the code replaces [alpha - beta] by [1 / Ec]: break at 1 keV *)
Lemma band_clamped alpha beta Ec K e : 0 < Ec -> alpha - beta < 1 / Ec ->
  band alpha beta Ec K e = K * exp (if Rlt_dec e 1 then alpha * ln (e / 100) - e / Ec
                                    else 1 / Ec * ln (1 / 100) - 1 / Ec + beta * ln (e / 100)).
Proof.
  intros HE H. unfold band. replace (Rltb (alpha - beta) (1 / Ec)) with true by (symmetry; now apply Rltb_true).
  unfold Rltb. replace (Ec * (1 / Ec)) with 1 by (field; lra). replace (1 / Ec * Ec) with 1 by (field; lra). now destruct (Rlt_dec e 1).
Qed.

Lemma bent_documented a Eb K e : bent_pl a Eb K e = d_bent_pl a Eb K e.
Proof. unfold bent_pl, d_bent_pl, Rdiv. ring. Qed.
Lemma cutoff_documented a Ec K e : cutoff_pl a Ec K e = d_cutoff_pl a Ec K e.
Proof. unfold cutoff_pl, d_cutoff_pl. do 2 f_equal. unfold Rdiv. ring. Qed.
Lemma compt_documented a Ep K e : compt a Ep K e = d_compt a Ep K e.
Proof. unfold compt, d_compt. do 2 f_equal. unfold Rdiv. ring. Qed.
Lemma exp_half_ln x : 0 < x -> exp (- (ln x / 2)) = / sqrt x.
Proof.
  intros H. rewrite exp_Ropp. f_equal.
  assert (0 < sqrt x) by (now apply sqrt_lt_R0).
  rewrite <- (exp_ln (sqrt x)) by assumption. f_equal.
  assert (ln x = 2 * ln (sqrt x)).
  { rewrite <- (sqrt_sqrt x) at 1 by lra. rewrite ln_mult by assumption. ring. }
  lra.
Qed.
Lemma gauss_documented El s K e : 0 < s -> gauss El s K e = d_gauss El s K e.
Proof.
  intros Hs. unfold gauss, d_gauss, norm_pdf. pose proof PI_RGT_0.
  assert (0 < s ^ 2) by (apply pow_lt; lra).
  replace (- (ln (2 * PI * s ^ 2) + (e - El) ^ 2 / s ^ 2) / 2)
    with (- (ln (2 * PI * s ^ 2) / 2) + - ((e - El) ^ 2 / (2 * s ^ 2))) by (field; lra).
  rewrite exp_plus, exp_half_ln by nra. rewrite sqrt_mult by lra. rewrite sqrt_pow2 by lra.
  unfold Rdiv. ring.
Qed.
Lemma ottb_documented kT K e : 0 < kT -> ottb kT K e = d_ottb kT K e.
Proof.
  intros H. unfold ottb, d_ottb. replace ((1 - e) / kT) with (- (e / kT) + 1 / kT) by (field; lra).
  rewrite exp_plus. unfold Rdiv. ring.
Qed.
Lemma otts_documented Ec K e : otts Ec K e = d_otts Ec K e.
Proof. reflexivity. Qed.
Lemma edge_documented Ec D e : edge Ec D e = d_edge Ec D e.
Proof. unfold edge, d_edge, Rleb. destruct (Rle_dec Ec e); [f_equal; ring|reflexivity]. Qed.
Lemma exp_abs_documented Ec e : exp_abs Ec e = d_exp_abs Ec e.
Proof. unfold exp_abs, d_exp_abs. f_equal. unfold Rdiv. ring. Qed.
Lemma exp_fac_documented A f Ec e : exp_fac A f Ec e = d_exp_fac A f Ec e.
Proof. unfold exp_fac, d_exp_fac, Rleb. destruct (Rle_dec Ec e); [|reflexivity]. do 3 f_equal. ring. Qed.
Lemma gabs_documented El s t e : 0 < s -> gabs El s t e = d_gabs El s t e.
Proof.
  intros H. unfold gabs, d_gabs. f_equal.
  replace (- (1 / 2) * ((e - El) / s) ^ 2) with (- ((e - El) ^ 2 / (2 * s ^ 2))) by (field; lra). unfold Rdiv. ring.
Qed.
Lemma high_documented Ec Ef e : high_e_cut Ec Ef e = d_high_e_cut Ec Ef e.
Proof. unfold high_e_cut, d_high_e_cut, Rleb. now destruct (Rle_dec Ec e). Qed.

(** blackbody *)
Lemma expm1_bounds x : 0 < x <= 1 / 4 -> x < exp x - 1 <= x + x ^ 2.
Proof.
  intros [H0 H1]. split; [pose proof (exp_ineq1 x ltac:(lra)); lra|].
  assert (A : 1 - x / 2 < exp (- (x / 2))) by (pose proof (exp_ineq1 (- (x / 2)) ltac:(lra)); lra).
  assert (B : exp x * (exp (- (x / 2)) * exp (- (x / 2))) = 1).
  { rewrite <- !exp_plus. replace (x + (- (x / 2) + - (x / 2))) with 0 by field. apply exp_0. }
  assert (C : exp x * (1 - x / 2) ^ 2 <= 1).
  { rewrite <- B. apply Rmult_le_compat_l; [left; apply exp_pos|]. cbn [pow]. rewrite Rmult_1_r. apply Rmult_le_compat; lra. }
  assert (D : 1 <= (1 + x + x ^ 2) * (1 - x / 2) ^ 2).
  { replace ((1 + x + x ^ 2) * (1 - x / 2) ^ 2) with (1 + x ^ 2 * (1 / 4 - 3 / 4 * x + x ^ 2 / 4)) by field.
    assert (0 <= x ^ 2 * (1 / 4 - 3 / 4 * x + x ^ 2 / 4)); [|lra].
    pose proof (pow2_ge_0 x). apply Rmult_le_pos; lra. }
  assert (E : 0 < (1 - x / 2) ^ 2) by (apply pow_lt; lra).
  apply (Rmult_le_reg_r ((1 - x / 2) ^ 2)) with (1 := E) (r2 := x + x ^ 2). nra.
Qed.
Lemma expm1_pos x : 0 < x -> 0 < exp x - 1.
Proof. intros H. pose proof (exp_ineq1 x ltac:(lra)). lra. Qed.
Lemma bb_lo_val : 0 < bb_lo < 1 / 4.
Proof. unfold bb_lo. split; [apply Rdiv_lt_0_compat; [lra|apply pow_lt; lra]|]. cbn. lra. Qed.
(** the documented blackbody in terms of the Rayleigh-Jeans value *)
Lemma d_blackbody_rj kT K e : 0 < kT -> 0 < e ->
  d_blackbody kT K e = 80525 / 10000 * K * e / (kT * kT * kT) * ((e / kT) / (exp (e / kT) - 1)).
Proof.
  intros Hk He. unfold d_blackbody. pose proof (expm1_pos (e / kT) ltac:(apply Rdiv_lt_0_compat; lra)). field. split; lra.
Qed.
Lemma d_blackbody_rad_rj kT K e : 0 < kT -> 0 < e ->
  d_blackbody_rad kT K e = 10344 / 10 ^ 7 * K * e * kT * ((e / kT) / (exp (e / kT) - 1)).
Proof.
  intros Hk He. unfold d_blackbody_rad. pose proof (expm1_pos (e / kT) ltac:(apply Rdiv_lt_0_compat; lra)). field. split; lra.
Qed.
Definition bb_code (rj x : R) : R := if Rleb x bb_lo then rj else if Rleb 50 x then 0 else rj * (x / (exp x - 1)).
Lemma blackbody_code kT K e : 0 < kT -> 0 < e ->
  blackbody kT K e = bb_code (80525 / 10000 * K * e / (kT * kT * kT)) (e / kT).
Proof.
  intros Hk He. unfold blackbody, bb_code, expm1. pose proof (expm1_pos (e / kT) ltac:(apply Rdiv_lt_0_compat; lra)).
  destruct (Rleb (e / kT) bb_lo); [reflexivity|]. destruct (Rleb 50 (e / kT)); [reflexivity|]. field. split; lra.
Qed.
Lemma blackbody_rad_code kT K e : 0 < kT -> 0 < e ->
  blackbody_rad kT K e = bb_code (10344 / 10 ^ 7 * K * e * kT) (e / kT).
Proof.
  intros Hk He. unfold blackbody_rad, bb_code, expm1. pose proof (expm1_pos (e / kT) ltac:(apply Rdiv_lt_0_compat; lra)).
  destruct (Rleb (e / kT) bb_lo); [reflexivity|]. destruct (Rleb 50 (e / kT)); [reflexivity|]. field. split; lra.
Qed.
Lemma bb_code_close rj x : 0 < rj -> 0 < x < 50 ->
  let d := rj * (x / (exp x - 1)) in d <= bb_code rj x <= d * (1 + 1 / 10 ^ 4).
Proof.
  intros Hr [H0 H1] d. pose proof (expm1_pos x H0) as P. unfold bb_code.
  assert (Dp : 0 < d) by (unfold d; apply Rmult_lt_0_compat; [exact Hr|now apply Rdiv_lt_0_compat]).
  assert (E4 : 0 < 1 / 10 ^ 4) by (apply Rdiv_lt_0_compat; [lra|apply pow_lt; lra]).
  destruct (Rleb_spec x bb_lo) as [L|L].
  - pose proof bb_lo_val. pose proof (expm1_bounds x ltac:(lra)) as [A B].
    assert (F : d * ((exp x - 1) / x) = rj) by (unfold d; field; lra).
    assert (G : 1 <= (exp x - 1) / x <= 1 + 1 / 10 ^ 4).
    { split; apply (Rmult_le_reg_r x); try lra; unfold Rdiv at 1; rewrite Rmult_assoc, ?Rinv_l, ?Rmult_1_r by lra; try lra.
      unfold bb_lo in L. nra. }
    rewrite <- F. split; nra.
  - replace (Rleb 50 x) with false by (symmetry; apply Rleb_false; lra). fold d. split; nra.
Qed.
Lemma exp_big x : 50 <= x -> x / (exp x - 1) <= 1 / 10 ^ 13.
Proof.
  intros H. assert (E1 : 2 <= exp 1) by (pose proof (exp_ineq1 1 ltac:(lra)); lra).
  assert (E50 : 2 ^ 50 <= exp 50).
  { assert (Hp : forall n, exp (INR n * 1) = exp 1 ^ n).
    { induction n as [|n IH]; [rewrite Rmult_0_l; apply exp_0|]. rewrite S_INR, Rmult_plus_distr_r, exp_plus, IH, Rmult_1_l. cbn [pow]. ring. }
    replace (exp 50) with (exp 1 ^ 50); [apply pow_incr; lra|]. rewrite <- Hp. f_equal. cbn. lra. }
  assert (Ex : 2 ^ 50 * (1 + (x - 50)) <= exp x).
  { replace x with (50 + (x - 50)) at 2 by ring. rewrite exp_plus.
    assert (1 + (x - 50) <= exp (x - 50)).
    { destruct (Req_dec (x - 50) 0) as [E|E]; [rewrite E, exp_0; lra|]. left; now apply exp_ineq1. }
    apply Rmult_le_compat; try lra. }
  assert (P : 2 ^ 50 = 1125899906842624) by (cbn; lra). rewrite P in Ex.
  assert (Q : 10 ^ 13 = 10000000000000) by (cbn; lra). rewrite Q.
  assert (Z : 0 < exp x - 1) by lra.
  apply (Rmult_le_reg_r (exp x - 1)); [exact Z|]. unfold Rdiv at 1. rewrite Rmult_assoc, Rinv_l, Rmult_1_r by lra. lra.
Qed.

(** smoothly broken power law *)
Definition sbpl_shape (alpha1 Eb alpha2 rho K E : R) : R :=
  K * Rpower (E / Eb) (- alpha1) * Rpower (1 / 2 * (1 + Rpower (E / Eb) ((alpha2 - alpha1) / rho))) (- rho).
Lemma Rpower_pos x a : 0 < Rpower x a.
Proof. apply exp_pos. Qed.
Lemma exp_le x y : x <= y -> exp x <= exp y.
Proof. intros [H| ->]; [left; now apply exp_increasing|apply Rle_refl]. Qed.
Lemma ln_le' x y : 0 < x -> x <= y -> ln x <= ln y.
Proof. intros H [L| ->]; [left; now apply ln_increasing|apply Rle_refl]. Qed.
Lemma sbpl_close alpha1 Eb alpha2 rho K E : 0 < Eb -> 0 < E -> 0 < rho -> 0 < K ->
  sbpl_shape alpha1 Eb alpha2 rho K E <= smoothly_broken_pl alpha1 Eb alpha2 rho K E
    <= sbpl_shape alpha1 Eb alpha2 rho K E * exp (rho * exp (-30)).
Proof.
  intros HEb HE Hr HK. unfold smoothly_broken_pl, sbpl_shape.
  set (e := E / Eb). assert (He : 0 < e) by (unfold e; apply Rdiv_lt_0_compat; lra).
  change (Rpower e ((alpha2 - alpha1) / rho)) with (exp ((alpha2 - alpha1) / rho * ln e)).
  set (x := (alpha2 - alpha1) / rho * ln e).
  assert (Hx : rho * x = (alpha2 - alpha1) * ln e) by (unfold x; field; lra).
  pose proof (exp_pos x) as Px. pose proof (exp_pos (-30)) as P30.
  assert (One : 1 <= exp (rho * exp (-30))) by (apply Rle_trans with (exp 0); [rewrite exp_0; lra|apply exp_le; nra]).
  (* the exact value with exponent alpha1 *)
  set (ex := K * Rpower e (- alpha1) * Rpower (1 / 2 * (1 + exp x)) (- rho)).
  assert (Pex : 0 < ex) by (unfold ex; repeat apply Rmult_lt_0_compat; try exact HK; apply Rpower_pos).
  (* both thresholds: code = ex * (1 + exp (-|x|)) ^ rho *)
  assert (Fin : forall y, 30 < y -> exp y = exp (Rabs x) ->
     forall code, code = ex * exp (rho * ln (1 + exp (- y))) -> ex <= code <= ex * exp (rho * exp (-30))).
  { intros y Hy _ code ->. pose proof (exp_pos (- y)).
    assert (L0 : 0 <= ln (1 + exp (- y))) by (rewrite <- ln_1; apply ln_le'; lra).
    assert (L1 : ln (1 + exp (- y)) <= exp (-30)).
    { apply Rle_trans with (exp (- y)); [|apply exp_le; lra]. pose proof (ln_le_sub1 (1 + exp (- y)) ltac:(lra)). lra. }
    assert (1 <= exp (rho * ln (1 + exp (- y)))) by (apply Rle_trans with (exp 0); [rewrite exp_0; lra|apply exp_le; nra]).
    assert (exp (rho * ln (1 + exp (- y))) <= exp (rho * exp (-30))) by (apply exp_le; nra).
    split; nra. }
  destruct (Rltb_spec 30 x) as [A|A].
  - assert (Ab : Rabs x = x) by (apply Rabs_right; lra).
    replace (Rltb 30 (Rabs x)) with true by (symmetry; apply Rltb_true; lra).
    apply (Fin x A); [now rewrite Ab|]. unfold ex, Rpower. rewrite !Rmult_assoc. f_equal. rewrite <- !exp_plus. f_equal.
    assert (Q : ln (1 / 2 * (1 + exp x)) = ln (1 / 2) + x + ln (1 + exp (- x))).
    { replace (1 / 2 * (1 + exp x)) with (1 / 2 * exp x * (1 + exp (- x))).
      - pose proof (exp_pos (- x)). rewrite ln_mult, ln_mult, ln_exp; lra.
      - rewrite exp_Ropp. field. lra. }
    rewrite Q. replace (- rho * (ln (1 / 2) + x + ln (1 + exp (- x)))) with (- rho * ln (1 / 2) - rho * x - rho * ln (1 + exp (- x))) by ring.
    rewrite Hx. ring.
  - destruct (Rltb_spec 30 (Rabs x)) as [B|B].
    + assert (Ab : Rabs x = - x) by (unfold Rabs in *; destruct (Rcase_abs x); lra).
      apply (Fin (- x)); [lra|now rewrite Ab|]. unfold ex, Rpower. rewrite !Rmult_assoc. f_equal. rewrite <- !exp_plus. f_equal.
      rewrite Ropp_involutive. rewrite ln_mult by lra. ring.
    + fold ex. split; [lra|]. nra.
Qed.
Lemma sbpl_shape_documented alpha1 Eb alpha2 rho K E : 0 < Eb -> 0 < E -> 0 < rho ->
  sbpl_shape alpha1 Eb alpha2 rho K E = Rpower 4 rho * Rpower Eb alpha1 * d_smoothly_broken_pl alpha1 Eb alpha2 rho K E.
Proof.
  intros HEb HE Hr. unfold sbpl_shape, d_smoothly_broken_pl.
  set (w := 1 + Rpower (E / Eb) ((alpha2 - alpha1) / rho)).
  assert (Hw : 0 < w) by (unfold w; pose proof (Rpower_pos (E / Eb) ((alpha2 - alpha1) / rho)); lra).
  unfold Rpower. rewrite ln_div by assumption. rewrite !ln_mult by lra.
  replace (ln (1 / 2)) with (ln 2 - ln 4); [|rewrite <- ln_div by lra; f_equal; lra].
  match goal with |- _ = exp ?C * exp ?D * (K * exp ?F * exp ?G) =>
    replace (exp C * exp D * (K * exp F * exp G)) with (K * (exp C * exp D * exp F * exp G)) by ring end.
  rewrite Rmult_assoc. f_equal. rewrite <- !exp_plus. f_equal. ring.
Qed.
