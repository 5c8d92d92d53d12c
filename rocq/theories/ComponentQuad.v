(** Sign, peaks, continuity and quadrature error of the built-in components. *)
From Coquelicot Require Import Coquelicot.
From Verif Require Import RBase ModelAlg ModelAlgProofs Components ComponentSpec ComponentProofs ComponentShapes.
From Coq Require Import List Lia Lra Psatz.
Import ListNotations.
Open Scope R_scope.

(** ** peaks of the energy spectrum *)
Lemma sq_exp e : 0 < e -> e ^ 2 = exp (2 * ln e).
Proof. intros H. replace (2 * ln e) with (ln e + ln e) by ring. rewrite exp_plus, exp_ln by exact H. ring. Qed.
(** [s (ln e - e / Ep)] is largest at [Ep] *)
Lemma peak_log s Ep e : 0 < Ep -> 0 < e -> 0 <= s -> s * ln e - s * e / Ep <= s * ln Ep - s.
Proof.
  intros HE He Hs. pose proof (ln_le_sub1 (e / Ep) ltac:(apply Rdiv_lt_0_compat; lra)) as H.
  rewrite ln_div in H by assumption. replace (s * e / Ep) with (s * (e / Ep)) by (unfold Rdiv; ring). nra.
Qed.
Lemma compt_log alpha Ep K e : 0 < e -> e ^ 2 * compt alpha Ep K e = K * exp ((2 - alpha) * ln e - (2 - alpha) * e / Ep).
Proof.
  intros H. unfold compt, Rpower. rewrite sq_exp by exact H.
  match goal with |- exp ?A * (K * exp ?B * exp ?C) = _ => replace (exp A * (K * exp B * exp C)) with (K * (exp A * exp B * exp C)) by ring end.
  rewrite <- !exp_plus. do 2 f_equal. unfold Rdiv. ring.
Qed.
Lemma compt_peak alpha Ep K e : alpha <= 2 -> 0 < Ep -> 0 < K -> 0 < e ->
  e ^ 2 * compt alpha Ep K e <= Ep ^ 2 * compt alpha Ep K Ep.
Proof.
  intros Ha HE HK He. rewrite !compt_log by assumption. apply Rmult_le_compat_l; [lra|]. apply exp_le.
  pose proof (peak_log (2 - alpha) Ep e HE He ltac:(lra)). replace ((2 - alpha) * Ep / Ep) with (2 - alpha) by (field; lra). lra.
Qed.
Lemma compt_trough alpha Ep K e : 2 < alpha -> 0 < Ep -> 0 < K -> 0 < e ->
  Ep ^ 2 * compt alpha Ep K Ep <= e ^ 2 * compt alpha Ep K e.
Proof.
  intros Ha HE HK He. rewrite !compt_log by assumption. apply Rmult_le_compat_l; [lra|]. apply exp_le.
  pose proof (peak_log (alpha - 2) Ep e HE He ltac:(lra)). replace ((2 - alpha) * Ep / Ep) with (2 - alpha) by (field; lra).
  replace ((2 - alpha) * e / Ep) with (- ((alpha - 2) * e / Ep)) by (unfold Rdiv; ring). lra.
Qed.
(** the Band function's logarithm *)
Definition band_low (alpha Ec e : R) : R := alpha * ln (e / 100) - e / Ec.
Definition band_high (alpha beta Ec e : R) : R :=
  (alpha - beta) * ln ((alpha - beta) * Ec / 100) - (alpha - beta) + beta * ln (e / 100).
Lemma band_log alpha beta Ec K e : 0 < Ec -> 1 / Ec <= alpha - beta ->
  band alpha beta Ec K e = K * exp (if Rlt_dec e ((alpha - beta) * Ec) then band_low alpha Ec e else band_high alpha beta Ec e).
Proof.
  intros HE H. unfold band. assert (0 < 1 / Ec) by (apply Rdiv_lt_0_compat; lra).
  replace (Rltb (alpha - beta) (1 / Ec)) with false by (symmetry; apply Rltb_false; lra).
  unfold Rltb. rewrite (Rmult_comm Ec). now destruct (Rlt_dec e ((alpha - beta) * Ec)).
Qed.
Lemma band_joins alpha beta Ec : 0 < Ec -> band_low alpha Ec ((alpha - beta) * Ec) = band_high alpha beta Ec ((alpha - beta) * Ec).
Proof.
  intros HE. unfold band_low, band_high. replace ((alpha - beta) * Ec / Ec) with (alpha - beta) by (field; lra). ring.
Qed.
Lemma band_peak alpha beta Ec K e : -2 < alpha -> beta < -2 -> 0 < Ec -> 0 < K -> 0 < e -> 1 / Ec <= alpha - beta ->
  let Ep := (2 + alpha) * Ec in e ^ 2 * band alpha beta Ec K e <= Ep ^ 2 * band alpha beta Ec K Ep.
Proof.
  intros Ha Hb HE HK He H Ep. assert (HEp : 0 < Ep) by (unfold Ep; nra).
  assert (Lt : Ep < (alpha - beta) * Ec) by (unfold Ep; nra).
  rewrite !band_log by assumption. destruct (Rlt_dec Ep ((alpha - beta) * Ec)); [|lra].
  rewrite (sq_exp e), (sq_exp Ep) by assumption.
  match goal with |- exp ?A * (K * exp ?B) <= exp ?C * (K * exp ?D) =>
    replace (exp A * (K * exp B)) with (K * exp (A + B)) by (rewrite exp_plus; ring);
    replace (exp C * (K * exp D)) with (K * exp (C + D)) by (rewrite exp_plus; ring) end.
  apply Rmult_le_compat_l; [lra|]. apply exp_le.
  assert (Low : forall y, 0 < y -> 2 * ln y + band_low alpha Ec y <= 2 * ln Ep + band_low alpha Ec Ep).
  { intros y Hy. unfold band_low. rewrite !ln_div by lra.
    pose proof (peak_log (2 + alpha) Ep y HEp Hy ltac:(lra)) as P.
    replace (Ep / Ec) with (2 + alpha) by (unfold Ep; field; lra).
    replace ((2 + alpha) * y / Ep) with (y / Ec) in P by (unfold Ep; field; split; lra). lra. }
  destruct (Rlt_dec e ((alpha - beta) * Ec)) as [L|L]; [now apply Low|].
  assert (B0 : 0 < (alpha - beta) * Ec) by lra.
  apply Rle_trans with (2 * ln ((alpha - beta) * Ec) + band_low alpha Ec ((alpha - beta) * Ec)); [|now apply Low].
  rewrite (band_joins alpha beta) by exact HE. unfold band_high.
  assert (ln ((alpha - beta) * Ec) <= ln e) by (apply ln_le'; lra).
  rewrite (ln_div e) by lra. rewrite (ln_div ((alpha - beta) * Ec)) by lra. nra.
Qed.

(** ** continuity *)
Lemma glue_continuous (f g h : R -> R) b x :
  (forall y, h y = if Rlt_dec y b then f y else g y) -> f b = g b -> continuous f x -> continuous g x -> continuous h x.
Proof.
  intros Hh E Cf Cg. unfold continuous, filterlim, filter_le, filtermap in *. intros P HP.
  destruct (Rtotal_order x b) as [L|[L|L]].
  - assert (Hx : h x = f x) by (rewrite Hh; destruct (Rlt_dec x b); [reflexivity|lra]). rewrite Hx in HP.
    specialize (Cf P HP). assert (O : locally x (fun y => y < b)) by now apply open_lt.
    generalize (filter_and _ _ Cf O). apply filter_imp. intros y [A B]. rewrite Hh. now destruct (Rlt_dec y b).
  - subst x. assert (Hx : h b = g b) by (rewrite Hh; destruct (Rlt_dec b b); [lra|reflexivity]). rewrite Hx in HP.
    specialize (Cg P HP). rewrite <- E in HP. specialize (Cf P HP).
    generalize (filter_and _ _ Cf Cg). apply filter_imp. intros y [A B]. rewrite Hh. now destruct (Rlt_dec y b).
  - assert (Hx : h x = g x) by (rewrite Hh; destruct (Rlt_dec x b); [lra|reflexivity]). rewrite Hx in HP.
    specialize (Cg P HP). assert (O : locally x (fun y => b < y)) by now apply open_gt.
    generalize (filter_and _ _ Cg O). apply filter_imp. intros y [A B]. rewrite Hh. destruct (Rlt_dec y b); [lra|exact A].
Qed.
Lemma continuous_lift (f : R -> R) x : ex_derive f x -> continuous f x.
Proof. exact (ex_derive_continuous (V:=R_NormedModule) f x). Qed.
Lemma band_continuous alpha beta Ec K x : 0 < Ec -> 0 < x -> 1 / Ec <= alpha - beta -> continuous (band alpha beta Ec K) x.
Proof.
  intros HE Hx H. apply (glue_continuous (fun e => K * exp (band_low alpha Ec e)) (fun e => K * exp (band_high alpha beta Ec e)) _ ((alpha - beta) * Ec)).
  - intros y. rewrite band_log by assumption. now destruct (Rlt_dec y ((alpha - beta) * Ec)).
  - now rewrite band_joins.
  - apply continuous_lift. unfold band_low. auto_derive. apply Rmult_lt_0_compat; [lra|]. apply Rinv_0_lt_compat; lra.
  - apply continuous_lift. unfold band_high. auto_derive. apply Rmult_lt_0_compat; [lra|]. apply Rinv_0_lt_compat; lra.
Qed.
Lemma jump_not_continuous (f h : R -> R) b : (forall y, y < b -> h y = f y) -> f b <> h b -> continuous f b -> ~ continuous h b.
Proof.
  intros Hh N Cf Ch.
  assert (Hd : 0 < Rabs (f b - h b)) by (apply Rabs_pos_lt; lra).
  set (d := mkposreal (Rabs (f b - h b) / 2) ltac:(lra)).
  assert (A : locally b (fun y => ball (f b) d (f y))) by (apply Cf; apply locally_ball).
  assert (B : locally b (fun y => ball (h b) d (h y))) by (apply Ch; apply locally_ball).
  destruct (filter_and _ _ A B) as [eps He].
  specialize (He (b - eps / 2)). destruct He as [H1 H2].
  - change (Rabs (b - eps / 2 + - b) < eps). replace (b - eps / 2 + - b) with (- (eps / 2)) by ring.
    rewrite Rabs_Ropp, Rabs_right; pose proof (cond_pos eps); lra.
  - rewrite (Hh (b - eps / 2)) in H2 by (pose proof (cond_pos eps); lra).
    change (Rabs (f (b - eps / 2) + - f b) < d) in H1. change (Rabs (f (b - eps / 2) + - h b) < d) in H2.
    cbn [pos d] in H1, H2. set (z := f (b - eps / 2)) in *.
    assert (Rabs (f b - h b) <= Rabs (z + - f b) + Rabs (z + - h b)).
    { replace (f b - h b) with ((z + - h b) - (z + - f b)) by ring. eapply Rle_trans; [apply Rabs_triang|]. rewrite Rabs_Ropp. lra. }
    lra.
Qed.
Lemma band_jump alpha beta Ec K : 0 < Ec -> 0 < K -> alpha - beta < 1 / Ec -> ~ continuous (band alpha beta Ec K) 1.
Proof.
  intros HE HK H. apply (jump_not_continuous (fun e => K * exp (alpha * ln (e / 100) - e / Ec))).
  - intros y Hy. rewrite band_clamped by assumption. now destruct (Rlt_dec y 1).
  - rewrite band_clamped by assumption. destruct (Rlt_dec 1 1); [lra|]. intros E.
    apply Rmult_eq_reg_l in E; [|lra]. apply exp_inv in E.
    assert (L : ln (1 / 100) < 0) by (rewrite <- ln_1; apply ln_increasing; lra). nra.
  - apply continuous_lift. auto_derive. lra.
Qed.

(** ** quadrature of a monotone function *)
Lemma RInt_const_le f a b m M I : a <= b -> (forall x, a <= x <= b -> m <= f x <= M) -> is_RInt f a b I ->
  (b - a) * m <= I <= (b - a) * M.
Proof.
  intros Hab Hf HI. split.
  - apply (is_RInt_le (fun _ => m) f a b); [exact Hab|exact (is_RInt_const (V:=R_NormedModule) a b m)|exact HI|]. intros x Hx. apply Hf; lra.
  - apply (is_RInt_le f (fun _ => M) a b); [exact Hab|exact HI|exact (is_RInt_const (V:=R_NormedModule) a b M)|]. intros x Hx. apply Hf; lra.
Qed.
Definition nonincreasing (f : R -> R) (a b : R) : Prop := forall x y, a <= x -> x <= y -> y <= b -> f y <= f x.
Definition nondecreasing (f : R -> R) (a b : R) : Prop := forall x y, a <= x -> x <= y -> y <= b -> f x <= f y.
Definition monotone (f : R -> R) (a b : R) : Prop := nonincreasing f a b \/ nondecreasing f a b.
Lemma trapz_err_dec f a b I : a <= b -> nonincreasing f a b -> is_RInt f a b I ->
  Rabs (1 / 2 * (b - a) * (f a + f b) - I) <= (b - a) / 2 * (f a - f b).
Proof.
  intros Hab M HI. destruct (RInt_const_le f a b (f b) (f a) I Hab) as [L U]; [|exact HI|].
  - intros x Hx. split; apply M; lra.
  - apply Rabs_le. split; lra.
Qed.
Lemma simpson_err_dec f a b I : a <= b -> nonincreasing f a b -> is_RInt f a b I ->
  Rabs ((b - a) / 6 * (f a + 4 * f (1 / 2 * (a + b)) + f b) - I) <= (b - a) / 3 * (f a - f b).
Proof.
  intros Hab M HI. set (m := 1 / 2 * (a + b)). assert (Hm : a <= m <= b) by (unfold m; lra).
  assert (E1 : ex_RInt f a m) by (apply (ex_RInt_Chasles_1 f a m b); [exact Hm|now exists I]).
  assert (E2 : ex_RInt f m b) by (apply (ex_RInt_Chasles_2 f a m b); [exact Hm|now exists I]).
  destruct E1 as [I1 H1], E2 as [I2 H2].
  assert (EI : I = I1 + I2).
  { pose proof (is_RInt_Chasles f a m b I1 I2 H1 H2) as HC. rewrite <- (is_RInt_unique _ _ _ _ HI). now apply is_RInt_unique. }
  destruct (RInt_const_le f a m (f m) (f a) I1) as [L1 U1]; [lra| |exact H1|].
  { intros x Hx. split; apply M; lra. }
  destruct (RInt_const_le f m b (f b) (f m) I2) as [L2 U2]; [lra| |exact H2|].
  { intros x Hx. split; apply M; lra. }
  assert (A : f b <= f m) by (apply M; lra). assert (B : f m <= f a) by (apply M; lra).
  replace (m - a) with ((b - a) / 2) in * by (unfold m; field). replace (b - m) with ((b - a) / 2) in * by (unfold m; field).
  apply Rabs_le. rewrite EI. split; nra.
Qed.
Lemma is_RInt_oppR f a b I : is_RInt f a b I -> is_RInt (fun x => - f x) a b (- I).
Proof. exact (is_RInt_opp f a b I). Qed.
Lemma trapz_err f a b I : a <= b -> monotone f a b -> is_RInt f a b I ->
  Rabs (1 / 2 * (b - a) * (f a + f b) - I) <= (b - a) / 2 * Rabs (f a - f b).
Proof.
  intros Hab [M|M] HI.
  - assert (f b <= f a) by (apply M; lra). rewrite (Rabs_right (f a - f b)) by lra. now apply trapz_err_dec.
  - assert (f a <= f b) by (apply M; lra). rewrite (Rabs_left1 (f a - f b)) by lra.
    pose proof (trapz_err_dec (fun x => - f x) a b (- I) Hab ltac:(intros x y H1 H2 H3; apply Ropp_le_contravar, M; lra) (is_RInt_oppR _ _ _ _ HI)) as H0.
    cbv beta in H0. replace (1 / 2 * (b - a) * (- f a + - f b) - - I) with (- (1 / 2 * (b - a) * (f a + f b) - I)) in H0 by ring.
    rewrite Rabs_Ropp in H0. lra.
Qed.
Lemma simpson_err f a b I : a <= b -> monotone f a b -> is_RInt f a b I ->
  Rabs ((b - a) / 6 * (f a + 4 * f (1 / 2 * (a + b)) + f b) - I) <= (b - a) / 3 * Rabs (f a - f b).
Proof.
  intros Hab [M|M] HI.
  - assert (f b <= f a) by (apply M; lra). rewrite (Rabs_right (f a - f b)) by lra. now apply simpson_err_dec.
  - assert (f a <= f b) by (apply M; lra). rewrite (Rabs_left1 (f a - f b)) by lra.
    pose proof (simpson_err_dec (fun x => - f x) a b (- I) Hab ltac:(intros x y H1 H2 H3; apply Ropp_le_contravar, M; lra) (is_RInt_oppR _ _ _ _ HI)) as H0.
    cbv beta in H0. replace ((b - a) / 6 * (- f a + 4 * - f (1 / 2 * (a + b)) + - f b) - - I)
      with (- ((b - a) / 6 * (f a + 4 * f (1 / 2 * (a + b)) + f b) - I)) in H0 by ring.
    rewrite Rabs_Ropp in H0. lra.
Qed.
(** the per-bin constant of a method *)
Definition qerr (m : meth) : R := match m with Trapz => 1 / 2 | Simpson => 1 / 3 end.
Definition qstep (m : meth) (c : R -> R) (a b : R) : R :=
  match m with Trapz => 1 / 2 * (b - a) * (c a + c b) | Simpson => (b - a) / 6 * (c a + 4 * c (1 / 2 * (a + b)) + c b) end.
Lemma integrate_bins m c g : integrate m true c g = bins (qstep m c) g.
Proof. destruct m; cbn [integrate]; [rewrite trapz_bins|rewrite simpson_bins]; reflexivity. Qed.
Lemma qstep_err m f a b I : a <= b -> monotone f a b -> is_RInt f a b I -> Rabs (qstep m f a b - I) <= qerr m * (b - a) * Rabs (f a - f b).
Proof.
  intros Hab M HI. destruct m; cbn [qstep qerr].
  - pose proof (trapz_err f a b I Hab M HI). lra.
  - pose proof (simpson_err f a b I Hab M HI). lra.
Qed.
Lemma monotone_sub f a b a' b' : a <= a' -> b' <= b -> monotone f a b -> monotone f a' b'.
Proof. intros H1 H2 [M|M]; [left|right]; intros x y A B C; apply M; lra. Qed.
Lemma egrid_tail a g : egrid (a :: g) -> egrid g.
Proof. intros [H1 H2]. split; intros i Hi; [apply (H1 (S i))|apply (H2 (S i))]; cbn [length]; lia. Qed.
Lemma egrid_head a b g : egrid (a :: b :: g) -> 0 < a < b.
Proof. intros H. apply (egrid_bin (a :: b :: g) 0 H). cbn; lia. Qed.
Lemma egrid_last a g : egrid (a :: g) -> a <= last (a :: g) 0.
Proof.
  revert a. induction g as [|b g IH]; intros a H; [cbn; lra|].
  change (last (a :: b :: g) 0) with (last (b :: g) 0). pose proof (egrid_head a b g H). pose proof (IH b (egrid_tail _ _ H)). lra.
Qed.
Lemma total_err m f w g : forall a I, egrid (a :: g) -> Forall (fun d => d <= w) (diff (a :: g)) ->
  monotone f a (last (a :: g) 0) -> is_RInt f a (last (a :: g) 0) I ->
  Rabs (rsum (integrate m true f (a :: g)) - I) <= qerr m * w * Rabs (f a - f (last (a :: g) 0)).
Proof.
  assert (Q : 0 < qerr m) by (destruct m; cbn; lra).
  induction g as [|b g IH]; intros a I Hg Hw M HI.
  - cbn [last] in *. rewrite integrate_bins. cbn [bins rsum fold_right].
    assert (I = 0).
    { rewrite <- (is_RInt_unique _ _ _ _ HI). apply is_RInt_unique. exact (is_RInt_point f a). }
    subst I. rewrite Rminus_0_r, Rabs_R0. rewrite Rminus_eq_0, Rabs_R0. lra.
  - change (last (a :: b :: g) 0) with (last (b :: g) 0) in *. set (z := last (b :: g) 0) in *.
    pose proof (egrid_head a b g Hg) as [Ha Hab]. pose proof (egrid_last b g (egrid_tail _ _ Hg)) as Hbz. fold z in Hbz.
    rewrite integrate_bins in *. change (bins (qstep m f) (a :: b :: g)) with (qstep m f a b :: bins (qstep m f) (b :: g)).
    change (rsum (qstep m f a b :: bins (qstep m f) (b :: g))) with (qstep m f a b + rsum (bins (qstep m f) (b :: g))).
    assert (E1 : ex_RInt f a b) by (apply (ex_RInt_Chasles_1 f a b z); [lra|now exists I]).
    assert (E2 : ex_RInt f b z) by (apply (ex_RInt_Chasles_2 f a b z); [lra|now exists I]).
    destruct E1 as [I1 H1], E2 as [I2 H2].
    assert (EI : I = I1 + I2).
    { pose proof (is_RInt_Chasles f a b z I1 I2 H1 H2) as HC. rewrite <- (is_RInt_unique _ _ _ _ HI). now apply is_RInt_unique. }
    change (diff (a :: b :: g)) with ((b - a) :: diff (b :: g)) in Hw. inversion Hw as [|? ? W1 W2]; subst.
    pose proof (qstep_err m f a b I1 ltac:(lra) ltac:(eapply monotone_sub; [| |exact M]; lra) H1) as A.
    pose proof (IH b I2 (egrid_tail _ _ Hg) W2 ltac:(eapply monotone_sub; [| |exact M]; fold z; lra) H2) as B.
    rewrite integrate_bins in B. fold z in B.
    assert (D : Rabs (f a - f b) + Rabs (f b - f z) = Rabs (f a - f z)).
    { destruct M as [M|M].
      - assert (f b <= f a) by (apply M; lra). assert (f z <= f b) by (apply M; lra). rewrite !Rabs_right; lra.
      - assert (f a <= f b) by (apply M; lra). assert (f b <= f z) by (apply M; lra). rewrite !Rabs_left1; lra. }
    rewrite <- D.
    replace (qstep m f a b + rsum (bins (qstep m f) (b :: g)) - (I1 + I2)) with ((qstep m f a b - I1) + (rsum (bins (qstep m f) (b :: g)) - I2)) by ring.
    eapply Rle_trans; [apply Rabs_triang|]. pose proof (Rabs_pos (f a - f b)). pose proof (Rabs_pos (f b - f z)).
    assert (qerr m * (b - a) * Rabs (f a - f b) <= qerr m * w * Rabs (f a - f b)) by (apply Rmult_le_compat_r; [lra|]; apply Rmult_le_compat_l; lra).
    lra.
Qed.

(** ** the energy flux computed from photon bins and geometric mid energies *)
Lemma energy_bin N a b (n e : R) : 0 < a -> a <= b -> (forall x, a <= x <= b -> 0 <= N x) ->
  is_RInt N a b n -> is_RInt (fun x => x * N x) a b e -> a * n <= e <= b * n.
Proof.
  intros Ha Hab HN Hn He. split.
  - apply (is_RInt_le (fun x => a * N x) (fun x => x * N x) a b); [exact Hab|now apply is_RInt_scalR|exact He|].
    intros x Hx. apply Rmult_le_compat_r; [apply HN|]; lra.
  - apply (is_RInt_le (fun x => x * N x) (fun x => b * N x) a b); [exact Hab|exact He|now apply is_RInt_scalR|].
    intros x Hx. apply Rmult_le_compat_r; [apply HN|]; lra.
Qed.
Lemma sqrt_mid a b q : 0 < a -> a <= b -> 0 < q -> b <= q ^ 2 * a -> b / q <= sqrt (a * b) <= q * a.
Proof.
  intros Ha Hab Hq H. assert (0 < b) by lra. split.
  - rewrite <- (sqrt_pow2 (b / q)) by (apply Rlt_le, Rdiv_lt_0_compat; lra). apply sqrt_le_1_alt.
    apply (Rmult_le_reg_r (q ^ 2)); [apply pow_lt; lra|]. replace ((b / q) ^ 2 * q ^ 2) with (b ^ 2) by (field; lra). nra.
  - rewrite <- (sqrt_pow2 (q * a)) by nra. apply sqrt_le_1_alt. nra.
Qed.
Lemma energy_mid N a b q (n e : R) : 0 < a -> a <= b -> 1 <= q -> b <= q ^ 2 * a -> (forall x, a <= x <= b -> 0 <= N x) ->
  is_RInt N a b n -> is_RInt (fun x => x * N x) a b e -> e / q <= sqrt (a * b) * n <= q * e.
Proof.
  intros Ha Hab Hq Hr HN Hn He. destruct (energy_bin N a b n e Ha Hab HN Hn He) as [L U].
  destruct (sqrt_mid a b q Ha Hab ltac:(lra) Hr) as [S1 S2].
  assert (Hn0 : 0 <= n).
  { replace 0 with ((b - a) * 0) by ring.
    apply (is_RInt_le (fun _ => 0) N a b); [exact Hab|exact (is_RInt_const (V:=R_NormedModule) a b 0)|exact Hn|].
    intros x Hx. apply HN; lra. }
  split.
  - apply Rle_trans with (b / q * n); [|now apply Rmult_le_compat_r].
    unfold Rdiv. rewrite (Rmult_comm b), Rmult_assoc, (Rmult_comm e). apply Rmult_le_compat_l; [|exact U].
    left. apply Rinv_0_lt_compat. lra.
  - apply Rle_trans with (q * a * n); [now apply Rmult_le_compat_r|]. rewrite Rmult_assoc. apply Rmult_le_compat_l; lra.
Qed.
Lemma continuous_ex_RInt (N : R -> R) a b : 0 < a -> a <= b -> (forall x, 0 < x -> continuous N x) -> ex_RInt N a b.
Proof.
  intros Ha Hab H. apply (ex_RInt_continuous (V:=R_CompleteNormedModule) N a b). intros x Hx.
  rewrite Rmin_left in Hx by exact Hab. apply H. lra.
Qed.
Lemma continuous_xN (N : R -> R) x : continuous N x -> continuous (fun y => y * N y) x.
Proof. intros H. apply (continuous_mult (fun y => y) N x); [apply continuous_id|exact H]. Qed.
Definition ratio_ok (q : R) (g : list R) : Prop := forall i, (S i < length g)%nat -> nth (S i) g 0 <= q ^ 2 * nth i g 0.
Lemma energy_total N q r : forall g a (M : R), 1 <= q -> egrid (a :: g) -> ratio_ok q (a :: g) ->
  (forall x, 0 < x -> continuous N x) -> (forall x, 0 < x -> 0 <= N x) ->
  integrates N (a :: g) r -> is_RInt (fun x => x * N x) a (last (a :: g) 0) M ->
  M / q <= rsum (map2 Rmult (emid (a :: g)) r) <= q * M.
Proof.
  induction r as [|v r IH]; intros g a M Hq Hg Hr HC HP [HL HI] HM.
  - destruct g as [|b g]; [|cbn [length] in HL; lia]. cbn [last] in HM.
    assert (M = 0) as -> by (rewrite <- (is_RInt_unique _ _ _ _ HM); apply is_RInt_unique; exact (is_RInt_point _ a)).
    cbn. unfold Rdiv. lra.
  - destruct g as [|b g]; [cbn [length] in HL; lia|].
    change (last (a :: b :: g) 0) with (last (b :: g) 0) in HM. set (z := last (b :: g) 0) in *.
    pose proof (egrid_head a b g Hg) as [Ha Hab]. pose proof (egrid_last b g (egrid_tail _ _ Hg)) as Hbz. fold z in Hbz.
    change (emid (a :: b :: g)) with (sqrt (a * b) :: emid (b :: g)).
    change (rsum (map2 Rmult (sqrt (a * b) :: emid (b :: g)) (v :: r))) with (sqrt (a * b) * v + rsum (map2 Rmult (emid (b :: g)) r)).
    assert (C2 : forall x, 0 < x -> continuous (fun y => y * N y) x) by (intros x Hx; apply continuous_xN; auto).
    destruct (continuous_ex_RInt _ a b Ha ltac:(lra) C2) as [M1 H1].
    destruct (continuous_ex_RInt _ b z ltac:(lra) Hbz C2) as [M2 H2].
    assert (EM : M = M1 + M2).
    { pose proof (is_RInt_Chasles (fun x => x * N x) a b z M1 M2 H1 H2) as HCh. rewrite <- (is_RInt_unique _ _ _ _ HM). now apply is_RInt_unique. }
    pose proof (HI 0%nat ltac:(cbn [length]; lia)) as Hv. cbn [nth] in Hv.
    destruct (energy_mid N a b q v M1) as [L1 U1]; try assumption; try lra.
    { apply (Hr 0%nat). cbn [length]; lia. }
    { intros x Hx. apply HP. lra. }
    destruct (IH g b M2 Hq (egrid_tail _ _ Hg)) as [L2 U2]; try assumption.
    { intros i Hi. apply (Hr (S i)). cbn [length] in *; lia. }
    { split; [cbn [length] in *; lia|]. intros i Hi. apply (HI (S i)). cbn [length] in *; lia. }
    rewrite EM. split; [|lra]. unfold Rdiv in *. lra.
Qed.

(** ** monotone components *)
Lemma Rpower_mono_base x y a : 0 < x -> x <= y -> 0 <= a -> Rpower x a <= Rpower y a.
Proof. intros Hx H Ha. apply exp_le. apply Rmult_le_compat_l; [exact Ha|]. now apply ln_le'. Qed.
Lemma Rpower_anti_base x y a : 0 < x -> x <= y -> 0 <= a -> Rpower y (- a) <= Rpower x (- a).
Proof. intros Hx H Ha. apply exp_le. pose proof (ln_le' x y Hx H). nra. Qed.
Lemma cutoff_dec alpha Ec K a b : 0 <= alpha -> 0 < Ec -> 0 < K -> 0 < a -> nonincreasing (cutoff_pl alpha Ec K) a b.
Proof.
  intros Ha HE HK H0 x y H1 H2 H3. unfold cutoff_pl. rewrite !Rmult_assoc. apply Rmult_le_compat_l; [lra|].
  apply Rmult_le_compat; [left; apply Rpower_pos|left; apply exp_pos|apply Rpower_anti_base; lra|].
  apply exp_le. unfold Rdiv. apply Rmult_le_compat_r; [left; now apply Rinv_0_lt_compat|]. lra.
Qed.
Lemma ottb_dec kT K a b : 0 < kT -> 0 < K -> 0 < a -> nonincreasing (ottb kT K) a b.
Proof.
  intros Hk HK H0 x y H1 H2 H3. unfold ottb, Rdiv. rewrite !Rmult_assoc. apply Rmult_le_compat_l; [lra|].
  apply Rmult_le_compat; [left; apply exp_pos|left; apply Rinv_0_lt_compat; lra| |apply Rinv_le_contravar; lra].
  apply exp_le. apply Rmult_le_compat_r; [left; now apply Rinv_0_lt_compat|]. lra.
Qed.
Lemma otts_dec Ec K a b : 0 < Ec -> 0 < K -> 0 < a -> nonincreasing (otts Ec K) a b.
Proof.
  intros HE HK H0 x y H1 H2 H3. unfold otts. apply Rmult_le_compat_l; [lra|]. apply exp_le, Ropp_le_contravar.
  apply Rpower_mono_base; [apply Rdiv_lt_0_compat; lra| |lra].
  unfold Rdiv. apply Rmult_le_compat_r; [left; now apply Rinv_0_lt_compat|]. lra.
Qed.
Lemma bent_dec alpha Eb K a b : 0 <= alpha -> 0 < Eb -> 0 < K -> 0 < a -> nonincreasing (bent_pl alpha Eb K) a b.
Proof.
  intros Ha HE HK H0 x y H1 H2 H3. unfold bent_pl, Rdiv at 1 3. apply Rmult_le_compat_l; [lra|].
  apply Rinv_le_contravar; [pose proof (Rpower_pos (x / Eb) alpha); lra|]. apply Rplus_le_compat_l.
  apply Rpower_mono_base; [apply Rdiv_lt_0_compat; lra| |lra].
  unfold Rdiv. apply Rmult_le_compat_r; [left; now apply Rinv_0_lt_compat|]. lra.
Qed.

(** ** signs *)
Lemma K_pos K : K_rng K -> 0 < K.
Proof. intros [H _]. eapply Rlt_le_trans; [|exact H]. apply Rinv_0_lt_compat, pow_lt; lra. Qed.
Lemma rng_pos n x hi : rng (/ 10 ^ n) x hi -> 0 < x.
Proof. intros [H _]. eapply Rlt_le_trans; [|exact H]. apply Rinv_0_lt_compat, pow_lt; lra. Qed.
(** the two settings the configured ranges do not exclude: a line of zero width, and a
    flux band that does not lie on the positive axis *)
Definition acomp_ok (c : acomp) : Prop :=
  match c with
  | Gauss _ s _ => s <> 0
  | PLPhFlux emin emax _ _ | PLEnFlux emin emax _ _ => 0 < emin < emax
  | _ => True
  end.
Lemma bb_code_nonneg rj x : 0 < rj -> 0 < x -> 0 <= bb_code rj x.
Proof.
  intros Hr Hx. unfold bb_code. destruct (Rleb x bb_lo); [lra|]. destruct (Rleb 50 x); [lra|].
  apply Rmult_le_pos; [lra|]. apply Rlt_le, Rdiv_lt_0_compat; [exact Hx|now apply expm1_pos].
Qed.
Lemma continuum_nonneg c k : acomp_range c -> acomp_ok c -> acomp_fn c = inl k -> forall e, 0 < e -> 0 <= k e.
Proof.
  intros HR HO HF e He. destruct c; cbn [acomp_fn acomp_range acomp_ok] in *; try discriminate; injection HF as <-.
  - destruct HR as (_ & _ & _ & HK). apply K_pos in HK. unfold band. apply Rmult_le_pos; [lra|left; apply exp_pos].
  - destruct HR as (_ & _ & _ & HK). apply K_pos in HK. unfold band_ep. apply Rmult_le_pos; [lra|left; apply exp_pos].
  - destruct HR as (_ & _ & HK). apply K_pos in HK. unfold bent_pl. apply Rlt_le, Rdiv_lt_0_compat; [lra|].
    pose proof (Rpower_pos (e / Eb) alpha); lra.
  - destruct HR as (HT & HK). apply K_pos in HK. apply rng_pos in HT. rewrite blackbody_code by assumption.
    apply bb_code_nonneg; [|now apply Rdiv_lt_0_compat]. apply Rdiv_lt_0_compat; [|repeat apply Rmult_lt_0_compat; lra].
    repeat apply Rmult_lt_0_compat; lra.
  - destruct HR as (HT & HK). apply K_pos in HK. apply rng_pos in HT. rewrite blackbody_rad_code by assumption.
    apply bb_code_nonneg; [|now apply Rdiv_lt_0_compat].
    assert (0 < 10344 / 10 ^ 7) by (apply Rdiv_lt_0_compat; [lra|apply pow_lt; lra]). repeat apply Rmult_lt_0_compat; lra.
  - destruct HR as (_ & _ & HK). apply K_pos in HK. unfold cutoff_pl.
    repeat apply Rmult_le_pos; try lra; left; [apply Rpower_pos|apply exp_pos].
  - destruct HR as (_ & _ & HK). apply K_pos in HK. unfold compt.
    repeat apply Rmult_le_pos; try lra; left; [apply Rpower_pos|apply exp_pos].
  - destruct HR as (_ & _ & HK). apply K_pos in HK. unfold gauss. apply Rmult_le_pos; [lra|left; apply exp_pos].
  - destruct HR as (_ & HK). apply K_pos in HK. unfold ottb. apply Rlt_le, Rdiv_lt_0_compat; [|exact He].
    apply Rmult_lt_0_compat; [lra|apply exp_pos].
  - destruct HR as (_ & HK). apply K_pos in HK. unfold otts. apply Rmult_le_pos; [lra|left; apply exp_pos].
  - destruct HR as (_ & _ & _ & _ & HK). apply K_pos in HK. unfold smoothly_broken_pl.
    repeat apply Rmult_le_pos; try lra; left; apply Rpower_pos.
Qed.
Lemma integrate_nonneg m c g : egrid g -> (forall e, 0 < e -> 0 <= c e) -> Forall (fun x => 0 <= x) (integrate m true c g).
Proof.
  intros Hg Hc. rewrite integrate_bins. apply bins_forall. intros i Hi. destruct (egrid_bin g i Hg Hi) as [A B].
  pose proof (Hc _ A) as C1. pose proof (Hc (nth (S i) g 0) ltac:(lra)) as C2.
  pose proof (Hc (1 / 2 * (nth i g 0 + nth (S i) g 0)) ltac:(lra)) as C3.
  destruct m; cbn [qstep]; apply Rmult_le_pos; lra.
Qed.
Lemma map_nonneg k l : 0 <= k -> Forall (fun x => 0 <= x) l -> Forall (fun x => 0 <= x) (map (Rmult k) l).
Proof. intros Hk H. apply Forall_map. eapply Forall_impl; [|exact H]. intros x Hx. now apply Rmult_le_pos. Qed.
Lemma powerlaw_pos alpha g : egrid g -> Forall (fun x => 0 <= x) (powerlaw_integral alpha g).
Proof.
  intros Hg. rewrite powerlaw_bins. apply bins_forall. intros i Hi. left. apply pl_int_pos. now apply egrid_bin.
Qed.
Lemma acomp_nonneg m c g : acomp_range c -> acomp_ok c -> egrid g -> Forall (fun x => 0 <= x) (acomp_eval m c g).
Proof.
  intros HR HO Hg. unfold acomp_eval. destruct (acomp_fn c) as [k|f] eqn:E.
  - apply integrate_nonneg; [exact Hg|]. now apply (continuum_nonneg c).
  - destruct c; cbn [acomp_fn acomp_range acomp_ok] in *; try discriminate; injection E as <-.
    + destruct HR as (_ & HE & _ & HK). apply K_pos in HK. apply rng_pos in HE. unfold broken_pl. apply map_nonneg; [lra|].
      rewrite !powerlaw_bins, !bins_map, select_bins. apply bins_forall. intros i Hi.
      destruct (egrid_bin g i Hg Hi) as [A B].
      assert (0 < nth i g 0 / Eb < nth (S i) g 0 / Eb).
      { split; [now apply Rdiv_lt_0_compat|]. unfold Rdiv. apply Rmult_lt_compat_r; [now apply Rinv_0_lt_compat|exact B]. }
      destruct (Rleb (nth i g 0) Eb); left; now apply pl_int_pos.
    + destruct HR as (HE & Hs & HK). apply K_pos in HK. apply rng_pos in HE. apply rng_pos in Hs.
      unfold lorentz. pose proof PI_RGT_0.
      assert (0 < atan (2 * El / sigma)) by (rewrite <- atan_0; apply atan_increasing, Rdiv_lt_0_compat; lra).
      apply map_nonneg; [apply Rlt_le, Rdiv_lt_0_compat; lra|]. rewrite anaint_bins. apply bins_forall. intros i Hi.
      destruct (egrid_bin g i Hg Hi) as [A B].
      assert (atan (2 * (nth i g 0 - El) / sigma) < atan (2 * (nth (S i) g 0 - El) / sigma)); [|lra].
      apply atan_increasing. unfold Rdiv. apply Rmult_lt_compat_r; [now apply Rinv_0_lt_compat|lra].
    + destruct HR as (_ & HK). apply K_pos in HK. unfold power_law. apply map_nonneg; [lra|now apply powerlaw_pos].
    + destruct HR as (_ & HF). apply rng_pos in HF. unfold pl_flux. apply map_nonneg; [|now apply powerlaw_pos].
      rewrite pl2_nth. apply Rlt_le, Rdiv_lt_0_compat; [exact HF|]. now apply pl_int_pos.
    + destruct HR as (_ & HF). apply rng_pos in HF. unfold pl_flux. apply map_nonneg; [|now apply powerlaw_pos].
      rewrite pl2_nth. apply Rlt_le, Rdiv_lt_0_compat; [exact HF|]. apply Rmult_lt_0_compat; [now apply pl_int_pos|].
      unfold keV_to_erg. apply Rdiv_lt_0_compat; [lra|apply pow_lt; lra].
Qed.
(** multiplicative components *)
Lemma exp_nonpos_le1 x : x <= 0 -> 0 < exp x <= 1.
Proof. intros H. split; [apply exp_pos|]. apply Rle_trans with (exp 0); [now apply exp_le|rewrite exp_0; lra]. Qed.
Definition mcomp_ok (c : mcomp) : Prop := match c with GAbs _ s _ => s <> 0 | Edge Ec _ => Ec <> 0 | _ => True end.
Definition attenuates (c : mcomp) : bool := match c with ExpFac _ _ _ => false | _ => true end.
Lemma mcomp_sign c e : mcomp_range c -> mcomp_ok c -> 0 < e ->
  if attenuates c then 0 < mcomp_fn c e <= 1 else 1 <= mcomp_fn c e.
Proof.
  intros HR HO He. destruct c; cbn [attenuates mcomp_fn mcomp_range mcomp_ok] in *.
  - destruct HR as [[H1 _] [H2 _]]. unfold edge. destruct (Rleb Ec e); [|lra]. apply exp_nonpos_le1.
    assert (0 <= (e / Ec) ^ 3) by (apply pow_le, Rlt_le, Rdiv_lt_0_compat; lra). nra.
  - destruct HR as [H1 _]. unfold exp_abs. apply exp_nonpos_le1. unfold Rdiv.
    assert (0 < / e) by now apply Rinv_0_lt_compat. nra.
  - destruct HR as [[H1 _] _]. unfold exp_fac. destruct (Rleb Ec e); [|lra]. pose proof (exp_pos (- f * e)). nra.
  - destruct HR as [_ [[H1 _] [H2 _]]]. unfold gabs. apply exp_nonpos_le1. pose proof PI_RGT_0.
    assert (0 < sqrt (2 * PI)) by (apply sqrt_lt_R0; lra). assert (0 < / (sqrt (2 * PI) * sigma)) by (apply Rinv_0_lt_compat, Rmult_lt_0_compat; lra).
    pose proof (exp_pos (- (1 / 2) * ((e - El) / sigma) ^ 2)). unfold Rdiv. assert (- tau * / (sqrt (2 * PI) * sigma) <= 0) by nra. unfold Rdiv in *. nra.
  - destruct HR as [_ H2]. apply rng_pos in H2. unfold high_e_cut. destruct (Rleb_spec Ec e); [|lra]. apply exp_nonpos_le1.
    unfold Rdiv. assert (0 < / Ef) by now apply Rinv_0_lt_compat. nra.
  - destruct HR as [H1 _]. unfold photon_abs. apply exp_nonpos_le1. pose proof (exp_pos (logsigma (ln e))). nra.
Qed.
Lemma mean_between m c g (lo hi : R) : egrid g -> (forall e, 0 < e -> lo <= c e <= hi) ->
  Forall (fun x => lo <= x <= hi) (integrate m false c g).
Proof.
  intros Hg Hc. assert (E : integrate m false c g = bins (fun a b => match m with Trapz => 1 / 2 * (c a + c b)
    | Simpson => 1 / 6 * (c a + 4 * c (1 / 2 * (a + b)) + c b) end) g) by (destruct m; cbn [integrate]; [rewrite trapz_bins|rewrite simpson_bins]; reflexivity).
  rewrite E. apply bins_forall. intros i Hi. destruct (egrid_bin g i Hg Hi) as [A B].
  pose proof (Hc _ A) as C1. pose proof (Hc (nth (S i) g 0) ltac:(lra)) as C2.
  pose proof (Hc (1 / 2 * (nth i g 0 + nth (S i) g 0)) ltac:(lra)) as C3. destruct m; lra.
Qed.
