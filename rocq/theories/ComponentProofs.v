(** Proofs about the built-in components. *)
From Coquelicot Require Import Coquelicot.
From Verif Require Import RBase ModelAlg ModelAlgProofs Components ComponentSpec.
From Coq Require Import List Lia Lra Psatz.
Import ListNotations.
Open Scope R_scope.

(** ** bins *)
Lemma bins_nth step g : forall i, (S i < length g)%nat -> nth i (bins step g) 0 = step (nth i g 0) (nth (S i) g 0).
Proof.
  induction g as [|a [|b g] IH]; intros i H; cbn [length] in H; try lia.
  change (bins step (a :: b :: g)) with (step a b :: bins step (b :: g)).
  destruct i as [|i]; [reflexivity|]. cbn [nth]. rewrite IH by (cbn [length]; lia). reflexivity.
Qed.
Lemma bins_length step g : length (bins step g) = (length g - 1)%nat.
Proof.
  induction g as [|a [|b g] IH]; try reflexivity.
  change (bins step (a :: b :: g)) with (step a b :: bins step (b :: g)). cbn [length] in *. rewrite IH. lia.
Qed.
Lemma anaint_bins F g : anaint F g = bins (fun a b => F b - F a) g.
Proof. induction g as [|a [|b g] IH]; try reflexivity. cbn [bins anaint]. f_equal; exact IH. Qed.
Lemma trapz_bins add c g : trapz add c g = bins (fun a b => (if add then 1 / 2 * (b - a) else 1 / 2) * (c a + c b)) g.
Proof. induction g as [|a [|b g] IH]; try reflexivity. cbn [bins trapz]. f_equal; exact IH. Qed.
Lemma simpson_bins add c g :
  simpson add c g = bins (fun a b => (if add then (b - a) / 6 else 1 / 6) * (c a + 4 * c (1 / 2 * (a + b)) + c b)) g.
Proof. induction g as [|a [|b g] IH]; try reflexivity. cbn [bins simpson]. f_equal; exact IH. Qed.
Lemma diff_bins g : diff g = bins (fun a b => b - a) g.
Proof. reflexivity. Qed.
Lemma emid_bins g : emid g = bins (fun a b => sqrt (a * b)) g.
Proof. reflexivity. Qed.
Lemma map_bins h step g : map h (bins step g) = bins (fun a b => h (step a b)) g.
Proof.
  induction g as [|a [|b g] IH]; try reflexivity.
  change (bins step (a :: b :: g)) with (step a b :: bins step (b :: g)).
  change (bins (fun a b => h (step a b)) (a :: b :: g)) with (h (step a b) :: bins (fun a b => h (step a b)) (b :: g)).
  cbn [map]. now rewrite IH.
Qed.
Lemma bins_map h step g : bins step (map h g) = bins (fun a b => step (h a) (h b)) g.
Proof.
  induction g as [|a [|b g] IH]; try reflexivity.
  cbn [map]. change (bins step (h a :: h b :: map h g)) with (step (h a) (h b) :: bins step (h b :: map h g)).
  change (bins (fun a b => step (h a) (h b)) (a :: b :: g)) with (step (h a) (h b) :: bins (fun a b => step (h a) (h b)) (b :: g)).
  cbn [map] in IH. now rewrite IH.
Qed.
Lemma map2_bins f s1 s2 g : map2 f (bins s1 g) (bins s2 g) = bins (fun a b => f (s1 a b) (s2 a b)) g.
Proof.
  induction g as [|a [|b g] IH]; try reflexivity.
  change (bins s1 (a :: b :: g)) with (s1 a b :: bins s1 (b :: g)).
  change (bins s2 (a :: b :: g)) with (s2 a b :: bins s2 (b :: g)).
  cbn [map2]. rewrite IH. reflexivity.
Qed.
Lemma bins_forall (P : R -> Prop) step g : (forall i, (S i < length g)%nat -> P (step (nth i g 0) (nth (S i) g 0))) -> Forall P (bins step g).
Proof.
  induction g as [|a [|b g] IH]; intros H; try constructor.
  - apply (H 0%nat). cbn; lia.
  - apply IH. intros i Hi. apply (H (S i)). cbn [length] in *; lia.
Qed.
Lemma bins_ext s1 s2 g : (forall i, (S i < length g)%nat -> s1 (nth i g 0) (nth (S i) g 0) = s2 (nth i g 0) (nth (S i) g 0)) ->
  bins s1 g = bins s2 g.
Proof.
  induction g as [|a [|b g] IH]; intros H; try reflexivity.
  change (bins s1 (a :: b :: g)) with (s1 a b :: bins s1 (b :: g)).
  change (bins s2 (a :: b :: g)) with (s2 a b :: bins s2 (b :: g)).
  f_equal; [apply (H 0%nat); cbn; lia|]. apply IH. intros i Hi. apply (H (S i)). cbn [length] in *; lia.
Qed.
Lemma integrates_bins N step g : (forall i, (S i < length g)%nat -> is_RInt N (nth i g 0) (nth (S i) g 0) (step (nth i g 0) (nth (S i) g 0))) ->
  integrates N g (bins step g).
Proof. intros H. split; [apply bins_length|]. intros i Hi. rewrite bins_nth by exact Hi. now apply H. Qed.
Lemma averages_bins N step g : (forall i, (S i < length g)%nat ->
    is_RInt N (nth i g 0) (nth (S i) g 0) ((nth (S i) g 0 - nth i g 0) * step (nth i g 0) (nth (S i) g 0))) ->
  averages N g (bins step g).
Proof. intros H. split; [apply bins_length|]. intros i Hi. rewrite bins_nth by exact Hi. now apply H. Qed.

(** ** integrals *)
Lemma antideriv (F f : R -> R) a b : a <= b ->
  (forall x, a <= x <= b -> is_derive F x (f x)) -> (forall x, a <= x <= b -> continuous f x) ->
  is_RInt f a b (F b - F a).
Proof.
  intros H HF Hf. apply (is_RInt_derive F f).
  - intros x Hx. apply HF. now rewrite Rmin_left, Rmax_right in Hx by exact H.
  - intros x Hx. apply Hf. now rewrite Rmin_left, Rmax_right in Hx by exact H.
Qed.
Lemma is_RInt_scalR f a b k l : is_RInt f a b l -> is_RInt (fun x => k * f x) a b (k * l).
Proof. exact (is_RInt_scal f a b k l). Qed.

Lemma Rpower_derive x a : 0 < x -> is_derive (fun y => Rpower y a) x (a * Rpower x (a - 1)).
Proof. intros H. apply is_derive_Reals. apply derivable_pt_lim_power. exact H. Qed.
Lemma Rpower_continuous x a : 0 < x -> continuous (fun y => Rpower y a) x.
Proof. intros H. apply (ex_derive_continuous (V:=R_NormedModule) (fun y => Rpower y a) x). eexists. now apply Rpower_derive. Qed.
Lemma ln_derive x : 0 < x -> is_derive ln x (/ x).
Proof. intros H. apply is_derive_Reals. now apply derivable_pt_lim_ln. Qed.
Lemma Rpower_m1 x : 0 < x -> Rpower x (-1) = / x.
Proof. intros H. replace (-1) with (- (1)) by ring. rewrite Rpower_Ropp, Rpower_1; auto. Qed.

Lemma powerlaw_bins alpha g : powerlaw_integral alpha g =
  bins (fun a b => if Req_EM_T alpha 1 then ln b - ln a else Rpower b (1 - alpha) / (1 - alpha) - Rpower a (1 - alpha) / (1 - alpha)) g.
Proof.
  unfold powerlaw_integral, Reqb. destruct (Req_EM_T alpha 1); cbn [negb]; now rewrite anaint_bins.
Qed.
Lemma powerlaw_step alpha a b : 0 < a -> a <= b ->
  is_RInt (fun E => Rpower E (- alpha)) a b
    (if Req_EM_T alpha 1 then ln b - ln a else Rpower b (1 - alpha) / (1 - alpha) - Rpower a (1 - alpha) / (1 - alpha)).
Proof.
  intros Ha Hab. destruct (Req_EM_T alpha 1) as [->|n].
  - apply (antideriv ln); [exact Hab| |].
    + intros x Hx. replace (Rpower x (- (1))) with (/ x) by (rewrite Rpower_Ropp, Rpower_1; lra). apply ln_derive; lra.
    + intros x Hx. apply Rpower_continuous; lra.
  - apply (antideriv (fun x => Rpower x (1 - alpha) / (1 - alpha))); [exact Hab| |].
    + intros x Hx. assert (Hd : is_derive (fun y => Rpower y (1 - alpha)) x ((1 - alpha) * Rpower x (1 - alpha - 1))) by (apply Rpower_derive; lra).
      apply (is_derive_ext (fun y => / (1 - alpha) * Rpower y (1 - alpha))); [intros t; change (/ (1 - alpha) * Rpower t (1 - alpha) = Rpower t (1 - alpha) / (1 - alpha)); unfold Rdiv; ring|].
      replace (Rpower x (- alpha)) with (/ (1 - alpha) * ((1 - alpha) * Rpower x (1 - alpha - 1))).
      * now apply is_derive_scal.
      * replace (1 - alpha - 1) with (- alpha) by ring. field. lra.
    + intros x Hx. apply Rpower_continuous; lra.
Qed.
Lemma egrid_bin g i : egrid g -> (S i < length g)%nat -> 0 < nth i g 0 < nth (S i) g 0.
Proof. intros [H1 H2] H. split; [apply H1; lia|apply H2; lia]. Qed.
Lemma powerlaw_integrates alpha g : egrid g -> integrates (fun E => Rpower E (- alpha)) g (powerlaw_integral alpha g).
Proof.
  intros H. rewrite powerlaw_bins. apply integrates_bins. intros i Hi.
  destruct (egrid_bin g i H Hi). apply powerlaw_step; lra.
Qed.
Lemma integrates_scal N k g r : integrates N g r -> integrates (fun E => k * N E) g (map (Rmult k) r).
Proof.
  intros [H1 H2]. split; [now rewrite map_length|]. intros i Hi.
  rewrite (nth_indep (map (Rmult k) r) 0 (k * 0)) by (rewrite map_length; lia). rewrite (map_nth (Rmult k)).
  apply is_RInt_scalR. now apply H2.
Qed.

(** a continuous positive function has a positive integral *)
Lemma pl_int_pos alpha a b : 0 < a < b ->
  0 < (if Req_EM_T alpha 1 then ln b - ln a else Rpower b (1 - alpha) / (1 - alpha) - Rpower a (1 - alpha) / (1 - alpha)).
Proof.
  intros [Ha Hab]. destruct (Req_EM_T alpha 1) as [->|n].
  - pose proof (ln_increasing a b Ha Hab). lra.
  - assert (ln a < ln b) by (now apply ln_increasing). unfold Rpower.
    destruct (Rtotal_order alpha 1) as [L|[->|L]]; [|lra|].
    + assert (exp ((1 - alpha) * ln a) < exp ((1 - alpha) * ln b)) by (apply exp_increasing; apply Rmult_lt_compat_l; lra).
      unfold Rdiv. rewrite <- Rmult_minus_distr_r. apply Rmult_lt_0_compat; [lra|]. apply Rinv_0_lt_compat; lra.
    + assert (exp ((1 - alpha) * ln b) < exp ((1 - alpha) * ln a)).
      { apply exp_increasing. assert ((alpha - 1) * ln a < (alpha - 1) * ln b) by (apply Rmult_lt_compat_l; lra). lra. }
      replace (exp ((1 - alpha) * ln b) / (1 - alpha) - exp ((1 - alpha) * ln a) / (1 - alpha))
        with ((exp ((1 - alpha) * ln a) - exp ((1 - alpha) * ln b)) * / (alpha - 1)) by (field; lra).
      apply Rmult_lt_0_compat; [lra|]. apply Rinv_0_lt_compat; lra.
Qed.
Lemma pl2_nth alpha a b : nth 0 (powerlaw_integral alpha [a; b]) 0 =
  (if Req_EM_T alpha 1 then ln b - ln a else Rpower b (1 - alpha) / (1 - alpha) - Rpower a (1 - alpha) / (1 - alpha)).
Proof. rewrite powerlaw_bins. reflexivity. Qed.

(** Lorentz *)
Lemma atan_lin_derive El s x : 0 < s ->
  is_derive (fun e => atan (2 * (e - El) / s)) x (s / 2 * / ((x - El) ^ 2 + (s / 2) ^ 2)).
Proof.
  intros Hs. assert (Hd : is_derive atan (2 * (x - El) / s) (/ (1 + (2 * (x - El) / s) ^ 2))).
  { apply is_derive_Reals.
    apply derivable_pt_lim_atan. }
  assert (Hl : is_derive (fun e => 2 * (e - El) / s) x (2 / s)) by (auto_derive; [trivial|]; field; lra).
  pose proof (is_derive_comp atan (fun e => 2 * (e - El) / s) x _ _ Hd Hl) as H.
  match type of H with is_derive _ _ ?v => replace v with (s / 2 * / ((x - El) ^ 2 + (s / 2) ^ 2)) in H; [exact H|] end.
  change scal with Rmult. unfold scal; cbn. unfold mult; cbn.
  assert (P : 0 < (x - El) ^ 2 + (s / 2) ^ 2).
  { pose proof (pow2_ge_0 (x - El)). assert (0 < (s / 2) ^ 2) by (apply pow_lt; lra). lra. }
  assert (P2 : 0 < 1 + (2 * (x - El) / s) ^ 2) by (pose proof (pow2_ge_0 (2 * (x - El) / s)); lra).
  replace (1 + (2 * (x - El) / s) ^ 2) with (4 / s ^ 2 * ((x - El) ^ 2 + (s / 2) ^ 2)) by (field; lra).
  field. repeat split; lra.
Qed.
Definition profile (El s E : R) : R := / ((E - El) ^ 2 + (s / 2) ^ 2).
Lemma profile_den El s E : 0 < s -> 0 < (E - El) ^ 2 + (s / 2) ^ 2.
Proof. intros Hs. pose proof (pow2_ge_0 (E - El)). assert (0 < (s / 2) ^ 2) by (apply pow_lt; lra). lra. Qed.
Lemma profile_continuous El s x : 0 < s -> continuous (profile El s) x.
Proof.
  intros Hs. apply (ex_derive_continuous (V:=R_NormedModule) (profile El s) x). unfold profile. auto_derive.
  pose proof (profile_den El s x Hs). intros H0. cbn in H0. lra.
Qed.
Lemma profile_step El s a b : 0 < s -> a <= b ->
  is_RInt (profile El s) a b (2 / s * (atan (2 * (b - El) / s) - atan (2 * (a - El) / s))).
Proof.
  intros Hs Hab.
  replace (2 / s * (atan (2 * (b - El) / s) - atan (2 * (a - El) / s)))
    with ((fun e => 2 / s * atan (2 * (e - El) / s)) b - (fun e => 2 / s * atan (2 * (e - El) / s)) a) by (cbn beta; ring).
  apply (antideriv (fun e => 2 / s * atan (2 * (e - El) / s)) (profile El s) a b); [exact Hab| |].
  - intros x _. unfold profile.
    replace (/ ((x - El) ^ 2 + (s / 2) ^ 2)) with (2 / s * (s / 2 * / ((x - El) ^ 2 + (s / 2) ^ 2))).
    + apply (is_derive_scal (fun e => atan (2 * (e - El) / s)) x (2 / s)). now apply atan_lin_derive.
    + pose proof (profile_den El s x Hs). field. lra.
  - intros x _. now apply profile_continuous.
Qed.
Lemma atan_lim_infty eps : 0 < eps -> exists T0, forall T, T0 <= T -> PI / 2 - eps < atan T < PI / 2.
Proof.
  intros He. pose proof PI_RGT_0 as Hpi. set (d := Rmin (eps / 2) (PI / 4)).
  assert (Hd : 0 < d <= PI / 4) by (split; [apply Rmin_pos; lra|apply Rmin_r]).
  assert (Hd2 : d <= eps / 2) by apply Rmin_l.
  exists (tan (PI / 2 - d)). intros T HT. split; [|apply atan_bound].
  destruct (Rle_lt_or_eq_dec _ _ HT) as [L|L].
  - apply atan_increasing in L. rewrite atan_tan in L by lra. lra.
  - rewrite <- L, atan_tan by lra. lra.
Qed.
Lemma profile_improper El s : 0 < s -> improper (profile El s) (2 / s * (PI / 2 + atan (2 * El / s))).
Proof.
  intros Hs eps He. assert (Hs2 : 0 < 2 / s) by (apply Rdiv_lt_0_compat; lra).
  destruct (atan_lim_infty (eps / (2 / s))) as [T1 HT1]; [apply Rdiv_lt_0_compat; lra|].
  exists (El + s / 2 * T1). intros T HT HT0.
  exists (2 / s * (atan (2 * (T - El) / s) - atan (2 * (0 - El) / s))). split; [now apply profile_step|].
  replace (2 * (0 - El) / s) with (- (2 * El / s)) by (field; lra). rewrite atan_opp.
  destruct (HT1 (2 * (T - El) / s)) as [A B].
  { replace T1 with (2 * (El + s / 2 * T1 - El) / s) by (field; lra). unfold Rdiv. apply Rmult_le_compat_r; [left; apply Rinv_0_lt_compat; lra|]. lra. }
  replace (2 / s * (atan (2 * (T - El) / s) - - atan (2 * El / s)) - 2 / s * (PI / 2 + atan (2 * El / s)))
    with (- (2 / s * (PI / 2 - atan (2 * (T - El) / s)))) by ring.
  rewrite Rabs_Ropp, Rabs_right.
  - apply (Rmult_lt_reg_l (/ (2 / s))); [apply Rinv_0_lt_compat; exact Hs2|].
    rewrite <- Rmult_assoc, Rinv_l by lra. unfold Rdiv in *. lra.
  - apply Rle_ge, Rmult_le_pos; lra.
Qed.
Lemma improper_scal k N l : improper N l -> improper (fun E => k * N E) (k * l).
Proof.
  intros H eps He. destruct (H (eps / (Rabs k + 1))) as [T0 HT0].
  { apply Rdiv_lt_0_compat; [exact He|]. pose proof (Rabs_pos k); lra. }
  exists T0. intros T H1 H2. destruct (HT0 T H1 H2) as (I & HI & HE). exists (k * I). split; [now apply is_RInt_scalR|].
  rewrite <- Rmult_minus_distr_l, Rabs_mult. pose proof (Rabs_pos k) as Hk. pose proof (Rabs_pos (I - l)) as HI2.
  apply Rle_lt_trans with ((Rabs k + 1) * Rabs (I - l)); [nra|].
  apply (Rmult_lt_reg_l (/ (Rabs k + 1))); [apply Rinv_0_lt_compat; lra|].
  rewrite <- Rmult_assoc, Rinv_l by lra. unfold Rdiv in HE. lra.
Qed.
Lemma lorentz_integrates El s K g : 0 < s -> 0 < El -> egrid g ->
  integrates (fun E => K / (2 / s * (PI / 2 + atan (2 * El / s))) / ((E - El) ^ 2 + (s / 2) ^ 2)) g (lorentz El s K g).
Proof.
  intros Hs HE Hg. unfold lorentz. rewrite anaint_bins, map_bins. apply integrates_bins. intros i Hi.
  destruct (egrid_bin g i Hg Hi) as [Ha Hab]. set (a := nth i g 0) in *. set (b := nth (S i) g 0) in *.
  assert (Hat : 0 < atan (2 * El / s)).
  { rewrite <- atan_0. apply atan_increasing. apply Rdiv_lt_0_compat; lra. }
  pose proof PI_RGT_0 as Hpi.
  replace (2 * K / (PI + 2 * atan (2 * El / s)) * (atan (2 * (b - El) / s) - atan (2 * (a - El) / s)))
    with (K / (2 / s * (PI / 2 + atan (2 * El / s))) * (2 / s * (atan (2 * (b - El) / s) - atan (2 * (a - El) / s)))).
  - apply is_RInt_scalR, profile_step; lra.
  - field. repeat split; lra.
Qed.

(** ** broken power law *)
Lemma select_bins c s1 s2 g : select c g (bins s1 g) (bins s2 g) = bins (fun a b => if c a then s1 a b else s2 a b) g.
Proof.
  induction g as [|a [|b g] IH]; try reflexivity.
  change (bins s1 (a :: b :: g)) with (s1 a b :: bins s1 (b :: g)).
  change (bins s2 (a :: b :: g)) with (s2 a b :: bins s2 (b :: g)).
  change (select c (a :: b :: g) (s1 a b :: bins s1 (b :: g)) (s2 a b :: bins s2 (b :: g)))
    with ((if c a then s1 a b else s2 a b) :: select c (b :: g) (bins s1 (b :: g)) (bins s2 (b :: g))).
  rewrite IH. reflexivity.
Qed.
Lemma broken_nth a1 Eb a2 K g i : 0 < Eb -> (S i < length g)%nat ->
  nth i (broken_pl a1 Eb a2 K g) 0 =
  let a := nth i g 0 / Eb in let b := nth (S i) g 0 / Eb in
  K * nth 0 (powerlaw_integral (if Rle_dec (nth i g 0) Eb then a1 else a2) [a; b]) 0.
Proof.
  intros HE Hi. unfold broken_pl. rewrite !powerlaw_bins, !bins_map, select_bins, map_bins, bins_nth by exact Hi.
  cbn [nth bins]. unfold Rleb. now destruct (Rle_dec (nth i g 0) Eb).
Qed.
Lemma broken_length a1 Eb a2 K g : length (broken_pl a1 Eb a2 K g) = (length g - 1)%nat.
Proof. unfold broken_pl. now rewrite !powerlaw_bins, !bins_map, select_bins, map_bins, bins_length. Qed.
Lemma scaled_pl alpha Eb a b : 0 < Eb -> 0 < a -> a <= b ->
  is_RInt (fun E => Rpower (E / Eb) (- alpha)) a b (Eb * nth 0 (powerlaw_integral alpha [a / Eb; b / Eb]) 0).
Proof.
  intros HE Ha Hab. rewrite pl2_nth.
  assert (Ha2 : 0 < a / Eb) by (apply Rdiv_lt_0_compat; lra).
  assert (Hb2 : a / Eb <= b / Eb) by (unfold Rdiv; apply Rmult_le_compat_r; [left; apply Rinv_0_lt_compat|]; lra).
  pose proof (powerlaw_step alpha (a / Eb) (b / Eb) Ha2 Hb2) as H.
  replace (a / Eb) with (/ Eb * a + 0) in H at 1 by (field; lra).
  replace (b / Eb) with (/ Eb * b + 0) in H at 1 by (field; lra).
  apply (is_RInt_comp_lin (fun E => Rpower E (- alpha)) (/ Eb) 0 a b) in H.
  apply (is_RInt_scalR _ _ _ Eb) in H.
  eapply is_RInt_ext; [|exact H]. intros x _. cbn beta. change scal with Rmult. unfold scal; cbn. unfold mult; cbn.
  replace (/ Eb * x + 0) with (x / Eb) by (unfold Rdiv; ring). rewrite <- Rmult_assoc, Rinv_r by lra. ring.
Qed.
