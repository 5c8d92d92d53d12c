From Verif Require Import RBase BaseFacts Gibbs Grouping GroupingProofs GroupingOpt Scale ScaleProofs Significance.

(** ** Li-Ma *)
Lemma lima_stat_gibbs n m a : 0 <= n -> 0 <= m -> 0 < a -> 0 < n + m ->
  lima_stat n m a = 2 * (xlogy n (n / ((n + m) * a / (1 + a))) + xlogy m (m / ((n + m) / (1 + a)))).
Proof.
  intros Hn Hm Ha HT. unfold lima_stat.
  assert (1 + a <> 0) by lra.
  f_equal. f_equal.
  - destruct (Rltb_spec 0 n).
    + f_equal. field. repeat split; lra.
    + unfold xlogy. destruct (Reqb_spec n 0); [reflexivity|lra].
  - destruct (Rltb_spec 0 m).
    + f_equal. field. repeat split; lra.
    + unfold xlogy. destruct (Reqb_spec m 0); [reflexivity|lra].
Qed.

Lemma lima_stat_00 a : lima_stat 0 0 a = 0.
Proof. unfold lima_stat. destruct (Rltb_spec 0 0); lra. Qed.

Lemma lima_stat_spec n m a : 0 <= n -> 0 <= m -> 0 < a ->
  0 <= lima_stat n m a /\ (lima_stat n m a = 0 <-> n = a * m).
Proof.
  intros Hn Hm Ha. destruct (Req_dec (n + m) 0) as [E|E].
  { assert (n = 0) by lra. assert (m = 0) by lra. subst. rewrite lima_stat_00. split; [lra|]. split; intros; [ring|reflexivity]. }
  assert (HT : 0 < n + m) by lra.
  rewrite lima_stat_gibbs by assumption.
  set (y1 := (n + m) * a / (1 + a)). set (y2 := (n + m) / (1 + a)).
  assert (Y1 : 0 < y1). { unfold y1. apply Rdiv_lt_0_compat; nra. }
  assert (Y2 : 0 < y2). { unfold y2. apply Rdiv_lt_0_compat; lra. }
  assert (YS : y1 + y2 = n + m). { unfold y1, y2. field. lra. }
  assert (YA : y1 = a * y2). { unfold y1, y2. field. lra. }
  pose proof (gibbs n y1 Hn Y1) as G1. pose proof (gibbs m y2 Hm Y2) as G2.
  split; [lra|]. split; intros H.
  - assert (n = y1) by (apply (gibbs_eq n y1 Hn Y1); lra).
    assert (m = y2) by (apply (gibbs_eq m y2 Hm Y2); lra). congruence.
  - assert (m = y2). { unfold y2. subst n. field. lra. }
    assert (n = y1) by congruence.
    rewrite <- H0, <- H1. rewrite !xlogy_same. lra.
Qed.

Lemma sign_sqrt (c : bool) q x :
  0 <= q -> (q = 0 <-> x = 0) -> (c = true <-> 0 <= x) ->
  let S := (if c then 1 else -1) * sqrt q in
  (S = 0 <-> x = 0) /\ (0 < S <-> 0 < x) /\ (S < 0 <-> x < 0).
Proof.
  intros Hq Hz Hc S.
  assert (Hs : q = 0 /\ sqrt q = 0 \/ 0 < sqrt q).
  { destruct (Req_dec q 0) as [->|N]; [left; split; [reflexivity|apply sqrt_0]|]. right. apply sqrt_lt_R0. lra. }
  assert (HC : c = true /\ 0 <= x \/ c = false /\ x < 0).
  { destruct c; [left; tauto|right; split; [reflexivity|]].
    destruct (Rlt_dec x 0); [assumption|]. assert (false = true) by (apply Hc; lra). discriminate. }
  unfold S. destruct HC as [(-> & HC)|(-> & HC)], Hs as [(E & Hs)|Hs].
  - apply Hz in E. rewrite Hs. repeat split; intros; lra.
  - assert (x <> 0). { intros E. apply Hz in E. rewrite E, sqrt_0 in Hs. lra. } repeat split; intros; lra.
  - apply Hz in E. lra.
  - repeat split; intros; lra.
Qed.

Lemma lima_sign n m a : 0 <= n -> 0 <= m -> 0 < a ->
  0 <= lima_stat n m a /\
  (significance_lima n m a = 0 <-> n = a * m) /\
  (0 < significance_lima n m a <-> a * m < n) /\
  (significance_lima n m a < 0 <-> n < a * m).
Proof.
  intros Hn Hm Ha. destruct (lima_stat_spec n m a Hn Hm Ha) as (Hq & Hz). split; [exact Hq|].
  destruct (sign_sqrt (Rleb (a * m) n) (lima_stat n m a) (n - a * m)) as (S0 & S1 & S2).
  - exact Hq.
  - rewrite Hz. split; intros; lra.
  - rewrite Rleb_true. split; intros; lra.
  - unfold significance_lima. rewrite S0, S1, S2. repeat split; intros; lra.
Qed.

(** ** Vianello *)
Lemma gv_b0_root n b s : 0 <= n -> 0 < s -> 
  let s2 := s * s in
  let r := 0.5 * (b - s2 + sqrt (b * b - 2 * b * s2 + 4 * n * s2 + s2 * s2)) in
  0 <= r /\ r * r - (b - s2) * r - n * s2 = 0 /\ (0 < n -> 0 < r).
Proof.
  intros Hn Hs s2 r. assert (H2 : 0 < s2) by (unfold s2; nra). clearbody s2.
  set (D := b * b - 2 * b * s2 + 4 * n * s2 + s2 * s2) in *.
  assert (HD : D = (b - s2) * (b - s2) + 4 * (n * s2)) by (unfold D; ring).
  assert (Hns : 0 <= n * s2) by nra.
  assert (HD0 : 0 <= D) by (rewrite HD; pose proof (Rle_0_sqr (b - s2)) as Q; unfold Rsqr in Q; lra).
  assert (HQ : sqrt D * sqrt D = D) by (apply sqrt_sqrt, HD0).
  pose proof (sqrt_pos D) as HP.
  assert (E : r * r - (b - s2) * r - n * s2 = 0) by (unfold r; nra).
  assert (R0 : 0 <= r).
  { unfold r. assert (- (b - s2) <= sqrt D); [|lra].
    destruct (Rle_dec (- (b - s2)) 0); [lra|].
    apply Rnot_lt_le; intros C. nra. }
  repeat split; try assumption.
  intros Hn0. destruct (Req_dec r 0) as [E0|]; [|lra]. rewrite E0 in E. nra.
Qed.

Lemma gv_b0_spec n b s a : 0 <= n -> 0 < s -> 0 < a ->
  let b' := a * b in let s' := a * s in let x := gv_b0 n b s a in
  0 <= x /\ (0 < n -> 0 < x) /\ x * x - (b' - s' * s') * x - n * (s' * s') = 0.
Proof.
  intros Hn Hs Ha b' s' x.
  assert (Hs' : 0 < s * a) by nra.
  destruct (gv_b0_root n (b * a) (s * a) Hn Hs') as (R0 & R1 & R2).
  unfold x, gv_b0. rewrite Rmax_left by exact R0.
  unfold b', s'. rewrite (Rmult_comm a b), (Rmult_comm a s). repeat split; assumption.
Qed.

Lemma gv_stat_spec n b s a : 0 <= n -> 0 < s -> 0 < a ->
  0 <= gv_stat n b s a /\ (gv_stat n b s a = 0 <-> n = a * b).
Proof.
  intros Hn Hs Ha. destruct (gv_b0_spec n b s a Hn Hs Ha) as (X0 & X1 & X2).
  unfold gv_stat. set (x := gv_b0 n b s a) in *. cbn zeta.
  assert (Hs2 : 0 < s * a * (s * a)) by (assert (0 < s * a) by nra; nra).
  set (s2 := s * a * (s * a)) in *.
  assert (T2 : 0 <= (b * a - x) * (b * a - x) / (2 * s2)).
  { unfold Rdiv. apply Rmult_le_pos; [apply Rle_0_sqr|]. left. apply Rinv_0_lt_compat. lra. }
  assert (T2z : (b * a - x) * (b * a - x) / (2 * s2) = 0 -> b * a = x).
  { intros H. unfold Rdiv in H. apply Rmult_integral in H as [H|H]; [apply Rsqr_0_uniq in H; lra|].
    assert (0 < / (2 * s2)) by (apply Rinv_0_lt_compat; lra). lra. }
  replace (a * s * (a * s)) with s2 in X2 by (unfold s2; ring).
  destruct (Rltb_spec 0 n) as [Hn0|Hn0].
  - specialize (X1 Hn0). pose proof (gibbs n x Hn X1) as G.
    split; [lra|]. split; intros H.
    + assert (n = x) by (apply gibbs_eq; lra). assert (b * a = x) by (apply T2z; lra). lra.
    + assert (E : x = n).
      { rewrite <- H in X2. assert (E : (x - n) * (x + s2) = 0) by (ring_simplify; ring_simplify in X2; lra).
        apply Rmult_integral in E as [E|E]; lra. }
      rewrite E, xlogy_same. replace (b * a - n) with 0 by lra. unfold Rdiv. lra.
  - assert (n = 0) by lra. subst n. split; [lra|]. split; intros H.
    + assert (b * a = x) by (apply T2z; lra). lra.
    + assert (E : x * (x + s2) = 0) by (rewrite <- H in X2; lra).
      assert (x = 0) by (apply Rmult_integral in E as [E|E]; lra).
      rewrite H0. replace (b * a) with 0 by lra. unfold Rdiv. lra.
Qed.

Lemma gv_sign n b s a : 0 <= n -> 0 < s -> 0 < a ->
  0 <= gv_stat n b s a /\
  (significance_gv n b s a = 0 <-> n = a * b) /\
  (0 < significance_gv n b s a <-> a * b < n) /\
  (significance_gv n b s a < 0 <-> n < a * b).
Proof.
  intros Hn Hs Ha. destruct (gv_stat_spec n b s a Hn Hs Ha) as (Hq & Hz). split; [exact Hq|].
  destruct (sign_sqrt (Rleb (b * a) n) (gv_stat n b s a) (n - a * b)) as (S0 & S1 & S2).
  - exact Hq.
  - rewrite Hz. split; intros; lra.
  - rewrite Rleb_true. split; intros; lra.
  - unfold significance_gv. rewrite S0, S1, S2. repeat split; intros; lra.
Qed.

(** ** Optimal bin sizes *)
Lemma shrink_le1 x : 2.119 <= x -> 0 < shrink x <= 1.
Proof.
  intros H. unfold shrink. assert (Hx : 0 < x) by lra.
  assert (H1 : 0 < / x) by now apply Rinv_0_lt_compat.
  assert (Hi : / x <= / 2.119) by (apply Rinv_le_contravar; lra).
  assert (E : / 2.119 <= 0.472) by (apply Rle_trans with (/ 2.119); lra).
  assert (B : 0.08 * x + 7 + 1.8 / x <= x + 5.9) by (unfold Rdiv; nra).
  assert (B0 : 0 < 0.08 * x + 7 + 1.8 / x) by (unfold Rdiv; nra).
  split; [apply Rdiv_lt_0_compat; lra|].
  apply (Rmult_le_reg_r (x + 5.9)); [lra|]. unfold Rdiv at 1. rewrite Rmult_assoc, Rinv_l by lra. lra.
Qed.

Lemma Int_part_le x y : x <= y -> (Int_part x <= Int_part y)%Z.
Proof.
  intros H. destruct (base_Int_part x) as (A & B), (base_Int_part y) as (C & D).
  apply Z.lt_succ_r. apply lt_IZR. rewrite succ_IZR. lra.
Qed.

Lemma bint_at_ge1 t w nr : (1 <= bint_at t w nr)%nat.
Proof. unfold bint_at. destruct (Z.ltb_spec (Rtrunc (width_at t w nr)) 1); lia. Qed.
Lemma bint_at_spec t w nr : 0 < w -> 1 <= t ->
  (1 <= bint_at t w nr)%nat /\ INR (bint_at t w nr) <= Rmax 1 w.
Proof.
  intros Hw Ht. split; [apply bint_at_ge1|]. unfold bint_at.
  assert (HlR : 0 <= ln t).
  { destruct (Req_dec t 1) as [->|N]; [rewrite ln_1; lra|]. rewrite <- ln_1. left. apply ln_increasing; lra. }
  assert (Hb : 0 <= width_at t w nr <= w).
  { unfold width_at. destruct (Rltb_spec t 0) as [?|?]; [lra|]. destruct (Reqb_spec t 0) as [?|?]; [lra|].
    set (f := 1 + 0.2 * ln t). assert (Hf : 1 <= f) by (unfold f; lra). cbv zeta. destruct (Reqb_spec f 0) as [?|?]; [lra|].
    destruct (Rltb_spec (exp 2.119 / f) nr) as [H|H]; [|lra].
    assert (HE : 0 < exp 2.119) by apply exp_pos.
    assert (HN : exp 2.119 <= nr * f).
    { left. apply (Rmult_lt_compat_r f) in H; [|lra].
      unfold Rdiv in H. rewrite Rmult_assoc, Rinv_l in H by lra. lra. }
    destruct (Rleb_spec (nr * f) 0) as [?|_]; [lra|].
    assert (HL : 2.119 <= ln (nr * f)).
    { rewrite <- (ln_exp 2.119). destruct HN as [HN|HN]; [left; now apply ln_increasing|rewrite HN; lra]. }
    pose proof (shrink_le1 _ HL). nra. }
  set (b := width_at t w nr) in *.
  unfold Rtrunc. destruct (Rleb_spec 0 b) as [_|C]; [|lra].
  destruct (base_Int_part b) as (A & B).
  destruct (Z.ltb_spec (Int_part b) 1) as [L|L].
  - simpl. apply Rmax_l.
  - rewrite INR_IZR_INZ, Z2Nat.id by lia. pose proof (Rmax_r 1 w). lra.
Qed.

Lemma n_res_ge1 fwhm : Forall (fun w => 0 < w) fwhm -> 1 <= n_res fwhm.
Proof.
  intros H. unfold n_res.
  assert (0 <= rsum (map (fun w => 1 / w) fwhm)); [|lra].
  apply rsum_nonneg. rewrite Forall_map. eapply Forall_impl; [|exact H]. intros w Hw.
  unfold Rdiv. assert (0 < / w) by now apply Rinv_0_lt_compat. simpl. lra.
Qed.

Lemma nth_combine_seq {A} (l : list A) : forall s i d, (i < length l)%nat ->
  nth i (combine (seq s (length l)) l) (0%nat, d) = ((s + i)%nat, nth i l d).
Proof.
  induction l as [|x l IH]; intros s i d H; simpl in *; [lia|].
  destruct i as [|i]; [now rewrite Nat.add_0_r|]. rewrite IH by lia. f_equal. lia.
Qed.

Lemma calc_length fwhm counts : length (calc_optimal_binning fwhm counts) = length fwhm.
Proof. unfold calc_optimal_binning. rewrite map_length, combine_length, seq_length. lia. Qed.

Lemma calc_spec fwhm counts : Forall (fun w => 0 < w) fwhm ->
  Forall2 (fun b w => (1 <= b)%nat /\ INR b <= Rmax 1 w) (calc_optimal_binning fwhm counts) fwhm.
Proof.
  intros H. pose proof (n_res_ge1 fwhm H) as HL. unfold calc_optimal_binning. cbv zeta.
  assert (G : forall lR n s, 1 <= lR -> Forall2 (fun b w => (1 <= b)%nat /\ INR b <= Rmax 1 w)
    (map (fun p => bint_at lR (snd p) (Nr_at counts n (fst p) (snd p))) (combine (seq s (length fwhm)) fwhm)) fwhm).
  { clear HL. intros lR n s HL. revert s.
    induction H as [|w ws Hw Hws IH]; intros s; simpl; [constructor|].
    constructor; [|apply IH]. now apply bint_at_spec. }
  now apply G.
Qed.
Lemma calc_bint_ok fwhm counts : bint_ok (calc_optimal_binning fwhm counts).
Proof.
  unfold bint_ok, calc_optimal_binning. cbv zeta. apply Forall_forall. intros b Hb. apply in_map_iff in Hb as (p & <- & _). apply bint_at_ge1.
Qed.

(** ** candidate tests and final tests agree *)
Lemma lima_ok_eq on off k sig a b : length on = length off -> (a <= b)%nat -> (b <= length on)%nat ->
  lima_ok on off k sig a b = lima_okf on off k sig a b.
Proof. intros HL Hab Hb. unfold lima_ok, lima_okf. rewrite !interval_sum_slice by lia. reflexivity. Qed.
Lemma gv_ok_eq n b s k sig x y : length n = length b -> length b = length s -> (x <= y)%nat -> (y <= length n)%nat ->
  gv_ok n b s k sig x y = gv_okf n b s k sig x y.
Proof. intros H1 H2 Hab Hb. unfold gv_ok, gv_okf. rewrite !interval_sum_slice by (rewrite ?map_length; lia). reflexivity. Qed.
