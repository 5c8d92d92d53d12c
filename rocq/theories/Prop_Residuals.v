(** C79: residuals of the spectral plots. *)
From Coq Require Import Ascii String.
From Verif Require Import RBase Gibbs Residuals ResultsProofs.
From Coq Require Import List ZArith Lia.
Import ListNotations.
Open Scope list_scope.
Open Scope R_scope.

(** ** deviance residuals *)
(** real, with the sign of data minus model, zero only for equality *)
Theorem C79_deviance : forall k lam, 0 <= k -> 0 < lam ->
  let r := deviance_residual k lam in
  r * r = 2 * ((if Reqb k 0 then 0 else k * ln (k / lam)) - (k - lam)) /\ (r = 0 <-> k = lam) /\ (0 < r <-> lam < k) /\ (r < 0 <-> k < lam).
Proof.
  intros k lam Hk Hl. cbv zeta. unfold deviance_residual. pose proof (gibbs k lam Hk Hl) as G.
  assert (D : 0 <= dev k lam) by (unfold dev; lra).
  assert (D0 : k <> lam -> 0 < dev k lam) by (intros N; unfold dev; pose proof (gibbs_strict k lam Hk Hl N); lra).
  assert (D1 : k = lam -> dev k lam = 0) by (intros ->; unfold dev; rewrite xlogy_same; lra).
  pose proof (sqrt_pos (dev k lam)) as SP. pose proof (sqrt_sqrt _ D) as SS.
  assert (S0 : k <> lam -> 0 < sqrt (dev k lam)) by (intros N; apply sqrt_lt_R0; auto).
  assert (S1 : k = lam -> sqrt (dev k lam) = 0) by (intros N; rewrite D1 by exact N; apply sqrt_0).
  split.
  { replace (2 * _) with (dev k lam) by reflexivity. destruct (Rleb lam k); rewrite <- SS at 3; ring. }
  destruct (Rleb_spec lam k) as [L|L].
  - destruct (Req_dec k lam) as [E|N]; [rewrite (S1 E)|specialize (S0 N)]; repeat split; intros; lra.
  - assert (N : k <> lam) by lra. specialize (S0 N). repeat split; intros; lra.
Qed.
Print Assumptions C79_deviance.
(** more counts, larger residual *)
Theorem C79_deviance_increasing : forall k k' lam, 0 <= k -> k < k' -> 0 < lam -> deviance_residual k lam < deviance_residual k' lam.
Proof.
  intros k k' lam Hk Hkk Hl.
  destruct (C79_deviance k lam Hk Hl) as (_ & Z & P & N). destruct (C79_deviance k' lam ltac:(lra) Hl) as (_ & Z' & P' & N').
  (* both on the same side: decompose the deviance *)
  assert (G : forall a b, 0 <= a -> 0 < b -> a <> b -> (b <= lam /\ a < b) \/ (lam <= b /\ b < a) -> dev b lam < dev a lam).
  { intros a b Ha Hb Hn Hs. pose proof (gibbs_strict a b Ha Hb Hn) as G. unfold dev, xlogy in *. destruct (Reqb_spec b 0) as [|_]; [lra|].
    assert (L : (a - b) * ln (b / lam) >= 0).
    { assert (B0 : 0 < b / lam) by (apply Rdiv_lt_0_compat; lra).
      assert (E : b / lam * lam = b) by (field; lra).
      destruct Hs as [(S1 & S2)|(S1 & S2)].
      - assert (ln (b / lam) <= 0) by (pose proof (ln_le_sub1 _ B0); nra). nra.
      - assert (B1 : 1 <= b / lam) by nra. assert (0 <= ln (b / lam)) by (destruct (Req_dec (b / lam) 1) as [->|]; [rewrite ln_1; lra|]; left; rewrite <- ln_1; apply ln_increasing; lra). nra. }
    destruct (Reqb_spec a 0) as [A0|A0]; [subst a|].
    - nra.
    - replace (a / lam) with ((a / b) * (b / lam)) by (field; lra). rewrite ln_mult by (apply Rdiv_lt_0_compat; lra). nra. }
  destruct (Rlt_dec k lam) as [A|A].
  - destruct (Rlt_dec k' lam) as [B|B].
    + specialize (G k k' Hk ltac:(lra) ltac:(lra) ltac:(left; lra)). unfold deviance_residual. destruct (Rleb_spec lam k); [lra|]. destruct (Rleb_spec lam k'); [lra|].
      assert (sqrt (dev k' lam) < sqrt (dev k lam)); [|lra]. apply sqrt_lt_1_alt. split; [|exact G]. unfold dev. pose proof (gibbs k' lam ltac:(lra) Hl). lra.
    + apply (Rlt_le_trans _ 0); [now apply N|]. destruct (Req_dec k' lam) as [E|E]; [right; symmetry; now apply Z'|left; apply P'; lra].
  - destruct (Req_dec k lam) as [E|E].
    + rewrite (proj2 Z E). apply P'. lra.
    + specialize (G k' k ltac:(lra) ltac:(lra) ltac:(lra) ltac:(right; lra)). unfold deviance_residual. destruct (Rleb_spec lam k); [|lra]. destruct (Rleb_spec lam k'); [|lra].
      assert (sqrt (dev k lam) < sqrt (dev k' lam)); [|lra]. apply sqrt_lt_1_alt. split; [|exact G]. unfold dev. pose proof (gibbs k lam Hk Hl). lra.
Qed.
Print Assumptions C79_deviance_increasing.
(** joint residuals: the radicand is never negative, and the size is the root of the summed deviances *)
Theorem C79_joint : forall k1 k2 lam1 lam2 v mu sigma s, 0 <= k1 -> 0 <= k2 -> 0 < lam1 -> 0 < lam2 -> sigma <> 0 -> (s = 1 \/ s = -1) ->
  let r := deviance_residual_pp k1 k2 lam1 lam2 (Some s) in let r' := deviance_residual_pn k1 lam1 v mu sigma (Some s) in
  r * r = deviance_residual k1 lam1 ^ 2 + deviance_residual k2 lam2 ^ 2 /\ r' * r' = deviance_residual k1 lam1 ^ 2 + ((v - mu) / sigma) ^ 2 /\
  0 <= s * r /\ 0 <= s * r'.
Proof.
  intros k1 k2 lam1 lam2 v mu sg s H1 H2 L1 L2 Hs Ss. cbv zeta. unfold deviance_residual_pp, deviance_residual_pn. cbv zeta.
  assert (A : forall k lam, 0 <= k -> 0 < lam -> 0 <= dev k lam /\ deviance_residual k lam ^ 2 = dev k lam).
  { intros k lam Hk Hl. pose proof (gibbs k lam Hk Hl). assert (0 <= dev k lam) by (unfold dev; lra). split; [assumption|]. unfold deviance_residual.
    destruct (Rleb lam k); rewrite Rpow_mult_distr, pow2_sqrt by assumption; ring. }
  destruct (A k1 lam1 H1 L1) as (A1 & A2). destruct (A k2 lam2 H2 L2) as (B1 & B2). rewrite A2, B2. set (z := (v - mu) / sg).
  assert (S2 : s * s = 1) by (destruct Ss as [-> | ->]; lra).
  assert (K : forall x, 0 <= x -> s * Rabs (sqrt x) * (s * Rabs (sqrt x)) = x /\ 0 <= s * (s * Rabs (sqrt x))).
  { intros x Hx. rewrite Rabs_pos_eq by apply sqrt_pos. pose proof (sqrt_sqrt x Hx). pose proof (sqrt_pos x). split; nra. }
  destruct (K (dev k1 lam1 + dev k2 lam2) ltac:(lra)) as (K1 & K2). destruct (K (dev k1 lam1 + z * z) ltac:(nra)) as (K3 & K4). rewrite K1, K3. repeat split; try assumption; ring.
Qed.
Print Assumptions C79_joint.

(** ** probability integral transform *)
Lemma pmf_pos lam i : 0 < lam -> 0 < poisson_pmf lam i.
Proof.
  intros H. unfold poisson_pmf. apply Rdiv_lt_0_compat; [|apply INR_fact_lt_0]. apply Rmult_lt_0_compat; [apply exp_pos|now apply pow_lt].
Qed.
Lemma pmf_sum_lt lam n : 0 < lam -> sum_f_R0 (poisson_pmf lam) n < 1.
Proof.
  intros H. assert (E : Un_cv (fun n => sum_f_R0 (poisson_pmf lam) n) 1).
  { replace 1 with (exp (- lam) * exp lam) by (rewrite <- exp_plus; replace (- lam + lam) with 0 by ring; apply exp_0).
    assert (U : Un_cv (fun n => exp (- lam) * sum_f_R0 (fun i => / INR (fact i) * lam ^ i) n) (exp (- lam) * exp lam)).
    { apply CV_mult; [intros e He; exists O; intros; unfold R_dist; rewrite Rminus_diag_eq, Rabs_R0 by reflexivity; exact He|].
      unfold exp at 1. destruct (exist_exp lam) as (l & Hl). exact Hl. }
    intros e He. destruct (U e He) as (N & HN). exists N. intros m Hm. specialize (HN m Hm). rewrite scal_sum in HN.
    erewrite sum_eq; [exact HN|]. intros i Hi. unfold poisson_pmf. unfold Rdiv. ring. }
  pose proof (sum_incr _ (S n) 1 E (fun i => Rlt_le _ _ (pmf_pos lam i H))) as B. rewrite tech5 in B. pose proof (pmf_pos lam (S n) H). lra.
Qed.
(** the transform of Poisson data: the probability of at most that many events; the two values of a count differ by its
    probability; both inside the unit interval *)
Theorem C79_pit : forall (k : nat) lam, 0 < lam ->
  let '(lo, hi) := pit_poisson (Z.of_nat k) lam in
  hi = sum_f_R0 (fun i => exp (- lam) * lam ^ i / INR (fact i)) k /\ hi - lo = exp (- lam) * lam ^ k / INR (fact k) /\
  0 <= lo < hi /\ hi < 1 /\ (k = O -> lo = 0) /\ ((0 < k)%nat -> lo = snd (pit_poisson (Z.of_nat k - 1) lam)).
Proof.
  intros k lam H. unfold pit_poisson. cbn [snd].
  assert (Hi : poisson_cdf (Z.of_nat k) lam = sum_f_R0 (poisson_pmf lam) k).
  { unfold poisson_cdf. destruct (Z.ltb_spec (Z.of_nat k) 0); [lia|]. now rewrite Nat2Z.id. }
  rewrite Hi. destruct k as [|k].
  - assert (Lo : poisson_cdf (Z.of_nat 0 - 1) lam = 0) by reflexivity. rewrite Lo. pose proof (pmf_sum_lt lam 0 H). pose proof (pmf_pos lam 0 H). cbn [sum_f_R0] in *.
    split; [reflexivity|]. split; [unfold poisson_pmf; ring|]. repeat split; try lra; try lia.
  - assert (Lo : poisson_cdf (Z.of_nat (S k) - 1) lam = sum_f_R0 (poisson_pmf lam) k).
    { unfold poisson_cdf. destruct (Z.ltb_spec (Z.of_nat (S k) - 1) 0); [lia|]. f_equal. lia. }
    rewrite Lo. pose proof (pmf_sum_lt lam (S k) H). pose proof (pmf_pos lam (S k) H) as P.
    assert (P0 : 0 <= sum_f_R0 (poisson_pmf lam) k) by (apply cond_pos_sum; intros i; left; now apply pmf_pos).
    split; [reflexivity|]. rewrite tech5 in *. split; [change (poisson_pmf lam (S k)) with (exp (- lam) * lam ^ S k / INR (fact (S k))); ring|]. repeat split; try lra; lia.
Qed.
Print Assumptions C79_pit.
(** more counts never give a smaller randomised transform, whatever the random numbers *)
Theorem C79_pit_order : forall k k' lam u u', 0 < lam -> (0 <= k < k')%Z -> 0 <= u < 1 -> 0 <= u' < 1 ->
  let draw u p := uniform u (fst p) (snd p) in draw u (pit_poisson k lam) < snd (pit_poisson k lam) /\ snd (pit_poisson k lam) <= draw u' (pit_poisson k' lam).
Proof.
  intros k k' lam u u' H Hk Hu Hu'. cbv zeta.
  pose proof (C79_pit (Z.to_nat k) lam H) as A. pose proof (C79_pit (Z.to_nat k') lam H) as B. rewrite Z2Nat.id in A, B by lia.
  destruct (pit_poisson k lam) as [lo hi] eqn:E. destruct (pit_poisson k' lam) as [lo' hi'] eqn:E'. cbn [fst snd]. unfold uniform.
  destruct A as (_ & _ & A1 & A2 & _). destruct B as (_ & _ & B1 & B2 & _).
  assert (M : hi <= lo').
  { unfold pit_poisson in E, E'. injection E as <- <-. injection E' as <- <-. unfold poisson_cdf. destruct (Z.ltb_spec k 0); [lia|]. destruct (Z.ltb_spec (k' - 1) 0); [lia|].
    apply (tech9 (sum_f_R0 (poisson_pmf lam))); [intros i; rewrite tech5; pose proof (pmf_pos lam (S i) H); lra|lia]. }
  split; nra.
Qed.
Print Assumptions C79_pit_order.

(** ** simulated transforms *)
Lemma filter_count {A} (P : A -> Prop) (f : A -> bool) l : (forall x, f x = true <-> P x) -> count P l (length (filter f l)).
Proof.
  intros H. induction l as [|x l IH]; cbn [filter]; [constructor|]. destruct (f x) eqn:E; cbn [length].
  - constructor; [now apply H|exact IH].
  - constructor; [|exact IH]. intros X. apply H in X. congruence.
Qed.
Lemma sim_pit_count (sim : list R) obs n : count (fun s => s <= obs) sim n -> simulated_pit sim obs = INR n / INR (length sim).
Proof.
  intros H. unfold simulated_pit. f_equal. f_equal. eapply count_fun; [|exact H]. apply filter_count. intros x. apply Rleb_true.
Qed.
Lemma count_map {A B} (P : B -> Prop) (g : A -> B) l n : count (fun x => P (g x)) l n -> count P (map g l) n.
Proof. induction 1; cbn [map]; constructor; assumption. Qed.
Lemma count_le_length {A} (P : A -> Prop) l n : count P l n -> (n <= length l)%nat.
Proof. induction 1; cbn [length]; lia. Qed.
Lemma count_exists {A} (P : A -> Prop) (f : A -> bool) l : (forall x, f x = true <-> P x) -> exists n, count P l n.
Proof. intros H. eexists. now apply (filter_count P f). Qed.
(** the transform is the fraction of the simulated net counts that do not exceed the observed net counts, inside the unit
    interval, and the lower value is not above it *)
Theorem C79_simulated : forall k1 k2 ratio sims, (0 < length sims)%nat -> 0 <= ratio ->
  let '(lo, hi) := pit_poisson_poisson k1 k2 ratio sims in
  (forall n, count (fun s => IZR (fst s) - ratio * IZR (snd s) <= IZR k1 - ratio * IZR k2) sims n -> hi = INR n / INR (length sims)) /\
  0 <= lo <= hi /\ hi <= 1.
Proof.
  intros k1 k2 ratio sims Hl Hr. unfold pit_poisson_poisson. set (g := fun s : Z * Z => IZR (fst s) - ratio * IZR (snd s)). set (om := Rmax _ _). set (ob := _ - ratio * IZR k2).
  assert (M : om <= ob) by (unfold om, ob; apply Rmax_lub; nra).
  assert (L : 0 < INR (length sims)) by (apply lt_0_INR; lia).
  assert (S : forall o n, count (fun s => g s <= o) sims n -> simulated_pit (map g sims) o = INR n / INR (length sims)).
  { intros o n C. rewrite (sim_pit_count _ o n); [now rewrite map_length|]. now apply count_map. }
  destruct (count_exists (fun s => g s <= om) (fun s => Rleb (g s) om) sims) as (n1 & C1); [intros; apply Rleb_true|].
  destruct (count_exists (fun s => g s <= ob) (fun s => Rleb (g s) ob) sims) as (n2 & C2); [intros; apply Rleb_true|].
  split; [intros n C; now apply S|]. rewrite (S _ _ C1), (S _ _ C2).
  pose proof (count_le_length _ _ _ C2) as L2. assert (L1 : (n1 <= n2)%nat) by (eapply count_le; [|exact C1|exact C2]; cbv beta; intros; lra).
  apply le_INR in L1, L2. pose proof (pos_INR n1). assert (I : 0 < / INR (length sims)) by now apply Rinv_0_lt_compat. unfold Rdiv. repeat split.
  - apply Rmult_le_pos; lra.
  - apply Rmult_le_compat_r; lra.
  - apply (Rmult_le_reg_r (INR (length sims))); [assumption|]. rewrite Rmult_assoc, Rinv_l by lra. lra.
Qed.
Print Assumptions C79_simulated.
Theorem C79_simulated_normal : forall k v ratio sims n, count (fun s => IZR (fst s) - ratio * snd s <= IZR k - ratio * v) sims n ->
  pit_poisson_normal k v ratio sims = INR n / INR (length sims).
Proof.
  intros k v ratio sims n C. unfold pit_poisson_normal. rewrite (sim_pit_count _ _ n); [now rewrite map_length|]. now apply (count_map (fun s => s <= IZR k - ratio * v)).
Qed.
Print Assumptions C79_simulated_normal.
(** the lower value is the fraction strictly below the observation, as randomisation needs, when the background ratio is an
    integer or one over an integer *)
Definition strictly_below (k1 k2 : Z) (ratio : R) (s : Z * Z) : Prop := IZR (fst s) - ratio * IZR (snd s) < IZR k1 - ratio * IZR k2.
Theorem C79_minus_partial : forall k1 k2 ratio sims n m, (0 < m)%Z -> ratio = IZR m \/ ratio = / IZR m ->
  count (strictly_below k1 k2 ratio) sims n -> fst (pit_poisson_poisson k1 k2 ratio sims) = INR n / INR (length sims).
Proof.
  intros k1 k2 ratio sims n m Hm Hr C. unfold pit_poisson_poisson. cbn [fst]. rewrite (sim_pit_count _ _ n); [now rewrite map_length|].
  apply (count_map (fun s => s <= Rmax (IZR k1 - 1 - ratio * IZR k2) (IZR k1 - ratio * (IZR k2 + 1)))).
  assert (E : forall s : Z * Z, strictly_below k1 k2 ratio s <-> IZR (fst s) - ratio * IZR (snd s) <= Rmax (IZR k1 - 1 - ratio * IZR k2) (IZR k1 - ratio * (IZR k2 + 1))).
  { intros (a, b). unfold strictly_below. cbn [fst snd]. apply IZR_lt in Hm as Hm'. assert (Hm1 : 1 <= IZR m) by (apply (IZR_le 1); lia). destruct Hr as [-> | ->].
    - rewrite Rmax_left by nra. split; intros H; [|lra].
      assert (H' : IZR (a - m * b) < IZR (k1 - m * k2)) by (rewrite !minus_IZR, !mult_IZR; lra). apply lt_IZR in H'.
      assert (H2 : IZR (a - m * b) <= IZR (k1 - m * k2 - 1)) by (apply IZR_le; lia). rewrite !minus_IZR, !mult_IZR in H2. lra.
    - assert (I : 0 < / IZR m) by (apply Rinv_0_lt_compat; lra). assert (I1 : / IZR m <= 1) by (rewrite <- Rinv_1; apply Rinv_le_contravar; lra).
      rewrite Rmax_right by nra. assert (Q : / IZR m * IZR m = 1) by (apply Rinv_l; lra). split; intros H; [|nra].
      assert (H' : IZR (m * a - b) < IZR (m * k1 - k2)).
      { rewrite !minus_IZR, !mult_IZR. apply (Rmult_lt_compat_l (IZR m)) in H; [|lra]. replace (IZR m * (IZR a - / IZR m * IZR b)) with (IZR m * IZR a - IZR b) in H by (field; lra).
        replace (IZR m * (IZR k1 - / IZR m * IZR k2)) with (IZR m * IZR k1 - IZR k2) in H by (field; lra). exact H. }
      apply lt_IZR in H'. assert (H2 : IZR (m * a - b) <= IZR (m * k1 - k2 - 1)) by (apply IZR_le; lia). rewrite !minus_IZR, !mult_IZR in H2.
      apply (Rmult_le_reg_l (IZR m)); [lra|]. replace (IZR m * (IZR a - / IZR m * IZR b)) with (IZR m * IZR a - IZR b) by (field; lra).
      replace (IZR m * (IZR k1 - / IZR m * (IZR k2 + 1))) with (IZR m * IZR k1 - IZR k2 - 1) by (field; lra). lra. }
  clear - C E. induction C as [|x l n Hx C IH|x l n Hx C IH]; constructor; try assumption; rewrite <- E; assumption.
Qed.
Print Assumptions C79_minus_partial.
(** refuted in general: with ratio 0.3 the quantity taken as the next smaller one is not; here every simulation is strictly
    below the observation, but the lower value is 0 *)
Theorem C79_minus_refuted : exists k1 k2 ratio sims, 0 < ratio < 1 /\ (0 < length sims)%nat /\
  count (strictly_below k1 k2 ratio) sims (length sims) /\ fst (pit_poisson_poisson k1 k2 ratio sims) = 0.
Proof.
  exists 5%Z, 10%Z, (3/10), [(6, 14)]%Z. split; [lra|]. split; [cbn; lia|]. split.
  - constructor; [|constructor]. unfold strictly_below. cbn [fst snd]. lra.
  - unfold pit_poisson_poisson, simulated_pit. cbn [fst map filter snd]. destruct (Rleb_spec (6 - 3 / 10 * 14) (Rmax (5 - 1 - 3 / 10 * 10) (5 - 3 / 10 * (10 + 1)))) as [X|X].
    + exfalso. assert (Rmax (5 - 1 - 3 / 10 * 10) (5 - 3 / 10 * (10 + 1)) <= 1.7) by (apply Rmax_lub; lra). lra.
    + cbn. field.
Qed.
Print Assumptions C79_minus_refuted.

(** ** quantile residuals; [q] is the quantile function of the standard normal distribution *)
Definition increasing01 (q : R -> R) : Prop := forall x y, 0 < x -> x < y -> y < 1 -> q x < q y.
(** Poisson data: always finite; without randomisation the quantile of the probability of at most the observed counts, and
    strictly increasing with the counts *)
Theorem C79_quantile_finite : forall q random k lam u u', 0 < lam -> (0 <= k)%Z -> 0 <= u < 1 -> 0 <= u' < 1 ->
  exists r, quantile_cstat q random k lam u u' = Some r /\ (random = false -> r = q (poisson_cdf k lam)).
Proof.
  intros q random k lam u u' H Hk Hu Hu'. pose proof (C79_pit (Z.to_nat k) lam H) as A. rewrite Z2Nat.id in A by lia.
  unfold quantile_cstat. destruct (pit_poisson k lam) as [lo hi] eqn:E. cbn [fst snd]. destruct A as (_ & _ & A1 & A2 & _).
  assert (Hhi : hi = poisson_cdf k lam) by (unfold pit_poisson in E; congruence). assert (Hlo : lo = poisson_cdf (k - 1) lam) by (unfold pit_poisson in E; congruence).
  assert (PP : forall p, 0 < p < 1 -> ppf q p = Some (q p)).
  { intros p (P1 & P2). unfold ppf. destruct (Rltb_spec 0 p); [|lra]. destruct (Rltb_spec p 1); [|lra]. reflexivity. }
  destruct random; cbn [negb].
  - set (p := uniform u lo hi). assert (Hp : 0 <= p < 1) by (unfold p, uniform; nra).
    destruct (Reqb_spec p 0) as [P0|P0]; [|destruct (Reqb_spec p 1); [lra|]; cbn [orb]; exists (q p); split; [apply PP; lra|discriminate]].
    cbn [orb]. unfold quantile_poisson. cbv zeta. rewrite <- Hhi, <- Hlo.
    destruct (Rltb (IZR k) lam).
    + set (c := uniform u' lo hi). assert (0 <= c < 1) by (unfold c, uniform; nra). destruct (Reqb_spec c 0); [eexists; split; [reflexivity|discriminate]|].
      exists (q c). split; [apply PP; lra|discriminate].
    + unfold poisson_sf. rewrite <- Hhi, <- Hlo. set (c := uniform u' (1 - hi) (1 - lo)). assert (0 < c <= 1 /\ (c = 1 -> False)).
      { unfold c, uniform. split; [nra|]. intros F. nra. }
      destruct (Reqb_spec c 0); [lra|]. exists (q (1 - c)). split; [apply PP; lra|discriminate].
  - destruct (Reqb_spec hi 0); [lra|]. destruct (Reqb_spec hi 1); [lra|]. cbn [orb]. exists (q hi). split; [apply PP; lra|]. intros _. now rewrite Hhi.
Qed.
Print Assumptions C79_quantile_finite.
Theorem C79_quantile_increasing : forall q k k' lam u u', increasing01 q -> 0 < lam -> (0 <= k < k')%Z -> 0 <= u < 1 -> 0 <= u' < 1 ->
  exists r r', quantile_cstat q false k lam u u' = Some r /\ quantile_cstat q false k' lam u u' = Some r' /\ r < r'.
Proof.
  intros q k k' lam u u' Hq H Hk Hu Hu'. destruct (C79_quantile_finite q false k lam u u' H ltac:(lia) Hu Hu') as (r & E & V).
  destruct (C79_quantile_finite q false k' lam u u' H ltac:(lia) Hu Hu') as (r' & E' & V'). exists r, r'. split; [exact E|]. split; [exact E'|].
  rewrite V, V' by reflexivity. pose proof (C79_pit (Z.to_nat k) lam H) as A. pose proof (C79_pit (Z.to_nat k') lam H) as B. rewrite Z2Nat.id in A, B by lia.
  destruct (C79_pit_order k k' lam 0 0 H Hk ltac:(lra) ltac:(lra)) as (_ & O). unfold pit_poisson, uniform in *. cbn [fst snd] in *.
  destruct A as (_ & _ & A1 & A2 & _). destruct B as (_ & _ & B1 & B2 & _). apply Hq; lra.
Qed.
Print Assumptions C79_quantile_increasing.
(** keep_sign: the residual has the sign of data minus model *)
Theorem C79_keep_sign : forall q k lam u random r, quantile_poisson q k lam u true random = Some r ->
  (lam <= IZR k -> 0 <= r) /\ (IZR k < lam -> r <= 0) /\ exists r0, quantile_poisson q k lam u false random = Some r0 /\ Rabs r = Rabs r0.
Proof.
  intros q k lam u random r H. unfold quantile_poisson in *. cbv zeta in *. match goal with H : option_map _ ?o = _ |- _ => destruct o as [x|] eqn:E; [|discriminate] end.
  cbn [option_map] in H. injection H as <-. pose proof (Rabs_pos x). repeat split.
  - intros L. destruct (Rleb_spec lam (IZR k)); lra.
  - intros L. destruct (Rleb_spec lam (IZR k)); lra.
  - exists x. split; [reflexivity|]. destruct (Rleb lam (IZR k)); rewrite Rabs_mult, Rabs_Rabsolu; [rewrite Rabs_R1; ring|]. rewrite Rabs_left by lra. ring.
Qed.
Print Assumptions C79_keep_sign.
(** data with a simulated transform: the residual is finite; it is flagged as upper limit exactly when no simulation was as
    low as the observation, as lower limit exactly when all were, and then shows the quantile of one simulation *)
Theorem C79_limits : forall q (random : bool) u nsim lo hi, (2 <= nsim)%nat -> 0 <= lo <= hi -> hi <= 1 -> 0 <= u < 1 ->
  let pit := if random then lo + u * (hi - lo) else hi in
  exists r, quantile_sim q random u nsim (lo, hi) = (Some r, Reqb pit 1, Reqb pit 0) /\
    (pit = 0 -> r = q (1 / INR nsim)) /\ (pit = 1 -> r = q (1 - 1 / INR nsim)) /\ (0 < pit < 1 -> r = q pit).
Proof.
  intros q random u nsim lo hi Hn Hlo Hhi Hu. cbv zeta. unfold quantile_sim, uniform. cbn [fst snd]. set (pit := if random then _ else _).
  assert (P : 0 <= pit <= 1) by (unfold pit; destruct random; nra).
  assert (N : 2 <= INR nsim) by (apply (le_INR 2); exact Hn).
  assert (I : 0 < 1 / INR nsim < 1). { split; [apply Rdiv_lt_0_compat; lra|]. apply (Rmult_lt_reg_r (INR nsim)); [lra|]. replace (1 / INR nsim * INR nsim) with 1 by (field; lra). lra. }
  assert (PP : forall p, 0 < p < 1 -> ppf q p = Some (q p)).
  { intros p (P1 & P2). unfold ppf. destruct (Rltb_spec 0 p); [|lra]. destruct (Rltb_spec p 1); [|lra]. reflexivity. }
  destruct (Reqb_spec pit 0) as [E|E]; destruct (Reqb_spec pit 1) as [E1|E1]; try lra.
  - rewrite PP by exact I. eexists. split; [reflexivity|]. repeat split; intros; lra.
  - rewrite PP by lra. eexists. split; [reflexivity|]. repeat split; intros; lra.
  - rewrite PP by lra. eexists. split; [reflexivity|]. repeat split; intros; lra.
Qed.
Print Assumptions C79_limits.
(** refuted for the functions of elisa.plot.residuals: they give the opposite flags *)
Theorem C79_limits_other_refuted : forall q random u nsim pits r lower upper,
  quantile_sim q random u nsim pits = (r, lower, upper) -> quantile_sim_other q random u nsim pits = (r, upper, lower).
Proof.
  intros q random u nsim pits r lower upper. unfold quantile_sim, quantile_sim_other. set (pit := if random then _ else _). destruct (Reqb pit 0); [congruence|]. destruct (Reqb pit 1); congruence.
Qed.
Print Assumptions C79_limits_other_refuted.
(** refuted: combining residuals with one degree of freedom per channel fails as soon as there are two channels *)
Theorem C79_combine_refuted : forall r1 r2 dof, (2 <= length dof)%nat -> combine_array r1 r2 dof = Err ValueError.
Proof. intros r1 r2 dof H. unfold combine_array. destruct (negb _); [reflexivity|]. destruct (Nat.eqb_spec (length dof) 1); [lia|reflexivity]. Qed.
Print Assumptions C79_combine_refuted.
Example C79_ex : deviance_residual 4 4 = 0 /\ 0 < deviance_residual 9 4 /\ deviance_residual 0 4 < 0 /\ fst (pit_poisson 0 4) = 0 /\
  snd (pit_poisson_poisson 3 2 1 [(3, 2); (9, 1); (0, 0); (1, 5)]%Z) = 3/4.
Proof.
  split; [apply (C79_deviance 4 4); lra|]. split; [apply (C79_deviance 9 4); lra|]. split; [apply (C79_deviance 0 4); lra|]. split; [reflexivity|].
  unfold pit_poisson_poisson, simulated_pit. cbn [snd map filter fst].
  destruct (Rleb_spec (3 - 1 * 2) (3 - 1 * 2)); [|lra]. destruct (Rleb_spec (9 - 1 * 1) (3 - 1 * 2)); [lra|]. destruct (Rleb_spec (0 - 1 * 0) (3 - 1 * 2)); [|lra].
  destruct (Rleb_spec (1 - 1 * 5) (3 - 1 * 2)); [|lra]. cbn [length INR]. field.
Qed.
