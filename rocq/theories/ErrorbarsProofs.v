(** The W statistic of a bin as a function of its source counts. *)
From Verif Require Import RBase Gibbs Likelihood LikelihoodProofs Errorbars.
From Coq Require Import Psatz Ranalysis.
Open Scope R_scope.

(** ** specification: minus twice the log-likelihood of an on/off measurement
    with [s] source counts and [b] off counts expected, up to constants; the
    pair is admissible when neither density vanishes *)
Definition admissible (n m a s b : R) : Prop :=
  0 <= s /\ 0 <= b /\ supported n (s + a * b) /\ supported m b.
Definition deviance (n m a s b : R) : R :=
  -2 * ll_poisson n (s + a * b) + -2 * ll_poisson m b.

Lemma wstat_deviance n m a s : wstat s n m a = deviance n m a s (wstat_background s n m a).
Proof. unfold wstat, deviance, ll_poisson. ring. Qed.

(** ** no source counts *)
Lemma background_zero n m a : 0 <= n -> 0 <= m -> 0 < a -> wstat_background 0 n m a = (n + m) / (1 + a).
Proof.
  intros Hn Hm Ha. unfold wstat_background. destruct (Reqb_spec n 0) as [->|En].
  { f_equal; ring. }
  destruct (Reqb_spec m 0) as [->|Em].
  - destruct (Rleb_spec 0 (a / (a + 1) * n)) as [|H].
    + field. lra.
    + exfalso. apply H. apply Rmult_le_pos; [|lra]. apply Rmult_le_pos; [lra|]. left. apply Rinv_0_lt_compat. lra.
  - replace (a * (n + m) - (a + 1) * 0) with (a * (n + m)) by ring.
    replace (a * (n + m) * (a * (n + m)) + 4 * a * (a + 1) * m * 0) with (a * (n + m) * (a * (n + m))) by ring.
    rewrite sqrt_square by nra. field. lra.
Qed.
Lemma supported_pos n y : 0 < y -> supported n y.
Proof. now left. Qed.

Lemma tangent2 n m a s b s' b' : 0 <= n -> 0 <= m -> 0 < s + a * b -> 0 < b -> admissible n m a s' b' ->
  deviance n m a s b - 2 * ((n / (s + a * b) - 1) * (s' - s) + ((n / (s + a * b) - 1) * a + (m / b - 1)) * (b' - b)) <= deviance n m a s' b'.
Proof.
  intros Hn Hm Hy Hb (Hs' & Hb' & S1 & S2). unfold deviance.
  pose proof (ll_poisson_tangent n (s + a * b) (s' + a * b') Hn Hy S1) as T1.
  pose proof (ll_poisson_tangent m b b' Hm Hb S2) as T2.
  replace (s' + a * b' - (s + a * b)) with ((s' - s) + a * (b' - b)) in T1 by ring.
  nra.
Qed.

Lemma background_admissible n m a s : 0 <= s -> 0 <= n -> 0 <= m -> 0 < a -> admissible n m a s (wstat_background s n m a).
Proof.
  intros Hs Hn Hm Ha. destruct (Req_dec s 0) as [->|Ns].
  - rewrite background_zero by assumption. destruct (Req_dec (n + m) 0) as [E|E].
    + assert (n = 0) by lra. assert (m = 0) by lra. subst. replace ((0 + 0) / (1 + a)) with 0 by (field; lra).
      unfold admissible, supported. repeat split; try lra; right; split; lra.
    + assert (Hp : 0 < (n + m) / (1 + a)) by (apply Rdiv_lt_0_compat; lra).
      unfold admissible. repeat split; try lra; apply supported_pos; nra.
  - destruct (wstat_nonneg s n m a) as (B0 & B1); [lra|lra|lra|lra|].
    unfold admissible. repeat split; try lra; [apply supported_pos; nra|].
    destruct (Req_dec m 0) as [->|Nm]; [|left; apply B1; lra].
    destruct (Req_dec (wstat_background s n 0 a) 0); [right; now split|left; lra].
Qed.

Lemma wstat_profile n m a s b : 0 <= n -> 0 <= m -> 0 < a -> admissible n m a s b -> wstat s n m a <= deviance n m a s b.
Proof.
  intros Hn Hm Ha A. destruct A as (Hs & Hb & S1 & S2). rewrite wstat_deviance. destruct (Req_dec s 0) as [->|Ns].
  - rewrite background_zero by assumption. destruct (Req_dec (n + m) 0) as [E|E].
    + assert (n = 0) by lra. assert (m = 0) by lra. subst. replace ((0 + 0) / (1 + a)) with 0 by (field; lra).
      unfold deviance, ll_poisson, xlogy. destruct (Reqb_spec 0 0); [|lra]. nra.
    + assert (Hp : 0 < (n + m) / (1 + a)) by (apply Rdiv_lt_0_compat; lra). set (b0 := (n + m) / (1 + a)) in *.
      assert (P : 0 < 0 + a * b0) by nra.
      assert (T := tangent2 n m a 0 b0 0 b Hn Hm P Hp (conj Hs (conj Hb (conj S1 S2)))).
      assert (K : (n / (0 + a * b0) - 1) * a + (m / b0 - 1) = 0).
      { replace ((n / (0 + a * b0) - 1) * a + (m / b0 - 1)) with ((n + m) / b0 - (1 + a)) by (field; split; lra).
        unfold b0. field. split; lra. }
      rewrite K in T. lra.
  - assert (Hs' : 0 < s) by lra. pose proof (wstat_optimal s n m a b Hs' Hn Hm Ha S2) as O. cbv zeta in O. unfold deviance. lra.
Qed.

(** ** the best source counts *)
Definition best (n m a : R) : R := Rmax (n - a * m) 0.
Lemma best_nonneg n m a : 0 <= best n m a. Proof. apply Rmax_r. Qed.
Lemma best_minimal n m a s b : 0 <= n -> 0 <= m -> 0 < a -> admissible n m a s b ->
  wstat (best n m a) n m a <= deviance n m a s b.
Proof.
  intros Hn Hm Ha A. unfold best. destruct (Rle_lt_dec (n - a * m) 0) as [L|L].
  - rewrite Rmax_right by lra. rewrite wstat_deviance, background_zero by assumption. destruct (Req_dec (n + m) 0) as [E|E].
    + destruct A as (Hs & Hb & _). assert (n = 0) by lra. assert (m = 0) by lra. subst. replace ((0 + 0) / (1 + a)) with 0 by (field; lra).
      unfold deviance, ll_poisson, xlogy. destruct (Reqb_spec 0 0); [|lra]. nra.
    + assert (Hp : 0 < (n + m) / (1 + a)) by (apply Rdiv_lt_0_compat; lra). set (b0 := (n + m) / (1 + a)) in *.
      assert (P : 0 < 0 + a * b0) by nra.
      assert (T := tangent2 n m a 0 b0 s b Hn Hm P Hp A).
      assert (K : (n / (0 + a * b0) - 1) * a + (m / b0 - 1) = 0).
      { replace ((n / (0 + a * b0) - 1) * a + (m / b0 - 1)) with ((n + m) / b0 - (1 + a)) by (field; split; lra).
        unfold b0. field. split; lra. }
      rewrite K in T. assert (Q : (n / (0 + a * b0) - 1) * (s - 0) <= 0); [|lra].
      destruct A as (Hs & _). assert (n / (0 + a * b0) <= 1); [|nra].
      apply (Rmult_le_reg_r (0 + a * b0)); [lra|]. replace (n / (0 + a * b0) * (0 + a * b0)) with n by (field; split; lra).
      rewrite Rmult_1_l, Rplus_0_l. unfold b0. apply (Rmult_le_reg_r (1 + a)); [lra|].
      replace (a * ((n + m) / (1 + a)) * (1 + a)) with (a * (n + m)) by (field; lra). nra.
  - rewrite Rmax_left by lra. assert (Hn0 : 0 < n) by nra.
    apply Rle_trans with (deviance n m a (n - a * m) m).
    + apply wstat_profile; try assumption. unfold admissible. repeat split; try lra.
      * left. lra.
      * destruct (Req_dec m 0); [right|left]; lra.
    + destruct A as (Hs & Hb & S1 & S2). unfold deviance. replace (n - a * m + a * m) with n by ring.
      pose proof (ll_poisson_tangent n n (s + a * b) Hn Hn0 S1) as T1. replace (n / n) with 1 in T1 by (field; lra).
      assert (T2 : ll_poisson m b <= ll_poisson m m).
      { destruct (Req_dec m 0) as [->|Nm].
        - unfold ll_poisson, xlogy. destruct (Reqb_spec 0 0); lra.
        - assert (Hm0 : 0 < m) by lra. pose proof (ll_poisson_tangent m m b Hm Hm0 S2) as T2. replace (m / m) with 1 in T2 by (field; lra). lra. }
      lra.
Qed.
Lemma best_wstat n m a s : 0 <= n -> 0 <= m -> 0 < a -> 0 <= s -> wstat (best n m a) n m a <= wstat s n m a.
Proof. intros. rewrite (wstat_deviance n m a s). apply best_minimal; try assumption. now apply background_admissible. Qed.

(** ** convexity *)
Lemma supported_mix n l y y' : 0 < l < 1 -> supported n y -> supported n y' -> supported n (l * y + (1 - l) * y').
Proof. intros Hl [H|[-> E]] [H'|[-> E']]; [left; nra|left; nra|left; nra|right; split; [ring|exact E]]. Qed.
Lemma supported_nonneg n y : supported n y -> 0 <= y.
Proof. intros [|[-> _]]; lra. Qed.
Lemma ll_poisson_concave n l y y' : 0 <= n -> 0 < l < 1 -> supported n y -> supported n y' ->
  l * ll_poisson n y + (1 - l) * ll_poisson n y' <= ll_poisson n (l * y + (1 - l) * y').
Proof.
  intros Hn Hl S1 S2. destruct (supported_mix n l y y' Hl S1 S2) as [P|[Z E]].
  - pose proof (ll_poisson_tangent n _ y Hn P S1) as T1. pose proof (ll_poisson_tangent n _ y' Hn P S2) as T2.
    set (z := l * y + (1 - l) * y') in *. set (g := n / z - 1) in *.
    assert (l * (ll_poisson n y - ll_poisson n z) <= l * (g * (y - z))) by (apply Rmult_le_compat_l; lra).
    assert ((1 - l) * (ll_poisson n y' - ll_poisson n z) <= (1 - l) * (g * (y' - z))) by (apply Rmult_le_compat_l; lra).
    assert (l * (g * (y - z)) + (1 - l) * (g * (y' - z)) = 0) by (unfold z; ring). lra.
  - rewrite E. unfold ll_poisson, xlogy. destruct (Reqb_spec 0 0); [|lra]. lra.
Qed.
Lemma wstat_convex n m a l s s' : 0 <= n -> 0 <= m -> 0 < a -> 0 < l < 1 -> 0 <= s -> 0 <= s' ->
  wstat (l * s + (1 - l) * s') n m a <= l * wstat s n m a + (1 - l) * wstat s' n m a.
Proof.
  intros Hn Hm Ha Hl Hs Hs'.
  pose proof (background_admissible n m a s Hs Hn Hm Ha) as (_ & B & S1 & S2).
  pose proof (background_admissible n m a s' Hs' Hn Hm Ha) as (_ & B' & S1' & S2').
  rewrite (wstat_deviance n m a s), (wstat_deviance n m a s').
  set (b := wstat_background s n m a) in *. set (b' := wstat_background s' n m a) in *.
  assert (E : l * s + (1 - l) * s' + a * (l * b + (1 - l) * b') = l * (s + a * b) + (1 - l) * (s' + a * b')) by ring.
  eapply Rle_trans; [apply (wstat_profile n m a _ (l * b + (1 - l) * b')); try assumption|].
  - unfold admissible. rewrite E. repeat split; [nra|nra|now apply supported_mix|now apply supported_mix].
  - unfold deviance. rewrite E. pose proof (ll_poisson_concave n l _ _ Hn Hl S1 S1'). pose proof (ll_poisson_concave m l _ _ Hm Hl S2 S2'). lra.
Qed.
Lemma wstat_between n m a s1 s2 s3 : 0 <= n -> 0 <= m -> 0 < a -> 0 <= s1 -> s1 < s2 -> s2 < s3 ->
  exists l, 0 < l < 1 /\ wstat s2 n m a <= l * wstat s1 n m a + (1 - l) * wstat s3 n m a.
Proof.
  intros Hn Hm Ha H0 H1 H2. exists ((s3 - s2) / (s3 - s1)).
  assert (Hl : 0 < (s3 - s2) / (s3 - s1) < 1).
  { split; [apply Rdiv_lt_0_compat; lra|]. apply (Rmult_lt_reg_r (s3 - s1)); [lra|].
    replace ((s3 - s2) / (s3 - s1) * (s3 - s1)) with (s3 - s2) by (field; lra). lra. }
  split; [exact Hl|].
  replace s2 with ((s3 - s2) / (s3 - s1) * s1 + (1 - (s3 - s2) / (s3 - s1)) * s3) at 1 by (field; lra).
  apply wstat_convex; try assumption; lra.
Qed.
Lemma wstat_up n m a s s' : 0 <= n -> 0 <= m -> 0 < a -> best n m a <= s -> s < s' -> wstat (best n m a) n m a < wstat s n m a ->
  wstat s n m a < wstat s' n m a.
Proof.
  intros Hn Hm Ha [H|H] H1 L; [|rewrite H in L; lra].
  destruct (wstat_between n m a (best n m a) s s' Hn Hm Ha (best_nonneg _ _ _) H H1) as (l & Hl & B).
  assert (wstat (best n m a) n m a <= wstat s' n m a) by (apply best_wstat; try assumption; pose proof (best_nonneg n m a); lra). nra.
Qed.
Lemma wstat_down n m a s s' : 0 <= n -> 0 <= m -> 0 < a -> s <= best n m a -> 0 <= s' -> s' < s -> wstat (best n m a) n m a < wstat s n m a ->
  wstat s n m a < wstat s' n m a.
Proof.
  intros Hn Hm Ha [H|H] H0 H1 L; [|rewrite H in L; lra].
  destruct (wstat_between n m a s' s (best n m a) Hn Hm Ha H0 H1 H) as (l & Hl & B).
  assert (wstat (best n m a) n m a <= wstat s' n m a) by (apply best_wstat; assumption). nra.
Qed.

(** ** continuity: the statistic is Lipschitz *)
Lemma ll_poisson_mono n y y' : 0 <= n -> supported n y -> y <= y' -> ll_poisson n y - (y' - y) <= ll_poisson n y'.
Proof.
  intros Hn S L. unfold ll_poisson, xlogy. destruct (Reqb_spec n 0); [lra|]. destruct S as [P|[_ ?]]; [|lra].
  assert (ln y <= ln y') by (destruct L as [L| ->]; [left; now apply ln_increasing|lra]). nra.
Qed.
Lemma supported_up n y y' : supported n y -> y <= y' -> supported n y'.
Proof. intros [H|[-> E]] L; [left; lra|]. destruct L as [L| <-]; [now left|right; now split]. Qed.
Lemma wstat_step_up n m a s s' : 0 <= n -> 0 <= m -> 0 < a -> 0 <= s -> s <= s' -> wstat s' n m a <= wstat s n m a + 2 * (s' - s).
Proof.
  intros Hn Hm Ha Hs L. pose proof (background_admissible n m a s Hs Hn Hm Ha) as (_ & B & S1 & S2).
  rewrite (wstat_deviance n m a s). set (b := wstat_background s n m a) in *.
  eapply Rle_trans; [apply (wstat_profile n m a s' b); try assumption|].
  - unfold admissible. repeat split; [lra|exact B|eapply supported_up; [exact S1|lra]|exact S2].
  - unfold deviance. assert (L' : s + a * b <= s' + a * b) by lra. pose proof (ll_poisson_mono n _ _ Hn S1 L'). lra.
Qed.
Lemma wstat_step_down n m a s s' : 0 <= n -> 0 <= m -> 0 < a -> 0 <= s -> s <= s' -> wstat s n m a <= wstat s' n m a + 2 / a * (s' - s).
Proof.
  intros Hn Hm Ha Hs L. assert (Hs' : 0 <= s') by lra. pose proof (background_admissible n m a s' Hs' Hn Hm Ha) as (_ & B & S1 & S2).
  rewrite (wstat_deviance n m a s'). set (b := wstat_background s' n m a) in *.
  assert (Hd : 0 <= (s' - s) / a) by (apply Rmult_le_pos; [lra|left; now apply Rinv_0_lt_compat]).
  assert (E : s + a * (b + (s' - s) / a) = s' + a * b) by (field; lra).
  eapply Rle_trans; [apply (wstat_profile n m a s (b + (s' - s) / a)); try assumption|].
  - unfold admissible. rewrite E. repeat split; [lra|lra|exact S1|eapply supported_up; [exact S2|lra]].
  - unfold deviance. rewrite E. assert (L' : b <= b + (s' - s) / a) by lra. pose proof (ll_poisson_mono m _ _ Hm S2 L').
    replace (2 / a * (s' - s)) with (2 * ((s' - s) / a)) by (field; lra). lra.
Qed.
Lemma wstat_lipschitz n m a s s' : 0 <= n -> 0 <= m -> 0 < a -> 0 <= s -> 0 <= s' -> Rabs (wstat s n m a - wstat s' n m a) <= (2 + 2 / a) * Rabs (s - s').
Proof.
  intros Hn Hm Ha Hs Hs'. assert (Hq : 0 < 2 / a) by (apply Rdiv_lt_0_compat; lra).
  assert (W : forall x y, 0 <= x -> x <= y -> Rabs (wstat x n m a - wstat y n m a) <= (2 + 2 / a) * (y - x)).
  { intros x y Hx Hxy. pose proof (wstat_step_up n m a x y Hn Hm Ha Hx Hxy). pose proof (wstat_step_down n m a x y Hn Hm Ha Hx Hxy).
    apply Rabs_le. split; nra. }
  destruct (Rle_dec s s') as [L|L].
  - rewrite (Rabs_left1 (s - s')) by lra. eapply Rle_trans; [apply W; assumption|]. lra.
  - rewrite (Rabs_right (s - s')) by lra. rewrite Rabs_minus_sym. apply W; lra.
Qed.
Definition clamped (n m a c x : R) : R := wstat (Rmax x 0) n m a - c.
Lemma clamped_continuous n m a c : 0 <= n -> 0 <= m -> 0 < a -> continuity (clamped n m a c).
Proof.
  intros Hn Hm Ha x. unfold continuity_pt, continue_in, limit1_in, limit_in. intros eps He.
  assert (Hq : 0 < 2 / a) by (apply Rdiv_lt_0_compat; lra). exists (eps / (2 + 2 / a)).
  split; [apply Rdiv_lt_0_compat; lra|]. intros y (_ & Hy). cbn in *. unfold R_dist in *. unfold clamped.
  replace (wstat (Rmax y 0) n m a - c - (wstat (Rmax x 0) n m a - c)) with (wstat (Rmax y 0) n m a - wstat (Rmax x 0) n m a) by ring.
  eapply Rle_lt_trans; [apply wstat_lipschitz; try assumption; apply Rmax_r|].
  assert (Rabs (Rmax y 0 - Rmax x 0) <= Rabs (y - x)).
  { unfold Rmax. destruct (Rle_dec y 0), (Rle_dec x 0); unfold Rabs; repeat destruct Rcase_abs; lra. }
  apply (Rmult_lt_compat_l (2 + 2 / a)) in Hy; [|lra]. replace ((2 + 2 / a) * (eps / (2 + 2 / a))) with eps in Hy by (field; split; [lra|nra]).
  nra.
Qed.
Lemma wstat_ivt n m a x y c : 0 <= n -> 0 <= m -> 0 < a -> 0 <= x -> x <= y -> wstat x n m a <= c <= wstat y n m a \/ wstat y n m a <= c <= wstat x n m a ->
  exists z, x <= z <= y /\ wstat z n m a = c.
Proof.
  intros Hn Hm Ha Hx Hxy H. destruct (IVT_cor (clamped n m a c) x y (clamped_continuous n m a c Hn Hm Ha) Hxy) as (z & Hz & E).
  - unfold clamped. rewrite !Rmax_left by lra. destruct H as [(A & B)|(A & B)]; nra.
  - exists z. split; [exact Hz|]. unfold clamped in E. rewrite Rmax_left in E by lra. lra.
Qed.
Lemma wstat_unbounded n m a c : 0 <= n -> 0 <= m -> 0 < a -> exists s, best n m a < s /\ c < wstat s n m a.
Proof.
  intros Hn Hm Ha.
  assert (exists q, forall b, supported m b -> -2 * ll_poisson m b >= q) as (q & Hq).
  { exists (-2 * ll_poisson m m). intros b S. destruct (Req_dec m 0) as [->|Nm].
    - pose proof (supported_nonneg _ _ S). unfold ll_poisson, xlogy. destruct (Reqb_spec 0 0); lra.
    - assert (Hm0 : 0 < m) by lra. pose proof (ll_poisson_tangent m m b Hm Hm0 S) as T. replace (m / m) with 1 in T by (field; lra). lra. }
  set (y0 := 2 * n + 1). set (k := -2 * ll_poisson n y0).
  pose proof (Rmax_l (best n m a) (Rmax 0 (c - k - q + y0))) as L1. pose proof (Rmax_r (best n m a) (Rmax 0 (c - k - q + y0))) as L2.
  pose proof (Rmax_l 0 (c - k - q + y0)) as L3. pose proof (Rmax_r 0 (c - k - q + y0)) as L4.
  set (s := Rmax (best n m a) (Rmax 0 (c - k - q + y0)) + 1 + y0).
  assert (Hy0 : 0 < y0) by (unfold y0; lra). assert (Hs : 0 <= s) by (unfold s; lra).
  exists s. split; [unfold s; lra|]. pose proof (background_admissible n m a s Hs Hn Hm Ha) as (_ & B & S1 & S2).
  rewrite wstat_deviance. set (b := wstat_background s n m a) in *. unfold deviance. specialize (Hq b S2).
  pose proof (ll_poisson_tangent n y0 (s + a * b) Hn Hy0 S1) as T.
  assert (N : n / y0 <= / 2).
  { apply (Rmult_le_reg_r y0); [lra|]. replace (n / y0 * y0) with n by (field; lra). unfold y0. lra. }
  assert (0 <= a * b) by nra. assert (G : (n / y0 - 1) * (s + a * b - y0) <= - / 2 * (s + a * b - y0)) by (apply Rmult_le_compat_r; unfold s in *; lra).
  unfold k in *. unfold s in *. lra.
Qed.
