(** C109: error bars of binned counts from the W statistic. *)
From Verif Require Import RBase Gibbs Likelihood LikelihoodProofs Base HelperData HelperDataProofs Errorbars ErrorbarsProofs.
From Coq Require Import List Lia Psatz.
Import ListNotations.
Open Scope list_scope.
Open Scope R_scope.

(** ** specification.  A measurement of [n] on and [m] off counts with on/off
    ratio [a] is described by [s] source counts and [b] off counts;
    [ErrorbarsProofs.deviance] is minus twice its log-likelihood.  Source counts
    [s] are within [d] when some background brings the deviance within [d] of
    the smallest one of all pairs. *)
Definition within (n m a d s : R) : Prop :=
  exists b, admissible n m a s b /\
    forall s' b', admissible n m a s' b' -> deviance n m a s b <= deviance n m a s' b' + d.
(** every answer of the root finder is a root *)
Definition exact (root_find : (R -> R) -> R -> res R) : Prop :=
  forall f g t, root_find f g = Ok t -> f t = 0.

Lemma within_wstat n m a d s : 0 <= n -> 0 <= m -> 0 < a -> 0 <= s ->
  (within n m a d s <-> wstat s n m a <= wstat (best n m a) n m a + d).
Proof.
  intros Hn Hm Ha Hs. split.
  - intros (b & A & H). pose proof (wstat_profile n m a s b Hn Hm Ha A) as P.
    specialize (H _ _ (background_admissible n m a _ (best_nonneg n m a) Hn Hm Ha)). rewrite <- wstat_deviance in H. lra.
  - intros H. exists (wstat_background s n m a). split; [now apply background_admissible|].
    intros s' b' A. rewrite <- wstat_deviance. pose proof (best_minimal n m a s' b' Hn Hm Ha A). lra.
Qed.
Lemma upper_iff n m a d u s : 0 <= n -> 0 <= m -> 0 < a -> 0 < d -> best n m a < u -> wstat u n m a = wstat (best n m a) n m a + d ->
  best n m a <= s -> (s <= u <-> wstat s n m a <= wstat (best n m a) n m a + d).
Proof.
  intros Hn Hm Ha Hd Hu E Hs. split.
  - intros L. destruct (Rle_lt_dec (wstat s n m a) (wstat (best n m a) n m a + d)) as [|C]; [assumption|].
    destruct L as [L| ->]; [|lra]. assert (wstat (best n m a) n m a < wstat s n m a) by lra.
    pose proof (wstat_up n m a s u Hn Hm Ha Hs L H). lra.
  - intros L. apply Rnot_lt_le. intros C. assert (wstat (best n m a) n m a < wstat u n m a) by lra.
    assert (best n m a <= u) by lra. pose proof (wstat_up n m a u s Hn Hm Ha H0 C H). lra.
Qed.
Lemma lower_iff n m a d l s : 0 <= n -> 0 <= m -> 0 < a -> 0 < d -> 0 <= l -> l < best n m a -> wstat l n m a = wstat (best n m a) n m a + d ->
  0 <= s -> s <= best n m a -> (l <= s <-> wstat s n m a <= wstat (best n m a) n m a + d).
Proof.
  intros Hn Hm Ha Hd H0 Hl E Hs0 Hs. split.
  - intros L. destruct (Rle_lt_dec (wstat s n m a) (wstat (best n m a) n m a + d)) as [|C]; [assumption|].
    destruct L as [L| ->]; [|lra]. assert (wstat (best n m a) n m a < wstat s n m a) by lra.
    pose proof (wstat_down n m a s l Hn Hm Ha Hs H0 L H). lra.
  - intros L. apply Rnot_lt_le. intros C. assert (wstat (best n m a) n m a < wstat l n m a) by lra.
    assert (l <= best n m a) by lra. pose proof (wstat_down n m a l s Hn Hm Ha H1 Hs0 C H). lra.
Qed.
(** below the best value the statistic decreases *)
Lemma zero_iff n m a d s : 0 <= n -> 0 <= m -> 0 < a -> 0 <= d -> wstat 0 n m a <= wstat (best n m a) n m a + d -> 0 <= s -> s <= best n m a ->
  wstat s n m a <= wstat (best n m a) n m a + d.
Proof.
  intros Hn Hm Ha Hd H Hs L. apply Rnot_lt_le. intros C. destruct Hs as [Hs| <-]; [|lra].
  assert (wstat (best n m a) n m a < wstat s n m a) by lra. pose proof (wstat_down n m a s 0 Hn Hm Ha L (Rle_refl 0) Hs H0). lra.
Qed.
Lemma finfo_tiny_pos : 0 < finfo_tiny.
Proof. unfold finfo_tiny. apply Rinv_0_lt_compat, pow_lt. lra. Qed.
Lemma finfo_eps_pos : 0 < finfo_eps.
Proof. unfold finfo_eps. apply Rinv_0_lt_compat, pow_lt. lra. Qed.
Lemma finfo_tiny_small : finfo_tiny <= / 1024.
Proof.
  unfold finfo_tiny. apply Rinv_le_contravar; [lra|]. replace 1024 with (2 ^ 10) by lra. apply Rle_pow; [lra|lia].
Qed.
Lemma finfo_eps_small : finfo_eps <= / 1024.
Proof.
  unfold finfo_eps. apply Rinv_le_contravar; [lra|]. replace 1024 with (2 ^ 10) by lra. apply Rle_pow; [lra|lia].
Qed.
Lemma clip_range lo hi x : lo <= hi -> lo <= clip lo hi x <= hi.
Proof. intros H. unfold clip. split; [apply Rmin_glb; [apply Rmax_r|exact H]|apply Rmin_r]. Qed.
Lemma sigmoid_range t s : 0 < s -> 0 < sigmoid t s < s.
Proof.
  intros Hs. unfold sigmoid. pose proof finfo_tiny_pos. pose proof finfo_eps_pos. pose proof finfo_tiny_small. pose proof finfo_eps_small.
  assert (L : finfo_tiny <= 1 - finfo_eps) by lra. pose proof (clip_range _ _ (expit t) L). split; [apply Rmult_lt_0_compat; lra|].
  rewrite <- (Rmult_1_l s) at 2. apply Rmult_lt_compat_r; lra.
Qed.
Lemma bind_inv {A B} (r : res A) (f : A -> res B) y : bind r f = Ok y -> exists x, r = Ok x /\ f x = Ok y.
Proof. destruct r; cbn; [eauto|discriminate]. Qed.

(** what the two searches and the special case leave *)
Lemma error_inv rf du sg n m a r : 0 <= n -> 0 <= m -> 0 < a -> exact rf -> wstat_error rf du sg n m a = Ok r ->
  best n m a < bar_upper r
  /\ wstat (bar_upper r) n m a = wstat (best n m a) n m a + (if Reqb (best n m a) 0 then du else 1)
  /\ bar_non_pos r = Reqb (best n m a) 0
  /\ (wstat 0 n m a <= wstat (best n m a) n m a + 1 /\ bar_lower r = 0
      \/ wstat 0 n m a > wstat (best n m a) n m a + 1 /\ 0 < bar_lower r < best n m a
         /\ wstat (bar_lower r) n m a = wstat (best n m a) n m a + 1).
Proof.
  intros Hn Hm Ha X H. unfold wstat_error in H. fold (best n m a) in H. cbv zeta in H.
  apply bind_inv in H as (ug & _ & H). apply bind_inv in H as (tu & Hu & H). apply bind_inv in H as (lo & Hl & H).
  assert (Er : r = {| bar_lower := lo; bar_upper := best n m a + exp tu; bar_non_pos := Reqb (best n m a) 0 |}) by congruence.
  subst r. cbn [bar_lower bar_upper bar_non_pos]. apply X in Hu. cbv beta in Hu.
  split; [pose proof (exp_pos tu); lra|]. split; [lra|]. split; [reflexivity|].
  destruct (Rleb_spec (wstat 0 n m a - wstat (best n m a) n m a) 1) as [L|L].
  - left. split; [lra|congruence].
  - right. split; [lra|]. apply bind_inv in Hl as (lg & _ & Hl). apply bind_inv in Hl as (tl & Ht & Hl).
    assert (lo = sigmoid tl (best n m a)) by congruence. subst lo. apply X in Ht. cbv beta in Ht.
    assert (0 < best n m a).
    { destruct (best_nonneg n m a) as [|E]; [assumption|]. exfalso. rewrite <- E in L. lra. }
    split; [now apply sigmoid_range|lra].
Qed.
Lemma best_pos n m a : a * m < n -> best n m a = n - a * m /\ 0 < best n m a.
Proof. intros H. unfold best. rewrite Rmax_left by lra. lra. Qed.
Lemma best_zero n m a : n <= a * m -> best n m a = 0.
Proof. intros H. unfold best. now rewrite Rmax_right by lra. Qed.

(** The interval of a bin with positive net counts is the set of source counts
    whose deviance, with the most favourable background, is within 1 of the
    smallest one: nothing is missing and nothing is added. *)
Theorem C109_interval rf du sg n m a r : 0 <= n -> 0 <= m -> 0 < a -> exact rf ->
  wstat_error rf du sg n m a = Ok r -> a * m < n ->
  forall s, 0 <= s -> (bar_lower r <= s <= bar_upper r <-> within n m a 1 s).
Proof.
  intros Hn Hm Ha X H P s Hs. destruct (best_pos n m a P) as (_ & B).
  destruct (error_inv rf du sg n m a r Hn Hm Ha X H) as (U1 & U2 & _ & L). rewrite within_wstat by assumption.
  destruct (Reqb_spec (best n m a) 0) as [|N]; [lra|].
  assert (One : 0 < 1) by lra. destruct (Rle_dec (best n m a) s) as [C|C].
  - rewrite <- (upper_iff n m a 1 (bar_upper r) s Hn Hm Ha One U1 U2 C).
    split; [tauto|]. intros. split; [|assumption]. destruct L as [(_ & ->)|(_ & L & _)]; lra.
  - assert (C' : s <= best n m a) by lra. split.
    + intros (A & _). destruct L as [(Z & _)|(_ & (L0 & L1) & L2)].
      * apply zero_iff; try assumption; lra.
      * apply (lower_iff n m a 1 (bar_lower r) s); try assumption; lra.
    + intros A. split; [|lra]. destruct L as [(_ & ->)|(_ & (L0 & L1) & L2)]; [lra|].
      apply (lower_iff n m a 1 (bar_lower r) s); try assumption; lra.
Qed.
(** A bin whose net counts are not positive is marked, its lower end is 0 and
    its upper end is the upper limit for the deviance requested. *)
Theorem C109_limit rf du sg n m a r : 0 <= n -> 0 <= m -> 0 < a -> 0 < du -> exact rf ->
  wstat_error rf du sg n m a = Ok r -> n <= a * m ->
  bar_lower r = 0 /\ forall s, 0 <= s -> (s <= bar_upper r <-> within n m a du s).
Proof.
  intros Hn Hm Ha Hd X H P. pose proof (best_zero n m a P) as B.
  destruct (error_inv rf du sg n m a r Hn Hm Ha X H) as (U1 & U2 & _ & L).
  destruct (Reqb_spec (best n m a) 0) as [_|N]; [|lra]. split.
  - destruct L as [(_ & L)|(C & _)]; [exact L|]. rewrite B in C. lra.
  - intros s Hs. rewrite within_wstat by assumption. apply upper_iff; try assumption. lra.
Qed.
(** the mark *)
Theorem C109_marked rf du sg n m a r : wstat_error rf du sg n m a = Ok r -> (bar_non_pos r = true <-> n <= a * m).
Proof.
  intros H. unfold wstat_error in H. fold (best n m a) in H. cbv zeta in H.
  apply bind_inv in H as (ug & _ & H). apply bind_inv in H as (tu & _ & H). apply bind_inv in H as (lo & _ & H).
  assert (Er : bar_non_pos r = Reqb (best n m a) 0) by (destruct r; cbn; congruence). rewrite Er.
  unfold best. destruct (Reqb_spec (Rmax (n - a * m) 0) 0) as [E|E]; split; intros; try easy.
  - pose proof (Rmax_l (n - a * m) 0). lra.
  - exfalso. apply E. apply Rmax_right. lra.
Qed.
(** The net counts, or 0 where they are negative, are the most likely source
    counts, and they lie inside the bar. *)
Theorem C109_best n m a : 0 <= n -> 0 <= m -> 0 < a -> within n m a 0 (Rmax (n - a * m) 0).
Proof. intros Hn Hm Ha. apply within_wstat; try assumption; [apply Rmax_r|]. unfold best. lra. Qed.
Theorem C109_inside rf du sg n m a r : 0 <= n -> 0 <= m -> 0 < a -> exact rf -> wstat_error rf du sg n m a = Ok r ->
  0 <= bar_lower r <= Rmax (n - a * m) 0 /\ Rmax (n - a * m) 0 < bar_upper r.
Proof.
  intros Hn Hm Ha X H. destruct (error_inv rf du sg n m a r Hn Hm Ha X H) as (U & _ & _ & L). fold (best n m a).
  pose proof (best_nonneg n m a). destruct L as [(_ & ->)|(_ & L & _)]; repeat split; lra.
Qed.
(** The statistic used is the smallest deviance over the backgrounds. *)
Theorem C109_profile n m a s : 0 <= n -> 0 <= m -> 0 < a -> 0 <= s ->
  (exists b, admissible n m a s b /\ wstat s n m a = deviance n m a s b)
  /\ forall b, admissible n m a s b -> wstat s n m a <= deviance n m a s b.
Proof.
  intros Hn Hm Ha Hs. split; [|intros b A; now apply wstat_profile].
  exists (wstat_background s n m a). split; [now apply background_admissible|apply wstat_deviance].
Qed.
Theorem C109_pgstat s n b_est b_err a : 0 < s -> 0 <= n -> 0 < b_err -> 0 < a ->
  let dev b := -2 * ll_poisson n (s + a * b) + -2 * ll_normal b_est b b_err in
  (exists b, 0 <= b /\ pgstat s n b_est b_err a = dev b)
  /\ forall b, 0 <= b -> pgstat s n b_est b_err a <= dev b.
Proof.
  intros Hs Hn Hg Ha dev. set (b0 := pgstat_background s n b_est b_err a).
  assert (E : pgstat s n b_est b_err a = dev b0).
  { unfold pgstat, dev, ll_poisson, ll_normal. fold b0. field. lra. }
  destruct (pgstat_spec s n b_est b_err a Hs Hn Hg Ha) as (B & _). split.
  - exists b0. split; [exact B|exact E].
  - intros b Hb. rewrite E. pose proof (pgstat_optimal s n b_est b_err a b Hs Hn Hg Ha Hb) as O. cbv zeta in O. fold b0 in O. unfold dev. lra.
Qed.
(** Each of the two equations has exactly one solution on its side of the best
    value: the bar does not depend on where the search starts. *)
Theorem C109_unique n m a d : 0 <= n -> 0 <= m -> 0 < a -> 0 < d ->
  let s0 := Rmax (n - a * m) 0 in
  (exists u, s0 < u /\ forall s, s0 < s -> (wstat s n m a = wstat s0 n m a + d <-> s = u))
  /\ (wstat 0 n m a > wstat s0 n m a + d ->
      exists l, 0 < l < s0 /\ forall s, 0 < s < s0 -> (wstat s n m a = wstat s0 n m a + d <-> s = l)).
Proof.
  intros Hn Hm Ha Hd s0. fold (best n m a) in s0. pose proof (best_nonneg n m a) as B0. split.
  - destruct (wstat_unbounded n m a (wstat s0 n m a + d) Hn Hm Ha) as (z & Hz & Lz). fold s0 in Hz, B0.
    destruct (wstat_ivt n m a s0 z (wstat s0 n m a + d) Hn Hm Ha B0) as (u & Hu & E); [lra|left; lra|].
    assert (s0 < u). { destruct Hu as (Hu & _). destruct Hu as [|Hu]; [assumption|]. rewrite <- Hu in E. lra. }
    exists u. split; [assumption|]. intros s Hs. split; [|intros ->; exact E]. intros Es.
    assert (A1 : s <= u) by (apply (upper_iff n m a d u s Hn Hm Ha Hd); unfold s0 in *; lra).
    assert (A2 : u <= s) by (apply (upper_iff n m a d s u Hn Hm Ha Hd); unfold s0 in *; lra). lra.
  - intros Z. fold s0 in B0. destruct (wstat_ivt n m a 0 s0 (wstat s0 n m a + d) Hn Hm Ha (Rle_refl 0) B0) as (l & Hl & E); [right; lra|].
    assert (0 < l). { destruct Hl as (Hl & _). destruct Hl as [|Hl]; [assumption|]. rewrite <- Hl in E. lra. }
    assert (l < s0). { destruct Hl as (_ & Hl). destruct Hl as [|Hl]; [assumption|]. rewrite Hl in E. lra. }
    exists l. split; [lra|]. intros s Hs. split; [|intros ->; exact E]. intros Es.
    assert (A1 : s <= l) by (apply (lower_iff n m a d s l Hn Hm Ha Hd); unfold s0 in *; lra).
    assert (A2 : l <= s) by (apply (lower_iff n m a d l s Hn Hm Ha Hd); unfold s0 in *; lra). lra.
Qed.

(** ** the start of the searches *)
Lemma small_net n m a : 1 <= n -> 0 <= m -> 0 < a -> 0 < n - a * m <= / 1000 -> wstat 0 n m a <= wstat (n - a * m) n m a + 1.
Proof.
  intros Hn Hm Ha (H0 & H1). assert (Hn0 : 0 <= n) by lra. assert (Ham : 0 < a * m) by lra. assert (Hm0 : 0 < m) by nra.
  assert (W0 : wstat 0 n m a <= deviance n m a 0 m).
  { apply wstat_profile; try assumption. unfold admissible. repeat split; try lra; left; lra. }
  assert (W1 : deviance n m a (n - a * m) m <= wstat (n - a * m) n m a).
  { rewrite wstat_deviance. set (b := wstat_background (n - a * m) n m a).
    destruct (background_admissible n m a (n - a * m)) as (_ & B & S1 & S2); try lra. fold b in B, S1, S2.
    unfold deviance. replace (n - a * m + a * m) with n by ring. assert (Hn1 : 0 < n) by lra.
    pose proof (ll_poisson_tangent n n _ Hn0 Hn1 S1) as T1. pose proof (ll_poisson_tangent m m b Hm Hm0 S2) as T2.
    replace (n / n) with 1 in T1 by (field; lra). replace (m / m) with 1 in T2 by (field; lra). lra. }
  assert (D : deviance n m a 0 m <= deviance n m a (n - a * m) m + 1); [|lra].
  unfold deviance. replace (n - a * m + a * m) with n by ring. rewrite Rplus_0_l.
  assert (S : supported n n) by (left; lra). pose proof (ll_poisson_tangent n (a * m) n Hn0 Ham S) as T.
  set (e := n - a * m) in *. assert (Ey : a * m = n - e) by (unfold e; ring). rewrite Ey in *.
  assert (Q : (n / (n - e) - 1) * e <= / 2); [|lra].
  replace ((n / (n - e) - 1) * e) with (e * e / (n - e)) by (field; lra).
  apply (Rmult_le_reg_r (n - e)); [lra|]. replace (e * e / (n - e) * (n - e)) with (e * e) by (field; lra). nra.
Qed.
(** With whole counts and at least one count in the bin every search has a
    finite start ... *)
Theorem C109_start_partial rf du sg k j a : (0 < k + j)%nat -> 0 < a -> 0 < sg -> (forall f g, exists t, rf f g = Ok t) ->
  exists r, wstat_error rf du sg (INR k) (INR j) a = Ok r.
Proof.
  intros Hkj Ha Hg T. set (n := INR k). set (m := INR j). assert (Hn : 0 <= n) by apply pos_INR. assert (Hm : 0 <= m) by apply pos_INR.
  assert (Hnm : 0 < n + m) by (unfold n, m; rewrite <- plus_INR; now apply lt_0_INR).
  unfold wstat_error. fold (best n m a). cbv zeta.
  assert (He : 0 < sqrt (n + a * a * m)).
  { apply sqrt_lt_R0. assert (0 < a * a) by nra. destruct (Req_dec n 0); nra. }
  set (er := sqrt (n + a * a * m)) in *.
  assert (G : 0 < (if Reqb (best n m a) 0 then sg * er else er)) by (destruct (Reqb (best n m a) 0); [now apply Rmult_lt_0_compat|exact He]).
  unfold log_start. destruct (Rltb_spec 0 (if Reqb (best n m a) 0 then sg * er else er)) as [_|]; [|lra]. cbn [bind].
  match goal with |- context [bind (rf ?f ?g) _] => destruct (T f g) as (tu & ->) end. cbn [bind].
  destruct (Rleb_spec (wstat 0 n m a - wstat (best n m a) n m a) 1) as [L|L]; [cbn [bind]; eauto|].
  assert (B : 0 < best n m a). { destruct (best_nonneg n m a) as [|E]; [assumption|]. exfalso. rewrite <- E in L. lra. }
  assert (P : a * m < n). { destruct (Rle_lt_dec n (a * m)) as [C|]; [|assumption]. rewrite (best_zero n m a C) in B. lra. }
  destruct (best_pos n m a P) as (Eb & _).
  assert (Big : / 1000 < best n m a).
  { apply Rnot_le_lt. intros C. assert (K : (1 <= k)%nat). { destruct k; [|lia]. exfalso. unfold n in P. cbn in P. nra. }
    assert (1 <= n) by (unfold n; now apply (le_INR 1)). rewrite Eb in *.
    pose proof (small_net n m a H Hm Ha (conj B C)). lra. }
  unfold inv_sigmoid. cbv zeta.
  assert (Q : 0 < Rmax (best n m a - er) (/ 1000) < best n m a).
  { split; [pose proof (Rmax_r (best n m a - er) (/ 1000)); lra|]. apply Rmax_lub_lt; lra. }
  destruct (Rltb_spec 0 (Rmax (best n m a - er) (/ 1000) / best n m a)) as [_|C]; [|exfalso; apply C; apply Rdiv_lt_0_compat; lra].
  destruct (Rltb_spec (Rmax (best n m a - er) (/ 1000) / best n m a) 1) as [_|C].
  2:{ exfalso. apply C. apply (Rmult_lt_reg_r (best n m a)); [lra|]. unfold Rdiv. rewrite Rmult_assoc, Rinv_l by lra. lra. }
  cbn [andb bind]. match goal with |- context [bind (rf ?f ?g) _] => destruct (T f g) as (tl & ->) end. cbn [bind]. eauto.
Qed.
(** ... in a bin without any counts the search would start at minus infinity *)
Theorem C109_start_refuted rf du sg a : wstat_error rf du sg 0 0 a = Err ValueError.
Proof.
  unfold wstat_error. cbv zeta. replace (0 + a * a * 0) with 0 by ring. rewrite sqrt_0, (Rmult_0_r sg).
  unfold log_start. destruct (Reqb _ 0); (destruct (Rltb_spec 0 0); [lra|reflexivity]).
Qed.
(** although the upper limit exists: half the deviance requested *)
Theorem C109_empty_limit a d : 0 < a -> 0 < d -> forall s, 0 <= s -> (s <= d / 2 <-> within 0 0 a d s).
Proof.
  intros Ha Hd s Hs. rewrite within_wstat by lra. rewrite (best_zero 0 0 a) by lra.
  assert (E : forall x, 0 <= x -> wstat x 0 0 a = 2 * x).
  { intros x Hx. unfold wstat, wstat_background, xlogy. destruct (Reqb_spec 0 0); [|lra]. field. lra. }
  rewrite !E by lra. split; lra.
Qed.
(** one bar per bin, computed from that bin alone *)
Theorem C109_bins rf du sg bins bars : wstat_errors rf du sg bins = Ok bars ->
  length bars = length bins
  /\ forall i n m a, nth_error bins i = Some (n, m, a) -> exists r, nth_error bars i = Some r /\ wstat_error rf du sg n m a = Ok r.
Proof.
  intros H. apply mapE_inv in H. split.
  - induction H; cbn; congruence.
  - induction H as [|x y l l' Hxy H IH]; intros [|i] n m a E; cbn in E; try discriminate.
    + inversion E; subst x. exists y. split; [reflexivity|exact Hxy].
    + cbn. now apply IH.
Qed.

Print Assumptions C109_interval.
Print Assumptions C109_limit.
Print Assumptions C109_marked.
Print Assumptions C109_best.
Print Assumptions C109_inside.
Print Assumptions C109_profile.
Print Assumptions C109_pgstat.
Print Assumptions C109_unique.
Print Assumptions C109_start_partial.

(** The searches start at the normal approximation: a solver that returns its starting point gives back the net counts
    plus their error (times the number of sigmas for a limit), and, below, the net counts minus their error, at least
    0.001 (and inside the range the transformation can represent). *)
Theorem C109_start_values du sg n m a r : wstat_error (fun _ g => Ok g) du sg n m a = Ok r ->
  let net := n - a * m in let error := sqrt (n + a * a * m) in let low := Rmax (net - error) (/ 1000) in
  (0 < net -> bar_upper r = net + error) /\ (net <= 0 -> bar_upper r = sg * error) /\
  (0 < net -> wstat 0 n m a > wstat net n m a + 1 -> finfo_tiny * net <= low <= (1 - finfo_eps) * net -> bar_lower r = low).
Proof.
  intros H. unfold wstat_error in H. cbv zeta in H. cbv zeta. set (net := n - a * m) in *. set (error := sqrt (n + a * a * m)) in *.
  apply bind_inv in H as (ug & Hg & H). apply bind_inv in H as (tu & Hu & H). apply bind_inv in H as (lo & Hl & H).
  assert (Eu : bar_upper r = Rmax net 0 + exp tu) by (destruct r; cbn; congruence). assert (El : bar_lower r = lo) by (destruct r; cbn; congruence).
  assert (Et : tu = ug) by congruence. subst tu. unfold log_start in Hg.
  split; [|split].
  - intros P. rewrite Eu. rewrite (Rmax_left net 0) in * by lra. destruct (Reqb_spec net 0); [lra|]. destruct (Rltb_spec 0 error); [|discriminate].
    assert (Eg : ug = ln error) by congruence. rewrite Eg, exp_ln by assumption. reflexivity.
  - intros P. rewrite Eu. rewrite (Rmax_right net 0) in * by lra. destruct (Reqb_spec 0 0); [|lra]. destruct (Rltb_spec 0 (sg * error)); [|discriminate].
    assert (Eg : ug = ln (sg * error)) by congruence. rewrite Eg, exp_ln by assumption. ring.
  - intros P C (B1 & B2). rewrite El. rewrite (Rmax_left net 0) in Hl by lra. destruct (Rleb_spec (wstat 0 n m a - wstat net n m a) 1); [lra|].
    apply bind_inv in Hl as (lg & Hlg & Hl). cbn [bind] in Hl. assert (E : lo = sigmoid lg net) by congruence. rewrite E. clear E Hl.
    set (y := Rmax (net - error) (/ 1000)) in *. unfold inv_sigmoid in Hlg. cbv zeta in Hlg.
    destruct (Rltb_spec 0 (y / net)) as [Q0|]; [|discriminate]. destruct (Rltb_spec (y / net) 1) as [Q1|]; [|discriminate]. cbn [andb] in Hlg.
    assert (E : lg = ln (y / net / (1 - y / net))) by congruence. rewrite E. unfold sigmoid, expit.
    assert (Pq : 0 < y / net / (1 - y / net)) by (apply Rdiv_lt_0_compat; lra).
    rewrite exp_Ropp, exp_ln by exact Pq.
    assert (Ex : / (1 + / (y / net / (1 - y / net))) = y / net).
    { set (z := y / net) in *. replace (1 + / (z / (1 - z))) with (/ z) by (field; lra). apply Rinv_inv. }
    rewrite Ex. unfold clip. rewrite Rmax_left.
    + rewrite Rmin_left; [field; lra|]. apply (Rmult_le_reg_r net); [exact P|]. replace (y / net * net) with y by (field; lra). exact B2.
    + apply (Rmult_le_reg_r net); [exact P|]. replace (y / net * net) with y by (field; lra). exact B1.
Qed.
Print Assumptions C109_start_values.
Print Assumptions C109_start_refuted.
Print Assumptions C109_empty_limit.
Print Assumptions C109_bins.

(** ** a concrete bin: one on count, no off counts, ratio 1.  The lower end is
    [ln 2 - 1/2], about 0.19; a root finder that knows the two roots is exact. *)
Lemma ln2_bounds : 0.58 <= ln 2 <= 1.
Proof.
  split.
  - assert (ln (/ 2) <= 2 * ln 0.71).
    { replace (2 * ln 0.71) with (ln (0.71 * 0.71)) by (rewrite ln_mult by lra; ring). left. apply ln_increasing; lra. }
    rewrite ln_Rinv in H by lra. assert (P : 0 < 0.71) by lra. pose proof (ln_le_sub1 0.71 P). lra.
  - assert (P : 0 < 2) by lra. pose proof (ln_le_sub1 2 P). lra.
Qed.
Lemma ex_wstat_low s : s <= / 2 -> wstat s 1 0 1 = 2 + 2 * ln 2 - 2 * s.
Proof.
  intros H. unfold wstat, wstat_background, xlogy. destruct (Reqb_spec 1 0); [lra|]. destruct (Reqb_spec 0 0); [|lra].
  destruct (Rleb_spec s (1 / (1 + 1) * 1)); [|lra]. replace (s + 1 * (1 / (1 + 1) - s / 1)) with (/ 2) by field. rewrite ln_Rinv by lra. field.
Qed.
Lemma ex_wstat_best : wstat 1 1 0 1 = 2.
Proof.
  unfold wstat, wstat_background, xlogy. destruct (Reqb_spec 1 0); [lra|]. destruct (Reqb_spec 0 0); [|lra].
  destruct (Rleb_spec 1 (1 / (1 + 1) * 1)); [lra|]. replace (1 + 1 * 0) with 1 by ring. rewrite ln_1. ring.
Qed.
Example C109_ex : exists rf r, exact rf /\ wstat_error rf 3.84 1.96 1 0 1 = Ok r /\ bar_lower r = ln 2 - / 2 /\ 1 < bar_upper r /\ bar_non_pos r = false
  /\ within 1 0 1 1 (/ 2) /\ ~ within 1 0 1 1 0.01.
Proof.
  assert (Z1 : 0 <= 1) by lra. assert (Z0 : 0 <= 0) by lra. assert (P1 : 0 < 1) by lra. pose proof ln2_bounds as L2.
  assert (Eb : best 1 0 1 = 1) by (unfold best; rewrite Rmax_left; lra).
  destruct (C109_unique 1 0 1 1 Z1 Z0 P1 P1) as ((u & Hu & Uu) & _). cbv zeta in Hu, Uu. fold (best 1 0 1) in Hu, Uu. rewrite Eb in Hu, Uu.
  set (q := ln 2 - / 2). set (t1 := ln (u - 1)). set (t2 := ln (q / (1 - q))).
  assert (Hq : 0.08 <= q <= / 2) by (unfold q; lra).
  assert (R1 : wstat (1 + exp t1) 1 0 1 - (wstat 1 1 0 1 + 1) = 0).
  { unfold t1. rewrite exp_ln by lra. assert (wstat (1 + (u - 1)) 1 0 1 = wstat 1 1 0 1 + 1) by (apply Uu; lra). lra. }
  assert (Sg : sigmoid t2 1 = q).
  { unfold sigmoid. assert (E : expit t2 = q).
    { unfold expit, t2. rewrite exp_Ropp, exp_ln by (apply Rdiv_lt_0_compat; lra). field. repeat split; lra. }
    rewrite E, Rmult_1_r. unfold clip. pose proof finfo_tiny_small. pose proof finfo_eps_small. rewrite Rmax_left by lra. apply Rmin_left. lra. }
  assert (R2 : wstat (sigmoid t2 1) 1 0 1 - (wstat 1 1 0 1 + 1) = 0).
  { rewrite Sg, ex_wstat_best, ex_wstat_low by lra. unfold q. lra. }
  set (rf := fun (f : R -> R) (g : R) => if Reqb (f t1) 0 then Ok t1 else if Reqb (f t2) 0 then Ok t2 else Err RuntimeError).
  assert (X : exact rf).
  { intros f g t H. unfold rf in H. destruct (Reqb_spec (f t1) 0); [congruence|]. destruct (Reqb_spec (f t2) 0); [congruence|discriminate]. }
  assert (exists r, wstat_error rf 3.84 1.96 1 0 1 = Ok r) as (r & Hr).
  { unfold wstat_error. fold (best 1 0 1). rewrite Eb. cbv zeta. destruct (Reqb_spec 1 0); [lra|].
    replace (1 + 1 * 1 * 0) with 1 by ring. rewrite sqrt_1. unfold log_start. destruct (Rltb_spec 0 1); [|lra]. cbn [bind].
    unfold rf at 1. rewrite R1. destruct (Reqb_spec 0 0); [|lra]. cbn [bind].
    rewrite (ex_wstat_low 0), ex_wstat_best by lra. destruct (Rleb_spec (2 + 2 * ln 2 - 2 * 0 - 2) 1); [lra|].
    replace (1 - 1) with 0 by ring. rewrite (Rmax_right 0 (/ 1000)) by lra.
    unfold inv_sigmoid. cbv zeta. destruct (Rltb_spec 0 (/ 1000 / 1)); [|lra]. destruct (Rltb_spec (/ 1000 / 1) 1); [|lra]. cbn [andb bind].
    unfold rf. destruct (Reqb_spec (wstat (sigmoid t1 1) 1 0 1 - (2 + 1)) 0); [cbn [bind]; eauto|].
    rewrite ex_wstat_best in R2. rewrite R2. destruct (Reqb_spec 0 0); [|lra]. cbn [bind]. eauto. }
  exists rf, r. split; [exact X|]. split; [exact Hr|].
  destruct (error_inv rf _ _ 1 0 1 r Z1 Z0 P1 X Hr) as (U1 & _ & Np & L). rewrite Eb in *.
  split; [|split; [exact U1|split; [rewrite Np; destruct (Reqb_spec 1 0); [lra|reflexivity]|split]]].
  - destruct L as [(C & _)|(_ & (L0 & L1) & L3)]; [rewrite ex_wstat_low, ex_wstat_best in C; lra|].
    fold q. assert (Hlt : q < best 1 0 1) by lra. assert (Hq0 : 0 <= q) by lra.
    assert (Eq : wstat q 1 0 1 = wstat (best 1 0 1) 1 0 1 + 1) by (rewrite Eb; rewrite Sg in R2; lra).
    assert (A1 : q <= bar_lower r) by (apply (lower_iff 1 0 1 1 q (bar_lower r)); try assumption; try lra; rewrite Eb; lra).
    assert (A2 : bar_lower r <= q) by (apply (lower_iff 1 0 1 1 (bar_lower r) q); try assumption; try lra; rewrite Eb; lra). lra.
  - apply within_wstat; try lra. rewrite Eb, ex_wstat_best, ex_wstat_low by lra. lra.
  - rewrite within_wstat by lra. rewrite Eb, ex_wstat_best, ex_wstat_low by lra. lra.
Qed.
(** a bin with two off counts only: the upper limit *)
Example C109_ex_limit : exists rf r, exact rf /\ wstat_error rf 3.84 1.96 0 2 1 = Ok r /\ bar_lower r = 0 /\ bar_upper r = 1.92 /\ bar_non_pos r = true.
Proof.
  set (t := ln 1.92).
  set (rf := fun (f : R -> R) (g : R) => if Reqb (f t) 0 then Ok t else Err RuntimeError).
  assert (X : exact rf).
  { intros f g x H. unfold rf in H. destruct (Reqb_spec (f t) 0); [congruence|discriminate]. }
  assert (Z : Rmax (0 - 1 * 2) 0 = 0) by (apply Rmax_right; lra).
  assert (W : forall s, wstat s 0 2 1 = 2 * (s + 2 - 2 * ln 1)).
  { intros s. unfold wstat, wstat_background, xlogy. destruct (Reqb_spec 0 0); [|lra]. destruct (Reqb_spec 2 0); [lra|].
    replace (2 / (1 + 1)) with 1 by field. ring. }
  exists rf. eexists. split; [exact X|]. split.
  - unfold wstat_error. rewrite Z. cbv zeta. destruct (Reqb_spec 0 0); [|lra].
    unfold log_start. assert (0 < sqrt (0 + 1 * 1 * 2)) by (apply sqrt_lt_R0; lra).
    destruct (Rltb_spec 0 (1.96 * sqrt (0 + 1 * 1 * 2))); [|lra]. cbn [bind]. unfold rf.
    assert (E : wstat (0 + exp t) 0 2 1 - (wstat 0 0 2 1 + 3.84) = 0) by (rewrite !W; unfold t; rewrite exp_ln by lra; lra).
    rewrite E. destruct (Reqb_spec 0 0); [|lra]. cbn [bind]. destruct (Rleb_spec (wstat 0 0 2 1 - wstat 0 0 2 1) 1); [|lra]. cbn [bind]. reflexivity.
  - cbn [bar_lower bar_upper bar_non_pos]. unfold t. rewrite exp_ln by lra. repeat split; lra.
Qed.
