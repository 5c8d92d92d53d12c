(** Elementary inequalities on the logarithm used for significances and likelihoods. *)
From Verif Require Import RBase.

Lemma exp_ge_1x x : 1 + x <= exp x.
Proof. destruct (Req_dec x 0) as [->|H]; [rewrite exp_0; lra|]. left. now apply exp_ineq1. Qed.

Lemma ln_le_sub1 u : 0 < u -> ln u <= u - 1.
Proof.
  intros H. pose proof (exp_ge_1x (ln u)) as E. rewrite exp_ln in E by exact H. lra.
Qed.
Lemma ln_lt_sub1 u : 0 < u -> u <> 1 -> ln u < u - 1.
Proof.
  intros H H1. assert (ln u <> 0).
  { intros E. apply H1. rewrite <- (exp_ln u H), E. apply exp_0. }
  pose proof (exp_ineq1 (ln u) H0) as E. rewrite exp_ln in E by exact H. lra.
Qed.

(** data of [scipy.special.xlogy]: 0 when the first argument is 0 *)
Definition xlogy (x y : R) : R := if Reqb x 0 then 0 else x * ln y.

(** Gibbs: x ln (x/y) >= x - y *)
Lemma gibbs x y : 0 <= x -> 0 < y -> x - y <= xlogy x (x / y).
Proof.
  intros Hx Hy. unfold xlogy. destruct (Reqb_spec x 0) as [E|E]; [lra|].
  assert (0 < x) by lra.
  assert (0 < y / x) by (apply Rdiv_lt_0_compat; lra).
  pose proof (ln_le_sub1 (y / x) H0) as L.
  replace (x / y) with (/ (y / x)) by (field; lra).
  rewrite ln_Rinv by exact H0.
  assert (x * (y / x) = y) by (field; lra). nra.
Qed.
Lemma gibbs_strict x y : 0 <= x -> 0 < y -> x <> y -> x - y < xlogy x (x / y).
Proof.
  intros Hx Hy Hn. unfold xlogy. destruct (Reqb_spec x 0) as [E|E]; [lra|].
  assert (0 < x) by lra.
  assert (0 < y / x) by (apply Rdiv_lt_0_compat; lra).
  assert (y / x <> 1).
  { intros C. apply Hn. apply (f_equal (fun t => t * x)) in C. unfold Rdiv in C.
    rewrite Rmult_assoc, Rinv_l in C; lra. }
  pose proof (ln_lt_sub1 (y / x) H0 H1) as L.
  replace (x / y) with (/ (y / x)) by (field; lra).
  rewrite ln_Rinv by exact H0.
  assert (x * (y / x) = y) by (field; lra). nra.
Qed.
Lemma gibbs_eq x y : 0 <= x -> 0 < y -> xlogy x (x / y) = x - y -> x = y.
Proof.
  intros Hx Hy E. destruct (Req_dec x y) as [|N]; [assumption|].
  pose proof (gibbs_strict x y Hx Hy N). lra.
Qed.
Lemma xlogy_same x : xlogy x (x / x) = 0.
Proof.
  unfold xlogy. destruct (Reqb_spec x 0); [reflexivity|].
  unfold Rdiv. rewrite Rinv_r by assumption. rewrite ln_1. lra.
Qed.
