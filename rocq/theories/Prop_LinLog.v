(** C78: the linear-logarithmic axis. *)
From Verif Require Import RBase LinLog.
From Coq Require Import List.
Import ListNotations.
Open Scope R_scope.

(** every accepted axis, and only those *)
Theorem C78_accepts : forall base thresh scale,
  (exists t, mk_linlog base thresh scale = Ok t) <-> 1 < base /\ 0 < thresh /\ 0 < scale.
Proof.
  intros b th sc. unfold mk_linlog. destruct (Rleb_spec b 1); [split; [intros (t & X); discriminate|lra]|].
  destruct (Rleb_spec th 0); [split; [intros (t & X); discriminate|lra]|].
  destruct (Rleb_spec sc 0); [split; [intros (t & X); discriminate|lra]|]. split; [lra|eauto].
Qed.
Print Assumptions C78_accepts.
Theorem C78_default_accepted : forall base thresh, 1 < base -> 0 < thresh -> exists t, mk_scale base thresh None = Ok t.
Proof.
  intros b th H H0. unfold mk_scale. apply C78_accepts. repeat split; try assumption. apply Rdiv_lt_0_compat; [lra|]. rewrite <- ln_1. apply ln_increasing; lra.
Qed.
Print Assumptions C78_default_accepted.

Definition made (t : linlog) (base thresh scale : R) : Prop := mk_linlog base thresh scale = Ok t.
Lemma made_inv t b th sc : made t b th sc -> t = {| l_base := b; l_thresh := th; l_scale := sc |} /\ 1 < b /\ 0 < th /\ 0 < sc /\ 0 < ln b /\ 0 < adj t.
Proof.
  intros H. destruct (proj1 (C78_accepts b th sc)) as (A & B & C); [exists t; exact H|]. unfold made, mk_linlog in H.
  destruct (Rleb b 1), (Rleb th 0), (Rleb sc 0); try discriminate. injection H as <-. split; [reflexivity|]. repeat split; try assumption.
  - rewrite <- ln_1. apply ln_increasing; lra.
  - unfold adj. cbn. apply Rdiv_lt_0_compat; [assumption|]. assert (1 / b < 1); [|lra]. apply (Rmult_lt_reg_r b); [lra|]. replace (1 / b * b) with 1 by (field; lra). lra.
Qed.
Lemma ln_mono_pos x th : 0 < th -> th < x -> 0 < ln (x / th).
Proof. intros H H0. rewrite <- ln_1. apply ln_increasing; [lra|]. apply (Rmult_lt_reg_r th); [lra|]. replace (x / th * th) with x by (field; lra). lra. Qed.
Lemma ln_ratio x th : 0 < th -> 0 < x -> ln (x / th) = ln x - ln th.
Proof. intros H H0. unfold Rdiv. rewrite ln_mult by (try apply Rinv_0_lt_compat; lra). rewrite ln_Rinv by lra. ring. Qed.

(** order is kept, strictly *)
Theorem C78_increasing : forall t base thresh scale x y, made t base thresh scale -> x < y -> forward t x < forward t y.
Proof.
  intros t b th sc x y M H. destruct (made_inv _ _ _ _ M) as (E & B & T & S & L & A). unfold forward. pose proof A as A'. rewrite E in *. cbn [l_thresh l_base l_scale] in *.
  set (a := adj _) in *. destruct (Rltb_spec th x) as [X|X], (Rltb_spec th y) as [Y|Y]; try lra.
  - apply Rmult_lt_compat_l; [assumption|]. apply Rplus_lt_compat_l. apply Rmult_lt_compat_r; [now apply Rinv_0_lt_compat|].
    apply ln_increasing; [apply Rdiv_lt_0_compat; lra|]. apply Rmult_lt_compat_r; [now apply Rinv_0_lt_compat|exact H].
  - pose proof (ln_mono_pos y th T Y) as P. assert (0 < ln (y / th) / ln b) by (apply Rdiv_lt_0_compat; assumption). assert (x * a <= th * a) by (apply Rmult_le_compat_r; lra).
    assert (0 < th * (ln (y / th) / ln b)) by (apply Rmult_lt_0_compat; assumption). lra.
  - apply Rmult_lt_compat_r; assumption.
Qed.
Print Assumptions C78_increasing.

(** the two transforms undo each other *)
Theorem C78_inverse : forall t base thresh scale, made t base thresh scale ->
  (forall x, backward t (forward t x) = x) /\ (forall y, forward t (backward t y) = y).
Proof.
  intros t b th sc M. destruct (made_inv _ _ _ _ M) as (E & B & T & S & L & A). unfold forward, backward. rewrite E in A |- *. cbn [l_thresh l_base l_scale] in *.
  set (a := adj _) in *. split.
  - intros x. destruct (Rltb_spec th x) as [X|X].
    + pose proof (ln_mono_pos x th T X) as P. assert (0 < ln (x / th) / ln b) by (apply Rdiv_lt_0_compat; assumption).
      assert (0 < th * (ln (x / th) / ln b)) by (apply Rmult_lt_0_compat; assumption).
      destruct (Rltb_spec (th * a) (th * (a + ln (x / th) / ln b))) as [_|F]; [|lra].
      replace (th * (a + ln (x / th) / ln b) / th - a) with (ln (x / th) / ln b) by (field; lra). unfold Rpower.
      replace (ln (x / th) / ln b * ln b) with (ln (x / th)) by (field; lra). rewrite exp_ln by (apply Rdiv_lt_0_compat; lra). field. lra.
    + assert (x * a <= th * a) by (apply Rmult_le_compat_r; lra). destruct (Rltb_spec (th * a) (x * a)) as [F|_]; [lra|]. field. lra.
  - intros y. destruct (Rltb_spec (th * a) y) as [Y|Y].
    + assert (G : 0 < y / th - a). { assert (a < y / th); [|lra]. apply (Rmult_lt_reg_r th); [assumption|]. replace (y / th * th) with y by (field; lra). lra. }
      assert (P : 1 < Rpower b (y / th - a)). { unfold Rpower. rewrite <- exp_0. apply exp_increasing. apply Rmult_lt_0_compat; assumption. }
      destruct (Rltb_spec th (th * Rpower b (y / th - a))) as [_|F]; [|nra].
      replace (th * Rpower b (y / th - a) / th) with (Rpower b (y / th - a)) by (field; lra). unfold Rpower. rewrite ln_exp. field. split; lra.
    + assert (F : y / a <= th). { apply (Rmult_le_reg_r a); [assumption|]. replace (y / a * a) with y by (field; lra). lra. }
      destruct (Rltb_spec th (y / a)) as [F'|_]; [lra|]. field. lra.
Qed.
Print Assumptions C78_inverse.

(** no jump anywhere, in particular not at the threshold *)
Theorem C78_continuous : forall t base thresh scale, made t base thresh scale -> continuity (forward t).
Proof.
  intros t b th sc M. destruct (made_inv _ _ _ _ M) as (E & B & T & S & L & A).
  destruct (C78_inverse t b th sc M) as (_ & I2).
  intros x eps Heps. (* a strictly increasing function with a right inverse has no jump *)
  set (lo := backward t (forward t x - eps)). set (hi := backward t (forward t x + eps)).
  assert (Llo : forward t lo = forward t x - eps) by apply I2. assert (Lhi : forward t hi = forward t x + eps) by apply I2.
  assert (Hlo : lo < x). { destruct (Rtotal_order lo x) as [X|[X|X]]; [exact X| |]; [rewrite X in Llo; lra|]. pose proof (C78_increasing t b th sc _ _ M X). lra. }
  assert (Hhi : x < hi). { destruct (Rtotal_order x hi) as [X|[X|X]]; [exact X| |]; [rewrite <- X in Lhi; lra|]. pose proof (C78_increasing t b th sc _ _ M X). lra. }
  exists (Rmin (x - lo) (hi - x)). split; [apply Rmin_glb_lt; lra|]. intros y (_ & D). cbn in D |- *. unfold R_dist in *.
  pose proof (Rmin_l (x - lo) (hi - x)). pose proof (Rmin_r (x - lo) (hi - x)). apply Rabs_def2 in D.
  assert (P : forward t lo < forward t y) by (apply (C78_increasing t b th sc); [exact M|lra]).
  assert (Q : forward t y < forward t hi) by (apply (C78_increasing t b th sc); [exact M|lra]). apply Rabs_def1; lra.
Qed.
Print Assumptions C78_continuous.

(** linear below the threshold (equal distances take equal space), logarithmic above (equal factors take equal space) *)
Theorem C78_shape : forall t base thresh scale, made t base thresh scale ->
  (forall x y d, x <= thresh -> y <= thresh -> x + d <= thresh -> y + d <= thresh -> forward t (x + d) - forward t x = forward t (y + d) - forward t y) /\
  (forall x, thresh <= x -> forward t (base * x) - forward t x = thresh) /\ forward t 0 = 0.
Proof.
  intros t b th sc M. destruct (made_inv _ _ _ _ M) as (E & B & T & S & L & A). unfold forward. rewrite E in A |- *. cbn [l_thresh l_base l_scale] in *. set (a := adj _) in *.
  split; [|split].
  - intros x y d X Y Xd Yd. repeat match goal with |- context[Rltb ?u ?v] => destruct (Rltb_spec u v); [lra|] end. ring.
  - intros x X. assert (th < b * x) by nra. destruct (Rltb_spec th (b * x)) as [_|]; [|lra].
    rewrite (ln_ratio (b * x)) by lra. rewrite ln_mult by lra. destruct (Rltb_spec th x) as [Y|Y].
    + rewrite ln_ratio by lra. field. lra.
    + replace x with th by lra. field. lra.
  - destruct (Rltb_spec th 0); [lra|]. ring.
Qed.
Print Assumptions C78_shape.

(** the documented meaning of lin_scale is refuted: the space of [0, thresh] is never [lin_scale] decades (a decade takes
    [thresh], see above), it is [1 / (1 - 1/base)] times as much *)
Theorem C78_lin_scale_refuted : forall t base thresh scale, made t base thresh scale ->
  let decade := forward t (base * thresh) - forward t thresh in
  (forward t thresh - forward t 0) * (1 - 1 / base) = scale * decade /\ forward t thresh - forward t 0 <> scale * decade.
Proof.
  intros t b th sc M. destruct (made_inv _ _ _ _ M) as (E & B & T & S & L & A). destruct (C78_shape _ _ _ _ M) as (_ & D & Z). cbv zeta. rewrite D by lra. rewrite Z.
  unfold forward. rewrite E in A |- *. cbn [l_thresh l_base l_scale] in *. destruct (Rltb_spec th th) as [F|_]; [lra|].
  assert (H1 : 1 / b < 1). { apply (Rmult_lt_reg_r b); [lra|]. replace (1 / b * b) with 1 by (field; lra). lra. } assert (H2 : 0 < 1 / b) by (apply Rdiv_lt_0_compat; lra).
  unfold adj. cbn [l_scale l_base]. split; [field; split; lra|]. intros F. assert (G : th * sc = (sc * th) * (1 - 1 / b)). { rewrite <- F. field. split; lra. }
  assert (0 < th * sc) by (apply Rmult_lt_0_compat; assumption). nra.
Qed.
Print Assumptions C78_lin_scale_refuted.

(** the automatic scale: the part below the threshold takes the requested fraction of the axis *)
Theorem C78_fraction : forall base thresh vmin vmax f scale, 0 < thresh -> get_scale base thresh vmin vmax f = Ok scale ->
  exists t, mk_linlog base thresh scale = Ok t /\ (forward t thresh - forward t vmin) = f * (forward t vmax - forward t vmin) /\ 0 < f < 1 /\ vmin < thresh < vmax.
Proof.
  intros b th vmin vmax f sc T H. unfold get_scale in H. destruct (Rltb_spec 1 b) as [B|]; [|discriminate]. destruct (Rltb_spec vmin th) as [V1|]; [|discriminate].
  destruct (Rltb_spec th vmax) as [V2|]; [|discriminate]. destruct (Rltb_spec 0 f) as [F1|]; [|discriminate]. destruct (Rltb_spec f 1) as [F2|]; [|discriminate]. cbn in H. injection H as H.
  pose proof (ln_mono_pos vmax th T V2) as P. assert (L : 0 < ln b) by (rewrite <- ln_1; apply ln_increasing; lra).
  assert (S0 : sc = ((b - 1) * f * th * ln (vmax / th)) / (b * (1 - f) * (th - vmin) * ln b)) by (rewrite <- H; field; repeat split; lra).
  assert (S : 0 < sc). { rewrite S0. apply Rdiv_lt_0_compat; repeat apply Rmult_lt_0_compat; lra. }
  destruct (proj2 (C78_accepts b th sc)) as (t & Ht); [auto|]. exists t. split; [exact Ht|]. split; [|auto].
  destruct (made_inv _ _ _ _ Ht) as (E & _ & _ & _ & _ & A). unfold forward. rewrite E in A |- *. cbn [l_thresh l_base l_scale] in *.
  destruct (Rltb_spec th th) as [X|_]; [lra|]. destruct (Rltb_spec th vmin) as [X|_]; [lra|]. destruct (Rltb_spec th vmax) as [_|X]; [|lra].
  assert (Ea : adj {| l_base := b; l_thresh := th; l_scale := sc |} = (f * th * ln (vmax / th)) / ((1 - f) * (th - vmin) * ln b)).
  { unfold adj. cbn. rewrite S0. field. repeat split; lra. }
  rewrite Ea. field. repeat split; lra.
Qed.
Print Assumptions C78_fraction.
Theorem C78_fraction_total : forall base thresh vmin vmax f, 1 < base -> vmin < thresh < vmax -> 0 < f < 1 -> exists s, get_scale base thresh vmin vmax f = Ok s.
Proof.
  intros b th vmin vmax f B V F. unfold get_scale. destruct (Rltb_spec 1 b); [|lra]. destruct (Rltb_spec vmin th); [|lra]. destruct (Rltb_spec th vmax); [|lra].
  destruct (Rltb_spec 0 f); [|lra]. destruct (Rltb_spec f 1); [|lra]. cbn. eauto.
Qed.
Print Assumptions C78_fraction_total.

(** ticks: each part shows only its own ticks; the threshold itself never has one even if both locators propose it *)
Theorem C78_ticks : forall thresh lin log vmin vmax x, In x (tick_values thresh lin log vmin vmax) ->
  (In x lin /\ x < thresh) \/ (In x log /\ thresh < x).
Proof.
  intros th lin log v1 v2 x H. unfold tick_values in H. cbv zeta in H. set (vmin := if Rltb v2 v1 then v2 else v1) in *. set (vmax := if Rltb v2 v1 then v1 else v2) in *.
  apply in_app_or in H as [H|H].
  - destruct (Rltb vmin th); [|destruct H]. apply filter_In in H as (H & X). apply Rltb_true in X. left. split; [exact H|]. pose proof (Rmin_l th vmax). lra.
  - destruct (Rltb th vmax); [|destruct H]. apply filter_In in H as (H & X). apply Rltb_true in X. right. split; [exact H|]. pose proof (Rmax_r vmin th). lra.
Qed.
Print Assumptions C78_ticks.
(** both ends of the axis may be given in either order *)
Theorem C78_ticks_swap : forall thresh lin log vmin vmax, tick_values thresh lin log vmin vmax = tick_values thresh lin log vmax vmin.
Proof.
  intros th lin log a b. unfold tick_values. destruct (Rltb_spec b a), (Rltb_spec a b); try lra; try reflexivity. replace b with a by lra. reflexivity.
Qed.
Print Assumptions C78_ticks_swap.
Example C78_ex : exists s t, get_scale 10 1 (-3) 1000 (1/4) = Ok s /\ mk_linlog 10 1 s = Ok t /\ forward t (-3) < forward t 1 < forward t 1000.
Proof.
  destruct (C78_fraction_total 10 1 (-3) 1000 (1/4)) as (s & Hs); [lra|lra|lra|]. destruct (C78_fraction 10 1 (-3) 1000 (1/4) s ltac:(lra) Hs) as (t & Ht & _ & _). exists s, t.
  split; [exact Hs|]. split; [exact Ht|]. split; apply (C78_increasing t 10 1 s); try exact Ht; lra.
Qed.
