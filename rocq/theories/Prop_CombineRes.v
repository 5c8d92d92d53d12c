(** C119: two residuals of a channel combined into one. *)
From Verif Require Import RBase Base Data DataState DataSim HelperData CombineRes.
From Coq Require Import List Lra Lia Psatz.
Import ListNotations.
Open Scope list_scope.
Open Scope R_scope.

Section C119.
(** [sf]: the probability that a normal variable of mean 0 and variance 1 is above a number, [isf] its inverse; [cdf n] is a distribution
    of positive numbers, and for one degree of freedom it is that of the square of a normal variable *)
Variables (sf isf : R -> R) (cdf : R -> R -> R).
Definition normal : Prop := (forall x y, x < y -> sf y < sf x) /\ sf 0 = 1 / 2 /\ (forall p, 0 < p < 1 -> sf (isf p) = p).
Definition chi_square : Prop := (forall n x, 0 < n -> 0 <= x -> 0 <= cdf n x < 1) /\ (forall n x y, 0 < n -> 0 <= x < y -> cdf n x < cdf n y) /\
  (forall n, 0 < n -> cdf n 0 = 0) /\ (forall x, 0 <= x -> 1 - cdf 1 (x * x) = 2 * sf x).
(** [t] is as improbable for a normal variable, in absolute value, as [q] for a chi-square variable *)
Definition equivalent (n q t : R) : Prop := 0 <= t /\ 2 * sf t = 1 - cdf n q.

Hypothesis N : normal.
Hypothesis C : chi_square.

Lemma sf_le x y : x <= y -> sf y <= sf x.
Proof. intros [H| ->]; [left; now apply (proj1 N)|right; reflexivity]. Qed.
Lemma sf_inv x y : sf y <= sf x -> x <= y.
Proof. intros H. destruct (Rle_or_lt x y) as [|L]; [assumption|]. apply (proj1 N) in L. lra. Qed.
Lemma turn_spec n q : 0 < n -> 0 <= q -> equivalent n q (turn cdf isf n q).
Proof.
  intros Hn Hq. destruct C as (C1 & _). destruct N as (N1 & N2 & N3). specialize (C1 n q Hn Hq). unfold turn.
  assert (E : sf (if Rleb q n then isf (0.5 - 0.5 * cdf n q) else isf (0.5 * (1 - cdf n q))) = (1 - cdf n q) / 2) by (destruct (Rleb q n); rewrite N3 by lra; lra).
  split; [|rewrite E; lra]. apply sf_inv. rewrite E, N2. lra.
Qed.
Lemma root_spec q : 0 <= q -> equivalent 1 q (sqrt q).
Proof. intros H. split; [apply sqrt_pos|]. destruct C as (_ & _ & _ & C4). rewrite <- (C4 (sqrt q) (sqrt_pos q)). now rewrite sqrt_def. Qed.
Theorem C119_equivalent_unique : forall n q t t', equivalent n q t -> equivalent n q t' -> t = t'.
Proof. intros n q t t' (_ & A) (_ & B). apply Rle_antisym; apply sf_inv; lra. Qed.

Lemma squares a b : 0 <= a * a + b * b.
Proof. nra. Qed.
Lemma zip2_nth' {A B D} (f : A -> B -> D) x y k da db dd : length x = length y -> (k < length x)%nat -> nth k (zip2 f x y) dd = f (nth k x da) (nth k y db).
Proof.
  revert y k; induction x as [|a x IH]; intros [|b y] k H Hk; try discriminate; [simpl in Hk; lia|]. destruct k as [|k]; [reflexivity|]. cbn [zip2 nth]. apply IH; [now injection H|cbn in Hk; lia].
Qed.
(** with a number of degrees of freedom: one value per channel, whose size has the probability of the sum of the squares, and the sign given *)
Theorem C119_combined : forall r1 r2 n sign, 0 < n -> length r1 = length r2 -> (forall s, sign = Some s -> length s = length r1) ->
  exists r, combine_residuals cdf isf r1 r2 (One n) sign = Ok r /\ length r = length r1 /\
  forall i, (i < length r1)%nat -> exists t, equivalent n (nth i r1 0 * nth i r1 0 + nth i r2 0 * nth i r2 0) t /\
    nth i r 0 = (match sign with Some s => nth i s 0 | None => 1 end) * t.
Proof.
  intros r1 r2 n sign Hn L Ls. unfold combine_residuals. cbn [is_one bind]. rewrite L, Nat.eqb_refl. cbn [negb].
  set (q := zip2 (fun a b => a * a + b * b) r1 r2). assert (Lq : length q = length r1) by (unfold q; rewrite zip2_length, L; lia).
  set (r := if Reqb n 1 then map sqrt q else map (turn cdf isf n) q).
  assert (Lr : length r = length r1) by (unfold r; destruct (Reqb n 1); now rewrite map_length).
  assert (R0 : forall i, (i < length r1)%nat -> equivalent n (nth i r1 0 * nth i r1 0 + nth i r2 0 * nth i r2 0) (nth i r 0)).
  { intros i Hi. assert (Eq : nth i q 0 = nth i r1 0 * nth i r1 0 + nth i r2 0 * nth i r2 0) by (unfold q; rewrite (zip2_nth' _ _ _ _ 0 0) by assumption; reflexivity).
    rewrite <- Eq. assert (P : 0 <= nth i q 0) by (rewrite Eq; apply squares). unfold r. destruct (Reqb_spec n 1) as [->|Ne].
    - rewrite (nth_indep (map sqrt q) 0 (sqrt 0)) by (rewrite map_length; lia). rewrite map_nth. now apply root_spec.
    - rewrite (nth_indep (map (turn cdf isf n) q) 0 (turn cdf isf n 0)) by (rewrite map_length; lia). rewrite map_nth. now apply turn_spec. }
  clearbody r. destruct sign as [s|].
  - specialize (Ls s eq_refl). rewrite Lr, Ls, Nat.eqb_refl. eexists. split; [reflexivity|]. split; [rewrite zip2_length; lia|]. intros i Hi. exists (nth i r 0). split; [apply R0; lia|].
    rewrite (zip2_nth' _ _ _ _ 0 0) by lia. reflexivity.
  - eexists. split; [reflexivity|]. split; [rewrite map_length; lia|]. intros i Hi. exists (nth i r 0). split; [apply R0; lia|].
    rewrite (nth_indep (map (fun x => 1 * x) r) 0 (1 * 0)) by (rewrite map_length; lia). now rewrite (map_nth (fun x => 1 * x)).
Qed.
(** the farther from zero, the larger; nothing for two zeros; the order of the two does not matter *)
Theorem C119_order : forall n q q' t t', 0 < n -> 0 <= q < q' -> equivalent n q t -> equivalent n q' t' -> t < t'.
Proof.
  intros n q q' t t' Hn H (_ & A) (_ & B). destruct C as (_ & C2 & _). specialize (C2 n q q' Hn H). destruct (Rlt_or_le t t') as [|L]; [assumption|]. apply sf_le in L. lra.
Qed.
Theorem C119_zero : forall n t, 0 < n -> (equivalent n 0 t <-> t = 0).
Proof.
  intros n t Hn. destruct C as (_ & _ & C3 & _). assert (Z : equivalent n 0 0) by (split; [lra|]; rewrite (C3 n Hn), (proj1 (proj2 N)); lra).
  split; [intros E; now apply (C119_equivalent_unique n 0)|intros ->; exact Z].
Qed.
Theorem C119_swap : forall r1 r2 d sign, length r1 = length r2 -> combine_residuals cdf isf r1 r2 d sign = combine_residuals cdf isf r2 r1 d sign.
Proof.
  intros r1 r2 d sign L. unfold combine_residuals. rewrite L. assert (E : zip2 (fun a b => a * a + b * b) r1 r2 = zip2 (fun a b => a * a + b * b) r2 r1).
  { revert r2 L. induction r1 as [|a r1 IH]; intros [|b r2] L; try reflexivity; try discriminate. cbn [zip2]. rewrite IH by now injection L. f_equal. lra. }
  now rewrite E.
Qed.
(** residuals or signs of another number are refused *)
Theorem C119_refused : forall r1 r2 d sign, length r1 <> length r2 -> combine_residuals cdf isf r1 r2 d sign = Err ValueError.
Proof.
  intros r1 r2 d sign L. apply Nat.eqb_neq in L. unfold combine_residuals. rewrite L. destruct d; [reflexivity|]. now rewrite Bool.andb_false_r.
Qed.
Theorem C119_sign_refused : forall r1 r2 n s, length r1 = length r2 -> length s <> length r1 -> combine_residuals cdf isf r1 r2 (One n) (Some s) = Err ValueError.
Proof.
  intros r1 r2 n s L Ls. unfold combine_residuals. cbn [is_one bind]. rewrite L, Nat.eqb_refl. cbn [negb].
  match goal with |- (if (length s =? length ?r)%nat then _ else _) = _ => assert (Lr : length r = length r1) by (destruct (Reqb n 1); rewrite map_length, zip2_length, L; lia); rewrite Lr end.
  apply Nat.eqb_neq in Ls. now rewrite Ls.
Qed.
(** degrees of freedom per channel are documented, but refused for two channels or more (and for none) *)
Theorem C119_array_refuted : forall r1 r2 n sign, length n <> 1%nat -> combine_residuals cdf isf r1 r2 (Each n) sign = Err ValueError.
Proof.
  intros r1 r2 n sign L. unfold combine_residuals. destruct (negb _); [reflexivity|]. destruct (negb _); [reflexivity|]. destruct n as [|a [|b n]]; try reflexivity. now elim L.
Qed.
Theorem C119_array_partial : forall a b n sign, 0 < n -> (forall s, sign = Some s -> length s = 1%nat) ->
  combine_residuals cdf isf [a] [b] (Each [n]) sign = combine_residuals cdf isf [a] [b] (One n) sign.
Proof. intros a b n sign Hn Ls. unfold combine_residuals. cbn [length Nat.eqb andb negb is_one bind zip2 map]. reflexivity. Qed.
End C119.
Print Assumptions C119_equivalent_unique.
Print Assumptions C119_combined.
Print Assumptions C119_order.
Print Assumptions C119_zero.
Print Assumptions C119_swap.
Print Assumptions C119_refused.
Print Assumptions C119_sign_refused.
Print Assumptions C119_array_refuted.
Print Assumptions C119_array_partial.

(** ** the hypotheses can be met; with one degree of freedom the result is the distance from zero *)
Example ex_three_four : forall cdf isf, combine_residuals cdf isf [3; 0] [4; 0] (One 1) (Some [-1; 1]) = Ok [-5; 0].
Proof.
  intros cdf isf. unfold combine_residuals. cbn [is_one length Nat.eqb negb zip2 bind]. destruct (Reqb_spec 1 1) as [_|]; [|lra]. cbn [map length Nat.eqb zip2].
  replace (3 * 3 + 4 * 4) with (5 * 5) by lra. rewrite sqrt_square by lra. replace (0 * 0 + 0 * 0) with 0 by lra. rewrite sqrt_0. do 2 f_equal; [lra|f_equal; lra].
Qed.
(** a distribution like the normal one: sf x = exp(-x)/2 above zero, 1 - exp(x)/2 below; cdf n x = 1 - exp(- sqrt x) *)
Definition ex_sf (x : R) : R := if Rle_dec 0 x then exp (- x) / 2 else 1 - exp x / 2.
Definition ex_isf (p : R) : R := if Rle_dec p (1 / 2) then - ln (2 * p) else ln (2 * (1 - p)).
Definition ex_cdf (n x : R) : R := 1 - exp (- sqrt x).
Example ex_normal : normal ex_sf ex_isf.
Proof.
  split; [|split].
  - intros x y H. unfold ex_sf. destruct (Rle_dec 0 x), (Rle_dec 0 y); try lra.
    + assert (exp (- y) < exp (- x)) by (apply exp_increasing; lra). lra.
    + assert (exp x < 1) by (rewrite <- exp_0; apply exp_increasing; lra). assert (exp (- y) <= 1) by (rewrite <- exp_0; destruct (Req_dec y 0) as [->|]; [right; now rewrite Ropp_0|left; apply exp_increasing; lra]). lra.
    + assert (exp x < exp y) by (apply exp_increasing; lra). lra.
  - unfold ex_sf. destruct (Rle_dec 0 0); [|lra]. rewrite Ropp_0, exp_0. lra.
  - intros p Hp. unfold ex_isf. destruct (Rle_dec p (1 / 2)).
    + assert (L : ln (2 * p) <= 0) by (rewrite <- ln_1; destruct (Req_dec (2 * p) 1) as [->|]; [lra|left; apply ln_increasing; lra]). unfold ex_sf. destruct (Rle_dec 0 (- ln (2 * p))); [|lra]. rewrite Ropp_involutive, exp_ln by lra. lra.
    + assert (L : ln (2 * (1 - p)) < 0) by (rewrite <- ln_1; apply ln_increasing; lra). unfold ex_sf. destruct (Rle_dec 0 (ln (2 * (1 - p)))); [lra|]. rewrite exp_ln by lra. lra.
Qed.
Example ex_chi : chi_square ex_sf ex_cdf.
Proof.
  unfold ex_cdf. split; [|split; [|split]].
  - intros n x _ Hx. pose proof (exp_pos (- sqrt x)). pose proof (sqrt_pos x). split; [|lra]. assert (exp (- sqrt x) <= 1) by (rewrite <- exp_0; destruct (Req_dec (sqrt x) 0) as [->|]; [right; now rewrite Ropp_0|left; apply exp_increasing; lra]). lra.
  - intros n x y _ H. assert (sqrt x < sqrt y) by (apply sqrt_lt_1; lra). assert (exp (- sqrt y) < exp (- sqrt x)) by (apply exp_increasing; lra). lra.
  - intros n _. rewrite sqrt_0, Ropp_0, exp_0. lra.
  - intros x Hx. rewrite sqrt_square by exact Hx. unfold ex_sf. destruct (Rle_dec 0 x); lra.
Qed.
