(** C80: the numbers in the titles of corner plots. *)
From Coq Require Import ZArith Lia.
From Verif Require Import RBase Report.
Open Scope R_scope.

(** what the reader takes the title to say *)
Definition says (s : shown) (exponent : Z) : R := value s * powerRZ 10 exponent.
(** half a unit of the last digit shown *)
Definition half_digit (s : shown) (exponent : Z) : R := powerRZ 10 (exponent - snd s) / 2.

Lemma p10_pos z : 0 < p10 z. Proof. apply powerRZ_lt. lra. Qed.
Lemma p10_add a b : p10 (a + b) = p10 a * p10 b. Proof. apply powerRZ_add. lra. Qed.
Lemma p10_0 : p10 0 = 1. Proof. reflexivity. Qed.
Lemma p10_1 : p10 1 = 10. Proof. apply powerRZ_1. Qed.
Lemma p10_S e : p10 (e + 1) = 10 * p10 e. Proof. rewrite p10_add, p10_1. ring. Qed.
Lemma p10_neg a : p10 (- a) * p10 a = 1. Proof. rewrite <- p10_add. now replace (- a + a)%Z with 0%Z by lia. Qed.
Lemma p10_exp z : p10 z = exp (IZR z * ln 10). Proof. unfold p10. rewrite powerRZ_Rpower by lra. reflexivity. Qed.
Lemma ln10 : 0 < ln 10. Proof. rewrite <- ln_1. apply ln_increasing; lra. Qed.
Lemma p10_le a b : (a <= b)%Z -> p10 a <= p10 b.
Proof. intros H. rewrite !p10_exp. pose proof ln10. apply IZR_le in H. destruct (Req_dec (IZR a * ln 10) (IZR b * ln 10)) as [->|N]; [lra|]. left. apply exp_increasing. nra. Qed.
Lemma p10_lt a b : (a < b)%Z -> p10 a < p10 b.
Proof. intros H. rewrite !p10_exp. pose proof ln10. apply IZR_lt in H. apply exp_increasing. nra. Qed.
Lemma p10_lt_inv a b : p10 a < p10 b -> (a < b)%Z.
Proof. intros H. destruct (Z.lt_ge_cases a b) as [L|L]; [exact L|]. pose proof (p10_le b a L). lra. Qed.
Lemma p10_Z n : (0 <= n)%Z -> p10 n = IZR (10 ^ n).
Proof. intros H. unfold p10. rewrite <- (Z2Nat.id n H) at 1. rewrite <- pow_powerRZ. rewrite pow_IZR. now rewrite Z2Nat.id. Qed.
Lemma floor_spec x : IZR (floor x) <= x < IZR (floor x) + 1.
Proof. unfold floor. pose proof (base_Int_part x). lra. Qed.
Lemma rne_near x : Rabs (x - IZR (rne x)) <= 1/2.
Proof.
  unfold rne. cbv zeta. pose proof (floor_spec x). destruct (Rltb_spec (x - IZR (floor x)) (1/2)); [apply Rabs_le; lra|].
  destruct (Rltb_spec (1/2) (x - IZR (floor x))); [rewrite plus_IZR; apply Rabs_le; lra|]. destruct (Z.even (floor x)); [|rewrite plus_IZR]; apply Rabs_le; lra.
Qed.
Lemma log_spec v e : v <> 0 -> floor (log10 (Rabs v)) = e <-> p10 e <= Rabs v < p10 (e + 1).
Proof.
  intros Hv. assert (Hp : 0 < Rabs v) by now apply Rabs_pos_lt. pose proof ln10 as L.
  assert (E : Rabs v = exp (log10 (Rabs v) * ln 10)). { unfold log10. replace (ln (Rabs v) / ln 10 * ln 10) with (ln (Rabs v)) by (field; lra). symmetry. now apply exp_ln. }
  set (x := log10 (Rabs v)) in *. assert (B : p10 (floor x) <= Rabs v < p10 (floor x + 1)).
  { rewrite E, !p10_exp, plus_IZR. pose proof (floor_spec x) as F. split.
    - destruct (Req_dec (IZR (floor x)) x) as [->|N]; [lra|]. left. apply exp_increasing. nra.
    - apply exp_increasing. nra. }
  split; [intros <-; exact B|]. intros (A & C). destruct B as (B1 & B2).
  assert (floor x < e + 1)%Z by (apply p10_lt_inv; lra). assert (e < floor x + 1)%Z by (apply p10_lt_inv; lra). lia.
Qed.
(** [sci] shows the number to within half a digit, with a leading digit other than 0 *)
Lemma sci_spec v p : v <> 0 -> (0 <= p)%Z -> let '(m, e) := sci v p in
  Rabs (v - IZR m * p10 (e - p)) <= p10 (e - p) / 2 /\ p10 p <= Rabs (IZR m) < p10 (p + 1) /\
  ((e = floor (log10 (Rabs v)) /\ m = rne (v * p10 (p - e))) \/ (e = (floor (log10 (Rabs v)) + 1)%Z /\ Rabs (IZR m) = p10 p /\ p10 e - p10 (e - 1 - p) / 2 <= Rabs v)).
Proof.
  intros Hv Hp. unfold sci. cbv zeta. remember (floor (log10 (Rabs v))) as e eqn:He. pose proof (proj1 (log_spec v e Hv) (eq_sym He)) as B. set (m := rne _).
  pose proof (rne_near (v * p10 (p - e))) as N. fold m in N.
  assert (S : v = v * p10 (p - e) * p10 (e - p)). { rewrite Rmult_assoc, <- p10_add. replace (p - e + (e - p))%Z with 0%Z by lia. rewrite p10_0. ring. }
  assert (A : Rabs (v - IZR m * p10 (e - p)) <= p10 (e - p) / 2).
  { rewrite S at 1. rewrite <- Rmult_minus_distr_r, Rabs_mult, (Rabs_pos_eq (p10 (e - p))) by (left; apply p10_pos). pose proof (p10_pos (e - p)). nra. }
  assert (Mx : p10 p <= Rabs (v * p10 (p - e)) < p10 (p + 1)).
  { rewrite Rabs_mult, (Rabs_pos_eq (p10 (p - e))) by (left; apply p10_pos). pose proof (p10_pos (p - e)).
    replace (p10 p) with (p10 e * p10 (p - e)) by (rewrite <- p10_add; f_equal; lia). replace (p10 (p + 1)) with (p10 (e + 1) * p10 (p - e)) by (rewrite <- p10_add; f_equal; lia). nra. }
  assert (Mb : (10 ^ p <= Z.abs m <= 10 ^ (p + 1))%Z).
  { assert (Q : forall k, (0 <= k)%Z -> Rabs (IZR m) = IZR (Z.abs m)) by (intros; now rewrite abs_IZR).
    pose proof (Rabs_triang_inv (v * p10 (p - e)) (IZR m)) as T1. pose proof (Rabs_triang_inv (IZR m) (v * p10 (p - e))) as T2. rewrite (Rabs_minus_sym (IZR m)) in T2. rewrite (Q 0%Z) in * by lia.
    rewrite (p10_Z p), (p10_Z (p + 1)) in Mx by lia. split.
    - assert (IZR (10 ^ p - 1) < IZR (Z.abs m)) by (rewrite minus_IZR; lra). apply lt_IZR in H. lia.
    - assert (IZR (Z.abs m) < IZR (10 ^ (p + 1) + 1)) by (rewrite plus_IZR; lra). apply lt_IZR in H. lia. }
  destruct (Z.eqb_spec (Z.abs m) (10 ^ (p + 1))) as [E|E].
  - assert (D : (m = 10 * (m / 10))%Z).
    { apply Z.div_exact; [lia|]. apply Z.mod_divide; [lia|]. apply (Z.divide_abs_r). rewrite E. rewrite Z.pow_add_r by lia. exists (10 ^ p)%Z. lia. }
    assert (F : IZR m = 10 * IZR (m / 10)) by (rewrite D at 1; apply mult_IZR).
    assert (P1 : p10 (e + 1 - p) = 10 * p10 (e - p)). { replace (e + 1 - p)%Z with (1 + (e - p))%Z by lia. rewrite p10_add, p10_1. reflexivity. }
    assert (Q1 : Rabs (IZR (m / 10)) = p10 p).
    { assert (X : 10 * Rabs (IZR (m / 10)) = 10 * p10 p). { replace 10 with (Rabs 10) at 1 by (apply Rabs_pos_eq; lra). rewrite <- Rabs_mult, <- F, <- abs_IZR, E, <- p10_Z by lia. apply p10_S. } lra. }
    split; [|split].
    + rewrite P1. replace (IZR (m / 10) * (10 * p10 (e - p))) with (IZR m * p10 (e - p)) by (rewrite F; ring). pose proof (p10_pos (e - p)). lra.
    + rewrite Q1. split; [lra|apply p10_lt; lia].
    + right. split; [reflexivity|]. split; [exact Q1|]. replace (e + 1 - 1 - p)%Z with (e - p)%Z by lia.
      assert (Y : Rabs (IZR m * p10 (e - p)) = p10 (e + 1)). { rewrite Rabs_mult, <- abs_IZR, E, <- p10_Z, (Rabs_pos_eq (p10 (e - p))) by (try lia; left; apply p10_pos). rewrite <- p10_add. f_equal. lia. }
      pose proof (Rabs_triang_inv (IZR m * p10 (e - p)) v) as T. rewrite Rabs_minus_sym in T. lra.
  - split; [exact A|]. split; [|left; split; reflexivity]. rewrite <- abs_IZR, !p10_Z by lia. split; [apply IZR_le; lia|apply IZR_lt; lia].
Qed.
Lemma fixed_near x p : Rabs (x - IZR (fixed x p) * p10 (- p)) <= p10 (- p) / 2.
Proof.
  unfold fixed. pose proof (rne_near (x * p10 p)) as N. set (m := rne _) in *. pose proof (p10_neg p) as E. pose proof (p10_pos (- p)).
  replace x with (x * p10 p * p10 (- p)) at 1 by (rewrite Rmult_assoc, (Rmult_comm (p10 p)), E; ring). rewrite <- Rmult_minus_distr_r, Rabs_mult, (Rabs_pos_eq (p10 (- p))) by lra. nra.
Qed.

(** ** the central value *)
(** it is shown to within half a digit, unless rounding carries it to the next power of ten in scientific notation *)
Theorem C80_mid_partial : forall vmid vmin vmax precision lo hi r, report_interval vmid vmin vmax precision lo hi = Ok r ->
  (r_exponent r = 0%Z \/ Rabs vmid < powerRZ 10 (r_exponent r + 1) - powerRZ 10 (r_exponent r - precision) / 2) ->
  snd (r_mid r) = precision /\ Rabs (says (r_mid r) (r_exponent r) - vmid) <= half_digit (r_mid r) (r_exponent r).
Proof.
  intros v vmin vmax p lo hi r H Hc. unfold report_interval in H. destruct (negb _) eqn:E; [discriminate|]. apply Bool.negb_false_iff in E. apply andb_prop in E as (E & Ehi). apply andb_prop in E as (Ep & Elo).
  apply Z.ltb_lt in Ep, Elo, Ehi. destruct (Reqb_spec v 0) as [|Hv]; [discriminate|]. cbv zeta in H. set (sc := (_ || _)%bool) in H. injection H as <-. cbn [r_mid r_exponent] in *. unfold says, half_digit, value.
  change (powerRZ 10) with p10 in *.
  assert (Fx : Rabs (IZR (fixed v p) * p10 (- p) * p10 0 - v) <= p10 (0 - p) / 2).
  { rewrite p10_0, Rmult_1_r, Rabs_minus_sym. replace (0 - p)%Z with (- p)%Z by lia. apply fixed_near. }
  destruct sc eqn:Es; [|cbn [fst snd]; split; [reflexivity|exact Fx]]. cbn [fst snd]. split; [reflexivity|].
  pose proof (sci_spec v p Hv ltac:(lia)) as S. destruct (sci v p) as [m e]. cbn [fst]. destruct S as (S1 & S2 & S3).
  destruct S3 as [(-> & _)|(-> & _ & C)].
  - set (e := floor _) in *. rewrite Rmult_assoc, <- p10_add, Rabs_minus_sym. replace (- p + e)%Z with (e - p)%Z by lia. exact S1.
  - exfalso. set (e := floor _) in *. destruct Hc as [Hc|Hc].
    + (* exponent 0 in scientific notation cannot happen with bounds of at least one *)
      unfold sc in Es. apply Bool.orb_prop in Es. pose proof (floor_spec (log10 (Rabs v))) as F. fold e in F. rewrite Hc in F. apply (IZR_lt 0) in Elo as Elo'. assert (1 <= IZR hi) by (apply (IZR_le 1); lia). assert (1 <= IZR lo) by (apply (IZR_le 1); lia).
      destruct Es as [Es|Es]; apply Rleb_true in Es; lra.
    + replace (e + 1 - 1 - p)%Z with (e - p)%Z in C by lia. lra.
Qed.
Print Assumptions C80_mid_partial.
(** refuted: when rounding carries, the title shows a power of ten that is too small by a factor of ten *)
Theorem C80_mid_refuted : forall vmid vmin vmax precision lo hi r, report_interval vmid vmin vmax precision lo hi = Ok r ->
  r_exponent r <> 0%Z -> powerRZ 10 (r_exponent r + 1) - powerRZ 10 (r_exponent r - precision) / 2 < Rabs vmid ->
  Rabs (says (r_mid r) (r_exponent r)) = powerRZ 10 (r_exponent r) /\ 9.9 * Rabs (says (r_mid r) (r_exponent r)) < Rabs vmid.
Proof.
  intros v vmin vmax p lo hi r H He Hc. unfold report_interval in H. destruct (negb _) eqn:E; [discriminate|]. apply Bool.negb_false_iff in E. apply andb_prop in E as (E & Ehi). apply andb_prop in E as (Ep & Elo).
  apply Z.ltb_lt in Ep, Elo, Ehi. destruct (Reqb_spec v 0) as [|Hv]; [discriminate|]. cbv zeta in H. set (sc := (_ || _)%bool) in H. injection H as <-. cbn [r_mid r_exponent] in *. unfold says, value.
  change (powerRZ 10) with p10 in *. destruct sc eqn:Es; [|contradiction]. cbn [fst snd].
  pose proof (sci_spec v p Hv ltac:(lia)) as S. destruct (sci v p) as [m e]. cbn [fst]. destruct S as (S1 & S2 & S3). set (e0 := floor _) in *.
  pose proof (proj1 (log_spec v e0 Hv) eq_refl) as B.
  assert (P1 : p10 (e0 + 1) = 10 * p10 e0) by apply p10_S.
  assert (Pp : p10 (e0 - p) <= p10 e0 / 10).
  { apply Rle_trans with (p10 (e0 - 1)); [apply p10_le; lia|]. pose proof (p10_S (e0 - 1)) as X. replace (e0 - 1 + 1)%Z with e0 in X by lia. lra. }
  assert (Mm : Rabs (IZR m) = p10 p).
  { destruct S3 as [(Ee & Em)|(_ & Q & _)]; [|exact Q]. exfalso. rewrite Ee in *.
    (* the rounded significand would have to be 10^(p+1) *)
    assert (G : p10 (p + 1) - 1/2 < Rabs (v * p10 (p - e0))).
    { rewrite Rabs_mult, (Rabs_pos_eq (p10 (p - e0))) by (left; apply p10_pos). pose proof (p10_pos (p - e0)) as P0.
      replace (p10 (p + 1)) with (p10 (e0 + 1) * p10 (p - e0)) by (rewrite <- p10_add; f_equal; lia).
      assert (U : p10 (e0 - p) * p10 (p - e0) = 1) by (rewrite <- p10_add; replace (e0 - p + (p - e0))%Z with 0%Z by lia; reflexivity). nra. }
    pose proof (rne_near (v * p10 (p - e0))) as N. rewrite <- Em in N. pose proof (Rabs_triang_inv (v * p10 (p - e0)) (IZR m)) as T.
    assert (W : IZR (10 ^ (p + 1) - 1) < IZR (Z.abs m)) by (rewrite minus_IZR, abs_IZR, <- p10_Z by lia; lra).
    apply lt_IZR in W. assert (W2 : IZR (Z.abs m) < IZR (10 ^ (p + 1))) by (rewrite abs_IZR, <- p10_Z by lia; lra). apply lt_IZR in W2. lia. }
  assert (V : Rabs (IZR m * p10 (- p) * p10 e0) = p10 e0).
  { rewrite !Rabs_mult, Mm, (Rabs_pos_eq (p10 (- p))), (Rabs_pos_eq (p10 e0)) by (left; apply p10_pos). rewrite (Rmult_comm (p10 p)), p10_neg. ring. }
  rewrite V. split; [reflexivity|]. pose proof (p10_pos e0). lra.
Qed.
Print Assumptions C80_mid_refuted.
(** ** the errors: never shown as zero or with the wrong sign unless they are zero, and to within half a digit *)
Lemma significand_spec p x e : (0 < p)%Z -> x <> 0 -> let s := significand p x e in
  Rabs (says s e - x) <= half_digit s e /\ (p <= snd s)%Z /\ 0 < x * says s e.
Proof.
  intros Hp Hx. cbv zeta. unfold significand. cbv zeta. unfold says, half_digit, value. change (powerRZ 10) with p10.
  assert (G : forall q, Rabs (IZR (fixed (x * p10 (- e)) q) * p10 (- q) * p10 e - x) <= p10 (e - q) / 2).
  { intros q. pose proof (fixed_near (x * p10 (- e)) q) as N. set (m := fixed _ _) in *. rewrite Rabs_minus_sym. pose proof (p10_pos e).
    replace x with (x * p10 (- e) * p10 e) at 1 by (rewrite Rmult_assoc, p10_neg; ring). rewrite <- Rmult_minus_distr_r, Rabs_mult, (Rabs_pos_eq (p10 e)) by lra.
    replace (e - q)%Z with (- q + e)%Z by lia. rewrite p10_add. nra. }
  (* a significand of at least one half unit ... *)
  assert (Z0 : forall q, 1/2 < Rabs (x * p10 (- e)) * p10 q -> 0 < x * (IZR (fixed (x * p10 (- e)) q) * p10 (- q) * p10 e)).
  { intros q U. unfold fixed. set (y := x * p10 (- e)) in *. pose proof (rne_near (y * p10 q)) as N. set (m := rne _) in *. pose proof (p10_pos (- e)) as Q1. pose proof (p10_pos q) as Q2. pose proof (p10_pos (- q)) as Q3. pose proof (p10_pos e) as Q4.
    assert (Y : 0 < y * p10 q * IZR m).
    { replace (Rabs y * p10 q) with (Rabs (y * p10 q)) in U by (rewrite Rabs_mult, (Rabs_pos_eq (p10 q)); lra). set (w := y * p10 q) in *. destruct (Rlt_dec w 0) as [L|L].
      - rewrite Rabs_left in U by exact L. unfold Rabs in N. destruct (Rcase_abs (w - IZR m)); nra.
      - rewrite Rabs_pos_eq in U by lra. unfold Rabs in N. destruct (Rcase_abs (w - IZR m)); nra. }
    replace x with (y * p10 e) by (unfold y; rewrite Rmult_assoc, p10_neg; ring).
    assert (Y2 : 0 < y * IZR m). { destruct (Rlt_dec 0 (y * IZR m)) as [L|L]; [exact L|]. exfalso. nra. }
    replace (y * p10 e * (IZR m * p10 (- q) * p10 e)) with (y * IZR m * (p10 e * p10 e * p10 (- q))) by ring. apply Rmult_lt_0_compat; [exact Y2|]. repeat apply Rmult_lt_0_compat; assumption. }
  assert (Ab : Rabs (x * p10 (- e)) = Rabs x * p10 (- e)) by (rewrite Rabs_mult, (Rabs_pos_eq (p10 (- e))); [reflexivity|left; apply p10_pos]).
  destruct (Rltb_spec (Rabs x) (p10 (e - p))) as [L|L]; cbn [fst snd].
  - pose proof (sci_spec x p Hx ltac:(lia)) as S. destruct (sci x p) as [m k]. cbn [snd]. destruct S as (S1 & S2 & S3). set (q := Z.abs (k - e)).
    assert (Kb : (k <= e - p)%Z /\ p10 k / 2 < Rabs x).
    { set (k0 := floor _) in *. pose proof (proj1 (log_spec x k0 Hx) eq_refl) as B. assert (k0 < e - p)%Z by (apply p10_lt_inv; lra). pose proof (p10_pos k0). destruct S3 as [(-> & _)|(-> & _ & C)].
      - split; [lia|]. lra.
      - split; [lia|]. pose proof (p10_pos (k0 + 1)). replace (k0 + 1 - 1 - p)%Z with (k0 - p)%Z in C by lia. pose proof (p10_le (k0 - p) k0 ltac:(lia)). assert (p10 (k0 + 1) = 10 * p10 k0) by apply p10_S. lra. }
    destruct Kb as (K1 & K2). assert (q = e - k)%Z by (unfold q; lia). split; [apply G|]. split; [lia|]. apply Z0. rewrite Ab, H, Rmult_assoc, <- p10_add. replace (- e + (e - k))%Z with (- k)%Z by lia.
    pose proof (p10_neg k). pose proof (p10_pos (- k)). nra.
  - split; [apply G|]. split; [lia|]. apply Z0. rewrite Ab, Rmult_assoc, <- p10_add. pose proof (p10_pos (- e + p)).
    assert (p10 (e - p) * p10 (- e + p) = 1) by (rewrite <- p10_add; replace (e - p + (- e + p))%Z with 0%Z by lia; reflexivity). nra.
Qed.
Theorem C80_errors : forall vmid vmin vmax precision lo hi r, report_interval vmid vmin vmax precision lo hi = Ok r ->
  let good s x := (x = 0 /\ says s (r_exponent r) = 0) \/
    (x <> 0 /\ Rabs (says s (r_exponent r) - x) <= half_digit s (r_exponent r) /\ (precision <= snd s)%Z /\ 0 < x * says s (r_exponent r)) in
  good (r_lower r) (vmin - vmid) /\ good (r_upper r) (vmax - vmid).
Proof.
  intros v vmin vmax p lo hi r H. unfold report_interval in H. destruct (negb _) eqn:E; [discriminate|]. apply Bool.negb_false_iff in E. apply andb_prop in E as (E & Ehi). apply andb_prop in E as (Ep & Elo).
  apply Z.ltb_lt in Ep, Elo, Ehi. destruct (Reqb_spec v 0) as [|Hv]; [discriminate|]. cbv zeta in H. set (b := if (_ || _)%bool then floor _ else 0%Z) in H. injection H as <-. cbv zeta. cbn [r_lower r_upper r_exponent].
  assert (G : forall x, (x = 0 /\ says (if Reqb x 0 then (0, 0)%Z else significand p x b) b = 0) \/
    (x <> 0 /\ Rabs (says (if Reqb x 0 then (0, 0)%Z else significand p x b) b - x) <= half_digit (if Reqb x 0 then (0, 0)%Z else significand p x b) b /\ (p <= snd (if Reqb x 0 then (0, 0)%Z else significand p x b))%Z /\ 0 < x * says (if Reqb x 0 then (0, 0)%Z else significand p x b) b)).
  { intros x. destruct (Reqb_spec x 0) as [->|N]; [left; split; [reflexivity|]; unfold says, value; cbn [fst snd]; ring|right; split; [exact N|]]. now apply significand_spec. }
  split; apply G.
Qed.
Print Assumptions C80_errors.
(** it answers for every central value other than zero ... *)
Theorem C80_defined : forall vmid vmin vmax precision lo hi, (0 < precision)%Z -> (0 < lo)%Z -> (0 < hi)%Z -> vmid <> 0 -> exists r, report_interval vmid vmin vmax precision lo hi = Ok r.
Proof.
  intros v vmin vmax p lo hi Hp Hl Hh Hv. unfold report_interval. apply Z.ltb_lt in Hp, Hl, Hh. rewrite Hp, Hl, Hh. cbn [andb negb]. destruct (Reqb_spec v 0); [contradiction|]. cbv zeta. eauto.
Qed.
Print Assumptions C80_defined.
(** ... refuted for zero: the plot cannot be made *)
Theorem C80_zero_refuted : forall vmin vmax precision lo hi, exists e, report_interval 0 vmin vmax precision lo hi = Err e.
Proof. intros. unfold report_interval. destruct (negb _); [eauto|]. destruct (Reqb_spec 0 0); [eauto|contradiction]. Qed.
Print Assumptions C80_zero_refuted.
(** 9999 with the default settings: the title says 1000 *)
Example C80_ex : exists r, report_interval 9999 9900 10100 2 1 2 = Ok r /\ r_exponent r = 3%Z /\ Rabs (says (r_mid r) (r_exponent r)) = 1000.
Proof.
  destruct (C80_defined 9999 9900 10100 2 1 2) as (r & Hr); try lia; try lra. exists r. split; [exact Hr|].
  assert (E1 : p10 (3 - 2) = 10) by apply p10_1. assert (E3 : p10 3 = 1000) by (unfold p10; simpl; ring). assert (E4 : p10 (3 + 1) = 10000) by (rewrite p10_S, E3; ring).
  assert (Fl : floor (log10 (Rabs 9999)) = 3%Z) by (apply log_spec; [lra|]; rewrite Rabs_pos_eq by lra; rewrite E4, E3; lra).
  assert (He : r_exponent r = 3%Z).
  { unfold report_interval in Hr. cbn [Z.ltb Z.compare andb negb Pos.compare Pos.compare_cont] in Hr. destruct (Reqb_spec 9999 0); [lra|]. cbv zeta in Hr. rewrite Fl in Hr. pose proof (floor_spec (log10 (Rabs 9999))) as F. rewrite Fl in F.
    destruct (Rleb_spec 2 (log10 (Rabs 9999))) as [_|]; [|lra]. rewrite Bool.orb_true_r in Hr. injection Hr as <-. reflexivity. }
  split; [exact He|]. destruct (C80_mid_refuted _ _ _ _ _ _ _ Hr) as (A & _).
  - rewrite He. discriminate.
  - rewrite He, Rabs_pos_eq by lra. change (powerRZ 10) with p10. rewrite E1, E4. lra.
  - rewrite A, He. change (powerRZ 10) with p10. exact E3.
Qed.
