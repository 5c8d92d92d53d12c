(** C99: leave-one-out probability integral transforms. *)
From Coq Require Import Ascii String.
From Verif Require Import RBase Gibbs Likelihood LikelihoodProofs Signs Namespace NamespaceProofs HelperData HelperDataProofs ChanLabels Prop_ChanLabels LooPit.
From Coq Require Import List ZArith Znumtheory Lia Lra Psatz.
Import ListNotations.
Open Scope list_scope.
Open Scope R_scope.

(** ** Specification *)
(** total weight of the draws of a channel that satisfy [P] *)
Inductive weight (P : R -> Prop) : list R -> list R -> R -> Prop :=
  | w_nil : weight P [] [] 0
  | w_in : forall l y lw ys s, P y -> weight P lw ys s -> weight P (l :: lw) (y :: ys) (exp l + s)
  | w_out : forall l y lw ys s, ~ P y -> weight P lw ys s -> weight P (l :: lw) (y :: ys) s.
Definition weights_ok (c : cell) : Prop := length (e_lw c) = length (e_yhat c) /\ rsum (map exp (e_lw c)) <= 1.
Definition whole (x : R) : Prop := exists k : Z, x = IZR k.
(** simulated values of a channel: counts, or counts minus the scaled background counts *)
Definition simulated_value (d : pdata) (c : cell) (y : R) : Prop :=
  match p_stat d with
  | Cstat | Pstat => exists k, whole k /\ y = k * punit d c
  | Wstat => exists k m, whole k /\ whole m /\ y = (k - ch_ratio (e_chan c) * m) * punit d c
  | _ => True
  end.
Definition observed_counts (d : pdata) (c : cell) : Prop :=
  match p_stat d with
  | Cstat | Pstat => whole (ch_n (e_chan c))
  | Wstat => whole (ch_n (e_chan c)) /\ whole (ch_b (e_chan c))
  | _ => True
  end.
(** the two transforms of a channel *)
Definition pit_of (d : pdata) (c : cell) : R := loo_pit1 (e_lw c) (e_yhat c) (observed d c).
Definition minus_of (d : pdata) (c : cell) : R := loo_pit1 (e_lw c) (e_yhat c) (data_minus d c).

(** ** Lemmas *)
Lemma pit1_sum lw yh y : loo_pit1 lw yh y = Rmin 1 (rsum (map (fun p => exp (fst p)) (filter (fun p => Rleb (snd p) y) (combine lw yh)))).
Proof. unfold loo_pit1. destruct (filter _ _); [|reflexivity]. cbn. rewrite Rmin_right; [reflexivity|]. unfold rsum. cbn. lra. Qed.

Lemma weight_exists (P : R -> Prop) (dec : forall y, P y \/ ~ P y) lw : forall ys, length lw = length ys -> exists s, weight P lw ys s.
Proof.
  induction lw as [|l lw IH]; intros [|y ys] H; try discriminate; [exists 0; constructor|]. injection H as H. destruct (IH ys H) as (s & W).
  destruct (dec y); [exists (exp l + s); now constructor|exists s; now constructor].
Qed.
Lemma weight_unique P lw : forall ys s s', weight P lw ys s -> weight P lw ys s' -> s = s'.
Proof.
  induction lw as [|l lw IH]; intros ys s s' W W'; inversion W; subst; inversion W'; subst; try reflexivity; try contradiction.
  - f_equal. eauto.
  - eauto.
Qed.
Lemma weight_le y lw : forall ys s, weight (fun x => x <= y) lw ys s ->
  s = rsum (map (fun p => exp (fst p)) (filter (fun p => Rleb (snd p) y) (combine lw ys))).
Proof.
  induction lw as [|l lw IH]; intros ys s W; inversion W; subst; [reflexivity| |]; cbn [combine filter map fst snd].
  - destruct (Rleb_spec y0 y); [|lra]. cbn [map fst]. unfold rsum in *. cbn. f_equal. eauto.
  - destruct (Rleb_spec y0 y); [lra|]. eauto.
Qed.
Lemma weight_nonneg P lw ys s : weight P lw ys s -> 0 <= s.
Proof. induction 1; try lra. pose proof (exp_pos l). lra. Qed.
Lemma weight_total P lw ys s : weight P lw ys s -> s <= rsum (map exp lw).
Proof. induction 1; cbn; unfold rsum in *; cbn; [lra| |]; pose proof (exp_pos l); lra. Qed.
Lemma weight_split (P Q S : R -> Prop) lw : (forall y, S y <-> P y \/ Q y) -> (forall y, P y -> Q y -> False) ->
  forall ys a b, weight P lw ys a -> weight Q lw ys b -> weight S lw ys (a + b).
Proof.
  intros HS D. induction lw as [|l lw IH]; intros ys a b W1 W2; inversion W1; subst; inversion W2; subst.
  - rewrite Rplus_0_r. constructor.
  - exfalso. eauto.
  - rewrite Rplus_assoc. constructor; [apply HS; auto|eauto].
  - replace (a + (exp l + s)) with (exp l + (a + s)) by ring. constructor; [apply HS; auto|eauto].
  - constructor; [rewrite HS; tauto|eauto].
Qed.
Lemma weight_ext (P Q : R -> Prop) lw : forall ys a, (forall y, In y ys -> (P y <-> Q y)) -> weight P lw ys a -> weight Q lw ys a.
Proof.
  induction lw as [|l lw IH]; intros ys a H W; inversion W; subst; constructor.
  - apply H; [now left|assumption].
  - apply IH; [intros; apply H; now right|assumption].
  - rewrite <- H by now left. assumption.
  - apply IH; [intros; apply H; now right|assumption].
Qed.
Lemma pit1_weight lw ys y s : rsum (map exp lw) <= 1 -> weight (fun x => x <= y) lw ys s -> loo_pit1 lw ys y = s.
Proof.
  intros L W. rewrite pit1_sum, <- (weight_le _ _ _ _ W). pose proof (weight_total _ _ _ _ W). rewrite Rmin_right; lra.
Qed.

Lemma minus_le d c : 0 < punit d c -> 0 < ch_ratio (e_chan c) \/ p_stat d <> Wstat -> data_minus d c <= observed d c.
Proof.
  intros Hu Hr. unfold data_minus, observed, simulated_net, observed_net. destruct (p_stat d); try (apply Rmult_le_compat_r; lra).
  destruct Hr as [Hr|]; [|congruence]. apply Rmult_le_compat_r; [lra|]. apply Rmax_lub; nra.
Qed.

Lemma mass_mono (l : list (R * R)) a b : a <= b ->
  0 <= rsum (map (fun p => exp (fst p)) (filter (fun p => Rleb (snd p) a) l)) <= rsum (map (fun p => exp (fst p)) (filter (fun p => Rleb (snd p) b) l)).
Proof.
  intros H. induction l as [|p l (I1 & I2)]; [cbn; unfold rsum; cbn; split; lra|]. cbn [filter]. pose proof (exp_pos (fst p)).
  destruct (Rleb_spec (snd p) a); destruct (Rleb_spec (snd p) b); cbn [map]; unfold rsum in *; cbn [fold_right]; split; lra.
Qed.

(** ** Theorems *)
(** the pairs reported for a data set are those of its own channels, in order, for every
    combination of statistics in the fit *)
Theorem C99_channels : forall ds, NoDup (all_labels (map p_labels ds)) ->
  Forall (fun d => length (p_labels d) = length (p_cells d)) ds ->
  loo_pits ds = Ok (map (fun d => map (fun c => (minus_of d c, pit_of d c)) (p_cells d)) ds).
Proof.
  intros ds N L.
  set (vals := fun (f : pdata -> cell -> R) => map (fun d => map (f d) (p_cells d)) ds).
  assert (S : forall f before d after, ds = before ++ d :: after ->
    sel (all_labels (map p_labels ds)) (concat (vals f)) (p_labels d) = Ok (map (f d) (p_cells d))).
  { intros f before d after E. unfold vals. rewrite E, !map_app. cbn [map]. rewrite E, map_app in N. rewrite E, Forall_app in L. cbn [map] in N. destruct L as (Lb & La).
    inversion La as [|? ? Ld La']; subst.
    apply C100_select; [|now rewrite map_length|exact N].
    clear - Lb. induction Lb as [|x l H F IH]; [reflexivity|]. cbn. rewrite !app_length, IH, map_length, H. reflexivity. }
  assert (P : forall f, map (fun dc : pdata * cell => f (fst dc) (snd dc)) (concat (map (fun d => map (fun c => (d, c)) (p_cells d)) ds)) = concat (vals f)).
  { intros f. unfold vals. rewrite concat_map, map_map. f_equal. apply map_ext. intros d. now rewrite map_map. }
  unfold loo_pits. cbv zeta.
  rewrite (P (fun d c => loo_pit1 (e_lw c) (e_yhat c) (observed d c))).
  assert (M : (if existsb (fun d => discrete (p_stat d)) ds
      then map (fun dc => loo_pit1 (e_lw (snd dc)) (e_yhat (snd dc)) (data_minus (fst dc) (snd dc))) (concat (map (fun d => map (fun c => (d, c)) (p_cells d)) ds))
      else concat (vals (fun d c => loo_pit1 (e_lw c) (e_yhat c) (observed d c)))) = concat (vals minus_of)).
  { destruct (existsb _ ds) eqn:E; [apply (P minus_of)|]. f_equal. unfold vals. apply map_ext_in. intros d Hd. apply map_ext. intros c. unfold minus_of. f_equal.
    assert (X : discrete (p_stat d) = false).
    { destruct (discrete (p_stat d)) eqn:X; [|reflexivity]. assert (existsb (fun d => discrete (p_stat d)) ds = true); [|congruence]. apply existsb_exists. eauto. }
    unfold observed, data_minus, simulated_net, observed_net. destruct (p_stat d); try discriminate; ring. }
  rewrite M. clear M P.
  change (fun (d : pdata) (c : cell) => loo_pit1 (e_lw c) (e_yhat c) (observed d c)) with pit_of.
  assert (G : forall before after, ds = before ++ after ->
    mapE (fun d => bind (sel (all_labels (map p_labels ds)) (concat (vals pit_of)) (p_labels d)) (fun p =>
                 bind (sel (all_labels (map p_labels ds)) (concat (vals minus_of)) (p_labels d)) (fun m => Ok (combine m p)))) after =
    Ok (map (fun d => map (fun c => (minus_of d c, pit_of d c)) (p_cells d)) after)).
  { intros before after. revert before. induction after as [|d after IH]; intros before E; [reflexivity|]. cbn [mapE map].
    rewrite (S pit_of before d after E), (S minus_of before d after E). cbn [bind].
    rewrite (IH (before ++ [d])) by (rewrite <- app_assoc; exact E). cbn [bind]. f_equal. f_equal.
    clear. induction (p_cells d) as [|c l IH]; [reflexivity|]. cbn. now rewrite IH. }
  now apply (G [] ds).
Qed.
Print Assumptions C99_channels.

(** the two transforms of a channel lie in [0,1], the first not above the second *)
Theorem C99_ordered : forall d c, 0 < punit d c -> 0 < ch_ratio (e_chan c) \/ p_stat d <> Wstat ->
  0 <= minus_of d c <= pit_of d c /\ pit_of d c <= 1.
Proof.
  intros d c Hu Hr. unfold minus_of, pit_of. rewrite !pit1_sum.
  pose proof (minus_le d c Hu Hr) as Hle.
  destruct (mass_mono (combine (e_lw c) (e_yhat c)) _ _ Hle) as (H & Hm).
  split; [split|].
  - apply Rmin_glb; lra.
  - apply Rle_min_compat_l. exact Hm.
  - apply Rmin_l.
Qed.
Print Assumptions C99_ordered.

(** the transform is the weight of the draws that do not exceed the data, and the step
    between the two is the weight of the draws in between *)
Theorem C99_weight : forall d c, weights_ok c -> 0 < punit d c -> 0 < ch_ratio (e_chan c) \/ p_stat d <> Wstat ->
  weight (fun y => y <= observed d c) (e_lw c) (e_yhat c) (pit_of d c) /\
  weight (fun y => data_minus d c < y <= observed d c) (e_lw c) (e_yhat c) (pit_of d c - minus_of d c).
Proof.
  intros d c (Hl & Hw) Hu Hr. pose proof (minus_le d c Hu Hr) as Hle.
  assert (D : forall (P : R -> Prop) y, P y \/ ~ P y) by (intros; apply Classical_Prop.classic).
  destruct (weight_exists (fun y => y <= observed d c) ltac:(apply D) (e_lw c) (e_yhat c) Hl) as (a & A).
  destruct (weight_exists (fun y => y <= data_minus d c) ltac:(apply D) (e_lw c) (e_yhat c) Hl) as (b & B).
  destruct (weight_exists (fun y => data_minus d c < y <= observed d c) ltac:(apply D) (e_lw c) (e_yhat c) Hl) as (m & M).
  assert (E : a = b + m).
  { eapply weight_unique; [exact A|]. eapply weight_split; [| |exact B|exact M]; cbn; intros; lra. }
  unfold pit_of, minus_of. rewrite (pit1_weight _ _ _ _ Hw A), (pit1_weight _ _ _ _ Hw B). split; [exact A|]. replace (a - b) with m by lra. exact M.
Qed.
Print Assumptions C99_weight.

Lemma step_whole k n : whole k -> whole n -> (n - 1 < k <= n <-> k = n).
Proof.
  intros (x & ->) (y & ->). split; [|intros ->; lra]. intros (H1 & H2). replace 1 with (IZR 1) in H1 by reflexivity.
  rewrite <- minus_IZR in H1. apply lt_IZR in H1. apply le_IZR in H2. f_equal. lia.
Qed.

(** Poisson data without a fitted background: the step is the weight of the draws that
    equal the data *)
Theorem C99_counts : forall d c, p_stat d = Cstat \/ p_stat d = Pstat -> weights_ok c -> 0 < punit d c ->
  observed_counts d c -> Forall (simulated_value d c) (e_yhat c) ->
  weight (fun y => y = observed d c) (e_lw c) (e_yhat c) (pit_of d c - minus_of d c).
Proof.
  intros d c Hst Hw Hu Ho Hs.
  destruct (C99_weight d c Hw Hu) as (_ & W); [right; destruct Hst; congruence|].
  eapply weight_ext; [|exact W]. intros y Hy. rewrite Forall_forall in Hs. specialize (Hs y Hy).
  unfold observed_counts, simulated_value, observed, data_minus, simulated_net in *.
  destruct Hst as [E|E]; rewrite E in *; destruct Hs as (k & Hk & ->); rewrite <- (step_whole k (ch_n (e_chan c)) Hk Ho) || idtac.
  all: pose proof (step_whole k (ch_n (e_chan c)) Hk Ho) as S; set (n := ch_n (e_chan c)) in *; set (u := punit d c) in *.
  all: replace (n - 0 * 0) with n by ring.
  all: split; [intros (H1 & H2); f_equal; apply S; split; apply (Rmult_lt_reg_r u) || apply (Rmult_le_reg_r u); lra|].
  all: intros H; apply Rmult_eq_reg_r in H; [|lra]; apply S in H; destruct H; split; [apply Rmult_lt_compat_r|apply Rmult_le_compat_r]; lra.
Qed.
Print Assumptions C99_counts.

(** net spectra: the same if the background ratio is a whole number or one over one *)
Theorem C99_net : forall d c q, p_stat d = Wstat -> weights_ok c -> 0 < punit d c ->
  (0 < q)%Z -> ch_ratio (e_chan c) = IZR q \/ ch_ratio (e_chan c) = 1 / IZR q ->
  observed_counts d c -> Forall (simulated_value d c) (e_yhat c) ->
  weight (fun y => y = observed d c) (e_lw c) (e_yhat c) (pit_of d c - minus_of d c).
Proof.
  intros d c q Est Hw Hu Hq Ha Ho Hs. assert (Hq' : 1 <= IZR q) by (change 1 with (IZR 1); apply IZR_le; lia).
  assert (Hapos : 0 < ch_ratio (e_chan c)).
  { destruct Ha as [->| ->]; [lra|]. apply Rdiv_lt_0_compat; lra. }
  destruct (C99_weight d c Hw Hu (or_introl Hapos)) as (_ & W).
  eapply weight_ext; [|exact W]. intros y Hy. rewrite Forall_forall in Hs. specialize (Hs y Hy).
  unfold observed_counts, simulated_value, observed, data_minus, simulated_net in *. rewrite Est in *.
  destruct Hs as (k & m & (kz & ->) & (mz & ->) & ->). destruct Ho as ((n & En) & (b & Eb)). rewrite En, Eb in *.
  set (a := ch_ratio (e_chan c)) in *. set (u := punit d c) in *.
  set (lo := Rmax (IZR n - 1 - a * IZR b) (IZR n - a * (IZR b + 1))).
  assert (S : lo < IZR kz - a * IZR mz <= IZR n - a * IZR b <-> IZR kz - a * IZR mz = IZR n - a * IZR b).
  { assert (Hlo : lo < IZR n - a * IZR b) by (unfold lo; apply Rmax_lub_lt; lra).
    split; [|intros ->; lra]. intros (H1 & H2).
    pose proof (Rmax_l (IZR n - 1 - a * IZR b) (IZR n - a * (IZR b + 1))) as L1. pose proof (Rmax_r (IZR n - 1 - a * IZR b) (IZR n - a * (IZR b + 1))) as L2. fold lo in L1, L2.
    destruct Ha as [Ea|Ea].
    - (* values are whole numbers *)
      rewrite Ea in *. assert (H3 : IZR (n - 1 - q * b) < IZR (kz - q * mz)) by (rewrite !minus_IZR, !mult_IZR; lra).
      assert (H4 : IZR (kz - q * mz) <= IZR (n - q * b)) by (rewrite !minus_IZR, !mult_IZR; lra).
      apply lt_IZR in H3. apply le_IZR in H4. assert (E : (kz - q * mz = n - q * b)%Z) by lia. apply (f_equal IZR) in E. rewrite !minus_IZR, !mult_IZR in E. exact E.
    - (* values times q are whole numbers *)
      assert (Eq1 : a * IZR q = 1) by (rewrite Ea; field; lra).
      assert (F : forall x z, (x - a * z) * IZR q = x * IZR q - z) by (intros; rewrite <- (Rmult_1_l z) at 2; rewrite <- Eq1; ring).
      assert (H3 : (IZR n - a * (IZR b + 1)) * IZR q < (IZR kz - a * IZR mz) * IZR q) by (apply Rmult_lt_compat_r; lra).
      assert (H4 : (IZR kz - a * IZR mz) * IZR q <= (IZR n - a * IZR b) * IZR q) by (apply Rmult_le_compat_r; lra).
      rewrite !F in H3, H4.
      assert (H5 : IZR (n * q - (b + 1)) < IZR (kz * q - mz)) by (rewrite !minus_IZR, !mult_IZR, plus_IZR; lra).
      assert (H6 : IZR (kz * q - mz) <= IZR (n * q - b)) by (rewrite !minus_IZR, !mult_IZR; lra).
      apply lt_IZR in H5. apply le_IZR in H6. assert (E : (kz * q - mz = n * q - b)%Z) by lia.
      apply (Rmult_eq_reg_r (IZR q)); [|lra]. rewrite !F. apply (f_equal IZR) in E. rewrite !minus_IZR, !mult_IZR in E. lra. }
  split.
  - intros (H1 & H2). f_equal. apply S. split; apply (Rmult_lt_reg_r u) || apply (Rmult_le_reg_r u); lra.
  - intros H. apply Rmult_eq_reg_r in H; [|lra]. apply S in H. destruct H. split; [apply Rmult_lt_compat_r|apply Rmult_le_compat_r]; lra.
Qed.
Print Assumptions C99_net.

(** for every other rational ratio the two candidates of the code are not the next
    smaller value: whatever was observed, there are counts whose net spectrum lies
    strictly between the two values, and draws with them are counted in the step although
    they differ from the data *)
Theorem C99_step_refuted : forall d c p q n b, p_stat d = Wstat -> 0 < punit d c ->
  (2 <= p)%Z -> (2 <= q)%Z -> Zis_gcd p q 1 -> ch_ratio (e_chan c) = IZR p / IZR q ->
  ch_n (e_chan c) = IZR n -> ch_b (e_chan c) = IZR b ->
  exists n' b', (n <= n' /\ b <= b')%Z /\
    let y := (IZR n' - ch_ratio (e_chan c) * IZR b') * punit d c in
    data_minus d c < y < observed d c.
Proof.
  intros d c p q n b Est Hu Hp Hq Hg Ea En Eb.
  destruct (Zis_gcd_bezout p q 1 Hg) as [u v E].
  set (m := (u mod q)%Z).
  assert (Hm : (0 <= m < q)%Z) by (apply Z.mod_pos_bound; lia).
  pose proof (Z.div_mod u q ltac:(lia)) as Du. fold m in Du.
  assert (Hk : exists k, (m * p = k * q + 1)%Z).
  { exists (- (v + p * (u / q)))%Z. nia. }
  destruct Hk as (k & Hk).
  assert (Hm1 : (1 <= m)%Z).
  { destruct (Z.eq_dec m 0) as [E0|]; [|lia]. exfalso. rewrite E0, Z.mul_0_l in Hk. destruct (Z_le_gt_dec 0 k); nia. }
  assert (Hmp : (1 <= m * p)%Z) by nia.
  assert (Hk0 : (0 <= k)%Z) by (destruct (Z_le_gt_dec 0 k); [assumption|exfalso; nia]).
  exists (n + k)%Z, (b + m)%Z. split; [lia|]. cbv zeta.
  unfold data_minus, observed, simulated_net. rewrite Est, En, Eb, Ea, !plus_IZR.
  assert (Hq' : 2 <= IZR q) by (apply IZR_le; lia). assert (Hp' : 2 <= IZR p) by (apply IZR_le; lia).
  assert (V : IZR n + IZR k - IZR p / IZR q * (IZR b + IZR m) = IZR n - IZR p / IZR q * IZR b - 1 / IZR q).
  { apply (f_equal IZR) in Hk. rewrite mult_IZR, plus_IZR, mult_IZR in Hk.
    assert (X : IZR p / IZR q * IZR m = IZR k + 1 / IZR q).
    { apply (Rmult_eq_reg_r (IZR q)); [|lra]. replace (IZR p / IZR q * IZR m * IZR q) with (IZR m * IZR p) by (field; lra). rewrite Hk. field. lra. }
    rewrite Rmult_plus_distr_l, X. ring. }
  rewrite V.
  assert (I : 0 < 1 / IZR q < 1).
  { split; [apply Rdiv_lt_0_compat; lra|]. apply (Rmult_lt_reg_r (IZR q)); [lra|]. unfold Rdiv. rewrite Rmult_assoc, Rinv_l by lra. lra. }
  assert (I2 : 1 / IZR q < IZR p / IZR q).
  { apply Rmult_lt_compat_r; [apply Rinv_0_lt_compat; lra|lra]. }
  split; apply Rmult_lt_compat_r; try assumption; [apply Rmax_lub_lt|]; lra.
Qed.
Print Assumptions C99_step_refuted.

(** ** The hypotheses are met *)
Definition ex_cell (n b : R) (ys : list R) : cell :=
  {| e_chan := {| ch_n := n; ch_nerr := 1; ch_b := b; ch_berr := 1; ch_ratio := 1 / 2; ch_row := []; ch_area := 1 |};
     e_width := 1; e_lw := [ln (1 / 4); ln (1 / 4); ln (1 / 2)]; e_yhat := ys |}.
Definition ex_ds : list pdata :=
  [ {| p_stat := Cstat; p_exposure := 1; p_cells := [ex_cell 2 0 [2; 1; 3]]; p_labels := [s2l "A_Ch_0"] |};
    {| p_stat := Wstat; p_exposure := 1; p_cells := [ex_cell 2 1 [3 / 2; 1; 2]]; p_labels := [s2l "B_Ch_0"] |} ].
Lemma ex_weights n b ys : length ys = 3%nat -> weights_ok (ex_cell n b ys).
Proof. intros H. split; [cbn; now rewrite H|]. cbn -[exp ln]. unfold rsum. cbn -[exp ln]. rewrite !exp_ln by lra. lra. Qed.
Example C99_ex_channels : NoDup (all_labels (map p_labels ex_ds)) /\ Forall (fun d => length (p_labels d) = length (p_cells d)) ex_ds.
Proof. split; [repeat constructor; cbn; intuition discriminate|repeat constructor]. Qed.
Example C99_ex_counts : let d := nth 0 ex_ds (Build_pdata Cstat 1 [] []) in let c := ex_cell 2 0 [2; 1; 3] in
  weights_ok c /\ 0 < punit d c /\ observed_counts d c /\ Forall (simulated_value d c) (e_yhat c) /\
  weight (fun y => y = observed d c) (e_lw c) (e_yhat c) (exp (ln (1 / 4)) + 0).
Proof.
  cbv zeta. split; [now apply ex_weights|]. split; [unfold punit; cbn; lra|]. split; [exists 2%Z; reflexivity|]. split.
  - assert (U : forall d c, p_exposure d = 1 -> e_width c = 1 -> forall x, x * punit d c = x) by (intros d c H H' x; unfold punit; rewrite H, H'; field).
    repeat constructor; unfold simulated_value; cbn [p_stat nth ex_ds]; [exists 2|exists 1|exists 3]; (split; [eexists; reflexivity|]); rewrite U; reflexivity.
  - assert (O : observed (nth 0 ex_ds (Build_pdata Cstat 1 [] [])) (ex_cell 2 0 [2; 1; 3]) = 2) by (unfold observed, punit; cbn; field).
    rewrite O. cbn [e_lw e_yhat ex_cell]. constructor; [reflexivity|]. constructor; [lra|]. constructor; [lra|]. constructor.
Qed.
Example C99_ex_refuted : Zis_gcd 3 10 1 /\ (2 <= 3)%Z /\ (2 <= 10)%Z.
Proof. split; [|lia]. apply Zis_gcd_intro; [apply Z.divide_1_l|apply Z.divide_1_l|]. intros x (a & Ha) (b & Hb). exists (b - 3 * a)%Z. lia. Qed.
