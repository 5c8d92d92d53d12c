(** C112: colours, markers and smoothed curves of the plots. *)
From Coq Require Import Ascii String ZArith.
From Verif Require Import RBase Base Namespace NamespaceProofs HelperData HelperDataProofs Data Colors.
From Coq Require Import List Lra Psatz Lia.
Import ListNotations.
Open Scope list_scope.
Open Scope R_scope.

(** ** Specification *)
(** a colour given as red, green, blue between 0 and 255 *)
Definition rgb := (Z * Z * Z)%type.
Definition byte (z : Z) : Prop := (0 <= z <= 255)%Z.
Definition text_of (t : str) (c : rgb) : Prop := channels t = Ok c.
Definition valid (t : str) : Prop := exists r g b, text_of t (r, g, b) /\ byte r /\ byte g /\ byte b.
(** the largest byte that is not above [x] *)
Definition largest (z : Z) (x : R) : Prop := byte z /\ IZR z <= Rmax x 0 /\ (z = 255%Z \/ x < IZR z + 1).
(** no channel of the first colour is brighter than that of the second *)
Definition not_brighter (t t' : str) : Prop :=
  exists r g b r' g' b', text_of t (r, g, b) /\ text_of t' (r', g', b') /\ (r <= r' /\ g <= g' /\ b <= b')%Z.

(** ** texts *)
Lemma hex_digit_char d : (0 <= d < 16)%Z -> hex_digit (hex_char d) = Some d.
Proof.
  intros H. assert (C : In d (map Z.of_nat (seq 0 16))).
  { rewrite <- (Z2Nat.id d) by lia. apply in_map. apply in_seq. lia. }
  cbn in C. repeat (destruct C as [<-|C]; [reflexivity|]). destruct C.
Qed.
Lemma int16_hex2 z : byte z -> int16 (hex_char (z / 16)) (hex_char (z mod 16)) = Ok z.
Proof.
  intros (A & B). unfold int16. rewrite hex_digit_char, hex_digit_char.
  - f_equal. pose proof (Z.div_mod z 16). lia.
  - apply Z.mod_pos_bound. lia.
  - split; [apply Z.div_pos; lia|apply Z.div_lt_upper_bound; lia].
Qed.
Lemma channels_show r g b : byte r -> byte g -> byte b -> channels (show r g b) = Ok (r, g, b).
Proof. intros R1 R2 R3. unfold show, hex2, channels. cbn [app]. rewrite !int16_hex2 by assumption. reflexivity. Qed.
Lemma channels_shape t c : channels t = Ok c -> shape_ok t = true.
Proof.
  unfold channels, shape_ok. destruct t as [|a l]; [discriminate|].
  destruct a as [[|] [|] [|] [|] [|] [|] [|] [|]]; try discriminate.
  do 6 (destruct l as [|? l]; [discriminate|]). destruct l; [reflexivity|discriminate].
Qed.

Lemma Int_part_spec x z : Int_part x = z <-> IZR z <= x < IZR z + 1.
Proof.
  destruct (base_Int_part x) as (A & B). split.
  - intros <-. lra.
  - intros (C & D). assert (IZR (Int_part x) < IZR (z + 1)) by (rewrite plus_IZR; lra). assert (IZR z < IZR (Int_part x + 1)) by (rewrite plus_IZR; lra).
    apply lt_IZR in H. apply lt_IZR in H0. lia.
Qed.
Lemma clip255_spec x z : clip255 x = z <-> largest z x.
Proof.
  unfold clip255, largest. rewrite Int_part_spec. assert (M : 0 <= Rmax x 0) by apply Rmax_r. split.
  - intros (A & B). assert (C : 0 <= Rmin (Rmax x 0) 255 <= 255) by (split; [apply Rmin_glb; lra|apply Rmin_r]).
    assert (H0 : (0 <= z)%Z). { assert (IZR (-1) < IZR z) by (cbn; lra). apply lt_IZR in H. lia. }
    assert (H1 : (z <= 255)%Z) by (apply le_IZR; lra). split; [split; assumption|]. split; [eapply Rle_trans; [exact A|apply Rmin_l]|].
    destruct (Z.eq_dec z 255) as [|N]; [now left|right]. assert (L : (z <= 254)%Z) by lia. apply IZR_le in L.
    destruct (Rle_or_lt (Rmax x 0) 255) as [K|K]; [rewrite Rmin_left in B by lra; pose proof (Rmax_l x 0); lra|rewrite Rmin_right in B by lra; lra].
  - intros ((H0 & H1) & A & B). apply IZR_le in H0. apply IZR_le in H1. split; [apply Rmin_glb; lra|].
    destruct B as [-> |B]; [eapply Rle_lt_trans; [apply Rmin_r|lra]|]. eapply Rle_lt_trans; [apply Rmin_l|]. apply Rmax_lub_lt; lra.
Qed.
Lemma clip255_byte x : byte (clip255 x).
Proof. exact (proj1 (proj1 (clip255_spec x _) eq_refl)). Qed.
Lemma clip255_le x y : x <= y -> (clip255 x <= clip255 y)%Z.
Proof.
  intros H. destruct (proj1 (clip255_spec x _) eq_refl) as ((A0 & A1) & A2 & A3). destruct (proj1 (clip255_spec y _) eq_refl) as ((B0 & B1) & B2 & B3).
  destruct (Z_le_gt_dec (clip255 x) (clip255 y)) as [|G]; [assumption|exfalso]. destruct B3 as [B3|B3]; [lia|].
  assert (L : (clip255 y + 1 <= clip255 x)%Z) by lia. apply IZR_le in L. rewrite plus_IZR in L. apply IZR_le in B0.
  destruct (Rle_or_lt 0 x); [rewrite Rmax_left in A2 by lra; lra|rewrite Rmax_right in A2 by lra; lra].
Qed.

(** ** one colour *)
(** scaling multiplies every channel and takes the largest byte not above; the result is a valid colour *)
Theorem C112_scale : forall t f r g b, text_of t (r, g, b) -> 0 < f ->
  exists r' g' b', scale_color t f = Ok (show r' g' b') /\ text_of (show r' g' b') (r', g', b') /\
  largest r' (IZR r * f) /\ largest g' (IZR g * f) /\ largest b' (IZR b * f).
Proof.
  intros t f r g b H Hf. exists (clip255 (IZR r * f)), (clip255 (IZR g * f)), (clip255 (IZR b * f)).
  split; [|split; [|repeat split]].
  - unfold scale_color. rewrite (channels_shape _ _ H). cbn [negb]. destruct (Rleb_spec f 0); [lra|]. unfold text_of in H. rewrite H. reflexivity.
  - apply channels_show; apply clip255_byte.
  - apply clip255_byte.
  - apply clip255_byte.
  - exact (proj1 (proj2 (proj1 (clip255_spec _ _) eq_refl))).
  - exact (proj2 (proj2 (proj1 (clip255_spec _ _) eq_refl))).
  - apply clip255_byte.
  - apply clip255_byte.
  - exact (proj1 (proj2 (proj1 (clip255_spec _ _) eq_refl))).
  - exact (proj2 (proj2 (proj1 (clip255_spec _ _) eq_refl))).
  - apply clip255_byte.
  - apply clip255_byte.
  - exact (proj1 (proj2 (proj1 (clip255_spec _ _) eq_refl))).
  - exact (proj2 (proj2 (proj1 (clip255_spec _ _) eq_refl))).
Qed.
Print Assumptions C112_scale.
Lemma int16_err a b e : int16 a b = Err e -> e = ValueError.
Proof. unfold int16. destruct (hex_digit a), (hex_digit b); repeat match goal with |- context [if ?c then _ else _] => destruct c end; congruence. Qed.
Lemma channels_err t e : channels t = Err e -> e = ValueError.
Proof.
  unfold channels. destruct t as [|a l]; [congruence|].
  destruct a as [[|] [|] [|] [|] [|] [|] [|] [|]]; try congruence.
  do 6 (destruct l as [|? l]; [congruence|]). destruct l; [|congruence].
  destruct (int16 a a0) eqn:E; cbn [bind]; [|intros H; injection H as <-; eapply int16_err; eassumption].
  destruct (int16 a1 a2) eqn:E1; cbn [bind]; [|intros H; injection H as <-; eapply int16_err; eassumption].
  destruct (int16 a3 a4) eqn:E2; cbn [bind]; [discriminate|intros H; injection H as <-; eapply int16_err; eassumption].
Qed.
(** everything else is refused with one kind of error *)
Theorem C112_scale_refused : forall t f,
  (exists c, scale_color t f = Ok c) \/ scale_color t f = Err ValueError.
Proof.
  intros t f. unfold scale_color. destruct (shape_ok t); [|now right]. cbn [negb]. destruct (Rleb f 0); [now right|].
  destruct (channels t) as [[[r g] b]|e] eqn:E; [left; eexists; reflexivity|]. right. rewrite (channels_err _ _ E). reflexivity.
Qed.
Theorem C112_scale_ok_iff : forall t f, (exists c, scale_color t f = Ok c) <-> 0 < f /\ exists c, text_of t c.
Proof.
  intros t f. split.
  - intros (c & H). unfold scale_color in H. destruct (shape_ok t); [|discriminate]. cbn [negb] in H. destruct (Rleb_spec f 0); [discriminate|].
    split; [lra|]. destruct (channels t) as [x|] eqn:E; [exists x; exact E|discriminate].
  - intros (Hf & ((r, g), b) & H). destruct (C112_scale t f r g b H Hf) as (r' & g' & b' & E & _). eauto.
Qed.
Print Assumptions C112_scale_refused.
Print Assumptions C112_scale_ok_iff.
(** the factor 1 changes nothing, a larger factor never makes a darker colour *)
Theorem C112_unchanged : forall t r g b, text_of t (r, g, b) -> byte r -> byte g -> byte b -> scale_color t 1 = Ok (show r g b).
Proof.
  intros t r g b H R1 R2 R3. destruct (C112_scale t 1 r g b H Rlt_0_1) as (r' & g' & b' & E & _ & A & B & C). rewrite E.
  assert (K : forall z z', byte z -> largest z' (IZR z * 1) -> z' = z).
  { intros z z' Hz L. rewrite Rmult_1_r in L. apply clip255_spec in L. rewrite <- L. apply clip255_spec. split; [exact Hz|]. pose proof (Rmax_l (IZR z) 0). split; [lra|right; lra]. }
  rewrite (K r r' R1 A), (K g g' R2 B), (K b b' R3 C). reflexivity.
Qed.
Theorem C112_brighter : forall t f f' c c', valid t -> f <= f' -> scale_color t f = Ok c -> scale_color t f' = Ok c' -> not_brighter c c'.
Proof.
  intros t f f' c c' (r & g & b & H & (R1 & _) & (R2 & _) & (R3 & _)) L E E'.
  assert (P : 0 < f) by (apply (C112_scale_ok_iff t f); eauto). assert (P' : 0 < f') by lra.
  destruct (C112_scale t f r g b H P) as (r1 & g1 & b1 & F & T & A1 & A2 & A3). destruct (C112_scale t f' r g b H P') as (r2 & g2 & b2 & F' & T' & B1 & B2 & B3).
  rewrite F in E. injection E as <-. rewrite F' in E'. injection E' as <-. exists r1, g1, b1, r2, g2, b2. split; [exact T|]. split; [exact T'|].
  apply clip255_spec in A1, A2, A3, B1, B2, B3. apply IZR_le in R1, R2, R3. subst. repeat split; apply clip255_le; nra.
Qed.
Print Assumptions C112_unchanged.
Print Assumptions C112_brighter.

(** ** gradients *)
Lemma ln_le_0 x : 0 < x -> x <= 1 -> ln x <= 0.
Proof. intros A B. destruct (Rle_lt_or_eq_dec x 1 B) as [L| ->]; [rewrite <- ln_1; left; now apply ln_increasing|rewrite ln_1; lra]. Qed.
Lemma geom_factor a b s : 0 < b -> b < a -> 0 <= s <= 1 -> b <= a * exp (s * ln (b / a)) <= a.
Proof.
  intros Hb Ha (S0 & S1). assert (Q : 0 < b / a) by (apply Rdiv_lt_0_compat; lra).
  assert (Q1 : b / a <= 1). { apply (Rmult_le_reg_r a); [lra|]. unfold Rdiv. rewrite Rmult_assoc, Rinv_l by lra. lra. }
  pose proof (ln_le_0 _ Q Q1) as Ln. assert (E : exp (ln (b / a)) = b / a) by (now apply exp_ln).
  assert (M : forall x y, x <= y -> exp x <= exp y) by (intros x y [L| ->]; [left; now apply exp_increasing|lra]). split.
  - assert (H : exp (ln (b / a)) <= exp (s * ln (b / a))) by (apply M; nra). rewrite E in H.
    replace b with (a * (b / a)) at 1 by (field; lra). apply Rmult_le_compat_l; lra.
  - assert (H : exp (s * ln (b / a)) <= exp 0) by (apply M; nra). rewrite exp_0 in H. assert (K : a * exp (s * ln (b / a)) <= a * 1) by (apply Rmult_le_compat_l; lra). lra.
Qed.
Lemma geom_nth a b n i : (i < n)%nat -> nth i (geomspace a b n) 0 = (if (i =? 0)%nat then a else if (i =? n - 1)%nat then b else a * exp (INR i / INR (n - 1) * ln (b / a))).
Proof.
  intros H. unfold geomspace. set (F := fun i => _). rewrite (nth_indep _ 0 (F 0%nat)) by (now rewrite map_length, seq_length). rewrite map_nth, seq_nth by exact H. reflexivity.
Qed.
Lemma geom_value a b n i : 0 < b -> b < a -> (i < n)%nat -> (2 <= n)%nat -> nth i (geomspace a b n) 0 = a * exp (INR i / INR (n - 1) * ln (b / a)).
Proof.
  intros Hb Ha Hi Hn. rewrite geom_nth by exact Hi. destruct (Nat.eqb_spec i 0) as [->|N0].
  - cbn [INR]. unfold Rdiv at 1. rewrite Rmult_0_l, Rmult_0_l, exp_0. ring.
  - destruct (Nat.eqb_spec i (n - 1)) as [->|N1]; [|reflexivity].
    replace (INR (n - 1) / INR (n - 1)) with 1 by (field; apply not_0_INR; lia). rewrite Rmult_1_l, exp_ln by (apply Rdiv_lt_0_compat; lra). field. lra.
Qed.
Lemma geom_bounds a b n i : 0 < b -> b < a -> (i < n)%nat -> b <= nth i (geomspace a b n) 0 <= a.
Proof.
  intros Hb Ha Hi. destruct (Nat.le_gt_cases 2 n) as [Hn|Hn].
  - rewrite geom_value by assumption. apply geom_factor; try assumption. assert (0 < INR (n - 1)) by (apply lt_0_INR; lia). split.
    + apply Rmult_le_pos; [apply pos_INR|left; now apply Rinv_0_lt_compat].
    + apply (Rmult_le_reg_r (INR (n - 1))); [assumption|]. replace (INR i / INR (n - 1) * INR (n - 1)) with (INR i) by (field; lra). rewrite Rmult_1_l. apply le_INR. lia.
  - rewrite geom_nth by exact Hi. replace i with 0%nat by lia. cbn [Nat.eqb]. lra.
Qed.
Lemma geom_decreasing a b n i j : 0 < b -> b < a -> (i <= j < n)%nat -> nth j (geomspace a b n) 0 <= nth i (geomspace a b n) 0.
Proof.
  intros Hb Ha (Hij & Hj). destruct (Nat.le_gt_cases 2 n) as [Hn|Hn]; [|replace j with i by lia; lra].
  rewrite !geom_value by (try assumption; lia). assert (P : 0 < INR (n - 1)) by (apply lt_0_INR; lia).
  assert (Q : 0 < b / a) by (apply Rdiv_lt_0_compat; lra).
  assert (Q1 : b / a <= 1). { apply (Rmult_le_reg_r a); [lra|]. unfold Rdiv. rewrite Rmult_assoc, Rinv_l by lra. lra. }
  pose proof (ln_le_0 _ Q Q1) as Ln. apply Rmult_le_compat_l; [lra|].
  assert (I : INR i / INR (n - 1) <= INR j / INR (n - 1)) by (apply Rmult_le_compat_r; [left; now apply Rinv_0_lt_compat|now apply le_INR]).
  assert (L : INR j / INR (n - 1) * ln (b / a) <= INR i / INR (n - 1) * ln (b / a)) by nra.
  destruct L as [L| ->]; [left; now apply exp_increasing|lra].
Qed.
Lemma mapE_nth {A B} (f : A -> res B) l m d d' i : mapE f l = Ok m -> (i < length l)%nat -> length m = length l /\ f (nth i l d) = Ok (nth i m d').
Proof.
  intros H. apply mapE_inv in H. revert i. induction H as [|x y l m E F IH]; intros i Hi; [cbn in Hi; lia|]. split.
  - cbn. f_equal. clear - F. induction F; cbn; congruence.
  - destruct i as [|i]; [exact E|]. cbn [nth]. apply IH. cbn in Hi. lia.
Qed.
Lemma mapE_len {A B} (f : A -> res B) l m : mapE f l = Ok m -> length m = length l.
Proof. intros H. apply mapE_inv in H. induction H; cbn; congruence. Qed.

(** [n] colours, the first with the larger and the last with the smaller factor, each not brighter than those before it
    and between the two extremes; refused exactly for texts that are no colours (if there is a colour to make), factors
    that are not positive or not in order, and negative numbers *)
Theorem C112_gradient : forall t n lo hi l, get_color_gradient t n lo hi = Ok l ->
  0 < lo < hi /\ (0 <= n)%Z /\ length l = Z.to_nat n /\
  (l <> [] -> scale_color t hi = Ok (nth 0 l [])) /\
  ((2 <= length l)%nat -> scale_color t lo = Ok (last l [])) /\
  (forall i, (i < length l)%nat -> exists f, lo <= f <= hi /\ scale_color t f = Ok (nth i l [])) /\
  (valid t -> forall i j, (i <= j < length l)%nat -> not_brighter (nth j l []) (nth i l [])).
Proof.
  intros t n lo hi l H. unfold get_color_gradient in H. destruct (shape_ok t); [|discriminate]. cbn [negb] in H.
  destruct (Rleb_spec lo 0); [discriminate|]. destruct (Rleb_spec hi 0); [discriminate|]. destruct (Rleb_spec hi lo); [discriminate|].
  destruct (Z.ltb_spec n 0); [discriminate|]. set (k := Z.to_nat n) in *. pose proof (mapE_len _ _ _ H) as L. unfold geomspace in L. rewrite map_length, seq_length in L.
  assert (Lg : length (geomspace hi lo k) = k) by (unfold geomspace; now rewrite map_length, seq_length).
  assert (N : forall i, (i < k)%nat -> scale_color t (nth i (geomspace hi lo k) 0) = Ok (nth i l [])).
  { intros i Hi. apply (mapE_nth _ _ _ 0 [] i H). lia. }
  split; [lra|]. split; [assumption|]. split; [exact L|]. split; [|split; [|split]].
  - intros Ne. assert (K : (0 < k)%nat) by (destruct l; [congruence|cbn in L; lia]). rewrite <- (N 0%nat K). rewrite geom_nth by exact K. reflexivity.
  - intros K. rewrite L in K. replace (last l []) with (nth (k - 1) l []).
    + rewrite <- (N (k - 1)%nat) by lia. rewrite geom_nth by lia. destruct (Nat.eqb_spec (k - 1) 0); [lia|]. rewrite Nat.eqb_refl. reflexivity.
    + rewrite <- L. clear. induction l as [|x [|y l] IH]; try reflexivity. change (last (x :: y :: l) []) with (last (y :: l) []). rewrite <- IH. cbn [length]. replace (S (S (length l)) - 1)%nat with (S (S (length l) - 1)) by lia. reflexivity.
  - intros i Hi. rewrite L in Hi. exists (nth i (geomspace hi lo k) 0). split; [apply geom_bounds; try assumption; lra|apply N, Hi].
  - intros V i j (Hij & Hj). rewrite L in Hj. eapply C112_brighter; [exact V| |apply N; lia|apply N; lia]. apply geom_decreasing; try lra; lia.
Qed.
Print Assumptions C112_gradient.
Theorem C112_gradient_ok : forall t n lo hi c, text_of t c -> 0 < lo < hi -> (0 <= n)%Z -> exists l, get_color_gradient t n lo hi = Ok l.
Proof.
  intros t n lo hi c H (H0 & H1) Hn. unfold get_color_gradient. rewrite (channels_shape _ _ H). cbn [negb]. destruct (Rleb_spec lo 0); [lra|].
  destruct (Rleb_spec hi 0); [lra|]. destruct (Rleb_spec hi lo); [lra|]. destruct (Z.ltb_spec n 0); [lia|]. set (k := Z.to_nat n).
  assert (A : forall f, In f (geomspace hi lo k) -> exists y, scale_color t f = Ok y).
  { intros f Hf. apply (In_nth _ _ 0) in Hf as (i & Hi & <-). unfold geomspace in Hi. rewrite map_length, seq_length in Hi.
    apply C112_scale_ok_iff. split; [pose proof (geom_bounds hi lo k i H0 H1 Hi); lra|eauto]. }
  induction (geomspace hi lo k) as [|x r IH]; [eexists; reflexivity|]. destruct (A x (or_introl eq_refl)) as (y & E). destruct IH as (l & El); [intros f Hf; apply A; now right|].
  exists (y :: l). cbn [mapE]. rewrite E. cbn [bind]. rewrite El. reflexivity.
Qed.
Print Assumptions C112_gradient_ok.

(** contours: as many lines as filled areas, and with a factor of at most 1 no line is brighter than its area *)
Theorem C112_contours : forall t n lo hi f lines areas, valid t -> get_contour_colors t n lo hi f = Ok (lines, areas) -> f <= 1 ->
  length lines = Z.to_nat n /\ length areas = Z.to_nat n /\ forall i, (i < length lines)%nat -> not_brighter (nth i lines []) (nth i areas []).
Proof.
  intros t n lo hi f lines areas V H Hf. unfold get_contour_colors in H. destruct (get_color_gradient t n lo hi) as [a|] eqn:Ea; [|discriminate]. cbn [bind] in H.
  destruct (get_color_gradient t n (f * lo) (f * hi)) as [b|] eqn:Eb; [|discriminate]. cbn [bind] in H. assert (a = areas) by congruence. assert (b = lines) by congruence. subst a b. clear H.
  destruct (C112_gradient _ _ _ _ _ Ea) as ((L0 & L1) & Hn & La & _). destruct (C112_gradient _ _ _ _ _ Eb) as ((M0 & M1) & _ & Lb & _).
  split; [exact Lb|]. split; [exact La|]. intros i Hi. unfold get_color_gradient in Ea, Eb. destruct (shape_ok t); [|discriminate]. cbn [negb] in Ea, Eb.
  destruct (Rleb lo 0); [discriminate|]. destruct (Rleb hi 0); [discriminate|]. destruct (Rleb hi lo); [discriminate|].
  destruct (Rleb (f * lo) 0); [discriminate|]. destruct (Rleb (f * hi) 0); [discriminate|]. destruct (Rleb (f * hi) (f * lo)); [discriminate|].
  destruct (n <? 0)%Z; [discriminate|]. set (k := Z.to_nat n) in *.
  assert (G1 : length (geomspace hi lo k) = k) by (unfold geomspace; now rewrite map_length, seq_length).
  assert (G2 : length (geomspace (f * hi) (f * lo) k) = k) by (unfold geomspace; now rewrite map_length, seq_length).
  assert (Hik : (i < k)%nat) by lia.
  pose proof (proj2 (mapE_nth _ _ _ 0 [] i Ea ltac:(lia))) as A. pose proof (proj2 (mapE_nth _ _ _ 0 [] i Eb ltac:(lia))) as B.
  refine (C112_brighter _ _ _ _ _ V _ B A). assert (Pf : 0 < f) by nra.
  pose proof (geom_bounds hi lo k i L0 L1 Hik) as Bd.
  assert (E : nth i (geomspace (f * hi) (f * lo) k) 0 = f * nth i (geomspace hi lo k) 0).
  { rewrite !geom_nth by exact Hik. destruct (i =? 0)%nat; [reflexivity|]. destruct (i =? k - 1)%nat; [reflexivity|].
    replace (f * lo / (f * hi)) with (lo / hi) by (field; lra). ring. }
  rewrite E. nra.
Qed.
Print Assumptions C112_contours.

(** ** palettes and markers *)
Theorem C112_colors : forall A (standard : list A) make n, (forall k, length (make k) = k) -> length (get_colors standard make n) = n /\
  ((n <= length standard)%nat -> forall i d, (i < n)%nat -> nth i (get_colors standard make n) d = nth i standard d).
Proof.
  intros A standard make n M. unfold get_colors. destruct (Nat.leb_spec n (length standard)) as [L|L].
  - split; [now apply firstn_length_le|]. intros _ i d Hi. clear M L. revert n i Hi. induction standard as [|x l IH]; intros [|n] i Hi; try lia; [destruct i; reflexivity|].
    cbn [firstn]. destruct i as [|i]; [reflexivity|]. cbn [nth]. apply IH. lia.
  - split; [apply M|lia].
Qed.
Print Assumptions C112_colors.
Lemma marker_nth n i : (i < n)%nat -> nth i (get_markers n) " "%char = nth (i mod 9) marker_cycle " "%char.
Proof.
  intros H. unfold get_markers. set (F := fun i => _). rewrite (nth_indep _ _ (F 0%nat)) by (now rewrite map_length, seq_length). rewrite map_nth, seq_nth by exact H. reflexivity.
Qed.
(** [n] markers; neighbours always differ and so do any two of the first eight *)
Theorem C112_markers : forall n, length (get_markers n) = n /\
  (forall i, (S i < n)%nat -> nth i (get_markers n) " "%char <> nth (S i) (get_markers n) " "%char) /\
  (forall i j, (i < j < n)%nat -> (j < 8)%nat -> nth i (get_markers n) " "%char <> nth j (get_markers n) " "%char).
Proof.
  intros n. split; [unfold get_markers; now rewrite map_length, seq_length|]. split.
  - intros i Hi. rewrite !marker_nth by lia. pose proof (Nat.mod_upper_bound i 9 ltac:(lia)) as B.
    assert (E : (S i mod 9 = if i mod 9 =? 8 then 0 else S (i mod 9))%nat).
    { rewrite (Nat.div_mod i 9) at 1 by lia. destruct (Nat.eqb_spec (i mod 9) 8) as [->|N].
      - replace (S (9 * (i / 9) + 8))%nat with (0 + (i / 9 + 1) * 9)%nat by lia. rewrite Nat.mod_add by lia. reflexivity.
      - replace (S (9 * (i / 9) + i mod 9))%nat with (S (i mod 9) + (i / 9) * 9)%nat by lia. rewrite Nat.mod_add by lia. apply Nat.mod_small. lia. }
    rewrite E. destruct (i mod 9) as [|[|[|[|[|[|[|[|[|k]]]]]]]]]; cbn; try discriminate. lia.
  - intros i j (H1 & H2) H3. rewrite !marker_nth by lia. rewrite !Nat.mod_small by lia.
    do 8 (destruct j as [|j]; [do 8 (destruct i as [|i]; [cbn; try discriminate; lia|]); lia|]). lia.
Qed.
Print Assumptions C112_markers.
(** nine data sets do not get nine markers: the third and the ninth are the same *)
Theorem C112_markers_refuted : forall n, (9 <= n)%nat -> nth 2 (get_markers n) " "%char = nth 8 (get_markers n) " "%char.
Proof. intros n H. rewrite !marker_nth by lia. reflexivity. Qed.
Print Assumptions C112_markers_refuted.

(** ** smoothing *)
Lemma kernel_pos s d : 0 < kernel s d.
Proof. apply exp_pos. Qed.
Lemma kernel_le1 s d : kernel s d <= 1.
Proof. unfold kernel. rewrite <- exp_0. destruct (Req_EM_T (-0.5 * (d / s) ^ 2) 0) as [-> |N]; [lra|]. left. apply exp_increasing. pose proof (pow2_ge_0 (d / s)). lra. Qed.
Lemma total_nonneg x s e : 0 <= rsum (map (fun xi => kernel s (e - xi)) x).
Proof.
  induction x as [|b x IH]; [apply Rle_refl|]. change (0 <= kernel s (e - b) + rsum (map (fun xi => kernel s (e - xi)) x)). pose proof (kernel_pos s (e - b)). lra.
Qed.
Lemma total_pos x s e : x <> [] -> 0 < rsum (map (fun xi => kernel s (e - xi)) x).
Proof.
  destruct x as [|a x]; [congruence|]. intros _. cbn [map rsum fold_right]. fold (rsum (map (fun xi => kernel s (e - xi)) x)).
  assert (0 <= rsum (map (fun xi => kernel s (e - xi)) x)) by apply total_nonneg.
  pose proof (kernel_pos s (e - a)). lra.
Qed.
Definition total_weight (x : list R) (s e : R) : R := rsum (map (fun xi => exp (- ((e - xi) / s) ^ 2 / 2)) x).
Lemma total_eq x s e : rsum (map (fun xi => kernel s (e - xi)) x) = total_weight x s e.
Proof. unfold total_weight. f_equal. apply map_ext. intros a. unfold kernel. f_equal. lra. Qed.
(** one value per point of evaluation, missing exactly if the total weight of the data there is below the threshold *)
Theorem C112_smooth_defined : forall x y s ev th l, gaussian_kernel_smooth x y s ev th = Ok l ->
  let e := match ev with Some e => e | None => x end in
  length x = length y /\ length l = length e /\ forall i, (i < length e)%nat -> (nth i l None = None <-> total_weight x s (nth i e 0) < th).
Proof.
  intros x y s ev th l H. unfold gaussian_kernel_smooth in H. destruct (Nat.eqb_spec (length x) (length y)) as [L|]; [|discriminate]. cbn [negb] in H.
  set (e := match ev with Some e => e | None => x end) in *. assert (E : l = map (smooth_at x y s th) e) by congruence. subst l. cbv zeta.
  split; [exact L|]. split; [apply map_length|]. intros i Hi. rewrite (nth_indep _ None (smooth_at x y s th 0)) by (now rewrite map_length). rewrite map_nth.
  unfold smooth_at. cbv zeta. rewrite total_eq. destruct (Rltb_spec (total_weight x s (nth i e 0)) th); split; intros; try easy; try discriminate; lra.
Qed.
Print Assumptions C112_smooth_defined.
(** with a threshold of at most 1 the smoothed curve is defined at every data point *)
Theorem C112_smooth_own : forall x y s th e, In e x -> th <= 1 -> smooth_at x y s th e <> None.
Proof.
  intros x y s th e H Ht. unfold smooth_at. cbv zeta. assert (1 <= rsum (map (fun xi => kernel s (e - xi)) x)).
  { assert (P : forall l, 0 <= rsum (map (fun xi => kernel s (e - xi)) l)). { intros l. apply total_nonneg. }
    induction x as [|a x IH]; [destruct H|]. cbn [map rsum fold_right]. fold (rsum (map (fun xi => kernel s (e - xi)) x)). destruct H as [->|H].
    - specialize (P x). assert (K : kernel s (e - e) = 1). { unfold kernel. replace (e - e) with 0 by ring. unfold Rdiv. rewrite Rmult_0_l, pow_i, Rmult_0_r by lia. apply exp_0. } rewrite K. lra.
    - specialize (IH H). pose proof (kernel_pos s (e - a)). lra. }
  destruct (Rltb_spec (rsum (map (fun xi => kernel s (e - xi)) x)) th); [lra|discriminate].
Qed.
Print Assumptions C112_smooth_own.
Lemma weighted_bounds w : forall y lo hi, length w = length y -> Forall (fun a => 0 <= a) w -> Forall (fun v => lo <= v <= hi) y ->
  lo * rsum w <= rsum (zip2 Rmult w y) <= hi * rsum w.
Proof.
  induction w as [|a w IH]; intros [|v y] lo hi L W Y; try discriminate; [cbn; lra|]. inversion W; subst. inversion Y; subst. cbn [zip2 rsum fold_right].
  fold (rsum w). fold (rsum (zip2 Rmult w y)). specialize (IH y lo hi ltac:(now injection L) H2 H4). nra.
Qed.
(** a smoothed value is between the smallest and the largest data value (so constants stay what they are) *)
Theorem C112_smooth_between : forall x y s th e v lo hi, length x = length y -> x <> [] -> smooth_at x y s th e = Some v ->
  Forall (fun a => lo <= a <= hi) y -> lo <= v <= hi.
Proof.
  intros x y s th e v lo hi L Ne H F. unfold smooth_at in H. cbv zeta in H. set (w := map (fun xi => kernel s (e - xi)) x) in *.
  destruct (Rltb (rsum w) th); [discriminate|]. assert (E : v = rsum (zip2 Rmult w y) / rsum w) by congruence. rewrite E.
  pose proof (total_pos x s e Ne) as P. fold w in P.
  assert (B : lo * rsum w <= rsum (zip2 Rmult w y) <= hi * rsum w).
  { apply weighted_bounds; [unfold w; now rewrite map_length| |exact F]. unfold w. rewrite Forall_map, Forall_forall. intros a _. left. apply kernel_pos. }
  split; (apply (Rmult_le_reg_r (rsum w)); [exact P|]); replace (rsum (zip2 Rmult w y) / rsum w * rsum w) with (rsum (zip2 Rmult w y)) by (field; lra); lra.
Qed.
Print Assumptions C112_smooth_between.
(** the smoothed value is the weighted mean of the data; it commutes with changes of units and with shifts of the axis *)
Theorem C112_smooth_affine : forall x y s th e a b, length x = length y -> x <> [] ->
  smooth_at x (map (fun v => a * v + b) y) s th e = option_map (fun v => a * v + b) (smooth_at x y s th e) /\
  forall t, smooth_at (map (fun v => v + t) x) y s th (e + t) = smooth_at x y s th e.
Proof.
  intros x y s th e a b L Ne. split.
  - unfold smooth_at. cbv zeta. set (w := map (fun xi => kernel s (e - xi)) x). pose proof (total_pos x s e Ne) as P. fold w in P.
    destruct (Rltb (rsum w) th); [reflexivity|]. cbn [option_map]. f_equal.
    assert (E : rsum (zip2 Rmult w (map (fun v => a * v + b) y)) = a * rsum (zip2 Rmult w y) + b * rsum w).
    { assert (Lw : length w = length y) by (unfold w; now rewrite map_length). clear - Lw. revert y Lw. induction w as [|c w IH]; intros [|v y] Lw; try discriminate; [cbn; ring|].
      cbn [map zip2 rsum fold_right]. fold (rsum w). fold (rsum (zip2 Rmult w y)). fold (rsum (zip2 Rmult w (map (fun v => a * v + b) y))). rewrite IH by (now injection Lw). ring. }
    rewrite E. field. lra.
  - intros t. unfold smooth_at. cbv zeta. rewrite map_map. assert (E : map (fun v => kernel s (e + t - (v + t))) x = map (fun xi => kernel s (e - xi)) x).
    { apply map_ext. intros v. f_equal. ring. } now rewrite E.
Qed.
Print Assumptions C112_smooth_affine.
(** the documentation of the default threshold, 0.683 for "approximately one sigma": one sigma away from a single data
    point the weight is exp(-1/2) = 0.607 and nothing is returned *)
Theorem C112_threshold_refuted : forall x0 y0 s, 0 < s -> smooth_at [x0] [y0] s 0.683 (x0 + s) = None.
Proof.
  intros x0 y0 s Hs. unfold smooth_at. cbv zeta. cbn [map]. unfold kernel. replace ((x0 + s - x0) / s) with 1 by (field; lra).
  cbn [rsum fold_right]. assert (E : exp (-0.5 * 1 ^ 2) < 0.683).
  { replace (-0.5 * 1 ^ 2) with (- (1 / 2)) by lra. rewrite exp_Ropp. assert (H : 1 + 1 / 2 < exp (1 / 2)) by (apply exp_ineq1; lra).
    apply (Rlt_le_trans _ (/ (1 + 1 / 2))); [apply Rinv_lt_contravar; [nra|exact H]|lra]. }
  destruct (Rltb_spec (exp (-0.5 * 1 ^ 2) + 0) 0.683); [reflexivity|lra].
Qed.
Print Assumptions C112_threshold_refuted.

(** the digits are 0-9, a-f and A-F, with the values 0 to 15 *)
Theorem C112_hex : forall c v, hex_digit c = Some v <->
  exists i, (i < 16)%nat /\ v = Z.of_nat i /\ (c = nth i (s2l "0123456789abcdef") "?"%char \/ c = nth i (s2l "0123456789ABCDEF") "?"%char).
Proof.
  intros c v. split.
  - intros H. unfold hex_digit in H. cbv zeta in H. pose proof (nat_ascii_bounded c) as Bc.
    destruct ((48 <=? Z.of_nat (nat_of_ascii c)) && (Z.of_nat (nat_of_ascii c) <=? 57))%Z%bool eqn:A; [|destruct ((97 <=? Z.of_nat (nat_of_ascii c)) && (Z.of_nat (nat_of_ascii c) <=? 102))%Z%bool eqn:B; [|
      destruct ((65 <=? Z.of_nat (nat_of_ascii c)) && (Z.of_nat (nat_of_ascii c) <=? 70))%Z%bool eqn:C; [|discriminate]]].
    + assert (V : v = Z.of_nat (nat_of_ascii c - 48)) by (injection H as H'; lia). exists (nat_of_ascii c - 48)%nat. split; [lia|]. split; [exact V|]. left.
      assert (K : In (nat_of_ascii c) (seq 48 10)) by (apply in_seq; lia). rewrite <- (ascii_nat_embedding c). clear - K.
      cbn [seq In] in K. repeat (destruct K as [<-|K]; [reflexivity|]). destruct K.
    + assert (V : v = Z.of_nat (nat_of_ascii c - 87)) by (injection H as H'; lia). exists (nat_of_ascii c - 87)%nat. split; [lia|]. split; [exact V|]. left.
      assert (K : In (nat_of_ascii c) (seq 97 6)) by (apply in_seq; lia). rewrite <- (ascii_nat_embedding c). clear - K.
      cbn [seq In] in K. repeat (destruct K as [<-|K]; [reflexivity|]). destruct K.
    + assert (V : v = Z.of_nat (nat_of_ascii c - 55)) by (injection H as H'; lia). exists (nat_of_ascii c - 55)%nat. split; [lia|]. split; [exact V|]. right.
      assert (K : In (nat_of_ascii c) (seq 65 6)) by (apply in_seq; lia). rewrite <- (ascii_nat_embedding c). clear - K.
      cbn [seq In] in K. repeat (destruct K as [<-|K]; [reflexivity|]). destruct K.
  - intros (i & L & -> & D). assert (K : In i (seq 0 16)) by (apply in_seq; lia). clear L. cbn [seq In] in K.
    repeat (destruct K as [<-|K]; [destruct D as [-> | ->]; reflexivity|]). destruct K.
Qed.
Print Assumptions C112_hex.

(** ** instances *)
Example C112_ex : valid (s2l "#205295") /\ scale_color (s2l "#205295") 2 = Ok (s2l "#40a4ff") /\ scale_color (s2l "blue") 2 = Err ValueError.
Proof.
  split; [exists 32%Z, 82%Z, 149%Z; repeat split; try (vm_compute; congruence); vm_compute; reflexivity|]. split; [|reflexivity].
  destruct (C112_scale (s2l "#205295") 2 32 82 149 eq_refl) as (r & g & b & E & _ & A & B & C); [lra|]. rewrite E.
  apply clip255_spec in A, B, C. assert (Er : r = 64%Z) by (rewrite <- A; apply clip255_spec; split; [split; lia|rewrite Rmax_left by lra; split; [lra|right; lra]]).
  assert (Eg : g = 164%Z) by (rewrite <- B; apply clip255_spec; split; [split; lia|rewrite Rmax_left by lra; split; [lra|right; lra]]).
  assert (Eb : b = 255%Z) by (rewrite <- C; apply clip255_spec; split; [split; lia|rewrite Rmax_left by lra; split; [lra|left; reflexivity]]).
  rewrite Er, Eg, Eb. vm_compute. reflexivity.
Qed.
Example C112_gradient_ex : exists l, get_color_gradient (s2l "#205295") 2 0.8 2 = Ok l /\ length l = 2%nat.
Proof.
  destruct (C112_gradient_ok (s2l "#205295") 2 0.8 2 (32, 82, 149)%Z eq_refl) as (l & E); [split; lra|lia|]. exists l. split; [exact E|].
  exact (proj1 (proj2 (proj2 (C112_gradient _ _ _ _ _ E)))).
Qed.
Example C112_smooth_ex : exists v, smooth_at [0; 1] [2; 4] 1 0.683 0 = Some v /\ 2 <= v <= 4.
Proof.
  destruct (smooth_at [0; 1] [2; 4] 1 0.683 0) as [v|] eqn:E; [|exfalso; revert E; apply C112_smooth_own; [now left|lra]].
  exists v. split; [reflexivity|]. apply (C112_smooth_between [0; 1] [2; 4] 1 0.683 0 v); try reflexivity; try discriminate; [exact E|]. repeat constructor; lra.
Qed.
