(** C72: the estimated width of the response. *)
From Verif Require Import RBase BaseFacts Grouping Data DataProofs DataState Fwhm.
From Coq Require Import List Lra Lia.
Open Scope list_scope.
Open Scope R_scope.

(** ** specification *)
Definition at_row (row : list R) (j : nat) : R := nth j row 0.
(** the first channel where the row is largest *)
Definition is_peak (row : list R) (c : nat) : Prop :=
  (c < length row)%nat /\ (forall j, (j < length row)%nat -> at_row row j <= at_row row c) /\
  (forall j, (j < c)%nat -> at_row row j < at_row row c).
(** the nearest channel on the left (right) of the peak where the row is at most half its largest value *)
Definition left_edge (row : list R) (c l : nat) : Prop :=
  (l < c)%nat /\ at_row row l <= at_row row c / 2 /\ forall j, (l < j < c)%nat -> at_row row c / 2 < at_row row j.
Definition right_edge (row : list R) (c r : nat) : Prop :=
  (c < r < length row)%nat /\ at_row row r <= at_row row c / 2 /\ forall j, (c < j < r)%nat -> at_row row c / 2 < at_row row j.
(** the width of a row whose peak is [c]: between the edges, or twice the half width on the only side where the row falls
    to half its largest value at the end of the detector, or undefined *)
Definition is_width (row : list R) (c : nat) (w : Z) : Prop :=
  let first := at_row row 0 in let lst := at_row row (length row - 1) in let half := at_row row c / 2 in
  (first <= half /\ lst <= half /\ exists l r, left_edge row c l /\ right_edge row c r /\ w = (Z.of_nat r - Z.of_nat l)%Z) \/
  (half < first /\ lst <= half /\ exists r, right_edge row c r /\ w = (2 * (Z.of_nat r - Z.of_nat c))%Z) \/
  (first <= half /\ half < lst /\ exists l, left_edge row c l /\ w = (2 * (Z.of_nat c - Z.of_nat l))%Z) \/
  (half < first /\ half < lst /\ w = (-1)%Z).

(** ** proofs *)
Lemma argmax_from_peak l : forall pre best bi i, length pre = i -> (bi < i)%nat -> nth bi pre 0 = best ->
  (forall j, (j < i)%nat -> nth j pre 0 <= best) -> (forall j, (j < bi)%nat -> nth j pre 0 < best) ->
  is_peak (pre ++ l) (argmax_from best bi i l).
Proof.
  induction l as [|x l IH]; intros pre best bi i Hl Hb Hn Hle Hlt; cbn [argmax_from].
  - rewrite app_nil_r. unfold is_peak, at_row. rewrite Hl, Hn. auto.
  - change (pre ++ x :: l) with (pre ++ [x] ++ l). rewrite app_assoc.
    assert (Nx : nth i (pre ++ [x]) 0 = x) by (rewrite app_nth2 by lia; rewrite Hl, Nat.sub_diag; reflexivity).
    assert (Np : forall j, (j < i)%nat -> nth j (pre ++ [x]) 0 = nth j pre 0) by (intros j Hj; apply app_nth1; lia).
    destruct (Rltb best x) eqn:E; [apply Rltb_true in E|apply Rltb_false in E]; apply IH; try (rewrite app_length; cbn; lia); try lia.
    + exact Nx.
    + intros j Hj. destruct (Nat.eq_dec j i) as [->|]; [rewrite Nx; lra|]. rewrite Np by lia. specialize (Hle j). lra || (assert (nth j pre 0 <= best) by (apply Hle; lia); lra).
    + intros j Hj. rewrite Np by lia. assert (nth j pre 0 <= best) by (apply Hle; lia). lra.
    + now rewrite Np.
    + intros j Hj. destruct (Nat.eq_dec j i) as [->|]; [rewrite Nx; lra|]. rewrite Np by lia. apply Hle; lia.
    + intros j Hj. rewrite Np by lia. auto.
Qed.
Lemma argmax_peak row : row <> [] -> is_peak row (argmax row).
Proof.
  destruct row as [|x l]; [congruence|]. intros _. change (x :: l) with ([x] ++ l). apply (argmax_from_peak l [x]); cbn; try lia; try reflexivity.
  - intros j Hj. replace j with O by lia. lra.
Qed.
Lemma peak_unique row c c' : is_peak row c -> is_peak row c' -> c = c'.
Proof.
  intros (A & B & C) (A' & B' & C'). destruct (Nat.lt_trichotomy c c') as [H|[H|H]]; [|exact H|].
  - specialize (C' c H). specialize (B c' A'). lra.
  - specialize (C c' H). specialize (B' c A). lra.
Qed.
Lemma last_filter (P : nat -> bool) c : existsb P (seq 0 c) = true ->
  let l := nth (length (filter P (seq 0 c)) - 1) (filter P (seq 0 c)) O in
  (0 < length (filter P (seq 0 c)))%nat /\ (l < c)%nat /\ P l = true /\ forall j, (l < j < c)%nat -> P j = false.
Proof.
  induction c as [|c IH]; [discriminate|]. rewrite seq_S, existsb_app, filter_app. cbn [Nat.add existsb filter]. intros H.
  destruct (P c) eqn:E.
  - rewrite app_length. cbn [length]. rewrite Nat.add_sub, app_nth2, Nat.sub_diag by lia. cbn [nth]. repeat split; try lia; auto.
  - rewrite app_nil_r in *. rewrite orb_false_r in H. cbn zeta in IH. destruct (IH H) as (A & B & C & D). cbv zeta. repeat split; try lia; auto.
    intros j Hj. destruct (Nat.eq_dec j c) as [->|]; [exact E|]. apply D. lia.
Qed.
Lemma first_filter (P : nat -> bool) n : forall a, existsb P (seq a n) = true ->
  exists r t, filter P (seq a n) = r :: t /\ (a <= r < a + n)%nat /\ P r = true /\ forall j, (a <= j < r)%nat -> P j = false.
Proof.
  induction n as [|n IH]; [discriminate|]. intros a. cbn [seq existsb filter]. destruct (P a) eqn:E.
  - intros _. exists a. eexists. split; [reflexivity|]. repeat split; try lia; auto.
  - intros H. destruct (IH (S a) H) as (r & t & A & B & C & D). exists r, t. rewrite A. split; [reflexivity|]. split; [lia|]. split; [exact C|].
    intros j Hj. destruct (Nat.eq_dec j a) as [->|]; [exact E|]. apply D. lia.
Qed.
Lemma filter_none {A} (P : A -> bool) l : (forall x, In x l -> P x = false) -> filter P l = [].
Proof. induction l as [|x l IH]; intros H; [reflexivity|]. cbn. rewrite (H x (or_introl eq_refl)). apply IH. intros y Hy. apply H. now right. Qed.
Lemma filter_all {A} (P : A -> bool) l : (forall x, In x l -> P x = true) -> filter P l = l.
Proof. induction l as [|x l IH]; intros H; [reflexivity|]. cbn. rewrite (H x (or_introl eq_refl)), IH; [reflexivity|]. intros y Hy. apply H. now right. Qed.

Lemma fwhm_row_width row c : is_peak row c -> 0 < at_row row c -> is_width row c (fwhm_row row).
Proof.
  intros Hp Hm. assert (Hne : row <> []) by (intros ->; destruct Hp as (X & _); cbn in X; lia).
  assert (Ec : argmax row = c) by (apply (peak_unique row); [now apply argmax_peak|exact Hp]).
  destruct Hp as (Hc & Hmax & _). unfold fwhm_row, is_width. rewrite Ec. fold (at_row row c).
  set (half := 0.5 * at_row row c). replace (at_row row c / 2) with half by (unfold half; lra).
  set (P := fun j => Rleb (nth j row 0) half).
  assert (HPc : P c = false) by (unfold P; apply Rleb_false; fold (at_row row c); unfold half; lra).
  assert (PT : forall j, P j = true <-> at_row row j <= half) by (intros; apply Rleb_true).
  assert (PF : forall j, P j = false <-> half < at_row row j) by (intros; apply Rleb_false).
  set (A := filter P (seq 0 c)). set (B := filter P (seq (S c) (length row - c - 1))).
  assert (EAB : below row half = A ++ B).
  { unfold below. fold P. replace (length row) with (c + (1 + (length row - c - 1)))%nat by lia. rewrite seq_app, filter_app.
    cbn [Nat.add seq filter]. rewrite HPc. replace (c + S (length row - c - 1) - c - 1)%nat with (length row - c - 1)%nat by lia. reflexivity. }
  assert (HA : forall x, In x A -> (x < c)%nat) by (intros x Hx; apply filter_In in Hx as (Hx & _); apply in_seq in Hx; lia).
  assert (HB : forall x, In x B -> (c < x)%nat) by (intros x Hx; apply filter_In in Hx as (Hx & _); apply in_seq in Hx; lia).
  assert (Ek : searchsorted (below row half) c = length A).
  { unfold searchsorted. rewrite EAB, filter_app, (filter_all _ A), (filter_none _ B), app_nil_r; [reflexivity| |].
    - intros x Hx. apply Nat.ltb_ge. specialize (HB x Hx). lia.
    - intros x Hx. apply Nat.ltb_lt. auto. }
  rewrite Ek, EAB, app_length.
  assert (Hlast : last row 0 = at_row row (length row - 1)).
  { clear -Hne. unfold at_row. destruct (exists_last Hne) as (l & x & ->). rewrite last_last, app_length. cbn. rewrite Nat.add_sub, app_nth2, Nat.sub_diag by lia. reflexivity. }
  rewrite Hlast. fold (at_row row 0).
  (* left side *)
  assert (HL : at_row row 0 <= half -> exists l, left_edge row c l /\
     (if (0 <? length A)%nat then Z.of_nat (nth (length A - 1) (A ++ B) O) else (Z.of_nat c - 1)%Z) = Z.of_nat l).
  { intros H0. assert (c <> O) by (intros X; apply PT in H0; rewrite X in HPc; congruence).
    assert (X : existsb P (seq 0 c) = true) by (apply existsb_exists; exists O; split; [apply in_seq; lia|now apply PT]).
    apply last_filter in X. cbv zeta in X. fold A in X. destruct X as (X1 & X2 & X3 & X4). exists (nth (length A - 1) A O).
    split; [|apply Nat.ltb_lt in X1 as X5; rewrite X5, app_nth1 by lia; reflexivity].
    unfold left_edge. replace (at_row row c / 2) with half by (unfold half; lra). split; [exact X2|]. split; [now apply PT|]. intros j Hj. apply PF. auto. }
  assert (HR : at_row row (length row - 1) <= half -> exists r, right_edge row c r /\
     (if (length A <? length A + length B)%nat then Z.of_nat (nth (length A) (A ++ B) O) else (Z.of_nat c + 1)%Z) = Z.of_nat r).
  { intros H0. assert (c <> (length row - 1)%nat) by (intros X; apply PT in H0; rewrite <- X in H0; congruence).
    assert (X : existsb P (seq (S c) (length row - c - 1)) = true) by (apply existsb_exists; exists (length row - 1)%nat; split; [apply in_seq; lia|now apply PT]).
    apply first_filter in X as (r & t & X1 & X2 & X3 & X4). exists r. fold B in X1. rewrite X1. cbn [length].
    assert (X5 : (length A <? length A + S (length t))%nat = true) by (apply Nat.ltb_lt; lia). rewrite X5, app_nth2, Nat.sub_diag by lia. cbn [nth].
    split; [|reflexivity]. unfold right_edge. replace (at_row row c / 2) with half by (unfold half; lra). split; [lia|]. split; [now apply PT|].
    intros j Hj. apply PF. apply X4. lia. }
  set (lo := if (0 <? length A)%nat then _ else _) in *. set (hi := if (length A <? _)%nat then _ else _) in *.
  assert (CL : forall x, (x < length row)%nat -> clip 0 (Z.of_nat (length row) - 1) (Z.of_nat x) = Z.of_nat x) by (intros; unfold clip; lia).
  destruct (Rleb (at_row row 0) half) eqn:E0; destruct (Rleb (at_row row (length row - 1)) half) eqn:E1; cbn [xorb orb];
    first [apply Rleb_true in E0|apply Rleb_false in E0]; first [apply Rleb_true in E1|apply Rleb_false in E1].
  - left. split; [exact E0|]. split; [exact E1|]. destruct (HL E0) as (l & Hl & ->). destruct (HR E1) as (r & Hr & ->).
    exists l, r. split; [exact Hl|]. split; [exact Hr|]. destruct Hl as (Hl & _), Hr as (Hr & _). rewrite !CL by lia. lia.
  - right. right. left. split; [exact E0|]. split; [exact E1|]. destruct (HL E0) as (l & Hl & ->). exists l. split; [exact Hl|].
    destruct Hl as (Hl & _). rewrite CL by lia. lia.
  - right. left. split; [exact E0|]. split; [exact E1|]. destruct (HR E1) as (r & Hr & ->). exists r. split; [exact Hr|].
    destruct Hr as (Hr & _). rewrite CL by lia. lia.
  - right. right. right. auto.
Qed.

(** every photon bin with some response gets its width *)
Theorem C72_fwhm : forall matrix w, fwhm matrix = Ok w -> length w = length matrix /\
  forall i, (i < length matrix)%nat -> let row := nth i matrix [] in
    forall c, is_peak row c -> 0 < at_row row c -> is_width row c (nth i w 0%Z).
Proof.
  intros matrix w H. assert (E : w = map fwhm_row matrix).
  { unfold fwhm in H. destruct matrix as [|r1 [|r2 m]]; [injection H as <-; reflexivity|destruct r1; discriminate|].
    destruct (existsb _ _); destruct r1; try discriminate; injection H as <-; reflexivity. }
  subst w. split; [apply map_length|]. intros i Hi row c Hp Hm.
  rewrite (nth_indep (map fwhm_row matrix) 0%Z (fwhm_row [])) by (rewrite map_length; exact Hi). rewrite (map_nth fwhm_row matrix).
  now apply fwhm_row_width.
Qed.
Print Assumptions C72_fwhm.
(** the peak of a row exists and is unique, so the width is determined *)
Theorem C72_peak : forall row, row <> [] -> exists c, is_peak row c /\ forall c', is_peak row c' -> c' = c.
Proof. intros row H. exists (argmax row). split; [now apply argmax_peak|]. intros c' Hc'. apply (peak_unique row); [exact Hc'|now apply argmax_peak]. Qed.
Print Assumptions C72_peak.
Theorem C72_width_unique : forall row c w w', is_width row c w -> is_width row c w' -> w = w'.
Proof.
  intros row c w w'. assert (L : forall l l', left_edge row c l -> left_edge row c l' -> l = l').
  { intros l l' (A & B & C) (A' & B' & C'). destruct (Nat.lt_trichotomy l l') as [X|[X|X]]; [specialize (C l' ltac:(lia)); lra|exact X|specialize (C' l ltac:(lia)); lra]. }
  assert (Q : forall l l', right_edge row c l -> right_edge row c l' -> l = l').
  { intros l l' (A & B & C) (A' & B' & C'). destruct (Nat.lt_trichotomy l l') as [X|[X|X]]; [specialize (C' l ltac:(lia)); lra|exact X|specialize (C l' ltac:(lia)); lra]. }
  unfold is_width. cbv zeta.
  intros [(A & B & l & r & X & Y & ->)|[(A & B & r & Y & ->)|[(A & B & l & X & ->)|(A & B & ->)]]]
         [(A' & B' & l' & r' & X' & Y' & ->)|[(A' & B' & r' & Y' & ->)|[(A' & B' & l' & X' & ->)|(A' & B' & ->)]]]; try lra; try reflexivity.
  - rewrite (L _ _ X X'), (Q _ _ Y Y'). reflexivity.
  - rewrite (Q _ _ Y Y'). reflexivity.
  - rewrite (L _ _ X X'). reflexivity.
Qed.
Print Assumptions C72_width_unique.
(** a width is a positive number of channels or -1 (also for rows without response, which get 1) *)
Theorem C72_positive_or_undefined : forall row, row <> [] -> (1 <= fwhm_row row)%Z \/ fwhm_row row = (-1)%Z.
Proof.
  intros row _. unfold fwhm_row. destruct (_ || _)%bool; [left|now right]. apply Z.le_max_l.
Qed.
Print Assumptions C72_positive_or_undefined.
Theorem C72_empty_row : forall row, row <> [] -> Forall (fun x => x = 0) row -> fwhm_row row = 1%Z.
Proof.
  intros row Hn HF. assert (Z : forall j, nth j row 0 = 0).
  { intros j. destruct (Nat.lt_ge_cases j (length row)) as [H|H]; [|now apply nth_overflow]. rewrite Forall_forall in HF. apply HF. now apply nth_In. }
  assert (Hc : argmax row = O).
  { apply (peak_unique row); [now apply argmax_peak|]. split; [destruct row; [congruence|cbn; lia]|]. unfold at_row. rewrite Z. split; [intros; rewrite Z; lra|lia]. }
  unfold fwhm_row. rewrite Hc, !Z. cbv zeta. replace (0.5 * 0) with 0 by lra.
  assert (HB : below row 0 = seq 0 (length row)) by (apply filter_all; intros x _; apply Rleb_true; rewrite Z; lra). rewrite HB.
  assert (HS : searchsorted (seq 0 (length row)) 0 = O) by (unfold searchsorted; rewrite filter_none; [reflexivity|intros; apply Nat.ltb_ge; lia]). rewrite HS.
  assert (HL : last row 0 = 0).
  { destruct (exists_last Hn) as (l & x & ->). rewrite last_last. rewrite Forall_forall in HF. apply HF. apply in_or_app. right. now left. }
  rewrite HL. replace (Rleb 0 0) with true by (symmetry; apply Rleb_true; lra). cbn [xorb orb].
  destruct row as [|x l]; [congruence|]. cbn [length seq Nat.ltb Nat.leb nth]. unfold clip. lia.
Qed.
Print Assumptions C72_empty_row.
(** the width of a channel is that of the photon bin its central energy falls in (of the first or last one if none) *)
Theorem C72_channel : forall egrid emin emax matrix w v, fwhm matrix = Ok w -> channel_fwhm egrid emin emax matrix = Ok v ->
  length egrid = S (length matrix) -> length emax = length emin -> (forall i j, (i < j < length egrid)%nat -> nth i egrid 0 < nth j egrid 0) ->
  length v = length emin /\
  forall k i, (k < length emin)%nat -> (i < length matrix)%nat -> let e := (nth k emin 0 + nth k emax 0) / 2 in
    nth i egrid 0 < e <= nth (S i) egrid 0 \/ (i = O /\ e <= nth 0 egrid 0) \/ (S i = length matrix /\ nth (S i) egrid 0 < e) ->
    nth k v 0%Z = nth i w 0%Z.
Proof.
  intros egrid emin emax matrix w v Hw Hv Lg Le Hinc. destruct (C72_fwhm matrix w Hw) as (Lw & _).
  unfold channel_fwhm in Hv. rewrite Hw in Hv. cbn [bind] in Hv.
  assert (E : v = zip2 (fun lo hi => nth (find_bin egrid (length w) ((lo + hi) / 2)) w 0%Z) emin emax).
  { destruct w; [destruct emin; [injection Hv as <-; reflexivity|discriminate]|injection Hv as <-; reflexivity]. }
  clear Hv. subst v. split; [rewrite zip2_length; lia|]. intros k i Hk Hi e He.
  assert (ZN : forall (f : R -> R -> Z) x y k, (k < length x)%nat -> length y = length x -> nth k (zip2 f x y) 0%Z = f (nth k x 0) (nth k y 0)).
  { clear. intros f x. induction x as [|u x IH]; intros [|v y] [|k] H L; cbn in *; try lia; auto. apply IH; lia. }
  rewrite ZN by (exact Hk || exact Le). fold e. f_equal. unfold find_bin. rewrite Lw.
  (* number of grid points below e *)
  assert (CNT : forall g m, (forall i j, (i < j < length g)%nat -> nth i g 0 < nth j g 0) -> (m <= length g)%nat ->
     (forall j, (j < m)%nat -> nth j g 0 < e) -> (forall j, (m <= j < length g)%nat -> e <= nth j g 0) ->
     length (filter (fun x => Rltb x e) g) = m).
  { clear. intros g. induction g as [|x g IH]; intros m Hi Hm H1 H2; cbn in *; [lia|]. destruct m as [|m].
    - replace (Rltb x e) with false by (symmetry; apply Rltb_false; apply (H2 O); lia).
      apply IH; [intros i j Hij; apply (Hi (S i) (S j)); lia|lia|lia|intros j Hj; apply (H2 (S j)); lia].
    - replace (Rltb x e) with true by (symmetry; apply Rltb_true; apply (H1 O); lia). cbn. f_equal.
      apply IH; [intros i j Hij; apply (Hi (S i) (S j)); lia|lia|intros j Hj; apply (H1 (S j)); lia|intros j Hj; apply (H2 (S j)); lia]. }
  assert (MONO : forall a b, (a <= b < length egrid)%nat -> nth a egrid 0 <= nth b egrid 0).
  { intros a b Hab. destruct (Nat.eq_dec a b) as [->|]; [lra|]. left. apply Hinc. lia. }
  destruct He as [(H1 & H2)|[(-> & H2)|(Ei & H1)]].
  - rewrite (CNT egrid (S i)); [unfold clip; lia|exact Hinc|lia| |].
    + intros j Hj. assert (nth j egrid 0 <= nth i egrid 0) by (apply MONO; lia). lra.
    + intros j Hj. assert (nth (S i) egrid 0 <= nth j egrid 0) by (apply MONO; lia). lra.
  - rewrite (CNT egrid O); [unfold clip; lia|exact Hinc|lia|lia|]. intros j Hj. assert (nth 0 egrid 0 <= nth j egrid 0) by (apply MONO; lia). lra.
  - rewrite (CNT egrid (length egrid)); [unfold clip; lia|exact Hinc|lia| |lia].
    intros j Hj. assert (nth j egrid 0 <= nth (S i) egrid 0) by (apply MONO; lia). lra.
Qed.
Print Assumptions C72_channel.
(** a response with a single photon bin has no width: the property raises *)
Theorem C72_single_bin_refuted : forall egrid emin emax row, exists e, channel_fwhm egrid emin emax [row] = Err e.
Proof. intros. destruct row; eexists; reflexivity. Qed.
Print Assumptions C72_single_bin_refuted.
Example C72_ex : is_peak [0; 1; 4; 3; 1] 2 /\ is_width [0; 1; 4; 3; 1] 2 3.
Proof.
  assert (B : forall (P : nat -> Prop), P 0%nat -> P 1%nat -> P 2%nat -> P 3%nat -> P 4%nat -> forall j, (j < 5)%nat -> P j).
  { intros P p0 p1 p2 p3 p4 j Hj. destruct j as [|[|[|[|[|j]]]]]; auto; lia. }
  unfold is_peak, is_width, left_edge, right_edge, at_row. cbn [length]. split.
  - split; [lia|]. split; [apply B; cbn; lra|]. intros j Hj. destruct j as [|[|j]]; cbn; try lra; lia.
  - left. cbn [nth Nat.sub]. split; [lra|]. split; [lra|]. exists 1%nat, 4%nat. repeat split; cbn [nth]; try lia; try lra.
    intros j Hj. replace j with 3%nat by lia. cbn. lra.
Qed.
