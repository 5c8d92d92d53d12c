(** C92, C93: the curves of diagnostic plots; step lines and ribbons. *)
From Coq Require Import Lia Lra Permutation Sorting.Sorted.
From Verif Require Import RBase Base Data DataProofs HelperData HelperDataProofs Results ResultsProofs Summary SummaryProofs PlotCache Prop_PlotCache SimulateProofs OgipProofs PlotCurves.
From Coq Require Import List.
Open Scope list_scope.
Open Scope R_scope.

(** ** C92 *)
Section C92.
Variables (ppf : R -> R) (beta_ppf : R -> nat -> nat -> R).
Lemma nth_positions n i : (i < n)%nat -> nth i (positions n) 0 = (INR (S i) - qq_alpha) / (INR n - 2 * qq_alpha + 1).
Proof.
  intros H. unfold positions. set (F := fun i => (INR i - qq_alpha) / (INR n - 2 * qq_alpha + 1)). rewrite (nth_indep _ 0 (F O)) by (now rewrite map_length, seq_length). rewrite map_nth, seq_nth by exact H. reflexivity.
Qed.
Lemma alpha_bound : 0 < qq_alpha <= 1 / 2.
Proof. unfold qq_alpha. pose proof PI_RGT_0. pose proof PI_4. lra. Qed.
(** the plotting positions are inside the unit interval, increasing, and symmetric *)
Theorem C92_positions : forall n i, (i < n)%nat ->
  0 < nth i (positions n) 0 < 1 /\ nth i (positions n) 0 + nth (n - 1 - i) (positions n) 0 = 1 /\
  forall j, (i < j < n)%nat -> nth i (positions n) 0 < nth j (positions n) 0.
Proof.
  intros n i H. pose proof alpha_bound as A. assert (N : 1 <= INR n) by (change 1 with (INR 1); apply le_INR; lia). assert (D : 0 < INR n - 2 * qq_alpha + 1) by lra.
  rewrite !nth_positions by lia. assert (I : 1 <= INR (S i) <= INR n) by (split; [change 1 with (INR 1)|]; apply le_INR; lia). split; [|split].
  - split; [apply Rdiv_lt_0_compat; lra|]. apply Rmult_lt_reg_r with (INR n - 2 * qq_alpha + 1); [exact D|]. unfold Rdiv. rewrite Rmult_assoc, Rinv_l by lra. lra.
  - replace (S (n - 1 - i)) with (n - i)%nat by lia. rewrite minus_INR by lia. rewrite S_INR. field. lra.
  - intros j Hj. rewrite nth_positions by lia. apply Rmult_lt_compat_r; [now apply Rinv_0_lt_compat|]. assert (INR (S i) < INR (S j)) by (apply lt_INR; lia). lra.
Qed.
Lemma nth_theoretical n i : (i < n)%nat -> nth i (theoretical ppf n) 0 = ppf (nth i (positions n) 0).
Proof. intros H. unfold theoretical. rewrite (nth_indep _ 0 (ppf 0)) by (unfold positions; now rewrite !map_length, seq_length). apply map_nth. Qed.
Lemma theoretical_len n : length (theoretical ppf n) = n.
Proof. unfold theoretical, positions. now rewrite !map_length, seq_length. Qed.
(** so that the theoretical quantiles of a symmetric law are increasing and antisymmetric *)
Theorem C92_theoretical : (forall p p', 0 < p -> p < p' -> p' < 1 -> ppf p < ppf p') -> (forall p, 0 < p < 1 -> ppf (1 - p) = - ppf p) ->
  forall n i, (i < n)%nat -> nth i (theoretical ppf n) 0 = - nth (n - 1 - i) (theoretical ppf n) 0 /\
  forall j, (i < j < n)%nat -> nth i (theoretical ppf n) 0 < nth j (theoretical ppf n) 0.
Proof.
  intros M S n i H. destruct (C92_positions n i H) as (B & Sy & I). rewrite !nth_theoretical by lia. split.
  - rewrite <- S; [f_equal; lra|]. apply C92_positions. lia.
  - intros j Hj. rewrite nth_theoretical by lia. destruct (C92_positions n j ltac:(lia)) as (B' & _). apply M; [lra|now apply I|lra].
Qed.
(** the points: the residuals in increasing order against the theoretical quantiles, less these if the trend is removed *)
Definition level (detrend : bool) (theor : list R) (i : nat) (y : R) : R := if detrend then y - nth i theor 0 else y.
Lemma sub_nth theor a i : length a = length theor -> (i < length a)%nat -> nth i (subtract theor a) 0 = nth i a 0 - nth i theor 0.
Proof. intros L H. unfold subtract. apply zip2_nth; lia. Qed.
Lemma qrows_len n a q l : quantile_rows n a q = Ok l -> length l = n.
Proof. intros H. now destruct (quantile_rows_nth _ _ _ _ H). Qed.
Lemma get_qq_inv q detrend cl qsim c : get_qq ppf beta_ppf q detrend cl qsim = Ok c -> let n := length q in exists line lower upper,
  (forall i, (i < n)%nat -> nth i (qq_theor c) 0 = ppf (nth i (positions n) 0) /\
    nth i (qq_q c) 0 = level detrend (qq_theor c) i (nth i (sortR q) 0) /\ nth i (qq_line c) 0 = level detrend (qq_theor c) i (nth i line 0) /\
    nth i (qq_lower c) 0 = level detrend (qq_theor c) i (nth i lower 0) /\ nth i (qq_upper c) 0 = level detrend (qq_theor c) i (nth i upper 0)) /\
  length (qq_theor c) = n /\ length (qq_q c) = n /\ length (qq_line c) = n /\ length (qq_lower c) = n /\ length (qq_upper c) = n /\
  match qsim with
  | Some s => quantile_rows n (map sortR s) 0.5 = Ok line /\ quantile_rows n (map sortR s) (0.5 - 0.5 * cl) = Ok lower /\ quantile_rows n (map sortR s) (0.5 + 0.5 * cl) = Ok upper
  | None => line = theoretical ppf n /\ lower = map (fun i => ppf (beta_ppf (0.5 - cl * 0.5) i (n + 1 - i))) (seq 1 n) /\ upper = map (fun i => ppf (beta_ppf (0.5 + cl * 0.5) i (n + 1 - i))) (seq 1 n)
  end.
Proof.
  intros H n. unfold get_qq in H. fold n in H. cbv zeta in H. apply bind_ok in H as ([[line lower] upper] & Hb & H). injection H as <-.
  assert (L : length line = n /\ length lower = n /\ length upper = n).
  { destruct qsim as [s|].
    - apply bind_ok in Hb as (l1 & E1 & Hb). apply bind_ok in Hb as (l2 & E2 & Hb). apply bind_ok in Hb as (l3 & E3 & Hb). injection Hb as <- <- <-. repeat split; eapply qrows_len; eassumption.
    - injection Hb as <- <- <-. rewrite !map_length, seq_length, theoretical_len. auto. }
  destruct L as (L1 & L2 & L3). exists line, lower, upper. cbn [qq_theor qq_q qq_line qq_lower qq_upper].
  pose proof (theoretical_len n) as LT. assert (LQ : length (sortR q) = n) by apply sortR_length.
  assert (LS : forall a, length a = n -> length ((if detrend then subtract (theoretical ppf n) else fun a => a) a) = n).
  { intros a La. destruct detrend; [unfold subtract; rewrite zip2_len; congruence|exact La]. }
  split; [|repeat split; try apply LS; try assumption].
  - intros i Hi. split; [now apply nth_theoretical|]. unfold level. destruct detrend; [|repeat split]. repeat split; apply sub_nth; lia.
  - destruct qsim as [s|]; [|now injection Hb as <- <- <-].
    apply bind_ok in Hb as (l1 & E1 & Hb). apply bind_ok in Hb as (l2 & E2 & Hb). apply bind_ok in Hb as (l3 & E3 & Hb). injection Hb as <- <- <-. auto.
Qed.
Theorem C92_points : forall q detrend cl qsim c, get_qq ppf beta_ppf q detrend cl qsim = Ok c ->
  length (qq_q c) = length q /\ exists s, Permutation q s /\ StronglySorted Rle s /\
  forall i, (i < length q)%nat -> nth i (qq_theor c) 0 = ppf (nth i (positions (length q)) 0) /\ nth i (qq_q c) 0 = level detrend (qq_theor c) i (nth i s 0).
Proof.
  intros q detrend cl qsim c H. destruct (get_qq_inv _ _ _ _ _ H) as (line & lower & upper & P & _ & L & _). split; [exact L|]. exists (sortR q). split; [apply sortR_perm|]. split; [apply sortR_sorted|].
  intros i Hi. destruct (P i Hi) as (A & B & _). auto.
Qed.
(** the band with simulations: in every place the central proportion of the simulated residuals of that rank, around their median *)
Theorem C92_band : forall q detrend cl sims c, 0 < cl < 1 -> get_qq ppf beta_ppf q detrend cl (Some sims) = Ok c ->
  forall i, (i < length q)%nat -> exists lo mid hi,
    let x := map (fun s => nth i (sortR s) 0) sims in let m := INR (length sims - 1) in
    nth i (qq_lower c) 0 = level detrend (qq_theor c) i lo /\ nth i (qq_line c) 0 = level detrend (qq_theor c) i mid /\ nth i (qq_upper c) 0 = level detrend (qq_theor c) i hi /\
    lo <= mid <= hi /\
    forall k, (count (fun y => y <= lo) x k -> (1 - cl) / 2 * m < INR k) /\ (count (fun y => hi <= y) x k -> (1 - cl) / 2 * m < INR k) /\
              (count (fun y => lo <= y) x k -> (1 + cl) / 2 * m < INR k) /\ (count (fun y => y <= hi) x k -> (1 + cl) / 2 * m < INR k) /\
              (count (fun y => y <= mid) x k -> m / 2 < INR k) /\ (count (fun y => mid <= y) x k -> m / 2 < INR k).
Proof.
  intros q detrend cl sims c Hc H i Hi. destruct (get_qq_inv _ _ _ _ _ H) as (line & lower & upper & P & _ & _ & _ & _ & _ & E1 & E2 & E3).
  destruct (P i Hi) as (_ & _ & P1 & P2 & P3). exists (nth i lower 0), (nth i line 0), (nth i upper 0). cbv zeta.
  apply quantile_rows_nth in E1 as [_ E1]. apply quantile_rows_nth in E2 as [_ E2]. apply quantile_rows_nth in E3 as [_ E3]. specialize (E1 i Hi). specialize (E2 i Hi). specialize (E3 i Hi).
  assert (C : col (map sortR sims) i = map (fun s => nth i (sortR s) 0) sims) by (unfold col; apply map_map). rewrite C in *. set (x := map (fun s => nth i (sortR s) 0) sims) in *.
  assert (Lx : length x = length sims) by apply map_length. rewrite <- Lx. repeat (split; [assumption|]).
  split; [split; [apply (quantile_mono _ _ _ _ _ E2 E1); lra|apply (quantile_mono _ _ _ _ _ E1 E3); lra]|].
  intros k. repeat split; intros K; [pose proof (quantile_below _ _ _ _ E2 K)|pose proof (quantile_above _ _ _ _ E3 K)|pose proof (quantile_above _ _ _ _ E2 K)|pose proof (quantile_below _ _ _ _ E3 K)|pose proof (quantile_below _ _ _ _ E1 K)|pose proof (quantile_above _ _ _ _ E1 K)]; lra.
Qed.
(** without simulations: the band of the order statistics of a sample of the law, which is ordered *)
Theorem C92_theory_band : (forall p p', p <= p' -> ppf p <= ppf p') -> (forall p p' a b, p <= p' -> beta_ppf p a b <= beta_ppf p' a b) ->
  forall q detrend cl c, 0 < cl < 1 -> get_qq ppf beta_ppf q detrend cl None = Ok c -> forall i, (i < length q)%nat ->
    nth i (qq_line c) 0 = level detrend (qq_theor c) i (nth i (qq_theor c) 0) /\
    nth i (qq_lower c) 0 = level detrend (qq_theor c) i (ppf (beta_ppf ((1 - cl) / 2) (S i) (length q - i))) /\
    nth i (qq_upper c) 0 = level detrend (qq_theor c) i (ppf (beta_ppf ((1 + cl) / 2) (S i) (length q - i))) /\
    nth i (qq_lower c) 0 <= nth i (qq_upper c) 0.
Proof.
  intros M Mb q detrend cl c Hc H i Hi. destruct (get_qq_inv _ _ _ _ _ H) as (line & lower & upper & P & _ & _ & _ & _ & _ & -> & -> & ->).
  destruct (P i Hi) as (T & _ & P1 & P2 & P3). set (n := length q) in *.
  assert (N : forall F, nth i (map F (seq 1 n)) 0 = F (S i)). { intros F. rewrite (nth_indep _ 0 (F O)) by (now rewrite map_length, seq_length). rewrite map_nth, seq_nth by exact Hi. reflexivity. }
  rewrite N in P2, P3. replace (n + 1 - S i)%nat with (n - i)%nat in P2, P3 by lia. replace (0.5 - cl * 0.5) with ((1 - cl) / 2) in P2 by lra. replace (0.5 + cl * 0.5) with ((1 + cl) / 2) in P3 by lra.
  rewrite nth_theoretical in P1 by exact Hi. rewrite T. split; [exact P1|]. split; [exact P2|]. split; [exact P3|]. rewrite P2, P3.
  assert (X : ppf (beta_ppf ((1 - cl) / 2) (S i) (n - i)) <= ppf (beta_ppf ((1 + cl) / 2) (S i) (n - i))) by (apply M, Mb; lra). unfold level. destruct detrend; lra.
Qed.
End C92.
Print Assumptions C92_positions.
Print Assumptions C92_theoretical.
Print Assumptions C92_points.
Print Assumptions C92_band.
Print Assumptions C92_theory_band.
(** a quantile function with these properties *)
Example C92_ppf : exists ppf : R -> R, (forall p p', 0 < p -> p < p' -> p' < 1 -> ppf p < ppf p') /\ forall p, 0 < p < 1 -> ppf (1 - p) = - ppf p.
Proof. exists (fun p => p - 1 / 2). split; intros; lra. Qed.
Example C92_case : exists c, get_qq (fun p => p - 1 / 2) (fun p _ _ => p) [3; 1] true (1 / 2) (Some [[2; 1]; [0; 5]]) = Ok c.
Proof.
  unfold get_qq. cbn [length].
  assert (Q : forall a q, a <> [] -> 0 <= q <= 1 -> exists l, quantile_rows 2 a q = Ok l).
  { intros a q Na Hq. unfold quantile_rows. cbn [seq mapE]. destruct (quantile_defined (col a 0) q) as (x & ->); [destruct a; [easy|discriminate]|exact Hq|]. destruct (quantile_defined (col a 1) q) as (y & ->); [destruct a; [easy|discriminate]|exact Hq|]. eexists. reflexivity. }
  cbn [map]. edestruct Q as (l1 & ->); [discriminate|lra|]. edestruct Q as (l2 & ->); [discriminate|lra|]. edestruct Q as (l3 & ->); [discriminate|lra|]. eexists. reflexivity.
Qed.

(** the empirical distribution of the PIT: the proportion of values up to k / n, for k from 0 to n *)
Lemma nth_ranks n k F : (k <= n)%nat -> nth k (map F (ranks n)) 0 = F (INR k / INR n).
Proof.
  intros H. unfold ranks. rewrite map_map. rewrite (nth_indep _ 0 (F (INR 0 / INR n))) by (rewrite map_length, seq_length; lia). rewrite (map_nth (fun i => F (INR i / INR n)) (seq 0 (S n)) 0%nat k), seq_nth by lia. reflexivity.
Qed.
Lemma ranks_len n : length (ranks n) = S n.
Proof. unfold ranks. now rewrite map_length, seq_length. Qed.
Lemma rank_nth n k : (k <= n)%nat -> nth k (ranks n) 0 = INR k / INR n.
Proof. intros H. pose proof (nth_ranks n k (fun x => x) H) as E. now rewrite map_id in E. Qed.
Theorem C92_ecdf : forall interval pit detrend, pit <> [] -> let n := length pit in let '(rank, ecdf, line, lower, upper) := get_pit_ecdf interval pit detrend in
  length rank = S n /\ length ecdf = S n /\
  forall k, (k <= n)%nat -> nth k rank 0 = INR k / INR n /\
    (forall m, count (fun p => p <= INR k / INR n) pit m -> nth k ecdf 0 = level detrend rank k (INR m / INR n)) /\
    nth k line 0 = level detrend rank k (INR k / INR n) /\
    nth k lower 0 = level detrend rank k (fst (interval n (INR k / INR n)) / INR n) /\ nth k upper 0 = level detrend rank k (snd (interval n (INR k / INR n)) / INR n).
Proof.
  intros interval pit detrend Np. cbv zeta. unfold get_pit_ecdf. cbv zeta. set (n := length pit).
  assert (L : forall F : R -> R, length (map F (ranks n)) = S n) by (intros F; now rewrite map_length, ranks_len).
  assert (C : forall k m, count (fun p => p <= INR k / INR n) pit m -> length (filter (fun p => Rleb p (INR k / INR n)) pit) = m).
  { intros k m Hm. exact (count_fun _ _ _ _ (count_below _ pit) Hm). }
  destruct detrend; (split; [apply ranks_len|]); (split; [rewrite ?zip2_len; rewrite ?L, ?ranks_len; reflexivity|]); intros k Hk; (split; [now apply rank_nth|]).
  - assert (Z : forall F, nth k (zip2 Rminus (map F (ranks n)) (ranks n)) 0 = F (INR k / INR n) - nth k (ranks n) 0).
    { intros F. rewrite (zip2_nth _ _ _ 0 0) by (rewrite ?L, ?ranks_len; lia). now rewrite nth_ranks. }
    rewrite !Z. unfold level. split; [intros m Hm; now rewrite (C k m Hm)|]. split; [rewrite nth_ranks by exact Hk; rewrite rank_nth by exact Hk; lra|]. split; reflexivity.
  - rewrite !nth_ranks by exact Hk. unfold level. split; [intros m Hm; now rewrite (C k m Hm)|]. split; [now apply rank_nth|]. split; reflexivity.
Qed.
Print Assumptions C92_ecdf.
(** it increases from 0 or more to 1, if the values are probabilities; it follows the line for values spread evenly *)
Lemma filter_le_mono a b l : a <= b -> (length (filter (fun p => Rleb p a) l) <= length (filter (fun p => Rleb p b) l) <= length l)%nat.
Proof. intros R. induction l as [|x l IH]; [cbn; lia|]. cbn [filter length]. destruct (Rleb_spec x a), (Rleb_spec x b); cbn [length]; try lia; lra. Qed.
Theorem C92_ecdf_shape : forall interval pit, pit <> [] -> let n := length pit in let '(rank, ecdf, line, lower, upper) := get_pit_ecdf interval pit false in
  (forall i j, (i <= j <= n)%nat -> 0 <= nth i ecdf 0 <= nth j ecdf 0 /\ nth j ecdf 0 <= 1) /\
  (Forall (fun p => p <= 1) pit -> nth n ecdf 0 = 1) /\
  (Permutation pit (map (fun k => INR k / INR n) (seq 1 n)) -> forall k, (k <= n)%nat -> nth k ecdf 0 = nth k line 0).
Proof.
  intros interval pit Np. cbv zeta. unfold get_pit_ecdf. cbv zeta. set (n := length pit). assert (P : 0 < INR n) by (apply lt_0_INR; unfold n; destruct pit; [easy|cbn; lia]).
  assert (Inv : 0 < / INR n) by now apply Rinv_0_lt_compat. split; [|split].
  - intros i j Hij. rewrite !nth_ranks by lia. assert (R : INR i / INR n <= INR j / INR n) by (apply Rmult_le_compat_r; [lra|apply le_INR; lia]).
    assert (M : (length (filter (fun p => Rleb p (INR i / INR n)) pit) <= length (filter (fun p => Rleb p (INR j / INR n)) pit) <= n)%nat).
    { now apply filter_le_mono. }
    destruct M as [M1 M2]. apply le_INR in M1, M2. split; [split; [apply Rmult_le_pos; [apply pos_INR|lra]|apply Rmult_le_compat_r; lra]|].
    apply Rmult_le_reg_r with (INR n); [exact P|]. unfold Rdiv. rewrite Rmult_assoc, Rinv_l by lra. lra.
  - intros F. rewrite nth_ranks by lia. replace (INR n / INR n) with 1 by (field; lra). assert (E : filter (fun p => Rleb p 1) pit = pit).
    { clear -F. induction F as [|x l H F IH]; [reflexivity|]. cbn. destruct (Rleb_spec x 1); [now rewrite IH|lra]. }
    rewrite E. fold n. field. lra.
  - intros Pm k Hk. rewrite nth_ranks, rank_nth by lia. rewrite (filter_perm _ _ _ Pm). f_equal. f_equal.
    assert (G : forall b m, (b <= S k)%nat -> length (filter (fun p => Rleb p (INR k / INR n)) (map (fun k => INR k / INR n) (seq b m))) = Nat.min m (S k - b)).
    { intros b m. revert b. induction m as [|m IH]; intros b Hb; [reflexivity|]. cbn [seq map filter]. destruct (Rleb_spec (INR b / INR n) (INR k / INR n)) as [Q|Q].
      - assert (b <= k)%nat. { apply INR_le. apply Rmult_le_reg_r with (/ INR n); [exact Inv|exact Q]. } cbn [length]. rewrite IH by lia. lia.
      - assert (b = S k) as ->. { assert (~ (b <= k)%nat); [|lia]. intros X. apply Q. apply Rmult_le_compat_r; [lra|now apply le_INR]. }
        replace (Nat.min (S m) (S k - S k)) with O by lia. clear IH. assert (Z : forall b, (k < b)%nat -> filter (fun p => Rleb p (INR k / INR n)) (map (fun k => INR k / INR n) (seq b m)) = []).
        { induction m as [|m IH]; intros b Hb'; [reflexivity|]. cbn [seq map filter]. destruct (Rleb_spec (INR b / INR n) (INR k / INR n)) as [X|_]; [|apply IH; lia].
          exfalso. assert (INR k / INR n < INR b / INR n); [|lra]. apply Rmult_lt_compat_r; [exact Inv|now apply lt_INR]. }
        rewrite Z by lia. reflexivity. }
    rewrite G by lia. lia.
Qed.
Print Assumptions C92_ecdf_shape.
Example C92_ecdf_case : Permutation [1; 1 / 2] (map (fun k => INR k / INR 2) (seq 1 2)).
Proof. cbn [seq map]. replace (INR 1 / INR 2) with (1 / 2) by (cbn; lra). replace (INR 2 / INR 2) with 1 by (cbn; field). constructor. Qed.

(** ** C93: a line drawn with steps shows each channel once, from its lower to its upper energy, and nothing between channels that do not touch.
    The horizontal pieces of a line drawn with "steps-post" *)
Definition pieces (l : polyline) : list (R * R * R) := map (fun j => (nth j (fst l) 0, nth (S j) (fst l) 0, nth j (snd l) 0)) (seq 0 (length (fst l) - 1)).
Definition channels (xl xr y : list R) : list (R * R * R) := map (fun i => (nth i xl 0, nth i xr 0, nth i y 0)) (seq 0 (length y)).
Lemma slice_len {A} i j (l : list A) : (i <= j <= length l)%nat -> length (slice i j l) = (j - i)%nat.
Proof. intros H. unfold slice. rewrite firstn_length, skipn_length. lia. Qed.
Lemma slice_nth i j (l : list R) k : (k < j - i)%nat -> nth k (slice i j l) 0 = nth (i + k) l 0.
Proof. intros H. unfold slice. rewrite nth_firstn by exact H. apply nth_skipn. Qed.
Lemma last_nth (l : list R) : last l 0 = nth (length l - 1) l 0.
Proof. induction l as [|x [|y l] IH]; [reflexivity|reflexivity|]. change (last (x :: y :: l) 0) with (last (y :: l) 0). rewrite IH. cbn [length nth]. replace (S (length l) - 1)%nat with (length l) by lia. replace (S (S (length l)) - 1)%nat with (S (length l)) by lia. reflexivity. Qed.
Definition spans (xl xr : list R) (f : nat -> R) (a b : nat) : list (R * R * R) := map (fun i => (nth i xl 0, nth i xr 0, f i)) (seq a (b - a)).
(** one uninterrupted range *)
Lemma seg_ok xl xr y a b : (a < b)%nat -> (b <= length xl)%nat -> length xr = length xl -> length y = length xl -> (forall i, (a < i < b)%nat -> gap xl xr i = false) ->
  exists x v, seg_x xl xr (a, b) = Ok x /\ seg_y y (a, b) = Ok v /\ pieces (x, v) = spans xl xr (fun i => nth i y 0) a b.
Proof.
  intros Hab Hb Lr Ly G. unfold seg_x, seg_y, append_last. cbn [fst snd].
  assert (L : forall l : list R, length l = length xl -> length (slice a b l) = (b - a)%nat) by (intros l Hl; apply slice_len; lia).
  destruct (slice a b xr) as [|z zr] eqn:Er; [apply (f_equal (@length R)) in Er; rewrite L in Er by congruence; cbn in Er; lia|]. rewrite <- Er. clear z zr Er.
  destruct (slice a b y) as [|z zr] eqn:Ey; [apply (f_equal (@length R)) in Ey; rewrite L in Ey by congruence; cbn in Ey; lia|]. rewrite <- Ey. clear z zr Ey.
  eexists _, _. split; [reflexivity|]. split; [reflexivity|]. unfold pieces, spans. cbn [fst snd]. rewrite app_length, L by reflexivity. cbn [length]. replace (b - a + 1 - 1)%nat with (b - a)%nat by lia.
  assert (E : seq a (b - a) = map (fun k => (a + k)%nat) (seq 0 (b - a))).
  { clear. generalize (b - a)%nat as m. intros m. rewrite <- (Nat.add_0_r a) at 1. generalize 0%nat as s. induction m as [|m IH]; intros s; [reflexivity|]. cbn [seq map]. f_equal. rewrite <- Nat.add_succ_r. apply IH. }
  rewrite E, map_map. apply map_ext_in. intros k Hk. apply in_seq in Hk. cbn in Hk.
  rewrite (app_nth1 (slice a b xl)) by (rewrite L; [lia|reflexivity]). rewrite (app_nth1 (slice a b y)) by (rewrite L; [lia|exact Ly]). rewrite !slice_nth by lia. f_equal. f_equal.
  destruct (Nat.eq_dec (S k) (b - a)) as [Ek|Ek].
  - rewrite app_nth2 by (rewrite L; [lia|reflexivity]). rewrite L by reflexivity. replace (S k - (b - a))%nat with O by lia. cbn [nth]. rewrite last_nth, L by exact Lr. rewrite slice_nth by lia. f_equal. lia.
  - rewrite app_nth1 by (rewrite L; [lia|reflexivity]). rewrite slice_nth by lia. specialize (G (a + S k)%nat ltac:(lia)). unfold gap in G. apply Bool.negb_false_iff in G. destruct (Reqb_spec (nth (a + S k) xl 0) (nth (a + S k - 1) xr 0)) as [X|X]; [|discriminate]. rewrite X. f_equal. lia.
Qed.
Lemma segs_ok {A} (f : nat * nat -> res A) (pc : A -> list (R * R * R)) xl xr g n :
  (forall a b, (a < b <= n)%nat -> (forall i, (a < i < b)%nat -> gap xl xr i = false) -> exists x, f (a, b) = Ok x /\ pc x = spans xl xr g a b) ->
  forall m a s, (a < s)%nat -> (s + m = n)%nat -> (forall i, (a < i < s)%nat -> gap xl xr i = false) ->
  exists l, mapE f (pairs (a :: filter (gap xl xr) (seq s m) ++ [n])) = Ok l /\ concat (map pc l) = spans xl xr g a n.
Proof.
  intros F. assert (Cat : forall a b c, (a <= b <= c)%nat -> spans xl xr g a b ++ spans xl xr g b c = spans xl xr g a c).
  { intros a b c H. unfold spans. rewrite <- map_app. f_equal. replace (c - a)%nat with ((b - a) + (c - b))%nat by lia. rewrite seq_app. repeat f_equal. lia. }
  induction m as [|m IH]; intros a s Has Hn G.
  - cbn [seq filter app pairs mapE]. assert (s = n) as -> by lia. destruct (F a n ltac:(lia) G) as (x & -> & E). cbn [bind]. exists [x]. split; [reflexivity|]. cbn. now rewrite app_nil_r.
  - cbn [seq filter]. destruct (gap xl xr s) eqn:Gs.
    + cbn [app]. change (pairs (a :: s :: filter (gap xl xr) (seq (S s) m) ++ [n])) with ((a, s) :: pairs (s :: filter (gap xl xr) (seq (S s) m) ++ [n])). cbn [mapE].
      destruct (F a s ltac:(lia) G) as (x & -> & E). cbn [bind]. destruct (IH s (S s)) as (l & -> & El); [lia|lia|intros; lia|]. cbn [bind]. exists (x :: l). split; [reflexivity|]. cbn [map concat]. rewrite E, El. apply Cat. lia.
    + apply IH; [lia|lia|]. intros i Hi. destruct (Nat.eq_dec i s) as [->|]; [exact Gs|]. apply G. lia.
Qed.
Theorem C93_step : forall xl xr y, y <> [] -> length xl = length y -> length xr = length y ->
  exists l, plot_step xl xr y = Ok l /\ concat (map pieces l) = channels xl xr y.
Proof.
  intros xl xr y Ny Ll Lr. unfold plot_step. rewrite Ll, Lr, !Nat.eqb_refl. cbn [andb negb]. unfold breaks.
  assert (Hn : (0 < length y)%nat) by (destruct y; [easy|cbn; lia]).
  destruct (segs_ok (fun ij => bind (seg_x xl xr ij) (fun x => bind (seg_y y ij) (fun y => Ok (x, y)))) pieces xl xr (fun i => nth i y 0) (length y)) with (m := (length y - 1)%nat) (a := 0%nat) (s := 1%nat) as (l & E & C); [|lia|lia|intros; lia|].
  - intros a b Hab G. destruct (seg_ok xl xr y a b) as (x & v & -> & -> & P); [lia|lia|congruence|congruence|exact G|]. exists (x, v). split; [reflexivity|exact P].
  - exists l. split; [exact E|]. etransitivity; [exact C|]. unfold spans, channels. now rewrite Nat.sub_0_r.
Qed.
Print Assumptions C93_step.
(** channels that do not touch are in different lines *)
Theorem C93_gap : forall xl xr y l, plot_step xl xr y = Ok l -> forall p j, In p l -> (S j < length (fst p) - 1)%nat ->
  exists i, (S i < length y)%nat /\ nth j (fst p) 0 = nth i xl 0 /\ nth (S j) (fst p) 0 = nth (S i) xl 0 /\ nth (S i) xl 0 = nth i xr 0.
Proof.
  intros xl xr y l H p j Hp Hj. unfold plot_step in H. destruct (Nat.eqb_spec (length y) (length xl)) as [E1|]; [|discriminate]. destruct (Nat.eqb_spec (length xl) (length xr)) as [E2|]; [|discriminate]. cbn [andb negb] in H.
  set (n := length y) in *. apply mapE_inv in H. apply (F2_in_r _ _ _ _ H) in Hp as ([a b] & Hab & Hp). apply bind_ok in Hp as (x & Hx & Hp). apply bind_ok in Hp as (v & Hv & Hp). injection Hp as <-. cbn [fst] in *.
  assert (B : (a < b <= n)%nat /\ forall i, (a < i < b)%nat -> gap xl xr i = false).
  { unfold breaks in Hab. assert (X : forall m a0 s, (a0 < s)%nat -> (s + m = n)%nat -> (forall i, (a0 < i < s)%nat -> gap xl xr i = false) -> In (a, b) (pairs (a0 :: filter (gap xl xr) (seq s m) ++ [n])) -> (a < b <= n)%nat /\ forall i, (a < i < b)%nat -> gap xl xr i = false).
    { induction m as [|m IH]; intros a0 s H1 H2 H3 Hin.
      - cbn in Hin. destruct Hin as [E|[]]. injection E as <- <-. split; [lia|]. intros i Hi. apply H3. lia.
      - cbn [seq filter] in Hin. destruct (gap xl xr s) eqn:Gs.
        + destruct Hin as [E|Hin]; [injection E as <- <-; split; [lia|exact H3]|]. apply (IH s (S s)); [lia|lia|intros; lia|exact Hin].
        + apply (IH a0 (S s)); [lia|lia| |exact Hin]. intros i Hi. destruct (Nat.eq_dec i s) as [->|]; [exact Gs|]. apply H3. lia. }
    destruct (Nat.eq_dec n 0) as [E0|E0].
    - rewrite E0 in Hab. cbn in Hab. destruct Hab as [E|[]]. injection E as <- <-. unfold seg_x, append_last, slice in Hx. cbn in Hx. discriminate.
    - apply (X (n - 1)%nat 0%nat 1%nat); [lia|lia|intros; lia|exact Hab]. }
  destruct B as [B G]. unfold seg_x, append_last in Hx. cbn [fst snd] in Hx. destruct (slice a b xr) eqn:Er; [discriminate|]. rewrite <- Er in Hx. injection Hx as <-.
  rewrite app_length, slice_len in Hj by lia. cbn [length] in Hj. exists (a + j)%nat. split; [lia|]. rewrite !app_nth1 by (rewrite slice_len; lia). rewrite !slice_nth by lia. split; [reflexivity|]. split; [f_equal; lia|].
  specialize (G (S (a + j))%nat ltac:(lia)). unfold gap in G. apply Bool.negb_false_iff in G. destruct (Reqb_spec (nth (S (a + j)) xl 0) (nth (S (a + j) - 1) xr 0)) as [X|X]; [|discriminate]. rewrite X. f_equal. lia.
Qed.
Print Assumptions C93_gap.
(** ribbons: the same for the area between two lines, for each ribbon *)
Definition lower_line (a : area) : polyline := (fst a, fst (snd a)).
Definition upper_line (a : area) : polyline := (fst a, snd (snd a)).
Theorem C93_ribbon : forall xl xr ribbons, xl <> [] -> length xr = length xl -> ribbons <> [] -> Forall (fun r => length (fst r) = length xl /\ length (snd r) = length xl) ribbons ->
  exists l, plot_ribbon xl xr ribbons = Ok l /\ Forall (fun s => length s = length ribbons) l /\
  forall k, (k < length ribbons)%nat -> forall d r0, let r := nth k ribbons r0 in
    concat (map (fun s => pieces (lower_line (nth k s d))) l) = channels xl xr (fst r) /\
    concat (map (fun s => pieces (upper_line (nth k s d))) l) = channels xl xr (snd r).
Proof.
  intros xl xr ribbons Nx Lr Nr F. unfold plot_ribbon. destruct ribbons as [|q0 rs] eqn:Er; [easy|]. rewrite <- Er in *. clear Nr. cbv zeta.
  assert (E0 : length (fst q0) = length xl) by (rewrite Er in F; inversion F; tauto). rewrite E0, Nat.eqb_refl, Lr, Nat.eqb_refl. cbn [andb].
  assert (FB : forallb (fun r => Nat.eqb (length (fst r)) (length xl) && Nat.eqb (length (snd r)) (length xl))%bool ribbons = true).
  { apply forallb_forall. intros r Hr. rewrite Forall_forall in F. destruct (F r Hr) as [-> ->]. now rewrite Nat.eqb_refl. }
  rewrite FB. cbn [negb]. set (n := length xl) in *. unfold breaks. assert (Hn : (0 < n)%nat) by (unfold n; destruct xl; [easy|cbn; lia]).
  set (f := fun ij => bind (seg_x xl xr ij) (fun x => mapE (fun r : list R * list R => bind (seg_y (fst r) ij) (fun lo => bind (seg_y (snd r) ij) (fun up => Ok (x, (lo, up))))) ribbons)).
  assert (S1 : forall a b, (a < b <= n)%nat -> (forall i, (a < i < b)%nat -> gap xl xr i = false) -> exists s, f (a, b) = Ok s /\ length s = length ribbons /\
    forall k, (k < length ribbons)%nat -> forall d r0, pieces (lower_line (nth k s d)) = spans xl xr (fun i => nth i (fst (nth k ribbons r0)) 0) a b /\ pieces (upper_line (nth k s d)) = spans xl xr (fun i => nth i (snd (nth k ribbons r0)) 0) a b).
  { intros a b Hab G. unfold f. destruct (seg_ok xl xr xl a b) as (x & v & Ex & _); [lia|unfold n in Hab; lia|exact Lr|reflexivity|exact G|]. rewrite Ex. cbn [bind]. clear -F Hab G Ex Lr.
    induction F as [|r l [H1 H2] F IH]; [exists []; split; [reflexivity|]; split; [reflexivity|intros k Hk; cbn in Hk; lia]|]. cbn [mapE].
    destruct (seg_ok xl xr (fst r) a b) as (x1 & v1 & Ex1 & Ev1 & P1); [lia|unfold n in Hab; lia|exact Lr|exact H1|exact G|].
    destruct (seg_ok xl xr (snd r) a b) as (x2 & v2 & Ex2 & Ev2 & P2); [lia|unfold n in Hab; lia|exact Lr|exact H2|exact G|].
    rewrite Ev1. cbn [bind]. rewrite Ev2. cbn [bind]. destruct IH as (s & -> & Ls & IH). cbn [bind]. eexists. split; [reflexivity|]. split; [cbn; now rewrite Ls|].
    rewrite Ex in Ex1, Ex2. injection Ex1 as <-. injection Ex2 as <-. intros [|k] Hk d r0; [cbn [nth]; split; [exact P1|exact P2]|]. cbn [nth]. apply IH. cbn in Hk. lia. }
  assert (Main : forall m a s, (a < s)%nat -> (s + m = n)%nat -> (forall i, (a < i < s)%nat -> gap xl xr i = false) -> exists l, mapE f (pairs (a :: filter (gap xl xr) (seq s m) ++ [n])) = Ok l /\ Forall (fun s => length s = length ribbons) l).
  { induction m as [|m IH]; intros a s H1 H2 H3.
    - cbn [seq filter app pairs mapE]. assert (s = n) as -> by lia. destruct (S1 a n ltac:(lia) H3) as (x & -> & Lx & _). cbn [bind]. eexists. split; [reflexivity|]. repeat constructor. exact Lx.
    - cbn [seq filter]. destruct (gap xl xr s) eqn:Gs; [|apply IH; [lia|lia|intros i Hi; destruct (Nat.eq_dec i s) as [->|]; [exact Gs|apply H3; lia]]].
      cbn [app]. change (pairs (a :: s :: filter (gap xl xr) (seq (S s) m) ++ [n])) with ((a, s) :: pairs (s :: filter (gap xl xr) (seq (S s) m) ++ [n])). cbn [mapE].
      destruct (S1 a s ltac:(lia) H3) as (x & -> & Lx & _). cbn [bind]. destruct (IH s (S s)) as (l & -> & Fl); [lia|lia|intros; lia|]. cbn [bind]. eexists. split; [reflexivity|]. now constructor. }
  destruct (Main (n - 1)%nat 0%nat 1%nat) as (l & El & Fl); [lia|lia|intros; lia|]. exists l. split; [exact El|]. split; [exact Fl|].
  cbv zeta. intros k Hk d r0. set (r := nth k ribbons r0). rewrite Forall_forall in F. destruct (F (nth k ribbons r0) (nth_In _ _ Hk)) as [Lf Ls]. fold r in Lf, Ls.
  split.
  - destruct (segs_ok f (fun s => pieces (lower_line (nth k s d))) xl xr (fun i => nth i (fst r) 0) n) with (m := (n - 1)%nat) (a := 0%nat) (s := 1%nat) as (l' & E & C); [|lia|lia|intros; lia|].
    + intros a b Hab G. destruct (S1 a b Hab G) as (s & Es & _ & Q). exists s. split; [exact Es|]. now apply Q.
    + assert (l' = l) as -> by congruence. etransitivity; [exact C|]. unfold spans, channels. now rewrite Nat.sub_0_r, Lf.
  - destruct (segs_ok f (fun s => pieces (upper_line (nth k s d))) xl xr (fun i => nth i (snd r) 0) n) with (m := (n - 1)%nat) (a := 0%nat) (s := 1%nat) as (l' & E & C); [|lia|lia|intros; lia|].
    + intros a b Hab G. destruct (S1 a b Hab G) as (s & Es & _ & Q). exists s. split; [exact Es|]. now apply Q.
    + assert (l' = l) as -> by congruence. etransitivity; [exact C|]. unfold spans, channels. now rewrite Nat.sub_0_r, Ls.
Qed.
Print Assumptions C93_ribbon.
(** two channels that touch and one apart: two lines *)
Example C93_case : plot_step [0; 1; 3] [1; 2; 4] [5; 6; 7] = Ok [([0; 1; 2], [5; 6; 6]); ([3; 4], [7; 7])].
Proof.
  unfold plot_step, breaks, gap. cbn [length Nat.eqb andb negb Nat.sub seq filter nth]. destruct (Reqb_spec 1 1); [|lra]. destruct (Reqb_spec 3 2); [lra|]. reflexivity.
Qed.
