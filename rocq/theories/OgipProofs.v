(** Lemmas on the expansion of compressed response rows. *)
From Verif Require Import RBase BaseFacts Significance Data Ogip.

Lemma nth_skipn {A} (l : list A) n i d : nth i (skipn n l) d = nth (n + i) l d.
Proof. revert l; induction n; intros [|x l]; cbn; auto. now destruct i. Qed.

Definition hit (c : Z) (t : Z * R) : R := if (fst t =? c)%Z then snd t else 0.
(** contribution of one row to column [c] *)
Definition entry (cv : list Z * list R) (c : Z) : R := rsum (map (hit c) (combine (fst cv) (snd cv))).

Lemma entry_app c1 v1 c2 v2 c : length c1 = length v1 ->
  entry (c1 ++ c2, v1 ++ v2) c = entry (c1, v1) c + entry (c2, v2) c.
Proof.
  unfold entry, rsum; cbn [fst snd]. revert v1. induction c1 as [|a c1 IH]; intros [|b v1] L; cbn in *; try discriminate; [lra|].
  injection L as L. rewrite (IH v1 L). lra.
Qed.

Lemma arange_length s w : length (arange s w) = Z.to_nat w.
Proof. unfold arange. now rewrite map_length, seq_length. Qed.
Lemma arange_S s w : (0 < w)%Z -> arange s w = s :: arange (s + 1) (w - 1).
Proof.
  intros H. unfold arange. replace (Z.to_nat w) with (S (Z.to_nat (w - 1))) by lia. cbn [seq map].
  f_equal; [lia|]. rewrite <- seq_shift, map_map. apply map_ext. intros; lia.
Qed.

Lemma entry_nil_l v c : entry ([], v) c = 0. Proof. reflexivity. Qed.
Lemma entry_nil_r l c : entry (l, []) c = 0. Proof. unfold entry; cbn [fst snd]. now rewrite combine_nil. Qed.

Definition covers1 (s w c : Z) : bool := ((s <=? c) && (c <? s + w))%Z%bool.

Lemma entry_arange v : forall s w c, (Z.to_nat w <= length v)%nat ->
  entry (arange s w, v) c = if covers1 s w c then nth (Z.to_nat (c - s)) v 0 else 0.
Proof.
  unfold covers1. induction v as [|x v IH]; intros s w c L; cbn [length] in L.
  - rewrite entry_nil_r. destruct (_ && _)%bool; [|reflexivity]. now destruct (Z.to_nat (c - s)).
  - destruct (Z_lt_le_dec 0 w) as [H|H].
    + rewrite (arange_S s w H). transitivity (hit c (s, x) + entry (arange (s+1) (w-1), v) c); [reflexivity|].
      rewrite IH by lia. unfold hit; cbn [fst snd].
      destruct (Z.eqb_spec s c) as [->|N].
      * replace (c <=? c)%Z with true by (symmetry; apply Z.leb_le; lia).
        replace (c <? c + w)%Z with true by (symmetry; apply Z.ltb_lt; lia). cbn [andb].
        replace (c + 1 <=? c)%Z with false by (symmetry; apply Z.leb_gt; lia). cbn [andb].
        rewrite Z.sub_diag. cbn. lra.
      * replace (s + 1 + (w - 1))%Z with (s + w)%Z by lia.
        destruct (Z.leb_spec s c) as [A|A], (Z.leb_spec (s+1) c) as [B|B]; try lia; cbn [andb].
        -- destruct (Z.ltb_spec c (s + w)); [|lra].
           replace (Z.to_nat (c - s)) with (S (Z.to_nat (c - (s + 1)))) by lia. cbn [nth]. lra.
        -- lra.
    + replace (arange s w) with (@nil Z) by (unfold arange; replace (Z.to_nat w) with 0%nat by lia; reflexivity).
      rewrite entry_nil_l. destruct (Z.leb_spec s c); cbn [andb]; [|reflexivity]. destruct (Z.ltb_spec c (s + w)); [lia|reflexivity].
Qed.

Lemma entry_firstn l v c : entry (l, firstn (length l) v) c = entry (l, v) c.
Proof. unfold entry; cbn [fst snd]. now rewrite <- combine_firstn_l. Qed.

Lemma sumZ_app a b : sumZ (a ++ b) = (sumZ a + sumZ b)%Z.
Proof. unfold sumZ. induction a; cbn; [lia|]. rewrite IHa. lia. Qed.
Lemma sumZ_nonneg l : Forall (fun w => 0 <= w)%Z l -> (0 <= sumZ l)%Z.
Proof. induction 1; cbn; [lia|]. unfold sumZ in *. lia. Qed.

(** sum over the groups [gs] (offset within the row, width), the values laid out one after another *)
Lemma entry_groups : forall gs v c, Forall (fun p => 0 <= snd p)%Z gs ->
  (Z.to_nat (sumZ (map snd gs)) <= length v)%nat ->
  entry (concat (map (fun p => arange (fst p) (snd p)) gs), v) c =
  rsum (map (fun k => let '(s, w) := nth k gs (0, 0)%Z in
              if covers1 s w c then nth (Z.to_nat (sumZ (map snd (firstn k gs)) + (c - s))) v 0 else 0) (seq 0 (length gs))).
Proof.
  induction gs as [|[s w] gs IH]; intros v c F L.
  - cbn [map concat length seq]. now rewrite entry_nil_l.
  - inversion F as [|? ? Hw F']; subst; cbn [snd] in Hw. cbn [map] in L. pose proof (sumZ_nonneg (map snd gs)) as P.
    rewrite Forall_map in P. specialize (P F'). change (sumZ (snd (s, w) :: map snd gs)) with (w + sumZ (map snd gs))%Z in L.
    cbn [map concat fst snd length].
    rewrite <- (firstn_skipn (Z.to_nat w) v) at 1.
    rewrite entry_app by (rewrite arange_length, firstn_length; lia).
    replace (firstn (Z.to_nat w) v) with (firstn (length (arange s w)) v) by now rewrite arange_length.
    rewrite entry_firstn, entry_arange by lia.
    rewrite IH by (try assumption; rewrite skipn_length; lia).
    change (seq 0 (S (length gs))) with (0%nat :: seq 1 (length gs)). rewrite <- seq_shift. cbn [map]. rewrite map_map.
    match goal with |- _ = rsum (?a :: ?l) => change (rsum (a :: l)) with (a + rsum l) end. cbn [nth firstn map]. change (sumZ []) with 0%Z. rewrite Z.add_0_l. f_equal.
    f_equal. apply map_ext_in. intros k Hk. apply in_seq in Hk.
    destruct (nth k gs (0,0)%Z) as [s' w'] eqn:E. destruct (covers1 s' w' c) eqn:C; [|reflexivity].
    unfold covers1 in C. apply andb_prop in C as [C1 C2]. apply Z.leb_le in C1. apply Z.ltb_lt in C2.
    assert (0 <= sumZ (map snd (firstn k gs)))%Z.
    { apply sumZ_nonneg. rewrite Forall_map. rewrite <- (firstn_skipn k gs) in F'. now apply Forall_app in F' as [F1 _]. }
    rewrite nth_skipn. f_equal. change (sumZ (snd (s, w) :: map snd (firstn k gs))) with (w + sumZ (map snd (firstn k gs)))%Z. lia.
Qed.

Lemma cols_length (gs : list (Z * Z)) : length (concat (map (fun p => arange (fst p) (snd p)) gs)) = fold_right (fun p n => Z.to_nat (snd p) + n)%nat 0%nat gs.
Proof. induction gs as [|p gs IH]; cbn; [reflexivity|]. now rewrite app_length, arange_length, IH. Qed.
Lemma cols_ge (gs : list (Z * Z)) : (sumZ (map snd gs) <= Z.of_nat (fold_right (fun p n => Z.to_nat (snd p) + n)%nat 0%nat gs))%Z.
Proof. induction gs as [|p gs IH]; cbn; [lia|]. unfold sumZ in IH. lia. Qed.
Lemma cols_eq (gs : list (Z * Z)) : sumZ (map snd gs) = Z.of_nat (fold_right (fun p n => Z.to_nat (snd p) + n)%nat 0%nat gs) -> Forall (fun p => 0 <= snd p)%Z gs.
Proof.
  induction gs as [|p gs IH]; cbn; [constructor|]. intros E. pose proof (cols_ge gs) as G. unfold sumZ in *.
  constructor; [lia|]. apply IH. lia.
Qed.
Lemma cols_eq_rev (gs : list (Z * Z)) : Forall (fun p => 0 <= snd p)%Z gs -> sumZ (map snd gs) = Z.of_nat (fold_right (fun p n => Z.to_nat (snd p) + n)%nat 0%nat gs).
Proof. induction 1 as [|p gs Hp _ IH]; cbn; [reflexivity|]. unfold sumZ in IH. lia. Qed.

(** the groups of a row that are read *)
Definition row_groups (fc : Z) (r : rmf_row) : list (Z * Z) :=
  combine (zslice (n_grp r) (map (fun c => (c - fc)%Z) (f_chan r))) (zslice (n_grp r) (n_chan r)).

Lemma map_snd_combine {A B} (a : list A) (b : list B) : length a = length b -> map snd (combine a b) = b.
Proof. revert b; induction a; intros [|y b] L; cbn in *; try discriminate; [reflexivity|]. injection L as L. now rewrite IHa. Qed.

(** the three outcomes of reading a row *)
Lemma read_row_cases fc r cv : read_row fc r = Ok cv ->
  (n_grp r <= 0 /\ cv = ([], []))%Z \/
  (0 < n_grp r /\ n_grp r <= Z.of_nat (length (f_chan r)) /\ n_grp r <= Z.of_nat (length (n_chan r)) /\
   let ws := firstn (Z.to_nat (n_grp r)) (n_chan r) in
   (sumZ ws <= 0 /\ cv = ([], []) \/
    0 < sumZ ws /\ sumZ ws <= Z.of_nat (length (stored r)) /\
    cv = (concat (map (fun p => arange (fst p) (snd p)) (row_groups fc r)), firstn (Z.to_nat (sumZ ws)) (stored r))))%Z.
Proof.
  unfold read_row, row_groups, zslice. destruct (Z.leb_spec (n_grp r) 0) as [H|H]; [intros E; injection E as <-; now left|].
  rewrite !firstn_length, !map_length.
  destruct (Z.eqb_spec (Z.of_nat (Nat.min (Z.to_nat (n_grp r)) (length (f_chan r)))) (n_grp r)) as [Hf|Hf]; cbn [negb orb]; [|discriminate].
  destruct (Z.eqb_spec (Z.of_nat (Nat.min (Z.to_nat (n_grp r)) (length (n_chan r)))) (n_grp r)) as [Hw|Hw]; cbn [negb orb]; [|discriminate].
  intros E. right. split; [lia|]. split; [lia|]. split; [lia|]. cbv zeta.
  destruct (Z.leb_spec (sumZ (firstn (Z.to_nat (n_grp r)) (n_chan r))) 0) as [S|S].
  - injection E as <-. now left.
  - destruct (Z.ltb_spec (Z.of_nat (length (stored r))) (sumZ (firstn (Z.to_nat (n_grp r)) (n_chan r)))) as [T|T]; [discriminate|].
    injection E as <-. right. split; [lia|]. split; [lia|reflexivity].
Qed.

Lemma row_groups_snd fc r : (n_grp r <= Z.of_nat (length (f_chan r)))%Z -> (n_grp r <= Z.of_nat (length (n_chan r)))%Z ->
  map snd (row_groups fc r) = firstn (Z.to_nat (n_grp r)) (n_chan r).
Proof.
  intros A B. unfold row_groups, zslice. apply map_snd_combine. rewrite !firstn_length, map_length. lia.
Qed.

Lemma read_row_len fc r cv : read_row fc r = Ok cv -> (length (snd cv) <= length (fst cv))%nat.
Proof.
  intros E. apply read_row_cases in E as [[_ ->]|(H & Hf & Hw & [[_ ->]|(P & L & ->)])]; cbn [fst snd length]; try lia.
  rewrite cols_length, firstn_length. pose proof (cols_ge (row_groups fc r)) as G. rewrite (row_groups_snd fc r Hf Hw) in G. lia.
Qed.

(** specification vocabulary *)
Definition grp_start (fc : Z) (r : rmf_row) (k : nat) : Z := (nth k (f_chan r) 0 - fc)%Z.
Definition grp_width (r : rmf_row) (k : nat) : Z := nth k (n_chan r) 0%Z.
Definition stored_at (fc : Z) (r : rmf_row) (k : nat) (c : Z) : R :=
  nth (Z.to_nat (sumZ (firstn k (n_chan r)) + (c - grp_start fc r k))) (stored r) 0.

Lemma nth_firstn {A} n i (l : list A) d : (i < n)%nat -> nth i (firstn n l) d = nth i l d.
Proof. revert i l; induction n; intros i [|x l] H; try lia; destruct i; cbn; auto. apply IHn; lia. Qed.

Lemma entry_row fc r cv c : read_row fc r = Ok cv -> length (fst cv) = length (snd cv) ->
  (forall k, (Z.of_nat k < n_grp r)%Z -> (0 <= grp_width r k)%Z) ->
  entry cv c = rsum (map (fun k => if covers1 (grp_start fc r k) (grp_width r k) c then stored_at fc r k c else 0) (seq 0 (Z.to_nat (n_grp r)))).
Proof.
  intros E L W. apply read_row_cases in E as [[N ->]|(H & Hf & Hw & C)].
  - replace (Z.to_nat (n_grp r)) with 0%nat by lia. reflexivity.
  - assert (Hws : Forall (fun w => 0 <= w)%Z (firstn (Z.to_nat (n_grp r)) (n_chan r))).
    { apply Forall_forall. intros w Hin. apply (In_nth _ _ 0%Z) in Hin as (k & Hk & <-). rewrite firstn_length in Hk.
      rewrite nth_firstn by lia. apply W. lia. }
    destruct C as [[S ->]|(P & Ls & ->)].
    + rewrite entry_nil_l. symmetry. apply rsum_zeros. intros k Hk. apply in_seq in Hk.
      assert (grp_width r k = 0)%Z.
      { pose proof (W k ltac:(lia)). assert (grp_width r k <= sumZ (firstn (Z.to_nat (n_grp r)) (n_chan r)))%Z; [|lia].
        rewrite Forall_forall in Hws. assert (Hin : In (grp_width r k) (firstn (Z.to_nat (n_grp r)) (n_chan r))).
        { unfold grp_width. rewrite <- (nth_firstn (Z.to_nat (n_grp r))) by lia. apply nth_In. rewrite firstn_length; lia. }
        revert Hin Hws. generalize (firstn (Z.to_nat (n_grp r)) (n_chan r)) (grp_width r k). clear.
        induction l as [|y l IH]; [intros x []|]. intros x [->|Hin] Hws; cbn.
        - pose proof (sumZ_nonneg l). assert (0 <= sumZ l)%Z by (apply H, Forall_forall; intros; apply Hws; now right). unfold sumZ in *. lia.
        - pose proof (Hws y (or_introl eq_refl)). assert (x <= sumZ l)%Z by (apply IH; auto; intros; apply Hws; now right). unfold sumZ in *. lia. }
      unfold covers1. destruct (Z.leb_spec (grp_start fc r k) c); cbn [andb]; [|reflexivity]. destruct (Z.ltb_spec c (grp_start fc r k + grp_width r k)); [lia|reflexivity].
    + pose proof (row_groups_snd fc r Hf Hw) as Es.
      assert (Lg : length (row_groups fc r) = Z.to_nat (n_grp r)) by (unfold row_groups, zslice; rewrite combine_length, !firstn_length, map_length; lia).
      replace (firstn (Z.to_nat (sumZ (firstn (Z.to_nat (n_grp r)) (n_chan r)))) (stored r))
        with (firstn (length (concat (map (fun p => arange (fst p) (snd p)) (row_groups fc r)))) (stored r)).
      2:{ f_equal. cbn [fst snd] in L. rewrite firstn_length in L. rewrite L. lia. }
      rewrite entry_firstn, entry_groups.
      * rewrite Lg. f_equal. apply map_ext_in. intros k Hk. apply in_seq in Hk.
        assert (En : nth k (row_groups fc r) (0, 0)%Z = (grp_start fc r k, grp_width r k)).
        { unfold row_groups, zslice. rewrite (combine_nth _ _ k 0%Z 0%Z) by (rewrite !firstn_length, map_length; lia).
          rewrite !nth_firstn by lia. unfold grp_start, grp_width. f_equal.
          rewrite (nth_indep _ 0%Z (0 - fc)%Z) by (rewrite map_length; lia). now rewrite (map_nth (fun c => (c - fc)%Z)). }
        rewrite En. destruct (covers1 _ _ _); [|reflexivity]. unfold stored_at. do 3 f_equal.
        rewrite <- firstn_map, Es, firstn_firstn. do 2 f_equal. lia.
      * rewrite <- Es in Hws. rewrite Forall_map in Hws. exact Hws.
      * rewrite Es. lia.
Qed.

(** the whole matrix *)
Definition tri (i : nat) (c : Z) (rows : list nat) (cols : list Z) (vals : list R) : R :=
  rsum (map (fun t => if ((fst (fst t) =? i)%nat && (snd (fst t) =? c)%Z)%bool then snd t else 0) (combine (combine rows cols) vals)).

Lemma tri_app i c r1 r2 c1 c2 v1 v2 : length r1 = length c1 -> length c1 = length v1 ->
  tri i c (r1 ++ r2) (c1 ++ c2) (v1 ++ v2) = tri i c r1 c1 v1 + tri i c r2 c2 v2.
Proof.
  unfold tri, rsum. revert c1 v1. induction r1 as [|a r1 IH]; intros [|b c1] [|x v1] L M; cbn in *; try discriminate; [lra|].
  rewrite IH by congruence. lra.
Qed.
Lemma tri_row i j c cols vals : length cols = length vals ->
  tri i c (repeat j (length vals)) cols vals = if (j =? i)%nat then entry (cols, vals) c else 0.
Proof.
  unfold tri, entry, rsum; cbn [fst snd]. revert vals. induction cols as [|a cols IH]; intros [|x vals] L; cbn in *; try discriminate.
  - now destruct (j =? i)%nat.
  - rewrite IH by congruence. destruct (j =? i)%nat; cbn; unfold hit; cbn; lra.
Qed.

Lemma read_rows_spec fc : forall rs k rows cols vals, read_rows fc k rs = Ok (rows, cols, vals) ->
  length rows = length vals /\ (length vals <= length cols)%nat /\
  Forall (fun r => exists cv, read_row fc r = Ok cv) rs /\ Forall (fun r => k <= r < k + length rs)%nat rows /\
  (length cols = length vals ->
   (forall c, In c cols <-> exists r cv, In r rs /\ read_row fc r = Ok cv /\ In c (fst cv)) /\
   forall j r, nth_error rs j = Some r -> exists cv, read_row fc r = Ok cv /\ length (fst cv) = length (snd cv) /\
     forall c, tri (k + j) c rows cols vals = entry cv c) /\
  (forall i c, length cols = length vals -> (i < k)%nat -> tri i c rows cols vals = 0).
Proof.
  induction rs as [|r rs IH]; cbn [read_rows]; intros k rows cols vals E.
  - injection E as <- <- <-. cbn. repeat split; try lia; try constructor; try easy.
    + intros (r & cv & [] & _).
    + intros j r N. now destruct j.
  - unfold bind in E. destruct (read_row fc r) as [[cr vr]|] eqn:Er; [|discriminate].
    destruct (read_rows fc (S k) rs) as [[[rows' cols'] vals']|] eqn:Ers; [|discriminate].
    cbn [fst snd] in E. injection E as <- <- <-.
    destruct (IH (S k) rows' cols' vals' Ers) as (L1 & L2 & F & Fr & T & Z). pose proof (read_row_len fc r (cr, vr) Er) as Lr. cbn [fst snd] in Lr.
    repeat match goal with |- _ /\ _ => split end.
    + rewrite !app_length, repeat_length. lia.
    + rewrite !app_length. lia.
    + constructor; [eauto|assumption].
    + apply Forall_app. split.
      * apply Forall_forall. intros x Hx. apply repeat_spec in Hx. subst. cbn. lia.
      * eapply Forall_impl; [|exact Fr]. cbn. intros; lia.
    + rewrite !app_length. intros L. assert (length cr = length vr) by lia. assert (Lc' : length cols' = length vals') by lia.
      destruct (T Lc') as [T1 T2]. split.
      * intros c. rewrite in_app_iff, T1. split.
        -- intros [H0|(r' & cv & H0 & H1 & H2)]; [exists r, (cr, vr); cbn; auto|exists r', cv; cbn; auto].
        -- intros (r' & cv & [<-|H0] & H1 & H2); [left; assert ((cr, vr) = cv) by congruence; now subst cv|right; eauto].
      * intros [|j] r' N; cbn in N.
        -- injection N as <-. exists (cr, vr). split; [assumption|]. split; [assumption|]. intros c. rewrite Nat.add_0_r.
           rewrite tri_app by (rewrite ?repeat_length; lia). rewrite tri_row by assumption. rewrite Nat.eqb_refl, (Z k c) by lia. lra.
        -- destruct (T2 j r' N) as (cv & A & B & C). exists cv. split; [assumption|]. split; [assumption|]. intros c.
           rewrite tri_app by (rewrite ?repeat_length; lia). rewrite tri_row by assumption.
           replace (k =? k + S j)%nat with false by (symmetry; apply Nat.eqb_neq; lia).
           replace (k + S j)%nat with (S k + j)%nat by lia. rewrite C. lra.
    + intros i c. rewrite !app_length. intros L Hi. rewrite tri_app by (rewrite ?repeat_length; lia). rewrite tri_row by lia.
      replace (k =? i)%nat with false by (symmetry; apply Nat.eqb_neq; lia). rewrite Z by lia. lra.
Qed.

Lemma coo_ok nr nc rows cols vals m : coo nr nc rows cols vals = Ok m ->
  length cols = length vals /\ length m = nr /\
  Forall (fun c => 0 <= c < Z.of_nat nc)%Z cols /\
  forall i, (i < nr)%nat -> nth i m [] = map (fun c => tri i (Z.of_nat c) rows cols vals) (seq 0 nc).
Proof.
  unfold coo. destruct (Nat.eqb_spec (length rows) (length cols)); cbn [andb negb]; [|discriminate].
  destruct (Nat.eqb_spec (length cols) (length vals)) as [E|]; cbn [negb]; [|discriminate].
  destruct (forallb _ cols) eqn:F; cbn [andb negb]; [|discriminate]. destruct (forallb _ rows) eqn:G; cbn [negb]; [|discriminate].
  intros H. injection H as <-. split; [assumption|]. split; [now rewrite map_length, seq_length|]. split.
  - apply Forall_forall. intros c Hc. rewrite forallb_forall in F. specialize (F c Hc). apply andb_prop in F as [A B].
    apply Z.leb_le in A. apply Z.ltb_lt in B. lia.
  - intros i Hi. rewrite (nth_indep _ [] (map (fun c => tri 0 (Z.of_nat c) rows cols vals) (seq 0 nc))) by (rewrite map_length, seq_length; lia).
    change (map (fun c => tri 0 (Z.of_nat c) rows cols vals) (seq 0 nc)) with ((fun i => map (fun c => tri i (Z.of_nat c) rows cols vals) (seq 0 nc)) 0%nat).
    rewrite map_nth. now rewrite seq_nth.
Qed.

Lemma read_matrix_entry fc nc rs m i r c : read_matrix fc nc rs = Ok m -> nth_error rs i = Some r -> (c < nc)%nat ->
  (forall k, (Z.of_nat k < n_grp r)%Z -> (0 <= grp_width r k)%Z) ->
  nth c (nth i m []) 0 = rsum (map (fun k => if covers1 (grp_start fc r k) (grp_width r k) (Z.of_nat c) then stored_at fc r k (Z.of_nat c) else 0)
                                   (seq 0 (Z.to_nat (n_grp r)))).
Proof.
  unfold read_matrix, bind. destruct (read_rows fc 0 rs) as [[[rows cols] vals]|] eqn:E; [|discriminate]. intros H N Hc W.
  destruct (coo_ok _ _ _ _ _ _ H) as (L & Lm & F & En). destruct (read_rows_spec fc rs 0%nat rows cols vals E) as (_ & _ & _ & _ & T & _).
  destruct (T L) as [_ T2]. destruct (T2 i r N) as (cv & A & B & C).
  assert (Hi : (i < length rs)%nat) by (apply nth_error_Some; congruence).
  rewrite (En i Hi). rewrite (nth_indep _ 0 (tri i (Z.of_nat 0) rows cols vals)) by (rewrite map_length, seq_length; lia).
  rewrite (map_nth (fun c => tri i (Z.of_nat c) rows cols vals)), seq_nth by assumption. rewrite Nat.add_0_l.
  change i with (0 + i)%nat at 1. rewrite C. now apply entry_row.
Qed.
Lemma read_matrix_shape fc nc rs m : read_matrix fc nc rs = Ok m -> length m = length rs /\ Forall (fun row => length row = nc) m.
Proof.
  unfold read_matrix, bind. destruct (read_rows fc 0 rs) as [[[rows cols] vals]|] eqn:E; [|discriminate]. intros H.
  destruct (coo_ok _ _ _ _ _ _ H) as (L & Lm & F & En). split; [assumption|]. apply Forall_forall. intros row Hin.
  apply (In_nth _ _ []) in Hin as (i & Hi & <-). rewrite En by lia. now rewrite map_length, seq_length.
Qed.

(** ** Acceptance *)
(** what a row must satisfy *)
Definition row_ok (fc : Z) (nc : nat) (r : rmf_row) : Prop :=
  (n_grp r <= 0)%Z \/
  ((n_grp r <= Z.of_nat (length (f_chan r)))%Z /\ (n_grp r <= Z.of_nat (length (n_chan r)))%Z /\
   (sumZ (firstn (Z.to_nat (n_grp r)) (n_chan r)) <= Z.of_nat (length (stored r)))%Z /\
   forall k, (Z.of_nat k < n_grp r)%Z -> grp_width r k = 0%Z \/ (0 <= grp_start fc r k /\ grp_start fc r k + grp_width r k <= Z.of_nat nc)%Z).

Lemma In_arange c s w : In c (arange s w) <-> (s <= c < s + w)%Z.
Proof.
  unfold arange. rewrite in_map_iff. split.
  - intros (k & <- & Hk). apply in_seq in Hk. lia.
  - intros H. exists (Z.to_nat (c - s)). split; [lia|]. apply in_seq. lia.
Qed.

Lemma In_groups c gs : In c (concat (map (fun p => arange (fst p) (snd p)) gs)) <-> exists p, In p gs /\ (fst p <= c < fst p + snd p)%Z.
Proof.
  rewrite in_concat. split.
  - intros (l & Hl & Hc). apply in_map_iff in Hl as (p & <- & Hp). apply In_arange in Hc. eauto.
  - intros (p & Hp & Hc). exists (arange (fst p) (snd p)). split; [apply in_map_iff; eauto|now apply In_arange].
Qed.

Lemma row_groups_nth fc r k : (n_grp r <= Z.of_nat (length (f_chan r)))%Z -> (n_grp r <= Z.of_nat (length (n_chan r)))%Z ->
  (Z.of_nat k < n_grp r)%Z -> nth k (row_groups fc r) (0, 0)%Z = (grp_start fc r k, grp_width r k).
Proof.
  intros. unfold row_groups, zslice. rewrite (combine_nth _ _ k 0%Z 0%Z) by (rewrite !firstn_length, map_length; lia).
  rewrite !nth_firstn by lia. unfold grp_start, grp_width. f_equal.
  rewrite (nth_indep _ 0%Z (0 - fc)%Z) by (rewrite map_length; lia). now rewrite (map_nth (fun c => (c - fc)%Z)).
Qed.
Lemma row_groups_length fc r : (n_grp r <= Z.of_nat (length (f_chan r)))%Z -> (n_grp r <= Z.of_nat (length (n_chan r)))%Z ->
  length (row_groups fc r) = Z.to_nat (n_grp r).
Proof. intros. unfold row_groups, zslice. rewrite combine_length, !firstn_length, map_length. lia. Qed.
Lemma row_groups_In fc r p : (n_grp r <= Z.of_nat (length (f_chan r)))%Z -> (n_grp r <= Z.of_nat (length (n_chan r)))%Z ->
  In p (row_groups fc r) <-> exists k, (Z.of_nat k < n_grp r)%Z /\ p = (grp_start fc r k, grp_width r k).
Proof.
  intros Hf Hw. split.
  - intros Hp. apply (In_nth _ _ (0,0)%Z) in Hp as (k & Hk & <-). rewrite row_groups_length in Hk by assumption.
    exists k. split; [lia|]. apply row_groups_nth; auto. lia.
  - intros (k & Hk & ->). rewrite <- row_groups_nth by assumption. apply nth_In. rewrite row_groups_length by assumption. lia.
Qed.

Definition nonneg_widths (r : rmf_row) : Prop := forall k, (Z.of_nat k < n_grp r)%Z -> (0 <= grp_width r k)%Z.
Lemma nonneg_ws r : nonneg_widths r -> (n_grp r <= Z.of_nat (length (n_chan r)))%Z -> Forall (fun w => 0 <= w)%Z (firstn (Z.to_nat (n_grp r)) (n_chan r)).
Proof.
  intros W Hw. apply Forall_forall. intros w Hin. apply (In_nth _ _ 0%Z) in Hin as (k & Hk & <-). rewrite firstn_length in Hk.
  rewrite nth_firstn by lia. apply W. lia.
Qed.
Lemma sumZ_zero l : Forall (fun w => 0 <= w)%Z l -> (sumZ l <= 0)%Z -> Forall (fun w => w = 0)%Z l.
Proof.
  induction 1 as [|x l Hx Hl IH]; cbn; intros H; [constructor|]. pose proof (sumZ_nonneg l Hl). unfold sumZ in *.
  constructor; [lia|apply IH; lia].
Qed.

Lemma row_ok_read fc nc r : nonneg_widths r -> row_ok fc nc r ->
  exists cv, read_row fc r = Ok cv /\ length (fst cv) = length (snd cv) /\ Forall (fun c => 0 <= c < Z.of_nat nc)%Z (fst cv).
Proof.
  intros W [N|(Hf & Hw & L & G)].
  - exists ([], []). unfold read_row. replace (n_grp r <=? 0)%Z with true by (symmetry; apply Z.leb_le; lia). cbn; auto.
  - unfold read_row, zslice. destruct (Z.leb_spec (n_grp r) 0) as [H|H]; [exists ([], []); cbn; auto|].
    rewrite !firstn_length, !map_length.
    destruct (Z.eqb_spec (Z.of_nat (Nat.min (Z.to_nat (n_grp r)) (length (f_chan r)))) (n_grp r)) as [_|]; cbn [negb orb]; [|lia].
    destruct (Z.eqb_spec (Z.of_nat (Nat.min (Z.to_nat (n_grp r)) (length (n_chan r)))) (n_grp r)) as [_|]; cbn [negb orb]; [|lia].
    destruct (Z.leb_spec (sumZ (firstn (Z.to_nat (n_grp r)) (n_chan r))) 0) as [S|S]; [exists ([], []); cbn; auto|].
    destruct (Z.ltb_spec (Z.of_nat (length (stored r))) (sumZ (firstn (Z.to_nat (n_grp r)) (n_chan r)))) as [T|T]; [lia|].
    match goal with |- context [combine ?a ?b] => change (combine a b) with (row_groups fc r) end.
    eexists. split; [reflexivity|]. cbn [fst snd]. pose proof (row_groups_snd fc r Hf Hw) as Es. split.
    + rewrite (cols_length (row_groups fc r)), firstn_length. pose proof (nonneg_ws r W Hw) as F. rewrite <- Es in F. rewrite Forall_map in F.
      apply cols_eq_rev in F. rewrite Es in F. lia.
    + apply Forall_forall. intros c Hc. apply (In_groups c (row_groups fc r)) in Hc as (p & Hp & Hc).
      apply row_groups_In in Hp as (k & Hk & ->); try assumption. cbn [fst snd] in Hc. destruct (G k Hk) as [Z|Z]; lia.
Qed.

Lemma read_row_ok fc nc r cv : nonneg_widths r -> read_row fc r = Ok cv -> Forall (fun c => 0 <= c < Z.of_nat nc)%Z (fst cv) -> row_ok fc nc r.
Proof.
  intros W E F. apply read_row_cases in E as [[N _]|(H & Hf & Hw & [[S ->]|(P & L & ->)])]; [now left|right|right].
  - split; [assumption|]. split; [assumption|]. split; [lia|]. intros k Hk. left.
    pose proof (sumZ_zero _ (nonneg_ws r W Hw) S) as Z. unfold grp_width. rewrite <- (nth_firstn (Z.to_nat (n_grp r))) by lia.
    destruct (Nat.lt_ge_cases k (length (firstn (Z.to_nat (n_grp r)) (n_chan r)))) as [Hlt|Hge]; [|now apply nth_overflow].
    rewrite Forall_forall in Z. apply Z, nth_In, Hlt.
  - split; [assumption|]. split; [assumption|]. split; [assumption|]. intros k Hk. pose proof (W k Hk).
    destruct (Z.eq_dec (grp_width r k) 0) as [Z|Z]; [now left|right]. cbn [fst] in F. rewrite Forall_forall in F.
    assert (A : forall c, (grp_start fc r k <= c < grp_start fc r k + grp_width r k)%Z -> (0 <= c < Z.of_nat nc)%Z).
    { intros c Hc. apply F. apply In_groups. exists (grp_start fc r k, grp_width r k). split; [|exact Hc]. apply row_groups_In; eauto. }
    pose proof (A (grp_start fc r k) ltac:(lia)). pose proof (A (grp_start fc r k + grp_width r k - 1)%Z ltac:(lia)). lia.
Qed.

Lemma read_rows_exists fc : forall rs k, Forall (fun r => exists cv, read_row fc r = Ok cv /\ length (fst cv) = length (snd cv)) rs ->
  exists rows cols vals, read_rows fc k rs = Ok (rows, cols, vals) /\ length rows = length cols /\ length cols = length vals.
Proof.
  induction rs as [|r rs IH]; intros k F; cbn [read_rows].
  - exists [], [], []. auto.
  - inversion F as [|? ? (cv & E & L) F']; subst. destruct (IH (S k) F') as (rows & cols & vals & Er & L1 & L2).
    unfold bind. rewrite E, Er. do 3 eexists. split; [reflexivity|]. rewrite !app_length, repeat_length. lia.
Qed.

Lemma read_matrix_accepts fc nc rs : Forall nonneg_widths rs ->
  (exists m, read_matrix fc nc rs = Ok m) <-> Forall (row_ok fc nc) rs.
Proof.
  intros W. split.
  - intros (m & H). unfold read_matrix, bind in H. destruct (read_rows fc 0 rs) as [[[rows cols] vals]|] eqn:E; [|discriminate].
    destruct (coo_ok _ _ _ _ _ _ H) as (L & Lm & F & En). destruct (read_rows_spec fc rs 0%nat rows cols vals E) as (_ & _ & R & _ & T & _).
    destruct (T L) as [T1 _]. rewrite Forall_forall in *. intros r Hr. destruct (R r Hr) as (cv & Ecv).
    apply (read_row_ok fc nc r cv (W r Hr) Ecv). apply Forall_forall. intros c Hc. apply F, T1. eauto.
  - intros O. assert (X : Forall (fun r => exists cv, read_row fc r = Ok cv /\ length (fst cv) = length (snd cv) /\ Forall (fun c => 0 <= c < Z.of_nat nc)%Z (fst cv)) rs).
    { rewrite Forall_forall in *. intros r Hr. apply row_ok_read; auto. }
    destruct (read_rows_exists fc rs 0%nat) as (rows & cols & vals & E & L1 & L2).
    { eapply Forall_impl; [|exact X]. cbn. intros r (cv & A & B & _). eauto. }
    unfold read_matrix, bind. rewrite E. destruct (read_rows_spec fc rs 0%nat rows cols vals E) as (_ & _ & _ & Fr & T & _).
    destruct (T L2) as [T1 _]. unfold coo. rewrite L1, L2, !Nat.eqb_refl. cbn [andb negb].
    replace (forallb _ cols) with true.
    + replace (forallb _ rows) with true; [cbn; eauto|]. symmetry. apply forallb_forall. intros i Hi. rewrite Forall_forall in Fr.
      specialize (Fr i Hi). apply Nat.ltb_lt. lia.
    + symmetry. apply forallb_forall. intros c Hc. apply T1 in Hc as (r & cv & Hr & Ecv & Hc). rewrite Forall_forall in X.
      destruct (X r Hr) as (cv' & Ecv' & _ & F). assert (cv = cv') by congruence. subst cv'. rewrite Forall_forall in F. specialize (F c Hc).
      apply andb_true_intro. split; [apply Z.leb_le|apply Z.ltb_lt]; lia.
Qed.

(** ** Round trip *)
(** A way of cutting a dense row: gaps of zeros, each followed by a block of stored values. *)
Fixpoint blocks (k : Z) (segs : list (nat * list R)) : list (Z * list R) :=
  match segs with
  | [] => []
  | (g, v) :: r => ((k + Z.of_nat g)%Z, v) :: blocks (k + Z.of_nat g + Z.of_nat (length v)) r
  end.
(** writing the blocks in the compressed format *)
Definition encode (fc : Z) (segs : list (nat * list R)) : rmf_row :=
  {| n_grp := Z.of_nat (length segs); f_chan := map fst (blocks fc segs);
     n_chan := map (fun s => Z.of_nat (length (snd s))) segs; stored := concat (map snd segs) |}.
(** the dense row they stand for *)
Definition dense (segs : list (nat * list R)) (tail : nat) : list R :=
  concat (map (fun s => repeat 0 (fst s) ++ snd s) segs) ++ repeat 0 tail.
(** the canonical choice: the maximal runs of non-zero elements *)
Fixpoint runs (row : list R) : list (nat * list R) * nat :=
  match row with
  | [] => ([], 0%nat)
  | x :: r =>
      let '(ss, t) := runs r in
      if Req_EM_T x 0 then match ss with [] => ([], S t) | (g, v) :: ss' => ((S g, v) :: ss', t) end
      else match ss with (0%nat, v) :: ss' => ((0%nat, x :: v) :: ss', t) | _ => ((0%nat, [x]) :: ss, t) end
  end.

Lemma runs_dense row : dense (fst (runs row)) (snd (runs row)) = row.
Proof.
  induction row as [|x row IH]; [reflexivity|]. cbn [runs]. destruct (runs row) as [ss t]. cbn [fst snd] in IH.
  destruct (Req_EM_T x 0) as [->|N].
  - destruct ss as [|[g v] ss]; cbn [fst snd]; unfold dense in *; cbn in *; now rewrite <- IH.
  - destruct ss as [|[[|g] v] ss]; cbn [fst snd]; unfold dense in *; cbn in *; now rewrite <- IH.
Qed.

Lemma blocks_length k segs : length (blocks k segs) = length segs.
Proof. revert k; induction segs as [|[g v] s IH]; intros k; cbn; auto. Qed.

Lemma entry_blocks fc : forall segs k c, (fc <= k)%Z -> (k - fc <= Z.of_nat c)%Z ->
  entry (concat (map (fun p => arange (fst p) (snd p)) (combine (map (fun c => (c - fc)%Z) (map fst (blocks k segs))) (map (fun s => Z.of_nat (length (snd s))) segs))),
         concat (map snd segs)) (Z.of_nat c) = nth (c - Z.to_nat (k - fc)) (dense segs 0) 0.
Proof.
  induction segs as [|[g v] segs IH]; intros k c Hk Hc.
  - cbn. now destruct (c - Z.to_nat (k - fc))%nat.
  - cbn [blocks map combine concat fst snd]. rewrite entry_app by (rewrite arange_length; lia). rewrite entry_arange by lia.
    unfold dense in *. cbn [map concat fst snd repeat]. cbn [repeat] in IH. rewrite app_nil_r in *. rewrite <- app_assoc.
    unfold covers1. destruct (Z.leb_spec (k + Z.of_nat g - fc) (Z.of_nat c)) as [A|A]; cbn [andb].
    + rewrite app_nth2 by (rewrite repeat_length; lia). rewrite repeat_length.
      destruct (Z.ltb_spec (Z.of_nat c) (k + Z.of_nat g - fc + Z.of_nat (length v))) as [B|B].
      * rewrite app_nth1 by lia. replace (c - Z.to_nat (k - fc) - g)%nat with (Z.to_nat (Z.of_nat c - (k + Z.of_nat g - fc))) by lia.
        match goal with |- _ + ?e = _ => assert (e = 0) as ->; [|lra] end.
        clear IH. unfold entry; cbn [fst snd]. apply rsum_zeros. intros [a x] Hin. unfold hit; cbn [fst snd]. destruct (Z.eqb_spec a (Z.of_nat c)) as [->|]; [|reflexivity].
        exfalso. apply in_combine_l in Hin. apply In_groups in Hin as ([s w] & Hp & Hs). cbn [fst snd] in Hs.
        apply in_combine_l in Hp. apply in_map_iff in Hp as (s' & <- & Hp). assert (Hge : (k + Z.of_nat g + Z.of_nat (length v) <= s')%Z); [|lia].
        revert Hp. generalize (k + Z.of_nat g + Z.of_nat (length v))%Z. clear. induction segs as [|[g v] segs IH]; cbn [blocks map fst snd]; intros z; [intros []|].
        intros [<-|H]; [lia|]. apply IH in H. lia.
      * rewrite IH by lia. rewrite app_nth2 by lia. rewrite Rplus_0_l. f_equal. lia.
    + rewrite app_nth1 by (rewrite repeat_length; lia). rewrite nth_repeat. rewrite Rplus_0_l.
      unfold entry; cbn [fst snd]. apply rsum_zeros. intros [a x] Hin. unfold hit; cbn [fst snd]. destruct (Z.eqb_spec a (Z.of_nat c)) as [->|]; [|reflexivity].
      exfalso. apply in_combine_l in Hin. apply In_groups in Hin as ([s w] & Hp & Hs). cbn [fst snd] in Hs.
      apply in_combine_l in Hp. apply in_map_iff in Hp as (s' & <- & Hp). assert (Hge : (k + Z.of_nat g + Z.of_nat (length v) <= s')%Z); [|lia].
      revert Hp. generalize (k + Z.of_nat g + Z.of_nat (length v))%Z. clear. induction segs as [|[g v] segs IH]; cbn [blocks map fst snd]; intros z; [intros []|].
      intros [<-|H]; [lia|]. apply IH in H. lia.
Qed.

Lemma encode_widths segs : sumZ (map (fun s : nat * list R => Z.of_nat (length (snd s))) segs) = Z.of_nat (length (concat (map snd segs))).
Proof. induction segs as [|[g v] segs IH]; cbn; [reflexivity|]. unfold sumZ in IH. rewrite IH, app_length. lia. Qed.

Lemma encode_nonneg fc segs : nonneg_widths (encode fc segs).
Proof.
  intros k Hk. unfold grp_width, encode in *; cbn [n_chan n_grp] in *.
  rewrite (nth_indep _ 0%Z ((fun s : nat * list R => Z.of_nat (length (snd s))) (0%nat, []))) by (rewrite map_length; lia).
  rewrite (map_nth (fun s : nat * list R => Z.of_nat (length (snd s)))). apply Nat2Z.is_nonneg.
Qed.

Lemma read_row_encode fc segs : exists cv, read_row fc (encode fc segs) = Ok cv /\ length (fst cv) = length (snd cv) /\
  (forall c, entry cv (Z.of_nat c) = nth c (dense segs 0) 0) /\
  Forall (fun c => 0 <= c < Z.of_nat (length (dense segs 0)))%Z (fst cv).
Proof.
  destruct (row_ok_read fc (length (dense segs 0)) (encode fc segs)) as (cv & E & L & F).
  - apply encode_nonneg.
  - right. unfold encode, grp_start, grp_width; cbn [n_grp f_chan n_chan stored]. rewrite !map_length, blocks_length, Nat2Z.id. split; [lia|]. split; [lia|].
    rewrite firstn_all2 by (rewrite map_length; lia). rewrite encode_widths. split; [lia|]. intros k Hk. right.
    assert (X : forall segs z k, (k < length segs)%nat -> (z <= nth k (map fst (blocks z segs)) 0 /\
       nth k (map fst (blocks z segs)) 0 + nth k (map (fun s : nat * list R => Z.of_nat (length (snd s))) segs) 0 <= z + Z.of_nat (length (dense segs 0)))%Z).
    { clear. induction segs as [|[g v] segs IH]; intros z [|k] H; cbn [length] in H; try lia; cbn [blocks map nth fst snd].
      - unfold dense. cbn [map concat fst snd]. rewrite !app_length, repeat_length. lia.
      - specialize (IH (z + Z.of_nat g + Z.of_nat (length v))%Z k ltac:(lia)). unfold dense in *. cbn [map concat fst snd]. rewrite !app_length in *. rewrite repeat_length in *. lia. }
    specialize (X segs fc k ltac:(lia)). lia.
  - exists cv. split; [assumption|]. split; [assumption|]. split; [|assumption]. intros c.
    pose proof (entry_blocks fc segs fc c ltac:(lia) ltac:(lia)) as EB. rewrite Z.sub_diag in EB. cbn [Z.to_nat] in EB. rewrite Nat.sub_0_r in EB. rewrite <- EB.
    apply read_row_cases in E as [[N ->]|(H & Hf & Hw & [[S ->]|(P & Ls & ->)])].
    + cbn [encode n_grp] in N. destruct segs; [reflexivity|cbn in N; lia].
    + cbn [encode n_grp n_chan] in S. rewrite Nat2Z.id, firstn_all2 in S by (apply Nat.eq_le_incl, map_length). rewrite encode_widths in S.
      assert (concat (map snd segs) = []) as -> by (destruct (concat (map snd segs)); [reflexivity|cbn [length] in S; exfalso; lia]). now rewrite !entry_nil_r.
    + unfold row_groups, zslice. cbn [encode n_grp n_chan f_chan stored]. rewrite !Nat2Z.id. rewrite firstn_all2 by (rewrite ?map_length, ?blocks_length; lia). rewrite firstn_all2 by (rewrite ?map_length, ?blocks_length; lia).
      rewrite encode_widths, Nat2Z.id, firstn_all. reflexivity.
Qed.
Lemma dense_tail segs t c : nth c (dense segs t) 0 = nth c (dense segs 0) 0.
Proof.
  unfold dense. cbn [repeat]. rewrite app_nil_r. destruct (Nat.lt_ge_cases c (length (concat (map (fun s => repeat 0 (fst s) ++ snd s) segs)))) as [H|H].
  - now rewrite app_nth1.
  - rewrite app_nth2 by assumption. rewrite (nth_overflow (concat _)) by assumption. now rewrite nth_repeat.
Qed.

Lemma round_trip fc nc (l : list (list (nat * list R) * nat)) :
  Forall (fun st => length (dense (fst st) (snd st)) = nc) l ->
  read_matrix fc nc (map (fun st => encode fc (fst st)) l) = Ok (map (fun st => dense (fst st) (snd st)) l).
Proof.
  intros F. set (rs := map (fun st => encode fc (fst st)) l).
  assert (N : Forall nonneg_widths rs) by (unfold rs; rewrite Forall_map; apply Forall_forall; intros; apply encode_nonneg).
  assert (O : Forall (row_ok fc nc) rs).
  { unfold rs. rewrite Forall_map. rewrite Forall_forall in *. intros st Hst. destruct (read_row_encode fc (fst st)) as (cv & E & _ & _ & G).
    apply (read_row_ok fc nc _ cv (encode_nonneg fc _) E). eapply Forall_impl; [|exact G]. cbn. intros c Hc.
    specialize (F st Hst). unfold dense in *. cbn [repeat] in Hc. rewrite app_nil_r in Hc. rewrite app_length in F. lia. }
  destruct (proj2 (read_matrix_accepts fc nc rs N) O) as (m & Em). rewrite Em. f_equal.
  pose proof Em as Em'. unfold read_matrix, bind in Em. destruct (read_rows fc 0 rs) as [[[rows cols] vals]|] eqn:E; [|discriminate].
  destruct (coo_ok _ _ _ _ _ _ Em) as (L & Lm & _ & En). destruct (read_rows_spec fc rs 0%nat rows cols vals E) as (_ & _ & _ & _ & T & _).
  destruct (T L) as [_ T2]. assert (Lrs : length rs = length l) by (unfold rs; now rewrite map_length).
  apply (nth_ext _ _ [] (dense [] 0)); [rewrite map_length; congruence|]. intros i Hi.
  pose proof (map_nth (fun st => dense (fst st) (snd st)) l ([], 0%nat) i) as MN. cbn [fst snd] in MN. rewrite MN. clear MN.
  set (st := nth i l ([], 0%nat)). assert (Hst : In st l) by (apply nth_In; lia).
  assert (Nr : nth_error rs i = Some (encode fc (fst st))).
  { unfold rs. apply (map_nth_error (fun st => encode fc (fst st))). apply nth_error_nth'. lia. }
  destruct (T2 i _ Nr) as (cv & A & B & C). destruct (read_row_encode fc (fst st)) as (cv' & A' & _ & C' & _). assert (cv = cv') by congruence. subst cv'.
  rewrite Forall_forall in F. rewrite En by lia.
  apply (nth_ext _ _ 0 0); [rewrite map_length, seq_length; symmetry; now apply F|]. intros c Hc. rewrite map_length, seq_length in Hc.
  rewrite (nth_indep _ 0 (tri i (Z.of_nat 0) rows cols vals)) by (rewrite map_length, seq_length; lia).
  rewrite (map_nth (fun c => tri i (Z.of_nat c) rows cols vals)), seq_nth by assumption. rewrite Nat.add_0_l.
  change i with (0 + i)%nat at 1. rewrite C, C'. symmetry. apply dense_tail.
Qed.
