(** C25, C26 and the photon grid: what reading OGIP files yields. *)
From Verif Require Import RBase BaseFacts Significance Data Ogip OgipProofs.

(** ** C25 response file expansion
    Specification vocabulary (OgipProofs.v): [grp_start fc r k] is F_CHAN[k] - TLMIN,
    [grp_width r k] is N_CHAN[k], [stored_at fc r k c] is MATRIX[sum of the widths before group k
    + offset of channel [c] in the group]. *)
Definition covers (fc : Z) (r : rmf_row) (k c : nat) : Prop :=
  (Z.of_nat k < n_grp r)%Z /\ (grp_start fc r k <= Z.of_nat c < grp_start fc r k + grp_width r k)%Z.

Lemma covers1_spec s w c : covers1 s w c = true <-> (s <= c < s + w)%Z.
Proof. unfold covers1. rewrite andb_true_iff, Z.leb_le, Z.ltb_lt. tauto. Qed.

Theorem C25_shape : forall fc nc rs m, read_matrix fc nc rs = Ok m -> length m = length rs /\ Forall (fun row => length row = nc) m.
Proof. exact read_matrix_shape. Qed.
Print Assumptions C25_shape.

Theorem C25_covered : forall fc nc rs m i r k c, read_matrix fc nc rs = Ok m -> nth_error rs i = Some r -> (c < nc)%nat ->
  nonneg_widths r -> covers fc r k c -> (forall k', covers fc r k' c -> k' = k) ->
  nth c (nth i m []) 0 = stored_at fc r k (Z.of_nat c).
Proof.
  intros fc nc rs m i r k c H N Hc W [Hk C] U. rewrite (read_matrix_entry fc nc rs m i r c H N Hc W).
  rewrite <- (firstn_skipn k (seq 0 (Z.to_nat (n_grp r)))).
  assert (E : skipn k (seq 0 (Z.to_nat (n_grp r))) = k :: seq (S k) (Z.to_nat (n_grp r) - S k)).
  { replace (Z.to_nat (n_grp r)) with (k + S (Z.to_nat (n_grp r) - S k))%nat at 1 by lia. rewrite seq_app, skipn_app, seq_length, Nat.sub_diag.
    rewrite skipn_all2 by (rewrite seq_length; lia). reflexivity. }
  assert (F : firstn k (seq 0 (Z.to_nat (n_grp r))) = seq 0 k).
  { replace (Z.to_nat (n_grp r)) with (k + (Z.to_nat (n_grp r) - k))%nat by lia. rewrite seq_app, firstn_app, seq_length, Nat.sub_diag.
    rewrite firstn_all2 by (rewrite seq_length; lia). now rewrite app_nil_r. }
  rewrite E, F, map_app, rsum_app. cbn [map]. match goal with |- _ + rsum (?a :: ?l) = _ => change (rsum (a :: l)) with (a + rsum l) end.
  replace (covers1 (grp_start fc r k) (grp_width r k) (Z.of_nat c)) with true by (symmetry; now apply covers1_spec).
  rewrite !rsum_zeros; [lra| |]; intros k' Hk'; apply in_seq in Hk';
    (destruct (covers1 (grp_start fc r k') (grp_width r k') (Z.of_nat c)) eqn:Ck; [|reflexivity];
     apply covers1_spec in Ck; assert (k' = k) by (apply U; split; [lia|assumption]); lia).
Qed.
Print Assumptions C25_covered.

Theorem C25_uncovered : forall fc nc rs m i r c, read_matrix fc nc rs = Ok m -> nth_error rs i = Some r -> (c < nc)%nat ->
  nonneg_widths r -> (forall k, ~ covers fc r k c) -> nth c (nth i m []) 0 = 0.
Proof.
  intros fc nc rs m i r c H N Hc W U. rewrite (read_matrix_entry fc nc rs m i r c H N Hc W).
  apply rsum_zeros. intros k Hk. apply in_seq in Hk. destruct (covers1 _ _ _) eqn:Ck; [|reflexivity].
  apply covers1_spec in Ck. exfalso. apply (U k). split; [lia|assumption].
Qed.
Print Assumptions C25_uncovered.

(** a file is read exactly when every row that has groups declares enough F_CHAN/N_CHAN entries, stores enough
    values, and points inside the channel range ([row_ok], OgipProofs.v) *)
Theorem C25_accepts : forall fc nc rs, Forall nonneg_widths rs ->
  (exists m, read_matrix fc nc rs = Ok m) <-> Forall (row_ok fc nc) rs.
Proof. exact read_matrix_accepts. Qed.
Print Assumptions C25_accepts.
Theorem C25_too_few_rejected : forall fc nc rs r, In r rs -> Forall nonneg_widths rs -> (0 < n_grp r)%Z ->
  (n_grp r <= Z.of_nat (length (f_chan r)))%Z -> (n_grp r <= Z.of_nat (length (n_chan r)))%Z ->
  (Z.of_nat (length (stored r)) < sumZ (firstn (Z.to_nat (n_grp r)) (n_chan r)))%Z ->
  read_matrix fc nc rs = Err ValueError.
Proof.
  intros fc nc rs r Hr W P Hf Hw L. destruct (read_matrix fc nc rs) as [m|e] eqn:E.
  - assert (X : exists m, read_matrix fc nc rs = Ok m) by eauto. apply (C25_accepts fc nc rs W) in X. rewrite Forall_forall in X.
    destruct (X r Hr) as [?|(_ & _ & ? & _)]; lia.
  - f_equal. revert E. unfold read_matrix, bind. destruct (read_rows fc 0 rs) as [[[a b] c]|e'] eqn:E.
    + unfold coo. destruct (negb _); [congruence|]. destruct (negb _); congruence.
    + intros H; injection H as <-. clear - E. revert E. generalize 0%nat. induction rs as [|r rs IH]; cbn [read_rows]; intros k; [discriminate|].
      unfold bind. destruct (read_row fc r) as [cv|e] eqn:Er.
      * destruct (read_rows fc (S k) rs) as [[[a b] c]|e] eqn:E'; [discriminate|]. intros H; injection H as <-. eauto.
      * intros H; injection H as <-. revert Er. unfold read_row. destruct (_ <=? _)%Z; [discriminate|]. destruct (_ || _)%bool; [congruence|].
        destruct (_ <=? _)%Z; [discriminate|]. destruct (_ <? _)%Z; congruence.
Qed.
Print Assumptions C25_too_few_rejected.

(** any cutting of the rows into gaps of zeros and stored blocks is read back *)
Theorem C25_round_trip : forall fc nc (l : list (list (nat * list R) * nat)),
  Forall (fun st => length (dense (fst st) (snd st)) = nc) l ->
  read_matrix fc nc (map (fun st => encode fc (fst st)) l) = Ok (map (fun st => dense (fst st) (snd st)) l).
Proof. exact round_trip. Qed.
Print Assumptions C25_round_trip.
(** in particular every dense matrix, compressed into its maximal runs of non-zero elements *)
Definition compress (fc : Z) (row : list R) : rmf_row := encode fc (fst (runs row)).
Theorem C25_compress : forall fc nc m, Forall (fun row => length row = nc) m -> read_matrix fc nc (map (compress fc) m) = Ok m.
Proof.
  intros fc nc m F. pose proof (round_trip fc nc (map runs m)) as RT. rewrite Forall_map in RT. rewrite !map_map in RT.
  unfold compress. rewrite RT.
  - f_equal. rewrite <- (map_id m) at 2. apply map_ext. intros row. apply runs_dense.
  - eapply Forall_impl; [|exact F]. cbn. intros row Hl. now rewrite runs_dense.
Qed.
Print Assumptions C25_compress.

Theorem C25_arf : forall m a m', apply_arf m (Some a) = Ok m' -> length a = length m /\ length m' = length m /\
  forall i c, nth c (nth i m' []) 0 = nth i a 0 * nth c (nth i m []) 0.
Proof.
  intros m a m' H. cbn in H. destruct (Nat.eqb_spec (length a) (length m)) as [L|]; [|discriminate]. injection H as <-. split; [assumption|].
  revert m L. induction a as [|x a IH]; intros [|row m] L; cbn in *; try discriminate; (split; [try reflexivity; f_equal|]).
  - intros [|i] [|c]; cbn; lra.
  - now apply IH; injection L.
  - intros [|i] c.
    + destruct (Nat.lt_ge_cases c (length row)) as [H|H].
      * rewrite (nth_indep _ 0 (x * 0)) by (rewrite map_length; assumption). now rewrite (map_nth (Rmult x)).
      * rewrite !nth_overflow by (rewrite ?map_length; assumption). lra.
    + apply IH. now injection L.
Qed.
Print Assumptions C25_arf.

(** an arf of the wrong length is rejected *)
Theorem C25_arf_mismatch : forall m a, length a <> length m -> apply_arf m (Some a) = Err ValueError.
Proof. intros m a H. cbn. destruct (Nat.eqb_spec (length a) (length m)); easy. Qed.
Print Assumptions C25_arf_mismatch.

(** Non-vacuity: a row with two disjoint groups, padding and TLMIN = 1; channel 3 (index 2) is in group 1 *)
Definition ex_row := {| n_grp := 2; f_chan := [1; 3; 0]%Z; n_chan := [1; 2; 0]%Z; stored := [5; 7; 9; 0] |}.
Example ex_row_ok : row_ok 1 5 ex_row /\ nonneg_widths ex_row.
Proof.
  split.
  - right. do 3 (split; [apply Z.leb_le; reflexivity|]). unfold grp_start, grp_width; intros [|[|k]] Hk; cbn in *; lia.
  - intros [|[|k]] Hk; unfold grp_width; cbn in *; lia.
Qed.
Example ex_row_value : exists m, read_matrix 1 5 [ex_row] = Ok m /\ nth 3 (nth 0 m []) 0 = 9.
Proof.
  destruct ex_row_ok as [O W]. destruct (proj2 (C25_accepts 1 5 [ex_row] (Forall_cons _ W (Forall_nil _))) (Forall_cons _ O (Forall_nil _))) as (m & E).
  exists m. split; [assumption|]. rewrite (C25_covered 1 5 [ex_row] m 0 ex_row 1 3 E eq_refl ltac:(lia) W).
  - unfold stored_at, grp_start. cbn. reflexivity.
  - unfold covers, grp_start, grp_width; cbn. lia.
  - intros [|[|k]]; unfold covers, grp_start, grp_width; cbn; lia.
Qed.
Example ex_short_rejected : read_matrix 1 5 [{| n_grp := 1; f_chan := [1]%Z; n_chan := [3]%Z; stored := [1; 2] |}] = Err ValueError.
Proof. reflexivity. Qed.
Example ex_out_of_range_rejected : read_matrix 1 2 [{| n_grp := 1; f_chan := [2]%Z; n_chan := [2]%Z; stored := [1; 2] |}] = Err ValueError.
Proof. reflexivity. Qed.

(** ** C26 systematic errors *)
Lemma zip2_length {A B C} (f : A -> B -> C) a b : length (zip2 f a b) = Nat.min (length a) (length b).
Proof. revert b; induction a; intros [|y b]; cbn; auto. Qed.
Lemma zip2_nth {A B C} (f : A -> B -> C) a b i da db dc : (i < length a)%nat -> (i < length b)%nat -> nth i (zip2 f a b) dc = f (nth i a da) (nth i b db).
Proof. revert b i; induction a; intros [|y b] [|i] H H'; cbn in *; try lia; auto. apply IHa; lia. Qed.
Lemma mk_spectrum_ok counts errors poisson exposure q g area back net sys s :
  mk_spectrum counts errors poisson exposure q g area back net sys = Ok s ->
  length errors = length counts /\ length (arr_get sys (length counts)) = length counts /\ s_counts s = counts /\
  Forall (fun e => 0 <= e) errors /\ Forall (fun e => 0 <= e) (arr_get sys (length counts)) /\
  s_errors s = if poisson then errors else zip2 (fun e cs => sqrt (sq e + sq cs)) errors (zip2 Rmult (arr_get sys (length counts)) counts).
Proof.
  unfold mk_spectrum. destruct (Nat.eqb_spec (length errors) (length counts)) as [L|]; cbn [negb]; [|discriminate].
  destruct (negb _); [discriminate|]. destruct (negb _); [discriminate|].
  destruct (arr_ok area (length counts)); cbn [andb negb]; [|discriminate]. destruct (arr_ok back (length counts)); cbn [andb negb]; [|discriminate].
  destruct (arr_ok sys (length counts)) eqn:Hs; cbn [andb negb]; [|discriminate].
  destruct (negb _); [discriminate|].
  match goal with |- (if ?x then _ else _) = _ -> _ => destruct x; [discriminate|] end.
  destruct (existsb _ errors) eqn:He; [discriminate|]. destruct (existsb _ (arr_get sys _)) eqn:Hsy; [discriminate|].
  destruct (Rleb exposure 0); [discriminate|]. do 4 (match goal with |- (if ?x then _ else _) = _ -> _ => destruct x; [discriminate|] end).
  assert (NN : forall l, existsb (fun e => Rltb e 0) l = false -> Forall (fun e => 0 <= e) l).
  { induction l as [|x l IH]; cbn; [constructor|]. intros X. apply orb_false_iff in X as [A B]. apply Rltb_false in A. constructor; auto. }
  intros H.
  assert (X : s_counts s = counts /\ s_errors s = if poisson then errors else zip2 (fun e cs => sqrt (sq e + sq cs)) errors (zip2 Rmult (arr_get sys (length counts)) counts)).
  { destruct (match g with Some g => g | None => _ end); [discriminate|]. injection H as <-. cbn. auto. }
  split; [assumption|]. split; [|split; [tauto|split; [auto|split; [auto|tauto]]]].
  destruct sys; cbn in *; [apply repeat_length|now apply Nat.eqb_eq].
Qed.

Lemma sq_sqrt_add a b : sq (sqrt (sq a + sq b)) = sq a + sq b.
Proof. unfold sq. apply sqrt_sqrt. nra. Qed.

(** the class a user builds from arrays adds the systematic error once, in quadrature *)
Theorem C26_arrays : forall counts stat exposure q g area back net sys s,
  mk_spectrum counts stat false exposure q g area back net sys = Ok s ->
  forall i, (i < length counts)%nat ->
  sq (nth i (s_errors s) 0) = sq (nth i stat 0) + sq (nth i (arr_get sys (length counts)) 0 * nth i counts 0).
Proof.
  intros until s. intros H i Hi. destruct (mk_spectrum_ok _ _ _ _ _ _ _ _ _ _ _ H) as (L & Ls & _ & _ & _ & ->).
  rewrite (zip2_nth _ _ _ i 0 0) by (rewrite ?zip2_length; lia). rewrite (zip2_nth Rmult _ _ i 0 0) by lia. apply sq_sqrt_add.
Qed.
Print Assumptions C26_arrays.
Theorem C26_poisson_ignores_sys : forall counts stat exposure q g area back net sys s,
  mk_spectrum counts stat true exposure q g area back net sys = Ok s -> s_errors s = stat.
Proof. intros until s. intros H. now destruct (mk_spectrum_ok _ _ _ _ _ _ _ _ _ _ _ H) as (L & Ls & _ & _ & _ & ->). Qed.
Print Assumptions C26_poisson_ignores_sys.

(** The file reader: with a SYS_ERR column the systematic variance is counted twice ... *)
Theorem C26_file_twice : forall p poisson s counts stat sys,
  read_spectrum p poisson = Ok s -> p_counts p = Some counts -> p_rate p = None -> p_stat p = Some stat -> p_sys p = Column sys ->
  (match p_poisserr p with Some b => Some b | None => poisson end) = Some false ->
  forall i, (i < length counts)%nat ->
  sq (nth i (s_errors s) 0) = sq (nth i stat 0) + 2 * sq (nth i sys 0 * nth i counts 0).
Proof.
  intros p poisson s counts stat sys H Hc Hr Hs Hy Hp i Hi. unfold read_spectrum in H. rewrite Hc, Hr, Hs, Hp, Hy in H. cbn [negb andb] in H.
  destruct (_ || _)%bool; [discriminate|]. destruct (mk_spectrum_ok _ _ _ _ _ _ _ _ _ _ _ H) as (L & Ls & _ & _ & _ & ->). cbn [arr_get] in *.
  rewrite !zip2_length in L.
  rewrite (zip2_nth _ _ _ i 0 0) by (rewrite ?zip2_length; lia). rewrite (zip2_nth _ _ _ i 0 0) by (rewrite ?zip2_length; lia).
  rewrite (zip2_nth Rmult _ _ i 0 0) by lia. rewrite sq_sqrt_add, sq_sqrt_add. lra.
Qed.
Print Assumptions C26_file_twice.
(** ... so the property fails for every channel where the fraction and the counts are not zero *)
Theorem C26_file_refuted : forall p poisson s counts stat sys i,
  read_spectrum p poisson = Ok s -> p_counts p = Some counts -> p_rate p = None -> p_stat p = Some stat -> p_sys p = Column sys ->
  (match p_poisserr p with Some b => Some b | None => poisson end) = Some false -> (i < length counts)%nat ->
  nth i sys 0 <> 0 -> nth i counts 0 <> 0 ->
  sq (nth i stat 0) + sq (nth i sys 0 * nth i counts 0) < sq (nth i (s_errors s) 0).
Proof.
  intros p poisson s counts stat sys i H Hc Hr Hs Hy Hp Hi Ns Nc. rewrite (C26_file_twice p poisson s counts stat sys H Hc Hr Hs Hy Hp i Hi).
  assert (0 < sq (nth i sys 0 * nth i counts 0)); [|lra]. unfold sq. apply Rsqr_pos_lt. apply Rmult_integral_contrapositive_currified; assumption.
Qed.
Print Assumptions C26_file_refuted.
(** A constant systematic fraction given by the header keyword SYS_ERR (allowed by OGIP) is dropped. *)
Theorem C26_keyword_refuted : forall p poisson s counts stat x,
  read_spectrum p poisson = Ok s -> p_counts p = Some counts -> p_rate p = None -> p_stat p = Some stat -> p_sys p = Keyword x ->
  (match p_poisserr p with Some b => Some b | None => poisson end) = Some false ->
  forall i, (i < length counts)%nat -> nth i (s_errors s) 0 = nth i stat 0.
Proof.
  intros p poisson s counts stat x H Hc Hr Hs Hy Hp i Hi. unfold read_spectrum in H. rewrite Hc, Hr, Hs, Hp, Hy in H. cbn [negb andb] in H.
  destruct (existsb (fun e => Rltb e 0) stat) eqn:Es; cbn [orb] in H; [discriminate|]. destruct (existsb _ (repeat _ _)); [discriminate|].
  destruct (mk_spectrum_ok _ _ _ _ _ _ _ _ _ _ _ H) as (L & Ls & _ & _ & _ & ->). cbn [arr_get] in *. rewrite !zip2_length, repeat_length in L.
  rewrite (zip2_nth _ _ _ i 0 0) by (rewrite ?zip2_length, ?repeat_length; lia). rewrite (zip2_nth _ _ _ i 0 0) by (rewrite ?zip2_length, ?repeat_length; lia).
  rewrite (zip2_nth Rmult _ _ i 0 0) by (rewrite ?repeat_length; lia). rewrite nth_repeat, Rmult_0_l. unfold sq. rewrite Rmult_0_l, !Rplus_0_r.
  assert (0 <= nth i stat 0).
  { assert (Hi' : (i < length stat)%nat) by lia. revert Es Hi'. clear. revert i. induction stat as [|y l IH]; cbn; intros i Es Hi; [lia|].
    apply orb_false_iff in Es as [A B]. apply Rltb_false in A. destruct i; cbn; [assumption|]. apply IH; [assumption|lia]. }
  rewrite (sqrt_square (nth i stat 0)) by assumption. rewrite sqrt_square by assumption. reflexivity.
Qed.
Print Assumptions C26_keyword_refuted.
(** Without systematic errors (no field, or an all-zero column) the error is the statistical one. *)
Theorem C26_no_sys : forall p poisson s counts stat sys,
  read_spectrum p poisson = Ok s -> p_counts p = Some counts -> p_rate p = None -> p_stat p = Some stat -> p_sys p = Column sys ->
  (match p_poisserr p with Some b => Some b | None => poisson end) = Some false ->
  forall i, (i < length counts)%nat -> nth i sys 0 = 0 -> sq (nth i (s_errors s) 0) = sq (nth i stat 0).
Proof.
  intros p poisson s counts stat sys H Hc Hr Hs Hy Hp i Hi Z. rewrite (C26_file_twice p poisson s counts stat sys H Hc Hr Hs Hy Hp i Hi), Z.
  unfold sq. lra.
Qed.
Print Assumptions C26_no_sys.

(** Likewise a QUALITY keyword in the header, marking the whole spectrum, is dropped: every channel is good. *)
Theorem C60_quality_keyword_refuted : forall p poisson s q counts,
  read_spectrum p poisson = Ok s -> p_counts p = Some counts -> p_quality p = Keyword q -> s_quality s = repeat 0%Z (length counts).
Proof.
  intros p poisson s q counts H Hc Hq. unfold read_spectrum in H. rewrite Hc, Hq in H. cbn [col_or] in H.
  destruct (match p_poisserr p with Some b => Some b | None => poisson end) as [b|]; [|discriminate].
  destruct (if b then Some [] else p_stat p) as [st|]; [|discriminate].
  match type of H with (if ?x then _ else _) = _ => destruct x; [discriminate|] end.
  unfold mk_spectrum in H. cbv zeta in H. repeat (match type of H with (if ?x then _ else _) = _ => destruct x; [discriminate|] end).
  injection H as <-. reflexivity.
Qed.
Print Assumptions C60_quality_keyword_refuted.

(** rates: counts and statistical errors are the columns times the exposure *)
Theorem C60_rates : forall p poisson s rate stat,
  read_spectrum p poisson = Ok s -> p_counts p = None -> p_rate p = Some rate -> p_stat p = Some stat -> p_sys p = Absent ->
  (match p_poisserr p with Some b => Some b | None => poisson end) = Some false ->
  0 < p_exposure p /\ s_counts s = map (fun x => x * p_exposure p) rate /\
  forall i, (i < length rate)%nat -> sq (nth i (s_errors s) 0) = sq (nth i stat 0 * p_exposure p).
Proof.
  intros p poisson s rate stat H Hc Hr Hs Hy Hp. unfold read_spectrum in H. rewrite Hc, Hr, Hs, Hp, Hy in H. cbn [negb andb] in H.
  destruct (_ || _)%bool; [discriminate|].
  assert (Hx : 0 < p_exposure p).
  { destruct (Rleb (p_exposure p) 0) eqn:Ex; [|now apply Rleb_false]. revert H. unfold mk_spectrum. cbv zeta. rewrite Ex.
    repeat (match goal with |- (if ?x then _ else _) = _ -> _ => destruct x; [discriminate|] end). discriminate. }
  split; [assumption|]. destruct (mk_spectrum_ok _ _ _ _ _ _ _ _ _ _ _ H) as (L & Ls & E & _ & _ & ->). split; [assumption|]. intros i Hi.
  cbn [arr_get] in *. rewrite !zip2_length, !map_length, repeat_length in L.
  rewrite (zip2_nth _ _ _ i 0 0) by (rewrite ?zip2_length, ?repeat_length, ?map_length; lia). rewrite (zip2_nth _ _ _ i 0 0) by (rewrite ?zip2_length, ?repeat_length, ?map_length; lia).
  rewrite (zip2_nth Rmult _ _ i 0 0) by (rewrite ?repeat_length, ?map_length; lia). rewrite sq_sqrt_add, sq_sqrt_add. rewrite nth_repeat.
  rewrite (nth_indep (map _ stat) 0 (0 * p_exposure p)) by (rewrite map_length; lia). rewrite (map_nth (fun x => x * p_exposure p)). unfold sq. lra.
Qed.
Print Assumptions C60_rates.

(** field by field: what an accepted file yields.  A column is taken as it is; channels without QUALITY are good
    (0), channels without GROUPING start a group (1); a scale given for the whole spectrum applies to every channel, an
    absent one is 1, and a zero scale counts as 1 in channels that are not marked bad; the flag in the header wins over the argument *)
Definition field_value (d : Z) (f : field Z) (i : nat) : Z := match f with Column l => nth i l d | _ => d end.
Definition scale_value (f : field R) (i : nat) : R := match f with Column l => nth i l 0 | Keyword x => x | Absent => 1 end.
Definition scale_used (x : R) (q : Z) (y : R) : Prop := (x = 0 /\ q <> 1%Z -> y = 1) /\ (x <> 0 \/ q = 1%Z -> y = x) .
Lemma col_or_nth d n f i : (i < n)%nat -> nth i (col_or d n f) d = field_value d f i.
Proof. intros H. destruct f; cbn; try apply nth_repeat. reflexivity. Qed.
Lemma reset_used x q n i : (i < n)%nat -> length q = n -> length x = n -> scale_used (nth i x 0) (nth i q 0%Z) (nth i (reset_zero x q) 0).
Proof.
  intros Hi Lq Lx. unfold reset_zero. rewrite (zip2_nth _ _ _ i 0 0%Z) by (rewrite ?Lq, ?Lx; exact Hi). unfold scale_used.
  destruct (Reqb_spec (nth i x 0) 0) as [E|E], (Z.eqb_spec (nth i q 0%Z) 1) as [F|F]; cbn [andb negb]; split; intros; try tauto; try reflexivity.
Qed.
Theorem C60_fields : forall p poisson s, read_spectrum p poisson = Ok s ->
  Some (s_poisson s) = (match p_poisserr p with Some b => Some b | None => poisson end) /\ s_exposure s = p_exposure p /\ 0 < p_exposure p /\ s_net_opt s = p_net p /\
  (match p_counts p, p_rate p with Some c, _ => s_counts s = c | None, Some r => s_counts s = map (fun x => x * p_exposure p) r | None, None => False end) /\
  let n := length (s_counts s) in
  length (s_quality s) = n /\ length (s_grouping s) = n /\ length (s_area s) = n /\ length (s_back s) = n /\ length (s_errors s) = n /\ (0 < n)%nat /\
  (s_poisson s = true -> s_errors s = map sqrt (s_counts s)) /\
  forall i, (i < n)%nat ->
    nth i (s_quality s) 0%Z = field_value 0 (p_quality p) i /\
    (field_value 1 (p_grouping p) i <> (-1)%Z \/ i <> O -> nth i (s_grouping s) 1%Z = field_value 1 (p_grouping p) i) /\
    (field_value 1 (p_grouping p) 0 = (-1)%Z -> nth 0 (s_grouping s) 1%Z = 1%Z) /\
    scale_used (scale_value (p_area p) i) (nth i (s_quality s) 0%Z) (nth i (s_area s) 0) /\
    scale_used (scale_value (p_back p) i) (nth i (s_quality s) 0%Z) (nth i (s_back s) 0).
Proof.
  intros p poisson s H. unfold read_spectrum in H. destruct (match p_poisserr p with Some b => Some b | None => poisson end) as [b|] eqn:Eb; [|destruct (p_counts p), (p_rate p); discriminate].
  set (counts := match p_counts p, p_rate p with Some c, _ => c | None, Some r => map (fun x => x * p_exposure p) r | None, None => [] end) in *.
  assert (Hcr : match p_counts p, p_rate p with None, None => False | _, _ => True end) by (destruct (p_counts p), (p_rate p); [exact I|exact I|exact I|discriminate]).
  assert (Hd : match (if b then Some [] else p_stat p) with None => Err ValueError | Some stat =>
    let stat := if b then map sqrt counts else match p_rate p with Some _ => map (fun x => x * p_exposure p) stat | None => stat end in
    let sys := match p_sys p with Column l => l | _ => repeat 0 (length counts) end in
    let quality := col_or 0 (length counts) (p_quality p) in let grouping := col_or 1 (length counts) (p_grouping p) in
    if (negb b && (existsb (fun e => Rltb e 0) stat || existsb (fun e => Rltb e 0) sys))%bool then Err ValueError else
    let errors := if b then stat else zip2 (fun e cs => sqrt (sq e + sq cs)) stat (zip2 Rmult sys counts) in
    mk_spectrum counts errors b (p_exposure p) (Some quality) (Some grouping) (scale_field (p_area p)) (scale_field (p_back p)) (p_net p) (Arr sys) end = Ok s) by (destruct (p_counts p), (p_rate p); [exact H|exact H|exact H|discriminate]).
  clear H. rename Hd into H. destruct (if b then Some [] else p_stat p) as [st|] eqn:Es; [|discriminate]. cbv zeta in H.
  match type of H with (if ?x then _ else _) = _ => destruct x; [discriminate|] end.
  match type of H with mk_spectrum _ ?er _ _ _ _ _ _ _ (Arr ?sy) = _ => assert (Ee : b = true -> er = map sqrt counts) by (intros ->; reflexivity); revert H Ee; generalize er; intros errs H Ee; revert H; generalize sy end.
  clear Es st. intros sys H. unfold mk_spectrum in H. cbv zeta in H.
  destruct (Nat.eqb_spec (length errs) (length counts)) as [Le|]; [|discriminate]. cbn [negb] in H.
  destruct (Nat.eqb_spec (length (col_or 0 (length counts) (p_quality p))) (length counts)) as [Lq|]; [|discriminate]. cbn [negb] in H.
  destruct (Nat.eqb_spec (length (col_or 1 (length counts) (p_grouping p))) (length counts)) as [Lg|]; [|discriminate]. cbn [negb] in H.
  destruct (arr_ok (scale_field (p_area p)) (length counts)) eqn:La; [|discriminate]. destruct (arr_ok (scale_field (p_back p)) (length counts)) eqn:Lb; [|discriminate].
  destruct (arr_ok (Arr _) (length counts)) eqn:Ls in H; [|discriminate]. cbn [negb andb] in H.
  destruct (negb (forallb _ _)) in H; [discriminate|]. destruct (_ && _)%bool in H; [discriminate|]. destruct (existsb _ _) in H; [discriminate|]. destruct (existsb _ _) in H; [discriminate|].
  destruct (Rleb_spec (p_exposure p) 0) as [|Px]; [discriminate|]. destruct (existsb _ _) in H; [discriminate|]. destruct (existsb _ _) in H; [discriminate|]. destruct (negb (forallb _ _)) in H; [discriminate|]. destruct (negb (forallb _ _)) in H; [discriminate|].
  destruct (col_or 1 (length counts) (p_grouping p)) as [|g0 gr] eqn:Eg; [discriminate|]. injection H as <-. cbn [s_poisson s_exposure s_net_opt s_counts s_quality s_grouping s_area s_back s_errors].
  assert (Lf : forall f, arr_ok (scale_field f) (length counts) = true -> length (arr_get (scale_field f) (length counts)) = length counts /\ forall i, (i < length counts)%nat -> nth i (arr_get (scale_field f) (length counts)) 0 = scale_value f i).
  { intros f Hf. destruct f; cbn in *; try (split; [apply repeat_length|]; intros i Hi; rewrite <- (repeat_length 0 (length counts)) in Hi; clear -Hi; revert i Hi; rewrite repeat_length; induction (length counts); intros [|i] Hi; cbn; try lia; [reflexivity|apply IHn; lia]).
    split; [now apply Nat.eqb_eq|reflexivity]. }
  destruct (Lf _ La) as [La1 La2]. destruct (Lf _ Lb) as [Lb1 Lb2].
  assert (Lff : length (fix_first (g0 :: gr)) = length counts) by (rewrite <- Lg; reflexivity).
  split; [reflexivity|]. split; [reflexivity|]. split; [lra|]. split; [reflexivity|]. split; [unfold counts; destruct (p_counts p), (p_rate p); try reflexivity; exact Hcr|]. cbv zeta.
  assert (Lr : forall f, length (arr_get (scale_field f) (length counts)) = length counts -> length (reset_zero (arr_get (scale_field f) (length counts)) (col_or 0 (length counts) (p_quality p))) = length counts) by (intros f Hf; unfold reset_zero; rewrite zip2_length; lia).
  split; [exact Lq|]. split; [exact Lff|]. split; [now apply Lr|]. split; [now apply Lr|].
  assert (Ler : length (if b then errs else zip2 (fun e cs => sqrt (sq e + sq cs)) errs (zip2 Rmult (arr_get (Arr sys) (length counts)) counts)) = length counts).
  { destruct b; [exact Le|]. cbn [arr_get arr_ok] in *. apply Nat.eqb_eq in Ls. rewrite !zip2_length. lia. }
  split; [exact Ler|]. split; [rewrite <- Lg; cbn; lia|]. split; [intros ->; now apply Ee|].
  intros i Hi. split; [now apply col_or_nth|].
  assert (Gn : forall k, (k < length counts)%nat -> field_value 1 (p_grouping p) k = nth k (g0 :: gr) 1%Z) by (intros k Hk; rewrite <- Eg; symmetry; now apply col_or_nth).
  split; [|split].
  - intros D. rewrite Gn in D |- * by exact Hi. unfold fix_first. destruct i as [|i]; [|reflexivity]. cbn [nth] in *. destruct (Z.eqb_spec g0 (-1)); [|reflexivity]. destruct D; congruence.
  - intros D. rewrite Gn in D by lia. cbn [nth] in D. unfold fix_first. cbn [nth]. now rewrite D.
  - split; rewrite <- ?La2, <- ?Lb2 by exact Hi; apply (reset_used _ _ (length counts)); assumption.
Qed.
Print Assumptions C60_fields.

(** Non-vacuity *)
Definition ex_pha (sys : field R) : pha := {| p_exposure := 10; p_counts := Some [100; 4]; p_rate := None; p_stat := Some [10; 2]; p_sys := sys;
  p_quality := Keyword 5%Z; p_grouping := Absent; p_area := Absent; p_back := Keyword 1; p_poisserr := Some false; p_net := None |}.
Lemma ex_sp x : 0 <= x -> exists s, read_spectrum (ex_pha (Column [x; 0])) None = Ok s.
Proof.
  intros Hx. unfold read_spectrum, ex_pha; cbn. unfold mk_spectrum; cbn.
  assert (forall a, 0 <= a -> Rltb a 0 = false) as P by (intros; now apply Rltb_false).
  rewrite !P; try lra; try apply sqrt_pos. cbn.
  replace (Rleb 10 0) with false by (symmetry; apply Rleb_false; lra).
  unfold Reqb. destruct (Req_EM_T 1 0); [lra|]. cbn. rewrite ?P by lra. cbn.
  replace (Rltb 0 1) with true by (symmetry; apply Rltb_true; lra). cbn. eauto. all: destruct (_ && _)%bool; lra.
Qed.
Example ex_sys_col : exists s, read_spectrum (ex_pha (Column [1/10; 0])) None = Ok s /\ sq (nth 0 (s_errors s) 0) = 300.
Proof.
  destruct (ex_sp (1/10) ltac:(lra)) as (s & E). exists s. split; [assumption|].
  rewrite (C26_file_twice _ None s [100; 4] [10; 2] [1/10; 0] E eq_refl eq_refl eq_refl eq_refl eq_refl 0%nat) by (cbn; lia). unfold sq. cbn. lra.
Qed.

(** ** C61 the photon energy grid *)
Theorem C61_grid_unchanged : forall emin emax, 0 < hd 0 emin -> photon_grid emin emax = emin ++ [last emax 0].
Proof.
  intros [|e0 r] emax H; cbn in *; [lra|]. unfold Rleb. destruct (Rle_dec e0 0); [lra|reflexivity].
Qed.
Print Assumptions C61_grid_unchanged.
Theorem C61_grid_positive : forall emin emax, hd 0 emin <= 0 -> emin <> [] ->
  let g := photon_grid emin emax in
  / 10 ^ 30 < nth 1 g 0 -> 0 < nth 0 g 0 < nth 1 g 0 /\ tl g = tl (emin ++ [last emax 0]).
Proof.
  intros [|e0 r] emax H N g; [easy|]. unfold g; clear g. cbn [app photon_grid hd] in *. unfold photon_grid. cbn [app]. 
  unfold Rleb. destruct (Rle_dec e0 0); [|lra]. cbn [nth]. intros L. split; [|reflexivity].
  replace (hd 0 (r ++ [last emax 0])) with (nth 0 (r ++ [last emax 0]) 0) by (destruct r; reflexivity).
  set (x := nth 0 (r ++ [last emax 0]) 0) in *. assert (0 < / 10 ^ 30) by (apply Rinv_0_lt_compat, pow_lt; lra).
  unfold Rmax. destruct (Rle_dec _ _); lra.
Qed.
Print Assumptions C61_grid_positive.
Example ex_grid : hd 0 [0; 1] <= 0 /\ / 10 ^ 30 < nth 1 (photon_grid [0; 1] [1; 2]) 0.
Proof.
  cbn [hd]. split; [lra|]. unfold photon_grid. cbn [app last nth]. rewrite <- Rinv_1. apply Rinv_lt_contravar; [rewrite Rmult_1_l; apply pow_lt; lra|].
  apply Rlt_pow_R1; [lra|lia].
Qed.
