From Verif Require Import RBase BaseFacts Scale.

(** ** generic list facts *)
Lemma ogip_map {A B} (f : A -> B) fl xs :
  ogip fl (map f xs) = (map f (fst (ogip fl xs)), map (map f) (snd (ogip fl xs))).
Proof.
  revert xs; induction fl as [|z fl IH]; intros [|x xs]; try reflexivity.
  cbn [map ogip]. rewrite IH. destruct (ogip fl xs) as [pre gs]; cbn [fst snd].
  destruct (z =? -1)%Z; reflexivity.
Qed.
Lemma groups_map {A B} (f : A -> B) fl xs : groups fl (map f xs) = map (map f) (groups fl xs).
Proof. unfold groups. now rewrite ogip_map. Qed.

Lemma combine_map2 {A B C} (f : A -> B) (g : A -> C) xs :
  combine (map f xs) (map g xs) = map (fun x => (f x, g x)) xs.
Proof. induction xs as [|x xs IH]; simpl; [reflexivity|]. now rewrite IH. Qed.
Lemma rmul2_map {A} (f g : A -> R) xs : rmul2 (map f xs) (map g xs) = map (fun x => f x * g x) xs.
Proof. unfold rmul2. rewrite combine_map2, map_map. reflexivity. Qed.

Lemma map5_map {A B} (f : B -> B -> B -> B -> B -> B) (a b c d e : A -> B) xs :
  map5 f (map a xs) (map b xs) (map c xs) (map d xs) (map e xs) =
  map (fun x => f (a x) (b x) (c x) (d x) (e x)) xs.
Proof. induction xs as [|x xs IH]; simpl; [reflexivity|]. now rewrite IH. Qed.

Lemma reduceat_rsum_map {A} (f : A -> R) fl xs : length fl = length xs ->
  reduceat rsum (map f xs) (starts fl) = map (fun g => rsum (map f g)) (groups fl xs).
Proof.
  intros H. rewrite reduceat_groups by (now rewrite map_length).
  rewrite groups_map, map_map. reflexivity.
Qed.

(** ** statistics of a group of channels, with real weights *)
Section Stat.
Context {A : Type}.
Variables (q c n w r s : A -> R).
Definition gstat (net : bool) (g : list A) : R :=
  gscale net (rsum (map (fun x => q x * c x) g)) (rsum (map (fun x => q x * n x) g))
    (rsum (map (fun x => q x * w x) g)) (rsum (map (fun x => q x * r x) g)) (rsum (map (fun x => q x * s x) g)).
End Stat.

Lemma group_scale_data_map {A} (xs : list A) (q c n w r s sc : A -> R) fl net :
  length fl = length xs ->
  group_scale_data (map c xs) (map sc xs) fl (Some (map q xs)) net
    (Some (map n xs)) (Some (map w xs)) (Some (map r xs)) (Some (map s xs)) =
  Ok {| sd_scale := map (gstat q c n w r s net) (groups fl xs);
        sd_counts := map (fun g => rsum (map (fun x => q x * c x) g)) (groups fl xs);
        sd_nchan := map (fun g => rsum (map (fun x => q x * n x) g)) (groups fl xs);
        sd_winv := map (fun g => rsum (map (fun x => q x * w x) g)) (groups fl xs);
        sd_recip := map (fun g => rsum (map (fun x => q x * r x) g)) (groups fl xs);
        sd_ssum := map (fun g => rsum (map (fun x => q x * s x) g)) (groups fl xs) |}.
Proof.
  intros H. unfold group_scale_data, opt_len, same_len. rewrite !map_length, H, !Nat.eqb_refl.
  cbn [andb negb dflt]. rewrite !rmul2_map, !reduceat_rsum_map by exact H.
  rewrite map5_map. reflexivity.
Qed.

Lemma group_scale_raw_map {A} (xs : list A) (q c sc : A -> R) fl net :
  length fl = length xs ->
  group_scale_raw (map c xs) (map sc xs) fl (Some (map q xs)) net =
  group_scale_data (map c xs) (map sc xs) fl (Some (map q xs)) net
    (Some (map (fun _ => 1) xs)) (Some (map (fun x => div0 (c x) (sc x)) xs))
    (Some (map (fun x => div0 1 (sc x)) xs)) (Some (map sc xs)).
Proof.
  intros H. unfold group_scale_raw, group_scale_data, opt_len, same_len.
  rewrite !map_length, H, !Nat.eqb_refl. cbn [andb negb dflt].
  rewrite combine_map2, !map_map. reflexivity.
Qed.

Lemma regroup_map {A} (xs : list A) (c n w r s : A -> R) sc fl net :
  length fl = length xs -> length sc = length xs ->
  regroup_scale {| sd_scale := sc; sd_counts := map c xs; sd_nchan := map n xs; sd_winv := map w xs;
                   sd_recip := map r xs; sd_ssum := map s xs |} fl net =
  Ok {| sd_scale := map (gstat (fun _ => 1) c n w r s net) (groups fl xs);
        sd_counts := map (fun g => rsum (map c g)) (groups fl xs);
        sd_nchan := map (fun g => rsum (map n g)) (groups fl xs);
        sd_winv := map (fun g => rsum (map w g)) (groups fl xs);
        sd_recip := map (fun g => rsum (map r g)) (groups fl xs);
        sd_ssum := map (fun g => rsum (map s g)) (groups fl xs) |}.
Proof.
  intros H Hs. unfold regroup_scale, group_scale_data, opt_len, same_len.
  cbn [sd_scale sd_counts sd_nchan sd_winv sd_recip sd_ssum].
  rewrite !map_length, Hs, H, !Nat.eqb_refl. cbn [andb negb dflt].
  rewrite !map_map, !rmul2_map, !reduceat_rsum_map by exact H.
  rewrite map5_map.
  assert (E : forall f : A -> R, map (fun g => rsum (map (fun x => 1 * f x) g)) (groups fl xs) =
                       map (fun g => rsum (map f g)) (groups fl xs)).
  { intros f. apply map_ext; intros g. f_equal. apply map_ext; intros x. lra. }
  rewrite !E. reflexivity.
Qed.

(** ** composition *)
Lemma compose_length fl1 : forall fl2, length (compose_flags fl1 fl2) = length fl1.
Proof.
  induction fl1 as [|f fl1 IH]; intros fl2; [reflexivity|]. cbn [compose_flags].
  destruct (f =? -1)%Z; [simpl; now rewrite IH|]. destruct fl2; simpl; now rewrite IH.
Qed.

Lemma groups_length_starts fl : forall {A} (xs : list A), length fl = length xs ->
  length (groups fl xs) = length (starts fl).
Proof. intros; now apply groups_length. Qed.

Lemma ogip_compose {A} fl1 : forall fl2 (xs : list A), length fl1 = length xs ->
  length fl2 = length (groups fl1 xs) ->
  let '(pre, gs) := ogip fl1 xs in
  let '(pre2, gs2) := ogip fl2 gs in
  ogip (compose_flags fl1 fl2) xs = (pre ++ concat pre2, map (@concat A) gs2).
Proof.
  induction fl1 as [|f fl1 IH]; intros fl2 [|x xs] H1 H2; try discriminate.
  { simpl in H2. destruct fl2; [|discriminate]. reflexivity. }
  injection H1 as H1. unfold groups in *. cbn [ogip compose_flags] in *.
  destruct (f =? -1)%Z eqn:Ef.
  - specialize (IH fl2 xs H1).
    destruct (ogip fl1 xs) as [pre gs]; cbn [snd] in *. specialize (IH H2).
    destruct (ogip fl2 gs) as [pre2 gs2]. cbn [ogip]. rewrite IH. cbn. reflexivity.
  - destruct fl2 as [|g fl2].
    { destruct (ogip fl1 xs) as [pre gs]; cbn in H2; discriminate. }
    specialize (IH fl2 xs H1).
    destruct (ogip fl1 xs) as [pre gs]; cbn [snd length] in *. injection H2 as H2. specialize (IH H2).
    cbn [ogip]. destruct (ogip fl2 gs) as [pre2 gs2]. rewrite IH.
    destruct (g =? -1)%Z; reflexivity.
Qed.

Lemma groups_compose {A} fl1 fl2 (xs : list A) : length fl1 = length xs ->
  length fl2 = length (groups fl1 xs) ->
  groups (compose_flags fl1 fl2) xs = map (@concat A) (groups fl2 (groups fl1 xs)).
Proof.
  intros H1 H2. pose proof (ogip_compose fl1 fl2 xs H1 H2) as H. unfold groups in *.
  destruct (ogip fl1 xs) as [pre gs]. cbn [snd] in *. destruct (ogip fl2 gs) as [pre2 gs2].
  now rewrite H.
Qed.

Lemma rsum_map_concat {A} (f : A -> R) gs :
  rsum (map f (concat gs)) = rsum (map (fun g => rsum (map f g)) gs).
Proof. rewrite concat_map, rsum_concat, map_map. reflexivity. Qed.

Lemma zip3 (a b c : list R) : length a = length b -> length c = length b ->
  exists xs : list (R * R * R), a = map (fun x => fst (fst x)) xs /\ b = map (fun x => snd (fst x)) xs /\ c = map snd xs.
Proof.
  revert b c; induction a as [|x a IH]; intros [|y b] [|z c] H1 H2; try discriminate.
  - exists []; auto.
  - simpl in *. destruct (IH b c) as (xs & -> & -> & ->); [lia|lia|].
    exists ((x, y, z) :: xs). auto.
Qed.

Lemma ok_lens counts scale fl q net d : group_scale_raw counts scale fl (Some q) net = Ok d ->
  length counts = length scale /\ length fl = length counts /\ length q = length counts.
Proof.
  unfold group_scale_raw, group_scale_data, opt_len, same_len. intros H.
  destruct (_ && _)%bool eqn:E in H; [|discriminate].
  apply andb_true_iff in E as (E & _). apply andb_true_iff in E as (E & _).
  apply andb_true_iff in E as (E & _). apply andb_true_iff in E as (E & _).
  apply andb_true_iff in E as (E & E3). apply andb_true_iff in E as (E1 & E2).
  apply Nat.eqb_eq in E1, E2, E3. auto.
Qed.

Lemma regroup_compose counts scale fl1 fl2 q net d1 d2 :
  group_scale_raw counts scale fl1 (Some q) net = Ok d1 ->
  length fl2 = length (groups fl1 counts) ->
  regroup_scale d1 fl2 net = Ok d2 ->
  group_scale_raw counts scale (compose_flags fl1 fl2) (Some q) net = Ok d2.
Proof.
  intros H1 Hl H2. pose proof (ok_lens _ _ _ _ _ _ H1) as (L1 & L2 & L3).
  destruct (zip3 counts scale q) as (xs & -> & -> & ->); [exact L1|congruence|].
  rewrite map_length in L2.
  rewrite group_scale_raw_map in * by (rewrite ?compose_length; exact L2).
  rewrite group_scale_data_map in H1 by exact L2. injection H1 as <-.
  rewrite groups_map in Hl. rewrite map_length in Hl.
  rewrite regroup_map in H2 by (first [exact Hl|now rewrite map_length]). injection H2 as <-.
  rewrite group_scale_data_map by (now rewrite compose_length).
  rewrite groups_compose by assumption.
  f_equal. rewrite !map_map. f_equal; apply map_ext; intros gs; rewrite ?rsum_map_concat; try reflexivity.
  unfold gstat. rewrite !rsum_map_concat.
  f_equal; f_equal; apply map_ext; intros g; lra.
Qed.

(** ** prefix sums *)
Lemma nth_cumsumR l : forall acc i, (i < length l)%nat -> nth i (cumsumR acc l) 0 = acc + rsum (firstn (S i) l).
Proof.
  induction l as [|x l IH]; intros acc i Hi; [simpl in Hi; lia|].
  destruct i as [|i]; cbn [cumsumR nth firstn rsum fold_right]; [lra|].
  rewrite IH by (simpl in Hi; lia). cbn [firstn rsum fold_right]. unfold rsum. lra.
Qed.
Lemma nth_prefix l i : (i <= length l)%nat -> nth i (prefix_sum l) 0 = rsum (firstn i l).
Proof.
  intros H. destruct i as [|i]; [reflexivity|]. unfold prefix_sum. cbn [nth].
  rewrite nth_cumsumR by lia. lra.
Qed.
Lemma interval_sum_slice l a b : (a <= b)%nat -> (b <= length l)%nat ->
  interval_sum (prefix_sum l) a b = rsum (slice a b l).
Proof.
  intros H1 H2. unfold interval_sum. rewrite !nth_prefix by lia.
  rewrite <- (slice_0 l b), <- (slice_app l 0 a b) by lia. rewrite rsum_app, slice_0. lra.
Qed.

Lemma slice_map {A B} (f : A -> B) l a b : slice a b (map f l) = map f (slice a b l).
Proof. unfold slice. now rewrite skipn_map, firstn_map. Qed.

Lemma scale_interval_gscale {A} (xs : list A) (c n w r s : A -> R) sc net a b :
  (a <= b)%nat -> (b <= length xs)%nat ->
  (forall g, (forall x, In x g -> In x xs) -> rsum (map n g) = 0 ->
     rsum (map w g) = 0 /\ rsum (map r g) = 0) ->
  scale_from_interval (build_scale_prefix {| sd_scale := sc; sd_counts := map c xs; sd_nchan := map n xs;
      sd_winv := map w xs; sd_recip := map r xs; sd_ssum := map s xs |} net) a b =
  gscale net (rsum (map c (slice a b xs))) (rsum (map n (slice a b xs))) (rsum (map w (slice a b xs)))
     (rsum (map r (slice a b xs))) (rsum (map s (slice a b xs))).
Proof.
  intros Hab Hb Hcons. unfold scale_from_interval, build_scale_prefix. cbn [sd_scale sd_counts sd_nchan sd_winv sd_recip sd_ssum pd_counts pd_nchan pd_winv pd_recip pd_ssum pd_net].
  rewrite !interval_sum_slice by (rewrite ?map_length; assumption).
  rewrite !slice_map. unfold gscale.
  specialize (Hcons (slice a b xs)).
  assert (Hin : forall x, In x (slice a b xs) -> In x xs).
  { intros x Hx. unfold slice in Hx.
    rewrite <- (firstn_skipn a xs). apply in_or_app; right.
    rewrite <- (firstn_skipn (b - a) (skipn a xs)). apply in_or_app; left. exact Hx. }
  specialize (Hcons Hin). set (g := slice a b xs) in *.
  destruct (Reqb_spec (rsum (map n g)) 0) as [E|E].
  - destruct net; [reflexivity|]. destruct (Hcons E) as (E1 & E2). rewrite E1, E2.
    destruct (Reqb_spec 0 0) as [|H0]; [reflexivity|lra].
  - destruct net; [reflexivity|]. destruct (Reqb_spec (rsum (map w g)) 0); cbn [negb]; reflexivity.
Qed.

(** ** grouped raw statistics satisfy the consistency condition *)
Definition raw_wf (q : list R) : Prop := Forall (fun x => x = 0 \/ x = 1) q.

Lemma gstat_zero {A} (q : A -> R) (f : A -> R) gs :
  (forall g, In g gs -> forall x, In x g -> q x = 0 \/ q x = 1) ->
  rsum (map (fun g => rsum (map (fun x => q x * 1) g)) gs) = 0 ->
  rsum (map (fun g => rsum (map (fun x => q x * f x) g)) gs) = 0.
Proof.
  intros Hq H. rewrite <- rsum_map_concat in *.
  assert (Hq' : forall x, In x (concat gs) -> q x = 0 \/ q x = 1).
  { intros x Hx. apply in_concat in Hx as (g & Hg & Hx). eauto. }
  clear Hq. induction (concat gs) as [|x l IH]; [reflexivity|].
  cbn [map rsum fold_right] in *.
  assert (0 <= rsum (map (fun x => q x * 1) l)).
  { apply rsum_nonneg. rewrite Forall_map, Forall_forall. intros y Hy.
    destruct (Hq' y (or_intror Hy)) as [->| ->]; lra. }
  unfold rsum in *.
  destruct (Hq' x (or_introl eq_refl)) as [E|E]; rewrite E in *; [|lra].
  rewrite IH; [lra|lra|]. intros; apply Hq'; now right.
Qed.

Lemma In_groups_in {A} fl (xs : list A) g x : length fl = length xs ->
  In g (groups fl xs) -> In x g -> In x xs.
Proof.
  intros H Hg Hx. rewrite <- (groups_concat fl xs H). apply in_or_app. right.
  apply in_concat. eauto.
Qed.

(** C11: interval scale = grouped scale for every later grouping *)
Lemma interval_is_group counts scale fl q net d fl2 d2 :
  group_scale_raw counts scale fl (Some q) net = Ok d -> raw_wf q ->
  valid_flags fl2 (length (sd_counts d)) ->
  regroup_scale d fl2 net = Ok d2 ->
  map (fun p => scale_from_interval (build_scale_prefix d net) (fst p) (snd p)) (bins fl2) = sd_scale d2.
Proof.
  intros H1 Hq Hv H2. pose proof (ok_lens _ _ _ _ _ _ H1) as (L1 & L2 & L3).
  destruct (zip3 counts scale q) as (xs & -> & -> & ->); [exact L1|congruence|].
  rewrite map_length in L2.
  rewrite group_scale_raw_map in * by exact L2.
  rewrite group_scale_data_map in H1 by exact L2. injection H1 as <-.
  cbn [sd_counts] in Hv. rewrite map_length in Hv.
  rewrite regroup_map in H2 by (first [apply Hv|now rewrite map_length]). injection H2 as <-.
  cbn [sd_scale]. rewrite (groups_bins fl2) by apply Hv. rewrite map_map. apply map_ext_in.
  intros p Hp. rewrite bins_pairs in Hp.
  apply pairs_bounds in Hp as (B1 & B2 & _); [|apply starts_sorted|apply starts_bound].
  destruct Hv as (Hv & _). rewrite Hv in B2.
  rewrite scale_interval_gscale; [|lia|exact B2|].
  - unfold gstat. f_equal; f_equal; apply map_ext; intros; lra.
  - intros gs Hgs Hz.
    assert (Hq' : forall g, In g gs -> forall x, In x g -> snd x = 0 \/ snd x = 1).
    { intros g Hg x Hx. unfold raw_wf in Hq. rewrite Forall_map, Forall_forall in Hq. apply Hq.
      eapply In_groups_in; [exact L2|apply Hgs, Hg|exact Hx]. }
    split; (eapply gstat_zero; [exact Hq'|exact Hz]).
Qed.

(** ** bounds *)
Lemma rsum_filter {A} (q : A -> bool) (f : A -> R) g :
  rsum (map (fun x => b2r (q x) * f x) g) = rsum (map f (filter q g)).
Proof.
  induction g as [|x g IH]; [reflexivity|]. cbn [map filter rsum fold_right].
  unfold rsum in *. rewrite IH. destruct (q x); cbn [b2r map rsum fold_right]; lra.
Qed.
Lemma rsum_ones {A} (l : list A) : rsum (map (fun _ => 1) l) = INR (length l).
Proof.
  induction l as [|x l IH]; [reflexivity|]. cbn [map rsum fold_right length]. unfold rsum in IH.
  rewrite IH, S_INR. lra.
Qed.

Definition chan_ok (x : chan) : Prop := ch_q x = true -> 0 <= ch_c x /\ 0 < ch_s x.

Lemma raw_group_expected net g : Forall chan_ok g ->
  gstat (fun x => b2r (ch_q x)) ch_c (fun _ => 1) (fun x => div0 (ch_c x) (ch_s x))
    (fun x => div0 1 (ch_s x)) ch_s net g = expected_scale net g.
Proof.
  intros Hok. unfold gstat, expected_scale. rewrite !rsum_filter. fold (good_of g).
  assert (HG : forall x, In x (good_of g) -> 0 <= ch_c x /\ 0 < ch_s x).
  { intros x Hx. apply filter_In in Hx as (Hx & Hq). rewrite Forall_forall in Hok. now apply Hok. }
  set (G := good_of g) in *. clearbody G. clear Hok g.
  rewrite rsum_ones.
  assert (E1 : map (fun x => div0 (ch_c x) (ch_s x)) G = map (fun x => ch_c x / ch_s x) G).
  { apply map_ext_in; intros x Hx. unfold div0. destruct (HG x Hx). destruct (Reqb_spec (ch_s x) 0); lra. }
  assert (E2 : map (fun x => div0 1 (ch_s x)) G = map (fun x => / ch_s x) G).
  { apply map_ext_in; intros x Hx. unfold div0. destruct (HG x Hx). destruct (Reqb_spec (ch_s x) 0); [lra|]. field; lra. }
  rewrite E1, E2. unfold gscale.
  destruct (Nat.eqb_spec (length G) 0) as [E0|E0].
  { destruct G; [|discriminate]. cbn. destruct net; (destruct (Reqb_spec 0 0); [reflexivity|lra]). }
  assert (HN : 0 < INR (length G)) by (apply lt_0_INR; lia).
  destruct net.
  { destruct (Reqb_spec (INR (length G)) 0); [lra|reflexivity]. }
  assert (Hc : Forall (fun y => 0 <= y) (map ch_c G)).
  { rewrite Forall_map, Forall_forall. intros x Hx; apply HG, Hx. }
  assert (Hw : Forall (fun y => 0 <= y) (map (fun x => ch_c x / ch_s x) G)).
  { rewrite Forall_map, Forall_forall. intros x Hx. destruct (HG x Hx).
    apply Rmult_le_pos; [lra|]. left. now apply Rinv_0_lt_compat. }
  assert (Hr : 0 < rsum (map (fun x => / ch_s x) G)).
  { clear -HG E0. destruct G as [|x G]; [simpl in E0; lia|].
    cbn [map rsum fold_right]. assert (0 < / ch_s x) by (apply Rinv_0_lt_compat, HG; now left).
    assert (0 <= rsum (map (fun x => / ch_s x) G)).
    { apply rsum_nonneg. rewrite Forall_map, Forall_forall. intros y Hy. left. apply Rinv_0_lt_compat, HG. now right. }
    unfold rsum in *. lra. }
  destruct (Reqb_spec (rsum (map (fun x => ch_c x / ch_s x) G)) 0) as [W|W];
  destruct (Reqb_spec (rsum (map ch_c G)) 0) as [C|C].
  - destruct (Reqb_spec (rsum (map (fun x => / ch_s x) G)) 0); [lra|reflexivity].
  - exfalso. apply C. apply rsum_zero in W; [|exact Hw]. rewrite Forall_map in W.
    apply rsum_zeros. intros x Hx. rewrite Forall_forall in W. specialize (W x Hx).
    destruct (HG x Hx). unfold Rdiv in W. apply Rmult_integral in W as [W|W]; [exact W|].
    assert (0 < / ch_s x) by now apply Rinv_0_lt_compat. lra.
  - exfalso. apply W. apply rsum_zero in C; [|exact Hc]. rewrite Forall_map in C.
    apply rsum_zeros. intros x Hx. rewrite Forall_forall in C. rewrite (C x Hx). lra.
  - reflexivity.
Qed.

Lemma zip_chan (a b : list R) (c : list bool) : length a = length b -> length c = length b ->
  exists xs : list chan, a = map ch_c xs /\ b = map ch_s xs /\ c = map ch_q xs.
Proof.
  revert b c; induction a as [|x a IH]; intros [|y b] [|z c] H1 H2; try discriminate.
  - exists []; auto.
  - simpl in *. destruct (IH b c) as (xs & -> & -> & ->); [lia|lia|].
    exists ((x, y, z) :: xs). auto.
Qed.

Lemma raw_scale_expected (xs : list chan) fl net d :
  group_scale_raw (map ch_c xs) (map ch_s xs) fl (Some (map b2r (map ch_q xs))) net = Ok d ->
  Forall chan_ok xs ->
  sd_scale d = map (expected_scale net) (groups fl xs).
Proof.
  intros H Hok. pose proof (ok_lens _ _ _ _ _ _ H) as (_ & L & _). rewrite map_length in L.
  rewrite map_map in H.
  rewrite group_scale_raw_map in H by exact L. rewrite group_scale_data_map in H by exact L.
  injection H as <-. cbn [sd_scale]. apply map_ext_in. intros g Hg.
  apply raw_group_expected. rewrite Forall_forall in *. intros x Hx. apply Hok.
  eapply In_groups_in; eassumption.
Qed.

Lemma expected_bounds net g lo hi :
  Forall chan_ok g -> good_of g <> [] -> 0 < lo ->
  (forall x, In x (good_of g) -> lo <= ch_s x <= hi) ->
  lo <= expected_scale net g <= hi.
Proof.
  intros Hok Hne Hlo Hb. unfold expected_scale.
  assert (HG : forall x, In x (good_of g) -> 0 <= ch_c x /\ 0 < ch_s x).
  { intros x Hx. apply filter_In in Hx as (Hx & Hq). rewrite Forall_forall in Hok. now apply Hok. }
  set (G := good_of g) in *. clearbody G. clear Hok g.
  destruct (Nat.eqb_spec (length G) 0) as [E0|E0]; [destruct G; [congruence|discriminate]|].
  assert (HN : 0 < INR (length G)) by (apply lt_0_INR; lia).
  assert (Hhi : 0 < hi).
  { destruct G as [|x G']; [congruence|]. specialize (Hb x (or_introl eq_refl)). lra. }
  assert (Hdiv : forall a b, 0 < b -> lo * b <= a -> a <= hi * b -> lo <= a / b <= hi).
  { intros a b Hbp H1 H2. split.
    - apply (Rmult_le_reg_r b); [exact Hbp|]. unfold Rdiv. rewrite Rmult_assoc, Rinv_l; lra.
    - apply (Rmult_le_reg_r b); [exact Hbp|]. unfold Rdiv. rewrite Rmult_assoc, Rinv_l; lra. }
  destruct net.
  - apply Hdiv; [exact HN| |]; rewrite <- rsum_ones, <- rsum_mult; apply rsum_le; intros x Hx; specialize (Hb x Hx); lra.
  - destruct (Reqb_spec (rsum (map ch_c G)) 0) as [C|C].
    + assert (Hr : 0 < rsum (map (fun x => / ch_s x) G)).
      { destruct G as [|x G']; [congruence|].
        cbn [map rsum fold_right]. assert (0 < / ch_s x) by (apply Rinv_0_lt_compat, HG; now left).
        assert (0 <= rsum (map (fun x => / ch_s x) G')).
        { apply rsum_nonneg. rewrite Forall_map, Forall_forall. intros y Hy. left. apply Rinv_0_lt_compat, HG. now right. }
        unfold rsum in *. lra. }
      apply Hdiv; [exact Hr| |]; rewrite <- rsum_ones, <- rsum_mult; apply rsum_le; intros x Hx;
        specialize (Hb x Hx); destruct (HG x Hx) as (_ & Hs);
        apply (Rmult_le_reg_r (ch_s x)); try exact Hs; rewrite Rmult_assoc, Rinv_l by lra; lra.
    + assert (Hc0 : 0 <= rsum (map ch_c G)).
      { apply rsum_nonneg. rewrite Forall_map, Forall_forall. intros x Hx; apply HG, Hx. }
      assert (L1 : lo * rsum (map (fun x => ch_c x / ch_s x) G) <= rsum (map ch_c G)).
      { rewrite <- rsum_mult. apply rsum_le. intros x Hx. specialize (Hb x Hx). destruct (HG x Hx) as (Hc & Hs).
        apply (Rmult_le_reg_r (ch_s x)); [exact Hs|]. unfold Rdiv. rewrite !Rmult_assoc, Rinv_l by lra. nra. }
      assert (L2 : rsum (map ch_c G) <= hi * rsum (map (fun x => ch_c x / ch_s x) G)).
      { rewrite <- rsum_mult. apply rsum_le. intros x Hx. specialize (Hb x Hx). destruct (HG x Hx) as (Hc & Hs).
        apply (Rmult_le_reg_r (ch_s x)); [exact Hs|]. unfold Rdiv. rewrite !Rmult_assoc, Rinv_l by lra. nra. }
      apply Hdiv; [|exact L1|exact L2]. nra.
Qed.

(** back ratios *)
Lemma back_ratio_step es eb a b c d : es / eb * a * b / c / d = es * a * b / (eb * c * d).
Proof. unfold Rdiv. rewrite !Rinv_mult. ring. Qed.

Lemma map4_map {A B} (f : B -> B -> B -> B -> B) (a b c d : A -> B) xs :
  map4 f (map a xs) (map b xs) (map c xs) (map d xs) = map (fun x => f (a x) (b x) (c x) (d x)) xs.
Proof. induction xs as [|x xs IH]; simpl; [reflexivity|]. now rewrite IH. Qed.
