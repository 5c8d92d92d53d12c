(** What [group] guarantees at the level of the observation (lemmas behind C20, C21). *)
From Verif Require Import RBase BaseFacts Gibbs Grouping GroupingProofs GroupingConst GroupingOpt Scale ScaleProofs
  Significance SignificanceProofs GroupSigProofs GroupNormalProofs Data DataProofs DataState DataFacts DataSeg.

(** ** The routines on real counts *)
Definition ok_minR (data : list R) (n : R) (a b : nat) : bool := Rleb n (rsum (slice a b data)).
Lemma min_loopR_sig data n : forall rest i start idx,
  (start <= i)%nat -> skipn i data = rest ->
  min_loopR rest i (length data - 1) n (rsum (slice start i data)) idx =
  sig_loop (ok_minR data n) (length rest) i (length data - 1) start idx.
Proof.
  induction rest as [|x rest IH]; intros i start idx Hsi Hd; [reflexivity|].
  cbn [min_loopR sig_loop length].
  destruct (skipn_cons_inv data i x rest 0 Hd) as (Hlt & Hx & HdS).
  assert (Esum : rsum (slice start i data) + x = rsum (slice start (S i) data)).
  { rewrite (slice_S data start i 0) by lia. rewrite rsum_app, Hx. unfold rsum at 3. cbn [fold_right]. lra. }
  rewrite Esum. unfold ok_minR at 1 2. set (S1 := rsum (slice start (S i) data)).
  destruct (i =? length data - 1) eqn:Ei.
  - assert (E : Rltb S1 n = negb (Rleb n S1)).
    { destruct (Rleb_spec n S1), (Rltb_spec S1 n); cbn; try reflexivity; lra. }
    rewrite E. reflexivity.
  - destruct (Rleb n S1) eqn:Eo.
    + rewrite <- (IH (S i) (S i) (idx ++ [S i])); [|lia|exact HdS]. now rewrite slice_nil_eq.
    + rewrite <- (IH (S i) start idx); [reflexivity|lia|exact HdS].
Qed.
Lemma group_minR_spec data n fl s : group_minR data n = Ok (fl, s) ->
  0 < n /\ (0 < length data)%nat /\ valid_flags fl (length data) /\
  (s = true <-> Forall (fun g => n <= rsum g) (groups fl data)).
Proof.
  intros H. unfold group_minR in H. destruct (Rleb_spec n 0) as [|Hn]; [discriminate|].
  assert (Hl : (0 < length data)%nat) by (destruct data; [discriminate|cbn; lia]).
  assert (E : Ok (flags_of (sig_scan (ok_minR data n) (length data)) (length data),
    forallb (fun s => Rleb n s) (reduceat rsum data (sig_scan (ok_minR data n) (length data)))) = Ok (fl, s)).
  { rewrite <- H. destruct data as [|d0 data']; [discriminate|]. set (data := d0 :: data') in *.
    unfold sig_scan. rewrite <- (min_loopR_sig data n data 0 0 [0%nat]); [reflexivity|lia|reflexivity]. }
  assert (E1 : fl = flags_of (sig_scan (ok_minR data n) (length data)) (length data)) by congruence.
  assert (E2 : s = forallb (fun s => Rleb n s) (reduceat rsum data (sig_scan (ok_minR data n) (length data)))) by congruence.
  subst fl s. clear H E.
  pose proof (sig_scan_spec (ok_minR data n) (length data) Hl) as Hr. pose proof (proj1 Hr) as Hg.
  split; [lra|]. split; [exact Hl|]. split; [apply good_idx_flags, Hg|].
  rewrite groups_of_idx by exact Hg. rewrite forallb_Forall. unfold reduceat. rewrite Forall_map.
  split; apply Forall_impl; intros p; apply Rleb_true.
Qed.

Lemma ext_minR_bounds bc n i j j' : (i <= j < length bc)%nat -> ext_minR bc n i j = Some j' -> (j <= j' < length bc)%nat.
Proof.
  intros Hij. unfold ext_minR. destruct (Rltb _ n).
  - destruct (find_first _ _) as [m|] eqn:E; [|discriminate]. intros H. injection H as <-.
    apply (find_first_nth _ 0) in E as (E & _). rewrite length_cumsumR, skipn_length in E. lia.
  - intros H. injection H as <-. lia.
Qed.
Lemma group_optR_spec fwhm net bin scale fl s :
  (forall bc, bin = Some bc -> length bc = length fwhm) ->
  group_optR fwhm net bin scale = Ok (fl, s) ->
  length fwhm = length net /\ valid_flags fl (length fwhm) /\
  forall bc sc, bin = Some bc -> scale = Some sc -> (0 < Rtrunc sc)%Z ->
    (s = true <-> Forall (fun g => IZR (Rtrunc sc) <= rsum g) (groups fl bc)).
Proof.
  intros Hl H. unfold group_optR in H.
  destruct (Nat.eqb_spec (length fwhm) (length net)) as [HL|]; [|discriminate]. cbn [negb] in H.
  set (n := match scale with Some s => Rtrunc s | None => 0%Z end) in *.
  set (arg := match bin with Some bc => if (0 <? n)%Z then Some (bc, IZR n) else None | None => None end) in *.
  assert (Hb : bint_ok (calc_optimal_binning fwhm net)) by apply calc_bint_ok.
  assert (LB : length (calc_optimal_binning fwhm net) = length fwhm) by apply calc_length.
  set (ext := match arg with Some (bc, n) => ext_minR bc n | None => fun _ j => Some j end) in *.
  assert (He : forall i j j', (i <= j < length (calc_optimal_binning fwhm net))%nat -> ext i j = Some j' ->
     (j <= j' < length (calc_optimal_binning fwhm net))%nat).
  { intros i j j' Hij E. subst ext arg. destruct bin as [bc|].
    - destruct (0 <? n)%Z.
      + specialize (Hl bc eq_refl). rewrite LB, <- Hl in *. eapply ext_minR_bounds; eassumption.
      + injection E as <-. lia.
    - injection E as <-. lia. }
  destruct (opt_scan_spec _ ext Hb He) as (idx & E & Hr). rewrite E in H. cbn [bind] in H.
  pose proof (proj1 Hr) as Hg. rewrite LB in *.
  assert (E1 : fl = flags_of idx (length fwhm)) by congruence.
  assert (E2 : s = match arg with Some (bc, n) => forallb (fun s => Rleb n s) (reduceat rsum bc idx) | None => true end) by congruence.
  clear H. split; [exact HL|]. split; [rewrite E1; apply good_idx_flags, Hg|].
  intros bc sc Ebin Esc Hpos. assert (Earg : arg = Some (bc, IZR (Rtrunc sc))).
  { unfold arg, n. rewrite Ebin, Esc. apply Z.ltb_lt in Hpos. now rewrite Hpos. }
  rewrite Earg in E2. rewrite E1, E2. specialize (Hl bc Ebin). rewrite <- Hl in *.
  rewrite groups_of_idx by exact Hg. rewrite forallb_Forall. unfold reduceat. rewrite Forall_map.
  split; apply Forall_impl; intros p; apply Rleb_true.
Qed.

(** ** Quantities of a list of channels *)
Definition csumL (good : list bool) (x : list R) (l : list nat) : R := rsum (map (at_ x) (filter (isgood good) l)).
Definition gscL (net : bool) (counts scale : list R) (good : list bool) (l : list nat) : R :=
  gstat (fun x => b2r (ch_q x)) ch_c (fun _ => 1) (fun x => div0 (ch_c x) (ch_s x)) (fun x => div0 1 (ch_s x)) ch_s net
    (map (fun k => (nth k counts 0, nth k scale 0, isgood good k)) l).
Definition b_ratioL (s b : spectrum) (good : list bool) (l : list nat) : R :=
  s_exposure s * gscL false (s_counts s) (s_area s) good l * gscL false (s_counts s) (s_back s) good l /
  (s_exposure b * gscL false (s_counts b) (s_area b) good l * gscL false (s_counts b) (s_back b) good l).
Definition c_errL (s : spectrum) (good : list bool) (l : list nat) : R := sqrt (csumL good (map sq (s_errors s)) l).

Lemma filter_concat {A} (f : A -> bool) ls : filter f (concat ls) = concat (map (filter f) ls).
Proof. induction ls as [|l ls IH]; [reflexivity|]. cbn [concat map]. now rewrite filter_app, IH. Qed.
Lemma csumL_concat good x ls : csumL good x (concat ls) = rsum (map (csumL good x) ls).
Proof.
  unfold csumL. rewrite filter_concat, rsum_map_concat, map_map. reflexivity.
Qed.
Lemma csum_units good x (us : list (nat * nat)) : rsum (map (csum good x) us) = csumL good x (chs idx us).
Proof. unfold chs. rewrite csumL_concat, map_map. reflexivity. Qed.

(** grouped scale metadata in full *)
Definition stc (counts scale : list R) (good : list bool) (f : chan -> R) (p : nat * nat) : R :=
  rsum (map (fun x => b2r (ch_q x) * f x) (chans counts scale good p)).
Definition sdata (net : bool) (counts scale : list R) (good : list bool) (us : list (nat * nat)) : scale_data :=
  {| sd_scale := map (gsc net counts scale good) us;
     sd_counts := map (stc counts scale good ch_c) us;
     sd_nchan := map (stc counts scale good (fun _ => 1)) us;
     sd_winv := map (stc counts scale good (fun x => div0 (ch_c x) (ch_s x))) us;
     sd_recip := map (stc counts scale good (fun x => div0 1 (ch_s x))) us;
     sd_ssum := map (stc counts scale good ch_s) us |}.
Lemma scale_raw_full counts scale fl good net n :
  length counts = n -> length scale = n -> length fl = n -> length good = n ->
  group_scale_raw counts scale fl (Some (map b2r good)) net = Ok (sdata net counts scale good (bins fl)).
Proof.
  intros H1 H2 H3 H4.
  set (X := map (fun k => (nth k counts 0, nth k scale 0, isgood good k)) (seq 0 n) : list chan).
  assert (E1 : counts = map ch_c X) by (unfold X; rewrite map_map; now apply as_map).
  assert (E2 : scale = map ch_s X) by (unfold X; rewrite map_map; now apply as_map).
  assert (E3 : map b2r good = map (fun x => b2r (ch_q x)) X).
  { unfold X. rewrite map_map. rewrite (as_map good false n H4) at 1. now rewrite map_map. }
  assert (LX : length fl = length X) by (unfold X; rewrite map_length, seq_length; exact H3).
  assert (E : group_scale_raw counts scale fl (Some (map b2r good)) net =
              group_scale_raw (map ch_c X) (map ch_s X) fl (Some (map (fun x => b2r (ch_q x)) X)) net).
  { rewrite <- E1, <- E2, <- E3. reflexivity. }
  rewrite E, group_scale_raw_map, group_scale_data_map by exact LX.
  assert (EG : groups fl X = map (chans counts scale good) (bins fl)).
  { unfold X. rewrite groups_map, (groups_idx fl n H3), map_map. reflexivity. }
  rewrite EG, !map_map. reflexivity.
Qed.
Lemma slice_sdata net counts scale good (h : nat * nat -> bool) us :
  slice_scale_data (sdata net counts scale good us) (map h us) = sdata net counts scale good (filter h us).
Proof. unfold slice_scale_data, sdata. cbn [sd_scale sd_counts sd_nchan sd_winv sd_recip sd_ssum]. rewrite !bmask_map. reflexivity. Qed.

Lemma stc_units counts scale good f us :
  rsum (map (stc counts scale good f) us) =
  rsum (map (fun x => b2r (ch_q x) * f x) (map (fun k => (nth k counts 0, nth k scale 0, isgood good k)) (chs idx us))).
Proof.
  unfold chs. rewrite concat_map, map_map, rsum_map_concat, map_map. reflexivity.
Qed.
Lemma interval_sdata net counts scale good us a b : (a <= b)%nat -> (b <= length us)%nat ->
  scale_from_interval (build_scale_prefix (sdata net counts scale good us) false) a b =
  gscL false counts scale good (chs idx (slice a b us)).
Proof.
  intros H1 H2. unfold sdata. rewrite scale_interval_gscale; [|exact H1|exact H2|].
  - rewrite !stc_units. reflexivity.
  - intros g Hg Hz. unfold stc in *.
    assert (Hq : forall l, In l (map (chans counts scale good) g) -> forall x : chan, In x l -> b2r (ch_q x) = 0 \/ b2r (ch_q x) = 1).
    { intros l _ x _. destruct (ch_q x); [now right|now left]. }
    assert (Hz' : rsum (map (fun l => rsum (map (fun x => b2r (ch_q x) * 1) l)) (map (chans counts scale good) g)) = 0).
    { rewrite map_map. exact Hz. }
    pose proof (gstat_zero (fun x : chan => b2r (ch_q x)) (fun x => div0 (ch_c x) (ch_s x)) _ Hq Hz') as A.
    pose proof (gstat_zero (fun x : chan => b2r (ch_q x)) (fun x => div0 1 (ch_s x)) _ Hq Hz') as B.
    rewrite map_map in A, B. split; assumption.
Qed.
Lemma iratio_units s b good us a c k : es k = s_exposure s -> eb k = s_exposure b ->
  (exists n1, sa k = sdata n1 (s_counts s) (s_area s) good us) -> (exists n1, sb k = sdata n1 (s_counts s) (s_back s) good us) ->
  (exists n1, ba k = sdata n1 (s_counts b) (s_area b) good us) -> (exists n1, bb k = sdata n1 (s_counts b) (s_back b) good us) ->
  (a <= c)%nat -> (c <= length us)%nat -> iratio k a c = b_ratioL s b good (chs idx (slice a c us)).
Proof.
  intros E1 E2 (n1 & E3) (n2 & E4) (n3 & E5) (n4 & E6) Ha Hc. unfold iratio, interval_back_ratio.
  rewrite E1, E2, E3, E4, E5, E6, !interval_sdata by assumption. unfold b_ratioL.
  rewrite <- back_ratio_step. reflexivity.
Qed.

(** ** The request, on a list of channels *)
Definition meetsL (s : spectrum) (b : option spectrum) (good : list bool) (m : gmethod) (sc : R) (l : list nat) : Prop :=
  match m with
  | Gconst => (Rtrunc sc <= Z.of_nat (length l))%Z
  | Gmin => sc <= csumL good (s_counts s) l
  | Goptmin => IZR (Rtrunc sc) <= csumL good (s_counts s) l
  | Gbmin => exists b0, b = Some b0 /\ sc <= csumL good (s_counts b0) l
  | Goptbmin => exists b0, b = Some b0 /\ IZR (Rtrunc sc) <= csumL good (s_counts b0) l
  | Gsig | Goptsig =>
      match b with
      | None => sc * c_errL s good l <= csumL good (s_counts s) l
      | Some b0 =>
          if s_poisson s then
            if s_poisson b0 then
              sc <= significance_lima (csumL good (s_counts s) l) (csumL good (s_counts b0) l) (b_ratioL s b0 good l)
            else
              sc <= significance_gv (csumL good (s_counts s) l) (csumL good (s_counts b0) l) (c_errL b0 good l) (b_ratioL s b0 good l)
          else sc * sqrt (sq (c_errL s good l) + sq (b_ratioL s b0 good l * c_errL b0 good l))
               <= csumL good (s_counts s) l - b_ratioL s b0 good l * csumL good (s_counts b0) l
      end
  | Gbsig | Goptbsig => exists b0, b = Some b0 /\ sc * c_errL b0 good l <= csumL good (s_counts b0) l
  | Gopt => True
  end.

Lemma gscL_const counts scale good l s0 : s0 <> 0 -> (forall k, In k l -> isgood good k = true -> nth k scale 0 = s0) ->
  (exists k, In k l /\ isgood good k = true) -> gscL false counts scale good l = s0.
Proof.
  intros H0 Hs (k0 & Hk0 & Hg0). unfold gscL, gstat. rewrite !map_map. unfold ch_q, ch_c, ch_s. cbn [fst snd].
  rewrite !(rsum_filter (isgood good)). set (G := filter (isgood good) l).
  assert (HG : forall k, In k G -> nth k scale 0 = s0).
  { intros k Hk. apply filter_In in Hk as (A & B). now apply Hs. }
  assert (HN : (0 < length G)%nat).
  { assert (In k0 G) by (apply filter_In; auto). destruct G; [easy|cbn; lia]. }
  assert (Ew : rsum (map (fun x => div0 (nth x counts 0) (nth x scale 0)) G) = rsum (map (fun x => nth x counts 0) G) * / s0).
  { clear HN. induction G as [|k G IH]; [unfold rsum; cbn; lra|]. cbn [map]. change (rsum (?x :: ?y)) with (x + rsum y).
    rewrite IH by (intros; apply HG; now right). rewrite (HG k (or_introl eq_refl)). unfold div0.
    destruct (Reqb_spec s0 0); [contradiction|]. unfold Rdiv. lra. }
  assert (Er : rsum (map (fun x => div0 1 (nth x scale 0)) G) = INR (length G) * / s0).
  { clear HN Ew. induction G as [|k G IH]; [unfold rsum; cbn; lra|]. cbn [map length]. change (rsum (?x :: ?y)) with (x + rsum y).
    rewrite IH by (intros; apply HG; now right). rewrite (HG k (or_introl eq_refl)). unfold div0.
    destruct (Reqb_spec s0 0); [contradiction|]. rewrite S_INR. unfold Rdiv. lra. }
  rewrite Ew, Er, rsum_ones. unfold gscale. set (C := rsum _).
  assert (HI : 0 < INR (length G)) by (apply lt_0_INR; exact HN).
  assert (Hi : / s0 <> 0) by now apply Rinv_neq_0_compat.
  destruct (Reqb_spec (C * / s0) 0) as [E|E].
  - destruct (Reqb_spec (INR (length G) * / s0) 0) as [E'|E'].
    + apply Rmult_integral in E'. destruct E'; [lra|contradiction].
    + field. split; lra.
  - assert (C <> 0) by (intros ->; apply E; lra). field. split; assumption.
Qed.

(** ** One segment *)
Definition const_on (good : list bool) (x : list R) (v : R) : Prop :=
  v <> 0 /\ forall k, isgood good k = true -> nth k x 0 = v.
Definition const_scales (s : spectrum) (good : list bool) : Prop :=
  (exists v, const_on good (s_area s) v) /\ (exists v, const_on good (s_back s) v).
(** what each method needs: 'const' a segment with at least that many channels, optimal
    binning a FWHM for every channel, Gaussian data with a background
    constant scales *)
Definition method_ok (s : spectrum) (r : response) (b : option spectrum) (good : list bool) (m : gmethod) (sc : R) (n nu : nat) : Prop :=
  (m = Gconst -> 0 < Rtrunc sc <= Z.of_nat nu)%Z /\
  (is_opt m = true -> length (r_fwhm r) = n) /\
  (m = Goptmin \/ m = Goptbmin -> (0 < Rtrunc sc)%Z) /\
  (m = Gsig \/ m = Goptsig -> s_poisson s = false -> forall b0, b = Some b0 -> const_scales s good /\ const_scales b0 good).

Lemma Forall_bmask {A} (P : A -> Prop) m (l : list A) : Forall P l -> Forall P (bmask m l).
Proof.
  revert l; induction m as [|b m IH]; intros l H; destruct l as [|x l]; cbn [bmask]; try constructor; try now constructor.
  inversion H; subst. destruct b; [constructor|]; auto.
Qed.
Lemma In_groups_slice {A} F (U : list A) g : length F = length U -> In g (groups F U) ->
  exists p, In p (bins F) /\ (fst p < snd p <= length U)%nat /\ g = slice (fst p) (snd p) U.
Proof.
  intros H Hg. rewrite groups_bins in Hg by exact H. apply in_map_iff in Hg as (p & <- & Hp). exists p.
  split; [exact Hp|]. split; [|reflexivity]. apply bins_ok in Hp. lia.
Qed.
Lemma chs_length us : Forall (fun p : nat * nat => (fst p < snd p)%nat) us -> (length us <= length (chs idx us))%nat.
Proof.
  unfold chs. induction 1 as [|p us Hp H IH]; [reflexivity|]. cbn [map concat length]. rewrite app_length.
  unfold idx at 1. rewrite seq_length. lia.
Qed.

Section Seg.
Variables (s : spectrum) (r : response) (b : option spectrum) (good : list bool) (n : nat).
Hypothesis Ws : wf_spec s n.
Hypothesis Wr : wf_resp r n.
Hypothesis Wb : forall b', b = Some b' -> wf_spec b' n.
Hypothesis Hg : length good = n.
Variable o : obs.
Hypothesis Hos : o_spec o = s.
Hypothesis Hor : o_resp o = r.
Hypothesis Hob : o_bk o = b.
Hypothesis Hog : o_good o = good.
Variable pre : list Z.
Hypothesis Hpre : length pre = n.

Definition netp (p : nat * nat) : R := match b with None => csum good (s_counts s) p
  | Some b0 => csum good (s_counts s) p - b_ratio s b0 good p * csum good (s_counts b0) p end.
Definition neterrp (p : nat * nat) : R := match b with None => c_err s good p
  | Some b0 => sqrt (sq (c_err s good p) + sq (b_ratio s b0 good p * c_err b0 good p)) end.
Definition gd : gdata :=
  {| g_counts := map (csum good (s_counts s)) (bins pre); g_errors := map (c_err s good) (bins pre);
     g_net := map netp (bins pre); g_neterr := map neterrp (bins pre);
     g_sa := sdata (scale_net s b) (s_counts s) (s_area s) good (bins pre);
     g_sb := sdata (scale_net s b) (s_counts s) (s_back s) good (bins pre);
     g_back := match b with None => None | Some b0 =>
       Some (map (csum good (s_counts b0)) (bins pre), map (c_err b0 good) (bins pre),
             sdata false (s_counts b0) (s_area b0) good (bins pre), sdata false (s_counts b0) (s_back b0) good (bins pre)) end |}.
Lemma group_scales_full s' net : wf_spec s' n ->
  group_scales s' net pre good = Ok (sdata net (s_counts s') (s_area s') good (bins pre), sdata net (s_counts s') (s_back s') good (bins pre)).
Proof.
  intros W. unfold group_scales. rewrite (scale_raw_full _ _ pre good net n) by (try apply W; assumption). cbn [bind].
  rewrite (scale_raw_full _ _ pre good net n) by (try apply W; assumption). reflexivity.
Qed.
Lemma group_data_full : group_data o pre = Ok gd.
Proof.
  unfold group_data. rewrite Hos, Hob, Hog. rewrite (spectrum_group_bins s pre good n) by assumption. cbn [bind].
  rewrite group_scales_full by exact Ws. cbn [bind fst snd]. unfold gd, netp, neterrp. destruct b as [b0|] eqn:Eb.
  - rewrite (spectrum_group_bins b0 pre good n) by (auto; now apply Wb). cbn [bind].
    rewrite group_scales_full by (now apply Wb). cbn [bind fst snd]. f_equal. f_equal.
    + unfold group_back_ratio. cbn [sdata sd_scale]. rewrite map4_map, !zip2_map.
      unfold scale_net. rewrite andb_false_r. reflexivity.
    + unfold group_back_ratio. cbn [sdata sd_scale]. rewrite map4_map, !zip2_map.
      unfold scale_net. rewrite andb_false_r. reflexivity.
  - reflexivity.
Qed.

Variable h : nat * nat -> bool.
Hypothesis Hh : forall p, In p (bins pre) -> h p = true -> exists k, In k (idx p) /\ isgood good k = true.
Let U := filter h (bins pre).
Let mask := map h (bins pre).

Lemma seg_map {A} (f : nat * nat -> A) : bmask mask (map f (bins pre)) = map f U.
Proof. apply bmask_map. Qed.
Lemma seg_len {A} (x : list A) : length x = length (bins pre) -> length (bmask mask x) = length U.
Proof.
  unfold mask, U. generalize (bins pre). intros B; revert x; induction B as [|p B IH]; intros [|y x] H; try discriminate; [reflexivity|].
  cbn [map bmask filter]. injection H as H. destruct (h p); cbn [length]; now rewrite IH.
Qed.

Definition scs (b0 : spectrum) : scales :=
  {| es := s_exposure s; eb := s_exposure b0;
     sa := sdata (scale_net s b) (s_counts s) (s_area s) good U; sb := sdata (scale_net s b) (s_counts s) (s_back s) good U;
     ba := sdata false (s_counts b0) (s_area b0) good U; bb := sdata false (s_counts b0) (s_back b0) good U |}.

Lemma lima_meets b0 F (Us : list (nat*nat)) sc : b = Some b0 -> s_poisson s = true -> s_poisson b0 = true ->
  length F = length U ->
  Forall (fun p => sc <= bin_lima (map (csum good (s_counts s)) U) (map (csum good (s_counts b0)) U) (scs b0) (fst p) (snd p)) (bins F) ->
  forall us', In us' (groups F U) -> 
  sc <= significance_lima (csumL good (s_counts s) (chs idx us')) (csumL good (s_counts b0) (chs idx us')) (b_ratioL s b0 good (chs idx us')).
Proof.
  intros Eb P1 P2 HF H us' Hus. apply In_groups_slice in Hus as (p & Hp & Hpl & ->); [|exact HF].
  rewrite Forall_forall in H. specialize (H p Hp). unfold bin_lima in H. rewrite !slice_map, !csum_units in H.
  rewrite (iratio_units s b0 good U) in H; try reflexivity; try lia; try (eexists; reflexivity). exact H.
Qed.
Lemma var_units s' us : rsum (map sq (map (c_err s' good) us)) = csumL good (map sq (s_errors s')) (chs idx us).
Proof.
  rewrite map_map. rewrite <- csum_units. f_equal. apply map_ext. intros p. apply c_err_sq.
Qed.
Lemma gv_meets b0 F sc : length F = length U ->
  Forall (fun p => sc <= bin_gv (map (csum good (s_counts s)) U) (map (csum good (s_counts b0)) U) (map (c_err b0 good) U) (scs b0) (fst p) (snd p)) (bins F) ->
  forall us', In us' (groups F U) -> 
  sc <= significance_gv (csumL good (s_counts s) (chs idx us')) (csumL good (s_counts b0) (chs idx us')) (c_errL b0 good (chs idx us')) (b_ratioL s b0 good (chs idx us')).
Proof.
  intros HF H us' Hus. apply In_groups_slice in Hus as (p & Hp & Hpl & ->); [|exact HF].
  rewrite Forall_forall in H. specialize (H p Hp). unfold bin_gv in H.
  rewrite !slice_map in H. rewrite var_units, !csum_units in H.
  rewrite (iratio_units s b0 good U) in H; try reflexivity; try lia; try (eexists; reflexivity). exact H.
Qed.
Lemma normal_meets s' F sc : length F = length U ->
  Forall (fun p => reaches (map (csum good (s_counts s')) U) (map (c_err s' good) U) sc (fst p) (snd p)) (bins F) ->
  forall us', In us' (groups F U) -> sc * c_errL s' good (chs idx us') <= csumL good (s_counts s') (chs idx us').
Proof.
  intros HF H us' Hus. apply In_groups_slice in Hus as (p & Hp & Hpl & ->); [|exact HF].
  rewrite Forall_forall in H. specialize (H p Hp). unfold reaches, bin_var, bin_cts in H.
  rewrite !slice_map, var_units, csum_units in H. exact H.
Qed.

Lemma unit_good us : (forall p, In p us -> In p U) -> us <> [] -> exists k, In k (chs idx us) /\ isgood good k = true.
Proof.
  destruct us as [|p us]; [easy|]. intros Hin _. specialize (Hin p (or_introl eq_refl)). apply filter_In in Hin as (A & B).
  destruct (Hh p A B) as (k & Hk & Hgk). exists k. split; [|exact Hgk]. unfold chs. cbn [map concat]. apply in_app_iff. now left.
Qed.
Lemma ratio_const b0 : const_scales s good -> const_scales b0 good ->
  exists rho, forall us, (forall p, In p us -> In p U) -> us <> [] -> b_ratioL s b0 good (chs idx us) = rho.
Proof.
  intros ((v1 & A1 & B1) & (v2 & A2 & B2)) ((v3 & A3 & B3) & (v4 & A4 & B4)).
  exists (s_exposure s * v1 * v2 / (s_exposure b0 * v3 * v4)). intros us Hin Hne. unfold b_ratioL.
  pose proof (unit_good us Hin Hne) as Hgd.
  rewrite (gscL_const _ _ _ _ v1), (gscL_const _ _ _ _ v2), (gscL_const _ _ _ _ v3), (gscL_const _ _ _ _ v4); auto.
Qed.
Lemma net_meets b0 F sc : b = Some b0 -> const_scales s good -> const_scales b0 good -> length F = length U ->
  Forall (fun p => reaches (map netp U) (map neterrp U) sc (fst p) (snd p)) (bins F) ->
  forall us', In us' (groups F U) -> let l := chs idx us' in
  sc * sqrt (sq (c_errL s good l) + sq (b_ratioL s b0 good l * c_errL b0 good l)) <= csumL good (s_counts s) l - b_ratioL s b0 good l * csumL good (s_counts b0) l.
Proof.
  intros Eb C1 C2 HF H us' Hus l. subst l. destruct (ratio_const b0 C1 C2) as (rho & Hr).
  apply In_groups_slice in Hus as (p & Hp & Hpl & ->); [|exact HF].
  assert (Hsub : forall q, In q (slice (fst p) (snd p) U) -> In q U).
  { intros q Hq. assert (HU : Forall (fun q => In q U) U) by (now apply Forall_forall). apply (Forall_slice _ _ (fst p) (snd p)) in HU.
    rewrite Forall_forall in HU. now apply HU. }
  set (us' := slice (fst p) (snd p) U) in *.
  assert (Hne : us' <> []). { intros E. assert (X : length us' = (snd p - fst p)%nat) by (apply slice_length; lia). rewrite E in X. cbn in X. lia. }
  rewrite (Hr us' Hsub Hne).
  assert (Hu : forall q, In q us' -> b_ratio s b0 good q = rho).
  { intros q Hq. specialize (Hr [q]). unfold chs in Hr. cbn [map concat] in Hr. rewrite app_nil_r in Hr. apply Hr; [|discriminate].
    intros q' [<-|[]]. now apply Hsub. }
  rewrite Forall_forall in H. specialize (H p Hp). unfold reaches, bin_var, bin_cts in H. rewrite !slice_map in H. fold us' in H.
  assert (E1 : rsum (map netp us') = csumL good (s_counts s) (chs idx us') - rho * csumL good (s_counts b0) (chs idx us')).
  { rewrite <- !csum_units. clear - Hu Eb. unfold netp. rewrite Eb. induction us' as [|q us IH]; [unfold rsum; cbn; lra|].
    cbn [map]. change (rsum (?x :: ?y)) with (x + rsum y). rewrite IH by (intros; apply Hu; now right). rewrite (Hu q (or_introl eq_refl)). lra. }
  assert (E2 : rsum (map sq (map neterrp us')) = sq (c_errL s good (chs idx us')) + sq (rho * c_errL b0 good (chs idx us'))).
  { unfold sq at 2 3. unfold c_errL. rewrite sqrt_sqrt.
    2:{ rewrite <- csum_units. apply rsum_nonneg. apply Forall_forall. intros x Hx. apply in_map_iff in Hx as (q & <- & _). apply csum_sq_nonneg. }
    replace (rho * sqrt (csumL good (map sq (s_errors b0)) (chs idx us')) * (rho * sqrt (csumL good (map sq (s_errors b0)) (chs idx us'))))
      with (rho * rho * (sqrt (csumL good (map sq (s_errors b0)) (chs idx us')) * sqrt (csumL good (map sq (s_errors b0)) (chs idx us')))) by ring.
    rewrite sqrt_sqrt.
    2:{ rewrite <- csum_units. apply rsum_nonneg. apply Forall_forall. intros x Hx. apply in_map_iff in Hx as (q & <- & _). apply csum_sq_nonneg. }
    rewrite <- !csum_units. rewrite map_map. unfold neterrp. rewrite Eb. clear - Hu. induction us' as [|q us IH]; [unfold rsum; cbn; lra|].
    cbn [map]. change (rsum (?x :: ?y)) with (x + rsum y). rewrite IH by (intros; apply Hu; now right). rewrite (Hu q (or_introl eq_refl)).
    assert (Hq : 0 <= sq (c_err s good q) + sq (rho * c_err b0 good q)) by (pose proof (sq_nonneg (c_err s good q)); pose proof (sq_nonneg (rho * c_err b0 good q)); lra).
    unfold sq at 1. rewrite sqrt_sqrt by exact Hq. rewrite c_err_sq.
    replace (sq (rho * c_err b0 good q)) with (rho * rho * sq (c_err b0 good q)) by (unfold sq; ring). rewrite c_err_sq. ring. }
  rewrite E1, E2 in H. exact H.
Qed.

Lemma opt_counts_length : length (opt_counts o) = n.
Proof.
  unfold opt_counts. rewrite Hos, Hob. destruct b as [b0|] eqn:Eb; [|apply Ws].
  unfold raw_ratio. rewrite !zip2_length, !map_length.
  rewrite (ws_c _ _ Ws), (ws_a _ _ Ws), (ws_b _ _ Ws), (ws_c _ _ (Wb _ eq_refl)), (ws_a _ _ (Wb _ eq_refl)), (ws_b _ _ (Wb _ eq_refl)). lia.
Qed.

Lemma segment_spec m sc F ok : (is_opt m = true -> length (bins pre) = n) ->
  method_ok s r b good m sc n (length U) -> segment o gd m sc mask = Ok (F, ok) ->
  valid_flags F (length U) /\ (ok = true -> forall us', In us' (groups F U) -> meetsL s b good m sc (chs idx us')).
Proof.
  intros Hopt (M1 & M2 & M3 & M4) H. unfold segment in H. rewrite Hor, Hob, Hos in H.
  assert (Ec : g_counts gd = map (csum good (s_counts s)) (bins pre)) by reflexivity.
  assert (En : g_net gd = map netp (bins pre)) by reflexivity.
  assert (Ene : g_neterr gd = map neterrp (bins pre)) by reflexivity.
  assert (Egb : g_back gd = match b with None => None | Some b0 =>
       Some (map (csum good (s_counts b0)) (bins pre), map (c_err b0 good) (bins pre),
             sdata false (s_counts b0) (s_area b0) good (bins pre), sdata false (s_counts b0) (s_back b0) good (bins pre)) end) by reflexivity.
  rewrite ?Ec, ?En, ?Ene, ?Egb in H. rewrite !seg_map in H. clear Ec En Ene Egb.
  assert (Lm : forall A (f : nat * nat -> A), length (map f U) = length U) by (intros; apply map_length).
  assert (Hfw : is_opt m = true -> length (bmask mask (r_fwhm r)) = length U /\
                length (bmask mask (opt_counts o)) = length U).
  { intros Ho. pose proof (M2 Ho) as A. split; [apply seg_len; rewrite (Hopt Ho); exact A|].
    apply seg_len. rewrite (Hopt Ho). apply opt_counts_length. }
  assert (Hcs : forall x F', length F' = length U -> Forall (fun g => sc <= rsum g) (groups F' (map (csum good x) U)) ->
     forall us', In us' (groups F' U) -> sc <= csumL good x (chs idx us')).
  { intros x F' _ HF us' Hus. rewrite groups_map, Forall_map, Forall_forall in HF. specialize (HF us' Hus). now rewrite csum_units in HF. }
  assert (HcsZ : forall x F', length F' = length U -> Forall (fun g => IZR (Rtrunc sc) <= rsum g) (groups F' (map (csum good x) U)) ->
     forall us', In us' (groups F' U) -> IZR (Rtrunc sc) <= csumL good x (chs idx us')).
  { intros x F' _ HF us' Hus. rewrite groups_map, Forall_map, Forall_forall in HF. specialize (HF us' Hus). now rewrite csum_units in HF. }
  destruct m; cbn [is_opt] in H; cbn [meetsL].
  - (* const *) specialize (M1 eq_refl). rewrite map_length in H.
    destruct (group_const_sizes (length U) (Z.to_nat (Rtrunc sc)) ltac:(lia)) as (fl' & E & Hv & HS).
    assert (F = fl') by congruence. subst fl'. split; [exact Hv|]. intros _ us' Hus.
    assert (X : In (length us') (map (@length _) (groups F U))) by now apply in_map.
    rewrite (HS _ U eq_refl) in X.
    assert (Hlen : (Z.to_nat (Rtrunc sc) <= length us')%nat).
    { apply in_app_iff in X as [X|X]; [apply repeat_spec in X; lia|destruct X as [X|[]]; lia]. }
    assert (Hb : Forall (fun p : nat * nat => (fst p < snd p)%nat) us').
    { apply Forall_forall. intros p Hp. destruct Hv as (Hv & _). pose proof (In_groups_in F U us' p Hv Hus Hp) as Hin.
      apply filter_In in Hin as (Hin & _). apply bins_ok in Hin. lia. }
    pose proof (chs_length us' Hb). lia.
  - (* min *) apply group_minR_spec in H as (_ & _ & Hv & Hs). rewrite Lm in Hv. split; [exact Hv|].
    intros Eo. apply Hcs; [apply Hv|now apply Hs].
  - (* sig *) destruct b as [b0|] eqn:Eb.
    + rewrite !seg_map in H. destruct (s_poisson s) eqn:P1.
      * assert (Ek : scales_of o b0 gd (sdata false (s_counts b0) (s_area b0) good (bins pre)) (sdata false (s_counts b0) (s_back b0) good (bins pre)) mask = scs b0).
        { unfold scales_of, scs. rewrite Hos. cbn [gd g_sa g_sb]. unfold mask. rewrite !slice_sdata. rewrite Eb. reflexivity. }
        rewrite Ek in H. clear Ek.
        destruct (s_poisson b0) eqn:P2.
        -- apply group_sig_lima_spec in H as (_ & _ & Hv & Hs & _). rewrite Lm in Hv. split; [exact Hv|].
           intros Eo us' Hus. eapply (lima_meets b0 F); eauto; try apply Hv. now apply Hs.
        -- apply group_sig_gv_spec in H as (_ & _ & _ & Hv & Hs & _). rewrite Lm in Hv. split; [exact Hv|].
           intros Eo us' Hus. eapply (gv_meets b0 F); eauto; try apply Hv. now apply Hs.
      * apply group_sig_normal_spec in H as (_ & _ & Hv & Hs & _). rewrite Lm in Hv. split; [exact Hv|].
        intros Eo us' Hus. destruct (M4 (or_introl eq_refl) eq_refl b0 eq_refl) as (C1 & C2).
        eapply (net_meets b0 F sc Eb C1 C2); eauto; try apply Hv. now apply Hs.
    + apply group_sig_normal_spec in H as (_ & _ & Hv & Hs & _). rewrite Lm in Hv. split; [exact Hv|].
      intros Eo. apply (normal_meets s F sc); [apply Hv|]. apply Hs in Eo. unfold netp, neterrp in Eo. rewrite Eb in Eo. exact Eo.
  - (* bmin *) destruct b as [b0|] eqn:Eb; [|discriminate]. destruct (s_poisson b0); [|discriminate].
    rewrite !seg_map in H. apply group_minR_spec in H as (_ & _ & Hv & Hs). rewrite Lm in Hv. split; [exact Hv|].
    intros Eo us' Hus. exists b0. split; [reflexivity|]. eapply Hcs; [apply Hv|now apply Hs|exact Hus].
  - (* bsig *) destruct b as [b0|] eqn:Eb; [|discriminate].
    rewrite !seg_map in H. apply group_sig_normal_spec in H as (_ & _ & Hv & Hs & _). rewrite Lm in Hv. split; [exact Hv|].
    intros Eo us' Hus. exists b0. split; [reflexivity|]. eapply (normal_meets b0 F sc); [apply Hv|now apply Hs|exact Hus].
  - (* opt *) destruct (Hfw eq_refl) as (L1 & L2).
    apply group_optR_spec in H as (_ & Hv & _); [|discriminate]. rewrite L1 in Hv. split; [exact Hv|]. intros _ _ _. exact I.
  - (* optmin *) destruct (Hfw eq_refl) as (L1 & L2). specialize (M3 (or_introl eq_refl)).
    apply group_optR_spec in H as (_ & Hv & Hs); [|intros bc E; injection E as <-; rewrite L1; apply Lm].
    rewrite L1 in Hv. split; [exact Hv|]. intros Eo. apply HcsZ; [apply Hv|]. now apply (Hs _ sc eq_refl eq_refl M3).
  - (* optsig *) destruct (Hfw eq_refl) as (L1 & L2). destruct b as [b0|] eqn:Eb.
    + rewrite !seg_map in H. destruct (s_poisson s) eqn:Ps.
      * assert (Ek : scales_of o b0 gd (sdata false (s_counts b0) (s_area b0) good (bins pre)) (sdata false (s_counts b0) (s_back b0) good (bins pre)) mask = scs b0).
        { unfold scales_of, scs. rewrite Hos. cbn [gd g_sa g_sb]. unfold mask. rewrite !slice_sdata. rewrite Eb. reflexivity. }
        rewrite Ek in H. clear Ek.
        destruct (s_poisson b0) eqn:P2.
        -- assert (Hsc : 0 < sc). { unfold group_optsig_lima in H. destruct (negb _); [discriminate|]. destruct (Rleb_spec sc 0); [discriminate|lra]. }
           destruct (group_optsig_lima_spec (bmask mask (r_fwhm r)) (bmask mask (opt_counts o)) (map (csum good (s_counts s)) U) (map (csum good (s_counts b0)) U) (scs b0) sc) as (fl' & s' & E & Hv & Hs & _); try assumption; rewrite ?L1, ?L2, ?Lm; try reflexivity.
           assert (F = fl') by congruence. assert (ok = s') by congruence. subst fl' s'. rewrite Lm in Hv. split; [exact Hv|].
           intros Eo us' Hus. eapply (lima_meets b0 F); eauto; try apply Hv. now apply Hs.
        -- assert (Hsc : 0 < sc). { unfold group_optsig_gv in H. destruct (negb _); [discriminate|]. destruct (Rleb_spec sc 0); [discriminate|lra]. }
           destruct (group_optsig_gv_spec (bmask mask (r_fwhm r)) (bmask mask (opt_counts o)) (map (csum good (s_counts s)) U) (map (csum good (s_counts b0)) U) (map (c_err b0 good) U) (scs b0) sc) as (fl' & s' & E & Hv & Hs & _); try assumption; rewrite ?L1, ?L2, ?Lm; try reflexivity.
           assert (F = fl') by congruence. assert (ok = s') by congruence. subst fl' s'. rewrite Lm in Hv. split; [exact Hv|].
           intros Eo us' Hus. eapply (gv_meets b0 F); eauto; try apply Hv. now apply Hs.
      * assert (Hsc : 0 < sc). { unfold group_optsig_normal in H. destruct (negb _); [discriminate|]. destruct (Rleb_spec sc 0); [discriminate|lra]. }
        destruct (M4 (or_intror eq_refl) eq_refl b0 eq_refl) as (C1 & C2).
        match type of H with group_optsig_normal ?a ?b ?c ?d _ = _ => destruct (group_optsig_normal_spec a b c d sc) as (fl' & s' & E & Hv & Hs & _); try assumption; rewrite ?L1, ?L2, ?Lm; try reflexivity end.
        assert (F = fl') by congruence. assert (ok = s') by congruence. subst fl' s'. rewrite Lm in Hv. split; [exact Hv|].
        intros Eo us' Hus. eapply (net_meets b0 F sc Eb C1 C2); eauto; try apply Hv. now apply Hs.
    + assert (Hsc : 0 < sc). { unfold group_optsig_normal in H. destruct (negb _); [discriminate|]. destruct (Rleb_spec sc 0); [discriminate|lra]. }
      match type of H with group_optsig_normal ?a ?b ?c ?d _ = _ => destruct (group_optsig_normal_spec a b c d sc) as (fl' & s' & E & Hv & Hs & _); try assumption; rewrite ?L1, ?L2, ?Lm; try reflexivity end.
      assert (F = fl') by congruence. assert (ok = s') by congruence. subst fl' s'. rewrite Lm in Hv. split; [exact Hv|].
      intros Eo. apply (normal_meets s F sc); [apply Hv|]. apply Hs in Eo. unfold netp, neterrp in Eo. rewrite Eb in Eo. exact Eo.
  - (* optbmin *) destruct (Hfw eq_refl) as (L1 & L2). specialize (M3 (or_intror eq_refl)).
    destruct b as [b0|] eqn:Eb; [|discriminate]. destruct (s_poisson b0); [|discriminate].
    rewrite !seg_map in H.
    apply group_optR_spec in H as (_ & Hv & Hs); [|intros bc E; injection E as <-; rewrite L1; apply Lm].
    rewrite L1 in Hv. split; [exact Hv|]. intros Eo us' Hus. exists b0. split; [reflexivity|].
    eapply HcsZ; [apply Hv|now apply (Hs _ sc eq_refl eq_refl M3)|exact Hus].
  - (* optbsig *) destruct (Hfw eq_refl) as (L1 & L2). destruct b as [b0|] eqn:Eb; [|discriminate].
    rewrite !seg_map in H.
    assert (Hsc : 0 < sc). { unfold group_optsig_normal in H. destruct (negb _); [discriminate|]. destruct (Rleb_spec sc 0); [discriminate|lra]. }
    match type of H with group_optsig_normal ?a ?b ?c ?d _ = _ => destruct (group_optsig_normal_spec a b c d sc) as (fl' & s' & E & Hv & Hs & _); try assumption; rewrite ?L1, ?L2, ?Lm; try reflexivity end.
    assert (F = fl') by congruence. assert (ok = s') by congruence. subst fl' s'. rewrite Lm in Hv. split; [exact Hv|].
    intros Eo us' Hus. exists b0. split; [reflexivity|]. eapply (normal_meets b0 F sc); [apply Hv|now apply Hs|exact Hus].
Qed.
End Seg.
