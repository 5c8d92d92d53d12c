(** Characterisation of what an observation exposes (data/base.py). *)
From Verif Require Import RBase BaseFacts Grouping Scale ScaleProofs Significance Data.

(** ** Lists *)
Lemma map_nth_seq {A} (l : list A) d : map (fun k => nth k l d) (seq 0 (length l)) = l.
Proof.
  induction l as [|x l IH]; [reflexivity|]. cbn [length seq map nth]. f_equal.
  rewrite <- seq_shift, map_map. exact IH.
Qed.
Lemma as_map {A} (l : list A) d n : length l = n -> l = map (fun k => nth k l d) (seq 0 n).
Proof. intros <-. symmetry. apply map_nth_seq. Qed.

Lemma bmask_map {A B} (h : A -> bool) (f : A -> B) l : bmask (map h l) (map f l) = map f (filter h l).
Proof.
  induction l as [|x l IH]; [reflexivity|]. cbn [map bmask filter].
  destruct (h x); cbn [map]; now rewrite IH.
Qed.
Lemma zip2_map {A B C D} (f : B -> C -> D) (g : A -> B) (h : A -> C) l :
  zip2 f (map g l) (map h l) = map (fun x => f (g x) (h x)) l.
Proof. induction l as [|x l IH]; [reflexivity|]. cbn [map zip2]. now rewrite IH. Qed.

(** the channels of a bin *)
Definition idx (p : nat * nat) : list nat := seq (fst p) (snd p - fst p).
Lemma in_idx p k : In k (idx p) <-> (fst p <= k < snd p)%nat.
Proof. unfold idx. rewrite in_seq. lia. Qed.

Lemma bins_ok fl p : In p (bins fl) -> (fst p < snd p <= length fl)%nat.
Proof.
  rewrite bins_pairs. intros H.
  destruct (pairs_bounds _ _ _ (starts_sorted fl) (starts_bound fl) H). lia.
Qed.
Lemma groups_idx fl n : length fl = n -> groups fl (seq 0 n) = map idx (bins fl).
Proof.
  intros H. rewrite groups_bins by (now rewrite seq_length). apply map_ext_in. intros p Hp.
  apply bins_ok in Hp. rewrite slice_seq by lia. reflexivity.
Qed.
Lemma reduceat_bins {A B} (f : list A -> B) (g : nat -> A) fl n : length fl = n ->
  reduceat f (map g (seq 0 n)) (starts fl) = map (fun p => f (map g (idx p))) (bins fl).
Proof.
  intros H. rewrite reduceat_groups by (rewrite map_length, seq_length; exact H).
  rewrite groups_map, (groups_idx fl n H), !map_map. reflexivity.
Qed.

(** ** Specification vocabulary: channels [fst p .. snd p - 1] form group [p] *)
Notation at_ := (fun (l : list R) (k : nat) => nth k l 0).
Definition isgood (good : list bool) (k : nat) : bool := nth k good false.
(** sum over the good channels of a group *)
Definition csum (good : list bool) (x : list R) (p : nat * nat) : R :=
  rsum (map (at_ x) (filter (isgood good) (idx p))).
(** the channels of a group with their counts, scale and quality *)
Definition chans (counts scale : list R) (good : list bool) (p : nat * nat) : list chan :=
  map (fun k => (nth k counts 0, nth k scale 0, isgood good k)) (idx p).
(** the scale of a group, computed as [group_scale_raw] does *)
Definition gsc (net : bool) (counts scale : list R) (good : list bool) (p : nat * nat) : R :=
  gstat (fun x => b2r (ch_q x)) ch_c (fun _ => 1) (fun x => div0 (ch_c x) (ch_s x))
    (fun x => div0 1 (ch_s x)) ch_s net (chans counts scale good p).
Definition noticed (er : erange) (r : response) (good : list bool) (p : nat * nat) : Prop :=
  (exists ab, In ab er /\ forall k, (fst p <= k < snd p)%nat ->
     fst ab <= nth k (r_emin r) 0 /\ nth k (r_emax r) 0 <= snd ab) /\
  exists k, (fst p <= k < snd p)%nat /\ isgood good k = true.

Lemma gsum_bins fl good x n : length fl = n -> length good = n -> length x = n ->
  gsum fl good x = map (csum good x) (bins fl).
Proof.
  intros H1 H2 H3. unfold gsum.
  rewrite (as_map good false n H2), (as_map x 0 n H3), map_map, rmul2_map, reduceat_bins by exact H1.
  rewrite <- (as_map good false n H2), <- (as_map x 0 n H3).
  apply map_ext. intros p. unfold csum. now rewrite rsum_filter.
Qed.

Lemma scale_raw_bins counts scale fl good net n :
  length counts = n -> length scale = n -> length fl = n -> length good = n ->
  exists d, group_scale_raw counts scale fl (Some (map b2r good)) net = Ok d /\
            sd_scale d = map (gsc net counts scale good) (bins fl).
Proof.
  intros H1 H2 H3 H4.
  set (X := map (fun k => (nth k counts 0, nth k scale 0, isgood good k)) (seq 0 n)).
  assert (E1 : counts = map ch_c X) by (unfold X; rewrite map_map; now apply as_map).
  assert (E2 : scale = map ch_s X) by (unfold X; rewrite map_map; now apply as_map).
  assert (E3 : map b2r good = map (fun x => b2r (ch_q x)) X).
  { unfold X. rewrite map_map. rewrite (as_map good false n H4) at 1. now rewrite map_map. }
  assert (LX : length fl = length X) by (unfold X; rewrite map_length, seq_length; exact H3).
  assert (E : group_scale_raw counts scale fl (Some (map b2r good)) net =
              group_scale_raw (map ch_c X) (map ch_s X) fl (Some (map (fun x => b2r (ch_q x)) X)) net).
  { rewrite <- E1, <- E2, <- E3. reflexivity. }
  rewrite E, group_scale_raw_map, group_scale_data_map by exact LX.
  eexists. split; [reflexivity|]. cbn [sd_scale]. unfold X.
  rewrite groups_map, (groups_idx fl n H3), !map_map. reflexivity.
Qed.

Lemma fold_min_le l : forall x, fold_left Rmin l x <= x /\ forall y, In y l -> fold_left Rmin l x <= y.
Proof.
  induction l as [|z l IH]; intros x; cbn [fold_left]; [split; [lra|intros ? []]|].
  destruct (IH (Rmin x z)) as (A & B). pose proof (Rmin_l x z). pose proof (Rmin_r x z).
  split; [lra|]. intros y [->|Hy]; [lra|now apply B].
Qed.
Lemma fold_min_in l : forall x, In (fold_left Rmin l x) (x :: l).
Proof.
  induction l as [|z l IH]; intros x; cbn [fold_left]; [now left|].
  destruct (IH (Rmin x z)) as [E|H]; [|right; now right].
  rewrite <- E. unfold Rmin. destruct (Rle_dec x z); [now left|right; now left].
Qed.
Lemma fold_max_ge l : forall x, x <= fold_left Rmax l x /\ forall y, In y l -> y <= fold_left Rmax l x.
Proof.
  induction l as [|z l IH]; intros x; cbn [fold_left]; [split; [lra|intros ? []]|].
  destruct (IH (Rmax x z)) as (A & B). pose proof (Rmax_l x z). pose proof (Rmax_r x z).
  split; [lra|]. intros y [->|Hy]; [lra|now apply B].
Qed.
Lemma fold_max_in l : forall x, In (fold_left Rmax l x) (x :: l).
Proof.
  induction l as [|z l IH]; intros x; cbn [fold_left]; [now left|].
  destruct (IH (Rmax x z)) as [E|H]; [|right; now right].
  rewrite <- E. unfold Rmax. destruct (Rle_dec x z); [right; now left|now left].
Qed.
Lemma lmin_spec l : l <> [] -> In (lmin l) l /\ forall x, In x l -> lmin l <= x.
Proof.
  destruct l as [|x l]; [easy|]. intros _. unfold lmin. split; [apply fold_min_in|].
  destruct (fold_min_le l x) as (A & B). intros y [<-|Hy]; [exact A|now apply B].
Qed.
Lemma lmax_spec l : l <> [] -> In (lmax l) l /\ forall x, In x l -> x <= lmax l.
Proof.
  destruct l as [|x l]; [easy|]. intros _. unfold lmax. split; [apply fold_max_in|].
  destruct (fold_max_ge l x) as (A & B). intros y [<-|Hy]; [exact A|now apply B].
Qed.

(** when every channel starts a group, the groups are the channels *)
Lemma fnz_full l k : length (fnz k l) = length l -> fnz k l = seq k (length l).
Proof.
  revert k; induction l as [|b l IH]; intros k H; [reflexivity|]. cbn [fnz length] in *.
  assert (Hle : forall j (m : list bool), (length (fnz j m) <= length m)%nat).
  { intros j m; revert j; induction m as [|c m IHm]; intros j; [reflexivity|]. cbn [fnz length].
    destruct c; cbn [length]; specialize (IHm (S j)); lia. }
  destruct b; cbn [length] in H; [|specialize (Hle (S k) l); lia].
  cbn [seq]. f_equal. apply IH. lia.
Qed.
Lemma pairs_seq k n : pairs (seq k n) (k + n) = map (fun i => (i, S i)) (seq k n).
Proof.
  revert k; induction n as [|n IH]; intros k; [reflexivity|]. cbn [seq pairs map].
  replace (k + S n)%nat with (S k + n)%nat by lia. rewrite IH. f_equal.
  destruct n; [cbn [seq hd]; f_equal; lia|reflexivity].
Qed.
Lemma bins_full fl n : length fl = n -> length (starts fl) = n -> bins fl = map (fun i => (i, S i)) (seq 0 n).
Proof.
  intros H1 H2. rewrite bins_pairs, H1. unfold starts, flatnonzero in *.
  rewrite fnz_full by (rewrite map_length; lia). rewrite map_length, H1.
  exact (pairs_seq 0 n).
Qed.
Lemma idx_single i : idx (i, S i) = [i].
Proof. unfold idx. cbn [fst snd]. replace (S i - i)%nat with 1%nat by lia. reflexivity. Qed.

Definition gemin (r : response) (p : nat * nat) : R := lmin (map (at_ (r_emin r)) (idx p)).
Definition gemax (r : response) (p : nat * nat) : R := lmax (map (at_ (r_emax r)) (idx p)).
Lemma group_energy_bins r fl n : length fl = n -> length (r_emin r) = n -> length (r_emax r) = n ->
  group_energy r fl = (map (gemin r) (bins fl), map (gemax r) (bins fl)).
Proof.
  intros H1 H2 H3. unfold group_energy. rewrite H2.
  destruct (Nat.eqb_spec (length (starts fl)) n) as [E|E].
  - rewrite (bins_full fl n H1 E), !map_map. f_equal.
    + rewrite (as_map (r_emin r) 0 n H2) at 1. apply map_ext. intros i. unfold gemin. now rewrite idx_single.
    + rewrite (as_map (r_emax r) 0 n H3) at 1. apply map_ext. intros i. unfold gemax. now rewrite idx_single.
  - f_equal.
    + rewrite (as_map (r_emin r) 0 n H2) at 1. now rewrite reduceat_bins.
    + rewrite (as_map (r_emax r) 0 n H3) at 1. now rewrite reduceat_bins.
Qed.

Lemma count_true_map {A} (h : A -> bool) l : count_true (map h l) = length (filter h l).
Proof.
  unfold count_true. induction l as [|x l IH]; [reflexivity|]. cbn [map filter].
  destruct (h x); cbn [length]; now rewrite IH.
Qed.
Lemma n_good_bins fl good n : length fl = n -> length good = n ->
  n_good fl good = map (fun p => length (filter (isgood good) (idx p))) (bins fl).
Proof.
  intros H1 H2. unfold n_good. rewrite (as_map good false n H2) at 1. rewrite reduceat_bins by exact H1.
  apply map_ext. intros p. apply count_true_map.
Qed.
Lemma any_axis0_map {A} (rows : list (A -> bool)) (l : list A) :
  any_axis0 (length l) (map (fun h => map h l) rows) = map (fun x => existsb (fun h => h x) rows) l.
Proof.
  unfold any_axis0. induction rows as [|h rows IH]; cbn [map fold_right existsb].
  - induction l as [|x l IHl]; [reflexivity|]. cbn [length repeat map]. now rewrite IHl.
  - rewrite IH, zip2_map. reflexivity.
Qed.

Definition noticedb (er : erange) (r : response) (good : list bool) (p : nat * nat) : bool :=
  (existsb (fun ab => in_range ab (gemin r p) (gemax r p)) er
   && (1 <=? length (filter (isgood good) (idx p)))%nat)%bool.
Lemma in_range_iff r ab p : (fst p < snd p)%nat ->
  in_range ab (gemin r p) (gemax r p) = true <->
  forall k, (fst p <= k < snd p)%nat -> fst ab <= nth k (r_emin r) 0 /\ nth k (r_emax r) 0 <= snd ab.
Proof.
  intros Hp. unfold in_range. rewrite andb_true_iff, !Rleb_true.
  assert (Hne : forall x, map (at_ x) (idx p) <> []).
  { intros x E. apply map_eq_nil in E. assert (In (fst p) (idx p)) by (apply in_idx; lia). rewrite E in H. easy. }
  destruct (lmin_spec _ (Hne (r_emin r))) as (A & B). destruct (lmax_spec _ (Hne (r_emax r))) as (C & D).
  fold (gemin r p) in A, B. fold (gemax r p) in C, D. split.
  - intros (H1 & H2) k Hk. apply in_idx in Hk. split.
    + apply Rle_trans with (gemin r p); [exact H1|]. apply B. now apply (in_map (at_ (r_emin r))).
    + apply Rle_trans with (gemax r p); [|exact H2]. apply D. now apply (in_map (at_ (r_emax r))).
  - intros H. apply in_map_iff in A as (k & <- & Hk). apply in_map_iff in C as (k' & <- & Hk').
    apply in_idx in Hk, Hk'. split; [apply (H k Hk)|apply (H k' Hk')].
Qed.
Lemma noticedb_iff er r good p : (fst p < snd p)%nat -> noticedb er r good p = true <-> noticed er r good p.
Proof.
  intros Hp. unfold noticedb, noticed. rewrite andb_true_iff, existsb_exists.
  assert (H2 : (1 <=? length (filter (isgood good) (idx p)))%nat = true <->
               exists k, (fst p <= k < snd p)%nat /\ isgood good k = true).
  { rewrite Nat.leb_le. split.
    - destruct (filter (isgood good) (idx p)) as [|k l] eqn:E; cbn [length]; [lia|]. intros _.
      assert (In k (filter (isgood good) (idx p))) by (rewrite E; now left).
      apply filter_In in H as (A & B). apply in_idx in A. eauto.
    - intros (k & A & B). assert (In k (filter (isgood good) (idx p))) by (apply filter_In; split; [now apply in_idx|exact B]).
      destruct (filter _ _); [easy|]. cbn [length]. lia. }
  rewrite H2. split; intros ((ab & A & B) & C); (split; [exists ab; split; [exact A|]|exact C]); now apply (in_range_iff r ab p Hp).
Qed.

(** ** Well formed pieces *)
Record wf_spec (s : spectrum) (n : nat) : Prop := {
  ws_c : length (s_counts s) = n; ws_e : length (s_errors s) = n; ws_q : length (s_quality s) = n;
  ws_g : length (s_grouping s) = n; ws_a : length (s_area s) = n; ws_b : length (s_back s) = n }.
Record wf_resp (r : response) (n : nat) : Prop := {
  wr_lo : length (r_emin r) = n; wr_hi : length (r_emax r) = n;
  wr_m : Forall (fun row => length row = n) (r_matrix r) }.

Definition b_ratio (s b : spectrum) (good : list bool) (p : nat * nat) : R :=
  s_exposure s * gsc false (s_counts s) (s_area s) good p * gsc false (s_counts s) (s_back s) good p /
  (s_exposure b * gsc false (s_counts b) (s_area b) good p * gsc false (s_counts b) (s_back b) good p).
Definition c_err (s : spectrum) (good : list bool) (p : nat * nat) : R := sqrt (csum good (map sq (s_errors s)) p).

(** everything exposed is a function of the noticed groups *)
Definition exposed_of (s : spectrum) (r : response) (bk : option spectrum) (good : list bool)
    (er : erange) (fl : list Z) : exposed :=
  let L := filter (noticedb er r good) (bins fl) in
  let unit p := 1 / ((gemax r p - gemin r p) * s_exposure s) in
  let nc p := match bk with None => csum good (s_counts s) p
              | Some b => csum good (s_counts s) p - b_ratio s b good p * csum good (s_counts b) p end in
  let ne p := match bk with None => c_err s good p
              | Some b => sqrt (sq (c_err s good p) + sq (b_ratio s b good p * c_err b good p)) end in
  {| x_chan := L; x_emin := map (gemin r) L; x_emax := map (gemax r) L;
     x_matrix := map (fun row => map (csum good row) L) (r_matrix r);
     x_counts := map (csum good (s_counts s)) L; x_errors := map (c_err s good) L;
     x_area := map (gsc (scale_net s bk) (s_counts s) (s_area s) good) L;
     x_back := match bk with None => None | Some b => Some (map (csum good (s_counts b)) L, map (c_err b good) L, map (b_ratio s b good) L) end;
     x_net := map nc L; x_net_errors := map ne L;
     x_ce := map (fun p => nc p * unit p) L; x_ce_errors := map (fun p => ne p * unit p) L |}.

Lemma spectrum_group_bins s fl good n : wf_spec s n -> length fl = n -> length good = n ->
  spectrum_group s fl good = Ok (map (csum good (s_counts s)) (bins fl), map (c_err s good) (bins fl)).
Proof.
  intros W H1 H2. unfold spectrum_group. rewrite (ws_c _ _ W), H1, H2, Nat.eqb_refl. cbn [negb].
  rewrite (gsum_bins fl good _ n H1 H2 (ws_c _ _ W)).
  rewrite (gsum_bins fl good _ n H1 H2) by (rewrite map_length; apply W).
  rewrite map_map. reflexivity.
Qed.
Lemma group_scales_bins s net fl good n : wf_spec s n -> length fl = n -> length good = n ->
  exists a b, group_scales s net fl good = Ok (a, b) /\
    sd_scale a = map (gsc net (s_counts s) (s_area s) good) (bins fl) /\
    sd_scale b = map (gsc net (s_counts s) (s_back s) good) (bins fl).
Proof.
  intros W H1 H2. unfold group_scales.
  destruct (scale_raw_bins (s_counts s) (s_area s) fl good net n) as (a & E1 & A); try apply W; try assumption.
  destruct (scale_raw_bins (s_counts s) (s_back s) fl good net n) as (b & E2 & B); try apply W; try assumption.
  rewrite E1. cbn [bind]. rewrite E2. cbn [bind]. eauto.
Qed.

Lemma filter_ext_len {A} (f g : A -> bool) l : (forall x, In x l -> f x = g x) -> filter f l = filter g l.
Proof.
  induction l as [|x l IH]; intros H; [reflexivity|]. cbn [filter].
  rewrite (H x (or_introl eq_refl)), IH; [reflexivity|]. intros; apply H; now right.
Qed.

Lemma expose_spec s r bk good er fl n :
  wf_spec s n -> wf_resp r n -> (forall b, bk = Some b -> wf_spec b n) ->
  length good = n -> length fl = n ->
  expose s r bk good er fl = Ok (exposed_of s r bk good er fl).
Proof.
  intros Ws Wr Wb Hg Hf. unfold expose.
  rewrite (spectrum_group_bins s fl good n Ws Hf Hg). cbn [bind].
  destruct (group_scales_bins s (scale_net s bk) fl good n Ws Hf Hg) as (sa & sb & Es & Ea & Eb).
  rewrite Es. cbn [bind fst snd].
  rewrite (group_energy_bins r fl n Hf (wr_lo _ _ Wr) (wr_hi _ _ Wr)).
  assert (Emask : zip2 andb (any_axis0 (length (map (gemin r) (bins fl))) (channel_masks er (map (gemin r) (bins fl)) (map (gemax r) (bins fl))))
                        (map (fun k => 1 <=? k)%nat (n_good fl good)) = map (noticedb er r good) (bins fl)).
  { rewrite (n_good_bins fl good n Hf Hg), map_map, map_length. unfold channel_masks.
    rewrite (map_ext _ (fun ab => map (fun p => in_range ab (gemin r p) (gemax r p)) (bins fl)))
      by (intros ab; apply zip2_map).
    rewrite <- (map_map (fun ab p => in_range ab (gemin r p) (gemax r p)) (fun h => map h (bins fl)) er).
    rewrite any_axis0_map, zip2_map. apply map_ext. intros p. unfold noticedb. f_equal.
    induction er as [|ab er' IH]; [reflexivity|]. cbn [map existsb]. now rewrite IH. }
  rewrite Emask, Ea, !bmask_map. set (L := filter (noticedb er r good) (bins fl)).
  assert (Em : map (bmask (map (noticedb er r good) (bins fl))) (group_matrix r fl good)
               = map (fun row => map (csum good row) L) (r_matrix r)).
  { unfold group_matrix. rewrite (wr_lo _ _ Wr). pose proof (wr_m _ _ Wr) as Hm.
    destruct (Nat.eqb_spec (length (starts fl)) n) as [E|E].
    - apply map_ext_in. intros row Hrow. rewrite Forall_forall in Hm. specialize (Hm row Hrow).
      rewrite (as_map row 0 n Hm) at 1. rewrite (bins_full fl n Hf E), map_map.
      rewrite bmask_map. unfold L. rewrite (bins_full fl n Hf E).
      assert (HH : forall l, map (at_ row) (filter (fun x => noticedb er r good (x, S x)) l) =
                    map (csum good row) (filter (noticedb er r good) (map (fun i => (i, S i)) l))).
      { induction l as [|i l IH]; [reflexivity|]. cbn [map filter].
        destruct (noticedb er r good (i, S i)) eqn:Ei; [|exact IH]. cbn [map]. rewrite IH. f_equal.
        unfold noticedb in Ei. apply andb_true_iff in Ei as (_ & Ei). unfold csum. rewrite idx_single in *.
        cbn [filter] in *. destruct (isgood good i); [|discriminate]. cbn [map rsum fold_right]. lra. }
      apply HH.
    - rewrite map_map. apply map_ext_in. intros row Hrow. rewrite Forall_forall in Hm. specialize (Hm row Hrow).
      rewrite (gsum_bins fl good row n Hf Hg Hm). apply bmask_map. }
  rewrite Em. rewrite !zip2_map.
  assert (Ec : forall l, bmask (map (noticedb er r good) l) l = filter (noticedb er r good) l).
  { intros l. rewrite <- (map_id l) at 2. rewrite bmask_map, map_id. reflexivity. }
  rewrite Ec. fold L.
  destruct bk as [b|].
  - destruct (group_scales_bins b false fl good n (Wb _ eq_refl) Hf Hg) as (ba & bb & Eb1 & Eba & Ebb).
    rewrite Eb1. cbn [bind fst snd].
    rewrite (spectrum_group_bins b fl good n (Wb _ eq_refl) Hf Hg). cbn [bind fst snd].
    unfold group_back_ratio. rewrite Ea, Eb, Eba, Ebb, map4_map, !bmask_map. fold L.
    rewrite !zip2_map. unfold exposed_of. fold L. unfold scale_net. rewrite !andb_false_r. reflexivity.
  - unfold exposed_of. fold L. reflexivity.
Qed.
