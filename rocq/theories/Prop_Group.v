(** C20, C21: what [ObservationData.group] guarantees about the observation. *)
From Verif Require Import RBase BaseFacts Gibbs Grouping GroupingProofs GroupingConst GroupingOpt Scale ScaleProofs
  Significance SignificanceProofs GroupSigProofs GroupNormalProofs Data DataProofs DataState DataFacts DataSeg DataGroup DataGroup2
  DataBad DataExamples Prop_Data GroupExamples.

(** ** Specification *)
(** the request of each method for one group [p] of channels; sums run over its good channels *)
Definition request_met (s : spectrum) (b : option spectrum) (good : list bool) (m : gmethod) (sc : R) (p : nat * nat) : Prop :=
  let C := csum good (s_counts s) p in
  match m with
  | Gconst => (Rtrunc sc <= Z.of_nat (snd p - fst p))%Z
  | Gmin => sc <= C
  | Goptmin => IZR (Rtrunc sc) <= C
  | Gbmin => exists b0, b = Some b0 /\ sc <= csum good (s_counts b0) p
  | Goptbmin => exists b0, b = Some b0 /\ IZR (Rtrunc sc) <= csum good (s_counts b0) p
  | Gsig | Goptsig =>
      match b with
      | None => sc * c_err s good p <= C
      | Some b0 =>
          let B := csum good (s_counts b0) p in let ratio := b_ratio s b0 good p in
          if s_poisson s then
            if s_poisson b0 then sc <= significance_lima C B ratio
            else sc <= significance_gv C B (c_err b0 good p) ratio
          else sc * sqrt (sq (c_err s good p) + sq (ratio * c_err b0 good p)) <= C - ratio * B
      end
  | Gbsig | Goptbsig => exists b0, b = Some b0 /\ sc * c_err b0 good p <= csum good (s_counts b0) p
  | Gopt => True
  end.
(** channel [k] lies in the interval *)
Definition chan_in (r : response) (ab : R * R) (k : nat) : Prop := fst ab <= nth k (r_emin r) 0 /\ nth k (r_emax r) 0 <= snd ab.
Definition bin_in (r : response) (ab : R * R) (p : nat * nat) : Prop := forall k, (fst p <= k < snd p)%nat -> chan_in r ab k.
Definition has_good (good : list bool) (p : nat * nat) : Prop := exists k, (fst p <= k < snd p)%nat /\ isgood good k = true.
(** the bins [group] starts from: the single channels, or the groups stored in the data *)
Definition pre_bins (s : spectrum) (preserve : bool) (n : nat) : list (nat * nat) :=
  bins (if preserve then s_grouping s else repeat 1%Z n).
(** every interval contains at least [c] usable bins *)
Definition enough (r : response) (good : list bool) (er : erange) (B : list (nat * nat)) (c : Z) : Prop :=
  forall ab, In ab er -> exists l, (c <= Z.of_nat (length l))%Z /\ NoDup l /\ forall p, In p l -> In p B /\ bin_in r ab p /\ has_good good p.
(** preconditions of the methods, see [group_*] in Prop_Grouping.v *)
Definition usable (s : spectrum) (r : response) (b : option spectrum) (good : list bool) (er : erange) (B : list (nat * nat)) (m : gmethod) (sc : R) : Prop :=
  (m = Gconst -> (0 < Rtrunc sc)%Z /\ enough r good er B (Rtrunc sc)) /\
  (is_opt m = true -> length (r_fwhm r) = length (r_emin r)) /\
  (m = Goptmin \/ m = Goptbmin -> (0 < Rtrunc sc)%Z) /\
  (m = Gsig \/ m = Goptsig -> s_poisson s = false -> forall b0, b = Some b0 -> const_scales s good /\ const_scales b0 good).

Lemma has_good_u good p : has_good good p <-> ugood good p = true.
Proof. rewrite ugood_iff. unfold has_good. split; intros (k & A & B); exists k; (split; [now apply in_idx|exact B]). Qed.
Lemma usable_method s r b good er B m sc n : wf_resp r n -> Forall (fun p => (fst p < snd p)%nat) B ->
  usable s r b good er B m sc -> forall ab, In ab er -> method_ok s r b good m sc n (length (filter (hsel r good ab) B)).
Proof.
  intros Wr HB (U1 & U2 & U3 & U4) ab Hab. split; [|split; [|split; assumption]].
  - intros E. destruct (U1 E) as (A & X). destruct (X ab Hab) as (l & Hl & Hnd & Hin). split; [exact A|].
    assert (Hle : (length l <= length (filter (hsel r good ab) B))%nat).
    { apply NoDup_incl_length; [exact Hnd|]. intros p Hp. destruct (Hin p Hp) as (H1 & H2 & H3). apply filter_In. split; [exact H1|].
      rewrite Forall_forall in HB. unfold hsel. apply andb_true_iff. split; [|now apply has_good_u].
      apply in_range_iff; [now apply HB|]. exact H2. }
    lia.
  - intros E. pose proof (U2 E) as A. rewrite (wr_lo _ _ Wr) in A. exact A.
Qed.

Lemma mk_response_le r : valid_response r -> forall k, (k < length (r_emin r))%nat -> nth k (r_emin r) 0 <= nth k (r_emax r) 0.
Proof.
  intros (eg & lo & hi & m & fw & H) k Hk. unfold mk_response in H. chk H. chk H. chk H. chk H.
  assert (Er : r_emin r = lo /\ r_emax r = hi) by (injection H as <-; split; reflexivity). destruct Er as (E1' & E2'). rewrite E1', E2' in *.
  destruct (Rle_dec (nth k lo 0) (nth k hi 0)) as [|Hn]; [assumption|exfalso].
  assert (X : existsb (fun p => Rltb (snd p) (fst p)) (combine lo hi) = true).
  { apply existsb_exists. exists (nth k lo 0, nth k hi 0). split; [|apply Rltb_true; cbn [fst snd]; lra].
    rewrite <- (combine_nth lo hi k 0 0) by (now apply Nat.eqb_eq in E; symmetry). apply nth_In. rewrite combine_length. apply Nat.eqb_eq in E. lia. }
  congruence.
Qed.

(** ** C21 *)
(** After any history, a successful [group] leaves every channel alone or inside a group
    that lies in one energy interval.  The channel energies must ascend and 'const' needs
    an interval with at least that many usable bins (both refuted otherwise, below);
    bad channels and preserved data groups are covered. *)
Theorem C21_segments_independent_partial : forall er s r b ib o ops m scale preserve o' ok, built er s r b ib o ->
  let o1 := run o ops in let good := good_mask ib s b in
  group o1 m scale preserve = Ok (o', ok) ->
  ascending (r_emin r) -> ascending (r_emax r) ->
  usable s r b good (o_erange o1) (pre_bins s preserve (length (r_emin r))) m (scale_value scale) ->
  o_erange o' = o_erange o1 /\
  forall p, In p (bins (o_grouping o')) -> snd p = S (fst p) \/ exists ab, In ab (o_erange o1) /\ bin_in r ab p.
Proof.
  intros er s r b ib o ops m scale pr o' ok Hb o1 good H A1 A2 Hu.
  pose proof Hb as (Vs & Vr & Vb & _). destruct (built_inv er s r b ib o ops Hb) as (n & Hn & Ws & Wr & Wb & Hg & Ho).
  assert (Hsg : hd 0%Z (s_grouping s) <> (-1)%Z).
  { destruct Vs as (c & e & po & ex & q & g & a & bb & net & sys & Es). now apply mk_spectrum_facts in Es. }
  assert (Hle : forall k, (k < n)%nat -> nth k (r_emin r) 0 <= nth k (r_emax r) 0).
  { intros k Hk. apply mk_response_le; [exact Vr|]. now rewrite (wr_lo _ _ Wr). }
  rewrite (wr_lo _ _ Wr) in Hu.
  destruct (group_result s r b good n Ws Wr Wb Hg Hn o1 Ho A1 A2 Hle Hsg m scale pr o' ok H) as (G0 & G1 & _).
  { apply (usable_method s r b good (o_erange o1) (pre_bins s pr n) m (scale_value scale) n Wr); [|exact Hu].
    apply Forall_forall. intros p Hp. apply bins_ok in Hp. lia. }
  split; [exact G0|]. intros p Hp. destruct (G1 p Hp) as [X|(ab & X1 & X2)]; [now left|right]. exists ab. split; [exact X1|exact X2].
Qed.
Print Assumptions C21_segments_independent_partial.

(** ** C20 *)
(** After any history, when [group] finishes without a warning every noticed group meets the
    request, provided every channel inside an interval is usable.  Missing: bad channels
    inside an interval, data groups cut by an interval, short intervals for 'const',
    descending energies, Gaussian data with varying scales, fractional scales of
    'const', 'optmin', 'optbmin' (truncated) — refuted below. *)
Theorem C20_request_met_partial : forall er s r b ib o ops m scale preserve o', built er s r b ib o ->
  let o1 := run o ops in let good := good_mask ib s b in
  let B := pre_bins s preserve (length (r_emin r)) in
  group o1 m scale preserve = Ok (o', true) ->
  ascending (r_emin r) -> ascending (r_emax r) ->
  usable s r b good (o_erange o1) B m (scale_value scale) ->
  (forall p ab, In p B -> In ab (o_erange o1) -> bin_in r ab p -> has_good good p) ->
  (preserve = true -> forall p k ab, In p B -> (fst p <= k < snd p)%nat -> In ab (o_erange o1) -> chan_in r ab k -> isgood good k = true ->
     exists ab', In ab' (o_erange o1) /\ bin_in r ab' p) ->
  forall p, In p (x_chan (o_exp o')) -> request_met s b good m (scale_value scale) p.
Proof.
  intros er s r b ib o ops m scale pr o' Hb o1 good B H A1 A2 Hu Hbad Hwhole.
  pose proof Hb as (Vs & Vr & Vb & _). destruct (built_inv er s r b ib o ops Hb) as (n & Hn & Ws & Wr & Wb & Hg & Ho).
  assert (Hsg : hd 0%Z (s_grouping s) <> (-1)%Z).
  { destruct Vs as (c & e & po & ex & q & g & a & bb & net & sys & Es). now apply mk_spectrum_facts in Es. }
  assert (Hle : forall k, (k < n)%nat -> nth k (r_emin r) 0 <= nth k (r_emax r) 0).
  { intros k Hk. apply mk_response_le; [exact Vr|]. now rewrite (wr_lo _ _ Wr). }
  subst B. rewrite (wr_lo _ _ Wr) in *.
  destruct (group_result s r b good n Ws Wr Wb Hg Hn o1 Ho A1 A2 Hle Hsg m scale pr o' true H) as (_ & _ & G).
  { apply (usable_method s r b good (o_erange o1) (pre_bins s pr n) m (scale_value scale) n Wr); [|exact Hu].
    apply Forall_forall. intros p Hp. apply bins_ok in Hp. lia. }
  intros p Hp.
  assert (X : meets s b good m (scale_value scale) p).
  { apply G; auto.
    - intros u ab Hin Hab Hr. apply has_good_u. apply (Hbad u ab Hin Hab). pose proof (bins_ok _ _ Hin) as Hul. exact (proj1 (in_range_iff r ab u ltac:(lia)) Hr).
    - destruct pr.
      + intros u k Hin Hk Hnt. pose proof (bins_ok _ _ Hin) as Hul. apply in_idx in Hk.
        apply noticedb_iff in Hnt; [|cbn [fst snd]; lia]. destruct Hnt as ((ab & Y1 & Y2) & (k' & Y3 & Y4)). cbn [fst snd] in *.
        assert (k' = k) by lia. subst k'. destruct (Hwhole eq_refl u k ab Hin Hk Y1 (Y2 k ltac:(lia)) Y4) as (ab' & Z1 & Z2).
        exists ab'. split; [exact Z1|]. apply in_range_iff; [lia|exact Z2].
      + apply whole_single. }
  unfold meets, meetsL in X. unfold request_met. destruct m; try exact X.
  unfold idx in X. rewrite seq_length in X. exact X.
Qed.
Print Assumptions C20_request_met_partial.

(** The unrestricted claims, and why they fail. *)
Definition C20_claim : Prop := forall er s r b ib o ops m scale preserve o', built er s r b ib o ->
  group (run o ops) m scale preserve = Ok (o', true) ->
  forall p, In p (x_chan (o_exp o')) -> request_met s b (good_mask ib s b) m (scale_value scale) p.
Definition C21_claim : Prop := forall er s r b ib o ops m scale preserve o' ok, built er s r b ib o ->
  group (run o ops) m scale preserve = Ok (o', ok) ->
  forall p, In p (bins (o_grouping o')) -> snd p = S (fst p) \/ exists ab, In ab (o_erange (run o ops)) /\ bin_in r ab p.

Definition all_good (s : spectrum) : Prop := forall k, (k < length (s_counts s))%nat -> isgood (good_mask true s None) k = true.
(** a bad channel strictly inside the interval splits the group around it: success is
    reported although the noticed group {0} has 2 < 4 counts *)
Theorem C20_bad_channel_refuted : exists er s r o o', built er s r None true o /\
  ascending (r_emin r) /\ ascending (r_emax r) /\ group o Gmin (Some 4) false = Ok (o', true) /\
  exists p, In p (x_chan (o_exp o')) /\ ~ request_met s None (good_mask true s None) Gmin 4 p.
Proof.
  destruct badch_run as (o & o' & H1 & H2 & H3 & H4 & H5). exists [(1, 5)], s_badch, up4, o, o'. split; [exact H1|].
  assert (A : ascending (r_emin up4) /\ ascending (r_emax up4)).
  { split; intros i j Hij; cbn in Hij; do 4 (destruct i as [|i]; [do 4 (destruct j as [|j]; [try (exfalso; lia); cbn; lra|]); exfalso; lia|]); exfalso; lia. }
  destruct A as (A1 & A2). repeat (split; [assumption|]). exists (0, 1)%nat. split; [exact H5|]. unfold request_met. cbn. lra.
Qed.
Print Assumptions C20_bad_channel_refuted.
(** a data group that straddles the end of an interval is cut into single channels *)
Theorem C20_preserved_group_refuted : exists er s r o o', built er s r None true o /\ all_good s /\
  ascending (r_emin r) /\ ascending (r_emax r) /\ group o Gmin (Some 4) true = Ok (o', true) /\
  exists p, In p (x_chan (o_exp o')) /\ ~ request_met s None (good_mask true s None) Gmin 4 p.
Proof.
  destruct preserve_run as (o & o' & H1 & H2 & H3 & H4 & H5). exists [(2, 5)], s_pre, up4, o, o'. split; [exact H1|].
  assert (A0 : all_good s_pre) by (intros k Hk; cbn in Hk; do 4 (destruct k as [|k]; [reflexivity|]); lia).
  assert (A : ascending (r_emin up4) /\ ascending (r_emax up4)).
  { split; intros i j Hij; cbn in Hij; do 4 (destruct i as [|i]; [do 4 (destruct j as [|j]; [try (exfalso; lia); cbn; lra|]); exfalso; lia|]); exfalso; lia. }
  destruct A as (A1 & A2). repeat (split; [assumption|]). exists (1, 2)%nat. split; [exact H5|]. unfold request_met. cbn. lra.
Qed.
Print Assumptions C20_preserved_group_refuted.
(** 'const' on an interval with fewer channels than one group reports success *)
Theorem C20_const_short_refuted : exists er s r o o', built er s r None true o /\ all_good s /\
  ascending (r_emin r) /\ ascending (r_emax r) /\ group o Gconst (Some 3) false = Ok (o', true) /\
  exists p, In p (x_chan (o_exp o')) /\ ~ request_met s None (good_mask true s None) Gconst 3 p.
Proof.
  destruct const_short_run as (o & o' & H1 & H2 & H3 & H4 & H5). exists [(1, 3)], (s_plain [1; 1; 1; 1]), up4, o, o'. split; [exact H1|].
  assert (A0 : all_good (s_plain [1; 1; 1; 1])) by (intros k Hk; cbn in Hk; do 4 (destruct k as [|k]; [reflexivity|]); lia).
  assert (A : ascending (r_emin up4) /\ ascending (r_emax up4)).
  { split; intros i j Hij; cbn in Hij; do 4 (destruct i as [|i]; [do 4 (destruct j as [|j]; [try (exfalso; lia); cbn; lra|]); exfalso; lia|]); exfalso; lia. }
  destruct A as (A1 & A2). repeat (split; [assumption|]). exists (0, 2)%nat. split; [exact H5|]. unfold request_met.
  rewrite (Rtrunc_IZR 3) by lia. cbn. lia.
Qed.
Print Assumptions C20_const_short_refuted.
(** with descending channel energies and two intervals the flags land on the wrong channels *)
Theorem C20_descending_refuted : exists er s r o o', built er s r None true o /\ all_good s /\
  group o Gmin (Some 4) false = Ok (o', true) /\
  exists p, In p (x_chan (o_exp o')) /\ ~ request_met s None (good_mask true s None) Gmin 4 p.
Proof.
  destruct desc_run as (o & o' & H1 & H2 & H3 & H4 & H5). exists [(1, 3); (4, 5)], (s_plain [4; 9; 2; 2]), down4, o, o'. split; [exact H1|].
  assert (A0 : all_good (s_plain [4; 9; 2; 2])) by (intros k Hk; cbn in Hk; do 4 (destruct k as [|k]; [reflexivity|]); lia).
  repeat (split; [assumption|]). exists (3, 4)%nat. split; [exact H5|]. unfold request_met. cbn. lra.
Qed.
Print Assumptions C20_descending_refuted.
Theorem C21_const_short_refuted : exists er s r o o', built er s r None true o /\ all_good s /\
  ascending (r_emin r) /\ ascending (r_emax r) /\ group o Gconst (Some 3) false = Ok (o', true) /\
  exists p, In p (bins (o_grouping o')) /\ snd p <> S (fst p) /\ forall ab, In ab (o_erange o) -> ~ bin_in r ab p.
Proof.
  destruct const_leak_run as (o & o' & H1 & H2 & H3 & H4). exists [(3, 5)], (s_plain [1; 1; 1; 1]), up4, o, o'. split; [exact H1|].
  assert (A0 : all_good (s_plain [1; 1; 1; 1])) by (intros k Hk; cbn in Hk; do 4 (destruct k as [|k]; [reflexivity|]); lia).
  assert (A : ascending (r_emin up4) /\ ascending (r_emax up4)).
  { split; intros i j Hij; cbn in Hij; do 4 (destruct i as [|i]; [do 4 (destruct j as [|j]; [try (exfalso; lia); cbn; lra|]); exfalso; lia|]); exfalso; lia. }
  destruct A as (A1 & A2). repeat (split; [assumption|]). rewrite H4, H2. exists (1, 4)%nat. split; [cbn; auto|]. split; [cbn; lia|].
  intros ab [<-|[]] X. specialize (X 1%nat ltac:(cbn; lia)). unfold chan_in in X. cbn in X. lra.
Qed.
Print Assumptions C21_const_short_refuted.
Theorem C21_descending_refuted : exists er s r o o', built er s r None true o /\ all_good s /\
  group o Gmin (Some 4) false = Ok (o', true) /\
  exists p, In p (bins (o_grouping o')) /\ snd p <> S (fst p) /\ forall ab, In ab (o_erange o) -> ~ bin_in r ab p.
Proof.
  destruct desc_run as (o & o' & H1 & H2 & H3 & H4 & H5). exists [(1, 3); (4, 5)], (s_plain [4; 9; 2; 2]), down4, o, o'. split; [exact H1|].
  assert (A0 : all_good (s_plain [4; 9; 2; 2])) by (intros k Hk; cbn in Hk; do 4 (destruct k as [|k]; [reflexivity|]); lia).
  repeat (split; [assumption|]). rewrite H4, H2. exists (1, 3)%nat. split; [cbn; auto|]. split; [cbn; lia|].
  intros ab Hab X. specialize (X 1%nat ltac:(cbn; lia)). unfold chan_in in X. destruct Hab as [<-|[<-|[]]]; cbn in X; lra.
Qed.
Print Assumptions C21_descending_refuted.
Theorem C20_claim_refuted : ~ C20_claim.
Proof.
  intros H. destruct C20_bad_channel_refuted as (er & s & r & o & o' & A & _ & _ & B & p & Hp & N).
  exact (N (H er s r None true o [] Gmin (Some 4) false o' A B p Hp)).
Qed.
Theorem C21_claim_refuted : ~ C21_claim.
Proof.
  intros H. destruct C21_descending_refuted as (er & s & r & o & o' & A & _ & B & p & Hp & N1 & N2).
  destruct (H er s r None true o [] Gmin (Some 4) false o' true A B p Hp) as [X|(ab & X1 & X2)]; [auto|]. exact (N2 ab X1 X2).
Qed.
Print Assumptions C20_claim_refuted.
Print Assumptions C21_claim_refuted.

(** the hypotheses of C20/C21 are met by an ordinary run with two intervals and a real merge *)
Example C20_nonvacuous : exists o o', built [(4, 5); (1, 3)] (s_plain [2; 2; 9; 5]) up4 None true o /\
  group (run o []) Gmin (Some 4) false = Ok (o', true) /\ o_grouping o' = [1; -1; 1; 1]%Z /\ x_chan (o_exp o') = [(0, 2); (3, 4)]%nat /\
  ascending (r_emin up4) /\ ascending (r_emax up4) /\
  usable (s_plain [2; 2; 9; 5]) up4 None (good_mask true (s_plain [2; 2; 9; 5]) None) (o_erange o) (pre_bins (s_plain [2; 2; 9; 5]) false 4) Gmin 4 /\
  (forall p ab, In p (pre_bins (s_plain [2; 2; 9; 5]) false 4) -> In ab (o_erange o) -> bin_in up4 ab p -> has_good (good_mask true (s_plain [2; 2; 9; 5]) None) p) /\
  forall p, In p (x_chan (o_exp o')) -> 4 <= csum (good_mask true (s_plain [2; 2; 9; 5]) None) [2; 2; 9; 5] p.
Proof.
  destruct plain_run as (o & o' & H1 & H2 & H3 & H4 & H5). exists o, o'. split; [exact H1|].
  assert (A : ascending (r_emin up4) /\ ascending (r_emax up4)).
  { split; intros i j Hij; cbn in Hij; do 4 (destruct i as [|i]; [do 4 (destruct j as [|j]; [try (exfalso; lia); cbn; lra|]); exfalso; lia|]); exfalso; lia. }
  destruct A as (A1 & A2).
  assert (U : usable (s_plain [2; 2; 9; 5]) up4 None (good_mask true (s_plain [2; 2; 9; 5]) None) (o_erange o) (pre_bins (s_plain [2; 2; 9; 5]) false 4) Gmin 4).
  { repeat split; intros; try discriminate; destruct H as [H|H]; discriminate. }
  assert (G : forall p ab, In p (pre_bins (s_plain [2; 2; 9; 5]) false 4) -> In ab (o_erange o) -> bin_in up4 ab p -> has_good (good_mask true (s_plain [2; 2; 9; 5]) None) p).
  { intros p ab Hp _ _. change (In p [(0, 1); (1, 2); (2, 3); (3, 4)]%nat) in Hp. exists (fst p).
    destruct Hp as [<-|[<-|[<-|[<-|[]]]]]; (split; [cbn; lia|reflexivity]). }
  do 7 (split; [assumption|]).
  intros p Hp.
  exact (C20_request_met_partial _ _ _ _ _ o [] Gmin (Some 4) false o' H1 H3 A1 A2 U G ltac:(discriminate) p Hp).
Qed.
