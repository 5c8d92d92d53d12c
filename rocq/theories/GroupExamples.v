(** Concrete 4-channel observations for C20 and C21 (witnesses and counterexamples). *)
From Verif Require Import RBase BaseFacts Gibbs Grouping GroupingProofs Scale ScaleProofs
  Significance Data DataProofs DataState DataFacts DataSeg DataGroup DataGroup2 DataBad DataExamples Prop_Data.

Definition sp4 (c : list R) (q g : list Z) : spectrum :=
  {| s_counts := c; s_errors := [1; 1; 1; 1]; s_poisson := true; s_exposure := 1; s_quality := q;
     s_grouping := g; s_area := [1; 1; 1; 1]; s_back := [1; 1; 1; 1]; s_net_opt := None |}.
Lemma sp4_valid a b c d q0 q1 q2 q3 g1 g2 g3 : 0 <= a -> 0 <= b -> 0 <= c -> 0 <= d ->
  forallb (fun q => existsb (Z.eqb q) quality_values) [q0; q1; q2; q3] = true ->
  valid_spectrum (sp4 [a; b; c; d] [q0; q1; q2; q3] [1%Z; g1; g2; g3]).
Proof.
  intros Ha Hb Hc Hd Hq. exists [a; b; c; d], [1; 1; 1; 1], true, 1, (Some [q0; q1; q2; q3]), (Some [1%Z; g1; g2; g3]), (Scal 1), (Scal 1), None, (Scal 0).
  unfold mk_spectrum, reset_zero.
  cbn [length Nat.eqb negb arr_ok arr_get repeat andb zip2]. rewrite Hq.
  cbn [forallb existsb andb orb negb combine fst snd]. rdec. reflexivity.
Qed.
Definition rs4 (lo hi : list R) : response :=
  {| r_egrid := [1; 2]; r_emin := lo; r_emax := hi; r_matrix := [[1; 1; 1; 1]]; r_fwhm := [1; 1; 1; 1] |}.
Definition up4 := rs4 [1; 2; 3; 4] [2; 3; 4; 5].
(** channel energies may descend (e.g. grating data) *)
Definition down4 := rs4 [4; 3; 2; 1] [5; 4; 3; 2].
Lemma up4_valid : valid_response up4.
Proof.
  exists [1; 2], [1; 2; 3; 4], [2; 3; 4; 5], [[1; 1; 1; 1]], [1; 1; 1; 1]. unfold mk_response.
  cbn [length Nat.eqb Nat.sub Nat.leb negb forallb existsb andb orb combine fst snd strictly_increasing]. rdec. reflexivity.
Qed.
Lemma down4_valid : valid_response down4.
Proof.
  exists [1; 2], [4; 3; 2; 1], [5; 4; 3; 2], [[1; 1; 1; 1]], [1; 1; 1; 1]. unfold mk_response.
  cbn [length Nat.eqb Nat.sub Nat.leb negb forallb existsb andb orb combine fst snd strictly_increasing]. rdec. reflexivity.
Qed.

(** what [group] computes, given the flags *)
Lemma group_run s r b good n o m sc pr fl ok : wf_spec s n -> wf_resp r n -> (forall b', b = Some b' -> wf_spec b' n) -> length good = n ->
  (0 < n)%nat -> obs_ok s r b good n o -> group_flags o m (Some sc) pr = Ok (fl, ok) -> length fl = n ->
  exists o', group o m (Some sc) pr = Ok (o', ok) /\ o_grouping o' = fix_first fl /\ x_chan (o_exp o') = filter (noticedb (o_erange o) r good) (bins (fix_first fl)).
Proof.
  intros Ws Wr Wb Hg Hn Hok Hf L. pose proof Hok as [Es Er Eb Eg _ _ _ _].
  unfold group. rewrite Hf. cbn [bind fst snd]. unfold set_grouping. rewrite Es, Er, Eb, Eg.
  assert (Ec : choose_grouping s r (Some fl) = Ok (fix_first fl)).
  { unfold choose_grouping. rewrite (wr_lo _ _ Wr), L, Nat.eqb_refl. cbn [negb]. destruct fl; [cbn in L; lia|reflexivity]. }
  rewrite Ec. cbn [bind].
  rewrite (expose_spec s r b good (o_erange o) (fix_first fl) n Ws Wr Wb Hg) by (now rewrite fix_first_length). cbn [bind].
  eexists. split; [reflexivity|]. split; reflexivity.
Qed.

Lemma obs4 c q g lo hi er er' : length c = 4%nat -> length q = 4%nat -> length g = 4%nat -> length lo = 4%nat -> length hi = 4%nat ->
  valid_spectrum (sp4 c q g) -> valid_response (rs4 lo hi) -> check_erange er = Ok er' ->
  existsb (fun x => x) (good_mask true (sp4 c q g) None) = true ->
  exists o, built er (sp4 c q g) (rs4 lo hi) None true o /\ obs_ok (sp4 c q g) (rs4 lo hi) None (good_mask true (sp4 c q g) None) 4 o /\ o_erange o = er'.
Proof.
  intros L1 L2 L3 L4 L5 Vs Vr Her Hg.
  assert (Ws : wf_spec (sp4 c q g) 4) by (constructor; auto).
  assert (Wr : wf_resp (rs4 lo hi) 4) by (constructor; auto; repeat constructor).
  destruct (mk_obs_defined er (sp4 c q g) (rs4 lo hi) None true 4 Ws Wr) as (o & Ho).
  - intros b' E; discriminate.
  - lia.
  - now apply check_erange_ok in Her.
  - exact Hg.
  - exists o. assert (Hb : built er (sp4 c q g) (rs4 lo hi) None true o) by (split; [exact Vs|]; split; [exact Vr|]; split; [intros ? E; discriminate|exact Ho]).
    split; [exact Hb|]. pose proof Ho as Ho'. apply mk_obs_inv in Ho' as (n & Hn & Ws' & _ & _ & _ & Hk); [|exact Vs|exact Vr|intros ? E; discriminate].
    assert (n = 4%nat) by (rewrite <- (ws_c _ _ Ws'), <- L1; reflexivity). subst n. split; [exact Hk|].
    unfold mk_obs in Ho. cbn [sp4 rs4 s_counts r_emin] in Ho. rewrite L1, L4 in Ho. cbn [Nat.eqb negb] in Ho. cbv zeta in Ho. rewrite Hg in Ho. cbn [negb] in Ho.
    rewrite Her in Ho. cbn [bind] in Ho.
    destruct (choose_grouping _ _ _) as [fl|]; [|discriminate]. cbn [bind] in Ho.
    destruct (expose _ _ _ _ _ _) as [x|]; [|discriminate]. cbn [bind] in Ho. injection Ho as <-. reflexivity.
Qed.

(** evaluating a concrete run *)
Ltac mask_step := unfold hsel, ugood, in_range, gemin, gemax, lmin, lmax, idx, isgood;
  cbn [fst snd Nat.sub seq map nth fold_left filter length Nat.leb andb orb r_emin r_emax rs4 up4 down4 bmask existsb].
Lemma seg_min o s b good pre sc mask : segment o (gd s b good pre) Gmin sc mask = group_minR (bmask mask (map (csum good (s_counts s)) (bins pre))) sc.
Proof. reflexivity. Qed.
Lemma seg_const o s b good pre sc mask : segment o (gd s b good pre) Gconst sc mask = group_const (length (bmask mask (map (csum good (s_counts s)) (bins pre)))) (Z.to_nat (Rtrunc sc)).
Proof. reflexivity. Qed.
Lemma Rtrunc_IZR z : (0 <= z)%Z -> Rtrunc (IZR z) = z.
Proof.
  intros Hz. unfold Rtrunc. destruct (Rleb_spec 0 (IZR z)) as [H|H]; [|apply IZR_le in Hz; lra].
  unfold Int_part. rewrite <- (tech_up (IZR z) (z + 1)); [lia| |]; rewrite plus_IZR; lra.
Qed.
Ltac check4 := unfold check_erange; cbn [existsb fst snd]; rdec;
  cbn [sort_erange fold_right insert_range flatten map concat app fst snd strictly_increasing negb]; rdec;
  cbn [sort_erange fold_right insert_range flatten map concat app fst snd strictly_increasing negb]; rdec; reflexivity.
Ltac csum_step := unfold csum, rsum, idx, isgood; cbn [fst snd Nat.sub seq map nth filter length fold_right s_counts sp4].
Ltac min_step := unfold group_minR; rdec; cbn [min_loopR length Nat.sub Nat.eqb]; rdec;
  repeat (cbn [min_loopR length Nat.eqb andb Nat.ltb Nat.leb app removelast]; rdec).

Section Run.
Variables (c : list R) (q g : list Z) (lo hi : list R) (er er' : erange) (m : gmethod) (sc : R) (pr : bool).
Let s := sp4 c q g.
Let r := rs4 lo hi.
Let good := good_mask true s None.
Definition flags4 (o : obs) : res (list Z * bool) :=
  bind (mapM (segment o (gd s None good (pregrouping s 4 pr)) m sc) (map (fun ab => map (hsel r good ab) (bins (pregrouping s 4 pr))) er')) (fun rs =>
  bind (final_grouping (map (fun p => existsb (fun ab => hsel r good ab p) er') (bins (pregrouping s 4 pr)))
          (map (fun p => length (idx p)) (bins (pregrouping s 4 pr))) (concat (map fst rs))) (fun fl => Ok (fl, forallb snd rs))).
Lemma run4 fl ok : length c = 4%nat -> length q = 4%nat -> length g = 4%nat -> length lo = 4%nat -> length hi = 4%nat ->
  valid_spectrum s -> valid_response r -> check_erange er = Ok er' -> existsb (fun x => x) good = true -> (is_opt m && pr = false)%bool ->
  (forall o, o_bk o = None -> flags4 o = Ok (fl, ok)) -> length fl = 4%nat ->
  exists o o', built er s r None true o /\ o_erange o = er' /\ group o m (Some sc) pr = Ok (o', ok) /\
  o_grouping o' = fix_first fl /\ x_chan (o_exp o') = filter (noticedb er' r good) (bins (fix_first fl)).
Proof.
  intros L1 L2 L3 L4 L5 Vs Vr Her Hg Ho Hf Lf.
  destruct (obs4 c q g lo hi er er') as (o & Hb & Hok & E); auto. exists o. fold s r good in Hb, Hok.
  assert (Ws : wf_spec s 4) by (constructor; auto).
  assert (Wr : wf_resp r 4) by (constructor; auto; repeat constructor).
  assert (Wb : forall b', None = Some b' -> wf_spec b' 4) by discriminate.
  assert (Lg : length good = 4%nat) by (apply good_mask_length; auto).
  destruct (group_run s r None good 4 o m sc pr fl ok Ws Wr Wb Lg ltac:(lia) Hok) as (o' & H1 & H2 & H3); auto.
  - rewrite (group_flags_eq s r None good 4 Ws Wr Wb Lg o Hok m sc pr Ho). rewrite E. apply Hf. apply Hok.
  - exists o'. rewrite E in H3. auto.
Qed.
End Run.

(** *** R1: a bad channel inside an interval *)
Definition s_badch := sp4 [2; 9; 2; 4] [0; 2; 0; 0]%Z [1; 1; 1; 1]%Z.
Lemma badch_run : exists o o', built [(1, 5)] s_badch up4 None true o /\ o_erange o = [(1, 5)] /\ group o Gmin (Some 4) false = Ok (o', true) /\
  o_grouping o' = [1; 1; -1; 1]%Z /\ In (0, 1)%nat (x_chan (o_exp o')).
Proof.
  destruct (run4 [2; 9; 2; 4] [0; 2; 0; 0]%Z [1; 1; 1; 1]%Z [1; 2; 3; 4] [2; 3; 4; 5] [(1, 5)] [(1, 5)] Gmin 4 false [1; 1; -1; 1]%Z true)
    as (o & o' & H1 & H2 & H3 & H4 & H5); try reflexivity; try discriminate.
  - apply sp4_valid; try lra; reflexivity.
  - exact up4_valid.
  - check4.
  - intros o _. unfold flags4. fold s_badch.
    change (bins (pregrouping s_badch 4 false)) with [(0, 1); (1, 2); (2, 3); (3, 4)]%nat.
    change (good_mask true s_badch None) with [true; false; true; true].
    mask_step. rdec. cbn [mapM]. rewrite seg_min.
    change (bins (pregrouping s_badch 4 false)) with [(0, 1); (1, 2); (2, 3); (3, 4)]%nat.
    unfold s_badch. csum_step. cbn [bmask]. min_step. 
    cbv [bind flags_of length concat map fst snd forallb app final_grouping]. cbn. rdec. reflexivity.
  - exists o, o'. fold s_badch in *. repeat (split; [assumption|]). rewrite H5.
    change (bins (fix_first _)) with [(0, 1); (1, 3); (3, 4)]%nat. change (good_mask true s_badch None) with [true; false; true; true].
    apply filter_In. split; [now left|]. unfold noticedb. mask_step. rdec. reflexivity.
Qed.

(** *** R2: 'const' with an interval shorter than one group *)
Definition s_plain (c : list R) := sp4 c [0; 0; 0; 0]%Z [1; 1; 1; 1]%Z.
Lemma const_short_run : exists o o', built [(1, 3)] (s_plain [1; 1; 1; 1]) up4 None true o /\ o_erange o = [(1, 3)] /\
  group o Gconst (Some 3) false = Ok (o', true) /\ o_grouping o' = [1; -1; 1; 1]%Z /\ In (0, 2)%nat (x_chan (o_exp o')).
Proof.
  destruct (run4 [1; 1; 1; 1] [0; 0; 0; 0]%Z [1; 1; 1; 1]%Z [1; 2; 3; 4] [2; 3; 4; 5] [(1, 3)] [(1, 3)] Gconst 3 false [-1; -1; 1; 1]%Z true)
    as (o & o' & H1 & H2 & H3 & H4 & H5); try reflexivity; try discriminate.
  - apply sp4_valid; try lra; reflexivity.
  - exact up4_valid.
  - check4.
  - intros o _. unfold flags4. fold (s_plain [1; 1; 1; 1]). set (s := s_plain [1; 1; 1; 1]).
    change (bins (pregrouping s 4 false)) with [(0, 1); (1, 2); (2, 3); (3, 4)]%nat.
    change (good_mask true s None) with [true; true; true; true].
    mask_step. rdec. cbn [mapM]. rewrite seg_const, (Rtrunc_IZR 3) by lia. reflexivity.
  - exists o, o'. repeat (split; [assumption|]). rewrite H5.
    change (bins (fix_first _)) with [(0, 2); (2, 3); (3, 4)]%nat. apply filter_In. split; [now left|].
    unfold noticedb. mask_step. unfold Rmin, Rmax. destruct (Rle_dec 1 2), (Rle_dec 2 3); try lra. rdec. reflexivity.
Qed.
Lemma const_leak_run : exists o o', built [(3, 5)] (s_plain [1; 1; 1; 1]) up4 None true o /\ o_erange o = [(3, 5)] /\
  group o Gconst (Some 3) false = Ok (o', true) /\ o_grouping o' = [1; 1; -1; -1]%Z.
Proof.
  destruct (run4 [1; 1; 1; 1] [0; 0; 0; 0]%Z [1; 1; 1; 1]%Z [1; 2; 3; 4] [2; 3; 4; 5] [(3, 5)] [(3, 5)] Gconst 3 false [1; 1; -1; -1]%Z true)
    as (o & o' & H1 & H2 & H3 & H4 & H5); try reflexivity; try discriminate.
  - apply sp4_valid; try lra; reflexivity.
  - exact up4_valid.
  - check4.
  - intros o _. unfold flags4. fold (s_plain [1; 1; 1; 1]). set (s := s_plain [1; 1; 1; 1]).
    change (bins (pregrouping s 4 false)) with [(0, 1); (1, 2); (2, 3); (3, 4)]%nat.
    change (good_mask true s None) with [true; true; true; true].
    mask_step. rdec. cbn [mapM]. rewrite seg_const, (Rtrunc_IZR 3) by lia. reflexivity.
  - exists o, o'. repeat (split; [assumption|]). assumption.
Qed.

(** *** R3: a preserved data group cut by an interval *)
Definition s_pre := sp4 [2; 2; 4; 4] [0; 0; 0; 0]%Z [1; -1; 1; 1]%Z.
Lemma preserve_run : exists o o', built [(2, 5)] s_pre up4 None true o /\ o_erange o = [(2, 5)] /\
  group o Gmin (Some 4) true = Ok (o', true) /\ o_grouping o' = [1; 1; 1; 1]%Z /\ In (1, 2)%nat (x_chan (o_exp o')).
Proof.
  destruct (run4 [2; 2; 4; 4] [0; 0; 0; 0]%Z [1; -1; 1; 1]%Z [1; 2; 3; 4] [2; 3; 4; 5] [(2, 5)] [(2, 5)] Gmin 4 true [1; 1; 1; 1]%Z true)
    as (o & o' & H1 & H2 & H3 & H4 & H5); try reflexivity; try discriminate.
  - apply sp4_valid; try lra; reflexivity.
  - exact up4_valid.
  - check4.
  - intros o _. unfold flags4. fold s_pre.
    change (bins (pregrouping s_pre 4 true)) with [(0, 2); (2, 3); (3, 4)]%nat.
    change (good_mask true s_pre None) with [true; true; true; true].
    mask_step. unfold Rmin, Rmax. destruct (Rle_dec 1 2), (Rle_dec 2 3); try lra. rdec. cbn [mapM]. rewrite seg_min.
    change (bins (pregrouping s_pre 4 true)) with [(0, 2); (2, 3); (3, 4)]%nat.
    unfold s_pre. csum_step. cbn [bmask]. min_step. cbn. rdec. reflexivity.
  - exists o, o'. fold s_pre in *. repeat (split; [assumption|]). rewrite H5.
    change (bins (fix_first _)) with [(0, 1); (1, 2); (2, 3); (3, 4)]%nat. change (good_mask true s_pre None) with [true; true; true; true].
    apply filter_In. split; [right; now left|]. unfold noticedb. mask_step. rdec. reflexivity.
Qed.

(** *** R4: descending channel energies *)
Lemma desc_run : exists o o', built [(1, 3); (4, 5)] (s_plain [4; 9; 2; 2]) down4 None true o /\ o_erange o = [(1, 3); (4, 5)] /\
  group o Gmin (Some 4) false = Ok (o', true) /\ o_grouping o' = [1; 1; -1; 1]%Z /\ In (3, 4)%nat (x_chan (o_exp o')).
Proof.
  destruct (run4 [4; 9; 2; 2] [0; 0; 0; 0]%Z [1; 1; 1; 1]%Z [4; 3; 2; 1] [5; 4; 3; 2] [(1, 3); (4, 5)] [(1, 3); (4, 5)] Gmin 4 false [1; 1; -1; 1]%Z true)
    as (o & o' & H1 & H2 & H3 & H4 & H5); try reflexivity; try discriminate.
  - apply sp4_valid; try lra; reflexivity.
  - exact down4_valid.
  - check4.
  - intros o _. unfold flags4. fold (s_plain [4; 9; 2; 2]). set (s := s_plain [4; 9; 2; 2]).
    change (bins (pregrouping s 4 false)) with [(0, 1); (1, 2); (2, 3); (3, 4)]%nat.
    change (good_mask true s None) with [true; true; true; true].
    mask_step. rdec. cbn [mapM]. rewrite !seg_min.
    change (bins (pregrouping s 4 false)) with [(0, 1); (1, 2); (2, 3); (3, 4)]%nat.
    unfold s, s_plain. csum_step. cbn [bmask]. min_step. cbn. rdec. reflexivity.
  - exists o, o'. fold (s_plain [4; 9; 2; 2]) in *. repeat (split; [assumption|]). rewrite H5.
    change (bins (fix_first _)) with [(0, 1); (1, 3); (3, 4)]%nat. change (good_mask true (s_plain [4; 9; 2; 2]) None) with [true; true; true; true].
    apply filter_In. split; [do 2 right; now left|]. unfold noticedb. mask_step. rdec. reflexivity.
Qed.

(** *** an ordinary case: two intervals, all channels good *)
Lemma plain_run : exists o o', built [(4, 5); (1, 3)] (s_plain [2; 2; 9; 5]) up4 None true o /\ o_erange o = [(1, 3); (4, 5)] /\
  group o Gmin (Some 4) false = Ok (o', true) /\ o_grouping o' = [1; -1; 1; 1]%Z /\ x_chan (o_exp o') = [(0, 2); (3, 4)]%nat.
Proof.
  destruct (run4 [2; 2; 9; 5] [0; 0; 0; 0]%Z [1; 1; 1; 1]%Z [1; 2; 3; 4] [2; 3; 4; 5] [(4, 5); (1, 3)] [(1, 3); (4, 5)] Gmin 4 false [1; -1; 1; 1]%Z true)
    as (o & o' & H1 & H2 & H3 & H4 & H5); try reflexivity; try discriminate.
  - apply sp4_valid; try lra; reflexivity.
  - exact up4_valid.
  - check4.
  - intros o _. unfold flags4. fold (s_plain [2; 2; 9; 5]). set (s := s_plain [2; 2; 9; 5]).
    change (bins (pregrouping s 4 false)) with [(0, 1); (1, 2); (2, 3); (3, 4)]%nat.
    change (good_mask true s None) with [true; true; true; true].
    mask_step. rdec. cbn [mapM]. rewrite !seg_min.
    change (bins (pregrouping s 4 false)) with [(0, 1); (1, 2); (2, 3); (3, 4)]%nat.
    unfold s, s_plain. csum_step. cbn [bmask]. min_step. cbn. rdec. reflexivity.
  - exists o, o'. fold (s_plain [2; 2; 9; 5]) in *. repeat (split; [assumption|]). rewrite H5.
    change (bins (fix_first _)) with [(0, 2); (2, 3); (3, 4)]%nat. change (good_mask true (s_plain [2; 2; 9; 5]) None) with [true; true; true; true].
    cbn [filter]. unfold noticedb. mask_step. unfold Rmin, Rmax. destruct (Rle_dec 1 2), (Rle_dec 2 3); try lra. rdec. reflexivity.
Qed.
