(** C15-C19, C22-C24: theorems about data/base.py.  A group is a channel range [p],
    channels [fst p .. snd p - 1]; [bins] gives the groups of OGIP flags (Base.v),
    [csum good x p] is the sum of [x] over the good channels of [p], [noticed] says that
    all channels of [p] lie in one of the energy intervals and one of them is good,
    [fold_model] is the channel value of a photon model folded through response rows
    (all defined in DataProofs.v / DataFacts.v without reference to the model).
    [run o ops] is the observation after any sequence of set_erange / set_grouping /
    group calls, successful or not. *)
From Coq Require Import Permutation.
From Verif Require Import RBase BaseFacts Grouping Scale ScaleProofs Significance Data DataProofs DataState DataFacts DataBad DataSim DataExamples DataAlias.

(** an observation built from valid inputs *)
Definition built (er : erange) (s : spectrum) (r : response) (b : option spectrum) (ib : bool) (o : obs) : Prop :=
  valid_spectrum s /\ valid_response r /\ (forall b', b = Some b' -> valid_spectrum b') /\ mk_obs er s r b ib = Ok o.
Lemma built_inv er s r b ib o ops : built er s r b ib o ->
  exists n, (0 < n)%nat /\ wf_spec s n /\ wf_resp r n /\ (forall b', b = Some b' -> wf_spec b' n) /\
    length (good_mask ib s b) = n /\ obs_ok s r b (good_mask ib s b) n (run o ops).
Proof.
  intros (A & B & C & D). destruct (mk_obs_inv er s r b ib o A B C D) as (n & H1 & H2 & H3 & H4 & H5 & H6).
  exists n. repeat (split; [assumption|]). now apply run_inv.
Qed.

(** ** C15 *)
Theorem C15_conservation : forall s fl good c e n, wf_spec s n -> length fl = n -> length good = n ->
  hd 0%Z fl <> (-1)%Z -> spectrum_group s fl good = Ok (c, e) ->
  c = map (csum good (s_counts s)) (bins fl) /\ map sq e = map (csum good (map sq (s_errors s))) (bins fl) /\
  rsum c = rsum (map (at_ (s_counts s)) (filter (isgood good) (seq 0 n))) /\
  rsum (map sq e) = rsum (map (at_ (map sq (s_errors s))) (filter (isgood good) (seq 0 n))).
Proof.
  intros s fl good c e n W H1 H2 H3 H. rewrite (spectrum_group_bins s fl good n W H1 H2) in H. injection H as <- <-.
  assert (E : map sq (map (c_err s good) (bins fl)) = map (csum good (map sq (s_errors s))) (bins fl))
    by (rewrite map_map; apply map_ext; intros p; apply c_err_sq).
  split; [reflexivity|]. split; [exact E|]. split; [now apply csum_total|]. rewrite E. now apply csum_total.
Qed.
Print Assumptions C15_conservation.
(** the groups partition the channels *)
Theorem C15_groups_partition : forall fl n, length fl = n -> hd 0%Z fl <> (-1)%Z ->
  concat (map (fun p => seq (fst p) (snd p - fst p)) (bins fl)) = seq 0 n /\
  Forall (fun p => (fst p < snd p)%nat) (bins fl).
Proof.
  intros fl n H1 H2. split; [exact (bins_cover fl n H1 H2)|]. apply Forall_forall. intros p Hp. now apply bins_ok in Hp.
Qed.
Print Assumptions C15_groups_partition.
Example C15_ex : wf_spec (ex_spec 7) 4 /\ hd 0%Z [1; -1; 1; -1]%Z <> (-1)%Z /\
  bins [1; -1; 1; -1]%Z = [(0, 2); (2, 4)]%nat /\ filter (isgood [true; true; false; true]) (seq 0 4) = [0; 1; 3]%nat.
Proof. split; [apply ex_wf_spec|]. split; [discriminate|]. split; reflexivity. Qed.

(** ** C16 *)
Theorem C16_fold_commutes : forall er s r b ib o ops phot j, built er s r b ib o ->
  let x := o_exp (run o ops) in (j < length (x_chan x))%nat ->
  fold_model phot (x_matrix x) j =
  csum (good_mask ib s b) (map (fold_model phot (r_matrix r)) (seq 0 (length (r_emin r)))) (nth j (x_chan x) (0, 0)%nat).
Proof.
  intros er s r b ib o ops phot j H x Hj. destruct (built_inv er s r b ib o ops H) as (n & Hn & Ws & Wr & Wb & Hg & Ho).
  subst x. rewrite (ok_exp _ _ _ _ _ _ Ho) in *. cbn [exposed_of x_matrix x_chan] in *. rewrite (wr_lo _ _ Wr).
  apply fold_grouped; [exact Hj|]. apply Forall_forall. intros q Hq. apply filter_In in Hq as (Hq & _).
  apply bins_ok in Hq. rewrite (ok_len _ _ _ _ _ _ Ho) in Hq. lia.
Qed.
Print Assumptions C16_fold_commutes.

(** ** C17 *)
Theorem C17_energy_bounds : forall er s r b ib o ops, built er s r b ib o -> let x := o_exp (run o ops) in
  Forall2 (fun p lo => (exists k, (fst p <= k < snd p)%nat /\ lo = nth k (r_emin r) 0) /\
                       forall k, (fst p <= k < snd p)%nat -> lo <= nth k (r_emin r) 0) (x_chan x) (x_emin x) /\
  Forall2 (fun p hi => (exists k, (fst p <= k < snd p)%nat /\ hi = nth k (r_emax r) 0) /\
                       forall k, (fst p <= k < snd p)%nat -> nth k (r_emax r) 0 <= hi) (x_chan x) (x_emax x).
Proof.
  intros er s r b ib o ops H x. destruct (built_inv er s r b ib o ops H) as (n & Hn & Ws & Wr & Wb & Hg & Ho).
  subst x. rewrite (ok_exp _ _ _ _ _ _ Ho). cbn [exposed_of x_chan x_emin x_emax].
  set (L := filter _ _). assert (HL : forall p, In p L -> (fst p < snd p)%nat).
  { intros p Hp. apply filter_In in Hp as (Hp & _). now apply bins_ok in Hp. }
  assert (Hne : forall p y, (fst p < snd p)%nat -> map (at_ y) (idx p) <> []).
  { intros p y Hp E. apply map_eq_nil in E. assert (Hi : In (fst p) (idx p)) by (apply in_idx; lia). rewrite E in Hi. easy. }
  clearbody L. split.
  - induction L as [|p L IH]; [constructor|]. cbn [map]. constructor; [|apply IH; intros; apply HL; now right].
    destruct (lmin_spec _ (Hne p (r_emin r) (HL p (or_introl eq_refl)))) as (A & B). fold (gemin r p) in A, B. split.
    + apply in_map_iff in A as (k & E & Hk). exists k. split; [now apply in_idx|now symmetry].
    + intros k Hk. apply B. now apply (in_map (at_ (r_emin r))), in_idx.
  - induction L as [|p L IH]; [constructor|]. cbn [map]. constructor; [|apply IH; intros; apply HL; now right].
    destruct (lmax_spec _ (Hne p (r_emax r) (HL p (or_introl eq_refl)))) as (A & B). fold (gemax r p) in A, B. split.
    + apply in_map_iff in A as (k & E & Hk). exists k. split; [now apply in_idx|now symmetry].
    + intros k Hk. apply B. now apply (in_map (at_ (r_emax r))), in_idx.
Qed.
Print Assumptions C17_energy_bounds.
(** for a contiguous grid the grouped channels tile the same range without gap or overlap *)
Theorem C17_tiling : forall r fl n gmin gmax, valid_response r -> length (r_emin r) = n ->
  length fl = n -> hd 0%Z fl <> (-1)%Z -> (0 < n)%nat ->
  (forall k, (S k < n)%nat -> nth k (r_emax r) 0 = nth (S k) (r_emin r) 0) ->
  group_energy r fl = (gmin, gmax) ->
  length gmin = length (bins fl) /\ length gmax = length (bins fl) /\
  (forall j, (S j < length gmin)%nat -> nth j gmax 0 = nth (S j) gmin 0) /\
  hd 0 gmin = hd 0 (r_emin r) /\ last gmax 0 = last (r_emax r) 0.
Proof.
  intros r fl n gmin gmax (eg & lo & hi & m & fw & Er) Hr Hf Hh Hn Hc HG.
  destruct (mk_response_facts _ _ _ _ _ _ Er) as (Wr & Hle).
  assert (En : length lo = n) by (rewrite <- (wr_lo _ _ Wr); exact Hr). rewrite En in *.
  rewrite (group_energy_bins r fl n Hf Hr (wr_hi _ _ Wr)) in HG. injection HG as <- <-. rewrite !map_length.
  split; [reflexivity|]. split; [reflexivity|].
  pose proof (tiling_bounds r n Hle Hc) as HT. rewrite bins_pairs, Hf.
  assert (Hs : hd_error (starts fl) = Some 0%nat).
  { destruct fl as [|f fl]; [simpl in Hf; lia|]. cbn in Hh. unfold starts, flatnonzero. cbn [map fnz].
    destruct (Z.eqb_spec f (-1)); [contradiction|reflexivity]. }
  pose proof (starts_sorted fl) as Hss. pose proof (starts_bound fl) as Hsb. rewrite Hf in Hsb.
  remember (starts fl) as l eqn:El. clear El Hf Hh En Hr Er.
  assert (HP : forall p, In p (pairs l n) -> gemin r p = nth (fst p) (r_emin r) 0 /\ gemax r p = nth (snd p - 1) (r_emax r) 0).
  { intros p Hp. apply HT. destruct (pairs_bounds l n p Hss Hsb Hp). lia. }
  split; [|split].
  - clear Hs. revert Hss Hsb HP. induction l as [|a l IH]; intros Hss Hsb HP j Hj; [simpl in Hj; lia|].
    destruct l as [|c l]; [simpl in Hj; lia|]. inversion Hss as [|? ? Hss' Ha]; subst. inversion Hsb as [|? ? Han Hsb']; subst.
    destruct j as [|j].
    + cbn [pairs map nth hd]. destruct (HP (a, c)) as (_ & E1); [now left|].
      destruct (HP (c, hd n l)) as (E2 & _); [right; now left|]. cbn [fst snd] in *. rewrite E1, E2.
      inversion Ha; subst. inversion Hsb'; subst. destruct c as [|c]; [lia|]. rewrite Nat.sub_succ, Nat.sub_0_r. apply Hc. lia.
    + change (nth (S j) (map (gemax r) (pairs (a :: c :: l) n)) 0) with (nth j (map (gemax r) (pairs (c :: l) n)) 0).
      change (nth (S (S j)) (map (gemin r) (pairs (a :: c :: l) n)) 0) with (nth (S j) (map (gemin r) (pairs (c :: l) n)) 0).
      apply IH; auto.
      * intros p Hp. apply HP. now right.
      * cbn in Hj |- *. lia.
  - destruct l as [|a l]; [discriminate|]. cbn in Hs. injection Hs as ->. cbn [pairs map hd].
    destruct (HP (0, hd n l)%nat) as (E & _); [now left|]. rewrite E. cbn [fst]. destruct (r_emin r); reflexivity.
  - assert (Hlast : exists a, In (a, n) (pairs l n) /\ last (pairs l n) (0,0)%nat = (a, n)).
    { clear - Hs. destruct l as [|a l]; [discriminate|]. clear Hs. revert a. induction l as [|c l IH]; intros a.
      - exists a. split; [now left|reflexivity].
      - destruct (IH c) as (e & A & B). exists e. split; [right; exact A|exact B]. }
    destruct Hlast as (a & Ha & Hl).
    assert (El : last (map (gemax r) (pairs l n)) 0 = gemax r (a, n)).
    { rewrite <- Hl. clear - Ha. induction (pairs l n) as [|p [|q L] IH]; [easy|reflexivity|].
      cbn [map]. change (last (gemax r p :: ?u) 0) with (last u 0). exact (IH (or_introl (B := False) I)) || idtac.
      clear IH Ha. revert q. induction L as [|t L IH]; intros q; [reflexivity|]. exact (IH t). }
    rewrite El. destruct (HP _ Ha) as (_ & E). rewrite E. cbn [snd].
    pose proof (wr_hi _ _ Wr) as Lh. rewrite <- Lh. clear. induction (r_emax r) as [|y [|z l] IH]; try reflexivity.
    cbn [length] in *. rewrite Nat.sub_succ, Nat.sub_0_r in *. exact IH.
Qed.
Print Assumptions C17_tiling.
Example C17_ex : valid_response (ex_resp 3) /\ (forall k, (S k < 4)%nat -> nth k (r_emax (ex_resp 3)) 0 = nth (S k) (r_emin (ex_resp 3)) 0).
Proof. split; [apply ex_resp_valid|]. intros k Hk. destruct k as [|[|[|k]]]; [reflexivity..|lia]. Qed.

(** ** C18 *)
Theorem C18_noticed_channels : forall er s r b ib o ops, built er s r b ib o ->
  let o' := run o ops in let x := o_exp o' in let good := good_mask ib s b in
  (forall p, In p (x_chan x) <-> In p (bins (o_grouping o')) /\ noticed (o_erange o') r good p) /\
  StronglySorted (fun p q => (snd p <= fst q)%nat) (x_chan x) /\
  x_counts x = map (csum good (s_counts s)) (x_chan x) /\
  map sq (x_errors x) = map (csum good (map sq (s_errors s))) (x_chan x) /\
  x_matrix x = map (fun row => map (csum good row) (x_chan x)) (r_matrix r) /\
  length (x_emin x) = length (x_chan x) /\ length (x_emax x) = length (x_chan x) /\ length (x_area x) = length (x_chan x) /\
  length (x_net x) = length (x_chan x) /\ length (x_net_errors x) = length (x_chan x) /\
  length (x_ce x) = length (x_chan x) /\ length (x_ce_errors x) = length (x_chan x) /\
  match b, x_back x with
  | None, None => True
  | Some b', Some (bc, be, ratio) => bc = map (csum good (s_counts b')) (x_chan x) /\
      map sq be = map (csum good (map sq (s_errors b'))) (x_chan x) /\ length ratio = length (x_chan x)
  | _, _ => False
  end.
Proof.
  intros er s r b ib o ops H o' x good. destruct (built_inv er s r b ib o ops H) as (n & Hn & Ws & Wr & Wb & Hg & Ho).
  fold o' good in Ho. subst x. rewrite (ok_exp _ _ _ _ _ _ Ho).
  cbn [exposed_of x_chan x_counts x_errors x_matrix x_emin x_emax x_area x_net x_net_errors x_ce x_ce_errors x_back]. set (L := filter (noticedb (o_erange o') r good) (bins (o_grouping o'))).
  assert (Hsq : forall u, map sq (map (c_err u good) L) = map (csum good (map sq (s_errors u))) L)
    by (intros u; rewrite map_map; apply map_ext; intros p; apply c_err_sq).
  split. { intros p. unfold L. rewrite filter_In. split; intros (A & B); (split; [exact A|]); apply (noticedb_iff _ _ _ p) in B; try exact B; now apply bins_ok in A. }
  split; [apply SS_filter, bins_sorted|]. split; [reflexivity|]. split; [apply Hsq|]. split; [reflexivity|].
  rewrite !map_length. repeat (split; [reflexivity|]). destruct b as [b'|]; [|exact I].
  split; [reflexivity|]. split; [apply Hsq|apply map_length].
Qed.
Print Assumptions C18_noticed_channels.
(** calls that raise change nothing, in particular the exposed channels *)
Theorem C18_failed_call_no_effect : forall er s r b ib o ops a, built er s r b ib o ->
  snd (step (run o ops) a) <> None -> fst (step (run o ops) a) = run o ops.
Proof.
  intros er s r b ib o ops a H. destruct (built_inv er s r b ib o ops H) as (n & Hn & Ws & Wr & Wb & Hg & Ho).
  now apply (step_inv s r b _ n Ws Wr Wb Hg Hn).
Qed.
Print Assumptions C18_failed_call_no_effect.
Example C18_ex : exists o, built [(4, 5); (1, 3)] (ex_spec 7) (ex_resp 3) (Some ex_back) true o.
Proof.
  destruct (ex_obs 7 3 (Some ex_back)) as (o & E); [now right|]. exists o.
  split; [apply ex_spec_valid; lra|]. split; [apply ex_resp_valid|]. split; [|exact E].
  intros b' H. injection H as <-. exact ex_back_valid.
Qed.

(** ** C19 *)
Theorem C19_erange_validation : forall er s r b ib o ops er', built er s r b ib o ->
  let o1 := run o ops in let res := set_erange_st o1 er' in
  (snd res = None <-> ranges_ok er') /\
  (snd res = None -> Permutation er' (o_erange (fst res)) /\ StronglySorted (fun a b => snd a < fst b) (o_erange (fst res)) /\
                     o_grouping (fst res) = o_grouping o1) /\
  (snd res <> None -> fst res = o1).
Proof.
  intros er s r b ib o ops er' H o1 res. destruct (built_inv er s r b ib o ops H) as (n & Hn & Ws & Wr & Wb & Hg & Ho).
  destruct (set_erange_st_inv s r b _ n Ws Wr Wb Hg Hn _ er' Ho) as (_ & P). fold o1 in P. fold res in P.
  destruct (check_erange er') as [e2|e2] eqn:E.
  - apply check_erange_ok in E as (A & ->). destruct P as (P1 & P2 & P3). rewrite P1.
    split; [tauto|]. split; [|intros X; now contradiction X]. intros _. rewrite P2. split; [symmetry; apply sort_perm|].
    split; [now apply sort_before|exact P3].
  - rewrite P. cbn [fst snd]. split; [split; [discriminate|]|split; [discriminate|reflexivity]].
    intros A. rewrite (proj2 (check_erange_ok er' _) (conj A eq_refl)) in E. discriminate.
Qed.
Print Assumptions C19_erange_validation.
Theorem C19_constructor_erange : forall er s r b ib o, built er s r b ib o ->
  ranges_ok er /\ Permutation er (o_erange o) /\ StronglySorted (fun a b => snd a < fst b) (o_erange o).
Proof.
  intros er s r b ib o (_ & _ & _ & H). unfold mk_obs in H. chk H. chk H. cbv zeta in H. chk H.
  destruct (check_erange er) as [e|] eqn:E2; [|discriminate]. cbn [bind] in H.
  destruct (choose_grouping s r None) as [fl|]; [|discriminate]. cbn [bind] in H.
  destruct (expose s r b _ e fl); [|discriminate]. cbn [bind] in H. injection H as <-. cbn [o_erange].
  apply check_erange_ok in E2 as (A & ->). split; [exact A|]. split; [symmetry; apply sort_perm|now apply sort_before].
Qed.
Print Assumptions C19_constructor_erange.
Example C19_ex : ranges_ok [(4, 5); (1, 3)] /\ ~ ranges_ok [(1, 3); (3, 5)].
Proof.
  split.
  - split; [discriminate|]. split; [repeat constructor; cbn; lra|].
    constructor; [constructor; [right; cbn; lra|constructor]|]. constructor; constructor.
  - intros (_ & _ & H). inversion H as [|? ? Hx _]; subst. inversion Hx as [|? ? [A|A] _]; subst; cbn in A; lra.
Qed.

(** ** C22 *)
(** [gr net counts scale good p]: the averaged scale of group [p] (C12) *)
Theorem C22_net_spectrum : forall er s r b ib o ops, built er s r b ib o ->
  let x := o_exp (run o ops) in let good := good_mask ib s b in
  match b, x_back x with
  | None, None => x_net x = x_counts x /\ x_net_errors x = x_errors x
  | Some b', Some (bc, be, ratio) =>
      x_net x = zip2 Rminus (x_counts x) (zip2 Rmult ratio bc) /\
      map sq (x_net_errors x) = zip2 Rplus (map sq (x_errors x)) (map sq (zip2 Rmult ratio be)) /\
      ratio = map (fun p => s_exposure s * gsc false (s_counts s) (s_area s) good p * gsc false (s_counts s) (s_back s) good p /
        (s_exposure b' * gsc false (s_counts b') (s_area b') good p * gsc false (s_counts b') (s_back b') good p)) (x_chan x)
  | _, _ => False
  end /\
  x_ce x = zip2 Rdiv (x_net x) (zip2 (fun hi lo => (hi - lo) * s_exposure s) (x_emax x) (x_emin x)) /\
  x_ce_errors x = zip2 Rdiv (x_net_errors x) (zip2 (fun hi lo => (hi - lo) * s_exposure s) (x_emax x) (x_emin x)).
Proof.
  intros er s r b ib o ops H x good. destruct (built_inv er s r b ib o ops H) as (n & Hn & Ws & Wr & Wb & Hg & Ho).
  subst x. rewrite (ok_exp _ _ _ _ _ _ Ho). cbn [exposed_of x_chan x_counts x_errors x_matrix x_emin x_emax x_area x_net x_net_errors x_ce x_ce_errors x_back].
  fold good. set (L := filter _ _). rewrite !zip2_map. split; [|split; apply map_ext; intros p; unfold Rdiv; rewrite Rmult_1_l; reflexivity].
  destruct b as [b'|]; [|split; reflexivity]. rewrite !zip2_map. split; [reflexivity|]. split; [|reflexivity].
  rewrite !map_map, zip2_map. apply map_ext. intros p. unfold sq at 1. apply sqrt_sqrt.
  pose proof (sq_nonneg (c_err s good p)). pose proof (sq_nonneg (b_ratio s b' good p * c_err b' good p)). lra.
Qed.
Print Assumptions C22_net_spectrum.
Theorem C22_scale_is_mean : forall s b ib scale net p, valid_spectrum s ->
  (scale = s_area s \/ scale = s_back s) -> (snd p <= length (s_counts s))%nat ->
  (forall k, (fst p <= k < snd p)%nat -> isgood (good_mask ib s b) k = true -> 0 <= nth k (s_counts s) 0) ->
  gsc net (s_counts s) scale (good_mask ib s b) p = expected_scale net (chans (s_counts s) scale (good_mask ib s b) p).
Proof.
  intros s b ib scale net p (c & e & po & ex & q & g & a & bb & nt & sys & Es) Hsc Hp Hc.
  apply mk_spectrum_facts in Es as (Ws & _ & Ec & _ & _ & Hpos & _). apply gsc_expected. intros k Hk Hgd.
  split; [now apply Hc|]. rewrite Ec in Hp.
  assert (Hq : nth k (s_quality s) 0%Z <> 1%Z).
  { assert (G : isgood (map (is_good ib) (s_quality s)) k = true).
    { unfold good_mask in Hgd. destruct b as [b'|]; [|exact Hgd]. unfold isgood in *. clear - Hgd. revert Hgd.
      generalize (map (is_good ib) (s_quality b')). generalize (map (is_good ib) (s_quality s)).
      induction k as [|k IH]; intros [|x u] [|y v] H; try discriminate; cbn in *; [now apply andb_true_iff in H|eauto]. }
    unfold isgood in G. intros E. destruct (Nat.lt_ge_cases k (length (s_quality s))) as [L|L].
    - rewrite (nth_indep _ false (is_good ib 0)) in G by (now rewrite map_length). rewrite map_nth, E in G. destruct ib; discriminate.
    - rewrite nth_overflow in G by (now rewrite map_length). discriminate. }
  destruct (Hpos k ltac:(lia) Hq) as (A & B). destruct Hsc as [-> | ->]; assumption.
Qed.
Print Assumptions C22_scale_is_mean.

(** ** C23 *)
(** two inputs that differ only in channels flagged bad give the same exposed data after
    every history of calls.  Missing: the hypothesis that the [net] inference of the two
    sources agrees can fail (next theorem). *)
Theorem C23_bad_channels_partial : forall er s r b s' r' b' ib o o' ops,
  built er s r b ib o -> built er s' r' b' ib o' ->
  let good := good_mask ib s b in good_mask ib s' b' = good ->
  same_good good s s' -> same_resp good r r' -> opt_rel (same_good good) b b' ->
  (s_net s = s_net s' \/ b <> None) ->
  o_exp (run o ops) = o_exp (run o' ops) /\ o_grouping (run o ops) = o_grouping (run o' ops).
Proof.
  intros er s r b s' r' b' ib o o' ops H H' good Hgood HS HR HB HN.
  destruct (built_inv er s r b ib o [] H) as (n & Hn & Ws & Wr & Wb & Hg & Ho).
  destruct (built_inv er s' r' b' ib o' [] H') as (n' & Hn' & Ws' & Wr' & Wb' & Hg' & Ho').
  rewrite Hgood in *. fold good in Hg, Ho. assert (En : n' = n) by congruence. rewrite En in *. cbn [run fold_left] in Ho, Ho'.
  assert (HN' : scale_net s b = scale_net s' b').
  { unfold scale_net. inversion HB; subst; [destruct HN as [->|HN]; [reflexivity|congruence]|now rewrite !andb_false_r]. }
  assert (E1 : o_erange o = o_erange o' /\ o_grouping o = o_grouping o').
  { destruct H as (_ & _ & _ & H), H' as (_ & _ & _ & H'). unfold mk_obs in H, H'.
    chk H. chk H. chk H'. chk H'. cbv zeta in H, H'. chk H. chk H'.
    destruct (check_erange er) as [e|] eqn:E5; [|discriminate]. cbn [bind] in H, H'.
    assert (Ec : choose_grouping s r None = choose_grouping s' r' None).
    { unfold choose_grouping. now rewrite (sg_g _ _ _ HS), (sr_lo _ _ _ HR). }
    rewrite <- Ec in H'. destruct (choose_grouping s r None) as [fl|]; [|discriminate]. cbn [bind] in H, H'.
    destruct (expose s r b _ e fl); [|discriminate]. destruct (expose s' r' b' _ e fl); [|discriminate].
    cbn [bind] in H, H'. injection H as <-. injection H' as <-. split; reflexivity. }
  exact (run_sim s s' r r' b b' good n Ws Wr Wb Ws' Wr' Wb' Hg Hn HS HR HB HN' ops o o' Ho Ho' (proj1 E1) (proj2 E1)).
Qed.
Print Assumptions C23_bad_channels_partial.
Example C23_ex : exists o o', built [(4, 5); (1, 3)] (ex_spec 7) (ex_resp 3) (Some ex_back) true o /\
  built [(4, 5); (1, 3)] (ex_spec 100) (ex_resp 50) (Some ex_back) true o' /\
  let good := good_mask true (ex_spec 7) (Some ex_back) in
  good_mask true (ex_spec 100) (Some ex_back) = good /\ same_good good (ex_spec 7) (ex_spec 100) /\
  same_resp good (ex_resp 3) (ex_resp 50) /\ opt_rel (same_good good) (Some ex_back) (Some ex_back) /\
  ~ agree [true; true; true; true] (s_counts (ex_spec 7)) (s_counts (ex_spec 100)).
Proof.
  destruct (ex_obs 7 3 (Some ex_back)) as (o & E); [now right|]. destruct (ex_obs 100 50 (Some ex_back)) as (o' & E'); [now right|].
  exists o, o'. split.
  { split; [apply ex_spec_valid; lra|]. split; [apply ex_resp_valid|]. split; [|exact E]. intros b' H. injection H as <-. exact ex_back_valid. }
  split.
  { split; [apply ex_spec_valid; lra|]. split; [apply ex_resp_valid|]. split; [|exact E']. intros b' H. injection H as <-. exact ex_back_valid. }
  cbv zeta. change (good_mask true (ex_spec 7) (Some ex_back)) with [true; true; false; true].
  assert (Hk : forall k, isgood [true; true; false; true] k = true -> k = 0%nat \/ k = 1%nat \/ k = 3%nat).
  { intros k. destruct k as [|[|[|[|k]]]]; cbn; try discriminate; auto. destruct k; discriminate. }
  assert (Hr : forall l, agree [true; true; false; true] l l) by (intros l; split; reflexivity).
  split; [reflexivity|]. split.
  { constructor; try reflexivity; try apply Hr. split; [reflexivity|]. intros k Hg. apply Hk in Hg as [-> |[-> | ->]]; reflexivity. }
  split.
  { constructor; try reflexivity. constructor; [apply Hr|]. constructor; [|constructor].
    split; [reflexivity|]. intros k Hg. apply Hk in Hg as [-> |[-> | ->]]; reflexivity. }
  split.
  { constructor. constructor; try reflexivity; apply Hr. }
  intros (_ & H). specialize (H 2%nat eq_refl). cbn in H. lra.
Qed.

(** A negative count in a bad channel of a background-free Gaussian spectrum turns the
    whole spectrum into a NET one and changes the area scale of good channels. *)
Definition c23_spec (c2 : R) : spectrum :=
  {| s_counts := [1; 1; c2]; s_errors := [1; 1; 1]; s_poisson := false; s_exposure := 1; s_quality := [0; 0; 1]%Z;
     s_grouping := [1; -1; 1]%Z; s_area := [1; 2; 1]; s_back := [1; 1; 1]; s_net_opt := None |}.
Theorem C23_net_inference_refuted :
  let good := good_mask true (c23_spec 0) None in
  good = [true; true; false] /\ good_mask true (c23_spec (-1)) None = good /\
  same_good good (c23_spec 0) (c23_spec (-1)) /\
  (exists a b, group_scales (c23_spec 0) (scale_net (c23_spec 0) None) [1; -1; 1]%Z good = Ok (a, b) /\ hd 0 (sd_scale a) = 4 / 3) /\
  (exists a b, group_scales (c23_spec (-1)) (scale_net (c23_spec (-1)) None) [1; -1; 1]%Z good = Ok (a, b) /\ hd 0 (sd_scale a) = 3 / 2).
Proof.
  cbv zeta. change (good_mask true (c23_spec 0) None) with [true; true; false]. split; [reflexivity|]. split; [reflexivity|]. split.
  { constructor; try reflexivity; split; try reflexivity. intros k Hk. destruct k as [|[|[|k]]]; try reflexivity. discriminate. }
  assert (W : forall c, wf_spec (c23_spec c) 3) by (intros; constructor; reflexivity).
  split.
  - destruct (group_scales_bins (c23_spec 0) (scale_net (c23_spec 0) None) [1; -1; 1]%Z [true; true; false] 3 (W 0) eq_refl eq_refl) as (a & b & E & A & _).
    exists a, b. split; [exact E|]. rewrite A. change (bins [1; -1; 1]%Z) with [(0, 2); (2, 3)]%nat. cbn [map hd].
    unfold scale_net, s_net, c23_spec. cbn [s_net_opt s_counts s_area existsb].
    rewrite !(proj2 (Rltb_false _ _)) by lra. cbn [orb andb].
    unfold gsc, gstat, chans, gscale. cbn [idx seq fst snd Nat.sub map nth isgood b2r ch_q ch_c ch_s rsum fold_right].
    unfold div0. assert (R1 : Reqb 1 0 = false) by (destruct (Reqb_spec 1 0); [lra|reflexivity]). assert (R2 : Reqb 2 0 = false) by (destruct (Reqb_spec 2 0); [lra|reflexivity]). rewrite ?R1, ?R2.
    repeat (match goal with |- context [Reqb ?u ?v] => destruct (Reqb_spec u v) as [X|X]; [try (exfalso; lra)|try (exfalso; lra)] end); try field.
  - destruct (group_scales_bins (c23_spec (-1)) (scale_net (c23_spec (-1)) None) [1; -1; 1]%Z [true; true; false] 3 (W (-1)) eq_refl eq_refl) as (a & b & E & A & _).
    exists a, b. split; [exact E|]. rewrite A. change (bins [1; -1; 1]%Z) with [(0, 2); (2, 3)]%nat. cbn [map hd].
    unfold scale_net, s_net, c23_spec. cbn [s_net_opt s_counts s_area existsb].
    rewrite !(proj2 (Rltb_false 1 0)) by lra. rewrite (proj2 (Rltb_true (-1) 0)) by lra. cbn [orb andb].
    unfold gsc, gstat, chans, gscale. cbn [idx seq fst snd Nat.sub map nth isgood b2r ch_q ch_c ch_s rsum fold_right].
    unfold div0. assert (R1 : Reqb 1 0 = false) by (destruct (Reqb_spec 1 0); [lra|reflexivity]). assert (R2 : Reqb 2 0 = false) by (destruct (Reqb_spec 2 0); [lra|reflexivity]). rewrite ?R1, ?R2.
    repeat (match goal with |- context [Reqb ?u ?v] => destruct (Reqb_spec u v) as [X|X]; [try (exfalso; lra)|try (exfalso; lra)] end); try field.
Qed.
Print Assumptions C23_net_inference_refuted.

(** ** C24 *)
Theorem C24_caller_array_modified_refuted : forall nch (h : store) a rest,
  h a = (-1)%Z :: rest -> length (h a) = nch ->
  exists h', set_grouping_ref nch h a = Ok (h', a) /\ h' a <> h a /\ h' a = 1%Z :: rest.
Proof.
  intros nch h a rest E L. unfold set_grouping_ref. rewrite L, Nat.eqb_refl. cbn [negb]. rewrite E.
  eexists. split; [reflexivity|]. unfold upd. rewrite Nat.eqb_refl. split; [discriminate|reflexivity].
Qed.
Print Assumptions C24_caller_array_modified_refuted.
(** a later in-place edit [v] of the caller's array is what the next set_erange uses *)
Theorem C24_later_edit_leaks_refuted : forall nch (h : store) a h' self v,
  set_grouping_ref nch h a = Ok (h', self) -> later_grouping (upd h' a v) self = v.
Proof.
  intros nch h a h' self v H. unfold set_grouping_ref in H. destruct (negb _); [discriminate|].
  destruct (h a); [discriminate|]. injection H as <- <-. unfold later_grouping, upd. now rewrite Nat.eqb_refl.
Qed.
Print Assumptions C24_later_edit_leaks_refuted.
(** what holds: arrays that start a group at the first channel, and all other arrays, are left alone.
    Missing: the two refuted cases above. *)
Theorem C24_array_unchanged_partial : forall nch (h : store) a h' self,
  set_grouping_ref nch h a = Ok (h', self) -> self = a /\ (forall k, k <> a -> h' k = h k) /\
  (hd 0%Z (h a) <> (-1)%Z -> h' a = h a).
Proof.
  intros nch h a h' self H. unfold set_grouping_ref in H. destruct (negb _); [discriminate|].
  destruct (h a) as [|f l] eqn:E; [discriminate|].
  assert (X : h' = upd h a (fix_first (f :: l)) /\ self = a) by (injection H as <- <-; split; reflexivity).
  destruct X as (-> & ->). split; [reflexivity|]. split.
  - intros k Hk. unfold upd. apply Nat.eqb_neq in Hk. now rewrite Hk.
  - intros Hh. unfold upd. rewrite Nat.eqb_refl, <- E. cbn in Hh. rewrite E. cbn. destruct (Z.eqb_spec f (-1)); [contradiction|reflexivity].
Qed.
Print Assumptions C24_array_unchanged_partial.
