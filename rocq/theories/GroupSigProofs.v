From Verif Require Import RBase BaseFacts Gibbs Grouping GroupingProofs GroupingOpt Scale ScaleProofs
  Significance SignificanceProofs.

(** ** independent specification *)
(** significance of the bin [a, b) *)
Definition bin_lima (on off : list R) (k : scales) (a b : nat) : R :=
  significance_lima (rsum (slice a b on)) (rsum (slice a b off)) (iratio k a b).
Definition bin_gv (n bk s : list R) (k : scales) (a b : nat) : R :=
  significance_gv (rsum (slice a b n)) (rsum (slice a b bk)) (sqrt (rsum (slice a b (map sq s)))) (iratio k a b).
(** counts and squared uncertainty of a bin *)
Definition bin_cts (c : list R) (a b : nat) : R := rsum (slice a b c).
Definition bin_var (e : list R) (a b : nat) : R := rsum (map sq (slice a b e)).

(** the resolution-sized bin starting at [i] ends (exclusively) at [e]: no
    channel [k] of it is further than its own optimal size from the end, and it
    is maximal *)
Definition natural_end (bint : list nat) (i e : nat) : Prop :=
  (i < e <= length bint)%nat /\
  (forall k, i <= k < e -> e <= k + nth k bint 0)%nat /\
  (e = length bint \/ exists k, (i <= k < e)%nat /\ (k + nth k bint 0)%nat = e).

Lemma natural_end_unique bint i e e' : natural_end bint i e -> natural_end bint i e' -> e = e'.
Proof.
  intros (A & B & C) (A' & B' & C').
  destruct (Nat.lt_trichotomy e e') as [H|[H|H]]; [|exact H|].
  - destruct C as [C|(k & Hk & C)]; [lia|]. specialize (B' k ltac:(lia)). lia.
  - destruct C' as [C'|(k & Hk & C')]; [lia|]. specialize (B k ltac:(lia)). lia.
Qed.
Lemma opt_end_natural bint i : bint_ok bint -> (i < length bint)%nat ->
  natural_end bint i (S (opt_end bint (length bint - 1) i)).
Proof.
  intros Hb Hi. destruct (opt_end_spec bint i Hb Hi) as (A & B & C). cbv zeta in *.
  split; [lia|]. split.
  - intros k Hk. apply B. lia.
  - destruct C as [C|(k & Hk & C)]; [left; exact C|right; exists k; split; [lia|exact C]].
Qed.

Lemma bins_in fl n p : valid_flags fl n -> In p (bins fl) -> (fst p < snd p <= n)%nat.
Proof.
  intros Hv Hp. rewrite bins_pairs in Hp.
  apply pairs_bounds in Hp as (B1 & B2 & _); [|apply starts_sorted|apply starts_bound].
  destruct Hv as (Hv & _). lia.
Qed.

(** an optimal bin, in terms of a predicate on bins *)
Definition opt_minimal (bint : list nat) (P : nat -> nat -> Prop) (p : nat * nat) : Prop :=
  exists e, natural_end bint (fst p) e /\ (e <= snd p)%nat /\ P (fst p) (snd p) /\
    forall c, (e <= c < snd p)%nat -> ~ P (fst p) c.

Lemma opt_bin_ok_minimal bint ok (P : nat -> nat -> Prop) p : bint_ok bint ->
  (fst p < snd p <= length bint)%nat ->
  (forall a b, (a < b <= length bint)%nat -> ok a b = true <-> P a b) ->
  opt_bin_ok bint ok p -> opt_minimal bint P p.
Proof.
  intros Hb Hp HP (A & B & C). exists (S (opt_end bint (length bint - 1) (fst p))).
  pose proof (opt_end_natural bint (fst p) Hb ltac:(lia)) as Hn. pose proof Hn as (N1 & _).
  split; [exact Hn|]. split; [exact A|]. split.
  - apply HP; [lia|exact B].
  - intros c Hc Hbad. apply HP in Hbad; [|lia]. rewrite C in Hbad by lia. discriminate.
Qed.

(** ** Li-Ma and GV grouping *)
Lemma sig_generic ok okf (P : nat -> nat -> Prop) n fl s :
  (forall a b, (a < b <= n)%nat -> (ok a b = true <-> P a b)) ->
  (forall a b, (a < b <= n)%nat -> (okf a b = true <-> P a b)) ->
  group_sig ok okf n = Ok (fl, s) ->
  valid_flags fl n /\
  (s = true <-> Forall (fun p => P (fst p) (snd p)) (bins fl)) /\
  Forall (fun p => P (fst p) (snd p) /\ forall c, (fst p < c < snd p)%nat -> ~ P (fst p) c) (removelast (bins fl)).
Proof.
  intros H1 H2 H. apply group_sig_spec in H as (Hn & Hv & Hs & Hm).
  split; [exact Hv|]. split.
  - rewrite Hs, !Forall_forall. split; intros HF p Hp; specialize (HF p Hp);
      (apply H2; [now apply (bins_in fl n p)|exact HF]).
  - rewrite Forall_forall in *. intros p Hp. destruct (Hm p Hp) as (A & B).
    assert (Hb : (fst p < snd p <= n)%nat) by (apply (bins_in fl n p); [exact Hv|now apply In_removelast]).
    split; [apply H1; [lia|exact A]|]. intros c Hc HP. apply H1 in HP; [|lia].
    rewrite (B c) in HP by lia. discriminate.
Qed.

Lemma optsig_generic bint ok okf (P : nat -> nat -> Prop) :
  bint_ok bint ->
  (forall a b, (a < b <= length bint)%nat -> (ok a b = true <-> P a b)) ->
  (forall a b, (a < b <= length bint)%nat -> (okf a b = true <-> P a b)) ->
  exists fl s, group_optsig bint ok okf = Ok (fl, s) /\
  valid_flags fl (length bint) /\
  (s = true <-> Forall (fun p => P (fst p) (snd p)) (bins fl)) /\
  Forall (opt_minimal bint P) (removelast (bins fl)).
Proof.
  intros Hb H1 H2. destruct (group_optsig_spec bint ok okf Hb) as (fl & s & E & Hv & Hs & Hm).
  exists fl, s. split; [exact E|]. split; [exact Hv|]. split.
  - rewrite Hs, !Forall_forall. split; intros HF p Hp; specialize (HF p Hp);
      (apply H2; [now apply (bins_in fl (length bint) p)|exact HF]).
  - rewrite Forall_forall in *. intros p Hp. apply (opt_bin_ok_minimal bint ok); auto.
    apply (bins_in fl (length bint) p); [exact Hv|now apply In_removelast].
Qed.

Lemma lima_okf_P on off k sig a b : lima_okf on off k sig a b = true <-> sig <= bin_lima on off k a b.
Proof. unfold lima_okf, bin_lima. apply Rleb_true. Qed.
Lemma lima_ok_P on off k sig a b : length on = length off -> (a < b <= length on)%nat ->
  lima_ok on off k sig a b = true <-> sig <= bin_lima on off k a b.
Proof. intros HL H. rewrite lima_ok_eq by lia. apply lima_okf_P. Qed.
Lemma gv_okf_P n b s k sig x y : gv_okf n b s k sig x y = true <-> sig <= bin_gv n b s k x y.
Proof. unfold gv_okf, bin_gv. apply Rleb_true. Qed.
Lemma gv_ok_P n b s k sig x y : length n = length b -> length b = length s -> (x < y <= length n)%nat ->
  gv_ok n b s k sig x y = true <-> sig <= bin_gv n b s k x y.
Proof. intros H1 H2 H. rewrite gv_ok_eq by lia. apply gv_okf_P. Qed.

Lemma group_sig_lima_spec on off k sig fl s : group_sig_lima on off k sig = Ok (fl, s) ->
  let P := fun a b => sig <= bin_lima on off k a b in
  0 < sig /\ length on = length off /\ valid_flags fl (length on) /\
  (s = true <-> Forall (fun p => P (fst p) (snd p)) (bins fl)) /\
  Forall (fun p => P (fst p) (snd p) /\ forall c, (fst p < c < snd p)%nat -> ~ P (fst p) c) (removelast (bins fl)).
Proof.
  unfold group_sig_lima. destruct (Nat.eqb_spec (length on) (length off)) as [HL|]; [|discriminate].
  cbn [negb]. destruct (Rleb_spec sig 0) as [|Hs]; [discriminate|]. intros H.
  apply (sig_generic _ _ (fun a b => sig <= bin_lima on off k a b)) in H.
  - split; [lra|]. split; [exact HL|]. exact H.
  - intros; now apply lima_ok_P.
  - intros; apply lima_okf_P.
Qed.
Lemma group_sig_gv_spec n b e k sig fl s : group_sig_gv n b e k sig = Ok (fl, s) ->
  let P := fun x y => sig <= bin_gv n b e k x y in
  0 < sig /\ length n = length b /\ length b = length e /\ valid_flags fl (length n) /\
  (s = true <-> Forall (fun p => P (fst p) (snd p)) (bins fl)) /\
  Forall (fun p => P (fst p) (snd p) /\ forall c, (fst p < c < snd p)%nat -> ~ P (fst p) c) (removelast (bins fl)).
Proof.
  unfold group_sig_gv. destruct (Nat.eqb_spec (length n) (length b)) as [HL|]; [|discriminate].
  destruct (Nat.eqb_spec (length b) (length e)) as [HL2|]; [|discriminate].
  cbn [negb andb]. destruct (Rleb_spec sig 0) as [|Hs]; [discriminate|]. intros H.
  apply (sig_generic _ _ (fun a y => sig <= bin_gv n b e k a y)) in H.
  - split; [lra|]. split; [exact HL|]. split; [exact HL2|]. exact H.
  - intros; now apply gv_ok_P.
  - intros; apply gv_okf_P.
Qed.
Lemma group_sig_lima_defined on off k sig : length on = length off -> on <> [] -> 0 < sig ->
  exists fl s, group_sig_lima on off k sig = Ok (fl, s).
Proof.
  intros HL Hn Hs. unfold group_sig_lima. rewrite HL, Nat.eqb_refl. cbn [negb].
  destruct (Rleb_spec sig 0); [lra|]. unfold group_sig. rewrite <- HL.
  destruct (Nat.eqb_spec (length on) 0); [destruct on; [congruence|discriminate]|]. eauto.
Qed.

(** optimal variants *)
Lemma group_optsig_lima_spec fwhm net on off k sig :
  length fwhm = length net -> length net = length on -> length on = length off -> 0 < sig ->
  exists fl s, group_optsig_lima fwhm net on off k sig = Ok (fl, s) /\
  valid_flags fl (length on) /\
  (s = true <-> Forall (fun p => sig <= bin_lima on off k (fst p) (snd p)) (bins fl)) /\
  Forall (opt_minimal (calc_optimal_binning fwhm net) (fun a b => sig <= bin_lima on off k a b)) (removelast (bins fl)).
Proof.
  intros L1 L2 L3 Hs. unfold group_optsig_lima. rewrite L1, L2, L3, !Nat.eqb_refl. cbn [negb andb].
  destruct (Rleb_spec sig 0); [lra|].
  pose proof (calc_length fwhm net) as HC.
  replace (length off) with (length (calc_optimal_binning fwhm net)) by congruence.
  apply (optsig_generic _ _ _ (fun a b => sig <= bin_lima on off k a b));
    [apply calc_bint_ok| |intros; apply lima_okf_P].
  intros a b Hab. apply lima_ok_P; [exact L3|]. rewrite HC in Hab. lia.
Qed.
Lemma group_optsig_gv_spec fwhm net n b e k sig :
  length fwhm = length net -> length net = length n -> length n = length b -> length b = length e -> 0 < sig ->
  exists fl s, group_optsig_gv fwhm net n b e k sig = Ok (fl, s) /\
  valid_flags fl (length n) /\
  (s = true <-> Forall (fun p => sig <= bin_gv n b e k (fst p) (snd p)) (bins fl)) /\
  Forall (opt_minimal (calc_optimal_binning fwhm net) (fun x y => sig <= bin_gv n b e k x y)) (removelast (bins fl)).
Proof.
  intros L1 L2 L3 L4 Hs. unfold group_optsig_gv. rewrite L1, L2, L3, L4, !Nat.eqb_refl. cbn [negb andb].
  destruct (Rleb_spec sig 0); [lra|].
  pose proof (calc_length fwhm net) as HC.
  replace (length e) with (length (calc_optimal_binning fwhm net)) by congruence.
  apply (optsig_generic _ _ _ (fun x y => sig <= bin_gv n b e k x y));
    [apply calc_bint_ok| |intros; apply gv_okf_P].
  intros x y Hab. apply gv_ok_P; [exact L3|exact L4|]. rewrite HC in Hab. lia.
Qed.

(** plain and count-constrained optimal binning *)
Lemma group_opt_full_plain fwhm net bin n : length fwhm = length net ->
  (bin = None \/ n = None \/ exists m, n = Some m /\ (m <= 0)%Z) ->
  exists fl, group_opt_full fwhm net bin n = Ok (fl, true) /\ valid_flags fl (length fwhm) /\
    Forall (fun p => natural_end (calc_optimal_binning fwhm net) (fst p) (snd p)) (bins fl).
Proof.
  intros HL Hb. unfold group_opt_full. rewrite HL, Nat.eqb_refl. cbn [negb].
  set (arg := match bin with Some _ => _ | None => _ end).
  assert (E : arg = None).
  { unfold arg. destruct bin as [bc|]; [|reflexivity].
    destruct Hb as [Hb|[->|(m & -> & Hm)]]; [discriminate|reflexivity|].
    destruct (Z.ltb_spec 0 m); [lia|reflexivity]. }
  rewrite E. destruct (group_opt_plain (calc_optimal_binning fwhm net)) as (fl & E1 & Hv & HF); [apply calc_bint_ok|].
  rewrite calc_length in Hv. exists fl. rewrite <- HL. split; [exact E1|]. split; [exact Hv|].
  rewrite Forall_forall in *. intros p Hp. destruct (HF p Hp) as (A & B).
  pose proof (bins_in fl _ p Hv Hp). split; [rewrite calc_length; lia|]. split; [exact A|exact B].
Qed.

Lemma group_opt_full_min fwhm net bc n : length fwhm = length net -> length bc = length fwhm ->
  (0 < n)%Z ->
  exists fl s, group_opt_full fwhm net (Some bc) (Some n) = Ok (fl, s) /\ valid_flags fl (length fwhm) /\
    (s = true <-> Forall (fun g => n <= sumZ g)%Z (groups fl bc)) /\
    Forall (opt_minimal (calc_optimal_binning fwhm net) (fun a b => (n <= sumZ (slice a b bc))%Z)) (removelast (bins fl)) /\
    (Forall (fun x => 0 <= x)%Z bc -> (0 < length bc)%nat -> (n <= sumZ bc)%Z -> s = true).
Proof.
  intros HL HL2 Hn. unfold group_opt_full. rewrite HL, Nat.eqb_refl. cbn [negb].
  destruct (Z.ltb_spec 0 n); [|lia].
  assert (Hb : bint_ok (calc_optimal_binning fwhm net)) by apply calc_bint_ok.
  assert (HC : length bc = length (calc_optimal_binning fwhm net)) by (rewrite calc_length; exact HL2).
  destruct (group_opt_min_defined _ bc n Hb HC) as (fl & s & E). exists fl, s. rewrite <- HL. split; [exact E|].
  apply group_opt_min in E as (Hv & Hs & HF & Ht); [|exact Hb|exact HC].
  rewrite calc_length in Hv. repeat split; try tauto; try apply Hv; try apply Hs.
  rewrite Forall_forall in *. intros p Hp. apply (opt_bin_ok_minimal _ (ok_min bc n)); auto.
  - rewrite calc_length. apply (bins_in fl _ p Hv). now apply In_removelast.
  - intros a b _. unfold ok_min. apply Z.leb_le.
Qed.
