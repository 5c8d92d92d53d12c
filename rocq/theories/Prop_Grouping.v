(** C01-C09: theorems about data/grouping.py.  Statements use [groups]/[bins]
    (OGIP semantics, Base.v), sums of slices, [natural_end] and the significance
    of a bin; none of them mentions the loops. *)
From Verif Require Import RBase BaseFacts Gibbs Grouping GroupingProofs GroupingConst GroupingOpt Scale ScaleProofs
  Significance SignificanceProofs GroupSigProofs GroupNormalProofs GroupRefute.

(** ** C01: every routine returns a partition *)
Definition partition (fl : list Z) (n : nat) : Prop :=
  valid_flags fl n /\
  forall A (xs : list A), length xs = n -> concat (groups fl xs) = xs /\ Forall (fun g => g <> []) (groups fl xs).

Lemma valid_partition fl n : valid_flags fl n -> partition fl n.
Proof.
  intros H. split; [exact H|]. intros A xs Hx. subst n. split; [now apply groups_partition|].
  unfold groups. clear H. revert xs. induction fl as [|f fl IH]; intros [|x xs]; try constructor.
  cbn [ogip]. specialize (IH xs). destruct (ogip fl xs) as [pre gs]. destruct (f =? -1)%Z; [exact IH|].
  constructor; [discriminate|exact IH].
Qed.

Theorem C01_partition :
  (forall n c fl s, (0 < c <= n)%nat -> group_const n c = Ok (fl, s) -> partition fl n) /\
  (forall data n fl s, group_min data n = Ok (fl, s) -> partition fl (length data)) /\
  (forall fwhm net bin n fl s,
     (forall bc, bin = Some bc -> length bc = length fwhm) ->
     group_opt_full fwhm net bin n = Ok (fl, s) -> partition fl (length fwhm)) /\
  (forall on off k sig fl s, group_sig_lima on off k sig = Ok (fl, s) -> partition fl (length on)) /\
  (forall n b e k sig fl s, group_sig_gv n b e k sig = Ok (fl, s) -> partition fl (length n)) /\
  (forall c e sig fl s, group_sig_normal c e sig = Ok (fl, s) -> partition fl (length c)) /\
  (forall fwhm net on off k sig fl s,
     group_optsig_lima fwhm net on off k sig = Ok (fl, s) -> partition fl (length on)) /\
  (forall fwhm net n b e k sig fl s,
     group_optsig_gv fwhm net n b e k sig = Ok (fl, s) -> partition fl (length n)) /\
  (forall fwhm net c e sig fl s,
     group_optsig_normal fwhm net c e sig = Ok (fl, s) -> partition fl (length c)).
Proof.
  repeat match goal with |- _ /\ _ => split end; intros; apply valid_partition.
  - destruct (group_const_sizes n c H) as (fl' & E & Hv & _). congruence.
  - eapply group_min_valid; eassumption.
  - destruct (Nat.eq_dec (length fwhm) (length net)) as [HL|HL].
    2:{ unfold group_opt_full in H0. apply Nat.eqb_neq in HL. rewrite HL in H0. discriminate. }
    destruct bin as [bc|]; [destruct n as [n|]; [destruct (Z.lt_ge_cases 0 n)|]|].
    + destruct (group_opt_full_min fwhm net bc n HL (H _ eq_refl) H1) as (fl' & s' & E & Hv & _). congruence.
    + destruct (group_opt_full_plain fwhm net (Some bc) (Some n) HL) as (fl' & E & Hv & _); [eauto|]. congruence.
    + destruct (group_opt_full_plain fwhm net (Some bc) None HL) as (fl' & E & Hv & _); [eauto|]. congruence.
    + destruct (group_opt_full_plain fwhm net None n HL) as (fl' & E & Hv & _); [eauto|]. congruence.
  - apply group_sig_lima_spec in H. tauto.
  - apply group_sig_gv_spec in H. tauto.
  - apply group_sig_normal_spec in H. tauto.
  - pose proof H as H1. unfold group_optsig_lima in H1.
    destruct (Nat.eqb_spec (length fwhm) (length net)) as [L1|]; [|discriminate].
    destruct (Nat.eqb_spec (length net) (length on)) as [L2|]; [|discriminate].
    destruct (Nat.eqb_spec (length on) (length off)) as [L3|]; [|discriminate].
    cbn [andb negb] in H1. destruct (Rleb_spec sig 0); [discriminate|].
    destruct (group_optsig_lima_spec fwhm net on off k sig L1 L2 L3 ltac:(lra)) as (fl' & s' & E & Hv & _). congruence.
  - pose proof H as H1. unfold group_optsig_gv in H1.
    destruct (Nat.eqb_spec (length fwhm) (length net)) as [L1|]; [|discriminate].
    destruct (Nat.eqb_spec (length net) (length n)) as [L2|]; [|discriminate].
    destruct (Nat.eqb_spec (length n) (length b)) as [L3|]; [|discriminate].
    destruct (Nat.eqb_spec (length b) (length e)) as [L4|]; [|discriminate].
    cbn [andb negb] in H1. destruct (Rleb_spec sig 0); [discriminate|].
    destruct (group_optsig_gv_spec fwhm net n b e k sig L1 L2 L3 L4 ltac:(lra)) as (fl' & s' & E & Hv & _). congruence.
  - pose proof H as H1. unfold group_optsig_normal in H1.
    destruct (Nat.eqb_spec (length fwhm) (length net)) as [L1|]; [|discriminate].
    destruct (Nat.eqb_spec (length net) (length c)) as [L2|]; [|discriminate].
    destruct (Nat.eqb_spec (length c) (length e)) as [L3|]; [|discriminate].
    cbn [andb negb] in H1. destruct (Rleb_spec sig 0); [discriminate|].
    destruct (group_optsig_normal_spec fwhm net c e sig L1 L2 L3 ltac:(lra)) as (fl' & s' & E & Hv & _). congruence.
Qed.
Print Assumptions C01_partition.
(** The property as stated also covers [group_const] with more channels per
    group than there are channels; there no group starts at the first channel. *)
Theorem C01_const_refuted : forall n c, (0 < n < c)%nat ->
  exists fl s, group_const n c = Ok (fl, s) /\ ~ partition fl n.
Proof.
  intros n c H. exists (repeat (-1)%Z n), true. split; [apply group_const_short; lia|].
  intros ((_ & _ & Hv) & _). destruct Hv as [|Hv]; [lia|]. destruct n; [lia|discriminate].
Qed.
Print Assumptions C01_const_refuted.
Example C01_ex : exists fl, group_min [3; 1; 0; 5; 2; 2]%Z 4 = Ok (fl, true) /\ groups fl [0;1;2;3;4;5]%nat = [[0;1];[2;3];[4;5]]%nat.
Proof. eexists. split; reflexivity. Qed.
Example C01_ex_lima : exists fl s, group_sig_lima [3; 1] [1; 1]
   {| es := 1; eb := 1; sa := Build_scale_data [1;1] [1;1] [1;1] [1;1] [1;1] [1;1];
      sb := Build_scale_data [1;1] [1;1] [1;1] [1;1] [1;1] [1;1]; ba := Build_scale_data [1;1] [1;1] [1;1] [1;1] [1;1] [1;1];
      bb := Build_scale_data [1;1] [1;1] [1;1] [1;1] [1;1] [1;1] |} 3 = Ok (fl, s).
Proof. apply group_sig_lima_defined; [reflexivity|discriminate|lra]. Qed.

(** ** C02 *)
Theorem C02_const_sizes : forall n c, (0 < c <= n)%nat ->
  exists fl, group_const n c = Ok (fl, true) /\ valid_flags fl n /\
    forall A (xs : list A), length xs = n ->
      map (@length A) (groups fl xs) = repeat c (n / c - 1) ++ [(c + n mod c)%nat].
Proof. exact group_const_sizes. Qed.
Print Assumptions C02_const_sizes.
(** for n < c the routine still reports success, but describes no group at all *)
Theorem C02_short_refuted : forall n c, (n < c)%nat ->
  exists fl, group_const n c = Ok (fl, true) /\ forall A (xs : list A), groups fl xs = [].
Proof. intros n c H. exists (repeat (-1)%Z n). split; [now apply group_const_short|]. intros; apply groups_all_minus. Qed.
Print Assumptions C02_short_refuted.
Example C02_ex : exists fl, group_const 8 3 = Ok (fl, true) /\ groups fl [0;1;2;3;4;5;6;7]%nat = [[0;1;2];[3;4;5;6;7]]%nat.
Proof. eexists. split; reflexivity. Qed.

(** ** C03, C04 *)
Theorem C03_min_success : forall data n fl s, group_min data n = Ok (fl, s) ->
  (s = true <-> Forall (fun g => n <= sumZ g)%Z (groups fl data)) /\
  (Forall (fun x => 0 <= x)%Z data -> (s = true <-> (n <= sumZ data)%Z)).
Proof. intros data n fl s H. split; [exact (group_min_success data n fl s H)|exact (group_min_total data n fl s H)]. Qed.
Print Assumptions C03_min_success.
Theorem C03_min_defined : forall data n, (0 < n)%Z -> data <> [] -> exists fl s, group_min data n = Ok (fl, s).
Proof. exact group_min_defined. Qed.
Print Assumptions C03_min_defined.
Theorem C04_min_finest : forall data n fl s, group_min data n = Ok (fl, s) ->
  Forall (fun x => 0 <= x)%Z data ->
  forall fl', valid_flags fl' (length data) -> Forall (fun g => n <= sumZ g)%Z (groups fl' data) ->
  (length (groups fl' data) <= length (groups fl data))%nat.
Proof. exact group_min_optimal. Qed.
Print Assumptions C04_min_finest.
Theorem C04_min_minimal_groups : forall data n fl s, group_min data n = Ok (fl, s) ->
  Forall (fun g => n <= sumZ g /\ sumZ (removelast g) < n)%Z (removelast (groups fl data)).
Proof. exact group_min_minimal. Qed.
Print Assumptions C04_min_minimal_groups.
Example C03_ex_fail : exists fl, group_min [1; 1; 0]%Z 4 = Ok (fl, false) /\ groups fl [1;1;0]%Z = [[1;1;0]]%Z.
Proof. eexists. split; reflexivity. Qed.
Example C03_ex_merge : exists fl, group_min [5; 1; 4; 1]%Z 4 = Ok (fl, true) /\ groups fl [5;1;4;1]%Z = [[5];[1;4;1]]%Z.
Proof. eexists. split; reflexivity. Qed.

(** ** C05 *)
Theorem C05_lima : forall on off k sig fl s, group_sig_lima on off k sig = Ok (fl, s) ->
  let P := fun a b => sig <= bin_lima on off k a b in
  0 < sig /\ length on = length off /\ valid_flags fl (length on) /\
  (s = true <-> Forall (fun p => P (fst p) (snd p)) (bins fl)) /\
  Forall (fun p => P (fst p) (snd p) /\ forall c, (fst p < c < snd p)%nat -> ~ P (fst p) c) (removelast (bins fl)).
Proof. exact group_sig_lima_spec. Qed.
Print Assumptions C05_lima.
Theorem C05_gv : forall n b e k sig fl s, group_sig_gv n b e k sig = Ok (fl, s) ->
  let P := fun x y => sig <= bin_gv n b e k x y in
  0 < sig /\ length n = length b /\ length b = length e /\ valid_flags fl (length n) /\
  (s = true <-> Forall (fun p => P (fst p) (snd p)) (bins fl)) /\
  Forall (fun p => P (fst p) (snd p) /\ forall c, (fst p < c < snd p)%nat -> ~ P (fst p) c) (removelast (bins fl)).
Proof. exact group_sig_gv_spec. Qed.
Print Assumptions C05_gv.
Theorem C05_normal : forall c e sig fl s, group_sig_normal c e sig = Ok (fl, s) ->
  0 < sig /\ length c = length e /\ valid_flags fl (length c) /\
  (s = true <-> Forall (fun p => reaches c e sig (fst p) (snd p)) (bins fl)) /\
  Forall (fun p => reaches c e sig (fst p) (snd p) /\ 0 < bin_var e (fst p) (snd p) /\
     forall k, (fst p < k < snd p)%nat -> ~ (reaches c e sig (fst p) k /\ 0 < bin_var e (fst p) k)) (removelast (bins fl)).
Proof. exact group_sig_normal_spec. Qed.
Print Assumptions C05_normal.

(** ** C06 *)
Theorem C06_normal_zero_error_refuted : forall sig, 0 < sig ->
  exists fl, group_sig_normal [0] [0] sig = Ok (fl, true) /\ bins fl = [(0, 1)%nat] /\ bin_var [0] 0 1 = 0.
Proof. exact group_sig_normal_zero_success. Qed.
Print Assumptions C06_normal_zero_error_refuted.
(** what does hold: on success every group reaches [counts >= sig * uncertainty],
    and only the last group can have zero uncertainty.  Missing: the last group. *)
Theorem C06_normal_positive_error_partial : forall c e sig fl, group_sig_normal c e sig = Ok (fl, true) ->
  Forall (fun p => reaches c e sig (fst p) (snd p)) (bins fl) /\
  Forall (fun p => 0 < bin_var e (fst p) (snd p)) (removelast (bins fl)).
Proof.
  intros c e sig fl H. apply group_sig_normal_spec in H as (_ & _ & _ & Hs & Hm). split; [now apply Hs|].
  eapply Forall_impl; [|exact Hm]. intros p Hp. apply Hp.
Qed.
Print Assumptions C06_normal_positive_error_partial.

(** ** C07, C08 *)
Theorem C07_opt_plain : forall fwhm net bin n, length fwhm = length net ->
  (bin = None \/ n = None \/ exists m, n = Some m /\ (m <= 0)%Z) ->
  exists fl, group_opt_full fwhm net bin n = Ok (fl, true) /\ valid_flags fl (length fwhm) /\
    Forall (fun p => natural_end (calc_optimal_binning fwhm net) (fst p) (snd p)) (bins fl).
Proof. exact group_opt_full_plain. Qed.
Print Assumptions C07_opt_plain.
(** the optimal bin sizes themselves are between one channel and the FWHM *)
Theorem C07_bin_size_bounds : forall fwhm counts, Forall (fun w => 0 < w) fwhm ->
  Forall2 (fun b w => (1 <= b)%nat /\ INR b <= Rmax 1 w) (calc_optimal_binning fwhm counts) fwhm.
Proof. exact calc_spec. Qed.
Print Assumptions C07_bin_size_bounds.
Theorem C07_natural_end_unique : forall bint i e e', natural_end bint i e -> natural_end bint i e' -> e = e'.
Proof. exact natural_end_unique. Qed.
Print Assumptions C07_natural_end_unique.
Theorem C08_opt_min : forall fwhm net bc n, length fwhm = length net -> length bc = length fwhm ->
  (0 < n)%Z ->
  exists fl s, group_opt_full fwhm net (Some bc) (Some n) = Ok (fl, s) /\ valid_flags fl (length fwhm) /\
    (s = true <-> Forall (fun g => n <= sumZ g)%Z (groups fl bc)) /\
    Forall (opt_minimal (calc_optimal_binning fwhm net) (fun a b => (n <= sumZ (slice a b bc))%Z)) (removelast (bins fl)) /\
    (Forall (fun x => 0 <= x)%Z bc -> (0 < length bc)%nat -> (n <= sumZ bc)%Z -> s = true).
Proof. exact group_opt_full_min. Qed.
Print Assumptions C08_opt_min.
Example C07_ex : exists fl s, group_opt [3; 2; 2; 1; 1]%nat None = Ok (fl, s) /\ bins fl = [(0, 3); (3, 4); (4, 5)]%nat.
Proof. eexists; eexists. split; reflexivity. Qed.
Example C08_ex : exists fl s, group_opt [2; 2; 2; 1; 1]%nat (Some ([1; 1; 3; 0; 5]%Z, 4%Z)) = Ok (fl, s) /\ bins fl = [(0, 3); (3, 5)]%nat.
Proof. eexists; eexists. split; reflexivity. Qed.

(** ** C09 *)
Theorem C09_optsig_lima : forall fwhm net on off k sig,
  length fwhm = length net -> length net = length on -> length on = length off -> 0 < sig ->
  exists fl s, group_optsig_lima fwhm net on off k sig = Ok (fl, s) /\
  valid_flags fl (length on) /\
  (s = true <-> Forall (fun p => sig <= bin_lima on off k (fst p) (snd p)) (bins fl)) /\
  Forall (opt_minimal (calc_optimal_binning fwhm net) (fun a b => sig <= bin_lima on off k a b)) (removelast (bins fl)).
Proof. exact group_optsig_lima_spec. Qed.
Print Assumptions C09_optsig_lima.
Theorem C09_optsig_gv : forall fwhm net n b e k sig,
  length fwhm = length net -> length net = length n -> length n = length b -> length b = length e -> 0 < sig ->
  exists fl s, group_optsig_gv fwhm net n b e k sig = Ok (fl, s) /\
  valid_flags fl (length n) /\
  (s = true <-> Forall (fun p => sig <= bin_gv n b e k (fst p) (snd p)) (bins fl)) /\
  Forall (opt_minimal (calc_optimal_binning fwhm net) (fun x y => sig <= bin_gv n b e k x y)) (removelast (bins fl)).
Proof. exact group_optsig_gv_spec. Qed.
Print Assumptions C09_optsig_gv.
(** Gaussian data: groups reach the significance and are at least the natural
    size; missing: they are not the smallest such extension (refuted below). *)
Theorem C09_optsig_normal_partial : forall fwhm net c e sig,
  length fwhm = length net -> length net = length c -> length c = length e -> 0 < sig ->
  exists fl s, group_optsig_normal fwhm net c e sig = Ok (fl, s) /\
  valid_flags fl (length c) /\
  (s = true <-> Forall (fun p => reaches c e sig (fst p) (snd p)) (bins fl)) /\
  Forall (fun p => (exists en, natural_end (calc_optimal_binning fwhm net) (fst p) en /\ (en <= snd p)%nat) /\
                   reaches c e sig (fst p) (snd p) /\ 0 < bin_var e (fst p) (snd p)) (removelast (bins fl)).
Proof. exact group_optsig_normal_spec. Qed.
Print Assumptions C09_optsig_normal_partial.
(** the group [0,3) is returned although [0,2) already reaches significance 2 *)
Theorem C09_optsig_normal_refuted :
  exists fl s, group_optsig_normal [1;1;1;1] [1;1;1;1] [0;3;10;10] [1;1;1;1] 2 = Ok (fl, s) /\
    In (0, 3)%nat (removelast (bins fl)) /\
    natural_end (calc_optimal_binning [1;1;1;1] [1;1;1;1]) 0 1 /\
    reaches [0;3;10;10] [1;1;1;1] 2 0 2 /\ 0 < bin_var [1;1;1;1] 0 2.
Proof. exact optsig_normal_not_smallest. Qed.
Print Assumptions C09_optsig_normal_refuted.
