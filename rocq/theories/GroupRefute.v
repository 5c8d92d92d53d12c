(** Witnesses and the agreement of candidate and final ratios. *)
From Verif Require Import RBase BaseFacts Gibbs Grouping GroupingProofs GroupingOpt Scale ScaleProofs
  Significance SignificanceProofs GroupSigProofs GroupNormalProofs.

(** ** C11 *)
(** [d] is scale metadata as the program builds it: raw channel scales averaged
    over an initial grouping with a 0/1 quality mask *)
Definition is_scale_data (d : scale_data) (n : nat) : Prop :=
  exists counts scale fl q, group_scale_raw counts scale fl (Some q) false = Ok d /\
    Forall (fun x => x = 0 \/ x = 1) q /\ length (sd_counts d) = n.

Lemma is_scale_interval d n fl d' : is_scale_data d n -> valid_flags fl n -> regroup_scale d fl false = Ok d' ->
  sd_scale d' = map (fun p => scale_from_interval (build_scale_prefix d false) (fst p) (snd p)) (bins fl).
Proof.
  intros (counts & scale & fl0 & q & H & Hq & Hn) Hv H'. symmetry.
  eapply interval_is_group; [exact H|exact Hq| |exact H']. rewrite Hn. exact Hv.
Qed.

Lemma iratio_group k n fl sa' sb' ba' bb' :
  is_scale_data (sa k) n -> is_scale_data (sb k) n -> is_scale_data (ba k) n -> is_scale_data (bb k) n ->
  valid_flags fl n ->
  regroup_scale (sa k) fl false = Ok sa' -> regroup_scale (sb k) fl false = Ok sb' ->
  regroup_scale (ba k) fl false = Ok ba' -> regroup_scale (bb k) fl false = Ok bb' ->
  map (fun p => iratio k (fst p) (snd p)) (bins fl) = group_back_ratio (es k) (eb k) sa' sb' ba' bb'.
Proof.
  intros H1 H2 H3 H4 Hv R1 R2 R3 R4. unfold group_back_ratio.
  rewrite (is_scale_interval _ n fl _ H1 Hv R1), (is_scale_interval _ n fl _ H2 Hv R2),
    (is_scale_interval _ n fl _ H3 Hv R3), (is_scale_interval _ n fl _ H4 Hv R4).
  rewrite (map4_map (fun a b c d => es k * a * b / (eb k * c * d))).
  apply map_ext. intros p. unfold iratio, interval_back_ratio. cbv zeta. apply back_ratio_step.
Qed.

(** ** C09 is false for Gaussian data *)
Lemma calc_ones n net : calc_optimal_binning (repeat 1 n) net = repeat 1%nat n.
Proof.
  assert (HF : Forall (fun w => 0 < w) (repeat 1 n)).
  { apply Forall_forall. intros w Hw. apply repeat_spec in Hw. lra. }
  pose proof (calc_spec (repeat 1 n) net HF) as H. revert H.
  generalize (calc_optimal_binning (repeat 1 n) net). clear HF. induction n as [|n IH]; intros l H; simpl in H.
  - inversion H; reflexivity.
  - inversion H as [|b w bs ws (H1 & H2) HF]; subst. simpl. f_equal; [|now apply IH].
    rewrite Rmax_left in H2 by lra. change 1 with (INR 1) in H2. apply INR_le in H2. lia.
Qed.

Definition wc : list R := [0; 3; 10; 10].
Definition we : list R := [1; 1; 1; 1].
Lemma sqrt2_lt : 0 < sqrt 2 < 3/2.
Proof.
  split; [apply sqrt_lt_R0; lra|].
  apply Rsqr_incrst_0; [|apply sqrt_pos|lra]. unfold Rsqr. rewrite sqrt_sqrt by lra. lra.
Qed.

Lemma ext0 : ext_normal wc we 2 0 0 = Some 2%nat.
Proof.
  unfold ext_normal, wc, we, slice, sq. simpl.
  replace (1 * 1 + 0) with 1 by lra. rewrite sqrt_1.
  destruct (Rltb_spec (0 + 0 - 2 * 1) 0); [|lra]. cbn [orb].
  replace (0 + 1 * 1) with 1 by lra. rewrite sqrt_1. replace (1 + 1 * 1) with 2 by lra.
  destruct (Rleb_spec 0 (0 + 0 + (0 + 3) - 2 * (1 + 1))); [lra|]. cbn [andb].
  pose proof sqrt2_lt.
  destruct (Rleb_spec 0 (0 + 0 + (0 + 3 + 10) - 2 * (1 + sqrt 2))); [|lra]. cbn [andb].
  destruct (Rltb_spec 0 (1 + sqrt 2)); [|lra]. reflexivity.
Qed.
Lemma ext3 : ext_normal wc we 2 3 3 = Some 3%nat.
Proof.
  unfold ext_normal, wc, we, slice, sq. simpl.
  replace (1 * 1 + 0) with 1 by lra. rewrite sqrt_1.
  destruct (Rltb_spec (10 + 0 - 2 * 1) 0); [lra|]. cbn [orb].
  destruct (Reqb_spec 1 0); [lra|]. reflexivity.
Qed.

Lemma optsig_normal_not_smallest :
  exists fl s, group_optsig_normal [1;1;1;1] [1;1;1;1] wc we 2 = Ok (fl, s) /\
    In (0, 3)%nat (removelast (bins fl)) /\
    natural_end (calc_optimal_binning [1;1;1;1] [1;1;1;1]) 0 1 /\
    reaches wc we 2 0 2 /\ 0 < bin_var we 0 2.
Proof.
  pose proof (calc_ones 4 [1;1;1;1]) as HC. cbn [repeat] in HC.
  unfold group_optsig_normal. unfold wc at 1 2, we at 1. cbn [length Nat.eqb andb negb].
  destruct (Rleb_spec 2 0); [lra|]. rewrite HC. unfold group_optsig_normal_b, opt_scan. cbn [length].
  replace (opt_loop 5 [1; 1; 1; 1]%nat (ext_normal wc we 2) 4 0 []) with (@Ok (list nat) [0; 3]%nat).
  2:{ cbn [opt_loop Nat.leb app Nat.sub]. change (opt_end [1; 1; 1; 1]%nat 3 0) with 0%nat.
      rewrite ext0. cbn [Nat.ltb Nat.leb]. change (opt_end [1; 1; 1; 1]%nat 3 3) with 3%nat.
      rewrite ext3. reflexivity. }
  cbn [bind]. eexists; eexists; split; [reflexivity|].
  split; [left; reflexivity|]. split.
  - split; [cbn; lia|]. split.
    + intros k Hk. assert (k = 0%nat) by lia. subst. cbn. lia.
    + right. exists 0%nat. split; [lia|reflexivity].
  - assert (EV : bin_var we 0 2 = 2) by (unfold bin_var, we, slice, sq; simpl; lra).
    unfold reaches. rewrite EV. unfold bin_cts, wc, slice. simpl. pose proof sqrt2_lt. lra.
Qed.
