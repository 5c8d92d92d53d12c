(** A concrete observation with one channel and a background, used in counterexamples. *)
From Verif Require Import RBase BaseFacts Grouping Scale ScaleProofs Significance Data DataProofs DataState DataFacts DataBad DataExamples Prop_Data.

Definition one_spec (c e : R) : spectrum :=
  {| s_counts := [c]; s_errors := [e]; s_poisson := true; s_exposure := 1; s_quality := [0%Z];
     s_grouping := [1%Z]; s_area := [1]; s_back := [1]; s_net_opt := None |}.
Lemma one_spec_ok c e : 0 <= c -> 0 <= e -> mk_spectrum [c] [e] true 1 None None (Scal 1) (Scal 1) None (Scal 0) = Ok (one_spec c e).
Proof.
  intros Hc He. unfold mk_spectrum, reset_zero.
  cbn [length Nat.eqb negb arr_ok arr_get repeat forallb existsb andb orb zip2 combine fst snd quality_values].
  cbn [Z.eqb Pos.eqb]. rdec. reflexivity.
Qed.
Definition one_resp : response := {| r_egrid := [1; 2]; r_emin := [1]; r_emax := [2]; r_matrix := [[1]]; r_fwhm := [1] |}.
Lemma one_resp_ok : mk_response [1; 2] [1] [2] [[1]] [1] = Ok one_resp.
Proof.
  unfold mk_response. cbn [length Nat.eqb Nat.sub Nat.leb negb forallb existsb andb orb combine fst snd strictly_increasing].
  rdec. reflexivity.
Qed.
Lemma one_wf c e : wf_spec (one_spec c e) 1. Proof. constructor; reflexivity. Qed.
Lemma one_wf_resp : wf_resp one_resp 1. Proof. constructor; try reflexivity. repeat constructor. Qed.
Lemma one_scale c e sc : 0 <= c -> (sc = s_area (one_spec c e) \/ sc = s_back (one_spec c e)) -> gsc false (s_counts (one_spec c e)) sc [true] (0, 1)%nat = 1.
Proof.
  intros Hc Hs. assert (E : sc = [1]) by (destruct Hs as [-> | ->]; reflexivity). subst sc. rewrite gsc_expected.
  - cbv [chans idx fst snd Nat.sub seq map nth isgood one_spec s_counts expected_scale good_of ch_q filter length Nat.eqb rsum fold_right ch_c ch_s].
    destruct (Reqb_spec (c + 0) 0) as [E|E]; cbn [INR]; field; lra.
  - intros k Hk _. cbn [fst snd] in Hk. replace k with 0%nat by lia. cbn. lra.
Qed.
Lemma sqrt_sq_one e : 0 <= e -> sqrt (rsum [sq e]) = e.
Proof. intros H. cbn. unfold sq. rewrite Rplus_0_r. now apply sqrt_square. Qed.
(** counts [c] with error [e], background counts [b] with error [eb], ratio 1 *)
Lemma one_obs c e b eb : 0 <= c -> 0 <= e -> 0 <= b -> 0 <= eb -> exists o, built [(1, 2)] (one_spec c e) one_resp (Some (one_spec b eb)) true o /\
  x_chan (o_exp o) = [(0, 1)%nat] /\ x_counts (o_exp o) = [c] /\ x_errors (o_exp o) = [e] /\ x_back (o_exp o) = Some ([b], [eb], [1]) /\
  x_net (o_exp o) = [c - b] /\ x_net_errors (o_exp o) = [sqrt (sq e + sq eb)] /\ x_emin (o_exp o) = [1] /\ x_emax (o_exp o) = [2] /\ x_ce (o_exp o) = [c - b].
Proof.
  intros Hc He Hb Heb. assert (Her : ranges_ok [(1, 2)]).
  { split; [discriminate|]. split; [repeat constructor; cbn; lra|]. repeat constructor. }
  assert (Ex : expose (one_spec c e) one_resp (Some (one_spec b eb)) [true] [(1, 2)] [1%Z] = Ok (exposed_of (one_spec c e) one_resp (Some (one_spec b eb)) [true] [(1, 2)] [1%Z])).
  { apply (expose_spec _ _ _ _ _ _ 1); auto using one_wf, one_wf_resp. intros b' E. injection E as <-. apply one_wf. }
  eexists. split; [split; [do 10 eexists; now apply one_spec_ok|]; split; [do 5 eexists; exact one_resp_ok|]; split; [intros b' E; injection E as <-; do 10 eexists; now apply one_spec_ok|]|].
  - unfold mk_obs. cbn [one_spec s_counts r_emin one_resp length Nat.eqb negb]. cbv zeta.
    change (good_mask true _ _) with [true]. cbn [existsb negb orb].
    rewrite (proj2 (check_erange_ok [(1, 2)] [(1, 2)]) (conj Her eq_refl)). cbn [bind].
    change (choose_grouping _ _ None) with (@Ok (list Z) [1%Z]). cbn [bind]. rewrite Ex. cbn [bind]. reflexivity.
  - cbn [o_exp].
    assert (Nb : noticedb [(1, 2)] one_resp [true] (0, 1)%nat = true).
    { unfold noticedb, in_range, gemin, gemax. cbv [existsb idx fst snd Nat.sub seq map nth one_resp r_emin r_emax lmin lmax fold_left]. rdec. reflexivity. }
    assert (L : filter (noticedb [(1, 2)] one_resp [true]) (bins [1%Z]) = [(0, 1)%nat]).
    { change (bins [1%Z]) with [(0, 1)%nat]. cbn [filter]. now rewrite Nb. }
    fold (one_spec c e) (one_spec b eb) one_resp. unfold exposed_of. cbn [x_chan x_counts x_errors x_back x_net x_net_errors x_emin x_emax x_ce]. rewrite L. cbn [map].
    assert (Rt : b_ratio (one_spec c e) (one_spec b eb) [true] (0, 1)%nat = 1).
    { unfold b_ratio. rewrite !one_scale; auto; try (now left); try (now right). cbn [one_spec s_exposure]. lra. }
    assert (C1 : forall x y, csum [true] (s_counts (one_spec x y)) (0, 1)%nat = x) by (intros x y; cbn; lra).
    assert (C2 : forall x y, 0 <= y -> c_err (one_spec x y) [true] (0, 1)%nat = y) by (intros x y Hy; exact (sqrt_sq_one y Hy)).
    rewrite Rt, !C1, !C2 by assumption. rewrite !Rmult_1_l. change (gemin one_resp (0, 1)%nat) with 1. change (gemax one_resp (0, 1)%nat) with 2. cbn [one_spec s_exposure].
    repeat split. f_equal. lra.
Qed.
