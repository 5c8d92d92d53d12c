(** C51: simulating from existing data.  The template is any observation after any history of calls ([run o ops]);
    the generator and the model's photon spectrum are arbitrary. *)
From Coq Require Import Permutation.
From Verif Require Import RBase BaseFacts Grouping Scale ScaleProofs Significance Data DataProofs DataState DataFacts DataBad DataSim DataExamples Simulate SimulateProofs Prop_Data.

Theorem C51_layout : forall er s r b ib o ops flux es eb ib' dB dS o2, built er s r b ib o ->
  let t := run o ops in simulate_from_data flux t es eb ib' dB dS = Ok o2 ->
  o_resp o2 = o_resp t /\ o_good o2 = o_good t /\ o_erange o2 = o_erange t /\ o_grouping o2 = o_grouping t /\
  x_chan (o_exp o2) = x_chan (o_exp t) /\ x_emin (o_exp o2) = x_emin (o_exp t) /\ x_emax (o_exp o2) = x_emax (o_exp t) /\
  x_matrix (o_exp o2) = x_matrix (o_exp t) /\
  length (s_counts (o_spec o2)) = length (s_counts (o_spec t)) /\
  s_poisson (o_spec o2) = s_poisson (o_spec t) /\
  s_exposure (o_spec o2) = match es with Some x => x | None => s_exposure (o_spec t) end /\
  match o_bk t, o_bk o2 with
  | None, None => True
  | Some b0, Some b2 => s_poisson b2 = s_poisson b0 /\ length (s_counts b2) = length (s_counts b0) /\
                        s_exposure b2 = match eb with Some x => x | None => s_exposure b0 end
  | _, _ => False
  end.
Proof.
  intros er s r b ib o ops flux es eb ib' dB dS o2 H t Hs. destruct (built_inv er s r b ib o ops H) as (n & Hn & Ws & Wr & Wb & Lg & Ho).
  destruct H as (Vs & Vr & Vb & _). fold t in Ho.
  pose proof (simulate_layout s r b _ n t Vr Vb Wr Wb Lg Ho flux es eb ib' dB dS o2 Hs) as [S1 S2 S3 S4 S5 S6 S7 S8 S9 S10].
  pose proof Ho as [E1 E2 E3 E4 E5 E6 E7 E8]. rewrite E1, E2, E3, E4.
  split; [assumption|]. split; [assumption|]. split; [assumption|]. split; [assumption|].
  rewrite S10, E7. cbn [exposed_of x_chan x_emin x_emax x_matrix].
  do 4 (split; [reflexivity|]). split; [rewrite S7; symmetry; apply Ws|]. split; [assumption|]. split; [assumption|].
  destruct b as [b0|], (o_bk o2) as [b2|]; try contradiction; try exact I. destruct S9 as (A & B & C). split; [assumption|]. split; [|assumption].
  rewrite C. symmetry. apply (Wb b0 eq_refl).
Qed.
Print Assumptions C51_layout.

(** It succeeds when the channel energies go up, exposures are positive, background scales are non-zero, the folded
    model is non-negative and the generator returns arrays of the right length (non-negative for Poisson data). *)
Theorem C51_succeeds : forall er s r b ib o ops flux es eb ib' dB dS, built er s r b ib o ->
  let t := run o ops in
  0 < match es with Some x => x | None => s_exposure s end ->
  0 < match eb with Some x => x | None => match b with Some b' => s_exposure b' | None => 1 end end ->
  hd 0 (r_emin r) < last (r_emax r) 0 ->
  (forall m e, length (dS m e) = length m) -> (forall m e, length (dB m e) = length m) ->
  (s_poisson s = true -> forall m e, Forall (fun x => 0 <= x) (dS m e)) ->
  (forall b', b = Some b' -> s_poisson b' = true -> forall m e, Forall (fun x => 0 <= x) (dB m e)) ->
  (forall k, (k < length (r_emin r))%nat -> 0 <= fold_model flux (r_matrix r) k) ->
  (forall b', b = Some b' -> Forall (fun x => 0 < x) (s_area b') /\ Forall (fun x => 0 < x) (s_back b')) ->
  exists o2, simulate_from_data flux t es eb ib' dB dS = Ok o2.
Proof.
  intros er s r b ib o ops flux es eb ib' dB dS H t A1 A2 A3 A4 A5 A6 A7 A8 A9.
  destruct (built_inv er s r b ib o ops H) as (n & Hn & Ws & Wr & Wb & Lg & Ho). destruct H as (Vs & Vr & Vb & Hm).
  apply (simulate_succeeds s r b (good_mask ib s b) n t flux es eb ib' dB dS Vs Vr Vb Hn Ws Wr Wb Lg Ho).
  constructor; try assumption.
  - intros k Hk. apply A8. rewrite (wr_lo _ _ Wr). exact Hk.
  - unfold mk_obs in Hm. chk Hm. chk Hm. cbv zeta in Hm. chk Hm. reflexivity.
  - assert (G : forall q, is_good ib q = true -> q <> 1%Z) by (intros q Hq ->; destruct ib; discriminate Hq).
    assert (N : forall l k, nth k (map (is_good ib) l) false = true -> nth k l 0%Z <> 1%Z).
    { intros l k Hk. apply G. revert l Hk. induction k; intros [|x l] Hk; cbn in *; try discriminate; auto. }
    intros k Hk Hg. unfold good_mask in Hg. destruct b as [b'|].
    + assert (Z : forall u v k, nth k (zip2 andb u v) false = true -> nth k u false = true /\ nth k v false = true).
      { clear. induction u as [|x u IH]; intros [|y v] [|k]; cbn; try discriminate; [apply andb_prop|apply IH]. }
      apply Z in Hg as [G1 G2]. split; [now apply N|]. intros b2 E. injection E as <-. now apply N.
    + split; [now apply N|discriminate].
Qed.
Print Assumptions C51_succeeds.

(** Full property refuted, 1: the simulation starts from the energy range (first lower edge, last upper edge), so a
    template whose channels run downwards in energy can never be simulated, although the template itself is fine. *)
Theorem C51_descending_refuted : forall er s r b ib o ops flux es eb ib' dB dS o2, built er s r b ib o ->
  last (r_emax r) 0 <= hd 0 (r_emin r) -> simulate_from_data flux (run o ops) es eb ib' dB dS <> Ok o2.
Proof.
  intros er s r b ib o ops flux es eb ib' dB dS o2 H Hd Hs. destruct (built_inv er s r b ib o ops H) as (n & Hn & Ws & Wr & Wb & Lg & Ho).
  destruct H as (Vs & Vr & Vb & Hm). unfold simulate_from_data in Hs. rewrite (ok_r _ _ _ _ _ _ Ho) in Hs. cbv zeta in Hs.
  apply bind_ok in Hs as (o1 & Hs & _).
  assert (X : exists serr back sa sb ba bb q g, sim_core flux r (match es with Some x => x | None => s_exposure (o_spec (run o ops)) end) (s_poisson (o_spec (run o ops))) serr back sa sb ba bb q g ib' dB dS = Ok o1).
  { destruct (o_bk (run o ops)); unfold simulate in Hs; rewrite (mk_response_again r Vr) in Hs; cbn [bind] in Hs; cbv zeta in Hs;
    apply bind_ok in Hs as (serr & _ & Hs).
    - apply bind_ok in Hs as (back & _ & Hs). do 4 (apply bind_ok in Hs as (? & _ & Hs)). do 8 eexists; exact Hs.
    - cbn [bind] in Hs. do 4 (apply bind_ok in Hs as (? & _ & Hs)). do 8 eexists; exact Hs. }
  destruct X as (serr & back & sa & sb & ba & bb & q & g & X). unfold sim_core in X. cbv zeta in X.
  apply bind_ok in X as (bd & _ & X). apply bind_ok in X as (ct & _ & X). apply bind_ok in X as (ce & _ & X). apply bind_ok in X as (s2 & _ & X).
  destruct (r_emin r) as [|e0 em]; [discriminate|]. cbn [hd] in Hd. unfold mk_obs in X. chk X. chk X. cbv zeta in X. chk X.
  apply bind_ok in X as (er' & X & _). cbn in X. rewrite (proj2 (Rleb_true (last (r_emax r) 0 - e0) 0)) in X by lra. discriminate.
Qed.
Print Assumptions C51_descending_refuted.

(** 2: a background channel with zero area or background scale (legal when the channel is flagged bad) makes the
    Poisson rate undefined there, and the simulation fails. *)
Theorem C51_zero_scale_refuted : forall er s r b ib o ops flux es eb ib' dB dS o2 k, built er s r (Some b) ib o -> s_poisson s = true ->
  (k < length (s_counts s))%nat -> nth k (s_area b) 0 = 0 \/ nth k (s_back b) 0 = 0 ->
  simulate_from_data flux (run o ops) es eb ib' dB dS <> Ok o2.
Proof.
  intros er s r b ib o ops flux es eb ib' dB dS o2 k H Hp Hk Hz Hs. destruct (built_inv er s r _ ib o ops H) as (n & Hn & Ws & Wr & Wb & Lg & Ho).
  destruct H as (Vs & Vr & Vb & Hm). unfold simulate_from_data in Hs. pose proof Ho as [E1 E2 E3 E4 E5 E6 E7 E8]. rewrite E1, E2, E3 in Hs. cbv zeta in Hs.
  apply bind_ok in Hs as (o1 & Hs & _). unfold simulate in Hs. rewrite (mk_response_again r Vr), Hp in Hs. cbn [bind] in Hs; cbv zeta in Hs.
  apply bind_ok in Hs as (back & Hb & Hs).
  assert (Y : exists bc be x, back = Some (bc, be, x, s_poisson b)).
  { destruct (negb _) in Hb; [discriminate|]. destruct (s_poisson b); [injection Hb as <-; eauto|]. destruct (_ =? _)%nat in Hb; [injection Hb as <-; eauto|discriminate]. }
  destruct Y as (bc & be & x & ->). clear Hb.
  apply bind_ok in Hs as (w1 & _ & Hs); apply bind_ok in Hs as (w2 & _ & Hs); apply bind_ok in Hs as (w3 & Hw3 & Hs); apply bind_ok in Hs as (w4 & Hw4 & Hs).
  unfold coerce_scale in Hw3, Hw4. cbn [arr_ok arr_get] in Hw3, Hw4. destruct (_ =? _)%nat in Hw3; [injection Hw3 as <-|discriminate]. destruct (_ =? _)%nat in Hw4; [injection Hw4 as <-|discriminate].
  unfold sim_core in Hs. cbv zeta in Hs. apply bind_ok in Hs as (bd & _ & Hs). apply bind_ok in Hs as (ct & Hc & _).
  replace (existsb (fun x => Reqb x 0) (zip2 Rmult (map (Rmult x) (s_area b)) (s_back b))) with true in Hc; [discriminate|].
  symmetry. apply existsb_exists. exists (nth k (zip2 Rmult (map (Rmult x) (s_area b)) (s_back b)) 0).
  rewrite (ws_c _ _ Ws) in Hk. pose proof (ws_a _ _ (Wb b eq_refl)) as La. pose proof (ws_b _ _ (Wb b eq_refl)) as Lb. split.
  - apply nth_In. rewrite zip2_length, map_length. lia.
  - rewrite (DataSim.zip2_nth Rmult) by (rewrite map_length; lia). rewrite (nth_indep _ 0 (x * 0)) by (rewrite map_length; lia). rewrite (map_nth (Rmult x)).
    destruct (Reqb_spec (x * nth k (s_area b) 0 * nth k (s_back b) 0) 0) as [|N]; [reflexivity|]. exfalso. apply N. destruct Hz as [-> | ->]; lra.
Qed.
Print Assumptions C51_zero_scale_refuted.

(** The [net] classification of the template is not carried over (it is inferred again from the sign of the counts). *)
Theorem C51_net_lost : forall er s r b ib o ops flux es eb ib' dB dS o2, built er s r b ib o ->
  simulate_from_data flux (run o ops) es eb ib' dB dS = Ok o2 -> s_net_opt (o_spec o2) = None.
Proof.
  intros er s r b ib o ops flux es eb ib' dB dS o2 H Hs. destruct (built_inv er s r b ib o ops H) as (n & Hn & Ws & Wr & Wb & Lg & Ho).
  destruct H as (Vs & Vr & Vb & _).
  now pose proof (simulate_layout s r b _ n _ Vr Vb Wr Wb Lg Ho flux es eb ib' dB dS o2 Hs) as [S1 S2 S3 S4 S5 S6 S7 S8 S9 S10].
Qed.
Print Assumptions C51_net_lost.

(** Non-vacuity: the template of DataExamples.v after a regrouping, with a background *)
Definition keep : draw := fun m _ => map (fun x => Rabs x) m.
Example C51_ex : exists o o2, built [(4, 5); (1, 3)] (ex_spec 7) (ex_resp 3) (Some ex_back) true o /\
  simulate_from_data [1; 1] (run o [SetGrouping (Some [1; 1; -1; 1]%Z)]) (Some 100) None true keep keep = Ok o2.
Proof.
  destruct C18_ex as (o & H). exists o.
  destruct (C51_succeeds _ _ _ _ _ _ [SetGrouping (Some [1; 1; -1; 1]%Z)] [1; 1] (Some 100) None true keep keep H) as (o2 & E); [..|eauto].
  - lra. - cbn. lra. - cbn. lra. - intros m e. apply map_length. - intros m e. apply map_length.
  - intros _ m e. apply Forall_map, Forall_forall. intros; apply Rabs_pos. - intros b' _ _ m e. apply Forall_map, Forall_forall. intros; apply Rabs_pos.
  - intros k Hk. cbn in Hk. unfold fold_model. do 4 (destruct k as [|k]; [cbn; lra|]). lia.
  - intros b' E. injection E as <-. cbn. split; repeat constructor; lra.
Qed.

(** witnesses of the two refutations: a response with channels running down in energy, and a background with a zero
    scale in a channel flagged bad *)
Definition down_resp : response :=
  {| r_egrid := [1; 2; 3]; r_emin := [4; 3; 2; 1]; r_emax := [5; 4; 3; 2]; r_matrix := [[1; 0; 0; 0]; [1; 2; 3; 4]]; r_fwhm := [1; 1; 1; 1] |}.
Example C51_descending_ex : exists o, built [(4, 5); (1, 3)] (ex_spec 7) down_resp (Some ex_back) true o /\ last (r_emax down_resp) 0 <= hd 0 (r_emin down_resp).
Proof.
  destruct (mk_obs_defined [(4, 5); (1, 3)] (ex_spec 7) down_resp (Some ex_back) true 4) as (o & E); auto using ex_wf_spec.
  - constructor; try reflexivity. repeat constructor.
  - intros b' H. injection H as <-. exact ex_wf_back.
  - split; [discriminate|]. split; [repeat constructor; cbn; lra|].
    constructor; [constructor; [right; cbn; lra|constructor]|]. constructor; constructor.
  - exists o. split; [|cbn; lra]. split; [apply ex_spec_valid; lra|]. split; [|split; [|exact E]].
    + exists [1; 2; 3], [4; 3; 2; 1], [5; 4; 3; 2], [[1; 0; 0; 0]; [1; 2; 3; 4]], [1; 1; 1; 1].
      unfold mk_response. cbn [length Nat.eqb Nat.sub Nat.leb negb forallb existsb andb orb combine fst snd strictly_increasing]. rdec. reflexivity.
    + intros b' H. injection H as <-. exact ex_back_valid.
Qed.
Definition zero_back : spectrum :=
  {| s_counts := [1; 2; 0; 1]; s_errors := [1; 1; 1; 1]; s_poisson := true; s_exposure := 20; s_quality := [0;0;1;0]%Z;
     s_grouping := [1; 1; 1; 1]%Z; s_area := [1; 1; 0; 1]; s_back := [1; 1; 1; 1]; s_net_opt := None |}.
Example C51_zero_scale_ex : exists o, built [(4, 5); (1, 3)] (ex_spec 7) (ex_resp 3) (Some zero_back) true o /\ nth 2 (s_area zero_back) 0 = 0.
Proof.
  destruct (mk_obs_defined [(4, 5); (1, 3)] (ex_spec 7) (ex_resp 3) (Some zero_back) true 4) as (o & E); auto using ex_wf_spec, ex_wf_resp.
  - intros b' H. injection H as <-. constructor; reflexivity.
  - split; [discriminate|]. split; [repeat constructor; cbn; lra|].
    constructor; [constructor; [right; cbn; lra|constructor]|]. constructor; constructor.
  - exists o. split; [|reflexivity]. split; [apply ex_spec_valid; lra|]. split; [apply ex_resp_valid|split; [|exact E]].
    intros b' H. injection H as <-.
    exists [1; 2; 0; 1], [1; 1; 1; 1], true, 20, (Some [0;0;1;0]%Z), None, (Arr [1; 1; 0; 1]), (Scal 1), None, (Scal 0).
    unfold mk_spectrum, reset_zero.
    cbn [length Nat.eqb negb arr_ok arr_get repeat forallb existsb andb orb zip2 combine fst snd quality_values].
    cbn [Z.eqb Pos.eqb]. rdec. reflexivity.
Qed.
