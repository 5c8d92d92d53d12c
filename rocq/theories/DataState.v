(** Invariants of observations over all histories of calls (data/base.py). *)
From Coq Require Import Permutation.
From Verif Require Import RBase BaseFacts Grouping Scale ScaleProofs Significance Data DataProofs.

Definition valid_spectrum (s : spectrum) : Prop :=
  exists c e po ex q g a b net sys, mk_spectrum c e po ex q g a b net sys = Ok s.
Definition valid_response (r : response) : Prop :=
  exists eg lo hi m fw, mk_response eg lo hi m fw = Ok r.

Lemma zip2_length {A B C} (f : A -> B -> C) a b : length (zip2 f a b) = Nat.min (length a) (length b).
Proof. revert b; induction a as [|x a IH]; intros [|y b]; try reflexivity. cbn [zip2 length]. rewrite IH. reflexivity. Qed.
Lemma fix_first_length g : length (fix_first g) = length g.
Proof. destruct g; reflexivity. Qed.
Lemma fix_first_hd g : g <> [] -> hd 0%Z (fix_first g) <> (-1)%Z.
Proof. destruct g as [|f g]; [easy|]. intros _. cbn. destruct (Z.eqb_spec f (-1)); lia. Qed.

Lemma arr_get_length a n : arr_ok a n = true -> length (arr_get a n) = n.
Proof. destruct a; cbn; intros H; [apply repeat_length|now apply Nat.eqb_eq]. Qed.

Ltac chk H := match type of H with
  | (if negb ?b then _ else _) = _ => let E := fresh "E" in destruct b eqn:E; cbn [negb] in H; [|discriminate H]
  | (if ?b then Err _ else _) = _ => let E := fresh "E" in destruct b eqn:E; [discriminate H|]
  end.

Lemma mk_spectrum_facts c e po ex q g a b net sys s : mk_spectrum c e po ex q g a b net sys = Ok s ->
  wf_spec s (length c) /\ c <> [] /\ s_counts s = c /\ 0 < s_exposure s /\
  (s_poisson s = true -> Forall (fun x => 0 <= x) c) /\
  (forall k, (k < length c)%nat -> nth k (s_quality s) 0%Z <> 1%Z -> 0 < nth k (s_area s) 0 /\ 0 < nth k (s_back s) 0) /\
  Forall (fun x => 0 <= x) (s_errors s) /\ hd 0%Z (s_grouping s) <> (-1)%Z.
Proof.
  unfold mk_spectrum. intros H.
  set (qq := match q with Some q => q | None => repeat 0%Z (length c) end) in *.
  set (gg := match g with Some g => g | None => repeat 1%Z (length c) end) in *.
  repeat chk H.
  apply Nat.eqb_eq in E, E0, E1. apply andb_true_iff in E2 as (E2 & E2c). apply andb_true_iff in E2 as (E2a & E2b).
  apply arr_get_length in E2a, E2b, E2c.
  set (ar := reset_zero (arr_get a (length c)) qq) in *. set (br := reset_zero (arr_get b (length c)) qq) in *.
  assert (La : length ar = length c) by (unfold ar, reset_zero; rewrite zip2_length; lia).
  assert (Lb : length br = length c) by (unfold br, reset_zero; rewrite zip2_length; lia).
  destruct gg as [|f0 g0] eqn:Eg; [discriminate|]. injection H as <-.
  assert (Hc : c <> []) by (intros ->; discriminate E1).
  assert (Hpos : forall sc, forallb (fun p => Rltb 0 (fst p) || (snd p =? 1)%Z)%bool (combine sc qq) = true -> length sc = length c ->
     forall k, (k < length c)%nat -> nth k qq 0%Z <> 1%Z -> 0 < nth k sc 0).
  { intros sc Hsc Hl k Hk Hq. rewrite forallb_forall in Hsc.
    assert (Hin : In (nth k sc 0, nth k qq 0%Z) (combine sc qq)).
    { rewrite <- combine_nth by lia. apply nth_In. rewrite combine_length. lia. }
    specialize (Hsc _ Hin). cbn [fst snd] in Hsc. apply orb_true_iff in Hsc as [Hsc|Hsc]; [now apply Rltb_true|].
    apply Z.eqb_eq in Hsc. contradiction. }
  cbn [s_counts s_errors s_poisson s_exposure s_quality s_grouping s_area s_back].
  assert (Le : length (if po then e else zip2 (fun e0 cs => sqrt (sq e0 + sq cs)) e (zip2 Rmult (arr_get sys (length c)) c)) = length c).
  { destruct po; [exact E|]. rewrite !zip2_length. lia. }
  split.
  { constructor; cbn [s_counts s_errors s_quality s_grouping s_area s_back]; try assumption; try reflexivity. }
  split; [exact Hc|]. split; [reflexivity|]. split.
  { match goal with X : Rleb ex 0 = false |- _ => apply Rleb_false in X; exact X end. }
  split.
  { intros ->. match goal with X : (true && existsb _ c)%bool = false |- _ => rename X into X1 end. cbn [andb] in X1.
    apply Forall_forall. intros x Hx. destruct (Rle_dec 0 x) as [|Hn]; [assumption|].
    assert (existsb (fun c0 => Rltb c0 0) c = true) by (apply existsb_exists; exists x; split; [exact Hx|apply Rltb_true; lra]).
    congruence. }
  split; [intros k Hk Hq; split; [now apply (Hpos ar)|now apply (Hpos br)]|].
  split; [|cbn [hd]; match goal with |- (if ?u then _ else ?v) <> _ => destruct u eqn:Eu; [lia|]; apply Z.eqb_neq in Eu; exact Eu end].
  destruct po.
  - apply Forall_forall. intros x Hx. destruct (Rle_dec 0 x) as [|Hn]; [assumption|].
    assert (existsb (fun c0 => Rltb c0 0) e = true) by (apply existsb_exists; exists x; split; [exact Hx|apply Rltb_true; lra]).
    congruence.
  - clear. generalize (zip2 Rmult (arr_get sys (length c)) c). intros l. revert l.
    induction e as [|y e IH]; intros [|z l]; cbn [zip2]; try constructor; [apply sqrt_pos|apply IH].
Qed.

Lemma mk_response_facts eg lo hi m fw r : mk_response eg lo hi m fw = Ok r -> wf_resp r (length lo) /\
  forall k, (k < length lo)%nat -> nth k (r_emin r) 0 <= nth k (r_emax r) 0.
Proof.
  unfold mk_response. intros H. repeat chk H. injection H as <-.
  apply Nat.eqb_eq in E. apply andb_true_iff in E0 as (_ & E0). split.
  - constructor; cbn [r_emin r_emax r_matrix]; try assumption; [reflexivity|].
    apply Forall_forall. intros row Hrow. rewrite forallb_forall in E0. now apply Nat.eqb_eq, E0.
  - cbn [r_emin r_emax]. intros k Hk. destruct (Rle_dec (nth k lo 0) (nth k hi 0)) as [|Hn]; [assumption|].
    assert (existsb (fun p => Rltb (snd p) (fst p)) (combine lo hi) = true).
    { apply existsb_exists. exists (nth k lo 0, nth k hi 0). split; [|apply Rltb_true; cbn; lra].
      rewrite <- combine_nth by lia. apply nth_In. rewrite combine_length. lia. }
    congruence.
Qed.

(** ** Invariant *)
Record obs_ok (s : spectrum) (r : response) (b : option spectrum) (good : list bool) (n : nat) (o : obs) : Prop := {
  ok_s : o_spec o = s; ok_r : o_resp o = r; ok_b : o_bk o = b; ok_g : o_good o = good;
  ok_len : length (o_grouping o) = n; ok_hd : hd 0%Z (o_grouping o) <> (-1)%Z;
  ok_exp : o_exp o = exposed_of s r b good (o_erange o) (o_grouping o);
  ok_er : exists er, check_erange er = Ok (o_erange o) }.

Section Inv.
Variables (s : spectrum) (r : response) (b : option spectrum) (good : list bool) (n : nat).
Hypothesis Ws : wf_spec s n.
Hypothesis Wr : wf_resp r n.
Hypothesis Wb : forall b', b = Some b' -> wf_spec b' n.
Hypothesis Hg : length good = n.
Hypothesis Hn : (0 < n)%nat.

Lemma choose_ok g fl : choose_grouping s r g = Ok fl -> length fl = n /\ hd 0%Z fl <> (-1)%Z.
Proof.
  unfold choose_grouping. set (g' := match g with None => _ | Some g => g end).
  intros H. chk H. apply Nat.eqb_eq in E. rewrite (wr_lo _ _ Wr) in E.
  destruct g' as [|f g''] eqn:Eg; [discriminate|].
  assert (Hfl : fl = fix_first (f :: g'')) by congruence. rewrite Hfl.
  split; [rewrite fix_first_length; exact E|apply fix_first_hd; discriminate].
Qed.

Lemma set_grouping_st_inv o g : obs_ok s r b good n o ->
  obs_ok s r b good n (fst (set_grouping_st o g)) /\
  (snd (set_grouping_st o g) <> None -> fst (set_grouping_st o g) = o) /\
  o_erange (fst (set_grouping_st o g)) = o_erange o.
Proof.
  intros [E1 E2 E3 E4 E5 E6 E7 E8]. unfold set_grouping_st. rewrite E1, E2, E3, E4.
  destruct (choose_grouping s r g) as [fl|e] eqn:E.
  - apply choose_ok in E as (A & B).
    rewrite (expose_spec s r b good (o_erange o) fl n Ws Wr Wb Hg A). cbn [fst snd].
    split; [constructor; cbn; auto|]. split; [intros H; now contradiction H|reflexivity].
  - cbn [fst snd]. split; [constructor; auto|]. split; [reflexivity|reflexivity].
Qed.

Lemma choose_fixed fl : length fl = n -> hd 0%Z fl <> (-1)%Z -> choose_grouping s r (Some fl) = Ok fl.
Proof.
  intros H1 H2. unfold choose_grouping. rewrite H1, (wr_lo _ _ Wr), Nat.eqb_refl. cbn [negb].
  destruct fl as [|f fl]; [simpl in H1; lia|]. cbn in *. destruct (Z.eqb_spec f (-1)); [contradiction|reflexivity].
Qed.

Lemma set_erange_st_inv o er : obs_ok s r b good n o ->
  obs_ok s r b good n (fst (set_erange_st o er)) /\
  match check_erange er with
  | Ok er' => snd (set_erange_st o er) = None /\ o_erange (fst (set_erange_st o er)) = er' /\
              o_grouping (fst (set_erange_st o er)) = o_grouping o
  | Err e => set_erange_st o er = (o, Some e)
  end.
Proof.
  intros Ho. pose proof Ho as [E1 E2 E3 E4 E5 E6 E7 E8]. unfold set_erange_st.
  destruct (check_erange er) as [er'|e] eqn:E; [|split; [exact Ho|reflexivity]].
  unfold set_grouping_st. cbn [o_spec o_resp o_bk o_good o_erange o_grouping o_exp].
  rewrite E1, E2, E3, E4, (choose_fixed _ E5 E6).
  rewrite (expose_spec s r b good er' _ n Ws Wr Wb Hg E5). cbn [fst snd o_erange o_grouping].
  split; [|auto]. constructor; cbn; eauto.
Qed.

Lemma step_inv o a : obs_ok s r b good n o ->
  obs_ok s r b good n (fst (step o a)) /\ (snd (step o a) <> None -> fst (step o a) = o).
Proof.
  intros Ho. destruct a as [er|g|m sc pr]; cbn [step].
  - destruct (set_erange_st_inv o er Ho) as (A & B). split; [exact A|].
    destruct (check_erange er); [destruct B as (B & _); rewrite B; intros H; now contradiction H|now rewrite B].
  - destruct (set_grouping_st_inv o g Ho) as (A & B & _). now split.
  - unfold group_st. destruct (group_flags o m sc pr) as [[fl ok]|e]; [|split; [exact Ho|reflexivity]].
    destruct (set_grouping_st_inv o (Some fl) Ho) as (A & B & _). now split.
Qed.
Lemma run_inv ops : forall o, obs_ok s r b good n o -> obs_ok s r b good n (run o ops).
Proof.
  induction ops as [|a ops IH]; intros o Ho; [exact Ho|]. cbn [run fold_left].
  apply IH. now apply step_inv.
Qed.
End Inv.

Lemma good_mask_length ib s b n : wf_spec s n -> (forall b', b = Some b' -> wf_spec b' n) ->
  length (good_mask ib s b) = n.
Proof.
  intros Ws Wb. unfold good_mask. destruct b as [b'|].
  - rewrite zip2_length, !map_length, (ws_q _ _ Ws), (ws_q _ _ (Wb _ eq_refl)). lia.
  - rewrite map_length. apply Ws.
Qed.

Lemma mk_obs_inv er s r b ib o : valid_spectrum s -> valid_response r -> (forall b', b = Some b' -> valid_spectrum b') ->
  mk_obs er s r b ib = Ok o ->
  exists n, (0 < n)%nat /\ wf_spec s n /\ wf_resp r n /\ (forall b', b = Some b' -> wf_spec b' n) /\
    length (good_mask ib s b) = n /\ obs_ok s r b (good_mask ib s b) n o.
Proof.
  intros (c & e & po & ex & q & g & a & bb & net & sys & Es) (eg & lo & hi & m & fw & Er) Hb H.
  apply mk_spectrum_facts in Es as (Ws & Hc & Ec & _). apply mk_response_facts in Er as (Wr & _).
  unfold mk_obs in H. chk H. apply Nat.eqb_eq in E. rewrite Ec, (wr_lo _ _ Wr) in E.
  rewrite <- E in Wr. chk H.
  assert (Wb : forall b', b = Some b' -> wf_spec b' (length c)).
  { intros b' ->. destruct (Hb _ eq_refl) as (c' & e' & po' & ex' & q' & g' & a' & bb' & net' & sys' & Es').
    apply mk_spectrum_facts in Es' as (Ws' & _ & Ec' & _). apply Nat.eqb_eq in E0. rewrite Ec', (wr_lo _ _ Wr) in E0.
    now rewrite E0 in Ws'. }
  assert (Hn : (0 < length c)%nat) by (destruct c; [congruence|cbn; lia]).
  pose proof (good_mask_length ib s b _ Ws Wb) as Hgm.
  exists (length c). split; [exact Hn|]. split; [exact Ws|]. split; [exact Wr|]. split; [exact Wb|]. split; [exact Hgm|].
  cbv zeta in H. set (good := good_mask ib s b) in *. chk H.
  destruct (check_erange er) as [er'|] eqn:Eer; [|discriminate]. cbn [bind] in H.
  destruct (choose_grouping s r None) as [fl|] eqn:Efl; [|discriminate]. cbn [bind] in H.
  apply (choose_ok s r _ Wr) in Efl as (A & B).
  rewrite (expose_spec s r b good er' fl _ Ws Wr Wb Hgm A) in H. cbn [bind] in H. injection H as <-.
  constructor; cbn; eauto.
Qed.
