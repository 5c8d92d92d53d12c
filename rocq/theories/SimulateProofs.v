(** Lemmas on simulated observations. *)
From Coq Require Import Permutation.
From Verif Require Import RBase BaseFacts Grouping Scale ScaleProofs Significance Data DataProofs DataState DataFacts DataBad DataSim DataExamples Simulate.

Lemma mk_response_again r : valid_response r -> mk_response (r_egrid r) (r_emin r) (r_emax r) (r_matrix r) (r_fwhm r) = Ok r.
Proof.
  intros (eg & lo & hi & m & fw & E). pose proof E as E'. unfold mk_response in E'. repeat chk E'. injection E' as <-. exact E.
Qed.

Lemma mk_spectrum_fields c e po ex q g a b net sys s : mk_spectrum c e po ex (Some q) (Some g) a b net sys = Ok s ->
  s_counts s = c /\ s_poisson s = po /\ s_exposure s = ex /\ s_quality s = q /\ s_grouping s = fix_first g /\
  s_area s = reset_zero (arr_get a (length c)) q /\ s_back s = reset_zero (arr_get b (length c)) q /\ s_net_opt s = net.
Proof.
  intros H. unfold mk_spectrum in H. cbv zeta in H. repeat chk H. destruct g; [discriminate|]. injection H as <-. cbn. auto 10.
Qed.

Lemma valid_spectrum_nonneg s n : valid_spectrum s -> wf_spec s n ->
  Forall (fun x => 0 <= x) (s_area s) /\ Forall (fun x => 0 <= x) (s_back s) /\ Forall (fun x => 0 <= x) (s_errors s) /\ 0 < s_exposure s /\
  (forall k, (k < n)%nat -> nth k (s_quality s) 0%Z <> 1%Z -> 0 < nth k (s_area s) 0 /\ 0 < nth k (s_back s) 0).
Proof.
  intros (c & e & po & ex & q & g & a & b & net & sys & H) W. pose proof H as H'. apply mk_spectrum_facts in H' as (W' & _ & Ec & Hx & _ & Hp & He & _).
  assert (n = length c) by (rewrite <- (ws_c _ _ W), Ec; reflexivity). subst n.
  assert (NN : forall l, existsb (fun e => Rltb e 0) l = false -> Forall (fun e => 0 <= e) l).
  { induction l as [|x l IH]; cbn; [constructor|]. intros X. apply orb_false_iff in X as [A B]. apply Rltb_false in A. constructor; auto. }
  unfold mk_spectrum in H. cbv zeta in H. repeat chk H.
  match goal with X : existsb _ (reset_zero (arr_get a _) _) = false, Y : existsb _ (reset_zero (arr_get b _) _) = false |- _ => apply NN in X; apply NN in Y; rename X into Xa; rename Y into Xb end.
  split; [|split; [|split; [exact He|split; [exact Hx|exact Hp]]]].
  - injection H as <-. exact Xa.
  - injection H as <-. exact Xb.
Qed.

Lemma reset_zero_id sc q n : length sc = n -> length q = n -> (forall k, (k < n)%nat -> nth k q 0%Z <> 1%Z -> 0 < nth k sc 0) -> reset_zero sc q = sc.
Proof.
  revert q n. unfold reset_zero. induction sc as [|x sc IH]; intros [|y q] n L L' P; cbn in *; subst; try discriminate; [reflexivity|]. f_equal.
  - destruct (Reqb_spec x 0) as [->|]; [|reflexivity]. destruct (Z.eqb_spec y 1); [reflexivity|]. specialize (P 0%nat ltac:(lia)). cbn in P. specialize (P n). lra.
  - apply (IH q (length sc)); [reflexivity|lia|]. intros k Hk. apply (P (S k)). lia.
Qed.

Definition flag (good : list bool) : list Z := map (fun x : bool => if x then 0%Z else 1%Z) good.
Lemma flag_good ib good : map (is_good ib) (flag good) = good.
Proof. unfold flag. rewrite map_map. rewrite <- (map_id good) at 2. apply map_ext. intros []; destruct ib; reflexivity. Qed.
Lemma flag_nth good k : nth k (flag good) 0%Z <> 1%Z <-> ((k < length good)%nat -> nth k good false = true).
Proof.
  unfold flag. revert k; induction good as [|x good IH]; intros [|k]; cbn.
  - split; [intros; lia|discriminate].
  - split; [intros; lia|discriminate].
  - destruct x; split; intros H; try discriminate; try congruence; try reflexivity. specialize (H ltac:(lia)). discriminate.
  - rewrite IH. split; intros H L; apply H; lia.
Qed.
Lemma andb_self good : zip2 andb good good = good.
Proof. induction good as [|[] g IH]; cbn; congruence. Qed.

Lemma fix_first_id g : hd 0%Z g <> (-1)%Z -> fix_first g = g.
Proof. destruct g as [|f g]; [reflexivity|]. cbn. intros H. now destruct (Z.eqb_spec f (-1)). Qed.

Lemma sort_fixed er : StronglySorted before er -> Forall (fun a => fst a < snd a) er -> sort_erange er = er.
Proof.
  induction 1 as [|x l Hs IH Hx]; intros F; [reflexivity|]. inversion F as [|? ? Hlt F']; subst.
  unfold sort_erange in *. cbn [fold_right]. rewrite IH by assumption. destruct l as [|y l]; [reflexivity|]. cbn [insert_range].
  inversion Hx as [|? ? Hxy]; subst. unfold before in Hxy. rewrite (proj2 (Rleb_true (fst x) (fst y))) by lra. reflexivity.
Qed.
Lemma check_again er er' : check_erange er = Ok er' -> check_erange er' = Ok er'.
Proof.
  intros H. apply check_erange_ok in H as ((A & B & C) & ->). apply check_erange_ok.
  assert (F : Forall (fun a => fst a < snd a) (sort_erange er)) by now apply (Permutation_Forall (Permutation_sym (sort_perm er))).
  split.
  - split; [|split; [exact F|now apply (FOP_perm _ _ (Permutation_sym (sort_perm er)))]].
    intros E. apply A. pose proof (sort_perm er) as P. rewrite E in P. now apply Permutation_nil.
  - symmetry. apply sort_fixed; [now apply sort_before|exact F].
Qed.

(** the observation made of simulated spectra that carry the template's flags *)
Lemma sim_layout er0 s' r b' ib good fl er n o1 o2 :
  valid_spectrum s' -> valid_response r -> (forall b, b' = Some b -> valid_spectrum b) ->
  s_quality s' = flag good -> (forall b, b' = Some b -> s_quality b = flag good) ->
  s_grouping s' = fl -> hd 0%Z fl <> (-1)%Z -> length (r_emin r) = n ->
  mk_obs er0 s' r b' ib = Ok o1 -> check_erange er = Ok er -> set_erange o1 er = Ok o2 ->
  o_spec o2 = s' /\ o_resp o2 = r /\ o_bk o2 = b' /\ o_good o2 = good /\ o_erange o2 = er /\ o_grouping o2 = fl /\
  o_exp o2 = exposed_of s' r b' good er fl.
Proof.
  intros Vs Vr Vb Q Qb G Hhd Ln Ho Her Hs.
  destruct (mk_obs_inv er0 s' r b' ib o1 Vs Vr Vb Ho) as (n' & Hn & Ws & Wr & Wb & Lg & OK).
  assert (n' = n) by (rewrite <- Ln; symmetry; exact (wr_lo _ _ Wr)). subst n'.
  assert (Eg : good_mask ib s' b' = good).
  { unfold good_mask. rewrite Q, flag_good. destruct b' as [b|]; [|reflexivity]. rewrite (Qb b eq_refl), flag_good. apply andb_self. }
  rewrite Eg in *.
  assert (Efl : o_grouping o1 = fl).
  { unfold mk_obs in Ho. chk Ho. chk Ho. cbv zeta in Ho. chk Ho. destruct (check_erange er0); [|discriminate]. cbn [bind] in Ho.
    destruct (choose_grouping s' r None) as [fl'|] eqn:Ec; [|discriminate]. cbn [bind] in Ho.
    destruct (expose _ _ _ _ _ _) as [xx|]; [|discriminate]. cbn [bind] in Ho. injection Ho as <-. cbn [o_grouping].
    unfold choose_grouping in Ec. rewrite G in Ec. cbv zeta in Ec. chk Ec. destruct fl as [|f fl]; [discriminate|]. injection Ec as <-.
    change (fix_first (f :: fl) = f :: fl). now apply fix_first_id. }
  destruct OK as [E1 E2 E3 E4 E5 E6 E7 E8]. unfold set_erange in Hs. rewrite Her in Hs. cbn [bind] in Hs. unfold set_grouping in Hs.
  cbn [o_spec o_resp o_bk o_good o_erange o_grouping o_exp] in Hs. rewrite E1, E2, E3, E4 in Hs.
  rewrite (choose_fixed s' r good _ Wr eq_refl Hn _ E5 E6) in Hs. cbn [bind] in Hs. rewrite (expose_spec s' r b' good er _ _ Ws Wr Wb eq_refl E5) in Hs. cbn [bind] in Hs.
  injection Hs as <-. cbn [o_spec o_resp o_bk o_good o_erange o_grouping o_exp]. rewrite Efl. auto 10.
Qed.

Lemma bind_ok {A B} (x : res A) (f : A -> res B) y : bind x f = Ok y -> exists a, x = Ok a /\ f a = Ok y.
Proof. destruct x; cbn; [eauto|discriminate]. Qed.

Lemma spec_of_fields good fl c e po ex a bb s2 : hd 0%Z fl <> (-1)%Z ->
  mk_spectrum c e po ex (Some (flag good)) (Some fl) (Arr a) (Arr bb) None (Scal 0) = Ok s2 ->
  valid_spectrum s2 /\ s_quality s2 = flag good /\ s_grouping s2 = fl /\ s_poisson s2 = po /\ s_exposure s2 = ex /\ s_net_opt s2 = None /\ s_counts s2 = c /\
  length (s_quality s2) = length c.
Proof.
  intros Hfl H. split; [do 10 eexists; exact H|]. pose proof H as H'. apply mk_spectrum_fields in H as (A & B & C & D & E & _ & _ & F).
  apply mk_spectrum_facts in H' as (W & _). rewrite (fix_first_id _ Hfl) in E. split; [assumption|]. split; [assumption|]. split; [assumption|]. split; [assumption|]. split; [assumption|]. split; [assumption|exact (ws_q _ _ W)].
Qed.

Section Template.
Variables (er : erange) (s : spectrum) (r : response) (b : option spectrum) (good : list bool) (n : nat) (o : obs).
Hypothesis Vs : valid_spectrum s.
Hypothesis Vr : valid_response r.
Hypothesis Vb : forall b', b = Some b' -> valid_spectrum b'.
Hypothesis Hn : (0 < n)%nat.
Hypothesis Ws : wf_spec s n.
Hypothesis Wr : wf_resp r n.
Hypothesis Wb : forall b', b = Some b' -> wf_spec b' n.
Hypothesis Lg : length good = n.
Hypothesis OK : obs_ok s r b good n o.

Record sim_of (es eb : option R) (o2 : obs) : Prop := {
  so_r : o_resp o2 = r; so_good : o_good o2 = good; so_er : o_erange o2 = o_erange o; so_fl : o_grouping o2 = o_grouping o;
  so_p : s_poisson (o_spec o2) = s_poisson s;
  so_es : s_exposure (o_spec o2) = match es with Some x => x | None => s_exposure s end;
  so_len : length (s_counts (o_spec o2)) = n;
  so_net : s_net_opt (o_spec o2) = None;
  so_b : match b, o_bk o2 with
         | None, None => True
         | Some b0, Some b2 => s_poisson b2 = s_poisson b0 /\ s_exposure b2 = (match eb with Some x => x | None => s_exposure b0 end) /\ length (s_counts b2) = n
         | _, _ => False end;
  so_exp : o_exp o2 = exposed_of (o_spec o2) r (o_bk o2) good (o_erange o) (o_grouping o) }.


Lemma simulate_layout flux es eb ib dB dS o2 : simulate_from_data flux o es eb ib dB dS = Ok o2 -> sim_of es eb o2.
Proof.
  intros H. unfold simulate_from_data in H. pose proof OK as [E1 E2 E3 E4 E5 E6 E7 (er0 & E8)]. rewrite E1, E2, E3, E4 in H. fold (flag good) in H.
  apply bind_ok in H as (o1 & H & Hs).
  set (es' := match es with Some x => x | None => s_exposure s end) in *.
  assert (X : exists s2 b2 er1, valid_spectrum s2 /\ (forall x, b2 = Some x -> valid_spectrum x) /\ mk_obs er1 s2 r b2 ib = Ok o1 /\
     s_quality s2 = flag good /\ s_grouping s2 = o_grouping o /\ s_poisson s2 = s_poisson s /\ s_exposure s2 = es' /\ s_net_opt s2 = None /\ length (s_counts s2) = n /\
     match b, b2 with None, None => True | Some b0, Some x => s_quality x = flag good /\ s_poisson x = s_poisson b0 /\ s_exposure x = (match eb with Some x => x | None => s_exposure b0 end) /\ length (s_counts x) = n
     | _, _ => False end).
  { assert (Lf : length (flag good) = n) by (unfold flag; now rewrite map_length).
    destruct b as [b0|] eqn:Eb; unfold simulate in H; rewrite (mk_response_again r Vr) in H; cbn [bind] in H; cbv zeta in H; rewrite (wr_lo _ _ Wr) in H.
    - apply bind_ok in H as (serr & _ & H). apply bind_ok in H as (back & Hb & H).
      assert (Ebk : exists bc be, back = Some (bc, be, match eb with Some x => x | None => s_exposure b0 end, s_poisson b0)).
      { destruct (negb (length (s_counts b0) =? n)) in Hb; [discriminate|]. destruct (s_poisson b0); [injection Hb as <-; eauto|].
        destruct (length (s_errors b0) =? n)%nat in Hb; [injection Hb as <-; eauto|discriminate]. }
      destruct Ebk as (bc & be & ->). clear Hb.
      do 4 (apply bind_ok in H as (? & _ & H)). unfold sim_core in H. cbv zeta in H.
      apply bind_ok in H as (bd & Hbd & H). apply bind_ok in Hbd as (ce & _ & Hbd). apply bind_ok in Hbd as (b2 & Hb2 & Hbd). injection Hbd as <-.
      apply bind_ok in H as (cts & _ & H). apply bind_ok in H as (ce2 & _ & H). apply bind_ok in H as (s2 & Hs2 & H).
      apply (spec_of_fields _ _ _ _ _ _ _ _ _ E6) in Hs2 as (A1 & A2 & A3 & A4 & A5 & A6 & A7 & A8). apply (spec_of_fields _ _ _ _ _ _ _ _ _ E6) in Hb2 as (B1 & B2 & B3 & B4 & B5 & B6 & B7 & B8).
      destruct (r_emin r) as [|e0 ?] eqn:Em; [discriminate|]. exists s2, (Some b2). eexists. split; [assumption|]. split; [intros y Hy; injection Hy as <-; assumption|].
      split; [exact H|]. rewrite A7, <- A8, A2, Lf, B7, <- B8, B2, Lf. auto 15.
    - apply bind_ok in H as (serr & _ & H). cbn [bind] in H.
      do 4 (apply bind_ok in H as (? & _ & H)). unfold sim_core in H. cbv zeta in H. cbn [bind] in H.
      apply bind_ok in H as (ce2 & _ & H). apply bind_ok in H as (s2 & Hs2 & H).
      apply (spec_of_fields _ _ _ _ _ _ _ _ _ E6) in Hs2 as (A1 & A2 & A3 & A4 & A5 & A6 & A7 & A8).
      destruct (r_emin r) as [|e0 ?] eqn:Em; [discriminate|]. exists s2, None. eexists. split; [assumption|]. split; [discriminate|].
      split; [exact H|]. rewrite A7, <- A8, A2, Lf. auto 15. }
  destruct X as (s2 & b2 & er1 & V2 & Vb2 & Hobs & Q & G & P & Ex & Net & Lc & Hb).
  assert (Qb : forall x, b2 = Some x -> s_quality x = flag good) by (intros x ->; destruct b; [tauto|contradiction]).
  destruct (sim_layout er1 s2 r b2 ib good (o_grouping o) (o_erange o) n o1 o2 V2 Vr Vb2 Q Qb G E6 (wr_lo _ _ Wr) Hobs (check_again _ _ E8) Hs)
    as (F1 & F2 & F3 & F4 & F5 & F6 & F7).
  constructor; rewrite ?F1, ?F3; try assumption. destruct b, b2; try contradiction; tauto.
Qed.

(** ** Success *)
Lemma mk_spectrum_succeeds c e po ex a bb : length c = n -> length e = n -> length a = n -> length bb = n -> 0 < ex ->
  (po = true -> Forall (fun x => 0 <= x) c) -> Forall (fun x => 0 <= x) e -> Forall (fun x => 0 <= x) a -> Forall (fun x => 0 <= x) bb ->
  (forall k, (k < n)%nat -> nth k good false = true -> 0 < nth k a 0 /\ 0 < nth k bb 0) ->
  exists s2, mk_spectrum c e po ex (Some (flag good)) (Some (o_grouping o)) (Arr a) (Arr bb) None (Scal 0) = Ok s2.
Proof.
  intros Lc Le La Lb Hx Hc He Ha Hb Hpos. assert (Lf : length (flag good) = n) by (unfold flag; now rewrite map_length).
  assert (NN : forall l, Forall (fun e => 0 <= e) l -> existsb (fun e => Rltb e 0) l = false).
  { induction 1 as [|x l Hl _ IH]; [reflexivity|]. cbn. rewrite IH. now rewrite (proj2 (Rltb_false x 0)). }
  assert (Pos' : forall k, (k < n)%nat -> nth k (flag good) 0%Z <> 1%Z -> nth k good false = true) by (intros k Hk Hq; apply flag_nth; [exact Hq|lia]).
  unfold mk_spectrum. cbv zeta. rewrite Lc, Le, Lf, (ok_len _ _ _ _ _ _ OK), Nat.eqb_refl. cbn [negb arr_ok arr_get].
  rewrite La, Lb, Nat.eqb_refl. cbn [andb negb].
  replace (forallb _ (flag good)) with true.
  2:{ symmetry. apply forallb_forall. intros q Hq. unfold flag in Hq. apply in_map_iff in Hq as (x & <- & _). now destruct x. }
  cbn [negb]. replace (po && existsb (fun c0 => Rltb c0 0) c)%bool with false by (destruct po; [symmetry; cbn; auto|reflexivity]).
  rewrite (NN e He). replace (existsb (fun e0 => Rltb e0 0) (repeat 0 n)) with false.
  2:{ symmetry. apply NN. apply Forall_forall. intros x Hin. apply repeat_spec in Hin. lra. }
  rewrite (proj2 (Rleb_false ex 0)) by assumption.
  rewrite (reset_zero_id a (flag good) n La Lf) by (intros k Hk Hq; apply Hpos; auto).
  rewrite (reset_zero_id bb (flag good) n Lb Lf) by (intros k Hk Hq; apply Hpos; auto).
  rewrite (NN a Ha), (NN bb Hb).
  assert (PP : forall sc, length sc = n -> (forall k, (k < n)%nat -> nth k good false = true -> 0 < nth k sc 0) ->
    forallb (fun p => (Rltb 0 (fst p) || (snd p =? 1)%Z)%bool) (combine sc (flag good)) = true).
  { intros sc Lsc Hsc. apply forallb_forall. intros [x q] Hin. apply (In_nth _ _ (0, 0%Z)) in Hin as (k & Hk & E). rewrite combine_length in Hk.
    rewrite combine_nth in E by lia. injection E as <- <-. cbn [fst snd].
    destruct (Z.eqb_spec (nth k (flag good) 0%Z) 1) as [|N]; [apply orb_true_r|]. rewrite (proj2 (Rltb_true _ _)); [reflexivity|]. apply Hsc; [lia|]. apply Pos'; [lia|exact N]. }
  rewrite (PP a La) by (intros; now apply Hpos). rewrite (PP bb Lb) by (intros; now apply Hpos). cbn [negb].
  destruct (o_grouping o) as [|f fl] eqn:Eg; [|eauto]. pose proof (ok_len _ _ _ _ _ _ OK) as L. rewrite Eg in L. cbn in L. lia.
Qed.

(** what the success of a simulation needs from the caller, the template and the generator *)
Record sim_ready (flux : list R) (es eb : R) (dB dS : draw) : Prop := {
  rd_es : 0 < es; rd_eb : 0 < eb; rd_er : hd 0 (r_emin r) < last (r_emax r) 0;
  rd_dS : forall m e, length (dS m e) = length m; rd_dB : forall m e, length (dB m e) = length m;
  rd_pS : s_poisson s = true -> forall m e, Forall (fun x => 0 <= x) (dS m e);
  rd_pB : forall b', b = Some b' -> s_poisson b' = true -> forall m e, Forall (fun x => 0 <= x) (dB m e);
  rd_flux : forall k, (k < n)%nat -> 0 <= fold_model flux (r_matrix r) k;
  rd_good : existsb (fun x => x) good = true;
  rd_q : forall k, (k < n)%nat -> nth k good false = true -> nth k (s_quality s) 0%Z <> 1%Z /\ forall b', b = Some b' -> nth k (s_quality b') 0%Z <> 1%Z;
  rd_den : forall b', b = Some b' -> Forall (fun x => 0 < x) (s_area b') /\ Forall (fun x => 0 < x) (s_back b') }.

Lemma zip2_Forall {A B C} (P : A -> Prop) (Q : B -> Prop) (S : C -> Prop) (f : A -> B -> C) a b' :
  (forall x y, P x -> Q y -> S (f x y)) -> Forall P a -> Forall Q b' -> Forall S (zip2 f a b').
Proof. intros H Fa. revert b'. induction Fa; intros b' Fb; destruct Fb; cbn; constructor; auto. Qed.

Lemma nonneg_existsb l : Forall (fun x => 0 <= x) l -> existsb (fun x => Rltb x 0) l = false.
Proof. induction 1 as [|x l Hx _ IH]; [reflexivity|]. cbn. rewrite IH. now rewrite (proj2 (Rltb_false x 0)). Qed.

Lemma sim_core_ok flux es eb ib dB dS serr back ba bb : sim_ready flux es eb dB dS ->
  (s_poisson s = false -> serr = s_errors s) ->
  match b, back with
  | None, None => True
  | Some b', Some (bc, be, eb', bp) => eb' = eb /\ bp = s_poisson b' /\ length bc = n /\ (s_poisson s = true -> Forall (fun x => 0 <= x) bc) /\
      (bp = true -> Forall (fun x => 0 <= x) bc) /\ (bp = false -> be = s_errors b') /\ ba = s_area b' /\ bb = s_back b'
  | _, _ => False
  end ->
  exists o1, sim_core flux r es (s_poisson s) serr back (s_area s) (s_back s) ba bb (Some (flag good)) (Some (o_grouping o)) ib dB dS = Ok o1.
Proof.
  intros RD Hserr Hback. destruct RD as [Hes Heb Hr LdS LdB PS PB Fd Hg Hq Hden]. destruct (valid_spectrum_nonneg s n Vs Ws) as (Na & Nb & Ne & Nx & Np).
  unfold sim_core. cbv zeta. rewrite (wr_lo _ _ Wr).
  set (folded := map (fold_model flux (r_matrix r)) (seq 0 n)).
  assert (Ff : Forall (fun x => 0 <= x) folded).
  { unfold folded. apply Forall_map, Forall_forall. intros k Hk. apply in_seq in Hk. apply Fd. lia. }
  assert (Lf : length folded = n) by (unfold folded; now rewrite map_length, seq_length).
  set (counts := zip2 Rmult (map (Rmult es) folded) (s_area s)).
  assert (Fc : Forall (fun x => 0 <= x) counts).
  { unfold counts. apply (zip2_Forall (fun x => 0 <= x) (fun x => 0 <= x)); [intros; now apply Rmult_le_pos| |assumption].
    apply Forall_map. eapply Forall_impl; [|exact Ff]. cbn. intros x Hx. apply Rmult_le_pos; lra. }
  assert (Lc : length counts = n) by (unfold counts; rewrite zip2_length, map_length, Lf, (ws_a _ _ Ws); lia).
  (* background *)
  assert (X : exists bdata cts, (match back with
        | None => Ok None
        | Some (bc, be, eb, bp) =>
            bind (if bp then bind (rng_poisson dB bc) (fun x => Ok (x, map sqrt x)) else Ok (dB bc be, be)) (fun ce =>
            bind (mk_spectrum (fst ce) (snd ce) bp eb (Some (flag good)) (Some (o_grouping o)) (Arr ba) (Arr bb) None (Scal 0)) (fun s => Ok (Some s)))
        end) = Ok bdata /\ (match back with
        | None => Ok counts
        | Some (bc, be, eb, bp) =>
            let num := zip2 Rmult (map (Rmult es) (s_area s)) (s_back s) in
            let den := zip2 Rmult (map (Rmult eb) ba) bb in
            if (s_poisson s && existsb (fun x => Reqb x 0) den)%bool then Err ValueError
            else Ok (zip2 Rplus counts (zip2 Rmult (zip2 Rdiv num den) bc))
        end) = Ok cts /\ length cts = n /\ (s_poisson s = true -> Forall (fun x => 0 <= x) cts) /\
        (forall x, bdata = Some x -> wf_spec x n /\ s_quality x = flag good)).
  { destruct back as [[[[bc be] eb'] bp]|].
    - assert (Y : exists b', b = Some b' /\ eb' = eb /\ bp = s_poisson b' /\ length bc = n /\ (s_poisson s = true -> Forall (fun x => 0 <= x) bc) /\
        (bp = true -> Forall (fun x => 0 <= x) bc) /\ (bp = false -> be = s_errors b') /\ ba = s_area b' /\ bb = s_back b').
      { revert Hback. clear. intros H. destruct b as [b'|]; [|contradiction]. exists b'. split; [reflexivity|exact H]. }
      destruct Y as (b' & Eb & -> & -> & Lbc & Cs & Cb & Eb' & -> & ->). clear Hback.
      destruct (valid_spectrum_nonneg b' n (Vb b' Eb) (Wb b' Eb)) as (Nab & Nbb & Neb & Nxb & Npb). destruct (Hden b' Eb) as [Da Db].
      assert (Hposb : forall k, (k < n)%nat -> nth k good false = true -> 0 < nth k (s_area b') 0 /\ 0 < nth k (s_back b') 0).
      { intros k Hk Hgk. apply Npb; [assumption|]. destruct (Hq k Hk Hgk) as [_ Q]. exact (Q b' Eb). }
      assert (Z : exists ce, (if s_poisson b' then bind (rng_poisson dB bc) (fun x => Ok (x, map sqrt x)) else Ok (dB bc be, be)) = Ok ce /\
          length (fst ce) = n /\ length (snd ce) = n /\ (s_poisson b' = true -> Forall (fun x => 0 <= x) (fst ce)) /\ Forall (fun x => 0 <= x) (snd ce)).
      { destruct (s_poisson b') eqn:Ep.
        - unfold rng_poisson. rewrite (nonneg_existsb bc) by auto. cbn [bind]. eexists. split; [reflexivity|]. cbn [fst snd]. rewrite map_length, LdB. repeat (split; [assumption|]).
          split; [intros _; exact (PB b' Eb Ep _ _)|]. apply Forall_map, Forall_forall. intros; apply sqrt_pos.
        - eexists. split; [reflexivity|]. cbn [fst snd]. rewrite LdB, (Eb' eq_refl). split; [assumption|]. split; [exact (ws_e _ _ (Wb b' Eb))|]. split; [discriminate|assumption]. }
      destruct Z as (ce & -> & L1 & L2 & P1 & P2). cbn [bind].
      destruct (mk_spectrum_succeeds (fst ce) (snd ce) (s_poisson b') eb (s_area b') (s_back b') L1 L2 (ws_a _ _ (Wb b' Eb)) (ws_b _ _ (Wb b' Eb)) Heb P1 P2 Nab Nbb Hposb) as (b2 & E2).
      rewrite E2. cbn [bind]. exists (Some b2). cbv zeta.
      set (den := zip2 Rmult (map (Rmult eb) (s_area b')) (s_back b')).
      assert (Dpos : Forall (fun x => 0 < x) den).
      { unfold den. apply (zip2_Forall (fun x => 0 < x) (fun x => 0 < x)); [intros; now apply Rmult_lt_0_compat| |assumption]. apply Forall_map. eapply Forall_impl; [|exact Da]. cbn. intros; now apply Rmult_lt_0_compat. }
      replace (existsb (fun x => Reqb x 0) den) with false.
      2:{ symmetry. clear - Dpos. induction Dpos as [|x l Hx _ IH]; [reflexivity|]. cbn. rewrite IH. destruct (Reqb_spec x 0); [lra|reflexivity]. }
      rewrite andb_false_r. eexists. split; [reflexivity|]. split; [reflexivity|].
      assert (Lden : length den = n) by (unfold den; rewrite zip2_length, map_length, (ws_a _ _ (Wb b' Eb)), (ws_b _ _ (Wb b' Eb)); lia).
      split; [rewrite !zip2_length, map_length, Lden, Lc, Lbc, (ws_a _ _ Ws), (ws_b _ _ Ws); lia|]. split.
      + intros Hs. apply (zip2_Forall (fun x => 0 <= x) (fun x => 0 <= x)); [intros; lra|assumption|].
        apply (zip2_Forall (fun x => 0 <= x) (fun x => 0 <= x)); [intros; now apply Rmult_le_pos| |auto].
        apply (zip2_Forall (fun x => 0 <= x) (fun x => 0 < x)); [|apply (zip2_Forall (fun x => 0 <= x) (fun x => 0 <= x)); [intros; now apply Rmult_le_pos| |assumption]|exact Dpos].
        * intros x y Hx Hy. unfold Rdiv. apply Rmult_le_pos; [assumption|]. left. now apply Rinv_0_lt_compat.
        * apply Forall_map. eapply Forall_impl; [|exact Na]. cbn. intros; apply Rmult_le_pos; lra.
      + intros y Hy. injection Hy as <-. pose proof E2 as F2. apply mk_spectrum_fields in F2 as (_ & _ & _ & Q2 & _). apply mk_spectrum_facts in E2 as (W2 & _). rewrite L1 in W2. auto.
    - exists None, counts. split; [reflexivity|]. split; [reflexivity|]. split; [assumption|]. split; [auto|discriminate]. }
  cbv zeta in X. destruct X as (bdata & cts & -> & -> & Lcts & Pcts & Wbd). cbn [bind].
  assert (Z : exists ce, (if s_poisson s then bind (rng_poisson dS cts) (fun x => Ok (x, map sqrt x)) else Ok (dS cts serr, serr)) = Ok ce /\
      length (fst ce) = n /\ length (snd ce) = n /\ (s_poisson s = true -> Forall (fun x => 0 <= x) (fst ce)) /\ Forall (fun x => 0 <= x) (snd ce)).
  { destruct (s_poisson s) eqn:Ep.
    - unfold rng_poisson. rewrite (nonneg_existsb cts) by auto. cbn [bind]. eexists. split; [reflexivity|]. cbn [fst snd]. rewrite map_length, LdS. repeat (split; [assumption|]).
      split; [intros _; exact (PS eq_refl _ _)|]. apply Forall_map, Forall_forall. intros; apply sqrt_pos.
    - eexists. split; [reflexivity|]. cbn [fst snd]. rewrite LdS, (Hserr eq_refl). split; [assumption|]. split; [exact (ws_e _ _ Ws)|]. split; [discriminate|assumption]. }
  destruct Z as (ce & -> & L1 & L2 & P1 & P2). cbn [bind].
  destruct (mk_spectrum_succeeds (fst ce) (snd ce) (s_poisson s) es (s_area s) (s_back s) L1 L2 (ws_a _ _ Ws) (ws_b _ _ Ws) Hes P1 P2 Na Nb) as (s2 & E2).
  { intros k Hk Hgk. apply Np; [assumption|]. exact (proj1 (Hq k Hk Hgk)). }
  rewrite E2. cbn [bind]. pose proof (wr_lo _ _ Wr) as Lr. destruct (r_emin r) as [|e0 em] eqn:Em; [cbn in Lr; lia|].
  cbn [hd] in Hr. pose proof E2 as F2. apply mk_spectrum_fields in F2 as (_ & _ & _ & Q2 & _).
  pose proof E2 as W2. apply mk_spectrum_facts in W2 as (W2 & _). rewrite L1 in W2.
  apply (mk_obs_defined _ s2 r bdata ib n W2 Wr); try easy.
  - intros x Hx. now apply Wbd.
  - split; [discriminate|]. split; [constructor; [cbn; lra|constructor]|]. constructor; constructor.
  - unfold good_mask. rewrite Q2, flag_good. destruct bdata as [x|]; [|assumption]. destruct (Wbd x eq_refl) as [_ ->]. now rewrite flag_good, andb_self.
Qed.
End Template.

(** from the arguments to [sim_core] *)
Lemma simulate_succeeds s r b good n o flux es eb ib dB dS :
  valid_spectrum s -> valid_response r -> (forall b', b = Some b' -> valid_spectrum b') -> (0 < n)%nat ->
  wf_spec s n -> wf_resp r n -> (forall b', b = Some b' -> wf_spec b' n) -> length good = n -> obs_ok s r b good n o ->
  sim_ready s r b good n flux (match es with Some x => x | None => s_exposure s end)
     (match eb with Some x => x | None => match b with Some b' => s_exposure b' | None => 1 end end) dB dS ->
  exists o2, simulate_from_data flux o es eb ib dB dS = Ok o2.
Proof.
  intros Vs Vr Vb Hn Ws Wr Wb Lg OK RD. unfold simulate_from_data. pose proof OK as [E1 E2 E3 E4 E5 E6 E7 (er0 & E8)]. rewrite E1, E2, E3, E4. fold (flag good). cbv zeta.
  match goal with |- exists o2, bind ?x _ = Ok o2 => assert (X : exists o1, x = Ok o1) end.
  { destruct b as [b'|]; unfold simulate; rewrite (mk_response_again r Vr); cbn [bind]; cbv zeta; rewrite (wr_lo _ _ Wr).
    - assert (S1 : exists serr, (if s_poisson s then Ok [] else if (length (s_errors s) =? n)%nat then Ok (s_errors s) else Err ValueError) = Ok serr /\ (s_poisson s = false -> serr = s_errors s)).
      { destruct (s_poisson s); [eexists; split; [reflexivity|discriminate]|]. rewrite (ws_e _ _ Ws), Nat.eqb_refl. eauto. }
      destruct S1 as (serr & -> & Hserr). cbn [bind]. rewrite (ws_c _ _ (Wb b' eq_refl)), Nat.eqb_refl. cbn [negb].
      set (c := if (s_poisson s || s_poisson b')%bool then map (fun x => Rmax x 0) (s_counts b') else s_counts b').
      assert (Hc : forall p, p = true -> (s_poisson s || s_poisson b')%bool = p -> Forall (fun x => 0 <= x) c).
      { intros p -> Hp. unfold c. rewrite Hp. apply Forall_map, Forall_forall. intros; apply Rmax_r. }
      assert (Lc : length c = n) by (unfold c; destruct (_ || _)%bool; rewrite ?map_length; apply (Wb b' eq_refl)).
      assert (S2 : exists be, (if s_poisson b' then Ok (Some (c, [], match eb with Some x => x | None => s_exposure b' end, s_poisson b'))
          else if (length (s_errors b') =? n)%nat then Ok (Some (c, s_errors b', match eb with Some x => x | None => s_exposure b' end, s_poisson b')) else Err ValueError)
          = Ok (Some (c, be, match eb with Some x => x | None => s_exposure b' end, s_poisson b')) /\ (s_poisson b' = false -> be = s_errors b')).
      { destruct (s_poisson b'); [eexists; split; [reflexivity|discriminate]|]. rewrite (ws_e _ _ (Wb b' eq_refl)), Nat.eqb_refl. eauto. }
      destruct S2 as (be & -> & Hbe). cbn [bind]. unfold coerce_scale. cbn [arr_ok arr_get].
      rewrite (ws_a _ _ Ws), (ws_b _ _ Ws), (ws_a _ _ (Wb b' eq_refl)), (ws_b _ _ (Wb b' eq_refl)), Nat.eqb_refl. cbn [bind].
      apply (sim_core_ok s r (Some b') good n o Vs Vb Hn Ws Wr Wb Lg OK flux _ _ ib dB dS serr _ _ _ RD Hserr).
      split; [reflexivity|]. split; [reflexivity|]. split; [assumption|]. split; [intros Hp; apply (Hc true eq_refl); now rewrite Hp|].
      split; [intros Hp; apply (Hc true eq_refl); rewrite Hp; apply orb_true_r|]. auto.
    - assert (S1 : exists serr, (if s_poisson s then Ok [] else if (length (s_errors s) =? n)%nat then Ok (s_errors s) else Err ValueError) = Ok serr /\ (s_poisson s = false -> serr = s_errors s)).
      { destruct (s_poisson s); [eexists; split; [reflexivity|discriminate]|]. rewrite (ws_e _ _ Ws), Nat.eqb_refl. eauto. }
      destruct S1 as (serr & -> & Hserr). cbn [bind]. unfold coerce_scale. cbn [arr_ok arr_get].
      rewrite (ws_a _ _ Ws), (ws_b _ _ Ws), Nat.eqb_refl. cbn [bind].
      apply (sim_core_ok s r None good n o Vs Vb Hn Ws Wr Wb Lg OK flux _ _ ib dB dS serr _ _ _ RD Hserr). exact I. }
  destruct X as (o1 & EO). rewrite EO. cbn [bind].
  (* set_erange on any observation built here succeeds *)
  assert (Y : exists s2 b2 er1, valid_spectrum s2 /\ (forall x, b2 = Some x -> valid_spectrum x) /\ mk_obs er1 s2 r b2 ib = Ok o1).
  { destruct b as [b0|]; unfold simulate in EO; rewrite (mk_response_again r Vr) in EO; cbn [bind] in EO; cbv zeta in EO.
    - apply bind_ok in EO as (serr & _ & EO). apply bind_ok in EO as (back & Hb & EO).
      assert (Ebk : exists bc be x p, back = Some (bc, be, x, p)).
      { destruct (negb _) in Hb; [discriminate|]. destruct (s_poisson b0); [injection Hb as <-; eauto|].
        destruct (_ =? _)%nat in Hb; [injection Hb as <-; eauto|discriminate]. }
      destruct Ebk as (bc & be & xx & pp & ->). clear Hb. do 4 (apply bind_ok in EO as (? & _ & EO)). unfold sim_core in EO. cbv zeta in EO.
      apply bind_ok in EO as (bd & Hbd & EO). apply bind_ok in Hbd as (ce & _ & Hbd). apply bind_ok in Hbd as (b2 & Hb2 & Hbd). injection Hbd as <-.
      apply bind_ok in EO as (cts & _ & EO). apply bind_ok in EO as (ce2 & _ & EO). apply bind_ok in EO as (s2 & Hs2 & EO).
      destruct (r_emin r); [discriminate|]. exists s2, (Some b2). eexists. split; [do 10 eexists; exact Hs2|]. split; [|exact EO]. intros y Hy. injection Hy as <-. do 10 eexists. exact Hb2.
    - apply bind_ok in EO as (serr & _ & EO). cbn [bind] in EO. do 4 (apply bind_ok in EO as (? & _ & EO)). unfold sim_core in EO. cbv zeta in EO. cbn [bind] in EO.
      apply bind_ok in EO as (ce2 & _ & EO). apply bind_ok in EO as (s2 & Hs2 & EO).
      destruct (r_emin r); [discriminate|]. exists s2, None. eexists. split; [do 10 eexists; exact Hs2|]. split; [discriminate|exact EO]. }
  destruct Y as (s2 & b2 & er1 & V2 & Vb2 & Ho). destruct (mk_obs_inv er1 s2 r b2 ib o1 V2 Vr Vb2 Ho) as (n2 & Hn2 & W2 & Wr2 & Wb2 & Lg2 & [F1 F2 F3 F4 F5 F6 F7 F8]).
  unfold set_erange. rewrite (check_again _ _ E8). cbn [bind]. unfold set_grouping. cbn [o_spec o_resp o_bk o_good o_erange o_grouping o_exp].
  rewrite F1, F2, F3, F4. rewrite (choose_fixed s2 r _ n2 Wr2 Lg2 Hn2 _ F5 F6). cbn [bind].
  rewrite (expose_spec s2 r b2 _ _ _ _ W2 Wr2 Wb2 Lg2 F5). cbn [bind]. eauto.
Qed.
