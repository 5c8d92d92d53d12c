(** C62, C63: the observed and the simulated counts used by the fit. *)
From Coq Require Import Ascii String.
From Verif Require Import RBase Grouping Scale Significance Data DataProofs DataState DataFacts DataBad DataSim DataExamples Prop_Data
  Namespace NamespaceProofs FitInput FitInputProofs Prop_Fit HelperData HelperDataProofs Batch BatchProofs CompileProofs OneChannel.
From Coq Require Import List.
Open Scope list_scope.

(** an observation built from valid inputs, after any operations *)
Definition proper (o : obs) : Prop := exists er s r b ib o0 ops, built er s r b ib o0 /\ o = run o0 ops.

Lemma given_fun {A} (a : arg A) l l' : given a l -> given a l' -> l = l'.
Proof.
  intros [(x & -> & ->)|[E _]] [(y & E' & ->)|[E' _]]; try congruence. subst a. injection E' as E'. revert l' E'. clear.
  induction l as [|x l IH]; intros [|y l'] E; try discriminate; [reflexivity|]. cbn in E. injection E as -> E. now rewrite (IH l' E).
Qed.
Lemma puts_nodup {V} (kvs : dict V) : forall d, NoDup (map fst d ++ map fst kvs) -> puts d kvs = d ++ kvs.
Proof.
  induction kvs as [|[k v] kvs IH]; intros d N; [cbn; now rewrite app_nil_r|]. cbn [puts fold_left]. change (puts (put d k v) kvs = d ++ (k, v) :: kvs).
  assert (Nk : ~ In k (map fst d)).
  { intros H. apply NoDup_remove_2 in N. apply N, in_or_app. now left. }
  assert (P : put d k v = d ++ [(k, v)]).
  { clear - Nk. induction d as [|[k' v'] d IH]; [reflexivity|]. cbn [put]. destruct (str_eqb_spec k k') as [->|Nn]; [exfalso; apply Nk; now left|].
    cbn. f_equal. apply IH. intros H; apply Nk; now right. }
  rewrite P, IH, <- app_assoc; [reflexivity|]. rewrite map_app, <- app_assoc. exact N.
Qed.
Lemma map_fst_combine {A B} (a : list A) (b : list B) : length a = length b -> map fst (combine a b) = a.
Proof. revert b; induction a as [|x a IH]; intros [|y b] H; try discriminate; [reflexivity|]. cbn. f_equal. apply IH. now injection H. Qed.
Lemma dict_of_combine {V} ks (vs : list V) : NoDup ks -> length ks = length vs -> dict_of ks vs = combine ks vs.
Proof.
  intros N L. unfold dict_of. change (puts [] (combine ks vs) = combine ks vs). rewrite puts_nodup; [reflexivity|]. cbn. rewrite map_fst_combine by exact L. exact N.
Qed.
Lemma combine_map_l {A B} (g : A -> str) (h : A -> B) l : combine (map g l) (map h l) = map (fun x => (g x, h x)) l.
Proof. induction l as [|x l IH]; [reflexivity|]. cbn. now rewrite IH. Qed.
Lemma fit_init_tables {M} (additive : M -> bool) da ma sa t l : fit_init additive da ma sa = Ok t -> given da l ->
  NoDup (map fst l) /\ ft_data t = map (fun p => (fst p, get_fixed_data (fst p) (snd p))) l /\
  exists ss, ft_stat t = combine (map fst l) ss /\ length ss = length l /\
    Forall2 (fun p s => suitable (get_fixed_data (fst p) (snd p)) s) l ss.
Proof.
  intros H G. unfold fit_init in H. destruct (parse_input additive da ma sa) as [[[ds ms] ss]|] eqn:E; [|discriminate]. cbn [bind] in H. injection H as <-.
  apply C43_accepts in E as (l' & ml & Hd & -> & N & _ & _ & _ & _ & F). rewrite (given_fun _ _ _ Hd G) in *. clear l' Hd.
  assert (L2 : length ss = length l) by (apply Forall2_length in F; now rewrite map_length in F).
  split; [exact N|]. rewrite map_map. cbn [f_name get_fixed_data ft_data ft_stat]. split.
  - rewrite dict_of_combine; [apply combine_map_l|exact N|now rewrite !map_length].
  - exists ss. split; [apply dict_of_combine; [exact N|now rewrite map_length]|]. split; [exact L2|].
    clear - F. revert ss F. induction l as [|p l IH]; intros ss F; inversion F; subst; constructor; auto.
Qed.
Lemma stat_lookup {S} (l : list (str * obs)) (ss : list S) (P : str * obs -> S -> Prop) p : NoDup (map fst l) -> Forall2 P l ss -> In p l ->
  exists s, get (combine (map fst l) ss) (fst p) = Some s /\ P p s.
Proof.
  intros N F Hp. induction F as [|q s l ss Hq F IH]; [destruct Hp|]. cbn [map] in N. inversion N as [|? ? Nq Nl]; subst. cbn [map combine get].
  destruct Hp as [->|Hp].
  - exists s. destruct (str_eqb_spec (fst p) (fst p)); [|easy]. now split.
  - destruct (str_eqb_spec (fst p) (fst q)) as [E|_]; [exfalso; apply Nq; rewrite <- E; now apply in_map|]. now apply IH.
Qed.
(** net spectrum: counts over exposure and channel width *)
Definition per_unit (o : obs) (counts : list R) : list R :=
  zip2 Rdiv counts (zip2 (fun hi lo => (hi - lo) * s_exposure (o_spec o)) (x_emax (o_exp o)) (x_emin (o_exp o))).
Lemma unit_mult name o c : zip2 Rmult c (spec_unit (get_fixed_data name o)) = per_unit o c.
Proof.
  unfold spec_unit, per_unit. cbn [f_exposure f_emax f_emin get_fixed_data]. generalize (x_emax (o_exp o)), (x_emin (o_exp o)). generalize (s_exposure (o_spec o)).
  intros ex. unfold zip2. induction c as [|x c IH]; intros [|h hs] [|w ws]; cbn; try reflexivity. rewrite IH. f_equal. unfold Rdiv. rewrite Rmult_1_l. f_equal. f_equal. ring.
Qed.
Lemma proper_facts o name : proper o -> let x := o_exp o in let d := get_fixed_data name o in
  x_ce x = per_unit o (x_net x) /\
  match f_back d with
  | None => x_net x = x_counts x /\ x_net_errors x = x_errors x
  | Some b => x_net x = zip2 Rminus (x_counts x) (zip2 Rmult (fb_ratio b) (fb_counts b)) /\
      map sq (x_net_errors x) = zip2 Rplus (map sq (x_errors x)) (map sq (zip2 Rmult (fb_ratio b) (fb_errors b)))
  end.
Proof.
  intros (er & s & r & b & ib & o0 & ops & Hb & ->) x d. pose proof (C22_net_spectrum er s r b ib o0 ops Hb) as H. cbn zeta in H.
  destruct (built_inv er s r b ib o0 ops Hb) as (n & _ & _ & _ & _ & _ & [E1 _ E3 _ _ _ E7 _]). fold x in H. destruct H as (H & Hce & _).
  unfold per_unit. rewrite E1. split; [exact Hce|]. unfold d, get_fixed_data. cbn [f_back]. rewrite E3. fold x.
  destruct b as [b'|]; destruct (x_back x) as [[[bc be] ra]|]; easy.
Qed.

(** ** C63: what is stored as the observed data *)
(** the observed data exist for every accepted fit; the "on" entries are the counts of the likelihood (net counts for
    chi2), the "off" entries the background counts; the entry named after a data set is its net spectrum *)
Theorem C63_observed_data : forall M (additive : M -> bool) da ma sa t l, fit_init additive da ma sa = Ok t -> given da l ->
  Forall (fun p => proper (snd p)) l ->
  exists od, obs_data (ft_data t) (ft_stat t) = Ok od /\
  forall name o, In (name, o) l -> exists s, get (ft_stat t) name = Some s /\
    (name <> channels_key -> name <> total_key -> s <> Pstat -> get od name = Some (x_ce (o_exp o))) /\
    (name <> channels_key -> name <> total_key -> s = Pstat -> get od name = Some (per_unit o (x_counts (o_exp o)))) /\
    (~ In (on_name name) (map fst l) ->
       get od (on_name name) = Some (match s with Chi2 => x_net (o_exp o) | _ => x_counts (o_exp o) end)) /\
    (~ In (off_name name) (map fst l) -> s = Pgstat \/ s = Wstat ->
       exists bc be ra, x_back (o_exp o) = Some (bc, be, ra) /\ get od (off_name name) = Some bc).
Proof.
  intros M additive da ma sa t l H G Pr. destruct (fit_init_tables additive da ma sa t l H G) as (N & -> & ss & -> & L & F). clear H G da ma sa t.
  set (data := map (fun p => (fst p, get_fixed_data (fst p) (snd p))) l). set (stats := combine (map fst l) ss).
  assert (Kd : map fst data = map fst l) by (unfold data; now rewrite map_map).
  assert (Nd : NoDup (map fst data)) by (rewrite Kd; exact N).
  assert (St : forall p, In p l -> exists s, get stats (fst p) = Some s /\ suitable (get_fixed_data (fst p) (snd p)) s) by (intros p Hp; exact (stat_lookup l ss _ p N F Hp)).
  assert (Sb : forall e, In e data -> with_back (stat_of stats (fst e)) = true -> exists b, f_back (snd e) = Some b).
  { intros e He Hw. unfold data in He. apply in_map_iff in He as (p & <- & Hp). cbn [fst snd] in *. destruct (St p Hp) as (s & Es & Hs).
    unfold stat_of in Hw. rewrite Es in Hw. destruct s; try discriminate Hw; cbn [suitable] in Hs; destruct Hs as (_ & b & Hb & _); eauto. }
  set (bcounts := fun e : str * fdata => match f_back (snd e) with Some b => fb_counts b | None => [] end).
  assert (Eo : obs_counts data stats = Ok (puts (puts [] (map (fun e => (on_name (fst e), on_counts stats (fst e) (snd e))) data))
      (map (fun e => (off_name (fst e), bcounts e)) (filter (fun e => with_back (stat_of stats (fst e))) data)))).
  { unfold obs_counts. rewrite (mapE_map _ (fun e => (off_name (fst e), bcounts e))); [reflexivity|]. intros e He. apply filter_In in He as [He Hw].
    destruct (Sb e He Hw) as [b Hb]. unfold bcounts. rewrite Hb. reflexivity. }
  set (oc := puts (puts [] _) _) in Eo.
  assert (Koc : forall n, In n (map fst oc) <-> In n (on_names data ++ off_names data stats)).
  { intros n. unfold oc. rewrite !puts_keys, !map_map. cbn [map fst]. rewrite in_app_iff. unfold on_names, off_names. cbn [In]. tauto. }
  destruct (counts_data_spec data stats Nd oc Koc) as (od & Eod & Gnet & Gcnt & _ & _).
  exists od. split; [unfold obs_data; rewrite Eo; exact Eod|].
  intros name o Hin. destruct (St _ Hin) as (s & Es & Hs). cbn [fst snd] in Es, Hs. exists s. split; [exact Es|].
  assert (He : In (name, get_fixed_data name o) data) by (unfold data; apply in_map_iff; exists (name, o); now split).
  assert (Po : proper o) by (rewrite Forall_forall in Pr; exact (Pr _ Hin)).
  assert (Gon : get oc (on_name name) = Some (on_counts stats name (get_fixed_data name o))).
  { unfold oc. rewrite get_puts_absent.
    - apply get_puts; [rewrite map_map; cbn [fst]; rewrite <- map_map; apply NoDup_map_inj; [exact on_name_inj|exact Nd]|].
      apply in_map_iff. exists (name, get_fixed_data name o). now split.
    - rewrite map_map. cbn [fst]. intros Hx. apply in_map_iff in Hx as (e & E & _). symmetry in E. exact (on_not_off _ _ E). }
  assert (Goff : with_back s = true -> get oc (off_name name) = Some (bcounts (name, get_fixed_data name o))).
  { intros Hw. unfold oc. apply get_puts.
    - rewrite map_map. cbn [fst]. rewrite <- map_map. apply NoDup_map_inj; [exact off_name_inj|]. now apply NoDup_map_filter.
    - apply in_map_iff. exists (name, get_fixed_data name o). split; [reflexivity|]. apply filter_In. split; [exact He|]. cbn [fst]. unfold stat_of. now rewrite Es. }
  assert (Eon : on_counts stats name (get_fixed_data name o) = match s with Chi2 => x_net (o_exp o) | _ => x_counts (o_exp o) end).
  { unfold on_counts, stat_of. rewrite Es. destruct s; reflexivity. }
  assert (Onet : forall n1 : name <> channels_key, forall n2 : name <> total_key, get od name = Some (per_unit o (net_of stats oc (name, get_fixed_data name o)))).
  { intros n1 n2. pose proof (Gnet _ He n1 n2) as Q. cbn [fst snd] in Q. rewrite Q. now rewrite unit_mult. }
  destruct (proper_facts o name Po) as (Ece & Eb). cbn zeta in Ece, Eb.
  assert (Enet : net_of stats oc (name, get_fixed_data name o) = match s with Pstat => x_counts (o_exp o) | _ => x_net (o_exp o) end).
  { unfold net_of. cbn [fst snd]. rewrite Gon, Eon. unfold back_ratio, stat_of. rewrite Es.
    destruct s; cbn [with_back]; try reflexivity.
    - cbn [suitable] in Hs. destruct Hs as (_ & Hb). rewrite Hb in Eb. now rewrite (proj1 Eb).
    - cbn [suitable] in Hs. destruct Hs as (_ & b & Hb & _). rewrite Hb in *. rewrite (Goff eq_refl). unfold bcounts. cbn [snd]. rewrite Hb. now rewrite (proj1 Eb).
    - cbn [suitable] in Hs. destruct Hs as (_ & b & Hb & _). rewrite Hb in *. rewrite (Goff eq_refl). unfold bcounts. cbn [snd]. rewrite Hb. now rewrite (proj1 Eb). }
  split; [|split; [|split]].
  - intros n1 n2 Np. rewrite (Onet n1 n2), Enet, Ece. destruct s; easy.
  - intros n1 n2 ->. now rewrite (Onet n1 n2), Enet.
  - intros Nc. rewrite Gcnt; [rewrite Gon; now rewrite Eon| |rewrite Kd; exact Nc]. apply in_or_app. left. unfold on_names. apply in_map_iff. exists (name, get_fixed_data name o). now split.
  - intros Nc Hpw. assert (Hw : with_back s = true) by (destruct Hpw as [-> | ->]; reflexivity).
    assert (X : exists b, f_back (get_fixed_data name o) = Some b) by (apply (Sb _ He); cbn [fst]; unfold stat_of; now rewrite Es).
    destruct X as [b Hb]. pose proof Hb as Hb0. unfold get_fixed_data in Hb. cbn [f_back] in Hb.
    destruct (o_bk o) as [bk|]; [|discriminate]. destruct (x_back (o_exp o)) as [[[bc be] ra]|] eqn:Ex; [|discriminate]. exists bc, be, ra. split; [reflexivity|].
    rewrite Gcnt; [| |rewrite Kd; exact Nc].
    + rewrite (Goff Hw). unfold bcounts. cbn [snd]. rewrite Hb0. injection Hb as <-. reflexivity.
    + apply in_or_app. right. unfold off_names. apply in_map_iff. exists (name, get_fixed_data name o). split; [reflexivity|]. apply filter_In. split; [exact He|].
      cbn [fst]. unfold stat_of. now rewrite Es.
Qed.
Print Assumptions C63_observed_data.

(** the net spectrum is not what is stored for a data set fitted with pstat: the background is not subtracted *)
Theorem C63_pstat_refuted : exists o t od, proper o /\ fit_init (fun _ : unit => true) (One (s2l "A", o)) (One tt) (Some (One (s2l "pstat"))) = Ok t /\
  obs_data (ft_data t) (ft_stat t) = Ok od /\ x_ce (o_exp o) = [1] /\ get od (s2l "A") = Some [4].
Proof.
  destruct (one_obs 4 2 3 1) as (o & Hb & _ & Ec & _ & Ek & _ & _ & E1 & E2 & Ece); try lra. exists o.
  assert (Po : proper o) by (exists [(1, 2)], (one_spec 4 2), one_resp, (Some (one_spec 3 1)), true, o, []; now split).
  destruct (built_inv _ _ _ _ _ _ [] Hb) as (n & _ & _ & _ & _ & _ & Ho). cbn [run fold_left] in Ho.
  assert (P : parse_input (fun _ : unit => true) (One (s2l "A", o)) (One tt) (Some (One (s2l "pstat"))) = Ok ([get_fixed_data (s2l "A") o], [tt], [Pstat])).
  { apply C43_accepts. exists [(s2l "A", o)], [tt]. split; [left; eauto|]. split; [reflexivity|]. split; [repeat constructor; intros []|]. split; [left; eauto|].
    split; [repeat constructor|]. split; [left; eexists; split; reflexivity|]. split.
    - exists [s2l "pstat"], [Pstat]. split; [left; eauto|]. split; [repeat constructor|]. left. eexists; split; reflexivity.
    - constructor; [|constructor]. cbn [suitable fst snd]. unfold get_fixed_data. cbn [f_poisson f_back]. rewrite (ok_s _ _ _ _ _ _ Ho), (ok_b _ _ _ _ _ _ Ho), Ek.
      split; [reflexivity|discriminate]. }
  assert (T : exists t, fit_init (fun _ : unit => true) (One (s2l "A", o)) (One tt) (Some (One (s2l "pstat"))) = Ok t) by (unfold fit_init; rewrite P; cbn [bind]; eauto).
  destruct T as [t Et]. exists t.
  destruct (C63_observed_data _ _ _ _ _ t [(s2l "A", o)] Et) as (od & Eod & Hod); [left; eauto|repeat constructor; exact Po|].
  exists od. split; [exact Po|]. split; [exact Et|]. split; [exact Eod|]. split; [rewrite Ece; f_equal; lra|].
  destruct (Hod (s2l "A") o (or_introl eq_refl)) as (s & Es & _ & Hs & _). rewrite Hs; [|discriminate|discriminate|].
  - unfold per_unit. rewrite Ec, E1, E2, (ok_s _ _ _ _ _ _ Ho). cbn. f_equal. f_equal. field.
  - unfold fit_init in Et. rewrite P in Et. cbn [bind] in Et. injection Et as <-. cbn in Es. now injection Es as <-.
Qed.
Print Assumptions C63_pstat_refuted.

(** ** C62: the law of the simulated counts *)
(** the law assumed by the likelihood: infer/likelihood.py:191, 208-223 (chi2: normal with the net errors), 254, 303,
    355-382 (pgstat background: normal with the background errors), 423-450 *)
Definition assumed_on (s : stat) (o : obs) : simkind := match s with Chi2 => SNormal (x_net_errors (o_exp o)) | _ => SPoisson end.
Definition assumed_off (s : stat) (o : obs) : option simkind :=
  match s, x_back (o_exp o) with
  | Pgstat, Some (_, be, _) => Some (SNormal be)
  | Wstat, Some _ => Some SPoisson
  | _, _ => None
  end.
Lemma puts_app {V} (d : dict V) a b : puts d (a ++ b) = puts (puts d a) b.
Proof. apply fold_left_app. Qed.
Lemma simulators_spec {M} (additive : M -> bool) da ma sa t l : fit_init additive da ma sa = Ok t -> given da l ->
  exists sims, simulators (ft_data t) (ft_stat t) = Ok sims /\
  forall name o, In (name, o) l -> exists s, get (ft_stat t) name = Some s /\ suitable (get_fixed_data name o) s /\
    get sims (on_name name) = Some (if spec_normal s then SNormal (x_errors (o_exp o)) else SPoisson) /\
    get sims (off_name name) = assumed_off s o.
Proof.
  intros H G. destruct (fit_init_tables additive da ma sa t l H G) as (N & Ed & ss & Es & L & F). rewrite Ed, Es. clear H G da ma sa Ed Es.
  set (data := map (fun p => (fst p, get_fixed_data (fst p) (snd p))) l). set (stats := combine (map fst l) ss).
  set (ons := fun (p : str * obs) s => (on_name (fst p), if spec_normal s then SNormal (x_errors (o_exp (snd p))) else SPoisson)).
  set (ent := fun (p : str * obs) s => ons p s :: match assumed_off s (snd p) with Some k => [(off_name (fst p), k)] | None => [] end).
  assert (Gd : forall p, In p l -> get data (fst p) = Some (get_fixed_data (fst p) (snd p))).
  { intros p Hp. apply get_nodup; [unfold data; rewrite map_map; exact N|]. unfold data. apply in_map_iff. now exists p. }
  assert (E : exists ls, mapE (sim_entry data) stats = Ok ls /\ ls = zip2 ent l ss).
  { eexists. split; [|reflexivity]. apply mapE_ok. unfold stats. assert (Q : forall l' ss', incl l' l -> Forall2 (fun p s => suitable (get_fixed_data (fst p) (snd p)) s) l' ss' ->
      Forall2 (fun e y => sim_entry data e = Ok y) (combine (map fst l') ss') (zip2 ent l' ss')).
    { intros l' ss' Hi F'. induction F' as [|p s l' ss' Hs F' IH]; [constructor|]. cbn [map combine zip2]. unfold zip2. cbn [combine map]. constructor.
      - unfold sim_entry. cbn [fst snd]. rewrite (Gd p (Hi p (or_introl eq_refl))). cbn [opt_err bind]. unfold ent, ons, assumed_off.
        destruct s; cbn [spec_normal with_back back_normal] in *; try reflexivity.
        + destruct Hs as (_ & b & Hb & _). unfold get_fixed_data in *. cbn [f_back] in *. destruct (o_bk (snd p)); [|discriminate].
          destruct (x_back (o_exp (snd p))) as [[[bc be] ra]|]; [|discriminate]. cbn [opt_err bind]. reflexivity.
        + destruct Hs as (_ & b & Hb & _). unfold get_fixed_data in Hb. cbn [f_back] in Hb. destruct (o_bk (snd p)); [|discriminate].
          destruct (x_back (o_exp (snd p))) as [[[bc be] ra]|]; [|discriminate]. reflexivity.
      - apply IH. intros x Hx. apply Hi. now right. }
    now apply Q. }
  destruct E as (ls & E & ->). unfold simulators. rewrite E. cbn [bind]. eexists. split; [reflexivity|]. clear E.
  assert (Kin : forall l' ss' n, Forall2 (fun p s => suitable (get_fixed_data (fst p) (snd p)) s) l' ss' -> In n (map fst (concat (zip2 ent l' ss'))) ->
     exists p, In p l' /\ (n = on_name (fst p) \/ n = off_name (fst p))).
  { intros l' ss' n F'. induction F' as [|p s l' ss' Hs F' IH]; [intros []|]. unfold zip2. cbn [combine map concat fst snd]. rewrite map_app, in_app_iff. intros [Hn|Hn].
    - exists p. split; [now left|]. unfold ent, ons in Hn. cbn [map fst In] in Hn. destruct Hn as [<-|Hn]; [now left|].
      destruct (assumed_off s (snd p)); [|destruct Hn]. destruct Hn as [<-|[]]. now right.
    - destruct IH as (q & Hq & Hqn); [exact Hn|]. exists q. split; [now right|exact Hqn]. }
  assert (Main : forall l' ss' d, NoDup (map fst l') -> Forall2 (fun p s => suitable (get_fixed_data (fst p) (snd p)) s) l' ss' ->
    (forall p, In p l' -> get d (off_name (fst p)) = None) ->
    forall p, In p l' -> exists s, get (combine (map fst l') ss') (fst p) = Some s /\ suitable (get_fixed_data (fst p) (snd p)) s /\
      get (puts d (concat (zip2 ent l' ss'))) (on_name (fst p)) = Some (snd (ons p s)) /\ get (puts d (concat (zip2 ent l' ss'))) (off_name (fst p)) = assumed_off s (snd p)).
  { intros l' ss' d N' F'. revert d. induction F' as [|q s l' ss' Hs F' IH]; intros d Hd p Hp; [destruct Hp|]. cbn [map] in N'. inversion N' as [|? ? Nq Nl]; subst.
    change (zip2 ent (q :: l') (s :: ss')) with (ent q s :: zip2 ent l' ss'). cbn [concat map combine]. rewrite puts_app.
    destruct Hp as [->|Hp].
    - exists s. cbn [get]. destruct (str_eqb_spec (fst p) (fst p)); [|easy]. split; [reflexivity|]. split; [exact Hs|].
      assert (A1 : ~ In (on_name (fst p)) (map fst (concat (zip2 ent l' ss')))).
      { intros Hn. apply (Kin _ _ _ F') in Hn as (q & Hq & [E|E]); [|exact (on_not_off _ _ E)]. apply on_name_inj in E. apply Nq. rewrite E. now apply in_map. }
      assert (A2 : ~ In (off_name (fst p)) (map fst (concat (zip2 ent l' ss')))).
      { intros Hn. apply (Kin _ _ _ F') in Hn as (q & Hq & [E|E]); [symmetry in E; exact (on_not_off _ _ E)|]. apply off_name_inj in E. apply Nq. rewrite E. now apply in_map. }
      rewrite (get_puts_absent _ _ _ A1), (get_puts_absent _ _ _ A2). unfold ent. specialize (Hd p (or_introl eq_refl)). destruct (assumed_off s (snd p)) as [k|]; cbn [puts fold_left fst snd ons].
      + rewrite !get_put. destruct (str_eqb_spec (on_name (fst p)) (off_name (fst p))) as [E|_]; [exfalso; exact (on_not_off _ _ E)|].
        destruct (str_eqb_spec (on_name (fst p)) (on_name (fst p))); [|easy]. destruct (str_eqb_spec (off_name (fst p)) (off_name (fst p))); [|easy]. now split.
      + rewrite !get_put. destruct (str_eqb_spec (on_name (fst p)) (on_name (fst p))); [|easy]. split; [reflexivity|].
        destruct (str_eqb_spec (off_name (fst p)) (on_name (fst p))) as [E|_]; [exfalso; symmetry in E; exact (on_not_off _ _ E)|exact Hd].
    - destruct (IH Nl (puts d (ent q s))) with (p := p) as (s' & S1 & S2 & S3); [|exact Hp|].
      + intros p' Hp'. rewrite get_puts_absent; [apply Hd; now right|]. unfold ent, ons. cbn [map fst In]. intros [E|Hn]; [exact (on_not_off _ _ E)|].
        destruct (assumed_off s (snd q)); [|destruct Hn]. destruct Hn as [E|[]]. apply off_name_inj in E. apply Nq. rewrite E. now apply in_map.
      + exists s'. cbn [get]. destruct (str_eqb_spec (fst p) (fst q)) as [E|_]; [exfalso; apply Nq; rewrite <- E; now apply in_map|]. split; [exact S1|]. split; [exact S2|exact S3]. }
  intros name o Hin. destruct (Main l ss [] N F (fun _ _ => eq_refl) (name, o) Hin) as (s & S1 & S2 & S3 & S4). exists s. split; [exact S1|]. split; [exact S2|]. split; [exact S3|exact S4].
Qed.
(** simulated counts follow the law assumed by the likelihood, except for chi2 with a background *)
Theorem C62_simulated_law_partial : forall M (additive : M -> bool) da ma sa t l, fit_init additive da ma sa = Ok t -> given da l ->
  Forall (fun p => proper (snd p)) l ->
  exists sims, simulators (ft_data t) (ft_stat t) = Ok sims /\
  forall name o, In (name, o) l -> exists s, get (ft_stat t) name = Some s /\
    (s <> Chi2 \/ o_bk o = None -> get sims (on_name name) = Some (assumed_on s o)) /\
    get sims (off_name name) = assumed_off s o.
Proof.
  intros M additive da ma sa t l H G Pr. destruct (simulators_spec additive da ma sa t l H G) as (sims & E & Hs). exists sims. split; [exact E|].
  intros name o Hin. destruct (Hs name o Hin) as (s & S1 & S2 & S3 & S4). exists s. split; [exact S1|]. split; [|exact S4].
  intros Hc. rewrite S3. destruct s; cbn [spec_normal assumed_on]; try reflexivity. destruct Hc as [Hc|Hc]; [easy|].
  rewrite Forall_forall in Pr. destruct (proper_facts o name (Pr _ Hin)) as (_ & Eb). cbn zeta in Eb. unfold get_fixed_data in Eb. cbn [f_back] in Eb. rewrite Hc in Eb.
  now rewrite (proj2 Eb).
Qed.
Print Assumptions C62_simulated_law_partial.
(** with chi2 and a background the counts are simulated with a smaller scatter than the likelihood assumes *)
Theorem C62_chi2_background_refuted : exists o t sims, proper o /\
  fit_init (fun _ : unit => true) (One (s2l "A", o)) (One tt) (Some (One (s2l "chi2"))) = Ok t /\ simulators (ft_data t) (ft_stat t) = Ok sims /\
  get sims (on_name (s2l "A")) = Some (SNormal [2]) /\ assumed_on Chi2 o = SNormal [sqrt 5] /\ 2 < sqrt 5.
Proof.
  destruct (one_obs 4 2 3 1) as (o & Hb & _ & Ec & Ee & Ek & _ & En & E1 & E2 & Ece); try lra. exists o.
  assert (Po : proper o) by (exists [(1, 2)], (one_spec 4 2), one_resp, (Some (one_spec 3 1)), true, o, []; now split).
  assert (S5 : sqrt (sq 2 + sq 1) = sqrt 5) by (f_equal; unfold sq; lra). rewrite S5 in En.
  assert (P : parse_input (fun _ : unit => true) (One (s2l "A", o)) (One tt) (Some (One (s2l "chi2"))) = Ok ([get_fixed_data (s2l "A") o], [tt], [Chi2])).
  { apply C43_accepts. exists [(s2l "A", o)], [tt]. split; [left; eauto|]. split; [reflexivity|]. split; [repeat constructor; intros []|]. split; [left; eauto|].
    split; [repeat constructor|]. split; [left; eexists; split; reflexivity|]. split.
    - exists [s2l "chi2"], [Chi2]. split; [left; eauto|]. split; [repeat constructor|]. left. eexists; split; reflexivity.
    - constructor; [|constructor]. cbn [suitable fst snd]. unfold get_fixed_data. cbn [f_net_errors]. rewrite En. constructor; [|constructor].
      pose proof (sqrt_lt_R0 5 ltac:(lra)). lra. }
  assert (T : exists t, fit_init (fun _ : unit => true) (One (s2l "A", o)) (One tt) (Some (One (s2l "chi2"))) = Ok t) by (unfold fit_init; rewrite P; cbn [bind]; eauto).
  destruct T as [t Et]. exists t. destruct (simulators_spec _ _ _ _ t [(s2l "A", o)] Et) as (sims & Esm & Hs); [left; eauto|]. exists sims.
  split; [exact Po|]. split; [exact Et|]. split; [exact Esm|]. destruct (Hs (s2l "A") o (or_introl eq_refl)) as (s & S1 & _ & S3 & _).
  assert (s = Chi2) as ->.
  { unfold fit_init in Et. rewrite P in Et. cbn [bind] in Et. injection Et as <-. cbn in S1. now injection S1 as <-. }
  split; [rewrite S3; cbn [spec_normal]; now rewrite Ee|]. split; [unfold assumed_on; now rewrite En|].
  rewrite <- (sqrt_square 2) by lra. apply sqrt_lt_1; lra.
Qed.
Print Assumptions C62_chi2_background_refuted.

(** ** names that collide *)
(** data sets "A" and "A_Non" together: the counts stored for "A" are the net spectrum of "A_Non" *)
Theorem C63_colliding_names_refuted : forall M (additive : M -> bool) da ma sa t l a oa ob, fit_init additive da ma sa = Ok t -> given da l ->
  Forall (fun p => proper (snd p)) l -> In (a, oa) l -> In (on_name a, ob) l -> get (ft_stat t) (on_name a) <> Some Pstat ->
  exists od, obs_data (ft_data t) (ft_stat t) = Ok od /\ get od (on_name a) = Some (x_ce (o_exp ob)).
Proof.
  intros M additive da ma sa t l a oa ob H G Pr _ Hb Np. destruct (C63_observed_data M additive da ma sa t l H G Pr) as (od & E & Hod). exists od. split; [exact E|].
  destruct (Hod _ _ Hb) as (s & Es & Hs & _). destruct (on_not_key a). apply Hs; auto. congruence.
Qed.
Print Assumptions C63_colliding_names_refuted.
(** a data set called "total" beside a non-empty one: simulated data can never be fitted *)
Theorem C63_total_name_refuted : forall data stats free params U fit devices ip sim parallel np d e,
  NoDup (map fst data) -> In (total_key, d) data -> In e data -> fst e <> total_key -> (0 < length (f_emin (snd e)))%nat ->
  exists x, batch_fit data stats free params U fit devices ip sim parallel np = Err x.
Proof.
  intros data stats free params U fit devices ip sim parallel np d e N Hd He Ne Hpos. unfold batch_fit. destruct (get_parallel_number devices np) as [p|x]; [|cbn; eauto].
  cbn [bind]. destruct sim as [a|rows|]; eauto. destruct (filter _ (ndata data)); eauto. destruct (make_init free (length rows) ip) as [init|x]; [|cbn; eauto]. cbn [bind].
  assert (W : widths_ok data = false); [|rewrite W; cbn; eauto].
  destruct (widths_ok data) eqn:W; [|reflexivity]. exfalso. unfold widths_ok in W. rewrite forallb_forall in W. specialize (W _ Hd). cbn [fst snd] in W.
  unfold ndata in W. rewrite get_put in W. destruct (str_eqb_spec total_key total_key); [|easy]. apply Nat.eqb_eq in W.
  rewrite puts_nodup in W by (cbn; rewrite map_map; exact N). cbn [List.app] in W. rewrite map_map in W. cbn [snd] in W.
  assert (L : forall l, In (total_key, d) l -> In e l -> (length (f_emin d) + length (f_emin (snd e)) <= fold_right Nat.add 0%nat (map (fun x : str * fdata => length (f_emin (snd x))) l))%nat).
  { assert (L1 : forall l x, In x l -> (length (f_emin (snd x)) <= fold_right Nat.add 0%nat (map (fun x : str * fdata => length (f_emin (snd x))) l))%nat).
    { intros ls. induction ls as [|y ls IH]; intros x Hx; [destruct Hx|]; cbn [map fold_right]. destruct Hx as [Hx|Hx]; [rewrite Hx; apply Nat.le_add_r|]. specialize (IH x Hx). lia. }
    intros ls. induction ls as [|y ls IH]; [intros []|]. intros [A|A] [B|B]; cbn [map fold_right].
    - exfalso. apply Ne. rewrite <- B, A. reflexivity.
    - subst y. pose proof (L1 ls e B). cbn [snd]. lia.
    - subst y. pose proof (L1 ls _ A) as H. cbn [snd] in H. lia.
    - specialize (IH A B). lia. }
  specialize (L data Hd He). lia.
Qed.
Print Assumptions C63_total_name_refuted.
Example C63_total_ex : exists d, let data := [(total_key, d); (s2l "A", d)] in NoDup (map fst data) /\ In (total_key, d) data /\ (0 < length (f_emin d))%nat.
Proof.
  destruct (one_obs 4 2 3 1) as (o & _ & _ & _ & _ & _ & _ & _ & E & _); try lra. exists (get_fixed_data (s2l "A") o). split; [|split].
  - constructor; [intros [E'|[]]; discriminate|constructor; [intros []|constructor]].
  - now left.
  - cbn [f_emin get_fixed_data]. rewrite E. cbn. lia.
Qed.

(** degrees of freedom: the channels of all data, less the free parameters *)
Theorem C63_dof : forall data nparam, NoDup (map fst data) ->
  dof data nparam = (Z.of_nat (list_sum (map (fun e => length (f_emin (snd e))) data)) - Z.of_nat nparam)%Z /\
  (forall k d, In (k, d) data -> k <> total_key -> get (ndata data) k = Some (length (f_emin d))).
Proof.
  intros data nparam N. assert (P : forall (l acc : dict nat), NoDup (map fst acc ++ map fst l) -> puts acc l = acc ++ l).
  { induction l as [|[k v] l IH]; intros acc H; [cbn; now rewrite app_nil_r|]. cbn [puts fold_left fst snd]. rewrite put_fresh.
    - change (puts (acc ++ [(k, v)]) l = acc ++ (k, v) :: l). rewrite IH; [now rewrite <- app_assoc|]. rewrite map_app. cbn [map fst]. rewrite <- app_assoc. exact H.
    - apply NoDup_remove_2 in H. intros X. apply H, in_or_app. now left. }
  assert (E : puts [] (map (fun e : str * fdata => (fst e, length (f_emin (snd e)))) data) = map (fun e : str * fdata => (fst e, length (f_emin (snd e)))) data).
  { apply (P _ []). cbn. rewrite map_map. exact N. }
  unfold dof, ndata. cbv zeta. rewrite E. split.
  - rewrite get_put. destruct (str_eqb_spec total_key total_key); [|easy]. rewrite map_map. cbn [snd]. reflexivity.
  - intros k d Hin Nk. rewrite get_put. destruct (str_eqb_spec k total_key); [easy|]. apply get_nodup; [rewrite map_map; exact N|]. apply in_map_iff. now exists (k, d).
Qed.
Print Assumptions C63_dof.
