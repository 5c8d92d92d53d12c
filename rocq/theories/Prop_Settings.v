(** C89: settings of spectral components. *)
From Coq Require Import Ascii String.
From Verif Require Import RBase Namespace NamespaceProofs HelperData HelperNames HelperNamesProofs ModelAlg Components FiniteDiff Settings.
From Coq Require Import List Lia Lra.
Open Scope list_scope.
Open Scope R_scope.

Lemma zrun_app k s a b : zrun k s (a ++ b) = zrun k (zrun k s a) b.
Proof. apply fold_left_app. Qed.
Lemma zrun_cons k s o r : zrun k s (o :: r) = zrun k (fst (fst (zstep k s o))) r.
Proof. reflexivity. Qed.
Definition keeps_abund (k : zkind) (o : zop) : Prop := forall v, o = ZAbund v -> ~ In v (zk_abunds k).
Definition keeps_xsect (k : zkind) (o : zop) : Prop := forall v, o = ZXsect v -> ~ In v (zk_xsects k).
Definition method_names : list (str * meth) := [(s2l "trapz", Trapz); (s2l "simpson", Simpson)].
Definition keeps_method (o : zop) : Prop := forall v, o = ZMethod v -> ~ In v (map fst method_names).
Lemma mem_false n l : ~ In n l -> mem n l = false.
Proof. intros H. destruct (mem n l) eqn:E; [|reflexivity]. now apply mem_spec in E. Qed.
Lemma parse_method_in v m : In (v, m) method_names -> parse_method v = Some m.
Proof. intros [E|[E|[]]]; injection E as <- <-; reflexivity. Qed.
Lemma parse_method_out v : ~ In v (map fst method_names) -> parse_method v = None.
Proof. intros H. unfold parse_method. destruct (str_eqb_spec v (s2l "trapz")) as [->|]; [exfalso; apply H; now left|]. destruct (str_eqb_spec v (s2l "simpson")) as [->|]; [exfalso; apply H; now right; left|reflexivity]. Qed.

(** ** the settings in force are the last accepted ones *)
Lemma abund_kept k ops : Forall (keeps_abund k) ops -> forall s, z_abund (zrun k s ops) = z_abund s.
Proof.
  induction 1 as [|o r H F IH]; intros s; [reflexivity|]. rewrite zrun_cons, IH. destruct o as [v|v|v|v|]; cbn.
  - now destruct (parse_method v).
  - now rewrite (mem_false v) by (now apply H).
  - now destruct (mem v (zk_xsects k)).
  - now destruct (parse_grad v).
  - reflexivity.
Qed.
Lemma xsect_kept k ops : Forall (keeps_xsect k) ops -> forall s, z_xsect (zrun k s ops) = z_xsect s.
Proof.
  induction 1 as [|o r H F IH]; intros s; [reflexivity|]. rewrite zrun_cons, IH. destruct o as [v|v|v|v|]; cbn.
  - now destruct (parse_method v).
  - now destruct (mem v (zk_abunds k)).
  - now rewrite (mem_false v) by (now apply H).
  - now destruct (parse_grad v).
  - reflexivity.
Qed.
Lemma method_kept k ops : Forall keeps_method ops -> forall s, z_method (zrun k s ops) = z_method s.
Proof.
  induction 1 as [|o r H F IH]; intros s; [reflexivity|]. rewrite zrun_cons, IH. destruct o as [v|v|v|v|]; cbn.
  - now rewrite (parse_method_out v) by (now apply H).
  - now destruct (mem v (zk_abunds k)).
  - now destruct (mem v (zk_xsects k)).
  - now destruct (parse_grad v).
  - reflexivity.
Qed.
(** for every history: the evaluation function made now uses, for the abundances, the cross-sections and the integration rule, the last value that was
    accepted, whatever was set, refused or evaluated in between *)
Theorem C89_last_accepted : forall k s h,
  (forall a r v, h = a ++ ZAbund v :: r -> In v (zk_abunds k) -> Forall (keeps_abund k) r -> forall e, snd (zstep k (zrun k s h) ZEval) = Some e -> e_abund e = v) /\
  (forall a r v, h = a ++ ZXsect v :: r -> In v (zk_xsects k) -> Forall (keeps_xsect k) r -> forall e, snd (zstep k (zrun k s h) ZEval) = Some e -> e_xsect e = v) /\
  (forall a r v m, h = a ++ ZMethod v :: r -> In (v, m) method_names -> Forall keeps_method r -> forall e, snd (zstep k (zrun k s h) ZEval) = Some e -> e_method e = m) /\
  (forall e, snd (zstep k (zrun k s h) ZEval) = Some e ->
     (Forall (keeps_abund k) h -> e_abund e = z_abund s) /\ (Forall (keeps_xsect k) h -> e_xsect e = z_xsect s) /\ (Forall keeps_method h -> e_method e = z_method s)).
Proof.
  intros k s h. split; [|split; [|split]].
  - intros a r v -> I F e H. cbn in H. injection H as <-. cbn. rewrite zrun_app, zrun_cons, abund_kept by exact F. cbn. apply mem_spec in I. now rewrite I.
  - intros a r v -> I F e H. cbn in H. injection H as <-. cbn. rewrite zrun_app, zrun_cons, xsect_kept by exact F. cbn. apply mem_spec in I. now rewrite I.
  - intros a r v m -> I F e H. cbn in H. injection H as <-. cbn. rewrite zrun_app, zrun_cons, method_kept by exact F. cbn. now rewrite (parse_method_in _ _ I).
  - intros e H. cbn in H. injection H as <-. cbn. split; [|split]; intros F; [now apply abund_kept|now apply xsect_kept|now apply method_kept].
Qed.
Print Assumptions C89_last_accepted.
(** a value that is not offered is refused and changes nothing *)
Theorem C89_refused : forall k s,
  (forall v, ~ In v (zk_abunds k) -> zstep k s (ZAbund v) = (s, Some ValueError, None)) /\
  (forall v, ~ In v (zk_xsects k) -> zstep k s (ZXsect v) = (s, Some ValueError, None)) /\
  (forall v, ~ In v (map s2l ["trapz"; "simpson"]%string) -> zstep k s (ZMethod v) = (s, Some ValueError, None)) /\
  (forall v, ~ In v (map s2l ["central"; "forward"]%string) -> zstep k s (ZGrad (Some v)) = (s, Some ValueError, None)).
Proof.
  intros k s. split; [|split; [|split]]; intros v H; cbn [zstep].
  - now rewrite mem_false.
  - now rewrite mem_false.
  - now rewrite parse_method_out.
  - unfold parse_grad. destruct (str_eqb_spec v (s2l "central")) as [->|]; [exfalso; apply H; now left|]. destruct (str_eqb_spec v (s2l "forward")) as [->|]; [exfalso; apply H; now right; left|reflexivity].
Qed.
Print Assumptions C89_refused.

(** ** absorption models *)
Lemma has_table_in n x a : In (n, x, a) tables -> has_table n x a = true.
Proof.
  intros H. unfold has_table. apply existsb_exists. exists (n, x, a). split; [exact H|]. cbn.
  destruct (str_eqb_spec n n); [|easy]. destruct (str_eqb_spec x x); [|easy]. destruct (str_eqb_spec a a); [reflexivity|easy].
Qed.
Definition settled (k : zkind) (s : zstate) : Prop := In (z_abund s) (zk_abunds k) /\ In (z_xsect s) (zk_xsects k).
Lemma zstep_settled k s o : settled k s -> settled k (fst (fst (zstep k s o))).
Proof.
  intros (A & X). destruct o as [v|v|v|v|]; cbn.
  - now destruct (parse_method v).
  - destruct (mem v (zk_abunds k)) eqn:E; [|easy]. apply mem_spec in E. now split.
  - destruct (mem v (zk_xsects k)) eqn:E; [|easy]. apply mem_spec in E. now split.
  - now destruct (parse_grad v).
  - easy.
Qed.
Lemma zrun_settled k h : forall s, settled k s -> settled k (zrun k s h).
Proof. induction h as [|o r IH]; intros s H; [exact H|]. rewrite zrun_cons. now apply IH, zstep_settled. Qed.
Lemma znew_settled k m a x g s : znew k m a x g = Ok s -> settled k s.
Proof.
  unfold znew. destruct (mem _ (zk_abunds k)) eqn:A; [|discriminate]. destruct (mem _ (zk_xsects k)) eqn:X; [|discriminate]. cbn [negb].
  destruct (parse_method _); [|discriminate]. destruct (parse_grad g); [|discriminate]. intros H. injection H as <-. apply mem_spec in A, X. now split.
Qed.
Lemma all_tables k : In k [PhAbs; TBAbs; WAbs] -> forall a x, In a (zk_abunds k) -> In x (zk_xsects k) -> In (zk_name k, x, a) tables.
Proof.
  unfold tables. intros [<-|[<-|[<-|[]]]] a x Ha Hx; cbn [zk_name zk_abunds zk_xsects] in *.
  - apply in_or_app. left. apply in_flat_map. exists x. split; [exact Hx|]. apply in_map_iff. now exists a.
  - apply in_or_app. right. apply in_or_app. left. destruct Hx as [<-|[]]. apply in_map_iff. now exists a.
  - apply in_or_app. right. apply in_or_app. right. destruct Ha as [<-|[]], Hx as [<-|[]]. now left.
Qed.
(** the tabulated cross-section *)
Definition sigma (logsigma : str -> str -> str -> R -> R) (n x a : str) (e : R) : R := exp (logsigma n x a (ln e)).
Definition transmission (nH s : R) : R := exp (- nH * s).
Lemma nth_trapz c g : forall i a b, nth_error g i = Some a -> nth_error g (S i) = Some b -> nth_error (trapz false c g) i = Some (1 / 2 * (c a + c b)).
Proof.
  induction g as [|x g IH]; intros i a b Ha Hb; [now destruct i|]. destruct i as [|i].
  - cbn in Ha. injection Ha as ->. cbn in Hb. destruct g as [|y g]; [discriminate|]. injection Hb as ->. reflexivity.
  - destruct g as [|y g]; [now destruct i|]. cbn [trapz nth_error]. now apply IH.
Qed.
Lemma nth_simpson c g : forall i a b, nth_error g i = Some a -> nth_error g (S i) = Some b -> nth_error (simpson false c g) i = Some (1 / 6 * (c a + 4 * c (1 / 2 * (a + b)) + c b)).
Proof.
  induction g as [|x g IH]; intros i a b Ha Hb; [now destruct i|]. destruct i as [|i].
  - cbn in Ha. injection Ha as ->. cbn in Hb. destruct g as [|y g]; [discriminate|]. injection Hb as ->. reflexivity.
  - destruct g as [|y g]; [now destruct i|]. cbn [simpson nth_error]. now apply IH.
Qed.
(** whatever the history of settings, the evaluation finds its table and gives, for every bin, the average of exp(-nH sigma) by the rule in force, with the
    cross-section of the tables in force *)
Theorem C89_absorption : forall logsigma k method abund xsect grad s h e nH egrid, In k [PhAbs; TBAbs; WAbs] -> znew k method abund xsect grad = Ok s ->
  snd (zstep k (zrun k s h) ZEval) = Some e ->
  exists y, absorb logsigma k e nH egrid = Ok y /\
  let t := fun E => transmission nH (sigma logsigma (zk_name k) (e_xsect e) (e_abund e) E) in
  forall i a b, nth_error egrid i = Some a -> nth_error egrid (S i) = Some b ->
  nth_error y i = Some (match e_method e with Trapz => (t a + t b) / 2 | Simpson => (t a + 4 * t ((a + b) / 2) + t b) / 6 end).
Proof.
  intros logsigma k method abund xsect grad s h e nH egrid K N H. apply znew_settled in N. apply (zrun_settled k h) in N. destruct N as (A & X).
  cbn in H. injection H as <-. unfold absorb. cbn [e_method e_abund e_xsect]. rewrite has_table_in by (now apply all_tables). eexists. split; [reflexivity|].
  cbv zeta. intros i a b Ha Hb. destruct (z_method (zrun k s h)); cbn [integrate].
  - rewrite (nth_trapz _ _ i a b Ha Hb). f_equal. unfold transmission, sigma, photon_abs. lra.
  - rewrite (nth_simpson _ _ i a b Ha Hb). f_equal. replace (1 / 2 * (a + b)) with ((a + b) / 2) by lra. unfold transmission, sigma, photon_abs. lra.
Qed.
Print Assumptions C89_absorption.
(** a new component has the settings given, and for those not given the trapezoid rule, central differences and the
    tables of its class; it is refused exactly if one of the settings given (or the table of the class) is not in its lists *)
Definition given (o : option str) (d : str) : str := match o with Some v => v | None => d end.
Theorem C89_new : forall k method abund xsect grad,
  (forall s, znew k method abund xsect grad = Ok s ->
    In (given method (s2l "trapz"), z_method s) method_names /\
    In (given grad (s2l "central"), z_grad s) [(s2l "central", Central); (s2l "forward", Forward)] /\ z_kept s = None /\
    z_abund s = given abund (zk_abund k) /\ z_xsect s = given xsect (zk_xsect k) /\ In (z_abund s) (zk_abunds k) /\ In (z_xsect s) (zk_xsects k)) /\
  (In (given abund (zk_abund k)) (zk_abunds k) -> In (given xsect (zk_xsect k)) (zk_xsects k) ->
   In (given method (s2l "trapz")) (map fst method_names) -> In (given grad (s2l "central")) (map s2l ["central"; "forward"]%string) ->
   exists s, znew k method abund xsect grad = Ok s).
Proof.
  intros k method abund xsect grad. unfold znew. cbv zeta.
  change (match abund with Some x => x | None => zk_abund k end) with (given abund (zk_abund k)).
  change (match xsect with Some x => x | None => zk_xsect k end) with (given xsect (zk_xsect k)).
  change (match method with Some x => x | None => s2l "trapz" end) with (given method (s2l "trapz")).
  assert (M : forall v m, parse_method v = Some m -> In (v, m) method_names).
  { intros v m. unfold parse_method, method_names. destruct (str_eqb_spec v (s2l "trapz")) as [->|]; [intros [= <-]; now left|].
    destruct (str_eqb_spec v (s2l "simpson")) as [->|]; [intros [= <-]; right; now left|discriminate]. }
  assert (G : forall v m, parse_grad v = Some m -> In (given v (s2l "central"), m) [(s2l "central", Central); (s2l "forward", Forward)]).
  { intros [v|] m; unfold parse_grad; cbn [given]; [|intros [= <-]; now left]. destruct (str_eqb_spec v (s2l "central")) as [->|]; [intros [= <-]; now left|].
    destruct (str_eqb_spec v (s2l "forward")) as [->|]; [intros [= <-]; right; now left|discriminate]. }
  split.
  - intros s H. destruct (mem (given abund (zk_abund k)) (zk_abunds k)) eqn:A; [|discriminate]. destruct (mem (given xsect (zk_xsect k)) (zk_xsects k)) eqn:X; [|discriminate]. cbn [negb] in H.
    destruct (parse_method _) as [m|] eqn:Em; [|discriminate]. destruct (parse_grad grad) as [g|] eqn:Eg; [|discriminate]. injection H as <-.
    cbn [z_method z_grad z_kept z_abund z_xsect]. apply mem_spec in A. apply mem_spec in X. split; [now apply M|]. split; [now apply G|]. auto.
  - intros A X Hm Hg. apply mem_spec in A. apply mem_spec in X. rewrite A, X. cbn [negb].
    assert (E : exists m, parse_method (given method (s2l "trapz")) = Some m).
    { destruct Hm as [<- | [<- | []]]; eexists; reflexivity. }
    destruct E as (m & ->).
    assert (E : exists g, parse_grad grad = Some g).
    { destruct grad as [v|]; [|eexists; reflexivity]. destruct Hg as [E | [E | []]]; cbn [given] in E; rewrite <- E; eexists; reflexivity. }
    destruct E as (g & ->). eauto.
Qed.
Print Assumptions C89_new.
(** an absorption class of one's own, derived from the base class, looks for a table under its own name and cannot be evaluated *)
Theorem C89_subclass_refuted : forall logsigma k e nH egrid, ~ In (zk_name k) (map s2l ["phabs"; "tbabs"; "wabs"]%string) -> absorb logsigma k e nH egrid = Err KeyError.
Proof.
  intros logsigma k e nH egrid H. unfold absorb. destruct (has_table (zk_name k) (e_xsect e) (e_abund e)) eqn:E; [|reflexivity]. exfalso. apply H.
  apply existsb_exists in E as ([[n x] a] & I & E). cbn in E. destruct (str_eqb_spec (zk_name k) n) as [->|]; [|discriminate]. unfold tables in I.
  apply in_app_or in I as [I|I].
  - apply in_flat_map in I as (y & _ & I). apply in_map_iff in I as (z & E' & _). injection E' as <- _ _. now left.
  - apply in_app_or in I as [I|I].
    + apply in_map_iff in I as (z & E' & _). injection E' as <- _ _. now right; left.
    + destruct I as [E'|[]]. injection E' as <- _ _. now right; right; left.
Qed.
Print Assumptions C89_subclass_refuted.

(** ** the differentiation rule of python components *)
Lemma kept_stays k h : forall s g, z_kept s = Some g -> z_kept (zrun k s h) = Some g.
Proof.
  induction h as [|o r IH]; intros s g H; [exact H|]. rewrite zrun_cons. apply IH. destruct o as [v|v|v|v|]; cbn.
  - now destruct (parse_method v).
  - now destruct (mem v (zk_abunds k)).
  - now destruct (mem v (zk_xsects k)).
  - now destruct (parse_grad v).
  - now rewrite H.
Qed.
(** it is fixed by the first evaluation function made *)
Theorem C89_grad_first : forall k s h e e', z_kept s = None -> snd (zstep k s ZEval) = Some e -> snd (zstep k (zrun k s (ZEval :: h)) ZEval) = Some e' ->
  e_grad e = z_grad s /\ e_grad e' = z_grad s.
Proof.
  intros k s h e e' K H H'. cbn in H. rewrite K in H. injection H as <-. split; [reflexivity|]. cbn [zstep snd] in H'. rewrite zrun_cons in H'.
  rewrite (kept_stays k h _ (z_grad s)) in H' by (cbn; now rewrite K). now injection H' as <-.
Qed.
Print Assumptions C89_grad_first.
(** so a rule set later is reported by the component but not used *)
Theorem C89_grad_refuted : exists k s s1 e, znew k None None None None = Ok s /\
  s1 = zrun k s [ZEval; ZGrad (Some (s2l "forward"))] /\ z_grad s1 = Forward /\ snd (zstep k s1 ZEval) = Some e /\ e_grad e = Central.
Proof. exists PhAbs. do 3 eexists. split; [reflexivity|]. split; [reflexivity|]. split; [reflexivity|]. split; reflexivity. Qed.
Print Assumptions C89_grad_refuted.
(** the hypotheses are met: TBAbs with its defaults, then another table *)
Example C89_case : exists s e, znew TBAbs None None None None = Ok s /\ e_abund e = s2l "angr" /\ e_method e = Simpson /\
  snd (zstep TBAbs (zrun TBAbs s [ZAbund (s2l "angr"); ZXsect (s2l "bcmc"); ZMethod (s2l "simpson")]) ZEval) = Some e.
Proof. do 2 eexists. split; [reflexivity|]. split; [|split; [|reflexivity]]; reflexivity. Qed.
