(** C86: starting points of maximum likelihood fits; C87: stored log likelihoods. *)
From Coq Require Import Ascii String.
From Verif Require Import RBase Data Namespace NamespaceProofs FitInput HelperData ModelInfo HelperNames HelperNamesProofs Batch BatchProofs HelperDataProofs CompileProofs SimulateProofs Prop_Helper Prop_Batch Prop_Intensity Loglike.
From Coq Require Import List Lia Lra.
Open Scope list_scope.
Open Scope R_scope.

(** * C86 *)
Lemma get_puts_def {V} k (d l : dict V) : NoDup (map fst l) -> get (puts d l) k = match get l k with Some v => Some v | None => get d k end.
Proof.
  intros N. destruct (get l k) as [v|] eqn:G.
  - apply get_puts; [exact N|]. now apply get_in.
  - apply get_puts_absent. now apply get_none_iff.
Qed.
Lemma to_unconstr_eq free (B : @bijections R) d a : NoDup free -> Forall2 (fun n v => get d n = Some v) free a ->
  constr_dic_to_unconstr_arr free B d = Ok (map (fun p => from_support B (fst p) (snd p)) (combine free a)).
Proof.
  intros N F. unfold constr_dic_to_unconstr_arr. destruct (C44_dictionary free d) as (D & _). rewrite (proj2 (D a) F). cbn [bind].
  assert (L : length a = length free) by (clear -F; induction F; cbn; congruence).
  unfold constr_arr_to_unconstr_arr, constr_arr_to_unconstr_dic. rewrite arr_to_dic_eq by exact N. rewrite L, Nat.eqb_refl. cbn [bind].
  rewrite transform_combine. unfold dic_to_arr. apply mapR_get_combine; [exact N|]. rewrite map_length, combine_length. lia.
Qed.
Lemma to_unconstr_nth free (B : @bijections R) d x : NoDup free -> constr_dic_to_unconstr_arr free B d = Ok x ->
  length x = length free /\ forall i n, nth_error free i = Some n -> exists v, get d n = Some v /\ nth_error x i = Some (from_support B n v).
Proof.
  intros N H. unfold constr_dic_to_unconstr_arr in H. apply bind_ok in H as (a & Ha & H). destruct (C44_dictionary free d) as (D & _).
  apply D in Ha. pose proof (to_unconstr_eq free B d a N Ha) as E. unfold constr_dic_to_unconstr_arr in E. rewrite (proj2 (D a) Ha) in E. cbn [bind] in E.
  rewrite E in H. injection H as <-. clear -Ha. induction Ha as [|n v free a G F IH]; [split; [reflexivity|]; now intros [|i] n|].
  destruct IH as (IL & IN). split; [cbn; now rewrite IL|]. intros [|i] m Hm; cbn in Hm |- *.
  - injection Hm as <-. now exists v.
  - now apply IN.
Qed.

(** the value a user expects the search to start from: the one given, otherwise the default one *)
Definition wanted (default init : dict R) (n : str) (v : R) : Prop :=
  In (n, v) init \/ (~ In n (map fst init) /\ get default n = Some v).
(** the search starts, parameter by parameter, at the value given by the user, and at the default if none is given, each moved to
    unconstrained space by the bijection of its own parameter *)
Theorem C86_start : forall free B default init, NoDup free -> NoDup (map fst init) -> (forall n, In n free -> In n (map fst default)) ->
  exists x, first_guess free B default (Some init) = Ok x /\ length x = length free /\
  forall i n, nth_error free i = Some n -> exists v, wanted default init n v /\ nth_error x i = Some (from_support B n v).
Proof.
  intros free B default init N Ni Hd. unfold first_guess. cbn [check_init]. set (d := puts default init).
  assert (HG : forall n, In n free -> exists v, get d n = Some v).
  { intros n Hn. destruct (get d n) as [v|] eqn:G; [now exists v|]. exfalso. unfold d in G. rewrite get_puts_def in G by exact Ni.
    destruct (get init n); [discriminate|]. apply get_none_iff in G. now apply G, Hd. }
  assert (Ha : exists a, Forall2 (fun n v => get d n = Some v) free a).
  { clear -HG. induction free as [|n l IH]; [exists []; constructor|]. destruct (HG n (or_introl eq_refl)) as (v & Gv).
    destruct IH as (a & Fa); [intros m Hm; apply HG; now right|]. exists (v :: a). now constructor. }
  destruct Ha as (a & Fa). pose proof (to_unconstr_eq free B d a N Fa) as E. eexists. split; [exact E|].
  destruct (to_unconstr_nth free B d _ N E) as (L & H). split; [exact L|]. intros i n Hn. destruct (H i n Hn) as (v & Gv & Hx).
  exists v. split; [|exact Hx]. unfold d in Gv. rewrite get_puts_def in Gv by exact Ni. unfold wanted. destruct (get init n) as [w|] eqn:Gi.
  - injection Gv as ->. left. now apply get_in.
  - right. split; [now apply get_none_iff|exact Gv].
Qed.
Print Assumptions C86_start.

(** names that are no free parameter have no effect and raise no error: a misspelt name is ignored *)
Theorem C86_unknown_ignored_refuted : forall free B default init n v, ~ In n free ->
  first_guess free B default (Some (init ++ [(n, v)])) = first_guess free B default (Some init).
Proof.
  intros free B default init n v Hn. unfold first_guess, constr_dic_to_unconstr_arr. cbn [check_init].
  destruct (C44_dictionary free (puts default (init ++ [(n, v)]))) as (_ & _ & D). rewrite (D (puts default init)); [reflexivity|].
  intros m Hm. unfold puts. rewrite fold_left_app. cbn [fold_left fst snd]. rewrite get_put. destruct (str_eqb_spec m n) as [->|]; [contradiction|reflexivity].
Qed.
Print Assumptions C86_unknown_ignored_refuted.

Section Searches.
Variables (free : list str) (B : @bijections R) (default : dict R) (lm : solver_opts -> list R -> list R) (ns_run : solver_opts -> list ns_sample).
Let run := run_mle free B default lm ns_run.
Let aft := after free B default lm ns_run.
Definition call_opts (c : mle_call) : solver_opts := opts_of (mc_steps c) (mc_throw c) (mc_verbose c).

Lemma run_lm_kept st c k : fst st = Some k -> fst (snd (run st c)) = Some k.
Proof.
  intros H. unfold run, run_mle, mle_start. destruct (first_guess free B default (mc_init c)); [|exact H].
  destruct (mc_method c); cbn; try exact H. now rewrite H.
Qed.
Lemma run_lm_none st c : fst st = None -> mc_method c <> LmM -> fst (snd (run st c)) = None.
Proof.
  intros H M. unfold run, run_mle, mle_start. destruct (first_guess free B default (mc_init c)); [|exact H].
  destruct (mc_method c); cbn; try exact H. now elim M.
Qed.
Lemma run_ns_kept st c k : snd st = Some k -> snd (snd (run st c)) = Some k.
Proof.
  intros H. unfold run, run_mle, mle_start. destruct (first_guess free B default (mc_init c)); [|exact H].
  destruct (mc_method c); cbn; try exact H. now rewrite H.
Qed.
Lemma run_ns_none st c : snd st = None -> mc_method c <> NsM -> snd (snd (run st c)) = None.
Proof.
  intros H M. unfold run, run_mle, mle_start. destruct (first_guess free B default (mc_init c)); [|exact H].
  destruct (mc_method c); cbn; try exact H. now elim M.
Qed.
Lemma after_app st h h' : aft st (h ++ h') = aft (aft st h) h'.
Proof. unfold aft, after. apply fold_left_app. Qed.
Lemma after_fold (P : mle_state -> Prop) (ok : mle_call -> Prop) : (forall st c, P st -> ok c -> P (snd (run st c))) -> forall h st, P st -> Forall ok h -> P (aft st h).
Proof.
  intros S. induction h as [|c h IH]; intros st H F; [exact H|]. inversion F; subst. change (P (aft (snd (run st c)) h)). apply IH; [|assumption]. now apply S.
Qed.

(** minuit: the local search starts at the guess, whatever was fitted before; an unknown method is refused and changes nothing *)
Theorem C86_minuit : forall h c, mc_method c = MinuitM -> fst (run (aft (None, None) h) c) = first_guess free B default (mc_init c).
Proof. intros h c M. unfold run, run_mle, mle_start. rewrite M. now destruct (first_guess free B default (mc_init c)). Qed.
Theorem C86_unsupported : forall st c x, mc_method c = OtherM -> first_guess free B default (mc_init c) = Ok x -> run st c = (Err ValueError, st).
Proof. intros st c x M H. unfold run, run_mle, mle_start. now rewrite M, H. Qed.

(** Levenberg-Marquardt: the guess of the call is searched from, by a solver with the options of the FIRST such call *)
Theorem C86_lm : forall h1 c1 h2 c x1 x, Forall (fun c => mc_method c <> LmM) h1 -> mc_method c1 = LmM -> first_guess free B default (mc_init c1) = Ok x1 ->
  mc_method c = LmM -> first_guess free B default (mc_init c) = Ok x ->
  fst (run (aft (None, None) h1) c1) = Ok (lm (call_opts c1) x1) /\
  fst (run (aft (None, None) (h1 ++ c1 :: h2)) c) = Ok (lm (call_opts c1) x).
Proof.
  intros h1 c1 h2 c x1 x F M1 G1 M G.
  assert (E1 : fst (aft (None, None) h1) = None) by (apply (after_fold (fun st => fst st = None) (fun c => mc_method c <> LmM)); [apply run_lm_none|reflexivity|exact F]).
  assert (R1 : run (aft (None, None) h1) c1 = (Ok (lm (call_opts c1) x1), (Some (call_opts c1), snd (aft (None, None) h1)))).
  { unfold run at 1, run_mle, mle_start. rewrite G1, M1. cbn [optimize_lm]. now rewrite E1. }
  split; [now rewrite R1|]. rewrite after_app. change (c1 :: h2) with ([c1] ++ h2). rewrite after_app.
  assert (E2 : fst (aft (aft (aft (None, None) h1) [c1]) h2) = Some (call_opts c1)).
  { apply (after_fold (fun st => fst st = Some (call_opts c1)) (fun _ => True)); [intros; now apply run_lm_kept| |apply Forall_forall; easy].
    unfold aft at 1, after. cbn [fold_left]. change (fst (snd (run (aft (None, None) h1) c1)) = Some (call_opts c1)). now rewrite R1. }
  unfold run, run_mle, mle_start. rewrite G, M. unfold optimize_lm. now rewrite E2.
Qed.

Lemma argmax_from_spec all l : forall best bv i, (best < i)%nat -> nth_error all best = Some bv -> (forall j, (i <= j)%nat -> nth_error all j = nth_error l (j - i)) ->
  (forall j x, (j < i)%nat -> nth_error all j = Some x -> x <= bv /\ ((j < best)%nat -> x < bv)) ->
  exists v, nth_error all (argmax_from best bv i l) = Some v /\ forall j x, nth_error all j = Some x -> x <= v /\ ((j < argmax_from best bv i l)%nat -> x < v).
Proof.
  induction l as [|y l IH]; intros best bv i Hb Hv Ht Hp; cbn [argmax_from].
  - exists bv. split; [exact Hv|]. intros j x Hj. destruct (Nat.lt_ge_cases j i) as [L|L]; [now apply Hp|]. rewrite Ht in Hj by exact L. now destruct (j - i)%nat.
  - assert (Hy : nth_error all i = Some y) by (rewrite Ht by lia; now rewrite Nat.sub_diag).
    assert (Ht' : forall j, (S i <= j)%nat -> nth_error all j = nth_error l (j - S i)).
    { intros j Hj. rewrite Ht by lia. now replace (j - i)%nat with (S (j - S i)) by lia. }
    destruct (Rltb bv y) eqn:E.
    + apply Rltb_true in E. apply IH; [lia|exact Hy|exact Ht'|]. intros j x Hj Hx. destruct (Nat.eq_dec j i) as [->|].
      * rewrite Hy in Hx. injection Hx as ->. split; [lra|lia].
      * destruct (Hp j x) as (H1 & _); [lia|exact Hx|]. split; [lra|intros; lra].
    + apply Rltb_false in E. apply IH; [lia|exact Hv|exact Ht'|]. intros j x Hj Hx. destruct (Nat.eq_dec j i) as [->|].
      * rewrite Hy in Hx. injection Hx as ->. split; [lra|lia].
      * apply Hp; [lia|exact Hx].
Qed.
Lemma argmax_spec l k : argmax l = Ok k -> exists v, nth_error l k = Some v /\ forall j x, nth_error l j = Some x -> x <= v /\ ((j < k)%nat -> x < v).
Proof.
  destruct l as [|y l]; [discriminate|]. cbn [argmax]. intros H. injection H as <-. apply argmax_from_spec; [lia|reflexivity| |].
  - intros [|j] Hj; [lia|]. cbn. now rewrite Nat.sub_0_r.
  - intros [|j] x Hj Hx; [|lia]. injection Hx as ->. split; [lra|lia].
Qed.

(** the sum of the log likelihoods of all the channels of all the data *)
Definition total_loglike (s : ns_sample) : R := rsum (concat (snd s)).

(** nested sampling: the samples are those of the first such call; the local search starts at the first of the samples with the largest
    total likelihood, whatever guess is given *)
Theorem C86_ns : forall h1 c1 h2 c x1 x0 x, NoDup free ->
  Forall (fun c => mc_method c <> NsM) h1 -> mc_method c1 = NsM -> first_guess free B default (mc_init c1) = Ok x1 ->
  mc_method c = NsM -> first_guess free B default (mc_init c) = Ok x0 ->
  fst (run (aft (None, None) (h1 ++ c1 :: h2)) c) = fst (run (aft (None, None) h1) c1) /\
  (fst (run (aft (None, None) h1) c1) = Ok x ->
   exists k s, nth_error (ns_run (call_opts c1)) k = Some s /\
   (forall j s', nth_error (ns_run (call_opts c1)) j = Some s' -> total_loglike s' <= total_loglike s /\ ((j < k)%nat -> total_loglike s' < total_loglike s)) /\
   length x = length free /\ forall i n, nth_error free i = Some n -> exists v, get (fst s) n = Some v /\ nth_error x i = Some (from_support B n v)).
Proof.
  intros h1 c1 h2 c x1 x0 x N F M1 G1 M G.
  assert (E1 : snd (aft (None, None) h1) = None) by (apply (after_fold (fun st => snd st = None) (fun c => mc_method c <> NsM)); [apply run_ns_none|reflexivity|exact F]).
  set (o := call_opts c1).
  assert (R1 : run (aft (None, None) h1) c1 = (fst (optimize_ns free B ns_run None o), (fst (aft (None, None) h1), Some (ns_run o)))).
  { unfold run at 1, run_mle, mle_start. rewrite G1, M1. now rewrite E1. }
  split.
  - rewrite R1. cbn [fst]. rewrite after_app. change (c1 :: h2) with ([c1] ++ h2). rewrite after_app.
    assert (E2 : snd (aft (aft (aft (None, None) h1) [c1]) h2) = Some (ns_run o)).
    { apply (after_fold (fun st => snd st = Some (ns_run o)) (fun _ => True)); [intros; now apply run_ns_kept| |apply Forall_forall; easy].
      unfold aft at 1, after. cbn [fold_left]. change (snd (snd (run (aft (None, None) h1) c1)) = Some (ns_run o)). now rewrite R1. }
    unfold run, run_mle, mle_start. rewrite G, M. unfold optimize_ns. rewrite E2. reflexivity.
  - rewrite R1. cbn [fst]. unfold optimize_ns. cbn [fst]. intros H. apply bind_ok in H as (k & Hk & H). apply bind_ok in H as (d & Hd & H).
    apply argmax_spec in Hk as (v & Hv & Hmax). rewrite nth_error_map in Hv. destruct (nth_error (ns_run o) k) as [s|] eqn:Es; [|discriminate]. injection Hv as <-.
    exists k, s. split; [exact Es|]. split.
    + intros j s' Hj. assert (ET : forall z, total_loglike z = sample_loglike z) by (intros z; apply rsum_concat). rewrite !ET.
      apply Hmax. now rewrite nth_error_map, Hj.
    + destruct (to_unconstr_nth free B d x N H) as (L & Hx). split; [exact L|]. intros i n Hn. destruct (Hx i n Hn) as (w & Gw & Hw). exists w. split; [|exact Hw].
      rewrite (nth_error_nth _ _ _ Es) in Hd. apply mapE_inv in Hd. apply get_in in Gw. clear -Hd Gw.
      induction Hd as [|m p l d E F IH]; [destruct Gw|]. destruct Gw as [->|Gw]; [|now apply IH].
      destruct (get (fst s) m) as [u|] eqn:Gu; [|discriminate]. cbn in E. injection E as -> ->. exact Gu.
Qed.
End Searches.
Print Assumptions C86_minuit.
Print Assumptions C86_unsupported.
Print Assumptions C86_lm.
Print Assumptions C86_ns.

(** the options of a call reach the solver only if it is the first of its kind: a second search with more steps is not given them *)
Theorem C86_options_refuted : exists free B default lm ns_run c1 c2 x,
  mc_method c1 = LmM /\ mc_method c2 = LmM /\ first_guess free B default (mc_init c2) = Ok x /\
  fst (run_mle free B default lm ns_run (after free B default lm ns_run (None, None) [c1]) c2) <> Ok (lm (call_opts c2) x).
Proof.
  exists [s2l "K"], {| to_support := fun _ v => v; from_support := fun _ v => v |}, [(s2l "K", 1)], (fun o x => [IZR (so_steps o)]), (fun _ => []).
  exists {| mc_init := None; mc_method := LmM; mc_steps := Some 10%Z; mc_throw := false; mc_verbose := false |}.
  exists {| mc_init := None; mc_method := LmM; mc_steps := Some 1000%Z; mc_throw := false; mc_verbose := false |}.
  exists [1]. repeat split; try reflexivity. cbn. intros H. injection H as H. apply eq_IZR in H. discriminate.
Qed.
Print Assumptions C86_options_refuted.
(** the hypotheses are met: two parameters, one of them given *)
Example C86_case : first_guess [s2l "K"; s2l "a"] {| to_support := fun _ v => v + 1; from_support := fun _ v => v - 1 |} [(s2l "a", 2); (s2l "K", 1)] (Some [(s2l "K", 5)]) = Ok [5 - 1; 2 - 1].
Proof. reflexivity. Qed.
Example C86_ns_case : fst (run_mle [s2l "K"] {| to_support := fun _ v => v; from_support := fun _ v => v |} [(s2l "K", 1)] (fun _ x => x)
    (fun _ => [([(s2l "K", 3)], [[-1; -2]]); ([(s2l "K", 4)], [[-1; -1]])]) (None, None)
    {| mc_init := None; mc_method := NsM; mc_steps := None; mc_throw := true; mc_verbose := false |}) = Ok [4].
Proof. cbn. unfold sample_loglike. cbn. unfold Rltb. destruct (Rlt_dec _ _) as [H|H]; [reflexivity|]. exfalso. apply H. lra. Qed.

(** * C87 *)
Lemma point_inv stats (sites : dict (list R)) point :
  mapE (fun e : str * stat => bind (opt_res KeyError (get sites (loglike_name (fst e)))) (fun v => Ok (fst e, v))) stats = Ok point ->
  Forall2 (fun (e : str * stat) (p : str * list R) => fst p = fst e /\ get sites (loglike_name (fst e)) = Some (snd p)) stats point.
Proof.
  intros H. apply mapE_inv in H. induction H as [|e p l l' E F IH]; constructor; [|exact IH].
  destruct (get sites (loglike_name (fst e))) as [v|]; [|discriminate]. cbn in E. injection E as <-. easy.
Qed.
(** the log likelihoods of the channels of every data set, in the order of the data; their sums per data set; the list of all of them, one data
    set after the other, and its sum, which is the sum of those of the data sets *)
Theorem C87_sums : forall stats sites l, get_loglike stats sites = Ok l ->
  Forall2 (fun (e : str * stat) (p : str * list R) => fst p = fst e /\ get sites (fst e ++ s2l "_loglike") = Some (snd p)) stats (l_point l) /\
  Forall2 (fun (p : str * list R) (g : str * R) => fst g = fst p /\ snd g = rsum (snd p)) (l_point l) (l_group l) /\
  l_channels l = concat (map snd (l_point l)) /\ l_total l = rsum (l_channels l) /\ l_total l = rsum (map snd (l_group l)).
Proof.
  intros stats sites l H. unfold get_loglike in H. apply bind_ok in H as (data & Hd & H). apply bind_ok in H as (point & Hp & H).
  destruct (length stats =? 0)%nat; [discriminate|]. injection H as <-. cbn. split; [now apply point_inv|]. split; [|split; [reflexivity|split; [reflexivity|]]].
  - clear. induction point; constructor; [easy|exact IHpoint].
  - rewrite rsum_concat. f_equal. rewrite !map_map. reflexivity.
Qed.
Print Assumptions C87_sums.

(** last characters *)
Lemma last_app {X} (a b : list X) d : b <> [] -> last (a ++ b) d = last b d.
Proof. intros H. induction a as [|x a IH]; [reflexivity|]. cbn. rewrite IH. destruct (a ++ b) eqn:E; [|reflexivity]. apply app_eq_nil in E as (_ & E). now elim H. Qed.
Definition lastc (s : str) : ascii := last s "0"%char.
Lemma lastc_total k : lastc (k ++ s2l "_total") = "l"%char.
Proof. unfold lastc. now rewrite last_app. Qed.
Lemma lastc_group stats k i : In i (data_group stats k) -> lastc i = "n"%char \/ lastc i = "f"%char.
Proof.
  unfold data_group. destruct (with_back _); cbn; intros H; destruct H as [<-|H]; try (destruct H as [<-|H]); try contradiction; unfold lastc, on_name, off_name; rewrite last_app by easy; auto.
Qed.
(** names of data that do not meet those of the derived entries *)
Record clear_names (stats : dict stat) : Prop := {
  cn_nodup : NoDup (map fst stats);
  cn_total : forall k k', In k (map fst stats) -> In k' (map fst stats) -> k <> k' ++ s2l "_total";
  cn_data : forall k k', In k (map fst stats) -> In k' (map fst stats) -> k <> on_name k' /\ k <> off_name k';
  cn_keys : ~ In (s2l "total") (map fst stats) /\ ~ In (s2l "channels") (map fst stats) }.
(** every entry of the stored log likelihoods holds what its name says *)
Theorem C87_stored : forall stats sites l, clear_names stats -> get_loglike stats sites = Ok l ->
  (forall k s, In (k, s) stats -> exists v, get sites (k ++ s2l "_loglike") = Some v /\
     get (stored_loglike l) k = Some v /\ get (stored_loglike l) (k ++ s2l "_total") = Some [rsum v] /\
     forall i, In i (data_group stats k) -> exists w, get sites (i ++ s2l "_loglike") = Some w /\ get (stored_loglike l) i = Some w) /\
  get (stored_loglike l) (s2l "channels") = Some (l_channels l) /\ get (stored_loglike l) (s2l "total") = Some [l_total l].
Proof.
  intros stats sites l C H. unfold get_loglike in H. apply bind_ok in H as (data & Hd & H). apply bind_ok in H as (point & Hp & H).
  destruct (length stats =? 0)%nat; [discriminate|]. injection H as <-. unfold stored_loglike. cbn [l_data l_point l_group l_channels l_total].
  pose proof (point_inv _ _ _ Hp) as Fp.
  assert (Kp : map fst point = map fst stats) by (clear -Fp; induction Fp as [|e p a b (E & _) F IH]; [reflexivity|cbn; congruence]).
  set (G := map (fun e : str * R => (fst e ++ s2l "_total", [snd e])) (map (fun e : str * list R => (fst e, rsum (snd e))) point)).
  assert (KG : map fst G = map (fun k => k ++ s2l "_total") (map fst stats)) by (unfold G; rewrite <- Kp, !map_map; reflexivity).
  assert (NG : NoDup (map fst G)).
  { rewrite KG. apply FinFun.Injective_map_NoDup; [|apply C]. intros a b E. now apply app_inv_tail in E. }
  assert (KG' : forall x, In x (map fst (puts [] G)) -> exists k, In k (map fst stats) /\ x = k ++ s2l "_total").
  { intros x Hx. destruct (in_dec str_eq_dec x (map fst G)) as [I|I].
    - rewrite KG in I. apply in_map_iff in I as (k & <- & Hk). now exists k.
    - apply (get_puts_absent x G []) in I. apply get_none_iff in I. contradiction. }
  assert (NGp : NoDup (map fst (puts [] G))).
  { unfold puts. rewrite fold_put_dict; exact NG. }
  assert (TK : forall x, x <> total_key -> x <> channels_key -> forall d c t, get (put (put d channels_key c) total_key t) x = @get (list R) d x).
  { intros x A B' d c t. rewrite !get_put. destruct (str_eqb_spec x total_key); [easy|]. destruct (str_eqb_spec x channels_key); [easy|reflexivity]. }
  assert (Ltot : forall k : str, k ++ s2l "_total" <> total_key /\ k ++ s2l "_total" <> channels_key).
  { intros k. split; intros E.
    - apply (f_equal (@length ascii)) in E. rewrite app_length in E. cbn in E. lia.
    - apply (f_equal lastc) in E. rewrite lastc_total in E. discriminate. }
  split; [|split].
  - intros k s Hk. assert (Ik : In k (map fst stats)) by (apply in_map_iff; now exists (k, s)).
    destruct (F2_in_l _ _ _ _ Fp Hk) as ([k' v] & Hpv & Ek & Gv). cbn in Ek, Gv. subst k'. exists v. split; [exact Gv|].
    assert (NP : NoDup (map fst point)) by (rewrite Kp; apply C).
    split; [|split].
    + rewrite TK; [|intros ->; exact (proj1 (cn_keys _ C) Ik)|intros ->; exact (proj2 (cn_keys _ C) Ik)].
      rewrite get_puts_absent.
      * now apply get_puts.
      * intros I. destruct (KG' _ I) as (k' & Hk' & E). now apply (cn_total _ C k k').
    + rewrite TK; [|apply Ltot|apply Ltot]. apply get_puts; [exact NGp|]. unfold puts. rewrite fold_put_dict by exact NG. cbn [List.app].
      unfold G. rewrite map_map. apply in_map_iff. now exists (k, v).
    + intros i Hi. assert (Li := lastc_group _ _ _ Hi).
      assert (Hn : In i (group_names stats)) by (unfold group_names; apply in_flat_map; now exists (k, s)).
      apply mapE_inv in Hd. destruct (F2_in_l _ _ _ _ Hd Hn) as (p & Hpd & Ep).
      destruct (get sites (loglike_name i)) as [w|] eqn:Gw; [|discriminate]. cbn in Ep. injection Ep as <-. exists w. split; [exact Gw|].
      rewrite TK; [|intros ->; destruct Li; discriminate|intros ->; destruct Li; discriminate].
      rewrite get_puts_absent; [|intros I; destruct (KG' _ I) as (k' & _ & ->); rewrite lastc_total in Li; destruct Li; discriminate].
      rewrite get_puts_absent.
      * apply get_puts_func; [exact Hpd|]. intros u Hu. destruct (F2_in_r _ _ _ _ Hd Hu) as (j & Hj & Ej).
        destruct (get sites (loglike_name j)) as [z|] eqn:Gz; [|discriminate]. cbn in Ej. injection Ej as -> ->. congruence.
      * rewrite Kp. intros I. destruct (cn_data _ C i k I Ik) as (A1 & A2). unfold data_group in Hi. destruct (with_back _); cbn in Hi; intuition congruence.
  - rewrite get_put. rewrite get_put. reflexivity.
  - rewrite get_put. reflexivity.
Qed.
Print Assumptions C87_stored.
(** data named [A] and [A_total]: the entry named after the second holds the sum over the channels of the first *)
Theorem C87_collision_refuted : exists stats sites l v, NoDup (map fst stats) /\ get_loglike stats sites = Ok l /\
  In (s2l "A_total") (map fst stats) /\ get sites (s2l "A_total_loglike") = Some v /\ get (stored_loglike l) (s2l "A_total") <> Some v.
Proof.
  exists [(s2l "A", Cstat); (s2l "A_total", Cstat)].
  exists [(s2l "A_Non_loglike", [1; 2]); (s2l "A_loglike", [1; 2]); (s2l "A_total_Non_loglike", [5]); (s2l "A_total_loglike", [5])].
  eexists; exists [5]. split; [|split; [reflexivity|split; [now right; left|split; [reflexivity|]]]].
  - cbn. constructor; [intros [E|[]]; discriminate|]. constructor; [intros []|constructor].
  - cbn. intros H. injection H as H. lra.
Qed.
Print Assumptions C87_collision_refuted.
(** the hypotheses are met *)
Example C87_clear : clear_names [(s2l "A", Cstat); (s2l "B", Wstat)].
Proof.
  split; cbn.
  - constructor; [intros [E|[]]; discriminate|]. constructor; [intros []|constructor].
  - intros k k' [<-|[<-|[]]] [<-|[<-|[]]]; discriminate.
  - intros k k' [<-|[<-|[]]] [<-|[<-|[]]]; split; discriminate.
  - split; intros [E|[E|[]]]; discriminate.
Qed.
