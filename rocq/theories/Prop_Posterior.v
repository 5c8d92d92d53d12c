(** C68: quantities derived from a posterior sample. *)
From Coq Require Import Ascii String.
From Verif Require Import RBase Data DataProofs Namespace NamespaceProofs FitInput HelperData HelperDataProofs HelperNames HelperNamesProofs Batch BatchProofs Prop_Batch
  Results ResultsProofs Prop_Results Summary SummaryProofs Prop_Summary CompileProofs SimulateProofs Posterior.
From Coq Require Import List.
Open Scope list_scope.

(** ** the samples used for derived quantities *)
Definition rectangular (chains draws : nat) (v : list (list R)) : Prop := length v = chains /\ Forall (fun r => length r = draws) v.
Lemma concat_rows v : forall chains draws s, rectangular chains draws v ->
  concat v = map (fun ij => at2 v (fst ij - s) (snd ij)) (list_prod (seq s chains) (seq 0 draws)).
Proof.
  induction v as [|r v IH]; intros chains draws s (L & F); cbn [length] in L; subst chains; [reflexivity|].
  inversion F as [|? ? Lr Fv]; subst. cbn [concat seq list_prod]. rewrite map_app, map_map. f_equal.
  - cbn [fst snd]. rewrite Nat.sub_diag. unfold at2. cbn [nth]. apply nth_ext with (d := 0) (d' := 0); [now rewrite map_length, seq_length|].
    intros i Hi. now rewrite nth_seq_map by exact Hi.
  - rewrite (IH (length v) (length r) (S s)) by (split; [reflexivity|exact Fv]). apply map_ext_in. intros (i, j) Hin. apply in_prod_iff in Hin as (Hi & _).
    apply in_seq in Hi. cbn [fst snd]. unfold at2. replace (i - s)%nat with (S (i - S s)) by lia. reflexivity.
Qed.
Lemma nodup_app_i {A} (l m : list A) : NoDup l -> NoDup m -> (forall x, In x l -> In x m -> False) -> NoDup (l ++ m).
Proof.
  intros N M D. induction N as [|x l Hx N IH]; [exact M|]. cbn. constructor; [|apply IH; intros y Hy; apply D; now right].
  intros H. apply in_app_iff in H as [H|H]; [easy|]. apply (D x); [now left|exact H].
Qed.
Lemma nodup_prod {A B} (l : list A) (l' : list B) : NoDup l -> NoDup l' -> NoDup (list_prod l l').
Proof.
  intros N N'. induction N as [|x l Hx N IH]; cbn [list_prod]; [constructor|]. apply nodup_app_i; [now apply FinFun.Injective_map_NoDup; [congruence|]|exact IH|].
  intros (a, b) H H'. apply in_map_iff in H as (y & E & _). injection E as -> ->. apply in_prod_iff in H'. tauto.
Qed.
(** the samples are joint draws of the posterior (one chain and one draw for all parameters), each draw exactly once if there
    are at most 10000 of them, else 10000 random ones reduced to a multiple of the number of devices *)
Theorem C68_draws : forall devices rng chains draws post, (0 < devices)%nat -> (forall r, (fst (rng r) < chains /\ snd (rng r) < draws)%nat) ->
  Forall (fun e => rectangular chains draws (snd e)) post ->
  exists rows : list (nat * nat),
    post_dist devices rng chains draws post = map (fun e => (fst e, map (fun ij => nth (snd ij) (nth (fst ij) (snd e) []) 0) rows)) post /\
    Forall (fun ij => (fst ij < chains /\ snd ij < draws)%nat) rows /\
    ((chains * draws <= 100 * 100)%nat -> NoDup rows /\ forall i j, (i < chains)%nat -> (j < draws)%nat -> In (i, j) rows) /\
    ((100 * 100 < chains * draws)%nat -> Nat.divide devices (length rows) /\ (length rows <= 100 * 100 < length rows + devices)%nat).
Proof.
  intros devices rng chains draws post Hd Hr F. unfold post_dist. change (100 * 100)%nat with n_max. generalize n_max as N. intros N. destruct (Nat.ltb_spec N (chains * draws)) as [L|L].
  - exists (map rng (seq 0 (N - N mod devices))). split; [|split; [|split]].
    + apply map_ext. intros (k, v). cbn [fst snd]. now rewrite map_map.
    + apply Forall_map, Forall_forall. intros r _. apply Hr.
    + lia.
    + intros _. rewrite map_length, seq_length. pose proof (Nat.div_mod N devices ltac:(lia)) as D. pose proof (Nat.mod_upper_bound N devices ltac:(lia)).
      split; [exists (N / devices)%nat; nia|nia].
  - exists (list_prod (seq 0 chains) (seq 0 draws)). split; [|split; [|split]].
    + apply map_ext_in. intros (k, v) Hin. cbn [fst snd]. f_equal. rewrite Forall_forall in F. specialize (F _ Hin). cbn in F.
      rewrite (concat_rows v chains draws 0 F). apply map_ext. intros (i, j). cbn [fst snd]. now rewrite Nat.sub_0_r.
    + apply Forall_forall. intros (i, j) H. apply in_prod_iff in H as (Hi & Hj). apply in_seq in Hi, Hj. cbn. lia.
    + intros _. split; [apply nodup_prod; apply seq_NoDup|]. intros i j Hi Hj. apply in_prod; apply in_seq; lia.
    + lia.
Qed.
Print Assumptions C68_draws.

(** ** credible intervals *)
(** an entry: the interval is the central one of its level around the median, given also as errors of the median *)
Definition right_entry (v : list R) (p : R) (e : ci_entry) : Prop :=
  central v p (e_lo e) (e_hi e) /\ central v 0 (e_median e) (e_median e) /\ e_lo e <= e_median e <= e_hi e /\
  e_minus e <= 0 <= e_plus e /\ e_median e + e_minus e = e_lo e /\ e_median e + e_plus e = e_hi e.
Lemma entry_right v p e : 0 <= p <= 1 -> ci_entry_of v p = Ok e -> right_entry v p e.
Proof.
  intros Hp H. unfold ci_entry_of in H. apply bind_ok in H as (m & Hm & H). apply bind_ok in H as (lo & Hlo & H). apply bind_ok in H as (hi & Hhi & H). injection H as <-.
  assert (L : lo <= m) by (apply (quantile_mono _ _ _ _ _ Hlo Hm); lra). assert (U : m <= hi) by (apply (quantile_mono _ _ _ _ _ Hm Hhi); lra).
  unfold right_entry. cbn [e_median e_lo e_hi e_minus e_plus]. repeat split; try lra; intros C.
  - pose proof (quantile_below _ _ _ _ Hlo C). lra.
  - pose proof (quantile_above _ _ _ _ Hlo C). lra.
  - pose proof (quantile_below _ _ _ _ Hhi C). lra.
  - pose proof (quantile_above _ _ _ _ Hhi C). lra.
  - pose proof (quantile_below _ _ _ _ Hm C). lra.
  - pose proof (quantile_above _ _ _ _ Hm C). lra.
  - pose proof (quantile_below _ _ _ _ Hm C). lra.
  - pose proof (quantile_above _ _ _ _ Hm C). lra.
Qed.
Lemma entry_defined v p : v <> [] -> 0 <= p <= 1 -> exists e, ci_entry_of v p = Ok e.
Proof.
  intros N Hp. unfold ci_entry_of. destruct (quantile_defined v 0.5 N ltac:(lra)) as (m & ->). destruct (quantile_defined v (0.5 - p / 2) N ltac:(lra)) as (lo & ->).
  destruct (quantile_defined v (0.5 + p / 2) N ltac:(lra)) as (hi & ->). cbn [bind]. eauto.
Qed.
(** the values of a function on the samples used for derived quantities *)
Definition values_of (dist : dict (list R)) (f : pfun) (x : list R) : Prop :=
  length x = size dist /\ forall r, (r < size dist)%nat -> f (sample_row dist r) = Some (nth r x 0).
Lemma eval_values dist f x : eval_all dist f = Ok x <-> values_of dist f x.
Proof.
  unfold eval_all, values_of. split.
  - intros H. apply mapE_inv in H. assert (L : length (seq 0 (size dist)) = length x) by (clear - H; induction H as [|a b l l' E F IH]; [reflexivity|cbn; now rewrite IH]). rewrite seq_length in L. split; [now symmetry|].
    intros r Hr. assert (G : forall s n x, Forall2 (fun r y => opt_err KeyError (f (sample_row dist r)) = Ok y) (seq s n) x -> forall r, (r < n)%nat -> f (sample_row dist (s + r)) = Some (nth r x 0)).
    { clear. intros s n. revert s. induction n as [|n IH]; intros s x H r Hr; [lia|]. cbn [seq] in H. inversion H as [|? ? ? ? E H']; subst. destruct r as [|r].
      - rewrite Nat.add_0_r. cbn [nth]. destruct (f (sample_row dist s)); [injection E as ->; reflexivity|discriminate].
      - cbn [nth]. rewrite <- (IH (S s) l' H' r ltac:(lia)). f_equal. f_equal. lia. }
    rewrite <- (G 0%nat (size dist) x H r Hr). reflexivity.
  - intros (L & H). assert (G : forall n s x, length x = n -> (forall r, (r < n)%nat -> f (sample_row dist (s + r)) = Some (nth r x 0)) -> mapE (fun r => opt_err KeyError (f (sample_row dist r))) (seq s n) = Ok x).
    { clear. induction n as [|n IH]; intros s x L H; destruct x as [|y x]; try discriminate; [reflexivity|]. cbn [seq mapE]. specialize (H O ltac:(lia)) as H0. rewrite Nat.add_0_r in H0. rewrite H0. cbn [opt_err bind nth].
      rewrite (IH (S s) x); [reflexivity|now injection L|]. intros r Hr. specialize (H (S r) ltac:(lia)). cbn [nth] in H. rewrite <- H. f_equal. f_equal. lia. }
    apply (G (size dist) 0%nat x L H).
Qed.
Lemma unit_range sf cl p : tail_probability sf -> to_unit_cl sf cl = Ok p -> 0 < p < 1 /\ to_unit_cl sf p = Ok p.
Proof.
  intros T H. destruct (C52_levels sf T cl) as (A & _ & _ & D). destruct (Rle_lt_dec cl 0) as [L|L]; [destruct (A L) as [e E]; rewrite E in H; discriminate|].
  destruct (D L) as (q & E & Hq). rewrite E in H. injection H as <-. exact Hq.
Qed.
(** every answer: the level, one entry for every requested parameter from all its samples and one for every function from its
    values on the samples used for derived quantities *)
Theorem C68_ci : forall sf, tail_probability sf -> forall devices parallel default post dist params fns cl p es,
  ci_post sf devices parallel default post dist params fns cl = Ok (p, es) ->
  to_unit_cl sf cl = Ok p /\ 0 < p < 1 /\ map fst es = params ++ map fst fns /\
  forall k e, In (k, e) es ->
    (In k params /\ exists v, get post k = Some v /\ right_entry (concat v) p e) \/
    (exists f x, In (k, f) fns /\ values_of dist f x /\ right_entry x p e).
Proof.
  intros sf T devices parallel default post dist params fns cl p es H. unfold ci_post in H. apply bind_ok in H as (c & Hc & H). apply bind_ok in H as (u & _ & H). apply bind_ok in H as (a & Ha & H).
  destruct (unit_range sf cl c T Hc) as (Rc & Ic).
  assert (Ka : map fst a = params).
  { apply mapE_inv in Ha. clear - Ha. induction Ha as [|k y l l' E F IH]; [reflexivity|]. cbn. rewrite IH. f_equal. apply bind_ok in E as (v & _ & E). apply bind_ok in E as (e & _ & E). now injection E as <-. }
  assert (Pa : forall k e, In (k, e) a -> In k params /\ exists v, get post k = Some v /\ right_entry (concat v) c e).
  { intros k e Hin. apply (proj1 (mapE_in _ _ _ Ha _)) in Hin as (k' & Hk & E). apply bind_ok in E as (v & Hv & E). apply bind_ok in E as (e' & He & E). injection E as -> ->.
    split; [exact Hk|]. exists v. split; [destruct (get post k); [now injection Hv as ->|discriminate]|]. apply entry_right; [lra|exact He]. }
  destruct fns as [|f0 fns].
  - injection H as <- <-. split; [exact Hc|]. split; [exact Rc|]. split; [now rewrite app_nil_r|]. intros k e Hin. left. now apply Pa.
  - cbv beta iota in H. apply bind_ok in H as (c' & Hc' & H). rewrite Ic in Hc'. injection Hc' as <-. apply bind_ok in H as (u' & _ & H). apply bind_ok in H as (b & Hb & H). injection H as <- <-.
    split; [exact Hc|]. split; [exact Rc|]. set (fs := f0 :: fns) in *.
    assert (Kb : map fst b = map fst fs).
    { apply mapE_inv in Hb. clear - Hb. induction Hb as [|k y l l' E F IH]; [reflexivity|]. cbn. rewrite IH. f_equal. apply bind_ok in E as (v & _ & E). apply bind_ok in E as (e & _ & E). now injection E as <-. }
    split; [now rewrite map_app, Ka, Kb|]. intros k e Hin. apply in_app_iff in Hin as [Hin|Hin]; [left; now apply Pa|right].
    apply (proj1 (mapE_in _ _ _ Hb _)) in Hin as ([k' f] & Hk & E). apply bind_ok in E as (v & Hv & E). apply bind_ok in E as (e' & He & E). cbn [fst snd] in *. injection E as -> ->.
    exists f, v. split; [exact Hk|]. split; [now apply eval_values|]. apply entry_right; [lra|exact He].
Qed.
Print Assumptions C68_ci.
(** it answers for every positive level, whenever the functions need only free parameters and the number of samples used is
    a multiple of the number of devices *)
Theorem C68_ci_defined_partial : forall sf, tail_probability sf -> forall devices parallel default post dist params fns cl, 0 < cl ->
  (forall k, In k params -> exists v, get post k = Some v /\ concat v <> []) ->
  check_fn default fns = Ok tt -> (fns <> [] -> (0 < size dist)%nat /\ (parallel = true -> (size dist mod devices = 0)%nat) /\ forall k f, In (k, f) fns -> exists x, values_of dist f x) ->
  exists p es, ci_post sf devices parallel default post dist params fns cl = Ok (p, es).
Proof.
  intros sf T devices parallel default post dist params fns cl Hcl Hp Hf Hs. unfold ci_post. destruct (C52_levels sf T cl) as (_ & _ & _ & D). destruct (D Hcl) as (p & -> & Rp & Ip). cbn [bind]. rewrite Hf. cbn [bind].
  assert (A : exists a, mapE (fun k => bind (opt_err KeyError (get post k)) (fun v => bind (ci_entry_of (concat v) p) (fun e => Ok (k, e)))) params = Ok a).
  { clear - Hp Rp. induction params as [|k l IH]; [cbn; eauto|]. destruct IH as (a & Ea); [intros; apply Hp; now right|]. destruct (Hp k ltac:(now left)) as (v & Hv & Nv). destruct (entry_defined (concat v) p Nv ltac:(lra)) as (e & He).
    cbn [mapE]. rewrite Hv. cbn [opt_err bind]. rewrite He. cbn [bind]. rewrite Ea. cbn [bind]. eauto. }
  destruct A as (a & ->). cbn [bind]. destruct fns as [|f0 fns]; [eauto|]. set (fs := f0 :: fns) in *. destruct Hs as (S0 & S1 & S2); [discriminate|].
  assert (B : exists b, mapE (fun f : str * pfun => bind (eval_all dist (snd f)) (fun v => bind (ci_entry_of v p) (fun e => Ok (fst f, e)))) fs = Ok b).
  { clear - S0 S2 Rp. induction fs as [|[k f] l IH]; [cbn; eauto|]. destruct IH as (b & Eb); [intros k' f' H'; apply (S2 k' f'); now right|]. destruct (S2 k f ltac:(now left)) as (x & Hx).
    assert (Nx : x <> []) by (destruct Hx as (L & _); intros ->; cbn in L; lia). destruct (entry_defined x p Nx ltac:(lra)) as (e & He). apply eval_values in Hx.
    cbn [mapE fst snd]. rewrite Hx. cbn [bind]. rewrite He. cbn [bind]. rewrite Eb. cbn [bind]. eauto. }
  destruct B as (b & Eb). exists p, (a ++ b). unfold fs in *. rewrite Ip. cbn [bind]. unfold shard. destruct parallel; cbn [andb].
  - rewrite S1 by reflexivity. rewrite Nat.eqb_refl. cbn [negb bind]. rewrite Eb. reflexivity.
  - cbn [bind]. rewrite Eb. reflexivity.
Qed.
Print Assumptions C68_ci_defined_partial.
(** a higher level never gives a smaller interval *)
Theorem C68_nested : forall sf, tail_probability sf -> forall devices parallel default post dist params fns cl cl' p p' es es',
  ci_post sf devices parallel default post dist params fns cl = Ok (p, es) -> ci_post sf devices parallel default post dist params fns cl' = Ok (p', es') ->
  cl <= cl' -> cl' < 1 \/ 1 <= cl -> NoDup (params ++ map fst fns) ->
  forall k e e', In (k, e) es -> In (k, e') es' -> e_lo e' <= e_lo e /\ e_hi e <= e_hi e' /\ e_median e = e_median e'.
Proof.
  intros sf T devices parallel default post dist params fns cl cl' p p' es es' H H' L Rg Nd k e e' I I'.
  assert (G : forall cl p es, ci_post sf devices parallel default post dist params fns cl = Ok (p, es) -> forall k e, In (k, e) es ->
    exists v, ci_entry_of v p = Ok e /\ ((In k params /\ exists w, get post k = Some w /\ v = concat w) \/ (exists f, In (k, f) fns /\ values_of dist f v))).
  { clear - T. intros cl p es H k e Hin. pose proof (C68_ci sf T devices parallel default post dist params fns cl p es H) as (Hc & _ & _ & _).
    unfold ci_post in H. rewrite Hc in H. cbn [bind] in H. apply bind_ok in H as (u & _ & H). apply bind_ok in H as (a & Ha & H). destruct (unit_range sf cl p T Hc) as (Rc & Ic).
    assert (Pa : In (k, e) a -> exists v, ci_entry_of v p = Ok e /\ In k params /\ exists w, get post k = Some w /\ v = concat w).
    { intros Hi. apply (proj1 (mapE_in _ _ _ Ha _)) in Hi as (k' & Hk & E). apply bind_ok in E as (v & Hv & E). apply bind_ok in E as (e' & He & E). injection E as -> ->.
      exists (concat v). split; [exact He|]. split; [exact Hk|]. exists v. split; [destruct (get post k); [now injection Hv as ->|discriminate]|reflexivity]. }
    destruct fns as [|f0 fns]; [injection H as <-; destruct (Pa Hin) as (v & P1 & P2); eauto|].
    cbv beta iota in H. apply bind_ok in H as (c' & Hc' & H). rewrite Ic in Hc'. injection Hc' as <-. apply bind_ok in H as (u' & _ & H). apply bind_ok in H as (b & Hb & H). injection H as <-.
    apply in_app_iff in Hin as [Hin|Hin]; [destruct (Pa Hin) as (v & P1 & P2); eauto|].
    apply (proj1 (mapE_in _ _ _ Hb _)) in Hin as ([k' f] & Hk & E). apply bind_ok in E as (v & Hv & E). apply bind_ok in E as (e' & He & E). cbn [fst snd] in *. injection E as -> ->.
    exists v. split; [exact He|]. right. exists f. split; [exact Hk|]. now apply eval_values. }
  destruct (C68_ci sf T _ _ _ _ _ _ _ _ _ _ H) as (Hc & Rp & _). destruct (C68_ci sf T _ _ _ _ _ _ _ _ _ _ H') as (Hc' & Rp' & _).
  destruct (G _ _ _ H _ _ I) as (v & Hv & Sv). destruct (G _ _ _ H' _ _ I') as (v' & Hv' & Sv').
  assert (v = v') as <-.
  { assert (Dj : forall k, In k params -> In k (map fst fns) -> False).
    { clear - Nd. intros k A B. revert Nd A. induction params as [|x l IH]; intros N A; [destruct A|]. cbn in N. inversion N as [|? ? Nx Nl]; subst. destruct A as [->|A]; [apply Nx, in_app_iff; now right|now apply IH]. }
    assert (Nf : NoDup (map fst fns)) by (clear - Nd; revert Nd; induction params as [|x l IH]; intros N; [exact N|]; inversion N; auto).
    destruct Sv as [(K & w & Hw & ->)|(f & Hf & Vf)], Sv' as [(K' & w' & Hw' & ->)|(f' & Hf' & Vf')].
    - congruence.
    - exfalso. apply (Dj k K). apply in_map_iff. now exists (k, f').
    - exfalso. apply (Dj k K'). apply in_map_iff. now exists (k, f).
    - assert (f = f') as <- by (apply (get_nodup _ _ _ Nf) in Hf; apply (get_nodup _ _ _ Nf) in Hf'; congruence).
      apply eval_values in Vf, Vf'. congruence. }
  assert (Lp : p <= p').
  { destruct (Req_dec cl cl') as [E|E]; [subst; rewrite Hc in Hc'; injection Hc' as <-; lra|]. apply Rlt_le. apply (C52_monotone sf T cl cl' p p' Hc Hc'); lra. }
  unfold ci_entry_of in Hv, Hv'. apply bind_ok in Hv as (m & Hm & Hv). apply bind_ok in Hv as (lo & Hlo & Hv). apply bind_ok in Hv as (hi & Hhi & Hv). injection Hv as <-.
  apply bind_ok in Hv' as (m' & Hm' & Hv'). apply bind_ok in Hv' as (lo' & Hlo' & Hv'). apply bind_ok in Hv' as (hi' & Hhi' & Hv'). injection Hv' as <-. cbn [e_lo e_hi e_median].
  split; [apply (quantile_mono _ _ _ _ _ Hlo' Hlo); lra|]. split; [apply (quantile_mono _ _ _ _ _ Hhi Hhi'); lra|congruence].
Qed.
Print Assumptions C68_nested.
(** refuted: with double precision the tail probability of more than about 8.3 sigma is so small that [1 - 2 sf] is 1; the
    level is converted twice for functions, and their intervals then have the level of one sigma although the answer says 1 *)
Theorem C68_level_refuted : forall (sf : R -> R) devices parallel default post dist f cl p es, 1 <= cl -> 1 - 2 * sf cl = 1 -> 0 <= 1 - 2 * sf 1 <= 1 ->
  ci_post sf devices parallel default post dist [] [f] cl = Ok (p, es) ->
  p = 1 /\ exists x e, values_of dist (snd f) x /\ es = [(fst f, e)] /\ right_entry x (1 - 2 * sf 1) e.
Proof.
  intros sf devices parallel default post dist f cl p es H1 H2 H3 H. unfold ci_post in H. apply bind_ok in H as (c & Hc & H). unfold to_unit_cl in Hc. destruct (Rleb_spec cl 0); [lra|]. destruct (Rltb_spec cl 1); [lra|].
  injection Hc as Hc. assert (c = 1) as -> by lra. apply bind_ok in H as (u & _ & H). cbn [mapE bind] in H. apply bind_ok in H as (c' & Hc' & H). unfold to_unit_cl in Hc'.
  destruct (Rleb_spec 1 0); [lra|]. destruct (Rltb_spec 1 1); [lra|]. injection Hc' as <-. apply bind_ok in H as (u' & _ & H). apply bind_ok in H as (b & Hb & H). injection H as <- <-.
  split; [reflexivity|]. apply bind_ok in Hb as (y & Hy & Hb). injection Hb as <-. apply bind_ok in Hy as (v & Hv & Hy). apply bind_ok in Hy as (e & He & Hy). injection Hy as <-.
  exists v, e. split; [now apply eval_values|]. split; [reflexivity|]. apply entry_right; [exact H3|exact He].
Qed.
Print Assumptions C68_level_refuted.

(** ** covariance matrices *)
(** the samples of a quantity: a free parameter or a function *)
Definition samples_of (dist : dict (list R)) (fns : dict pfun) (a : str) (x : list R) : Prop :=
  In (a, x) dist \/ exists f, In (a, f) fns /\ values_of dist f x.
Lemma nodup_app_r {A} (l m : list A) : NoDup (l ++ m) -> NoDup m.
Proof. induction l as [|x l IH]; intros H; [exact H|]. inversion H; auto. Qed.
Lemma f2_len {A B} (P : A -> B -> Prop) l m : Forall2 P l m -> length l = length m.
Proof. induction 1; cbn; congruence. Qed.
Lemma f2_nth {A B} (P : A -> B -> Prop) l m i x : Forall2 P l m -> nth_error l i = Some x -> exists y, nth_error m i = Some y /\ P x y.
Proof.
  intros H. revert i. induction H as [|a b l m Hab H IH]; intros i E; destruct i; try discriminate; cbn in *; [injection E as <-; eauto|now apply IH].
Qed.
Lemma sample_cov_spec x y m : length x = m -> length y = m -> (1 < m)%nat -> sample_cov x y = empirical_covariance x y.
Proof.
  intros Lx Ly Hm. unfold sample_cov, empirical_covariance, mean. rewrite Lx, Ly. rewrite minus_INR by lia. cbn [INR]. f_equal.
  change (rsum (zip2 Rmult (map (fun a => a - rsum x / INR m) x) (map (fun b => b - rsum y / INR m) y))) with (dot (map (fun a => a - rsum x / INR m) x) (map (fun b => b - rsum y / INR m) y)).
  rewrite (dot_sum _ _ m) by (rewrite map_length; assumption). f_equal. apply map_ext_in. intros q Hq. apply in_seq in Hq.
  rewrite (nth_indep (map (fun a => a - rsum x / INR m) x) 0 (0 - rsum x / INR m)) by (rewrite map_length; lia). rewrite (map_nth (fun a => a - rsum x / INR m)).
  rewrite (nth_indep (map (fun b => b - rsum y / INR m) y) 0 (0 - rsum y / INR m)) by (rewrite map_length; lia). rewrite (map_nth (fun b => b - rsum y / INR m)). reflexivity.
Qed.
Lemma assign_square n m : length m = n -> Forall (fun r => length r = n) m -> assign n m = Ok m.
Proof.
  intros L F. unfold assign. assert (E : mapE (stretch n) m = Ok m).
  { clear L. induction F as [|r m Hr F IH]; [reflexivity|]. cbn [mapE]. unfold stretch at 1. rewrite Hr, Nat.eqb_refl. cbn [bind]. rewrite IH. reflexivity. }
  rewrite E. cbn [bind]. unfold stretch. now rewrite L, Nat.eqb_refl.
Qed.
(** covariances of free parameters and of functions of them: the empirical covariances of the samples *)
Theorem C68_covar_partial : forall devices parallel default dist keepit fns m,
  (1 < m)%nat -> Forall (fun e => length (snd e) = m) dist -> dist <> [] -> NoDup (map fst dist ++ map fst fns) -> (1 < length dist + length fns)%nat ->
  check_fn default fns = Ok tt -> (forall k f, In (k, f) fns -> exists x, values_of dist f x) -> (parallel = true -> (m mod devices = 0)%nat) ->
  let sel := filter keepit (map fst dist) in
  exists c, covar_post devices parallel default dist sel fns = Ok c /\ c_names c = sel ++ map fst fns /\
  forall a b x y, In a (c_names c) -> In b (c_names c) -> samples_of dist fns a x -> samples_of dist fns b y -> covar_at c a b = Some (empirical_covariance x y).
Proof.
  intros devices parallel default dist keepit fns m Hm Fd Nd Nn H2 Hc Hf Hp sel. unfold covar_post. rewrite Hc. cbn [bind].
  assert (Sz : size dist = m) by (destruct dist as [|e d]; [easy|]; cbn; now inversion Fd).
  assert (Sh : shard parallel devices (size dist) = Ok tt) by (unfold shard; rewrite Sz; destruct parallel; [rewrite Hp by reflexivity; reflexivity|reflexivity]).
  rewrite Sh. cbn [bind].
  assert (Ef : exists fc, mapE (fun f : str * pfun => eval_all dist (snd f)) fns = Ok fc /\ Forall2 (fun f x => values_of dist (snd f) x) fns fc).
  { clear - Hf. induction fns as [|[k f] l IH]; [exists []; split; [reflexivity|constructor]|]. destruct IH as (fc & E & F); [intros k' f' H; apply (Hf k' f'); now right|].
    destruct (Hf k f ltac:(now left)) as (x & Hx). exists (x :: fc). split; [|constructor; assumption]. cbn [mapE snd]. apply eval_values in Hx. rewrite Hx. cbn [bind]. rewrite E. reflexivity. }
  destruct Ef as (fc & Ef & Ff). rewrite Ef. cbn [bind]. assert (Lf : length fc = length fns) by (symmetry; eapply f2_len; exact Ff).
  set (cols := map snd dist ++ fc). set (all := map fst dist). set (fn := map fst fns).
  assert (Lc : length cols = length (all ++ fn)) by (unfold cols, all, fn; rewrite !app_length, !map_length; lia).
  assert (Eb : boot_full cols = Ok (map (fun x => map (sample_cov x) cols) cols)).
  { unfold boot_full. destruct cols as [|c0 [|c1 cs]] eqn:E; [reflexivity| |reflexivity]. unfold cols in E. apply (f_equal (@length _)) in E. rewrite app_length, map_length in E. cbn in E. lia. }
  rewrite Eb. cbn [bind]. set (full := map (fun x => map (sample_cov x) cols) cols).
  assert (Sq : square all fn full) by (split; [unfold full; now rewrite map_length|unfold full; apply Forall_map, Forall_forall; intros x _; now rewrite map_length]).
  destruct (select_spec all keepit fn Nn full Sq) as (c & Ec & Nc & Hc'). fold all in sel. fold sel in Ec, Nc, Hc'.
  assert (Ea : assign (length sel + length fns) (submatrix (map (fun p => mem p sel) all ++ map (fun _ => true) fns) full) = Ok (c_matrix c)).
  { unfold select_covar in Ec. cbv zeta in Ec. replace (map (fun _ : str => true) fn) with (map (fun _ : str * pfun => true) fns) in Ec by (unfold fn; now rewrite map_map).
    destruct (_ && _)%bool eqn:E in Ec; [|discriminate]. injection Ec as <-. cbn [c_matrix]. apply andb_prop in E as (E1 & E2). apply Nat.eqb_eq in E1. rewrite forallb_forall in E2.
    replace (length sel + length fns)%nat with (length (sel ++ fn)) by (unfold fn; rewrite app_length, map_length; reflexivity).
    apply assign_square; [exact E1|]. apply Forall_forall. intros r Hr. now apply Nat.eqb_eq, E2. }
  rewrite Ea. cbn [bind]. eexists. split; [reflexivity|]. cbn [c_names]. split; [reflexivity|]. intros a b x y Ha Hb Sa Sb.
  destruct (Hc' a b Ha Hb) as (i & j & Hi & Hj & Hv). unfold covar_at in *. rewrite Nc in Hv. cbn [c_names c_matrix]. fold fn. rewrite Hv. f_equal.
  assert (Row : forall a i x, nth_error (all ++ fn) i = Some a -> samples_of dist fns a x -> nth_error cols i = Some x /\ length x = m).
  { intros a0 i0 x0 H0 S0. assert (Dj : forall k, In k all -> In k fn -> False).
    { clear - Nn. fold all fn in Nn. revert Nn. generalize all fn. intros l l' Nn k A B. revert Nn A. induction l as [|z l IH]; intros N A; [destruct A|]. cbn in N. inversion N as [|? ? Nx Nl]; subst.
      destruct A as [->|A]; [apply Nx, in_app_iff; now right|now apply IH]. }
    destruct S0 as [S0|(f & Sf & Vf)].
    - assert (Lx : length x0 = m) by (rewrite Forall_forall in Fd; apply (Fd _ S0)). split; [|exact Lx].
      destruct (Nat.lt_ge_cases i0 (length all)) as [L|L].
      + rewrite nth_error_app1 in H0 by exact L. unfold cols. rewrite nth_error_app1 by (rewrite map_length; unfold all in L; rewrite map_length in L; exact L).
        apply In_nth_error in S0 as (i1 & Hi1). assert (i1 = i0) as <-; [|now rewrite (map_nth_error snd i1 dist Hi1)].
        apply (proj1 (NoDup_nth_error all)); [exact (nodup_app_l _ _ Nn)| |].
        * unfold all. rewrite map_length. apply nth_error_Some. congruence.
        * rewrite H0. unfold all. now rewrite (map_nth_error fst i1 dist Hi1).
      + exfalso. rewrite nth_error_app2 in H0 by exact L. apply nth_error_In in H0. apply (Dj a0); [|exact H0]. unfold all. apply in_map_iff. now exists (a0, x0).
    - assert (Lx : length x0 = m) by (destruct Vf as (L & _); congruence). split; [|exact Lx].
      destruct (Nat.lt_ge_cases i0 (length all)) as [L|L].
      + exfalso. rewrite nth_error_app1 in H0 by exact L. apply nth_error_In in H0. apply (Dj a0); [exact H0|]. unfold fn. apply in_map_iff. now exists (a0, f).
      + rewrite nth_error_app2 in H0 by exact L. unfold cols. rewrite nth_error_app2 by (rewrite map_length; unfold all in L; rewrite map_length in L; exact L).
        replace (length (map snd dist)) with (length all) by (unfold all; now rewrite !map_length).
        apply In_nth_error in Sf as (i1 & Hi1). assert (Nf : NoDup fn) by exact (nodup_app_r _ _ Nn).
        assert (Ei : i1 = (i0 - length all)%nat).
        { apply (proj1 (NoDup_nth_error fn) Nf); [unfold fn; rewrite map_length; apply nth_error_Some; congruence|]. rewrite H0. unfold fn. now rewrite (map_nth_error fst i1 fns Hi1). }
        rewrite <- Ei. destruct (f2_nth _ _ _ i1 (a0, f) Ff Hi1) as (x1 & Hx1 & Vx1). rewrite Hx1. f_equal. cbn [snd] in Vx1. apply eval_values in Vx1, Vf. congruence. }
  destruct (Row a i x Hi Sa) as (Cx & Lx). destruct (Row b j y Hj Sb) as (Cy & Ly). unfold full.
  rewrite (nth_error_nth _ i [] (map_nth_error (fun x => map (sample_cov x) cols) i cols Cx)). rewrite (nth_error_nth _ j 0 (map_nth_error (sample_cov x) j cols Cy)).
  now apply (sample_cov_spec x y m).
Qed.
Print Assumptions C68_covar_partial.

(** refuted for parameters that are functions of others (composite, "deterministic" parameters), which the call accepts: it
    fails, or - if exactly one requested quantity is not such a parameter - returns a matrix in which all variances and
    covariances are the same number *)
Lemma keep_len {A} (mask : list bool) (l : list A) : length mask = length l -> length (keep mask l) = length (filter (fun b => b) mask).
Proof.
  unfold keep. rewrite map_length. revert l. induction mask as [|b mask IH]; intros [|x l] H; try discriminate; [reflexivity|]. cbn [combine filter fst]. injection H as H. specialize (IH l H). destruct b; cbn [length]; now rewrite IH.
Qed.
Theorem C68_covar_refuted : forall devices parallel default dist sel fns c p, NoDup sel -> NoDup (map fst dist) -> In p sel -> ~ In p (map fst dist) ->
  covar_post devices parallel default dist sel fns = Ok c ->
  c_names c = sel ++ map fst fns /\ exists x, forall a b, In a (c_names c) -> In b (c_names c) -> covar_at c a b = Some x.
Proof.
  intros devices parallel default dist sel fns c p Ns Nd Hp Np H. unfold covar_post in H. apply bind_ok in H as (u & _ & H). apply bind_ok in H as (u' & _ & H). apply bind_ok in H as (fc & Hfc & H).
  apply bind_ok in H as (full & Hfull & H). cbv zeta in H. set (mask := map _ (map fst dist) ++ _) in H. apply bind_ok in H as (m & Hm & H). injection H as <-. cbn [c_names]. split; [reflexivity|].
  assert (Lfc : length fc = length fns) by (apply mapE_inv in Hfc; symmetry; eapply f2_len; exact Hfc).
  assert (Lfull : length full = length mask /\ Forall (fun r => length r = length mask) full).
  { unfold boot_full in Hfull. set (cols := map snd dist ++ fc) in *. assert (Lc : length cols = length mask) by (unfold cols, mask; rewrite !app_length, !map_length; lia).
    assert (E : full = map (fun x => map (sample_cov x) cols) cols) by (destruct cols as [|c0 [|c1 cs]]; [injection Hfull as <-; reflexivity|discriminate|injection Hfull as <-; reflexivity]).
    rewrite E. split; [now rewrite map_length|]. apply Forall_map, Forall_forall. intros x _. now rewrite map_length. }
  destruct Lfull as (L1 & L2). set (n := (length sel + length fns)%nat) in *.
  set (r := length (filter (fun b => b) mask)).
  assert (Lr : (r < n)%nat).
  { unfold r, n, mask. rewrite filter_app, app_length. assert (E1 : length (filter (fun b => b) (map (fun _ : str * pfun => true) fns)) = length fns).
    { clear. induction fns as [|f l IH]; [reflexivity|]. cbn. now rewrite IH. }
    rewrite E1. apply Nat.add_lt_mono_r. assert (E2 : length (filter (fun b => b) (map (fun p => mem p sel) (map fst dist))) = length (filter (fun p => mem p sel) (map fst dist))).
    { generalize (map fst dist). clear. intros l. induction l as [|x l IH]; [reflexivity|]. cbn. destruct (mem x sel); cbn; now rewrite IH. }
    rewrite E2. assert (Inc : incl (p :: filter (fun q => mem q sel) (map fst dist)) sel).
    { intros q [<-|Hq]; [exact Hp|]. apply filter_In in Hq as (_ & Hq). now apply mem_spec. }
    apply NoDup_incl_length in Inc; [cbn in Inc; lia|]. constructor; [|now apply NoDup_filter]. intros Hq. apply filter_In in Hq as (Hq & _). contradiction. }
  assert (Lm : length (submatrix mask full) = r /\ Forall (fun x => length x = r) (submatrix mask full)).
  { unfold submatrix. split; [apply keep_len; now rewrite map_length|]. unfold keep at 1. apply Forall_map, Forall_forall. intros (b0, r0) Hr. apply filter_In in Hr as [Hr _]. apply in_combine_r in Hr. cbn [snd].
    apply in_map_iff in Hr as (r1 & <- & H1). apply keep_len. rewrite Forall_forall in L2. symmetry. now apply L2. }
  destruct Lm as (M1 & M2). unfold assign in Hm. apply bind_ok in Hm as (m' & Hm' & Hm).
  assert (Lm' : length m' = r) by (apply mapE_inv in Hm'; rewrite <- M1; symmetry; eapply f2_len; exact Hm').
  unfold stretch in Hm. rewrite Lm' in Hm. destruct (Nat.eqb_spec r n) as [E|_]; [lia|]. destruct m' as [|row [|row2 m']]; try discriminate. injection Hm as <-. cbn [length] in Lm'.
  assert (Hrow : exists x, row = repeat x n).
  { destruct (submatrix mask full) as [|r1 [|r2 q]]; cbn [length] in M1; try lia. cbn [mapE] in Hm'. apply bind_ok in Hm' as (y & Hy & Hm'). injection Hm' as <-. inversion M2 as [|? ? Lr1 _]; subst.
    unfold stretch in Hy. rewrite Lr1 in Hy. destruct (Nat.eqb_spec r n) as [E|_]; [lia|]. destruct r1 as [|x [|x2 r1]]; cbn [length] in Lr1; try lia. injection Hy as <-. now exists x. }
  destruct Hrow as (x & ->). exists x. intros a b Ha Hb. unfold covar_at. cbn [c_names c_matrix]. destruct (index_of_in _ _ Ha) as (ia & Ea & La). destruct (index_of_in _ _ Hb) as (ib & Eb & Lb). rewrite Ea, Eb. f_equal.
  assert (Ln : length (sel ++ map fst fns) = n) by (unfold n; rewrite app_length, map_length; reflexivity).
  assert (R0 : forall A (z d : A) i k, (i < k)%nat -> nth i (repeat z k) d = z) by (clear; intros A z d i k; revert i; induction k as [|k IH]; intros [|i] H; cbn; try lia; [reflexivity|apply IH; lia]).
  assert (La' : (ia < length (sel ++ map fst fns))%nat) by (apply nth_error_Some; congruence). assert (Lb' : (ib < length (sel ++ map fst fns))%nat) by (apply nth_error_Some; congruence).
  rewrite !R0 by lia. reflexivity.
Qed.
Print Assumptions C68_covar_refuted.

(** refuted: a function of a composite parameter passes the check of the arguments but cannot be evaluated *)
Theorem C68_function_refuted : forall sf devices parallel default post dist params k p cl, tail_probability sf -> 0 < cl ->
  In p (map fst default) -> ~ In p (map fst dist) -> ~ In k (map fst default) -> (0 < size dist)%nat ->
  (forall q, In q params -> exists v, get post q = Some v /\ concat v <> []) ->
  let fns : dict pfun := [(k, fun d : dict R => get d p)] in
  check_fn default fns = Ok tt /\
  (exists e, ci_post sf devices parallel default post dist params fns cl = Err e) /\ (exists e, covar_post devices parallel default dist params fns = Err e).
Proof.
  intros sf devices parallel default post dist params k p cl T Hcl Hp Np Hk Hs Hpar fns.
  assert (C : check_fn default fns = Ok tt).
  { unfold check_fn, fns. cbn [map fst existsb forallb snd]. destruct (mem k (map fst default)) eqn:E; [apply mem_spec in E; contradiction|]. cbn [orb].
    destruct (get default p) eqn:G; [reflexivity|]. apply get_none_iff in G. contradiction. }
  assert (V : eval_all dist (fun d => get d p) = Err KeyError).
  { unfold eval_all. destruct (size dist) as [|n]; [lia|]. cbn [seq mapE]. destruct (get (sample_row dist 0) p) eqn:G; [|reflexivity]. exfalso. apply Np.
    apply get_in in G. apply (in_map fst) in G. unfold sample_row in G. rewrite map_map in G. exact G. }
  split; [exact C|]. split.
  - unfold ci_post. destruct (C52_levels sf T cl) as (_ & _ & _ & D). destruct (D Hcl) as (c & -> & _ & I). cbn [bind]. rewrite C. cbn [bind].
    destruct (mapE _ params) as [a|e]; [|cbn; eauto]. cbn [bind]. unfold fns. rewrite I. cbn [bind]. destruct (shard _ _ _); [|cbn; eauto]. cbn [bind mapE snd fst]. change (exists e, bind (bind (bind (eval_all dist (fun d => get d p)) (fun v => bind (ci_entry_of v c) (fun e0 => Ok (k, e0)))) (fun y => bind (Ok []) (fun ys => Ok (y :: ys)))) (fun b => Ok (c, a ++ b)) = Err e). rewrite V. cbn [bind]. eauto.
  - unfold covar_post. rewrite C. cbn [bind]. destruct (shard _ _ _); [|cbn; eauto]. cbn [bind]. assert (M : mapE (fun f : str * pfun => eval_all dist (snd f)) fns = Err KeyError).
    { unfold fns. cbn [mapE]. assert (V' : eval_all dist (snd (k, fun d : dict R => get d p)) = Err KeyError) by exact V. unfold pfun, dict in *. rewrite V'. reflexivity. }
    rewrite M. cbn [bind]. eauto.
Qed.
Print Assumptions C68_function_refuted.
(** refuted: with at most 10000 samples, whose number is not a multiple of the number of devices, nothing can be computed for
    functions, nor any covariance matrix (by default) *)
Theorem C68_devices_refuted : forall sf devices rng chains draws post default allpost params fns cl sel,
  (0 < chains)%nat -> Forall (fun e => rectangular chains draws (snd e)) post -> post <> [] -> (chains * draws <= 100 * 100)%nat -> ((chains * draws) mod devices <> 0)%nat ->
  let dist := post_dist devices rng chains draws post in
  (fns <> [] -> exists e, ci_post sf devices true default allpost dist params fns cl = Err e) /\ exists e, covar_post devices true default dist sel fns = Err e.
Proof.
  intros sf devices rng chains draws post default allpost params fns cl sel Hch F Np L D dist.
  assert (S : size dist = (chains * draws)%nat).
  { unfold dist, post_dist. change (100 * 100)%nat with n_max in L. destruct (Nat.ltb_spec n_max (chains * draws)) as [X|_]; [lia|]. destruct post as [|(k, v) post]; [easy|]. cbn [map size snd].
    inversion F as [|? ? (Lv & Fv) _]; subst. cbn [snd] in *. clear - Fv. induction Fv as [|r v Hr Fv IH]; [reflexivity|]. cbn [concat length]. rewrite app_length, IH, Hr. lia. }
  assert (Sh : shard true devices (size dist) = Err ValueError) by (rewrite S; unfold shard; destruct (Nat.eqb_spec ((chains * draws) mod devices) 0); [contradiction|reflexivity]).
  split.
  - intros Nf. unfold ci_post. destruct (to_unit_cl sf cl) as [c|]; [|cbn; eauto]. cbn [bind]. destruct (check_fn default fns); [|cbn; eauto]. cbn [bind]. destruct (mapE _ params); [|cbn; eauto]. cbn [bind].
    destruct fns as [|f fns]; [easy|]. destruct (to_unit_cl sf c); [|cbn; eauto]. cbn [bind]. rewrite Sh. cbn. eauto.
  - unfold covar_post. destruct (check_fn default fns); [|cbn; eauto]. cbn [bind]. rewrite Sh. cbn. eauto.
Qed.
Print Assumptions C68_devices_refuted.

(** ** leave-one-out expectations *)
(** the weighted sum of the values; with normalised weights a weighted mean, between the smallest and the largest value *)
Theorem C68_loo : forall lw v, length lw = length v ->
  loo_expectation lw v = rsum (map (fun i => exp (nth i lw 0) * nth i v 0) (seq 0 (length v))) /\
  (rsum (map exp lw) = 1 -> forall lo hi, Forall (fun x => lo <= x <= hi) v -> lo <= loo_expectation lw v <= hi).
Proof.
  assert (T : forall l x, sign x * exp (l + ln (Rabs x)) = exp l * x).
  { intros l x. unfold sign. destruct (Rltb_spec x 0) as [L|L].
    - rewrite Rabs_left by exact L. rewrite exp_plus, exp_ln by lra. ring.
    - destruct (Reqb_spec x 0) as [->|N]; [ring|]. rewrite Rabs_pos_eq by lra. rewrite exp_plus, exp_ln by lra. ring. }
  intros lw v L. assert (E : loo_expectation lw v = rsum (zip2 (fun l x => exp l * x) lw v)).
  { unfold loo_expectation. f_equal. clear L. revert v. induction lw as [|l lw IH]; intros [|x v]; try reflexivity. cbn [zip2]. rewrite T, IH. reflexivity. }
  rewrite E. split.
  - clear E. f_equal. revert v L. induction lw as [|l lw IH]; intros [|x v] L; try discriminate; [reflexivity|]. cbn [zip2 length seq map nth]. f_equal. rewrite IH by now injection L. rewrite <- seq_shift, map_map. reflexivity.
  - intros S lo hi F. clear E. assert (G : lo * rsum (map exp lw) <= rsum (zip2 (fun l x => exp l * x) lw v) <= hi * rsum (map exp lw)).
    { clear S. revert v L F. induction lw as [|l lw IH]; intros [|x v] L F; try discriminate; [cbn; lra|]. inversion F as [|? ? Hx Fv]; subst. specialize (IH v ltac:(now injection L) Fv).
      cbn [zip2 map]. change (lo * (exp l + rsum (map exp lw)) <= exp l * x + rsum (zip2 (fun l x => exp l * x) lw v) <= hi * (exp l + rsum (map exp lw))). pose proof (exp_pos l). nra. }
    rewrite S in G. lra.
Qed.
Print Assumptions C68_loo.

(** functions of the user: accepted exactly if no name is the name of a parameter and every function is defined at the
    default parameters; if they are not, neither intervals nor covariances are computed *)
Theorem C68_functions : forall default (fns : dict pfun),
  (check_fn default fns = Ok tt <->
   (forall k f, In (k, f) fns -> ~ In k (map fst default) /\ exists x, f default = Some x)) /\
  (forall sf devices parallel post dist params cl r, ci_post sf devices parallel default post dist params fns cl = Ok r ->
   forall k f, In (k, f) fns -> ~ In k (map fst default) /\ exists x, f default = Some x) /\
  (forall devices parallel dist sel r, covar_post devices parallel default dist sel fns = Ok r ->
   forall k f, In (k, f) fns -> ~ In k (map fst default) /\ exists x, f default = Some x).
Proof.
  intros default fns.
  assert (K : check_fn default fns = Ok tt <-> (forall k f, In (k, f) fns -> ~ In k (map fst default) /\ exists x, f default = Some x)).
  { unfold check_fn. destruct (existsb _ _) eqn:E.
    - split; [discriminate|]. intros H. apply existsb_exists in E as (k & Hk & E). apply in_map_iff in Hk as ((k', f) & <- & Hk).
      destruct (H _ _ Hk) as (N & _). apply mem_spec in E. contradiction.
    - match goal with |- context [forallb ?g fns] => destruct (forallb g fns) eqn:F end.
      + split; [|reflexivity]. intros _ k f Hk. split.
        * intros N. assert (existsb (fun n => mem n (map fst default)) (map fst fns) = true); [|congruence].
          apply existsb_exists. exists k. split; [apply (in_map fst) in Hk; exact Hk|now apply mem_spec].
        * rewrite forallb_forall in F. specialize (F _ Hk). cbn [snd] in F. destruct (f default) as [x|]; [now exists x|discriminate].
      + split; [discriminate|]. intros H. match type of F with ?t = false => assert (X : t = true); [|congruence] end.
        apply forallb_forall. intros (k, f) Hk. destruct (H _ _ Hk) as (_ & x & Ex). cbn [snd]. now rewrite Ex. }
  split; [exact K|]. split.
  - intros sf devices parallel post dist params cl r H. unfold ci_post in H. apply bind_ok in H as (c & _ & H). apply bind_ok in H as ([] & H & _). now apply K.
  - intros devices parallel dist sel r H. unfold covar_post in H. apply bind_ok in H as ([] & H & _). now apply K.
Qed.
Print Assumptions C68_functions.

(** ** examples *)
Definition ex_post : dict (list (list R)) := [(s2l "a", [[1; 2]; [3; 6]]); (s2l "b", [[5; 5]; [7; 7]])].
Definition ex_dist : dict (list R) := [(s2l "a", [1; 2; 3; 6]); (s2l "b", [5; 5; 7; 7])].
Example C68_ex_dist : forall rng, post_dist 2 rng 2 2 ex_post = ex_dist.
Proof. reflexivity. Qed.
Example C68_ex_sum : let fns := [(s2l "sum", fun d : dict R => match get d (s2l "a"), get d (s2l "b") with Some x, Some y => Some (x + y) | _, _ => None end)] in
  check_fn [(s2l "a", 1); (s2l "b", 1); (s2l "c", 2)] fns = Ok tt /\ values_of ex_dist (snd (hd (s2l "", fun _ => None) fns)) [6; 7; 10; 13] /\
  exists c, covar_post 2 true [(s2l "a", 1); (s2l "b", 1); (s2l "c", 2)] ex_dist [s2l "b"] fns = Ok c /\
    covar_at c (s2l "b") (s2l "sum") = Some (empirical_covariance [5; 5; 7; 7] [6; 7; 10; 13]).
Proof.
  cbv zeta. set (f := fun d : dict R => _). set (fns := [(s2l "sum", f)]). set (df := [(s2l "a", 1); _; _]).
  assert (V : values_of ex_dist f [6; 7; 10; 13]) by (split; [reflexivity|]; intros [|[|[|[|r]]]] H; cbn [size ex_dist snd length] in H; try lia; cbn; f_equal; lra).
  assert (K : check_fn df fns = Ok tt) by reflexivity. split; [exact K|]. split; [exact V|].
  destruct (C68_covar_partial 2 true df ex_dist (fun n => str_eqb n (s2l "b")) fns 4) as (c & Hc & Nc & H); try lia; try exact K.
  - repeat constructor.
  - discriminate.
  - repeat constructor; cbn; intuition discriminate.
  - cbn. lia.
  - intros k g [E|[]]. injection E as <- <-. eauto.
  - reflexivity.
  - exists c. split; [exact Hc|]. apply H; [rewrite Nc; cbn; tauto|rewrite Nc; cbn; tauto|left; cbn; tauto|]. right. exists f. split; [now left|exact V].
Qed.
(** a parameter "c" composed of others is requested together with "a": the answer claims that "c" has the variance of "a"
    and is fully correlated with it *)
Example C68_ex_wrong : exists c, covar_post 2 true [(s2l "a", 1); (s2l "b", 1); (s2l "c", 2)] ex_dist [s2l "a"; s2l "c"] [] = Ok c /\
  covar_at c (s2l "c") (s2l "c") = covar_at c (s2l "a") (s2l "a") /\ covar_at c (s2l "a") (s2l "c") = covar_at c (s2l "a") (s2l "a").
Proof. eexists. split; [reflexivity|]. split; reflexivity. Qed.
Example C68_ex_level : let sf := fun x => if Rltb x 8 then 0.16 else 0 in
  1 - 2 * sf 9 = 1 /\ 0 <= 1 - 2 * sf 1 <= 1 /\
  exists es, ci_post sf 2 true [(s2l "a", 1); (s2l "b", 1)] ex_post ex_dist [] [(s2l "f", fun d : dict R => get d (s2l "a"))] 9 = Ok (1, es).
Proof.
  cbv zeta. set (sf := fun x => if Rltb x 8 then 0.16 else 0). assert (S9 : sf 9 = 0) by (unfold sf; destruct (Rltb_spec 9 8); lra). assert (S1 : sf 1 = 0.16) by (unfold sf; destruct (Rltb_spec 1 8); lra).
  split; [lra|]. split; [lra|]. unfold ci_post, to_unit_cl. destruct (Rleb_spec 9 0); [lra|]. destruct (Rltb_spec 9 1); [lra|]. cbn [bind]. replace (1 - 2 * sf 9) with 1 by lra.
  set (f := fun d : dict R => get d (s2l "a")). assert (K : check_fn [(s2l "a", 1); (s2l "b", 1)] [(s2l "f", f)] = Ok tt) by reflexivity. rewrite K. cbn [bind mapE].
  destruct (Rleb_spec 1 0); [lra|]. destruct (Rltb_spec 1 1); [lra|]. cbn [bind]. assert (Sh : shard true 2 (size ex_dist) = Ok tt) by reflexivity. rewrite Sh. cbn [bind].
  assert (V : eval_all ex_dist f = Ok [1; 2; 3; 6]) by reflexivity. destruct (entry_defined [1; 2; 3; 6] (1 - 2 * sf 1) ltac:(discriminate) ltac:(lra)) as (e & He).
  exists [(s2l "f", e)]. cbn [snd]. rewrite V. cbn [bind]. rewrite He. reflexivity.
Qed.
