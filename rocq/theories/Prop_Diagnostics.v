(** C106: the diagnostic plots with a panel for every data set. *)
From Coq Require Import Ascii String.
From Verif Require Import RBase Base Data Namespace NamespaceProofs CompileProofs HelperData HelperDataProofs Batch BatchProofs Results ResultsProofs Summary SummaryProofs PlotCache PlotCurves Diagnostics Prop_PlotCache Prop_PostSummary Prop_Spectral Prop_Batch.
From Coq Require Import List Lia Psatz Permutation Sorted.
Open Scope list_scope.
Open Scope R_scope.

(** ** the panels *)
Lemma ncols_bound n : (0 < n)%nat -> (n <= 2 * ncols n <= n + 1)%nat /\ (n mod 2 = 0 -> 2 * ncols n = n)%nat /\ (n mod 2 = 1 -> 2 * ncols n = n + 1)%nat.
Proof.
  intros H. unfold ncols. pose proof (Nat.div_mod n 2 ltac:(lia)) as D. pose proof (Nat.mod_upper_bound n 2 ltac:(lia)) as U.
  destruct (Nat.eqb_spec n 1) as [->|N]; [cbn; lia|]. set (q := (n / 2)%nat) in *. set (r := (n mod 2)%nat) in *. lia.
Qed.
Lemma firstn_smalls n : (0 < n)%nat -> firstn n (smalls n) = map Small (seq 0 n).
Proof.
  intros H. unfold smalls. rewrite firstn_map. f_equal. destruct (ncols_bound n H) as [[A _] _]. replace (2 * ncols n)%nat with (n + (2 * ncols n - n))%nat by lia.
  rewrite seq_app, firstn_app, seq_length, Nat.sub_diag. cbn [firstn]. rewrite app_nil_r. rewrite <- (seq_length n 0) at 1. apply firstn_all.
Qed.
Lemma fst_combine {A B} (a : list A) (b : list B) : length a = length b -> map fst (combine a b) = a.
Proof. revert b. induction a as [|x a IH]; intros [|y b] H; try discriminate; [reflexivity|]. cbn. f_equal. apply IH. now injection H. Qed.
Lemma axes_plain names : names <> [] -> NoDup names -> ~ In total_name names -> axes_of names = Ok ((total_name, Main) :: combine names (map Small (seq 0 (length names)))).
Proof.
  intros Ne Nd Nt. unfold axes_of. assert (L : (0 < length names)%nat) by (destruct names; [easy|cbn; lia]). rewrite firstn_smalls by exact L. rewrite map_length, seq_length, Nat.eqb_refl.
  rewrite puts_fresh; [reflexivity|]. cbn [map fst app]. assert (E : map fst (combine names (map Small (seq 0 (length names)))) = names).
  { apply fst_combine. now rewrite map_length, seq_length. }
  rewrite E. now constructor.
Qed.
(** Every data set has a visible small panel of its own, the large one is for all of them, and no visible panel stays empty. *)
Theorem C106_layout : forall names, names <> [] -> NoDup names -> ~ In (s2l "total") names ->
  exists axs, axes_of names = Ok axs /\ map fst axs = s2l "total" :: names /\ get axs (s2l "total") = Some Main /\
    (forall i, (i < length names)%nat -> get axs (nth i names []) = Some (Small i)) /\
    (forall i, (i < 2 * ncols (length names))%nat -> (hidden (length names) (Small i) = false <-> (i < length names)%nat)) /\
    hidden (length names) Main = false /\ (length names <= 2 * ncols (length names))%nat.
Proof.
  intros names Ne Nd Nt. eexists. split; [apply axes_plain; assumption|]. assert (L : (0 < length names)%nat) by (destruct names; [easy|cbn; lia]).
  set (n := length names) in *. destruct (ncols_bound n L) as ([A B] & Ev & Od).
  assert (G : map fst (combine names (map Small (seq 0 n))) = names).
  { apply fst_combine. now rewrite map_length, seq_length. }
  split; [cbn [map fst]; now rewrite G|]. split; [reflexivity|]. split.
  - intros i Hi. apply get_nodup; [cbn [map fst]; rewrite G; now constructor|]. right.
    assert (Hin : In (nth i (combine names (map Small (seq 0 n))) ([], Small 0)) (combine names (map Small (seq 0 n)))) by (apply nth_In; rewrite combine_length, map_length, seq_length; fold n; lia).
    rewrite combine_nth in Hin by (rewrite map_length, seq_length; reflexivity). rewrite map_nth, seq_nth in Hin by exact Hi. exact Hin.
  - split; [|split; [reflexivity|exact A]]. intros i Hi. unfold hidden. pose proof (Nat.mod_upper_bound n 2 ltac:(lia)) as U. destruct (Nat.eqb_spec (n mod 2) 1) as [E|E].
    + specialize (Od E). destruct (Nat.eqb_spec i (2 * ncols n - 1)); split; intros; try discriminate; try lia; try reflexivity.
    + assert (n mod 2 = 0)%nat as Z by lia. specialize (Ev Z). split; [lia|reflexivity].
Qed.
(** A data set called total takes the place of the large panel, which stays empty. *)
Theorem C106_total_name_refuted : forall names axs, axes_of names = Ok axs -> NoDup names -> In (s2l "total") names -> forall k, get axs k <> Some Main.
Proof.
  intros names axs E Nd Ht k Hk. unfold axes_of in E. destruct (_ =? _)%nat eqn:El in E; [|discriminate]. apply Nat.eqb_eq in El.
  match type of E with Ok ?x = Ok _ => assert (axs = x) by congruence end. subst axs. set (ax2 := firstn (length names) (smalls (length names))) in *.
  assert (G : map fst (combine names ax2) = names).
  { now apply fst_combine. }
  assert (S : forall a, In a ax2 -> exists i, a = Small i).
  { intros a Ha. unfold ax2 in Ha. assert (Ha' : In a (smalls (length names))) by (rewrite <- (firstn_skipn (length names)); apply in_or_app; now left). unfold smalls in Ha'. apply in_map_iff in Ha' as (i & <- & _). now exists i. }
  destruct (in_dec str_eq_dec k names) as [I|I].
  - assert (exists a, In (k, a) (combine names ax2)) as [a Ha].
    { rewrite <- G in I. apply in_map_iff in I as ([k' a] & E' & H'). cbn [fst] in E'. exists a. rewrite <- E'. exact H'. }
    rewrite (get_puts k a) in Hk by (try exact Ha; rewrite G; exact Nd). destruct (S a) as [i Ei]; [now apply in_combine_r in Ha|]. rewrite Ei in Hk. discriminate.
  - rewrite get_puts_absent in Hk by (rewrite G; exact I). cbn [get] in Hk. destruct (str_eqb_spec k total_name) as [E0|N]; [apply I; rewrite E0; exact Ht|discriminate].
Qed.

(** ** quantile-quantile plots *)
(** every data set has simulations, of the same number; [t] joins them: row [j] holds the rows [j] of all data sets *)
Definition joined (data : dict qdata) (t : option (list (list R))) : Prop :=
  ((exists e, In e data /\ q_sim (snd e) = None) /\ t = None) \/
  (exists m rows, Forall2 (fun e s => q_sim (snd e) = Some s /\ length s = m) data rows /\ exists j, t = Some j /\ length j = m /\ forall i, (i < m)%nat -> nth i j [] = List.concat (map (fun s => nth i s []) rows)).
Lemma all_sims_none l : all_sims l = None <-> In None l.
Proof.
  unfold all_sims. destruct (existsb _ l) eqn:E.
  - split; [intros _|reflexivity]. apply existsb_exists in E as ([x|] & Hx & H); [discriminate|exact Hx].
  - split; [discriminate|]. intros H. assert (existsb (fun s : option (list (list R)) => match s with None => true | Some _ => false end) l = true) by (apply existsb_exists; exists None; split; [exact H|reflexivity]). congruence.
Qed.
Lemma all_sims_some l r : all_sims l = Some r -> Forall2 (fun o s => o = Some s) l r.
Proof.
  intros H. assert (N : ~ In None l) by (intros I; apply all_sims_none in I; congruence). unfold all_sims in H. destruct (existsb _ l); [discriminate|]. injection H as <-.
  clear - N. induction l as [|[x|] l IH]; [constructor| |exfalso; apply N; now left]. cbn [map List.concat app]. constructor; [reflexivity|]. apply IH. intros I; apply N; now right.
Qed.
Lemma hstack_rows_spec a l t : hstack_rows (a :: l) = Ok t -> Forall (fun b => length b = length a) (a :: l) /\ length t = length a /\ forall i, (i < length a)%nat -> nth i t [] = List.concat (map (fun b => nth i b []) (a :: l)).
Proof.
  unfold hstack_rows. destruct (forallb _ (a :: l)) eqn:F; [|discriminate]. intros E. match type of E with Ok ?x = Ok _ => assert (t = x) by congruence end. subst t.
  rewrite forallb_forall in F. split; [apply Forall_forall; intros b Hb; apply Nat.eqb_eq, F, Hb|]. split; [now rewrite map_length, seq_length|]. intros i Hi. now rewrite nth_seq_map.
Qed.
Lemma get_map_snd {A B} (f : A -> B) (d : dict A) k : get (map (fun e => (fst e, f (snd e))) d) k = option_map f (get d k).
Proof. induction d as [|[k' v] d IH]; [reflexivity|]. cbn [map get fst snd]. destruct (str_eqb k k'); [reflexivity|exact IH]. Qed.
Lemma qq_sims_spec data rsim : data <> [] -> ~ In total_name (map fst data) -> qq_sims data = Ok rsim ->
  (forall k, k <> total_name -> get rsim k = option_map q_sim (get data k)) /\ exists t, get rsim total_name = Some t /\ joined data t.
Proof.
  intros Ne Nt H. unfold qq_sims in H. rewrite map_map in H. cbn [snd] in H. destruct (all_sims (map (fun x => q_sim (snd x)) data)) as [l|] eqn:E.
  - pose proof (all_sims_some _ _ E) as F. destruct l as [|a l]; [destruct data; [easy|inversion F]|]. destruct (hstack_rows (a :: l)) as [t|] eqn:Eh; [|discriminate]. cbn [bind] in H.
    match type of H with Ok ?x = Ok _ => assert (rsim = x) by congruence end. subst rsim. destruct (hstack_rows_spec _ _ _ Eh) as (Fl & Lt & Ht). split.
    + intros k Nk. rewrite get_put. destruct (str_eqb_spec k total_name) as [E0|_]; [contradiction|]. apply get_map_snd.
    + exists (Some t). rewrite get_put. destruct (str_eqb_spec total_name total_name) as [_|N]; [|congruence]. split; [reflexivity|]. right. exists (length a), (a :: l). split.
      * clear - F Fl. revert F Fl. generalize (length a) as m. generalize (a :: l) as r. clear. intros r m. revert r. induction data as [|e data IH]; intros r F Fl; cbn [map] in F; inversion F as [|? s ? r' E F']; subst; constructor.
        -- inversion Fl as [|? ? Es _]; subst. now split.
        -- apply IH; [exact F'|]. now inversion Fl.
      * exists t. split; [reflexivity|]. now split.
  - match type of H with Ok ?x = Ok _ => assert (rsim = x) by congruence end. subst rsim. apply all_sims_none in E. apply in_map_iff in E as (e & Ee & He). split.
    + intros k Nk. rewrite get_put. destruct (str_eqb_spec k total_name) as [E0|_]; [contradiction|]. apply get_map_snd.
    + exists None. rewrite get_put. destruct (str_eqb_spec total_name total_name) as [_|N]; [|congruence]. split; [reflexivity|]. left. split; [now exists e|reflexivity].
Qed.
Lemma qq_values_spec data u r : ~ In total_name (map fst data) -> qq_values data u = Ok r ->
  (forall k, k <> total_name -> get r k = option_map (fun e => q_obs e u) (get data k)) /\ get r total_name = Some (List.concat (map (fun e => q_obs (snd e) u) data)).
Proof.
  intros Nt H. unfold qq_values in H. rewrite map_map in H. cbn [snd] in H. unfold hstack in H. destruct (map (fun x => q_obs (snd x) u) data) as [|a l] eqn:E; [discriminate|]. cbn [bind] in H. rewrite <- E in H.
  match type of H with Ok ?x = Ok _ => assert (r = x) by congruence end. subst r. split.
  - intros k Nk. rewrite get_put. destruct (str_eqb_spec k total_name) as [E0|_]; [contradiction|]. apply (get_map_snd (fun e => q_obs e u)).
  - rewrite get_put. destruct (str_eqb_spec total_name total_name) as [_|N]; [now rewrite E|congruence].
Qed.
Section QQ.
Variables (ppf : R -> R) (beta_ppf : R -> nat -> nat -> R).
(** The large panel compares the residuals of all channels with those of all simulations, the panel of each data set its own; the
    residuals are those of the best fit exactly if every data set has simulations to compare with. *)
Theorem C106_qq : forall data detrend ps, data <> [] -> NoDup (map fst data) -> ~ In (s2l "total") (map fst data) -> plot_qq ppf beta_ppf data detrend = Ok ps ->
  exists t c0 cs, joined data t /\ ps = (Main, c0) :: combine (map Small (seq 0 (length data))) cs /\
    get_qq ppf beta_ppf (List.concat (map (fun e => q_obs (snd e) (match t with Some _ => true | None => false end)) data)) detrend 0.95 t = Ok c0 /\
    Forall2 (fun e c => get_qq ppf beta_ppf (q_obs (snd e) (match t with Some _ => true | None => false end)) detrend 0.95 (q_sim (snd e)) = Ok c) data cs.
Proof.
  intros data detrend ps Ne Nd Nt H. unfold plot_qq in H. destruct (qq_sims data) as [rsim|] eqn:Es; [|discriminate]. cbn [bind] in H.
  destruct (qq_sims_spec data rsim Ne Nt Es) as (Gs & t & Gt & J). unfold item at 1 in H. rewrite Gt in H. cbn [bind] in H. set (u := match t with Some _ => true | None => false end) in *.
  destruct (qq_values data u) as [r|] eqn:Er; [|discriminate]. cbn [bind] in H. destruct (qq_values_spec data u r Nt Er) as (Gr & Grt).
  assert (Nn : map fst data <> []) by (destruct data; [easy|discriminate]). rewrite axes_plain in H by assumption. cbn [bind] in H. rewrite map_length in H. cbn [mapE] in H.
  unfold item at 1 2 in H. cbn [fst snd] in H. rewrite Grt, Gt in H. cbn [bind] in H. destruct (get_qq _ _ _ detrend 0.95 t) as [c0|] eqn:E0; [|discriminate]. cbn [bind] in H.
  match type of H with bind ?x _ = _ => destruct x as [tl|] eqn:Et; [|discriminate] end. cbn [bind] in H. match type of H with Ok ?x = Ok _ => assert (ps = x) by congruence end. subst ps.
  assert (K : forall d i l, (forall e, In e d -> get data (fst e) = Some (snd e) /\ fst e <> total_name) ->
    mapE (fun e => bind (item r (fst e)) (fun q => bind (item rsim (fst e)) (fun s => bind (get_qq ppf beta_ppf q detrend 0.95 s) (fun c => Ok (snd e, c))))) (combine (map fst d) (map Small (seq i (length d)))) = Ok l ->
    exists cs, l = combine (map Small (seq i (length d))) cs /\ Forall2 (fun e c => get_qq ppf beta_ppf (q_obs (snd e) u) detrend 0.95 (q_sim (snd e)) = Ok c) d cs).
  { induction d as [|[k v] d IH]; intros i l Hd Hl; [cbn in Hl; injection Hl as <-; exists []; split; [reflexivity|constructor]|].
    cbn [map length seq combine mapE fst snd] in Hl. destruct (Hd (k, v) (or_introl eq_refl)) as [Gk Nk]. cbn [fst snd] in Gk, Nk. unfold item at 1 2 in Hl. rewrite (Gr k Nk), (Gs k Nk), Gk in Hl. cbn [option_map bind] in Hl.
    destruct (get_qq ppf beta_ppf (q_obs v u) detrend 0.95 (q_sim v)) as [c|] eqn:Ec; [|discriminate]. cbn [bind] in Hl.
    match type of Hl with bind ?x _ = _ => destruct x as [l'|] eqn:El; [|discriminate] end. cbn [bind] in Hl. injection Hl as <-.
    destruct (IH (S i) l') as (cs & -> & F); [intros e He; apply Hd; now right|exact El|]. exists (c :: cs). split; [reflexivity|]. now constructor. }
  destruct (K data O tl) as (cs & -> & F).
  - intros [k v] He. split; [now apply get_nodup|]. intros E. apply Nt. change (In total_name (map fst data)). rewrite <- E. apply in_map_iff. exists (k, v). now split.
  - exact Et.
  - exists t, c0, cs. split; [exact J|]. split; [reflexivity|]. split; [exact E0|exact F].
Qed.
(** it is drawn for all data without simulations, and for simulations of one positive number *)
Theorem C106_qq_drawn : forall data detrend, data <> [] -> NoDup (map fst data) -> ~ In (s2l "total") (map fst data) ->
  (exists m, forall e s, In e data -> q_sim (snd e) = Some s -> length s = S m) -> exists ps, plot_qq ppf beta_ppf data detrend = Ok ps.
Proof.
  intros data detrend Ne Nd Nt [m Hm].
  assert (Q : forall q s, (forall x, s = Some x -> x <> []) -> exists c, get_qq ppf beta_ppf q detrend 0.95 s = Ok c).
  { intros q [s|] Hs; unfold get_qq; cbv zeta.
    - assert (Ns : map sortR s <> []) by (intros E; apply map_eq_nil in E; now apply (Hs s)).
      destruct (quantile_rows_defined (length q) (map sortR s) 0.5 Ns) as (l1 & ->); [lra|]. cbn [bind]. destruct (quantile_rows_defined (length q) (map sortR s) (0.5 - 0.5 * 0.95) Ns) as (l2 & ->); [lra|]. cbn [bind].
      destruct (quantile_rows_defined (length q) (map sortR s) (0.5 + 0.5 * 0.95) Ns) as (l3 & ->); [lra|]. cbn [bind]. destruct detrend; now eexists.
    - cbn [bind]. destruct detrend; now eexists. }
  assert (S : exists rsim, qq_sims data = Ok rsim).
  { unfold qq_sims. rewrite map_map. cbn [snd]. destruct (all_sims (map (fun x => q_sim (snd x)) data)) as [l|] eqn:E; [|now eexists]. apply all_sims_some in E.
    assert (Fl : Forall (fun b => length b = Datatypes.S m) l).
    { clear - E Hm. revert l E. induction data as [|e data IH]; intros l E; cbn [map] in E; inversion E as [|? s ? r' E1 F']; subst; constructor; [apply (Hm e); [now left|exact E1]|]. apply IH; [intros; eapply Hm; [right|]; eassumption|exact F']. }
    destruct l as [|a l]; [destruct data; [easy|inversion E]|]. unfold hstack_rows. destruct (forallb _ (a :: l)) eqn:F; [cbn [bind]; now eexists|]. exfalso.
    assert (forallb (fun b : list (list R) => (length b =? length a)%nat) (a :: l) = true); [|congruence]. apply forallb_forall. intros b Hb. rewrite Forall_forall in Fl. rewrite (Fl b Hb), (Fl a (or_introl eq_refl)). apply Nat.eqb_refl. }
  destruct S as [rsim Es]. destruct (qq_sims_spec data rsim Ne Nt Es) as (Gs & t & Gt & J). unfold plot_qq. rewrite Es. cbn [bind]. unfold item at 1. rewrite Gt. cbn [bind]. set (u := match t with Some _ => true | None => false end).
  assert (V : exists r, qq_values data u = Ok r).
  { unfold qq_values. rewrite map_map. unfold hstack. destruct (map (fun x => snd (fst x, q_obs (snd x) u)) data) eqn:E; [apply map_eq_nil in E; contradiction|]. cbn [bind]. now eexists. }
  destruct V as [r Er]. rewrite Er. cbn [bind]. destruct (qq_values_spec data u r Nt Er) as (Gr & Grt). assert (Nn : map fst data <> []) by (destruct data; [easy|discriminate]). rewrite axes_plain by assumption. cbn [bind].
  apply mapE_def. intros [k a] [E|He].
  - injection E as <- <-. unfold item. cbn [fst snd]. rewrite Grt, Gt. cbn [bind]. destruct (Q (List.concat (map (fun e => q_obs (snd e) u) data)) t) as (c & ->); [|cbn [bind]; now eexists].
    intros x -> ->. destruct J as [[_ J]|(m' & rows & F & j & Ej & Lj & _)]; [discriminate|]. injection Ej as <-. cbn in Lj. subst m'. destruct data as [|e data]; [easy|]. inversion F as [|? s ? ? [E1 E2] _]; subst.
    specialize (Hm e s (or_introl eq_refl) E1). congruence.
  - apply in_combine_l in He. unfold item. cbn [fst snd]. assert (Nk : k <> total_name) by (intros ->; contradiction). rewrite (Gr k Nk), (Gs k Nk).
    destruct (get data k) as [v|] eqn:G; [|exfalso; apply get_none_iff in G; contradiction]. cbn [option_map bind]. destruct (Q (q_obs v u) (q_sim v)) as (c & ->); [|cbn [bind]; now eexists].
    intros x E ->. apply get_in in G. specialize (Hm (k, v) [] G E). discriminate.
Qed.
End QQ.

(** ** distribution of the transforms *)
Theorem C106_pit : forall interval pits detrend, pits <> [] -> NoDup (map fst pits) -> ~ In (s2l "total") (map fst pits) ->
  plot_pit interval pits detrend = Ok ((Main, get_pit_ecdf interval (List.concat (map snd pits)) detrend) ::
    combine (map Small (seq 0 (length pits))) (map (fun e => get_pit_ecdf interval (snd e) detrend) pits)).
Proof.
  intros interval pits detrend Ne Nd Nt. unfold plot_pit, hstack. destruct (map snd pits) as [|a l] eqn:E; [apply map_eq_nil in E; contradiction|]. cbn [bind]. rewrite <- E.
  assert (Nn : map fst pits <> []) by (destruct pits; [easy|discriminate]). rewrite axes_plain by assumption. cbn [bind mapE]. unfold item at 1. cbn [fst snd]. rewrite get_put.
  destruct (str_eqb_spec total_name total_name) as [_|N]; [|congruence]. cbn [bind]. rewrite map_length.
  assert (K : forall d i, (forall e, In e d -> get pits (fst e) = Some (snd e) /\ fst e <> total_name) ->
    mapE (fun e => bind (item (put pits total_name (List.concat (map snd pits))) (fst e)) (fun p => Ok (snd e, get_pit_ecdf interval p detrend))) (combine (map fst d) (map Small (seq i (length d)))) =
    Ok (combine (map Small (seq i (length d))) (map (fun e => get_pit_ecdf interval (snd e) detrend) d))).
  { induction d as [|[k v] d IH]; intros i Hd; [reflexivity|]. cbn [map length seq combine mapE fst snd]. destruct (Hd (k, v) (or_introl eq_refl)) as [Gk Nk]. cbn [fst snd] in Gk, Nk.
    unfold item at 1. rewrite get_put. destruct (str_eqb_spec k total_name) as [E0|_]; [contradiction|]. rewrite Gk. cbn [bind]. rewrite IH by (intros e He; apply Hd; now right). reflexivity. }
  rewrite K; [reflexivity|]. intros [k v] He. split; [now apply get_nodup|]. intros E0. apply Nt. change (In total_name (map fst pits)). rewrite <- E0. apply in_map_iff. exists (k, v). now split.
Qed.

(** ** goodness of fit *)
Theorem C106_gof_needs_simulations : forall names obs t, plot_gof names obs t None = Err RuntimeError.
Proof. reflexivity. Qed.
(** a panel shows: all simulated deviances [sim] in increasing order, the observed one, and the p-value unless it is zero *)
Definition gof_shows (n : nat) (obs : R) (sim : list R) (p : option R) (g : gof_panel) : Prop :=
  Permutation sim (gp_x g) /\ StronglySorted Rle (gp_x g) /\ length sim = n /\ length (gp_y g) = n /\ gp_obs g = obs /\
  (forall x, gp_p g = Some x <-> p = Some x /\ 0 < x).
Lemma gof_panel_spec n obs sim p g : gof_panel_of n obs sim p = Ok g -> gof_shows n obs sim p g /\ gp_y g = survival n.
Proof.
  unfold gof_panel_of. destruct (Nat.eqb_spec (length sim) n) as [L|]; [|discriminate]. intros E. injection E as <-. split; [|reflexivity].
  unfold gof_shows. cbn [gp_x gp_y gp_obs gp_p]. split; [apply sortR_perm|]. split; [apply sortR_sorted|]. split; [exact L|]. split; [unfold survival; now rewrite map_length, seq_length|]. split; [reflexivity|].
  intros x. destruct p as [q|]; [|split; [discriminate|intros [? _]; discriminate]]. destruct (Rltb_spec 0 q) as [Hq|Hq].
  - split; [intros H; injection H as <-; now split|intros [H _]; exact H].
  - split; [discriminate|intros [H H0]; injection H as <-; contradiction].
Qed.
Theorem C106_gof : forall names obs t s ps, names <> [] -> NoDup names -> ~ In (s2l "total") names -> plot_gof names obs t (Some s) = Ok ps ->
  exists g0 gs, ps = (Main, g0) :: combine (map Small (seq 0 (length names))) gs /\ gof_shows (g_n s) t (g_total s) (g_ptotal s) g0 /\
    Forall2 (fun k g => exists o d p, get obs k = Some o /\ get (g_group s) k = Some d /\ get (g_p s) k = Some p /\ gof_shows (g_n s) o d p g) names gs.
Proof.
  intros names obs t s ps Ne Nd Nt H. unfold plot_gof in H. rewrite axes_plain in H by assumption. cbn [bind mapE fst snd] in H.
  assert (T : forall V (d : dict V) v, item (put d total_name v) total_name = Ok v).
  { intros V d v. unfold item. rewrite get_put. destruct (str_eqb_spec total_name total_name) as [_|N]; [reflexivity|congruence]. }
  rewrite !T in H. cbn [bind] in H. destruct (gof_panel_of (g_n s) t (g_total s) (g_ptotal s)) as [g0|] eqn:E0; [|discriminate]. cbn [bind] in H.
  match type of H with bind ?x _ = _ => destruct x as [tl|] eqn:Et; [|discriminate] end. cbn [bind] in H. match type of H with Ok ?x = Ok _ => assert (ps = x) by congruence end. subst ps.
  assert (I : forall V (d : dict V) v k x, k <> total_name -> item (put d total_name v) k = Ok x -> get d k = Some x).
  { intros V d v k x N E. unfold item in E. rewrite get_put in E. destruct (str_eqb_spec k total_name) as [E1|_]; [contradiction|]. destruct (get d k); [injection E as <-; reflexivity|discriminate]. }
  assert (K : forall l i tl, ~ In total_name l -> mapE (fun e => bind (item (put obs total_name t) (fst e)) (fun o => bind (item (put (g_group s) total_name (g_total s)) (fst e)) (fun d =>
      bind (item (put (g_p s) total_name (g_ptotal s)) (fst e)) (fun p => bind (gof_panel_of (g_n s) o d p) (fun g => Ok (snd e, g)))))) (combine l (map Small (seq i (length l)))) = Ok tl ->
    exists gs, tl = combine (map Small (seq i (length l))) gs /\ Forall2 (fun k g => exists o d p, get obs k = Some o /\ get (g_group s) k = Some d /\ get (g_p s) k = Some p /\ gof_shows (g_n s) o d p g) l gs).
  { induction l as [|k l IH]; intros i tl0 Hl E; [cbn in E; injection E as <-; exists []; split; [reflexivity|constructor]|].
    assert (Nk : k <> total_name) by (intros E1; apply Hl; now left). cbn [map length seq combine mapE fst snd] in E.
    destruct (item (put obs total_name t) k) as [o|] eqn:Eo; [|discriminate]. cbn [bind] in E. destruct (item (put (g_group s) total_name (g_total s)) k) as [d|] eqn:Ed; [|discriminate]. cbn [bind] in E.
    destruct (item (put (g_p s) total_name (g_ptotal s)) k) as [p|] eqn:Ep; [|discriminate]. cbn [bind] in E. destruct (gof_panel_of (g_n s) o d p) as [g|] eqn:Eg; [|discriminate]. cbn [bind] in E.
    match type of E with bind ?x _ = _ => destruct x as [l'|] eqn:El; [|discriminate] end. cbn [bind] in E. injection E as <-.
    destruct (IH (S i) l') as (gs & -> & F); [intros X; apply Hl; now right|exact El|]. exists (g :: gs). split; [reflexivity|]. constructor; [|exact F].
    exists o, d, p. split; [exact (I _ _ _ _ _ Nk Eo)|]. split; [exact (I _ _ _ _ _ Nk Ed)|]. split; [exact (I _ _ _ _ _ Nk Ep)|]. now apply gof_panel_spec. }
  destruct (K names O tl Nt Et) as (gs & -> & F). exists g0, gs. split; [reflexivity|]. split; [now apply gof_panel_spec|exact F].
Qed.
Lemma count_gt x v : count (fun y => x < y) v (length (filter (fun y => Rltb x y) v)).
Proof.
  induction v as [|y v IH]; [constructor|]. cbn [filter]. destruct (Rltb_spec x y) as [H|H]; [now constructor|now constructor].
Qed.
Lemma count_ge x v : count (fun y => x <= y) v (length (filter (fun y => Rleb x y) v)).
Proof.
  induction v as [|y v IH]; [constructor|]. cbn [filter]. destruct (Rleb_spec x y) as [H|H]; [now constructor|now constructor].
Qed.
Lemma filter_none {A} (f : A -> bool) l : Forall (fun x => f x = false) l -> filter f l = [].
Proof. induction 1 as [|x l E _ IH]; [reflexivity|]. cbn. now rewrite E. Qed.
Lemma filter_all {A} (f : A -> bool) l : Forall (fun x => f x = true) l -> filter f l = l.
Proof. induction 1 as [|x l E _ IH]; [reflexivity|]. cbn. now rewrite E, IH. Qed.
Lemma filter_len {A} (f : A -> bool) l : (length (filter f l) <= length l)%nat.
Proof. induction l as [|x l IH]; [apply Nat.le_refl|]. cbn. destruct (f x); cbn; lia. Qed.
Lemma above_count s i : StronglySorted Rle s -> (i < length s)%nat ->
  (length (filter (fun y => Rltb (nth i s 0%R) y) s) <= length s - S i)%nat /\ ((S i < length s)%nat -> nth i s 0%R < nth (S i) s 0 -> length (filter (fun y => Rltb (nth i s 0%R) y) s) = (length s - S i)%nat) /\
  (length s - i <= length (filter (fun y => Rleb (nth i s 0%R) y) s))%nat.
Proof.
  intros S Hi. set (x := nth i s 0). assert (F : forall f, length (filter f s) = (length (filter f (firstn (Datatypes.S i) s)) + length (filter f (skipn (Datatypes.S i) s)))%nat).
  { intros f. rewrite <- app_length, <- filter_app, firstn_skipn. reflexivity. }
  assert (Z : filter (fun y => Rltb x y) (firstn (Datatypes.S i) s) = []).
  { apply filter_none. pose proof (sorted_firstn s x i S Hi (Rle_refl _)) as G. eapply Forall_impl; [|exact G]. intros y Hy. cbn beta in *. apply Rleb_true in Hy. apply Rltb_false. exact Hy. }
  split; [|split].
  - rewrite F, Z. cbn [length plus]. eapply Nat.le_trans; [apply filter_len|]. rewrite skipn_length. lia.
  - intros H1 H2. rewrite F, Z. cbn [length plus]. rewrite filter_all; [apply skipn_length|].
    pose proof (sorted_skipn s (nth (Datatypes.S i) s 0) (Datatypes.S i) S H1 (Rle_refl _)) as G. eapply Forall_impl; [|exact G]. intros y Hy. cbn beta in *. apply Rleb_true in Hy. apply Rltb_true. fold x in H2. lra.
  - pose proof (sorted_skipn s x i S Hi (Rle_refl _)) as G. rewrite <- (firstn_skipn i s) at 2. rewrite filter_app, app_length, (filter_all _ (skipn i s)) by exact G. rewrite skipn_length. lia.
Qed.
Lemma survival_nth n i : (i < n)%nat -> nth i (survival n) 0 = INR (n - S i) / INR n.
Proof.
  intros H. unfold survival. rewrite (nth_indep _ 0 (1 - INR 0 / INR n)) by (now rewrite map_length, seq_length). rewrite (map_nth (fun i => 1 - INR i / INR n)), seq_nth by exact H.
  rewrite minus_INR by lia. cbn [plus]. assert (0 < INR n) by (apply lt_0_INR; lia). field. lra.
Qed.
Lemma panel_sorted n obs sim p g : gof_panel_of n obs sim p = Ok g -> length sim = n /\ gp_x g = sortR sim /\ gp_y g = survival n.
Proof. unfold gof_panel_of. destruct (Nat.eqb_spec (length sim) n) as [L|]; [|discriminate]. intros E. injection E as <-. auto. Qed.
(** At every simulated deviance the curve is the proportion of the simulations above it (if it is the last of equal ones). *)
Theorem C106_gof_curve : forall n obs sim p g i, gof_panel_of n obs sim p = Ok g -> (i < n)%nat -> forall m, count (fun d => nth i (gp_x g) 0 < d) sim m ->
  INR m / INR n <= nth i (gp_y g) 0 /\ ((S i = n \/ nth i (gp_x g) 0 < nth (S i) (gp_x g) 0) -> nth i (gp_y g) 0 = INR m / INR n).
Proof.
  intros n obs sim p g i E Hi m Cm. destruct (panel_sorted _ _ _ _ _ E) as (L & Ex & Ey). rewrite Ey, Ex in *. rewrite survival_nth by exact Hi.
  rewrite (count_fun _ _ _ _ Cm (count_gt (nth i (sortR sim) 0) sim)). rewrite (filter_perm _ _ _ (sortR_perm sim)).
  assert (Hs : (i < length (sortR sim))%nat) by (rewrite sortR_length; lia). destruct (above_count (sortR sim) i (sortR_sorted sim) Hs) as (A & B & _). rewrite sortR_length, L in A, B.
  assert (P : 0 < / INR n) by (apply Rinv_0_lt_compat, lt_0_INR; lia). split.
  - apply Rmult_le_compat_r; [lra|]. now apply le_INR.
  - intros [H|H]; unfold Rdiv; f_equal; f_equal.
    + lia.
    + destruct (Nat.lt_ge_cases (S i) n) as [H1|H1]; [symmetry; now apply B|lia].
Qed.
(** The axis is labelled with the probability of reaching the deviance, which is always larger by 1/n or more. *)
Theorem C106_gof_label_refuted : forall n obs sim p g i, gof_panel_of n obs sim p = Ok g -> (i < n)%nat -> forall m, count (fun d => nth i (gp_x g) 0 <= d) sim m ->
  nth i (gp_y g) 0 + 1 / INR n <= INR m / INR n.
Proof.
  intros n obs sim p g i E Hi m Cm. destruct (panel_sorted _ _ _ _ _ E) as (L & Ex & Ey). rewrite Ey, Ex in *. rewrite survival_nth by exact Hi.
  rewrite (count_fun _ _ _ _ Cm (count_ge (nth i (sortR sim) 0) sim)). rewrite (filter_perm _ _ _ (sortR_perm sim)).
  assert (Hs : (i < length (sortR sim))%nat) by (rewrite sortR_length; lia). destruct (above_count (sortR sim) i (sortR_sorted sim) Hs) as (_ & _ & C). rewrite sortR_length, L in C.
  assert (P : 0 < / INR n) by (apply Rinv_0_lt_compat, lt_0_INR; lia). apply le_INR in C. rewrite minus_INR in C by lia. rewrite minus_INR by lia. rewrite S_INR.
  unfold Rdiv. rewrite <- Rmult_plus_distr_r. apply Rmult_le_compat_r; [lra|]. lra.
Qed.
(** The text is p < 1/n exactly if no simulation reaches the observed deviance. *)
Theorem C106_gof_text : forall n obs sim g, sim <> [] -> gof_panel_of n obs sim (pvalue obs sim) = Ok g -> (gp_p g = None <-> forall d, In d sim -> d < obs).
Proof.
  intros n obs sim g Ns E. unfold gof_panel_of in E. destruct (Nat.eqb_spec (length sim) n) as [L|]; [|discriminate]. injection E as <-. cbn [gp_p]. unfold pvalue.
  assert (Lp : (0 < length sim)%nat) by (destruct sim; [easy|cbn; lia]). destruct (Nat.eqb_spec (length sim) 0) as [Z|_]; [lia|]. assert (P : 0 < / INR (length sim)) by (apply Rinv_0_lt_compat, lt_0_INR; lia).
  destruct (Rltb_spec 0 (INR (length (filter (fun s => Rleb obs s) sim)) / INR (length sim))) as [H|H].
  - split; [discriminate|]. intros A. exfalso. rewrite filter_none in H; [cbn in H; unfold Rdiv in H; lra|]. apply Forall_forall. intros d Hd. apply Rleb_false. now apply A.
  - split; [intros _|reflexivity]. intros d Hd. destruct (Rlt_le_dec d obs) as [|Hge]; [assumption|]. exfalso. apply H.
    assert (In d (filter (fun s => Rleb obs s) sim)) by (apply filter_In; split; [exact Hd|now apply Rleb_true]).
    apply Rmult_lt_0_compat; [|exact P]. apply lt_0_INR. destruct (filter _ sim); [easy|cbn; lia].
Qed.

(** ** concrete cases *)
Definition three : list str := map s2l ["a"; "b"; "c"]%string.
Example C106_layout_ex : axes_of three = Ok [(s2l "total", Main); (s2l "a", Small 0); (s2l "b", Small 1); (s2l "c", Small 2)] /\ ncols 3 = 2%nat /\ hidden 3 (Small 3) = true /\ hidden 3 (Small 2) = false.
Proof. vm_compute. repeat split. Qed.
Example C106_total_ex : axes_of (map s2l ["a"; "total"]%string) = Ok [(s2l "total", Small 1); (s2l "a", Small 0)].
Proof. vm_compute. reflexivity. Qed.
Definition two_data : dict qdata := [(s2l "a", {| q_sim := Some [[1; 2]; [0; 1]]; q_obs := fun _ => [1; -1] |}); (s2l "b", {| q_sim := Some [[3]; [2]]; q_obs := fun _ => [2] |})].
Example C106_qq_ex : forall ppf b, exists ps, plot_qq ppf b two_data true = Ok ps.
Proof.
  intros. apply C106_qq_drawn; [discriminate| | |].
  - constructor; [intros [|[]]; discriminate|constructor; [easy|constructor]].
  - intros [|[|[]]]; discriminate.
  - exists 1%nat. intros e s [<-|[<-|[]]] E; injection E as <-; reflexivity.
Qed.
(** two simulations, 1 and 2: the curve is 1/2 at 1 and 0 at 2, whose probability of being reached is 1/2 *)
Example C106_gof_ex : exists g, gof_panel_of 2 2 [2; 1] (pvalue 2 [2; 1]) = Ok g /\ gp_x g = [1; 2] /\ nth 1 (gp_y g) 0 = 0 /\ gp_p g = Some (1 / 2).
Proof.
  eexists. split; [reflexivity|]. cbn [gp_x gp_y gp_p]. split; [|split].
  - unfold sortR. cbn [fold_right insR]. destruct (Rleb_spec 2 1); [lra|reflexivity].
  - rewrite survival_nth by lia. cbn. field.
  - unfold pvalue. cbn [length Nat.eqb filter]. destruct (Rleb_spec 2 2); [|lra]. destruct (Rleb_spec 2 1); [lra|]. cbn [length]. replace (INR 1 / INR 2) with (1 / 2) by (cbn; field). destruct (Rltb_spec 0 (1 / 2)); [reflexivity|lra].
Qed.
Example C106_plot_gof_ex : exists g0 g1, plot_gof [s2l "a"] [(s2l "a", 2)] 2 (Some {| g_n := 2; g_group := [(s2l "a", [2; 1])]; g_total := [2; 1]; g_p := [(s2l "a", Some (1 / 2))]; g_ptotal := Some (1 / 2) |}) = Ok [(Main, g0); (Small 0, g1)].
Proof. do 2 eexists. reflexivity. Qed.
Print Assumptions C106_layout.
Print Assumptions C106_total_name_refuted.
Print Assumptions C106_qq.
Print Assumptions C106_qq_drawn.
Print Assumptions C106_pit.
Print Assumptions C106_gof.
Print Assumptions C106_gof_curve.
Print Assumptions C106_gof_label_refuted.
Print Assumptions C106_gof_text.
