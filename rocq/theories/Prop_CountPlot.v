(** C123: count spectra, folded models and Pareto shapes as plotted. *)
From Coq Require Import Lia Lra.
From Verif Require Import RBase Base Data DataProofs Namespace NamespaceProofs HelperData HelperDataProofs ModelAlg Config Results ResultsProofs Summary SummaryProofs SimulateProofs CompileProofs Prop_Summary Intensity Prop_Intensity PlotCache
  Prop_PlotCache PlotCurves Prop_PlotCurves PostSummary Prop_PostSummary ChanLabels Prop_ChanLabels Spectral Prop_Spectral CountPlot.
From Coq Require Import List.
Import ListNotations.
Open Scope list_scope.
Open Scope R_scope.

(** a bar starts at the lower and ends at the upper energy of its channel, and the point lies between *)
Theorem C123_bar : forall log lo hi, lo <= hi -> (log = true -> 0 <= lo) ->
  let '(x, (l, r)) := xbar log lo hi in x - l = lo /\ x + r = hi /\ 0 <= l /\ 0 <= r /\ (log = true -> x * x = lo * hi) /\ (log = false -> l = r) /\
  (lo < hi -> (log = true -> 0 < lo) -> lo < x < hi).
Proof.
  intros log lo hi H P. unfold xbar. destruct log.
  - specialize (P eq_refl). assert (Q : 0 <= lo * hi) by nra. pose proof (sqrt_pos (lo * hi)) as S. pose proof (sqrt_sqrt _ Q) as SS. set (m := sqrt (lo * hi)) in *.
    assert (A : lo <= m) by nra. assert (B : m <= hi) by nra. rewrite Rabs_left1, Rabs_right by lra.
    do 4 (split; [lra|]). split; [intros _; exact SS|]. split; [discriminate|]. intros L P0. specialize (P0 eq_refl). split; nra.
  - do 4 (split; [lra|]). split; [discriminate|]. split; [reflexivity|intros; lra].
Qed.
Print Assumptions C123_bar.

Definition regular (d : cdata) : Prop :=
  let n := length (cd_emin d) in (0 < n)%nat /\ length (cd_emax d) = n /\ length (cd_labels d) = n /\ length (cd_ce d) = n /\ length (cd_err d) = n.
Lemma combine_at {A B} (la : list A) (lb : list B) i a b : length la = length lb -> (i < length la)%nat -> nth i (combine la lb) (a, b) = (nth i la a, nth i lb b).
Proof. intros H _. now apply combine_nth. Qed.
Lemma xbars_length log d : regular d -> length (xbars log d) = length (cd_emin d).
Proof. intros (_ & H & _). unfold xbars. rewrite map_length, combine_length. lia. Qed.
Lemma xbars_at log d i z : regular d -> (i < length (cd_emin d))%nat -> nth i (xbars log d) z = xbar log (nth i (cd_emin d) 0) (nth i (cd_emax d) 0).
Proof.
  intros R Hi. pose proof (xbars_length log d R) as L. destruct R as (_ & H & _). rewrite (nth_indep _ z (xbar log 0 0)) by lia. unfold xbars.
  etransitivity; [exact (map_nth (fun e => xbar log (fst e) (snd e)) (combine (cd_emin d) (cd_emax d)) (0, 0) i)|]. now rewrite combine_nth by lia.
Qed.

(** one point per channel, with its own energies, rate and error, data sets in order; and the legend *)
Theorem C123_counts : forall log ds, Forall regular ds ->
  map fst (fst (plot_ce log ds)) = map cd_name ds /\
  Forall2 (fun d p => length (snd p) = length (cd_emin d) /\ forall i, (i < length (cd_emin d))%nat -> forall z,
    nth i (snd p) z = (xbar log (nth i (cd_emin d) 0) (nth i (cd_emax d) 0), (nth i (cd_ce d) 0, nth i (cd_err d) 0))) ds (fst (plot_ce log ds)).
Proof.
  intros log ds F. cbn [plot_ce fst]. split; [rewrite map_map; reflexivity|]. induction F as [|d ds R F IH]; constructor; [|exact IH]. cbn [snd].
  pose proof (xbars_length log d R) as L. pose proof R as (_ & _ & _ & L1 & L2). assert (LC : length (combine (cd_ce d) (cd_err d)) = length (cd_emin d)) by (rewrite combine_length; lia).
  assert (LP : length (ce_points log d) = length (cd_emin d)) by (unfold ce_points; rewrite combine_length; lia). split; [exact LP|].
  intros i Hi z. rewrite (nth_indep _ z ((0, (0, 0)), (0, 0))) by (rewrite LP; exact Hi). unfold ce_points. rewrite combine_nth by lia. rewrite combine_nth by lia. now rewrite xbars_at.
Qed.
Print Assumptions C123_counts.
(** a legend of up to five entries has one column; a longer one has as few columns as hold four entries each *)
Theorem C123_legend : forall log ds, let n := length ds in let k := snd (plot_ce log ds) in
  ((n <= 5)%nat -> k = 1%nat) /\ ((5 < n)%nat -> (4 * (k - 1) < n <= 4 * k)%nat).
Proof.
  intros log ds n k. unfold k, plot_ce. cbn [snd]. fold n. unfold legend_columns. destruct (Nat.ltb_spec 5 n) as [L|L]; split; intros H; try lia.
  pose proof (Nat.div_mod (n + 3) 4 ltac:(lia)). pose proof (Nat.mod_upper_bound (n + 3) 4 ltac:(lia)). lia.
Qed.
Print Assumptions C123_legend.

(** ** folded models *)
Definition folded_samples (f : folded) : option (list (list R)) := match f with FoldMle _ b => b | FoldPost rows => Some rows end.
Definition folded_regular (n : nat) (f : folded) : Prop :=
  match f with FoldMle m _ => length m = n | FoldPost _ => True end /\ match folded_samples f with Some rows => rows <> [] | None => True end.
(** what the line shows in channel [i] *)
Definition line_value (f : folded) (i : nat) (x : R) : Prop :=
  match f with FoldMle m _ => x = nth i m 0 | FoldPost rows => is_median (map (fun r => nth i r 0) rows) x end.

Lemma f2_at {A B} (P : A -> B -> Prop) la lb a0 b0 i : Forall2 P la lb -> (i < length la)%nat -> P (nth i la a0) (nth i lb b0).
Proof. intros F. revert i. induction F as [|a b la lb Pab _ IH]; intros i H; cbn in H; [lia|]. destruct i; [exact Pab|]. apply IH. lia. Qed.
Lemma ci_some n f rows cl : folded_samples f = Some rows -> 0 < cl < 1 -> folded_ci n f cl = bind (band n rows cl) (fun b => Ok (Some b)).
Proof.
  intros E H. unfold folded_ci. replace (match f with FoldMle _ b => b | FoldPost rows => Some rows end) with (folded_samples f) by reflexivity. rewrite E.
  destruct (Rltb_spec 0 cl); [|lra]. destruct (Rltb_spec cl 1); [reflexivity|lra].
Qed.
Lemma band_spec n rows c lo hi : 0 < c < 1 -> band n rows c = Ok (lo, hi) -> length lo = n /\ length hi = n /\
  forall i, (i < n)%nat -> central (map (fun r => nth i r 0) rows) c (nth i lo 0) (nth i hi 0) /\ nth i lo 0 <= nth i hi 0.
Proof.
  intros Hc H. unfold band in H. apply bind_ok in H as (l & Hl & H). apply bind_ok in H as (h & Hh & H). injection H as -> ->.
  apply quantile_rows_nth in Hl as [Ll Hl]. apply quantile_rows_nth in Hh as [Lh Hh]. split; [exact Ll|]. split; [exact Lh|]. intros i Hi. specialize (Hl i Hi). specialize (Hh i Hi).
  apply central_of; [exact Hc| |]; [rewrite <- Hl|rewrite <- Hh]; unfold col; f_equal; lra.
Qed.

Theorem C123_folded : forall cl d f, regular d -> folded_regular (length (cd_emin d)) f -> Forall (fun c => 0 < c < 1) cl ->
  exists line rib v, draw_folded cl d f = Ok (line, rib) /\
    length v = length (cd_emin d) /\ (forall i, (i < length (cd_emin d))%nat -> line_value f i (nth i v 0)) /\
    concat (map pieces line) = channels (cd_emin d) (cd_emax d) v /\
    (rib = None <-> folded_samples f = None \/ cl = []) /\
    forall rows r, folded_samples f = Some rows -> rib = Some r -> Forall (fun s => length s = length cl) r /\
      forall k, (k < length cl)%nat -> exists lo hi, length lo = length (cd_emin d) /\ length hi = length (cd_emin d) /\
        (forall i, (i < length (cd_emin d))%nat -> central (map (fun r => nth i r 0) rows) (nth k cl 0) (nth i lo 0) (nth i hi 0) /\ nth i lo 0 <= nth i hi 0) /\
        forall z, concat (map (fun s => pieces (lower_line (nth k s z))) r) = channels (cd_emin d) (cd_emax d) lo /\
                  concat (map (fun s => pieces (upper_line (nth k s z))) r) = channels (cd_emin d) (cd_emax d) hi.
Proof.
  intros cl d f Rg (RM & RS) HC. pose proof Rg as (N0 & LX & _). set (n := length (cd_emin d)) in *.
  assert (M : exists v, folded_model n f = Ok v /\ length v = n /\ forall i, (i < n)%nat -> line_value f i (nth i v 0)).
  { destruct f as [m b|rows]; cbn [folded_model folded_samples line_value] in *; [exists m; repeat split; exact RM|].
    destruct (quantile_rows_defined n rows 0.5 RS) as (v & E); [lra|]. exists v. split; [exact E|]. apply quantile_rows_nth in E as (L & E). split; [exact L|].
    intros i Hi. specialize (E i Hi). destruct (med_spec (map (fun r => nth i r 0) rows)) as (x & Ex & Mx); [destruct rows; [easy|discriminate]|].
    unfold med in Ex. unfold col in E. rewrite E in Ex. injection Ex as ->. exact Mx. }
  destruct M as (v & EM & LV & HV).
  destruct (C93_step (cd_emin d) (cd_emax d) v) as (line & EL & CL); [intros ->; cbn in LV; lia|exact (eq_sym LV)|now rewrite LX, LV|].
  unfold draw_folded. fold n. rewrite EM. cbn [bind]. rewrite EL. cbn [bind].
  destruct (folded_samples f) as [rows|] eqn:ES.
  - destruct (bands_defined n rows cl RS HC) as (bs & EB). unfold bands in EB. apply mapE_inv in EB.
    assert (EQ : mapE (folded_ci n f) cl = Ok (map Some bs)).
    { clear -EB HC ES. induction EB as [|c b cl bs E _ IH]; [reflexivity|]. inversion HC; subst. cbn [mapE map]. rewrite (ci_some n f rows c ES) by assumption. rewrite E. cbn [bind]. rewrite IH by assumption. reflexivity. }
    rewrite EQ. cbn [bind]. assert (EF : flat_map (fun q : option (list R * list R) => match q with Some b => [b] | None => [] end) (map Some bs) = bs).
    { clear. induction bs as [|b bs IH]; [reflexivity|]. cbn. now rewrite IH. }
    rewrite EF. assert (LB : length bs = length cl) by (clear -EB; induction EB; cbn; lia).
    assert (SP : forall k, (k < length cl)%nat -> length (fst (nth k bs ([], []))) = n /\ length (snd (nth k bs ([], []))) = n /\
      forall i, (i < n)%nat -> central (map (fun r => nth i r 0) rows) (nth k cl 0) (nth i (fst (nth k bs ([], []))) 0) (nth i (snd (nth k bs ([], []))) 0) /\ nth i (fst (nth k bs ([], []))) 0 <= nth i (snd (nth k bs ([], []))) 0).
    { intros k Hk. pose proof (f2_at _ _ _ 0 ([], []) k EB Hk) as E. destruct (nth k bs ([], [])) as [lo hi] eqn:Ek. cbn [fst snd]. apply (band_spec n rows); [|exact E].
      rewrite Forall_forall in HC. apply HC. now apply nth_In. }
    destruct bs as [|b0 br] eqn:Ebs.
    + exists line, None, v. split; [reflexivity|]. split; [exact LV|]. split; [exact HV|]. split; [exact CL|]. split; [|intros; discriminate].
      split; [intros _; right; destruct cl; [reflexivity|cbn in LB; lia]|reflexivity].
    + rewrite <- Ebs in *. destruct (C93_ribbon (cd_emin d) (cd_emax d) bs) as (r & ER & FR & QR).
      * intros X. fold n in N0. unfold n in N0. rewrite X in N0. cbn in N0. lia.
      * exact LX.
      * rewrite Ebs. discriminate.
      * rewrite Forall_forall. intros b Hb. apply (In_nth _ _ ([], [])) in Hb as (k & Hk & <-). rewrite LB in Hk. destruct (SP k Hk) as (A & B & _). split; assumption.
      * rewrite ER. cbn [bind]. exists line, (Some r), v. split; [destruct bs; [discriminate|reflexivity]|]. split; [exact LV|]. split; [exact HV|]. split; [exact CL|]. split.
        -- split; [discriminate|]. intros [X|X]; [discriminate|]. rewrite X in LB. rewrite Ebs in LB. discriminate.
        -- intros rows' r' Er Hr. injection Er as <-. injection Hr as <-. rewrite LB in FR, QR. split; [exact FR|]. intros k Hk. destruct (SP k Hk) as (A & B & C).
           exists (fst (nth k bs ([], []))), (snd (nth k bs ([], []))). split; [exact A|]. split; [exact B|]. split; [exact C|]. intros z. exact (QR k Hk z ([], [])).
  - assert (EQ : mapE (folded_ci n f) cl = Ok (map (fun _ => None) cl)).
    { clear -ES. induction cl as [|c cl IH]; [reflexivity|]. cbn [mapE map]. unfold folded_ci at 1. replace (match f with FoldMle _ b => b | FoldPost rows => Some rows end) with (folded_samples f) by reflexivity.
      rewrite ES. cbn [bind]. now rewrite IH. }
    rewrite EQ. cbn [bind]. assert (EF : flat_map (fun q : option (list R * list R) => match q with Some b => [b] | None => [] end) (map (fun _ => None) cl) = []).
    { clear. induction cl as [|b bs IH]; [reflexivity|]. cbn. exact IH. }
    rewrite EF. exists line, None, v. split; [reflexivity|]. split; [exact LV|]. split; [exact HV|]. split; [exact CL|]. split; [split; [now left|reflexivity]|intros; discriminate].
Qed.
Print Assumptions C123_folded.
(** a level outside (0, 1) is refused, but only if there are samples *)
Theorem C123_level : forall n f c, ~ 0 < c < 1 ->
  folded_ci n f c = match folded_samples f with Some _ => Err AssertionError | None => Ok None end.
Proof.
  intros n f c H. unfold folded_ci. fold (folded_samples f). destruct f as [m [b|]|rows]; cbn; try reflexivity;
    (destruct (Rltb_spec 0 c); cbn; [|reflexivity]); (destruct (Rltb_spec c 1); [lra|reflexivity]).
Qed.
Print Assumptions C123_level.

(** ** Pareto shapes *)
Definition too_large (k : option R) : Prop := exists x, k = Some x /\ 7 / 10 < x.
Lemma over_spec k : over k = true <-> too_large k.
Proof.
  unfold over, too_large. destruct k as [x|]; [|split; [discriminate|intros (x & X & _); discriminate]].
  destruct (Rltb_spec 0.7 x) as [L|L]; split; try discriminate; try reflexivity; [intros _; exists x; split; [reflexivity|lra]|intros (y & E & G); injection E as <-; lra].
Qed.
(** what the plot shows for a data set whose shapes are [v] *)
Definition khat_shown (log : bool) (d : cdata) (v : list (option R)) (w : str * list (R * (R * R) * option R) * list (R * option R)) : Prop :=
  let '(name, pts, crosses) := w in
  name = cd_name d /\ length pts = length (cd_emin d) /\
  (forall i, (i < length (cd_emin d))%nat -> forall z, nth i pts z = (xbar log (nth i (cd_emin d) 0) (nth i (cd_emax d) 0), nth i v None)) /\
  (forall x k, In (x, k) crosses <-> exists i, (i < length (cd_emin d))%nat /\ x = fst (xbar log (nth i (cd_emin d) 0) (nth i (cd_emax d) 0)) /\ k = nth i v None /\ too_large k) /\
  (crosses <> [] <-> exists k, In k v /\ too_large k).
Lemma khat_one log labels khat d v : regular d -> length v = length (cd_emin d) -> sel labels khat (cd_labels d) = Ok v ->
  exists w, khat_of log labels khat d = Ok w /\ khat_shown log d v w.
Proof.
  intros Rg L E. unfold khat_of. rewrite E. cbn [bind]. eexists. split; [reflexivity|]. unfold khat_shown. split; [reflexivity|].
  pose proof (xbars_length log d Rg) as LX. assert (LP : length (combine (xbars log d) v) = length (cd_emin d)) by (rewrite combine_length; lia). split; [exact LP|].
  assert (AT : forall i, (i < length (cd_emin d))%nat -> forall z, nth i (combine (xbars log d) v) z = (xbar log (nth i (cd_emin d) 0) (nth i (cd_emax d) 0), nth i v None)).
  { intros i Hi z. rewrite (nth_indep _ z ((0, (0, 0)), None)) by (rewrite LP; exact Hi). rewrite combine_nth by lia. now rewrite xbars_at. }
  split; [exact AT|]. set (pts := combine (xbars log d) v) in *.
  assert (CR : forall x k, In (x, k) (map (fun p : R * (R * R) * option R => (fst (fst p), snd p)) (filter (fun p => over (snd p)) pts)) <->
    exists i, (i < length (cd_emin d))%nat /\ x = fst (xbar log (nth i (cd_emin d) 0) (nth i (cd_emax d) 0)) /\ k = nth i v None /\ too_large k).
  { intros x k. rewrite in_map_iff. split.
    - intros (p & Ep & Hp). apply filter_In in Hp as (Hp & O). apply (In_nth _ _ ((0, (0, 0)), None)) in Hp as (i & Hi & Hp). rewrite LP in Hi. rewrite AT in Hp by exact Hi.
      exists i. split; [exact Hi|]. rewrite <- Hp in Ep, O. cbn [fst snd] in *. injection Ep as E1 E2. split; [exact (eq_sym E1)|]. split; [exact (eq_sym E2)|]. rewrite <- E2. now apply over_spec.
    - intros (i & Hi & -> & -> & T). exists (nth i pts ((0, (0, 0)), None)). rewrite AT by exact Hi. split; [reflexivity|]. apply filter_In. split; [|cbn [snd]; now apply over_spec].
      rewrite <- (AT i Hi ((0, (0, 0)), None)). apply nth_In. rewrite LP. exact Hi. }
  split; [exact CR|]. split.
  - intros N. destruct (map _ _) as [|[x k] rest] eqn:Em; [easy|]. destruct (proj1 (CR x k)) as (i & Hi & _ & Ek & T); [now left|]. exists k. split; [|exact T]. rewrite Ek. apply nth_In. lia.
  - intros (k & Hk & T) X. apply (In_nth _ _ None) in Hk as (i & Hi & Ek). rewrite L in Hi.
    assert (I : In (fst (xbar log (nth i (cd_emin d) 0) (nth i (cd_emax d) 0)), k) (map (fun p : R * (R * R) * option R => (fst (fst p), snd p)) (filter (fun p => over (snd p)) pts))).
    { apply CR. exists i. repeat split; [exact Hi|exact (eq_sym Ek)|exact T]. }
    rewrite X in I. destruct I.
Qed.
(** every data set shows its own shapes in its own channels, crosses mark exactly those over 0.7, and the line at 0.7 is drawn exactly if
    there is a cross *)
Theorem C123_khat : forall log ds vs, Forall regular ds -> Forall2 (fun d v => length v = length (cd_emin d)) ds vs ->
  NoDup (all_labels (map cd_labels ds)) ->
  exists line l, plot_khat log (all_labels (map cd_labels ds)) (concat vs) ds = Ok (line, l) /\
    Forall2 (fun dv w => khat_shown log (fst dv) (snd dv) w) (combine ds vs) l /\ map (fun w => fst (fst w)) l = map cd_name ds /\
    (line = true <-> exists w, In w l /\ snd w <> []).
Proof.
  intros log ds vs F F2 N.
  assert (G : forall pre vpre post vpost, ds = pre ++ post -> vs = vpre ++ vpost -> Forall2 (fun d v => length v = length (cd_emin d)) pre vpre ->
    Forall2 (fun d v => length v = length (cd_emin d)) post vpost ->
    exists l, mapE (khat_of log (all_labels (map cd_labels ds)) (concat vs)) post = Ok l /\ Forall2 (fun dv w => khat_shown log (fst dv) (snd dv) w) (combine post vpost) l).
  { intros pre vpre post vpost. revert pre vpre vpost. induction post as [|d post IH]; intros pre vpre vpost Ed Ev Fp Fq; inversion Fq; subst; [exists []; split; [reflexivity|constructor]|].
    rename y into v, l' into vpost'. destruct (IH (pre ++ [d]) (vpre ++ [v]) vpost') as (l & El & Fl); [now rewrite <- app_assoc|now rewrite <- app_assoc|apply Forall2_app; [exact Fp|constructor; [assumption|constructor]]|assumption|].
    assert (R : regular d) by (rewrite Forall_forall in F; apply F; apply in_or_app; right; now left).
    destruct (khat_one log (all_labels (map cd_labels (pre ++ d :: post))) (concat (vpre ++ v :: vpost')) d v R) as (w & Ew & Sw); [assumption| |].
    { rewrite map_app. cbn [map]. apply C100_select; [|destruct R as (_ & _ & R3 & _); congruence|rewrite map_app in N; exact N].
      assert (FR : Forall regular pre) by (rewrite Forall_forall in *; intros x Hx; apply F; apply in_or_app; now left). clear -Fp FR.
      induction Fp as [|d v pre vpre L _ IH]; [reflexivity|]. inversion FR as [|? ? (_ & _ & R3 & _) ?]; subst. cbn [map concat]. rewrite !app_length, IH by assumption. congruence. }
    exists (w :: l). split; [cbn [mapE]; rewrite Ew; cbn [bind]; rewrite El; reflexivity|]. cbn [combine]. constructor; [exact Sw|exact Fl]. }
  destruct (G [] [] ds vs eq_refl eq_refl (Forall2_nil _) F2) as (l & El & Fl). unfold plot_khat. rewrite El. cbn [bind]. exists (existsb over (concat vs)), l. split; [reflexivity|].
  split; [exact Fl|]. split.
  { clear -F2 Fl. revert l Fl. induction F2 as [|d v ds vs _ _ IH]; intros l Fl; inversion Fl; subst; [reflexivity|]. cbn [map]. destruct y as [[name pts] cr]. cbn [fst snd] in *. destruct H1 as (-> & _). f_equal. now apply IH. }
  rewrite existsb_exists. clear -F2 Fl. revert l Fl. induction F2 as [|d v ds vs Ld _ IH]; intros l Fl; inversion Fl; subst.
  - split; [intros (x & [] & _)|intros (w & [] & _)].
  - destruct (IH _ H3) as (IH1 & IH2). destruct y as [[name pts] cr]. cbn [fst snd] in H1. destruct H1 as (_ & _ & _ & _ & C1 & C2). split.
    + intros (x & Hx & O). cbn [concat] in Hx. apply in_app_or in Hx as [Hx|Hx].
      * exists (name, pts, cr). split; [now left|]. cbn [snd]. apply C2. exists x. split; [exact Hx|now apply over_spec].
      * destruct IH1 as (w & Hw & Nw); [exists x; split; assumption|]. exists w. split; [now right|exact Nw].
    + intros (w & [<-|Hw] & Nw).
      * cbn [snd] in Nw. destruct (C1 Nw) as (k & Hk & T). exists k. split; [cbn [concat]; apply in_or_app; now left|now apply over_spec].
      * destruct IH2 as (x & Hx & O); [exists w; split; assumption|]. exists x. split; [cbn [concat]; apply in_or_app; now right|exact O].
Qed.
Print Assumptions C123_khat.
(** with two channels of the same label nothing is plotted *)
Theorem C123_repeated : forall log labels khat ds, ds <> [] -> ~ NoDup labels -> plot_khat log labels khat ds = Err ValueError.
Proof.
  intros log labels khat [|d ds] N D; [easy|]. unfold plot_khat. cbn [mapE]. unfold khat_of at 1. rewrite C100_repeated by exact D. reflexivity.
Qed.
Print Assumptions C123_repeated.

Example C123_ex : exists d1 d2 l, regular d1 /\ regular d2 /\
  plot_khat false (all_labels (map cd_labels [d1; d2])) (concat [[Some 0.5; None]; [Some 0.8]]) [d1; d2] = Ok (true, l) /\ map snd l = [[]; [(5, Some 0.8)]].
Proof.
  exists {| cd_name := []; cd_labels := [[Ascii.zero]; [Ascii.one]]; cd_emin := [1; 2]; cd_emax := [2; 3]; cd_ce := [1; 1]; cd_err := [1; 1] |}.
  exists {| cd_name := [Ascii.zero]; cd_labels := [[Ascii.one; Ascii.zero]]; cd_emin := [4]; cd_emax := [6]; cd_ce := [1]; cd_err := [1] |}.
  eexists. split; [unfold regular; cbn; lia|]. split; [unfold regular; cbn; lia|]. unfold plot_khat, khat_of, over. cbn -[Rltb].
  rewrite (proj2 (Rltb_false 0.7 0.5)), (proj2 (Rltb_true 0.7 0.8)) by lra. cbn. split; [reflexivity|]. replace (0.5 * (4 + 6)) with 5 by lra. reflexivity.
Qed.
