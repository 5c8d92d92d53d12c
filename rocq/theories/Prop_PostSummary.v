(** C102: what a posterior result prints. *)
From Coq Require Import Ascii String Permutation Sorted.
From Verif Require Import RBase Data DataProofs Namespace NamespaceProofs FitInput HelperData HelperDataProofs ModelInfo HelperNames HelperNamesProofs Batch BatchProofs Prop_Batch
  Results ResultsProofs Summary SummaryProofs CompileProofs SimulateProofs Prop_Helper Prop_Summary Prop_HelperData Loglike Prop_Loglike Prop_Posterior PostSummary.
From Coq Require Import List.
Open Scope list_scope.
Open Scope R_scope.

(** ** a small specification *)
Definition is_mean (l : list R) (m : R) : Prop := l <> [] /\ INR (length l) * m = rsum l.
Definition is_std (l : list R) (s : R) : Prop :=
  (2 <= length l)%nat /\ 0 <= s /\ forall m, is_mean l m -> s * s * (INR (length l) - 1) = rsum (map (fun x => (x - m) * (x - m)) l).
(** the middle value, or halfway between the two middle values, of the values in increasing order *)
Definition is_median (l : list R) (m : R) : Prop :=
  l <> [] /\ forall s, Permutation l s -> StronglySorted Rle s -> m = (nth ((length l - 1) / 2) s 0 + nth (length l / 2) s 0) / 2.
Definition is_stat (w : which) : list R -> R -> Prop := match w with Mean => is_mean | Std => is_std | Median => is_median end.
Definition enough (w : which) (l : list R) : Prop := match w with Std => (2 <= length l)%nat | _ => l <> [] end.

Lemma avg_spec l : l <> [] -> exists m, avg l = Some m /\ is_mean l m.
Proof.
  intros H. exists (mean l). split; [destruct l; [easy|reflexivity]|]. split; [exact H|]. unfold mean. field. apply not_0_INR. destruct l; [easy|discriminate].
Qed.
Lemma is_mean_eq l m : is_mean l m -> m = mean l.
Proof. intros (H & E). unfold mean. rewrite <- E. field. apply not_0_INR. destruct l; [easy|discriminate]. Qed.
Lemma sq_sum_pos (f : R -> R) l : 0 <= rsum (map (fun x => f x * f x) l).
Proof. induction l as [|x l IH]; unfold rsum in *; cbn [map fold_right]; [lra|]. pose proof (Rle_0_sqr (f x)). unfold Rsqr in *. lra. Qed.
Lemma zip2_diag (f : R -> R) l : zip2 Rmult (map f l) (map f l) = map (fun x => f x * f x) l.
Proof. induction l as [|x l IH]; [reflexivity|]. cbn. now rewrite IH. Qed.
Lemma stddev_spec l : (2 <= length l)%nat -> exists s, stddev l = Some s /\ is_std l s.
Proof.
  intros H. unfold stddev. destruct (Nat.ltb_spec (length l) 2); [lia|]. eexists. split; [reflexivity|]. split; [exact H|]. split; [apply sqrt_pos|].
  intros m Hm. apply is_mean_eq in Hm as ->. assert (P : 0 < INR (length l - 1)) by (apply lt_0_INR; lia).
  rewrite sqrt_sqrt.
  - unfold sample_cov. rewrite zip2_diag. rewrite minus_INR by lia. cbn [INR]. field. rewrite minus_INR in P by lia. cbn [INR] in P. lra.
  - unfold sample_cov. rewrite zip2_diag. apply Rle_mult_inv_pos; [apply sq_sum_pos|exact P].
Qed.
Lemma sorted_perm_unique s s' : Permutation s s' -> StronglySorted Rle s -> StronglySorted Rle s' -> s = s'.
Proof.
  revert s'. induction s as [|x s IH]; intros s' P S S'; [now apply Permutation_nil in P|].
  destruct s' as [|y s']; [apply Permutation_sym in P; now apply Permutation_nil in P|].
  inversion S as [|? ? Ss Fx]; subst. inversion S' as [|? ? Ss' Fy]; subst. rewrite Forall_forall in Fx, Fy.
  assert (x = y).
  { assert (Ix : In x (y :: s')) by (eapply Permutation_in; [exact P|now left]). assert (Iy : In y (x :: s)) by (eapply Permutation_in; [apply Permutation_sym, P|now left]).
    destruct Ix as [->|Ix]; [reflexivity|]. destruct Iy as [->|Iy]; [reflexivity|]. apply Fy in Ix. apply Fx in Iy. lra. }
  subst y. f_equal. apply IH; [now apply Permutation_cons_inv in P|exact Ss|exact Ss'].
Qed.
Lemma Int_part_unique h z : IZR z <= h < IZR z + 1 -> Int_part h = z.
Proof.
  intros H. pose proof (Int_part_bound h) as B. assert (A : IZR (Int_part h) < IZR z + 1) by lra. assert (A' : IZR z < IZR (Int_part h) + 1) by lra.
  rewrite <- plus_IZR in A, A'. apply lt_IZR in A, A'. lia.
Qed.
Lemma med_spec l : l <> [] -> exists m, med l = Some m /\ is_median l m.
Proof.
  intros H. unfold med, quantile. assert (Hl : (0 < length l)%nat) by (destruct l; [easy|cbn; lia]). destruct (Nat.eqb_spec (length l) 0); [lia|].
  destruct (Rltb_spec 0.5 0); [lra|]. destruct (Rltb_spec 1 0.5); [lra|]. cbn [orb]. cbv zeta. eexists. split; [reflexivity|]. split; [exact H|]. intros s P S.
  assert (E : s = sortR l).
  { apply sorted_perm_unique; [|exact S|apply sortR_sorted]. eapply Permutation_trans; [apply Permutation_sym, P|apply sortR_perm]. }
  rewrite E. set (t := sortR l). clear E P S. destruct (Nat.Even_or_Odd (length l)) as [[k Hk]|[k Hk]]; rewrite Hk.
  - assert (Hk1 : (1 <= k)%nat) by lia. assert (EI : INR (2 * k - 1) = 2 * INR k - 1) by (rewrite minus_INR, mult_INR by lia; cbn [INR]; lra).
    assert (IP : Int_part (0.5 * INR (2 * k - 1)) = Z.of_nat (k - 1)).
    { apply Int_part_unique. rewrite <- INR_IZR_INZ, EI, minus_INR by lia. cbn [INR]. split; lra. }
    rewrite IP, Nat2Z.id, EI, <- INR_IZR_INZ, minus_INR by lia. cbn [INR].
    replace ((2 * k - 1) / 2)%nat with (k - 1)%nat by (apply Nat.div_unique with 1%nat; lia). replace (2 * k / 2)%nat with k by (apply Nat.div_unique with O; lia).
    replace (Nat.min (S (k - 1)) (2 * k - 1)) with k by lia. set (a := nth (k - 1) t 0). set (b := nth k t 0). lra.
  - assert (EI : INR (2 * k + 1 - 1) = 2 * INR k) by (replace (2 * k + 1 - 1)%nat with (2 * k)%nat by lia; rewrite mult_INR; cbn [INR]; lra).
    assert (IP : Int_part (0.5 * INR (2 * k + 1 - 1)) = Z.of_nat k) by (apply Int_part_unique; rewrite <- INR_IZR_INZ, EI; split; lra).
    rewrite IP, Nat2Z.id, EI, <- INR_IZR_INZ. replace ((2 * k + 1 - 1) / 2)%nat with k by (apply Nat.div_unique with O; lia).
    replace ((2 * k + 1) / 2)%nat with k by (apply Nat.div_unique with 1%nat; lia). lra.
Qed.
Lemma stat_fn_spec w l : enough w l -> exists x, stat_fn w l = Some x /\ is_stat w l x.
Proof. destruct w; cbn [enough stat_fn is_stat]; [apply avg_spec|apply stddev_spec|apply med_spec]. Qed.

Lemma select_inv names d v : select names d = Ok v -> map fst v = names /\ forall k c, In (k, c) v -> get d k = Some c.
Proof.
  intros H. apply mapE_inv in H. split.
  - induction H as [|k e l l' E F IH]; [reflexivity|]. destruct (get d k); [|discriminate]. cbn in E. injection E as <-. cbn. now rewrite IH.
  - intros k c Hin. destruct (F2_in_r _ _ _ _ H Hin) as (k' & _ & E). destruct (get d k') as [c'|] eqn:G; [|discriminate]. cbn in E. injection E as -> ->. exact G.
Qed.
Lemma mapE_def {A B} (f : A -> res B) l : (forall x, In x l -> exists y, f x = Ok y) -> exists ys, mapE f l = Ok ys.
Proof.
  induction l as [|x l IH]; intros H; [now exists []|]. destruct (H x (or_introl eq_refl)) as (y & E). destruct IH as (ys & E'); [intros z Hz; apply H; now right|].
  exists (y :: ys). cbn [mapE]. now rewrite E, E'.
Qed.
Lemma select_def names (d : dict chains) : (forall k, In k names -> In k (map fst d)) -> exists v, select names d = Ok v.
Proof.
  intros H. apply mapE_def. intros k Hk. destruct (get d k) as [c|] eqn:G; [exists (k, c); reflexivity|]. apply get_none_iff in G. elim G. now apply H.
Qed.

(** ** the properties *)
Definition fresh (p : result) (w : which) : res (dict (option R)) := fst (compute_stat p no_cache w).
Lemma reads_inv p ws w : fst (compute_stat p (reads p ws) w) = fresh p w.
Proof.
  assert (I : forall c, (forall w, match slot w c with Some v => fresh p w = Ok v | None => True end) -> forall w,
    match slot w (fold_left (fun c w => snd (compute_stat p c w)) ws c) with Some v => fresh p w = Ok v | None => True end).
  { induction ws as [|u ws IH]; intros c Hc; [exact Hc|]. cbn [fold_left]. apply IH. intros w'. unfold compute_stat. specialize (Hc w') as H'. pose proof (Hc u) as Hu.
    destruct (slot u c) as [v|] eqn:E; [exact H'|]. destruct (select (p_all p) (p_draws p)) as [d|e] eqn:D; [|exact H'].
    cbn [snd]. destruct u, w'; cbn [set_slot slot c_mean c_std c_median] in *; try exact H'; unfold fresh, compute_stat, no_cache; cbn [slot c_mean c_std c_median]; now rewrite D. }
  specialize (I no_cache). unfold reads. set (c := fold_left _ ws no_cache) in *. assert (I' := I ltac:(intros []; exact Logic.I) w). clear I.
  unfold compute_stat. destruct (slot w c) as [v|] eqn:E; [now rewrite I'|]. unfold fresh, compute_stat.
  replace (slot w no_cache) with (@None (dict (option R))) by (destruct w; reflexivity). now destruct (select (p_all p) (p_draws p)).
Qed.
(** after any reads, in any order: the mean, standard deviation or median of all draws of all chains, of every parameter *)
Theorem C102_summary : forall p ws w, (forall k, In k (p_all p) -> In k (map fst (p_draws p))) ->
  exists v, fst (compute_stat p (reads p ws) w) = Ok v /\ map fst v = p_all p /\
  forall k x, In (k, x) v -> exists c, get (p_draws p) k = Some c /\ (enough w (concat c) -> exists y, x = Some y /\ is_stat w (concat c) y).
Proof.
  intros p ws w H. rewrite reads_inv. unfold fresh, compute_stat. replace (slot w no_cache) with (@None (dict (option R))) by (destruct w; reflexivity).
  destruct (select_def _ _ H) as (d & D). rewrite D. cbv zeta. cbn [fst]. eexists. split; [reflexivity|]. destruct (select_inv _ _ _ D) as (K & G). split.
  - rewrite map_map. cbn. exact K.
  - intros k x Hin. apply in_map_iff in Hin as ([k' c] & E & Hin). cbn [fst snd] in E. injection E as <- <-. exists c. split; [now apply G|].
    intros En. destruct (stat_fn_spec w (concat c) En) as (y & Ey & Sy). exists y. now split.
Qed.
Print Assumptions C102_summary.
(** a median in the usual sense: at least half of the values on either side *)
Theorem C102_median_halves : forall l m k, is_median l m ->
  (count (fun x => x <= m) l k -> (length l <= 2 * k)%nat) /\ (count (fun x => m <= x) l k -> (length l <= 2 * k)%nat).
Proof.
  intros l m k (Hl & H). destruct (med_spec l Hl) as (m' & E & _ & H'). assert (m = m').
  { rewrite (H (sortR l)), (H' (sortR l)); auto using sortR_perm, sortR_sorted. }
  subst m'. unfold med in E. destruct (quantile l 0.5) as [x|] eqn:Q; [|discriminate]. injection E as ->.
  assert (Hn : (0 < length l)%nat) by (destruct l; [easy|cbn; lia]).
  split; intros C; [apply (quantile_below _ _ _ _ Q) in C|apply (quantile_above _ _ _ _ Q) in C]; rewrite minus_INR in C by lia; cbn [INR] in C;
    apply INR_le; rewrite mult_INR; cbn [INR]; assert (D : INR (length l) < 2 * INR k + 1) by lra;
    (assert (A : INR (length l) < INR (2 * k + 1)) by (rewrite plus_INR, mult_INR; cbn [INR]; lra)); apply INR_lt in A;
    (assert (B : (length l <= 2 * k)%nat) by lia); apply le_INR in B; rewrite mult_INR in B; cbn [INR] in B; lra.
Qed.
Print Assumptions C102_median_halves.

(** *** deviances *)
(** minus twice the log likelihood of a data set, of all data sets, at a draw; [s] holds the log likelihoods of the channels at that draw *)
Definition data_dev (k : str) (s : dict (list R)) : R := -2 * rsum (match get s (k ++ s2l "_loglike") with Some v => v | None => [] end).
Definition total_dev (names : list str) (s : dict (list R)) : R := rsum (map (fun k => data_dev k s) names).
Definition dev_of (names : list str) (k : str) : dict (list R) -> R := if str_eqb k (s2l "total") then total_dev names else data_dev k.
(** the log likelihoods of the result are those of the draws *)
Definition from_draws (stats : dict stat) (sites : list (list (dict (list R)))) (p : result) : Prop :=
  Forall2 (Forall2 (fun s l => get_loglike stats s = Ok l)) sites (p_ll p).
Lemma mapE_F2 {A B C} (P : A -> B -> Prop) (f : B -> res C) (g : A -> C) la lb : (forall a b, P a b -> f b = Ok (g a)) -> Forall2 P la lb -> mapE f lb = Ok (map g la).
Proof. intros H F. induction F as [|a b la lb Pab F IH]; [reflexivity|]. cbn [mapE map]. now rewrite (H _ _ Pab), IH. Qed.
Lemma ll_entry_of stats sites p key g : from_draws stats sites p -> (forall s l, get_loglike stats s = Ok l -> get (stored_loglike l) key = Some [g s]) ->
  ll_entry (p_ll p) key = Ok (map (map g) sites).
Proof.
  intros F H. unfold ll_entry. eapply mapE_F2; [|exact F]. intros a b Fab. cbn beta. eapply mapE_F2; [|exact Fab]. intros s l Hl. cbn beta. now rewrite (H _ _ Hl).
Qed.
Lemma total_sum names (s : dict (list R)) vs : Forall2 (fun k v => get s (k ++ s2l "_loglike") = Some v) names vs ->
  -2 * rsum (concat vs) = total_dev names s.
Proof.
  intros F. rewrite rsum_concat. induction F as [|k v names vs E F IH]; unfold total_dev, rsum in *; cbn [map fold_right]; [lra|]. rewrite <- IH. unfold data_dev. rewrite E. unfold rsum. lra.
Qed.
Lemma entry_data stats sites p k : clear_names stats -> from_draws stats sites p -> In k (map fst stats) ->
  ll_entry (p_ll p) (k ++ s2l "_total") = Ok (map (map (fun s => data_dev k s / -2)) sites).
Proof.
  intros C F Hk. apply (ll_entry_of stats); [exact F|]. intros s l Hl. destruct (C87_stored _ _ _ C Hl) as (H & _). apply in_map_iff in Hk as ([k' st] & E & Hk). cbn in E. subst k'.
  destruct (H _ _ Hk) as (v & Gv & _ & Gt & _). rewrite Gt. f_equal. f_equal. unfold data_dev. rewrite Gv. lra.
Qed.
Lemma entry_total stats sites p : clear_names stats -> from_draws stats sites p ->
  ll_entry (p_ll p) (s2l "total") = Ok (map (map (fun s => total_dev (map fst stats) s / -2)) sites).
Proof.
  intros C F. apply (ll_entry_of stats); [exact F|]. intros s l Hl. destruct (C87_stored _ _ _ C Hl) as (_ & _ & T). destruct (C87_sums _ _ _ Hl) as (Fp & _ & Ec & Et & _).
  rewrite T. f_equal. f_equal. rewrite Et, Ec. rewrite <- (total_sum (map fst stats) s (map snd (l_point l))); [set (z := rsum (concat (map snd (l_point l)))); lra|].
  clear -Fp. induction Fp as [|e q a b (_ & E) Fp IH]; constructor; [exact E|exact IH].
Qed.
Lemma puts_fresh {V} (l acc : dict V) : NoDup (map fst acc ++ map fst l) -> puts acc l = acc ++ l.
Proof.
  revert acc. induction l as [|[k v] l IH]; intros acc H; [cbn; now rewrite app_nil_r|]. cbn [puts fold_left fst snd]. rewrite put_fresh.
  - change (puts (acc ++ [(k, v)]) l = acc ++ (k, v) :: l). rewrite IH; [now rewrite <- app_assoc|]. rewrite map_app. cbn [map fst]. rewrite <- app_assoc. exact H.
  - apply NoDup_remove_2 in H. intros X. apply H, in_or_app. now left.
Qed.
Lemma ndata_keys data : NoDup (map fst data) -> ~ In (s2l "total") (map fst data) ->
  ndata data = map (fun e => (fst e, length (f_emin (snd e)))) data ++ [(s2l "total", list_sum (map (fun e => length (f_emin (snd e))) data))].
Proof.
  intros N T. unfold ndata. cbv zeta. rewrite puts_fresh by (cbn; rewrite map_map; exact N). cbn [app]. rewrite put_fresh; [|rewrite map_map; exact T].
  f_equal. f_equal. f_equal. rewrite map_map. reflexivity.
Qed.
Lemma deviance_inv stats data sites p : clear_names stats -> map fst data = map fst stats -> p_ndata p = ndata data -> from_draws stats sites p ->
  deviance p = Ok (map (fun k => let d := map (dev_of (map fst stats) k) (concat sites) in (k, (avg d, med d))) (map fst stats ++ [s2l "total"])).
Proof.
  intros C Kd Nd F. unfold deviance. rewrite Nd, ndata_keys by (rewrite Kd; apply C).
  set (names := map fst stats). set (f := fun e : str * nat => _).
  set (g := fun k : str => let d := map (dev_of names k) (concat sites) in (k, (avg d, med d))). assert (H : forall k n, In k (names ++ [s2l "total"]) -> f (k, n) = Ok (g k)).
  { intros k n Hk. unfold f, g, stat_key. cbn [fst].
    assert (P : forall h : dict (list R) -> R, map (fun x => -2 * x) (pooled (map (map (fun s => h s / -2)) sites)) = map h (concat sites)).
    { intros h. unfold pooled. rewrite <- concat_map, map_map. apply map_ext. intros s. lra. }
    destruct (str_eqb_spec k total_key) as [->|Nk].
    - change (dev_of names total_key) with (total_dev names). change total_key with (s2l "total") at 1. rewrite (entry_total stats sites p C F). cbn [bind]. rewrite P. reflexivity.
    - apply in_app_iff in Hk as [Hk|[E|[]]]; [|now elim Nk]. rewrite (entry_data stats sites p k C F Hk). cbn [bind]. rewrite P. unfold dev_of.
      destruct (str_eqb_spec k (s2l "total")) as [E|_]; [now elim Nk|reflexivity]. }
  clearbody f g. rewrite (mapE_map f (fun e => g (fst e))).
  - rewrite map_app, map_map. cbn [map fst]. unfold names. rewrite <- Kd, map_app, map_map. reflexivity.
  - intros [k n] Hin. cbn [fst]. apply H. apply (in_map fst) in Hin. rewrite map_app, map_map in Hin. cbn [map fst] in Hin. unfold names. rewrite <- Kd. exact Hin.
Qed.
(** for every data set and for all of them: mean and median, over all draws of all chains, of minus twice the log likelihood *)
Theorem C102_deviance : forall stats data sites p, clear_names stats -> map fst data = map fst stats -> p_ndata p = ndata data -> from_draws stats sites p ->
  exists dv, deviance p = Ok dv /\ map fst dv = map fst stats ++ [s2l "total"] /\
  forall k a m, In (k, (a, m)) dv -> concat sites <> [] ->
  exists x y, a = Some x /\ m = Some y /\ let ds := map (dev_of (map fst stats) k) (concat sites) in is_mean ds x /\ is_median ds y.
Proof.
  intros stats data sites p C Kd Nd F. eexists. split; [now apply (deviance_inv stats data sites p)|]. cbv zeta. split; [rewrite map_map; cbn [fst]; apply map_id|].
  intros k a m Hin Ne. apply in_map_iff in Hin as (k' & E & _). injection E as -> <- <-. set (ds := map _ (concat sites)).
  assert (Nds : ds <> []) by (unfold ds; destruct (concat sites); [easy|discriminate]).
  destruct (avg_spec ds Nds) as (x & Ex & Sx). destruct (med_spec ds Nds) as (y & Ey & Sy). exists x, y. auto.
Qed.
Print Assumptions C102_deviance.
(** the mean deviance of all data is the sum of those of the data sets *)
Lemma mean_sum {A} (f : str -> A -> R) (names : list str) (l : list A) : mean (map (fun s => rsum (map (fun k => f k s) names)) l) = rsum (map (fun k => mean (map (f k) l)) names).
Proof.
  unfold mean. rewrite rsum_swap, map_length. transitivity (rsum (map (fun k => rsum (map (f k) l)) names) / INR (length l)); [reflexivity|]. rewrite (map_ext (fun k => rsum (map (f k) l) / INR (length (map (f k) l))) (fun k => rsum (map (f k) l) / INR (length l))) by (intros k; now rewrite map_length).
  generalize (INR (length l)) as n. intros n. induction names as [|k names IH]; [unfold rsum; cbn; unfold Rdiv; lra|]. cbn [map].
  repeat match goal with |- context [rsum (?a :: ?m)] => change (rsum (a :: m)) with (a + rsum m) end. rewrite <- IH. unfold Rdiv. lra.
Qed.
Theorem C102_total_mean : forall stats data sites p dv, clear_names stats -> map fst data = map fst stats -> p_ndata p = ndata data -> from_draws stats sites p ->
  deviance p = Ok dv -> concat sites <> [] ->
  exists ms t y, Forall2 (fun k m => exists md, get dv k = Some (Some m, md)) (map fst stats) ms /\ get dv (s2l "total") = Some (Some t, y) /\ t = rsum ms.
Proof.
  intros stats data sites p dv C Kd Nd F Hd Ne. rewrite (deviance_inv stats data sites p C Kd Nd F) in Hd. injection Hd as <-. set (names := map fst stats).
  set (G := map (fun k => let d := map (dev_of names k) (concat sites) in (k, (avg d, med d))) (names ++ [s2l "total"])).
  assert (Keys : map fst G = names ++ [s2l "total"]) by (unfold G; cbv zeta; rewrite map_map; cbn [fst]; apply map_id).
  assert (N : NoDup (map fst G)).
  { rewrite Keys. pose proof (cn_nodup _ C) as N0. pose proof (proj1 (cn_keys _ C)) as N1. apply NoDup_app_disj; [exact N0|repeat constructor; easy|].
    intros x Hx [<-|[]]. now apply N1. }
  assert (GG : forall k, In k (names ++ [s2l "total"]) -> get G k = Some (avg (map (dev_of names k) (concat sites)), med (map (dev_of names k) (concat sites)))).
  { intros k Hk. apply get_nodup; [exact N|]. unfold G. apply in_map_iff. exists k. split; [reflexivity|exact Hk]. }
  assert (Av : forall h : dict (list R) -> R, avg (map h (concat sites)) = Some (mean (map h (concat sites)))) by (intros h; destruct (concat sites); [easy|reflexivity]).
  exists (map (fun k => mean (map (dev_of names k) (concat sites))) names), (mean (map (total_dev names) (concat sites))). eexists. split; [|split].
  - assert (Q : forall l, (forall k, In k l -> In k names) -> Forall2 (fun k m => exists md, get G k = Some (Some m, md)) l (map (fun k => mean (map (dev_of names k) (concat sites))) l)).
    { induction l as [|k l IH]; intros S; cbn [map]; constructor; [|apply IH; intros; apply S; now right]. eexists. rewrite GG by (apply in_or_app; left; apply S; now left). now rewrite Av. }
    now apply Q.
  - rewrite GG by (apply in_or_app; right; now left). rewrite Av. reflexivity.
  - unfold total_dev. rewrite mean_sum. f_equal. apply map_ext_in. intros k Hk. f_equal. apply map_ext. intros s. unfold dev_of.
    destruct (str_eqb_spec k (s2l "total")) as [->|_]; [|reflexivity]. elim (proj1 (cn_keys _ C)). exact Hk.
Qed.
Print Assumptions C102_total_mean.
(** not so for the medians *)
Definition ex_fdata (k : str) : fdata := {| f_name := k; f_counts := [1]; f_errors := [1]; f_poisson := true; f_exposure := 1; f_area := [1]; f_back := None; f_net := [1];
  f_net_errors := [1]; f_ce := [1]; f_emin := [1]; f_emax := [2]; f_matrix := [[1]] |}.
Definition ex_site (a b : R) : dict (list R) := [(s2l "A_loglike", [a]); (s2l "A_Non_loglike", [a]); (s2l "B_loglike", [b]); (s2l "B_Non_loglike", [b])].
Definition ex_stats : dict stat := [(s2l "A", Cstat); (s2l "B", Cstat)].
Definition ex_data : dict fdata := [(s2l "A", ex_fdata (s2l "A")); (s2l "B", ex_fdata (s2l "B"))].
Definition ex_sites : list (list (dict (list R))) := [[ex_site 0 0; ex_site 0 3; ex_site 3 0]].
Definition ex_ll (a b : R) : loglikes :=
  {| l_data := [(s2l "A_Non", [a]); (s2l "B_Non", [b])]; l_point := [(s2l "A", [a]); (s2l "B", [b])]; l_group := [(s2l "A", a + 0); (s2l "B", b + 0)]; l_channels := [a; b]; l_total := a + (b + 0) |}.
Definition ex_post : result := {| p_all := [s2l "K"]; p_free := [s2l "K"]; p_draws := [(s2l "K", [[1; 2; 5]])]; p_ll := [[ex_ll 0 0; ex_ll 0 3; ex_ll 3 0]]; p_ndata := ndata ex_data;
  p_stat := ex_stats; p_dof := 1; p_ess := [(s2l "K", 3); (s2l "reff", 1)]; p_div := Some [[false; true; false]] |}.
Lemma ex_clear : clear_names ex_stats.
Proof.
  constructor.
  - cbn. constructor; [intros [E|[]]; discriminate|]. constructor; [intros []|constructor].
  - cbn. intros k k' [<-|[<-|[]]] [<-|[<-|[]]]; discriminate.
  - cbn. intros k k' [<-|[<-|[]]] [<-|[<-|[]]]; split; discriminate.
  - cbn. split; intros [E|[E|[]]]; discriminate.
Qed.
Lemma ex_from : from_draws ex_stats ex_sites ex_post.
Proof. unfold from_draws. cbn [p_ll ex_post]. repeat constructor. Qed.
Theorem C102_total_median_refuted : exists stats data sites p dv a b t x y z, clear_names stats /\ map fst data = map fst stats /\ p_ndata p = ndata data /\ from_draws stats sites p /\
  stats = [(a, Cstat); (b, Cstat)] /\ deviance p = Ok dv /\ get dv a = Some (x, Some 0) /\ get dv b = Some (y, Some 0) /\ get dv (s2l "total") = Some (z, Some t) /\ t <> 0.
Proof.
  exists ex_stats, ex_data, ex_sites, ex_post. eexists. exists (s2l "A"), (s2l "B"), (-6), (Some (-2)), (Some (-2)), (Some (-4)).
  split; [exact ex_clear|]. split; [reflexivity|]. split; [reflexivity|]. split; [exact ex_from|]. split; [reflexivity|].
  split; [apply (deviance_inv ex_stats ex_data ex_sites ex_post ex_clear eq_refl eq_refl ex_from)|].
  assert (Md : forall l s m, Permutation l s -> StronglySorted Rle s -> l <> [] -> m = (nth ((length l - 1) / 2) s 0 + nth (length l / 2) s 0) / 2 -> med l = Some m).
  { intros l s m P S Ne ->. destruct (med_spec l Ne) as (m' & E & _ & H). now rewrite E, (H s P S). }
  assert (Sl : StronglySorted Rle [-6; 0; 0]) by (repeat constructor; lra). assert (Sl' : StronglySorted Rle [-6; -6; 0]) by (repeat constructor; lra).
  assert (E1 : med (map (data_dev (s2l "A")) (concat ex_sites)) = Some 0).
  { apply (Md _ [-6; 0; 0]); [|exact Sl|discriminate|cbn; lra]. unfold ex_sites, data_dev, ex_site. cbn. replace (-2 * (0 + 0)) with 0 by lra. replace (-2 * (3 + 0)) with (-6) by lra.
    eapply Permutation_trans; [apply perm_skip, perm_swap|apply perm_swap]. }
  assert (E2 : med (map (data_dev (s2l "B")) (concat ex_sites)) = Some 0).
  { apply (Md _ [-6; 0; 0]); [|exact Sl|discriminate|cbn; lra]. unfold ex_sites, data_dev, ex_site. cbn. replace (-2 * (0 + 0)) with 0 by lra. replace (-2 * (3 + 0)) with (-6) by lra. apply perm_swap. }
  assert (E3 : med (map (total_dev [s2l "A"; s2l "B"]) (concat ex_sites)) = Some (-6)).
  { apply (Md _ [-6; -6; 0]); [|exact Sl'|discriminate|cbn; lra]. unfold ex_sites, total_dev, data_dev, ex_site. cbn.
    replace (-2 * (0 + 0) + (-2 * (0 + 0) + 0)) with 0 by lra. replace (-2 * (0 + 0) + (-2 * (3 + 0) + 0)) with (-6) by lra. replace (-2 * (3 + 0) + (-2 * (0 + 0) + 0)) with (-6) by lra.
    eapply Permutation_trans; [apply perm_swap|apply perm_skip, perm_swap]. }
  assert (A1 : avg (map (data_dev (s2l "A")) (concat ex_sites)) = Some (-2)) by (unfold ex_sites, data_dev, ex_site, mean, rsum; cbn; f_equal; unfold mean, rsum; cbn; lra).
  assert (A2 : avg (map (data_dev (s2l "B")) (concat ex_sites)) = Some (-2)) by (unfold ex_sites, data_dev, ex_site, mean, rsum; cbn; f_equal; unfold mean, rsum; cbn; lra).
  assert (A3 : avg (map (total_dev [s2l "A"; s2l "B"]) (concat ex_sites)) = Some (-4)) by (unfold ex_sites, total_dev, data_dev, ex_site, mean, rsum; cbn; f_equal; unfold mean, rsum; cbn; lra).
  change (map fst ex_stats) with [s2l "A"; s2l "B"]. cbn [map app]. cbv zeta.
  change (dev_of [s2l "A"; s2l "B"] (s2l "A")) with (data_dev (s2l "A")). change (dev_of [s2l "A"; s2l "B"] (s2l "B")) with (data_dev (s2l "B")).
  change (dev_of [s2l "A"; s2l "B"] (s2l "total")) with (total_dev [s2l "A"; s2l "B"]). rewrite E1, E2, E3, A1, A2, A3. repeat (split; [reflexivity|]). lra.
Qed.
Print Assumptions C102_total_median_refuted.

(** *** Pareto shapes *)
Definition is_below (e : R) (k : khat) : Prop := exists x, k = Some x /\ x < e.
Definition at_most (e : R) (k : khat) : Prop := exists x, k = Some x /\ x <= e.
Lemma filter_count (P : khat -> Prop) f l : (forall k, f k = true <-> P k) -> count P l (length (filter f l)).
Proof.
  intros H. induction l as [|k l IH]; [constructor|]. cbn [filter]. destruct (f k) eqn:E; cbn [length].
  - constructor; [now apply H|exact IH].
  - constructor; [|exact IH]. rewrite <- H. congruence.
Qed.
Lemma count_unique {A} (P : A -> Prop) l n m : count P l n -> count P l m -> n = m.
Proof. intros C. revert m. induction C; intros m D; inversion D; subst; try tauto; f_equal; auto. Qed.
Lemma count_split {A} (P Q : A -> Prop) l : forall n m, (forall x, In x l -> P x -> Q x) -> count P l n -> count Q l m -> exists d, (m = n + d)%nat /\ count (fun x => Q x /\ ~ P x) l d.
Proof.
  induction l as [|x l IH]; intros n m H Cn Cm.
  - inversion Cn; inversion Cm; subst. exists O. split; [reflexivity|constructor].
  - inversion Cn as [|? ? n' Px Cn'|? ? ? Px Cn']; subst; inversion Cm as [|? ? m' Qx Cm'|? ? ? Qx Cm']; subst; try (exfalso; apply Qx, H; [now left|assumption]);
    destruct (IH _ _ (fun y Hy => H y (or_intror Hy)) Cn' Cm') as (d & -> & D).
    + exists d. split; [reflexivity|]. apply count_no; [tauto|exact D].
    + exists (S d). split; [lia|]. apply count_yes; [tauto|exact D].
    + exists d. split; [reflexivity|]. apply count_no; [tauto|exact D].
Qed.
Lemma below_spec e k : below e k = true <-> is_below e k.
Proof.
  unfold below, is_below. destruct k as [x|]; [|split; [discriminate|intros (x & E & _); discriminate]]. destruct (Rltb_spec x e); split; intros H; try discriminate; eauto.
  destruct H as (y & E & L). injection E as <-. lra.
Qed.
(** the three counts: shapes below the threshold, from the threshold and below 1, and from 1 on; every channel is counted in one of them *)
Theorem C102_khat : forall good ks, good <= 1 -> exists a b c, khat_counts good ks = Ok (Z.of_nat a, Z.of_nat b, Z.of_nat c) /\
  (a + b + c)%nat = length ks /\ count (is_below good) ks a /\ count (fun k => is_below 1 k /\ ~ is_below good k) ks b /\ count (fun k => ~ is_below 1 k) ks c.
Proof.
  intros good ks H. unfold khat_counts. destruct (Rltb_spec 1 good); [lra|]. cbv zeta.
  pose proof (filter_count (is_below good) (below good) ks (below_spec good)) as Ca. pose proof (filter_count (is_below 1) (below 1) ks (below_spec 1)) as C1.
  assert (Ct : count (fun _ : khat => True) ks (length ks)) by (clear; induction ks; constructor; [exact I|assumption]).
  destruct (count_split _ _ _ _ _ (fun k _ (Hk : is_below good k) => match Hk with ex_intro _ x (conj E L) => ex_intro _ x (conj E (Rlt_le_trans _ _ _ L H)) end) Ca C1) as (b & Eb & Cb).
  destruct (count_split _ _ _ _ _ (fun k _ _ => I) C1 Ct) as (c & Ec & Cc). exists (length (filter (below good) ks)), b, c. split; [|split; [lia|split; [exact Ca|split; [exact Cb|]]]].
  - rewrite Ec, Eb, !Nat2Z.inj_add. f_equal. f_equal; [f_equal|]; lia.
  - clear -Cc. induction Cc; constructor; tauto.
Qed.
Print Assumptions C102_khat.
(** the table labels its rows (-inf, good], (good, 1], (1, inf): the counts are those of these ranges only if no shape is at an end of them *)
Theorem C102_khat_labels_refuted : forall good ks a b c n1 n2 n3, good < 1 -> khat_counts good ks = Ok (a, b, c) ->
  count (at_most good) ks n1 -> count (fun k => at_most 1 k /\ ~ at_most good k) ks n2 -> count (fun k => ~ at_most 1 k) ks n3 ->
  ((a, b, c) = (Z.of_nat n1, Z.of_nat n2, Z.of_nat n3) <-> ~ In (Some good) ks /\ ~ In (Some 1) ks).
Proof.
  intros good ks a b c n1 n2 n3 Hg H C1 C2 C3. destruct (C102_khat good ks ltac:(lra)) as (a' & b' & c' & E & _ & Ca & Cb & Cc). rewrite E in H. injection H as <- <- <-. clear E.
  destruct (count_split _ _ _ _ _ (fun k _ (Hk : is_below good k) => match Hk with ex_intro _ x (conj E L) => ex_intro _ x (conj E (Rlt_le _ _ L)) end) Ca C1) as (d & Ed & Cd).
  assert (S3 : forall k, In k ks -> ~ at_most 1 k -> ~ is_below 1 k) by (intros k _ Hk (x & -> & L); apply Hk; exists x; split; [reflexivity|lra]).
  destruct (count_split _ _ _ _ _ S3 C3 Cc) as (f & Ef & Cf).
  assert (Z0 : forall (P : khat -> Prop) l, count P l 0 <-> forall k, In k l -> ~ P k).
  { intros P l. split.
    - intros C k Hk. remember O as z. induction C; [destruct Hk|discriminate|]. destruct Hk as [<-|Hk]; auto.
    - intros Hn. induction l as [|x l IH]; constructor; [apply Hn; now left|apply IH; intros; apply Hn; now right]. }
  assert (Dg : d = O <-> ~ In (Some good) ks).
  { split.
    - intros ->. intros Hin. apply (proj1 (Z0 _ _) Cd _ Hin). split; [exists good; split; [reflexivity|lra]|]. intros (x & E & L). injection E as <-. lra.
    - intros Hn. eapply count_unique; [exact Cd|]. apply Z0. intros k Hk ((x & -> & L) & Nb). apply Hn. destruct (Rle_lt_or_eq_dec _ _ L) as [L'| ->]; [|exact Hk]. elim Nb. now exists x. }
  assert (D1 : f = O <-> ~ In (Some 1) ks).
  { split.
    - intros ->. intros Hin. apply (proj1 (Z0 _ _) Cf _ Hin). split; [intros (x & E & L); injection E as <-; lra|]. intros Hn. apply Hn. exists 1. split; [reflexivity|lra].
    - intros Hn. eapply count_unique; [exact Cf|]. apply Z0. intros k Hk (Nb & Na). apply Na. intros (x & -> & L). destruct (Rle_lt_or_eq_dec _ _ L) as [L'| ->]; [|contradiction]. apply Nb. now exists x. }
  split.
  - intros E. injection E as E1 _ E3. apply Nat2Z.inj in E1, E3. split; [apply Dg; lia|apply D1; lia].
  - intros (G & O1). assert (d = O) by now apply Dg. assert (f = O) by now apply D1. assert (a' = n1) by lia. assert (c' = n3) by lia. assert (b' = n2); [|congruence].
    eapply count_unique; [exact Cb|]. clear -C2 G O1. induction C2 as [|k l n (( x & -> & L) & N) C2 IH|k l n N C2 IH].
    + constructor.
    + constructor; [|apply IH; intros Hin; [apply G|apply O1]; now right]. split.
      * exists x. split; [reflexivity|]. destruct (Rle_lt_or_eq_dec _ _ L) as [L'| ->]; [exact L'|]. elim O1. now left.
      * intros (y & E & Ly). injection E as <-. apply N. exists x. split; [reflexivity|lra].
    + constructor; [|apply IH; intros Hin; [apply G|apply O1]; now right]. intros ((x & -> & L) & Nb). apply N. split; [exists x; split; [reflexivity|lra]|].
      intros (y & E & Ly). injection E as <-. destruct (Rle_lt_or_eq_dec _ _ Ly) as [L'| ->]; [apply Nb; now exists x|]. apply G. now left.
Qed.
Print Assumptions C102_khat_labels_refuted.
(** a channel whose shape is the threshold: printed as bad, although its label says good *)
Example C102_khat_case : khat_counts 0.7 [Some 0.7; Some 0.2; None] = Ok (1, 1, 1)%Z /\ count (at_most 0.7) [Some 0.7; Some 0.2; None] 2.
Proof.
  split.
  - unfold khat_counts, below. cbn [filter length]. destruct (Rltb_spec 1 0.7); [lra|]. destruct (Rltb_spec 0.7 0.7); [lra|]. destruct (Rltb_spec 0.7 1); [|lra].
    destruct (Rltb_spec 0.2 0.7); [|lra]. destruct (Rltb_spec 0.2 1); [|lra]. reflexivity.
  - repeat first [apply count_yes; [eexists; split; [reflexivity|lra]|] | constructor]. intros (x & E & _). discriminate.
Qed.

(** *** effective sample sizes *)
Lemma get_nodup' {V} (l : dict V) k v : ~ In k (map fst l) -> get (l ++ [(k, v)]) k = Some v.
Proof.
  induction l as [|[k' v'] l IH]; intros H; cbn [app get].
  - destruct (str_eqb_spec k k); [reflexivity|easy].
  - destruct (str_eqb_spec k k') as [->|_]; [elim H; now left|]. apply IH. intros X. apply H. now right.
Qed.
Section Arviz.
Variables (az_ess : chains -> option R) (az_reff : chains -> R) (az_rhat : chains -> R).
Lemma Int_part_IZR z : Int_part (IZR z) = z.
Proof. apply Int_part_unique. split; lra. Qed.
Lemma ess_sizes params l : mapE (fun e : str * chains => match az_ess (snd e) with None => Err ValueError | Some x => Ok (fst e, Int_part x) end) params = Ok l ->
  Forall2 (fun e z => fst z = fst e /\ exists x, az_ess (snd e) = Some x /\ snd z = Int_part x) params l.
Proof.
  intros H. apply mapE_inv in H. induction H as [|e z a b E F IH]; constructor; [|exact IH]. destruct (az_ess (snd e)) as [x|]; [|discriminate]. injection E as <-. cbn. eauto.
Qed.
(** the sizes that are shown are those of the parameters, rounded down; the efficiency is 1 for a single chain, otherwise the average of those of the free parameters *)
Theorem C102_ess : forall params free n e p, ~ In (s2l "reff") (map fst params) -> get_ess az_ess az_reff params free n = Ok e -> p_ess p = ess_group e ->
  Forall2 (fun a z => fst z = fst a /\ exists x, az_ess (snd a) = Some x /\ (IZR (snd z) <= x < IZR (snd z) + 1)) params (ess p) /\
  exists r, reff p = Ok r /\ ((n = 1)%Z -> r = 1) /\
  ((n <> 1)%Z -> free <> [] /\ exists cs, Forall2 (fun k c => get params k = Some c) free cs /\ INR (length free) * r = rsum (map az_reff cs)).
Proof.
  intros params free n e p Nr H Hp. unfold get_ess in H. apply bind_ok in H as (l & Hl & H). apply ess_sizes in Hl.
  assert (Kl : map fst l = map fst params) by (clear -Hl; induction Hl as [|a z x y (E & _) F IH]; [reflexivity|cbn; congruence]).
  assert (El : fst e = l).
  { destruct (n =? 1)%Z; [injection H as <-; reflexivity|]. apply bind_ok in H as (f & _ & H). destruct f; [discriminate|]. injection H as <-. reflexivity. }
  assert (Pe : p_ess p = map (fun x : str * Z => (fst x, IZR (snd x))) l ++ [(reff_key, snd e)]).
  { rewrite Hp. unfold ess_group. rewrite El. apply put_fresh. rewrite map_map. cbn [fst]. intros X. apply Nr. rewrite <- Kl. exact X. }
  split.
  - unfold ess. rewrite Pe, filter_app. cbn [filter fst]. destruct (str_eqb_spec reff_key reff_key) as [_|]; [|easy]. cbn [negb]. rewrite app_nil_r.
    assert (Ef : filter (fun e => negb (str_eqb (fst e) reff_key)) (map (fun x : str * Z => (fst x, IZR (snd x))) l) = map (fun x : str * Z => (fst x, IZR (snd x))) l).
    { assert (Nl : forall z, In z l -> fst z <> reff_key) by (intros z Hz Ez; apply Nr; rewrite <- Kl; change (In reff_key (map fst l)); rewrite <- Ez; now apply in_map).
      clear -Nl. induction l as [|z l IH]; [reflexivity|]. cbn [map filter fst]. destruct (str_eqb_spec (fst z) reff_key) as [Ez|_]; [elim (Nl z); [now left|exact Ez]|].
      cbn [negb]. f_equal. apply IH. intros y Hy. apply Nl. now right. }
    rewrite Ef, map_map. cbn [fst snd]. clear -Hl. induction Hl as [|a z x y (E & q & Eq & Ez) F IH]; cbn [map]; constructor; [|exact IH]. cbn [fst snd]. split; [exact E|]. exists q. split; [exact Eq|].
    rewrite Int_part_IZR, Ez. apply Int_part_bound.
  - exists (snd e). split; [|split].
    + unfold reff. rewrite Pe. rewrite (get_nodup' (map (fun x : str * Z => (fst x, IZR (snd x))) l) reff_key (snd e)); [reflexivity|]. rewrite map_map. cbn [fst]. intros X. apply Nr. rewrite <- Kl. exact X.
    + intros ->. cbn [Z.eqb Pos.eqb] in H. injection H as <-. reflexivity.
    + intros Hn. destruct (Z.eqb_spec n 1); [easy|]. apply bind_ok in H as (f & Hf & H). apply select_inv in Hf as (Kf & Gf). destruct f as [|f0 f1] eqn:Ef; [discriminate|]. rewrite <- Ef in *. injection H as <-. cbn [snd].
      split; [rewrite <- Kf, Ef; discriminate|]. exists (map snd f). split.
      * rewrite <- Kf. clear -Gf. assert (G : forall k c, In (k, c) f -> get params k = Some c) by exact Gf. clear Gf. induction f as [|[k c] f IH]; cbn [map fst snd]; constructor; [apply G; now left|]. apply IH. intros. apply G. now right.
      * rewrite <- Kf, map_map. unfold mean. rewrite !map_length. field. rewrite Ef. apply not_0_INR. discriminate.
Qed.
(** a parameter without an estimate (too few draws, a draw that is not a number): the run does not give a result *)
Theorem C102_ess_undefined_refuted : forall params free n k c, In (k, c) params -> az_ess c = None -> get_ess az_ess az_reff params free n = Err ValueError.
Proof.
  intros params free n k c Hin Hc. unfold get_ess. set (f := fun e : str * chains => _).
  assert (H : mapE f params = Err ValueError).
  { assert (Hf : forall e, match f e with Ok _ => True | Err x => x = ValueError end) by (intros e; unfold f; now destruct (az_ess (snd e))).
    assert (Hk : f (k, c) = Err ValueError) by (unfold f; cbn [snd]; now rewrite Hc). clearbody f. induction params as [|e params IH]; [destruct Hin|]. cbn [mapE]. specialize (Hf e). destruct (f e) as [y|x] eqn:E.
    - cbn [bind]. destruct Hin as [->|Hin]; [congruence|]. now rewrite (IH Hin).
    - cbn [bind]. now subst x. }
  now rewrite H.
Qed.
(** a parameter with the name of the efficiency: the result can not be printed *)
Lemma ess_no_reff p : get (ess p) reff_key = None.
Proof.
  unfold ess. induction (p_ess p) as [|[k v] l IH]; [reflexivity|]. cbn [filter fst]. destruct (str_eqb_spec k reff_key) as [->|N]; cbn [negb]; [exact IH|].
  cbn [map get fst snd]. destruct (str_eqb_spec reff_key k) as [E|_]; [now elim N|exact IH].
Qed.
Theorem C102_reff_name_refuted : forall p, In (s2l "reff") (p_all p) -> exists x, params_tab az_rhat p = Err x.
Proof.
  intros p H. unfold params_tab. destruct (select (p_all p) (p_draws p)) as [d|x] eqn:D; [|now exists x]. cbn [bind]. destruct (rhat az_rhat p) as [rh|x]; [|now exists x]. cbn [bind].
  apply select_inv in D as (K & _). rewrite <- K in H. apply in_map_iff in H as (e & Ee & Hin). set (f := fun e : str * chains => _).
  assert (Hf : exists x, f e = Err x).
  { unfold f. rewrite Ee. change (s2l "reff") with reff_key. rewrite ess_no_reff. now exists KeyError. }
  clearbody f. clear -Hf Hin. induction d as [|y d IH]; [destruct Hin|]. cbn [mapE]. destruct (f y) as [z|x] eqn:E; [|now exists x]. cbn [bind].
  destruct Hin as [->|Hin]; [destruct Hf; congruence|]. destruct (IH Hin) as (x & ->). now exists x.
Qed.

(** *** the printed tables *)
Definition right_row (p : result) (w : prow) : Prop := exists c, get (p_draws p) (w_name w) = Some c /\ In (w_name w, w_ess w) (ess p) /\
  (concat c <> [] -> exists m md lo hi, w_mean w = Some m /\ is_mean (concat c) m /\ w_median w = Some md /\ is_median (concat c) md /\
     w_ci w = Some (lo, hi) /\ lo <= 0 <= hi /\ central (concat c) 0.683 (md + lo) (md + hi)) /\
  ((2 <= length (concat c))%nat -> exists s, w_std w = Some s /\ is_std (concat c) s) /\
  (w_rhat w = if (length c =? 1)%nat then None else Some (az_rhat c)).
Lemma ci_row_spec l : l <> [] -> exists m lo hi, med l = Some m /\ ci_row l = Some (lo, hi) /\ lo <= 0 <= hi /\ central l 0.683 (m + lo) (m + hi).
Proof.
  intros H. destruct (quantile_defined l (0.5 + 0.683 * -0.5) H ltac:(split; lra)) as (a & Ea). destruct (quantile_defined l (0.5 + 0.683 * 0.5) H ltac:(split; lra)) as (b & Eb).
  destruct (quantile_defined l 0.5 H ltac:(split; lra)) as (m & Em). exists m, (a - m), (b - m). unfold med, ci_row. rewrite Ea, Eb, Em. split; [reflexivity|]. split; [reflexivity|].
  pose proof (quantile_mono _ _ _ _ _ Ea Em ltac:(lra)). pose proof (quantile_mono _ _ _ _ _ Em Eb ltac:(lra)). split; [split; lra|].
  replace (m + (a - m)) with a by lra. replace (m + (b - m)) with b by lra. intros k. repeat split; intros C.
  - pose proof (quantile_below _ _ _ _ Ea C). lra.
  - pose proof (quantile_above _ _ _ _ Ea C). lra.
  - pose proof (quantile_below _ _ _ _ Eb C). lra.
  - pose proof (quantile_above _ _ _ _ Eb C). lra.
Qed.
(** one row for each parameter, in their order: mean, standard deviation and median of the draws, the central interval of 68.3 % as errors of the median, the
    effective sample size, and the convergence measure of all chains, or none of it for a single chain *)
Theorem C102_params_tab : forall p nc, NoDup (p_all p) -> (forall k, In k (p_all p) -> In k (map fst (p_draws p)) /\ In k (map fst (ess p))) ->
  (forall k c, get (p_draws p) k = Some c -> length c = nc) ->
  exists rows, params_tab az_rhat p = Ok rows /\ map w_name rows = p_all p /\ Forall (right_row p) rows.
Proof.
  intros p nc N H Hc. unfold params_tab, rhat. destruct (select_def (p_all p) (p_draws p)) as (d & D); [intros k Hk; now apply H|]. rewrite D. cbn [bind].
  apply select_inv in D as (K & G). set (n := match d with [] => O | e :: _ => length (snd e) end). set (rh := map _ d). set (f := fun e : str * chains => _).
  assert (Hn : forall k c, In (k, c) d -> length c = n).
  { intros k c Hin. unfold n. destruct d as [|[k0 c0] d]; [destruct Hin|]. cbn [snd]. rewrite (Hc _ _ (G _ _ Hin)). symmetry. apply (Hc k0). apply G. now left. }
  assert (Hf : forall e, In e d -> exists w, f e = Ok w /\ w_name w = fst e /\ right_row p w).
  { intros [k c] Hin. unfold f. cbn [fst snd].
    assert (Hk : In k (p_all p)) by (rewrite <- K; apply (in_map fst) in Hin; exact Hin).
    destruct (get (ess p) k) as [z|] eqn:Ez; [|apply get_none_iff in Ez; elim Ez; now apply H]. cbn [opt_res bind].
    assert (Er : get rh k = Some (if (n =? 1)%nat then None else Some (az_rhat c))).
    { apply get_nodup; [unfold rh; rewrite map_map; cbn [fst]; change (NoDup (map fst d)); rewrite K; exact N|]. unfold rh. apply in_map_iff. now exists (k, c). }
    rewrite Er. cbn [opt_res bind]. eexists. split; [reflexivity|]. cbn [w_name]. split; [reflexivity|]. exists c. cbn [w_name w_ess w_mean w_std w_median w_ci w_rhat]. split; [now apply G|].
    split; [now apply get_in|]. split; [|split].
    - intros Ne. destruct (avg_spec _ Ne) as (m & Em & Sm). destruct (med_spec _ Ne) as (md & Emd & Smd). destruct (ci_row_spec _ Ne) as (md' & lo & hi & Em' & Eci & L & Ce).
      assert (md' = md) by congruence. subst md'. exists m, md, lo, hi. auto 10.
    - intros L. apply stddev_spec in L. exact L.
    - now rewrite (Hn _ _ Hin). }
  clearbody f rh n. clear Hn Hc G N H. rewrite <- K. clear K. induction d as [|e d IH].
  - exists []. repeat constructor.
  - destruct (Hf e (or_introl eq_refl)) as (w & E & Nw & Rw). destruct IH as (rows & E' & Nr & Fr); [intros; apply Hf; now right|]. exists (w :: rows). cbn [mapE]. rewrite E, E'. cbn [bind map].
    split; [reflexivity|]. split; [now rewrite Nw, Nr|now constructor].
Qed.
End Arviz.
Print Assumptions C102_ess.
Print Assumptions C102_ess_undefined_refuted.
Print Assumptions C102_reff_name_refuted.
Print Assumptions C102_params_tab.
(** the table of the statistics: a row for every data set, in their order, with its statistic, the mean and median of its deviance and its channels, and a row for
    all of them with the degrees of freedom and all channels *)
Theorem C102_stat_tab : forall stats data sites p, clear_names stats -> map fst data = map fst stats -> p_ndata p = ndata data -> p_stat p = stats -> from_draws stats sites p -> concat sites <> [] ->
  exists rows td tm, stat_tab p = Ok (rows, ((Some td, Some tm), p_dof p, list_sum (map (fun e => length (f_emin (snd e))) data))) /\
  (let ds := map (total_dev (map fst stats)) (concat sites) in is_mean ds td /\ is_median ds tm) /\
  Forall2 (fun (e : str * fdata) (r : str * stat * (option R * option R) * nat) => exists s m md, r = (fst e, s, (Some m, Some md), length (f_emin (snd e))) /\ In (fst e, s) stats /\
    let ds := map (data_dev (fst e)) (concat sites) in is_mean ds m /\ is_median ds md) data rows.
Proof.
  intros stats data sites p C Kd Nd Ps F Ne. unfold stat_tab. rewrite (deviance_inv stats data sites p C Kd Nd F). cbn [bind].
  set (names := map fst stats). set (G := map (fun k => let d := map (dev_of names k) (concat sites) in (k, (avg d, med d))) (names ++ [s2l "total"])).
  assert (Keys : map fst G = names ++ [s2l "total"]) by (unfold G; cbv zeta; rewrite map_map; cbn [fst]; apply map_id).
  pose proof (cn_nodup _ C) as N0. pose proof (proj1 (cn_keys _ C)) as N1.
  assert (N : NoDup (map fst G)).
  { rewrite Keys. apply NoDup_app_disj; [exact N0|repeat constructor; easy|]. intros x Hx [<-|[]]. now apply N1. }
  assert (GG : forall k, In k (names ++ [s2l "total"]) -> get G k = Some (avg (map (dev_of names k) (concat sites)), med (map (dev_of names k) (concat sites)))).
  { intros k Hk. apply get_nodup; [exact N|]. unfold G. apply in_map_iff. exists k. split; [reflexivity|exact Hk]. }
  assert (Sp : forall h : dict (list R) -> R, exists m md, avg (map h (concat sites)) = Some m /\ med (map h (concat sites)) = Some md /\ is_mean (map h (concat sites)) m /\ is_median (map h (concat sites)) md).
  { intros h. assert (Nh : map h (concat sites) <> []) by (destruct (concat sites); [easy|discriminate]). destruct (avg_spec _ Nh) as (m & ? & ?). destruct (med_spec _ Nh) as (md & ? & ?). exists m, md. auto. }
  rewrite Nd, ndata_keys by (rewrite Kd; assumption). set (f := fun e : str * nat => _).
  assert (Fl : filter (fun e => negb (str_eqb (fst e) total_key)) (map (fun e : str * fdata => (fst e, length (f_emin (snd e)))) data ++ [(s2l "total", list_sum (map (fun e => length (f_emin (snd e))) data))])
    = map (fun e : str * fdata => (fst e, length (f_emin (snd e)))) data).
  { rewrite filter_app. cbn [filter fst]. destruct (str_eqb_spec (s2l "total") total_key) as [_|X]; [|now elim X]. cbn [negb]. rewrite app_nil_r.
    assert (Q : forall e, In e data -> fst e <> total_key) by (intros e He Ee; apply N1; rewrite <- Kd; change (In total_key (map fst data)); rewrite <- Ee; now apply in_map).
    clear -Q. induction data as [|e data IH]; [reflexivity|]. cbn [map filter fst]. destruct (str_eqb_spec (fst e) total_key) as [Ee|_]; [elim (Q e); [now left|exact Ee]|]. cbn [negb]. f_equal. apply IH. intros; apply Q; now right. }
  rewrite Fl.
  assert (Hf : forall e, In e data -> exists r, f (fst e, length (f_emin (snd e))) = Ok r /\ exists s m md, r = (fst e, s, (Some m, Some md), length (f_emin (snd e))) /\ In (fst e, s) stats /\
    let ds := map (data_dev (fst e)) (concat sites) in is_mean ds m /\ is_median ds md).
  { intros e He. unfold f. cbn [fst snd]. assert (He' : In (fst e) names) by (unfold names; rewrite <- Kd; now apply in_map). rewrite Ps.
    destruct (get stats (fst e)) as [s|] eqn:Es; [|apply get_none_iff in Es; elim Es; exact He']. cbn [opt_res bind]. rewrite GG by (apply in_or_app; now left). cbn [opt_res bind].
    assert (Ed : dev_of names (fst e) = data_dev (fst e)).
    { unfold dev_of. destruct (str_eqb_spec (fst e) (s2l "total")) as [X|_]; [|reflexivity]. elim N1. rewrite <- X. exact He'. }
    rewrite Ed. destruct (Sp (data_dev (fst e))) as (m & md & -> & -> & S1 & S2). eexists. split; [reflexivity|]. exists s, m, md. split; [reflexivity|]. split; [now apply get_in|]. now split. }
  assert (Rows : exists rows, mapE f (map (fun e : str * fdata => (fst e, length (f_emin (snd e)))) data) = Ok rows /\
    Forall2 (fun (e : str * fdata) (r : str * stat * (option R * option R) * nat) => exists s m md, r = (fst e, s, (Some m, Some md), length (f_emin (snd e))) /\ In (fst e, s) stats /\
    let ds := map (data_dev (fst e)) (concat sites) in is_mean ds m /\ is_median ds md) data rows).
  { clearbody f. clear -Hf. induction data as [|e data IH]; [exists []; repeat constructor|]. destruct (Hf e (or_introl eq_refl)) as (r & Er & Hr). destruct IH as (rows & E & Fr); [intros; apply Hf; now right|].
    exists (r :: rows). cbn [map mapE]. rewrite Er, E. cbn [bind]. split; [reflexivity|]. constructor; assumption. }
  destruct Rows as (rows & Er & Fr). rewrite Er. cbn [bind]. change total_key with (s2l "total") at 1. rewrite GG by (apply in_or_app; right; now left). cbn [opt_res bind].
  change (dev_of names (s2l "total")) with (total_dev names). destruct (Sp (total_dev names)) as (td & tm & -> & -> & S1 & S2).
  rewrite (get_nodup' (map (fun e : str * fdata => (fst e, length (f_emin (snd e)))) data) (s2l "total")); [|rewrite map_map; cbn [fst]; intros X; apply N1; rewrite <- Kd; exact X].
  cbn [opt_res bind]. exists rows, td, tm. auto.
Qed.
Print Assumptions C102_stat_tab.
(** the divergent draws of all chains are counted *)
Theorem C102_divergence : forall p, (p_div p = None -> divergence p = O) /\ forall d, p_div p = Some d -> count (fun b => b = true) (concat d) (divergence p).
Proof.
  intros p. unfold divergence. split; [now intros ->|]. intros d ->. induction (concat d) as [|b l IH]; [constructor|]. cbn [filter]. destruct b; cbn [length]; constructor; auto; discriminate.
Qed.
Print Assumptions C102_divergence.

(** *** the start of the best fit *)
Lemma nth_concat {A} (v : list (list A)) nd : forall k, Forall (fun r => length r = nd) v -> (0 < nd)%nat ->
  nth_error (concat v) k = match nth_error v (k / nd) with Some r => nth_error r (k mod nd) | None => None end.
Proof.
  induction v as [|r v IH]; intros k F Hn; cbn [concat].
  - destruct k; cbn [nth_error]; destruct (_ / nd)%nat; reflexivity.
  - inversion F as [|? ? Lr Fv]; subst. destruct (Nat.lt_ge_cases k (length r)) as [L|L].
    + rewrite nth_error_app1 by exact L. rewrite Nat.div_small, Nat.mod_small by exact L. reflexivity.
    + rewrite nth_error_app2 by exact L. rewrite IH by assumption. set (q := (k - length r)%nat). replace k with (q + 1 * length r)%nat by (unfold q; lia).
      rewrite Nat.div_add, Nat.mod_add by lia. rewrite Nat.add_1_r. reflexivity.
Qed.
Lemma at_index {A} (v : list (list A)) nd i j r x : Forall (fun r => length r = nd) v -> nth_error v i = Some r -> nth_error r j = Some x ->
  nth_error (concat v) (i * nd + j) = Some x /\ (j < nd)%nat.
Proof.
  intros F Hi Hj. assert (Lr : length r = nd) by (rewrite Forall_forall in F; apply F; eapply nth_error_In; eauto).
  assert (J : (j < nd)%nat) by (rewrite <- Lr; apply nth_error_Some; congruence). split; [|exact J].
  rewrite (nth_concat v nd) by (assumption || lia). rewrite Nat.div_add_l, Nat.div_small, Nat.add_0_r by lia. rewrite Nat.add_comm, Nat.mod_add, Nat.mod_small by lia. now rewrite Hi.
Qed.
Definition draw_at {A} (v : list (list A)) (i j : nat) : option A := match nth_error v i with Some r => nth_error r j | None => None end.
(** the search starts at a draw: the one with the largest likelihood of all data, the first of them if there are several; every parameter is taken from this draw *)
Theorem C102_best_start : forall B stats sites p nc nd, clear_names stats -> from_draws stats sites p ->
  (0 < nc)%nat -> (0 < nd)%nat -> length sites = nc -> Forall (fun r => length r = nd) sites -> NoDup (p_free p) ->
  (forall k, In k (p_free p) -> exists c, get (p_draws p) k = Some c /\ rectangular nc nd c) ->
  exists x i j s, best_start B p = Ok x /\ draw_at sites i j = Some s /\
  (forall i' j' s', draw_at sites i' j' = Some s' -> total_dev (map fst stats) s <= total_dev (map fst stats) s' /\
     ((i' < i)%nat \/ (i' = i /\ (j' < j)%nat) -> total_dev (map fst stats) s < total_dev (map fst stats) s')) /\
  length x = length (p_free p) /\
  forall m k, nth_error (p_free p) m = Some k -> exists c v, get (p_draws p) k = Some c /\ draw_at c i j = Some v /\ nth_error x m = Some (from_support B k v).
Proof.
  intros B stats sites p nc nd C F Hc Hd Lc Fd N Hp. unfold best_start, best_draw. change total_key with (s2l "total"). rewrite (entry_total stats sites p C F). cbn [bind].
  set (h := fun s => total_dev (map fst stats) s / -2). unfold pooled. rewrite <- concat_map.
  assert (Len : exists k, argmax (map h (concat sites)) = Ok k).
  { destruct sites as [|[|s0 r] v]; [cbn in Lc; lia|inversion Fd; subst; cbn in Hd; lia|]. cbn [concat app map argmax]. eauto. }
  destruct Len as (k & Ek). rewrite Ek. cbn [bind].
  assert (En : match map (map h) sites with [] => O | r :: _ => length r end = nd).
  { destruct sites as [|r v]; [cbn in Lc; lia|]. cbn [map]. rewrite map_length. now inversion Fd. }
  rewrite En. apply argmax_spec in Ek as (v & Hv & Hmax). rewrite nth_error_map in Hv. destruct (nth_error (concat sites) k) as [s|] eqn:Es; [|discriminate]. cbn in Hv. injection Hv as Hv.
  set (i := (k / nd)%nat). set (j := (k mod nd)%nat). assert (Dk : k = (i * nd + j)%nat) by (unfold i, j; rewrite Nat.mul_comm; apply Nat.div_mod; lia).
  assert (Jb : (j < nd)%nat) by (apply Nat.mod_upper_bound; lia).
  assert (Ds : draw_at sites i j = Some s) by (unfold draw_at; rewrite (nth_concat sites nd k Fd Hd) in Es; exact Es).
  assert (Ib : (i < nc)%nat) by (rewrite <- Lc; apply nth_error_Some; unfold draw_at in Ds; destruct (nth_error sites i); [easy|discriminate]).
  destruct (select_def (p_free p) (p_draws p)) as (d & D).
  { intros n Hn. destruct (Hp n Hn) as (c & G & _). apply get_in in G. apply (in_map fst) in G. exact G. }
  rewrite D. cbn [bind fst snd]. apply select_inv in D as (Kd & Gd). set (f := fun e : str * chains => _).
  assert (Hf : forall e, In e d -> exists v, draw_at (snd e) i j = Some v /\ f e = Ok (fst e, v)).
  { intros [n c] Hin. assert (Hn : In n (p_free p)) by (rewrite <- Kd; apply (in_map fst) in Hin; exact Hin). destruct (Hp n Hn) as (c' & G & (L1 & L2)). rewrite (Gd _ _ Hin) in G. injection G as <-.
    destruct (nth_error c i) as [r|] eqn:Er; [|apply nth_error_None in Er; lia]. assert (Lr : length r = nd) by (rewrite Forall_forall in L2; apply L2; eapply nth_error_In; eauto).
    destruct (nth_error r j) as [v'|] eqn:Ev; [|apply nth_error_None in Ev; lia]. exists v'. unfold draw_at, f. cbn [fst snd]. rewrite Er, Ev. now split. }
  destruct (mapE_def f d) as (init & Ei); [intros e He; destruct (Hf e He) as (v' & _ & E); eauto|]. rewrite Ei. cbn [bind].
  assert (Fi : Forall2 (fun e y => fst y = fst e /\ draw_at (snd e) i j = Some (snd y)) d init).
  { apply mapE_inv in Ei. assert (Hf' := Hf). clear -Ei Hf'. clearbody f. induction Ei as [|e y a b E _ IH]; constructor.
    - destruct (Hf' e (or_introl eq_refl)) as (v & Dv & E'). rewrite E' in E. injection E as <-. now split.
    - apply IH. intros; apply Hf'; now right. }
  assert (Ki : map fst init = p_free p) by (rewrite <- Kd; clear -Fi; induction Fi as [|e y a b (E & _) _ IH]; [reflexivity|cbn; now rewrite E, IH]).
  destruct (C86_start (p_free p) B init [] N ltac:(constructor)) as (x & Hx & Lx & Vx); [intros n Hn; now rewrite Ki|].
  exists x, i, j, s. split; [exact Hx|]. split; [exact Ds|]. split; [|split; [exact Lx|]].
  - intros i' j' s' Hs'. unfold draw_at in Hs'. destruct (nth_error sites i') as [r'|] eqn:Er; [|discriminate]. destruct (at_index sites nd i' j' r' s' Fd Er Hs') as (At & J').
    specialize (Hmax (i' * nd + j')%nat (h s')). rewrite nth_error_map, At in Hmax. specialize (Hmax eq_refl) as (Le & Lt). rewrite <- Hv in *. unfold h in Le, Lt. split; [lra|].
    intros Hlt. assert (Q : (i' * nd + j' < k)%nat) by (rewrite Dk; nia). specialize (Lt Q). lra.
  - intros m n Hm. destruct (Vx m n Hm) as (v' & W & Hv'). destruct W as [[]|(_ & W)]. apply get_in in W. destruct (F2_in_r _ _ _ _ Fi W) as ([n' c] & Hin & E & Dv). cbn [fst snd] in *. subst n'.
    exists c, v'. split; [now apply Gd|]. split; [exact Dv|exact Hv'].
Qed.
Print Assumptions C102_best_start.
(** the hypotheses are met *)
Example C102_case : (forall k, In k (p_all ex_post) -> In k (map fst (p_draws ex_post)) /\ In k (map fst (ess ex_post))) /\ clear_names ex_stats /\ from_draws ex_stats ex_sites ex_post /\
  (forall k, In k (p_free ex_post) -> exists c, get (p_draws ex_post) k = Some c /\ rectangular 1 3 c) /\ concat ex_sites <> [] /\ divergence ex_post = 1%nat.
Proof.
  split; [|split; [exact ex_clear|split; [exact ex_from|split; [|split; [discriminate|reflexivity]]]]].
  - cbn [ex_post p_all p_draws In map fst]. intros k [<-|[]]. split; [now left|]. unfold ess. cbn. now left.
  - cbn [ex_post p_free p_draws In]. intros k [<-|[]]. eexists. split; [reflexivity|]. split; [reflexivity|]. repeat constructor.
Qed.
