(** C52, C65, C66, C67: confidence levels, bootstrap intervals, covariance matrices, information criteria. *)
From Coq Require Import Ascii String.
From Verif Require Import RBase Data DataProofs Namespace NamespaceProofs FitInput HelperData HelperDataProofs HelperNames HelperNamesProofs Batch BatchProofs Prop_Batch
  Results ResultsProofs Prop_Results Summary SummaryProofs CompileProofs SimulateProofs.
From Coq Require Import List.
Open Scope list_scope.

(** ** C52 *)
(** the upper tail probability of a law with a positive density that is symmetric around 0 *)
Definition tail_probability (sf : R -> R) : Prop := (forall x y, x < y -> sf y < sf x) /\ (forall x, 0 < sf x) /\ forall x, sf (- x) = 1 - sf x.
Theorem C52_levels : forall sf, tail_probability sf -> forall cl,
  (cl <= 0 -> exists e, to_unit_cl sf cl = Err e) /\
  (0 < cl < 1 -> to_unit_cl sf cl = Ok cl) /\
  (* a number of sigmas: the probability of the interval (-cl, cl) *)
  (1 <= cl -> to_unit_cl sf cl = Ok (sf (- cl) - sf cl)) /\
  (0 < cl -> exists p, to_unit_cl sf cl = Ok p /\ 0 < p < 1 /\ to_unit_cl sf p = Ok p).
Proof.
  intros sf (Dec & Pos & Sym) cl. unfold to_unit_cl. destruct (Rleb_spec cl 0) as [L|L].
  - split; [eauto|]. repeat split; lra.
  - assert (R1 : 1 <= cl -> 0 < 1 - 2 * sf cl < 1).
    { intros H. pose proof (Pos cl). assert (sf 0 = 1 - sf 0) by (rewrite <- Sym at 1; f_equal; lra). pose proof (Dec 0 cl ltac:(lra)). lra. }
    assert (Id : forall p, 0 < p < 1 -> (if Rleb p 0 then Err ValueError else if Rltb p 1 then Ok p else Ok (1 - 2 * sf p)) = Ok p).
    { intros p H. destruct (Rleb_spec p 0); [lra|]. destruct (Rltb_spec p 1); [reflexivity|lra]. }
    destruct (Rltb_spec cl 1) as [L1|L1].
    + split; [lra|]. split; [reflexivity|]. split; [lra|]. intros _. exists cl. split; [reflexivity|]. split; [lra|]. apply Id. lra.
    + split; [lra|]. split; [lra|]. split; [intros _; rewrite Sym; f_equal; lra|]. intros _. eexists. split; [reflexivity|]. split; [apply R1; lra|]. apply Id, R1. lra.
Qed.
Print Assumptions C52_levels.
(** the conversion increases on either range *)
Theorem C52_monotone : forall sf, tail_probability sf -> forall c c' p p', to_unit_cl sf c = Ok p -> to_unit_cl sf c' = Ok p' ->
  c < c' -> (c' < 1 \/ 1 <= c) -> p < p'.
Proof.
  intros sf (Dec & _) c c' p p' H H' L R. unfold to_unit_cl in *. destruct (Rleb_spec c 0); [discriminate|]. destruct (Rleb_spec c' 0); [discriminate|].
  destruct (Rltb_spec c 1), (Rltb_spec c' 1); injection H as <-; injection H' as <-; try lra. pose proof (Dec c c' L). lra.
Qed.
Print Assumptions C52_monotone.
(** such a law: the logistic law *)
Example C52_ex : tail_probability (fun x => / (1 + exp x)).
Proof.
  split; [|split].
  - intros x y H. pose proof (exp_pos x). pose proof (exp_increasing x y H). apply Rinv_lt_contravar; [|lra]. apply Rmult_lt_0_compat; lra.
  - intros x. pose proof (exp_pos x). apply Rinv_0_lt_compat. lra.
  - intros x. pose proof (exp_pos x). rewrite exp_Ropp. field. lra.
Qed.

(** ** C65: bootstrap intervals *)
(** the distribution of the samples used for an interval: as many of the valid ones, from the first, as a multiple of the
    number of devices allows *)
Lemma mapE_in {A B} (f : A -> res B) l r : mapE f l = Ok r -> forall y, In y r <-> exists x, In x l /\ f x = Ok y.
Proof.
  intros H y. apply mapE_inv in H. split.
  - intros Hy. destruct (F2_in_r _ _ _ _ H Hy) as (x & Hx & E). eauto.
  - intros (x & Hx & E). destruct (F2_in_l _ _ _ _ H Hx) as (y' & Hy & E'). congruence.
Qed.
Theorem C65_interval : forall sf, tail_probability sf -> forall devices b params cl ci, ci_boot sf devices (Some b) params cl = Ok ci ->
  forall k lo hi, In (k, (lo, hi)) ci -> In k params /\
    exists v, In (k, v) (params_dist devices b) /\ v <> [] /\ lo <= hi /\
      (exists x, In x v /\ x <= lo) /\ (exists x, In x v /\ hi <= x).
Proof.
  intros sf T devices b params cl ci H k lo hi Hin. unfold ci_boot in H. apply bind_ok in H as (p & Hp & H).
  apply (proj1 (mapE_in _ _ _ H _)) in Hin as ([k' v] & Hv & E). apply bind_ok in E as (l' & El & E). apply bind_ok in E as (h' & Eh & E). cbn [fst snd] in *.
  injection E as -> -> ->. apply filter_In in Hv as [Hv Hk]. cbn [fst] in Hk. apply mem_spec in Hk. split; [exact Hk|]. exists v. split; [exact Hv|].
  assert (Pp : 0 < p < 1).
  { destruct (C52_levels sf T cl) as (A & _ & _ & D). destruct (Rle_lt_dec cl 0) as [L|L]; [destruct (A L) as [e E]; rewrite E in Hp; discriminate|]. destruct (D L) as (p' & Ep & Hp' & _). rewrite Ep in Hp. injection Hp as <-. exact Hp'. }
  split; [apply quantile_ok in El; apply El|]. split; [apply (quantile_mono _ _ _ _ _ El Eh); lra|]. split; [apply (quantile_range _ _ _ El)|apply (quantile_range _ _ _ Eh)].
Qed.
Print Assumptions C65_interval.
(** the interval is the central one of its level: with [n] samples, more than [(1 - p) (n - 1) / 2] of them are at or below
    its lower end and more than [(1 + p) (n - 1) / 2] at or above, and conversely for its upper end *)
Definition central (v : list R) (p lo hi : R) : Prop :=
  let m := INR (length v - 1) in forall k,
  (count (fun x => x <= lo) v k -> (1 - p) / 2 * m < INR k) /\ (count (fun x => lo <= x) v k -> (1 + p) / 2 * m < INR k) /\
  (count (fun x => x <= hi) v k -> (1 + p) / 2 * m < INR k) /\ (count (fun x => hi <= x) v k -> (1 - p) / 2 * m < INR k).
Theorem C65_central : forall sf, tail_probability sf -> forall devices b params cl ci, ci_boot sf devices (Some b) params cl = Ok ci ->
  exists p, to_unit_cl sf cl = Ok p /\
  forall k lo hi, In (k, (lo, hi)) ci -> exists v, In (k, v) (params_dist devices b) /\ central v p lo hi.
Proof.
  intros sf T devices b params cl ci H. unfold ci_boot in H. apply bind_ok in H as (p & Hp & H). exists p. split; [exact Hp|]. intros k lo hi Hin.
  apply (proj1 (mapE_in _ _ _ H _)) in Hin as ([k' v] & Hv & E). apply bind_ok in E as (l' & El & E). apply bind_ok in E as (h' & Eh & E). cbn [fst snd] in *.
  injection E as -> -> ->. apply filter_In in Hv as [Hv _]. exists v. split; [exact Hv|]. intros n.
  repeat split; intros C.
  - pose proof (quantile_below _ _ _ _ El C). lra.
  - pose proof (quantile_above _ _ _ _ El C). lra.
  - pose proof (quantile_below _ _ _ _ Eh C). lra.
  - pose proof (quantile_above _ _ _ _ Eh C). lra.
Qed.
Print Assumptions C65_central.
(** a larger level never gives a smaller interval *)
Theorem C65_nested : forall sf, tail_probability sf -> forall devices b params cl cl' ci ci',
  ci_boot sf devices (Some b) params cl = Ok ci -> ci_boot sf devices (Some b) params cl' = Ok ci' ->
  cl <= cl' -> cl' < 1 \/ 1 <= cl ->
  NoDup (map fst (r_params (s_fit b))) ->
  forall k lo hi lo' hi', In (k, (lo, hi)) ci -> In (k, (lo', hi')) ci' -> lo' <= lo /\ hi <= hi'.
Proof.
  intros sf T devices b params cl cl' ci ci' H H' L Rg Nd k lo hi lo' hi' I I'. unfold ci_boot in *. apply bind_ok in H as (p & Hp & H). apply bind_ok in H' as (p' & Hp' & H').
  assert (Lp : p <= p').
  { destruct (Req_dec cl cl') as [E|E]; [subst; rewrite Hp in Hp'; injection Hp' as <-; lra|]. apply Rlt_le. apply (C52_monotone sf T cl cl' p p' Hp Hp'); lra. }
  assert (Un : forall cl0 p0, to_unit_cl sf cl0 = Ok p0 -> 0 < p0 < 1).
  { intros c0 p0 E0. destruct (C52_levels sf T c0) as (A & _ & _ & D). destruct (Rle_lt_dec c0 0) as [L0|L0]; [destruct (A L0) as [e E]; rewrite E in E0; discriminate|]. destruct (D L0) as (q & Ep & Hq & _). rewrite Ep in E0. injection E0 as <-. exact Hq. }
  pose proof (Un _ _ Hp). pose proof (Un _ _ Hp').
  apply (proj1 (mapE_in _ _ _ H _)) in I as ([k1 v] & Hv & E). apply (proj1 (mapE_in _ _ _ H' _)) in I' as ([k2 v'] & Hv' & E').
  apply bind_ok in E as (l1 & El & E). apply bind_ok in E as (h1 & Eh & E). apply bind_ok in E' as (l2 & El' & E'). apply bind_ok in E' as (h2 & Eh' & E'). cbn [fst snd] in *.
  injection E as -> -> ->. injection E' as -> -> ->. apply filter_In in Hv as [Hv _]. apply filter_In in Hv' as [Hv' _].
  assert (v = v').
  { assert (Nd' : NoDup (map fst (params_dist devices b))) by (unfold params_dist; rewrite map_map; exact Nd).
    apply (get_nodup _ _ _ Nd') in Hv. apply (get_nodup _ _ _ Nd') in Hv'. congruence. }
  subst v'. split; [apply (quantile_mono _ _ _ _ _ El' El); lra|apply (quantile_mono _ _ _ _ _ Eh Eh'); lra].
Qed.
Print Assumptions C65_nested.
(** intervals can be computed for any level as soon as there are at least as many valid simulations as devices ... *)
Theorem C65_defined : forall sf, tail_probability sf -> forall devices b params cl, 0 < cl -> (0 < devices <= s_nvalid b)%nat ->
  Forall (fun e => length (snd e) = s_nvalid b) (r_params (s_fit b)) -> exists ci, ci_boot sf devices (Some b) params cl = Ok ci /\
    forall k, In k (map fst ci) <-> In k (map fst (r_params (s_fit b))) /\ In k params.
Proof.
  intros sf T devices b params cl Hc Hd F. unfold ci_boot. destruct (C52_levels sf T cl) as (_ & _ & _ & D). destruct (D Hc) as (p & -> & Pp & _). cbn [bind].
  assert (Nv : forall e, In e (params_dist devices b) -> snd e <> []).
  { intros e He. unfold params_dist in He. apply in_map_iff in He as (e0 & <- & He0). cbn [snd]. rewrite Forall_forall in F. specialize (F _ He0).
    intros E. apply (f_equal (@length R)) in E. rewrite firstn_length, F in E. cbn in E. pose proof (Nat.mod_upper_bound (s_nvalid b) devices ltac:(lia)). lia. }
  set (g := fun e : str * list R => _). assert (G : forall e, In e (params_dist devices b) -> exists y, g e = Ok y /\ fst y = fst e).
  { intros e He. specialize (Nv e He). unfold g. destruct (quantile_defined (snd e) (0.5 - 0.5 * p) Nv ltac:(lra)) as [lo ->]. cbn [bind].
    destruct (quantile_defined (snd e) (0.5 + 0.5 * p) Nv ltac:(lra)) as [hi ->]. cbn [bind]. eexists. split; reflexivity. }
  assert (M : forall l, incl l (params_dist devices b) -> exists ci, mapE g l = Ok ci /\ map fst ci = map fst l).
  { induction l as [|e l IH]; intros I; [exists []; split; reflexivity|]. destruct IH as (ci & E & K); [intros x Hx; apply I; now right|]. destruct (G e (I e (or_introl eq_refl))) as (y & Ey & Ky).
    exists (y :: ci). cbn [mapE]. rewrite Ey. cbn [bind]. rewrite E. cbn [bind]. split; [reflexivity|]. cbn. now rewrite Ky, K. }
  destruct (M (filter (fun e => mem (fst e) params) (params_dist devices b))) as (ci & E & K); [intros x Hx; now apply filter_In in Hx|]. exists ci. split; [exact E|].
  intros k. rewrite K. assert (Q : forall t : dict (list R), In k (map fst (filter (fun e => mem (fst e) params) t)) <-> In k (map fst t) /\ In k params).
  { intros t. rewrite !in_map_iff. split.
    - intros (e & <- & He). apply filter_In in He as [He Hm]. apply mem_spec in Hm. split; [now exists e|exact Hm].
    - intros ((e & <- & He) & Hk). exists e. split; [reflexivity|]. apply filter_In. split; [exact He|]. now apply mem_spec. }
  rewrite Q. unfold params_dist. rewrite map_map. reflexivity.
Qed.
Print Assumptions C65_defined.
(** ... with fewer, no interval can be computed although valid simulations exist *)
Theorem C65_few_valid_refuted : forall sf, tail_probability sf -> forall devices b params cl k v, (s_nvalid b < devices)%nat -> In (k, v) (r_params (s_fit b)) -> In k params ->
  exists e, ci_boot sf devices (Some b) params cl = Err e.
Proof.
  intros sf T devices b params cl k v L Hk Hp. destruct (ci_boot sf devices (Some b) params cl) as [ci|e] eqn:E; [exfalso|eauto].
  assert (X : exists y, In y ci /\ fst y = k).
  { unfold ci_boot in E. apply bind_ok in E as (p & _ & E). set (g := fun e : str * list R => _) in E.
    assert (He : In (k, firstn (s_nvalid b - s_nvalid b mod devices) v) (filter (fun e => mem (fst e) params) (params_dist devices b))).
    { apply filter_In. split; [unfold params_dist; apply in_map_iff; exists (k, v); now split|]. cbn [fst]. now apply mem_spec. }
    apply mapE_inv in E. destruct (F2_in_l _ _ _ _ E He) as (y & Hy & Ey). exists y. split; [exact Hy|]. unfold g in Ey. cbn [fst snd] in Ey.
    apply bind_ok in Ey as (lo & _ & Ey). apply bind_ok in Ey as (hi & _ & Ey). now injection Ey as <-. }
  destruct X as ([k' [lo hi]] & Hy & Ek). cbn [fst] in Ek. subst k'. destruct (C65_interval sf T _ _ _ _ _ E _ _ _ Hy) as (_ & v' & Hv & Nv & _).
  unfold params_dist in Hv. apply in_map_iff in Hv as (e0 & E0 & _). injection E0 as _ <-. rewrite (Nat.mod_small _ _ L), Nat.sub_diag in Nv. now apply Nv.
Qed.
Print Assumptions C65_few_valid_refuted.

(** ** C67: information criteria *)
(** the corrected criterion of Akaike and the one of Schwarz, for every fit with more data than parameters plus one *)
Theorem C67_criteria : forall stat k n, (0 <= k)%Z -> (k + 1 < n)%Z ->
  aic stat k n = Ok (stat + 2 * IZR k + 2 * IZR k * (IZR k + 1) / (IZR n - IZR k - 1)) /\ bic stat k n = stat + IZR k * ln (IZR n).
Proof.
  intros stat k n Hk Hn. split; [|reflexivity]. unfold aic. destruct (Z.eqb_spec (n - k - 1) 0) as [E|_]; [lia|]. f_equal.
  rewrite !minus_IZR, plus_IZR. assert (0 < IZR n - IZR k - 1) by (rewrite <- !minus_IZR; apply (IZR_lt 0); lia). field. lra.
Qed.
Print Assumptions C67_criteria.
(** with one more channel than parameters (one degree of freedom), the result of the fit cannot be built at all *)
Theorem C67_one_dof_refuted : forall stat k, aic stat k (k + 1) = Err ZeroDivisionError.
Proof. intros stat k. unfold aic. replace (k + 1 - k - 1)%Z with 0%Z by lia. reflexivity. Qed.
Print Assumptions C67_one_dof_refuted.
(** with as many channels as parameters the correction has the wrong sign *)
Theorem C67_no_dof_refuted : forall stat k, (0 < k)%Z -> exists x, aic stat k k = Ok x /\ x < stat.
Proof.
  intros stat k Hk. unfold aic. destruct (Z.eqb_spec (k - k - 1) 0) as [E|_]; [lia|]. eexists. split; [reflexivity|].
  rewrite !minus_IZR, plus_IZR. replace (IZR k - IZR k - 1) with (-1) by lra. apply (IZR_lt 0) in Hk. unfold Rdiv. replace (/ -1) with (-1) by (field; lra). nra.
Qed.
Print Assumptions C67_no_dof_refuted.

(** ** C66: covariance matrices *)
Lemma nodup_app_l {A} (l m : list A) : NoDup (l ++ m) -> NoDup l.
Proof. induction l as [|x l IH]; intros H; [constructor|]. inversion H as [|? ? N D]; subst. constructor; [intros Hx; apply N, in_app_iff; now left|now apply IH]. Qed.
Section Covar.
(** the parameters, the requested ones (kept in their order, C50), and the names of the functions *)
Variables (all : list str) (keepit : str -> bool) (fns : list str).
Notation sel := (filter keepit all).
Hypothesis names_ok : NoDup (all ++ fns).
Lemma mask_keep {A} (rows : list A) : length rows = length (all ++ fns) -> keep (map (fun p => mem p sel) all ++ map (fun _ => true) fns) (all ++ fns) = sel ++ fns.
Proof.
  intros L. rewrite keep_app by apply map_length. rewrite (keep_all fns fns eq_refl). f_equal. rewrite keep_filter. apply filter_ext_in. intros p Hp.
  destruct (keepit p) eqn:E; [apply mem_spec, filter_In; now split|]. destruct (mem p sel) eqn:M; [|reflexivity]. apply mem_spec, filter_In in M. destruct M as [_ M]. congruence.
Qed.
Definition square (m : matrix) : Prop := length m = length (all ++ fns) /\ Forall (fun r => length r = length (all ++ fns)) m.
Lemma select_spec full : square full -> exists c, select_covar all sel fns full = Ok c /\ c_names c = sel ++ fns /\
  forall a b, In a (sel ++ fns) -> In b (sel ++ fns) -> exists i j, nth_error (all ++ fns) i = Some a /\ nth_error (all ++ fns) j = Some b /\ covar_at c a b = Some (nth j (nth i full []) 0).
Proof.
  intros (Lf & Fr). unfold select_covar. set (mask := map (fun p => mem p sel) all ++ map (fun _ => true) fns). set (names := all ++ fns) in *.
  assert (Lm : length mask = length names) by (unfold mask, names; rewrite !app_length, !map_length; reflexivity).
  assert (Ek : keep mask names = sel ++ fns) by (apply (mask_keep full); exact Lf).
  assert (Lk : forall A (l : list A), length l = length names -> length (keep mask l) = length (sel ++ fns)) by (intros A l L; rewrite <- Ek; now apply keep_length).
  assert (Rk : forall r, In r (submatrix mask full) -> length r = length (sel ++ fns)).
  { intros r Hr. unfold submatrix, keep at 1 in Hr. apply in_map_iff in Hr as ([b0 r0] & <- & Hr). apply filter_In in Hr as [Hr _]. apply in_combine_r in Hr. cbn [snd].
    apply in_map_iff in Hr as (r1 & <- & H1). apply Lk. rewrite Forall_forall in Fr. now apply Fr. }
  assert (C1 : length (submatrix mask full) = length (sel ++ fns)) by (unfold submatrix; apply Lk; rewrite map_length; exact Lf).
  rewrite C1, Nat.eqb_refl. cbn [andb]. assert (C2 : forallb (fun r => (length r =? length (sel ++ fns))%nat) (submatrix mask full) = true) by (apply forallb_forall; intros r Hr; apply Nat.eqb_eq; now apply Rk).
  rewrite C2. eexists. split; [reflexivity|]. cbn [c_names]. split; [reflexivity|]. intros a b Ha Hb. unfold covar_at. cbn [c_names c_matrix].
  destruct (index_of_in _ _ Ha) as (ia & Ea & _). destruct (index_of_in _ _ Hb) as (ib & Eb & _). rewrite Ea, Eb.
  assert (Ix : forall l a i, index_of l a = Some i -> nth_error l i = Some a).
  { clear. induction l as [|x l IH]; intros a i H; [discriminate|]. cbn in H. destruct (str_eqb_spec a x) as [->|N]; [now injection H as <-|].
    destruct (index_of l a) as [k|] eqn:E; [|discriminate]. injection H as <-. cbn. now apply IH. }
  assert (Fm : length (map (keep mask) full) = length names) by (rewrite map_length; exact Lf).
  destruct (keep_nth mask names _ (map (keep mask) full) [] Lm Fm names_ok (eq_sym Ek) a ia Ea) as (i & Ei & Ni & Li).
  assert (Lr : length (nth i full []) = length names) by (rewrite Forall_forall in Fr; apply Fr, nth_In; rewrite Lf; exact Li).
  destruct (keep_nth mask names _ (nth i full []) 0 Lm Lr names_ok (eq_sym Ek) b ib Eb) as (j & Ej & Nj & Lj).
  exists i, j. split; [now apply Ix|]. split; [now apply Ix|]. f_equal. unfold submatrix. rewrite Ni.
  rewrite (nth_indep (map (keep mask) full) [] (keep mask [])) by (rewrite Fm; exact Li). rewrite map_nth. exact Nj.
Qed.
(** the gradient of a quantity with respect to the parameters: of a parameter (a unit vector), or of a function *)
Definition gradient (grads : list (list R)) (a : str) (u : list R) : Prop :=
  (In a all /\ length u = length all /\ forall j p, nth_error all j = Some p -> nth_error u j = Some (if str_eqb p a then 1 else 0)) \/
  (exists k, nth_error fns k = Some a /\ nth_error grads k = Some u).
(** the propagated covariance of two quantities *)
Definition propagated (cov : matrix) (u v : list R) : R :=
  let n := length all in rsum (map (fun i => rsum (map (fun j => nth i u 0 * nth j (nth i cov []) 0 * nth j v 0) (seq 0 n))) (seq 0 n)).
Lemma unit_row_spec i j : (j < length all)%nat -> nth j (unit_row (length all) i) 0 = if (i =? j)%nat then 1 else 0.
Proof. intros H. unfold unit_row. now rewrite nth_seq_map by exact H. Qed.
Lemma rsum_pick (g : nat -> R) n i : (i < n)%nat -> rsum (map (fun j => (if (i =? j)%nat then 1 else 0) * g j) (seq 0 n)) = g i.
Proof.
  intros H. replace n with (i + (1 + (n - i - 1)))%nat by lia. rewrite seq_app, map_app, rsum_app. cbn [Nat.add]. cbn [seq map]. rewrite Nat.eqb_refl.
  rewrite (rsum_zeros _ (seq 0 i)) by (intros x Hx; apply in_seq in Hx; destruct (Nat.eqb_spec i x); [lia|lra]).
  change (0 + (1 * g i + rsum (map (fun j => (if (i =? j)%nat then 1 else 0) * g j) (seq (S i) (n - i - 1)))) = g i).
  rewrite (rsum_zeros _ (seq (S i) _)) by (intros x Hx; apply in_seq in Hx; destruct (Nat.eqb_spec i x); [lia|lra]). lra.
Qed.
Theorem C66_hess : forall cov grads, length cov = length all -> Forall (fun r => length r = length all) cov -> length grads = length fns -> Forall (fun g => length g = length all) grads ->
  exists c, covar_hess all sel fns cov grads = Ok c /\ c_names c = sel ++ fns /\
  forall a b u v, In a (sel ++ fns) -> In b (sel ++ fns) -> gradient grads a u -> gradient grads b v -> covar_at c a b = Some (propagated cov u v).
Proof.
  intros cov grads Lc Fc Lg Fg. set (n := length all) in *.
  set (jac := map (unit_row n) (seq 0 n) ++ grads).
  assert (Lj : length jac = length (all ++ fns)) by (unfold jac; rewrite !app_length, map_length, seq_length; unfold n; lia).
  assert (Fj : Forall (fun r => length r = n) jac).
  { unfold jac. apply Forall_app. split; [|exact Fg]. apply Forall_map, Forall_forall. intros i _. unfold unit_row. now rewrite map_length, seq_length. }
  (* every entry of the full matrix *)
  assert (Full : square (hess_full n cov grads) /\ forall i j, (i < length jac)%nat -> (j < length jac)%nat -> nth j (nth i (hess_full n cov grads) []) 0 = propagated cov (nth i jac []) (nth j jac [])).
  { assert (Cases : (grads = [] /\ hess_full n cov grads = cov) \/ hess_full n cov grads = matmul (matmul jac cov n) (transpose jac n) (length jac))
      by (unfold jac, hess_full; destruct grads; [left; now split|right; reflexivity]).
    destruct Cases as [[Eg Eh]|Eh]; rewrite Eh.
    - assert (Ef : fns = []) by (apply length_zero_iff_nil; rewrite <- Lg, Eg; reflexivity). unfold square. rewrite Ef, app_nil_r. split; [split; [exact Lc|exact Fc]|].
      assert (Ljn : length jac = n) by (rewrite Lj, Ef, app_nil_r; reflexivity). rewrite Ljn. intros i j Hi Hj.
      assert (Nj : forall i, (i < n)%nat -> nth i jac [] = unit_row n i).
      { intros i0 H0. unfold jac. rewrite Eg, app_nil_r. rewrite (nth_indep _ [] (unit_row n 0)) by (rewrite map_length, seq_length; exact H0). rewrite map_nth. now rewrite seq_nth by exact H0. }
      rewrite !Nj by assumption. unfold propagated. fold n.
      rewrite (map_ext_in _ (fun k => (if (i =? k)%nat then 1 else 0) * nth j (nth k cov []) 0)).
      2:{ intros k Hk. apply in_seq in Hk. rewrite unit_row_spec by (fold n; lia). rewrite <- (rsum_pick (fun j0 => nth j0 (nth k cov []) 0) n j Hj). rewrite <- rsum_mult. f_equal. apply map_ext_in. intros l Hl. apply in_seq in Hl.
          rewrite unit_row_spec by (fold n; lia). ring. }
      now rewrite (rsum_pick (fun k => nth j (nth k cov []) 0) n i Hi).
    - split.
      + unfold square, matmul. rewrite !map_length. split; [exact Lj|]. apply Forall_map, Forall_map, Forall_forall. intros r _. rewrite map_length, seq_length. exact Lj.
      + intros i j Hi Hj. unfold matmul. rewrite (nth_indep _ [] (map (fun j0 => dot [] (col (transpose jac n) j0)) (seq 0 (length jac)))) by (rewrite !map_length; exact Hi).
        set (F := fun r => map (fun j0 => dot r (col (transpose jac n) j0)) (seq 0 (length jac))). change (nth j (nth i (map F (map (fun r => map (fun j0 => dot r (col cov j0)) (seq 0 n)) jac)) (F [])) 0 = propagated cov (nth i jac []) (nth j jac [])).
        rewrite map_nth. set (G := fun r => map (fun j0 => dot r (col cov j0)) (seq 0 n)). rewrite (nth_indep _ [] (G [])) by (rewrite map_length; exact Hi). rewrite map_nth. set (u := nth i jac []).
        unfold F. rewrite nth_seq_map by exact Hj.
        assert (Lu : length u = n) by (rewrite Forall_forall in Fj; apply Fj, nth_In; exact Hi).
        assert (Ct : col (transpose jac n) j = map (fun k => nth k (nth j jac []) 0) (seq 0 n)).
        { unfold col, transpose. rewrite map_map. apply map_ext_in. intros k Hk. unfold col. rewrite (nth_indep (map (fun r => nth k r 0) jac) 0 (nth k (@nil R) 0)) by (rewrite map_length; exact Hj). rewrite (map_nth (fun r => nth k r 0)). reflexivity. }
        rewrite Ct. set (v := nth j jac []). rewrite (dot_sum _ _ n); [|unfold G; now rewrite map_length, seq_length|now rewrite map_length, seq_length].
        unfold propagated. fold n. rewrite (rsum_swap (fun i0 j0 => nth i0 u 0 * nth j0 (nth i0 cov []) 0 * nth j0 v 0)). f_equal. apply map_ext_in. intros k Hk. apply in_seq in Hk.
        unfold G. rewrite !nth_seq_map by lia. rewrite (dot_sum u (col cov k) n Lu) by (unfold col; rewrite map_length; exact Lc).
        rewrite Rmult_comm, <- rsum_mult. f_equal. apply map_ext_in. intros l Hl. apply in_seq in Hl. unfold col. rewrite (nth_indep (map (fun r => nth k r 0) cov) 0 (nth k (@nil R) 0)) by (rewrite map_length, Lc; fold n; lia).
        rewrite (map_nth (fun r => nth k r 0)). ring. }
  destruct Full as [Sq En]. unfold covar_hess. fold n. destruct (select_spec _ Sq) as (c & Ec & Nc & Hc). exists c. split; [exact Ec|]. split; [exact Nc|].
  intros a b u v Ha Hb Ga Gb. destruct (Hc a b Ha Hb) as (i & j & Hi & Hj & ->). f_equal.
  assert (Li : (i < length jac)%nat) by (rewrite Lj; apply nth_error_Some; congruence). assert (Lj' : (j < length jac)%nat) by (rewrite Lj; apply nth_error_Some; congruence).
  rewrite En by assumption.
  assert (Row : forall a i u, nth_error (all ++ fns) i = Some a -> gradient grads a u -> nth i jac [] = u).
  { clear - Lg names_ok. intros a i u Hi Ga. unfold jac. destruct (Nat.lt_ge_cases i n) as [L|L].
    - rewrite nth_error_app1 in Hi by (fold n; exact L). rewrite app_nth1 by (rewrite map_length, seq_length; exact L). rewrite (nth_indep _ [] (unit_row n 0)) by (rewrite map_length, seq_length; exact L).
      rewrite map_nth, seq_nth by exact L. cbn [Nat.add]. destruct Ga as [(Ina & Lu & Hu)|(k & Hk & _)].
      + apply nth_ext with (d := 0) (d' := 0); [unfold unit_row; now rewrite map_length, seq_length|]. intros q Hq. unfold unit_row in Hq. rewrite map_length, seq_length in Hq.
        unfold n at 1. rewrite unit_row_spec by (fold n; exact Hq). destruct (nth_error all q) as [p|] eqn:Ep; [|apply nth_error_None in Ep; fold n in Ep; lia].
        specialize (Hu q p Ep). rewrite (nth_error_nth _ _ 0 Hu). destruct (str_eqb_spec p a) as [Ea|Np], (Nat.eqb_spec i q) as [Eq|Nq]; try reflexivity; exfalso.
        * apply Nq. apply (proj1 (NoDup_nth_error all)); [exact (nodup_app_l _ _ names_ok)|fold n; exact L|congruence].
        * congruence.
      + exfalso. apply nth_error_In in Hi, Hk. clear - Hi Hk names_ok. revert names_ok Hi. induction all as [|x l IH]; intros N Hi; [destruct Hi|]. cbn in N. inversion N as [|? ? Nx Nl]; subst.
        destruct Hi as [->|Hi]; [apply Nx, in_app_iff; now right|now apply IH].
    - rewrite nth_error_app2 in Hi by (fold n; exact L). fold n in Hi. rewrite app_nth2 by (rewrite map_length, seq_length; exact L). rewrite map_length, seq_length.
      destruct Ga as [(Ina & _ & _)|(k & Hk & Hu)].
      + exfalso. apply nth_error_In in Hi. clear - Hi Ina names_ok. revert names_ok Ina. induction all as [|x l IH]; intros N Ina; [destruct Ina|]. cbn in N. inversion N as [|? ? Nx Nl]; subst.
        destruct Ina as [->|Ina]; [apply Nx, in_app_iff; now right|now apply IH].
      + assert (k = i - n)%nat as ->; [|now apply nth_error_nth]. assert (Nf : NoDup fns).
        { clear - names_ok. revert names_ok. induction all as [|x l IH]; intros N; [exact N|]. inversion N; auto. }
        apply (proj1 (NoDup_nth_error fns) Nf); [apply nth_error_Some; congruence|congruence]. }
  now rewrite (Row a i u Hi Ga), (Row b j v Hj Gb).
Qed.
(** the covariance of the bootstrap samples of two quantities *)
Definition samples (dist : str -> list R) (fn : str -> (str -> R) -> R) (m : nat) (a : str) (x : list R) : Prop :=
  length x = m /\ ((In a all /\ x = dist a) \/ (In a fns /\ forall i, (i < m)%nat -> nth_error x i = Some (fn a (fun p => nth i (dist p) 0)))).
Definition empirical_covariance (x y : list R) : R :=
  let m := INR (length x) in
  rsum (map (fun i => (nth i x 0 - rsum x / m) * (nth i y 0 - rsum y / m)) (seq 0 (length x))) / (m - 1).
Theorem C66_boot_partial : forall dist fn m, (1 < m)%nat -> (forall p, In p all -> length (dist p) = m) -> all <> [] -> (1 < length (all ++ fns))%nat ->
  exists c, covar_boot all sel fns dist fn = Ok c /\ c_names c = sel ++ fns /\
  forall a b x y, In a (sel ++ fns) -> In b (sel ++ fns) -> samples dist fn m a x -> samples dist fn m b y -> covar_at c a b = Some (empirical_covariance x y).
Proof.
  intros dist fn m Hm Hd Na H2. unfold covar_boot. set (m0 := match all with [] => O | p :: _ => length (dist p) end).
  assert (m0 = m) as -> by (unfold m0; destruct all as [|p l]; [easy|apply Hd; now left]).
  set (cols := map dist all ++ map (fun f => map (fun i => fn f (fun p => nth i (dist p) 0)) (seq 0 m)) fns).
  assert (Lc : length cols = length (all ++ fns)) by (unfold cols; rewrite !app_length, !map_length; reflexivity).
  assert (Eb : boot_full cols = Ok (map (fun x => map (sample_cov x) cols) cols)) by (unfold boot_full; destruct cols as [|c0 [|c1 cs]]; [reflexivity|cbn [length] in Lc; lia|reflexivity]).
  rewrite Eb. cbn [bind]. set (full := map (fun x => map (sample_cov x) cols) cols).
  assert (Sq : square full) by (split; [unfold full; now rewrite map_length|unfold full; apply Forall_map, Forall_forall; intros x _; now rewrite map_length]).
  destruct (select_spec _ Sq) as (c & Ec & Nc & Hc). exists c. split; [exact Ec|]. split; [exact Nc|]. intros a b x y Ha Hb Sa Sb. destruct (Hc a b Ha Hb) as (i & j & Hi & Hj & ->). f_equal.
  assert (Row : forall a i x, nth_error (all ++ fns) i = Some a -> samples dist fn m a x -> nth_error cols i = Some x).
  { clear - names_ok. intros a i x Hi (Lx & Sx). unfold cols. destruct (Nat.lt_ge_cases i (length all)) as [L|L].
    - rewrite nth_error_app1 in * by (rewrite ?map_length; exact L). rewrite (map_nth_error dist i all Hi). f_equal. destruct Sx as [(_ & ->)|(Inf & _)]; [reflexivity|exfalso].
      apply nth_error_In in Hi. clear - Hi Inf names_ok. revert names_ok Hi. induction all as [|z l IH]; intros N Hi; [destruct Hi|]. cbn in N. inversion N as [|? ? Nx Nl]; subst.
      destruct Hi as [->|Hi]; [apply Nx, in_app_iff; now right|now apply IH].
    - rewrite nth_error_app2 in * by (rewrite ?map_length; exact L). rewrite map_length. erewrite map_nth_error by exact Hi. f_equal. destruct Sx as [(Ina & _)|(_ & Hx)].
      + exfalso. apply nth_error_In in Hi. clear - Hi Ina names_ok. revert names_ok Ina. induction all as [|z l IH]; intros N Ina; [destruct Ina|]. cbn in N. inversion N as [|? ? Nx Nl]; subst.
        destruct Ina as [->|Ina]; [apply Nx, in_app_iff; now right|now apply IH].
      + apply nth_ext with (d := 0) (d' := 0); [rewrite map_length, seq_length; congruence|]. intros q Hq. rewrite map_length, seq_length in Hq. rewrite nth_seq_map by exact Hq.
        symmetry. apply nth_error_nth. now apply Hx. }
  pose proof (Row a i x Hi Sa) as Cx. pose proof (Row b j y Hj Sb) as Cy. unfold full.
  rewrite (nth_error_nth _ i [] (map_nth_error (fun x => map (sample_cov x) cols) i cols Cx)). rewrite (nth_error_nth _ j 0 (map_nth_error (sample_cov x) j cols Cy)).
  destruct Sa as [Lx _]. destruct Sb as [Ly _]. unfold sample_cov, empirical_covariance, mean. rewrite Lx, Ly. rewrite minus_INR by lia. cbn [INR]. f_equal.
  change (rsum (zip2 Rmult (map (fun a => a - rsum x / INR m) x) (map (fun b => b - rsum y / INR m) y))) with (dot (map (fun a => a - rsum x / INR m) x) (map (fun b => b - rsum y / INR m) y)).
  rewrite (dot_sum _ _ m) by (rewrite map_length; assumption). f_equal. apply map_ext_in. intros q Hq. apply in_seq in Hq.
  rewrite (nth_indep (map (fun a => a - rsum x / INR m) x) 0 (0 - rsum x / INR m)) by (rewrite map_length; lia). rewrite (map_nth (fun a => a - rsum x / INR m)).
  rewrite (nth_indep (map (fun b => b - rsum y / INR m) y) 0 (0 - rsum y / INR m)) by (rewrite map_length; lia). rewrite (map_nth (fun b => b - rsum y / INR m)). reflexivity.
Qed.
End Covar.
Print Assumptions C66_hess.
Print Assumptions C66_boot_partial.
(** with a single parameter and no function, the covariance of the bootstrap samples cannot be computed *)
Theorem C66_boot_one_parameter_refuted : forall p sel dist fn, covar_boot [p] sel [] dist fn = Err IndexError.
Proof. reflexivity. Qed.
Print Assumptions C66_boot_one_parameter_refuted.
(** two parameters and a function, only the second parameter requested *)
Example C66_ex : NoDup ([s2l "a"; s2l "b"] ++ [s2l "f"]) /\ gradient [s2l "a"; s2l "b"] [s2l "f"] [[1; 2]] (s2l "b") [0; 1] /\
  propagated [s2l "a"; s2l "b"] [[4; 1]; [1; 9]] [0; 1] [1; 2] = 19.
Proof.
  split; [repeat constructor; cbn; intuition discriminate|]. split.
  - left. split; [cbn; tauto|]. split; [reflexivity|]. intros [|[|j]] p H; cbn in H; try (destruct j; discriminate H); injection H as <-; reflexivity.
  - cbn. lra.
Qed.
