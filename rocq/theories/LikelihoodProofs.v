From Verif Require Import RBase Gibbs Likelihood.

(** ** specification: log of the Poisson / normal density in the parameter,
    up to terms independent of it *)
Definition ll_poisson (n mu : R) : R := xlogy n mu - mu.
Definition ll_normal (x mu sigma : R) : R := - ((x - mu) * (x - mu)) / (2 * (sigma * sigma)).
(** the density at parameter [mu] is non-zero *)
Definition supported (n mu : R) : Prop := 0 < mu \/ (mu = 0 /\ n = 0).

(** tangent bound *)
Lemma ll_poisson_tangent n y y' : 0 <= n -> 0 < y -> supported n y' ->
  ll_poisson n y' - ll_poisson n y <= (n / y - 1) * (y' - y).
Proof.
  intros Hn Hy Hs. unfold ll_poisson, xlogy. destruct (Reqb_spec n 0) as [E|E].
  - rewrite E. unfold Rdiv. lra.
  - destruct Hs as [Hy'|(_ & ?)]; [|lra].
    assert (Hq : 0 < y' / y) by (apply Rdiv_lt_0_compat; lra).
    pose proof (ln_le_sub1 _ Hq) as L. unfold Rdiv in L at 1. rewrite ln_mult in L by (lra || now apply Rinv_0_lt_compat).
    rewrite ln_Rinv in L by lra.
    assert (E2 : n / y * (y' - y) = n * (y' / y - 1)) by (field; lra).
    assert (n * (ln y' - ln y) <= n * (y' / y - 1)) by (apply Rmult_le_compat_l; lra). lra.
Qed.
Lemma ll_normal_tangent x y y' s : 0 < s ->
  ll_normal x y' s - ll_normal x y s <= (x - y) / (s * s) * (y' - y).
Proof.
  intros Hs. unfold ll_normal. assert (H2 : 0 < s * s) by nra.
  assert (E : (x - y) / (s * s) * (y' - y) - (- ((x - y') * (x - y')) / (2 * (s * s)) - - ((x - y) * (x - y)) / (2 * (s * s)))
    = (y' - y) * (y' - y) / (2 * (s * s))) by (field; lra).
  assert (0 <= (y' - y) * (y' - y) / (2 * (s * s))).
  { apply Rmult_le_pos; [apply Rle_0_sqr|]. left. apply Rinv_0_lt_compat. lra. }
  lra.
Qed.

(** quadratic root *)
Lemma quad_root A c f : 0 < A -> 0 <= f ->
  let b := (c + sqrt (c * c + 4 * A * f)) / (2 * A) in
  0 <= b /\ A * b * b - c * b - f = 0 /\ (0 < f -> 0 < b).
Proof.
  intros HA Hf b.
  assert (HAf : 0 <= A * f) by nra.
  assert (HD : 0 <= c * c + 4 * A * f) by (pose proof (Rle_0_sqr c) as Q; unfold Rsqr in Q; nra).
  set (D := c * c + 4 * A * f) in *. pose proof (sqrt_pos D) as HP. pose proof (sqrt_sqrt D HD) as HQ.
  assert (Hsum : 0 <= c + sqrt D).
  { destruct (Rle_dec 0 c); [lra|]. apply Rnot_lt_le; intros C.
    assert (sqrt D * sqrt D < c * c) by nra. unfold D in *. lra. }
  assert (B0 : 0 <= b).
  { unfold b. apply Rmult_le_pos; [exact Hsum|]. left. apply Rinv_0_lt_compat. lra. }
  assert (E : 2 * A * b = c + sqrt D) by (unfold b; field; lra).
  assert (Q : A * b * b - c * b - f = 0).
  { assert (4 * A * (A * b * b - c * b - f) = 0); [|apply Rmult_integral in H as [H|H]; lra].
    replace (4 * A * (A * b * b - c * b - f)) with ((2 * A * b - c) * (2 * A * b - c) - (c * c + 4 * A * f)) by ring.
    fold D. replace (2 * A * b - c) with (sqrt D) by lra. lra. }
  repeat split; try assumption.
  intros Hf0. destruct (Req_dec b 0) as [Eb|]; [|lra]. rewrite Eb in Q. lra.
Qed.

(** ** W-stat *)
Lemma wstat_nonneg s n m a : 0 < s -> 0 <= n -> 0 <= m -> 0 < a ->
  0 <= wstat_background s n m a /\ (0 < m -> 0 < wstat_background s n m a).
Proof.
  intros Hs Hn Hm Ha. unfold wstat_background.
  destruct (Reqb_spec n 0) as [En|En].
  { split; [|intros]; (apply Rdiv_lt_0_compat || (apply Rmult_le_pos; [|left; apply Rinv_0_lt_compat])); lra. }
  destruct (Reqb_spec m 0) as [Em|Em].
  { split; [|lra]. destruct (Rleb_spec s (a / (a + 1) * n)) as [H|H]; [|lra].
    assert (E : n / (1 + a) - s / a = (a / (a + 1) * n - s) / a) by (field; lra).
    rewrite E. apply Rmult_le_pos; [lra|]. left. now apply Rinv_0_lt_compat. }
  replace (4 * a * (a + 1) * m * s) with (4 * (a * (a + 1)) * (m * s)) by ring.
  replace (2 * a * (a + 1)) with (2 * (a * (a + 1))) by ring.
  destruct (quad_root (a * (a + 1)) (a * (n + m) - (a + 1) * s) (m * s)) as (B0 & _ & B1); [nra|nra|].
  split; [exact B0|]. intros _. apply B1. nra.
Qed.

Lemma wstat_optimal s n m a b' : 0 < s -> 0 <= n -> 0 <= m -> 0 < a ->
  supported m b' ->
  let b := wstat_background s n m a in
  ll_poisson n (s + a * b') + ll_poisson m b' <= ll_poisson n (s + a * b) + ll_poisson m b.
Proof.
  intros Hs Hn Hm Ha Hb' b. destruct (wstat_nonneg s n m a Hs Hn Hm Ha) as (B0 & B1). fold b in B0, B1.
  assert (Hb0 : 0 <= b') by (destruct Hb' as [|(-> & _)]; lra).
  assert (Hy : 0 < s + a * b) by nra.
  assert (Hy' : supported n (s + a * b')) by (left; nra).
  pose proof (ll_poisson_tangent n (s + a * b) (s + a * b') Hn Hy Hy') as T1.
  replace (s + a * b' - (s + a * b)) with (a * (b' - b)) in T1 by ring.
  destruct (Req_dec m 0) as [Em|Em].
  - (* off term is -b *)
    assert (T2 : ll_poisson m b' - ll_poisson m b = - (b' - b)).
    { unfold ll_poisson, xlogy. rewrite Em. destruct (Reqb_spec 0 0); lra. }
    assert (K : ((n / (s + a * b) - 1) * a - 1) * (b' - b) <= 0); [|lra].
    unfold b, wstat_background in *.
    destruct (Reqb_spec n 0) as [En|En].
    + subst n m. unfold Rdiv. rewrite !Rmult_0_l. nra.
    + destruct (Reqb_spec m 0) as [_|]; [|lra].
      destruct (Rleb_spec s (a / (a + 1) * n)) as [H|H].
      * replace (s + a * (n / (1 + a) - s / a)) with (a * n / (1 + a)) by (field; lra).
        replace ((n / (a * n / (1 + a)) - 1) * a - 1) with 0 by (field; lra). lra.
      * rewrite Rmult_0_r, Rplus_0_r, Rminus_0_r.
        assert (n / s * a < a + 1).
        { apply (Rmult_lt_reg_r s); [lra|]. replace (n / s * a * s) with (a * n) by (field; lra).
          apply Rnot_le_lt in H. apply (Rmult_lt_compat_r (a + 1)) in H; [|lra].
          replace (a / (a + 1) * n * (a + 1)) with (a * n) in H by (field; lra). lra. }
        nra.
  - assert (Hm0 : 0 < m) by lra. specialize (B1 Hm0).
    pose proof (ll_poisson_tangent m b b' Hm B1 Hb') as T2.
    assert (K : (n / (s + a * b) - 1) * a + (m / b - 1) = 0).
    { unfold b, wstat_background in *. destruct (Reqb_spec n 0) as [En|En].
      - subst n. field. repeat split; try lra. assert (0 < a * m) by nra. nra.
      - destruct (Reqb_spec m 0) as [|_]; [lra|].
        replace (4 * a * (a + 1) * m * s) with (4 * (a * (a + 1)) * (m * s)) in * by ring.
        replace (2 * a * (a + 1)) with (2 * (a * (a + 1))) in * by ring.
        destruct (quad_root (a * (a + 1)) (a * (n + m) - (a + 1) * s) (m * s)) as (_ & Q & _); [nra|nra|].
        set (x := (a * (n + m) - (a + 1) * s + sqrt ((a * (n + m) - (a + 1) * s) * (a * (n + m) - (a + 1) * s) + 4 * (a * (a + 1)) * (m * s))) / (2 * (a * (a + 1)))) in *.
        assert (E : ((n / (s + a * x) - 1) * a + (m / x - 1)) * (x * (s + a * x)) =
          - (a * (a + 1) * x * x - (a * (n + m) - (a + 1) * s) * x - m * s)) by (field; lra).
        rewrite Q in E. rewrite Ropp_0 in E. apply Rmult_integral in E as [E|E]; [exact E|].
        assert (0 < x * (s + a * x)) by (apply Rmult_lt_0_compat; lra). lra. }
    assert ((n / (s + a * b) - 1) * (a * (b' - b)) + (m / b - 1) * (b' - b) = 0).
    { replace ((n / (s + a * b) - 1) * (a * (b' - b)) + (m / b - 1) * (b' - b))
        with (((n / (s + a * b) - 1) * a + (m / b - 1)) * (b' - b)) by ring. rewrite K. ring. }
    lra.
Qed.

(** ** PG-stat *)
Lemma pgstat_spec s n B sg a : 0 < s -> 0 <= n -> 0 < sg -> 0 < a ->
  let b := pgstat_background s n B sg a in
  let score := (n / (s + a * b) - 1) * a + (B - b) / (sg * sg) in
  0 <= b /\ (score = 0 \/ (b = 0 /\ score <= 0)).
Proof.
  intros Hs Hn Hg Ha b score. assert (Hv : 0 < sg * sg) by nra.
  unfold score, b, pgstat_background. set (v := sg * sg) in *. clearbody v. clear b score.
  set (e := B - a * v). set (f := a * v * n + e * s). set (c := a * e - s).
  assert (Sc : forall x, 0 <= x -> ((n / (s + a * x) - 1) * a + (B - x) / v) * (v * (s + a * x)) = - (a * x * x - c * x - f)).
  { intros x Hx. unfold c, f, e. field. split; [lra|nra]. }
  assert (Sc0 : forall x, 0 <= x -> a * x * x - c * x - f = 0 -> (n / (s + a * x) - 1) * a + (B - x) / v = 0).
  { intros x Hx H. specialize (Sc x Hx). rewrite H, Ropp_0 in Sc. apply Rmult_integral in Sc as [Sc|Sc]; [exact Sc|].
    assert (0 < v * (s + a * x)) by (apply Rmult_lt_0_compat; nra). lra. }
  destruct (Rltb_spec 0 n) as [Hn0|Hn0].
  - assert (Hcase : ((Rleb 0 e || Rleb 0 f)%bool = true /\ 0 <= f) \/ ((Rleb 0 e || Rleb 0 f)%bool = false /\ f < 0)).
    { destruct (Rleb_spec 0 f) as [Hf|Hf]; [left; split; [apply orb_true_r|exact Hf]|].
      destruct (Rleb_spec 0 e) as [He|He]; [|right; split; [reflexivity|lra]].
      exfalso. apply Hf. unfold f. assert (0 <= e * s) by nra. assert (0 < a * v) by nra. nra. }
    destruct Hcase as [(-> & Hf)|(-> & Hf)].
    + destruct (quad_root a c f Ha Hf) as (B0 & Q & _). split; [exact B0|]. left. now apply Sc0.
    + split; [lra|]. right. split; [reflexivity|]. specialize (Sc 0 (Rle_refl 0)).
      set (q := (n / (s + a * 0) - 1) * a + (B - 0) / v) in *. apply Rnot_lt_le; intros C.
      assert (0 < q * (v * (s + a * 0))) by (apply Rmult_lt_0_compat; [exact C|]; rewrite Rmult_0_r, Rplus_0_r; nra).
      lra.
  - assert (n = 0) by lra. subst n. assert (Ef : f = e * s) by (unfold f; ring).
    destruct (Rleb_spec 0 e) as [He|He]; cbn [orb].
    + split; [exact He|]. left. apply Sc0; [exact He|]. rewrite Ef. unfold c. ring.
    + destruct (Rleb_spec 0 f) as [Hf|Hf]; [exfalso; rewrite Ef in Hf; nra|].
      split; [lra|]. right. split; [reflexivity|].
      unfold Rdiv at 1. rewrite Rmult_0_l, Rminus_0_r.
      assert (B / v < a). { apply (Rmult_lt_reg_r v); [exact Hv|]. unfold Rdiv. rewrite Rmult_assoc, Rinv_l by lra. unfold e in He. lra. }
      lra.
Qed.

Lemma pgstat_optimal s n B sg a b' : 0 < s -> 0 <= n -> 0 < sg -> 0 < a -> 0 <= b' ->
  let b := pgstat_background s n B sg a in
  ll_poisson n (s + a * b') + ll_normal B b' sg <= ll_poisson n (s + a * b) + ll_normal B b sg.
Proof.
  intros Hs Hn Hg Ha Hb' b. destruct (pgstat_spec s n B sg a Hs Hn Hg Ha) as (B0 & Sc). fold b in B0, Sc.
  cbv zeta in Sc.
  assert (Hy : 0 < s + a * b) by nra.
  assert (Hy' : supported n (s + a * b')) by (left; nra).
  pose proof (ll_poisson_tangent n (s + a * b) (s + a * b') Hn Hy Hy') as T1.
  pose proof (ll_normal_tangent B b b' sg Hg) as T2.
  set (sc := (n / (s + a * b) - 1) * a + (B - b) / (sg * sg)) in *.
  assert (E : (n / (s + a * b) - 1) * (s + a * b' - (s + a * b)) + (B - b) / (sg * sg) * (b' - b) = sc * (b' - b)) by (unfold sc; ring).
  assert (sc * (b' - b) <= 0). { destruct Sc as [->|(-> & Sc)]; [lra|nra]. }
  lra.
Qed.

(** ** deviance *)
Lemma poisson_logp_gibbs n mu : 0 <= n -> 0 < mu ->
  poisson_logp n mu = - (xlogy n (n / mu) - (n - mu)).
Proof.
  intros Hn Hm. unfold poisson_logp.
  assert (E : (xlogy n mu - mu) - (xlogy n n - n) = - (xlogy n (n / mu) - (n - mu))).
  { unfold xlogy. destruct (Reqb_spec n 0) as [E|E]; [rewrite E; lra|].
    unfold Rdiv. rewrite ln_mult by (lra || (apply Rinv_0_lt_compat; lra)). rewrite ln_Rinv by lra. lra. }
  rewrite E. pose proof (gibbs n mu Hn Hm). apply Rmin_left. lra.
Qed.
Lemma poisson_logp_nonpos n mu : poisson_logp n mu <= 0.
Proof. unfold poisson_logp. apply Rmin_r. Qed.
Lemma poisson_logp_zero n mu : 0 <= n -> 0 < mu -> (poisson_logp n mu = 0 <-> n = mu).
Proof.
  intros Hn Hm. rewrite poisson_logp_gibbs by assumption. split; intros H.
  - apply gibbs_eq; [assumption|assumption|lra].
  - subst n. rewrite xlogy_same. lra.
Qed.
(** the clip of the log-probability at 0 never changes a value, so the
    likelihood that is fitted is the Poisson likelihood *)
Lemma poisson_logp_exact n mu : 0 <= n -> 0 < mu ->
  poisson_logp n mu = ll_poisson n mu - ll_poisson n n.
Proof.
  intros Hn Hm. rewrite poisson_logp_gibbs by assumption. unfold ll_poisson, xlogy.
  destruct (Reqb_spec n 0) as [E|E]; [rewrite E; lra|].
  unfold Rdiv. rewrite ln_mult by (lra || (apply Rinv_0_lt_compat; lra)). rewrite ln_Rinv by lra. lra.
Qed.
Lemma poisson_logp_mu0 : poisson_logp 0 0 = 0.
Proof. unfold poisson_logp, xlogy. destruct (Reqb_spec 0 0); [|lra]. rewrite Rmin_left; lra. Qed.
Lemma poisson_sparse_dense n mu : 0 <= n -> poisson_logp_sparse n mu = poisson_logp n mu.
Proof.
  intros Hn. unfold poisson_logp_sparse, poisson_logp. f_equal. destruct (Rltb_spec 0 n) as [H|H]; [lra|].
  assert (n = 0) by lra. subst. unfold xlogy. destruct (Reqb_spec 0 0); lra.
Qed.
Lemma normal_logp_nonpos x m s : normal_logp x m s <= 0.
Proof. unfold normal_logp. pose proof (Rle_0_sqr ((x - m) / s)) as Q. unfold Rsqr in Q. lra. Qed.
Lemma normal_logp_zero x m s : 0 < s -> (normal_logp x m s = 0 <-> x = m).
Proof.
  intros Hs. unfold normal_logp. split; intros H.
  - assert (E : (x - m) / s * ((x - m) / s) = 0) by lra. apply Rsqr_0_uniq in E.
    unfold Rdiv in E. apply Rmult_integral in E as [E|E]; [lra|].
    assert (0 < / s) by now apply Rinv_0_lt_compat. lra.
  - subst. unfold Rdiv. rewrite Rminus_diag_eq by reflexivity. lra.
Qed.
Lemma normal_logp_ll x m s : 0 < s -> normal_logp x m s = ll_normal x m s.
Proof. intros Hs. unfold normal_logp, ll_normal. replace (-0.5) with (- (1 / 2)) by lra. field. lra. Qed.

Lemma loglike_chan_nonpos ds c u : loglike_chan ds c u <= 0.
Proof.
  unfold loglike_chan, loglike_on, loglike_off. destruct (ds_stat ds);
  repeat match goal with
  | |- context [normal_logp ?a ?b ?c] => pose proof (normal_logp_nonpos a b c); set (normal_logp a b c) in *
  | |- context [poisson_logp ?a ?b] => pose proof (poisson_logp_nonpos a b); set (poisson_logp a b) in *
  end; lra.
Qed.

Lemma rsum_map_nonpos {A} (f : A -> R) l : (forall x, In x l -> f x <= 0) -> rsum (map f l) <= 0.
Proof.
  intros H. induction l as [|x l IH]; simpl; [lra|].
  assert (f x <= 0) by (apply H; now left). assert (rsum (map f l) <= 0) by (apply IH; intros; apply H; now right).
  unfold rsum in *. lra.
Qed.
Lemma rsum_map_eq0 {A} (f : A -> R) l : (forall x, In x l -> f x <= 0) ->
  (rsum (map f l) = 0 <-> forall x, In x l -> f x = 0).
Proof.
  induction l as [|x l IH]; intros H; simpl; [split; [easy|reflexivity]|].
  assert (H1 : f x <= 0) by (apply H; now left).
  assert (H2 : rsum (map f l) <= 0) by (apply rsum_map_nonpos; intros; apply H; now right).
  assert (IH' := IH (fun y Hy => H y (or_intror Hy))). unfold rsum in *. split.
  - intros E y [<-|Hy]; [lra|]. apply IH'; [lra|exact Hy].
  - intros E. rewrite (E x (or_introl eq_refl)). rewrite (proj2 IH'); [lra|]. intros y Hy; apply E; now right.
Qed.

Lemma tiny_pos : 0 < tiny.
Proof. unfold tiny. apply Rinv_0_lt_compat. apply pow_lt. lra. Qed.
Lemma tiny_lt : tiny <= 10 ^ 15.
Proof.
  unfold tiny. assert (H : 1 <= 10 ^ 30) by (apply pow_R1_Rle; lra). assert (H' : 1 <= 10 ^ 15) by (apply pow_R1_Rle; lra).
  assert (/ 10 ^ 30 <= / 1) by (apply Rinv_le_contravar; lra). rewrite Rinv_1 in H0. lra.
Qed.
Lemma clip_tiny_pos x : 0 < clip tiny (10 ^ 15) x.
Proof.
  unfold clip. pose proof tiny_pos. pose proof tiny_lt. pose proof (Rmax_r x tiny).
  apply Rmin_case; lra.
Qed.

(** well formed data set: what data/base.py and fit.py guarantee *)
Definition chan_wf (st : stat) (c : channel) : Prop :=
  match st with
  | Chi2 => 0 < ch_nerr c
  | Cstat | Pstat => 0 <= ch_n c
  | Pgstat => 0 <= ch_n c /\ 0 < ch_berr c /\ 0 < ch_ratio c
  | Wstat => 0 <= ch_n c /\ 0 <= ch_b c /\ 0 < ch_ratio c
  end.

Lemma dev_point_nonneg ds u : Forall (fun d => 0 <= d) (dev_point ds u).
Proof.
  unfold dev_point, loglike_point. rewrite map_map, Forall_map, Forall_forall. intros c _.
  pose proof (loglike_chan_nonpos ds c u). unfold neg_double. lra.
Qed.

Lemma dev_group_sum ds u : dev_group ds u = rsum (dev_point ds u).
Proof. unfold dev_group, loglike_group, dev_point, neg_double. now rewrite rsum_mult, map_id. Qed.
Lemma dev_total_sum dss : dev_total dss = rsum (map (fun p => dev_group (fst p) (snd p)) dss).
Proof.
  unfold dev_total, loglike_total, loglike_channels, dev_group, neg_double.
  rewrite rsum_concat, map_map. rewrite rsum_mult. reflexivity.
Qed.
Lemma dev_total_channels dss : dev_total dss = rsum (concat (map (fun p => dev_point (fst p) (snd p)) dss)).
Proof.
  rewrite dev_total_sum, rsum_concat, map_map. f_equal. apply map_ext. intros p. apply dev_group_sum.
Qed.

Lemma loglike_simple_zero ds c u : chan_wf (ds_stat ds) c ->
  match ds_stat ds with Chi2 | Cstat | Pstat => loglike_chan ds c u = 0 <-> ch_n c = on_model ds c u | _ => True end.
Proof.
  intros Hw. unfold loglike_chan, loglike_on, on_model, source_counts. destruct (ds_stat ds); try exact I; simpl in Hw.
  - now apply normal_logp_zero.
  - apply poisson_logp_zero; [exact Hw|apply clip_tiny_pos].
  - apply poisson_logp_zero; [exact Hw|apply clip_tiny_pos].
Qed.

Lemma dev_total_nonneg dss : 0 <= dev_total dss.
Proof.
  rewrite dev_total_channels. apply rsum_nonneg. apply Forall_concat. rewrite Forall_map, Forall_forall.
  intros p _. apply dev_point_nonneg.
Qed.

Lemma dev_total_zero dss :
  Forall (fun p => In (ds_stat (fst p)) [Chi2; Cstat; Pstat] /\ Forall (chan_wf (ds_stat (fst p))) (ds_chans (fst p))) dss ->
  (dev_total dss = 0 <->
   Forall (fun p => Forall (fun c => ch_n c = on_model (fst p) c (snd p)) (ds_chans (fst p))) dss).
Proof.
  intros Hw. rewrite dev_total_sum.
  assert (E : rsum (map (fun p => dev_group (fst p) (snd p)) dss) = -2 * rsum (map (fun p => loglike_group (fst p) (snd p)) dss)).
  { unfold dev_group, neg_double. now rewrite rsum_mult. }
  rewrite E.
  assert (Hg : forall p, In p dss -> loglike_group (fst p) (snd p) <= 0).
  { intros p _. unfold loglike_group, loglike_point. apply rsum_map_nonpos. intros; apply loglike_chan_nonpos. }
  pose proof (rsum_map_eq0 _ dss Hg) as Hz.
  assert (Hz' : -2 * rsum (map (fun p => loglike_group (fst p) (snd p)) dss) = 0 <->
                rsum (map (fun p => loglike_group (fst p) (snd p)) dss) = 0) by lra.
  rewrite Hz', Hz, Forall_forall. rewrite Forall_forall in Hw.
  split; intros H p Hp; specialize (H p Hp); destruct (Hw p Hp) as (Hst & Hc); clear E Hg Hz Hz'.
  - unfold loglike_group, loglike_point in H. rewrite rsum_map_eq0 in H by (intros; apply loglike_chan_nonpos).
    rewrite Forall_forall in *. intros c Hin. specialize (H c Hin). pose proof (loglike_simple_zero (fst p) c (snd p) (Hc c Hin)) as L.
    destruct (ds_stat (fst p)); try tauto; simpl in Hst; intuition discriminate.
  - unfold loglike_group, loglike_point. rewrite rsum_map_eq0 by (intros; apply loglike_chan_nonpos).
    rewrite Forall_forall in *. intros c Hin. specialize (H c Hin). pose proof (loglike_simple_zero (fst p) c (snd p) (Hc c Hin)) as L.
    destruct (ds_stat (fst p)); try tauto; simpl in Hst; intuition discriminate.
Qed.

Lemma residual_deviance dss : rsum (map (fun r => r * r) (residual dss)) = dev_total dss.
Proof.
  unfold residual, dev_total, loglike_total, neg_double. rewrite map_map, <- rsum_mult, !map_id || idtac.
  rewrite <- (map_id (loglike_channels dss)) at 2. rewrite <- rsum_mult.
  assert (H : Forall (fun l => l <= 0) (loglike_channels dss)).
  { unfold loglike_channels. apply Forall_concat. rewrite Forall_map, Forall_forall. intros p _.
    unfold loglike_point. rewrite Forall_map, Forall_forall. intros c _. apply loglike_chan_nonpos. }
  induction H as [|l ls Hl Hls IH]; simpl; [reflexivity|]. unfold rsum in *. rewrite IH.
  rewrite sqrt_sqrt by lra. reflexivity.
Qed.

(** data-set level consequence: no other background gives a smaller deviance *)
Definition dev_with_background (ds : dataset) (c : channel) (u : list R) (b : R) : R :=
  let s := source_counts ds c u in
  match ds_stat ds with
  | Wstat => -2 * (poisson_logp (ch_n c) (s + ch_ratio c * b) + poisson_logp (ch_b c) b)
  | _ => -2 * (poisson_logp (ch_n c) (s + ch_ratio c * b) + normal_logp (ch_b c) b (ch_berr c))
  end.
Lemma profile_deviance ds c u b : (ds_stat ds = Wstat \/ ds_stat ds = Pgstat) -> chan_wf (ds_stat ds) c ->
  match ds_stat ds with Wstat => supported (ch_b c) b | _ => 0 <= b end ->
  neg_double (loglike_chan ds c u) <= dev_with_background ds c u b.
Proof.
  intros Hst Hw Hb. unfold loglike_chan, dev_with_background, loglike_on, loglike_off, on_model, off_model, neg_double.
  pose proof (clip_tiny_pos (rate_counts ds c u)) as Hs. fold (source_counts ds c u) in Hs.
  set (s := source_counts ds c u) in *.
  destruct Hst as [E|E]; rewrite E in *; cbn [profiled chan_wf] in *; cbv zeta.
  - destruct Hw as (Hn & Hb0 & Ha).
    destruct (wstat_nonneg s (ch_n c) (ch_b c) (ch_ratio c) Hs Hn Hb0 Ha) as (B0 & B1).
    pose proof (wstat_optimal s (ch_n c) (ch_b c) (ch_ratio c) b Hs Hn Hb0 Ha Hb) as O. cbv zeta in O.
    set (w := wstat_background s (ch_n c) (ch_b c) (ch_ratio c)) in *.
    assert (L : forall m x, 0 <= m -> supported m x -> poisson_logp m x = ll_poisson m x - ll_poisson m m).
    { intros m x Hm [Hx|(-> & ->)]; [now apply poisson_logp_exact|].
      rewrite poisson_logp_mu0. unfold ll_poisson, xlogy. destruct (Reqb_spec 0 0); lra. }
    assert (Hb' : 0 <= b) by (destruct Hb as [|(-> & _)]; lra).
    rewrite !L; try assumption; try (left; nra).
    + lra.
    + destruct (Req_dec (ch_b c) 0) as [Eb|Nb]; [|left; apply B1; lra].
      destruct (Req_dec w 0); [right; split; assumption|left; lra].
  - destruct Hw as (Hn & Hg & Ha).
    destruct (pgstat_spec s (ch_n c) (ch_b c) (ch_berr c) (ch_ratio c) Hs Hn Hg Ha) as (B0 & _).
    pose proof (pgstat_optimal s (ch_n c) (ch_b c) (ch_berr c) (ch_ratio c) b Hs Hn Hg Ha Hb) as O. cbv zeta in O.
    rewrite !poisson_logp_exact by (assumption || nra). rewrite !normal_logp_ll by assumption. lra.
Qed.

Lemma wstat_dev_zero ds c u : ds_stat ds = Wstat -> chan_wf Wstat c ->
  (loglike_chan ds c u = 0 <-> ch_n c = source_counts ds c u + ch_ratio c * ch_b c).
Proof.
  intros E Hw. pose proof Hw as (Hn & Hb0 & Ha).
  pose proof (clip_tiny_pos (rate_counts ds c u)) as Hs. fold (source_counts ds c u) in Hs.
  destruct (wstat_nonneg _ (ch_n c) (ch_b c) (ch_ratio c) Hs Hn Hb0 Ha) as (B0 & B1).
  split; intros H.
  - unfold loglike_chan, loglike_on, loglike_off, on_model, off_model in H. rewrite E in H. cbn [profiled] in H. cbv zeta in H.
    set (s := source_counts ds c u) in *. set (w := wstat_background s (ch_n c) (ch_b c) (ch_ratio c)) in *.
    pose proof (poisson_logp_nonpos (ch_n c) (s + ch_ratio c * w)) as P1. pose proof (poisson_logp_nonpos (ch_b c) w) as P2.
    assert (Z1 : poisson_logp (ch_n c) (s + ch_ratio c * w) = 0) by lra.
    assert (Z2 : poisson_logp (ch_b c) w = 0) by lra.
    apply (proj1 (poisson_logp_zero (ch_n c) (s + ch_ratio c * w) Hn ltac:(nra))) in Z1.
    assert (ch_b c = w).
    { destruct (Req_dec w 0) as [W|W].
      - destruct (Req_dec (ch_b c) 0); [congruence|]. assert (0 < w) by (apply B1; lra). lra.
      - apply (proj1 (poisson_logp_zero (ch_b c) w Hb0 ltac:(lra))) in Z2. exact Z2. }
    congruence.
  - assert (Hsup : match ds_stat ds with Wstat => supported (ch_b c) (ch_b c) | _ => 0 <= ch_b c end).
    { rewrite E. destruct (Req_dec (ch_b c) 0) as [Z|Z]; [right; split; assumption|left; lra]. }
    assert (P := profile_deviance ds c u (ch_b c) (or_introl E) (eq_ind_r (fun st => chan_wf st c) Hw E) Hsup).
    unfold dev_with_background in P. rewrite E in P. cbv zeta in P. rewrite <- H in P.
    assert (L1 : poisson_logp (ch_n c) (ch_n c) = 0) by (apply poisson_logp_zero; [exact Hn| |reflexivity]; rewrite H; nra).
    assert (L2 : poisson_logp (ch_b c) (ch_b c) = 0).
    { destruct (Req_dec (ch_b c) 0) as [Z|Z]; [rewrite Z; apply poisson_logp_mu0|].
      apply poisson_logp_zero; [exact Hb0|lra|reflexivity]. }
    rewrite L1, L2 in P. pose proof (loglike_chan_nonpos ds c u). unfold neg_double in P. lra.
Qed.

Lemma pgstat_dev_zero ds c u : ds_stat ds = Pgstat -> chan_wf Pgstat c ->
  (loglike_chan ds c u = 0 <-> 0 <= ch_b c /\ ch_n c = source_counts ds c u + ch_ratio c * ch_b c).
Proof.
  intros E Hw. pose proof Hw as (Hn & Hg & Ha).
  pose proof (clip_tiny_pos (rate_counts ds c u)) as Hs. fold (source_counts ds c u) in Hs.
  destruct (pgstat_spec _ (ch_n c) (ch_b c) (ch_berr c) (ch_ratio c) Hs Hn Hg Ha) as (B0 & _).
  split; intros H.
  - unfold loglike_chan, loglike_on, loglike_off, on_model, off_model in H. rewrite E in H. cbn [profiled] in H. cbv zeta in H.
    set (s := source_counts ds c u) in *. set (w := pgstat_background s (ch_n c) (ch_b c) (ch_berr c) (ch_ratio c)) in *.
    pose proof (poisson_logp_nonpos (ch_n c) (s + ch_ratio c * w)) as P1.
    pose proof (normal_logp_nonpos (ch_b c) w (ch_berr c)) as P2.
    assert (Z1 : poisson_logp (ch_n c) (s + ch_ratio c * w) = 0) by lra.
    assert (Z2 : normal_logp (ch_b c) w (ch_berr c) = 0) by lra.
    apply (proj1 (poisson_logp_zero (ch_n c) (s + ch_ratio c * w) Hn ltac:(nra))) in Z1. apply (proj1 (normal_logp_zero (ch_b c) w (ch_berr c) Hg)) in Z2.
    split; [lra|rewrite Z2; exact Z1].
  - destruct H as (Hb & H).
    assert (Hsup : match ds_stat ds with Wstat => supported (ch_b c) (ch_b c) | _ => 0 <= ch_b c end) by (rewrite E; exact Hb).
    assert (P := profile_deviance ds c u (ch_b c) (or_intror E) (eq_ind_r (fun st => chan_wf st c) Hw E) Hsup).
    unfold dev_with_background in P. rewrite E in P. cbv zeta in P. rewrite <- H in P.
    assert (L1 : poisson_logp (ch_n c) (ch_n c) = 0) by (apply poisson_logp_zero; [exact Hn| |reflexivity]; rewrite H; nra).
    assert (L2 : normal_logp (ch_b c) (ch_b c) (ch_berr c) = 0) by (apply normal_logp_zero; [exact Hg|reflexivity]).
    rewrite L1, L2 in P. pose proof (loglike_chan_nonpos ds c u). unfold neg_double in P. lra.
Qed.
