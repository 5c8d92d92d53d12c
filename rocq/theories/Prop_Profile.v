(** C84: profile likelihood confidence intervals. *)
From Coq Require Import Ascii String.
From Verif Require Import RBase Data Namespace NamespaceProofs FitInput HelperData ModelInfo HelperNames HelperNamesProofs Batch BatchProofs HelperDataProofs Results ModelAlg CompileProofs Profile.
From Coq Require Import List Lia Lra.
Open Scope list_scope.
Open Scope R_scope.

(** ** specification *)
(** [v] is the smallest value (infimum) of the deviance when the quantity [q] is held at [y] *)
Definition profile {P : Type} (allowed : P -> Prop) (deviance q : P -> R) (y v : R) : Prop :=
  (forall p, allowed p -> q p = y -> v <= deviance p) /\ (forall b, (forall p, allowed p -> q p = y -> b <= deviance p) -> b <= v).
(** deviance seen by the minimizer: parameters go through their transforms *)
Definition unconstrained (T : str -> R -> R) (deviance : (str -> R) -> R) (u : str -> R) : R := deviance (fun n => T n (u n)).

(** ** the intervals of free parameters *)
Lemma mapE_ok {A B} (f : A -> res B) (g : A -> B) l : (forall x, In x l -> f x = Ok (g x)) -> mapE f l = Ok (map g l).
Proof. induction l as [|x l IH]; intros H; [reflexivity|]. cbn. rewrite (H x) by now left. cbn. rewrite IH by (intros; apply H; now right). reflexivity. Qed.
Lemma get_map_names {V} (g : str -> V) names k : get (map (fun n => (n, g n)) names) k = if mem k names then Some (g k) else None.
Proof. induction names as [|n l IH]; [reflexivity|]. cbn. destruct (str_eqb_spec k n) as [->|N]; [reflexivity|exact IH]. Qed.
Lemma get_transform (T : str -> R -> R) d k : get (transform T d) k = option_map (T k) (get d k).
Proof. unfold transform. induction d as [|[n v] d IH]; [reflexivity|]. cbn. destruct (str_eqb_spec k n) as [->|N]; [reflexivity|exact IH]. Qed.
Lemma ci_free_eq T fitted minos names : (forall k, In k names -> get fitted k <> None) ->
  ci_free T fitted minos names = Ok (map (fun k => let v := match get fitted k with Some v => v | None => 0 end in (k, (T k (v + fst (minos k)), T k (v + snd (minos k))))) names).
Proof.
  intros H. unfold ci_free. cbv zeta. set (others := filter _ fitted). set (val := fun k => match get fitted k with Some v => v | None => 0 end).
  assert (E : forall side : R * R -> R, mapE (fun k => bind (opt_res KeyError (get fitted k)) (fun v => Ok (k, v + side (minos k)))) names = Ok (map (fun k => (k, val k + side (minos k))) names)).
  { intros side. apply mapE_ok. intros k Hk. unfold val. destruct (get fitted k) eqn:G; [reflexivity|]. now apply H in G. }
  rewrite !E. cbn [bind].
  assert (G : forall side : R * R -> R, forall k, In k names -> get (transform T (puts (map (fun k => (k, val k + side (minos k))) names) others)) k = Some (T k (val k + side (minos k)))).
  { intros side k Hk. rewrite get_transform, get_puts_absent.
    - rewrite get_map_names. apply mem_spec in Hk. now rewrite Hk.
    - intros Hin. apply in_map_iff in Hin as (e & <- & He). unfold others in He. apply filter_In in He as (_ & He). apply mem_spec in Hk. rewrite Hk in He. discriminate. }
  erewrite mapE_ok; [reflexivity|]. intros k Hk. cbv beta. rewrite !G by exact Hk. reflexivity.
Qed.
(** each interval comes from the offsets of that parameter alone, whatever else is asked for *)
Theorem C84_free : forall T fitted minos names k v r, In k names -> get fitted k = Some v -> ci_free T fitted minos names = Ok r ->
  map fst r = names /\ get r k = Some (T k (v + fst (minos k)), T k (v + snd (minos k))).
Proof.
  intros T fitted minos names k v r Hk Hv H.
  assert (D : forall k, In k names -> get fitted k <> None).
  { intros n Hn G. unfold ci_free in H. cbv zeta in H. set (f := fun k => bind (opt_res KeyError (get fitted k)) (fun v => Ok (k, v + fst (minos k)))) in H.
    assert (X : exists e, mapE f names = Err e).
    { clear - Hn G. induction names as [|m l IH]; [destruct Hn|]. cbn. destruct Hn as [-> | Hn]; [unfold f at 1; rewrite G; cbn; eauto|]. destruct (IH Hn) as (e & ->). destruct (f m); cbn; eauto. }
    destruct X as (e & X). rewrite X in H. discriminate. }
  rewrite ci_free_eq in H by exact D. injection H as <-. split; [rewrite map_map; cbn; apply map_id|].
  rewrite (get_map_names (fun k => (T k (match get fitted k with Some v => v | None => 0 end + fst (minos k)), T k (match get fitted k with Some v => v | None => 0 end + snd (minos k))))). apply mem_spec in Hk. rewrite Hk, Hv. reflexivity.
Qed.
Print Assumptions C84_free.
(** with increasing transforms the interval holds the fitted value, its errors have the right sign, and it grows with the offsets *)
Theorem C84_free_contains : forall T fitted minos minos' names k v r r' a b a' b', In k names -> get fitted k = Some v ->
  (forall x y, x < y -> T k x < T k y) -> fst (minos k) <= 0 <= snd (minos k) ->
  ci_free T fitted minos names = Ok r -> get r k = Some (a, b) ->
  a <= T k v <= b /\ fst (errors_of (a, b) (T k v)) <= 0 <= snd (errors_of (a, b) (T k v)) /\ (a = T k v <-> fst (minos k) = 0) /\ (b = T k v <-> snd (minos k) = 0) /\
  (ci_free T fitted minos' names = Ok r' -> get r' k = Some (a', b') -> fst (minos' k) <= fst (minos k) -> snd (minos k) <= snd (minos' k) -> a' <= a /\ b <= b').
Proof.
  intros T fitted minos minos' names k v r r' a b a' b' Hk Hv Mono (L & U) H G. destruct (C84_free _ _ _ _ _ _ _ Hk Hv H) as (_ & E). rewrite G in E. injection E as -> ->.
  assert (Le : forall x y, x <= y -> T k x <= T k y) by (intros x y [Lt|<-]; [left; now apply Mono|lra]).
  assert (Inj : forall x y, T k x = T k y -> x = y) by (intros x y E; destruct (Rtotal_order x y) as [Q|[Q|Q]]; [apply Mono in Q; lra|exact Q|apply Mono in Q; lra]).
  assert (X : T k (v + fst (minos k)) <= T k v <= T k (v + snd (minos k))) by (split; apply Le; lra).
  split; [exact X|]. split; [unfold errors_of; cbn [fst snd]; lra|]. split; [split; [intros E; apply Inj in E; lra|intros ->; f_equal; lra]|]. split; [split; [intros E; apply Inj in E; lra|intros ->; f_equal; lra]|].
  intros H' G' L' U'. destruct (C84_free _ _ _ _ _ _ _ Hk Hv H') as (_ & E). rewrite G' in E. injection E as -> ->. split; apply Le; lra.
Qed.
Print Assumptions C84_free_contains.
(** refuted for decreasing transforms, which numpyro uses for priors with an upper bound only: lower and upper end are swapped *)
Theorem C84_swapped_refuted : forall T fitted minos names k v r a b, In k names -> get fitted k = Some v ->
  (forall x y, x < y -> T k y < T k x) -> fst (minos k) < 0 < snd (minos k) ->
  ci_free T fitted minos names = Ok r -> get r k = Some (a, b) -> b < T k v < a /\ snd (errors_of (a, b) (T k v)) < 0 < fst (errors_of (a, b) (T k v)).
Proof.
  intros T fitted minos names k v r a b Hk Hv Mono (L & U) H G. destruct (C84_free _ _ _ _ _ _ _ Hk Hv H) as (_ & E). rewrite G in E. injection E as -> ->.
  assert (T k (v + snd (minos k)) < T k v) by (apply Mono; lra). assert (T k v < T k (v + fst (minos k))) by (apply Mono; lra). unfold errors_of. cbn [fst snd]. lra.
Qed.
Print Assumptions C84_swapped_refuted.
Example C84_swapped_ex : exists r, ci_free (fun _ x => 5 - exp x) [(s2l "a", 0)] (fun _ => (-1, 1)) [s2l "a"] = Ok r /\ get r (s2l "a") = Some (5 - exp (0 + -1), 5 - exp (0 + 1)) /\
  (forall x y, x < y -> 5 - exp y < 5 - exp x).
Proof. eexists. split; [reflexivity|]. split; [reflexivity|]. intros x y H. apply exp_increasing in H. lra. Qed.

(** ** profiling before and after the transforms is the same thing *)
Theorem C84_invariance : forall T U (dom : str -> R -> Prop) (free : list str) (deviance : (str -> R) -> R) k x v, In k free ->
  (forall n y, dom n (T n y)) -> (forall n y, U n (T n y) = y) -> (forall n y, dom n y -> T n (U n y) = y) ->
  (forall p p', (forall n, In n free -> p n = p' n) -> deviance p = deviance p') ->
  (profile (fun _ => True) (unconstrained T deviance) (fun u => u k) x v <-> profile (fun p => forall n, In n free -> dom n (p n)) deviance (fun p => p k) (T k x) v).
Proof.
  intros T U dom free deviance k x v Hk D1 I1 I2 Ext.
  assert (A : forall b, (forall u : str -> R, True -> u k = x -> b <= unconstrained T deviance u) <-> (forall p : str -> R, (forall n, In n free -> dom n (p n)) -> p k = T k x -> b <= deviance p)).
  { intros b. split.
    - intros H p Hp E. rewrite (Ext p (fun n => T n (U n (p n)))) by (intros n Hn; symmetry; apply I2; auto). apply (H (fun n => U n (p n)) I). cbn. rewrite E. apply I1.
    - intros H u _ E. apply (H (fun n => T n (u n))); [intros; apply D1|]. cbn. now rewrite E. }
  unfold profile. split; intros (H1 & H2); (split; [now apply A|]); intros b Hb; apply H2; now apply A.
Qed.
Print Assumptions C84_invariance.
(** hence: if the minimizer's offsets are where the profile has risen by delta, so are the reported ends *)
Theorem C84_ends : forall T U (dom : str -> R -> Prop) (free : list str) (deviance : (str -> R) -> R) fitted minos names k v r a b best delta, In k free ->
  (forall n y, dom n (T n y)) -> (forall n y, U n (T n y) = y) -> (forall n y, dom n y -> T n (U n y) = y) ->
  (forall p p', (forall n, In n free -> p n = p' n) -> deviance p = deviance p') ->
  In k names -> get fitted k = Some v -> ci_free T fitted minos names = Ok r -> get r k = Some (a, b) ->
  profile (fun _ => True) (unconstrained T deviance) (fun u => u k) (v + fst (minos k)) (best + delta) ->
  profile (fun _ => True) (unconstrained T deviance) (fun u => u k) (v + snd (minos k)) (best + delta) ->
  profile (fun p => forall n, In n free -> dom n (p n)) deviance (fun p => p k) a (best + delta) /\ profile (fun p => forall n, In n free -> dom n (p n)) deviance (fun p => p k) b (best + delta).
Proof.
  intros T U dom free deviance fitted minos names k v r a b best delta Hk D1 I1 I2 Ext Hn Hv H G P1 P2. destruct (C84_free _ _ _ _ _ _ _ Hn Hv H) as (_ & E). rewrite G in E. injection E as -> ->.
  split; eapply (C84_invariance T U dom free deviance k); eauto.
Qed.
Print Assumptions C84_ends.

(** ** functions of the parameters and composite parameters: the penalized deviance *)
(** whatever value the function can take within delta of the best deviance is accepted; and an accepted value is, up to a relative error
    of sqrt (rtol * delta), a value the function takes within delta *)
Theorem C84_penalty : forall (P : Type) (deviance fn : P -> R) rtol best delta x0, 0 < rtol -> x0 <> 0 -> (forall p, best <= deviance p) ->
  (forall p, fn p = x0 -> deviance p <= best + delta -> exists l, loss deviance fn rtol x0 p = Some l /\ l <= best + delta) /\
  (forall p l, loss deviance fn rtol x0 p = Some l -> l <= best + delta -> deviance p <= best + delta /\ Rabs (fn p / x0 - 1) <= sqrt (rtol * delta)).
Proof.
  intros P deviance fn rtol best delta x0 Hr Hx Hb. unfold loss. destruct (Reqb_spec x0 0) as [|_]; [contradiction|]. cbv zeta. split.
  - intros p E Hd. eexists. split; [reflexivity|]. rewrite E. replace ((x0 / x0 - 1) * (x0 / x0 - 1) / rtol) with 0 by (field; lra). lra.
  - intros p l E Hl. injection E as <-. set (s := fn p / x0 - 1) in *. assert (Q : 0 <= s * s / rtol) by (apply Rmult_le_pos; [nra|left; now apply Rinv_0_lt_compat]). split; [lra|].
    specialize (Hb p). assert (S : s * s <= rtol * delta). { assert (s * s / rtol <= delta) by lra. apply Rmult_le_reg_r with (/ rtol); [now apply Rinv_0_lt_compat|]. replace (rtol * delta * / rtol) with delta by (field; lra). exact H. }
    replace (Rabs s) with (sqrt (s * s)); [now apply sqrt_le_1_alt|]. apply sqrt_Rsqr_abs.
Qed.
Print Assumptions C84_penalty.
(** the fitted values together with the function value are the minimum of the penalized deviance *)
Theorem C84_penalty_minimum : forall (P : Type) (deviance fn : P -> R) rtol best, 0 < rtol -> (forall p, deviance best <= deviance p) -> fn best <> 0 ->
  loss deviance fn rtol (fn best) best = Some (deviance best) /\ (forall x0 p l, loss deviance fn rtol x0 p = Some l -> deviance best <= l).
Proof.
  intros P deviance fn rtol best Hr Hb Hf. unfold loss. split.
  - destruct (Reqb_spec (fn best) 0); [contradiction|]. cbv zeta. f_equal. field. split; lra.
  - intros x0 p l E. destruct (Reqb_spec x0 0); [discriminate|]. cbv zeta in E. injection E as <-. set (s := fn p / x0 - 1). assert (Q : 0 <= s * s / rtol) by (apply Rmult_le_pos; [nra|left; now apply Rinv_0_lt_compat]). specialize (Hb p). lra.
Qed.
Print Assumptions C84_penalty_minimum.
(** the tolerance used is the requested one, or at most hundred times as large, at most 0.01 and a hundredth of the relative error *)
Theorem C84_tolerance : forall accurate rtol rel_err, 0 < rtol -> let r := choose_rtol accurate rtol rel_err in
  rtol <= r /\ (r = rtol \/ (accurate r = true /\ accurate rtol = false /\ r <= 0.01 /\ r <= 0.01 * rel_err /\ r <= 100 * rtol)).
Proof.
  intros accurate rtol rel_err Hr. cbv zeta. unfold choose_rtol. destruct (accurate rtol) eqn:A; [split; [lra|now left]|]. set (m := Rmin _ _). destruct (Rltb_spec rtol m) as [L|]; [|split; [lra|now left]].
  destruct (find accurate (tl (geomspace rtol m 15))) as [r|] eqn:F; [|split; [lra|now left]]. apply find_some in F as (Hin & Ha).
  assert (B : rtol <= r <= m).
  { assert (Hin' : In r (geomspace rtol m 15)) by (destruct (geomspace rtol m 15); [destruct Hin|now right]). unfold geomspace in Hin'. apply in_map_iff in Hin' as (i & <- & Hi). apply in_seq in Hi.
    assert (Ln : 0 <= ln (m / rtol)). { rewrite <- ln_1. destruct (Req_dec 1 (m / rtol)) as [<-|N]; [lra|]. left. apply ln_increasing; [lra|]. assert (1 <= m / rtol); [|lra]. apply Rmult_le_reg_r with rtol; [lra|]. replace (m / rtol * rtol) with m by (field; lra). lra. }
    assert (Q : 0 <= INR i * (ln (m / rtol) / INR (15 - 1)) <= ln (m / rtol)).
    { assert (0 <= INR i) by apply pos_INR. assert (INR i <= 14) by (replace 14 with (INR 14) by (cbn; ring); apply le_INR; lia). replace (INR (15 - 1)) with 14 by (cbn; ring). split.
      - apply Rmult_le_pos; [lra|]. apply Rmult_le_pos; lra.
      - replace (INR i * (ln (m / rtol) / 14)) with (INR i / 14 * ln (m / rtol)) by field. nra. }
    destruct Q as (Q1 & Q2). set (z := INR i * _) in *. assert (1 <= exp z). { rewrite <- exp_0. destruct Q1 as [Q1 | <-]; [left; now apply exp_increasing|lra]. }
    assert (exp z <= m / rtol). { rewrite <- (exp_ln (m / rtol)) by (apply Rdiv_lt_0_compat; lra). destruct Q2 as [Q2 | ->]; [left; now apply exp_increasing|lra]. }
    split; [nra|]. replace m with (rtol * (m / rtol)) by (field; lra). apply Rmult_le_compat_l; lra. }
  split; [lra|]. right. split; [exact Ha|]. split; [reflexivity|]. pose proof (Rmin_l 0.01 (Rmin (0.01 * rel_err) (100 * rtol))). pose proof (Rmin_r 0.01 (Rmin (0.01 * rel_err) (100 * rtol))). pose proof (Rmin_l (0.01 * rel_err) (100 * rtol)). pose proof (Rmin_r (0.01 * rel_err) (100 * rtol)). fold m in H, H0. lra.
Qed.
Print Assumptions C84_tolerance.
(** refuted: functions that vanish at the fit cannot be profiled, and tolerances that are zero or negative pass the check, for which the
    penalized deviance has no minimum *)
Theorem C84_fn_refuted :
  (forall (P : Type) (deviance fn : P -> R) rtol best, fn best = 0 -> loss deviance fn rtol (fn best) best = None) /\
  (forall d, check_rtol d = Ok tt <-> forall e, In e d -> snd e <= 0.01) /\
  (forall (P : Type) (deviance fn : P -> R) rtol p, rtol < 0 -> fn p <> 0 -> forall bound, exists x0 l, loss deviance fn rtol x0 p = Some l /\ l < bound).
Proof.
  split; [|split].
  - intros P deviance fn rtol best E. unfold loss. rewrite E. destruct (Reqb_spec 0 0); [reflexivity|contradiction].
  - intros d. unfold check_rtol. match goal with |- context [existsb ?g d] => destruct (existsb g d) eqn:E end; (split; [|try reflexivity]).
    + discriminate.
    + intros H. apply existsb_exists in E as (e & He & L). apply Rltb_true in L. specialize (H e He). lra.
    + intros _ e He. destruct (Rle_or_lt (snd e) 0.01) as [|L]; [assumption|]. exfalso.
      match type of E with ?t = false => assert (X : t = true); [|congruence] end. apply existsb_exists. exists e. split; [exact He|]. destruct (Rltb_spec 0.01 (snd e)); [reflexivity|lra].
  - intros P deviance fn rtol p Hr Hf bound. set (m := Rmax 1 (- rtol * (deviance p - bound + 1))). assert (M1 : 1 <= m) by apply Rmax_l. assert (M2 : - rtol * (deviance p - bound + 1) <= m) by apply Rmax_r.
    assert (X : fn p / (1 + m) <> 0) by (apply Rmult_integral_contrapositive_currified; [exact Hf|apply Rinv_neq_0_compat; lra]).
    exists (fn p / (1 + m)). unfold loss. destruct (Reqb_spec (fn p / (1 + m)) 0); [contradiction|]. cbv zeta. eexists. split; [reflexivity|].
    replace (fn p / (fn p / (1 + m)) - 1) with m by (field; split; lra).
    assert (m * m / rtol <= m / rtol). { apply Rmult_le_reg_r with (- rtol); [lra|]. replace (m * m / rtol * - rtol) with (- (m * m)) by (field; lra). replace (m / rtol * - rtol) with (- m) by (field; lra). nra. }
    assert (m / rtol <= - (deviance p - bound + 1)). { apply Rmult_le_reg_r with (- rtol); [lra|]. replace (m / rtol * - rtol) with (- m) by (field; lra). lra. }
    lra.
Qed.
Print Assumptions C84_fn_refuted.
(** ** the whole answer *)
(** an invalid fit gives nan for everything; otherwise every requested parameter and function has its interval *)
Theorem C84_answer : forall T valid fitted minos free comp fns r, (forall k, In k free -> get fitted k <> None) ->
  NoDup (free ++ map fst comp ++ map fst fns) -> ci_profile T valid fitted minos free comp fns = Ok r ->
  forall k, In k (free ++ map fst comp ++ map fst fns) ->
  if valid then exists a b, get r k = Some (Some (a, b)) /\
    ((In k free /\ exists v, get fitted k = Some v /\ a = T k (v + fst (minos k)) /\ b = T k (v + snd (minos k))) \/
     (exists v, In (k, v) (comp ++ fns) /\ a = v + fst (minos k) /\ b = v + snd (minos k)))
  else get r k = Some None.
Proof.
  intros T valid fitted minos free comp fns r Hf N H k Hk. unfold ci_profile in H. destruct valid; cbn [negb] in H.
  - rewrite ci_free_eq in H by exact Hf. cbn [bind] in H. injection H as <-.
    assert (G : forall (d : dict (R * R)), get (map (fun e : str * (R * R) => (fst e, Some (snd e))) d) k = option_map Some (get d k)).
    { induction d as [|[n v] d IH]; [reflexivity|]. cbn. destruct (str_eqb k n); [reflexivity|exact IH]. }
    rewrite G. clear G.
    assert (Keys : forall d, map fst (ci_fn d minos) = map fst d) by (intros d; unfold ci_fn; rewrite map_map; reflexivity).
    assert (NA : forall (a b : list str), NoDup (a ++ b) -> NoDup a /\ NoDup b /\ (forall x, In x a -> ~ In x b)).
    { induction a as [|x a IH]; intros b Hn; [split; [constructor|split; [exact Hn|intros x []]]|]. cbn in Hn. inversion Hn as [|? ? Hx Hr]; subst. destruct (IH b Hr) as (A & B & C). split; [constructor; [intros X; apply Hx, in_or_app; now left|exact A]|]. split; [exact B|]. intros y [<-|Hy]; [intros X; apply Hx, in_or_app; now right|now apply C]. }
    destruct (NA _ _ N) as (N1 & N23 & Dj1). destruct (NA _ _ N23) as (N2 & N3 & Dj2).
    assert (In_ci : forall d v, In (k, v) d -> In (k, (v + fst (minos k), v + snd (minos k))) (ci_fn d minos)) by (intros d v Hin; unfold ci_fn; apply in_map_iff; exists (k, v); auto).
    apply in_app_or in Hk as [Hk|Hk]; [|apply in_app_or in Hk as [Hk|Hk]].
    + rewrite !get_puts_absent by (rewrite Keys; intros X; apply (Dj1 k Hk), in_or_app; auto).
      rewrite (get_map_names (fun k => (T k (match get fitted k with Some v => v | None => 0 end + fst (minos k)), T k (match get fitted k with Some v => v | None => 0 end + snd (minos k))))).
      rewrite (proj2 (mem_spec _ _) Hk). destruct (get fitted k) as [v|] eqn:Gv; [|now apply Hf in Gv]. do 2 eexists. split; [reflexivity|]. left. split; [exact Hk|]. exists v. auto.
    + apply in_map_iff in Hk as ([k' v] & E & Hin). cbn in E. subst k'. rewrite get_puts_absent by (rewrite Keys; apply Dj2; apply in_map_iff; exists (k, v); auto).
      rewrite (get_puts k (v + fst (minos k), v + snd (minos k))) by (rewrite ?Keys; auto). do 2 eexists. split; [reflexivity|]. right. exists v. split; [apply in_or_app; now left|auto].
    + apply in_map_iff in Hk as ([k' v] & E & Hin). cbn in E. subst k'.
      rewrite (get_puts k (v + fst (minos k), v + snd (minos k))) by (rewrite ?Keys; auto). do 2 eexists. split; [reflexivity|]. right. exists v. split; [apply in_or_app; now right|auto].
  - injection H as <-. rewrite (get_map_names (fun _ => None)). now rewrite (proj2 (mem_spec _ _) Hk).
Qed.
Print Assumptions C84_answer.
Example C84_ex : exists r, ci_profile (fun _ x => exp x) true [(s2l "a", 0); (s2l "b", 1)] (fun _ => (-1, 2)) [s2l "b"] [(s2l "c", 3)] [(s2l "f", 4)] = Ok r /\
  get r (s2l "b") = Some (Some (exp (1 + -1), exp (1 + 2))) /\ get r (s2l "c") = Some (Some (3 + -1, 3 + 2)) /\ get r (s2l "a") = None.
Proof. eexists. split; [reflexivity|]. repeat split; reflexivity. Qed.
