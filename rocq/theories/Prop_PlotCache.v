(** C49, C69: the quantities shown in plots of simulated results. *)
From Verif Require Import RBase Data DataProofs HelperData HelperDataProofs FitInput Results Summary ResultsProofs SummaryProofs PlotCache PlotCacheProofs SimulateProofs.
From Coq Require Import List.
Open Scope list_scope.

Lemma mle_leaf_spec a b : reflect (a = b) (mle_leaf_eqb a b). Proof. destruct a, b; constructor; congruence. Qed.
Lemma mle_top_spec a b : reflect (a = b) (mle_top_eqb a b). Proof. destruct a, b; constructor; congruence. Qed.
Lemma post_leaf_spec a b : reflect (a = b) (post_leaf_eqb a b). Proof. destruct a, b; constructor; congruence. Qed.
Lemma post_top_spec a b : reflect (a = b) (post_top_eqb a b). Proof. destruct a, b; constructor; congruence. Qed.

(** ** C49 *)
Section C49.
Variables (fx : fixed) (mf : sims) (none_id : Z).
Definition mle_events := events mle_leaf_eqb mle_top_eqb none_id (mle_lbody fx) (mle_uses fx) (mle_tbody fx).
Definition post_events := events post_leaf_eqb post_top_eqb none_id (post_lbody mf) (post_uses fx) (post_tbody fx mf).
(** an answer is up to date if a plot made at this moment, with empty caches, gives the same *)
Definition mle_up_to_date (s : plot_data sims mle_leaf mle_top) (m : method mle_leaf mle_top) : Prop :=
  fst (mle_query fx none_id m s) = fst (mle_query fx none_id m (new_plot_data none_id (cur s))).
Definition post_up_to_date (s : plot_data sims post_leaf post_top) (m : method post_leaf post_top) : Prop :=
  fst (post_query fx mf none_id m s) = fst (post_query fx mf none_id m (new_plot_data none_id (cur s))).
Definition first_id (o : option (obj sims)) : Z := match o with None => none_id | Some o => o_id o end.

(** if no identity is ever used twice (for instance because all results are kept by the caller) *)
Theorem C49_distinct_identities_partial :
  (forall o h, NoDup (first_id o :: new_ids h) -> forall m, mle_up_to_date (mle_events (new_plot_data none_id o) h) m) /\
  (forall o h, NoDup (first_id o :: new_ids h) -> forall m, post_up_to_date (post_events (new_plot_data none_id o) h) m).
Proof.
  assert (D : forall (i : Z) l, NoDup (i :: l) -> NoDup l /\ forall j, In j l -> ~ In j [i]).
  { intros i l H. inversion H as [|? ? N Nd]; subst. split; [exact Nd|]. intros j Hj [->|[]]. now apply N. }
  split; intros o h Nd m; apply D in Nd as [Nd Dj]; unfold mle_up_to_date, post_up_to_date, mle_query, post_query.
  - pose proof (events_fresh mle_leaf_eqb mle_top_eqb mle_leaf_spec mle_top_spec none_id (mle_lbody fx) (mle_uses fx) (mle_tbody fx) h (new_plot_data none_id o) [first_id o]
      (new_good none_id _ _ _ o)) as G. specialize (G ltac:(split; [now left|split; intros ?; now left]) Nd Dj). fold mle_events in G. set (s := mle_events _ h) in *.
    pose proof (query_fresh _ _ mle_leaf_spec mle_top_spec none_id (mle_lbody fx) (mle_uses fx) (mle_tbody fx) m s G) as Q.
    pose proof (query_fresh _ _ mle_leaf_spec mle_top_spec none_id (mle_lbody fx) (mle_uses fx) (mle_tbody fx) m (new_plot_data none_id (cur s)) (new_good none_id _ _ _ _)) as Q'.
    destruct (query _ _ _ _ _ _ m s) as [r s']. destruct (query _ _ _ _ _ _ m (new_plot_data none_id (cur s))) as [r' s'']. cbn [fst]. destruct Q as (-> & _). destruct Q' as (-> & _). reflexivity.
  - pose proof (events_fresh post_leaf_eqb post_top_eqb post_leaf_spec post_top_spec none_id (post_lbody mf) (post_uses fx) (post_tbody fx mf) h (new_plot_data none_id o) [first_id o]
      (new_good none_id _ _ _ o)) as G. specialize (G ltac:(split; [now left|split; intros ?; now left]) Nd Dj). fold post_events in G. set (s := post_events _ h) in *.
    pose proof (query_fresh _ _ post_leaf_spec post_top_spec none_id (post_lbody mf) (post_uses fx) (post_tbody fx mf) m s G) as Q.
    pose proof (query_fresh _ _ post_leaf_spec post_top_spec none_id (post_lbody mf) (post_uses fx) (post_tbody fx mf) m (new_plot_data none_id (cur s)) (new_good none_id _ _ _ _)) as Q'.
    destruct (query _ _ _ _ _ _ m s) as [r s']. destruct (query _ _ _ _ _ _ m (new_plot_data none_id (cur s))) as [r' s'']. cbn [fst]. destruct Q as (-> & _). destruct Q' as (-> & _). reflexivity.
Qed.

(** with reused identities: a result is made before the one it replaces is released, so that two consecutive ones differ.
    Then the answers are up to date provided every quantity that is shown has been shown since the previous replacement *)
Theorem C49_paced_partial :
  (forall used o h, paced used (first_id o) (fun _ => True) h -> forall m, used (class m) -> mle_up_to_date (mle_events (new_plot_data none_id o) h) m) /\
  (forall used o h, paced used (first_id o) (fun _ => True) h -> forall m, used (class m) -> post_up_to_date (post_events (new_plot_data none_id o) h) m).
Proof.
  assert (M1 : forall t c c', mle_uses fx t (Some c) = mle_uses fx t (Some c')) by reflexivity.
  assert (M2 : forall t, mle_uses fx t None = []) by reflexivity.
  assert (M3 : forall t c l, In l (mle_uses fx t (Some c)) -> exists v, mle_lbody fx l (Some c) 0 = Ok v).
  { intros t c l H. assert (l = SignBoot) as ->; [|eexists; reflexivity]. destruct t; cbn in H; [intuition congruence|]. destruct (with_back (fx_stat fx)); cbn in H; intuition congruence. }
  assert (P1 : forall t c c', post_uses fx t (Some c) = post_uses fx t (Some c')) by reflexivity.
  assert (P2 : forall t, post_uses fx t None = []) by reflexivity.
  assert (P3 : forall t c l, In l (post_uses fx t (Some c)) -> exists v, post_lbody mf l (Some c) 0 = Ok v) by (intros t c l _; destruct l; eexists; reflexivity).
  split; intros used o h P m U; unfold mle_up_to_date, post_up_to_date, mle_query, post_query.
  - destruct (paced_inv _ _ mle_leaf_spec mle_top_spec none_id (mle_lbody fx) (mle_uses fx) (mle_tbody fx) used M1 M2 M3 h (new_plot_data none_id o) _ (new_inv none_id _ _ _ _ o) ltac:(reflexivity) P) as (dn & I & N0).
    fold mle_events in I, N0. set (s := mle_events _ h) in *.
    pose proof (query_inv _ _ mle_leaf_spec mle_top_spec none_id (mle_lbody fx) (mle_uses fx) (mle_tbody fx) used M1 M2 M3 m s dn U I N0) as Q.
    pose proof (query_fresh _ _ mle_leaf_spec mle_top_spec none_id (mle_lbody fx) (mle_uses fx) (mle_tbody fx) m (new_plot_data none_id (cur s)) (new_good none_id _ _ _ _)) as Q'.
    destruct (query _ _ _ _ _ _ m s) as [r s']. destruct (query _ _ _ _ _ _ m (new_plot_data none_id (cur s))) as [r' s'']. cbn [fst]. destruct Q as (-> & _). destruct Q' as (-> & _). reflexivity.
  - destruct (paced_inv _ _ post_leaf_spec post_top_spec none_id (post_lbody mf) (post_uses fx) (post_tbody fx mf) used P1 P2 P3 h (new_plot_data none_id o) _ (new_inv none_id _ _ _ _ o) ltac:(reflexivity) P) as (dn & I & N0).
    fold post_events in I, N0. set (s := post_events _ h) in *.
    pose proof (query_inv _ _ post_leaf_spec post_top_spec none_id (post_lbody mf) (post_uses fx) (post_tbody fx mf) used P1 P2 P3 m s dn U I N0) as Q.
    pose proof (query_fresh _ _ post_leaf_spec post_top_spec none_id (post_lbody mf) (post_uses fx) (post_tbody fx mf) m (new_plot_data none_id (cur s)) (new_good none_id _ _ _ _)) as Q'.
    destruct (query _ _ _ _ _ _ m s) as [r s']. destruct (query _ _ _ _ _ _ m (new_plot_data none_id (cur s))) as [r' s'']. cbn [fst]. destruct Q as (-> & _). destruct Q' as (-> & _). reflexivity.
Qed.

(** the residuals of the simulations and their intervals follow *)
Lemma residuals_up_to_date s (rd : bool) : mle_up_to_date s (Top (if rd then DevianceBoot else PearsonBoot) 0) ->
  fst (residuals_sim fx none_id rd s) = fst (residuals_sim fx none_id rd (new_plot_data none_id (cur s))) /\
  forall cl sg, fst (residuals_ci fx none_id rd cl sg s) = fst (residuals_ci fx none_id rd cl sg (new_plot_data none_id (cur s))).
Proof.
  intros U. assert (E : fst (residuals_sim fx none_id rd s) = fst (residuals_sim fx none_id rd (new_plot_data none_id (cur s)))).
  { unfold residuals_sim. cbn [cur new_plot_data]. destruct (cur s) eqn:Ec; [|reflexivity]. unfold mle_up_to_date in U. rewrite Ec in U. exact U. }
  split; [exact E|]. intros cl sg. unfold residuals_ci. cbn [cur new_plot_data]. destruct (cur s) eqn:Ec; [|reflexivity]. destruct (_ || _)%bool; [reflexivity|].
  destruct (residuals_sim fx none_id rd s) as [r s1]. destruct (residuals_sim fx none_id rd (new_plot_data none_id _)) as [r' s2]. cbn [fst] in *. now subst r'.
Qed.
Theorem C49_residuals_partial : forall o h, NoDup (first_id o :: new_ids h) -> forall rd, let s := mle_events (new_plot_data none_id o) h in
  fst (residuals_sim fx none_id rd s) = fst (residuals_sim fx none_id rd (new_plot_data none_id (cur s))) /\
  forall cl sg, fst (residuals_ci fx none_id rd cl sg s) = fst (residuals_ci fx none_id rd cl sg (new_plot_data none_id (cur s))).
Proof. intros o h Nd rd. apply residuals_up_to_date. now apply (proj1 C49_distinct_identities_partial). Qed.
End C49.
Print Assumptions C49_distinct_identities_partial.
Print Assumptions C49_paced_partial.
Print Assumptions C49_residuals_partial.

(** Refuted in general: results A, B, C, where C happens to get the identity of A (released when B was stored): the residuals
    of A are shown for C *)
Definition one (x : R) : sims := {| m_x := [[0]]; m_on := [[1]]; m_off := []; d_x := [[1]]; d_on := [[1]]; d_off := []; dev := [[x]] |}.
Definition obj_of (i : Z) (x : R) : obj sims := {| o_id := i; o_c := one x |}.
Definition cstat1 : fixed := {| fx_stat := Cstat; fx_width := 1; fx_net_err := [1]; fx_back_err := [] |}.
Definition ex_history : list (event sims mle_leaf mle_top) := [Replace (obj_of 1 4); Call (Top DevianceBoot 0); Replace (obj_of 2 9); Replace (obj_of 1 16)].
Theorem C49_reused_identity_refuted :
  let s := mle_events cstat1 0 (new_plot_data 0 None) ex_history in
  cur s = Some (obj_of 1 16) /\
  fst (residuals_sim cstat1 0 true s) = Ok (Some [[2]]) /\
  fst (residuals_sim cstat1 0 true (new_plot_data 0 (cur s))) = Ok (Some [[4]]).
Proof.
  assert (Q4 : sqrt 4 = 2) by (replace 4 with (2 * 2) by lra; apply sqrt_square; lra). assert (Q16 : sqrt 16 = 4) by (replace 16 with (4 * 4) by lra; apply sqrt_square; lra).
  assert (S1 : Rleb 0 1 = true) by (destruct (Rleb_spec 0 1); [reflexivity|lra]).
  assert (R0 : forall A (a b : A), (if Req_EM_T 0 0 then a else b) = a) by (intros A a b; destruct (Req_EM_T 0 0); [reflexivity|easy]).
  cbn zeta. split; [reflexivity|]. split.
  - lazy -[Rleb Rmult sqrt IZR Req_EM_T]. rewrite !R0. rewrite S1, Q4. do 4 f_equal. lra.
  - lazy -[Rleb Rmult sqrt IZR Req_EM_T]. rewrite S1, Q16. do 4 f_equal. lra.
Qed.
Print Assumptions C49_reused_identity_refuted.
(** a history that is paced although it reuses an identity, and one without reuse *)
Example C49_ex : paced (fun x : mle_leaf + mle_top => x = inr DevianceBoot) 0 (fun _ => True)
    [Replace (obj_of 1 4); Call (Top DevianceBoot 0); Replace (obj_of 2 9); Call (Top DevianceBoot 0); Replace (obj_of 1 16)] /\
  NoDup (first_id 0 None :: new_ids [Replace (obj_of 1 4); @Call sims mle_leaf mle_top (Top DevianceBoot 0); Replace (obj_of 2 9)]).
Proof.
  split; [cbn; repeat split; try lia; intros x ->; tauto|]. repeat constructor; cbn; intuition lia.
Qed.

(** ** C69: what the residuals are *)
Definition shaped (n w : nat) (a : list (list R)) : Prop := length a = n /\ Forall (fun r => length r = w) a.
Definition entry (a : list (list R)) (i j : nat) : R := nth j (nth i a []) 0.
(** all arrays of a result with [n] simulations and [w] channels; those of the background only when there is one *)
Record sims_shaped (n w : nat) (back : bool) (b : sims) : Prop := { sh_mx : shaped n w (m_x b); sh_mon : shaped n w (m_on b); sh_moff : back = true -> shaped n w (m_off b);
  sh_dx : shaped n w (d_x b); sh_don : shaped n w (d_on b); sh_doff : back = true -> shaped n w (d_off b); sh_dev : shaped n w (dev b) }.
Lemma zip2_nth {A B D} (f : A -> B -> D) l m da db dd : forall i, (i < length l)%nat -> (i < length m)%nat -> nth i (zip2 f l m) dd = f (nth i l da) (nth i m db).
Proof.
  revert m. induction l as [|x l IH]; intros m i Hl Hm; [cbn in Hl; lia|]. destruct m as [|y m]; [cbn in Hm; lia|].
  change (zip2 f (x :: l) (y :: m)) with (f x y :: zip2 f l m). destruct i; [reflexivity|]. cbn [nth]. apply IH; cbn in *; lia.
Qed.
Lemma zip2_len {A B D} (f : A -> B -> D) l m : length l = length m -> length (zip2 f l m) = length l.
Proof. revert m. induction l as [|x l IH]; intros [|y m] H; try discriminate; [reflexivity|]. change (zip2 f (x :: l) (y :: m)) with (f x y :: zip2 f l m). cbn in *. f_equal. apply IH. lia. Qed.
Lemma shaped_row n w a i : shaped n w a -> (i < n)%nat -> length (nth i a []) = w.
Proof. intros [L F] H. rewrite Forall_forall in F. apply F, nth_In. lia. Qed.
Lemma shaped_zip {f : list R -> list R -> list R} n w a b : shaped n w a -> shaped n w b -> (forall x y, length x = w -> length y = w -> length (f x y) = w) -> shaped n w (zip2 f a b).
Proof.
  intros [La Fa] [Lb Fb] H. split; [rewrite zip2_len; congruence|]. clear n La Lb. revert b Fb. induction Fa as [|x a Hx Fa IH]; intros b Fb; [constructor|]. destruct Fb as [|y b Hy Fb]; [constructor|].
  change (zip2 f (x :: a) (y :: b)) with (f x y :: zip2 f a b). constructor; [now apply H|now apply IH].
Qed.
Lemma shaped_elem f n w a b : shaped n w a -> shaped n w b -> shaped n w (elementwise f a b).
Proof. intros A B. apply (shaped_zip (f := zip2 f)); [exact A|exact B|]. intros x y Hx Hy. rewrite zip2_len; congruence. Qed.
Lemma elem_entry f n w a b i j : shaped n w a -> shaped n w b -> (i < n)%nat -> (j < w)%nat -> entry (elementwise f a b) i j = f (entry a i j) (entry b i j).
Proof.
  intros A B Hi Hj. unfold entry, elementwise. rewrite (zip2_nth (zip2 f) a b [] []) by (destruct A, B; lia). apply zip2_nth; [rewrite (shaped_row n w a)|rewrite (shaped_row n w b)]; assumption.
Qed.
Lemma signs_entry n w d m i j : shaped n w d -> shaped n w m -> (i < n)%nat -> (j < w)%nat ->
  entry (signs d m) i j = if Rleb (entry m i j) (entry d i j) then 1 else -1.
Proof. intros. unfold signs. now rewrite (elem_entry _ n w). Qed.
(** the standard deviation of a count: its error for a Gaussian one, the square root of the model for a Poisson one *)
Definition std_of (gauss : bool) (err : list R) (m : R) (j : nat) : R := if gauss then nth j err 0 else sqrt m.
Lemma pearson_entry gauss err n w o e i j : shaped n w o -> shaped n w e -> (gauss = true -> length err = w) -> (i < n)%nat -> (j < w)%nat ->
  entry (pearson (if gauss then Some err else None) o e) i j = (entry o i j - entry e i j) / std_of gauss err (entry e i j) j.
Proof.
  intros A B L Hi Hj. unfold pearson. destruct gauss; [|now rewrite (elem_entry _ n w)].
  unfold entry. rewrite (zip2_nth _ o e [] []) by (destruct A, B; lia). pose proof (shaped_row n w o i A Hi). pose proof (shaped_row n w e i B Hi). specialize (L eq_refl).
  rewrite (zip2_nth _ _ _ 0 0) by (rewrite ?zip2_len by congruence; lia). rewrite (zip2_nth _ _ _ 0 0) by lia. reflexivity.
Qed.
Lemma pearson_shaped gauss err n w o e : shaped n w o -> shaped n w e -> (gauss = true -> length err = w) -> shaped n w (pearson (if gauss then Some err else None) o e).
Proof.
  intros A B L. unfold pearson. destruct gauss; [|now apply shaped_elem]. apply shaped_zip; [exact A|exact B|]. intros x y Hx Hy. rewrite !zip2_len; rewrite ?zip2_len; rewrite ?L; congruence.
Qed.
Lemma map_entry f n w a i j : shaped n w a -> (i < n)%nat -> (j < w)%nat -> entry (map (map f) a) i j = f (entry a i j).
Proof.
  intros A Hi Hj. unfold entry. rewrite (nth_indep _ [] (map f [])) by (rewrite map_length; destruct A; lia). rewrite map_nth.
  rewrite (nth_indep _ 0 (f 0)) by (rewrite map_length, (shaped_row n w a); assumption). apply map_nth.
Qed.
Lemma map_shaped f n w a : shaped n w a -> shaped n w (map (map f) a).
Proof. intros [L F]. split; [now rewrite map_length|]. apply Forall_map. eapply Forall_impl; [|exact F]. cbn. intros r H. now rewrite map_length. Qed.
Section C69.
Variables (fx : fixed) (none_id : Z).
Hypothesis errs : length (fx_net_err fx) = fx_width fx /\ length (fx_back_err fx) = fx_width fx.
Lemma fresh_of m o : fst (mle_query fx none_id m (new_plot_data none_id (Some o))) = fresh (mle_lbody fx) (mle_uses fx) (mle_tbody fx) m (Some (o_c o)).
Proof.
  pose proof (query_fresh _ _ mle_leaf_spec mle_top_spec none_id (mle_lbody fx) (mle_uses fx) (mle_tbody fx) m (new_plot_data none_id (Some o)) (new_good none_id _ _ _ _)) as Q'.
  unfold mle_query. destruct (query _ _ _ _ _ _ m _) as [r s]. destruct Q' as (-> & _). reflexivity.
Qed.
(** deviance residuals: the square is the deviance, the sign that of data minus model *)
Theorem C69_deviance : forall n o, sims_shaped n (fx_width fx) (with_back (fx_stat fx)) (o_c o) -> (forall i j, 0 <= entry (dev (o_c o)) i j) ->
  exists r, fst (residuals_sim fx none_id true (new_plot_data none_id (Some o))) = Ok (Some r) /\ shaped n (fx_width fx) r /\
  forall i j, (i < n)%nat -> (j < fx_width fx)%nat ->
    entry r i j * entry r i j = entry (dev (o_c o)) i j /\
    (entry (m_x (o_c o)) i j <= entry (d_x (o_c o)) i j -> 0 <= entry r i j) /\ (entry (d_x (o_c o)) i j < entry (m_x (o_c o)) i j -> entry r i j <= 0).
Proof.
  intros n o S P. destruct S as [Mx _ _ Dx _ _ Dv]. unfold residuals_sim. cbn [cur new_plot_data]. rewrite (fresh_of (Top DevianceBoot 0) o). cbn [fresh fresh_top mle_uses]. unfold fresh_top. cbn [mle_uses mapE mle_lbody bind mle_tbody].
  eexists. split; [reflexivity|]. pose proof (shaped_elem (fun d m => if Rleb m d then 1 else -1) n (fx_width fx) _ _ Dx Mx) as Sg. pose proof (map_shaped sqrt _ _ _ Dv) as Sd.
  split; [apply shaped_elem; [exact Sg|exact Sd]|]. intros i j Hi Hj. rewrite (elem_entry _ n (fx_width fx)) by (try exact Sg; assumption). rewrite (signs_entry n (fx_width fx)) by assumption.
  rewrite (map_entry _ n (fx_width fx)) by assumption. pose proof (sqrt_pos (entry (dev (o_c o)) i j)) as Q. pose proof (sqrt_sqrt _ (P i j)) as Q2.
  destruct (Rleb_spec (entry (m_x (o_c o)) i j) (entry (d_x (o_c o)) i j)); split; try nra; split; intros; nra.
Qed.
(** Pearson residuals: the distance of the counts from the model in units of the standard deviation; with a background the
    two distances are added in quadrature, with the sign of data minus model; for channels whose standard deviations are
    not 0 (otherwise the residual is NaN, see C111) *)
Theorem C69_pearson : forall n o, sims_shaped n (fx_width fx) (with_back (fx_stat fx)) (o_c o) ->
  exists r, fst (residuals_sim fx none_id false (new_plot_data none_id (Some o))) = Ok (Some r) /\ shaped n (fx_width fx) r /\
  forall i j, (i < n)%nat -> (j < fx_width fx)%nat -> let b := o_c o in
    let p := (entry (d_on b) i j - entry (m_on b) i j) / std_of (spec_normal (fx_stat fx)) (fx_net_err fx) (entry (m_on b) i j) j in
    let q := (entry (d_off b) i j - entry (m_off b) i j) / std_of (back_normal (fx_stat fx)) (fx_back_err fx) (entry (m_off b) i j) j in
    std_of (spec_normal (fx_stat fx)) (fx_net_err fx) (entry (m_on b) i j) j <> 0 ->
    (with_back (fx_stat fx) = true -> std_of (back_normal (fx_stat fx)) (fx_back_err fx) (entry (m_off b) i j) j <> 0) ->
    (with_back (fx_stat fx) = false -> entry r i j = p) /\
    (with_back (fx_stat fx) = true -> entry r i j * entry r i j = p * p + q * q /\
      (entry (m_x b) i j <= entry (d_x b) i j -> 0 <= entry r i j) /\ (entry (d_x b) i j < entry (m_x b) i j -> entry r i j <= 0)).
Proof.
  intros n o S. destruct S as [Mx Mon Mof Dx Don Dof _]. unfold residuals_sim. cbn [cur new_plot_data]. rewrite (fresh_of (Top PearsonBoot 0) o). cbn [fresh]. unfold fresh_top. cbn [mle_uses].
  pose proof (pearson_shaped (spec_normal (fx_stat fx)) (fx_net_err fx) _ _ _ _ Don Mon (fun _ => proj1 errs)) as Son.
  destruct (with_back (fx_stat fx)) eqn:W; cbn [mapE mle_lbody bind mle_tbody]; (eexists; split; [reflexivity|]).
  - specialize (Dof eq_refl). specialize (Mof eq_refl). pose proof (pearson_shaped (back_normal (fx_stat fx)) (fx_back_err fx) _ _ _ _ Dof Mof (fun _ => proj2 errs)) as Sof.
    pose proof (shaped_elem (fun d m => if Rleb m d then 1 else -1) n (fx_width fx) _ _ Dx Mx) as Sg. pose proof (shaped_elem (fun r rb => sqrt (r * r + rb * rb)) _ _ _ _ Son Sof) as Sd.
    split; [apply shaped_elem; [exact Sg|exact Sd]|]. intros i j Hi Hj. cbn zeta. intros _ _. split; [discriminate|]. intros _.
    rewrite (elem_entry _ n (fx_width fx)) by (try exact Sg; assumption). rewrite (signs_entry n (fx_width fx)) by assumption. rewrite (elem_entry _ n (fx_width fx)) by assumption.
    unfold pearson_on, pearson_off. rewrite (pearson_entry _ _ n (fx_width fx)) by (try assumption; intros _; apply errs). rewrite (pearson_entry _ _ n (fx_width fx)) by (try assumption; intros _; apply errs).
    set (p := _ / _). set (q := _ / _). assert (P : 0 <= p * p + q * q) by nra. pose proof (sqrt_pos (p * p + q * q)) as Q. pose proof (sqrt_sqrt _ P) as Q2.
    destruct (Rleb_spec (entry (m_x (o_c o)) i j) (entry (d_x (o_c o)) i j)); split; try nra; split; intros; nra.
  - split; [exact Son|]. intros i j Hi Hj. cbn zeta. intros _ _. split; [|discriminate]. intros _. unfold pearson_on. now rewrite (pearson_entry _ _ n (fx_width fx)) by (try assumption; intros _; apply errs).
Qed.
(** the band of the residuals: symmetric (with the nominal proportion of simulations inside), or central *)
Lemma f2_length {A B} (P : A -> B -> Prop) l m : Forall2 P l m -> length l = length m.
Proof. induction 1; cbn; congruence. Qed.
Lemma quantile_rows_nth w a q l : quantile_rows w a q = Ok l -> length l = w /\ forall j, (j < w)%nat -> quantile (col a j) q = Ok (nth j l 0).
Proof.
  intros H. unfold quantile_rows in H. apply mapE_inv in H. split; [rewrite <- (f2_length _ _ _ H); apply seq_length|]. intros j Hj.
  assert (G : forall b l, Forall2 (fun x y => quantile (col a x) q = Ok y) (seq b w) l -> forall j, (j < w)%nat -> quantile (col a (b + j)) q = Ok (nth j l 0)).
  { clear. induction w as [|w IH]; intros b l F j Hj; [lia|]. cbn [seq] in F. inversion F as [|? y ? l' E F']; subst. destruct j as [|j]; [now rewrite Nat.add_0_r|]. cbn [nth]. rewrite <- Nat.add_succ_comm. apply IH; [exact F'|lia]. }
  exact (G O l H j Hj).
Qed.
Theorem C69_band : forall rd cl sg s r band, fst (residuals_sim fx none_id rd s) = Ok (Some r) -> fst (residuals_ci fx none_id rd cl sg s) = Ok (Some band) ->
  0 < cl < 1 /\ exists lo hi, band = [lo; hi] /\ length lo = fx_width fx /\ length hi = fx_width fx /\
  forall j, (j < fx_width fx)%nat ->
    let x := col r j in let m := INR (length x - 1) in nth j lo 0 <= nth j hi 0 /\
    if sg then forall k, (count (fun y => y <= nth j lo 0) x k -> (1 - cl) / 2 * m < INR k) /\ (count (fun y => nth j hi 0 <= y) x k -> (1 - cl) / 2 * m < INR k) /\
                         (count (fun y => nth j lo 0 <= y) x k -> (1 + cl) / 2 * m < INR k) /\ (count (fun y => y <= nth j hi 0) x k -> (1 + cl) / 2 * m < INR k)
    else nth j lo 0 = - nth j hi 0 /\
         forall k, (count (fun y => nth j lo 0 <= y <= nth j hi 0) x k -> cl * m < INR k) /\ (count (fun y => y <= nth j lo 0 \/ nth j hi 0 <= y) x k -> (1 - cl) * m < INR k).
Proof.
  intros rd cl sg s r band Hr H. unfold residuals_ci in H. destruct (cur s) eqn:Ec; [|discriminate]. destruct (Rleb_spec cl 0) as [|L0]; [discriminate|]. destruct (Rleb_spec 1 cl) as [|L1]; [discriminate|]. cbn [orb] in H.
  destruct (residuals_sim fx none_id rd s) as [r0 s']. cbn [fst] in *. subst r0. cbn [bind] in H. split; [lra|].
  assert (Lx : forall j, length (col r j) = length r) by (intros j; unfold col; now rewrite map_length).
  destruct sg.
  - apply bind_ok in H as (lo & Hl & H). apply bind_ok in H as (hi & Hh & H). injection H as <-. apply quantile_rows_nth in Hl as [Ll Hl]. apply quantile_rows_nth in Hh as [Lh Hh].
    exists lo, hi. split; [reflexivity|]. split; [exact Ll|]. split; [exact Lh|]. intros j Hj. cbn zeta. specialize (Hl j Hj). specialize (Hh j Hj). split; [apply (quantile_mono _ _ _ _ _ Hl Hh); lra|].
    intros k. repeat split; intros C; [pose proof (quantile_below _ _ _ _ Hl C)|pose proof (quantile_above _ _ _ _ Hh C)|pose proof (quantile_above _ _ _ _ Hl C)|pose proof (quantile_below _ _ _ _ Hh C)]; lra.
  - apply bind_ok in H as (q & Hq & H). injection H as <-. apply quantile_rows_nth in Hq as [Lq Hq]. exists (map Ropp q), q. split; [reflexivity|]. rewrite map_length. split; [exact Lq|]. split; [exact Lq|].
    intros j Hj. cbn zeta. specialize (Hq j Hj). assert (E : nth j (map Ropp q) 0 = - nth j q 0) by (rewrite <- (map_nth Ropp q 0 j), Ropp_0; reflexivity). rewrite E.
    assert (Ca : col (map (map Rabs) r) j = map Rabs (col r j)).
    { unfold col. rewrite !map_map. apply map_ext. intros x. rewrite <- (map_nth Rabs x 0 j), Rabs_R0. reflexivity. }
    rewrite Ca in Hq. destruct (quantile_range _ _ _ Hq) as ((a & Ha & La) & _). apply in_map_iff in Ha as (y & <- & _). pose proof (Rabs_pos y). split; [lra|]. split; [reflexivity|]. intros k.
    assert (Cm : forall (P Q : R -> Prop) l, (forall y, P y <-> Q (Rabs y)) -> count P l k -> count Q (map Rabs l) k).
    { intros P Q l HPQ Hc. induction Hc as [|y0 l n Hy Hc IH|y0 l n Hy Hc IH]; cbn [map]; [constructor|constructor; [now apply HPQ|exact IH]|constructor; [now rewrite <- HPQ|exact IH]]. }
    split; intros C.
    + apply (Cm _ (fun z => z <= nth j q 0)) in C; [|intros z; unfold Rabs; destruct (Rcase_abs z); split; intros; lra]. pose proof (quantile_below _ _ _ _ Hq C) as X. rewrite map_length in X. exact X.
    + apply (Cm _ (fun z => nth j q 0 <= z)) in C; [|intros z; unfold Rabs; destruct (Rcase_abs z); split; intros; lra]. pose proof (quantile_above _ _ _ _ Hq C) as X. rewrite map_length in X. exact X.
Qed.
(** the band of the model: in every channel the central proportion of the simulated models *)
Theorem C69_model_band : forall cl o band, fst (mle_query fx none_id (Leaf CeModelCi cl) (new_plot_data none_id (Some o))) = Ok (Some band) ->
  0 < cl < 1 /\ exists lo hi, band = [lo; hi] /\ length lo = fx_width fx /\ length hi = fx_width fx /\
  forall j, (j < fx_width fx)%nat ->
    let x := col (m_x (o_c o)) j in let m := INR (length x - 1) in nth j lo 0 <= nth j hi 0 /\
    forall k, (count (fun y => y <= nth j lo 0) x k -> (1 - cl) / 2 * m < INR k) /\ (count (fun y => nth j hi 0 <= y) x k -> (1 - cl) / 2 * m < INR k) /\
              (count (fun y => nth j lo 0 <= y) x k -> (1 + cl) / 2 * m < INR k) /\ (count (fun y => y <= nth j hi 0) x k -> (1 + cl) / 2 * m < INR k).
Proof.
  intros cl o band H. rewrite fresh_of in H. cbn [fresh mle_lbody] in H. destruct (Rleb_spec cl 0) as [|L0]; [discriminate|]. destruct (Rleb_spec 1 cl) as [|L1]; [discriminate|]. cbn [orb] in H. split; [lra|].
  apply bind_ok in H as (lo & Hl & H). apply bind_ok in H as (hi & Hh & H). injection H as <-. apply quantile_rows_nth in Hl as [Ll Hl]. apply quantile_rows_nth in Hh as [Lh Hh].
  exists lo, hi. split; [reflexivity|]. split; [exact Ll|]. split; [exact Lh|]. intros j Hj. cbn zeta. specialize (Hl j Hj). specialize (Hh j Hj). split; [apply (quantile_mono _ _ _ _ _ Hl Hh); lra|].
  intros k. repeat split; intros C; [pose proof (quantile_below _ _ _ _ Hl C)|pose proof (quantile_above _ _ _ _ Hh C)|pose proof (quantile_above _ _ _ _ Hl C)|pose proof (quantile_below _ _ _ _ Hh C)]; lra.
Qed.
(** a posterior: the residuals of the predictive check are those of its simulations, those of the best fit those of the best fit; both exist only
    once there is a predictive check *)
Variable mf : sims.
Lemma post_fresh_of m o : fst (post_query fx mf none_id m (new_plot_data none_id o)) = fresh (post_lbody mf) (post_uses fx) (post_tbody fx mf) m (option_map (o_c (C := sims)) o).
Proof.
  pose proof (query_fresh _ _ post_leaf_spec post_top_spec none_id (post_lbody mf) (post_uses fx) (post_tbody fx mf) m (new_plot_data none_id o) (new_good none_id _ _ _ _)) as Q'.
  unfold post_query. destruct (query _ _ _ _ _ _ m _) as [r s]. destruct Q' as (-> & _). destruct o; reflexivity.
Qed.
Theorem C69_posterior : forall n n' o, sims_shaped n (fx_width fx) (with_back (fx_stat fx)) (o_c o) -> sims_shaped n' (fx_width fx) (with_back (fx_stat fx)) mf ->
  (forall t, fst (post_query fx mf none_id (Top t 0) (new_plot_data none_id None)) = Ok None) /\
  forall t, exists r, fst (post_query fx mf none_id (Top t 0) (new_plot_data none_id (Some o))) = Ok (Some r) /\
    let '(b, m, dv) := match t with DevianceMle => (mf, n', true) | DeviancePpc => (o_c o, n, true) | PearsonMle => (mf, n', false) | PearsonPpc => (o_c o, n, false) end in
    forall i j, (i < m)%nat -> (j < fx_width fx)%nat ->
      let p := (entry (d_on b) i j - entry (m_on b) i j) / std_of (spec_normal (fx_stat fx)) (fx_net_err fx) (entry (m_on b) i j) j in
      let q := (entry (d_off b) i j - entry (m_off b) i j) / std_of (back_normal (fx_stat fx)) (fx_back_err fx) (entry (m_off b) i j) j in
      let signed := entry (m_x b) i j <= entry (d_x b) i j /\ 0 <= entry r i j \/ entry (d_x b) i j < entry (m_x b) i j /\ entry r i j <= 0 in
      if dv then 0 <= entry (dev b) i j -> entry r i j * entry r i j = entry (dev b) i j /\ signed
      else std_of (spec_normal (fx_stat fx)) (fx_net_err fx) (entry (m_on b) i j) j <> 0 ->
        if with_back (fx_stat fx) then std_of (back_normal (fx_stat fx)) (fx_back_err fx) (entry (m_off b) i j) j <> 0 ->
          entry r i j * entry r i j = p * p + q * q /\ signed else entry r i j = p.
Proof.
  intros n n' o S S'. split; [intros t; rewrite post_fresh_of; destruct t; reflexivity|].
  assert (D : forall m b i j, sims_shaped m (fx_width fx) (with_back (fx_stat fx)) b -> (i < m)%nat -> (j < fx_width fx)%nat -> 0 <= entry (dev b) i j ->
    let r := elementwise Rmult (signs (d_x b) (m_x b)) (map (map sqrt) (dev b)) in
    entry r i j * entry r i j = entry (dev b) i j /\ (entry (m_x b) i j <= entry (d_x b) i j /\ 0 <= entry r i j \/ entry (d_x b) i j < entry (m_x b) i j /\ entry r i j <= 0)).
  { clear. intros n b i j [Mx _ _ Dx _ _ Dv] Hi Hj P. cbv zeta. pose proof (shaped_elem (fun d m => if Rleb m d then 1 else -1) n (fx_width fx) _ _ Dx Mx) as Sg. pose proof (map_shaped sqrt _ _ _ Dv) as Sd.
    rewrite (elem_entry _ n (fx_width fx)) by (try exact Sg; assumption). rewrite (signs_entry n (fx_width fx)) by assumption.
    rewrite (map_entry _ n (fx_width fx)) by assumption. pose proof (sqrt_pos (entry (dev b) i j)) as Q. pose proof (sqrt_sqrt _ P) as Q2.
    destruct (Rleb_spec (entry (m_x b) i j) (entry (d_x b) i j)); (split; [nra|]); [left|right]; split; nra. }
  assert (P : forall m b i j, sims_shaped m (fx_width fx) true b -> (i < m)%nat -> (j < fx_width fx)%nat ->
    let r := elementwise Rmult (signs (d_x b) (m_x b)) (elementwise (fun r rb => sqrt (r * r + rb * rb)) (pearson_on fx b) (pearson_off fx b)) in
    let p := (entry (d_on b) i j - entry (m_on b) i j) / std_of (spec_normal (fx_stat fx)) (fx_net_err fx) (entry (m_on b) i j) j in
    let q := (entry (d_off b) i j - entry (m_off b) i j) / std_of (back_normal (fx_stat fx)) (fx_back_err fx) (entry (m_off b) i j) j in
    entry r i j * entry r i j = p * p + q * q /\ (entry (m_x b) i j <= entry (d_x b) i j /\ 0 <= entry r i j \/ entry (d_x b) i j < entry (m_x b) i j /\ entry r i j <= 0)).
  { clear - errs. intros n b i j [Mx Mon Mof Dx Don Dof _] Hi Hj. specialize (Mof eq_refl). specialize (Dof eq_refl). cbv zeta.
    pose proof (pearson_shaped (spec_normal (fx_stat fx)) (fx_net_err fx) _ _ _ _ Don Mon (fun _ => proj1 errs)) as Son.
    pose proof (pearson_shaped (back_normal (fx_stat fx)) (fx_back_err fx) _ _ _ _ Dof Mof (fun _ => proj2 errs)) as Sof.
    pose proof (shaped_elem (fun d m => if Rleb m d then 1 else -1) n (fx_width fx) _ _ Dx Mx) as Sg. pose proof (shaped_elem (fun r rb => sqrt (r * r + rb * rb)) _ _ _ _ Son Sof) as Sd.
    rewrite (elem_entry _ n (fx_width fx)) by (try exact Sg; assumption). rewrite (signs_entry n (fx_width fx)) by assumption. rewrite (elem_entry _ n (fx_width fx)) by assumption.
    unfold pearson_on, pearson_off. rewrite (pearson_entry _ _ n (fx_width fx)) by (try assumption; intros _; apply errs). rewrite (pearson_entry _ _ n (fx_width fx)) by (try assumption; intros _; apply errs).
    set (p := _ / _). set (q := _ / _). assert (PP : 0 <= p * p + q * q) by nra. pose proof (sqrt_pos (p * p + q * q)) as Q. pose proof (sqrt_sqrt _ PP) as Q2.
    destruct (Rleb_spec (entry (m_x b) i j) (entry (d_x b) i j)); (split; [nra|]); [left|right]; split; nra. }
  assert (N : forall m back b i j, sims_shaped m (fx_width fx) back b -> (i < m)%nat -> (j < fx_width fx)%nat ->
    entry (pearson_on fx b) i j = (entry (d_on b) i j - entry (m_on b) i j) / std_of (spec_normal (fx_stat fx)) (fx_net_err fx) (entry (m_on b) i j) j).
  { clear - errs. intros n back b i j [Mx Mon Mof Dx Don Dof _] Hi Hj. unfold pearson_on. now rewrite (pearson_entry _ _ n (fx_width fx)) by (try assumption; intros _; apply errs). }
  intros t. rewrite post_fresh_of. cbn [option_map fresh]. unfold fresh_top. destruct t; cbn [post_uses]; [| |destruct (with_back (fx_stat fx)) eqn:W|destruct (with_back (fx_stat fx)) eqn:W];
    cbn [mapE post_lbody bind post_tbody]; (eexists; split; [reflexivity|]); cbv zeta; intros i j Hi Hj; [intros Pd; now apply (D n')|intros Pd; now apply (D n)|intros _ _; now apply (P n')|intros _; now apply (N n' false)|intros _ _; now apply (P n)|intros _; now apply (N n false)].
Qed.
End C69.
Print Assumptions C69_model_band.
Print Assumptions C69_posterior.
Print Assumptions C69_band.
Print Assumptions C69_deviance.
Print Assumptions C69_pearson.
Example C69_ex : sims_shaped 1 1 false (one 4) /\ (forall i j, 0 <= entry (dev (one 4)) i j).
Proof.
  split; [constructor; try discriminate; split; try reflexivity; repeat constructor|]. intros [|[|i]] [|[|j]]; cbn; try lra; destruct i; cbn; try lra; destruct j; cbn; lra.
Qed.
