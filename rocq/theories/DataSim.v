(** Bad channels never influence a history of calls (C23). *)
From Verif Require Import RBase BaseFacts Grouping Scale ScaleProofs Significance Data DataProofs DataState DataFacts DataBad.

Lemma zip2_nth (f : R -> R -> R) x y k : length x = length y -> (k < length x)%nat ->
  nth k (zip2 f x y) 0 = f (nth k x 0) (nth k y 0).
Proof.
  revert y k; induction x as [|a x IH]; intros [|b y] k H Hk; try discriminate; [simpl in Hk; lia|].
  destruct k as [|k]; [reflexivity|]. cbn [zip2 nth]. apply IH; cbn in *; lia.
Qed.
Lemma agree_zip2 good (f : R -> R -> R) x y u v : agree good x y -> agree good u v -> length x = length u ->
  agree good (zip2 f x u) (zip2 f y v).
Proof.
  intros (L1 & N1) (L2 & N2) L3. split; [rewrite !zip2_length; lia|].
  intros k Hk. destruct (Nat.lt_ge_cases k (length x)) as [H|H].
  - rewrite !zip2_nth by lia. now rewrite (N1 k Hk), (N2 k Hk).
  - rewrite !nth_overflow by (rewrite zip2_length; lia). reflexivity.
Qed.

Record sim (o o' : obs) : Prop := {
  sm_g : o_good o = o_good o'; sm_er : o_erange o = o_erange o'; sm_fl : o_grouping o = o_grouping o';
  sm_s : same_good (o_good o) (o_spec o) (o_spec o'); sm_r : same_resp (o_good o) (o_resp o) (o_resp o');
  sm_b : opt_rel (same_good (o_good o)) (o_bk o) (o_bk o');
  sm_n : scale_net (o_spec o) (o_bk o) = scale_net (o_spec o') (o_bk o') }.

Lemma group_data_sim o o' pre : sim o o' -> group_data o pre = group_data o' pre.
Proof.
  intros [G Er Fl S Rr B N]. unfold group_data. rewrite <- G, N.
  rewrite (spectrum_group_agree _ _ pre (o_good o) (sg_c _ _ _ S) (sg_e _ _ _ S)).
  rewrite (group_scales_agree _ _ (scale_net (o_spec o') (o_bk o')) pre (o_good o) S).
  destruct (spectrum_group (o_spec o') pre (o_good o)) as [ce|]; [|reflexivity]. cbn [bind].
  destruct (group_scales (o_spec o') _ pre (o_good o)) as [sc|]; [|reflexivity]. cbn [bind].
  inversion B as [|x y Hxy E1 E2]; [reflexivity|].
  rewrite (spectrum_group_agree _ _ pre (o_good o) (sg_c _ _ _ Hxy) (sg_e _ _ _ Hxy)).
  rewrite (group_scales_agree _ _ false pre (o_good o) Hxy).
  rewrite (sg_x _ _ _ S), (sg_x _ _ _ Hxy). reflexivity.
Qed.

Lemma opt_counts_sim o o' n : sim o o' -> wf_spec (o_spec o) n -> (forall b, o_bk o = Some b -> wf_spec b n) ->
  agree (o_good o) (opt_counts o) (opt_counts o').
Proof.
  intros [G Er Fl S Rr B N] Ws Wb. unfold opt_counts. inversion B as [|x y Hxy E1 E2]; [apply S|].
  specialize (Wb x (eq_sym E1)).
  assert (Hr : agree (o_good o) (raw_ratio (o_spec o) x) (raw_ratio (o_spec o') y) /\ length (raw_ratio (o_spec o) x) = n).
  { unfold raw_ratio. rewrite (sg_x _ _ _ S), (sg_x _ _ _ Hxy). split.
    - apply (agree_zip2 _ (fun nu de => if Reqb de 0 then 1 else nu / de)).
      + apply agree_zip2; [apply agree_map, S|apply S|]. rewrite map_length, (ws_a _ _ Ws), (ws_b _ _ Ws). reflexivity.
      + apply agree_zip2; [apply agree_map, Hxy|apply Hxy|]. rewrite map_length, (ws_a _ _ Wb), (ws_b _ _ Wb). reflexivity.
      + rewrite !zip2_length, !map_length, (ws_a _ _ Ws), (ws_b _ _ Ws), (ws_a _ _ Wb), (ws_b _ _ Wb). reflexivity.
    - rewrite !zip2_length, !map_length, (ws_a _ _ Ws), (ws_b _ _ Ws), (ws_a _ _ Wb), (ws_b _ _ Wb). lia. }
  destruct Hr as (Hr & Hl). apply agree_zip2; [apply S| |].
  - apply agree_zip2; [exact Hr|apply Hxy|]. now rewrite Hl, (ws_c _ _ Wb).
  - rewrite zip2_length, Hl, (ws_c _ _ Wb), (ws_c _ _ Ws). lia.
Qed.

Lemma segment_sim o o' n d m sc mask : sim o o' -> wf_spec (o_spec o) n -> (forall b, o_bk o = Some b -> wf_spec b n) ->
  (is_opt m = true -> mask_good mask (o_good o)) ->
  segment o d m sc mask = segment o' d m sc mask.
Proof.
  intros H Ws Wb Hm. pose proof (opt_counts_sim o o' n H Ws Wb) as Ho. destruct H as [G Er Fl S Rr B N].
  assert (Hoc : is_opt m = true -> bmask mask (opt_counts o) = bmask mask (opt_counts o')).
  { intros Hi. now apply (bmask_agree mask (o_good o)), Ho; apply Hm. }
  unfold segment. rewrite (sr_w _ _ _ Rr), (sg_p _ _ _ S). unfold scales_of. rewrite (sg_x _ _ _ S).
  inversion B as [|x y Hxy E1 E2]; [destruct m; try reflexivity; rewrite Hoc by reflexivity; reflexivity|].
  rewrite (sg_x _ _ _ Hxy), (sg_p _ _ _ Hxy).
  destruct m; try reflexivity; rewrite Hoc by reflexivity; reflexivity.
Qed.

Lemma starts_ones n : length (starts (repeat 1%Z n)) = n.
Proof.
  unfold starts, flatnonzero. assert (H : forall k, length (fnz k (map (fun f => negb (f =? -1)%Z) (repeat 1%Z n))) = n).
  { induction n as [|n IH]; intros k; [reflexivity|]. cbn. now rewrite IH. }
  apply H.
Qed.
Lemma n_good_ones good n : length good = n -> n_good (repeat 1%Z n) good = map (fun b : bool => if b then 1 else 0)%nat good.
Proof.
  intros H. rewrite (n_good_bins _ good n (repeat_length _ _) H).
  rewrite (bins_full _ n (repeat_length _ _) (starts_ones n)), map_map.
  transitivity (map (fun b : bool => if b then 1 else 0)%nat (map (fun k => nth k good false) (seq 0 n))).
  - rewrite map_map. apply map_ext. intros i. rewrite idx_single. cbn [filter].
    unfold isgood. destruct (nth i good false); reflexivity.
  - now rewrite <- (as_map good false n H).
Qed.
Lemma zip2_andb_nth a b k : nth k (zip2 andb a b) false = true -> nth k b false = true.
Proof.
  revert b k; induction a as [|x a IH]; intros [|y b] [|k] H; try discriminate; cbn in *; auto.
  now apply andb_true_iff in H.
Qed.

Lemma mapM_ext {A B} (f g : A -> res B) l : (forall x, In x l -> f x = g x) -> mapM f l = mapM g l.
Proof.
  induction l as [|x l IH]; intros H; [reflexivity|]. cbn [mapM]. rewrite (H x (or_introl eq_refl)), IH; [reflexivity|].
  intros; apply H; now right.
Qed.

Lemma group_flags_sim o o' n m sc pr : sim o o' -> wf_spec (o_spec o) n -> (forall b, o_bk o = Some b -> wf_spec b n) ->
  length (o_good o) = n -> group_flags o m sc pr = group_flags o' m sc pr.
Proof.
  intros H Ws Wb Hg. unfold group_flags.
  assert (Esc : forall s1, (match sc, m with None, Gopt => Ok 0 | None, _ => Err ValueError | Some s, _ => Ok s end) = s1 -> True) by auto.
  destruct (match sc, m with None, Gopt => Ok 0 | None, _ => Err ValueError | Some s, _ => Ok s end) as [scale|e]; [|reflexivity].
  cbn [bind]. destruct (is_opt m && pr)%bool eqn:Eop; [reflexivity|].
  assert (Eg : s_grouping (o_spec o) = s_grouping (o_spec o')) by apply H.
  rewrite <- Eg. rewrite <- (sm_g _ _ H), <- (sm_er _ _ H).
  replace (group_energy (o_resp o')) with (group_energy (o_resp o)).
  2:{ unfold group_energy. now rewrite (sr_lo _ _ _ (sm_r _ _ H)), (sr_hi _ _ _ (sm_r _ _ H)). }
  set (pre := if pr then s_grouping (o_spec o) else repeat 1%Z (length (s_grouping (o_spec o)))).
  destruct (group_energy (o_resp o) pre) as [ge gx].
  rewrite <- (group_data_sim o o' pre H).
  destruct (group_data o pre) as [d|]; [|reflexivity]. cbn [bind].
  erewrite mapM_ext; [reflexivity|]. intros mask Hmask. apply (segment_sim o o' n); auto.
  intros Hop. rewrite Hop in Eop. cbn in Eop. subst pr.
  apply in_map_iff in Hmask as (row & <- & _). intros k Hk. apply zip2_andb_nth in Hk.
  unfold pre in Hk. rewrite (ws_g _ _ Ws), (n_good_ones _ n Hg), map_map in Hk. unfold isgood.
  destruct (Nat.lt_ge_cases k n) as [L|L]; [|rewrite nth_overflow in Hk by (rewrite map_length; lia); discriminate].
  set (f := fun b : bool => (1 <=? (if b then 1 else 0))%nat) in *.
  rewrite (nth_indep _ false (f false)) in Hk by (rewrite map_length; lia).
  rewrite (map_nth f) in Hk. unfold f in Hk.
  destruct (nth k (o_good o) false); [reflexivity|discriminate].
Qed.

Section Sim.
Variables (s s' : spectrum) (r r' : response) (b b' : option spectrum) (good : list bool) (n : nat).
Hypothesis Ws : wf_spec s n.
Hypothesis Wr : wf_resp r n.
Hypothesis Wb : forall x, b = Some x -> wf_spec x n.
Hypothesis Ws' : wf_spec s' n.
Hypothesis Wr' : wf_resp r' n.
Hypothesis Wb' : forall x, b' = Some x -> wf_spec x n.
Hypothesis Hg : length good = n.
Hypothesis Hn : (0 < n)%nat.
Hypothesis HS : same_good good s s'.
Hypothesis HR : same_resp good r r'.
Hypothesis HB : opt_rel (same_good good) b b'.
Hypothesis HN : scale_net s b = scale_net s' b'.

Lemma sim_of o o' : obs_ok s r b good n o -> obs_ok s' r' b' good n o' ->
  o_erange o = o_erange o' -> o_grouping o = o_grouping o' -> sim o o'.
Proof.
  intros [A1 A2 A3 A4 _ _ _ _] [B1 B2 B3 B4 _ _ _ _] E1 E2.
  constructor; rewrite ?A1, ?A2, ?A3, ?A4, ?B1, ?B2, ?B3, ?B4; auto.
Qed.
Lemma set_grouping_sim o o' g : obs_ok s r b good n o -> obs_ok s' r' b' good n o' ->
  o_erange o = o_erange o' -> o_grouping o = o_grouping o' ->
  let u := set_grouping_st o g in let v := set_grouping_st o' g in
  snd u = snd v /\ o_erange (fst u) = o_erange (fst v) /\ o_grouping (fst u) = o_grouping (fst v).
Proof.
  intros [A1 A2 A3 A4 A5 A6 A7 A8] [B1 B2 B3 B4 B5 B6 B7 B8] E1 E2. cbv zeta. unfold set_grouping_st.
  rewrite A1, A2, A3, A4, B1, B2, B3, B4.
  assert (Ec : choose_grouping s r g = choose_grouping s' r' g).
  { unfold choose_grouping. now rewrite (sg_g _ _ _ HS), (sr_lo _ _ _ HR). }
  rewrite <- Ec. destruct (choose_grouping s r g) as [fl|e] eqn:E; [|auto].
  apply (choose_ok s r n Wr) in E as (L & _).
  rewrite (expose_spec s r b good _ fl n Ws Wr Wb Hg L), (expose_spec s' r' b' good _ fl n Ws' Wr' Wb' Hg L).
  cbn. auto.
Qed.
Lemma step_sim o o' a : obs_ok s r b good n o -> obs_ok s' r' b' good n o' ->
  o_erange o = o_erange o' -> o_grouping o = o_grouping o' ->
  snd (step o a) = snd (step o' a) /\ o_erange (fst (step o a)) = o_erange (fst (step o' a)) /\
  o_grouping (fst (step o a)) = o_grouping (fst (step o' a)).
Proof.
  intros A B E1 E2. destruct a as [er|g|m sc pr]; cbn [step].
  - destruct (set_erange_st_inv s r b good n Ws Wr Wb Hg Hn o er A) as (_ & P).
    destruct (set_erange_st_inv s' r' b' good n Ws' Wr' Wb' Hg Hn o' er B) as (_ & Q).
    destruct (check_erange er).
    + destruct P as (P1 & P2 & P3), Q as (Q1 & Q2 & Q3). rewrite P1, P2, P3, Q1, Q2, Q3. auto.
    + rewrite P, Q. auto.
  - now apply set_grouping_sim.
  - unfold group_st. rewrite (group_flags_sim o o' n m sc pr).
    + destruct (group_flags o' m sc pr) as [[fl ?]|]; [now apply set_grouping_sim|auto].
    + now apply sim_of.
    + rewrite (ok_s _ _ _ _ _ _ A). exact Ws.
    + rewrite (ok_b _ _ _ _ _ _ A). exact Wb.
    + rewrite (ok_g _ _ _ _ _ _ A). exact Hg.
Qed.
Lemma run_sim ops : forall o o', obs_ok s r b good n o -> obs_ok s' r' b' good n o' ->
  o_erange o = o_erange o' -> o_grouping o = o_grouping o' ->
  o_exp (run o ops) = o_exp (run o' ops) /\ o_grouping (run o ops) = o_grouping (run o' ops).
Proof.
  induction ops as [|a ops IH]; intros o o' A B E1 E2.
  - cbn [run fold_left]. split; [|exact E2]. rewrite (ok_exp _ _ _ _ _ _ A), (ok_exp _ _ _ _ _ _ B), <- E1, <- E2.
    now apply exposed_agree.
  - cbn [run fold_left]. destruct (step_sim o o' a A B E1 E2) as (_ & P & Q).
    apply IH; auto.
    + apply (step_inv s r b good n Ws Wr Wb Hg Hn o a A).
    + apply (step_inv s' r' b' good n Ws' Wr' Wb' Hg Hn o' a B).
Qed.
End Sim.
