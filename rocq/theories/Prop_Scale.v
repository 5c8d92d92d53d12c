(** C10-C14 *)
From Verif Require Import RBase BaseFacts Gibbs Grouping GroupingProofs GroupingOpt Scale ScaleProofs
  Significance SignificanceProofs GroupSigProofs GroupRefute.

(** ** C10: regrouping = grouping once with the composed flags *)
Theorem C10_regroup : forall counts scale fl1 fl2 q net d1 d2,
  group_scale_raw counts scale fl1 (Some q) net = Ok d1 ->
  length fl2 = length (groups fl1 counts) ->
  regroup_scale d1 fl2 net = Ok d2 ->
  group_scale_raw counts scale (compose_flags fl1 fl2) (Some q) net = Ok d2.
Proof. exact regroup_compose. Qed.
Print Assumptions C10_regroup.
(** ... where the composed flags describe the groups of groups *)
Theorem C10_compose_groups : forall A fl1 fl2 (xs : list A), length fl1 = length xs ->
  length fl2 = length (groups fl1 xs) ->
  groups (compose_flags fl1 fl2) xs = map (@concat A) (groups fl2 (groups fl1 xs)).
Proof. intros A. exact (@groups_compose A). Qed.
Print Assumptions C10_compose_groups.
Example C10_ex : compose_flags [1; -1; 1; 1; -1]%Z [1; -1; 1]%Z = [1; -1; -1; 1; -1]%Z.
Proof. reflexivity. Qed.
Example C10_ex_defined : exists d1 d2, group_scale_raw [1;2;3] [1;1;2] [1;-1;1]%Z (Some [1;0;1]) false = Ok d1 /\
  length [1;-1]%Z = length (groups [1;-1;1]%Z [1;2;3]) /\
  regroup_scale d1 [1;-1]%Z false = Ok d2 /\ sd_counts d2 = [4].
Proof.
  eexists. eexists. split; [reflexivity|]. split; [reflexivity|]. split; [reflexivity|].
  cbn. f_equal. lra.
Qed.

(** ** C11 *)
Theorem C11_interval_ratio : forall k n fl sa' sb' ba' bb',
  is_scale_data (sa k) n -> is_scale_data (sb k) n -> is_scale_data (ba k) n -> is_scale_data (bb k) n ->
  valid_flags fl n ->
  regroup_scale (sa k) fl false = Ok sa' -> regroup_scale (sb k) fl false = Ok sb' ->
  regroup_scale (ba k) fl false = Ok ba' -> regroup_scale (bb k) fl false = Ok bb' ->
  map (fun p => iratio k (fst p) (snd p)) (bins fl) = group_back_ratio (es k) (eb k) sa' sb' ba' bb'.
Proof. exact iratio_group. Qed.
Print Assumptions C11_interval_ratio.
Example C11_ex : exists d d', group_scale_raw [1;2;3] [1;1;2] [1;-1;1]%Z (Some [1;0;1]) false = Ok d /\
  is_scale_data d 2 /\ valid_flags [1;-1]%Z 2 /\ regroup_scale d [1;-1]%Z false = Ok d'.
Proof.
  eexists. eexists. split; [reflexivity|]. split.
  - exists [1;2;3], [1;1;2], [1;-1;1]%Z, [1;0;1]. split; [reflexivity|]. split; [|reflexivity].
    repeat constructor; (left; reflexivity) || (right; reflexivity).
  - split; [|reflexivity]. repeat split; [|right; reflexivity]. repeat constructor; lia.
Qed.

(** ** C12 *)
Theorem C12_scale_is_mean : forall (xs : list chan) fl net d,
  group_scale_raw (map ch_c xs) (map ch_s xs) fl (Some (map b2r (map ch_q xs))) net = Ok d ->
  Forall chan_ok xs -> sd_scale d = map (expected_scale net) (groups fl xs).
Proof. exact raw_scale_expected. Qed.
Print Assumptions C12_scale_is_mean.
Theorem C12_scale_bounds : forall net g lo hi,
  Forall chan_ok g -> good_of g <> [] -> 0 < lo ->
  (forall x, In x (good_of g) -> lo <= ch_s x <= hi) ->
  lo <= expected_scale net g <= hi.
Proof. exact expected_bounds. Qed.
Print Assumptions C12_scale_bounds.
Theorem C12_constant_scale : forall net g s, Forall chan_ok g -> good_of g <> [] ->
  (forall x, In x (good_of g) -> ch_s x = s) -> expected_scale net g = s.
Proof.
  intros net g s Hok Hne Hs.
  assert (H0 : 0 < s).
  { destruct (good_of g) as [|x G] eqn:E; [congruence|]. rewrite <- (Hs x (or_introl eq_refl)).
    assert (Hx : In x (good_of g)) by (rewrite E; now left). apply filter_In in Hx as (Hx & Hq).
    rewrite Forall_forall in Hok. now apply Hok. }
  destruct (expected_bounds net g s s Hok Hne H0); [|lra]. intros x Hx. rewrite (Hs x Hx). lra.
Qed.
Print Assumptions C12_constant_scale.
Theorem C12_no_good_channel : forall net g, good_of g = [] -> expected_scale net g = 1.
Proof. intros net g H. unfold expected_scale. rewrite H. reflexivity. Qed.
Print Assumptions C12_no_good_channel.

Example C12_ex : Forall chan_ok [(3, 2, true); (5, 0, false); (0, 4, true)] /\ good_of [(3, 2, true); (5, 0, false); (0, 4, true)] <> [].
Proof.
  split; [|discriminate]. unfold chan_ok.
  repeat apply Forall_cons; try apply Forall_nil; cbn; intros; try discriminate; lra.
Qed.

(** ** C13 *)
Theorem C13_lima_sign : forall n m a, 0 <= n -> 0 <= m -> 0 < a ->
  0 <= lima_stat n m a /\
  (significance_lima n m a = 0 <-> n = a * m) /\
  (0 < significance_lima n m a <-> a * m < n) /\
  (significance_lima n m a < 0 <-> n < a * m).
Proof. exact lima_sign. Qed.
Print Assumptions C13_lima_sign.

(** ** C14 *)
Theorem C14_gv_mle : forall n b s a, 0 <= n -> 0 < s -> 0 < a ->
  let b' := a * b in let s' := a * s in let x := gv_b0 n b s a in
  0 <= x /\ (0 < n -> 0 < x) /\ x * x - (b' - s' * s') * x - n * (s' * s') = 0.
Proof. exact gv_b0_spec. Qed.
Print Assumptions C14_gv_mle.
Theorem C14_gv_sign : forall n b s a, 0 <= n -> 0 < s -> 0 < a ->
  0 <= gv_stat n b s a /\
  (significance_gv n b s a = 0 <-> n = a * b) /\
  (0 < significance_gv n b s a <-> a * b < n) /\
  (significance_gv n b s a < 0 <-> n < a * b).
Proof. exact gv_sign. Qed.
Print Assumptions C14_gv_sign.
