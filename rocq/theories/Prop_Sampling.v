(** C73: progress of the ensemble samplers under every schedule and crash.  C74: where the samples end up.
    C75: starting points.  C76: reported efficiency.  C77: process-wide settings. *)
From Coq Require Import Ascii String.
From Verif Require Import RBase Sampling SamplingProofs.
From Coq Require Import List FinFun ZArith Lia Lra.
Import ListNotations.
Open Scope list_scope.

(** ** C73 *)
Definition reachable (n warmup steps : nat) (s : sys) : Prop := ssteps n (sys0 warmup steps) s.
(** at any moment of any schedule, with or without crashes: no bar counts more than its total, counts after it was
    closed, or is closed twice *)
Theorem C73_never_over : forall n w t s, reachable n w t s -> forall i, (i < n)%nat ->
  (p_updates (y_bars s i) <= w + t)%nat /\ (p_closes (y_bars s i) <= 1)%nat /\ p_late (y_bars s i) = O.
Proof.
  intros n w t s H i Hi. destruct (inv_steps _ _ _ _ H) as [_ I2 _]. destruct (I2 i Hi) as (c & E & B).
  destruct (prefix_bar w t c _ E) as (P1 & P2 & P3). rewrite B. split; [exact P1|]. split; [|exact P2]. destruct P3 as [(_ & -> & _)|(_ & -> & _)]; lia.
Qed.
Print Assumptions C73_never_over.
(** when the listener ends, every bar is complete and closed, and no message is lost *)
Theorem C73_complete : forall n w t s, reachable n w t s -> listener_done n s ->
  y_queue s = [] /\ y_finished s = n /\ forall i, (i < n)%nat ->
  p_updates (y_bars s i) = (w + t)%nat /\ p_closes (y_bars s i) = 1%nat /\ p_late (y_bars s i) = O.
Proof.
  intros n w t s H Hd. pose proof (inv_steps _ _ _ _ H) as [I1 I2 I3].
  assert (L : forall i, (i < n)%nat -> (p_closes (y_bars s i) <= 1)%nat) by (intros i Hi; now apply (C73_never_over n w t s H i Hi)).
  unfold listener_done in Hd. rewrite I3 in *. pose proof (sumn_all_one _ _ L Hd) as A. pose proof (sumn_le_n _ _ L) as A'.
  assert (G : forall i, (i < n)%nat -> of_id i (y_queue s) = [] /\ p_updates (y_bars s i) = (w + t)%nat /\ p_late (y_bars s i) = O).
  { intros i Hi. destruct (I2 i Hi) as (c & E & B). destruct (prefix_bar w t c _ E) as (P1 & P2 & P3). specialize (A i Hi). cbv beta in A. rewrite B in A |- *.
    destruct P3 as [(_ & P3 & _)|(P3 & _ & P4)]; [rewrite P3 in A; discriminate|]. apply app_eq_nil in P3 as (P3 & _). auto. }
  split; [|split; [lia|]].
  - destruct (y_queue s) as [|(i, m) q] eqn:Eq; [reflexivity|]. inversion I1 as [|x l Hi Hl]; subst. cbn [fst] in Hi.
    destruct (G i Hi) as (X & _). unfold of_id in X. cbn [filter fst] in X. rewrite Nat.eqb_refl in X. discriminate.
  - intros i Hi. destruct (G i Hi) as (_ & U & V). split; [exact U|]. split; [now apply A|exact V].
Qed.
Print Assumptions C73_complete.
(** no schedule runs forever, and one that can go no further has, unless a sampler failed, every sampler returned and the
    listener ended *)
Theorem C73_terminates : forall n, well_founded (fun s' s => sstep n s s').
Proof.
  intros n. apply (well_founded_lt_compat _ (measure n)). intros s' s H. now apply step_measure.
Qed.
Print Assumptions C73_terminates.
Theorem C73_ends : forall n w t s, reachable n w t s -> (forall s', ~ sstep n s s') ->
  (forall i l, (i < n)%nat -> y_proc s i <> Crashed l) ->
  listener_done n s /\ forall i, (i < n)%nat -> y_proc s i = Returned.
Proof.
  intros n w t s H Hs Hc. pose proof (inv_steps _ _ _ _ H) as [I1 I2 I3].
  assert (R : forall i, (i < n)%nat -> y_proc s i = Returned).
  { intros i Hi. destruct (y_proc s i) as [[|m l]| |l] eqn:E; [|exfalso|reflexivity|].
    - exfalso. eapply Hs. eapply s_return; eassumption.
    - eapply Hs. eapply s_put; eassumption.
    - exfalso. now apply (Hc i l). }
  split; [|exact R]. unfold listener_done. destruct (Nat.lt_ge_cases (y_finished s) n) as [Hf|]; [|assumption]. exfalso.
  assert (Q : y_queue s = []). { destruct (y_queue s) as [|(i, m) q] eqn:Eq; [reflexivity|]. exfalso. eapply Hs. eapply s_get; eassumption. }
  rewrite I3 in Hf. rewrite (sumn_ext _ (fun _ => 1%nat)) in Hf.
  - assert (S1 : forall k, sumn (fun _ => 1%nat) k = k) by (induction k as [|k IH]; [reflexivity|]; rewrite sumn_S, IH; lia). rewrite S1 in Hf. lia.
  - intros i Hi. destruct (I2 i Hi) as (c & E & B). rewrite Q, (R i Hi) in E. destruct (prefix_bar w t c _ E) as (_ & _ & P3). rewrite B.
    destruct P3 as [(X & _)|(_ & X & _)]; [now destruct X|exact X].
Qed.
Print Assumptions C73_ends.
(** refuted when a sampler fails before it has finished: whatever happens afterwards the listener thread never ends
    ([run] raises without joining it, and python waits for it at exit) *)
Theorem C73_crash_refuted : forall n w t s i l, reachable n w t s -> (i < n)%nat -> y_proc s i = Crashed l -> In Mfinish l ->
  forall s', ssteps n s s' -> ~ listener_done n s'.
Proof.
  intros n w t s i l H Hi Hp Hin s' Hs Hd.
  assert (G : y_proc s' i = Crashed l /\ reachable n w t s').
  { clear Hd. induction Hs as [s|s s' s'' H1 IH H2]; [auto|]. destruct (IH H Hp) as (E & R). split; [|econstructor 2; eassumption].
    destruct H2 as [s0 j m k Hj E0|s0 j Hj E0|s0 j k Hj E0|s0 j m q Hj E0]; cbn [y_proc]; try exact E;
      (rewrite upd_other; [exact E|congruence]). }
  destruct G as (E & R). destruct (C73_complete n w t s' R Hd) as (Q & _ & B). destruct (B i Hi) as (_ & B1 & _).
  destruct (inv_steps _ _ _ _ R) as [_ I2 _]. destruct (I2 i Hi) as (c & Ec & Bc). rewrite E in Ec. cbn [rest] in Ec.
  destruct (prefix_bar w t c _ Ec) as (_ & _ & P). rewrite <- Bc in P. destruct P as [(_ & P & _)|(P & _)]; [congruence|].
  apply app_eq_nil in P as (_ & ->). destruct Hin.
Qed.
Print Assumptions C73_crash_refuted.
Example C73_crash_ex : exists s, reachable 2 1 1 s /\ exists l, y_proc s 0%nat = Crashed l /\ In Mfinish l.
Proof.
  eexists. split; [econstructor 2; [constructor 1|]; apply (s_crash 2 _ 0%nat (sampler_msgs 1 1)); [lia|reflexivity]|].
  eexists. split; [reflexivity|]. cbn. auto 10.
Qed.
(** as long as no sampler has failed, the run can be completed: the schedules meant above exist *)
Theorem C73_can_finish : forall n w t s, reachable n w t s -> (forall i l, (i < n)%nat -> y_proc s i <> Crashed l) ->
  exists s', ssteps n s s' /\ listener_done n s' /\ forall i, (i < n)%nat -> y_proc s' i = Returned.
Proof.
  intros n w t. refine (well_founded_ind (C73_terminates n) _ _). intros s IH H Hc.
  assert (D : forall k, (forall i, (i < k)%nat -> y_proc s i = Returned) \/ exists i, (i < k)%nat /\ y_proc s i <> Returned).
  { induction k as [|k [A|(i & Hi & A)]]; [left; lia| |right; exists i; split; [lia|exact A]].
    destruct (y_proc s k) eqn:E; [right; exists k; split; [lia|congruence]| |right; exists k; split; [lia|congruence]].
    left. intros i Hi. destruct (Nat.eq_dec i k) as [->|]; [exact E|]. apply A. lia. }
  assert (G : forall s', sstep n s s' -> (forall i l, (i < n)%nat -> y_proc s' i <> Crashed l) ->
     exists s'', ssteps n s s'' /\ listener_done n s'' /\ forall i, (i < n)%nat -> y_proc s'' i = Returned).
  { intros s' Hs Hc'. destruct (IH s' Hs ltac:(econstructor 2; eassumption) Hc') as (s'' & A & B & C). exists s''. split; [|auto].
    clear - A Hs. induction A as [u|u v x A1 IHA A2]; [econstructor 2; [constructor 1|exact Hs]|econstructor 2; [apply IHA; exact Hs|exact A2]]. }
  assert (U : forall i p, (i < n)%nat -> (forall l, p <> Crashed l) -> forall j l, (j < n)%nat -> upd (y_proc s) i p j <> Crashed l).
  { intros i p Hi Hp j l Hj. unfold upd. destruct (j =? i)%nat; [apply Hp|now apply Hc]. }
  destruct (D n) as [R|(i & Hi & A)].
  - destruct (le_lt_dec n (y_finished s)) as [L|L]; [exists s; split; [constructor 1|split; [exact L|exact R]]|].
    destruct (y_queue s) as [|(j, m) q] eqn:Eq.
    + exfalso. apply (Nat.lt_irrefl n). apply (Nat.le_lt_trans _ (y_finished s)); [|exact L].
      apply (C73_ends n w t s H); [|exact Hc]. intros s' Hs.
      destruct Hs as [s0 j m l Hj E0|s0 j Hj E0|s0 j l Hj E0|s0 j m q Hj E0]; try (rewrite R in E0 by exact Hj; discriminate). congruence.
    + eapply G; [eapply s_get; [exact L|exact Eq]|]. exact Hc.
  - destruct (y_proc s i) as [[|m l]| |l] eqn:E.
    + eapply G; [eapply s_return; [exact Hi|exact E]|]. cbn [y_proc]. apply U; [exact Hi|discriminate].
    + eapply G; [eapply s_put; [exact Hi|exact E]|]. cbn [y_proc]. apply U; [exact Hi|discriminate].
    + congruence.
    + exfalso. now apply (Hc i l).
Qed.
Print Assumptions C73_can_finish.
Example C73_done_ex : exists s, reachable 3 100 200 s /\ listener_done 3 s.
Proof.
  destruct (C73_can_finish 3 100 200 (sys0 100 200)) as (s & A & B & _); [constructor 1|intros i l _; discriminate|]. exists s. auto.
Qed.

(** ** C74 *)
Theorem C74_layout : forall A (d : A) walkers steps samplers,
  Forall (fun m => length m = steps /\ Forall (fun row => length row = walkers) m) samplers ->
  let out := merge_walkers d walkers samplers in
  length out = length samplers /\
  forall i, (i < length samplers)%nat -> length (nth i out []) = (walkers * steps)%nat /\
    forall w t, (w < walkers)%nat -> (t < steps)%nat ->
      nth (w * steps + t) (nth i out []) d = nth w (nth t (nth i samplers []) []) d.
Proof.
  intros A d walkers steps samplers HF out. unfold out, merge_walkers. split; [apply map_length|]. intros i Hi.
  rewrite (nth_indep (map (fun m => concat (walkers_first d walkers m)) samplers) [] ((fun m => concat (walkers_first d walkers m)) [])) by (rewrite map_length; exact Hi). rewrite (map_nth (fun m => concat (walkers_first d walkers m)) samplers).
  rewrite Forall_forall in HF. destruct (HF (nth i samplers []) ltac:(now apply nth_In)) as (L & _).
  set (m := nth i samplers []) in *.
  assert (G : forall (l : list (list A)) k, Forall (fun r => length r = k) l -> length (concat l) = (length l * k)%nat /\
     forall w t, (w < length l)%nat -> (t < k)%nat -> nth (w * k + t) (concat l) d = nth t (nth w l []) d).
  { induction l as [|r l IH]; intros k H; [split; [reflexivity|cbn; lia]|]. inversion H; subst. destruct (IH _ H3) as (A1 & A2). cbn [concat length].
    rewrite app_length, A1. split; [lia|]. intros w t Hw Ht. destruct w as [|w]; cbn [nth].
    - rewrite app_nth1 by lia. reflexivity.
    - rewrite app_nth2 by lia. rewrite <- (A2 w t) by lia. f_equal. lia. }
  destruct (G (walkers_first d walkers m) steps) as (G1 & G2).
  { apply Forall_forall. intros r Hr. apply in_map_iff in Hr as (w & <- & _). now rewrite map_length. }
  unfold walkers_first in *. rewrite map_length, seq_length in *. split; [exact G1|]. intros w t Hw Ht. rewrite (G2 w t Hw Ht).
  rewrite (nth_indep _ [] ((fun w => map (fun row => nth w row d) m) O)) by (now rewrite map_length, seq_length).
  rewrite (map_nth (fun w => map (fun row => nth w row d) m) (seq 0 walkers)). rewrite seq_nth by exact Hw. cbn [Nat.add].
  rewrite (nth_indep _ d ((fun row => nth w row d) [])) by (rewrite map_length; lia). now rewrite (map_nth (fun row => nth w row d) m).
Qed.
Print Assumptions C74_layout.
Example C74_ex : merge_walkers 0%nat 2 [[[1; 2]; [3; 4]; [5; 6]]]%nat = [[1; 3; 5; 2; 4; 6]]%nat.
Proof. reflexivity. Qed.

(** ** C75 *)
Open Scope R_scope.
(** every walker starts within ten per cent of the requested point, in every coordinate *)
Theorem C75_near_partial : forall jitter u init i w d,
  (0.9 <= jitter i w d <= 1.1 -> Rabs (start_point jitter init i w d - init d) <= 0.1 * Rabs (init d)) /\
  (0 <= u i w d < 1 -> Rabs (numpyro_start u init i w d - init d) <= 0.1 * Rabs (init d)).
Proof.
  intros jitter u init i w d. unfold start_point, numpyro_start. cbv zeta. split; intros H.
  - replace (jitter i w d * init d - init d) with ((jitter i w d - 1) * init d) by ring. rewrite Rabs_mult.
    apply Rmult_le_compat_r; [apply Rabs_pos|]. apply Rabs_le. lra.
  - match goal with |- Rabs ?x <= _ => replace x with ((2 * u i w d - 1) * (0.1 * Rabs (init d))) by lra end.
    rewrite Rabs_mult. rewrite (Rabs_pos_eq (0.1 * Rabs (init d))) by (pose proof (Rabs_pos (init d)); lra).
    pose proof (Rabs_pos (init d)). assert (Rabs (2 * u i w d - 1) <= 1) by (apply Rabs_le; lra). nra.
Qed.
Print Assumptions C75_near_partial.
(** refuted: a coordinate whose starting value is zero is the same for all walkers, and no sequence of moves of the
    ensemble ever changes it: the parameter is not sampled at all *)
Theorem C75_frozen_refuted : forall jitter u init d, init d = 0 ->
  (forall i w, start_point jitter init i w d = 0 /\ numpyro_start u init i w d = 0) /\
  forall i moves, let X := fold_left do_move moves (start_point jitter init i) in
                  let Y := fold_left do_move moves (numpyro_start u init i) in
    forall w, X w d = 0 /\ Y w d = 0.
Proof.
  intros jitter u init d E. assert (A : forall i w, start_point jitter init i w d = 0 /\ numpyro_start u init i w d = 0).
  { intros i w. unfold start_point, numpyro_start. rewrite E. cbv zeta. rewrite Rabs_R0. split; ring. }
  split; [exact A|]. intros i moves.
  assert (G : forall mv X, (forall w, X w d = 0) -> forall w, do_move X mv w d = 0).
  { intros mv X HX w. destruct mv as [k j z|k a b g|]; cbn [do_move]; try apply HX; unfold upd; destruct (w =? k)%nat; rewrite ?HX; ring. }
  assert (F : forall ms X, (forall w, X w d = 0) -> forall w, fold_left do_move ms X w d = 0).
  { induction ms as [|mv ms IH]; intros X HX w; cbn [fold_left]; [apply HX|]. apply IH. now apply G. }
  cbv zeta. intros w. split; apply F; intros w'; apply (A i w').
Qed.
Print Assumptions C75_frozen_refuted.
(** this is the case of a uniform prior whose default is the middle of its range *)
Theorem C75_midpoint : forall a b, a < b -> unconstrained a b ((a + b) / 2) = 0.
Proof.
  intros a b H. unfold unconstrained. cbv zeta. replace (((a + b) / 2 - a) / (b - a)) with (1 / 2) by (field; lra).
  replace (1 / 2 / (1 - 1 / 2)) with 1 by field. apply ln_1.
Qed.
Print Assumptions C75_midpoint.
(** the random seeds of the samplers and of the starting points are all different *)
Theorem C75_seeds : forall seed0 n, length (seeds seed0 n) = S n /\ NoDup (seeds seed0 n).
Proof.
  intros seed0 n. unfold seeds. split; [now rewrite map_length, seq_length|].
  apply FinFun.Injective_map_NoDup; [|apply seq_NoDup]. intros x y H. apply (f_equal (fun z => z - seed0)%Z) in H. lia.
Qed.
Print Assumptions C75_seeds.
(** zeus accepts only seeds below 2^32, which the last draws exceed *)
Theorem C75_zeus_seeds : forall seed0 n, (0 <= seed0 < 2 ^ 32)%Z -> (0 < n)%nat ->
  ((exists l, zeus_states seed0 n = Ok l) <-> (seed0 + Z.of_nat n < 2 ^ 32)%Z).
Proof.
  intros seed0 n H0 Hn. unfold zeus_states.
  assert (T : tl (seeds seed0 n) = map (fun k => (seed0 + Z.of_nat k)%Z) (seq 1 n)) by reflexivity. rewrite T.
  destruct (forallb _ _) eqn:E.
  - rewrite forallb_forall in E. split; [intros _|eauto].
    specialize (E (seed0 + Z.of_nat n)%Z). apply andb_true_iff in E as (_ & E); [now apply Z.ltb_lt in E|].
    apply in_map_iff. exists n. split; [reflexivity|]. apply in_seq. lia.
  - split; [intros (l & X); discriminate|]. intros H. exfalso.
    assert (X : forallb (fun s => (0 <=? s) && (s <? 2 ^ 32))%Z (map (fun k => (seed0 + Z.of_nat k)%Z) (seq 1 n)) = true); [|congruence].
    apply forallb_forall. intros z Hz. apply in_map_iff in Hz as (k & <- & Hk). apply in_seq in Hk. apply andb_true_iff. split; [apply Z.leb_le|apply Z.ltb_lt]; lia.
Qed.
Print Assumptions C75_zeus_seeds.
Theorem C75_zeus_refuted : forall n, (0 < n)%nat -> exists seed0, (0 <= seed0 < 2 ^ 32)%Z /\ zeus_states seed0 n = Err ValueError.
Proof.
  intros n Hn. exists (2 ^ 32 - 1)%Z. split; [lia|]. destruct (zeus_states (2 ^ 32 - 1) n) as [l|e] eqn:E.
  - exfalso. assert (X : (2 ^ 32 - 1 + Z.of_nat n < 2 ^ 32)%Z) by (apply C75_zeus_seeds; [lia|exact Hn|eauto]). lia.
  - unfold zeus_states in E. destruct (forallb _ _); [discriminate|]. congruence.
Qed.
Print Assumptions C75_zeus_refuted.

(** ** C76 *)
(** jaxns: the efficiency is the effective number over the number of samples *)
Theorem C76_jaxns : forall (ess : R) n, (0 < n)%nat -> 0 <= ess <= INR n -> 0 <= jaxns_reff ess (INR n) <= 1 /\ jaxns_reff ess (INR n) * INR n = ess.
Proof.
  intros ess n Hn H. assert (0 < INR n) by (apply lt_0_INR; lia). unfold jaxns_reff. split; [split|].
  - apply Rmult_le_pos; [lra|]. left. now apply Rinv_0_lt_compat.
  - apply (Rmult_le_reg_r (INR n)); [assumption|]. replace (ess / INR n * INR n) with ess by (field; lra). lra.
  - field. lra.
Qed.
Print Assumptions C76_jaxns.
(** nautilus, ultranest: refuted, the reported efficiency is the effective number itself, whatever the number of samples *)
Theorem C76_nested_refuted : forall A (ess : R) (samples : list A), nested_reff ess (one_chain samples) = ess.
Proof. intros. unfold nested_reff, one_chain. cbn. field. Qed.
Print Assumptions C76_nested_refuted.
(** reading a previous ultranest run fails with the default arguments, and without printing reports no effective sample *)
Theorem C76_read_file_refuted : forall A ess (samples : list A),
  ultranest_fit true true ess samples = Err RuntimeError /\ ultranest_fit true false ess samples = Ok (0%Z, samples).
Proof. split; reflexivity. Qed.
Print Assumptions C76_read_file_refuted.
(** the tree depth is reported only if the kernel provides it: the derivation from the number of steps never applies,
    because it looks for the name that has just been changed *)
Theorem C76_tree_depth_refuted : forall extra, In "tree_depth"%string (sample_stat_names extra) <-> In "tree_depth"%string extra.
Proof.
  intros extra. unfold sample_stat_names. set (f := fun k : string => if String.eqb k "num_steps" then "n_steps"%string else k).
  assert (N : existsb (String.eqb "num_steps") (map f extra) = false).
  { apply not_true_is_false. intros H. apply existsb_exists in H as (x & Hx & E). apply String.eqb_eq in E. subst x. apply in_map_iff in Hx as (k & E & _).
    unfold f in E. destruct (String.eqb_spec k "num_steps"); [discriminate|congruence]. }
  cbv zeta. rewrite N, andb_false_r. rewrite in_map_iff. split.
  - intros (k & E & Hk). unfold f in E. destruct (String.eqb_spec k "num_steps"); [discriminate|]. now subst.
  - intros H. exists "tree_depth"%string. split; [reflexivity|exact H].
Qed.
Print Assumptions C76_tree_depth_refuted.

(** ** C77 *)
(** a successful run leaves every process-wide setting as it was, and so does a rejected call *)
Theorem C77_restored : forall A (e : env),
  (forall states_ok outcomes (rs : list A), fst (ensemble_run e states_ok outcomes) = Ok rs -> snd (ensemble_run e states_ok outcomes) = e) /\
  (forall (outcomes : list (res A)), snd (ensemble_run e false outcomes) = e) /\
  (forall s a (o : res A) r, fst (ultranest_run e s a o) = Ok r -> snd (ultranest_run e s a o) = e) /\
  (forall pool (o : res A) r, fst (nautilus_init e pool o) = Ok r -> snd (nautilus_init e pool o) = e) /\
  (forall flag (body : env -> res A * env), e_merge (snd (with_merge e flag body)) = e_merge e).
Proof.
  intros A [st po rd mg]. repeat match goal with |- _ /\ _ => split end.
  - intros ok outs rs. unfold ensemble_run. destruct ok; [|discriminate]. cbn [negb]. destruct (gather outs); [|discriminate]. intros _. cbn.
    destruct (String.eqb st "spawn"); reflexivity.
  - intros outs. reflexivity.
  - intros s a o r. unfold ultranest_run. destruct o; [reflexivity|discriminate].
  - intros pool o r. unfold nautilus_init. destruct pool; [|reflexivity]. destruct o; [|discriminate]. intros _. cbn. destruct (String.eqb st "spawn"); reflexivity.
  - intros flag body. unfold with_merge. destruct (body _) as [r e']. reflexivity.
Qed.
Print Assumptions C77_restored.
(** refuted after a failure: the start method stays changed, the seeded random state stays, the patched pool stays *)
Theorem C77_failure_refuted : forall A (e : env) x, e_start e <> "spawn"%string ->
  e_start (snd (ensemble_run e true [@Err A x])) = "spawn"%string /\
  (forall s a, e_random (snd (ultranest_run e s a (@Err A x))) = a) /\
  e_start (snd (nautilus_init e true (@Err A x))) = "spawn"%string /\ e_pool (snd (nautilus_init e true (@Err A x))) = "multiprocess.Pool"%string.
Proof.
  intros A [st po rd mg] x H. cbn in H. apply String.eqb_neq in H. unfold ensemble_run, ultranest_run, nautilus_init. cbn. rewrite H. cbn. auto.
Qed.
Print Assumptions C77_failure_refuted.
(** the results of a run are those of the samplers, one each and in the order in which they were started; if some
    sampler fails, the run fails with the error of the first one that did *)
Theorem C77_gathered : forall A (e : env) (outcomes : list (res A)),
  (forall rs, fst (ensemble_run e true outcomes) = Ok rs <-> outcomes = map Ok rs) /\
  (forall x, fst (ensemble_run e true outcomes) = Err x <-> exists done rest, outcomes = map Ok done ++ Err x :: rest).
Proof.
  intros A e outcomes.
  assert (F : fst (ensemble_run e true outcomes) = gather outcomes) by (unfold ensemble_run; cbn [negb]; destruct (gather outcomes); reflexivity).
  rewrite F. clear F.
  assert (G : forall rs : list A, gather (map Ok rs) = Ok rs).
  { induction rs as [|x rs IH]; [reflexivity|]. cbn. now rewrite IH. }
  assert (K : forall (d : list A) x r, gather (map Ok d ++ Err x :: r) = Err x).
  { induction d as [|y d IH]; intros x r; [reflexivity|]. cbn. now rewrite IH. }
  split.
  - intros rs. split; [|intros ->; apply G]. revert rs. induction outcomes as [|[x|y] l IH]; intros rs H.
    + injection H as <-. reflexivity.
    + cbn in H. destruct (gather l) as [xs|]; [|discriminate]. injection H as <-. cbn. f_equal. now apply IH.
    + discriminate.
  - intros x. split; [|intros (d & r & ->); apply K]. induction outcomes as [|[y|y] l IH]; intros H; [discriminate| |].
    + cbn in H. destruct (gather l) as [xs|]; [discriminate|]. injection H as ->. destruct (IH eq_refl) as (d & r & E). exists (y :: d), r. now rewrite E.
    + injection H as ->. now exists [], l.
Qed.
Print Assumptions C77_gathered.
Example C77_ex : exists e, e_start e <> "spawn"%string /\ fst (ensemble_run e true [Ok 1%nat; Ok 2%nat]) = Ok [1; 2]%nat.
Proof. exists {| e_start := "fork"; e_pool := "multiprocessing.Pool"; e_random := 7; e_merge := false |}. split; [discriminate|reflexivity]. Qed.
