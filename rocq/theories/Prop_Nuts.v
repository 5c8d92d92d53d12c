(** C108: warmup and sampling of the BlackJAX NUTS sampler. *)
From Verif Require Import RBase Base Nuts.
From Coq Require Import List Lia Psatz.
Open Scope list_scope.
Open Scope R_scope.

(** A kernel needs exactly one of a model and a potential, and a starting point with a potential. *)
Theorem C108_arguments : forall model potential, (mk_nuts model potential = Ok tt <-> model <> potential) /\ (model = potential -> mk_nuts model potential = Err ValueError) /\
  forall (Z : Type) (fm : Z) given, (init_params false fm given = Err ValueError <-> given = None) /\ init_params true fm given = Ok fm.
Proof.
  intros [|] [|]; cbn; (split; [split; congruence|]; split; [congruence|]; intros Z fm [z|]; cbn; split; [split; congruence|reflexivity|split; congruence|reflexivity]).
Qed.
Print Assumptions C108_arguments.

Section Nuts.
Context {Z G M A K Stage : Type}.
Variables (neg : G -> G) (U : Z -> R) (gradU : Z -> G).
Variable transition : K -> hmc (Z := Z) (G := G) -> R -> M -> hmc (Z := Z) (G := G) * (R * bool).
Variables (adapt_init : Z -> R -> A) (adapt_step : A -> Stage -> Z -> R -> A) (adapt_final : A -> R * M) (a_step : A -> R) (a_mass : A -> M).
Variable schedule : nat -> nat -> Stage.
Variable split1 : K -> K.
Notation step_ W := (mcmc_kernel neg transition adapt_step adapt_final a_step a_mass schedule split1 W).
Notation iter W := (iterations neg transition adapt_step adapt_final a_step a_mass schedule split1 W).
Notation begin_ := (start U gradU adapt_init a_step a_mass).
Definition rate_of (s : state (Z := Z) (G := G) (M := M) (A := A) (K := K)) : R := match n_rate s with Some r => r | None => 0 end.

Lemma kernel_fields W s : exists h' rate div, 
  transition (split1 (n_key s)) {| h_pos := n_z s; h_ld := - n_pe s; h_grad := neg (n_grad s) |} (used_step a_step W s) (used_mass a_mass W s) = (h', (rate, div)) /\
  let a := if (S (n_i s) <=? W)%nat then adapt_step (n_adapt s) (schedule W (n_i s)) (h_pos h') rate else n_adapt s in
  step_ W s = {| n_i := S (n_i s); n_z := h_pos h'; n_grad := neg (h_grad h'); n_pe := - h_ld h'; n_rate := Some rate;
     n_mean := n_mean s + (rate - n_mean s) / INR (if (S (n_i s) <=? W)%nat then S (n_i s) else (S (n_i s) - W)%nat); n_div := div;
     n_step := fst (adapt_final a); n_mass := snd (adapt_final a); n_adapt := a; n_key := split1 (n_key s) |}.
Proof.
  unfold mcmc_kernel. destruct (transition _ _ _ _) as [h' [rate div]]. exists h', rate, div. split; [reflexivity|]. cbv zeta. now destruct (adapt_final _).
Qed.
Lemma iter_i W n s : n_i (iter W n s) = (n_i s + n)%nat.
Proof. induction n as [|n IH]; [cbn; lia|]. cbn [iterations]. destruct (kernel_fields W (iter W n s)) as (h & r & d & _ & E). cbv zeta in E. rewrite E. cbn [n_i]. rewrite IH. lia. Qed.
Lemma iter_add W n m s : iter W (n + m) s = iter W n (iter W m s).
Proof. induction n as [|n IH]; [reflexivity|]. cbn [Nat.add iterations]. now rewrite IH. Qed.
Lemma step_adapt W s : n_adapt (step_ W s) = if (S (n_i s) <=? W)%nat then adapt_step (n_adapt s) (schedule W (n_i s)) (n_z (step_ W s)) (rate_of (step_ W s)) else n_adapt s.
Proof. destruct (kernel_fields W s) as (h & r & d & _ & E). cbv zeta in E. rewrite E. reflexivity. Qed.
Lemma step_final W s : n_step (step_ W s) = fst (adapt_final (n_adapt (step_ W s))) /\ n_mass (step_ W s) = snd (adapt_final (n_adapt (step_ W s))).
Proof. destruct (kernel_fields W s) as (h & r & d & _ & E). cbv zeta in E. rewrite E. split; reflexivity. Qed.
Lemma step_mean W s : n_mean (step_ W s) = n_mean s + (rate_of (step_ W s) - n_mean s) / INR (if (S (n_i s) <=? W)%nat then S (n_i s) else (S (n_i s) - W)%nat).
Proof. destruct (kernel_fields W s) as (h & r & d & _ & E). cbv zeta in E. rewrite E. reflexivity. Qed.
Lemma iter_S W n s : iter W (S n) s = step_ W (iter W n s).
Proof. reflexivity. Qed.

(** Every warmup iteration makes one adaptation, with the stages of the schedule in order; sampling makes none. *)
Theorem C108_adaptation : forall W z step0 key, let s := fun k => iter W k (begin_ z step0 key) in
  (forall k, (k <= W)%nat -> n_adapt (s k) = fold_left (fun a j => adapt_step a (schedule W j) (n_z (s (S j))) (rate_of (s (S j)))) (seq 0 k) (adapt_init z step0)) /\
  (forall k, (W <= k)%nat -> n_adapt (s k) = n_adapt (s W)).
Proof.
  intros W z step0 key s. assert (I : forall k, n_i (s k) = k) by (intros k; unfold s; rewrite iter_i; reflexivity). split.
  - induction k as [|k IH]; intros Hk; [reflexivity|]. rewrite seq_S, fold_left_app. cbn [fold_left Nat.add]. rewrite <- IH by lia. unfold s at 1. rewrite iter_S. fold (s k).
    rewrite step_adapt, I. rewrite (proj2 (Nat.leb_le _ _)) by lia. reflexivity.
  - induction k as [|k IH]; intros Hk; [replace W with 0%nat by lia; reflexivity|]. destruct (Nat.eq_dec W (S k)) as [E|N]; [now rewrite E|]. rewrite <- IH by lia. unfold s at 1. rewrite iter_S. fold (s k).
    rewrite step_adapt, I. rewrite (proj2 (Nat.leb_gt _ _)) by lia. reflexivity.
Qed.
(** Warmup iterations use the current adapted step size and mass matrix; after a warmup all iterations use the final ones. *)
Theorem C108_frozen : forall W z step0 key, let s := fun k => iter W k (begin_ z step0 key) in
  (forall k, (k < W)%nat -> used_step a_step W (s k) = a_step (n_adapt (s k)) /\ used_mass a_mass W (s k) = a_mass (n_adapt (s k))) /\
  (forall k, (0 < W <= k)%nat -> used_step a_step W (s k) = fst (adapt_final (n_adapt (s W))) /\ used_mass a_mass W (s k) = snd (adapt_final (n_adapt (s W)))).
Proof.
  intros W z step0 key s. assert (I : forall k, n_i (s k) = k) by (intros k; unfold s; rewrite iter_i; reflexivity). split; intros k Hk; unfold used_step, used_mass; rewrite I.
  - rewrite (proj2 (Nat.leb_le _ _)) by lia. split; reflexivity.
  - rewrite (proj2 (Nat.leb_gt _ _)) by lia. destruct k as [|k]; [lia|]. pose proof (proj2 (C108_adaptation W z step0 key) (S k) ltac:(lia)) as E. cbv beta in E. unfold s. rewrite <- E. rewrite iter_S. apply step_final.
Qed.
(** Without warmup the first iteration uses the initial step size, but all others what the adaptation says at its start. *)
Theorem C108_no_warmup_partial : forall z step0 key, let s := fun k => iter 0 k (begin_ z step0 key) in
  used_step a_step 0 (s 0%nat) = a_step (adapt_init z step0) /\ forall k, used_step a_step 0 (s (S k)) = fst (adapt_final (adapt_init z step0)).
Proof.
  intros z step0 key s. split; [reflexivity|]. intros k. unfold used_step. cbn [Nat.leb]. unfold s. rewrite iter_S. rewrite (proj1 (step_final _ _)). rewrite <- iter_S.
  pose proof (proj2 (C108_adaptation 0 z step0 key) (S k) ltac:(lia)) as E. cbv beta in E. rewrite E. reflexivity.
Qed.
(** The mean acceptance rate that is reported is the mean over the iterations of the current phase so far. *)
Lemma sum_S f n : rsum (map f (seq 0 (S n))) = rsum (map f (seq 0 n)) + f n.
Proof. rewrite seq_S, map_app, rsum_app. cbn. lra. Qed.
Theorem C108_mean_rate : forall W z step0 key, let s := fun k => iter W k (begin_ z step0 key) in
  (forall k, (0 < k <= W)%nat -> n_mean (s k) = rsum (map (fun j => rate_of (s (S j))) (seq 0 k)) / INR k) /\
  (forall k, (0 < k)%nat -> n_mean (s (W + k)%nat) = rsum (map (fun j => rate_of (s (W + S j)%nat)) (seq 0 k)) / INR k).
Proof.
  intros W z step0 key s. assert (I : forall k, n_i (s k) = k) by (intros k; unfold s; rewrite iter_i; reflexivity).
  assert (Me : forall k, n_mean (s (S k)) = n_mean (s k) + (rate_of (s (S k)) - n_mean (s k)) / INR (if (S k <=? W)%nat then S k else (S k - W)%nat)).
  { intros k. unfold s. rewrite !iter_S. fold (s k). rewrite step_mean, I. reflexivity. }
  assert (P : forall (f : nat -> R) (m : nat -> R), (forall k, m (S k) = m k + (f k - m k) / INR (S k)) -> forall k, INR (S k) * m (S k) = rsum (map f (seq 0 (S k)))).
  { intros f m H. induction k as [|k IH]; [rewrite H; cbn; field|]. rewrite sum_S, <- IH, H. rewrite (S_INR (S k)). field. pose proof (pos_INR (S k)). rewrite S_INR. pose proof (pos_INR k). rewrite S_INR in *. lra. }
  assert (Q : forall k x y, INR (S k) * x = y -> x = y / INR (S k)) by (intros k x y <-; field; apply not_0_INR; lia).
  split.
  - intros k Hk. destruct k as [|k]; [lia|]. apply Q. assert (PP : forall j, (j < W)%nat -> INR (S j) * n_mean (s (S j)) = rsum (map (fun j => rate_of (s (S j))) (seq 0 (S j)))); [|apply PP; lia].
    induction j as [|j IH]; intros Hj.
    + rewrite Me. rewrite (proj2 (Nat.leb_le _ _)) by lia. unfold s at 1 3. cbn. field.
    + rewrite sum_S, <- IH by lia. rewrite (Me (S j)). rewrite (proj2 (Nat.leb_le _ _)) by lia. rewrite (S_INR (S j)). field. rewrite S_INR. pose proof (pos_INR j). lra.
  - intros k Hk. destruct k as [|k]; [lia|]. apply Q. apply (P (fun j => rate_of (s (W + S j)%nat)) (fun k => n_mean (s (W + k)%nat))). clear k Hk. intros k. rewrite Nat.add_succ_r, Me. rewrite (proj2 (Nat.leb_gt _ _)) by lia.
    now replace (S (W + k) - W)%nat with (S k) by lia.
Qed.
(** The energy and gradient kept with a position are those of the position. *)
Theorem C108_potential : forall W z step0 key, (forall g, neg (neg g) = g) ->
  (forall k h e m, h_ld h = - U (h_pos h) -> h_grad h = neg (gradU (h_pos h)) ->
     let h' := fst (transition k h e m) in h_ld h' = - U (h_pos h') /\ h_grad h' = neg (gradU (h_pos h'))) ->
  forall k, let s := iter W k (begin_ z step0 key) in n_pe s = U (n_z s) /\ n_grad s = gradU (n_z s).
Proof.
  intros W z step0 key N T. induction k as [|k IH]; [split; reflexivity|]. cbv zeta. rewrite iter_S. cbv zeta in IH. destruct IH as [I1 I2]. destruct (kernel_fields W (iter W k (begin_ z step0 key))) as (h & r & d & Et & E). cbv zeta in E. rewrite E. cbn [n_pe n_z n_grad].
  set (s := iter W k (begin_ z step0 key)) in *. specialize (T (split1 (n_key s)) {| h_pos := n_z s; h_ld := - n_pe s; h_grad := neg (n_grad s) |} (used_step a_step W s) (used_mass a_mass W s)).
  cbn [h_pos h_ld h_grad] in T. rewrite I1, I2 in T. specialize (T eq_refl eq_refl). rewrite <- I1, <- I2 in T. cbv zeta in T. rewrite Et in T. cbn [fst] in T. destruct T as [T1 T2].
  rewrite T1, T2, N. split; [ring|reflexivity].
Qed.

(** ** continuing *)
(** the state after at least one iteration *)
Definition reached (s : state (Z := Z) (G := G) (M := M) (A := A) (K := K)) : Prop := exists W n s0, s = iter W (S n) s0.
(** Continued with a warmup that is not longer than the iterations already made, nothing is adapted: all draws are made with the step
    size and mass matrix of the state. *)
Theorem C108_continued : forall s, reached s -> forall W key k, (W <= n_i s)%nat ->
  let t := iter W k (rekey key s) in
  used_step a_step W t = n_step s /\ used_mass a_mass W t = n_mass s /\ n_adapt t = n_adapt s /\ n_i t = (n_i s + k)%nat.
Proof.
  intros s (W0 & n & s0 & Es) W key k HW t. assert (F : n_step s = fst (adapt_final (n_adapt s)) /\ n_mass s = snd (adapt_final (n_adapt s))) by (subst s; rewrite iter_S; apply step_final).
  assert (I : n_i t = (n_i s + k)%nat) by (unfold t; rewrite iter_i; reflexivity). unfold used_step, used_mass. rewrite I. rewrite (proj2 (Nat.leb_gt _ _)) by lia. clear Es.
  assert (J : n_step t = n_step s /\ n_mass t = n_mass s /\ n_adapt t = n_adapt s); [|destruct J as (J1 & J2 & J3); repeat split; assumption].
  clear I. subst t. induction k as [|k IH]; [repeat split|]. destruct IH as (J1 & J2 & J3). rewrite iter_S. set (u := iter W k (rekey key s)) in *. assert (Iu : n_i u = (n_i s + k)%nat) by (unfold u; rewrite iter_i; reflexivity).
  pose proof (step_adapt W u) as Ea. rewrite Iu in Ea. rewrite (proj2 (Nat.leb_gt _ _)) in Ea by lia. destruct (step_final W u) as [F1 F2]. rewrite Ea, J3 in *. destruct F as [Fa Fb]. rewrite F1, F2, Fa, Fb. repeat split.
Qed.
(** With a longer warmup the draws that are kept are made while the step size is still adapted. *)
Theorem C108_continued_adapts_partial : forall s W key k, (n_i s + k < W)%nat ->
  let t := iter W k (rekey key s) in let t' := iter W (S k) (rekey key s) in
  used_step a_step W t = a_step (n_adapt t) /\ n_adapt t' = adapt_step (n_adapt t) (schedule W (n_i s + k)) (n_z t') (rate_of t').
Proof.
  intros s W key k H t t'. assert (I : n_i t = (n_i s + k)%nat) by (unfold t; rewrite iter_i; reflexivity). unfold used_step. rewrite I. rewrite (proj2 (Nat.leb_le _ _)) by lia. split; [reflexivity|].
  unfold t'. rewrite iter_S. fold t. rewrite step_adapt, I. rewrite (proj2 (Nat.leb_le _ _)) by lia. reflexivity.
Qed.
(** Every call replays the same keys: the [k]-th draw of any continuation is made with the [k]-th key from the seed, whatever was
    continued. *)
Theorem C108_replayed_refuted : forall W W' key s s' k, n_key (iter W k (rekey key s)) = n_key (iter W' k (rekey key s')) /\ n_key (iter W k (rekey key s)) = Nat.iter k split1 key.
Proof.
  assert (Q : forall W key s k, n_key (iter W k (rekey key s)) = Nat.iter k split1 key).
  { intros W key s. induction k as [|k IH]; [reflexivity|]. rewrite iter_S. destruct (kernel_fields W (iter W k (rekey key s))) as (h & r & d & _ & E). cbv zeta in E. rewrite E. cbn [n_key Nat.iter]. now rewrite IH. }
  intros W W' key s s' k. rewrite !Q. split; reflexivity.
Qed.
End Nuts.
Print Assumptions C108_adaptation.
Print Assumptions C108_frozen.
Print Assumptions C108_no_warmup_partial.
Print Assumptions C108_mean_rate.
Print Assumptions C108_potential.
Print Assumptions C108_continued.
Print Assumptions C108_continued_adapts_partial.
Print Assumptions C108_replayed_refuted.

(** ** a concrete sampler: the target is a parabola, a transition halves the position, and the adaptation keeps a step size and its
    average, which is 1 before any adaptation (as the dual averaging of blackjax: [exp(log_x_avg)] with [log_x_avg = 0]) *)
Definition toy_U (z : R) : R := z * z.
Definition toy_grad (z : R) : R := 2 * z.
Definition toy_transition (k : nat) (h : hmc (Z := R) (G := R)) (e : R) (m : unit) : hmc (Z := R) (G := R) * (R * bool) :=
  let z := h_pos h / 2 in ({| h_pos := z; h_ld := - toy_U z; h_grad := - toy_grad z |}, (1 / 2, false)).
Definition toy_init (z step0 : R) : R * R := (step0, 1).
Definition toy_adapt (a : R * R) (st : nat) (z rate : R) : R * R := (fst a / 2, fst a).
Definition toy_final (a : R * R) : R * unit := (snd a, tt).
Definition toy_iter (W n : nat) := iterations Ropp toy_transition toy_adapt toy_final fst (fun _ => tt) (fun _ i => i) S W n.
Definition toy_start (step0 : R) := start toy_U toy_grad toy_init fst (fun _ : R * R => tt) 3 step0 0%nat.
Example C108_toy : (forall g, Ropp (Ropp g) = g) /\
  (forall k h e m, h_ld h = - toy_U (h_pos h) -> h_grad h = Ropp (toy_grad (h_pos h)) ->
     let h' := fst (toy_transition k h e m) in h_ld h' = - toy_U (h_pos h') /\ h_grad h' = Ropp (toy_grad (h_pos h'))).
Proof. split; [apply Ropp_involutive|]. intros k h e m _ _. cbn. split; reflexivity. Qed.
(** The draws of a run without warmup are not all made with one step size: the first uses the given 0.1, the others 1. *)
Theorem C108_no_warmup_refuted : used_step fst 0 (toy_iter 0 0 (toy_start 0.1)) = 0.1 /\ used_step fst 0 (toy_iter 0 1 (toy_start 0.1)) = 1.
Proof. split; reflexivity. Qed.
Print Assumptions C108_no_warmup_refuted.
(** A run with one warmup iteration and one draw, continued with a warmup of 4: the step size changes between the draws that are kept. *)
Theorem C108_continued_refuted : let s := toy_iter 1 2 (toy_start 8) in
  n_i s = 2%nat /\ used_step fst 4 (toy_iter 4 0 (rekey 0%nat s)) <> used_step fst 4 (toy_iter 4 1 (rekey 0%nat s)).
Proof. split; [reflexivity|]. cbn. lra. Qed.
Print Assumptions C108_continued_refuted.
Example C108_reached : reached Ropp toy_transition toy_adapt toy_final fst (fun _ => tt) (fun _ i => i) S (toy_iter 1 2 (toy_start 8)).
Proof. exists 1%nat, 1%nat, (toy_start 8). reflexivity. Qed.
