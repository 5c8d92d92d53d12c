(** C103: how samplers are run and continued. *)
From Coq Require Import Ascii String.
From Verif Require Import RBase Data Namespace HelperData Batch SimulateProofs Resume.
From Coq Require Import List.
Open Scope list_scope.

(** ** emcee and zeus *)
Section Ensemble.
Context {G T : Type}.
Variables (t0 : T) (step : T -> (coords * G) -> T * (coords * G)).
Notation keep := (keep step).
Notation steps_n := (steps_n step).
Notation sampling_fn := (sampling_fn t0 step).
Lemma steps_add n m x : steps_n (n + m) x = steps_n m (steps_n n x).
Proof. revert x. induction n as [|n IH]; intros x; [reflexivity|]. cbn [Nat.add Resume.steps_n]. apply IH. Qed.
Lemma keep_spec thin n : forall x, length (fst (keep thin n x)) = n /\ snd (keep thin n x) = steps_n (n * thin) x /\
  forall i, (i < n)%nat -> nth_error (fst (keep thin n x)) i = Some (fst (snd (steps_n (S i * thin) x))).
Proof.
  induction n as [|n IH]; intros x; [repeat split; lia|]. cbn [Resume.keep]. set (y := steps_n thin x). destruct (IH y) as (L & E & N). cbn [fst snd length].
  split; [now rewrite L|]. split.
  - rewrite E. unfold y. rewrite <- steps_add. f_equal.
  - intros [|i] Hi; cbn [nth_error].
    + unfold y. f_equal. f_equal. f_equal. f_equal. lia.
    + rewrite N by lia. unfold y. rewrite <- steps_add. reflexivity.
Qed.
Lemma keep_app thin a b : forall x, fst (keep thin (a + b) x) = fst (keep thin a x) ++ fst (keep thin b (snd (keep thin a x))).
Proof. induction a as [|a IH]; intros x; [reflexivity|]. cbn [Nat.add Resume.keep fst snd app]. now rewrite IH. Qed.
(** the sampler does not tune itself while it runs *)
Definition no_tuning : Prop := forall t x, fst (step t x) = t.
Lemma steps_t0 n : no_tuning -> forall t x, fst (steps_n n (t, x)) = t.
Proof. intros H. induction n as [|n IH]; intros t x; [reflexivity|]. cbn [Resume.steps_n fst snd]. rewrite (surjective_pairing (step t x)), H. apply IH. Qed.
Lemma keep_t thin n : no_tuning -> forall x, (t0, snd (snd (keep thin n (t0, x)))) = snd (keep thin n (t0, x)).
Proof. intros H x. destruct (keep_spec thin n (t0, x)) as (_ & -> & _). rewrite (surjective_pairing (steps_n (n * thin) (t0, x))) at 2. now rewrite (steps_t0 _ H). Qed.
(** the walkers of sample [i] are those after the warm-up and [i + 1] times [thinning] further steps *)
Theorem C103_schedule : no_tuning -> forall warmup steps thinning st,
  length (fst (sampling_fn warmup steps thinning st)) = steps /\
  (forall i, (i < steps)%nat -> nth_error (fst (sampling_fn warmup steps thinning st)) i = Some (fst (snd (steps_n (warmup + S i * thinning) (t0, st))))) /\
  snd (sampling_fn warmup steps thinning st) = snd (steps_n (warmup + steps * thinning) (t0, st)).
Proof.
  intros H warmup steps thinning st. unfold Resume.sampling_fn. cbv zeta. destruct (keep_spec 1 warmup (t0, st)) as (_ & E & _). rewrite Nat.mul_1_r in E. rewrite E.
  set (st1 := snd (steps_n warmup (t0, st))). assert (E1 : (t0, st1) = steps_n warmup (t0, st)).
  { unfold st1. rewrite (surjective_pairing (steps_n warmup (t0, st))) at 2. now rewrite (steps_t0 _ H). }
  destruct (keep_spec thinning steps (t0, st1)) as (L & Es & N). cbn [fst snd]. split; [exact L|]. split.
  - intros i Hi. rewrite N by exact Hi. now rewrite E1, <- steps_add.
  - now rewrite Es, E1, <- steps_add.
Qed.

Variable fresh : nat -> nat -> list (coords * G).
Notation run := (run t0 step fresh).
Definition default_chains (ndim : nat) (chains : option nat) : nat := match chains with Some c => c | None => (4 * ndim)%nat end.
(** positions of so many walkers, with so many coordinates *)
Definition shape (chains ndim : nat) (c : coords) : Prop := length c = chains /\ Forall (fun r => length r = ndim) c.
Lemma has_shape_spec chains ndim c : has_shape chains ndim c = true <-> shape chains ndim c.
Proof.
  unfold has_shape, shape. rewrite Bool.andb_true_iff, Nat.eqb_eq, forallb_forall, Forall_forall. split; intros (A & B); split; auto; intros r Hr; apply Nat.eqb_eq; auto.
Qed.
(** a list of states is accepted exactly if there is one for every sampler and all are states with the positions of all walkers *)
Theorem C103_states : forall ndim warmup steps chains thinning n l,
  (exists r, run ndim warmup steps chains thinning n (Some l) = Ok r) <->
  length l = n /\ forall g, In g l -> exists s, g = GState s /\ shape (default_chains ndim chains) ndim (fst s).
Proof.
  intros ndim warmup steps chains thinning n l. unfold Resume.run. fold (default_chains ndim chains). cbv zeta. set (ch := default_chains ndim chains). destruct (Nat.eqb_spec (length l) n) as [L|L]; cbn [negb].
  - destruct (existsb is_other l) eqn:Eo.
    + split; [intros (r & E); discriminate|]. intros (_ & H). apply existsb_exists in Eo as (g & Hg & E). destruct (H g Hg) as (s & -> & _). discriminate.
    + assert (Gs : forall g, In g l -> exists s, g = GState s).
      { intros g Hg. destruct g as [s|]; [now exists s|]. assert (X : existsb is_other l = true) by (apply existsb_exists; now exists (GOther (G := G))). congruence. }
      destruct (forallb (fun s => has_shape ch ndim (fst s)) (given_states l)) eqn:Es; cbn [negb bind].
      * split; [intros _|intros _; eexists; reflexivity]. split; [exact L|]. intros g Hg. destruct (Gs g Hg) as (s & ->). exists s. split; [reflexivity|]. apply has_shape_spec.
        rewrite forallb_forall in Es. apply (Es s). unfold given_states. apply in_flat_map. exists (GState s). split; [exact Hg|now left].
      * split; [intros (r & E); discriminate|]. intros (_ & H). exfalso. assert (X : forallb (fun s => has_shape ch ndim (fst s)) (given_states l) = true); [|congruence].
        apply forallb_forall. intros s Hs. unfold given_states in Hs. apply in_flat_map in Hs as (g & Hg & Hs). destruct (H g Hg) as (s' & -> & Sh). destruct Hs as [->|[]]. now apply has_shape_spec.
  - split; [intros (r & E); discriminate|]. intros (X & _). contradiction.
Qed.
(** then there is no warm-up *)
Theorem C103_no_warmup : forall ndim warmup warmup' steps chains thinning n l, run ndim warmup steps chains thinning n (Some l) = run ndim warmup' steps chains thinning n (Some l).
Proof. reflexivity. Qed.
Lemma given_map (l : list (coords * G)) : given_states (map GState l) = l.
Proof. induction l as [|s l IH]; [reflexivity|]. unfold given_states in *. cbn [map flat_map app]. now rewrite IH. Qed.
Lemma steps_shape ch nd : (forall t x, shape ch nd (fst x) -> shape ch nd (fst (snd (step t x)))) -> forall n x, shape ch nd (fst (snd x)) -> shape ch nd (fst (snd (steps_n n x))).
Proof. intros H. induction n as [|n IH]; intros x Hx; [exact Hx|]. cbn [Resume.steps_n]. apply IH. now apply H. Qed.
(** sampling [a] steps and continuing from the returned states for [b] steps is sampling [a + b] steps, sampler by sampler *)
Theorem C103_continue : no_tuning -> forall ndim warmup warmup' a b chains thinning n,
  let ch := default_chains ndim chains in
  length (fresh n ch) = n -> (forall s, In s (fresh n ch) -> shape ch ndim (fst s)) ->
  (forall t x, shape ch ndim (fst x) -> shape ch ndim (fst (snd (step t x)))) ->
  exists s1 st1 s2 st2, run ndim warmup a chains thinning n None = Ok (s1, st1) /\
  run ndim warmup' b chains thinning n (Some (map GState st1)) = Ok (s2, st2) /\
  run ndim warmup (a + b) chains thinning n None = Ok (map (fun p => fst p ++ snd p) (combine s1 s2), st2) /\ length s1 = n /\ length s2 = n.
Proof.
  intros NT ndim warmup warmup' a b chains thinning n ch Ln Hs Hst. unfold Resume.run. fold (default_chains ndim chains). fold ch. cbv zeta. cbn [bind fst snd].
  set (f := sampling_fn warmup a thinning). set (l := fresh n ch) in *.
  exists (map fst (map f l)), (map snd (map f l)), (map fst (map (sampling_fn 0 b thinning) (map snd (map f l)))), (map snd (map (sampling_fn 0 b thinning) (map snd (map f l)))).
  split; [reflexivity|]. split; [|split; [|rewrite !map_length; auto]].
  - match goal with |- context [(?a =? n)%nat] => replace (a =? n)%nat with true by (symmetry; apply Nat.eqb_eq; rewrite !map_length; exact Ln) end. cbn [negb]. assert (Ex : existsb is_other (map GState (map snd (map f l))) = false).
    { induction (map snd (map f l)) as [|s r IH]; [reflexivity|exact IH]. }
    rewrite Ex, given_map. assert (Al : forallb (fun s => has_shape ch ndim (fst s)) (map snd (map f l)) = true).
    { apply forallb_forall. intros s Hin. rewrite map_map in Hin. apply in_map_iff in Hin as (s0 & <- & H0). apply has_shape_spec. unfold f. destruct (C103_schedule NT warmup a thinning s0) as (_ & _ & ->).
      apply steps_shape; [exact Hst|]. now apply Hs. }
    rewrite Al. cbn [negb bind fst snd]. reflexivity.
  - f_equal. rewrite !map_map. f_equal.
    + clear -NT. induction l as [|s l IH]; [reflexivity|]. cbn [map combine fst snd]. f_equal; [|exact IH]. unfold f, Resume.sampling_fn. cbv zeta. cbn [fst snd Resume.keep].
      rewrite keep_app. f_equal. f_equal. f_equal. symmetry. apply (keep_t _ _ NT).
    + apply map_ext. intros s. unfold f. destruct (C103_schedule NT warmup (a + b) thinning s) as (_ & _ & ->). destruct (C103_schedule NT 0 b thinning (snd (sampling_fn warmup a thinning s))) as (_ & _ & ->).
      destruct (C103_schedule NT warmup a thinning s) as (_ & _ & ->). cbn [Nat.add].
      assert (E : (t0, snd (steps_n (warmup + a * thinning) (t0, s))) = steps_n (warmup + a * thinning) (t0, s)) by (rewrite (surjective_pairing (steps_n (warmup + a * thinning) (t0, s))) at 2; now rewrite (steps_t0 _ NT)).
      rewrite E, <- steps_add. do 2 f_equal. lia.
Qed.
End Ensemble.
Print Assumptions C103_schedule.
Print Assumptions C103_states.
Print Assumptions C103_no_warmup.
Print Assumptions C103_continue.
(** with tuning (the default of zeus) neither holds: what is learned in the warm-up is not used for the samples, nor after a continuation *)
Theorem C103_tuning_lost_refuted : exists (t0 : nat) (step : nat -> coords * unit -> nat * (coords * unit)) st,
  nth_error (fst (sampling_fn t0 step 3 1 1 st)) 0 <> Some (fst (snd (steps_n step 4 (t0, st)))) /\
  nth_error (fst (sampling_fn t0 step 0 2 1 st)) 1 <> nth_error (fst (sampling_fn t0 step 0 1 1 (snd (sampling_fn t0 step 0 1 1 st)))) 0.
Proof.
  exists 1%nat, (fun t x => (S t, ([[INR t]], tt))), ([[0%R]], tt). split; cbn; intros E; injection E as E; lra.
Qed.
Print Assumptions C103_tuning_lost_refuted.
Example C103_continue_case : let step := fun (t : unit) (x : coords * nat) => (t, (map (map (fun v => v + INR (snd x))%R) (fst x), S (snd x))) in
  no_tuning step /\ (forall t x, shape 1 1 (fst x) -> shape 1 1 (fst (snd (step t x)))) /\ shape 1 1 [[2%R]].
Proof.
  cbv zeta. split; [intros [] x; reflexivity|]. split; [|split; [reflexivity|repeat constructor]]. intros t x (L & F). cbn [fst snd]. split; [now rewrite map_length|].
  apply Forall_map. eapply Forall_impl; [|exact F]. cbn. intros r Hr. now rewrite map_length.
Qed.

(** ** samplers run by numpyro *)
(** the state that a run of a sampler returns *)
Definition own_state (k : kernel) : kstate := match k with KNuts => SHmc | KBarker => SBarker | KSa => SSa | KBlackjax => SBlackjax | KAies => SEnsemble IAies | KEss => SEnsemble IEss end.
(** a state is accepted exactly if it is one of the same sampler; the sampling starts from it *)
Theorem C103_numpyro_state : forall devices nparam k warmup steps chains n_parallel thinning init strategy s,
  (s = own_state k -> exists m, method devices nparam k warmup steps chains n_parallel thinning init None strategy (Some s) = Ok m /\ m_state m = Some s) /\
  (s <> own_state k -> method devices nparam k warmup steps chains n_parallel thinning init None strategy (Some s) = Err ValueError).
Proof.
  intros devices nparam k warmup steps chains n_parallel thinning init strategy s. split.
  - intros ->. destruct k; cbn; eexists; (split; [reflexivity|reflexivity]).
  - intros N. destruct k, s as [| |[]| | |]; cbn in N |- *; try reflexivity; now elim N.
Qed.
Print Assumptions C103_numpyro_state.
(** every chain gives the asked number of draws, one every [thinning] steps, after the warm-up; the number of chains is the one asked for, or one for each device *)
Theorem C103_numpyro_run : forall devices nparam k warmup steps chains n_parallel thinning init strategy state m, (1 <= thinning)%Z ->
  method devices nparam k warmup steps chains n_parallel thinning init None strategy state = Ok m ->
  kept_draws m = steps /\ m_samples m = (steps * thinning)%Z /\ m_warmup m = warmup /\ m_state m = state /\
  let count := if ensemble_kernel k then n_parallel else chains in
  (count = None -> m_chains m = Z.of_nat devices) /\ (forall c, count = Some c -> m_chains m = c).
Proof.
  intros devices nparam k warmup steps chains n_parallel thinning init strategy state m Ht H. unfold method, run_numpyro in H.
  assert (St : forall s, set_state k state = Ok s -> s = state).
  { intros s E. destruct state as [x|]; [|now injection E as <-]. unfold set_state in E. apply bind_ok in E as (? & _ & E). apply bind_ok in E as (? & _ & E). now injection E as <-. }
  destruct (ensemble_kernel k); cbn [negb andb] in H; apply bind_ok in H as (s & Hs & H); injection H as <-; apply St in Hs as ->; unfold kept_draws;
    cbn [m_samples m_thinning m_warmup m_state m_chains]; rewrite Z.div_mul by lia; repeat (split; [reflexivity|]); split; [intros ->|intros c ->|intros ->|intros c ->]; reflexivity.
Qed.
Print Assumptions C103_numpyro_run.
(** the ensemble samplers: [chains] are the walkers of every sampler, four for each parameter unless given; every sampler gets a position for every walker *)
Theorem C103_walkers : forall devices nparam k warmup steps chains n_parallel thinning init kw strategy state m, ensemble_kernel k = true ->
  method devices nparam k warmup steps chains n_parallel thinning init kw strategy state = Ok m ->
  m_walkers m = Some (match chains with Some w => w | None => 4 * Z.of_nat nparam end)%Z /\ walkers_ok m = true.
Proof.
  intros devices nparam k warmup steps chains n_parallel thinning init kw strategy state m He H. unfold method, run_numpyro in H. rewrite He in H. cbn [negb andb] in H.
  apply bind_ok in H as (s & _ & H). injection H as <-. cbn [m_walkers]. split; [destruct chains; reflexivity|].
  unfold walkers_ok, per_chain. cbn [m_walkers m_start m_chains]. destruct (Z.eqb_spec match n_parallel with Some c => c | None => Z.of_nat devices end 1) as [E|E].
  - apply Nat.eqb_refl.
  - rewrite Nat.eqb_refl. apply Nat.eqb_refl.
Qed.
Print Assumptions C103_walkers.
(** the others start where the user says; a strategy given in the keyword arguments is used only if no values are given *)
Theorem C103_numpyro_start : forall devices nparam k warmup steps chains n_parallel thinning init strategy state m, ensemble_kernel k = false ->
  method devices nparam k warmup steps chains n_parallel thinning init None strategy state = Ok m ->
  (forall d, init = Some d -> m_start m = FromUser d) /\ (init = None -> forall s, strategy = Some s -> m_start m = FromStrategy s) /\ (init = None -> strategy = None -> m_start m = FromDefault).
Proof.
  intros devices nparam k warmup steps chains n_parallel thinning init strategy state m He H. unfold method, run_numpyro in H. rewrite He in H. cbn [negb andb] in H.
  apply bind_ok in H as (s & _ & H). injection H as <-. cbn [m_start]. split; [intros d ->; reflexivity|]. split; [intros -> s' ->; reflexivity|intros -> ->; reflexivity].
Qed.
Print Assumptions C103_numpyro_start.
Example C103_numpyro_case : exists m, method 4 3 KAies 100 50 None (Some 1%Z) 2 None None None (Some (SEnsemble IAies)) = Ok m /\ m_walkers m = Some 12%Z /\ kept_draws m = 50%Z.
Proof. eexists. split; [reflexivity|split; reflexivity]. Qed.
