(** Model of infer/samplers/blackjax/nuts.py: the NUTS kernel of BlackJAX with window adaptation, as it is driven by numpyro's [MCMC].
    One transition of NUTS, the adaptation of the step size and mass matrix, and the splitting of keys are arbitrary functions
    (blackjax, jax); what is modelled is how the class threads its state through them.  The momentum, energy, number of steps and tree
    depth that are only copied from the transition's report, and chains run in parallel (each has its own state), are left out. *)
From Verif Require Import RBase Base.
From Coq Require Import List.
Open Scope list_scope.
Open Scope R_scope.

(** 83-86 [__init__]: exactly one of [model] and [potential_fn] *)
Definition mk_nuts (model potential : bool) : res unit :=
  if negb (xorb (negb model) (negb potential)) then Err ValueError else Ok tt.
(** 114-132, 150-157 [init]: the starting point; [from_model]: what [initialize_model] finds, [given]: the argument [init_params] *)
Definition init_params {Z} (model : bool) (from_model : Z) (given : option Z) : res Z :=
  if model then Ok from_model else match given with Some z => Ok z | None => Err ValueError end.

Section Nuts.
Context {Z G M A K Stage : Type}. (* positions, gradients, mass matrices, adaptation states, keys, stages of the warmup *)
Variables (neg : G -> G) (U : Z -> R) (gradU : Z -> G). (* the potential and its gradient *)
(** blackjax [HMCState] *)
Record hmc := { h_pos : Z; h_ld : R; h_grad : G }.
(** blackjax [build_kernel(...)]: the new state, the acceptance rate and whether the trajectory diverged *)
Variable transition : K -> hmc -> R -> M -> hmc * (R * bool).
(** [wa.base]: [adapt_init], [adapt_step], [adapt_final]; the step size and mass matrix of an adaptation state; [wa.build_schedule] *)
Variables (adapt_init : Z -> R -> A) (adapt_step : A -> Stage -> Z -> R -> A) (adapt_final : A -> R * M) (a_step : A -> R) (a_mass : A -> M).
Variable schedule : nat -> nat -> Stage. (* of the length of the warmup and the position *)
Variable split1 : K -> K. (* [random.split(key, 1)[0]] *)

(** 14-62 *)
Record state := { n_i : nat; n_z : Z; n_grad : G; n_pe : R; n_rate : option R; n_mean : R; n_div : bool; n_step : R; n_mass : M; n_adapt : A; n_key : K }.
(** 236-258: the state before the first iteration *)
Definition start (z : Z) (step0 : R) (key : K) : state :=
  let a := adapt_init z step0 in
  {| n_i := 0; n_z := z; n_grad := gradU z; n_pe := U z; n_rate := None; n_mean := 0; n_div := false;
     n_step := a_step a; n_mass := a_mass a; n_adapt := a; n_key := key |}.
(** 188-196: what the transition is run with *)
Definition used_step (warmup : nat) (s : state) : R := if (S (n_i s) <=? warmup)%nat then a_step (n_adapt s) else n_step s.
Definition used_mass (warmup : nat) (s : state) : M := if (S (n_i s) <=? warmup)%nat then a_mass (n_adapt s) else n_mass s.
(** 178-235 [mcmc_kernel] *)
Definition mcmc_kernel (warmup : nat) (s : state) : state :=
  let i := S (n_i s) in
  let key := split1 (n_key s) in
  let h := {| h_pos := n_z s; h_ld := - n_pe s; h_grad := neg (n_grad s) |} in
  let '(h', (rate, div)) := transition key h (used_step warmup s) (used_mass warmup s) in
  let a := if (i <=? warmup)%nat then adapt_step (n_adapt s) (schedule warmup (n_i s)) (h_pos h') rate else n_adapt s in
  let '(step, mass) := adapt_final a in
  let n := if (i <=? warmup)%nat then i else (i - warmup)%nat in
  {| n_i := i; n_z := h_pos h'; n_grad := neg (h_grad h'); n_pe := - h_ld h'; n_rate := Some rate;
     n_mean := n_mean s + (rate - n_mean s) / INR n; n_div := div; n_step := step; n_mass := mass; n_adapt := a; n_key := key |}.
Fixpoint iterations (warmup n : nat) (s : state) : state := match n with O => s | S n => mcmc_kernel warmup (iterations warmup n s) end.
(** numpyro keeps the states of the sampling phase; continued from a state ([post_warmup_state]) the warmup is skipped, but the kernel is
    set up with the length of the warmup given to the new call, and the key of the state is replaced by that of the new call (numpyro:
    [MCMC._single_chain_mcmc], [MCMC.run]) *)
Definition rekey (key : K) (s : state) : state :=
  {| n_i := n_i s; n_z := n_z s; n_grad := n_grad s; n_pe := n_pe s; n_rate := n_rate s; n_mean := n_mean s; n_div := n_div s;
     n_step := n_step s; n_mass := n_mass s; n_adapt := n_adapt s; n_key := key |}.
Definition sampled (warmup steps : nat) (s : state) : list state := map (fun k => iterations warmup (warmup + S k) s) (seq 0 steps).
Definition continued (warmup steps : nat) (key : K) (s : state) : list state := map (fun k => iterations warmup (S k) (rekey key s)) (seq 0 steps).
End Nuts.
