(** Model of the ensemble and nested samplers: infer/samplers/ensemble/base.py, emcee.py, zeus.py, numpyro.py,
    infer/samplers/ns/nautilus.py, ultranest.py and the methods of infer/fit.py that call them.  The sampling algorithms of
    the third-party packages themselves are not modelled. *)
From Coq Require Import Ascii String.
From Verif Require Import RBase.
From Coq Require Import List ZArith Lia.
Import ListNotations.
Open Scope list_scope.

(** ** messages between the sampler processes and the progress listener *)
Inductive msg := Mwarmup | Mupdate | Msample | Mfinish.
(** emcee.py:69-90, zeus.py:72-90: what the process of one sampler puts into the queue; the iterator of the package
    yields once per iteration, [thin_by] proposals each *)
Definition sampler_msgs (warmup steps : nat) : list msg :=
  Mwarmup :: repeat Mupdate warmup ++ Msample :: repeat Mupdate steps ++ [Mfinish].
(** a progress bar: the increments received, the number of [close] calls, the increments received after a [close] *)
Record pbar := { p_updates : nat; p_closes : nat; p_late : nat }.
Definition pbar0 : pbar := {| p_updates := 0; p_closes := 0; p_late := 0 |}.
(** infer/samplers/ensemble/base.py:261-285 [_progress_listener], one message ([set_description] has no effect on the counts) *)
Definition handle (b : pbar) (m : msg) : pbar :=
  match m with
  | Mupdate => {| p_updates := S (p_updates b); p_closes := p_closes b;
                  p_late := if (0 <? p_closes b)%nat then S (p_late b) else p_late b |}
  | Mfinish => {| p_updates := p_updates b; p_closes := S (p_closes b); p_late := p_late b |}
  | _ => b
  end.
(** a sampler process: still to send [l]; returned; or stopped by an exception (or killed with the pool) with [l] unsent *)
Inductive proc := Running (l : list msg) | Returned | Crashed (l : list msg).
Record sys := { y_proc : nat -> proc; y_queue : list (nat * msg); y_bars : nat -> pbar; y_finished : nat }.
Definition upd {A} (f : nat -> A) (i : nat) (x : A) : nat -> A := fun j => if (j =? i)%nat then x else f j.
(** infer/samplers/ensemble/base.py:213-237: all the processes start with the whole program to run, the queue is empty *)
Definition sys0 (warmup steps : nat) : sys :=
  {| y_proc := fun _ => Running (sampler_msgs warmup steps); y_queue := []; y_bars := fun _ => pbar0; y_finished := 0 |}.
(** one atomic step of [n] samplers and the listener; a crash can happen at any point of a sampler *)
Inductive sstep (n : nat) : sys -> sys -> Prop :=
| s_put : forall s i m l, (i < n)%nat -> y_proc s i = Running (m :: l) ->
    sstep n s {| y_proc := upd (y_proc s) i (Running l); y_queue := y_queue s ++ [(i, m)]; y_bars := y_bars s; y_finished := y_finished s |}
| s_return : forall s i, (i < n)%nat -> y_proc s i = Running [] ->
    sstep n s {| y_proc := upd (y_proc s) i Returned; y_queue := y_queue s; y_bars := y_bars s; y_finished := y_finished s |}
| s_crash : forall s i l, (i < n)%nat -> y_proc s i = Running l ->
    sstep n s {| y_proc := upd (y_proc s) i (Crashed l); y_queue := y_queue s; y_bars := y_bars s; y_finished := y_finished s |}
| s_get : forall s i m q, (y_finished s < n)%nat -> y_queue s = (i, m) :: q ->
    sstep n s {| y_proc := y_proc s; y_queue := q; y_bars := upd (y_bars s) i (handle (y_bars s i) m);
                 y_finished := match m with Mfinish => S (y_finished s) | _ => y_finished s end |}.
Inductive ssteps (n : nat) : sys -> sys -> Prop :=
| ss_refl : forall s, ssteps n s s
| ss_step : forall s s' s'', ssteps n s s' -> sstep n s' s'' -> ssteps n s s''.
(** infer/samplers/ensemble/base.py:268: the listener thread ends when [finished] reaches the number of samplers *)
Definition listener_done (n : nat) (s : sys) : Prop := (n <= y_finished s)%nat.

(** ** process-wide settings *)
Record env := { e_start : string; e_pool : string; e_random : Z; e_merge : bool }.
Definition set_start e m := {| e_start := m; e_pool := e_pool e; e_random := e_random e; e_merge := e_merge e |}.
Definition set_pool e p := {| e_start := e_start e; e_pool := p; e_random := e_random e; e_merge := e_merge e |}.
Definition set_random e r := {| e_start := e_start e; e_pool := e_pool e; e_random := r; e_merge := e_merge e |}.
Definition set_merge e b := {| e_start := e_start e; e_pool := e_pool e; e_random := e_random e; e_merge := b |}.
(** infer/samplers/ensemble/base.py:238 [[r.get() for r in results]]: the first failed process raises *)
Fixpoint gather {A} (l : list (res A)) : res (list A) :=
  match l with
  | [] => Ok []
  | Ok x :: r => match gather r with Ok xs => Ok (x :: xs) | Err e => Err e end
  | Err e :: _ => Err e
  end.
(** infer/samplers/ensemble/base.py:161-259 [EnsembleSampler.run] as far as process-wide settings go; [states_ok] is the outcome of the checks of
    given states (174-184; 197-201, 244-245 the start method), [outcomes] what the sampler processes return or raise *)
Definition ensemble_run {A} (e : env) (states_ok : bool) (outcomes : list (res A)) : res (list A) * env :=
  if negb states_ok then (Err ValueError, e) else
  let changed := negb (String.eqb (e_start e) "spawn") in
  let e1 := if changed then set_start e "spawn" else e in
  match gather outcomes with
  | Err x => (Err x, e1)
  | Ok rs => (Ok rs, if changed then set_start e1 (e_start e) else e1)
  end.
(** ultranest.py:91-103: [seeded] is the state after [np.random.seed], [after] the one the sampler leaves *)
Definition ultranest_run {A} (e : env) (seeded after : Z) (outcome : res A) : res A * env :=
  let prev := e_random e in
  let e2 := set_random (set_random e seeded) after in
  match outcome with Err x => (Err x, e2) | Ok a => (Ok a, set_random e2 prev) end.
(** nautilus.py:51-80 *)
Definition nautilus_init {A} (e : env) (pool : bool) (outcome : res A) : res A * env :=
  if pool then
    let changed := negb (String.eqb (e_start e) "spawn") in
    let e1 := set_pool (if changed then set_start e "spawn" else e) "multiprocess.Pool" in
    match outcome with
    | Err x => (Err x, e1)
    | Ok a => (Ok a, set_pool (if changed then set_start e1 (e_start e) else e1) (e_pool e))
    end
  else (outcome, e).
(** util/config.py:114-133 [jax_pmap_shmap_merge]: the body may do anything else to the environment *)
Definition with_merge {A} (e : env) (flag : bool) (body : env -> res A * env) : res A * env :=
  let old := e_merge e in
  let '(r, e') := body (set_merge e flag) in (r, set_merge e' old).

(** ** collecting the samples *)
(** numpy [transpose] / [swapaxes(1, 2)] of one sampler: [m] has a row per step and a column per walker *)
Definition walkers_first {A} (d : A) (walkers : nat) (m : list (list A)) : list (list A) :=
  map (fun w => map (fun row => nth w row d) m) (seq 0 walkers).
(** infer/samplers/ensemble/base.py:247-256; infer/fit.py:725-742 does the same with [swapaxes] and [reshape] *)
Definition merge_walkers {A} (d : A) (walkers : nat) (samplers : list (list (list A))) : list (list A) :=
  map (fun m => concat (walkers_first d walkers m)) samplers.
(** infer/fit.py:1694-1701, 1782-1794: [x[None]] of the samples of a nested sampler *)
Definition one_chain {A} (samples : list A) : list (list A) := [samples].
(** infer/fit.py:1700-1701, 1793-1794: [len(samples[first])], [ess / total_sample] *)
Definition nested_reff {A} (ess : R) (samples : list (list A)) : R := (ess / INR (length samples))%R.
(** infer/fit.py:1629: jaxns uses the number of samples itself *)
Definition jaxns_reff (ess total : R) : R := (ess / total)%R.
(** infer/fit.py:1776-1801, ultranest.py:91-120: with [read_file_config] no sampler object is made, so
    [print_results] raises; [ess] is then 0 *)
Definition ultranest_fit {A} (read_file print_result : bool) (ess : Z) (samples : list A) : res (Z * list A) :=
  if read_file then if print_result then Err RuntimeError else Ok (0%Z, samples) else Ok (ess, samples).

(** ** starting points *)
Open Scope R_scope.
(** infer/samplers/ensemble/base.py:165-169: [jitter * init], jitter drawn from [0.9, 1.1] per sampler, walker and coordinate *)
Definition start_point (jitter : nat -> nat -> nat -> R) (init : nat -> R) (sampler walker : nat) : nat -> R :=
  fun d => jitter sampler walker d * init d.
(** infer/fit.py:808-816: uniform between [init - 0.1 |init|] and [init + 0.1 |init|]; [u] in [0, 1) is the random number *)
Definition numpyro_start (u : nat -> nat -> nat -> R) (init : nat -> R) (sampler walker : nat) : nat -> R :=
  fun d => let j := 0.1 * Rabs (init d) in (init d - j) + u sampler walker d * ((init d + j) - (init d - j)).
(** the unconstrained value of a parameter with a uniform prior on (a, b) (numpyro's interval bijection, inverted) *)
Definition unconstrained (a b x : R) : R := let p := (x - a) / (b - a) in ln (p / (1 - p)).
(** the moves of the ensembles used (fit.py:1216: stretch move; emcee's default is the same; zeus slices along
    differences of walkers): walker [k] moves along the line through walkers [j] and [i], if accepted *)
Inductive move := Stretch (k j : nat) (z : R) | Along (k i j : nat) (g : R) | Stay.
Definition do_move (X : nat -> nat -> R) (mv : move) : nat -> nat -> R :=
  match mv with
  | Stretch k j z => upd X k (fun d => X j d - (X j d - X k d) * z)
  | Along k i j g => upd X k (fun d => X k d + g * (X i d - X j d))
  | Stay => X
  end.
(** infer/samplers/ensemble/base.py:165-166: the seeds; [seed0] is the draw of [integers(2**32)] *)
Definition seeds (seed0 : Z) (n_parallel : nat) : list Z := map (fun k => (seed0 + Z.of_nat k)%Z) (seq 0 (S n_parallel)).
(** zeus.py:100-101 with numpy's [RandomState]: seeds of 2^32 and above are refused *)
Definition zeus_states (seed0 : Z) (n_parallel : nat) : res (list Z) :=
  if forallb (fun s => (0 <=? s) && (s <? 2 ^ 32))%Z (tl (seeds seed0 n_parallel)) then Ok (tl (seeds seed0 n_parallel)) else Err ValueError.
(** infer/fit.py:743-752: the sample statistics after renaming, and the derived tree depth *)
Definition sample_stat_names (extra : list string) : list string :=
  let names := map (fun k => if String.eqb k "num_steps" then "n_steps"%string else k) extra in
  let has k := existsb (String.eqb k) names in
  if (negb (has "tree_depth"%string) && has "num_steps"%string)%bool then names ++ ["tree_depth"%string] else names.
