(** Model of the cached simulation results, infer/results.py: MLEResult.boot, PosteriorResult.ppc, gof, _params_dist. *)
From Coq Require Import Ascii String.
From Verif Require Import RBase Data Namespace FitInput HelperData Batch.
From Coq Require Import List.
Open Scope list_scope.

(** [x[valid]] with a boolean mask *)
Definition keep {A} (mask : list bool) (l : list A) : list A := map snd (filter fst (combine mask l)).
Definition keep_tree {A} (mask : list bool) (t : dict (list A)) : dict (list A) := map (fun e => (fst e, keep mask (snd e))) t.
(** [jax.tree.map(lambda x: x[valid], result)], results.py:457-458, 2095-2096 *)
Definition keep_result (r : result) : result :=
  let v := r_valid r in
  {| r_data := keep v (r_data r); r_params := keep_tree v (r_params r); r_models := keep_tree v (r_models r);
     r_total := keep v (r_total r); r_group := keep_tree v (r_group r); r_point := keep_tree v (r_point r); r_valid := v |}.
(** [np.sum(sim >= obs, axis=0) / len(sim)]; [None] is nan *)
Definition pvalue (obs : R) (sim : list R) : option R :=
  if (length sim =? 0)%nat then None
  else Some (INR (length (filter (fun s => Rleb obs s) sim)) / INR (length sim)).
Definition pvalues (obs : list R) (sim : list (list R)) : list (option R) :=
  map (fun j => pvalue (nth j obs 0) (map (fun s => nth j s 0) sim)) (seq 0 (length obs)).

(** the deviance of the data at the best fit: results.py:336 [_deviance] *)
Record deviance := { d_total : R; d_group : str -> R; d_point : str -> list R }.
(** BootstrapResult, results.py:2600-2640, and PPCResult, 2780-2815 (whose extra fields are [params_rep] and
    [models_rep]: the values of the parameters and of the models from which the data were simulated) *)
Record sim_result := { s_rep : option (dict nd * list (dict (list R))); s_fit : result;
  p_total : option R; p_group : dict (option R); p_point : dict (list (option R));
  s_n : Z; s_nvalid : nat; s_seed : Z }.
Definition sim_result_of (rep : option (dict nd * list (dict (list R)))) (dev : deviance) (r : result) (n seed : Z) : sim_result :=
  let k := keep_result r in
  {| s_rep := rep; s_fit := k; p_total := pvalue (d_total dev) (r_total k);
     p_group := map (fun e => (fst e, pvalue (d_group dev (fst e)) (snd e))) (r_group k);
     p_point := map (fun e => (fst e, pvalues (d_point dev (fst e)) (snd e))) (r_point k);
     s_n := n; s_nvalid := length (filter (fun b => b) (r_valid r)); s_seed := seed |}.

(** the arguments of boot and ppc *)
Record call_args := { a_n : Z; a_seed : option Z; a_parallel : bool; a_np : option Z }.

Section Cached.
Variable devices : nat.
Variable pred_seed : Z. (* helper.seed['pred'] *)
(** what a call does when nothing can be reused: the seed, the rounded number, and the way of running *)
Variable run : Z -> Z -> bool -> nat -> res sim_result.
(** results.py:430-474 and 2055-2113: the second component tells whether simulations were made *)
Definition cached (st : option sim_result) (a : call_args) : res (option sim_result * bool) :=
  bind (get_parallel_number devices (a_np a)) (fun p =>
  if (a_parallel a && (p =? 0)%nat)%bool then Err ZeroDivisionError else
  let r := (a_n a mod Z.of_nat p)%Z in
  let n := if (a_parallel a && negb (r =? 0)%Z)%bool then (a_n a + (Z.of_nat p - r))%Z else a_n a in
  let reuse := match st, a_seed a with
               | Some b, Some s => ((s_n b =? n)%Z && (s_seed b =? s)%Z)%bool
               | _, _ => false (* nothing stored, or [None] compared with an integer *)
               end in
  if reuse then Ok (st, false) else
  let seed := match a_seed a with None => pred_seed | Some s => s end in
  bind (run seed n (a_parallel a) p) (fun b => Ok (Some b, true))).
End Cached.

Section Runs.
Variables (data : dict fdata) (stats : dict stat) (free params : list str) (U : list R -> list R).
Variables (fit : dict (list R) -> list R -> fitted) (devices : nat).
Variable draw : Z -> request -> nat -> str -> nat -> R.
Variable dev : deviance.
(** results.py:438-474 [boot]: the best-fit values [mle] and the best-fit models [mv] *)
Variables (mle : dict R) (mv : dict (list R)).
Definition boot_params : res (dict nd) :=
  mapE (fun k => bind (opt_err KeyError (get mle k)) (fun x => Ok (k, Sc x))) free.
Definition boot_run (seed n : Z) (parallel : bool) (p : nat) : res sim_result :=
  bind boot_params (fun ip =>
  bind (simulate_and_fit data stats free params U fit devices draw seed ip (Single mv) n parallel (Some (Z.of_nat p))) (fun rc =>
  Ok (sim_result_of None dev (fst rc) n seed))).
Definition boot (pred_seed : Z) := cached devices pred_seed boot_run.

(** results.py:2064-2113 [ppc]: [select seed n] are the indices drawn by the generator, [post] and [models] the posterior
    samples of the free parameters and of the models *)
Variable select : Z -> Z -> list (nat * nat).
Variables (post : str -> nat -> nat -> R) (models : nat -> nat -> dict (list R)).
Definition ppc_params (ij : list (nat * nat)) : dict nd := map (fun k => (k, Ve (map (fun x => post k (fst x) (snd x)) ij))) free.
Definition ppc_run (seed n : Z) (parallel : bool) (p : nat) : res sim_result :=
  if (n <? 0)%Z then Err ValueError else
  let ij := select seed n in
  let ip := ppc_params ij in
  let ms := map (fun x => models (fst x) (snd x)) ij in
  bind (simulate_and_fit data stats free params U fit devices draw seed ip (Many ms) 1 parallel (Some (Z.of_nat p))) (fun rc =>
  Ok (sim_result_of (Some (ip, ms)) dev (fst rc) n seed)).
Definition ppc (pred_seed : Z) := cached devices pred_seed ppc_run.
End Runs.

(** results.py:1299-1305 and 2115-2123 [gof] *)
Definition gof (data : dict fdata) (st : option sim_result) : res (dict (option R)) :=
  match st with
  | None => Err RuntimeError
  | Some b => let p := put (p_group b) total_key (p_total b) in
              mapE (fun k => bind (opt_err KeyError (get p k)) (fun v => Ok (k, v))) (map fst (ndata data))
  end.
(** results.py:476-483 [_params_dist] of a bootstrap: the number of kept samples is a multiple of the number of devices *)
Definition params_dist (devices : nat) (b : sim_result) : dict (list R) :=
  let n := (s_nvalid b - s_nvalid b mod devices)%nat in map (fun e => (fst e, firstn n (snd e))) (r_params (s_fit b)).

(** results.py:229-236 [_to_unit_cl]; [sf] is the upper tail probability of the normal law *)
Definition to_unit_cl (sf : R -> R) (cl : R) : res R :=
  if Rleb cl 0 then Err ValueError else if Rltb cl 1 then Ok cl else Ok (1 - 2 * sf cl).
