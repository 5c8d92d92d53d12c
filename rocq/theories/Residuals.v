(** Model of plot/residuals.py and of the methods of plot/data.py that use it. *)
From Verif Require Import RBase Gibbs.
From Coq Require Import List ZArith.
Import ListNotations.
Open Scope R_scope.

(** scipy.stats.poisson: probability of [i] and of at most [k] events (0 for negative [k]); reals, no rounding *)
Definition poisson_pmf (lam : R) (i : nat) : R := exp (- lam) * lam ^ i / INR (fact i).
Definition poisson_cdf (k : Z) (lam : R) : R := if (k <? 0)%Z then 0 else sum_f_R0 (poisson_pmf lam) (Z.to_nat k).
Definition poisson_sf (k : Z) (lam : R) : R := 1 - poisson_cdf k lam.

(** residuals.py:426-427, one value (also 461-465, 519-524 with one dof) *)
Definition dev (k lam : R) : R := 2 * (xlogy k (k / lam) - (k - lam)).
Definition deviance_residual (k lam : R) : R := (if Rleb lam k then 1 else -1) * sqrt (dev k lam).
(** 430-478, 481-537 with [dof] all one *)
Definition deviance_residual_pp (k1 k2 lam1 lam2 : R) (sign : option R) : R :=
  let r := sqrt (dev k1 lam1 + dev k2 lam2) in match sign with None => r | Some s => s * Rabs r end.
Definition deviance_residual_pn (k lam v mu sigma : R) (sign : option R) : R :=
  let z := (v - mu) / sigma in let r := sqrt (dev k lam + z * z) in match sign with None => r | Some s => s * Rabs r end.
(** 91-96 with [minus] *)
Definition pit_poisson (k : Z) (lam : R) : R * R := (poisson_cdf (k - 1) lam, poisson_cdf k lam).

(** [np.count_nonzero(sim <= obs, axis=0) / nsim], one channel; [sim] has [nsim] values *)
Definition simulated_pit (sim : list R) (obs : R) : R := INR (length (filter (fun s => Rleb s obs) sim)) / INR (length sim).
(** 217-234 with [minus]; a simulation is the pair of the two Poisson draws *)
Definition pit_poisson_poisson (k1 k2 : Z) (ratio : R) (sims : list (Z * Z)) : R * R :=
  let sim := map (fun s => IZR (fst s) - ratio * IZR (snd s)) sims in
  let obs := IZR k1 - ratio * IZR k2 in
  let obs_minus := Rmax (IZR k1 - 1 - ratio * IZR k2) (IZR k1 - ratio * (IZR k2 + 1)) in
  (simulated_pit sim obs_minus, simulated_pit sim obs).
(** 332-344 *)
Definition pit_poisson_normal (k : Z) (v ratio : R) (sims : list (Z * R)) : R :=
  simulated_pit (map (fun s => IZR (fst s) - ratio * snd s) sims) (IZR k - ratio * v).

Section Normal.
(** the quantile function of the standard normal distribution, finite inside (0, 1); [None] stands for an infinity *)
Variable q : R -> R.
Definition ppf (p : R) : option R := if (Rltb 0 p && Rltb p 1)%bool then Some (q p) else None.
(** [rng.uniform(lo, hi)]; [u] in [0, 1) is the random number *)
Definition uniform (u lo hi : R) : R := lo + u * (hi - lo).
(** data.py:612-656 [quantile_residuals_mle], statistics pgstat and wstat, one channel: residual, lower, upper *)
Definition quantile_sim (random : bool) (u : R) (nsim : nat) (pits : R * R) : option R * bool * bool :=
  let pit := if random then uniform u (fst pits) (snd pits) else snd pits in
  if Reqb pit 0 then (ppf (1 / INR nsim), false, true)
  else if Reqb pit 1 then (ppf (1 - 1 / INR nsim), true, false) else (ppf pit, false, false).
(** residuals.py:279-293, 393-403: the other implementation *)
Definition quantile_sim_other (random : bool) (u : R) (nsim : nat) (pits : R * R) : option R * bool * bool :=
  let pit := if random then uniform u (fst pits) (snd pits) else snd pits in
  if Reqb pit 0 then (ppf (1 / INR nsim), true, false)
  else if Reqb pit 1 then (ppf (1 - 1 / INR nsim), false, true) else (ppf pit, false, false).
(** residuals.py:141-181 [quantile_residuals_poisson], one channel *)
Definition quantile_poisson (k : Z) (lam u : R) (keep_sign random : bool) : option R :=
  let fallback := Some ((IZR k - lam) / sqrt lam) in
  let r :=
    if Rltb (IZR k) lam then
      let cdf := if random then uniform u (poisson_cdf (k - 1) lam) (poisson_cdf k lam) else poisson_cdf k lam in
      if Reqb cdf 0 then fallback else ppf cdf
    else
      let sf := if random then uniform u (poisson_sf k lam) (poisson_sf (k - 1) lam) else poisson_sf k lam in
      if Reqb sf 0 then fallback else ppf (1 - sf) in
  if keep_sign then option_map (fun x => (if Rleb lam (IZR k) then 1 else -1) * Rabs x) r else r.
(** data.py:612-642, statistics cstat and pstat, one channel *)
Definition quantile_cstat (random : bool) (k : Z) (lam u u' : R) : option R :=
  let pits := pit_poisson k lam in
  let pit := if random then uniform u (fst pits) (snd pits) else snd pits in
  if (Reqb pit 0 || Reqb pit 1)%bool then quantile_poisson k lam u' (negb random) random else ppf pit.
End Normal.

(** residuals.py:20-29: [if dof == 1.0] for an array of degrees of freedom (numpy refuses the truth value of more than
    one element) *)
Definition combine_array (r1 r2 dof : list R) : res unit :=
  if negb ((length dof =? length r1) && (length r1 =? length r2))%nat then Err ValueError
  else if (length dof =? 1)%nat then Ok tt else Err ValueError.
