(** Model of the summaries shown for a posterior, infer/results.py [PosteriorResult] and infer/fit.py [_get_ess]: averages, medians, deviances,
    effective sample sizes, the tables of the printed result and the start of the best fit.  The draws of a quantity are given per chain. *)
From Coq Require Import Ascii String.
From Verif Require Import RBase Data Namespace FitInput HelperData ModelInfo HelperNames Batch Results Summary Loglike.
From Coq Require Import List.
Open Scope list_scope.
Open Scope R_scope.

(** the draws of a number, one list for each chain; [xarray] reductions without arguments are over all chains and draws *)
Definition chains := list (list R).
Definition pooled (c : chains) : list R := concat c.
(** numbers that may be nan are [option R] *)
Definition avg (l : list R) : option R := match l with [] => None | _ => Some (mean l) end.
Definition med (l : list R) : option R := match quantile l 0.5 with Ok x => Some x | Err _ => None end.
Definition stddev (l : list R) : option R := if (length l <? 2)%nat then None else Some (sqrt (sample_cov l l)).

(** a result: names of all and of the free parameters, their draws, the log likelihoods of every draw, numbers of channels, the stored effective
    sample sizes, whether the draws were divergent *)
Record result := {
  p_all : list str; p_free : list str; p_draws : dict chains; p_ll : list (list loglikes); p_ndata : dict nat; p_stat : dict stat; p_dof : Z;
  p_ess : dict R; p_div : option (list (list bool)) }.
Definition select (names : list str) (d : dict chains) : res (dict chains) :=
  mapE (fun k => bind (opt_res KeyError (get d k)) (fun c => Ok (k, c))) names.

(** ** results.py:2178-2202 [_compute_stat], [mean], [std], [median]: one slot for each of the three *)
Inductive which := Mean | Std | Median.
Definition stat_fn (w : which) : list R -> option R := match w with Mean => avg | Std => stddev | Median => med end.
Record cache := { c_mean : option (dict (option R)); c_std : option (dict (option R)); c_median : option (dict (option R)) }.
Definition slot (w : which) (c : cache) : option (dict (option R)) := match w with Mean => c_mean c | Std => c_std c | Median => c_median c end.
Definition set_slot (w : which) (c : cache) (v : dict (option R)) : cache :=
  match w with
  | Mean => {| c_mean := Some v; c_std := c_std c; c_median := c_median c |}
  | Std => {| c_mean := c_mean c; c_std := Some v; c_median := c_median c |}
  | Median => {| c_mean := c_mean c; c_std := c_std c; c_median := Some v |}
  end.
Definition compute_stat (p : result) (c : cache) (w : which) : res (dict (option R)) * cache :=
  match slot w c with
  | Some v => (Ok v, c)
  | None => match select (p_all p) (p_draws p) with
            | Ok d => let v := map (fun e : str * chains => (fst e, stat_fn w (pooled (snd e)))) d in (Ok v, set_slot w c v)
            | Err e => (Err e, c)
            end
  end.
Definition no_cache : cache := {| c_mean := None; c_std := None; c_median := None |}.
(** the caches after some reads *)
Definition reads (p : result) (ws : list which) : cache := fold_left (fun c w => snd (compute_stat p c w)) ws no_cache.

(** ** results.py:2226-2245 [deviance] *)
(** an entry of the stored log likelihoods, for every draw; only those with one number per draw are read *)
Definition ll_entry (ll : list (list loglikes)) (key : str) : res chains :=
  mapE (fun c => mapE (fun l => match get (stored_loglike l) key with Some [x] => Ok x | _ => Err KeyError end) c) ll.
Definition stat_key (k : str) : str := if str_eqb k total_key then k else k ++ s2l "_total".
Definition deviance (p : result) : res (dict (option R * option R)) :=
  mapE (fun e : str * nat => bind (ll_entry (p_ll p) (stat_key (fst e))) (fun c =>
    let d := map (fun x => -2 * x) (pooled c) in Ok (fst e, (avg d, med d)))) (p_ndata p).

(** ** fit.py:699-723 [_get_ess]; [az_ess] (None: nan) and [az_reff] are the estimators of arviz *)
Section Ess.
Variables (az_ess : chains -> option R) (az_reff : chains -> R) (az_rhat : chains -> R).
Definition get_ess (params : dict chains) (free : list str) (n : Z) : res (dict Z * R) :=
  bind (mapE (fun e : str * chains => match az_ess (snd e) with None => Err ValueError (* int(nan) *) | Some x => Ok (fst e, Int_part x) end) params) (fun ess =>
  if (n =? 1)%Z then Ok (ess, 1) else
  bind (select free params) (fun l =>
  match l with [] => Err ValueError (* nothing to stack *) | _ => Ok (ess, mean (map (fun e => az_reff (snd e)) l)) end)).
Definition reff_key : str := s2l "reff".
(** fit.py:638-644: [ess | {'reff': reff}] *)
Definition ess_group (e : dict Z * R) : dict R := put (map (fun x : str * Z => (fst x, IZR (snd x))) (fst e)) reff_key (snd e).
(** results.py:2248-2260 [reff], [ess] *)
Definition reff (p : result) : res R := opt_res KeyError (get (p_ess p) reff_key).
Definition ess (p : result) : dict Z := map (fun e => (fst e, Int_part (snd e))) (filter (fun e => negb (str_eqb (fst e) reff_key)) (p_ess p)).
(** results.py:2262-2290 [rhat] *)
Definition rhat (p : result) : res (dict (option R)) :=
  bind (select (p_all p) (p_draws p)) (fun d =>
  let n := match d with [] => O | e :: _ => length (snd e) end in
  Ok (map (fun e => (fst e, if (n =? 1)%nat then None else Some (az_rhat (snd e)))) d)).
(** results.py:2292-2303 [divergence] *)
Definition divergence (p : result) : nat := match p_div p with Some d => length (filter (fun b => b) (concat d)) | None => O end.

(** ** results.py:1393-1491 [_tabs]: the numbers of the printed tables, before they are rounded *)
Record prow := { w_name : str; w_mean : option R; w_std : option R; w_median : option R; w_ci : option (R * R); w_ess : Z; w_rhat : option R }.
Definition ci_row (l : list R) : option (R * R) :=
  match quantile l (0.5 + 0.683 * (-0.5)), quantile l (0.5 + 0.683 * 0.5), quantile l 0.5 with
  | Ok a, Ok b, Ok m => Some (a - m, b - m)
  | _, _, _ => None
  end.
Definition params_tab (p : result) : res (list prow) :=
  bind (select (p_all p) (p_draws p)) (fun d =>
  bind (rhat p) (fun rh =>
  mapE (fun e : str * chains =>
    bind (opt_res KeyError (get (ess p) (fst e))) (fun n =>
    bind (opt_res KeyError (get rh (fst e))) (fun r =>
    let l := pooled (snd e) in
    Ok {| w_name := fst e; w_mean := avg l; w_std := stddev l; w_median := med l; w_ci := ci_row l; w_ess := n; w_rhat := r |}))) d)).
Definition stat_tab (p : result) : res (list (str * stat * (option R * option R) * nat) * ((option R * option R) * Z * nat)) :=
  bind (deviance p) (fun d =>
  bind (mapE (fun e : str * nat =>
    bind (opt_res KeyError (get (p_stat p) (fst e))) (fun s =>
    bind (opt_res KeyError (get d (fst e))) (fun v => Ok (fst e, s, v, snd e)))) (filter (fun e => negb (str_eqb (fst e) total_key)) (p_ndata p))) (fun rows =>
  bind (opt_res KeyError (get d total_key)) (fun v =>
  bind (opt_res KeyError (get (p_ndata p) total_key)) (fun n => Ok (rows, (v, p_dof p, n)))))).
End Ess.
(** 1468-1475: [np.histogram] with the edges -inf, [good], 1, inf: values below each inner edge are counted, and subtracted; the bins contain
    their lower edge.  A shape that is infinite is None *)
Definition khat := option R.
Definition below (e : R) (k : khat) : bool := match k with Some x => Rltb x e | None => false end.
Definition khat_counts (good : R) (ks : list khat) : res (Z * Z * Z) :=
  if Rltb 1 good then Err ValueError (* the edges must increase *) else
  let n e := Z.of_nat (length (filter (below e) ks)) in
  Ok (n good - 0, n 1%R - n good, Z.of_nat (length ks) - n 1%R)%Z.

(** ** results.py:2126-2138 [_mle]: the draw from which the search of the best fit starts; [np.unravel_index] of the first of the largest *)
Section Best.
Variable B : @bijections R.
Definition best_draw (p : result) : res (nat * nat) :=
  bind (ll_entry (p_ll p) total_key) (fun c =>
  bind (argmax (pooled c)) (fun i =>
  let n := match c with [] => O | r :: _ => length r end in Ok (i / n, i mod n)%nat)).
Definition best_start (p : result) : res (list R) :=
  bind (best_draw p) (fun ij =>
  bind (select (p_free p) (p_draws p)) (fun d =>
  bind (mapE (fun e : str * chains =>
    bind (opt_res KeyError (match nth_error (snd e) (fst ij) with Some r => nth_error r (snd ij) | None => None end)) (fun v => Ok (fst e, v))) d) (fun init =>
  constr_dic_to_unconstr_arr (p_free p) B init))).
End Best.
