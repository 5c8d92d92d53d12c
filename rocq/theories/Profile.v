(** Model of the profile likelihood intervals of a maximum likelihood fit, infer/results.py:645-837.  The minimizer
    (iminuit) is not modelled: [minos] stands for the offsets it reports. *)
From Coq Require Import Ascii String.
From Verif Require Import RBase Data Namespace FitInput HelperData ModelInfo HelperNames Batch Results ModelAlg.
From Coq Require Import List.
Open Scope list_scope.
Open Scope R_scope.

(** 724-764 [_ci_free].  [fitted]: the minimum in unconstrained space; [minos k]: lower and upper offset of parameter [k];
    [T]: the site transforms.  [unconstr_dic_to_params_dic] restricted to free parameters. *)
Definition ci_free (T : str -> R -> R) (fitted : dict R) (minos : str -> R * R) (names : list str) : res (dict (R * R)) :=
  let others := filter (fun e : str * R => negb (mem (fst e) names)) fitted in
  let ends (side : R * R -> R) :=
    bind (mapE (fun k => bind (opt_res KeyError (get fitted k)) (fun v => Ok (k, v + side (minos k)))) names) (fun d =>
    Ok (transform T (puts d others))) in
  bind (ends fst) (fun lower => bind (ends snd) (fun upper =>
  mapE (fun k => bind (opt_res KeyError (get lower k)) (fun a => bind (opt_res KeyError (get upper k)) (fun b => Ok (k, (a, b))))) names)).
(** 801-805: interval of a function (or composite parameter) from its best value *)
Definition ci_fn (fns : dict R) (minos : str -> R * R) : dict (R * R) :=
  map (fun e : str * R => (fst e, (snd e + fst (minos (fst e)), snd e + snd (minos (fst e))))) fns.
(** 656-682, 710-722: method 'profile'; [None] stands for nan.  [comp], [fns]: best values of the composite parameters
    and the functions asked for *)
Definition ci_profile (T : str -> R -> R) (valid : bool) (fitted : dict R) (minos : str -> R * R) (free : list str) (comp fns : dict R)
  : res (dict (option (R * R))) :=
  if negb valid then Ok (map (fun k => (k, None)) (free ++ map fst comp ++ map fst fns)) else
  bind (ci_free T fitted minos free) (fun res1 =>
  let all := puts (puts res1 (ci_fn comp minos)) (ci_fn fns minos) in
  Ok (map (fun e : str * (R * R) => (fst e, Some (snd e))) all)).
(** 697-700 *)
Definition errors_of (i : R * R) (mle : R) : R * R := (fst i - mle, snd i - mle).

(** 809-837 [_loss_factory]: deviance plus penalty; [None] stands for nan or infinity *)
Definition loss {P : Type} (deviance fn : P -> R) (rtol : R) (x0 : R) (p : P) : option R :=
  if Reqb x0 0 then None else let s1 := fn p / x0 - 1 in Some (deviance p + s1 * s1 / rtol).
(** 775-793 [get_minuit_iter_rtol]: the tolerance of the fit that is used; [accurate r]: iminuit's verdict *)
Definition choose_rtol (accurate : R -> bool) (rtol rel_err : R) : R :=
  if accurate rtol then rtol else
  let rtol_max := Rmin 0.01 (Rmin (0.01 * rel_err) (100 * rtol)) in
  if Rltb rtol rtol_max then
    match find accurate (tl (geomspace rtol rtol_max 15)) with Some r => r | None => rtol end
  else rtol.
(** 648-655: checks of the tolerances *)
Definition check_rtol (rtol : dict R) : res unit := if existsb (fun e : str * R => Rltb 0.01 (snd e)) rtol then Err ValueError else Ok tt.
