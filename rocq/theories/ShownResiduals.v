(** Model of the residuals of the observed data: plot/data.py:409-501, 541-655
    (a maximum likelihood fit) and 717-799, 806-1017 (a posterior), with
    plot/residuals.py:44-66.  One channel at a time: nothing here mixes channels.
    float64 is [R]; a division by zero (NaN or infinity) is [None]. *)
From Coq Require Import Ascii String.
From Verif Require Import RBase Base Gibbs Likelihood Namespace HelperData Data Posterior Residuals Signs.
From Coq Require Import List ZArith.
Import ListNotations.
Open Scope list_scope.
Open Scope R_scope.

Notation stat := Likelihood.stat.
(** infer/likelihood.py:31-38 *)
Definition spec_normal (s : stat) : bool := match s with Likelihood.Chi2 => true | _ => false end.
Definition back_normal (s : stat) : bool := match s with Likelihood.Pgstat => true | _ => false end.
Definition with_back (s : stat) : bool := match s with Likelihood.Pgstat | Likelihood.Wstat => true | _ => false end.

(** one channel of the observed data: counts, background-subtracted counts and their
    error, background counts and their error, ratio, [ce] and its width; the spectrum
    of a Poisson data set holds integers (data/ogip.py, data/base.py) *)
Record chan_data := { k_spec : Z; k_net : R; k_net_err : R; k_back : R; k_back_err : R; k_ratio : R; k_width : R }.
(** the channel the likelihood sees: likelihood.py:186, 232, 281, 332, 403 *)
Definition channel_of (st : stat) (k : chan_data) (row : list R) (area : R) : channel :=
  {| ch_n := if spec_normal st then k_net k else IZR (k_spec k); ch_nerr := k_net_err k; ch_b := k_back k;
     ch_berr := k_back_err k; ch_ratio := k_ratio k; ch_row := row; ch_area := area |}.

(** the sites of a fit for one channel: X, X_Non_model, X_Noff_model and the deviance *)
Record fitted := { f_ce : R; f_on : R; f_off : R; f_dev : R }.
(** their values for photon model values [u]: likelihood.py:199-223 and its copies, helper.py:571-580 *)
Definition fitted_by (ds : dataset) (width : R) (c : channel) (u : list R) : fitted :=
  {| f_ce := Signs.ce_model ds width c u; f_on := on_model ds c u; f_off := off_model ds c u;
     f_dev := neg_double (loglike_chan ds c u) |}.

(** residuals.py:44-66 *)
Definition pearson_residuals (observed expected : R) (std : option R) : option R :=
  let s := match std with None => sqrt expected | Some s => s end in
  if Reqb s 0 then None else Some ((observed - expected) / s).
(** data.py:567-608 and 949-1000 without the last step; [sg] is [self.sign[rtype]] *)
Definition pearson_point (st : stat) (k : chan_data) (sg : R) (f : fitted) : option R :=
  let on_data := if spec_normal st then k_net k else IZR (k_spec k) in
  let std := if spec_normal st then Some (k_net_err k) else None in
  let r := pearson_residuals on_data (f_on f) std in
  if with_back st then
    let std_b := if back_normal st then Some (k_back_err k) else None in
    match r, pearson_residuals (k_back k) (f_off f) std_b with
    | Some r, Some r_b => Some (sg * sqrt (r * r + r_b * r_b))
    | _, _ => None
    end
  else r.
(** 556-565, 937-946: the root of a negative number is NaN *)
Definition deviance_point (sg d : R) : option R := if Rltb d 0 then None else Some (sg * sqrt d).

(** 612-632: the transform of chi2 and its residual; [cdf] is the distribution function of the
    standard normal distribution as computed (it reaches 0 and 1) *)
Definition quantile_chi2 (q cdf : R -> R) (k : chan_data) (f : fitted) : option R :=
  let z := (k_net k - f_on f) / k_net_err k in
  let pit := cdf z in
  if (Reqb pit 0 || Reqb pit 1)%bool then Some z else ppf q pit.
(** 464-466 *)
Definition nsim_mle : nat := Z.to_nat 10000.
(** 612-656 by statistic; [pits] are the simulated transforms of pgstat and wstat (449-475),
    [u], [u'] the random numbers of the two generators *)
Definition quantile_point (q cdf : R -> R) (st : stat) (random : bool) (u u' : R) (pits : R * R) (k : chan_data) (f : fitted)
  : option R * bool * bool :=
  match st with
  | Likelihood.Chi2 => (quantile_chi2 q cdf k f, false, false)
  | Likelihood.Cstat | Likelihood.Pstat => (quantile_cstat q random (k_spec k) (f_on f) u u', false, false)
  | Likelihood.Pgstat | Likelihood.Wstat => quantile_sim q random u nsim_mle pits
  end.

Inductive rtype := RD | RP | RQ.
Definition parse_rtype (w : str) : option rtype :=
  if str_eqb w (s2l "rd") then Some RD else if str_eqb w (s2l "rp") then Some RP
  else if str_eqb w (s2l "rq") then Some RQ else None.

(** what [residuals] returns for a channel: nothing, a value, or a value with two flags (lower, upper) *)
Inductive shown := Nothing | Value (r : option R) | Quantile (x : option R * bool * bool).

(** 486-501, 541-565 [MLEPlotData.residuals]; 398-400 is the sign *)
Definition residuals_mle (q cdf : R -> R) (st : stat) (ce_data : R) (w : str) (random : bool) (u u' : R) (pits : R * R)
    (k : chan_data) (f : fitted) : res shown :=
  let sg := Signs.sign ce_data (f_ce f) in
  match parse_rtype w with
  | Some RD => Ok (Value (deviance_point sg (f_dev f)))
  | Some RP => Ok (Value (pearson_point st k sg f))
  | Some RQ => Ok (Quantile (quantile_point q cdf st random u u' pits k f))
  | None => Err RuntimeError (* NotImplementedError, a RuntimeError *)
  end.

(** results.py:2367-2394: [weighted.sum(dim='__sample__')] leaves out NaN (the default of xarray for floats) *)
Definition loo_expectation_nan (lw : list R) (v : list (option R)) : R :=
  rsum (zip2 (fun l x => match x with None => 0 | Some x => Posterior.sign x * exp (l + ln (Rabs x)) end) lw v).
(** 780-783: the sign at the leave-one-out expectation of the model; [draws] are the fits of all draws *)
Definition sign_loo (ce_data : R) (lw : list R) (draws : list fitted) : R :=
  Signs.sign ce_data (loo_expectation lw (map f_ce draws)).
(** 826-831, 921-946 for [loo] *)
Definition deviance_loo (ce_data : R) (lw : list R) (draws : list fitted) : option R :=
  deviance_point (sign_loo ce_data lw draws) (loo_expectation lw (map f_dev draws)).
(** 949-1005 for [loo]: the residuals of the draws (the sign of the expectation goes into them and
    leaves again with the absolute value), their mean size, and the sign *)
Definition pearson_loo (st : stat) (ce_data : R) (k : chan_data) (lw : list R) (draws : list fitted) : option R :=
  let sg := sign_loo ce_data lw draws in
  let r := map (fun f => option_map Rabs (pearson_point st k sg f)) draws in
  Some (loo_expectation_nan lw r * sg).
(** 921-925, 960-962 and 775-778: medians over the draws are not shown by the plots and not modelled *)

(** 1007-1035: one rule for all statistics; [nsim] is the number of chains times that of draws *)
Definition quantile_post (q : R -> R) (random : bool) (u : R) (nchain ndraw : nat) (pits : R * R) : option R * bool * bool :=
  quantile_sim q random u (nchain * ndraw) pits.

(** 849-868 [PosteriorPlotData.residuals]; [ppc] tells whether a predictive check has been made, [best] is the
    fit at the maximum (716-721), which is computed when needed (results.py:2126-2160) *)
Definition residuals_post (q : R -> R) (st : stat) (ce_data : R) (w : str) (random mle ppc : bool) (u : R) (nchain ndraw : nat)
    (pits : R * R) (k : chan_data) (lw : list R) (draws : list fitted) (best : fitted) : res shown :=
  match parse_rtype w with
  | None => Err AssertionError
  | Some RQ => Ok (Quantile (quantile_post q random u nchain ndraw pits))
  | Some RD =>
      if mle then if ppc then Ok (Value (deviance_point (Signs.sign ce_data (f_ce best)) (f_dev best))) else Ok Nothing
      else Ok (Value (deviance_loo ce_data lw draws))
  | Some RP =>
      if mle then if ppc then Ok (Value (pearson_point st k (Signs.sign ce_data (f_ce best)) best)) else Ok Nothing
      else Ok (Value (pearson_loo st ce_data k lw draws))
  end.

(** plotter.py:935-1015 [plot_residuals]: the points are those at the best fit exactly when there is a band of the
    simulations for some of the [levels] of [config.cl] (979-985; [residuals_ci], data.py:895-900, gives none without
    simulations or for quantile residuals); 954-958: the word is checked first, the default is not modelled *)
Definition shown_post (q : R -> R) (st : stat) (ce_data : R) (w : str) (random : bool) (levels : list R) (ppc : bool) (u : R) (nchain ndraw : nat)
    (pits : R * R) (k : chan_data) (lw : list R) (draws : list fitted) (best : fitted) : res shown :=
  match parse_rtype w with None => Err ValueError | Some _ =>
  let quantiles := filter (fun _ => ppc && negb (str_eqb w (s2l "rq")))%bool levels in
  residuals_post q st ce_data w random (match quantiles with [] => false | _ => true end) ppc u nchain ndraw pits k lw draws best
  end.
