(** Model of flux, luminosity and isotropic energy: models/model.py:678-809 (models) and infer/results.py:60-100, 921-1075,
    1124-1291, 1724-1788 (fits).  Units: a flux in erg (or photons) per cm^2 and s, [dl z] the luminosity distance in cm. *)
From Coq Require Import Ascii String.
From Verif Require Import RBase Data Namespace FitInput HelperData ModelInfo ModelAlg Batch Results Summary.
From Coq Require Import List.
Open Scope list_scope.
Open Scope R_scope.

(** ** models: model.py *)
(** 678-744 [lumin], 746-809 [eiso]; [f]: the spectrum at the given parameters *)
Definition model_lumin (dl : R -> R) (log : bool) (f : spectrum) (emin emax z : R) (n : nat) : R :=
  flux true f (mk_grid log (emin / (1 + z)) (emax / (1 + z)) n) * (4 * PI * (dl z * dl z)).
Definition model_eiso (dl : R -> R) (log : bool) (f : spectrum) (emin emax z duration : R) (n : nat) : R :=
  model_lumin dl log f emin emax z n * (duration / (1 + z)).

(** ** fits: results.py *)
(** 1197-1200: the energy grid of [lumin] and [eiso] *)
Definition rest_grid (log : bool) (emin emax z : R) (n : nat) : list R := map (fun e => e / (1 + z)) (mk_grid log emin emax n).
(** 1202, 1280-1283: what [flux], [lumin] and [eiso] multiply fluxes by *)
Definition flux_factor : R := 1.
Definition lumin_factor (dl : R -> R) (z : R) : R := 4 * PI * (dl z * dl z).
Definition eiso_factor (dl : R -> R) (z duration : R) : R := 4 * PI * (dl z * dl z) * (duration / (1 + z)).

(** a compiled model, compared by identity: its total and its labelled additive components as functions of the parameters *)
Record cmodel := { m_id : nat; m_total : dict R -> spectrum; m_parts : list (str * (dict R -> spectrum)) }.
(** 91-100 [_model_mapping]: the first data with the same model *)
Fixpoint add_data (i : nat) (d : str) (l : list (nat * list str)) : list (nat * list str) :=
  match l with [] => [(i, [d])] | (j, ds) :: r => if (i =? j)%nat then (j, ds ++ [d]) :: r else (j, ds) :: add_data i d r end.
Definition model_mapping (models : dict cmodel) : dict str :=
  puts [] (flat_map (fun v : nat * list str => map (fun d => (d, hd [] (snd v))) (snd v))
    (fold_left (fun l (e : str * cmodel) => add_data (m_id (snd e)) (fst e) l) models [])).
(** model.py:436-520, 613-676 and results.py:66-88 [_flux] of one model; without components, the only "component" is the empty name *)
Definition model_flux (g : list R) (energy comps : bool) (m : cmodel) (p : dict R) : res (dict R) :=
  if comps then
    if (length (m_parts m) <=? 1)%nat then Err RuntimeError
    else Ok (puts [] (map (fun c : str * (dict R -> spectrum) => (fst c, flux energy (snd c p) g)) (m_parts m)))
  else Ok [([], flux energy (m_total m p) g)].
Definition flux_fn (models : dict cmodel) (g : list R) (energy comps : bool) (p : dict R) : res (dict (dict R)) :=
  mapE (fun e : str * cmodel => bind (model_flux g energy comps (snd e) p) (fun f => Ok (fst e, f))) models.
(** [fn(p)[d][c]] *)
Definition flux_at (models : dict cmodel) (g : list R) (energy comps : bool) (d c : str) (p : dict R) : R :=
  match flux_fn models g energy comps p with
  | Ok f => match get f d with Some x => match get x c with Some v => v | None => 0 end | None => 0 end
  | Err _ => 0
  end.
(** [f'{d}_{c}'] or [d] *)
Definition flux_key (comps : bool) (d c : str) : str := if comps then d ++ s2l "_" ++ c else d.
Inductive ci_method := MProfile | MBoot | MOther.
Record intensity := { i_mle : dict (dict R); i_se : dict (dict R); i_intervals : dict (dict (R * R)); i_errors : dict (dict (R * R));
  i_cl : R; i_dist : dict (dict (list R)) (* [status['dist']], bootstrap only *) }.
Definition scale_all {V} (h : V -> V) (t : dict (dict V)) : dict (dict V) :=
  map (fun e : str * dict V => (fst e, map (fun x : str * V => (fst x, h (snd x))) (snd e))) t.

(** [mle_flux[d].keys()] *)
Definition labels_of (f : dict (dict R)) (d : str) : list str := match get f d with Some x => map fst x | None => [] end.
(** 1006-1030: [{k: {c: t[f'{k}_{c}'] for c in labels} for k in mapping.values()}] *)
Definition unpack {V} (comps : bool) (labels : str -> list str) (reps : list str) (t : dict V) : res (dict (dict V)) :=
  bind (mapE (fun d => bind (mapE (fun c => bind (opt_res KeyError (get t (flux_key comps d c))) (fun v => Ok (c, v))) (labels d)) (fun x => Ok (d, x))) reps) (fun l =>
  Ok (puts [] l)).
(** 1038-1039: [{k: t[v] for k, v in mapping.items()}] *)
Definition by_data {V} (mapping : dict str) (t : dict V) : res (dict V) :=
  mapE (fun e : str * str => bind (opt_res KeyError (get t (snd e))) (fun v => Ok (fst e, v))) mapping.

Section Intensity.
Variable sf : R -> R. (* survival function of the normal law *)
Variables (models : dict cmodel) (mle : dict R).
(** the standard error of a function of the parameters (C66) and the offsets reported by the minimizer (C84) *)
Variable se_of : (dict R -> R) -> R.
Variable minos : (dict R -> R) -> R * R.
(** the bootstrap samples of the parameters, if there are any *)
Variable boot : option (list (dict R)).
(** 990-1001 *)
Definition profile_interval (f : dict R -> R) : R * R :=
  let lf := fun p => ln (f p) in (exp (lf mle + fst (minos lf)), exp (lf mle + snd (minos lf))).
(** 839-905 [_ci_boot] *)
Definition boot_values (rows : list (dict R)) (params : dict R) (f : dict R -> R) : list R := map (fun p => f (puts p params)) rows.
Definition boot_interval (rows : list (dict R)) (params : dict R) (cl : R) (f : dict R -> R) : res (R * R) :=
  bind (quantile (boot_values rows params f) (0.5 - 0.5 * cl)) (fun lo => bind (quantile (boot_values rows params f) (0.5 + 0.5 * cl)) (fun hi => Ok (lo, hi))).
(** 921-1075 [_intensity_ci]; [params]: the user's values ([] for [None]); [h]: the factor *)
Definition intensity_ci (g : list R) (energy : bool) (cl h : R) (method : ci_method) (comps : bool) (params : dict R) : res intensity :=
  bind (to_unit_cl sf cl) (fun cl =>
  bind (flux_fn models g energy comps (puts mle params)) (fun mle_flux =>
  let mapping := model_mapping models in
  let reps := map snd mapping in
  let labels := labels_of mle_flux in
  let fns := puts [] (flat_map (fun d => map (fun c => (flux_key comps d c, flux_at models g energy comps d c)) (labels d)) reps) in
  let se := map (fun e : str * (dict R -> R) => (fst e, se_of (snd e))) fns in
  bind (match method with
        | MProfile => Ok (map (fun e : str * (dict R -> R) => (fst e, profile_interval (snd e))) fns, [])
        | MBoot => match boot with
                   | None => Err RuntimeError
                   | Some rows =>
                       bind (mapE (fun e : str * (dict R -> R) => bind (boot_interval rows params cl (snd e)) (fun i => Ok (fst e, i))) fns) (fun iv =>
                       let pd := map (fun k => (k, map (fun p => match get p k with Some x => x | None => 0 end) rows)) (map fst mle) in
                       Ok (iv, puts pd (map (fun e : str * (dict R -> R) => (fst e, boot_values rows params (snd e))) fns)))
                   end
        | MOther => Err ValueError
        end) (fun ivd : dict (R * R) * dict (list R) =>
  bind (unpack comps labels reps se) (fun se' => bind (unpack comps labels reps (fst ivd)) (fun iv' =>
  bind (match method with MBoot => if comps then unpack comps labels reps (snd ivd) else Ok (map (fun e : str * list R => (fst e, [([], snd e)])) (snd ivd)) | _ => Ok [] end) (fun dist =>
  bind (by_data mapping iv') (fun iv'' => bind (by_data mapping se') (fun se'' =>
  bind (mapE (fun e : str * dict R => bind (opt_res KeyError (get iv'' (fst e))) (fun t =>
          bind (mapE (fun x : str * R => bind (opt_res KeyError (get t (fst x))) (fun i : R * R => Ok (fst x, (fst i - snd x, snd i - snd x)))) (snd e)) (fun er =>
          Ok (fst e, er)))) mle_flux) (fun errors =>
  let h2 := fun i : R * R => (fst i * h, snd i * h) in
  Ok {| i_mle := scale_all (fun x => x * h) mle_flux; i_se := scale_all (fun x => x * h) se''; i_intervals := scale_all h2 iv'';
        i_errors := scale_all h2 errors; i_cl := cl; i_dist := scale_all (map (fun x => x * h)) dist |})))))))))
  .
End Intensity.

(** ** posterior: results.py:1666-1722 [_ci_fn] and 1724-1788 [_intensity_ci], equal tailed intervals (the highest density interval is
    arviz code) *)
Record post_intensity := { pi_mean : dict (dict R); pi_std : dict (dict R); pi_median : dict (dict R); pi_intervals : dict (dict (R * R));
  pi_errors : dict (dict (R * R)); pi_cl : R; pi_dist : dict (dict (list R)) }.
Definition std (l : list R) : R := sqrt (mean (map (fun x => (x - mean l) * (x - mean l)) l)).
(** [jax.tree.map] over a nested dictionary *)
Definition tree_map {V W} (f : V -> res W) (t : dict (dict V)) : res (dict (dict W)) :=
  mapE (fun e : str * dict V => bind (mapE (fun x : str * V => bind (f (snd x)) (fun y => Ok (fst x, y))) (snd e)) (fun l => Ok (fst e, l))) t.
(** the arrays of samples: entry [i] of the leaf ([d], [c]) is the flux at the [i]-th posterior sample, the user's values put in *)
Definition post_dist (models : dict cmodel) (rows : list (dict R)) (g : list R) (energy comps : bool) (params : dict R) : res (dict (dict (list R))) :=
  match rows with
  | [] => Err IndexError
  | p0 :: _ =>
      bind (flux_fn models g energy comps (puts p0 params)) (fun f =>
      Ok (map (fun e : str * dict R => (fst e, map (fun x : str * R => (fst x, map (fun p => flux_at models g energy comps (fst e) (fst x) (puts p params)) rows)) (snd e))) f))
  end.
Definition posterior_ci (sf : R -> R) (models : dict cmodel) (rows : list (dict R)) (g : list R) (energy : bool) (cl h : R) (comps : bool) (params : dict R) : res post_intensity :=
  bind (to_unit_cl sf cl) (fun cl =>
  bind (post_dist models rows g energy comps params) (fun dist =>
  bind (tree_map (fun v => quantile v 0.5) dist) (fun median =>
  bind (tree_map (fun v => bind (quantile v (0.5 - cl / 2)) (fun lo => bind (quantile v (0.5 + cl / 2)) (fun hi => Ok (lo, hi)))) dist) (fun intervals =>
  bind (tree_map (fun v => Ok (mean v)) dist) (fun mean => bind (tree_map (fun v => Ok (std v)) dist) (fun std =>
  bind (tree_map (fun v => bind (quantile v 0.5) (fun m => bind (quantile v (0.5 - cl / 2)) (fun lo => bind (quantile v (0.5 + cl / 2)) (fun hi => Ok (lo - m, hi - m))))) dist) (fun errors =>
  let h1 := fun x => x * h in let h2 := fun i : R * R => (fst i * h, snd i * h) in
  Ok {| pi_mean := scale_all h1 mean; pi_std := scale_all h1 std; pi_median := scale_all h1 median; pi_intervals := scale_all h2 intervals; pi_errors := scale_all h2 errors;
        pi_cl := cl; pi_dist := scale_all (map h1) dist |}))))))).
