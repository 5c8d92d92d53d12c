(** Model of the way from a numpyro model to the nested samplers and back:
    infer/samplers/util.py:132-161, 235-330 (the model over the unit cube),
    infer/samplers/ns/nautilus.py, ns/ultranest.py, ns/jaxns.py and the three
    methods of [BayesFit] that call them (infer/fit.py:1525-1803).
    The numpyro handlers [trace], [seed], [substitute], [reparam] and
    [log_density] are modelled on programs: a program is the list of the sites it
    visits; what a site does is a function of the values its earlier [sample]
    calls returned.  Sites marked for parallel enumeration are not modelled. *)
From Coq Require Import Ascii String.
From Verif Require Import RBase Base Namespace HelperData Nested.
From Coq Require Import List.
Open Scope list_scope.
Open Scope R_scope.

(** float64 values of log probabilities *)
Inductive fl := Fin (x : R) | NaN | PInf | NInf.
Definition fadd (a b : fl) : fl :=
  match a, b with
  | Fin x, Fin y => Fin (x + y)
  | NaN, _ | _, NaN => NaN
  | PInf, NInf | NInf, PInf => NaN
  | PInf, _ | _, PInf => PInf
  | NInf, _ | _, NInf => NInf
  end.
Definition fsum (l : list fl) : fl := fold_right fadd (Fin 0) l.

(** an array, flattened *)
Notation value := (list R).
(** what is used of a distribution: its log density, and the transform of the
    unit cube to it (util.py:163-228, see Nested.v) *)
Record site_dist := { sd_logp : value -> fl; sd_unit : value -> value }.

Inductive stmt :=
| Latent (name : str) (shape : list nat) (d : list value -> site_dist)  (* numpyro.sample(name, d) *)
| Observed (name : str) (logp : list value -> fl)                       (* numpyro.sample(name, d, obs=...) *)
| Derived (name : str) (f : list value -> value).                       (* numpyro.deterministic(name, f) *)
Definition program := list stmt.

Inductive kind := Sampled | Given | Determined.
Record site := { s_name : str; s_kind : kind; s_logp : fl; s_value : value }.

(** running a program with the values [data] substituted and the sites [conf]
    reparametrised by [UniformReparam] (util.py:141-161): such a site becomes a
    masked uniform site [u_name] (its log density counts as 0) and a
    deterministic site with the original name.  A sample site without a value
    would need a random key, which [log_density] does not supply. *)
Fixpoint exec (conf : list str) (data : list (str * value)) (env : list value) (p : program) : res (list site) :=
  match p with
  | [] => Ok []
  | Latent name shape d :: r =>
      if str_in name conf then
        bind (opt_err AssertionError (get data (u_name name))) (fun x =>
        let v := sd_unit (d env) x in
        bind (exec conf data (env ++ [v]) r) (fun t =>
        Ok ({| s_name := u_name name; s_kind := Sampled; s_logp := Fin 0; s_value := x |}
            :: {| s_name := name; s_kind := Determined; s_logp := Fin 0; s_value := v |} :: t)))
      else
        bind (opt_err AssertionError (get data name)) (fun v =>
        bind (exec conf data (env ++ [v]) r) (fun t =>
        Ok ({| s_name := name; s_kind := Sampled; s_logp := sd_logp (d env) v; s_value := v |} :: t)))
  | Observed name lp :: r =>
      bind (exec conf data env r) (fun t =>
      Ok ({| s_name := name; s_kind := Given; s_logp := lp env; s_value := [] |} :: t))
  | Derived name f :: r =>
      bind (exec conf data env r) (fun t =>
      Ok ({| s_name := name; s_kind := Determined; s_logp := Fin 0; s_value := f env |} :: t))
  end.
Fixpoint distinct (l : list str) : bool :=
  match l with [] => true | x :: r => negb (str_in x r) && distinct r end.
(** [trace]: all sites must have different names *)
Definition get_trace conf data p : res (list site) :=
  bind (exec conf data [] p) (fun t => if distinct (map s_name t) then Ok t else Err AssertionError).
(** [numpyro.infer.util.log_density]: the sum over the sample sites *)
Definition log_density conf data p : res fl :=
  bind (get_trace conf data p) (fun t =>
  Ok (fsum (map s_logp (filter (fun s => match s_kind s with Determined => false | _ => true end) t)))).

(** util.py:247-266: names and shapes of the latent sites and names of the
    deterministic sites; which sites a program visits does not depend on the
    values, so the prototype trace is not needed for them *)
Fixpoint params_dtype (p : program) : list (str * list nat) :=
  match p with [] => [] | Latent n s _ :: r => (n, s) :: params_dtype r | _ :: r => params_dtype r end.
Definition params_names p := map fst (params_dtype p).
Fixpoint deterministic_names (p : program) : list str :=
  match p with [] => [] | Derived n _ :: r => n :: deterministic_names r | _ :: r => deterministic_names r end.

(** util.py:269-275 [cube], [ravel_pytree]: one entry for every latent site,
    flattened in the order of the keys *)
Definition nelem (shape : list nat) : nat := fold_right Nat.mul 1%nat shape.
Definition layout (p : program) : list (str * nat) :=
  sorted_items (map (fun e => (u_name (fst e), nelem (snd e))) (params_dtype p)).
Definition ndim (p : program) : nat := fold_right Nat.add 0%nat (map snd (layout p)).
Fixpoint unravel_from (lay : list (str * nat)) (v : value) : list (str * value) :=
  match lay with [] => [] | (n, k) :: r => (n, firstn k v) :: unravel_from r (skipn k v) end.
(** [unravel] refuses arrays of another size *)
Definition unravel (p : program) (v : value) : res (list (str * value)) :=
  if (length v =? ndim p)%nat then Ok (unravel_from (layout p) v) else Err ValueError.

(** util.py:291-296 [log_prob_fn] *)
Definition log_prob_fn (p : program) (cube : list (str * value)) : res fl := log_density (params_names p) cube p.
(** util.py:298-305 [postprocess_fn]: [Predictive] returns the values of the
    requested sites of the trace *)
Definition postprocess_fn (p : program) (cube : list (str * value)) : res (list (str * value)) :=
  bind (get_trace (params_names p) cube p) (fun t =>
  Ok (map (fun s => (s_name s, s_value s))
          (filter (fun s => str_in (s_name s) (params_names p ++ deterministic_names p)) t))).

(** [jnp.nan_to_num (x, nan=-1e300)]: infinities become the largest floats *)
Definition float_max : R := (2 - / 2 ^ 52) * 2 ^ 1023.
Definition nan_to_num (x : fl) : fl :=
  match x with Fin x => Fin x | NaN => Fin (- 10 ^ 300) | PInf => Fin float_max | NInf => Fin (- float_max) end.
(** nautilus.py:44-49, ultranest.py:44-50 [log_prob_fn] over a row of the cube
    with derived values appended *)
Definition row_log_prob (p : program) (ignore_nan : bool) (row : value) : res fl :=
  bind (unravel p (firstn (ndim p) row)) (fun c =>
  bind (log_prob_fn p c) (fun l => Ok (if ignore_nan then nan_to_num l else l))).

(** ultranest.py:70-75 [transform]: the cube followed by the values to show *)
Definition viz_transform (p : program) (viz : list str) (cube : value) : res value :=
  bind (unravel p cube) (fun c =>
  bind (postprocess_fn p c) (fun smp =>
  bind (mapE (fun i => opt_err KeyError (get smp i)) viz) (fun vs => Ok (cube ++ concat vs)))).
(** ultranest.py:83-89 [derived_names]; [shapes] are those of all sites
    ([params_dtype + deterministic_dtype]) *)
Definition derived_names (shapes : list (str * list nat)) (viz : list str) : list str :=
  flat_map (fun i => match get shapes i with Some s => ravel_params_names i s | None => [] end) viz.

(** back to the parameters: every row is unravelled and processed;
    ultranest.py:103-112 ([results['samples'][:, :ndim]]) *)
Definition ultranest_samples (p : program) (rows : list value) : res (list (list (str * value))) :=
  mapE (fun row => bind (unravel p (firstn (ndim p) row)) (postprocess_fn p)) rows.
(** nautilus.py:82-101 [run]: [posterior] are the equally weighted points *)
Definition nautilus_samples (p : program) (success : bool) (posterior : list value) : res (list (list (str * value))) :=
  if success then mapE (fun u => bind (unravel p u) (postprocess_fn p)) posterior else Err RuntimeError.

(** jaxns.py:148-151 [log_likelihood]; 153-162: the prior is the unit cube, one
    entry [u_name] per parameter, handed on under the name of the parameter *)
Definition jaxns_prior (p : program) (u : list (str * value)) : res (list (str * value)) :=
  mapE (fun n => bind (opt_err KeyError (get u (u_name n))) (fun x => Ok (n, x))) (params_names p).
Definition jaxns_log_likelihood (p : program) (params : list (str * value)) : res fl :=
  log_density (params_names p) (map (fun e => (u_name (fst e), snd e)) params) p.
(** jaxns.py:205-218 and 220-241: the points of the run are transformed back;
    [resample] takes the weighted points with the indices it draws *)
Definition jaxns_run (p : program) (points : list (list (str * value))) : res (list (list (str * value))) :=
  mapE (postprocess_fn p) points.
Definition jaxns_get_samples (results : option (list (list (str * value)))) (draw : list nat) : res (list (list (str * value))) :=
  match results with
  | None => Err RuntimeError
  | Some r => mapE (fun i => opt_err IndexError (nth_error r i)) draw
  end.

(** ** settings handed to the three libraries; [V] stands for the values of
    keyword arguments *)
Definition setdefault {V} (d : list (str * V)) (k : str) (v : V) : list (str * V) :=
  match get d k with Some _ => d | None => put d k v end.
(** fit.py:1587-1603 with jaxns.py:166-186: the nine named arguments, the extra
    ones, and the defaults of [JAXNSSampler.run] *)
Definition jaxns_constructor {V} (named extra : list (str * V)) (live_points devices max_samples : V) : list (str * V) :=
  let kw := puts named extra in
  setdefault (setdefault (setdefault kw (s2l "num_live_points") live_points) (s2l "devices") devices) (s2l "max_samples") max_samples.
Definition jaxns_termination {V} (dlogz : V) (term_cond : option (list (str * V))) : list (str * V) :=
  let kw := puts [(s2l "dlogZ", dlogz)] (match term_cond with Some t => t | None => [] end) in
  setdefault kw (s2l "dlogZ") dlogz.
(** fit.py:1671-1681 and nautilus.py:51-61, 82-84 *)
Definition nautilus_constructor {V} (pool yes no : V) (user : list (str * V)) : list (str * V) :=
  let kw := setdefault user (s2l "pool") pool in
  match get kw (s2l "pool") with
  | Some _ => put kw (s2l "vectorized") no
  | None => put kw (s2l "vectorized") yes
  end.
Definition nautilus_run_kwargs {V} (ess yes : V) (user : list (str * V)) : list (str * V) :=
  put (setdefault (put user (s2l "n_eff") ess) (s2l "verbose") yes) (s2l "discard_exploration") yes.
(** fit.py:1758-1762 *)
Definition ultranest_run_kwargs {V} (ess : V) (user : list (str * V)) : list (str * V) := put user (s2l "min_ess") ess.
