(** Model of how samplers are run and continued: infer/samplers/ensemble/base.py:110-259 [run], the sampling functions of emcee.py:19-95 and zeus.py:23-97,
    and infer/fit.py:663-847 with the methods that call it.  The steps of the samplers are arbitrary functions. *)
From Coq Require Import Ascii String.
From Verif Require Import RBase Data Namespace HelperData Batch.
From Coq Require Import List.
Open Scope list_scope.

(** ** emcee and zeus *)
Section Ensemble.
(** [G]: state of the random numbers; [T]: what a sampler object tunes while it runs *)
Context {G T : Type}.
Definition coords := list (list R).
Definition wstate := (coords * G)%type.
Variables (t0 : T) (step : T -> wstate -> T * wstate).
Fixpoint steps_n (n : nat) (x : T * wstate) : T * wstate := match n with O => x | S n => steps_n n (step (fst x) (snd x)) end.
(** [sampler.sample(iterations=n, thin_by=thin)]: the states yielded, which are those that are stored, and the last one *)
Fixpoint keep (thin n : nat) (x : T * wstate) : list coords * (T * wstate) :=
  match n with O => ([], x) | S n => let y := steps_n thin x in let r := keep thin n y in (fst (snd y) :: fst r, snd r) end.
(** emcee.py:36-95, zeus.py:42-97: the two phases use one sampler object each; the stored states and the final one *)
Definition sampling_fn (warmup steps thinning : nat) (st : wstate) : list coords * wstate :=
  let st1 := snd (snd (keep 1 warmup (t0, st))) in
  let r := keep thinning steps (t0, st1) in (fst r, snd (snd r)).
(** something given as a state by the user *)
Inductive given := GState (s : wstate) | GOther.
Definition is_other (g : given) : bool := match g with GState _ => false | GOther => true end.
Definition given_states (l : list given) : list wstate := flat_map (fun g => match g with GState s => [s] | GOther => [] end) l.
Definition has_shape (chains ndim : nat) (c : coords) : bool := ((length c =? chains)%nat && forallb (fun r => (length r =? ndim)%nat) c)%bool.
Variable fresh : nat -> nat -> list wstate. (* starting points for so many samplers and walkers, base.py:163-172 *)
(** base.py:160-259 *)
Definition run (ndim warmup steps : nat) (chains : option nat) (thinning n_parallel : nat) (states : option (list given)) : res (list (list coords) * list wstate) :=
  let chains := match chains with Some c => c | None => (4 * ndim)%nat end in
  bind (match states with
        | None => Ok (fresh n_parallel chains, warmup)
        | Some l =>
            if negb (length l =? n_parallel)%nat then Err ValueError else
            if existsb is_other l then Err ValueError else
            if negb (forallb (fun s => has_shape chains ndim (fst s)) (given_states l)) then Err ValueError else
            Ok (given_states l, O)
        end) (fun sw =>
  let rs := map (sampling_fn (snd sw) steps thinning) (fst sw) in
  Ok (map fst rs, map snd rs)).
End Ensemble.
Arguments given : clear implicits.

(** ** samplers run by numpyro *)
Inductive kernel := KNuts | KBarker | KSa | KBlackjax | KAies | KEss.
(** classes of kernels and of states in the table of fit.py:671-678, and the [inner_state] of the state of an ensemble *)
Inductive kclass := CBarkerMH | CBlackJAXNUTS | CEnsemble | CHMC | CSA | CNUTS.
Inductive inner := IAies | IEss | IOther.
Inductive kstate := SBarker | SBlackjax | SEnsemble (i : inner) | SHmc | SSa | SOther.
(** [isinstance(kernel, class)]: NUTS is a kind of HMC; the two ensemble kernels are kinds of [NumpyroEnsembleSampler] *)
Definition is_kernel (k : kernel) (c : kclass) : bool :=
  match k, c with
  | KNuts, (CHMC | CNUTS) | KBarker, CBarkerMH | KSa, CSA | KBlackjax, CBlackJAXNUTS | (KAies | KEss), CEnsemble => true
  | _, _ => false
  end.
(** the type of state that belongs to a class of kernels, as a test *)
Definition state_test (c : kclass) (s : kstate) : bool :=
  match c, s with
  | CBarkerMH, SBarker | CBlackJAXNUTS, SBlackjax | CEnsemble, SEnsemble _ | (CHMC | CNUTS), SHmc | CSA, SSa => true
  | _, _ => false
  end.
Definition kernel_classes : list kclass := [CBarkerMH; CBlackJAXNUTS; CEnsemble; CHMC; CSA; CNUTS].
(** fit.py:665-697 [_set_numpyro_mcmc_post_warmup_state]: the state the sampling starts from, if any *)
Definition set_state (k : kernel) (s : option kstate) : res (option kstate) :=
  match s with
  | None => Ok None
  | Some s =>
      bind (match find (is_kernel k) kernel_classes with
            | Some c => if state_test c s then Ok tt else Err ValueError
            | None => Ok tt
            end) (fun _ =>
      bind (if is_kernel k CEnsemble then
              match k, s with
              | KAies, SEnsemble IAies | KEss, SEnsemble IEss => Ok tt
              | _, SEnsemble _ => Err ValueError
              | _, _ => Err AttributeError
              end
            else Ok tt) (fun _ => Ok (Some s)))
  end.

(** the arguments of numpyro's [MCMC], and where the chains start *)
Inductive start := FromUser (d : dict R) | FromStrategy (s : nat) | FromDefault | Walkers (shape : list nat) (d : dict R).
Record mcmc := { m_warmup : Z; m_samples : Z; m_chains : Z; m_thinning : Z; m_walkers : option Z; m_start : start; m_state : option kstate }.
Definition ensemble_kernel (k : kernel) : bool := match k with KAies | KEss => true | _ => false end.
(** fit.py:765-847 [_run_numpyro_mcmc]; [walkers], [strategy]: entries [walkers], [init_strategy] of the keyword arguments; [nparam]: free parameters *)
Definition run_numpyro (devices nparam : nat) (k : kernel) (warmup steps : Z) (chains : option Z) (thinning : Z) (init : option (dict R)) (walkers : option Z)
    (strategy : option nat) (state : option kstate) : res mcmc :=
  let chains := match chains with Some c => c | None => Z.of_nat devices end in
  let w := match walkers with Some w => w | None => (4 * Z.of_nat nparam)%Z end in
  let st := if ensemble_kernel k then
              Walkers (if (chains =? 1)%Z then [Z.to_nat w] else [Z.to_nat chains; Z.to_nat w]) (match init with Some d => d | None => [] end)
            else match init with Some d => FromUser d | None => match strategy with Some s => FromStrategy s | None => FromDefault end end in
  if (negb (ensemble_kernel k) && match walkers with Some _ => true | None => false end)%bool then Err TypeError (* not an argument of these kernels *) else
  bind (set_state k state) (fun s =>
  Ok {| m_warmup := warmup; m_samples := steps * thinning; m_chains := chains; m_thinning := thinning; m_walkers := if ensemble_kernel k then Some w else None;
        m_start := st; m_state := s |}).
(** the methods: fit.py:849-1075 [nuts], [barkermh], [sa], 1073-1145 [blackjax_nuts]: [chains] are chains; 1147-1308 [aies], [ess]: [chains] are the walkers, which
    replaces an entry [walkers] of the keyword arguments, and [n_parallel] are the chains *)
Definition method (devices nparam : nat) (k : kernel) (warmup steps : Z) (chains n_parallel : option Z) (thinning : Z) (init : option (dict R)) (kw_walkers : option Z)
    (strategy : option nat) (state : option kstate) : res mcmc :=
  if ensemble_kernel k then run_numpyro devices nparam k warmup steps n_parallel thinning init chains strategy state
  else run_numpyro devices nparam k warmup steps chains thinning init kw_walkers strategy state.
(** numpyro: the draws of one chain that are kept, and the walker positions handed to one chain *)
Definition kept_draws (m : mcmc) : Z := (m_samples m / m_thinning m)%Z.
Definition per_chain (m : mcmc) : option (list nat) :=
  match m_start m with
  | Walkers shape _ => if (m_chains m =? 1)%Z then Some shape else match shape with c :: r => if (c =? Z.to_nat (m_chains m))%nat then Some r else None | [] => None end
  | _ => Some []
  end.
(** samplers/ensemble/numpyro.py:52-71 [init]: the positions must be one for every walker *)
Definition walkers_ok (m : mcmc) : bool :=
  match m_walkers m, per_chain m with
  | Some w, Some (n :: _) => (n =? Z.to_nat w)%nat
  | None, _ => true
  | _, _ => false
  end.
