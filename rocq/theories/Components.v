(** Model of the built-in spectral components, models/add.py and models/mul.py.
    Arrays are mapped element by element; float64 is [R].  [jnp.power(x, a)] is
    [Rpower x a] for [x > 0] (energies are positive); [jnp.where] is [if]. *)
From Verif Require Import RBase ModelAlg.
From Coq Require Import List.
Import ListNotations.
Open Scope R_scope.

(** add.py:40-50 [_powerlaw_integral]; [cond] is the same for the whole grid *)
Definition powerlaw_integral (alpha : R) (g : list R) : list R :=
  let cond := negb (Reqb alpha 1) in
  let oma := if cond then 1 - alpha else 1 in
  let f1 := anaint (fun e => Rpower e oma / oma) g in
  let f2 := anaint ln g in
  if cond then f1 else f2.

(** add.py:100-121 [Band.continuum] at one energy *)
Definition band (alpha beta Ec K e : R) : R :=
  let e0 := 100 in
  let amb_ := alpha - beta in
  let inv_Ec := 1 / Ec in
  let amb := if Rltb amb_ inv_Ec then inv_Ec else amb_ in
  let Ebreak := Ec * amb in
  let log := if Rltb e Ebreak then alpha * ln (e / e0) - e / Ec
             else amb * ln (amb * Ec / e0) - amb + beta * ln (e / e0) in
  K * exp log.

(** add.py:177-200 [BandEp.continuum] *)
Definition band_ep (alpha beta Ep K e : R) : R :=
  let e0 := 100 in
  let Ec := Ep / (2 + alpha) in
  let Ebreak := (alpha - beta) * Ec in
  let amb_ := alpha - beta in
  let inv_Ec := 1 / Ec in
  let amb := if Rltb amb_ inv_Ec then inv_Ec else amb_ in
  let log := if Rltb e Ebreak then alpha * ln (e / e0) - e / Ec
             else amb * ln (amb * Ec / e0) - amb + beta * ln (e / e0) in
  K * exp log.

(** add.py:231-236 [BentPL.continuum] *)
Definition bent_pl (alpha Eb K e : R) : R := K * 2 / (1 + Rpower (e / Eb) alpha).

(** [jnp.expm1] *)
Definition expm1 (x : R) : R := exp x - 1.
Definition bb_lo : R := 1 / 10 ^ 4. (* 1e-4 *)
(** add.py:266-287 [Blackbody.continuum] *)
Definition blackbody (kT K e : R) : R :=
  let x := e / kT in
  let tmp := 80525 / 10000 * K * e / (kT * kT * kT) in
  let x_ := if Rleb 50 x then 1 else x in
  if Rleb x bb_lo then tmp else if Rleb 50 x then 0 else tmp * x / expm1 x_.
(** add.py:317-339 [BlackbodyRad.continuum] *)
Definition blackbody_rad (kT K e : R) : R :=
  let x := e / kT in
  let tmp := 10344 / 10 ^ 7 * K * e in
  let x_ := if Rleb 50 x then 1 else x in
  if Rleb x bb_lo then tmp * kT else if Rleb 50 x then 0 else tmp * e / expm1 x_.

(** [jnp.where(mask, p1, p2)] for [mask = egrid[:-1] <= Eb] *)
Fixpoint select (c : R -> bool) (g p1 p2 : list R) : list R :=
  match g, p1, p2 with
  | e :: g', x :: p1', y :: p2' => (if c e then x else y) :: select c g' p1' p2'
  | _, _, _ => []
  end.
(** add.py:378-393 [BrokenPL.integral].  Line 392, [f.at[idx].set(...)], returns a new
    array that is dropped (jax arrays are immutable), so it has no effect. *)
Definition broken_pl (alpha1 Eb alpha2 K : R) (g : list R) : list R :=
  let g_ := map (fun e => e / Eb) g in
  let p1 := powerlaw_integral alpha1 g_ in
  let p2 := powerlaw_integral alpha2 g_ in
  map (Rmult K) (select (fun e => Rleb e Eb) g p1 p2).

(** add.py:434-439 [CutoffPL.continuum] *)
Definition cutoff_pl (alpha Ec K e : R) : R := K * Rpower e (- alpha) * exp (- e / Ec).
(** add.py:473-479 [Compt.continuum] *)
Definition compt (alpha Ep K e : R) : R :=
  let neg_inv_Ec := (alpha - 2) / Ep in K * Rpower e (- alpha) * exp (e * neg_inv_Ec).
(** [jax.scipy.stats.norm.pdf]: [exp] of [-(log(2 pi scale^2) + (x - loc)^2 / scale^2) / 2] *)
Definition norm_pdf (x loc scale : R) : R :=
  exp (- (ln (2 * PI * scale ^ 2) + (x - loc) ^ 2 / scale ^ 2) / 2).
(** add.py:511-516 [Gauss.continuum] *)
Definition gauss (El sigma K e : R) : R := K * norm_pdf e El sigma.
(** add.py:553-561 [Lorentz.integral] *)
Definition lorentz (El sigma K : R) (g : list R) : list R :=
  let integral := fun e => atan (2 * (e - El) / sigma) in
  let norm := 2 * K / (PI + 2 * atan (2 * El / sigma)) in
  map (Rmult norm) (anaint integral g).
(** add.py:590-594 [OTTB.continuum] *)
Definition ottb (kT K e : R) : R := K * exp ((1 - e) / kT) / e.
(** add.py:625-629 [OTTS.continuum] *)
Definition otts (Ec K e : R) : R := K * exp (- Rpower (e / Ec) (1 / 3)).
(** add.py:655-657 [PowerLaw.integral] *)
Definition power_law (alpha K : R) (g : list R) : list R := map (Rmult K) (powerlaw_integral alpha g).
(** add.py:660-680 [PLFluxNorm.__init__] *)
Definition pl_flux_init (emin emax : R) : res (R * R) :=
  if Rleb emax emin then Err ValueError else Ok (emin, emax).
(** add.py:682-708 [PLFluxNorm.eval]; [f] is an array with one element *)
Definition pl_flux (energy : bool) (emin emax alpha F : R) (g : list R) : list R :=
  let f := nth 0 (powerlaw_integral (if energy then alpha - 1 else alpha) [emin; emax]) 0 in
  let factor := if energy then F / (f * keV_to_erg) else F / f in
  map (Rmult factor) (powerlaw_integral alpha g).
(** add.py:846-861 [SmoothlyBrokenPL.continuum] *)
Definition smoothly_broken_pl (alpha1 Eb alpha2 rho K e_ : R) : R :=
  let e := e_ / Eb in
  let x := (alpha2 - alpha1) / rho * ln e in
  let threshold := 30 in
  let alpha := if Rltb threshold x then alpha2 else alpha1 in
  let r := if Rltb threshold (Rabs x) then 1 / 2 else 1 / 2 * (1 + exp x) in
  K * Rpower e (- alpha) * Rpower r (- rho).

(** mul.py:54-56 [Constant.integral] *)
Definition constant (f : R) (g : list R) : list R := repeat f (length g - 1).
(** mul.py:88-94 [Edge.continuum] *)
Definition edge (Ec D e : R) : R := if Rleb Ec e then exp (- D * (e / Ec) ^ 3) else 1.
(** mul.py:116-118 [ExpAbs.continuum] *)
Definition exp_abs (Ec e : R) : R := exp (- Ec / e).
(** mul.py:154-159 [ExpFac.continuum] *)
Definition exp_fac (A f Ec e : R) : R := if Rleb Ec e then 1 + A * exp (- f * e) else 1.
(** mul.py:195-204 [GAbs.continuum] *)
Definition gabs (El sigma tau e : R) : R :=
  exp (- tau / (sqrt (2 * PI) * sigma) * exp (- (1 / 2) * ((e - El) / sigma) ^ 2)).
(** mul.py:236-240 [HighECut.continuum] *)
Definition high_e_cut (Ec Ef e : R) : R := if Rleb Ec e then exp ((Ec - e) / Ef) else 1.
(** mul.py:266-271 [PLAbs.integral] ("ignore the case of alpha = 1.0"); [None] is the
    non-finite array that a division by zero gives *)
Definition pl_abs (alpha K : R) (g : list R) : option (list R) :=
  let oma := 1 - alpha in
  if Reqb oma 0 then None
  else Some (map2 Rdiv (anaint (fun e => K / oma * Rpower e oma) g) (diff g)).
(** mul.py:359-388 [PhotonAbsorption.continuum]; the cross-section is the exponential of
    an interpolation of tabulated logarithms (mul.py:274-283) *)
Definition photon_abs (logsigma : R -> R) (nH e : R) : R := exp (- nH * exp (logsigma (ln e))).

(** ** the catalogue *)
Inductive acomp :=
| Band (alpha beta Ec K : R) | BandEp (alpha beta Ep K : R) | BentPL (alpha Eb K : R)
| Blackbody (kT K : R) | BlackbodyRad (kT K : R) | BrokenPL (alpha1 Eb alpha2 K : R)
| CutoffPL (alpha Ec K : R) | Compt (alpha Ep K : R) | Gauss (El sigma K : R) | Lorentz (El sigma K : R)
| OTTB (kT K : R) | OTTS (Ec K : R) | PowerLaw (alpha K : R)
| PLPhFlux (emin emax alpha F : R) | PLEnFlux (emin emax alpha F : R)
| SmoothlyBrokenPL (alpha1 Eb alpha2 rho K : R).
Inductive mcomp :=
| Edge (Ec D : R) | ExpAbs (Ec : R) | ExpFac (A f Ec : R) | GAbs (El sigma tau : R) | HighECut (Ec Ef : R)
| PhotonAbs (logsigma : R -> R) (nH : R).
Inductive meth := Trapz | Simpson.

(** the class hierarchy: [inl] is [NumericalIntegral] (a continuum), [inr] is
    [AnalyticalIntegral] (bin integrals) *)
Definition acomp_fn (c : acomp) : (R -> R) + (list R -> list R) :=
  match c with
  | Band a b Ec K => inl (band a b Ec K)
  | BandEp a b Ep K => inl (band_ep a b Ep K)
  | BentPL a Eb K => inl (bent_pl a Eb K)
  | Blackbody kT K => inl (blackbody kT K)
  | BlackbodyRad kT K => inl (blackbody_rad kT K)
  | BrokenPL a1 Eb a2 K => inr (broken_pl a1 Eb a2 K)
  | CutoffPL a Ec K => inl (cutoff_pl a Ec K)
  | Compt a Ep K => inl (compt a Ep K)
  | Gauss El s K => inl (gauss El s K)
  | Lorentz El s K => inr (lorentz El s K)
  | OTTB kT K => inl (ottb kT K)
  | OTTS Ec K => inl (otts Ec K)
  | PowerLaw a K => inr (power_law a K)
  | PLPhFlux emin emax a F => inr (pl_flux false emin emax a F)
  | PLEnFlux emin emax a F => inr (pl_flux true emin emax a F)
  | SmoothlyBrokenPL a1 Eb a2 rho K => inl (smoothly_broken_pl a1 Eb a2 rho K)
  end.
Definition mcomp_fn (c : mcomp) : R -> R :=
  match c with
  | Edge Ec D => edge Ec D
  | ExpAbs Ec => exp_abs Ec
  | ExpFac A f Ec => exp_fac A f Ec
  | GAbs El s t => gabs El s t
  | HighECut Ec Ef => high_e_cut Ec Ef
  | PhotonAbs ls nH => photon_abs ls nH
  end.
(** model.py:1693-1698 and 1722-1760: [eval] *)
Definition integrate (m : meth) (add : bool) (c : R -> R) : spectrum :=
  match m with Trapz => trapz add c | Simpson => simpson add c end.
Definition acomp_eval (m : meth) (c : acomp) : spectrum :=
  match acomp_fn c with inl k => integrate m true k | inr f => f end.
Definition mcomp_eval (m : meth) (c : mcomp) : spectrum := integrate m false (mcomp_fn c).

(** the [_config] tuples: [ParamConfig(name, latex, unit, default, min, max)] *)
Definition rng (lo x hi : R) : Prop := lo <= x <= hi.
Definition K_rng (K : R) : Prop := rng (/ 10 ^ 10) K (10 ^ 10).
Definition acomp_range (c : acomp) : Prop :=
  match c with
  | Band a b Ec K => rng (-10) a 5 /\ rng (-10) b 10 /\ rng 10 Ec (10 ^ 4) /\ K_rng K
  | BandEp a b Ep K => rng (- (199 / 100)) a 10 /\ rng (-10) b 10 /\ rng 10 Ep (10 ^ 4) /\ K_rng K
  | BentPL a Eb K => rng (-3) a 10 /\ rng (/ 10 ^ 2) Eb (10 ^ 6) /\ K_rng K
  | Blackbody kT K | BlackbodyRad kT K => rng (/ 10 ^ 4) kT 200 /\ K_rng K
  | BrokenPL a1 Eb a2 K => rng (-3) a1 10 /\ rng (/ 10 ^ 2) Eb (10 ^ 6) /\ rng (-3) a2 10 /\ K_rng K
  | CutoffPL a Ec K => rng (-3) a 10 /\ rng (/ 10 ^ 2) Ec (10 ^ 4) /\ K_rng K
  | Compt a Ep K => rng (-3) a 10 /\ rng (/ 10 ^ 2) Ep (10 ^ 4) /\ K_rng K
  | Gauss El s K => rng 0 El (10 ^ 6) /\ rng 0 s 20 /\ K_rng K
  | Lorentz El s K => rng (/ 10 ^ 6) El (10 ^ 6) /\ rng (/ 10 ^ 3) s 20 /\ K_rng K
  | OTTB kT K => rng (/ 10) kT (10 ^ 3) /\ K_rng K
  | OTTS Ec K => rng (/ 10 ^ 3) Ec (10 ^ 3) /\ K_rng K
  | PowerLaw a K => rng (-3) a 10 /\ K_rng K
  | PLPhFlux _ _ a F => rng (-3) a 10 /\ rng (/ 10 ^ 2) F (10 ^ 10)
  | PLEnFlux _ _ a F => rng (-3) a 10 /\ rng (/ 10 ^ 30) F (10 ^ 30)
  | SmoothlyBrokenPL a1 Eb a2 rho K =>
      rng (-3) a1 10 /\ rng (/ 10 ^ 2) Eb (10 ^ 6) /\ rng (-3) a2 10 /\ rng (/ 10 ^ 2) rho (10 ^ 2) /\ K_rng K
  end.
Definition mcomp_range (c : mcomp) : Prop :=
  match c with
  | Edge Ec D => rng 0 Ec 100 /\ rng 0 D 10
  | ExpAbs Ec => rng 0 Ec 200
  | ExpFac A f Ec => rng 0 A (10 ^ 6) /\ rng 0 f (10 ^ 6) /\ rng 0 Ec (10 ^ 6)
  | GAbs El s t => rng 0 El (10 ^ 6) /\ rng 0 s 20 /\ rng 0 t (10 ^ 6)
  | HighECut Ec Ef => rng (/ 10 ^ 4) Ec (10 ^ 6) /\ rng (/ 10 ^ 4) Ef (10 ^ 6)
  | PhotonAbs _ nH => rng 0 nH (10 ^ 6)
  end.

(** what each formula above divides by, at energy [e] *)
Definition adivs (c : acomp) (e : R) : list R :=
  match c with
  | Band _ _ Ec _ => [Ec]
  | BandEp a _ Ep _ => [2 + a; Ep / (2 + a)]
  | BentPL a Eb _ => [Eb; 1 + Rpower (e / Eb) a]
  | Blackbody kT _ => [kT; kT * kT * kT; expm1 (if Rleb 50 (e / kT) then 1 else e / kT)]
  | BlackbodyRad kT _ => [kT; expm1 (if Rleb 50 (e / kT) then 1 else e / kT)]
  | BrokenPL a1 Eb a2 _ => [Eb; if negb (Reqb a1 1) then 1 - a1 else 1; if negb (Reqb a2 1) then 1 - a2 else 1]
  | CutoffPL _ Ec _ => [Ec]
  | Compt _ Ep _ => [Ep]
  | Gauss _ s _ => [s ^ 2]
  | Lorentz El s _ => [s; PI + 2 * atan (2 * El / s)]
  | OTTB kT _ => [kT; e]
  | OTTS Ec _ => [Ec]
  | PowerLaw a _ => [if negb (Reqb a 1) then 1 - a else 1]
  | PLPhFlux emin emax a _ =>
      [if negb (Reqb a 1) then 1 - a else 1; nth 0 (powerlaw_integral a [emin; emax]) 0]
  | PLEnFlux emin emax a _ =>
      [if negb (Reqb a 1) then 1 - a else 1; if negb (Reqb (a - 1) 1) then 1 - (a - 1) else 1;
       nth 0 (powerlaw_integral (a - 1) [emin; emax]) 0 * keV_to_erg]
  | SmoothlyBrokenPL _ Eb _ rho _ => [Eb; rho]
  end.
Definition mdivs (c : mcomp) (e : R) : list R :=
  match c with
  | Edge Ec _ => [Ec]
  | ExpAbs _ => [e]
  | ExpFac _ _ _ => []
  | GAbs _ s _ => [sqrt (2 * PI) * s; s]
  | HighECut _ Ef => [Ef]
  | PhotonAbs _ _ => []
  end.
