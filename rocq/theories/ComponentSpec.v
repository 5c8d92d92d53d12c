(** Specification of the built-in components: the formulas of their documentation
    (docstrings of models/add.py, models/mul.py), independent of how the code computes them. *)
From Coq Require Import Reals List.
From Coquelicot Require Import Coquelicot.
Open Scope R_scope.

(** one value per bin of the grid [g], and each is the integral of [N] over its bin *)
Definition integrates (N : R -> R) (g r : list R) : Prop :=
  length r = (length g - 1)%nat /\
  forall i, (S i < length g)%nat -> is_RInt N (nth i g 0) (nth (S i) g 0) (nth i r 0).
(** one value per bin, and each is the mean of [M] over its bin *)
Definition averages (M : R -> R) (g r : list R) : Prop :=
  length r = (length g - 1)%nat /\
  forall i, (S i < length g)%nat ->
    is_RInt M (nth i g 0) (nth (S i) g 0) ((nth (S i) g 0 - nth i g 0) * nth i r 0).
(** energy grids: positive and increasing *)
Definition egrid (g : list R) : Prop :=
  (forall i, (i < length g)%nat -> 0 < nth i g 0) /\
  forall i, (S i < length g)%nat -> nth i g 0 < nth (S i) g 0.

(** [l] is the integral of [N] over the half line [0, oo) *)
Definition improper (N : R -> R) (l : R) : Prop :=
  forall eps, 0 < eps -> exists T0, forall T, T0 <= T -> 0 <= T -> exists I, is_RInt N 0 T I /\ Rabs (I - l) < eps.

(** documented spectra; [E ^ a] for real [a] is [Rpower] *)
Definition d_band (alpha beta Ec K E : R) : R :=
  K * (if Rlt_dec E ((alpha - beta) * Ec) then Rpower (E / 100) alpha * exp (- (E / Ec))
       else Rpower (E / 100) beta * exp (beta - alpha) * Rpower ((alpha - beta) * Ec / 100) (alpha - beta)).
Definition d_band_ep (alpha beta Ep K E : R) : R :=
  K * (if Rlt_dec E ((alpha - beta) * Ep / (2 + alpha)) then Rpower (E / 100) alpha * exp (- ((2 + alpha) * E / Ep))
       else Rpower (E / 100) beta * exp (beta - alpha) * Rpower ((alpha - beta) * Ep / ((2 + alpha) * 100)) (alpha - beta)).
Definition d_bent_pl (alpha Eb K E : R) : R := 2 * K * / (1 + Rpower (E / Eb) alpha).
Definition d_blackbody (kT K E : R) : R := 80525 / 10000 * K * E ^ 2 / (kT ^ 4 * (exp (E / kT) - 1)).
Definition d_blackbody_rad (kT K E : R) : R := 10344 / 10 ^ 7 * K * E ^ 2 / (exp (E / kT) - 1).
Definition d_broken_pl (alpha1 Eb alpha2 K E : R) : R :=
  K * (if Rle_dec E Eb then Rpower (E / Eb) (- alpha1) else Rpower (E / Eb) (- alpha2)).
Definition d_cutoff_pl (alpha Ec K E : R) : R := K * Rpower E (- alpha) * exp (- (E / Ec)).
Definition d_compt (alpha Ep K E : R) : R := K * Rpower E (- alpha) * exp (- ((2 - alpha) * E / Ep)).
Definition d_gauss (El sigma K E : R) : R := K / (sqrt (2 * PI) * sigma) * exp (- ((E - El) ^ 2 / (2 * sigma ^ 2))).
Definition d_ottb (kT K E : R) : R := K * / E * exp (- (E / kT)) * exp (1 / kT).
Definition d_otts (Ec K E : R) : R := K * exp (- Rpower (E / Ec) (1 / 3)).
Definition d_power_law (alpha K E : R) : R := K * Rpower E (- alpha).
Definition d_smoothly_broken_pl (alpha1 Eb alpha2 rho K E : R) : R :=
  K * Rpower E (- alpha1) * Rpower (2 * (1 + Rpower (E / Eb) ((alpha2 - alpha1) / rho))) (- rho).
Definition d_edge (Ec D E : R) : R := if Rle_dec Ec E then exp (- (D * (E / Ec) ^ 3)) else 1.
Definition d_exp_abs (Ec E : R) : R := exp (- (Ec / E)).
Definition d_exp_fac (A f Ec E : R) : R := if Rle_dec Ec E then 1 + A * exp (- (f * E)) else 1.
Definition d_gabs (El sigma tau E : R) : R :=
  exp (- (tau / (sqrt (2 * PI) * sigma) * exp (- ((E - El) ^ 2 / (2 * sigma ^ 2))))).
Definition d_high_e_cut (Ec Ef E : R) : R := if Rle_dec Ec E then exp ((Ec - E) / Ef) else 1.
