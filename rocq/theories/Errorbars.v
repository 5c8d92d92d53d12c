(** Model of plot/errorbars.py: the W statistic as a function of the source
    counts of one bin, and the error bars built from it.
    float64 is [R].  [optx.root_find] is a parameter [root_find f guess]: either
    a value or an exception; the theorems assume that the value it returns is a
    root of the function it was given.  The code solves the equations of all
    bins in one vector call; they do not share variables, so they are modelled
    as one call per bin. *)
From Coq Require Import List.
From Verif Require Import RBase Gibbs Likelihood Base HelperData.
Import ListNotations.
Open Scope list_scope.
Open Scope R_scope.

(** plot/errorbars.py:20-25 [wstat] *)
Definition wstat (s n_on n_off a : R) : R :=
  let b := wstat_background s n_on n_off a in
  let m_on := s + a * b in
  let m_off := b in
  2 * (m_on - xlogy n_on m_on + m_off - xlogy n_off m_off).

(** plot/errorbars.py:28-34 [pgstat]; the error bars for it are a stub without
    a body (56-62), so there is nothing more to model *)
Definition pgstat (s n b_est b_err a : R) : R :=
  let b := pgstat_background s n b_est b_err a in
  let m_on := s + a * b in
  let m_off := b in
  let chi := (m_off - b_est) / b_err in
  2 * (m_on - xlogy n m_on) + chi * chi.

(** plot/errorbars.py:45-48 [_sigmoid]: [expit] clipped to
    [finfo.tiny, 1 - finfo.eps], times [s] *)
Definition expit (x : R) : R := / (1 + exp (- x)).
Definition finfo_tiny : R := / 2 ^ 1022.
Definition finfo_eps : R := / 2 ^ 52.
Definition sigmoid (x s : R) : R := clip finfo_tiny (1 - finfo_eps) (expit x) * s.

(** [np.log] where the result is the start of a search: the logarithm of 0 is
    [-inf], from which there is no search; modelled as an exception *)
Definition log_start (x : R) : res R := if Rltb 0 x then Ok (ln x) else Err ValueError.
(** plot/errorbars.py:51-53 [_inv_sigmoid]: [logit (y / s)], finite only when
    [0 < y / s < 1] *)
Definition inv_sigmoid (y s : R) : res R :=
  let q := y / s in
  if (Rltb 0 q && Rltb q 1)%bool then Ok (ln (q / (1 - q))) else Err ValueError.

Record bar := { bar_lower : R; bar_upper : R; bar_non_pos : bool }.

(** plot/errorbars.py:71-129 [wstat_errors], one bin: [delta_up] and [sigma_up]
    are [get_delta uplim] and [get_sigma uplim] (37-42, 87-88) *)
Definition wstat_error (root_find : (R -> R) -> R -> res R) (delta_up sigma_up : R)
    (n_on n_off a : R) : res bar :=
  (* 74 *)
  let s := Rmax (n_on - a * n_off) 0 in
  (* 75 *)
  let error := sqrt (n_on + a * a * n_off) in
  (* 76 *)
  let non_pos := Reqb s 0 in
  (* 77, 78 *)
  let wstat0 := wstat s n_on n_off a in
  let wstat_at_zero := wstat 0 n_on n_off a in
  (* 79 *)
  let zero_lower := Rleb (wstat_at_zero - wstat0) 1 in
  (* 92-95 *)
  bind (log_start (if non_pos then sigma_up * error else error)) (fun up_guess =>
  let delta := if non_pos then delta_up else 1 in
  (* 82-85, 96-103 *)
  bind (root_find (fun t => wstat (s + exp t) n_on n_off a - (wstat0 + delta)) up_guess) (fun t_up =>
  let upper := s + exp t_up in
  (* 80, 105-127 *)
  bind (if zero_lower then Ok 0
        else bind (inv_sigmoid (Rmax (s - error) (/ 1000)) s) (fun lo_guess =>
             bind (root_find (fun t => wstat (sigmoid t s) n_on n_off a - (wstat0 + 1)) lo_guess) (fun t_lo =>
             Ok (sigmoid t_lo s)))) (fun lower =>
  Ok {| bar_lower := lower; bar_upper := upper; bar_non_pos := non_pos |}))).

(** plot/errorbars.py:65-129 [wstat_errors]: all bins [(n_on, n_off, a)]; the
    three arrays returned are the three fields *)
Definition wstat_errors (root_find : (R -> R) -> R -> res R) (delta_up sigma_up : R)
    (bins : list (R * R * R)) : res (list bar) :=
  mapE (fun x => wstat_error root_find delta_up sigma_up (fst (fst x)) (snd (fst x)) (snd x)) bins.
