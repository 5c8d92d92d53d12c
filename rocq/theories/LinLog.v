(** Model of plot/scale.py: the axis of the spectral plots that is linear up to a threshold and logarithmic above. *)
From Verif Require Import RBase.
From Coq Require Import List.
Import ListNotations.
Open Scope R_scope.

(** plot/scale.py:86-104, 126-144 (the two transforms), 376-391 (the scale): what the constructors keep *)
Record linlog := { l_base : R; l_thresh : R; l_scale : R }.
Definition mk_linlog (base thresh scale : R) : res linlog :=
  if Rleb base 1 then Err ValueError else if Rleb thresh 0 then Err ValueError else if Rleb scale 0 then Err ValueError
  else Ok {| l_base := base; l_thresh := thresh; l_scale := scale |}.
(** 379-382: the default of [lin_scale] *)
Definition mk_scale (base thresh : R) (scale : option R) : res linlog :=
  mk_linlog base thresh (match scale with Some s => s | None => 1 / ln base end).
(** 104, 143: [_lin_scale_adj] *)
Definition adj (t : linlog) : R := l_scale t / (1 - 1 / l_base t).
(** 106-115 (also 71-80, 330-339), one value *)
Definition forward (t : linlog) (x : R) : R :=
  if Rltb (l_thresh t) x then l_thresh t * (adj t + ln (x / l_thresh t) / ln (l_base t)) else x * adj t.
(** 146-157, one value *)
Definition backward (t : linlog) (y : R) : R :=
  if Rltb (l_thresh t * adj t) y then l_thresh t * Rpower (l_base t) (y / l_thresh t - adj t) else y / adj t.
(** 426-442 *)
Definition get_scale (base thresh vmin vmax f : R) : res R :=
  if negb (Rltb 1 base) then Err AssertionError else
  if negb (Rltb vmin thresh && Rltb thresh vmax) then Err AssertionError else
  if negb (Rltb 0 f && Rltb f 1) then Err AssertionError else
  Ok (- ((base - 1) * f * thresh * ln (vmax / thresh)) / (base * (f - 1) * (thresh - vmin) * ln base)).
(** 298-324: [lin], [log] are what matplotlib's linear and logarithmic locators return for the two parts; sorting and
    removing duplicates at the end is left out (the set of ticks is what matters here) *)
Definition tick_values (thresh : R) (lin log : list R) (vmin0 vmax0 : R) : list R :=
  let vmin := if Rltb vmax0 vmin0 then vmax0 else vmin0 in
  let vmax := if Rltb vmax0 vmin0 then vmin0 else vmax0 in
  (if Rltb vmin thresh then filter (fun t => Rltb t (Rmin thresh vmax)) lin else []) ++
  (if Rltb thresh vmax then filter (fun t => Rltb (Rmax vmin thresh) t) log else []).
