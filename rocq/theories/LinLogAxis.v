(** Model of plot/scale.py: what the two halves of a linear-logarithmic axis are told, and how its ticks are labelled. *)
From Verif Require Import RBase LinLog.
From Coq Require Import List ZArith.
Import ListNotations.
Open Scope R_scope.

(** plot/scale.py:41-47 and 52-58 (views and data alike): the interval of the logarithmic ([true]) or linear ([false])
    half; [v] is the interval of the whole axis, as matplotlib gives it (an inverted axis gives the larger end first) *)
Definition half_interval (thresh : R) (is_log : bool) (v : R * R) : R * R :=
  let (vmin, vmax) := v in
  if Rltb vmin thresh && Rltb thresh vmax then (if is_log then (thresh, vmax) else (vmin, thresh)) else (vmin, vmax).
(** Python's [round] of a number: to the nearest integer, a half to the even one (real numbers instead of floats) *)
Definition py_round (r : R) : Z :=
  let k := Int_part r in
  if Rltb (r - IZR k) (1 / 2) then k else if Rltb (1 / 2) (r - IZR k) then (k + 1)%Z else if Z.even k then k else (k + 1)%Z.
(** 60-70: [n] is the number of ticks that fit on the whole axis (matplotlib's answer) *)
Definition tick_space (t : linlog) (is_log : bool) (v : R * R) (n : Z) : Z :=
  let T := l_thresh t * adj t in
  let vmin := forward t (fst v) in let vmax := forward t (snd v) in
  let factor := if Rltb vmin T && Rltb T vmax then
                  (let f := (T - vmin) / (vmax - vmin) in if is_log then 1 - f else f) else 1 in
  py_round (IZR n * factor).
(** 195-205: the text of a tick; [flog] and [flin] are matplotlib's two formatters, [rd] is Python's [float] of a text
    ([None]: it raises ValueError), [zero] the text '0' *)
Definition tick_text {text : Type} (rd : text -> option R) (zero : text) (flog flin : R -> text) (thresh x : R) : text :=
  if Rleb thresh x then flog x
  else let s := flin x in match rd s with Some r => if Reqb r 0 then zero else s | None => s end.
(** 223-226: (places given to the logarithmic formatter, places given to the linear one); [None] is the default
    argument, over which the code iterates *)
Definition set_locs (thresh : R) (locs : option (list R)) : res (list R * list R) :=
  match locs with None => Err TypeError | Some l => Ok (l, filter (fun i => Rleb i thresh) l) end.
