(** Model of util/misc.py:442-520 [report_interval]: the numbers shown in the titles of corner plots. *)
From Verif Require Import RBase.
From Coq Require Import ZArith.
Open Scope R_scope.

Definition p10 (z : Z) : R := powerRZ 10 z.
Definition log10 (x : R) : R := ln x / ln 10.
(** [math.floor] *)
Definition floor (x : R) : Z := Int_part x.
(** rounding to the nearest integer, ties to even, as done by python's format *)
Definition rne (x : R) : Z :=
  let n := floor x in let f := x - IZR n in
  if Rltb f (1/2) then n else if Rltb (1/2) f then (n + 1)%Z else if Z.even n then n else (n + 1)%Z.
(** [f'{num:.{p}e}']: the digits of the significand as an integer ([p] of them behind the point) and the exponent;
    for [num] other than zero *)
Definition sci (num : R) (p : Z) : Z * Z :=
  let e := floor (log10 (Rabs num)) in
  let m := rne (num * p10 (p - e)) in
  if (Z.abs m =? 10 ^ (p + 1))%Z then (m / 10, e + 1)%Z else (m, e).
(** [f'{x:.{p}f}']: the digits as an integer, [p] of them behind the point *)
Definition fixed (x : R) (p : Z) : Z := rne (x * p10 p).
(** a number as shown: digits, number of digits behind the point *)
Definition shown := (Z * Z)%type.
Definition value (s : shown) : R := IZR (fst s) * p10 (- snd s).
(** 488-496 [get_sci_notation_significand]; trailing zeros that are stripped do not change the value *)
Definition significand (precision : Z) (num : R) (exp : Z) : shown :=
  let x := num * p10 (- exp) in
  if Rltb (Rabs num) (p10 (exp - precision)) then
    let p := Z.abs (snd (sci num precision) - exp) in (fixed x p, p)
  else (fixed x precision, precision).
Record report := { r_mid : shown; r_lower : shown; r_upper : shown; r_exponent : Z }.
(** 471-520 *)
Definition report_interval (vmid vmin vmax : R) (precision min_exponent max_exponent : Z) : res report :=
  if negb ((0 <? precision) && (0 <? min_exponent) && (0 <? max_exponent))%Z then Err AssertionError else
  if Reqb vmid 0 then Err ValueError (* math.log10(0) *) else
  let exponent := log10 (Rabs vmid) in
  let scientific := (Rleb exponent (- IZR min_exponent) || Rleb (IZR max_exponent) exponent)%bool in
  let mid := if scientific then (fst (sci vmid precision), precision) else (fixed vmid precision, precision) in
  let base := if scientific then floor exponent else 0%Z in
  let err x := if Reqb x 0 then (0, 0)%Z else significand precision x base in
  Ok {| r_mid := mid; r_lower := err (vmin - vmid); r_upper := err (vmax - vmid); r_exponent := base |}.
