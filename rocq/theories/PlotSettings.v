(** Model of the configuration of plots (plot/plotter.py:251-506, 935-1050), and of the helpers of plot/util.py. *)
From Coq Require Import Ascii String.
From Verif Require Import RBase Base Data Namespace HelperData Results Summary ModelAlg.
From Coq Require Import List.
Open Scope list_scope.
Open Scope R_scope.

(** ** [PlotConfig], plotter.py:251-429; the switches (booleans) and the seed take any value *)
Inductive xscale := Xlinear | Xlog.
Inductive yscale := Ylinear | Ylog | Ylinlog.
Inductive rtype := RD | RP | RQ.
Record config := { c_alpha : R; c_xscale : xscale; c_yscale : yscale; c_lin_frac : R; c_cl : list R; c_residuals : rtype; c_random : bool; c_mark : bool; c_sign : bool; c_fill : bool; c_comps : bool; c_seed : option Z }.
(** values of a setting: a name that is not among the choices is [None] *)
Inductive setting := SAlpha (v : R) | SXscale (v : option xscale) | SYscale (v : option yscale) | SLinFrac (v : R) | SCl (v : list R) | SResiduals (v : option rtype)
| SRandom (b : bool) | SMark (b : bool) | SSign (b : bool) | SFill (b : bool) | SComps (b : bool) | SSeed (s : option Z).
(** the setters 286-429 *)
Definition set (c : config) (s : setting) : res config :=
  let '{| c_alpha := a; c_xscale := x; c_yscale := y; c_lin_frac := l; c_cl := cl; c_residuals := r; c_random := b1; c_mark := b2; c_sign := b3; c_fill := b4; c_comps := b5; c_seed := sd |} := c in
  let mk a x y l cl r b1 b2 b3 b4 b5 sd := {| c_alpha := a; c_xscale := x; c_yscale := y; c_lin_frac := l; c_cl := cl; c_residuals := r; c_random := b1; c_mark := b2; c_sign := b3; c_fill := b4; c_comps := b5; c_seed := sd |} in
  match s with
  | SAlpha v => if (Rltb 0 v && Rleb v 1)%bool then Ok (mk v x y l cl r b1 b2 b3 b4 b5 sd) else Err ValueError
  | SXscale v => match v with Some v => Ok (mk a v y l cl r b1 b2 b3 b4 b5 sd) | None => Err ValueError end
  | SYscale v => match v with Some v => Ok (mk a x v l cl r b1 b2 b3 b4 b5 sd) | None => Err ValueError end
  | SLinFrac v => if (Rltb 0 v && Rleb v 0.5)%bool then Ok (mk a x y v cl r b1 b2 b3 b4 b5 sd) else Err ValueError
  | SCl v => if forallb (fun c => Rltb 0 c && Rltb c 1)%bool (sortR v) then Ok (mk a x y l (sortR v) r b1 b2 b3 b4 b5 sd) else Err ValueError
  | SResiduals v => match v with Some v => Ok (mk a x y l cl v b1 b2 b3 b4 b5 sd) | None => Err ValueError end
  | SRandom b => Ok (mk a x y l cl r b b2 b3 b4 b5 sd)
  | SMark b => Ok (mk a x y l cl r b1 b b3 b4 b5 sd)
  | SSign b => Ok (mk a x y l cl r b1 b2 b b4 b5 sd)
  | SFill b => Ok (mk a x y l cl r b1 b2 b3 b b5 sd)
  | SComps b => Ok (mk a x y l cl r b1 b2 b3 b4 b sd)
  | SSeed s => Ok (mk a x y l cl r b1 b2 b3 b4 b5 s)
  end.
(** the defaults 252-265 *)
Definition default_config : config := {| c_alpha := 0.8; c_xscale := Xlog; c_yscale := Ylinlog; c_lin_frac := 0.15; c_cl := [0.683; 0.95]; c_residuals := RQ;
  c_random := false; c_mark := false; c_sign := true; c_fill := true; c_comps := false; c_seed := None |}.
(** assignments made one after the other; those that fail raise an exception and leave the configuration as it is *)
Definition assign (c : config) (h : list setting) : config := fold_left (fun c s => match set c s with Ok c' => c' | Err _ => c end) h c.

(** ** outliers, plotter.py:1035-1041: [bands] are the intervals of simulated residuals for each level, when there are; [normal_q] those of the normal law *)
Definition outliers (bands : list (list R * list R)) (normal_q : list R) (r : list R) : res (list bool) :=
  match rev bands with
  | (lo, hi) :: _ => Ok (map (fun i => Rltb (nth i r 0) (nth i lo 0) || Rltb (nth i hi 0) (nth i r 0))%bool (seq 0 (length r)))
  | [] => match rev normal_q with
          | [] => Err IndexError
          | q :: _ => Ok (map (fun y => Rltb y (- q) || Rltb q y)%bool r)
          end
  end.

(** ** colours of the data, plotter.py:478-506; [sns] gives the [n] colours of a palette.  Palettes are compared by equality *)
Inductive palette := PNone | PCustom | PNamed (k : Z).
Definition pal_eqb (a b : palette) : bool := match a, b with PNone, PNone | PCustom, PCustom => true | PNamed i, PNamed j => Z.eqb i j | _, _ => false end.
Section Colors.
Variables (color : Type) (names : list str) (sns : palette -> list color).
Record colors := { k_config : palette; k_palette : palette; k_colors : option (dict color) }.
Inductive cop := CPalette (p : palette) | CSet (d : option (dict color)) | CRead.
Definition new_colors (p : palette) : colors := {| k_config := p; k_palette := PNone; k_colors := None |}.
(** [issubset] 490 *)
Definition covers (d : dict color) : bool := forallb (fun n => match get d n with Some _ => true | None => false end) names.
Definition cstep (s : colors) (o : cop) : colors * res (option (dict color)) :=
  match o with
  | CPalette p => ({| k_config := p; k_palette := k_palette s; k_colors := k_colors s |}, Ok None)
  | CSet None => ({| k_config := k_config s; k_palette := PNone; k_colors := None |}, Ok None)
  | CSet (Some d) => if covers d then ({| k_config := k_config s; k_palette := PCustom; k_colors := Some d |}, Ok None) else (s, Err ValueError)
  | CRead => if (pal_eqb (k_palette s) PCustom || pal_eqb (k_palette s) (k_config s))%bool then (s, Ok (k_colors s))
             else let d := combine names (sns (k_config s)) in ({| k_config := k_config s; k_palette := k_config s; k_colors := Some d |}, Ok (Some d))
  end.
Definition chistory (s : colors) (h : list cop) : colors := fold_left (fun s o => fst (cstep s o)) h s.
End Colors.
Arguments k_config {color}. Arguments k_palette {color}. Arguments k_colors {color}. Arguments CPalette {color}. Arguments CSet {color}. Arguments CRead {color}.

(** ** util.py:22-26 *)
Definition marker_cycle : list ascii := list_ascii_of_string "soD^dphHD".
Definition get_markers (n : nat) : list ascii := map (fun i => nth (i mod 9) marker_cycle " "%char) (seq 0 n).

(** ** util.py:29-94: a colour is its three numbers, each between 0 and 255 (the parsing of the text is not modelled) *)
Definition rgb := (Z * Z * Z)%type.
Definition clip (x : R) : Z := Z.max 0 (Z.min 255 (Int_part x)).
Definition scale_color (c : rgb) (f : R) : res rgb :=
  if Rleb f 0 then Err ValueError else let '(r, g, b) := c in Ok (clip (IZR r * f), clip (IZR g * f), clip (IZR b * f)).
Definition color_gradient (c : rgb) (n : Z) (fmin fmax : R) : res (list rgb) :=
  if Rleb fmin 0 then Err ValueError else if Rleb fmax 0 then Err ValueError else if Rleb fmax fmin then Err ValueError
  else if (n <? 0)%Z then Err ValueError else mapE (scale_color c) (geomspace fmax fmin (Z.to_nat n)).
Definition contour_colors (c : rgb) (n : Z) (fmin fmax f : R) : res (list rgb * list rgb) :=
  bind (color_gradient c n fmin fmax) (fun cf => bind (color_gradient c n (f * fmin) (f * fmax)) (fun cl => Ok (cl, cf))).

(** ** util.py:97-166; [None] is not a number *)
Definition kernel (sigma d : R) : R := exp (- 0.5 * ((d / sigma) * (d / sigma))).
Definition smooth (x y : list R) (sigma : R) (x_eval : option (list R)) (thresh : R) : list (option R) :=
  map (fun e => let w := map (fun xi => kernel sigma (e - xi)) x in
                if Rltb (rsum w) thresh then None else Some (rsum (zip2 Rmult w y) / rsum w)) (match x_eval with Some e => e | None => x end).

(** ** plotter.py:82-101 [_adjust_log_range]: the limits of an axis, for data between [vmin] and [vmax]; the logarithm of a number that is not positive is not a
    number ([None]) *)
Definition log10 (x : R) : R := ln x / ln 10.
Definition pow10 (x : R) : R := exp (x * ln 10).
Definition log_range (vmin vmax : R) (octave : nat) : option (R * R) :=
  if Rleb vmax 0 then None else
  let vmin := if Rltb (INR octave) (log10 (vmax / Rmax (/ 10 ^ 30) vmin)) then vmax / 10 ^ octave else vmin in
  if Rleb vmin 0 then None else Some (pow10 (log10 vmin - 0.05), pow10 (log10 vmax + 0.1)).
