(** Model of plot/util.py: colours, markers and kernel smoothing.  float64 is [R]. *)
From Coq Require Import Ascii String ZArith.
From Verif Require Import RBase Base Namespace HelperData Data.
From Coq Require Import List.
Import ListNotations.
Open Scope list_scope.
Open Scope R_scope.

(** plot/util.py:13-19 [get_colors]: [standard] are the colours of the palette, [make n] is
    [sns.color_palette(palette, n)] *)
Definition get_colors {A} (standard : list A) (make : nat -> list A) (n : nat) : list A :=
  if (n <=? length standard)%nat then firstn n standard else make n.

(** 22-26 [get_markers] *)
Definition marker_cycle : list ascii := ["s"; "o"; "D"; "^"; "d"; "p"; "h"; "H"; "D"]%char.
Definition get_markers (n : nat) : list ascii := map (fun i => nth (i mod 9) marker_cycle " "%char) (seq 0 n).

(** [int(s, 16)] for a text of two characters (ASCII): two digits, or one with a sign or a blank *)
Definition hex_digit (c : ascii) : option Z :=
  let n := Z.of_nat (nat_of_ascii c) in
  if ((48 <=? n) && (n <=? 57))%Z%bool then Some (n - 48)%Z
  else if ((97 <=? n) && (n <=? 102))%Z%bool then Some (n - 87)%Z
  else if ((65 <=? n) && (n <=? 70))%Z%bool then Some (n - 55)%Z else None.
Definition blank (c : ascii) : bool :=
  let n := Z.of_nat (nat_of_ascii c) in ((n =? 32) || ((9 <=? n) && (n <=? 13)) || ((28 <=? n) && (n <=? 31)))%Z%bool.
Definition int16 (a b : ascii) : res Z :=
  match hex_digit a, hex_digit b with
  | Some x, Some y => Ok (16 * x + y)%Z
  | None, Some y => if Ascii.eqb a "+" then Ok y else if Ascii.eqb a "-" then Ok (- y)%Z
                    else if blank a then Ok y else Err ValueError
  | Some x, None => if blank b then Ok x else Err ValueError
  | None, None => Err ValueError
  end.

(** 29-30 [_clip]: [int] cuts off the fraction; the argument is not negative after the clip *)
Definition clip255 (x : R) : Z := Int_part (Rmin (Rmax x 0) 255).

(** [f'{n:02x}'] for 0 <= n <= 255 *)
Definition hex_char (d : Z) : ascii := nth (Z.to_nat d) (list_ascii_of_string "0123456789abcdef") "0"%char.
Definition hex2 (n : Z) : list ascii := [hex_char (n / 16); hex_char (n mod 16)].

(** the three pairs of digits of a colour; 37-38, 61-62: the text must be [#] and six characters *)
Definition channels (color : str) : res (Z * Z * Z) :=
  match color with
  | ["#"%char; r1; r2; g1; g2; b1; b2] =>
      bind (int16 r1 r2) (fun r => bind (int16 g1 g2) (fun g => bind (int16 b1 b2) (fun b => Ok (r, g, b))))
  | _ => Err ValueError
  end.
Definition shape_ok (color : str) : bool := match color with "#"%char :: r => (length r =? 6)%nat | _ => false end.
Definition show (r g b : Z) : str := "#"%char :: hex2 r ++ hex2 g ++ hex2 b.

(** 33-47 [_scale_color] *)
Definition scale_color (color : str) (factor : R) : res str :=
  if negb (shape_ok color) then Err ValueError else
  if Rleb factor 0 then Err ValueError else
  bind (channels color) (fun '(r, g, b) =>
  Ok (show (clip255 (IZR r * factor)) (clip255 (IZR g * factor)) (clip255 (IZR b * factor)))).

(** [np.geomspace(a, b, n)] for positive [a], [b] *)
Definition geomspace (a b : R) (n : nat) : list R :=
  map (fun i => if (i =? 0)%nat then a else if (i =? n - 1)%nat then b else a * exp (INR i / INR (n - 1) * ln (b / a))) (seq 0 n).

(** 50-72 [get_color_gradient]; a negative number of colours is refused by numpy *)
Definition get_color_gradient (color : str) (n : Z) (factor_min factor_max : R) : res (list str) :=
  if negb (shape_ok color) then Err ValueError else
  if Rleb factor_min 0 then Err ValueError else
  if Rleb factor_max 0 then Err ValueError else
  if Rleb factor_max factor_min then Err ValueError else
  if (n <? 0)%Z then Err ValueError else
  mapE (scale_color color) (geomspace factor_max factor_min (Z.to_nat n)).

(** 75-94 [get_contour_colors] *)
Definition get_contour_colors (color : str) (n : Z) (factor_min factor_max f : R) : res (list str * list str) :=
  bind (get_color_gradient color n factor_min factor_max) (fun contourf =>
  bind (get_color_gradient color n (f * factor_min) (f * factor_max)) (fun contour => Ok (contour, contourf))).

(** 97-166 [gaussian_kernel_smooth]; NaN is [None] *)
Definition kernel (sigma d : R) : R := exp (-0.5 * (d / sigma) ^ 2).
Definition smooth_at (x y : list R) (sigma thresh e : R) : option R :=
  let w := map (fun xi => kernel sigma (e - xi)) x in
  let total := rsum w in
  if Rltb total thresh then None else Some (rsum (zip2 Rmult w y) / total).
Definition gaussian_kernel_smooth (x y : list R) (sigma : R) (x_eval : option (list R)) (thresh : R) : res (list (option R)) :=
  if negb (length x =? length y)%nat then Err ValueError else
  Ok (map (smooth_at x y sigma thresh) (match x_eval with Some e => e | None => x end)).
