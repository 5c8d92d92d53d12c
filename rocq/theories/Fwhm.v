(** Model of data/base.py:1816-1890: the estimated width of the response ([fwhm], [channel_fwhm]). *)
From Verif Require Import RBase Data.
From Coq Require Import List.
Open Scope list_scope.
Open Scope R_scope.

(** first index of the largest entry: [matrix.argmax(axis=1)] *)
Fixpoint argmax_from (best : R) (bi i : nat) (l : list R) : nat :=
  match l with [] => bi | x :: r => if Rltb best x then argmax_from x i (S i) r else argmax_from best bi (S i) r end.
Definition argmax (l : list R) : nat := match l with [] => O | x :: r => argmax_from x 0 1 r end.
(** [np.flatnonzero(row <= half)] *)
Definition below (row : list R) (half : R) : list nat := filter (fun j => Rleb (nth j row 0) half) (seq 0 (length row)).
(** [np.searchsorted] of a sorted list of indices: how many are smaller *)
Definition searchsorted (l : list nat) (c : nat) : nat := length (filter (fun j => (j <? c)%nat) l).
Definition clip (lo hi x : Z) : Z := Z.min hi (Z.max lo x).
(** 1836-1867 for one row with [nC = length row] entries *)
Definition fwhm_row (row : list R) : Z :=
  let c := argmax row in
  let half := 0.5 * nth c row 0 in
  let idx := below row half in
  let k := searchsorted idx c in
  let low := if (0 <? k)%nat then Z.of_nat (nth (k - 1) idx O) else (Z.of_nat c - 1)%Z in
  let high := if (k <? length idx)%nat then Z.of_nat (nth k idx O) else (Z.of_nat c + 1)%Z in
  let low := clip 0 (Z.of_nat (length row) - 1) low in
  let high := clip 0 (Z.of_nat (length row) - 1) high in
  let good_low := Rleb (nth 0 row 0) half in
  let good_high := Rleb (last row 0) half in
  let w := ((if good_high then high - Z.of_nat c else 0) + (if good_low then Z.of_nat c - low else 0))%Z in
  let w := if xorb good_high good_low then (w * 2)%Z else w in
  let w := Z.max 1 w in
  if (good_high || good_low)%bool then w else (-1)%Z.
(** 1816-1869 [fwhm]: an axis of size zero has no [argmax]; for a single photon bin [np.squeeze] makes a 0-d array of
    [argmax], which cannot be indexed (1850, 1861) *)
Definition fwhm (matrix : list (list R)) : res (list Z) :=
  match matrix with
  | [] => Ok []
  | [[]] => Err ValueError
  | [_] => Err IndexError
  | rows => if existsb (fun r => (length r =? 0)%nat) rows then Err ValueError else Ok (map fwhm_row rows)
  end.
(** 1871-1890 [channel_fwhm] *)
Definition find_bin (egrid : list R) (n : nat) (e : R) : nat :=
  Z.to_nat (clip 0 (Z.of_nat n - 1) (Z.of_nat (length (filter (fun x => Rltb x e) egrid)) - 1)).
Definition channel_fwhm (egrid emin emax : list R) (matrix : list (list R)) : res (list Z) :=
  bind (fwhm matrix) (fun w =>
  match w, emin with
  | [], _ :: _ => Err IndexError
  | _, _ => Ok (zip2 (fun lo hi => nth (find_bin egrid (length w) ((lo + hi) / 2)) w 0%Z) emin emax)
  end).
