(** Model of the significance formulas and significance groupings of
    data/grouping.py.  Floating point is replaced by [R]. *)
From Verif Require Import RBase Gibbs Grouping Scale.

(** data/grouping.py:510-538 [significance_lima] for one bin.  [2*(term1+term2)] *)
Definition lima_stat (n_on n_off a : R) : R :=
  let term1 := if Rltb 0 n_on then xlogy n_on ((1 + a) / a * n_on / (n_on + n_off)) else 0 in
  let term2 := if Rltb 0 n_off then xlogy n_off ((1 + a) * n_off / (n_on + n_off)) else 0 in
  2 * (term1 + term2).
Definition significance_lima (n_on n_off a : R) : R :=
  (if Rleb (a * n_off) n_on then 1 else -1) * sqrt (lima_stat n_on n_off a).

(** data/grouping.py:541-571 [significance_gv] for one bin *)
Definition gv_b0 (n b s a : R) : R :=
  let b := b * a in let s := s * a in
  let s2 := s * s in let s4 := s2 * s2 in
  let b0 := 0.5 * (b - s2 + sqrt (b * b - 2 * b * s2 + 4 * n * s2 + s4)) in
  Rmax b0 0.
Definition gv_stat (n b s a : R) : R :=
  let b0 := gv_b0 n b s a in
  let b := b * a in let s := s * a in let s2 := s * s in
  let term1 := (if Rltb 0 n then xlogy n (n / b0) else 0) + (b0 - n) in
  let term2 := (b - b0) * (b - b0) / (2 * s2) in
  2 * (term1 + term2).
Definition significance_gv (n b s a : R) : R :=
  (if Rleb (b * a) n then 1 else -1) * sqrt (gv_stat n b s a).

(** scale arguments shared by the significance groupings *)
Record scales := { es : R; eb : R; sa : scale_data; sb : scale_data; ba : scale_data; bb : scale_data }.
(** data/grouping.py:690-693: prefixes with [net=False] *)
Definition iratio (k : scales) (a b : nat) : R :=
  interval_back_ratio a b (es k) (eb k) (build_scale_prefix (sa k) false) (build_scale_prefix (sb k) false)
    (build_scale_prefix (ba k) false) (build_scale_prefix (bb k) false).

(** data/grouping.py:698-714: the test on the candidate bin [a, b), by prefix sums *)
Definition lima_ok (on off : list R) (k : scales) (sig : R) (a b : nat) : bool :=
  Rleb sig (significance_lima (interval_sum (prefix_sum on) a b) (interval_sum (prefix_sum off) a b) (iratio k a b)).
(** data/grouping.py:726-742: the test on a final group, by [np.add.reduceat] *)
Definition lima_okf (on off : list R) (k : scales) (sig : R) (a b : nat) : bool :=
  Rleb sig (significance_lima (rsum (slice a b on)) (rsum (slice a b off)) (iratio k a b)).
(** data/grouping.py:668-749 [group_sig_lima] *)
Definition group_sig_lima (on off : list R) (k : scales) (sig : R) : res (list Z * bool) :=
  if negb (length on =? length off) then Err AssertionError else
  if Rleb sig 0 then Err AssertionError else
  group_sig (lima_ok on off k sig) (lima_okf on off k sig) (length on).

Definition sq (x : R) : R := x * x.
(** data/grouping.py:784-802 / 813-830 *)
Definition gv_ok (n b s : list R) (k : scales) (sig : R) (x y : nat) : bool :=
  Rleb sig (significance_gv (interval_sum (prefix_sum n) x y) (interval_sum (prefix_sum b) x y)
              (sqrt (interval_sum (prefix_sum (map sq s)) x y)) (iratio k x y)).
Definition gv_okf (n b s : list R) (k : scales) (sig : R) (x y : nat) : bool :=
  Rleb sig (significance_gv (rsum (slice x y n)) (rsum (slice x y b))
              (sqrt (rsum (slice x y (map sq s)))) (iratio k x y)).
(** data/grouping.py:752-837 [group_sig_gv] *)
Definition group_sig_gv (n b s : list R) (k : scales) (sig : R) : res (list Z * bool) :=
  if negb ((length n =? length b) && (length b =? length s)) then Err AssertionError else
  if Rleb sig 0 then Err AssertionError else
  group_sig (gv_ok n b s k sig) (gv_okf n b s k sig) (length n).

(** data/grouping.py:1054-1079: the loop of [group_sig_normal] *)
Fixpoint normal_loop (ce : list (R * R)) (i imax : nat) (sig gc gv : R) (idx : list nat) : list nat :=
  match ce with
  | [] => idx
  | (d, e) :: rest =>
      let gc := gc + d in
      let gv := gv + e * e in
      let x := gc - sig * sqrt gv in
      if i =? imax then
        if ((Rltb x 0 || Reqb gv 0) && (1 <? length idx))%bool then removelast idx else idx
      else if (Rleb 0 x && Rltb 0 gv)%bool then normal_loop rest (S i) imax sig 0 0 (idx ++ [S i])
      else normal_loop rest (S i) imax sig gc gv idx
  end.
(** data/grouping.py:1081-1084 *)
Definition normal_okf (c e : list R) (sig : R) (a b : nat) : bool :=
  Rleb 0 (rsum (slice a b c) - sig * sqrt (rsum (slice a b (map sq e)))).
(** data/grouping.py:1026-1091 [group_sig_normal] *)
Definition group_sig_normal (c e : list R) (sig : R) : res (list Z * bool) :=
  if negb (length c =? length e) then Err AssertionError else
  if Rleb sig 0 then Err AssertionError else
  match c with
  | [] => Err IndexError
  | _ =>
    let n := length c in
    let idx := normal_loop (combine c e) 0 (n - 1) sig 0 0 [0%nat] in
    Ok (flags_of idx n, forallb (fun p => normal_okf c e sig (fst p) (snd p)) (pairs idx n))
  end.

(** ** Optimal bin sizes: data/grouping.py:99-138 [_calc_optimal_binning] *)
(** [astype(int64)]: truncation towards zero *)
Definition Rtrunc (x : R) : Z := if Rleb 0 x then Int_part x else (- Int_part (- x))%Z.
(** [np.round]: half to even *)
Definition Rround (x : R) : Z :=
  let k := Int_part x in let f := x - IZR k in
  if Rltb f 0.5 then k else if Rltb 0.5 f then (k + 1)%Z
  else if Z.even k then k else (k + 1)%Z.

(** [1 + np.sum(1.0 / fwhm)], whose logarithm is taken on line 117 *)
Definition n_res (fwhm : list R) : R := 1 + rsum (map (fun w => 1 / w) fwhm).
(** lines 121-127 *)
Definition Nr_at (counts : list R) (n i : nat) (w : R) : R :=
  let low := Z.max 0 (Rround (INR i - 0.5 * w)) in
  let high := Z.min (Z.of_nat n) (Rround (INR i + 0.5 * w)) in
  1.314 * rsum (slice (Z.to_nat low) (Z.to_nat (high + 1)) counts).
Definition shrink (x : R) : R := (0.08 * x + 7 + 1.8 / x) / (x + 5.9).
(** lines 130-137.  Widths of -1 ("undefined", see Fwhm.v) can make [n_res] zero or negative: the logarithm is then
    -inf (the mask selects positive [Nr] and the selected widths become NaN) or NaN (the mask selects nothing).  A width
    that is NaN becomes the smallest integer, so 1; it is 0 here. *)
Definition width_at (t w nr : R) : R :=
  if Rltb t 0 then w else if Reqb t 0 then (if Rltb 0 nr then 0 else w) else
  let f := 1 + 0.2 * ln t in
  if Reqb f 0 then w
  else if Rltb (exp 2.119 / f) nr then (if Rleb (nr * f) 0 then 0 else w * shrink (ln (nr * f))) else w.
Definition bint_at (t w nr : R) : nat :=
  let bi := Rtrunc (width_at t w nr) in
  if (bi <? 1)%Z then 1%nat else Z.to_nat bi.
Definition calc_optimal_binning (fwhm counts : list R) : list nat :=
  let n := length fwhm in
  map (fun p => bint_at (n_res fwhm) (snd p) (Nr_at counts n (fst p) (snd p))) (combine (seq 0 n) fwhm).

(** data/grouping.py:141-235 [group_opt] with its real front end.
    [bin_counts] and [n] stay in [Z] (see Grouping.v). *)
Definition group_opt_full (fwhm net : list R) (bin : option (list Z)) (n : option Z) : res (list Z * bool) :=
  if negb (length fwhm =? length net) then Err AssertionError else
  let n := match n with Some n => n | None => 0%Z end in
  let arg := match bin with Some bc => if (0 <? n)%Z then Some (bc, n) else None | None => None end in
  group_opt (calc_optimal_binning fwhm net) arg.

(** data/grouping.py:840-928 [group_optsig_lima] *)
Definition group_optsig_lima (fwhm net on off : list R) (k : scales) (sig : R) : res (list Z * bool) :=
  if negb ((length fwhm =? length net) && (length net =? length on) && (length on =? length off))
  then Err AssertionError else
  if Rleb sig 0 then Err AssertionError else
  group_optsig (calc_optimal_binning fwhm net) (lima_ok on off k sig) (lima_okf on off k sig).
(** data/grouping.py:931-1023 [group_optsig_gv] *)
Definition group_optsig_gv (fwhm net n b s : list R) (k : scales) (sig : R) : res (list Z * bool) :=
  if negb ((length fwhm =? length net) && (length net =? length n) && (length n =? length b)
           && (length b =? length s)) then Err AssertionError else
  if Rleb sig 0 then Err AssertionError else
  group_optsig (calc_optimal_binning fwhm net) (gv_ok n b s k sig) (gv_okf n b s k sig).

(** data/grouping.py:626-643: the extension step of [group_optsig_normal];
    note [err + sqrt(cumsum(...))], a plain sum and not a quadrature sum. *)
Definition ext_normal (c e : list R) (sig : R) (i j : nat) : option nat :=
  let cts := rsum (slice i (S j) c) in
  let er := sqrt (rsum (slice i (S j) (map sq e))) in
  if (Rltb (cts - sig * er) 0 || Reqb er 0)%bool then
    let cs := map (fun t => cts + t) (cumsumR 0 (skipn (S j) c)) in
    let rs := map (fun t => er + sqrt t) (cumsumR 0 (skipn (S j) (map sq e))) in
    match find_first (fun p => (Rleb 0 (fst p - sig * snd p) && Rltb 0 (snd p))%bool) (combine cs rs) with
    | Some m => Some (j + m + 1)%nat
    | None => None
    end
  else Some j.
(** data/grouping.py:574-665 [group_optsig_normal] after the bin sizes *)
Definition group_optsig_normal_b (bint : list nat) (c e : list R) (sig : R) : res (list Z * bool) :=
  let n := length bint in
  bind (opt_scan bint (ext_normal c e sig) n) (fun idx =>
    Ok (flags_of idx n, forallb (fun p => normal_okf c e sig (fst p) (snd p)) (pairs idx n))).
Definition group_optsig_normal (fwhm net c e : list R) (sig : R) : res (list Z * bool) :=
  if negb ((length fwhm =? length net) && (length net =? length c) && (length c =? length e))
  then Err AssertionError else
  if Rleb sig 0 then Err AssertionError else
  group_optsig_normal_b (calc_optimal_binning fwhm net) c e sig.
