(** Model of the adaptive grouping routines of data/grouping.py.
    Counts are [Z] (see DESIGN.md: any finite set of floats scales to [Z];
    rounding of float additions is not modelled). *)
From Verif Require Import Base.

(** data/grouping.py:14-39 [group_const].  [flag[::c] = 1], then
    [flag[-r] = -1] when [r = n % c] is non-zero; [flag[-r]] is index [n - r].
    [int()] conversions of the arguments are taken as already done. *)
Definition group_const (n c : nat) : res (list Z * bool) :=
  if c =? 0 then Err AssertionError else
  let flag := map (fun k => if k mod c =? 0 then 1%Z else (-1)%Z) (seq 0 n) in
  let r := n mod c in
  Ok (if r =? 0 then flag
      else map (fun k => if k =? n - r then (-1)%Z else nth k flag 0%Z) (seq 0 n),
      true).

(** data/grouping.py:69-88, the [for] loop of [group_min].
    [idx] is the python [idx[:ng]] (so [ng -= 1] is [removelast]). *)
Fixpoint min_loop (data : list Z) (i imax : nat) (n gc : Z) (idx : list nat) : list nat :=
  match data with
  | [] => idx
  | di :: rest =>
      let gc := (gc + di)%Z in
      if i =? imax then
        if ((gc <? n)%Z && (1 <? length idx))%bool then removelast idx else idx
      else if (n <=? gc)%Z then min_loop rest (S i) imax n 0%Z (idx ++ [S i])
      else min_loop rest (S i) imax n gc idx
  end.

(** data/grouping.py:42-98 [group_min].  An empty array fails at
    [idx[0] = 0] with IndexError. *)
Definition group_min (data : list Z) (n : Z) : res (list Z * bool) :=
  if (n <=? 0)%Z then Err AssertionError else
  match data with
  | [] => Err IndexError
  | _ =>
      let idx := min_loop data 0 (length data - 1) n 0%Z [0] in
      let success := forallb (fun s => n <=? s)%Z (reduceat sumZ data idx) in
      Ok (flags_of idx (length data), success)
  end.

(** The scan shared by [group_sig_lima] (data/grouping.py:698-729),
    [group_sig_gv] (784-816) and, after unfolding its accumulators,
    [group_sig_normal] (1054-1079).  [ok a b] is the test
    "significance of the bin [a, b) >= sig"; [k] counts the remaining
    iterations of [for i in range(nd)]. *)
Fixpoint sig_loop (ok : nat -> nat -> bool) (k i imax start : nat) (idx : list nat) : list nat :=
  match k with
  | 0 => idx
  | S k =>
      let b := ok start (S i) in
      if i =? imax then
        if (negb b && (1 <? length idx))%bool then removelast idx else idx
      else if b then sig_loop ok k (S i) imax (S i) (idx ++ [S i])
      else sig_loop ok k (S i) imax start idx
  end.

Definition sig_scan (ok : nat -> nat -> bool) (nd : nat) : list nat :=
  sig_loop ok nd 0 (nd - 1) 0 [0].

(** data/grouping.py:668-749 / 752-837: scan, then [success] from the
    significance of the final groups, then flags.  [ok] is the test used in
    the scan (prefix sums), [okf] the test used on the final groups. *)
Definition group_sig (ok okf : nat -> nat -> bool) (nd : nat) : res (list Z * bool) :=
  if nd =? 0 then Err IndexError else
  let idx := sig_scan ok nd in
  Ok (flags_of idx nd, forallb (fun p => okf (fst p) (snd p)) (pairs idx nd)).

(** data/grouping.py:195-198 (same text at 621-624, 876-879, 969-972):
    [j = min(imax, i + bint[i] - 1)], then the minimum over
    [k + bint[k] - 1] for [k] in [i+1 .. j]. *)
Definition opt_end (bint : list nat) (imax i : nat) : nat :=
  let j0 := Nat.min imax (i + nth i bint 0 - 1) in
  fold_left (fun j k => Nat.min j (k + nth k bint 0 - 1)) (seq (S i) (j0 - i)) j0.

(** The [while i <= imax] loop of [group_opt] (191-224),
    [group_optsig_normal] (617-654), [group_optsig_lima] (872-902) and
    [group_optsig_gv] (965-996).  [ext i j] is the extension step:
    [Some j'] continues with bin end [j'], [None] is the branch that merges the
    open bin into the previous one and breaks.  The [j > imax] block
    (215-220, 645-650) is kept; the lima/gv variants have no such block but
    their [ext] never returns [j' > imax].  [fuel] bounds the iterations;
    running out is the explicit error [OutOfFuel]. *)
Fixpoint opt_loop (fuel : nat) (bint : list nat) (ext : nat -> nat -> option nat)
         (n i : nat) (idx : list nat) : res (list nat) :=
  match fuel with
  | 0 => Err OutOfFuel
  | S fuel =>
      if n <=? i then Ok idx else
      let imax := n - 1 in
      let idx := idx ++ [i] in
      match ext i (opt_end bint imax i) with
      | None => Ok (if 1 <? length idx then removelast idx else idx)
      | Some j =>
          if imax <? j then
            Ok (if ((j - i <? 3 * (j - imax)) && (1 <? length idx))%bool
                then removelast idx else idx)
          else opt_loop fuel bint ext n (S j) idx
      end
  end.

Definition opt_scan (bint : list nat) (ext : nat -> nat -> option nat) (n : nat) : res (list nat) :=
  opt_loop (S n) bint ext n 0 [].

(** position of the first element of [l] satisfying [p]:
    [np.flatnonzero(mask)[0]] guarded by [np.any(mask)] *)
Fixpoint find_first {A} (p : A -> bool) (l : list A) : option nat :=
  match l with
  | [] => None
  | x :: r => if p x then Some 0 else option_map S (find_first p r)
  end.

(** [x.cumsum()] with an initial value *)
Fixpoint cumsumZ (acc : Z) (l : list Z) : list Z :=
  match l with [] => [] | x :: r => (acc + x)%Z :: cumsumZ (acc + x)%Z r end.

(** data/grouping.py:201-213, extension of a bin to reach [n] counts *)
Definition ext_min (bc : list Z) (n : Z) (i j : nat) : option nat :=
  let cts := sumZ (slice i (S j) bc) in
  if (cts <? n)%Z then
    match find_first (fun s => (n - cts <=? s)%Z) (cumsumZ 0 (skipn (S j) bc)) with
    | Some m => Some (j + m + 1)
    | None => None
    end
  else Some j.

(** data/grouping.py:141-235 [group_opt], given the optimal bin sizes [bint]
    computed by [_calc_optimal_binning] (modelled over [R] in OptBin.v).
    [bin] is [Some (bin_counts, n)] exactly when python's [min_flag] holds. *)
Definition group_opt (bint : list nat) (bin : option (list Z * Z)) : res (list Z * bool) :=
  let nchan := length bint in
  let ext := match bin with
             | Some (bc, n) => ext_min bc n
             | None => fun _ j => Some j
             end in
  bind (opt_scan bint ext nchan) (fun idx =>
    let success := match bin with
                   | Some (bc, n) => forallb (fun s => n <=? s)%Z (reduceat sumZ bc idx)
                   | None => true
                   end in
    Ok (flags_of idx nchan, success)).

(** data/grouping.py:881-897 / 974-991: [while j <= imax] one step at a time
    until the bin [i, j] is significant; [None] is [j > imax].
    [k] is the number of remaining values of [j]. *)
Fixpoint ext_sig_loop (ok : nat -> nat -> bool) (k i j : nat) : option nat :=
  match k with
  | 0 => None
  | S k => if ok i (S j) then Some j else ext_sig_loop ok k i (S j)
  end.
Definition ext_sig (ok : nat -> nat -> bool) (n i j : nat) : option nat :=
  ext_sig_loop ok (n - j) i j.

(** data/grouping.py:840-928 / 931-1023 [group_optsig_lima] / [group_optsig_gv],
    again given [bint] and the bin tests. *)
Definition group_optsig (bint : list nat) (ok okf : nat -> nat -> bool) : res (list Z * bool) :=
  let n := length bint in
  bind (opt_scan bint (ext_sig ok n) n) (fun idx =>
    Ok (flags_of idx n, forallb (fun p => okf (fst p) (snd p)) (pairs idx n))).
