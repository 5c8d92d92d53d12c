(** Common vocabulary: results, slices, OGIP flags, numpy helpers.
    Everything here models numpy/python primitives used throughout
    [/repo/src/elisa]; the python functions themselves are in the other files. *)
From Coq Require Export List Arith ZArith Lia Bool.
From Coq Require Export Sorting.Sorted.
Export ListNotations.

(** Python exception classes raised by the modelled code. *)
Inductive err : Set :=
| AssertionError | IndexError | ValueError | TypeError | RuntimeError
| KeyError | AttributeError | OutOfFuel | ZeroDivisionError | SyntaxError.

Inductive res (A : Type) : Type :=
| Ok : A -> res A
| Err : err -> res A.
Arguments Ok {A} _.
Arguments Err {A} _.

Definition bind {A B} (r : res A) (f : A -> res B) : res B :=
  match r with Ok a => f a | Err e => Err e end.

Definition sumZ (l : list Z) : Z := fold_right Z.add 0%Z l.

(** python [l[i:j]] for [0 <= i], [0 <= j] *)
Definition slice {A} (i j : nat) (l : list A) : list A := firstn (j - i) (skipn i l).

(** [np.flatnonzero(l)] on a boolean array, positions counted from [k] *)
Fixpoint fnz (k : nat) (l : list bool) : list nat :=
  match l with
  | [] => []
  | b :: r => if b then k :: fnz (S k) r else fnz (S k) r
  end.
Definition flatnonzero (l : list bool) : list nat := fnz 0 l.

(** group starts: [np.flatnonzero(grouping != -1)], the idiom of
    data/base.py:313, 1336, 1516 and data/grouping.py:365 *)
Definition starts (fl : list Z) : list nat :=
  flatnonzero (map (fun f => negb (Z.eqb f (-1))) fl).

(** [zip(edge[:-1], edge[1:])] with [edge = np.append(idx, n)] *)
Fixpoint pairs (idx : list nat) (n : nat) : list (nat * nat) :=
  match idx with
  | [] => []
  | i :: r => (i, hd n r) :: pairs r n
  end.

(** [np.add.reduceat(xs, idx)], generalised to any aggregation [f] of a slice.
    Only used with strictly increasing in-range [idx], where numpy's
    behaviour is exactly the slices between consecutive indices. *)
Definition reduceat {A B} (f : list A -> B) (xs : list A) (idx : list nat) : list B :=
  map (fun p => f (slice (fst p) (snd p) xs)) (pairs idx (length xs)).

(** [flag = np.full(n, -1); flag[idx] = 1] *)
Definition flags_of (idx : list nat) (n : nat) : list Z :=
  map (fun k => if existsb (Nat.eqb k) idx then 1%Z else (-1)%Z) (seq 0 n).

(** boolean-mask indexing [xs[mask]] *)
Fixpoint bmask {A} (m : list bool) (xs : list A) : list A :=
  match m, xs with
  | b :: m', x :: xs' => if b then x :: bmask m' xs' else bmask m' xs'
  | _, _ => []
  end.

(** ** Independent specification of OGIP grouping flags
    A flag different from -1 starts a new group, -1 continues the previous
    one; [fst] are the leading channels before the first group start. *)
Fixpoint ogip {A} (fl : list Z) (xs : list A) : list A * list (list A) :=
  match fl, xs with
  | f :: fl', x :: xs' =>
      let '(pre, gs) := ogip fl' xs' in
      if Z.eqb f (-1) then (x :: pre, gs) else ([], (x :: pre) :: gs)
  | _, _ => ([], [])
  end.
Definition groups {A} (fl : list Z) (xs : list A) : list (list A) := snd (ogip fl xs).

(** A well formed flag array for [n] channels. *)
Definition valid_flags (fl : list Z) (n : nat) : Prop :=
  length fl = n /\ Forall (fun f => f = 1 \/ f = -1)%Z fl /\ (n = 0 \/ hd 0%Z fl = 1%Z).

(** The half-open channel ranges [[start, stop)] of the groups. *)
Definition bins (fl : list Z) : list (nat * nat) :=
  map (fun g => (hd 0 g, S (last g 0))) (groups fl (seq 0 (length fl))).
