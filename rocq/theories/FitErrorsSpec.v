(** What the errors of a fit mean: forms [Σ u_i M_ij v_j], positive definite matrices, inverse matrices. *)
From Verif Require Import RBase.
From Coq Require Import List.
Open Scope list_scope.
Open Scope R_scope.

(** [Σ_{i < k} f i] *)
Definition total (k : nat) (f : nat -> R) : R := rsum (map f (seq 0 k)).
(** [Σ u_i M_ij v_j] *)
Definition form (k : nat) (M : nat -> nat -> R) (u v : nat -> R) : R := total k (fun i => total k (fun j => u i * M i j * v j)).
(** the entry in row [i], column [j]; [k] rows of [n] entries *)
Definition entry (m : list (list R)) (i j : nat) : R := nth j (nth i m []) 0.
Definition rows (k n : nat) (m : list (list R)) : Prop := length m = k /\ Forall (fun r => length r = n) m.
Definition positive_definite (k : nat) (M : nat -> nat -> R) : Prop := forall x : nat -> R, (exists i, (i < k)%nat /\ x i <> 0) -> 0 < form k M x x.
Definition symmetric (k : nat) (M : nat -> nat -> R) : Prop := forall i j, (i < k)%nat -> (j < k)%nat -> M i j = M j i.
(** no combination of the [k] rows vanishes, except the trivial one *)
Definition independent (k n : nat) (J : nat -> nat -> R) : Prop :=
  forall y : nat -> R, (forall a, (a < n)%nat -> total k (fun i => y i * J i a) = 0) -> forall i, (i < k)%nat -> y i = 0.
(** [H V = c 1] *)
Definition product_is (c : R) (n : nat) (H V : nat -> nat -> R) : Prop :=
  forall i j, (i < n)%nat -> (j < n)%nat -> total n (fun l => H i l * V l j) = if (i =? j)%nat then c else 0.
(** [inv] inverts square matrices *)
Definition inverts (inv : list (list R) -> option (list (list R))) : Prop := forall n H V, rows n n H -> inv H = Some V -> rows n n V /\ product_is 1 n (entry H) (entry V).
(** an error [e] belongs to the variance [v]: its root, NaN ([None]) if it is negative *)
Definition error_of (v : R) (e : option R) : Prop := (exists x, e = Some x /\ 0 <= x /\ x * x = v) \/ (v < 0 /\ e = None).
