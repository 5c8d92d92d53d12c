(** Model of util/scipy_nquad.py:22-42: which keyword the callback of jax is given, by the text of jax' version (ASCII). *)
From Coq Require Import Ascii String.
From Verif Require Import Base Namespace.
From Coq Require Import List.
Import ListNotations.
Open Scope list_scope.
Open Scope nat_scope.

(** the value of a digit: [\d] *)
Definition digit (c : ascii) : option nat := let n := nat_of_ascii c in if (48 <=? n) && (n <=? 57) then Some (n - 48) else None.
(** 22-25: [re.findall(r'\d+', version)] and [int]; [cur] is the number being read *)
Fixpoint numbers (cur : option nat) (t : str) : list nat :=
  match t with
  | [] => match cur with Some n => [n] | None => [] end
  | c :: r =>
      match digit c with
      | Some d => numbers (Some (10 * (match cur with Some n => n | None => 0 end) + d)) r
      | None => match cur with Some n => n :: numbers None r | None => numbers None r end
      end
  end.
Definition parse_version (t : str) : list nat := numbers None t.
(** [>=] of tuples *)
Fixpoint tuple_ge (a b : list nat) : bool :=
  match a, b with
  | _, [] => true
  | [], _ => false
  | x :: a, y :: b => if x =? y then tuple_ge a b else y <? x
  end.
Inductive kwargs := VmapSequential | Vectorized (v : bool).
(** 28-42; [installed]: the version of the installed jax *)
Definition callback_kwargs (installed : str) (vectorized : bool) (version : option str) : kwargs :=
  let v := match version with Some v => v | None => installed end in
  if tuple_ge (parse_version v) [0; 6; 0] then VmapSequential else Vectorized vectorized.
