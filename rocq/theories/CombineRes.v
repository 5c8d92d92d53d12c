(** Model of plot/residuals.py:11-40 [combine_residuals], for arrays of one dimension; an array of length one is not stretched.
    [cdf n x]: distribution function of the chi-square distribution with [n] degrees of freedom; [isf]: inverse of the survival
    function of the normal distribution. *)
From Verif Require Import RBase Base Data HelperData.
From Coq Require Import List.
Import ListNotations.
Open Scope list_scope.
Open Scope R_scope.

Section Combine.
Variables (cdf : R -> R -> R) (isf : R -> R).
Inductive dofs := One (n : R) | Each (n : list R).
(** the truth of [dof == 1.0]: an array of two or more entries has none, nor has an empty one *)
Definition is_one (d : dofs) : res bool :=
  match d with One n => Ok (Reqb n 1) | Each [n] => Ok (Reqb n 1) | Each _ => Err ValueError end.
(** 31-38: the smaller of the two probabilities is used *)
Definition turn (n q : R) : R := if Rleb q n then isf (0.5 - 0.5 * cdf n q) else isf (0.5 * (1 - cdf n q)).
Definition combine_residuals (r1 r2 : list R) (dof : dofs) (sign : option (list R)) : res (list R) :=
  let bad := match dof with One _ => false | Each n => negb ((length n =? length r1)%nat && (length r1 =? length r2)%nat) end in
  if bad then Err ValueError else
  if negb (length r1 =? length r2)%nat then Err ValueError else
  let q := zip2 (fun a b => a * a + b * b) r1 r2 in
  bind (is_one dof) (fun one =>
  let r := if one then map sqrt q else match dof with One n => map (turn n) q | Each n => zip2 turn n q end in
  match sign with
  | None => Ok (map (fun x => 1 * x) r)
  | Some s => if (length s =? length r)%nat then Ok (zip2 Rmult s r) else Err ValueError
  end).
End Combine.
