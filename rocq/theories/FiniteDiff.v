(** Model of util/misc.py:237-305 [define_fdjvp]: derivatives of models by finite differences.  The function [f] is the
    model on a fixed energy grid; floating point numbers are reals, [eps] is the machine precision. *)
From Verif Require Import RBase Data.
From Coq Require Import List.
Open Scope R_scope.

Inductive fd_method := Central | Forward | Other.
(** 264-265: positions of the parameters whose tangent is not a symbolic zero ([None]) *)
Definition nonzero_idx (tangents : list (option R)) : list nat :=
  map fst (filter (fun p => match snd p with Some _ => true | None => false end) (combine (seq 0 (length tangents)) tangents)).
(** 270-274 *)
Definition abs_or_one (x : R) : R := if Reqb x 0 then 1 else Rabs x.
(** 277 a row of [perturb_idx] *)
Definition one_hot (n i : nat) : list R := map (fun k => if Nat.eqb k i then 1 else 0) (seq 0 n).
(** 288-298 [params_batch + perturb_idx * perturb], one row *)
Definition shifted (params : list R) (i : nat) (d : R) : list R := zip2 Rplus params (map (fun o => o * d) (one_hot (length params) i)).
Definition fd_row (method : fd_method) (eps : R) (f : list R -> list R) (params : list R) (i : nat) : list R :=
  let a := abs_or_one (nth i params 0) in
  match method with
  | Central => let h := a * Rpower eps (1 / 3) in
               map (fun d => d / (2 * h)) (zip2 Rminus (f (shifted params i h)) (f (shifted params i (- h))))
  | _ => let h := a * sqrt eps in map (fun d => d / h) (zip2 Rminus (f (shifted params i h)) (f params))
  end.
(** 243-305.  [egrid_tangent]: is the energy grid differentiated? NotImplementedError is a RuntimeError. *)
Definition fdjvp (method : fd_method) (eps : R) (f : list R -> list R) (params : list R) (egrid_tangent : bool) (tangents : list (option R))
  : res (list R * list R) :=
  match method with Other => Err ValueError | _ =>
  if egrid_tangent then Err RuntimeError else
  let out := f params in
  let idx := nonzero_idx tangents in
  match idx with [] => Err TypeError (* an empty index array is an array of floats *) | _ =>
  let d_out := map (fd_row method eps f params) idx in
  let t := map (fun i => match nth i tangents None with Some t => t | None => 0 end) idx in
  Ok (out, map (fun j => rsum (zip2 Rmult t (map (fun row => nth j row 0) d_out))) (seq 0 (length out)))
  end end.
