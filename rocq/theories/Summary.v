(** Model of the numbers derived from a maximum likelihood fit, infer/results.py: confidence levels, bootstrap
    intervals, covariance matrices and information criteria. *)
From Coq Require Import Ascii String.
From Verif Require Import RBase Data Namespace FitInput HelperData HelperNames Batch Results.
From Coq Require Import List.
Open Scope list_scope.

(** ** [numpy.quantile] with linear interpolation *)
Fixpoint insR (x : R) (l : list R) : list R := match l with [] => [x] | y :: r => if Rleb x y then x :: l else y :: insR x r end.
Definition sortR (l : list R) : list R := fold_right insR [] l.
(** the position [q (n - 1)] in the sorted list, and the interpolation between its neighbours *)
Definition quantile (v : list R) (q : R) : res R :=
  if (length v =? 0)%nat then Err IndexError else
  if (Rltb q 0 || Rltb 1 q)%bool then Err ValueError else
  let s := sortR v in
  let h := q * INR (length v - 1) in
  let j := Z.to_nat (Int_part h) in
  let t := h - IZR (Int_part h) in
  let a := nth j s 0 in
  let b := nth (Nat.min (S j) (length v - 1)) s 0 in
  Ok (a + (b - a) * t).

(** ** bootstrap confidence intervals: results.py:839-905 [_ci_boot] of the requested parameters *)
Definition ci_boot (sf : R -> R) (devices : nat) (st : option sim_result) (params : list str) (cl : R) : res (dict (R * R)) :=
  match st with
  | None => Err RuntimeError
  | Some b =>
      bind (to_unit_cl sf cl) (fun cl =>
      mapE (fun e : str * list R => bind (quantile (snd e) (0.5 - 0.5 * cl)) (fun lo => bind (quantile (snd e) (0.5 + 0.5 * cl)) (fun hi => Ok (fst e, (lo, hi)))))
        (filter (fun e => mem (fst e) params) (params_dist devices b)))
  end.

(** ** information criteria: results.py:326-331.  [k], [n] are python integers *)
Definition aic (stat : R) (k n : Z) : res R :=
  if (n - k - 1 =? 0)%Z then Err ZeroDivisionError else Ok (stat + IZR k * 2 * (1 + IZR (k + 1) / IZR (n - k - 1))).
Definition bic (stat : R) (k n : Z) : R := stat + IZR k * ln (IZR n).

(** ** covariance matrices: results.py:485-593 *)
Definition matrix := list (list R).
Definition dot (a b : list R) : R := rsum (zip2 Rmult a b).
Definition col (m : matrix) (j : nat) : list R := map (fun r => nth j r 0) m.
Definition matmul (a b : matrix) (w : nat) : matrix := map (fun r => map (fun j => dot r (col b j)) (seq 0 w)) a.
Definition transpose (m : matrix) (w : nat) : matrix := map (col m) (seq 0 w).
Definition unit_row (n i : nat) : list R := map (fun j => if (i =? j)%nat then 1 else 0) (seq 0 n).
(** 533-548: the jacobian of (parameters, functions) has the unit rows and the gradients [grads] of the functions *)
Definition hess_full (n : nat) (cov : matrix) (grads : list (list R)) : matrix :=
  match grads with
  | [] => cov
  | _ => let jac := map (unit_row n) (seq 0 n) ++ grads in
         matmul (matmul jac cov n) (transpose jac n) (length jac)
  end.
(** 550-580: [np.cov] of the sampled values, one column for every quantity; a single column gives a scalar *)
Definition mean (l : list R) : R := rsum l / INR (length l).
Definition sample_cov (x y : list R) : R :=
  rsum (zip2 Rmult (map (fun a => a - mean x) x) (map (fun b => b - mean y) y)) / INR (length x - 1).
Definition boot_full (cols : list (list R)) : res matrix :=
  match cols with
  | [_] => Err IndexError (* [np.array(covar)[:, mask]] of a scalar *)
  | _ => Ok (map (fun x => map (sample_cov x) cols) cols)
  end.
(** 582-593: [all] are the names of the parameters, [sel] the requested ones, [fns] the names of the functions *)
Definition submatrix (mask : list bool) (m : matrix) : matrix := keep mask (map (keep mask) m).
Record covar_result := { c_names : list str; c_matrix : matrix }.
Definition select_covar (all sel fns : list str) (full : matrix) : res covar_result :=
  let names := sel ++ fns in
  let m := submatrix (map (fun p => mem p sel) all ++ map (fun _ => true) fns) full in
  if ((length m =? length names)%nat && forallb (fun r => (length r =? length names)%nat) m)%bool
  then Ok {| c_names := names; c_matrix := m |} else Err ValueError.
(** [ParamsCovar.matrix[a, b]] *)
Definition covar_at (c : covar_result) (a b : str) : option R :=
  match index_of (c_names c) a, index_of (c_names c) b with
  | Some i, Some j => Some (nth j (nth i (c_matrix c) []) 0)
  | _, _ => None
  end.
Definition covar_hess (all sel fns : list str) (cov : matrix) (grads : list (list R)) : res covar_result :=
  select_covar all sel fns (hess_full (length all) cov grads).
Definition covar_boot (all sel fns : list str) (dist : str -> list R) (fn : str -> (str -> R) -> R) : res covar_result :=
  let m := match all with [] => O | p :: _ => length (dist p) end in
  let cols := map dist all ++ map (fun f => map (fun i => fn f (fun p => nth i (dist p) 0)) (seq 0 m)) fns in
  bind (boot_full cols) (select_covar all sel fns).
