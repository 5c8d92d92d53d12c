(** Model of the errors of a fit: infer/helper.py:533-560 ([unconstr_covar], [params_covar], [get_mle]), the constructor of [MLEResult],
    infer/results.py:282-319, and the maximum of a posterior, infer/results.py:2126-2148 [PosteriorResult._mle].
    Derivatives are arguments: the Hessian [hess] of the deviance and the Jacobian [jac] of the parameters (one row for every name) at the
    minimum, which jax computes by automatic differentiation; the minimum itself comes from Minuit (or optimistix).  [inv] is
    [jnp.linalg.inv], [None] for the NaN or infinite entries of a singular matrix.  Numbers are exact reals. *)
From Verif Require Import RBase Base Data Namespace HelperData Summary.
From Coq Require Import List.
Open Scope list_scope.
Open Scope R_scope.

(** helper.py:533-540 [unconstr_covar] *)
Definition unconstr_covar (inv : matrix -> option matrix) (hess : matrix) : option matrix :=
  option_map (map (map (Rmult 2))) (inv hess).
(** helper.py:542-553 [params_covar]: [jac @ cov @ jac.T] for [n] free parameters *)
Definition params_covar (n : nat) (jac cov : matrix) : matrix :=
  matmul (matmul jac cov n) (transpose jac n) (length jac).
(** helper.py:555-560 [get_mle], the second component *)
Definition mle_covar (inv : matrix -> option matrix) (n : nat) (jac hess : matrix) : option matrix :=
  option_map (params_covar n jac) (unconstr_covar inv hess).

(** [np.allclose(m, m.T)] of a square matrix of [k] rows, with the default tolerances *)
Definition closeb (a b : R) : bool := Rleb (Rabs (a - b)) (1 / 100000000 + 1 / 100000 * Rabs b).
Definition allclose_T (k : nat) (m : matrix) : bool :=
  forallb (fun i => forallb (fun j => closeb (nth j (nth i m []) 0) (nth i (nth j m []) 0)) (seq 0 k)) (seq 0 k).
(** whether [np.linalg.cholesky(m)] succeeds on a matrix of [k] rows: every pivot is positive (LAPACK's [potrf], which reads the
    lower triangle; the factor is not needed) *)
Fixpoint cholesky_ok (k : nat) (m : matrix) : bool :=
  match k, m with
  | S k', (a :: _) :: rows =>
      if Rltb 0 a
      then let c := map (hd 0) rows in
           cholesky_ok k' (map (fun r => zip2 (fun x cj => x - hd 0 r * cj / a) (tl r) c) rows)
      else false
  | O, _ => true
  | _, _ => false
  end.
(** results.py:290-297 *)
Definition pos_def_check (covar : option matrix) : bool :=
  match covar with
  | None => false (* NaN is close to nothing *)
  | Some m => if allclose_T (length m) m then cholesky_ok (length m) m else false
  end.
(** results.py:288-301: [minuit] is the covariance of the free parameters that Minuit found, if any *)
Definition fit_covar (inv : matrix -> option matrix) (n : nat) (jac hess : matrix) (minuit : option matrix) : option matrix :=
  let covar := mle_covar inv n jac hess in
  if pos_def_check covar then covar
  else match minuit with Some c => Some (params_covar n jac c) | None => covar end.

(** [np.sqrt]: [None] is NaN *)
Definition nan_sqrt (x : R) : option R := if Rleb 0 x then Some (sqrt x) else None.
(** [jnp.sqrt(jnp.diagonal(covar))] *)
Definition errors (k : nat) (covar : option matrix) : list (option R) :=
  match covar with
  | None => repeat None k
  | Some m => map (fun i => nan_sqrt (nth i (nth i m []) 0)) (seq 0 (length m))
  end.
(** [zip(..., strict=True)] *)
Definition zip_strict {A B} (a : list A) (b : list B) : res (list (A * B)) :=
  if (length a =? length b)%nat then Ok (combine a b) else Err ValueError.
(** results.py:309-319, 2141-2148: the dictionary of values and errors *)
Definition mle_dict (names : list str) (mle : list R) (covar : option matrix) : res (dict (R * option R)) :=
  bind (zip_strict mle (errors (length mle) covar)) (fun l => bind (zip_strict names l) (fun d => Ok (puts [] d))).
(** [MLEResult.mle] after [MLEResult(minuit, helper)] *)
Definition mle_result (inv : matrix -> option matrix) (n : nat) (names : list str) (mle : list R) (jac hess : matrix) (minuit : option matrix) : res (dict (R * option R)) :=
  mle_dict names mle (fit_covar inv n jac hess minuit).
(** [PosteriorResult.mle]: no check and no other covariance *)
Definition posterior_mle (inv : matrix -> option matrix) (n : nat) (names : list str) (mle : list R) (jac hess : matrix) : res (dict (R * option R)) :=
  mle_dict names mle (mle_covar inv n jac hess).
