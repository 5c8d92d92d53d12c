(** Model of the numbers derived from a posterior sample, infer/results.py PosteriorResult: samples used for derived
    quantities, credible intervals, covariance matrices, leave-one-out expectations. *)
From Coq Require Import Ascii String.
From Verif Require Import RBase Data Namespace FitInput HelperData HelperNames Batch Results Summary.
From Coq Require Import List.
Open Scope list_scope.

(** the posterior samples of a parameter, one row per chain; [v.values[i, j]] *)
Definition at2 (v : list (list R)) (i j : nat) : R := nth j (nth i v []) 0.
(** results.py:2204-2223 [_params_dist]: [post] holds the free parameters only; [rng] are the indices drawn (the same for
    every parameter) *)
Definition n_max : nat := (100 * 100)%nat.
Definition post_dist (devices : nat) (rng : nat -> nat * nat) (chains draws : nat) (post : dict (list (list R))) : dict (list R) :=
  if (n_max <? chains * draws)%nat then
    map (fun e => (fst e, map (fun r => at2 (snd e) (fst (rng r)) (snd (rng r))) (seq 0 (n_max - n_max mod devices)))) post
  else map (fun e => (fst e, concat (snd e))) post.
(** the number of samples of a dictionary of samples *)
Definition size (d : dict (list R)) : nat := match d with [] => O | e :: _ => length (snd e) end.
(** [jax.shard_map] splits the leading axis evenly between the devices, 1537-1551, 1680-1694 *)
Definition shard (parallel : bool) (devices n : nat) : res unit :=
  if (parallel && negb (n mod devices =? 0)%nat)%bool then Err ValueError else Ok tt.
(** a function of the parameters, [None] if it asks for a parameter that the dictionary does not have *)
Definition pfun := dict R -> option R.
(** 238-274 [_check_fn] (for functions that return a scalar); [default] has all parameters, helper.py:898-900 *)
Definition check_fn (default : dict R) (fns : dict pfun) : res unit :=
  if existsb (fun n => mem n (map fst default)) (map fst fns) then Err ValueError else
  if forallb (fun f => match snd f default with Some _ => true | None => false end) fns then Ok tt else Err ValueError.
(** the parameters of sample [r] *)
Definition sample_row (d : dict (list R)) (r : nat) : dict R := map (fun e => (fst e, nth r (snd e) 0)) d.
Definition eval_all (d : dict (list R)) (f : pfun) : res (list R) :=
  mapE (fun r => opt_err KeyError (f (sample_row d r))) (seq 0 (size d)).

(** ** infer/results.py:1499-1563 [covar] *)
(** [matrix[:] = m] of an [n] by [n] matrix with numpy's broadcasting *)
Definition stretch {A} (n : nat) (l : list A) : res (list A) :=
  if (length l =? n)%nat then Ok l else match l with [x] => Ok (repeat x n) | _ => Err ValueError end.
Definition assign (n : nat) (m : matrix) : res matrix := bind (mapE (stretch n) m) (stretch n).
Definition covar_post (devices : nat) (parallel : bool) (default : dict R) (dist : dict (list R)) (sel : list str) (fns : dict pfun) : res covar_result :=
  bind (check_fn default fns) (fun _ =>
  bind (shard parallel devices (size dist)) (fun _ =>
  bind (mapE (fun f => eval_all dist (snd f)) fns) (fun fcols =>
  bind (boot_full (map snd dist ++ fcols)) (fun full =>
  let m := submatrix (map (fun p => mem p sel) (map fst dist) ++ map (fun _ => true) fns) full in
  bind (assign (length sel + length fns) m) (fun m => Ok {| c_names := sel ++ map fst fns; c_matrix := m |}))))).

(** ** infer/results.py:1566-1659 [ci], equal-tailed intervals, and 1661-1722 [_ci_fn] *)
Record ci_entry := { e_median : R; e_lo : R; e_hi : R; e_minus : R; e_plus : R }.
Definition ci_entry_of (v : list R) (cl : R) : res ci_entry :=
  bind (quantile v 0.5) (fun m => bind (quantile v (0.5 - cl / 2)) (fun lo => bind (quantile v (0.5 + cl / 2)) (fun hi =>
  Ok {| e_median := m; e_lo := lo; e_hi := hi; e_minus := lo - m; e_plus := hi - m |}))).
(** [post] are the samples of all parameters, [dist] the ones of the free parameters used for functions *)
Definition ci_post (sf : R -> R) (devices : nat) (parallel : bool) (default : dict R) (post : dict (list (list R))) (dist : dict (list R))
    (params : list str) (fns : dict pfun) (cl : R) : res (R * dict ci_entry) :=
  bind (to_unit_cl sf cl) (fun c =>
  bind (check_fn default fns) (fun _ =>
  bind (mapE (fun k => bind (opt_err KeyError (get post k)) (fun v => bind (ci_entry_of (concat v) c) (fun e => Ok (k, e)))) params) (fun a =>
  match fns with
  | [] => Ok (c, a)
  | _ => bind (to_unit_cl sf c) (fun c' => (* 1678: converted again *)
         bind (shard parallel devices (size dist)) (fun _ =>
         bind (mapE (fun f => bind (eval_all dist (snd f)) (fun v => bind (ci_entry_of v c') (fun e => Ok (fst f, e)))) fns) (fun b =>
         Ok (c, a ++ b))))
  end))).

(** ** infer/results.py:2367-2394 [_loo_expectation], one channel: the logarithms of the weights and the values, one per sample *)
Definition sign (x : R) : R := if Rltb x 0 then -1 else if Reqb x 0 then 0 else 1.
Definition loo_expectation (lw v : list R) : R := rsum (zip2 (fun l x => sign x * exp (l + ln (Rabs x))) lw v).
