(** Model of what an ensemble sampler samples and stores: infer/samplers/util.py:68-119 [get_model_info],
    infer/samplers/ensemble/base.py:68-109 (the log probability with its blobs) and the move of
    infer/samplers/ensemble/zeus.py:104-127.  Values of sites are lists of their entries (C order). *)
From Coq Require Import Ascii String ZArith.
From Verif Require Import RBase Base Namespace HelperData Nested.
From Coq Require Import List.
Import ListNotations.
Open Scope list_scope.
Open Scope R_scope.

(** a dictionary from sites to their values *)
Definition tree := list (str * list R).
(** util.py:95 [ravel_pytree]: jax flattens a dictionary in the order of the sorted keys, and [unravel] fills such a
    dictionary with the sizes of the first one *)
Definition ravel (t : tree) : list R := flat_map snd (sorted_items t).
Fixpoint fill (t : tree) (v : list R) : tree :=
  match t with [] => [] | (k, x) :: r => (k, firstn (length x) v) :: fill r (skipn (length x) v) end.
Definition unravel (t : tree) (v : list R) : tree := fill (sorted_items t) v.

(** 97-109: the names of the fields, first the free parameters, then the other sites *)
Definition params_names (init : tree) : list str := map fst init.
Definition deterministic_names (init samples : tree) : list str :=
  filter (fun n => negb (str_in n (params_names init))) (map fst samples).
(** base.py:79-80 *)
Definition blobs_names (init samples : tree) : list str := params_names init ++ deterministic_names init samples.

(** float64 with what it has besides numbers *)
Inductive num := Fin (x : R) | PosInf | NegInf | NaN.
Definition num_neg (a : num) : num := match a with Fin x => Fin (- x) | PosInf => NegInf | NegInf => PosInf | NaN => NaN end.
(** the largest float64 *)
Definition max_float : R := (2 ^ 53 - 1) * 2 ^ 971.
(** [jnp.nan_to_num(x, nan=-inf)]: infinities become the largest numbers *)
Definition nan_to_num (a : num) : num :=
  match a with Fin x => Fin x | NaN => NegInf | PosInf => Fin max_float | NegInf => Fin (- max_float) end.

Section Prob.
(** [potential_fn] and [postprocess_fn] of numpyro, functions of the free parameters *)
Variables (potential : tree -> num) (post : tree -> tree) (init : tree).
(** util.py:90, 99 *)
Definition log_prob (z : tree) : num := num_neg (potential z).
Definition names : list str := blobs_names init (post init).
(** base.py:86-92 for one walker *)
Definition prob_of (z : list R) : res (num * list (list R)) :=
  let z := unravel init z in
  bind (mapE (fun n => match get (post z) n with Some v => Ok v | None => Err KeyError end) names) (fun blobs =>
  Ok (log_prob z, blobs)).
(** 94-103 for all the walkers *)
Definition log_prob_with_blobs (ignore_nan : bool) (zs : list (list R)) : res (list (num * list (list R))) :=
  bind (mapE prob_of zs) (fun l =>
  Ok (map (fun '(p, b) => (if ignore_nan then nan_to_num p else p, b)) l)).
(** the value of field [n] in a record: the types of the fields are those of [names] (base.py:79, 255-256) *)
Definition field (r : num * list (list R)) (n : str) : option (list R) := get (combine names (snd r)) n.
End Prob.

(** ** zeus.py:104-127 [DifferentialMove] *)
(** [permutations(np.arange(n), 2)] *)
Definition permutations2 (n : nat) : list (nat * nat) :=
  flat_map (fun i => map (fun j => (i, j)) (filter (fun j => negb (j =? i)%nat) (seq 0 n))) (seq 0 n).
Record move := { m_tune : bool; m_mu0 : R; m_nsamples : option nat; m_perms : list (nat * nat); m_nperms : nat }.
Definition new_move (tune : bool) (mu0 : R) : move := {| m_tune := tune; m_mu0 := mu0; m_nsamples := None; m_perms := []; m_nperms := 0 |}.
(** 113-117 *)
Definition prepared (m : move) (n : nat) : move :=
  match m_nsamples m with
  | Some k => if (k =? n)%nat then m else
      {| m_tune := m_tune m; m_mu0 := m_mu0 m; m_nsamples := Some n; m_perms := permutations2 n; m_nperms := length (permutations2 n) |}
  | None => {| m_tune := m_tune m; m_mu0 := m_mu0 m; m_nsamples := Some n; m_perms := permutations2 n; m_nperms := length (permutations2 n) |}
  end.
(** [choice a k] is what the generator draws: [k] of the first [a] numbers, each once; refused if there are not so many
    (numpy) *)
Definition get_direction (choice : nat -> nat -> list nat) (m : move) (X : list (list R)) (mu : R) : res (list (list R) * bool) * move :=
  let n := length X in
  let m := prepared m n in
  (if (n =? 0)%nat then Err IndexError else
   if (m_nperms m <? n)%nat then Err ValueError else
   let pairs := map (fun i => nth i (m_perms m) (0, 0)%nat) (choice (m_nperms m) n) in
   let mu := if m_tune m then mu else m_mu0 m in
   Ok (map (fun '(a, b) => map (fun '(x, y) => 2 * mu * (x - y)) (combine (nth a X []) (nth b X []))) pairs, m_tune m), m).
