(** Model of the bridge between a numpyro model and the nested samplers: infer/samplers/util.py:122-205 (labels of the
    parameters, transforms from the unit cube to the priors), 235-320 (layout of the cube), and of the labels handed to
    ultranest (infer/samplers/ns/ultranest.py:66-88). *)
From Coq Require Import Ascii String.
From Verif Require Import RBase Namespace.
From Coq Require Import List.
Open Scope list_scope.

(** ** labels *)
(** util.py:127 [np.indices(shape).reshape(len(shape), -1).T] *)
Fixpoint indices (shape : list nat) : list (list nat) :=
  match shape with [] => [[]] | n :: s => flat_map (fun i => map (cons i) (indices s)) (seq 0 n) end.
(** [','.join] *)
Fixpoint comma_join (l : list str) : str :=
  match l with [] => [] | [x] => x | x :: r => x ++ ","%char :: comma_join r end.
(** 122-129 *)
Definition index_label (name : str) (ix : list nat) : str := name ++ "["%char :: comma_join (map nat_str ix) ++ ["]"%char].
Definition ravel_params_names (name : str) (shape : list nat) : list str :=
  match shape with [] => [name] | _ => map (index_label name) (indices shape) end.

(** python's order of strings, by code points *)
Fixpoint str_leb (a b : str) : bool :=
  match a, b with
  | [], _ => true
  | _, [] => false
  | x :: a', y :: b' => if (N_of_ascii x <? N_of_ascii y)%N then true else if (N_of_ascii y <? N_of_ascii x)%N then false else str_leb a' b'
  end.
Fixpoint insert_str {V} (x : str * V) (l : list (str * V)) : list (str * V) :=
  match l with [] => [x] | y :: r => if str_leb (fst x) (fst y) then x :: l else y :: insert_str x r end.
Definition sorted_items {V} (l : list (str * V)) : list (str * V) := fold_right insert_str [] l.

Definition u_name (name : str) : str := s2l "u_" ++ name.
(** the cube, util.py:269-270: [ravel_pytree] of a dictionary flattens the values in the order of the sorted keys.
    Which entry of which site a column of the cube holds, written as a label *)
Definition cube_columns (params : list (str * list nat)) : list str :=
  flat_map (fun e => ravel_params_names (fst e) (snd e)) (sorted_items (map (fun e => (u_name (fst e), snd e)) params)).
(** the labels handed to ultranest, ultranest.py:75-79: in the order of the sites of the model *)
Definition ultranest_labels (params : list (str * list nat)) : list str :=
  flat_map (fun e => ravel_params_names (u_name (fst e)) (snd e)) params.

(** ** transforms of the unit interval, util.py:163-215; entries of array valued sites are transformed one by one *)
Inductive distr :=
| Univariate (icdf cdf : R -> R)          (* any distribution with an inverse cdf *)
| Transformed (d : distr) (ts : list (R -> R))
| Wrapped (d : distr)                     (* Independent, ExpandedDistribution, MaskedDistribution *)
| Bernoulli (p : R)
| Categorical (ps : list R).
Fixpoint cumsum_from (a : R) (l : list R) : list R := match l with [] => [] | x :: r => (a + x) :: cumsum_from (a + x) r end.
Fixpoint reparam (d : distr) (q : R) : R :=
  match d with
  | Univariate icdf _ => icdf q                                                  (* 184-185 *)
  | Transformed d ts => fold_left (fun x t => t x) ts (reparam d q)              (* 168-172 *)
  | Wrapped d => reparam d q                                                     (* 174-182 *)
  | Bernoulli p => if Rltb q p then 1 else 0                                     (* 200-207 *)
  | Categorical ps => INR (length (filter (fun c => Rltb c q) (cumsum_from 0 ps)))   (* 210-216 *)
  end.
