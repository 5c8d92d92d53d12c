(** Model of the evaluation of compiled models for arrays of parameters: models/model.py:301-413 ([CompiledModel], [_prepare_eval]) and
    415-676 ([eval], [ne], [ene], [eene], [ce], [flux]).  What one evaluation with numbers does is a parameter [c_fn] (C34, C36-C38). *)
From Coq Require Import Ascii String.
From Verif Require Import RBase Data Namespace HelperData.
From Coq Require Import List.
Import ListNotations.
Open Scope list_scope.
Open Scope R_scope.

(** an array: its shape and its entry at a multi-index; a number has the empty shape *)
Record nd := { sh : list nat; at_ : list nat -> R }.
Definition scalar (x : R) : nd := {| sh := []; at_ := fun _ => x |}.
Definition of_list (l : list R) : nd := {| sh := [List.length l]; at_ := fun i => match i with [k] => nth k l 0 | _ => 0 end |}.
(** [x[k]] *)
Definition sub (x : nd) (k : nat) : nd := {| sh := skipn 1 (sh x); at_ := fun i => at_ x (k :: i) |}.
(** [jnp.atleast_1d] *)
Definition atleast_1d (x : nd) : nd := match sh x with [] => {| sh := [1%nat]; at_ := fun _ => at_ x [] |} | _ => x end.
(** [jnp.moveaxis(x, -1, 0)] *)
Definition moveaxis (x : nd) : nd :=
  {| sh := last (sh x) 0%nat :: removelast (sh x); at_ := fun i => match i with [] => 0 | k :: r => at_ x (r ++ [k]) end |}.

(** [jax.vmap(f, in_axes=(None, 0))] for a dictionary of arrays: the function is traced once for the shape of its value, then every
    slice is evaluated *)
Definition slices (d : list (nat * nd)) (k : nat) : list (nat * nd) := map (fun e : nat * nd => (fst e, sub (snd e) k)) d.
Definition vmap (f : list (nat * nd) -> res nd) (d : list (nat * nd)) : res nd :=
  match d with
  | [] => Err ValueError
  | (_, x) :: _ =>
      match sh x with
      | [] => Err ValueError
      | n :: _ =>
          if forallb (fun e : nat * nd => match sh (snd e) with m :: _ => (m =? n)%nat | [] => false end) d then
            bind (f (slices d 0)) (fun r0 =>
            Ok {| sh := n :: sh r0; at_ := fun i => match i with [] => 0 | k :: j => match f (slices d k) with Ok r => at_ r j | Err _ => 0 end end |})
          else Err ValueError
      end
  end.

(** a compiled model, 306-343: ids of the free parameters, their names ([params_name]), name -> id of the free and the fixed parameters,
    default values, value as a function of the grid and of the numbers given, additive components *)
Record cmodel := { c_ids : list nat; c_names : list str; c_all : list (str * nat); c_default : list (nat * R);
  c_fn : list R -> list (nat * R) -> res (list R); c_comps : option (list (str * (list R -> list (nat * R) -> res (list R)))); c_add : bool }.
(** the function of one evaluation; what an array does when it reaches a component is not modelled *)
Definition plain (f : list (nat * R) -> res (list R)) (d : list (nat * nd)) : res nd :=
  if forallb (fun e : nat * nd => match sh (snd e) with [] => true | _ => false end) d
  then bind (f (map (fun e : nat * nd => (fst e, at_ (snd e) [])) d)) (fun l => Ok (of_list l)) else Err TypeError.

(** what the user gives *)
Inductive argument := AArr (x : nd) | AMap (d : list (str * nd)) | ANone | AOther.
Fixpoint shape_eqb (a b : list nat) : bool :=
  match a, b with [], [] => true | x :: a, y :: b => (x =? y)%nat && shape_eqb a b | _, _ => false end.
(** 365-388 *)
Definition to_params (c : cmodel) (a : argument) : res (list (nat * nd)) :=
  match a with
  | AArr x =>
      let x := atleast_1d x in
      if negb (last (sh x) 0 =? List.length (c_names c))%nat then Err ValueError else
      let y := moveaxis x in
      if negb (List.length (c_ids c) =? hd 0%nat (sh y))%nat then Err ValueError (* zip(strict=True), 330 *)
      else Ok (combine (c_ids c) (map (sub y) (seq 0 (hd 0%nat (sh y)))))
  | AMap d => Ok (flat_map (fun kv : str * nat => match get d (fst kv) with Some v => [(snd kv, v)] | None => [] end) (c_all c))
  | ANone => Ok (map (fun e : nat * R => (fst e, scalar (snd e))) (c_default c))
  | AOther => Err TypeError
  end.
(** 390-413: the parameters and the number of axes mapped over *)
Definition prepare (c : cmodel) (a : argument) : res (nat * list (nat * nd)) :=
  bind (to_params c a) (fun d =>
  match c_names c with
  | [] => Ok (0%nat, d)
  | _ => match d with
         | [] => Err ValueError
         | (_, x) :: r => if existsb (fun e : nat * nd => negb (shape_eqb (sh (snd e)) (sh x))) r then Err ValueError
                          else Ok (List.length (sh x), d)
         end
  end).
Definition mapped (f : list (nat * R) -> res (list R)) (k : nat) : list (nat * nd) -> res nd := Nat.iter k vmap (plain f).
(** 415-436 *)
Definition eval (c : cmodel) (g : list R) (a : argument) : res nd :=
  bind (prepare c a) (fun kd => mapped (c_fn c g) (fst kd) (snd kd)).

(** operations of numpy on the last axis; an axis of length one is not stretched here *)
Definition zip_last (f : R -> R -> R) (v : nd) (w : list R) : res nd :=
  if (last (sh v) 0 =? List.length w)%nat then Ok {| sh := sh v; at_ := fun i => f (at_ v i) (nth (last i 0%nat) w 0) |} else Err ValueError.
Definition sum_last (v : nd) : nd :=
  {| sh := removelast (sh v); at_ := fun i => rsum (map (fun k => at_ v (i ++ [k])) (seq 0 (last (sh v) 0%nat))) |}.
(** [v @ m] for a matrix with rows [m] of length [w] *)
Definition matmul_last (v : nd) (m : list (list R)) (w : nat) : res nd :=
  if (last (sh v) 0 =? List.length m)%nat
  then Ok {| sh := removelast (sh v) ++ [w];
             at_ := fun i => rsum (map (fun k => at_ v (removelast i ++ [k]) * nth (last i 0%nat) (nth k m []) 0) (seq 0 (List.length m))) |}
  else Err ValueError.

(** [egrid[1:] - egrid[:-1]], [egrid[1:] * egrid[:-1]] *)
Fixpoint steps (f : R -> R -> R) (g : list R) : list R := match g with a :: (b :: _) as r => f a b :: steps f r | _ => [] end.
Definition widths (g : list R) : list R := steps (fun a b => b - a) g.
Definition keV_to_erg : R := 1.602176634e-9.

Definition map_vals (f : nd -> res nd) (l : list (str * nd)) : res (list (str * nd)) :=
  mapE (fun e : str * nd => bind (f (snd e)) (fun v => Ok (fst e, v))) l.
(** 438-477 [ne]; without components the only entry has the empty name *)
Definition ne (c : cmodel) (g : list R) (a : argument) (comps : bool) : res (list (str * nd)) :=
  if negb (c_add c) then Err TypeError else
  match comps, c_comps c with
  | true, None => Err RuntimeError
  | true, Some fs =>
      bind (prepare c a) (fun kd =>
      bind (mapE (fun e : str * (list R -> list (nat * R) -> res (list R)) => bind (mapped (snd e g) (fst kd) (snd kd)) (fun v => Ok (fst e, v))) fs) (fun vs =>
      map_vals (fun v => zip_last Rdiv v (widths g)) vs))
  | false, _ => bind (eval c g a) (fun v => bind (zip_last Rdiv v (widths g)) (fun v => Ok [([], v)]))
  end.
(** 479-520 [ene], 522-563 [eene]: the tests come first in both, with the same outcome *)
Definition ene (c : cmodel) (g : list R) (a : argument) (comps : bool) : res (list (str * nd)) :=
  bind (ne c g a comps) (map_vals (fun v => zip_last (fun x f => f * x) v (map (fun e2 => keV_to_erg * sqrt e2) (steps Rmult g)))).
Definition eene (c : cmodel) (g : list R) (a : argument) (comps : bool) : res (list (str * nd)) :=
  bind (ne c g a comps) (map_vals (fun v => zip_last (fun x f => f * x) v (map (fun e2 => keV_to_erg * e2) (steps Rmult g)))).
(** 565-611 [ce]; [m]: the rows of the response matrix, [w]: the channel widths *)
Definition ce (c : cmodel) (g : list R) (m : list (list R)) (w : list R) (a : argument) (comps : bool) : res (list (str * nd)) :=
  bind (ne c g a comps) (map_vals (fun v =>
    bind (zip_last Rmult v (widths g)) (fun v => bind (matmul_last v m (List.length w)) (fun v => zip_last Rdiv v w)))).
(** 613-676 [flux] on the grid of the call *)
Definition flux (c : cmodel) (g : list R) (energy : bool) (a : argument) (comps : bool) : res (list (str * nd)) :=
  bind (if energy then ene c g a comps else ne c g a comps) (map_vals (fun v => bind (zip_last Rmult v (widths g)) (fun v => Ok (sum_last v)))).
