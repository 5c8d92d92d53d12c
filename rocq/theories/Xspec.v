(** Model of the wrappers of XSPEC models: models/xs.py.  A routine of XSPEC is a parameter [fn]. *)
From Coq Require Import Ascii String.
From Verif Require Import RBase Base Data Namespace HelperData ModelAlg.
From Coq Require Import List.
Open Scope list_scope.
Open Scope R_scope.

(** ** evaluation of additive and multiplicative models, xs.py:141-181 and the templates 330-376: the values are stacked in the order of the
    configuration, without the norm *)
Definition norm_key : str := list_ascii_of_string "norm".
Definition is_norm (k : str) : bool := str_eqb k norm_key.
Definition xs_args (names : list str) (params : dict R) : res (list R) := mapE (fun k => opt_err KeyError (get params k)) names.
Definition without (params : dict R) (k : str) : dict R := filter (fun e => negb (str_eqb (fst e) k)) params.
Section Eval.
Variables (fn : list R -> list R -> Z -> list R) (config : list str) (spec_num : Z).
Definition xs_mul (g : list R) (params : dict R) : res (list R) := bind (xs_args config params) (fun a => Ok (fn a g spec_num)).
(** xs.py:153: [params.pop('norm') * _integral(egrid, params)] *)
Definition xs_add (g : list R) (params : dict R) : res (list R) :=
  bind (opt_err KeyError (get params norm_key)) (fun nrm =>
  bind (xs_args (filter (fun k => negb (is_norm k)) config) (without params norm_key)) (fun a => Ok (map (Rmult nrm) (fn a g spec_num)))).
End Eval.

(** ** convolutions, xs.py:252-312; [None] is replaced by the default *)
Record xconv := { x_low : R; x_nlow : Z; x_loglow : bool; x_high : R; x_nhigh : Z; x_loghigh : bool }.
Definition or_default {A} (d : A) (o : option A) : A := match o with Some x => x | None => d end.
Definition mk_xconv (low : option R) (nlow : option Z) (loglow : option bool) (high : option R) (nhigh : option Z) (loghigh : option bool) : xconv :=
  {| x_low := or_default (1 / 100) low; x_nlow := or_default 100%Z nlow; x_loglow := or_default true loglow;
     x_high := or_default 100 high; x_nhigh := or_default 100%Z nhigh; x_loghigh := or_default true loghigh |}.
(** xs.py:184-193: which models it accepts *)
Definition xs_call (supported : mtype) (t : mtype) : res unit := if mtype_eqb t supported then Ok tt else Err TypeError.
(** [np.geomspace] or [np.linspace] with [n + 1] points; a negative number of points and a zero end on a logarithmic grid are refused *)
Definition np_grid (log : bool) (a b : R) (n : Z) : res (list R) :=
  if (n <? 0)%Z then Err ValueError
  else if (log && (Reqb a 0 || Reqb b 0))%bool then Err ValueError
  else Ok (mk_grid log a b (S (Z.to_nat n))).
(** xs.py:212-223 *)
Definition extend_low (c : xconv) (g : list R) : res (list R) :=
  match g with
  | [] => Err IndexError
  | e0 :: _ => if Rltb e0 (x_low c) then Err RuntimeError
               else bind (np_grid (x_loglow c) (x_low c) e0 (x_nlow c)) (fun l => Ok (removelast l ++ g))
  end.
(** xs.py:225-236 *)
Definition extend_high (c : xconv) (g : list R) : res (list R) :=
  match g with
  | [] => Err IndexError
  | _ => let e := last g 0 in
         if Rltb (x_high c) e then Err RuntimeError
         else bind (np_grid (x_loghigh c) e (x_high c) (x_nhigh c)) (fun l => Ok (g ++ tl l))
  end.
Definition x_grid (c : xconv) (g : list R) : res (list R) := bind (extend_low c g) (extend_high c).
(** [l[a:b]] *)
Definition py_index (n i : Z) : Z := if (i <? 0)%Z then Z.max 0 (n + i) else Z.min n i.
Definition py_slice {A} (l : list A) (a b : Z) : list A :=
  let n := Z.of_nat (length l) in let a := py_index n a in let b := py_index n b in
  firstn (Z.to_nat (b - a)) (skipn (Z.to_nat a) l).
(** xs.py:238-247 *)
Definition x_eval (c : xconv) (model : list R -> list R) (convolve : list R -> list R -> list R) (g : list R) : res (list R) :=
  bind (x_grid c g) (fun e => Ok (py_slice (convolve e (model e)) (x_nlow c) (- x_nhigh c))).
