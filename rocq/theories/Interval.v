(** Model of parameters that are integrated over an interval: util/integrate.py:34-105 [make_integral_factory], models/parameter.py:735-833
    [ConstantInterval], models/model.py:196-219 [_compile_model_fn].  The value of a model in one energy bin is a function of the parameters (by id); the
    adaptive quadratures of quadax are a parameter [Q].  Arrays of bins are integrated bin by bin. *)
From Verif Require Import RBase.
From Coq Require Import List.
Open Scope R_scope.

Definition params := nat -> R.
(** integrate.py:84: [params[param_id] = value] *)
Definition set_par (p : params) (i : nat) (v : R) : params := fun j => if Nat.eqb j i then v else p j.
Section Quad.
Variable Q : (R -> R) -> R -> R -> R.
(** integrate.py:77-101 *)
Definition factory (i : nat) (a b : R) (f : params -> R) : params -> R := fun p => Q (fun v => f (set_par p i v)) a b / (b - a).
Definition interval := (nat * (R * R))%type.
(** model.py:216-217 *)
Definition integrate_out (ints : list interval) (f : params -> R) : params -> R := fold_left (fun f i => factory (fst i) (fst (snd i)) (snd (snd i)) f) ints f.
(** an interval of no length divides zero by zero: the value is not a number ([None]) *)
Definition empty_interval (i : interval) : bool := Reqb (fst (snd i)) (snd (snd i)).
Definition model_value (ints : list interval) (f : params -> R) (p : params) : option R :=
  if existsb empty_interval ints then None else Some (integrate_out ints f p).
End Quad.
(** parameter.py:777-790, 800-818; integrate.py:68-72; the quadratures by number: quadgk, quadcc, quadts, romberg, rombergts *)
Definition mk_interval (v : list R) (method : nat) : res (R * R) :=
  match v with
  | [a; b] => if (method <? 5)%nat then Ok (a, b) else Err ValueError
  | _ => Err ValueError
  end.
