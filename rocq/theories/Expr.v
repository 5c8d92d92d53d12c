(** Specification, independent of elisa: reading an arithmetic expression with the
    usual precedence ([^] before [* /] before [+ -]) and associativity
    ([+ - * /] to the left, [^] to the right). *)
From Coq Require Export String.
From Verif Require Import Base.
Open Scope list_scope.

Inductive tok := TName (s : string) | TFun (s : string)
               | TAdd | TSub | TMul | TDiv | TPow | TL | TR | TComma.

Inductive bop := Add | Sub | Mul | Div | Pow.
Inductive ex := EVar (s : string) | EBin (o : bop) (a b : ex) | ECall (f : string) (args : list ex).

(** A recursive-descent reader; the fuel [n] only bounds the recursion depth
    ([fuel_mono] below: more fuel never changes a result). *)
Fixpoint pE (n : nat) (ts : list tok) {struct n} : option (ex * list tok) :=
  match n with O => None | S n =>
    match pT n ts with Some (a, r) => loopE n a r | None => None end end
with loopE (n : nat) (a : ex) (ts : list tok) {struct n} : option (ex * list tok) :=
  match n with O => None | S n =>
    match ts with
    | TAdd :: r => match pT n r with Some (b, r') => loopE n (EBin Add a b) r' | None => None end
    | TSub :: r => match pT n r with Some (b, r') => loopE n (EBin Sub a b) r' | None => None end
    | _ => Some (a, ts)
    end end
with pT (n : nat) (ts : list tok) {struct n} : option (ex * list tok) :=
  match n with O => None | S n =>
    match pF n ts with Some (a, r) => loopT n a r | None => None end end
with loopT (n : nat) (a : ex) (ts : list tok) {struct n} : option (ex * list tok) :=
  match n with O => None | S n =>
    match ts with
    | TMul :: r => match pF n r with Some (b, r') => loopT n (EBin Mul a b) r' | None => None end
    | TDiv :: r => match pF n r with Some (b, r') => loopT n (EBin Div a b) r' | None => None end
    | _ => Some (a, ts)
    end end
with pF (n : nat) (ts : list tok) {struct n} : option (ex * list tok) :=
  match n with O => None | S n =>
    match pA n ts with
    | Some (a, TPow :: r) => match pF n r with Some (b, r') => Some (EBin Pow a b, r') | None => None end
    | other => other
    end end
with pA (n : nat) (ts : list tok) {struct n} : option (ex * list tok) :=
  match n with O => None | S n =>
    match ts with
    | TName s :: r => Some (EVar s, r)
    | TL :: r => match pE n r with Some (a, TR :: r') => Some (a, r') | _ => None end
    | TFun f :: TL :: TR :: r => Some (ECall f [], r)
    | TFun f :: TL :: r => match pArgs n r with Some (l, r') => Some (ECall f l, r') | None => None end
    | _ => None
    end end
with pArgs (n : nat) (ts : list tok) {struct n} : option (list ex * list tok) :=
  match n with O => None | S n =>
    match pE n ts with
    | Some (a, TR :: r) => Some ([a], r)
    | Some (a, TComma :: r) => match pArgs n r with Some (l, r') => Some (a :: l, r') | None => None end
    | _ => None
    end end.

(** [ts] reads as [e] *)
Definition reads (ts : list tok) (e : ex) : Prop := exists n, pE n ts = Some (e, []).

(** Meaning of an expression in any algebra [V]. *)
Record alg (V : Type) := { op2 : bop -> V -> V -> V; app : string -> list V -> V }.
Arguments op2 {V} _ _ _ _.
Arguments app {V} _ _ _.
Fixpoint eval {V} (A : alg V) (env : string -> V) (e : ex) : V :=
  match e with
  | EVar s => env s
  | EBin o a b => op2 A o (eval A env a) (eval A env b)
  | ECall f l => app A f (map (eval A env) l)
  end.
(** The laws used when an association is dropped by the printer. *)
Record laws {V} (A : alg V) : Prop := {
  law_addadd : forall a b c, op2 A Add a (op2 A Add b c) = op2 A Add (op2 A Add a b) c;
  law_addsub : forall a b c, op2 A Add a (op2 A Sub b c) = op2 A Sub (op2 A Add a b) c;
  law_mulmul : forall a b c, op2 A Mul a (op2 A Mul b c) = op2 A Mul (op2 A Mul a b) c;
  law_muldiv : forall a b c, op2 A Mul a (op2 A Div b c) = op2 A Div (op2 A Mul a b) c }.
