(** Model of what a composite parameter shows besides its name and value (models/parameter.py:236-282, 840-1092): operators, default, fixed,
    logarithmic scale, description of the parameter, LaTeX label. *)
From Coq Require Import Ascii String.
From Verif Require Import Base Expr Composite Namespace HelperData.
From Coq Require Import List.
Import ListNotations.
Open Scope list_scope.

(** attributes of the base parameters, by id; the default of an interval (714-725, 786-797) is a pair *)
Inductive value (V : Type) := Number (v : V) | Interval (a b : V).
Arguments Number {V} v.
Arguments Interval {V} a b.
Record attr (V : Type) := { a_default : value V; a_log : bool; a_fixed : bool }.
Arguments a_default {V}. Arguments a_log {V}. Arguments a_fixed {V}.

Definition is_interval {V} (x : attr V) : bool := match a_default x with Interval _ _ => true | Number _ => false end.
(** 245-249, 196-236: an operator applied to a parameter and something else *)
Inductive operand := OParam (p : param) | OOther.
Definition operate (id : nat) (o : bop) (l r : operand) : res param :=
  match l, r with OParam l, OParam r => Ok (PBin id o l r) | _, _ => Err TypeError end.

(** 907-914 [_has_interval] *)
Fixpoint has_interval {V} (at_ : nat -> attr V) (p : param) : bool :=
  match p with
  | PBase id => is_interval (at_ id)
  | PBin _ _ l r => (has_interval at_ l || has_interval at_ r)%bool
  | PFun _ _ args => existsb (has_interval at_) args
  end.
(** 1051-1058 [default]; the default of a base parameter is used as a number *)
Fixpoint default {V} (A : alg V) (at_ : nat -> attr V) (p : param) : res V :=
  if (is_comp p && has_interval at_ p)%bool then Err RuntimeError else
  match p with
  | PBase id => match a_default (at_ id) with Number v => Ok v | Interval _ _ => Err TypeError end
  | PBin _ o l r => bind (default A at_ l) (fun x => bind (default A at_ r) (fun y => Ok (op2 A o x y)))
  | PFun _ f args => bind ((fix go (l : list param) : res (list V) := match l with [] => Ok [] | a :: r => bind (default A at_ a) (fun x => bind (go r) (fun y => Ok (x :: y))) end) args) (fun l => Ok (Expr.app A f l))
  end.
(** 1060-1068 [log], [fixed] *)
Fixpoint all_base (h : nat -> bool) (p : param) : bool :=
  match p with PBase id => h id | PBin _ _ l r => (all_base h l && all_base h r)%bool | PFun _ _ args => forallb (all_base h) args end.
Definition logs {V} (at_ : nat -> attr V) (p : param) : bool := all_base (fun i => a_log (at_ i)) p.
Definition fixeds {V} (at_ : nat -> attr V) (p : param) : bool := all_base (fun i => a_fixed (at_ i)) p.

Definition pid (p : param) : nat := match p with PBase id => id | PBin id _ _ _ => id | PFun id _ _ => id end.
(** 1070-1092 [_info]: [info |= p._info] keeps the place of a key and takes the new entry.  Of an entry: is it composite, does it depend
    on an interval, is it fixed *)
Record info := { i_comp : bool; i_int : bool; i_fixed : bool; i_log : bool }.
Fixpoint putN {A} (d : list (nat * A)) (k : nat) (v : A) : list (nat * A) :=
  match d with [] => [(k, v)] | (k', v') :: r => if k' =? k then (k, v) :: r else (k', v') :: putN r k v end.
Definition merge {A} (d e : list (nat * A)) : list (nat * A) := fold_left (fun d kv => putN d (fst kv) (snd kv)) e d.
Definition own {V} (at_ : nat -> attr V) (p : param) : info :=
  {| i_comp := is_comp p; i_int := has_interval at_ p; i_fixed := fixeds at_ p; i_log := logs at_ p |}.
Fixpoint infos {V} (at_ : nat -> attr V) (p : param) : list (nat * info) :=
  match p with
  | PBase id => [(id, own at_ p)]
  | PBin id _ l r => merge (merge [(id, own at_ p)] (infos at_ l)) (infos at_ r)
  | PFun id _ args => fold_left (fun d a => merge d (infos at_ a)) args [(id, own at_ p)]
  end.

(** LaTeX: the tokens of a name (940-1021) and braces; 252-272: the templates of the operators.  [\times] is written as the token of
    multiplication; a function has the template of its name (the default of [op_latex], 902) *)
Inductive tex := T (t : tok) | OpenB | CloseB.
Definition group (l : list tex) : list tex := OpenB :: l ++ [CloseB].
Definition tparen_if (b : bool) (ts : list tex) : list tex := if b then T TL :: ts ++ [T TR] else ts.
Fixpoint latex (bn : nat -> string) (cn : nat -> option string) (p : param) : list tex :=
  match p with
  | PBase id => [T (TName (bn id))]
  | PBin id o l r =>
      match cn id with
      | Some s => [T (TName s)]
      | None => group (tparen_if (lhs_paren o l) (latex bn cn l)) ++ T (optok o) :: group (tparen_if (rhs_paren o r) (latex bn cn r))
      end
  | PFun id f args =>
      match cn id with
      | Some s => [T (TName s)]
      | None => T (TFun f) :: T TL ::
          (fix go (l : list param) : list tex :=
             match l with
             | [] => []
             | [a] => tparen_if (is_comp a) (latex bn cn a)
             | a :: r => tparen_if (is_comp a) (latex bn cn a) ++ T TComma :: go r
             end) args ++ [T TR]
      end
  end.
