(** Model of util/misc.py [build_namespace], [add_suffix] and of the component naming in
    infer/fit.py [Fit.__init__], models/model.py [get_model_info].  Python strings are
    lists of characters. *)
From Coq Require Import Ascii String.
From Coq Require Import Decimal DecimalNat.
From Verif Require Import Base.
Open Scope list_scope.

Notation str := (list ascii).
Definition s2l (s : string) : str := list_ascii_of_string s.
Definition str_eq_dec : forall a b : str, {a = b} + {a <> b} := list_eq_dec ascii_dec.
Definition str_eqb (a b : str) : bool := if str_eq_dec a b then true else false.
Definition str_in (a : str) (l : list str) : bool := existsb (str_eqb a) l.

(** [str(n)] for a natural number *)
Fixpoint uint_str (u : uint) : str :=
  match u with
  | Nil => []
  | D0 u => "0"%char :: uint_str u | D1 u => "1"%char :: uint_str u | D2 u => "2"%char :: uint_str u
  | D3 u => "3"%char :: uint_str u | D4 u => "4"%char :: uint_str u | D5 u => "5"%char :: uint_str u
  | D6 u => "6"%char :: uint_str u | D7 u => "7"%char :: uint_str u | D8 u => "8"%char :: uint_str u
  | D9 u => "9"%char :: uint_str u
  end.
Definition nat_str (n : nat) : str := uint_str (Nat.to_uint n).

(** a python dict with string keys, insertion ordered *)
Fixpoint get {V} (d : list (str * V)) (k : str) : option V :=
  match d with [] => None | (k', v) :: r => if str_eqb k k' then Some v else get r k end.
Fixpoint put {V} (d : list (str * V)) (k : str) (v : V) : list (str * V) :=
  match d with
  | [] => [(k, v)]
  | (k', v') :: r => if str_eqb k k' then (k', v) :: r else (k', v') :: put r k v
  end.

(** util/misc.py:211-222: the counting loop.  State: [namespace], [counter],
    [suffixes_n]. *)
Definition count_step (st : list str * list (str * nat) * list nat) (name : str) :=
  let '(ns, counter, sn) := st in
  if str_in name ns then
    let c := match get counter name with Some c => S c | None => 1 end in
    let counter := put counter name c in
    (ns, counter, sn ++ [c])
  else (ns ++ [name], put counter name 1, sn ++ [1]).
Definition suffixes_n (names : list str) : list nat :=
  snd (fold_left count_step names ([], [], [])).

(** util/misc.py:224-229: the suffix of the n-th occurrence *)
Definition underscore : ascii := "_"%char.
Definition quote : ascii := "'"%char.
Definition suffix (latex prime : bool) (n : nat) : str :=
  if prime then repeat quote (n - 1)
  else if 1 <? n then
         if latex then s2l "_{" ++ nat_str n ++ s2l "}" else underscore :: nat_str n
       else [].
(** util/misc.py:231-234 *)
Definition build_namespace (names : list str) (latex prime : bool) : list str :=
  map (fun p => fst p ++ suffix latex prime (snd p)) (combine names (suffixes_n names)).
Definition suffix_num (names : list str) : list str :=
  map (fun n => if 1 <? n then nat_str n else []) (suffixes_n names).

(** util/misc.py:98-186 [add_suffix] with the default configuration, plain text:
    subscript template ["_%s"], superscript template ["[%s]"] *)
Definition add_suffix1 (subscript : bool) (s suf : str) : str :=
  match suf with
  | [] => s
  | _ => if subscript then s ++ underscore :: suf else s ++ "["%char :: suf ++ ["]"%char]
  end.
Definition add_suffix (subscript : bool) (l suf : list str) : list str :=
  map (fun p => add_suffix1 subscript (fst p) (snd p)) (combine l suf).

(** ['+'.join(l)] *)
Fixpoint join_plus (l : list str) : str :=
  match l with [] => [] | [x] => x | x :: r => x ++ "+"%char :: join_plus r end.

(** infer/fit.py:112-122: data suffix of a component; [uses d = true] when the
    component is part of the model fitted to data set [d] *)
Definition data_suffix (data_names : list str) (uses : str -> bool) : str :=
  let names := filter (fun n => negb (uses n)) data_names in
  match names with
  | [] => []
  | _ => join_plus (filter (fun n => negb (str_in n names)) data_names)
  end.

(** infer/fit.py:128-134: component labels of a fit; a component is its class name and
    its data suffix *)
Definition fit_names (comps : list (str * str)) : list str :=
  let cname := map fst comps in
  let dsuf := map snd comps in
  let key := map (fun p => fst p ++ snd p) comps in
  add_suffix false (add_suffix true cname (suffix_num key)) dsuf.

(** models/model.py:2157-2175: parameter names: auxiliary parameters through
    [build_namespace(prime=True)], component parameters as ["component.parameter"] *)
Definition param_names (aux : list str) (assigned : list (str * str)) : list str :=
  build_namespace aux false true ++ map (fun p => fst p ++ "."%char :: snd p) assigned.

(** ** Specification vocabulary *)
(** a name that itself looks like a numbered duplicate *)
Definition looks_numbered (s : str) : Prop := exists b k, 2 <= k /\ s = b ++ underscore :: nat_str k.
Definition ends_with_prime (s : str) : Prop := exists b, s = b ++ [quote].
(** number of occurrences of [x] in [l] *)
Definition occ (l : list str) (x : str) : nat := count_occ str_eq_dec l x.
