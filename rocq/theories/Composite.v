(** Model of [CompositeParameter] (models/parameter.py:840-1066): printing and value. *)
From Verif Require Import Base Expr.

(** models/parameter.py:862-938.  A base parameter, a parameter built with a
    Python operator ([op_symbol] set; 187-234), or one built by calling
    [CompositeParameter(params, op, op_name)] ([op_symbol] None).
    The numbers are the [_id]s.
    Simplification: an [op_name] template of the third kind is a call
    ["f({}, {}, ...)"]. *)
Inductive param :=
| PBase (id : nat)
| PBin (id : nat) (o : bop) (lhs rhs : param)
| PFun (id : nat) (f : string) (args : list param).

(** [isinstance(p, CompositeParameter)] *)
Definition is_comp (p : param) : bool := match p with PBase _ => false | _ => true end.
(** [p._op_symbol in {'*', '/', '^'}] *)
Definition sym_tight (p : param) : bool :=
  match p with PBin _ (Mul | Div | Pow) _ _ => true | _ => false end.

Definition paren (ts : list tok) : list tok := TL :: ts ++ [TR].
Definition paren_if (b : bool) (ts : list tok) : list tok := if b then paren ts else ts.

Definition optok (o : bop) : tok :=
  match o with Add => TAdd | Sub => TSub | Mul => TMul | Div => TDiv | Pow => TPow end.

(** models/parameter.py:952-999: which operand gets parentheses *)
Definition lhs_paren (o : bop) (lhs : param) : bool :=
  match o with
  | Add | Sub => false
  | Mul | Div => is_comp lhs && negb (sym_tight lhs)
  | Pow => is_comp lhs
  end.
Definition rhs_paren (o : bop) (rhs : param) : bool :=
  match o with
  | Add => false
  | Sub | Mul => is_comp rhs && negb (sym_tight rhs)
  | Div => true
  | Pow => is_comp rhs
  end.

(** models/parameter.py:940-1021 [_id_to_label], label_type 'name'.
    [bn] is the mapping on base parameters (total: it is built from all nodes, 931-938),
    [cn] its restriction to composite ids (empty at construction; non-empty when
    [get_model_info] prints the table, models/model.py:2308-2311). *)
Fixpoint label (bn : nat -> string) (cn : nat -> option string) (p : param) : list tok :=
  match p with
  | PBase id => [TName (bn id)]
  | PBin id o l r =>
      match cn id with
      | Some s => [TName s]
      | None => paren_if (lhs_paren o l) (label bn cn l) ++ optok o ::
                paren_if (rhs_paren o r) (label bn cn r)
      end
  | PFun id f args =>
      match cn id with
      | Some s => [TName s]
      | None => TFun f :: TL ::
          (fix go (l : list param) : list tok :=
             match l with
             | [] => []
             | [a] => paren_if (is_comp a) (label bn cn a)
             | a :: r => paren_if (is_comp a) (label bn cn a) ++ TComma :: go r
             end) args ++ [TR]
      end
  end.

(** models/parameter.py:135-146 and 1023-1031 [_id_to_value]: [m] is the
    mapping of ids to values, [dflt] the defaults.  A composite never looks up its
    own id. *)
Fixpoint pvalue {V} (A : alg V) (m : nat -> option V) (dflt : nat -> V) (p : param) : V :=
  match p with
  | PBase id => match m id with Some v => v | None => dflt id end
  | PBin _ o l r => op2 A o (pvalue A m dflt l) (pvalue A m dflt r)
  | PFun _ f args => app A f (map (pvalue A m dflt) args)
  end.

(** models/parameter.py:913-928: base parameters of [p], first occurrences in
    depth-first order (the explicit [stack] of the code is a pre-order walk) *)
Definition dedup_in (seen : list nat) (l : list nat) : list nat :=
  fold_left (fun acc x => if existsb (Nat.eqb x) acc then acc else acc ++ [x]) l seen.
Fixpoint leaves (p : param) : list nat :=
  match p with
  | PBase id => [id]
  | PBin _ _ l r => leaves l ++ leaves r
  | PFun _ _ args => flat_map leaves args
  end.
Definition nodes (p : param) : list nat := dedup_in [] (leaves p).

(** strong induction principle for the nested type *)
Lemma param_ind' (P : param -> Prop) :
  (forall id, P (PBase id)) -> (forall id o l r, P l -> P r -> P (PBin id o l r)) ->
  (forall id f args, Forall P args -> P (PFun id f args)) -> forall p, P p.
Proof.
  intros H1 H2 H3. fix IH 1. intros [id|id o l r|id f args]; [apply H1|apply H2; apply IH|apply H3].
  induction args as [|a args IHa]; constructor; [apply IH|exact IHa].
Qed.
