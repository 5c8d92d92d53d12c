(** Model of the classes generated for the models of the XSPEC library: models/xs.py:330-500 [_generate_xspec_models] and the templates.
    What the library says about a model is a record. *)
From Coq Require Import Ascii String.
From Verif Require Import RBase Param Namespace HelperData HelperNames ParamArg ModelAlg Xspec Classes.
From Coq Require Import List.
Open Scope list_scope.
Open Scope R_scope.

(** xspex's description of a parameter; limits are absent for switches and scale factors *)
Record xparam := { xp_name : str; xp_default : R; xp_min : option R; xp_max : option R; xp_fixed : bool }.
Inductive xtype := XAdd | XMul | XCon | XOther.
Record xinfo := { xi_name : str; xi_type : xtype; xi_params : list xparam }.

(** [keyword.kwlist] *)
Definition kwlist : list str := map s2l ["False"; "None"; "True"; "and"; "as"; "assert"; "async"; "await"; "break"; "class"; "continue"; "def"; "del"; "elif"; "else";
  "except"; "finally"; "for"; "from"; "global"; "if"; "import"; "in"; "is"; "lambda"; "nonlocal"; "not"; "or"; "pass"; "raise"; "return"; "try"; "while"; "with"; "yield"]%string.
(** 447-451: dots become underscores, then keywords get one *)
Definition undot (s : str) : str := map (fun c => if Ascii.eqb c "."%char then "_"%char else c) s.
Definition py_name (s : str) : str := let n := undot s in if mem n kwlist then n ++ ["_"%char] else n.
Definition latex_of (n : str) : str := s2l "\mathrm{" ++ n ++ s2l "}".
(** 438-463 [gen_param_config] *)
Definition gen_param_config (p : xparam) : pconfig :=
  let n := py_name (xp_name p) in
  {| g_name := n; g_latex := latex_of n; g_default := xp_default p;
     g_min := match xp_min p with Some x => x | None => -1 end; g_max := match xp_max p with Some x => x | None => 10 ^ 10 end;
     g_log := false; g_fixed := xp_fixed p |}.
(** 428-436 *)
Definition norm_config : pconfig := {| g_name := norm_key; g_latex := latex_of norm_key; g_default := 1; g_min := / 10 ^ 10; g_max := 10 ^ 10; g_log := false; g_fixed := false |}.
(** 414: the convolutions for multiplicative models *)
Definition conv_for_mul : list str := map s2l ["partcov"; "vmshift"; "zmshift"]%string.
Inductive xkind := KAdd | KMul | KCon (supported : mtype).
Record xclass := { cl_kind : xkind; cl_config : list pconfig }.
(** what the class accepts besides its parameters, xs.py:99, 254-263 *)
Definition kwargs_add : list str := map s2l ["grad_method"; "spec_num"]%string.
Definition kwargs_con : list str := map s2l ["low_energy"; "low_ngrid"; "low_log"; "high_energy"; "high_ngrid"; "high_log"; "grad_method"; "spec_num"]%string.
Definition xkwargs (k : xkind) : list str := match k with KCon _ => kwargs_con | _ => kwargs_add end.
(** ASCII identifiers of Python *)
Definition letter (c : ascii) : bool := let n := nat_of_ascii c in ((Nat.leb 65 n && Nat.leb n 90) || (Nat.leb 97 n && Nat.leb n 122) || Nat.eqb n 95)%bool.
Definition digit (c : ascii) : bool := let n := nat_of_ascii c in (Nat.leb 48 n && Nat.leb n 57)%bool.
Definition identb (s : str) : bool := match s with [] => false | c :: r => (letter c && forallb (fun c => letter c || digit c)%bool r)%bool end.
(** [exec] of the class statement: the configuration of a class without parameters is written [( , )]; otherwise the metaclass writes and runs
    [def __init__(self, <parameters>, latex, <keywords>)], model.py:1369-1396 *)
Definition exec_class (k : xkind) (cfg : list pconfig) : res xclass :=
  let names := map g_name cfg in
  match cfg with
  | [] => Err SyntaxError
  | _ => if (forallb identb names && nodupb (s_self :: names ++ s_latex :: xkwargs k))%bool then Ok {| cl_kind := k; cl_config := cfg |} else Err SyntaxError
  end.
(** 465-491 [make_xspec_model] *)
Definition make_xspec_model (i : xinfo) : res xclass :=
  let cfg := map gen_param_config (xi_params i) in
  match xi_type i with
  | XAdd => exec_class KAdd (cfg ++ [norm_config])
  | XMul => exec_class KMul cfg
  | XCon => exec_class (KCon (if mem (xi_name i) conv_for_mul then Mmul else Madd)) cfg
  | XOther => Err ValueError
  end.
(** 493-498: one class per model, in a dictionary; the first failure ends the import of the module *)
Definition generate_xspec_models (l : list xinfo) : res (dict xclass) :=
  bind (mapE (fun i => bind (make_xspec_model i) (fun c => Ok (xi_name i, c))) l) (fun e => Ok (puts [] e)).

(** the values handed to the routine, 338-343, 361-366, 389-394 *)
Definition config_names (c : xclass) : list str := map g_name (cl_config c).
Definition routine_args (c : xclass) (params : dict R) : res (list R) :=
  xs_args (match cl_kind c with KAdd => filter (fun k => negb (is_norm k)) (config_names c) | _ => config_names c end) params.
(** construction without arguments: the default parameters, model.py:1584-1602 *)
Definition defaults_ok (c : xclass) : bool := forallb (fun g => match make_param g ANone with Ok _ => true | Err _ => false end) (cl_config c).
