(** Model of the ways to give a parameter to a spectral component, models/model.py:1428-1539 [_param_setter], of [Component.__init__], 1584-1602, and of the
    guarded attributes, 1640-1667 and 293-313.  float64 is [R]. *)
From Coq Require Import Ascii String.
From Verif Require Import RBase Param Namespace HelperData HelperNames.
From Coq Require Import List.
Open Scope list_scope.
Open Scope R_scope.

(** model.py:1542-1567 [ParamConfig] (the unit plays no role here) *)
Record pconfig := { g_name : str; g_latex : str; g_default : R; g_min : R; g_max : R; g_log : bool; g_fixed : bool }.
(** values inside a mapping or sequence: a number, a boolean, [None], an array or list.  Strings, which [float] may parse, are not modelled. *)
Inductive pv := PNum (x : R) | PBool (b : bool) | PNone | PVec.
Definition b2r (b : bool) : R := if b then 1 else 0.
(** parameter.py:587-604: [float(min)]; [None] reads an attribute that is not set yet *)
Definition as_bound (v : pv) : res R := match v with PNum x => Ok x | PBool b => Ok (b2r b) | PNone => Err AttributeError | PVec => Err TypeError end.
(** parameter.py:588-592 *)
Definition as_default (v : pv) : res R := match v with PNum x => Ok x | PBool b => Ok (b2r b) | PNone => Err AttributeError | PVec => Err ValueError end.
(** [bool(x)]; for arrays, that of numpy arrays with several entries *)
Definition as_flag (v : pv) : res bool := match v with PNum x => Ok (negb (Reqb x 0)) | PBool b => Ok b | PNone => Ok false | PVec => Err ValueError end.
(** parameter.py:473-495 [UniformParameter.__init__] given python values *)
Definition new_uniform (d lo hi lg fx : pv) : res uparam :=
  bind (as_flag lg) (fun lg => bind (as_default d) (fun d => bind (as_bound lo) (fun lo => bind (as_bound hi) (fun hi => bind (as_flag fx) (fun fx => uinit d lo hi lg fx))))).

(** python objects: identity, LaTeX, and the settings of a uniform parameter ([None]: a parameter of another class) *)
Record pobj := { o_id : nat; o_uni : option uparam }.
(** what can be assigned *)
Inductive parg :=
| ANone | AScalar (x : R) | AArray (* an array that is no scalar *) | AParam (p : pobj) | AMap (d : dict pv) | ASeq (l : list pv) | AOther.

Definition k_default : str := s2l "default". Definition k_min : str := s2l "min". Definition k_max : str := s2l "max".
Definition k_log : str := s2l "log". Definition k_fixed : str := s2l "fixed".
Definition getd {V} (d : dict V) (k : str) (v : V) : V := match get d k with Some x => x | None => v end.
(** 1436-1529: the object made from the argument; [inl]: a new uniform parameter, [inr]: the given one *)
Definition make_param (c : pconfig) (a : parg) : res (uparam + pobj) :=
  match a with
  | ANone => bind (uinit (g_default c) (g_min c) (g_max c) (g_log c) (g_fixed c)) (fun u => Ok (inl u))
  | AScalar x => bind (uinit x (g_min c) (g_max c) (g_log c) true) (fun u => Ok (inl u))
  | AArray => Err ValueError
  | AParam p => Ok (inr p)
  | AMap d =>
      match get d k_default, get d k_min, get d k_max with
      | Some v, Some lo, Some hi => bind (new_uniform v lo hi (getd d k_log (PBool false)) (getd d k_fixed (PBool false))) (fun u => Ok (inl u))
      | _, _, _ => Err ValueError
      end
  | ASeq [v] => bind (new_uniform v (PNum (g_min c)) (PNum (g_max c)) (PBool (g_log c)) (PBool (g_fixed c))) (fun u => Ok (inl u))
  | ASeq [v; lo; hi] => bind (new_uniform v lo hi (PBool (g_log c)) (PBool (g_fixed c))) (fun u => Ok (inl u))
  | ASeq [v; lo; hi; lg] => bind (new_uniform v lo hi lg (PBool (g_fixed c))) (fun u => Ok (inl u))
  | ASeq _ => Err ValueError
  | AOther => Err TypeError
  end.

(** the heap: what the parameter [n] of component [cid] holds, the LaTeX of every parameter object, the next identity *)
Record pheap := { ph_slot : nat -> str -> option pobj; ph_latex : nat -> str; ph_next : nat }.
Definition set_slot (h : pheap) (cid : nat) (n : str) (p : pobj) : nat -> str -> option pobj :=
  fun c m => if (Nat.eqb c cid && str_eqb m n)%bool then Some p else ph_slot h c m.
Definition set_latex (h : pheap) (i : nat) (s : str) : nat -> str := fun j => if Nat.eqb j i then s else ph_latex h j.
(** models/model.py:1429-1537 [setter]; the trackers are in ModelInfo.v *)
Definition set_param (h : pheap) (cid : nat) (c : pconfig) (a : parg) : pheap * option err :=
  let same := match a, ph_slot h cid (g_name c) with AParam p, Some q => Nat.eqb (o_id p) (o_id q) | _, _ => false end in
  if same then (h, None) else
  match make_param c a with
  | Err e => (h, Some e)
  | Ok (inl u) => let p := {| o_id := ph_next h; o_uni := Some u |} in
      ({| ph_slot := set_slot h cid (g_name c) p; ph_latex := set_latex h (ph_next h) (g_latex c); ph_next := S (ph_next h) |}, None)
  | Ok (inr p) => ({| ph_slot := set_slot h cid (g_name c) p; ph_latex := set_latex h (o_id p) (g_latex c); ph_next := ph_next h |}, None)
  end.
(** models/model.py:1584-1602 [Component.__init__]: every parameter in the order of the configuration; arguments not given are [None] *)
Fixpoint init_params (h : pheap) (cid : nat) (cfgs : list pconfig) (args : dict parg) : pheap * option err :=
  match cfgs with
  | [] => (h, None)
  | c :: r => match set_param h cid c (getd args (g_name c) ANone) with (h', None) => init_params h' cid r args | (h', Some e) => (h', Some e) end
  end.
(** 1640-1667: [comp[key]], [comp[key] = value], [comp.key = value] once initialised; [attrs]: the other attributes of the object *)
Definition find_cfg (cfgs : list pconfig) (key : str) : option pconfig := find (fun c => str_eqb key (g_name c)) cfgs.
Definition comp_get (h : pheap) (cid : nat) (cfgs : list pconfig) (key : str) : res pobj :=
  match find_cfg cfgs key with None => Err KeyError | Some _ => match ph_slot h cid key with Some p => Ok p | None => Err AttributeError end end.
Definition comp_setitem (h : pheap) (cid : nat) (cfgs : list pconfig) (key : str) (a : parg) : pheap * option err :=
  match find_cfg cfgs key with None => (h, Some KeyError) | Some c => set_param h cid c a end.
Definition comp_setattr (h : pheap) (cid : nat) (cfgs : list pconfig) (attrs : list str) (key : str) (a : parg) : pheap * option err :=
  match find_cfg cfgs key with
  | Some c => set_param h cid c a
  | None => if mem key attrs then (h, None) (* an attribute that is no parameter: LaTeX, method, ... *) else (h, Some AttributeError)
  end.
(** a session: exceptions are caught and the session goes on *)
Inductive sop := SSetItem (cid : nat) (key : str) (a : parg) | SSetAttr (cid : nat) (key : str) (a : parg).
Definition sop_step (cfgs : nat -> list pconfig) (attrs : list str) (h : pheap) (o : sop) : pheap * option err :=
  match o with
  | SSetItem cid k a => comp_setitem h cid (cfgs cid) k a
  | SSetAttr cid k a => comp_setattr h cid (cfgs cid) attrs k a
  end.
Definition srun (cfgs : nat -> list pconfig) (attrs : list str) (h : pheap) (ops : list sop) : pheap := fold_left (fun h o => fst (sop_step cfgs attrs h o)) ops h.
