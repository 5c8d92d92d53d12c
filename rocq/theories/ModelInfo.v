(** Model of parameter assignment (models/model.py [_param_setter],
    models/parameter.py [AssignmentTracker]), of [get_model_info] and of
    [Model.compile] / [CompiledModel]. *)
From Verif Require Import Base Expr Composite Namespace.
From Coq Require Import Ascii List.
Import ListNotations.
Open Scope list_scope.

(** A base parameter is free, fixed (also [ConstantValue]) or an interval
    ([ConstantInterval]): models/parameter.py:338-838.  Parameters are the trees of
    Composite.v; the numbers are the python [_id]s (object identities). *)
Inductive pkind := KFree | KFixed | KInterval.
Definition pid (p : param) : nat := match p with PBase i => i | PBin i _ _ _ => i | PFun i _ _ => i end.

(** a slot: component id and parameter name *)
Definition slot := (nat * str)%type.
Definition slot_eq_dec : forall a b : slot, {a = b} + {a <> b}.
Proof. intros [a x] [b y]. destruct (Nat.eq_dec a b), (str_eq_dec x y); [left; congruence|right; congruence..]. Defined.
Definition slot_eqb (a b : slot) : bool := if slot_eq_dec a b then true else false.

(** the part of the python heap that matters: what every component attribute holds, and
    the history list of every tracker (keyed by parameter id) *)
Record heap := { h_slot : slot -> option param; h_trk : nat -> list slot }.
Definition upd {A B} (eqb : A -> A -> bool) (f : A -> B) (a : A) (b : B) : A -> B := fun x => if eqb a x then b else f x.

(** models/parameter.py:40-44 [append], 46-48 [remove] *)
Definition trk_append (l : list slot) (s : slot) : list slot := if existsb (slot_eqb s) l then l else l ++ [s].
Fixpoint trk_remove (l : list slot) (s : slot) : res (list slot) :=
  match l with
  | [] => Err ValueError
  | x :: r => if slot_eqb s x then Ok r else bind (trk_remove r s) (fun r' => Ok (x :: r'))
  end.
(** 50-60 [get_comp_param] *)
Definition get_comp_param (l : list slot) (cids : list nat) : option slot :=
  find (fun s => existsb (Nat.eqb (fst s)) cids) l.

(** models/model.py:1428-1539 [_param_setter], after the argument has been turned into a
    parameter object (1436-1529; the new [UniformParameter] objects have fresh ids) *)
Definition assign (h : heap) (s : slot) (p : param) : res heap :=
  match h_slot h s with
  | Some q =>
      if Nat.eqb (pid q) (pid p) then Ok h
      else bind (trk_remove (h_trk h (pid q)) s) (fun l =>
           let trk := upd Nat.eqb (h_trk h) (pid q) l in
           Ok {| h_slot := upd slot_eqb (h_slot h) s (Some p);
                 h_trk := upd Nat.eqb trk (pid p) (trk_append (trk (pid p)) s) |})
  | None =>
      Ok {| h_slot := upd slot_eqb (h_slot h) s (Some p);
            h_trk := upd Nat.eqb (h_trk h) (pid p) (trk_append (h_trk h (pid p)) s) |}
  end.
(** a session: assignments and components that are dropped (their memory is freed, the
    trackers of the parameters keep their records) *)
Inductive hop := HAssign (s : slot) (p : param) | HDrop (cid : nat).
Definition hstep (h : heap) (o : hop) : res heap :=
  match o with
  | HAssign s p => assign h s p
  | HDrop c => Ok {| h_slot := fun s => if Nat.eqb c (fst s) then None else h_slot h s; h_trk := h_trk h |}
  end.
Definition hempty : heap := {| h_slot := fun _ => None; h_trk := fun _ => [] |}.
Fixpoint hrun (h : heap) (ops : list hop) : res heap :=
  match ops with [] => Ok h | o :: r => bind (hstep h o) (fun h' => hrun h' r) end.

(** ** [get_model_info] *)
(** a component: id and [param_names] *)
Record comp := { c_id : nat; c_params : list str }.

(** insertion-ordered python dict keyed by parameter id *)
Fixpoint dget {V} (d : list (nat * V)) (k : nat) : option V :=
  match d with [] => None | (k', v) :: r => if Nat.eqb k k' then Some v else dget r k end.
Fixpoint dput {V} (d : list (nat * V)) (k : nat) (v : V) : list (nat * V) :=
  match d with
  | [] => [(k, v)]
  | (k', v') :: r => if Nat.eqb k k' then (k', v) :: r else (k', v') :: dput r k v
  end.
(** [x | y] *)
Definition dunion {V} (x y : list (nat * V)) : list (nat * V) := fold_left (fun d p => dput d (fst p) (snd p)) y x.

(** the [_info] dict of a parameter (models/parameter.py:426-447, 1096-1118): itself, then
    its operands, depth first.  An entry is represented by the parameter itself. *)
Fixpoint pinfo (p : param) : list (nat * param) :=
  match p with
  | PBase i => [(i, p)]
  | PBin i _ l r => dunion (dunion [(i, p)] (pinfo l)) (pinfo r)
  | PFun i _ args => fold_left (fun d a => dunion d (pinfo a)) args [(i, p)]
  end.

Section Info.
Variable kind : nat -> pkind.
(** [fixed] and [integrate] of an entry: 385, 657, 1088-1091, 903-910 *)
Fixpoint pfixed (p : param) : bool :=
  match p with
  | PBase i => match kind i with KFree => false | _ => true end
  | PBin _ _ l r => pfixed l && pfixed r
  | PFun _ _ args => forallb pfixed args
  end.
Fixpoint pinterval (p : param) : bool :=
  match p with
  | PBase i => match kind i with KInterval => true | _ => false end
  | PBin _ _ l r => pinterval l || pinterval r
  | PFun _ _ args => existsb pinterval args
  end.

Inductive psetup := Forwarded | Integrated | Fixed | Composed | Free.

Record minfo := {
  mi_info : list (nat * param);     (* params_info *)
  mi_cp : list nat;                 (* keys of comp_param, so of pid_to_value *)
  mi_name : list (nat * str);       (* name_mapping *)
  mi_sample : list nat;             (* keys of [sample], reordered *)
  mi_fixed : list nat;              (* keys of [fixed] *)
  mi_integrate : list nat;          (* keys of [integrate] *)
  mi_determ : list nat;             (* keys of [deterministic] *)
  mi_setup : list (str * (str * psetup)) }.

(** a python exception in the middle of a comprehension stops it *)
Fixpoint mapR {A B} (f : A -> res B) (l : list A) : res (list B) :=
  match l with [] => Ok [] | x :: r => bind (f x) (fun y => bind (mapR f r) (fun ys => Ok (y :: ys))) end.
Definition opt_res {A} (e : err) (o : option A) : res A := match o with Some a => Ok a | None => Err e end.

Definition dotted (c p : str) : str := c ++ "."%char :: p.

(** one row of the loop over component parameters (2253-2310): the setup entry, the
    parameter added to [sample_order] (if any), the one added to [deterministic] *)
Definition row (h : heap) (cname : nat -> str) (cids : list nat) (names : list (nat * str))
    (info : list (nat * param)) (s : slot) : res ((str * (str * psetup)) * option nat * option nat) :=
  bind (opt_res AttributeError (h_slot h s)) (fun p0 =>
  bind (opt_res KeyError (dget info (pid p0))) (fun p =>
  let i := pid p0 in
  let mp := dotted (cname (fst s)) (snd s) in
  bind (opt_res KeyError (get_comp_param (h_trk h i) cids)) (fun rec =>
  if negb (slot_eqb s rec) then
    bind (opt_res KeyError (dget names i)) (fun v => Ok ((mp, (v, Forwarded)), None, None))
  else if is_comp p then
    if pinterval p then Ok ((mp, (mp, Integrated)), None, None)
    else if pfixed p then Ok ((mp, (mp, Fixed)), None, None)
    else Ok ((mp, (mp, Composed)), None, Some i)
  else if pinterval p then Ok ((mp, (mp, Integrated)), None, None)
  else if pfixed p then Ok ((mp, (mp, Fixed)), None, None)
  else Ok ((mp, (mp, Free)), Some i, None)))).

Definition somes {A} (l : list (option A)) : list A := flat_map (fun o => match o with Some a => [a] | None => [] end) l.
Definition same_set (a b : list nat) : bool :=
  (forallb (fun x => existsb (Nat.eqb x) b) a && forallb (fun x => existsb (Nat.eqb x) a) b)%bool.

Definition slots_of (comps : list comp) : list slot := flat_map (fun c => map (pair (c_id c)) (c_params c)) comps.
(** 2144-2147 [params_info] *)
Definition params_info (h : heap) (comps : list comp) : res (list (nat * param)) :=
  bind (mapR (fun s => opt_res AttributeError (h_slot h s)) (slots_of comps)) (fun ps =>
  Ok (fold_left (fun d p => dunion d (pinfo p)) ps [])).

(** models/model.py:2123-2362 (LaTeX, units, priors and the printed table are not
    modelled); [bname] is the name of a base parameter, [cname] is [cid_to_name] *)
Definition get_model_info (h : heap) (bname cname : nat -> str) (comps : list comp) : res minfo :=
  match slots_of comps with [] => Err TypeError (* reduce() of empty iterable *) | _ =>
  bind (params_info h comps) (fun info =>
  let cids := map c_id comps in
  let cp i := get_comp_param (h_trk h i) cids in
  let aux := filter (fun e => match cp (fst e) with Some _ => false | None => negb (is_comp (snd e)) end) info in
  let names_aux := combine (map fst aux) (build_namespace (map (fun e => bname (fst e)) aux) false true) in
  let names_comp := flat_map (fun e => match cp (fst e) with Some s => [(fst e, dotted (cname (fst s)) (snd s))] | None => [] end) info in
  let names := names_aux ++ names_comp in
  let named i := match dget names i with Some _ => true | None => false end in
  let fixed := map fst (filter (fun e => named (fst e) && pfixed (snd e) && negb (pinterval (snd e)))%bool info) in
  let integ := map fst (filter (fun e => pinterval (snd e) && negb (is_comp (snd e)))%bool info) in
  let sample := map fst (filter (fun e => negb (is_comp (snd e)) && negb (pfixed (snd e)))%bool info) in
  bind (mapR (row h cname cids names info) (slots_of comps)) (fun rows =>
  let order := somes (map (fun r => snd (fst r)) rows)
               ++ map fst (filter (fun e => negb (pfixed (snd e))) aux) in
  if negb (same_set order sample) then Err RuntimeError else
  Ok {| mi_info := info; mi_cp := map fst (filter (fun e => match cp (fst e) with Some _ => true | None => false end) info);
        mi_name := names; mi_sample := dedup_in [] order; mi_fixed := fixed; mi_integrate := integ;
        mi_determ := somes (map snd rows); mi_setup := map (fun r => fst (fst r)) rows |}))
  end.

(** ** values: 2206-2238 [factory1], [factory2]; [m] maps ids to values *)
Section Values.
Context {V : Type} (A : alg V) (dflt : nat -> V).
Definition overlay (mi : minfo) (m : nat -> option V) : nat -> option V :=
  fun i => match m i with
           | Some v => Some v
           | None => if existsb (Nat.eqb i) (mi_fixed mi) then Some (dflt i) else None
           end.
(** the value a component receives for one of its parameters: [pid_to_value[pid]] *)
Definition comp_value (h : heap) (mi : minfo) (m : nat -> option V) (s : slot) : res V :=
  bind (opt_res AttributeError (h_slot h s)) (fun p0 =>
  bind (opt_res KeyError (if existsb (Nat.eqb (pid p0)) (mi_cp mi) then dget (mi_info mi) (pid p0) else None)) (fun p =>
  Ok (pvalue A (overlay mi m) dflt p))).

(** ** [Model.compile] (model.py:91-143) and [CompiledModel.__init__] (300-343) *)
Definition compile_ids (h : heap) (mi : minfo) (comps : list comp) : list nat * list nat :=
  let ns := flat_map (fun s => match h_slot h s with Some p => nodes p | None => [] end) (slots_of comps) in
  (filter (fun i => existsb (Nat.eqb i) (mi_sample mi)) ns,
   filter (fun i => negb (existsb (Nat.eqb i) (mi_sample mi)) && existsb (Nat.eqb i) (mi_fixed mi))%bool ns).
Definition name_of (mi : minfo) (i : nat) : str := match dget (mi_name mi) i with Some n => n | None => [] end.
Record compiled := { cm_params_id : list nat; cm_pname_to_pid : list (str * nat); cm_all : list (str * nat); cm_info : minfo }.
(** [{model_info.name[pid]: pid for pid in ids}] *)
Definition name_dict (mi : minfo) (ids : list nat) : list (str * nat) :=
  fold_left (fun d i => put d (name_of mi i) i) ids [].
Definition compile (h : heap) (mi : minfo) (comps : list comp) : compiled :=
  let '(ids, fids) := compile_ids h mi comps in
  let d := name_dict mi ids in
  {| cm_params_id := ids; cm_pname_to_pid := d;
     cm_all := fold_left (fun d p => put d (fst p) (snd p)) (name_dict mi fids) d; cm_info := mi |}.
(** the public [params_name] *)
Definition params_name (c : compiled) : list str := map fst (cm_pname_to_pid c).

(** [_prepare_eval] (359-391): the id -> value mapping of the three forms of argument
    (unbatched) *)
Inductive argument := ASeq (vs : list V) | AMap (d : list (str * V)) | ANone.
Definition prepare (c : compiled) (a : argument) : res (nat -> option V) :=
  match a with
  | ASeq vs =>
      if negb (length vs =? length (cm_pname_to_pid c)) then Err ValueError
      else if negb (length (cm_params_id c) =? length vs) then Err ValueError (* zip(strict=True) *)
      else Ok (dget (combine (cm_params_id c) vs))
  | AMap d =>
      let l := flat_map (fun kv => match get d (fst kv) with Some v => [(snd kv, v)] | None => [] end) (cm_all c) in
      match l, cm_pname_to_pid c with
      | [], _ :: _ => Err ValueError (* 'params are empty' *)
      | _, _ => Ok (dget l)
      end
  | ANone => Ok (fun i => if existsb (Nat.eqb i) (mi_sample (cm_info c)) then Some (dflt i) else None)
  end.
(** what every component receives *)
Definition run_compiled (h : heap) (c : compiled) (a : argument) (s : slot) : res V :=
  bind (prepare c a) (fun m => comp_value h (cm_info c) m s).
End Values.
End Info.
