(** Model of user-defined component classes: models/model.py:1334-1420 [ComponentMeta] (class creation, the generated [__init__],
    instantiation) and 1570-1663 [Component] (initialisation, guarded attributes).  Python's method resolution order is a list of
    classes, the class itself first.  Annotations, abstract methods and signatures shown to the user are not modelled. *)
From Coq Require Import Ascii String.
From Verif Require Import Base Namespace HelperData.
From Coq Require Import List.
Open Scope list_scope.

(** an element of [_config]: a [ParamConfig] or anything else *)
Inductive entry := PC (name : str) | NotPC.
(** the class attribute [_config]: absent, a tuple, or another sequence (of [ParamConfig], since [i[0]] is taken as the name) *)
Inductive cfg := NoConfig | Tup (l : list entry) | Other (names : list str).
(** [__init__] of a class: none of its own, generated by the metaclass with this signature (required arguments, then the others), or written
    in the library: all of those (model.py:1580-1594, 1690-1691, 1714-1722, 2008-2016, 2073-2085, add.py:664-673, mul.py:315-327,
    conv.py:26-44, xs.py:102-113, 266-283) take [params], [latex] and further arguments, and reach [Component.__init__] *)
Inductive init := NoInit | Gen (args names kwargs : list str) | Lib (required optional : list str).
Record cls := { k_config : cfg; k_init : init; k_args : option (list str); k_kwargs : option (list str);
                k_static : option (list str); k_methods : list (str * bool) (* name, is a staticmethod *); k_props : list str }.

(** attribute lookup in the method resolution order *)
Fixpoint lookup {X} (f : cls -> option X) (mro : list cls) : option X :=
  match mro with [] => None | c :: r => match f c with Some x => Some x | None => lookup f r end end.
Definition cfg_names (c : cfg) : option (list str) :=
  match c with
  | NoConfig => None
  | Tup l => Some (flat_map (fun e => match e with PC n => [n] | NotPC => [] end) l)
  | Other l => Some l
  end.
Definition is_pc (e : entry) : bool := match e with PC _ => true | NotPC => false end.
Definition find_args (mro : list cls) : list str := match lookup k_args mro with Some l => l | None => [] end.
Definition find_kwargs (mro : list cls) : list str := match lookup k_kwargs mro with Some l => l | None => [] end.
Definition s_latex : str := s2l "latex".
Definition s_params : str := s2l "params".
Definition s_self : str := s2l "self".
Fixpoint nodupb (l : list str) : bool := match l with [] => true | x :: r => (negb (str_in x r) && nodupb r)%bool end.

(** the class statement: [d] is the new class as written (its [k_props] are empty), [bases] the rest of the resolution order.
    (a declared static method defined nowhere is an AttributeError, here TypeError). 1337-1356 checks of [_config] and properties, 1359-1366 static methods, 1369-1396 the generated [__init__] ([exec] of a function
    definition with a repeated argument is a [SyntaxError]) *)
Definition make_class (d : cls) (bases : list cls) : res (list cls) :=
  bind (match k_config d with
        | Tup [] => Err ValueError
        | Tup l => if negb (forallb is_pc l) then Err ValueError else Ok tt
        | _ => Ok tt
        end) (fun _ =>
  let props := match k_config d with Tup l => flat_map (fun e => match e with PC n => [n] | NotPC => [] end) l | _ => [] end in
  let c := {| k_config := k_config d; k_init := k_init d; k_args := k_args d; k_kwargs := k_kwargs d; k_static := k_static d; k_methods := k_methods d; k_props := props |} in
  let mro := c :: bases in
  match cfg_names (k_config d) with
  | None => Ok mro
  | Some names =>
      let statics := match lookup k_static mro with Some l => l | None => [] end in
      if negb (forallb (fun m => match lookup (fun k => get (k_methods k) m) mro with Some b => b | None => false end) statics) then Err TypeError else
      match k_init d with
      | NoInit =>
          let sig := find_args mro ++ names ++ s_latex :: find_kwargs mro in
          if negb (nodupb (s_self :: sig)) then Err SyntaxError else
          Ok ({| k_config := k_config c; k_init := Gen (find_args mro) names (find_kwargs mro); k_args := k_args c; k_kwargs := k_kwargs c; k_static := k_static c; k_methods := k_methods c; k_props := props |} :: bases)
      | _ => Ok mro
      end
  end).

(** ** instances *)
Section Values.
Variable A : Type. (** what users pass *)
Inductive val := VNone | VUser (x : A) | VParams (d : list (str * val)).
(** what is stored for a parameter: made by the property (a [Parameter], see C88), or the bare value *)
Inductive stored := Made (v : val) | Raw (v : val).
Record obj := { o_params : list (str * stored); o_latex : val; o_extras : list (str * val) }.

(** python's binding of arguments: [sig] are the names, the first [nreq] of them required *)
Definition bind_args (sig : list str) (required : list str) (pos : list val) (kws : list (str * val)) : res (list (str * val)) :=
  if length sig <? length pos then Err TypeError else
  if negb (forallb (fun kv => str_in (fst kv) sig) kws) then Err TypeError else
  let given := combine sig pos in
  if existsb (fun kv => str_in (fst kv) (map fst given)) kws then Err TypeError else
  let all := given ++ kws in
  if negb (forallb (fun n => str_in n (map fst all)) required) then Err TypeError else
  Ok (map (fun n => (n, match get all n with Some v => v | None => VNone end)) sig).

(** [Component.__init__], 1580-1594, with the configuration of the class of the object *)
Definition component_init (mro : list cls) (params latex : val) (extras : list (str * val)) : res obj :=
  match lookup (fun c => cfg_names (k_config c)) mro, params with
  | Some names, VParams d =>
      bind (mapE (fun n => match get d n with
                           | Some v => Ok (n, if existsb (fun c => str_in n (k_props c)) mro then Made v else Raw v)
                           | None => Err KeyError end) names) (fun ps =>
      Ok {| o_params := ps; o_latex := latex; o_extras := extras |})
  | _, _ => Err TypeError
  end.
(** [__init__] found in [here], a suffix of the resolution order [mro] of the object; the generated one calls
    [super(type(self), self).__init__], the next one after the class of the *object* (1389-1392) *)
Fixpoint run_init (fuel : nat) (mro here : list cls) (pos : list val) (kws : list (str * val)) : res obj :=
  match fuel with O => Err RuntimeError (* RecursionError *) | S fuel =>
  match here with
  | [] => Err TypeError
  | c :: rest =>
      match k_init c with
      | NoInit => run_init fuel mro rest pos kws
      | Lib req opt =>
          bind (bind_args (s_params :: s_latex :: req ++ opt) (s_params :: s_latex :: req) pos kws) (fun b =>
          match b with
          | (_, params) :: (_, latex) :: extras => component_init mro params latex extras
          | _ => Err TypeError end)
      | Gen args names kwargs =>
          bind (bind_args (args ++ names ++ s_latex :: kwargs) args pos kws) (fun b =>
          let v n := match get b n with Some v => v | None => VNone end in
          run_init fuel mro (tl mro) [] (map (fun n => (n, v n)) kwargs ++ map (fun n => (n, v n)) args ++
            [(s_params, VParams (map (fun n => (n, v n)) names)); (s_latex, v s_latex)]))
      end
  end end.
(** [limit]: python's limit of the depth of calls, and of the search *)
Definition instantiate (limit : nat) (mro : list cls) (pos : list val) (kws : list (str * val)) : res obj := run_init limit mro mro pos kws.
End Values.
Arguments VNone {A}. Arguments VUser {A} x. Arguments VParams {A} d. Arguments Made {A} v. Arguments Raw {A} v.

(** ** guarded attributes *)
Section Guards.
Variable V : Type.
(** an object after initialisation: its own attributes; [inherited] are those of its class *)
Record inst := { i_attrs : list (str * V); i_class : list str }.
Inductive access := SetAttr (n : str) (v : V) | DelAttr (n : str) | SetItem (n : str) (v : V).
Definition has (i : inst) (n : str) : bool := (match get (i_attrs i) n with Some _ => true | None => false end || str_in n (i_class i))%bool.
(** models/model.py:1640-1663 [Component.__setitem__], [__delattr__], [__setattr__] ([names]: the parameters; [names = None] for a [Model], which has
    no item assignment) and 272-286 [Model.__delattr__], [Model.__setattr__] ([guarded]: component names, which cannot be set) *)
Definition access_step (names : option (list str)) (guarded : list str) (i : inst) (a : access) : res inst :=
  let set n v := if (negb (has i n) || str_in n guarded)%bool then Err AttributeError else Ok {| i_attrs := put (i_attrs i) n v; i_class := i_class i |} in
  match a with
  | SetAttr n v => set n v
  | DelAttr n => Err AttributeError (* existing: refused; not existing: python's own error *)
  | SetItem n v => match names with None => Err TypeError | Some l => if str_in n l then set n v else Err KeyError end
  end.
Definition access_all (names : option (list str)) (guarded : list str) (i : inst) (h : list access) : inst :=
  fold_left (fun i a => match access_step names guarded i a with Ok i' => i' | Err _ => i end) h i.
End Guards.
