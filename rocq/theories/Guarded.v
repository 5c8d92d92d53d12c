(** Model of the protection of attributes: models/model.py:57-61, 83, 273-286 ([Model]), 306-309, 346, 1166-1176 ([CompiledModel]) and
    1578, 1595, 1653-1663 ([Component]).  An object has its own attributes and those of its class: plain ones and properties, whose setter
    stores its argument in another attribute (checks and conversions of setters are left out; a getter does not fail). *)
From Coq Require Import Ascii String.
From Verif Require Import Base Namespace.
From Coq Require Import List.
Import ListNotations.
Open Scope list_scope.

Inductive value := VBool (b : bool) | VNames (l : list str) | VOther (n : nat).
Inductive cattr := CPlain (v : value) | CProp (target : option str).
Inductive okind := KModel | KCompiled | KComponent.
Definition attrs := list (str * value).

Section Class.
Variables (kind : okind) (cls : str -> option cattr).
(** python writes the name of the class in front of two underscores *)
Definition flag_name : str :=
  match kind with KModel => s2l "_Model__initialized" | KCompiled => s2l "_CompiledModel__initialized" | KComponent => s2l "_Component__initialized" end.
Definition truthy (v : value) : bool := match v with VBool b => b | VNames l => match l with [] => false | _ => true end | VOther n => negb (n =? 0)%nat end.
(** 61, 309, 1578: the class attribute is [False] *)
Definition initialized (o : attrs) : bool := match get o flag_name with Some v => truthy v | None => false end.
Definition hasattr (o : attrs) (k : str) : bool := match get o k with Some _ => true | None => match cls k with Some _ => true | None => false end end.
Definition comp_names (o : attrs) : list str := match get o (s2l "_cid_to_cname") with Some (VNames l) => l | _ => [] end.
(** 279-286, 1172-1176, 1659-1663: what [__setattr__] refuses *)
Definition refuses (o : attrs) (k : str) : bool :=
  match kind with
  | KModel => initialized o && (negb (hasattr o k) || if in_dec str_eq_dec k (comp_names o) then true else false)
  | KCompiled => initialized o
  | KComponent => initialized o && negb (hasattr o k)
  end.
Definition set_plain (o : attrs) (k : str) (v : value) : res attrs := if refuses o k then Err AttributeError else Ok (put o k v).
Definition setattr (o : attrs) (k : str) (v : value) : res attrs :=
  if refuses o k then Err AttributeError else
  match cls k with
  | Some (CProp None) => Err AttributeError
  | Some (CProp (Some t)) => set_plain o t v
  | _ => Ok (put o k v)
  end.
(** 273-277, 1166-1170, 1653-1657; an attribute of the class cannot be deleted from the object *)
Definition remove (o : attrs) (k : str) : attrs := filter (fun e => negb (str_eqb (fst e) k)) o.
Definition delattr (o : attrs) (k : str) : res attrs :=
  if initialized o && hasattr o k then Err AttributeError else
  match cls k, get o k with
  | Some (CProp _), _ => Err AttributeError
  | _, Some _ => Ok (remove o k)
  | _, None => Err AttributeError
  end.
Inductive op := Set_ (k : str) (v : value) | Del (k : str).
Definition step (o : attrs) (p : op) : res attrs := match p with Set_ k v => setattr o k v | Del k => delattr o k end.
(** a history: the user goes on after an error *)
Fixpoint run (o : attrs) (ps : list op) : attrs * list (option err) :=
  match ps with
  | [] => (o, [])
  | p :: r => match step o p with
              | Ok o' => let '(o2, l) := run o' r in (o2, None :: l)
              | Err e => let '(o2, l) := run o r in (o2, Some e :: l)
              end
  end.
End Class.
