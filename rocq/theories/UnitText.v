(** Model of two functions on texts of util/misc.py: 308-361 [get_unit_latex] and 398-442 [replace_string].  Characters are ASCII.
    What astropy makes of the text of a unit is a parameter. *)
From Coq Require Import Ascii String.
From Verif Require Import Base Namespace RBase Expr ModelAlg Labels.
From Coq Require Import List.
Import ListNotations.
Open Scope list_scope.
Open Scope nat_scope.

(** ** units *)
Definition letter (c : ascii) : bool :=
  let n := nat_of_ascii c in ((65 <=? n) && (n <=? 90) || (97 <=? n) && (n <=? 122))%bool.
(** 330-343: [re.search] of a name with characters that are no letters around it; a name is matched as it is *)
Fixpoint match_here (name t : str) : bool :=
  (prefixb name t || match t with c :: r => (negb (letter c) && match_here name r)%bool | [] => false end)%bool.
Fixpoint search (name t : str) : option nat :=
  if match_here name t then Some 0 else match t with c :: r => option_map S (search name r) | [] => None end.
(** a base of a unit: its names and, if its power is not one, the text of the power *)
Record ubase := { b_name : str; b_aliases : list str; b_power : option str }.
Definition position (t : str) (b : ubase) : nat :=
  fold_right Nat.min (length t) (map (fun s => match search s t with Some p => p | None => length t end) (b_name b :: b_aliases b)).
(** 344: [sorted] keeps the order of equal keys *)
Fixpoint insert_by (key : ubase -> nat) (x : ubase) (l : list ubase) : list ubase :=
  match l with [] => [x] | y :: r => if key x <=? key y then x :: l else y :: insert_by key x r end.
Definition sort_by (key : ubase -> nat) (l : list ubase) : list ubase := fold_right (insert_by key) [] l.
Fixpoint join_with (sep : str) (l : list str) : str := match l with [] => [] | [w] => w | w :: r => w ++ sep ++ join_with sep r end.
Definition term (b : ubase) : str := b_name b ++ match b_power b with Some p => s2l "^{" ++ p ++ s2l "}" | None => [] end.
(** [parse]: the bases of a unit and the LaTeX text of its scale, empty if it is one *)
Definition get_unit_latex (parse : str -> res (list ubase * str)) (u : str) (throw : bool) : res str :=
  match u with
  | [] => Ok []
  | _ =>
      match parse u with
      | Err ValueError => if throw then Err ValueError else Ok []
      | Err e => Err e
      | Ok (bs, scale) =>
          let terms := join_with (s2l "\ ") (map term (sort_by (position u) bs)) in
          let scale := match scale with [] => [] | _ => replace (s2l "1 \times ") [] scale ++ s2l "\ " end in
          Ok (s2l "$\mathrm{" ++ scale ++ terms ++ s2l "}$")
      end
  end.

(** ** texts in lists and dictionaries; the keys of a dictionary are texts, those of the mapping are not empty *)
Inductive pyval := PStr (s : str) | PSeq (tuple : bool) (l : list pyval) | PDict (d : list (str * pyval)) | POther (n : nat).
Definition replace_text (mp : list (str * str)) (s : str) : str := fold_left (fun x kv => replace (fst kv) (snd kv) x) mp s.
Fixpoint replace_string (mp : list (str * str)) (v : pyval) : pyval :=
  match v with
  | PStr s => PStr (replace_text mp s)
  | PSeq t l => PSeq t (map (replace_string mp) l)
  | PDict d => PDict (fold_left (fun acc kv => match kv with (k, w) => put acc (replace_text mp k) (replace_string mp w) end) d [])
  | POther n => POther n
  end.
