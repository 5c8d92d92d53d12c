(** Model of the text of model names: models/model.py:1266-1284, 1911-1918 (construction from ids) and 186-200 (replacement of the ids by
    names).  Characters are ASCII. *)
From Coq Require Import Ascii String.
From Verif Require Import Base Namespace RBase Expr ModelAlg.
From Coq Require Import List.
Open Scope list_scope.

(** python's [s.startswith(k)] and [s.replace(k, v)]: from left to right, occurrences do not overlap.  [skip]: characters of the
    current occurrence still to be passed over *)
Fixpoint prefixb (k s : str) : bool :=
  match k, s with
  | [], _ => true
  | c :: k', d :: s' => if ascii_dec c d then prefixb k' s' else false
  | _, _ => false
  end.
Fixpoint repl (k v s : str) (skip : nat) : str :=
  match s with
  | [] => []
  | c :: s' =>
      match skip with
      | S j => repl k v s' j
      | O => if prefixb k s then v ++ repl k v s' (List.length k - 1) else c :: repl k v s' 0
      end
  end.
(** (ids are never empty) *)
Definition replace (k v s : str) : str := repl k v s 0.

(** model.py:186-200 [Model._id_to_label] *)
Definition id_to_label (mapping : list (str * str)) (label : str) : str :=
  fold_left (fun l kv => replace (fst kv) (snd kv) l) mapping label.

(** [Model._name]: model.py:1186 and 1882 (a component), 1242, 1261, 1266-1277 (sums and products), 1914 (convolutions);
    [id c] is the text of the id of component [c] *)
Fixpoint name_text (id : nat -> str) (m : model) : str :=
  match m with
  | MUni c _ | MOp c _ => id c
  | MBin MPlus l r => name_text id l ++ s2l " + " ++ name_text id r
  | MBin MTimes l r =>
      (if is_plus l then s2l "(" ++ name_text id l ++ s2l ")" else name_text id l) ++ s2l " * " ++
      (if is_plus r then s2l "(" ++ name_text id r ++ s2l ")" else name_text id r)
  | MApp c m => id c ++ s2l "(" ++ name_text id m ++ s2l ")"
  end.
(** [Model._latex]: 1243, 1262, 1271-1277, 1915 *)
Fixpoint latex_text (id : nat -> str) (m : model) : str :=
  match m with
  | MUni c _ | MOp c _ => id c
  | MBin MPlus l r => s2l "{" ++ latex_text id l ++ s2l "} + {" ++ latex_text id r ++ s2l "}"
  | MBin MTimes l r =>
      s2l "{" ++ (if is_plus l then s2l "\left(" ++ latex_text id l ++ s2l "\right)" else latex_text id l) ++ s2l "} \times {" ++
      (if is_plus r then s2l "\left(" ++ latex_text id r ++ s2l "\right)" else latex_text id r) ++ s2l "}"
  | MApp c m => s2l "{" ++ id c ++ s2l "}\left(" ++ latex_text id m ++ s2l "\right)"
  end.

(** the components of a model, as they appear in its name *)
Fixpoint mentioned (m : model) : list nat :=
  match m with MUni c _ | MOp c _ => [c] | MBin _ l r => mentioned l ++ mentioned r | MApp c m => c :: mentioned m end.
