(** Model of infer/results.py:166-227: saving a fit result to a file and loading it.  What is written is abstract: [dump] is what
    dill writes for a result (the bytes, and whether it got to the end without an error), [undump] what it reads; [pack], [unpack] are a
    compressed file's content and its reading.  The default algorithm is 'gzip'. *)
From Coq Require Import Ascii String.
From Verif Require Import Base Namespace.
From Coq Require Import List.
Import ListNotations.
Open Scope list_scope.

Inductive alg := Gzip | Bz2 | Lzma.
(** 186-193, 215-224 *)
Definition alg_of (s : option str) : res alg :=
  match s with
  | None => Ok Gzip
  | Some s => if str_eqb s (s2l "gzip") then Ok Gzip else if str_eqb s (s2l "bz2") then Ok Bz2 else if str_eqb s (s2l "lzma") then Ok Lzma else Err ValueError
  end.
Section Files.
Variables (V : Type) (dump : V -> list ascii * bool) (undump : list ascii -> option V).
Variables (pack : alg -> list ascii -> list ascii) (unpack : alg -> list ascii -> option (list ascii)).
(** the files: contents by path *)
Definition files := list (str * list ascii).
(** 166-196: the file is opened for writing, which empties it, and closed also if dill fails; an error of dill is a TypeError here *)
Definition save (fs : files) (path : str) (compress : option str) (v : V) : files * option err :=
  match alg_of compress with
  | Err e => (fs, Some e)
  | Ok a => (put fs path (pack a (fst (dump v))), if snd (dump v) then None else Some TypeError)
  end.
(** 198-227; a file that is not there is a KeyError here, one that cannot be read a RuntimeError *)
Definition load (fs : files) (path : str) (decompress : option str) : res V :=
  bind (alg_of decompress) (fun a =>
  match get fs path with
  | None => Err KeyError
  | Some b => match unpack a b with
              | None => Err RuntimeError
              | Some b => match undump b with Some v => Ok v | None => Err RuntimeError end
              end
  end).
(** the states the files can be left in when the process is stopped while saving: not begun, or emptied and written up to some place *)
Inductive stopped (fs : files) (path : str) (compress : option str) (v : V) : files -> Prop :=
| not_begun : stopped fs path compress v fs
| written_to : forall a n, alg_of compress = Ok a -> stopped fs path compress v (put fs path (firstn n (pack a (fst (dump v))))).
(** a history of saves *)
Definition saves (fs : files) (h : list (str * option str * V)) : files := fold_left (fun fs x => fst (save fs (fst (fst x)) (snd (fst x)) (snd x))) h fs.
End Files.
