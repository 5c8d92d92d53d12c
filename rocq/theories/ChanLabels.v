(** Model of the channel labels: data/base.py:1540-1608 ([group_energy], labels),
    299-313 (labels of an observation), infer/helper.py:146-147 (labels of a fit) and
    of selecting by label, [DataArray.sel(channel=...)] (infer/results.py:2389, 2413,
    2449). *)
From Coq Require Import Ascii String.
From Verif Require Import Base Namespace.
From Coq Require Import List ZArith.
Import ListNotations.
Open Scope list_scope.

(** base.py:1571-1603.  [quality] is [None] if the caller gives none: [np.ones] then is
    an array of floats, which numpy refuses as an index of the labels (1596) *)
Definition group_labels (raw : list str) (fl : list Z) (quality : option (list bool)) (keep : bool) : res (list str) :=
  let n := List.length raw in
  if negb (List.length fl =? n)%nat then Err ValueError else
  if negb (match quality with Some q => List.length q =? n | None => true end)%nat then Err ValueError else
  let idx := starts fl in
  if (List.length idx =? n)%nat then Ok raw else
  match idx, quality with
  | [], _ => Ok []
  | _, None => Err IndexError
  | _, Some q =>
      Ok (if keep then map (fun p => join_plus (bmask (slice (fst p) (snd p) q) (slice (fst p) (snd p) raw))) (pairs idx n)
          else map nat_str (seq 0 (List.length idx)))
  end.

(** base.py:301-302: [f'{self.name}_{ch}_{i}'] *)
Definition full_label (name ctype l : str) : str := name ++ underscore :: ctype ++ underscore :: l.
(** base.py:296-313: [mask] is the mask of the energy ranges; groups without good
    channels are dropped *)
Definition good_groups (fl : list Z) (q : list bool) : list bool :=
  map (fun p => existsb (fun b => b) (slice (fst p) (snd p) q)) (pairs (starts fl) (List.length q)).
Fixpoint and2 (a b : list bool) : list bool :=
  match a, b with x :: a, y :: b => andb x y :: and2 a b | _, _ => [] end.
Definition chan_labels (name ctype : str) (raw : list str) (fl : list Z) (q : list bool) (keep : bool) (mask : list bool) : res (list str) :=
  bind (group_labels raw fl (Some q) keep) (fun ls =>
  Ok (bmask (and2 mask (good_groups fl q)) (map (full_label name ctype) ls))).

(** helper.py:147: [np.hstack] of the labels of the data sets *)
Definition all_labels (dls : list (list str)) : list str := concat dls.

(** [sel(channel=want)] on an index of labels: an index with a repeated label is
    refused, a missing label is a [KeyError] *)
Fixpoint nodup_str (l : list str) : bool :=
  match l with [] => true | x :: r => (negb (str_in x r) && nodup_str r)%bool end.
Fixpoint lookup {A} (labels : list str) (vals : list A) (x : str) : res A :=
  match labels, vals with
  | l :: ls, v :: vs => if str_eqb x l then Ok v else lookup ls vs x
  | _, _ => Err KeyError
  end.
Fixpoint select {A} (labels : list str) (vals : list A) (want : list str) : res (list A) :=
  match want with
  | [] => Ok []
  | x :: r => bind (lookup labels vals x) (fun v => bind (select labels vals r) (fun vs => Ok (v :: vs)))
  end.
Definition sel {A} (labels : list str) (vals : list A) (want : list str) : res (list A) :=
  if nodup_str labels then select labels vals want else Err ValueError.
