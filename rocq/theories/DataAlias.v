(** C24: numpy arrays are shared by reference.  A store maps references to arrays; the
    observation keeps a reference to the array it was handed. *)
From Verif Require Import RBase Data.
Definition store := nat -> list Z.
Definition upd (h : store) (a : nat) (v : list Z) : store := fun k => if k =? a then v else h k.

(** data/base.py:272-291 [set_grouping] with an ndarray argument: [np.asarray] returns the
    very same array, [grouping[0] = 1] writes into it, [self._grouping = grouping] keeps
    the reference.  The result is the new store and the stored reference. *)
Definition set_grouping_ref (nch : nat) (h : store) (a : nat) : res (store * nat) :=
  if negb (length (h a) =? nch) then Err ValueError else
  match h a with
  | [] => Err IndexError
  | _ => Ok (upd h a (fix_first (h a)), a)
  end.
(** the grouping used by a later [set_erange] (254-255: [self.set_grouping(self.grouping)]) *)
Definition later_grouping (h : store) (self_grouping : nat) : list Z := h self_grouping.
