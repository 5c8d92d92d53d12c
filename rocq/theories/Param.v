(** Model of models/parameter.py: [UniformParameter] as a state machine.
    float64 is [R].  Python's in-place mutation is kept: an operation returns
    the new state {e together with} the exception it raised, if any, so a
    half-done update is visible. *)
From Verif Require Import RBase.

(** What is passed to numpyro: [LogUniform(lo, hi)] or [Uniform(lo, hi)]. *)
Record udist := { d_log : bool; d_lo : R; d_hi : R }.

(** models/parameter.py:453-561: the attributes [_default], [_min], [_max],
    [_log], [_fixed], [_dist] of a [UniformParameter]. *)
Record uparam := { u_default : R; u_min : R; u_max : R;
                   u_log : bool; u_fixed : bool; u_dist : udist }.

Definition outcome := (uparam * option err)%type.

Definition opt_or {A} (o : option A) (d : A) : A := match o with Some a => a | None => d end.
Definition is_some {A} (o : option A) : bool := match o with Some _ => true | None => false end.

(** models/parameter.py:628-636: the default is moved inside an open interval
    when it sits on its lower end (the warning is not modelled). *)
Definition nudge_min (d lo hi : R) (fixed : bool) : R :=
  if (Reqb d lo && negb fixed)%bool then lo + / 10 ^ 10 * (hi - lo) else d.
(** models/parameter.py:638-646: same for the upper end *)
Definition nudge_max (d lo hi : R) (fixed : bool) : R :=
  if (Reqb d hi && negb fixed)%bool then hi - / 10 ^ 10 * (hi - lo) else d.

(** models/parameter.py:579-661 [_check_and_set_values].
    Simplification: array-valued arguments (rejected at 588, before any update) are
    not representable. *)
Definition check_and_set (s : uparam) (default min max : option R) (fixed : option bool) : outcome :=
  let _default := opt_or default (u_default s) in
  let _min := opt_or min (u_min s) in
  let _max := opt_or max (u_max s) in
  let fixed := opt_or fixed (u_fixed s) in
  if (Rleb _min 0 && u_log s)%bool then (s, Some ValueError)
  else if Rleb _max _min then (s, Some ValueError)
  else if Rltb _default _min then (s, Some ValueError)
  else if Rltb _max _default then (s, Some ValueError)
  else
    let d1 := nudge_min _default _min _max fixed in
    let d2 := nudge_max d1 _min _max fixed in
    ({| u_default := if is_some default then d2 else u_default s;
        u_min := if is_some min then _min else u_min s;
        u_max := if is_some max then _max else u_max s;
        u_log := u_log s;
        u_fixed := u_fixed s;
        u_dist := if (is_some min || is_some max)%bool
                  then {| d_log := u_log s;
                          d_lo := if is_some min then _min else u_min s;
                          d_hi := if is_some max then _max else u_max s |}
                  else u_dist s |}, None).

(** models/parameter.py:474-499 [UniformParameter.__init__], then 352-393
    [DistParameter.__init__] (which stores the {e original} default and checks it
    against the support, both ends included) and 288-303
    [ParameterHelper.__init__] (which assigns [self.default] again). *)
Definition uinit (default min max : R) (log fixed : bool) : res uparam :=
  let blank := {| u_default := default; u_min := min; u_max := max; u_log := log;
                  u_fixed := fixed; u_dist := {| d_log := log; d_lo := min; d_hi := max |} |} in
  match check_and_set blank (Some default) (Some min) (Some max) (Some fixed) with
  | (_, Some e) => Err e
  | (s1, None) =>
      if (Rleb (d_lo (u_dist s1)) default && Rleb default (d_hi (u_dist s1)))%bool then
        let s2 := {| u_default := default; u_min := min; u_max := max; u_log := log;
                     u_fixed := fixed; u_dist := u_dist s1 |} in
        match check_and_set s2 (Some default) None None None with
        | (s3, None) => Ok s3
        | (_, Some e) => Err e
        end
      else Err ValueError
  end.

(** The public attribute assignments. *)
Inductive uop := SetDefault (v : R) | SetMin (v : R) | SetMax (v : R)
               | SetLog (b : bool) | SetFixed (b : bool).

(** models/parameter.py:524-561, the property setters.  [validate] says whether
    numpyro argument validation is switched on ([numpyro.enable_validation]; off by
    default and never switched on by elisa): only then does building
    [LogUniform(min, max)] with a non-positive [min] raise. *)
Definition uassign (validate : bool) (s : uparam) (o : uop) : outcome :=
  match o with
  | SetDefault v => check_and_set s (Some v) None None None
  | SetMin v => check_and_set s None (Some v) None None
  | SetMax v => check_and_set s None None (Some v) None
  | SetLog b =>
      if Bool.eqb (u_log s) b then (s, None)
      else
        let s1 := {| u_default := u_default s; u_min := u_min s; u_max := u_max s;
                     u_log := b; u_fixed := u_fixed s; u_dist := u_dist s |} in
        if (validate && b && Rleb (u_min s) 0)%bool then (s1, Some ValueError)
        else ({| u_default := u_default s; u_min := u_min s; u_max := u_max s;
                 u_log := b; u_fixed := u_fixed s;
                 u_dist := {| d_log := b; d_lo := u_min s; d_hi := u_max s |} |}, None)
  | SetFixed b =>
      let s1 := {| u_default := u_default s; u_min := u_min s; u_max := u_max s;
                   u_log := u_log s; u_fixed := b; u_dist := u_dist s |} in
      check_and_set s1 (Some (u_default s)) (Some (u_min s)) (Some (u_max s)) None
  end.

(** a user session: exceptions are caught and the session goes on *)
Definition urun (validate : bool) (s : uparam) (ops : list uop) : uparam :=
  fold_left (fun s o => fst (uassign validate s o)) ops s.

(** ** Specification *)
(** bounds ordered, default within them, distribution built from the current settings *)
Definition bounds_ok (s : uparam) : Prop :=
  u_min s < u_max s /\ u_min s <= u_default s <= u_max s /\
  d_log (u_dist s) = u_log s /\ d_lo (u_dist s) = u_min s /\ d_hi (u_dist s) = u_max s.
Definition log_ok (s : uparam) : Prop := u_log s = true -> 0 < u_min s.
Definition strict_ok (s : uparam) : Prop :=
  u_fixed s = false -> u_min s < u_default s < u_max s.
