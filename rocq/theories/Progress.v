(** Model of util/misc.py [progress_bar_factory] and of the callbacks the compiled loops send to the host. *)
From Verif Require Import Base.
From Coq Require Import ZArith List Lia.
Import ListNotations.
Open Scope Z_scope.

(** host-side actions; each is atomic: [Update k] is [bar.update(k)], [Inc] the locked increment of [idx_counter]
    (582-583), [Check] the test [idx_counter == ncores] outside the lock followed by [bar.close()] (585-586) *)
Inductive action := Update (k : Z) | Inc | Check.

(** 556-573: [neval_single], [print_rate], [remainder].  [int(neval_single / update_rate)] truncates towards zero
    (float rounding of the quotient is not modelled). *)
Record bar := { b_neval : Z; b_ncores : Z; b_single : Z; b_rate : Z; b_rem : Z }.
Definition progress_bar_factory (neval ncores update_rate : Z) : res bar :=
  if ncores =? 0 then Err ZeroDivisionError else
  let single := neval / ncores in
  if negb (neval mod ncores =? 0) then Err ValueError else
  if (update_rate <? neval) && (update_rate =? 0) then Err ZeroDivisionError else
  let rate := if update_rate <? neval then Z.max 1 (Z.quot single update_rate) else 1 in
  Ok {| b_neval := neval; b_ncores := ncores; b_single := single; b_rate := rate; b_rem := single mod rate |}.

(** util/misc.py:598-616 [_update_progress_bar(iter_num)], with 584-586 [_update_tqdm] and 588-597 [_close_tqdm] *)
Definition update_progress_bar (b : bar) (iter_num : Z) : list action :=
  (if iter_num =? 1 then [Update 0] else []) ++
  (if iter_num mod b_rate b =? 0 then [Update (b_rate b)] else []) ++
  (if iter_num =? b_single b then [Update (b_rem b); Inc; Check] else []).
(** util/misc.py:627-630: the callbacks of one device, whose loop runs [i = 0 .. n-1] (infer/helper.py:636, 661: [n] is the number of
    fits of the device), in program order *)
Definition worker (b : bar) (n : nat) : list action := flat_map (fun i => update_progress_bar b (Z.of_nat i + 1)) (seq 0 n).

(** the host: [updates] (all increments received, latest first, with the number of [close] calls seen before each), the
    counter, the number of [close] calls *)
Record host := { h_log : list (Z * nat); h_counter : Z; h_closes : nat }.
Definition host0 : host := {| h_log := []; h_counter := 0; h_closes := 0 |}.
Definition exec (b : bar) (h : host) (a : action) : host :=
  match a with
  | Update k => {| h_log := (k, h_closes h) :: h_log h; h_counter := h_counter h; h_closes := h_closes h |}
  | Inc => {| h_log := h_log h; h_counter := h_counter h + 1; h_closes := h_closes h |}
  | Check => {| h_log := h_log h; h_counter := h_counter h;
                h_closes := if h_counter h =? b_ncores b then S (h_closes h) else h_closes h |}
  end.
(** one device performs its next callback *)
Inductive step (b : bar) : list (list action) * host -> list (list action) * host -> Prop :=
| step_worker : forall ws1 a w ws2 h, step b (ws1 ++ (a :: w) :: ws2, h) (ws1 ++ w :: ws2, exec b h a).
Inductive steps (b : bar) : list (list action) * host -> list (list action) * host -> Prop :=
| steps_refl : forall s, steps b s s
| steps_step : forall s s' s'', step b s s' -> steps b s' s'' -> steps b s s''.
(** a complete run of [ncores] devices, each doing [n] fits *)
Definition complete (b : bar) (n : nat) (h : host) : Prop :=
  exists done, steps b (repeat (worker b n) (Z.to_nat (b_ncores b)), host0) (done, h) /\ Forall (fun w => w = []) done.
