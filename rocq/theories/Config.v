(** Model of util/config.py: the settings of the computation environment. *)
From Coq Require Import Ascii String.
From Verif Require Import Base Namespace.
From Coq Require Import List.
Open Scope list_scope.

(** ASCII whitespace of python: [\s] of [re] and [str.split()] *)
Definition is_space (c : ascii) : bool := let n := nat_of_ascii c in ((9 <=? n) && (n <=? 13) || (28 <=? n) && (n <=? 32))%nat%bool.
(** [str.split()]: the run of non-whitespace the string starts with (maybe empty), and the words behind it *)
Definition cons_ne (w : str) (l : list str) : list str := match w with [] => l | _ => w :: l end.
Fixpoint first_words (s : str) : str * list str :=
  match s with
  | [] => ([], [])
  | c :: r => let '(w, l) := first_words r in if is_space c then ([], cons_ne w l) else (c :: w, l)
  end.
Definition py_split (s : str) : list str := let '(w, l) := first_words s in cons_ne w l.
(** [' '.join] *)
Definition blank : ascii := " "%char.
Fixpoint join (l : list str) : str := match l with [] => [] | [w] => w | w :: r => w ++ blank :: join r end.
(** [str(n)] for an integer *)
Definition int_str (n : Z) : str := if (n <? 0)%Z then "-"%char :: nat_str (Z.to_nat (- n)) else nat_str (Z.to_nat n).

Definition count_flag : str := s2l "--xla_force_host_platform_device_count=".
(** does the regular expression [--xla_force_host_platform_device_count=\S+] match at the start of the string? *)
Fixpoint matches (pat s : str) : bool :=
  match pat, s with
  | [], c :: _ => negb (is_space c)
  | p :: pat', c :: s' => if ascii_dec p c then matches pat' s' else false
  | _, [] => false
  end.
(** [re.sub(pattern, '', s)], 82-84; [dropping] inside a match, which extends to the next whitespace *)
Fixpoint strip (dropping : bool) (s : str) : str :=
  match s with
  | [] => []
  | c :: r => if (dropping && negb (is_space c))%bool then strip true r
              else if matches count_flag s then strip true r else c :: strip false r
  end.
(** 62-89 [set_cpu_cores]: the new value of the environment variable XLA_FLAGS (the empty string stands for "not set"),
    and whether it warned *)
Definition set_cpu_cores (total : nat) (xla_flags : str) (n : Z) : str * bool :=
  let warned := (Z.of_nat total <? n)%Z in
  let n := if warned then (Z.of_nat total - 1)%Z else n in
  (join ((count_flag ++ int_str n) :: py_split (strip false xla_flags)), warned).

(** 19-29 [jax_enable_x64]: the environment variable JAX_ENABLE_X64 is a string if set; [bool] of a string *)
Definition jax_enable_x64 (env : option str) (use_x64 : bool) : bool :=
  if use_x64 then true else match env with None => false | Some [] => false | Some _ => true end.
(** 32-48 [set_jax_platform] *)
Definition platforms : list str := [s2l "cpu"; s2l "gpu"; s2l "tpu"].
Definition set_jax_platform (env platform : option str) : res str :=
  let p := match platform with Some p => p | None => match env with Some e => e | None => s2l "cpu" end end in
  if str_in p platforms then Ok p else Err AssertionError.
