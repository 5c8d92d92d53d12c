(** Model of the parameter bookkeeping of infer/helper.py: [get_helper] (names, vectors and
    dictionaries of parameters) and [check_params]. *)
From Verif Require Import Base Expr Composite Namespace ModelInfo.
From Coq Require Import Ascii List.
Import ListNotations.
Open Scope list_scope.

(** ** the printed table of [get_model_info], models/model.py:2286-2351: for every row, whether the
    first column [idx] is non-empty, the component and the parameter *)
Definition has_idx (c : psetup) : bool := match c with Free | Composed => true | _ => false end.
Definition info_table (kind : nat -> pkind) (cname : nat -> str) (comps : list comp) (mi : minfo) : list (bool * str * str) :=
  map (fun se => (has_idx (snd (snd (snd se))), cname (fst (fst se)), snd (fst se))) (combine (slots_of comps) (mi_setup mi)) ++
  map (fun e => (negb (pfixed kind (snd e)), [], name_of mi (fst e)))
      (filter (fun e => negb (existsb (Nat.eqb (fst e)) (mi_cp mi)) && negb (is_comp (snd e)))%bool (mi_info mi)).

Definition mem (n : str) (l : list str) : bool := existsb (str_eqb n) l.
(** [list.index] *)
Fixpoint index_of (l : list str) (n : str) : option nat :=
  match l with [] => None | x :: r => if str_eqb n x then Some O else option_map S (index_of r n) end.
(** [sorted(l, key=names.index)]: the key is evaluated on every element first *)
Fixpoint insert_by (key : str -> nat) (x : str) (l : list str) : list str :=
  match l with [] => [x] | y :: r => if (key x <=? key y)%nat then x :: l else y :: insert_by key x r end.
Definition sort_by (key : str -> nat) (l : list str) : list str := fold_right (insert_by key) [] l.
Definition sorted_index (names l : list str) : res (list str) :=
  bind (mapR (fun n => opt_res ValueError (index_of names n)) l) (fun _ =>
  Ok (sort_by (fun n => match index_of names n with Some k => k | None => O end) l)).

(** infer/helper.py:1060-1063 [params_names] of [Helper] *)
Record pnames := { pn_free : list str; pn_determ : list str; pn_interest : list str; pn_all : list str }.
(** infer/helper.py:372-385 *)
Definition helper_names (kind : nat -> pkind) (cname : nat -> str) (comps : list comp) (mi : minfo) : res pnames :=
  let rows := info_table kind cname comps mi in
  let all := flat_map (fun r : bool * str * str => let '(idx, c, p) := r in if idx then [match c with [] => p | _ => dotted c p end] else []) rows in
  let interest := flat_map (fun r : bool * str * str => let '(idx, c, p) := r in match idx, c with true, _ :: _ => [dotted c p] | _, _ => [] end) rows in
  let prior := map fst (name_dict mi (mi_sample mi)) in (* keys of [params_prior], 305-307 *)
  bind (sorted_index all prior) (fun free =>
  bind (sorted_index all (map (name_of mi) (mi_determ mi))) (fun det =>
  if forallb (fun n => mem n all) (free ++ det) && forallb (fun n => mem n (free ++ det)) all
  then Ok {| pn_free := free; pn_determ := det; pn_interest := interest; pn_all := all |}
  else Err RuntimeError))%bool.

(** ** vectors and dictionaries, infer/helper.py:393-443 *)
Definition dict (V : Type) := list (str * V).
Section Vectors.
Context {V : Type}.
Variable free : list str.
(** [arr_to_dic], 394-398: the assertion, then [dict(zip(strict=True))] *)
Definition arr_to_dic (arr : list V) : res (dict V) :=
  if (length arr =? length free)%nat then Ok (fold_left (fun d p => put d (fst p) (snd p)) (combine free arr) []) else Err AssertionError.
(** [dic_to_arr], 400-403 *)
Definition dic_to_arr (d : dict V) : res (list V) := mapR (fun n => opt_res KeyError (get d n)) free.
(** numpyro's [constrain_fn] (without the deterministic sites) and [unconstrain_fn] applied to a
    dictionary: every entry goes through the bijection of its own site *)
Definition transform (T : str -> V -> V) (d : dict V) : dict V := map (fun kv => (fst kv, T (fst kv) (snd kv))) d.
(** the two directions of the bijections of the sites, helper.py:405-410 *)
Record bijections := { to_support : str -> V -> V; from_support : str -> V -> V }.
Variable B : bijections.
(** 405-416 *)
Definition unconstr_arr_to_constr_dic (arr : list V) : res (dict V) := bind (arr_to_dic arr) (fun d => Ok (transform (to_support B) d)).
(** 417-428 *)
Definition constr_arr_to_unconstr_dic (arr : list V) : res (dict V) := bind (arr_to_dic arr) (fun d => Ok (transform (from_support B) d)).
(** 429-435 *)
Definition constr_arr_to_unconstr_arr (arr : list V) : res (list V) := bind (constr_arr_to_unconstr_dic arr) dic_to_arr.
(** 437-443 *)
Definition constr_dic_to_unconstr_arr (d : dict V) : res (list V) := bind (dic_to_arr d) constr_arr_to_unconstr_arr.
End Vectors.

(** ** the values of all parameters, infer/helper.py:331-367 and 457-482, 524-531 *)
Section Sites.
Context {V : Type} (A : alg V) (dflt : nat -> V).
Variables (T : str -> V -> V) (mi : minfo) (pn : pnames).
(** [deterministic[pid]], which is [pid_to_value[pid]] *)
Definition determ_value (m : nat -> option V) (i : nat) : res V :=
  bind (opt_res KeyError (if existsb (Nat.eqb i) (mi_cp mi) then dget (mi_info mi) i else None)) (fun p =>
  Ok (pvalue A (overlay dflt mi m) dflt p)).
(** the sites of the numpyro model given unconstrained values of the free parameters: the sampled ones,
    then the deterministic ones.  [pname_to_pid] is the inverse of the name dictionary, 301-303. *)
Definition pname_to_pid : list (str * nat) := fold_left (fun d e => put d (snd e) (fst e)) (mi_name mi) [].
Definition param_sites (u : dict V) : res (dict V) :=
  bind (mapR (fun n => bind (opt_res KeyError (get u n)) (fun v => Ok (n, T n v))) (map fst (name_dict mi (mi_sample mi)))) (fun vals =>
  bind (mapR (fun nv => bind (opt_res KeyError (get pname_to_pid (fst nv))) (fun i => Ok (i, snd nv))) vals) (fun ids =>
  bind (mapR (fun i => bind (determ_value (dget ids) i) (fun v => Ok (name_of mi i, v))) (mi_determ mi)) (fun det =>
  Ok (vals ++ det)))).
(** [get_params] of [get_sites] *)
Definition get_params (sites : dict V) : res (dict V) :=
  mapR (fun n => bind (opt_res KeyError (get sites n)) (fun v => Ok (n, v))) (pn_all pn).
Definition params_of (arr : list V) : res (dict V) :=
  bind (arr_to_dic (pn_free pn) arr) (fun u => bind (param_sites u) get_params).
(** [unconstr_arr_to_params_array] *)
Definition params_array (arr : list V) : res (list V) :=
  bind (arr_to_dic (pn_free pn) arr) (fun u =>
  bind (dic_to_arr (pn_free pn) u) (fun a =>
  bind (params_of a) (fun d => mapR (fun n => opt_res KeyError (get d n)) (pn_all pn)))).
(** 444-455 [free_default['constr_arr']] *)
Definition default_arr : res (list V) :=
  let d := fold_left (fun d i => put d (name_of mi i) (dflt i)) (mi_sample mi) [] in
  dic_to_arr (pn_free pn) d.
End Sites.

(** ** infer/helper.py:45-101 [check_params] *)
Inductive request := RNone | RStr (n : str) | RIter (l : list str) | ROther.
Inductive cerr :=
| NotExist (l : list str) | NotParams | Linked (l : list (str * str)) | AreFixed (l : list str) | AreIntegrated (l : list str) | NoIndex.
Inductive cres := Accept (l : list str) | Reject (e : cerr).
(** a python set is represented by the list of its elements; the result below does not depend on the order *)

Definition set_of (l : list str) : list str := nodup str_eq_dec l.
Definition same_setup (c c' : psetup) : bool :=
  match c, c' with Forwarded, Forwarded | Fixed, Fixed | Integrated, Integrated => true | _, _ => false end.
(** the names with a given setup: 51-59 *)
Definition having (setup : list (str * (str * psetup))) (c : psetup) (n : str) : bool :=
  existsb (fun e => str_eqb n (fst e) && same_setup (snd (snd e)) c)%bool setup.
Definition target (setup : list (str * (str * psetup))) (n : str) : str := match get setup n with Some (t, _) => t | None => [] end.
(** 83-101 *)
Definition finish (pn : pnames) (setup : list (str * (str * psetup))) (params : list str) : cres :=
  match filter (having setup Forwarded) params with
  | (_ :: _) as l => Reject (Linked (map (fun n => (n, target setup n)) l))
  | [] => match filter (having setup Fixed) params with
          | (_ :: _) as l => Reject (AreFixed l)
          | [] => match filter (having setup Integrated) params with
                  | (_ :: _) as l => Reject (AreIntegrated l)
                  | [] => match sorted_index (pn_all pn) params with Ok l => Accept l | Err _ => Reject NoIndex end
                  end
          end
  end.
Definition check_params (pn : pnames) (setup : list (str * (str * psetup))) (r : request) : cres :=
  let exists_ n := (mem n (pn_all pn) || mem n (map fst setup))%bool in
  match r with
  | RNone => finish pn setup (set_of (pn_interest pn))
  | RStr n => if exists_ n then finish pn setup [n] else Reject (NotExist [n])
  | RIter l => let params := set_of l in
               if forallb exists_ params then finish pn setup params
               else Reject (NotExist (filter (fun n => negb (mem n (pn_all pn))) params))
  | ROther => Reject NotParams
  end.
