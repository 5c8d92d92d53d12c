(** Model of the texts that name parameters in plots: models/model.py:2173-2216 (the LaTeX, component LaTeX and unit mappings of
    [get_model_info]), infer/helper.py:283-297 and plot/plotter.py:514-558.  [plat i] is the LaTeX text of parameter [i]
    (a component parameter or an auxiliary one), [clat c] that of component [c] ([cid_to_latex]), [unit s] the unit written in the
    configuration of slot [s]; a dictionary view is built anew where the code caches it (no one changes it). *)
From Coq Require Import Ascii String.
From Verif Require Import Base Expr Composite Namespace ModelInfo UnitText.
From Coq Require Import List.
Import ListNotations.
Open Scope list_scope.

Section Labels.
Variables (h : heap) (comps : list comp) (clat plat : nat -> str) (unit : slot -> str) (mi : minfo).
Let cp i := get_comp_param (h_trk h i) (map c_id comps).
(** models/model.py:2154-2158 [aux_params] *)
Definition aux_ids : list nat :=
  map fst (filter (fun e => match cp (fst e) with Some _ => false | None => negb (is_comp (snd e)) end) (mi_info mi)).
(** a dict comprehension over components and their parameters *)
Definition slot_dict {V} (f : slot -> param -> V) : list (nat * V) :=
  fold_left (fun d s => match h_slot h s with Some p => dput d (pid p) (f s p) | None => d end) (slots_of comps) [].
(** 2174-2178 [comp_latex_mapping] *)
Definition comp_latex_mapping : list (nat * str) :=
  dunion (flat_map (fun e => match cp (fst e) with Some s => [(fst e, clat (fst s))] | None => [] end) (mi_info mi))
         (map (fun i => (i, [])) aux_ids).
(** 2180-2198 [latex_mapping] *)
Definition latex_mapping : list (nat * str) :=
  dunion (combine aux_ids (build_namespace (map plat aux_ids) true true)) (slot_dict (fun _ p => plat (pid p))).
(** 2200-2207 [unit_mapping] *)
Definition unit_mapping : list (nat * str) :=
  dunion (slot_dict (fun s _ => unit s)) (map (fun i => (i, [])) aux_ids).

(** infer/helper.py:283-297: [{pname: f(pid) for pid, pname in model_info.name.items()}] *)
Definition pname_table {V} (f : nat -> res V) : res (list (str * V)) :=
  bind (mapR (fun e => bind (f (fst e)) (fun v => Ok (snd e, v))) (mi_name mi)) (fun l =>
  Ok (fold_left (fun d e => put d (fst e) (snd e)) l [])).
Variable parse : str -> res (list ubase * str).
Definition params_latex := pname_table (fun i => opt_res KeyError (dget latex_mapping i)).
Definition params_unit := pname_table (fun i => bind (opt_res KeyError (dget unit_mapping i)) (fun u => get_unit_latex parse u false)).
Definition params_comp_latex := pname_table (fun i => opt_res KeyError (dget comp_latex_mapping i)).

(** plot/plotter.py:514-532 *)
Definition math (l : str) : str := s2l "$" ++ l ++ s2l "$".
Definition math_comp (c : str) : str := match c with [] => [] | _ => s2l "$" ++ c ++ s2l "$ " end.
(** 551-554; the first character is a line break *)
Definition in_brackets (u : str) : str := match u with [] => [] | _ => "010"%char :: s2l "[" ++ u ++ s2l "]" end.
Definition look {V} (d : list (str * V)) (n : str) : res V := opt_res KeyError (get d n).
(** the three tables are made with the helper, so an error in any of them comes first *)
Definition params_titles (all : list str) : res (list (str * str)) :=
  bind params_latex (fun L => bind params_unit (fun _ => bind params_comp_latex (fun C =>
  mapR (fun p => bind (look C p) (fun c => bind (look L p) (fun l => Ok (p, math_comp c ++ math l)))) all))).
Definition params_labels (all : list str) : res (list (str * str)) :=
  bind params_latex (fun L => bind params_unit (fun U => bind params_comp_latex (fun C =>
  mapR (fun p => bind (look C p) (fun c => bind (look L p) (fun l => bind (look U p) (fun u =>
    Ok (p, math_comp c ++ math l ++ in_brackets u))))) all))).
End Labels.
