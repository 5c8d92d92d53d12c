(** Model of plot/plotter.py:853-933 [plot_folded], [plot_ce] and 1691-1731 [plot_khat], with the parts of plot/data.py they read
    (338-353, 688-691, 718-729) and data/base.py:316-322 (middles and errors of channels). Colours, markers and line widths are left out. *)
From Verif Require Import RBase Base Data Namespace HelperData Summary PlotCache PlotCurves ChanLabels Spectral.
From Coq Require Import List.
Import ListNotations.
Open Scope list_scope.
Open Scope R_scope.

(** a data set as these plots see it: labels, energies, rate per energy and its errors of its channels *)
Record cdata := { cd_name : str; cd_labels : list str; cd_emin : list R; cd_emax : list R; cd_ce : list R; cd_err : list R }.

(** base.py:316-322 and plotter.py:915-916, 1708-1711: place of a channel and lengths of its horizontal error bar to the left and to the right *)
Definition xbar (log : bool) (lo hi : R) : R * (R * R) :=
  if log then let m := sqrt (lo * hi) in (m, (Rabs (lo - m), Rabs (hi - m))) else (0.5 * (lo + hi), (0.5 * (hi - lo), 0.5 * (hi - lo))).
Definition xbars (log : bool) (d : cdata) : list (R * (R * R)) := map (fun e => xbar log (fst e) (snd e)) (combine (cd_emin d) (cd_emax d)).

(** plotter.py:896-933: for each data set the points with their horizontal and vertical bars; the number of columns of the legend
    ([int(np.ceil(n / 4))]) *)
Definition ce_points (log : bool) (d : cdata) : list (R * (R * R) * (R * R)) := combine (xbars log d) (combine (cd_ce d) (cd_err d)).
Definition legend_columns (n : nat) : nat := if (5 <? n)%nat then ((n + 3) / 4)%nat else 1%nat.
Definition plot_ce (log : bool) (ds : list cdata) : list (str * list (R * (R * R) * (R * R))) * nat :=
  (map (fun d => (cd_name d, ce_points log d)) ds, legend_columns (length ds)).

(** the folded model of a data set: of the best fit, with those of the bootstrap fits if there are, or of the posterior draws *)
Inductive folded := FoldMle (model : list R) (boot : option (list (list R))) | FoldPost (rows : list (list R)).
(** data.py:339-340, 719-720 with 689-691 *)
Definition folded_model (n : nat) (f : folded) : res (list R) := match f with FoldMle m _ => Ok m | FoldPost rows => quantile_rows n rows 0.5 end.
(** data.py:343-353, 723-729 *)
Definition folded_ci (n : nat) (f : folded) (cl : R) : res (option (list R * list R)) :=
  match (match f with FoldMle _ b => b | FoldPost rows => Some rows end) with
  | None => Ok None
  | Some rows => if (Rltb 0 cl && Rltb cl 1)%bool then bind (band n rows cl) (fun b => Ok (Some b)) else Err AssertionError
  end.
(** plotter.py:866-894 for one data set *)
Definition draw_folded (cl : list R) (d : cdata) (f : folded) : res (list polyline * option (list (list area))) :=
  let n := length (cd_emin d) in
  bind (folded_model n f) (fun m =>
  bind (plot_step (cd_emin d) (cd_emax d) m) (fun line =>
  bind (mapE (folded_ci n f) cl) (fun qs =>
  let quantiles := flat_map (fun q => match q with Some b => [b] | None => [] end) qs in
  match quantiles with
  | [] => Ok (line, None)
  | _ => bind (plot_ribbon (cd_emin d) (cd_emax d) quantiles) (fun r => Ok (line, Some r))
  end))).

(** plotter.py:1691-1731; [labels], [khat]: the Pareto shapes stored with the labels of all channels ([None]: not a number); result: whether
    the line at 0.7 is drawn, and for each data set the points and the crosses over them *)
Definition over (k : option R) : bool := match k with Some x => Rltb 0.7 x | None => false end.
Definition khat_of (log : bool) (labels : list str) (khat : list (option R)) (d : cdata) :
  res (str * list (R * (R * R) * option R) * list (R * option R)) :=
  bind (sel labels khat (cd_labels d)) (fun v =>
  let pts := combine (xbars log d) v in
  Ok (cd_name d, pts, map (fun p : R * (R * R) * option R => (fst (fst p), snd p)) (filter (fun p => over (snd p)) pts))).
Definition plot_khat (log : bool) (labels : list str) (khat : list (option R)) (ds : list cdata) :=
  bind (mapE (khat_of log labels khat) ds) (fun l => Ok (existsb over khat, l)).
