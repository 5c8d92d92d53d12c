(** Model of the diagnostic plots with one panel per data set: plot/plotter.py:1052-1150 [plot_qq], 1152-1212 [plot_pit] and
    1214-1290 [plot_gof].  Colours, labels and axis limits are not modelled; a panel is what is drawn into it.  The residuals, their
    simulations, transforms and deviances of the data sets are arguments (see PlotCache.v, Residuals.v, LooPit.v and Results.v). *)
From Coq Require Import Ascii String.
From Verif Require Import RBase Base Data Namespace HelperData Results Summary PlotCurves.
From Coq Require Import List.
Open Scope list_scope.
Open Scope R_scope.

Definition total_name : str := s2l "total".
(** ** the grid: 1104-1119, 1170-1185, 1247-1262 *)
(** the large panel, and the small ones in the order of [gs2.subplots(squeeze=False).ravel()] (two rows of [ncols]) *)
Inductive axis := Main | Small (i : nat).
Definition ncols (n : nat) : nat := if (n =? 1)%nat then 1%nat else (n / 2 + n mod 2)%nat.
Definition smalls (n : nat) : list axis := map Small (seq 0 (2 * ncols n)).
Definition hidden (n : nat) (a : axis) : bool :=
  match a with Main => false | Small i => if (n mod 2 =? 1)%nat then (i =? 2 * ncols n - 1)%nat else false end.
(** 1127, 1193, 1266: [{'total': ax1} | dict(zip(self.data.keys(), ax2[:n], strict=True))] *)
Definition axes_of (names : list str) : res (dict axis) :=
  let ax2 := firstn (length names) (smalls (length names)) in
  if (length names =? length ax2)%nat then Ok (puts [(total_name, Main)] (combine names ax2)) else Err ValueError.

(** a dictionary lookup *)
Definition item {V} (d : dict V) (k : str) : res V := match get d k with Some v => Ok v | None => Err KeyError end.
(** [np.hstack] of arrays with rows (simulations) *)
Definition hstack_rows (l : list (list (list R))) : res (list (list R)) :=
  match l with
  | [] => Err ValueError
  | a :: _ => if forallb (fun b => (length b =? length a)%nat) l
              then Ok (map (fun i => List.concat (map (fun b => nth i b []) l)) (seq 0 (length a))) else Err ValueError
  end.
(** [np.hstack] of vectors *)
Definition hstack (l : list (list R)) : res (list R) := match l with [] => Err ValueError | _ => Ok (List.concat l) end.

(** ** 1052-1150 [plot_qq] *)
(** the residuals of one data set: [q_sim] those of the simulated data (None: none, or quantile residuals), [q_obs use_mle] those of the data *)
Record qdata := { q_sim : option (list (list R)); q_obs : bool -> list R }.
Section QQ.
Variables (ppf : R -> R) (beta_ppf : R -> nat -> nat -> R).
Definition all_sims (l : list (option (list (list R)))) : option (list (list (list R))) :=
  if existsb (fun s => match s with None => true | Some _ => false end) l then None
  else Some (List.concat (map (fun s => match s with Some s => [s] | None => [] end) l)).
(** 1080-1102 *)
Definition qq_sims (data : dict qdata) : res (dict (option (list (list R)))) :=
  let rsim := map (fun e => (fst e, q_sim (snd e))) data in
  match all_sims (map snd rsim) with
  | None => Ok (put rsim total_name None)
  | Some l => bind (hstack_rows l) (fun t => Ok (put rsim total_name (Some t)))
  end.
Definition qq_values (data : dict qdata) (use_mle : bool) : res (dict (list R)) :=
  let r := map (fun e => (fst e, q_obs (snd e) use_mle)) data in
  bind (hstack (map snd r)) (fun t => Ok (put r total_name t)).
Definition plot_qq (data : dict qdata) (detrend : bool) : res (list (axis * qq_curves)) :=
  bind (qq_sims data) (fun rsim =>
  bind (item rsim total_name) (fun st =>
  bind (qq_values data (match st with Some _ => true | None => false end)) (fun r =>
  bind (axes_of (map fst data)) (fun axs =>
  mapE (fun e => bind (item r (fst e)) (fun q => bind (item rsim (fst e)) (fun s =>
    bind (get_qq ppf beta_ppf q detrend 0.95 s) (fun c => Ok (snd e, c))))) axs)))).
End QQ.

(** ** 1152-1212 [plot_pit]: [pits] holds [data.pit()[1]] *)
Definition ecdf_curves := (list R * list R * list R * list R * list R)%type.
Definition plot_pit (interval : nat -> R -> R * R) (pits : dict (list R)) (detrend : bool) : res (list (axis * ecdf_curves)) :=
  bind (hstack (map snd pits)) (fun t =>
  let pit := put pits total_name t in
  bind (axes_of (map fst pits)) (fun axs =>
  mapE (fun e => bind (item pit (fst e)) (fun p => Ok (snd e, get_pit_ecdf interval p detrend))) axs)).

(** ** 1214-1290 [plot_gof] *)
(** the result of the simulations: number of valid ones, deviances (of the data sets, total), p-values (None: NaN) *)
Record gof_sims := { g_n : nat; g_group : dict (list R); g_total : list R; g_p : dict (option R); g_ptotal : option R }.
(** what a panel shows: the curve, the line at the observed deviance, the p-value ([None]: the text [p < 1/n]) *)
Record gof_panel := { gp_x : list R; gp_y : list R; gp_obs : R; gp_p : option R }.
(** 1272: [sf = 1.0 - np.arange(1.0, n + 1.0) / n] *)
Definition survival (n : nat) : list R := map (fun i => 1 - INR i / INR n) (seq 1 n).
Definition gof_panel_of (n : nat) (obs : R) (sim : list R) (p : option R) : res gof_panel :=
  if (length sim =? n)%nat
  then Ok {| gp_x := sortR sim; gp_y := survival n; gp_obs := obs;
             gp_p := match p with Some x => if Rltb 0 x then Some x else None | None => None end |}
  else Err ValueError.
Definition plot_gof (names : list str) (obs : dict R) (obs_total : R) (sims : option gof_sims) : res (list (axis * gof_panel)) :=
  match sims with
  | None => Err RuntimeError
  | Some s =>
      let dev_obs := put obs total_name obs_total in
      let dev_sim := put (g_group s) total_name (g_total s) in
      let p_value := put (g_p s) total_name (g_ptotal s) in
      bind (axes_of names) (fun axs =>
      mapE (fun e => bind (item dev_obs (fst e)) (fun o => bind (item dev_sim (fst e)) (fun d => bind (item p_value (fst e)) (fun p =>
        bind (gof_panel_of (g_n s) o d p) (fun g => Ok (snd e, g)))))) axs)
  end.
