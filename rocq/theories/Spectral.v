(** Model of the spectral plots: plot/plotter.py:104-112 (Jy), 564-736 [plot_spec], 738-851 [plot_unfolded], 1314-1400 and 1497-1591 (the
    text that asks for plots), and plot/data.py:156-166 [photon_egrid], 227-248, 355-391 and 731-762 [unfolded_model].
    Colours, line widths and axis limits are not modelled; text is ASCII. *)
From Coq Require Import Ascii String.
From Verif Require Import RBase Base Data Namespace HelperData ModelAlg Config Results Summary Intensity PlotCache PlotCurves PlotSettings.
From Coq Require Import List.
Open Scope list_scope.
Open Scope R_scope.

(** ** the text that asks for plots *)
(** [re.split(r'\s+', s)]: the first piece and the others; [sep]: the character before is white space *)
Fixpoint cut (sep : bool) (s : str) : str * list str :=
  match s with
  | [] => ([], [])
  | c :: r =>
      if is_space c then if sep then cut true r else let '(w, l) := cut true r in ([], w :: l)
      else let '(w, l) := cut false r in (c :: w, l)
  end.
Definition resplit (s : str) : list str := let '(w, l) := cut false s in w :: l.
(** 1295-1311 and 1477-1495 [_supported] *)
Definition supported_mle : list str :=
  map s2l ["data"; "r"; "rd"; "rp"; "rq"; "ne"; "ene"; "eene"; "Fv"; "FvJy"; "vFv"; "corner"; "gof"; "qq"; "pit"]%string.
Definition supported_post : list str := supported_mle ++ map s2l ["trace"; "khat"]%string.
(** 1356-1368, 1372 *)
Definition spec_words : list str := map s2l ["data"; "ne"; "ene"; "eene"; "Fv"; "FvJy"; "vFv"; "r"; "rd"; "rp"; "rq"]%string.
Definition residual_words : list str := map s2l ["r"; "rd"; "rp"; "rq"]%string.
(** the arguments of [plot_spec]; [a_res]: no residuals, those of the configuration, or the named ones *)
Record spec_args := { a_data : bool; a_ne : bool; a_ene : bool; a_eene : bool; a_res : option (option rtype); a_Fv : bool; a_vFv : bool; a_FvJy : bool }.
Definition residual_arg (w : str) : option rtype :=
  if str_eqb w (s2l "rd") then Some RD else if str_eqb w (s2l "rp") then Some RP else if str_eqb w (s2l "rq") then Some RQ else None.
(** 1371-1378 *)
Definition residuals_of (plots : list str) : option (option rtype) :=
  match rev (filter (fun w => str_in w residual_words) plots) with [] => None | w :: _ => Some (residual_arg w) end.
Definition any_of (ws : list string) (plots : list str) : bool := existsb (fun w => str_in (s2l w) plots) ws.
(** 1379-1388 *)
Definition spec_of (plots : list str) : spec_args :=
  {| a_data := str_in (s2l "data") plots; a_ne := str_in (s2l "ne") plots; a_ene := any_of ["ene"; "Fv"; "FvJy"]%string plots;
     a_eene := any_of ["eene"; "vFv"]%string plots; a_res := residuals_of plots;
     a_Fv := str_in (s2l "Fv") plots; a_vFv := str_in (s2l "vFv") plots; a_FvJy := str_in (s2l "FvJy") plots |}.
(** the figures made: their keys in the returned dictionary, and the arguments of the spectral one *)
Inductive action := ASpec (a : spec_args) | AOther.
(** 1347-1400, 1536-1591; [others]: corner, gof, qq and pit, and for posteriors trace and khat *)
Definition others_mle : list str := map s2l ["corner"; "gof"; "qq"; "pit"]%string.
Definition others_post : list str := others_mle ++ map s2l ["trace"; "khat"]%string.
Definition figures (supported others : list str) (text : str) : res (list (str * action)) :=
  let plots := resplit text in
  if existsb (fun p => negb (str_in p supported)) plots then Err ValueError else
  Ok ((if existsb (fun w => str_in w plots) spec_words then [(s2l "spec", ASpec (spec_of plots))] else []) ++
      map (fun w => (w, AOther)) (filter (fun w => str_in w plots) others)).
Definition figures_mle : str -> res (list (str * action)) := figures supported_mle others_mle.
Definition figures_post : str -> res (list (str * action)) := figures supported_post others_post.

(** ** the panels of a spectral plot: 621-704 *)
Inductive quantity := NE | ENE | EENE.
Inductive ylabel := LNe | LEne | LFv | LFvJy | LEene | LvFv.
Inductive panel := PData | PModel (q : quantity) (l : ylabel) | PResiduals (r : rtype).
(** 787-803 *)
Definition label_of (q : quantity) (Fv vFv FvJy : bool) : ylabel :=
  match q with NE => LNe | ENE => if FvJy then LFvJy else if Fv then LFv else LEne | EENE => if vFv then LvFv else LEene end.
(** 621-629: no row is an error of matplotlib *)
Definition panels (cfg : config) (a : spec_args) : res (list panel) :=
  let l := (if a_data a then [PData] else []) ++
    (if a_ne a then [PModel NE (label_of NE false false false)] else []) ++
    (if a_ene a then [PModel ENE (label_of ENE (a_Fv a) false (a_FvJy a))] else []) ++
    (if a_eene a then [PModel EENE (label_of EENE false (a_vFv a) false)] else []) ++
    (match a_res a with None => [] | Some None => [PResiduals (c_residuals cfg)] | Some (Some r) => [PResiduals r] end) in
  match l with [] => Err ValueError | _ => Ok l end.

(** ** the curves of an unfolded model *)
(** data.py:156-166 *)
Definition shown_grid (g emin emax : list R) : res (list R) :=
  match emin, emax with
  | e0 :: _, _ :: _ => Ok (filter (fun e => Rleb e0 e && Rleb e (last emax 0))%bool g)
  | _, _ => Err IndexError
  end.
(** 114-122 *)
Definition unfold (q : quantity) (f : spectrum) (g : list R) : list R := match q with NE => ne f g | ENE => ene f g | EENE => eene f g end.
(** a maximum likelihood fit, with the parameters of the bootstrap fits if there are, or the samples of a posterior; there are always parameters *)
Inductive fit := FitMle (mle : dict R) (boot : option (list (dict R))) | FitPost (rows : list (dict R)).
Definition has_comps (m : cmodel) : bool := (2 <=? length (m_parts m))%nat.
(** the total has the empty name *)
Definition parts (comps : bool) (m : cmodel) : list (str * (dict R -> spectrum)) := if comps then m_parts m else [([], m_total m)].
(** [np.quantile(rows, 0.5 + cl[:, None] * [-0.5, 0.5], axis=0)] *)
Definition band (w : nat) (rows : list (list R)) (cl : R) : res (list R * list R) :=
  bind (quantile_rows w rows (0.5 + cl * -0.5)) (fun lo => bind (quantile_rows w rows (0.5 + cl * 0.5)) (fun hi => Ok (lo, hi))).
Definition bands (w : nat) (rows : list (list R)) (cl : list R) : res (list (list R * list R)) := mapE (band w rows) cl.
Definition on_parts {V} (f : (dict R -> spectrum) -> res V) (l : list (str * (dict R -> spectrum))) : res (dict V) :=
  mapE (fun c => bind (f (snd c)) (fun v => Ok (fst c, v))) l.
(** 355-391 and 731-762; [params]: the user's values ([] for [None]) *)
Definition unfolded_model (ft : fit) (q : quantity) (m : cmodel) (g : list R) (params : dict R) (comps : bool) (cl : option (list R)) :
    res (dict (list R) * option (dict (list (list R * list R)))) :=
  if match cl with Some cl => negb (forallb (fun c => Rltb 0 c && Rltb c 1)%bool cl) | None => false end then Err AssertionError else
  let comps := (comps && has_comps m)%bool in
  let w := (length g - 1)%nat in
  let at_ (S : dict R -> spectrum) (p : dict R) := unfold q (S (puts p params)) g in
  match ft with
  | FitMle mle boot =>
      bind (on_parts (fun S => Ok (at_ S mle)) (parts comps m)) (fun model =>
      match cl, boot with
      | Some cl, Some rows => bind (on_parts (fun S => bands w (map (at_ S) rows) cl) (parts comps m)) (fun ci => Ok (model, Some ci))
      | _, _ => Ok (model, None)
      end)
  | FitPost rows =>
      bind (on_parts (fun S => quantile_rows w (map (at_ S) rows) 0.5) (parts comps m)) (fun model =>
      match cl with
      | Some cl => bind (on_parts (fun S => bands w (map (at_ S) rows) cl) (parts comps m)) (fun ci => Ok (model, Some ci))
      | None => if comps then Ok (model, None) else Err TypeError (* [None[:, None]] 758 *)
      end)
  end.

(** ** drawing: plotter.py *)
(** 104-112 *)
Definition fv_to_jy : R := 4135667696923858 / 10 ^ 10.
Definition to_jy (l : ylabel) (v : list R) : list R := match l with LFvJy => map (fun x => x * fv_to_jy) v | _ => v end.
(** what is drawn for a data set: a full line and bands for the total, dotted lines for the components *)
Record drawing := { w_name : str; w_line : list polyline; w_bands : option (list (list area)); w_comps : list (str * list polyline) }.
(** a data set as seen by the plots *)
Record pdata := { pd_name : str; pd_egrid : list R; pd_emin : list R; pd_emax : list R; pd_model : cmodel }.
Definition lefts (g : list R) : list R := removelast g.
Definition rights (g : list R) : list R := tl g.
(** 807-851; [egrid]: the user's photon energy grids *)
Definition draw_data (ft : fit) (cfg : config) (q : quantity) (l : ylabel) (params : dict R) (egrid : dict (list R)) (d : pdata) : res drawing :=
  bind (shown_grid (pd_egrid d) (pd_emin d) (pd_emax d)) (fun g0 => (* [egrid.get(name, data.photon_egrid)] evaluates both *)
  let g := match get egrid (pd_name d) with Some g => g | None => g0 end in
  bind (unfolded_model ft q (pd_model d) g params false (Some (c_cl cfg))) (fun mc =>
  bind (opt_err KeyError (get (fst mc) [])) (fun v =>
  bind (plot_step (lefts g) (rights g) (to_jy l v)) (fun line =>
  bind (match snd mc with
        | None => Ok None
        | Some ci => bind (opt_err KeyError (get ci [])) (fun b =>
            bind (plot_ribbon (lefts g) (rights g) (map (fun lh => (to_jy l (fst lh), to_jy l (snd lh))) b)) (fun r => Ok (Some r)))
        end) (fun rib =>
  bind (if (c_comps cfg && has_comps (pd_model d))%bool
        then bind (unfolded_model ft q (pd_model d) g params true None) (fun mc =>
             mapE (fun c : str * list R => bind (plot_step (lefts g) (rights g) (to_jy l (snd c))) (fun p => Ok (fst c, p))) (fst mc))
        else Ok []) (fun comps =>
  Ok {| w_name := pd_name d; w_line := line; w_bands := rib; w_comps := comps |})))))).
(** 773-785; a user's value that is not a scalar is [None] *)
Definition scalars (params : dict (option R)) : res (dict R) := mapE (fun kv : str * option R => bind (opt_err ValueError (snd kv)) (fun v => Ok (fst kv, v))) params.
Definition plot_unfolded (ft : fit) (cfg : config) (data : list pdata) (q : quantity) (params : dict (option R)) (egrid : dict (list R)) (Fv vFv FvJy : bool) : res (ylabel * list drawing) :=
  bind (scalars params) (fun params =>
  if (FvJy && negb (match q with ENE => true | _ => false end))%bool then Err ValueError else
  let l := label_of q Fv vFv FvJy in
  bind (mapE (draw_data ft cfg q l params egrid) data) (fun ds => Ok (l, ds))).
