(** Model of plot/misc.py: corner and trace plots.  float64 is [R]; what matplotlib, corner and arviz draw from the values
    handed to them is not modelled, nor are the kernel density estimates (290, 311).  A posterior is a list of parameters
    with their samples, one list of draws per chain. *)
From Coq Require Import Ascii String ZArith.
From Verif Require Import RBase Base Namespace HelperData Data Summary Report Colors.
From Coq Require Import List.
Import ListNotations.
Open Scope list_scope.
Open Scope R_scope.

Definition post := list (str * list (list R)).
(** a text, several texts or nothing *)
Inductive texts := NoTexts | OneText (t : str) | Texts (l : list str).
Definition given (a : texts) (default : list str) : list str :=
  match a with NoTexts => default | OneText t => [t] | Texts l => l end.
(** one number, several or nothing *)
Inductive numbers := NoNumbers | OneNumber (x : R) | Numbers (l : list R).

Definition samples (p : post) (n : str) : list R := match get p n with Some c => concat c | None => [] end.

(** 148-156 [vmin], [vmax] *)
Definition extremes (l : list R) : R * R := (lmin l, lmax l).
(** 148-155: the range of a parameter is two limits, or ([None]) the number 0.99 *)
Definition ranges (p : post) (names : list str) : option (list (option (R * R))) :=
  let ext n := extremes (samples p n) in
  let constant n := Reqb (fst (ext n)) (snd (ext n)) in
  if existsb constant names then Some (map (fun n => if constant n then None else Some (ext n)) names) else None.

Record corner := { co_names : list str; co_titles : list (str * report); co_labels : list str; co_levels : list R;
                   co_lines : list str; co_areas : list str; co_points : str; co_range : option (list (option (R * R))) }.

(** 72-178 [plot_corner].  79-86: [posterior[params]] refuses what is neither a parameter nor a coordinate, which comes
    before the check of the function itself; a median of several values is the quantile at one half.  A title is a text
    with the report of util/misc.py:442-520 (default settings).  175: the colour of the points is the first of the areas. *)
Definition plot_corner (p : post) (coords : list str) (params titles labels : texts) (levels : numbers)
    (color : option str) (range : option (list (option (R * R)))) : res corner :=
  let names := given params (map fst p) in
  if negb (forallb (fun n => str_in n (map fst p) || str_in n coords)%bool names) then Err KeyError else
  if negb (forallb (fun n => str_in n (map fst p)) names) then Err ValueError else
  let titles := given titles names in
  if negb (length titles =? length names)%nat then Err AssertionError else
  let labels := given labels names in
  if negb (length labels =? length names)%nat then Err AssertionError else
  bind (mapE (fun '(t, n) =>
    bind (quantile (samples p n) 0.5) (fun mid =>
    bind (quantile (samples p n) 0.15865) (fun lo =>
    bind (quantile (samples p n) 0.84135) (fun hi =>
    bind (report_interval mid lo hi 2 1 2) (fun r => Ok (t, r)))))) (combine titles names)) (fun shown =>
  bind (match levels with NoNumbers => Ok [0.683; 0.95] | Numbers l => Ok l | OneNumber _ => Err TypeError end) (fun levels =>
  let color := match color with None => s2l "#205295" | Some c => c end in
  bind (get_contour_colors color (Z.of_nat (length levels)) 0.8 2 0.72) (fun '(lines, areas) =>
  let range := match range with None => ranges p names | r => r end in
  match areas with
  | [] => Err IndexError
  | c :: _ => Ok {| co_names := names; co_titles := shown; co_labels := labels; co_levels := levels;
                    co_lines := lines; co_areas := areas; co_points := c; co_range := range |}
  end))).

(** ** traces *)
(** [draw[::step]] *)
Fixpoint every (step skip : nat) (l : list R) : list R :=
  match l with [] => [] | x :: r => match skip with O => x :: every step (step - 1) r | S k => every step k r end end.
(** 277-279 *)
Definition bandwidth (ndraw : nat) : nat := Nat.max (ndraw / 100) 10.
(** what is drawn for one chain: the samples and the smoothed curve over the draws, and the samples over the deviances *)
Record curve := { cu_x : list R; cu_y : list R; cu_at : list R; cu_smooth : list (option R); cu_dev : list R }.
Record panel := { pa_label : str; pa_log : bool; pa_curves : list curve;
                  pa_marks : list (R * option R * R) (* draw, height of the tick, sample *) }.

(** 290-317 for one chain, number [c] of [nchain] *)
Definition trace_of (log_scale : bool) (draw : list R) (nchain c : nat) (sample loglike : list R) : res curve :=
  let bw := bandwidth (length draw) in
  let at_ := every (bw / 2) 0 draw in
  let y := if log_scale then map ln sample else sample in
  bind (gaussian_kernel_smooth draw y (INR bw) (Some at_) 0.683) (fun s =>
  Ok {| cu_x := map (fun d => d + INR c / INR nchain) draw; cu_y := sample; cu_at := at_;
        cu_smooth := if log_scale then map (option_map exp) s else s; cu_dev := map (fun l => -2 * l) loglike |}).

(** [nonzero] of the flags of all chains: row by row, the places of the true ones *)
Fixpoint trues (i : nat) (l : list bool) : list nat :=
  match l with [] => [] | b :: r => if b then i :: trues (S i) r else trues (S i) r end.
Fixpoint nonzero (c : nat) (f : list (list bool)) : list (nat * nat) :=
  match f with [] => [] | l :: r => map (fun d => (c, d)) (trues 0 l) ++ nonzero (S c) r end.

(** 322-333: the top of a mark on an axis with limits [ylim]; the logarithm of what is not positive is no number *)
Definition mark_top (word : str) (ylim : R * R) : option R :=
  let '(lo, hi) := ylim in
  if str_eqb word (s2l "linear") then Some (lo + 0.1 * (hi - lo))
  else if (Rltb 0 lo && Rltb 0 hi)%bool then Some (lo * exp (0.1 * (ln hi - ln lo))) else None.

Fixpoint mapiE {A B} (f : nat -> A -> res B) (i : nat) (l : list A) : res (list B) :=
  match l with [] => Ok [] | a :: r => bind (f i a) (fun b => bind (mapiE f (S i) r) (fun bs => Ok (b :: bs))) end.

(** 206-343 [plot_trace]: [loglike] are the total log likelihoods, [divs] the flags of divergence (if there are any), [ylim]
    tells the limits matplotlib chooses for the axis of a parameter *)
Definition plot_trace (p : post) (loglike : list (list R)) (draw : list R) (divs : option (list (list bool))) (ylim : nat -> R * R)
    (params scale labels : texts) : res (list panel) :=
  let names := given params (map fst p) in
  if negb (forallb (fun n => str_in n (map fst p)) names) then Err ValueError else
  let idx := match divs with Some f => nonzero 0 f | None => [] end in
  let words := match scale with NoTexts => repeat (s2l "linear") (length names) | OneText w => repeat w (length names) | Texts l => l end in
  if negb (length words =? length names)%nat then Err ValueError else
  let labels := given labels names in
  if negb (length labels =? length names)%nat then Err ValueError else
  mapiE (fun i '(n, (word, label)) =>
    let chains := match get p n with Some c => c | None => [] end in
    let log_scale := (str_eqb word (s2l "log") && forallb (fun x => Rltb 0 x) (concat chains))%bool in
    bind (mapiE (fun c '(sample, ll) => trace_of log_scale draw (length chains) c sample ll) 0 (combine chains loglike)) (fun curves =>
    Ok {| pa_label := label; pa_log := log_scale; pa_curves := curves;
          pa_marks := map (fun '(c, d) => (INR d, mark_top word (ylim i), nth d (nth c chains []) 0)) idx |}))
    0 (combine names (combine words labels)).
