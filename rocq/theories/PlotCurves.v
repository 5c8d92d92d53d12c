(** Model of the curves drawn by plot/plotter.py: quantile-quantile and PIT plots, step lines and ribbons. *)
From Verif Require Import RBase Base Data Results Summary PlotCache.
From Coq Require Import List.
Open Scope list_scope.
Open Scope R_scope.

(** ** plotter.py:115-154 [_get_qq]; [ppf] is the quantile function of the normal law, [beta_ppf p a b] that of a beta law *)
Record qq_curves := { qq_theor : list R; qq_q : list R; qq_line : list R; qq_lower : list R; qq_upper : list R }.
Section QQ.
Variables (ppf : R -> R) (beta_ppf : R -> nat -> nat -> R).
Definition qq_alpha : R := PI / 8.
Definition positions (n : nat) : list R := map (fun i => (INR i - qq_alpha) / (INR n - 2 * qq_alpha + 1)) (seq 1 n).
Definition theoretical (n : nat) : list R := map ppf (positions n).
(** [a -= theor] *)
Definition subtract (theor a : list R) : list R := zip2 Rminus a theor.
Definition get_qq (q : list R) (detrend : bool) (cl : R) (qsim : option (list (list R))) : res qq_curves :=
  let n := length q in
  let theor := theoretical n in
  let q := sortR q in
  bind (match qsim with
        | Some sims => let s := map sortR sims in
            bind (quantile_rows n s 0.5) (fun line => bind (quantile_rows n s (0.5 - 0.5 * cl)) (fun lower => bind (quantile_rows n s (0.5 + 0.5 * cl)) (fun upper => Ok (line, lower, upper))))
        | None => Ok (theor, map (fun i => ppf (beta_ppf (0.5 - cl * 0.5) i (n + 1 - i))) (seq 1 n), map (fun i => ppf (beta_ppf (0.5 + cl * 0.5) i (n + 1 - i))) (seq 1 n))
        end) (fun '(line, lower, upper) =>
  Ok (let sub := if detrend then subtract theor else fun a => a in
      {| qq_theor := theor; qq_q := sub q; qq_line := sub line; qq_lower := sub lower; qq_upper := sub upper |})).
End QQ.

(** ** plotter.py:157-185 [_get_pit_ecdf]; [interval n r] gives the ends of the central interval of the binomial law with [n] trials of probability [r] *)
Definition ranks (n : nat) : list R := map (fun k => INR k / INR n) (seq 0 (S n)).
Definition get_pit_ecdf (interval : nat -> R -> R * R) (pit : list R) (detrend : bool) : list R * list R * list R * list R * list R :=
  let n := length pit in
  let rank := ranks n in
  let ecdf := map (fun r => INR (length (filter (fun p => Rleb p r) pit)) / INR n) rank in
  let lower := map (fun r => fst (interval n r) / INR n) rank in
  let upper := map (fun r => snd (interval n r) / INR n) rank in
  if detrend then (rank, zip2 Rminus ecdf rank, map (fun _ => 0) rank, zip2 Rminus lower rank, zip2 Rminus upper rank)
  else (rank, ecdf, rank, lower, upper).

(** ** plotter.py:32-47 [_plot_step], 50-79 [_plot_ribbon]: the lines are interrupted between channels that do not touch.  [mask] 37, 66 *)
Definition slice {A} (i j : nat) (l : list A) : list A := firstn (j - i) (skipn i l).
Definition gap (xl xr : list R) (i : nat) : bool := negb (Reqb (nth i xl 0) (nth (i - 1) xr 0)).
Definition breaks (xl xr : list R) (n : nat) : list nat := 0%nat :: filter (gap xl xr) (seq 1 (n - 1)) ++ [n].
Fixpoint pairs (l : list nat) : list (nat * nat) := match l with a :: ((b :: _) as r) => (a, b) :: pairs r | _ => [] end.
(** [np.append(a, b[-1])] *)
Definition append_last (a b : list R) : res (list R) := match b with [] => Err IndexError | _ => Ok (a ++ [last b 0]) end.
Definition polyline := (list R * list R)%type.
Definition seg_x (xl xr : list R) (ij : nat * nat) : res (list R) := append_last (slice (fst ij) (snd ij) xl) (slice (fst ij) (snd ij) xr).
Definition seg_y (y : list R) (ij : nat * nat) : res (list R) := append_last (slice (fst ij) (snd ij) y) (slice (fst ij) (snd ij) y).
Definition plot_step (xl xr y : list R) : res (list polyline) :=
  if negb (Nat.eqb (length y) (length xl) && Nat.eqb (length xl) (length xr)) then Err AssertionError else
  HelperData.mapE (fun ij => bind (seg_x xl xr ij) (fun x => bind (seg_y y ij) (fun y => Ok (x, y)))) (pairs (breaks xl xr (length y))).
(** a ribbon is a pair of arrays; for each uninterrupted range the list of the areas between the lines *)
Definition area := (list R * (list R * list R))%type.
Definition plot_ribbon (xl xr : list R) (ribbons : list (list R * list R)) : res (list (list area)) :=
  match ribbons with
  | [] => Err IndexError
  | r0 :: _ =>
      let n := length (fst r0) in
      if negb (Nat.eqb n (length xl) && Nat.eqb (length xl) (length xr) && forallb (fun r => Nat.eqb (length (fst r)) n && Nat.eqb (length (snd r)) n) ribbons) then Err AssertionError else
      HelperData.mapE (fun ij => bind (seg_x xl xr ij) (fun x =>
        HelperData.mapE (fun r => bind (seg_y (fst r) ij) (fun lo => bind (seg_y (snd r) ij) (fun up => Ok (x, (lo, up))))) ribbons)) (pairs (breaks xl xr n))
  end.
