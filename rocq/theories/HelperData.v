(** Model of the data part of infer/helper.py [get_helper]: channel numbers, observed and simulated counts,
    and of the batch fitting of simulated data. *)
From Coq Require Import Ascii String.
From Verif Require Import RBase Data Namespace FitInput.
From Coq Require Import List.
Open Scope list_scope.

Definition dict (V : Type) := list (str * V).
Definition opt_err {A} (e : err) (o : option A) : res A := match o with Some a => Ok a | None => Err e end.
Fixpoint mapE {A B} (f : A -> res B) (l : list A) : res (list B) :=
  match l with [] => Ok [] | x :: r => bind (f x) (fun y => bind (mapE f r) (fun ys => Ok (y :: ys))) end.
(** [d |= {k: v ...}] *)
Definition puts {V} (d : dict V) (kvs : list (str * V)) : dict V := fold_left (fun d kv => put d (fst kv) (snd kv)) kvs d.

(** f-strings [f'{k}_Non'], [f'{k}_Noff'], [f'{k}_model'] *)
Definition on_name (k : str) : str := k ++ s2l "_Non".
Definition off_name (k : str) : str := k ++ s2l "_Noff".
Definition model_name (k : str) : str := k ++ s2l "_model".
Definition total_key : str := s2l "total".
Definition channels_key : str := s2l "channels".

Section Tables.
(** the tables of the fit (FitInput.v [fit_tables]), in insertion order; both have the same keys *)
Variables (data : dict fdata) (stats : dict stat).
Definition stat_of (k : str) : stat := match get stats k with Some s => s | None => Chi2 end.
(** infer/helper.py:138-140 [ndata] *)
Definition ndata : dict nat :=
  let d := puts [] (map (fun e => (fst e, length (f_emin (snd e)))) data) in
  put d total_key (fold_right Nat.add O (map snd d)).
(** 146-150 [dof]; [nparam] is [len(model_info.sample)] *)
Definition dof (nparam : nat) : Z := Z.of_nat (match get ndata total_key with Some n => n | None => O end) - Z.of_nat nparam.
(** 153-154 *)
Definition on_names : list str := map (fun e => on_name (fst e)) data.
Definition off_names : list str := map (fun e => off_name (fst e)) (filter (fun e => with_back (stat_of (fst e))) data).
(** 155-159; [v.back_ratio] is [None] when there is no background, which [check_stat] has excluded *)
Definition back_ratio (k : str) (d : fdata) : option (list R) :=
  if with_back (stat_of k) then match f_back d with Some b => Some (fb_ratio b) | None => None end else None.
(** 160-162 *)
Definition spec_unit (d : fdata) : list R := zip2 (fun hi lo => 1 / (f_exposure d * (hi - lo))) (f_emax d) (f_emin d).

(** 164-201 [get_counts_data] of one data set of counts; the entry 'total' is the one-element list of the scalar *)
Definition same_names (a b : list str) : bool := (forallb (fun x => str_in x b) a && forallb (fun x => str_in x a) b)%bool.
Definition net_counts (counts : dict (list R)) (e : str * fdata) : res (list R) :=
  bind (opt_err KeyError (get counts (on_name (fst e)))) (fun on =>
  Ok (match back_ratio (fst e) (snd e), get counts (off_name (fst e)) with
      | Some r, Some off => zip2 Rminus on (zip2 Rmult r off)
      | _, _ => on (* minus 0.0 times something *)
      end)).
Definition get_counts_data (counts : dict (list R)) : res (dict (list R)) :=
  if negb (same_names (map fst counts) (on_names ++ off_names)) then Err AssertionError else
  bind (mapE (fun n => bind (opt_err KeyError (get counts n)) (fun v => Ok (n, v))) on_names) (fun on =>
  bind (mapE (fun n => bind (opt_err KeyError (get counts n)) (fun v => Ok (n, v))) off_names) (fun off =>
  bind (mapE (net_counts counts) data) (fun net =>
  let d := puts (puts (puts [] on) off)
             (zip2 (fun e n => (fst e, zip2 Rmult n (spec_unit (snd e)))) data net) in
  bind (mapE (fun e => opt_err KeyError (get d (fst e))) data) (fun rows =>
  Ok (put (put d channels_key (concat rows)) total_key [rsum (map rsum net)]))))).

(** 205-220 [obs_counts], [obs_data] *)
Definition on_counts (k : str) (d : fdata) : list R := if spec_normal (stat_of k) then f_net d else f_counts d.
Definition obs_counts : res (dict (list R)) :=
  bind (mapE (fun e => bind (opt_err TypeError (f_back (snd e))) (fun b => Ok (off_name (fst e), fb_counts b)))
         (filter (fun e => with_back (stat_of (fst e))) data)) (fun off =>
  Ok (puts (puts [] (map (fun e => (on_name (fst e), on_counts (fst e) (snd e))) data)) off)).
Definition obs_data : res (dict (list R)) := bind obs_counts get_counts_data.

(** 222-264: the law of every simulated number *)
Inductive law := LNormal (mean sd : R) | LPoisson (mean : R).
Inductive simkind := SNormal (sd : list R) | SPoisson.
(** 248-268 [simulators] and [sampling_dist], in order *)
Definition sim_entry (e : str * stat) : res (list (str * simkind)) :=
  bind (opt_err KeyError (get data (fst e))) (fun d =>
  let on := (on_name (fst e), if spec_normal (snd e) then SNormal (f_errors d) else SPoisson) in
  if with_back (snd e) then
    if back_normal (snd e) then
      bind (opt_err AttributeError (f_back d)) (fun b => Ok [on; (off_name (fst e), SNormal (fb_errors b))])
    else Ok [on; (off_name (fst e), SPoisson)]
  else Ok [on]).
Definition simulators : res (dict simkind) := bind (mapE sim_entry stats) (fun ls => Ok (puts [] (concat ls))).
Definition laws (k : simkind) (means : list R) : list law :=
  match k with SNormal sd => zip2 LNormal means sd | SPoisson => map LPoisson means end.
End Tables.

(** ** simulation *)
(** model values or simulated data: one array per name, or an array with a leading axis *)
Inductive batch (A : Type) := Single (a : A) | Many (l : list A) | Deeper.
Arguments Single {A} _. Arguments Many {A} _. Arguments Deeper {A}.

(** the random generator: [draw seed request row name channel] is the number delivered for one entry of the whole
    request (numpy's streams are not modelled: the oracle may depend on everything that was asked) *)
Definition request := list (list (str * list law)).
Section Simulate.
Variable draw : Z -> request -> nat -> str -> nat -> R.
Variables (data : dict fdata) (stats : dict stat).
(** 275-276, and the laws of 231-244 *)
Definition row_request (sims : dict simkind) (mv : dict (list R)) : res (list (str * list law)) :=
  mapE (fun e => bind (opt_err KeyError (get mv (model_name (fst e)))) (fun m => Ok (fst e, laws (snd e) m))) sims.
Definition sim_row (seed : Z) (rq : request) (r : nat) : dict (list R) :=
  map (fun e => (fst e, map (draw seed rq r (fst e)) (seq 0 (length (snd e))))) (nth r rq []).
Definition sim_rows (seed : Z) (rq : request) : res (list (dict (list R))) :=
  mapE (fun r => get_counts_data data stats (sim_row seed rq r)) (seq 0 (length rq)).
(** 270-280 [simulate]: [n != 1] adds a leading axis (229-233).  Batches are lists of rows. *)
Definition simulate (seed : Z) (mv : batch (dict (list R))) (n : Z) : res (batch (dict (list R))) :=
  bind (simulators data stats) (fun sims =>
  match mv with
  | Single m =>
      bind (row_request sims m) (fun rq =>
      if (n =? 1)%Z then bind (get_counts_data data stats (sim_row seed [rq] 0)) (fun d => Ok (Single d))
      else if (n <? 0)%Z then Err ValueError
      else bind (sim_rows seed (repeat rq (Z.to_nat n))) (fun ds => Ok (Many ds)))
  | Many ms =>
      bind (mapE (row_request sims) ms) (fun rq =>
      if (n =? 1)%Z then bind (sim_rows seed rq) (fun ds => Ok (Many ds)) else Ok Deeper)
  | Deeper => Ok Deeper
  end).
End Simulate.
