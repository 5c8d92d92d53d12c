(** Model of the fits of simulated data, infer/helper.py:600-875, and of util/config.py [get_parallel_number]. *)
From Coq Require Import Ascii String.
From Verif Require Import RBase Data Namespace FitInput HelperData.
From Coq Require Import List.
Open Scope list_scope.

(** util/config.py:131-163 [get_parallel_number] on a machine with [devices] JAX devices *)
Definition get_parallel_number (devices : nat) (n : option Z) : res nat :=
  match n with
  | None => Ok devices
  | Some n => if (n <=? 0)%Z then Err ValueError else Ok (if (Z.of_nat devices <? n)%Z then devices else Z.to_nat n)
  end.

(** what the optimizer and the model deliver for one data set and one initial value, infer/helper.py:611-664: the fitted values
    of every site and the validity of the fit *)
Record fitted := { ft_param : str -> R; ft_model : str -> list R; ft_total : R; ft_group : str -> R; ft_point : str -> list R; ft_valid : bool }.
(** the result container, infer/helper.py:778-794.  The simulated data are kept as a list of rows (one dictionary of arrays per
    data set), every other entry as an array with leading axis *)
Record result := { r_data : list (dict (list R)); r_params : dict (list R); r_models : dict (list (list R));
  r_total : list R; r_group : dict (list R); r_point : dict (list (list R)); r_valid : list bool }.
(** [x.at[i].set(y)]: an index out of range is ignored *)
Fixpoint set_nth {A} (i : nat) (y : A) (l : list A) : list A :=
  match l, i with [], _ => [] | _ :: r, O => y :: r | x :: r, S i => x :: set_nth i y r end.
(** [jax.tree.map(lambda x, y: x.at[i].set(y), tree, values)] *)
Definition set_tree {A} (i : nat) (v : str -> A) (t : dict (list A)) : dict (list A) :=
  map (fun e => (fst e, set_nth i (v (fst e)) (snd e))) t.

Section Fit.
(** the names substituted by simulated data: infer/helper.py:386-391 [data_group] *)
Variable names : list str.
Variable fit : dict (list R) -> list R -> fitted.
(** infer/helper.py:607-610 [new_data] of the [i]-th data set *)
Definition pick (d : dict (list R)) : dict (list R) := map (fun j => (j, match get d j with Some v => v | None => [] end)) names.
(** the state of the loop: the container, the initial values, and (for the statements only) the fits made so far *)
Definition call := (dict (list R) * list R)%type.
Definition state := (result * list (list R) * list call)%type.
(** infer/helper.py:602-666 [fit_once] *)
Definition fit_once (i : nat) (s : state) : state :=
  let '(r, init, calls) := s in
  let d := pick (nth i (r_data r) []) in
  let y0 := nth i init [] in
  let f := fit d y0 in
  ({| r_data := r_data r; r_params := set_tree i (ft_param f) (r_params r);
      r_models := set_tree i (ft_model f) (r_models r);
      r_total := set_nth i (ft_total f) (r_total r);
      r_group := set_tree i (ft_group f) (r_group r);
      r_point := set_tree i (ft_point f) (r_point r);
      r_valid := set_nth i (ft_valid f) (r_valid r) |}, init, calls ++ [(d, y0)]).
(** [lax.fori_loop(0, n, fn, args)] *)
Definition fori_loop (n : nat) (s : state) : state := fold_left (fun s i => fit_once i s) (seq 0 n) s.
(** infer/helper.py:668-688 [fit_in_sequence] *)
Definition fit_in_sequence (r : result) (init : list (list R)) : result * list call :=
  let '(r', _, calls) := fori_loop (length (r_valid r)) (r, init, []) in (r', calls).

(** [x.reshape((p, -1) + x.shape[1:])]: row [k] of the reshaped array *)
Definition part {A} (b k : nat) (x : list A) : list A := firstn b (skipn (k * b) x).
Definition part_tree {A} (b k : nat) (t : dict (list A)) : dict (list A) := map (fun e => (fst e, part b k (snd e))) t.
Definition part_result (b k : nat) (r : result) : result :=
  {| r_data := part b k (r_data r); r_params := part_tree b k (r_params r); r_models := part_tree b k (r_models r);
     r_total := part b k (r_total r); r_group := part_tree b k (r_group r); r_point := part_tree b k (r_point r);
     r_valid := part b k (r_valid r) |}.
(** [jax.tree.map(jnp.concatenate, result)] over the device axis *)
Definition app_tree {A} (a b : dict (list A)) : dict (list A) := zip2 (fun x y => (fst x, snd x ++ snd y)) a b.
Definition empty_tree {A} (t : dict (list A)) : dict (list A) := map (fun e => (fst e, [])) t.
Definition cat_tree {A} (t : dict (list A)) (ts : list (dict (list A))) : dict (list A) := fold_right app_tree (empty_tree t) ts.
Definition cat_result (r : result) (rs : list result) : result :=
  {| r_data := concat (map r_data rs); r_params := cat_tree (r_params r) (map r_params rs);
     r_models := cat_tree (r_models r) (map r_models rs); r_total := concat (map r_total rs);
     r_group := cat_tree (r_group r) (map r_group rs); r_point := cat_tree (r_point r) (map r_point rs);
     r_valid := concat (map r_valid rs) |}.
(** infer/helper.py:690-718 [fit_in_parallel]: the devices do not share any state; the calls are listed device by device *)
Definition fit_in_parallel (p : nat) (r : result) (init : list (list R)) : res (result * list call) :=
  let n := length (r_valid r) in
  if (p =? 0)%nat then Err ZeroDivisionError else
  let b := (n / p)%nat in
  if negb (n mod p =? 0)%nat then Err TypeError (* the arrays cannot be reshaped *) else
  let runs := map (fun k => fori_loop b (part_result b k r, part b k init, [])) (seq 0 p) in
  Ok (cat_result r (map (fun s => fst (fst s)) runs), concat (map snd runs)).

(** infer/helper.py:757-775: initial values, given per parameter as scalars, vectors or something deeper *)
Inductive nd := Sc (x : R) | Ve (l : list R) | Ma (rows : nat).
Definition same_leading (l : list nd) : bool :=
  match l with
  | [] => true
  | x :: r => forallb (fun y => match x, y with Ma a, Ma b => (a =? b)%nat | Ma _, _ | _, Ma _ => false | _, _ => true end) r
  end.
(** [jnp.array(values).T]: its rows, for one or two dimensions *)
Inductive stacked := One_d (v : list R) | Two_d (rows : list (list R)) | Three_d.
Fixpoint all_sc (l : list nd) : option (list R) :=
  match l with [] => Some [] | Sc x :: r => option_map (cons x) (all_sc r) | _ => None end.
Fixpoint all_ve (l : list nd) : option (list (list R)) :=
  match l with [] => Some [] | Ve x :: r => option_map (cons x) (all_ve r) | _ => None end.
Definition stack (l : list nd) : res stacked :=
  match all_sc l with
  | Some v => Ok (One_d v)
  | None => match all_ve l with
            | Some cols => let m := length (hd [] cols) in
                if forallb (fun c => (length c =? m)%nat) cols then Ok (Two_d (map (fun i => map (fun c => nth i c 0) cols) (seq 0 m)))
                else Err ValueError
            | None => if forallb (fun x => match x with Ma _ => true | _ => false end) l then Ok Three_d else Err ValueError
            end
  end.
Definition make_init (free : list str) (nsim : nat) (ip : dict nd) : res (list (list R)) :=
  if negb (same_names (map fst ip) free) then Err AssertionError else
  if negb (same_leading (map snd ip)) then Err AssertionError else
  bind (mapE (fun k => opt_err KeyError (get ip k)) free) (fun vs =>
  bind (stack vs) (fun st =>
  match st with
  | Three_d => Err AssertionError
  | Two_d rows => if (length rows =? nsim)%nat then Ok rows else Err AssertionError
  | One_d v => Ok (repeat v nsim)
  end)).
End Fit.

Section BatchFit.
Variables (data : dict fdata) (stats : dict stat).
(** [free_names] and [params_names], infer/helper.py:372-376, and the map to unconstrained space, 429-435 *)
Variables (free params : list str) (to_unconstr : list R -> list R).
Variable fit : dict (list R) -> list R -> fitted.
Variable devices : nat.
(** infer/helper.py:386-391 *)
Definition data_group (k : str) : list str :=
  if with_back (match get stats k with Some s => s | None => Chi2 end) then [on_name k; off_name k] else [on_name k].
Definition group_names : list str := flat_map (fun e => data_group (fst e)) stats.
Definition model_names : list str := flat_map (fun e => fst e :: map model_name (data_group (fst e))) stats.
(** [jnp.empty]: contents irrelevant *)
Definition container (rows : list (dict (list R))) : result :=
  let n := length rows in
  let ks := map (fun e : str * stat => fst e) stats in
  {| r_data := rows; r_params := puts [] (map (fun k => (k, repeat 0 n)) params);
     r_models := puts [] (map (fun k => (k, repeat [] n)) model_names);
     r_total := repeat 0 n; r_group := puts [] (map (fun k => (k, repeat 0 n)) ks);
     r_point := puts [] (map (fun k => (k, repeat [] n)) ks); r_valid := repeat true n |}.
(** infer/helper.py:720-806 [batch_fit].  Arrays have static shapes: an entry of [models] or [deviance['point']] whose number of
    channels differs from [ndata[k]] is rejected when the fit is traced (the broadcast of a data set with a single
    channel is not modelled). *)
Definition widths_ok : bool :=
  forallb (fun e : str * fdata => match get (ndata data) (fst e) with Some w => (w =? length (f_emin (snd e)))%nat | None => false end) data.
Definition batch_fit (ip : dict nd) (sim : batch (dict (list R))) (parallel : bool) (n_parallel : option Z) : res (result * list call) :=
  bind (get_parallel_number devices n_parallel) (fun p =>
  match sim with
  | Many rows =>
      match filter (fun e => negb (str_eqb (fst e) total_key)) (ndata data) with
      | [] => Err IndexError
      | _ => bind (make_init free (length rows) ip) (fun init =>
             if negb widths_ok then Err ValueError else
             let r := container rows in let init' := map to_unconstr init in
             if parallel then fit_in_parallel group_names fit p r init' else Ok (fit_in_sequence group_names fit r init'))
      end
  | _ => Err AssertionError
  end).
(** infer/helper.py:808-875 [simulate_and_fit] *)
Variable draw : Z -> request -> nat -> str -> nat -> R.
Definition simulate_and_fit (seed : Z) (ip : dict nd) (mv : batch (dict (list R))) (n : Z) (parallel : bool) (n_parallel : option Z)
    : res (result * list call) :=
  match mv with
  | Many _ => if (1 <? n)%Z then Err AssertionError else
              bind (simulate draw data stats seed mv n) (fun sim => batch_fit ip sim parallel n_parallel)
  | Single _ => bind (simulate draw data stats seed mv n) (fun sim => batch_fit ip sim parallel n_parallel)
  | Deeper => if (1 <? n)%Z then Err AssertionError else
              bind (simulate draw data stats seed mv n) (fun sim => batch_fit ip sim parallel n_parallel)
  end.
End BatchFit.
