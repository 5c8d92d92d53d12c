(** Model of the log likelihoods kept with a posterior, infer/helper.py:494-515 [get_loglike] and infer/fit.py:582-596 [_generate_results], for one
    posterior sample; and of the starting points of maximum likelihood fits, infer/fit.py:173-226, 474-567, 657-662. *)
From Coq Require Import Ascii String.
From Verif Require Import RBase Data Namespace FitInput HelperData ModelInfo HelperNames Batch.
From Coq Require Import List.
Open Scope list_scope.
Open Scope R_scope.

(** ** log likelihoods *)
Definition loglike_name (k : str) : str := k ++ s2l "_loglike".
Record loglikes := { l_data : dict (list R); l_point : dict (list R); l_group : dict R; l_channels : list R; l_total : R }.
(** helper.py:494-515; [sites]: the values of the sites of the model *)
Definition get_loglike (stats : dict stat) (sites : dict (list R)) : res loglikes :=
  bind (mapE (fun i => bind (opt_res KeyError (get sites (loglike_name i))) (fun v => Ok (i, v))) (group_names stats)) (fun data =>
  bind (mapE (fun e : str * stat => bind (opt_res KeyError (get sites (loglike_name (fst e)))) (fun v => Ok (fst e, v))) stats) (fun point =>
  if (length stats =? 0)%nat then Err ValueError (* nothing to concatenate *) else
  let channels := concat (map snd point) in
  Ok {| l_data := puts [] data; l_point := point; l_group := map (fun e : str * list R => (fst e, rsum (snd e))) point; l_channels := channels; l_total := rsum channels |})).
(** fit.py:585-593; a number is an array with one entry *)
Definition stored_loglike (l : loglikes) : dict (list R) :=
  let group := puts [] (map (fun e : str * R => (fst e ++ s2l "_total", [snd e])) (l_group l)) in
  put (put (puts (puts (l_data l) (l_point l)) group) channels_key (l_channels l)) total_key [l_total l].

(** ** starting points *)
Section Start.
Variable free : list str.
Variable B : @bijections R.
Variable default : dict R.
(** fit.py:544-549, 657-662: [free_default['constr_dic'] | dict(init)] *)
Definition check_init (init : option (dict R)) : dict R := match init with None => default | Some d => puts default d end.
Definition first_guess (init : option (dict R)) : res (list R) := constr_dic_to_unconstr_arr free B (check_init init).

(** options of the solvers: number of steps, whether failures are reported, verbosity *)
Record solver_opts := { so_steps : Z; so_throw : bool; so_verbose : bool }.
Variable lm : solver_opts -> list R -> list R.
(** 173-200 [_optimize_lm]: the compiled solver is kept, with the options of the call that built it *)
Definition optimize_lm (kept : option solver_opts) (o : solver_opts) (x : list R) : list R * option solver_opts :=
  let o' := match kept with Some k => k | None => o end in (lm o' x, Some o').
(** a stored sample of the nested sampler: values of the free parameters and, per data, log likelihoods of the channels *)
Definition ns_sample := (dict R * list (list R))%type.
Variable ns_run : solver_opts -> list ns_sample.
Definition sample_loglike (s : ns_sample) : R := rsum (map rsum (snd s)).
(** [argmax]: the first of the largest *)
Fixpoint argmax_from (best : nat) (bv : R) (i : nat) (l : list R) : nat :=
  match l with [] => best | x :: r => if Rltb bv x then argmax_from i x (S i) r else argmax_from best bv (S i) r end.
Definition argmax (l : list R) : res nat := match l with [] => Err ValueError | x :: r => Ok (argmax_from 0 x 1 r) end.
(** 202-226 [_optimize_ns] *)
Definition optimize_ns (kept : option (list ns_sample)) (o : solver_opts) : res (list R) * option (list ns_sample) :=
  let samples := match kept with Some s => s | None => ns_run o end in
  (bind (argmax (map sample_loglike samples)) (fun i =>
   bind (mapE (fun n => bind (opt_res KeyError (get (fst (nth i samples ([], []))) n)) (fun v => Ok (n, v))) free) (fun d =>
   constr_dic_to_unconstr_arr free B d)), Some samples).
(** 502-567 [mle]: the point from which the last, local search (minuit) starts; the state is (kept solver, kept samples) *)
Inductive mle_method := MinuitM | LmM | NsM | OtherM.
Definition mle_state := (option solver_opts * option (list ns_sample))%type.
Definition default_steps : Z := 131072.
Definition opts_of (max_steps : option Z) (throw verbose : bool) : solver_opts :=
  {| so_steps := match max_steps with Some n => n | None => default_steps end; so_throw := throw; so_verbose := verbose |}.
Definition mle_start (st : mle_state) (init : option (dict R)) (m : mle_method) (max_steps : option Z) (throw verbose : bool) : res (list R) * mle_state :=
  let o := opts_of max_steps throw verbose in
  match first_guess init with
  | Err e => (Err e, st)
  | Ok x => match m with
            | LmM => let '(y, k) := optimize_lm (fst st) o x in (Ok y, (k, snd st))
            | NsM => let '(y, k) := optimize_ns (snd st) o in (y, (fst st, k))
            | MinuitM => (Ok x, st)
            | OtherM => (Err ValueError, st)
            end
  end.
(** a history of calls *)
Record mle_call := { mc_init : option (dict R); mc_method : mle_method; mc_steps : option Z; mc_throw : bool; mc_verbose : bool }.
Definition run_mle (st : mle_state) (c : mle_call) : res (list R) * mle_state := mle_start st (mc_init c) (mc_method c) (mc_steps c) (mc_throw c) (mc_verbose c).
Definition after (st : mle_state) (h : list mle_call) : mle_state := fold_left (fun st c => snd (run_mle st c)) h st.
End Start.
