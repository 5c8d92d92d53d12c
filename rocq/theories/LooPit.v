(** Model of infer/results.py:2396-2459 [_loo_pit]: the leave-one-out probability
    integral transform of every channel.  ArviZ's [loo_pit] of one channel is its
    formula: 0 if no draw is <= y, else the minimum of 1 and [exp(logsumexp(w))] over
    the draws that are; the logarithms of the weights are inputs. *)
From Coq Require Import Ascii String.
From Verif Require Import RBase Gibbs Likelihood Signs Namespace HelperData ChanLabels.
From Coq Require Import List.
Import ListNotations.
Open Scope list_scope.
Open Scope R_scope.

(** one channel: the observed counts, its width, and per draw the log weight and the
    simulated net spectrum *)
Record cell := { e_chan : channel; e_width : R; e_lw : list R; e_yhat : list R }.
Record pdata := { p_stat : stat; p_exposure : R; p_cells : list cell; p_labels : list str }.

(** arviz [_loo_pit] *)
Definition loo_pit1 (lw yhat : list R) (y : R) : R :=
  match filter (fun p => Rleb (snd p) y) (combine lw yhat) with
  | [] => 0
  | l => Rmin 1 (rsum (map (fun p => exp (fst p)) l))
  end.

(** 2424: [unit = 1.0 / (d.channel_width * d.spec_exposure)] *)
Definition punit (d : pdata) (c : cell) : R := 1 / (e_width c * p_exposure d).
(** helper.py:188 on the observed counts: [idata['observed_data']['channels']] *)
Definition observed (d : pdata) (c : cell) : R := simulated_net (p_stat d) (e_chan c) * punit d c.
(** 2425-2439 *)
Definition data_minus (d : pdata) (c : cell) : R :=
  let k := e_chan c in
  match p_stat d with
  | Cstat | Pstat => (ch_n k - 1) * punit d c
  | Wstat => Rmax ((ch_n k - 1) - ch_ratio k * ch_b k) (ch_n k - ch_ratio k * (ch_b k + 1)) * punit d c
  | Chi2 | Pgstat => observed_net (p_stat d) k * punit d c
  end.
(** 2418-2420 *)
Definition discrete (st : stat) : bool := match st with Cstat | Pstat | Wstat => true | _ => false end.

(** 2402-2459; [minus] and [pit] are the arrays over all channels *)
Definition loo_pits (ds : list pdata) : res (list (list (R * R))) :=
  let labels := all_labels (map p_labels ds) in
  let cells := concat (map (fun d => map (fun c => (d, c)) (p_cells d)) ds) in
  let pit := map (fun dc => loo_pit1 (e_lw (snd dc)) (e_yhat (snd dc)) (observed (fst dc) (snd dc))) cells in
  let minus := if existsb (fun d => discrete (p_stat d)) ds
               then map (fun dc => loo_pit1 (e_lw (snd dc)) (e_yhat (snd dc)) (data_minus (fst dc) (snd dc))) cells
               else pit in
  mapE (fun d => bind (sel labels pit (p_labels d)) (fun p =>
                 bind (sel labels minus (p_labels d)) (fun m => Ok (combine m p)))) ds.
