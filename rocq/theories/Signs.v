(** Model of the sign attached to a residual: plot/data.py:393-407 and 765-804,
    with the two curves it compares, data/base.py:352-368 ([ce] of the data) and
    infer/helper.py:163-188 ([get_counts_data]: the net spectrum of simulated
    data); the model's curve is the deterministic site of infer/likelihood.py:203,
    248, 298, 344, 415.  One noticed channel; float64 is [R]. *)
From Verif Require Import RBase Gibbs Likelihood LikelihoodProofs.
Open Scope R_scope.

(** likelihood.py:202-203 and copies: [source_rate / channel_width] *)
Definition ce_model (ds : dataset) (width : R) (c : channel) (u : list R) : R :=
  (dot (ch_row c) (map (clip tiny300 (10 ^ 300)) u) * ch_area c) / width.

(** data/base.py:352-368; [ch_n] already is [net_counts] for chi2, and a cstat data
    set has no background (infer/fit.py:342-351) *)
Definition observed_net (st : stat) (c : channel) : R :=
  match st with
  | Chi2 | Cstat => ch_n c
  | Pstat | Pgstat | Wstat => ch_n c - ch_ratio c * ch_b c
  end.
Definition unit_of (ds : dataset) (width : R) : R := 1 / (width * ds_exposure ds).
Definition ce_data (ds : dataset) (width : R) (c : channel) : R :=
  observed_net (ds_stat ds) c * unit_of ds width.

(** infer/helper.py:158-188: [back_ratio] only has the data sets whose statistic is
    in [_STATISTIC_WITH_BACK] (pgstat, wstat); a simulated channel carries the
    simulated counts in [ch_n] and [ch_b] *)
Definition simulated_net (st : stat) (c : channel) : R :=
  match st with
  | Pgstat | Wstat => ch_n c - ch_ratio c * ch_b c
  | _ => ch_n c - 0 * 0
  end.
Definition ce_sim (ds : dataset) (width : R) (c : channel) : R :=
  simulated_net (ds_stat ds) c * unit_of ds width.

(** data.py:400, 406, 778, 783, 788, 796, 804: [np.where(data >= model, 1.0, -1.0)] *)
Definition sign (data model : R) : R := if Rleb model data then 1 else -1.
Definition sign_observed ds width c u := sign (ce_data ds width c) (ce_model ds width c u).
Definition sign_simulated ds width c u := sign (ce_sim ds width c) (ce_model ds width c u).
