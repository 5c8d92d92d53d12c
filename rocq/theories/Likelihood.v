(** Model of infer/likelihood.py (statistics, profiled backgrounds) and of the
    log-likelihood / deviance / residual plumbing of infer/helper.py.
    float64 is [R]; [-inf] log-likelihoods are excluded by the theorems'
    hypotheses (see the remarks there). *)
From Verif Require Import RBase Gibbs.

(** infer/likelihood.py:38-84 [pgstat_background], element-wise *)
Definition pgstat_background (s n b_est b_err a : R) : R :=
  let variance := b_err * b_err in
  let e := b_est - a * variance in
  let f := a * variance * n + e * s in
  let c := a * e - s in
  let d := sqrt (c * c + 4 * a * f) in
  if (Rleb 0 e || Rleb 0 f)%bool
  then if Rltb 0 n then (c + d) / (2 * a) else e
  else 0.

(** infer/likelihood.py:87-129 [wstat_background], element-wise *)
Definition wstat_background (s n_on n_off a : R) : R :=
  let c := a * (n_on + n_off) - (a + 1) * s in
  let d := sqrt (c * c + 4 * a * (a + 1) * n_off * s) in
  if Reqb n_on 0 then n_off / (1 + a)
  else if Reqb n_off 0
       then if Rleb s (a / (a + 1) * n_on) then n_on / (1 + a) - s / a else 0
       else (c + d) / (2 * a * (a + 1)).

(** infer/likelihood.py:132-136 [BetterNormal.log_prob] *)
Definition normal_logp (x loc scale : R) : R :=
  let z := (x - loc) / scale in -0.5 * z * z.
(** infer/likelihood.py:168-171 [BetterPoisson.log_prob], dense branch *)
Definition poisson_logp (n rate : R) : R :=
  Rmin ((xlogy n rate - rate) - (xlogy n n - n)) 0.
(** infer/likelihood.py:145-166, sparse branch: the terms in [n] are only added
    where [n > 0] *)
Definition poisson_logp_sparse (n rate : R) : R :=
  Rmin (- rate + (if Rltb 0 n then xlogy n rate - (xlogy n n - n) else 0)) 0.

(** [jnp.clip] *)
Definition clip (lo hi x : R) : R := Rmin (Rmax x lo) hi.
Definition tiny : R := / 10 ^ 30.
Definition tiny300 : R := / 10 ^ 300.

Inductive stat := Chi2 | Cstat | Pstat | Pgstat | Wstat.

(** one noticed channel of a data set: [ch_n] is [net_counts] for chi2 and
    [spec_counts] otherwise (likelihood.py:186, 232, 281, 332, 403) *)
Record channel := { ch_n : R; ch_nerr : R; ch_b : R; ch_berr : R; ch_ratio : R;
                    ch_row : list R; ch_area : R }.
Record dataset := { ds_stat : stat; ds_exposure : R; ds_chans : list channel }.

Definition dot (a b : list R) : R := rsum (rmul2 a b).

(** likelihood.py:199-205 and its four copies: the folded source counts of a
    channel before the final clip, for photon model values [u] *)
Definition rate_counts (ds : dataset) (c : channel) (u : list R) : R :=
  dot (ch_row c) (map (clip tiny300 (10 ^ 300)) u) * ch_area c * ds_exposure ds.
(** source counts, clipped: likelihood.py:205, 346, 417 *)
Definition source_counts ds c u : R := clip tiny (10 ^ 15) (rate_counts ds c u).

(** the background attached to a channel: likelihood.py:348, 418 *)
Definition profiled (st : stat) (c : channel) (s : R) : R :=
  match st with
  | Pgstat => pgstat_background s (ch_n c) (ch_b c) (ch_berr c) (ch_ratio c)
  | Wstat => wstat_background s (ch_n c) (ch_b c) (ch_ratio c)
  | _ => 0
  end.

(** model counts of the "on" measurement: likelihood.py:205, 251, 299, 351, 419 *)
Definition on_model (ds : dataset) (c : channel) (u : list R) : R :=
  match ds_stat ds with
  | Chi2 | Cstat => source_counts ds c u
  | Pstat => clip tiny (10 ^ 15) (rate_counts ds c u + ch_ratio c * ch_b c)
  | Pgstat | Wstat => let s := source_counts ds c u in s + ch_ratio c * profiled (ds_stat ds) c s
  end.
Definition off_model (ds : dataset) (c : channel) (u : list R) : R :=
  profiled (ds_stat ds) c (source_counts ds c u).

(** log-likelihood of one channel: likelihood.py:208-223, 254-267, 303-316, 355-382, 423-450 *)
Definition loglike_on (ds : dataset) (c : channel) (u : list R) : R :=
  match ds_stat ds with
  | Chi2 => normal_logp (ch_n c) (on_model ds c u) (ch_nerr c)
  | _ => poisson_logp (ch_n c) (on_model ds c u)
  end.
Definition loglike_off (ds : dataset) (c : channel) (u : list R) : R :=
  match ds_stat ds with
  | Pgstat => normal_logp (ch_b c) (off_model ds c u) (ch_berr c)
  | Wstat => poisson_logp (ch_b c) (off_model ds c u)
  | _ => 0
  end.
Definition loglike_chan ds c u : R :=
  match ds_stat ds with
  | Pgstat | Wstat => loglike_on ds c u + loglike_off ds c u
  | _ => loglike_on ds c u
  end.

(** infer/helper.py:489-508 [get_loglike]: per data set point values, their sums,
    all channels concatenated, and the total *)
Definition loglike_point (ds : dataset) (u : list R) : list R := map (fun c => loglike_chan ds c u) (ds_chans ds).
Definition loglike_group ds u : R := rsum (loglike_point ds u).
Definition loglike_channels (dss : list (dataset * list R)) : list R :=
  concat (map (fun p => loglike_point (fst p) (snd p)) dss).
Definition loglike_total dss : R := rsum (loglike_channels dss).
(** infer/helper.py:571-580 [deviance] *)
Definition neg_double (x : R) : R := -2 * x.
Definition dev_point ds u : list R := map neg_double (loglike_point ds u).
Definition dev_group ds u : R := neg_double (loglike_group ds u).
Definition dev_total dss : R := neg_double (loglike_total dss).
(** infer/helper.py:588-594 [residual] *)
Definition residual (dss : list (dataset * list R)) : list R :=
  map (fun l => sqrt (-2 * l)) (loglike_channels dss).
