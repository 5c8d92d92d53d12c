(** Model of models/model.py: [CompiledModel.simulate] and [simulate_from_data]. *)
From Verif Require Import RBase Significance Data DataFacts.

(** the generator: [poisson]/[normal] draws as functions of mean and scale, one for the background (drawn first)
    and one for the source; nothing is assumed about their distribution *)
Definition draw := list R -> list R -> list R.
(** numpy: [rng.poisson(lam)] raises [ValueError] on a negative, NaN or infinite rate *)
Definition rng_poisson (d : draw) (lam : list R) : res (list R) :=
  if existsb (fun x => Rltb x 0) lam then Err ValueError else Ok (d lam []).

Definition coerce_scale (n : nat) (a : arr) : res (list R) :=
  if arr_ok a n then Ok (arr_get a n) else Err ValueError.

(** models/model.py:1064-1143: from the validated arguments on; [back] is [None] or
    (counts, errors, exposure, poisson).  A zero denominator of [back_ratio] is NaN or infinity in numpy, which
    [rng.poisson] rejects; for Gaussian data it would give NaN counts, which reals cannot represent (here [x / 0]). *)
Definition sim_core (flux : list R) (r : response) (es : R) (sp : bool) (serr : list R)
    (back : option (list R * list R * R * bool)) (sa sb ba bb : list R)
    (q g : option (list Z)) (ib : bool) (dB dS : draw) : res obs :=
  let n := length (r_emin r) in
  bind (match back with
        | None => Ok None
        | Some (bc, be, eb, bp) =>
            bind (if bp then bind (rng_poisson dB bc) (fun x => Ok (x, map sqrt x)) else Ok (dB bc be, be)) (fun ce =>
            bind (mk_spectrum (fst ce) (snd ce) bp eb q g (Arr ba) (Arr bb) None (Scal 0)) (fun s => Ok (Some s)))
        end) (fun bdata =>
  let folded := map (fold_model flux (r_matrix r)) (seq 0 n) in
  let counts := zip2 Rmult (map (Rmult es) folded) sa in
  bind (match back with
        | None => Ok counts
        | Some (bc, be, eb, bp) =>
            let num := zip2 Rmult (map (Rmult es) sa) sb in
            let den := zip2 Rmult (map (Rmult eb) ba) bb in
            if (sp && existsb (fun x => Reqb x 0) den)%bool then Err ValueError
            else Ok (zip2 Rplus counts (zip2 Rmult (zip2 Rdiv num den) bc))
        end) (fun counts =>
  bind (if sp then bind (rng_poisson dS counts) (fun x => Ok (x, map sqrt x)) else Ok (dS counts serr, serr)) (fun ce =>
  bind (mk_spectrum (fst ce) (snd ce) sp es q g (Arr sa) (Arr sb) None (Scal 0)) (fun s =>
  match r_emin r with
  | [] => Err IndexError
  | e0 :: _ => mk_obs [(e0, last (r_emax r) 0)] s r bdata ib
  end)))).

(** models/model.py:903-1143 [simulate] of an additive model whose photon spectrum is [flux] *)
Definition simulate (flux : list R) (egrid emin emax : list R) (matrix : list (list R)) (fwhm : list R)
    (es : R) (sp : bool) (serr : option (list R))
    (bc be : option (list R)) (eb : option R) (bp : option bool) (sa sb ba bb : arr)
    (q g : option (list Z)) (ib : bool) (dB dS : draw) : res obs :=
  bind (mk_response egrid emin emax matrix fwhm) (fun r =>
  let n := length (r_emin r) in
  bind (if sp then Ok [] else match serr with
        | None => Err ValueError
        | Some e => if (length e =? n)%nat then Ok e else Err ValueError end) (fun serr =>
  bind (match bc, eb, bp, be with
        | None, None, None, None => Ok None
        | Some c, Some x, Some p, _ =>
            if negb (length c =? n)%nat then Err ValueError else
            let c := if (sp || p)%bool then map (fun x => Rmax x 0) c else c in
            if p then Ok (Some (c, [], x, p)) else
            match be with
            | None => Err ValueError
            | Some e => if (length e =? n)%nat then Ok (Some (c, e, x, p)) else Err ValueError
            end
        | _, _, _, _ => Err ValueError
        end) (fun back =>
  bind (coerce_scale n sa) (fun sa => bind (coerce_scale n sb) (fun sb =>
  bind (coerce_scale n ba) (fun ba => bind (coerce_scale n bb) (fun bb =>
  sim_core flux r es sp serr back sa sb ba bb q g ib dB dS))))))).

(** models/model.py:811-901 [simulate_from_data]; [kwargs] can only set [ignore_bad] ([keep_channel_info] only
    changes labels) *)
Definition simulate_from_data (flux : list R) (o : obs) (es eb : option R) (ib : bool) (dB dS : draw) : res obs :=
  let s := o_spec o in let r := o_resp o in
  let es := match es with Some x => x | None => s_exposure s end in
  let q := map (fun x : bool => if x then 0%Z else 1%Z) (o_good o) in
  bind (match o_bk o with
        | Some b => simulate flux (r_egrid r) (r_emin r) (r_emax r) (r_matrix r) (r_fwhm r) es (s_poisson s) (Some (s_errors s))
                      (Some (s_counts b)) (Some (s_errors b)) (Some (match eb with Some x => x | None => s_exposure b end)) (Some (s_poisson b))
                      (Arr (s_area s)) (Arr (s_back s)) (Arr (s_area b)) (Arr (s_back b)) (Some q) (Some (o_grouping o)) ib dB dS
        | None => simulate flux (r_egrid r) (r_emin r) (r_emax r) (r_matrix r) (r_fwhm r) es (s_poisson s) (Some (s_errors s))
                      None None None None
                      (Arr (s_area s)) (Arr (s_back s)) (Scal 1) (Scal 1) (Some q) (Some (o_grouping o)) ib dB dS
        end) (fun sim =>
  set_erange sim (o_erange o)).
