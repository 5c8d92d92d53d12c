(** Model of data/base.py: [SpectrumData], [ResponseData], [ObservationData]. *)
From Verif Require Import RBase Grouping Scale Significance.


(** a python "float or array" argument and its broadcast *)
Inductive arr := Scal (x : R) | Arr (l : list R).
Definition arr_ok (a : arr) (n : nat) : bool := match a with Scal _ => true | Arr l => length l =? n end.
Definition arr_get (a : arr) (n : nat) : list R := match a with Scal x => repeat x n | Arr l => l end.
Fixpoint zip2 {A B C} (f : A -> B -> C) (a : list A) (b : list B) : list C :=
  match a, b with x :: a', y :: b' => f x y :: zip2 f a' b' | _, _ => [] end.

(** ** SpectrumData *)
Record spectrum := { s_counts : list R; s_errors : list R; s_poisson : bool; s_exposure : R;
  s_quality : list Z; s_grouping : list Z; s_area : list R; s_back : list R; s_net_opt : option bool }.

(** data/base.py:1281-1287 and 284-289: the first flag is never -1 *)
Definition fix_first (g : list Z) : list Z :=
  match g with f :: r => (if Z.eqb f (-1) then 1%Z else f) :: r | [] => [] end.
(** 1238-1255: zero scale in channels whose quality is not 1 is reset to 1 *)
Definition reset_zero (scale : list R) (quality : list Z) : list R :=
  zip2 (fun s q => if (Reqb s 0 && negb (Z.eqb q 1))%bool then 1 else s) scale quality.
Definition quality_values : list Z := [0; 1; 2; 5; -1]%Z.

(** data/base.py:1133-1303 [SpectrumData.__init__] (arrays are 1-d; warnings are not
    modelled, every shape or value error is a [ValueError]) *)
Definition mk_spectrum (counts errors : list R) (poisson : bool) (exposure : R)
    (quality grouping : option (list Z)) (area back : arr) (net : option bool) (sys : arr) : res spectrum :=
  let n := length counts in
  if negb (length errors =? n) then Err ValueError else
  let quality := match quality with Some q => q | None => repeat 0%Z n end in
  if negb (length quality =? n) then Err ValueError else
  let grouping := match grouping with Some g => g | None => repeat 1%Z n end in
  if negb (length grouping =? n) then Err ValueError else
  if negb (arr_ok area n && arr_ok back n && arr_ok sys n) then Err ValueError else
  if negb (forallb (fun q => existsb (Z.eqb q) quality_values) quality) then Err ValueError else
  if (poisson && existsb (fun c => Rltb c 0) counts)%bool then Err ValueError else
  if existsb (fun e => Rltb e 0) errors then Err ValueError else
  let sys := arr_get sys n in
  if existsb (fun e => Rltb e 0) sys then Err ValueError else
  if Rleb exposure 0 then Err ValueError else
  let area := reset_zero (arr_get area n) quality in
  let back := reset_zero (arr_get back n) quality in
  if existsb (fun s => Rltb s 0) area then Err ValueError else
  if existsb (fun s => Rltb s 0) back then Err ValueError else
  if negb (forallb (fun p => Rltb 0 (fst p) || Z.eqb (snd p) 1) (combine area quality))%bool then Err ValueError else
  if negb (forallb (fun p => Rltb 0 (fst p) || Z.eqb (snd p) 1) (combine back quality))%bool then Err ValueError else
  match grouping with
  | [] => Err IndexError (* [grouping[0]] *)
  | _ =>
    Ok {| s_counts := counts;
          s_errors := if poisson then errors
                      else zip2 (fun e cs => sqrt (sq e + sq cs)) errors (zip2 Rmult sys counts);
          s_poisson := poisson; s_exposure := exposure; s_quality := quality;
          s_grouping := fix_first grouping; s_area := area; s_back := back; s_net_opt := net |}
  end.

(** data/base.py:1385-1394 the [net] property *)
Definition s_net (s : spectrum) : bool :=
  match s_net_opt s with Some b => b | None => existsb (fun c => Rltb c 0) (s_counts s) end.

(** [np.add.reduceat(factor * x, group_idx)], the operation by which counts, variances
    and response rows are grouped (data/base.py:1335-1340) *)
Definition gsum (fl : list Z) (good : list bool) (x : list R) : list R :=
  reduceat rsum (rmul2 (map b2r good) x) (starts fl).

(** data/base.py:1305-1342 [SpectrumData.group] *)
Definition spectrum_group (s : spectrum) (fl : list Z) (good : list bool) : res (list R * list R) :=
  if negb (length fl =? length (s_counts s)) then Err ValueError else
  if negb (length good =? length (s_counts s)) then Err ValueError else
  Ok (gsum fl good (s_counts s), map sqrt (gsum fl good (map sq (s_errors s)))).

(** ** ResponseData; the matrix is a list of rows (photon bins); [r_fwhm] is the value of
    the [channel_fwhm] property (data/base.py:1816-1890, modelled in Fwhm.v) *)
Record response := { r_egrid : list R; r_emin : list R; r_emax : list R; r_matrix : list (list R); r_fwhm : list R }.
Fixpoint strictly_increasing (l : list R) : bool :=
  match l with a :: ((b :: _) as r) => (Rltb a b && strictly_increasing r)%bool | _ => true end.
(** data/base.py:1419-1490 [ResponseData.__init__] (channel labels not modelled) *)
Definition mk_response (egrid emin emax : list R) (matrix : list (list R)) (fwhm : list R) : res response :=
  let n := length emin in
  if negb (length emax =? n) then Err ValueError else
  if negb ((length egrid - 1 =? length matrix) && (1 <=? length egrid) && forallb (fun r => length r =? n) matrix)%bool then Err ValueError else
  if existsb (fun p => Rltb (snd p) (fst p)) (combine emin emax) then Err ValueError else
  if negb (strictly_increasing egrid) then Err ValueError else
  Ok {| r_egrid := egrid; r_emin := emin; r_emax := emax; r_matrix := matrix; r_fwhm := fwhm |}.

Definition lmin (l : list R) : R := match l with x :: r => fold_left Rmin r x | [] => 0 end.
Definition lmax (l : list R) : R := match l with x :: r => fold_left Rmax r x | [] => 0 end.

(** data/base.py:1540-1608 [group_energy] (labels not modelled) *)
Definition group_energy (r : response) (fl : list Z) : list R * list R :=
  let n := length (r_emin r) in
  let idx := starts fl in
  if length idx =? n then (r_emin r, r_emax r)
  else (reduceat lmin (r_emin r) idx, reduceat lmax (r_emax r) idx).

(** data/base.py:1492-1538 [ResponseData.group]: the matrix product with the 0/1
    grouping matrix, skipped when nothing is grouped *)
Definition group_matrix (r : response) (fl : list Z) (good : list bool) : list (list R) :=
  let n := length (r_emin r) in
  if length (starts fl) =? n then r_matrix r
  else map (gsum fl good) (r_matrix r).

(** ** ObservationData *)
Definition erange := (list (R * R))%type.
Definition in_range (lo_hi : R * R) (emin emax : R) : bool := (Rleb (fst lo_hi) emin && Rleb emax (snd lo_hi))%bool.
(** data/base.py:213-221 [_get_channel_mask]: one row per energy interval *)
Definition channel_masks (er : erange) (emin emax : list R) : list (list bool) :=
  map (fun r => zip2 (in_range r) emin emax) er.
Definition any_axis0 (n : nat) (ms : list (list bool)) : list bool :=
  fold_right (zip2 orb) (repeat false n) ms.
(** [np.add.reduceat(good.astype(int), idx)] *)
Definition count_true (l : list bool) : nat := length (filter (fun b => b) l).
Definition n_good (fl : list Z) (good : list bool) : list nat := reduceat count_true good (starts fl).

(** what the observation exposes (data/base.py:318-369) *)
Record exposed := { x_chan : list (nat * nat) (* channel range of each noticed group *);
  x_emin : list R; x_emax : list R; x_matrix : list (list R);
  x_counts : list R; x_errors : list R; x_area : list R;
  x_back : option (list R * list R * list R) (* counts, errors, ratio *);
  x_net : list R; x_net_errors : list R; x_ce : list R; x_ce_errors : list R }.

Record obs := { o_spec : spectrum; o_resp : response; o_bk : option spectrum;
                o_good : list bool; o_erange : erange; o_grouping : list Z; o_exp : exposed }.

(** data/base.py:141-190 [_group_scale_arrays] *)
Definition scale_net (s : spectrum) (b : option spectrum) : bool :=
  (s_net s && match b with None => true | Some _ => false end)%bool.
Definition group_scales (s : spectrum) (net : bool) (fl : list Z) (good : list bool) : res (scale_data * scale_data) :=
  bind (group_scale_raw (s_counts s) (s_area s) fl (Some (map b2r good)) net) (fun a =>
  bind (group_scale_raw (s_counts s) (s_back s) fl (Some (map b2r good)) net) (fun b => Ok (a, b))).

(** data/base.py:258-369 [set_grouping] from the (already fixed) flags *)
Definition expose (s : spectrum) (r : response) (bk : option spectrum) (good : list bool)
    (er : erange) (fl : list Z) : res exposed :=
  bind (spectrum_group s fl good) (fun ce =>
  bind (group_scales s (scale_net s bk) fl good) (fun sc =>
  let '(gemin, gemax) := group_energy r fl in
  let n := length gemin in
  let mask := zip2 andb (any_axis0 n (channel_masks er gemin gemax))
                        (map (fun k => 1 <=? k)%nat (n_good fl good)) in
  let emin := bmask mask gemin in
  let emax := bmask mask gemax in
  let counts := bmask mask (fst ce) in
  let errors := bmask mask (snd ce) in
  let unit := zip2 (fun a b => 1 / ((b - a) * s_exposure s)) emin emax in
  let mk back net_c net_e :=
    Ok {| x_chan := bmask mask (bins fl); x_emin := emin; x_emax := emax;
          x_matrix := map (bmask mask) (group_matrix r fl good);
          x_counts := counts; x_errors := errors; x_area := bmask mask (sd_scale (fst sc));
          x_back := back; x_net := net_c; x_net_errors := net_e;
          x_ce := zip2 Rmult net_c unit; x_ce_errors := zip2 Rmult net_e unit |} in
  match bk with
  | None => mk None counts errors
  | Some b =>
      bind (group_scales b false fl good) (fun bsc =>
      bind (spectrum_group b fl good) (fun bce =>
      let ratio := bmask mask (group_back_ratio (s_exposure s) (s_exposure b) (fst sc) (snd sc) (fst bsc) (snd bsc)) in
      let bc := bmask mask (fst bce) in
      let be := bmask mask (snd bce) in
      mk (Some (bc, be, ratio)) (zip2 Rminus counts (zip2 Rmult ratio bc))
         (zip2 (fun e rb => sqrt (sq e + sq rb)) errors (zip2 Rmult ratio be))))
  end)).

(** data/base.py:233-256 [set_erange]: validation and sorting *)
Fixpoint insert_range (x : R * R) (l : erange) : erange :=
  match l with [] => [x] | y :: r => if Rleb (fst x) (fst y) then x :: y :: r else y :: insert_range x r end.
Definition sort_erange (er : erange) : erange := fold_right insert_range [] er.
Definition flatten (er : erange) : list R := concat (map (fun p => [fst p; snd p]) er).
Definition check_erange (er : erange) : res erange :=
  match er with
  | [] => Err IndexError
  | _ => if existsb (fun p => Rleb (snd p - fst p) 0) er then Err ValueError
         else let er := sort_erange er in
              if negb (strictly_increasing (flatten er)) then Err ValueError else Ok er
  end.

(** data/base.py:258-293: the array handed in (or the one of the file) *)
Definition choose_grouping (s : spectrum) (r : response) (g : option (list Z)) : res (list Z) :=
  let g := match g with None => s_grouping s | Some g => g end in
  if negb (length g =? length (r_emin r)) then Err ValueError else
  match g with [] => Err IndexError | _ => Ok (fix_first g) end.

Definition set_grouping (o : obs) (g : option (list Z)) : res obs :=
  bind (choose_grouping (o_spec o) (o_resp o) g) (fun fl =>
  bind (expose (o_spec o) (o_resp o) (o_bk o) (o_good o) (o_erange o) fl) (fun x =>
  Ok {| o_spec := o_spec o; o_resp := o_resp o; o_bk := o_bk o; o_good := o_good o;
        o_erange := o_erange o; o_grouping := fl; o_exp := x |})).
Definition set_erange (o : obs) (er : erange) : res obs :=
  bind (check_erange er) (fun er =>
  set_grouping {| o_spec := o_spec o; o_resp := o_resp o; o_bk := o_bk o; o_good := o_good o;
                  o_erange := er; o_grouping := o_grouping o; o_exp := o_exp o |} (Some (o_grouping o))).

(** data/base.py:106-133 bad channels: flags 1, 2, 5 (or 1 only) in the source or the
    background *)
Definition is_good (ignore_bad : bool) (q : Z) : bool :=
  negb (existsb (Z.eqb q) (if ignore_bad then [1; 2; 5]%Z else [1]%Z)).
Definition good_mask (ignore_bad : bool) (s : spectrum) (b : option spectrum) : list bool :=
  let g := map (is_good ignore_bad) (s_quality s) in
  match b with
  | None => g
  | Some b => zip2 andb g (map (is_good ignore_bad) (s_quality b))
  end.
(** data/base.py:58-139 [ObservationData.__init__] *)
Definition mk_obs (er : erange) (s : spectrum) (r : response) (b : option spectrum) (ignore_bad : bool) : res obs :=
  if negb (length (s_counts s) =? length (r_emin r)) then Err ValueError else
  if negb (match b with Some b => length (s_counts b) =? length (r_emin r) | None => true end) then Err ValueError else
  let good := good_mask ignore_bad s b in
  if negb (existsb (fun x => x) good) then Err RuntimeError else
  bind (check_erange er) (fun er =>
  bind (choose_grouping s r None) (fun fl =>
  bind (expose s r b good er fl) (fun x =>
  Ok {| o_spec := s; o_resp := r; o_bk := b; o_good := good; o_erange := er; o_grouping := fl; o_exp := x |}))).

(** ** data/base.py:371-694 [group] *)
(** data/grouping.py:42-98 [group_min] on real counts (same loop as [Grouping.group_min]) *)
Fixpoint min_loopR (data : list R) (i imax : nat) (n gc : R) (idx : list nat) : list nat :=
  match data with
  | [] => idx
  | di :: rest =>
      let gc := gc + di in
      if i =? imax then
        if (Rltb gc n && (1 <? length idx))%bool then removelast idx else idx
      else if Rleb n gc then min_loopR rest (S i) imax n 0 (idx ++ [S i])
      else min_loopR rest (S i) imax n gc idx
  end.
Definition group_minR (data : list R) (n : R) : res (list Z * bool) :=
  if Rleb n 0 then Err AssertionError else
  match data with
  | [] => Err IndexError
  | _ => let idx := min_loopR data 0 (length data - 1) n 0 [0%nat] in
         Ok (flags_of idx (length data), forallb (fun s => Rleb n s) (reduceat rsum data idx))
  end.
(** data/grouping.py:141-235 [group_opt] on real counts (same as [Grouping.group_opt]);
    [n = int(n)] *)
Definition ext_minR (bc : list R) (n : R) (i j : nat) : option nat :=
  let cts := rsum (slice i (S j) bc) in
  if Rltb cts n then
    match find_first (fun s => Rleb (n - cts) s) (cumsumR 0 (skipn (S j) bc)) with
    | Some m => Some (j + m + 1)%nat
    | None => None
    end
  else Some j.
Definition group_optR (fwhm net : list R) (bin : option (list R)) (scale : option R) : res (list Z * bool) :=
  if negb (length fwhm =? length net) then Err AssertionError else
  let bint := calc_optimal_binning fwhm net in
  let nchan := length bint in
  let n := match scale with Some s => Rtrunc s | None => 0%Z end in
  let arg := match bin with Some bc => if (0 <? n)%Z then Some (bc, IZR n) else None | None => None end in
  let ext := match arg with Some (bc, n) => ext_minR bc n | None => fun _ j => Some j end in
  bind (opt_scan bint ext nchan) (fun idx =>
    Ok (flags_of idx nchan,
        match arg with Some (bc, n) => forallb (fun s => Rleb n s) (reduceat rsum bc idx) | None => true end)).

Inductive gmethod := Gconst | Gmin | Gsig | Gbmin | Gbsig | Gopt | Goptmin | Goptsig | Goptbmin | Goptbsig.
Definition is_opt (m : gmethod) : bool :=
  match m with Gopt | Goptmin | Goptsig | Goptbmin | Goptbsig => true | _ => false end.

(** per pre-group quantities computed before the segments are cut out (445-483) *)
Record gdata := { g_counts : list R; g_errors : list R; g_net : list R; g_neterr : list R;
  g_sa : scale_data; g_sb : scale_data;
  g_back : option (list R * list R * scale_data * scale_data) }.
Definition group_data (o : obs) (pre : list Z) : res gdata :=
  let s := o_spec o in
  bind (spectrum_group s pre (o_good o)) (fun ce =>
  bind (group_scales s (scale_net s (o_bk o)) pre (o_good o)) (fun sc =>
  match o_bk o with
  | None => Ok {| g_counts := fst ce; g_errors := snd ce; g_net := fst ce; g_neterr := snd ce;
                  g_sa := fst sc; g_sb := snd sc; g_back := None |}
  | Some b =>
      bind (spectrum_group b pre (o_good o)) (fun bce =>
      bind (group_scales b false pre (o_good o)) (fun bsc =>
      let ratio := group_back_ratio (s_exposure s) (s_exposure b) (fst sc) (snd sc) (fst bsc) (snd bsc) in
      Ok {| g_counts := fst ce; g_errors := snd ce;
            g_net := zip2 Rminus (fst ce) (zip2 Rmult ratio (fst bce));
            g_neterr := zip2 (fun e rb => sqrt (e * e + rb * rb)) (snd ce) (zip2 Rmult ratio (snd bce));
            g_sa := fst sc; g_sb := snd sc;
            g_back := Some (fst bce, snd bce, fst bsc, snd bsc) |}))
  end)).
(** data/base.py:223-231 [_counts_data_for_opt_grouping]; [_raw_back_ratio] of 92-104 *)
Definition raw_ratio (s b : spectrum) : list R :=
  zip2 (fun nu de => if Reqb de 0 then 1 else nu / de)
    (zip2 Rmult (map (Rmult (s_exposure s)) (s_area s)) (s_back s))
    (zip2 Rmult (map (Rmult (s_exposure b)) (s_area b)) (s_back b)).
Definition opt_counts (o : obs) : list R :=
  match o_bk o with
  | Some b => zip2 Rminus (s_counts (o_spec o)) (zip2 Rmult (raw_ratio (o_spec o) b) (s_counts b))
  | None => s_counts (o_spec o)
  end.

(** 515-660: the routine applied to the segment selected by [mask] *)
Definition scales_of (o : obs) (b : spectrum) (d : gdata) (basc bbsc : scale_data) (mask : list bool) : scales :=
  {| es := s_exposure (o_spec o); eb := s_exposure b;
     sa := slice_scale_data (g_sa d) mask; sb := slice_scale_data (g_sb d) mask;
     ba := slice_scale_data basc mask; bb := slice_scale_data bbsc mask |}.
Definition segment (o : obs) (d : gdata) (m : gmethod) (scale : R) (mask : list bool) : res (list Z * bool) :=
  let seg := bmask mask in
  let fwhm := seg (r_fwhm (o_resp o)) in
  let oc := seg (opt_counts o) in
  match m with
  | Gconst => group_const (length (seg (g_counts d))) (Z.to_nat (Rtrunc scale))
  | Gmin => group_minR (seg (g_counts d)) scale
  | Gsig | Goptsig =>
      match o_bk o, g_back d with
      | Some b, Some (bc, be, basc, bbsc) =>
          if s_poisson (o_spec o) then
            let k := scales_of o b d basc bbsc mask in
            if s_poisson b then
              if is_opt m then group_optsig_lima fwhm oc (seg (g_counts d)) (seg bc) k scale
              else group_sig_lima (seg (g_counts d)) (seg bc) k scale
            else
              if is_opt m then group_optsig_gv fwhm oc (seg (g_counts d)) (seg bc) (seg be) k scale
              else group_sig_gv (seg (g_counts d)) (seg bc) (seg be) k scale
          else if is_opt m then group_optsig_normal fwhm oc (seg (g_net d)) (seg (g_neterr d)) scale
               else group_sig_normal (seg (g_net d)) (seg (g_neterr d)) scale
      | _, _ => if is_opt m then group_optsig_normal fwhm oc (seg (g_net d)) (seg (g_neterr d)) scale
                else group_sig_normal (seg (g_net d)) (seg (g_neterr d)) scale
      end
  | Gbmin | Goptbmin =>
      match o_bk o, g_back d with
      | Some b, Some (bc, be, _, _) =>
          if s_poisson b then
            if is_opt m then group_optR fwhm oc (Some (seg bc)) (Some scale) else group_minR (seg bc) scale
          else Err ValueError
      | _, _ => Err ValueError
      end
  | Gbsig | Goptbsig =>
      match g_back d with
      | Some (bc, be, _, _) =>
          if is_opt m then group_optsig_normal fwhm oc (seg bc) (seg be) scale
          else group_sig_normal (seg bc) (seg be) scale
      | None => Err ValueError
      end
  | Gopt => group_optR fwhm oc None None
  | Goptmin => group_optR fwhm oc (Some (seg (g_counts d))) (Some scale)
  end.

Fixpoint mapM {A B} (f : A -> res B) (l : list A) : res (list B) :=
  match l with
  | [] => Ok []
  | x :: r => bind (f x) (fun y => bind (mapM f r) (fun ys => Ok (y :: ys)))
  end.

(** 682-693: scattering the flags of the selected pre-groups back to the channels *)
Fixpoint cumsumN (acc : nat) (l : list nat) : list nat :=
  match l with [] => [] | x :: r => (acc + x)%nat :: cumsumN (acc + x) r end.
Definition sumN (l : list nat) : nat := fold_right Nat.add 0%nat l.
(** [np.full(n, -1)] then [a[idx] = v] (equal lengths; later entries win) *)
Definition scatter (n : nat) (iv : list (nat * Z)) : list Z :=
  map (fun k => fold_left (fun acc p => if fst p =? k then snd p else acc) iv (-1)%Z) (seq 0 n).
(** [a = full(n, -1); a[~m] = 1; a[m] = v] *)
Fixpoint mask_fill (m : list bool) (v : list Z) : list Z :=
  match m with
  | [] => []
  | true :: m' => match v with x :: v' => x :: mask_fill m' v' | [] => (-1)%Z :: mask_fill m' [] end
  | false :: m' => 1%Z :: mask_fill m' v
  end.
Definition final_grouping (union : list bool) (n_chan : list nat) (flags : list Z) : res (list Z) :=
  let per := bmask union n_chan in
  let idx := 0%nat :: cumsumN 0 (removelast per) in
  match per with
  | [] => Err IndexError
  | _ => if negb (length idx =? length flags) then Err ValueError
         else Ok (mask_fill (concat (zip2 (fun u k => repeat u k) union n_chan))
                            (scatter (sumN per) (combine idx flags)))
  end.

(** 434-693; the boolean of the result is "no GroupingWarning" *)
Definition group_flags (o : obs) (m : gmethod) (scale : option R) (preserve : bool) : res (list Z * bool) :=
  bind (match scale, m with
        | None, Gopt => Ok 0
        | None, _ => Err ValueError
        | Some s, _ => Ok s
        end) (fun sc =>
  if (is_opt m && preserve)%bool then Err ValueError else
  let n := length (s_grouping (o_spec o)) in
  let pre := if preserve then s_grouping (o_spec o) else repeat 1%Z n in
  let n_chan := map (fun p => (snd p - fst p)%nat) (pairs (starts pre) n) in
  let ng := n_good pre (o_good o) in
  let '(gemin, gemax) := group_energy (o_resp o) pre in
  let masks := map (fun row => zip2 andb row (map (fun k => 1 <=? k)%nat ng)) (channel_masks (o_erange o) gemin gemax) in
  bind (group_data o pre) (fun d =>
  bind (mapM (segment o d m sc) masks) (fun rs =>
  bind (final_grouping (any_axis0 (length gemin) masks) n_chan (concat (map fst rs))) (fun fl =>
  Ok (fl, forallb snd rs))))).
Definition group (o : obs) (m : gmethod) (scale : option R) (preserve : bool) : res (obs * bool) :=
  bind (group_flags o m scale preserve) (fun r =>
  bind (set_grouping o (Some (fst r))) (fun o' => Ok (o', snd r))).

(** ** The object as a state machine: assignments in python order, so that a call that
    raises half way leaves the state python would leave *)
Definition set_grouping_st (o : obs) (g : option (list Z)) : obs * option err :=
  match choose_grouping (o_spec o) (o_resp o) g with
  | Err e => (o, Some e)
  | Ok fl =>
      (* 291: [self._grouping = grouping] *)
      let o1 := {| o_spec := o_spec o; o_resp := o_resp o; o_bk := o_bk o; o_good := o_good o;
                   o_erange := o_erange o; o_grouping := fl; o_exp := o_exp o |} in
      match expose (o_spec o) (o_resp o) (o_bk o) (o_good o) (o_erange o) fl with
      | Err e => (o1, Some e)
      | Ok x => ({| o_spec := o_spec o; o_resp := o_resp o; o_bk := o_bk o; o_good := o_good o;
                    o_erange := o_erange o; o_grouping := fl; o_exp := x |}, None)
      end
  end.
(** 243-256 *)
Definition set_erange_st (o : obs) (er : erange) : obs * option err :=
  match check_erange er with
  | Err e => (o, Some e)
  | Ok er => set_grouping_st {| o_spec := o_spec o; o_resp := o_resp o; o_bk := o_bk o; o_good := o_good o;
                o_erange := er; o_grouping := o_grouping o; o_exp := o_exp o |} (Some (o_grouping o))
  end.
(** 371-694 *)
Definition group_st (o : obs) (m : gmethod) (scale : option R) (preserve : bool) : obs * option err :=
  match group_flags o m scale preserve with
  | Err e => (o, Some e)
  | Ok (fl, _) => set_grouping_st o (Some fl)
  end.

Inductive op := SetErange (er : erange) | SetGrouping (g : option (list Z)) | Group (m : gmethod) (scale : option R) (preserve : bool).
Definition step (o : obs) (a : op) : obs * option err :=
  match a with
  | SetErange er => set_erange_st o er
  | SetGrouping g => set_grouping_st o g
  | Group m s p => group_st o m s p
  end.
Definition run (o : obs) (ops : list op) : obs := fold_left (fun o a => fst (step o a)) ops o.
