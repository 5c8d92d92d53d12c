(** Model of data/ogip.py: [Response._read_response], the ancillary response, and
    [Spectrum.__init__].  FITS parsing itself (astropy) is not modelled: a file is the
    record of the columns and keywords that the functions read. *)
From Verif Require Import RBase Significance Data.

(** ** Redistribution matrix *)

(** one row of the MATRIX extension: N_GRP, F_CHAN, N_CHAN, MATRIX *)
Record rmf_row := { n_grp : Z; f_chan : list Z; n_chan : list Z; stored : list R }.
Definition zslice (n : Z) {A} (l : list A) : list A := firstn (Z.to_nat n) l.

(** [np.arange(start, start + width)]: empty when [width <= 0] *)
Definition arange (start width : Z) : list Z := map (fun k => (start + Z.of_nat k)%Z) (seq 0 (Z.to_nat width)).

(** data/ogip.py:681-709, one iteration of the loop over the rows: the column indices and the
    values appended for the row ([[], []] when the row is skipped); [fc] is [first_chan] *)
Definition read_row (fc : Z) (r : rmf_row) : res (list Z * list R) :=
  if (n_grp r <=? 0)%Z then Ok ([], []) else
  let f := zslice (n_grp r) (map (fun c => (c - fc)%Z) (f_chan r)) in
  let widths := zslice (n_grp r) (n_chan r) in
  if (negb (Z.of_nat (length f) =? n_grp r) || negb (Z.of_nat (length widths) =? n_grp r))%Z%bool then Err ValueError else
  let n_elem := sumZ widths in
  if (n_elem <=? 0)%Z then Ok ([], []) else
  if (Z.of_nat (length (stored r)) <? n_elem)%Z then Err ValueError else
  Ok (concat (map (fun p => arange (fst p) (snd p)) (combine f widths)), zslice n_elem (stored r)).

(** the loop: the row index is repeated once per value (data/ogip.py:703) *)
Fixpoint read_rows (fc : Z) (i : nat) (rs : list rmf_row) : res (list nat * list Z * list R) :=
  match rs with
  | [] => Ok ([], [], [])
  | r :: rest =>
      bind (read_row fc r) (fun cv =>
      bind (read_rows fc (S i) rest) (fun t =>
      let '(rows, cols, vals) := t in
      Ok (repeat i (length (snd cv)) ++ rows, fst cv ++ cols, snd cv ++ vals)))
  end.

(** [coo_array((vals, (rows, cols)), shape=(nr, nc))] of scipy, as a dense matrix: duplicated
    entries are summed ([eliminate_zeros] does not change the dense value); lengths must agree
    and every index must be inside the shape, or scipy raises [ValueError] *)
Definition coo (nr nc : nat) (rows : list nat) (cols : list Z) (vals : list R) : res (list (list R)) :=
  if negb ((length rows =? length cols) && (length cols =? length vals))%nat%bool then Err ValueError else
  if negb (forallb (fun c => (0 <=? c) && (c <? Z.of_nat nc))%Z%bool cols && forallb (fun r => r <? nr)%nat rows)%bool then Err ValueError else
  Ok (map (fun i => map (fun c => rsum (map (fun t => if ((fst (fst t) =? i)%nat && (snd (fst t) =? Z.of_nat c)%Z)%bool then snd t else 0)
                                     (combine (combine rows cols) vals))) (seq 0 nc)) (seq 0 nr)).

(** data/ogip.py:671-735 (the matrix part of [_read_response]); [nc] is DETCHANS *)
Definition read_matrix (fc : Z) (nc : nat) (rs : list rmf_row) : res (list (list R)) :=
  bind (read_rows fc 0 rs) (fun t => let '(rows, cols, vals) := t in coo (length rs) nc rows cols vals).

(** data/ogip.py:574-580: multiplication by the ARF *)
Definition apply_arf (m : list (list R)) (arf : option (list R)) : res (list (list R)) :=
  match arf with
  | None => Ok m
  | Some a => if (length a =? length m)%nat then Ok (zip2 (fun x row => map (Rmult x) row) a m) else Err ValueError
  end.

(** data/ogip.py:641-658: the photon energy grid, in keV *)
Definition photon_grid (emin emax : list R) : list R :=
  match emin ++ [last emax 0] with
  | e0 :: r => (if Rleb e0 0 then Rmax (/ 10 ^ 30) (1 / 1000 * hd 0 r) else e0) :: r
  | [] => []
  end.

(** a response file: columns of the MATRIX and EBOUNDS extensions, and the ARF *)
Record resp_file := { rf_elo : list R; rf_ehi : list R; rf_first : Z; rf_nchan : nat; rf_rows : list rmf_row;
                      rf_emin : list R; rf_emax : list R; rf_arf : option (list R) }.
(** data/ogip.py:549-590 [Response.__init__] *)
Definition read_response (f : resp_file) (fwhm : list R) : res response :=
  bind (read_matrix (rf_first f) (rf_nchan f) (rf_rows f)) (fun m =>
  bind (apply_arf m (rf_arf f)) (fun m =>
  mk_response (photon_grid (rf_elo f) (rf_ehi f)) (rf_emin f) (rf_emax f) m fwhm)).

(** ** Spectrum *)
(** an OGIP field is absent, a header keyword (or a scalar cell of a type II row), or a column *)
Inductive field (A : Type) := Absent | Keyword (x : A) | Column (l : list A).
Arguments Absent {A}. Arguments Keyword {A} x. Arguments Column {A} l.

Record pha := { p_exposure : R; p_counts : option (list R); p_rate : option (list R); p_stat : option (list R);
  p_sys : field R; p_quality : field Z; p_grouping : field Z; p_area : field R; p_back : field R;
  p_poisserr : option bool; p_net : option bool }.

Definition col_or (d : Z) (n : nat) (f : field Z) : list Z := match f with Column l => l | _ => repeat d n end.
Definition scale_field (f : field R) : arr := match f with Column l => Arr l | Keyword x => Scal x | Absent => Scal 1 end.

(** data/ogip.py:275-500 [Spectrum.__init__].  [poisson] is the argument; the header keyword
    POISSERR wins.  RATE and RATES are one field.  A missing flag raises
    [PoissonFlagNotFoundError], a [RuntimeError]. *)
Definition read_spectrum (p : pha) (poisson : option bool) : res spectrum :=
  match p_counts p, p_rate p with
  | None, None => Err ValueError
  | _, _ =>
    match (match p_poisserr p with Some b => Some b | None => poisson end) with
    | None => Err RuntimeError
    | Some poisson =>
      match (if poisson then Some [] else p_stat p) with
      | None => Err ValueError
      | Some stat =>
        let counts := match p_counts p, p_rate p with
                      | Some c, _ => c
                      | None, Some r => map (fun x => x * p_exposure p) r
                      | None, None => [] end in
        let stat := if poisson then map sqrt counts
                    else match p_rate p with Some _ => map (fun x => x * p_exposure p) stat | None => stat end in
        let sys := match p_sys p with Column l => l | _ => repeat 0 (length counts) end in
        let quality := col_or 0 (length counts) (p_quality p) in
        let grouping := col_or 1 (length counts) (p_grouping p) in
        if (negb poisson && (existsb (fun e => Rltb e 0) stat || existsb (fun e => Rltb e 0) sys))%bool then Err ValueError else
        let errors := if poisson then stat
                      else zip2 (fun e cs => sqrt (sq e + sq cs)) stat (zip2 Rmult sys counts) in
        mk_spectrum counts errors poisson (p_exposure p) (Some quality) (Some grouping)
                    (scale_field (p_area p)) (scale_field (p_back p)) (p_net p) (Arr sys)
      end
    end
  end.
