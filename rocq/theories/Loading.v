(** Model of how an observation is loaded from files: data/ogip.py:19-46, 147-245 [Data.__init__], 275-345 and 430-480
    (row specifier, name and file names of [Spectrum.__init__]) and 549-592 [Response.__init__].  The content of the columns is
    in Ogip.v.  The file system is a set of functions from paths to contents, which may fail in any way.
    [Response._drop_zeros] (748-779) is never called and is not modelled. *)
From Coq Require Import Ascii String.
From Verif Require Import RBase Significance Data Namespace Ogip.
From Coq Require Import List.
Open Scope list_scope.

(** ** [re.compile(r'(.+){(.+)}').match(path)], 276 and 563: greedy, anchored at the start but not at the end; [.] is any
    character but a newline *)
Definition newline : ascii := ascii_of_nat 10.
Fixpoint first_line (s : str) : str :=
  match s with [] => [] | c :: r => if Ascii.eqb c newline then [] else c :: first_line r end.
(** the text before the last [c] *)
Fixpoint before_last (c : ascii) (s : str) : option str :=
  match s with
  | [] => None
  | d :: r => match before_last c r with
              | Some b => Some (d :: b)
              | None => if Ascii.eqb d c then Some [] else None
              end
  end.
(** [{(.+)}] after the opening brace *)
Definition group2 (s : str) : option str := match before_last "}"%char s with Some (c :: b) => Some (c :: b) | _ => None end.
Fixpoint match_rest (s : str) : option (str * str) :=
  match s with
  | [] => None
  | c :: r => match match_rest r with
              | Some (a, b) => Some (c :: a, b)
              | None => if Ascii.eqb c "{"%char then match group2 r with Some b => Some ([], b) | None => None end else None
              end
  end.
Definition split_spec (s : str) : option (str * str) :=
  match first_line s with
  | [] => None
  | c :: r => match match_rest r with Some (a, b) => Some (c :: a, b) | None => None end
  end.
(** [int(text)], 280 and 566, for an optional sign and decimal digits (the blanks and underscores that [int] tolerates are not
    modelled: they are refused here) *)
Definition digit (c : ascii) : option Z :=
  let n := nat_of_ascii c in if (48 <=? n) && (n <=? 57) then Some (Z.of_nat n - 48)%Z else None.
Fixpoint digits (acc : Z) (s : str) : option Z :=
  match s with
  | [] => Some acc
  | c :: r => match digit c with Some d => digits (10 * acc + d)%Z r | None => None end
  end.
Definition digits1 (s : str) : option Z := match s with [] => None | _ => digits 0 s end.
Definition int_of (s : str) : option Z :=
  match s with
  | [] => None
  | c :: r => if Ascii.eqb c "-"%char then option_map Z.opp (digits1 r)
              else if Ascii.eqb c "+"%char then digits1 r else digits1 (c :: r)
  end.

(** ** Text of headers *)
Definition lower_char (c : ascii) : ascii :=
  let n := nat_of_ascii c in if (65 <=? n) && (n <=? 90) then ascii_of_nat (n + 32) else c.
Definition upper_char (c : ascii) : ascii :=
  let n := nat_of_ascii c in if (97 <=? n) && (n <=? 122) then ascii_of_nat (n - 32) else c.
Definition is_space (c : ascii) : bool :=
  let n := nat_of_ascii c in (n =? 32) || ((9 <=? n) && (n <=? 13)) || ((28 <=? n) && (n <=? 31)).
Fixpoint lstrip (s : str) : str := match s with c :: r => if is_space c then lstrip r else s | [] => [] end.
Definition strip (s : str) : str := rev (lstrip (rev (lstrip s))).
(** an optional argument that is [None] or empty is not given *)
Definition truthy (o : option str) : option str := match o with Some (c :: r) => Some (c :: r) | _ => None end.

(** the header of the SPECTRUM extension, and one row of a type II table: columns win over keywords (321-334 [get_field]) *)
Record hdr := { h_detchans : option Z; h_hduclas4 : str; h_hduclas2 : option str; h_poisserr : option bool;
  h_detnam : option str; h_instrume : option str; h_telescop : option str;
  h_back : option str; h_resp : option str; h_ancr : option str }.
Record prow := { w_pha : pha; w_back : option str; w_resp : option str; w_ancr : option str }.
(** a table with one row per channel, or with one row per spectrum.  In the former the names of the other files are keywords *)
Inductive table := Channels (p : pha) | Rows (l : list prow).
Record spec_file := { sf_hdr : hdr; sf_tab : table }.

(** 19-20 *)
Definition hduclas2 (h : hdr) : str := map upper_char (strip (match h_hduclas2 h with Some s => s | None => [] end)).
(** 456-462 *)
Definition net_flag (h : hdr) : option bool :=
  if str_eqb (hduclas2 h) (s2l "NET") then Some true
  else if str_in (hduclas2 h) [s2l "TOTAL"; s2l "BKG"] then Some false else None.
(** the keywords POISSERR and HDUCLAS2 come from the header even for a type II row *)
Definition with_header (h : hdr) (p : pha) : pha :=
  {| p_exposure := p_exposure p; p_counts := p_counts p; p_rate := p_rate p; p_stat := p_stat p; p_sys := p_sys p;
     p_quality := p_quality p; p_grouping := p_grouping p; p_area := p_area p; p_back := p_back p;
     p_poisserr := h_poisserr h; p_net := net_flag h |}.
(** 430-438 *)
Definition excluded_name : list str := [[]; s2l "none"; s2l "unknown"].
Fixpoint search_name (l : list (option str)) : str :=
  match l with
  | [] => []
  | o :: r => let name := match o with Some s => s | None => [] end in
              if negb (str_in (map lower_char name) excluded_name) then name else search_name r
  end.
Definition header_name (h : hdr) : str := search_name [h_detnam h; h_instrume h; h_telescop h].
(** 469-478 *)
Definition excluded_file : list str := [s2l "none"; s2l "None"; s2l "NONE"].
Definition file_field (cell keyword : option str) : str :=
  let v := match cell, keyword with Some v, _ => v | None, Some v => v | None, None => [] end in
  if str_in v excluded_file then [] else v.

(** [data[start:stop]] *)
Definition clip_index (n : nat) (k : Z) : nat :=
  if (k <? 0)%Z then Z.to_nat (k + Z.of_nat n) else Nat.min (Z.to_nat k) n.
Definition pyslice {A} (start stop : Z) (l : list A) : list A := slice (clip_index (length l) start) (clip_index (length l) stop) l.

(** the object: what the rest of the loader uses of it *)
Record spec_obj := { so_data : spectrum; so_name : str; so_back : str; so_resp : str; so_ancr : str; so_class : str }.
Definition nrows (p : pha) : nat := match p_counts p, p_rate p with Some c, _ => length c | None, Some r => length r | None, None => 0 end.
(** 290-303: the checks without a row specifier *)
Definition type_i_ok (h : hdr) (n : nat) : bool :=
  (match h_detchans h with Some d => (d =? Z.of_nat n)%Z | None => true end && negb (str_eqb (h_hduclas4 h) (s2l "TYPE:II")))%bool.
(** [Spectrum.__init__] on an open file; [row] is the integer of the specifier.  A table of spectra read without a specifier,
    if it passes the checks, has counts in two dimensions and is refused by [SpectrumData]; a table of channels read with one
    has a single number as counts, of which [len] fails; a slice without rows fails in [value[0]].  (These three may fail
    earlier for the reasons that [read_spectrum] fails for.) *)
Definition read_file (f : spec_file) (row : option Z) (poisson : option bool) : res spec_obj :=
  let h := sf_hdr f in
  let obj (p : pha) (b r a : option str) :=
    bind (read_spectrum (with_header h p) poisson) (fun s =>
    Ok {| so_data := s; so_name := header_name h; so_back := file_field b (h_back h); so_resp := file_field r (h_resp h);
          so_ancr := file_field a (h_ancr h); so_class := hduclas2 h |}) in
  match row, sf_tab f with
  | None, Channels p => if type_i_ok h (nrows p) then obj p None None None else Err ValueError
  | None, Rows l => Err ValueError
  | Some k, Channels p => Err TypeError
  | Some k, Rows l => match pyslice (k - 1) (k - 1 + 1) l with
                      | w :: _ => obj (w_pha w) (w_back w) (w_resp w) (w_ancr w)
                      | [] => Err IndexError
                      end
  end.

(** ** Files *)
Inductive rkind := RMatrix | RSpecresp | ROther.
(** a response file: the name of its matrix extensions, and these by version ([EXTVER]) *)
Record resp_hdus := { rh_kind : rkind; rh_exts : list (Z * resp_file) }.
Record files := { fs_spec : str -> res spec_file; fs_resp : str -> res resp_hdus; fs_arf : str -> res (list R);
                  fs_fwhm : resp_file -> list R (* Fwhm.v *) }.
Inductive warning := WBkg | WNet | WRmf.

(** 275-287 *)
Definition spectrum_init (e : files) (path : str) (poisson : option bool) : res spec_obj :=
  match split_spec path with
  | Some (file, n) =>
      match int_of n with
      | None => Err ValueError
      | Some k => bind (fs_spec e file) (fun f => read_file f (Some k) poisson)
      end
  | None => bind (fs_spec e path) (fun f => read_file f None poisson)
  end.
Fixpoint get_ext (k : Z) (l : list (Z * resp_file)) : option resp_file :=
  match l with [] => None | (v, x) :: r => if (v =? k)%Z then Some x else get_ext k r end.
Definition with_arf (f : resp_file) (a : option (list R)) : resp_file :=
  {| rf_elo := rf_elo f; rf_ehi := rf_ehi f; rf_first := rf_first f; rf_nchan := rf_nchan f; rf_rows := rf_rows f;
     rf_emin := rf_emin f; rf_emax := rf_emax f; rf_arf := a |}.
(** 549-592 [Response.__init__], 604-632 (choice of the extension), 741-745 [_read_arf] *)
Definition response_init (e : files) (path : str) (ancr : option str) : res (response * list warning) :=
  let ancr := match ancr with None => Some [] | Some a => Some a end in
  bind (match split_spec path with
        | Some (file, n) => match int_of n with None => Err ValueError | Some k => Ok (file, k) end
        | None => Ok (path, 1%Z)
        end) (fun fk =>
  bind (fs_resp e (fst fk)) (fun h =>
  let w := match rh_kind h, ancr with RMatrix, None => [WRmf] | _, _ => [] end in
  match rh_exts h with
  | [] => Err ValueError
  | _ =>
    match get_ext (snd fk) (rh_exts h) with
    | None => Err KeyError
    | Some f =>
        bind (match truthy ancr with Some a => bind (fs_arf e a) (fun x => Ok (Some x)) | None => Ok None end) (fun arf =>
        bind (read_response (with_arf f arf) (fs_fwhm e f)) (fun r => Ok (r, w)))
    end
  end)).
(** 23-46 *)
Definition classification (sp : spec_obj) (b : option spec_obj) : list warning :=
  (if str_eqb (so_class sp) (s2l "BKG") then [WBkg] else []) ++
  match b with None => [] | Some _ => if str_eqb (so_class sp) (s2l "NET") then [WNet] else [] end.

Record args := { a_erange : erange; a_spec : str; a_back : option str; a_resp : option str; a_ancr : option str; a_name : option str;
  a_group : option gmethod; a_scale : option R; a_preserve : bool; a_spec_poisson : option bool; a_back_poisson : option bool;
  a_ignore_bad : bool }.
(** an optional file: the argument if it is given, else that of the header if there is one *)
Definition pick (given : option str) (header : str) : option str :=
  match truthy given with Some f => Some f | None => truthy (Some header) end.
(** 147-245 *)
Definition load (e : files) (a : args) : res (str * obs * list warning) :=
  bind (spectrum_init e (a_spec a) (a_spec_poisson a)) (fun sp =>
  match pick (a_name a) (so_name sp) with
  | None => Err ValueError
  | Some name =>
    let ancr := match truthy (a_ancr a) with Some f => f | None => so_ancr sp end in
    match pick (a_resp a) (so_resp sp) with
    | None => Err ValueError
    | Some rp =>
      bind (response_init e rp (Some ancr)) (fun rw =>
      if negb (length (s_counts (so_data sp)) =? length (r_emin (fst rw))) then Err ValueError else
      bind (match pick (a_back a) (so_back sp) with
            | None => Ok None
            | Some bp => bind (spectrum_init e bp (a_back_poisson a)) (fun b => Ok (Some b))
            end) (fun b =>
      if negb (match b with Some b => length (s_counts (so_data b)) =? length (r_emin (fst rw)) | None => true end) then Err ValueError else
      let ws := snd rw ++ classification sp b in
      bind (mk_obs (a_erange a) (so_data sp) (fst rw) (option_map so_data b) (a_ignore_bad a)) (fun o =>
      match a_group a with
      | None => Ok (name, o, ws)
      | Some m => bind (group o m (a_scale a) (a_preserve a)) (fun g => Ok (name, fst g, ws))
      end)))
    end
  end).
