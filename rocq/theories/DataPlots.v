(** Model of the plots of a data set and of its response: data/base.py:696-835 [ObservationData.plot_spec], 837-879 (the two
    wrappers, which pass the noticed ranges and the quality mask), 1610-1681 [ResponseData.plot_effective_area] and 1683-1769
    [ResponseData.plot_matrix].  What is modelled is what is drawn: points, steps, coloured cells and hatched ranges; colours,
    labels, scales and limits are not. *)
From Verif Require Import RBase Base Data Significance HelperData.
From Coq Require Import List.
Open Scope list_scope.
Open Scope R_scope.

(** ** 1657-1674, 1742-1760: the hatched ranges *)
(** the bins [lo_k, hi_k] inside the noticed interval, in order *)
Definition inside_bins (lo hi : list R) (iv : R * R) : list nat :=
  filter (fun k => (Rleb (fst iv) (nth k lo 0) && Rleb (nth k hi 0) (snd iv))%bool) (seq 0 (length lo)).
(** [idx[i][0]] and [idx[i][-1]] *)
Definition span (lo hi : list R) (iv : R * R) : res (nat * nat) :=
  match inside_bins lo hi iv with [] => Err IndexError | f :: r => Ok (f, last r f) end.
Fixpoint between (lo hi : list R) (sp : list (nat * nat)) : list (R * R) :=
  match sp with
  | (_, g) :: (((f', _) :: _) as r) => (nth g hi 0, nth f' lo 0) :: between lo hi r
  | _ => []
  end.
Definition ignored (lo hi : list R) (ivs : list (R * R)) : res (list (R * R)) :=
  bind (mapE (span lo hi) ivs) (fun sp =>
  match sp with
  | [] => Err IndexError
  | (f0, _) :: _ =>
      let gl := snd (last sp (0%nat, 0%nat)) in
      Ok ((if Rltb (nth 0 lo 0) (nth f0 lo 0) then [(nth 0 lo 0, nth f0 lo 0)] else []) ++
          between lo hi sp ++
          (if Rltb (nth gl hi 0) (last hi 0) then [(nth gl hi 0, last hi 0)] else []))
  end).
Definition hatches (lo hi : list R) (noticed : option (list (R * R))) : res (list (R * R)) :=
  match noticed with None => Ok [] | Some ivs => ignored lo hi ivs end.

(** ** 1633-1648 [plot_effective_area] *)
Definition eff_area (r : response) (good : option (list bool)) : res (list R) :=
  match good with
  | None => Ok (map (fun row => Rmax (rsum row) 0) (r_matrix r))
  | Some g => if negb (length g =? length (r_emin r))%nat then Err ValueError
              else Ok (map (fun row => Rmax (rsum (zip2 Rmult row (map b2r g))) 0) (r_matrix r))
  end.
(** [plt.step(x, y)] with the default [where='pre']: the level [y[i+1]] from [x[i]] to [x[i+1]] *)
Definition step_pre (x y : list R) : list ((R * R) * R) := combine (combine x (tl x)) (tl y).
Definition plot_effective_area (r : response) (noticed : option (list (R * R))) (good : option (list bool)) :
    res (list ((R * R) * R) * list (R * R)) :=
  bind (eff_area r good) (fun e =>
  bind (hatches (removelast (r_egrid r)) (tl (r_egrid r)) noticed) (fun h =>
  Ok (step_pre (r_egrid r) (e ++ [last e 0]), h))).

(** ** 1704-1766 [plot_matrix] *)
(** [np.insert(l, idx, values)]: every value goes before the entry that had its index; the indices increase *)
Fixpoint np_insert {A} (k : nat) (ins : list (nat * A)) (l : list A) : list A :=
  match l with
  | [] => map snd ins
  | x :: t => match ins with
              | (i, v) :: r => if (i =? k)%nat then v :: x :: np_insert (S k) r t else x :: np_insert (S k) ins t
              | [] => l
              end
  end.
(** [np.flatnonzero(emin[1:] - emax[:-1])] *)
Definition gaps (lo hi : list R) : list nat :=
  filter (fun j => negb (Reqb (nth (S j) lo 0 - nth j hi 0) 0)) (seq 0 (length lo - 1)).
Definition new_emin (lo hi : list R) : list R := np_insert 0 (map (fun j => (S j, nth j hi 0)) (gaps lo hi)) lo.
(** the values inserted into [channel_emax] are read from the [channel_emin] that has just been replaced *)
Definition new_emax (lo hi : list R) : list R := np_insert 0 (map (fun j => (S j, nth (S j) (new_emin lo hi) 0)) (gaps lo hi)) hi.
(** a row of the matrix, clipped and with [nan] in the gaps *)
Definition new_row (lo hi : list R) (amin : R) (row : list R) : list (option R) :=
  np_insert 0 (map (fun j => (S j, None)) (gaps lo hi)) (map (fun v => Some (Rmax v amin)) row).
(** [matrix.max()] of the channels in use *)
Definition mat_max (rows : list (list R)) : R := lmax (concat rows).
(** [plt.pcolormesh] draws entry [j] of a row between [egrid[j]] and [egrid[j+1]] *)
Definition plot_matrix (r : response) (noticed : option (list (R * R))) (good : option (list bool)) (log : bool) :
    res (list (list ((R * R) * option R)) * list (R * R)) :=
  bind (match good with
        | None => Ok (r_emin r, r_emax r, r_matrix r)
        | Some g => if negb (length g =? length (r_emin r))%nat then Err ValueError
                    else Ok (bmask g (r_emin r), bmask g (r_emax r), map (bmask g) (r_matrix r))
        end) (fun d =>
  let '(lo, hi, rows) := d in
  if (length lo =? 0)%nat then Err (if log then ValueError else IndexError) else
  let amin := if log then mat_max rows * 1e-5 else 0 in
  let lo' := new_emin lo hi in
  let hi' := new_emax lo hi in
  let grid := lo' ++ [last hi' 0] in
  bind (hatches lo' hi' noticed) (fun h =>
  Ok (map (fun row => combine (combine grid (tl grid)) (new_row lo hi amin row)) rows, h))).

(** ** 733-826 [plot_spec] *)
Record point := { pt_x : R; pt_left : R; pt_right : R; pt_total : R; pt_total_err : R;
                  pt_back : option (R * R); pt_sig : R; pt_sig_err : R }.
Definition spec_point (s : spectrum) (b : option spectrum) (x : exposed) (xlog : bool) (k : nat) : point :=
  let lo := nth k (x_emin x) 0 in
  let hi := nth k (x_emax x) 0 in
  let c := nth k (x_counts x) 0 in
  let e := nth k (x_errors x) 0 in
  let net := nth k (x_net x) 0 in
  let nete := nth k (x_net_errors x) 0 in
  let m := if xlog then sqrt (lo * hi) else 0.5 * (lo + hi) in
  let factor := 1 / (s_exposure s * (hi - lo)) in
  let sig :=
    if s_poisson s then
      match b, x_back x with
      | Some b', Some (bc, be, ratio) =>
          if s_poisson b' then significance_lima c (nth k bc 0) (nth k ratio 0)
          else significance_gv c (nth k bc 0) (nth k be 0) (nth k ratio 0)
      | _, _ => if Rltb 0 net then net / nete else 0
      end
    else net / nete in
  {| pt_x := m;
     pt_left := if xlog then Rabs (lo - m) else 0.5 * (hi - lo);
     pt_right := if xlog then Rabs (hi - m) else 0.5 * (hi - lo);
     pt_total := c * factor; pt_total_err := e * factor;
     pt_back := match x_back x with
                | Some (bc, be, ratio) => Some (nth k bc 0 * (nth k ratio 0 * factor), nth k be 0 * (nth k ratio 0 * factor))
                | None => None end;
     pt_sig := sig; pt_sig_err := if Reqb sig 0 then 0 else 1 |}.
Definition plot_spec (o : obs) (xlog : bool) : list point :=
  map (spec_point (o_spec o) (o_bk o) (o_exp o) xlog) (seq 0 (length (x_emin (o_exp o)))).
