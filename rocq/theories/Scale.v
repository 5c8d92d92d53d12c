(** Model of the grouped-scale metadata of data/grouping.py:238-507. *)
From Verif Require Import RBase.

(** data/grouping.py:238-246 [_ScaleGroupData] *)
Record scale_data := { sd_scale : list R; sd_counts : list R; sd_nchan : list R;
                       sd_winv : list R; sd_recip : list R; sd_ssum : list R }.

(** one entry of [np.divide(a, b, out=zeros, where=b != 0)] *)
Definition div0 (a b : R) : R := if Reqb b 0 then 0 else a / b.

(** data/grouping.py:398-422: the scale of one group from its statistics.
    NET: [scale_sum / n_chan] where [n_chan != 0], else 1.
    non-NET: [counts / weighted_inv] where [weighted_inv != 0], else
    [n_chan / reciprocal] where [reciprocal != 0], else 1. *)
Definition gscale (net : bool) (c nch w r s : R) : R :=
  if net then (if Reqb nch 0 then 1 else s / nch)
  else if Reqb w 0 then (if Reqb r 0 then 1 else nch / r) else c / w.

Definition same_len {A B} (a : list A) (b : list B) : bool := length a =? length b.
Definition opt_len {A B} (a : option (list A)) (b : list B) : bool :=
  match a with None => true | Some a => same_len a b end.
Definition dflt {A} (d : A) (o : option A) : A := match o with Some a => a | None => d end.

Fixpoint map5 {A} (f : A -> A -> A -> A -> A -> A) (a b c d e : list A) : list A :=
  match a, b, c, d, e with
  | x1 :: a, x2 :: b, x3 :: c, x4 :: d, x5 :: e => f x1 x2 x3 x4 x5 :: map5 f a b c d e
  | _, _, _, _, _ => []
  end.

(** data/grouping.py:314-431 [_group_scale_data].  All arrays are 1-d;
    shape mismatches raise ValueError in the python order (every one of them
    is a ValueError, so the order is not observable). *)
Definition group_scale_data (counts scale : list R) (grouping : list Z)
    (quality : option (list R)) (net : bool)
    (n_chan winv recip ssum : option (list R)) : res scale_data :=
  if negb (same_len counts scale && same_len grouping counts && opt_len quality counts
           && opt_len n_chan counts && opt_len winv counts && opt_len recip counts
           && opt_len ssum counts) then Err ValueError else
  let ones := map (fun _ => 1) counts in
  let factor := dflt ones quality in
  let n_chan := dflt ones n_chan in
  let winv := dflt (map (fun p => div0 (fst p) (snd p)) (combine counts scale)) winv in
  let recip := dflt (map (fun s => div0 1 s) scale) recip in
  let ssum := dflt scale ssum in
  let idx := starts grouping in
  let gc := reduceat rsum (rmul2 factor counts) idx in
  let gn := reduceat rsum (rmul2 factor n_chan) idx in
  let gw := reduceat rsum (rmul2 factor winv) idx in
  let gr := reduceat rsum (rmul2 factor recip) idx in
  let gs := reduceat rsum (rmul2 factor ssum) idx in
  Ok {| sd_scale := map5 (gscale net) gc gn gw gr gs;
        sd_counts := gc; sd_nchan := gn; sd_winv := gw; sd_recip := gr; sd_ssum := gs |}.

(** grouping the raw channels, as in data/base.py:141-190 *)
Definition group_scale_raw counts scale grouping quality net : res scale_data :=
  group_scale_data counts scale grouping quality net None None None None.

(** regrouping grouped metadata *)
Definition regroup_scale (d : scale_data) (grouping : list Z) (net : bool) : res scale_data :=
  group_scale_data (sd_counts d) (sd_scale d) grouping None net
    (Some (sd_nchan d)) (Some (sd_winv d)) (Some (sd_recip d)) (Some (sd_ssum d)).

(** data/grouping.py:260-263 [_prefix_sum]: [concatenate([0], cumsum(values))] *)
Fixpoint cumsumR (acc : R) (l : list R) : list R :=
  match l with [] => [] | x :: r => (acc + x) :: cumsumR (acc + x) r end.
Definition prefix_sum (l : list R) : list R := 0 :: cumsumR 0 l.

(** data/grouping.py:266-268 [_interval_sum] *)
Definition interval_sum (p : list R) (a b : nat) : R := nth b p 0 - nth a p 0.

(** data/grouping.py:249-257, 271-280 [_ScalePrefixData], [_build_scale_prefix] *)
Record prefix_data := { pd_counts : list R; pd_nchan : list R; pd_winv : list R;
                        pd_recip : list R; pd_ssum : list R; pd_net : bool }.
Definition build_scale_prefix (d : scale_data) (net : bool) : prefix_data :=
  {| pd_counts := prefix_sum (sd_counts d); pd_nchan := prefix_sum (sd_nchan d);
     pd_winv := prefix_sum (sd_winv d); pd_recip := prefix_sum (sd_recip d);
     pd_ssum := prefix_sum (sd_ssum d); pd_net := net |}.

(** data/grouping.py:283-311 [_scale_from_interval] *)
Definition scale_from_interval (p : prefix_data) (a b : nat) : R :=
  let counts := interval_sum (pd_counts p) a b in
  let n_chan := interval_sum (pd_nchan p) a b in
  if Reqb n_chan 0 then 1
  else if pd_net p then interval_sum (pd_ssum p) a b / n_chan
  else let w := interval_sum (pd_winv p) a b in
       if negb (Reqb w 0) then counts / w
       else let r := interval_sum (pd_recip p) a b in
            if Reqb r 0 then 1 else n_chan / r.

(** data/grouping.py:434-444 [_slice_scale_data] for one mask *)
Definition slice_scale_data (d : scale_data) (mask : list bool) : scale_data :=
  {| sd_scale := bmask mask (sd_scale d); sd_counts := bmask mask (sd_counts d);
     sd_nchan := bmask mask (sd_nchan d); sd_winv := bmask mask (sd_winv d);
     sd_recip := bmask mask (sd_recip d); sd_ssum := bmask mask (sd_ssum d) |}.

(** data/grouping.py:447-461 [_group_back_ratio] (element-wise) *)
Fixpoint map4 {A} (f : A -> A -> A -> A -> A) (a b c d : list A) : list A :=
  match a, b, c, d with
  | x1 :: a, x2 :: b, x3 :: c, x4 :: d => f x1 x2 x3 x4 :: map4 f a b c d
  | _, _, _, _ => []
  end.
Definition group_back_ratio (es eb : R) (sa sb ba bb : scale_data) : list R :=
  map4 (fun a b c d => es * a * b / (eb * c * d)) (sd_scale sa) (sd_scale sb) (sd_scale ba) (sd_scale bb).

(** data/grouping.py:464-480 [_interval_back_ratio] *)
Definition interval_back_ratio (a b : nat) (es eb : R) (sa sb ba bb : prefix_data) : R :=
  let ratio := es / eb in
  let ratio := ratio * scale_from_interval sa a b in
  let ratio := ratio * scale_from_interval sb a b in
  let ratio := ratio / scale_from_interval ba a b in
  ratio / scale_from_interval bb a b.

(** data/grouping.py:483-507 [_interval_ratios] *)
Definition interval_ratios (idx : list nat) (size : nat) (es eb : R) (sa sb ba bb : prefix_data) : list R :=
  map (fun p => interval_back_ratio (fst p) (snd p) es eb sa sb ba bb) (pairs idx size).

(** ** Specification side *)
(** composition of two groupings: [fl2] says which groups of [fl1] start a
    coarser group *)
Fixpoint compose_flags (fl1 fl2 : list Z) : list Z :=
  match fl1 with
  | [] => []
  | f :: r => if Z.eqb f (-1) then (-1)%Z :: compose_flags r fl2
              else match fl2 with
                   | g :: fl2' => g :: compose_flags r fl2'
                   | [] => 1%Z :: compose_flags r []
                   end
  end.

(** a channel: counts, scale, good? *)
Definition chan := (R * R * bool)%type.
Definition ch_c (x : chan) : R := fst (fst x).
Definition ch_s (x : chan) : R := snd (fst x).
Definition ch_q (x : chan) : bool := snd x.
Definition good_of (g : list chan) : list chan := filter ch_q g.
(** the mean a user expects for one group of channels *)
Definition expected_scale (net : bool) (g : list chan) : R :=
  let G := good_of g in
  if length G =? 0 then 1
  else if net then rsum (map ch_s G) / INR (length G)
  else if Reqb (rsum (map ch_c G)) 0 then INR (length G) / rsum (map (fun x => / ch_s x) G)
  else rsum (map ch_c G) / rsum (map (fun x => ch_c x / ch_s x) G).
