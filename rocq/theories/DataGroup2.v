(** From [group_flags] to the groups of the observation (C20, C21). *)
From Verif Require Import RBase BaseFacts Gibbs Grouping GroupingProofs GroupingConst GroupingOpt Scale ScaleProofs
  Significance SignificanceProofs GroupSigProofs GroupNormalProofs Data DataProofs DataState DataFacts DataSeg DataGroup.
From Coq Require Import Permutation.

Lemma mapM_Forall2 {A B} (f : A -> res B) l rs : mapM f l = Ok rs -> Forall2 (fun x y => f x = Ok y) l rs.
Proof.
  revert rs; induction l as [|x l IH]; intros rs H; cbn [mapM] in H; [injection H as <-; constructor|].
  destruct (f x) as [y|] eqn:E; [|discriminate]. cbn [bind] in H. destruct (mapM f l) as [ys|]; [|discriminate].
  cbn [bind] in H. injection H as <-. constructor; auto.
Qed.
Lemma Forall2_map_l {A A' B} (f : A -> A') (P : A' -> B -> Prop) l rs : Forall2 P (map f l) rs -> Forall2 (fun x => P (f x)) l rs.
Proof. revert rs; induction l as [|x l IH]; intros rs H; inversion H; subst; constructor; auto. Qed.

(** nondecreasing channel energies *)
Definition ascending (l : list R) : Prop := forall i j, (i <= j < length l)%nat -> nth i l 0 <= nth j l 0.

Section G.
Variables (s : spectrum) (r : response) (b : option spectrum) (good : list bool) (n : nat).
Hypothesis Ws : wf_spec s n.
Hypothesis Wr : wf_resp r n.
Hypothesis Wb : forall b', b = Some b' -> wf_spec b' n.
Hypothesis Hg : length good = n.
Hypothesis Hn : (0 < n)%nat.
Variable o : obs.
Hypothesis Hok : obs_ok s r b good n o.
Hypothesis Hasc1 : ascending (r_emin r).
Hypothesis Hasc2 : ascending (r_emax r).
Hypothesis Hle : forall k, (k < n)%nat -> nth k (r_emin r) 0 <= nth k (r_emax r) 0.
Hypothesis Hsg : hd 0%Z (s_grouping s) <> (-1)%Z.

Definition pregrouping (preserve : bool) : list Z := if preserve then s_grouping s else repeat 1%Z n.
Lemma pre_length pr : length (pregrouping pr) = n.
Proof. destruct pr; cbn; [apply Ws|apply repeat_length]. Qed.
Lemma pre_hd pr : hd 0%Z (pregrouping pr) <> (-1)%Z.
Proof. destruct pr; cbn; [exact Hsg|]. destruct n; [lia|]. cbn. discriminate. Qed.
Lemma bins_ones : bins (repeat 1%Z n) = map (fun i => (i, S i)) (seq 0 n).
Proof.
  apply bins_full; [apply repeat_length|].
  rewrite <- (groups_length_starts (repeat 1%Z n) (seq 0 n)) by (now rewrite repeat_length, seq_length).
  pose proof (groups_ones (seq 0 n)) as E. rewrite seq_length in E. rewrite E, map_length. apply seq_length.
Qed.

Definition ugood (p : nat * nat) : bool := (1 <=? length (filter (isgood good) (idx p)))%nat.
Lemma ugood_iff p : ugood p = true <-> exists k, In k (idx p) /\ isgood good k = true.
Proof.
  clear -p.
  unfold ugood. rewrite Nat.leb_le. split.
  - destruct (filter (isgood good) (idx p)) as [|k l] eqn:E; cbn [length]; [lia|]. intros _.
    assert (H : In k (filter (isgood good) (idx p))) by (rewrite E; now left). apply filter_In in H. eauto.
  - intros (k & A & B). assert (H : In k (filter (isgood good) (idx p))) by (apply filter_In; auto).
    destruct (filter _ _); [easy|cbn; lia].
Qed.

Lemma units_ordered fl : length fl = n -> units_ok idx (gemin r) (gemax r) (bins fl).
Proof.
  intros HL. assert (HB : forall p, In p (bins fl) -> (fst p < snd p <= n)%nat) by (intros p Hp; apply bins_ok in Hp; lia).
  assert (Hlo : forall p, In p (bins fl) -> gemin r p = nth (fst p) (r_emin r) 0).
  { intros p Hp. specialize (HB p Hp). assert (Hne : map (fun k => nth k (r_emin r) 0) (idx p) <> []).
    { intros E. apply map_eq_nil in E. assert (X : In (fst p) (idx p)) by (apply in_idx; lia). rewrite E in X. easy. }
    destruct (lmin_spec _ Hne) as (A & B). fold (gemin r p) in A, B.
    apply in_map_iff in A as (k & E & Hk). apply in_idx in Hk.
    assert (gemin r p <= nth (fst p) (r_emin r) 0) by (apply B; apply (in_map (fun k => nth k (r_emin r) 0)), in_idx; lia).
    assert (nth (fst p) (r_emin r) 0 <= nth k (r_emin r) 0) by (apply Hasc1; rewrite (wr_lo _ _ Wr); lia). lra. }
  assert (Hhi : forall p, In p (bins fl) -> gemax r p = nth (snd p - 1) (r_emax r) 0).
  { intros p Hp. specialize (HB p Hp). assert (Hne : map (fun k => nth k (r_emax r) 0) (idx p) <> []).
    { intros E. apply map_eq_nil in E. assert (X : In (fst p) (idx p)) by (apply in_idx; lia). rewrite E in X. easy. }
    destruct (lmax_spec _ Hne) as (A & B). fold (gemax r p) in A, B.
    apply in_map_iff in A as (k & E & Hk). apply in_idx in Hk.
    assert (nth (snd p - 1) (r_emax r) 0 <= gemax r p) by (apply B; apply (in_map (fun k => nth k (r_emax r) 0)), in_idx; lia).
    assert (nth k (r_emax r) 0 <= nth (snd p - 1) (r_emax r) 0) by (apply Hasc2; rewrite (wr_hi _ _ Wr); lia). lra. }
  split.
  - pose proof (bins_sorted fl) as Hs. clear HL. induction Hs as [|p l Hs IH Hp]; [constructor|].
    constructor; [apply IH; intros; [apply HB|apply Hlo|apply Hhi]; now right|].
    apply Forall_forall. intros q Hq. rewrite Forall_forall in Hp. specialize (Hp q Hq).
    pose proof (HB p (or_introl eq_refl)). pose proof (HB q (or_intror Hq)).
    split; [rewrite (Hlo p (or_introl eq_refl)), (Hlo q (or_intror Hq)); apply Hasc1; rewrite (wr_lo _ _ Wr); lia|].
    rewrite (Hhi p (or_introl eq_refl)), (Hhi q (or_intror Hq)); apply Hasc2; rewrite (wr_hi _ _ Wr); lia.
  - apply Forall_forall. intros p Hp. pose proof (HB p Hp). split.
    + intros E. assert (X : In (fst p) (idx p)) by (apply in_idx; lia). rewrite E in X. easy.
    + rewrite (Hlo p Hp), (Hhi p Hp). apply Rle_trans with (nth (fst p) (r_emax r) 0); [apply Hle; lia|].
      apply Hasc2. rewrite (wr_hi _ _ Wr). lia.
Qed.

Definition hsel (ab : R * R) (p : nat * nat) : bool := (in_range ab (gemin r p) (gemax r p) && ugood p)%bool.

Lemma group_flags_eq m sc pr : (is_opt m && pr = false)%bool ->
  group_flags o m (Some sc) pr =
  bind (mapM (segment o (gd s b good (pregrouping pr)) m sc) (map (fun ab => map (hsel ab) (bins (pregrouping pr))) (o_erange o))) (fun rs =>
  bind (final_grouping (map (fun p => existsb (fun ab => hsel ab p) (o_erange o)) (bins (pregrouping pr)))
          (map (fun p => length (idx p)) (bins (pregrouping pr))) (concat (map fst rs))) (fun fl => Ok (fl, forallb snd rs))).
Proof.
  destruct Hok as [Es Er Eb Eg _ _ _ _]. intros Eop. unfold group_flags. rewrite Es, Er, Eg. cbn [bind]. rewrite Eop.
  rewrite (ws_g _ _ Ws). change (if pr then s_grouping s else repeat 1%Z n) with (pregrouping pr).
  set (pre := pregrouping pr) in *. cbv zeta.
  pose proof (pre_length pr) as Lp. fold pre in Lp.
  rewrite (group_energy_bins r pre n Lp (wr_lo _ _ Wr) (wr_hi _ _ Wr)).
  rewrite (n_good_bins pre good n Lp Hg). rewrite map_map.
  assert (Em : map (fun row => zip2 andb row (map (fun p => (1 <=? length (filter (isgood good) (idx p)))%nat) (bins pre)))
                 (channel_masks (o_erange o) (map (gemin r) (bins pre)) (map (gemax r) (bins pre))) =
               map (fun ab => map (hsel ab) (bins pre)) (o_erange o)).
  { unfold channel_masks. rewrite map_map. apply map_ext. intros ab. rewrite !zip2_map. reflexivity. }
  rewrite Em. clear Em.
  rewrite (group_data_full s b good n Ws Wb Hg o Es Eb Eg pre Lp). cbn [bind].
  assert (E1 : any_axis0 (length (map (gemin r) (bins pre))) (map (fun ab => map (hsel ab) (bins pre)) (o_erange o)) = map (fun p => existsb (fun ab => hsel ab p) (o_erange o)) (bins pre)).
  { rewrite map_length. rewrite <- (map_map hsel (fun f => map f (bins pre)) (o_erange o)). rewrite any_axis0_map. apply map_ext. intros p. generalize (o_erange o). clear. intros l. induction l as [|ab l IH]; [reflexivity|]. cbn [map existsb]. now rewrite IH. }
  rewrite E1.
  assert (E2 : map (fun p : nat * nat => (snd p - fst p)%nat) (pairs (starts pre) n) = map (fun p => length (idx p)) (bins pre)).
  { rewrite <- Lp, <- bins_pairs. apply map_ext. intros p. unfold idx. now rewrite seq_length. }
  rewrite E2. reflexivity.
Qed.

Lemma group_flags_inv m scale pr fl ok : group_flags o m scale pr = Ok (fl, ok) ->
  exists sc rs, (scale = Some sc \/ (scale = None /\ m = Gopt /\ sc = 0)) /\ (is_opt m = true -> pr = false) /\
    Forall2 (fun ab x => segment o (gd s b good (pregrouping pr)) m sc (map (hsel ab) (bins (pregrouping pr))) = Ok x) (o_erange o) rs /\
    ok = forallb snd rs /\
    concat (map fst rs) <> [] /\
    fl = exp_u idx (sel (gemin r) (gemax r) ugood (o_erange o)) (bins (pregrouping pr)) (concat (map fst rs)).
Proof.
  destruct Hok as [Es Er Eb Eg _ _ _ _].
  intros H. unfold group_flags in H. rewrite Es, Er, Eg in H.
  destruct (match scale with Some s0 => Ok s0 | None => match m with Gopt => Ok 0 | _ => Err ValueError end end) as [sc|] eqn:Esc.
  2:{ destruct scale; [discriminate|]. destruct m; try discriminate; cbn [bind] in H; discriminate. }
  assert (Esc' : scale = Some sc \/ scale = None /\ m = Gopt /\ sc = 0).
  { destruct scale as [s0|]; [left; congruence|]. right. destruct m; try discriminate. injection Esc as <-. auto. }
  assert (H' : bind (Ok sc) (fun sc =>
  if (is_opt m && pr)%bool then Err ValueError else
  let n := length (s_grouping s) in
  let pre := if pr then s_grouping s else repeat 1%Z n in
  let n_chan := map (fun p => (snd p - fst p)%nat) (pairs (starts pre) n) in
  let ng := n_good pre good in
  let '(gemin, gemax) := group_energy r pre in
  let masks := map (fun row => zip2 andb row (map (fun k => 1 <=? k)%nat ng)) (channel_masks (o_erange o) gemin gemax) in
  bind (group_data o pre) (fun d =>
  bind (mapM (segment o d m sc) masks) (fun rs =>
  bind (final_grouping (any_axis0 (length gemin) masks) n_chan (concat (map fst rs))) (fun fl =>
  Ok (fl, forallb snd rs))))) = Ok (fl, ok)).
  { rewrite <- H. destruct scale as [s0|]; [destruct Esc' as [E|(E & _)]; [injection E as ->; reflexivity|discriminate]|].
    destruct Esc' as [E|(_ & -> & ->)]; [discriminate|reflexivity]. }
  clear H Esc. cbn [bind] in H'. destruct (is_opt m && pr)%bool eqn:Eop; [discriminate|].
  rewrite (ws_g _ _ Ws) in H'. change (if pr then s_grouping s else repeat 1%Z n) with (pregrouping pr) in H'.
  set (pre := pregrouping pr) in *. cbv zeta in H'.
  pose proof (pre_length pr) as Lp. fold pre in Lp.
  rewrite (group_energy_bins r pre n Lp (wr_lo _ _ Wr) (wr_hi _ _ Wr)) in H'.
  rewrite (n_good_bins pre good n Lp Hg) in H'. rewrite map_map in H'.
  assert (Em : map (fun row => zip2 andb row (map (fun p => (1 <=? length (filter (isgood good) (idx p)))%nat) (bins pre)))
                 (channel_masks (o_erange o) (map (gemin r) (bins pre)) (map (gemax r) (bins pre))) =
               map (fun ab => map (hsel ab) (bins pre)) (o_erange o)).
  { unfold channel_masks. rewrite map_map. apply map_ext. intros ab. rewrite !zip2_map. reflexivity. }
  rewrite Em in H'. clear Em.
  rewrite (group_data_full s b good n Ws Wb Hg o Es Eb Eg pre Lp) in H'. cbn [bind] in H'.
  destruct (mapM _ _) as [rs|] eqn:Er2; [|discriminate]. cbn [bind] in H'.
  destruct (final_grouping _ _ _) as [fl'|] eqn:Ef; [|discriminate]. cbn [bind] in H'. injection H' as <- <-.
  exists sc, rs. split; [exact Esc'|]. split; [intros Eo; rewrite Eo in Eop; exact Eop|].
  apply mapM_Forall2, Forall2_map_l in Er2. split; [exact Er2|]. split; [reflexivity|].
  set (us := map (fun p => (sel (gemin r) (gemax r) ugood (o_erange o) p, length (idx p))) (bins pre)).
  assert (E1 : any_axis0 (length (map (gemin r) (bins pre))) (map (fun ab => map (hsel ab) (bins pre)) (o_erange o)) = map fst us).
  { rewrite map_length. rewrite <- (map_map hsel (fun f => map f (bins pre))), any_axis0_map. unfold us. rewrite map_map. cbn [fst].
    apply map_ext. intros p. unfold sel, inr. generalize (o_erange o). clear. intros l.
    induction l as [|ab er IH]; [reflexivity|]. cbn [map existsb]. rewrite IH. unfold hsel.
    generalize (in_range ab (gemin r p) (gemax r p)). generalize (ugood p). generalize (existsb (fun ab0 => in_range ab0 (gemin r p) (gemax r p)) er).
    intros [] [] []; reflexivity. }
  assert (E2 : map (fun p : nat * nat => (snd p - fst p)%nat) (pairs (starts pre) n) = map snd us).
  { rewrite <- Lp, <- bins_pairs. unfold us. rewrite map_map. cbn [snd]. apply map_ext. intros p. unfold idx. now rewrite seq_length. }
  rewrite E1, E2 in Ef. pose proof Ef as Ef'. apply final_grouping_ok in Ef' as (Hne & HL). split; [exact Hne|].
  rewrite final_grouping_expand in Ef; [|unfold us; apply Forall_map, Forall_forall; intros p Hp; apply bins_ok in Hp; cbn [snd]; unfold idx; rewrite seq_length; lia|exact HL|exact Hne].
  injection Ef as <-. reflexivity.
Qed.

(** the set-up of [groups_segments] *)
Lemma erange_facts : Forall (fun ab => fst ab < snd ab) (o_erange o) /\ StronglySorted before (o_erange o).
Proof.
  destruct (ok_er _ _ _ _ _ _ Hok) as (er & E). apply check_erange_ok in E as (A & E). rewrite E.
  split; [|now apply sort_before].
  destruct A as (_ & A & _). apply Forall_forall. intros ab Hab. rewrite Forall_forall in A. apply A.
  eapply Permutation_in; [apply sort_perm|exact Hab].
Qed.

Definition scale_value (scale : option R) : R := match scale with Some x => x | None => 0 end.

Lemma flags_fit_segments m sc pr rs : (is_opt m = true -> pr = false) ->
  (forall ab, In ab (o_erange o) -> method_ok s r b good m sc n (length (filter (hsel ab) (bins (pregrouping pr))))) ->
  forall er, (forall ab, In ab er -> In ab (o_erange o)) ->
  Forall2 (fun ab x => segment o (gd s b good (pregrouping pr)) m sc (map (hsel ab) (bins (pregrouping pr))) = Ok x) er rs ->
  Forall2 (flags_fit (gemin r) (gemax r) ugood (bins (pregrouping pr))) er (map fst rs) /\
  (forallb snd rs = true -> forall ab F, In (ab, F) (combine er (map fst rs)) -> forall us', In us' (groups F (filter (hsel ab) (bins (pregrouping pr)))) ->
     meetsL s b good m sc (chs idx us')).
Proof.
  intros Hopt Hm er Hsub H. destruct Hok as [Es Er Eb Eg _ _ _ _].
  assert (HB : is_opt m = true -> length (bins (pregrouping pr)) = n).
  { intros E. rewrite (Hopt E). cbn. rewrite bins_ones, map_length. apply seq_length. }
  induction H as [|ab [F ok1] er rs H1 H2 IH]; [split; [constructor|intros _ ab F []]|].
  destruct (segment_spec s r b good n Ws Wb Hg o Es Er Eb (pregrouping pr) (pre_length pr) (hsel ab)) with (m := m) (sc := sc) (F := F) (ok := ok1) as (Hv & Hmt).
  - intros p Hp E. unfold hsel in E. apply andb_true_iff in E as (_ & E). now apply ugood_iff.
  - exact HB.
  - apply Hm, Hsub. now left.
  - exact H1.
  - destruct IH as (IH1 & IH2); [intros; apply Hsub; now right|]. cbn [map fst]. split.
    + constructor; [|exact IH1]. destruct Hv as (L & V & Hd). split; [exact L|].
      destruct Hd as [Hd|Hd]; [left; destruct F; [reflexivity|rewrite Hd in L; discriminate]|].
      right. rewrite Hd. discriminate.
    + cbn [forallb snd combine]. intros E. apply andb_true_iff in E as (E1 & E2).
      intros ab' F' [X|X]; [injection X as <- <-; now apply Hmt|now apply IH2].
Qed.

Lemma chs_bins fl : length fl = n -> hd 0%Z fl <> (-1)%Z -> chs idx (bins fl) = seq 0 n.
Proof. intros. unfold chs. now apply bins_cover. Qed.
Lemma idx_inj p q : (fst p < snd p)%nat -> idx p = idx q -> p = q.
Proof.
  intros Hp E. destruct p as [a c], q as [a' c']. unfold idx in E. cbn [fst snd] in *.
  assert (L : (c - a)%nat = (c' - a')%nat) by (rewrite <- (seq_length (c - a) a), E; apply seq_length).
  destruct (c - a)%nat as [|k] eqn:E1; [lia|]. rewrite <- L in E. cbn [seq] in E. injection E as E _. f_equal; lia.
Qed.

Definition meets (m : gmethod) (sc : R) (p : nat * nat) : Prop := meetsL s b good m sc (idx p).

Lemma group_result m scale pr o' ok : group o m scale pr = Ok (o', ok) ->
  let sc := scale_value scale in let pre := pregrouping pr in
  (forall ab, In ab (o_erange o) -> method_ok s r b good m sc n (length (filter (hsel ab) (bins pre)))) ->
  o_erange o' = o_erange o /\
  (forall p, In p (bins (o_grouping o')) -> snd p = S (fst p) \/
     exists ab, In ab (o_erange o) /\ forall k, (fst p <= k < snd p)%nat -> fst ab <= nth k (r_emin r) 0 /\ nth k (r_emax r) 0 <= snd ab) /\
  ((forall u ab, In u (bins pre) -> In ab (o_erange o) -> in_range ab (gemin r u) (gemax r u) = true -> ugood u = true) ->
   (forall u k, In u (bins pre) -> In k (idx u) -> noticedb (o_erange o) r good (k, S k) = true ->
      exists ab, In ab (o_erange o) /\ in_range ab (gemin r u) (gemax r u) = true) ->
   ok = true -> forall p, In p (x_chan (o_exp o')) -> meets m sc p).
Proof.
  intros H sc pre Hm. unfold group in H. destruct (group_flags o m scale pr) as [[fl ok1]|] eqn:Ef; [|discriminate]. cbn [bind fst snd] in H.
  apply group_flags_inv in Ef as (sc' & rs & Hsc & Hopt & Hseg & Eok & Hne & Efl).
  assert (sc' = sc) by (unfold sc, scale_value; destruct Hsc as [->|(-> & _ & ->)]; reflexivity). subst sc'.
  fold pre in Hseg, Efl.
  destruct (flags_fit_segments m sc pr rs Hopt Hm (o_erange o) (fun _ X => X) Hseg) as (Hfit & Hmeet).
  destruct erange_facts as (Hlt & Hsort).
  pose proof (units_ordered pre (pre_length pr)) as Hu.
  destruct (groups_segments idx (gemin r) (gemax r) ugood (o_erange o) (bins pre) (map fst rs) Hu Hlt Hsort Hfit) as (L & Hd & G1 & G2).
  rewrite <- Efl in *. pose proof (chs_bins pre (pre_length pr) (pre_hd pr)) as Ech. rewrite Ech, seq_length in *.
  assert (Hd' : hd 0%Z fl <> (-1)%Z) by (destruct Hd as [Hd|Hd]; [rewrite Hd in L; cbn in L; lia|exact Hd]).
  pose proof Hok as [Es Er Eb Eg Elen _ _ _].
  unfold set_grouping in H. rewrite Es, Er, Eb, Eg in H. rewrite (choose_fixed s r good n) in H by assumption. cbn [bind] in H.
  rewrite (expose_spec s r b good (o_erange o) fl n Ws Wr Wb Hg L) in H. cbn [bind] in H.
  assert (Eo' : o' = {| o_spec := s; o_resp := r; o_bk := b; o_good := good; o_erange := o_erange o; o_grouping := fl; o_exp := exposed_of s r b good (o_erange o) fl |}) by congruence.
  assert (Eok' : ok = ok1) by congruence. clear H. subst o' ok. cbn [o_erange o_grouping o_exp].
  rewrite groups_idx in G1, G2 by exact L.
  split; [reflexivity|]. split.
  - intros p Hp. pose proof (bins_ok fl p Hp) as Hpl. destruct (G1 (idx p)) as [(c & E)|(ab & Hab & X)]; [now apply in_map| |].
    + left. assert (X : length (idx p) = 1%nat) by now rewrite E. unfold idx in X. rewrite seq_length in X. lia.
    + right. exists ab. split; [exact Hab|]. intros k Hk. apply in_idx in Hk. destruct (X k Hk) as (u & Hu1 & Hu2 & Hu3).
      unfold inr in Hu2. pose proof (bins_ok _ _ Hu1). apply (proj1 (in_range_iff r ab u ltac:(lia)) Hu2). now apply in_idx.
  - intros Hgood Hwhole Eok2 p Hp. cbn [exposed_of x_chan] in Hp. apply filter_In in Hp as (Hp & Hnot).
    pose proof (bins_ok fl p Hp) as Hpl.
    destruct (G2 Hgood (idx p)) as [(u & c & X1 & X2 & X3 & X4)|(ab & F & us' & X1 & X2 & X3)]; [now apply in_map| |].
    + exfalso. assert (Ep : p = (c, S c)). { apply idx_inj; [lia|]. rewrite X3. now rewrite idx_single. }
      subst p. destruct (Hwhole u c X1 X2 Hnot) as (ab & Hab & Hin). specialize (X4 ab Hab). unfold inr in X4. congruence.
    + unfold meets. rewrite X3. apply Hmeet with (ab := ab) (F := F); [congruence|exact X1|exact X2].
Qed.
Lemma whole_single : forall u k, In u (bins (pregrouping false)) -> In k (idx u) -> noticedb (o_erange o) r good (k, S k) = true ->
  exists ab, In ab (o_erange o) /\ in_range ab (gemin r u) (gemax r u) = true.
Proof.
  intros u k Hu Hk H. cbn in Hu. rewrite bins_ones in Hu. apply in_map_iff in Hu as (i & <- & _). rewrite idx_single in Hk.
  destruct Hk as [<-|[]]. unfold noticedb in H. apply andb_true_iff in H as (H & _). now apply existsb_exists in H.
Qed.
End G.
