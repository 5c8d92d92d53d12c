(** C94, C95: the configuration of plots; markers, colours, smoothing and ranges. *)
From Coq Require Import Ascii String Lia Lra Permutation Sorting.Sorted.
From Verif Require Import RBase Base Data DataProofs Namespace NamespaceProofs HelperData HelperDataProofs Results Summary SummaryProofs ModelAlg ModelAlgProofs SimulateProofs Prop_Components2 PlotSettings.
From Coq Require Import List.
Open Scope list_scope.
Open Scope R_scope.

(** ** C94: what a setting may be *)
Definition admissible (s : setting) : Prop :=
  match s with
  | SAlpha v => 0 < v <= 1
  | SXscale v => v <> None
  | SYscale v => v <> None
  | SResiduals v => v <> None
  | SLinFrac v => 0 < v <= 1 / 2
  | SCl v => Forall (fun c => 0 < c < 1) v
  | _ => True
  end.
Lemma cl_ok v : forallb (fun c => Rltb 0 c && Rltb c 1)%bool (sortR v) = true <-> Forall (fun c => 0 < c < 1) v.
Proof.
  rewrite forallb_forall, Forall_forall. split; intros H x Hx.
  - specialize (H x (Permutation_in _ (sortR_perm v) Hx)). apply Bool.andb_true_iff in H as [A B]. apply Rltb_true in A, B. lra.
  - apply (Permutation_in _ (Permutation_sym (sortR_perm v))) in Hx. specialize (H x Hx). apply Bool.andb_true_iff. split; apply Rltb_true; lra.
Qed.
Theorem C94_checked : forall c s, (admissible s -> exists c', set c s = Ok c') /\ (~ admissible s -> set c s = Err ValueError).
Proof.
  intros [a x y l cl r b1 b2 b3 b4 b5 sd] s. destruct s as [v|[v|]|[v|]|v|v|[v|]|b|b|b|b|b|s']; cbn [set admissible];
    try (split; [intros _; eexists; reflexivity|intros H; exfalso; apply H; try exact I; discriminate]); try (split; [intros H; exfalso; now apply H|reflexivity]).
  - destruct (Rltb_spec 0 v), (Rleb_spec v 1); cbn [andb]; split; intros H; try (eexists; reflexivity); try reflexivity; exfalso; lra.
  - destruct (Rltb_spec 0 v), (Rleb_spec v 0.5); cbn [andb]; split; intros H; try (eexists; reflexivity); try reflexivity; exfalso; lra.
  - pose proof (cl_ok v) as E. destruct (forallb _ (sortR v)); split; intros H; try (eexists; reflexivity); try reflexivity; exfalso; [now apply H, E|]. apply E in H. discriminate.
Qed.
Print Assumptions C94_checked.
(** an accepted assignment changes only what it names; the levels are kept in increasing order *)
Theorem C94_frame : forall c s c', set c s = Ok c' ->
  c_alpha c' = (match s with SAlpha v => v | _ => c_alpha c end) /\ Some (c_xscale c') = (match s with SXscale v => v | _ => Some (c_xscale c) end) /\
  Some (c_yscale c') = (match s with SYscale v => v | _ => Some (c_yscale c) end) /\ c_lin_frac c' = (match s with SLinFrac v => v | _ => c_lin_frac c end) /\
  Some (c_residuals c') = (match s with SResiduals v => v | _ => Some (c_residuals c) end) /\
  (match s with SCl v => Permutation v (c_cl c') /\ StronglySorted Rle (c_cl c') | _ => c_cl c' = c_cl c end) /\
  c_random c' = (match s with SRandom b => b | _ => c_random c end) /\ c_mark c' = (match s with SMark b => b | _ => c_mark c end) /\
  c_sign c' = (match s with SSign b => b | _ => c_sign c end) /\ c_fill c' = (match s with SFill b => b | _ => c_fill c end) /\
  c_comps c' = (match s with SComps b => b | _ => c_comps c end) /\ c_seed c' = (match s with SSeed v => v | _ => c_seed c end).
Proof.
  intros [a x y l cl r b1 b2 b3 b4 b5 sd] s c' H. destruct s as [v|[v|]|[v|]|v|v|[v|]|b|b|b|b|b|s']; cbn [set] in H; try discriminate;
    repeat match type of H with (if ?b then _ else _) = _ => destruct b; [|discriminate] end; injection H as <-; cbn; repeat split; auto using sortR_perm, sortR_sorted.
Qed.
Print Assumptions C94_frame.
(** so that the configuration is always usable *)
Theorem C94_valid : forall h, let c := assign default_config h in
  0 < c_alpha c <= 1 /\ 0 < c_lin_frac c <= 1 / 2 /\ StronglySorted Rle (c_cl c) /\ Forall (fun x => 0 < x < 1) (c_cl c).
Proof.
  cut (forall h c, (0 < c_alpha c <= 1 /\ 0 < c_lin_frac c <= 1 / 2 /\ StronglySorted Rle (c_cl c) /\ Forall (fun x => 0 < x < 1) (c_cl c)) ->
    let c := assign c h in 0 < c_alpha c <= 1 /\ 0 < c_lin_frac c <= 1 / 2 /\ StronglySorted Rle (c_cl c) /\ Forall (fun x => 0 < x < 1) (c_cl c)).
  { intros H h. apply H. cbn. repeat split; try lra; repeat constructor; lra. }
  induction h as [|s h IH]; intros c H; [exact H|]. cbn [assign fold_left]. apply IH. destruct (set c s) as [c'|] eqn:E; [|exact H].
  destruct (C94_frame _ _ _ E) as (A & _ & _ & L & _ & C & _). destruct H as (H1 & H2 & H3 & H4).
  assert (Ad : admissible s). { destruct (C94_checked c s) as [_ N]. destruct s as [v|[v|]|[v|]|v|v|[v|]|b|b|b|b|b|s']; cbn [admissible]; try exact I; try discriminate; try (cbn in E; destruct c; discriminate).
    - destruct (Rlt_dec 0 v); [destruct (Rle_dec v 1); [lra|]|]; (rewrite N in E; [discriminate|cbn; lra]).
    - destruct (Rlt_dec 0 v); [destruct (Rle_dec v (1 / 2)); [lra|]|]; (rewrite N in E; [discriminate|cbn; lra]).
    - destruct c. cbn [set] in E. destruct (forallb _ (sortR v)) eqn:F; [|discriminate]. now apply cl_ok. }
  rewrite A, L. destruct s; cbn [admissible] in Ad; try (rewrite C); repeat split; try lra; try assumption; try tauto.
  destruct C as [P S]. eapply Permutation_Forall; [exact P|exact Ad].
Qed.
Print Assumptions C94_valid.
Example C94_case : exists c, set default_config (SCl [0.9; 0.5]) = Ok c /\ c_cl c = [0.5; 0.9] /\ set c (SCl [0.5; 1]) = Err ValueError.
Proof.
  eexists. split; [|split].
  - cbn. destruct (Rleb_spec 0.9 0.5); [lra|]. cbn. destruct (Rltb_spec 0 0.5); [|lra]. destruct (Rltb_spec 0.5 1); [|lra]. destruct (Rltb_spec 0 0.9); [|lra]. destruct (Rltb_spec 0.9 1); [|lra]. reflexivity.
  - reflexivity.
  - apply C94_checked. cbn. intros H. inversion H as [|? ? _ H2]. inversion H2. lra.
Qed.

(** the residuals marked are those outside the widest of the bands drawn *)
Definition in_band (b : list R * list R) (i : nat) (y : R) : Prop := nth i (fst b) 0 <= y <= nth i (snd b) 0.
Theorem C94_outliers : forall bands nq r m, outliers bands nq r = Ok m -> length m = length r /\ forall i, (i < length r)%nat ->
  match bands with
  | [] => (forall q, In q nq -> forall q', last nq 0 = q' -> q <= q') -> nth i m false = true <-> forall q, In q nq -> ~ - q <= nth i r 0 <= q
  | _ => (forall b j y, In b bands -> in_band b j y -> in_band (last bands ([], [])) j y) -> nth i m false = true <-> forall b, In b bands -> ~ in_band b i (nth i r 0)
  end.
Proof.
  intros bands nq r m H. unfold outliers in H.
  assert (LR : forall A (l : list A) d x t, rev l = x :: t -> last l d = x /\ In x l).
  { intros A l d x t E. assert (l = rev t ++ [x]) as ->. { rewrite <- (rev_involutive l), E. reflexivity. } split; [apply last_last|]. apply in_or_app. right. now left. }
  destruct bands as [|b0 bs].
  - cbn [rev] in H. destruct (rev nq) as [|q t] eqn:E; [discriminate|]. injection H as <-. destruct (LR _ nq 0 q t E) as [L I]. split; [apply map_length|]. intros i Hi.
    rewrite (nth_indep _ false (Rltb 0 (- q) || Rltb q 0)%bool) by (now rewrite map_length). rewrite (map_nth (fun y => (Rltb y (- q) || Rltb q y)%bool) r 0 i).
    set (y := nth i r 0). intros W. split.
    + intros B q' Hq'. specialize (W q' Hq' q L). apply Bool.orb_true_iff in B as [B|B]; apply Rltb_true in B; lra.
    + intros B. specialize (B q I). apply Bool.orb_true_iff. destruct (Rltb_spec y (- q)); [now left|]. right. apply Rltb_true. destruct (Rlt_dec q y); [assumption|exfalso; apply B; lra].
  - destruct (rev (b0 :: bs)) as [|[lo hi] t] eqn:E; [apply (f_equal (@length _)) in E; rewrite rev_length in E; discriminate|]. injection H as <-.
    destruct (LR _ _ ([], []) _ t E) as [L I]. split; [now rewrite map_length, seq_length|]. intros i Hi.
    set (F := fun i => (Rltb (nth i r 0) (nth i lo 0) || Rltb (nth i hi 0) (nth i r 0))%bool). rewrite (nth_indep _ false (F 0%nat)) by (now rewrite map_length, seq_length). rewrite map_nth, seq_nth by exact Hi. cbn [Nat.add]. unfold F.
    set (y := nth i r 0). intros W. split.
    + intros B b Hb Hin. apply (W b i y Hb) in Hin. rewrite L in Hin. unfold in_band in Hin. cbn [fst snd] in Hin. apply Bool.orb_true_iff in B as [B|B]; apply Rltb_true in B; lra.
    + intros B. specialize (B (lo, hi) I). unfold in_band in B. cbn [fst snd] in B. apply Bool.orb_true_iff. destruct (Rltb_spec y (nth i lo 0)); [now left|]. right. apply Rltb_true. destruct (Rlt_dec (nth i hi 0) y); [assumption|exfalso; apply B; lra].
Qed.
Print Assumptions C94_outliers.
(** no level at all is accepted, and then outliers cannot be marked *)
Theorem C94_no_level_refuted : forall c r, exists c', set c (SCl []) = Ok c' /\ c_cl c' = [] /\ forall isf : R -> R, outliers [] (map isf (c_cl c')) r = Err IndexError.
Proof. intros [] r. eexists. split; [reflexivity|]. split; reflexivity. Qed.
Print Assumptions C94_no_level_refuted.

(** colours: the ones last specified for the data, otherwise those of the current palette *)
Section Colors.
Variables (color : Type) (names : list str) (sns : palette -> list color).
Definition palette_after (p0 : palette) (h : list (cop color)) : palette := fold_left (fun p o => match o with CPalette p' => p' | _ => p end) h p0.
Definition complete (d : dict color) : Prop := forall n, In n names -> get d n <> None.
(** the colours that were last specified and not withdrawn; incomplete ones are refused *)
Inductive specified : list (cop color) -> option (dict color) -> Prop :=
| sp_nil : specified [] None
| sp_reset h d : specified h d -> specified (h ++ [CSet None]) None
| sp_set h d0 d : specified h d0 -> complete d -> specified (h ++ [CSet (Some d)]) (Some d)
| sp_refused h d0 d : specified h d0 -> ~ complete d -> specified (h ++ [CSet (Some d)]) d0
| sp_other h d0 o : specified h d0 -> (forall d, o <> CSet d) -> specified (h ++ [o]) d0.
Lemma covers_ok d : covers color names d = true <-> complete d.
Proof. unfold covers, complete. rewrite forallb_forall. split; intros H n Hn; specialize (H n Hn); destruct (get d n); congruence. Qed.
Lemma pal_eqb_spec a b : reflect (a = b) (pal_eqb a b).
Proof. destruct a as [| |i], b as [| |j]; cbn; try (constructor; congruence). destruct (Z.eqb_spec i j); constructor; congruence. Qed.
Theorem C94_colors : forall p0 h d, p0 <> PCustom -> ~ In (CPalette PCustom) h -> specified h d ->
  let s := chistory color names sns (new_colors color p0) h in let p := palette_after p0 h in
  match d with
  | Some d => snd (cstep color names sns s CRead) = Ok (Some d) /\ complete d
  | None => p <> PNone -> snd (cstep color names sns s CRead) = Ok (Some (combine names (sns p)))
  end.
Proof.
  intros p0 h d Hp Hh Sp.
  assert (Inv : let s := chistory color names sns (new_colors color p0) h in k_config s = palette_after p0 h /\ k_config s <> PCustom /\
    match d with
    | Some d => k_palette s = PCustom /\ k_colors s = Some d /\ complete d
    | None => k_palette s <> PCustom /\ (k_palette s <> PNone -> k_colors s = Some (combine names (sns (k_palette s))))
    end).
  { assert (St : forall h o, chistory color names sns (new_colors color p0) (h ++ [o]) = fst (cstep color names sns (chistory color names sns (new_colors color p0) h) o)) by (intros; unfold chistory; now rewrite fold_left_app).
    assert (Pt : forall h o, palette_after p0 (h ++ [o]) = match o with CPalette p' => p' | _ => palette_after p0 h end) by (intros; unfold palette_after; now rewrite fold_left_app).
    assert (Hi : forall h o, ~ In (CPalette PCustom) (h ++ [o]) -> ~ In (@CPalette color PCustom) h /\ o <> CPalette PCustom).
    { intros h0 o N. split; [intros K; apply N, in_or_app; now left|]. intros ->. apply N, in_or_app. right. now left. }
    induction Sp as [|h d Sp IH|h d0 d Sp IH C|h d0 d Sp IH C|h d0 o Sp IH N]; cbv zeta.
    - cbn. repeat split; try exact Hp; try discriminate. intros K. now destruct K.
    - rewrite St, Pt. apply Hi in Hh as [Hh _]. destruct (IH Hh) as (A & B & _). cbn. repeat split; try assumption; try discriminate. intros K. now destruct K.
    - rewrite St, Pt. apply Hi in Hh as [Hh _]. destruct (IH Hh) as (A & B & _). cbn [cstep]. apply covers_ok in C as C'. rewrite C'. cbn. repeat split; assumption.
    - rewrite St, Pt. apply Hi in Hh as [Hh _]. cbn [cstep]. destruct (covers color names d) eqn:K; [apply covers_ok in K; contradiction|]. cbn [fst]. now apply IH.
    - rewrite St, Pt. apply Hi in Hh as [Hh Ho]. destruct (IH Hh) as (A & B & C). destruct o as [p|d|]; [|now destruct (N d)|].
      + cbn. split; [reflexivity|]. split; [congruence|exact C].
      + cbn [cstep]. destruct (pal_eqb_spec (k_palette (chistory color names sns (new_colors color p0) h)) PCustom) as [E|E]; cbn [orb fst]; [now repeat split|].
        destruct (pal_eqb_spec (k_palette (chistory color names sns (new_colors color p0) h)) (k_config (chistory color names sns (new_colors color p0) h))) as [E2|E2]; cbn [fst]; [now repeat split|].
        cbn [k_config k_palette k_colors]. split; [exact A|]. split; [exact B|]. destruct d0 as [d|]; [now destruct E|]. split; [exact B|reflexivity]. }
  cbv zeta in *. set (s := chistory _ _ _ _ h) in *. destruct Inv as (A & B & C). cbn [cstep]. destruct d as [d|].
  - destruct C as (-> & C & D). cbn. rewrite C. split; [reflexivity|exact D].
  - intros Np. destruct C as [C D]. destruct (pal_eqb_spec (k_palette s) PCustom) as [E|_]; [contradiction|]. cbn [orb]. rewrite <- A in Np |- *. destruct (pal_eqb_spec (k_palette s) (k_config s)) as [E|E]; cbn [snd]; [|reflexivity].
    rewrite D by congruence. now rewrite E.
Qed.
(** with the palette None (the current one of seaborn), there are no colours at the first plot *)
Theorem C94_no_palette_refuted : snd (cstep color names sns (new_colors color PNone) CRead) = Ok None.
Proof. reflexivity. Qed.
End Colors.
Print Assumptions C94_colors.
Print Assumptions C94_no_palette_refuted.
Example C94_colors_case : specified nat [["a"%char]] [CRead; CSet (Some [(["a"%char], 7%nat)]); CSet (Some []); CPalette (PNamed 3)] (Some [(["a"%char], 7%nat)]).
Proof.
  apply (sp_other _ _ [CRead; CSet (Some [(["a"%char], 7%nat)]); CSet (Some [])]); [|discriminate]. apply (sp_refused _ _ [CRead; CSet (Some [(["a"%char], 7%nat)])]).
  - apply (sp_set _ _ [CRead] None); [apply (sp_other _ _ []); [constructor|discriminate]|]. intros n [<-|[]]. discriminate.
  - intros C. apply (C ["a"%char]); [now left|reflexivity].
Qed.

(** ** C95: markers: one for each data set, different for up to eight of them *)
Theorem C95_markers : forall n, length (get_markers n) = n /\ forall i j, (i < j < n)%nat -> (n <= 8)%nat -> nth i (get_markers n) " "%char <> nth j (get_markers n) " "%char.
Proof.
  intros n. split; [unfold get_markers; now rewrite map_length, seq_length|]. intros i j H Hn.
  assert (E : forall k, (k < n)%nat -> nth k (get_markers n) " "%char = nth k marker_cycle " "%char).
  { intros k Hk. unfold get_markers. set (F := fun i => nth (i mod 9) marker_cycle " "%char). rewrite (nth_indep _ " "%char (F 0%nat)) by (now rewrite map_length, seq_length). rewrite map_nth, seq_nth by exact Hk. unfold F. cbn [Nat.add]. now rewrite Nat.mod_small by lia. }
  rewrite !E by lia. clear E. do 8 (destruct i as [|i]; [do 8 (destruct j as [|j]; [first [lia|discriminate]|]); lia|]). lia.
Qed.
(** the ninth data set has the marker of the third *)
Theorem C95_markers_refuted : forall n, (9 <= n)%nat -> nth 2 (get_markers n) " "%char = nth 8 (get_markers n) " "%char.
Proof.
  intros n H. unfold get_markers. set (F := fun i => nth (i mod 9) marker_cycle " "%char).
  assert (E : forall k, (k < n)%nat -> nth k (map F (seq 0 n)) " "%char = F k). { intros k Hk. rewrite (nth_indep _ " "%char (F 0%nat)) by (now rewrite map_length, seq_length). rewrite map_nth, seq_nth by exact Hk. reflexivity. }
  rewrite !E by lia. reflexivity.
Qed.
Print Assumptions C95_markers.
Print Assumptions C95_markers_refuted.

(** gradients: from the lightest to the darkest, each number scaled, rounded down and limited to 255 *)
Definition channel (k : nat) (c : rgb) : Z := let '(r, g, b) := c in match k with O => r | 1%nat => g | _ => b end.
Definition scaled (x : Z) (f : R) (y : Z) : Prop := (0 <= y <= 255)%Z /\ (IZR y <= IZR x * f < IZR y + 1 \/ y = 255%Z /\ 255 <= IZR x * f).
Lemma int_part_bound x : IZR (Int_part x) <= x < IZR (Int_part x) + 1.
Proof. destruct (base_Int_part x). lra. Qed.
Lemma clip_spec x : 0 <= x -> let y := clip x in (0 <= y <= 255)%Z /\ (IZR y <= x < IZR y + 1 \/ y = 255%Z /\ 255 <= x).
Proof.
  intros H. cbv zeta. unfold clip. pose proof (int_part_bound x) as [A B]. assert (I0 : (0 <= Int_part x)%Z). { assert (-1 < Int_part x)%Z; [|lia]. apply lt_IZR. lra. }
  split; [lia|]. destruct (Z_le_dec (Int_part x) 255) as [L|L].
  - left. replace (Z.max 0 (Z.min 255 (Int_part x))) with (Int_part x) by lia. lra.
  - right. split; [lia|]. assert (256 <= IZR (Int_part x)) by (apply IZR_le; lia). lra.
Qed.
Lemma scale_color_ok c f : 0 < f -> (forall k, (0 <= channel k c <= 255)%Z) -> exists c', scale_color c f = Ok c' /\ forall k, scaled (channel k c) f (channel k c').
Proof.
  intros Hf Hc. unfold scale_color. destruct (Rleb_spec f 0); [lra|]. destruct c as [[r g] b]. eexists. split; [reflexivity|].
  assert (S : forall k, (0 <= channel k (r, g, b))%Z -> scaled (channel k (r, g, b)) f (clip (IZR (channel k (r, g, b)) * f))).
  { intros k Hk. apply clip_spec. apply Rmult_le_pos; [now apply IZR_le|lra]. }
  intros [|[|k]]; [apply (S 0%nat)|apply (S 1%nat)|apply (S 2%nat)]; [apply (Hc 0%nat)|apply (Hc 1%nat)|apply (Hc 2%nat)].
Qed.
Lemma scaled_mono x f f' y y' : (0 <= x)%Z -> f' <= f -> scaled x f y -> scaled x f' y' -> (y' <= y)%Z.
Proof.
  intros Hx Hf [R1 H] [R2 H']. apply IZR_le in Hx. assert (M : IZR x * f' <= IZR x * f) by (apply Rmult_le_compat_l; assumption).
  destruct H as [H|[-> H]]; [|lia]. destruct H' as [H'|[-> H']].
  - assert (y' < y + 1)%Z; [|lia]. apply lt_IZR. rewrite plus_IZR. lra.
  - assert (255 < y + 1)%Z; [|lia]. apply lt_IZR. rewrite plus_IZR. lra.
Qed.
Definition shade (fmax fmin : R) (n i : nat) : R := fmax * exp (INR i * (ln (fmin / fmax) / INR (n - 1))).
Theorem C95_gradient : forall c n fmin fmax, (forall k, (0 <= channel k c <= 255)%Z) ->
  (color_gradient c n fmin fmax = Err ValueError <-> fmin <= 0 \/ fmax <= fmin \/ (n < 0)%Z) /\
  forall l, color_gradient c n fmin fmax = Ok l -> Z.of_nat (length l) = n /\
    (forall i d, (i < length l)%nat -> forall k, scaled (channel k c) (shade fmax fmin (length l) i) (channel k (nth i l d))) /\
    (forall i j d, (i <= j < length l)%nat -> forall k, (channel k (nth j l d) <= channel k (nth i l d))%Z) /\
    shade fmax fmin (length l) 0 = fmax /\ ((2 <= length l)%nat -> shade fmax fmin (length l) (length l - 1) = fmin).
Proof.
  intros c n fmin fmax Hc.
  assert (Pos : forall i m, 0 < fmax -> 0 < shade fmax fmin m i) by (intros i m H; unfold shade; apply Rmult_lt_0_compat; [exact H|apply exp_pos]).
  assert (OK : 0 < fmin < fmax -> (0 <= n)%Z -> exists l, mapE (scale_color c) (geomspace fmax fmin (Z.to_nat n)) = Ok l /\ length l = Z.to_nat n /\
    forall i d, (i < length l)%nat -> forall k, scaled (channel k c) (shade fmax fmin (length l) i) (channel k (nth i l d))).
  { intros Hf Hn. unfold geomspace. set (m := Z.to_nat n).
    assert (G : forall s q, exists l, mapE (scale_color c) (map (shade fmax fmin m) (seq s q)) = Ok l /\ length l = q /\ forall i d, (i < q)%nat -> forall k, scaled (channel k c) (shade fmax fmin m (s + i)) (channel k (nth i l d))).
    { intros s q. revert s. induction q as [|q IH]; intros s; [exists []; split; [reflexivity|]; split; [reflexivity|intros; lia]|]. cbn [seq map mapE].
      destruct (scale_color_ok c (shade fmax fmin m s)) as (x & -> & Sx); [apply Pos; lra|exact Hc|]. cbn [bind]. destruct (IH (S s)) as (l & -> & Ll & Sl). cbn [bind]. exists (x :: l). split; [reflexivity|]. split; [cbn; now rewrite Ll|].
      intros [|i] d Hi k; [rewrite Nat.add_0_r; apply Sx|]. cbn [nth]. rewrite <- Nat.add_succ_comm. apply Sl. lia. }
    destruct (G 0%nat m) as (l & E & Ll & Sl). exists l. split; [exact E|]. split; [exact Ll|]. rewrite Ll. exact Sl. }
  unfold color_gradient. destruct (Rleb_spec fmin 0) as [A|A]; [split; [tauto|discriminate]|]. destruct (Rleb_spec fmax 0) as [B|B]; [split; [split; [intros _; right; left; lra|reflexivity]|discriminate]|].
  destruct (Rleb_spec fmax fmin) as [C|C]; [split; [tauto|discriminate]|]. destruct (Z.ltb_spec n 0) as [D|D]; [split; [tauto|discriminate]|].
  destruct (OK ltac:(lra) D) as (l & -> & Ll & Sl). split; [split; [discriminate|intros [|[|]]; first [lra|lia]]|]. intros l' E. injection E as <-. rewrite Ll, Z2Nat.id by exact D. split; [reflexivity|]. rewrite <- Ll. split; [exact Sl|].
  assert (Dec : forall i j, (i <= j < length l)%nat -> shade fmax fmin (length l) j <= shade fmax fmin (length l) i).
  { intros i j H. unfold shade. apply Rmult_le_compat_l; [lra|]. destruct (Nat.eq_dec i j) as [->|N]; [lra|]. left. apply exp_increasing.
    assert (L : ln (fmin / fmax) < 0). { rewrite <- ln_1. apply ln_increasing; [apply Rdiv_lt_0_compat; lra|]. apply Rmult_lt_reg_r with fmax; [lra|]. unfold Rdiv. rewrite Rmult_assoc, Rinv_l; lra. }
    assert (P : 0 < INR (length l - 1)) by (apply lt_0_INR; lia). assert (Q : ln (fmin / fmax) / INR (length l - 1) < 0). { unfold Rdiv. pose proof (Rinv_0_lt_compat _ P). nra. }
    assert (INR i < INR j) by (apply lt_INR; lia). nra. }
  split; [|split].
  - intros i j d H k. apply (scaled_mono (channel k c) (shade fmax fmin (length l) i) (shade fmax fmin (length l) j)); [apply Hc|now apply Dec|apply Sl; lia|apply Sl; lia].
  - unfold shade. cbn [INR]. rewrite Rmult_0_l, exp_0. ring.
  - intros L. unfold shade. assert (P : INR (length l - 1) <> 0) by (apply not_0_INR; lia). replace (INR (length l - 1) * (ln (fmin / fmax) / INR (length l - 1))) with (ln (fmin / fmax)) by (field; exact P).
    rewrite exp_ln by (apply Rdiv_lt_0_compat; lra). field. lra.
Qed.
Print Assumptions C95_gradient.
(** the contours are the same with both factors multiplied *)
Theorem C95_contours : forall c n fmin fmax f a b, contour_colors c n fmin fmax f = Ok (a, b) -> color_gradient c n (f * fmin) (f * fmax) = Ok a /\ color_gradient c n fmin fmax = Ok b.
Proof. intros c n fmin fmax f a b H. unfold contour_colors in H. apply bind_ok in H as (cf & E & H). apply bind_ok in H as (cl & E' & H). injection H as <- <-. auto. Qed.

(** smoothing: the mean of the values with weights that decrease with the distance, where there is enough weight *)
Theorem C95_smooth : forall x y sigma xe thresh, length x = length y -> let e := match xe with Some e => e | None => x end in
  length (smooth x y sigma xe thresh) = length e /\
  forall i, (i < length e)%nat -> exists w, length w = length x /\
    (forall j, (j < length x)%nat -> nth j w 0 = exp (- ((nth i e 0 - nth j x 0) / sigma) ^ 2 / 2)) /\
    (rsum w < thresh -> nth i (smooth x y sigma xe thresh) None = None) /\
    (thresh <= rsum w -> exists v, nth i (smooth x y sigma xe thresh) None = Some v /\ (x <> [] -> v * rsum w = rsum (zip2 Rmult w y) /\
       forall m M, Forall (fun z => m <= z <= M) y -> m <= v <= M)).
Proof.
  intros x y sigma xe thresh L. cbv zeta. set (e := match xe with Some e => e | None => x end). unfold smooth. fold e. split; [apply map_length|]. intros i Hi.
  set (F := fun e0 => let w := map (fun xi => kernel sigma (e0 - xi)) x in if Rltb (rsum w) thresh then None else Some (rsum (zip2 Rmult w y) / rsum w)).
  assert (E : nth i (map F e) None = F (nth i e 0)). { rewrite (nth_indep _ None (F 0)) by (now rewrite map_length). apply map_nth. }
  rewrite E. set (w := map (fun xi => kernel sigma (nth i e 0 - xi)) x). exists w. split; [apply map_length|]. split; [|split].
  - intros j Hj. unfold w. rewrite (nth_indep _ 0 (kernel sigma (nth i e 0 - 0))) by (now rewrite map_length). rewrite (map_nth (fun xi => kernel sigma (nth i e 0 - xi)) x 0 j). unfold kernel. f_equal. lra.
  - intros H. unfold F. cbv zeta. fold w. destruct (Rltb_spec (rsum w) thresh); [reflexivity|lra].
  - intros H. unfold F. cbv zeta. fold w. destruct (Rltb_spec (rsum w) thresh); [lra|]. eexists. split; [reflexivity|]. intros Nx.
    assert (Pw : Forall (fun z => 0 < z) w) by (unfold w; apply Forall_map, Forall_forall; intros z _; unfold kernel; apply exp_pos).
    assert (Ps : 0 < rsum w). { assert (Nw : w <> []) by (unfold w; destruct x; [easy|discriminate]). clear -Pw Nw. destruct Pw as [|a r Ha Hr]; [easy|]. clear Nw. unfold rsum. cbn. assert (0 <= fold_right Rplus 0 r); [|lra]. induction Hr; cbn; lra. }
    split; [field; lra|]. intros m M Fy.
    assert (B : m * rsum w <= rsum (zip2 Rmult w y) <= M * rsum w).
    { assert (Lw : length w = length y) by (unfold w; now rewrite map_length). clear -Pw Fy Lw. revert y Fy Lw. induction Pw as [|a r Ha Hr IH]; intros y Fy Lw; destruct y as [|b y]; try discriminate; [unfold rsum; cbn; lra|].
      change (zip2 Rmult (a :: r) (b :: y)) with (a * b :: zip2 Rmult r y). unfold rsum in *. cbn [fold_right]. inversion Fy; subst. cbn in Lw. specialize (IH y ltac:(assumption) ltac:(lia)). nra. }
    split; apply Rmult_le_reg_r with (rsum w); try exact Ps; unfold Rdiv; rewrite Rmult_assoc, Rinv_l by lra; lra.
Qed.
Print Assumptions C95_smooth.
(** with the default threshold there is no value at one standard deviation from a single point, although the documentation says that there is *)
Theorem C95_one_sigma_refuted : forall x y sigma, sigma <> 0 -> smooth [x] [y] sigma (Some [x + sigma]) 0.683 = [None].
Proof.
  intros x y sigma H. unfold smooth. cbn [map]. unfold rsum at 1. cbn [fold_right]. assert (K : kernel sigma (x + sigma - x) < 0.683).
  { unfold kernel. replace ((x + sigma - x) / sigma) with 1 by (field; exact H). replace (- 0.5 * (1 * 1)) with (- (1 / 2)) by lra. rewrite exp_Ropp. pose proof (exp_ineq1 (1 / 2) ltac:(lra)) as X.
    apply Rlt_trans with (/ (1 + 1 / 2)); [apply Rinv_lt_contravar; [nra|lra]|]. lra. }
  destruct (Rltb_spec (kernel sigma (x + sigma - x) + 0) 0.683); [reflexivity|lra].
Qed.
Print Assumptions C95_one_sigma_refuted.

(** the range of a logarithmic axis contains all values within the number of decades below the largest *)
Theorem C95_log_range : forall vmin vmax octave, vmin <= vmax -> 0 < vmax -> (0 < vmin \/ 10 ^ octave < vmax * 10 ^ 30) ->
  exists lo hi, log_range vmin vmax octave = Some (lo, hi) /\ 0 < lo /\ vmax < hi /\
  (forall v, vmin <= v <= vmax -> vmax <= v * 10 ^ octave -> lo < v < hi) /\ (/ 10 ^ 30 <= vmin -> log10 (hi / lo) <= INR octave + 0.15).
Proof.
  intros vmin vmax octave Hv Hp Hd. assert (L10 : 0 < ln 10) by (rewrite <- ln_1; apply ln_increasing; lra).
  assert (PL : forall x, 0 < x -> pow10 (log10 x) = x). { intros x Hx. unfold pow10, log10. replace (ln x / ln 10 * ln 10) with (ln x) by (field; lra). now apply exp_ln. }
  assert (PM : forall a b, a < b -> pow10 a < pow10 b). { intros a b H. unfold pow10. apply exp_increasing. nra. }
  assert (LM : forall a b, 0 < a -> a <= b -> log10 a <= log10 b). { intros a b Ha Hab. unfold log10. apply Rmult_le_compat_r; [left; now apply Rinv_0_lt_compat|]. destruct Hab as [Hab| ->]; [left; now apply ln_increasing|lra]. }
  assert (LP : forall a, log10 (pow10 a) = a). { intros a. unfold log10, pow10. rewrite ln_exp. field. lra. }
  assert (LD : forall a b, 0 < a -> 0 < b -> log10 (a / b) = log10 a - log10 b). { intros a b Ha Hb. unfold log10. assert (E : ln (a / b) = ln a - ln b) by (unfold Rdiv; rewrite ln_mult, ln_Rinv by (auto using Rinv_0_lt_compat); lra). rewrite E. field. lra. }
  assert (T : 0 < 10 ^ octave) by (apply pow_lt; lra). assert (T3 : 0 < 10 ^ 30) by (apply pow_lt; lra).
  assert (LT : log10 (10 ^ octave) = INR octave). { unfold log10. rewrite ln_pow by lra. field. lra. }
  unfold log_range. destruct (Rleb_spec vmax 0); [lra|]. cbv zeta. set (d := Rmax (/ 10 ^ 30) vmin). assert (I3 : 0 < / 10 ^ 30) by now apply Rinv_0_lt_compat. assert (Pd : 0 < d) by (unfold d; apply Rlt_le_trans with (/ 10 ^ 30); [exact I3|apply Rmax_l]).
  set (v0 := if Rltb (INR octave) (log10 (vmax / d)) then vmax / 10 ^ octave else vmin).
  assert (P0 : 0 < v0 /\ v0 <= vmax /\ (forall v, vmin <= v -> vmax <= v * 10 ^ octave -> v0 <= v) /\ (/ 10 ^ 30 <= vmin -> log10 vmax - log10 v0 <= INR octave)).
  { unfold v0. destruct (Rltb_spec (INR octave) (log10 (vmax / d))) as [C|C].
    - split; [now apply Rdiv_lt_0_compat|]. split; [|split].
      + assert (1 <= 10 ^ octave) by (apply pow_R1_Rle; lra). apply Rmult_le_reg_r with (10 ^ octave); [exact T|]. unfold Rdiv. rewrite Rmult_assoc, Rinv_l by lra. nra.
      + intros v _ K. apply Rmult_le_reg_r with (10 ^ octave); [exact T|]. unfold Rdiv. rewrite Rmult_assoc, Rinv_l by lra. lra.
      + intros _. rewrite (LD vmax (10 ^ octave)) by assumption. rewrite LT. lra.
    - assert (Pm : 0 < vmin).
      { destruct Hd as [Hd|Hd]; [exact Hd|]. destruct (Rlt_dec 0 vmin) as [|N]; [assumption|]. exfalso. apply C. assert (Ed : d = / 10 ^ 30) by (unfold d; apply Rmax_left; lra). rewrite Ed.
        replace (vmax / / 10 ^ 30) with (vmax * 10 ^ 30) by (field; lra). rewrite <- LT. unfold log10. apply Rmult_lt_compat_r; [now apply Rinv_0_lt_compat|]. now apply ln_increasing. }
      split; [exact Pm|]. split; [exact Hv|]. split; [tauto|]. intros K. rewrite (LD vmax d) in C by assumption. assert (Ed : d = vmin) by (unfold d; now apply Rmax_right). rewrite Ed in C. lra. }
  destruct P0 as (P0 & P1 & P2 & P3). destruct (Rleb_spec v0 0); [lra|]. eexists _, _. split; [reflexivity|].
  assert (Hi : vmax < pow10 (log10 vmax + 0.1)) by (rewrite <- (PL vmax) at 1 by exact Hp; apply PM; lra).
  assert (Lo : pow10 (log10 v0 - 0.05) < v0) by (rewrite <- (PL v0) at 2 by exact P0; apply PM; lra).
  split; [unfold pow10; apply exp_pos|]. split; [exact Hi|]. split.
  - intros v Hvv K. specialize (P2 v (proj1 Hvv) K). lra.
  - intros K. specialize (P3 K). rewrite LD by (unfold pow10; apply exp_pos). rewrite !LP. lra.
Qed.
Print Assumptions C95_log_range.
Example C95_case : exists l, color_gradient (128, 0, 255)%Z 3 0.9 1.5 = Ok l /\ length l = 3%nat.
Proof.
  destruct (C95_gradient (128, 0, 255)%Z 3 0.9 1.5) as [E H]; [intros [|[|k]]; cbn; lia|]. destruct (color_gradient _ _ _ _) as [l|e] eqn:C; [exists l; split; [reflexivity|]; destruct (H l eq_refl); lia|].
  exfalso. unfold color_gradient in C. destruct (Rleb_spec 0.9 0); [lra|]. destruct (Rleb_spec 1.5 0); [lra|]. destruct (Rleb_spec 1.5 0.9); [lra|]. cbn [Z.ltb Z.compare] in C.
  assert (e = ValueError) as ->; [|destruct (proj1 E eq_refl) as [|[|]]; first [lra|lia]].
  clear -C. revert C. generalize (geomspace 1.5 0.9 (Z.to_nat 3)). induction l as [|f l IH]; cbn [mapE]; [discriminate|]. unfold scale_color at 1. destruct (Rleb f 0); cbn [bind]; [now intros [= <-]|]. destruct (mapE _ l) eqn:M; cbn [bind]; [discriminate|]. intros [= <-]. now apply IH.
Qed.
